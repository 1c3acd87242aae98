(** * Concrete SOP runs: hypotheses are satisfiable; refuted parts of C30 and C31. *)
From Coq Require Import List Arith ZArith Lia Bool QArith Qabs Qpower.
From Verif Require Import Base PyList Strategy StrategySpec StrategyProofs StrategyInv StrategyInv2
  StrategyInv3 PropStrategy SRBF Pareto ParetoProofs PropPareto SOP SOPProofs SOPCenters SOPInv PropSOP SOPTotal ExSRBF.
Import ListNotations.
Local Close Scope Q_scope.

(** Points are naturals (one variable on a scale of thousandths), Euclidean distance. *)
Definition sdist (x y : nat) : Q := Z.abs (Z.of_nat x - Z.of_nat y) # 1000.
Definition sclose (x y k : nat) (t : Q) : bool := Qlt_b (sdist x y) (r_max * (1 # 2) ^ Z.of_nat k * t).
Definition shk (c : cfg nat val) (nc : Z) := sop_strategy c sdist sclose nc.
(** A candidate search that returns the points a, a+1, ... *)
Definition ssr (a : nat) : sop_search nat := fun i _ _ => Ok (a + i).
Notation sop_op := (op nat val (sop_search nat)).
Definition sdesign : res (list nat) := Ok [100; 300; 700; 900].
Definition srun (c : cfg nat val) (nc : Z) (ops : list sop_op) := run c (shk c nc) sdesign sop0 ops.
Definition spr (c : cfg nat val) (nc : Z) (ops : list sop_op) : proc nat val (sop nat) :=
  match y_proc (srun c nc ops) with
  | Some p => p
  | None => mkProc (base0 nat val) sop0 [] [] 0 []
  end.
Lemma spr_ok : forall c nc ops,
  match y_proc (srun c nc ops) with Some _ => true | None => false end = true ->
  reached c (shk c nc) sdesign sop0 (spr c nc ops).
Proof.
  intros c nc ops H. exists ops. left. unfold spr, srun in *.
  destruct (y_proc (run c (shk c nc) sdesign sop0 ops)); [reflexivity|discriminate].
Qed.
Definition spp (a : nat) : sop_op := Propose sdesign (ssr a).
Definition ask1 (a id : nat) (v : Q) : list sop_op := [spp a; Accept id; Update id (SCompleted (Fin v))].
Definition init4 : list sop_op := ask1 0 0 4 ++ ask1 0 1 1 ++ ask1 0 2 3 ++ ask1 0 3 2.
(** Propose and accept [n] evaluations from id [id] on. *)
Fixpoint batch (a id n : nat) : list sop_op :=
  match n with O => [] | S n' => spp a :: Accept id :: batch a (S id) n' end.
Fixpoint finish_all (id : nat) (vs : list Q) : list sop_op :=
  match vs with [] => [] | v :: vs' => Update id (SCompleted (Fin v)) :: finish_all (S id) vs' end.

(** ** A synchronous run with 4 centers and batches of 4. *)
Definition sync4 : list sop_op :=
  init4 ++ batch 110 4 4 ++ finish_all 4 [5; 6; 7; 8]%Q ++ batch 510 8 4 ++ finish_all 8 [5; 6; 7; 8]%Q
  ++ batch 610 12 4.
Definition c4 := rcfg 40 false 4 4.

Example ex_sync4 :
  let p := spr c4 4 sync4 in
  reached c4 (shk c4 4) sdesign sop0 p /\ protocol (p_hist p) /\ length (completed (p_hist p)) = 12 /\
  map (fun r => (r_x r, r_nfail r, r_ntabu r)) (s_evals (p_e p)) =
    [(900, 1, 0); (700, 3, 0); (300, 1, 0); (100, 3, 0); (113, 0, 0); (112, 0, 0); (111, 0, 0); (110, 0, 0);
     (513, 0, 0); (512, 0, 0); (511, 0, 0); (510, 0, 0)] /\
  map (@n_index nat) (s_centers (p_e p)) = [1; 3; 2; 0].
Proof.
  cbv zeta. split; [apply spr_ok; vm_compute; reflexivity|].
  split; [apply protocol_check; vm_compute; reflexivity|]. repeat (split; [vm_compute; reflexivity|]); vm_compute; reflexivity.
Qed.

(** The run above meets every hypothesis of [C31_sync_never_fails_partial]. *)
Example ex_C31_sync :
  exists s0 e0, construct c4 (shk c4 4) sdesign sop0 = Ok (s0, e0) /\
  let p := spr c4 4 sync4 in
  c_async c4 = false /\ Z.of_nat (c_batch c4) = 4%Z /\ 0 < c_batch c4 /\
  c_max_evals c4 <> Z.of_nat (c_num_pts c4) /\ 2 <= length (batch_queue s0) /\
  (forall x y, c_peqb c4 x y = true <-> x = y) /\ (forall x y, x <> y -> ~ (sdist x y == 0)%Q) /\
  reached c4 (shk c4 4) sdesign sop0 p /\
  count (@is_abort nat val) (p_hist p) = 0 /\ count (@is_resume nat val) (p_hist p) = 0 /\
  protocol (p_hist p) /\ NoDup (batch_queue s0 ++ queued_later (p_hist p)) /\ length (p_out p) = 4 /\
  ((forall d o, (forall j x q, exists y, o j x q = Ok y) -> exists r, do_propose c4 (shk c4 4) d o p = Ok r) /\
   (forall o ev v, In o (p_out p) -> o_ev o = Some ev -> exists p', do_complete c4 (shk c4 4) o ev v p = Ok p')).
Proof.
  destruct (construct c4 (shk c4 4) sdesign sop0) as [[s0 e0]|] eqn:E; [|vm_compute in E; discriminate].
  exists s0, e0. split; [reflexivity|]. cbv zeta.
  assert (Q0 : batch_queue s0 = [100; 300; 700; 900] \/ batch_queue s0 = [900; 700; 300; 100]).
  { vm_compute in E. injection E as <- _. vm_compute. auto. }
  assert (N : NoDup (batch_queue s0 ++ queued_later (p_hist (spr c4 4 sync4)))).
  { let v := eval vm_compute in (queued_later (p_hist (spr c4 4 sync4))) in
      replace (queued_later (p_hist (spr c4 4 sync4))) with v by (vm_compute; reflexivity).
    destruct Q0 as [-> | ->]; repeat (constructor; [simpl; intuition discriminate|]); constructor. }
  assert (A1 : c_async c4 = false) by reflexivity.
  assert (A2 : Z.of_nat (c_batch c4) = 4%Z) by reflexivity.
  assert (A3 : 0 < c_batch c4) by (vm_compute; lia).
  assert (A4 : c_max_evals c4 <> Z.of_nat (c_num_pts c4)) by (vm_compute; discriminate).
  assert (A5 : 2 <= length (batch_queue s0)) by (destruct Q0 as [-> | ->]; simpl; lia).
  assert (A6 : forall x y, c_peqb c4 x y = true <-> x = y) by (intros; apply Nat.eqb_eq).
  assert (A7 : forall x y, x <> y -> ~ (sdist x y == 0)%Q).
  { intros x y H K. unfold sdist, Qeq in K. cbn [Qnum Qden] in K. lia. }
  assert (A8 : reached c4 (shk c4 4) sdesign sop0 (spr c4 4 sync4)) by (apply spr_ok; vm_compute; reflexivity).
  assert (A9 : count (@is_abort nat val) (p_hist (spr c4 4 sync4)) = 0) by (vm_compute; reflexivity).
  assert (A10 : count (@is_resume nat val) (p_hist (spr c4 4 sync4)) = 0) by (vm_compute; reflexivity).
  assert (A11 : protocol (p_hist (spr c4 4 sync4))) by (apply protocol_check; vm_compute; reflexivity).
  repeat (split; [assumption|]). split; [vm_compute; reflexivity|].
  exact (@C31_sync_never_fails_partial nat c4 sdist sclose 4%Z sdesign s0 e0 E A1 A2 A3 A4 A5 A6 A7 _ A8 A9 A10 A11 N).
Qed.

(** An asynchronous run in which one point fails four times, becomes tabu and is reset after its
    tenure: the tabu counter and the failures of the best point after each evaluation. *)
Definition ca := rcfg 80 true 0 4.
Definition one (k : nat) : list sop_op := ask1 (310 + k) (4 + k) (10 + inject_Z (Z.of_nat k)).
Definition asyn (n : nat) : list sop_op := init4 ++ concat (map one (seq 0 n)).
Example ex_tabu :
  map (fun n => let p := spr ca 4 (asyn n) in
    option_map (fun r => (r_x r, r_nfail r, r_ntabu r)) (nth_error (s_evals (p_e p)) 1)) [0; 1; 7; 11; 12; 14; 15; 16]
  = [Some (700, 0, 0); Some (700, 1, 0); Some (700, 3, 0); Some (700, 0, 1); Some (700, 0, 2); Some (700, 0, 4);
     Some (700, 1, 5); Some (700, 0, 0)] /\
  reached ca (shk ca 4) sdesign sop0 (spr ca 4 (asyn 16)) /\
  processed_adaptive (spr ca 4 (asyn 16)).
Proof.
  split; [vm_compute; reflexivity|]. split; [apply spr_ok; vm_compute; reflexivity|].
  exists 4, 310, (Fin 10). vm_compute. tauto.
Qed.

(** ** C30 refuted: after the first adaptive evaluation, selecting by current Pareto ranks would
    make entry 0 (rank 1) the new center; the code takes entry 2 (rank 2). *)
Theorem C30_not_by_rank_refuted :
  exists (p : proc nat val (sop nat)) F e1 e2 l,
  reached ca (shk ca 4) sdesign sop0 p /\ protocol (p_hist p) /\
  (* the current Pareto ranks *)
  update_ranks sdist (p_s p) (p_e p) = Ok F /\ pareto_ranks sdist (s_evals (p_e p)) F /\
  map (@w_rank nat) F = [Some 1; Some 1; Some 2; Some 1; Some 2] /\
  (* selection with these ranks *)
  update_center_list sclose 4 80 4 (p_s p) (p_e p) F = Ok e1 /\ map (@n_index nat) (s_centers e1) = [3; 1; 3; 0] /\
  (* what the strategy does *)
  hk_generate (shk ca 4) (p_e p) (p_s p) 1 (ssr 500) = Ok (e2, Some l) /\ map (@n_index nat) (s_centers e2) = [3; 1; 3; 2].
Proof.
  pose (p := spr ca 4 (asyn 1)).
  assert (EF : exists F, update_ranks sdist (p_s p) (p_e p) = Ok F).
  { destruct (update_ranks sdist (p_s p) (p_e p)) as [F|] eqn:E; [eauto|]. vm_compute in E. discriminate. }
  destruct EF as [F EF]. exists p, F. do 3 eexists.
  split; [apply spr_ok; vm_compute; reflexivity|]. split; [apply protocol_check; vm_compute; reflexivity|].
  split; [exact EF|]. split; [exact (update_ranks_pareto _ _ _ EF)|].
  vm_compute in EF. injection EF as <-.
  do 3 (split; [vm_compute; reflexivity|]). split; vm_compute; reflexivity.
Qed.

(** ** C31 refuted. All configurations are legal (ncenters = 4 >= batch_size), all runs respect
    the controller protocol, the candidate searches and the design never raise. *)

(** (a) Synchronous mode, batch_size 2 < ncenters 4: finishing the first batch raises. *)
Definition c2 := rcfg 40 false 2 4.
Definition ops_a : list sop_op := init4 ++ batch 110 4 2 ++ finish_all 4 [5]%Q.
Theorem C31_small_batch_refuted :
  exists (p : proc nat val (sop nat)) o ev, reached c2 (shk c2 4) sdesign sop0 p /\ protocol (p_hist p) /\
  count (@is_abort nat val) (p_hist p) = 0 /\ count (@is_reject nat val) (p_hist p) = 0 /\
  p_out p = [o] /\ o_ev o = Some ev /\ do_complete c2 (shk c2 4) o ev (Fin 6) p = Err ValueError.
Proof.
  exists (spr c2 4 ops_a). do 2 eexists. split; [apply spr_ok; vm_compute; reflexivity|].
  split; [apply protocol_check; vm_compute; reflexivity|]. repeat (split; [vm_compute; reflexivity|]); vm_compute; reflexivity.
Qed.

(** (b) Asynchronous mode, more workers than centers: the fifth adaptive proposal raises. *)
Definition ops_b : list sop_op := init4 ++ concat (map (fun k => [spp (310 + k); Accept (4 + k)]) (seq 0 4)).
Theorem C31_many_workers_refuted :
  exists p : proc nat val (sop nat), reached ca (shk ca 4) sdesign sop0 p /\ protocol (p_hist p) /\
  count (@is_abort nat val) (p_hist p) = 0 /\ count (@is_reject nat val) (p_hist p) = 0 /\
  length (p_out p) = 4 /\ do_propose ca (shk ca 4) sdesign (ssr 400) p = Err IndexError.
Proof.
  exists (spr ca 4 ops_b). split; [apply spr_ok; vm_compute; reflexivity|].
  split; [apply protocol_check; vm_compute; reflexivity|]. repeat (split; [vm_compute; reflexivity|]); vm_compute; reflexivity.
Qed.

(** (c) Asynchronous mode, one worker: rejected proposals (or killed evaluations) use up the
    centers; after four of them the next call raises although nothing is outstanding. *)
Definition ops_c : list sop_op := init4 ++ concat (map (fun k => [spp (310 + k); Reject (4 + k)]) (seq 0 4)).
Definition ops_c' : list sop_op :=
  init4 ++ concat (map (fun k => [spp (310 + k); Accept (4 + k); Update (4 + k) SKilled]) (seq 0 4)).
Theorem C31_rejects_leak_centers_refuted :
  (exists p : proc nat val (sop nat), reached ca (shk ca 4) sdesign sop0 p /\ protocol (p_hist p) /\
  count (@is_abort nat val) (p_hist p) = 0 /\ p_out p = [] /\
  do_propose ca (shk ca 4) sdesign (ssr 400) p = Err IndexError) /\
  (exists p : proc nat val (sop nat), reached ca (shk ca 4) sdesign sop0 p /\ protocol (p_hist p) /\
  count (@is_reject nat val) (p_hist p) = 0 /\ p_out p = [] /\
  do_propose ca (shk ca 4) sdesign (ssr 400) p = Err IndexError).
Proof.
  split; [exists (spr ca 4 ops_c)|exists (spr ca 4 ops_c')]; (split; [apply spr_ok; vm_compute; reflexivity|]);
  (split; [apply protocol_check; vm_compute; reflexivity|]); repeat (split; [vm_compute; reflexivity|]); vm_compute; reflexivity.
Qed.

(** (d) Synchronous mode with batch_size = ncenters: one killed evaluation of a batch makes the
    completion of the batch raise. *)
Definition ops_d : list sop_op := init4 ++ batch 110 4 4 ++ [Update 4 SKilled] ++ finish_all 5 [5; 6]%Q.
Theorem C31_kill_in_batch_refuted :
  exists (p : proc nat val (sop nat)) o ev, reached c4 (shk c4 4) sdesign sop0 p /\ protocol (p_hist p) /\
  count (@is_abort nat val) (p_hist p) = 1 /\ p_out p = [o] /\ o_ev o = Some ev /\
  do_complete c4 (shk c4 4) o ev (Fin 6) p = Err ValueError.
Proof.
  exists (spr c4 4 ops_d). do 2 eexists. split; [apply spr_ok; vm_compute; reflexivity|].
  split; [apply protocol_check; vm_compute; reflexivity|]. repeat (split; [vm_compute; reflexivity|]); vm_compute; reflexivity.
Qed.

(** (e) Synchronous mode: an initial evaluation killed while the strategy waits for the design is
    evaluated again as an adaptive one, and its completion raises (there are no centers). *)
Definition ops_e : list sop_op := batch 0 0 4 ++ [spp 0; Update 0 SKilled; spp 0; Accept 4] ++ finish_all 1 [1; 2; 3]%Q.
Theorem C31_kill_in_design_refuted :
  exists (p : proc nat val (sop nat)) o ev, reached c4 (shk c4 4) sdesign sop0 p /\ protocol (p_hist p) /\
  count (@is_abort nat val) (p_hist p) = 1 /\ p_out p = [o] /\ o_ev o = Some ev /\ o_x o = 900 /\
  do_complete c4 (shk c4 4) o ev (Fin 6) p = Err IndexError.
Proof.
  exists (spr c4 4 ops_e). do 2 eexists. split; [apply spr_ok; vm_compute; reflexivity|].
  split; [apply protocol_check; vm_compute; reflexivity|]. repeat (split; [vm_compute; reflexivity|]); vm_compute; reflexivity.
Qed.

(** (f) Synchronous mode: two centers of a batch yield the same point. *)
Definition same : sop_search nat := fun i _ _ => Ok (if i =? 3 then 110 else 110 + i).
Definition ops_f : list sop_op :=
  init4 ++ Propose sdesign same :: Accept 4 :: batch 110 5 3 ++ finish_all 4 [5; 6; 7]%Q.
Theorem C31_duplicate_points_refuted :
  exists (p : proc nat val (sop nat)) o ev, reached c4 (shk c4 4) sdesign sop0 p /\ protocol (p_hist p) /\
  count (@is_abort nat val) (p_hist p) = 0 /\ count (@is_reject nat val) (p_hist p) = 0 /\ p_out p = [o] /\ o_ev o = Some ev /\
  do_complete c4 (shk c4 4) o ev (Fin 6) p = Err ValueError.
Proof.
  exists (spr c4 4 ops_f). do 2 eexists. split; [apply spr_ok; vm_compute; reflexivity|].
  split; [apply protocol_check; vm_compute; reflexivity|]. repeat (split; [vm_compute; reflexivity|]); vm_compute; reflexivity.
Qed.

(** (g) Asynchronous mode: the design is still running and only one evaluation has completed
    when a further worker asks for a point. *)
Definition ops_g : list sop_op := batch 0 0 4 ++ finish_all 0 [1]%Q.
Theorem C31_early_worker_refuted :
  exists p : proc nat val (sop nat), reached ca (shk ca 4) sdesign sop0 p /\ protocol (p_hist p) /\
  count (@is_abort nat val) (p_hist p) = 0 /\ count (@is_reject nat val) (p_hist p) = 0 /\
  length (p_out p) = 3 /\ do_propose ca (shk ca 4) sdesign (ssr 400) p = Err ValueError.
Proof.
  exists (spr ca 4 ops_g). split; [apply spr_ok; vm_compute; reflexivity|].
  split; [apply protocol_check; vm_compute; reflexivity|]. repeat (split; [vm_compute; reflexivity|]); vm_compute; reflexivity.
Qed.

(** (h) Resume: a crash with all centers in process leaves them in process for ever. *)
Definition ops_h : list sop_op :=
  init4 ++ concat (map (fun k => [spp (310 + k); Accept (4 + k)]) (seq 0 4)) ++ [Update 4 (SCompleted (Fin 9))] ++
  [spp 320; Accept 8; Update 8 (SCompleted (Fin 9)); Crash; Resume; spp 330; Accept 9].
Theorem C31_resume_refuted :
  exists p : proc nat val (sop nat), reached ca (shk ca 4) sdesign sop0 p /\ protocol (p_hist p) /\
  count (@is_abort nat val) (p_hist p) = 0 /\ count (@is_reject nat val) (p_hist p) = 0 /\
  length (p_out p) = 1 /\ do_propose ca (shk ca 4) sdesign (ssr 400) p = Err IndexError.
Proof.
  exists (spr ca 4 ops_h). split; [apply spr_ok; vm_compute; reflexivity|].
  split; [apply protocol_check; vm_compute; reflexivity|]. repeat (split; [vm_compute; reflexivity|]); vm_compute; reflexivity.
Qed.
