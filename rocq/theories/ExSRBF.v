(** * Concrete SRBF runs: hypotheses are satisfiable; refuted parts of C07 and C21. *)
From Coq Require Import List Arith ZArith Lia Bool QArith.
From Verif Require Import Base Strategy StrategySpec StrategyProofs StrategyInv StrategyInv2
  StrategyInv3 StrategyInv4 StrategySerial PropStrategy SRBF SRBFProofs SRBFInv PropSRBF.
Import ListNotations.
Local Open Scope nat_scope.

(** Points are naturals; one or two design points. *)
Definition rcfg (maxe : Z) (async : bool) (batch num : nat) : cfg nat val :=
  mkCfg maxe async batch true num None None (fun _ => false) Nat.eqb false.
Definition rw : list Q := [3 # 10; 1 # 2; 95 # 100].
Definition rhk (c : cfg nat val) (dim : nat) := srbf_strategy c rw dim.
(** A candidate search that returns [n] points numbered from [a]. *)
Definition srch (a : nat) : cand_search nat := fun _ n _ _ => Ok (seq a n).
Notation rop := (op nat val (cand_search nat)).
Definition rrun (c : cfg nat val) (dim : nat) (ops : list rop) :=
  run c (rhk c dim) (Ok [10; 11]) srbf0 ops.
Definition rpr (c : cfg nat val) (dim : nat) (ops : list rop) : proc nat val srbf :=
  match y_proc (rrun c dim ops) with
  | Some p => p
  | None => mkProc (base0 nat val) srbf0 [] [] 0 []
  end.
Lemma rpr_ok : forall c dim ops,
  match y_proc (rrun c dim ops) with Some _ => true | None => false end = true ->
  reached c (rhk c dim) (Ok [10; 11]) srbf0 (rpr c dim ops).
Proof.
  intros c dim ops H. exists ops. left. unfold rpr, rrun in *.
  destruct (y_proc (run c (rhk c dim) (Ok [10; 11]) srbf0 ops)); [reflexivity|discriminate].
Qed.

Fixpoint protocol_b (pre h : list (event nat val)) : bool :=
  match h with
  | [] => true
  | ev :: h' => (if is_call ev then match undecided pre with [] => true | _ => false end else true)
                && protocol_b (pre ++ [ev]) h'
  end.
Lemma protocol_check : forall h, protocol_b [] h = true -> protocol h.
Proof.
  intros h H h1 ev h2 E C.
  assert (G : forall k pre, protocol_b pre k = true -> forall a b, k = a ++ ev :: b -> undecided (pre ++ a) = []).
  { clear -C. induction k as [|y k IH]; intros pre H a b E; [destruct a; discriminate|].
    simpl in H. apply andb_prop in H. destruct H as [H1 H2]. destruct a as [|z a].
    - injection E as -> ->. rewrite C in H1. rewrite app_nil_r. destruct (undecided pre); [reflexivity|discriminate].
    - injection E as -> ->. replace (pre ++ z :: a) with ((pre ++ [z]) ++ a) by (rewrite <- app_assoc; reflexivity).
      eapply IH; eauto. }
  exact (G h [] H h1 h2 E).
Qed.

Definition pr (a : nat) : rop := Propose (Ok [20; 21]) (srch a).
Definition ask (a id : nat) (v : Q) : list rop := [pr a; Accept id; Update id (SCompleted (Fin v))].

(** ** A synchronous run with batches of two: three improving steps (the third one doubles the
    radius, which stays at its maximum), then failures until the radius is halved. *)
Definition batch2 (a id : nat) (v1 v2 : Q) : list rop :=
  [pr a; Accept id; pr a; Accept (S id); Update id (SCompleted (Fin v1));
   Update (S id) (SCompleted (Fin v2))].
Definition sync_ops : list rop :=
  ask 0 0 5 ++ ask 0 1 6 ++ batch2 30 2 9 8 ++ batch2 40 4 7 7 ++ batch2 50 6 3 4 ++
  batch2 60 8 3 3 ++ batch2 70 10 4 4.
Example ex_sync :
  let c := rcfg 40 false 2 2 in let p := rpr c 3 sync_ops in
  legal c /\ reached c (rhk c 3) (Ok [10; 11]) srbf0 p /\ is_failtol c 3 2 /\ ft c 3 = 2 /\
  s_steps (p_e p) = [[Fin 9; Fin 8]; [Fin 7; Fin 7]; [Fin 3; Fin 4]; [Fin 3; Fin 3]; [Fin 4; Fin 4]] /\
  flags (s_steps (p_e p)) = [true; true; true; false; false] /\
  (s_radius (p_e p) == r_max / 2)%Q /\ s_used (p_e p) = [3 # 10; 1 # 2; 95 # 100; 3 # 10; 1 # 2; 95 # 100; 3 # 10; 1 # 2; 95 # 100; 3 # 10] /\
  asked (p_hist p) = 10 /\ converged (p_s p) = false.
Proof.
  cbv zeta. split; [right; simpl; lia|]. split; [apply rpr_ok; vm_compute; reflexivity|].
  split; [apply is_failtol_ft; [right; simpl; lia|reflexivity]|].
  repeat split; vm_compute; reflexivity.
Qed.

(** ** An asynchronous run that reaches convergence by 4 failtol consecutive failures. *)
Definition async_conv_ops : list rop :=
  ask 0 0 5 ++ ask 0 1 6 ++ concat (map (fun i => ask (30 + i) (2 + i) 9) (seq 0 17)).
Example ex_async_conv :
  let c := rcfg 40 true 0 2 in let p := rpr c 3 async_conv_ops in
  legal c /\ reached c (rhk c 3) (Ok [10; 11]) srbf0 p /\ protocol (p_hist p) /\ is_failtol c 3 4 /\ ft c 3 = 4 /\
  lead false (rev (flags (s_steps (p_e p)))) = 16 /\ converged (p_s p) = true /\
  level (ft c 3) (rev (flags (s_steps (p_e p)))) = 4.
Proof.
  cbv zeta. split; [left; reflexivity|]. split; [apply rpr_ok; vm_compute; reflexivity|].
  split; [apply protocol_check; vm_compute; reflexivity|]. split; [reflexivity|].
  repeat split; vm_compute; reflexivity.
Qed.

(** ** C07 refuted in asynchronous mode: evaluation 5 starts before the third success (which
    opens a new event epoch) and completes after it; its data never reach the surrogate although
    no restart has happened. *)
Definition c07_ops : list rop :=
  ask 0 0 5 ++ ask 0 1 6 ++
  [pr 30; Accept 2; pr 31; Accept 3; pr 32; Accept 4; pr 33; Accept 5;
   Update 2 (SCompleted (Fin 4)); Update 3 (SCompleted (Fin 3)); Update 4 (SCompleted (Fin 2));
   Update 5 (SCompleted (Fin (-100)))].
Theorem C07_surrogate_complete_refuted :
  exists (c : cfg nat val) (p : proc nat val srbf),
  c_async c = true /\ reached c (rhk c 3) (Ok [10; 11]) srbf0 p /\ protocol (p_hist p) /\
  restarts (p_hist p) = 0 /\
  In (33, Fin (-100)) (run_data (p_hist p)) /\ In 33 (X (p_s p)) /\
  ~ In 33 (X_ (p_s p)) /\ ~ In 33 (map fst (sur (p_s p))).
Proof.
  exists (rcfg 40 true 0 2), (rpr (rcfg 40 true 0 2) 3 c07_ops).
  split; [reflexivity|]. split; [apply rpr_ok; vm_compute; reflexivity|].
  split; [apply protocol_check; vm_compute; reflexivity|].
  split; [vm_compute; reflexivity|]. vm_compute. repeat split; tauto || intuition discriminate.
Qed.

(** ** C21 refuted: the initial design found 5, the first adaptive value is 900, and it counts as
    an improving step, becoming the reference. *)
Theorem C21_first_step_refuted :
  exists (c : cfg nat val) (p : proc nat val srbf),
  reached c (rhk c 3) (Ok [10; 11]) srbf0 p /\
  X_ (p_s p) = [11; 10; 30] /\ fX_ (p_s p) = [Fin 5; Fin 6; Fin 900] /\
  flags (s_steps (p_e p)) = [true] /\ s_status (p_e p) = 1%Z /\ s_fbest (p_e p) = Fin 900.
Proof.
  exists (rcfg 40 true 0 2), (rpr (rcfg 40 true 0 2) 3 (ask 0 0 5 ++ ask 0 1 6 ++ ask 30 2 900)).
  split; [apply rpr_ok; vm_compute; reflexivity|]. repeat split; vm_compute; reflexivity.
Qed.

(** A step can count as failing although it found the best value of the run: 1000 then 999.5. *)
Theorem C21_small_improvement_drifts :
  exists (c : cfg nat val) (p : proc nat val srbf),
  reached c (rhk c 3) (Ok [10; 11]) srbf0 p /\
  flags (s_steps (p_e p)) = [true; false; true] /\
  s_steps (p_e p) = [[Fin 1000]; [Fin (9995 # 10)]; [Fin (9985 # 10)]].
Proof.
  exists (rcfg 40 true 0 2), (rpr (rcfg 40 true 0 2) 3
    (ask 0 0 5000 ++ ask 0 1 6000 ++ ask 30 2 1000 ++ ask 31 3 (9995 # 10) ++ ask 32 4 (9985 # 10))).
  split; [apply rpr_ok; vm_compute; reflexivity|]. repeat split; vm_compute; reflexivity.
Qed.

(** ** C12: the hypotheses of the serial-run theorem are met. *)
Example ex_C12_srbf : forall f : nat -> val, exists p h,
  let c := rcfg 9 false 2 2 in
  y_proc (serial c (rhk c 3) f (fun _ => Ok [20; 21]) (fun i => srch (30 + i)) 10
            (start c (rhk c 3) (Ok [10; 11]) srbf0)) = Some p /\
  p_hist p = h ++ [EvTerminate] /\ length (completed h) = 9 /\
  Forall (fun q => snd q = f (fst q)) (completed h) /\ outstanding h = [].
Proof.
  intros f.
  apply (@C12_srbf_serial_run_finishes nat (rcfg 9 false 2 2) rw 3 (Ok [10; 11])
    (or_intror (le_n_S 0 1 (le_S 0 0 (le_n 0)))) f (fun _ => Ok [20; 21]) (fun i => srch (30 + i))).
  - discriminate.
  - intros i s n ws r. eexists. split; [reflexivity|]. rewrite seq_length. lia.
  - exact I.
  - simpl. lia.
  - reflexivity.
  - simpl. lia.
  - intros i. eexists. split; [reflexivity|]. simpl. lia.
  - eexists. split; [reflexivity|]. simpl. lia.
Qed.
