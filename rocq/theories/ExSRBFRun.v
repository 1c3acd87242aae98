(** * C61: a case that meets the hypotheses, and refutations without them. *)
From Coq Require Import List Arith ZArith Lia Bool QArith Reals Lra Qreals.
From Verif Require Import Base PyList Strategy StrategySpec StrategyProofs StrategyInv StrategyInv2
  StrategyInv3 StrategyInv4 StrategySerial PropStrategy SRBF SRBFProofs SRBFInv PropSRBF Box PropBox Cand PropCand EndToEnd
  SyncRun Lin RBF PropRBF PosDef PropSurr PropSolve SRBFRun.
Import ListNotations.
Local Close Scope Q_scope.
Local Open Scope R_scope.

(** The interval [0, 1], the design {0, 1}; points are compared by value. *)
Definition q1 : prob := mkProb [0] [1] [].
Definition d1 : list pt := [[0]; [1]].
Definition peq1 (x y : pt) : bool := if list_eq_dec Req_EM_T x y then true else false.
Definition cfg1 (async : bool) (workers : nat) : cfg pt val := mkCfg 40 async workers true 2 None None (fun _ => false) peq1 false.
Definition w1 : list Q := [3 # 10; 1 # 2]%Q.
Definition dist1 : pt -> pt -> R := fun _ _ => 0.
Definition hk1 (async : bool) (workers : nat) := srbf_rbf q1 1 dist1 1 None (/ 1000000) (cfg1 async workers) w1.
Definition ask1 : op pt val (nat -> nat -> R) := Propose (Ok d1) (fun _ _ => 0).

Lemma set1 : setting q1 1 dist1 1 None.
Proof.
  constructor; try (simpl; lra); try lia; try reflexivity; try discriminate.
  split; [|intros i []]. split; [reflexivity|]. split; [reflexivity|]. intros [|i] H; [|lia]. simpl. lra.
Qed.
Lemma affine1 : forall a b x, affine 1 a b x = a + nth 0 b 0 * nth 0 x 0.
Proof. intros. unfold affine. cbn [rsum]. lra. Qed.
Lemma gen1 : in_general_position 1 d1.
Proof.
  intros a b L H. pose proof (H [0] (or_introl eq_refl)) as H0. pose proof (H [1] (or_intror (or_introl eq_refl))) as H1.
  rewrite affine1 in H0, H1. simpl in H0, H1. split; [lra|]. intros [|k] Hk; [lra|lia].
Qed.
Lemma good1 : forall async workers, good_points q1 1 (cfg1 async workers) d1.
Proof.
  intros a w. split; [simpl; lia|]. split; [|exact gen1].
  assert (F : forall r, 0 <= r <= 1 -> feasible q1 1 [r]).
  { intros r Hr. split; [|intros i []]. split; [reflexivity|]. intros [|i] H; [simpl; lra|lia]. }
  constructor; [apply F; lra|]. constructor; [apply F; lra|constructor].
Qed.
Lemma not_gen1 : forall x, ~ in_general_position 1 [x].
Proof.
  intros x G. destruct (G (- nth 0 x 0) [1] eq_refl) as [_ K].
  - intros y [<-|[]]. rewrite affine1. simpl. lra.
  - specialize (K 0%nat ltac:(lia)). simpl in K. lra.
Qed.
Lemma user1 : forall workers, (0 < workers)%nat -> user_setting q1 1 dist1 1 None (/ 1000000) (cfg1 false workers) w1.
Proof.
  intros w Hw. constructor; try reflexivity; try discriminate.
  - exact set1.
  - right. exact Hw.
  - lra.
  - split; [exact I|]. split; constructor.
Qed.

(** A run with two workers that generates points: both design points are evaluated, a batch is
    proposed and its first point is evaluated. *)
Definition run1 : list (op pt val (nat -> nat -> R)) :=
  [ask1; Accept 0; ask1; Accept 1; ask1; Update 1 (SCompleted (Fin 3)); Update 0 (SCompleted (Fin 5));
   ask1; Accept 2; Update 2 (SCompleted (Fin 1)); ask1].
Example ex_C61 : user_setting q1 1 dist1 1 None (/ 1000000) (cfg1 false 2) w1 /\ good_points q1 1 (cfg1 false 2) d1 /\
  Forall (good_op q1 1 (cfg1 false 2)) run1 /\ Forall quiet_op run1 /\
  (exists p, y_proc (Strategy.run (cfg1 false 2) (hk1 false 2) (Ok d1) srbf0 run1) = Some p).
Proof.
  assert (G : Forall (good_op q1 1 (cfg1 false 2)) run1).
  { repeat constructor; try (exists d1; split; [reflexivity|apply good1]); eexists; reflexivity. }
  assert (Q : Forall (@quiet_op (nat -> nat -> R)) run1) by repeat constructor.
  split; [apply user1; lia|]. split; [apply good1|]. split; [exact G|]. split; [exact Q|].
  apply C61_srbf_run; auto; [apply user1; lia|apply good1].
Qed.

(** ** Refutations *)
(** propose_action raises if it has to generate points and the surrogate cannot predict. *)
Lemma raises : forall async workers (p : proc pt val srbf), below (cfg1 async workers) (p_s p) -> converged (p_s p) = false -> batch_queue (p_s p) = [] ->
  (async = true \/ pending_evals (p_s p) = 0%Z) -> (forall x, center (p_s p) = Ok x -> exists e, rbf_predict q1 1 (/ 1000000) (sur (p_s p)) x = Err e) ->
  forall d z, exists e, do_propose (cfg1 async workers) (hk1 async workers) d z p = Err e.
Proof.
  intros async workers p [B1 B2] C Q A R d z. unfold do_propose, propose_action, check_termination.
  destruct (c_max_evals (cfg1 async workers) <=? num_evals (p_s p) + pending_evals (p_s p))%Z eqn:El; [apply Z.leb_le in El; lia|].
  rewrite B1, C, Q. cbn [nonempty].
  assert (G : forall n, exists e, do_generate (hk1 async workers) n z (set_phase 2%nat (p_s p)) (p_e p) = Err e).
  { intros n. unfold do_generate. cbn [hk_generate hk1 srbf_rbf hooks_with srbf_strategy srbf_hooks]. unfold srbf_generate.
    destruct (get_weights w1 n (s_next (p_e p))) as [ws|e1]; [|eexists; reflexivity]. cbn [rbind]. unfold srbf_rbf_search.
    change (center (set_phase 2%nat (p_s p))) with (center (p_s p)). destruct (center (p_s p)) as [xb|e1] eqn:Ec; [|eexists; reflexivity].
    cbn [rbind]. change (sur (set_phase 2%nat (p_s p))) with (sur (p_s p)). destruct (R xb eq_refl) as [e1 ->]. eexists. reflexivity. }
  cbn [c_async cfg1]. destruct async.
  - destruct (G 1%nat) as [e1 E]. change (pending_evals (set_phase 2%nat (p_s p))) with (pending_evals (p_s p)). rewrite E. eexists. reflexivity.
  - destruct A as [A|A]; [discriminate|]. change (pending_evals (set_phase 2%nat (p_s p))) with (pending_evals (p_s p)). rewrite A. cbn [Z.eqb].
    destruct (G (c_batch (cfg1 false workers))) as [e1 E]. rewrite E. eexists. reflexivity.
Qed.

Lemma one_point : forall y v x, exists e, rbf_predict q1 1 (/ 1000000) [(y, v)] x = Err e.
Proof.
  intros y v x. destruct (rbf_predict q1 1 (/ 1000000) [(y, v)] x) as [r|e] eqn:E; [|eauto]. exfalso.
  apply predict_general in E; [exact (not_gen1 y E)|lra|exact (proj1 (se_wf set1))].
Qed.

Definition pr1 (async : bool) (ops : list (op pt val (nat -> nat -> R))) : proc pt val srbf :=
  match y_proc (Strategy.run (cfg1 async 2) (hk1 async 2) (Ok d1) srbf0 ops) with
  | Some p => p
  | None => mkProc (base0 pt val) srbf0 [] [] 0%nat []
  end.
Lemma pr1_ok : forall async ops,
  match y_proc (Strategy.run (cfg1 async 2) (hk1 async 2) (Ok d1) srbf0 ops) with Some _ => true | None => false end = true ->
  y_proc (Strategy.run (cfg1 async 2) (hk1 async 2) (Ok d1) srbf0 ops) = Some (pr1 async ops).
Proof.
  intros async ops H. unfold pr1. destruct (y_proc (Strategy.run (cfg1 async 2) (hk1 async 2) (Ok d1) srbf0 ops)); [reflexivity|discriminate].
Qed.

(** Asynchronous mode: with a third worker the very first request beyond the design raises
    (argmin of an empty sequence), though nothing went wrong. *)
Theorem C61_async_refuted : exists p, y_proc (Strategy.run (cfg1 true 2) (hk1 true 2) (Ok d1) srbf0 [ask1; Accept 0; ask1; Accept 1]) = Some p /\
  forall d z, exists e, do_propose (cfg1 true 2) (hk1 true 2) d z p = Err e.
Proof.
  exists (pr1 true [ask1; Accept 0; ask1; Accept 1]). split; [apply pr1_ok; vm_compute; reflexivity|]. apply raises; try (vm_compute; reflexivity).
  - split; vm_compute; reflexivity.
  - left. reflexivity.
  - intros x H. vm_compute in H. discriminate H.
Qed.

(** A value of +inf makes the next generation raise (scipy's solve_triangular refuses it). *)
Theorem C61_inf_refuted : exists p, y_proc (Strategy.run (cfg1 false 2) (hk1 false 2) (Ok d1) srbf0
    [ask1; Accept 0; ask1; Accept 1; Update 0 (SCompleted PInf); Update 1 (SCompleted (Fin 0))]) = Some p /\
  forall d z, exists e, do_propose (cfg1 false 2) (hk1 false 2) d z p = Err e.
Proof.
  exists (pr1 false [ask1; Accept 0; ask1; Accept 1; Update 0 (SCompleted PInf); Update 1 (SCompleted (Fin 0))]). split; [apply pr1_ok; vm_compute; reflexivity|]. apply raises; try (vm_compute; reflexivity).
  - split; vm_compute; reflexivity.
  - right. vm_compute. reflexivity.
  - intros x _. match goal with |- context [sur ?s] => replace (sur s) with [([1], PInf); ([0], Fin 0)] by (vm_compute; reflexivity) end.
    eexists. reflexivity.
Qed.

(** An evaluation of a design point that is killed twice is given up (the second time it is no
    longer an initial evaluation, because a third request was answered with nothing to do), and then
    every further request raises. *)
Theorem C61_killed_refuted : exists p, y_proc (Strategy.run (cfg1 false 2) (hk1 false 2) (Ok d1) srbf0
    [ask1; Accept 0; ask1; Accept 1; ask1; Update 0 (SCompleted (Fin 0)); Update 1 SKilled; ask1; Accept 2; Update 2 SKilled]) = Some p /\
  forall d z, exists e, do_propose (cfg1 false 2) (hk1 false 2) d z p = Err e.
Proof.
  exists (pr1 false [ask1; Accept 0; ask1; Accept 1; ask1; Update 0 (SCompleted (Fin 0)); Update 1 SKilled; ask1; Accept 2; Update 2 SKilled]). split; [apply pr1_ok; vm_compute; reflexivity|]. apply raises; try (vm_compute; reflexivity).
  - split; vm_compute; reflexivity.
  - right. vm_compute. reflexivity.
  - intros x _. match goal with |- context [sur ?s] => replace (sur s) with [([1] : pt, Fin 0)] by (vm_compute; reflexivity) end.
    apply one_point.
Qed.

(** After a crash the checkpoint may not contain a complete design any more: a third request was
    answered with nothing to do, one of the two design points was evaluated, crash.  The resumed
    strategy has forgotten the other one and raises at every request. *)
Theorem C61_resume_refuted : exists p, y_proc (Strategy.run (cfg1 false 2) (hk1 false 2) (Ok d1) srbf0
    [ask1; Accept 0; ask1; Accept 1; ask1; Update 0 (SCompleted (Fin 0)); Crash; Resume]) = Some p /\
  forall d z, exists e, do_propose (cfg1 false 2) (hk1 false 2) d z p = Err e.
Proof.
  exists (pr1 false [ask1; Accept 0; ask1; Accept 1; ask1; Update 0 (SCompleted (Fin 0)); Crash; Resume]). split; [apply pr1_ok; vm_compute; reflexivity|]. apply raises; try (vm_compute; reflexivity).
  - split; vm_compute; reflexivity.
  - right. vm_compute. reflexivity.
  - intros x _. match goal with |- context [sur ?s] => replace (sur s) with [([1] : pt, Fin 0)] by (vm_compute; reflexivity) end.
    apply one_point.
Qed.

(** Asynchronous mode with enough data. *)
Example ex_C61_async : exists p, y_proc (Strategy.run (cfg1 true 2) (hk1 true 2) (Ok d1) srbf0
    [ask1; Accept 0; ask1; Accept 1; Update 0 (SCompleted (Fin 0)); Update 1 (SCompleted (Fin 2))]) = Some p /\
  X_ (p_s p) = [[1]; [0]] /\ in_general_position 1 (X_ (p_s p)) /\
  forall z, exists r, do_propose (cfg1 true 2) (hk1 true 2) (Ok d1) z p = Ok r.
Proof.
  assert (EX : X_ (p_s (pr1 true [ask1; Accept 0; ask1; Accept 1; Update 0 (SCompleted (Fin 0)); Update 1 (SCompleted (Fin 2))])) = [[1]; [0]])
    by (vm_compute; reflexivity).
  assert (G : in_general_position 1 [[1]; [0]]).
  { eapply general_incl; [|exact gen1]. intros x [<-|[<-|[]]]; [right; left|left]; reflexivity. }
  exists (pr1 true [ask1; Accept 0; ask1; Accept 1; Update 0 (SCompleted (Fin 0)); Update 1 (SCompleted (Fin 2))]).
  assert (E : y_proc (Strategy.run (cfg1 true 2) (hk1 true 2) (Ok d1) srbf0
    [ask1; Accept 0; ask1; Accept 1; Update 0 (SCompleted (Fin 0)); Update 1 (SCompleted (Fin 2))]) =
    Some (pr1 true [ask1; Accept 0; ask1; Accept 1; Update 0 (SCompleted (Fin 0)); Update 1 (SCompleted (Fin 2))])) by (apply pr1_ok; vm_compute; reflexivity).
  split; [exact E|]. split; [exact EX|]. split; [rewrite EX; exact G|]. intros z.
  eapply (@C61_srbf_enough_data q1 1 dist1 1 None (/ 1000000) (cfg1 true 2) w1); [exact set1|left; reflexivity|discriminate|lra| |apply (good1 true 2)| |exact E|intros _ _; rewrite EX; exact G|apply good1].
  - split; [exact I|]. split; constructor.
  - repeat constructor; try (exists d1; split; [reflexivity|apply good1]); eexists; reflexivity.
Qed.
