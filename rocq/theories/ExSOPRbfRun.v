(** * Examples for C74. *)
From Coq Require Import List Arith ZArith Lia Bool QArith Permutation Reals Lra Qreals.
From Verif Require Import Base PyList Strategy StrategySpec StrategyProofs StrategyInv StrategyInv2
  StrategyInv3 StrategyInv4 StrategyOps StrategySerial PropStrategy SRBF SRBFProofs SRBFInv PropSRBF Box PropBox Cand PropCand EndToEnd Lin LinProofs RBF PropRBF PropSurr PropSolve SyncRun SRBFRun
  SOP SOPProofs SOPCenters SOPInv PropSOP SOPTotal SOPAsync SOPSerial ScaleSOP SOPSearch SOPFeas Picks PicksSOP RbfPicks RbfPicksSOP EIStrat ResumeKill ExSRBFRun SOPRbfRun.
From Coq Require Import Rdefinitions.
Import ListNotations.
Local Close Scope Q_scope.
Local Open Scope R_scope.

(** ** Examples *)
(** The interval [0, 1], the design {0, 1} with values 3 and 1, two centers: the hypotheses hold
    after the initial design, where the next request has to generate points with the surrogate. *)
Definition ask74 (z : nat -> dydraws) : op pt val (nat -> dydraws) := Propose (Ok d1) z.
(** Example data, no counterpart in /repo. *)
Definition ops74 (z : nat -> dydraws) : list (op pt val (nat -> dydraws)) :=
  [ask74 z; Accept 0; ask74 z; Accept 1; Update 0 (SCompleted (Fin 3)); Update 1 (SCompleted (Fin 1))].
(** Example data, no counterpart in /repo. *)
Definition hist74 : list (event pt val) :=
  [EvPropose 0 KInit [1]; EvAccept 0; EvPropose 1 KInit [0]; EvAccept 1; EvComplete 0 KInit [1] (Fin 3); EvComplete 1 KInit [0] (Fin 1)].
(** Example data, no counterpart in /repo. *)
Definition sdist74 (x y : pt) : Q := 1.
(** Example data, no counterpart in /repo. *)
Definition tc74 (x y : pt) (n : nat) (r : Q) : bool := false.

Lemma sop_setting74 : forall a w, sop_setting (cfg1 a w) sdist74 q1 1 dist1 1 (Some 5%nat) (/ 1000000).
Proof.
  intros a w. constructor.
  - destruct set1 as [W D T0 RF NC]. constructor; auto. discriminate.
  - apply Rinv_0_lt_compat. lra.
  - split; [exact Logic.I|]. split; constructor.
  - intros x y. cbn [cfg1 c_peqb]. unfold peq1. destruct (list_eq_dec Req_EM_T x y); split; intros; congruence.
  - intros x y _ H. discriminate H.
  - cbn. discriminate.
Qed.
Lemma good74 : forall a w z, Forall (@good_op q1 1 (cfg1 a w) (nat -> dydraws)) (ops74 z).
Proof. intros a w z. repeat constructor; try (exists d1; split; [reflexivity|apply good1]); eexists; reflexivity. Qed.
Lemma nodup74 : forall a w, NoDup (first_queue (cfg1 a w) d1 ++ queued_later hist74).
Proof.
  intros a w. cbn. constructor; [|constructor; [intros []|constructor]]. intros [E|[]]. injection E. lra.
Qed.
Lemma protocol74 : protocol hist74.
Proof.
  intros h1 ev h2 E C. unfold hist74 in E.
  destruct h1 as [|e1 [|e2 [|e3 [|e4 [|e5 [|e6 h1]]]]]]; cbn [app] in E; injection E; intros; subst; try discriminate C; try reflexivity.
  destruct h1; discriminate.
Qed.

Example ex_C74_sync : forall z, let c := cfg1 false 2 in let hk := sop_rbf q1 1 dist1 1 (Some 5%nat) (/ 1000000) c sdist74 tc74 2 in
  sop_setting c sdist74 q1 1 dist1 1 (Some 5%nat) (/ 1000000) /\ sop_sync c 2 /\ good_points q1 1 c d1 /\
  Forall (@good_op q1 1 c (nat -> dydraws)) (ops74 z) /\
  exists p, y_proc (Strategy.run c hk (Ok d1) sop0 (ops74 z)) = Some p /\ p_hist p = hist74 /\
  batch_queue (p_s p) = [] /\ pending_evals (p_s p) = 0%Z /\
  forall d z', exists r, do_propose c hk d z' p = Ok r.
Proof.
  intros z c hk. split; [apply sop_setting74|]. split; [repeat split; cbn; lia|]. split; [apply good1|]. split; [apply good74|].
  eexists. split; [unfold hk; lazy -[sop_rbf_search IZR Rinv list_eq_dec]; reflexivity|].
  split; [reflexivity|]. split; [reflexivity|]. split; [reflexivity|].
  match goal with |- forall d z', exists r, do_propose _ _ _ _ ?P = _ => set (p := P) end.
  refine (proj1 (proj2 (@C74_sop_sync_no_call_raises c sdist74 tc74 2 q1 1 dist1 1 (Some 5%nat) (/ 1000000) (sop_setting74 false 2) _ d1 (good1 false 2)) (ops74 z) p (good74 false 2 z) _ _ _ _ _)).
  - repeat split; cbn; lia.
  - lazy -[sop_rbf_search IZR Rinv list_eq_dec]. reflexivity.
  - reflexivity.
  - reflexivity.
  - exact protocol74.
  - exact (nodup74 false 2).
Qed.

Example ex_C74_async : forall z, let c := cfg1 true 2 in let hk := sop_rbf q1 1 dist1 1 (Some 5%nat) (/ 1000000) c sdist74 tc74 2 in
  exists p, y_proc (Strategy.run c hk (Ok d1) sop0 (ops74 z)) = Some p /\ p_hist p = hist74 /\
  batch_queue (p_s p) = [] /\
  forall d z', exists r, do_propose c hk d z' p = Ok r.
Proof.
  intros z c hk.
  eexists. split; [unfold hk; lazy -[sop_rbf_search IZR Rinv list_eq_dec]; reflexivity|].
  split; [reflexivity|]. split; [reflexivity|].
  match goal with |- forall d z', exists r, do_propose _ _ _ _ ?P = _ => set (p := P) end.
  refine (proj1 (proj2 (@C74_sop_async_no_call_raises c sdist74 tc74 2 q1 1 dist1 1 (Some 5%nat) (/ 1000000) (sop_setting74 true 2) eq_refl d1 (good1 true 2)) (ops74 z) p (good74 true 2 z) _ _ _ _ _)).
  - lazy -[sop_rbf_search IZR Rinv list_eq_dec]. reflexivity.
  - reflexivity.
  - exact (nodup74 true 2).
  - intros h1 n r h2 E. exfalso. assert (K : In (EvGenerate n r) hist74) by (assert (E2 : hist74 = h1 ++ EvGenerate n r :: h2) by exact E; rewrite E2; apply in_or_app; right; left; reflexivity).
    unfold hist74 in K. repeat (destruct K as [K|K]; [discriminate K|]). destruct K.
  - intros _. split; [split; reflexivity|]. eapply general_incl; [|exact gen1]. intros x [<-|[<-|[]]]; cbn; auto.
Qed.

(** A serial run of three evaluations in [0, 1]: the two points 1/4 and 3/4 of the design, and one
    point generated by a step of one standard deviation from one of them. *)
Definition d74 : list pt := [[/ 4]; [3 * / 4]].
(** Example data, no counterpart in /repo. *)
Definition cfg74 : cfg pt val := mkCfg 3 false 1 true 2 None None (fun _ => false) peq1 false.
(** Example data, no counterpart in /repo. *)
Definition z74 : nat -> dydraws := fun _ => mkDy (fun _ _ => true) (fun _ => 0%nat) (fun _ _ => 1).
(** Example data, no counterpart in /repo. *)
Definition hk74 := sop_rbf q1 1 dist1 1 (Some 1%nat) (/ 1000000) cfg74 sdist74 tc74 1.
(** Example data, no counterpart in /repo. *)
Definition serial74 (k : nat) := serial cfg74 hk74 (fun _ => Fin 0) (fun _ => Ok d74) (fun _ => z74) k (start cfg74 hk74 (Ok d74) sop0).

Lemma setting74 : setting q1 1 dist1 1 (Some 1%nat).
Proof. destruct set1 as [W D T0 RF NC]. constructor; auto. discriminate. Qed.
Lemma feasible74 : forall r, 0 <= r <= 1 -> feasible q1 1 [r].
Proof. intros r Hr. split; [|intros i []]. split; [reflexivity|]. intros [|i] H; [simpl; lra|lia]. Qed.
Lemma gen74 : in_general_position 1 d74.
Proof.
  intros a b L H. pose proof (H [/ 4] (or_introl eq_refl)) as H0. pose proof (H [3 * / 4] (or_intror (or_introl eq_refl))) as H1.
  rewrite affine1 in H0, H1. simpl in H0, H1. split; [lra|]. intros [|k] Hk; [lra|lia].
Qed.
Lemma good_points74 : good_points q1 1 cfg74 d74.
Proof.
  split; [simpl; lia|]. split; [|exact gen74]. constructor; [apply feasible74; lra|]. constructor; [apply feasible74; lra|constructor].
Qed.


(** Example data, no counterpart in /repo. *)
Definition round74 (i : nat) : list (op pt val (nat -> dydraws)) := [Propose (Ok d74) z74; Accept i; Update i (SCompleted (Fin 0))].
Notation run74 := (Strategy.run cfg74 hk74 (Ok d74) sop0).
Ltac go74 := unfold hk74; lazy -[sop_rbf_search IZR Rinv Rmult list_eq_dec]; reflexivity.

Lemma serial74_2 : exists p0 p1 p, y_proc (run74 []) = Some p0 /\ y_proc (run74 (round74 0)) = Some p1 /\
  y_proc (run74 (round74 0 ++ round74 1)) = Some p /\
  serial74 0 = run74 [] /\ serial74 1 = run74 (round74 0) /\ serial74 2 = run74 (round74 0 ++ round74 1).
Proof.
  destruct (y_proc (run74 [])) as [p0|] eqn:E0; [|exfalso; revert E0; unfold hk74; lazy -[sop_rbf_search IZR Rinv Rmult list_eq_dec]; intros F; discriminate F].
  destruct (y_proc (run74 (round74 0))) as [p1|] eqn:E1; [|exfalso; revert E1; unfold hk74; lazy -[sop_rbf_search IZR Rinv Rmult list_eq_dec]; intros F; discriminate F].
  destruct (y_proc (run74 (round74 0 ++ round74 1))) as [p|] eqn:E2; [|exfalso; revert E2; unfold hk74; lazy -[sop_rbf_search IZR Rinv Rmult list_eq_dec]; intros F; discriminate F].
  exists p0, p1, p. repeat split.
Qed.

(** Example data, no counterpart in /repo. *)
Definition hist2_74 : list (event pt val) := [EvPropose 0 KInit [3 * / 4]; EvAccept 0; EvComplete 0 KInit [3 * / 4] (Fin 0); EvPropose 1 KInit [/ 4]; EvAccept 1; EvComplete 1 KInit [/ 4] (Fin 0)].
Lemma nodup_d74 : NoDup d74.
Proof. constructor; [|constructor; [intros []|constructor]]. intros [E|[]]. injection E. lra. Qed.

Notation pp g v := (match y_proc (run74 (round74 0 ++ round74 1)) with Some p => g p | None => v end = v) (only parsing).
Lemma pp_hist : pp (fun p => p_hist p) hist2_74. Proof. vm_cast_no_check (eq_refl hist2_74). Qed.
Lemma pp_ev : pp (fun p => s_evals (p_e p)) [new_rec [3 * / 4] (Fin 0); new_rec [/ 4] (Fin 0)]. Proof. vm_cast_no_check (eq_refl [new_rec [3 * / 4] (Fin 0); new_rec [/ 4] (Fin 0)]). Qed.
Lemma pp_t : pp (fun p => terminate (check_termination cfg74 (p_s p))) false. Proof. vm_cast_no_check (eq_refl false). Qed.
Lemma pp_c : pp (fun p => converged (check_termination cfg74 (p_s p))) false. Proof. vm_cast_no_check (eq_refl false). Qed.
Lemma pp_q : pp (fun p => batch_queue (check_termination cfg74 (p_s p))) []. Proof. vm_cast_no_check (eq_refl ([] : list pt)). Qed.
Lemma pp_p : pp (fun p => pending_evals (check_termination cfg74 (p_s p))) 0%Z. Proof. vm_cast_no_check (eq_refl 0%Z). Qed.
Lemma pp_n : pp (fun p => p_next p) 2%nat. Proof. vm_cast_no_check (eq_refl 2%nat). Qed.
(** Example data, no counterpart in /repo. *)
Definition facts74 (Y : option (proc pt val (sop pt))) : Prop :=
  match Y with Some p => p_hist p | None => hist2_74 end = hist2_74 /\
  match Y with Some p => s_evals (p_e p) | None => [new_rec [3 * / 4] (Fin 0); new_rec [/ 4] (Fin 0)] end = [new_rec [3 * / 4] (Fin 0); new_rec [/ 4] (Fin 0)] /\
  match Y with Some p => terminate (check_termination cfg74 (p_s p)) | None => false end = false /\
  match Y with Some p => converged (check_termination cfg74 (p_s p)) | None => false end = false /\
  match Y with Some p => batch_queue (check_termination cfg74 (p_s p)) | None => [] end = [] /\
  match Y with Some p => pending_evals (check_termination cfg74 (p_s p)) | None => 0%Z end = 0%Z /\
  match Y with Some p => p_next p | None => 2%nat end = 2%nat.
Lemma facts74_run : facts74 (y_proc (run74 (round74 0 ++ round74 1))).
Proof.
  exact (conj pp_hist (conj pp_ev (conj pp_t (conj pp_c (conj pp_q (conj pp_p pp_n)))))).
Qed.
(** Example data, no counterpart in /repo. *)
Definition queues74 (Y : option (proc pt val (sop pt))) : list pt :=
  match Y with Some p => match do_propose cfg74 hk74 (Ok d74) z74 p with Ok (_, p1) => queued_later (p_hist p1) | Err _ => [] end | None => [] end.
Lemma queues74_0 : queues74 (y_proc (run74 [])) = []. Proof. vm_cast_no_check (eq_refl ([] : list pt)). Qed.
Lemma queues74_1 : queues74 (y_proc (run74 (round74 0))) = []. Proof. vm_cast_no_check (eq_refl ([] : list pt)). Qed.
Lemma queues74_some : forall p out p1, do_propose cfg74 hk74 (Ok d74) z74 p = Ok (out, p1) -> queues74 (Some p) = queued_later (p_hist p1).
Proof. intros p out p1 H. unfold queues74. rewrite H. reflexivity. Qed.
Lemma facts74_some : forall Y p, Y = Some p -> facts74 Y -> facts74 (Some p).
Proof. intros Y p -> H. exact H. Qed.
