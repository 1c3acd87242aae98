(** * Concrete runs for EndToEnd.v; refuted parts of C57. *)
From Coq Require Import List Arith ZArith Lia Bool QArith Reals Lra Qreals.
From Verif Require Import Base PyList Strategy StrategySpec SRBF PropSRBF ExSRBF Box PropBox Cand PropCand EndToEnd.
Import ListNotations.
Local Close Scope Q_scope.
Local Open Scope nat_scope.

(** ** C57, positive case: a synchronous run with data and its center. *)
Lemma q2r_lt : forall a b, Qlt_b a b = true -> (Q2R a < Q2R b)%R.
Proof.
  intros a b H. apply Qlt_Rlt. unfold Qlt_b in H. apply Qnot_le_lt. intros K. apply Qle_bool_iff in K. rewrite K in H. discriminate.
Qed.
Lemma center_is : forall P (s : base P val) k x v, nth_error (X_ s) k = Some x -> nth_error (fX_ s) k = Some v ->
  length (X_ s) = length (fX_ s) ->
  forallb (fun w => negb (vlt w v)) (fX_ s) = true -> forallb (fun w => vlt v w) (firstn k (fX_ s)) = true ->
  center s = Ok x.
Proof.
  intros P s k x v Hx Hv HL H1 H2.
  destruct (@x_best_ok _ (X_ s) (map toxr (fX_ s))) as [xb [E1 [E2 _]]].
  - intros K. rewrite K in Hx. destruct k; discriminate.
  - rewrite map_length. auto.
  - intros u Hu. eapply toxr_nan; eauto.
  - unfold center. rewrite E1. f_equal. eapply best_unique; [exact E2|].
    exists k, (toxr v). split; [exact Hx|]. split; [rewrite nth_error_map, Hv; reflexivity|]. split.
    + intros u Hu. apply in_map_iff in Hu. destruct Hu as [w [<- Hw]]. rewrite xlt_toxr.
      rewrite forallb_forall in H1. specialize (H1 w Hw). destruct (vlt w v); [discriminate|reflexivity].
    + intros j w Hj Hw. rewrite nth_error_map in Hw. destruct (nth_error (fX_ s) j) as [u|] eqn:Eu; [|discriminate].
      injection Hw as <-. rewrite xlt_toxr. rewrite forallb_forall in H2. apply H2.
      assert (N : nth_error (firstn k (fX_ s)) j = Some u).
      { rewrite <- Eu. clear -Hj. revert k j Hj. induction (fX_ s) as [|a l IH]; intros [|k] [|j] Hj; simpl; try lia; try reflexivity. apply IH. lia. }
      eapply nth_error_In; eauto.
Qed.

Example ex_C57 :
  let c := rcfg 40 false 2 2 in let p := rpr c 3 (ask 0 0 5 ++ ask 0 1 6 ++ batch2 30 2 9 1) in
  c_async c = false /\ legal c /\ reached c (rhk c 3) (Ok [10; 11]) srbf0 p /\
  run_data (p_hist p) = [(11, Fin 5); (10, Fin 6); (31, Fin 9); (30, Fin 1)] /\ center (p_s p) = Ok 30.
Proof.
  cbv zeta. split; [reflexivity|]. split; [right; simpl; lia|]. split; [apply rpr_ok; vm_compute; reflexivity|].
  split; [vm_compute; reflexivity|]. apply (@center_is nat _ 3 30 (Fin 1)); vm_compute; reflexivity.
Qed.

(** ** C57 refuted for extra points with a known value: the user tells the strategy that point 7
    has the value -50; it is recorded and given to the surrogate, but the search is centered at
    point 11 with value 5. *)
Definition xcfg : cfg nat val :=
  mkCfg 40 false 1 true 2 (Some [7]) (Some [Fin (-50)]) (fun _ => false) Nat.eqb false.
Theorem C57_known_extra_refuted :
  exists (c : cfg nat val) (p : proc nat val srbf),
  c_async c = false /\ reached c (rhk c 3) (Ok [10; 11]) srbf0 p /\ protocol (p_hist p) /\
  known c = [(7, Fin (-50))] /\ In (7, Fin (-50)) (combine (X (p_s p)) (fX (p_s p))) /\ In (7, Fin (-50)) (sur (p_s p)) /\
  run_data (p_hist p) = [(11, Fin 5); (10, Fin 6)] /\ outstanding (p_hist p) = [] /\ batch_queue (p_s p) = [] /\
  center (p_s p) = Ok 11.
Proof.
  exists xcfg, (rpr xcfg 3 (ask 0 0 5 ++ ask 0 1 6)).
  split; [reflexivity|]. split; [apply rpr_ok; vm_compute; reflexivity|].
  split; [apply protocol_check; vm_compute; reflexivity|]. split; [reflexivity|].
  split; [vm_compute; auto|]. split; [vm_compute; auto|]. split; [vm_compute; reflexivity|]. split; [vm_compute; reflexivity|].
  split; [vm_compute; reflexivity|]. apply (@center_is nat _ 0 11 (Fin 5)); vm_compute; reflexivity.
Qed.

(** ** C57 refuted in asynchronous mode: the run has found the value -100 (at point 33), but the
    search is centered at point 32 with value 2. *)
Theorem C57_async_refuted :
  exists (c : cfg nat val) (p : proc nat val srbf),
  c_async c = true /\ reached c (rhk c 3) (Ok [10; 11]) srbf0 p /\ protocol (p_hist p) /\ restarts (p_hist p) = 0 /\
  In (33, Fin (-100)) (run_data (p_hist p)) /\ center (p_s p) = Ok 32 /\ ~ best_evaluation (run_data (p_hist p)) 32.
Proof.
  exists (rcfg 40 true 0 2), (rpr (rcfg 40 true 0 2) 3 c07_ops).
  split; [reflexivity|]. split; [apply rpr_ok; vm_compute; reflexivity|].
  split; [apply protocol_check; vm_compute; reflexivity|]. split; [vm_compute; reflexivity|].
  split; [vm_compute; tauto|]. split; [apply (@center_is nat _ 4 32 (Fin 2)); vm_compute; reflexivity|].
  intros [v [H1 H2]]. assert (K : In (33, Fin (-100)) (run_data (p_hist (rpr (rcfg 40 true 0 2) 3 c07_ops)))) by (vm_compute; tauto).
  specialize (H2 _ _ K). clear K.
  assert (E : run_data (p_hist (rpr (rcfg 40 true 0 2) 3 c07_ops)) =
     [(11, Fin 5); (10, Fin 6); (30, Fin 4); (31, Fin 3); (32, Fin 2); (33, Fin (-100))]) by (vm_compute; reflexivity).
  rewrite E in H1. simpl in H1. 
  do 4 (destruct H1 as [H1|H1]; [discriminate H1|]). destruct H1 as [H1|[H1|[]]]; [|discriminate H1].
  injection H1 as <-. vm_compute in H2. discriminate H2.
Qed.

(** ** C13: a setting and the first proposals of a run with the actual search. *)
Local Open Scope R_scope.
Definition q2 : prob := mkProb [0; 0] [1; 3] [1%nat].
Definition d2 (x y : pt) : R := Rabs (x@0 - y@0) + Rabs (x@1 - y@1).
Definition c2 : cfg pt val := mkCfg 10%Z false 1 true 2 None None (fun _ => false) (fun _ _ => true) false.
Example ex_C13_srbf : forall predict z,
  setting q2 2 d2 (/10) (Some 5%nat) /\ legal c2 /\
  Forall (feasible q2 2) [[/2; 1]; [/4; 2]] /\ Forall (feasible q2 2) (unknown c2) /\
  exists p, y_proc (run c2 (srbf_full q2 2 d2 predict (/10) (Some 5%nat) c2 [1%Q]) (Ok [[/2; 1]; [/4; 2]]) srbf0
      [Propose (Ok []) z; Accept 0; Propose (Ok []) z; Accept 1; Update 0 (SCompleted (Fin 3)); Update 1 (SCompleted (Fin 1))]) = Some p /\
    In (EvPropose 1 KInit [/2; 1]) (p_hist p) /\ center (p_s p) = Ok [/2; 1].
Proof.
  intros predict z. assert (I : forall z : Z, integral (IZR z)) by (intros i; exists i; reflexivity).
  split; [|split; [|split; [|split]]].
  - constructor; auto; try discriminate; try lra.
    + split; [split; [reflexivity|split; [reflexivity|]]|].
      * intros [|[|i]] Hi; simpl; try lra; lia.
      * intros i [<-|[]]. simpl. auto.
    + intros x. unfold d2. rewrite !Rminus_diag_eq by reflexivity. rewrite Rabs_R0. lra.
  - right. simpl. lia.
  - assert (K : forall x, x = [/2; 1] \/ x = [/4; 2] -> feasible q2 2 x).
    { intros x [-> | ->]; (split; [split; [reflexivity|]; intros [|[|i]] Hi; simpl; try lra; lia|]); intros i [<-|[]]; simpl; auto. }
    constructor; [apply K; auto|]. constructor; [apply K; auto|]. constructor.
  - constructor.
  - eexists. split; [lazy -[srbf_search IZR Rinv]; reflexivity|]. split; [simpl; tauto|].
    apply (@center_is pt _ 1 [/2; 1] (Fin 1)); reflexivity.
Qed.
