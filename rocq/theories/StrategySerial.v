(** * Serial runs: a controller that evaluates each proposal before asking for the next. *)
From Coq Require Import List Arith ZArith Lia Bool Permutation.
From Verif Require Import Base Strategy StrategySpec StrategyProofs StrategyInv StrategyInv2 StrategyInv4.
Import ListNotations.
Local Open Scope Z_scope.

Set Implicit Arguments.

Section Serial.
Variables P V Ext Orc : Type.
Variable c : cfg P V.
Variable hk : hooks P V Ext Orc.
Variable f : P -> V.                        (* the objective function *)
Variable designs : nat -> res (list P).      (* designs generated at the i-th call, if any *)
Variable orcs : nat -> Orc.
Notation proc := (proc P V Ext).
Notation base := (base P V).
Notation sys := (sys P V Ext).

(** The i-th round of POAP's SerialController (external; contract): call propose_action; if it
    is an evaluation, accept it and report the objective's value. *)
Definition serial_step (y : sys) (i : nat) : sys :=
  match y_proc y with
  | None => y
  | Some p =>
    let y1 := step c hk y (Propose (designs i) (orcs i)) in
    match do_propose c hk (designs i) (orcs i) p with
    | Ok (OEval k x, _) =>
        step c hk (step c hk y1 (Accept (p_next p))) (Update (p_next p) (SCompleted (f x)))
    | _ => y1
    end
  end.
Definition serial (n : nat) (y : sys) : sys := fold_left serial_step (seq 0 n) y.

Lemma propose_eval_fields : forall design o (p p' : proc) k x,
  do_propose c hk design o p = Ok (OEval k x, p') ->
  terminate (p_s p') = false /\ num_evals (p_s p') = num_evals (p_s p) /\
  p_out p' = p_out p ++ [mkOut (p_next p) k x None] /\ p_next p' = S (p_next p) /\
  completed (p_hist p') = completed (p_hist p).
Proof.
  intros design o p p' k x H. unfold do_propose in H. apply rbind_ok in H.
  destruct H as [[[out1 [s1 e1]] evs] [H H2]]. injection H2 as -> <-. simpl.
  assert (G : terminate s1 = false /\ num_evals s1 = num_evals (p_s p) /\ completed evs = []).
  { unfold propose_action in H.
    assert (E0 : num_evals (check_termination c (p_s p)) = num_evals (p_s p)).
    { unfold check_termination. destruct (c_max_evals c <=? _); reflexivity. }
    set (s0 := check_termination c (p_s p)) in *. clearbody s0. rewrite <- E0. clear E0.
    destruct (terminate s0) eqn:Et; [destruct (pending_evals s0 =? 0); discriminate|].
    assert (RB : forall s e out s' e' evs, terminate s = false ->
      restart_branch c hk design s e = Ok (out, (s', e'), evs) ->
      terminate s' = false /\ num_evals s' = num_evals s /\ completed evs = []).
    { clear. intros s e out s' e' evs Ht H. unfold restart_branch in H.
      destruct (c_async c || (pending_evals s =? 0)).
      - apply rbind_ok in H. destruct H as [[s1 e1] [H1 H2]].
        apply rbind_ok in H2. destruct H2 as [[o2 s2] [H2 H3]]. injection H3 as <- <- <- <-.
        apply sample_restart_ok in H1. destruct H1 as [_ [d [rows [_ [_ [_ ->]]]]]].
        unfold init_proposal in H2.
        destruct (py_pop (batch_queue (fst (restarted c rows s, e1)))) as [[y q]|]; [|discriminate].
        injection H2 as <- <-. simpl. auto.
      - injection H as <- <- <- <-. auto. }
    assert (AP : forall s : base, terminate s = false -> terminate (snd (adapt_proposal s)) = false /\
       num_evals (snd (adapt_proposal s)) = num_evals s).
    { clear. intros s H. unfold adapt_proposal.
      destruct (py_pop (batch_queue s)) as [[y q]|]; simpl; auto. }
    destruct (converged s0).
    { destruct (c_restarts c); [eauto|discriminate]. }
    destruct (nonempty (batch_queue s0)).
    { destruct (phase s0 =? 1)%nat.
      - apply rbind_ok in H. destruct H as [[o2 s2] [H1 H2]]. injection H2 as -> <- <- <-.
        unfold init_proposal in H1.
        destruct (py_pop (batch_queue s0)) as [[y q]|]; [|discriminate].
        injection H1 as <- <- <-. simpl. auto.
      - injection H as _ <- <- <-. destruct (AP s0 Et). auto. }
    apply rbind_ok in H. destruct H as [[[s3 e3] evs3] [H1 H2]].
    assert (DG : forall n, do_generate hk n o (set_phase 2%nat s0) (p_e p) = Ok (s3, e3, evs3) ->
       terminate s3 = false /\ num_evals s3 = num_evals s0 /\ completed evs3 = []).
    { intros n HG. unfold do_generate in HG. apply rbind_ok in HG.
      destruct HG as [[e4 [l|]] [_ G]]; simpl in G; injection G as <- <- <-; simpl; auto. }
    assert (S3 : terminate s3 = false /\ num_evals s3 = num_evals s0 /\ completed evs3 = []).
    { destruct (c_async c); [eauto|]. destruct (pending_evals (set_phase 2 s0) =? 0); [eauto|].
      injection H1 as <- <- <-. auto. }
    destruct S3 as [T3 [N3 C3]].
    destruct (converged s3 && c_restarts c).
    - apply rbind_ok in H2. destruct H2 as [[[o4 [s4 e4]] evs4] [H2 H3]].
      injection H3 as -> <- <- <-. destruct (RB _ _ _ _ _ _ T3 H2) as [A [B C]].
      rewrite completed_app, C3, C. split; auto. split; auto. congruence.
    - injection H2 as _ <- <- <-. destruct (AP s3 T3). repeat split; auto; congruence. }
  destruct G as [G1 [G2 G3]]. rewrite !completed_app, G3. simpl. rewrite app_nil_r.
  repeat split; auto.
Qed.

Hypothesis Hgen : gen_contract hk.
Variables (EP : Ext -> Prop) (OP : Orc -> Prop).
Hypothesis Htot : total_hooks hk EP OP.
Hypothesis Hkeep : keeps hk EP.
Hypothesis Horc : forall i, OP (orcs i).
Hypothesis Hext : good_extras c.
Hypothesis Hnum : (0 < c_num_pts c)%nat.
Hypothesis Hbatch : c_async c = true \/ (0 < c_batch c)%nat.
Hypothesis Hrest : c_restarts c = true.
Hypothesis Hdes : forall i, good_design c (designs i).

Definition SInv (k : nat) (y : sys) : Prop :=
  exists p, y_proc y = Some p /\ Inv c p /\ EP (p_e p) /\ p_out p = [] /\
    num_evals (p_s p) = Z.of_nat k /\ terminate (p_s p) = false /\
    Forall (fun q => snd q = f (fst q)) (completed (p_hist p)).

Lemma SInv_step : forall k i y, SInv k y -> Z.of_nat k < c_max_evals c ->
  SInv (S k) (serial_step y i).
Proof.
  intros k i y [p [Ey [I [He [Eo [En [Et Hf]]]]]]] Hk.
  destruct (propose_total Htot Hext Hnum (orcs i) p He (Horc i) (Hdes i)) as [[out p1] Ep].
  assert (Hpend : pending_evals (p_s p) = 0) by (rewrite (inv_pend I), Eo; reflexivity).
  assert (Hb : below c (p_s p)) by (split; [assumption|lia]).
  destruct (@propose_progress _ _ _ _ c hk Hgen Hbatch Hrest _ _ _ _ _ Hb (or_intror Hpend) Ep) as [kd [x ->]].
  destruct (propose_eval_fields _ _ _ Ep) as [Et1 [En1 [Eo1 [Ex1 Ec1]]]].
  rewrite Eo in Eo1. simpl in Eo1.
  assert (I1 : Inv c p1) by (eapply Inv_micros; [exact I|eapply propose_micros; exact Ep]).
  assert (He1 : EP (p_e p1)) by (eapply keeps_micros; [exact Hkeep|exact He|eapply propose_micros; exact Ep]).
  unfold serial_step. rewrite Ey, Ep.
  replace (step c hk y (Propose (designs i) (orcs i))) with (mkSys (Some p1) (y_disk y))
    by (unfold step; rewrite Ey, Ep; reflexivity).
  replace (step c hk (mkSys (Some p1) (y_disk y)) (Accept (p_next p))) with
    (mkSys (Some (do_accept (mkOut (p_next p) kd x None) p1)) (y_disk y))
    by (unfold step, get_out; simpl; rewrite Eo1; simpl; rewrite Nat.eqb_refl; reflexivity).
  set (o1 := mkOut (p_next p) kd x None).
  assert (Hi1 : In o1 (p_out p1)) by (rewrite Eo1; left; reflexivity).
  set (p2 := do_accept o1 p1).
  assert (I2 : Inv c p2) by (eapply Inv_micro; [exact I1|apply (mi_accept c hk); [exact Hi1|reflexivity]]).
  unfold step. simpl y_proc.
  assert (Eo2 : p_out p2 = [mkOut (p_next p) kd x (Some (ev_next (p_s p1)))]).
  { unfold p2, do_accept. simpl. rewrite Eo1. simpl. rewrite Nat.eqb_refl. reflexivity. }
  cbv iota zeta. rewrite Eo2. unfold get_out. simpl find. rewrite Nat.eqb_refl. simpl o_ev.
  cbv iota.
  set (o2 := mkOut (p_next p) kd x (Some (ev_next (p_s p1)))).
  assert (Hi2 : In o2 (p_out p2)) by (rewrite Eo2; left; reflexivity).
  assert (Hc : exists p3, do_complete c hk o2 (ev_next (p_s p1)) (f x) p2 = Ok p3).
  { unfold do_complete. destruct Htot as [_ [T2 T3]]. simpl o_kind.
    destruct kd.
    - unfold on_initial_completed.
      match goal with |- context [hk_initial_completed hk ?a ?b ?u ?w ?z] =>
        destruct (T2 a b u w z He1) as [r ->] end. simpl. eauto.
    - unfold on_adapt_completed.
      match goal with |- context [hk_adapt_completed hk ?a ?b ?u ?w ?z] =>
        destruct (T3 a b u w z He1) as [[[r n] cv] ->] end. simpl. eauto. }
  destruct Hc as [p3 Hc]. rewrite Hc. simpl.
  assert (M3 : micro c hk p2 p3) by (eapply mi_complete; [exact Hi2|reflexivity|exact Hc]).
  assert (I3 : Inv c p3) by (eapply Inv_micro; eauto).
  exists p3. split; [reflexivity|]. split; [exact I3|].
  split; [eapply keeps_micro; [exact Hkeep|exact (He1 : EP (p_e p2))|exact M3]|].
  apply do_complete_ok in Hc. destruct Hc as [e' [l [nx [cv [-> _]]]]].
  destruct (base_completed_fields c (o_id o2) (o_x o2) (f x) (ev_next (p_s p1)) (p_s p2))
    as [F1 [_ [_ [_ [_ [_ [_ [F8 _]]]]]]]].
  set (sb := base_completed c (o_id o2) (o_x o2) (f x) (ev_next (p_s p1)) (p_s p2)) in *.
  clearbody sb. simpl. repeat split.
  - rewrite Eo1. simpl. rewrite Nat.eqb_refl. simpl. rewrite Nat.eqb_refl. reflexivity.
  - rewrite F1. simpl. lia.
  - rewrite F8. exact Et1.
  - rewrite !completed_app, Ec1. simpl. rewrite app_nil_r.
    apply Forall_app. split; [exact Hf|]. constructor; [reflexivity|constructor].
Qed.

Lemma serial_snoc : forall n y, serial (S n) y = serial_step (serial n y) n.
Proof.
  intros. unfold serial. rewrite seq_S, fold_left_app. reflexivity.
Qed.

Lemma SInv_serial : forall design e0 k, EP e0 -> good_design c design ->
  Z.of_nat k <= c_max_evals c -> SInv k (serial k (start c hk design e0)).
Proof.
  intros design e0 k HE0 GD. induction k as [|k IH]; intros Hk.
  - unfold serial. simpl. unfold start.
    destruct (@construct_total _ _ _ _ c hk Hext design e0 GD) as [[s e] Ec]. rewrite Ec.
    exists (mkProc s e [] [] 0%nat []). simpl. split; [reflexivity|].
    split; [exact (Inv_init c hk design e0 Ec)|]. unfold construct in Ec.
    apply rbind_ok in Ec. destruct Ec as [s1 [H1 H2]]. injection H2 as <- <-.
    apply sample_initial_ok in H1. destruct H1 as [d [rows [_ [_ [_ ->]]]]].
    simpl. destruct Hkeep as [K1 _]. repeat split; auto.
  - rewrite serial_snoc. apply SInv_step; [apply IH; lia|lia].
Qed.

Lemma serial_terminates : forall design e0, EP e0 -> good_design c design -> 0 <= c_max_evals c ->
  let m := Z.to_nat (c_max_evals c) in
  exists p h, y_proc (serial (S m) (start c hk design e0)) = Some p /\
    p_hist p = h ++ [EvTerminate] /\
    length (completed h) = m /\ Forall (fun q => snd q = f (fst q)) (completed h) /\
    outstanding h = [].
Proof.
  intros design e0 HE0 GD Hm m.
  destruct (@SInv_serial design e0 m HE0 GD) as [p [Ey [I [He [Eo [En [Et Hf]]]]]]]; [lia|].
  rewrite serial_snoc.
  destruct (propose_total Htot Hext Hnum (orcs m) p He (Horc m) (Hdes m)) as [[out p1] Ep].
  assert (Hpend : pending_evals (p_s p) = 0) by (rewrite (inv_pend I), Eo; reflexivity).
  assert (E : out = OTerminate /\ p_hist p1 = p_hist p ++ [EvTerminate]).
  { unfold do_propose, propose_action, check_termination in Ep.
    replace (c_max_evals c <=? num_evals (p_s p) + pending_evals (p_s p)) with true in Ep.
    - simpl in Ep. rewrite Hpend in Ep. simpl in Ep. injection Ep as <- <-. auto.
    - symmetry. apply Z.leb_le. lia. }
  destruct E as [-> Eh].
  unfold serial_step. rewrite Ey. rewrite Ep. unfold step. rewrite Ey, Ep.
  exists p1, (p_hist p). repeat split; auto.
  - pose proof (inv_num I). lia.
  - rewrite (inv_out I), Eo. reflexivity.
Qed.

End Serial.
