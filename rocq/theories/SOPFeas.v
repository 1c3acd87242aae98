(** * C13 for SOPStrategy with the candidate search it uses.

    The strategy model takes the searches of generate_evals as oracles; here they are
    [candidate_dycors] (Cand.v) called as in sop_strategy.py:293-307, with an arbitrary surrogate
    or with the default RBF surrogate (ScaleSOP.sop_rbf). *)
From Coq Require Import List Arith ZArith Lia Bool QArith Reals Lra Qreals.
From Verif Require Import Base PyList Strategy StrategySpec StrategyProofs StrategyInv StrategyInv2 StrategyInv3 StrategyInv4 PropStrategy
  SRBF Pareto SOP SOPProofs SOPCenters SOPInv PropSOP SOPSearch Box PropBox Cand PropCand EndToEnd ScaleSOP ExEndToEnd.
From Coq Require Import Rdefinitions.
Import ListNotations.
Set Implicit Arguments.
Local Close Scope Q_scope.
Local Open Scope nat_scope.

(** ** Hooks whose oracle is computed from the strategy's attributes *)
(** Helper with no counterpart in /repo: composition of oracles. *)
Definition hooks_at {P V Ext O O'} (g : O' -> base P V -> O) (hk : hooks P V Ext O) : hooks P V Ext O' :=
  mkHooks (hk_sample_initial hk) (hk_initial_completed hk) (hk_adapt_completed hk) (fun e s n o => hk_generate hk e s n (g o s)).

Lemma micros_at : forall P V Ext O O' (g : O' -> base P V -> O) c (hk : hooks P V Ext O) p p',
  micros c (hooks_at g hk) p p' -> micros c hk p p'.
Proof.
  intros P V Ext O O' g c hk p p' M. induction M as [p|p q r M IH N]; [apply ms_refl|]. eapply ms_step; [exact IH|]. clear -N.
  destruct N as [A B|A B|A B|A B C|n o e' l A B C D F G H|n o e' A B C D F G H|d rows A B C D F G|q0 x k A B C D|o A B|o A B|o ev v p' A B C|o ev A B| |].
  - apply mi_wait; assumption.
  - apply mi_term; assumption.
  - apply mi_none; assumption.
  - apply mi_phase; assumption.
  - apply (@mi_gen _ _ _ _ c hk q n (g o (p_s q))); assumption.
  - apply (@mi_conv _ _ _ _ c hk q n (g o (p_s q))); assumption.
  - exact (@mi_restart _ _ _ _ c hk q d rows A B C D F G).
  - apply mi_propose; assumption.
  - apply mi_accept; assumption.
  - apply mi_reject; assumption.
  - exact (@mi_complete _ _ _ _ c hk q o ev v p' A B C).
  - exact (@mi_abort _ _ _ _ c hk q o ev A B).
  - apply mi_stop.
  - apply mi_resume.
Qed.

(** Like feasible_closed, with all points proposed so far known to be feasible. *)
Section Feas.
Variables P V Ext Orc : Type.
Variable c : cfg P V.
Variable hk : hooks P V Ext Orc.
Variable design : res (list P).
Variable e0 : Ext.

Lemma completed_proposed : forall s e p x v, construct c hk design e0 = Ok (s, e) -> micros c hk (init_proc (s, e)) p ->
  In (x, v) (completed (p_hist p)) -> exists id k, In (EvPropose id k x) (p_hist p).
Proof using.
  intros s e p x v H1 M K. unfold completed in K. apply in_flat_map in K. destruct K as [ev [E1 E2]].
  destruct ev; simpl in E2; try contradiction. destruct E2 as [E2|[]]. injection E2 as -> ->.
  apply in_split in E1. destruct E1 as [h1 [h2 E1]].
  destruct (@event_step _ _ _ _ c hk _ _ M eq_refl _ _ _ E1) as [q [r [M1 [M2 [M3 [Eq Er]]]]]].
  rewrite <- Eq in Er. pose proof (@micro_event _ _ _ _ c hk _ _ _ M2 Er) as [o [ev0 [O1 [O2 [_ [O3 _]]]]]].
  assert (Iq : Inv c q) by (eapply Inv_micros; [|exact M1]; eapply Inv_init; eassumption).
  assert (Ho : In (o_id o, o_x o) (outstanding (p_hist q))) by (rewrite (inv_out Iq); apply in_map_iff; exists o; auto).
  apply outstanding_proposed in Ho. destruct Ho as [k' Ho]. subst. exists (o_id o), k'. rewrite E1. apply in_or_app. auto.
Qed.

Lemma feasible_closed_hist : forall (feas : P -> Prop) ops p,
  y_proc (Strategy.run c hk design e0 ops) = Some p \/ y_disk (Strategy.run c hk design e0 ops) = Some p ->
  (forall d, design = Ok d -> Forall feas d) ->
  (forall d o, In (Propose (Ok d) o) ops -> Forall feas d) ->
  Forall feas (unknown c) ->
  (forall s e q n o e' l, construct c hk design e0 = Ok (s, e) -> micros c hk (init_proc (s, e)) q ->
     (forall id k x, In (EvPropose id k x) (p_hist q) -> feas x) ->
     hk_generate hk (p_e q) (p_s q) n o = Ok (e', Some l) -> Forall feas l) ->
  forall id k x, In (EvPropose id k x) (p_hist p) -> feas x.
Proof using.
  intros feas ops p Hp Hd Ho Hu Hg.
  assert (H : reached c hk design e0 p) by (exists ops; exact Hp).
  pose proof H as HR. apply reached_micros in HR. destruct HR as [[s e] [Hc M]].
  assert (I0 : Inv c (init_proc (s, e))) by (eapply Inv_init; eassumption).
  assert (H0 : p_hist (init_proc (V:=V) (s, e)) = []) by reflexivity.
  assert (G : forall N h1 id k x h2, length h1 < N -> p_hist p = h1 ++ EvPropose id k x :: h2 -> feas x).
  2:{ intros id k x Hx. apply in_split in Hx. destruct Hx as [h1 [h2 E]]. eapply (G (S (length h1))); eauto. }
  intros N. induction N as [|N IH]; intros h1 id k x h2 HL E; [lia|].
  destruct (event_step M H0 _ _ _ E) as [q [r [M1 [M2 [M3 [Eq Er]]]]]].
  rewrite <- Eq in Er. pose proof (@micro_event _ _ _ _ c hk _ _ _ M2 Er) as [_ [_ [_ [q' Hq]]]].
  assert (PV : Prov (batch_queue s) q).
  { apply (@micros_from _ _ _ _ c hk (Prov (batch_queue s)) _ I0); [| |exact M1].
    - exact (Prov_init c hk design e0 Hc).
    - intros q1 r1 Iq Cq N1. eapply Prov_micro; eassumption. }
  destruct PV as [PV _].
  assert (Hin : In x (batch_queue s ++ queued_later (p_hist q))).
  { apply PV. rewrite Hq. apply in_or_app. right. left. reflexivity. }
  apply in_app_or in Hin. destruct Hin as [Hin|Hin].
  - destruct (@C08_initial_queue _ _ _ _ c hk design e0 _ _ Hc) as [d [-> [_ Hq0]]].
    simpl in Hq0. rewrite Hq0 in Hin. apply in_app_or in Hin. destruct Hin as [Hin|Hin].
    + specialize (Hd d eq_refl). rewrite Forall_forall in Hd. apply Hd.
      rewrite <- (firstn_skipn (c_num_pts c) d). apply in_or_app. auto.
    + rewrite Forall_forall in Hu. auto.
  - unfold queued_later in Hin. apply in_flat_map in Hin. destruct Hin as [ev [Hev Hx]].
    assert (Hev' : In ev (p_hist p)).
    { rewrite E, <- Eq. apply in_or_app. auto. }
    destruct ev; simpl in Hx; try contradiction.
    + destruct pts as [l|]; [|contradiction]. apply in_split in Hev. destruct Hev as [g1 [g2 E2]].
      destruct (event_step M1 H0 _ _ _ E2) as [q2 [r2 [N1 [N2 [_ [Eq2 Er2]]]]]].
      rewrite <- Eq2 in Er2. pose proof (@micro_event _ _ _ _ c hk _ _ _ N2 Er2) as [_ [_ [_ [_ [_ [o [e' G]]]]]]].
      apply (Hg s e q2 _ _ _ _ Hc N1) in G; [rewrite Forall_forall in G; auto|].
      intros id' k' y K.
      apply in_split in K. destruct K as [a [b K]].
      apply (IH a id' k' y (b ++ EvGenerate n (Some l) :: g2 ++ EvPropose id k x :: h2)).
      * rewrite <- Eq2 in E2. apply (f_equal (@length _)) in K. apply (f_equal (@length _)) in E2.
        apply (f_equal (@length _)) in Eq. rewrite app_length in *. simpl in *. lia.
      * rewrite E, <- Eq, E2, <- Eq2, K. rewrite <- !app_assoc. reflexivity.
    + destruct (@restarts_from_run _ _ _ _ c hk design e0 ops p Hp _ _ Hev' Hx)
        as [[d [o [A B]]]|A].
      * specialize (Ho d o A). rewrite Forall_forall in Ho. apply Ho.
        rewrite <- (firstn_skipn (c_num_pts c) d). apply in_or_app. auto.
      * rewrite Forall_forall in Hu. auto.
Qed.
End Feas.

Section Sop.
Variable c : cfg pt val.
Variable sdist : pt -> pt -> Q.
Variable tooclose : pt -> pt -> nat -> Q -> bool.
Variable ncenters : Z.
Notation strategy := (sop_strategy c sdist tooclose ncenters).

(** X_ is non-empty once an evaluation has completed: SOP never restarts. *)
Lemma X_nonempty_micro : forall (p p' : proc pt val (sop pt)), SopInv c ncenters p ->
  (completed (p_hist p) <> [] -> X_ (p_s p) <> []) -> micro c strategy p p' -> completed (p_hist p') <> [] -> X_ (p_s p') <> [].
Proof using.
  intros p p' S H M.
  assert (K : forall (p'' : proc pt val (sop pt)) evs, p_hist p'' = p_hist p ++ evs -> completed evs = [] -> X_ (p_s p'') = X_ (p_s p) -> completed (p_hist p'') <> [] -> X_ (p_s p'') <> []).
  { intros p'' evs E1 E2 E3. rewrite E3, E1. unfold completed in *. rewrite flat_map_app, E2, app_nil_r. exact H. }
  destruct M as [H1 H2|H1 H2|H1 H2|H1 H2 H3|n o e' l H1 H2 H3 H4 H5 H6 H7
    |n o e' H1 H2 H3 H4 H5 H6 H7|d rows H1 H2 H3 H4 H5 H6|q x k H1 H2 H3 H4|o H1 H2|o H1 H2
    |o ev v p' H1 H2 H3|o ev H1 H2| |].
  - eapply (@K _ [EvNone]); reflexivity.
  - eapply (@K _ [EvTerminate]); reflexivity.
  - eapply (@K _ [EvNone]); reflexivity.
  - eapply (@K _ []); reflexivity.
  - eapply (@K _ [EvGenerate n (Some l)]); reflexivity.
  - eapply (@K _ [EvGenerate n None]); reflexivity.
  - exfalso. rewrite (si_conv S) in H2. discriminate.
  - eapply (@K _ [EvPropose (p_next p) k x]); reflexivity.
  - eapply (@K _ [EvAccept (o_id o)]); reflexivity.
  - eapply (@K _ [EvReject (o_id o) (o_kind o) (o_x o)]); try reflexivity.
    cbn. destruct (o_kind o); [reflexivity|]. unfold on_adapt_reject. destruct (c_async c); reflexivity.
  - intros _. pose proof (si_ev S o H1 H2) as Hev.
    assert (BX : X_ (base_completed c (o_id o) (o_x o) v ev (p_s p)) = X_ (p_s p) ++ [o_x o]).
    { unfold base_completed. cbn. rewrite (si_last S). replace (0 <? ev)%Z with true by (symmetry; apply Z.ltb_lt; exact Hev). reflexivity. }
    apply do_complete_ok in H3. destruct H3 as [e' [l [nx [cv [-> Hk]]]]]. cbn [p_s X_ set_converged set_ev_last set_ev_next].
    intros E. change (X_ (base_completed c (o_id o) (o_x o) v ev (p_s p)) = []) in E. rewrite BX in E. destruct (X_ (p_s p)); discriminate.
  - eapply (@K _ [EvAbort (o_id o) (o_kind o) (o_x o)]); try reflexivity. cbn. destruct (o_kind o); reflexivity.
  - eapply (@K _ [EvStop]); reflexivity.
  - eapply (@K _ [EvResume]); try reflexivity. cbn. unfold resume. destruct (phase (p_s p) =? 1); reflexivity.
Qed.

Variable q : prob.
Variable dim : nat.
Variable dist : pt -> pt -> R.
Variable dtol : R.
Variable num_cand : option nat.

(** The i-th search of generate_evals, sop_strategy.py:293-307, with an arbitrary surrogate:
    candidate_dycors with num_pts = 1, weights = [1.0], the center and its radius. *)
Definition sop_dycors_search (predict : list (pt * val) -> pt -> R) (z : nat -> dydraws) (s : base pt val) : sop_search pt := fun i xc r =>
  do l <- candidate_dycors dist (predict (sur s)) 1 q (X_ s) (map toxr (fX_ s)) [1%R] (Xpend s) (Q2R r) None dtol num_cand (Some xc)
    (dy_u (z i)) (fun k => (dy_f (z i) k mod (length (q_lb q) - 1))%nat) (in_range q xc (Q2R r) (dy_z (z i)));
  geti l 0.
(** pySOT/strategy/sop_strategy.py:126-483 with the concrete candidate_dycors.py:8-94. *)
Definition sop_full (predict : list (pt * val) -> pt -> R) : hooks pt val (sop pt) (nat -> dydraws) := hooks_at (sop_dycors_search predict) strategy.

Section Gen.
Variable O : Type.
Variable g : O -> base pt val -> sop_search pt.
(** Every search is candidate_dycors with some predictions. *)
Hypothesis Hg : forall o s i xc r y, g o s i xc r = Ok y ->
  exists predict zi l, candidate_dycors dist predict 1 q (X_ s) (map toxr (fX_ s)) [1%R] (Xpend s) (Q2R r) None dtol num_cand (Some xc)
    (dy_u zi) (fun k => (dy_f zi k mod (length (q_lb q) - 1))%nat) (in_range q xc (Q2R r) (dy_z zi)) = Ok l /\ geti l 0 = Ok y.

Lemma sop_feasible : forall design, setting q dim dist dtol num_cand -> forall ops p,
  y_proc (Strategy.run c (hooks_at g strategy) design sop0 ops) = Some p ->
  (forall d, design = Ok d -> Forall (feasible q dim) d) ->
  (forall d z, In (Propose (Ok d) z) ops -> Forall (feasible q dim) d) ->
  Forall (feasible q dim) (unknown c) ->
  forall id k x, In (EvPropose id k x) (p_hist p) -> feasible q dim x.
Proof using Hg.
  intros design SE ops p Hp Hd Ho Hu.
  apply (@feasible_closed_hist _ _ _ _ c (hooks_at g strategy) design sop0 (feasible q dim) ops p (or_introl Hp) Hd Ho Hu).
  intros s e p0 n z e' l H1 M FX G.
  assert (M' : micros c strategy (init_proc (s, e)) p0) by (eapply micros_at; exact M).
  change (construct c strategy design sop0 = Ok (s, e)) in H1.
  change (hk_generate strategy (p_e p0) (p_s p0) n (g z (p_s p0)) = Ok (e', Some l)) in G.
  assert (I0 : Inv c (init_proc (s, e))) by (eapply Inv_init; exact H1).
  assert (S0 : SopInv c ncenters (init_proc (V := val) (s, e))).
  { apply (@SopInv_reached pt c sdist tooclose ncenters design). exists []. left. unfold Strategy.run, run_from, start. cbn [fold_left]. rewrite H1. reflexivity. }
  assert (S : SopInv c ncenters p0).
  { apply (@micros_from _ _ _ _ c strategy (SopInv c ncenters) _ I0 S0); [|exact M']. intros a b IQ SQ N. exact (@SopInv_micro pt c sdist tooclose ncenters a b IQ SQ N). }
  assert (NE : completed (p_hist p0) <> [] -> X_ (p_s p0) <> []).
  { apply (@micros_from _ _ _ _ c strategy (fun p => SopInv c ncenters p /\ (completed (p_hist p) <> [] -> X_ (p_s p) <> [])) _ I0).
    - split; [exact S0|]. intros K. exfalso. apply K. reflexivity.
    - intros a b IQ [SQ NQ] N. split; [exact (@SopInv_micro pt c sdist tooclose ncenters a b IQ SQ N)|]. exact (@X_nonempty_micro a b SQ NQ N).
    - exact M'. }
  assert (RI : RunInv c p0) by (eapply RunInv_micros; [exact H1|exact M']).
  assert (FC : forall x v, In (x, v) (completed (p_hist p0)) -> feasible q dim x).
  { intros x v Hx. destruct (@completed_proposed _ _ _ _ c strategy design sop0 s e p0 x v H1 M' Hx) as [id [k K]]. eapply FX; exact K. }
  assert (FXX : Forall (feasible q dim) (X_ (p_s p0))).
  { apply Forall_forall. intros x Hx. destruct (@X_proposed _ _ _ _ c strategy design sop0 s e p0 x H1 M' Hx) as [id [k K]]. eapply FX; exact K. }
  cbn [hk_generate sop_strategy sop_hooks] in G. apply sop_generate_cases in G.
  destruct G as [F [e1 [cs [pts [_ [G2 [G3 [_ G4]]]]]]]]. injection G4 as <-.
  destruct (perturb_search _ _ _ _ _ _ G3) as [new [ks [A1 [_ [_ [_ [_ [_ A7]]]]]]]]. cbn [app] in A1. subst new.
  apply Forall_forall. intros y Hy. apply In_nth_error in Hy. destruct Hy as [i Hy]. destruct (A7 i y Hy) as [k [cn [r [K1 [K2 [K3 [K4 K5]]]]]]]. cbn [Nat.add] in K4.
  destruct (@update_center_list_ok _ _ _ _ _ _ _ _ G2) as [E0 [_ [cs1 [E1 [_ E2]]]]].
  assert (C : cen_ok c (s_evals (p_e p0)) cn).
  { apply nth_error_In in K2. rewrite E1 in K2. apply in_app_or in K2. destruct K2 as [K2|K2].
    - apply filter_In in K2. pose proof (x_cen (si_x S)) as XC. rewrite Forall_forall in XC. exact (XC _ (proj1 K2)).
    - exact (proj1 (E2 cn K2)). }
  destruct C as [[r' [C1 C2]] _].
  assert (IA : In (n_xc cn, r_fx r') (completed (p_hist p0))).
  { rewrite <- (si_arch S), <- C2. apply in_map_iff. exists r'. split; [reflexivity|]. eapply nth_error_In; exact C1. }
  assert (RP : (0 < Q2R (r_sigma r))%R).
  { pose proof (x_mem (si_x S)) as XM. rewrite Forall_forall in XM. destruct (XM r (nth_error_In _ _ K3)) as [_ [_ M3]].
    replace 0%R with (Q2R 0) by (unfold Q2R; simpl; lra). apply Qlt_Rlt. rewrite M3. apply Qmult_lt_0_compat; [reflexivity|]. apply Qpower.Qpower_0_lt. reflexivity. }
  assert (SI : search_input dist q dim 1 (X_ (p_s p0)) (map toxr (fX_ (p_s p0))) [1%R] dtol num_cand).
  { destruct SE as [W D T0 RF NC]. constructor; auto.
    - apply NE. intros E. rewrite E in IA. destruct IA.
    - rewrite map_length. symmetry. apply (ri_len RI).
    - intros u. apply toxr_nan.
    - apply Forall_forall. exact FXX. }
  destruct (@Hg _ _ _ _ _ _ K4) as [predict [zi [lc [L1 L2]]]].
  destruct SE as [W D T0 RF NC]. assert (LD : length (q_lb q) = dim) by apply W.
  destruct (@C33_dycors_partial dist predict q dim 1 (X_ (p_s p0)) (map toxr (fX_ (p_s p0))) [1%R] (Xpend (p_s p0))
    (Q2R (r_sigma r)) None dtol num_cand (Some (n_xc cn)) (dy_u zi) (fun k => (dy_f zi k mod (length (q_lb q) - 1))%nat)
    (in_range q (n_xc cn) (Q2R (r_sigma r)) (dy_z zi)) SI RP) as [xb [-> [pts' [B3 [B4 B5]]]]].
  - exact Logic.I.
  - intros c0 E. injection E as <-. eapply FC; exact IA.
  - intros j. cbn [sub_list]. rewrite seq_length, LD. destruct (Nat.eq_dec dim 1) as [E|E]; [right; exact E|left].
    apply Nat.mod_upper_bound. lia.
  - intros xb j m -> Hj _. cbn [sub_list]. unfold in_range. rewrite (@all_seq q dim LD). apply clamp_in. apply tn_order; auto. eapply FC; exact IA.
  - rewrite B3 in L1. injection L1 as <-. apply B5. apply geti_ok in L2. eapply nth_error_In; exact L2.
Qed.
End Gen.

(** C13 for SOPStrategy: whatever the surrogate predicts, the draws, the schedule, the crashes and
    the failures, every proposed point lies in the bounds and is integral in the integer
    variables, if the designs and the user's extra points are. *)
Theorem C13_sop : forall predict design, setting q dim dist dtol num_cand -> forall ops p,
  y_proc (Strategy.run c (sop_full predict) design sop0 ops) = Some p ->
  (forall d, design = Ok d -> Forall (feasible q dim) d) ->
  (forall d z, In (Propose (Ok d) z) ops -> Forall (feasible q dim) d) ->
  Forall (feasible q dim) (unknown c) ->
  forall id k x, In (EvPropose id k x) (p_hist p) -> feasible q dim x.
Proof using.
  intros predict design SE. apply sop_feasible; [|exact SE].
  intros o s i xc r y H. unfold sop_dycors_search in H. apply rbind_ok in H. destruct H as [l [H1 H2]]. eauto.
Qed.

(** ... in particular with the default RBF surrogate (whose errors end the run). *)
Theorem C13_sop_rbf : forall eta design, setting q dim dist dtol num_cand -> forall ops p,
  y_proc (Strategy.run c (sop_rbf q dim dist dtol num_cand eta c sdist tooclose ncenters) design sop0 ops) = Some p ->
  (forall d, design = Ok d -> Forall (feasible q dim) d) ->
  (forall d z, In (Propose (Ok d) z) ops -> Forall (feasible q dim) d) ->
  Forall (feasible q dim) (unknown c) ->
  forall id k x, In (EvPropose id k x) (p_hist p) -> feasible q dim x.
Proof using.
  intros eta design SE. apply (@sop_feasible _ (sop_rbf_search q dim dist dtol num_cand eta)); [|exact SE].
  intros o s i xc r y H. unfold sop_rbf_search in H. apply rbind_ok in H. destruct H as [w [_ H]]. apply rbind_ok in H. destruct H as [l [H1 H2]]. eauto.
Qed.
End Sop.

(** The setting of ex_C13_srbf; after the two design points have completed, SOPStrategy has the
    first batch of adaptive points to propose, and the theorem says that they are feasible. *)
Local Open Scope R_scope.
Example ex_C13_sop : forall predict z, let sd := fun _ _ : pt => 1%Q in let tc := fun (_ _ : pt) (_ : nat) (_ : Q) => false in
  setting q2 2 d2 (/10) (Some 5%nat) /\
  Forall (feasible q2 2) [[/2; 1]; [/4; 2]] /\ Forall (feasible q2 2) (unknown c2) /\
  exists p, y_proc (Strategy.run c2 (sop_full c2 sd tc 2 q2 d2 (/10) (Some 5%nat) predict) (Ok [[/2; 1]; [/4; 2]]) sop0
      [Propose (Ok []) z; Accept 0; Propose (Ok []) z; Accept 1; Update 0 (SCompleted (Fin 3)); Update 1 (SCompleted (Fin 1))]) = Some p /\
    map (@r_x pt) (s_evals (p_e p)) = [[/4; 2]; [/2; 1]] /\ In (EvPropose 1 KInit [/2; 1]) (p_hist p).
Proof.
  intros predict z sd tc. destruct (ex_C13_srbf (fun _ _ => 0) (fun _ _ => 0)) as [E1 [_ [E2 [E3 _]]]].
  split; [exact E1|]. split; [exact E2|]. split; [exact E3|].
  eexists. split; [lazy -[sop_dycors_search IZR Rinv]; reflexivity|]. split; [reflexivity|]. simpl. tauto.
Qed.
