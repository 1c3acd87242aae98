(** * Further invariants: prefixes of histories, stopping, pending points, run data,
    conservation of queued points. *)
From Coq Require Import List Arith ZArith Lia Bool Permutation.
From Verif Require Import Base Strategy StrategySpec StrategyProofs StrategyInv.
Import ListNotations.
Local Open Scope Z_scope.

Set Implicit Arguments.

Ltac complete_ok :=
  match goal with H : do_complete _ _ _ _ _ _ = Ok _ |- _ =>
    apply do_complete_ok in H; destruct H as [e' [l [nx [cv [-> _]]]]] end.

Section Inv2.
Variables P V Ext Orc : Type.
Variable c : cfg P V.
Variable hk : hooks P V Ext Orc.
Notation proc := (proc P V Ext).
Notation base := (base P V).

(** Every micro-step appends at most one event. *)
Lemma micro_hist : forall p p', micro c hk p p' ->
  p_hist p' = p_hist p \/ exists ev, p_hist p' = p_hist p ++ [ev].
Proof.
  intros p p' M. destruct M; simpl; eauto; try (left; apply app_nil_r).
  apply do_complete_ok in H1. destruct H1 as [e' [l [nx [cv [-> _]]]]]. simpl. eauto.
Qed.

(** Each event of a history was produced by a micro-step from a state with that prefix. *)
Lemma event_step : forall p0 p, micros c hk p0 p -> p_hist p0 = [] ->
  forall h1 ev h2, p_hist p = h1 ++ ev :: h2 ->
  exists q r, micros c hk p0 q /\ micro c hk q r /\ micros c hk r p /\
              p_hist q = h1 /\ p_hist r = h1 ++ [ev].
Proof.
  intros p0 p M. induction M as [p|p q r M1 IH M2]; intros H0 h1 ev h2 E.
  - rewrite H0 in E. destruct h1; discriminate.
  - destruct (micro_hist M2) as [E2|[ev2 E2]].
    + rewrite E2 in E. destruct (IH H0 _ _ _ E) as [q' [r' [A [B [C [D1 D2]]]]]].
      exists q', r'. repeat split; auto. eapply ms_step; eauto.
    + rewrite E2 in E. apply snoc_split in E. destruct E as [[-> [E3 ->]]|[h3 [-> E3]]].
      * exists q, r. repeat split; auto.
        -- apply ms_refl.
        -- rewrite E2, E3. reflexivity.
      * destruct (IH H0 _ _ _ E3) as [q' [r' [A [B [C [D1 D2]]]]]].
        exists q', r'. repeat split; auto. eapply ms_step; eauto.
Qed.

(** A micro-step that emits a given event. *)
Lemma micro_event : forall p p' ev, micro c hk p p' -> p_hist p' = p_hist p ++ [ev] ->
  match ev with
  | EvPropose id k x => below c (p_s p) /\ converged (p_s p) = false /\ id = p_next p /\
      exists q, batch_queue (p_s p) = q ++ [x]
  | EvTerminate => at_stop c (p_s p) /\ pending_evals (p_s p) = 0
  | EvNone => (at_stop c (p_s p) /\ pending_evals (p_s p) <> 0) \/
              (below c (p_s p) /\ (converged (p_s p) = true \/ batch_queue (p_s p) = []))
  | EvGenerate n l => below c (p_s p) /\ batch_queue (p_s p) = [] /\
      may_generate c (p_s p) /\ phase (p_s p) = 2%nat /\
      n = (if c_async c then 1%nat else c_batch c) /\
      exists o e', hk_generate hk (p_e p) (p_s p) n o = Ok (e', l)
  | EvRestart l => below c (p_s p) /\ converged (p_s p) = true /\ c_restarts c = true /\
      may_generate c (p_s p) /\ exists rows, length rows = c_num_pts c /\ l = rows ++ unk c (p_s p)
      /\ p_s p' = restarted c rows (p_s p)
  | EvAccept id => exists o, In o (p_out p) /\ o_id o = id /\ o_ev o = None
  | EvReject id k x => exists o, In o (p_out p) /\ o_id o = id /\ o_ev o = None /\ o_x o = x
                          /\ o_kind o = k
  | EvComplete id k x v => exists o ev, In o (p_out p) /\ o_id o = id /\ o_ev o = Some ev /\
                          o_x o = x /\ o_kind o = k
  | EvAbort id k x => exists o ev, In o (p_out p) /\ o_id o = id /\ o_ev o = Some ev /\
                          o_x o = x /\ o_kind o = k
  | EvStop => True
  | EvResume => p' = do_resume p
  end.
Proof.
  intros p p' ev M E.
  destruct M; simpl in E;
    try (apply do_complete_ok in H1; destruct H1 as [e' [l [nx [cv [-> _]]]]]; simpl in E);
    try (apply app_inv_head in E; first [discriminate E | injection E as <-]);
    try (apply app_inv_head in E; subst ev);
    try solve [ repeat split; eauto | eauto 12 | eexists; eauto 12 | eexists; eexists; eauto 12
              | exfalso; apply (f_equal (@length _)) in E; rewrite !app_length in E;
                simpl in E; lia ].
Qed.

(** ** Stopping *)

Definition max0 : Z := Z.max (c_max_evals c) 0.

Definition stop_at (h1 : list (event P V)) (ev : event P V) : Prop :=
  is_stop ev = true \/ (is_call ev = true /\ c_max_evals c <= used h1).

Lemma stop_seen_snoc : forall h ev,
  stop_seen (c_max_evals c) (h ++ [ev]) <->
  stop_seen (c_max_evals c) h \/ stop_at h ev.
Proof.
  intros h ev. split.
  - intros [h1 [ev1 [h2 [E S]]]]. apply snoc_split in E.
    destruct E as [[-> [-> ->]]|[h3 [-> ->]]]; [right; exact S|].
    left. exists h1, ev1, h3. auto.
  - intros [[h1 [ev1 [h2 [-> S]]]]|S].
    + exists h1, ev1, (h2 ++ [ev]). rewrite <- app_assoc. auto.
    + exists h, ev, []. auto.
Qed.

Lemma stop_seen_nil : ~ stop_seen (c_max_evals c) (@nil (event P V)).
Proof. intros [h1 [ev [h2 [E _]]]]. destruct h1; discriminate. Qed.

(** The terminate flag is set exactly when the stopping criterion was observed. *)
Lemma terminate_iff : forall p0 p, micros c hk p0 p -> Inv c p0 ->
  p_hist p0 = [] -> terminate (p_s p0) = false ->
  (terminate (p_s p) = true <-> stop_seen (c_max_evals c) (p_hist p)).
Proof.
  intros p0 p M I0 H0 T0. induction M as [p|p q r M1 IH M2].
  - rewrite H0, T0. split; [discriminate|]. intros S. destruct (stop_seen_nil S).
  - specialize (IH I0 H0 T0).
    assert (I : Inv c q) by (eapply Inv_micros; eauto).
    pose proof (used_inv I) as U.
    assert (Frame : forall evs (s' : base), (forall ev, In ev evs -> is_stop ev = false /\ is_call ev = false) ->
       terminate s' = terminate (p_s q) -> (evs = [] \/ exists ev, evs = [ev]) ->
       (terminate s' = true <-> stop_seen (c_max_evals c) (p_hist q ++ evs))).
    { intros evs s' Hev Hs Hl. rewrite Hs, IH. destruct Hl as [->|[ev ->]].
      - rewrite app_nil_r. tauto.
      - rewrite stop_seen_snoc. split; [tauto|]. intros [S|[S|[S _]]]; auto;
        destruct (Hev ev (or_introl eq_refl)); congruence. }
    destruct M2; simpl.
    + rewrite stop_seen_snoc. split; auto. intros _. destruct H as [H|H].
      * left. apply IH. exact H.
      * right. right. split; [reflexivity|]. lia.
    + rewrite stop_seen_snoc. split; auto. intros _. destruct H as [H|H].
      * left. apply IH. exact H.
      * right. right. split; [reflexivity|]. lia.
    + rewrite stop_seen_snoc, IH. split; auto. intros [S|[S|[_ S]]]; auto.
      * discriminate S.
      * destruct H. lia.
    + rewrite app_nil_r. exact IH.
    + apply Frame; eauto. intros ev [<-|[]]; auto.
    + apply Frame; eauto. intros ev [<-|[]]; auto.
    + apply Frame; eauto. intros ev [<-|[]]; auto.
    + rewrite stop_seen_snoc, IH. split; auto. intros [S|[S|[_ S]]]; auto.
      * discriminate S.
      * destruct H. lia.
    + apply Frame; eauto. intros ev [<-|[]]; auto.
    + apply Frame; eauto; [intros ev [<-|[]]; auto|].
      destruct (o_kind o); simpl; auto. unfold on_adapt_reject. destruct (c_async c); reflexivity.
    + complete_ok.
      destruct (base_completed_fields c (o_id o) (o_x o) v ev (p_s q))
        as [_ [_ [_ [_ [_ [_ [_ [F _]]]]]]]].
      set (sb := base_completed c (o_id o) (o_x o) v ev (p_s q)) in *. clearbody sb.
      apply Frame; eauto. intros ev1 [<-|[]]; auto.
    + apply Frame; eauto; [intros ev1 [<-|[]]; auto|].
      destruct (o_kind o); reflexivity.
    + rewrite stop_seen_snoc. split; auto. intros _. right. left. reflexivity.
    + apply Frame; eauto; [intros ev [<-|[]]; auto|].
      unfold resume. destruct (phase (p_s q) =? 1)%nat; reflexivity.
Qed.

Lemma max0_used : forall p : proc, Inv c p -> c_max_evals c <= used (p_hist p) ->
  used (p_hist p) = max0.
Proof.
  intros p I H. pose proof (used_inv I). pose proof (inv_bud I). unfold max0.
  assert (0 <= used (p_hist p)) by (unfold used; lia). lia.
Qed.

Lemma undecided_wf : forall (p : proc) o, Inv c p -> In o (p_out p) -> o_ev o = None ->
  undecided (p_hist p) <> [].
Proof.
  intros p o I Hi Hu E. rewrite (inv_und I) in E.
  assert (In (o_id o) (map (@o_id P) (filter (@is_und P) (p_out p)))).
  { apply in_map. apply filter_In. split; [assumption|]. unfold is_und. rewrite Hu. reflexivity. }
  rewrite E in H. contradiction.
Qed.

Lemma protocol_prefix : forall (h1 h2 : list (event P V)),
  protocol (h1 ++ h2) -> protocol h1.
Proof.
  intros h1 h2 H a ev b E C. apply (H a ev (b ++ h2)); [|exact C].
  rewrite E, <- app_assoc. reflexivity.
Qed.

(** How much of the budget is lost after the criterion was reached. *)
Definition reached_budget (p : proc) : Prop :=
  exists ha ev hb, p_hist p = ha ++ ev :: hb /\ is_call ev = true /\ is_eval ev = false /\
    used ha = max0 /\ c_max_evals c <= used ha /\
    (count (@is_resume P V) hb = 0%nat ->
       used (p_hist p) = max0 - Z.of_nat (count (@is_abort P V) hb)
                              - Z.of_nat (count (@is_reject P V) hb)) /\
    (protocol (p_hist p) -> undecided (p_hist p) = [] /\ count (@is_reject P V) hb = 0%nat).

Lemma used_snoc : forall (p p' : proc) ev, Inv c p -> Inv c p' -> p_hist p' = p_hist p ++ [ev] ->
  used (p_hist p ++ [ev]) = num_evals (p_s p') + pending_evals (p_s p').
Proof. intros p p' ev I I' E. rewrite <- E. apply (used_inv I'). Qed.

Lemma stop_budget : forall p0 p, micros c hk p0 p -> Inv c p0 ->
  p_hist p0 = [] -> terminate (p_s p0) = false ->
  terminate (p_s p) = true -> count (@is_stop P V) (p_hist p) = 0%nat -> reached_budget p.
Proof.
  intros p0 p M I0 H0 T0. induction M as [p|p q r M1 IH M2]; intros T N.
  - congruence.
  - specialize (IH I0 H0 T0).
    assert (I : Inv c q) by (eapply Inv_micros; eauto).
    assert (I' : Inv c r) by (eapply Inv_micro; eauto).
    pose proof (used_inv I) as U. pose proof (used_inv I') as U'.
    (* steps that keep the flag and append one event that is not a proposal *)
    assert (Step : forall ev, p_hist r = p_hist q ++ [ev] -> terminate (p_s q) = true ->
       is_eval ev = false ->
       (is_resume ev = false -> used (p_hist r) = used (p_hist q)
           - Z.of_nat (count (@is_abort P V) [ev]) - Z.of_nat (count (@is_reject P V) [ev])) ->
       (is_reject ev = true -> undecided (p_hist q) <> []) ->
       undecided_step [] ev = [] ->
       reached_budget r).
    { intros ev E Tq Ne Hu Hr Hund. rewrite E in N. rewrite count_app in N.
      destruct IH as [ha [ev1 [hb [E1 [C1 [C2 [C3 [C4 [C5 C6]]]]]]]]]; [assumption|lia|].
      exists ha, ev1, (hb ++ [ev]). rewrite E, E1. split; [rewrite <- app_assoc; reflexivity|].
      repeat split; auto.
      - intros Z. rewrite count_app in Z. rewrite <- E1, <- E, Hu.
        + rewrite C5 by lia. rewrite !count_app. lia.
        + unfold count in Z. simpl in Z. destruct (is_resume ev); simpl in Z; [lia|reflexivity].
      - rewrite undecided_snoc. rewrite <- E1.
        destruct C6 as [C6 _]; [rewrite E1; eapply protocol_prefix; eassumption|].
        rewrite C6. assumption.
      - destruct C6 as [C6 C7]; [rewrite E1; eapply protocol_prefix; eassumption|].
        rewrite count_app, C7. unfold count. simpl. destruct (is_reject ev) eqn:Er; [|reflexivity].
        exfalso. apply Hr; auto. }
    assert (New : forall ev, p_hist r = p_hist q ++ [ev] -> is_call ev = true ->
       is_eval ev = false -> c_max_evals c <= used (p_hist q) ->
       used (p_hist r) = used (p_hist q) -> undecided_step (undecided (p_hist q)) ev = undecided (p_hist q) ->
       reached_budget r).
    { intros ev E C Ne Hm Hu Hund. exists (p_hist q), ev, []. repeat split; auto.
      - apply max0_used; assumption.
      - intros _. unfold count. simpl. rewrite Hu, (max0_used I Hm). lia.
      - rewrite E, undecided_snoc, Hund. apply (H (p_hist q) ev []); auto. }
    assert (Both : forall ev, p_hist r = p_hist q ++ [ev] -> is_call ev = true ->
       is_eval ev = false -> at_stop c (p_s q) -> p_s r = set_terminate true (p_s q) ->
       undecided_step (undecided (p_hist q)) ev = undecided (p_hist q) ->
       reached_budget r).
    { intros ev E C Ne [S|S] Es Hund.
      - apply (Step ev); auto.
        + intros _. rewrite U', U, Es. unfold count. simpl.
          destruct ev; try discriminate; simpl; lia.
        + destruct ev; try discriminate.
        + destruct ev; try discriminate; reflexivity.
      - apply (New ev); auto; [lia|]. rewrite U', U, Es. reflexivity. }
    destruct M2; simpl in T.
    + apply (Both EvNone); auto.
    + apply (Both EvTerminate); auto.
    + apply (Step EvNone); auto. intros _. rewrite U', U. unfold count. simpl. lia.
      discriminate.
    + destruct IH as [ha [ev1 [hb [E1 [C1 [C2 [C3 [C4 [C5 C6]]]]]]]]]; auto.
      { simpl in N. rewrite app_nil_r in N. exact N. }
      exists ha, ev1, hb. simpl in *. rewrite app_nil_r in *. repeat split; auto; tauto.
    + destruct H. congruence.
    + destruct H. congruence.
    + destruct H. congruence.
    + destruct H. congruence.
    + apply (Step (EvAccept (o_id o))); auto.
      * intros _. rewrite U', U. unfold count. simpl. lia.
      * discriminate.
    + assert (Tq : terminate (p_s q) = true).
      { destruct (o_kind o); simpl in T; auto. unfold on_adapt_reject in T.
        destruct (c_async c); simpl in T; auto. }
      apply (Step (EvReject (o_id o) (o_kind o) (o_x o))); auto.
      * intros _. rewrite U', U. unfold count. simpl.
        destruct (o_kind o); simpl; [lia|]. unfold on_adapt_reject.
        destruct (c_async c); simpl; lia.
      * intros _. eapply undecided_wf; eauto.
    + complete_ok.
      destruct (base_completed_fields c (o_id o) (o_x o) v ev (p_s q))
        as [F1 [F2 [_ [_ [_ [_ [_ [F _]]]]]]]].
      set (sb := base_completed c (o_id o) (o_x o) v ev (p_s q)) in *. clearbody sb.
      simpl in T.
      apply (Step (EvComplete (o_id o) (o_kind o) (o_x o) v)); auto.
      * rewrite <- F. exact T.
      * intros _. rewrite U', U. simpl. rewrite F1, F2. unfold count. simpl. lia.
      * discriminate.
    + apply (Step (EvAbort (o_id o) (o_kind o) (o_x o))); auto.
      * destruct (o_kind o); simpl in T; auto.
      * intros _. rewrite U', U. unfold count. simpl. destruct (o_kind o); simpl; lia.
      * discriminate.
    + exfalso. simpl in N. rewrite count_app in N. unfold count in N. simpl in N. lia.
    + apply (Step EvResume); auto; try discriminate.
      unfold resume in T. destruct (phase (p_s q) =? 1)%nat; simpl in T; auto.
Qed.

End Inv2.
