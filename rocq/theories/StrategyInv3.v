(** * Pending points, data of the current run, conservation of queued points, feasibility. *)
From Coq Require Import List Arith ZArith Lia Bool Permutation.
From Verif Require Import Base Strategy StrategySpec StrategyProofs StrategyInv StrategyInv2.
Import ListNotations.
Local Open Scope Z_scope.

Set Implicit Arguments.

Section Inv3.
Variables P V Ext Orc : Type.
Variable c : cfg P V.
Variable hk : hooks P V Ext Orc.
Notation proc := (proc P V Ext).
Notation base := (base P V).

(** ** Xpend *)

Hypothesis peqb_spec : forall x y, c_peqb c x y = true <-> x = y.

Definition XpendInv (p : proc) : Prop :=
  (forall x, In x (Xpend (p_s p)) -> In x (map (@o_x P) (p_out p))) /\
  (no_duplicates (p_hist p) ->
     NoDup (map (@o_x P) (p_out p)) /\ Xpend (p_s p) = map (@o_x P) (p_out p)).

Lemma no_duplicates_prefix : forall (h1 h2 : list (event P V)),
  no_duplicates (h1 ++ h2) -> no_duplicates h1.
Proof.
  intros h1 h2 H a id k x b E. apply (H a id k x (b ++ h2)).
  rewrite E, <- app_assoc. reflexivity.
Qed.

Lemma filter_neq_map : forall (l1 l2 : list (outst P)) o,
  NoDup (map (@o_x P) (l1 ++ o :: l2)) ->
  filter (fun y => negb (c_peqb c y (o_x o))) (map (@o_x P) (l1 ++ o :: l2)) =
  map (@o_x P) (l1 ++ l2).
Proof.
  intros l1 l2 o H. rewrite map_app in *. simpl in *. rewrite filter_app. simpl.
  assert (R : c_peqb c (o_x o) (o_x o) = true) by (apply peqb_spec; reflexivity).
  rewrite R. simpl. rewrite map_app. apply NoDup_remove_2 in H.
  rewrite !filter_all; [reflexivity| |]; intros y Hy; apply negb_true_iff;
    destruct (c_peqb c y (o_x o)) eqn:E; auto; apply peqb_spec in E; subst y;
    exfalso; apply H; apply in_or_app; auto.
Qed.

Lemma XpendInv_remove : forall (p p' : proc) o ev,
  Inv c p -> In o (p_out p) -> XpendInv p ->
  p_out p' = del_out (o_id o) (p_out p) -> p_hist p' = p_hist p ++ [ev] ->
  Xpend (p_s p') = filter (fun y => negb (c_peqb c y (o_x o))) (Xpend (p_s p)) ->
  XpendInv p'.
Proof.
  intros p p' o ev I Hi [X1 X2] E1 E2 E3.
  destruct (del_out_split _ _ (inv_nodup I) Hi) as [l1 [l2 [Eo Ed]]].
  split.
  - intros x Hx. rewrite E3 in Hx. apply filter_In in Hx. destruct Hx as [Hx Hn].
    apply X1 in Hx. rewrite E1, Ed. rewrite Eo in Hx.
    rewrite map_app in *. simpl in Hx.
    apply in_app_or in Hx. apply in_or_app. destruct Hx as [Hx|[Hx|Hx]]; auto.
    exfalso. apply negb_true_iff in Hn.
    assert (c_peqb c x (o_x o) = true) by (apply peqb_spec; auto). congruence.
  - intros D. rewrite E2 in D. apply no_duplicates_prefix in D.
    destruct (X2 D) as [N E]. rewrite E1, E3, E, Ed, Eo in *.
    split.
    + rewrite map_app in *. simpl in N. apply NoDup_remove_1 in N. exact N.
    + apply filter_neq_map. exact N.
Qed.

Lemma XpendInv_same : forall p p' : proc,
  XpendInv p -> map (@o_x P) (p_out p') = map (@o_x P) (p_out p) ->
  Xpend (p_s p') = Xpend (p_s p) ->
  (exists evs, p_hist p' = p_hist p ++ evs) ->
  XpendInv p'.
Proof.
  intros p p' [X1 X2] E1 E2 [evs E3]. split.
  - intros x Hx. rewrite E1. apply X1. rewrite <- E2. exact Hx.
  - intros D. rewrite E3 in D. apply no_duplicates_prefix in D. destruct (X2 D).
    rewrite E1, E2. auto.
Qed.

Lemma XpendInv_micro : forall p p', Inv c p -> XpendInv p -> micro c hk p p' -> XpendInv p'.
Proof.
  intros p p' I XI M. destruct M;
    try (solve [eapply XpendInv_same; [exact XI|reflexivity|reflexivity|eexists; reflexivity]]).
  - (* propose *)
    destruct XI as [X1 X2]. split; simpl.
    + intros y Hy. rewrite map_app. apply in_app_or in Hy. apply in_or_app.
      destruct Hy as [Hy|Hy]; [left; auto|right; exact Hy].
    + intros D. assert (D' : no_duplicates (p_hist p)) by (eapply no_duplicates_prefix; exact D). destruct (X2 D') as [N E].
      rewrite map_app, E. simpl. split; [|reflexivity].
      apply NoDup_snoc; [exact N|].
      pose proof (D (p_hist p) (p_next p) k x [] eq_refl) as Hx.
      rewrite (inv_out I) in Hx. rewrite <- map_xs in Hx. exact Hx.
  - eapply XpendInv_same; [exact XI| |reflexivity|eexists; reflexivity].
    simpl. rewrite !map_xs, set_ev_map. reflexivity.
  - eapply XpendInv_remove with (p := p) (o := o); simpl; eauto.
    destruct (o_kind o); simpl.
    + rewrite filter_app. simpl.
      assert (R : c_peqb c (o_x o) (o_x o) = true) by (apply peqb_spec; reflexivity).
      rewrite R. simpl. apply app_nil_r.
    + unfold on_adapt_reject. destruct (c_async c); reflexivity.
  - complete_ok.
    destruct (base_completed_fields c (o_id o) (o_x o) v ev (p_s p))
      as [_ [_ [_ [_ [_ [_ [_ [_ [F _]]]]]]]]].
    eapply XpendInv_remove with (p := p) (o := o); simpl; eauto.
  - eapply XpendInv_remove with (p := p) (o := o); simpl; eauto.
    destruct (o_kind o); reflexivity.
  - split; simpl.
    + unfold resume. destruct (phase (p_s p) =? 1)%nat; simpl; intros x [].
    + intros _. split; [constructor|].
      unfold resume. destruct (phase (p_s p) =? 1)%nat; reflexivity.
Qed.

(** ** Data of the current run *)

Inductive subseq {A} : list A -> list A -> Prop :=
| sub_nil : subseq [] []
| sub_skip : forall x l m, subseq l m -> subseq l (x :: m)
| sub_take : forall x l m, subseq l m -> subseq (x :: l) (x :: m).

Lemma subseq_app : forall A (l1 m1 l2 m2 : list A),
  subseq l1 m1 -> subseq l2 m2 -> subseq (l1 ++ l2) (m1 ++ m2).
Proof. intros A l1 m1 l2 m2 H1 H2. induction H1; simpl; try constructor; assumption. Qed.
Lemma subseq_refl : forall A (l : list A), subseq l l.
Proof. induction l; constructor; assumption. Qed.
Lemma subseq_nil_l : forall A (l : list A), subseq [] l.
Proof. induction l; constructor; assumption. Qed.

Record RunInv (p : proc) : Prop := mkRunInv {
  ri_last : ev_last (p_s p) < ev_next (p_s p);
  ri_ev : forall o ev, In o (p_out p) -> o_ev o = Some ev -> ev < ev_next (p_s p);
  ri_fresh : forall o ev, In o (p_out p) -> o_ev o = Some ev -> ev_last (p_s p) < ev ->
             In (o_id o) (started_in_run (p_hist p));
  ri_len : length (X_ (p_s p)) = length (fX_ (p_s p));
  ri_sub : subseq (combine (X_ (p_s p)) (fX_ (p_s p))) (run_data (p_hist p));
  ri_sur : sur (p_s p) = (if (restarts (p_hist p) =? 0)%nat then known c else [])
                         ++ combine (X_ (p_s p)) (fX_ (p_s p))
}.

Lemma started_snoc : forall (h : list (event P V)) ev, started_in_run (h ++ [ev]) =
  fst (run_step (started_in_run h, run_data h) ev).
Proof.
  intros. unfold started_in_run, run_data. rewrite run_fold_snoc.
  destruct (fold_left (run_step (V:=V)) h ([], [])); reflexivity.
Qed.
Lemma run_data_snoc : forall (h : list (event P V)) ev, run_data (h ++ [ev]) =
  snd (run_step (started_in_run h, run_data h) ev).
Proof.
  intros. unfold started_in_run, run_data. rewrite run_fold_snoc.
  destruct (fold_left (run_step (V:=V)) h ([], [])); reflexivity.
Qed.
Lemma restarts_app : forall (h1 h2 : list (event P V)),
  restarts (h1 ++ h2) = (restarts h1 + restarts h2)%nat.
Proof. intros. unfold restarts. rewrite filter_app, app_length. reflexivity. Qed.

Lemma combine_snoc : forall A B (l : list A) (m : list B) a b,
  length l = length m -> combine (l ++ [a]) (m ++ [b]) = combine l m ++ [(a, b)].
Proof.
  induction l as [|x l IH]; intros [|y m] a b H; try discriminate; [reflexivity|].
  simpl. rewrite IH; auto.
Qed.

Lemma in_existsb : forall i l, In i l -> existsb (fun j => (j =? i)%nat) l = true.
Proof.
  intros i l H. apply existsb_exists. exists i. split; [assumption|apply Nat.eqb_refl].
Qed.

(** Steps that change neither run data nor records. *)
Lemma RunInv_same : forall (p p' : proc) evs,
  RunInv p -> p_hist p' = p_hist p ++ evs ->
  (evs = [] \/ exists ev, evs = [ev] /\
     run_step (started_in_run (p_hist p), run_data (p_hist p)) ev =
     (started_in_run (p_hist p), run_data (p_hist p)) /\ restarts [ev] = 0%nat) ->
  (forall o ev, In o (p_out p') -> o_ev o = Some ev -> exists o', In o' (p_out p) /\
     o_id o' = o_id o /\ o_ev o' = Some ev) ->
  ev_last (p_s p') = ev_last (p_s p) -> ev_next (p_s p') = ev_next (p_s p) ->
  X_ (p_s p') = X_ (p_s p) -> fX_ (p_s p') = fX_ (p_s p) -> sur (p_s p') = sur (p_s p) ->
  RunInv p'.
Proof.
  intros p p' evs R Eh Ev Ho E1 E2 E3 E4 E5. destruct R.
  assert (A1 : started_in_run (p_hist p') = started_in_run (p_hist p)).
  { rewrite Eh. destruct Ev as [->|[ev [-> [Ev _]]]]; [rewrite app_nil_r; reflexivity|].
    rewrite started_snoc, Ev. reflexivity. }
  assert (A2 : run_data (p_hist p') = run_data (p_hist p)).
  { rewrite Eh. destruct Ev as [->|[ev [-> [Ev _]]]]; [rewrite app_nil_r; reflexivity|].
    rewrite run_data_snoc, Ev. reflexivity. }
  assert (A3 : restarts (p_hist p') = restarts (p_hist p)).
  { rewrite Eh, restarts_app. destruct Ev as [->|[ev [-> [_ Ev]]]]; [unfold restarts; simpl; lia|].
    rewrite Ev. lia. }
  constructor; rewrite ?A1, ?A2, ?A3, ?E1, ?E2, ?E3, ?E4, ?E5; auto.
  - intros o ev Hi He. destruct (Ho o ev Hi He) as [o' [A [B C]]]. eauto.
  - intros o ev Hi He Hl. destruct (Ho o ev Hi He) as [o' [A [B C]]]. rewrite <- B. eauto.
Qed.

Lemma base_completed_data : forall id x v ev (s : base),
  let s' := base_completed c id x v ev s in
  ev_last s' = ev_last s /\ ev_next s' = ev_next s /\
  ((ev_last s < ev /\ X_ s' = X_ s ++ [x] /\ fX_ s' = fX_ s ++ [v] /\
    sur s' = sur s ++ [(x, v)]) \/
   (ev <= ev_last s /\ X_ s' = X_ s /\ fX_ s' = fX_ s /\ sur s' = sur s)).
Proof.
  intros. unfold s', base_completed. simpl.
  destruct (ev_last s <? ev) eqn:E; simpl; repeat split; auto.
  - left. apply Z.ltb_lt in E. auto.
  - right. apply Z.ltb_ge in E. auto.
Qed.

Ltac run_same E :=
  eapply RunInv_same with (evs := E);
  [ eassumption | reflexivity
  | first [left; reflexivity | right; eexists; split; [reflexivity|split; reflexivity]]
  | simpl; eauto | simpl; try reflexivity | simpl; try reflexivity | simpl; try reflexivity | simpl; try reflexivity
  | simpl; try reflexivity ].

Lemma RunInv_micro : forall p p', Inv c p -> RunInv p -> micro c hk p p' -> RunInv p'.
Proof.
  intros p p' I R M. pose proof (inv_kn I) as Ek.
  destruct M.
  - run_same ([EvNone] : list (event P V)).
  - run_same ([EvTerminate] : list (event P V)).
  - run_same ([EvNone] : list (event P V)).
  - run_same ([] : list (event P V)).
  - run_same ([EvGenerate n (Some l)] : list (event P V)).
  - run_same ([EvGenerate n None] : list (event P V)).
  - (* restart *)
    destruct R. constructor; simpl.
    + lia.
    + intros o ev Hi He. specialize (ri_ev0 o ev Hi He). lia.
    + intros o ev Hi He Hl. specialize (ri_ev0 o ev Hi He). lia.
    + reflexivity.
    + apply subseq_nil_l.
    + rewrite Ek, restarts_app. unfold restarts at 2. simpl.
      rewrite Nat.add_1_r. reflexivity.
  - (* propose *)
    run_same ([EvPropose (p_next p) k x] : list (event P V)).
    intros o ev Hi He. apply in_app_or in Hi. destruct Hi as [Hi|[<-|[]]]; [eauto|discriminate].
  - (* accept *)
    destruct R. constructor; simpl; rewrite ?started_snoc, ?run_data_snoc; simpl; auto.
    + lia.
    + intros o' ev Hi He. apply in_set_ev in Hi.
      destruct Hi as [o1 [Hi [E1 [_ [_ [->|[E2 E3]]]]]]].
      * specialize (ri_ev0 o1 ev Hi He). lia.
      * rewrite E3 in He. injection He as <-. lia.
    + intros o' ev Hi He Hl. apply in_set_ev in Hi. apply in_or_app.
      destruct Hi as [o1 [Hi [E1 [_ [_ [->|[E2 E3]]]]]]].
      * left. eauto.
      * right. left. congruence.
    + rewrite restarts_app. unfold restarts at 2. simpl. rewrite Nat.add_0_r. auto.
  - (* reject *)
    run_same ([EvReject (o_id o) (o_kind o) (o_x o)] : list (event P V)).
    + intros o' ev Hi He. apply in_del_out in Hi. eauto.
    + destruct (o_kind o); [reflexivity|]. unfold on_adapt_reject. destruct (c_async c); reflexivity.
    + destruct (o_kind o); [reflexivity|]. unfold on_adapt_reject. destruct (c_async c); reflexivity.
    + destruct (o_kind o); [reflexivity|]. unfold on_adapt_reject. destruct (c_async c); reflexivity.
    + destruct (o_kind o); [reflexivity|]. unfold on_adapt_reject. destruct (c_async c); reflexivity.
    + destruct (o_kind o); [reflexivity|]. unfold on_adapt_reject. destruct (c_async c); reflexivity.
  - (* complete *)
    match goal with H : do_complete _ _ _ _ _ _ = Ok _ |- _ =>
      apply do_complete_ok in H; destruct H as [e' [l [nx [cv [-> Hk]]]]] end.
    destruct R.
    assert (Hln : ev_last (p_s p) <= l /\ l < nx /\ ev_next (p_s p) <= nx).
    { destruct (o_kind o).
      - destruct Hk as [_ [-> [-> _]]]. lia.
      - destruct Hk as [n [cv0 [_ [_ [G0 G1]]]]]. destruct n as [|n].
        + destruct G0 as [-> ->]; auto. lia.
        + destruct G1 as [-> ->]; [lia|]. lia. }
    destruct (base_completed_data (o_id o) (o_x o) v ev (p_s p)) as [F1 [F2 F3]].
    assert (Hs : ev_last (p_s p) < ev -> In (o_id o) (started_in_run (p_hist p))) by eauto.
    set (sb := base_completed c (o_id o) (o_x o) v ev (p_s p)) in *. clearbody sb.
    constructor; simpl; rewrite ?started_snoc, ?run_data_snoc; simpl; auto.
    + lia.
    + intros o' ev' Hi He. apply in_del_out in Hi. specialize (ri_ev0 o' ev' Hi He). lia.
    + intros o' ev' Hi He Hl. apply in_del_out in Hi.
      assert (In (o_id o') (started_in_run (p_hist p))) by (eapply ri_fresh0; eauto; lia).
      destruct (existsb _ _); simpl; assumption.
    + destruct F3 as [[_ [-> [-> _]]]|[_ [-> [-> _]]]]; [rewrite !app_length; simpl; lia|assumption].
    + destruct F3 as [[Hlt [-> [-> _]]]|[_ [-> [-> _]]]].
      * rewrite in_existsb by auto. simpl. rewrite combine_snoc by assumption.
        apply subseq_app; [assumption|apply subseq_refl].
      * destruct (existsb _ _); simpl; [|assumption].
        rewrite <- (app_nil_r (combine _ _)).
        apply subseq_app; [assumption|apply subseq_nil_l].
    + rewrite restarts_app. unfold restarts at 2. simpl. rewrite Nat.add_0_r.
      destruct F3 as [[Hlt [-> [-> ->]]]|[_ [-> [-> ->]]]]; [|assumption].
      rewrite combine_snoc by assumption. rewrite ri_sur0, app_assoc. reflexivity.
  - (* abort *)
    run_same ([EvAbort (o_id o) (o_kind o) (o_x o)] : list (event P V)).
    + intros o' ev' Hi He. apply in_del_out in Hi. eauto.
    + destruct (o_kind o); reflexivity.
    + destruct (o_kind o); reflexivity.
    + destruct (o_kind o); reflexivity.
    + destruct (o_kind o); reflexivity.
    + destruct (o_kind o); reflexivity.
  - run_same ([EvStop] : list (event P V)).
  - run_same ([EvResume] : list (event P V)).
    + intros o' ev' [].
    + unfold resume; destruct (phase (p_s p) =? 1)%nat; reflexivity.
    + unfold resume; destruct (phase (p_s p) =? 1)%nat; reflexivity.
    + unfold resume; destruct (phase (p_s p) =? 1)%nat; reflexivity.
    + unfold resume; destruct (phase (p_s p) =? 1)%nat; reflexivity.
    + unfold resume; destruct (phase (p_s p) =? 1)%nat; reflexivity.
Qed.

(** With hooks that start a new event epoch only when nothing is pending, the data of the
    current run is complete. *)
Definition bump_when_idle : Prop :=
  forall e s x v ev e' n cv, hk_adapt_completed hk e s x v ev = Ok (e', n, cv) ->
    (0 < n)%nat -> pending_evals s = 0.

Definition FullInv (p : proc) : Prop :=
  (forall o ev, In o (p_out p) -> o_ev o = Some ev ->
     In (o_id o) (started_in_run (p_hist p)) -> ev_last (p_s p) < ev) /\
  combine (X_ (p_s p)) (fX_ (p_s p)) = run_data (p_hist p).

Lemma FullInv_same : forall (p p' : proc) evs,
  FullInv p -> p_hist p' = p_hist p ++ evs ->
  (evs = [] \/ exists ev, evs = [ev] /\
     run_step (started_in_run (p_hist p), run_data (p_hist p)) ev =
     (started_in_run (p_hist p), run_data (p_hist p))) ->
  (forall o ev, In o (p_out p') -> o_ev o = Some ev -> exists o', In o' (p_out p) /\
     o_id o' = o_id o /\ o_ev o' = Some ev) ->
  ev_last (p_s p') = ev_last (p_s p) ->
  X_ (p_s p') = X_ (p_s p) -> fX_ (p_s p') = fX_ (p_s p) ->
  FullInv p'.
Proof.
  intros p p' evs [R1 R2] Eh Ev Ho E1 E3 E4.
  assert (A1 : started_in_run (p_hist p') = started_in_run (p_hist p)).
  { rewrite Eh. destruct Ev as [->|[ev [-> Ev]]]; [rewrite app_nil_r; reflexivity|].
    rewrite started_snoc, Ev. reflexivity. }
  assert (A2 : run_data (p_hist p') = run_data (p_hist p)).
  { rewrite Eh. destruct Ev as [->|[ev [-> Ev]]]; [rewrite app_nil_r; reflexivity|].
    rewrite run_data_snoc, Ev. reflexivity. }
  split; rewrite ?A1, ?A2, ?E1, ?E3, ?E4; auto.
  intros o ev Hi He Hs. destruct (Ho o ev Hi He) as [o' [A [B C]]].
  apply (R1 o' ev); auto. rewrite B. assumption.
Qed.

Ltac full_same E :=
  eapply FullInv_same with (evs := E);
  [ eassumption | reflexivity
  | first [left; reflexivity | right; eexists; split; [reflexivity|reflexivity]]
  | simpl; eauto | simpl; try reflexivity | simpl; try reflexivity | simpl; try reflexivity ].

Lemma FullInv_micro : bump_when_idle ->
  forall p p', Inv c p -> RunInv p -> FullInv p -> micro c hk p p' -> FullInv p'.
Proof.
  intros BI p p' I R F M.
  assert (NX : forall evs (p' : proc), p_hist p' = p_hist p ++ evs -> True) by auto.
  destruct M.
  - full_same ([EvNone] : list (event P V)).
  - full_same ([EvTerminate] : list (event P V)).
  - full_same ([EvNone] : list (event P V)).
  - full_same ([] : list (event P V)).
  - full_same ([EvGenerate n (Some l)] : list (event P V)).
  - full_same ([EvGenerate n None] : list (event P V)).
  - split; simpl.
    + intros o ev Hi He Hs. rewrite started_snoc in Hs. simpl in Hs. contradiction.
    + rewrite run_data_snoc. reflexivity.
  - full_same ([EvPropose (p_next p) k x] : list (event P V)).
    intros o ev Hi He. apply in_app_or in Hi. destruct Hi as [Hi|[<-|[]]]; [eauto|discriminate].
  - destruct F as [F1 F2]. split; simpl; rewrite ?run_data_snoc; simpl; auto.
    intros o' ev Hi He Hs. rewrite started_snoc in Hs. simpl in Hs.
    apply in_set_ev in Hi. destruct Hi as [o1 [Hi [E1 [_ [_ [->|[E2 E3]]]]]]].
    + (* another record: it is running and not the accepted one, or it was the accepted one *)
      apply in_app_or in Hs. destruct Hs as [Hs|[Hs|[]]]; [eauto|].
      (* same id as o: unique, hence undecided, contradiction with He *)
      assert (o1 = o).
      { destruct (del_out_split _ _ (inv_nodup I) H) as [l1 [l2 [Eo _]]].
        pose proof (inv_nodup I) as N. rewrite Eo in Hi, N. rewrite map_app in N. simpl in N.
        apply NoDup_remove_2 in N. rewrite <- map_app in N.
        apply in_app_or in Hi. destruct Hi as [Hi|[Hi|Hi]]; auto; exfalso; apply N;
        rewrite Hs; apply in_map; apply in_or_app; auto. }
      subst o1. congruence.
    + rewrite E3 in He. injection He as <-. pose proof (ri_last R). lia.
  - full_same ([EvReject (o_id o) (o_kind o) (o_x o)] : list (event P V)).
    + intros o' ev Hi He. apply in_del_out in Hi. eauto.
    + destruct (o_kind o); [reflexivity|]. unfold on_adapt_reject. destruct (c_async c); reflexivity.
    + destruct (o_kind o); [reflexivity|]. unfold on_adapt_reject. destruct (c_async c); reflexivity.
    + destruct (o_kind o); [reflexivity|]. unfold on_adapt_reject. destruct (c_async c); reflexivity.
  - match goal with H : do_complete _ _ _ _ _ _ = Ok _ |- _ =>
      apply do_complete_ok in H; destruct H as [e' [l [nx [cv [-> Hk]]]]] end.
    destruct F as [F1 F2].
    destruct (base_completed_data (o_id o) (o_x o) v ev (p_s p)) as [G1 [G2 G3]].
    destruct (base_completed_fields c (o_id o) (o_x o) v ev (p_s p)) as [_ [Gp _]].
    assert (Hs : ev_last (p_s p) < ev -> In (o_id o) (started_in_run (p_hist p)))
      by (intros; eapply ri_fresh; eauto).
    assert (Hs' : In (o_id o) (started_in_run (p_hist p)) -> ev_last (p_s p) < ev)
      by (intros; eapply F1; eauto).
    pose proof (del_out_length _ _ (inv_nodup I) H) as Hl.
    assert (Hln : l = ev_last (p_s p) \/ del_out (o_id o) (p_out p) = []).
    { destruct (o_kind o).
      - destruct Hk as [_ [-> _]]. auto.
      - destruct Hk as [n [cv0 [E [_ [K0 K1]]]]]. destruct n as [|n].
        + left. apply K0; reflexivity.
        + right. pose proof (BI _ _ _ _ _ _ _ _ E ltac:(lia)) as E'. rewrite Gp, (inv_pend I) in E'.
          destruct (del_out (o_id o) (p_out p)); [reflexivity|simpl in Hl; lia]. }
    set (sb := base_completed c (o_id o) (o_x o) v ev (p_s p)) in *. clearbody sb.
    split; simpl; rewrite ?run_data_snoc; simpl.
    + intros o' ev' Hi He Hst. rewrite started_snoc in Hst. simpl in Hst.
      destruct Hln as [->|En]; [|rewrite En in Hi; contradiction].
      apply in_del_out in Hi.
      assert (Hst' : In (o_id o') (started_in_run (p_hist p))).
      { destruct (existsb _ _) in Hst; simpl in Hst; exact Hst. }
      eauto.
    + destruct G3 as [[Hlt [-> [-> _]]]|[Hge [-> [-> _]]]].
      * rewrite in_existsb by auto. simpl. rewrite combine_snoc by apply (ri_len R).
        rewrite F2. reflexivity.
      * destruct (existsb _ _) eqn:Ex; simpl; [|exact F2].
        apply existsb_exists in Ex. destruct Ex as [i [Hi Ei]]. apply Nat.eqb_eq in Ei. subst i.
        apply Hs' in Hi. lia.
  - full_same ([EvAbort (o_id o) (o_kind o) (o_x o)] : list (event P V)).
    + intros o' ev' Hi He. apply in_del_out in Hi. eauto.
    + destruct (o_kind o); reflexivity.
    + destruct (o_kind o); reflexivity.
    + destruct (o_kind o); reflexivity.
  - full_same ([EvStop] : list (event P V)).
  - full_same ([EvResume] : list (event P V)).
    + intros o' ev' [].
    + unfold resume; destruct (phase (p_s p) =? 1)%nat; reflexivity.
    + unfold resume; destruct (phase (p_s p) =? 1)%nat; reflexivity.
    + unfold resume; destruct (phase (p_s p) =? 1)%nat; reflexivity.
Qed.

(** ** Conservation of queued points *)

Definition noresume (h : list (event P V)) : Prop := count (@is_resume P V) h = 0%nat.

Lemma noresume_prefix : forall h1 h2, noresume (h1 ++ h2) -> noresume h1.
Proof. intros h1 h2 B. unfold noresume in *. rewrite count_app in B. lia. Qed.

Lemma given_up_app : forall a (h1 h2 : list (event P V)),
  given_up a (h1 ++ h2) = given_up a h1 ++ given_up a h2.
Proof. intros. unfold given_up. apply flat_map_app. Qed.

Definition Cons (q0 : list P) (p : proc) : Prop :=
  noresume (p_hist p) ->
  Permutation (q0 ++ queued_later (p_hist p))
    (batch_queue (p_s p) ++ map (@o_x P) (p_out p) ++ map fst (completed (p_hist p)) ++
     given_up (c_async c) (p_hist p)).

Lemma Cons_same : forall q0 (p p' : proc) evs, Cons q0 p ->
  p_hist p' = p_hist p ++ evs -> queued_later evs = [] -> completed evs = [] ->
  given_up (c_async c) evs = [] ->
  batch_queue (p_s p') = batch_queue (p_s p) ->
  map (@o_x P) (p_out p') = map (@o_x P) (p_out p) -> Cons q0 p'.
Proof.
  intros q0 p p' evs C E1 E2 E3 E6 E4 E5 L. rewrite E1 in *.
  rewrite queued_later_app, completed_app, given_up_app, E2, E3, E4, E5, E6, !app_nil_r.
  apply C. eapply noresume_prefix; eauto.
Qed.

Lemma perm_requeue : forall (q l1 l2 d : list P) x,
  Permutation (q ++ (l1 ++ x :: l2) ++ d) ((q ++ [x]) ++ (l1 ++ l2) ++ d).
Proof.
  intros. rewrite <- !app_assoc. simpl. apply Permutation_app_head.
  symmetry. apply Permutation_middle.
Qed.

Lemma perm_drop : forall (q l1 l2 d g : list P) x,
  Permutation (q ++ (l1 ++ x :: l2) ++ d ++ g) (q ++ (l1 ++ l2) ++ d ++ g ++ [x]).
Proof.
  intros. apply Permutation_app_head. rewrite <- !app_assoc. apply Permutation_app_head.
  simpl. rewrite !app_assoc. apply Permutation_cons_append.
Qed.

Ltac cons_intro C L :=
  intros L; simpl in L |- *;
  match type of C with Cons _ ?p =>
    let L' := fresh in
    assert (L' : noresume (p_hist p)) by (eapply noresume_prefix; exact L); specialize (C L') end;
  rewrite queued_later_app, completed_app, given_up_app, map_app; simpl; rewrite ?app_nil_r.

Lemma Cons_micro : forall q0 p p', Inv c p -> Cons q0 p -> micro c hk p p' -> Cons q0 p'.
Proof.
  intros q0 p p' I C M. destruct M.
  - eapply Cons_same; eauto; reflexivity.
  - eapply Cons_same; eauto; reflexivity.
  - eapply Cons_same; eauto; reflexivity.
  - eapply Cons_same; eauto; reflexivity.
  - (* generate *)
    cons_intro C L. rewrite H0 in C. simpl in C.
    rewrite app_assoc. rewrite C. apply Permutation_app_comm.
  - eapply Cons_same; eauto; reflexivity.
  - (* restart *)
    cons_intro C L.
    rewrite app_assoc. rewrite C. rewrite <- !app_assoc. apply Permutation_app_head.
    generalize (map (@o_x P) (p_out p)) (map fst (completed (p_hist p)))
      (given_up (c_async c) (p_hist p)) (unk c (p_s p)). intros a b g u.
    rewrite (app_assoc rows u). rewrite (app_assoc a), (app_assoc (a ++ b)).
    rewrite (Permutation_app_comm ((a ++ b) ++ g) (rows ++ u)), <- !app_assoc. reflexivity.
  - (* propose *)
    cons_intro C L.
    rewrite C, H0. rewrite ?map_app, <- !app_assoc. apply Permutation_app_head. simpl.
    rewrite <- ?app_assoc. apply Permutation_middle.
  - eapply Cons_same; eauto; simpl; try reflexivity. simpl. rewrite !map_xs, set_ev_map. reflexivity.
  - (* reject *)
    cons_intro C L. rewrite C.
    destruct (del_out_split _ _ (inv_nodup I) H) as [l1 [l2 [Eo Ed]]].
    rewrite Ed, Eo, !map_app. simpl.
    destruct (o_kind o) eqn:Ek; simpl; [rewrite ?app_nil_r; apply perm_requeue|].
    unfold on_adapt_reject.
    destruct (c_async c) eqn:Ea; simpl; rewrite ?app_nil_r; [apply perm_drop|apply perm_requeue].
  - (* complete *)
    complete_ok.
    destruct (base_completed_fields c (o_id o) (o_x o) v ev (p_s p))
      as [_ [_ [_ [_ [_ [Fq _]]]]]].
    set (sb := base_completed c (o_id o) (o_x o) v ev (p_s p)) in *. clearbody sb.
    cons_intro C L.
    rewrite C, Fq. apply Permutation_app_head.
    destruct (del_out_split _ _ (inv_nodup I) H) as [l1 [l2 [Eo Ed]]].
    rewrite Ed, Eo, !map_app. simpl. rewrite <- !app_assoc. simpl.
    apply Permutation_app_head. rewrite !app_assoc.
    apply Permutation_cons_app. reflexivity.
  - (* abort *)
    cons_intro C L. rewrite C.
    destruct (del_out_split _ _ (inv_nodup I) H) as [l1 [l2 [Eo Ed]]].
    rewrite Ed, Eo, !map_app. simpl.
    destruct (o_kind o) eqn:Ek; simpl; rewrite ?app_nil_r; [apply perm_requeue|apply perm_drop].
  - eapply Cons_same; eauto; reflexivity.
  - intros L. exfalso. unfold noresume in L. simpl in L. rewrite count_app in L.
    unfold count in L. simpl in L. lia.
Qed.

End Inv3.
