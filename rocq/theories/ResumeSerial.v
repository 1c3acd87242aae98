(** * Crashes under a serial controller, and what a crash can lose (C68, continued). *)
From Coq Require Import List Arith ZArith Lia Bool.
From Verif Require Import Base PyList Strategy StrategySpec StrategyProofs StrategyInv StrategyInv2
  StrategyInv3 StrategyInv4 StrategyOps PropStrategy ResumeKill.
Import ListNotations.
Local Open Scope Z_scope.

Set Implicit Arguments.

Section Serial.
Variables P V Ext Orc : Type.
Variable c : cfg P V.
Variable hk : hooks P V Ext Orc.
Notation base := (base P V).
Notation proc := (proc P V Ext).
Notation sys := (sys P V Ext).
Notation op := (op P V Orc).

(** ** Specification *)

(** A controller that asks for a proposal only when nothing is outstanding, as SerialController does. *)
Definition asks_when_idle (design : res (list P)) (e0 : Ext) (ops : list op) : Prop :=
  forall ops1 d o ops2 p, ops = ops1 ++ Propose d o :: ops2 -> y_proc (run c hk design e0 ops1) = Some p -> outstanding (p_hist p) = [].

(** ** A proposal and the phase *)
Lemma propose_kind : forall d o p out p', do_propose c hk d o p = Ok (out, p') ->
  match out with
  | OEval k x => p_out p' = p_out p ++ [mkOut (p_next p) k x None] /\ (k = KInit /\ phase (p_s p') = 1%nat \/ k = KAdapt /\ phase (p_s p') <> 1%nat)
  | _ => p_out p' = p_out p
  end.
Proof using.
  intros d o p out p' H. unfold do_propose in H. apply rbind_ok in H. destruct H as [[[out1 [s1 e1]] evs] [H H2]].
  assert (G : match out1 with OEval k x => k = KInit /\ phase s1 = 1%nat \/ k = KAdapt /\ phase s1 <> 1%nat | _ => True end).
  { clear H2. unfold propose_action in H. set (s := check_termination c (p_s p)) in *. clearbody s. cbv zeta in H.
    assert (RB : forall s0 e0' o2 s2 e2 ev2, restart_branch c hk d s0 e0' = Ok (o2, (s2, e2), ev2) ->
      match o2 with OEval k x => k = KInit /\ phase s2 = 1%nat \/ k = KAdapt /\ phase s2 <> 1%nat | _ => True end).
    { intros s0 e0' o2 s2 e2 ev2 R. apply restart_phase in R. destruct R as [[-> _]|[x [l [-> [_ K]]]]]; auto. }
    destruct (terminate s); [destruct (pending_evals s =? 0); injection H as <- _ _ _; exact I|].
    destruct (converged s); [destruct (c_restarts c); [exact (RB _ _ _ _ _ _ H)|injection H as <- _ _ _; exact I]|].
    assert (AD : forall s0 : base, phase s0 <> 1%nat -> match fst (adapt_proposal s0) with OEval k x => k = KInit /\ phase (snd (adapt_proposal s0)) = 1%nat \/ k = KAdapt /\ phase (snd (adapt_proposal s0)) <> 1%nat | _ => True end).
    { intros s0 N. unfold adapt_proposal. destruct (py_pop (batch_queue s0)) as [[x q]|]; cbn; auto. }
    destruct (nonempty (batch_queue s)).
    - destruct (Nat.eqb_spec (phase s) 1) as [E|E].
      + apply rbind_ok in H. destruct H as [[o2 s2] [H2 H3]]. cbn [fst snd] in H3. injection H3 as <- <- _ _.
        unfold init_proposal in H2. destruct (py_pop _) as [[x q]|]; [|discriminate]. injection H2 as <- <-. left. auto.
      + injection H as <- <- _ _. apply AD. exact E.
    - apply rbind_ok in H. destruct H as [[[s2 e2] ev0] [HG H]].
      assert (PH : phase s2 = 2%nat).
      { assert (DG : forall n t s' e' evs, do_generate hk n o t (p_e p) = Ok (s', e', evs) -> phase s' = phase t).
        { intros n t s' e' evs0. unfold do_generate. destruct (hk_generate hk (p_e p) t n o) as [[e3 [pts|]]|]; [| |discriminate]; cbn; intros [= <- _ _]; reflexivity. }
        destruct (c_async c); [rewrite (DG _ _ _ _ _ HG); reflexivity|]. destruct (pending_evals _ =? 0); [rewrite (DG _ _ _ _ _ HG); reflexivity|]. injection HG as <- _ _. reflexivity. }
      destruct (converged s2 && c_restarts c).
      + apply rbind_ok in H. destruct H as [[[o3 [s3 e3]] ev3] [R H]]. injection H as <- <- _ _. exact (RB _ _ _ _ _ _ R).
      + injection H as <- <- _ _. apply AD. rewrite PH. discriminate. }
  injection H2 as <- <-. destruct out1; cbn; auto.
Qed.

(** ** The state of a serial run *)
Definition single (p : proc) : Prop :=
  no_duplicates (p_hist p) /\
  (p_out p = [] \/ exists o, p_out p = [o] /\ (o_kind o = KInit /\ phase (p_s p) = 1%nat \/ o_kind o = KAdapt /\ phase (p_s p) <> 1%nat)).

Lemma single_clean : forall p, single p -> (forall o, In o (p_out p) -> o_ev o <> None) -> clean p.
Proof using.
  intros p [ND S] A. split; [exact A|]. destruct S as [E|[o [E [[K PH]|[K PH]]]]]; [left; exact E|right; left|right; right].
  - split; [exact PH|]. split; [|exact ND]. rewrite E. intros o' [<-|[]]. exact K.
  - split; [exact PH|]. rewrite E. intros o' [<-|[]]. exact K.
Qed.

Definition no_propose (t : list (event P V)) : bool := forallb (fun ev => match ev with EvPropose _ _ _ => false | _ => true end) t.
Lemma nodup_app : forall t h, no_duplicates h -> no_propose t = true -> no_duplicates (h ++ t).
Proof using.
  intros t h N T h1 id k x h2 E. destruct (app_eq_app _ _ _ _ E) as [l [[E1 E2]|[E1 E2]]].
  - destruct l as [|b l]; [rewrite app_nil_r in E1; subst h1; cbn in E2; subst t; discriminate T|]. cbn in E2. injection E2 as <- _. apply (N h1 id k x l). exact E1.
  - subst t. unfold no_propose in T. rewrite forallb_app in T. cbn in T. rewrite andb_false_r in T. discriminate T.
Qed.

Lemma single_propose : forall d o p out p', single p -> outstanding (p_hist p) = [] -> p_out p = [] -> do_propose c hk d o p = Ok (out, p') -> single p'.
Proof using.
  intros d o p out p' [ND _] O0 P0 H. pose proof (propose_kind _ _ _ H) as PK. split.
  - unfold do_propose in H. apply rbind_ok in H. destruct H as [[[out1 [s1 e1]] evs] [PA H]]. injection H as <- <-.
    pose proof (@propose_events P V Ext Orc c hk _ _ _ _ _ _ _ PA) as IE.
    assert (NP : no_propose evs = true) by (clear -IE; induction evs as [|[] evs IH]; cbn in *; auto; discriminate).
    assert (OE : outstanding (p_hist p ++ evs) = []).
    { unfold outstanding in *. rewrite fold_left_app, O0. clear -IE. induction evs as [|[] evs IH]; cbn in *; auto; discriminate. }
    destruct out1; cbn [p_hist]; rewrite app_assoc.
    + apply nodup_app; [apply nodup_app; assumption|reflexivity].
    + apply nodup_app; [apply nodup_app; assumption|reflexivity].
    + intros h1 id k' x' h2 E. destruct (app_eq_app _ _ _ _ E) as [l [[E1 E2]|[E1 E2]]].
      * destruct l as [|b l]; [rewrite app_nil_r in E1; rewrite <- E1, OE; exact (fun F => F)|]. cbn in E2. injection E2 as <- _. exact (@nodup_app evs (p_hist p) ND NP h1 id k' x' l E1).
      * destruct l as [|b l]; [cbn in *; rewrite app_nil_r in E1; rewrite E1, OE; exact (fun F => F)|]. cbn in E2. injection E2 as _ E2. destruct l; discriminate E2.
  - rewrite P0 in PK. destruct out as [| |k x].
    + left. exact PK.
    + left. exact PK.
    + destruct PK as [-> PK]. right. eexists. split; [reflexivity|]. exact PK.
Qed.

Lemma phase_completed : forall id x v ev (s : base), phase (base_completed c id x v ev s) = phase s.
Proof using. intros. unfold base_completed. cbn. destruct (ev_last s <? ev); reflexivity. Qed.
Lemma single_del : forall o p p' ev, single p -> In o (p_out p) -> p_out p' = del_out (o_id o) (p_out p) -> p_hist p' = p_hist p ++ [ev] -> no_propose [ev] = true -> single p'.
Proof using.
  intros o p p' ev [ND S] Ho Eo Eh NP. split; [rewrite Eh; apply nodup_app; assumption|]. left. rewrite Eo. destruct S as [E|[o' [E _]]]; rewrite E in *; [contradiction|].
  destruct Ho as [->|[]]. unfold del_out. cbn. rewrite Nat.eqb_refl. reflexivity.
Qed.

Lemma serial_states : forall design e0 ops, asks_when_idle design e0 ops ->
  (forall p, y_proc (run c hk design e0 ops) = Some p -> single p) /\
  (forall p, y_disk (run c hk design e0 ops) = Some p -> single p /\ forall o, In o (p_out p) -> o_ev o <> None).
Proof using.
  intros design e0 ops AI. induction ops as [|a ops IH] using rev_ind.
  - unfold run, run_from. cbn. unfold start. destruct (construct c hk design e0) as [[s e]|]; split; intros p H; try discriminate. injection H as <-.
    split; [intros h1 id k x h2 E; destruct h1; discriminate E|left; reflexivity].
  - specialize (IH ltac:(intros o1 d o o2 p E; apply (AI o1 d o (o2 ++ [a]) p); rewrite E, <- app_assoc; reflexivity)). destruct IH as [IP ID].
    assert (RP : forall p, y_proc (run c hk design e0 ops) = Some p -> Inv c p) by (intros p E; apply (@Inv_reached _ _ _ _ c hk design e0); exists ops; left; exact E).
    assert (AP : forall d o p, a = Propose d o -> y_proc (run c hk design e0 ops) = Some p -> outstanding (p_hist p) = []) by (intros d o p -> E; exact (AI ops d o [] p eq_refl E)).
    rewrite run_snoc. set (y := run c hk design e0 ops) in *. clearbody y. clear AI. unfold step.
    destruct (y_proc y) as [p0|] eqn:EY.
    2:{ assert (SAME : (forall p, y_proc y = Some p -> single p) /\ (forall p, y_disk y = Some p -> single p /\ forall o, In o (p_out p) -> o_ev o <> None)) by (rewrite EY; split; [exact IP|exact ID]).
        destruct a; try exact SAME. destruct (y_disk y) as [d|] eqn:ED; [|rewrite EY; split; [exact IP|rewrite ED; exact ID]].
        cbn. split; [|exact ID]. intros p [= <-]. destruct (ID d eq_refl) as [[ND _] _]. split; [cbn; apply nodup_app; [exact ND|reflexivity]|left; reflexivity]. }
    pose proof (IP p0 eq_refl) as S0. pose proof (RP p0 eq_refl) as I0.
    assert (SAME : (forall p, y_proc y = Some p -> single p) /\ (forall p, y_disk y = Some p -> single p /\ forall o, In o (p_out p) -> o_ev o <> None)) by (rewrite EY; split; [exact IP|exact ID]).
    destruct a as [d o|id|id|id st| | |]; try exact SAME.
    + pose proof (AP d o p0 eq_refl eq_refl) as O0. assert (P0 : p_out p0 = []) by (rewrite (inv_out I0) in O0; destruct (p_out p0); [reflexivity|discriminate O0]).
      destruct (do_propose c hk d o p0) as [[out p']|] eqn:DP; [|split; [intros p E; discriminate E|exact ID]].
      pose proof (single_propose _ _ S0 O0 P0 DP) as S1. pose proof (propose_kind _ _ _ DP) as PK. destruct out; (split; [intros p [= <-]; exact S1|]); try exact ID.
      cbn. intros p [= <-]. split; [exact S1|]. rewrite PK, P0. intros o' [].
    + destruct (get_out id (p_out p0)) as [o|] eqn:G; [|exact SAME]. destruct (o_ev o) eqn:EO; [exact SAME|]. split; [|exact ID]. cbn. intros p [= <-].
      destruct S0 as [ND S0]. split; [cbn; apply nodup_app; [exact ND|reflexivity]|]. destruct S0 as [E|[o' [E K]]]; [left; cbn; rewrite E; reflexivity|].
      right. cbn [p_out]. unfold do_accept. cbn. rewrite E. cbn. eexists. split; [reflexivity|]. destruct (o_id o' =? o_id o)%nat; exact K.
    + destruct (get_out id (p_out p0)) as [o|] eqn:G; [|exact SAME]. destruct (o_ev o) eqn:EO; [exact SAME|]. split; [|exact ID]. cbn. intros p [= <-].
      apply get_out_some in G. eapply single_del; [exact S0|exact (proj1 G)|reflexivity|reflexivity|reflexivity].
    + destruct (get_out id (p_out p0)) as [o|] eqn:G; [|exact SAME]. apply get_out_some in G. destruct G as [G _]. destruct (o_ev o) as [ev|] eqn:EO; [|exact SAME].
      assert (A0 : forall o', In o' (p_out p0) -> o_ev o' <> None).
      { destruct S0 as [_ [E|[o1 [E _]]]]; rewrite E in *; [contradiction|]. destruct G as [->|[]]. intros o' [<-|[]]. congruence. }
      assert (FI : forall r, (forall p', r = Ok p' -> single p' /\ p_out p' = []) ->
        (forall p, y_proc (finish c p0 r (y_disk y)) = Some p -> single p) /\ (forall p, y_disk (finish c p0 r (y_disk y)) = Some p -> single p /\ forall o, In o (p_out p) -> o_ev o <> None)).
      { intros [p'|x] HR; cbn.
        - destruct (HR p' eq_refl) as [S1 P1]. split; [intros p [= <-]; exact S1|]. destruct (c_save_first c); intros p [= <-]; [split; assumption|]. split; [exact S1|]. rewrite P1. intros o' [].
        - split; [discriminate|]. destruct (c_save_first c); [intros p [= <-]; split; assumption|exact ID]. }
      assert (DN : del_out (o_id o) (p_out p0) = []).
      { destruct S0 as [_ [E|[o1 [E _]]]]; rewrite E in *; [contradiction|]. destruct G as [->|[]]. unfold del_out. cbn. rewrite Nat.eqb_refl. reflexivity. }
      destruct st as [|v| |]; [exact SAME| | |]; apply FI.
      * intros p' DC. unfold do_complete in DC. apply rbind_ok in DC. destruct DC as [[s1 e1] [_ DC]]. injection DC as <-. cbn [p_out]. split; [|exact DN].
        eapply single_del; [exact S0|exact G|reflexivity|reflexivity|reflexivity].
      * intros p' [= <-]. split; [|exact DN]. eapply single_del; [exact S0|exact G|reflexivity|reflexivity|reflexivity].
      * intros p' [= <-]. split; [|exact DN]. eapply single_del; [exact S0|exact G|reflexivity|reflexivity|reflexivity].
    + split; [|exact ID]. cbn. intros p [= <-]. destruct S0 as [ND S0]. split; [cbn; apply nodup_app; [exact ND|reflexivity]|exact S0].
    + split; [discriminate|exact ID].
Qed.

(** C68: with a serial controller every run with crashes is a run without crashes in which some
    evaluations were killed. *)
Theorem C68_serial : blind hk -> (forall x y, c_peqb c x y = true <-> x = y) -> forall design e0 ops p, asks_when_idle design e0 ops ->
  y_proc (run c hk design e0 ops) = Some p ->
  exists ops' q, Forall ordinary ops' /\ y_proc (run c hk design e0 ops') = Some q /\ same_object p q /\ explains (p_hist p) (p_hist q).
Proof using.
  intros BL HP design e0 ops p AI E. apply (@C68_crash_free P V Ext Orc c hk BL HP design e0 ops p); [|exact E]. intros o1 o2 d -> EP ED.
  assert (AI' : asks_when_idle design e0 o1) by (intros a1 x o a2 q E1 E2; apply (AI a1 x o (a2 ++ Resume :: o2) q); [rewrite E1, <- app_assoc; reflexivity|exact E2]).
  destruct (proj2 (serial_states AI') d ED) as [S A]. apply single_clean; assumption.
Qed.

(** ** What a crash can lose *)

(** C68: if the snapshot is written after the callback of the strategy, every finished evaluation is in
    the snapshot, for every controller: a crash loses running evaluations only. *)
Theorem C68_nothing_finished_lost : c_save_first c = false -> forall design e0 ops p, y_proc (run c hk design e0 ops) = Some p ->
  finished (p_hist p) = [] \/ exists d, y_disk (run c hk design e0 ops) = Some d /\ finished (p_hist d) = finished (p_hist p).
Proof using.
  intros SF design e0 ops. induction ops as [|a ops IH] using rev_ind; intros p HP.
  - left. unfold run, run_from in HP. cbn in HP. unfold start in HP. destruct (construct c hk design e0) as [[s e]|]; [|discriminate HP]. injection HP as <-. reflexivity.
  - rewrite run_snoc in *. set (y := run c hk design e0 ops) in *. clearbody y. revert HP. unfold step.
    assert (FA : forall (h t : list (event P V)), finished (h ++ t) = finished h ++ finished t) by (intros; unfold finished; apply flat_map_app).
    assert (F1 : forall (h : list (event P V)) ev, match ev with EvComplete _ _ _ _ | EvAbort _ _ _ => False | _ => True end -> finished (h ++ [ev]) = finished h) by (intros h [] H; rewrite FA; try contradiction; apply app_nil_r).
    destruct (y_proc y) as [p0|] eqn:EY.
    2:{ destruct a; try (rewrite EY; discriminate). destruct (y_disk y) as [d|] eqn:ED; [|rewrite EY; discriminate]. cbn. intros [= <-]. right. exists d. split; [reflexivity|].
        symmetry. exact (F1 (p_hist d) EvResume I). }
    specialize (IH p0 eq_refl).
    assert (KEEP : forall h, finished h = finished (p_hist p0) -> finished h = [] \/ exists d, y_disk y = Some d /\ finished (p_hist d) = finished h).
    { intros h E. rewrite E. exact IH. }
    destruct a as [d o|id|id|id st| | |].
    + destruct (do_propose c hk d o p0) as [[out p']|] eqn:DP; [|discriminate].
      assert (E : finished (p_hist p') = finished (p_hist p0)).
      { unfold do_propose in DP. apply rbind_ok in DP. destruct DP as [[[out1 [s1 e1]] evs] [PA DP]]. injection DP as <- <-. pose proof (@propose_events P V Ext Orc c hk _ _ _ _ _ _ _ PA) as IE.
        assert (NE : finished evs = []) by (clear -IE; induction evs as [|[] evs IH]; cbn in *; auto; discriminate).
        destruct out1; cbn [p_hist]; rewrite !FA, NE; cbn; rewrite app_nil_r; reflexivity. }
      destruct out; cbn; intros [= <-]; try (apply KEEP, E). right. exists p'. auto.
    + destruct (get_out id (p_out p0)) as [o|]; [|rewrite EY; intros [= <-]; exact IH]. destruct (o_ev o); [rewrite EY; intros [= <-]; exact IH|]. cbn. intros [= <-]. apply KEEP. exact (F1 (p_hist p0) (EvAccept (o_id o)) I).
    + destruct (get_out id (p_out p0)) as [o|]; [|rewrite EY; intros [= <-]; exact IH]. destruct (o_ev o); [rewrite EY; intros [= <-]; exact IH|]. cbn. intros [= <-]. apply KEEP. exact (F1 (p_hist p0) (EvReject (o_id o) (o_kind o) (o_x o)) I).
    + destruct (get_out id (p_out p0)) as [o|]; [|rewrite EY; intros [= <-]; exact IH]. destruct (o_ev o) as [ev|]; [|rewrite EY; intros [= <-]; exact IH].
      unfold finish. rewrite SF. destruct st as [|v| |].
      * rewrite EY. intros [= <-]. exact IH.
      * destruct (do_complete c hk o ev v p0); [|discriminate]. cbn. intros [= <-]. right. eauto.
      * cbn. intros [= <-]. right. eauto.
      * cbn. intros [= <-]. right. eauto.
    + cbn. intros [= <-]. apply KEEP. exact (F1 (p_hist p0) EvStop I).
    + discriminate.
    + rewrite EY. intros [= <-]. exact IH.
Qed.
End Serial.
