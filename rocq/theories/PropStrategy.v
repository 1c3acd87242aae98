(** * Properties of every surrogate optimization strategy (C01-C13, C15-C17, C56).

    Each theorem ranges over all configurations [c], all subclasses (hooks [hk]), all designs,
    candidate searches, controller schedules, objective values, crashes and resumes: [reached]
    is "this process state (live or stored in the checkpoint) occurs in some run".  The
    statements use the attributes of the strategy object and the vocabulary of StrategySpec.v,
    which is defined on the observable history alone. *)
From Coq Require Import List Arith ZArith Lia Bool Permutation.
From Verif Require Import Base Strategy StrategySpec StrategyProofs StrategyInv StrategyInv2
  StrategyInv3 StrategyInv4 StrategyOps StrategySerial.
Import ListNotations.
Local Open Scope Z_scope.

Set Implicit Arguments.

Section Props.
Variables P V Ext Orc : Type.
Variable c : cfg P V.
Variable hk : hooks P V Ext Orc.
Variable design : res (list P).
Variable e0 : Ext.
Notation Reached := (reached c hk design e0).
Notation maxe := (Z.max (c_max_evals c) 0).

(** Induction over the atomic steps of a run. *)
Lemma micros_from : forall (Q : proc P V Ext -> Prop) p0, Inv c p0 -> Q p0 ->
  (forall q r, Inv c q -> Q q -> micro c hk q r -> Q r) -> forall p, micros c hk p0 p -> Q p.
Proof.
  intros Q p0 I0 Q0 St p M. induction M as [p0|p0 q r M IH N]; [assumption|].
  eapply St; [eapply Inv_micros; eassumption|apply IH; auto|exact N].
Qed.

Lemma construct_form : forall s e, construct c hk design e0 = Ok (s, e) ->
  exists d, design = Ok d /\ exists rows, rows = firstn (c_num_pts c) d /\
    length rows = c_num_pts c /\ sample_initial c design (base0 P V) = Ok s.
Proof.
  intros s e H. unfold construct in H. apply rbind_ok in H. destruct H as [s1 [H1 H3]].
  injection H3 as -> _. pose proof H1 as H2. apply sample_initial_ok in H1.
  destruct H1 as [d [rows [-> [-> [Hl _]]]]]. eauto 8.
Qed.

(** ** C01 *)
Theorem C01_budget : forall p, Reached p ->
  num_evals (p_s p) + pending_evals (p_s p) <= maxe /\ used (p_hist p) <= maxe.
Proof.
  intros p H. pose proof (Inv_reached H) as I. pose proof (inv_bud I). rewrite (used_inv I). auto.
Qed.

(** ** C02 *)
Lemma reached_init : forall p, Reached p -> exists p0, micros c hk p0 p /\ Inv c p0 /\
  p_hist p0 = [] /\ terminate (p_s p0) = false.
Proof.
  intros p H. apply reached_micros in H. destruct H as [[s e] [H1 H2]].
  exists (init_proc (s, e)). split; [assumption|]. split; [eapply Inv_init; eassumption|].
  split; [reflexivity|]. unfold construct in H1. apply rbind_ok in H1.
  destruct H1 as [s1 [H1 H3]]. injection H3 as <- _. apply sample_initial_ok in H1.
  destruct H1 as [d [rows [_ [_ [_ ->]]]]]. reflexivity.
Qed.

Theorem C02_terminate_only_when_idle : forall p h1 h2, Reached p ->
  p_hist p = h1 ++ EvTerminate :: h2 -> outstanding h1 = [].
Proof.
  intros p h1 h2 H E. destruct (reached_init H) as [p0 [M [I0 [H0 T0]]]].
  destruct (event_step M H0 _ _ _ E) as [q [r [M1 [M2 [_ [Eq Er]]]]]].
  rewrite <- Eq in Er. pose proof (micro_event _ M2 Er) as [_ Hp].
  pose proof (Inv_micros I0 M1) as I. rewrite (inv_pend I) in Hp. rewrite <- Eq, (inv_out I).
  destruct (p_out q); [reflexivity|simpl in Hp; lia].
Qed.

Theorem C02_stop_is_final : forall p h1 h2 id k x, Reached p ->
  p_hist p = h1 ++ EvPropose id k x :: h2 -> ~ stop_seen (c_max_evals c) h1.
Proof.
  intros p h1 h2 id k x H E S. destruct (reached_init H) as [p0 [M [I0 [H0 T0]]]].
  destruct (event_step M H0 _ _ _ E) as [q [r [M1 [M2 [_ [Eq Er]]]]]].
  rewrite <- Eq in Er. pose proof (micro_event _ M2 Er) as [[Ht _] _].
  pose proof (terminate_iff M1 I0 H0 T0) as [_ T]. rewrite Eq in T. rewrite (T S) in Ht. discriminate.
Qed.

Corollary C02_nothing_after_terminate : forall p h1 h2 h3 id k x, Reached p ->
  p_hist p <> h1 ++ EvTerminate :: h2 ++ EvPropose id k x :: h3.
Proof.
  intros p h1 h2 h3 id k x H E.
  destruct (reached_init H) as [p0 [M [I0 [H0 T0]]]].
  destruct (event_step M H0 _ _ _ E) as [q [r [M1 [M2 [M3 [Eq Er]]]]]].
  rewrite <- Eq in Er. pose proof (micro_event _ M2 Er) as [Ha Hp].
  assert (E2 : p_hist p = (h1 ++ EvTerminate :: h2) ++ EvPropose id k x :: h3)
    by (rewrite E, <- app_assoc; reflexivity).
  apply (@C02_stop_is_final p (h1 ++ EvTerminate :: h2) h3 id k x H E2).
  destruct Ha as [Ha|Ha].
  - pose proof (terminate_iff M1 I0 H0 T0) as [T _]. specialize (T Ha). rewrite Eq in T.
    destruct T as [a [ev [b [-> S]]]]. exists a, ev, (b ++ EvTerminate :: h2).
    rewrite <- app_assoc. auto.
  - exists h1, EvTerminate, h2. split; [reflexivity|]. right. split; [reflexivity|].
    rewrite <- Eq, (used_inv (Inv_micros I0 M1)). assumption.
Qed.

(** ** C03, C17 *)

(** The stopping criterion is reached with the whole budget used; after that, each killed or
    cancelled evaluation reduces the final number of completed evaluations by one. *)
Theorem C03_completed_at_terminate : forall p h, Reached p ->
  p_hist p = h ++ [EvTerminate] -> protocol (p_hist p) ->
  count (@is_stop P V) h = 0%nat ->
  exists ha ev hb, p_hist p = ha ++ ev :: hb /\ is_call ev = true /\ used ha = maxe /\
    (count (@is_resume P V) hb = 0%nat ->
     Z.of_nat (length (completed h)) = maxe - Z.of_nat (count (@is_abort P V) hb)).
Proof.
  intros p h H E Pr Hs. destruct (reached_init H) as [p0 [M [I0 [H0 T0]]]].
  pose proof (Inv_reached H) as I.
  destruct (event_step M H0 _ _ _ E) as [q [r [M1 [M2 [M3 [Eq Er]]]]]].
  assert (T : terminate (p_s p) = true).
  { apply (terminate_iff M I0 H0 T0). rewrite E.
    rewrite <- Eq in Er. pose proof (micro_event _ M2 Er) as [Ha _].
    destruct Ha as [Ha|Ha].
    - pose proof (terminate_iff M1 I0 H0 T0) as [T _]. specialize (T Ha). rewrite Eq in T.
      destruct T as [a [ev [b [-> S]]]]. exists a, ev, (b ++ [EvTerminate]).
      rewrite <- app_assoc. auto.
    - exists h, EvTerminate, []. split; [reflexivity|]. right. split; [reflexivity|].
      rewrite <- Eq, (used_inv (Inv_micros I0 M1)). assumption. }
  destruct (stop_budget M I0 H0 T0 T) as [ha [ev [hb [Eh [Hc [_ [Hu [_ [Hcount Hpr]]]]]]]]].
  { rewrite E. rewrite count_app. unfold count at 2. simpl. lia. }
  exists ha, ev, hb. split; [assumption|]. split; [assumption|]. split; [exact Hu|].
  intros Hr. specialize (Hcount Hr). destruct (Hpr Pr) as [_ Hrej].
  assert (O : outstanding h = []).
  { eapply C02_terminate_only_when_idle; [exact H|]. exact E. }
  assert (U : used (p_hist p) = Z.of_nat (length (completed h))).
  { unfold used. rewrite E. rewrite completed_app, app_length. simpl.
    unfold outstanding in *. rewrite fold_left_app, O. simpl. lia. }
  rewrite U in Hcount. unfold max0 in Hcount. lia.
Qed.

(** Aborted evaluations and resumes that happen before the stopping criterion is observed do
    not cost budget: the run ends with max_evals completed evaluations. *)
Theorem C03_C17_full_budget_partial : forall p h, Reached p ->
  p_hist p = h ++ [EvTerminate] -> protocol (p_hist p) ->
  (forall h1 ev h2, h = h1 ++ ev :: h2 ->
     is_abort ev = true \/ is_resume ev = true \/ is_stop ev = true ->
     ~ stop_seen (c_max_evals c) (h1 ++ [ev])) ->
  Z.of_nat (length (completed h)) = maxe.
Proof.
  intros p h H E Pr Hq.
  assert (Hs : count (@is_stop P V) h = 0%nat).
  { unfold count. destruct (filter (@is_stop P V) h) as [|ev l] eqn:Ef; [reflexivity|exfalso].
    assert (In ev (filter (@is_stop P V) h)) by (rewrite Ef; left; reflexivity).
    apply filter_In in H0. destruct H0 as [Hi Hb]. apply in_split in Hi.
    destruct Hi as [h1 [h2 ->]]. apply (Hq h1 ev h2); auto.
    exists h1, ev, []. auto. }
  destruct (@C03_completed_at_terminate p h H E Pr Hs) as [ha [ev [hb [Eh [Hc [Hu Hn]]]]]].
  assert (S0 : forall l, stop_seen (c_max_evals c) (ha ++ ev :: l)).
  { intros l. exists ha, ev, l. split; [reflexivity|]. right. split; [assumption|]. rewrite Hu. lia. }
  assert (Z0 : forall f : event P V -> bool,
     (forall x, f x = true -> is_abort x = true \/ is_resume x = true \/ is_stop x = true) ->
     f EvTerminate = false -> count f hb = 0%nat).
  { intros f Hf Hft. unfold count. destruct (filter f hb) as [|x l] eqn:Ef; [reflexivity|exfalso].
    assert (Hx : In x (filter f hb)) by (rewrite Ef; left; reflexivity).
    apply filter_In in Hx. destruct Hx as [Hi Hb]. apply in_split in Hi.
    destruct Hi as [b1 [b2 ->]]. rewrite E in Eh.
    destruct (exists_last (l := x :: b2)) as [b3 [z Ez]]; [discriminate|].
    replace (ha ++ ev :: b1 ++ x :: b2) with ((ha ++ ev :: b1 ++ b3) ++ [z]) in Eh.
    2:{ rewrite Ez, <- !app_assoc. simpl. rewrite <- app_assoc. reflexivity. }
    apply app_inj_tail in Eh. destruct Eh as [Eh Ezz]. subst z.
    destruct b3 as [|y b3].
    - injection Ez as Ex _. subst x. rewrite Hft in Hb. discriminate.
    - injection Ez as <- _.
      apply (Hq (ha ++ ev :: b1) x b3); auto.
      + rewrite Eh, <- app_assoc. reflexivity.
      + rewrite <- app_assoc. simpl. apply S0. }
  rewrite Hn, (Z0 (@is_abort P V)); [lia|auto|reflexivity|].
  apply Z0; auto.
Qed.

(** No killed or cancelled evaluation, no crash: exactly max_evals evaluations. *)
Corollary C03_no_abort : forall p h, Reached p ->
  p_hist p = h ++ [EvTerminate] -> protocol (p_hist p) ->
  count (@is_stop P V) h = 0%nat -> count (@is_abort P V) h = 0%nat ->
  count (@is_resume P V) h = 0%nat -> Z.of_nat (length (completed h)) = maxe.
Proof.
  intros p h H E Pr A B C. eapply C03_C17_full_budget_partial; eauto.
  intros h1 ev h2 -> [D|[D|D]] _; rewrite count_app in A, B, C; unfold count in A, B, C;
    simpl in A, B, C; rewrite D in *; simpl in *; lia.
Qed.

(** ** C04 *)
Theorem C04_history : forall p, Reached p ->
  X (p_s p) = map fst (known c) ++ map fst (completed (p_hist p)) /\
  fX (p_s p) = map snd (known c) ++ map snd (completed (p_hist p)) /\
  map (fun f => (f_id f, f_x f, f_val f)) (fevals (p_s p)) = finished (p_hist p) /\
  num_evals (p_s p) = Z.of_nat (length (completed (p_hist p))).
Proof.
  intros p H. pose proof (Inv_reached H) as I. rewrite <- !map_app.
  split; [exact (inv_X I)|]. split; [exact (inv_fX I)|]. split; [exact (inv_fev I)|].
  exact (inv_num I).
Qed.

(** Each evaluation finishes at most once, and only after it was proposed with this point. *)
Theorem C04_each_once : forall p id x v h1 h2 k, Reached p ->
  p_hist p = h1 ++ EvComplete id k x v :: h2 -> In (id, x) (outstanding h1).
Proof.
  intros p id x v h1 h2 k H E. destruct (reached_init H) as [p0 [M [I0 [H0 T0]]]].
  destruct (event_step M H0 _ _ _ E) as [q [r [M1 [M2 [_ [Eq Er]]]]]].
  rewrite <- Eq in Er. pose proof (micro_event _ M2 Er) as [o [ev [Hi [<- [_ [<- _]]]]]].
  rewrite <- Eq, (inv_out (Inv_micros I0 M1)).
  apply in_map_iff. exists o. auto.
Qed.

(** ** C05 *)
Theorem C05_pending_count : forall p, Reached p ->
  pending_evals (p_s p) = Z.of_nat (length (outstanding (p_hist p))).
Proof.
  intros p H. pose proof (Inv_reached H) as I. rewrite (inv_pend I), (inv_out I), map_length.
  reflexivity.
Qed.

(** Missing: with two equal outstanding points, finishing one of them also removes the other
    from Xpend (see C05_xpend_refuted). *)
Theorem C05_xpend_partial : (forall x y, c_peqb c x y = true <-> x = y) ->
  forall p, Reached p ->
  incl (Xpend (p_s p)) (map snd (outstanding (p_hist p))) /\
  (no_duplicates (p_hist p) -> Xpend (p_s p) = map snd (outstanding (p_hist p))).
Proof.
  intros Hp p H. pose proof (Inv_reached H) as I. rewrite (inv_out I), map_map. simpl.
  apply reached_micros in H. destruct H as [[s e] [H1 M]].
  assert (I0 : Inv c (init_proc (s, e))) by (eapply Inv_init; eassumption).
  assert (XI : XpendInv p).
  { apply (@micros_from (@XpendInv P V Ext) _ I0); [| |exact M].
    - destruct (construct_form H1) as [d [_ [rows [_ [_ HS]]]]].
      apply sample_initial_ok in HS. destruct HS as [d1 [rows1 [_ [_ [_ ->]]]]].
      split; simpl; [intros x []|]. intros _. split; [constructor|reflexivity].
    - intros q r Iq Xq N. eapply XpendInv_micro; eassumption. }
  destruct XI as [X1 X2]. split; [exact X1|]. intros ND. apply X2 in ND. tauto.
Qed.

(** ** C06 *)
Lemma RunInv_reached : forall p, Reached p -> RunInv c p.
Proof.
  intros p H. apply reached_micros in H. destruct H as [[s e] [H1 M]].
  assert (I0 : Inv c (init_proc (s, e))) by (eapply Inv_init; eassumption).
  apply (@micros_from (RunInv c) _ I0); [| |exact M].
  - destruct (construct_form H1) as [d [_ [rows [_ [_ HS]]]]].
    apply sample_initial_ok in HS. destruct HS as [d1 [rows1 [_ [_ [_ ->]]]]].
    constructor; simpl; try (intros; contradiction); try reflexivity; try constructor.
    unfold kn, extras_now. simpl. destruct (known c); rewrite app_nil_r; reflexivity.
  - intros q r Iq Rq N. eapply RunInv_micro; eassumption.
Qed.

(** The surrogate holds the current-run data and nothing else (before the first restart also
    the extra points with known value); the current-run data are, in completion order, among
    the evaluations that were started after the last restart. *)
Theorem C06_restart_isolation : forall p, Reached p ->
  let cur := combine (X_ (p_s p)) (fX_ (p_s p)) in
  length (X_ (p_s p)) = length (fX_ (p_s p)) /\
  subseq cur (run_data (p_hist p)) /\
  sur (p_s p) = (if (restarts (p_hist p) =? 0)%nat then known c else []) ++ cur.
Proof.
  intros p H. pose proof (RunInv_reached H) as R. destruct R. auto.
Qed.

(** Right after the restart everything is reset, while X/fX keep the old data. *)
Theorem C06_restart_resets : forall d o p p' l, Reached p ->
  do_propose c hk d o p = Ok p' -> In (EvRestart l) (p_hist (snd p')) ->
  ~ In (EvRestart l) (p_hist p) ->
  X_ (p_s (snd p')) = [] /\ fX_ (p_s (snd p')) = [] /\ sur (p_s (snd p')) = [] /\
  converged (p_s (snd p')) = false /\
  X (p_s (snd p')) = X (p_s p) /\ fX (p_s (snd p')) = fX (p_s p).
Proof.
  intros d o p [out p'] l H E Hi Hn. simpl in Hi |- *.
  assert (R' : micros c hk p p') by (eapply propose_micros; exact E).
  pose proof (Inv_reached H) as I. pose proof (Inv_micros I R') as I'.
  assert (Hr : RunInv c p').
  { apply (@micros_from (RunInv c) _ I); [exact (RunInv_reached H)| |exact R'].
    intros q r Iq Rq N. eapply RunInv_micro; eassumption. }
  unfold do_propose in E. apply rbind_ok in E.
  destruct E as [[[out1 [s1 e1]] evs] [H1 H2]]. injection H2 as <- Ep.
  assert (Hev : In (EvRestart l) evs).
  { destruct out1; subst p'; simpl in Hi; apply in_app_or in Hi; destruct Hi as [Hi|Hi];
      try contradiction; apply in_app_or in Hi; destruct Hi as [Hi|[Hi|[]]]; auto; discriminate. }
  assert (Es : p_s p' = s1) by (destruct out1; subst p'; reflexivity). rewrite Es.
  assert (RB : forall s e out s' e' evs, restart_branch c hk d s e = Ok (out, (s', e'), evs) ->
     In (EvRestart l) evs -> X_ s' = [] /\ fX_ s' = [] /\ converged s' = false /\
     X s' = X s ++ map fst (kn c s) /\ fX s' = fX s ++ map snd (kn c s) /\ sur s' = kn c s).
  { clear. intros s e out s' e' evs H Hl. unfold restart_branch in H.
    destruct (c_async c || (pending_evals s =? 0)).
    - apply rbind_ok in H. destruct H as [[s1 e1] [H1 H2]].
      apply rbind_ok in H2. destruct H2 as [[o2 s2] [H2 H3]]. injection H3 as <- <- <- <-.
      apply sample_restart_ok in H1. destruct H1 as [_ [d1 [rows [_ [_ [_ ->]]]]]].
      unfold init_proposal in H2.
      match type of H2 with context [py_pop ?q] => destruct (py_pop q) as [[y q2]|] end; [|discriminate].
      injection H2 as <- <-. simpl. repeat split; reflexivity.
    - injection H as <- <- <- <-. contradiction. }
  unfold propose_action in H1.
  assert (E0 : X (check_termination c (p_s p)) = X (p_s p) /\ fX (check_termination c (p_s p)) = fX (p_s p)).
  { unfold check_termination. destruct (c_max_evals c <=? _); auto. }
  assert (K0 : forall s, X s = X (p_s p) -> kn c s = []).
  { intros s E. pose proof (inv_kn I) as K. unfold kn, extras_now in *. rewrite E. exact K. }
  set (s0 := check_termination c (p_s p)) in *. clearbody s0. destruct E0 as [E0 E0'].
  assert (DONE : forall s e out e' evs, X s = X (p_s p) -> fX s = fX (p_s p) ->
     restart_branch c hk d s e = Ok (out, (s1, e'), evs) -> In (EvRestart l) evs ->
     X_ s1 = [] /\ fX_ s1 = [] /\ sur s1 = [] /\ converged s1 = false /\
     X s1 = X (p_s p) /\ fX s1 = fX (p_s p)).
  { intros s e out e' evs' A B RBs Hin. destruct (RB _ _ _ _ _ _ RBs Hin) as [F1 [F2 [F3 [F4 [F5 F6]]]]].
    rewrite (K0 s A) in *. simpl in *. rewrite app_nil_r in F4, F5. repeat split; congruence. }
  destruct (terminate s0).
  { destruct (pending_evals s0 =? 0); injection H1 as _ _ _ <-; contradiction. }
  destruct (converged s0).
  { destruct (c_restarts c); [eapply DONE; eauto|injection H1 as _ _ _ <-; contradiction]. }
  destruct (nonempty (batch_queue s0)).
  { destruct (phase s0 =? 1)%nat.
    - apply rbind_ok in H1. destruct H1 as [r [_ H1]]. injection H1 as _ _ _ <-. contradiction.
    - injection H1 as _ _ _ <-. contradiction. }
  apply rbind_ok in H1. destruct H1 as [[[s3 e3] evs3] [G H1]].
  assert (DG : forall n, do_generate hk n o (set_phase 2%nat s0) (p_e p) = Ok (s3, e3, evs3) ->
     X s3 = X (p_s p) /\ fX s3 = fX (p_s p) /\ ~ In (EvRestart l) evs3).
  { intros n HG. unfold do_generate in HG. apply rbind_ok in HG.
    destruct HG as [[e4 [m|]] [_ HG]]; simpl in HG; injection HG as <- <- <-; simpl;
      repeat split; auto; intros [C|[]]; discriminate. }
  assert (S3 : X s3 = X (p_s p) /\ fX s3 = fX (p_s p) /\ ~ In (EvRestart l) evs3).
  { destruct (c_async c); [eauto|]. destruct (pending_evals (set_phase 2 s0) =? 0); [eauto|].
    injection G as <- <- <-. simpl. auto. }
  destruct S3 as [A [B C]].
  destruct (converged s3 && c_restarts c).
  - apply rbind_ok in H1. destruct H1 as [[[o4 [s4 e4]] evs4] [H1 H3]].
    injection H3 as <- <- <- <-. apply in_app_or in Hev. destruct Hev as [Hev|Hev]; [contradiction|].
    eapply DONE; eauto.
  - injection H1 as _ _ _ <-. contradiction.
Qed.

(** ** C07.  Missing: strategies that open a new event epoch while evaluations are pending
    (asynchronous SRBF/DYCORS): there the surrogate gets a proper subsequence, see C06 and
    PropSRBF.C07_surrogate_complete_refuted. *)
Theorem C07_surrogate_complete_partial :
  (forall e s x v ev e' n cv, hk_adapt_completed hk e s x v ev = Ok (e', n, cv) ->
     (0 < n)%nat -> pending_evals s = 0) ->
  forall p, Reached p ->
  combine (X_ (p_s p)) (fX_ (p_s p)) = run_data (p_hist p) /\
  sur (p_s p) = (if (restarts (p_hist p) =? 0)%nat then known c else []) ++ run_data (p_hist p).
Proof.
  intros BI p H. pose proof (RunInv_reached H) as R.
  apply reached_micros in H. destruct H as [[s e] [H1 M]].
  assert (I0 : Inv c (init_proc (s, e))) by (eapply Inv_init; eassumption).
  assert (F : RunInv c p /\ FullInv p).
  { apply (@micros_from (fun q => RunInv c q /\ FullInv q) _ I0); [| |exact M].
    - split.
      + apply RunInv_reached. exists []. left. unfold run. simpl. unfold start. rewrite H1. reflexivity.
      + destruct (construct_form H1) as [d [_ [rows [_ [_ HS]]]]].
        apply sample_initial_ok in HS. destruct HS as [d1 [rows1 [_ [_ [_ ->]]]]].
        split; simpl; [intros; contradiction|reflexivity].
    - intros q r Iq [Rq Fq] N. split; [eapply RunInv_micro; eassumption|].
      eapply FullInv_micro; [exact BI|exact Iq|exact Rq|exact Fq|exact N]. }
  destruct F as [_ [_ F]].
  split; [exact F|]. rewrite <- F. exact (ri_sur R).
Qed.

(** ** C08.  Missing: a design point that is aborted once can later be aborted as an
    "adaptive" evaluation, and is then given up (C08_design_lost_refuted); resume is C16. *)
Theorem C08_queued_points_conserved_partial : forall p, Reached p ->
  count (@is_resume P V) (p_hist p) = 0%nat ->
  exists s e, construct c hk design e0 = Ok (s, e) /\
  Permutation (batch_queue s ++ queued_later (p_hist p))
    (batch_queue (p_s p) ++ map snd (outstanding (p_hist p)) ++
     map fst (completed (p_hist p)) ++ given_up (c_async c) (p_hist p)).
Proof.
  intros p H Hr. pose proof (Inv_reached H) as I. rewrite (inv_out I), map_map. simpl.
  apply reached_micros in H. destruct H as [[s e] [H1 M]]. exists s, e. split; [assumption|].
  assert (I0 : Inv c (init_proc (s, e))) by (eapply Inv_init; eassumption).
  assert (C : Cons c (batch_queue s) p).
  { apply (@micros_from (Cons c (batch_queue s)) _ I0); [| |exact M].
    - intros _. simpl. rewrite !app_nil_r. reflexivity.
    - intros q r Iq Cq N. eapply Cons_micro; eassumption. }
  exact (C Hr).
Qed.

(** The initial queue is the design plus the extra points without value. *)
Theorem C08_initial_queue : forall s e, construct c hk design e0 = Ok (s, e) ->
  exists d, design = Ok d /\ length (firstn (c_num_pts c) d) = c_num_pts c /\
  batch_queue s = firstn (c_num_pts c) d ++ unknown c.
Proof.
  intros s e H. unfold construct in H. apply rbind_ok in H. destruct H as [s1 [H1 H3]].
  injection H3 as <- _. apply sample_initial_ok in H1.
  destruct H1 as [d [rows [-> [-> [Hl ->]]]]]. exists d. repeat split; auto.
Qed.

(** Rejecting an initial proposal, aborting an initial evaluation, or rejecting a proposal of a
    synchronous batch puts the point back at the end of the queue. *)
Theorem C08_C09_requeue : forall (p : proc P V Ext) o, In o (p_out p) ->
  (o_kind o = KInit \/ c_async c = false ->
     batch_queue (p_s (do_reject c o p)) = batch_queue (p_s p) ++ [o_x o]) /\
  (o_kind o = KInit ->
     batch_queue (p_s (do_abort c o p)) = batch_queue (p_s p) ++ [o_x o]).
Proof.
  intros p o _. split.
  - intros [E|E]; unfold do_reject; [rewrite E; reflexivity|].
    destruct (o_kind o); [reflexivity|]. unfold on_adapt_reject. rewrite E. reflexivity.
  - intros E. unfold do_abort. rewrite E. reflexivity.
Qed.

(** ** C09 *)
Theorem C09_batch_barrier : c_async c = false -> forall p h1 n l h2, Reached p ->
  p_hist p = h1 ++ EvGenerate n l :: h2 -> n = c_batch c /\ outstanding h1 = [].
Proof.
  intros Ha p h1 n l h2 H E. destruct (reached_init H) as [p0 [M [I0 [H0 T0]]]].
  destruct (event_step M H0 _ _ _ E) as [q [r [M1 [M2 [_ [Eq Er]]]]]].
  rewrite <- Eq in Er. pose proof (micro_event _ M2 Er) as [_ [_ [Hm [_ [Hn _]]]]].
  rewrite Ha in Hn. split; [assumption|]. destruct Hm as [Hm|Hm]; [congruence|].
  pose proof (Inv_micros I0 M1) as I. rewrite (inv_pend I) in Hm. rewrite <- Eq, (inv_out I).
  destruct (p_out q); [reflexivity|simpl in Hm; lia].
Qed.

(** A new batch is asked for only when every point queued before was evaluated or given up
    (in synchronous mode only aborted adaptive evaluations are given up). *)
Theorem C09_batch_complete : c_async c = false -> forall p h1 n l h2, Reached p ->
  p_hist p = h1 ++ EvGenerate n l :: h2 -> count (@is_resume P V) h1 = 0%nat ->
  exists s e, construct c hk design e0 = Ok (s, e) /\
  Permutation (batch_queue s ++ queued_later h1) (map fst (completed h1) ++ given_up false h1).
Proof.
  intros Ha p h1 n l h2 H E Hr. pose proof H as H'.
  apply reached_micros in H'. destruct H' as [[s e] [Hc M]]. exists s, e. split; [assumption|].
  assert (I0 : Inv c (init_proc (s, e))) by (eapply Inv_init; eassumption).
  assert (H0 : p_hist (init_proc (V:=V) (s, e)) = []) by reflexivity.
  destruct (event_step M H0 _ _ _ E) as [q [r [M1 [M2 [_ [Eq Er]]]]]].
  rewrite <- Eq in Er. pose proof (micro_event _ M2 Er) as [_ [Hq [Hm _]]].
  destruct Hm as [Hm|Hm]; [congruence|].
  pose proof (Inv_micros I0 M1) as I. rewrite (inv_pend I) in Hm.
  assert (C : Cons c (batch_queue s) q).
  { apply (@micros_from (Cons c (batch_queue s)) _ I0); [| |exact M1].
    - intros _. simpl. rewrite !app_nil_r. reflexivity.
    - intros q1 r1 Iq Cq N. eapply Cons_micro; eassumption. }
  specialize (C ltac:(unfold noresume; rewrite Eq; assumption)).
  rewrite Hq, Eq, Ha in C. destruct (p_out q); [|simpl in Hm; lia]. exact C.
Qed.

(** ** C10, C11 *)

(** The candidate search returns points when asked for at least one (see PropCand). *)
Definition generates : Prop := forall e s n o e' l,
  (0 < n)%nat -> hk_generate hk e s n o = Ok (e', Some l) -> l <> [].

Theorem C10_async_always_proposes : c_async c = true -> c_restarts c = true -> generates ->
  forall d o p out p', Reached p ->
  ~ stop_seen (c_max_evals c) (p_hist p) -> used (p_hist p) < c_max_evals c ->
  do_propose c hk d o p = Ok (out, p') -> exists k x, out = OEval k x.
Proof.
  intros Ha Hr Hg d o p out p' H Hs Hu E. destruct (reached_init H) as [p0 [M [I0 [H0 T0]]]].
  eapply (@propose_progress _ _ _ _ c hk); eauto.
  - split.
    + destruct (terminate (p_s p)) eqn:Et; [|reflexivity]. exfalso. apply Hs.
      apply (terminate_iff M I0 H0 T0). assumption.
    + rewrite <- (used_inv (Inv_reached H)). assumption.
  - left. assumption.
Qed.

(** Missing: use_restarts=False (C11_no_stall_refuted). *)
Theorem C11_no_stall_partial : c_restarts c = true ->
  (c_async c = true \/ (0 < c_batch c)%nat) -> generates ->
  forall d o p out p', Reached p -> outstanding (p_hist p) = [] ->
  do_propose c hk d o p = Ok (out, p') -> out = OTerminate \/ exists k x, out = OEval k x.
Proof.
  intros Hr Hb Hg d o p out p' H Ho E. destruct (reached_init H) as [p0 [M [I0 [H0 T0]]]].
  pose proof (Inv_reached H) as I.
  assert (Hp : pending_evals (p_s p) = 0).
  { rewrite (C05_pending_count H), Ho. reflexivity. }
  destruct (Z_lt_le_dec (num_evals (p_s p) + pending_evals (p_s p)) (c_max_evals c)) as [L|L].
  - destruct (terminate (p_s p)) eqn:Et.
    + left. unfold do_propose, propose_action, check_termination in E.
      replace (c_max_evals c <=? num_evals (p_s p) + pending_evals (p_s p)) with false in E
        by (symmetry; apply Z.leb_gt; assumption).
      rewrite Et, Hp in E. simpl in E. injection E as <- _. reflexivity.
    + right. eapply (@propose_progress _ _ _ _ c hk); eauto; [split; assumption|right; assumption].
  - left. unfold do_propose, propose_action, check_termination in E.
    replace (c_max_evals c <=? num_evals (p_s p) + pending_evals (p_s p)) with true in E
      by (symmetry; apply Z.leb_le; assumption).
    simpl in E. rewrite Hp in E. simpl in E. injection E as <- _. reflexivity.
Qed.

(** ** C13 *)
Theorem C13_feasible : forall (feas : P -> Prop) ops p,
  y_proc (run c hk design e0 ops) = Some p ->
  (* what the strategy is given: *)
  (forall d, design = Ok d -> Forall feas d) ->
  (forall d o, In (Propose (Ok d) o) ops -> Forall feas d) ->
  Forall feas (unknown c) ->
  (forall e s n o e' l, hk_generate hk e s n o = Ok (e', Some l) -> Forall feas l) ->
  (* every point it asks to evaluate: *)
  forall id k x, In (EvPropose id k x) (p_hist p) -> feas x.
Proof.
  intros feas ops p Hp Hd Ho Hu Hg id k x Hx.
  assert (H : Reached p) by (exists ops; left; assumption).
  apply in_split in Hx. destruct Hx as [h1 [h2 E]].
  pose proof H as HR. apply reached_micros in HR. destruct HR as [[s e] [Hc M]].
  assert (H0 : p_hist (init_proc (V:=V) (s, e)) = []) by reflexivity.
  assert (I0 : Inv c (init_proc (s, e))) by (eapply Inv_init; eassumption).
  destruct (event_step M H0 _ _ _ E) as [q [r [M1 [M2 [M3 [Eq Er]]]]]].
  rewrite <- Eq in Er. pose proof (micro_event _ M2 Er) as [_ [_ [_ [q' Hq]]]].
  assert (PV : Prov (batch_queue s) q).
  { apply (@micros_from (Prov (batch_queue s)) _ I0); [| |exact M1].
    - exact (Prov_init c hk design e0 Hc).
    - intros q1 r1 Iq Cq N. eapply Prov_micro; eassumption. }
  destruct PV as [PV _].
  assert (Hin : In x (batch_queue s ++ queued_later (p_hist q))).
  { apply PV. rewrite Hq. apply in_or_app. right. left. reflexivity. }
  apply in_app_or in Hin. destruct Hin as [Hin|Hin].
  - destruct (C08_initial_queue Hc) as [d [-> [_ Hq0]]].
    simpl in Hq0. rewrite Hq0 in Hin. apply in_app_or in Hin. destruct Hin as [Hin|Hin].
    + specialize (Hd d eq_refl). rewrite Forall_forall in Hd. apply Hd.
      rewrite <- (firstn_skipn (c_num_pts c) d). apply in_or_app. auto.
    + rewrite Forall_forall in Hu. auto.
  - unfold queued_later in Hin. apply in_flat_map in Hin. destruct Hin as [ev [Hev Hx]].
    assert (Hev' : In ev (p_hist p)).
    { rewrite E, <- Eq. apply in_or_app. auto. }
    destruct ev; simpl in Hx; try contradiction.
    + destruct pts as [l|]; [|contradiction]. apply in_split in Hev'.
      destruct Hev' as [g1 [g2 E2]].
      destruct (event_step M H0 _ _ _ E2) as [q2 [r2 [N1 [N2 [_ [Eq2 Er2]]]]]].
      rewrite <- Eq2 in Er2. pose proof (micro_event _ N2 Er2) as [_ [_ [_ [_ [_ [o [e' G]]]]]]].
      apply Hg in G. rewrite Forall_forall in G. auto.
    + destruct (@restarts_from_run _ _ _ _ c hk design e0 ops p (or_introl Hp) _ _ Hev' Hx)
        as [[d [o [A B]]]|A].
      * specialize (Ho d o A). rewrite Forall_forall in Ho. apply Ho.
        rewrite <- (firstn_skipn (c_num_pts c) d). apply in_or_app. auto.
      * rewrite Forall_forall in Hu. auto.
Qed.

(** ** C15 *)
Theorem C15_resume : forall ops p, let y := run c hk design e0 ops in
  y_proc y = None -> y_disk y = Some p ->
  exists p', y_proc (step c hk y Resume) = Some p' /\
  pending_evals (p_s p') = 0 /\ Xpend (p_s p') = [] /\ outstanding (p_hist p') = [] /\
  X (p_s p') = map fst (known c ++ completed (p_hist p)) /\
  fX (p_s p') = map snd (known c ++ completed (p_hist p)) /\
  num_evals (p_s p') = num_evals (p_s p) /\
  accepted_count (p_s p') = accepted_count (p_s p) /\
  rejected_count (p_s p') = rejected_count (p_s p) /\
  fevals (p_s p') = fevals (p_s p) /\ p_ctl p' = map (@f_id P V) (fevals (p_s p)) /\
  X_ (p_s p') = X_ (p_s p) /\ fX_ (p_s p') = fX_ (p_s p) /\ sur (p_s p') = sur (p_s p) /\
  p_e p' = p_e p /\ y_disk (step c hk y Resume) = Some p.
Proof.
  intros ops p y Hn Hd. unfold step. rewrite Hn, Hd. exists (do_resume p).
  assert (H : Reached p) by (exists ops; right; assumption).
  pose proof (Inv_reached H) as I. unfold do_resume, resume.
  rewrite <- (inv_X I), <- (inv_fX I).
  assert (O : outstanding (p_hist p ++ [EvResume]) = [])
    by (unfold outstanding; rewrite fold_left_app; reflexivity).
  destruct (phase (p_s p) =? 1)%nat; simpl; rewrite O; repeat split; reflexivity.
Qed.

(** While the design is being proposed the strategy is in its initial phase. *)
Lemma in_design_app : forall (h1 h2 : list (event P V)),
  fold_left (@in_design_step P V) (h1 ++ h2) true = fold_left (@in_design_step P V) h2 (fold_left (@in_design_step P V) h1 true).
Proof. intros. apply fold_left_app. Qed.

Lemma restart_phase : forall d s e out s' e' evs, restart_branch c hk d s e = Ok (out, (s', e'), evs) ->
  (out = ONone /\ s' = s /\ evs = []) \/ (exists x l, out = OEval KInit x /\ evs = [EvRestart l] /\ phase s' = 1%nat).
Proof.
  intros d s e out s' e' evs H. unfold restart_branch in H.
  destruct (c_async c || (pending_evals s =? 0)); [|injection H as <- <- <- <-; auto].
  apply rbind_ok in H. destruct H as [[s1 e1] [H1 H2]]. apply rbind_ok in H2. destruct H2 as [[o2 s2] [H2 H3]].
  cbn [fst snd] in H2, H3. injection H3 as <- <- <- <-. right.
  apply sample_restart_ok in H1. destruct H1 as [-> [d0 [rows [-> [Er [Hl ->]]]]]].
  unfold init_proposal in H2. destruct (py_pop _) as [[x q]|]; [|discriminate]. injection H2 as <- <-.
  eexists x, _. split; [reflexivity|]. split; reflexivity.
Qed.

Lemma design_phase : forall p, Reached p -> in_design (p_hist p) -> phase (p_s p) = 1%nat.
Proof.
  apply (@reached_ops P V Ext Orc c hk design e0 (fun p => in_design (p_hist p) -> phase (p_s p) = 1%nat)); unfold in_design.
  - intros s e H _. simpl. unfold construct in H. apply rbind_ok in H. destruct H as [s1 [H1 H3]].
    injection H3 as <- _. apply sample_initial_ok in H1. destruct H1 as [d [rows [_ [_ [_ ->]]]]]. reflexivity.
  - intros p d o out p' _ IH H. unfold do_propose in H. apply rbind_ok in H. destruct H as [[[out1 [s1 e1]] evs] [H H2]].
    injection H2 as <- <-.
    assert (PH : phase (check_termination c (p_s p)) = phase (p_s p))
      by (unfold check_termination; destruct (_ <=? _); reflexivity).
    assert (RB : forall s0 e0' o2 s2 e2 ev0 ev2, restart_branch c hk d s0 e0' = Ok (o2, (s2, e2), ev2) ->
      fold_left (@in_design_step P V) (p_hist p ++ (ev0 ++ ev2) ++
         [match o2 with OTerminate => EvTerminate | ONone => EvNone | OEval k x => EvPropose (p_next p) k x end]) true = true ->
      phase s2 = 1%nat).
    { intros s0 e0' o2 s2 e2 ev0 ev2 R F. apply restart_phase in R. destruct R as [[-> [-> ->]]|[x [l [-> [-> K]]]]]; [|exact K].
      rewrite !fold_left_app in F. discriminate F. }
    assert (GG : fold_left (@in_design_step P V) (p_hist p ++ evs ++
         [match out1 with OTerminate => EvTerminate | ONone => EvNone | OEval k x => EvPropose (p_next p) k x end]) true = true ->
      phase s1 = 1%nat).
    { unfold propose_action in H. set (s := check_termination c (p_s p)) in *. clearbody s. cbv zeta in H.
      destruct (terminate s).
      { destruct (pending_evals s =? 0); injection H as <- <- <- <-; rewrite !fold_left_app; intros F;
          [|discriminate F]. rewrite PH. apply IH. exact F. }
      destruct (converged s).
      { destruct (c_restarts c).
        - intros F. eapply (RB _ _ _ _ _ []); [exact H|exact F].
        - injection H as <- <- <- <-. rewrite !fold_left_app. intros F. discriminate F. }
      destruct (nonempty (batch_queue s)).
      { destruct (Nat.eqb_spec (phase s) 1) as [E|E].
        - intros _. apply rbind_ok in H. destruct H as [[o2 s2] [H2 H3]]. cbn [fst snd] in H3. injection H3 as <- <- <- <-.
          unfold init_proposal in H2. destruct (py_pop _) as [[x q]|]; [|discriminate]. injection H2 as <- <-. exact E.
        - unfold adapt_proposal in H. destruct (py_pop _) as [[x q]|]; injection H as <- <- <- <-; rewrite !fold_left_app;
            intros F; discriminate F. }
      apply rbind_ok in H. destruct H as [[[s2 e2] ev0] [_ H]].
      destruct (converged s2 && c_restarts c).
      - apply rbind_ok in H. destruct H as [[[o3 [s3 e3]] ev3] [R H]]. injection H as <- <- <- <-.
        intros F. eapply RB; [exact R|exact F].
      - unfold adapt_proposal in H. destruct (py_pop _) as [[x q]|]; injection H as <- <- <- <-; rewrite !fold_left_app;
          intros F; discriminate F. }
    destruct out1; cbn [p_hist p_s]; exact GG.
  - intros p o _ IH _ _. unfold do_accept. destruct (on_accepted (p_s p)) as [z s'] eqn:E. cbn [p_s p_hist].
    rewrite fold_left_app. cbn [fold_left in_design_step]. intros F. unfold on_accepted in E. injection E as <- <-. apply IH, F.
  - intros p o _ IH _ _. unfold do_reject. cbn [p_s p_hist]. rewrite fold_left_app. cbn [fold_left in_design_step].
    intros F. apply IH in F. destruct (o_kind o); [exact F|]. unfold on_adapt_reject. destruct (c_async c); exact F.
  - intros p o ev v p' _ IH _ _ H. apply do_complete_ok in H. destruct H as [e' [l [nx [cv [-> _]]]]]. cbn [p_s p_hist].
    rewrite fold_left_app. cbn [fold_left in_design_step]. intros F. apply IH in F.
    rewrite <- F. cbn. destruct (ev_last (p_s p) <? ev); reflexivity.
  - intros p o ev _ IH _ _. unfold do_abort. cbn [p_s p_hist]. rewrite fold_left_app. cbn [fold_left in_design_step].
    intros F. apply IH in F. destruct (o_kind o); exact F.
  - intros p _ IH. cbn. rewrite fold_left_app. exact IH.
  - intros p _ IH. unfold do_resume. cbn [p_s p_hist]. rewrite fold_left_app. cbn [fold_left in_design_step].
    intros F. apply IH in F. unfold resume. rewrite F. exact F.
Qed.

(** ** C16.  Missing: a snapshot taken after the strategy has asked for adaptive points while
    initial points are still outstanding (C16_resume_loses_design_refuted). *)
Theorem C16_resume_requeues_partial : (forall x y, c_peqb c x y = true <-> x = y) ->
  forall p, Reached p -> in_design (p_hist p) -> no_duplicates (p_hist p) ->
  batch_queue (p_s (do_resume p)) =
    batch_queue (p_s p) ++ map snd (outstanding (p_hist p)).
Proof.
  intros Hp p H Hph Hnd. apply (design_phase H) in Hph. destruct (C05_xpend_partial Hp H) as [_ Hx]. rewrite <- (Hx Hnd).
  unfold do_resume, resume. rewrite Hph. reflexivity.
Qed.

(** In a run killed during its first initial phase the whole design is queued or evaluated
    after resuming. *)
Theorem C16_design_survives_partial : (forall x y, c_peqb c x y = true <-> x = y) ->
  forall p, Reached p -> in_design (p_hist p) -> no_duplicates (p_hist p) ->
  count (@is_resume P V) (p_hist p) = 0%nat ->
  exists s e, construct c hk design e0 = Ok (s, e) /\
  Permutation (batch_queue s ++ queued_later (p_hist p))
    (batch_queue (p_s (do_resume p)) ++ map fst (completed (p_hist p)) ++
     given_up (c_async c) (p_hist p)).
Proof.
  intros Hp p H Hph Hnd Hr. rewrite (C16_resume_requeues_partial Hp H Hph Hnd).
  destruct (C08_queued_points_conserved_partial H Hr) as [s [e [A B]]]. exists s, e.
  split; [assumption|]. rewrite <- app_assoc. exact B.
Qed.

(** ** C58: the counters of accepted and rejected proposals. *)
Theorem C58_counters : forall p, Reached p ->
  accepted_count (p_s p) = Z.of_nat (count (@is_accept P V) (p_hist p)) /\
  rejected_count (p_s p) = Z.of_nat (count (@is_reject P V) (p_hist p)).
Proof.
  intros p H. apply reached_micros in H. destruct H as [[s e] [H1 M]].
  assert (I0 : Inv c (init_proc (s, e))) by (eapply Inv_init; eassumption).
  apply (@micros_from (fun q => accepted_count (p_s q) = Z.of_nat (count (@is_accept P V) (p_hist q)) /\
    rejected_count (p_s q) = Z.of_nat (count (@is_reject P V) (p_hist q))) _ I0); [| |exact M].
  - unfold construct in H1. apply rbind_ok in H1. destruct H1 as [s1 [H1 H3]].
    injection H3 as <- _. apply sample_initial_ok in H1. destruct H1 as [d [rows [_ [_ [_ ->]]]]]. split; reflexivity.
  - intros q r _ [A B] N.
    destruct N as [G1 G2|G1 G2|G1 G2|G1 G2 G3|n o e' l G1 G2 G3 G4 G5 G6 G7
    |n o e' G1 G2 G3 G4 G5 G6 G7|d rows G1 G2 G3 G4 G5 G6|qq x k G1 G2 G3 G4|o G1 G2|o G1 G2
    |o ev v p' G1 G2 G3|o ev G1 G2| |];
      try (cbn [with_s with_se p_s p_hist]; rewrite !count_app; unfold count at 2 4; cbn [filter is_accept is_reject length];
           rewrite !Nat.add_0_r; split; assumption).
    + unfold do_accept. destruct (on_accepted (p_s q)) as [z s'] eqn:E. injection E as <- <-. cbn [p_s p_hist].
      rewrite !count_app. unfold count at 2 4. cbn. split; lia.
    + unfold do_reject. cbn [p_s p_hist]. rewrite !count_app. unfold count at 2 4. cbn [filter is_accept is_reject length].
      destruct (o_kind o); [cbn; split; lia|]. unfold on_adapt_reject. destruct (c_async c); cbn; split; lia.
    + apply do_complete_ok in G3. destruct G3 as [e' [l [nx [cv [-> _]]]]]. cbn [p_s p_hist].
      rewrite !count_app. unfold count at 2 4. cbn [filter is_accept is_reject length]. rewrite !Nat.add_0_r, <- A, <- B.
      cbn. destruct (ev_last (p_s q) <? ev); split; reflexivity.
    + unfold do_abort. cbn [p_s p_hist]. rewrite !count_app. unfold count at 2 4. cbn [filter is_accept is_reject length].
      rewrite !Nat.add_0_r, <- A, <- B. destruct (o_kind o); split; reflexivity.
    + unfold do_resume. cbn [p_s p_hist]. rewrite !count_app. unfold count at 2 4. cbn [filter is_accept is_reject length].
      rewrite !Nat.add_0_r, <- A, <- B. unfold resume. destruct (phase (p_s q) =? 1)%nat; split; reflexivity.
Qed.

(** ** C56.  Missing: an infinite value is documented as unknown but treated as known
    (C56_inf_is_unknown_refuted). *)
Theorem C56_extra_points_partial : forall s e, construct c hk design e0 = Ok (s, e) ->
  X s = map fst (known c) /\ fX s = map snd (known c) /\ sur s = known c /\
  num_evals s = 0 /\ pending_evals s = 0 /\
  exists d, design = Ok d /\ batch_queue s = firstn (c_num_pts c) d ++ unknown c.
Proof.
  intros s e H. pose proof (C08_initial_queue H) as [d [Hd [_ Hq]]].
  pose proof (Inv_init c hk design e0 H) as I. pose proof (inv_X I) as IX. pose proof (inv_fX I) as IF.
  simpl in IX, IF. rewrite app_nil_r in IX, IF.
  split; [assumption|]. split; [assumption|].
  assert (R : RunInv c (init_proc (s, e))).
  { apply RunInv_reached. exists []. left. unfold run. simpl. unfold start. rewrite H. reflexivity. }
  pose proof (ri_sur R) as RS. simpl in RS.
  unfold construct in H. apply rbind_ok in H. destruct H as [s1 [H1 H3]].
  injection H3 as <- _. apply sample_initial_ok in H1. destruct H1 as [d1 [rows [_ [_ [_ ->]]]]].
  simpl in RS |- *. split; [rewrite RS, app_nil_r; reflexivity|]. repeat split; eauto.
Qed.

(** A restart queues exactly num_pts new design points, no extra point, as soon as some data
    are known. *)
Theorem C56_restart_no_extras : forall p h1 l h2, Reached p ->
  p_hist p = h1 ++ EvRestart l :: h2 -> known c ++ completed h1 <> [] ->
  length l = c_num_pts c.
Proof.
  intros p h1 l h2 H E Hne. destruct (reached_init H) as [p0 [M [I0 [H0 T0]]]].
  destruct (event_step M H0 _ _ _ E) as [q [r [M1 [M2 [_ [Eq Er]]]]]].
  rewrite <- Eq in Er. pose proof (micro_event _ M2 Er) as [_ [_ [_ [_ [rows [Hl [-> _]]]]]]].
  pose proof (Inv_micros I0 M1) as I.
  assert (U : unk c (p_s q) = []).
  { unfold unk, extras_now. rewrite (inv_X I), map_length, Eq.
    destruct (known c ++ completed h1); [contradiction|reflexivity]. }
  rewrite U, app_nil_r. assumption.
Qed.

End Props.

(** ** C12.  [EP] is any property of the subclass state that the overridden methods keep and
    [OP] any property of the candidate searches under which they do not raise; the concrete
    strategies instantiate both (C12_srbf_serial_run_finishes, ...). *)
Theorem C12_serial_run_finishes :
  forall P V Ext Orc (c : cfg P V) (hk : hooks P V Ext Orc) (f : P -> V)
    (EP : Ext -> Prop) (OP : Orc -> Prop)
    (designs : nat -> res (list P)) (orcs : nat -> Orc) design e0,
  (* the overridden methods do not raise, and the candidate search returns points *)
  generates hk -> total_hooks hk EP OP -> keeps hk EP -> EP e0 -> (forall i, OP (orcs i)) ->
  good_extras c ->
  (* legal configuration *)
  (0 < c_num_pts c)%nat -> c_async c = true \/ (0 < c_batch c)%nat -> c_restarts c = true ->
  0 <= c_max_evals c ->
  (* generated designs have num_pts rows *)
  (forall i, good_design c (designs i)) -> good_design c design ->
  let m := Z.to_nat (c_max_evals c) in
  exists p h, y_proc (serial c hk f designs orcs (S m) (start c hk design e0)) = Some p /\
    p_hist p = h ++ [EvTerminate] /\
    length (completed h) = m /\ Forall (fun q => snd q = f (fst q)) (completed h) /\
    outstanding h = [].
Proof.
  intros. eapply serial_terminates; eauto.
Qed.
