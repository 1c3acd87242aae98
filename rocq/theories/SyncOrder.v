(** * Synchronous runs do not depend on the order in which a batch completes (C67).

    Generic in the subclass.  Two runs with the same designs, the same random draws and the same
    deterministic objective, but different controllers: propose_action may be called at different
    times and running evaluations may finish in a different order. *)
From Coq Require Import List Arith ZArith Lia Bool Permutation.
From Verif Require Import Base PyList Strategy StrategySpec StrategyProofs StrategyInv StrategyInv2
  StrategyInv3 StrategyInv4 PropStrategy EndToEnd SyncRun.
Import ListNotations.
Local Open Scope Z_scope.

Set Implicit Arguments.

(** ** Specification: a schedule and the run it determines *)

(** What a controller without failures does: call propose_action, accept proposal [i], report that
    evaluation [i] has completed. *)
Inductive move : Type := Ask | Take (i : nat) | Finish (i : nat).

(** Number of calls of generate_evals, and the proposed points in the order of the proposals. *)
Definition gens {P V} (h : list (event P V)) : nat := length (filter (fun ev => match ev with EvGenerate _ _ => true | _ => false end) h).
Definition proposed_points {P V} (h : list (event P V)) : list P :=
  flat_map (fun ev => match ev with EvPropose _ _ x => [x] | _ => [] end) h.

(** [l'] continues [l]. *)
Definition prefix {P} (l l' : list P) : Prop := exists r, l' = l ++ r.

(** Two runs that differ in timing only: the same points are proposed in the same order (one run may
    have got further than the other); when both have no running evaluation and the same number of
    completed ones, and in particular when both have terminated, they have evaluated the same points
    with the same results. *)
Definition same_course {P V} (h1 h2 : list (event P V)) : Prop :=
  (prefix (proposed_points h1) (proposed_points h2) \/ prefix (proposed_points h2) (proposed_points h1)) /\
  (outstanding h1 = [] -> outstanding h2 = [] -> length (completed h1) = length (completed h2) -> Permutation (completed h1) (completed h2)) /\
  (In (@EvTerminate P V) h1 -> In (@EvTerminate P V) h2 -> proposed_points h1 = proposed_points h2 /\ Permutation (completed h1) (completed h2)).

Section Play.
Variables P V Ext Orc : Type.
Variable c : cfg P V.
Variable hk : hooks P V Ext Orc.
Variable f : P -> V.                       (* the objective *)
Variable designs : nat -> res (list P).    (* the design of the k-th restart *)
Variable draws : nat -> Orc.               (* the random draws of the k-th call of generate_evals *)

Definition op_of (p : proc P V Ext) (m : move) : op P V Orc :=
  match m with
  | Ask => Propose (designs (restarts (p_hist p))) (draws (gens (p_hist p)))
  | Take i => Accept i
  | Finish i => Update i match get_out i (p_out p) with Some o => SCompleted (f (o_x o)) | None => SOther end
  end.
Definition play1 (y : sys P V Ext) (m : move) : sys P V Ext :=
  match y_proc y with Some p => step c hk y (op_of p m) | None => y end.
(** The run of the strategy constructed with [design] under the schedule [ms]. *)
Definition play (design : res (list P)) (e0 : Ext) (ms : list move) : sys P V Ext := fold_left play1 ms (start c hk design e0).

Lemma play_ops : forall design e0 ms, exists ops, play design e0 ms = run c hk design e0 ops.
Proof using.
  intros design e0 ms. induction ms as [|m ms IH] using rev_ind; [exists []; reflexivity|]. destruct IH as [ops IH].
  unfold play in *. rewrite fold_left_app. cbn [fold_left]. rewrite IH. unfold play1. destruct (y_proc (run c hk design e0 ops)) as [p|]; [|eauto].
  exists (ops ++ [op_of p m]). unfold run, run_from. rewrite fold_left_app. reflexivity.
Qed.

(** ** Micro-steps of such a run *)
Notation proc := (proc P V Ext).
Notation micro := (micro c hk).
Notation micros := (micros c hk).

Inductive fmicro (p : proc) : proc -> Prop :=
| fm_wait : at_stop c (p_s p) -> pending_evals (p_s p) <> 0 -> fmicro p (with_s (set_terminate true (p_s p)) [EvNone] p)
| fm_term : at_stop c (p_s p) -> pending_evals (p_s p) = 0 -> fmicro p (with_s (set_terminate true (p_s p)) [EvTerminate] p)
| fm_none : below c (p_s p) -> (converged (p_s p) = true \/ batch_queue (p_s p) = []) -> fmicro p (with_s (p_s p) [EvNone] p)
| fm_phase : below c (p_s p) -> batch_queue (p_s p) = [] -> converged (p_s p) = false -> fmicro p (with_s (set_phase 2%nat (p_s p)) [] p)
| fm_gen : forall n e' l, below c (p_s p) -> batch_queue (p_s p) = [] -> converged (p_s p) = false -> may_generate c (p_s p) -> phase (p_s p) = 2%nat ->
    n = (if c_async c then 1%nat else c_batch c) ->
    hk_generate hk (p_e p) (p_s p) n (draws (gens (p_hist p))) = Ok (e', Some l) ->
    fmicro p (with_se (set_batch_queue l (p_s p)) e' [EvGenerate n (Some l)] p)
| fm_conv : forall n e', below c (p_s p) -> batch_queue (p_s p) = [] -> converged (p_s p) = false -> may_generate c (p_s p) -> phase (p_s p) = 2%nat ->
    n = (if c_async c then 1%nat else c_batch c) ->
    hk_generate hk (p_e p) (p_s p) n (draws (gens (p_hist p))) = Ok (e', None) ->
    fmicro p (with_se (set_converged true (p_s p)) e' [EvGenerate n None] p)
| fm_restart : forall d rows, below c (p_s p) -> converged (p_s p) = true -> c_restarts c = true -> may_generate c (p_s p) ->
    designs (restarts (p_hist p)) = Ok d -> rows = firstn (c_num_pts c) d -> length rows = c_num_pts c ->
    fmicro p (with_se (restarted c rows (p_s p)) (hk_sample_initial hk (p_e p)) [EvRestart (rows ++ unk c (p_s p))] p)
| fm_propose : forall q x k, below c (p_s p) -> batch_queue (p_s p) = q ++ [x] -> converged (p_s p) = false -> k = phase_kind (p_s p) ->
    fmicro p (mkProc (make_proposal x (set_batch_queue q (p_s p))) (p_e p) (p_out p ++ [mkOut (p_next p) k x None]) (p_ctl p) (S (p_next p))
                    (p_hist p ++ [EvPropose (p_next p) k x]))
| fm_accept : forall o, In o (p_out p) -> o_ev o = None -> fmicro p (do_accept o p)
| fm_complete : forall o ev p', In o (p_out p) -> o_ev o = Some ev -> do_complete c hk o ev (f (o_x o)) p = Ok p' -> fmicro p p'.

Lemma fmicro_micro : forall p p', fmicro p p' -> micro p p'.
Proof using.
  intros p p' M. destruct M as [A B|A B|A B|A B C|n e' l A B C D F G H|n e' A B C D F G H|d rows A B C D F G H|q0 x k A B C D|o A B|o ev p' A B C].
  - apply mi_wait; assumption.
  - apply mi_term; assumption.
  - apply mi_none; assumption.
  - apply mi_phase; assumption.
  - eapply mi_gen; eassumption.
  - eapply mi_conv; eassumption.
  - exact (@mi_restart _ _ _ _ c hk p d rows A B C D G H).
  - apply mi_propose; assumption.
  - apply mi_accept; assumption.
  - exact (@mi_complete _ _ _ _ c hk p o ev _ p' A B C).
Qed.

Inductive fmicros (p0 : proc) : nat -> proc -> Prop :=
| fs_refl : fmicros p0 0 p0
| fs_step : forall n q r, fmicros p0 n q -> fmicro q r -> fmicros p0 (S n) r.

Lemma fmicros_micros : forall n p q, fmicros p n q -> micros p q.
Proof using. intros n p q M. induction M as [|n q r M IH N]; [apply ms_refl|]. eapply ms_step; [exact IH|apply fmicro_micro, N]. Qed.

Lemma restart_fmicros : forall p0 n p design out s' e' evs, fmicros p0 n p ->
  below c (p_s p) -> converged (p_s p) = true -> c_restarts c = true -> designs (restarts (p_hist p)) = design ->
  restart_branch c hk design (p_s p) (p_e p) = Ok (out, (s', e'), evs) ->
  (out = ONone /\ s' = p_s p /\ e' = p_e p /\ evs = []) \/
  (exists x, out = OEval KInit x /\ exists m,
   fmicros p0 m (mkProc s' e' (p_out p ++ [mkOut (p_next p) KInit x None]) (p_ctl p) (S (p_next p)) (p_hist p ++ evs ++ [EvPropose (p_next p) KInit x]))).
Proof using.
  intros p0 n p design out s' e' evs M0 Hb Hc Hr HD H. unfold restart_branch in H.
  destruct (c_async c || (pending_evals (p_s p) =? 0)) eqn:Eg.
  2:{ injection H as <- <- <- <-. left. repeat split; reflexivity. }
  apply rbind_ok in H. destruct H as [[s1 e1] [H1 H2]].
  apply rbind_ok in H2. destruct H2 as [[o2 s2] [H2 H3]].
  simpl in H2, H3. injection H3 as <- <- <- <-. right.
  apply sample_restart_ok in H1. destruct H1 as [-> [d [rows [-> [Er [Hl ->]]]]]].
  unfold init_proposal in H2.
  destruct (py_pop (batch_queue (restarted c rows (p_s p)))) as [[x q]|] eqn:Ep; [|discriminate].
  injection H2 as <- <-. apply py_pop_some in Ep.
  exists x. split; [reflexivity|]. exists (S (S n)).
  eapply fs_step; [eapply fs_step; [exact M0|]; eapply (@fm_restart p d rows); auto|].
  - unfold may_generate. apply orb_true_iff in Eg. destruct Eg as [Eg|Eg]; [auto|]. right. apply Z.eqb_eq; assumption.
  - match goal with |- fmicro ?p1 ?p2 => assert (M : fmicro p1
      (mkProc (make_proposal x (set_batch_queue q (p_s p1))) (p_e p1)
                    (p_out p1 ++ [mkOut (p_next p1) KInit x None]) (p_ctl p1) (S (p_next p1))
                    (p_hist p1 ++ [EvPropose (p_next p1) KInit x]))) end.
    { apply fm_propose; auto. }
    simpl in M. rewrite <- app_assoc in M.
    replace (skipn (length (batch_queue (p_s p))) (batch_queue (restarted c rows (p_s p)))) with (rows ++ unk c (p_s p)).
    + exact M.
    + rewrite restarted_queue, skipn_app, skipn_all, Nat.sub_diag. reflexivity.
Qed.

Lemma adapt_fmicro : forall p o s', below c (p_s p) -> converged (p_s p) = false -> phase_kind (p_s p) = KAdapt ->
  adapt_proposal (p_s p) = (o, s') ->
  match o with
  | OEval k x => fmicro p (mkProc s' (p_e p) (p_out p ++ [mkOut (p_next p) k x None]) (p_ctl p) (S (p_next p)) (p_hist p ++ [EvPropose (p_next p) k x]))
  | ONone => fmicro p (with_s s' [EvNone] p)
  | OTerminate => False
  end.
Proof using.
  intros p o s' Hb Hc Hk H. unfold adapt_proposal in H.
  destruct (py_pop (batch_queue (p_s p))) as [[x q]|] eqn:Ep; injection H as <- <-.
  - apply py_pop_some in Ep. apply fm_propose; auto.
  - apply py_pop_none in Ep. apply fm_none; auto.
Qed.

Lemma propose_fmicros : forall p0 n p out p', fmicros p0 n p ->
  do_propose c hk (designs (restarts (p_hist p))) (draws (gens (p_hist p))) p = Ok (out, p') -> exists m, fmicros p0 m p'.
Proof using.
  intros p0 n p out p' M0 H. unfold do_propose in H.
  apply rbind_ok in H. destruct H as [[[out1 [s1 e1]] evs] [H H2]].
  injection H2 as <- <-. fold (outcome_proc p out1 s1 e1 evs).
  unfold propose_action in H.
  assert (Hct : (at_stop c (p_s p) /\ check_termination c (p_s p) = set_terminate true (p_s p))
             \/ (below c (p_s p) /\ check_termination c (p_s p) = p_s p)).
  { unfold check_termination, at_stop, below.
    destruct (c_max_evals c <=? num_evals (p_s p) + pending_evals (p_s p)) eqn:E.
    - left. apply Z.leb_le in E. auto.
    - apply Z.leb_gt in E. destruct (terminate (p_s p)) eqn:Et.
      + left. split; auto. destruct (p_s p); simpl in *; subst; reflexivity.
      + right. auto. }
  destruct Hct as [[Hst Hct]|[Hb Hct]]; rewrite Hct in H.
  - simpl in H. destruct (pending_evals (p_s p) =? 0) eqn:E; injection H as <- <- <- <-; simpl; exists (S n).
    + apply Z.eqb_eq in E. eapply fs_step; [exact M0|]. apply fm_term; auto.
    + apply Z.eqb_neq in E. eapply fs_step; [exact M0|]. apply fm_wait; auto.
  - destruct (terminate (p_s p)) eqn:Et; [destruct Hb; congruence|].
    destruct (converged (p_s p)) eqn:Ec.
    + destruct (c_restarts c) eqn:Er.
      * destruct (@restart_fmicros p0 n p _ out1 s1 e1 evs M0 Hb Ec Er eq_refl H) as [[-> [-> [-> ->]]]|[x [-> M]]].
        -- simpl. exists (S n). eapply fs_step; [exact M0|]. apply fm_none; auto.
        -- exact M.
      * injection H as <- <- <- <-. simpl. exists (S n). eapply fs_step; [exact M0|]. apply fm_none; auto.
    + destruct (nonempty (batch_queue (p_s p))) eqn:En.
      * destruct ((phase (p_s p) =? 1)%nat) eqn:Eph.
        -- apply rbind_ok in H. destruct H as [[o2 s2] [H1 H2]]. injection H2 as <- <- <- <-.
           unfold init_proposal in H1.
           destruct (py_pop (batch_queue (p_s p))) as [[x q]|] eqn:Ep; [|discriminate].
           injection H1 as <- <-. apply py_pop_some in Ep. simpl.
           exists (S n). eapply fs_step; [exact M0|]. apply fm_propose; auto.
           unfold phase_kind. rewrite Eph. reflexivity.
        -- destruct (adapt_proposal (p_s p)) as [o2 s2] eqn:Ea. simpl in H.
           injection H as <- <- <- <-.
           assert (Hk : phase_kind (p_s p) = KAdapt) by (unfold phase_kind; rewrite Eph; auto).
           pose proof (@adapt_fmicro p _ _ Hb Ec Hk Ea) as M. exists (S n).
           destruct o2; [contradiction| |]; simpl; (eapply fs_step; [exact M0|exact M]).
      * assert (Eq : batch_queue (p_s p) = []) by (destruct (batch_queue (p_s p)); [auto|discriminate]).
        set (p2 := with_s (set_phase 2%nat (p_s p)) [] p).
        assert (M2 : fmicros p0 (S n) p2) by (eapply fs_step; [exact M0|]; apply fm_phase; auto).
        assert (Hb2 : below c (p_s p2)) by exact Hb.
        assert (HH : p_hist p2 = p_hist p) by (unfold p2; simpl; apply app_nil_r).
        apply rbind_ok in H. destruct H as [[[s3 e3] evs3] [H1 H2]].
        assert (M3 : evs3 = [] /\ s3 = p_s p2 /\ e3 = p_e p \/
                     (fmicro p2 (with_se s3 e3 evs3 p2) /\ below c s3 /\ phase_kind s3 = KAdapt /\ restarts (p_hist p2 ++ evs3) = restarts (p_hist p))).
        { assert (G : forall m, m = (if c_async c then 1%nat else c_batch c) -> may_generate c (p_s p) ->
                    do_generate hk m (draws (gens (p_hist p))) (set_phase 2%nat (p_s p)) (p_e p) = Ok (s3, e3, evs3) ->
                    fmicro p2 (with_se s3 e3 evs3 p2) /\ below c s3 /\ phase_kind s3 = KAdapt /\ restarts (p_hist p2 ++ evs3) = restarts (p_hist p)).
          { intros m Hm Hg HG. unfold do_generate in HG. rewrite <- HH in HG.
            apply rbind_ok in HG. destruct HG as [[e4 [l|]] [G1 G2]]; simpl in G2; injection G2 as <- <- <-.
            - split; [|split; [exact Hb|split; [reflexivity|]]].
              + simpl. rewrite Eq. simpl. eapply fm_gen with (p := p2); eauto.
              + rewrite HH. unfold restarts. rewrite filter_app. simpl. rewrite app_nil_r. reflexivity.
            - split; [|split; [exact Hb|split; [reflexivity|]]].
              + eapply fm_conv with (p := p2); eauto.
              + rewrite HH. unfold restarts. rewrite filter_app. simpl. rewrite app_nil_r. reflexivity. }
          destruct (c_async c) eqn:Eas.
          - right. apply (G 1%nat); auto. left; assumption.
          - simpl in H1. destruct (pending_evals (p_s p) =? 0) eqn:E0.
            + right. apply (G (c_batch c)); auto. right. apply Z.eqb_eq; assumption.
            + injection H1 as <- <- <-. left. auto. }
        destruct M3 as [[-> [-> ->]]|[M3 [Hb3 [Hk3 HR3]]]].
        -- simpl in H2. rewrite Ec in H2. simpl in H2.
           destruct (adapt_proposal (set_phase 2%nat (p_s p))) as [o2 s2] eqn:Ea. simpl in H2.
           injection H2 as <- <- <- <-.
           assert (Ec2 : converged (p_s p2) = false) by exact Ec.
           pose proof (@adapt_fmicro p2 o2 s2 Hb2 Ec2 eq_refl Ea) as M.
           exists (S (S n)). eapply fs_step; [exact M2|].
           unfold with_s in M. simpl in M. rewrite app_nil_r in M.
           destruct o2; [contradiction| |]; exact M.
        -- set (p3 := with_se s3 e3 evs3 p2) in *.
           assert (M23 : fmicros p0 (S (S n)) p3) by (eapply fs_step; [exact M2|exact M3]).
           destruct (converged s3) eqn:Ec3.
           ++ destruct (c_restarts c) eqn:Er; simpl in H2.
              ** apply rbind_ok in H2. destruct H2 as [[[o4 [s4 e4]] evs4] [H2 H3]].
                 injection H3 as <- <- <- <-.
                 destruct (@restart_fmicros p0 (S (S n)) p3 _ o4 s4 e4 evs4 M23 Hb3 Ec3 Er (f_equal designs HR3) H2)
                   as [[-> [-> [-> ->]]]|[x [-> [m M]]]].
                 --- simpl. rewrite app_nil_r. exists (S (S (S n))).
                     eapply fs_step; [exact M23|].
                     pose proof (@fm_none p3 Hb3 (or_introl Ec3)) as M.
                     unfold with_s in M. simpl in M. rewrite app_nil_r, <- app_assoc in M.
                     exact M.
                 --- exists m. simpl in M |- *.
                     rewrite app_nil_r, <- !app_assoc in M. rewrite <- !app_assoc. exact M.
              ** unfold adapt_proposal in H2.
                 destruct (py_pop (batch_queue s3)) as [[x q]|] eqn:Ep.
                 --- exfalso. unfold do_generate in H1.
                     destruct (c_async c);
                     [ | simpl in H1; destruct (pending_evals (p_s p) =? 0) ]; simpl in H1;
                     try (apply rbind_ok in H1; destruct H1 as [[e4 [l|]] [G1 G2]];
                       simpl in G2; injection G2 as <- <- <-; simpl in *;
                       [congruence|rewrite Eq in Ep; discriminate]).
                     injection H1 as <- <- <-. simpl in *. congruence.
                 --- simpl in H2. injection H2 as <- <- <- <-. simpl. exists (S (S (S n))).
                     eapply fs_step; [exact M23|].
                     pose proof (@fm_none p3 Hb3 (or_introl Ec3)) as M.
                     unfold with_s in M. simpl in M. rewrite app_nil_r, <- app_assoc in M.
                     exact M.
           ++ simpl in H2. destruct (adapt_proposal s3) as [o2 s2] eqn:Ea. simpl in H2.
              injection H2 as <- <- <- <-.
              pose proof (@adapt_fmicro p3 o2 s2 Hb3 Ec3 Hk3 Ea) as M. exists (S (S (S n))).
              eapply fs_step; [exact M23|].
              unfold with_s in M. simpl in M. rewrite app_nil_r in M.
              destruct o2; [contradiction| |]; simpl; rewrite app_assoc; exact M.
Qed.

Lemma play_fmicros : forall design e0 ms p, y_proc (play design e0 ms) = Some p ->
  exists se, construct c hk design e0 = Ok se /\ exists n, fmicros (init_proc se) n p.
Proof using.
  intros design e0 ms. induction ms as [|m ms IH] using rev_ind; intros p H.
  - unfold play in H. simpl in H. unfold start in H. destruct (construct c hk design e0) as [[s e]|]; [|discriminate]. injection H as <-.
    exists (s, e). split; [reflexivity|]. exists 0%nat. apply fs_refl.
  - unfold play in *. rewrite fold_left_app in H. cbn [fold_left] in H. set (y := fold_left play1 ms (start c hk design e0)) in *. clearbody y.
    unfold play1 in H. destruct (y_proc y) as [q|] eqn:Ey; [|congruence]. destruct (IH q eq_refl) as [se [E [n M]]]. exists se. split; [exact E|].
    unfold step in H. rewrite Ey in H. destruct m as [|i|i]; cbn [op_of] in H.
    + destruct (do_propose c hk _ _ q) as [[out p1]|] eqn:Ep; [|discriminate].
      destruct (@propose_fmicros _ _ _ _ _ M Ep) as [m Mm]. exists m. destruct out; simpl in H; injection H as <-; exact Mm.
    + destruct (get_out i (p_out q)) as [o|] eqn:Eo; [|rewrite Ey in H; injection H as <-; eauto].
      apply get_out_some in Eo. destruct Eo as [Eo _].
      destruct (o_ev o) eqn:Ee; [rewrite Ey in H; injection H as <-; eauto|]. simpl in H. injection H as <-.
      exists (S n). eapply fs_step; [exact M|]. apply fm_accept; auto.
    + destruct (get_out i (p_out q)) as [o|] eqn:Eo; [|rewrite Ey in H; injection H as <-; eauto].
      apply get_out_some in Eo. destruct Eo as [Eo _].
      destruct (o_ev o) as [ev|] eqn:Ee; [|rewrite Ey in H; injection H as <-; eauto].
      destruct (do_complete c hk o ev (f (o_x o)) q) as [p1|] eqn:Ec; simpl in H; [|discriminate]. injection H as <-.
      exists (S n). eapply fs_step; [exact M|]. eapply fm_complete; eauto.
Qed.

(** ** The state at the next barrier *)

(** Points of the current batch that have not completed. *)
Definition todo (p : proc) : list P := map (@o_x P) (p_out p) ++ batch_queue (p_s p).
(** Kind of the current batch: initial design or adaptive points. *)
Definition bkind (h : list (event P V)) : kind :=
  fold_left (fun k ev => match ev with EvGenerate _ (Some _) => KAdapt | EvRestart _ => KInit | _ => k end) h KInit.

(** What a subclass must satisfy.  [Eeq]: equal up to the order of completions; [fut k e l]: the
    subclass state once the remaining points [l] of the batch of kind [k] have completed, and
    whether the run has converged then.  [T] holds for the completed points. *)
Variable Eeq : Ext -> Ext -> Prop.
Variable fut : kind -> Ext -> list P -> Ext * bool.
Variable T : P -> Prop.
Definition feq (a b : Ext * bool) : Prop := Eeq (fst a) (fst b) /\ snd a = snd b.

(** Two states of the strategy in which the same points have completed, in different orders, and
    nothing is queued or running. *)
Record similar (s1 s2 : base P V) : Prop := mkSim {
  sim_num : num_evals s1 = num_evals s2;
  sim_idle : pending_evals s1 = 0 /\ pending_evals s2 = 0 /\ batch_queue s1 = [] /\ batch_queue s2 = [] /\ Xpend s1 = [] /\ Xpend s2 = [];
  sim_phase : phase s1 = 2%nat /\ phase s2 = 2%nat;
  sim_X : Permutation (X_ s1) (X_ s2);
  sim_fX : fX_ s1 = map f (X_ s1) /\ fX_ s2 = map f (X_ s2);
  sim_sur : Permutation (sur s1) (sur s2);
  sim_vals : Permutation (fX s1) (fX s2);
  sim_T : Forall T (X_ s1)
}.

Record orderly : Prop := mkOrd {
  od_refl : forall e, Eeq e e;
  od_sym : forall e e', Eeq e e' -> Eeq e' e;
  od_trans : forall e1 e2 e3, Eeq e1 e2 -> Eeq e2 e3 -> Eeq e1 e3;
  od_nil : forall k e, fut k e [] = (e, false);
  od_perm : forall k e l l', Permutation l l' -> feq (fut k e l) (fut k e l');
  od_cong : forall k e e' l, Eeq e e' -> feq (fut k e l) (fut k e' l);
  od_init : forall e s x ev e' l, hk_initial_completed hk e s x (f x) ev = Ok e' -> feq (fut KInit e' l) (fut KInit e (x :: l));
  od_adapt : forall e s x ev e' n cv l, hk_adapt_completed hk e s x (f x) ev = Ok (e', n, cv) -> ev_last s < ev ->
    (l = [] <-> batch_queue s = [] /\ pending_evals s = 0) ->
    (l <> [] -> cv = false) /\ feq (fst (fut KAdapt e' l), cv || snd (fut KAdapt e' l)) (fut KAdapt e (x :: l));
  od_gen : forall e1 e2 s1 s2 n o e1' e2' r1 r2, similar s1 s2 -> Eeq e1 e2 ->
    hk_generate hk e1 s1 n o = Ok (e1', r1) -> hk_generate hk e2 s2 n o = Ok (e2', r2) -> r1 = r2 /\ Eeq e1' e2';
  od_restart : forall e e', Eeq e e' -> Eeq (hk_sample_initial hk e) (hk_sample_initial hk e');
  od_idle : bump_when_idle hk
}.

Hypothesis Hsync : c_async c = false.
Hypothesis Hpeqb : forall x y, c_peqb c x y = true <-> x = y.
Hypothesis HO : orderly.

(** The parts of the state that do not change until the next barrier. *)
Record Rel (p1 p2 : proc) : Prop := mkRel {
  rel_gens : gens (p_hist p1) = gens (p_hist p2);
  rel_restarts : restarts (p_hist p1) = restarts (p_hist p2);
  rel_kind : bkind (p_hist p1) = bkind (p_hist p2);
  rel_X : Permutation (X_ (p_s p1) ++ todo p1) (X_ (p_s p2) ++ todo p2);
  rel_all : Permutation (map fst (completed (p_hist p1)) ++ todo p1) (map fst (completed (p_hist p2)) ++ todo p2);
  rel_points : proposed_points (p_hist p1) ++ rev (batch_queue (p_s p1)) = proposed_points (p_hist p2) ++ rev (batch_queue (p_s p2));
  rel_ext : feq (fst (fut (bkind (p_hist p1)) (p_e p1) (todo p1)), converged (p_s p1) || snd (fut (bkind (p_hist p1)) (p_e p1) (todo p1)))
                (fst (fut (bkind (p_hist p2)) (p_e p2) (todo p2)), converged (p_s p2) || snd (fut (bkind (p_hist p2)) (p_e p2) (todo p2)))
}.
Lemma feq_refl : forall a, feq a a.
Proof using HO. intros a. split; [apply (od_refl HO)|reflexivity]. Qed.
Lemma feq_sym : forall a b, feq a b -> feq b a.
Proof using HO. intros a b [A B]. split; [apply (od_sym HO), A|congruence]. Qed.
Lemma feq_trans : forall a b d, feq a b -> feq b d -> feq a d.
Proof using HO. intros a b d [A B] [C D]. split; [eapply (od_trans HO); eassumption|congruence]. Qed.
Lemma Rel_sym : forall p1 p2, Rel p1 p2 -> Rel p2 p1.
Proof using HO. intros p1 p2 [A B C D E F G]. constructor; auto; [apply Permutation_sym, D|apply Permutation_sym, E|apply feq_sym, G]. Qed.
Lemma Rel_trans : forall p1 p2 p3, Rel p1 p2 -> Rel p2 p3 -> Rel p1 p3.
Proof using HO.
  intros p1 p2 p3 [A B C D E F G] [A' B' C' D' E' F' G']. constructor; try congruence; [eapply Permutation_trans; eassumption|eapply Permutation_trans; eassumption|eapply feq_trans; eassumption].
Qed.
Lemma Rel_refl : forall p, Rel p p.
Proof using HO. intros p. constructor; auto. apply feq_refl. Qed.

(** Invariants of a single run. *)
Record LInv (p : proc) : Prop := mkLI {
  li_kind : forall o, In o (p_out p) -> o_kind o = bkind (p_hist p);
  li_queue : batch_queue (p_s p) <> [] -> phase_kind (p_s p) = bkind (p_hist p);
  li_conv : converged (p_s p) = true -> todo p = [];
  li_f : fX_ (p_s p) = map f (X_ (p_s p));
  li_done : map snd (completed (p_hist p)) = map f (map fst (completed (p_hist p)))
}.
Definition AInv (p : proc) : Prop := Inv c p /\ RunInv c p /\ Fresh p /\ XpendInv p /\ LInv p.

Lemma gens_app : forall h1 h2 : list (event P V), gens (h1 ++ h2) = (gens h1 + gens h2)%nat.
Proof using. intros. unfold gens. rewrite filter_app, app_length. reflexivity. Qed.
Lemma restarts_app : forall h1 h2 : list (event P V), restarts (h1 ++ h2) = (restarts h1 + restarts h2)%nat.
Proof using. intros. unfold restarts. rewrite filter_app, app_length. reflexivity. Qed.
Lemma bkind_snoc : forall (h : list (event P V)) ev, bkind (h ++ [ev]) = match ev with EvGenerate _ (Some _) => KAdapt | EvRestart _ => KInit | _ => bkind h end.
Proof using. intros. unfold bkind. rewrite fold_left_app. reflexivity. Qed.
Lemma points_app : forall h1 h2 : list (event P V), proposed_points (h1 ++ h2) = proposed_points h1 ++ proposed_points h2.
Proof using. intros. unfold proposed_points. apply flat_map_app. Qed.
Lemma completed_app : forall h1 h2 : list (event P V), completed (h1 ++ h2) = completed h1 ++ completed h2.
Proof using. intros. unfold completed. apply flat_map_app. Qed.
Lemma set_ev_xs : forall id ev (l : list (outst P)), map (@o_x P) (set_ev id ev l) = map (@o_x P) l.
Proof using. intros. rewrite !map_xs, set_ev_map. reflexivity. Qed.

(** Which steps start a new batch. *)
Definition rounds (h : list (event P V)) : nat := (gens h + restarts h)%nat.
Lemma rounds_snoc : forall (h : list (event P V)) ev, rounds (h ++ [ev]) = (rounds h + match ev with EvGenerate _ _ | EvRestart _ => 1 | _ => 0 end)%nat.
Proof using. intros. unfold rounds. rewrite gens_app, restarts_app. destruct ev; cbn; lia. Qed.

(** Steps without any effect on data, queue and running evaluations. *)
Lemma quiet : forall p s' out' evs ctl' nx',
  batch_queue s' = batch_queue (p_s p) -> X_ s' = X_ (p_s p) -> converged s' = converged (p_s p) -> map (@o_x P) out' = map (@o_x P) (p_out p) ->
  (evs = [] \/ exists ev, evs = [ev] /\ match ev with EvGenerate _ _ | EvRestart _ | EvPropose _ _ _ | EvComplete _ _ _ _ => False | _ => True end) ->
  Rel p (mkProc s' (p_e p) out' ctl' nx' (p_hist p ++ evs)).
Proof using HO.
  intros p s' out' evs ctl' nx' Q1 Q2 Q3 Q4 HE.
  set (p' := mkProc s' (p_e p) out' ctl' nx' (p_hist p ++ evs)).
  assert (ET : todo p' = todo p) by (unfold todo, p'; cbn [p_out p_s]; congruence).
  assert (EK : bkind (p_hist p') = bkind (p_hist p)).
  { unfold p'. cbn [p_hist]. destruct HE as [->|[ev [-> He]]]; [rewrite app_nil_r; reflexivity|]. rewrite bkind_snoc. destruct ev; try contradiction; reflexivity. }
  constructor; rewrite ?ET, ?EK; try reflexivity.
  - unfold p'. cbn [p_hist]. rewrite gens_app. destruct HE as [->|[ev [-> He]]]; [cbn; lia|destruct ev; try contradiction; cbn; lia].
  - unfold p'. cbn [p_hist]. rewrite restarts_app. destruct HE as [->|[ev [-> He]]]; [cbn; lia|destruct ev; try contradiction; cbn; lia].
  - unfold p'. cbn [p_s]. rewrite Q2. reflexivity.
  - unfold p'. cbn [p_hist]. rewrite completed_app. destruct HE as [->|[ev [-> He]]]; [cbn; rewrite app_nil_r; reflexivity|destruct ev; try contradiction; cbn; rewrite app_nil_r; reflexivity].
  - unfold p'. cbn [p_hist p_s]. rewrite points_app, Q1. destruct HE as [->|[ev [-> He]]]; [cbn; rewrite app_nil_r; reflexivity|destruct ev; try contradiction; cbn; rewrite app_nil_r; reflexivity].
  - unfold p'. cbn [p_s p_e]. rewrite Q3. apply feq_refl.
Qed.
Lemma quiet_LInv : forall p s' out' evs ctl' nx', LInv p ->
  batch_queue s' = batch_queue (p_s p) -> X_ s' = X_ (p_s p) -> fX_ s' = fX_ (p_s p) -> converged s' = converged (p_s p) -> map (@o_x P) out' = map (@o_x P) (p_out p) ->
  (batch_queue (p_s p) <> [] -> phase s' = phase (p_s p)) ->
  (forall o, In o out' -> exists o', In o' (p_out p) /\ o_kind o = o_kind o') ->
  (evs = [] \/ exists ev, evs = [ev] /\ match ev with EvGenerate _ _ | EvRestart _ | EvPropose _ _ _ | EvComplete _ _ _ _ => False | _ => True end) ->
  LInv (mkProc s' (p_e p) out' ctl' nx' (p_hist p ++ evs)).
Proof using.
  intros p s' out' evs ctl' nx' [A B C D G] Q1 Q2 Q2' Q3 Q4 Q5 Q6 HE.
  assert (EC : completed (p_hist p ++ evs) = completed (p_hist p)).
  { rewrite completed_app. destruct HE as [->|[ev [-> He]]]; [cbn; apply app_nil_r|destruct ev; try contradiction; cbn; apply app_nil_r]. }
  assert (EK : bkind (p_hist p ++ evs) = bkind (p_hist p)).
  { destruct HE as [->|[ev [-> He]]]; [rewrite app_nil_r; reflexivity|]. rewrite bkind_snoc. destruct ev; try contradiction; reflexivity. }
  constructor; cbn [p_out p_s p_hist]; rewrite ?EK, ?EC, ?Q1, ?Q2, ?Q2', ?Q3; auto.
  - intros o Ho. destruct (Q6 o Ho) as [o' [H1 ->]]. auto.
  - intros H. unfold phase_kind in *. rewrite (Q5 H). auto.
  - intros H. specialize (C H). unfold todo in *. cbn [p_out p_s]. rewrite Q4, Q1. exact C.
Qed.

(** The one-step lemma. *)
Lemma step_inv : forall p p', AInv p -> fmicro p p' ->
  LInv p' /\ (rounds (p_hist p') = rounds (p_hist p) -> Rel p p').
Proof using HO Hsync Hpeqb.
  intros p p' [I [R [F [XI L]]]] M.
  destruct M as [A B|A B|A B|A B C|n e' l A B C D E G H|n e' A B C D E G H|d rows A B C D E G H|q0 x k A B C D|o A B|o ev p' A B C].
  - split; [|intros _].
    + apply (quiet_LInv (p := p)); auto; try reflexivity; [intros o Ho; exists o; auto|right; eexists; split; [reflexivity|exact Logic.I]].
    + apply (@quiet p); try reflexivity. right. eexists. split; [reflexivity|exact Logic.I].
  - split; [|intros _].
    + apply (quiet_LInv (p := p)); auto; try reflexivity; [intros o Ho; exists o; auto|right; eexists; split; [reflexivity|exact Logic.I]].
    + apply (@quiet p); try reflexivity. right. eexists. split; [reflexivity|exact Logic.I].
  - split; [|intros _].
    + apply (quiet_LInv (p := p)); auto; try reflexivity; [intros o Ho; exists o; auto|right; eexists; split; [reflexivity|exact Logic.I]].
    + apply (@quiet p); try reflexivity. right. eexists. split; [reflexivity|exact Logic.I].
  - split; [|intros _].
    + apply (quiet_LInv (p := p)); auto; try reflexivity; [intros K; contradiction|intros o Ho; exists o; auto].
    + apply (@quiet p); try reflexivity. left. reflexivity.
  - assert (EO : p_out p = []) by (destruct D as [D|D]; [congruence|]; exact (idle_out I D)).
    split; [|intros K; exfalso; cbn [p_hist with_se] in K; rewrite rounds_snoc in K; lia].
    constructor; cbn [p_out p_s p_hist with_se]; rewrite ?bkind_snoc.
    + rewrite EO. intros o [].
    + intros _. unfold phase_kind. cbn. rewrite E. reflexivity.
    + cbn. congruence.
    + exact (li_f L).
    + rewrite completed_app; cbn; rewrite app_nil_r; exact (li_done L).
  - assert (EO : p_out p = []) by (destruct D as [D|D]; [congruence|]; exact (idle_out I D)).
    split; [|intros K; exfalso; cbn [p_hist with_se] in K; rewrite rounds_snoc in K; lia].
    constructor; cbn [p_out p_s p_hist with_se]; rewrite ?bkind_snoc.
    + rewrite EO. intros o [].
    + cbn. rewrite B. congruence.
    + intros _. unfold todo. cbn. rewrite EO, B. reflexivity.
    + exact (li_f L).
    + rewrite completed_app; cbn; rewrite app_nil_r; exact (li_done L).
  - assert (EO : p_out p = []) by (destruct D as [D|D]; [congruence|]; exact (idle_out I D)).
    split; [|intros K; exfalso; cbn [p_hist with_se] in K; rewrite rounds_snoc in K; lia].
    constructor; cbn [p_out p_s p_hist with_se]; rewrite ?bkind_snoc.
    + rewrite EO. intros o [].
    + intros _. reflexivity.
    + cbn. discriminate.
    + reflexivity.
    + rewrite completed_app; cbn; rewrite app_nil_r; exact (li_done L).
  - assert (KE : k = bkind (p_hist p)) by (rewrite D; apply (li_queue L); rewrite B; destruct q0; discriminate).
    split; [|intros _].
    + constructor; cbn [p_out p_s p_hist]; rewrite ?bkind_snoc.
      * intros o Ho. apply in_app_or in Ho. destruct Ho as [Ho|[<-|[]]]; [apply (li_kind L), Ho|exact KE].
      * intros Hq. rewrite <- (li_queue L); [reflexivity|]. rewrite B. destruct q0; discriminate.
      * cbn. congruence.
      * exact (li_f L).
      * rewrite completed_app; cbn; rewrite app_nil_r; exact (li_done L).
    + assert (ET : Permutation (todo p) (map (@o_x P) (p_out p ++ [mkOut (p_next p) k x None]) ++ q0)).
      { unfold todo. rewrite B, map_app, <- app_assoc. cbn [map o_x app]. apply Permutation_app_head. symmetry. apply Permutation_cons_append. }
      set (td := map (@o_x P) (p_out p ++ [mkOut (p_next p) k x None]) ++ q0) in *.
      set (p' := mkProc _ _ _ _ _ _).
      assert (ET' : todo p' = td) by reflexivity.
      assert (EK : bkind (p_hist p') = bkind (p_hist p)) by (unfold p'; cbn [p_hist]; rewrite bkind_snoc; reflexivity).
      constructor; rewrite ?EK, ?ET'; unfold p'; cbn [p_hist p_s p_e]; rewrite ?gens_app, ?restarts_app, ?completed_app, ?points_app, ?app_nil_r; try (cbn; lia).
      * reflexivity.
      * apply Permutation_app_head, ET.
      * apply Permutation_app; [cbn; rewrite ?app_nil_r; reflexivity|exact ET].
      * change (batch_queue (make_proposal x (set_batch_queue q0 (p_s p)))) with q0. rewrite B, rev_app_distr, <- app_assoc. reflexivity.
      * change (converged (make_proposal x (set_batch_queue q0 (p_s p)))) with (converged (p_s p)).
        destruct (od_perm HO (bkind (p_hist p)) (p_e p) ET) as [F1 F2]. split; [exact F1|]. cbn [fst snd] in *. rewrite F2. reflexivity.
  - split; [|intros _].
    + unfold do_accept. cbn [on_accepted get_ev]. apply (quiet_LInv (p := p)); auto; try reflexivity.
      * apply set_ev_xs.
      * intros o' Ho. apply in_set_ev in Ho. destruct Ho as [o1 [H1 [_ [_ [H2 _]]]]]. exists o1. auto.
      * right. eexists. split; [reflexivity|exact Logic.I].
    + unfold do_accept. cbn [on_accepted get_ev]. apply (@quiet p); try reflexivity; [apply set_ev_xs|]. right. eexists. split; [reflexivity|exact Logic.I].
  - assert (FR : ev_last (p_s p) < ev) by (eapply F; eauto).
    destruct (base_completed_fields c (o_id o) (o_x o) (f (o_x o)) ev (p_s p)) as [F1 [F2 [_ [_ [_ [F6 [F7 _]]]]]]].
    destruct (base_completed_data c (o_id o) (o_x o) (f (o_x o)) ev (p_s p)) as [G1 [_ [[_ [G2 [G3 _]]]|[G2 _]]]]; [|lia].
    assert (BC : converged (base_completed c (o_id o) (o_x o) (f (o_x o)) ev (p_s p)) = converged (p_s p)).
    { unfold base_completed. cbn. destruct (ev_last (p_s p) <? ev); reflexivity. }
    apply do_complete_ok in C. destruct C as [e' [lst [nx [cv [-> Hk]]]]].
    set (sb := base_completed c (o_id o) (o_x o) (f (o_x o)) ev (p_s p)) in *. clearbody sb.
    destruct (del_out_split _ _ (inv_nodup I) A) as [l1 [l2 [Eo Ed]]].
    set (td := map (@o_x P) (del_out (o_id o) (p_out p)) ++ batch_queue (p_s p)).
    assert (ET : Permutation (todo p) (o_x o :: td)).
    { unfold todo, td. rewrite Ed, Eo, !map_app. cbn [map]. rewrite <- !app_assoc. cbn [app]. symmetry. apply Permutation_middle. }
    assert (CV0 : converged (p_s p) = false).
    { destruct (converged (p_s p)) eqn:K; [|reflexivity]. pose proof (li_conv L K) as K1. apply Permutation_length in ET. rewrite K1 in ET. discriminate. }
    assert (EB : td = [] <-> batch_queue sb = [] /\ pending_evals sb = 0).
    { pose proof (del_out_length _ _ (inv_nodup I) A) as DL. rewrite F6, F2, (inv_pend I). unfold td. split.
      - intros K. apply app_eq_nil in K. destruct K as [K1 K2]. split; [exact K2|]. apply map_eq_nil in K1. rewrite K1 in DL. cbn in DL. lia.
      - intros [K1 K2]. rewrite K1, app_nil_r. destruct (del_out (o_id o) (p_out p)); [reflexivity|cbn in DL; lia]. }
    pose proof (li_kind L o A) as OK.
    set (p' := mkProc (set_converged cv (set_ev_next nx (set_ev_last lst sb))) e' (del_out (o_id o) (p_out p)) (p_ctl p) (p_next p) (p_hist p ++ [EvComplete (o_id o) (o_kind o) (o_x o) (f (o_x o))])).
    assert (ET' : todo p' = td).
    { unfold todo, p', td. cbn [p_out p_s]. change (batch_queue (set_converged cv (set_ev_next nx (set_ev_last lst sb)))) with (batch_queue sb). rewrite F6. reflexivity. }
    assert (EK : bkind (p_hist p') = bkind (p_hist p)) by (unfold p'; cbn [p_hist]; rewrite bkind_snoc; reflexivity).
    assert (FE : (td <> [] -> cv = false) /\ feq (fst (fut (bkind (p_hist p)) e' td), cv || snd (fut (bkind (p_hist p)) e' td)) (fut (bkind (p_hist p)) (p_e p) (o_x o :: td))).
    { rewrite <- OK. destruct (o_kind o) eqn:Ek.
      - destruct Hk as [K1 [_ [_ ->]]]. rewrite CV0. split; [reflexivity|]. exact (od_init HO _ _ _ _ td K1).
      - destruct Hk as [n [cv0 [K1 [-> _]]]]. rewrite CV0, orb_false_r. eapply (od_adapt HO); [exact K1|rewrite G1; exact FR|exact EB]. }
    destruct FE as [FE1 FE2].
    split; [|intros _].
    + constructor; rewrite ?EK, ?ET'.
      * intros o' Ho. apply in_del_out in Ho. apply (li_kind L), Ho.
      * unfold p'. cbn [p_s]. unfold phase_kind. change (batch_queue (set_converged cv (set_ev_next nx (set_ev_last lst sb)))) with (batch_queue sb).
        change (phase (set_converged cv (set_ev_next nx (set_ev_last lst sb)))) with (phase sb). rewrite F6, F7. exact (li_queue L).
      * unfold p'. cbn [p_s]. change (converged (set_converged cv (set_ev_next nx (set_ev_last lst sb)))) with cv. intros K. destruct td; [reflexivity|]. rewrite FE1 in K; discriminate.
      * unfold p'. cbn [p_s]. change (fX_ (set_converged cv (set_ev_next nx (set_ev_last lst sb)))) with (fX_ sb). change (X_ (set_converged cv (set_ev_next nx (set_ev_last lst sb)))) with (X_ sb).
        rewrite G2, G3, (li_f L), map_app. reflexivity.
      * unfold p'. cbn [p_hist]. rewrite completed_app, !map_app, (li_done L). reflexivity.
    + constructor; rewrite ?EK, ?ET'; unfold p'; cbn [p_hist p_s p_e]; rewrite ?gens_app, ?restarts_app, ?completed_app, ?points_app, ?app_length; try (cbn; lia).
      * reflexivity.
      * change (X_ (set_converged cv (set_ev_next nx (set_ev_last lst sb)))) with (X_ sb). rewrite G2, <- app_assoc. apply Permutation_app_head. exact ET.
      * rewrite map_app, <- app_assoc. apply Permutation_app_head. exact ET.
      * change (batch_queue (set_converged cv (set_ev_next nx (set_ev_last lst sb)))) with (batch_queue sb). rewrite F6. cbn. rewrite app_nil_r. reflexivity.
      * change (converged (set_converged cv (set_ev_next nx (set_ev_last lst sb)))) with cv. rewrite CV0. cbn [orb].
        apply feq_trans with (fut (bkind (p_hist p)) (p_e p) (o_x o :: td)); [|apply feq_sym; exact FE2].
        destruct (od_perm HO (bkind (p_hist p)) (p_e p) ET) as [F1' F2']. split; assumption.
Qed.

Lemma AInv_init : forall design e0 se, construct c hk design e0 = Ok se -> AInv (init_proc se).
Proof using.
  intros design e0 se H.
  assert (RR : reached c hk design e0 (init_proc se)).
  { exists []. left. unfold run, run_from, start. rewrite H. destruct se; reflexivity. }
  split; [eapply Inv_init; exact H|]. split; [eapply RunInv_reached; exact RR|].
  unfold construct in H. apply rbind_ok in H. destruct H as [s1 [H1 H2]]. injection H2 as <-.
  apply sample_initial_ok in H1. destruct H1 as [d [rows [-> [Er [Hl ->]]]]].
  split; [intros o ev []|]. split; [split; [intros x []|intros _; split; [constructor|reflexivity]]|].
  constructor; cbn; [intros o []|reflexivity|discriminate|reflexivity|reflexivity].
Qed.

Lemma AInv_step : forall p p', AInv p -> fmicro p p' -> AInv p'.
Proof using HO Hsync Hpeqb.
  intros p p' [I [R [F [XI L]]]] M. pose proof (fmicro_micro M) as M'.
  split; [exact (Inv_micro I M')|]. split; [exact (RunInv_micro I R M')|]. split; [exact (Fresh_micro Hsync (od_idle HO) I R F M')|].
  split; [exact (XpendInv_micro Hpeqb I XI M')|]. exact (proj1 (step_inv (conj I (conj R (conj F (conj XI L)))) M)).
Qed.
Lemma AInv_fmicros : forall p0 n p, AInv p0 -> fmicros p0 n p -> AInv p.
Proof using HO Hsync Hpeqb. intros p0 n p A M. induction M as [|n q r M IH N]; [exact A|]. exact (AInv_step IH N). Qed.

Lemma hist_fmicro : forall p p', fmicro p p' -> exists evs, p_hist p' = p_hist p ++ evs.
Proof using.
  intros p p' M. destruct M as [A B|A B|A B|A B C|n e' l A B C D E G H|n e' A B C D E G H|d rows A B C D E G H|q0 x k A B C D|o A B|o ev p' A B C]; try (eexists; reflexivity).
  apply do_complete_ok in C. destruct C as [e' [lst [nx [cv [-> Hk]]]]]. eexists; reflexivity.
Qed.
Lemma rounds_fmicro : forall p p', fmicro p p' -> rounds (p_hist p') = rounds (p_hist p) \/ rounds (p_hist p') = S (rounds (p_hist p)).
Proof using.
  intros p p' M. destruct M as [A B|A B|A B|A B C|n e' l A B C D E G H|n e' A B C D E G H|d rows A B C D E G H|q0 x k A B C D|o A B|o ev p' A B C];
    cbn [p_hist with_s with_se do_accept on_accepted get_ev]; rewrite ?rounds_snoc, ?app_nil_r; try lia.
  apply do_complete_ok in C. destruct C as [e' [lst [nx [cv [-> Hk]]]]]. cbn [p_hist]. rewrite rounds_snoc. lia.
Qed.

(** The state when a batch is finished. *)
Lemma barrier_sim : forall p1 p2, AInv p1 -> AInv p2 -> Rel p1 p2 -> todo p1 = [] -> todo p2 = [] -> Forall T (X_ (p_s p1)) ->
  phase (p_s p1) = 2%nat -> phase (p_s p2) = 2%nat -> similar (p_s p1) (p_s p2).
Proof using HO.
  intros p1 p2 [I1 [R1 [F1 [XI1 L1]]]] [I2 [R2 [F2 [XI2 L2]]]] RL T1 T2 HT PH1 PH2.
  pose proof (rel_X RL) as RX. rewrite T1, T2, !app_nil_r in RX.
  pose proof (rel_all RL) as RA. rewrite T1, T2, !app_nil_r in RA.
  unfold todo in T1, T2. apply app_eq_nil in T1, T2. destruct T1 as [O1 Q1]. destruct T2 as [O2 Q2].
  constructor; auto.
  - rewrite (inv_num I1), (inv_num I2). apply Permutation_length in RA. rewrite !map_length in RA. lia.
  - apply map_eq_nil in O1, O2. rewrite (inv_pend I1), (inv_pend I2), O1, O2.
    repeat split; auto.
    + destruct (Xpend (p_s p1)) as [|x l] eqn:K; [reflexivity|]. destruct XI1 as [XI _]. specialize (XI x). rewrite K, O1 in XI. destruct (XI (or_introl eq_refl)).
    + destruct (Xpend (p_s p2)) as [|x l] eqn:K; [reflexivity|]. destruct XI2 as [XI _]. specialize (XI x). rewrite K, O2 in XI. destruct (XI (or_introl eq_refl)).
  - split; [exact (li_f L1)|exact (li_f L2)].
  - rewrite (ri_sur R1), (ri_sur R2), (rel_restarts RL), (li_f L1), (li_f L2). apply Permutation_app_head.
    assert (CM : forall l : list P, combine l (map f l) = map (fun x => (x, f x)) l) by (induction l as [|a l IHl]; [reflexivity|cbn; congruence]).
    rewrite !CM. apply Permutation_map, RX.
  - rewrite (inv_fX I1), (inv_fX I2), !map_app, (li_done L1), (li_done L2). apply Permutation_app_head, Permutation_map, RA.
Qed.

Lemma starts_todo : forall p p', AInv p -> fmicro p p' -> rounds (p_hist p') <> rounds (p_hist p) -> todo p = [].
Proof using Hsync.
  intros p p' [I [R [F [XI L]]]] M N.
  destruct M as [A B|A B|A B|A B C|n e' l A B C D E G H|n e' A B C D E G H|d rows A B C D E G H|q0 x k A B C D|o A B|o ev p' A B C];
    cbn [p_hist with_s with_se do_accept on_accepted get_ev] in N; rewrite ?rounds_snoc, ?app_nil_r in N; try (exfalso; lia).
  - assert (EO : p_out p = []) by (destruct D as [D|D]; [congruence|]; exact (idle_out I D)). unfold todo. rewrite EO, B. reflexivity.
  - assert (EO : p_out p = []) by (destruct D as [D|D]; [congruence|]; exact (idle_out I D)). unfold todo. rewrite EO, B. reflexivity.
  - exact (li_conv L B).
  - apply do_complete_ok in C. destruct C as [e' [lst [nx [cv [-> Hk]]]]]. cbn [p_hist] in N. rewrite rounds_snoc in N. lia.
Qed.

(** What starting a batch does. *)
Inductive started (p : proc) : proc -> Prop :=
| st_gen : forall e' r, converged (p_s p) = false -> phase (p_s p) = 2%nat -> hk_generate hk (p_e p) (p_s p) (c_batch c) (draws (gens (p_hist p))) = Ok (e', r) ->
    forall p', p_e p' = e' -> p_out p' = p_out p -> X_ (p_s p') = X_ (p_s p) -> batch_queue (p_s p') = match r with Some l => l | None => [] end ->
    converged (p_s p') = match r with Some _ => false | None => true end -> p_hist p' = p_hist p ++ [EvGenerate (c_batch c) r] -> started p p'
| st_restart : forall d, converged (p_s p) = true -> designs (restarts (p_hist p)) = Ok d ->
    forall p', p_e p' = hk_sample_initial hk (p_e p) -> p_out p' = p_out p -> X_ (p_s p') = [] -> batch_queue (p_s p') = firstn (c_num_pts c) d ++ unk c (p_s p) ->
    converged (p_s p') = false -> p_hist p' = p_hist p ++ [EvRestart (firstn (c_num_pts c) d ++ unk c (p_s p))] -> started p p'.
Lemma starts_started : forall p p', AInv p -> fmicro p p' -> rounds (p_hist p') <> rounds (p_hist p) -> started p p'.
Proof using Hsync.
  intros p p' A0 M N. pose proof (starts_todo A0 M N) as TD.
  destruct M as [A B|A B|A B|A B C|n e' l A B C D E G H|n e' A B C D E G H|d rows A B C D E G H|q0 x k A B C D|o A B|o ev p' A B C];
    cbn [p_hist with_s with_se do_accept on_accepted get_ev] in N; rewrite ?rounds_snoc, ?app_nil_r in N; try (exfalso; lia).
  - rewrite Hsync in G. subst n. eapply (@st_gen p e' (Some l)); eauto.
  - rewrite Hsync in G. subst n. eapply (@st_gen p e' None); eauto.
  - subst rows. eapply (@st_restart p d); eauto.
    cbn [p_s with_se]. rewrite restarted_queue. unfold todo in TD. apply app_eq_nil in TD. destruct TD as [_ ->]. reflexivity.
  - exfalso. apply do_complete_ok in C. destruct C as [e' [lst [nx [cv [-> Hk]]]]]. cbn [p_hist] in N. rewrite rounds_snoc in N. lia.
Qed.

Lemma gen_rel : forall q1 q2 p1 p2, AInv q1 -> AInv q2 -> Rel q1 q2 -> Forall T (X_ (p_s q1)) ->
  fmicro q1 p1 -> fmicro q2 p2 -> rounds (p_hist p1) <> rounds (p_hist q1) -> rounds (p_hist p2) <> rounds (p_hist q2) -> Rel p1 p2.
Proof using HO Hsync.
  intros q1 q2 p1 p2 A1 A2 RL HT M1 M2 N1 N2.
  pose proof (starts_todo A1 M1 N1) as T1. pose proof (starts_todo A2 M2 N2) as T2.
  pose proof (starts_started A1 M1 N1) as S1. pose proof (starts_started A2 M2 N2) as S2.
  pose proof (rel_ext RL) as RE. rewrite T1, T2, !(od_nil HO) in RE. cbn [fst snd] in RE. rewrite !orb_false_r in RE. destruct RE as [RE1 RE2]. cbn [fst snd] in RE1, RE2.
  pose proof (rel_X RL) as RX. rewrite T1, T2, !app_nil_r in RX.
  pose proof (rel_all RL) as RA. rewrite T1, T2, !app_nil_r in RA.
  pose proof (rel_points RL) as RP.
  assert (OQ1 : p_out q1 = [] /\ batch_queue (p_s q1) = []) by (unfold todo in T1; apply app_eq_nil in T1; destruct T1 as [O Q]; apply map_eq_nil in O; auto).
  assert (OQ2 : p_out q2 = [] /\ batch_queue (p_s q2) = []) by (unfold todo in T2; apply app_eq_nil in T2; destruct T2 as [O Q]; apply map_eq_nil in O; auto).
  destruct OQ1 as [O1 Q1]. destruct OQ2 as [O2 Q2]. rewrite Q1, Q2 in RP. cbn [rev] in RP. rewrite !app_nil_r in RP.
  destruct S1 as [e1 r1 C1 P1 G1 p1 E1 F1 X1 B1 V1 H1|d1 C1 D1 p1 E1 F1 X1 B1 V1 H1]; destruct S2 as [e2 r2 C2 P2 G2 p2 E2 F2 X2 B2 V2 H2|d2 C2 D2 p2 E2 F2 X2 B2 V2 H2]; try congruence.
  - pose proof (barrier_sim A1 A2 RL T1 T2 HT P1 P2) as SM. rewrite (rel_gens RL) in G1.
    destruct (od_gen HO _ _ SM RE1 G1 G2) as [ER EE]. subst r2.
    assert (K1 : todo p1 = match r1 with Some l => l | None => [] end) by (unfold todo; rewrite F1, O1, B1; reflexivity).
    assert (K2 : todo p2 = match r1 with Some l => l | None => [] end) by (unfold todo; rewrite F2, O2, B2; reflexivity).
    constructor; rewrite ?H1, ?H2, ?K1, ?K2, ?V1, ?V2, ?E1, ?E2, ?X1, ?X2, ?gens_app, ?restarts_app, ?bkind_snoc, ?completed_app, ?points_app, ?B1, ?B2, ?app_length.
    + rewrite (rel_gens RL). reflexivity.
    + rewrite (rel_restarts RL). reflexivity.
    + rewrite (rel_kind RL). reflexivity.
    + apply Permutation_app_tail, RX.
    + apply Permutation_app_tail. cbn. rewrite !app_nil_r. exact RA.
    + rewrite RP. reflexivity.
    + rewrite (rel_kind RL). destruct (od_cong HO (match r1 with Some _ => KAdapt | None => bkind (p_hist q2) end) (match r1 with Some l => l | None => [] end) EE) as [Z1 Z2].
      split; [exact Z1|]. cbn [snd]. f_equal. exact Z2.
  - rewrite (rel_restarts RL) in D1. rewrite D1 in D2. injection D2 as <-.
    assert (EU : unk c (p_s q1) = unk c (p_s q2)).
    { destruct A1 as [I1 _]. destruct A2 as [I2 _]. unfold unk, extras_now. rewrite (inv_X I1), (inv_X I2), !map_length, !app_length. pose proof (Permutation_length RA) as RL'. rewrite !map_length in RL'. rewrite RL'. reflexivity. }
    rewrite <- EU in B2, H2. set (l := firstn (c_num_pts c) d1 ++ unk c (p_s q1)) in *.
    assert (K1 : todo p1 = l) by (unfold todo; rewrite F1, O1, B1; reflexivity).
    assert (K2 : todo p2 = l) by (unfold todo; rewrite F2, O2, B2; reflexivity).
    constructor; rewrite ?H1, ?H2, ?K1, ?K2, ?V1, ?V2, ?E1, ?E2, ?X1, ?X2, ?gens_app, ?restarts_app, ?bkind_snoc, ?completed_app, ?points_app, ?B1, ?B2, ?app_length.
    + rewrite (rel_gens RL). reflexivity.
    + rewrite (rel_restarts RL). reflexivity.
    + reflexivity.
    + reflexivity.
    + apply Permutation_app_tail. cbn. rewrite !app_nil_r. exact RA.
    + rewrite RP. reflexivity.
    + destruct (od_cong HO KInit l (od_restart HO RE1)) as [Z1 Z2]. split; [exact Z1|]. cbn [snd orb]. exact Z2.
Qed.

(** All points that are fixed to be proposed. *)
Definition plan (p : proc) : list P := proposed_points (p_hist p) ++ rev (batch_queue (p_s p)).

Lemma plan_grows : forall p p', AInv p -> fmicro p p' -> prefix (plan p) (plan p').
Proof using HO Hsync Hpeqb.
  intros p p' A M. destruct (rounds_fmicro M) as [E|E].
  - exists []. rewrite app_nil_r. symmetry. exact (rel_points (proj2 (step_inv A M) E)).
  - assert (N : rounds (p_hist p') <> rounds (p_hist p)) by lia. pose proof (starts_todo A M N) as TD. pose proof (starts_started A M N) as S1.
    unfold todo in TD. apply app_eq_nil in TD. destruct TD as [_ Q].
    unfold prefix, plan. rewrite Q. cbn [rev]. rewrite app_nil_r. destruct S1 as [e1 r1 C1 P1 G1 p1 E1 F1 X1 B1 V1 H1|d1 C1 D1 p1 E1 F1 X1 B1 V1 H1]; rewrite H1, points_app; cbn; rewrite app_nil_r; eauto.
Qed.
Lemma completed_grows : forall p p', fmicro p p' -> exists r, completed (p_hist p') = completed (p_hist p) ++ r.
Proof using. intros p p' M. destruct (hist_fmicro M) as [evs ->]. rewrite completed_app. eauto. Qed.

Definition Tdone (p : proc) : Prop := forall x v, In (x, v) (completed (p_hist p)) -> T x.
Lemma Tdone_X : forall p, AInv p -> Tdone p -> Forall T (X_ (p_s p)).
Proof using.
  intros p [I [R [F [XI L]]]] H. apply Forall_forall. intros x Hx.
  assert (IC : In (x, f x) (combine (X_ (p_s p)) (fX_ (p_s p)))).
  { rewrite (li_f L). clear - Hx. induction (X_ (p_s p)) as [|a l IH]; [destruct Hx|]. destruct Hx as [->|Hx]; [left; reflexivity|right; apply IH, Hx]. }
  apply (H x (f x)). apply run_data_completed. exact (@subseq_In _ _ _ _ (ri_sub R) IC).
Qed.

Lemma prefix_refl : forall l : list P, prefix l l.
Proof using. intros. exists []. symmetry. apply app_nil_r. Qed.
Lemma prefix_trans : forall a b d : list P, prefix a b -> prefix b d -> prefix a d.
Proof using. intros a b d [r ->] [r' ->]. exists (r ++ r'). symmetry. apply app_assoc. Qed.

Lemma rounds_mono : forall p0 n p, fmicros p0 n p -> (rounds (p_hist p0) <= rounds (p_hist p))%nat.
Proof using. intros p0 n p M. induction M as [|n q r M IH N]; [lia|]. destruct (rounds_fmicro N); lia. Qed.

Lemma main : forall N p0 n1 n2 p1 p2, (n1 + n2 <= N)%nat -> AInv p0 -> fmicros p0 n1 p1 -> fmicros p0 n2 p2 -> Tdone p1 -> Tdone p2 ->
  (rounds (p_hist p1) = rounds (p_hist p2) -> Rel p1 p2) /\ ((rounds (p_hist p1) <= rounds (p_hist p2))%nat -> prefix (plan p1) (plan p2)).
Proof using HO Hsync Hpeqb.
  induction N as [|N IHN]; intros p0 n1 n2 p1 p2 HN A0 M1 M2 TD1 TD2.
  - assert (n1 = 0%nat) by lia. assert (n2 = 0%nat) by lia. subst. inversion M1; inversion M2; subst. split; [intros _; apply Rel_refl|intros _; apply prefix_refl].
  - assert (TDS : forall p p' : proc, fmicro p p' -> Tdone p' -> Tdone p).
    { intros p p' M H x v Hx. destruct (completed_grows M) as [r E]. apply (H x v). rewrite E. apply in_or_app. auto. }
    assert (A1 : AInv p1) by exact (AInv_fmicros A0 M1). assert (A2 : AInv p2) by exact (AInv_fmicros A0 M2).
    assert (REL : rounds (p_hist p1) = rounds (p_hist p2) -> Rel p1 p2).
    { intros ER. inversion M1 as [E1|m1 q1 r1 M1' N1 E1]; subst.
      - inversion M2 as [E2|m2 q2 r2 M2' N2 E2]; subst; [apply Rel_refl|].
        assert (R2 : rounds (p_hist q2) = rounds (p_hist p2)) by (pose proof (rounds_mono M2'); destruct (rounds_fmicro N2); lia).
        apply Rel_trans with q2.
        + apply (fun K => proj1 (IHN p1 0%nat m2 p1 q2 K A0 M1 M2' TD1 (TDS _ _ N2 TD2))); [lia|congruence].
        + apply (proj2 (step_inv (AInv_fmicros A0 M2') N2)). congruence.
      - destruct (rounds_fmicro N1) as [R1|R1].
        + apply Rel_trans with q1.
          * apply Rel_sym. apply (proj2 (step_inv (AInv_fmicros A0 M1') N1)). congruence.
          * apply (fun K => proj1 (IHN p0 m1 n2 q1 p2 K A0 M1' M2 (TDS _ _ N1 TD1) TD2)); [lia|congruence].
        + inversion M2 as [E2|m2 q2 r2 M2' N2 E2]; subst; [pose proof (rounds_mono M1'); lia|].
          destruct (rounds_fmicro N2) as [R2|R2].
          * apply Rel_trans with q2.
            -- apply (fun K => proj1 (IHN p0 (S m1) m2 p1 q2 K A0 M1 M2' TD1 (TDS _ _ N2 TD2))); [lia|congruence].
            -- apply (proj2 (step_inv (AInv_fmicros A0 M2') N2)). congruence.
          * assert (K : Rel q1 q2) by (apply (fun K => proj1 (IHN p0 m1 m2 q1 q2 K A0 M1' M2' (TDS _ _ N1 TD1) (TDS _ _ N2 TD2))); lia).
            apply (@gen_rel q1 q2 p1 p2 (AInv_fmicros A0 M1') (AInv_fmicros A0 M2') K); auto; try lia.
            apply Tdone_X; [exact (AInv_fmicros A0 M1')|exact (TDS _ _ N1 TD1)]. }
    split; [exact REL|]. intros LE.
    destruct (Nat.eq_dec (rounds (p_hist p1)) (rounds (p_hist p2))) as [C|C].
    + pose proof (rel_points (REL C)) as RP. fold (plan p1) (plan p2) in RP. rewrite RP. apply prefix_refl.
    + inversion M2 as [E2|m2 q2 r2 M2' N2 E2]; subst; [pose proof (rounds_mono M1); lia|].
      eapply prefix_trans; [|exact (plan_grows (AInv_fmicros A0 M2') N2)].
      apply (fun K => proj2 (IHN p0 n1 m2 p1 q2 K A0 M1 M2' TD1 (TDS _ _ N2 TD2))); [lia|destruct (rounds_fmicro N2); lia].
Qed.

(** Every proposed point is completed or outstanding; the termination flag is set by the budget only. *)
Record Bal (p : proc) : Prop := mkBal {
  bal_pts : Permutation (map (fun x => (x, f x)) (proposed_points (p_hist p))) (completed (p_hist p) ++ map (fun o => (o_x o, f (o_x o))) (p_out p));
  bal_flag : terminate (p_s p) = true -> c_max_evals c <= num_evals (p_s p) + pending_evals (p_s p);
  bal_term : In (@EvTerminate P V) (p_hist p) -> c_max_evals c <= num_evals (p_s p)
}.
Lemma Bal_quiet : forall p s' out' evs ctl' nx' e', Bal p ->
  num_evals s' = num_evals (p_s p) -> pending_evals s' = pending_evals (p_s p) -> map (fun o => (o_x o, f (o_x o))) out' = map (fun o => (o_x o, f (o_x o))) (p_out p) ->
  (terminate s' = true -> terminate (p_s p) = true \/ c_max_evals c <= num_evals (p_s p) + pending_evals (p_s p)) ->
  (evs = [] \/ exists ev, evs = [ev] /\ match ev with EvPropose _ _ _ | EvComplete _ _ _ _ => False | EvTerminate => c_max_evals c <= num_evals (p_s p) | _ => True end) ->
  Bal (mkProc s' e' out' ctl' nx' (p_hist p ++ evs)).
Proof using.
  intros p s' out' evs ctl' nx' e' [A B C] Q1 Q2 Q3 Q4 HE. constructor; cbn [p_hist p_out p_s].
  - rewrite Q3, points_app, completed_app. destruct HE as [->|[ev [-> He]]]; [cbn; rewrite !app_nil_r; exact A|]. destruct ev; try contradiction; cbn; rewrite !app_nil_r; exact A.
  - rewrite Q1, Q2. intros H. destruct (Q4 H); auto.
  - rewrite Q1. intros H. apply in_app_or in H. destruct H as [H|H]; [auto|]. destruct HE as [->|[ev [-> He]]]; [destruct H|]. destruct H as [->|[]]. exact He.
Qed.
Lemma Bal_step : forall p p', Inv c p -> Bal p -> fmicro p p' -> Bal p'.
Proof using.
  intros p p' I Bp M.
  destruct M as [A B|A B|A B|A B C|n e' l A B C D E G H|n e' A B C D E G H|d rows A B C D E G H|q0 x k A B C D|o A B|o ev p' A B C].
  - apply Bal_quiet; [exact Bp|reflexivity|reflexivity|reflexivity|intros _; destruct A; auto|]. right. eexists. split; [reflexivity|exact Logic.I].
  - assert (K : c_max_evals c <= num_evals (p_s p) + pending_evals (p_s p)) by (destruct A as [A|A]; [exact (bal_flag Bp A)|exact A]).
    apply Bal_quiet; auto. right. eexists. split; [reflexivity|cbn; lia].
  - apply Bal_quiet; auto. right. eexists. split; [reflexivity|exact Logic.I].
  - apply Bal_quiet; auto.
  - apply Bal_quiet; auto. right. eexists. split; [reflexivity|exact Logic.I].
  - apply Bal_quiet; auto. right. eexists. split; [reflexivity|exact Logic.I].
  - apply Bal_quiet; auto. right. eexists. split; [reflexivity|exact Logic.I].
  - destruct Bp as [B1 B2 B3]. constructor; cbn [p_hist p_out p_s].
    + rewrite points_app, completed_app, !map_app. cbn. rewrite app_nil_r, app_assoc. apply Permutation_app_tail, B1.
    + change (terminate (make_proposal x (set_batch_queue q0 (p_s p)))) with (terminate (p_s p)). destruct A as [A _]. congruence.
    + intros H. apply in_app_or in H. destruct H as [H|[H|[]]]; [exact (B3 H)|discriminate].
  - unfold do_accept. cbn [on_accepted get_ev]. apply Bal_quiet; auto.
    + transitivity (map (fun x => (x, f x)) (map (@o_x P) (set_ev (o_id o) (ev_next (set_accepted_count (accepted_count (p_s p) + 1) (p_s p))) (p_out p)))); [rewrite map_map; reflexivity|].
      rewrite set_ev_xs, map_map. reflexivity.
    + right. eexists. split; [reflexivity|exact Logic.I].
  - destruct Bp as [B1 B2 B3].
    destruct (base_completed_fields c (o_id o) (o_x o) (f (o_x o)) ev (p_s p)) as [F1 [F2 _]].
    assert (BT : terminate (base_completed c (o_id o) (o_x o) (f (o_x o)) ev (p_s p)) = terminate (p_s p)).
    { unfold base_completed. cbn. destruct (ev_last (p_s p) <? ev); reflexivity. }
    apply do_complete_ok in C. destruct C as [e' [lst [nx [cv [-> Hk]]]]].
    set (sb := base_completed c (o_id o) (o_x o) (f (o_x o)) ev (p_s p)) in *. clearbody sb.
    destruct (del_out_split _ _ (inv_nodup I) A) as [l1 [l2 [Eo Ed]]].
    constructor; cbn [p_hist p_out p_s].
    + rewrite points_app, completed_app, Ed. rewrite Eo in B1. cbn. rewrite app_nil_r, <- app_assoc. eapply Permutation_trans; [exact B1|].
      apply Permutation_app_head. rewrite !map_app. cbn. symmetry. apply Permutation_middle.
    + change (terminate (set_converged cv (set_ev_next nx (set_ev_last lst sb)))) with (terminate sb).
      change (num_evals (set_converged cv (set_ev_next nx (set_ev_last lst sb)))) with (num_evals sb).
      change (pending_evals (set_converged cv (set_ev_next nx (set_ev_last lst sb)))) with (pending_evals sb). rewrite BT, F1, F2. intros K. specialize (B2 K). lia.
    + change (num_evals (set_converged cv (set_ev_next nx (set_ev_last lst sb)))) with (num_evals sb). rewrite F1. intros H. apply in_app_or in H. destruct H as [H|[H|[]]]; [specialize (B3 H); lia|discriminate].
Qed.
Lemma Bal_fmicros : forall p0 n p, AInv p0 -> Bal p0 -> fmicros p0 n p -> Bal p.
Proof using HO Hsync Hpeqb.
  intros p0 n p A B M. induction M as [|n q r M IH N]; [exact B|]. pose proof (AInv_fmicros A M) as [I _]. exact (Bal_step I IH N).
Qed.
Lemma Bal_init : forall design e0 se, construct c hk design e0 = Ok se -> Bal (init_proc se).
Proof using.
  intros design e0 se H. unfold construct in H. apply rbind_ok in H. destruct H as [s1 [H1 H2]]. injection H2 as <-.
  apply sample_initial_ok in H1. destruct H1 as [d [rows [-> [Er [Hl ->]]]]]. constructor; cbn; [constructor|discriminate|intros []].
Qed.

Lemma prefix_full : forall l l' : list P, prefix l l' -> length l = length l' -> l = l'.
Proof using. intros l l' [r ->] E. rewrite app_length in E. destruct r; [symmetry; apply app_nil_r|cbn in E; lia]. Qed.
Lemma prefix_cut : forall a b r r' : list P, prefix (a ++ r) (b ++ r') -> prefix a b \/ prefix b a.
Proof using.
  induction a as [|x a IH]; intros b r r' [q E]; [left; exists b; reflexivity|]. destruct b as [|y b]; [right; exists (x :: a); reflexivity|].
  cbn in E. injection E as <- E. destruct (IH b r r') as [[w ->]|[w ->]]; [exists q; exact E|left; exists w; reflexivity|right; exists w; reflexivity].
Qed.

(** ** The theorem, for any subclass with the properties above *)
Theorem order_free_runs : forall design e0 ms1 ms2 p1 p2,
  y_proc (play design e0 ms1) = Some p1 -> y_proc (play design e0 ms2) = Some p2 ->
  (forall x v, In (x, v) (completed (p_hist p1)) \/ In (x, v) (completed (p_hist p2)) -> T x) ->
  same_course (p_hist p1) (p_hist p2).
Proof using HO Hsync Hpeqb.
  intros design e0 ms1 ms2 p1 p2 H1 H2 HT.
  destruct (play_fmicros _ _ _ H1) as [se [E1 [n1 M1]]]. destruct (play_fmicros _ _ _ H2) as [se2 [E2 [n2 M2]]].
  rewrite E1 in E2. injection E2 as <-. pose proof (AInv_init _ _ E1) as A0. pose proof (Bal_init _ _ E1) as B0.
  assert (TD1 : Tdone p1) by (intros x v Hx; apply (HT x v); auto). assert (TD2 : Tdone p2) by (intros x v Hx; apply (HT x v); auto).
  pose proof (main (le_n _) A0 M1 M2 TD1 TD2) as [_ K1]. pose proof (main (le_n _) A0 M2 M1 TD2 TD1) as [_ K2].
  assert (PR : prefix (proposed_points (p_hist p1)) (proposed_points (p_hist p2)) \/ prefix (proposed_points (p_hist p2)) (proposed_points (p_hist p1))).
  { destruct (Nat.le_ge_cases (rounds (p_hist p1)) (rounds (p_hist p2))) as [C|C].
    - exact (prefix_cut _ _ _ _ (K1 C)).
    - destruct (prefix_cut _ _ _ _ (K2 C)); auto. }
  destruct (AInv_fmicros A0 M1) as [I1 _]. destruct (AInv_fmicros A0 M2) as [I2 _].
  pose proof (Bal_fmicros A0 B0 M1) as Bl1. pose proof (Bal_fmicros A0 B0 M2) as Bl2.
  assert (SEC : outstanding (p_hist p1) = [] -> outstanding (p_hist p2) = [] -> length (completed (p_hist p1)) = length (completed (p_hist p2)) ->
    proposed_points (p_hist p1) = proposed_points (p_hist p2) /\ Permutation (completed (p_hist p1)) (completed (p_hist p2))).
  { intros O1 O2 EL. rewrite (inv_out I1) in O1. rewrite (inv_out I2) in O2. apply map_eq_nil in O1, O2.
    pose proof (bal_pts Bl1) as Q1. pose proof (bal_pts Bl2) as Q2. rewrite O1 in Q1. rewrite O2 in Q2. cbn [map] in Q1, Q2. rewrite app_nil_r in Q1, Q2.
    pose proof (Permutation_length Q1) as L1. pose proof (Permutation_length Q2) as L2. rewrite map_length in L1, L2.
    assert (EQ : proposed_points (p_hist p1) = proposed_points (p_hist p2)) by (destruct PR as [PR|PR]; apply prefix_full in PR; auto; congruence).
    split; [exact EQ|]. rewrite EQ in Q1. eapply Permutation_trans; [apply Permutation_sym, Q1|exact Q2]. }
  split; [exact PR|]. split; [intros O1 O2 EL; exact (proj2 (SEC O1 O2 EL))|].
  intros X1 X2. pose proof (bal_term Bl1 X1) as Y1. pose proof (bal_term Bl2 X2) as Y2. pose proof (inv_bud I1) as U1. pose proof (inv_bud I2) as U2.
  pose proof (inv_pend I1) as V1. pose proof (inv_pend I2) as V2. pose proof (inv_num I1) as W1. pose proof (inv_num I2) as W2.
  apply SEC.
  - rewrite (inv_out I1). destruct (p_out p1); [reflexivity|cbn [length] in V1; lia].
  - rewrite (inv_out I2). destruct (p_out p2); [reflexivity|cbn [length] in V2; lia].
  - lia.
Qed.
End Play.
