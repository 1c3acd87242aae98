(** * Proofs about the strategy model: micro-steps and invariants. *)
From Coq Require Import List Arith ZArith Lia Bool Permutation.
From Verif Require Import Base Strategy StrategySpec.
Import ListNotations.
Local Open Scope Z_scope.

Set Implicit Arguments.

Section Proofs.
Variables P V Ext Orc : Type.
Variable c : cfg P V.
Variable hk : hooks P V Ext Orc.
Notation proc := (proc P V Ext).
Notation base := (base P V).

(** ** Characterisation of sample_initial *)

Definition extras_now (s : base) : bool := (length (X s) =? 0)%nat.
Definition kn (s : base) : list (P * V) := if extras_now s then known c else [].
Definition unk (s : base) : list P := if extras_now s then unknown c else [].

Lemma add_extra_None : forall pts s s',
  add_extra c pts None s = Ok s' ->
  s' = set_batch_queue (batch_queue s ++ pts) s.
Proof.
  induction pts as [|x pts IH]; intros s s' H; simpl in H.
  - injection H as <-. rewrite app_nil_r. destruct s; reflexivity.
  - apply IH in H. subst s'. simpl. rewrite <- app_assoc. destruct s; reflexivity.
Qed.

Lemma add_extra_Some : forall pts vals s s',
  add_extra c pts (Some vals) s = Ok s' ->
  let k := known_extras (c_isnan c) pts vals in
  s' = set_sur (sur s ++ k)
        (set_fX (fX s ++ map snd k)
          (set_X (X s ++ map fst k)
            (set_batch_queue (batch_queue s ++ unknown_extras (c_isnan c) pts vals) s))).
Proof.
  induction pts as [|x pts IH]; intros vals s s' H; simpl in H.
  - injection H as <-. simpl. rewrite !app_nil_r. destruct s; reflexivity.
  - destruct vals as [|v vals]; [discriminate|].
    destruct (c_isnan c v) eqn:E; apply IH in H; subst s'; simpl; rewrite E; simpl;
      rewrite <- ?app_assoc; destruct s; reflexivity.
Qed.

Lemma take_rows_ok : forall n (l r : list P),
  take_rows n l = Ok r -> r = firstn n l /\ length r = n.
Proof.
  induction n as [|n IH]; intros l r H; simpl in H.
  - injection H as <-. destruct l; split; reflexivity.
  - destruct l as [|x l]; [discriminate|].
    destruct (take_rows n l) as [r'|e] eqn:E; simpl in H; [|discriminate].
    injection H as <-. destruct (IH _ _ E) as [E1 E2]. simpl. rewrite <- E1. split; congruence.
Qed.

Lemma take_rows_total : forall n (l : list P), (n <= length l)%nat ->
  take_rows n l = Ok (firstn n l).
Proof.
  induction n as [|n IH]; intros l H; simpl; [destruct l; reflexivity|].
  destruct l as [|x l]; simpl in *; [lia|]. rewrite IH by lia. reflexivity.
Qed.

Lemma sample_initial_ok : forall design s s',
  sample_initial c design s = Ok s' ->
  exists d rows, design = Ok d /\ rows = firstn (c_num_pts c) d /\
    length rows = c_num_pts c /\
    s' = set_sur (kn s)
          (set_fX (fX s ++ map snd (kn s))
            (set_X (X s ++ map fst (kn s))
              (set_batch_queue (batch_queue s ++ rows ++ unk s) s))).
Proof.
  intros design s s' H. unfold sample_initial in H.
  destruct design as [d|e]; simpl in H; [|discriminate].
  destruct (take_rows (c_num_pts c) d) as [rows|e] eqn:E; simpl in H; [|discriminate].
  destruct (take_rows_ok _ _ E) as [E1 E2].
  exists d, rows. repeat split; auto.
  unfold kn, unk, extras_now, known, unknown.
  destruct (c_extra c) as [pts|].
  - destruct ((length (X s) =? 0)%nat) eqn:EX.
    + destruct (c_extra_vals c) as [vals|].
      * apply add_extra_Some in H. subst s'. simpl. rewrite <- app_assoc.
        destruct s; reflexivity.
      * apply add_extra_None in H. subst s'. simpl. rewrite !app_nil_r, <- app_assoc.
        destruct s; reflexivity.
    + injection H as <-. simpl. rewrite !app_nil_r. destruct s; reflexivity.
  - injection H as <-. simpl. destruct ((length (X s) =? 0)%nat); simpl;
      rewrite !app_nil_r; destruct s; reflexivity.
Qed.

Definition restarted (rows : list P) (s : base) : base :=
  set_sur (kn s)
    (set_fX (fX s ++ map snd (kn s))
      (set_X (X s ++ map fst (kn s))
        (set_batch_queue (batch_queue s ++ rows ++ unk s)
          (set_phase 1%nat (set_converged false (set_fX_ [] (set_X_ [] (bump s)))))))).

Lemma sample_restart_ok : forall design s e s' e',
  sample_restart c hk design (s, e) = Ok (s', e') ->
  e' = hk_sample_initial hk e /\
  exists d rows, design = Ok d /\ rows = firstn (c_num_pts c) d /\
    length rows = c_num_pts c /\ s' = restarted rows s.
Proof.
  intros design s e s' e' H. unfold sample_restart in H.
  apply rbind_ok in H. destruct H as [s1 [H1 H2]]. injection H2 as <- <-.
  split; [reflexivity|].
  apply sample_initial_ok in H1. destruct H1 as [d [rows [E1 [E2 [E3 E4]]]]].
  exists d, rows. repeat split; auto.
Qed.

(** ** Micro-steps *)

Definition with_s (s : base) (evs : list (event P V)) (p : proc) : proc :=
  mkProc s (p_e p) (p_out p) (p_ctl p) (p_next p) (p_hist p ++ evs).
Definition with_se (s : base) (e : Ext) (evs : list (event P V)) (p : proc) : proc :=
  mkProc s e (p_out p) (p_ctl p) (p_next p) (p_hist p ++ evs).

Definition phase_kind (s : base) : kind := if (phase s =? 1)%nat then KInit else KAdapt.

Definition below (s : base) : Prop :=
  terminate s = false /\ num_evals s + pending_evals s < c_max_evals c.
Definition at_stop (s : base) : Prop :=
  terminate s = true \/ c_max_evals c <= num_evals s + pending_evals s.
Definition may_generate (s : base) : Prop :=
  c_async c = true \/ pending_evals s = 0.

Inductive micro (p : proc) : proc -> Prop :=
| mi_wait : at_stop (p_s p) -> pending_evals (p_s p) <> 0 ->
    micro p (with_s (set_terminate true (p_s p)) [EvNone] p)
| mi_term : at_stop (p_s p) -> pending_evals (p_s p) = 0 ->
    micro p (with_s (set_terminate true (p_s p)) [EvTerminate] p)
| mi_none : below (p_s p) ->
    (converged (p_s p) = true \/ batch_queue (p_s p) = []) ->
    micro p (with_s (p_s p) [EvNone] p)
| mi_phase : below (p_s p) -> batch_queue (p_s p) = [] -> converged (p_s p) = false ->
    micro p (with_s (set_phase 2%nat (p_s p)) [] p)
| mi_gen : forall n o e' l, below (p_s p) -> batch_queue (p_s p) = [] ->
    converged (p_s p) = false -> may_generate (p_s p) -> phase (p_s p) = 2%nat ->
    n = (if c_async c then 1%nat else c_batch c) ->
    hk_generate hk (p_e p) (p_s p) n o = Ok (e', Some l) ->
    micro p (with_se (set_batch_queue l (p_s p)) e' [EvGenerate n (Some l)] p)
| mi_conv : forall n o e', below (p_s p) -> batch_queue (p_s p) = [] ->
    converged (p_s p) = false -> may_generate (p_s p) -> phase (p_s p) = 2%nat ->
    n = (if c_async c then 1%nat else c_batch c) ->
    hk_generate hk (p_e p) (p_s p) n o = Ok (e', None) ->
    micro p (with_se (set_converged true (p_s p)) e' [EvGenerate n None] p)
| mi_restart : forall d rows, below (p_s p) -> converged (p_s p) = true ->
    c_restarts c = true -> may_generate (p_s p) ->
    rows = firstn (c_num_pts c) d -> length rows = c_num_pts c ->
    micro p (with_se (restarted rows (p_s p)) (hk_sample_initial hk (p_e p))
                     [EvRestart (rows ++ unk (p_s p))] p)
| mi_propose : forall q x k, below (p_s p) -> batch_queue (p_s p) = q ++ [x] ->
    converged (p_s p) = false -> k = phase_kind (p_s p) ->
    micro p (mkProc (make_proposal x (set_batch_queue q (p_s p))) (p_e p)
                    (p_out p ++ [mkOut (p_next p) k x None]) (p_ctl p) (S (p_next p))
                    (p_hist p ++ [EvPropose (p_next p) k x]))
| mi_accept : forall o, In o (p_out p) -> o_ev o = None -> micro p (do_accept o p)
| mi_reject : forall o, In o (p_out p) -> o_ev o = None -> micro p (do_reject c o p)
| mi_complete : forall o ev v p', In o (p_out p) -> o_ev o = Some ev ->
    do_complete c hk o ev v p = Ok p' -> micro p p'
| mi_abort : forall o ev, In o (p_out p) -> o_ev o = Some ev -> micro p (do_abort c o p)
| mi_stop : micro p (with_s (set_terminate true (p_s p)) [EvStop] p)
| mi_resume : micro p (do_resume p).

Inductive micros : proc -> proc -> Prop :=
| ms_refl : forall p, micros p p
| ms_step : forall p q r, micros p q -> micro q r -> micros p r.

Lemma micros_trans : forall p q r, micros p q -> micros q r -> micros p r.
Proof. intros p q r H1 H2. induction H2; eauto using ms_step. Qed.

Lemma micros_one : forall p q, micro p q -> micros p q.
Proof. intros. eapply ms_step; [apply ms_refl|assumption]. Qed.

Lemma restarted_queue : forall rows s,
  batch_queue (restarted rows s) = batch_queue s ++ rows ++ unk s.
Proof. reflexivity. Qed.

Lemma kind_eq_proc : forall s e out ctl nx h1 h2,
  h1 = h2 -> @mkProc P V Ext s e out ctl nx h1 = mkProc s e out ctl nx h2.
Proof. intros; congruence. Qed.

(** The restart branch followed by init_proposal, from a process with pending events. *)
Lemma restart_branch_micros : forall p design out s' e' evs,
  below (p_s p) -> converged (p_s p) = true -> c_restarts c = true ->
  restart_branch c hk design (p_s p) (p_e p) = Ok (out, (s', e'), evs) ->
  (out = ONone /\ s' = p_s p /\ e' = p_e p /\ evs = []) \/
  (exists x, out = OEval KInit x /\
   micros p (mkProc s' e' (p_out p ++ [mkOut (p_next p) KInit x None]) (p_ctl p)
                    (S (p_next p)) (p_hist p ++ evs ++ [EvPropose (p_next p) KInit x]))).
Proof.
  intros p design out s' e' evs Hb Hc Hr H. unfold restart_branch in H.
  destruct (c_async c || (pending_evals (p_s p) =? 0)) eqn:Eg.
  2:{ injection H as <- <- <- <-. left. repeat split; reflexivity. }
  apply rbind_ok in H. destruct H as [[s1 e1] [H1 H2]].
  apply rbind_ok in H2. destruct H2 as [[o2 s2] [H2 H3]].
  simpl in H2, H3. injection H3 as <- <- <- <-. right.
  apply sample_restart_ok in H1. destruct H1 as [-> [d [rows [-> [Er [Hl ->]]]]]].
  unfold init_proposal in H2.
  destruct (py_pop (batch_queue (restarted rows (p_s p)))) as [[x q]|] eqn:Ep; [|discriminate].
  injection H2 as <- <-. apply py_pop_some in Ep.
  exists x. split; [reflexivity|].
  eapply ms_step; [apply micros_one; eapply (@mi_restart p d rows); auto|].
  - unfold may_generate. apply orb_true_iff in Eg. destruct Eg as [Eg|Eg]; [auto|].
    right. apply Z.eqb_eq; assumption.
  - match goal with |- micro ?p1 ?p2 => assert (M : micro p1
      (mkProc (make_proposal x (set_batch_queue q (p_s p1))) (p_e p1)
                    (p_out p1 ++ [mkOut (p_next p1) KInit x None]) (p_ctl p1) (S (p_next p1))
                    (p_hist p1 ++ [EvPropose (p_next p1) KInit x]))) end.
    { apply mi_propose; auto. }
    simpl in M. rewrite <- app_assoc in M.
    replace (skipn (length (batch_queue (p_s p))) (batch_queue (restarted rows (p_s p))))
      with (rows ++ unk (p_s p)).
    + exact M.
    + rewrite restarted_queue, skipn_app, skipn_all, Nat.sub_diag. reflexivity.
Qed.

Lemma adapt_proposal_micro : forall p o s',
  below (p_s p) -> converged (p_s p) = false -> phase_kind (p_s p) = KAdapt ->
  adapt_proposal (p_s p) = (o, s') ->
  match o with
  | OEval k x =>
     micro p (mkProc s' (p_e p) (p_out p ++ [mkOut (p_next p) k x None]) (p_ctl p)
                    (S (p_next p)) (p_hist p ++ [EvPropose (p_next p) k x]))
  | ONone => micro p (with_s s' [EvNone] p)
  | OTerminate => False
  end.
Proof.
  intros p o s' Hb Hc Hk H. unfold adapt_proposal in H.
  destruct (py_pop (batch_queue (p_s p))) as [[x q]|] eqn:Ep; injection H as <- <-.
  - apply py_pop_some in Ep. apply mi_propose; auto.
  - apply py_pop_none in Ep. apply mi_none; auto.
Qed.

Definition outcome_proc (p : proc) (out : outcome P) (s : base) (e : Ext)
           (evs : list (event P V)) : proc :=
  match out with
  | OEval k x =>
    mkProc s e (p_out p ++ [mkOut (p_next p) k x None]) (p_ctl p) (S (p_next p))
           (p_hist p ++ evs ++ [EvPropose (p_next p) k x])
  | OTerminate => mkProc s e (p_out p) (p_ctl p) (p_next p) (p_hist p ++ evs ++ [EvTerminate])
  | ONone => mkProc s e (p_out p) (p_ctl p) (p_next p) (p_hist p ++ evs ++ [EvNone])
  end.

Lemma propose_micros : forall p design o out p',
  do_propose c hk design o p = Ok (out, p') -> micros p p'.
Proof.
  intros p design o out p' H. unfold do_propose in H.
  apply rbind_ok in H. destruct H as [[[out1 [s1 e1]] evs] [H H2]].
  injection H2 as <- <-. fold (outcome_proc p out1 s1 e1 evs).
  unfold propose_action in H.
  assert (Hct : (at_stop (p_s p) /\ check_termination c (p_s p) = set_terminate true (p_s p))
             \/ (below (p_s p) /\ check_termination c (p_s p) = p_s p)).
  { unfold check_termination, at_stop, below.
    destruct (c_max_evals c <=? num_evals (p_s p) + pending_evals (p_s p)) eqn:E.
    - left. apply Z.leb_le in E. auto.
    - apply Z.leb_gt in E. destruct (terminate (p_s p)) eqn:Et.
      + left. split; auto. destruct (p_s p); simpl in *; subst; reflexivity.
      + right. auto. }
  destruct Hct as [[Hst Hct]|[Hb Hct]]; rewrite Hct in H.
  - simpl in H. destruct (pending_evals (p_s p) =? 0) eqn:E; injection H as <- <- <- <-; simpl.
    + apply Z.eqb_eq in E. apply micros_one. apply mi_term; auto.
    + apply Z.eqb_neq in E. apply micros_one. apply mi_wait; auto.
  - destruct (terminate (p_s p)) eqn:Et; [destruct Hb; congruence|].
    destruct (converged (p_s p)) eqn:Ec.
    + destruct (c_restarts c) eqn:Er.
      * destruct (@restart_branch_micros p design out1 s1 e1 evs Hb Ec Er H)
          as [[-> [-> [-> ->]]]|[x [-> M]]].
        -- simpl. apply micros_one. apply mi_none; auto.
        -- exact M.
      * injection H as <- <- <- <-. simpl. apply micros_one. apply mi_none; auto.
    + destruct (nonempty (batch_queue (p_s p))) eqn:En.
      * destruct ((phase (p_s p) =? 1)%nat) eqn:Eph.
        -- apply rbind_ok in H. destruct H as [[o2 s2] [H1 H2]]. injection H2 as <- <- <- <-.
           unfold init_proposal in H1.
           destruct (py_pop (batch_queue (p_s p))) as [[x q]|] eqn:Ep; [|discriminate].
           injection H1 as <- <-. apply py_pop_some in Ep. simpl.
           apply micros_one. apply mi_propose; auto.
           unfold phase_kind. rewrite Eph. reflexivity.
        -- destruct (adapt_proposal (p_s p)) as [o2 s2] eqn:Ea. simpl in H.
           injection H as <- <- <- <-.
           assert (Hk : phase_kind (p_s p) = KAdapt) by (unfold phase_kind; rewrite Eph; auto).
           pose proof (@adapt_proposal_micro p _ _ Hb Ec Hk Ea) as M.
           destruct o2; [contradiction| |]; simpl; apply micros_one; exact M.
      * assert (Eq : batch_queue (p_s p) = []) by (destruct (batch_queue (p_s p)); [auto|discriminate]).
        set (p2 := with_s (set_phase 2%nat (p_s p)) [] p).
        assert (M2 : micro p p2) by (apply mi_phase; auto).
        assert (Hb2 : below (p_s p2)) by exact Hb.
        apply rbind_ok in H. destruct H as [[[s3 e3] evs3] [H1 H2]].
        (* the process after generate_evals *)
        assert (M3 : evs3 = [] /\ s3 = p_s p2 /\ e3 = p_e p \/
                     (micro p2 (with_se s3 e3 evs3 p2) /\ below s3 /\ phase_kind s3 = KAdapt)).
        { assert (G : forall n, n = (if c_async c then 1%nat else c_batch c) ->
                    may_generate (p_s p) ->
                    do_generate hk n o (set_phase 2%nat (p_s p)) (p_e p) = Ok (s3, e3, evs3) ->
                    micro p2 (with_se s3 e3 evs3 p2) /\ below s3 /\ phase_kind s3 = KAdapt).
          { intros n Hn Hm HG. unfold do_generate in HG.
            apply rbind_ok in HG. destruct HG as [[e4 [l|]] [G1 G2]]; simpl in G2;
              injection G2 as <- <- <-.
            - split; [|split; [exact Hb|reflexivity]].
              simpl. rewrite Eq. simpl. eapply mi_gen with (p := p2) (o := o); eauto.
            - split; [|split; [exact Hb|reflexivity]].
              eapply mi_conv with (p := p2) (o := o); eauto. }
          destruct (c_async c) eqn:Eas.
          - right. apply (G 1%nat); auto. left; assumption.
          - simpl in H1. destruct (pending_evals (p_s p) =? 0) eqn:E0.
            + right. apply (G (c_batch c)); auto. right. apply Z.eqb_eq; assumption.
            + injection H1 as <- <- <-. left. auto. }
        destruct M3 as [[-> [-> ->]]|[M3 [Hb3 Hk3]]].
        -- simpl in H2. rewrite Ec in H2. simpl in H2.
           destruct (adapt_proposal (set_phase 2%nat (p_s p))) as [o2 s2] eqn:Ea. simpl in H2.
           injection H2 as <- <- <- <-.
           assert (Ec2 : converged (p_s p2) = false) by exact Ec.
           pose proof (@adapt_proposal_micro p2 o2 s2 Hb2 Ec2 eq_refl Ea) as M.
           eapply ms_step; [apply micros_one; exact M2|].
           unfold with_s in M. simpl in M. rewrite app_nil_r in M.
           destruct o2; [contradiction| |]; exact M.
        -- set (p3 := with_se s3 e3 evs3 p2) in *.
           assert (M23 : micros p p3) by
             (eapply ms_step; [apply micros_one; exact M2|exact M3]).
           destruct (converged s3) eqn:Ec3.
           ++ destruct (c_restarts c) eqn:Er; simpl in H2.
              ** apply rbind_ok in H2. destruct H2 as [[[o4 [s4 e4]] evs4] [H2 H3]].
                 injection H3 as <- <- <- <-.
                 destruct (@restart_branch_micros p3 design o4 s4 e4 evs4 Hb3 Ec3 Er H2)
                   as [[-> [-> [-> ->]]]|[x [-> M]]].
                 --- simpl. rewrite app_nil_r.
                     eapply ms_step; [exact M23|].
                     pose proof (@mi_none p3 Hb3 (or_introl Ec3)) as M.
                     unfold with_s in M. simpl in M. rewrite app_nil_r, <- app_assoc in M.
                     exact M.
                 --- eapply micros_trans; [exact M23|]. simpl in M |- *.
                     rewrite app_nil_r, <- !app_assoc in M. rewrite <- !app_assoc. exact M.
              ** unfold adapt_proposal in H2.
                 destruct (py_pop (batch_queue s3)) as [[x q]|] eqn:Ep.
                 --- (* converged and a nonempty queue cannot come from generate_evals *)
                     exfalso. unfold do_generate in H1.
                     destruct (c_async c);
                     [ | simpl in H1; destruct (pending_evals (p_s p) =? 0) ]; simpl in H1;
                     try (apply rbind_ok in H1; destruct H1 as [[e4 [l|]] [G1 G2]];
                       simpl in G2; injection G2 as <- <- <-; simpl in *;
                       [congruence|rewrite Eq in Ep; discriminate]).
                     injection H1 as <- <- <-. simpl in *. congruence.
                 --- simpl in H2. injection H2 as <- <- <- <-. simpl.
                     eapply ms_step; [exact M23|].
                     pose proof (@mi_none p3 Hb3 (or_introl Ec3)) as M.
                     unfold with_s in M. simpl in M. rewrite app_nil_r, <- app_assoc in M.
                     exact M.
           ++ simpl in H2. destruct (adapt_proposal s3) as [o2 s2] eqn:Ea. simpl in H2.
              injection H2 as <- <- <- <-.
              pose proof (@adapt_proposal_micro p3 o2 s2 Hb3 Ec3 Hk3 Ea) as M.
              eapply ms_step; [exact M23|].
              unfold with_s in M. simpl in M. rewrite app_nil_r in M.
              destruct o2; [contradiction| |]; simpl; rewrite app_assoc; exact M.
Qed.

Lemma get_out_some : forall id l (o : outst P), get_out id l = Some o -> In o l /\ o_id o = id.
Proof.
  intros id l o H. apply find_some in H. destruct H as [H1 H2]. split; [assumption|].
  apply Nat.eqb_eq in H2. assumption.
Qed.

(** Every process state that occurs in a run is reached from the initial one by micro-steps. *)
Definition init_proc (se : base * Ext) : proc := mkProc (fst se) (snd se) [] [] 0%nat [].

Lemma reached_micros : forall design e0 p,
  reached c hk design e0 p ->
  exists se, construct c hk design e0 = Ok se /\ micros (init_proc se) p.
Proof.
  intros design e0 p [ops H].
  set (G := fun q => exists se, construct c hk design e0 = Ok se /\ micros (init_proc se) q).
  assert (HG : forall y, (forall q, y_proc y = Some q \/ y_disk y = Some q -> G q) ->
               forall a q, y_proc (step c hk y a) = Some q \/ y_disk (step c hk y a) = Some q -> G q).
  { intros y Hy a q Hq. unfold step in Hq.
    assert (Gs : forall q r, y_proc y = Some q -> micro q r -> G r).
    { intros q1 r E M. destruct (Hy q1 (or_introl E)) as [se [E1 M1]].
      exists se. split; auto. eapply ms_step; eauto. }
    destruct (y_proc y) as [p0|] eqn:Ey.
    - destruct a as [dd o|id|id|id st| | |].
      + destruct (do_propose c hk dd o p0) as [[out p1]|e] eqn:Ep.
        * apply propose_micros in Ep.
          assert (G1 : G p1).
          { destruct (Hy p0 (or_introl eq_refl)) as [se [E1 M1]].
            exists se. split; auto. eapply micros_trans; eauto. }
          destruct out; simpl in Hq; destruct Hq as [Hq|Hq];
            try (injection Hq as <-; exact G1); auto.
        * simpl in Hq. destruct Hq as [Hq|Hq]; [discriminate|auto].
      + destruct (get_out id (p_out p0)) as [o|] eqn:Eo; [|apply Hy; rewrite <- Ey; auto].
        * apply get_out_some in Eo. destruct Eo as [Eo _].
          destruct (o_ev o) eqn:Ee.
          -- apply Hy. rewrite <- Ey; auto.
          -- simpl in Hq. destruct Hq as [Hq|Hq]; [|auto]. injection Hq as <-.
             eapply Gs; [reflexivity|]. apply mi_accept; auto.
      + destruct (get_out id (p_out p0)) as [o|] eqn:Eo; [|apply Hy; rewrite <- Ey; auto].
        apply get_out_some in Eo. destruct Eo as [Eo _].
        destruct (o_ev o) eqn:Ee.
        * apply Hy. rewrite <- Ey; auto.
        * simpl in Hq. destruct Hq as [Hq|Hq]; [|auto]. injection Hq as <-.
          eapply Gs; [reflexivity|]. apply mi_reject; auto.
      + destruct (get_out id (p_out p0)) as [o|] eqn:Eo; [|apply Hy; rewrite <- Ey; auto].
        apply get_out_some in Eo. destruct Eo as [Eo _].
        assert (F : forall r, (forall p', r = Ok p' -> micro p0 p') ->
                   y_proc (finish c p0 r (y_disk y)) = Some q \/
                   y_disk (finish c p0 r (y_disk y)) = Some q -> G q).
        { intros r Hr Hf. destruct r as [p1|e]; simpl in Hf.
          - assert (G1 : G p1) by (eapply Gs; [reflexivity|apply Hr; reflexivity]).
            destruct Hf as [Hf|Hf]; [injection Hf as <-; exact G1|].
            destruct (c_save_first c); injection Hf as <-; auto.
          - destruct Hf as [Hf|Hf]; [discriminate|].
            destruct (c_save_first c); [injection Hf as <-; auto|auto]. }
        destruct (o_ev o) as [ev|] eqn:Ee.
        2:{ apply Hy. rewrite <- Ey. auto. }
        destruct st as [|v| |].
        * apply Hy. rewrite <- Ey. auto.
        * eapply F; [|exact Hq]. intros p' E. eapply mi_complete; eauto.
        * eapply F; [|exact Hq]. intros p' E. injection E as <-. eapply mi_abort; eauto.
        * eapply F; [|exact Hq]. intros p' E. injection E as <-. eapply mi_abort; eauto.
      + simpl in Hq. destruct Hq as [Hq|Hq]; [|auto]. injection Hq as <-.
        eapply Gs; [reflexivity|]. apply (mi_stop p0).
      + simpl in Hq. destruct Hq as [Hq|Hq]; [discriminate|auto].
      + apply Hy. rewrite <- Ey. auto.
    - assert (Hid : y_proc y = Some q \/ y_disk y = Some q -> G q).
      { intros Hx. apply Hy. rewrite <- Ey. exact Hx. }
      destruct a; try (apply Hid; exact Hq).
      destruct (y_disk y) as [p0|] eqn:Ed; [|apply Hid; rewrite <- Ed in *; exact Hq].
      simpl in Hq. destruct Hq as [Hq|Hq].
      + injection Hq as <-. destruct (Hy p0 (or_intror eq_refl)) as [se [E1 M1]].
        exists se. split; auto. eapply ms_step; [exact M1|apply mi_resume].
      + injection Hq as <-. auto. }
  assert (HR : forall ops y, (forall q, y_proc y = Some q \/ y_disk y = Some q -> G q) ->
    forall q, y_proc (run_from c hk y ops) = Some q \/ y_disk (run_from c hk y ops) = Some q -> G q).
  { clear ops H. induction ops as [|a ops IH]; intros y Hy q Hq; [apply Hy; exact Hq|].
    simpl in Hq. apply (IH (step c hk y a)); [|exact Hq]. intros r Hr. eapply HG; eauto. }
  apply (HR ops (start c hk design e0)); [|exact H].
  intros q Hq. unfold start in Hq.
  destruct (construct c hk design e0) as [[s e]|er] eqn:Ec; simpl in Hq;
    destruct Hq as [Hq|Hq]; try discriminate.
  injection Hq as <-. exists (s, e). split; auto. apply ms_refl.
Qed.

End Proofs.
