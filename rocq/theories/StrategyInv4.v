(** * Provenance of proposed points, progress, serial runs, resuming. *)
From Coq Require Import List Arith ZArith Lia Bool Permutation.
From Verif Require Import Base Strategy StrategySpec StrategyProofs StrategyInv StrategyInv2.
Import ListNotations.
Local Open Scope Z_scope.

Set Implicit Arguments.

Section Inv4.
Variables P V Ext Orc : Type.
Variable c : cfg P V.
Variable hk : hooks P V Ext Orc.
Notation proc := (proc P V Ext).
Notation base := (base P V).

(** ** Provenance *)

Definition Prov (q0 : list P) (p : proc) : Prop :=
  let src := q0 ++ queued_later (p_hist p) in
  incl (batch_queue (p_s p)) src /\ incl (Xpend (p_s p)) src /\
  incl (map (@o_x P) (p_out p)) src.

Lemma Prov_mono : forall q0 (p p' : proc) evs, Prov q0 p ->
  p_hist p' = p_hist p ++ evs ->
  (forall x, In x (batch_queue (p_s p')) ->
     In x (batch_queue (p_s p)) \/ In x (Xpend (p_s p)) \/ In x (map (@o_x P) (p_out p)) \/
     In x (queued_later evs)) ->
  (forall x, In x (Xpend (p_s p')) ->
     In x (batch_queue (p_s p)) \/ In x (Xpend (p_s p)) \/ In x (map (@o_x P) (p_out p))) ->
  (forall x, In x (map (@o_x P) (p_out p')) ->
     In x (batch_queue (p_s p)) \/ In x (map (@o_x P) (p_out p))) ->
  Prov q0 p'.
Proof.
  intros q0 p p' evs [A [B C]] E HA HB HC. unfold Prov. rewrite E, queued_later_app.
  assert (U : forall x, In x (q0 ++ queued_later (p_hist p)) ->
              In x (q0 ++ queued_later (p_hist p) ++ queued_later evs)).
  { intros x Hx. rewrite app_assoc. apply in_or_app. auto. }
  repeat split; intros x Hx.
  - destruct (HA x Hx) as [Y|[Y|[Y|Y]]]; auto. rewrite app_assoc. apply in_or_app. auto.
  - destruct (HB x Hx) as [Y|[Y|Y]]; auto.
  - destruct (HC x Hx) as [Y|Y]; auto.
Qed.

Lemma in_del_x : forall id (l : list (outst P)) x,
  In x (map (@o_x P) (del_out id l)) -> In x (map (@o_x P) l).
Proof.
  intros id l x H. apply in_map_iff in H. destruct H as [o [E H]]. apply in_del_out in H.
  apply in_map_iff. eauto.
Qed.

Lemma in_filter_l : forall A (f : A -> bool) l x, In x (filter f l) -> In x l.
Proof. intros A f l x H. apply filter_In in H. tauto. Qed.

Lemma Prov_micro : forall q0 p p', Prov q0 p -> micro c hk p p' -> Prov q0 p'.
Proof.
  intros q0 p p' R M. destruct M.
  - eapply Prov_mono with (p := p); [exact R|reflexivity|simpl; auto|simpl; auto|simpl; auto].
  - eapply Prov_mono with (p := p); [exact R|reflexivity|simpl; auto|simpl; auto|simpl; auto].
  - eapply Prov_mono with (p := p); [exact R|reflexivity|simpl; auto|simpl; auto|simpl; auto].
  - eapply Prov_mono with (p := p); [exact R|reflexivity|simpl; auto|simpl; auto|simpl; auto].
  - eapply Prov_mono with (p := p); [exact R|reflexivity| |simpl; auto|simpl; auto].
    simpl. intros x Hx. rewrite app_nil_r. auto.
  - eapply Prov_mono with (p := p); [exact R|reflexivity|simpl; auto|simpl; auto|simpl; auto].
  - eapply Prov_mono with (p := p); [exact R|reflexivity| |simpl; auto|simpl; auto].
    simpl. intros x Hx. rewrite app_nil_r. apply in_app_or in Hx. tauto.
  - eapply Prov_mono with (p := p); [exact R|reflexivity| | |]; simpl; intros y Hy; rewrite H0.
    + left. apply in_or_app. auto.
    + apply in_app_or in Hy. destruct Hy as [Hy|[<-|[]]]; auto.
      left. apply in_or_app. right. left. reflexivity.
    + rewrite map_app in Hy. apply in_app_or in Hy. destruct Hy as [Hy|[<-|[]]]; auto.
      left. apply in_or_app. right. left. reflexivity.
  - eapply Prov_mono with (p := p); [exact R|reflexivity|simpl; auto|simpl; auto|].
    simpl. intros x Hx. rewrite map_xs, set_ev_map, <- map_xs in Hx. auto.
  - assert (Hox : In (o_x o) (map (@o_x P) (p_out p))) by (apply in_map; assumption).
    eapply Prov_mono with (p := p); [exact R|reflexivity| | |]; simpl; intros y Hy.
    + destruct (o_kind o); simpl in Hy.
      * apply in_app_or in Hy. destruct Hy as [Hy|[<-|[]]]; auto.
      * unfold on_adapt_reject in Hy. destruct (c_async c); simpl in Hy; auto.
        apply in_app_or in Hy. destruct Hy as [Hy|[<-|[]]]; auto.
    + destruct (o_kind o); simpl in Hy.
      * apply in_filter_l in Hy. apply in_app_or in Hy. destruct Hy as [Hy|[<-|[]]]; auto.
      * unfold on_adapt_reject in Hy. destruct (c_async c); simpl in Hy;
        apply in_filter_l in Hy; auto.
    + apply in_del_x in Hy. auto.
  - assert (Hox : In (o_x o) (map (@o_x P) (p_out p))) by (apply in_map; assumption).
    complete_ok.
    destruct (base_completed_fields c (o_id o) (o_x o) v ev (p_s p))
      as [_ [_ [_ [_ [_ [Fq [_ [_ [Fx _]]]]]]]]].
    set (sb := base_completed c (o_id o) (o_x o) v ev (p_s p)) in *. clearbody sb.
    eapply Prov_mono with (p := p); [exact R|reflexivity| | |]; simpl; intros y Hy.
    + rewrite Fq in Hy. auto.
    + rewrite Fx in Hy. apply in_filter_l in Hy. auto.
    + apply in_del_x in Hy. auto.
  - assert (Hox : In (o_x o) (map (@o_x P) (p_out p))) by (apply in_map; assumption).
    eapply Prov_mono with (p := p); [exact R|reflexivity| | |]; simpl; intros y Hy.
    + destruct (o_kind o); simpl in Hy; auto.
      apply in_app_or in Hy. destruct Hy as [Hy|[<-|[]]]; auto.
    + destruct (o_kind o); simpl in Hy; apply in_filter_l in Hy; auto.
    + apply in_del_x in Hy. auto.
  - eapply Prov_mono with (p := p); [exact R|reflexivity|simpl; auto|simpl; auto|simpl; auto].
  - eapply Prov_mono with (p := p); [exact R|reflexivity| | |]; simpl; intros y Hy.
    + unfold resume in Hy. destruct (phase (p_s p) =? 1)%nat; simpl in Hy; auto.
      apply in_app_or in Hy. tauto.
    + unfold resume in Hy. destruct (phase (p_s p) =? 1)%nat; simpl in Hy; contradiction.
    + contradiction.
Qed.

Lemma Prov_init : forall design e0 se,
  construct c hk design e0 = Ok se -> Prov (batch_queue (fst se)) (init_proc se).
Proof.
  intros design e0 [s e] H. unfold Prov. simpl. rewrite app_nil_r.
  unfold construct in H. apply rbind_ok in H. destruct H as [s1 [H1 H2]].
  injection H2 as <- <-. apply sample_initial_ok in H1.
  destruct H1 as [d [rows [_ [_ [_ ->]]]]]. simpl.
  repeat split; intros x Hx; simpl in *; auto; contradiction.
Qed.

(** Restart events come from the design passed to the call. *)
Lemma propose_restart_event : forall design o s e out se evs l,
  propose_action c hk design o s e = Ok (out, se, evs) -> In (EvRestart l) evs ->
  exists d, design = Ok d /\ exists s1, l = firstn (c_num_pts c) d ++ unk c s1.
Proof.
  intros design o s e out se evs l H Hl.
  assert (RB : forall s e out se evs, restart_branch c hk design s e = Ok (out, se, evs) ->
     In (EvRestart l) evs ->
     exists d, design = Ok d /\ exists s1, l = firstn (c_num_pts c) d ++ unk c s1).
  { clear. intros s e out se evs H Hl. unfold restart_branch in H.
    destruct (c_async c || (pending_evals s =? 0)).
    - apply rbind_ok in H. destruct H as [[s1 e1] [H1 H2]].
      apply rbind_ok in H2. destruct H2 as [[o2 s2] [H2 H3]]. injection H3 as <- <- <-.
      apply sample_restart_ok in H1. destruct H1 as [_ [d [rows [-> [-> [_ ->]]]]]].
      exists d. split; [reflexivity|]. exists s.
      destruct Hl as [Hl|[]]. injection Hl as <-.
      simpl. rewrite skipn_app, skipn_all, Nat.sub_diag. reflexivity.
    - injection H as <- <- <-. contradiction. }
  assert (DG : forall n s e s' e' evs', do_generate hk n o s e = Ok (s', e', evs') ->
     ~ In (EvRestart l : event P V) evs').
  { clear. intros n s e s' e' evs' H C. unfold do_generate in H.
    apply rbind_ok in H. destruct H as [[e1 [l1|]] [_ H]]; simpl in H; injection H as <- <- <-;
    destruct C as [C|[]]; discriminate. }
  unfold propose_action in H.
  set (s0 := check_termination c s) in *. clearbody s0.
  destruct (terminate s0).
  { destruct (pending_evals s0 =? 0); injection H as <- <- <-; contradiction. }
  destruct (converged s0).
  { destruct (c_restarts c); [eauto|]. injection H as <- <- <-; contradiction. }
  destruct (nonempty (batch_queue s0)).
  { destruct (phase s0 =? 1)%nat.
    - apply rbind_ok in H. destruct H as [r [_ H]]. injection H as <- <- <-. contradiction.
    - injection H as <- <- <-. contradiction. }
  apply rbind_ok in H. destruct H as [[[s3 e3] evs3] [H1 H2]].
  assert (N3 : ~ In (EvRestart l : event P V) evs3).
  { destruct (c_async c); [eauto|]. simpl in H1. destruct (pending_evals s0 =? 0); [eauto|].
    injection H1 as <- <- <-. simpl. tauto. }
  destruct (converged s3 && c_restarts c).
  - apply rbind_ok in H2. destruct H2 as [[[o4 se4] evs4] [H2 H3]]. injection H3 as <- <- <-.
    apply in_app_or in Hl. destruct Hl as [Hl|Hl]; [contradiction|]. eauto.
  - injection H2 as <- <- <-. contradiction.
Qed.

(** The points queued by a restart are rows of a design passed to propose_action (or, as long
    as nothing has been evaluated, the extra points). *)
Definition design_row (ops : list (op P V Orc)) (x : P) : Prop :=
  exists d o, In (Propose (Ok d) o) ops /\ In x (firstn (c_num_pts c) d).

Definition restarts_from (ops : list (op P V Orc)) (p : proc) : Prop :=
  forall l x, In (EvRestart l) (p_hist p) -> In x l -> design_row ops x \/ In x (unknown c).

Lemma unk_incl : forall s x, In x (unk c s) -> In x (unknown c).
Proof. intros s x H. unfold unk in H. destruct (extras_now s); [assumption|contradiction]. Qed.

Lemma restarts_from_mono : forall ops a p, restarts_from ops p -> restarts_from (ops ++ [a]) p.
Proof.
  intros ops a p H l x H1 H2. destruct (H l x H1 H2) as [[d [o [A B]]]|A]; auto.
  left. exists d, o. split; [apply in_or_app; auto|assumption].
Qed.

Lemma run_snoc : forall design e0 ops a,
  run c hk design e0 (ops ++ [a]) = step c hk (run c hk design e0 ops) a.
Proof. intros. unfold run, run_from. rewrite fold_left_app. reflexivity. Qed.

Lemma restarts_from_run : forall design e0 ops p,
  y_proc (run c hk design e0 ops) = Some p \/ y_disk (run c hk design e0 ops) = Some p ->
  restarts_from ops p.
Proof.
  intros design e0 ops. induction ops as [|a ops IH] using rev_ind; intros p H.
  - unfold run in H. simpl in H. unfold start in H.
    destruct (construct c hk design e0) as [[s e]|]; simpl in H; destruct H as [H|H];
      try discriminate. injection H as <-. intros l x [].
  - rewrite run_snoc in H. set (y := run c hk design e0 ops) in *.
    assert (IH' : forall q, y_proc y = Some q \/ y_disk y = Some q -> restarts_from (ops ++ [a]) q)
      by (intros q Hq; apply restarts_from_mono; auto).
    clearbody y.
    assert (ext : forall p q ev, restarts_from (ops ++ [a]) p -> p_hist q = p_hist p ++ [ev] ->
               (forall l, ev <> EvRestart l) -> restarts_from (ops ++ [a]) q).
    { intros p1 q ev R E N l x Hl Hx. rewrite E in Hl. apply in_app_or in Hl.
      destruct Hl as [Hl|[Hl|[]]]; [eauto|]. exfalso. eapply N; eauto. }
    unfold step in H. destruct (y_proc y) as [p0|] eqn:Ey.
    + assert (R0 : restarts_from (ops ++ [a]) p0) by auto.
      destruct a as [dd o|id|id|id st| | |].
      * destruct (do_propose c hk dd o p0) as [[out p1]|] eqn:Ep.
        -- assert (R1 : restarts_from (ops ++ [Propose dd o]) p1).
           { unfold do_propose in Ep. apply rbind_ok in Ep.
             destruct Ep as [[[out1 [s1 e1]] evs] [H1 H2]]. injection H2 as <- <-.
             intros l x Hl Hx.
             assert (Hl' : In (EvRestart l) (p_hist p0) \/ In (EvRestart l) evs).
             { destruct out1; simpl in Hl; apply in_app_or in Hl; destruct Hl as [Hl|Hl]; auto;
               apply in_app_or in Hl; destruct Hl as [Hl|[Hl|[]]]; auto; discriminate. }
             destruct Hl' as [Hl'|Hl']; [eauto|].
             destruct (@propose_restart_event _ _ _ _ _ _ _ _ H1 Hl') as [d [-> [s2 ->]]].
             apply in_app_or in Hx. destruct Hx as [Hx|Hx].
             - left. exists d, o. split; [apply in_or_app; right; left; reflexivity|assumption].
             - right. eapply unk_incl; eauto. }
           destruct out; simpl in H; destruct H as [H|H]; try (injection H as <-; exact R1); auto.
        -- simpl in H. destruct H as [H|H]; [discriminate|auto].
      * destruct (get_out id (p_out p0)) as [o|]; [|rewrite Ey in H; auto].
        destruct (o_ev o); [rewrite Ey in H; auto|]. simpl in H.
        destruct H as [H|H]; [|auto]. injection H as <-.
        eapply ext; [exact R0|reflexivity|discriminate].
      * destruct (get_out id (p_out p0)) as [o|]; [|rewrite Ey in H; auto].
        destruct (o_ev o); [rewrite Ey in H; auto|]. simpl in H.
        destruct H as [H|H]; [|auto]. injection H as <-.
        eapply ext; [exact R0|reflexivity|discriminate].
      * destruct (get_out id (p_out p0)) as [o|]; [|rewrite Ey in H; auto].
        assert (FI : forall r, (forall p', r = Ok p' -> restarts_from (ops ++ [Update id st]) p') ->
             y_proc (finish c p0 r (y_disk y)) = Some p \/
             y_disk (finish c p0 r (y_disk y)) = Some p -> restarts_from (ops ++ [Update id st]) p).
        { intros r Hr Hf. destruct r as [p1|]; simpl in Hf.
          - destruct Hf as [Hf|Hf]; [injection Hf as <-; auto|].
            destruct (c_save_first c); injection Hf as <-; auto.
          - destruct Hf as [Hf|Hf]; [discriminate|].
            destruct (c_save_first c); [injection Hf as <-; auto|auto]. }
        destruct (o_ev o) as [ev|]; [|rewrite Ey in H; auto].
        destruct st as [|v| |].
        -- rewrite Ey in H; auto.
        -- eapply FI; [|exact H]. intros p' E. apply do_complete_ok in E.
           destruct E as [e' [l [nx [cv [-> _]]]]]. eapply ext; [exact R0|reflexivity|discriminate].
        -- eapply FI; [|exact H]. intros p' E. injection E as <-.
           eapply ext; [exact R0|reflexivity|discriminate].
        -- eapply FI; [|exact H]. intros p' E. injection E as <-.
           eapply ext; [exact R0|reflexivity|discriminate].
      * simpl in H. destruct H as [H|H]; [|auto]. injection H as <-.
        eapply ext; [exact R0|reflexivity|discriminate].
      * simpl in H. destruct H as [H|H]; [discriminate|auto].
      * rewrite Ey in H. auto.
    + destruct a; try (rewrite Ey in H; auto; fail).
      destruct (y_disk y) as [p0|] eqn:Ed; [|rewrite Ey in H; rewrite Ed in H; auto].
      simpl in H. destruct H as [H|H].
      * injection H as <-. eapply ext; [apply IH'; right; reflexivity|reflexivity|discriminate].
      * injection H as <-. auto.
Qed.

(** ** Progress *)

(** generate_evals keeps its contract: it returns at least one point when asked for one, or
    reports convergence. *)
Definition gen_contract : Prop := forall e s n o e' l,
  (0 < n)%nat -> hk_generate hk e s n o = Ok (e', Some l) -> l <> [].

Lemma py_pop_nonempty : forall A (l : list A), l <> [] -> exists x q, py_pop l = Some (x, q).
Proof.
  intros A l H. destruct (exists_last H) as [q [x ->]]. exists x, q. apply py_pop_snoc.
Qed.

Lemma adapt_proposal_nonempty : forall s : base, batch_queue s <> [] ->
  exists x, fst (adapt_proposal s) = OEval KAdapt x.
Proof.
  intros s H. unfold adapt_proposal. destruct (py_pop_nonempty H) as [x [q ->]]. simpl. eauto.
Qed.

Lemma init_proposal_out : forall (s : base) o s', init_proposal s = Ok (o, s') ->
  exists x, o = OEval KInit x.
Proof.
  intros s o s' H. unfold init_proposal in H.
  destruct (py_pop (batch_queue s)) as [[x q]|]; [|discriminate]. injection H as <- <-. eauto.
Qed.

(** With restarts enabled and evaluations allowed, a call that does not raise returns an
    evaluation. *)
Lemma propose_progress : gen_contract -> (c_async c = true \/ (0 < c_batch c)%nat) ->
  c_restarts c = true ->
  forall design o (p : proc) out p',
  below c (p_s p) -> may_generate c (p_s p) ->
  do_propose c hk design o p = Ok (out, p') -> exists k x, out = OEval k x.
Proof.
  intros GC Hb Hr design o p out p' [Ht Hlt] Hm H.
  unfold do_propose in H. apply rbind_ok in H.
  destruct H as [[[out1 [s1 e1]] evs] [H H2]]. injection H2 as <- _.
  unfold propose_action, check_termination in H.
  destruct (c_max_evals c <=? num_evals (p_s p) + pending_evals (p_s p)) eqn:E.
  { apply Z.leb_le in E. lia. }
  rewrite Ht in H.
  assert (RB : forall s e out se evs, may_generate c s ->
     restart_branch c hk design s e = Ok (out, se, evs) -> exists k x, out = OEval k x).
  { clear. intros s e out se evs Hm H. unfold restart_branch in H.
    replace (c_async c || (pending_evals s =? 0)) with true in H.
    - apply rbind_ok in H. destruct H as [[s1 e1] [H1 H2]].
      apply rbind_ok in H2. destruct H2 as [[o2 s2] [H2 H3]]. injection H3 as <- <- <-.
      apply init_proposal_out in H2. destruct H2 as [x ->]. simpl. eauto.
    - symmetry. apply orb_true_iff. destruct Hm as [Hm|Hm]; [auto|]. right.
      apply Z.eqb_eq. assumption. }
  destruct (converged (p_s p)) eqn:Ec.
  { rewrite Hr in H. eauto. }
  destruct (nonempty (batch_queue (p_s p))) eqn:En.
  { assert (Nq : batch_queue (p_s p) <> []) by (destruct (batch_queue (p_s p)); discriminate).
    destruct (phase (p_s p) =? 1)%nat.
    - apply rbind_ok in H. destruct H as [[o2 s2] [H1 H2]]. injection H2 as <- <- <- <-.
      apply init_proposal_out in H1. destruct H1 as [x ->]. simpl. eauto.
    - injection H as <- <- <- <-. destruct (adapt_proposal_nonempty _ Nq) as [x ->]. eauto. }
  apply rbind_ok in H. destruct H as [[[s3 e3] evs3] [H1 H2]].
  assert (Eq : batch_queue (p_s p) = []) by (destruct (batch_queue (p_s p)); [auto|discriminate]).
  assert (G : forall n, (0 < n)%nat -> do_generate hk n o (set_phase 2%nat (p_s p)) (p_e p) = Ok (s3, e3, evs3) ->
     (converged s3 = true /\ may_generate c s3) \/ (converged s3 = false /\ batch_queue s3 <> [])).
  { intros n Hn HG. unfold do_generate in HG.
    apply rbind_ok in HG. destruct HG as [[e4 [l|]] [G1 G2]]; simpl in G2; injection G2 as <- <- <-.
    - right. simpl. split; [exact Ec|]. rewrite Eq. simpl. eapply GC; eauto.
    - left. split; [reflexivity|exact Hm]. }
  assert (S3 : (converged s3 = true /\ may_generate c s3) \/ (converged s3 = false /\ batch_queue s3 <> [])).
  { destruct (c_async c) eqn:Ea.
    - apply (G 1%nat); [lia|assumption].
    - destruct Hm as [Hm|Hm]; [congruence|]. simpl in H1. rewrite Hm in H1. simpl in H1.
      destruct Hb as [Hb|Hb]; [congruence|]. apply (G (c_batch c)); assumption. }
  destruct S3 as [[S3 Sm]|[S3 Sq]]; rewrite S3 in H2; simpl in H2.
  - rewrite Hr in H2. apply rbind_ok in H2. destruct H2 as [[[o4 se4] evs4] [H2 H3]].
    injection H3 as <- _ _. eauto.
  - injection H2 as <- <- <- <-. destruct (adapt_proposal_nonempty _ Sq) as [x ->]. eauto.
Qed.

(** Hooks that never raise and designs with enough rows: the call does not raise. *)
Definition total_hooks (EP : Ext -> Prop) (OP : Orc -> Prop) : Prop :=
  (forall e s n o, EP e -> OP o -> exists r, hk_generate hk e s n o = Ok r) /\
  (forall e s x v ev, EP e -> exists r, hk_initial_completed hk e s x v ev = Ok r) /\
  (forall e s x v ev, EP e -> exists r, hk_adapt_completed hk e s x v ev = Ok r).

(** The overridden methods keep the subclass state in [EP]. *)
Definition keeps (EP : Ext -> Prop) : Prop :=
  (forall e, EP e -> EP (hk_sample_initial hk e)) /\
  (forall e s n o e' l, EP e -> hk_generate hk e s n o = Ok (e', l) -> EP e') /\
  (forall e s x v ev e', EP e -> hk_initial_completed hk e s x v ev = Ok e' -> EP e') /\
  (forall e s x v ev e' n cv, EP e -> hk_adapt_completed hk e s x v ev = Ok (e', n, cv) -> EP e').

Lemma keeps_micro : forall EP, keeps EP -> forall p p', EP (p_e p) -> micro c hk p p' -> EP (p_e p').
Proof.
  intros EP [K1 [K2 [K3 K4]]] p p' E M.
  destruct M as [H1 H2|H1 H2|H1 H2|H1 H2 H3|n o e' l H1 H2 H3 H4 H5 H6 H7
    |n o e' H1 H2 H3 H4 H5 H6 H7|d rows H1 H2 H3 H4 H5 H6|q x k H1 H2 H3 H4|o H1 H2|o H1 H2
    |o ev v p' H1 H2 H3|o ev H1 H2| |]; simpl; eauto.
  apply do_complete_ok in H3. destruct H3 as [e' [l [nx [cv [-> Hk]]]]]. cbn [p_e].
  destruct (o_kind o).
  - destruct Hk as [Hk _]. eauto.
  - destruct Hk as [n [cv0 [Hk _]]]. eauto.
Qed.

Lemma keeps_micros : forall EP, keeps EP -> forall p p', EP (p_e p) -> micros c hk p p' -> EP (p_e p').
Proof. intros EP K p p' E M. induction M as [|p q r M IH N]; [assumption|]. exact (keeps_micro K (IH E) N). Qed.

Definition good_design (design : res (list P)) : Prop :=
  exists d, design = Ok d /\ (c_num_pts c <= length d)%nat.

(** Enough values for the extra points. *)
Definition good_extras : Prop :=
  match c_extra c, c_extra_vals c with
  | Some pts, Some vals => (length pts <= length vals)%nat
  | _, _ => True
  end.

Lemma add_extra_total : forall pts vals (s : base), (length pts <= length vals)%nat ->
  exists s', add_extra c pts (Some vals) s = Ok s'.
Proof.
  induction pts as [|x pts IH]; intros vals s H; simpl; [eauto|].
  destruct vals as [|v vals]; simpl in H; [lia|].
  destruct (c_isnan c v); apply IH; lia.
Qed.
Lemma add_extra_total_None : forall pts (s : base),
  exists s', add_extra c pts None s = Ok s'.
Proof. induction pts as [|x pts IH]; intros s; simpl; eauto. Qed.

Lemma sample_initial_total : forall design (s : base), good_extras -> good_design design ->
  exists s', sample_initial c design s = Ok s'.
Proof.
  intros design s GE [d [-> Hd]]. unfold sample_initial. simpl.
  rewrite take_rows_total by assumption. simpl. unfold good_extras in GE.
  destruct (c_extra c) as [pts|]; [|eauto].
  destruct (length (X s) =? 0)%nat; [|eauto].
  destruct (c_extra_vals c) as [vals|]; [apply add_extra_total; assumption|apply add_extra_total_None].
Qed.

Lemma propose_total : forall EP OP, total_hooks EP OP -> good_extras -> (0 < c_num_pts c)%nat ->
  forall design o (p : proc), EP (p_e p) -> OP o -> good_design design ->
  exists r, do_propose c hk design o p = Ok r.
Proof.
  intros EP OP [T1 _] GE NP design o p HE HO GD. unfold do_propose.
  assert (RB : forall s e, exists r, restart_branch c hk design s e = Ok r).
  { intros s e. unfold restart_branch. destruct (c_async c || (pending_evals s =? 0)); [|eauto].
    unfold sample_restart.
    destruct (@sample_initial_total design
       (set_phase 1%nat (set_converged false (set_fX_ [] (set_X_ [] (bump s))))) GE GD) as [s1 E].
    rewrite E. simpl. unfold init_proposal.
    apply sample_initial_ok in E. destruct E as [d [rows [_ [_ [Hl ->]]]]]. simpl.
    match goal with |- context [py_pop ?l] => assert (N : l <> []) end.
    { intros C. apply (f_equal (@length _)) in C. rewrite !app_length in C. simpl in C. lia. }
    destruct (py_pop_nonempty N) as [x [q ->]]. simpl. eauto. }
  assert (PA : exists r, propose_action c hk design o (p_s p) (p_e p) = Ok r).
  { unfold propose_action. set (s0 := check_termination c (p_s p)). clearbody s0.
    destruct (terminate s0); [destruct (pending_evals s0 =? 0); eauto|].
    destruct (converged s0); [destruct (c_restarts c); eauto|].
    destruct (nonempty (batch_queue s0)) eqn:En.
    { destruct (phase s0 =? 1)%nat; [|eauto]. unfold init_proposal.
      assert (N : batch_queue s0 <> []) by (destruct (batch_queue s0); discriminate).
      destruct (py_pop_nonempty N) as [x [q ->]]. simpl. eauto. }
    assert (DG : forall n s, exists r, do_generate hk n o s (p_e p) = Ok r).
    { intros n s. unfold do_generate. destruct (T1 (p_e p) s n o HE HO) as [[e1 [l|]] E]; rewrite E; simpl; eauto. }
    assert (G : exists r, (if c_async c then do_generate hk 1 o (set_phase 2%nat s0) (p_e p)
             else if pending_evals (set_phase 2%nat s0) =? 0 then do_generate hk (c_batch c) o (set_phase 2%nat s0) (p_e p)
             else Ok (set_phase 2%nat s0, p_e p, [])) = Ok r).
    { destruct (c_async c); [eauto|]. destruct (pending_evals (set_phase 2%nat s0) =? 0); eauto. }
    destruct G as [[[s3 e3] evs3] ->]. simpl.
    destruct (converged s3 && c_restarts c); [|eauto].
    destruct (RB s3 e3) as [[[o4 se4] evs4] ->]. simpl. eauto. }
  destruct PA as [[[out [s e]] evs] ->]. simpl. eauto.
Qed.

Lemma construct_total : good_extras -> forall design e0, good_design design ->
  exists se, construct c hk design e0 = Ok se.
Proof.
  intros GE design e0 GD. unfold construct.
  destruct (@sample_initial_total design (base0 P V) GE GD) as [s ->]. simpl. eauto.
Qed.

End Inv4.
