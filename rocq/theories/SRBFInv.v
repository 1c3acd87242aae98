(** * SRBF/DYCORS: invariants of whole runs. *)
From Coq Require Import List Arith ZArith Lia Bool QArith Qabs Qminmax Qpower Lqa.
From Verif Require Import Base Strategy StrategySpec StrategyProofs StrategyInv StrategyInv2
  StrategyInv3 SRBF SRBFProofs PropStrategy.
Import ListNotations.
Local Close Scope Q_scope.

Set Implicit Arguments.

Lemma seq_shift_n : forall n k, seq k n = map (fun i => k + i) (seq 0 n).
Proof.
  induction n as [|n IH]; intros k; simpl; [reflexivity|]. rewrite Nat.add_0_r. f_equal.
  rewrite IH. rewrite <- seq_shift, map_map. apply map_ext. intros i. lia.
Qed.

Lemma filter_le : forall A (f : A -> bool) l, length (filter f l) <= length l.
Proof. intros A f l. induction l as [|x l IH]; simpl; [lia|]. destruct (f x); simpl; lia. Qed.

(** Specification: values of the completed adaptive evaluations that were accepted since the
    last restart, in completion order (a function of the observable history). *)
Definition adapt_step {P V} (st : list nat * list V) (ev : event P V) : list nat * list V :=
  match ev with
  | EvAccept id => (fst st ++ [id], snd st)
  | EvRestart _ => ([], [])
  | EvComplete id KAdapt x v =>
      if existsb (fun i => (i =? id)%nat) (fst st) then (fst st, snd st ++ [v]) else st
  | _ => st
  end.
Definition adapt_vals {P V} (h : list (event P V)) : list V := snd (fold_left adapt_step h ([], [])).

Lemma adapt_started : forall P V (h : list (event P V)),
  fst (fold_left adapt_step h ([], [])) = started_in_run h.
Proof.
  intros P V h. induction h as [|ev h IH] using rev_ind; [reflexivity|].
  rewrite started_snoc, fold_left_app. simpl.
  destruct ev; simpl; try exact IH; try reflexivity.
  - rewrite IH. reflexivity.
  - destruct k; simpl; [|rewrite IH]; destruct (existsb _ (started_in_run h)); simpl; assumption || reflexivity.
Qed.

Lemma adapt_vals_snoc : forall P V (h : list (event P V)) ev,
  adapt_vals (h ++ [ev]) = match ev with
  | EvRestart _ => []
  | EvComplete id KAdapt _ v =>
      if existsb (fun i => (i =? id)%nat) (started_in_run h) then adapt_vals h ++ [v] else adapt_vals h
  | _ => adapt_vals h
  end.
Proof.
  intros P V h ev. unfold adapt_vals at 1. rewrite fold_left_app. simpl.
  destruct ev; try reflexivity. destruct k; [reflexivity|]. simpl.
  rewrite adapt_started. destruct (existsb _ (started_in_run h)); reflexivity.
Qed.

Section Run.
Variable P : Type.
Variable c : cfg P val.
Variable ft : nat.
Variable weights : list Q.
Hypothesis ft_pos : ft <> 0.
Hypothesis ft_async : c_async c = true -> 4 <= ft.
Definition hk := srbf_hooks (Z.of_nat ft) (c_async c) weights P.
Notation proc := (proc P val srbf).
Notation base := (base P val).

(** ** The step state is always the specified function of the processed steps *)
Lemma adapt_completed_cases : forall e (s : base) x v ev e' n cv,
  srbf_adapt_completed (Z.of_nat ft) (c_async c) e s x v ev = Ok (e', n, cv) ->
  let e1 := mkSrbf (s_status e) (s_failcount e) (s_radius e) (s_fbest e) (s_queue e ++ [v])
                    (s_next e) (s_steps e) (s_used e) in
  (e' = e /\ n = 0 /\ cv = false /\ (ev <= ev_last s)%Z) \/
  (e' = e1 /\ n = 0 /\ cv = false /\ c_async c = false /\ (ev_last s < ev)%Z /\
     (batch_queue s <> [] \/ pending_evals s <> 0%Z)) \/
  (adjust_step (Z.of_nat ft) e1 = Ok (e', n, cv) /\ (ev_last s < ev)%Z /\
   (c_async c = true \/ (batch_queue s = [] /\ pending_evals s = 0%Z))).
Proof using P c ft.
  clear ft_async.
  intros e s x v ev e' n cv H e1. unfold srbf_adapt_completed in H.
  destruct (ev_last s <? ev)%Z eqn:E.
  - apply Z.ltb_lt in E. fold e1 in H. destruct (c_async c); [right; right; auto|].
    destruct (batch_queue s) as [|y q] eqn:Eq; simpl in H.
    + destruct (pending_evals s =? 0)%Z eqn:Ep.
      * apply Z.eqb_eq in Ep. right. right. auto.
      * apply Z.eqb_neq in Ep. injection H as <- <- <-. right. left. repeat split; auto.
    + injection H as <- <- <-. right. left. repeat split; auto. left. discriminate.
  - apply Z.ltb_ge in E. injection H as <- <- <-. left. auto.
Qed.

Lemma SInv_queue : forall e q, SInv ft e ->
  SInv ft (mkSrbf (s_status e) (s_failcount e) (s_radius e) (s_fbest e) q
                    (s_next e) (s_steps e) (s_used e)).
Proof. intros e q [A B C D]. constructor; assumption. Qed.

Lemma get_weights_spec : forall n next ws nx, length weights <> 0 -> next < length weights ->
  get_weights weights n next = Ok (ws, nx) ->
  ws = map (fun i => nth ((next + i) mod length weights) weights 0%Q) (seq 0 n) /\
  nx = (next + n) mod length weights.
Proof using weights.
  clear ft_async ft_pos.
  intros n. induction n as [|n IH]; intros next ws nx Hl Hn H; simpl in H.
  - injection H as <- <-. split; [reflexivity|]. rewrite Nat.add_0_r, Nat.mod_small; auto.
  - destruct (nth_error weights next) as [w|] eqn:E; [|discriminate].
    apply rbind_ok in H. destruct H as [[ws' nx'] [H1 H2]]. injection H2 as <- <-. simpl fst. simpl snd.
    destruct (IH ((next + 1) mod length weights) ws' nx' Hl) as [A B].
    { apply Nat.mod_upper_bound. assumption. } { assumption. }
    split.
    + simpl seq. simpl map. rewrite Nat.add_0_r, Nat.mod_small by assumption.
      f_equal; [symmetry; apply nth_error_nth; assumption|].
      rewrite A. rewrite <- seq_shift, map_map. apply map_ext. intros i.
      rewrite Nat.add_mod_idemp_l by assumption. do 2 f_equal. lia.
    + rewrite B. rewrite Nat.add_mod_idemp_l by assumption. f_equal. lia.
Qed.

Lemma get_weights_total : forall n next, length weights <> 0 -> next < length weights ->
  exists r, get_weights weights n next = Ok r.
Proof using weights.
  clear ft_async ft_pos.
  induction n as [|n IH]; intros next Hl Hn; simpl; [eauto|].
  destruct (nth_error weights next) as [w|] eqn:E.
  - destruct (IH ((next + 1) mod length weights) Hl) as [r ->]; [|simpl; eauto].
    apply Nat.mod_upper_bound. assumption.
  - apply nth_error_None in E. lia.
Qed.

(** Everything about the subclass state that does not depend on the schedule. *)
Record EInv (e : srbf) : Prop := mkEInv {
  ei_s : SInv ft e;
  ei_steps : Forall (fun l => l <> []) (s_steps e);
  ei_w : length weights <> 0 ->
         s_used e = map (fun i => nth (i mod length weights) weights 0%Q) (seq 0 (length (s_used e))) /\
         s_next e = length (s_used e) mod length weights
}.

Lemma EInv_init : forall e, EInv e -> EInv (srbf_init e).
Proof. intros e [A B C]. constructor; simpl; auto. apply SInv_init. Qed.

Lemma EInv_complete : forall e (s : base) x v ev e' n cv, EInv e ->
  srbf_adapt_completed (Z.of_nat ft) (c_async c) e s x v ev = Ok (e', n, cv) -> EInv e'.
Proof.
  intros e s x v ev e' n cv [A B C] H. apply adapt_completed_cases in H. simpl in H.
  destruct H as [[-> _]|[[-> _]|[H _]]]; [constructor; auto| |].
  - constructor; simpl; auto. apply SInv_queue. assumption.
  - apply adjust_SInv in H; [|assumption|apply SInv_queue; assumption].
    destruct H as [H1 [H2 [H3 [H4 [H5 [H6 _]]]]]]. simpl in *. constructor; auto.
    + rewrite H3. apply Forall_app. split; auto.
    + rewrite H5, H6. assumption.
Qed.

Lemma EInv_generate : forall e (s : base) n o e' l, EInv e ->
  srbf_generate weights e s n o = Ok (e', l) -> EInv e'.
Proof.
  intros e s n o e' l [A B C] H. unfold srbf_generate in H.
  apply rbind_ok in H. destruct H as [[ws nx] [H1 H]].
  apply rbind_ok in H. destruct H as [pts [H2 H]].
  apply rbind_ok in H. destruct H as [rows [H3 H]]. injection H as <- <-. simpl fst. simpl snd.
  destruct A as [A1 A2 A3 A4].
  constructor; simpl; auto; [constructor; assumption|].
  intros Hl. destruct (C Hl) as [C1 C2].
  destruct (@get_weights_spec n (s_next e) ws nx Hl) as [W1 W2]; auto.
  { rewrite C2. apply Nat.mod_upper_bound. assumption. }
  assert (Lw : length ws = n) by (rewrite W1, map_length, seq_length; reflexivity).
  rewrite app_length, Lw. split.
  - rewrite seq_app, map_app, <- C1. f_equal. rewrite W1, C2.
    simpl plus. clear. rewrite (seq_shift_n n (length (s_used e))), map_map. apply map_ext.
    intros i. destruct (length weights) as [|m]; [reflexivity|].
    rewrite Nat.add_mod_idemp_l by discriminate. reflexivity.
  - rewrite W2, C2. rewrite Nat.add_mod_idemp_l by assumption. reflexivity.
Qed.

(** ** Convergence and the lower bound of the radius *)
Definition flg (e : srbf) : list bool := rev (flags (s_steps e)).
Definition is_live (last : Z) (o : outst P) : bool :=
  match o_ev o with None => true | Some ev => (last <? ev)%Z end.
Definition live (p : proc) : nat := length (filter (is_live (ev_last (p_s p))) (p_out p)).

Record JInv (p : proc) : Prop := mkJ {
  j_run : converged (p_s p) = false ->
          level ft (flg (p_e p)) <= 5 /\ lead false (flg (p_e p)) < 4 * ft;
  j_level : converged (p_s p) = true -> level ft (flg (p_e p)) <= 6;
  j_queue : converged (p_s p) = true \/ c_async c = true -> s_queue (p_e p) = [];
  j_sync : converged (p_s p) = true -> c_async c = false -> p_out p = [];
  j_async : converged (p_s p) = true -> c_async c = true ->
            (Z.abs (s_status (p_e p)) + Z.of_nat (live p) <= 1)%Z
}.
Definition J (p : proc) : Prop := (c_async c = true -> protocol (p_hist p)) -> JInv p.

Lemma undecided_le1 : forall h : list (event P val), protocol h -> length (undecided h) <= 1.
Proof.
  intros h. induction h as [|ev h IH] using rev_ind; intros Pr; [simpl; lia|].
  assert (P1 : protocol h) by (eapply protocol_prefix; exact Pr). specialize (IH P1).
  rewrite undecided_snoc. destruct ev; simpl; try assumption; try lia.
  - rewrite (Pr h (EvPropose id k x) []); [simpl; lia|reflexivity|reflexivity].
  - eapply Nat.le_trans; [apply filter_le|assumption].
  - eapply Nat.le_trans; [apply filter_le|assumption].
Qed.

Lemma level_step : forall b rl, level ft (b :: rl) <= S (level ft rl).
Proof using ft.
  clear ft_async ft_pos.
  intros b rl. destruct b; cbn [level].
  - destruct (lead true (true :: rl) mod 3 =? 0); lia.
  - destruct (lead false (false :: rl) mod ft =? 0); lia.
Qed.

(** One processed step, seen from the flags. *)
Lemma adjust_flags : forall e e' n cv, SInv ft e -> adjust_step (Z.of_nat ft) e = Ok (e', n, cv) ->
  exists b, flg e' = b :: flg e.
Proof.
  intros e e' n cv I H. pose proof (adjust_SInv ft_pos I H) as [_ [_ [E _]]].
  unfold flg. rewrite E. unfold flags. rewrite flags_from_app, rev_app_distr. simpl. eauto.
Qed.

Lemma level_same : forall e b, SInv ft e -> 4 <= ft -> s_status e = 0%Z ->
  level ft (b :: flg e) = level ft (flg e).
Proof.
  intros e b I Hf Hs. rewrite (si_status I) in Hs. fold (flg e) in Hs. set (rl := flg e) in *. clearbody rl.
  destruct b.
  - assert (E : lead true (true :: rl) mod 3 = 1).
    { change (lead true (true :: rl)) with (S (lead true rl)). rewrite mod_S by discriminate.
      destruct rl as [|[] rl']; cbn [sgn_status] in Hs; try reflexivity.
      rewrite (Nat2Z.inj (lead true (true :: rl') mod 3) 0) by assumption. reflexivity. }
    cbn [level]. rewrite E. reflexivity.
  - assert (E : lead false (false :: rl) mod ft = 1).
    { change (lead false (false :: rl)) with (S (lead false rl)). rewrite mod_S by lia.
      assert (Z0 : lead false rl mod ft = 0).
      { destruct rl as [|[] rl']; cbn [sgn_status] in Hs; try (apply Nat.mod_0_l; lia). lia. }
      rewrite Z0. destruct (Nat.eqb_spec 1 ft); [lia|reflexivity]. }
    cbn [level]. rewrite E. reflexivity.
Qed.

Lemma filter_sub : forall A (f g : A -> bool) l,
  length (filter f (filter g l)) <= length (filter f l).
Proof.
  intros A f g l. induction l as [|x l IH]; simpl; [lia|].
  destruct (g x), (f x) eqn:E; simpl; rewrite ?E; simpl; lia.
Qed.

Lemma live_del : forall id last (l : list (outst P)),
  length (filter (is_live last) (del_out id l)) <= length (filter (is_live last) l).
Proof. intros. apply filter_sub. Qed.

Lemma live_del_lt : forall last (l : list (outst P)) o, In o l -> is_live last o = true ->
  S (length (filter (is_live last) (del_out (o_id o) l))) <= length (filter (is_live last) l).
Proof.
  intros last l o. induction l as [|x l IH]; simpl; [intros []|]. intros [->|Hi] Hl.
  - rewrite Nat.eqb_refl. simpl. rewrite Hl. simpl. pose proof (live_del (o_id o) last l). lia.
  - specialize (IH Hi Hl). destruct (o_id x =? o_id o) eqn:E; simpl; destruct (is_live last x); simpl in *; lia.
Qed.

Lemma J_keep : forall p p' : proc, p_e p' = p_e p ->
  converged (p_s p') = converged (p_s p) ->
  (p_out p = [] -> p_out p' = []) -> live p' <= live p ->
  (c_async c = true -> protocol (p_hist p') -> protocol (p_hist p)) -> J p -> J p'.
Proof.
  intros p p' E1 E2 E3 E4 E5 H Pr. destruct (H (fun A => E5 A (Pr A))) as [A B C D F].
  constructor; rewrite ?E1, ?E2; auto. intros X Y. specialize (F X Y). lia.
Qed.

Lemma J_micro : forall p p', Inv c p -> RunInv c p -> EInv (p_e p) -> J p ->
  micro c hk p p' -> J p'.
Proof.
  intros p p' I R Ee Hj M. destruct M as [H1 H2|H1 H2|H1 H2|H1 H2 H3|n o e' l H1 H2 H3 H4 H5 H6 H7
    |n o e' H1 H2 H3 H4 H5 H6 H7|d rows H1 H2 H3 H4 H5 H6|q x k H1 H2 H3 H4|o H1 H2|o H1 H2
    |o ev v p' H1 H2 H3|o ev H1 H2| |].
  - eapply (@J_keep p); [reflexivity|reflexivity|auto|unfold live; simpl; lia|intros _ Hp; simpl in Hp; eapply protocol_prefix; exact Hp|assumption].
  - eapply (@J_keep p); [reflexivity|reflexivity|auto|unfold live; simpl; lia|intros _ Hp; simpl in Hp; eapply protocol_prefix; exact Hp|assumption].
  - eapply (@J_keep p); [reflexivity|reflexivity|auto|unfold live; simpl; lia|intros _ Hp; simpl in Hp; eapply protocol_prefix; exact Hp|assumption].
  - eapply (@J_keep p); [reflexivity|reflexivity|auto|unfold live; simpl; lia|intros _ Hp; simpl in Hp; eapply protocol_prefix; exact Hp|assumption].
  - (* generate *)
    intros Pr. assert (Pr0 : c_async c = true -> protocol (p_hist p))
      by (intros A; specialize (Pr A); simpl in Pr; eapply protocol_prefix; exact Pr).
    destruct (Hj Pr0) as [A B C D F]. simpl in H7. unfold srbf_generate in H7.
    apply rbind_ok in H7. destruct H7 as [ws [G1 G]]. apply rbind_ok in G. destruct G as [pts [G2 G]].
    apply rbind_ok in G. destruct G as [rws [G3 G]]. injection G as <- <-.
    constructor; simpl; auto; intros; congruence.
  - (* generate never converges *)
    exfalso. simpl in H7. unfold srbf_generate in H7.
    apply rbind_ok in H7. destruct H7 as [ws [G1 G]]. apply rbind_ok in G. destruct G as [pts [G2 G]].
    apply rbind_ok in G. destruct G as [rws [G3 G]]. discriminate.
  - (* restart *)
    intros Pr. assert (Pr0 : c_async c = true -> protocol (p_hist p))
      by (intros A; specialize (Pr A); simpl in Pr; eapply protocol_prefix; exact Pr).
    destruct (Hj Pr0) as [A B C D F]. constructor; simpl; try (intros; discriminate).
    + intros _. unfold flg. simpl. lia.
    + intros _. apply C. auto.
  - (* propose *)
    intros Pr. assert (Pr0 : c_async c = true -> protocol (p_hist p))
      by (intros A; specialize (Pr A); simpl in Pr; eapply protocol_prefix; exact Pr).
    destruct (Hj Pr0) as [A B C D F]. constructor; simpl; auto; intros; congruence.
  - (* accept *)
    eapply (@J_keep p); [reflexivity|reflexivity| | |intros _ Hp; simpl in Hp; eapply protocol_prefix; exact Hp|assumption].
    + simpl. intros ->. reflexivity.
    + unfold live. simpl. pose proof (ri_last R) as RL.
      assert (U : forall o', In o' (p_out p) -> o_id o' = o_id o -> o_ev o' = None).
      { intros o' Hi He. assert (o' = o) as ->; [|assumption].
        pose proof (inv_nodup I) as ND. clear -ND Hi He H1.
        induction (p_out p) as [|y l IH]; [contradiction|]. simpl in ND. inversion ND as [|? ? N1 N2]; subst.
        destruct Hi as [->|Hi], H1 as [->|H1]; auto.
        - exfalso. apply N1. rewrite He. apply in_map. assumption.
        - exfalso. apply N1. rewrite <- He. apply in_map. assumption. }
      revert U. generalize (p_out p) as l0. clear. intros l0. induction l0 as [|y l IH]; intros U; simpl; [lia|].
      assert (IH' := IH (fun o' Hi He => U o' (or_intror Hi) He)). clear IH.
      destruct (o_id y =? o_id o) eqn:E; simpl.
      * apply Nat.eqb_eq in E. assert (Y : o_ev y = None) by (apply U; simpl; auto).
        assert (LY : is_live (ev_last (p_s p)) y = true) by (unfold is_live; rewrite Y; reflexivity).
        rewrite LY. simpl. destruct (is_live (ev_last (p_s p)) (mkOut _ _ _ _)); simpl; lia.
      * destruct (is_live (ev_last (p_s p)) y); simpl; lia.
  - (* reject *)
    eapply (@J_keep p); [reflexivity| | | |intros _ Hp; simpl in Hp; eapply protocol_prefix; exact Hp|assumption].
    + simpl. destruct (o_kind o); simpl; [reflexivity|]. unfold on_adapt_reject. destruct (c_async c); reflexivity.
    + simpl. intros ->. reflexivity.
    + unfold live. simpl.
      replace (ev_last _) with (ev_last (p_s p)); [apply live_del|].
      destruct (o_kind o); simpl; [reflexivity|]. unfold on_adapt_reject. destruct (c_async c); reflexivity.
  - (* completion *)
    pose proof H3 as H3'. apply do_complete_ok in H3. destruct H3 as [e' [l [nx [cv [-> Hk]]]]].
    intros Pr. assert (Pr0 : c_async c = true -> protocol (p_hist p))
      by (intros A; specialize (Pr A); simpl in Pr; eapply protocol_prefix; exact Pr).
    destruct (Hj Pr0) as [A B C D F].
    destruct (o_kind o) eqn:Ek.
    + destruct Hk as [K1 [-> [-> ->]]]. simpl in K1. injection K1 as <-.
      constructor; cbn [p_s p_e p_out converged set_converged]; auto.
      * intros X Y. rewrite (D X Y) in H1. contradiction.
      * intros X Y. specialize (F X Y). unfold live in *. cbn [p_s p_out ev_last set_converged set_ev_next set_ev_last].
        pose proof (live_del (o_id o) (ev_last (p_s p)) (p_out p)). lia.
    + destruct Hk as [n [cv0 [K1 [-> [K2 K3]]]]].
      pose proof (base_completed_fields c (o_id o) (o_x o) v ev (p_s p)) as BF. cbv zeta in BF.
      destruct BF as [_ [BP [_ [_ [_ [BQ _]]]]]].
      assert (BL : ev_last (base_completed c (o_id o) (o_x o) v ev (p_s p)) = ev_last (p_s p)).
      { unfold base_completed. simpl. destruct (ev_last (p_s p) <? ev)%Z; reflexivity. }
      set (sb := base_completed c (o_id o) (o_x o) v ev (p_s p)) in *. clearbody sb.
      cbn [hk_adapt_completed hk srbf_hooks] in K1. pose proof (adapt_completed_cases _ _ _ _ _ K1) as K.
      cbv zeta in K. rewrite BL, BQ, BP in K.
      destruct K as [[-> [-> [-> Hl]]]|[[-> [-> [-> [Ha [Hl Hq]]]]]|[Ha [Hl Hq]]]].
      * (* not counted *)
        destruct (K2 eq_refl) as [-> ->]. simpl orb.
        constructor; cbn [p_s p_e p_out converged set_converged]; auto.
        -- intros X Y. rewrite (D X Y) in H1. contradiction.
        -- intros X Y. specialize (F X Y). unfold live in *. cbn [p_s p_out ev_last set_converged set_ev_next set_ev_last].
           pose proof (live_del (o_id o) (ev_last (p_s p)) (p_out p)). lia.
      * (* queued *)
        destruct (K2 eq_refl) as [-> ->]. simpl orb.
        constructor; cbn [p_s p_e p_out converged set_converged s_steps s_queue flg]; auto.
        -- intros [X|X]; [|congruence]. rewrite (D X Ha) in H1. contradiction.
        -- intros X Y. rewrite (D X Y) in H1. contradiction.
        -- intros X Y. congruence.
      * (* processed *)
        set (e1 := mkSrbf _ _ _ _ _ _ _ _) in Ha.
        assert (S1 : SInv ft e1) by (apply SInv_queue; exact (ei_s Ee)).
        destruct (adjust_SInv ft_pos S1 Ha) as [S2 [Q2 [T2 [_ [_ [_ [V2 N2]]]]]]]. cbv zeta in V2.
        destruct (adjust_flags S1 Ha) as [b Fb].
        assert (F1 : flg e1 = flg (p_e p)) by reflexivity. rewrite F1 in Fb.
        rewrite (radius_min_iff ft_pos S2) in V2. fold (flg e') in V2.
        pose proof (level_step b (flg (p_e p))) as LS.
        assert (CV : cv0 = false -> level ft (flg e') <= 5 /\ lead false (flg e') < 4 * ft).
        { intros ->. symmetry in V2. apply orb_false_iff in V2. destruct V2 as [V3 V4].
          apply Z.leb_gt in V3. apply Nat.leb_gt in V4. lia. }
        assert (LIVE : (S (length (filter (is_live (ev_last (p_s p))) (del_out (o_id o) (p_out p)))) <= live p)).
        { apply live_del_lt; [assumption|]. unfold is_live. rewrite H2. apply Z.ltb_lt. assumption. }
        assert (OUT : c_async c = false -> del_out (o_id o) (p_out p) = []).
        { intros X. destruct Hq as [Hq|[_ Hq]]; [congruence|]. rewrite (inv_pend I) in Hq.
          pose proof (del_out_length _ _ (inv_nodup I) H1) as DL.
          destruct (del_out (o_id o) (p_out p)); [reflexivity|simpl in DL; lia]. }
        assert (STEADY : converged (p_s p) = true -> c_async c = true ->
          s_status (p_e p) = 0%Z /\ live p = 1 /\ level ft (flg e') <= 6 /\ (Z.abs (s_status e') <= 1)%Z).
        { intros X Y. specialize (F X Y). assert (Z0 : s_status (p_e p) = 0%Z) by lia.
          split; [assumption|]. split; [lia|].
          assert (L0 : level ft (flg e') = level ft (flg (p_e p))).
          { rewrite Fb. apply level_same; auto. exact (ei_s Ee). }
          split; [rewrite L0; auto|].
          unfold adjust_step in Ha. destruct (s_queue e1); [discriminate|].
          change (s_status e1) with (s_status (p_e p)) in Ha. rewrite Z0 in Ha.
          assert (FT : (4 <= Z.of_nat ft)%Z) by (specialize (ft_async Y); lia).
          injection Ha as <- _ _. cbn [s_status].
          unfold succtol. change (Z.max 1 1) with 1%Z. change (Z.min (-1) (-1)) with (-1)%Z.
          destruct (improves _ _).
          - destruct (Z.leb_spec 1 (- Z.of_nat ft)); [lia|]. cbn. lia.
          - destruct (Z.leb_spec (-1) (- Z.of_nat ft)); [lia|]. cbn. lia. }
        assert (NEW : converged (p_s p) = false -> cv0 = true ->
          level ft (flg e') <= 6 /\ n = 1 /\ s_status e' = 0%Z).
        { intros X ->. destruct (A X) as [A1 A2]. rewrite Fb in *. split; [lia|].
          assert (Z0 : s_status e' = 0%Z).
          { symmetry in V2. apply orb_true_iff in V2. destruct V2 as [V3|V3].
            - apply Z.leb_le in V3. apply (lead_mod_zero ft_pos S2). fold (flg e'). rewrite Fb.
              
              destruct b; cbn [lead Bool.eqb] in V3 |- *; lia.
            - apply Nat.leb_le in V3. rewrite (si_status S2). fold (flg e'). rewrite Fb.
              destruct b; cbn [level] in V3, LS; cbn [sgn_status].
              + destruct (lead true (true :: flg (p_e p)) mod 3 =? 0); lia.
              + destruct (lead false (false :: flg (p_e p)) mod ft =? 0) eqn:Em; [|lia].
                apply Nat.eqb_eq in Em. rewrite Em. reflexivity. }
          split; [|assumption]. rewrite N2, Z0. reflexivity. }
        constructor; cbn [p_s p_e p_out converged set_converged]; auto.
        -- intros X. apply orb_false_iff in X. destruct X as [X _]. auto.
        -- intros X. destruct (converged (p_s p)) eqn:Ec.
           ++ destruct (c_async c) eqn:Ea; [destruct STEADY as [_ [_ [Y _]]]; auto|].
              rewrite (D eq_refl eq_refl) in H1. contradiction.
           ++ rewrite orb_false_r in X. apply NEW; auto.
        -- intros X Y. destruct (converged (p_s p)) eqn:Ec.
           ++ destruct STEADY as [_ [L1 [_ L2]]]; auto. unfold live.
              cbn [p_s p_out ev_last set_converged set_ev_next set_ev_last].
              assert (G : length (filter (is_live l) (del_out (o_id o) (p_out p))) = 0); [|lia].
              assert (ZL : filter (is_live (ev_last (p_s p))) (del_out (o_id o) (p_out p)) = [])
                by (apply length_zero_iff_nil; lia).
              assert (LL : (ev_last (p_s p) <= l)%Z).
              { pose proof (ri_last R). destruct n; [destruct (K2 eq_refl); lia|destruct K3; lia]. }
              revert ZL. generalize (del_out (o_id o) (p_out p)). intros m. induction m as [|y m IH]; intros ZL; [reflexivity|].
              simpl in *. unfold is_live at 1. unfold is_live at 1 in ZL. destruct (o_ev y) as [ey|]; [|discriminate].
              destruct (Z.ltb_spec (ev_last (p_s p)) ey); [discriminate|].
              destruct (Z.ltb_spec l ey); [lia|]. auto.
           ++ rewrite orb_false_r in X. destruct NEW as [_ [N3 Z0]]; auto. rewrite Z0. subst n.
              destruct K3 as [K3 _]; [lia|]. unfold live.
              cbn [p_s p_out ev_last set_converged set_ev_next set_ev_last].
              assert (U1 : length (undecided (p_hist p)) <= 1) by (apply undecided_le1; auto).
              rewrite (inv_und I), map_length in U1.
              assert (UU : length (filter (is_live l) (del_out (o_id o) (p_out p))) <=
                           length (filter (@is_und P) (p_out p))); [|simpl; lia].
              eapply Nat.le_trans with (length (filter (is_live l) (p_out p))); [apply live_del|].
              pose proof (ri_ev R) as RE. revert RE. generalize (p_out p) as m.
              induction m as [|y m IH]; intros RE; simpl; [lia|].
              assert (IH' := IH (fun o ev Hi => RE o ev (or_intror Hi))). unfold is_live at 1. unfold is_und at 1.
              destruct (o_ev y) as [ey|] eqn:Ey; simpl; [|lia].
              specialize (RE y ey (or_introl eq_refl) Ey). destruct (Z.ltb_spec l ey); simpl; lia.
  - (* abort *)
    eapply (@J_keep p); [reflexivity| | | |intros _ Hp; simpl in Hp; eapply protocol_prefix; exact Hp|assumption].
    + simpl. destruct (o_kind o); reflexivity.
    + simpl. intros ->. reflexivity.
    + unfold live. simpl. replace (ev_last _) with (ev_last (p_s p)); [apply live_del|].
      destruct (o_kind o); reflexivity.
  - eapply (@J_keep p); [reflexivity|reflexivity|auto|unfold live; simpl; lia|intros _ Hp; simpl in Hp; eapply protocol_prefix; exact Hp|assumption].
  - eapply (@J_keep p); [reflexivity| |auto|unfold live; simpl; lia|intros _ Hp; simpl in Hp; eapply protocol_prefix; exact Hp|assumption].
    simpl. unfold resume. destruct (phase (p_s p) =? 1); reflexivity.
Qed.

Definition DInv (p : proc) : Prop :=
  (c_async c = true -> protocol (p_hist p)) ->
  subseq (concat (s_steps (p_e p)) ++ s_queue (p_e p)) (adapt_vals (p_hist p)) /\
  (c_async c = false ->
     concat (s_steps (p_e p)) ++ s_queue (p_e p) = adapt_vals (p_hist p)) /\
  (c_async c = true -> Forall (fun l => length l = 1) (s_steps (p_e p))).

Lemma DInv_keep : forall (p p' : proc) evs, s_steps (p_e p') = s_steps (p_e p) ->
  s_queue (p_e p') = s_queue (p_e p) -> p_hist p' = p_hist p ++ evs ->
  (evs = [] \/ exists ev, evs = [ev] /\ adapt_vals (p_hist p ++ [ev]) = adapt_vals (p_hist p)) ->
  DInv p -> DInv p'.
Proof.
  intros p p' evs E1 E2 E3 E4 D Pr.
  destruct D as [A [B C]].
  - intros X. specialize (Pr X). rewrite E3 in Pr. eapply protocol_prefix; exact Pr.
  - rewrite E1, E2. assert (E : adapt_vals (p_hist p') = adapt_vals (p_hist p)).
    { rewrite E3. destruct E4 as [->|[ev [-> E4]]]; [rewrite app_nil_r; reflexivity|assumption]. }
    rewrite E. auto.
Qed.

Lemma concat_snoc : forall A (ls : list (list A)) l, concat (ls ++ [l]) = concat ls ++ l.
Proof. intros. rewrite concat_app. simpl. rewrite app_nil_r. reflexivity. Qed.

Ltac dkeep p E :=
  eapply (@DInv_keep p) with (evs := E); [reflexivity|reflexivity|reflexivity
  |first [left; reflexivity|right; eexists; split; [reflexivity|rewrite adapt_vals_snoc; reflexivity]]
  |eassumption].

Lemma DInv_micro : forall p p', Inv c p -> RunInv c p -> (c_async c = false -> FullInv p) ->
  EInv (p_e p) -> J p -> DInv p -> micro c hk p p' -> DInv p'.
Proof.
  intros p p' I R FI Ee Hj D M. destruct M as [H1 H2|H1 H2|H1 H2|H1 H2 H3|n o e' l H1 H2 H3 H4 H5 H6 H7
    |n o e' H1 H2 H3 H4 H5 H6 H7|d rows H1 H2 H3 H4 H5 H6|q x k H1 H2 H3 H4|o H1 H2|o H1 H2
    |o ev v p' H1 H2 H3|o ev H1 H2| |].
  - dkeep p [@EvNone P val].
  - dkeep p [@EvTerminate P val].
  - dkeep p [@EvNone P val].
  - dkeep p (@nil (event P val)).
  - simpl in H7. unfold srbf_generate in H7.
    apply rbind_ok in H7. destruct H7 as [ws [G1 G]]. apply rbind_ok in G. destruct G as [pts [G2 G]].
    apply rbind_ok in G. destruct G as [rws [G3 G]]. injection G as <- <-.
    dkeep p [@EvGenerate P val n (Some rws)].
  - exfalso. simpl in H7. unfold srbf_generate in H7.
    apply rbind_ok in H7. destruct H7 as [ws [G1 G]]. apply rbind_ok in G. destruct G as [pts [G2 G]].
    apply rbind_ok in G. destruct G as [rws [G3 G]]. discriminate.
  - intros Pr. assert (Pr0 : c_async c = true -> protocol (p_hist p))
      by (intros A; specialize (Pr A); simpl in Pr; eapply protocol_prefix; exact Pr).
    destruct (Hj Pr0) as [A B C _ _]. simpl. rewrite (C (or_introl H2)).
    rewrite adapt_vals_snoc. repeat split; auto. constructor.
  - dkeep p [@EvPropose P val (p_next p) k x].
  - dkeep p [@EvAccept P val (o_id o)].
  - dkeep p [@EvReject P val (o_id o) (o_kind o) (o_x o)].
  - apply do_complete_ok in H3. destruct H3 as [e' [l [nx [cv [-> Hk]]]]].
    destruct (o_kind o) eqn:Ek.
    + destruct Hk as [K1 _]. simpl in K1. injection K1 as <-.
      eapply (@DInv_keep p) with (evs := [EvComplete (o_id o) KInit (o_x o) v]);
        [reflexivity|reflexivity|reflexivity| |exact D].
      right. eexists. split; [reflexivity|]. apply adapt_vals_snoc.
    + destruct Hk as [n [cv0 [K1 _]]].
      assert (BL : ev_last (base_completed c (o_id o) (o_x o) v ev (p_s p)) = ev_last (p_s p)).
      { unfold base_completed. simpl. destruct (ev_last (p_s p) <? ev)%Z; reflexivity. }
      cbn [hk_adapt_completed hk srbf_hooks] in K1. apply adapt_completed_cases in K1.
      cbv zeta in K1. rewrite BL in K1.
      intros Pr. cbn [p_hist p_e] in *. assert (Pr0 : c_async c = true -> protocol (p_hist p))
        by (intros A; specialize (Pr A); eapply protocol_prefix; exact Pr).
      destruct (D Pr0) as [D1 [D2 D3]]. destruct (Hj Pr0) as [_ _ Jq _ _].
      rewrite adapt_vals_snoc.
      assert (IN : (ev_last (p_s p) < ev)%Z ->
                   existsb (fun i => (i =? o_id o)%nat) (started_in_run (p_hist p)) = true).
      { intros Hl. apply in_existsb. eapply ri_fresh; eauto. }
      destruct K1 as [[-> [_ [_ Hl]]]|[[-> [_ [_ [Ha [Hl Hq]]]]]|[Ha [Hl Hq]]]].
      * split; [|split; [|exact D3]].
        -- destruct (existsb _ _); [|exact D1]. rewrite <- (app_nil_r (_ ++ _)).
           apply subseq_app; [exact D1|apply subseq_nil_l].
        -- intros X. rewrite <- (D2 X). destruct (existsb _ _) eqn:Ex; [|reflexivity].
           apply existsb_exists in Ex. destruct Ex as [i [Hi Ei]]. apply Nat.eqb_eq in Ei. subst i.
           destruct (FI X) as [F1 _]. specialize (F1 _ _ H1 H2 Hi). lia.
      * rewrite (IN Hl). cbn [s_steps s_queue]. rewrite app_assoc. repeat split.
        -- apply subseq_app; [exact D1|apply subseq_refl].
        -- intros X. rewrite (D2 X). reflexivity.
        -- exact D3.
      * rewrite (IN Hl). set (e1 := mkSrbf _ _ _ _ _ _ _ _) in Ha.
        assert (S1 : SInv ft e1) by (apply SInv_queue; exact (ei_s Ee)).
        destruct (adjust_SInv ft_pos S1 Ha) as [_ [Q2 [T2 _]]]. rewrite Q2, T2. cbn [s_steps s_queue e1].
        rewrite concat_snoc, app_nil_r, app_assoc. repeat split.
        -- apply subseq_app; [exact D1|apply subseq_refl].
        -- intros X. rewrite (D2 X). reflexivity.
        -- intros X. apply Forall_app. split; [auto|]. rewrite (Jq (or_intror X)). repeat constructor.
  - dkeep p [@EvAbort P val (o_id o) (o_kind o) (o_x o)].
  - dkeep p [@EvStop P val].
  - dkeep p [@EvResume P val].
Qed.

(** ** All reached states *)
Record AllInv (p : proc) : Prop := mkAll {
  a_run : RunInv c p;
  a_e : EInv (p_e p);
  a_j : J p;
  a_full : c_async c = false -> FullInv p;
  a_d : DInv p
}.

Lemma sync_bump_idle : c_async c = false ->
  forall e s x v ev e' n cv, hk_adapt_completed hk e s x v ev = Ok (e', n, cv) ->
     0 < n -> pending_evals s = 0%Z.
Proof using P c ft weights.
  clear ft_async ft_pos.
  intros Ha e s x v ev e' n cv H Hn. cbn [hk_adapt_completed hk srbf_hooks] in H.
  apply adapt_completed_cases in H. cbv zeta in H.
  destruct H as [[_ [-> _]]|[[_ [-> _]]|[_ [_ [X|[_ X]]]]]]; try lia; congruence.
Qed.

Lemma EInv_micro : forall p p', EInv (p_e p) -> micro c hk p p' -> EInv (p_e p').
Proof.
  intros p p' E M. destruct M as [H1 H2|H1 H2|H1 H2|H1 H2 H3|n o e' l H1 H2 H3 H4 H5 H6 H7
    |n o e' H1 H2 H3 H4 H5 H6 H7|d rows H1 H2 H3 H4 H5 H6|q x k H1 H2 H3 H4|o H1 H2|o H1 H2
    |o ev v p' H1 H2 H3|o ev H1 H2| |]; try exact E.
  - simpl. eapply EInv_generate; [exact E|exact H7].
  - simpl. eapply EInv_generate; [exact E|exact H7].
  - simpl. apply EInv_init. assumption.
  - apply do_complete_ok in H3. destruct H3 as [e' [l [nx [cv [-> Hk]]]]]. cbn [p_e].
    destruct (o_kind o).
    + destruct Hk as [K1 _]. simpl in K1. injection K1 as <-. assumption.
    + destruct Hk as [n [cv0 [K1 _]]]. eapply EInv_complete; [exact E|exact K1].
Qed.

Lemma AllInv_micros : forall design s e p, construct c hk design srbf0 = Ok (s, e) ->
  micros c hk (init_proc (s, e)) p -> AllInv p.
Proof.
  intros design s e p H1 M.
  assert (I0 : Inv c (init_proc (s, e))) by (eapply Inv_init; eassumption).
  apply (@micros_from P val srbf (cand_search P) c hk AllInv _ I0); [| |exact M].
  - assert (R0 : RunInv c (init_proc (s, e))).
    { apply (@RunInv_reached P val srbf (cand_search P) c hk design srbf0). exists []. left.
      unfold run. simpl. unfold start. rewrite H1. reflexivity. }
    destruct (construct_form _ _ _ _ H1) as [d [_ [rows [_ [_ HS]]]]].
    assert (Ee : e = srbf_init srbf0).
    { unfold construct in H1. apply rbind_ok in H1. destruct H1 as [s1 [_ H3]]. injection H3 as _ <-. reflexivity. }
    apply sample_initial_ok in HS. destruct HS as [d1 [rows1 [_ [_ [_ ->]]]]].
    constructor; [exact R0| | | |].
    + rewrite Ee. simpl. apply EInv_init. constructor; simpl; auto.
      * apply (SInv_init ft srbf0).
      * intros Hl. split; [reflexivity|]. rewrite Nat.mod_0_l by assumption. reflexivity.
    + intros _. rewrite Ee. constructor; simpl; try (intros; discriminate); auto.
      intros _. unfold flg. simpl. lia.
    + intros _. split; simpl; [intros; contradiction|reflexivity].
    + intros _. rewrite Ee. simpl. repeat split; constructor.
  - intros q r Iq [A B C D F] N. constructor.
    + eapply RunInv_micro; eassumption.
    + eapply EInv_micro; eassumption.
    + eapply J_micro; eassumption.
    + intros X. eapply FullInv_micro; [exact (sync_bump_idle X)|exact Iq|exact A|exact (D X)|exact N].
    + eapply DInv_micro; eassumption.
Qed.

Lemma AllInv_reached : forall design p, reached c hk design srbf0 p -> AllInv p.
Proof.
  intros design p H. apply reached_micros in H. destruct H as [[s e] [H1 M]].
  eapply AllInv_micros; eassumption.
Qed.
End Run.
