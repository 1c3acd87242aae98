(** * Properties of SRBFStrategy and DYCORSStrategy (C07, C10-C12, C19-C22).

    The theorems range over all configurations, weight lists, dimensions, candidate searches,
    objective values (rational or +inf), schedules, crashes and resumes. *)
From Coq Require Import List Arith ZArith Lia Bool QArith Qabs Qminmax Qpower Lqa Permutation.
From Verif Require Import Base Strategy StrategySpec StrategyProofs StrategyInv StrategyInv2
  StrategyInv3 StrategyInv4 StrategySerial PropStrategy SRBF SRBFProofs SRBFInv.
Import ListNotations.
Local Close Scope Q_scope.

Set Implicit Arguments.

Section Props.
Variable P : Type.
Variable c : cfg P val.
Variable weights : list Q.
Variable dim : nat.
Variable design : res (list P).

(** failtol of the strategy, as a natural number. *)
Definition ft : nat := Z.to_nat (failtol_of (c_async c) dim (c_batch c)).
Definition srbf_strategy : hooks P val srbf (cand_search P) :=
  srbf_hooks (failtol_of (c_async c) dim (c_batch c)) (c_async c) weights P.
Notation Reached := (reached c srbf_strategy design srbf0).

(** A legal configuration (check_input). *)
Definition legal : Prop := c_async c = true \/ 0 < c_batch c.
Hypothesis Hlegal : legal.

Lemma failtol_pos : (0 < failtol_of (c_async c) dim (c_batch c))%Z /\
  (c_async c = true -> 4 <= failtol_of (c_async c) dim (c_batch c))%Z.
Proof.
  unfold failtol_of. destruct (c_async c) eqn:E; [split; intros; lia|]. split; [|discriminate].
  destruct Hlegal as [H|H]; [congruence|].
  assert (1 <= ceil_div 4 (c_batch c))%Z; [|lia].
  unfold ceil_div. apply Z.div_le_lower_bound; lia.
Qed.

Lemma ft_eq : Z.of_nat ft = failtol_of (c_async c) dim (c_batch c).
Proof. unfold ft. apply Z2Nat.id. pose proof failtol_pos. lia. Qed.
Lemma ft_nz : ft <> 0.
Proof. pose proof failtol_pos. pose proof ft_eq. lia. Qed.
Lemma ft_4 : c_async c = true -> 4 <= ft.
Proof. intros H. destruct failtol_pos as [_ A]. specialize (A H). pose proof ft_eq. lia. Qed.

(** What failtol is, without the formula: in asynchronous mode the number of variables but at
    least 4; in synchronous mode the least number of batches holding that many evaluations. *)
Definition is_failtol (k : nat) : Prop :=
  if c_async c then k = Nat.max dim 4
  else dim <= k * c_batch c /\ 4 <= k * c_batch c /\
       forall j, dim <= j * c_batch c -> 4 <= j * c_batch c -> k <= j.

Lemma ceil_div_spec : forall a b k, 0 < b -> (ceil_div a b <= Z.of_nat k)%Z <-> a <= k * b.
Proof.
  intros a b k Hb. unfold ceil_div.
  pose proof (Z.div_mod (Z.of_nat a + Z.of_nat b - 1) (Z.of_nat b)) as D.
  pose proof (Z.mod_pos_bound (Z.of_nat a + Z.of_nat b - 1) (Z.of_nat b)) as M.
  set (d := ((Z.of_nat a + Z.of_nat b - 1) / Z.of_nat b)%Z) in *. split; intros H.
  - apply Nat2Z.inj_le. rewrite Nat2Z.inj_mul. nia.
  - apply Nat2Z.inj_le in H. rewrite Nat2Z.inj_mul in H. nia.
Qed.

Lemma is_failtol_ft : forall k, is_failtol k <-> k = ft.
Proof.
  intros k. pose proof ft_eq as E. pose proof failtol_pos as Fp. unfold is_failtol. unfold failtol_of in *.
  destruct (c_async c) eqn:Ea; [lia|].
  destruct Hlegal as [Hb|Hb]; [congruence|].
  assert (W : forall j, dim <= j * c_batch c /\ 4 <= j * c_batch c <-> ft <= j).
  { intros j. rewrite <- !ceil_div_spec by assumption. lia. }
  split.
  - intros [A [B D]]. assert (ft <= k) by (apply W; auto). assert (k <= ft); [|lia]. apply D; apply W; lia.
  - intros ->. assert (X : ft <= ft) by lia. apply W in X. split; [tauto|]. split; [tauto|].
    intros j Y Z. apply W. auto.
Qed.

Lemma hk_eq : hk c ft weights = srbf_strategy.
Proof. unfold hk, srbf_strategy. rewrite ft_eq. reflexivity. Qed.

Lemma all_inv : forall p, Reached p -> AllInv c ft weights p.
Proof. intros p H. rewrite <- hk_eq in H. exact (AllInv_reached ft_nz ft_4 H). Qed.

(** POAP decides each proposal before the next call; needed in asynchronous mode only. *)
Notation decided p := (c_async c = true -> protocol (p_hist p)).

(** ** C19 *)

(** The radius starts at the double nearest to 0.2 and its minimum is 0.2 / 64. *)
Theorem C19_constants : (Qabs (r_max - (1 # 5)) < 1 # 72057594037927936)%Q /\ (64 * r_min == r_max)%Q.
Proof. split; [reflexivity|reflexivity]. Qed.

Theorem C19_radius_range : forall p, Reached p -> decided p ->
  exists k, k <= 6 /\ (s_radius (p_e p) == r_max * (1 # 2) ^ Z.of_nat k)%Q /\
    (k = 6 -> converged (p_s p) = true) /\
    (converged (p_s p) = false -> (r_min < s_radius (p_e p))%Q).
Proof.
  intros p H Pr. pose proof (all_inv H) as A. destruct (a_j A Pr) as [J1 J2 _ _ _].
  pose proof (si_radius (ei_s (a_e A))) as R. fold (flg (p_e p)) in R.
  exists (level ft (flg (p_e p))). split; [|split; [exact R|split]].
  - destruct (converged (p_s p)); [auto|]. destruct (J1 eq_refl). lia.
  - intros E. destruct (converged (p_s p)) eqn:Ec; [reflexivity|].
    destruct (J1 eq_refl). lia.
  - intros Ec. destruct (J1 Ec) as [J3 _]. rewrite R. unfold r_min.
    change (1 # 64)%Q with (half_pow 6). apply Qmult_lt_l; [reflexivity|]. apply (half_pow_lt ft_nz). lia.
Qed.

(** Until the first adaptive evaluation of the current run completes, the radius is 0.2. *)
Theorem C19_radius_start : forall p, Reached p -> decided p ->
  adapt_vals (p_hist p) = [] -> (s_radius (p_e p) == r_max)%Q.
Proof.
  intros p H Pr E. pose proof (all_inv H) as A. destruct (a_d A Pr) as [D _]. rewrite E in D.
  assert (S0 : s_steps (p_e p) = []).
  { pose proof (ei_steps (a_e A)) as N. destruct (s_steps (p_e p)) as [|l ls]; [reflexivity|].
    inversion N as [|? ? N1 N2]; subst. destruct l as [|v l]; [contradiction|]. simpl in D. inversion D. }
  pose proof (si_radius (ei_s (a_e A))) as R. rewrite S0 in R. rewrite R. unfold half_pow. simpl. field.
Qed.

(** A completed evaluation leaves the radius, halves it, or doubles it up to 0.2. *)
Theorem C19_radius_moves : forall p o ev v p', In o (p_out p) ->
  do_complete c srbf_strategy o ev v p = Ok p' ->
  let r := s_radius (p_e p) in let r' := s_radius (p_e p') in
  (r' == r)%Q \/ (r' == r / 2)%Q \/ (r' == Qmin (2 * r) r_max)%Q.
Proof.
  intros p o ev v p' _ H. apply do_complete_ok in H. destruct H as [e' [l [nx [cv [-> Hk]]]]].
  cbn [p_e]. destruct (o_kind o).
  - destruct Hk as [K _]. injection K as <-. left. reflexivity.
  - destruct Hk as [n [cv0 [K _]]]. cbn [hk_adapt_completed srbf_strategy srbf_hooks] in K.
    rewrite <- ft_eq in K. apply adapt_completed_cases in K. cbv zeta in K.
    destruct K as [[-> _]|[[-> _]|[K _]]]; [left; reflexivity|left; reflexivity|].
    unfold adjust_step in K. cbn [s_queue s_status s_failcount s_radius s_fbest s_next s_steps s_used] in K.
    destruct (s_queue (p_e p) ++ [v]) as [|w ws]; [discriminate|].
    injection K as <- _ _. cbn [s_radius].
    destruct (improves _ _).
    + destruct (Z.max 1 (s_status (p_e p) + 1) <=? - Z.of_nat ft)%Z eqn:E1.
      * apply Z.leb_le in E1. lia.
      * destruct (succtol <=? _)%Z; [right; right; reflexivity|left; reflexivity].
    + destruct (Z.min (-1) (s_status (p_e p) - 1) <=? - Z.of_nat ft)%Z eqn:E1.
      * simpl. right. left. reflexivity.
      * destruct (succtol <=? _)%Z eqn:E2; [|left; reflexivity].
        apply Z.leb_le in E2. unfold succtol in E2. lia.
Qed.

(** ** C20 *)

(** The steps the strategy has processed are the completed adaptive evaluations of the current
    run: in synchronous mode all of them, grouped in steps (and possibly a last unfinished
    group); in asynchronous mode single evaluations, in completion order (those begun before
    the last change of the radius are not counted). *)
Theorem C20_steps_are_evaluations : forall p, Reached p -> decided p ->
  let steps := s_steps (p_e p) in let rest := s_queue (p_e p) in
  Forall (fun l => l <> []) steps /\
  subseq (concat steps ++ rest) (adapt_vals (p_hist p)) /\
  (c_async c = false -> concat steps ++ rest = adapt_vals (p_hist p)) /\
  (c_async c = true -> rest = [] /\ Forall (fun l => length l = 1) steps).
Proof.
  intros p H Pr. pose proof (all_inv H) as A. destruct (a_d A Pr) as [D1 [D2 D3]].
  cbv zeta. split; [exact (ei_steps (a_e A))|]. split; [exact D1|]. split; [exact D2|].
  intros X. split; [|auto]. destruct (a_j A Pr). auto.
Qed.

(** The radius is determined by the improving/failing flags of the steps: [level] counts one
    halving for each failtol-th consecutive failure and takes one back (not below zero) for
    each third consecutive success. *)
Theorem C20_step_rule : forall failtol p, is_failtol failtol -> Reached p ->
  let newest_first := rev (flags (s_steps (p_e p))) in
  (s_radius (p_e p) == r_max * (1 # 2) ^ Z.of_nat (level failtol newest_first))%Q.
Proof. intros k p F H. apply is_failtol_ft in F. subst k. exact (si_radius (ei_s (a_e (all_inv H)))). Qed.

(** Convergence is flagged by a completed evaluation exactly if it makes the number of
    consecutive failures reach 4 failtol or the radius reach its minimum. *)
Theorem C20_convergence : forall failtol p o ev v p', is_failtol failtol -> Reached p -> decided p -> In o (p_out p) ->
  o_ev o = Some ev ->
  do_complete c srbf_strategy o ev v p = Ok p' -> converged (p_s p) = false ->
  let newest_first := rev (flags (s_steps (p_e p'))) in
  (converged (p_s p') = true <->
   lead false newest_first = 4 * failtol \/ (s_radius (p_e p') == r_min)%Q).
Proof.
  intros k p o ev v p' F H Pr Hi Ho Hc E. pose proof (all_inv H) as A. cbv zeta.
  destruct (a_j A Pr) as [J1 _ _ _ _]. destruct (J1 E) as [L1 L2]. clear J1.
  apply is_failtol_ft in F. subst k.
  assert (Rm : forall e, SInv ft e -> level ft (flg e) <= 6 ->
    ((s_radius e == r_min)%Q <-> level ft (flg e) = 6)).
  { intros e S L. pose proof (radius_min_iff ft_nz S) as Q. fold (flg e) in Q. split; intros X.
    - assert (Y : Qle_bool (s_radius e) r_min = true) by (apply Qle_bool_iff; rewrite X; apply Qle_refl).
      rewrite Y in Q. symmetry in Q. apply Nat.leb_le in Q. lia.
    - pose proof (si_radius S) as R. fold (flg e) in R. rewrite X in R. rewrite R. reflexivity. }
  pose proof (ei_s (a_e A)) as S0.
  apply do_complete_ok in Hc. destruct Hc as [e' [l [nx [cv [-> Hk]]]]].
  cbn [p_e p_s converged set_converged].
  assert (SAME : forall e2, s_steps e2 = s_steps (p_e p) -> s_radius e2 = s_radius (p_e p) ->
     (false = true <-> lead false (rev (flags (s_steps e2))) = 4 * ft \/ (s_radius e2 == r_min)%Q)).
  { intros e2 E1 E2. rewrite E1, E2. fold (flg (p_e p)). split; [discriminate|].
    intros [X|X]; [lia|]. apply (Rm _ S0) in X; lia. }
  destruct (o_kind o).
  - destruct Hk as [K [_ [_ ->]]]. injection K as <-. rewrite E. apply SAME; reflexivity.
  - destruct Hk as [n [cv0 [K [-> _]]]]. rewrite E, orb_false_r.
    cbn [hk_adapt_completed srbf_strategy srbf_hooks] in K.
    rewrite <- ft_eq in K. apply adapt_completed_cases in K. cbv zeta in K.
    destruct K as [[-> [_ [-> _]]]|[[-> [_ [-> _]]]|[K _]]];
      [apply SAME; reflexivity|apply SAME; reflexivity|].
    set (e1 := mkSrbf _ _ _ _ _ _ _ _) in K.
    assert (S1 : SInv ft e1) by (apply SInv_queue; exact S0).
    destruct (adjust_SInv ft_nz S1 K) as [S2 [_ [_ [_ [_ [_ [V2 _]]]]]]]. cbv zeta in V2.
    destruct (adjust_flags ft_nz S1 K) as [b Fb]. change (flg e1) with (flg (p_e p)) in Fb.
    rewrite (radius_min_iff ft_nz S2) in V2. fold (flg e') in *.
    assert (LL : level ft (flg e') <= 6)
      by (rewrite Fb; pose proof (level_step ft b (flg (p_e p))); lia).
    assert (LF : lead false (flg e') <= 4 * ft)
      by (rewrite Fb; destruct b; cbn [lead Bool.eqb]; lia).
    rewrite (Rm _ S2 LL). rewrite V2. rewrite orb_true_iff, Z.leb_le, Nat.leb_le. lia.
Qed.

(** ** C21.  Missing: the initial design is not part of the comparison, so the first adaptive
    step always counts as improving (C21_first_step_refuted), and the reference is the value of
    the last improving step, which can be up to 0.1 percent above the best value seen. *)
Theorem C21_improvement_rule_partial : forall p, Reached p ->
  let steps := s_steps (p_e p) in let ref := s_fbest (p_e p) in
  (* the reference, as long as it is infinite, is one of the processed values; none of them is
     better by more than 0.1 percent *)
  (steps <> [] -> In ref (concat steps)) /\
  (forall v, In v (concat steps) ->
     match ref, v with
     | Fin b, Fin x => (b - (1 # 1000) * Qabs b <= x)%Q
     | PInf, _ => v = PInf
     | Fin _, PInf => True
     end) /\
  (* the next step counts as improving exactly if its smallest value is better than the
     reference by more than 0.1 percent, or if the reference is infinite *)
  (forall l, l <> [] ->
     (last (flags (steps ++ [l])) false = true <->
      match ref, step_best l with
      | Fin b, Fin x => (x < b - (1 # 1000) * Qabs b)%Q
      | PInf, _ => True
      | Fin _, PInf => False
      end)).
Proof.
  intros p H. pose proof (all_inv H) as A. pose proof (ei_s (a_e A)) as S0.
  pose proof (ei_steps (a_e A)) as N0. cbv zeta. rewrite (si_fbest S0).
  set (steps := s_steps (p_e p)) in *. clearbody steps. split; [|split].
  - intros Hn. destruct (ref_from_in N0 PInf) as [E|E]; [|assumption].
    pose proof (ref_from_near N0 PInf [] (fun v (Hv : In v []) => match Hv with end)) as Nr.
    simpl in Nr. rewrite E in Nr |- *. unfold near in Nr.
    destruct steps as [|[|m l] ls]; [contradiction| |].
    + inversion N0; contradiction.
    + rewrite <- (Nr m) at 1 by (left; reflexivity). left. reflexivity.
  - intros v Hv.
    pose proof (ref_from_near N0 PInf [] (fun v (Hv : In v []) => match Hv with end)) as Nr.
    simpl in Nr. unfold near in Nr. destruct (ref_from PInf steps) as [b|]; [|apply Nr; assumption].
    specialize (Nr v Hv). destruct v as [x|]; [|exact I]. simpl in Nr. apply Qlt_b_false in Nr. exact Nr.
  - intros l Hl. unfold flags. rewrite flags_from_app. cbn [flags_from]. rewrite last_last.
    destruct (ref_from PInf steps) as [b|]; simpl; [|tauto].
    destruct (step_best l) as [x|]; simpl; [apply Qlt_b_iff|split; [discriminate|contradiction]].
Qed.

(** ** C22 *)

(** Number of adaptive points asked for so far. *)
Definition asked (h : list (event P val)) : nat :=
  list_sum (map (fun ev => match ev with EvGenerate n _ => n | _ => 0 end) h).

Lemma asked_app : forall h1 h2, asked (h1 ++ h2) = asked h1 + asked h2.
Proof. intros. unfold asked. rewrite map_app, list_sum_app. reflexivity. Qed.

Lemma used_asked : forall p, Reached p -> weights <> [] ->
  length (s_used (p_e p)) = asked (p_hist p).
Proof.
  intros p H Hw. rewrite <- hk_eq in H. apply reached_micros in H. destruct H as [[s e] [H1 M]].
  assert (I0 : Inv c (init_proc (s, e))) by (eapply Inv_init; eassumption).
  assert (Q : EInv ft weights (p_e p) /\ length (s_used (p_e p)) = asked (p_hist p)); [|tauto].
  assert (Hl : length weights <> 0) by (destruct weights; [contradiction|discriminate]).
  apply (@micros_from P val srbf (cand_search P) c (hk c ft weights)
    (fun q => EInv ft weights (p_e q) /\ length (s_used (p_e q)) = asked (p_hist q)) _ I0); [| |exact M].
  - assert (Ee : e = srbf_init srbf0).
    { unfold construct in H1. apply rbind_ok in H1. destruct H1 as [s1 [_ H3]]. injection H3 as _ <-. reflexivity. }
    subst e. split; [|reflexivity]. simpl. apply EInv_init. constructor; simpl; auto.
    + apply (SInv_init ft srbf0).
    + intros _. split; [reflexivity|]. rewrite Nat.mod_0_l by assumption. reflexivity.
  - intros q r Iq [Eq Q] N. split; [eapply EInv_micro; [exact ft_nz|exact Eq|exact N]|].
    destruct N as [G1 G2|G1 G2|G1 G2|G1 G2 G3|n o e' l G1 G2 G3 G4 G5 G6 G7
    |n o e' G1 G2 G3 G4 G5 G6 G7|d rows G1 G2 G3 G4 G5 G6|qq x k G1 G2 G3 G4|o G1 G2|o G1 G2
    |o ev v p' G1 G2 G3|o ev G1 G2| |]; try (simpl; rewrite asked_app; unfold asked at 2; simpl; rewrite Nat.add_0_r; exact Q).
    + cbn [hk_generate hk srbf_hooks] in G7. unfold srbf_generate in G7.
      apply rbind_ok in G7. destruct G7 as [[ws nx] [X1 G]]. apply rbind_ok in G. destruct G as [pts [X2 G]].
      apply rbind_ok in G. destruct G as [rws [X3 G]]. injection G as <- <-.
      simpl. rewrite asked_app, app_length, Q. unfold asked at 3. simpl.
      apply get_weights_spec in X1; [|assumption|].
      * destruct X1 as [-> _]. rewrite map_length, seq_length. lia.
      * destruct (ei_w Eq Hl) as [_ ->]. apply Nat.mod_upper_bound. assumption.
    + cbn [hk_generate hk srbf_hooks] in G7. unfold srbf_generate in G7. exfalso.
      apply rbind_ok in G7. destruct G7 as [[ws nx] [X1 G]]. apply rbind_ok in G. destruct G as [pts [X2 G]].
      apply rbind_ok in G. destruct G as [rws [X3 G]]. discriminate.
    + apply do_complete_ok in G3. destruct G3 as [e' [l [nx [cv [-> Hk]]]]]. cbn [p_e p_hist].
      rewrite asked_app. unfold asked at 2. cbn [map list_sum fold_right]. rewrite Nat.add_0_r, <- Q.
      destruct (o_kind o).
      * destruct Hk as [K1 _]. injection K1 as <-. reflexivity.
      * destruct Hk as [n [cv0 [K1 _]]]. cbn [hk_adapt_completed hk srbf_hooks] in K1.
        apply adapt_completed_cases in K1. cbv zeta in K1.
        destruct K1 as [[-> _]|[[-> _]|[K1 _]]]; [reflexivity|reflexivity|].
        apply adjust_SInv in K1; [|exact ft_nz|apply SInv_queue; exact (ei_s Eq)].
        destruct K1 as [_ [_ [_ [_ [_ [-> _]]]]]]. reflexivity.
Qed.

(** The candidate search for the next [n] adaptive points gets the weights
    [weights[k mod len]], ..., [weights[(k+n-1) mod len]], where [k] points were asked for
    before, across batches and restarts; an exhausted list never raises. *)
Theorem C22_weights_cycle : forall p n (o : cand_search P), Reached p -> weights <> [] ->
  let k := asked (p_hist p) in
  let ws := map (fun i => nth ((k + i) mod length weights) weights 0%Q) (seq 0 n) in
  exists e', hk_generate srbf_strategy (p_e p) (p_s p) n o =
    rbind (o (p_s p) n ws (s_radius (p_e p))) (fun pts =>
      rbind (take_rows n pts) (fun rows => Ok (e', Some rows))).
Proof.
  intros p n o H Hw k ws. pose proof (all_inv H) as A. pose proof (used_asked H Hw) as U.
  assert (Hl : length weights <> 0) by (destruct weights; [contradiction|discriminate]).
  destruct (ei_w (a_e A) Hl) as [_ W]. rewrite U in W. fold k in W.
  assert (Wl : s_next (p_e p) < length weights) by (rewrite W; apply Nat.mod_upper_bound; assumption).
  destruct (@get_weights_total weights n (s_next (p_e p)) Hl Wl) as [[ws' nx] G].
  pose proof (@get_weights_spec weights n _ _ _ Hl Wl G) as [E _].
  assert (Ew : ws' = ws).
  { rewrite E, W. apply map_ext. intros i. rewrite Nat.add_mod_idemp_l by assumption. reflexivity. }
  cbn [hk_generate srbf_strategy srbf_hooks]. unfold srbf_generate. rewrite G. cbn [rbind fst snd].
  rewrite Ew. eexists. reflexivity.
Qed.

(** ** C07 in synchronous mode: the surrogate holds all data of the current run. *)
Theorem C07_srbf_sync : c_async c = false -> forall p, Reached p ->
  combine (X_ (p_s p)) (fX_ (p_s p)) = run_data (p_hist p) /\
  sur (p_s p) = (if (restarts (p_hist p) =? 0)%nat then known c else []) ++ run_data (p_hist p).
Proof.
  intros Ha p H. rewrite <- hk_eq in H.
  eapply C07_surrogate_complete_partial; [|exact H]. exact (@sync_bump_idle P c ft weights Ha).
Qed.

(** ** C10-C12 for SRBF and DYCORS *)
Lemma srbf_generates : generates srbf_strategy.
Proof.
  intros e s n o e' l Hn H. cbn [hk_generate srbf_strategy srbf_hooks] in H. unfold srbf_generate in H.
  apply rbind_ok in H. destruct H as [ws [X1 G]]. apply rbind_ok in G. destruct G as [pts [X2 G]].
  apply rbind_ok in G. destruct G as [rws [X3 G]]. injection G as _ <-.
  apply take_rows_ok in X3. destruct X3 as [-> X3]. intros E. rewrite E in X3. simpl in X3. lia.
Qed.

(** A candidate search that returns as many points as it is asked for. *)
Definition good_search (o : cand_search P) : Prop :=
  forall s n ws r, exists pts, o s n ws r = Ok pts /\ n <= length pts.

Theorem C10_srbf_async_always_proposes : c_async c = true -> c_restarts c = true ->
  forall d o p out p', Reached p ->
  ~ stop_seen (c_max_evals c) (p_hist p) -> (used (p_hist p) < c_max_evals c)%Z ->
  do_propose c srbf_strategy d o p = Ok (out, p') -> exists k x, out = OEval k x.
Proof.
  intros Ha Hr d o p out p' H. eapply C10_async_always_proposes; eauto. exact srbf_generates.
Qed.

Theorem C12_srbf_serial_run_finishes :
  forall (f : P -> val) (designs : nat -> res (list P)) (orcs : nat -> cand_search P),
  weights <> [] -> (forall i, good_search (orcs i)) -> good_extras c ->
  0 < c_num_pts c -> c_restarts c = true -> (0 <= c_max_evals c)%Z ->
  (forall i, good_design c (designs i)) -> good_design c design ->
  let m := Z.to_nat (c_max_evals c) in
  exists p h, y_proc (serial c srbf_strategy f designs orcs (S m) (start c srbf_strategy design srbf0)) = Some p /\
    p_hist p = h ++ [EvTerminate] /\
    length (completed h) = m /\ Forall (fun q => snd q = f (fst q)) (completed h) /\
    outstanding h = [].
Proof.
  intros f designs orcs Hw Ho He Hn Hr Hm Hd Hd0.
  assert (Hl : length weights <> 0) by (destruct weights; [contradiction|discriminate]).
  apply (@C12_serial_run_finishes P val srbf (cand_search P) c srbf_strategy f
    (fun e => s_next e < length weights) good_search designs orcs design srbf0); auto.
  - exact srbf_generates.
  - split; [|split].
    + intros e s n o E O. cbn [hk_generate srbf_strategy srbf_hooks]. unfold srbf_generate.
      destruct (@get_weights_total weights n (s_next e) Hl E) as [[ws nx] ->]. cbn [rbind fst snd].
      destruct (O s n ws (s_radius e)) as [pts [-> Hp]]. cbn [rbind].
      rewrite take_rows_total by assumption. cbn [rbind]. eauto.
    + intros e s x v ev E. simpl. eauto.
    + intros e s x v ev E. cbn [hk_adapt_completed srbf_strategy srbf_hooks]. unfold srbf_adapt_completed.
      destruct (ev_last s <? ev)%Z; [|eauto].
      assert (AD : exists r, adjust_step (failtol_of (c_async c) dim (c_batch c))
        (mkSrbf (s_status e) (s_failcount e) (s_radius e) (s_fbest e) (s_queue e ++ [v])
                    (s_next e) (s_steps e) (s_used e)) = Ok r).
      { unfold adjust_step. cbn [s_queue]. destruct (s_queue e ++ [v]) eqn:Eq; [|eauto].
        exfalso. exact (app_cons_not_nil _ _ _ (eq_sym Eq)). }
      destruct (c_async c); [exact AD|].
      destruct (negb (nonempty (batch_queue s)) && (pending_evals s =? 0)%Z); [exact AD|eauto].
  - split; [|split; [|split]].
    + intros e E. exact E.
    + intros e s n o e' l E H. cbn [hk_generate srbf_strategy srbf_hooks] in H. unfold srbf_generate in H.
      apply rbind_ok in H. destruct H as [[ws nx] [X1 G]]. apply rbind_ok in G. destruct G as [pts [X2 G]].
      apply rbind_ok in G. destruct G as [rws [X3 G]]. injection G as <- _. simpl.
      destruct (@get_weights_spec weights n _ _ _ Hl E X1) as [_ ->]. apply Nat.mod_upper_bound. assumption.
    + intros e s x v ev e' E H. injection H as <-. exact E.
    + intros e s x v ev e' n cv E H. cbn [hk_adapt_completed srbf_strategy srbf_hooks] in H.
      rewrite <- ft_eq in H. apply adapt_completed_cases in H. cbv zeta in H.
      destruct H as [[-> _]|[[-> _]|[H _]]]; [exact E|exact E|].
      unfold adjust_step in H. cbn [s_queue] in H. destruct (s_queue e ++ [v]); [discriminate|].
      injection H as <- _ _. exact E.
  - simpl. lia.
Qed.

End Props.
