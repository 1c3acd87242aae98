(** * C69: the points that SRBF and DYCORS propose.

    C32 describes the candidate search as a function.  Here the same is said about a call of
    propose_action in a run, with the given random draws: the center, the candidates, the points kept
    away from, the data of the surrogate and the weights are all read off the history of the run. *)
From Coq Require Import List Arith ZArith Lia Bool QArith Reals Lra Qreals.
From Verif Require Import Base PyList Strategy StrategySpec StrategyProofs StrategyInv StrategyInv2
  StrategyInv3 StrategyInv4 PropStrategy SRBF SRBFProofs SRBFInv PropSRBF Box PropBox Cand PropCand EndToEnd GA EIStrat.
Import ListNotations.
Set Implicit Arguments.
Local Close Scope Q_scope.
Local Open Scope nat_scope.
Local Open Scope R_scope.

(** ** Specification *)

(** The first of the evaluations with the smallest value. *)
Definition first_best {P} (data : list (P * val)) (x : P) : Prop :=
  exists d1 v d2, data = d1 ++ (x, v) :: d2 /\
    (forall y w, In (y, w) d1 -> vlt v w = true) /\ (forall y w, In (y, w) d2 -> vlt w v = false).

(** The standard deviation of coordinate [i]: the radius times the length of the side of the box, at
    least 1 for an integer variable. *)
Definition deviation (q : prob) (radius : R) (i : nat) (s : R) : Prop :=
  let side := radius * ((q_ub q)@i - (q_lb q)@i) in
  (In i (q_int q) -> s = Rmax side 1) /\ (~ In i (q_int q) -> s = side).

(** [v] is [t], or the closest integer in the bounds for an integer variable. *)
Definition rounded (q : prob) (i : nat) (t v : R) : Prop :=
  (~ In i (q_int q) -> v = t) /\
  (In i (q_int q) -> integral v /\ (q_lb q)@i <= v <= (q_ub q)@i /\
     forall w, integral w -> (q_lb q)@i <= w <= (q_ub q)@i -> Rabs (t - v) <= Rabs (t - w)).

(** The candidates: in candidate [r] the coordinates selected by [sel r] are those of [xb] plus the
    normal variable [z i r] times the deviation, cut off at the bounds, the others those of [xb]. *)
Definition drawn (q : prob) (dim : nat) (xb : pt) (radius : R) (sel : nat -> nat -> Prop) (z : nat -> nat -> R) (cand : list pt) : Prop :=
  forall r y, nth_error cand r = Some y -> length y = dim /\
    forall i, (i < dim)%nat -> exists s, deviation q radius i s /\
      (sel r i -> rounded q i (Rmax ((q_lb q)@i) (Rmin ((q_ub q)@i) (xb@i + s * z i r))) (y@i)) /\
      (~ sel r i -> y@i = xb@i).

(** DYCORS: the coordinates selected by the random numbers, or the one drawn with randint if none was. *)
Definition dycors_selected (dim : nat) (u : nat -> nat -> bool) (f : nat -> nat) (r i : nat) : Prop :=
  dim = 1%nat \/ u r i = true \/ (forall j, (j < dim)%nat -> u r j = false) /\ i = f r.

(** [l] are candidates, chosen one after the other by their merit for the weights [ws], a surrogate
    [predict] and the points [T] to keep away from. *)
Definition chosen (dist : pt -> pt -> R) (predict : pt -> R) (dtol : R) (ws : list R) (T cand l : list pt) : Prop :=
  exists js, Forall2 (fun j x => nth_error cand j = Some x) js l /\ good_picks dist predict cand dtol ws T js.

(** ** When propose_action calls generate_evals *)
Section Propose.
Variables P V Ext Orc : Type.
Variable c : cfg P V.
Variable hk : hooks P V Ext Orc.

Lemma propose_generates : forall d o (p p' : proc P V Ext) out t n r, do_propose c hk d o p = Ok (out, p') -> p_hist p' = p_hist p ++ t -> In (EvGenerate n r) t ->
  exists e', hk_generate hk (p_e p) (set_phase 2%nat (check_termination c (p_s p))) n o = Ok (e', r) /\
    n = (if c_async c then 1 else c_batch c)%nat.
Proof.
  intros d o p p' out t n r H Ht Hg. unfold do_propose in H. apply rbind_ok in H. destruct H as [[[out1 [s1 e1]] evs] [H H2]].
  assert (Hevs : In (EvGenerate n r) evs).
  { injection H2 as -> <-. destruct out; cbn [p_hist] in Ht; apply app_inv_head in Ht; subst t; apply in_app_or in Hg; destruct Hg as [Hg|[Hg|[]]]; try exact Hg; discriminate Hg. }
  clear H2 Ht Hg t. revert H. unfold propose_action. generalize (check_termination c (p_s p)). intros s. cbv zeta.
  assert (RB : forall s e o2 se2 ev2, restart_branch c hk d s e = Ok (o2, se2, ev2) -> ~ In (EvGenerate n r) ev2).
  { intros s0 e0 o2 se2 ev2. unfold restart_branch. destruct (c_async c || _); [|intros [= _ _ <-] []].
    destruct (sample_restart c hk d (s0, e0)) as [se'|]; [|discriminate]. cbn [rbind]. destruct (init_proposal (fst se')) as [r0|]; [|discriminate]. cbn [rbind].
    intros [= _ _ <-] [F|[]]. discriminate F. }
  destruct (terminate s); [destruct (pending_evals s =? 0)%Z; intros [= _ _ _ <-]; destruct Hevs|].
  destruct (converged s); [destruct (c_restarts c); [intros R; destruct (RB _ _ _ _ _ R Hevs)|intros [= _ _ _ <-]; destruct Hevs]|].
  destruct (nonempty (batch_queue s)).
  { destruct (phase s =? 1)%nat; [|intros [= _ _ _ <-]; destruct Hevs]. destruct (init_proposal s) as [r0|]; [|discriminate]. cbn [rbind]. intros [= _ _ _ <-]. destruct Hevs. }
  set (G := if c_async c then _ else _).
  assert (HG : forall s' e' ev', G = Ok (s', e', ev') -> In (EvGenerate n r) ev' ->
    exists e'', hk_generate hk (p_e p) (set_phase 2%nat s) n o = Ok (e'', r) /\ n = (if c_async c then 1 else c_batch c)%nat).
  { intros s' e' ev'.
    assert (DG : forall m, do_generate hk m o (set_phase 2%nat s) (p_e p) = Ok (s', e', ev') -> In (EvGenerate n r) ev' ->
      exists e'', hk_generate hk (p_e p) (set_phase 2%nat s) n o = Ok (e'', r) /\ n = m).
    { intros m. unfold do_generate. destruct (hk_generate hk (p_e p) (set_phase 2%nat s) m o) as [[e3 [pts|]]|] eqn:EG; [| |discriminate]; cbn;
        intros [= _ _ <-] [F|[]]; injection F as <- <-; exists e3; split; [exact EG|reflexivity|exact EG|reflexivity]. }
    unfold G. destruct (c_async c); [apply DG|]. destruct (_ =? 0)%Z; [apply DG|]. intros [= _ _ <-] []. }
  destruct G as [[[s2 e2] ev2]|]; [|discriminate]. cbn [rbind]. specialize (HG s2 e2 ev2 eq_refl).
  destruct (converged s2 && c_restarts c).
  - destruct (restart_branch c hk d s2 e2) as [[[o3 se3] ev3]|] eqn:R; [|discriminate]. cbn [rbind]. intros [= _ _ <-].
    apply in_app_or in Hevs. destruct Hevs as [K|K]; [exact (HG K)|]. destruct (RB _ _ _ _ _ R K).
  - intros [= _ _ _ <-]. exact (HG Hevs).
Qed.
End Propose.

(** ** The candidates *)
Section Draw.
Variable q : prob.
Variable dim : nat.
Hypothesis WF : well_formed q dim.

Lemma deviation_scale : forall radius i, (i < dim)%nat -> deviation q radius i (scale q radius (seq 0 dim) i).
Proof using.
  intros radius i Hi. unfold deviation, scale. assert (S : rmem i (seq 0 dim) = true) by (apply rmem_spec, in_seq; lia). rewrite S, andb_true_r. split; intros H.
  - apply rmem_spec in H. rewrite H. reflexivity.
  - destruct (rmem i (q_int q)) eqn:E; [apply rmem_spec in E; contradiction|reflexivity].
Qed.
Lemma draw_clamp : forall radius xb i z, 0 < radius -> (i < dim)%nat -> let sg := scale q radius (seq 0 dim) i in
  tn_draw xb sg i (clamp (tn_a q xb sg i) (tn_b q xb sg i) z) = Rmax ((q_lb q)@i) (Rmin ((q_ub q)@i) (xb@i + sg * z)).
Proof using WF.
  intros radius xb i z Hr Hi sg. assert (S : 0 < sg) by (apply scale_pos with (dim := dim); assumption). unfold tn_draw, clamp, tn_a, tn_b.
  assert (E : forall a, sg * (a / sg) = a) by (intros; field; lra).
  rewrite <- RmaxRmult by lra. rewrite E. assert (M : sg * Rmin (((q_ub q)@i - xb@i) / sg) z = Rmin ((q_ub q)@i - xb@i) (sg * z)).
  { unfold Rmin. destruct (Rle_dec _ z) as [K|K], (Rle_dec _ (sg * z)) as [K'|K']; rewrite ?E; try reflexivity.
    - exfalso. apply K'. apply Rmult_le_compat_l with (r := sg) in K; [|lra]. rewrite E in K. exact K.
    - exfalso. apply K. apply Rmult_le_reg_l with sg; [exact S|]. rewrite E. exact K'. }
  change (nth i (q_ub q) 0) with ((q_ub q)@i) in *. change (nth i (q_lb q) 0) with ((q_lb q)@i) in *. change (nth i xb 0) with (xb@i) in *. rewrite M.
  unfold Rmax, Rmin. repeat destruct Rle_dec; lra.
Qed.

Lemma round_drawn : forall X Y (val : nat -> nat -> R -> R) xb (sel : nat -> nat -> Prop) radius z nc,
  length xb = dim -> (forall r i, sel r i \/ ~ sel r i) -> feasible q dim xb -> 0 < radius ->
  gen_spec dim val (repeat xb nc) X -> round_vars X (q_int q) (q_lb q) (q_ub q) = Ok Y ->
  (forall r i, (i < dim)%nat -> sel r i -> val r i (xb@i) = tn_draw xb (scale q radius (seq 0 dim) i) i (let sg := scale q radius (seq 0 dim) i in clamp (tn_a q xb sg i) (tn_b q xb sg i) (z i r))) ->
  (forall r i, (i < dim)%nat -> ~ sel r i -> val r i (xb@i) = xb@i) ->
  length Y = nc /\ drawn q dim xb radius sel z Y.
Proof using WF.
  intros X Y val xb sel radius z nc LX DEC FB HR [G1 [G2 G3]] HY V1 V2. rewrite repeat_length in G1.
  destruct WF as [BD IV].
  destruct (@C41_round_vars dim (q_lb q) (q_ub q) (q_int q) X BD) as [Y' [E1 [E2 E3]]]; [intros; apply IV; assumption|exact G2|].
  rewrite HY in E1. injection E1 as <-. split; [congruence|]. intros r y Hy.
  assert (L : (r < length X)%nat) by (rewrite <- E2; apply nth_error_Some; congruence).
  destruct (nth_error X r) as [x|] eqn:Ex; [|apply nth_error_None in Ex; lia].
  destruct (G3 r xb) as [x' [X1 X2]]; [apply nth_error_repeat; lia|]. rewrite Ex in X1. injection X1 as <-.
  destruct (E3 r x y Ex Hy) as [Ly N]. split; [exact Ly|]. intros i Hi. exists (scale q radius (seq 0 dim) i). split; [apply deviation_scale; exact Hi|].
  destruct (N i Hi) as [N1 [N2 N3]]. split; intros S.
  - assert (EX := X2 i Hi). rewrite (V1 r i Hi S) in EX. cbv zeta in EX. rewrite (@draw_clamp radius xb i (z i r) HR Hi) in EX. rewrite EX in N1, N3. split; [exact N1|]. intros K. destruct (IV i K) as [_ [Il Iu]]. destruct (N3 K Il Iu) as [A B]. auto.
  - assert (EX := X2 i Hi). rewrite (V2 r i Hi S) in EX. rewrite EX in N1, N3. destruct (in_dec Nat.eq_dec i (q_int q)) as [K|K]; [|exact (N1 K)].
    destruct (IV i K) as [_ [Il Iu]]. destruct (N3 K Il Iu) as [A B]. destruct FB as [[_ FB] FI]. specialize (B (xb@i) (FI i K) (FB i Hi)).
    rewrite Rminus_eq_0, Rabs_R0 in B. pose proof (Rabs_pos (xb@i - y@i)). assert (Z : Rabs (xb@i - y@i) = 0) by lra.
    destruct (Req_dec (xb@i - y@i) 0) as [Z'|Z']; [lra|]. apply Rabs_no_R0 in Z'. contradiction.
Qed.

Lemma srbf_drawn : forall radius nc xb z cand, feasible q dim xb -> 0 < radius -> srbf_cand q radius (seq 0 dim) nc xb (in_range q xb radius z) = Ok cand ->
  length cand = nc /\ drawn q dim xb radius (fun _ _ => True) z cand.
Proof using WF.
  intros radius nc xb z cand FB HR H. unfold srbf_cand in H.
  assert (LX : length xb = dim) by apply FB.
  destruct (@srbf_cols_ok q dim WF radius (seq 0 dim) xb (in_range q xb radius z) (seq 0 dim) (repeat xb nc)) as [X [E1 E2]].
  { intros i Hi. apply in_seq in Hi. lia. }
  { apply rows_repeat. exact LX. }
  rewrite E1 in H. cbn [rbind] in H. eapply round_drawn; [exact LX|intros; tauto|exact FB|exact HR|exact E2|exact H| |intros; tauto].
  intros r i Hi _. cbv beta. assert (S : rmem i (seq 0 dim) = true) by (apply rmem_spec, in_seq; lia). rewrite S. unfold in_range. rewrite (@all_seq q dim) by apply WF. reflexivity.
Qed.

Lemma dycors_drawn : forall radius nc xb u f z cand, feasible q dim xb -> 0 < radius -> (1 <= dim)%nat ->
  dycors_cand q radius (seq 0 dim) nc xb u f (in_range q xb radius z) = Ok cand ->
  length cand = nc /\ drawn q dim xb radius (dycors_selected dim u f) z cand.
Proof using WF.
  intros radius nc xb u f z cand FB HR HD H. unfold dycors_cand in H. apply rbind_ok in H. destruct H as [ar [HA H]]. rewrite seq_length in HA.
  assert (LX : length xb = dim) by apply FB.
  assert (AR : forall r i, (i < dim)%nat -> ar r i = true <-> dycors_selected dim u f r i).
  { unfold dycors_ar in HA. unfold dycors_selected. intros r i Hi. destruct (Nat.eqb_spec dim 1) as [E|E]; [injection HA as <-; tauto|].
    destruct (Nat.eqb_spec dim 0) as [E0|E0]; [lia|]. cbn [andb] in HA. injection HA as <-. rewrite orb_true_iff, andb_true_iff, Nat.eqb_eq, forallb_forall. split.
    - intros [K|[K1 K2]]; [auto|]. right. right. split; [|exact K2]. intros j Hj. specialize (K1 j). rewrite in_seq in K1. apply negb_true_iff. apply K1. lia.
    - intros [K|[K|[K1 K2]]]; [contradiction|auto|]. right. split; [|exact K2]. intros j Hj. apply in_seq in Hj. rewrite K1 by lia. reflexivity. }
  destruct (@dycors_cols_ok q dim WF radius dim xb (in_range q xb radius z) ar (seq 0 dim) (repeat xb nc)) as [X [E1 E2]].
  { lia. }
  { intros i Hi. apply in_seq in Hi. lia. }
  { apply rows_repeat. exact LX. }
  rewrite E1 in H. cbn [rbind] in H.
  assert (DEC : forall r i, dycors_selected dim u f r i \/ ~ dycors_selected dim u f r i).
  { intros r i. unfold dycors_selected. destruct (Nat.eq_dec dim 1) as [|N]; [tauto|]. destruct (u r i); [tauto|].
    assert (DF : forall n, (forall j, (j < n)%nat -> u r j = false) \/ ~ (forall j, (j < n)%nat -> u r j = false)).
    { induction n as [|n [IH|IH]]; [left; intros; lia| |right; intros K; apply IH; intros; apply K; lia].
      destruct (u r n) eqn:En; [right; intros K; rewrite K in En by lia; discriminate|left; intros j Hj; destruct (Nat.eq_dec j n) as [->|]; [exact En|apply IH; lia]]. }
    destruct (DF dim), (Nat.eq_dec i (f r)); intuition congruence. }
  eapply round_drawn; [exact LX|exact DEC|exact FB|exact HR|exact E2|exact H| |];
    intros r i Hi S; cbv beta; assert (M : rmem i (seq 0 dim) = true) by (apply rmem_spec, in_seq; lia); rewrite M; cbn [andb].
  - apply AR in S; [|exact Hi]. rewrite S. unfold in_range. rewrite (@all_seq q dim) by apply WF. reflexivity.
  - destruct (ar r i) eqn:E; [|reflexivity]. apply AR in E; [contradiction|exact Hi].
Qed.
End Draw.

Lemma first_best_of : forall P (X : list P) (fX : list val) x, length X = length fX -> best_of X (map toxr fX) x -> first_best (combine X fX) x.
Proof.
  intros P X fX x L [k [v [A1 [A2 [A3 A4]]]]]. rewrite nth_error_map in A2. destruct (nth_error fX k) as [w|] eqn:Ew; [|discriminate]. injection A2 as <-.
  assert (C : nth_error (combine X fX) k = Some (x, w)).
  { clear -A1 Ew. revert fX k A1 Ew. induction X as [|a X IH]; intros [|b fX] [|k] A1 Ew; try discriminate; cbn in *; [congruence|]. apply IH; assumption. }
  destruct (nth_error_split _ _ C) as [d1 [d2 [E1 E2]]]. exists d1, w, d2. split; [exact E1|].
  assert (NB : forall j y u, nth_error (combine X fX) j = Some (y, u) -> nth_error fX j = Some u).
  { clear. revert fX. induction X as [|a X IH]; intros [|b fX] [|j] y u H; try discriminate; cbn in *; [congruence|]. eapply IH; exact H. }
  split; intros y u Hy.
  - apply In_nth_error in Hy. destruct Hy as [j Hj]. assert (J : (j < k)%nat) by (rewrite <- E2; apply nth_error_Some; congruence).
    rewrite <- xlt_toxr. apply (A4 j); [exact J|]. rewrite nth_error_map. rewrite (NB j y u); [reflexivity|]. rewrite E1, nth_error_app1 by lia. exact Hj.
  - rewrite <- xlt_toxr. apply A3. apply in_map. apply In_nth_error in Hy. destruct Hy as [j Hj]. apply nth_error_In with (k + S j)%nat.
    apply NB with y. rewrite E1, nth_error_app2 by lia. replace (k + S j - length d1)%nat with (S j) by lia. exact Hj.
Qed.

Section Full.
Variable q : prob.
Variable dim : nat.
Variable dist : pt -> pt -> R.
Variable predict : list (pt * val) -> pt -> R.
Variable dtol : R.
Variable num_cand : option nat.
Variable c : cfg pt val.
Variable weights : list Q.

Lemma proposed_data : forall (hk : hooks pt val srbf (cand_search pt)) O' (g : O' -> cand_search pt) design p, reached c (hooks_with g hk) design srbf0 p ->
  (forall id k x, In (EvPropose id k x) (p_hist p) -> feasible q dim x) -> Forall (feasible q dim) (X_ (p_s p)).
Proof using.
  intros hk O' g design p H F. apply reached_micros in H. destruct H as [[s e] [H1 M]]. apply Forall_forall. intros x Hx.
  destruct (@X_proposed _ _ _ _ c (hooks_with g hk) design srbf0 s e p x H1 M Hx) as [id [k K]]. eapply F; exact K.
Qed.

Definition used_weights (h : list (event pt val)) (n : nat) : list R :=
  map (fun i => Q2R (nth ((asked h + i) mod length weights) weights 0%Q)) (seq 0 n).

(** What both strategies do with the draws: [search] gives the points for a center and the candidates. *)
Lemma batch_gen : forall O (g : O -> cand_search pt) (mk : O -> R -> pt -> res (list pt)),
  setting q dim dist dtol num_cand -> legal c -> weights <> [] -> (forall x y, c_peqb c x y = true <-> x = y) ->
  (forall o s n ws r, g o s n ws r = do xb <- center s; do cand <- mk o (Q2R r) xb; weighted_distance_merit dist (predict (sur s)) n (X_ s ++ Xpend s) cand (map Q2R ws) dtol) ->
  forall design d o p out p' t n r, reached c (hooks_with g (srbf_strategy c weights dim)) design srbf0 p ->
  (forall id k x, In (EvPropose id k x) (p_hist p) -> feasible q dim x) -> no_duplicates (p_hist p) ->
  do_propose c (hooks_with g (srbf_strategy c weights dim)) d o p = Ok (out, p') -> p_hist p' = p_hist p ++ t -> In (EvGenerate n r) t ->
  (forall xb cand, feasible q dim xb -> mk o (Q2R (s_radius (p_e p))) xb = Ok cand -> cand <> []) ->
  exists l data xb cand, r = Some l /\ length l = n /\ n = (if c_async c then 1 else c_batch c)%nat /\
    subseq data (run_data (p_hist p)) /\ (c_async c = false -> data = run_data (p_hist p)) /\
    first_best data xb /\ feasible q dim xb /\ 0 < Q2R (s_radius (p_e p)) /\ mk o (Q2R (s_radius (p_e p))) xb = Ok cand /\
    sur (p_s p) = (if (restarts (p_hist p) =? 0)%nat then known c else []) ++ data /\
    chosen dist (predict ((if (restarts (p_hist p) =? 0)%nat then known c else []) ++ data)) dtol (used_weights (p_hist p) n)
      (map fst data ++ map snd (outstanding (p_hist p))) cand l.
Proof using.
  intros O g mk SE HL HW HP Hg design d o p out p' t n r HR FE ND DP Ht Hin HC.
  destruct (@propose_generates _ _ _ _ c _ d o p p' out t n r DP Ht Hin) as [e' [G EN]].
  pose proof (@proposed_data _ _ g design p HR FE) as FX.
  assert (HR' : reached c (srbf_strategy c weights dim) design srbf0 p) by (eapply reached_with; exact HR).
  set (s' := set_phase 2%nat (check_termination c (p_s p))) in *.
  assert (S1 : X_ s' = X_ (p_s p) /\ fX_ s' = fX_ (p_s p) /\ Xpend s' = Xpend (p_s p) /\ sur s' = sur (p_s p)).
  { unfold s', check_termination. destruct (_ <=? _)%Z; repeat split; reflexivity. }
  destruct S1 as [S1 [S2 [S3 S4]]]. clearbody s'.
  change (srbf_generate weights (p_e p) s' n (g o) = Ok (e', r)) in G.
  change (srbf_generate weights (p_e p) (p_s p) n (fun _ => g o s') = Ok (e', r)) in G.
  destruct (@C22_weights_cycle pt c weights dim design HL p n (fun _ => g o s') HR' HW) as [e2 G2].
  change (srbf_generate weights (p_e p) (p_s p) n (fun _ => g o s')) with (hk_generate (srbf_strategy c weights dim) (p_e p) (p_s p) n (fun _ => g o s')) in G.
  rewrite G2 in G. cbv beta zeta in G. clear G2. apply rbind_ok in G. destruct G as [pts [G1 G]]. apply rbind_ok in G. destruct G as [rws [G2 G]]. injection G as _ <-.
  apply take_rows_ok in G2. destruct G2 as [-> G2].
  rewrite Hg in G1. apply rbind_ok in G1. destruct G1 as [xb [G3 G1]]. apply rbind_ok in G1. destruct G1 as [cand [G4 G5]].
  unfold center in G3. rewrite S1, S2 in G3. rewrite S1, S3, S4 in G5. fold (center (p_s p)) in G3.
  pose proof (Inv_reached HR') as IV. pose proof (RunInv_reached HR') as RI.
  assert (LX : length (X_ (p_s p)) = length (fX_ (p_s p))) by (apply (ri_len RI)).
  assert (NE : X_ (p_s p) <> []) by (eapply X_nonempty; exact G3).
  assert (BX : best_of (X_ (p_s p)) (map toxr (fX_ (p_s p))) xb /\ In xb (X_ (p_s p))).
  { destruct (@x_best_ok _ (X_ (p_s p)) (map toxr (fX_ (p_s p))) NE) as [xb' [E1 E2]].
    - rewrite map_length. symmetry. exact LX.
    - intros u. apply toxr_nan.
    - unfold center in G3. rewrite E1 in G3. injection G3 as ->. exact E2. }
  destruct BX as [BX IX]. assert (FB : feasible q dim xb) by (rewrite Forall_forall in FX; apply FX, IX).
  assert (RP : 0 < Q2R (s_radius (p_e p))).
  { eapply radius_pos; [exact (@ft_nz pt c dim HL)|exact (a_e (@all_inv pt c weights dim design HL p HR'))]. }
  destruct SE as [W D T0 RF NC].
  set (ws := map (fun i : nat => nth ((asked (p_hist p) + i) mod length weights) weights 0%Q) (seq 0 n)) in *.
  destruct (@C32_merit _ dist (predict (sur (p_s p))) cand dtol n (X_ (p_s p) ++ Xpend (p_s p)) (map Q2R ws)) as [js [pts' [E1 [E2 [E3 E4]]]]].
  { eapply HC; [exact FB|exact G4]. }
  { intros K. apply app_eq_nil in K. tauto. }
  { unfold ws. rewrite !map_length, seq_length. lia. }
  { intros c0 _. rewrite RF. exact T0. }
  rewrite G5 in E1. injection E1 as <-.
  assert (LP : length pts = n) by (rewrite <- E2; symmetry; exact (eq_sym (Forall2_len2 E3))).
  exists (firstn n pts), (combine (X_ (p_s p)) (fX_ (p_s p))), xb, cand. rewrite firstn_all2 by lia.
  split; [reflexivity|]. split; [exact LP|]. split; [exact EN|]. split; [exact (ri_sub RI)|].
  split; [intros HA; exact (proj1 (@C07_srbf_sync pt c weights dim design HL HA p HR'))|].
  split; [apply first_best_of; assumption|]. split; [exact FB|]. split; [exact RP|]. split; [exact G4|].
  split; [exact (ri_sur RI)|]. rewrite <- (ri_sur RI). exists js. split; [exact E3|].
  assert (XP : Xpend (p_s p) = map snd (outstanding (p_hist p))) by (apply (C05_xpend_partial HP HR'); exact ND).
  rewrite <- XP, (map_fst_combine' _ _ LX). unfold used_weights. unfold ws in E4. rewrite map_map in E4. exact E4.
Qed.

(** C69, SRBF: every batch of adaptive points consists of the points chosen one after the other from
    the candidates drawn around the first best evaluation of the current run, away from its evaluated
    points and from the running evaluations, with the surrogate fitted to the data of the current run.
    In asynchronous mode [data] may lack some evaluations (C07). *)
Theorem C69_srbf : setting q dim dist dtol num_cand -> legal c -> weights <> [] -> (forall x y, c_peqb c x y = true <-> x = y) ->
  forall design ops p, y_proc (Strategy.run c (srbf_full q dim dist predict dtol num_cand c weights) design srbf0 ops) = Some p ->
  (forall d, design = Ok d -> Forall (feasible q dim) d) ->
  (forall d z, In (Propose (Ok d) z) ops -> Forall (feasible q dim) d) ->
  Forall (feasible q dim) (unknown c) -> no_duplicates (p_hist p) ->
  forall d z out p' t n r, do_propose c (srbf_full q dim dist predict dtol num_cand c weights) d z p = Ok (out, p') ->
  p_hist p' = p_hist p ++ t -> In (EvGenerate n r) t ->
  exists l data xb cand, r = Some l /\ length l = n /\ n = (if c_async c then 1 else c_batch c)%nat /\
    subseq data (run_data (p_hist p)) /\ (c_async c = false -> data = run_data (p_hist p)) /\ first_best data xb /\
    length cand = cand_count dim num_cand /\ drawn q dim xb (Q2R (s_radius (p_e p))) (fun _ _ => True) z cand /\
    chosen dist (predict ((if (restarts (p_hist p) =? 0)%nat then known c else []) ++ data)) dtol (used_weights (p_hist p) n)
      (map fst data ++ map snd (outstanding (p_hist p))) cand l.
Proof using.
  intros SE HL HW HP design ops p Hp Hd Ho Hu ND d z out p' t n r DP Ht Hin.
  pose proof (@C13_srbf q dim dist predict dtol num_cand c weights design SE HL ops p Hp Hd Ho Hu) as FE.
  assert (HR : reached c (srbf_full q dim dist predict dtol num_cand c weights) design srbf0 p) by (exists ops; left; exact Hp).
  assert (LD : length (q_lb q) = dim) by apply (se_wf SE).
  destruct (@batch_gen _ (srbf_search q dist predict dtol num_cand) (fun z r xb => srbf_cand q r (seq 0 dim) (cand_count dim num_cand) xb (in_range q xb r z))
    SE HL HW HP) with (design := design) (d := d) (o := z) (p := p) (out := out) (p' := p') (t := t) (n := n) (r := r)
    as [l [data [xb [cand [A1 [A2 [A3 [A4 [A5 [A6 [A7 [A8 [A9 [AS A10]]]]]]]]]]]]]]; try assumption.
  - intros o s m ws rr. unfold srbf_search. unfold center at 1. destruct (x_best (X_ s) (map toxr (fX_ s))) as [xb|] eqn:E; [|unfold center; rewrite E; reflexivity].
    unfold center. rewrite E. cbn [rbind]. unfold candidate_srbf. rewrite E. cbn [rbind]. unfold all_coords. rewrite LD. reflexivity.
  - intros xb cand FB K. destruct (Rle_or_lt (Q2R (s_radius (p_e p))) 0) as [N|N].
    + exfalso. assert (RP : 0 < Q2R (s_radius (p_e p))); [|lra]. assert (HR' : reached c (srbf_strategy c weights dim) design srbf0 p) by (eapply reached_with; exact HR).
      eapply radius_pos; [exact (@ft_nz pt c dim HL)|exact (a_e (@all_inv pt c weights dim design HL p HR'))].
    + destruct (@srbf_drawn q dim (se_wf SE) _ _ _ _ _ FB N K) as [L _]. intros ->. cbn in L. pose proof (se_dim SE). pose proof (se_nc SE). unfold cand_count in L. destruct num_cand as [[|k]|]; [congruence|discriminate|lia].
  - destruct (@srbf_drawn q dim (se_wf SE) _ _ _ _ _ A7 A8 A9) as [L DR]. exists l, data, xb, cand. repeat (split; [assumption|]). assumption.
Qed.

(** C69, DYCORS: only the selected coordinates of the center are changed. *)
Theorem C69_dycors : setting q dim dist dtol num_cand -> legal c -> weights <> [] -> (forall x y, c_peqb c x y = true <-> x = y) ->
  forall design ops p, y_proc (Strategy.run c (dycors_full q dim dist predict dtol num_cand c weights) design srbf0 ops) = Some p ->
  (forall d, design = Ok d -> Forall (feasible q dim) d) ->
  (forall d z, In (Propose (Ok d) z) ops -> Forall (feasible q dim) d) ->
  Forall (feasible q dim) (unknown c) -> no_duplicates (p_hist p) ->
  forall d z out p' t n r, do_propose c (dycors_full q dim dist predict dtol num_cand c weights) d z p = Ok (out, p') ->
  p_hist p' = p_hist p ++ t -> In (EvGenerate n r) t ->
  exists l data xb cand, r = Some l /\ length l = n /\ n = (if c_async c then 1 else c_batch c)%nat /\
    subseq data (run_data (p_hist p)) /\ (c_async c = false -> data = run_data (p_hist p)) /\ first_best data xb /\
    length cand = cand_count dim num_cand /\
    drawn q dim xb (Q2R (s_radius (p_e p))) (dycors_selected dim (dy_u z) (fun k => dy_f z k mod (dim - 1))%nat) (dy_z z) cand /\
    chosen dist (predict ((if (restarts (p_hist p) =? 0)%nat then known c else []) ++ data)) dtol (used_weights (p_hist p) n)
      (map fst data ++ map snd (outstanding (p_hist p))) cand l.
Proof using.
  intros SE HL HW HP design ops p Hp Hd Ho Hu ND d z out p' t n r DP Ht Hin.
  pose proof (@C13_dycors q dim dist predict dtol num_cand c weights design SE HL ops p Hp Hd Ho Hu) as FE.
  assert (HR : reached c (dycors_full q dim dist predict dtol num_cand c weights) design srbf0 p) by (exists ops; left; exact Hp).
  assert (LD : length (q_lb q) = dim) by apply (se_wf SE).
  destruct (@batch_gen _ (dycors_search q dist predict dtol num_cand) (fun z r xb => dycors_cand q r (seq 0 dim) (cand_count dim num_cand) xb (dy_u z) (fun k => dy_f z k mod (dim - 1))%nat (in_range q xb r (dy_z z)))
    SE HL HW HP) with (design := design) (d := d) (o := z) (p := p) (out := out) (p' := p') (t := t) (n := n) (r := r)
    as [l [data [xb [cand [A1 [A2 [A3 [A4 [A5 [A6 [A7 [A8 [A9 [AS A10]]]]]]]]]]]]]]; try assumption.
  - intros o s m ws rr. unfold dycors_search. unfold center at 1. destruct (x_best (X_ s) (map toxr (fX_ s))) as [xb|] eqn:E; [|unfold center; rewrite E; reflexivity].
    unfold center. rewrite E. cbn [rbind]. unfold candidate_dycors. rewrite E. cbn [rbind]. unfold all_coords. rewrite LD. reflexivity.
  - intros xb cand FB K. destruct (Rle_or_lt (Q2R (s_radius (p_e p))) 0) as [N|N].
    + exfalso. assert (RP : 0 < Q2R (s_radius (p_e p))); [|lra]. assert (HR' : reached c (srbf_strategy c weights dim) design srbf0 p) by (eapply reached_with; exact HR).
      eapply radius_pos; [exact (@ft_nz pt c dim HL)|exact (a_e (@all_inv pt c weights dim design HL p HR'))].
    + destruct (@dycors_drawn q dim (se_wf SE) _ _ _ _ _ _ _ FB N (se_dim SE) K) as [L _]. intros ->. cbn in L. pose proof (se_dim SE). pose proof (se_nc SE). unfold cand_count in L. destruct num_cand as [[|k]|]; [congruence|discriminate|lia].
  - destruct (@dycors_drawn q dim (se_wf SE) _ _ _ _ _ _ _ A7 A8 (se_dim SE) A9) as [L DR]. exists l, data, xb, cand. repeat (split; [assumption|]). assumption.
Qed.
End Full.
