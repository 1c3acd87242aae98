(** * C71: the minimum distance between points does not scale with the box.

    SRBFStrategy, DYCORSStrategy (srbf_strategy.py:100) and SOPStrategy (sop_strategy.py:203) use the
    fixed minimum distance 0.001 * sqrt(dim).  With it runs do not depend on the origin of the variables.
    They do depend on the unit of length, and in a box whose diameter is smaller than the minimum
    distance the surrogate and the weights are ignored and every batch consists of copies of one point. *)
From Coq Require Import List Arith ZArith Lia Bool QArith Reals Lra Qreals.
From Verif Require Import Base PyList Strategy StrategySpec StrategyProofs StrategyInv StrategyInv2
  StrategyInv3 StrategyInv4 PropStrategy SRBF SRBFProofs SRBFInv PropSRBF Box PropBox Cand PropCand EndToEnd Design Lin RBF PropRBF PropSolve SRBFRun Picks RbfPicks
  StratMap PointMap ScaleRun UnitsRun.
Import ListNotations.
Set Implicit Arguments.
Local Close Scope Q_scope.
Local Open Scope R_scope.

(** The minimum distance of the three strategies, srbf_strategy.py:100, sop_strategy.py:203 *)
Definition fixed_dtol (dim : nat) : R := / 1000 * sqrt (INR dim).

(** ** The origin does not matter *)
Section Origin.
Variable q : prob.
Variable b : pt.
Let h := moved 1 b.
Let q' := moved_prob 1 b q.
Variable dim : nat.
Variable eta : R.
Variable num_cand : option nat.
Variable weights : list Q.
Variable c : cfg pt val.
Variable peqb' : pt -> pt -> bool.
Let c' := pm_cfg h peqb' c.

(** C71, SRBF as constructed: the bounds, the designs and the extra points are moved by [b]; with the
    same random numbers, values and controller the run is the same except that all points are moved. *)
Theorem C71_srbf_origin : q_int q = [] -> bounds dim (q_lb q) (q_ub q) -> (forall x y, peqb' (h x) (h y) = c_peqb c x y) -> forall d ops,
  Strategy.run c' (srbf_rbf q' dim edist (fixed_dtol dim) num_cand eta c' weights) (rmap (map h) d) srbf0 (map (pm_op h (fun z => z)) ops) =
  pm_sys h (fun e => e) (Strategy.run c (srbf_rbf q dim edist (fixed_dtol dim) num_cand eta c weights) d srbf0 ops).
Proof using.
  intros NI WB HE d ops. pose proof (@C71_srbf q 1 b ltac:(lra) NI dim eta (fixed_dtol dim) num_cand weights WB c peqb' HE d ops) as E.
  rewrite Rmult_1_l in E. exact E.
Qed.
Theorem C71_dycors_origin : q_int q = [] -> bounds dim (q_lb q) (q_ub q) -> (forall x y, peqb' (h x) (h y) = c_peqb c x y) -> forall d ops,
  Strategy.run c' (dycors_rbf q' dim edist (fixed_dtol dim) num_cand eta c' weights) (rmap (map h) d) srbf0 (map (pm_op h (fun z => z)) ops) =
  pm_sys h (fun e => e) (Strategy.run c (dycors_rbf q dim edist (fixed_dtol dim) num_cand eta c weights) d srbf0 ops).
Proof using.
  intros NI WB HE d ops. pose proof (@C71_dycors q 1 b ltac:(lra) NI dim eta (fixed_dtol dim) num_cand weights WB c peqb' HE d ops) as E.
  rewrite Rmult_1_l in E. exact E.
Qed.
End Origin.

(** ** Small boxes *)
Lemma sqdist_box : forall x y lb ub : pt, length x = length lb -> length y = length lb -> length ub = length lb ->
  (forall i, (i < length lb)%nat -> nth i lb 0 <= nth i x 0 <= nth i ub 0) -> (forall i, (i < length lb)%nat -> nth i lb 0 <= nth i y 0 <= nth i ub 0) ->
  sqdist x y <= sqdist lb ub.
Proof.
  induction x as [|t x IH]; intros [|s y] [|l lb] [|u ub] L1 L2 L3 H1 H2; try discriminate; cbn [sqdist]; [lra|].
  pose proof (H1 0%nat ltac:(cbn; lia)) as A. pose proof (H2 0%nat ltac:(cbn; lia)) as B. cbn [nth] in A, B.
  assert (K : sqdist x y <= sqdist lb ub).
  { apply IH; try (cbn in *; lia).
    - intros i Hi. apply (H1 (S i)). cbn. lia.
    - intros i Hi. apply (H2 (S i)). cbn. lia. }
  nra.
Qed.
Lemma edist_box : forall q dim x y, well_formed q dim -> feasible q dim x -> feasible q dim y -> edist x y <= edist (q_lb q) (q_ub q).
Proof.
  intros q dim x y W FX FY. destruct W as [[W1 [W2 _]] _]. destruct FX as [[LX BX] _]. destruct FY as [[LY BY] _]. unfold edist. apply sqrt_le_1_alt. apply sqdist_box; try congruence.
  - intros i Hi. apply BX. congruence.
  - intros i Hi. apply BY. congruence.
Qed.

Section Small.
Variable q : prob.
Variable dim : nat.
Variable dist : pt -> pt -> R.
Variable predict : list (pt * val) -> pt -> R.
Variable dtol : R.
Variable num_cand : option nat.
Variable c : cfg pt val.
Variable weights : list Q.

Lemma get_weights_len : forall n k ws nx, get_weights weights n k = Ok (ws, nx) -> length ws = n.
Proof using.
  induction n as [|n IH]; intros k ws nx H; cbn [get_weights] in H; [injection H as <- _; reflexivity|].
  destruct (nth_error weights k); [|discriminate]. apply rbind_ok in H. destruct H as [[w2 n2] [E H]]. injection H as <- _. cbn. f_equal. exact (IH _ _ _ E).
Qed.
Lemma picks_small : forall (pr : pt -> R) cand T ws js l x0, (forall x, In x cand -> exists t, In t T /\ dist x t < dtol) -> nth_error cand 0 = Some x0 ->
  Forall2 (fun j x => nth_error cand j = Some x) js l -> good_picks dist pr cand dtol ws T js -> l = repeat x0 (length js).
Proof using.
  intros pr cand T ws js l x0 HT H0 F. revert ws T HT. induction F as [|j x js l Hj F IH]; intros ws T HT G; [reflexivity|].
  cbn [good_picks] in G. destruct ws as [|w ws]; [destruct G|]. destruct G as [[c0 [G1 [_ G2]]] G3].
  assert (J : j = 0%nat).
  { apply G2. intros k y Hk A. destruct (HT y (nth_error_In _ _ Hk)) as [t [T1 T2]]. specialize (A t T1). lra. }
  subst j. rewrite H0 in Hj. injection Hj as <-. cbn [length repeat]. f_equal. apply (IH ws (T ++ [x0])).
  - intros y Hy. destruct (HT y Hy) as [t [T1 T2]]. exists t. split; [apply in_or_app; left; exact T1|exact T2].
  - apply G3. exact H0.
Qed.

Lemma batch_small : forall O (g : O -> cand_search pt) (mk : O -> R -> pt -> res (list pt)),
  setting q dim dist dtol num_cand -> legal c -> weights <> [] ->
  (forall o s n ws r, g o s n ws r = do xb <- center s; do cand <- mk o (Q2R r) xb; weighted_distance_merit dist (predict (sur s)) n (X_ s ++ Xpend s) cand (map Q2R ws) dtol) ->
  (forall x y, feasible q dim x -> feasible q dim y -> dist x y < dtol) ->
  forall design d o p out p' t n r, reached c (hooks_with g (srbf_strategy c weights dim)) design srbf0 p ->
  (forall id k x, In (EvPropose id k x) (p_hist p) -> feasible q dim x) ->
  do_propose c (hooks_with g (srbf_strategy c weights dim)) d o p = Ok (out, p') -> p_hist p' = p_hist p ++ t -> In (EvGenerate n r) t ->
  (forall xb cand, feasible q dim xb -> mk o (Q2R (s_radius (p_e p))) xb = Ok cand -> cand <> [] /\ Forall (feasible q dim) cand) ->
  exists data xb cand x, n = (if c_async c then 1 else c_batch c)%nat /\
    subseq data (run_data (p_hist p)) /\ (c_async c = false -> data = run_data (p_hist p)) /\
    first_best data xb /\ feasible q dim xb /\ 0 < Q2R (s_radius (p_e p)) /\ mk o (Q2R (s_radius (p_e p))) xb = Ok cand /\
    nth_error cand 0 = Some x /\ r = Some (repeat x n).
Proof using.
  intros O g mk SE HL HW Hg SB design d o p out p' t n r HR FE DP Ht Hin HC.
  destruct (@propose_generates _ _ _ _ c _ d o p p' out t n r DP Ht Hin) as [e' [G EN]].
  pose proof (@proposed_data q dim c _ _ g design p HR FE) as FX.
  assert (HR' : reached c (srbf_strategy c weights dim) design srbf0 p) by (eapply reached_with; exact HR).
  set (s' := set_phase 2%nat (check_termination c (p_s p))) in *.
  assert (S1 : X_ s' = X_ (p_s p) /\ fX_ s' = fX_ (p_s p) /\ Xpend s' = Xpend (p_s p) /\ sur s' = sur (p_s p)).
  { unfold s', check_termination. destruct (_ <=? _)%Z; repeat split; reflexivity. }
  destruct S1 as [S1 [S2 [S3 S4]]]. clearbody s'.
  change (srbf_generate weights (p_e p) s' n (g o) = Ok (e', r)) in G.
  unfold srbf_generate in G. apply rbind_ok in G. destruct G as [[ws nx] [GW G]]. cbn [fst snd] in G.
  apply rbind_ok in G. destruct G as [pts [G1 G]]. apply rbind_ok in G. destruct G as [rws [G2 G]]. injection G as _ <-.
  apply take_rows_ok in G2. destruct G2 as [-> G2].
  rewrite Hg in G1. apply rbind_ok in G1. destruct G1 as [xb [G3 G1]]. apply rbind_ok in G1. destruct G1 as [cand [G4 G5]].
  unfold center in G3. rewrite S1, S2 in G3. rewrite S1, S3, S4 in G5. fold (center (p_s p)) in G3.
  pose proof (RunInv_reached HR') as RI.
  assert (LX : length (X_ (p_s p)) = length (fX_ (p_s p))) by (apply (ri_len RI)).
  assert (NE : X_ (p_s p) <> []) by (eapply X_nonempty; exact G3).
  assert (BX : best_of (X_ (p_s p)) (map toxr (fX_ (p_s p))) xb /\ In xb (X_ (p_s p))).
  { destruct (@x_best_ok _ (X_ (p_s p)) (map toxr (fX_ (p_s p))) NE) as [xb' [E1 E2]].
    - rewrite map_length. symmetry. exact LX.
    - intros u. apply toxr_nan.
    - unfold center in G3. rewrite E1 in G3. injection G3 as ->. exact E2. }
  destruct BX as [BX IX]. assert (FB : feasible q dim xb) by (rewrite Forall_forall in FX; apply FX, IX).
  assert (RP : 0 < Q2R (s_radius (p_e p))).
  { eapply radius_pos; [exact (@ft_nz pt c dim HL)|exact (a_e (@all_inv pt c weights dim design HL p HR'))]. }
  destruct SE as [W D T0 RF NC]. destruct (HC xb cand FB G4) as [CN CF].
  assert (LW : length ws = n).
  { exact (get_weights_len _ _ GW). }
  destruct (@C32_merit _ dist (predict (sur (p_s p))) cand dtol n (X_ (p_s p) ++ Xpend (p_s p)) (map Q2R ws)) as [js [pts' [E1 [E2 [E3 E4]]]]].
  { exact CN. }
  { intros K. apply app_eq_nil in K. tauto. }
  { rewrite map_length. lia. }
  { intros c0 _. rewrite RF. exact T0. }
  rewrite G5 in E1. injection E1 as <-.
  destruct cand as [|x0 cand]; [congruence|].
  exists (combine (X_ (p_s p)) (fX_ (p_s p))), xb, (x0 :: cand), x0.
  split; [exact EN|]. split; [exact (ri_sub RI)|].
  split; [intros HA; exact (proj1 (@C07_srbf_sync pt c weights dim design HL HA p HR'))|].
  split; [apply first_best_of; assumption|]. split; [exact FB|]. split; [exact RP|]. split; [exact G4|]. split; [reflexivity|].
  rewrite (@picks_small (predict (sur (p_s p))) (x0 :: cand) (X_ (p_s p) ++ Xpend (p_s p)) (map Q2R ws) js pts x0).
  - rewrite E2, firstn_all2 by (rewrite repeat_length; lia). reflexivity.
  - intros y Hy. exists xb. split; [apply in_or_app; left; exact IX|]. apply SB; [|exact FB]. rewrite Forall_forall in CF. apply CF. exact Hy.
  - reflexivity.
  - exact E3.
  - exact E4.
Qed.
End Small.

(** ** The candidates are feasible *)
Section Cands.
Variable q : prob.
Variable dim : nat.
Variable dist : pt -> pt -> R.
Variable dtol : R.
Variable num_cand : option nat.
Hypothesis SE : setting q dim dist dtol num_cand.
Lemma cand_count_pos : cand_count dim num_cand <> 0%nat.
Proof using SE. pose proof (se_dim SE). pose proof (se_nc SE). unfold cand_count. destruct num_cand as [[|k]|]; [congruence|discriminate|lia]. Qed.
Lemma srbf_cand_feas : forall z r xb cand, feasible q dim xb -> 0 < r -> srbf_cand q r (seq 0 dim) (cand_count dim num_cand) xb (in_range q xb r z) = Ok cand ->
  cand <> [] /\ Forall (feasible q dim) cand.
Proof using SE.
  intros z r xb cand FB HR H. destruct (@srbf_cand_ok q dim (se_wf SE) r (seq 0 dim) (cand_count dim num_cand) xb (in_range q xb r z)) as [Y [E1 [E2 E3]]]; auto.
  - intros i Hi. apply in_seq in Hi. lia.
  - intros i k Hi _. unfold in_range. rewrite (@all_seq q dim) by apply (se_wf SE). apply clamp_in. apply in_seq in Hi. apply (@tn_order q dim (se_wf SE)); auto. lia.
  - rewrite E1 in H. injection H as <-. split; [intros ->; cbn in E2; apply cand_count_pos; congruence|]. apply Forall_forall. intros y Hy. apply E3. exact Hy.
Qed.
Lemma dycors_cand_feas : forall z r xb cand, feasible q dim xb -> 0 < r ->
  dycors_cand q r (seq 0 dim) (cand_count dim num_cand) xb (dy_u z) (fun k => dy_f z k mod (dim - 1))%nat (in_range q xb r (dy_z z)) = Ok cand ->
  cand <> [] /\ Forall (feasible q dim) cand.
Proof using SE.
  intros z r xb cand FB HR H. destruct (@dycors_cand_ok q dim (se_wf SE) r dim (cand_count dim num_cand) xb (dy_u z) (fun k => dy_f z k mod (dim - 1))%nat (in_range q xb r (dy_z z)))
    as [ar [Y [_ [E1 [E2 [_ [_ E3]]]]]]]; auto.
  - pose proof (se_dim SE). lia.
  - intros Hd k _. apply Nat.mod_upper_bound. lia.
  - intros i k Hi _. unfold in_range. rewrite (@all_seq q dim) by apply (se_wf SE). apply clamp_in. apply (@tn_order q dim (se_wf SE)); auto.
  - rewrite E1 in H. injection H as <-. split; [intros ->; cbn in E2; apply cand_count_pos; congruence|]. apply Forall_forall. intros y Hy. apply In_nth_error in Hy. destruct Hy as [k Hy]. exact (proj1 (E3 k y Hy)).
Qed.
End Cands.

Section Strategies.
Variable q : prob.
Variable dim : nat.
Variable dtol : R.
Variable num_cand : option nat.
Variable eta : R.
Variable c : cfg pt val.
Variable weights : list Q.
Notation model := (predicted q dim eta).

(** C71: in a box with a diameter below the minimum distance, SRBF proposes copies of the first
    candidate, whatever the surrogate predicts and the weights are. *)
Theorem C71_srbf_small_box_refuted : setting q dim edist dtol num_cand -> legal c -> weights <> [] -> edist (q_lb q) (q_ub q) < dtol ->
  forall design ops p, y_proc (Strategy.run c (srbf_rbf q dim edist dtol num_cand eta c weights) design srbf0 ops) = Some p ->
  (forall d, design = Ok d -> Forall (feasible q dim) d) ->
  (forall d z, In (Propose (Ok d) z) ops -> Forall (feasible q dim) d) -> Forall (feasible q dim) (unknown c) ->
  forall d z out p' t n r, do_propose c (srbf_rbf q dim edist dtol num_cand eta c weights) d z p = Ok (out, p') ->
  p_hist p' = p_hist p ++ t -> In (EvGenerate n r) t ->
  exists data xb cand x, n = (if c_async c then 1 else c_batch c)%nat /\
    subseq data (run_data (p_hist p)) /\ (c_async c = false -> data = run_data (p_hist p)) /\ first_best data xb /\
    drawn q dim xb (Q2R (s_radius (p_e p))) (fun _ _ => True) z cand /\ nth_error cand 0 = Some x /\ r = Some (repeat x n).
Proof using.
  intros SE HL HW SB design ops p Hp Hd Ho Hu d z out p' t n r DP Ht Hin.
  destruct (@srbf_as_full q dim edist dtol num_cand eta c weights design ops) as [ops' [E1 E2]]. rewrite E1 in Hp.
  pose proof (@refine_propose _ _ _ _ c (srbf_rbf q dim edist dtol num_cand eta c weights) (srbf_full q dim edist model dtol num_cand c weights) (fun _ => eq_refl)
    (@srbf_refine q dim edist dtol num_cand eta c weights) d z p (out, p') DP) as DP'.
  pose proof (@C13_srbf q dim edist model dtol num_cand c weights design SE HL ops' p Hp Hd (fun d z H => Ho d z (E2 _ _ H)) Hu) as FE.
  assert (HR : reached c (srbf_full q dim edist model dtol num_cand c weights) design srbf0 p) by (exists ops'; left; exact Hp).
  assert (LD : length (q_lb q) = dim) by apply (se_wf SE).
  assert (RP : 0 < Q2R (s_radius (p_e p))).
  { assert (HR' : reached c (srbf_strategy c weights dim) design srbf0 p) by (eapply reached_with; exact HR).
    eapply radius_pos; [exact (@ft_nz pt c dim HL)|exact (a_e (@all_inv pt c weights dim design HL p HR'))]. }
  destruct (@batch_small q dim edist model dtol num_cand c weights _ (srbf_search q edist model dtol num_cand) (fun z r xb => srbf_cand q r (seq 0 dim) (cand_count dim num_cand) xb (in_range q xb r z))
    SE HL HW) with (design := design) (d := d) (o := z) (p := p) (out := out) (p' := p') (t := t) (n := n) (r := r)
    as [data [xb [cand [x [A1 [A2 [A3 [A4 [A5 [A6 [A7 [A8 A9]]]]]]]]]]]]; try assumption.
  - intros o s m ws rr. unfold srbf_search. unfold center at 1. destruct (x_best (X_ s) (map toxr (fX_ s))) as [xb|] eqn:E; [|unfold center; rewrite E; reflexivity].
    unfold center. rewrite E. cbn [rbind]. unfold candidate_srbf. rewrite E. cbn [rbind]. unfold all_coords. rewrite LD. reflexivity.
  - intros x y FX FY. eapply Rle_lt_trans; [|exact SB]. apply (@edist_box q dim); auto. apply (se_wf SE).
  - intros xb cand FB K. apply (@srbf_cand_feas q dim edist dtol num_cand SE _ _ _ _ FB RP K).
  - exists data, xb, cand, x. repeat (split; [assumption|]). split; [|auto]. destruct (@srbf_drawn q dim (se_wf SE) _ _ _ _ _ A5 A6 A7) as [_ DR]. exact DR.
Qed.

(** C71: every batch of the whole run. *)
Theorem C71_srbf_small_box_copies_refuted : setting q dim edist dtol num_cand -> legal c -> weights <> [] -> edist (q_lb q) (q_ub q) < dtol ->
  forall design ops p, y_proc (Strategy.run c (srbf_rbf q dim edist dtol num_cand eta c weights) design srbf0 ops) = Some p ->
  (forall d, design = Ok d -> Forall (feasible q dim) d) ->
  (forall d z, In (Propose (Ok d) z) ops -> Forall (feasible q dim) d) -> Forall (feasible q dim) (unknown c) ->
  forall n r, In (EvGenerate n r) (p_hist p) -> exists x, r = Some (repeat x n).
Proof using.
  intros SE HL HW SB design ops p Hp Hd Ho Hu. apply (@generated_all _ _ _ _ c (srbf_rbf q dim edist dtol num_cand eta c weights) _ design srbf0 ops); [|left; exact Hp].
  intros ops1 d z ops2 p1 out p' t n r E R1 DP Ht Hin.
  destruct (@C71_srbf_small_box_refuted SE HL HW SB design ops1 p1 R1 Hd) with (d := d) (z := z) (out := out) (p' := p') (t := t) (n := n) (r := r)
    as [data [xb [cand [x [_ [_ [_ [_ [_ [_ K]]]]]]]]]]; try assumption.
  - intros d0 z0 H. apply (Ho d0 z0). rewrite E. apply in_or_app. left. exact H.
  - exists x. exact K.
Qed.

(** C71: in a box with a diameter below the minimum distance, DYCORS proposes copies of the first
    candidate, whatever the surrogate predicts and the weights are. *)
Theorem C71_dycors_small_box_refuted : setting q dim edist dtol num_cand -> legal c -> weights <> [] -> edist (q_lb q) (q_ub q) < dtol ->
  forall design ops p, y_proc (Strategy.run c (dycors_rbf q dim edist dtol num_cand eta c weights) design srbf0 ops) = Some p ->
  (forall d, design = Ok d -> Forall (feasible q dim) d) ->
  (forall d z, In (Propose (Ok d) z) ops -> Forall (feasible q dim) d) -> Forall (feasible q dim) (unknown c) ->
  forall d z out p' t n r, do_propose c (dycors_rbf q dim edist dtol num_cand eta c weights) d z p = Ok (out, p') ->
  p_hist p' = p_hist p ++ t -> In (EvGenerate n r) t ->
  exists data xb cand x, n = (if c_async c then 1 else c_batch c)%nat /\
    subseq data (run_data (p_hist p)) /\ (c_async c = false -> data = run_data (p_hist p)) /\ first_best data xb /\
    drawn q dim xb (Q2R (s_radius (p_e p))) (dycors_selected dim (dy_u z) (fun k => dy_f z k mod (dim - 1))%nat) (dy_z z) cand /\ nth_error cand 0 = Some x /\ r = Some (repeat x n).
Proof using.
  intros SE HL HW SB design ops p Hp Hd Ho Hu d z out p' t n r DP Ht Hin.
  destruct (@dycors_as_full q dim edist dtol num_cand eta c weights design ops) as [ops' [E1 E2]]. rewrite E1 in Hp.
  pose proof (@refine_propose _ _ _ _ c (dycors_rbf q dim edist dtol num_cand eta c weights) (dycors_full q dim edist model dtol num_cand c weights) (fun _ => eq_refl)
    (@dycors_refine q dim edist dtol num_cand eta c weights) d z p (out, p') DP) as DP'.
  pose proof (@C13_dycors q dim edist model dtol num_cand c weights design SE HL ops' p Hp Hd (fun d z H => Ho d z (E2 _ _ H)) Hu) as FE.
  assert (HR : reached c (dycors_full q dim edist model dtol num_cand c weights) design srbf0 p) by (exists ops'; left; exact Hp).
  assert (LD : length (q_lb q) = dim) by apply (se_wf SE).
  assert (RP : 0 < Q2R (s_radius (p_e p))).
  { assert (HR' : reached c (srbf_strategy c weights dim) design srbf0 p) by (eapply reached_with; exact HR).
    eapply radius_pos; [exact (@ft_nz pt c dim HL)|exact (a_e (@all_inv pt c weights dim design HL p HR'))]. }
  destruct (@batch_small q dim edist model dtol num_cand c weights _ (dycors_search q edist model dtol num_cand) (fun z r xb => dycors_cand q r (seq 0 dim) (cand_count dim num_cand) xb (dy_u z) (fun k => dy_f z k mod (dim - 1))%nat (in_range q xb r (dy_z z)))
    SE HL HW) with (design := design) (d := d) (o := z) (p := p) (out := out) (p' := p') (t := t) (n := n) (r := r)
    as [data [xb [cand [x [A1 [A2 [A3 [A4 [A5 [A6 [A7 [A8 A9]]]]]]]]]]]]; try assumption.
  - intros o s m ws rr. unfold dycors_search. unfold center at 1. destruct (x_best (X_ s) (map toxr (fX_ s))) as [xb|] eqn:E; [|unfold center; rewrite E; reflexivity].
    unfold center. rewrite E. cbn [rbind]. unfold candidate_dycors. rewrite E. cbn [rbind]. unfold all_coords. rewrite LD. reflexivity.
  - intros x y FX FY. eapply Rle_lt_trans; [|exact SB]. apply (@edist_box q dim); auto. apply (se_wf SE).
  - intros xb cand FB K. apply (@dycors_cand_feas q dim edist dtol num_cand SE _ _ _ _ FB RP K).
  - exists data, xb, cand, x. repeat (split; [assumption|]). split; [|auto]. destruct (@dycors_drawn q dim (se_wf SE) _ _ _ _ _ _ _ A5 A6 (se_dim SE) A7) as [_ DR]. exact DR.
Qed.

(** C71: every batch of the whole run. *)
Theorem C71_dycors_small_box_copies_refuted : setting q dim edist dtol num_cand -> legal c -> weights <> [] -> edist (q_lb q) (q_ub q) < dtol ->
  forall design ops p, y_proc (Strategy.run c (dycors_rbf q dim edist dtol num_cand eta c weights) design srbf0 ops) = Some p ->
  (forall d, design = Ok d -> Forall (feasible q dim) d) ->
  (forall d z, In (Propose (Ok d) z) ops -> Forall (feasible q dim) d) -> Forall (feasible q dim) (unknown c) ->
  forall n r, In (EvGenerate n r) (p_hist p) -> exists x, r = Some (repeat x n).
Proof using.
  intros SE HL HW SB design ops p Hp Hd Ho Hu. apply (@generated_all _ _ _ _ c (dycors_rbf q dim edist dtol num_cand eta c weights) _ design srbf0 ops); [|left; exact Hp].
  intros ops1 d z ops2 p1 out p' t n r E R1 DP Ht Hin.
  destruct (@C71_dycors_small_box_refuted SE HL HW SB design ops1 p1 R1 Hd) with (d := d) (z := z) (out := out) (p' := p') (t := t) (n := n) (r := r)
    as [data [xb [cand [x [_ [_ [_ [_ [_ [_ K]]]]]]]]]]; try assumption.
  - intros d0 z0 H. apply (Ho d0 z0). rewrite E. apply in_or_app. left. exact H.
  - exists x. exact K.
Qed.
End Strategies.
