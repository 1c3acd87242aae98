(** * C59: the RBF system is solvable whenever the data points are in general position

    rbf.py:97-168 factorises the system and the triangular solves raise LinAlgError if it is
    singular.  Here: when that can happen. *)
From Coq Require Import List Arith ZArith Lia Bool Reals Lra.
From Coquelicot Require Import Coquelicot.
From Verif Require Import Base Box Design Lin LinProofs RBF RBFProofs RBFFit PropBox PropDesign PropRBF PropSurr PosDef RBFDeriv.
Import ListNotations.

Set Implicit Arguments.
Local Open Scope R_scope.

(** ** Specification *)
(** The points do not all lie on one hyperplane: only the zero affine function vanishes on all of them. *)
Definition in_general_position (dim : nat) (X : list pt) : Prop :=
  forall a b, length b = dim -> (forall x, In x X -> affine dim a b x = 0) -> a = 0 /\ forall k, (k < dim)%nat -> nth k b 0 = 0.

Lemma eps_pos : 0 < eps.
Proof. unfold eps. apply Rinv_0_lt_compat. apply pow_lt. lra. Qed.
Lemma ln_eps : -52 <= ln eps <= - (26).
Proof.
  unfold eps. rewrite ln_Rinv by (apply pow_lt; lra). rewrite ln_pow by lra. replace (INR 52) with 52 by (simpl; lra).
  pose proof ln_lt_2. assert (ln 2 < 1).
  { rewrite <- (ln_exp 1). apply ln_increasing; [lra|]. pose proof (exp_ineq1 1 ltac:(lra)). lra. }
  lra.
Qed.
Lemma tps_decreasing : forall r, 0 < r -> r <= eps -> eps * eps * ln eps <= r * r * ln r <= 0.
Proof.
  intros r Hr Hre. pose proof ln_eps as LE. pose proof eps_pos as EP.
  assert (LR : forall s, 0 < s -> s <= eps -> ln s <= ln eps).
  { intros s Hs Hse. destruct Hse as [Hse| ->]; [|lra]. apply Rlt_le, ln_increasing; assumption. }
  split.
  - destruct Hre as [Hre| ->]; [|lra].
    destruct (MVT_gen (fun s => s * s * ln s) r eps (fun s => 2 * s * ln s + s)) as [c [Hc E]].
    + intros s Hs. rewrite Rmin_left, Rmax_right in Hs by lra. auto_derive; [lra|]. field. lra.
    + intros s Hs. rewrite Rmin_left, Rmax_right in Hs by lra. apply continuity_pt_filterlim.
      apply (@ex_derive_continuous R_AbsRing R_NormedModule (fun s => s * s * ln s) s). auto_derive. lra.
    + rewrite Rmin_left, Rmax_right in Hc by lra. pose proof (LR c ltac:(lra) ltac:(lra)) as LC.
      assert (N : 2 * c * ln c + c <= 0) by nra. assert (0 <= eps - r) by lra. nra.
  - specialize (LR r Hr Hre). assert (0 <= r * r) by nra. nra.
Qed.
Definition tps_gap : R := 52 * (eps * eps).
Lemma tps_clip : forall r, 0 <= r -> - tps_gap <= k_eval TPSKernel r - r * r * ln r <= 0.
Proof.
  intros r Hr. pose proof ln_eps as LE. pose proof eps_pos as EP. unfold tps_gap. cbn [k_eval]. unfold clip_eps.
  assert (0 < eps * eps) by nra.
  destruct (Rlt_dec r eps) as [H1|H1].
  - destruct Hr as [Hr|<-].
    + destruct (@tps_decreasing r Hr ltac:(lra)) as [T1 T2]. simpl. nra.
    + rewrite Rmult_0_l, Rmult_0_l. simpl. nra.
  - replace (r ^ 2 * ln r - r * r * ln r) with 0 by (simpl; ring). nra.
Qed.

Lemma rsum_le2 : forall m (f g : nat -> R), (forall i, (i < m)%nat -> f i <= g i) -> rsum m f <= rsum m g.
Proof. induction m as [|m IH]; intros f g H; simpl; [lra|]. apply Rplus_le_compat; [apply IH; intros i Hi; apply H; lia|apply H; lia]. Qed.
Lemma rsum_const2 : forall m c, rsum m (fun _ => c) = INR m * c.
Proof. induction m as [|m IH]; intros c; [simpl; ring|]. cbn [rsum]. rewrite IH, S_INR. ring. Qed.

Section Solve.
Variable dim : nat.
Variables lb ub : pt.
Hypothesis WB : bounds dim lb ub.

(** ** A system whose quadratic form is definite on the constrained weights is regular *)
Section General.
Variable K : kernel.
Variable T : tail.
Variable eta : R.
Variable d : list (pt * R).
Notation ntail := (t_dim_tail T).
Notation u i := (unit_pt lb ub d i).
Notation kk i j := (k_eval K (edist (u i) (u j))).

Definition tail_poised : Prop :=
  forall l, (forall i, (i < length d)%nat -> rsum ntail (fun j => l j * nth j (t_eval T (u i)) 0) = 0) -> forall j, (j < ntail)%nat -> l j = 0.

Lemma sum_sq_0 : forall n (w : nat -> R), rsum n (fun i => w i * w i) = 0 -> forall i, (i < n)%nat -> w i = 0.
Proof.
  intros n w H i Hi. pose proof (@rsum_zero_terms n (fun i => w i * w i) (fun i _ => Rle_0_sqr (w i)) H i Hi) as E. simpl in E. apply Rsqr_0_uniq. exact E.
Qed.

Lemma regular_of_definite : tail_poised ->
  (forall w, (forall j, (j < ntail)%nat -> rsum (length d) (fun i => w i * nth j (t_eval T (u i)) 0) = 0) ->
     qf (length d) w (fun i j => kk i j) + eta * rsum (length d) (fun i => w i * w i) = 0 -> forall i, (i < length d)%nat -> w i = 0) ->
  regular_system lb ub K T eta d.
Proof using.
  intros HP HD l w H1 H2.
  assert (W : forall i, (i < length d)%nat -> w i = 0).
  { apply HD; [exact H2|].
    assert (Z : rsum (length d) (fun i => w i * (rsum (length d) (fun j => w j * kk i j) + eta * w i + rsum ntail (fun j => l j * nth j (t_eval T (u i)) 0))) = 0).
    { apply rsum_0. intros i Hi. rewrite (H1 i Hi). ring. }
    assert (Z2 : rsum (length d) (fun i => w i * rsum ntail (fun j => l j * nth j (t_eval T (u i)) 0)) = 0).
    { rewrite (rsum_ext (n := length d) _ (fun i => rsum ntail (fun j => l j * (w i * nth j (t_eval T (u i)) 0)))).
      - rewrite rsum_swap. apply rsum_0. intros j Hj. rewrite rsum_scal, (H2 j Hj). ring.
      - intros i Hi. rewrite <- rsum_scal. apply rsum_ext. intros j Hj. ring. }
    rewrite (rsum_ext (n := length d) _ (fun i => rsum (length d) (fun j => w i * w j * kk i j) + (eta * (w i * w i) + w i * rsum ntail (fun j => l j * nth j (t_eval T (u i)) 0)))) in Z.
    - rewrite !rsum_plus, Z2, rsum_scal in Z. unfold qf. lra.
    - intros i Hi. rewrite !Rmult_plus_distr_l, <- rsum_scal. rewrite (rsum_ext (n := length d) (fun j => w i * (w j * kk i j)) (fun j => w i * w j * kk i j)) by (intros; ring). ring. }
  split; [|exact W]. apply HP. intros i Hi. pose proof (H1 i Hi) as E. rewrite (W i Hi) in E.
  rewrite rsum_0 in E by (intros j Hj; rewrite (W j Hj); ring). lra.
Qed.
End General.

(** ** Data *)
Variable d : list (pt * R).
Hypothesis HD : forall x f, In (x, f) d -> length x = dim.
Notation u i := (unit_pt lb ub d i).
Let n := length d.
Let xx (i k : nat) : R := nth k (u i) 0.

Lemma raw_len : forall i, (i < n)%nat -> length (fst (nth i d (([] : pt), 0))) = dim.
Proof using HD. intros i Hi. apply (HD (fst (nth i d (([] : pt), 0))) (snd (nth i d (([] : pt), 0)))). rewrite <- surjective_pairing. apply nth_In. exact Hi. Qed.
Lemma u_len : forall i, (i < n)%nat -> length (u i) = dim.
Proof using HD WB. intros i Hi. unfold unit_pt. apply (to_unit_len WB). apply raw_len. exact Hi. Qed.
Lemma edist_sqd : forall i j, (i < n)%nat -> (j < n)%nat -> edist (u i) (u j) = sqrt (sqd dim xx i j).
Proof using HD WB. intros i j Hi Hj. unfold edist. f_equal. apply sqdist_rsum; apply u_len; assumption. Qed.

Lemma general_poised : in_general_position dim (map fst d) -> tail_poised (LinearTail dim) d.
Proof using HD WB.
  intros G l H. cbn [t_dim_tail] in *.
  set (b := of_fun dim (fun k => l (S k) / (nth k ub 0 - nth k lb 0))).
  set (a := l 0%nat - rsum dim (fun k => l (S k) * nth k lb 0 / (nth k ub 0 - nth k lb 0))).
  destruct WB as [B1 [B2 B3]].
  destruct (G a b) as [A0 B0]; [apply of_fun_len| |].
  - intros x Hx. apply in_map_iff in Hx. destruct Hx as [[x' f] [<- Hx]]. simpl fst.
    destruct (In_nth _ _ (([] : pt), 0) Hx) as [i [Hi E]]. specialize (H i Hi). rewrite rsum_head in H. cbn [t_eval nth] in H.
    assert (EU : u i = to_unit x' lb ub).
    { unfold unit_pt. match goal with |- to_unit (fst ?q) _ _ = _ => replace q with (x', f) by (symmetry; exact E) end. reflexivity. }
    assert (E2 : rsum dim (fun k => nth k b 0 * nth k x' 0) - rsum dim (fun k => l (S k) * nth k lb 0 / (nth k ub 0 - nth k lb 0)) =
                 rsum dim (fun k => l (S k) * nth k (u i) 0)).
    { rewrite <- rsum_minus. apply rsum_ext. intros k Hk. rewrite EU. rewrite (to_unit_nth WB) by (try exact Hk; apply (HD _ _ Hx)).
      unfold b. rewrite of_fun_nth by exact Hk. specialize (B3 k Hk). field. lra. }
    unfold affine, a. lra.
  - assert (L : forall k, (k < dim)%nat -> l (S k) = 0).
    { intros k Hk. specialize (B0 k Hk). unfold b in B0. rewrite of_fun_nth in B0 by exact Hk. specialize (B3 k Hk).
      replace (l (S k)) with (l (S k) / (nth k ub 0 - nth k lb 0) * (nth k ub 0 - nth k lb 0)) by (field; lra). rewrite B0. ring. }
    intros [|j] Hj; [|apply L; lia]. unfold a in A0. rewrite rsum_0 in A0; [lra|]. intros k Hk. rewrite L by exact Hk. unfold Rdiv. ring.
Qed.

(** general position needs at least dim + 1 points *)
Lemma general_many : in_general_position dim (map fst d) -> (1 + dim <= n)%nat.
Proof using HD WB.
  intros G. destruct (Nat.le_gt_cases (1 + dim) n) as [L|L]; [exact L|exfalso].
  pose proof (general_poised G) as P. unfold tail_poised in P. cbn [t_dim_tail] in P.
  set (m := (1 + dim)%nat) in *. set (A := fun i j => if (i <? n)%nat then nth j (t_eval (LinearTail dim) (u i)) 0 else 0).
  assert (NS : nonsingular m A).
  { intros c LC H. apply (P (fun j => nth j c 0)). intros i Hi. specialize (H i ltac:(lia)). unfold mulv, A in H.
    destruct (Nat.ltb_spec i n) as [_|C]; [|unfold n in C; lia]. refine (eq_trans _ H). apply rsum_ext. intros. ring. }
  pose proof (initial_factored m A) as F. destruct (lu_factor m A) as [LU sw].
  destruct (fac_solve F (fun i => if (i =? m - 1)%nat then 1 else 0)) as [y [_ [_ [Q _]]]]. destruct (Q NS) as [c [_ [_ C]]].
  specialize (C (m - 1)%nat ltac:(lia)). rewrite Nat.eqb_refl in C. unfold mulv, A in C. rewrite rsum_0 in C; [lra|].
  intros j Hj. destruct (Nat.ltb_spec (m - 1) n); [lia|ring].
Qed.

Lemma tail_zero : forall w, (forall j, (j < 1 + dim)%nat -> rsum n (fun i => w i * nth j (t_eval (LinearTail dim) (u i)) 0) = 0) ->
  rsum n w = 0 /\ forall k, (k < dim)%nat -> rsum n (fun i => w i * xx i k) = 0.
Proof using.
  intros w H. split.
  - rewrite <- (H 0%nat) by lia. apply rsum_ext. intros. cbn [t_eval nth]. ring.
  - intros k Hk. apply (H (S k)). lia.
Qed.
Lemma sum_sq_ge0 : forall w : nat -> R, 0 <= rsum n (fun i => w i * w i).
Proof using. intros w. apply rsum_ge0. intros i Hi. apply Rle_0_sqr. Qed.

(** ** Cubic kernel, linear tail (the default) *)
Lemma cubic_qf : forall w, qf n w (fun i j => k_eval CubicKernel (edist (u i) (u j))) = qf n w (fun i j => sqrt (sqd dim xx i j) ^ 3).
Proof using HD WB. intros w. apply qf_ext. intros i j Hi Hj. cbn [k_eval]. rewrite edist_sqd by assumption. reflexivity. Qed.

Lemma cubic_regular : forall eta, in_general_position dim (map fst d) -> 0 < eta -> regular_system lb ub CubicKernel (LinearTail dim) eta d.
Proof using HD WB.
  intros eta G He. apply regular_of_definite; [apply general_poised; exact G|]. intros w HT HQ. fold n in HT, HQ |- *.
  destruct (tail_zero w HT) as [W0 W1]. rewrite cubic_qf in HQ. pose proof (@cubic_cpd dim n xx w W0 W1) as P. pose proof (sum_sq_ge0 w) as S.
  apply sum_sq_0. nra.
Qed.

Lemma distinct_sqd : NoDup (map fst d) -> forall i j, (i < n)%nat -> (j < n)%nat -> i <> j -> 0 < sqd dim xx i j.
Proof using HD WB.
  intros ND i j Hi Hj NE. destruct (sqd_nonneg dim xx i j) as [H|H]; [exact H|exfalso]. apply NE.
  assert (E : u i = u j).
  { apply sqdist_zero; [rewrite !u_len by assumption; reflexivity|]. rewrite (sqdist_rsum (u i) (u j) (u_len Hi) (u_len Hj)). symmetry. exact H. }
  assert (E2 : fst (nth i d (([] : pt), 0)) = fst (nth j d (([] : pt), 0))).
  { pose proof (raw_len Hi) as L1. pose proof (raw_len Hj) as L2. destruct WB as [B1 [B2 B3]].
    apply (nth_ext _ _ 0 0); [congruence|]. intros k Hk. rewrite L1 in Hk.
    assert (E3 : nth k (u i) 0 = nth k (u j) 0) by (rewrite E; reflexivity). unfold unit_pt in E3. rewrite !(to_unit_nth WB) in E3 by assumption.
    specialize (B3 k Hk). apply (Rmult_eq_compat_r (nth k ub 0 - nth k lb 0)) in E3. unfold Rdiv in E3. rewrite !Rmult_assoc, Rinv_l, !Rmult_1_r in E3 by lra. apply (Rplus_eq_reg_r (- nth k lb 0)). exact E3. }
  rewrite (NoDup_nth _ ([] : pt)) in ND. apply ND; rewrite ?map_length; try assumption.
  change ([] : pt) with (fst (([] : pt), 0)). rewrite !map_nth. exact E2.
Qed.
Lemma cubic_regular0 : forall eta, in_general_position dim (map fst d) -> 0 <= eta -> NoDup (map fst d) -> regular_system lb ub CubicKernel (LinearTail dim) eta d.
Proof using HD WB.
  intros eta G He ND. apply regular_of_definite; [apply general_poised; exact G|]. intros w HT HQ. fold n in HT, HQ |- *.
  destruct (tail_zero w HT) as [W0 W1]. rewrite cubic_qf in HQ. apply sum_sq_0. pose proof (sum_sq_ge0 w) as S.
  destruct S as [S|S]; [exfalso|congruence]. pose proof (@cubic_strict dim n xx w W0 W1 (distinct_sqd ND) S) as P. nra.
Qed.

(** ** Thin plate spline, linear tail *)
Lemma tps_qf : forall w, qf n w (fun i j => k_eval TPSKernel (edist (u i) (u j))) >=
  / 2 * qf n w (fun i j => sqd dim xx i j * ln (sqd dim xx i j)) - INR n * tps_gap * rsum n (fun i => w i * w i).
Proof using HD WB.
  intros w.
  assert (E : / 2 * qf n w (fun i j => sqd dim xx i j * ln (sqd dim xx i j)) = qf n w (fun i j => edist (u i) (u j) * edist (u i) (u j) * ln (edist (u i) (u j)))).
  { rewrite <- qf_scal. apply qf_ext. intros i j Hi Hj. rewrite edist_sqd by assumption. pose proof (sqd_nonneg dim xx i j) as P.
    rewrite sqrt_sqrt by exact P. destruct P as [P|P].
    - rewrite <- (sqrt_sqrt (sqd dim xx i j)) at 2 by lra. rewrite ln_mult by (apply sqrt_lt_R0; exact P). lra.
    - rewrite <- P. ring. }
  rewrite E.
  assert (F : qf n w (fun i j => k_eval TPSKernel (edist (u i) (u j)) - edist (u i) (u j) * edist (u i) (u j) * ln (edist (u i) (u j))) >=
              - (INR n * tps_gap * rsum n (fun i => w i * w i))).
  { apply Rle_ge. apply Rle_trans with (rsum n (fun i => rsum n (fun j => - (tps_gap / 2) * (w i * w i) + - (tps_gap / 2) * (w j * w j)))).
    - apply Req_le. set (S := rsum n (fun i => w i * w i)).
      transitivity (rsum n (fun i => (- (tps_gap / 2) * INR n) * (w i * w i) + - (tps_gap / 2) * S)).
      + rewrite rsum_plus, (rsum_const2 n (- (tps_gap / 2) * S)), (rsum_scal n (- (tps_gap / 2) * INR n) (fun i => w i * w i)). fold S. field.
      + apply rsum_ext. intros i Hi. rewrite rsum_plus, (rsum_const2 n (- (tps_gap / 2) * (w i * w i))), (rsum_scal n (- (tps_gap / 2)) (fun j => w j * w j)). fold S. ring.
    - unfold qf. apply rsum_le2. intros i Hi. apply rsum_le2. intros j Hj.
      pose proof (@tps_clip (edist (u i) (u j)) (sqrt_pos _)) as C. set (D := k_eval TPSKernel (edist (u i) (u j)) - _) in *.
      pose proof (Rle_0_sqr (w i - w j)) as P1. pose proof (Rle_0_sqr (w i + w j)) as P2. unfold Rsqr in *.
      destruct (Rle_dec 0 (w i * w j)) as [H|H]; nra. }
  rewrite (@qf_ext n w (fun i j => k_eval TPSKernel (edist (u i) (u j)) - edist (u i) (u j) * edist (u i) (u j) * ln (edist (u i) (u j)))
      (fun i j => k_eval TPSKernel (edist (u i) (u j)) + (-1) * (edist (u i) (u j) * edist (u i) (u j) * ln (edist (u i) (u j))))) in F by (intros; ring).
  rewrite qf_plus, qf_scal in F. lra.
Qed.

Lemma tps_regular : forall eta, in_general_position dim (map fst d) -> INR n * tps_gap < eta -> regular_system lb ub TPSKernel (LinearTail dim) eta d.
Proof using HD WB.
  intros eta G He. apply regular_of_definite; [apply general_poised; exact G|]. intros w HT HQ. fold n in HT, HQ |- *.
  destruct (tail_zero w HT) as [W0 W1]. pose proof (tps_qf w) as P. pose proof (@tps_cpd dim n xx w W0 W1) as Q. pose proof (sum_sq_ge0 w) as S.
  apply sum_sq_0. nra.
Qed.

(** ** Linear kernel: negative definite, so it is regular without regularisation *)
Lemma linear_qf : forall w, qf n w (fun i j => k_eval LinearKernel (edist (u i) (u j))) = qf n w (fun i j => sqrt (sqd dim xx i j)).
Proof using HD WB. intros w. apply qf_ext. intros i j Hi Hj. cbn [k_eval]. rewrite edist_sqd by assumption. reflexivity. Qed.

Lemma linear_definite : forall T eta, t_dim T = dim -> NoDup (map fst d) -> eta <= 0 -> forall w,
  (forall j, (j < t_dim_tail T)%nat -> rsum n (fun i => w i * nth j (t_eval T (u i)) 0) = 0) ->
  qf n w (fun i j => k_eval LinearKernel (edist (u i) (u j))) + eta * rsum n (fun i => w i * w i) = 0 -> forall i, (i < n)%nat -> w i = 0.
Proof using HD WB.
  intros T eta HTD ND He w HT HQ.
  assert (W0 : rsum n w = 0).
  { refine (eq_trans _ (HT 0%nat _)); [|destruct T; simpl; lia]. apply rsum_ext. intros i Hi. destruct T; cbn [t_eval nth]; ring. }
  rewrite linear_qf in HQ. apply sum_sq_0. pose proof (sum_sq_ge0 w) as S.
  destruct S as [S|S]; [exfalso|congruence]. pose proof (@linear_strict dim n xx w W0 (distinct_sqd ND) S) as P. nra.
Qed.
Lemma linear_regular : forall eta, in_general_position dim (map fst d) -> NoDup (map fst d) -> eta <= 0 ->
  regular_system lb ub LinearKernel (LinearTail dim) eta d.
Proof using HD WB.
  intros eta G ND He. apply regular_of_definite; [apply general_poised; exact G|]. intros w HT HQ. fold n in HT, HQ |- *.
  exact (@linear_definite (LinearTail dim) eta eq_refl ND He w HT HQ).
Qed.
Lemma linear_const_regular : forall eta, d <> [] -> NoDup (map fst d) -> eta <= 0 ->
  regular_system lb ub LinearKernel (ConstantTail dim) eta d.
Proof using HD WB.
  intros eta G ND He. apply regular_of_definite.
  - intros l H j Hj. simpl in Hj. specialize (H 0%nat). destruct d as [|x d']; [congruence|]. specialize (H ltac:(simpl; lia)).
    simpl in H. replace j with 0%nat by lia. lra.
  - intros w HT HQ. fold n in HT, HQ |- *. exact (@linear_definite (ConstantTail dim) eta eq_refl ND He w HT HQ).
Qed.

(** Without general position the system is singular. *)
Lemma flat_singular : forall K eta, ~ in_general_position dim (map fst d) -> ~ regular_system lb ub K (LinearTail dim) eta d.
Proof using HD WB.
  intros K eta NG R. apply NG. intros a b LB HA. destruct WB as [B1 [B2 B3]].
  set (l := fun j => match j with O => a + rsum dim (fun k => nth k b 0 * nth k lb 0) | S k => nth k b 0 * (nth k ub 0 - nth k lb 0) end).
  destruct (R l (fun _ => 0)) as [Z _].
  - intros i Hi. rewrite (@rsum_0 (length d)) by (intros; ring). rewrite Rmult_0_r, !Rplus_0_l.
    cbn [t_dim_tail]. change (1 + dim)%nat with (S dim). rewrite rsum_head. cbn [t_eval nth l].
    assert (HX : affine dim a b (fst (nth i d (([] : pt), 0))) = 0).
    { apply HA. apply in_map. apply nth_In. exact Hi. }
    refine (eq_trans _ HX). unfold affine. rewrite Rmult_1_r, Rplus_assoc. f_equal. rewrite <- rsum_plus. apply rsum_ext. intros k Hk.
    unfold unit_pt. rewrite (to_unit_nth WB) by (try exact Hk; apply raw_len; exact Hi). specialize (B3 k Hk). 
    match goal with |- ?p + ?q * ((?y - ?z) / ?r) = _ => replace (p + q * ((y - z) / r)) with (nth k b 0 * y) by (field; lra) end. reflexivity.
  - intros j Hj. apply rsum_0. intros. ring.
  - assert (Bk : forall k, (k < dim)%nat -> nth k b 0 = 0).
    { intros k Hk. specialize (Z (S k) ltac:(simpl; lia)). simpl in Z. specialize (B3 k Hk). apply Rmult_integral in Z. destruct Z as [Z|Z]; [exact Z|lra]. }
    split; [|exact Bk]. specialize (Z 0%nat ltac:(simpl; lia)). simpl in Z. rewrite rsum_0 in Z; [lra|]. intros k Hk. rewrite Bk by exact Hk. ring.
Qed.
End Solve.

(** ** C59 over call histories *)
Section History.
Variable dim : nat.
Variables lb ub : pt.
Hypothesis WB : bounds dim lb ub.
Variable K : kernel.
Variable eta : R.
Variable out : list R -> list R.
Notation T := (LinearTail dim).
Notation answer := (answer dim lb ub K T eta out).
Notation answer_deriv := (answer_deriv dim lb ub K T eta out).
Notation failed := (failed dim lb ub K T eta out).
Notation contents := (contents dim).

(** The regularisation suits the kernel: for the cubic kernel any positive eta (or zero, if no point
    was added twice); for the thin plate spline more than 52 n / 2^104; for the linear kernel none
    and no point added twice. *)
Definition eta_suits (X : list pt) : Prop :=
  match K with
  | CubicKernel => 0 < eta \/ (0 = eta /\ NoDup X)
  | TPSKernel => INR (length X) * (52 / 2 ^ 104) < eta
  | LinearKernel => eta <= 0 /\ NoDup X
  end.

Lemma gap_eq : tps_gap = 52 / 2 ^ 104.
Proof. unfold tps_gap, eps. replace (2 ^ 104) with (2 ^ 52 * 2 ^ 52) by (rewrite <- pow_add; reflexivity). field. Qed.

Lemma solvable_iff : forall h, eta_suits (map fst (contents h)) ->
  (regular_system lb ub K T eta (contents h) <-> in_general_position dim (map fst (contents h))).
Proof using WB.
  intros h HE. assert (HL : forall x f, In (x, f) (contents h) -> length x = dim) by (intros x f; apply contents_dim).
  split.
  - intros R a b LB HA. (* decide classically through the singular system *)
    destruct WB as [B1 [B2 B3]].
    set (l := fun j => match j with O => a + rsum dim (fun k => nth k b 0 * nth k lb 0) | S k => nth k b 0 * (nth k ub 0 - nth k lb 0) end).
    pose proof (@flat_singular dim lb ub WB (contents h) HL K eta) as F.
    destruct (Req_dec a 0) as [A0|A0].
    + split; [exact A0|]. intros k Hk. destruct (Req_dec (nth k b 0) 0) as [Z|Z]; [exact Z|]. exfalso. apply F; [|exact R].
      intros G. destruct (G a b LB HA) as [_ G2]. apply Z. apply G2. exact Hk.
    + exfalso. apply F; [|exact R]. intros G. apply A0. apply (G a b LB HA).
  - intros G. unfold eta_suits in HE. destruct K.
    + destruct HE as [HE|[HE ND]]; [eapply cubic_regular; eassumption|eapply cubic_regular0; try eassumption; lra].
    + destruct HE as [HE ND]. eapply linear_regular; eassumption.
    + eapply tps_regular; try eassumption. rewrite gap_eq. rewrite map_length in HE. exact HE.
Qed.

Lemma deriv_err : forall h x y e, answer_deriv h x = Err e -> answer h y = Err e.
Proof using.
  intros h x y e. unfold PropRBF.answer_deriv, PropRBF.answer, predict_deriv, predict. destruct (fit K T eta out (run dim lb ub K T eta out h)) as [s' [[]|e']]; cbn [snd].
  - destruct (r_c s'); [discriminate|intros H; injection H as <-; reflexivity].
  - intros H; injection H as <-; reflexivity.
Qed.
Lemma deriv_ok : forall h x y v, answer h y = Ok v -> exists g, answer_deriv h x = Ok g.
Proof using.
  intros h x y v. unfold PropRBF.answer_deriv, PropRBF.answer, predict_deriv, predict. destruct (fit K T eta out (run dim lb ub K T eta out h)) as [s' [[]|e']]; cbn [snd].
  - destruct (r_c s'); [eauto|discriminate].
  - discriminate.
Qed.

(** Predictions made so far were made with too few points (these raise AssertionError and change
    nothing) or with points in general position. *)
Definition careful (h : list call) : Prop :=
  forall h1 c h2, h = h1 ++ c :: h2 -> ~ In Reset h2 -> (exists x, c = Predict x \/ c = PredictDeriv x) ->
  (length (contents h1) < 1 + dim)%nat \/ (in_general_position dim (map fst (contents h1)) /\ eta_suits (map fst (contents h1))).

Lemma careful_prefix : forall h1 h2, ~ In Reset h2 -> careful (h1 ++ h2) -> careful h1.
Proof using.
  intros h1 h2 NR C a c b E NRb HC. apply (C a c (b ++ h2)); [rewrite E, <- app_assoc; reflexivity| |exact HC].
  intros H. apply in_app_or in H. destruct H as [H|H]; [exact (NRb H)|exact (NR H)].
Qed.

Lemma careful_ok : forall h, careful h -> ~ failed h.
Proof using WB.
  assert (P : forall m h, (length h <= m)%nat -> careful h -> ~ failed h).
  { induction m as [|m IH]; intros h Hm C [h1 [c [h2 [E [NR Q]]]]].
    - destruct h; [destruct h1; discriminate E|simpl in Hm; lia].
    - assert (NF : ~ failed h1).
      { apply IH; [rewrite E, app_length in Hm; simpl in Hm; lia|]. apply (@careful_prefix h1 (c :: h2)); [|rewrite <- E; exact C].
        intros [H|H]; [subst c; exact Q|contradiction]. }
      assert (X : exists x, (c = Predict x \/ c = PredictDeriv x) /\ answer h1 x = Err OtherError).
      { destruct c as [|xx fx|x|x]; try contradiction; exists x; split; auto. eapply deriv_err. exact Q. }
      destruct X as [x [HC A]].
      destruct (C h1 c h2 E NR (ex_intro _ x HC)) as [L|[G S]];
        destruct (C46_predict NF) as [[L' A']|[[L' [R' A']]|[L' [R' [c' [_ [_ A']]]]]]]; cbn [t_dim_tail] in *; try lia.
      + rewrite A' in A. discriminate A.
      + rewrite A' in A. discriminate A.
      + apply R'. apply solvable_iff; assumption.
      + rewrite (proj1 (A' x)) in A. discriminate A. }
  intros h. apply (P (length h)). lia.
Qed.

(** C59: predict and predict_deriv succeed for every data set in general position (whatever the
    values, also with repeated points, in any order of calls), and only then. *)
Theorem C59_solvable : forall h, careful h -> eta_suits (map fst (contents h)) -> forall x,
  ((exists v, answer h x = Ok v) <-> in_general_position dim (map fst (contents h))) /\
  ((exists g, answer_deriv h x = Ok g) <-> in_general_position dim (map fst (contents h))).
Proof using WB.
  intros h C S x. pose proof (careful_ok C) as NF. pose proof (solvable_iff h S) as SI.
  assert (A : (exists v, answer h x = Ok v) <-> in_general_position dim (map fst (contents h))).
  { destruct (C46_predict NF) as [[L' A']|[[L' [R' A']]|[L' [R' [c' [_ [_ A']]]]]]]; cbn [t_dim_tail] in *.
    - rewrite A'. split; [intros [v V]; discriminate V|]. intros G. exfalso.
      eapply general_many in G; [lia|exact WB|]. intros y f. apply contents_dim.
    - rewrite A'. split; [intros [v V]; discriminate V|]. intros G. exfalso. apply R'. apply SI. exact G.
    - rewrite (proj1 (A' x)). split; [intros _; apply SI; exact R'|intros _; eauto]. }
  split; [exact A|]. rewrite <- A. split.
  - intros [g G]. destruct (answer h x) as [v|e] eqn:E; [eauto|]. exfalso.
    unfold PropRBF.answer_deriv, PropRBF.answer, predict_deriv, predict in *. destruct (fit K T eta out (run dim lb ub K T eta out h)) as [s' [[]|e']]; cbn [snd] in *; [|discriminate].
    destruct (r_c s'); discriminate.
  - intros [v V]. eapply deriv_ok. exact V.
Qed.

(** Hence a surrogate whose predictions are only asked for with data in general position never gets
    stuck: C45 and C46 without the hypothesis on earlier failures. *)
Theorem C59_incremental : forall h, careful h -> forall x, answer h x = answer (scratch dim h) x.
Proof using WB. intros h C x. apply C46_incremental_partial. apply careful_ok. exact C. Qed.
End History.

(** For the default arguments of RBFInterpolant (cubic kernel, linear tail, eta = 1e-6). *)
Theorem C59_default : forall dim lb ub out h, bounds dim lb ub ->
  (forall h1 c h2, h = h1 ++ c :: h2 -> ~ In Reset h2 -> (exists x, c = Predict x \/ c = PredictDeriv x) ->
     in_general_position dim (map fst (contents dim h1))) ->
  in_general_position dim (map fst (contents dim h)) ->
  forall x, exists v g, answer dim lb ub CubicKernel (LinearTail dim) (/ 1000000) out h x = Ok v /\
                        answer_deriv dim lb ub CubicKernel (LinearTail dim) (/ 1000000) out h x = Ok g.
Proof.
  intros dim lb ub out h WB HC G x.
  assert (E : forall X, eta_suits CubicKernel (/ 1000000) X) by (intros X; left; lra).
  destruct (@C59_solvable dim lb ub WB CubicKernel (/ 1000000) out h) with (x := x) as [[_ A] [_ B]].
  - intros h1 c h2 E1 NR P. right. split; [eapply HC; eassumption|apply E].
  - apply E.
  - destruct (A G) as [v V]. destruct (B G) as [g' G']. eauto.
Qed.

(** ** C60: the linear kernel with the default regularisation *)
(** Two points at distance eta: the system is singular and predict raises LinAlgError. *)
Theorem C60_linear_refuted : exists x0 x1 : pt, x0 <> x1 /\
  forall f0 f1 x, answer 1 [0] [1] LinearKernel (ConstantTail 1) (/ 1000000) identity [Add [x0; x1] [f0; f1]] x = Err OtherError.
Proof.
  exists [0], [/ 1000000]. split; [intros H; injection H as H; lra|]. intros f0 f1 x.
  destruct (C46_predict (@failed_nil_add 1 [0] [1] LinearKernel (ConstantTail 1) (/ 1000000) identity [[0]; [/ 1000000]] [f0; f1])) as [[L _]|[[_ [_ A]]|[_ [R _]]]].
  - simpl in L. lia.
  - apply A.
  - exfalso. destruct (R (fun _ => 0) (fun i => match i with O => 1 | _ => -1 end)) as [_ Z].
    + intros [|[|i]] Hi; simpl in Hi; try lia; unfold unit_pt, to_unit; cbn [length rsum nth fst map3 t_dim_tail t_eval Nat.add contents fold_left right_shape forallb Nat.eqb andb app combine k_eval];
        rewrite !edist1; replace ((0 - 0) / (1 - 0)) with 0 by field; replace ((/ 1000000 - 0) / (1 - 0)) with (/ 1000000) by field.
      * rewrite Rminus_0_r, Rabs_R0, (Rabs_left (0 - / 1000000)) by lra. lra.
      * rewrite Rminus_0_r, (Rabs_right (/ 1000000)) by lra. rewrite (Rminus_diag_eq (/ 1000000)) by reflexivity. rewrite Rabs_R0. lra.
    + intros j Hj. simpl in Hj. replace j with 0%nat by lia. cbn. lra.
    + specialize (Z 0%nat ltac:(simpl; lia)). simpl in Z. lra.
Qed.

(** Without regularisation it works for every nonempty set of distinct points. *)
Theorem C60_linear_partial : forall dim lb ub out xx fx, bounds dim lb ub -> right_shape dim xx fx = true -> xx <> [] -> NoDup xx ->
  forall x, exists v, answer dim lb ub LinearKernel (ConstantTail dim) 0 out [Add xx fx] x = Ok v.
Proof.
  intros dim lb ub out xx fx WB RS NE ND x.
  assert (E : contents dim [Add xx fx] = combine xx fx) by (unfold contents; cbn [fold_left]; rewrite RS; reflexivity).
  pose proof (right_shape_len _ _ _ RS) as LE.
  assert (HL : forall y f, In (y, f) (combine xx fx) -> length y = dim).
  { intros y f H. apply (@contents_dim dim [Add xx fx] y f). rewrite E. exact H. }
  assert (NE2 : combine xx fx <> []) by (destruct xx, fx; simpl in *; congruence).
  destruct (C46_predict (@failed_nil_add dim lb ub LinearKernel (ConstantTail dim) 0 out xx fx)) as [[L _]|[[_ [NR _]]|[_ [_ [c [_ [_ A]]]]]]].
  - rewrite E in L. destruct (combine xx fx); [congruence|simpl in L; lia].
  - exfalso. apply NR. rewrite E. apply (linear_const_regular WB HL); [exact NE2| |lra]. rewrite fst_combine by exact LE. exact ND.
  - rewrite (proj1 (A x)). eauto.
Qed.

(** ** Witnesses *)
(** A data set with repeated points in general position (dimension 2), predictions in between. *)
Definition h59 : list call := [Add [[0; 0]; [1; 0]; [0; 1]] [3; 4; 5]; Predict [/2; /2]; Add [[1; 0]; [/3; /4]] [7; 8]].
Lemma triangle_general : forall X, In [0; 0] X -> In [1; 0] X -> In [0; 1] X -> in_general_position 2 X.
Proof.
  intros X H0 H1 H2 a b LB HA. destruct b as [|b0 [|b1 [|b2 b]]]; try discriminate LB.
  pose proof (HA _ H0) as E0. pose proof (HA _ H1) as E1. pose proof (HA _ H2) as E2. unfold affine in *. simpl in *.
  split; [lra|]. intros [|[|k]] Hk; simpl; try lia; lra.
Qed.
Example ex_C59 : forall x, exists v g, answer 2 [0; 0] [1; 1] CubicKernel (LinearTail 2) (/ 1000000) identity h59 x = Ok v /\
  answer_deriv 2 [0; 0] [1; 1] CubicKernel (LinearTail 2) (/ 1000000) identity h59 x = Ok g.
Proof.
  apply C59_default.
  - split; [reflexivity|]. split; [reflexivity|]. intros [|[|i]] Hi; simpl; try lia; lra.
  - intros h1 c h2 E NR [x HC]. unfold h59 in E. destruct h1 as [|a h1]; [injection E as <- _; destruct HC as [HC|HC]; discriminate HC|]. injection E as <- E.
    destruct h1 as [|a h1]; [apply triangle_general; simpl; tauto|]. injection E as <- E.
    destruct h1 as [|a h1]; [injection E as <- _; destruct HC as [HC|HC]; discriminate HC|]. injection E as _ E. destruct h1; discriminate E.
  - apply triangle_general; simpl; tauto.
Qed.
Print Assumptions C59_solvable.
Print Assumptions C59_default.
Print Assumptions C60_linear_refuted.
Print Assumptions C60_linear_partial.
