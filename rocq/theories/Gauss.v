(** * The normal density and distribution function (scipy.stats.norm.pdf, norm.cdf). *)
From Coq Require Import Reals Lra Lia.
From Coquelicot Require Import Coquelicot.
Set Implicit Arguments.
Local Open Scope R_scope.

Lemma exp_le_mono : forall a b, a <= b -> exp a <= exp b.
Proof. intros a b [H | ->]; [left; apply exp_increasing, H|right; reflexivity]. Qed.
(** ** The Gaussian integral *)
Definition g0 (x : R) : R := exp (- (x * x)).
Lemma g0_cont : forall x, continuous g0 x.
Proof. intros x. apply (ex_derive_continuous (V := R_NormedModule)). unfold g0. auto_derive. trivial. Qed.
Definition I0 (t : R) : R := RInt g0 0 t.
Lemma I0_ex : forall a b, ex_RInt g0 a b.
Proof. intros. apply (@ex_RInt_continuous R_CompleteNormedModule). intros; apply g0_cont. Qed.
Lemma I0_derive : forall t, is_derive I0 t (g0 t).
Proof.
  intros t. apply (is_derive_RInt g0 I0 0 t).
  - apply filter_forall. intros y. apply (RInt_correct (V := R_CompleteNormedModule) g0 0 y), I0_ex.
  - apply g0_cont.
Qed.

Definition J0 (t : R) : R := RInt (fun x => exp (- (t * t * (1 + x * x))) / (1 + x * x)) 0 1.
Lemma pos1 : forall x, 0 < 1 + x * x.
Proof. intros x. pose proof (Rle_0_sqr x) as H. unfold Rsqr in H. lra. Qed.

Lemma J0_derive : forall t, is_derive J0 t (- 2 * exp (- (t * t)) * I0 t).
Proof.
  intros t.
  assert (D : forall x y, is_derive (fun t => exp (- (t * t * (1 + x * x))) / (1 + x * x)) y (- (2 * y) * exp (- (y * y * (1 + x * x))))).
  { intros x y. pose proof (pos1 x). auto_derive; [lra|]. field. lra. }
  assert (K : is_derive J0 t (RInt (fun x => Derive (fun t => exp (- (t * t * (1 + x * x))) / (1 + x * x)) t) 0 1)).
  { apply (is_derive_RInt_param (fun t x => exp (- (t * t * (1 + x * x))) / (1 + x * x)) 0 1 t).
    - apply filter_forall. intros y x _. eexists. apply D.
    - intros x _.
      apply (continuity_2d_pt_ext (fun u v => - (2 * u) * exp (- (u * u * (1 + v * v))))).
      { intros u v. symmetry. apply is_derive_unique. apply D. }
      apply continuity_2d_pt_filterlim.
      assert (C : continuous (fun p : R * R => - (2 * fst p) * exp (- (fst p * fst p * (1 + snd p * snd p)))) (t, x)); [|exact C].
      assert (F1 : continuous (fun p : R * R => fst p) (t, x)) by apply continuous_fst.
      assert (F2 : continuous (fun p : R * R => snd p) (t, x)) by apply continuous_snd.
      assert (CM : forall f g : R * R -> R, continuous f (t, x) -> continuous g (t, x) -> continuous (fun p => f p * g p) (t, x))
        by (intros f g Hf Hg; apply (continuous_mult f g); assumption).
      apply CM; [apply (continuous_opp (fun p : R * R => 2 * fst p)); apply CM; [apply continuous_const|exact F1]|].
      apply (continuous_comp (fun p : R * R => - (fst p * fst p * (1 + snd p * snd p))) exp).
      + apply (continuous_opp (fun p : R * R => fst p * fst p * (1 + snd p * snd p))). apply CM; [apply CM; exact F1|].
        apply (continuous_plus (fun _ : R * R => 1) (fun p => snd p * snd p)); [apply continuous_const|apply CM; exact F2].
      + apply (ex_derive_continuous (V := R_NormedModule)). auto_derive. trivial.
    - apply filter_forall. intros y. apply (@ex_RInt_continuous R_CompleteNormedModule). intros x _.
      apply (ex_derive_continuous (V := R_NormedModule)). pose proof (pos1 x). auto_derive. lra. }
  replace (- 2 * exp (- (t * t)) * I0 t) with (RInt (fun x => Derive (fun t => exp (- (t * t * (1 + x * x))) / (1 + x * x)) t) 0 1); [exact K|].
  pose proof (is_RInt_comp_lin (V := R_NormedModule) g0 t 0 0 1 (I0 t)) as L.
  assert (Z0 : t * 0 + 0 = 0) by ring. assert (Z1 : t * 1 + 0 = t) by ring. rewrite Z0, Z1 in L.
  specialize (L (RInt_correct (V := R_CompleteNormedModule) g0 0 t (I0_ex 0 t))).
  apply is_RInt_unique. 
  apply (is_RInt_ext (V := R_NormedModule) (fun x => scal (- 2 * exp (- (t * t))) (scal t (g0 (t * x + 0))))).
  - intros x _. symmetry. transitivity (- (2 * t) * exp (- (t * t * (1 + x * x)))); [exact (is_derive_unique _ _ _ (D x t))|].
    unfold scal. simpl. unfold mult. simpl.
    unfold g0. replace (- (t * t * (1 + x * x))) with (- (t * t) + - ((t * x + 0) * (t * x + 0))) by ring. rewrite exp_plus. ring.
  - exact (is_RInt_scal (V := R_NormedModule) _ 0 1 (- 2 * exp (- (t * t))) _ L).
Qed.

Lemma const_zero_derive : forall f : R -> R, (forall x, is_derive f x 0) -> forall a, f a = f 0.
Proof.
  intros f H a. destruct (MVT_gen f a 0 (fun _ => 0)) as [c [_ E]].
  - intros x _. apply H.
  - intros x _. apply continuity_pt_filterlim. apply (ex_derive_continuous (V := R_NormedModule)). eexists. apply H.
  - lra.
Qed.

Lemma J0_0 : J0 0 = PI / 4.
Proof.
  assert (H : forall x : R, exp (- (0 * 0 * (1 + x * x))) / (1 + x * x) = / (1 + x * x)).
  { intros x. pose proof (pos1 x). replace (- (0 * 0 * (1 + x * x))) with 0 by ring. rewrite exp_0. field. lra. }
  unfold J0. apply is_RInt_unique.
  apply (is_RInt_ext (V := R_NormedModule) (fun x => / (1 + x * x))); [intros x _; symmetry; apply H|].
  replace (PI / 4) with (minus (atan 1) (atan 0)) by (rewrite atan_1, atan_0; unfold minus, plus, opp; simpl; lra).
  apply (is_RInt_derive (V := R_CompleteNormedModule) atan (fun x => / (1 + x * x))).
  - intros x _. apply is_derive_Reals. replace (x * x) with (x ^ 2) by ring. exact (derivable_pt_lim_atan x).
  - intros x _. apply (ex_derive_continuous (V := R_NormedModule)). pose proof (pos1 x). auto_derive. lra.
Qed.

Lemma IJ : forall t, I0 t * I0 t + J0 t = PI / 4.
Proof.
  intros t. rewrite (@const_zero_derive (fun t => I0 t * I0 t + J0 t)).
  - rewrite J0_0. unfold I0. rewrite RInt_point. unfold zero. simpl. lra.
  - intros x. evar_last.
    + apply (is_derive_plus (V := R_NormedModule) (fun t => I0 t * I0 t) J0).
      * apply (is_derive_mult I0 I0 x _ _ (I0_derive x) (I0_derive x)). intros; apply Rmult_comm.
      * apply J0_derive.
    + unfold plus, mult. simpl. unfold g0. ring.
Qed.

Lemma J0_bounds : forall t, 0 <= J0 t <= exp (- (t * t)).
Proof.
  intros t.
  assert (E : ex_RInt (fun x => exp (- (t * t * (1 + x * x))) / (1 + x * x)) 0 1).
  { apply (@ex_RInt_continuous R_CompleteNormedModule). intros x _. apply (ex_derive_continuous (V := R_NormedModule)). pose proof (pos1 x). auto_derive. lra. }
  assert (B : forall x, 0 <= exp (- (t * t * (1 + x * x))) / (1 + x * x) <= exp (- (t * t))).
  { intros x. pose proof (pos1 x). pose proof (exp_pos (- (t * t * (1 + x * x)))). split.
    - apply Rlt_le. apply Rdiv_lt_0_compat; assumption.
    - assert (L : exp (- (t * t * (1 + x * x))) <= exp (- (t * t))).
      { apply exp_le_mono. pose proof (Rle_0_sqr (t * x)) as Q. unfold Rsqr in Q. replace (t * t * (1 + x * x)) with (t * t + t * x * (t * x)) by ring. lra. }
      apply (Rmult_le_reg_r (1 + x * x)); [assumption|]. unfold Rdiv. rewrite Rmult_assoc, Rinv_l by lra. rewrite Rmult_1_r.
      pose proof (exp_pos (- (t * t))). pose proof (Rle_0_sqr x) as Q. unfold Rsqr in Q. nra. }
  split.
  - apply RInt_ge_0; [lra|exact E|]. intros x _. apply B.
  - replace (exp (- (t * t))) with (RInt (fun _ => exp (- (t * t))) 0 1).
    + apply RInt_le; [lra|exact E|apply ex_RInt_const|]. intros x _. apply B.
    + rewrite RInt_const. unfold scal. simpl. unfold mult. simpl. lra.
Qed.

Lemma I0_pos : forall t, 0 <= t -> 0 <= I0 t.
Proof.
  intros t Ht. apply RInt_ge_0; [exact Ht|apply I0_ex|]. intros x _. left. apply exp_pos.
Qed.
Lemma I0_odd : forall t, I0 (- t) = - I0 t.
Proof.
  intros t.
  assert (H : forall x, I0 (- x) + I0 x = I0 (- 0) + I0 0).
  { apply (@const_zero_derive (fun x => I0 (- x) + I0 x)). intros x. evar_last.
    - apply (is_derive_plus (V := R_NormedModule) (fun x => I0 (- x)) I0).
      + apply (is_derive_comp I0 (fun x => - x)); [apply I0_derive|]. auto_derive; [trivial|reflexivity].
      + apply I0_derive.
    - unfold plus, scal. simpl. unfold mult. simpl. unfold g0. replace (- x * - x) with (x * x) by ring. ring. }
  specialize (H t). unfold I0 in H at 3 4. rewrite Ropp_0 in H. rewrite RInt_point in H. unfold Hierarchy.zero in H. simpl in H. lra.
Qed.

(** ** The standard normal law: density and distribution function *)
Definition normal_pdf (z : R) : R := exp (- (z * z) / 2) / sqrt (2 * PI).
(** [Phi] is the distribution function of the law with density [normal_pdf]. *)
Definition is_normal_cdf (Phi : R -> R) : Prop :=
  forall u, is_RInt_gen normal_pdf (Rbar_locally m_infty) (at_point u) (Phi u).

Definition cdf0 (u : R) : R := 1 / 2 + I0 (u / sqrt 2) / sqrt PI.

Lemma s2pi : 0 < sqrt (2 * PI).
Proof. apply sqrt_lt_R0. pose proof PI_RGT_0. lra. Qed.
Lemma pdf_pos : forall z, 0 < normal_pdf z.
Proof. intros z. apply Rdiv_lt_0_compat; [apply exp_pos|apply s2pi]. Qed.
Lemma pdf_even : forall z, normal_pdf (- z) = normal_pdf z.
Proof. intros z. unfold normal_pdf. do 3 f_equal. ring. Qed.
Lemma pdf_derive : forall z, is_derive normal_pdf z (- z * normal_pdf z).
Proof.
  intros z. unfold normal_pdf. pose proof s2pi. auto_derive; [trivial|].
  unfold Rdiv. replace (- (z * z) * / 2) with (- (z * z / 2)) by lra. field. lra.
Qed.
Lemma pdf_cont : forall z, continuous normal_pdf z.
Proof. intros z. apply (ex_derive_continuous (V := R_NormedModule)). eexists. apply pdf_derive. Qed.

Lemma cdf0_derive : forall u, is_derive cdf0 u (normal_pdf u).
Proof.
  intros u. pose proof PI_RGT_0 as PP. assert (S2 : 0 < sqrt 2) by (apply sqrt_lt_R0; lra). assert (SP : 0 < sqrt PI) by (apply sqrt_lt_R0; lra).
  unfold cdf0. evar_last.
  - apply (is_derive_plus (V := R_NormedModule) (fun _ => 1 / 2) (fun u => I0 (u / sqrt 2) / sqrt PI)); [apply is_derive_const|].
    apply (is_derive_scal_l (V := R_NormedModule) (fun u => I0 (u / sqrt 2)) u (scal (/ sqrt 2) (g0 (u / sqrt 2))) (/ sqrt PI)).
    apply (is_derive_comp I0 (fun u => u / sqrt 2)); [apply I0_derive|]. auto_derive; [trivial|apply Rmult_1_l].
  - unfold plus, scal, Hierarchy.zero. simpl. unfold mult. simpl. unfold normal_pdf, g0. rewrite sqrt_mult by lra.
    replace (- (u / sqrt 2 * (u / sqrt 2))) with (- (u * u) / 2).
    + field. split; lra.
    + replace (u / sqrt 2 * (u / sqrt 2)) with (u * u / (sqrt 2 * sqrt 2)) by (field; lra). rewrite sqrt_def by lra. field.
Qed.
Lemma cdf0_sym : forall u, cdf0 (- u) = 1 - cdf0 u.
Proof.
  intros u. unfold cdf0. replace (- u / sqrt 2) with (- (u / sqrt 2)) by (unfold Rdiv; ring). rewrite I0_odd. unfold Rdiv. lra.
Qed.
Lemma cdf0_tail : forall u, 0 <= u -> 0 <= 1 - cdf0 u <= exp (- (u * u) / 2).
Proof.
  intros u Hu. pose proof PI_RGT_0 as PP. pose proof PI2_3_2 as P3.
  assert (S2 : 0 < sqrt 2) by (apply sqrt_lt_R0; lra). assert (SP : 0 < sqrt PI) by (apply sqrt_lt_R0; lra).
  set (t := u / sqrt 2). assert (Ht : 0 <= t) by (unfold t; apply Rmult_le_pos; [exact Hu|left; apply Rinv_0_lt_compat, S2]).
  assert (E : - (u * u) / 2 = - (t * t)).
  { unfold t. replace (u / sqrt 2 * (u / sqrt 2)) with (u * u / (sqrt 2 * sqrt 2)) by (field; lra). rewrite sqrt_def by lra. field. }
  rewrite E. unfold cdf0. fold t. pose proof (I0_pos Ht) as P. pose proof (IJ t) as K. pose proof (J0_bounds t) as B.
  assert (SS : sqrt PI * sqrt PI = PI) by (apply sqrt_def; lra).
  set (i := I0 t) in *. set (j := J0 t) in *. set (s := sqrt PI) in *. set (e := exp (- (t * t))) in *.
  assert (F : (s / 2 - i) * (s / 2 + i) = j) by nra.
  assert (G : 0 <= s / 2 - i). { destruct (Rle_lt_dec 0 (s / 2 - i)) as [|X]; [assumption|]. exfalso. assert (0 < s / 2 + i) by lra. nra. }
  replace (1 - (1 / 2 + i / s)) with ((s / 2 - i) / s) by (field; lra).
  split; [apply Rmult_le_pos; [exact G|left; apply Rinv_0_lt_compat, SP]|].
  apply (Rmult_le_reg_r s); [exact SP|]. unfold Rdiv. rewrite Rmult_assoc, Rinv_l by lra.
  assert (L : s * (s / 2 - i) <= e * PI).
  { assert (0 <= e) by lra. assert ((s / 2) * (s / 2 - i) <= j) by nra. assert (3 <= PI) by lra. nra. }
  rewrite <- SS in L. nra.
Qed.

Lemma exp_small : forall eps, 0 < eps -> exists M, 0 < M /\ forall u, M < u -> exp (- (u * u) / 2) < eps.
Proof.
  intros eps He. exists (1 + 2 / eps). assert (Q : 0 < 2 / eps) by (apply Rdiv_lt_0_compat; lra). split; [lra|]. intros u Hu.
  assert (P : 1 + u * u / 2 <= exp (u * u / 2)) by (apply exp_ineq1_le || (left; apply exp_ineq1; nra)).
  replace (- (u * u) / 2) with (- (u * u / 2)) by field. rewrite exp_Ropp.
  assert (L : 2 / eps < u * u) by nra.
  assert (L2 : 2 < u * u * eps). { apply (Rmult_lt_compat_r eps) in L; [|exact He]. unfold Rdiv in L. rewrite Rmult_assoc, Rinv_l in L by lra. lra. }
  apply (Rmult_lt_reg_r (exp (u * u / 2))); [apply exp_pos|]. rewrite Rinv_l by (apply Rgt_not_eq, exp_pos). nra.
Qed.
Lemma cdf0_minf : forall eps, 0 < eps -> exists M, forall u, u < M -> 0 <= cdf0 u < eps.
Proof.
  intros eps He. destruct (exp_small He) as [M [M0 HM]]. exists (- M). intros u Hu.
  replace u with (- - u) by ring. rewrite cdf0_sym.
  assert (0 <= - u) by lra. pose proof (cdf0_tail H) as K. specialize (HM (- u)). lra.
Qed.
Lemma cdf0_pinf : forall eps, 0 < eps -> exists M, forall u, M < u -> 1 - eps < cdf0 u <= 1.
Proof.
  intros eps He. destruct (exp_small He) as [M [M0 HM]]. exists M. intros u Hu.
  assert (0 <= u) by lra. pose proof (cdf0_tail H) as K. specialize (HM u). lra.
Qed.
Lemma pdf_minf : forall eps, 0 < eps -> exists M, forall u, u < M -> normal_pdf u < eps.
Proof.
  intros eps He. pose proof s2pi as S. assert (He' : 0 < eps * sqrt (2 * PI)) by nra.
  destruct (exp_small He') as [M [M0 HM]]. exists (- M). intros u Hu. rewrite <- pdf_even. unfold normal_pdf.
  specialize (HM (- u)). apply (Rmult_lt_reg_r (sqrt (2 * PI))); [exact S|]. unfold Rdiv at 1. rewrite Rmult_assoc, Rinv_l by lra. lra.
Qed.

(** The fundamental theorem for an improper integral over the whole line or a half line. *)
Lemma RInt_gen_left : forall f G b, (forall x, is_derive G x (f x)) -> (forall x, continuous f x) ->
  (forall eps, 0 < eps -> exists M, forall u, u < M -> Rabs (G u) < eps) ->
  is_RInt_gen f (Rbar_locally m_infty) (at_point b) (G b).
Proof.
  intros f G b HD HC HL P [eps HP]. destruct (HL eps (cond_pos eps)) as [M HM].
  apply (Filter_prod _ _ _ (fun a => a < M) (fun x => x = b)).
  - exists M. intros; assumption.
  - reflexivity.
  - intros a x Ha ->. simpl. exists (minus (G b) (G a)). split.
    + apply (is_RInt_derive (V := R_CompleteNormedModule) G f); intros; [apply HD|apply HC].
    + apply HP. unfold ball. simpl. unfold AbsRing_ball, abs, minus, plus, opp. simpl.
      replace (G b + - G a + - G b) with (- G a) by ring. rewrite Rabs_Ropp. apply HM, Ha.
Qed.

Theorem cdf0_is_cdf : is_normal_cdf cdf0.
Proof.
  intros u. apply RInt_gen_left; [exact cdf0_derive|exact pdf_cont|].
  intros eps He. destruct (cdf0_minf He) as [M HM]. exists M. intros v Hv. specialize (HM v Hv). rewrite Rabs_pos_eq; lra.
Qed.
Lemma normal_cdf_unique2 : forall Phi Psi, is_normal_cdf Phi -> is_normal_cdf Psi -> forall u, Phi u = Psi u.
Proof.
  intros Phi Psi H K u. pose proof (is_RInt_gen_unique _ _ (H u)) as A. pose proof (is_RInt_gen_unique _ _ (K u)) as B. congruence.
Qed.
Lemma normal_cdf_unique : forall Phi, is_normal_cdf Phi -> forall u, Phi u = cdf0 u.
Proof. intros Phi H. exact (normal_cdf_unique2 H cdf0_is_cdf). Qed.
(** The density integrates to one over the whole line (the Gaussian integral). *)
Theorem normal_pdf_total : is_RInt_gen normal_pdf (Rbar_locally m_infty) (Rbar_locally p_infty) 1.
Proof.
  intros P [eps HP]. assert (E2 : 0 < eps / 2) by (pose proof (cond_pos eps); lra).
  destruct (cdf0_minf E2) as [M1 H1]. destruct (cdf0_pinf E2) as [M2 H2].
  apply (Filter_prod _ _ _ (fun a => a < M1) (fun x => M2 < x)); [exists M1; intros; assumption|exists M2; intros; assumption|].
  intros a b Ha Hb. simpl. exists (minus (cdf0 b) (cdf0 a)). split.
  - apply (is_RInt_derive (V := R_CompleteNormedModule) cdf0 normal_pdf); intros; [apply cdf0_derive|apply pdf_cont].
  - apply HP. unfold ball. simpl. unfold AbsRing_ball, abs, minus, plus, opp. simpl. specialize (H1 a Ha). specialize (H2 b Hb).
    apply Rabs_def1; lra.
Qed.
