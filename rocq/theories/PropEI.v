(** * The expected improvement merit function is the expected improvement (C62).

    ei_merit.py:25-34 and lcb_merit.py:27-35, with norm.pdf and norm.cdf the standard normal
    density and distribution function.  Numbers are reals. *)
From Coq Require Import List Arith ZArith Lia Bool Reals Lra.
From Coquelicot Require Import Coquelicot.
From Verif Require Import Base PyList Box Cand GA PropGA Gauss.
Import ListNotations.
Set Implicit Arguments.
Local Open Scope R_scope.

(** ** Analysis *)
Lemma incr_of_derive : forall (f df : R -> R) a b, (forall x, a <= x <= b -> is_derive f x (df x)) ->
  (forall x, a < x < b -> 0 < df x) -> a < b -> f a < f b.
Proof.
  intros f df a b HD HP Hab.
  assert (C : forall x, a <= x <= b -> continuity_pt f x).
  { intros x Hx. apply continuity_pt_filterlim. apply (ex_derive_continuous (V := R_NormedModule)). eexists. apply HD, Hx. }
  destruct (MVT_cor2 f df a b Hab) as [c [E Hc]].
  - intros x Hx. apply is_derive_Reals, HD, Hx.
  - pose proof (HP c Hc). nra.
Qed.

Arguments incr_of_derive : clear implicits.
Lemma cdf0_incr : forall a b, a < b -> cdf0 a < cdf0 b.
Proof. intros a b H. apply (incr_of_derive cdf0 normal_pdf); [intros; apply cdf0_derive|intros; apply pdf_pos|exact H]. Qed.
Lemma cdf0_nonneg : forall u, 0 <= cdf0 u.
Proof.
  intros u. destruct (Rle_lt_dec 0 (cdf0 u)) as [H|H]; [exact H|exfalso].
  destruct (@cdf0_minf 1 Rlt_0_1) as [M HM]. specialize (HM (Rmin u M - 1)).
  assert (L : Rmin u M - 1 < M) by (pose proof (Rmin_r u M); lra). specialize (HM L).
  assert (K : Rmin u M - 1 < u) by (pose proof (Rmin_l u M); lra). apply cdf0_incr in K. lra.
Qed.
Lemma cdf0_pos : forall u, 0 < cdf0 u.
Proof. intros u. pose proof (cdf0_nonneg (u - 1)). assert (K : u - 1 < u) by lra. apply cdf0_incr in K. lra. Qed.
Lemma cdf0_lt1 : forall u, cdf0 u < 1.
Proof. intros u. pose proof (cdf0_pos (- u)) as P. rewrite cdf0_sym in P. lra. Qed.

(** [h u] is the expectation of max(u - Z, 0). *)
Definition h (u : R) : R := u * cdf0 u + normal_pdf u.
Lemma h_derive : forall u, is_derive h u (cdf0 u).
Proof.
  intros u. unfold h. evar_last.
  - apply (is_derive_plus (V := R_NormedModule) (fun u => u * cdf0 u) normal_pdf).
    + apply (is_derive_mult (fun u => u) cdf0 u 1 (normal_pdf u)); [apply (@is_derive_id R_AbsRing)|apply cdf0_derive|intros; apply Rmult_comm].
    + apply pdf_derive.
  - unfold plus, mult. simpl. ring.
Qed.
Lemma h_incr : forall a b, a < b -> h a < h b.
Proof. intros a b H. apply (incr_of_derive h cdf0); [intros; apply h_derive|intros; apply cdf0_pos|exact H]. Qed.

(** The antiderivative of (c - y) N(m, s)(y). *)
Definition G (c m s y : R) : R := (c - m) * cdf0 ((y - m) / s) + s * normal_pdf ((y - m) / s).
Lemma comp_lin_derive : forall (f df : R -> R) m s y, s <> 0 -> (forall x, is_derive f x (df x)) ->
  is_derive (fun y => f ((y - m) / s)) y (df ((y - m) / s) / s).
Proof.
  intros f df m s y Hs Hf. evar_last.
  - apply (is_derive_comp f (fun y => (y - m) / s)); [apply Hf|]. auto_derive; [trivial|reflexivity].
  - unfold scal. simpl. unfold mult. simpl. field. exact Hs.
Qed.
Lemma G_derive : forall c m s y, 0 < s -> is_derive (G c m s) y ((c - y) * (normal_pdf ((y - m) / s) / s)).
Proof.
  intros c m s y Hs. assert (S0 : s <> 0) by lra. unfold G. evar_last.
  - apply (is_derive_plus (V := R_NormedModule) (fun y => (c - m) * cdf0 ((y - m) / s)) (fun y => s * normal_pdf ((y - m) / s))).
    + apply (is_derive_scal (fun y => cdf0 ((y - m) / s)) y (c - m)). apply (@comp_lin_derive cdf0 normal_pdf m s y S0 cdf0_derive).
    + apply (is_derive_scal (fun y => normal_pdf ((y - m) / s)) y s). apply (@comp_lin_derive normal_pdf (fun z => - z * normal_pdf z) m s y S0 pdf_derive).
  - unfold plus. simpl. field. exact S0.
Qed.
Lemma G_minf : forall c m s, 0 < s -> forall eps, 0 < eps -> exists M, forall u, u < M -> Rabs (G c m s u) < eps.
Proof.
  intros c m s Hs eps He.
  assert (E1 : 0 < eps / (2 * (Rabs (c - m) + 1))) by (pose proof (Rabs_pos (c - m)); apply Rdiv_lt_0_compat; lra).
  assert (E2 : 0 < eps / (2 * s)) by (apply Rdiv_lt_0_compat; lra).
  destruct (cdf0_minf E1) as [M1 H1]. destruct (pdf_minf E2) as [M2 H2].
  exists (m + s * Rmin M1 M2). intros u Hu.
  assert (L : (u - m) / s < Rmin M1 M2).
  { apply (Rmult_lt_reg_r s); [exact Hs|]. unfold Rdiv. rewrite Rmult_assoc, Rinv_l by lra. lra. }
  assert (L1 : (u - m) / s < M1) by (pose proof (Rmin_l M1 M2); lra). assert (L2 : (u - m) / s < M2) by (pose proof (Rmin_r M1 M2); lra).
  specialize (H1 _ L1). specialize (H2 _ L2). unfold G. set (P := cdf0 _) in *. pose proof (pdf_pos ((u - m) / s)) as PP. set (p := normal_pdf _) in *.
  eapply Rle_lt_trans; [apply Rabs_triang|]. rewrite !Rabs_mult, (Rabs_pos_eq P), (Rabs_pos_eq s), (Rabs_pos_eq p) by lra.
  pose proof (Rabs_pos (c - m)) as A0. set (A := Rabs (c - m)) in *.
  assert (B1 : A * P <= eps / 2).
  { destruct H1 as [P0 P1]. apply (Rmult_lt_compat_r (2 * (A + 1))) in P1; [|lra]. unfold Rdiv in P1. rewrite Rmult_assoc, Rinv_l in P1 by lra. nra. }
  assert (B2 : s * p < eps / 2).
  { apply (Rmult_lt_compat_r (2 * s)) in H2; [|lra]. unfold Rdiv in H2. rewrite Rmult_assoc, Rinv_l in H2 by lra. lra. }
  lra.
Qed.
Lemma pos_of_left : forall (f df : R -> R) b, (forall x, is_derive f x (df x)) -> (forall x, x < b -> 0 < df x) ->
  (forall eps, 0 < eps -> exists M, forall u, u < M -> Rabs (f u) < eps) -> 0 < f b.
Proof.
  intros f df b HD HP HL.
  assert (I : forall x y, x < y -> y <= b -> f x < f y).
  { intros x y Hxy Hy. apply (incr_of_derive f df); [intros; apply HD|intros; apply HP; lra|exact Hxy]. }
  assert (Q : 0 <= f (b - 1)).
  { destruct (Rle_lt_dec 0 (f (b - 1))) as [H|H]; [exact H|exfalso]. assert (He : 0 < - f (b - 1)) by lra. destruct (HL _ He) as [M HM].
    set (u := Rmin M (b - 1) - 1). assert (U1 : u < M) by (unfold u; pose proof (Rmin_l M (b - 1)); lra).
    assert (U2 : u < b - 1) by (unfold u; pose proof (Rmin_r M (b - 1)); lra). specialize (HM u U1). apply Rabs_def2 in HM.
    pose proof (I u (b - 1) U2). lra. }
  pose proof (I (b - 1) b). lra.
Qed.
Arguments pos_of_left : clear implicits.
Lemma h_G : forall u, h u = G u 0 1 u.
Proof. intros u. unfold h, G. replace ((u - 0) / 1) with u by field. ring. Qed.
Lemma h_pos : forall u, 0 < h u.
Proof.
  intros u. rewrite h_G. apply (pos_of_left (G u 0 1) (fun y => (u - y) * (normal_pdf ((y - 0) / 1) / 1))).
  - intros x. apply G_derive. lra.
  - intros x Hx. pose proof (pdf_pos ((x - 0) / 1)). unfold Rdiv at 1. rewrite Rinv_1. nra.
  - apply G_minf. lra.
Qed.
Lemma h_refl : forall u, h u = u + h (- u).
Proof. intros u. unfold h. rewrite cdf0_sym, pdf_even. ring. Qed.
Lemma h_upper : forall u, h u <= Rmax u 0 + / sqrt (2 * PI).
Proof.
  assert (H0 : h 0 = / sqrt (2 * PI)).
  { unfold h, normal_pdf. replace (- (0 * 0) / 2) with 0 by field. rewrite exp_0. unfold Rdiv. ring. }
  assert (N : forall u, u <= 0 -> h u <= / sqrt (2 * PI)).
  { intros u [Hu | ->]; [apply h_incr in Hu|]; lra. }
  intros u. destruct (Rle_lt_dec u 0) as [H|H].
  - rewrite Rmax_right by exact H. specialize (N u H). lra.
  - rewrite Rmax_left by lra. rewrite h_refl. assert (K : - u <= 0) by lra. specialize (N _ K). lra.
Qed.

(** ** The merit function *)
(** Density of the normal law with mean [m] and standard deviation [s]. *)
Definition normal_density (m s y : R) : R := normal_pdf ((y - m) / s) / s.

Lemma EI_integral : forall c m s, 0 < s ->
  is_RInt_gen (fun y => Rmax (c - y) 0 * normal_density m s y) (Rbar_locally m_infty) (Rbar_locally p_infty) (s * h ((c - m) / s)).
Proof.
  intros c m s Hs P [eps HP]. destruct (@G_minf c m s Hs eps (cond_pos eps)) as [M HM].
  apply (Filter_prod _ _ _ (fun a => a < Rmin M c) (fun x => c < x)); [exists (Rmin M c); intros; assumption|exists c; intros; assumption|].
  intros a b Ha Hb. simpl. exists (plus (minus (G c m s c) (G c m s a)) 0).
  assert (aM : a < M) by (pose proof (Rmin_l M c); lra). assert (ac : a < c) by (pose proof (Rmin_r M c); lra).
  split.
  - apply (is_RInt_Chasles (V := R_NormedModule) _ a c b).
    + apply (is_RInt_ext (V := R_NormedModule) (fun y => (c - y) * (normal_pdf ((y - m) / s) / s))).
      * intros y. rewrite Rmin_left, Rmax_right by lra. intros Hy. unfold normal_density. rewrite Rmax_left by lra. reflexivity.
      * apply (is_RInt_derive (V := R_CompleteNormedModule) (G c m s) (fun y => (c - y) * (normal_pdf ((y - m) / s) / s))).
        -- intros y _. apply G_derive, Hs.
        -- intros y _. apply (ex_derive_continuous (V := R_NormedModule)). unfold normal_pdf. pose proof s2pi. auto_derive. repeat split; trivial.
    + apply (is_RInt_ext (V := R_NormedModule) (fun y => 0)).
      * intros y. rewrite Rmin_left, Rmax_right by lra. intros Hy. rewrite Rmax_right by lra. symmetry. apply Rmult_0_l.
      * replace 0 with (scal (b - c) (0 : R_NormedModule)) at 1 by (unfold scal; simpl; unfold mult; simpl; ring).
        apply (is_RInt_const (V := R_NormedModule)).
  - apply HP. unfold ball. simpl. unfold AbsRing_ball, abs, minus, plus, opp. simpl.
    assert (E : s * h ((c - m) / s) = G c m s c). { unfold h, G. field. lra. }
    rewrite E. replace (G c m s c + - G c m s a + 0 + - G c m s c) with (- G c m s a) by ring. rewrite Rabs_Ropp. apply HM, aM.
Qed.

Section Merit.
Variable Phi : R -> R.
Hypothesis HPhi : is_normal_cdf Phi.
Variable dist : pt -> pt -> R.
Variables mu sig : pt -> R.

Lemma ei_raw_h : forall fmin x, ei_raw mu sig Phi normal_pdf fmin x = sig x * h ((fmin - mu x) / sig x).
Proof using HPhi. intros. unfold ei_raw, h. rewrite (normal_cdf_unique HPhi). reflexivity. Qed.

(** ei_merit (without a distance filter) is the expectation of the improvement max(fmin - Y, 0) of
    the predicted value Y, normal with mean predict(x) and standard deviation predict_std(x). *)
Theorem C62_expected_improvement : forall fmin XX x, 0 < sig x ->
  is_RInt_gen (fun y => Rmax (fmin - y) 0 * normal_density (mu x) (sig x) y) (Rbar_locally m_infty) (Rbar_locally p_infty)
    (ei_merit dist mu sig Phi normal_pdf fmin 0 XX x).
Proof using HPhi.
  intros fmin XX x Hs. unfold ei_merit. destruct (Rlt_dec 0 0) as [K|_]; [lra|]. rewrite ei_raw_h. apply EI_integral, Hs.
Qed.
Lemma too_close_iff : forall dtol XX x, too_close dist dtol XX x = true <-> exists t, In t XX /\ dist x t < dtol.
Proof using. clear HPhi.
  intros dtol XX x. unfold too_close. rewrite existsb_exists. split; intros [t [A B]]; exists t; (split; [exact A|]).
  - destruct (Rlt_dec (dist x t) dtol); [assumption|discriminate].
  - destruct (Rlt_dec (dist x t) dtol); [reflexivity|contradiction].
Qed.
(** With a distance filter it is that expectation away from the given points, 0 near them. *)
Theorem C62_filter : forall fmin dtol XX x, 0 < dtol ->
  ((forall t, In t XX -> dtol <= dist x t) -> ei_merit dist mu sig Phi normal_pdf fmin dtol XX x = ei_merit dist mu sig Phi normal_pdf fmin 0 XX x) /\
  ((exists t, In t XX /\ dist x t < dtol) -> ei_merit dist mu sig Phi normal_pdf fmin dtol XX x = 0).
Proof using.
  intros fmin dtol XX x Hd. unfold ei_merit. destruct (Rlt_dec 0 dtol) as [_|K]; [|lra]. destruct (Rlt_dec 0 0) as [K|_]; [lra|]. split; intros H.
  - destruct (too_close dist dtol XX x) eqn:T; [|reflexivity]. apply too_close_iff in T. destruct T as [t [A B]]. specialize (H t A). lra.
  - apply too_close_iff in H. rewrite H. reflexivity.
Qed.
(** It is never zero elsewhere: a positive value characterises the points that are far enough. *)
Theorem C62_positive_iff : forall fmin dtol XX x, 0 < dtol -> 0 < sig x ->
  (0 < ei_merit dist mu sig Phi normal_pdf fmin dtol XX x <-> forall t, In t XX -> dtol <= dist x t).
Proof using HPhi.
  intros fmin dtol XX x Hd Hs. destruct (C62_filter fmin XX x Hd) as [A B].
  assert (P : 0 < ei_merit dist mu sig Phi normal_pdf fmin 0 XX x).
  { unfold ei_merit. destruct (Rlt_dec 0 0) as [K|_]; [lra|]. rewrite ei_raw_h. apply Rmult_lt_0_compat; [exact Hs|apply h_pos]. }
  split.
  - intros H t Ht. destruct (Rle_lt_dec dtol (dist x t)) as [|K]; [assumption|]. rewrite B in H by (exists t; split; assumption). lra.
  - intros H. rewrite (A H). exact P.
Qed.
(** Bounds: more than the improvement of the mean, by at most sig / sqrt(2 pi). *)
Theorem C62_bounds : forall fmin XX x, 0 < sig x ->
  Rmax (fmin - mu x) 0 < ei_merit dist mu sig Phi normal_pdf fmin 0 XX x <= Rmax (fmin - mu x) 0 + sig x / sqrt (2 * PI).
Proof using HPhi.
  intros fmin XX x Hs. unfold ei_merit. destruct (Rlt_dec 0 0) as [K|_]; [lra|]. rewrite ei_raw_h.
  set (u := (fmin - mu x) / sig x). assert (E : fmin - mu x = sig x * u) by (unfold u; field; lra). rewrite E.
  assert (E2 : Rmax (sig x * u) 0 = sig x * Rmax u 0). { rewrite <- (Rmult_0_r (sig x)) at 1. rewrite RmaxRmult by lra. reflexivity. }
  rewrite E2. split.
  - apply Rmult_lt_compat_l; [exact Hs|]. apply Rmax_lub_lt; [|apply h_pos]. rewrite h_refl. pose proof (h_pos (- u)). lra.
  - pose proof (h_upper u) as U. unfold Rdiv. nra.
Qed.
End Merit.

Lemma pers_incr : forall d s s', 0 < s -> s < s' -> s * h (d / s) < s' * h (d / s').
Proof.
  intros d s s' Hs Hss. apply (incr_of_derive (fun s => s * h (d / s)) (fun s => normal_pdf (d / s))); [|intros; apply pdf_pos|exact Hss].
  intros x Hx. evar_last.
  - apply (is_derive_mult (fun s => s) (fun s => h (d / s)) x 1 (scal (- d / (x * x)) (cdf0 (d / x)))); [apply (@is_derive_id R_AbsRing)| |intros; apply Rmult_comm].
    apply (is_derive_comp h (fun s => d / s)); [apply h_derive|]. auto_derive; [lra|field; lra].
  - unfold plus, mult, scal. simpl. unfold mult. simpl. unfold h. field. lra.
Qed.
Lemma ei_mono : forall c m s c' m' s', 0 < s -> s <= s' -> m' <= m -> c <= c' ->
  s * h ((c - m) / s) <= s' * h ((c' - m') / s') /\
  (s < s' \/ m' < m \/ c < c' -> s * h ((c - m) / s) < s' * h ((c' - m') / s')).
Proof.
  intros c m s c' m' s' Hs Hss Hm Hc.
  assert (A : s * h ((c - m) / s) <= s * h ((c' - m') / s) /\ (m' < m \/ c < c' -> s * h ((c - m) / s) < s * h ((c' - m') / s))).
  { destruct (Req_dec (c - m) (c' - m')) as [E|E].
    - rewrite E. split; [lra|]. intros [K|K]; lra.
    - assert (L : (c - m) / s < (c' - m') / s) by (apply Rmult_lt_compat_r; [apply Rinv_0_lt_compat, Hs|lra]). apply h_incr in L.
      assert (s * h ((c - m) / s) < s * h ((c' - m') / s)) by (apply Rmult_lt_compat_l; assumption). split; [lra|intros; assumption]. }
  assert (B : s * h ((c' - m') / s) <= s' * h ((c' - m') / s') /\ (s < s' -> s * h ((c' - m') / s) < s' * h ((c' - m') / s'))).
  { destruct Hss as [L | ->]; [|lra]. pose proof (pers_incr (c' - m') Hs L). lra. }
  destruct A as [A1 A2], B as [B1 B2]. split; [lra|]. intros [K|K]; [specialize (B2 K)|specialize (A2 K)]; lra.
Qed.
(** A point whose prediction is lower or more uncertain is preferred, and a worse incumbent leaves
    more to gain (strictly when one of the three differs). *)
Theorem C62_monotone : forall Phi (dist : pt -> pt -> R) (mu sig mu' sig' : pt -> R) fmin fmin' XX x x', is_normal_cdf Phi ->
  0 < sig x -> sig x <= sig' x' -> mu' x' <= mu x -> fmin <= fmin' ->
  let e := ei_merit dist mu sig Phi normal_pdf fmin 0 XX x in
  let e' := ei_merit dist mu' sig' Phi normal_pdf fmin' 0 XX x' in
  e <= e' /\ (sig x < sig' x' \/ mu' x' < mu x \/ fmin < fmin' -> e < e').
Proof.
  intros Phi dist mu sig mu' sig' fmin fmin' XX x x' HPhi Hs H1 H2 H3. unfold ei_merit. destruct (Rlt_dec 0 0) as [K|_]; [lra|].
  cbv zeta. rewrite !(ei_raw_h HPhi). apply ei_mono; assumption.
Qed.
(** Every point returned by the EI search has a true expected improvement of at least ei_tol: the
    quantity of theorem C37_ei is the expectation. *)
Theorem C62_textbook : forall Phi fmin m s, is_normal_cdf Phi -> 0 < s ->
  is_RInt_gen (fun y => Rmax (fmin - y) 0 * normal_density m s y) (Rbar_locally m_infty) (Rbar_locally p_infty)
    (expected_improvement Phi normal_pdf fmin m s).
Proof.
  intros Phi fmin m s HPhi Hs. unfold expected_improvement. rewrite (normal_cdf_unique HPhi). exact (@EI_integral fmin m s Hs).
Qed.

(** lcb_merit is a quantile of the predicted value: it lies below it with probability cdf(-kappa). *)
Theorem C62_lcb_quantile : forall Phi (dist : pt -> pt -> R) (mu sig : pt -> R) kappa XX x, is_normal_cdf Phi -> 0 < sig x ->
  exists v, lcb_merit dist mu sig kappa 0 XX x = XFin v /\
  is_RInt_gen (normal_density (mu x) (sig x)) (Rbar_locally m_infty) (at_point v) (Phi (- kappa)).
Proof.
  intros Phi dist mu sig kappa XX x HPhi Hs. unfold lcb_merit. destruct (Rlt_dec 0 0) as [K|_]; [lra|].
  exists (lcb_raw mu sig kappa x). split; [reflexivity|]. rewrite (normal_cdf_unique HPhi).
  assert (S0 : sig x <> 0) by lra.
  assert (E : cdf0 (- kappa) = cdf0 ((lcb_raw mu sig kappa x - mu x) / sig x)) by (f_equal; unfold lcb_raw; field; exact S0).
  rewrite E. apply (@RInt_gen_left (normal_density (mu x) (sig x)) (fun y => cdf0 ((y - mu x) / sig x))).
  - intros y. apply (@comp_lin_derive cdf0 normal_pdf (mu x) (sig x) y S0 cdf0_derive).
  - intros y. apply (ex_derive_continuous (V := R_NormedModule)). unfold normal_density, normal_pdf. pose proof s2pi. auto_derive. repeat split; trivial.
  - intros eps He. destruct (cdf0_minf He) as [M HM]. exists (mu x + sig x * M). intros u Hu.
    assert (L : (u - mu x) / sig x < M). { apply (Rmult_lt_reg_r (sig x)); [exact Hs|]. unfold Rdiv. rewrite Rmult_assoc, Rinv_l by lra. lra. }
    specialize (HM _ L). rewrite Rabs_pos_eq; lra.
Qed.

(** The hypotheses are met: the distribution function exists, and a surrogate. *)
Definition ex_dist (x y : pt) : R := Rabs (nth 0 x 0 - nth 0 y 0).
Definition ex_mu (x : pt) : R := nth 0 x 0.
Definition ex_sig (_ : pt) : R := 1.
Example ex_C62 : exists Phi, is_normal_cdf Phi /\
  let e := ei_merit ex_dist ex_mu ex_sig Phi normal_pdf 2 (1/10) [[5]] in
  0 < e [3] /\ e [3] < e [1] /\ 1 < e [1] /\ e [5] = 0.
Proof.
  exists cdf0. split; [exact cdf0_is_cdf|]. cbv zeta.
  assert (D : 0 < 1/10) by lra. assert (S : forall x, 0 < ex_sig x) by (intros; unfold ex_sig; lra).
  assert (F : forall a, 1 <= Rabs (a - 5) -> forall t, In t [[5]] -> 1/10 <= ex_dist [a] t).
  { intros a H t [<- | []]. unfold ex_dist. simpl. lra. }
  assert (F3 : 1 <= Rabs (3 - 5)) by (rewrite Rabs_left; lra). assert (F1 : 1 <= Rabs (1 - 5)) by (rewrite Rabs_left; lra).
  destruct (@C62_filter cdf0 ex_dist ex_mu ex_sig 2 (1/10) [[5]] [3] D) as [A3 _]. destruct (@C62_filter cdf0 ex_dist ex_mu ex_sig 2 (1/10) [[5]] [1] D) as [A1 _].
  destruct (@C62_filter cdf0 ex_dist ex_mu ex_sig 2 (1/10) [[5]] [5] D) as [_ A5].
  split; [apply (C62_positive_iff cdf0_is_cdf ex_dist ex_mu ex_sig 2 [[5]] [3] D (S [3])); apply F, F3|].
  rewrite (A3 (F 3 F3)), (A1 (F 1 F1)). split; [|split].
  - apply (@C62_monotone cdf0 ex_dist ex_mu ex_sig ex_mu ex_sig 2 2 [[5]] [3] [1] cdf0_is_cdf (S [3])); unfold ex_sig, ex_mu; simpl; lra.
  - destruct (C62_bounds cdf0_is_cdf ex_dist ex_mu ex_sig 2 [[5]] [1] (S [1])) as [B _]. unfold ex_mu in B at 1. simpl in B. pose proof (Rmax_l (2 - 1) 0). lra.
  - apply A5. exists [5]. split; [left; reflexivity|]. unfold ex_dist. simpl. rewrite Rminus_diag_eq by reflexivity. rewrite Rabs_R0. lra.
Qed.
