(** * Positive definiteness of the radial kernels

    Mathematics behind C59: quadratic forms of Gaussians are nonnegative, and the cubic, thin plate
    spline and linear kernels are integrals of Gaussians up to polynomials.  Nothing here models
    code; the statements used elsewhere are [cubic_cpd], [tps_cpd] and [linear_cnd]. *)
From Coq Require Import List Arith Lia Reals Lra.
From Coquelicot Require Import Coquelicot.
From Verif Require Import Base Design Lin LinProofs.
Import ListNotations.

Set Implicit Arguments.
Local Open Scope R_scope.

(** sum_{i,j} w_i w_j f(i,j) *)
Definition qf (n : nat) (w : nat -> R) (f : nat -> nat -> R) : R := rsum n (fun i => rsum n (fun j => w i * w j * f i j)).

Lemma rsum_ge0 : forall n f, (forall i, (i < n)%nat -> 0 <= f i) -> 0 <= rsum n f.
Proof. induction n as [|n IH]; intros f H; simpl; [lra|]. specialize (IH f (fun i Hi => H i (Nat.lt_lt_succ_r _ _ Hi))). specialize (H n (Nat.lt_succ_diag_r n)). lra. Qed.

Lemma qf_ext : forall n w f g, (forall i j, (i < n)%nat -> (j < n)%nat -> f i j = g i j) -> qf n w f = qf n w g.
Proof. intros n w f g H. apply rsum_ext. intros i Hi. apply rsum_ext. intros j Hj. rewrite H by assumption. reflexivity. Qed.
Lemma qf_plus : forall n w f g, qf n w (fun i j => f i j + g i j) = qf n w f + qf n w g.
Proof.
  intros. unfold qf. rewrite <- rsum_plus. apply rsum_ext. intros i Hi. rewrite <- rsum_plus. apply rsum_ext. intros j Hj. ring.
Qed.
Lemma qf_scal : forall n w c f, qf n w (fun i j => c * f i j) = c * qf n w f.
Proof.
  intros. unfold qf. rewrite <- rsum_scal. apply rsum_ext. intros i Hi. rewrite <- rsum_scal. apply rsum_ext. intros j Hj. ring.
Qed.
Lemma qf_prod : forall n w a b, qf n w (fun i j => a i * b j) = rsum n (fun i => w i * a i) * rsum n (fun j => w j * b j).
Proof.
  intros. unfold qf. rewrite <- rsum_scal_r. apply rsum_ext. intros i Hi. rewrite <- rsum_scal. apply rsum_ext. intros j Hj. ring.
Qed.
Lemma qf_weight : forall n w a f, qf n w (fun i j => a i * a j * f i j) = qf n (fun i => w i * a i) f.
Proof. intros. unfold qf. apply rsum_ext. intros i Hi. apply rsum_ext. intros j Hj. ring. Qed.

Lemma rsum_lim : forall n (f : nat -> nat -> R) (l : nat -> R), (forall i, (i < n)%nat -> is_lim_seq (f i) (l i)) ->
  is_lim_seq (fun N => rsum n (fun i => f i N)) (rsum n l).
Proof.
  induction n as [|n IH]; intros f l H; simpl; [apply is_lim_seq_const|].
  apply is_lim_seq_plus'; [apply IH; intros i Hi; apply H; lia|apply H; lia].
Qed.
Lemma qf_lim : forall n w (f : nat -> nat -> nat -> R) (l : nat -> nat -> R), (forall i j, (i < n)%nat -> (j < n)%nat -> is_lim_seq (fun N => f N i j) (l i j)) ->
  is_lim_seq (fun N => qf n w (f N)) (qf n w l).
Proof.
  intros n w f l H. unfold qf. apply (rsum_lim (n := n) (fun i N => rsum n (fun j => w i * w j * f N i j)) (fun i => rsum n (fun j => w i * w j * l i j))).
  intros i Hi. apply (rsum_lim (n := n) (fun j N => w i * w j * f N i j)). intros j Hj.
  pose proof (is_lim_seq_scal_l (fun N => f N i j) (w i * w j) (l i j) (H i j Hi Hj)) as Q. exact Q.
Qed.

(** ** Gaussians *)
Section Gauss.
Variables dim n : nat.
Variable x : nat -> nat -> R.     (* coordinate d of point i *)
Definition dot (i j : nat) : R := rsum dim (fun d => x i d * x j d).
Definition sqd (i j : nat) : R := rsum dim (fun d => (x i d - x j d) * (x i d - x j d)).

Lemma sqd_dot : forall i j, sqd i j = dot i i + dot j j - 2 * dot i j.
Proof. intros. unfold sqd, dot. rewrite <- rsum_scal, <- rsum_plus, <- rsum_minus. apply rsum_ext. intros d Hd. ring. Qed.
Lemma sqd_nonneg : forall i j, 0 <= sqd i j.
Proof. intros. apply rsum_ge0. intros d Hd. apply Rle_0_sqr. Qed.
Lemma sqd_refl : forall i, sqd i i = 0.
Proof. intros. apply rsum_0. intros. ring. Qed.

Lemma dot_pow_psd : forall k w, 0 <= qf n w (fun i j => dot i j ^ k).
Proof.
  induction k as [|k IH]; intros w.
  - rewrite (@qf_ext n w _ (fun i j => 1 * 1)) by (intros; simpl; ring). rewrite (qf_prod n w (fun _ => 1) (fun _ => 1)). apply Rle_0_sqr.
  - replace (qf n w (fun i j => dot i j ^ S k)) with (rsum dim (fun d => qf n (fun i => w i * x i d) (fun i j => dot i j ^ k))).
    + apply rsum_ge0. intros d Hd. apply IH.
    + unfold qf. rewrite rsum_swap. apply rsum_ext. intros i Hi. rewrite rsum_swap. apply rsum_ext. intros j Hj.
      rewrite <- tech_pow_Rmult. rewrite (rsum_ext (n := dim) _ (fun d => x i d * x j d * (w i * w j * dot i j ^ k))) by (intros; ring).
      rewrite rsum_scal_r. fold (dot i j). ring.
Qed.

Lemma exp_dot_psd : forall s w, 0 <= s -> 0 <= qf n w (fun i j => exp (s * dot i j)).
Proof.
  intros s w Hs.
  assert (L : is_lim_seq (fun N => qf n w (fun i j => sum_f_R0 (fun k => / INR (fact k) * (s * dot i j) ^ k) N)) (qf n w (fun i j => exp (s * dot i j)))).
  { apply qf_lim. intros i j Hi Hj. pose proof (is_exp_Reals (s * dot i j)) as E. unfold is_pseries in E.
    apply is_lim_seq_Reals. apply is_series_Reals in E. unfold infinite_sum in E.
    intros eps He. destruct (E eps He) as [N0 HN]. exists N0. intros m Hm. specialize (HN m Hm). unfold R_dist in *.
    rewrite (sum_eq _ (fun k => scal (pow_n (s * dot i j) k) (/ INR (fact k)))); [exact HN|].
    intros k Hk. unfold scal; simpl; unfold mult; simpl. rewrite <- pow_n_pow. ring. }
  apply (fun H => is_lim_seq_le (fun _ => 0) _ 0 _ H (is_lim_seq_const 0) L).
  intros N. induction N as [|N IH].
  - simpl. rewrite (@qf_ext n w _ (fun i j => 1 * dot i j ^ 0)) by (intros; simpl; field). rewrite qf_scal. pose proof (dot_pow_psd 0 w). lra.
  - cbn [sum_f_R0]. rewrite qf_plus. apply Rplus_le_le_0_compat; [exact IH|].
    rewrite (@qf_ext n w _ (fun i j => (/ INR (fact (S N)) * s ^ S N) * dot i j ^ S N)).
    2:{ intros. rewrite Rpow_mult_distr. ring. }
    rewrite qf_scal. apply Rmult_le_pos; [|apply dot_pow_psd]. apply Rmult_le_pos; [|apply pow_le; exact Hs].
    apply Rlt_le, Rinv_0_lt_compat, INR_fact_lt_0.
Qed.

Lemma gauss_psd : forall s w, 0 <= s -> 0 <= qf n w (fun i j => exp (- s * sqd i j)).
Proof.
  intros s w Hs. rewrite (@qf_ext n w _ (fun i j => exp (- s * dot i i) * exp (- s * dot j j) * exp (2 * s * dot i j))).
  - rewrite (qf_weight n w (fun i => exp (- s * dot i i))). apply exp_dot_psd. lra.
  - intros i j Hi Hj. rewrite <- !exp_plus. f_equal. rewrite sqd_dot. ring.
Qed.
End Gauss.

(** ** Integrals of quadratic forms *)
Lemma rsum_is_RInt : forall n (f : nat -> R -> R) (l : nat -> R) a b, (forall i, (i < n)%nat -> is_RInt (f i) a b (l i)) ->
  is_RInt (fun v => rsum n (fun i => f i v)) a b (rsum n l).
Proof.
  induction n as [|n IH]; intros f l a b H; simpl.
  - pose proof (@is_RInt_const R_NormedModule a b 0) as Q. unfold scal in Q. simpl in Q. unfold mult in Q. simpl in Q. rewrite Rmult_0_r in Q. exact Q.
  - apply (@is_RInt_plus R_NormedModule); [apply IH; intros i Hi; apply H; lia|apply H; lia].
Qed.
Lemma qf_is_RInt : forall n w (f : nat -> nat -> R -> R) (l : nat -> nat -> R) a b,
  (forall i j, (i < n)%nat -> (j < n)%nat -> is_RInt (f i j) a b (l i j)) ->
  is_RInt (fun v => qf n w (fun i j => f i j v)) a b (qf n w l).
Proof.
  intros n w f l a b H. unfold qf. apply (rsum_is_RInt (n := n) (fun i v => rsum n (fun j => w i * w j * f i j v))).
  intros i Hi. apply (rsum_is_RInt (n := n) (fun j v => w i * w j * f i j v)). intros j Hj.
  apply (@is_RInt_scal R_NormedModule (f i j) a b (w i * w j)). apply H; assumption.
Qed.

Lemma RInt_bound : forall f g a b, a <= b -> ex_RInt f a b -> ex_RInt g a b -> (forall v, a <= v <= b -> 0 <= f v <= g v) ->
  0 <= RInt f a b <= RInt g a b.
Proof.
  intros f g a b Hab Hf Hg H. split.
  - apply RInt_ge_0; [exact Hab|exact Hf|]. intros v Hv. apply H. lra.
  - apply RInt_le; [exact Hab|exact Hf|exact Hg|]. intros v Hv. apply H. lra.
Qed.

(** ** Truncated scale integrals J(a,b) of a function [g] with 0 <= g <= B and g(u) <= 1/u^2 *)
Section Scale.
Variable g : R -> R.
Variable B : R.
Hypothesis gc : forall u, 0 < u -> continuous g u.
Hypothesis g0 : forall u, 0 < u -> 0 <= g u.
Hypothesis gB : forall u, 0 < u -> g u <= B.
Hypothesis gi : forall u, 0 < u -> g u <= / (u * u).

Lemma g_ex : forall a b, 0 < a -> 0 < b -> ex_RInt g a b.
Proof. intros a b Ha Hb. apply (@ex_RInt_continuous R_CompleteNormedModule). intros z Hz. apply gc. unfold Rmin in Hz. destruct (Rle_dec a b); lra. Qed.

Lemma inv2_is : forall a b, 0 < a -> 0 < b -> is_RInt (fun u => / (u * u)) a b (/ a - / b).
Proof.
  intros a b Ha Hb. replace (/ a - / b) with (minus (- / b) (- / a)) by (unfold minus, plus, opp; simpl; ring).
  apply (is_RInt_derive (fun u => - / u)).
  - intros u Hu. assert (0 < u) by (unfold Rmin in Hu; destruct (Rle_dec a b); lra). auto_derive; [lra|]. field. lra.
  - intros u Hu. assert (0 < u) by (unfold Rmin in Hu; destruct (Rle_dec a b); lra).
    apply (@ex_derive_continuous R_AbsRing R_NormedModule). auto_derive. nra.
Qed.

Lemma small_a : forall a b, 0 < a -> 0 < b -> Rabs (RInt g a b) <= B * Rabs (b - a).
Proof.
  assert (W : forall a b, 0 < a -> a <= b -> Rabs (RInt g a b) <= B * Rabs (b - a)).
  { intros a b Ha Hab. assert (Hb : 0 < b) by lra. destruct (@RInt_bound g (fun _ => B) a b Hab (g_ex Ha Hb) (ex_RInt_const a b B)) as [L U].
    - intros v Hv. split; [apply g0; lra|apply gB; lra].
    - rewrite RInt_const in U. unfold scal in U; simpl in U; unfold mult in U; simpl in U. rewrite !Rabs_right by lra. lra. }
  intros a b Ha Hb. destruct (Rle_dec a b) as [H|H]; [apply W; assumption|].
  rewrite <- (opp_RInt_swap g) by (apply g_ex; assumption). unfold opp; simpl. rewrite Rabs_Ropp, Rabs_minus_sym. apply W; lra.
Qed.
Lemma large_b : forall a b, 0 < a -> 0 < b -> Rabs (RInt g a b) <= Rabs (/ a - / b).
Proof.
  assert (W : forall a b, 0 < a -> a <= b -> Rabs (RInt g a b) <= Rabs (/ a - / b)).
  { intros a b Ha Hab. assert (Hb : 0 < b) by lra.
    destruct (@RInt_bound g (fun u => / (u * u)) a b Hab (g_ex Ha Hb) (ex_intro _ _ (inv2_is Ha Hb))) as [L U].
    - intros v Hv. split; [apply g0; lra|apply gi; lra].
    - rewrite (is_RInt_unique _ _ _ _ (inv2_is Ha Hb)) in U. rewrite !Rabs_right by lra. lra. }
  intros a b Ha Hb. destruct (Rle_dec a b) as [H|H]; [apply W; assumption|].
  rewrite <- (opp_RInt_swap g) by (apply g_ex; assumption). unfold opp; simpl. rewrite Rabs_Ropp, Rabs_minus_sym. apply W; lra.
Qed.

Definition lo (N : nat) : R := / (INR N + 2).
Definition hi (N : nat) : R := INR N + 2.
Lemma lohi : forall N, 0 < lo N <= / 2 /\ 2 <= hi N.
Proof.
  intros N. pose proof (pos_INR N) as P. unfold lo, hi. split; [split|lra].
  - apply Rinv_0_lt_compat. lra.
  - apply Rinv_le_contravar; lra.
Qed.
Lemma lo_lim : is_lim_seq lo 0.
Proof.
  unfold lo. apply (is_lim_seq_ext (fun N => / (INR (N + 2)))).
  - intros N. rewrite plus_INR. simpl. f_equal. 
  - apply (is_lim_seq_incr_n (fun N => / INR N) 2). evar_last; [apply is_lim_seq_inv; [apply is_lim_seq_INR|discriminate]|reflexivity].
Qed.

Lemma scale_diff : forall r, 0 < r -> is_lim_seq (fun N => RInt g (lo N * r) (hi N * r) - RInt g (lo N) (hi N)) 0.
Proof.
  intros r Hr.
  apply (is_lim_seq_le_le (fun N => - (B * Rabs (1 - r) + Rabs (1 - / r)) * lo N) _ (fun N => (B * Rabs (1 - r) + Rabs (1 - / r)) * lo N)).
  - intros N. destruct (lohi N) as [[L1 L2] H1].
    assert (LR : 0 < lo N * r) by (apply Rmult_lt_0_compat; lra). assert (HR : 0 < hi N * r) by (apply Rmult_lt_0_compat; lra).
    assert (E : RInt g (lo N * r) (hi N * r) - RInt g (lo N) (hi N) = RInt g (lo N * r) (lo N) + RInt g (hi N) (hi N * r)).
    { rewrite <- (RInt_Chasles g (lo N * r) (lo N) (hi N * r)) by (apply g_ex; lra).
      rewrite <- (RInt_Chasles g (lo N) (hi N) (hi N * r)) by (apply g_ex; lra). unfold plus; simpl. ring. }
    rewrite E. pose proof (@small_a _ _ LR L1) as S1. pose proof (@large_b (hi N) (hi N * r) ltac:(lra) HR) as S2.
    replace (lo N - lo N * r) with (lo N * (1 - r)) in S1 by ring. rewrite Rabs_mult, (Rabs_right (lo N)) in S1 by lra.
    replace (/ hi N - / (hi N * r)) with (lo N * (1 - / r)) in S2 by (unfold lo; fold (hi N); field; split; lra).
    rewrite Rabs_mult, (Rabs_right (lo N)) in S2 by lra.
    pose proof (Rabs_le_between (RInt g (lo N * r) (lo N)) (B * (lo N * Rabs (1 - r)))) as [P1 _].
    pose proof (Rabs_le_between (RInt g (hi N) (hi N * r)) (lo N * Rabs (1 - / r))) as [P2 _].
    specialize (P1 S1). specialize (P2 S2). lra.
  - replace (Finite 0) with (Finite (- (B * Rabs (1 - r) + Rabs (1 - / r)) * 0)) by (f_equal; ring).
    apply is_lim_seq_mult'; [apply is_lim_seq_const|apply lo_lim].
  - replace (Finite 0) with (Finite ((B * Rabs (1 - r) + Rabs (1 - / r)) * 0)) by (f_equal; ring).
    apply is_lim_seq_mult'; [apply is_lim_seq_const|apply lo_lim].
Qed.

Hypothesis g1 : forall u, 0 < u -> 0 < g u.

Definition J (N : nat) : R := RInt g (lo N) (hi N).
Definition J0 : R := RInt g (/2) 2.
Lemma J0_pos : 0 < J0.
Proof.
  unfold J0. apply RInt_gt_0; [lra| |].
  - intros u Hu. apply g1. lra.
  - intros u Hu. apply gc. lra.
Qed.
Lemma J_ge : forall N, J0 <= J N.
Proof.
  intros N. destruct (lohi N) as [[L1 L2] H1]. unfold J, J0.
  rewrite <- (RInt_Chasles g (lo N) (/2) (hi N)) by (apply g_ex; lra).
  rewrite <- (RInt_Chasles g (/2) 2 (hi N)) by (apply g_ex; lra). unfold plus; simpl.
  assert (0 <= RInt g (lo N) (/ 2)) by (apply RInt_ge_0; [lra|apply g_ex; lra|intros u Hu; apply g0; lra]).
  assert (0 <= RInt g 2 (hi N)) by (apply RInt_ge_0; [lra|apply g_ex; lra|intros u Hu; apply g0; lra]). lra.
Qed.
Lemma J_le : forall N, J N <= B + 1.
Proof.
  intros N. destruct (lohi N) as [[L1 L2] H1]. unfold J.
  rewrite <- (RInt_Chasles g (lo N) 1 (hi N)) by (apply g_ex; lra). unfold plus; simpl.
  pose proof (@small_a (lo N) 1 L1 ltac:(lra)) as S1. pose proof (@large_b 1 (hi N) ltac:(lra) ltac:(lra)) as S2.
  assert (0 <= B) by (apply Rle_trans with (g 1); [apply g0; lra|apply gB; lra]).
  rewrite (Rabs_right (1 - lo N)) in S1 by lra. rewrite Rinv_1 in S2. assert (0 < / hi N <= / 2).
  { split; [apply Rinv_0_lt_compat; lra|apply Rinv_le_contravar; lra]. }
  rewrite (Rabs_right (1 - / hi N)) in S2 by lra.
  pose proof (Rle_abs (RInt g (lo N) 1)). pose proof (Rle_abs (RInt g 1 (hi N))). nra.
Qed.

Lemma scale_ratio : forall r, 0 < r -> is_lim_seq (fun N => RInt g (lo N * r) (hi N * r) / J N) 1.
Proof.
  intros r Hr. pose proof J0_pos as P0.
  assert (Z : is_lim_seq (fun N => (RInt g (lo N * r) (hi N * r) - J N) / J N) 0).
  { apply is_lim_seq_abs_0. pose proof (is_lim_seq_abs _ _ (scale_diff Hr)) as A. cbn [Rbar_abs] in A. rewrite Rabs_R0 in A.
    apply (is_lim_seq_le_le (fun _ => 0) _ (fun N => / J0 * Rabs (RInt g (lo N * r) (hi N * r) - RInt g (lo N) (hi N)))).
    - intros N. split; [apply Rabs_pos|]. fold (J N). unfold Rdiv. rewrite Rabs_mult. pose proof (J_ge N) as G.
      rewrite (Rabs_right (/ J N)) by (apply Rle_ge, Rlt_le, Rinv_0_lt_compat; lra). rewrite Rmult_comm.
      apply Rmult_le_compat_r; [apply Rabs_pos|]. apply Rinv_le_contravar; lra.
    - apply is_lim_seq_const.
    - replace (Finite 0) with (Finite (/ J0 * 0)) by (f_equal; ring). apply is_lim_seq_mult'; [apply is_lim_seq_const|exact A]. }
  apply (is_lim_seq_ext (fun N => (RInt g (lo N * r) (hi N * r) - J N) / J N + 1)).
  - intros N. pose proof (J_ge N). field. lra.
  - replace (Finite 1) with (Finite (0 + 1)) by (f_equal; ring). apply is_lim_seq_plus'; [exact Z|apply is_lim_seq_const].
Qed.
End Scale.

(** ** Kernels r^p whose Gaussian mixture is a truncated scale integral *)
Lemma exp_neg_lt1 : forall y, 0 < y -> exp (- y) < 1.
Proof. intros y Hy. rewrite <- exp_0. apply exp_increasing. lra. Qed.
Lemma exp_neg_le1 : forall y, 0 <= y -> exp (- y) <= 1.
Proof. intros y Hy. destruct Hy as [Hy|<-]; [apply Rlt_le, exp_neg_lt1, Hy|rewrite Ropp_0, exp_0; lra]. Qed.
Lemma exp_neg_lower : forall y, 1 - y <= exp (- y).
Proof. intros y. pose proof (exp_ineq1_le (- y)). lra. Qed.
Lemma exp_neg_upper : forall y, 0 <= y -> exp (- y) <= 1 - y + y * y / 2.
Proof.
  intros y Hy. assert (D : forall z, 0 <= z -> 0 <= 1 - z + z * z / 2 - exp (- z)).
  { intros z Hz. destruct Hz as [Hz|<-]; [|rewrite Ropp_0, exp_0; lra].
    destruct (MVT_gen (fun z => 1 - z + z * z / 2 - exp (- z)) 0 z (fun z => -1 + z + exp (- z))) as [c [Hc E]].
    - intros u Hu. auto_derive; [trivial|]. field.
    - intros u Hu. apply continuity_pt_filterlim. apply (@ex_derive_continuous R_AbsRing R_NormedModule (fun z => 1 - z + z * z / 2 - exp (- z)) u). auto_derive. trivial.
    - rewrite Rmin_left, Rmax_right in Hc by lra. rewrite Ropp_0, exp_0 in E. pose proof (exp_neg_lower c). nra. }
  specialize (D y Hy). lra.
Qed.

Lemma gauss_lim : forall t, 0 < t -> is_lim (fun v => exp (- (v * v) * t)) p_infty 0.
Proof.
  intros t Ht. apply (is_lim_le_le_loc (fun _ => 0) (fun v => / (t * v))).
  - exists 1. intros v Hv. split; [apply Rlt_le, exp_pos|].
    replace (- (v * v) * t) with (- (v * v * t)) by ring. rewrite exp_Ropp. apply Rinv_le_contravar; [nra|].
    pose proof (exp_ineq1_le (v * v * t)). assert (v <= v * v) by nra. nra.
  - apply is_lim_const.
  - evar_last; [apply is_lim_inv; [apply is_lim_scal_l, is_lim_id|]|]; cbn [Rbar_mult Rbar_mult']; destruct (Rle_dec 0 t) as [H|H]; try lra;
      destruct (Rle_lt_or_eq_dec 0 t H) as [H'|H']; try lra; try discriminate; reflexivity.
Qed.

Lemma rsum_is_lim : forall n (f : nat -> R -> R) (l : nat -> R), (forall i, (i < n)%nat -> is_lim (f i) p_infty (l i)) ->
  is_lim (fun v => rsum n (fun i => f i v)) p_infty (rsum n l).
Proof.
  induction n as [|n IH]; intros f l H; simpl; [apply is_lim_const|].
  apply (is_lim_plus' (fun v => rsum n (fun i => f i v)) (f n)); [apply IH; intros i Hi; apply H; lia|apply H; lia].
Qed.

Section Kern.
Variable g : R -> R.
Variable B : R.
Hypothesis gc : forall u, 0 < u -> continuous g u.
Hypothesis g1 : forall u, 0 < u -> 0 < g u.
Hypothesis gB : forall u, 0 < u -> g u <= B.
Hypothesis gi : forall u, 0 < u -> g u <= / (u * u).
Variable p : nat.
Variable sg : R.
Hypothesis sg1 : sg * sg = 1.
Variables rho al be : R -> R.
Hypothesis rep : forall v r, 0 < v -> 0 < r -> r ^ S p * g (v * r) = rho v * (sg * exp (- (v * v) * (r * r)) + al v + be v * (r * r)).
Hypothesis rep0 : forall v, 0 < v -> sg + al v = 0.
Hypothesis rho_low : forall V, 0 < V -> exists c, 0 < c /\ forall v, 0 < v <= V -> c <= rho v.
Hypothesis p1 : (1 <= p)%nat.

Variables dim n : nat.
Variable x : nat -> nat -> R.
Variable w : nat -> R.
Hypothesis w0 : rsum n w = 0.
Hypothesis w2 : forall v, be v * qf n w (fun i j => sqd dim x i j) = 0.
Let t i j := sqd dim x i j.
Let r i j := sqrt (t i j).

Lemma r_sq : forall i j, r i j * r i j = t i j.
Proof. intros. unfold r. apply sqrt_sqrt. apply sqd_nonneg. Qed.
Lemma r_ge0 : forall i j, 0 <= r i j.
Proof. intros. apply sqrt_pos. Qed.

Definition Qg (v : R) : R := qf n w (fun i j => exp (- (v * v) * t i j)).
Lemma Qg_ge0 : forall v, 0 <= Qg v.
Proof. intros v. apply gauss_psd. apply Rle_0_sqr. Qed.

Lemma qf_const : forall c, qf n w (fun _ _ => c) = 0.
Proof.
  intros c. rewrite (@qf_ext n w _ (fun _ _ => c * (1 * 1))) by (intros; ring). rewrite qf_scal, (qf_prod n w (fun _ => 1) (fun _ => 1)).
  rewrite (rsum_ext (n := n) (fun i => w i * 1) w) by (intros; ring). rewrite w0. ring.
Qed.

(** the integrand *)
Definition ig (v : R) (i j : nat) : R := r i j ^ S p * g (v * r i j).
Lemma ig_eq : forall v i j, 0 < v -> ig v i j = rho v * (sg * exp (- (v * v) * t i j) + al v + be v * t i j).
Proof.
  intros v i j Hv. unfold ig. destruct (r_ge0 i j) as [H|H].
  - rewrite (rep Hv H), r_sq. reflexivity.
  - rewrite <- (r_sq i j), <- H. rewrite pow_i by lia. rewrite !Rmult_0_r, exp_0, Rmult_1_r, !Rplus_0_r, (rep0 Hv). ring.
Qed.
Lemma qf_ig : forall v, 0 < v -> sg * qf n w (ig v) = rho v * Qg v.
Proof.
  intros v Hv. rewrite (@qf_ext n w (ig v) (fun i j => (rho v * sg) * exp (- (v * v) * t i j) + (rho v * al v + (rho v * be v) * t i j))).
  - rewrite !qf_plus, !qf_scal, qf_const. fold (Qg v). change (fun i j : nat => t i j) with t.
    assert (W2 : be v * qf n w t = 0) by exact (w2 v).
    transitivity (sg * sg * (rho v * Qg v) + sg * rho v * (be v * qf n w t)); [ring|rewrite W2, sg1; ring].
  - intros i j _ _. rewrite (ig_eq i j Hv). ring.
Qed.

Lemma ig_is : forall i j a b, 0 < a -> 0 < b -> is_RInt (fun v => ig v i j) a b (r i j ^ p * RInt g (a * r i j) (b * r i j)).
Proof.
  intros i j a b Ha Hb. unfold ig. destruct (r_ge0 i j) as [H|H].
  - apply (is_RInt_ext (fun v => scal (r i j ^ p) (scal (r i j) (g (r i j * v + 0))))).
    + intros v Hv. unfold scal; simpl; unfold mult; simpl. rewrite Rplus_0_r, (Rmult_comm (r i j) v). ring.
    + apply (@is_RInt_scal R_NormedModule). apply (@is_RInt_comp_lin R_NormedModule g (r i j) 0 a b). rewrite !Rplus_0_r, !(Rmult_comm (r i j)).
      apply (@RInt_correct R_CompleteNormedModule). apply (@ex_RInt_continuous R_CompleteNormedModule). intros z Hz. apply gc.
      assert (0 < a * r i j) by (apply Rmult_lt_0_compat; assumption). assert (0 < b * r i j) by (apply Rmult_lt_0_compat; assumption).
      unfold Rmin in Hz. destruct (Rle_dec (a * r i j) (b * r i j)); lra.
  - rewrite <- H. rewrite !Rmult_0_r. 
    apply (is_RInt_ext (fun v => 0)); [intros v Hv; rewrite pow_i by lia; symmetry; apply Rmult_0_l|].
    replace (0 ^ p * RInt g 0 0) with (scal (b - a) 0); [apply (@is_RInt_const R_NormedModule)|].
    rewrite pow_i by lia. rewrite Rmult_0_l. apply Rmult_0_r.
Qed.

Lemma qf_int : forall a b, 0 < a -> 0 < b -> is_RInt (fun v => sg * qf n w (ig v)) a b (sg * qf n w (fun i j => r i j ^ p * RInt g (a * r i j) (b * r i j))).
Proof.
  intros a b Ha Hb. apply (@is_RInt_scal R_NormedModule). apply qf_is_RInt. intros i j _ _. apply ig_is; assumption.
Qed.

Lemma kern_lim : is_lim_seq (fun N => / J g N * (sg * qf n w (fun i j => r i j ^ p * RInt g (lo N * r i j) (hi N * r i j)))) (sg * qf n w (fun i j => r i j ^ p)).
Proof.
  apply (is_lim_seq_ext (fun N => sg * qf n w (fun i j => r i j ^ p * (RInt g (lo N * r i j) (hi N * r i j) / J g N)))).
  - intros N. transitivity (sg * (/ J g N * qf n w (fun i j => r i j ^ p * RInt g (lo N * r i j) (hi N * r i j)))); [|ring].
    f_equal. rewrite <- qf_scal. apply qf_ext. intros. unfold Rdiv. ring.
  - apply is_lim_seq_mult'; [apply is_lim_seq_const|]. apply qf_lim. intros i j _ _.
    destruct (r_ge0 i j) as [H|H].
    + replace (Finite (r i j ^ p)) with (Finite (r i j ^ p * 1)) by (f_equal; ring). apply is_lim_seq_mult'; [apply is_lim_seq_const|].
      eapply scale_ratio with (B := B); try eassumption. intros u Hu. apply Rlt_le, g1, Hu.
    + rewrite <- H. apply (is_lim_seq_ext (fun _ => 0)); [intros N; rewrite pow_i by lia; ring|]. rewrite pow_i by lia. apply is_lim_seq_const.
Qed.

Theorem kern_ge0 : 0 <= sg * qf n w (fun i j => r i j ^ p).
Proof.
  refine (is_lim_seq_le (fun _ => 0) _ 0 _ _ (is_lim_seq_const 0) kern_lim).
  intros N. destruct (lohi N) as [[L1 L2] H1].
  assert (G0 : forall u, 0 < u -> 0 <= g u) by (intros u Hu; apply Rlt_le, g1, Hu).
  pose proof (@J0_pos g gc g1). pose proof (@J_ge g gc G0 N).
  apply Rmult_le_pos; [apply Rlt_le, Rinv_0_lt_compat; lra|].
  refine (is_RInt_le (fun _ => 0) _ _ _ _ _ _ _ (@qf_int (lo N) (hi N) L1 ltac:(lra)) _); [lra| |].
  - pose proof (@is_RInt_const R_NormedModule (lo N) (hi N) 0) as Q. unfold scal in Q. simpl in Q. unfold mult in Q. simpl in Q. rewrite Rmult_0_r in Q. exact Q.
  - intros v Hv. rewrite qf_ig by lra. apply Rmult_le_pos; [|apply Qg_ge0]. destruct (@rho_low v) as [c [C1 C2]]; [lra|]. specialize (C2 v ltac:(lra)). lra.
Qed.

(** strictly, if the points are distinct *)
Hypothesis dist : forall i j, (i < n)%nat -> (j < n)%nat -> i <> j -> 0 < t i j.
Lemma Qg_lim : is_lim Qg p_infty (rsum n (fun i => w i * w i)).
Proof.
  assert (E : rsum n (fun i => w i * w i) = qf n w (fun i j => if (i =? j)%nat then 1 else 0)).
  { unfold qf. apply rsum_ext. intros i Hi. rewrite (@rsum_one n _ i Hi).
    - rewrite Nat.eqb_refl. ring.
    - intros j Hj N. destruct (Nat.eqb_spec i j); [congruence|ring]. }
  rewrite E. unfold Qg, qf. apply (rsum_is_lim (n := n) (fun i v => rsum n (fun j => w i * w j * exp (- (v * v) * t i j)))).
  intros i Hi. apply (rsum_is_lim (n := n) (fun j v => w i * w j * exp (- (v * v) * t i j))). intros j Hj.
  change (is_lim (fun v => w i * w j * exp (- (v * v) * t i j)) p_infty (Rbar_mult (Finite (w i * w j)) (Finite (if (i =? j)%nat then 1 else 0)))).
  apply is_lim_scal_l. destruct (Nat.eqb_spec i j) as [<-|N].
  - unfold t. apply (is_lim_ext (fun _ => 1)); [intros v; rewrite sqd_refl, Rmult_0_r, exp_0; reflexivity|apply is_lim_const].
  - apply gauss_lim. apply dist; assumption.
Qed.

Theorem kern_gt0 : 0 < rsum n (fun i => w i * w i) -> 0 < sg * qf n w (fun i j => r i j ^ p).
Proof.
  intros HW. set (S := rsum n (fun i => w i * w i)) in *.
  assert (G0 : forall u, 0 < u -> 0 <= g u) by (intros u Hu; apply Rlt_le, g1, Hu).
  assert (HM : exists V, 1 <= V /\ forall v, V <= v -> S / 2 <= Qg v).
  { pose proof Qg_lim as L. apply is_lim_spec in L. destruct (L (mkposreal (S / 2) ltac:(lra))) as [M HM]. simpl in HM.
    exists (Rmax 1 (M + 1)). split; [apply Rmax_l|]. intros v Hv. pose proof (Rmax_r 1 (M + 1)). specialize (HM v ltac:(lra)).
    apply Rabs_def2 in HM. fold S in HM. lra. }
  destruct HM as [V [V1 HV]]. destruct (@rho_low (V + 1)) as [c [C1 C2]]; [lra|].
  assert (LOW : Rbar_le (/ (B + 1) * (c * (S / 2))) (sg * qf n w (fun i j => r i j ^ p))).
  { refine (is_lim_seq_le_loc (fun _ => / (B + 1) * (c * (S / 2))) _ _ _ _ (is_lim_seq_const _) kern_lim).
    destruct (nfloor_ex (V + 1)) as [N0 HN0]; [lra|]. exists (Datatypes.S N0). intros N HN. destruct (lohi N) as [[L1 L2] H1].
    assert (NV : V + 1 <= hi N).
    { unfold hi. apply le_INR in HN. rewrite S_INR in HN. lra. }
    pose proof (@J0_pos g gc g1). pose proof (@J_ge g gc G0 N). pose proof (@J_le g B gc G0 gB gi N).
    set (F := fun v => sg * qf n w (ig v)).
    assert (F0 : forall v, 0 < v -> 0 <= F v).
    { intros v Hv. unfold F. rewrite qf_ig by lra. apply Rmult_le_pos; [|apply Qg_ge0]. destruct (@rho_low v) as [c' [C1' C2']]; [lra|]. specialize (C2' v ltac:(lra)). lra. }
    assert (EX : forall a b, 0 < a -> 0 < b -> ex_RInt F a b) by (intros a b Ha Hb; eexists; apply qf_int; assumption).
    assert (BIG : c * (S / 2) <= RInt F (lo N) (hi N)).
    { rewrite <- (RInt_Chasles F (lo N) V (hi N)) by (apply EX; lra). rewrite <- (RInt_Chasles F V (V + 1) (hi N)) by (apply EX; lra). unfold plus; simpl.
      assert (0 <= RInt F (lo N) V) by (apply RInt_ge_0; [lra|apply EX; lra|intros u Hu; apply F0; lra]).
      assert (0 <= RInt F (V + 1) (hi N)) by (apply RInt_ge_0; [lra|apply EX; lra|intros u Hu; apply F0; lra]).
      assert (c * (S / 2) <= RInt F V (V + 1)); [|lra].
      replace (c * (S / 2)) with (RInt (fun _ => c * (S / 2)) V (V + 1)).
      - apply RInt_le; [lra|apply ex_RInt_const|apply EX; lra|]. intros v Hv. unfold F. rewrite qf_ig by lra.
        apply Rmult_le_compat; [lra|lra|apply C2; lra|apply HV; lra].
      - rewrite RInt_const. unfold scal; simpl; unfold mult; simpl. ring. }
    rewrite <- (is_RInt_unique _ _ _ _ (@qf_int (lo N) (hi N) L1 ltac:(lra))). fold F.
    assert (0 < c * (S / 2)) by (apply Rmult_lt_0_compat; lra).
    apply Rmult_le_compat; [apply Rlt_le, Rinv_0_lt_compat; lra|lra|apply Rinv_le_contravar; lra|exact BIG]. }
  simpl in LOW. assert (0 < / (B + 1) * (c * (S / 2))); [|lra].
  assert (0 <= B) by (apply Rle_trans with (g 1); [apply G0; lra|apply gB; lra]).
  apply Rmult_lt_0_compat; [apply Rinv_0_lt_compat; lra|apply Rmult_lt_0_compat; lra].
Qed.
End Kern.

(** ** Cubic and linear kernels *)
Lemma qf_sqd : forall dim n x w, rsum n w = 0 -> (forall d, (d < dim)%nat -> rsum n (fun i => w i * x i d) = 0) -> qf n w (fun i j => sqd dim x i j) = 0.
Proof.
  intros dim n x w H0 H1.
  rewrite (@qf_ext n w _ (fun i j => dot dim x i i * 1 + (1 * dot dim x j j + (-2) * dot dim x i j))) by (intros; rewrite sqd_dot; ring).
  rewrite !qf_plus, (qf_prod n w (fun i => dot dim x i i) (fun _ => 1)), (qf_prod n w (fun _ => 1) (fun i => dot dim x i i)), qf_scal.
  rewrite (rsum_ext (n := n) (fun j => w j * 1) w) by (intros; ring). rewrite H0.
  assert (E : qf n w (dot dim x) = rsum dim (fun d => rsum n (fun i => w i * x i d) * rsum n (fun i => w i * x i d))).
  { unfold dot. transitivity (rsum dim (fun d => qf n w (fun i j => x i d * x j d))).
    - symmetry. unfold qf. rewrite rsum_swap. apply rsum_ext. intros i Hi. rewrite rsum_swap. apply rsum_ext. intros j Hj. rewrite rsum_scal. reflexivity.
    - apply rsum_ext. intros d Hd. apply (qf_prod n w (fun i => x i d) (fun i => x i d)). }
  change (fun i j => dot dim x i j) with (dot dim x). rewrite E. rewrite (@rsum_0 dim); [ring|]. intros d Hd. rewrite H1 by exact Hd. ring.
Qed.

Definition g_cubic (u : R) : R := (exp (- (u * u)) - 1 + u * u) / (u * u * (u * u)).
Definition g_linear (u : R) : R := (1 - exp (- (u * u))) / (u * u).

Section Cubic.
Variables dim n : nat.
Variable x : nat -> nat -> R.
Variable w : nat -> R.
Hypothesis w0 : rsum n w = 0.

Lemma g_cubic_cont : forall u, 0 < u -> continuous g_cubic u.
Proof. intros u Hu. apply (@ex_derive_continuous R_AbsRing R_NormedModule). unfold g_cubic. auto_derive. assert (0 < u * u) by nra. nra. Qed.
Lemma g_cubic_pos : forall u, 0 < u -> 0 < g_cubic u.
Proof.
  intros u Hu. assert (U : 0 < u * u) by (apply Rmult_lt_0_compat; exact Hu). unfold g_cubic. apply Rdiv_lt_0_compat; [|apply Rmult_lt_0_compat; exact U].
  pose proof (exp_ineq1 (- (u * u)) ltac:(lra)). lra.
Qed.
Lemma g_cubic_B : forall u, 0 < u -> g_cubic u <= 1 / 2.
Proof.
  intros u Hu. assert (U : 0 < u * u) by (apply Rmult_lt_0_compat; exact Hu). unfold g_cubic.
  assert (UU : 0 < u * u * (u * u)) by (apply Rmult_lt_0_compat; exact U).
  apply Rle_div_l; [exact UU|]. pose proof (@exp_neg_upper (u * u) (Rlt_le _ _ U)). lra.
Qed.
Lemma g_cubic_i : forall u, 0 < u -> g_cubic u <= / (u * u).
Proof.
  intros u Hu. assert (U : 0 < u * u) by (apply Rmult_lt_0_compat; exact Hu). unfold g_cubic.
  assert (UU : 0 < u * u * (u * u)) by (apply Rmult_lt_0_compat; exact U).
  apply Rle_div_l; [exact UU|]. pose proof (@exp_neg_le1 (u * u) (Rlt_le _ _ U)).
  replace (/ (u * u) * (u * u * (u * u))) with (u * u) by (field; lra). lra.
Qed.
Lemma g_cubic_rep : forall v r, 0 < v -> 0 < r ->
  r ^ 4 * g_cubic (v * r) = / (v * v * (v * v)) * (1 * exp (- (v * v) * (r * r)) + -1 + v * v * (r * r)).
Proof.
  intros v r Hv Hr. unfold g_cubic. replace (- (v * r * (v * r))) with (- (v * v) * (r * r)) by ring. field. lra.
Qed.

Lemma g_linear_cont : forall u, 0 < u -> continuous g_linear u.
Proof. intros u Hu. apply (@ex_derive_continuous R_AbsRing R_NormedModule). unfold g_linear. auto_derive. nra. Qed.
Lemma g_linear_pos : forall u, 0 < u -> 0 < g_linear u.
Proof.
  intros u Hu. assert (U : 0 < u * u) by (apply Rmult_lt_0_compat; exact Hu). unfold g_linear. apply Rdiv_lt_0_compat; [|exact U].
  pose proof (@exp_neg_lt1 (u * u) U). lra.
Qed.
Lemma g_linear_B : forall u, 0 < u -> g_linear u <= 1.
Proof.
  intros u Hu. assert (U : 0 < u * u) by (apply Rmult_lt_0_compat; exact Hu). unfold g_linear.
  apply Rle_div_l; [exact U|]. pose proof (exp_neg_lower (u * u)). lra.
Qed.
Lemma g_linear_i : forall u, 0 < u -> g_linear u <= / (u * u).
Proof.
  intros u Hu. assert (U : 0 < u * u) by (apply Rmult_lt_0_compat; exact Hu). unfold g_linear.
  apply Rle_div_l; [exact U|]. pose proof (exp_pos (- (u * u))). rewrite Rinv_l by lra. lra.
Qed.
Lemma g_linear_rep : forall v r, 0 < v -> 0 < r ->
  r ^ 2 * g_linear (v * r) = / (v * v) * (-1 * exp (- (v * v) * (r * r)) + 1 + 0 * (r * r)).
Proof.
  intros v r Hv Hr. unfold g_linear. replace (- (v * r * (v * r))) with (- (v * v) * (r * r)) by ring. field. lra.
Qed.
Lemma inv_low2 : forall V, 0 < V -> exists c, 0 < c /\ forall v, 0 < v <= V -> c <= / (v * v).
Proof.
  intros V HV. exists (/ (V * V)). split; [apply Rinv_0_lt_compat; nra|]. intros v Hv. apply Rinv_le_contravar; nra.
Qed.
Lemma inv_low4 : forall V, 0 < V -> exists c, 0 < c /\ forall v, 0 < v <= V -> c <= / (v * v * (v * v)).
Proof.
  intros V HV. exists (/ (V * V * (V * V))). assert (0 < V * V) by nra. split; [apply Rinv_0_lt_compat; nra|]. intros v Hv.
  assert (0 < v * v) by nra. assert (v * v <= V * V) by nra. apply Rinv_le_contravar; nra.
Qed.

Theorem linear_cnd : qf n w (fun i j => sqrt (sqd dim x i j)) <= 0.
Proof using w0.
  pose proof (@kern_ge0 g_linear 1 g_linear_cont g_linear_pos g_linear_B g_linear_i 1%nat (-1) ltac:(ring) (fun v => / (v * v)) (fun _ => 1) (fun _ => 0)
    g_linear_rep ltac:(intros; cbv beta; lra) inv_low2 ltac:(lia) dim n x w w0 ltac:(intros; cbv beta; lra)) as K.
  rewrite (@qf_ext n w _ (fun i j => sqrt (sqd dim x i j))) in K by (intros; ring). lra.
Qed.
Theorem linear_strict : (forall i j, (i < n)%nat -> (j < n)%nat -> i <> j -> 0 < sqd dim x i j) ->
  0 < rsum n (fun i => w i * w i) -> qf n w (fun i j => sqrt (sqd dim x i j)) < 0.
Proof using w0.
  intros HD HW.
  pose proof (@kern_gt0 g_linear 1 g_linear_cont g_linear_pos g_linear_B g_linear_i 1%nat (-1) ltac:(ring) (fun v => / (v * v)) (fun _ => 1) (fun _ => 0)
    g_linear_rep ltac:(intros; cbv beta; lra) inv_low2 ltac:(lia) dim n x w w0 ltac:(intros; cbv beta; lra) HD HW) as K.
  rewrite (@qf_ext n w _ (fun i j => sqrt (sqd dim x i j))) in K by (intros; ring). lra.
Qed.

Hypothesis w1 : forall d, (d < dim)%nat -> rsum n (fun i => w i * x i d) = 0.
Theorem cubic_cpd : 0 <= qf n w (fun i j => sqrt (sqd dim x i j) ^ 3).
Proof using w0 w1.
  pose proof (@kern_ge0 g_cubic (1/2) g_cubic_cont g_cubic_pos g_cubic_B g_cubic_i 3%nat 1 ltac:(ring) (fun v => / (v * v * (v * v))) (fun _ => -1) (fun v => v * v)
    g_cubic_rep ltac:(intros; cbv beta; lra) inv_low4 ltac:(lia) dim n x w w0) as K.
  rewrite Rmult_1_l in K. apply K. intros v. rewrite (@qf_sqd dim n x w w0 w1). apply Rmult_0_r.
Qed.
Theorem cubic_strict : (forall i j, (i < n)%nat -> (j < n)%nat -> i <> j -> 0 < sqd dim x i j) ->
  0 < rsum n (fun i => w i * w i) -> 0 < qf n w (fun i j => sqrt (sqd dim x i j) ^ 3).
Proof using w0 w1.
  intros HD HW.
  pose proof (@kern_gt0 g_cubic (1/2) g_cubic_cont g_cubic_pos g_cubic_B g_cubic_i 3%nat 1 ltac:(ring) (fun v => / (v * v * (v * v))) (fun _ => -1) (fun v => v * v)
    g_cubic_rep ltac:(intros; cbv beta; lra) inv_low4 ltac:(lia) dim n x w w0) as K.
  rewrite Rmult_1_l in K. apply K; [|exact HD|exact HW]. intros v. rewrite (@qf_sqd dim n x w w0 w1). apply Rmult_0_r.
Qed.
End Cubic.

(** ** Thin plate spline: t ln t with t = r^2 *)
Section TPS.
Variables dim n : nat.
Variable x : nat -> nat -> R.
Variable w : nat -> R.
Hypothesis w0 : rsum n w = 0.
Hypothesis w1 : forall d, (d < dim)%nat -> rsum n (fun i => w i * x i d) = 0.

Definition h1 (u : R) : R := (exp (- u) - 1 + u) / (u * u).
Definition h2 (u : R) : R := (1 - exp (- u)) / (u * u).
Lemma h1_cont : forall u, 0 < u -> continuous h1 u.
Proof. intros u Hu. apply (@ex_derive_continuous R_AbsRing R_NormedModule). unfold h1. auto_derive. nra. Qed.
Lemma h2_cont : forall u, 0 < u -> continuous h2 u.
Proof. intros u Hu. apply (@ex_derive_continuous R_AbsRing R_NormedModule). unfold h2. auto_derive. nra. Qed.
Lemma h1_0 : forall u, 0 < u -> 0 <= h1 u.
Proof. intros u Hu. unfold h1. apply Rdiv_le_0_compat; [|nra]. pose proof (exp_neg_lower u). lra. Qed.
Lemma h1_B : forall u, 0 < u -> h1 u <= 1 / 2.
Proof. intros u Hu. unfold h1. apply Rle_div_l; [nra|]. pose proof (@exp_neg_upper u ltac:(lra)). lra. Qed.
Lemma h2_0 : forall u, 0 < u -> 0 <= h2 u.
Proof. intros u Hu. unfold h2. apply Rdiv_le_0_compat; [|nra]. pose proof (@exp_neg_le1 u ltac:(lra)). lra. Qed.
Lemma h2_i : forall u, 0 < u -> h2 u <= / (u * u).
Proof. intros u Hu. assert (0 < u * u) by nra. unfold h2. apply Rle_div_l; [nra|]. pose proof (exp_pos (- u)). rewrite Rinv_l by lra. lra. Qed.

Lemma h2_ex : forall a b, 0 < a -> 0 < b -> ex_RInt h2 a b.
Proof. intros a b Ha Hb. apply (@g_ex h2 h2_cont); assumption. Qed.
Lemma inv_is : forall a b, 0 < a -> 0 < b -> is_RInt (fun u => / u) a b (ln b - ln a).
Proof.
  intros a b Ha Hb. change (ln b - ln a) with (minus (ln b) (ln a)).
  apply (is_RInt_derive ln).
  - intros u Hu. assert (0 < u) by (unfold Rmin in Hu; destruct (Rle_dec a b); lra). apply is_derive_Reals. apply derivable_pt_lim_ln. assumption.
  - intros u Hu. assert (0 < u) by (unfold Rmin in Hu; destruct (Rle_dec a b); lra).
    apply (@ex_derive_continuous R_AbsRing R_NormedModule). auto_derive. lra.
Qed.
Lemma h_split : forall a b, 0 < a -> 0 < b -> RInt h2 a b = ln b - ln a - RInt h1 a b.
Proof.
  intros a b Ha Hb. apply is_RInt_unique. apply (is_RInt_ext (fun u => minus (/ u) (h1 u))).
  - intros u Hu. assert (0 < u) by (unfold Rmin in Hu; destruct (Rle_dec a b); lra). unfold minus, plus, opp; simpl. unfold h1, h2. field. lra.
  - apply (@is_RInt_minus R_NormedModule); [apply inv_is; assumption|]. apply (@RInt_correct R_CompleteNormedModule). apply (@g_ex h1 h1_cont); assumption.
Qed.

Lemma tps_lim : forall t, 0 < t -> is_lim_seq (fun N => RInt h2 (lo N) (hi N) - RInt h2 (lo N * t) (hi N * t)) (ln t).
Proof.
  intros t Ht.
  set (K := 1 / 2 * Rabs (1 - t) + Rabs (1 - / t)).
  apply (is_lim_seq_le_le (fun N => ln t + - K * lo N) _ (fun N => ln t + K * lo N)).
  - intros N. destruct (lohi N) as [[L1 L2] H1].
    assert (LR : 0 < lo N * t) by (apply Rmult_lt_0_compat; lra). assert (HR : 0 < hi N * t) by (apply Rmult_lt_0_compat; lra).
    assert (E : RInt h2 (lo N) (hi N) - RInt h2 (lo N * t) (hi N * t) = ln t + RInt h1 (lo N * t) (lo N) - RInt h2 (hi N) (hi N * t)).
    { rewrite <- (RInt_Chasles h2 (lo N * t) (lo N) (hi N * t)) by (apply h2_ex; lra).
      rewrite <- (RInt_Chasles h2 (lo N) (hi N) (hi N * t)) by (apply h2_ex; lra). unfold plus; simpl.
      rewrite (@h_split (lo N * t) (lo N)) by lra. rewrite ln_mult by lra. ring. }
    rewrite E. pose proof (@small_a h1 (1/2) h1_cont h1_0 h1_B _ _ LR L1) as S1. pose proof (@large_b h2 h2_cont h2_0 h2_i (hi N) (hi N * t) ltac:(lra) HR) as S2.
    replace (lo N - lo N * t) with (lo N * (1 - t)) in S1 by ring. rewrite Rabs_mult, (Rabs_right (lo N)) in S1 by lra.
    replace (/ hi N - / (hi N * t)) with (lo N * (1 - / t)) in S2 by (unfold lo; fold (hi N); field; split; lra).
    rewrite Rabs_mult, (Rabs_right (lo N)) in S2 by lra.
    pose proof (Rabs_le_between (RInt h1 (lo N * t) (lo N)) (1 / 2 * (lo N * Rabs (1 - t)))) as [P1 _].
    pose proof (Rabs_le_between (RInt h2 (hi N) (hi N * t)) (lo N * Rabs (1 - / t))) as [P2 _].
    specialize (P1 S1). specialize (P2 S2). unfold K. lra.
  - replace (Finite (ln t)) with (Finite (ln t + - K * 0)) by (f_equal; ring).
    apply is_lim_seq_plus'; [apply is_lim_seq_const|]. apply is_lim_seq_mult'; [apply is_lim_seq_const|apply lo_lim].
  - replace (Finite (ln t)) with (Finite (ln t + K * 0)) by (f_equal; ring).
    apply is_lim_seq_plus'; [apply is_lim_seq_const|]. apply is_lim_seq_mult'; [apply is_lim_seq_const|apply lo_lim].
Qed.

(** -(1 - exp(-s t))/s^2 integrates to -t RInt h2 (a t) (b t) *)
Lemma tps_is : forall t a b, 0 <= t -> 0 < a -> 0 < b -> is_RInt (fun s => / (s * s) * (exp (- s * t) - 1)) a b (- (t * RInt h2 (a * t) (b * t))).
Proof.
  intros t a b Ht Ha Hb. destruct Ht as [Ht|<-].
  - apply (is_RInt_ext (fun s => opp (scal t (scal t (h2 (t * s + 0)))))).
    + intros s Hs. assert (0 < s) by (unfold Rmin in Hs; destruct (Rle_dec a b); lra). unfold opp, scal; simpl; unfold mult; simpl.
      unfold h2. rewrite Rplus_0_r. replace (- s * t) with (- (t * s)) by ring. field. lra.
    + apply (@is_RInt_opp R_NormedModule). apply (@is_RInt_scal R_NormedModule). apply (@is_RInt_comp_lin R_NormedModule h2 t 0 a b).
      rewrite !Rplus_0_r, !(Rmult_comm t). apply (@RInt_correct R_CompleteNormedModule). apply h2_ex; apply Rmult_lt_0_compat; assumption.
  - apply (is_RInt_ext (fun s => 0)); [intros s Hs; rewrite Rmult_0_r, exp_0, Rminus_diag_eq by reflexivity; symmetry; apply Rmult_0_r|].
    replace (- (0 * RInt h2 (a * 0) (b * 0))) with (scal (b - a) 0); [apply (@is_RInt_const R_NormedModule)|].
    rewrite Rmult_0_l, Ropp_0. apply Rmult_0_r.
Qed.

Theorem tps_cpd : 0 <= qf n w (fun i j => sqd dim x i j * ln (sqd dim x i j)).
Proof using w0 w1.
  set (t := fun i j => sqd dim x i j). change (fun i j => sqd dim x i j * ln (sqd dim x i j)) with (fun i j => t i j * ln (t i j)).
  assert (T0 : forall i j, 0 <= t i j) by (intros; apply sqd_nonneg).
  assert (QT : qf n w t = 0) by exact (@qf_sqd dim n x w w0 w1).
  assert (Q1 : forall c, qf n w (fun _ _ => c) = 0).
  { intros c. rewrite (@qf_ext n w _ (fun _ _ => c * (1 * 1))) by (intros; ring). rewrite qf_scal, (qf_prod n w (fun _ => 1) (fun _ => 1)).
    rewrite (rsum_ext (n := n) (fun i => w i * 1) w) by (intros; ring). rewrite w0. ring. }
  assert (L : is_lim_seq (fun N => qf n w (fun i j => t i j * (RInt h2 (lo N) (hi N) - RInt h2 (lo N * t i j) (hi N * t i j)))) (qf n w (fun i j => t i j * ln (t i j)))).
  { apply qf_lim. intros i j _ _. destruct (T0 i j) as [H|H].
    - apply is_lim_seq_mult'; [apply is_lim_seq_const|apply tps_lim; exact H].
    - rewrite <- H. apply (is_lim_seq_ext (fun _ => 0)); [intros N; ring|]. rewrite Rmult_0_l. apply is_lim_seq_const. }
  refine (is_lim_seq_le (fun _ => 0) _ 0 _ _ (is_lim_seq_const 0) L).
  intros N. destruct (lohi N) as [[L1 L2] H1].
  replace (qf n w (fun i j => t i j * (RInt h2 (lo N) (hi N) - RInt h2 (lo N * t i j) (hi N * t i j))))
     with (qf n w (fun i j => - (t i j * RInt h2 (lo N * t i j) (hi N * t i j)))).
  2:{ rewrite (@qf_ext n w (fun i j => t i j * (RInt h2 (lo N) (hi N) - RInt h2 (lo N * t i j) (hi N * t i j)))
        (fun i j => RInt h2 (lo N) (hi N) * t i j + - (t i j * RInt h2 (lo N * t i j) (hi N * t i j)))) by (intros; ring).
      rewrite qf_plus, qf_scal. change (fun i j => t i j) with t. rewrite QT. ring. }
  assert (I : is_RInt (fun s => qf n w (fun i j => / (s * s) * (exp (- s * t i j) - 1))) (lo N) (hi N)
     (qf n w (fun i j => - (t i j * RInt h2 (lo N * t i j) (hi N * t i j))))).
  { apply (@qf_is_RInt n w (fun i j s => / (s * s) * (exp (- s * t i j) - 1))). intros i j _ _. apply tps_is; [apply T0|exact L1|lra]. }
  refine (is_RInt_le (fun _ => 0) _ _ _ _ _ _ _ I _); [lra| |].
  - pose proof (@is_RInt_const R_NormedModule (lo N) (hi N) 0) as Q. unfold scal in Q. simpl in Q. unfold mult in Q. simpl in Q. rewrite Rmult_0_r in Q. exact Q.
  - intros s Hs. rewrite (@qf_ext n w _ (fun i j => / (s * s) * exp (- s * t i j) + - / (s * s))) by (intros; ring).
    rewrite qf_plus, Q1, Rplus_0_r, qf_scal. apply Rmult_le_pos; [apply Rlt_le, Rinv_0_lt_compat; nra|].
    apply gauss_psd. lra.
Qed.
End TPS.
