(** * C48: predict_deriv is the gradient of predict *)
From Coq Require Import List Arith ZArith Lia Bool Reals Lra.
From Coquelicot Require Import Coquelicot.
From Verif Require Import Base Box Design Lin LinProofs RBF RBFProofs RBFFit PropBox PropRBF PropSurr.
Import ListNotations.

Set Implicit Arguments.
Local Open Scope R_scope.

(** ** Calculus *)
Lemma rsum_derive : forall n (f : nat -> R -> R) (g : nat -> R) x, (forall i, (i < n)%nat -> is_derive (f i) x (g i)) ->
  is_derive (fun t => rsum n (fun i => f i t)) x (rsum n g).
Proof.
  induction n as [|n IH]; intros f g x H; simpl.
  - apply (is_derive_const (V := R_NormedModule)).
  - apply (is_derive_plus (V := R_NormedModule)); [apply IH; intros i Hi; apply H; lia|apply H; lia].
Qed.

(** derivative 0 at a point where the function is constant up to second order *)
Lemma derive_flat : forall f C, 0 <= C -> (forall t, Rabs t <= 1 -> Rabs (f t - f 0) <= C * (t * t)) -> is_derive f 0 0.
Proof.
  intros f C HC H. apply is_derive_Reals. intros e He.
  assert (P : 0 < Rmin 1 (e / (C + 1))) by (apply Rmin_pos; [lra|apply Rdiv_lt_0_compat; lra]).
  exists (mkposreal _ P). intros t Ht Hd. simpl in Hd. rewrite Rplus_0_l, Rminus_0_r.
  assert (T1 : Rabs t <= 1) by (pose proof (Rmin_l 1 (e / (C + 1))); lra).
  assert (T2 : Rabs t < e / (C + 1)) by (pose proof (Rmin_r 1 (e / (C + 1))); lra).
  pose proof (Rabs_pos_lt _ Ht) as TP. unfold Rdiv. rewrite Rabs_mult, Rabs_inv.
  apply Rmult_lt_reg_r with (Rabs t); [exact TP|]. rewrite Rmult_assoc, Rinv_l, Rmult_1_r by lra.
  eapply Rle_lt_trans; [apply H; exact T1|]. replace (t * t) with (Rabs t * Rabs t) by (rewrite <- Rabs_mult; apply Rabs_right; nra).
  rewrite <- Rmult_assoc. apply Rmult_lt_compat_r; [exact TP|].
  assert (E : (C + 1) * (e / (C + 1)) = e) by (field; lra). nra.
Qed.

Lemma sqdist_rsum : forall n x y, length x = n -> length y = n -> sqdist x y = rsum n (fun d => (nth d x 0 - nth d y 0) * (nth d x 0 - nth d y 0)).
Proof.
  induction n as [|n IH]; intros [|a x] [|b y] HX HY; simpl in *; try lia; [reflexivity|].
  rewrite (IH x y) by lia. pose proof (rsum_head n (fun d => (nth d (a :: x) 0 - nth d (b :: y) 0) * (nth d (a :: x) 0 - nth d (b :: y) 0))) as E.
  simpl in E. rewrite E. reflexivity.
Qed.
Lemma rsum_nonneg : forall n f, (forall i, (i < n)%nat -> 0 <= f i) -> 0 <= rsum n f.
Proof. induction n as [|n IH]; intros f H; simpl; [lra|]. specialize (IH f (fun i Hi => H i ltac:(lia))). specialize (H n ltac:(lia)). lra. Qed.
Lemma rsum_zero_terms : forall n f, (forall i, (i < n)%nat -> 0 <= f i) -> rsum n f = 0 -> forall i, (i < n)%nat -> f i = 0.
Proof.
  induction n as [|n IH]; intros f H E i Hi; [lia|]. simpl in E. pose proof (@rsum_nonneg n f (fun j Hj => H j ltac:(lia))). pose proof (H n ltac:(lia)).
  destruct (Nat.eq_dec i n) as [->|]; [lra|]. apply IH; [intros j Hj; apply H; lia|lra|lia].
Qed.

Lemma sq_nonneg : forall a, 0 <= a * a.
Proof. intros a. nra. Qed.

Lemma eps_pos : 0 < eps.
Proof. unfold eps. apply Rinv_0_lt_compat. apply pow_lt. lra. Qed.

(** Where the derivative of the kernel term is computed exactly: for the cubic kernel at distance 0
    or at least eps from the center, for the thin-plate spline at distance 0 or above eps, for
    the linear kernel (which has a kink at the center) at distance at least eps. *)
Definition smooth_at (K : kernel) (r : R) : Prop :=
  match K with CubicKernel => r = 0 \/ eps <= r | TPSKernel => r = 0 \/ eps < r | LinearKernel => eps <= r end.

(** phi(sqrt(q(t))) for q(t) = r^2 + 2 p t + s t^2 >= 0 *)
Lemma kernel_derive : forall K r p s, 0 <= r -> 0 <= s -> (r = 0 -> p = 0) -> (forall t, 0 <= r * r + 2 * p * t + s * (t * t)) -> smooth_at K r ->
  is_derive (fun t => k_eval K (sqrt (r * r + 2 * p * t + s * (t * t)))) 0 (p * (k_deriv K (clip_eps r) / clip_eps r)).
Proof.
  intros K r p s Hr Hs Hp Hq HK. pose proof eps_pos as EP.
  destruct (Req_dec r 0) as [Z|NZ].
  - rewrite (Hp Z), Rmult_0_l. destruct K; cbn [smooth_at] in HK; [| lra |].
    + (* cubic *)
      apply derive_flat with (C := sqrt s * sqrt s * sqrt s); [apply Rmult_le_pos; [apply Rmult_le_pos; apply sqrt_pos|apply sqrt_pos]|].
      intros t Ht. cbn [k_eval]. rewrite Z. replace (0 * 0 + 2 * 0 * t + s * (t * t)) with (s * (t * t)) by ring.
      replace (0 * 0 + 2 * 0 * 0 + s * (0 * 0)) with 0 by ring. rewrite sqrt_0.
      replace (0 ^ 3) with 0 by ring. rewrite Rminus_0_r. rewrite sqrt_mult by nra.
      replace (sqrt (t * t)) with (Rabs t) by (symmetry; apply sqrt_Rsqr_abs).
      pose proof (Rabs_pos t) as AP. pose proof (sqrt_pos s) as SP. rewrite Rabs_right; [|apply Rle_ge; apply pow_le; nra].
      replace (t * t) with (Rabs t * Rabs t) by (rewrite <- Rabs_mult; apply Rabs_right; nra).
      replace ((sqrt s * Rabs t) ^ 3) with (sqrt s * sqrt s * sqrt s * (Rabs t * Rabs t) * Rabs t) by ring.
      rewrite <- (Rmult_1_r (sqrt s * sqrt s * sqrt s * (Rabs t * Rabs t))) at 2. apply Rmult_le_compat_l; [|exact Ht].
      apply Rmult_le_pos; [apply Rmult_le_pos; [apply Rmult_le_pos|]|]; nra.
    + (* thin-plate spline: constant near the center *)
      apply (is_derive_ext_loc (fun _ => eps ^ 2 * ln eps)); [|apply (is_derive_const (V := R_NormedModule))].
      assert (PP : 0 < eps / (sqrt s + 1)) by (apply Rdiv_lt_0_compat; [exact EP|pose proof (sqrt_pos s); lra]).
      exists (mkposreal _ PP). intros t Ht. unfold ball in Ht; simpl in Ht; unfold AbsRing_ball, abs, minus, plus, opp in Ht; simpl in Ht.
      rewrite Ropp_0, Rplus_0_r in Ht. cbn [k_eval]. rewrite Z. replace (0 * 0 + 2 * 0 * t + s * (t * t)) with (s * (t * t)) by ring.
      rewrite sqrt_mult by nra. replace (sqrt (t * t)) with (Rabs t) by (symmetry; apply sqrt_Rsqr_abs).
      assert (L : sqrt s * Rabs t < eps).
      { pose proof (sqrt_pos s) as SP. pose proof (Rabs_pos t). apply Rle_lt_trans with ((sqrt s + 1) * Rabs t); [nra|].
        replace eps with ((sqrt s + 1) * (eps / (sqrt s + 1))) by (field; lra). apply Rmult_lt_compat_l; lra. }
      unfold clip_eps. destruct Rlt_dec; [reflexivity|lra].
  - assert (RP : 0 < r) by lra.
    assert (CE : clip_eps r = r). { unfold clip_eps. destruct Rlt_dec; [|reflexivity]. destruct K; cbn [smooth_at] in HK; lra. }
    rewrite CE.
    assert (D : is_derive (fun t => sqrt (r * r + 2 * p * t + s * (t * t))) 0 (p / r)).
    { auto_derive; [nra|]. rewrite !Rmult_0_r, !Rplus_0_r. rewrite sqrt_square by lra. field. lra. }
    assert (S0 : sqrt (r * r + 2 * p * 0 + s * (0 * 0)) = r). { rewrite !Rmult_0_r, !Rplus_0_r. apply sqrt_square. lra. }
    destruct K; cbn [smooth_at] in HK; cbn [k_eval k_deriv].
    + assert (DK : is_derive (fun y => y ^ 3) (sqrt (r * r + 2 * p * 0 + s * (0 * 0))) (3 * r ^ 2)).
      { rewrite S0. auto_derive; [exact I|]. simpl. ring. }
      pose proof (@is_derive_comp R_AbsRing R_NormedModule (fun y => y ^ 3) _ 0 _ _ DK D) as H.
      replace (p * (3 * r ^ 2 / r)) with (scal (p / r) (3 * r ^ 2)); [exact H|]. unfold scal; simpl; unfold mult; simpl. field. lra.
    + replace (p * (1 / r)) with (p / r) by (field; lra). exact D.
    + rewrite CE.
      apply (is_derive_ext_loc (fun t => sqrt (r * r + 2 * p * t + s * (t * t)) ^ 2 * ln (sqrt (r * r + 2 * p * t + s * (t * t))))).
      * assert (CT : continuous (fun t => sqrt (r * r + 2 * p * t + s * (t * t))) 0) by (apply (ex_derive_continuous (V := R_NormedModule)); eexists; exact D).
        assert (RE : eps < r) by lra.
        assert (PP : 0 < r - eps) by lra.
        specialize (CT (ball (sqrt (r * r + 2 * p * 0 + s * (0 * 0))) (mkposreal _ PP)) (locally_ball _ _)).
        unfold filtermap in CT. eapply filter_imp; [|exact CT]. intros t Ht. unfold ball in Ht; simpl in Ht; unfold AbsRing_ball, abs, minus, plus, opp in Ht; simpl in Ht.
        rewrite S0 in Ht. unfold clip_eps. destruct Rlt_dec as [L|L]; [|reflexivity]. exfalso.
        rewrite Rabs_left in Ht; lra.
      * assert (DK : is_derive (fun y => y ^ 2 * ln y) (sqrt (r * r + 2 * p * 0 + s * (0 * 0))) (r * (1 + 2 * ln r))).
        { rewrite S0. auto_derive; [exact RP|]. simpl. field. lra. }
        pose proof (@is_derive_comp R_AbsRing R_NormedModule (fun y => y ^ 2 * ln y) _ 0 _ _ DK D) as H.
        replace (p * (r * (1 + 2 * ln r) / r)) with (scal (p / r) (r * (1 + 2 * ln r))); [exact H|]. unfold scal; simpl; unfold mult; simpl. field. lra.
Qed.

(** ** The gradient *)
(** the point x + t v *)
Definition along (dim : nat) (x v : pt) (t : R) : pt := of_fun dim (fun d => nth d x 0 + t * nth d v 0).
(** [g] is the gradient of [F] at [x]: every directional derivative is the inner product with [g]. *)
Definition gradient (dim : nat) (F : pt -> R) (x g : pt) : Prop :=
  length g = dim /\ forall v, length v = dim -> is_derive (fun t => F (along dim x v t)) 0 (rsum dim (fun d => nth d g 0 * nth d v 0)).

Section Grad.
Variable dim : nat.
Variables lb ub : pt.
Hypothesis B : bounds dim lb ub.
Variable K : kernel.
Variable T : tail.
Hypothesis HT : t_dim T = dim.
Variable eta : R.
Variable out : list R -> list R.

Notation ntail := (t_dim_tail T).

(** entry [e] of predict_deriv in terms of the data and coefficients *)
Definition grad_value (d : list (pt * R)) (l w : nat -> R) (x : pt) (e : nat) : R :=
  let u := to_unit x lb ub in
  let ds i := clip_eps (edist (unit_pt lb ub d i) u) in
  (rsum ntail (fun j => t_deriv T e j * l j) +
   rsum (length d) (fun i => (nth e u 0 - nth e (unit_pt lb ub d i) 0) * (k_deriv K (ds i) * w i / ds i))) / (nth e ub 0 - nth e lb 0).

Lemma along_unit : forall x v t e, length x = dim -> (e < dim)%nat ->
  nth e (to_unit (along dim x v t) lb ub) 0 = nth e (to_unit x lb ub) 0 + t * (nth e v 0 / (nth e ub 0 - nth e lb 0)).
Proof using B.
  intros x v t e HX He. rewrite (to_unit_nth B) by (exact He || apply of_fun_len). rewrite (to_unit_nth B) by assumption.
  unfold along. rewrite of_fun_nth by exact He. pose proof (proj2 (proj2 B) e He). field. lra.
Qed.

Lemma rbf_value_derive : forall d l w x v, length x = dim -> (forall y f, In (y, f) d -> length y = dim) ->
  (forall i, (i < length d)%nat -> smooth_at K (edist (to_unit x lb ub) (unit_pt lb ub d i))) ->
  is_derive (fun t => rbf_value lb ub K T d l w (along dim x v t)) 0 (rsum dim (fun e => grad_value d l w x e * nth e v 0)).
Proof using B HT.
  intros d l w x v HX HD HS.
  set (u := to_unit x lb ub). set (v' := fun e => nth e v 0 / (nth e ub 0 - nth e lb 0)).
  assert (LU : length u = dim) by (apply (to_unit_len B); exact HX).
  assert (LP : forall i, (i < length d)%nat -> length (unit_pt lb ub d i) = dim).
  { intros i Hi. unfold unit_pt. apply (to_unit_len B). apply (HD _ (snd (nth i d (([] : pt), 0)))). rewrite <- surjective_pairing. apply nth_In. exact Hi. }
  assert (TAIL : is_derive (fun t => rsum ntail (fun j => l j * nth j (t_eval T (to_unit (along dim x v t) lb ub)) 0)) 0
    (rsum dim (fun e => rsum ntail (fun j => t_deriv T e j * l j) * v' e))).
  { destruct T as [dm|dm]; cbn [t_dim] in HT; subst dm; cbn [t_dim_tail t_eval t_deriv].
    - cbn [rsum nth]. apply (is_derive_ext (fun _ => 0 + l 0%nat * 1)); [reflexivity|].
      rewrite (rsum_0 (n := dim)); [apply (is_derive_const (V := R_NormedModule))|]. intros e He. unfold zero. ring.
    - apply (is_derive_ext (fun t => l 0%nat * 1 + rsum dim (fun e => l (S e) * (nth e u 0 + t * v' e)))).
      { intros t. change (1 + dim)%nat with (S dim). rewrite rsum_head. cbn [nth]. f_equal. apply rsum_ext. intros e He. rewrite along_unit by assumption. reflexivity. }
      replace (rsum dim (fun e => rsum (1 + dim) (fun j => hstack 1 zero eye e j * l j) * v' e)) with (0 + rsum dim (fun e => l (S e) * v' e)).
      + apply (is_derive_plus (V := R_NormedModule)); [apply (is_derive_const (V := R_NormedModule))|].
        apply rsum_derive. intros e He. auto_derive; [exact I|]. ring.
      + rewrite Rplus_0_l. apply rsum_ext. intros e He. f_equal. rewrite (@rsum_one (1 + dim) _ (S e)); [|lia|].
        * unfold hstack, eye. destruct (Nat.ltb_spec (S e) 1); [lia|]. replace (S e - 1)%nat with e by lia. rewrite Nat.eqb_refl. ring.
        * intros j Hj Hn. unfold hstack, zero, eye. destruct (Nat.ltb_spec j 1); [ring|]. destruct (Nat.eqb_spec e (j - 1)); [lia|ring]. }
  assert (DATA : forall i, (i < length d)%nat -> is_derive (fun t => w i * k_eval K (edist (to_unit (along dim x v t) lb ub) (unit_pt lb ub d i))) 0
    (w i * (rsum dim (fun e => (nth e u 0 - nth e (unit_pt lb ub d i) 0) * v' e) *
      (k_deriv K (clip_eps (edist u (unit_pt lb ub d i))) / clip_eps (edist u (unit_pt lb ub d i)))))).
  { intros i Hi. set (c := unit_pt lb ub d i) in *. assert (LC : length c = dim) by (apply LP; exact Hi).
    set (r := edist u c). set (p := rsum dim (fun e => (nth e u 0 - nth e c 0) * v' e)). set (s := rsum dim (fun e => v' e * v' e)).
    assert (SQ : r * r = sqdist u c).
    { unfold r, edist. apply sqrt_sqrt. rewrite (sqdist_rsum _ _ LU LC). apply rsum_nonneg. intros e He. apply sq_nonneg. }
    assert (Q : forall t, sqdist (to_unit (along dim x v t) lb ub) c = r * r + 2 * p * t + s * (t * t)).
    { intros t. rewrite SQ. rewrite (@sqdist_rsum dim _ c); [|apply (to_unit_len B); apply of_fun_len|exact LC].
      rewrite (sqdist_rsum _ _ LU LC). unfold p, s. rewrite <- (rsum_scal dim 2), <- !rsum_scal_r, <- !rsum_plus. apply rsum_ext.
      intros e He. rewrite along_unit by assumption. fold u. change (nth e v 0 / (nth e ub 0 - nth e lb 0)) with (v' e). ring. }
    apply (is_derive_scal (fun t => k_eval K (edist (to_unit (along dim x v t) lb ub) c)) 0 (w i)).
    apply (is_derive_ext (fun t => k_eval K (sqrt (r * r + 2 * p * t + s * (t * t))))).
    { intros t. unfold edist. rewrite Q. reflexivity. }
    apply kernel_derive.
    - apply sqrt_pos.
    - apply rsum_nonneg. intros e He. apply sq_nonneg.
    - intros Z. unfold p. apply rsum_0. intros e He. rewrite Z, Rmult_0_r, (sqdist_rsum _ _ LU LC) in SQ.
      assert (NN : forall e, (e < dim)%nat -> 0 <= (nth e u 0 - nth e c 0) * (nth e u 0 - nth e c 0)) by (intros; apply sq_nonneg).
      pose proof (@rsum_zero_terms dim (fun e => (nth e u 0 - nth e c 0) * (nth e u 0 - nth e c 0)) NN (eq_sym SQ) e He) as E. cbv beta in E.
      assert (nth e u 0 - nth e c 0 = 0) by nra. rewrite H. ring.
    - intros t. rewrite <- Q. rewrite (@sqdist_rsum dim _ c); [|apply (to_unit_len B); apply of_fun_len|exact LC]. apply rsum_nonneg. intros e He. apply sq_nonneg.
    - apply HS. exact Hi. }
  pose proof (rsum_derive _ _ DATA) as DS.
  pose proof (is_derive_plus (V := R_NormedModule) _ _ _ _ _ DS TAIL) as TOT. unfold plus in TOT; simpl in TOT.
  replace (rsum dim (fun e => grad_value d l w x e * nth e v 0)) with
    (rsum (length d) (fun i => w i * (rsum dim (fun e => (nth e u 0 - nth e (unit_pt lb ub d i) 0) * v' e) *
      (k_deriv K (clip_eps (edist u (unit_pt lb ub d i))) / clip_eps (edist u (unit_pt lb ub d i))))) +
     rsum dim (fun e => rsum ntail (fun j => t_deriv T e j * l j) * v' e)); [exact TOT|].
  rewrite (rsum_ext (n := length d) _ (fun i => rsum dim (fun e => (nth e u 0 - nth e (unit_pt lb ub d i) 0) *
    (k_deriv K (clip_eps (edist (unit_pt lb ub d i) u)) * w i / clip_eps (edist (unit_pt lb ub d i) u)) * v' e))).
  2:{ intros i Hi. rewrite (edist_sym (unit_pt lb ub d i) u), <- rsum_scal_r, <- rsum_scal. apply rsum_ext. intros e He. unfold Rdiv. ring. }
  rewrite rsum_swap, <- rsum_plus. apply rsum_ext. intros e He. unfold grad_value. cbv zeta. fold u. rewrite rsum_scal_r. unfold v', Rdiv.
  assert (AL : forall a b c z : R, a * (c * z) + b * (c * z) = (b + a) * z * c) by (intros; ring). apply AL.
Qed.

(** predict_deriv on a state without failed fits *)
Lemma deriv_answer : forall h c x, length x = dim -> ~ failed dim lb ub K T eta out h ->
  (forall y, answer dim lb ub K T eta out h y = Ok (rbf_value lb ub K T (contents dim h) (fun j => nth j c 0) (fun i => nth (ntail + i) c 0) y)
     /\ r_c (run dim lb ub K T eta out (h ++ [Predict y])) = Some c) ->
  answer_deriv dim lb ub K T eta out h x =
    Ok (map (grad_value (contents dim h) (fun j => nth j c 0) (fun i => nth (ntail + i) c 0) x) (seq 0 dim)).
Proof using.
  intros h c x HX NF HA. destruct (HA x) as [A1 A2]. rewrite run_snoc in A2. cbn [step] in A2. rewrite predict_fit in A2.
  destruct (run_inv dim lb ub K T eta out h) as [I [RX [RF [[G _]|[_ FF]]]]]; [|contradiction].
  pose proof (fit_spec I G) as S. unfold answer, predict in A1. unfold answer_deriv, predict_deriv.
  destruct (fit K T eta out (run dim lb ub K T eta out h)) as [s' r]. cbn [fst] in A2. destruct S as [SD [I' S]].
  destruct r as [z|e]; [|discriminate A1]. rewrite A2. cbn [snd]. f_equal. apply map_ext. intros e.
  assert (RX' : u_X (r_s s') = map fst (contents dim h)) by (destruct SD as [_ [-> _]]; exact RX).
  unfold deriv_at, grad_value. rewrite (@num_d lb ub K T eta out s' (contents dim h) I' RX'). f_equal. f_equal. apply rsum_ext. intros i Hi.
  rewrite (@row_d lb ub K T eta out s' (contents dim h) I' RX' i Hi). f_equal. ring.
Qed.

(** C48: whenever predict works, predict_deriv returns the gradient of the function computed by
    predict, at every point that is admissible for the kernel ([smooth_at]). *)
Theorem C48_gradient : forall h, ~ failed dim lb ub K T eta out h -> forall x v, length x = dim ->
  answer dim lb ub K T eta out h x = Ok v ->
  (forall y f, In (y, f) (contents dim h) -> smooth_at K (edist (to_unit x lb ub) (to_unit y lb ub))) ->
  exists F g, (forall y, answer dim lb ub K T eta out h y = Ok (F y)) /\
    answer_deriv dim lb ub K T eta out h x = Ok g /\ gradient dim F x g.
Proof using B HT.
  intros h NF x v HX HV HS. destruct (C46_predict NF) as [[_ A]|[[_ [_ A]]|[_ [_ [c [_ [_ A]]]]]]]; try (rewrite A in HV; discriminate HV).
  exists (rbf_value lb ub K T (contents dim h) (fun j => nth j c 0) (fun i => nth (ntail + i) c 0)).
  exists (map (grad_value (contents dim h) (fun j => nth j c 0) (fun i => nth (ntail + i) c 0) x) (seq 0 dim)).
  split; [intros y; apply A|]. split; [apply deriv_answer; assumption|]. split; [rewrite map_length; apply seq_length|].
  intros vv Hvv. pose proof (@rbf_value_derive (contents dim h) (fun j => nth j c 0) (fun i => nth (ntail + i) c 0) x vv HX) as D.
  rewrite (rsum_ext (n := dim) _ (fun e => grad_value (contents dim h) (fun j => nth j c 0) (fun i => nth (ntail + i) c 0) x e * nth e vv 0)).
  - apply D; [intros y f Hy; eapply contents_dim; exact Hy|]. intros i Hi. unfold unit_pt.
    apply (HS _ (snd (nth i (contents dim h) (([] : pt), 0)))). rewrite <- surjective_pairing. apply nth_In. exact Hi.
  - intros e He. f_equal. change (map (grad_value (contents dim h) (fun j => nth j c 0) (fun i => nth (ntail + i) c 0) x) (seq 0 dim)) with
      (of_fun dim (grad_value (contents dim h) (fun j => nth j c 0) (fun i => nth (ntail + i) c 0) x)). apply of_fun_nth. exact He.
Qed.
End Grad.

(** The hypotheses hold for the three-point surrogate of PropSurr.v at 1/4 and at the data points. *)
Example ex_C48 : exists F g, (forall y, answer 1 [0] [1] CubicKernel (LinearTail 1) 0 identity h3 y = Ok (F y)) /\
  answer_deriv 1 [0] [1] CubicKernel (LinearTail 1) 0 identity h3 [/4] = Ok g /\ gradient 1 F [/4] g.
Proof.
  assert (BB : bounds 1 [0] [1]). { split; [reflexivity|]. split; [reflexivity|]. intros [|i] Hi; [simpl; lra|lia]. }
  assert (exists v, answer 1 [0] [1] CubicKernel (LinearTail 1) 0 identity h3 [/4] = Ok v) as [v V].
  { destruct (C46_predict h3_ok) as [[L _]|[[_ [NR _]]|[_ [_ [c [_ [_ A]]]]]]].
    - rewrite h3_contents in L. simpl in L. lia.
    - exfalso. apply NR. rewrite h3_contents. apply regular_d3.
    - eexists. apply (A [/4]). }
  apply (@C48_gradient 1 [0] [1] BB CubicKernel (LinearTail 1) eq_refl 0 identity h3 h3_ok [/4] v eq_refl V).
  rewrite h3_contents. intros y f Hy. cbn [smooth_at]. right.
  assert (E4 : eps <= /4). { unfold eps. apply Rinv_le_contravar; [lra|]. replace 4 with (2 ^ 2) by (simpl; lra). apply Rle_pow; [lra|lia]. }
  simpl in Hy. destruct Hy as [Hy|[Hy|[Hy|[]]]]; injection Hy as <- <-; unfold to_unit; cbn [map3]; rewrite edist1.
  - replace ((/ 4 - 0) / (1 - 0) - (0 - 0) / (1 - 0)) with (/4) by field. rewrite Rabs_right; lra.
  - replace ((/ 4 - 0) / (1 - 0) - (1 - 0) / (1 - 0)) with (- (3/4)) by field. rewrite Rabs_Ropp, Rabs_right; lra.
  - replace ((/ 4 - 0) / (1 - 0) - (/ 2 - 0) / (1 - 0)) with (- (/4)) by field. rewrite Rabs_Ropp, Rabs_right; lra.
Qed.
Print Assumptions C48_gradient.
