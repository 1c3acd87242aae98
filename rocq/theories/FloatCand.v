(** * Candidate points in IEEE double arithmetic (candidate_srbf.py:102-113,
    candidate_dycors.py:68-86, candidate_uniform.py:43-45).

    scipy's [truncnorm.rvs(a, b, loc, scale)] returns [z * scale + loc] for a draw [z] of the standard
    normal distribution restricted to [a, b]; numpy's [uniform(low, high)] returns
    [low + (high - low) * u] for a [u] with 53 random bits, so u <= 1 - 2^-53.  Both are computed
    in doubles; the draws themselves are arbitrary inputs here. *)
From Coq Require Import List Arith ZArith Lia Bool Reals Lra Psatz.
From Flocq Require Import Core BinarySingleNaN Plus_error Relative.
From Verif Require Import Base FloatBox.
Import ListNotations.
Local Open Scope R_scope.

(** scalefactors[i], candidate_srbf.py:102 (candidate_dycors.py:63): sampling_radius * (ub - lb),
    a continuous coordinate *)
Definition scale_f (r lb ub : b64) : b64 := fmul r (fsub ub lb).
(** the standardized limits a and b passed to truncnorm, candidate_srbf.py:112
    (candidate_dycors.py:85): (bound - xbest) / sigma *)
Definition lim_f (bound xb sigma : b64) : b64 := fdiv (fsub bound xb) sigma.
(** the value truncnorm.rvs returns for the standardized draw z, loc = xbest, scale = sigma,
    candidate_srbf.py:111-113 (candidate_dycors.py:84-86) *)
Definition cand_f (xb sigma z : b64) : b64 := fadd (fmul z sigma) xb.

(** One coordinate of np.random.uniform(lb, ub), candidate_uniform.py:45 and
    random_strategy.py:34, for the draw u. *)
Definition unif_f (lb ub u : b64) : b64 := fadd lb (fmul (fsub ub lb) u).

(** np.maximum(lb, .) and np.minimum(ub, .) of the mutated population of the genetic algorithm,
    utils.py:350-351, for an entry that is not NaN (infinities are allowed). *)
Definition clip_f (lb ub v : b64) : b64 :=
  let w := if Bltb lb v then v else lb in
  if Bltb w ub then w else ub.

(** A draw truncnorm may return: a finite double between the two limits. *)
(** Specification, no counterpart in /repo. *)
Definition legal_draw (lb ub xb sigma z : b64) : Prop :=
  fin z /\ fin (lim_f lb xb sigma) /\ fin (lim_f ub xb sigma) /\
  val (lim_f lb xb sigma) <= val z <= val (lim_f ub xb sigma).


(** ** Values of the operations *)
Lemma fdiv_val : forall x y, fin x -> val y <> 0 -> fin (fdiv x y) -> val (fdiv x y) = rnd (val x / val y).
Proof.
  intros x y Fx Hy F. unfold fdiv in *. pose proof (Bdiv_correct prec emax _ _ mode_NE x y Hy) as H.
  destruct (Rlt_bool _ _); [apply H|]. apply ovf_not_fin in H. congruence.
Qed.
Lemma fadd_fin_l : forall x y, fin y -> fin (fadd x y) -> fin x.
Proof. intros [[]|[]| |[] ? ? ?] [[]|[]| |[] ? ? ?] F H; simpl in *; try reflexivity; discriminate. Qed.
Lemma fdiv_fin_l : forall x y, fin y -> fin (fdiv x y) -> fin x.
Proof. intros [[]|[]| |[] ? ? ?] [[]|[]| |[] ? ? ?] F H; simpl in *; try reflexivity; discriminate. Qed.

Lemma lim_val : forall bd xb s, fin bd -> fin xb -> fin s -> val s <> 0 -> fin (lim_f bd xb s) ->
  val (lim_f bd xb s) = rnd (rnd (val bd - val xb) / val s).
Proof.
  intros bd xb s Fb Fx Fs Hs F. unfold lim_f in *. pose proof (fdiv_fin_l _ _ Fs F) as Fd.
  rewrite (fdiv_val _ _ Fd Hs F), (fsub_val _ _ Fb Fx Fd). reflexivity.
Qed.
Lemma cand_val : forall xb s z, fin xb -> fin (cand_f xb s z) ->
  val (cand_f xb s z) = rnd (rnd (val z * val s) + val xb) /\ fin z /\ fin s.
Proof.
  intros xb s z Fx F. unfold cand_f in *. pose proof (fadd_fin_l _ _ Fx F) as Fm.
  destruct (fmul_val _ _ Fm) as [E [Fz Fs]]. rewrite (fadd_val _ _ Fm Fx F), E. auto.
Qed.

(** ** Monotonicity: the extreme candidates are those of the extreme draws *)
Lemma cand_mono : forall xb s z z', fin xb -> 0 <= val s -> fin (cand_f xb s z) -> fin (cand_f xb s z') ->
  val z <= val z' -> val (cand_f xb s z) <= val (cand_f xb s z').
Proof.
  intros xb s z z' Fx Hs F F' H. destruct (cand_val _ _ _ Fx F) as [-> _]. destruct (cand_val _ _ _ Fx F') as [-> _].
  apply rnd_mono, Rplus_le_compat_r, rnd_mono, Rmult_le_compat_r; assumption.
Qed.

(** ** The rounding errors *)
(** Specification, no counterpart in /repo: the unit roundoff 2^-53. *)
Definition uu : R := bpow radix2 (-53).
(** Specification, no counterpart in /repo: the smallest positive double 2^-1074. *)
Definition tiny : R := bpow radix2 (-1074).

Lemma uu_ro : u_ro radix2 prec / (1 + u_ro radix2 prec) <= uu.
Proof.
  assert (E : u_ro radix2 prec = uu).
  { unfold u_ro, uu. change (- prec + 1)%Z with (-52)%Z. change (/ 2) with (bpow radix2 (-1)).
    rewrite <- bpow_plus. reflexivity. }
  rewrite E. assert (0 < uu) by apply bpow_gt_0.
  unfold Rdiv. rewrite <- (Rmult_1_r uu) at 3. apply Rmult_le_compat_l; [lra|].
  rewrite <- Rinv_1. apply Rinv_le_contravar; lra.
Qed.
Lemma uu_small : 0 < uu <= / 4096.
Proof.
  split; [apply bpow_gt_0|]. unfold uu. change (/ 4096) with (bpow radix2 (-12)). apply bpow_le. discriminate.
Qed.
Lemma tiny_pos : 0 < tiny. Proof. apply bpow_gt_0. Qed.

Lemma rnd_err : forall x, exists e h, Rabs e <= uu /\ Rabs h <= tiny / 2 /\ rnd x = x * (1 + e) + h.
Proof.
  intros x. destruct (relative_error_N_FLT'_ex radix2 (SpecFloat.emin prec emax) prec eq_refl (fun x => negb (Z.even x)) x)
    as [e [h [He [Hh [_ E]]]]].
  exists e, h. split; [apply Rle_trans with (1 := He), uu_ro|]. split; [|exact E].
  unfold tiny. change (SpecFloat.emin prec emax) with (-1074)%Z in Hh. lra.
Qed.
Lemma rnd_err_plus : forall x y, generic_format radix2 fexp x -> generic_format radix2 fexp y ->
  exists e, Rabs e <= uu /\ rnd (x + y) = (x + y) * (1 + e).
Proof.
  intros x y Hx Hy. destruct (FLT_plus_error_N_ex radix2 (SpecFloat.emin prec emax) prec (fun x => negb (Z.even x)) x y Hx Hy)
    as [e [He E]].
  exists e. split; [apply Rle_trans with (1 := He), uu_ro|exact E].
Qed.
Lemma rnd_opp : forall x, rnd (- x) = - rnd x.
Proof. intros. apply round_NE_opp. Qed.
Lemma rnd_fmt : forall x, generic_format radix2 fexp (rnd x).
Proof. intros. apply generic_format_round; auto with typeclass_instances. Qed.

(** three relative errors *)
Lemma err_arith : forall d e1 e2 e3 u, 0 < u <= / 4096 -> Rabs e1 <= u -> Rabs e2 <= u -> Rabs e3 <= u ->
  - (Rabs d * (7 / 2 * u)) <= d - d * (1 + e1) * (1 + e2) * (1 + e3).
Proof.
  intros d e1 e2 e3 u Hu H1 H2 H3. apply Rabs_le_inv in H1. apply Rabs_le_inv in H2. apply Rabs_le_inv in H3.
  assert (A1 : (1 - u) * (1 - u) <= (1 + e1) * (1 + e2) <= (1 + u) * (1 + u)).
  { split; apply Rmult_le_compat; lra. }
  assert (A0 : 0 <= (1 - u) * (1 - u)) by (apply Rmult_le_pos; lra).
  assert (A2 : (1 - u) * (1 - u) * (1 - u) <= (1 + e1) * (1 + e2) * (1 + e3) <= (1 + u) * (1 + u) * (1 + u)).
  { split; apply Rmult_le_compat; lra. }
  assert (A3 : (1 + u) * (1 + u) * (1 + u) <= 1 + 7 / 2 * u) by nra.
  assert (A3' : 1 - 7 / 2 * u <= (1 - u) * (1 - u) * (1 - u)) by nra.
  assert (A4 : Rabs (1 - (1 + e1) * (1 + e2) * (1 + e3)) <= 7 / 2 * u) by (apply Rabs_le; lra).
  assert (K : Rabs (d - d * (1 + e1) * (1 + e2) * (1 + e3)) <= Rabs d * (7 / 2 * u)).
  { replace (d - d * (1 + e1) * (1 + e2) * (1 + e3)) with (d * (1 - (1 + e1) * (1 + e2) * (1 + e3))) by ring.
    rewrite Rabs_mult. apply Rmult_le_compat_l; [apply Rabs_pos|exact A4]. }
  apply Rabs_le_inv in K. lra.
Qed.

Lemma core_lower : forall lb xb s : R, generic_format radix2 fexp lb -> generic_format radix2 fexp xb -> 0 < s ->
  lb - (4 * uu * Rabs (xb - lb) + uu * Rabs lb + (s + 1) * tiny) <=
  rnd (rnd (rnd (rnd (lb - xb) / s) * s) + xb).
Proof.
  intros lb xb s Fl Fx Hs. pose proof uu_small as U. pose proof tiny_pos as T. pose proof (Rabs_pos (xb - lb)) as D0.
  destruct (rnd_err_plus lb (- xb) Fl (generic_format_opp _ _ _ Fx)) as [e1 [H1 E1]].
  change (lb + - xb) with (lb - xb) in E1. rewrite E1.
  destruct (rnd_err ((lb - xb) * (1 + e1) / s)) as [e2 [h2 [H2 [Hh2 E2]]]]. rewrite E2.
  destruct (rnd_err (((lb - xb) * (1 + e1) / s * (1 + e2) + h2) * s)) as [e3 [h3 [H3 [Hh3 E3]]]].
  set (p := rnd (((lb - xb) * (1 + e1) / s * (1 + e2) + h2) * s)) in *.
  assert (Fp : generic_format radix2 fexp p) by apply rnd_fmt.
  destruct (rnd_err_plus p xb Fp Fx) as [e4 [H4 E4]]. rewrite E4.
  assert (Ep : p + xb - lb = ((xb - lb) - (xb - lb) * (1 + e1) * (1 + e2) * (1 + e3)) + (h2 * s * (1 + e3) + h3)).
  { rewrite E3. field. lra. }
  pose proof (err_arith (xb - lb) e1 e2 e3 uu U H1 H2 H3) as A.
  apply Rabs_le_inv in Hh2. apply Rabs_le_inv in Hh3. apply Rabs_le_inv in H3.
  assert (B1 : - (s * (9 / 16 * tiny)) <= h2 * s * (1 + e3)).
  { replace (h2 * s * (1 + e3)) with (s * (h2 * (1 + e3))) by ring.
    apply Rle_trans with (s * (- (9 / 16 * tiny))); [lra|].
    apply Rmult_le_compat_l; [lra|]. nra. }
  set (q := p + xb) in *. set (d := Rabs (xb - lb)) in *.
  assert (Q : lb - (d * (7 / 2 * uu) + s * (9 / 16 * tiny) + tiny / 2) <= q) by lra.
  set (w := d * (7 / 2 * uu) + s * (9 / 16 * tiny) + tiny / 2) in *.
  assert (W0 : 0 <= w).
  { unfold w. assert (0 <= d * (7 / 2 * uu)) by (apply Rmult_le_pos; lra).
    assert (0 <= s * (9 / 16 * tiny)) by (apply Rmult_le_pos; lra). lra. }
  apply Rabs_le_inv in H4.
  assert (Z1 : (lb - w) * (1 + e4) <= q * (1 + e4)) by (apply Rmult_le_compat_r; lra).
  assert (Z2 : lb - uu * Rabs lb <= lb * (1 + e4)).
  { assert (- (uu * Rabs lb) <= lb * e4); [|lra].
    assert (Rabs (lb * e4) <= uu * Rabs lb) as K.
    { rewrite Rabs_mult, Rmult_comm. apply Rmult_le_compat_r; [apply Rabs_pos|]. apply Rabs_le. lra. }
    apply Rabs_le_inv in K. lra. }
  assert (Z3 : w * (1 + e4) <= 9 / 8 * w) by nra.
  assert (Z4 : 9 / 8 * w <= 4 * uu * d + (s + 1) * tiny); [|lra].
  unfold w. assert (0 <= d * uu) by (apply Rmult_le_pos; lra). assert (0 <= s * tiny) by (apply Rmult_le_pos; lra). lra.
Qed.

Lemma core_upper : forall ub xb s : R, generic_format radix2 fexp ub -> generic_format radix2 fexp xb -> 0 < s ->
  rnd (rnd (rnd (rnd (ub - xb) / s) * s) + xb) <=
  ub + (4 * uu * Rabs (ub - xb) + uu * Rabs ub + (s + 1) * tiny).
Proof.
  intros ub xb s Fu Fx Hs.
  pose proof (core_lower (- ub) (- xb) s (generic_format_opp _ _ _ Fu) (generic_format_opp _ _ _ Fx) Hs) as K.
  rewrite Rabs_Ropp in K. replace (- xb - - ub) with (ub - xb) in K by ring.
  replace (- ub - - xb) with (- (ub - xb)) in K by ring. rewrite rnd_opp in K.
  replace (- rnd (ub - xb) / s) with (- (rnd (ub - xb) / s)) in K by (field; lra). rewrite rnd_opp in K.
  rewrite <- Ropp_mult_distr_l, rnd_opp in K.
  replace (- rnd (rnd (rnd (ub - xb) / s) * s) + - xb) with (- (rnd (rnd (rnd (ub - xb) / s) * s) + xb)) in K by ring.
  rewrite rnd_opp in K. lra.
Qed.

(** C75. The candidates of SRBF and DYCORS in doubles stay within a few rounding errors of the
    box, whatever the incumbent and for every draw truncnorm may return: 2^-51 times the distance from
    the incumbent to the bound plus 2^-53 times the bound, plus a term that only matters when the
    numbers underflow ([bpow radix2 k] is 2^k). *)
Theorem C75_candidate_near_box : forall lb ub xb sigma z : b64,
  fin lb -> fin ub -> fin xb -> fin sigma -> 0 < val sigma ->
  legal_draw lb ub xb sigma z -> fin (cand_f xb sigma z) ->
  val lb - (bpow radix2 (-51) * Rabs (val xb - val lb) + bpow radix2 (-53) * Rabs (val lb)
            + (val sigma + 1) * bpow radix2 (-1074)) <= val (cand_f xb sigma z) <=
  val ub + (bpow radix2 (-51) * Rabs (val ub - val xb) + bpow radix2 (-53) * Rabs (val ub)
            + (val sigma + 1) * bpow radix2 (-1074)).
Proof.
  intros lb ub xb s z Fl Fu Fx Fs Hs [Fz [Fa [Fb [L1 L2]]]] F.
  destruct (cand_val _ _ _ Fx F) as [E _]. rewrite E.
  assert (N : val s <> 0) by lra.
  rewrite (lim_val _ _ _ Fl Fx Fs N Fa) in L1. rewrite (lim_val _ _ _ Fu Fx Fs N Fb) in L2.
  assert (E4 : 4 * uu = bpow radix2 (-51)).
  { unfold uu. change 4 with (bpow radix2 2). rewrite <- bpow_plus. reflexivity. }
  rewrite <- E4. fold uu tiny. split.
  - eapply Rle_trans; [apply (core_lower (val lb) (val xb) (val s)); auto using fmt|].
    apply rnd_mono, Rplus_le_compat_r, rnd_mono, Rmult_le_compat_r; lra.
  - eapply Rle_trans; [|apply (core_upper (val ub) (val xb) (val s)); auto using fmt].
    apply rnd_mono, Rplus_le_compat_r, rnd_mono, Rmult_le_compat_r; lra.
Qed.

(** C75. When the incumbent lies on a bound that bound is respected exactly. *)
Theorem C75_incumbent_on_bound : forall lb ub xb sigma z : b64,
  fin lb -> fin ub -> fin xb -> fin sigma -> 0 < val sigma ->
  legal_draw lb ub xb sigma z -> fin (cand_f xb sigma z) ->
  (val xb = val lb -> val lb <= val (cand_f xb sigma z)) /\
  (val xb = val ub -> val (cand_f xb sigma z) <= val ub).
Proof.
  intros lb ub xb s z Fl Fu Fx Fs Hs [Fz [Fa [Fb [L1 L2]]]] F.
  destruct (cand_val _ _ _ Fx F) as [E _]. rewrite E.
  assert (N : val s <> 0) by lra.
  rewrite (lim_val _ _ _ Fl Fx Fs N Fa) in L1. rewrite (lim_val _ _ _ Fu Fx Fs N Fb) in L2. split; intros Q.
  - rewrite <- Q in L1. unfold Rminus in L1. rewrite Rplus_opp_r, rnd_0 in L1. unfold Rdiv in L1. rewrite Rmult_0_l, rnd_0 in L1.
    assert (0 <= rnd (val z * val s)) by (rewrite <- rnd_0; apply rnd_mono, Rmult_le_pos; lra).
    rewrite <- Q, <- (rnd_fix xb) at 1. apply rnd_mono. lra.
  - rewrite <- Q in L2. unfold Rminus in L2. rewrite Rplus_opp_r, rnd_0 in L2. unfold Rdiv in L2. rewrite Rmult_0_l, rnd_0 in L2.
    assert (rnd (val z * val s) <= 0).
    { rewrite <- rnd_0. apply rnd_mono. assert (0 <= - val z * val s) by (apply Rmult_le_pos; lra). lra. }
    rewrite <- Q. rewrite <- (rnd_fix xb) at 2. apply rnd_mono. lra.
Qed.

(** ** Uniform candidates never leave the box *)
Lemma unif_pred : forall x, generic_format radix2 fexp x -> bpow radix2 (-1022) < x ->
  rnd (x * (1 - uu)) <= pred radix2 fexp x.
Proof.
  intros x Fx Hx. pose proof (bpow_gt_0 radix2 (-1022)) as P. pose proof uu_small as U.
  assert (Fp : generic_format radix2 fexp (pred radix2 fexp x)) by (apply generic_format_pred; auto with typeclass_instances).
  assert (Bp : bpow radix2 (-1022) <= pred radix2 fexp x).
  { apply pred_ge_gt; auto with typeclass_instances. apply generic_format_bpow. discriminate. }
  apply round_N_le_midp; auto with typeclass_instances.
  rewrite succ_pred by (auto with typeclass_instances).
  pose proof (pred_plus_ulp radix2 fexp x ltac:(lra) Fx) as E.
  assert (L : ulp radix2 fexp (pred radix2 fexp x) <= pred radix2 fexp x * bpow radix2 (-52)).
  { pose proof (ulp_FLT_le radix2 (SpecFloat.emin prec emax) prec (pred radix2 fexp x)) as K.
    rewrite (Rabs_right (pred radix2 fexp x)) in K by lra. apply K. exact Bp. }
  assert (E2 : bpow radix2 (-52) = 2 * uu).
  { unfold uu. change 2 with (bpow radix2 1). rewrite <- bpow_plus. reflexivity. }
  rewrite E2 in L. pose proof (pred_lt_id radix2 fexp x ltac:(lra)). nra.
Qed.

(** C75. np.random.uniform(lb, ub) stays in the box: the largest draw is 1 - 2^-53, which makes up for
    the rounding of the width (from_unit_box, which is applied to the draw 1, does leave the box:
    C39_upper_refuted). *)
Theorem C75_uniform_in_box : forall lb ub u : b64,
  fin lb -> fin ub -> val lb <= val ub -> 0 <= val u <= 1 - bpow radix2 (-53) -> fin (unif_f lb ub u) ->
  val lb <= val (unif_f lb ub u) <= val ub.
Proof.
  intros lb ub u Fl Fu HB [U0 U1] F. fold uu in U1. pose proof uu_small as US.
  destruct (C39_bounds_partial u lb ub Fl Fu ltac:(lra) HB F) as [[A _] C]. split; [exact A|].
  destruct (Rle_or_lt (val ub - val lb) (bpow radix2 (-1021))) as [S|S].
  - apply C. apply round_generic; [auto with typeclass_instances|].
    apply (FLT_format_plus_small radix2 (SpecFloat.emin prec emax) prec (val ub) (- val lb));
      [apply fmt|apply generic_format_opp, fmt|].
    change (val ub + - val lb) with (val ub - val lb). rewrite Rabs_right by lra. exact S.
  - unfold unif_f in *. pose proof (fadd_fin_r _ _ Fl F) as Fm. destruct (fmul_val _ _ Fm) as [Em [Fd Fx]].
    rewrite (fadd_val _ _ Fl Fm F), Em, (fsub_val _ _ Fu Fl Fd).
    set (d := rnd (val ub - val lb)).
    assert (D : bpow radix2 (-1022) < d).
    { apply Rlt_le_trans with (bpow radix2 (-1021)); [apply bpow_lt; reflexivity|].
      assert (Eb : rnd (bpow radix2 (-1021)) = bpow radix2 (-1021)).
      { apply round_generic; [auto with typeclass_instances|]. apply generic_format_bpow. discriminate. }
      rewrite <- Eb. apply rnd_mono. lra. }
    pose proof (bpow_gt_0 radix2 (-1022)) as P0.
    assert (Fd' : generic_format radix2 fexp d) by apply rnd_fmt.
    assert (P : rnd (d * val u) <= pred radix2 fexp d).
    { apply Rle_trans with (rnd (d * (1 - uu))); [|apply unif_pred; assumption].
      apply rnd_mono, Rmult_le_compat_l; lra. }
    assert (Q : pred radix2 fexp d <= val ub - val lb).
    { destruct (Rle_or_lt (pred radix2 fexp d) (val ub - val lb)) as [K|K]; [exact K|exfalso].
      apply Rlt_le in K. apply rnd_mono in K. fold d in K.
      assert (E : rnd (pred radix2 fexp d) = pred radix2 fexp d).
      { apply round_generic; [auto with typeclass_instances|]. apply generic_format_pred; auto with typeclass_instances. }
      rewrite E in K. pose proof (pred_lt_id radix2 fexp d ltac:(lra)). lra. }
    rewrite <- (rnd_fix ub). apply rnd_mono. lra.
Qed.

(** ** Mutated individuals of the genetic algorithm are clipped to the box *)
Theorem C75_ga_clip_in_box : forall lb ub v : b64, fin lb -> fin ub -> val lb <= val ub -> is_nan v = false ->
  fin (clip_f lb ub v) /\ val lb <= val (clip_f lb ub v) <= val ub /\
  (fin v -> val lb <= val v <= val ub -> val (clip_f lb ub v) = val v).
Proof.
  intros lb ub v Fl Fu HB Nv. unfold clip_f. cbv zeta.
  assert (W : forall w, fin w -> val lb <= val w ->
    fin (if Bltb w ub then w else ub) /\ val lb <= val (if Bltb w ub then w else ub) <= val ub /\
    (val w <= val ub -> val (if Bltb w ub then w else ub) = val w)).
  { intros w Fw Hw. destruct (Bltb w ub) eqn:E.
    - apply Bltb_val in E; auto. split; [exact Fw|]. split; [lra|auto].
    - assert (~ val w < val ub) by (rewrite <- Bltb_val by auto; congruence).
      split; [exact Fu|]. split; [lra|]. intros K. lra. }
  destruct (is_finite v) eqn:Fv.
  - destruct (Bltb lb v) eqn:E.
    + apply Bltb_val in E; auto. destruct (W v Fv ltac:(lra)) as [A [B C]]. split; [exact A|]. split; [exact B|].
      intros _ [_ K]. apply C, K.
    + assert (N : ~ val lb < val v) by (rewrite <- Bltb_val by auto; congruence).
      destruct (W lb Fl ltac:(lra)) as [A [B C]]. split; [exact A|]. split; [exact B|].
      intros _ [K1 K2]. apply eq_trans with (1 := C HB). lra.
  - destruct v as [?|[|]| |? ? ? ?]; try discriminate.
    + assert (E : Bltb lb (B754_infinity true) = false) by (destruct lb as [?|?| |[] ? ? ?]; try discriminate Fl; reflexivity).
      rewrite E. destruct (W lb Fl ltac:(lra)) as [A [B C]]. split; [exact A|]. split; [exact B|]. discriminate.
    + assert (E : Bltb lb (B754_infinity false) = true) by (destruct lb as [?|?| |[] ? ? ?]; try discriminate Fl; reflexivity).
      rewrite E. assert (E2 : Bltb (B754_infinity false) ub = false) by (destruct ub as [?|?| |[] ? ? ?]; try discriminate Fu; reflexivity).
      rewrite E2. split; [exact Fu|]. split; [lra|]. discriminate.
Qed.

(** ** No drift over a whole run *)
(** The values a coordinate of a proposal can take in a run of the SRBF, DYCORS, random, EI and LCB
    strategies: an initial design point (also: of the population of the genetic algorithm), a
    uniform point, a mutated and clipped individual, or a candidate around a value proposed before. *)
(** Specification, no counterpart in /repo: the arithmetic of surrogate_strategy.py:155-158
    (initial points through from_unit_box), utils.py:277-289 and 347-351, random_strategy.py:34,
    candidate_srbf.py:102-113 and candidate_dycors.py:63-86 on one continuous coordinate. *)
Inductive proposed (lb ub : b64) : b64 -> Prop :=
| pr_design : forall x, 0 <= val x <= 1 -> fin (from_unit_f x lb ub) -> proposed lb ub (from_unit_f x lb ub)
| pr_uniform : forall u, 0 <= val u <= 1 - bpow radix2 (-53) -> fin (unif_f lb ub u) -> proposed lb ub (unif_f lb ub u)
| pr_ga : forall v, is_nan v = false -> proposed lb ub (clip_f lb ub v)
| pr_cand : forall xb r z, proposed lb ub xb -> 0 < val r <= 1 -> 0 < val (scale_f r lb ub) ->
    fin (scale_f r lb ub) -> legal_draw lb ub xb (scale_f r lb ub) z -> fin (cand_f xb (scale_f r lb ub) z) ->
    proposed lb ub (cand_f xb (scale_f r lb ub) z).

(** Specification, no counterpart in /repo: the tolerance: 2^-50 times (width + largest bound), plus a
    term that only matters under underflow. *)
Definition box_tol (lb ub : b64) : R :=
  bpow radix2 (-50) * (val ub - val lb + Rmax (Rabs (val lb)) (Rabs (val ub))) +
  (val ub - val lb + 1) * bpow radix2 (-1072).

Lemma width_up : forall lb ub : b64, val lb <= val ub ->
  rnd (val ub - val lb) <= (val ub - val lb) * (1 + uu).
Proof.
  intros lb ub H. destruct (rnd_err_plus (val ub) (- val lb) (fmt ub) (generic_format_opp _ _ _ (fmt lb))) as [e [He E]].
  change (val ub + - val lb) with (val ub - val lb) in E. rewrite E. apply Rabs_le_inv in He. apply Rmult_le_compat_l; lra.
Qed.

(** C75. Over any history the rounding errors do not accumulate: every proposed coordinate is finite
    and within the one tolerance of the box. *)
Theorem C75_no_drift : forall lb ub y : b64, fin lb -> fin ub -> val lb < val ub -> proposed lb ub y ->
  fin y /\ val lb - box_tol lb ub <= val y <= val ub + box_tol lb ub.
Proof.
  intros lb ub y Fl Fu HB Hp. pose proof uu_small as U. pose proof tiny_pos as T.
  set (w := val ub - val lb). set (M := Rmax (Rabs (val lb)) (Rabs (val ub))).
  assert (ET : box_tol lb ub = 8 * uu * (w + M) + (w + 1) * (4 * tiny)).
  { unfold box_tol. fold w M. unfold uu, tiny. change 8 with (bpow radix2 3). change 4 with (bpow radix2 2).
    rewrite <- !bpow_plus. reflexivity. }
  assert (Ml : Rabs (val lb) <= M) by apply Rmax_l. assert (Mu : Rabs (val ub) <= M) by apply Rmax_r.
  assert (W0 : 0 < w) by (unfold w; lra).
  assert (M0 : 0 <= M) by (pose proof (Rabs_pos (val lb)); lra).
  assert (UW : 0 <= uu * w) by (apply Rmult_le_pos; lra). assert (UM : 0 <= uu * M) by (apply Rmult_le_pos; lra).
  assert (TW : 0 <= tiny * w) by (apply Rmult_le_pos; lra).
  set (t := box_tol lb ub) in *. assert (T0 : 0 <= t) by (rewrite ET; lra).
  induction Hp as [x [X0 X1] F|u Hu F|v Hv|xb r z Hp IH [R0 R1] Hs Fs HL F].
  - split; [exact F|]. destruct (C39_bounds_partial x lb ub Fl Fu ltac:(lra) ltac:(lra) F) as [[A B] _]. split; [lra|].
    apply Rle_trans with (1 := B). 
    destruct (rnd_err_plus (val lb) (rnd (val ub - val lb)) (fmt lb) (rnd_fmt _)) as [e [He E]]. rewrite E.
    pose proof (width_up lb ub ltac:(lra)) as WU.
    apply Rabs_le_inv in He. apply Rle_trans with ((val lb + w * (1 + uu)) * (1 + e)); [apply Rmult_le_compat_r; [clear -He U; lra|apply Rplus_le_compat_l; exact WU]|].
    replace (val lb + w * (1 + uu)) with (val ub + w * uu) by (unfold w; ring).
    assert (K : val ub * e <= uu * M).
    { apply Rle_trans with (Rabs (val ub * e)); [apply Rle_abs|]. rewrite Rabs_mult, Rmult_comm.
      apply Rmult_le_compat; try apply Rabs_pos; [apply Rabs_le; lra|exact Mu]. }
    assert (K2 : w * uu * e <= w * uu * 1) by (apply Rmult_le_compat_l; lra). rewrite ET. lra.
  - split; [exact F|]. destruct (C75_uniform_in_box lb ub u Fl Fu ltac:(lra) Hu F). lra.
  - destruct (C75_ga_clip_in_box lb ub v Fl Fu ltac:(lra) Hv) as [A [B _]]. split; [exact A|]. lra.
  - destruct IH as [Fx [I1 I2]]. split; [exact F|].
    assert (SG : val (scale_f r lb ub) <= w * (1 + uu)).
    { unfold scale_f in *. destruct (fmul_val _ _ Fs) as [Es [_ Fd]]. rewrite Es, (fsub_val _ _ Fu Fl Fd).
      apply Rle_trans with (rnd (val ub - val lb)); [|apply width_up; lra].
      rewrite <- (round_generic radix2 fexp (round_mode mode_NE) (rnd (val ub - val lb))) at 2 by (apply rnd_fmt).
      apply rnd_mono. assert (0 <= rnd (val ub - val lb)) by (rewrite <- rnd_0; apply rnd_mono; lra). nra. }
    destruct (C75_candidate_near_box lb ub xb _ z Fl Fu Fx Fs Hs HL F) as [B1 B2].
    assert (E4 : bpow radix2 (-51) = 4 * uu).
    { unfold uu. change 4 with (bpow radix2 2). rewrite <- bpow_plus. reflexivity. }
    rewrite E4 in B1, B2. fold uu tiny in B1, B2.
    assert (D1 : Rabs (val xb - val lb) <= w + t) by (apply Rabs_le; unfold w in *; lra).
    assert (D2 : Rabs (val ub - val xb) <= w + t) by (apply Rabs_le; unfold w in *; lra).
    assert (G1 : 4 * uu * Rabs (val xb - val lb) <= 4 * uu * (w + t)) by (apply Rmult_le_compat_l; lra).
    assert (G2 : 4 * uu * Rabs (val ub - val xb) <= 4 * uu * (w + t)) by (apply Rmult_le_compat_l; lra).
    assert (G3 : uu * Rabs (val lb) <= uu * M) by (apply Rmult_le_compat_l; lra).
    assert (G4 : uu * Rabs (val ub) <= uu * M) by (apply Rmult_le_compat_l; lra).
    assert (G5 : (val (scale_f r lb ub) + 1) * tiny <= (2 * w + 1) * tiny).
    { apply Rmult_le_compat_r; [lra|]. assert (w * uu <= w * 1) by (apply Rmult_le_compat_l; lra). lra. }
    assert (G6 : 4 * uu * t <= / 1024 * t) by (apply Rmult_le_compat_r; lra).
    assert (G7 : 4 * uu * (w + t) + uu * M + (2 * w + 1) * tiny <= t).
    { rewrite Rmult_plus_distr_l. apply Rle_trans with (4 * uu * w + / 1024 * t + uu * M + (2 * w + 1) * tiny); [lra|].
      rewrite ET. lra. }
    split; lra.
Qed.

(** ** Refutation: in the unit box with the initial radius 0.2 a candidate leaves the box *)
(** IEEE binary64 of numpy (Flocq): example value 0. *)
Definition c_0 : b64 := B754_zero false.
(** IEEE binary64 of numpy (Flocq): example value, the double closest to 0.89. *)
Definition c_089 : b64 := @B754_finite prec emax false 8016407336719483 (-53) eq_refl.
(** IEEE binary64 of numpy (Flocq): example value, the double closest to 0.11. *)
Definition c_011 : b64 := @B754_finite prec emax false 7926335344172073 (-56) eq_refl.
(** IEEE binary64 of numpy (Flocq): example value, the double closest to 0.5. *)
Definition c_05 : b64 := @B754_finite prec emax false 4503599627370496 (-53) eq_refl.
(** IEEE binary64 of numpy (Flocq): example value, the double closest to 0.25. *)
Definition c_025 : b64 := @B754_finite prec emax false 4503599627370496 (-54) eq_refl.

Lemma Bleb_val : forall x y : b64, fin x -> fin y -> Bleb x y = true -> val x <= val y.
Proof. intros x y Fx Fy. rewrite Bleb_correct by assumption. destruct (Rle_bool_spec (val x) (val y)); [auto|discriminate]. Qed.
Lemma legal_draw_b : forall lb ub xb s z,
  (is_finite z && is_finite (lim_f lb xb s) && is_finite (lim_f ub xb s) &&
   Bleb (lim_f lb xb s) z && Bleb z (lim_f ub xb s))%bool = true -> legal_draw lb ub xb s z.
Proof.
  intros lb ub xb s z H. apply andb_prop in H. destruct H as [H H5]. apply andb_prop in H. destruct H as [H H4].
  apply andb_prop in H. destruct H as [H H3]. apply andb_prop in H. destruct H as [H1 H2].
  split; [exact H1|]. split; [exact H2|]. split; [exact H3|]. split; apply Bleb_val; assumption.
Qed.
Lemma c_0_val : val c_0 = 0. Proof. reflexivity. Qed.
(** the largest draw of np.random.random, 1 - 2^-53 *)
(** IEEE binary64 of numpy (Flocq): example value. *)
Definition c_top : b64 := @B754_finite prec emax false 9007199254740991 (-53) eq_refl.
Lemma c_top_val : val c_top = 1 - bpow radix2 (-53).
Proof. unfold c_top, B2R, F2R. simpl. lra. Qed.

Lemma c_draw : forall u : b64, (is_finite u && Bleb c_0 u && Bleb u c_top)%bool = true -> 0 <= val u <= 1 - bpow radix2 (-53).
Proof.
  intros u H. apply andb_prop in H. destruct H as [H H2]. apply andb_prop in H. destruct H as [H0 H1].
  rewrite <- c_top_val, <- c_0_val. split; apply Bleb_val; auto; reflexivity.
Qed.

Lemma val_eq_unif : forall u, Beqb (unif_f c_0 f1 u) u = true -> Bsign (unif_f c_0 f1 u) = Bsign u ->
  fin u -> fin (unif_f c_0 f1 u) -> unif_f c_0 f1 u = u.
Proof.
  intros u H S Fu F. apply B2R_Bsign_inj; auto. rewrite Beqb_correct in H by assumption.
  destruct (Req_bool_spec (val (unif_f c_0 f1 u)) (val u)); [assumption|discriminate].
Qed.

Lemma c_proposed : forall u, (is_finite u && Bleb c_0 u && Bleb u c_top)%bool = true ->
  (Beqb (unif_f c_0 f1 u) u && Bool.eqb (Bsign (unif_f c_0 f1 u)) (Bsign u) && is_finite (unif_f c_0 f1 u))%bool = true ->
  proposed c_0 f1 u.
Proof.
  intros u H K. apply andb_prop in K. destruct K as [K K3]. apply andb_prop in K. destruct K as [K1 K2].
  apply eqb_prop in K2. pose proof (c_draw u H) as D. apply andb_prop in H. destruct H as [H _]. apply andb_prop in H. destruct H as [H _].
  rewrite <- (val_eq_unif u K1 K2 H K3). apply pr_uniform; assumption.
Qed.

Lemma f_02_val : 0 < val f_02 <= 1.
Proof. rewrite <- f1_val, <- c_0_val. split; [apply Bltb_val|apply Bleb_val]; vm_compute; reflexivity. Qed.

Lemma c_scale_pos : 0 < val (scale_f f_02 c_0 f1).
Proof. rewrite <- c_0_val. apply Bltb_val; vm_compute; reflexivity. Qed.

(** C75 is false as stated: in the unit box, with the initial sampling radius 0.2 and the incumbents
    0.89 and 0.11, draws truncnorm may return give the proposals -2^-53 < 0 and 1 + 2^-52 > 1: an
    objective that is only defined on the box (log, sqrt) is called outside its domain. *)
Theorem C75_candidate_in_box_refuted :
  (exists xb z : b64, proposed c_0 f1 xb /\ 0 <= val xb <= 1 /\
     legal_draw c_0 f1 xb (scale_f f_02 c_0 f1) z /\ proposed c_0 f1 (cand_f xb (scale_f f_02 c_0 f1) z) /\
     val (cand_f xb (scale_f f_02 c_0 f1) z) < 0) /\
  (exists xb z : b64, proposed c_0 f1 xb /\ 0 <= val xb <= 1 /\
     legal_draw c_0 f1 xb (scale_f f_02 c_0 f1) z /\ proposed c_0 f1 (cand_f xb (scale_f f_02 c_0 f1) z) /\
     1 < val (cand_f xb (scale_f f_02 c_0 f1) z)).
Proof.
  split.
  - exists c_089, (lim_f c_0 c_089 (scale_f f_02 c_0 f1)).
    assert (P : proposed c_0 f1 c_089) by (apply c_proposed; vm_compute; reflexivity).
    assert (L : legal_draw c_0 f1 c_089 (scale_f f_02 c_0 f1) (lim_f c_0 c_089 (scale_f f_02 c_0 f1)))
      by (apply legal_draw_b; vm_compute; reflexivity).
    split; [exact P|]. split; [rewrite <- f1_val, <- c_0_val; split; apply Bleb_val; vm_compute; reflexivity|].
    split; [exact L|]. split.
    + apply pr_cand; [exact P|exact f_02_val|exact c_scale_pos|vm_compute; reflexivity|exact L|vm_compute; reflexivity].
    + rewrite <- c_0_val. apply Bltb_val; vm_compute; reflexivity.
  - exists c_011, (lim_f f1 c_011 (scale_f f_02 c_0 f1)).
    assert (P : proposed c_0 f1 c_011) by (apply c_proposed; vm_compute; reflexivity).
    assert (L : legal_draw c_0 f1 c_011 (scale_f f_02 c_0 f1) (lim_f f1 c_011 (scale_f f_02 c_0 f1)))
      by (apply legal_draw_b; vm_compute; reflexivity).
    split; [exact P|]. split; [rewrite <- f1_val, <- c_0_val; split; apply Bleb_val; vm_compute; reflexivity|].
    split; [exact L|]. split.
    + apply pr_cand; [exact P|exact f_02_val|exact c_scale_pos|vm_compute; reflexivity|exact L|vm_compute; reflexivity].
    + rewrite <- f1_val at 1. apply Bltb_val; vm_compute; reflexivity.
Qed.

(** The hypotheses of the theorems are met: an interior incumbent and draw, an incumbent on a bound,
    and the largest uniform draw in the box [-0.9, 0.2] in which from_unit_box leaves the box. *)
Example ex_C75 :
  legal_draw c_0 f1 c_05 (scale_f f_02 c_0 f1) f_m1 /\ fin (cand_f c_05 (scale_f f_02 c_0 f1) f_m1) /\
  0 < val (scale_f f_02 c_0 f1) /\ val c_0 < val f1 /\ proposed c_0 f1 (cand_f c_05 (scale_f f_02 c_0 f1) f_m1).
Proof.
  assert (L : legal_draw c_0 f1 c_05 (scale_f f_02 c_0 f1) f_m1) by (apply legal_draw_b; vm_compute; reflexivity).
  split; [exact L|]. split; [vm_compute; reflexivity|]. split; [exact c_scale_pos|].
  split; [rewrite f1_val, c_0_val; lra|]. 
  apply pr_cand; [apply c_proposed; vm_compute; reflexivity|exact f_02_val|exact c_scale_pos|vm_compute; reflexivity|exact L|vm_compute; reflexivity].
Qed.
Example ex_C75_bound :
  legal_draw c_0 f1 c_0 (scale_f f_02 c_0 f1) f_03 /\ fin (cand_f c_0 (scale_f f_02 c_0 f1) f_03) /\ val c_0 = 0.
Proof. split; [apply legal_draw_b; vm_compute; reflexivity|]. split; vm_compute; reflexivity. Qed.
Example ex_C75_uniform : fin (unif_f f_m09 f_02 c_top) /\ val f_m09 <= val f_02 /\
  0 <= val c_top <= 1 - bpow radix2 (-53) /\ Bleb (unif_f f_m09 f_02 c_top) f_02 = true /\
  Bltb f_02 (from_unit_f f1 f_m09 f_02) = true.
Proof.
  split; [vm_compute; reflexivity|]. split; [apply Bleb_val; vm_compute; reflexivity|].
  split; [apply c_draw; vm_compute; reflexivity|]. split; vm_compute; reflexivity.
Qed.
Example ex_C75_ga : clip_f c_0 f1 (B754_infinity true) = c_0 /\ clip_f c_0 f1 f_3 = f1 /\ clip_f c_0 f1 c_05 = c_05 /\
  clip_f c_0 f1 f_m1 = c_0 /\ proposed c_0 f1 (clip_f c_0 f1 f_3).
Proof. repeat (split; [vm_compute; reflexivity|]). apply pr_ga. reflexivity. Qed.
