(** * The scalar computations of SRBFStrategy in IEEE doubles (srbf_strategy.py:110-119, 195-217).

    The state machine of SRBF.v works with integers for failtol, exact rationals for the sampling
    radius and exact rationals in the improvement test.  Here the same expressions are evaluated in
    doubles, as Python does, and compared with the model. *)
From Coq Require Import List Arith ZArith QArith Qreals Qminmax Lia Bool Reals Lra Psatz.
From Flocq Require Import Core BinarySingleNaN Plus_error Relative.
From Verif Require Import Base Strategy StrategyOps SRBF SRBFProofs PropSRBF.
From Coq Require Import Rdefinitions.
From Verif Require Import FloatBox FloatCand.
Import ListNotations.
Local Open Scope R_scope.

(** ** failtol *)
(** np.ceil of a finite double, as an integer (the ceiling of a double is a double). *)
(** IEEE binary64 of numpy (Flocq): np.ceil and int() of srbf_strategy.py:115, 118. *)
Definition ceil_f (x : b64) : Z := Zceil (val x).
(** float(n) of an integer, srbf_strategy.py:114, 117. *)
Definition float_of (n : Z) : b64 := binary_normalize prec emax _ _ mode_NE n 0 false.
(** failtol, srbf_strategy.py:113-118, in doubles:
    int(max(ceil(d), 4.0)), else int(max(ceil(d / p), ceil(4 / p))). *)
Definition failtol_f (async : bool) (dim batch : nat) : Z :=
  let d := float_of (Z.of_nat dim) in
  let p := float_of (Z.of_nat batch) in
  if async then Z.max (ceil_f d) 4
  else Z.max (ceil_f (fdiv d p)) (ceil_f (fdiv (float_of 4) p)).

Lemma int_fmt : forall z : Z, (Z.abs z < 2 ^ 53)%Z -> generic_format radix2 fexp (IZR z).
Proof.
  intros z H. replace (IZR z) with (F2R (Float radix2 z 0)) by (unfold F2R; simpl; lra).
  apply generic_format_FLT. exists (Float radix2 z 0); [reflexivity|exact H|discriminate].
Qed.
Lemma int_rnd : forall z : Z, (Z.abs z < 2 ^ 53)%Z -> rnd (IZR z) = IZR z.
Proof. intros. apply round_generic; [auto with typeclass_instances|]. apply int_fmt. assumption. Qed.

Lemma int_bound : forall z, (Z.abs z < 2 ^ 53)%Z -> Rabs (IZR z) < bpow radix2 emax.
Proof.
  intros z H. rewrite <- abs_IZR. apply Rlt_trans with (IZR (2 ^ 53)); [apply IZR_lt, H|].
  change (IZR (2 ^ 53)) with (bpow radix2 53). apply bpow_lt. reflexivity.
Qed.

Lemma float_of_val : forall z, (Z.abs z < 2 ^ 53)%Z -> val (float_of z) = IZR z /\ fin (float_of z).
Proof.
  intros z H. unfold float_of.
  pose proof (binary_normalize_correct prec emax _ _ mode_NE z 0 false) as K.
  replace (F2R (Float radix2 z 0)) with (IZR z) in K by (unfold F2R; simpl; lra).
  cbv zeta in K. rewrite int_rnd, Rlt_bool_true in K by (auto using int_bound). tauto.
Qed.

(** The ceiling of the rounded quotient is the ceiling of the quotient. *)
Lemma ceil_quot : forall n m : Z, (0 <= n < 2 ^ 53)%Z -> (0 < m < 2 ^ 53)%Z ->
  ceil_f (fdiv (float_of n) (float_of m)) = ((n + m - 1) / m)%Z.
Proof.
  intros n m Hn Hm.
  destruct (float_of_val n ltac:(lia)) as [En Fn]. destruct (float_of_val m ltac:(lia)) as [Em Fm].
  assert (M0 : 0 < IZR m) by (apply IZR_lt; lia).
  assert (N0 : 0 <= IZR n) by (apply IZR_le; lia).
  set (k := ((n + m - 1) / m)%Z).
  assert (K : (m * k <= n + m - 1 < m * k + m)%Z).
  { unfold k. pose proof (Z.mul_div_le (n + m - 1) m ltac:(lia)). pose proof (Z.mul_succ_div_gt (n + m - 1) m ltac:(lia)). nia. }
  assert (K0 : (0 <= k)%Z) by (unfold k; apply Z.div_pos; lia).
  assert (K1 : (k <= n)%Z) by nia.
  assert (Q0 : 0 <= IZR n / IZR m) by (apply Rmult_le_pos; [lra|apply Rlt_le, Rinv_0_lt_compat, M0]).
  assert (QU : IZR n / IZR m <= IZR k).
  { apply Rmult_le_reg_r with (IZR m); [lra|]. unfold Rdiv. rewrite Rmult_assoc, Rinv_l, Rmult_1_r by lra.
    rewrite <- mult_IZR. apply IZR_le. lia. }
  assert (RU : rnd (IZR n / IZR m) <= IZR k).
  { rewrite <- (int_rnd k) by lia. apply rnd_mono, QU. }
  assert (R0 : 0 <= rnd (IZR n / IZR m)) by (rewrite <- rnd_0; apply rnd_mono; exact Q0).
  assert (E : val (fdiv (float_of n) (float_of m)) = rnd (IZR n / IZR m)).
  { unfold fdiv. pose proof (Bdiv_correct prec emax _ _ mode_NE (float_of n) (float_of m)) as C.
    rewrite En, Em in C. rewrite Rlt_bool_true in C; [apply C; lra|].
    rewrite Rabs_right by lra. apply Rle_lt_trans with (1 := RU).
    apply Rle_lt_trans with (Rabs (IZR k)); [apply Rle_abs|apply int_bound; lia]. }
  unfold ceil_f. rewrite E. apply Zceil_imp. split; [|exact RU].
  (* strictly above k - 1 *)
  destruct (Z.eq_dec k 0) as [Ek|Kn]; [rewrite Ek; change (0 - 1)%Z with (-1)%Z; clear -R0; lra|].
  rewrite minus_IZR.
  assert (QL : IZR (k - 1) + / IZR m <= IZR n / IZR m).
  { apply Rmult_le_reg_r with (IZR m); [lra|]. unfold Rdiv. rewrite Rmult_plus_distr_r, Rmult_assoc, Rinv_l, Rmult_1_r by lra.
    rewrite <- mult_IZR, <- plus_IZR. apply IZR_le. lia. }
  rewrite minus_IZR in QL.
  destruct (rnd_err (IZR n / IZR m)) as [e [h [He [Hh EE]]]].
  pose proof uu_small as U. apply Rabs_le_inv in He. apply Rabs_le_inv in Hh. rewrite EE.
  assert (UU : uu * IZR (2 ^ 53) = 1).
  { change (IZR (2 ^ 53)) with (bpow radix2 53). unfold uu. rewrite <- bpow_plus. reflexivity. }
  assert (NB : IZR n <= IZR (2 ^ 53) - 1) by (rewrite <- minus_IZR; apply IZR_le; lia).
  assert (MB : IZR m <= IZR (2 ^ 53)) by (apply IZR_le; lia).
  assert (I0 : 0 < / IZR m) by (apply Rinv_0_lt_compat, M0).
  assert (L1 : IZR n / IZR m * e >= - (uu * (IZR (2 ^ 53) - 1) * / IZR m)).
  { apply Rle_ge. apply Rle_trans with (- (uu * (IZR n / IZR m))).
    - apply Ropp_le_contravar. unfold Rdiv. rewrite <- Rmult_assoc. apply Rmult_le_compat_r; [lra|].
      apply Rmult_le_compat_l; lra.
    - assert (0 <= IZR n / IZR m * (e + uu)) by (apply Rmult_le_pos; lra). lra. }
  assert (L2 : - (uu * (IZR (2 ^ 53) - 1) * / IZR m) = - / IZR m + uu * / IZR m).
  { replace (uu * (IZR (2 ^ 53) - 1)) with (1 - uu) by lra. ring. }
  assert (L3 : tiny < uu * / IZR m).
  { apply Rlt_le_trans with (uu * bpow radix2 (-53)).
    - unfold tiny, uu. rewrite <- bpow_plus. apply bpow_lt. reflexivity.
    - apply Rmult_le_compat_l; [lra|]. change (bpow radix2 (-53)) with (/ IZR (2 ^ 53)). apply Rinv_le_contravar; lra. }
  lra.
Qed.

(** C19. The double computation of failtol gives the exact integer failtol used in C19 and C20. *)
Theorem C19_failtol_in_doubles : forall async dim batch,
  (Z.of_nat dim < 2 ^ 53)%Z -> (0 < batch)%nat -> (Z.of_nat batch < 2 ^ 53)%Z ->
  failtol_f async dim batch = failtol_of async dim batch.
Proof.
  intros async dim batch Hd Hb Hb'. unfold failtol_f, failtol_of. destruct async.
  - destruct (float_of_val (Z.of_nat dim) ltac:(lia)) as [E _]. unfold ceil_f. rewrite E, Zceil_IZR. reflexivity.
  - rewrite !ceil_quot by lia. reflexivity.
Qed.

(** ** The sampling radius *)
(** IEEE binary64 of numpy (Flocq): the literal 2 of srbf_strategy.py:208, 213. *)
Definition f_2 : b64 := @B754_finite prec emax false 4503599627370496 (-51) eq_refl.
(** IEEE binary64 of numpy (Flocq): the literal 0.5, srbf_strategy.py:110. *)
Definition f_half : b64 := @B754_finite prec emax false 4503599627370496 (-53) eq_refl.
(** sampling_radius_min = 0.2 * (0.5 ** 6), srbf_strategy.py:110, in doubles. *)
Definition rmin_f : b64 :=
  fmul f_02 (fmul f_half (fmul f_half (fmul f_half (fmul f_half (fmul f_half f_half))))).
(** self.sampling_radius /= 2, srbf_strategy.py:208. *)
Definition halve_f (r : b64) : b64 := fdiv r f_2.
(** min([2.0 * self.sampling_radius, self.sampling_radius_max]), srbf_strategy.py:213. *)
Definition double_f (r : b64) : b64 := let r2 := fmul f_2 r in if Bltb f_02 r2 then f_02 else r2.
(** the double 0.2 / 2^k *)
(** Specification, no counterpart in /repo. *)
Definition rad (k : nat) : b64 := Nat.iter k halve_f f_02.

Lemma sf_val : forall (x : b64) m e, B2SF x = SpecFloat.S754_finite false m e -> val x = IZR (Zpos m) * bpow radix2 e.
Proof. intros x m e H. rewrite <- SF2R_B2SF, H. reflexivity. Qed.

(** exactly representable positive rationals m / 2^j *)
Lemma sf_Q : forall (x : b64) m j q, B2SF x = SpecFloat.S754_finite false m (Zneg j) -> (q == Zpos m # (2 ^ j))%Q ->
  fin x /\ val x = Q2R q.
Proof.
  intros x m j q H E. split.
  - destruct x; simpl in H; try discriminate. reflexivity.
  - rewrite (Qeq_eqR _ _ E). rewrite (sf_val _ _ _ H). unfold Q2R. cbn [Qnum Qden]. f_equal. unfold bpow. f_equal.
    rewrite Pos2Z.inj_pow. rewrite <- Z.pow_pos_fold. reflexivity.
Qed.

(** Helper with no counterpart in /repo: a test whether a double has a given rational value. *)
Definition has_value (x : b64) (q : Q) : bool :=
  match B2SF x with
  | SpecFloat.S754_finite false m (Zneg j) => Qeq_bool q (Zpos m # (2 ^ j))
  | _ => false
  end.
Lemma has_value_ok : forall x q, has_value x q = true -> fin x /\ val x = Q2R q.
Proof.
  intros x q H. unfold has_value in H. destruct (B2SF x) as [|?| |[] m [|j|j]] eqn:E; try discriminate H.
  apply (sf_Q x m j q E). apply Qeq_bool_eq. exact H.
Qed.

(** Helper with no counterpart in /repo: the checks of one level. *)
Definition level_ok (k : nat) : bool :=
  let q := (r_max * (1 # 2) ^ Z.of_nat k)%Q in
  has_value (rad k) q && has_value (halve_f (rad k)) (q / 2) && has_value (double_f (rad k)) (Qmin (2 * q) r_max) &&
  Bool.eqb (Bleb (rad k) rmin_f) (Qle_bool q r_min).
Lemma levels_ok : forallb level_ok (seq 0 7) = true.
Proof. vm_compute. reflexivity. Qed.

Lemma radius_values : forall k, (k <= 6)%nat ->
  let q := (r_max * (1 # 2) ^ Z.of_nat k)%Q in
  (fin (rad k) /\ val (rad k) = Q2R q) /\
  (fin (halve_f (rad k)) /\ val (halve_f (rad k)) = Q2R (q / 2)) /\
  (fin (double_f (rad k)) /\ val (double_f (rad k)) = Q2R (Qmin (2 * q) r_max)) /\
  Bleb (rad k) rmin_f = Qle_bool q r_min.
Proof.
  intros k Hk. pose proof levels_ok as L. rewrite forallb_forall in L.
  specialize (L k ltac:(apply in_seq; lia)). unfold level_ok in L. cbv zeta in *.
  apply andb_prop in L. destruct L as [L L4]. apply andb_prop in L. destruct L as [L L3].
  apply andb_prop in L. destruct L as [L1 L2]. apply eqb_prop in L4.
  auto using has_value_ok.
Qed.

(** C19. In every reachable state the radius of the model is a double, and the double operations of
    adjust_step on it (halving, doubling with the maximum, comparison with the minimum) give exactly
    what the model computes with rationals: the schedule of radii of C19 is the one Python follows. *)
Theorem C19_radius_in_doubles :
  forall (P : Type) (c : cfg P SRBF.val) (weights : list Q) (dim : nat) (design : res (list P)),
  legal c -> forall p, reached c (srbf_strategy c weights dim) design srbf0 p ->
  (c_async c = true -> StrategySpec.protocol (p_hist p)) ->
  exists r : b64, fin r /\ val r = Q2R (s_radius (p_e p)) /\
    (fin (halve_f r) /\ val (halve_f r) = Q2R (s_radius (p_e p) / 2)) /\
    (fin (double_f r) /\ val (double_f r) = Q2R (Qmin (2 * s_radius (p_e p)) r_max)) /\
    Bleb r rmin_f = Qle_bool (s_radius (p_e p)) r_min.
Proof.
  intros P c weights dim design Hl p H Pr.
  destruct (C19_radius_range Hl H Pr) as [k [Hk [E _]]].
  destruct (radius_values k Hk) as [[A1 A2] [[B1 B2] [[C1 C2] D]]].
  exists (rad k). rewrite A2, B2, C2, D. split; [exact A1|]. split; [|split; [split; [exact B1|]|split; [split; [exact C1|]|]]].
  - apply Qeq_eqR. symmetry. exact E.
  - apply Qeq_eqR. rewrite E. reflexivity.
  - apply Qeq_eqR. rewrite E. reflexivity.
  - apply eq_true_iff_eq. rewrite !Qle_bool_iff. rewrite E. reflexivity.
Qed.

(** ** The improvement test *)
(** IEEE binary64 of numpy (Flocq): the literal 1e-3 of srbf_strategy.py:196. *)
Definition f_1em3 : b64 := @B754_finite prec emax false 4611686018427388 (-62) eq_refl.
(** fbest_new < self._fbest - 1e-3 * math.fabs(self._fbest), srbf_strategy.py:196, in doubles. *)
Definition improves_f (fnew fbest : b64) : bool := Bltb fnew (fsub fbest (fmul f_1em3 (Babs fbest))).

Lemma f_1em3_val : Rabs (val f_1em3 - / 1000) <= / 1000 * uu.
Proof.
  unfold f_1em3, B2R, F2R, uu. simpl. apply Rabs_le. lra.
Qed.
Lemma babs_fin : forall x : b64, fin x -> fin (Babs x).
Proof. intros x F. rewrite is_finite_Babs. exact F. Qed.

(** C21. The improvement test in doubles: it agrees with the exact test of C21 except when the new
    value lies within 2^-52 |fbest| (plus the smallest double) of the threshold, and it never accepts
    a value that is not below the best one. *)
Theorem C21_improvement_in_doubles : forall fnew fbest : b64, fin fnew -> fin fbest ->
  fin (fsub fbest (fmul f_1em3 (Babs fbest))) ->
  (improves_f fnew fbest = true -> val fnew < val fbest) /\
  (improves_f fnew fbest = true ->
     val fnew < val fbest - / 1000 * Rabs (val fbest) + (bpow radix2 (-52) * Rabs (val fbest) + bpow radix2 (-1074))) /\
  (val fnew < val fbest - / 1000 * Rabs (val fbest) - (bpow radix2 (-52) * Rabs (val fbest) + bpow radix2 (-1074)) ->
     improves_f fnew fbest = true).
Proof.
  intros fn fb Fn Fb F. unfold improves_f.
  pose proof (Bltb_val fn (fsub fb (fmul f_1em3 (Babs fb))) Fn F) as B.
  assert (Fm : fin (fmul f_1em3 (Babs fb))).
  { unfold fsub in F. clear -Fb F. destruct fb as [[]|[]| |[] ? ? ?]; try discriminate;
      destruct (fmul f_1em3 _) as [[]|[]| |[] ? ? ?]; simpl in *; try reflexivity; discriminate. }
  destruct (fmul_val _ _ Fm) as [Em [_ Fa]]. rewrite B2R_Babs in Em.
  rewrite (fsub_val fb _ Fb Fm F), Em in B.
  set (b := val fb) in *. set (x := val fn) in *. pose proof (Rabs_pos b) as P. set (A := Rabs b) in *.
  pose proof uu_small as U. pose proof tiny_pos as T.
  assert (E2 : bpow radix2 (-52) = 2 * uu).
  { unfold uu. change 2 with (bpow radix2 1). rewrite <- bpow_plus. reflexivity. }
  rewrite E2. fold tiny.
  pose proof f_1em3_val as C. apply Rabs_le_inv in C. set (c := val f_1em3) in *.
  assert (C0 : 0 < c) by lra.
  assert (M0 : 0 <= rnd (c * A)) by (rewrite <- rnd_0; apply rnd_mono, Rmult_le_pos; lra).
  destruct (rnd_err (c * A)) as [e1 [h1 [He1 [Hh1 E1]]]].
  destruct (rnd_err_plus b (- rnd (c * A)) (fmt fb) (generic_format_opp _ _ _ (rnd_fmt _))) as [e4 [He4 E4]].
  change (b + - rnd (c * A)) with (b - rnd (c * A)) in E4.
  apply Rabs_le_inv in He1. apply Rabs_le_inv in Hh1.
  assert (K1 : Rabs (rnd (c * A) - / 1000 * A) <= / 256 * (uu * A) + tiny / 2).
  { rewrite E1. replace (c * A * (1 + e1) + h1 - / 1000 * A) with ((c * (1 + e1) - / 1000) * A + h1) by ring.
    assert (Rabs (c * (1 + e1) - / 1000) <= / 256 * uu) by (apply Rabs_le; nra).
    eapply Rle_trans; [apply Rabs_triang|]. rewrite Rabs_mult, (Rabs_right A) by lra.
    apply Rplus_le_compat; [rewrite <- Rmult_assoc; apply Rmult_le_compat_r; assumption|apply Rabs_le; lra]. }
  apply Rabs_le_inv in K1. clear E1.
  assert (UA : 0 <= uu * A) by (apply Rmult_le_pos; lra).
  assert (UA2 : uu * A <= / 4096 * A) by (apply Rmult_le_compat_r; lra).
  assert (AB : - A <= b <= A) by (unfold A; pose proof (Rle_abs b); pose proof (Rle_abs (- b)) as Q; rewrite Rabs_Ropp in Q; lra).
  assert (K2 : Rabs (rnd (b - rnd (c * A)) - (b - rnd (c * A))) <= 3 / 2 * (uu * A) + tiny / 4).
  { rewrite E4. replace ((b - rnd (c * A)) * (1 + e4) - (b - rnd (c * A))) with ((b - rnd (c * A)) * e4) by ring.
    rewrite Rabs_mult. apply Rle_trans with ((5 / 4 * A + tiny) * uu).
    - apply Rmult_le_compat; try apply Rabs_pos; [apply Rabs_le; lra|exact He4].
    - assert (tiny * uu <= tiny * / 4096) by (apply Rmult_le_compat_l; lra). lra. }
  apply Rabs_le_inv in K2.
  split; [|split].
  - intros H. apply B in H. apply Rlt_le_trans with (1 := H). assert (RB : rnd b = b) by apply rnd_fix.
    apply Rle_trans with (rnd b); [apply rnd_mono; lra|rewrite RB; apply Rle_refl].
  - intros H. apply B in H. lra.
  - intros H. apply B. lra.
Qed.

(** The hypotheses are met: a best value 1000, a new value 900 (improvement) and 999.5 (none). *)
Example ex_improvement_in_doubles :
  fin (fsub (float_of 1000) (fmul f_1em3 (Babs (float_of 1000)))) /\
  improves_f (float_of 900) (float_of 1000) = true /\ improves_f (float_of 1000) (float_of 1000) = false /\
  improves_f (fdiv (float_of 1999) (float_of 2)) (float_of 1000) = false /\
  improves_f (float_of 998) (float_of 1000) = true.
Proof. repeat (split; [vm_compute; reflexivity|]). vm_compute. reflexivity. Qed.
Example ex_failtol_in_doubles : failtol_f false 10 3 = 4%Z /\ failtol_f true 10 3 = 10%Z.
Proof. rewrite !C19_failtol_in_doubles by (simpl; lia). split; reflexivity. Qed.
