(** * Proofs about the benchmark problems *)
From Coq Require Import List Arith ZArith Lia Bool Reals Lra Psatz.
From Verif Require Import Base Box Lin LinProofs Problems ProblemSpec.
Import ListNotations.

Set Implicit Arguments.
Local Open Scope R_scope.

Lemma minimum_ok_weaken : forall t t' P, t <= t' -> minimum_ok t P -> minimum_ok t' P.
Proof.
  intros t t' P Ht (m & xm & E1 & E2 & (v & Ev & Hv) & H). exists m, xm. split; [exact E1|]. split; [exact E2|]. split.
  - exists v. split; [exact Ev|lra].
  - intros x w D E. specialize (H x w D E). lra.
Qed.

Lemma eval_ok : forall P x v, eval P x = Ok v -> length x = q_dim P /\ v = q_body P x.
Proof.
  intros P x v. unfold eval. destruct (Nat.eqb_spec (length x) (q_dim P)) as [E|E]; intros H; [|discriminate].
  inversion H. auto.
Qed.
Lemma eval_at : forall P x, length x = q_dim P -> eval P x = Ok (q_body P x).
Proof. intros P x E. unfold eval. rewrite E, Nat.eqb_refl. reflexivity. Qed.

Lemma ones_nth : forall c n i, (i < n)%nat -> (ones c n).[i] = c.
Proof. intros c n i. unfold ones. revert i. induction n as [|n IH]; intros i Hi; [lia|]. destruct i; [reflexivity|]. simpl. apply IH. lia. Qed.

Lemma minimum_intro : forall tol dim lo hi m xm f,
  length xm = dim -> Rabs (f xm - m) <= tol ->
  (forall x, length x = dim -> (forall i, (i < dim)%nat -> lo <= x.[i] <= hi) -> m - tol <= f x) ->
  minimum_ok tol (cont_problem dim lo hi (Some m) (Some xm) f).
Proof.
  intros tol dim lo hi m xm f L V H. exists m, xm. split; [reflexivity|]. split; [reflexivity|]. split.
  - exists (f xm). split; [|exact V]. apply (@eval_at (cont_problem dim lo hi (Some m) (Some xm) f)). exact L.
  - intros x v [D1 D2] E. apply eval_ok in E. destruct E as [_ ->]. apply H; [exact D1|].
    intros i Hi. specialize (D2 i Hi). cbn [cont_problem q_lb q_ub] in D2. cbn [q_dim] in Hi. rewrite !ones_nth in D2 by exact Hi. exact D2.
Qed.

Lemma ones_0 : forall n i, (ones 0 n).[i] = 0.
Proof. intros. unfold ones. apply nth_repeat. Qed.
Lemma ones_len : forall c n, length (ones c n) = n.
Proof. intros. apply repeat_length. Qed.

Lemma rsum_nonneg : forall n f, (forall i, (i < n)%nat -> 0 <= f i) -> 0 <= rsum n f.
Proof. induction n as [|n IH]; intros f H; simpl; [lra|]. pose proof (IH f (fun i Hi => H i (Nat.lt_lt_succ_r _ _ Hi))). pose proof (H n (Nat.lt_succ_diag_r n)). lra. Qed.
Lemma rsum_le : forall n f g, (forall i, (i < n)%nat -> f i <= g i) -> rsum n f <= rsum n g.
Proof. induction n as [|n IH]; intros f g H; simpl; [lra|]. pose proof (IH f g (fun i Hi => H i (Nat.lt_lt_succ_r _ _ Hi))). pose proof (H n (Nat.lt_succ_diag_r n)). lra. Qed.
Lemma rsum_const : forall n c, rsum n (fun _ => c) = INR n * c.
Proof. induction n as [|n IH]; intros c; [simpl; ring|]. simpl rsum. rewrite IH, S_INR. ring. Qed.
Lemma sq_nonneg : forall x, 0 <= x ^ 2.
Proof. intros. apply pow2_ge_0. Qed.
Lemma pow4_nonneg : forall x, 0 <= x ^ 4.
Proof. intros. replace (x ^ 4) with ((x ^ 2) ^ 2) by ring. apply pow2_ge_0. Qed.
Lemma Rabs_0 : forall a b, a = b -> Rabs (a - b) <= 0.
Proof. intros a b ->. unfold Rminus. rewrite Rplus_opp_r, Rabs_R0. lra. Qed.
Lemma INR_pos : forall n, (1 <= n)%nat -> 0 < INR n.
Proof. intros n H. apply lt_0_INR. lia. Qed.
Lemma avg_le : forall n f c, (1 <= n)%nat -> (forall i, (i < n)%nat -> f i <= c) -> rsum n f / INR n <= c.
Proof.
  intros n f c Hn H. apply Rmult_le_reg_r with (INR n); [apply INR_pos; exact Hn|].
  unfold Rdiv. rewrite Rmult_assoc, Rinv_l, Rmult_1_r by (apply not_0_INR; lia).
  pose proof (@rsum_le n f (fun _ => c) H) as K. rewrite rsum_const in K. lra.
Qed.
Lemma avg_ge : forall n f c, (1 <= n)%nat -> (forall i, (i < n)%nat -> c <= f i) -> c <= rsum n f / INR n.
Proof.
  intros n f c Hn H. apply Rmult_le_reg_r with (INR n); [apply INR_pos; exact Hn|].
  unfold Rdiv. rewrite Rmult_assoc, Rinv_l, Rmult_1_r by (apply not_0_INR; lia).
  pose proof (@rsum_le n (fun _ => c) f H) as K. rewrite rsum_const in K. lra.
Qed.
Lemma avg_const : forall n f c, (1 <= n)%nat -> (forall i, (i < n)%nat -> f i = c) -> rsum n f / INR n = c.
Proof.
  intros n f c Hn H. rewrite (@rsum_ext n f (fun _ => c)) by exact H. rewrite rsum_const. field. apply not_0_INR. lia.
Qed.

(** ** Problems whose declared minimum is exact *)
Lemma Ackley_min : forall dim, (1 <= dim)%nat -> minimum_ok 0 (Ackley dim).
Proof.
  intros dim Hd. apply minimum_intro.
  - apply ones_len.
  - apply Rabs_0. cbv zeta.
    rewrite (@rsum_0 dim (fun i => (ones 0 dim).[i] ^ 2)) by (intros i Hi; rewrite ones_0; ring).
    rewrite avg_const with (c := 1); [|exact Hd|intros i Hi; rewrite ones_0, Rmult_0_r; apply cos_0].
    unfold Rdiv at 2. rewrite Rmult_0_l, sqrt_0, Rmult_0_r, exp_0. ring.
  - intros x Lx _. cbv zeta.
    assert (A : rsum dim (fun i => cos (2 * PI * x.[i])) / INR dim <= 1).
    { apply avg_le; [exact Hd|]. intros i Hi. apply COS_bound. }
    assert (B : exp (- (2/10) * sqrt (rsum dim (fun i => x.[i] ^ 2) / INR dim)) <= 1).
    { rewrite <- exp_0. set (q := sqrt _). assert (0 <= q) by apply sqrt_pos.
      destruct (Rle_lt_or_eq_dec 0 q H) as [H1|H1]; [left; apply exp_increasing; lra|]. rewrite <- H1. right. f_equal. ring. }
    assert (C : exp (rsum dim (fun i => cos (2 * PI * x.[i])) / INR dim) <= exp 1).
    { destruct A as [A|A]; [left; apply exp_increasing; exact A|rewrite A; lra]. }
    lra.
Qed.

Lemma exp_le : forall a b, a <= b -> exp a <= exp b.
Proof. intros a b [H|H]; [left; apply exp_increasing; exact H|rewrite H; lra]. Qed.

Lemma Exponential_min : forall dim, minimum_ok 0 (Exponential dim).
Proof.
  intros dim. apply minimum_intro.
  - apply ones_len.
  - apply Rabs_0. cbv zeta. rewrite ones_len. apply rsum_0. intros i Hi.
    rewrite ones_nth by (destruct (Nat.eqb_spec i 0); lia). rewrite Rmult_comm. ring.
  - intros x Lx D. cbv zeta. rewrite Rminus_0_r. apply rsum_nonneg. intros i Hi. rewrite Lx in *.
    set (k := if (i =? 0)%nat then (dim - 1)%nat else (i - 1)%nat).
    assert (Hk : (k < dim)%nat) by (unfold k; destruct (Nat.eqb_spec i 0); lia).
    specialize (D k Hk). assert (P : 0 < INR (i + 1)) by (apply INR_pos; lia).
    assert (exp (- (512/100) * INR (i + 1)) <= exp (INR (i + 1) * x.[k])); [|lra]. apply exp_le. nra.
Qed.

Lemma GoldsteinPrice_min : minimum_ok 0 GoldsteinPrice.
Proof.
  apply minimum_intro; [reflexivity| |].
  - apply Rabs_0. cbv zeta. cbn [nth]. ring.
  - intros x _ _. cbv zeta. set (a := x.[0]). set (b := x.[1]). rewrite Rminus_0_r.
    pose (s := a + b). pose (t := 2 * a - 3 * b).
    replace (1 + (a + b + 1) ^ 2 * (19 - 14 * a + 3 * a ^ 2 - 14 * b + 6 * a * b + 3 * b ^ 2))
      with (1 + (s + 1) ^ 2 * (3 * s ^ 2 - 14 * s + 19)) by (unfold s; ring).
    replace (30 + (2 * a - 3 * b) ^ 2 * (18 - 32 * a + 12 * a ^ 2 + 48 * b - 36 * a * b + 27 * b ^ 2))
      with (3 + (t - 3) ^ 2 * (3 * t ^ 2 + 2 * t + 3)) by (unfold t; ring).
    assert (A : 0 <= (s + 1) ^ 2 * (3 * s ^ 2 - 14 * s + 19)).
    { apply Rmult_le_pos; [apply pow2_ge_0|]. pose proof (pow2_ge_0 (3 * s - 7)). nra. }
    assert (B : 0 <= (t - 3) ^ 2 * (3 * t ^ 2 + 2 * t + 3)).
    { apply Rmult_le_pos; [apply pow2_ge_0|]. pose proof (pow2_ge_0 (3 * t + 1)). nra. }
    set (u := (s + 1) ^ 2 * (3 * s ^ 2 - 14 * s + 19)) in *. set (v := (t - 3) ^ 2 * (3 * t ^ 2 + 2 * t + 3)) in *.
    clearbody u v. pose proof (Rmult_le_pos u v A B) as AB. replace ((1 + u) * (3 + v)) with (3 + v + 3 * u + u * v) by ring. lra.
Qed.

Lemma rprod_abs_le : forall n f, (forall i, (i < n)%nat -> Rabs (f i) <= 1) -> Rabs (rprod n f) <= 1.
Proof.
  induction n as [|n IH]; intros f H; simpl; [rewrite Rabs_R1; lra|]. rewrite Rabs_mult.
  pose proof (IH f (fun i Hi => H i (Nat.lt_lt_succ_r _ _ Hi))) as A. pose proof (H n (Nat.lt_succ_diag_r n)) as B.
  pose proof (Rabs_pos (rprod n f)). pose proof (Rabs_pos (f n)). nra.
Qed.
Lemma rprod_1 : forall n f, (forall i, (i < n)%nat -> f i = 1) -> rprod n f = 1.
Proof. induction n as [|n IH]; intros f H; simpl; [reflexivity|]. rewrite IH, H; [ring|lia|]. intros i Hi. apply H. lia. Qed.

Lemma Griewank_min : forall dim, minimum_ok 0 (Griewank dim).
Proof.
  intros dim. apply minimum_intro.
  - apply ones_len.
  - apply Rabs_0. cbv zeta. rewrite ones_len.
    rewrite rprod_1 by (intros i Hi; rewrite ones_0; unfold Rdiv; rewrite Rmult_0_l; apply cos_0).
    rewrite rsum_0 by (intros i Hi; rewrite ones_0; ring). ring.
  - intros x Lx _. cbv zeta. rewrite Lx.
    pose proof (@rsum_nonneg dim (fun i => x.[i] ^ 2) (fun i _ => pow2_ge_0 _)) as A.
    pose proof (@rprod_abs_le dim (fun i => cos (x.[i] / sqrt (INR (i + 1))))) as B.
    assert (B' : Rabs (rprod dim (fun i => cos (x.[i] / sqrt (INR (i + 1))))) <= 1).
    { apply B. intros i Hi. pose proof (COS_bound (x.[i] / sqrt (INR (i + 1)))). apply Rabs_le. lra. }
    pose proof (Rle_abs (rprod dim (fun i => cos (x.[i] / sqrt (INR (i + 1)))))). lra.
Qed.

Lemma Levy_min : forall dim, (1 <= dim)%nat -> minimum_ok 0 (Levy dim).
Proof.
  intros dim Hd. apply minimum_intro.
  - apply ones_len.
  - apply Rabs_0. cbv zeta. rewrite rsum_0.
    + rewrite !ones_nth by lia. replace (PI * (1 + (1 - 1) / 4)) with PI by field. rewrite sin_PI. field.
    + intros i Hi. rewrite !ones_nth by lia. field.
  - intros x Lx _. cbv zeta.
    assert (A : forall u c s, 0 <= c -> 0 <= u ^ 2 * (1 + c * s ^ 2)).
    { intros u c s Hc. apply Rmult_le_pos; [apply pow2_ge_0|]. pose proof (pow2_ge_0 s). nra. }
    pose proof (pow2_ge_0 (sin (PI * (1 + (x.[0] - 1) / 4)))) as A1.
    match goal with |- _ <= _ + rsum ?n ?f + ?c => pose proof (@rsum_nonneg n f) as A2; assert (A3 : 0 <= c) end.
    { pose proof (A (1 + (x.[dim - 1] - 1) / 4 - 1) 1 (sin (2 * PI * (1 + (x.[dim - 1] - 1) / 4)))). rewrite Rmult_1_l in H. apply H. lra. }
    assert (A2' := A2 (fun i _ => A _ 10 _ ltac:(lra))). lra.
Qed.

Lemma Perm_min : forall dim, minimum_ok 0 (Perm dim).
Proof.
  intros dim. apply minimum_intro.
  - rewrite map_length, seq_length. reflexivity.
  - apply Rabs_0. cbv zeta. rewrite map_length, seq_length. apply rsum_0. intros i Hi.
    rewrite rsum_0; [ring|]. intros j Hj.
    rewrite nth_indep with (d' := 1 / INR 0) by (rewrite map_length, seq_length; lia).
    rewrite (map_nth (fun j => 1 / INR j) (seq 1 dim) 0%nat j). rewrite seq_nth by lia. replace (1 + j)%nat with (j + 1)%nat by lia. ring.
  - intros x Lx _. cbv zeta. rewrite Rminus_0_r. apply rsum_nonneg. intros i Hi. apply pow2_ge_0.
Qed.

Lemma Rastrigin_min : forall dim, minimum_ok 0 (Rastrigin dim).
Proof.
  intros dim. apply minimum_intro.
  - apply ones_len.
  - apply Rabs_0. rewrite (@rsum_ext dim _ (fun _ => -10)).
    + rewrite rsum_const. ring.
    + intros i Hi. rewrite ones_0, Rmult_0_r, cos_0. ring.
  - intros x Lx _.
    pose proof (@rsum_le dim (fun _ => -10) (fun i => x.[i] ^ 2 - 10 * cos (2 * PI * x.[i]))) as A.
    rewrite rsum_const in A. assert (A' := A (fun i _ => ltac:(pose proof (pow2_ge_0 x.[i]); pose proof (COS_bound (2 * PI * x.[i])); lra))). lra.
Qed.

Lemma Rosenbrock_min : forall dim, minimum_ok 0 (Rosenbrock dim).
Proof.
  intros dim. apply minimum_intro.
  - apply ones_len.
  - apply Rabs_0. rewrite ones_len. apply rsum_0. intros i Hi. rewrite !ones_nth by lia. ring.
  - intros x Lx _. rewrite Rminus_0_r. apply rsum_nonneg. intros i Hi.
    pose proof (pow2_ge_0 (x.[i] ^ 2 - x.[i + 1])). pose proof (pow2_ge_0 (x.[i] - 1)). lra.
Qed.

Lemma Sphere_min : forall dim, minimum_ok 0 (Sphere dim).
Proof.
  intros dim. apply minimum_intro.
  - apply ones_len.
  - apply Rabs_0. apply rsum_0. intros i Hi. rewrite ones_0. ring.
  - intros x Lx _. rewrite Rminus_0_r. apply rsum_nonneg. intros i Hi. apply pow2_ge_0.
Qed.

Lemma SumOfSquares_min : forall dim, minimum_ok 0 (SumOfSquares dim).
Proof.
  intros dim. apply minimum_intro.
  - apply ones_len.
  - apply Rabs_0. apply rsum_0. intros i Hi. rewrite ones_0. ring.
  - intros x Lx _. rewrite Rminus_0_r. apply rsum_nonneg. intros i Hi.
    apply Rmult_le_pos; [apply pos_INR|apply pow2_ge_0].
Qed.

Lemma Zakharov_min : forall dim, minimum_ok 0 (Zakharov dim).
Proof.
  intros dim. apply minimum_intro.
  - apply ones_len.
  - apply Rabs_0. rewrite !rsum_0; [ring| |]; intros i Hi; rewrite ones_0; ring.
  - intros x Lx _. rewrite Rminus_0_r.
    pose proof (@rsum_nonneg dim (fun i => x.[i] ^ 2) (fun i _ => pow2_ge_0 _)).
    set (s := rsum dim (fun i => 5/10 * INR (1 + i) * x.[i])).
    pose proof (pow2_ge_0 s). pose proof (pow4_nonneg s). lra.
Qed.

(** cos (PI * 3^k) = -1 *)
Lemma cos_odd : forall n, cos (PI * INR (2 * n + 1)) = -1.
Proof.
  intros n. replace (PI * INR (2 * n + 1)) with (PI + 2 * INR n * PI) by (rewrite plus_INR, mult_INR; simpl; ring).
  rewrite cos_period. apply cos_PI.
Qed.
Lemma pow3_odd : forall k, exists n, (3 ^ k = INR (2 * n + 1)).
Proof.
  induction k as [|k [n E]]; [exists 0%nat; simpl; ring|]. exists (3 * n + 1)%nat. simpl pow. rewrite E.
  rewrite <- (INR_IZR_INZ 3) || idtac. replace 3 with (INR 3) by (simpl; ring). rewrite <- mult_INR. f_equal. lia.
Qed.
Lemma cos_pow3 : forall k, cos (PI * 3 ^ k) = -1.
Proof. intros k. destruct (pow3_odd k) as [n ->]. apply cos_odd. Qed.

Lemma Weierstrass_min : forall dim, (1 <= dim)%nat -> minimum_ok 0 (Weierstrass dim).
Proof.
  intros dim Hd. set (w := rsum 12 (fun k => 1 / 2 ^ k)).
  assert (F0 : rsum 12 (fun k => 1 / 2 ^ k * cos (PI * 3 ^ k)) = - w).
  { unfold w. replace (- rsum 12 (fun k => 1 / 2 ^ k)) with (-1 * rsum 12 (fun k => 1 / 2 ^ k)) by ring.
    rewrite <- rsum_scal. apply rsum_ext. intros k _. rewrite cos_pow3. ring. }
  assert (Pk : forall k, 0 < 1 / 2 ^ k).
  { intros k. apply Rdiv_lt_0_compat; [lra|]. apply pow_lt. lra. }
  apply minimum_intro.
  - apply ones_len.
  - apply Rabs_0. cbv zeta. rewrite ones_len, F0.
    rewrite (@rsum_ext 12 _ (fun k => (- INR dim) * (1 / 2 ^ k))).
    + rewrite rsum_scal. fold w. field. apply not_0_INR. lia.
    + intros k _. rewrite (@rsum_ext dim _ (fun _ => - (1 / 2 ^ k))).
      * rewrite rsum_const. ring.
      * intros i Hi. rewrite ones_0. replace (2 * PI * 3 ^ k * (0 + 5 / 10)) with (PI * 3 ^ k) by field. rewrite cos_pow3. ring.
  - intros x Lx _. cbv zeta. rewrite Lx, F0. rewrite Rminus_0_r.
    set (val := rsum 12 _).
    assert (V : - INR dim * w <= val).
    { unfold val, w. rewrite <- rsum_scal. apply rsum_le. intros k _.
      replace (- INR dim * (1 / 2 ^ k)) with (INR dim * (- (1 / 2 ^ k))) by ring. rewrite <- rsum_const. apply rsum_le. intros i Hi.
      pose proof (COS_bound (2 * PI * 3 ^ k * (x.[i] + 5 / 10))). pose proof (Pk k). nra. }
    assert (U : 0 <= 1 / INR dim * val - - w).
    { pose proof (INR_pos Hd) as I. assert (- w <= 1 / INR dim * val); [|lra].
      apply Rmult_le_reg_l with (INR dim); [exact I|]. replace (INR dim * (1 / INR dim * val)) with val by (field; lra). lra. }
    apply Rmult_le_pos; [lra|]. apply pow_le. exact U.
Qed.
