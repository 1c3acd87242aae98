(** * Benchmark problems whose declared minimum is a rounded number *)
From Coq Require Import List Arith ZArith Lia Bool Reals Lra Psatz Ratan Machin.
From Verif Require Import Base Box Lin LinProofs Problems ProblemSpec ProblemProofs.
Import ListNotations.

Set Implicit Arguments.
Local Open Scope R_scope.

Lemma PI_bounds : 314159265358/100000000000 <= PI <= 314159265359/100000000000.
Proof.
  pose proof (PI_2_3_7_ineq 7) as [A _]. pose proof (PI_2_3_7_ineq 7) as [_ B].
  unfold sum_f_R0, tg_alt, PI_2_3_7_tg, Ratan_seq in A, B. cbn [Nat.mul Nat.add sum_f_R0] in A, B.
  simpl INR in A, B. simpl pow in A, B. split; lra.
Qed.

(** ** Branin *)
Lemma Branin_min : minimum_ok (1/1000000) Branin.
Proof.
  pose proof PI_bounds as HP.
  assert (T : 397887/1000000 - 1/1000000 <= 10 * (1 / (8 * PI)) <= 397887/1000000 + 1/1000000).
  { split; (apply Rmult_le_reg_r with (8 * PI); [lra|]; replace (10 * (1 / (8 * PI)) * (8 * PI)) with 10 by (field; lra); lra). }
  apply minimum_intro; [reflexivity| |].
  - cbv zeta. cbn [nth]. rewrite cos_neg, cos_PI.
    replace (12275 / 1000 - 51 / 10 / (4 * PI ^ 2) * (- PI) ^ 2 + 5 / PI * - PI - 6) with 0 by (field; lra).
    apply Rabs_le. lra.
  - intros x _ _. cbv zeta. pose proof (COS_bound (x.[0])) as C.
    match goal with |- _ <= 1 * ?u ^ 2 + _ + _ => pose proof (pow2_ge_0 u) as S; set (w := u ^ 2) in * end.
    set (t := 1 / (8 * PI)) in *. assert (t <= 1) by lra. nra.
Qed.

(** ** Himmelblau *)
Lemma Himmelblau_min : forall dim, (1 <= dim)%nat -> minimum_ok (1/1000000000) (Himmelblau dim).
Proof.
  intros dim Hd. assert (E0 : forall S n, 5/10 * S / n = 5/10 * (S / n)) by (intros; unfold Rdiv; ring).
  apply minimum_intro.
  - apply ones_len.
  - rewrite E0. set (c := - (2903534027771178 / 1000000000000000)).
    assert (A := @avg_const dim (fun i => (ones c dim).[i] ^ 4 - 16 * (ones c dim).[i] ^ 2 + 5 * (ones c dim).[i]) (c ^ 4 - 16 * c ^ 2 + 5 * c) Hd).
    rewrite A by (intros i Hi; rewrite ones_nth by exact Hi; reflexivity).
    unfold c. apply Rabs_le. lra.
  - intros x Lx D. rewrite E0.
    set (m := 2 * (- (39166165703771412 / 1000000000000000) - 1/1000000000)).
    assert (A : m <= rsum dim (fun i => x.[i] ^ 4 - 16 * x.[i] ^ 2 + 5 * x.[i]) / INR dim).
    { apply avg_ge; [exact Hd|]. intros i Hi. specialize (D i Hi). set (y := x.[i]) in *.
      set (c := - (2903534027771178 / 1000000000000000)).
      assert (E : y ^ 4 - 16 * y ^ 2 + 5 * y =
        (y - c) ^ 2 * (y ^ 2 + 2 * c * y + (3 * c ^ 2 - 16)) + (4 * c ^ 3 - 32 * c + 5) * (y - c) + (c ^ 4 - 16 * c ^ 2 + 5 * c)) by ring.
      rewrite E. assert (Q : 0 <= y ^ 2 + 2 * c * y + (3 * c ^ 2 - 16)).
      { replace (y ^ 2 + 2 * c * y + (3 * c ^ 2 - 16)) with ((y + c) ^ 2 + (2 * c ^ 2 - 16)) by ring.
        pose proof (pow2_ge_0 (y + c)). assert (0 <= 2 * c ^ 2 - 16) by (unfold c; lra). lra. }
      pose proof (Rmult_le_pos _ _ (pow2_ge_0 (y - c)) Q) as S.
      assert (G : - (1/10000000000) <= 4 * c ^ 3 - 32 * c + 5 <= 1/10000000000) by (unfold c; lra).
      assert (V : m + 1/500000000 - 1/10000000000 <= c ^ 4 - 16 * c ^ 2 + 5 * c) by (unfold c, m; lra).
      set (g := 4 * c ^ 3 - 32 * c + 5) in *. assert (Y : -10 <= y - c <= 10) by (unfold c; lra).
      assert (- (1/1000000000) <= g * (y - c)) by nra. lra. }
    unfold m in A. lra.
Qed.

(** ** SixHumpCamel *)
Lemma six_hump_bound : forall a b, 
  - (10326/10000) <= (4 - 21/10 * a ^ 2 + a ^ 4 / 3) * a ^ 2 + a * b + (-4 + 4 * b ^ 2) * b ^ 2.
Proof.
  assert (H : forall a b, 0 <= a -> - (10326/10000) <= (4 - 21/10 * a ^ 2 + a ^ 4 / 3) * a ^ 2 + a * b + (-4 + 4 * b ^ 2) * b ^ 2).
  { intros a b Ha. pose (c := 3/17). pose (k := (1 + c * a) / 2).
    assert (E : (4 - 21/10 * a ^ 2 + a ^ 4 / 3) * a ^ 2 + a * b + (-4 + 4 * b ^ 2) * b ^ 2 =
      4 * (b ^ 2 - k) ^ 2 + 4 * c * a * (b + 17/24) ^ 2 +
      (a ^ 6 / 3 - 21/10 * a ^ 4 + (4 - c ^ 2) * a ^ 2 - (2 * c + 17/48) * a - 1)).
    { unfold k, c. field. }
    rewrite E. pose proof (pow2_ge_0 (b ^ 2 - k)) as S1. pose proof (pow2_ge_0 (b + 17/24)) as S2.
    assert (S3 : 0 <= 4 * c * a * (b + 17/24) ^ 2) by (apply Rmult_le_pos; [unfold c; lra|exact S2]).
    pose (q := a ^ 4 / 3 + 3/50 * a ^ 3 - 20919/10000 * a ^ 2 - 94257/250000 * a + 22645678643/5780000000).
    assert (U : a ^ 6 / 3 - 21/10 * a ^ 4 + (4 - c ^ 2) * a ^ 2 - (2 * c + 17/48) * a - 1 =
      (a - 9/100) ^ 2 * q + 5092889483/4335000000000 * (a - 9/100) + 280457486483/289000000000000 - 10326/10000).
    { unfold q, c. field. }
    assert (Q : 1/4 <= q).
    { unfold q. replace (a ^ 4 / 3) with (1/3 * (a ^ 2 - 3) ^ 2 + 2 * a ^ 2 - 3) by field.
      pose proof (pow2_ge_0 (a ^ 2 - 3)) as T1. pose proof (pow2_ge_0 (a - 2)) as T2.
      assert (T3 : 0 <= a * (a - 2) ^ 2) by (apply Rmult_le_pos; assumption). nra. }
    assert (V : 1/4 * (a - 9/100) ^ 2 <= (a - 9/100) ^ 2 * q).
    { rewrite Rmult_comm. apply Rmult_le_compat_l; [apply pow2_ge_0|exact Q]. }
    rewrite U. set (d := a - 9/100) in *.
    assert (W : 0 <= 1/4 * d ^ 2 + 5092889483/4335000000000 * d + 280457486483/289000000000000).
    { pose proof (pow2_ge_0 (d + 1/400)). nra. }
    lra. }
  intros a b. destruct (Rle_lt_dec 0 a) as [Ha|Ha]; [apply H; exact Ha|].
  specialize (H (- a) (- b) ltac:(lra)).
  replace ((4 - 21 / 10 * (- a) ^ 2 + (- a) ^ 4 / 3) * (- a) ^ 2 + - a * - b + (-4 + 4 * (- b) ^ 2) * (- b) ^ 2)
    with ((4 - 21/10 * a ^ 2 + a ^ 4 / 3) * a ^ 2 + a * b + (-4 + 4 * b ^ 2) * b ^ 2) in H by field. exact H.
Qed.

Lemma SixHumpCamel_min : minimum_ok (1/1000) SixHumpCamel.
Proof.
  apply minimum_intro; [reflexivity| |].
  - cbn [nth]. apply Rabs_le. lra.
  - intros x _ _. pose proof (six_hump_bound x.[0] x.[1]). lra.
Qed.
