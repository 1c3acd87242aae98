(** * The Schwefel problem *)
From Coq Require Import List Arith ZArith Lia Bool Reals Lra Psatz.
From Verif Require Import Base Box Lin LinProofs Problems ProblemSpec ProblemProofs ProblemApprox.
Import ListNotations.

Set Implicit Arguments.
Local Open Scope R_scope.

Lemma fact_vals : INR (fact 0) = 1 /\ INR (fact 2) = 2 /\ INR (fact 4) = 24 /\ INR (fact 6) = 720 /\ INR (fact 8) = 40320.
Proof. rewrite !INR_IZR_INZ.
  replace (Z.of_nat (fact 0)) with 1%Z by (vm_compute; reflexivity).
  replace (Z.of_nat (fact 2)) with 2%Z by (vm_compute; reflexivity).
  replace (Z.of_nat (fact 4)) with 24%Z by (vm_compute; reflexivity).
  replace (Z.of_nat (fact 6)) with 720%Z by (vm_compute; reflexivity).
  replace (Z.of_nat (fact 8)) with 40320%Z by (vm_compute; reflexivity). lra. Qed.
Lemma cos_upper4 : forall e, -2 <= e <= 2 -> cos e <= 1 - e ^ 2 / 2 + e ^ 4 / 24.
Proof.
  intros e [H1 H2]. pose proof (proj2 (pre_cos_bound e 0 H1 H2)) as A.
  destruct fact_vals as (F0 & F2 & F4 & F6 & F8).
  unfold cos_approx, cos_term in A.
  change (2 * (0 + 1))%nat with 2%nat in A. cbn [sum_f_R0] in A.
  change (2*0)%nat with 0%nat in A. change (2*1)%nat with 2%nat in A. change (2*2)%nat with 4%nat in A.
  change (2*3)%nat with 6%nat in A. change (2*4)%nat with 8%nat in A. rewrite ?F0, ?F2, ?F4, ?F6, ?F8 in A.
  lra.
Qed.
Lemma cos_lower6 : forall e, -2 <= e <= 2 -> 1 - e ^ 2 / 2 + e ^ 4 / 24 - e ^ 6 / 720 <= cos e.
Proof.
  intros e [H1 H2]. pose proof (proj1 (pre_cos_bound e 1 H1 H2)) as A.
  destruct fact_vals as (F0 & F2 & F4 & F6 & F8).
  unfold cos_approx, cos_term in A.
  change (2 * 1 + 1)%nat with 3%nat in A. cbn [sum_f_R0] in A.
  change (2*0)%nat with 0%nat in A. change (2*1)%nat with 2%nat in A. change (2*2)%nat with 4%nat in A.
  change (2*3)%nat with 6%nat in A. change (2*4)%nat with 8%nat in A. rewrite ?F0, ?F2, ?F4, ?F6, ?F8 in A.
  lra.
Qed.
Lemma cos_upper8 : forall e, -2 <= e <= 2 -> cos e <= 1 - e ^ 2 / 2 + e ^ 4 / 24 - e ^ 6 / 720 + e ^ 8 / 40320.
Proof.
  intros e [H1 H2]. pose proof (proj2 (pre_cos_bound e 1 H1 H2)) as A.
  destruct fact_vals as (F0 & F2 & F4 & F6 & F8).
  unfold cos_approx, cos_term in A.
  change (2 * (1 + 1))%nat with 4%nat in A. cbn [sum_f_R0] in A.
  change (2*0)%nat with 0%nat in A. change (2*1)%nat with 2%nat in A. change (2*2)%nat with 4%nat in A.
  change (2*3)%nat with 6%nat in A. change (2*4)%nat with 8%nat in A. rewrite ?F0, ?F2, ?F4, ?F6, ?F8 in A.
  lra.
Qed.

Lemma sin_shift13 : forall e, sin (13 * PI / 2 + e) = cos e.
Proof.
  intros e. replace (13 * PI / 2 + e) with ((PI / 2 + e) + 2 * INR 3 * PI) by (simpl; field).
  rewrite sin_period. symmetry. apply cos_sin.
Qed.

Definition gmax : R := 4189829/10000.

Lemma schwefel_pos : forall t, 0 <= t -> t ^ 2 <= 512 -> t ^ 2 * sin t <= gmax.
Proof.
  intros t H0 H1. unfold gmax. pose proof PI_bounds as HP. pose proof (SIN_bound t) as SB.
  assert (T2 : 0 <= t ^ 2) by apply pow2_ge_0.
  destruct (Rle_lt_dec (t ^ 2) (4189829/10000)) as [Hs|Hs]; [nra|].
  assert (B : t <= 22628/1000) by nra. assert (A : 20469/1000 <= t) by nra.
  pose (e := t - 13 * PI / 2). assert (Et : t = 13 * PI / 2 + e) by (unfold e; ring).
  assert (He : 48/1000 <= e <= 2208/1000) by (unfold e; lra).
  rewrite Et at 2. rewrite sin_shift13.
  destruct (Rle_lt_dec (PI / 2) e) as [Hc|Hc].
  { assert (cos e <= 0) by (apply cos_le_0; lra). nra. }
  assert (C1 : 0 <= cos e) by (apply cos_ge_0; lra).
  pose proof (@cos_upper4 e ltac:(lra)) as C2.
  pose (p := 204203522484/10000000000). assert (Hp : t <= p + e) by (unfold p, e; lra).
  assert (S : t ^ 2 <= (p + e) ^ 2) by (apply pow_incr; lra).
  assert (M : t ^ 2 * cos e <= (p + e) ^ 2 * (1 - e ^ 2 / 2 + e ^ 4 / 24)).
  { apply Rmult_le_compat; [exact T2|exact C1|exact S|exact C2]. }
  apply Rle_trans with (1 := M).
  pose (e0 := 9717/100000). pose (d := e - e0).
  pose (q := - (1/24) * e ^ 4 - 17097935207/10000000000 * e ^ 3 - 860325196848631348547/50000000000000000000 * e ^ 2
     + 42731460397320878521743801/2500000000000000000000000 * e + 105489814871562192023481135817951/500000000000000000000000000000).
  assert (F : 4189829/10000 - (p + e) ^ 2 * (1 - e ^ 2 / 2 + e ^ 4 / 24) =
     d ^ 2 * q - 3894803422596409707520691294211/12500000000000000000000000000000000 * d
     + 61164339468270055309152018755389213/5000000000000000000000000000000000000000).
  { unfold d, e0, q, p. field. }
  assert (Ee : 0 <= e <= 17/10) by lra. pose proof (pow_incr e _ 2 Ee) as E2. pose proof (pow_incr e _ 3 Ee) as E3. pose proof (pow_incr e _ 4 Ee) as E4.
  assert (Q : 100 <= q) by (unfold q; lra).
  assert (V : 100 * d ^ 2 <= d ^ 2 * q) by (rewrite Rmult_comm; apply Rmult_le_compat_l; [apply pow2_ge_0|exact Q]).
  assert (W : 0 <= 100 * d ^ 2 - 3894803422596409707520691294211/12500000000000000000000000000000000 * d
     + 61164339468270055309152018755389213/5000000000000000000000000000000000000000).
  { clear - d. clearbody d. pose proof (pow2_ge_0 (d - 1/1000000)). nra. }
  lra.
Qed.

Lemma schwefel_neg : forall t, 0 <= t -> t ^ 2 <= 512 -> - (t ^ 2 * sin t) <= gmax.
Proof.
  intros t H0 H1. unfold gmax. pose proof PI_bounds as HP. pose proof (SIN_bound t) as SB.
  assert (T2 : 0 <= t ^ 2) by apply pow2_ge_0.
  destruct (Rle_lt_dec (t ^ 2) (4189829/10000)) as [Hs|Hs]; [nra|].
  assert (B : t <= 22628/1000) by nra. assert (A : 20469/1000 <= t) by nra.
  pose (e := t - 13 * PI / 2). assert (Et : t = 13 * PI / 2 + e) by (unfold e; ring).
  assert (He : 48/1000 <= e <= 2208/1000) by (unfold e; lra).
  rewrite Et at 2. rewrite sin_shift13.
  assert (C : cos (PI - e) <= cos (93/100)).
  { destruct (Req_dec (93/100) (PI - e)) as [E|E]; [rewrite <- E; lra|]. left. apply cos_decreasing_1; lra. }
  pose proof (@cos_upper4 (93/100) ltac:(lra)) as C2.
  replace (cos (PI - e)) with (- cos e) in C.
  - assert (- cos e <= 7/10) by lra. nra.
  - rewrite cos_minus, cos_PI, sin_PI. ring.
Qed.

Lemma schwefel_coord : forall y, -512 <= y <= 512 -> y * sin (sqrt (Rabs y)) <= gmax.
Proof.
  intros y Hy. set (t := sqrt (Rabs y)). assert (T : t ^ 2 = Rabs y) by (unfold t; simpl; rewrite Rmult_1_r; apply sqrt_sqrt, Rabs_pos).
  assert (T0 : 0 <= t) by apply sqrt_pos.
  assert (TB : t ^ 2 <= 512) by (rewrite T; apply Rabs_le; lra).
  destruct (Rle_lt_dec 0 y) as [H|H].
  - rewrite Rabs_right in T by lra. rewrite <- T. apply schwefel_pos; assumption.
  - rewrite Rabs_left in T by lra. replace y with (- t ^ 2) by lra. replace (- t ^ 2 * sin t) with (- (t ^ 2 * sin t)) by ring.
    apply schwefel_neg; assumption.
Qed.

(** the value of one coordinate at the declared minimizer *)
Lemma schwefel_at : let y := 420968746/1000000 in
  127/10000000 <= gmax - y * sin (sqrt (Rabs y)) <= 128/10000000.
Proof.
  intros y. pose proof PI_bounds as HP. rewrite Rabs_right by (unfold y; lra).
  set (t := sqrt y). assert (T0 : 0 <= t) by apply sqrt_pos.
  assert (T : t ^ 2 = y) by (unfold t; simpl; rewrite Rmult_1_r; apply sqrt_sqrt; unfold y; lra).
  assert (A : 205175229011/10000000000 <= t <= 205175229012/10000000000) by (unfold y in T; split; nra).
  pose (e := t - 13 * PI / 2). assert (Et : t = 13 * PI / 2 + e) by (unfold e; ring).
  assert (He : 971706526/10000000000 <= e <= 971706531/10000000000) by (unfold e; lra).
  rewrite Et. rewrite sin_shift13.
  pose proof (@cos_lower6 e ltac:(lra)) as C1. pose proof (@cos_upper8 e ltac:(lra)) as C2.
  pose (el := 971706526/10000000000). pose (eh := 971706531/10000000000).
  assert (P2 : el ^ 2 <= e ^ 2 <= eh ^ 2) by (split; apply pow_incr; unfold el, eh; lra).
  assert (P4 : el ^ 4 <= e ^ 4 <= eh ^ 4) by (split; apply pow_incr; unfold el, eh; lra).
  assert (P6 : el ^ 6 <= e ^ 6 <= eh ^ 6) by (split; apply pow_incr; unfold el, eh; lra).
  assert (P8 : el ^ 8 <= e ^ 8 <= eh ^ 8) by (split; apply pow_incr; unfold el, eh; lra).
  unfold gmax, y, el, eh in *. split; lra.
Qed.

(** For every dimension the value at the declared minimizer is between 1.27e-5 and 1.28e-5 times
    the dimension, and the lower bound 0 is exact. *)
Lemma Schwefel_value : forall dim, exists v,
  eval (Schwefel dim) (ones (420968746/1000000) dim) = Ok v /\ 127/10000000 * INR dim <= v <= 128/10000000 * INR dim.
Proof.
  intros dim. eexists. split; [apply eval_at; apply ones_len|]. unfold Schwefel, cont_problem, q_body. rewrite ones_len.
  set (y := 420968746/1000000). rewrite (@rsum_ext dim _ (fun _ => y * sin (sqrt (Rabs y)))).
  - rewrite rsum_const. pose proof schwefel_at as A. cbv zeta in A. fold y in A. pose proof (pos_INR dim). unfold gmax in A.
    set (g := y * sin (sqrt (Rabs y))) in *. split; nra.
  - intros i Hi. rewrite ones_nth by exact Hi. reflexivity.
Qed.
Lemma Schwefel_lower : forall dim x v, in_domain (Schwefel dim) x -> eval (Schwefel dim) x = Ok v -> 0 <= v.
Proof.
  intros dim x v [D1 D2] E. apply eval_ok in E. destruct E as [Lx ->]. unfold Schwefel, cont_problem, q_body, q_dim in *.
  rewrite D1. cbn [q_lb q_ub] in D2.
  assert (rsum dim (fun i => x.[i] * sin (sqrt (Rabs x.[i]))) <= INR dim * gmax).
  { rewrite <- rsum_const. apply rsum_le. intros i Hi. specialize (D2 i Hi). rewrite !ones_nth in D2 by exact Hi. apply schwefel_coord; lra. }
  unfold gmax in *. lra.
Qed.
Lemma Schwefel_min : forall dim, minimum_ok (128/10000000 * INR dim) (Schwefel dim).
Proof.
  intros dim. exists 0, (ones (420968746/1000000) dim). split; [reflexivity|]. split; [reflexivity|]. split.
  - destruct (Schwefel_value dim) as (v & E & B). exists v. split; [exact E|]. pose proof (pos_INR dim). rewrite Rminus_0_r. apply Rabs_le. lra.
  - intros x v D E. pose proof (@Schwefel_lower dim x v D E). pose proof (pos_INR dim). lra.
Qed.
