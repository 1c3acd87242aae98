(** * C51, C52: the benchmark problems *)
From Coq Require Import List Arith ZArith Lia Bool Reals Lra Psatz.
From Verif Require Import Base Box Lin LinProofs Problems ProblemSpec ProblemProofs ProblemApprox ProblemSchwefel HartmannMin.
Import ListNotations.

Set Implicit Arguments.
Local Open Scope R_scope.

Lemma Schwefel_min_78 : forall dim, (dim <= 78)%nat -> minimum_ok (1/1000) (Schwefel dim).
Proof.
  intros dim H. apply minimum_ok_weaken with (2 := Schwefel_min dim).
  assert (INR dim <= INR 78) by (apply le_INR; exact H). rewrite (INR_IZR_INZ 78) in H0. simpl in H0. lra.
Qed.

(** Every benchmark problem with a declared minimum attains it at its declared minimizer and
    nowhere in its domain a smaller value, up to 1e-3, in every dimension; for Schwefel only up to
    dimension 78. *)
Theorem C51_minimum_partial : forall dim P, (1 <= dim)%nat -> In P (benchmarks dim) -> q_min P <> None ->
  (P = Schwefel dim -> dim <= 78)%nat -> minimum_ok (1/1000) P.
Proof.
  intros dim P Hd HI HM HS. cbn [benchmarks In] in HI.
  assert (W : forall t Q, t <= 1/1000 -> minimum_ok t Q -> minimum_ok (1/1000) Q) by (intros t Q; apply minimum_ok_weaken).
  assert (Z : 0 <= 1/1000) by lra.
  repeat (destruct HI as [E|HI]; [subst P|]); try (exfalso; exact HI).
  - apply (W 0 _ Z). apply Ackley_min. exact Hd.
  - apply (W (1/1000000)); [lra|]. exact Branin_min.
  - apply (W 0 _ Z). apply Exponential_min.
  - apply (W 0 _ Z). exact GoldsteinPrice_min.
  - apply (W 0 _ Z). apply Griewank_min.
  - exact Hartmann3_min.
  - exact Hartmann6_min.
  - apply (W (1/1000000000)); [lra|]. apply Himmelblau_min. exact Hd.
  - apply (W 0 _ Z). apply Levy_min. exact Hd.
  - exfalso. apply HM. reflexivity.
  - apply (W 0 _ Z). apply Perm_min.
  - apply (W 0 _ Z). apply Rastrigin_min.
  - apply (W 0 _ Z). apply Rosenbrock_min.
  - apply Schwefel_min_78. apply HS. reflexivity.
  - exact SixHumpCamel_min.
  - apply (W 0 _ Z). apply Sphere_min.
  - apply (W 0 _ Z). apply SumOfSquares_min.
  - apply (W 0 _ Z). apply Weierstrass_min. exact Hd.
  - apply (W 0 _ Z). apply Zakharov_min.
Qed.

(** For these the declared minimum is exact. *)
Theorem C51_exact_minimum : forall dim P, (1 <= dim)%nat ->
  In P [Ackley dim; Exponential dim; GoldsteinPrice; Griewank dim; Levy dim; Perm dim; Rastrigin dim; Rosenbrock dim;
        Sphere dim; SumOfSquares dim; Weierstrass dim; Zakharov dim] -> minimum_ok 0 P.
Proof.
  intros dim P Hd HI. cbn [In] in HI. repeat (destruct HI as [E|HI]; [subst P|]); try (exfalso; exact HI).
  - apply Ackley_min. exact Hd.
  - apply Exponential_min.
  - exact GoldsteinPrice_min.
  - apply Griewank_min.
  - apply Levy_min. exact Hd.
  - apply Perm_min.
  - apply Rastrigin_min.
  - apply Rosenbrock_min.
  - apply Sphere_min.
  - apply SumOfSquares_min.
  - apply Weierstrass_min. exact Hd.
  - apply Zakharov_min.
Qed.

(** From dimension 79 on, eval at Schwefel's declared minimizer exceeds the declared minimum by
    more than 1e-3; in no dimension is a value of the domain below the declared minimum. *)
Theorem C51_schwefel_refuted : forall dim, (79 <= dim)%nat -> ~ minimum_ok (1/1000) (Schwefel dim).
Proof.
  intros dim H (m & xm & E1 & E2 & (v & Ev & Hv) & _). inversion E1; subst m. inversion E2; subst xm.
  destruct (Schwefel_value dim) as (v' & Ev' & B). rewrite Ev in Ev'. inversion Ev'; subst v'.
  assert (INR 79 <= INR dim) by (apply le_INR; exact H). rewrite (INR_IZR_INZ 79) in H0. simpl in H0.
  rewrite Rminus_0_r in Hv. pose proof (Rle_abs v). lra.
Qed.
Theorem C51_schwefel_lower : forall dim x v, in_domain (Schwefel dim) x -> eval (Schwefel dim) x = Ok v -> 0 <= v.
Proof. exact Schwefel_lower. Qed.

(** Every declared minimizer other than Branin's lies in the domain. *)
Lemma ones_feasible : forall dim lo hi m f c, lo <= c <= hi ->
  minimizer_feasible (cont_problem dim lo hi m (Some (ones c dim)) f).
Proof.
  intros dim lo hi m f c Hc xm E. inversion E; subst xm. split; [apply ones_len|].
  intros i Hi. cbn [cont_problem q_lb q_ub q_dim] in *. rewrite !ones_nth by exact Hi. exact Hc.
Qed.

Theorem C52_feasible_partial : forall dim P, In P (benchmarks dim) -> P <> Branin -> minimizer_feasible P.
Proof.
  intros dim P HI HB. cbn [benchmarks In] in HI.
  repeat (destruct HI as [E|HI]; [subst P|]); try (exfalso; exact HI); try (apply ones_feasible; lra).
  - exfalso. apply HB. reflexivity.
  - intros xm E. inversion E; subst xm. split; [reflexivity|]. intros i Hi. cbn [q_dim GoldsteinPrice cont_problem] in Hi.
    do 2 (destruct i as [|i]; [cbn [nth q_lb q_ub GoldsteinPrice cont_problem ones repeat]; lra|]). lia.
  - intros xm E. inversion E; subst xm. split; [reflexivity|]. intros i Hi. cbn [q_dim Hartmann3 cont_problem] in Hi.
    do 3 (destruct i as [|i]; [cbn [nth q_lb q_ub Hartmann3 cont_problem ones repeat]; lra|]). lia.
  - intros xm E. inversion E; subst xm. split; [reflexivity|]. intros i Hi. cbn [q_dim Hartmann6 cont_problem] in Hi.
    do 6 (destruct i as [|i]; [cbn [nth q_lb q_ub Hartmann6 cont_problem ones repeat]; lra|]). lia.
  - intros xm E. discriminate E.
  - intros xm E. inversion E; subst xm. split; [rewrite map_length, seq_length; reflexivity|].
    intros i Hi. cbn [q_dim q_lb q_ub Perm cont_problem] in *. rewrite !ones_nth by exact Hi.
    rewrite nth_indep with (d' := 1 / INR 0) by (rewrite map_length, seq_length; lia).
    rewrite (map_nth (fun j => 1 / INR j) (seq 1 dim) 0%nat i). rewrite seq_nth by lia.
    assert (A : 1 <= INR (1 + i)) by (replace 1 with (INR 1) at 1 by reflexivity; apply le_INR; lia).
    assert (B : 0 < 1 / INR (1 + i) <= 1).
    { split; [apply Rdiv_lt_0_compat; lra|]. apply Rmult_le_reg_r with (INR (1 + i)); [lra|].
      replace (1 / INR (1 + i) * INR (1 + i)) with 1 by (field; lra). lra. }
    lra.
  - intros xm E. inversion E; subst xm. split; [reflexivity|]. intros i Hi. cbn [q_dim SixHumpCamel cont_problem] in Hi.
    do 2 (destruct i as [|i]; [cbn [nth q_lb q_ub SixHumpCamel cont_problem ones repeat]; lra|]). lia.
Qed.

(** Branin's declared minimizer (-pi, 12.275) is outside its domain [-3, 3]^2. *)
Theorem C52_branin_refuted : ~ minimizer_feasible Branin.
Proof.
  intros H. destruct (H _ eq_refl) as [_ D]. specialize (D 1%nat). cbn [q_dim q_lb q_ub Branin cont_problem ones repeat nth] in D.
  assert (K := D ltac:(lia)). lra.
Qed.

(** ** Non-trivial instances: points of the domain of each kind exist, and eval reports a length mismatch. *)
Example ex_C51 : in_domain (Rosenbrock 3) [1/2; -1; 2] /\ eval (Rosenbrock 3) [1/2; -1; 2] = Ok (100 * (25/16) + 1/4 + (100 * 1 + 4)) /\
  eval (Rosenbrock 3) [1; 1] = Err ValueError.
Proof.
  split; [|split; [|reflexivity]].
  - split; [reflexivity|]. intros i Hi. cbn [q_dim Rosenbrock cont_problem] in Hi.
    do 3 (destruct i as [|i]; [cbn [nth q_lb q_ub Rosenbrock cont_problem ones repeat]; lra|]). lia.
  - rewrite eval_at by reflexivity. f_equal. unfold Rosenbrock, cont_problem, q_body. cbn [length Nat.sub rsum nth Nat.add]. lra.
Qed.
Print Assumptions C51_minimum_partial.
Print Assumptions C52_feasible_partial.
