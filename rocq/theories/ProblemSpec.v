(** * What it means for the declared minimum of a benchmark problem to be right *)
From Coq Require Import List Arith Reals.
From Verif Require Import Base Box Lin Problems.
Import ListNotations.

Set Implicit Arguments.
Local Open Scope R_scope.

(** x is a point of the domain [lb, ub] of P *)
Definition in_domain (P : problem) (x : pt) : Prop :=
  length x = q_dim P /\ forall i, (i < q_dim P)%nat -> (q_lb P).[i] <= x.[i] <= (q_ub P).[i].

(** eval at the declared minimizer is the declared minimum, and no point of the domain has a
    smaller value, both up to [tol] *)
Definition minimum_ok (tol : R) (P : problem) : Prop :=
  exists m xm, q_min P = Some m /\ q_minimum P = Some xm /\
    (exists v, eval P xm = Ok v /\ Rabs (v - m) <= tol) /\
    (forall x v, in_domain P x -> eval P x = Ok v -> m - tol <= v).

(** The declared minimizer lies in the domain. *)
Definition minimizer_feasible (P : problem) : Prop :=
  forall xm, q_minimum P = Some xm -> in_domain P xm.

(** All problem classes of pySOT/optimization_problems, instantiated with [dim] where the
    constructor takes a dimension. *)
Definition benchmarks (dim : nat) : list problem :=
  [Ackley dim; Branin; Exponential dim; GoldsteinPrice; Griewank dim; Hartmann3; Hartmann6; Himmelblau dim;
   Levy dim; Michalewicz dim; Perm dim; Rastrigin dim; Rosenbrock dim; Schwefel dim; SixHumpCamel; Sphere dim;
   SumOfSquares dim; Weierstrass dim; Zakharov dim].
