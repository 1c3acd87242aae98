(** * The benchmark problems of pySOT/optimization_problems, in exact real arithmetic.

    A problem is its attributes and its eval.  Arrays are lists of reals; eval reads x[i] as
    [nth i x 0] after __check_input__ has verified the length.  [rsum n f] is f 0 + ... + f (n-1)
    (Lin.v), [rprod] the product.  The info strings are not modelled. *)
From Coq Require Import List Arith ZArith Lia Bool Reals Lra.
From Verif Require Import Base Box Lin.
Import ListNotations.

Set Implicit Arguments.
Local Open Scope R_scope.

(** OptimizationProblem, optimization_problem.py:5-23, and the attributes min and minimum of the
    benchmark problems (None where the class does not set them). *)
Record problem := {
  q_dim : nat; q_lb : pt; q_ub : pt; q_int : list nat; q_cont : list nat;
  q_min : option R; q_minimum : option pt;
  q_body : pt -> R }.

(** __check_input__, optimization_problem.py:17-19, called first by every eval *)
Definition eval (P : problem) (x : pt) : res R :=
  if (length x =? q_dim P)%nat then Ok (q_body P x) else Err ValueError.

(** Product over the coordinates, pySOT/optimization_problems/griewank.py:49-51. *)
Fixpoint rprod (n : nat) (f : nat -> R) : R :=
  match n with O => 1 | S k => rprod k f * f k end.

(** c * np.ones(dim) *)
Definition ones (c : R) (dim : nat) : pt := repeat c dim.
Notation "x .[ i ]" := (nth i x 0) (at level 1, left associativity, format "x .[ i ]").

(** A continuous problem on [lo, hi]^dim: the attributes set by most constructors,
    e.g. ackley.py:31-39.  int_var = np.array([]), cont_var = np.arange(0, dim). *)
Definition cont_problem (dim : nat) (lo hi : R) (m : option R) (xm : option pt) (f : pt -> R) : problem :=
  {| q_dim := dim; q_lb := ones lo dim; q_ub := ones hi dim; q_int := []; q_cont := seq 0 dim;
     q_min := m; q_minimum := xm; q_body := f |}.

(** ackley.py:31-57 *)
Definition Ackley (dim : nat) : problem :=
  cont_problem dim (-15) 20 (Some 0) (Some (ones 0 dim)) (fun x =>
    let d := INR dim in
    - 20 * exp (- (2/10) * sqrt (rsum dim (fun i => x.[i] ^ 2) / d))
    - exp (rsum dim (fun i => cos (2 * PI * x.[i])) / d) + 20 + exp 1).

(** branin.py:23-55 *)
Definition Branin : problem :=
  cont_problem 2 (-3) 3 (Some (397887/1000000)) (Some [- PI; 12275/1000]) (fun x =>
    let x1 := x.[0] in
    let x2 := x.[1] in
    let t := 1 / (8 * PI) in
    let s := 10 in
    let r := 6 in
    let c := 5 / PI in
    let b := (51/10) / (4 * PI ^ 2) in
    let a := 1 in
    let term1 := a * (x2 - b * x1 ^ 2 + c * x1 - r) ^ 2 in
    let term2 := s * (1 - t) * cos x1 in
    term1 + term2 + s).

(** exponential.py:29-51.  x[i - 1] for i = 0 is x[-1], the last entry. *)
Definition Exponential (dim : nat) : problem :=
  cont_problem dim (- (512/100)) (512/100) (Some 0) (Some (ones (- (512/100)) dim)) (fun x =>
    rsum (length x) (fun i =>
      exp (INR (i + 1) * x.[if (i =? 0)%nat then length x - 1 else i - 1]) - exp (- (512/100) * INR (i + 1)))).

(** goldstein_price.py:7-38 *)
Definition GoldsteinPrice : problem :=
  cont_problem 2 (-2) 2 (Some 3) (Some [0; -1]) (fun x =>
    let x1 := x.[0] in
    let x2 := x.[1] in
    let fact1a := (x1 + x2 + 1) ^ 2 in
    let fact1b := 19 - 14 * x1 + 3 * x1 ^ 2 - 14 * x2 + 6 * x1 * x2 + 3 * x2 ^ 2 in
    let fact1 := 1 + fact1a * fact1b in
    let fact2a := (2 * x1 - 3 * x2) ^ 2 in
    let fact2b := 18 - 32 * x1 + 12 * x1 ^ 2 + 48 * x2 - 36 * x1 * x2 + 27 * x2 ^ 2 in
    let fact2 := 30 + fact2a * fact2b in
    fact1 * fact2).

(** griewank.py:30-52 *)
Definition Griewank (dim : nat) : problem :=
  cont_problem dim (-512) 512 (Some 0) (Some (ones 0 dim)) (fun x =>
    let total := rprod (length x) (fun i => cos (x.[i] / sqrt (INR (i + 1)))) in
    1 / 4000 * rsum (length x) (fun i => x.[i] ^ 2) - total + 1).

(** The double loop shared by hartmann3.py:47-56 and hartmann6.py:62-71 *)
Definition hartmann (n : nat) (alpha : list R) (A P : list (list R)) (x : pt) : R :=
  - rsum 4 (fun ii => alpha.[ii] * exp (- rsum n (fun jj =>
      (nth ii A []).[jj] * (x.[jj] - (nth ii P []).[jj]) ^ 2))).

(** hartmann3.py:23-56 *)
Definition H3_alpha : list R := [1; 12/10; 3; 32/10].
(** pySOT/optimization_problems/hartmann3.py:43. *)
Definition H3_A : list (list R) := [[3; 10; 30]; [1/10; 10; 35]; [3; 10; 30]; [1/10; 10; 35]].
(** pySOT/optimization_problems/hartmann3.py:44-51. *)
Definition H3_P : list (list R) :=
  [[3689/10000; 1170/10000; 2673/10000]; [4699/10000; 4387/10000; 747/1000];
   [1091/10000; 8732/10000; 5547/10000]; [381/10000; 5743/10000; 8828/10000]].
(** pySOT/optimization_problems/hartmann3.py:33-56. *)
Definition Hartmann3 : problem :=
  cont_problem 3 0 1 (Some (- (386278/100000))) (Some [114614/1000000; 555649/1000000; 852547/1000000])
    (hartmann 3 H3_alpha H3_A H3_P).

(** hartmann6.py:23-71 *)
Definition H6_alpha : list R := [1; 12/10; 3; 32/10].
(** pySOT/optimization_problems/hartmann6.py:46-53. *)
Definition H6_A : list (list R) :=
  [[10; 3; 17; 35/10; 17/10; 8]; [5/100; 10; 17; 1/10; 8; 14];
   [3; 35/10; 17/10; 10; 17; 8]; [17; 8; 5/100; 10; 1/10; 14]].
(** pySOT/optimization_problems/hartmann6.py:54-61. *)
Definition H6_P : list (list R) :=
  map (map (fun v => v / 10000))
  [[1312; 1696; 5569; 124; 8283; 5886]; [2329; 4135; 8307; 3736; 1004; 9991];
   [2348; 1451; 3522; 2883; 3047; 6650]; [4047; 8828; 8732; 5743; 1091; 381]].
(** pySOT/optimization_problems/hartmann6.py:36-71. *)
Definition Hartmann6 : problem :=
  cont_problem 6 0 1 (Some (- (332237/100000)))
    (Some [20169/100000; 150011/1000000; 476874/1000000; 275332/1000000; 311652/1000000; 6573/10000])
    (hartmann 6 H6_alpha H6_A H6_P).

(** himmelblau.py:25-44 *)
Definition Himmelblau (dim : nat) : problem :=
  cont_problem dim (- (512/100)) (512/100) (Some (- (39166165703771412/1000000000000000)))
    (Some (ones (- (2903534027771178/1000000000000000)) dim)) (fun x =>
    5/10 * rsum dim (fun i => x.[i] ^ 4 - 16 * x.[i] ^ 2 + 5 * x.[i]) / INR dim).

(** levy.py:23-48.  w[1 : d - 1] is empty for d <= 2. *)
Definition Levy (dim : nat) : problem :=
  cont_problem dim (-5) 5 (Some 0) (Some (ones 1 dim)) (fun x =>
    let w i := 1 + (x.[i] - 1) / 4 in
    let d := dim in
    sin (PI * w 0%nat) ^ 2
    + rsum (d - 2) (fun i => (w (1 + i)%nat - 1) ^ 2 * (1 + 10 * sin (PI * w (1 + i)%nat + 1) ^ 2))
    + (w (d - 1)%nat - 1) ^ 2 * (1 + sin (2 * PI * w (d - 1)%nat) ^ 2)).

(** michaelewicz.py:28-45: no declared minimum *)
Definition Michalewicz (dim : nat) : problem :=
  cont_problem dim 0 PI None None (fun x =>
    - rsum dim (fun i => sin x.[i] * (sin (INR (1 + i) * x.[i] ^ 2 / PI)) ^ 20)).

(** perm.py:21-49.  minimum = np.ones(dim) / np.arange(1, dim + 1) *)
Definition Perm (dim : nat) : problem :=
  cont_problem dim (-5) 5 (Some 0) (Some (map (fun j => 1 / INR j) (seq 1 dim))) (fun x =>
    let beta := 10 in
    let d := length x in
    rsum d (fun ii =>
      (rsum d (fun jj => (INR (jj + 1) + beta) * (x.[jj] ^ (ii + 1) - (1 / INR (jj + 1)) ^ (ii + 1)))) ^ 2)).

(** rastrigin.py:29-48 *)
Definition Rastrigin (dim : nat) : problem :=
  cont_problem dim (- (512/100)) (512/100) (Some 0) (Some (ones 0 dim)) (fun x =>
    10 * INR dim + rsum dim (fun i => x.[i] ^ 2 - 10 * cos (2 * PI * x.[i]))).

(** rosenbrock.py:30-52 *)
Definition Rosenbrock (dim : nat) : problem :=
  cont_problem dim (- (2048/1000)) (2048/1000) (Some 0) (Some (ones 1 dim)) (fun x =>
    rsum (length x - 1) (fun i => 100 * (x.[i] ^ 2 - x.[i + 1]) ^ 2 + (x.[i] - 1) ^ 2)).

(** schwefel.py:30-49 *)
Definition Schwefel (dim : nat) : problem :=
  cont_problem dim (-512) 512 (Some 0) (Some (ones (420968746/1000000) dim)) (fun x =>
    4189829/10000 * INR dim - rsum (length x) (fun i => x.[i] * sin (sqrt (Rabs x.[i])))).

(** six_hump_camel.py:23-42 *)
Definition SixHumpCamel : problem :=
  cont_problem 2 (-3) 3 (Some (- (10316/10000))) (Some [898/10000; - (7126/10000)]) (fun x =>
    (4 - 21/10 * x.[0] ^ 2 + x.[0] ^ 4 / 3) * x.[0] ^ 2 + x.[0] * x.[1] + (-4 + 4 * x.[1] ^ 2) * x.[1] ^ 2).

(** sphere.py:29-48 *)
Definition Sphere (dim : nat) : problem :=
  cont_problem dim (- (512/100)) (512/100) (Some 0) (Some (ones 0 dim)) (fun x => rsum dim (fun i => x.[i] ^ 2)).

(** sum_of_squares.py:24-43 *)
Definition SumOfSquares (dim : nat) : problem :=
  cont_problem dim (-5) 5 (Some 0) (Some (ones 0 dim)) (fun x => rsum dim (fun i => INR (1 + i) * x.[i] ^ 2)).

(** weierstrass.py:7-32 *)
Definition Weierstrass (dim : nat) : problem :=
  cont_problem dim (-5) 5 (Some 0) (Some (ones 0 dim)) (fun x =>
    let d := length x in
    let f0 := rsum 12 (fun k => 1 / 2 ^ k * cos (PI * 3 ^ k)) in
    let val := rsum 12 (fun k => rsum d (fun i => 1 / 2 ^ k * cos (2 * PI * 3 ^ k * (x.[i] + 5/10)))) in
    10 * (1 / INR d * val - f0) ^ 3).

(** zakharov.py:21-44 *)
Definition Zakharov (dim : nat) : problem :=
  cont_problem dim (-5) 10 (Some 0) (Some (ones 0 dim)) (fun x =>
    rsum dim (fun i => x.[i] ^ 2) + (rsum dim (fun i => 5/10 * INR (1 + i) * x.[i])) ^ 2
    + (rsum dim (fun i => 5/10 * INR (1 + i) * x.[i])) ^ 4).
