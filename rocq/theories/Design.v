(** * Experimental designs: pySOT/experimental_design (experimental_design.py, slhd.py,
    two_factorial.py).

    Numbers are reals (levels of the symmetric Latin hypercube are integers until the last step).
    Random draws are arguments.  Latin hypercubes of pyDOE2 are only covered as "some generator"
    in [expdes_dist].  numpy's matrix_rank is a parameter. *)
From Coq Require Import List Arith ZArith Lia Bool Reals Lra Permutation.
From Verif Require Import Base PyList Box Cand.
Import ListNotations.

Set Implicit Arguments.

(** ** SymmetricLatinHypercube._slhd, slhd.py:52-83.  The matrix is a list of columns. *)
Section Slhd.
Variable n : nat.     (* num_pts *)
Notation mid := (n / 2)%nat.

(** points[:, 0] = np.arange(1, num_pts + 1); for odd num_pts the middle row is overwritten. *)
Definition first_col : res (list Z) :=
  let c := map Z.of_nat (seq 1 n) in
  if (n mod 2 =? 1)%nat then upd c mid (fun _ => Z.of_nat (mid + 1)) else Ok c.

(** Column j >= 1 after the loop slhd.py:71-77: random choices [flip] and np.random.shuffle of
    the top half; the rest is zero except for the middle row. *)
Definition other_col (flip : nat -> bool) (shuffle : list Z -> list Z) : list Z :=
  shuffle (map (fun i => if flip i then Z.of_nat n - Z.of_nat i else Z.of_nat i + 1)%Z (seq 0 mid)) ++
  (if (n mod 2 =? 1)%nat then [Z.of_nat (mid + 1)] else []) ++ repeat 0%Z mid.

(** The loop slhd.py:80-81, for one column. *)
Fixpoint bottom (is : list nat) (c : list Z) : res (list Z) :=
  match is with
  | [] => Ok c
  | i :: is' =>
    do v <- geti c (n - 1 - i);
    do c' <- upd c i (fun _ => Z.of_nat n + 1 - v)%Z;
    bottom is' c'
  end.
(** pySOT/experimental_design/slhd.py:79-81. *)
Definition finish (c : list Z) : res (list Z) := bottom (seq mid (n - mid)) c.

(** All columns; one flip and one shuffle per column j >= 1. *)
(** pySOT/experimental_design/slhd.py:59-81. *)
Definition slhd_cols (draws : list ((nat -> bool) * (list Z -> list Z))) : res (list (list Z)) :=
  do c0 <- first_col;
  do c0' <- finish c0;
  do cs <- mapR (fun d : (nat -> bool) * (list Z -> list Z) => finish (other_col (fst d) (snd d))) draws;
  Ok (c0' :: cs).

(** Rows of the result (points - 1) / (num_pts - 1); the division by zero for num_pts = 1 gives
    nan in numpy and is an error here. *)
Definition slhd (draws : list ((nat -> bool) * (list Z -> list Z))) : res (list pt) :=
  if (n =? 1)%nat then Err ZeroDivisionError
  else
    do cols <- slhd_cols draws;
    Ok (map (fun r => map (fun c : list Z => (IZR (nth r c 0%Z) - 1) / (INR n - 1))%R cols) (seq 0 n)).
End Slhd.

(** ** TwoFactorial, two_factorial.py *)
(** itertools.product([0, 1], repeat=dim) *)
Fixpoint corners (dim : nat) : list pt :=
  match dim with
  | O => [[]]
  | S d => map (cons 0%R) (corners d) ++ map (cons 1%R) (corners d)
  end.

(** "if all([x is not None for x in [lb, ub]])": map and round, experimental_design.py:64-65,
    two_factorial.py:52-53. *)
Definition map_round (lb ub : option pt) (iv : list nat) (D : list pt) : res (list pt) :=
  match lb, ub with
  | Some l, Some u => round_vars (from_unit_box D l u) iv l u
  | _, _ => Ok D
  end.

(** __init__ (the number of points) and generate_points. *)
(** pySOT/experimental_design/two_factorial.py:24-28. *)
Definition two_factorial_num_pts (dim : nat) : res nat := if (15 <=? dim)%nat then Err ValueError else Ok (2 ^ dim)%nat.
(** pySOT/experimental_design/two_factorial.py:30-54. *)
Definition two_factorial_points (dim : nat) (lb ub : option pt) (iv : list nat) : res (list pt) :=
  do _ <- two_factorial_num_pts dim; map_round lb ub iv (corners dim).

(** ** _expdes_dist, experimental_design.py:42-77 *)
(** cdist (Euclidean) *)
Fixpoint sqdist (x y : pt) {struct x} : R :=
  match x, y with a :: x', b :: y' => ((a - b) * (a - b) + sqdist x' y')%R | _, _ => 0%R end.
(** scipy.spatial.distance.cdist of two points, pySOT/experimental_design/experimental_design.py:67. *)
Definition edist (x y : pt) : R := sqrt (sqdist x y).

(** pySOT/experimental_design/experimental_design.py:69: min of two entries. *)
Definition xmin (a b : xr) : xr := if xlt b a then b else a.

(** dists with infinity on the diagonal, .min(); min of an empty array is a ValueError. *)
(** pySOT/experimental_design/experimental_design.py:67-69. *)
Definition dists (D : list pt) : list xr :=
  flat_map (fun i => map (fun j => if (i =? j)%nat then XInf else XFin (edist (nth i D []) (nth j D []))) (seq 0 (length D)))
    (seq 0 (length D)).
(** pySOT/experimental_design/experimental_design.py:67-69. *)
Definition score (D : list pt) : res xr :=
  match dists D with [] => Err ValueError | d :: l => Ok (fold_left xmin l d) end.

Section Choose.
Variable rank : list pt -> nat.     (* numpy.linalg.matrix_rank *)
Variables lb ub : option pt.
Variable iv : list nat.

(** pySOT/experimental_design/experimental_design.py:71: cand.shape[1]. *)
Definition shape1 (D : list pt) : nat := match D with [] => 0 | x :: _ => length x end.

(** pySOT/experimental_design/experimental_design.py:60-73: the loop. *)
Fixpoint choose (gens : list (list pt)) (best : xr) (X : option (list pt)) {struct gens} : res (option (list pt)) :=
  match gens with
  | [] => Ok X
  | g :: gens' =>
    do cand <- map_round lb ub iv g;
    do s <- score cand;
    if xlt best s && (rank cand =? shape1 cand)%nat then choose gens' s (Some cand) else choose gens' best X
  end.

(** [gens] are the designs delivered by gen(), one per iteration. *)
(** pySOT/experimental_design/experimental_design.py:42-77. *)
Definition expdes_dist (gens : list (list pt)) : res (list pt) :=
  do r <- choose gens (XFin 0) None;
  match r with None => Err ValueError | Some X => Ok X end.
End Choose.

(** SymmetricLatinHypercube.generate_points, slhd.py:26-50; one element of [draws] per iteration. *)
Definition slhd_generate (rank : list pt -> nat) (n : nat) (lb ub : option pt) (iv : list nat)
  (draws : list (list ((nat -> bool) * (list Z -> list Z)))) : res (list pt) :=
  do gens <- mapR (slhd n) draws;
  expdes_dist rank lb ub iv gens.
