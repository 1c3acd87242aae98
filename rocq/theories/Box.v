(** * Model of the coordinate helpers of pySOT/utils.py (20-94), over the real numbers.

    A point is a [list R] of length dim, a set of points a list of such rows.  Rounding errors
    are not modelled here (FloatBox.v does that for [from_unit_box] and [unit_rescale]).
    numpy's broadcasting errors for arguments of different length are not modelled: the theorems
    assume that bounds and points have the same length.  The functions that modify their argument
    in place are modelled by the value that is returned. *)
From Coq Require Import List Arith ZArith Lia Bool Reals Lra.
From Flocq Require Import Core.
From Verif Require Import Base PyList.
Import ListNotations.

Set Implicit Arguments.
Local Open Scope R_scope.

(** A row of a numpy array: one point. *)
Definition pt := list R.

(** [f] applied to each coordinate and the bounds of that coordinate (numpy broadcasting). *)
Fixpoint map3 (f : R -> R -> R -> R) (x lb ub : pt) : pt :=
  match x, lb, ub with
  | a :: x', l :: lb', u :: ub' => f a l u :: map3 f x' lb' ub'
  | _, _, _ => []
  end.

(** to_unit_box, utils.py:20-32, for one row *)
Definition to_unit (x lb ub : pt) : pt := map3 (fun a l u => (a - l) / (u - l)) x lb ub.
(** from_unit_box, utils.py:35-47, for one row *)
Definition from_unit (x lb ub : pt) : pt := map3 (fun a l u => l + (u - l) * a) x lb ub.
(** pySOT/utils.py:21-33: to_unit_box. *)
Definition to_unit_box (X : list pt) (lb ub : pt) : list pt := map (fun x => to_unit x lb ub) X.
(** pySOT/utils.py:36-48: from_unit_box. *)
Definition from_unit_box (X : list pt) (lb ub : pt) : list pt := map (fun x => from_unit x lb ub) X.

(** ndarray.max / ndarray.min of a non-empty array *)
(** ndarray.max, pySOT/utils.py:60. *)
Definition Rmaxl (a : R) (l : list R) : R := fold_left Rmax l a.
(** ndarray.min, pySOT/utils.py:61. *)
Definition Rminl (a : R) (l : list R) : R := fold_left Rmin l a.

(** unit_rescale, utils.py:50-64; max() of an empty array raises ValueError *)
Definition unit_rescale (x : list R) : res (list R) :=
  match x with
  | [] => Err ValueError
  | a :: l =>
    let xmax := Rmaxl a l in
    let xmin := Rminl a l in
    if Req_EM_T xmax xmin then Ok (map (fun _ => 1) x)
    else Ok (map (fun v => (v - xmin) / (xmax - xmin)) x)
  end.

(** np.round: to the nearest integer, ties to even *)
Definition np_round (x : R) : R := IZR (ZnearestE x).

(** X[:, i] = f(X[:, i]); IndexError if there is no such column *)
(** Assignment to a column, pySOT/utils.py:86, 90, 92. *)
Definition col_map (i : nat) (f : R -> R) (X : list pt) : res (list pt) := mapR (fun r => upd r i f) X.

(** a[ind] = v for the entries of a column that satisfy a test *)
(** pySOT/utils.py:89-90. *)
Definition clip_low (l a : R) : R := if Rlt_dec a l then l else a.
(** pySOT/utils.py:91-92. *)
Definition clip_high (u a : R) : R := if Rlt_dec u a then u else a.

(** utils.py:86 *)
Fixpoint round_cols (iv : list nat) (X : list pt) : res (list pt) :=
  match iv with [] => Ok X | i :: iv' => do X' <- col_map i np_round X; round_cols iv' X' end.

(** The loop utils.py:88-92 *)
Fixpoint clip_cols (iv : list nat) (lb ub : pt) (X : list pt) : res (list pt) :=
  match iv with
  | [] => Ok X
  | i :: iv' =>
    do l <- geti lb i; do X1 <- col_map i (clip_low l) X;
    do u <- geti ub i; do X2 <- col_map i (clip_high u) X1;
    clip_cols iv' lb ub X2
  end.

(** round_vars, utils.py:67-94 *)
Definition round_vars (X : list pt) (iv : list nat) (lb ub : pt) : res (list pt) :=
  match iv with
  | [] => Ok X
  | _ => do X' <- round_cols iv X; clip_cols iv lb ub X'
  end.
