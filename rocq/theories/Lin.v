(** * Dense linear algebra in exact arithmetic: the scipy.linalg routines called by
    pySOT/surrogate/rbf.py (lu_factor, cholesky, solve_triangular), modelled by the textbook
    algorithms (LAPACK getrf with partial pivoting, potrf, trtrs) over the reals.  These routines
    are not part of the repository; what is proved about them is in LinProofs.v.

    A matrix is a function of a row and a column index; its size is passed separately and entries
    outside the size are irrelevant.  A vector is a list. *)
From Coq Require Import List Arith ZArith Lia Bool Reals Lra.
From Verif Require Import Base.
Import ListNotations.

Set Implicit Arguments.
Local Open Scope R_scope.

(** A two-dimensional numpy array as a function of its indices. *)
Definition mat := nat -> nat -> R.

(** sum of f 0, ..., f (n-1) *)
(** numpy summation (np.dot, np.sum). *)
Fixpoint rsum (n : nat) (f : nat -> R) : R :=
  match n with O => 0 | S k => rsum k f + f k end.

(** matrix-vector product, first [n] columns *)
(** np.dot of a matrix and a vector, rbf.py:183-184. *)
Definition mulv (n : nat) (A : mat) (x : list R) (i : nat) : R := rsum n (fun j => A i j * nth j x 0).

(** np.dot of an (_, n) and an (n, _) matrix *)
Definition mulm (n : nat) (A B : mat) : mat := fun i j => rsum n (fun l => A i l * B l j).

(** np.hstack of matrices with [k] columns on the left; np.vstack with [k] rows on top;
    transposition; np.eye; np.zeros *)
Definition hstack (k : nat) (A B : mat) : mat := fun i j => if (j <? k)%nat then A i j else B i (j - k)%nat.
(** np.vstack, rbf.py:121, 140, 156, 159, 161, 165. *)
Definition vstack (k : nat) (A B : mat) : mat := fun i j => if (i <? k)%nat then A i j else B (i - k)%nat j.
(** .T, rbf.py:119, 140, 148. *)
Definition tr (A : mat) : mat := fun i j => A j i.
(** np.eye, rbf.py:115, 124, 141. *)
Definition eye : mat := fun i j => if (i =? j)%nat then 1 else 0.
(** np.zeros, rbf.py:119. *)
Definition zero : mat := fun _ _ => 0.
(** numpy +. *)
Definition madd (A B : mat) : mat := fun i j => A i j + B i j.
(** numpy -. *)
Definition msub (A B : mat) : mat := fun i j => A i j - B i j.
(** numpy scalar *. *)
Definition mscal (c : R) (A : mat) : mat := fun i j => c * A i j.
(** np.tril(A, -1), np.triu(A) *)
Definition tril1 (A : mat) : mat := fun i j => if (j <? i)%nat then A i j else 0.
(** np.triu, rbf.py:125. *)
Definition triu (A : mat) : mat := fun i j => if (i <=? j)%nat then A i j else 0.

(** ** solve_triangular *)
(** x_0, ..., x_{n-1} by forward substitution *)
(** scipy.linalg.solve_triangular: the substitution. *)
Fixpoint forward (n : nat) (A : mat) (b : nat -> R) : list R :=
  match n with
  | O => []
  | S k => let x := forward k A b in x ++ [(b k - rsum k (fun j => A k j * nth j x 0)) / A k k]
  end.

(** trtrs reports a zero on the diagonal; scipy raises LinAlgError *)
Fixpoint zero_diag (n : nat) (A : mat) : bool :=
  match n with O => false | S k => if Req_EM_T (A k k) 0 then true else zero_diag k A end.

(** lower=True *)
(** scipy.linalg.solve_triangular(lower=True), rbf.py:147, 166. *)
Definition solve_lower (n : nat) (A : mat) (b : nat -> R) : res (list R) :=
  if zero_diag n A then Err OtherError else Ok (forward n A b).
(** lower=False *)
(** scipy.linalg.solve_triangular(lower=False), rbf.py:167. *)
Definition solve_upper (n : nat) (A : mat) (b : nat -> R) : res (list R) :=
  if zero_diag n A then Err OtherError
  else Ok (rev (forward n (fun i j => A (n - 1 - i)%nat (n - 1 - j)%nat) (fun i => b (n - 1 - i)%nat))).
(** lower=False, trans="T": the transposed matrix is lower triangular *)
(** scipy.linalg.solve_triangular(lower=False, trans="T"), rbf.py:146. *)
Definition solve_upper_T (n : nat) (A : mat) (b : nat -> R) : res (list R) := solve_lower n (tr A) b.

(** ** lu_factor *)
(** scipy.linalg.lu_factor: a row interchange on indices. *)
Definition swapn (a b i : nat) : nat := if (i =? a)%nat then b else if (i =? b)%nat then a else i.
(** scipy.linalg.lu_factor: a row interchange. *)
Definition swap_rows (a b : nat) (M : mat) : mat := fun i j => M (swapn a b i) j.

(** first row among k, k+1, ..., k+m with the largest |M i k| *)
(** scipy.linalg.lu_factor: choice of the pivot (partial pivoting). *)
Fixpoint pivot_row (M : mat) (k m : nat) : nat :=
  match m with
  | O => k
  | S m' => let p := pivot_row M k m' in if Rlt_dec (Rabs (M p k)) (Rabs (M (k + m)%nat k)) then (k + m)%nat else p
  end.

(** elimination with pivot (k, k), in place; skipped if the pivot is zero *)
(** scipy.linalg.lu_factor: one elimination step. *)
Definition eliminate (k : nat) (M : mat) : mat := fun i j =>
  if Req_EM_T (M k k) 0 then M i j
  else if (k <? i)%nat then
    if (k <? j)%nat then M i j - M i k / M k k * M k j
    else if (j =? k)%nat then M i k / M k k else M i j
  else M i j.

(** the first [k] steps on an n x n matrix: combined factors and row interchanges *)
(** scipy.linalg.lu_factor: the loop. *)
Fixpoint lu_steps (n k : nat) (A : mat) : mat * list nat :=
  match k with
  | O => (A, [])
  | S k' => let (M, sw) := lu_steps n k' A in
            let p := pivot_row M k' (n - 1 - k') in
            (eliminate k' (swap_rows k' p M), sw ++ [p])
  end.
(** scipy.linalg.lu_factor, rbf.py:123. *)
Definition lu_factor (n : nat) (A : mat) : mat * list nat := lu_steps n n A.

(** ** cholesky(lower=True): reads the lower triangle only; None is LinAlgError *)
(** scipy.linalg.cholesky: one column. *)
Definition chol_col (k : nat) (M C : mat) : mat := fun i j =>
  if (j =? k)%nat then (if (i <? k)%nat then 0 else M i k / sqrt (M k k)) else C i j.
(** scipy.linalg.cholesky: the update of the rest. *)
Definition chol_sub (k : nat) (M : mat) : mat := fun i j => M i j - M i k * M j k / M k k.
(** scipy.linalg.cholesky: the loop. *)
Fixpoint chol_steps (k : nat) (S0 : mat) : option (mat * mat) :=   (* remaining matrix, factor *)
  match k with
  | O => Some (S0, zero)
  | S k' => match chol_steps k' S0 with
            | None => None
            | Some (M, C) => if Rlt_dec 0 (M k' k') then Some (chol_sub k' M, chol_col k' M C) else None
            end
  end.
(** scipy.linalg.cholesky(lower=True), rbf.py:150. *)
Definition cholesky (n : nat) (A : mat) : option mat :=
  match chol_steps n A with Some (_, C) => Some C | None => None end.
