(** * Surrogate models: pySOT/surrogate/surrogate.py (the base class), rbf.py, poly.py, gp.py,
    kernels/, tails/, output_transformations/.

    Exact real arithmetic.  scipy's factorisations and triangular solves are the algorithms of
    Lin.v; the regressors of scikit-learn used by poly.py and gp.py are a parameter.  Points are
    lists of reals; the shape normalisation of add_points (surrogate.py:62-67) is not modelled:
    [fx] is a list of values.  predict and predict_deriv work row by row and are modelled for one
    row.  MARS (mars.py) is in Mars.v. *)
From Coq Require Import List Arith ZArith Lia Bool Reals Lra.
From Verif Require Import Base Box Design Lin.
Import ListNotations.

Set Implicit Arguments.
Local Open Scope R_scope.

(** ** Surrogate, surrogate.py:20-74 *)
Record surr := { u_num : nat; u_X : list pt; u_UX : list pt; u_fX : list R; u_updated : bool }.

Section Base.
Variable dim : nat.
Variables lb ub : pt.

(** reset, surrogate.py:42-48 *)
Definition u_reset : surr := {| u_num := 0; u_X := []; u_UX := []; u_fX := []; u_updated := false |}.

(** add_points, surrogate.py:50-74 *)
Definition u_add (xx : list pt) (fx : list R) (s : surr) : res surr :=
  if ((length xx =? length fx)%nat && forallb (fun x : pt => (length x =? dim)%nat) xx)%bool then
    let X := u_X s ++ xx in
    Ok {| u_num := u_num s + length xx; u_X := X; u_UX := to_unit_box X lb ub; u_fX := u_fX s ++ fx; u_updated := false |}
  else Err AssertionError.
End Base.

(** ** Kernels, kernels/cubic_kernel.py:11-37, linear_kernel.py:14-39, tps_kernel.py:14-42: eval and deriv of one entry of the distance matrix *)
Inductive kernel := CubicKernel | LinearKernel | TPSKernel.

(** np.finfo(float).eps *)
Definition eps : R := / 2 ^ 52.
(** dists[dists < eps] = eps, tps_kernel.py:28, 41 and rbf.py:201 *)
Definition clip_eps (r : R) : R := if Rlt_dec r eps then eps else r.

(** kernels/cubic_kernel.py, linear_kernel.py, tps_kernel.py: the attribute order. *)
Definition k_order (k : kernel) : nat := match k with CubicKernel => 2 | LinearKernel => 1 | TPSKernel => 2 end.
(** eval: kernels/cubic_kernel.py:11-37, linear_kernel.py:14-39, tps_kernel.py:14-42. *)
Definition k_eval (k : kernel) (r : R) : R :=
  match k with
  | CubicKernel => r ^ 3
  | LinearKernel => r
  | TPSKernel => (clip_eps r) ^ 2 * ln (clip_eps r)
  end.
(** deriv: kernels/cubic_kernel.py:11-37, linear_kernel.py:14-39, tps_kernel.py:14-42. *)
Definition k_deriv (k : kernel) (r : R) : R :=
  match k with
  | CubicKernel => 3 * r ^ 2
  | LinearKernel => 1
  | TPSKernel => clip_eps r * (1 + 2 * ln (clip_eps r))
  end.

(** ** Tails, tails/constant_tail.py:12-44, linear_tail.py:13-45: one row of eval, and deriv (a dim x dim_tail matrix) *)
Inductive tail := ConstantTail (dim : nat) | LinearTail (dim : nat).
Definition t_degree (t : tail) : nat := match t with ConstantTail _ => 0 | LinearTail _ => 1 end.
(** tails/constant_tail.py:12-44, linear_tail.py:13-45: dim. *)
Definition t_dim (t : tail) : nat := match t with ConstantTail d => d | LinearTail d => d end.
(** tails/constant_tail.py:12-44, linear_tail.py:13-45: dim_tail. *)
Definition t_dim_tail (t : tail) : nat := match t with ConstantTail _ => 1 | LinearTail d => 1 + d end.
(** eval: tails/constant_tail.py:12-44, linear_tail.py:13-45. *)
Definition t_eval (t : tail) (x : pt) : pt := match t with ConstantTail _ => [1] | LinearTail _ => 1 :: x end.
(** deriv: tails/constant_tail.py:12-44, linear_tail.py:13-45. *)
Definition t_deriv (t : tail) : mat :=
  match t with ConstantTail _ => zero | LinearTail _ => hstack 1 zero eye end.

(** ** RBFInterpolant.__init__, rbf.py:67-87: the kernel and tail in use, or the exception *)
Definition rbf_choose (dim : nat) (k : option kernel) (t : option tail) : kernel * tail :=
  match k, t with
  | Some k', Some t' => (k', t')
  | _, _ => (CubicKernel, LinearTail dim)
  end.
(** rbf.py:67-87: __init__. *)
Definition rbf_init (dim : nat) (k : option kernel) (t : option tail) : res (kernel * tail) :=
  let (k', t') := rbf_choose dim k t in
  if (t_degree t' <? k_order k' - 1)%nat then Err ValueError
  else if (dim =? t_dim t')%nat then Ok (k', t') else Err AssertionError.

(** rbf.py:78-83: the attributes that change. *)
Record rbf := { r_s : surr; r_L : mat; r_U : mat; r_piv : list nat; r_c : option (list R) }.

Section Rbf.
Variable dim : nat.
Variables lb ub : pt.
Variable K : kernel.
Variable T : tail.
Variable eta : R.
Variable out : list R -> list R.     (* output_transformation *)

Notation ntail := (t_dim_tail T).
Notation row X i := (nth i X ([] : pt)).

(** reset, rbf.py:89-95.  L, U and piv become None; they are not read while c is None. *)
Definition r_reset : rbf := {| r_s := u_reset; r_L := zero; r_U := zero; r_piv := []; r_c := None |}.
(** add_points, inherited: surrogate.py:50-74 *)
Definition r_add (xx : list pt) (fx : list R) (s : rbf) : res rbf :=
  do s' <- u_add dim lb ub xx fx (r_s s);
  Ok {| r_s := s'; r_L := r_L s; r_U := r_U s; r_piv := r_piv s; r_c := r_c s |}.

(** cdist(X, Y), kernel.eval and tail.eval on whole matrices, rbf.py:114-116 *)
Definition cdist (X Y : list pt) : mat := fun i j => edist (row X i) (row Y j).
(** rbf.py:115, 140-141: kernel.eval of a matrix. *)
Definition keval (D : mat) : mat := fun i j => k_eval K (D i j).
(** rbf.py:116, 140: tail.eval of a matrix. *)
Definition teval (X : list pt) : mat := fun i j => nth j (t_eval T (row X i)) 0.

(** The system matrix of a fit from scratch, rbf.py:113-121 *)
Definition sysmat (X : list pt) : mat :=
  let Phi := madd (keval (cdist X X)) (mscal eta eye) in
  let P := teval X in
  vstack ntail (hstack ntail zero (tr P)) (hstack ntail P Phi).

(** self.piv[i], self.piv[piv[i]] = self.piv[piv[i]], self.piv[i]  for i = 0, ..., rbf.py:127-130 *)
Definition swap_at (a b : nat) (l : list nat) : list nat := map (fun i => nth (swapn a b i) l 0%nat) (seq 0 (length l)).
(** rbf.py:127-130. *)
Definition piv_of (n : nat) (sw : list nat) : list nat :=
  fold_left (fun p ab => swap_at (fst ab) (snd ab) p) (combine (seq 0 (length sw)) sw) (seq 0 n).

(** rbf.py:163-168: new coefficients from the current factors.  If U has a zero on its diagonal the
    second solve raises, after self.c has been assigned the intermediate vector. *)
Definition coefs (s : rbf) : rbf * res unit :=
  let nact := (ntail + u_num (r_s s))%nat in
  let fX := out (u_fX (r_s s)) in
  let rhs := repeat 0 ntail ++ fX in
  match solve_lower nact (r_L s) (fun i => nth (nth i (r_piv s) 0%nat) rhs 0) with
  | Err e => (s, Err e)
  | Ok y =>
    let s1 := {| r_s := r_s s; r_L := r_L s; r_U := r_U s; r_piv := r_piv s; r_c := Some y |} in
    match solve_upper nact (r_U s) (fun i => nth i y 0) with
    | Err e => (s1, Err e)
    | Ok c => ({| r_s := {| u_num := u_num (r_s s); u_X := u_X (r_s s); u_UX := u_UX (r_s s); u_fX := u_fX (r_s s); u_updated := true |};
                  r_L := r_L s; r_U := r_U s; r_piv := r_piv s; r_c := Some c |}, Ok tt)
    end
  end.

(** Initial fit, rbf.py:110-130 *)
Definition fit_initial (s : rbf) : rbf * res unit :=
  let n := u_num (r_s s) in
  if (n <? ntail)%nat then (s, Err AssertionError)
  else
    let nact := (ntail + n)%nat in
    let A := sysmat (u_UX (r_s s)) in
    let (LU, sw) := lu_factor nact A in
    coefs {| r_s := r_s s; r_L := madd (tril1 LU) eye; r_U := triu LU; r_piv := piv_of nact sw; r_c := r_c s |}.

(** for i in range(numnew): one triangular solve per new column, rbf.py:145-147; an exception
    leaves the loop *)
Fixpoint solve_cols (f : nat -> res (list R)) (n : nat) : res (list (list R)) :=
  match n with
  | O => Ok []
  | S m => do l <- solve_cols f m; do x <- f m; Ok (l ++ [x])
  end.
(** columns as a matrix: L21[:, i] = ..., U12[:, i] = ..., rbf.py:143-148 *)
Definition cols (l : list (list R)) : mat := fun i j => nth i (nth j l []) 0.

(** _fit, rbf.py:97-168 *)
Definition fit (s : rbf) : rbf * res unit :=
  if u_updated (r_s s) then (s, Ok tt)
  else match r_c s with
  | None => fit_initial s
  | Some c =>
    let n := u_num (r_s s) in
    let k := (length c - ntail)%nat in
    let numnew := (n - k)%nat in
    let kact := (ntail + k)%nat in
    let X := u_UX (r_s s) in
    let XX := skipn k X in
    let D := cdist X XX in
    let Pnew := vstack ntail (tr (teval XX)) (keval D) in
    let Phinew := madd (keval (fun i j => D (k + i)%nat j)) (mscal eta eye) in
    match solve_cols (fun i => do a <- solve_upper_T kact (r_U s) (fun r => Pnew r i);
                               do b <- solve_lower kact (r_L s) (fun r => Pnew (nth r (r_piv s) 0%nat) i);
                               Ok (a ++ b)) numnew with
    | Err e => (s, Err e)
    | Ok ab =>
      let L21 := tr (cols (map (firstn kact) ab)) in
      let U12 := cols (map (skipn kact) ab) in
      match cholesky numnew (msub Phinew (mulm kact L21 U12)) with
      | None => fit_initial {| r_s := r_s s; r_L := r_L s; r_U := r_U s; r_piv := r_piv s; r_c := None |}
      | Some C =>
        coefs {| r_s := r_s s;
                 r_L := hstack kact (vstack kact (r_L s) L21) (vstack kact zero C);
                 r_U := vstack kact (hstack kact (r_U s) U12) (hstack kact zero (tr C));
                 r_piv := r_piv s ++ seq kact numnew;
                 r_c := r_c s |}
      end
    end
  end.

(** predict for one row, rbf.py:170-185: state after the fit and the value or exception *)
Definition eval_at (c : list R) (s : rbf) (u : pt) : R :=
  let n := u_num (r_s s) in
  rsum n (fun i => k_eval K (edist u (row (u_UX (r_s s)) i)) * nth (ntail + i) c 0) +
  rsum ntail (fun j => nth j (t_eval T u) 0 * nth j c 0).
(** rbf.py:170-185. *)
Definition predict (x : pt) (s : rbf) : rbf * res R :=
  let (s', r) := fit s in
  match r with
  | Err e => (s', Err e)
  | Ok _ => (s', match r_c s' with Some c => Ok (eval_at c s' (to_unit x lb ub)) | None => Err TypeError end)
  end.

(** predict_deriv for one row, rbf.py:187-215: entry [d] of the result *)
Definition deriv_at (c : list R) (s : rbf) (u : pt) (d : nat) : R :=
  let n := u_num (r_s s) in
  let ds i := clip_eps (edist (row (u_UX (r_s s)) i) u) in
  rsum ntail (fun j => t_deriv T d j * nth j c 0) +
  rsum n (fun i => (- nth d (row (u_UX (r_s s)) i) 0 + nth d u 0) * (k_deriv K (ds i) * nth (ntail + i) c 0 / ds i)).
(** rbf.py:187-215. *)
Definition predict_deriv (x : pt) (s : rbf) : rbf * res (list R) :=
  let (s', r) := fit s in
  match r with
  | Err e => (s', Err e)
  | Ok _ =>
    (s', match r_c s' with
         | Some c => Ok (map (fun d => deriv_at c s' (to_unit x lb ub) d / (nth d ub 0 - nth d lb 0)) (seq 0 dim))
         | None => Err TypeError
         end)
  end.
End Rbf.

(** ** PolyRegressor and GPRegressor, poly.py:39-57, gp.py:51-71: _fit and predict.
    [learn] is the fit of the scikit-learn model on the unit-box points and transformed values
    (for gp.py including the standardisation with _mu and _sigma); [use] its prediction. *)
Section Learned.
Variable M : Type.
Variable dim : nat.
Variables lb ub : pt.
Variable out : list R -> list R.
Variable learn : list pt -> list R -> res M.
Variable use : M -> pt -> R.

(** State of PolyRegressor, GPRegressor, MARSInterpolant: poly.py:35-37, gp.py:38-49, mars.py:48-57. *)
Record learned := { l_s : surr; l_model : option M }.
(** surrogate.py:42-48 (inherited reset). *)
Definition l_reset (s : learned) : learned := {| l_s := u_reset; l_model := l_model s |}.
(** surrogate.py:50-74 (inherited add_points). *)
Definition l_add (xx : list pt) (fx : list R) (s : learned) : res learned :=
  do s' <- u_add dim lb ub xx fx (l_s s); Ok {| l_s := s'; l_model := l_model s |}.
(** poly.py:39-44, gp.py:51-58, mars.py:59-66: _fit. *)
Definition l_fit (s : learned) : learned * res unit :=
  if u_updated (l_s s) then (s, Ok tt)
  else match learn (u_UX (l_s s)) (out (u_fX (l_s s))) with
  | Err e => (s, Err e)
  | Ok m => ({| l_s := {| u_num := u_num (l_s s); u_X := u_X (l_s s); u_UX := u_UX (l_s s); u_fX := u_fX (l_s s); u_updated := true |};
                l_model := Some m |}, Ok tt)
  end.
(** poly.py:46-57, gp.py:60-71, mars.py:68-79: predict. *)
Definition l_predict (x : pt) (s : learned) : learned * res R :=
  let (s', r) := l_fit s in
  match r with
  | Err e => (s', Err e)
  | Ok _ => (s', match l_model s' with Some m => Ok (use m (to_unit x lb ub)) | None => Err TypeError end)
  end.
End Learned.

(** ** median_capping, output_transformations/median_capping.py:4-16 *)
(** np.median: mean of the two middle elements of the sorted array (NaN for an empty one, which
    is not modelled: 0) *)
Fixpoint insert_r (a : R) (l : list R) : list R :=
  match l with [] => [a] | b :: l' => if Rle_dec a b then a :: l else b :: insert_r a l' end.
(** numpy sort (inside np.median), median_capping.py:4-16. *)
Fixpoint sort_r (l : list R) : list R := match l with [] => [] | a :: l' => insert_r a (sort_r l') end.
(** np.median, median_capping.py:4-16. *)
Definition median (l : list R) : R :=
  let s := sort_r l in
  let n := length l in
  if (n mod 2 =? 1)%nat then nth (n / 2) s 0 else (nth (n / 2 - 1) s 0 + nth (n / 2) s 0) / 2.
(** surrogate/output_transformations/median_capping.py:4-16. *)
Definition median_capping (x : list R) : list R :=
  let medf := median x in map (fun v => if Rlt_dec medf v then medf else v) x.
(** output_transformations/identity.py:1-10 *)
Definition identity (x : list R) : list R := x.
