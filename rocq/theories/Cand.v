(** * Candidate searches: pySOT/auxiliary_problems/candidate_{srbf,dycors,uniform}.py.

    Numbers are reals, extended by the infinities and NaN where the code produces them.
    [dist] is the distance computed by scipy's cdist, [predict] the surrogate's prediction at one
    point (a real number: predictions that are NaN or infinite are not modelled).
    Random draws are arguments.  The (m, 1)-shaped columns fvals, dmerit, merit are lists. *)
From Coq Require Import List Arith ZArith Lia Bool Reals Lra.
From Verif Require Import Base PyList Box.
Import ListNotations.

Set Implicit Arguments.
Local Open Scope R_scope.

(** float values that occur in [merit] *)
(** Values of the merit array, pySOT/auxiliary_problems/candidate_srbf.py:46-50. *)
Inductive xr : Type := XFin (r : R) | XInf | XNInf | XNan.

(** w * f for a real w (0 * inf is NaN) *)
(** numpy * at pySOT/auxiliary_problems/candidate_srbf.py:46. *)
Definition xmul (w : R) (f : xr) : xr :=
  match f with
  | XFin r => XFin (w * r)
  | XNan => XNan
  | XInf => if Rlt_dec 0 w then XInf else if Rlt_dec w 0 then XNInf else XNan
  | XNInf => if Rlt_dec 0 w then XNInf else if Rlt_dec w 0 then XInf else XNan
  end.
(** f + r for a real r *)
(** numpy + at pySOT/auxiliary_problems/candidate_srbf.py:46. *)
Definition xaddr (f : xr) (r : R) : xr := match f with XFin a => XFin (a + r) | _ => f end.

(** numpy < at pySOT/auxiliary_problems/candidate_srbf.py:49. *)
Definition xlt (a b : xr) : bool :=
  match a, b with
  | XFin x, XFin y => if Rlt_dec x y then true else false
  | XFin _, XInf => true
  | XNInf, XFin _ => true
  | XNInf, XInf => true
  | _, _ => false
  end.

(** np.argmin: the first NaN if there is one, otherwise the first smallest entry; ValueError for
    an empty array. *)
Definition replaces (v best : xr) : bool :=
  match best, v with XNan, _ => false | _, XNan => true | _, _ => xlt v best end.
(** numpy.argmin (recursion), pySOT/auxiliary_problems/candidate_srbf.py:49. *)
Fixpoint xargmin_from (i best : nat) (bv : xr) (l : list xr) : nat :=
  match l with
  | [] => best
  | v :: l' => if replaces v bv then xargmin_from (S i) i v l' else xargmin_from (S i) best bv l'
  end.
(** numpy.argmin, pySOT/auxiliary_problems/candidate_srbf.py:49. *)
Definition xargmin (l : list xr) : res nat :=
  match l with [] => Err ValueError | v :: l' => Ok (xargmin_from 1 0 v l') end.

Section Merit.
Variable P : Type.
Variable dist : P -> P -> R.
Variable predict : P -> R.

(** np.amin(dists, axis=1) for one candidate; ValueError if there are no columns *)
Definition min_dist (T : list P) (c : P) : res R :=
  match T with [] => Err ValueError | t :: T' => Ok (Rminl (dist c t) (map (dist c) T')) end.

(** merit of one candidate, candidate_srbf.py:46-48; [f] is its entry of fvals, [d] of dmerit,
    [dr] of unit_rescale(dmerit) *)
Definition merit (w dtol : R) (f : xr) (d dr : R) : xr :=
  if Rlt_dec d dtol then XInf else xaddr (xmul w f) ((1 - w) * (1 - dr)).

(** pySOT/auxiliary_problems/candidate_srbf.py:46-48: the merit of every candidate. *)
Fixpoint merits (w dtol : R) (fs : list xr) (ds drs : list R) : list xr :=
  match fs, ds, drs with
  | f :: fs', d :: ds', dr :: drs' => merit w dtol f d dr :: merits w dtol fs' ds' drs'
  | _, _, _ => []
  end.

(** The loop candidate_srbf.py:44-55; returns the chosen indices into [cand]. *)
Fixpoint picks (cand : list P) (dtol : R) (n : nat) (weights : list R) (fs : list xr) (ds : list R)
  : res (list nat) :=
  match n with
  | O => Ok []
  | S n' =>
    match weights with
    | [] => Err IndexError
    | w :: weights' =>
      do drs <- unit_rescale ds;
      do jj <- xargmin (merits w dtol fs ds drs);
      do fs' <- upd fs jj (fun _ => XInf);
      do c <- geti cand jj;
      let ds' := map (fun cd : P * R => Rmin (snd cd) (dist (fst cd) c)) (combine cand ds) in
      do r <- picks cand dtol n' weights' fs' ds';
      Ok (jj :: r)
    end
  end.

(** weighted_distance_merit, candidate_srbf.py:8-57; [T] is np.vstack((X, Xpend)). *)
Definition weighted_distance_merit (n : nat) (T cand : list P) (weights : list R) (dtol : R)
  : res (list P) :=
  do ds <- mapR (min_dist T) cand;
  do fs <- unit_rescale (map predict cand);
  do idx <- picks cand dtol n weights (map XFin fs) ds;
  mapR (geti cand) idx.
End Merit.

(** ** Generation of the candidates *)

(** An optimization problem: bounds and integer variables (dim is the length of the bounds). *)
(** The attributes lb, ub and int_var of an OptimizationProblem, pySOT/optimization_problems/optimization_problem.py:10-15. *)
Record prob : Type := mkProb { q_lb : pt; q_ub : pt; q_int : list nat }.

(** Helper with no counterpart in /repo: membership in an index array. *)
Definition rmem (j : nat) (l : list nat) : bool := existsb (Nat.eqb j) l.

(** scalefactors[i], candidate_srbf.py:102-105, candidate_dycors.py:67-70 *)
Definition scale (q : prob) (radius : R) (subset : list nat) (i : nat) : R :=
  let s := radius * (nth i (q_ub q) 0 - nth i (q_lb q) 0) in
  if rmem i (q_int q) && rmem i subset then Rmax s 1 else s.

(** One draw of truncnorm.rvs(a, b, loc, scale): loc + scale * z where z is a standard normal
    variable truncated to [a, b]. *)
(** pySOT/auxiliary_problems/candidate_srbf.py:112 and candidate_dycors.py:85 (a). *)
Definition tn_a (q : prob) (xb : pt) (sigma : R) (i : nat) : R := (nth i (q_lb q) 0 - nth i xb 0) / sigma.
(** pySOT/auxiliary_problems/candidate_srbf.py:112 and candidate_dycors.py:85 (b). *)
Definition tn_b (q : prob) (xb : pt) (sigma : R) (i : nat) : R := (nth i (q_ub q) 0 - nth i xb 0) / sigma.
(** scipy.stats.truncnorm.rvs with loc and scale, pySOT/auxiliary_problems/candidate_srbf.py:111-113, candidate_dycors.py:84-86, for a standard draw z. *)
Definition tn_draw (xb : pt) (sigma : R) (i : nat) (z : R) : R := nth i xb 0 + sigma * z.

(** cand[rows with sel, j] = values *)
(** pySOT/auxiliary_problems/candidate_srbf.py:111 and candidate_dycors.py:84: assignment to selected rows of a column. *)
Definition set_col (j : nat) (sel : nat -> bool) (v : nat -> R) (X : list pt) : res (list pt) :=
  mapR (fun rx : nat * pt =>
          upd (snd rx) j (fun a => if sel (fst rx) then v (fst rx) else a)) (combine (seq 0 (length X)) X).

(** candidate_srbf.py:108-113; [z i r] is the truncated normal drawn for coordinate i, row r. *)
Fixpoint srbf_cols (q : prob) (radius : R) (subset : list nat) (xb : pt) (z : nat -> nat -> R)
  (todo : list nat) (X : list pt) : res (list pt) :=
  match todo with
  | [] => Ok X
  | i :: todo' =>
    do _ <- geti (q_lb q) i; do _ <- geti (q_ub q) i;
    let sigma := scale q radius subset i in
    do X' <- set_col i (fun _ => true) (fun r => tn_draw xb sigma i (z i r)) X;
    srbf_cols q radius subset xb z todo' X'
  end.

(** The candidates of candidate_srbf, 91-116. *)
Definition srbf_cand (q : prob) (radius : R) (subset : list nat) (num_cand : nat) (xb : pt)
  (z : nat -> nat -> R) : res (list pt) :=
  do X <- srbf_cols q radius subset xb z subset (repeat xb num_cand);
  round_vars X (q_int q) (q_lb q) (q_ub q).

(** ar, candidate_dycors.py:73-78; [u r k] is (rand < prob_perturb) for row r and position k,
    [f r] the forced position, drawn from randint(0, len(subset) - 1), i.e. 0 <= f r < len - 1;
    randint(0, -1) raises ValueError. *)
Definition dycors_ar (len num_cand : nat) (u : nat -> nat -> bool) (f : nat -> nat) : res (nat -> nat -> bool) :=
  if (len =? 1)%nat then Ok (fun _ _ => true)
  else if (len =? 0)%nat && negb (num_cand =? 0)%nat then Err ValueError
  else Ok (fun r k => u r k || (forallb (fun j => negb (u r j)) (seq 0 len) && (k =? f r)%nat)).

(** candidate_dycors.py:81-86; ar has [len] columns and is indexed by the coordinate i; the
    column written is subset[i]. *)
Fixpoint dycors_cols (q : prob) (radius : R) (subset : list nat) (xb : pt) (z : nat -> nat -> R)
  (ar : nat -> nat -> bool) (todo : list nat) (X : list pt) : res (list pt) :=
  match todo with
  | [] => Ok X
  | i :: todo' =>
    do _ <- geti (q_lb q) i; do _ <- geti (q_ub q) i;
    let sigma := scale q radius subset i in
    if (length subset <=? i)%nat then Err IndexError
    else
      do j <- geti subset i;
      do X' <- set_col j (fun r => ar r i) (fun r => tn_draw xb sigma i (z i r)) X;
      dycors_cols q radius subset xb z ar todo' X'
  end.

(** The candidates of candidate_dycors, 55-89. *)
Definition dycors_cand (q : prob) (radius : R) (subset : list nat) (num_cand : nat) (xb : pt)
  (u : nat -> nat -> bool) (f : nat -> nat) (z : nat -> nat -> R) : res (list pt) :=
  do ar <- dycors_ar (length subset) num_cand u f;
  do X <- dycors_cols q radius subset xb z ar subset (repeat xb num_cand);
  round_vars X (q_int q) (q_lb q) (q_ub q).

(** candidate_uniform.py:43-45; [z i r] is the uniform draw from [lb[i], ub[i]). *)
Fixpoint uniform_cols (q : prob) (z : nat -> nat -> R) (todo : list nat) (X : list pt) : res (list pt) :=
  match todo with
  | [] => Ok X
  | i :: todo' =>
    do _ <- geti (q_lb q) i; do _ <- geti (q_ub q) i;
    do X' <- set_col i (fun _ => true) (fun r => z i r) X;
    uniform_cols q z todo' X'
  end.
(** pySOT/auxiliary_problems/candidate_uniform.py:43-45. *)
Definition uniform_cand (q : prob) (subset : list nat) (num_cand : nat) (xb : pt)
  (z : nat -> nat -> R) : res (list pt) :=
  do X <- uniform_cols q z subset (repeat xb num_cand);
  round_vars X (q_int q) (q_lb q) (q_ub q).

(** np.argmin(fX) and X[np.argmin(fX), :], candidate_srbf.py:92. *)
Definition x_best {A : Type} (X : list A) (fX : list xr) : res A := do k <- xargmin fX; geti X k.

(** ** The searches.  [predict] is the surrogate; subset None means all coordinates. *)
Section Search.
Variable dist : pt -> pt -> R.
Variable predict : pt -> R.

(** pySOT/auxiliary_problems/candidate_srbf.py:97-98: the default subset. *)
Definition all_coords (q : prob) : list nat := seq 0 (length (q_lb q)).

(** candidate_srbf, candidate_srbf.py:60-121 *)
Definition candidate_srbf (n : nat) (q : prob) (X : list pt) (fX : list xr) (weights : list R)
  (Xpend : list pt) (radius : R) (subset : option (list nat)) (dtol : R) (num_cand : option nat)
  (z : nat -> nat -> R) : res (list pt) :=
  do xb <- x_best X fX;
  let nc := match num_cand with Some k => k | None => (100 * length (q_lb q))%nat end in
  let sub := match subset with Some s => s | None => all_coords q end in
  do cand <- srbf_cand q radius sub nc xb z;
  weighted_distance_merit dist predict n (X ++ Xpend) cand weights dtol.

(** candidate_dycors, candidate_dycors.py:8-94; [center] is the optional argument xbest. *)
Definition candidate_dycors (n : nat) (q : prob) (X : list pt) (fX : list xr) (weights : list R)
  (Xpend : list pt) (radius : R) (subset : option (list nat)) (dtol : R) (num_cand : option nat)
  (center : option pt) (u : nat -> nat -> bool) (f : nat -> nat) (z : nat -> nat -> R) : res (list pt) :=
  do xb <- match center with Some c => Ok c | None => x_best X fX end;
  let nc := match num_cand with Some k => k | None => (100 * length (q_lb q))%nat end in
  let sub := match subset with Some s => s | None => all_coords q end in
  do cand <- dycors_cand q radius sub nc xb u f z;
  weighted_distance_merit dist predict n (X ++ Xpend) cand weights dtol.

(** candidate_uniform, candidate_uniform.py:7-53 *)
Definition candidate_uniform (n : nat) (q : prob) (X : list pt) (fX : list xr) (weights : list R)
  (Xpend : list pt) (subset : option (list nat)) (dtol : R) (num_cand : option nat)
  (z : nat -> nat -> R) : res (list pt) :=
  do xb <- x_best X fX;
  let nc := match num_cand with Some k => k | None => (100 * length (q_lb q))%nat end in
  let sub := match subset with Some s => s | None => all_coords q end in
  do cand <- uniform_cand q sub nc xb z;
  weighted_distance_merit dist predict n (X ++ Xpend) cand weights dtol.
End Search.
