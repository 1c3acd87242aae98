(** * The genetic algorithm pySOT/utils.py:200-376 and the searches ei_ga.py, lcb_ga.py with the
    merit functions ei_merit.py, lcb_merit.py and generate_evals of ei_strategy.py, lcb_strategy.py.

    Numbers are reals; function values are extended reals ([xr], Cand.v).  Random draws are
    arguments.  The function that evaluates a population is [map f] for a function [f] of one
    point.  Shape errors of numpy for rows of a wrong length are not modelled. *)
From Coq Require Import List Arith ZArith Lia Bool Reals Lra.
From Verif Require Import Base PyList Box Cand.
Import ListNotations.

Set Implicit Arguments.
Local Open Scope R_scope.

(** Draws of one generation, utils.py:320-347: competitors, crossover rows, alpha, standard normal
    perturbations and mutated coordinates, by row (and slot or coordinate). *)
Record gen_draw : Type := mkGen {
  g_comp : nat -> nat -> nat;
  g_cross : nat -> bool;
  g_alpha : nat -> R;
  g_pert : nat -> nat -> R;
  g_mut : nat -> nat -> bool
}.

(** The argument [start]: an array, or a string: "SLHD"/"LHD"/"Random" (with the points of the
    unit box that are drawn), or an unknown string. *)
(** pySOT/utils.py:268, 276, 281, 286, 290: the argument start. *)
Inductive ga_start : Type := StartArray (X : list pt) | StartUnit (U : list pt) | StartUnknown.

(** Helper with no counterpart in /repo: map with index. *)
Fixpoint mapi_from {A B} (i : nat) (f : nat -> A -> B) (l : list A) : list B :=
  match l with [] => [] | a :: l' => f i a :: mapi_from (S i) f l' end.
(** Helper with no counterpart in /repo: map with index. *)
Definition mapi {A B} (f : nat -> A -> B) (l : list A) : list B := mapi_from 0 f l.

Section GA.
Variable q : prob.
Variable f : pt -> xr.
Notation dim := (length (q_lb q)).

(** np.min / np.max of column i *)
Definition col (i : nat) (X : list pt) : list R := map (fun x : pt => nth i x 0) X.
(** pySOT/utils.py:271: np.min(axis=0). *)
Definition col_min (i : nat) (X : list pt) : R := match col i X with [] => 0 | a :: l => Rminl a l end.
(** pySOT/utils.py:272: np.max(axis=0). *)
Definition col_max (i : nat) (X : list pt) : R := match col i X with [] => 0 | a :: l => Rmaxl a l end.

(** The test utils.py:271-273. *)
Definition start_refused (X : list pt) : bool :=
  existsb (fun i => if Rle_dec (nth i (q_lb q) 0) (col_min i X) then true else false) (seq 0 dim) ||
  existsb (fun i => if Rle_dec (col_max i X) (nth i (q_ub q) 0) then true else false) (seq 0 dim).

(** Initial population, utils.py:268-291. *)
Definition init_population (nind : nat) (st : ga_start) : res (list pt) :=
  match st with
  | StartArray X =>
    if negb ((length X =? nind)%nat && forallb (fun x : pt => (length x =? dim)%nat) X) then Err ValueError
    else if (length X =? 0)%nat then Err ValueError       (* np.min of an empty axis *)
    else if start_refused X then Err ValueError
    else Ok X
  | StartUnit U => Ok (map (fun u => map3 (fun a l h => l + a * (h - l)) u (q_lb q) (q_ub q)) U)
  | StartUnknown => Err ValueError
  end.

(** Rounding of the initial population, utils.py:294-302. *)
Definition shift_low (l a : R) : R := if Rlt_dec a l then a + 1 else a.
(** pySOT/utils.py:301-302. *)
Definition shift_high (u a : R) : R := if Rlt_dec u a then a - 1 else a.
(** pySOT/utils.py:298-302. *)
Fixpoint shift_cols (iv : list nat) (X : list pt) : res (list pt) :=
  match iv with
  | [] => Ok X
  | i :: iv' =>
    do l <- geti (q_lb q) i; do X1 <- col_map i (shift_low l) X;
    do u <- geti (q_ub q) i; do X2 <- col_map i (shift_high u) X1;
    shift_cols iv' X2
  end.
(** pySOT/utils.py:294-302. *)
Definition init_round (X : list pt) : res (list pt) :=
  match q_int q with [] => Ok X | iv => do X1 <- round_cols iv X; shift_cols iv X1 end.

(** State: population for the next generation, function values, best individual and value. *)
(** Local variables of optimize between two generations, pySOT/utils.py:310-315, 368-374. *)
Record ga_state : Type := mkGa { ga_pop : list pt; ga_vals : list xr; ga_best : pt; ga_value : xr }.

(** Evaluate the population E and save the best individual; [keep] is the population that is
    used afterwards: utils.py:304-315 and 362-374. *)
Definition ga_evaluate (E keep : list pt) : res ga_state :=
  let vals := map f E in
  do k <- xargmin vals;
  do x <- geti E k;
  do v <- geti vals k;
  Ok (mkGa keep vals x v).

(** The positions that are not rounded are used further if there are integer variables. *)
(** pySOT/utils.py:314-315, 373-374. *)
Definition keep_pop (unrounded evaluated : list pt) : list pt :=
  match q_int q with [] => evaluated | _ => unrounded end.

(** Winner of the tournament for row r, utils.py:320-327. *)
Definition winner (vals : list xr) (g : gen_draw) (r : nat) : res nat :=
  let cs := map (g_comp g r) (seq 0 5) in
  do vs <- mapR (geti vals) cs;
  do k <- xargmin vs;
  geti cs k.

(** alpha * x + (1 - alpha) * y *)
(** pySOT/utils.py:335-336. *)
Definition lin (al : R) (x y : pt) : pt := map (fun ab : R * R => al * fst ab + (1 - al) * snd ab) (combine x y).

(** Crossover of the halves, utils.py:329-339. *)
Definition cross_row (g : gen_draw) (r : nat) (xy : pt * pt) : pt * pt :=
  let (x, y) := xy in
  if g_cross g r then (lin (g_alpha g r) x y, lin (g_alpha g r) y x) else (x, y).
(** pySOT/utils.py:334-339. *)
Definition crossover (g : gen_draw) (P1 P2 : list pt) : list pt :=
  let c := mapi (cross_row g) (combine P1 P2) in map fst c ++ map snd c.

(** Mutation and clipping, utils.py:341-351; sigma = 0.2. *)
Definition mutate_row (g : gen_draw) (r : nat) (x : pt) : pt :=
  let y := mapi (fun i a => a + g_pert g r i * (/5 * (nth i (q_ub q) 0 - nth i (q_lb q) 0)) * (if g_mut g r i then 1 else 0)) x in
  map3 (fun a l u => Rmin u (Rmax l a)) y (q_lb q) (q_ub q).

(** population[0, :] = best_individual *)
(** pySOT/utils.py:360. *)
Definition set_first (X : list pt) (b : pt) : res (list pt) :=
  match X with [] => Err IndexError | _ :: l => Ok (b :: l) end.

(** One generation, utils.py:318-374; returns the new state and (ghost) the population that was
    evaluated. *)
Definition generation (nind : nat) (g : gen_draw) (s : ga_state) : res (ga_state * list pt) :=
  do ws <- mapR (winner (ga_vals s) g) (seq 0 nind);
  do parents <- mapR (geti (ga_pop s)) ws;
  let P1 := firstn (nind / 2) parents in
  let P2 := skipn (nind / 2) parents in
  let pop := mapi (mutate_row g) (crossover g P1 P2) in
  do rounded <- round_vars pop (q_int q) (q_lb q) (q_ub q);
  do E <- set_first rounded (ga_best s);
  do s' <- ga_evaluate E (keep_pop pop E);
  Ok (s', E).

(** pySOT/utils.py:318-374: the loop. *)
Fixpoint generations (nind : nat) (gs : list gen_draw) (s : ga_state) : res (ga_state * list (list pt)) :=
  match gs with
  | [] => Ok (s, [])
  | g :: gs' =>
    do r <- generation nind g s;
    do r' <- generations nind gs' (fst r);
    Ok (fst r', snd r :: snd r')
  end.

(** optimize, utils.py:261-376; nindividuals is pop_size + pop_size % 2; one element of [gs] per
    generation.  Returns the best individual, its value and (ghost) all evaluated populations. *)
Definition ga_optimize (pop_size : nat) (st : ga_start) (gs : list gen_draw) : res (pt * xr * list (list pt)) :=
  let nind := (pop_size + pop_size mod 2)%nat in
  do pop <- init_population nind st;
  do E <- init_round pop;
  do s <- ga_evaluate E (keep_pop pop E);
  do r <- generations nind gs s;
  Ok (ga_best (fst r), ga_value (fst r), E :: snd r).
End GA.

(** ** Expected improvement and lower confidence bound *)
Section Merits.
Variable dist : pt -> pt -> R.
Variables mu sig : pt -> R.       (* surrogate.predict, predict_std *)
Variables Phi phi : R -> R.       (* norm.cdf, norm.pdf *)

(** ei_merit, ei_merit.py:23-26, for one point; [fmin] is np.min(fX). *)
Definition ei_raw (fmin : R) (x : pt) : R :=
  let gamma := (fmin - mu x) / sig x in
  sig x * (gamma * Phi gamma + phi gamma).
(** pySOT/auxiliary_problems/ei_merit.py:29-31. *)
Definition too_close (dtol : R) (XX : list pt) (x : pt) : bool :=
  existsb (fun t => if Rlt_dec (dist x t) dtol then true else false) XX.
(** dmerit is the minimum over the rows of XX, so dmerit < dtol iff some distance is. *)
(** pySOT/auxiliary_problems/ei_merit.py:23-32. *)
Definition ei_merit (fmin dtol : R) (XX : list pt) (x : pt) : R :=
  if Rlt_dec 0 dtol then if too_close dtol XX x then 0 else ei_raw fmin x else ei_raw fmin x.

(** lcb_merit, lcb_merit.py:25-26, for one point. *)
Definition lcb_raw (kappa : R) (x : pt) : R := mu x - kappa * sig x.
(** pySOT/auxiliary_problems/lcb_merit.py:25-32. *)
Definition lcb_merit (kappa dtol : R) (XX : list pt) (x : pt) : xr :=
  if Rlt_dec 0 dtol then if too_close dtol XX x then XInf else XFin (lcb_raw kappa x) else XFin (lcb_raw kappa x).

(** Rounding in obj, ei_ga.py:40; round_vars of one row. *)
Definition round_row (q : prob) (x : pt) : pt :=
  match round_vars [x] (q_int q) (q_lb q) (q_ub q) with Ok [y] => y | _ => x end.

(** pySOT/auxiliary_problems/ei_ga.py:38-42. *)
Definition ei_obj (q : prob) (fmin dtol : R) (XX : list pt) (x : pt) : xr :=
  XFin (- ei_merit fmin dtol XX (round_row q x)).
(** pySOT/auxiliary_problems/lcb_ga.py:39-42. *)
Definition lcb_obj (q : prob) (kappa dtol : R) (XX : list pt) (x : pt) : xr :=
  lcb_merit kappa dtol XX (round_row q x).

(** pop_size and start of the calls of GA. *)
(** pySOT/auxiliary_problems/ei_ga.py:50 and lcb_ga.py:50. *)
Definition ga_pop_size (q : prob) : nat := Nat.max (2 * length (q_lb q)) 100.

(** Draws of one GA run: initial design in the unit box and the generations (100 of them). *)
(** The random numbers used by pySOT/utils.py:276-288 and 318-347 in one run. *)
Record ga_draws : Type := mkDraws { gd_unit : list pt; gd_gens : list gen_draw }.

(** ei_ga, ei_ga.py:8-61; one element of [ds] per point.  [None] means give up. *)
Fixpoint ei_ga (q : prob) (fmin dtol ei_tol : R) (XX : list pt) (n : nat) (ds : nat -> ga_draws)
  : res (option (list pt)) :=
  match n with
  | O => Ok (Some [])
  | S n' =>
    do r <- ga_optimize q (ei_obj q fmin dtol XX) (ga_pop_size q) (StartUnit (gd_unit (ds 0%nat))) (gd_gens (ds 0%nat));
    let '(x, v, _) := r in
    match v with
    | XFin w =>
      if Rlt_dec (- w) ei_tol then Ok None
      else do r' <- ei_ga q fmin dtol ei_tol (XX ++ [x]) n' (fun i => ds (S i));
           Ok (match r' with None => None | Some l => Some (x :: l) end)
    | _ => Err OtherError   (* not reached: ei_obj is finite *)
    end
  end.

(** lcb_ga, lcb_ga.py:8-60; comparing with lcb_target=None raises TypeError. *)
Fixpoint lcb_ga (q : prob) (kappa dtol : R) (target : option R) (XX : list pt) (n : nat) (ds : nat -> ga_draws)
  : res (option (list pt)) :=
  match n with
  | O => Ok (Some [])
  | S n' =>
    do r <- ga_optimize q (lcb_obj q kappa dtol XX) (ga_pop_size q) (StartUnit (gd_unit (ds 0%nat))) (gd_gens (ds 0%nat));
    let '(x, v, _) := r in
    match target with
    | None => Err TypeError
    | Some t =>
      if xlt (XFin t) v then Ok None
      else do r' <- lcb_ga q kappa dtol target (XX ++ [x]) n' (fun i => ds (S i));
           Ok (match r' with None => None | Some l => Some (x :: l) end)
    end
  end.
End Merits.
