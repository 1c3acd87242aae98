(** * Model of SOPStrategy: pySOT/strategy/sop_strategy.py (check_input is in Inputs.v).

    Numbers: objective values as in SRBF.v (rational or +inf).  Distances are an arbitrary
    rational-valued function [dist] on points (it stands for scipy's Euclidean distance of the
    points mapped to the unit box, whatever its rounding); the comparison of the radius rule is
    an arbitrary test [tooclose x y k t], standing for
      euclidean(x, y) < sampling_radius * (1/2)**k * t / sqrt(dim)   (utils.py:487-522, C26).
    Sampling radii start at the double 0.2 and are halved exactly.
    [self.record_queue] is only appended to and omitted; [self.d_thresh] is recomputed before
    each use and kept local.  The attribute [rank] of an archive entry is always inf
    (sop_strategy.py:33, never assigned) and therefore not a field. *)
From Coq Require Import List Arith ZArith Lia Bool QArith.
From Verif Require Import Base PyList Strategy SRBF Pareto.
Import ListNotations.

Set Implicit Arguments.

Section Rec.
Variable P : Type.

(** _SopRecord, sop_strategy.py:15-76 *)
Record srec : Type := mkRec { r_x : P; r_fx : val; r_nfail : nat; r_ntabu : nat; r_sigma : Q }.

(** _SopCenter, sop_strategy.py:79-123 *)
Record scen : Type := mkCen { n_xc : P; n_index : nat; n_new : option P; n_newidx : option nat }.

(** One row of F: point (columns 0..dim-1), value (dim), minus the distance to the nearest other
    point (dim+1, 0 before update_ranks), tabu (dim+2), rank (dim+3, None is inf), failures
    (dim+4). *)
(** A row of F_ranked, pySOT/strategy/sop_strategy.py:372-403. *)
Record frow : Type := mkRow { w_x : P; w_fx : val; w_dist : Q; w_tabu : nat; w_rank : option nat; w_nfail : nat }.

(** Attributes set by SOPStrategy, sop_strategy.py:209-216. *)
Record sop : Type := mkSop { s_evals : list srec; s_centers : list scen; s_F : option (list frow) }.

(** Attributes at construction, pySOT/strategy/sop_strategy.py:213-215. *)
Definition sop0 : sop := mkSop [] [] None.

End Rec.
Arguments sop0 {P}.

Section SOP.
Variable P : Type.
Variable peqb : P -> P -> bool.          (* np.array_equal *)
Variable dist : P -> P -> Q.
Variable tooclose : P -> P -> nat -> Q -> bool.
Variables (ncenters : Z) (async : bool) (max_evals : Z) (num_exp : nat).

Notation sop := (sop P).
Notation srec := (srec P).
Notation scen := (scen P).
Notation frow := (frow P).
Notation base := (base P val).

(** _SopRecord.__init__, pySOT/strategy/sop_strategy.py:31-37, called at 244 and 256. *)
Definition new_rec (x : P) (v : val) : srec := mkRec x v 0 0 r_max.

(** increment_failure_count and reduce_sigma, 54-60 *)
Definition fail_rec (r : srec) : srec :=
  mkRec (r_x r) (r_fx r) (S (r_nfail r)) (r_ntabu r) (r_sigma r / 2).
(** make_tabu, 62-66 *)
Definition tabu_rec (r : srec) : srec := mkRec (r_x r) (r_fx r) 0 1 r_max.
(** reset, 72-76 *)
Definition reset_rec (r : srec) : srec := mkRec (r_x r) (r_fx r) 0 0 r_max.
(** increment_tabu_tenure, 68-70 *)
Definition tenure_rec (r : srec) : srec :=
  mkRec (r_x r) (r_fx r) (r_nfail r) (S (r_ntabu r)) (r_sigma r).

(** update_F, 372-383: numpy refuses to assign a list of another length (a list of length one
    would be broadcast; C27 shows that the lengths always agree). *)
Definition update_F (s : base) (e : sop) : res (list frow) :=
  if (num_evals s =? Z.of_nat (length (s_evals e)))%Z && negb (length (s_evals e) =? 0)%nat then
    Ok (map (fun r => mkRow (r_x r) (r_fx r) 0 (r_ntabu r) None (r_nfail r)) (s_evals e))
  else Err ValueError.

(** np.min of the non-zero distances of one row; ValueError if there are none. *)
Definition nonzero_dists (x : P) (l : list P) : list Q :=
  filter (fun q => negb (Qeq_bool q 0)) (map (dist x) l).
(** numpy min over distances, pySOT/strategy/sop_strategy.py:385-403. *)
Definition Qmin_list (q : Q) (l : list Q) : Q :=
  fold_left (fun m v => if Qlt_b v m then v else m) l q.
(** Distance to the nearest of the given points, pySOT/strategy/sop_strategy.py:385-403. *)
Definition nearest (x : P) (l : list P) : res Q :=
  match nonzero_dists x l with [] => Err ValueError | q :: l' => Ok (Qmin_list q l') end.

(** update_ranks, 385-403; [nmax] = 100. *)
Definition update_ranks (s : base) (e : sop) : res (list frow) :=
  do F <- update_F s e;
  let xs := map (@w_x P) F in
  do ds <- mapR (fun r => nearest (w_x r) xs) F;
  let objs := map (fun rd : frow * Q => [w_fx (fst rd); Fin (- snd rd)]) (combine F ds) in
  match nd_sorting vlt objs 100 with
  | Some (Ok ranks) =>
    Ok (map (fun rdk : frow * Q * option nat =>
          let '(r, d, k) := rdk in mkRow (w_x r) (w_fx r) (- d) (w_tabu r) k (w_nfail r))
        (combine (combine F ds) ranks))
  | Some (Err x) => Err x
  | None => Err OtherError
  end.

(** on_initial_completed, 239-245 *)
Definition sop_initial_completed (e : sop) (s : base) (x : P) (v : val) (ev : Z) : res sop :=
  if (ev_last s <=? ev)%Z then Ok (mkSop (s_evals e ++ [new_rec x v]) (s_centers e) (s_F e))
  else Ok e.

(** The loop 259-264: index of the first center whose new point is x. *)
Definition proposed (x : P) (cn : scen) : bool :=
  match n_new cn with None => false | Some y => peqb x y end.
(** pySOT/strategy/sop_strategy.py:260-264: the loop over the centers. *)
Fixpoint find_center (x : P) (l : list scen) : option nat :=
  match l with
  | [] => None
  | cn :: l' => if proposed x cn then Some O else option_map S (find_center x l')
  end.

(** Step 2 of adjust_memory for one center, 341-351. F_ranked[None, ...] is a 2-d array whose
    truth value raises ValueError (or IndexError when there are few rows). *)
Definition judge (F : list frow) (centers : list scen) (evals : list srec) (i : nat) : res (list srec) :=
  do cp <- geti centers i;
  match n_newidx cp with
  | None => Err ValueError
  | Some k =>
    do row <- geti F k;
    match w_rank row with
    | Some 1%nat => Ok evals
    | _ => upd evals (n_index cp) fail_rec
    end
  end.
(** pySOT/strategy/sop_strategy.py:341-351: Step 2 for the centers to be judged. *)
Fixpoint judge_all (F : list frow) (centers : list scen) (evals : list srec) (is : list nat) : res (list srec) :=
  match is with
  | [] => Ok evals
  | i :: is' => do ev <- judge F centers evals i; judge_all F centers ev is'
  end.

(** Step 3, 357-362, for one entry. *)
Definition tenure (r : srec) : srec :=
  if (0 <? r_ntabu r)%nat then
    if (r_ntabu r <? 5)%nat then tenure_rec r else reset_rec r
  else r.

(** for i in range(nevals): IndexError if there are fewer entries. *)
(** pySOT/strategy/sop_strategy.py:357-362: the loop of Step 3. *)
Definition tenure_all (n : nat) (evals : list srec) : res (list srec) :=
  if (n <=? length evals)%nat then Ok (map tenure (firstn n evals) ++ skipn n evals)
  else Err IndexError.

(** 364-368 *)
Definition to_tabu (centers : list scen) (evals : list srec) (i : nat) : res (list srec) :=
  do cp <- geti centers i;
  upd evals (n_index cp) (fun r => if (3 <? r_nfail r)%nat then tabu_rec r else r).
(** pySOT/strategy/sop_strategy.py:364-368: the loop. *)
Fixpoint to_tabu_all (centers : list scen) (evals : list srec) (is : list nat) : res (list srec) :=
  match is with
  | [] => Ok evals
  | i :: is' => do ev <- to_tabu centers evals i; to_tabu_all centers ev is'
  end.

(** adjust_memory, 319-370 *)
Definition adjust_memory (index : option nat) (s : base) (e : sop) : res sop :=
  let is := match index with None => seq 0 (Z.to_nat ncenters) | Some i => [i] end in
  do F <- update_ranks s e;
  do ev1 <- judge_all F (s_centers e) (s_evals e) is;
  do ev2 <- tenure_all (Z.to_nat (num_evals s)) ev1;
  do ev3 <- to_tabu_all (s_centers e) ev2 is;
  do F' <- update_F s (mkSop ev3 (s_centers e) (Some F));
  Ok (mkSop ev3 (s_centers e) (Some F')).

(** pySOT/strategy/sop_strategy.py:262: self.centers[i].new_index = ... *)
Definition set_newidx (k : nat) (cn : scen) : scen := mkCen (n_xc cn) (n_index cn) (n_new cn) (Some k).

(** on_adapt_completed after super(), 247-269 *)
Definition sop_adapt_completed (e : sop) (s : base) (x : P) (v : val) (ev : Z) : res (sop * nat * bool) :=
  if (ev_last s <=? ev)%Z then
    let evals := s_evals e ++ [new_rec x v] in
    let ci := find_center x (s_centers e) in
    do centers <- match ci with
                  | None => Ok (s_centers e)
                  | Some i => upd (s_centers e) i (set_newidx (Z.to_nat (num_evals s - 1)))
                  end;
    let e := mkSop evals centers (s_F e) in
    if async then do e' <- adjust_memory ci s e; Ok (e', 0%nat, false)
    else if negb (nonempty (batch_queue s)) && (pending_evals s =? 0)%Z then
      do e' <- adjust_memory None s e; Ok (e', 0%nat, false)
    else Ok (e, 0%nat, false)
  else Ok (e, 0%nat, false).

(** ** update_center_list, 405-483 *)

(** Lexicographic comparison of (tabu, rank, value) used by np.lexsort, 436; [true] if row [a]
    must not come after row [b]. *)
Definition rank_lt (a b : option nat) : bool :=
  match a, b with Some x, Some y => (x <? y)%nat | Some _, None => true | None, _ => false end.
(** Comparison of two rows in the lexicographic order of pySOT/strategy/sop_strategy.py:436. *)
Definition key_lt (a b : frow) : bool :=
  if (w_tabu a <? w_tabu b)%nat then true else if (w_tabu b <? w_tabu a)%nat then false else
  if rank_lt (w_rank a) (w_rank b) then true else if rank_lt (w_rank b) (w_rank a) then false else
  vlt (w_fx a) (w_fx b).

(** np.lexsort is a stable sort of the indices: insertion sort, equal keys keep their order. *)
Fixpoint insert_idx (a : nat * frow) (l : list (nat * frow)) : list (nat * frow) :=
  match l with
  | [] => [a]
  | b :: l' => if key_lt (snd b) (snd a) then b :: insert_idx a l' else a :: l
  end.
(** numpy.lexsort, pySOT/strategy/sop_strategy.py:436: stable. *)
Definition lexsort (F : list frow) : list nat :=
  map fst (fold_right insert_idx [] (combine (seq 0 (length F)) F)).

(** np.argmin of column dim: the first index of the smallest value. *)
Fixpoint argmin_from (i best : nat) (bv : val) (l : list val) : nat :=
  match l with
  | [] => best
  | v :: l' => if vlt v bv then argmin_from (S i) i v l' else argmin_from (S i) best bv l'
  end.
(** numpy.argmin, pySOT/strategy/sop_strategy.py:437: first smallest; ValueError if empty. *)
Definition argmin (l : list val) : res nat :=
  match l with [] => Err ValueError | v :: l' => Ok (argmin_from 1 0 v l') end.

(** 446-450: the loop that shifts ind[0..] right until min_index is met. *)
Fixpoint shift (m prev : nat) (rest : list nat) : res (list nat) :=
  match rest with
  | [] => Err IndexError
  | a :: rest' => if (a =? m)%nat then Ok (prev :: rest') else do r <- shift m a rest'; Ok (prev :: r)
  end.

(** Radius rule for row [a] against the centers already chosen. *)
(** check_radius_rule, pySOT/utils.py:487-522, called at pySOT/strategy/sop_strategy.py:463-470. *)
Definition far (F : list frow) (t : Q) (a : nat) (chosen : list nat) : res bool :=
  do ra <- geti F a;
  do rs <- mapR (geti F) chosen;
  Ok (forallb (fun rc => negb (tooclose (w_x ra) (w_x rc) (w_nfail rc) t)) rs).

(** The while loop 461-479; [k] is nevals - i, [rest] is ind_new[i:], [cc] is center_count. *)
Fixpoint choose (F : list frow) (t : Q) (cc k : nat) (rest chosen : list nat) : res (list nat) :=
  if (length chosen <? cc)%nat then
    match k with
    | O =>                                                              (* 475-479 *)
      let prev := length chosen in
      do more <- mapR (fun j => geti chosen (j mod prev)) (seq prev (cc - prev));
      Ok (chosen ++ more)
    | S k' =>
      match rest with
      | [] => Err IndexError
      | a :: rest' =>
        do flag <- far F t a chosen;
        choose F t cc k' rest' (if flag then chosen ++ [a] else chosen)
      end
    end
  else Ok chosen.

(** Step 1: tag the centers that are being processed, 424-432. *)
Definition tag_row (r : frow) : frow := mkRow (w_x r) (w_fx r) (w_dist r) 2 (w_rank r) (w_nfail r).
(** pySOT/strategy/sop_strategy.py:427: a center whose new point has no index yet. *)
Definition busy (cn : scen) : bool := match n_newidx cn with None => true | Some _ => false end.
(** pySOT/strategy/sop_strategy.py:426-430. *)
Fixpoint tag_busy (F : list frow) (l : list scen) : res (list frow) :=
  match l with
  | [] => Ok F
  | cn :: l' => if busy cn then do F' <- upd F (n_index cn) tag_row; tag_busy F' l' else tag_busy F l'
  end.

(** Order in which points are considered, 436-450. *)
Definition order (F : list frow) : res (list nat) :=
  let ind := lexsort F in
  do m <- argmin (map (@w_fx P) F);
  do i0 <- geti ind 0;
  do rm <- geti F m;
  if (m =? i0)%nat || (w_tabu rm =? 2)%nat then Ok ind
  else do r <- shift m i0 (tl ind); Ok (m :: r).

(** pySOT/strategy/sop_strategy.py:420. *)
Definition d_thresh (s : base) : res Q :=
  let b := (max_evals - Z.of_nat num_exp)%Z in
  if (b =? 0)%Z then Err ZeroDivisionError
  else Ok (1 - inject_Z (num_evals s - Z.of_nat num_exp) / inject_Z b).

(** _SopCenter.__init__, pySOT/strategy/sop_strategy.py:93-97, called at 481-483. *)
Definition new_center (evals : list srec) (i : nat) : res scen :=
  do r <- geti evals i; Ok (mkCen (r_x r) i None None).

(** update_center_list, 405-483; [F] is F_ranked. *)
Definition update_center_list (s : base) (e : sop) (F0 : list frow) : res sop :=
  do t <- d_thresh s;
  do F <- tag_busy F0 (s_centers e);
  let pendc := filter busy (s_centers e) in
  do ind_new <- order F;
  let cc := (ncenters - Z.of_nat (length pendc))%Z in
  if (0 <? cc)%Z then
    do i0 <- geti ind_new 0;
    do idx <- choose F t (Z.to_nat cc) (Z.to_nat (num_evals s) - 1) (tl ind_new) [i0];
    do cs <- mapR (new_center (s_evals e)) idx;
    Ok (mkSop (s_evals e) (pendc ++ cs) (Some F0))
  else Ok (mkSop (s_evals e) pendc (Some F0)).

(** The candidate search candidate_dycors(num_pts=1, ...) around a center with its radius; its
    draws and its other arguments (surrogate, _X, _fX, Xpend, probability) are in the oracle. *)
(** Abstract candidate_dycors call of pySOT/strategy/sop_strategy.py:299-311 (round, center, sigma); the concrete one is SOPFeas.v. *)
Definition sop_search := nat -> P -> Q -> res P.

(** pySOT/strategy/sop_strategy.py:291-295: index of the first center without a new point. *)
Fixpoint first_free (l : list scen) : nat :=
  match l with
  | [] => O
  | cn :: l' => match n_new cn with None => O | Some _ => S (first_free l') end
  end.

(** Loop of generate_evals, 289-313. *)
Fixpoint perturb (evals : list srec) (o : sop_search) (n i : nat) (centers : list scen) (acc : list P)
  : res (list scen * list P) :=
  match n with
  | O => Ok (centers, acc)
  | S n' =>
    let ci := first_free centers in
    do cn <- geti centers ci;
    do r <- geti evals (n_index cn);
    do y <- o i (n_xc cn) (r_sigma r);
    do centers' <- upd centers ci (fun cn => mkCen (n_xc cn) (n_index cn) (Some y) (n_newidx cn));
    perturb evals o n' (S i) centers' (acc ++ [y])
  end.

(** generate_evals, 271-317 *)
Definition sop_generate (e : sop) (s : base) (n : nat) (o : sop_search) : res (sop * option (list P)) :=
  do F <- match s_F e with None => update_ranks s e | Some F => Ok F end;
  do e <- update_center_list s e F;
  do r <- perturb (s_evals e) o n 0 (s_centers e) [];
  Ok (mkSop (s_evals e) (fst r) (s_F e), Some (snd r)).

(** The methods overridden at pySOT/strategy/sop_strategy.py:239-317. *)
Definition sop_hooks : hooks P val sop sop_search :=
  mkHooks (fun e => e) sop_initial_completed sop_adapt_completed sop_generate.
End SOP.
