(** * Model of SRBFStrategy and DYCORSStrategy: pySOT/strategy/srbf_strategy.py (all methods but
    check_input, which is in Inputs.v) and dycors_strategy.py.

    Numbers: objective values are rationals or +inf (nan and -inf are outside the model);
    comparisons and arithmetic on them are exact (float rounding of [1e-3*|fbest|] is ignored).
    The sampling radius starts at the double nearest to 0.2, an exact rational; halving,
    doubling and comparing are exact on it, in the model as in IEEE arithmetic. *)
From Coq Require Import List Arith ZArith Lia Bool QArith Qabs Qminmax Qpower.
From Verif Require Import Base Strategy.
Import ListNotations.

Set Implicit Arguments.

(** Values of self._fbest and record.value, pySOT/strategy/srbf_strategy.py:148, 195: finite numbers (rationals) and numpy.inf. *)
Inductive val : Type := Fin (q : Q) | PInf.

(** Python < on finite values, pySOT/strategy/srbf_strategy.py:196. *)
Definition Qlt_b (x y : Q) : bool := negb (Qle_bool y x).
(** Python < on values that may be inf, pySOT/strategy/srbf_strategy.py:196. *)
Definition vlt (a b : val) : bool :=
  match a, b with
  | Fin x, Fin y => Qlt_b x y
  | Fin _, PInf => true
  | PInf, _ => false
  end.

(** Python's min of a non-empty list (first of the smallest). *)
(** min([...]) of pySOT/strategy/srbf_strategy.py:195. *)
Definition vmin (x : val) (l : list val) : val :=
  fold_left (fun m v => if vlt v m then v else m) l x.

(** The double nearest to 0.2, and sampling_radius_min = 0.2 * 0.5**6: srbf_strategy.py:110-111. *)
Definition r_max : Q := 3602879701896397 # 18014398509481984.
(** sampling_radius_min, pySOT/strategy/srbf_strategy.py:110. *)
Definition r_min : Q := r_max * (1 # 64).

(** Attributes set by SRBFStrategy. [s_steps] is a ghost: the lists of values processed by
    adjust_step since the last sample_initial, oldest first; [s_used] is a ghost: the weights
    passed to the candidate search so far. *)
(** Attributes of pySOT/strategy/srbf_strategy.py:103-122 and 143-148 that change during a run. *)
Record srbf : Type := mkSrbf {
  s_status : Z;
  s_failcount : Z;
  s_radius : Q;
  s_fbest : val;
  s_queue : list val;        (* values of self.record_queue *)
  s_next : nat;              (* self.next_weight *)
  s_steps : list (list val);
  s_used : list Q
}.

(** failtol, srbf_strategy.py:113-118: int(max(ceil(d), 4)) in asynchronous mode, else
    int(max(ceil(d/p), ceil(4/p))), with integer ceilings. *)
Definition ceil_div (a b : nat) : Z := ((Z.of_nat a + Z.of_nat b - 1) / Z.of_nat b)%Z.
(** pySOT/strategy/srbf_strategy.py:113-118: self.failtol. *)
Definition failtol_of (async : bool) (dim batch : nat) : Z :=
  if async then Z.max (Z.of_nat dim) 4
  else Z.max (ceil_div dim batch) (ceil_div 4 batch).
(** pySOT/strategy/srbf_strategy.py:119. *)
Definition succtol : Z := 3.

(** sample_initial, srbf_strategy.py:143-148 (after super()). *)
Definition srbf_init (e : srbf) : srbf :=
  mkSrbf 0 0 r_max PInf (s_queue e) (s_next e) [] (s_used e).

(** Attributes set before super().__init__: srbf_strategy.py:100-122. *)
Definition srbf0 : srbf := mkSrbf 0 0 r_max PInf [] 0 [] [].

(** Improvement test of adjust_step, srbf_strategy.py:195-196. *)
Definition improves (fnew fbest : val) : bool :=
  match fbest with
  | PInf => true                                        (* np.isinf(self._fbest) *)
  | Fin b => vlt fnew (Fin (b - (1 # 1000) * Qabs b))
  end.

Section SRBF.
Variables (failtol : Z) (async : bool) (weights : list Q).

(** adjust_step, srbf_strategy.py:188-221: new state, number of new event ids, converged flag.
    min() of an empty queue raises ValueError. *)
Definition adjust_step (e : srbf) : res (srbf * nat * bool) :=
  match s_queue e with
  | [] => Err ValueError
  | v :: l =>
    let fnew := vmin v l in
    let imp := improves fnew (s_fbest e) in
    let fbest := if imp then fnew else s_fbest e in
    let status := if imp then Z.max 1 (s_status e + 1) else Z.min (-1) (s_status e - 1) in
    let failcount := if imp then 0%Z else (s_failcount e + 1)%Z in
    let halve := (status <=? - failtol)%Z in
    let b1 := if halve then 1%nat else 0%nat in
    let status := if halve then 0%Z else status in
    let radius := if halve then s_radius e / 2 else s_radius e in
    let double := (succtol <=? status)%Z in
    let b2 := if double then 1%nat else 0%nat in
    let status := if double then 0%Z else status in
    let radius := if double then Qmin (2 * radius) r_max else radius in
    let conv := (4 * failtol <=? failcount)%Z || Qle_bool radius r_min in
    Ok (mkSrbf status failcount radius fbest [] (s_next e) (s_steps e ++ [s_queue e]) (s_used e),
        (b1 + b2)%nat, conv)
  end.

(** on_adapt_completed after super(), srbf_strategy.py:150-160. *)
Definition srbf_adapt_completed {P} (e : srbf) (s : base P val) (x : P) (v : val) (ev : Z)
  : res (srbf * nat * bool) :=
  if (ev_last s <? ev)%Z then
    let e := mkSrbf (s_status e) (s_failcount e) (s_radius e) (s_fbest e) (s_queue e ++ [v])
                    (s_next e) (s_steps e) (s_used e) in
    if async then adjust_step e
    else if negb (nonempty (batch_queue s)) && (pending_evals s =? 0)%Z then adjust_step e
    else Ok (e, 0%nat, false)
  else Ok (e, 0%nat, false).

(** get_weights, srbf_strategy.py:162-168. *)
Fixpoint get_weights (n : nat) (next : nat) : res (list Q * nat) :=
  match n with
  | O => Ok ([], next)
  | S n' =>
    match nth_error weights next with
    | None => Err IndexError
    | Some w => do r <- get_weights n' ((next + 1) mod length weights)%nat;
                Ok (w :: fst r, snd r)
    end
  end.

(** generate_evals, srbf_strategy.py:170-186 and dycors_strategy.py:84-107.  The candidate
    search with its random draws is an oracle that receives the state (hence _X, _fX, Xpend, the
    surrogate and, for DYCORS, the evaluation counts), the number of points, the weights and the
    radius; it is modelled in Cand.v.  Rows 0..n-1 of the result are queued. *)
Definition cand_search (P : Type) := base P val -> nat -> list Q -> Q -> res (list P).

(** pySOT/strategy/srbf_strategy.py:170-186: generate_evals. *)
Definition srbf_generate {P} (e : srbf) (s : base P val) (n : nat) (o : cand_search P)
  : res (srbf * option (list P)) :=
  do w <- get_weights n (s_next e);
  do pts <- o s n (fst w) (s_radius e);
  do rows <- take_rows n pts;
  Ok (mkSrbf (s_status e) (s_failcount e) (s_radius e) (s_fbest e) (s_queue e) (snd w)
             (s_steps e) (s_used e ++ fst w), Some rows).

(** The methods overridden at pySOT/strategy/srbf_strategy.py:143-186. *)
Definition srbf_hooks (P : Type) : hooks P val srbf (cand_search P) :=
  mkHooks srbf_init (fun e _ _ _ _ => Ok e) srbf_adapt_completed srbf_generate.
End SRBF.
