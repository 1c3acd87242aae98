(** * Argument checking: check_opt_prob (pySOT/utils.py) and the check_input methods.

    Python values are dynamically typed; an argument is modelled by the cases the checks
    distinguish.  Index arrays hold integers (an array of floats is not modelled).  exn has no
    AttributeError: it is OtherError here. *)
From Coq Require Import List Arith ZArith Lia Bool Reals Lra.
From Verif Require Import Base Box.
Import ListNotations.

Set Implicit Arguments.

(** an attribute or argument that should be an int *)
(** A Python number as tested at pySOT/utils.py:112, pySOT/strategy/surrogate_strategy.py:163. *)
Inductive num := NInt (z : Z)            (* an int *)
               | NFloat (r : R)          (* a float: not an int, comparable with numbers, not callable *)
               | NCallable (z : Z)       (* a callable returning z when called without arguments *)
               | NOther.                 (* anything else: not callable, comparison with 0 raises TypeError *)
(** an attribute that should be a numpy array of numbers *)
Inductive arr := Arr (l : list R) | NotArr.
(** an attribute that should be a numpy array of indices *)
Inductive idx := IArr (l : list Z)       (* numpy.ndarray *)
               | IList (l : list Z)      (* a list *)
               | INone.                  (* no len() *)

(** The attributes read by check_opt_prob, pySOT/utils.py:109-148. *)
Record object := { o_is_problem : bool; o_dim : num; o_lb : arr; o_ub : arr; o_cont : idx; o_int : idx }.

(** if ...: raise ..., pySOT/utils.py:109-148. *)
Definition raise_if (b : bool) (e : exn) : res unit := if b then Err e else Ok tt.

(** len(contvar) *)
(** len() at pySOT/utils.py:126, 132, 139, 142, 147. *)
Definition idx_len (v : idx) : res Z :=
  match v with IArr l | IList l => Ok (Z.of_nat (length l)) | INone => Err TypeError end.
(** The indices, pySOT/utils.py:140, 143, 145. *)
Definition idx_vals (v : idx) : list Z := match v with IArr l | IList l => l | INone => [] end.

(** < at pySOT/utils.py:121. *)
Definition Rltb (a b : R) : bool := if Rlt_dec a b then true else false.

(** utils.py:126-131 and 132-137: a nonempty index array must be an ndarray (the inner else cannot
    be reached) *)
Definition check_kind (v : idx) : res unit :=
  do n <- idx_len v;
  raise_if ((0 <? n)%Z && match v with IArr _ => false | _ => true end) ValueError.

(** utils.py:139-144: np.amax(v) < dim and np.amin(v) >= 0 for nonempty v *)
Definition check_range (d : Z) (v : idx) : res unit :=
  do n <- idx_len v;
  raise_if ((0 <? n)%Z && negb (forallb (fun z => (z <? d)%Z) (idx_vals v) && forallb (fun z => (0 <=? z)%Z) (idx_vals v))) OtherError.

(** check_opt_prob, utils.py:96-148 *)
Definition check_opt_prob (o : object) : res unit :=
  do _ <- raise_if (negb (o_is_problem o)) TypeError;
  (* if not isinstance(obj.dim, int) and obj.dim() > 0: raise ValueError *)
  do _ <- match o_dim o with
          | NInt _ => Ok tt
          | NCallable z => raise_if (0 <? z)%Z ValueError
          | NFloat _ | NOther => Err TypeError
          end;
  match o_lb o with
  | NotArr => Err ValueError
  | Arr lb =>
    match o_ub o with
    | NotArr => Err ValueError
    | Arr ub =>
      match o_dim o with
      | NInt d =>
        do _ <- raise_if (negb ((Z.of_nat (length lb) =? d)%Z && (Z.of_nat (length ub) =? d)%Z)) OtherError;
        do _ <- raise_if (negb (forallb (fun i => Rltb (nth i lb 0%R) (nth i ub 0%R)) (seq 0 (Z.to_nat d)))) OtherError;
        do _ <- check_kind (o_cont o);
        do _ <- check_kind (o_int o);
        do _ <- check_range d (o_cont o);
        do _ <- check_range d (o_int o);
        (* len(np.intersect1d(contvar, intvar)) == 0 *)
        do _ <- raise_if (existsb (fun z => existsb (Z.eqb z) (idx_vals (o_int o))) (idx_vals (o_cont o))) OtherError;
        raise_if (negb (Z.of_nat (length (idx_vals (o_cont o))) + Z.of_nat (length (idx_vals (o_int o))) =? d)%Z) OtherError
      | _ => Err OtherError     (* len(obj.lb) == obj.dim is False *)
      end
    end
  end.

(** ** Strategy constructors: the part before sample_initial *)
(** Constructor arguments, pySOT/strategy/surrogate_strategy.py:82-93. *)
Record args := {
  g_prob : object;
  g_is_design : bool;          (* isinstance(exp_design, ExperimentalDesign) *)
  g_num_pts : Z;               (* exp_design.num_pts *)
  g_is_surrogate : bool;       (* isinstance(surrogate, Surrogate) *)
  g_is_gp : bool;              (* isinstance(surrogate, GPRegressor), implies the previous one *)
  g_async : bool;
  g_batch : option Z;
  g_max_evals : num;
  g_ncenters : num;            (* SOP *)
  g_weights : option (list R)  (* SRBF, DYCORS: a list of floats; None selects the default *)
}.

(** v > 0 for a Python number *)
(** > at pySOT/strategy/surrogate_strategy.py:163 and pySOT/utils.py:112. *)
Definition gt0 (v : num) (z : Z) : res bool :=
  match v with NInt a => Ok (z <? a)%Z | NFloat r => Ok (Rltb (IZR z) r) | _ => Err TypeError end.
(** >= at pySOT/strategy/surrogate_strategy.py:163. *)
Definition ge (v : num) (z : Z) : res bool :=
  match v with NInt a => Ok (z <=? a)%Z | NFloat r => Ok (negb (Rltb r (IZR z))) | _ => Err TypeError end.
(** isinstance(_, int), pySOT/strategy/surrogate_strategy.py:163, pySOT/utils.py:112. *)
Definition is_int (v : num) : bool := match v with NInt _ => true | _ => false end.

(** SurrogateBaseStrategy.check_input, surrogate_strategy.py:152-164 *)
Definition base_check (g : args) : res unit :=
  do _ <- raise_if (negb (g_is_surrogate g)) ValueError;
  do _ <- raise_if (negb (g_is_design g)) ValueError;
  do _ <- raise_if (negb (o_is_problem (g_prob g))) ValueError;
  do _ <- check_opt_prob (g_prob g);
  do _ <- raise_if (negb (g_async g) && match g_batch g with None => true | Some _ => false end) ValueError;
  (* if not isinstance(max_evals, int) and max_evals > 0 and max_evals >= num_pts: raise ValueError *)
  if is_int (g_max_evals g) then Ok tt
  else do b <- gt0 (g_max_evals g) 0;
       if b then do c <- ge (g_max_evals g) (g_num_pts g); raise_if c ValueError else Ok tt.

(** SOPStrategy.check_input, sop_strategy.py:230-237 *)
Definition sop_check (g : args) : res unit :=
  do _ <- base_check g;
  do _ <- (if is_int (g_ncenters g) then Ok tt
           else do b <- gt0 (g_ncenters g) 3; raise_if b ValueError);
  if g_async g then Ok tt
  else match g_batch g with
       | None => Err TypeError
       | Some p => do c <- ge (g_ncenters g) p; raise_if (negb c) ValueError
       end.

(** SRBFStrategy.__init__ before the base constructor (srbf_strategy.py:113-118: float(batch_size)
    raises in synchronous mode without a batch size, d / p raises for 0) and check_input,
    srbf_strategy.py:136-141.  DYCORSStrategy inherits both. *)
Definition srbf_check (g : args) : res unit :=
  do _ <- (if g_async g then Ok tt
           else match g_batch g with
                | None => Err TypeError
                | Some p => raise_if (p =? 0)%Z ZeroDivisionError
                end);
  do _ <- raise_if (negb (forallb (fun w => negb (Rltb w 0) && negb (Rltb 1 w))
             match g_weights g with Some l => l | None => [3/10; 5/10; 8/10; 95/100]%R end)) AssertionError;
  base_check g.

(** EIStrategy.check_input and LCBStrategy.check_input, ei_strategy.py:98-100, lcb_strategy.py:98-100 *)
Definition gp_check (g : args) : res unit :=
  do _ <- base_check g; raise_if (negb (g_is_gp g)) AssertionError.

(** RandomStrategy.__init__ before the loop, random_strategy.py:25-33.  range(max_evals) raises
    TypeError for anything but an int. *)
Definition random_check (p : object) (max_evals : num) : res unit :=
  do _ <- check_opt_prob p;
  if is_int max_evals then Ok tt
  else do b <- gt0 max_evals 0; if b then Err ValueError else Err TypeError.
