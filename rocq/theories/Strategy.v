(** * Model of pySOT's SurrogateBaseStrategy and of the controller that drives it.

    Sources: pySOT/strategy/surrogate_strategy.py (all of it except logging),
    pySOT/controller/controller.py (CheckpointController; the file level is in Checkpoint.v).

    The strategy is an executable state machine over an arbitrary type [P] of points and
    [V] of function values.  What subclasses override is a record of [hooks]; what comes from
    outside (generated designs, candidate searches, the controller's decisions, function values,
    crashes) is an argument of the operation, so every theorem ranges over all of it.

    Simplifications, valid for the whole file:
    - numpy rows are immutable values: [np.copy] is the identity (the code copies at every
      store and never writes into a stored row);
    - float equality of rows is a boolean test [c_peqb] (numpy's == row test);
    - counters are unbounded integers (as in Python);
    - [proposal_counter] (never written) and logging are omitted. *)
From Coq Require Import List Arith ZArith Lia Bool Permutation.
From Verif Require Import Base.
Import ListNotations.
Local Open Scope Z_scope.

Set Implicit Arguments.

Section Strategy.
Variables P V Ext Orc : Type.

(** Constructor arguments: surrogate_strategy.py:82-93. [c_num_pts] is [exp_design.num_pts],
    [c_isnan] is [np.isnan] on one value.  [c_save_first] says whether the checkpoint
    callback of a record runs before the strategy's callback (this order is POAP's, which is
    not part of the repository; every theorem holds for both). *)
Record cfg : Type := mkCfg {
  c_max_evals : Z;
  c_async : bool;
  c_batch : nat;
  c_restarts : bool;
  c_num_pts : nat;
  c_extra : option (list P);
  c_extra_vals : option (list V);
  c_isnan : V -> bool;
  c_peqb : P -> P -> bool;
  c_save_first : bool
}.

(** Which proposal path an evaluation came from: init_proposal / adapt_proposal. *)
(** pySOT/strategy/surrogate_strategy.py:315-319 (init_proposal) and 379-384 (adapt_proposal): the callback the proposal gets. *)
Inductive kind : Type := KInit | KAdapt.

(** A finished record in [self.fevals]: ghost identifier, point, value if it completed
    ([None]: killed or cancelled). *)
(** An entry of self.fevals, pySOT/strategy/surrogate_strategy.py:367, 375, 432, 439: POAP's EvalRecord, of which the id, params[0] and the value (None if aborted) are kept. *)
Record frec : Type := mkFrec { f_id : nat; f_x : P; f_val : option V }.

(** An outstanding proposal: [o_ev = None] while undecided, [Some ev_id] once accepted
    (the record then runs).  [o_id] is a ghost identifier. *)
(** An accepted, unfinished evaluation: the EvalRecord with its callback and ev_id, pySOT/strategy/surrogate_strategy.py:331-332, 396-397. *)
Record outst : Type := mkOut { o_id : nat; o_kind : kind; o_x : P; o_ev : option Z }.

(** Attributes of the strategy: surrogate_strategy.py:94-140. *)
Set Primitive Projections.
Record base : Type := mkBase {
  num_evals : Z;  (* completed evaluations *)
  pending_evals : Z;  (* outstanding evaluations *)
  phase : nat;  (* 1 initial, 2 adaptive *)
  terminate : bool;  (* stopping criterion reached *)
  converged : bool;  (* current run has converged *)
  accepted_count : Z;
  rejected_count : Z;
  batch_queue : list P;  (* self.batch_queue *)
  init_pending : Z;
  X : list P;  (* self.X *)
  fX : list V;  (* self.fX *)
  Xpend : list P;  (* self.Xpend *)
  X_ : list P;  (* self._X *)
  fX_ : list V;  (* self._fX *)
  sur : list (P * V);  (* points and values held by self.surrogate *)
  fevals : list frec;  (* finished records *)
  ev_last : Z;  (* last event index *)
  ev_next : Z  (* next event index *)
}.
Unset Primitive Projections.

(** Attribute assignments [self.f = v]. *)
(** Assignment of the attribute of the same name, pySOT/strategy/surrogate_strategy.py:118; assigned at 352, 417. *)
Definition set_num_evals (v : Z) (s : base) : base :=
  mkBase v (pending_evals s) (phase s) (terminate s) (converged s) (accepted_count s) (rejected_count s) (batch_queue s) (init_pending s) (X s) (fX s) (Xpend s) (X_ s) (fX_ s) (sur s) (fevals s) (ev_last s) (ev_next s).
(** Assignment of the attribute of the same name, pySOT/strategy/surrogate_strategy.py:120; assigned at 190, 304, 337, 353, 371, 402, 418, 436. *)
Definition set_pending_evals (v : Z) (s : base) : base :=
  mkBase (num_evals s) v (phase s) (terminate s) (converged s) (accepted_count s) (rejected_count s) (batch_queue s) (init_pending s) (X s) (fX s) (Xpend s) (X_ s) (fX_ s) (sur s) (fevals s) (ev_last s) (ev_next s).
(** Assignment of the attribute of the same name, pySOT/strategy/surrogate_strategy.py:115; assigned at 208, 283. *)
Definition set_phase (v : nat) (s : base) : base :=
  mkBase (num_evals s) (pending_evals s) v (terminate s) (converged s) (accepted_count s) (rejected_count s) (batch_queue s) (init_pending s) (X s) (fX s) (Xpend s) (X_ s) (fX_ s) (sur s) (fevals s) (ev_last s) (ev_next s).
(** Assignment of the attribute of the same name, pySOT/strategy/surrogate_strategy.py:104; assigned at 196. *)
Definition set_terminate (v : bool) (s : base) : base :=
  mkBase (num_evals s) (pending_evals s) (phase s) v (converged s) (accepted_count s) (rejected_count s) (batch_queue s) (init_pending s) (X s) (fX s) (Xpend s) (X_ s) (fX_ s) (sur s) (fevals s) (ev_last s) (ev_next s).
(** Assignment of the attribute of the same name, pySOT/strategy/surrogate_strategy.py:105; assigned at 207. *)
Definition set_converged (v : bool) (s : base) : base :=
  mkBase (num_evals s) (pending_evals s) (phase s) (terminate s) v (accepted_count s) (rejected_count s) (batch_queue s) (init_pending s) (X s) (fX s) (Xpend s) (X_ s) (fX_ s) (sur s) (fevals s) (ev_last s) (ev_next s).
(** Assignment of the attribute of the same name, pySOT/strategy/surrogate_strategy.py:107; assigned at 330, 395. *)
Definition set_accepted_count (v : Z) (s : base) : base :=
  mkBase (num_evals s) (pending_evals s) (phase s) (terminate s) (converged s) v (rejected_count s) (batch_queue s) (init_pending s) (X s) (fX s) (Xpend s) (X_ s) (fX_ s) (sur s) (fevals s) (ev_last s) (ev_next s).
(** Assignment of the attribute of the same name, pySOT/strategy/surrogate_strategy.py:108; assigned at 336, 401. *)
Definition set_rejected_count (v : Z) (s : base) : base :=
  mkBase (num_evals s) (pending_evals s) (phase s) (terminate s) (converged s) (accepted_count s) v (batch_queue s) (init_pending s) (X s) (fX s) (Xpend s) (X_ s) (fX_ s) (sur s) (fevals s) (ev_last s) (ev_next s).
(** Assignment of the attribute of the same name, pySOT/strategy/surrogate_strategy.py:113; assigned at 187, 236, 242, 317, 339, 373, 382, 406. *)
Definition set_batch_queue (v : list P) (s : base) : base :=
  mkBase (num_evals s) (pending_evals s) (phase s) (terminate s) (converged s) (accepted_count s) (rejected_count s) v (init_pending s) (X s) (fX s) (Xpend s) (X_ s) (fX_ s) (sur s) (fevals s) (ev_last s) (ev_next s).
(** Assignment of the attribute of the same name, pySOT/strategy/surrogate_strategy.py:114; assigned at 185. *)
Definition set_init_pending (v : Z) (s : base) : base :=
  mkBase (num_evals s) (pending_evals s) (phase s) (terminate s) (converged s) (accepted_count s) (rejected_count s) (batch_queue s) v (X s) (fX s) (Xpend s) (X_ s) (fX_ s) (sur s) (fevals s) (ev_last s) (ev_next s).
(** Assignment of the attribute of the same name, pySOT/strategy/surrogate_strategy.py:123; assigned at 245, 356, 421. *)
Definition set_X (v : list P) (s : base) : base :=
  mkBase (num_evals s) (pending_evals s) (phase s) (terminate s) (converged s) (accepted_count s) (rejected_count s) (batch_queue s) (init_pending s) v (fX s) (Xpend s) (X_ s) (fX_ s) (sur s) (fevals s) (ev_last s) (ev_next s).
(** Assignment of the attribute of the same name, pySOT/strategy/surrogate_strategy.py:124; assigned at 246, 357, 422. *)
Definition set_fX (v : list V) (s : base) : base :=
  mkBase (num_evals s) (pending_evals s) (phase s) (terminate s) (converged s) (accepted_count s) (rejected_count s) (batch_queue s) (init_pending s) (X s) v (Xpend s) (X_ s) (fX_ s) (sur s) (fevals s) (ev_last s) (ev_next s).
(** Assignment of the attribute of the same name, pySOT/strategy/surrogate_strategy.py:125; assigned at 191, 305, 311, 340. *)
Definition set_Xpend (v : list P) (s : base) : base :=
  mkBase (num_evals s) (pending_evals s) (phase s) (terminate s) (converged s) (accepted_count s) (rejected_count s) (batch_queue s) (init_pending s) (X s) (fX s) v (X_ s) (fX_ s) (sur s) (fevals s) (ev_last s) (ev_next s).
(** Assignment of the attribute of the same name, pySOT/strategy/surrogate_strategy.py:129; assigned at 203, 362, 427. *)
Definition set_X_ (v : list P) (s : base) : base :=
  mkBase (num_evals s) (pending_evals s) (phase s) (terminate s) (converged s) (accepted_count s) (rejected_count s) (batch_queue s) (init_pending s) (X s) (fX s) (Xpend s) v (fX_ s) (sur s) (fevals s) (ev_last s) (ev_next s).
(** Assignment of the attribute of the same name, pySOT/strategy/surrogate_strategy.py:130; assigned at 204, 363, 428. *)
Definition set_fX_ (v : list V) (s : base) : base :=
  mkBase (num_evals s) (pending_evals s) (phase s) (terminate s) (converged s) (accepted_count s) (rejected_count s) (batch_queue s) (init_pending s) (X s) (fX s) (Xpend s) (X_ s) v (sur s) (fevals s) (ev_last s) (ev_next s).
(** Assignment of the attribute of the same name, pySOT/strategy/surrogate_strategy.py:100; the data added at 227, 247, 364, 429. *)
Definition set_sur (v : list (P * V)) (s : base) : base :=
  mkBase (num_evals s) (pending_evals s) (phase s) (terminate s) (converged s) (accepted_count s) (rejected_count s) (batch_queue s) (init_pending s) (X s) (fX s) (Xpend s) (X_ s) (fX_ s) v (fevals s) (ev_last s) (ev_next s).
(** Assignment of the attribute of the same name, pySOT/strategy/surrogate_strategy.py:126; assigned at 367, 375, 432, 439. *)
Definition set_fevals (v : list frec) (s : base) : base :=
  mkBase (num_evals s) (pending_evals s) (phase s) (terminate s) (converged s) (accepted_count s) (rejected_count s) (batch_queue s) (init_pending s) (X s) (fX s) (Xpend s) (X_ s) (fX_ s) (sur s) v (ev_last s) (ev_next s).
(** Assignment of the attribute of the same name, pySOT/strategy/surrogate_strategy.py:133; assigned at 200. *)
Definition set_ev_last (v : Z) (s : base) : base :=
  mkBase (num_evals s) (pending_evals s) (phase s) (terminate s) (converged s) (accepted_count s) (rejected_count s) (batch_queue s) (init_pending s) (X s) (fX s) (Xpend s) (X_ s) (fX_ s) (sur s) (fevals s) v (ev_next s).
(** Assignment of the attribute of the same name, pySOT/strategy/surrogate_strategy.py:134; assigned at 145. *)
Definition set_ev_next (v : Z) (s : base) : base :=
  mkBase (num_evals s) (pending_evals s) (phase s) (terminate s) (converged s) (accepted_count s) (rejected_count s) (batch_queue s) (init_pending s) (X s) (fX s) (Xpend s) (X_ s) (fX_ s) (sur s) (fevals s) (ev_last s) v.

(** What subclasses override.
    [hk_sample_initial]: code after super().sample_initial() (srbf_strategy.py:143-148).
    [hk_initial_completed]: after super().on_initial_completed (sop_strategy.py:239-245).
    [hk_adapt_completed]: after super().on_adapt_completed (srbf_strategy.py:150-160,
    sop_strategy.py:247-269); returns the new subclass state, how many times
    [self.ev_last = self.get_ev()] was executed, and whether [self.converged = True] was.
    [hk_generate]: generate_evals(num_pts); [None] means it set [self.converged = True]
    (ei_strategy.py:119-120, lcb_strategy.py:121-122), [Some l] that it appended [l] to the
    queue.  The arguments of the completion hooks are the subclass state, the base state after
    super(), the record's point, value and ev_id. *)
Record hooks : Type := mkHooks {
  hk_sample_initial : Ext -> Ext;
  hk_initial_completed : Ext -> base -> P -> V -> Z -> res Ext;
  hk_adapt_completed : Ext -> base -> P -> V -> Z -> res (Ext * nat * bool);
  hk_generate : Ext -> base -> nat -> Orc -> res (Ext * option (list P))
}.

Variable c : cfg.
Variable hk : hooks.

(** Observable events, oldest first in a history.  Ghost: the code does not store them. *)
(** Ghost, no counterpart in /repo: what an observer of the POAP controller sees. *)
Inductive event : Type :=
| EvPropose (id : nat) (k : kind) (x : P)   (* propose_action returned an evaluation of x *)
| EvTerminate                               (* propose_action returned terminate *)
| EvNone                                    (* propose_action returned None *)
| EvGenerate (n : nat) (pts : option (list P)) (* generate_evals(n) was called *)
| EvRestart (queued : list P)               (* a restart happened; it appended these points
                                               to the queue of points to evaluate *)
| EvAccept (id : nat)
| EvReject (id : nat) (k : kind) (x : P)
| EvComplete (id : nat) (k : kind) (x : P) (v : V)
| EvAbort (id : nat) (k : kind) (x : P)     (* killed or cancelled *)
| EvStop                                    (* the user set self.terminate = True *)
| EvResume.                                 (* resumed from a checkpoint *)

(** surrogate_strategy.py:142-146 *)
Definition get_ev (s : base) : Z * base := (ev_next s, set_ev_next (ev_next s + 1) s).

(** [self.ev_last = self.get_ev()] *)
(** pySOT/strategy/surrogate_strategy.py:200: self.ev_last = self.get_ev() (also srbf_strategy.py:206, 211 with its own test). *)
Definition bump (s : base) : base := let (e, s1) := get_ev s in set_ev_last e s1.

(** surrogate_strategy.py:193-196 *)
Definition check_termination (s : base) : base :=
  if c_max_evals c <=? num_evals s + pending_evals s then set_terminate true s else s.

(** First [n] rows of the generated design, surrogate_strategy.py:235-236;
    IndexError if there are fewer. *)
Fixpoint take_rows (n : nat) (l : list P) : res (list P) :=
  match n, l with
  | O, _ => Ok []
  | S _, [] => Err IndexError
  | S n', x :: l' => do r <- take_rows n' l'; Ok (x :: r)
  end.

(** Loop over the extra points, surrogate_strategy.py:240-247. *)
Fixpoint add_extra (pts : list P) (vals : option (list V)) (s : base) : res base :=
  match pts with
  | [] => Ok s
  | x :: pts' =>
    match vals with
    | None => add_extra pts' None (set_batch_queue (batch_queue s ++ [x]) s)
    | Some [] => Err IndexError
    | Some (v :: vals') =>
      if c_isnan c v
      then add_extra pts' (Some vals') (set_batch_queue (batch_queue s ++ [x]) s)
      else add_extra pts' (Some vals')
             (set_sur (sur s ++ [(x, v)])
               (set_fX (fX s ++ [v]) (set_X (X s ++ [x]) s)))
    end
  end.

(** SurrogateBaseStrategy.sample_initial, surrogate_strategy.py:222-247.  [design] is what
    exp_design.generate_points returned (or raised). *)
Definition sample_initial (design : res (list P)) (s : base) : res base :=
  let s := set_sur [] s in
  do d <- design;
  do rows <- take_rows (c_num_pts c) d;
  let s := set_batch_queue (batch_queue s ++ rows) s in
  match c_extra c with
  | None => Ok s
  | Some pts => if (length (X s) =? 0)%nat then add_extra pts (c_extra_vals c) s else Ok s
  end.

(** sample_restart, surrogate_strategy.py:198-211 *)
Definition sample_restart (design : res (list P)) (se : base * Ext) : res (base * Ext) :=
  let (s, e) := se in
  let s := bump s in
  let s := set_fX_ [] (set_X_ [] s) in
  let s := set_phase 1%nat (set_converged false s) in
  do s <- sample_initial design s;
  Ok (s, hk_sample_initial hk e).

(** make_proposal, surrogate_strategy.py:301-306 *)
Definition make_proposal (x : P) (s : base) : base :=
  set_Xpend (Xpend s ++ [x]) (set_pending_evals (pending_evals s + 1) s).

(** remove_pending, surrogate_strategy.py:308-311: deletes every row equal to [x]. *)
Definition remove_pending (x : P) (s : base) : base :=
  set_Xpend (filter (fun y => negb (c_peqb c y x)) (Xpend s)) s.

(** Result of propose_action. *)
(** pySOT/strategy/surrogate_strategy.py:249-299: what propose_action returns. *)
Inductive outcome : Type := OTerminate | ONone | OEval (k : kind) (x : P).

(** init_proposal, surrogate_strategy.py:315-319 (pop from an empty list raises). *)
Definition init_proposal (s : base) : res (outcome * base) :=
  match py_pop (batch_queue s) with
  | None => Err IndexError
  | Some (x, q) => Ok (OEval KInit x, make_proposal x (set_batch_queue q s))
  end.

(** adapt_proposal, surrogate_strategy.py:379-384 (returns None on an empty queue). *)
Definition adapt_proposal (s : base) : outcome * base :=
  match py_pop (batch_queue s) with
  | None => (ONone, s)
  | Some (x, q) => (OEval KAdapt x, make_proposal x (set_batch_queue q s))
  end.

(** Truth value of a Python list, pySOT/strategy/surrogate_strategy.py:277, 381. *)
Definition nonempty {A} (l : list A) : bool := match l with [] => false | _ => true end.

(** The restart branch shared by surrogate_strategy.py:270-276 and 290-296.  Returns the
    outcome, the new state and the ghost events. *)
Definition restart_branch (design : res (list P)) (s : base) (e : Ext)
  : res (outcome * (base * Ext) * list event) :=
  if c_async c || (pending_evals s =? 0) then
    do se <- sample_restart design (s, e);
    do r <- init_proposal (fst se);
    Ok (fst r, (snd r, snd se), [EvRestart (skipn (length (batch_queue s)) (batch_queue (fst se)))])
  else Ok (ONone, (s, e), []).

(** [self.generate_evals(num_pts)] as called by propose_action. *)
(** pySOT/strategy/surrogate_strategy.py:285, 287: the call of generate_evals. *)
Definition do_generate (n : nat) (o : Orc) (s : base) (e : Ext)
  : res (base * Ext * list event) :=
  do r <- hk_generate hk e s n o;
  match snd r with
  | None => Ok (set_converged true s, fst r, [EvGenerate n None])
  | Some l => Ok (set_batch_queue (batch_queue s ++ l) s, fst r, [EvGenerate n (Some l)])
  end.

(** propose_action, surrogate_strategy.py:249-299.  The statement order is the code's. *)
Definition propose_action (design : res (list P)) (o : Orc) (s : base) (e : Ext)
  : res (outcome * (base * Ext) * list event) :=
  let s := check_termination s in
  if terminate s then
    if pending_evals s =? 0 then Ok (OTerminate, (s, e), []) else Ok (ONone, (s, e), [])
  else if converged s then
    if c_restarts c then restart_branch design s e else Ok (ONone, (s, e), [])
  else if nonempty (batch_queue s) then
    if (phase s =? 1)%nat then
      do r <- init_proposal s; Ok (fst r, (snd r, e), [])
    else let r := adapt_proposal s in Ok (fst r, (snd r, e), [])
  else
    let s := set_phase 2%nat s in
    do g <- (if c_async c then do_generate 1 o s e
             else if pending_evals s =? 0 then do_generate (c_batch c) o s e
             else Ok (s, e, []));
    let '(s, e, evs) := g in
    if converged s && c_restarts c then
      do r <- restart_branch design s e;
      let '(out, se, evs') := r in Ok (out, se, evs ++ evs')
    else let r := adapt_proposal s in Ok (fst r, (snd r, e), evs).

(** on_initial_accepted / on_adapt_accept, surrogate_strategy.py:328-332, 393-397;
    returns the ev_id given to the record. *)
Definition on_accepted (s : base) : Z * base :=
  get_ev (set_accepted_count (accepted_count s + 1) s).

(** on_initial_rejected, surrogate_strategy.py:334-341 *)
Definition on_initial_rejected (x : P) (s : base) : base :=
  let s := set_rejected_count (rejected_count s + 1) s in
  let s := set_pending_evals (pending_evals s - 1) s in
  let s := set_batch_queue (batch_queue s ++ [x]) s in
  let s := set_Xpend (Xpend s ++ [x]) s in
  remove_pending x s.

(** on_adapt_reject, surrogate_strategy.py:399-406 *)
Definition on_adapt_reject (x : P) (s : base) : base :=
  let s := set_rejected_count (rejected_count s + 1) s in
  let s := set_pending_evals (pending_evals s - 1) s in
  let s := remove_pending x s in
  if c_async c then s else set_batch_queue (batch_queue s ++ [x]) s.

(** Body common to on_initial_completed (350-367) and on_adapt_completed (415-432). *)
Definition base_completed (id : nat) (x : P) (v : V) (ev : Z) (s : base) : base :=
  let s := set_num_evals (num_evals s + 1) s in
  let s := set_pending_evals (pending_evals s - 1) s in
  let s := set_X (X s ++ [x]) s in
  let s := set_fX (fX s ++ [v]) s in
  let s := remove_pending x s in
  let s := if ev_last s <? ev then
             set_sur (sur s ++ [(x, v)]) (set_fX_ (fX_ s ++ [v]) (set_X_ (X_ s ++ [x]) s))
           else s in
  set_fevals (fevals s ++ [mkFrec id x (Some v)]) s.

(** pySOT/strategy/surrogate_strategy.py:142-146 called n times (self.get_ev()). *)
Fixpoint iter_bump (n : nat) (s : base) : base :=
  match n with O => s | S n' => iter_bump n' (bump s) end.

(** on_initial_completed with the subclass override. *)
(** pySOT/strategy/surrogate_strategy.py:350-367 and the overriding sop_strategy.py:239-245. *)
Definition on_initial_completed (id : nat) (x : P) (v : V) (ev : Z) (s : base) (e : Ext)
  : res (base * Ext) :=
  let s := base_completed id x v ev s in
  do e <- hk_initial_completed hk e s x v ev; Ok (s, e).

(** on_adapt_completed with the subclass override. *)
(** pySOT/strategy/surrogate_strategy.py:415-432 and the overriding srbf_strategy.py:150-160, sop_strategy.py:247-269. *)
Definition on_adapt_completed (id : nat) (x : P) (v : V) (ev : Z) (s : base) (e : Ext)
  : res (base * Ext) :=
  let s := base_completed id x v ev s in
  do r <- hk_adapt_completed hk e s x v ev;
  let '(e, n, conv) := r in
  let s := iter_bump n s in
  Ok ((if conv then set_converged true s else s), e).

(** on_initial_aborted, surrogate_strategy.py:369-375 *)
Definition on_initial_aborted (id : nat) (x : P) (s : base) : base :=
  let s := set_pending_evals (pending_evals s - 1) s in
  let s := set_batch_queue (batch_queue s ++ [x]) s in
  let s := remove_pending x s in
  set_fevals (fevals s ++ [mkFrec id x None]) s.

(** on_adapt_aborted, surrogate_strategy.py:434-439 *)
Definition on_adapt_aborted (id : nat) (x : P) (s : base) : base :=
  let s := set_pending_evals (pending_evals s - 1) s in
  let s := remove_pending x s in
  set_fevals (fevals s ++ [mkFrec id x None]) s.

(** resume, surrogate_strategy.py:182-191 *)
Definition resume (s : base) : base :=
  let s := if (phase s =? 1)%nat
           then set_batch_queue (batch_queue s ++ Xpend s) (set_init_pending 0 s) else s in
  set_Xpend [] (set_pending_evals 0 s).

(** Attributes before sample_initial, surrogate_strategy.py:94-134. *)
Definition base0 : base :=
  mkBase 0 0 1%nat false false 0 0 [] 0 [] [] [] [] [] [] [] 0 1.

(** Constructor after check_input (which is modelled in Inputs.v); [e0] is the subclass state
    set before super().__init__, surrogate_strategy.py:136-140. *)
Definition construct (design : res (list P)) (e0 : Ext) : res (base * Ext) :=
  do s <- sample_initial design base0; Ok (s, hk_sample_initial hk e0).

(** ** The controller side *)

(** A live process: strategy object, its outstanding proposals and records in the order they
    were proposed, the controller's record list [p_ctl] (ids), a ghost counter and the ghost
    history of this strategy object (of its lineage, across checkpoints). *)
Record proc : Type := mkProc {
  p_s : base;
  p_e : Ext;
  p_out : list outst;
  p_ctl : list nat;
  p_next : nat;
  p_hist : list event
}.

(** A system: the process (None: not running) and the checkpoint file's content. *)
(** The strategy process under POAP's controller and the file of controller/controller.py:61-63, 65-78. *)
Record sys : Type := mkSys { y_proc : option proc; y_disk : option proc }.

(** Final status of a record as reported by the controller. [SOther] is any update that
    does not finish the record. *)
(** POAP record status read at pySOT/strategy/surrogate_strategy.py:345-348, 410-413. *)
Inductive status : Type := SOther | SCompleted (v : V) | SKilled | SCancelled.

(** What POAP's controller can do: ask for a proposal (pySOT/strategy/surrogate_strategy.py:249), accept or reject it (321-326, 386-391), update a record (343, 408); crash, save, resume (166-191, controller/controller.py:61-78). *)
Inductive op : Type :=
| Propose (design : res (list P)) (o : Orc)   (* controller calls propose_action *)
| Accept (id : nat)
| Reject (id : nat)
| Update (id : nat) (st : status)
| UserStop                                    (* someone sets strategy.terminate = True *)
| Crash
| Resume.

(** Helper with no counterpart in /repo: look up an outstanding evaluation by id. *)
Definition get_out (id : nat) (l : list outst) : option outst :=
  find (fun o => (o_id o =? id)%nat) l.
(** Helper with no counterpart in /repo: remove an outstanding evaluation by id. *)
Definition del_out (id : nat) (l : list outst) : list outst :=
  filter (fun o => negb (o_id o =? id)%nat) l.
(** pySOT/strategy/surrogate_strategy.py:332, 397: proposal.record.ev_id = ... *)
Definition set_ev (id : nat) (ev : Z) (l : list outst) : list outst :=
  map (fun o => if (o_id o =? id)%nat then mkOut (o_id o) (o_kind o) (o_x o) (Some ev) else o) l.

(** propose_action called by the controller. *)
(** pySOT/strategy/surrogate_strategy.py:249-299: propose_action called by POAP's controller. *)
Definition do_propose (design : res (list P)) (o : Orc) (p : proc) : res (outcome * proc) :=
  do r <- propose_action design o (p_s p) (p_e p);
  let '(out, (s, e), evs) := r in
  Ok (out,
  match out with
  | OEval k x =>
    mkProc s e (p_out p ++ [mkOut (p_next p) k x None]) (p_ctl p) (S (p_next p))
           (p_hist p ++ evs ++ [EvPropose (p_next p) k x])
  | OTerminate => mkProc s e (p_out p) (p_ctl p) (p_next p) (p_hist p ++ evs ++ [EvTerminate])
  | ONone => mkProc s e (p_out p) (p_ctl p) (p_next p) (p_hist p ++ evs ++ [EvNone])
  end).

(** proposal.accept(): on_initial_proposal / on_adapt_proposal (321-326, 386-391); the
    controller has created a record and put it in its list. *)
Definition do_accept (o : outst) (p : proc) : proc :=
  let (ev, s) := on_accepted (p_s p) in
  mkProc s (p_e p) (set_ev (o_id o) ev (p_out p)) (p_ctl p ++ [o_id o]) (p_next p)
         (p_hist p ++ [EvAccept (o_id o)]).

(** proposal.reject() *)
(** pySOT/strategy/surrogate_strategy.py:334-341 and 399-406, selected by the callback of the proposal. *)
Definition do_reject (o : outst) (p : proc) : proc :=
  let s := match o_kind o with
           | KInit => on_initial_rejected (o_x o) (p_s p)
           | KAdapt => on_adapt_reject (o_x o) (p_s p)
           end in
  mkProc s (p_e p) (del_out (o_id o) (p_out p)) (p_ctl p) (p_next p)
         (p_hist p ++ [EvReject (o_id o) (o_kind o) (o_x o)]).

(** on_initial_update / on_adapt_update (343-348, 408-413) *)
Definition do_complete (o : outst) (ev : Z) (v : V) (p : proc) : res proc :=
  do se <- match o_kind o with
           | KInit => on_initial_completed (o_id o) (o_x o) v ev (p_s p) (p_e p)
           | KAdapt => on_adapt_completed (o_id o) (o_x o) v ev (p_s p) (p_e p)
           end;
  Ok (mkProc (fst se) (snd se) (del_out (o_id o) (p_out p)) (p_ctl p) (p_next p)
             (p_hist p ++ [EvComplete (o_id o) (o_kind o) (o_x o) v])).

(** pySOT/strategy/surrogate_strategy.py:369-375 and 434-439, selected by the callback of the record. *)
Definition do_abort (o : outst) (p : proc) : proc :=
  let s := match o_kind o with
           | KInit => on_initial_aborted (o_id o) (o_x o) (p_s p)
           | KAdapt => on_adapt_aborted (o_id o) (o_x o) (p_s p)
           end in
  mkProc s (p_e p) (del_out (o_id o) (p_out p)) (p_ctl p) (p_next p)
         (p_hist p ++ [EvAbort (o_id o) (o_kind o) (o_x o)]).

(** CheckpointController.resume, controller.py:65-78: load the strategy, copy its finished
    records into the controller, call strategy.resume(). *)
Definition do_resume (p : proc) : proc :=
  mkProc (resume (p_s p)) (p_e p) [] (map f_id (fevals (p_s p))) (p_next p)
         (p_hist p ++ [EvResume]).

(** A finishing update of a record: the strategy callback and CheckpointController.on_update
    (controller.py:80-119), in the order given by [c_save_first]. *)
Definition finish (p : proc) (r : res proc) (disk : option proc) : sys :=
  match r with
  | Ok p' => mkSys (Some p') (Some (if c_save_first c then p else p'))
  | Err _ => mkSys None (if c_save_first c then Some p else disk)
  end.

(** One step of the system.  Operations that make no sense in the current state (deciding a
    proposal that is not undecided, updating a record that is not running, any operation while
    the process is dead) change nothing.  An exception ends the process. *)
(** One step of POAP's controller, calling pySOT/strategy/surrogate_strategy.py:249-439, 166-191 and controller/controller.py:61-131. *)
Definition step (y : sys) (a : op) : sys :=
  match y_proc y with
  | None =>
    match a, y_disk y with
    | Resume, Some p => mkSys (Some (do_resume p)) (y_disk y)
    | _, _ => y          (* resume without a checkpoint file: IOError, nothing starts *)
    end
  | Some p =>
    match a with
    | Propose design o =>
      match do_propose design o p with
      | Ok (OTerminate, p') => mkSys (Some p') (Some p')   (* on_terminate saves *)
      | Ok (_, p') => mkSys (Some p') (y_disk y)
      | Err _ => mkSys None (y_disk y)
      end
    | Accept id =>
      match get_out id (p_out p) with
      | Some o => match o_ev o with
                  | None => mkSys (Some (do_accept o p)) (y_disk y)
                  | Some _ => y
                  end
      | None => y
      end
    | Reject id =>
      match get_out id (p_out p) with
      | Some o => match o_ev o with
                  | None => mkSys (Some (do_reject o p)) (y_disk y)
                  | Some _ => y
                  end
      | None => y
      end
    | Update id st =>
      match get_out id (p_out p) with
      | Some o =>
        match o_ev o, st with
        | Some ev, SCompleted v => finish p (do_complete o ev v p) (y_disk y)
        | Some _, SKilled | Some _, SCancelled => finish p (Ok (do_abort o p)) (y_disk y)
        | _, _ => y
        end
      | None => y
      end
    | UserStop =>
      mkSys (Some (mkProc (set_terminate true (p_s p)) (p_e p) (p_out p) (p_ctl p) (p_next p)
                          (p_hist p ++ [EvStop]))) (y_disk y)
    | Crash => mkSys None (y_disk y)
    | Resume => y
    end
  end.

(** Helper with no counterpart in /repo: a sequence of steps. *)
Definition run_from (y : sys) (ops : list op) : sys := fold_left step ops y.

(** Start: construct the strategy; no checkpoint file yet. *)
(** pySOT/strategy/surrogate_strategy.py:82-140: the constructor. *)
Definition start (design : res (list P)) (e0 : Ext) : sys :=
  match construct design e0 with
  | Ok (s, e) => mkSys (Some (mkProc s e [] [] 0%nat [])) None
  | Err _ => mkSys None None
  end.

(** Helper with no counterpart in /repo: a whole run from the constructor (pySOT/strategy/surrogate_strategy.py:82-140). *)
Definition run (design : res (list P)) (e0 : Ext) (ops : list op) : sys :=
  run_from (start design e0) ops.

(** A process state that occurs in some run: alive, or stored in the checkpoint file. *)
(** Helper with no counterpart in /repo: a process state that occurs in some run. *)
Definition reached (design : res (list P)) (e0 : Ext) (p : proc) : Prop :=
  exists ops, y_proc (run design e0 ops) = Some p \/ y_disk (run design e0 ops) = Some p.

End Strategy.

Arguments EvPropose {P V} _ _ _.
Arguments EvTerminate {P V}.
Arguments EvNone {P V}.
Arguments EvGenerate {P V} _ _.
Arguments EvRestart {P V} _.
Arguments EvAccept {P V} _.
Arguments EvReject {P V} _ _ _.
Arguments EvComplete {P V} _ _ _ _.
Arguments EvAbort {P V} _ _ _.
Arguments EvStop {P V}.
Arguments EvResume {P V}.
Arguments OTerminate {P}.
Arguments ONone {P}.
Arguments OEval {P} _ _.
Arguments SOther {V}.
Arguments SCompleted {V} _.
Arguments SKilled {V}.
Arguments SCancelled {V}.
Arguments Propose {P V Orc} _ _.
Arguments Accept {P V Orc} _.
Arguments Reject {P V Orc} _.
Arguments Update {P V Orc} _ _.
Arguments UserStop {P V Orc}.
Arguments Crash {P V Orc}.
Arguments Resume {P V Orc}.
