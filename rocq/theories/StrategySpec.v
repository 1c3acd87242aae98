(** * Specification vocabulary for the strategy: functions of the observable history only.

    A history is a list of [event], oldest first.  Nothing here refers to the attributes of the
    strategy object or to the model's functions. *)
From Coq Require Import List Arith ZArith Bool.
From Verif Require Import Base Strategy.
Import ListNotations.

Set Implicit Arguments.

Section Spec.
Variables P V : Type.
Notation event := (event P V).
Notation history := (list event).

(** Evaluations that were proposed and are neither rejected nor finished, oldest first. *)
Definition outstanding_step (l : list (nat * P)) (ev : event) : list (nat * P) :=
  match ev with
  | EvPropose id _ x => l ++ [(id, x)]
  | EvReject id _ _ | EvComplete id _ _ _ | EvAbort id _ _ =>
      filter (fun p => negb (fst p =? id)%nat) l
  | EvResume => []
  | _ => l
  end.
Definition outstanding (h : history) : list (nat * P) := fold_left outstanding_step h [].

(** Proposals that the controller has not yet accepted or rejected. *)
Definition undecided_step (l : list nat) (ev : event) : list nat :=
  match ev with
  | EvPropose id _ _ => l ++ [id]
  | EvAccept id | EvReject id _ _ => filter (fun i => negb (i =? id)%nat) l
  | EvResume => []
  | _ => l
  end.
Definition undecided (h : history) : list nat := fold_left undecided_step h [].

(** Completed evaluations with their values, in completion order. *)
Definition completed (h : history) : list (P * V) :=
  flat_map (fun ev => match ev with EvComplete _ _ x v => [(x, v)] | _ => [] end) h.

(** Finished (completed, killed, cancelled) evaluations in finishing order. *)
Definition finished (h : history) : list (nat * P * option V) :=
  flat_map (fun ev => match ev with
                      | EvComplete id _ x v => [(id, x, Some v)]
                      | EvAbort id _ x => [(id, x, None)]
                      | _ => [] end) h.

(** Completed plus outstanding evaluations. *)
Definition used (h : history) : Z :=
  (Z.of_nat (length (completed h)) + Z.of_nat (length (outstanding h)))%Z.

(** Data of the current run: evaluations accepted since the last restart that have completed.
    The first component lists the ids accepted since the last restart. *)
Definition run_step (st : list nat * list (P * V)) (ev : event) : list nat * list (P * V) :=
  match ev with
  | EvAccept id => (fst st ++ [id], snd st)
  | EvRestart _ => ([], [])
  | EvComplete id _ x v =>
      if existsb (fun i => (i =? id)%nat) (fst st) then (fst st, snd st ++ [(x, v)]) else st
  | _ => st
  end.
Definition started_in_run (h : history) : list nat := fst (fold_left run_step h ([], [])).
Definition run_data (h : history) : list (P * V) := snd (fold_left run_step h ([], [])).

(** Number of restarts. *)
Definition restarts (h : history) : nat :=
  length (filter (fun ev => match ev with EvRestart _ => true | _ => false end) h).

(** Points that were ever put in the queue after the start: by generate_evals or a restart. *)
Definition queued_later (h : history) : list P :=
  flat_map (fun ev => match ev with
                      | EvGenerate _ (Some l) => l
                      | EvRestart l => l
                      | _ => [] end) h.

(** The event is the answer to a call of propose_action. *)
Definition is_call (ev : event) : bool :=
  match ev with EvPropose _ _ _ | EvTerminate | EvNone => true | _ => false end.

Definition is_eval (ev : event) : bool :=
  match ev with EvPropose _ _ _ => true | _ => false end.
Definition is_abort (ev : event) : bool :=
  match ev with EvAbort _ _ _ => true | _ => false end.
Definition is_reject (ev : event) : bool :=
  match ev with EvReject _ _ _ => true | _ => false end.
Definition is_accept (ev : event) : bool :=
  match ev with EvAccept _ => true | _ => false end.
Definition is_resume (ev : event) : bool :=
  match ev with EvResume => true | _ => false end.
Definition is_stop (ev : event) : bool :=
  match ev with EvStop => true | _ => false end.

Definition count (f : event -> bool) (h : history) : nat := length (filter f h).

(** Points that the strategy gives up: adaptive evaluations that are killed or cancelled and,
    in asynchronous mode, adaptive proposals that are rejected. *)
Definition given_up (async : bool) (h : history) : list P :=
  flat_map (fun ev => match ev with
                      | EvAbort _ KAdapt x => [x]
                      | EvReject _ KAdapt x => if async then [x] else []
                      | _ => [] end) h.

(** The stopping criterion was observed: a call of propose_action happened when at least
    [maxe] evaluations were completed or outstanding, or the user set the flag. *)
Definition stop_seen (maxe : Z) (h : history) : Prop :=
  exists h1 ev h2, h = h1 ++ ev :: h2 /\
    (is_stop ev = true \/ (is_call ev = true /\ (maxe <= used h1)%Z)).

(** The initial design of the current run is being proposed: since the start or the last restart
    no call was answered with an adaptive proposal or with nothing, and no adaptive points were
    generated. *)
Definition in_design_step (b : bool) (ev : event) : bool :=
  match ev with
  | EvRestart _ => true
  | EvGenerate _ _ | EvNone | EvPropose _ KAdapt _ => false
  | _ => b
  end.
Definition in_design (h : history) : Prop := fold_left in_design_step h true = true.

(** POAP's protocol: each proposal is accepted or rejected before the next call. *)
Definition protocol (h : history) : Prop :=
  forall h1 ev h2, h = h1 ++ ev :: h2 -> is_call ev = true -> undecided h1 = [].

(** No evaluation is proposed while an equal point is outstanding. *)
Definition no_duplicates (h : history) : Prop :=
  forall h1 id k x h2, h = h1 ++ EvPropose id k x :: h2 ->
    ~ In x (map snd (outstanding h1)).

(** Extra points with a known value (not nan) and those to be evaluated. *)
Fixpoint known_extras (isnan : V -> bool) (pts : list P) (vals : list V) : list (P * V) :=
  match pts, vals with
  | x :: pts', v :: vals' =>
      (if isnan v then [] else [(x, v)]) ++ known_extras isnan pts' vals'
  | _, _ => []
  end.
Fixpoint unknown_extras (isnan : V -> bool) (pts : list P) (vals : list V) : list P :=
  match pts, vals with
  | x :: pts', v :: vals' => (if isnan v then [x] else []) ++ unknown_extras isnan pts' vals'
  | _, _ => []
  end.
Definition known (c : cfg P V) : list (P * V) :=
  match c_extra c, c_extra_vals c with
  | Some pts, Some vals => known_extras (c_isnan c) pts vals
  | _, _ => []
  end.
Definition unknown (c : cfg P V) : list P :=
  match c_extra c, c_extra_vals c with
  | Some pts, Some vals => unknown_extras (c_isnan c) pts vals
  | Some pts, None => pts
  | None, _ => []
  end.

End Spec.
