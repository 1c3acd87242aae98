(** * Base: Python-level notions shared by all models.

    Exceptions are values of [res]; a Python list is a Coq [list] in the same order
    ([append] adds at the end, [pop()] removes the last element). *)
From Coq Require Import List Arith ZArith Lia Bool Permutation.
Import ListNotations.

(** Exceptions that the modelled code can raise. *)
(** Python exceptions raised by the modelled code (e.g. utils.py:110-148, poap and numpy errors); one constructor per class. *)
Inductive exn : Type :=
| IndexError | ValueError | TypeError | AssertionError | IOError | ZeroDivisionError
| OtherError.

(** Result of a Python call: a value, or an exception that leaves it. Helper with no counterpart in /repo: Python semantics. *)
Inductive res (A : Type) : Type :=
| Ok (a : A)
| Err (e : exn).
Arguments Ok {A} _.
Arguments Err {A} _.

(** Helper with no counterpart in /repo: Python sequencing, an exception skips the rest. *)
Definition rbind {A B} (r : res A) (f : A -> res B) : res B :=
  match r with Ok a => f a | Err e => Err e end.
Notation "'do' x <- r ; k" := (rbind r (fun x => k))
  (at level 200, x pattern, r at level 100, k at level 200).

(** Helper with no counterpart in /repo: the call returned. *)
Definition is_ok {A} (r : res A) : bool := match r with Ok _ => true | Err _ => false end.

Lemma rbind_ok : forall A B (r : res A) (f : A -> res B) b,
  rbind r f = Ok b -> exists a, r = Ok a /\ f a = Ok b.
Proof. intros A B [a|e] f b H; simpl in H; [eauto | discriminate]. Qed.

(** [list.pop()]: last element and the remaining list; [None] stands for IndexError. *)
(** list.pop() of Python, as in pySOT/strategy/surrogate_strategy.py:317 and 382: removes the last element. *)
Fixpoint py_pop {A} (l : list A) : option (A * list A) :=
  match l with
  | [] => None
  | [x] => Some (x, [])
  | x :: l' => match py_pop l' with
               | Some (y, r) => Some (y, x :: r)
               | None => None
               end
  end.

Lemma py_pop_snoc : forall A (l : list A) x, py_pop (l ++ [x]) = Some (x, l).
Proof.
  induction l as [|a l IH]; intros x; [reflexivity|].
  simpl app. destruct (l ++ [x]) as [|b m] eqn:E.
  - destruct l; discriminate.
  - change (py_pop (a :: b :: m)) with
      (match py_pop (b :: m) with Some (y, r) => Some (y, a :: r) | None => None end).
    rewrite <- E, IH. reflexivity.
Qed.

Lemma py_pop_some : forall A (l : list A) x r, py_pop l = Some (x, r) -> l = r ++ [x].
Proof.
  intros A l. induction l as [|a l IH]; intros x r H; [discriminate|].
  destruct l as [|b m].
  - simpl in H. injection H as <- <-. reflexivity.
  - change (py_pop (a :: b :: m)) with
      (match py_pop (b :: m) with Some (y, r) => Some (y, a :: r) | None => None end) in H.
    destruct (py_pop (b :: m)) as [[y s]|] eqn:E; [|discriminate].
    injection H as <- <-. rewrite (IH _ _ eq_refl). reflexivity.
Qed.

Lemma py_pop_none : forall A (l : list A), py_pop l = None -> l = [].
Proof.
  intros A l H. destruct l as [|a l]; [reflexivity|].
  exfalso. destruct (@exists_last A (a :: l)) as [q [x E]]; [discriminate|].
  rewrite E, py_pop_snoc in H. discriminate.
Qed.
