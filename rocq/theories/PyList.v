(** * Python lists and arrays: indexing, item assignment, comprehensions. *)
From Coq Require Import List Arith Lia Bool.
From Verif Require Import Base.
Import ListNotations.

Set Implicit Arguments.

(** l[i] for a Python list or array. *)
(** Python list indexing l[i] with i >= 0, as in pySOT/strategy/sop_strategy.py:298; IndexError outside. *)
Definition geti (A : Type) (l : list A) (i : nat) : res A :=
  match nth_error l i with Some a => Ok a | None => Err IndexError end.

(** l[i] = v for an array. *)
(** Python item assignment l[i] = v, as in pySOT/strategy/sop_strategy.py:262; IndexError outside. *)
Fixpoint seti (A : Type) (l : list A) (i : nat) (v : A) : res (list A) :=
  match l, i with
  | [], _ => Err IndexError
  | _ :: l', O => Ok (v :: l')
  | a :: l', S i' => do r <- seti l' i' v; Ok (a :: r)
  end.

(** [f x for x in l], f may raise. *)
(** Helper with no counterpart in /repo: [f(x) for x in l] with exceptions. *)
Fixpoint mapR (A B : Type) (f : A -> res B) (l : list A) : res (list B) :=
  match l with
  | [] => Ok []
  | a :: l' => do b <- f a; do r <- mapR f l'; Ok (b :: r)
  end.

(** l[i] = f(l[i]) *)
(** In-place update of entry i, as in utils.py:90, 92; IndexError outside. *)
Fixpoint upd (A : Type) (l : list A) (i : nat) (f : A -> A) : res (list A) :=
  match l, i with
  | [], _ => Err IndexError
  | a :: l', O => Ok (f a :: l')
  | a :: l', S i' => do r <- upd l' i' f; Ok (a :: r)
  end.

Lemma geti_ok : forall A (l : list A) i a, geti l i = Ok a <-> nth_error l i = Some a.
Proof.
  intros A l i a. unfold geti. destruct (nth_error l i); split; intros H; try discriminate;
    injection H as ->; reflexivity.
Qed.

Lemma mapR_ok : forall A B (f : A -> res B) l,
  (forall a, In a l -> exists b, f a = Ok b) -> exists r, mapR f l = Ok r.
Proof.
  intros A B f l. induction l as [|a l IH]; intros H; simpl; [eauto|].
  destruct (H a (or_introl eq_refl)) as [b ->]. simpl.
  destruct IH as [r ->]; [intros x Hx; apply H; right; exact Hx|]. simpl. eauto.
Qed.

Lemma mapR_nth : forall A B (f : A -> res B) l r, mapR f l = Ok r ->
  length r = length l /\
  forall k b, nth_error r k = Some b <-> exists a, nth_error l k = Some a /\ f a = Ok b.
Proof.
  intros A B f l. induction l as [|a l IH]; intros r H; simpl in H.
  - injection H as <-. split; [reflexivity|]. intros [|k] b; split; intros K; simpl in *;
      try discriminate; destruct K as [? [? _]]; discriminate.
  - destruct (f a) as [b|] eqn:E; simpl in H; [|discriminate].
    destruct (mapR f l) as [r'|]; simpl in H; [|discriminate].
    injection H as <-. destruct (IH r' eq_refl) as [HL HN]. split; [simpl; congruence|].
    intros [|k] c; simpl.
    + split; intros K.
      * injection K as <-. eauto.
      * destruct K as [a' [E1 E2]]. congruence.
    + apply HN.
Qed.

Lemma seti_ok : forall A (l : list A) i v, i < length l -> exists r, seti l i v = Ok r.
Proof.
  intros A l. induction l as [|a l IH]; intros [|i] v H; simpl in *; try lia; [eauto|].
  destruct (IH i v) as [r ->]; [lia|]. simpl. eauto.
Qed.

Lemma seti_nth : forall A (l : list A) i v r, seti l i v = Ok r ->
  length r = length l /\ i < length l /\
  forall k, nth_error r k = if k =? i then Some v else nth_error l k.
Proof.
  intros A l. induction l as [|a l IH]; intros [|i] v r H; simpl in H; try discriminate.
  - injection H as <-. split; [reflexivity|]. split; [simpl; lia|]. intros [|k]; reflexivity.
  - destruct (seti l i v) as [r'|] eqn:E; simpl in H; [|discriminate]. injection H as <-.
    destruct (IH _ _ _ E) as [HL [HI HN]]. simpl. split; [congruence|]. split; [lia|].
    intros [|k]; simpl; [reflexivity|apply HN].
Qed.

Lemma upd_nth : forall A (l : list A) i f r, upd l i f = Ok r ->
  length r = length l /\ i < length l /\
  forall k, nth_error r k = if k =? i then option_map f (nth_error l k) else nth_error l k.
Proof.
  intros A l. induction l as [|a l IH]; intros [|i] f r H; simpl in H; try discriminate.
  - injection H as <-. split; [reflexivity|]. split; [simpl; lia|]. intros [|k]; reflexivity.
  - apply rbind_ok in H. destruct H as [r' [E H]]. injection H as <-.
    destruct (IH _ _ _ E) as [HL [HI HN]]. simpl. split; [congruence|]. split; [lia|].
    intros [|k]; simpl; [reflexivity|apply HN].
Qed.

Lemma upd_total : forall A (l : list A) i f, i < length l -> exists r, upd l i f = Ok r.
Proof.
  intros A l. induction l as [|a l IH]; intros [|i] f H; simpl in *; try lia; [eauto|].
  destruct (IH i f) as [r ->]; [lia|]. simpl. eauto.
Qed.

Lemma upd_map : forall A B (g : A -> B) (l : list A) i f r, upd l i f = Ok r ->
  (forall a, g (f a) = g a) -> map g r = map g l.
Proof.
  intros A B g l. induction l as [|a l IH]; intros [|i] f r H Hg; simpl in H; try discriminate.
  - injection H as <-. simpl. rewrite Hg. reflexivity.
  - apply rbind_ok in H. destruct H as [r' [E H]]. injection H as <-. simpl.
    rewrite (IH _ _ _ E Hg). reflexivity.
Qed.

Lemma upd_Forall : forall A (Q : A -> Prop) (l : list A) i f r, upd l i f = Ok r ->
  (forall a, Q a -> Q (f a)) -> Forall Q l -> Forall Q r.
Proof.
  intros A Q l. induction l as [|a l IH]; intros [|i] f r H Hg HF; simpl in H; try discriminate;
    inversion HF; subst.
  - injection H as <-. constructor; auto.
  - apply rbind_ok in H. destruct H as [r' [E H]]. injection H as <-. constructor; eauto.
Qed.
