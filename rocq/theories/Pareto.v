(** * Non-dominated sorting (utils.py:379-488): model.

    An objective matrix [F] (M rows, N columns) is the list of its columns, each a list of M
    values.  Values are an arbitrary type with a boolean "less than"; the theorems ask only that
    it is irreflexive and transitive, which IEEE doubles satisfy including nan and inf. *)
From Coq Require Import List Arith ZArith Lia Bool.
From Verif Require Import Base PyList.
Import ListNotations.

Set Implicit Arguments.

Section Model.
Variable V : Type.
Variable ltb : V -> V -> bool.

(** utils.py:379-390 [domination]: np.all(np.less(fA, fB)) for vectors of one length. *)
Fixpoint domination (fA fB : list V) : bool :=
  match fA, fB with
  | a :: fA', b :: fB' => ltb a b && domination fA' fB'
  | _, _ => true
  end.

(** list.remove(x): removes the first occurrence, ValueError if there is none. *)
(** list.remove of Python, as used at pySOT/utils.py:393-431. *)
Fixpoint py_remove (x : nat) (l : list nat) : res (list nat) :=
  match l with
  | [] => Err ValueError
  | y :: l' => if x =? y then Ok l' else do r <- py_remove x l'; Ok (y :: r)
  end.

(** utils.py:419-431, the while loop of [nd_add].  [N] is the index of the last column.  The
    loop has no bound in the code; [fuel] counts iterations and running out of it is reported
    as [None] (the theorems show that this does not happen with the fuel given below). *)
Fixpoint nd_loop (fuel : nat) (F : list (list V)) (N : nat) (j cnt : nat) (df ndf : list nat)
  : option (res (list nat * list nat)) :=
  match fuel with
  | O => None
  | S fuel' =>
    if j <? cnt then
      match (do a <- geti ndf (j - 1); do fN <- geti F N; do fa <- geti F a; Ok (a, fN, fa)) with
      | Err e => Some (Err e)
      | Ok (a, fN, fa) =>
        if domination fN fa then                              (* 420-423 *)
          match py_remove a ndf with
          | Err e => Some (Err e)
          | Ok ndf' => nd_loop fuel' F N j (cnt - 1) (df ++ [a]) ndf'
          end
        else if domination fa fN then                         (* 424-428 *)
          match py_remove N ndf with
          | Err e => Some (Err e)
          | Ok ndf' => Some (Ok (ndf', df ++ [N]))
          end
        else nd_loop fuel' F N (S j) cnt df ndf               (* 429-430 *)
      end
    else Some (Ok (ndf, df))
  end.

(** utils.py:393-431 [nd_add]; returns (ndf_index, df_index). *)
Definition nd_add (F : list (list V)) (df ndf : list nat) : option (res (list nat * list nat)) :=
  let N := length F - 1 in
  let cnt := S (length ndf) in
  nd_loop (S cnt) F N 1 cnt df (ndf ++ [N]).

(** utils.py:434-449 [nd_front]: for i in range(1, N). *)
Fixpoint front_loop (F : list (list V)) (is : list nat) (df ndf : list nat)
  : option (res (list nat * list nat)) :=
  match is with
  | [] => Some (Ok (ndf, df))
  | i :: is' =>
    match nd_add (firstn (S i) F) df ndf with
    | Some (Ok (ndf', df')) => front_loop F is' df' ndf'
    | r => r
    end
  end.
(** pySOT/utils.py:434-449: nd_front. *)
Definition nd_front (F : list (list V)) : option (res (list nat * list nat)) :=
  front_loop F (seq 1 (length F - 1)) [] [0].

(** utils.py:478-479: for j: nd_ranks[P[ndf_index[j]]] = i.  A rank is [None] for inf. *)
Fixpoint set_ranks (ranks : list (option nat)) (P ndf : list nat) (i : nat)
  : res (list (option nat)) :=
  match ndf with
  | [] => Ok ranks
  | k :: ndf' => do p <- geti P k; do ranks' <- seti ranks p (Some i); set_ranks ranks' P ndf' i
  end.

(** utils.py:476-486, the while loop of [nd_sorting]. *)
Fixpoint sort_loop (fuel : nat) (F : list (list V)) (nmax : Z) (P : list nat) (i count : nat)
  (ranks : list (option nat)) : option (res (list (option nat))) :=
  match fuel with
  | O => None
  | S fuel' =>
    if (Z.of_nat count <? nmax)%Z && (0 <? length P) then
      match mapR (geti F) P with                               (* F[:, P] *)
      | Err e => Some (Err e)
      | Ok FP =>
        match nd_front FP with
        | None => None
        | Some (Err e) => Some (Err e)
        | Some (Ok (ndf, df)) =>
          match (do ranks' <- set_ranks ranks P ndf i; do P' <- mapR (geti P) df; Ok (ranks', P')) with
          | Err e => Some (Err e)
          | Ok (ranks', P') => sort_loop fuel' F nmax P' (S i) (count + length ndf) ranks'
          end
        end
      end
    else Some (Ok ranks)
  end.

(** utils.py:452-487 [nd_sorting]. *)
Definition nd_sorting (F : list (list V)) (nmax : Z) : option (res (list (option nat))) :=
  let N := length F in
  sort_loop (S N) F nmax (seq 0 N) 1 0 (repeat None N).

(** ** Specification *)

(** Point [k] of [F] is strictly smaller than point [i] in all objectives. *)
(** Specification, no counterpart in /repo. *)
Definition beats (F : list (list V)) (k i : nat) : Prop :=
  exists fk fi, nth_error F k = Some fk /\ nth_error F i = Some fi /\
                Forall2 (fun a b => ltb a b = true) fk fi.

(** A proper M x N array with M >= 1. *)
(** Specification: the shape of the argument F of pySOT/utils.py:452. *)
Definition matrix (M : nat) (F : list (list V)) : Prop :=
  1 <= M /\ Forall (fun c => length c = M) F.

(** The less-than of IEEE doubles (false when one side is nan). *)
(** Specification: what is used of the comparison at pySOT/utils.py:379-390. *)
Definition ltb_ok : Prop :=
  (forall a, ltb a a = false) /\
  (forall a b c, ltb a b = true -> ltb b c = true -> ltb a c = true).
End Model.
