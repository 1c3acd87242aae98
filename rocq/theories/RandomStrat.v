(** * RandomStrategy (pySOT/strategy/random_strategy.py) and the RetryStrategy of POAP it uses

    POAP is not part of /repo.  Its RetryStrategy is modelled from its documented behaviour: rput
    stores an evaluation proposal; get hands out the oldest one; a proposal that the controller
    rejects and an evaluation that is killed are put back at the end; num_eval_outstanding counts the
    evaluations that are neither completed nor given up (it is only read when the queue is empty).
    The controller replies at most once to a proposal and reports at most one final status for an
    accepted evaluation: any other event is refused ([None]). *)
From Coq Require Import List Arith ZArith Lia Bool Permutation.
From Verif Require Import Base.
Import ListNotations.

Set Implicit Arguments.

Section Random.
Variable pt : Type.

(** State of POAP's RetryStrategy used at pySOT/strategy/random_strategy.py:32, 40-42. *)
Record rstate := {
  rq : list pt;                (* proposals in the retry queue *)
  rprop : list (nat * pt);     (* handed to the controller, no reply yet *)
  rrun : list (nat * pt);      (* accepted, running *)
  rdone : list pt;             (* completed evaluations *)
  rnext : nat }.

(** __init__, random_strategy.py:25-36.  [draw i] is the i-th np.random.uniform(low=lb, high=ub);
    range(max_evals) is empty for max_evals <= 0. *)
Definition r_init (draw : nat -> pt) (max_evals : Z) : rstate :=
  {| rq := map draw (seq 0 (Z.to_nat max_evals)); rprop := []; rrun := []; rdone := []; rnext := 0 |}.

(** Results of propose_action, pySOT/strategy/random_strategy.py:38-43. *)
Inductive raction := REval (id : nat) (x : pt) | RTerminate | RNone.

(** POAP RetryStrategy.num_eval_outstanding, read at pySOT/strategy/random_strategy.py:42. *)
Definition num_eval_outstanding (s : rstate) : nat := length (rq s) + length (rprop s) + length (rrun s).

(** propose_action, random_strategy.py:38-43 *)
Definition r_propose (s : rstate) : rstate * raction :=
  match rq s with
  | x :: q => ({| rq := q; rprop := rprop s ++ [(rnext s, x)]; rrun := rrun s; rdone := rdone s; rnext := S (rnext s) |}, REval (rnext s) x)
  | [] => if (num_eval_outstanding s =? 0)%nat then (s, RTerminate) else (s, RNone)
  end.

(** remove the entry with the given id *)
(** Helper with no counterpart in /repo: remove an entry by id. *)
Fixpoint take (id : nat) (l : list (nat * pt)) : option (pt * list (nat * pt)) :=
  match l with
  | [] => None
  | (i, x) :: l' => if (i =? id)%nat then Some (x, l') else match take id l' with Some (y, r) => Some (y, (i, x) :: r) | None => None end
  end.

(** what the controller does *)
(** What POAP's controller does to the strategy. *)
Inductive revent := RAsk | RAccept (id : nat) | RReject (id : nat) | RComplete (id : nat) | RKill (id : nat).

(** RetryStrategy's callbacks: on_reply (accept / reject), on_complete, on_kill *)
(** propose_action pySOT/strategy/random_strategy.py:38-43 and the callbacks of POAP's RetryStrategy. *)
Definition r_step (e : revent) (s : rstate) : option (rstate * list raction) :=
  match e with
  | RAsk => let (s', a) := r_propose s in Some (s', [a])
  | RAccept id => match take id (rprop s) with
      | Some (x, l) => Some ({| rq := rq s; rprop := l; rrun := rrun s ++ [(id, x)]; rdone := rdone s; rnext := rnext s |}, [])
      | None => None end
  | RReject id => match take id (rprop s) with
      | Some (x, l) => Some ({| rq := rq s ++ [x]; rprop := l; rrun := rrun s; rdone := rdone s; rnext := rnext s |}, [])
      | None => None end
  | RComplete id => match take id (rrun s) with
      | Some (x, l) => Some ({| rq := rq s; rprop := rprop s; rrun := l; rdone := rdone s ++ [x]; rnext := rnext s |}, [])
      | None => None end
  | RKill id => match take id (rrun s) with
      | Some (x, l) => Some ({| rq := rq s ++ [x]; rprop := rprop s; rrun := l; rdone := rdone s; rnext := rnext s |}, [])
      | None => None end
  end.

(** Helper with no counterpart in /repo: a sequence of steps. *)
Fixpoint r_run (es : list revent) (s : rstate) : option (rstate * list raction) :=
  match es with
  | [] => Some (s, [])
  | e :: es' => match r_step e s with
      | Some (s1, a1) => match r_run es' s1 with Some (s2, a2) => Some (s2, a1 ++ a2) | None => None end
      | None => None end
  end.

(** ** Proofs *)
(** Specification: all points in the state. *)
Definition all_pts (s : rstate) : list pt := rq s ++ map snd (rprop s) ++ map snd (rrun s) ++ rdone s.

Lemma take_perm : forall id l x r, take id l = Some (x, r) -> Permutation (map snd l) (x :: map snd r).
Proof.
  intros id. induction l as [|[i y] l IH]; intros x r H; cbn [take] in H; [discriminate|]. destruct (Nat.eqb_spec i id) as [E|E].
  - inversion H; subst. apply Permutation_refl.
  - destruct (take id l) as [[z r']|] eqn:T; [|discriminate]. inversion H; subst. simpl.
    apply perm_trans with (y :: x :: map snd r'); [constructor; apply IH; reflexivity|apply perm_swap].
Qed.

Ltac perm :=
  repeat rewrite map_app; simpl;
  repeat match goal with H : Permutation (map snd ?l) (?x :: ?r) |- context [map snd ?l] => rewrite H end; simpl.

Lemma step_perm : forall e s s' a, r_step e s = Some (s', a) -> Permutation (all_pts s') (all_pts s).
Proof.
  intros e s s' a H. destruct e as [|id|id|id|id]; cbn [r_step] in H.
  - unfold r_propose in H. destruct (rq s) as [|x q] eqn:E.
    + destruct (num_eval_outstanding s =? 0)%nat; inversion H; subst; apply Permutation_refl.
    + inversion H; subst. unfold all_pts. cbn [rq rprop rrun rdone]. rewrite E, map_app. simpl. rewrite <- app_assoc.
      symmetry. apply perm_trans with (q ++ x :: map snd (rprop s) ++ map snd (rrun s) ++ rdone s); [apply Permutation_middle|].
      apply Permutation_app_head. apply Permutation_middle.
  - destruct (take id (rprop s)) as [[x l]|] eqn:T; [|discriminate]. inversion H; subst. pose proof (take_perm _ _ T) as P. unfold all_pts. cbn [rq rprop rrun rdone].
    apply Permutation_app_head. rewrite P, map_app. simpl. rewrite <- app_assoc. symmetry.
    apply perm_trans with (map snd l ++ x :: map snd (rrun s) ++ rdone s); [apply Permutation_middle|]. apply Permutation_app_head. apply Permutation_middle.
  - destruct (take id (rprop s)) as [[x l]|] eqn:T; [|discriminate]. inversion H; subst. pose proof (take_perm _ _ T) as P. unfold all_pts. cbn [rq rprop rrun rdone].
    rewrite P. rewrite <- app_assoc. apply Permutation_app_head. simpl. apply Permutation_refl.
  - destruct (take id (rrun s)) as [[x l]|] eqn:T; [|discriminate]. inversion H; subst. pose proof (take_perm _ _ T) as P. unfold all_pts. cbn [rq rprop rrun rdone].
    rewrite P. do 2 apply Permutation_app_head. simpl. rewrite app_assoc. symmetry. apply perm_trans with ((map snd l ++ rdone s) ++ [x]); [apply Permutation_cons_append|apply Permutation_refl].
  - destruct (take id (rrun s)) as [[x l]|] eqn:T; [|discriminate]. inversion H; subst. pose proof (take_perm _ _ T) as P. unfold all_pts. cbn [rq rprop rrun rdone].
    rewrite P. rewrite <- app_assoc. apply Permutation_app_head. simpl. apply Permutation_middle.
Qed.

Lemma run_perm : forall es s s' a, r_run es s = Some (s', a) -> Permutation (all_pts s') (all_pts s).
Proof.
  induction es as [|e es IH]; intros s s' a H; cbn [r_run] in H; [inversion H; apply Permutation_refl|].
  destruct (r_step e s) as [[s1 a1]|] eqn:E; [|discriminate]. destruct (r_run es s1) as [[s2 a2]|] eqn:E2; [|discriminate].
  inversion H; subst. apply perm_trans with (all_pts s1); [apply (IH s1 s' a2); exact E2|apply (step_perm e s E)].
Qed.

(** pySOT/strategy/random_strategy.py:33-34: the points drawn by the constructor. *)
Definition drawn (draw : nat -> pt) (m : Z) : list pt := map draw (seq 0 (Z.to_nat m)).
Lemma init_pts : forall draw m, all_pts (r_init draw m) = drawn draw m.
Proof. intros. unfold all_pts, r_init, drawn. simpl. rewrite app_nil_r. reflexivity. Qed.

(** every point a strategy asks to evaluate was held by it before *)
Lemma run_eval_in : forall es s s' a, r_run es s = Some (s', a) -> forall id x, In (REval id x) a -> In x (all_pts s).
Proof.
  induction es as [|e es IH]; intros s s' a H id x HI; cbn [r_run] in H; [inversion H; subst; destruct HI|].
  destruct (r_step e s) as [[s1 a1]|] eqn:E; [|discriminate]. destruct (r_run es s1) as [[s2 a2]|] eqn:E2; [|discriminate].
  inversion H; subst. apply in_app_or in HI. destruct HI as [HI|HI].
  - destruct e; cbn [r_step] in E; try (destruct (take id0 _) as [[? ?]|]; [inversion E; subst; destruct HI|discriminate]).
    unfold r_propose in E. destruct (rq s) as [|y q] eqn:Q.
    + destruct (num_eval_outstanding s =? 0)%nat; inversion E; subst; destruct HI as [HI|[]]; discriminate HI.
    + inversion E; subst. destruct HI as [HI|[]]. inversion HI; subst. unfold all_pts. rewrite Q. left. reflexivity.
  - apply (Permutation_in _ (step_perm e s E)). apply (IH s1 s' a2 E2 id x HI).
Qed.

(** ** Theorems *)
(** At every moment of every schedule the drawn points are split between the queue, the proposals
    waiting for a reply, the running evaluations and the completed ones: nothing is lost,
    duplicated or invented, whatever is rejected or killed. *)
Theorem C55_conservation : forall draw m es s acts, r_run es (r_init draw m) = Some (s, acts) ->
  Permutation (rq s ++ map snd (rprop s) ++ map snd (rrun s) ++ rdone s) (drawn draw m) /\ length (drawn draw m) = Z.to_nat m.
Proof.
  intros draw m es s acts H. split; [|unfold drawn; rewrite map_length, seq_length; reflexivity].
  rewrite <- init_pts. exact (run_perm es (r_init draw m) H).
Qed.

(** Every point it asks to evaluate is one of the drawn points: it lies in any set that contains the draws. *)
Theorem C55_in_box : forall (box : pt -> Prop) draw m es s acts, (forall i, box (draw i)) ->
  r_run es (r_init draw m) = Some (s, acts) -> (forall id x, In (REval id x) acts -> In x (drawn draw m) /\ box x).
Proof.
  intros box draw m es s acts HB H id x HI. pose proof (run_eval_in es (r_init draw m) H id x HI) as I. rewrite init_pts in I. split; [exact I|].
  unfold drawn in I. apply in_map_iff in I. destruct I as (i & <- & _). apply HB.
Qed.

(** It proposes terminate exactly when every drawn point has been evaluated (each exactly once); while
    some are missing it proposes an evaluation or, with all of them in the hands of the workers, waits. *)
Theorem C55_terminate : forall draw m es s acts, r_run es (r_init draw m) = Some (s, acts) ->
  (snd (r_propose s) = RTerminate <-> Permutation (rdone s) (drawn draw m)) /\
  (snd (r_propose s) = RNone <-> rq s = [] /\ (rprop s <> [] \/ rrun s <> [])) /\
  ((exists id x, snd (r_propose s) = REval id x) <-> rq s <> []) /\
  (length (rdone s) <= Z.to_nat m)%nat.
Proof.
  intros draw m es s acts H. destruct (@C55_conservation draw m es s acts H) as [P L]. assert (PL := Permutation_length P). rewrite L in PL.
  rewrite !app_length, !map_length in PL.
  assert (R : snd (r_propose s) = match rq s with x :: _ => REval (rnext s) x | [] => if (length (rprop s) + length (rrun s) =? 0)%nat then RTerminate else RNone end).
  { unfold r_propose, num_eval_outstanding. destruct (rq s) as [|x q]; [|reflexivity]. simpl. destruct (length (rprop s) + length (rrun s) =? 0)%nat; reflexivity. }
  rewrite R. split; [|split; [|split]].
  - split.
    + destruct (rq s) as [|x q] eqn:Q; [|discriminate]. destruct (Nat.eqb_spec (length (rprop s) + length (rrun s)) 0) as [Z|Z]; [|discriminate].
      intros _. destruct (rprop s); [|simpl in Z; lia]. destruct (rrun s); [|simpl in Z; lia]. exact P.
    + intros PD. apply Permutation_length in PD. rewrite L in PD. assert (length (rq s) = 0 /\ length (rprop s) = 0 /\ length (rrun s) = 0)%nat as (A & B & C) by lia.
      destruct (rq s); [|discriminate A]. rewrite B, C. reflexivity.
  - split.
    + destruct (rq s) as [|x q] eqn:Q; [|discriminate]. destruct (Nat.eqb_spec (length (rprop s) + length (rrun s)) 0) as [Z|Z]; [discriminate|].
      intros _. split; [reflexivity|]. destruct (rprop s); [right|left; discriminate]. destruct (rrun s); [simpl in Z; lia|discriminate].
    + intros [-> W]. destruct (Nat.eqb_spec (length (rprop s) + length (rrun s)) 0) as [Z|Z]; [|reflexivity].
      exfalso. destruct (rprop s); [|simpl in Z; lia]. destruct (rrun s); [|simpl in Z; lia]. destruct W as [W|W]; apply W; reflexivity.
  - destruct (rq s) as [|x q] eqn:Q.
    + destruct (length (rprop s) + length (rrun s) =? 0)%nat; (split; [intros (id & x & E); discriminate E|intros W; exfalso; apply W; reflexivity]).
    + split; [intros _; discriminate|intros _; exists (rnext s), x; reflexivity].
  - lia.
Qed.
End Random.

(** A schedule with a rejection and a kill: all three points are evaluated. *)
Example ex_C55 :
  match r_run [RAsk; RReject 0; RAsk; RAsk; RAccept 1; RKill 1; RAccept 2; RComplete 2; RAsk; RAsk; RAccept 3; RAccept 4; RComplete 4; RAsk; RComplete 3; RAsk]
    (r_init (fun i => i) 3) with
  | Some (s, acts) => rdone s = [2; 1; 0] /\ acts = [REval 0 0; REval 1 1; REval 2 2; REval 3 0; REval 4 1; RNone nat; RTerminate nat]
  | None => False
  end.
Proof. vm_compute. split; reflexivity. Qed.
Print Assumptions C55_conservation.
Print Assumptions C55_terminate.
