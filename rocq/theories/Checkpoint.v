(** * Checkpoint files: pySOT/strategy/surrogate_strategy.py:166-180 (save; the same code is in
    random_strategy.py) and pySOT/controller/controller.py:61-78, 121-131 (_save, resume, run),
    at the level of file system operations.

    Fault model: the process may stop (or an operation may raise) between any two operations;
    each operation is atomic (rename is atomic by POSIX).  Power failures that lose data the
    process has already written are outside the model.  The serializer (dill) is a pair of
    functions [dump], [load] with [load (dump s) = Some s]; how many write operations the dump is
    split into is arbitrary. *)
From Coq Require Import String Ascii.
From Coq Require Import Arith Lia Bool List.
From Verif Require Import Base.
Import ListNotations.

Set Implicit Arguments.

(** ** File system *)
(** Contents of a file (Python bytes). *)
Definition bytes := list ascii.
(** The file system seen by pySOT/strategy/surrogate_strategy.py:177-180 and pySOT/controller/controller.py:71-74, 129. *)
Record fs : Type := mkFs { files : string -> option bytes; dirs : string -> bool }.

(** Directory part of a path: everything before the last '/', "" if there is none. *)
(** Helper with no counterpart in /repo: path syntax of the operating system. *)
Fixpoint has_slash (s : string) : bool :=
  match s with
  | EmptyString => false
  | String a s' => Ascii.eqb a "/"%char || has_slash s'
  end.
(** Helper with no counterpart in /repo: directory part of a path. *)
Fixpoint parent (s : string) : string :=
  match s with
  | EmptyString => EmptyString
  | String a s' => if has_slash s' then String a (parent s')
                   else EmptyString
  end.

(** Helper with no counterpart in /repo: update of the file system. *)
Definition set_file (f : fs) (p : string) (v : option bytes) : fs :=
  mkFs (fun q => if String.eqb q p then v else files f q) (dirs f).

(** Primitive operations. The directory "" (the working directory) always exists. *)
(** The system calls behind open, write, close and os.rename, pySOT/strategy/surrogate_strategy.py:178-180. *)
Inductive prim : Type :=
| OpenTrunc (p : string)       (* open(p, "wb") *)
| Write (p : string) (b : bytes)
| Close (p : string)
| Rename (p q : string).       (* os.rename(p, q) *)

(** Helper with no counterpart in /repo: open() needs an existing directory. *)
Definition dir_ok (f : fs) (p : string) : bool :=
  let d := parent p in (String.eqb d "" || dirs f d).

(** Effect of open, write, close, os.rename (pySOT/strategy/surrogate_strategy.py:178-180). *)
Definition exec (f : fs) (a : prim) : res fs :=
  match a with
  | OpenTrunc p =>
      if dirs f p then Err IOError            (* IsADirectoryError *)
      else if dir_ok f p then Ok (set_file f p (Some []))
      else Err IOError                        (* FileNotFoundError *)
  | Write p b =>
      match files f p with
      | Some c => Ok (set_file f p (Some (c ++ b)))
      | None => Err IOError
      end
  | Close _ => Ok f
  | Rename p q =>
      match files f p with
      | None => Err IOError
      | Some c =>
        if dirs f q then Err IOError
        else if dir_ok f q then Ok (set_file (set_file f p None) q (Some c))
        else Err IOError
      end
  end.

(** Run a list of operations; an error stops it, leaving what was done before. *)
(** Helper with no counterpart in /repo: a sequence of operations up to the first error. *)
Fixpoint execs (f : fs) (l : list prim) : fs * bool :=
  match l with
  | [] => (f, true)
  | a :: l' => match exec f a with Ok f' => execs f' l' | Err _ => (f, false) end
  end.

(** save(fname), surrogate_strategy.py:177-180; [chunks] is the dump as it is written. *)
Definition temp_name (fname : string) : string := ("temp_" ++ fname)%string.
(** pySOT/strategy/surrogate_strategy.py:166-180: save. *)
Definition save_ops (fname : string) (chunks : list bytes) : list prim :=
  [OpenTrunc (temp_name fname)] ++ map (Write (temp_name fname)) chunks ++
  [Close (temp_name fname); Rename (temp_name fname) fname].

(** os.path.isfile *)
(** os.path.isfile, pySOT/controller/controller.py:71, 129. *)
Definition isfile (f : fs) (p : string) : bool :=
  match files f p with Some _ => true | None => false end.

(** CheckpointController.run / resume up to the call of controller.run(): either an exception
    or the strategy to run ([None]: the one passed by the user). *)
Section Controller.
Variable S : Type.
Variable load : bytes -> option S.
(** pySOT/controller/controller.py:121-131: run. *)
Definition ctl_run (f : fs) (fname : string) : res unit :=
  if isfile f fname then Err IOError else Ok tt.
(** pySOT/controller/controller.py:65-78: resume. *)
Definition ctl_resume (f : fs) (fname : string) : res S :=
  match files f fname with
  | None => Err IOError
  | Some c => match load c with Some s => Ok s | None => Err ValueError end
  end.
End Controller.

(** ** Proofs *)
Lemma temp_neq : forall fname, temp_name fname <> fname.
Proof.
  intros fname H. apply (f_equal String.length) in H. unfold temp_name in H. simpl in H. lia.
Qed.

Lemma set_file_same : forall f p v, files (set_file f p v) p = v.
Proof. intros. simpl. rewrite String.eqb_refl. reflexivity. Qed.
Lemma set_file_other : forall f p v q, q <> p -> files (set_file f p v) q = files f q.
Proof. intros. simpl. destruct (String.eqb_spec q p); [contradiction|reflexivity]. Qed.

Lemma execs_app : forall l1 l2 f, execs f (l1 ++ l2) =
  (let (f1, ok) := execs f l1 in if ok then execs f1 l2 else (f1, false)).
Proof.
  induction l1 as [|a l1 IH]; intros l2 f; simpl; [destruct (execs f l2); reflexivity|].
  destruct (exec f a); [apply IH|reflexivity].
Qed.

(** Writing to the temporary file changes nothing else. *)
(** Specification. *)
Definition temp_only (t : string) (f f' : fs) : Prop :=
  (forall p, p <> t -> files f' p = files f p) /\ dirs f' = dirs f.
Lemma temp_only_refl : forall t f, temp_only t f f.
Proof. split; auto. Qed.
Lemma temp_only_trans : forall t f g h, temp_only t f g -> temp_only t g h -> temp_only t f h.
Proof. intros t f g h [A B] [C D]. split; [intros p Hp; rewrite C, A; auto|congruence]. Qed.

Lemma exec_temp_only : forall t f a f',
  match a with OpenTrunc p | Write p _ | Close p => p = t | Rename _ _ => False end ->
  exec f a = Ok f' -> temp_only t f f'.
Proof.
  intros t f a f' Ha H. destruct a; simpl in *; try contradiction; subst.
  - destruct (dirs f t); [discriminate|]. destruct (dir_ok f t); [|discriminate].
    injection H as <-. split; [intros; apply set_file_other; assumption|reflexivity].
  - destruct (files f t); [|discriminate]. injection H as <-.
    split; [intros; apply set_file_other; assumption|reflexivity].
  - injection H as <-. apply temp_only_refl.
Qed.

(** Specification. *)
Definition on_temp (t : string) (a : prim) : Prop :=
  match a with OpenTrunc p | Write p _ | Close p => p = t | Rename _ _ => False end.

Lemma execs_temp_only : forall t l f, Forall (on_temp t) l -> temp_only t f (fst (execs f l)).
Proof.
  intros t. induction l as [|a l IH]; intros f H; simpl; [apply temp_only_refl|].
  inversion H; subst. destruct (exec f a) eqn:E; simpl; [|apply temp_only_refl].
  eapply temp_only_trans; [eapply exec_temp_only; eauto|apply IH; assumption].
Qed.

Lemma execs_writes : forall t chunks f c, files f t = Some c ->
  exists f', execs f (map (Write t) chunks) = (f', true) /\
    files f' t = Some (c ++ concat chunks).
Proof.
  intros t. induction chunks as [|b chunks IH]; intros f c H; simpl.
  - exists f. rewrite app_nil_r. auto.
  - rewrite H. destruct (IH (set_file f t (Some (c ++ b))) (c ++ b)) as [f' [A B]].
    { apply set_file_same. }
    exists f'. split; [exact A|]. rewrite B, app_assoc. reflexivity.
Qed.

(** The save's operations before the rename. *)
(** pySOT/strategy/surrogate_strategy.py:178-179. *)
Definition write_ops (fname : string) (chunks : list bytes) : list prim :=
  [OpenTrunc (temp_name fname)] ++ map (Write (temp_name fname)) chunks ++
  [Close (temp_name fname)].
Lemma save_ops_split : forall fname chunks,
  save_ops fname chunks = write_ops fname chunks ++ [Rename (temp_name fname) fname].
Proof. intros. unfold save_ops, write_ops. rewrite <- !app_assoc. reflexivity. Qed.
Lemma write_ops_temp : forall fname chunks, Forall (on_temp (temp_name fname)) (write_ops fname chunks).
Proof.
  intros. unfold write_ops. apply Forall_app. split; [repeat constructor|].
  apply Forall_app. split; [|repeat constructor].
  apply Forall_forall. intros a Ha. apply in_map_iff in Ha. destruct Ha as [b [<- _]]. reflexivity.
Qed.

Lemma write_ops_ok : forall f fname chunks f', execs f (write_ops fname chunks) = (f', true) ->
  files f' (temp_name fname) = Some (concat chunks).
Proof.
  intros f fname chunks f' H. unfold write_ops in H. rewrite execs_app in H. simpl in H.
  destruct (dirs f (temp_name fname)); [discriminate|].
  destruct (dir_ok f (temp_name fname)); [|discriminate].
  set (f1 := set_file f (temp_name fname) (Some [])) in *.
  destruct (@execs_writes (temp_name fname) chunks f1 []) as [f2 [A B]]; [apply set_file_same|].
  rewrite execs_app, A in H. simpl in H. injection H as <-. exact B.
Qed.

Lemma forall_firstn : forall A (Q : A -> Prop) n l, Forall Q l -> Forall Q (firstn n l).
Proof. intros A Q n l H. revert n. induction H; intros [|n]; simpl; constructor; auto. Qed.

(** A save that stops after [k] operations (crash or exception). *)
Lemma save_prefix : forall f fname chunks k,
  let f' := fst (execs f (firstn k (save_ops fname chunks))) in
  (forall p, p <> fname -> p <> temp_name fname -> files f' p = files f p) /\
  dirs f' = dirs f /\
  (files f' fname = files f fname \/
   (files f' fname = Some (concat chunks) /\ (length (save_ops fname chunks) <= k)%nat)).
Proof.
  intros f fname chunks k f'. unfold f'. rewrite save_ops_split.
  set (W := write_ops fname chunks).
  destruct (le_lt_dec (length (W ++ [Rename (temp_name fname) fname])) k) as [L|L].
  - rewrite firstn_all2 by assumption. rewrite execs_app.
    pose proof (execs_temp_only f (write_ops_temp fname chunks)) as [T1 T2]. fold W in T1, T2.
    destruct (execs f W) as [f1 ok] eqn:E. simpl in T1, T2. destruct ok; simpl.
    + pose proof (@write_ops_ok f fname chunks f1 E) as Hw. rewrite Hw.
      destruct (dirs f1 fname); [|destruct (dir_ok f1 fname)]; simpl.
      * repeat split; auto. left. apply T1. apply not_eq_sym, temp_neq.
      * repeat split; auto.
        -- intros p H1 H2. destruct (String.eqb_spec p fname); [contradiction|].
           destruct (String.eqb_spec p (temp_name fname)); [contradiction|]. auto.
        -- right. rewrite String.eqb_refl. auto.
      * repeat split; auto. left. apply T1. apply not_eq_sym, temp_neq.
    + repeat split; auto. left. apply T1. apply not_eq_sym, temp_neq.
  - assert (HW : Forall (on_temp (temp_name fname)) W) by apply write_ops_temp. clearbody W.
    rewrite app_length in L. simpl in L. rewrite firstn_app.
    replace (k - length W)%nat with 0%nat by lia. simpl. rewrite app_nil_r.
    pose proof (@execs_temp_only (temp_name fname) (firstn k W) f) as [T1 T2].
    { apply forall_firstn. exact HW. }
    repeat split; auto. left. apply T1. apply not_eq_sym, temp_neq.
Qed.

Lemma save_total : forall f fname chunks,
  dirs f fname = false -> dirs f (temp_name fname) = false ->
  dir_ok f fname = true -> dir_ok f (temp_name fname) = true ->
  snd (execs f (save_ops fname chunks)) = true /\
  files (fst (execs f (save_ops fname chunks))) fname = Some (concat chunks).
Proof.
  intros f fname chunks D1 D2 K1 K2. unfold save_ops. simpl. rewrite D2, K2.
  set (f1 := set_file f (temp_name fname) (Some [])).
  destruct (@execs_writes (temp_name fname) chunks f1 []) as [f2 [A B]]; [apply set_file_same|].
  assert (T : temp_only (temp_name fname) f1 f2).
  { pose proof (@execs_temp_only (temp_name fname) (map (Write (temp_name fname)) chunks) f1) as T.
    rewrite A in T. apply T. apply Forall_forall. intros a Ha. apply in_map_iff in Ha.
    destruct Ha as [b [<- _]]. reflexivity. }
  destruct T as [_ T]. simpl in T.
  rewrite execs_app, A. simpl. rewrite B.
  assert (D1' : dirs f2 fname = false) by (rewrite T; assumption).
  assert (K1' : dir_ok f2 fname = true) by (unfold dir_ok in *; rewrite T; assumption).
  rewrite D1', K1'. simpl. rewrite String.eqb_refl. auto.
Qed.

Lemma parent_no_slash : forall s, has_slash s = false -> parent s = EmptyString.
Proof.
  destruct s as [|a s]; [reflexivity|]. simpl. intros H. apply orb_false_iff in H.
  destruct H as [_ ->]. reflexivity.
Qed.
Lemma temp_no_slash : forall s, has_slash s = false -> has_slash (temp_name s) = false.
Proof. intros s H. simpl. exact H. Qed.

(** ** A whole run: a sequence of saves, each possibly cut short. *)
Section Run.
Variable S : Type.
Variable fname : string.
Variable chunked : S -> nat -> list bytes.   (* how the i-th save of s is split into writes *)
Variable dump : S -> bytes.
Variable load : bytes -> option S.
Hypothesis chunked_ok : forall s i, concat (chunked s i) = dump s.
Hypothesis load_dump : forall s, load (dump s) = Some s.

(** Save the snapshots in order; each save is cut after the given number of operations. *)
(** pySOT/controller/controller.py:80-119: one save per callback. *)
Fixpoint saves (f : fs) (l : list (S * nat * nat)) : fs :=
  match l with
  | [] => f
  | (s, i, k) :: l' => saves (fst (execs f (firstn k (save_ops fname (chunked s i))))) l'
  end.

Lemma saves_invariant : forall l f,
  (forall p, p <> fname -> p <> temp_name fname -> files (saves f l) p = files f p) /\
  (files (saves f l) fname = files f fname \/
   exists s, In s (map (fun t => fst (fst t)) l) /\ files (saves f l) fname = Some (dump s)).
Proof.
  induction l as [|[[s i] k] l IH]; intros f; simpl; [auto|].
  destruct (save_prefix f fname (chunked s i) k) as [A [_ B]].
  set (f1 := fst (execs f (firstn k (save_ops fname (chunked s i))))) in *.
  destruct (IH f1) as [C D]. split.
  - intros p H1 H2. rewrite C, A; auto.
  - destruct D as [D|[s' [D1 D2]]]; [|right; exists s'; auto].
    destruct B as [B|[B _]]; [left; congruence|]. right. exists s. split; [auto|].
    rewrite D, B, chunked_ok. reflexivity.
Qed.
End Run.
