(** * Checkpoint properties C14 and C18. *)
From Coq Require Import String Ascii ZArith.
From Coq Require Import Arith Lia Bool List.
From Verif Require Import Base Checkpoint Strategy StrategySpec StrategyProofs StrategyInv.
Import ListNotations.

Set Implicit Arguments.

(** ** C14 *)

(** A save cut after any number [k] of file operations leaves the checkpoint file either as it
    was or with the complete new content, and touches no file but it and the temporary one. *)
Theorem C14_save_atomic : forall (f : fs) fname chunks k,
  let f' := fst (execs f (firstn k (save_ops fname chunks))) in
  (files f' fname = files f fname \/ files f' fname = Some (concat chunks)) /\
  (forall p, p <> fname -> p <> ("temp_" ++ fname)%string -> files f' p = files f p).
Proof.
  intros f fname chunks k f'. destruct (save_prefix f fname chunks k) as [A [_ B]]. split; auto.
  destruct B as [B|[B _]]; auto.
Qed.

(** A whole run: [n] saves were made, the process is killed during the next one, at any
    operation.  Then resume finds the complete last or the complete new snapshot. *)
Theorem C14_crash_then_resume :
  forall (S : Type) (dump : S -> bytes) (load : bytes -> option S) (chunked : S -> nat -> list bytes)
    fname (f0 : fs) (done : list S) (s_last s_new : S) i k,
  (forall s i, concat (chunked s i) = dump s) -> (forall s, load (dump s) = Some s) ->
  has_slash fname = false -> dirs f0 fname = false -> dirs f0 ("temp_" ++ fname)%string = false ->
  let full s := (s, 0%nat, length (save_ops fname (chunked s 0%nat))) in
  let f' := saves fname chunked f0 (map full (done ++ [s_last]) ++ [(s_new, i, k)]) in
  ctl_resume load f' fname = Ok s_last \/ ctl_resume load f' fname = Ok s_new.
Proof.
  intros S dump load chunked fname f0 done s_last s_new i k Hc Hl Hs D1 D2 full f'.
  assert (G : forall l f, dirs f = dirs f0 -> l <> [] -> exists s,
     last (map Some l) None = Some s /\ files (saves fname chunked f (map full l)) fname = Some (dump s)
     /\ dirs (saves fname chunked f (map full l)) = dirs f0).
  { induction l as [|s l IH]; intros f Ed Hne; [contradiction|].
    change (saves fname chunked f (map full (s :: l))) with
      (saves fname chunked (fst (execs f (firstn (length (save_ops fname (chunked s 0%nat)))
                                            (save_ops fname (chunked s 0%nat))))) (map full l)).
    rewrite firstn_all.
    destruct (@save_total f fname (chunked s 0%nat)) as [T1 T2].
    { rewrite Ed; assumption. } { rewrite Ed; assumption. }
    { unfold dir_ok. rewrite (parent_no_slash _ Hs). reflexivity. }
    { unfold dir_ok. rewrite (parent_no_slash _ (temp_no_slash _ Hs)). reflexivity. }
    destruct (save_prefix f fname (chunked s 0%nat) (length (save_ops fname (chunked s 0%nat)))) as [_ [E _]].
    rewrite firstn_all in E.
    destruct l as [|s2 l].
    - exists s. split; [reflexivity|]. cbn [map saves]. rewrite T2, Hc, E. auto.
    - destruct (IH (fst (execs f (save_ops fname (chunked s 0%nat))))) as [s' [A [B C]]];
        [congruence|discriminate|]. exists s'. split; [exact A|]. split; assumption. }
  assert (SA : forall l1 l2 f, saves fname chunked f (l1 ++ l2) =
                saves fname chunked (saves fname chunked f l1) l2).
  { induction l1 as [|[[s j] m] l1 IH]; intros l2 f; simpl; auto. }
  unfold f'. rewrite SA.
  destruct (G (done ++ [s_last]) f0 eq_refl) as [s [A [B _]]].
  { destruct done; discriminate. }
  rewrite map_app in A. simpl in A. rewrite last_last in A. injection A as <-.
  set (f1 := saves fname chunked f0 (map full (done ++ [s_last]))) in *. simpl.
  destruct (save_prefix f1 fname (chunked s_new i) k) as [_ [_ H]].
  unfold ctl_resume. destruct H as [H|[H _]]; rewrite H.
  - rewrite B, Hl. auto.
  - rewrite Hc, Hl. auto.
Qed.

(** More generally, whatever the sequence of complete and interrupted saves (several crashes and
    resumes), the file is the original one or a complete snapshot of this run. *)
Theorem C14_never_corrupt :
  forall (S : Type) (dump : S -> bytes) (chunked : S -> nat -> list bytes)
    fname (f0 : fs) (l : list (S * nat * nat)),
  (forall s i, concat (chunked s i) = dump s) ->
  files (saves fname chunked f0 l) fname = files f0 fname \/
  exists s, In s (map (fun t => fst (fst t)) l) /\
    files (saves fname chunked f0 l) fname = Some (dump s).
Proof. intros S dump chunked fname f0 l H. eapply saves_invariant. exact H. Qed.

(** ** C18 *)
Theorem C18_run_refuses : forall f fname,
  (files f fname <> None -> ctl_run f fname = Err IOError) /\ (files f fname = None -> ctl_run f fname = Ok tt).
Proof.
  intros f fname. unfold ctl_run, isfile. destruct (files f fname); split; congruence.
Qed.

Theorem C18_resume_refuses : forall S (load : bytes -> option S) f fname,
  files f fname = None -> ctl_resume load f fname = Err IOError.
Proof.
  intros S load f fname H. unfold ctl_resume, isfile in *. rewrite H. reflexivity.
Qed.

(** Missing: file names with a directory part (C18_directory_refuted). *)
Theorem C18_saved_under_name_partial : forall f fname chunks,
  has_slash fname = false -> dirs f fname = false -> dirs f ("temp_" ++ fname)%string = false ->
  snd (execs f (save_ops fname chunks)) = true /\
  files (fst (execs f (save_ops fname chunks))) fname = Some (concat chunks).
Proof.
  intros f fname chunks Hs D1 D2. apply save_total; auto.
  - unfold dir_ok. rewrite (parent_no_slash _ Hs). reflexivity.
  - unfold dir_ok. rewrite (parent_no_slash _ (temp_no_slash _ Hs)). reflexivity.
Qed.

(** Saving to "out/cp" raises although the directory "out" exists: the temporary name is
    "temp_out/cp".  Nothing is saved. *)
Theorem C18_directory_refuted : forall chunks, exists f,
  dir_ok f "out/cp" = true /\ snd (execs f (save_ops "out/cp" chunks)) = false /\
  files (fst (execs f (save_ops "out/cp" chunks))) "out/cp"%string = None.
Proof.
  intros chunks. exists (mkFs (fun _ => None) (fun d => String.eqb d "out")).
  vm_compute. auto.
Qed.

(** When a snapshot is taken: exactly after an update that finishes a running record and when
    the strategy terminates; the snapshot is the strategy right before or right after its own
    callback (depending on POAP's callback order), and in the second case contains the record. *)
Section WhenSaved.
Variables P V Ext Orc : Type.
Variable c : cfg P V.
Variable hk : hooks P V Ext Orc.
Notation sys := (sys P V Ext).

Definition finishes (p : proc P V Ext) (a : op P V Orc) : Prop :=
  exists id st o ev, a = Update id st /\ get_out id (p_out p) = Some o /\ o_ev o = Some ev /\
    st <> SOther.

Theorem C18_snapshot_after_finish : forall (y : sys) p a, y_proc y = Some p -> finishes p a ->
  (c_save_first c = true /\ y_disk (step c hk y a) = Some p) \/
  (c_save_first c = false /\ y_proc (step c hk y a) <> None /\
     y_disk (step c hk y a) = y_proc (step c hk y a)) \/
  (c_save_first c = false /\ y_proc (step c hk y a) = None /\ y_disk (step c hk y a) = y_disk y).
Proof.
  intros y p a Hp [id [st [o [ev [-> [Ho [Hev Hst]]]]]]].
  unfold step. rewrite Hp, Ho, Hev.
  destruct st; [contradiction| | |]; unfold finish;
    [destruct (do_complete c hk o ev v p) as [p'|] | |];
    destruct (c_save_first c); simpl; auto; right; left; split; auto; split; auto; discriminate.
Qed.

Theorem C18_snapshot_only_then : forall (y : sys) a,
  y_disk (step c hk y a) = y_disk y \/
  (exists p, y_proc y = Some p /\ finishes p a) \/
  (exists p d o p', y_proc y = Some p /\ a = Propose d o /\
     do_propose c hk d o p = Ok (OTerminate, p') /\ y_disk (step c hk y a) = Some p').
Proof.
  intros y a. unfold step. destruct (y_proc y) as [p|] eqn:Ep.
  - destruct a; simpl; auto.
    + destruct (do_propose c hk design o p) as [[out p']|] eqn:E; [|auto].
      destruct out; simpl; auto. right. right. exists p, design, o, p'. auto.
    + destruct (get_out id (p_out p)) as [o|]; [|auto]. destruct (o_ev o); auto.
    + destruct (get_out id (p_out p)) as [o|]; [|auto]. destruct (o_ev o); auto.
    + destruct (get_out id (p_out p)) as [o|] eqn:Eo; [|auto].
      destruct (o_ev o) as [ev|] eqn:Ev; [|auto].
      destruct st; [auto| | |]; right; left; exists p; split; auto;
        exists id; eexists; exists o, ev; repeat split; eauto; discriminate.
  - destruct a; auto. destruct (y_disk y) eqn:E; simpl; auto.
Qed.

Theorem C18_terminate_saved : forall (y : sys) p d o p', y_proc y = Some p ->
  do_propose c hk d o p = Ok (OTerminate, p') ->
  y_disk (step c hk y (Propose d o)) = Some p'.
Proof. intros y p d o p' Hp H. unfold step. rewrite Hp, H. reflexivity. Qed.
End WhenSaved.

(** Non-vacuity: a concrete crash in the middle of the third save of a run. *)
Example ex_C14 :
  let dump (s : bytes) := s in
  let chunked (s : bytes) (i : nat) := map (fun a => [a]) s in
  let f0 := mkFs (fun _ => None) (fun _ => false) in
  let a := list_ascii_of_string "first" in let b := list_ascii_of_string "second" in
  let c := list_ascii_of_string "third" in
  let f' := saves "cp" chunked f0
    [(a, 0%nat, 99%nat); (b, 0%nat, 99%nat); (c, 0%nat, 4%nat)] in
  files f' "cp"%string = Some b /\ files f' "temp_cp"%string = Some (firstn 3 c).
Proof. vm_compute. auto. Qed.
