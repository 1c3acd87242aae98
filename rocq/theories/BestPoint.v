(** * The record that a run returns: controller/controller.py:61-78, 121-131 (run and resume return the
    result of POAP's Controller.run, which is Controller.best_point()). *)
From Coq Require Import List Arith ZArith Lia Bool Permutation.
From Verif Require Import Base Strategy StrategySpec StrategyProofs StrategyInv StrategyInv2
  StrategyInv3 StrategyInv4 StrategyOps ResumeKill ResumeSerial.
Import ListNotations.
Set Implicit Arguments.

Section Best.
Variables P V Ext Orc : Type.
Variable c : cfg P V.
Variable hk : hooks P V Ext Orc.
Notation proc := (proc P V Ext).
Notation event := (event P V).

(** ** Model *)

(** The record objects of the controller (controller.fevals) that are completed, with their points and
    values; a record that is finished is the object that the strategy appended to strategy.fevals,
    pySOT/strategy/surrogate_strategy.py:367, 375, 432, 439, and controller/controller.py:75-76 after
    a resume. *)
Definition completed_records (p : proc) : list (nat * P * V) :=
  flat_map (fun id => match find (fun f => (f_id f =? id)%nat) (fevals (p_s p)) with
                      | Some f => match f_val f with Some v => [(id, f_x f, v)] | None => [] end
                      | None => [] end) (p_ctl p).

(** Python's min(records, key=value): the first record with the smallest value; the result of
    Controller.best_point, returned at controller/controller.py:78, 131; None without records. *)
Definition py_min (ltb : V -> V -> bool) (l : list (nat * P * V)) : option (nat * P * V) :=
  match l with
  | [] => None
  | r :: l' => Some (fold_left (fun b r' => if ltb (snd r') (snd b) then r' else b) l' r)
  end.
(** The result of CheckpointController.run and resume, controller/controller.py:65-78, 121-131. *)
Definition best_point (ltb : V -> V -> bool) (p : proc) : option (nat * P * V) := py_min ltb (completed_records p).

(** ** Specification *)

(** Specification, no counterpart in /repo: the evaluations that are accepted and not finished. *)
Definition running (h : list event) : list nat :=
  filter (fun i => negb (existsb (fun j => (j =? i)%nat) (undecided h))) (map fst (outstanding h)).
(** Specification, no counterpart in /repo: the ids of the finished evaluations. *)
Definition finished_ids (h : list event) : list nat := map (fun t => fst (fst t)) (finished h).

(** ** Proofs *)
Variable design : res (list P).
Variable e0 : Ext.
Notation Reached := (reached c hk design e0).

Definition acc_ids (p : proc) : list nat := map (@o_id P) (filter (fun o => negb (is_und o)) (p_out p)).

Record CtlInv (p : proc) : Prop := mkCtl {
  ci_perm : Permutation (p_ctl p) (finished_ids (p_hist p) ++ acc_ids p);
  ci_nodup : NoDup (finished_ids (p_hist p));
  ci_fresh : forall i, In i (finished_ids (p_hist p)) -> (i < p_next p)%nat;
  ci_disj : forall i, In i (finished_ids (p_hist p)) -> ~ In i (map (@o_id P) (p_out p))
}.

Lemma fin_app : forall h t : list event, finished_ids (h ++ t) = finished_ids h ++ finished_ids t.
Proof. intros. unfold finished_ids, finished. rewrite flat_map_app, map_app. reflexivity. Qed.

Lemma inner_fin : forall evs : list event, forallb (@inner P V) evs = true -> finished_ids evs = [].
Proof. unfold finished_ids. induction evs as [|[] evs IH]; cbn; intros; auto; discriminate. Qed.

Lemma del_acc : forall id (l : list (outst P)),
  map (@o_id P) (filter (fun o => negb (is_und o)) (del_out id l)) =
  filter (fun i => negb (i =? id)%nat) (map (@o_id P) (filter (fun o => negb (is_und o)) l)).
Proof.
  induction l as [|o l IH]; [reflexivity|]. simpl.
  destruct (o_id o =? id)%nat eqn:E; simpl.
  - rewrite IH. destruct (is_und o); simpl; [|rewrite E]; reflexivity.
  - destruct (is_und o); simpl; [|rewrite E; simpl]; rewrite IH; reflexivity.
Qed.

Lemma filter_all : forall (f : nat -> bool) l, (forall i, In i l -> f i = true) -> filter f l = l.
Proof. induction l as [|a l IH]; intros H; [reflexivity|]. simpl. rewrite (H a (or_introl eq_refl)), IH; [reflexivity|]. intros i Hi. apply H. right; exact Hi. Qed.

(** removing an id from a list without repetitions *)
Lemma perm_del : forall id l, NoDup l -> In id l -> Permutation l (id :: filter (fun i => negb (i =? id)%nat) l).
Proof.
  induction l as [|a l IH]; intros N H; [contradiction|]. inversion_clear N. simpl.
  destruct (a =? id)%nat eqn:E; simpl.
  - apply Nat.eqb_eq in E. subst a. rewrite filter_all; [apply Permutation_refl|].
    intros i Hi. apply negb_true_iff, Nat.eqb_neq. intros ->. contradiction.
  - destruct H as [->|H]; [rewrite Nat.eqb_refl in E; discriminate|].
    etransitivity; [apply perm_skip, IH; assumption|]. apply perm_swap.
Qed.

Lemma NoDup_map_filter : forall (f : outst P -> bool) l, NoDup (map (@o_id P) l) -> NoDup (map (@o_id P) (filter f l)).
Proof.
  induction l as [|o l IH]; intros N; [constructor|]. simpl in *. inversion_clear N.
  destruct (f o); simpl; [|apply IH; assumption]. constructor; [|apply IH; assumption].
  intros Hi. apply H. apply in_map_iff in Hi. destruct Hi as [o' [E Hi]]. apply filter_In in Hi.
  apply in_map_iff. exists o'. tauto.
Qed.

Lemma set_ev_acc : forall o ev (l : list (outst P)), NoDup (map (@o_id P) l) -> In o l -> o_ev o = None ->
  Permutation (map (@o_id P) (filter (fun o => negb (is_und o)) (set_ev (o_id o) ev l)))
    (map (@o_id P) (filter (fun o => negb (is_und o)) l) ++ [o_id o]).
Proof.
  intros o ev. induction l as [|a l IH]; intros N Hi Ho; [contradiction|]. simpl in N. inversion_clear N.
  assert (EQ : set_ev (o_id o) ev (a :: l) = (if (o_id a =? o_id o)%nat then mkOut (o_id a) (o_kind a) (o_x a) (Some ev) else a) :: set_ev (o_id o) ev l) by reflexivity.
  rewrite EQ. clear EQ.
  destruct Hi as [->|Hi].
  - rewrite Nat.eqb_refl. assert (U : is_und o = true) by (unfold is_und; rewrite Ho; reflexivity).
    assert (SE : set_ev (o_id o) ev l = l).
    { clear -H. unfold set_ev. induction l as [|b l IH]; [reflexivity|]. simpl in *. destruct (o_id b =? o_id o)%nat eqn:E; [apply Nat.eqb_eq in E; tauto|]. rewrite IH by tauto. reflexivity. }
    rewrite SE. cbn [filter]. rewrite U. cbn [negb is_und o_ev map o_id]. apply Permutation_cons_append.
  - assert (NE : (o_id a =? o_id o)%nat = false).
    { apply Nat.eqb_neq. intros E. apply H. rewrite E. apply in_map, Hi. }
    rewrite NE. specialize (IH H0 Hi Ho). cbn [filter]. destruct (is_und a); cbn [negb map app]; [exact IH|].
    apply perm_skip, IH.
Qed.

Lemma finish_step : forall p o ev h' s e, Inv c p -> CtlInv p -> In o (p_out p) -> o_ev o = Some ev ->
  finished_ids h' = finished_ids (p_hist p) ++ [o_id o] ->
  CtlInv (mkProc s e (del_out (o_id o) (p_out p)) (p_ctl p) (p_next p) h').
Proof.
  intros p o ev h' s e I [A B C D] Hi Ho E.
  assert (Na : In (o_id o) (acc_ids p)).
  { unfold acc_ids. apply in_map, filter_In. split; [exact Hi|]. unfold is_und. rewrite Ho. reflexivity. }
  assert (ND : NoDup (acc_ids p)) by (apply NoDup_map_filter, (inv_nodup I)).
  constructor; unfold acc_ids; cbn [p_s p_e p_out p_ctl p_next p_hist].
  - rewrite E, A, del_acc, <- app_assoc. apply Permutation_app_head. simpl. apply perm_del; assumption.
  - rewrite E. apply NoDup_snoc; [exact B|]. intros Hf. apply (D _ Hf). apply in_map, Hi.
  - rewrite E. intros i Hf. apply in_app_or in Hf. destruct Hf as [Hf|[<-|[]]]; [auto|]. apply (inv_fresh I), Hi.
  - rewrite E, del_out_ids. intros i Hf Hf'. apply filter_In in Hf'. destruct Hf' as [Hf' N].
    apply in_app_or in Hf. destruct Hf as [Hf|[<-|[]]]; [exact (D _ Hf Hf')|]. rewrite Nat.eqb_refl in N. discriminate.
Qed.

Lemma CtlInv_reached : forall p, Reached p -> CtlInv p.
Proof.
  apply reached_ops.
  - intros s e _. constructor; cbn; try constructor; contradiction.
  - intros p d o out p' R [A B C D] DP. pose proof (Inv_reached R) as I.
    unfold do_propose in DP. apply rbind_ok in DP. destruct DP as [[[out1 [s1 e1]] evs] [PA DP]]. injection DP as <- <-.
    pose proof (inner_fin _ (@propose_events P V Ext Orc c hk _ _ _ _ _ _ _ PA)) as NE.
    destruct out1; constructor; unfold acc_ids in *; cbn [p_s p_e p_out p_ctl p_next p_hist];
      rewrite ?filter_app, ?map_app, !fin_app, NE; cbn; rewrite ?app_nil_r; auto.
    all: try (intros i Hf; specialize (C i Hf); lia).
    all: try (intros i Hf Hi; apply in_app_or in Hi; destruct Hi as [Hi|[Hi|[]]]; [exact (D i Hf Hi)|]; specialize (C i Hf); cbn in Hi; lia).
  - intros p o R [A B C D] Hi Ho. pose proof (Inv_reached R) as I. unfold do_accept.
    destruct (on_accepted (p_s p)) as [ev s] eqn:EA.
    constructor; unfold acc_ids in *; cbn [p_s p_e p_out p_ctl p_next p_hist]; rewrite ?fin_app; cbn; rewrite ?app_nil_r; auto.
    + rewrite A, <- app_assoc. apply Permutation_app_head. symmetry. apply set_ev_acc; auto. exact (inv_nodup I).
    + intros i Hf Hi'. apply (D i Hf). unfold set_ev in Hi'. rewrite map_map in Hi'.
      erewrite map_ext in Hi'; [exact Hi'|]. intros a. cbn. destruct (o_id a =? o_id o)%nat; reflexivity.
  - intros p o R [A B C D] Hi Ho. pose proof (Inv_reached R) as I. unfold do_reject.
    constructor; unfold acc_ids in *; cbn [p_s p_e p_out p_ctl p_next p_hist]; rewrite ?fin_app; cbn; rewrite ?app_nil_r; auto.
    + rewrite A. apply Permutation_app_head. rewrite del_acc, filter_all; [reflexivity|].
      intros i Hi'. apply negb_true_iff, Nat.eqb_neq. intros ->. apply in_map_iff in Hi'. destruct Hi' as [o' [E Hi']].
      apply filter_In in Hi'. destruct Hi' as [Hi' U].
      assert (EE : o' = o).
      { clear -E Hi Hi' I. pose proof (inv_nodup I) as N. revert N Hi Hi'. generalize (p_out p). induction l as [|a l IH]; intros N Hi Hi'; [contradiction|].
        simpl in N. inversion_clear N. destruct Hi as [->|Hi], Hi' as [->|Hi']; auto; exfalso; apply H; [rewrite <- E|rewrite E]; apply in_map; assumption. }
      subst o'. unfold is_und in U. rewrite Ho in U. discriminate.
    + intros i Hf Hi'. rewrite del_out_ids in Hi'. apply filter_In in Hi'. exact (D i Hf (proj1 Hi')).
  - intros p o ev v p' R CI Hi Ho DC. pose proof (Inv_reached R) as I. unfold do_complete in DC.
    apply rbind_ok in DC. destruct DC as [[s1 e1] [_ DC]]. injection DC as <-.
    eapply finish_step; eauto. apply fin_app.
  - intros p o ev R CI Hi Ho. pose proof (Inv_reached R) as I. unfold do_abort.
    eapply finish_step; eauto. apply fin_app.
  - intros p R [A B C D]. constructor; unfold acc_ids, with_s in *; cbn [p_s p_e p_out p_ctl p_next p_hist]; rewrite ?fin_app; cbn; rewrite ?app_nil_r; auto.
  - intros p R [A B C D]. pose proof (Inv_reached R) as I. unfold do_resume.
    constructor; unfold acc_ids; cbn [p_s p_e p_out p_ctl p_next p_hist]; rewrite ?fin_app; cbn; rewrite ?app_nil_r; auto.
    unfold finished_ids. rewrite <- (inv_fev I), map_map. cbn. apply Permutation_refl.
Qed.

Lemma running_acc : forall p, Inv c p -> running (p_hist p) = acc_ids p.
Proof.
  intros p I. unfold running, acc_ids. rewrite (inv_out I), (inv_und I), map_map. cbn [fst].
  pose proof (inv_nodup I) as N. revert N. generalize (p_out p). clear I.
  assert (G : forall (l l0 : list (outst P)), NoDup (map (@o_id P) l) -> (forall o, In o l -> In o l0) -> NoDup (map (@o_id P) l0) ->
    filter (fun i => negb (existsb (fun j => (j =? i)%nat) (map (@o_id P) (filter (@is_und P) l0)))) (map (@o_id P) l) =
    map (@o_id P) (filter (fun o => negb (is_und o)) l)).
  { induction l as [|o l IH]; intros l0 N S N0; [reflexivity|]. cbn [map filter]. simpl in N. inversion_clear N.
    rewrite IH; auto; [|intros o' Ho'; apply S; right; exact Ho'].
    assert (E : existsb (fun j => (j =? o_id o)%nat) (map (@o_id P) (filter (@is_und P) l0)) = is_und o).
    { destruct (is_und o) eqn:U.
      - apply existsb_exists. exists (o_id o). split; [|apply Nat.eqb_refl]. apply in_map, filter_In. split; [apply S; left; reflexivity|exact U].
      - apply not_true_iff_false. intros E. apply existsb_exists in E. destruct E as [j [Hj E]]. apply Nat.eqb_eq in E. subst j.
        apply in_map_iff in Hj. destruct Hj as [o' [E Ho']]. apply filter_In in Ho'. destruct Ho' as [Ho' U'].
        assert (EE : o' = o).
        { assert (Ho : In o l0) by (apply S; left; reflexivity). clear -E Ho Ho' N0. revert N0 Ho Ho'. induction l0 as [|a l1 IH]; intros N Hi Hi'; [contradiction|].
          simpl in N. inversion_clear N. destruct Hi as [->|Hi], Hi' as [->|Hi']; auto; exfalso; apply H; [rewrite <- E|rewrite E]; apply in_map; assumption. }
        subst o'. congruence. }
    rewrite E. destruct (is_und o); reflexivity. }
  intros l N. apply G; auto.
Qed.

(** C77. In every reachable state, also after crashes and resumptions, the controller has exactly one
    record for each finished and for each running evaluation, and no others. *)
Theorem C77_records : forall p, Reached p ->
  NoDup (p_ctl p) /\ Permutation (p_ctl p) (finished_ids (p_hist p) ++ running (p_hist p)).
Proof.
  intros p R. pose proof (Inv_reached R) as I. destruct (CtlInv_reached R) as [A B C D]. rewrite (running_acc I).
  split; [|exact A]. apply (Permutation_NoDup (Permutation_sym A)).
  assert (ND : NoDup (acc_ids p)) by (apply NoDup_map_filter, (inv_nodup I)).
  revert B D. generalize (finished_ids (p_hist p)). induction l as [|i l IH]; intros B D; [exact ND|].
  inversion_clear B. simpl. constructor.
  - intros Hi. apply in_app_or in Hi. destruct Hi as [Hi|Hi]; [contradiction|].
    apply (D i (or_introl eq_refl)). unfold acc_ids in Hi. apply in_map_iff in Hi. destruct Hi as [o [E Hi]]. apply filter_In in Hi.
    apply in_map_iff. exists o. tauto.
  - apply IH; [assumption|]. intros j Hj. apply D. right. exact Hj.
Qed.

Lemma find_rec : forall (l : list (frec P V)) f, NoDup (map (@f_id P V) l) -> In f l -> find (fun g => (f_id g =? f_id f)%nat) l = Some f.
Proof.
  induction l as [|g l IH]; intros f N Hi; [contradiction|]. simpl in N. inversion_clear N. simpl.
  destruct (f_id g =? f_id f)%nat eqn:E.
  - destruct Hi as [->|Hi]; [reflexivity|]. apply Nat.eqb_eq in E. exfalso. apply H. rewrite E. apply in_map, Hi.
  - destruct Hi as [->|Hi]; [rewrite Nat.eqb_refl in E; discriminate|]. apply IH; assumption.
Qed.

Lemma records_iff : forall p, Reached p -> forall id x v,
  In (id, x, v) (completed_records p) <-> In (id, x, Some v) (finished (p_hist p)).
Proof.
  intros p R id x v. pose proof (Inv_reached R) as I. destruct (CtlInv_reached R) as [A B C D].
  assert (EI : map (@f_id P V) (fevals (p_s p)) = finished_ids (p_hist p)) by (unfold finished_ids; rewrite <- (inv_fev I), map_map; reflexivity).
  unfold completed_records. rewrite in_flat_map, <- (inv_fev I), in_map_iff. split.
  - intros [i [Hi H]]. destruct (find _ _) as [f|] eqn:F; [|contradiction]. apply find_some in F. destruct F as [F1 F2]. apply Nat.eqb_eq in F2.
    destruct (f_val f) as [w|] eqn:E; [|contradiction]. destruct H as [H|[]]. injection H as <- <- <-. exists f. rewrite F2, E. auto.
  - intros [f [E Hf]]. injection E as <- <- E. exists (f_id f). split.
    + apply (Permutation_in _ (Permutation_sym A)), in_or_app. left. rewrite <- EI. apply in_map, Hf.
    + rewrite (find_rec _ f); [|rewrite EI; exact B|exact Hf]. rewrite E. left. reflexivity.
Qed.

Lemma completed_finished : forall (h : list event) x v, In (x, v) (completed h) <-> exists id, In (id, x, Some v) (finished h).
Proof.
  unfold completed, finished. intros h x v. rewrite in_flat_map. split.
  - intros [[] [Hi H]]; cbn in H; try contradiction. destruct H as [H|[]]. injection H as <- <-.
    exists id. apply in_flat_map. eexists. split; [exact Hi|]. left. reflexivity.
  - intros [id H]. apply in_flat_map in H. destruct H as [[] [Hi H]]; cbn in H; try contradiction; destruct H as [H|[]]; try discriminate.
    injection H as <- <- <-. eexists. split; [exact Hi|]. left. reflexivity.
Qed.

Lemma py_min_least : forall ltb : V -> V -> bool, (forall a, ltb a a = false) -> (forall a b d, ltb a b = true -> ltb b d = true -> ltb a d = true) ->
  forall l r, py_min ltb l = Some r -> In r l /\ forall r', In r' l -> ltb (snd r') (snd r) = false.
Proof.
  intros ltb IR TR [|r0 l] r H; [discriminate|]. injection H as <-.
  set (st := fun b r' : nat * P * V => if ltb (snd r') (snd b) then r' else b).
  assert (G : forall l2 l1 b, In b l1 -> (forall r', In r' l1 -> ltb (snd r') (snd b) = false) ->
    In (fold_left st l2 b) (l1 ++ l2) /\ forall r', In r' (l1 ++ l2) -> ltb (snd r') (snd (fold_left st l2 b)) = false).
  { induction l2 as [|a l2 IH]; intros l1 b Hb M; [rewrite app_nil_r; auto|].
    cbn [fold_left]. replace (l1 ++ a :: l2) with ((l1 ++ [a]) ++ l2) by (rewrite <- app_assoc; reflexivity).
    apply IH; unfold st; destruct (ltb (snd a) (snd b)) eqn:E.
    - apply in_or_app. right. left. reflexivity.
    - apply in_or_app. left. exact Hb.
    - intros r' H. apply in_app_or in H. destruct H as [H|[<-|[]]]; [|apply IR].
      apply not_true_iff_false. intros E'. pose proof (TR _ _ _ E' E) as T. rewrite (M r' H) in T. discriminate.
    - intros r' H. apply in_app_or in H. destruct H as [H|[<-|[]]]; auto. }
  apply (G l [r0] r0); [left; reflexivity|]. intros r' [<-|[]]. apply IR.
Qed.

(** C77. At any point of any history, also after crashes and resumptions, the record that the
    controller returns is a completed evaluation, with the point that was proposed and the value that
    was reported for it, and no completed evaluation of the history has a smaller value; it returns
    nothing only if no evaluation was completed. *)
Theorem C77_best : forall ltb : V -> V -> bool,
  (forall a, ltb a a = false) -> (forall a b d, ltb a b = true -> ltb b d = true -> ltb a d = true) ->
  forall p, Reached p ->
  match best_point ltb p with
  | None => completed (p_hist p) = []
  | Some (id, x, v) =>
    (exists k, In (EvComplete id k x v) (p_hist p)) /\
    forall x' v', In (x', v') (completed (p_hist p)) -> ltb v' v = false
  end.
Proof.
  intros ltb IR TR p R. unfold best_point. destruct (py_min ltb (completed_records p)) as [[[id x] v]|] eqn:E.
  - destruct (py_min_least _ IR TR _ E) as [Hi M]. split.
    + apply (records_iff R) in Hi. unfold finished in Hi. apply in_flat_map in Hi.
      destruct Hi as [[] [Hi H]]; cbn in H; try contradiction; destruct H as [H|[]]; try discriminate.
      injection H as <- <- <-. eauto.
    + intros x' v' H. apply completed_finished in H. destruct H as [id' H]. apply (records_iff R) in H. exact (M _ H).
  - destruct (completed_records p) as [|r l] eqn:EL; [|discriminate].
    destruct (completed (p_hist p)) as [|[x v] l] eqn:EC; [reflexivity|].
    assert (H : In (x, v) (completed (p_hist p))) by (rewrite EC; left; reflexivity).
    apply completed_finished in H. destruct H as [id H]. apply (records_iff R) in H. rewrite EL in H. contradiction.
Qed.

(** C77. A crash followed by a resumption does not worsen the result (the snapshot being written after
    the callback of the strategy): it is at least as good as every evaluation completed before the crash. *)
Theorem C77_crash_keeps_best : c_save_first c = false -> forall ltb : V -> V -> bool,
  (forall a, ltb a a = false) -> (forall a b d, ltb a b = true -> ltb b d = true -> ltb a d = true) ->
  forall ops p p', y_proc (run c hk design e0 ops) = Some p ->
  y_proc (run c hk design e0 (ops ++ [Crash; Resume])) = Some p' ->
  forall x v, In (x, v) (completed (p_hist p)) ->
  exists id x' v', best_point ltb p' = Some (id, x', v') /\ ltb v v' = false.
Proof.
  intros SF ltb IR TR ops p p' Hp Hp' x v H.
  assert (R' : Reached p') by (eexists; left; exact Hp').
  replace (ops ++ [Crash; Resume]) with ((ops ++ [Crash]) ++ [Resume]) in Hp' by (rewrite <- app_assoc; reflexivity).
  rewrite !run_snoc in Hp'.
  destruct (@C68_nothing_finished_lost P V Ext Orc c hk SF design e0 ops p Hp) as [N|[d [Hd F]]].
  - apply completed_finished in H. destruct H as [id H]. rewrite N in H. contradiction.
  - unfold step in Hp' at 2. rewrite Hp in Hp'. unfold step in Hp'. cbn [y_proc y_disk] in Hp'. rewrite Hd in Hp'. injection Hp' as <-.
    assert (H' : In (x, v) (completed (p_hist (do_resume d)))).
    { apply completed_finished in H. destruct H as [id H]. apply completed_finished. exists id.
      unfold do_resume. cbn [p_hist]. unfold finished in *. rewrite flat_map_app, F. apply in_or_app. left. exact H. }
    pose proof (C77_best ltb IR TR R') as B. destruct (best_point ltb (do_resume d)) as [[[id x'] v']|]; [|rewrite B in H'; contradiction].
    exists id, x', v'. split; [reflexivity|]. exact (proj2 B x v H').
Qed.

End Best.

(** ** Concrete runs *)
From Verif Require Import ExStrategy.

(** A run with a rejected proposal, a killed evaluation and a restart returns the best completed
    evaluation, which belongs to the run before the restart. *)
Example ex_best_full : best_point Z.ltb (pr_ (tcfg 6 true 0 true) ops_full) = Some (4, 30, (-1)%Z)%nat /\
  p_ctl (pr_ (tcfg 6 true 0 true) ops_full) = [0; 1; 3; 4; 5; 6; 7]%nat.
Proof. vm_compute. auto. Qed.

(** Killed after two completions, with one evaluation running, and resumed. *)
Definition ops_crash : list (op nat Z (option (list nat))) :=
  [P_ None; Accept 0; P_ None; Accept 1; Update 1 (SCompleted 3%Z); Update 0 (SCompleted 5%Z);
   P_ (Some [30]%nat); Accept 2; Crash; Resume]%nat.
Example ex_best_crash : best_point Z.ltb (pr_ (tcfg 6 true 0 true) ops_crash) = Some (1, 10, 3%Z)%nat /\
  p_ctl (pr_ (tcfg 6 true 0 true) ops_crash) = [1; 0]%nat.
Proof. vm_compute. auto. Qed.
