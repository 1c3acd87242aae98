(** * Invariants of the strategy model over histories. *)
From Coq Require Import List Arith ZArith Lia Bool Permutation.
From Verif Require Import Base Strategy StrategySpec StrategyProofs.
Import ListNotations.
Local Open Scope Z_scope.

Set Implicit Arguments.

(** ** History functions at the end of a history *)
Section Snoc.
Variables P V : Type.
Implicit Types (h : list (event P V)) (ev : event P V).

Lemma outstanding_snoc : forall h ev,
  outstanding (h ++ [ev]) = outstanding_step (outstanding h) ev.
Proof. intros. unfold outstanding. rewrite fold_left_app. reflexivity. Qed.
Lemma undecided_snoc : forall h ev,
  undecided (h ++ [ev]) = undecided_step (undecided h) ev.
Proof. intros. unfold undecided. rewrite fold_left_app. reflexivity. Qed.
Lemma completed_app : forall h1 h2, completed (h1 ++ h2) = completed h1 ++ completed h2.
Proof. intros. unfold completed. apply flat_map_app. Qed.
Lemma finished_app : forall h1 h2, finished (h1 ++ h2) = finished h1 ++ finished h2.
Proof. intros. unfold finished. apply flat_map_app. Qed.
Lemma queued_later_app : forall h1 h2,
  queued_later (h1 ++ h2) = queued_later h1 ++ queued_later h2.
Proof. intros. unfold queued_later. apply flat_map_app. Qed.
Lemma run_fold_snoc : forall h ev,
  fold_left (@run_step P V) (h ++ [ev]) ([], []) =
  run_step (fold_left (@run_step P V) h ([], [])) ev.
Proof. intros. rewrite fold_left_app. reflexivity. Qed.
Lemma count_app : forall f h1 h2, count f (h1 ++ h2) = (count f h1 + count f h2)%nat.
Proof. intros. unfold count. rewrite filter_app, app_length. reflexivity. Qed.
Lemma count_zero_app : forall f h1 h2,
  count f (h1 ++ h2) = 0%nat <-> count f h1 = 0%nat /\ count f h2 = 0%nat.
Proof. intros. rewrite count_app. lia. Qed.

(** Splitting a history that ends with [ev]. *)
Lemma snoc_split : forall A (h : list A) (a : A) (h1 : list A) (b : A) (h2 : list A),
  h ++ [a] = h1 ++ b :: h2 ->
  (h2 = [] /\ h = h1 /\ a = b) \/ exists h3 : list A, h2 = h3 ++ [a] /\ h = h1 ++ b :: h3.
Proof.
  intros A h a h1 b h2 E.
  destruct (@exists_last _ (b :: h2)) as [q [z Eq]]; [discriminate|].
  rewrite Eq, app_assoc in E. apply app_inj_tail in E. destruct E as [E1 E2]. subst z.
  destruct q as [|b' q]; simpl in Eq.
  - left. injection Eq as -> ->. rewrite app_nil_r in E1. auto.
  - right. injection Eq as -> ->. exists q. auto.
Qed.
End Snoc.


Section Inv.
Variables P V Ext Orc : Type.
Variable c : cfg P V.
Variable hk : hooks P V Ext Orc.
Notation proc := (proc P V Ext).
Notation base := (base P V).

Lemma iter_bump_frame : forall n (s : base),
  exists l nx, iter_bump n s = set_ev_next nx (set_ev_last l s) /\
    (n = O -> l = ev_last s /\ nx = ev_next s) /\
    ((0 < n)%nat -> l = ev_next s + Z.of_nat n - 1 /\ nx = ev_next s + Z.of_nat n).
Proof.
  induction n as [|n IH]; intros s.
  - exists (ev_last s), (ev_next s). simpl. split; [destruct s; reflexivity|]. split; auto. lia.
  - simpl. destruct (IH (bump s)) as [l [nx [E [E0 E1]]]].
    exists l, nx. rewrite E. split; [destruct s; reflexivity|]. split; [lia|]. intros _.
    destruct n as [|n].
    + destruct E0 as [-> ->]; auto. simpl. lia.
    + destruct E1 as [-> ->]; [lia|]. simpl. lia.
Qed.

(** What on_*_completed does to the base attributes. *)
Lemma do_complete_ok : forall o ev v (p p' : proc),
  do_complete c hk o ev v p = Ok p' ->
  exists e' l nx cv,
    p' = mkProc (set_converged cv (set_ev_next nx (set_ev_last l
                   (base_completed c (o_id o) (o_x o) v ev (p_s p))))) e'
                (del_out (o_id o) (p_out p)) (p_ctl p) (p_next p)
                (p_hist p ++ [EvComplete (o_id o) (o_kind o) (o_x o) v]) /\
    (match o_kind o with
     | KInit => hk_initial_completed hk (p_e p)
                  (base_completed c (o_id o) (o_x o) v ev (p_s p)) (o_x o) v ev = Ok e' /\
                l = ev_last (p_s p) /\ nx = ev_next (p_s p) /\ cv = converged (p_s p)
     | KAdapt => exists n cv0, hk_adapt_completed hk (p_e p)
                  (base_completed c (o_id o) (o_x o) v ev (p_s p)) (o_x o) v ev
                  = Ok (e', n, cv0) /\
                  cv = (cv0 || converged (p_s p)) /\
                  (n = O -> l = ev_last (p_s p) /\ nx = ev_next (p_s p)) /\
                  ((0 < n)%nat -> l = ev_next (p_s p) + Z.of_nat n - 1 /\
                                   nx = ev_next (p_s p) + Z.of_nat n)
     end).
Proof.
  intros o ev v p p' H. unfold do_complete in H.
  apply rbind_ok in H. destruct H as [[s1 e1] [H1 H2]]. injection H2 as <-. simpl.
  assert (F1 : ev_last (base_completed c (o_id o) (o_x o) v ev (p_s p)) = ev_last (p_s p)).
  { unfold base_completed. simpl. destruct (ev_last (p_s p) <? ev); reflexivity. }
  assert (F2 : ev_next (base_completed c (o_id o) (o_x o) v ev (p_s p)) = ev_next (p_s p)).
  { unfold base_completed. simpl. destruct (ev_last (p_s p) <? ev); reflexivity. }
  assert (F3 : converged (base_completed c (o_id o) (o_x o) v ev (p_s p)) = converged (p_s p)).
  { unfold base_completed. simpl. destruct (ev_last (p_s p) <? ev); reflexivity. }
  destruct (o_kind o).
  - unfold on_initial_completed in H1.
    apply rbind_ok in H1. destruct H1 as [e2 [G1 G2]]. injection G2 as <- <-.
    exists e2, (ev_last (p_s p)), (ev_next (p_s p)), (converged (p_s p)).
    split; [|repeat split; auto].
    rewrite <- F1, <- F2, <- F3. destruct (base_completed c (o_id o) (o_x o) v ev (p_s p)); reflexivity.
  - unfold on_adapt_completed in H1.
    apply rbind_ok in H1. destruct H1 as [[[e2 n] cv0] [G1 G2]]. injection G2 as <- <-.
    destruct (iter_bump_frame n (base_completed c (o_id o) (o_x o) v ev (p_s p)))
      as [l [nx [E [E0 E1]]]].
    rewrite F1, F2 in *.
    exists e2, l, nx, (cv0 || converged (p_s p)). split.
    + rewrite E. rewrite <- F3. destruct cv0; [reflexivity|].
      destruct (base_completed c (o_id o) (o_x o) v ev (p_s p)); reflexivity.
    + exists n, cv0. split; [exact G1|]. split; [reflexivity|]. split; assumption.
Qed.

(** ** Lists of outstanding evaluations *)

Lemma del_out_map : forall id (l : list (outst P)),
  map (fun o => (o_id o, o_x o)) (del_out id l) =
  filter (fun q : nat * P => negb (fst q =? id)%nat) (map (fun o => (o_id o, o_x o)) l).
Proof.
  induction l as [|o l IH]; [reflexivity|]. simpl.
  destruct (negb (o_id o =? id)%nat); simpl; rewrite IH; reflexivity.
Qed.

Lemma set_ev_map : forall id ev (l : list (outst P)),
  map (fun o => (o_id o, o_x o)) (set_ev id ev l) = map (fun o => (o_id o, o_x o)) l.
Proof.
  induction l as [|o l IH]; [reflexivity|]. simpl. rewrite IH.
  destruct (o_id o =? id)%nat; reflexivity.
Qed.

Lemma map_ids : forall (l : list (outst P)),
  map (@o_id P) l = map fst (map (fun o => (o_id o, o_x o)) l).
Proof. intros. rewrite map_map. reflexivity. Qed.

Lemma map_xs : forall (l : list (outst P)),
  map (@o_x P) l = map snd (map (fun o => (o_id o, o_x o)) l).
Proof. intros. rewrite map_map. reflexivity. Qed.

Lemma NoDup_filter : forall A (f : A -> bool) l, NoDup l -> NoDup (filter f l).
Proof.
  intros A f l H. induction H as [|x l Hx Hl IH]; simpl; [constructor|].
  destruct (f x); [constructor; [|assumption]|assumption].
  intros C. apply filter_In in C. tauto.
Qed.

Lemma del_out_ids : forall id (l : list (outst P)),
  map (@o_id P) (del_out id l) = filter (fun i => negb (i =? id)%nat) (map (@o_id P) l).
Proof.
  induction l as [|o l IH]; [reflexivity|]. simpl.
  destruct (negb (o_id o =? id)%nat); simpl; rewrite IH; reflexivity.
Qed.

Lemma set_ev_ids : forall id ev (l : list (outst P)),
  map (@o_id P) (set_ev id ev l) = map (@o_id P) l.
Proof. intros. rewrite !map_ids, set_ev_map. reflexivity. Qed.

Lemma filter_all : forall A (f : A -> bool) l, (forall x, In x l -> f x = true) -> filter f l = l.
Proof.
  induction l as [|x l IH]; intros H; [reflexivity|]. simpl.
  rewrite H by (left; reflexivity). rewrite IH; [reflexivity|]. intros; apply H; right; assumption.
Qed.

(** Removing an outstanding record takes out exactly that one. *)
Lemma del_out_split : forall (l : list (outst P)) o,
  NoDup (map (@o_id P) l) -> In o l ->
  exists l1 l2, l = l1 ++ o :: l2 /\ del_out (o_id o) l = l1 ++ l2.
Proof.
  intros l o Hn Hi. apply in_split in Hi. destruct Hi as [l1 [l2 ->]].
  exists l1, l2. split; [reflexivity|].
  rewrite map_app in Hn. simpl in Hn.
  assert (H1 : forall x, In x (l1 ++ l2) -> negb (o_id x =? o_id o)%nat = true).
  { intros x Hx. apply NoDup_remove_2 in Hn. apply negb_true_iff, Nat.eqb_neq.
    intros E. apply Hn. rewrite <- map_app, <- E. apply in_map. assumption. }
  unfold del_out. rewrite filter_app. simpl. rewrite Nat.eqb_refl. simpl.
  rewrite !filter_all; [reflexivity| |]; intros x Hx; apply H1; apply in_or_app; auto.
Qed.

Lemma del_out_length : forall (l : list (outst P)) o,
  NoDup (map (@o_id P) l) -> In o l -> length l = S (length (del_out (o_id o) l)).
Proof.
  intros l o Hn Hi. destruct (del_out_split _ _ Hn Hi) as [l1 [l2 [-> ->]]].
  rewrite !app_length. simpl. lia.
Qed.

Definition is_und (o : outst P) : bool := match o_ev o with None => true | Some _ => false end.

Lemma del_out_und : forall id (l : list (outst P)),
  map (@o_id P) (filter is_und (del_out id l)) =
  filter (fun i => negb (i =? id)%nat) (map (@o_id P) (filter is_und l)).
Proof.
  induction l as [|o l IH]; [reflexivity|]. simpl.
  destruct (o_id o =? id)%nat eqn:E; simpl.
  - rewrite IH. destruct (is_und o); simpl; [rewrite E|]; reflexivity.
  - destruct (is_und o); simpl; [rewrite E; simpl|]; rewrite IH; reflexivity.
Qed.

Lemma set_ev_und : forall id ev (l : list (outst P)),
  map (@o_id P) (filter is_und (set_ev id ev l)) =
  filter (fun i => negb (i =? id)%nat) (map (@o_id P) (filter is_und l)).
Proof.
  induction l as [|o l IH]; [reflexivity|]. simpl.
  destruct (o_id o =? id)%nat eqn:E; simpl.
  - rewrite IH. destruct (is_und o); simpl; [rewrite E|]; reflexivity.
  - destruct (is_und o); simpl; [rewrite E; simpl|]; rewrite IH; reflexivity.
Qed.

(** ** Bookkeeping invariant *)

Record Inv (p : proc) : Prop := mkInv {
  inv_out : outstanding (p_hist p) = map (fun o => (o_id o, o_x o)) (p_out p);
  inv_und : undecided (p_hist p) = map (@o_id P) (filter is_und (p_out p));
  inv_nodup : NoDup (map (@o_id P) (p_out p));
  inv_fresh : forall o, In o (p_out p) -> (o_id o < p_next p)%nat;
  inv_pend : pending_evals (p_s p) = Z.of_nat (length (p_out p));
  inv_num : num_evals (p_s p) = Z.of_nat (length (completed (p_hist p)));
  inv_X : X (p_s p) = map fst (known c ++ completed (p_hist p));
  inv_fX : fX (p_s p) = map snd (known c ++ completed (p_hist p));
  inv_fev : map (fun f => (f_id f, f_x f, f_val f)) (fevals (p_s p)) = finished (p_hist p);
  inv_bud : num_evals (p_s p) + pending_evals (p_s p) <= Z.max (c_max_evals c) 0
}.

Lemma inv_kn : forall p, Inv p -> kn c (p_s p) = [].
Proof.
  intros p I. unfold kn, extras_now.
  destruct (length (X (p_s p)) =? 0)%nat eqn:E; [|reflexivity].
  apply Nat.eqb_eq in E. rewrite (inv_X I), map_length, app_length in E.
  destruct (known c); [reflexivity|simpl in E; lia].
Qed.

Lemma base_completed_fields : forall id x v ev (s : base),
  let s' := base_completed c id x v ev s in
  num_evals s' = num_evals s + 1 /\ pending_evals s' = pending_evals s - 1 /\
  X s' = X s ++ [x] /\ fX s' = fX s ++ [v] /\
  fevals s' = fevals s ++ [mkFrec id x (Some v)] /\
  batch_queue s' = batch_queue s /\ phase s' = phase s /\ terminate s' = terminate s /\
  Xpend s' = filter (fun y => negb (c_peqb c y x)) (Xpend s) /\
  accepted_count s' = accepted_count s /\ rejected_count s' = rejected_count s.
Proof.
  intros. unfold s', base_completed. simpl.
  destruct (ev_last s <? ev); simpl; repeat split; reflexivity.
Qed.

Lemma NoDup_snoc : forall A (l : list A) x, NoDup l -> ~ In x l -> NoDup (l ++ [x]).
Proof.
  intros A l x H Hx. apply (Permutation_NoDup (l := x :: l)).
  - apply Permutation_cons_append.
  - constructor; assumption.
Qed.

Lemma in_del_out : forall id (l : list (outst P)) o, In o (del_out id l) -> In o l.
Proof. intros id l o H. apply filter_In in H. tauto. Qed.

Lemma in_set_ev : forall id ev (l : list (outst P)) o', In o' (set_ev id ev l) ->
  exists o, In o l /\ o_id o' = o_id o /\ o_x o' = o_x o /\ o_kind o' = o_kind o /\
            (o' = o \/ (o_id o = id /\ o_ev o' = Some ev)).
Proof.
  intros id ev l o' H. apply in_map_iff in H. destruct H as [o [E Hi]].
  exists o. split; [assumption|].
  destruct (o_id o =? id)%nat eqn:Eid; subst o'; simpl; repeat split; auto.
  right. split; [apply Nat.eqb_eq; assumption|reflexivity].
Qed.

Lemma Inv_init : forall design e0 se,
  construct c hk design e0 = Ok se -> Inv (init_proc se).
Proof.
  intros design e0 se H. unfold construct in H.
  apply rbind_ok in H. destruct H as [s [H1 H2]]. injection H2 as <-.
  apply sample_initial_ok in H1. destruct H1 as [d [rows [_ [_ [_ ->]]]]].
  constructor; simpl; auto; try constructor; try contradiction; try lia.
  - unfold kn. simpl. rewrite app_nil_r. reflexivity.
  - unfold kn. simpl. rewrite app_nil_r. reflexivity.
Qed.

Ltac snoc := rewrite ?outstanding_snoc, ?undecided_snoc, ?completed_app, ?finished_app; simpl.

Lemma Inv_micro : forall p p', Inv p -> micro c hk p p' -> Inv p'.
Proof.
  intros p p' I M. pose proof (inv_kn I) as Ek. destruct I.
  destruct M.
  - constructor; simpl; snoc; rewrite ?app_nil_r; auto.
  - constructor; simpl; snoc; rewrite ?app_nil_r; auto.
  - constructor; simpl; snoc; rewrite ?app_nil_r; auto.
  - constructor; simpl; rewrite ?app_nil_r; auto.
  - constructor; simpl; snoc; rewrite ?app_nil_r; auto.
  - constructor; simpl; snoc; rewrite ?app_nil_r; auto.
  - constructor; simpl; snoc; rewrite ?Ek; simpl; rewrite ?app_nil_r; auto.
  - (* propose *)
    destruct H as [Ht Hlt].
    constructor; simpl; snoc; rewrite ?app_nil_r; auto.
    + rewrite inv_out0, map_app. reflexivity.
    + rewrite inv_und0, filter_app, map_app. reflexivity.
    + rewrite map_app. simpl. apply NoDup_snoc; [assumption|].
      intros C. apply in_map_iff in C. destruct C as [o [E Hi]].
      apply inv_fresh0 in Hi. lia.
    + intros o Ho. apply in_app_or in Ho. destruct Ho as [Ho|[<-|[]]]; simpl; [|lia].
      apply inv_fresh0 in Ho. lia.
    + rewrite app_length. simpl. lia.
    + lia.
  - (* accept *)
    constructor; simpl; snoc; rewrite ?app_nil_r; auto.
    + rewrite set_ev_map. assumption.
    + rewrite set_ev_und, inv_und0. reflexivity.
    + rewrite set_ev_ids. assumption.
    + intros o' Ho. apply in_set_ev in Ho. destruct Ho as [o1 [Ho [-> _]]]. auto.
    + unfold set_ev. rewrite map_length. assumption.
  - (* reject *)
    pose proof (del_out_length _ _ inv_nodup0 H) as Hl.
    constructor; simpl; snoc; rewrite ?app_nil_r; auto.
    + rewrite del_out_map, inv_out0. reflexivity.
    + rewrite del_out_und, inv_und0. reflexivity.
    + rewrite del_out_ids. apply NoDup_filter. assumption.
    + intros o' Ho. apply in_del_out in Ho. auto.
    + destruct (o_kind o); simpl; unfold on_adapt_reject; simpl; destruct (c_async c); simpl; lia.
    + destruct (o_kind o); simpl; unfold on_adapt_reject; simpl; destruct (c_async c); simpl; lia.
    + destruct (o_kind o); simpl; unfold on_adapt_reject; simpl; destruct (c_async c); simpl; auto.
    + destruct (o_kind o); simpl; unfold on_adapt_reject; simpl; destruct (c_async c); simpl; auto.
    + destruct (o_kind o); simpl; unfold on_adapt_reject; simpl; destruct (c_async c); simpl; auto.
    + destruct (o_kind o); simpl; unfold on_adapt_reject; simpl; destruct (c_async c); simpl; lia.
  - (* complete *)
    pose proof (del_out_length _ _ inv_nodup0 H) as Hl.
    apply do_complete_ok in H1. destruct H1 as [e' [l [nx [cv [-> _]]]]].
    destruct (base_completed_fields (o_id o) (o_x o) v ev (p_s p))
      as [F1 [F2 [F3 [F4 [F5 _]]]]].
    set (sb := base_completed c (o_id o) (o_x o) v ev (p_s p)) in *. clearbody sb.
    constructor; cbn [p_s p_e p_out p_ctl p_next p_hist]; snoc; rewrite ?app_nil_r; auto.
    + rewrite del_out_map, inv_out0. reflexivity.
    + rewrite inv_und0, del_out_und.
      symmetry. apply filter_all.
      intros i Hi. apply negb_true_iff, Nat.eqb_neq. intros ->.
      apply in_map_iff in Hi. destruct Hi as [o1 [E Hi]]. apply filter_In in Hi.
      destruct Hi as [Hi Hu].
      assert (o1 = o).
      { destruct (del_out_split _ _ inv_nodup0 H) as [l1 [l2 [E1 E2]]].
        rewrite E1 in Hi, inv_nodup0. rewrite map_app in inv_nodup0. simpl in inv_nodup0.
        apply NoDup_remove_2 in inv_nodup0. rewrite <- map_app in inv_nodup0.
        apply in_app_or in Hi. destruct Hi as [Hi|[Hi|Hi]]; auto; exfalso; apply inv_nodup0;
        rewrite <- E; apply in_map; apply in_or_app; auto. }
      subst o1. unfold is_und in Hu. rewrite H0 in Hu. discriminate.
    + rewrite del_out_ids. apply NoDup_filter. assumption.
    + intros o' Ho. apply in_del_out in Ho. auto.
    + lia.
    + rewrite app_length. simpl. lia.
    + rewrite F3, inv_X0, app_assoc, (map_app _ (known c ++ _)). reflexivity.
    + rewrite F4, inv_fX0, app_assoc, (map_app _ (known c ++ _)). reflexivity.
    + rewrite F5, map_app, inv_fev0. reflexivity.
    + lia.
  - (* abort *)
    pose proof (del_out_length _ _ inv_nodup0 H) as Hl.
    constructor; simpl; snoc; rewrite ?app_nil_r; auto.
    + rewrite del_out_map, inv_out0. reflexivity.
    + rewrite inv_und0, del_out_und.
      symmetry. apply filter_all.
      intros i Hi. apply negb_true_iff, Nat.eqb_neq. intros ->.
      apply in_map_iff in Hi. destruct Hi as [o1 [E Hi]]. apply filter_In in Hi.
      destruct Hi as [Hi Hu].
      assert (o1 = o).
      { destruct (del_out_split _ _ inv_nodup0 H) as [l1 [l2 [E1 E2]]].
        rewrite E1 in Hi, inv_nodup0. rewrite map_app in inv_nodup0. simpl in inv_nodup0.
        apply NoDup_remove_2 in inv_nodup0. rewrite <- map_app in inv_nodup0.
        apply in_app_or in Hi. destruct Hi as [Hi|[Hi|Hi]]; auto; exfalso; apply inv_nodup0;
        rewrite <- E; apply in_map; apply in_or_app; auto. }
      subst o1. unfold is_und in Hu. rewrite H0 in Hu. discriminate.
    + rewrite del_out_ids. apply NoDup_filter. assumption.
    + intros o' Ho. apply in_del_out in Ho. auto.
    + destruct (o_kind o); simpl; lia.
    + destruct (o_kind o); simpl; lia.
    + destruct (o_kind o); simpl; auto.
    + destruct (o_kind o); simpl; auto.
    + destruct (o_kind o); simpl; rewrite map_app, inv_fev0; reflexivity.
    + destruct (o_kind o); simpl; lia.
  - constructor; simpl; snoc; rewrite ?app_nil_r; auto.
  - (* resume *)
    constructor; simpl; snoc; rewrite ?app_nil_r; auto; try constructor; try contradiction.
    + unfold resume. destruct (phase (p_s p) =? 1)%nat; simpl; lia.
    + unfold resume. destruct (phase (p_s p) =? 1)%nat; simpl; auto.
    + unfold resume. destruct (phase (p_s p) =? 1)%nat; simpl; auto.
    + unfold resume. destruct (phase (p_s p) =? 1)%nat; simpl; auto.
    + unfold resume. destruct (phase (p_s p) =? 1)%nat; simpl; lia.
Qed.

Lemma Inv_micros : forall p p', Inv p -> micros c hk p p' -> Inv p'.
Proof. intros p p' I M. induction M; eauto using Inv_micro. Qed.

Lemma Inv_reached : forall design e0 p, reached c hk design e0 p -> Inv p.
Proof.
  intros design e0 p H. apply reached_micros in H. destruct H as [se [H1 H2]].
  eapply Inv_micros; [eapply Inv_init; eassumption|exact H2].
Qed.

Lemma used_inv : forall p, Inv p ->
  used (p_hist p) = num_evals (p_s p) + pending_evals (p_s p).
Proof.
  intros p I. unfold used. rewrite (inv_num I), (inv_pend I), (inv_out I), map_length.
  reflexivity.
Qed.

End Inv.
