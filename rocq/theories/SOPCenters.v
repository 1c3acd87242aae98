(** * C29: selection of the centers (SOPStrategy.update_center_list). *)
From Coq Require Import List Arith ZArith Lia Bool QArith Permutation Sorted.
From Verif Require Import Base PyList Strategy SRBF Pareto ParetoProofs SOP SOPProofs.
Import ListNotations.

Set Implicit Arguments.

(** ** Specification *)
Section Spec.
Variable P : Type.
Notation frow := (frow P).

(** Order of ranks (inf last) and of keys (tabu status, rank, value). *)
Definition rank_before (a b : option nat) : Prop :=
  match a, b with Some x, Some y => (x < y)%nat | Some _, None => True | None, _ => False end.
Definition key_before (a b : frow) : Prop :=
  (w_tabu a < w_tabu b)%nat \/
  (w_tabu a = w_tabu b /\
   (rank_before (w_rank a) (w_rank b) \/
    (w_rank a = w_rank b /\ vlt (w_fx a) (w_fx b) = true))).

(** Index [i] goes before index [j]: smaller key, or equal keys and smaller index. *)
Definition goes_before (F : list frow) (i j : nat) : Prop :=
  exists a b, nth_error F i = Some a /\ nth_error F j = Some b /\
    (key_before a b \/ (~ key_before b a /\ (i < j)%nat)).

(** [ind] lists all row indices in that order. *)
Definition sorted_indices (F : list frow) (ind : list nat) : Prop :=
  Permutation ind (seq 0 (length F)) /\ StronglySorted (goes_before F) ind.

(** [m] is the first of the rows with the smallest value. *)
Definition best_row (F : list frow) (m : nat) : Prop :=
  exists rm, nth_error F m = Some rm /\
    (forall k r, nth_error F k = Some r -> vlt (w_fx r) (w_fx rm) = false) /\
    (forall k r, nth_error F k = Some r -> (k < m)%nat -> vlt (w_fx rm) (w_fx r) = true).

(** Greedy choice from [ind] of at most [cc] elements: an element is taken iff it is not too
    close to any element taken before it (as long as there is room). *)
Definition greedy (close : nat -> nat -> bool) (cc : nat) (ind g : list nat) : Prop :=
  (exists keep, g = filter keep ind) /\ (length g <= cc)%nat /\
  forall pre a post, ind = pre ++ a :: post ->
    let taken := filter (fun c => existsb (Nat.eqb c) g) pre in
    (length taken < cc)%nat ->
    (In a g <-> forall c, In c taken -> close a c = false).

(** [idx] is [g] repeated cyclically up to length [cc]. *)
Definition cyclic (g idx : list nat) (cc : nat) : Prop :=
  length idx = cc /\ forall j, (j < cc)%nat -> nth_error idx j = nth_error g (j mod length g).
End Spec.

(** ** Values are totally ordered *)
Lemma Qlt_b_true : forall a b, Qlt_b a b = true <-> (a < b)%Q.
Proof.
  intros. unfold Qlt_b. rewrite negb_true_iff. split.
  - intros H. apply Qnot_le_lt. intros K. apply Qle_bool_iff in K. congruence.
  - intros H. destruct (Qle_bool b a) eqn:E; [|reflexivity]. apply Qle_bool_iff in E.
    exfalso. apply (Qlt_not_le _ _ H). exact E.
Qed.
Lemma Qlt_b_false : forall a b, Qlt_b a b = false <-> (b <= a)%Q.
Proof.
  intros. unfold Qlt_b. rewrite negb_false_iff. apply Qle_bool_iff.
Qed.
Lemma vge_trans : forall a b c, vlt b a = false -> vlt c b = false -> vlt c a = false.
Proof.
  intros [a|] [b|] [c|]; simpl; try discriminate; try reflexivity.
  rewrite !Qlt_b_false. intros. eapply Qle_trans; eauto.
Qed.
Lemma vlt_asym : forall a b, vlt a b = true -> vlt b a = false.
Proof.
  intros [a|] [b|]; simpl; try discriminate; try reflexivity.
  rewrite Qlt_b_true, Qlt_b_false. apply Qlt_le_weak.
Qed.

Section Sort.
Variable P : Type.
Notation frow := (frow P).

Lemma rank_lt_iff : forall a b, rank_lt a b = true <-> rank_before a b.
Proof. intros [a|] [b|]; simpl; try (split; congruence || tauto). apply Nat.ltb_lt. Qed.

Lemma rank_tri : forall a b, rank_lt a b = false -> rank_lt b a = false -> a = b.
Proof.
  intros [a|] [b|]; simpl; try congruence. rewrite !Nat.ltb_ge. intros. f_equal. lia.
Qed.

Lemma key_lt_iff : forall a b : frow, key_lt a b = true <-> key_before a b.
Proof.
  intros a b. unfold key_lt, key_before.
  destruct (Nat.ltb_spec (w_tabu a) (w_tabu b)); [split; [intros _; left; assumption|reflexivity]|].
  destruct (Nat.ltb_spec (w_tabu b) (w_tabu a)); [split; [discriminate|intros [?|[? _]]; lia]|].
  assert (w_tabu a = w_tabu b) by lia.
  destruct (rank_lt (w_rank a) (w_rank b)) eqn:E1.
  - split; [intros _; right; split; [assumption|left; apply rank_lt_iff; assumption]|reflexivity].
  - destruct (rank_lt (w_rank b) (w_rank a)) eqn:E2.
    + split; [discriminate|]. intros [K|[_ [K|[K _]]]]; [lia| |].
      * apply rank_lt_iff in K. congruence.
      * rewrite K in E2. destruct (w_rank b); simpl in E2; [rewrite Nat.ltb_irrefl in E2; discriminate|discriminate].
    + pose proof (rank_tri _ _ E1 E2) as E3. split.
      * intros K. right. split; [assumption|]. right. auto.
      * intros [K|[_ [K|[_ K]]]]; [lia|apply rank_lt_iff in K; congruence|exact K].
Qed.

Lemma key_ge_trans : forall a b c : frow, key_lt b a = false -> key_lt c b = false -> key_lt c a = false.
Proof.
  intros a b c. unfold key_lt.
  destruct (Nat.ltb_spec (w_tabu b) (w_tabu a)); [discriminate|].
  destruct (Nat.ltb_spec (w_tabu c) (w_tabu b)); [intros; discriminate|].
  destruct (Nat.ltb_spec (w_tabu c) (w_tabu a)); [lia|].
  destruct (Nat.ltb_spec (w_tabu a) (w_tabu b)); destruct (Nat.ltb_spec (w_tabu b) (w_tabu c));
    destruct (Nat.ltb_spec (w_tabu a) (w_tabu c)); try lia; try reflexivity.
  assert (RT : forall x y z, rank_lt y x = false -> rank_lt z y = false -> rank_lt z x = false).
  { intros [x|] [y|] [z|]; simpl; try discriminate; try reflexivity. rewrite !Nat.ltb_ge. lia. }
  destruct (rank_lt (w_rank b) (w_rank a)) eqn:E1; [discriminate|].
  destruct (rank_lt (w_rank c) (w_rank b)) eqn:E2; [intros; discriminate|].
  rewrite (RT _ _ _ E1 E2).
  destruct (rank_lt (w_rank a) (w_rank b)) eqn:E3; destruct (rank_lt (w_rank b) (w_rank c)) eqn:E4;
    destruct (rank_lt (w_rank a) (w_rank c)) eqn:E5; try reflexivity.
  - intros _ _. pose proof (RT _ _ _ E2 E5). congruence.
  - intros _ _. pose proof (RT _ _ _ E2 E5). congruence.
  - intros _ _. pose proof (RT _ _ _ E5 E1). congruence.
  - apply vge_trans.
Qed.

Definition R (a b : nat * frow) : Prop :=
  key_lt (snd b) (snd a) = false /\ (key_lt (snd a) (snd b) = false -> (fst a < fst b)%nat).

Lemma key_asym : forall a b : frow, key_lt a b = true -> key_lt b a = false.
Proof.
  intros a b. unfold key_lt.
  destruct (Nat.ltb_spec (w_tabu a) (w_tabu b)); destruct (Nat.ltb_spec (w_tabu b) (w_tabu a)); try lia; try reflexivity; try discriminate.
  destruct (rank_lt (w_rank a) (w_rank b)) eqn:E1; destruct (rank_lt (w_rank b) (w_rank a)) eqn:E2; try reflexivity; try discriminate.
  - apply rank_lt_iff in E1. apply rank_lt_iff in E2. destruct (w_rank a), (w_rank b); simpl in *; try tauto. lia.
  - apply vlt_asym.
Qed.

Lemma R_trans : forall a b c, R a b -> R b c -> R a c.
Proof.
  intros a b c [A1 A2] [B1 B2]. split; [eapply key_ge_trans; eauto|]. intros K.
  assert (K1 : key_lt (snd a) (snd b) = false).
  { destruct (key_lt (snd a) (snd b)) eqn:E; [|reflexivity].
    pose proof (key_ge_trans _ _ _ B1 K) as E'. congruence. }
  assert (K2 : key_lt (snd b) (snd c) = false).
  { destruct (key_lt (snd b) (snd c)) eqn:E; [|reflexivity].
    pose proof (key_ge_trans _ _ _ K A1) as E'. congruence. }
  specialize (A2 K1). specialize (B2 K2). lia.
Qed.

Lemma insert_perm : forall a l, Permutation (@insert_idx P a l) (a :: l).
Proof.
  intros a l. induction l as [|b l IH]; simpl; [reflexivity|].
  destruct (key_lt (snd b) (snd a)); [|reflexivity]. rewrite IH. apply perm_swap.
Qed.

Lemma insert_sorted : forall a l, StronglySorted R l -> (forall b, In b l -> (fst a < fst b)%nat) ->
  StronglySorted R (insert_idx a l).
Proof.
  intros a l H. induction H as [|b l H IH HF]; intros Ha; simpl.
  - constructor; constructor.
  - destruct (key_lt (snd b) (snd a)) eqn:E.
    + constructor; [apply IH; intros x Hx; apply Ha; right; exact Hx|].
      rewrite Forall_forall in *. intros x Hx. eapply Permutation_in in Hx; [|apply insert_perm].
      destruct Hx as [<-|Hx]; [|auto]. split; [apply key_asym; exact E|congruence].
    + assert (Rab : R a b) by (split; [exact E|intros _; apply Ha; left; reflexivity]).
      constructor; [constructor; assumption|]. constructor; [exact Rab|].
      rewrite Forall_forall in *. intros x Hx. eapply R_trans; [exact Rab|auto].
Qed.

Lemma sort_spec : forall (F : list frow) n,
  let l := fold_right (@insert_idx P) [] (combine (seq n (length F)) F) in
  StronglySorted R l /\ Permutation l (combine (seq n (length F)) F).
Proof.
  intros F. induction F as [|r F IH]; intros n; simpl; [split; constructor|].
  destruct (IH (S n)) as [S1 S2]. split.
  - apply insert_sorted; [exact S1|]. intros [i b] Hb. eapply Permutation_in in Hb; [|exact S2].
    apply in_combine_l, in_seq in Hb. simpl. lia.
  - rewrite insert_perm. constructor. exact S2.
Qed.

Lemma combine_seq_nth : forall A (l : list A) n i a, In (i, a) (combine (seq n (length l)) l) ->
  nth_error l (i - n) = Some a /\ (n <= i)%nat.
Proof.
  intros A l. induction l as [|x l IH]; intros n i a H; simpl in H; [destruct H|].
  destruct H as [H|H].
  - injection H as <- <-. rewrite Nat.sub_diag. split; [reflexivity|lia].
  - apply IH in H. destruct H as [H1 H2]. replace (i - n)%nat with (S (i - S n))%nat by lia. split; [exact H1|lia].
Qed.

Lemma lexsort_spec : forall F : list frow, sorted_indices F (lexsort F).
Proof.
  intros F. destruct (sort_spec F 0) as [S1 S2]. unfold lexsort.
  set (l := fold_right (@insert_idx P) [] (combine (seq 0 (length F)) F)) in *. split.
  - rewrite S2. assert (E : map fst (combine (seq 0 (length F)) F) = seq 0 (length F)).
    { generalize 0%nat. clear. induction F as [|r F IH]; intros n; simpl; [reflexivity|rewrite IH; reflexivity]. }
    rewrite E. reflexivity.
  - assert (HF : Forall (fun ia => nth_error F (fst ia) = Some (snd ia)) l).
    { apply Forall_forall. intros [i a] Hin. eapply Permutation_in in Hin; [|exact S2].
      apply combine_seq_nth in Hin. rewrite Nat.sub_0_r in Hin. apply Hin. }
    clear S2. induction S1 as [|a l' S1 IH H1]; simpl; [constructor|].
    inversion HF; subst. constructor; [apply IH; assumption|].
    rewrite Forall_forall in *. intros j Hj. apply in_map_iff in Hj. destruct Hj as [b [<- Hb]].
    specialize (H1 b Hb). specialize (H3 b Hb). exists (snd a), (snd b). split; [assumption|]. split; [assumption|].
    destruct H1 as [K1 K2]. destruct (key_lt (snd a) (snd b)) eqn:E.
    + left. apply key_lt_iff. exact E.
    + right. split; [|apply K2; reflexivity]. intros K. apply key_lt_iff in K. congruence.
Qed.

(** ** argmin *)
Lemma argmin_from_spec : forall l i best bv m, argmin_from i best bv l = m ->
  (best < i)%nat ->
  (m = best /\ (forall k v, nth_error l k = Some v -> vlt v bv = false)) \/
  (exists k v, m = (i + k)%nat /\ nth_error l k = Some v /\ vlt v bv = true /\
     (forall k' v', nth_error l k' = Some v' -> vlt v' v = false) /\
     (forall k' v', nth_error l k' = Some v' -> (k' < k)%nat -> vlt v v' = true)).
Proof.
  intros l. induction l as [|x l IH]; intros i best bv m H Hb; simpl in H.
  - left. subst m. split; [reflexivity|]. intros [|k] v Hk; discriminate.
  - destruct (vlt x bv) eqn:E.
    + right. destruct (IH (S i) i x m H (Nat.lt_succ_diag_r i)) as [[-> K]|[k [v [-> [K1 [K2 [K3 K4]]]]]]].
      * exists 0%nat, x. split; [lia|]. split; [reflexivity|]. split; [exact E|]. split; [|intros; lia].
        intros [|k'] v' Hk'; simpl in Hk'; [injection Hk' as <-|eauto].
        destruct vlt_ltb_ok as [I _]. apply I.
      * exists (S k), v. split; [lia|]. split; [exact K1|].
        split; [destruct vlt_ltb_ok as [_ T]; eapply T; eauto|]. split.
        -- intros [|k'] v' Hk'; simpl in Hk'; [injection Hk' as <-; apply vlt_asym; exact K2|eauto].
        -- intros [|k'] v' Hk' Hlt; simpl in Hk'; [injection Hk' as <-; exact K2|]. apply (K4 k'); [exact Hk'|lia].
    + destruct (IH (S i) best bv m H (Nat.lt_lt_succ_r _ _ Hb)) as [[-> K]|[k [v [-> [K1 [K2 [K3 K4]]]]]]].
      * left. split; [reflexivity|]. intros [|k'] v' Hk'; simpl in Hk'; [injection Hk' as <-; exact E|eauto].
      * right. exists (S k), v. split; [lia|]. split; [exact K1|]. split; [exact K2|].
        assert (X : vlt v x = true).
        { destruct (vlt v x) eqn:Ev; [reflexivity|]. pose proof (vge_trans _ _ _ E Ev). congruence. }
        split.
        -- intros [|k'] v' Hk'; simpl in Hk'; [injection Hk' as <-; apply vlt_asym; exact X|eauto].
        -- intros [|k'] v' Hk' Hlt; simpl in Hk'; [injection Hk' as <-; exact X|]. apply (K4 k'); [exact Hk'|lia].
Qed.

Lemma argmin_spec : forall (F : list frow) m, argmin (map (@w_fx P) F) = Ok m -> best_row F m.
Proof.
  intros F m H. destruct F as [|r F]; simpl in H; [discriminate|]. injection H as H.
  destruct (@argmin_from_spec _ _ _ _ _ H (Nat.lt_0_1)) as [[-> K]|[k [v [-> [K1 [K2 [K3 K4]]]]]]].
  - exists r. split; [reflexivity|]. split; [|intros; lia].
    intros [|k] r' Hk; simpl in Hk; [injection Hk as <-; destruct vlt_ltb_ok as [I _]; apply I|].
    apply (K k). rewrite nth_error_map, Hk. reflexivity.
  - rewrite nth_error_map in K1. destruct (nth_error F k) as [rk|] eqn:Ek; [|discriminate]. injection K1 as <-.
    exists rk. split; [simpl; exact Ek|]. split.
    + intros [|k'] r' Hk'; simpl in Hk'; [injection Hk' as <-; apply vlt_asym; exact K2|].
      apply (K3 k'). rewrite nth_error_map, Hk'. reflexivity.
    + intros [|k'] r' Hk' Hlt; simpl in Hk'; [injection Hk' as <-; exact K2|].
      apply (K4 k'); [rewrite nth_error_map, Hk'; reflexivity|lia].
Qed.

Lemma best_row_total : forall F : list frow, F <> [] -> exists m, argmin (map (@w_fx P) F) = Ok m.
Proof. intros [|r F] H; [congruence|]. simpl. eauto. Qed.

Lemma shift_spec : forall m rest prev, In m rest -> prev <> m -> NoDup rest ->
  shift m prev rest = Ok (filter (fun i => negb (i =? m)%nat) (prev :: rest)).
Proof.
  intros m rest. induction rest as [|a rest IH]; intros prev Hin Hne Hnd; [destruct Hin|].
  assert (E0 : (prev =? m)%nat = false) by (apply Nat.eqb_neq; exact Hne).
  cbn [shift]. destruct (Nat.eqb_spec a m) as [->|E].
  - cbn [filter]. rewrite E0, Nat.eqb_refl. cbn [negb]. f_equal. f_equal.
    inversion Hnd; subst. symmetry. clear -H1. induction rest as [|x l IHl]; [reflexivity|]. simpl.
    destruct (Nat.eqb_spec x m) as [->|Ex]; [exfalso; apply H1; left; reflexivity|]. simpl. f_equal. apply IHl.
    intros K. apply H1. right. exact K.
  - inversion Hnd; subst. rewrite IH; [|destruct Hin; [contradiction|assumption]|exact E|assumption].
    cbn [rbind]. cbn [filter]. rewrite E0. reflexivity.
Qed.

(** The order in which the rows are considered. *)
Theorem order_spec : forall F : list frow, F <> [] -> exists ind m rm,
  sorted_indices F ind /\ best_row F m /\ nth_error F m = Some rm /\
  order F = Ok (if (w_tabu rm =? 2)%nat then ind else m :: filter (fun i => negb (i =? m)%nat) ind).
Proof.
  intros F HF. destruct (best_row_total HF) as [m Em]. pose proof (argmin_spec _ Em) as Hm.
  pose proof Hm as Hm'. destruct Hm' as [rm [Er _]].
  exists (lexsort F), m, rm. split; [apply lexsort_spec|]. split; [exact Hm|]. split; [exact Er|].
  unfold order. rewrite Em. cbn [rbind].
  destruct (lexsort_spec F) as [Hp _].
  assert (Hin : In m (lexsort F)).
  { eapply Permutation_in; [symmetry; exact Hp|]. apply in_seq.
    assert (m < length F)%nat by (apply nth_error_Some; congruence). lia. }
  assert (Hnd : NoDup (lexsort F)) by (eapply Permutation_NoDup; [symmetry; exact Hp|apply seq_NoDup]).
  destruct (lexsort F) as [|i0 rest]; [destruct Hin|]. apply geti_ok in Er.
  unfold geti at 1. cbn [nth_error rbind]. rewrite Er. cbn [rbind tl].
  destruct (w_tabu rm =? 2)%nat eqn:Et; [rewrite orb_true_r; reflexivity|]. rewrite orb_false_r.
  destruct (Nat.eqb_spec m i0) as [->|E].
  - cbn [filter]. rewrite Nat.eqb_refl. cbn [negb]. f_equal. f_equal. inversion Hnd; subst. clear -H1.
    induction rest as [|x l IHl]; [reflexivity|]. simpl.
    destruct (Nat.eqb_spec x i0) as [->|Ex]; [exfalso; apply H1; left; reflexivity|]. simpl. f_equal. apply IHl.
    intros K. apply H1. right. exact K.
  - inversion Hnd; subst. rewrite shift_spec; [reflexivity| |congruence|assumption].
    destruct Hin; [congruence|assumption].
Qed.

(** ** The greedy loop *)
Variable tooclose : P -> P -> nat -> Q -> bool.

(** The radius rule between two rows. *)
Definition close_rows (F : list frow) (t : Q) (a c : nat) : bool :=
  match nth_error F a, nth_error F c with
  | Some ra, Some rc => tooclose (w_x ra) (w_x rc) (w_nfail rc) t
  | _, _ => false
  end.

Lemma far_ok : forall F t a chosen, (a < length F)%nat -> (forall c, In c chosen -> (c < length F)%nat) ->
  exists b, far tooclose F t a chosen = Ok b /\
    (b = true <-> forall c, In c chosen -> close_rows F t a c = false).
Proof.
  intros F t a chosen Ha Hc. unfold far.
  destruct (nth_error F a) as [ra|] eqn:Ea; [|apply nth_error_None in Ea; lia].
  assert (Ga : geti F a = Ok ra) by (apply geti_ok; exact Ea). rewrite Ga. cbn [rbind].
  destruct (@mapR_ok _ _ (geti F) chosen) as [rs Ers].
  { intros c Hin. destruct (nth_error F c) as [rc|] eqn:Ec; [exists rc; apply geti_ok; exact Ec|].
    apply nth_error_None in Ec. apply Hc in Hin. lia. }
  rewrite Ers. cbn [rbind]. eexists. split; [reflexivity|]. destruct (mapR_nth _ _ Ers) as [L N].
  rewrite forallb_forall. split.
  - intros H c Hin. apply In_nth_error in Hin. destruct Hin as [k Ek].
    destruct (nth_error rs k) as [rc|] eqn:Erk.
    + pose proof Erk as Erk'. apply N in Erk'. destruct Erk' as [c' [Ec' Gc]]. assert (c' = c) by congruence. subst c'.
      apply geti_ok in Gc. unfold close_rows. rewrite Ea, Gc.
      specialize (H rc (nth_error_In _ _ Erk)). apply negb_true_iff in H. exact H.
    + apply nth_error_None in Erk. assert (k < length chosen)%nat by (apply nth_error_Some; congruence). lia.
  - intros H rc Hin. apply In_nth_error in Hin. destruct Hin as [k Ek]. apply N in Ek.
    destruct Ek as [c [Ec Gc]]. apply geti_ok in Gc. apply negb_true_iff.
    specialize (H c (nth_error_In _ _ Ec)). unfold close_rows in H. rewrite Ea, Gc in H. exact H.
Qed.

Definition mem (g : list nat) (c : nat) : bool := existsb (Nat.eqb c) g.
Lemma mem_In : forall g c, mem g c = true <-> In c g.
Proof.
  intros g c. unfold mem. rewrite existsb_exists. split.
  - intros [x [H E]]. apply Nat.eqb_eq in E. subst x. exact H.
  - intros H. exists c. split; [exact H|apply Nat.eqb_refl].
Qed.

Lemma choose_spec : forall F t cc rest chosen,
  (0 < length chosen <= cc)%nat ->
  (forall c, In c chosen -> (c < length F)%nat) -> (forall c, In c rest -> (c < length F)%nat) -> NoDup rest ->
  exists g idx, choose tooclose F t cc (length rest) rest chosen = Ok idx /\
    (exists keep, g = filter keep rest) /\ (length (chosen ++ g) <= cc)%nat /\
    (forall pre a post, rest = pre ++ a :: post ->
       let taken := chosen ++ filter (mem g) pre in
       (length taken < cc)%nat -> (In a g <-> forall c, In c taken -> close_rows F t a c = false)) /\
    length idx = cc /\ (forall j, (j < cc)%nat -> nth_error idx j = nth_error (chosen ++ g) (j mod length (chosen ++ g))).
Proof.
  intros F t cc rest. induction rest as [|a rest IH]; intros chosen Hl Hc Hr Hnd.
  - exists []. cbn [length choose]. rewrite app_nil_r.
    destruct (Nat.ltb_spec (length chosen) cc) as [Hlt|Hge].
    + destruct (@mapR_ok _ _ (fun j => geti chosen (j mod length chosen)) (seq (length chosen) (cc - length chosen))) as [more Em].
      { intros j _. assert (j mod length chosen < length chosen)%nat by (apply Nat.mod_upper_bound; lia).
        destruct (nth_error chosen (j mod length chosen)) as [x|] eqn:Ex; [exists x; apply geti_ok; exact Ex|].
        apply nth_error_None in Ex. lia. }
      rewrite Em. cbn [rbind]. eexists. split; [reflexivity|]. destruct (mapR_nth _ _ Em) as [Lm Nm]. rewrite seq_length in Lm.
      split; [exists (fun _ => true); reflexivity|]. split; [lia|].
      split; [intros pre x post E; destruct pre; discriminate|].
      split; [rewrite app_length; lia|]. intros j Hj.
      destruct (Nat.lt_ge_cases j (length chosen)) as [H1|H1].
      * rewrite nth_error_app1 by exact H1. rewrite Nat.mod_small by exact H1. reflexivity.
      * rewrite nth_error_app2 by exact H1.
        destruct (nth_error more (j - length chosen)) as [x|] eqn:Ex; [|apply nth_error_None in Ex; lia].
        apply Nm in Ex. destruct Ex as [j' [Ej Gj]]. apply geti_ok in Gj.
        assert (j' = j).
        { assert (K : nth_error (seq (length chosen) (cc - length chosen)) (j - length chosen) = Some (length chosen + (j - length chosen))%nat).
          { rewrite nth_error_nth' with (d := 0%nat) by (rewrite seq_length; lia). rewrite seq_nth by lia. reflexivity. }
          rewrite K in Ej. injection Ej as <-. lia. }
        subst j'. symmetry. exact Gj.
    + eexists. split; [reflexivity|]. split; [exists (fun _ => true); reflexivity|]. split; [lia|].
      split; [intros pre x post E; destruct pre; discriminate|].
      split; [lia|]. intros j Hj. rewrite Nat.mod_small by lia. reflexivity.
  - cbn [length choose]. destruct (Nat.ltb_spec (length chosen) cc) as [Hlt|Hge].
    + destruct (@far_ok F t a chosen) as [b [Eb Hb]]; [apply Hr; left; reflexivity|exact Hc|].
      rewrite Eb. cbn [rbind]. inversion Hnd; subst.
      destruct (IH (if b then chosen ++ [a] else chosen)) as [g [idx [E1 [[keep Ek] [E3 [E4 [E5 E6]]]]]]].
      * destruct b; [rewrite app_length; simpl|]; lia.
      * intros c Hin. destruct b; [|auto]. apply in_app_or in Hin. destruct Hin as [Hin|[<-|[]]]; [auto|]. apply Hr. left. reflexivity.
      * intros c Hin. apply Hr. right. exact Hin.
      * assumption.
      * assert (Hga : ~ In a g) by (intros K; rewrite Ek in K; apply filter_In in K; tauto).
        exists (if b then a :: g else g), idx. split; [exact E1|].
        assert (Eapp : (if b then chosen ++ [a] else chosen) ++ g = chosen ++ (if b then a :: g else g)).
        { destruct b; [rewrite <- app_assoc; reflexivity|reflexivity]. }
        rewrite Eapp in *. split.
        { exists (fun i => if (i =? a)%nat then b else keep i). cbn [filter]. rewrite Nat.eqb_refl.
          assert (Efil : filter (fun i => if (i =? a)%nat then b else keep i) rest = g).
          { rewrite Ek. apply filter_ext_in. intros i Hi. destruct (Nat.eqb_spec i a) as [->|]; [contradiction|reflexivity]. }
          rewrite Efil. destruct b; reflexivity. }
        split; [exact E3|]. split; [|split; assumption].
        intros pre x post E. destruct pre as [|y pre]; simpl in E; injection E as <- E.
        -- cbn [filter]. rewrite app_nil_r. cbv zeta. intros _. rewrite <- Hb. destruct b.
           ++ split; [reflexivity|]. intros _. left. reflexivity.
           ++ split; [intros K; contradiction|discriminate].
        -- cbv zeta. assert (Hpre : ~ In a pre).
           { intros K. apply H1. rewrite E. apply in_or_app. left. exact K. }
           assert (Hxa : x <> a).
           { intros ->. apply H1. rewrite E. apply in_or_app. right. left. reflexivity. }
           assert (Ef : filter (mem (if b then a :: g else g)) (a :: pre) = (if b then [a] else []) ++ filter (mem g) pre).
           { cbn [filter]. destruct b.
             - replace (mem (a :: g) a) with true by (symmetry; apply mem_In; left; reflexivity). cbn [app]. f_equal.
               apply filter_ext_in. intros i Hi. unfold mem. cbn [existsb]. destruct (Nat.eqb_spec i a) as [->|]; [contradiction|reflexivity].
             - destruct (mem g a) eqn:Em; [apply mem_In in Em; contradiction|]. reflexivity. }
           rewrite Ef, app_assoc. intros Hlen.
           assert (Eq : chosen ++ (if b then [a] else []) = (if b then chosen ++ [a] else chosen))
             by (destruct b; [reflexivity|apply app_nil_r]).
           rewrite Eq in *. rewrite <- (E4 pre x post E Hlen). destruct b; [|reflexivity]. simpl. split; [intros [K|K]; [congruence|exact K]|auto].
    + exists [], chosen. split; [reflexivity|]. split; [exists (fun _ => false); clear; induction rest; auto|].
      rewrite app_nil_r. split; [lia|]. split.
      { intros pre x post E. cbv zeta. rewrite app_length. intros K. lia. }
      split; [lia|]. intros j Hj. rewrite Nat.mod_small by lia. reflexivity.
Qed.

(** Choosing from the whole order. *)
Lemma choose_greedy : forall F t cc i0 rest, (0 < cc)%nat ->
  (forall c, In c (i0 :: rest) -> (c < length F)%nat) -> NoDup (i0 :: rest) ->
  exists g idx, choose tooclose F t cc (length rest) rest [i0] = Ok idx /\
    greedy (close_rows F t) cc (i0 :: rest) g /\ cyclic g idx cc.
Proof.
  intros F t cc i0 rest Hcc Hin Hnd. inversion Hnd; subst.
  destruct (@choose_spec F t cc rest [i0]) as [g [idx [E1 [[keep Ek] [E3 [E4 [E5 E6]]]]]]].
  - simpl. lia.
  - intros c [<-|[]]. apply Hin. left. reflexivity.
  - intros c Hc. apply Hin. right. exact Hc.
  - assumption.
  - exists (i0 :: g), idx. split; [exact E1|]. split; [|split; [exact E5|exact E6]].
    assert (Hgi : ~ In i0 g) by (intros K; rewrite Ek in K; apply filter_In in K; tauto).
    split; [|split; [exact E3|]].
    + exists (fun i => if (i =? i0)%nat then true else keep i). cbn [filter]. rewrite Nat.eqb_refl. f_equal.
      rewrite Ek. apply filter_ext_in. intros i Hi. destruct (Nat.eqb_spec i i0) as [->|]; [contradiction|reflexivity].
    + intros pre a post E. destruct pre as [|y pre]; simpl in E; injection E as <- E.
      * cbn [filter]. cbv zeta. intros _. split; [intros _ c []|]. intros _. left. reflexivity.
      * assert (Hpre : ~ In i0 pre) by (intros K; apply H1; rewrite E; apply in_or_app; left; exact K).
        assert (Ha : a <> i0) by (intros ->; apply H1; rewrite E; apply in_or_app; right; left; reflexivity).
        assert (Ef : filter (fun c => existsb (Nat.eqb c) (i0 :: g)) (i0 :: pre) = [i0] ++ filter (mem g) pre).
        { cbn [filter existsb]. rewrite Nat.eqb_refl. cbn [orb app]. f_equal. apply filter_ext_in. intros i Hi.
          destruct (Nat.eqb_spec i i0) as [->|]; [contradiction|reflexivity]. }
        rewrite Ef. cbv zeta. intros Hlen. specialize (E4 pre a post E). cbv zeta in E4. rewrite <- (E4 Hlen). split.
        -- intros [K|K]; [congruence|exact K].
        -- intros K. right. exact K.
Qed.
End Sort.
