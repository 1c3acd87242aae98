(** * Lemmas about the methods of the SOP model. *)
From Coq Require Import List Arith ZArith Lia Bool QArith Qpower Permutation.
From Verif Require Import Base PyList Strategy SRBF Pareto ParetoProofs SOP.
Import ListNotations.

Set Implicit Arguments.

Lemma vlt_ltb_ok : ltb_ok vlt.
Proof.
  split.
  - intros [q|]; [|reflexivity]. simpl. unfold Qlt_b. rewrite (proj2 (Qle_bool_iff q q)); [reflexivity|apply Qle_refl].
  - intros [a|] [b|] [c|]; simpl; try discriminate; auto.
    unfold Qlt_b. rewrite !negb_true_iff. intros H1 H2.
    destruct (Qle_bool c a) eqn:E; [|reflexivity]. apply Qle_bool_iff in E.
    assert (K1 : (a < b)%Q).
    { apply Qnot_le_lt. intros K. apply Qle_bool_iff in K. congruence. }
    assert (K2 : (b < c)%Q).
    { apply Qnot_le_lt. intros K. apply Qle_bool_iff in K. congruence. }
    exfalso. apply (Qlt_not_le a c); [|exact E]. eapply Qlt_trans; eauto.
Qed.

Section Methods.
Variable P : Type.
Variable peqb : P -> P -> bool.
Variable dist : P -> P -> Q.
Variable tooclose : P -> P -> nat -> Q -> bool.
Variables (ncenters : Z) (async : bool) (max_evals : Z) (num_exp : nat).
Notation sop := (sop P).
Notation srec := (srec P).
Notation scen := (scen P).
Notation frow := (frow P).
Notation base := (base P val).

Definition xf (r : srec) : P * val := (r_x r, r_fx r).

(** Entry in range: at most three failures, tabu count at most five, radius 0.2*2^-nfail. *)
Definition mem_ok (r : srec) : Prop :=
  (r_nfail r <= 3)%nat /\ (r_ntabu r <= 5)%nat /\ (r_sigma r == r_max * (1 # 2) ^ Z.of_nat (r_nfail r))%Q.

(** The same without the bound on failures (in the middle of adjust_memory). *)
Definition mem_mid (r : srec) : Prop :=
  (r_ntabu r <= 5)%nat /\ (r_sigma r == r_max * (1 # 2) ^ Z.of_nat (r_nfail r))%Q.

Lemma new_rec_ok : forall x v, mem_ok (new_rec x v).
Proof. intros. split; [simpl; lia|]. split; [simpl; lia|]. simpl. reflexivity. Qed.

Lemma fail_rec_mid : forall r, mem_mid r -> mem_mid (fail_rec r).
Proof.
  intros r [H1 H2]. split; [exact H1|]. cbn [fail_rec r_nfail r_sigma]. rewrite H2.
  rewrite Nat2Z.inj_succ, <- Z.add_1_r. rewrite Qpower_plus by (intros K; discriminate K).
  simpl (_ ^ 1)%Q. unfold Qdiv. rewrite <- Qmult_assoc. reflexivity.
Qed.

Lemma tenure_mid : forall r, mem_mid r -> mem_mid (tenure r).
Proof.
  intros r [H1 H2]. unfold tenure. destruct (0 <? r_ntabu r)%nat; [|split; assumption].
  destruct (Nat.ltb_spec (r_ntabu r) 5).
  - split; [simpl; lia|exact H2].
  - split; [simpl; lia|]. simpl. reflexivity.
Qed.

Lemma tabu_rec_mid : forall r, mem_mid r -> mem_mid (if (3 <? r_nfail r)%nat then tabu_rec r else r).
Proof. intros r H. destruct (3 <? r_nfail r)%nat; [|exact H]. split; simpl; [lia|reflexivity]. Qed.

Lemma update_F_ok : forall (s : base) (e : sop) F, update_F s e = Ok F ->
  num_evals s = Z.of_nat (length (s_evals e)) /\ s_evals e <> [] /\
  F = map (fun r => mkRow (r_x r) (r_fx r) 0%Q (r_ntabu r) None (r_nfail r)) (s_evals e).
Proof.
  intros s e F H. unfold update_F in H.
  destruct ((num_evals s =? Z.of_nat (length (s_evals e)))%Z && negb (length (s_evals e) =? 0)%nat) eqn:E; [|discriminate].
  injection H as <-. apply andb_true_iff in E. destruct E as [E1 E2]. split; [apply Z.eqb_eq; exact E1|].
  split; [|reflexivity]. intros K. rewrite K in E2. discriminate.
Qed.

Lemma update_F_total : forall (s : base) (e : sop),
  num_evals s = Z.of_nat (length (s_evals e)) -> s_evals e <> [] -> exists F, update_F s e = Ok F.
Proof.
  intros s e H1 H2. unfold update_F. rewrite H1, Z.eqb_refl.
  destruct (s_evals e); [congruence|]. simpl. eauto.
Qed.

(** What update_ranks computes: the objectives of entry i are its value and minus its distance to
    the nearest other point. *)
Definition objectives (evals : list srec) (ds : list Q) : list (list val) :=
  map (fun rd : srec * Q => [r_fx (fst rd); Fin (- snd rd)]) (combine evals ds).

Lemma update_ranks_ok : forall (s : base) (e : sop) F, update_ranks dist s e = Ok F ->
  exists ds ranks,
    mapR (fun r => nearest dist (r_x r) (map (@r_x P) (s_evals e))) (s_evals e) = Ok ds /\
    nd_sorting vlt (objectives (s_evals e) ds) 100 = Some (Ok ranks) /\
    length ds = length (s_evals e) /\ length ranks = length (s_evals e) /\
    num_evals s = Z.of_nat (length (s_evals e)) /\ s_evals e <> [] /\
    length F = length (s_evals e) /\
    forall k r d rk, nth_error (s_evals e) k = Some r -> nth_error ds k = Some d ->
      nth_error ranks k = Some rk ->
      nth_error F k = Some (mkRow (r_x r) (r_fx r) (- d)%Q (r_ntabu r) rk (r_nfail r)).
Proof.
  intros s e F H. unfold update_ranks in H. apply rbind_ok in H. destruct H as [F0 [E0 H]].
  apply update_F_ok in E0. destruct E0 as [N [Hne ->]].
  apply rbind_ok in H. destruct H as [ds [Ed H]].
  set (g := fun r : srec => mkRow (r_x r) (r_fx r) 0%Q (r_ntabu r) None (r_nfail r)) in *.
  assert (Ed' : mapR (fun r => nearest dist (r_x r) (map (@r_x P) (s_evals e))) (s_evals e) = Ok ds).
  { assert (Ex : map (@w_x P) (map g (s_evals e)) = map (@r_x P) (s_evals e)) by (rewrite map_map; reflexivity).
    rewrite Ex in Ed. revert Ed. unfold g. generalize (map (@r_x P) (s_evals e)). intros xs.
    generalize (s_evals e). clear. intros l. revert ds. induction l as [|a l IH]; intros ds H; simpl in *; [exact H|].
    destruct (nearest dist (r_x a) xs); simpl in *; [|discriminate].
    apply rbind_ok in H. destruct H as [r [H1 H2]]. rewrite (IH _ H1). exact H2. }
  destruct (mapR_nth _ _ Ed') as [Ld _].
  assert (Eo : map (fun rd : frow * Q => [w_fx (fst rd); Fin (- snd rd)]) (combine (map g (s_evals e)) ds) =
               objectives (s_evals e) ds).
  { unfold objectives. clear. revert ds. generalize (s_evals e). intros l. induction l as [|a l IH]; intros [|d ds]; try reflexivity.
    simpl. rewrite IH. reflexivity. }
  rewrite Eo in H. destruct (nd_sorting vlt (objectives (s_evals e) ds) 100) as [[ranks|]|] eqn:En; try discriminate.
  injection H as <-. exists ds, ranks. split; [exact Ed'|]. split; [exact En|]. split; [exact Ld|].
  assert (Lr : length ranks = length (s_evals e)).
  { assert (HM : matrix 2 (objectives (s_evals e) ds)).
    { split; [lia|]. apply Forall_forall. intros c Hc. unfold objectives in Hc. apply in_map_iff in Hc.
      destruct Hc as [rd [<- _]]. reflexivity. }
    assert (Lo : length (objectives (s_evals e) ds) = length (s_evals e)).
    { unfold objectives. rewrite map_length, combine_length. lia. }
    assert (R0 : forall p, rank_of (repeat None (length (objectives (s_evals e) ds))) p = None).
    { intros p. unfold rank_of. destruct (nth_error _ p) as [x|] eqn:E; [|reflexivity].
      apply nth_error_In, repeat_spec in E. exact E. }
    unfold nd_sorting in En. pose proof En as En'.
    destruct (@sort_loop_spec val vlt vlt_ltb_ok 2 _ HM (S (length (objectives (s_evals e) ds))) 100%Z (seq 0 (length (objectives (s_evals e) ds))) 1 0 (repeat None (length (objectives (s_evals e) ds))))
      as [r [i' [P' [E [[HL _] _]]]]].
    - rewrite seq_length. lia.
    - split; [apply repeat_length|]. split; [lia|]. split; [apply seq_NoDup|]. split.
      { intros p. rewrite in_seq, R0. split; intros; [split; [lia|reflexivity]|lia]. }
      split; [intros p q K; rewrite R0 in K; discriminate|].
      split; [intros p q K; rewrite R0 in K; discriminate|].
      split; [intros p q k K; rewrite R0 in K; discriminate|].
      intros; lia.
    - rewrite seq_length. reflexivity.
    - rewrite E in En'. injection En' as ->. congruence. }
  split; [exact Lr|]. split; [exact N|]. split; [exact Hne|]. split.
  - rewrite map_length, !combine_length, map_length. lia.
  - intros k r d rk E1 E2 E3. rewrite nth_error_map.
    assert (E4 : nth_error (combine (combine (map g (s_evals e)) ds) ranks) k = Some ((g r, d), rk)).
    { revert E1 E2 E3. clear. revert ds ranks k. generalize (s_evals e). intros l.
      induction l as [|a l IH]; intros [|d0 ds] [|r0 ranks] [|k] E1 E2 E3; simpl in *; try discriminate.
      - injection E1 as ->. injection E2 as ->. injection E3 as ->. reflexivity.
      - eauto. }
    rewrite E4. reflexivity.
Qed.

(** update_ranks succeeds as soon as two archived points are at non-zero distance. *)
Definition separated (evals : list srec) : Prop :=
  forall r, In r evals -> exists r', In r' evals /\ ~ (dist (r_x r) (r_x r') == 0)%Q.

Lemma update_ranks_total : forall (s : base) (e : sop),
  num_evals s = Z.of_nat (length (s_evals e)) -> s_evals e <> [] -> separated (s_evals e) ->
  exists F, update_ranks dist s e = Ok F.
Proof.
  intros s e H1 H2 H3. unfold update_ranks. unfold update_F. rewrite H1, Z.eqb_refl.
  assert (E : negb (length (s_evals e) =? 0)%nat = true) by (destruct (s_evals e); [congruence|reflexivity]).
  rewrite E. cbn [andb rbind].
  set (g := fun r : srec => mkRow (r_x r) (r_fx r) 0%Q (r_ntabu r) None (r_nfail r)).
  destruct (@mapR_ok _ _ (fun r : frow => nearest dist (w_x r) (map (@w_x P) (map g (s_evals e)))) (map g (s_evals e))) as [ds Ed].
  { intros w Hw. apply in_map_iff in Hw. destruct Hw as [r [<- Hr]]. destruct (H3 r Hr) as [r' [Hr' Hd]].
    unfold nearest. destruct (nonzero_dists dist (w_x (g r)) (map (@w_x P) (map g (s_evals e)))) as [|q l] eqn:En; [|eauto].
    exfalso. unfold nonzero_dists in En.
    assert (K : In (dist (r_x r) (r_x r')) (filter (fun q => negb (Qeq_bool q 0)) (map (dist (w_x (g r))) (map (@w_x P) (map g (s_evals e)))))).
    { apply filter_In. split.
      - apply in_map. rewrite map_map. apply in_map_iff. exists r'. split; [reflexivity|exact Hr'].
      - apply negb_true_iff. destruct (Qeq_bool (dist (r_x r) (r_x r')) 0) eqn:Eq; [|reflexivity].
        apply Qeq_bool_iff in Eq. contradiction. }
    rewrite En in K. destruct K. }
  rewrite Ed. cbn [rbind].
  set (objs := map (fun rd : frow * Q => [w_fx (fst rd); Fin (- snd rd)]) (combine (map g (s_evals e)) ds)).
  assert (HM : matrix 2 objs).
  { split; [lia|]. apply Forall_forall. intros c Hc. unfold objs in Hc. apply in_map_iff in Hc.
    destruct Hc as [rd [<- _]]. reflexivity. }
  assert (R0 : forall p, rank_of (repeat None (length objs)) p = None).
  { intros p. unfold rank_of. destruct (nth_error _ p) as [x|] eqn:Ex; [|reflexivity].
    apply nth_error_In, repeat_spec in Ex. exact Ex. }
  destruct (@sort_loop_spec val vlt vlt_ltb_ok 2 _ HM (S (length objs)) 100%Z (seq 0 (length objs)) 1 0 (repeat None (length objs)))
      as [r [i' [P' [Es _]]]].
  - rewrite seq_length. lia.
  - split; [apply repeat_length|]. split; [lia|]. split; [apply seq_NoDup|]. split.
    { intros p. rewrite in_seq, R0. split; intros; [split; [lia|reflexivity]|lia]. }
    split; [intros p q K; rewrite R0 in K; discriminate|].
    split; [intros p q K; rewrite R0 in K; discriminate|].
    split; [intros p q k K; rewrite R0 in K; discriminate|].
    intros; lia.
  - rewrite seq_length. reflexivity.
  - unfold nd_sorting. rewrite Es. eauto.
Qed.

(** ** adjust_memory *)
Definition failing (F : list frow) (cn : scen) : bool :=
  match n_newidx cn with
  | None => false
  | Some k => match nth_error F k with
              | Some row => match w_rank row with Some 1%nat => false | _ => true end
              | None => false
              end
  end.

(** The centers processed by adjust_memory. *)
Fixpoint pick (centers : list scen) (is : list nat) : list scen :=
  match is with
  | [] => []
  | i :: is' => match nth_error centers i with Some cn => cn :: pick centers is' | None => pick centers is' end
  end.

Definition fails_at (F : list frow) (cs : list scen) (k : nat) : nat :=
  length (filter (fun cn => failing F cn && (n_index cn =? k)%nat) cs).

Fixpoint fail_n (n : nat) (r : srec) : srec := match n with O => r | S n' => fail_rec (fail_n n' r) end.
Lemma fail_n_S : forall n r, fail_n n (fail_rec r) = fail_rec (fail_n n r).
Proof. induction n as [|n IH]; intros r; simpl; [reflexivity|rewrite IH; reflexivity]. Qed.

Lemma judge_all_ok : forall F centers is evals r, judge_all F centers evals is = Ok r ->
  length r = length evals /\ length (pick centers is) = length is /\
  (forall cn, In cn (pick centers is) -> exists k row, n_newidx cn = Some k /\ nth_error F k = Some row) /\
  forall k, nth_error r k = option_map (fail_n (fails_at F (pick centers is) k)) (nth_error evals k).
Proof.
  intros F centers is. induction is as [|i is IH]; intros evals r H; simpl in H.
  - injection H as <-. split; [reflexivity|]. split; [reflexivity|]. split; [intros cn []|].
    intros k. simpl. destruct (nth_error evals k); reflexivity.
  - apply rbind_ok in H. destruct H as [ev [H1 H2]]. destruct (IH _ _ H2) as [L2 [L3 [C2 N2]]].
    unfold judge in H1. apply rbind_ok in H1. destruct H1 as [cp [Hc H1]]. apply geti_ok in Hc.
    simpl pick. rewrite Hc. destruct (n_newidx cp) as [k0|] eqn:Ek; [|discriminate].
    apply rbind_ok in H1. destruct H1 as [row [Hr H1]]. apply geti_ok in Hr.
    assert (Ef : failing F cp = match w_rank row with Some 1%nat => false | _ => true end).
    { unfold failing. rewrite Ek, Hr. reflexivity. }
    assert (Hn : length ev = length evals /\ forall k, nth_error ev k =
      if failing F cp && (n_index cp =? k)%nat then option_map (@fail_rec P) (nth_error evals k) else nth_error evals k).
    { rewrite Ef. destruct (w_rank row) as [[|[|]]|].
      - destruct (upd_nth _ _ _ H1) as [U1 [_ U2]]. split; [exact U1|]. intros k. rewrite U2, Nat.eqb_sym. simpl. reflexivity.
      - injection H1 as <-. split; [reflexivity|]. intros k. reflexivity.
      - destruct (upd_nth _ _ _ H1) as [U1 [_ U2]]. split; [exact U1|]. intros k. rewrite U2, Nat.eqb_sym. simpl. reflexivity.
      - destruct (upd_nth _ _ _ H1) as [U1 [_ U2]]. split; [exact U1|]. intros k. rewrite U2, Nat.eqb_sym. simpl. reflexivity. }
    destruct Hn as [L1 N1]. split; [congruence|]. split; [simpl; congruence|]. split.
    + intros cn [<-|Hin]; [eauto|]. apply C2. exact Hin.
    + intros k. rewrite N2, N1. unfold fails_at. cbn [filter].
      destruct (failing F cp && (n_index cp =? k)%nat); [|reflexivity].
      cbn [length]. destruct (nth_error evals k) as [r0|]; [|reflexivity]. cbn [option_map fail_n].
      rewrite fail_n_S. reflexivity.
Qed.

Lemma judge_all_total : forall (F : list frow) (centers : list scen) is (evals : list srec),
  (forall i, In i is -> exists cn k row, nth_error centers i = Some cn /\ n_newidx cn = Some k /\
     nth_error F k = Some row /\ (n_index cn < length evals)%nat) ->
  exists r, judge_all F centers evals is = Ok r.
Proof.
  intros F centers is. induction is as [|i is IH]; intros evals H; simpl; [eauto|].
  destruct (H i (or_introl eq_refl)) as [cn [k [row [E1 [E2 [E3 E4]]]]]].
  assert (G : exists ev, judge F centers evals i = Ok ev /\ length ev = length evals).
  { unfold judge. apply geti_ok in E1. rewrite E1. cbn [rbind]. rewrite E2. apply geti_ok in E3. rewrite E3. cbn [rbind].
    destruct (w_rank row) as [[|[|n]]|]; try (exists evals; split; reflexivity);
      destruct (@upd_total _ evals (n_index cn) (@fail_rec P) E4) as [r Er]; exists r; split; auto;
      destruct (upd_nth _ _ _ Er) as [L _]; exact L. }
  destruct G as [ev [-> L]]. cbn [rbind]. apply IH. intros j Hj. rewrite L. apply H. right. exact Hj.
Qed.

Lemma tenure_all_ok : forall n evals r, tenure_all n evals = Ok r -> n = length evals -> r = map (@tenure P) evals.
Proof.
  intros n evals r H ->. unfold tenure_all in H. rewrite Nat.leb_refl in H. injection H as <-.
  rewrite firstn_all, skipn_all, app_nil_r. reflexivity.
Qed.

Definition tabu_if (r : srec) : srec := if (3 <? r_nfail r)%nat then tabu_rec r else r.
Lemma tabu_if_idem : forall r, tabu_if (tabu_if r) = tabu_if r.
Proof. intros r. unfold tabu_if. destruct (3 <? r_nfail r)%nat eqn:E; [reflexivity|]. rewrite E. reflexivity. Qed.

Definition touched (cs : list scen) (k : nat) : bool := existsb (fun cn => (n_index cn =? k)%nat) cs.

Lemma to_tabu_all_ok : forall centers is evals r, to_tabu_all centers evals is = Ok r ->
  length r = length evals /\
  forall k, nth_error r k = option_map (fun x => if touched (pick centers is) k then tabu_if x else x) (nth_error evals k).
Proof.
  intros centers is. induction is as [|i is IH]; intros evals r H; simpl in H.
  - injection H as <-. split; [reflexivity|]. intros k. simpl. destruct (nth_error evals k); reflexivity.
  - apply rbind_ok in H. destruct H as [ev [H1 H2]]. destruct (IH _ _ H2) as [L2 N2].
    unfold to_tabu in H1. apply rbind_ok in H1. destruct H1 as [cp [Hc H1]]. apply geti_ok in Hc.
    destruct (upd_nth _ _ _ H1) as [L1 [_ N1]]. split; [congruence|].
    intros k. rewrite N2, N1. simpl pick. rewrite Hc. unfold touched. cbn [existsb].
    rewrite (Nat.eqb_sym (n_index cp) k). destruct (k =? n_index cp)%nat; cbn [orb].
    + destruct (nth_error evals k) as [x|]; [|reflexivity]. cbn [option_map]. fold (tabu_if x).
      destruct (existsb _ _); [rewrite tabu_if_idem|]; reflexivity.
    + reflexivity.
Qed.

Lemma to_tabu_all_total : forall (centers : list scen) is (evals : list srec),
  (forall i, In i is -> exists cn, nth_error centers i = Some cn /\ (n_index cn < length evals)%nat) ->
  exists r, to_tabu_all centers evals is = Ok r.
Proof.
  intros centers is. induction is as [|i is IH]; intros evals H; simpl; [eauto|].
  destruct (H i (or_introl eq_refl)) as [cn [E1 E2]]. unfold to_tabu.
  pose proof E1 as E1'. apply geti_ok in E1'. rewrite E1'. cbn [rbind].
  destruct (@upd_total _ evals (n_index cn) (fun r => if (3 <? r_nfail r)%nat then tabu_rec r else r) E2) as [r Er].
  rewrite Er. cbn [rbind]. apply IH. intros j Hj. destruct (upd_nth _ _ _ Er) as [L _]. rewrite L.
  apply H. right. exact Hj.
Qed.

(** The new content of entry [k] after adjust_memory processed the centers [cs]. *)
Definition aged (F : list frow) (cs : list scen) (k : nat) (r : srec) : srec :=
  let r := tenure (fail_n (fails_at F cs k) r) in
  if touched cs k then tabu_if r else r.

Definition indices (index : option nat) : list nat :=
  match index with None => seq 0 (Z.to_nat ncenters) | Some i => [i] end.

Lemma adjust_memory_ok : forall index (s : base) (e e' : sop),
  adjust_memory dist ncenters index s e = Ok e' ->
  exists F, update_ranks dist s e = Ok F /\
    s_centers e' = s_centers e /\ length (s_evals e') = length (s_evals e) /\
    length (pick (s_centers e) (indices index)) = length (indices index) /\
    (forall cn, In cn (pick (s_centers e) (indices index)) ->
       exists k row, n_newidx cn = Some k /\ nth_error F k = Some row) /\
    (forall k, nth_error (s_evals e') k =
       option_map (aged F (pick (s_centers e) (indices index)) k) (nth_error (s_evals e) k)) /\
    s_F e' = Some (map (fun r => mkRow (r_x r) (r_fx r) 0%Q (r_ntabu r) None (r_nfail r)) (s_evals e')).
Proof.
  intros index s e e' H. unfold adjust_memory in H. fold (indices index) in H.
  apply rbind_ok in H. destruct H as [F [H1 H]]. apply rbind_ok in H. destruct H as [ev1 [H2 H]].
  apply rbind_ok in H. destruct H as [ev2 [H3 H]]. apply rbind_ok in H. destruct H as [ev3 [H4 H]].
  apply rbind_ok in H. destruct H as [F' [H5 H]]. injection H as <-.
  exists F. split; [exact H1|]. cbn [s_centers s_evals s_F].
  destruct (update_ranks_ok _ _ H1) as [ds [rk [_ [_ [_ [_ [N _]]]]]]].
  destruct (judge_all_ok _ _ _ _ H2) as [L1 [L1' [C1 N1]]].
  assert (H3' : ev2 = map (@tenure P) ev1) by (eapply tenure_all_ok; [exact H3|rewrite N, L1; lia]).
  destruct (to_tabu_all_ok _ _ _ H4) as [L3 N3].
  split; [reflexivity|]. split; [rewrite L3, H3', map_length; exact L1|]. split; [exact L1'|]. split; [exact C1|]. split.
  - intros k. rewrite N3, H3', nth_error_map, N1. destruct (nth_error (s_evals e) k); reflexivity.
  - apply update_F_ok in H5. destruct H5 as [_ [_ ->]]. reflexivity.
Qed.

Lemma xf_fail_n : forall n r, xf (fail_n n r) = xf r.
Proof. induction n as [|n IH]; intros r; [reflexivity|]. simpl. unfold xf in *. simpl. apply IH. Qed.
Lemma xf_tenure : forall r, xf (tenure r) = xf r.
Proof. intros r. unfold tenure. destruct (0 <? r_ntabu r)%nat; [destruct (r_ntabu r <? 5)%nat|]; reflexivity. Qed.
Lemma xf_tabu_if : forall r, xf (tabu_if r) = xf r.
Proof. intros r. unfold tabu_if. destruct (3 <? r_nfail r)%nat; reflexivity. Qed.
Lemma xf_aged : forall F cs k r, xf (aged F cs k r) = xf r.
Proof.
  intros. unfold aged. destruct (touched cs k); [rewrite xf_tabu_if|]; rewrite xf_tenure, xf_fail_n; reflexivity.
Qed.

Lemma map_nth_ext : forall A B (f g : A -> B) l l', length l = length l' ->
  (forall k a b, nth_error l k = Some a -> nth_error l' k = Some b -> f a = g b) -> map f l = map g l'.
Proof.
  intros A B f g l. induction l as [|a l IH]; intros [|b l'] HL H; simpl in *; try discriminate; [reflexivity|].
  f_equal; [apply (H O); reflexivity|]. apply IH; [congruence|]. intros k x y. apply (H (S k)).
Qed.

Lemma adjust_memory_xf : forall index (s : base) (e e' : sop),
  adjust_memory dist ncenters index s e = Ok e' -> map xf (s_evals e') = map xf (s_evals e).
Proof.
  intros index s e e' H. destruct (adjust_memory_ok _ _ _ H) as [F [_ [_ [L [_ [_ [N _]]]]]]].
  apply map_nth_ext; [exact L|]. intros k a b Ha Hb. rewrite N, Hb in Ha. injection Ha as <-. apply xf_aged.
Qed.

Lemma fail_n_mid : forall n r, mem_mid r -> mem_mid (fail_n n r).
Proof. induction n as [|n IH]; intros r H; [exact H|]. simpl. apply fail_rec_mid. auto. Qed.

Lemma fails_touched : forall F cs k, fails_at F cs k <> O -> touched cs k = true.
Proof.
  intros F cs k H. unfold touched, fails_at in *. apply existsb_exists.
  destruct (filter (fun cn => failing F cn && (n_index cn =? k)%nat) cs) as [|cn l] eqn:E; [simpl in H; congruence|].
  assert (In cn (filter (fun cn => failing F cn && (n_index cn =? k)%nat) cs)) as K by (rewrite E; left; reflexivity).
  apply filter_In in K. destruct K as [K1 K2]. apply andb_true_iff in K2. exists cn. tauto.
Qed.

Lemma aged_ok : forall F cs k r, mem_ok r -> mem_ok (aged F cs k r).
Proof.
  intros F cs k r [H1 [H2 H3]]. unfold aged.
  assert (M : mem_mid (tenure (fail_n (fails_at F cs k) r))) by (apply tenure_mid, fail_n_mid; split; assumption).
  destruct (touched cs k) eqn:Et.
  - pose proof (tabu_rec_mid M) as [M1 M2]. fold (tabu_if (tenure (fail_n (fails_at F cs k) r))) in M1, M2.
    split; [|split; assumption].
    unfold tabu_if. destruct (Nat.ltb_spec 3 (r_nfail (tenure (fail_n (fails_at F cs k) r)))); [simpl|]; lia.
  - destruct (Nat.eq_dec (fails_at F cs k) 0) as [E|E]; [|apply fails_touched in E; congruence].
    rewrite E in *. simpl in *. destruct M as [M1 M2]. split; [|split; assumption].
    unfold tenure. destruct (0 <? r_ntabu r)%nat; [destruct (r_ntabu r <? 5)%nat|]; simpl; lia.
Qed.

Lemma adjust_memory_mem : forall index (s : base) (e e' : sop),
  adjust_memory dist ncenters index s e = Ok e' -> Forall mem_ok (s_evals e) -> Forall mem_ok (s_evals e').
Proof.
  intros index s e e' H HF. destruct (adjust_memory_ok _ _ _ H) as [F [_ [_ [L [_ [_ [N _]]]]]]].
  rewrite Forall_forall in *. intros r Hr. apply In_nth_error in Hr. destruct Hr as [k Ek].
  rewrite N in Ek. destruct (nth_error (s_evals e) k) as [r0|] eqn:E0; [|discriminate]. injection Ek as <-.
  apply aged_ok. apply HF. eapply nth_error_In; eauto.
Qed.
End Methods.
