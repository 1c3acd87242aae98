(** * Proofs about non-dominated sorting (C24, C25). *)
From Coq Require Import List Arith ZArith Lia Bool Permutation.
From Verif Require Import Base PyList Pareto.
Import ListNotations.

Set Implicit Arguments.

(** ** Lists *)
Lemma py_remove_mid : forall x pre post, ~ In x pre -> py_remove x (pre ++ x :: post) = Ok (pre ++ post).
Proof.
  intros x pre. induction pre as [|y pre IH]; intros post H; simpl.
  - rewrite Nat.eqb_refl. reflexivity.
  - destruct (Nat.eqb_spec x y) as [->|E]; [exfalso; apply H; left; reflexivity|].
    rewrite IH; [reflexivity|]. intros K. apply H. right. exact K.
Qed.

Lemma nth_error_mid : forall A (pre : list A) x post, nth_error (pre ++ x :: post) (length pre) = Some x.
Proof. intros A pre. induction pre; intros; simpl; auto. Qed.

Section Proofs.
Variable V : Type.
Variable ltb : V -> V -> bool.
Hypothesis Hlt : ltb_ok ltb.

Lemma domination_Forall2 : forall a b, length a = length b ->
  (domination ltb a b = true <-> Forall2 (fun x y => ltb x y = true) a b).
Proof using.
  clear. intros a. induction a as [|x a IH]; intros [|y b] H; simpl in *; try discriminate.
  - split; auto.
  - rewrite andb_true_iff, (IH b) by congruence. split.
    + intros [K1 K2]. constructor; assumption.
    + intros K. inversion K; subst. auto.
Qed.

Section Fixed.
Variable M : nat.
Variable F : list (list V).
Hypothesis HM : matrix M F.

Notation beats := (beats ltb F).

Lemma beats_irr : forall i, ~ beats i i.
Proof.
  intros i [a [b [E1 [E2 K]]]]. assert (a = b) by congruence. subst b.
  destruct HM as [H1 H2]. rewrite Forall_forall in H2.
  assert (L : length a = M) by (apply H2; eapply nth_error_In; eauto).
  destruct a as [|x a]; simpl in L; [lia|]. inversion K; subst.
  destruct Hlt as [I _]. rewrite I in H4. discriminate.
Qed.

Lemma beats_trans : forall i j k, beats i j -> beats j k -> beats i k.
Proof.
  intros i j k [a [b [E1 [E2 K1]]]] [b' [c [E3 [E4 K2]]]]. assert (b = b') by congruence. subst b'.
  exists a, c. split; [assumption|]. split; [assumption|].
  clear E1 E2 E3 E4. revert c K2. induction K1; intros c K2; inversion K2; subst; constructor.
  - destruct Hlt as [_ T]. eapply T; eauto.
  - apply IHK1. assumption.
Qed.

Lemma dom_beats : forall i j a b, nth_error F i = Some a -> nth_error F j = Some b ->
  (domination ltb a b = true <-> beats i j).
Proof.
  intros i j a b E1 E2. destruct HM as [_ H2]. rewrite Forall_forall in H2.
  assert (La : length a = M) by (apply H2; eapply nth_error_In; eauto).
  assert (Lb : length b = M) by (apply H2; eapply nth_error_In; eauto).
  rewrite domination_Forall2 by congruence. split.
  - intros K. exists a, b. auto.
  - intros [a' [b' [E3 [E4 K]]]]. congruence.
Qed.

(** ** One point is added *)
Definition inv (n : nat) (ndf df : list nat) : Prop :=
  Permutation (ndf ++ df) (seq 0 n) /\
  (forall i, In i ndf -> forall k, k < n -> ~ beats k i) /\
  (forall i, In i df -> exists k, In k ndf /\ beats k i).

(** [pre] has been compared with [N], [rest] has not. *)
Lemma nd_loop_spec : forall n rest pre df0 df ndf0 Fn fuel,
  n < length F ->
  (forall k, k <= n -> nth_error Fn k = nth_error F k) ->
  inv n ndf0 df0 ->
  NoDup (pre ++ rest ++ [n]) ->
  (forall i, In i pre -> ~ beats i n /\ ~ beats n i) ->
  (exists dropped, df = df0 ++ dropped /\ Permutation ndf0 (pre ++ rest ++ dropped) /\
     forall i, In i dropped -> beats n i) ->
  length rest < fuel ->
  exists ndf' df', nd_loop ltb fuel Fn n (S (length pre)) (S (length pre + length rest)) df (pre ++ rest ++ [n])
                   = Some (Ok (ndf', df')) /\ inv (S n) ndf' df'.
Proof.
  intros n rest. induction rest as [|a rest IH];
    intros pre df0 df ndf0 Fn fuel Hn HF Hinv Hnd Hpre [dropped [Hdf [Hperm Hdr]]] Hfuel;
    destruct fuel as [|fuel]; try (simpl in Hfuel; lia).
  - cbn [nd_loop length]. rewrite Nat.add_0_r, Nat.ltb_irrefl.
    exists (pre ++ [] ++ [n]), df. split; [reflexivity|].
    destruct Hinv as [P1 [P2 P3]]. simpl app in *. subst df. split; [|split].
    + rewrite seq_S. simpl.
      rewrite <- P1, Hperm. rewrite <- !app_assoc.
      apply Permutation_app_head.
      transitivity (dropped ++ df0 ++ [n]).
      * simpl. transitivity ((df0 ++ dropped) ++ [n]); [apply Permutation_cons_append|].
        rewrite app_assoc. apply Permutation_app_tail. apply Permutation_app_comm.
      * rewrite app_assoc. reflexivity.
    + assert (Hin0 : forall i, In i pre -> In i ndf0).
      { intros i Hi. eapply Permutation_in; [symmetry; exact Hperm|]. apply in_or_app. auto. }
      intros i Hi k Hk B. apply in_app_or in Hi. destruct Hi as [Hi|[<-|[]]].
      * destruct (Nat.eq_dec k n) as [->|E].
        -- apply (proj2 (Hpre i Hi)). exact B.
        -- apply (P2 i (Hin0 i Hi) k); [lia|exact B].
      * assert (K : k <> n) by (intros ->; revert B; apply beats_irr).
        assert (Q : forall k, In k ndf0 -> beats k n -> False).
        { intros k' Hk' B'. eapply Permutation_in in Hk'; [|exact Hperm].
          apply in_app_or in Hk'. destruct Hk' as [Hk'|Hk'].
          - exact (proj1 (Hpre k' Hk') B').
          - apply (@beats_irr n). eapply beats_trans; [apply Hdr; exact Hk'|exact B']. }
        assert (Hk' : In k (ndf0 ++ df0)).
        { eapply Permutation_in; [symmetry; exact P1|]. apply in_seq. lia. }
        apply in_app_or in Hk'. destruct Hk' as [Hk'|Hk'].
        -- apply (Q k Hk' B).
        -- destruct (P3 k Hk') as [k2 [Hk2 B2]]. apply (Q k2 Hk2). eapply beats_trans; eauto.
    + assert (R : forall k, In k ndf0 -> In k pre \/ In k dropped).
      { intros k Hk. eapply Permutation_in in Hk; [|exact Hperm]. apply in_app_or. exact Hk. }
      intros i Hi. apply in_app_or in Hi. destruct Hi as [Hi|Hi].
      * destruct (P3 i Hi) as [k [Hk B]]. destruct (R k Hk) as [G|G].
        -- exists k. split; [apply in_or_app; auto|exact B].
        -- exists n. split; [apply in_or_app; right; left; reflexivity|].
           eapply beats_trans; [apply Hdr; exact G|exact B].
      * exists n. split; [apply in_or_app; right; left; reflexivity|]. apply Hdr. exact Hi.
  - cbn [nd_loop].
    assert (E : S (length pre) <? S (length pre + length (a :: rest)) = true).
    { apply Nat.ltb_lt. simpl. lia. }
    rewrite E. clear E.
    replace (S (length pre) - 1) with (length pre) by lia.
    assert (Ea : geti (pre ++ (a :: rest) ++ [n]) (length pre) = Ok a)
      by (apply geti_ok; simpl; apply nth_error_mid).
    rewrite Ea. cbn [rbind].
    destruct Hinv as [P1 [P2 P3]].
    assert (Ha0 : In a ndf0).
    { eapply Permutation_in; [symmetry; exact Hperm|]. apply in_or_app. right. left. reflexivity. }
    assert (Han : a < n).
    { assert (G : In a (ndf0 ++ df0)) by (apply in_or_app; auto).
      eapply Permutation_in in G; [|exact P1]. apply in_seq in G. lia. }
    destruct (nth_error F n) as [fn|] eqn:En; [|apply nth_error_None in En; lia].
    destruct (nth_error F a) as [fa|] eqn:Efa; [|apply nth_error_None in Efa; lia].
    assert (G1 : geti Fn n = Ok fn) by (apply geti_ok; rewrite HF by lia; exact En).
    assert (G2 : geti Fn a = Ok fa) by (apply geti_ok; rewrite HF by lia; exact Efa).
    rewrite G1, G2. cbn [rbind].
    destruct (domination ltb fn fa) eqn:D1.
    + assert (Bna : beats n a) by (apply (dom_beats n a En Efa); exact D1).
      assert (Hni : ~ In a pre).
      { intros G. apply NoDup_remove_2 in Hnd. apply Hnd. apply in_or_app. auto. }
      simpl app. rewrite py_remove_mid by exact Hni.
      replace (S (length pre + length (a :: rest)) - 1) with (S (length pre + length rest)) by (simpl; lia).
      apply IH with (df0 := df0) (ndf0 := ndf0).
      * exact Hn.
      * exact HF.
      * split; [exact P1|]. split; assumption.
      * apply NoDup_remove_1 in Hnd. exact Hnd.
      * exact Hpre.
      * exists (dropped ++ [a]). split; [subst df; rewrite app_assoc; reflexivity|]. split.
        -- rewrite Hperm. apply Permutation_app_head. simpl.
           rewrite app_assoc. apply Permutation_cons_append.
        -- intros i Hi. apply in_app_or in Hi. destruct Hi as [Hi|[<-|[]]]; auto.
      * simpl in Hfuel. lia.
    + assert (Bna : ~ beats n a).
      { intros B. apply (dom_beats n a En Efa) in B. congruence. }
      destruct (domination ltb fa fn) eqn:D2.
      * assert (Ban : beats a n) by (apply (dom_beats a n Efa En); exact D2).
        assert (Hdn : dropped = []).
        { destruct dropped as [|b dr]; [reflexivity|]. exfalso.
          assert (Hb0 : In b ndf0).
          { eapply Permutation_in; [symmetry; exact Hperm|].
            apply in_or_app. right. apply in_or_app. right. left. reflexivity. }
          apply (P2 b Hb0 a Han). eapply beats_trans; [exact Ban|]. apply Hdr. left. reflexivity. }
        subst dropped. rewrite app_nil_r in Hdf, Hperm. subst df.
        assert (Hrem : py_remove n (pre ++ (a :: rest) ++ [n]) = Ok (pre ++ a :: rest)).
        { replace (pre ++ (a :: rest) ++ [n]) with ((pre ++ a :: rest) ++ n :: [])
            by (rewrite <- app_assoc; reflexivity).
          rewrite py_remove_mid; [rewrite app_nil_r; reflexivity|].
          intros G. replace (pre ++ (a :: rest) ++ [n]) with ((pre ++ a :: rest) ++ n :: []) in Hnd
            by (rewrite <- app_assoc; reflexivity).
          apply NoDup_remove_2 in Hnd. apply Hnd. rewrite app_nil_r. exact G. }
        rewrite Hrem. eexists _, _. split; [reflexivity|]. split; [|split].
        -- rewrite seq_S. simpl. rewrite <- P1, <- Hperm, app_assoc. reflexivity.
        -- intros i Hi k Hk B.
           assert (Hi0 : In i ndf0) by (eapply Permutation_in; [symmetry; exact Hperm|exact Hi]).
           destruct (Nat.eq_dec k n) as [->|Ek]; [|apply (P2 i Hi0 k); [lia|exact B]].
           apply (P2 i Hi0 a Han). eapply beats_trans; eauto.
        -- intros i Hi. apply in_app_or in Hi. destruct Hi as [Hi|[<-|[]]].
           ++ destruct (P3 i Hi) as [k [Hk B]]. exists k. split; [|exact B].
              eapply Permutation_in; [exact Hperm|exact Hk].
           ++ exists a. split; [|exact Ban]. apply in_or_app. right. left. reflexivity.
      * assert (Ban : ~ beats a n).
        { intros B. apply (dom_beats a n Efa En) in B. congruence. }
        replace (pre ++ (a :: rest) ++ [n]) with ((pre ++ [a]) ++ rest ++ [n])
          by (rewrite <- !app_assoc; reflexivity).
        replace (S (S (length pre))) with (S (length (pre ++ [a]))) by (rewrite app_length; simpl; lia).
        replace (S (length pre + length (a :: rest))) with (S (length (pre ++ [a]) + length rest))
          by (rewrite app_length; simpl; lia).
        apply IH with (df0 := df0) (ndf0 := ndf0).
        -- exact Hn.
        -- exact HF.
        -- split; [exact P1|]. split; assumption.
        -- rewrite <- app_assoc. exact Hnd.
        -- intros i Hi. apply in_app_or in Hi. destruct Hi as [Hi|[<-|[]]]; auto.
        -- exists dropped. split; [exact Hdf|]. split; [|exact Hdr].
           rewrite <- app_assoc. exact Hperm.
        -- simpl in Hfuel. lia.
Qed.

Lemma front_loop_spec : forall len n ndf df,
  n + len = length F -> inv n ndf df ->
  exists ndf' df', front_loop ltb F (seq n len) df ndf = Some (Ok (ndf', df')) /\ inv (length F) ndf' df'.
Proof.
  intros len. induction len as [|len IH]; intros n ndf df E Hi.
  - simpl. rewrite Nat.add_0_r in E. subst n. eauto.
  - cbn [seq front_loop]. unfold nd_add.
    assert (L : length (firstn (S n) F) = S n) by (rewrite firstn_length; lia).
    rewrite L. replace (S n - 1) with n by lia.
    destruct (@nd_loop_spec n ndf [] df df ndf (firstn (S n) F) (S (S (length ndf)))) as [ndf' [df' [E1 I1]]].
    + lia.
    + intros k Hk. rewrite <- (firstn_skipn (S n) F) at 2. rewrite nth_error_app1 by lia. reflexivity.
    + exact Hi.
    + simpl. destruct Hi as [P1 _].
      assert (ND : NoDup (ndf ++ df ++ [n])).
      { rewrite app_assoc. eapply Permutation_NoDup.
        - symmetry. apply Permutation_app_tail. exact P1.
        - change [n] with [0 + n]. rewrite <- seq_S. apply seq_NoDup. }
      assert (ND2 : NoDup ((ndf ++ [n]) ++ df)).
      { eapply Permutation_NoDup; [|exact ND]. rewrite <- app_assoc. apply Permutation_app_head.
        apply Permutation_app_comm. }
      revert ND2. clear. revert ndf. intros l.
      generalize (l ++ [n]). intros m. induction m as [|x m IH]; intros H; [constructor|].
      simpl in H. inversion H; subst. constructor; [|auto].
      intros K. apply H2. apply in_or_app. auto.
    + intros i [].
    + exists []. rewrite app_nil_r. split; [reflexivity|]. split; [rewrite app_nil_r; reflexivity|].
      intros i [].
    + lia.
    + simpl length in E1. simpl app in E1. rewrite Nat.add_0_l in E1. rewrite E1.
      apply IH; [lia|exact I1].
Qed.

Lemma nd_front_inv : F <> [] ->
  exists ndf df, nd_front ltb F = Some (Ok (ndf, df)) /\ inv (length F) ndf df.
Proof.
  intros HF. unfold nd_front. apply front_loop_spec.
  - destruct F; [congruence|]. simpl. lia.
  - split; [reflexivity|]. split.
    + intros i [<-|[]] k Hk. assert (k = 0) by lia. subst k. apply beats_irr.
    + intros i [].
Qed.
End Fixed.

(** ** Ranks *)
Definition rank_of (ranks : list (option nat)) (i : nat) : option nat :=
  match nth_error ranks i with Some r => r | None => None end.

Lemma set_ranks_spec : forall P i ndf ranks,
  (forall k, In k ndf -> k < length P) -> (forall p, In p P -> p < length ranks) ->
  exists r, set_ranks ranks P ndf i = Ok r /\ length r = length ranks /\
    (forall p, (exists k, In k ndf /\ nth_error P k = Some p) -> rank_of r p = Some i) /\
    (forall p, ~ (exists k, In k ndf /\ nth_error P k = Some p) -> rank_of r p = rank_of ranks p).
Proof using.
  clear. intros P i ndf. induction ndf as [|k ndf IH]; intros ranks H1 H2.
  - simpl. exists ranks. split; [reflexivity|]. split; [reflexivity|]. split.
    + intros p [k [[] _]].
    + reflexivity.
  - cbn [set_ranks]. assert (Hk : k < length P) by (apply H1; left; reflexivity).
    destruct (nth_error P k) as [p|] eqn:E; [|apply nth_error_None in E; lia].
    assert (G : geti P k = Ok p) by (apply geti_ok; exact E). rewrite G. cbn [rbind].
    destruct (@seti_ok _ ranks p (Some i)) as [r1 E1]; [apply H2; eapply nth_error_In; eauto|].
    rewrite E1. cbn [rbind]. destruct (seti_nth _ _ _ E1) as [L1 [_ N1]].
    destruct (IH r1) as [r [Er [Lr [A B]]]].
    + intros k' Hk'. apply H1. right. exact Hk'.
    + intros q Hq. rewrite L1. apply H2. exact Hq.
    + exists r. split; [exact Er|]. split; [congruence|].
      assert (C : forall q, q <> p -> rank_of r1 q = rank_of ranks q).
      { intros q Hq. unfold rank_of. rewrite N1. destruct (Nat.eqb_spec q p); [contradiction|reflexivity]. }
      assert (D : rank_of r1 p = Some i).
      { unfold rank_of. rewrite N1, Nat.eqb_refl. reflexivity. }
      assert (dec : forall q, (exists k', In k' ndf /\ nth_error P k' = Some q) \/
                      ~ (exists k', In k' ndf /\ nth_error P k' = Some q)).
      { intros q. clear. induction ndf as [|a l IHl].
        - right. intros [k' [[] _]].
        - destruct IHl as [[k' [G1 G2]]|G].
          + left. exists k'. split; [right; exact G1|exact G2].
          + destruct (nth_error P a) as [x|] eqn:Ex.
            * destruct (Nat.eq_dec x q) as [->|Hne].
              -- left. exists a. split; [left; reflexivity|exact Ex].
              -- right. intros [k' [[<-|G1] G2]]; [congruence|]. apply G. eauto.
            * right. intros [k' [[<-|G1] G2]]; [congruence|]. apply G. eauto. }
      split.
      * intros q [k' [[<-|K1] K2]].
        -- assert (q = p) by congruence. subst q. destruct (dec p) as [Y|Nn]; [auto|]. rewrite B by exact Nn. exact D.
        -- apply A. eauto.
      * intros q Hq. rewrite B.
        -- apply C. intros ->. apply Hq. exists k. split; [left; reflexivity|exact E].
        -- intros [k' [K1 K2]]. apply Hq. exists k'. split; [right; exact K1|exact K2].
Qed.

Section Sorting.
Variable M : nat.
Variable F : list (list V).
Hypothesis HM : matrix M F.
Notation beats := (beats ltb F).
Notation N := (length F).

(** Loop invariant at the start of round [i] with the points of [P] left. *)
Definition sinv (P : list nat) (i : nat) (ranks : list (option nat)) : Prop :=
  length ranks = N /\ 1 <= i /\ NoDup P /\
  (forall p, In p P <-> p < N /\ rank_of ranks p = None) /\
  (forall p r, rank_of ranks p = Some r -> 1 <= r < i) /\
  (forall p r, rank_of ranks p = Some r -> r <> 1 ->
     exists q, rank_of ranks q = Some (r - 1) /\ beats q p) /\
  (forall p q r, rank_of ranks p = Some r -> beats q p ->
     exists r', rank_of ranks q = Some r' /\ r' < r) /\
  (forall p, In p P -> i <> 1 -> exists q, rank_of ranks q = Some (i - 1) /\ beats q p).

Lemma beats_sub : forall FP P, mapR (geti F) P = Ok FP ->
  forall j k p q, nth_error P j = Some p -> nth_error P k = Some q ->
  (Pareto.beats ltb FP j k <-> beats p q).
Proof using.
  clear HM Hlt. intros FP P H j k p q Ep Eq. destruct (mapR_nth _ _ H) as [_ HN].
  unfold Pareto.beats. split; intros [a [b [E1 [E2 K]]]]; exists a, b.
  - apply HN in E1. apply HN in E2. destruct E1 as [p' [E1 G1]]. destruct E2 as [q' [E2 G2]].
    apply geti_ok in G1. apply geti_ok in G2. assert (p' = p) by congruence. assert (q' = q) by congruence.
    subst. auto.
  - repeat split; auto; apply HN; [exists p|exists q]; split; auto; apply geti_ok; assumption.
Qed.

Lemma filter_rank_length : forall (r : list (option nat)),
  length (filter (fun o => match o with Some _ => true | None => false end) r) <= length r.
Proof using. clear. induction r as [|[] r IH]; simpl; lia. Qed.

Definition ranked (ranks : list (option nat)) : nat :=
  length (filter (fun p => match rank_of ranks p with Some _ => true | None => false end) (seq 0 N)).

Lemma sort_loop_spec : forall fuel nmax P i count ranks,
  length P < fuel -> sinv P i ranks -> count + length P = N ->
  exists r i' P', sort_loop ltb fuel F nmax P i count ranks = Some (Ok r) /\ sinv P' i' r /\
    (P' = [] \/ (nmax <= Z.of_nat (N - length P'))%Z) /\ length P' <= N /\
    i <= i' /\ ((Z.of_nat count < nmax)%Z -> P <> [] -> i < i').
Proof.
  intros fuel. induction fuel as [|fuel IH]; intros nmax P i count ranks Hf Hs Hc; [lia|].
  cbn [sort_loop]. destruct (Z.ltb_spec (Z.of_nat count) nmax) as [H1|H1]; cbn [andb].
  2: { exists ranks, i, P. split; [reflexivity|]. split; [exact Hs|].
       split; [right; lia|]. split; [lia|]. split; [lia|]. intros; lia. }
  destruct (Nat.ltb_spec 0 (length P)) as [H2|H2].
  2: { exists ranks, i, P. split; [reflexivity|]. split; [exact Hs|].
       destruct P; [|simpl in H2; lia]. split; [left; reflexivity|]. split; [simpl; lia|]. split; [lia|]. congruence. }
  destruct Hs as [HL [Hi1 [HND [HP [HR1 [HR2 [HR3 HR4]]]]]]].
  destruct (@mapR_ok _ _ (geti F) P) as [FP EFP].
  { intros p Hp. apply HP in Hp. destruct Hp as [Hp _].
    destruct (nth_error F p) as [x|] eqn:E; [|apply nth_error_None in E; lia].
    exists x. apply geti_ok. exact E. }
  rewrite EFP. destruct (mapR_nth _ _ EFP) as [LFP NFP].
  assert (HMP : matrix M FP).
  { destruct HM as [m1 m2]. split; [exact m1|]. rewrite Forall_forall in *.
    intros x Hx. apply In_nth_error in Hx. destruct Hx as [k Ek]. apply NFP in Ek.
    destruct Ek as [a [_ Ga]]. apply geti_ok in Ga. apply m2. eapply nth_error_In; eauto. }
  assert (FPne : FP <> []) by (intros ->; simpl in LFP; lia).
  destruct (nd_front_inv HMP FPne) as [ndf [df [EF [I1 [I2 I3]]]]].
  rewrite EF. rewrite LFP in *.
  assert (Hnd_lt : forall k, In k ndf -> k < length P).
  { intros k Hk. assert (G : In k (ndf ++ df)) by (apply in_or_app; auto).
    eapply Permutation_in in G; [|exact I1]. apply in_seq in G. lia. }
  assert (Hdf_lt : forall k, In k df -> k < length P).
  { intros k Hk. assert (G : In k (ndf ++ df)) by (apply in_or_app; auto).
    eapply Permutation_in in G; [|exact I1]. apply in_seq in G. lia. }
  destruct (@set_ranks_spec P i ndf ranks) as [ranks' [ES [LS [S1 S2]]]].
  { exact Hnd_lt. }
  { intros p Hp. rewrite HL. apply HP in Hp. tauto. }
  rewrite ES. cbn [rbind].
  destruct (@mapR_ok _ _ (geti P) df) as [P' EP'].
  { intros k Hk. destruct (nth_error P k) as [x|] eqn:E; [exists x; apply geti_ok; exact E|].
    apply nth_error_None in E. apply Hdf_lt in Hk. lia. }
  rewrite EP'. cbn [rbind]. destruct (mapR_nth _ _ EP') as [LP' NP'].
  assert (Hsplit : length ndf + length df = length P).
  { rewrite <- app_length, (Permutation_length I1), seq_length. reflexivity. }
  assert (NDall : NoDup (ndf ++ df)).
  { eapply Permutation_NoDup; [symmetry; exact I1|apply seq_NoDup]. }
  assert (Hdisj : forall k, In k ndf -> In k df -> False).
  { intros k K1 K2. apply in_split in K2. destruct K2 as [l1 [l2 ->]].
    rewrite app_assoc in NDall. apply NoDup_remove_2 in NDall. apply NDall.
    rewrite <- app_assoc. apply in_or_app. auto. }
  assert (InP' : forall p, In p P' <-> exists k, In k df /\ nth_error P k = Some p).
  { intros p. split.
    - intros Hp. apply In_nth_error in Hp. destruct Hp as [j Ej]. apply NP' in Ej.
      destruct Ej as [k [Ek Gk]]. apply geti_ok in Gk. exists k. split; [eapply nth_error_In; eauto|exact Gk].
    - intros [k [Hk Ek]]. apply In_nth_error in Hk. destruct Hk as [j Ej].
      assert (G : nth_error P' j = Some p) by (apply NP'; exists k; split; [exact Ej|apply geti_ok; exact Ek]).
      eapply nth_error_In; eauto. }
  assert (uniq : forall j k p, nth_error P j = Some p -> nth_error P k = Some p -> j = k).
  { intros j k p E1 E2. eapply (proj1 (NoDup_nth_error P) HND); [|congruence].
    apply nth_error_Some. congruence. }
  assert (cases : forall p, In p P -> (exists k, In k ndf /\ nth_error P k = Some p) \/ In p P').
  { intros p Hp. apply In_nth_error in Hp. destruct Hp as [k Ek].
    assert (G : In k (ndf ++ df)).
    { eapply Permutation_in; [symmetry; exact I1|]. apply in_seq.
      assert (k < length P) by (apply nth_error_Some; congruence). lia. }
    apply in_app_or in G. destruct G as [G|G]; [left; eauto|]. right. apply InP'. eauto. }
  assert (excl : forall p, (exists k, In k ndf /\ nth_error P k = Some p) -> ~ In p P').
  { intros p [k [K1 K2]] K3. apply InP' in K3. destruct K3 as [k' [K3 K4]].
    assert (k = k') by (eapply uniq; eauto). subst k'. eapply Hdisj; eauto. }
  assert (old : forall p r, rank_of ranks p = Some r -> rank_of ranks' p = Some r).
  { intros p r Hr. rewrite S2; [exact Hr|]. intros [k [_ Ek]]. apply nth_error_In in Ek.
    apply HP in Ek. destruct Ek as [_ Ek]. congruence. }
  assert (new : forall p r, rank_of ranks' p = Some r ->
            rank_of ranks p = Some r \/ (r = i /\ exists k, In k ndf /\ nth_error P k = Some p)).
  { intros p r Hr.
    assert (G : (exists k, In k ndf /\ nth_error P k = Some p) \/ ~ (exists k, In k ndf /\ nth_error P k = Some p)).
    { destruct (in_dec Nat.eq_dec p P) as [Y|Nn].
      - destruct (cases p Y) as [C|C]; [auto|]. right. intros K. exact (excl p K C).
      - right. intros [k [_ Ek]]. apply Nn. eapply nth_error_In; eauto. }
    destruct G as [G|G].
    - right. rewrite (S1 p G) in Hr. injection Hr as <-. auto.
    - left. rewrite <- S2; assumption. }
  assert (Hs' : sinv P' (S i) ranks').
  { split; [congruence|]. split; [lia|]. split.
    { apply NoDup_nth_error. intros j k Hj E.
      destruct (nth_error P' j) as [p|] eqn:Ej; [|apply nth_error_None in Ej; lia].
      symmetry in E. apply NP' in Ej. apply NP' in E.
      destruct Ej as [a [A1 A2]]. destruct E as [b [B1 B2]]. apply geti_ok in A2. apply geti_ok in B2.
      assert (a = b) by (eapply uniq; eauto). subst b.
      assert (NDdf : NoDup df).
      { clear -NDall. induction ndf as [|x l IHl]; [exact NDall|]. apply IHl. inversion NDall; assumption. }
      eapply (proj1 (NoDup_nth_error df) NDdf); [|congruence]. rewrite <- LP'. assumption. }
    split.
    { intros p. split.
      - intros Hp. assert (G : In p P).
        { apply InP' in Hp. destruct Hp as [k [_ Ek]]. eapply nth_error_In; eauto. }
        split; [apply HP in G; tauto|]. rewrite S2; [apply HP in G; tauto|].
        intros K. exact (excl p K Hp).
      - intros [Hp Hr]. destruct (in_dec Nat.eq_dec p P) as [Y|Nn].
        + destruct (cases p Y) as [C|C]; [|exact C]. rewrite (S1 p C) in Hr. discriminate.
        + exfalso. apply Nn. apply HP. split; [exact Hp|].
          destruct (rank_of ranks p) as [r|] eqn:E; [|reflexivity]. apply old in E. congruence. }
    split.
    { intros p r Hr. apply new in Hr. destruct Hr as [Hr|[-> _]]; [apply HR1 in Hr; lia|lia]. }
    split.
    { intros p r Hr Hne. apply new in Hr. destruct Hr as [Hr|[-> [k [K1 K2]]]].
      - destruct (HR2 p r Hr Hne) as [q [Q1 Q2]]. exists q. split; [apply old; exact Q1|exact Q2].
      - destruct (HR4 p) as [q [Q1 Q2]]; [eapply nth_error_In; eauto|exact Hne|].
        exists q. split; [apply old; exact Q1|exact Q2]. }
    split.
    { intros p q r Hr B. apply new in Hr. destruct Hr as [Hr|[-> [k [K1 K2]]]].
      - destruct (HR3 p q r Hr B) as [r' [R1 R2]]. exists r'. split; [apply old; exact R1|exact R2].
      - assert (Hq : q < N).
        { destruct B as [a [b [B1 _]]]. apply nth_error_Some. congruence. }
        destruct (rank_of ranks q) as [r'|] eqn:E.
        + exists r'. split; [apply old; exact E|]. apply HR1 in E. lia.
        + exfalso. assert (In q P) as HqP by (apply HP; auto).
          apply In_nth_error in HqP. destruct HqP as [kq Ekq].
          assert (kq < length P) by (apply nth_error_Some; congruence).
          apply (I2 k K1 kq); [assumption|]. apply (beats_sub _ EFP kq k Ekq K2). exact B. }
    { intros p Hp _. apply InP' in Hp. destruct Hp as [k [K1 K2]].
      destruct (I3 k K1) as [k0 [K3 B]].
      destruct (nth_error P k0) as [q|] eqn:Eq; [|apply nth_error_None in Eq; apply Hnd_lt in K3; lia].
      exists q. replace (S i - 1) with i by lia. split; [apply S1; eauto|].
      apply (beats_sub _ EFP k0 k Eq K2). exact B. } }
  destruct (IH nmax P' (S i) (count + length ndf) ranks') as [r [i' [P'' [E1 [E2 [E3 [E4 E5]]]]]]].
  - assert (ndf <> []).
    { intros ->. destruct df as [|d df']; [simpl in Hsplit; lia|].
      destruct (I3 d (or_introl eq_refl)) as [k [[] _]]. }
    destruct ndf; [congruence|]. simpl in Hsplit. lia.
  - exact Hs'.
  - lia.
  - exists r, i', P''. split; [exact E1|]. split; [exact E2|]. split; [exact E3|]. split; [exact E4|].
    destruct E5 as [E5 _]. split; [lia|]. intros. lia.
Qed.
End Sorting.
End Proofs.
