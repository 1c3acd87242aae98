(** * The RBF fit solves the interpolation system; extending the factorisation is correct. *)
From Coq Require Import List Arith ZArith Lia Bool Reals Lra Permutation.
From Verif Require Import Base Box Design Lin LinProofs RBF.
Import ListNotations.

Set Implicit Arguments.
Local Open Scope R_scope.

(** ** The pivot vector *)
Lemma swap_at_len : forall a b l, length (swap_at a b l) = length l.
Proof. intros. unfold swap_at. rewrite map_length. apply seq_length. Qed.
Lemma swap_at_nth : forall a b l i, (i < length l)%nat -> nth i (swap_at a b l) 0%nat = nth (swapn a b i) l 0%nat.
Proof.
  intros a b l i Hi. unfold swap_at. rewrite (nth_indep _ 0%nat (nth (swapn a b 0) l 0%nat)) by (rewrite map_length, seq_length; exact Hi).
  rewrite (map_nth (fun i => nth (swapn a b i) l 0%nat)). rewrite seq_nth by exact Hi. reflexivity.
Qed.
Lemma seq_swapn_perm : forall n a b, (a < n)%nat -> (b < n)%nat -> Permutation (map (swapn a b) (seq 0 n)) (seq 0 n).
Proof.
  intros n a b Ha Hb. apply NoDup_Permutation.
  - apply FinFun.Injective_map_NoDup; [|apply seq_NoDup]. intros x y E. rewrite <- (swapn_invol a b x), E. apply swapn_invol.
  - apply seq_NoDup.
  - intros x. rewrite in_map_iff. setoid_rewrite in_seq. split.
    + intros [y [<- Hy]]. pose proof (@swapn_lt n a b y Ha Hb ltac:(lia)). lia.
    + intros Hx. exists (swapn a b x). split; [apply swapn_invol|]. pose proof (@swapn_lt n a b x Ha Hb ltac:(lia)). lia.
Qed.
Lemma list_as_map : forall (l : list nat), map (fun i => nth i l 0%nat) (seq 0 (length l)) = l.
Proof.
  intros l. apply (nth_ext _ _ 0%nat 0%nat); [rewrite map_length; apply seq_length|]. rewrite map_length, seq_length. intros i Hi.
  rewrite (nth_indep _ 0%nat (nth 0 l 0%nat)) by (rewrite map_length, seq_length; exact Hi).
  rewrite (map_nth (fun i => nth i l 0%nat)), seq_nth by exact Hi. reflexivity.
Qed.
Lemma swap_at_perm : forall a b l, (a < length l)%nat -> (b < length l)%nat -> Permutation (swap_at a b l) l.
Proof.
  intros a b l Ha Hb. unfold swap_at. transitivity (map (fun i => nth i l 0%nat) (seq 0 (length l))); [|rewrite list_as_map; reflexivity].
  rewrite <- (map_map (swapn a b) (fun i => nth i l 0%nat)). apply Permutation_map. apply seq_swapn_perm; assumption.
Qed.

Lemma piv_of_spec : forall n sw, (length sw <= n)%nat -> (forall p, In p sw -> (p < n)%nat) ->
  perm n (piv_of n sw) /\ forall i, (i < n)%nat -> nth i (piv_of n sw) 0%nat = rowof sw i.
Proof.
  intros n sw. induction sw as [|p sw IH] using rev_ind; intros HL HB.
  - split; [unfold perm, piv_of; simpl; reflexivity|]. intros i Hi. unfold piv_of, rowof. simpl. rewrite seq_nth by exact Hi. reflexivity.
  - rewrite app_length in HL. simpl in HL. destruct IH as [IH1 IH2]; [lia|intros q Hq; apply HB; apply in_or_app; auto|].
    assert (Hp : (p < n)%nat) by (apply HB; apply in_or_app; right; left; reflexivity).
    unfold piv_of. rewrite combine_seq_snoc, fold_left_app. fold (piv_of n sw). cbn [fold_left fst snd]. rewrite Nat.add_0_l.
    pose proof (perm_len IH1) as LP. split.
    + unfold perm. rewrite swap_at_perm by lia. exact IH1.
    + intros i Hi. rewrite swap_at_nth by lia. rewrite rowof_snoc. apply IH2. apply swapn_lt; lia.
Qed.

Lemma initial_factored : forall n A, let (LU, sw) := lu_factor n A in factored n A (madd (tril1 LU) eye) (triu LU) (piv_of n sw).
Proof.
  intros n A. pose proof (lu_factor_spec n A) as H. destruct (lu_factor n A) as [LU sw]. destruct H as [L [B E]].
  destruct (@piv_of_spec n sw ltac:(lia) B) as [P1 P2]. change (madd (tril1 LU) eye) with (Lf LU). change (triu LU) with (Uf LU). split.
  - exact P1.
  - intros i j _ _ H. apply Lf_up. exact H.
  - intros i j _ _ H. apply Uf_low. exact H.
  - intros i _. rewrite Lf_diag. lra.
  - intros i j Hi Hj. rewrite P2 by exact Hi. apply E; assumption.
Qed.

(** ** Extension of a factorisation by [m] rows and columns *)
Section Extend.
Variables (k m : nat) (A L U : mat) (piv : list nat).     (* A is the large matrix *)
Hypothesis F : factored k A L U piv.
Hypothesis NS : nonsingular k A.
Hypothesis SY : forall i j, (i < k + m)%nat -> (j < k + m)%nat -> A i j = A j i.
Variables L21 U12 C : mat.
Hypothesis HL21 : forall j i, (j < m)%nat -> (i < k)%nat -> rsum k (fun l => U l i * L21 j l) = A i (k + j)%nat.
Hypothesis HU12 : forall j i, (j < m)%nat -> (i < k)%nat -> rsum k (fun l => L i l * U12 l j) = A (nth i piv 0%nat) (k + j)%nat.
Hypothesis HC1 : lower m C.
Hypothesis HC2 : forall i, (i < m)%nat -> 0 < C i i.
Hypothesis HC3 : forall i j, (i < m)%nat -> (j <= i)%nat -> A (k + i)%nat (k + j)%nat - mulm k L21 U12 i j = mulm m C (tr C) i j.

(** B_i . A^{-1} B_j is symmetric *)
Lemma schur_sym : forall i j, (i < m)%nat -> (j < m)%nat -> mulm k L21 U12 i j = mulm k L21 U12 j i.
Proof using F NS SY HL21 HU12.
  assert (Y : forall j, (j < m)%nat -> exists y, length y = k /\ (forall i, (i < k)%nat -> mulv k A y i = A i (k + j)%nat) /\
    forall l, (l < k)%nat -> mulv k U y l = U12 l j).
  { intros j Hj. destruct (@fac_solve k A L U piv F (fun i => A i (k + j)%nat)) as [y0 [_ [_ [S _]]]].
    destruct (S NS) as [y [_ [LY HY]]]. exists y. split; [exact LY|]. split; [exact HY|].
    intros l Hl.
    pose proof (@lower_nonsingular k L (f_lower F) (f_diag F)) as LN.
    assert (EQ : of_fun k (mulv k U y) = of_fun k (fun l => U12 l j)).
    { apply (@nonsingular_unique k L); [exact LN|apply of_fun_len|apply of_fun_len|]. intros i Hi.
      transitivity (A (nth i piv 0%nat) (k + j)%nat).
      - rewrite <- HY by (apply perm_lt; [apply F|exact Hi]). rewrite (fac_mulv F) by exact Hi. unfold mulv at 1. apply rsum_ext.
        intros a Ha. rewrite of_fun_nth by exact Ha. reflexivity.
      - rewrite <- (@HU12 j i Hj Hi). symmetry. unfold mulv. apply rsum_ext. intros a Ha. rewrite of_fun_nth by exact Ha. reflexivity. }
    rewrite <- (@of_fun_nth k (mulv k U y) l Hl), EQ, of_fun_nth by exact Hl. reflexivity. }
  assert (G : forall i j yj, (i < m)%nat -> (j < m)%nat -> (forall l, (l < k)%nat -> mulv k U yj l = U12 l j) ->
    mulm k L21 U12 i j = rsum k (fun a => A a (k + i)%nat * nth a yj 0)).
  { intros i j yj Hi Hj HY. unfold mulm. rewrite (rsum_ext _ (fun l => rsum k (fun a => U l a * L21 i l * nth a yj 0))).
    - rewrite rsum_swap. apply rsum_ext. intros a Ha. rewrite rsum_scal_r, HL21 by assumption. reflexivity.
    - intros l Hl. rewrite <- HY by exact Hl. unfold mulv. rewrite <- rsum_scal. apply rsum_ext. intros a Ha. ring. }
  intros i j Hi Hj. destruct (Y i Hi) as [yi [Li [Ai Ui]]]. destruct (Y j Hj) as [yj [Lj [Aj Uj]]].
  rewrite (@G i j yj Hi Hj Uj), (@G j i yi Hj Hi Ui).
  rewrite (rsum_ext _ (fun a => rsum k (fun b => A a b * nth b yi 0 * nth a yj 0))).
  2:{ intros a Ha. rewrite <- Ai by exact Ha. unfold mulv. rewrite rsum_scal_r. reflexivity. }
  rewrite (rsum_ext (fun a => A a (k + j)%nat * nth a yi 0) (fun a => rsum k (fun b => A a b * nth b yj 0 * nth a yi 0))).
  2:{ intros a Ha. rewrite <- Aj by exact Ha. unfold mulv. rewrite rsum_scal_r. reflexivity. }
  rewrite rsum_swap. apply rsum_ext. intros a Ha. apply rsum_ext. intros b Hb. rewrite (@SY b a) by lia. ring.
Qed.

Definition Lx : mat := hstack k (vstack k L L21) (vstack k zero C).
Definition Ux : mat := vstack k (hstack k U U12) (hstack k zero (tr C)).

Lemma Lx_eq : forall i j, Lx i j =
  if (j <? k)%nat then (if (i <? k)%nat then L i j else L21 (i - k)%nat j) else (if (i <? k)%nat then 0 else C (i - k)%nat (j - k)%nat).
Proof using. intros i j. unfold Lx, hstack, vstack, zero. destruct (j <? k)%nat, (i <? k)%nat; reflexivity. Qed.
Lemma Ux_eq : forall i j, Ux i j =
  if (i <? k)%nat then (if (j <? k)%nat then U i j else U12 i (j - k)%nat) else (if (j <? k)%nat then 0 else C (j - k)%nat (i - k)%nat).
Proof using. intros i j. unfold Ux, hstack, vstack, zero, tr. destruct (j <? k)%nat, (i <? k)%nat; reflexivity. Qed.

Lemma nth_piv_new : forall i, (k <= i < k + m)%nat -> nth i (piv ++ seq k m) 0%nat = i.
Proof using F.
  intros i Hi. rewrite app_nth2; rewrite (perm_len (f_perm F)); [|lia]. rewrite seq_nth by lia. lia.
Qed.
Lemma nth_piv_old : forall i, (i < k)%nat -> nth i (piv ++ seq k m) 0%nat = nth i piv 0%nat.
Proof using F. intros i Hi. rewrite app_nth1; [reflexivity|]. rewrite (perm_len (f_perm F)). exact Hi. Qed.

Theorem extend_factored : factored (k + m) A Lx Ux (piv ++ seq k m).
Proof using F NS SY HL21 HU12 HC1 HC2 HC3.
  split.
  - unfold perm. rewrite seq_app. simpl. apply Permutation_app_tail. apply F.
  - intros i j Hi Hj Hij. rewrite Lx_eq. destruct (Nat.ltb_spec j k).
    + destruct (Nat.ltb_spec i k); [apply (f_lower F); lia|lia].
    + destruct (Nat.ltb_spec i k); [reflexivity|]. apply HC1; lia.
  - intros i j Hi Hj Hij. rewrite Ux_eq. destruct (Nat.ltb_spec i k).
    + destruct (Nat.ltb_spec j k); [apply (f_upper F); lia|lia].
    + destruct (Nat.ltb_spec j k); [reflexivity|]. apply HC1; lia.
  - intros i Hi. rewrite Lx_eq. destruct (Nat.ltb_spec i k); [apply (f_diag F); lia|].
    pose proof (@HC2 (i - k)%nat ltac:(lia)). lra.
  - intros i j Hi Hj. unfold mulm. rewrite rsum_split. destruct (Nat.lt_ge_cases i k) as [Hik|Hik].
    + rewrite nth_piv_old by exact Hik. rewrite (@rsum_0 m).
      2:{ intros l Hl. rewrite Lx_eq. destruct (Nat.ltb_spec (k + l) k); [lia|]. destruct (Nat.ltb_spec i k); [ring|lia]. }
      rewrite Rplus_0_r. destruct (Nat.lt_ge_cases j k) as [Hjk|Hjk].
      * rewrite (f_eq F Hik Hjk). unfold mulm. apply rsum_ext. intros l Hl. rewrite Lx_eq, Ux_eq.
        destruct (Nat.ltb_spec l k); [|lia]. destruct (Nat.ltb_spec i k); [|lia]. destruct (Nat.ltb_spec j k); [reflexivity|lia].
      * pose proof (@HU12 (j - k)%nat i ltac:(lia) Hik) as E. replace (k + (j - k))%nat with j in E by lia. rewrite <- E.
        apply rsum_ext. intros l Hl. rewrite Lx_eq, Ux_eq.
        destruct (Nat.ltb_spec l k); [|lia]. destruct (Nat.ltb_spec i k); [|lia]. destruct (Nat.ltb_spec j k); [lia|reflexivity].
    + rewrite nth_piv_new by lia. destruct (Nat.lt_ge_cases j k) as [Hjk|Hjk].
      * rewrite (@rsum_0 m).
        2:{ intros l Hl. rewrite Ux_eq. destruct (Nat.ltb_spec (k + l) k); [lia|]. destruct (Nat.ltb_spec j k); [ring|lia]. }
        rewrite Rplus_0_r. pose proof (@HL21 (i - k)%nat j ltac:(lia) Hjk) as E. replace (k + (i - k))%nat with i in E by lia.
        rewrite (@SY i j) by lia. rewrite <- E. apply rsum_ext. intros l Hl. rewrite Lx_eq, Ux_eq.
        destruct (Nat.ltb_spec l k); [|lia]. destruct (Nat.ltb_spec i k); [lia|]. destruct (Nat.ltb_spec j k); [ring|lia].
      * rewrite (rsum_ext (n := k) _ (fun l => L21 (i - k)%nat l * U12 l (j - k)%nat)).
        2:{ intros l Hl. rewrite Lx_eq, Ux_eq. destruct (Nat.ltb_spec l k); [|lia]. destruct (Nat.ltb_spec i k); [lia|]. destruct (Nat.ltb_spec j k); [lia|reflexivity]. }
        rewrite (rsum_ext (n := m) _ (fun l => C (i - k)%nat l * C (j - k)%nat l)).
        2:{ intros l Hl. rewrite Lx_eq, Ux_eq. destruct (Nat.ltb_spec (k + l) k); [lia|]. destruct (Nat.ltb_spec i k); [lia|]. destruct (Nat.ltb_spec j k); [lia|].
            replace (k + l - k)%nat with l by lia. reflexivity. }
        change (rsum k (fun l => L21 (i - k)%nat l * U12 l (j - k)%nat)) with (mulm k L21 U12 (i - k)%nat (j - k)%nat).
        assert (W : forall a b, (a < m)%nat -> (b < m)%nat -> A (k + a)%nat (k + b)%nat = mulm k L21 U12 a b + rsum m (fun l => C a l * C b l)).
        { intros a b Ha Hb. destruct (Nat.le_ge_cases b a) as [Hba|Hba].
          - pose proof (@HC3 a b Ha Hba) as E. unfold mulm at 2, tr in E. lra.
          - pose proof (@HC3 b a Hb Hba) as E. unfold mulm at 2, tr in E. rewrite (@SY (k + a)%nat (k + b)%nat) by lia.
            rewrite (schur_sym Ha Hb). rewrite (rsum_ext (n := m) _ (fun l => C b l * C a l)); [lra|]. intros l Hl. ring. }
        pose proof (W (i - k)%nat (j - k)%nat ltac:(lia) ltac:(lia)) as E.
        replace (k + (i - k))%nat with i in E by lia. replace (k + (j - k))%nat with j in E by lia. exact E.
Qed.

Lemma extend_nonsingular : nonsingular (k + m) A.
Proof using F NS SY HL21 HU12 HC1 HC2 HC3.
  apply (fac_nonsingular extend_factored). intros i Hi. rewrite Ux_eq. destruct (Nat.ltb_spec i k).
  - apply (fac_nonsingular F); assumption.
  - pose proof (@HC2 (i - k)%nat ltac:(lia)). lra.
Qed.
End Extend.
