(** * C45 for the scikit-learn surrogates, C47 for affine data, C49, C50, and witnesses *)
From Coq Require Import List Arith ZArith Lia Bool Reals Lra Permutation Sorted.
From Verif Require Import Base Box Design Lin LinProofs RBF RBFProofs RBFFit PropBox PropRBF.
Import ListNotations.

Set Implicit Arguments.
Local Open Scope R_scope.

(** ** C45 for PolyRegressor and GPRegressor *)
Section Learned.
Variable M : Type.
Variable dim : nat.
Variables lb ub : pt.
Variable out : list R -> list R.
Variable learn : list pt -> list R -> res M.
Variable use : M -> pt -> R.

Definition l_step (s : learned M) (c : call) : learned M :=
  match c with
  | Reset => l_reset s
  | Add xx fx => match l_add dim lb ub xx fx s with Ok s' => s' | Err _ => s end
  | Predict x => fst (l_predict lb ub out learn use x s)
  | PredictDeriv x => s      (* raises NotImplementedError *)
  end.
Definition l_run (h : list call) : learned M := fold_left l_step h {| l_s := u_reset; l_model := None |}.

Definition l_inv (s : learned M) (d : list (pt * R)) : Prop :=
  u_X (l_s s) = map fst d /\ u_fX (l_s s) = map snd d /\ u_num (l_s s) = length d /\
  u_UX (l_s s) = to_unit_box (map fst d) lb ub /\
  (u_updated (l_s s) = true -> exists m, l_model s = Some m /\ learn (to_unit_box (map fst d) lb ub) (out (map snd d)) = Ok m).

Lemma l_run_inv : forall h, l_inv (l_run h) (contents dim h).
Proof.
  intros h. induction h as [|c h IH] using rev_ind; [repeat split; discriminate|].
  unfold l_run. rewrite fold_left_app. fold (l_run h). cbn [fold_left]. rewrite contents_snoc. destruct IH as [H1 [H2 [H3 [H4 H5]]]].
  destruct c as [|xx fx|x|x]; cbn [l_step].
  - repeat split. discriminate.
  - unfold l_add, u_add. fold (right_shape dim xx fx). destruct (right_shape dim xx fx) eqn:E; cbn [rbind]; [|repeat split; assumption].
    pose proof (right_shape_len _ _ _ E) as L. unfold l_inv. cbn [l_s u_X u_fX u_num u_UX u_updated].
    rewrite !map_app, app_length, H1, H2, H3, fst_combine, snd_combine, combine_length by exact L. repeat split; [lia|discriminate].
  - unfold l_predict, l_fit. destruct (u_updated (l_s (l_run h))) eqn:EU; cbn [fst]; [repeat split; auto|].
    rewrite H4, H2. destruct (learn _ _) as [m|e] eqn:EL; cbn [fst]; [|unfold l_inv; rewrite EU; repeat split; auto; discriminate].
    unfold l_inv. cbn [l_s l_model u_X u_fX u_num u_UX u_updated]. repeat split; auto. intros _. exists m. auto.
  - repeat split; assumption.
Qed.

(** For every history: the surrogate holds what was added since the last reset, and predict is
    the model fitted to exactly these data (or the exception of that fit). *)
Theorem C45_sklearn : forall h, let d := contents dim h in let s := l_s (l_run h) in
  u_X s = map fst d /\ u_fX s = map snd d /\ u_num s = length d /\
  forall x, snd (l_predict lb ub out learn use x (l_run h)) =
            (do m <- learn (to_unit_box (map fst d) lb ub) (out (map snd d)); Ok (use m (to_unit x lb ub))).
Proof.
  intros h. cbv zeta. destruct (l_run_inv h) as [H1 [H2 [H3 [H4 H5]]]]. repeat split; auto. intros x.
  unfold l_predict, l_fit. destruct (u_updated (l_s (l_run h))) eqn:EU.
  - destruct (H5 eq_refl) as [m [E1 E2]]. rewrite E1, E2. reflexivity.
  - rewrite H4, H2. destruct (learn _ _) as [m|e]; reflexivity.
Qed.

(** A second predict does not fit again. *)
Theorem C45_sklearn_no_refit : forall h x v y, snd (l_predict lb ub out learn use x (l_run h)) = Ok v ->
  l_run (h ++ [Predict x; Predict y]) = l_run (h ++ [Predict x]).
Proof.
  intros h x v y H. change [Predict x; Predict y] with ([Predict x] ++ [Predict y]). rewrite app_assoc. unfold l_run. rewrite fold_left_app.
  cbn [fold_left]. fold (l_run (h ++ [Predict x])). cbn [l_step].
  assert (U : u_updated (l_s (l_run (h ++ [Predict x]))) = true).
  { unfold l_run. rewrite fold_left_app. fold (l_run h). cbn [fold_left l_step]. unfold l_predict, l_fit in *.
    destruct (u_updated (l_s (l_run h))) eqn:EU; [exact EU|]. destruct (learn _ _) as [m|e]; [reflexivity|discriminate H]. }
  unfold l_predict, l_fit. rewrite U. reflexivity.
Qed.
End Learned.

(** ** C47: affine data are reproduced *)
Section Affine.
Variable dim : nat.
Variables lb ub : pt.
Hypothesis B : bounds dim lb ub.
Variable K : kernel.
Variable eta : R.
Variable out : list R -> list R.

Definition affine (a : R) (b : list R) (x : pt) : R := a + rsum dim (fun d => nth d b 0 * nth d x 0).

Theorem C47_affine : forall h a b, ~ failed dim lb ub K (LinearTail dim) eta out h -> let d := contents dim h in
  (1 + dim <= length d)%nat -> regular_system lb ub K (LinearTail dim) eta d ->
  (forall i, (i < length d)%nat -> value out d i = affine a b (fst (nth i d (([] : pt), 0)))) ->
  forall x, length x = dim -> answer dim lb ub K (LinearTail dim) eta out h x = Ok (affine a b x).
Proof using B.
  intros h a b NF. cbv zeta. intros HN HR HV x HX.
  set (l := fun j => match j with O => a + rsum dim (fun d => nth d b 0 * nth d lb 0) | S d => nth d b 0 * (nth d ub 0 - nth d lb 0) end).
  assert (W : forall y, length y = dim -> rsum (1 + dim) (fun j => l j * nth j (t_eval (LinearTail dim) (to_unit y lb ub)) 0) = affine a b y).
  { intros y HY. change (1 + dim)%nat with (S dim). rewrite rsum_head. cbn [t_eval nth l]. unfold affine. rewrite Rmult_1_r, Rplus_assoc. f_equal.
    rewrite <- rsum_plus. apply rsum_ext. intros d Hd. rewrite (to_unit_nth B _ HY Hd). destruct B as [B1 [B2 B3]]. specialize (B3 d Hd). field. lra. }
  rewrite (@C47_reproduction dim lb ub K (LinearTail dim) eta out h l NF HN HR).
  - f_equal. apply W. exact HX.
  - intros i Hi. rewrite (HV i Hi). symmetry. apply W. apply (@contents_dim dim h _ (snd (nth i (contents dim h) (([] : pt), 0)))).
    rewrite <- surjective_pairing. apply nth_In. exact Hi.
Qed.
End Affine.

(** ** C50 *)
(** Both arguments given: accepted iff the tail degree is at least the kernel order minus one
    (and the tail is for the right dimension), and then these are used. *)
Theorem C50_both_given_partial : forall dim k t,
  (rbf_init dim (Some k) (Some t) = Ok (k, t) <-> (k_order k <= t_degree t + 1)%nat /\ t_dim t = dim) /\
  (forall r, rbf_init dim (Some k) (Some t) = Ok r -> r = (k, t)) /\
  ((t_degree t + 1 < k_order k)%nat -> rbf_init dim (Some k) (Some t) = Err ValueError) /\
  (k_order k = match k with LinearKernel => 1 | CubicKernel | TPSKernel => 2 end)%nat /\
  (t_degree t = match t with ConstantTail _ => 0 | LinearTail _ => 1 end)%nat /\
  (* that is, everything but a constant tail with a cubic or thin-plate kernel *)
  (rbf_init dim (Some k) (Some t) = Ok (k, t) <->
     (t = LinearTail dim \/ (t = ConstantTail dim /\ k = LinearKernel))) /\
  rbf_init dim None None = Ok (CubicKernel, LinearTail dim).
Proof.
  intros dim k t. unfold rbf_init. cbn [rbf_choose].
  split; [|split; [|split; [|split; [destruct k; reflexivity|split; [destruct t; reflexivity|split]]]]].
  - destruct (Nat.ltb_spec (t_degree t) (k_order k - 1)); destruct (Nat.eqb_spec dim (t_dim t)); split; try discriminate; try lia; auto; intros [? ?]; congruence.
  - intros r H. destruct (_ <? _)%nat; [discriminate|]. destruct (_ =? _)%nat; [|discriminate]. congruence.
  - intros H. destruct (Nat.ltb_spec (t_degree t) (k_order k - 1)); [reflexivity|lia].
  - destruct k, t as [d|d]; cbn [t_degree k_order t_dim Nat.sub Nat.ltb Nat.leb]; destruct (Nat.eqb_spec dim d) as [->|N];
      split; try discriminate; try tauto; try (intros [K|[K1 K2]]; congruence); auto.
  - unfold rbf_choose. cbn [t_degree k_order t_dim]. rewrite Nat.eqb_refl. reflexivity.
Qed.
(** One argument omitted: the other one is silently ignored. *)
Theorem C50_one_omitted_refuted : forall dim,
  rbf_init dim (Some LinearKernel) None = Ok (CubicKernel, LinearTail dim) /\
  rbf_init dim (Some TPSKernel) None = Ok (CubicKernel, LinearTail dim) /\
  rbf_init dim None (Some (ConstantTail dim)) = Ok (CubicKernel, LinearTail dim).
Proof. intros dim. unfold rbf_init, rbf_choose. cbn [t_degree k_order t_dim]. rewrite Nat.eqb_refl. auto. Qed.

(** ** C49 *)
(** The median: middle element of the sorted values, or mean of the two middle ones. *)
Definition is_median (x : list R) (m : R) : Prop :=
  exists s, Permutation s x /\ StronglySorted Rle s /\
    ((exists k, length x = (2 * k + 1)%nat /\ m = nth k s 0) \/
     (exists k, length x = (2 * (S k))%nat /\ m = (nth k s 0 + nth (S k) s 0) / 2)).

Lemma insert_perm : forall a l, Permutation (insert_r a l) (a :: l).
Proof.
  intros a l. induction l as [|b l IH]; simpl; [reflexivity|]. destruct Rle_dec; [reflexivity|]. rewrite IH. apply perm_swap.
Qed.
Lemma sort_perm : forall l, Permutation (sort_r l) l.
Proof. induction l as [|a l IH]; simpl; [reflexivity|]. rewrite insert_perm, IH. reflexivity. Qed.
Lemma insert_sorted : forall a l, StronglySorted Rle l -> StronglySorted Rle (insert_r a l).
Proof.
  intros a l H. induction H as [|b l S IH F]; simpl; [repeat constructor|]. destruct Rle_dec as [L|N].
  - constructor; [constructor; assumption|]. constructor; [exact L|]. eapply Forall_impl; [|exact F]. simpl. intros c Hc. lra.
  - constructor; [exact IH|]. rewrite insert_perm. constructor; [lra|exact F].
Qed.
Lemma sort_sorted : forall l, StronglySorted Rle (sort_r l).
Proof. induction l as [|a l IH]; simpl; [constructor|]. apply insert_sorted. exact IH. Qed.

Lemma median_ok : forall x, x <> [] -> is_median x (median x).
Proof.
  intros x HX. exists (sort_r x). split; [apply sort_perm|]. split; [apply sort_sorted|]. unfold median.
  pose proof (Nat.div_mod (length x) 2 ltac:(lia)) as E. pose proof (Nat.mod_upper_bound (length x) 2 ltac:(lia)) as U.
  destruct (Nat.eqb_spec (length x mod 2) 1) as [O|O].
  - left. exists (length x / 2)%nat. split; [lia|reflexivity].
  - right. destruct (length x / 2)%nat as [|k] eqn:ED.
    + exfalso. destruct x as [|a x]; [congruence|]. simpl length in *. lia.
    + exists k. split; [lia|]. simpl Nat.sub. rewrite Nat.sub_0_r. reflexivity.
Qed.

(** C49: exactly the entries above the median are replaced by it; order and minimum are kept; at
    least half of the entries are unchanged. *)
Theorem C49_median_capping : forall x, x <> [] -> exists m, is_median x m /\
  length (median_capping x) = length x /\
  (forall i, (i < length x)%nat ->
     (nth i x 0 <= m -> nth i (median_capping x) 0 = nth i x 0) /\ (m < nth i x 0 -> nth i (median_capping x) 0 = m)) /\
  (forall i j, (i < length x)%nat -> (j < length x)%nat -> nth i x 0 <= nth j x 0 -> nth i (median_capping x) 0 <= nth j (median_capping x) 0) /\
  (forall v, is_min x v -> is_min (median_capping x) v) /\
  (length x <= 2 * length (filter (fun v => if Rlt_dec m v then false else true) x))%nat.
Proof.
  intros x HX. exists (median x). pose proof (median_ok HX) as HM. split; [exact HM|]. unfold median_capping. split; [apply map_length|].
  set (m := median x) in *. set (f := fun v => if Rlt_dec m v then m else v).
  assert (N : forall i, (i < length x)%nat -> nth i (map f x) 0 = f (nth i x 0)).
  { intros i Hi. rewrite (nth_indep _ 0 (f 0)) by (rewrite map_length; exact Hi). apply map_nth. }
  assert (LE : exists k, (k < length x)%nat /\ nth k (sort_r x) 0 <= m /\ (length x <= 2 * (k + 1))%nat).
  { destruct HM as [s [P [S Q]]].
    assert (SS : forall i j, (i <= j)%nat -> (j < length s)%nat -> nth i s 0 <= nth j s 0).
    { clear -S. induction S as [|a l S IH F]; intros i j Hij Hj; [simpl in Hj; lia|]. destruct i as [|i], j as [|j]; simpl in *; try lia; try lra.
      - rewrite Forall_forall in F. apply F. apply nth_In. lia.
      - apply IH; lia. }
    assert (U : s = sort_r x).
    { clear -P S. pose proof (sort_sorted x) as S2. assert (P2 : Permutation s (sort_r x)) by (rewrite P; symmetry; apply sort_perm). clear P.
      revert S2 P2. generalize (sort_r x) as t. induction S as [|a l S IH F]; intros t S2 P2.
      - symmetry. apply Permutation_nil. exact P2.
      - destruct t as [|b t]; [symmetry in P2; apply Permutation_nil in P2; discriminate|]. inversion S2 as [|? ? S3 F3]; subst.
        assert (a = b).
        { assert (I1 : In a (b :: t)) by (apply (Permutation_in _ P2); left; reflexivity).
          assert (I2 : In b (a :: l)) by (apply (Permutation_in _ (Permutation_sym P2)); left; reflexivity).
          rewrite Forall_forall in F, F3. destruct I1 as [->|I1]; [reflexivity|]. destruct I2 as [->|I2]; [reflexivity|].
          specialize (F b I2). specialize (F3 a I1). lra. }
        subst b. f_equal. apply IH; [exact S3|]. apply (Permutation_cons_inv P2). }
    pose proof (Permutation_length P) as LP. subst s. destruct Q as [[k [E1 E2]]|[k [E1 E2]]].
    - exists k. split; [lia|]. split; [lra|lia].
    - exists k. split; [lia|]. split; [|lia]. pose proof (SS k (1 + k)%nat ltac:(lia) ltac:(lia)) as Q1; cbn [Nat.add] in Q1. lra. }
  split; [|split; [|split]].
  - intros i Hi. rewrite N by exact Hi. unfold f. destruct Rlt_dec; split; intros; try lra; reflexivity.
  - intros i j Hi Hj H. rewrite !N by assumption. unfold f. destruct (Rlt_dec m (nth i x 0)), (Rlt_dec m (nth j x 0)); lra.
  - intros v [V1 V2].
    assert (VM : v <= m).
    { destruct LE as [k [Hk [Hm _]]]. apply Rle_trans with (nth k (sort_r x) 0); [|exact Hm]. apply V2.
      apply (Permutation_in _ (sort_perm x)). apply nth_In. rewrite (Permutation_length (sort_perm x)). exact Hk. }
    split.
    + apply in_map_iff. exists v. split; [|exact V1]. unfold f. destruct Rlt_dec; [lra|reflexivity].
    + intros w Hw. apply in_map_iff in Hw. destruct Hw as [u [<- Hu]]. specialize (V2 u Hu). unfold f. destruct Rlt_dec; lra.
  - destruct LE as [k [Hk [Hm HL]]].
    assert (C : forall l, StronglySorted Rle l -> forall k, (k < length l)%nat -> nth k l 0 <= m ->
      (k + 1 <= length (filter (fun v => if Rlt_dec m v then false else true) l))%nat).
    { clear. intros l S. induction S as [|a l S IH F]; intros k Hk Hm; [simpl in Hk; lia|]. simpl filter.
      assert (a <= m).
      { destruct k as [|k]; [exact Hm|]. simpl in Hm. rewrite Forall_forall in F. simpl in Hk. assert (Hk' : (k < length l)%nat) by lia. specialize (F (nth k l 0) (nth_In l 0 Hk')). lra. }
      destruct Rlt_dec; [lra|]. simpl length. destruct k as [|k]; [lia|]. specialize (IH k ltac:(simpl in Hk; lia) Hm). lia. }
    specialize (C (sort_r x) (sort_sorted x) k). rewrite (Permutation_length (sort_perm x)) in C. specialize (C Hk Hm).
    assert (E : forall g : R -> bool, length (filter g (sort_r x)) = length (filter g x)).
    { intros g. pose proof (sort_perm x) as P. clear -P. induction P; simpl; try (destruct (g x); simpl); try (destruct (g y); simpl); try (destruct (g x0); simpl); lia. }
    rewrite E in C. lia.
Qed.
(** identity, output_transformations/identity.py *)
Theorem C49_identity : forall x, identity x = x.
Proof. reflexivity. Qed.

Example ex_C49 : median_capping [3; 1; 2; 10] = [5 / 2; 1; 2; 5 / 2].
Proof.
  assert (E : median [3; 1; 2; 10] = 5 / 2).
  { unfold median. simpl. repeat (destruct Rle_dec; try lra; simpl). lra. }
  unfold median_capping. rewrite E. simpl. repeat (destruct Rlt_dec; try lra; simpl). reflexivity.
Qed.

(** ** Witnesses for C45-C47 *)
Lemma edist1 : forall a b, edist [a] [b] = Rabs (a - b).
Proof. intros a b. unfold edist. simpl sqdist. rewrite Rplus_0_r. apply sqrt_Rsqr_abs. Qed.

(** Cubic kernel, linear tail, three different points on the line: the system is regular. *)
Definition d3 (f0 f1 f2 : R) : list (pt * R) := [([0], f0); ([1], f1); ([/2], f2)].
Lemma regular_d3 : forall f0 f1 f2, regular_system [0] [1] CubicKernel (LinearTail 1) 0 (d3 f0 f1 f2).
Proof.
  intros f0 f1 f2 l w H1 H2.
  pose proof (H1 0%nat ltac:(simpl; lia)) as A. pose proof (H1 1%nat ltac:(simpl; lia)) as C. pose proof (H1 2%nat ltac:(simpl; lia)) as D.
  pose proof (H2 0%nat ltac:(simpl; lia)) as E. pose proof (H2 1%nat ltac:(simpl; lia)) as F. clear H1 H2.
  unfold unit_pt, d3, to_unit in *. cbn [length rsum nth fst map3 t_dim_tail t_eval Nat.add k_eval] in A, C, D, E, F.
  rewrite !edist1 in A, C, D.
  replace ((0 - 0) / (1 - 0)) with 0 in * by field. replace ((1 - 0) / (1 - 0)) with 1 in * by field. replace ((/ 2 - 0) / (1 - 0)) with (/2) in * by field.
  replace (Rabs (0 - 0)) with 0 in * by (rewrite Rminus_0_r, Rabs_R0; reflexivity).
  replace (Rabs (0 - 1)) with 1 in * by (rewrite Rabs_left by lra; lra). replace (Rabs (1 - 0)) with 1 in * by (rewrite Rabs_right by lra; lra).
  replace (Rabs (1 - 1)) with 0 in * by (rewrite Rabs_right by lra; lra). replace (Rabs (0 - /2)) with (/2) in * by (rewrite Rabs_left by lra; lra).
  replace (Rabs (/2 - 0)) with (/2) in * by (rewrite Rabs_right by lra; lra). replace (Rabs (1 - /2)) with (/2) in * by (rewrite Rabs_right by lra; lra).
  replace (Rabs (/2 - 1)) with (/2) in * by (rewrite Rabs_left by lra; lra). replace (Rabs (/2 - /2)) with 0 in * by (rewrite Rabs_right by lra; lra).
  replace ((/ 2) ^ 3) with (/8) in * by (simpl; lra). replace (0 ^ 3) with 0 in * by ring. replace (1 ^ 3) with 1 in * by ring.
  assert (W2 : w 2%nat = 0) by lra. assert (W1 : w 1%nat = 0) by lra. assert (W0 : w 0%nat = 0) by lra.
  assert (L0 : l 0%nat = 0) by (rewrite W0, W1, W2 in *; lra). assert (L1 : l 1%nat = 0) by (rewrite W0, W1, W2 in *; lra).
  split; [intros [|[|j]] Hj|intros [|[|[|i]]] Hi]; simpl in *; try lia; assumption.
Qed.

(** Two points first, a prediction, then a third point: predict interpolates all three. *)
Definition h3 : list call := [Add [[0]; [1]] [5; 7]; Predict [/3]; Add [[/2]] [1]].
Lemma h3_contents : contents 1 h3 = d3 5 7 1.
Proof. reflexivity. Qed.

Lemma regular_d2 : forall f0 f1, regular_system [0] [1] CubicKernel (LinearTail 1) 0 [([0], f0); ([1], f1)].
Proof.
  intros f0 f1 l w H1 H2.
  pose proof (H1 0%nat ltac:(simpl; lia)) as A. pose proof (H1 1%nat ltac:(simpl; lia)) as C.
  pose proof (H2 0%nat ltac:(simpl; lia)) as E. pose proof (H2 1%nat ltac:(simpl; lia)) as F. clear H1 H2.
  unfold unit_pt, to_unit in *. cbn [length rsum nth fst map3 t_dim_tail t_eval Nat.add k_eval] in A, C, E, F.
  rewrite !edist1 in A, C.
  replace ((0 - 0) / (1 - 0)) with 0 in * by field. replace ((1 - 0) / (1 - 0)) with 1 in * by field.
  replace (Rabs (0 - 0)) with 0 in * by (rewrite Rminus_0_r, Rabs_R0; reflexivity).
  replace (Rabs (0 - 1)) with 1 in * by (rewrite Rabs_left by lra; lra). replace (Rabs (1 - 0)) with 1 in * by (rewrite Rabs_right by lra; lra).
  replace (Rabs (1 - 1)) with 0 in * by (rewrite Rabs_right by lra; lra).
  replace (0 ^ 3) with 0 in * by ring. replace (1 ^ 3) with 1 in * by ring.
  assert (W1 : w 1%nat = 0) by lra. assert (W0 : w 0%nat = 0) by lra. rewrite W0, W1 in *.
  assert (L0 : l 0%nat = 0) by lra. assert (L1 : l 1%nat = 0) by lra.
  split; [intros [|[|j]] Hj|intros [|[|i]] Hi]; simpl in *; try lia; assumption.
Qed.

Lemma h3_ok : ~ failed 1 [0] [1] CubicKernel (LinearTail 1) 0 identity h3.
Proof.
  intros [h1 [c [h2 [E [_ Q]]]]]. unfold h3 in E.
  destruct h1 as [|a h1]; [injection E as <- _; exact Q|]. injection E as <- E.
  destruct h1 as [|a h1].
  - injection E as <- _. destruct (C46_predict (@failed_nil_add 1 [0] [1] CubicKernel (LinearTail 1) 0 identity [[0]; [1]] [5; 7])) as [[L _]|[[_ [NR _]]|[_ [_ [c [_ [_ A]]]]]]].
    + simpl in L. lia.
    + apply NR. apply regular_d2.
    + rewrite (proj1 (A _)) in Q. discriminate Q.
  - injection E as <- E. destruct h1 as [|a h1]; [injection E as <- _; exact Q|]. injection E as _ E. destruct h1; discriminate E.
Qed.

Example ex_C47 : answer 1 [0] [1] CubicKernel (LinearTail 1) 0 identity h3 [0] = Ok 5 /\
  answer 1 [0] [1] CubicKernel (LinearTail 1) 0 identity h3 [1] = Ok 7 /\
  answer 1 [0] [1] CubicKernel (LinearTail 1) 0 identity h3 [/2] = Ok 1.
Proof.
  assert (exists v, answer 1 [0] [1] CubicKernel (LinearTail 1) 0 identity h3 [0] = Ok v) as [v V].
  { destruct (C46_predict h3_ok) as [[L _]|[[_ [NR _]]|[_ [_ [c [_ [_ A]]]]]]].
    - rewrite h3_contents in L. simpl in L. lia.
    - exfalso. apply NR. rewrite h3_contents. apply regular_d3.
    - eexists. apply (A [0]). }
  assert (G : forall x f, In (x, f) (contents 1 h3) -> answer 1 [0] [1] CubicKernel (LinearTail 1) 0 identity h3 x = Ok f).
  { apply (@C47_exact 1 [0] [1] CubicKernel (LinearTail 1) 0 identity h3 eq_refl (fun l => eq_refl) h3_ok [0] v V). }
  rewrite h3_contents in G. split; [|split]; apply G; simpl; auto.
Qed.

(** A surrogate that has failed once does not recover: two equal points make the system singular
    and predict raises; with a further point the system of a fresh surrogate is regular, but the
    old object still raises. *)
Theorem C45_stuck_refuted : exists h x v,
  answer 1 [0] [1] CubicKernel (LinearTail 1) (/1000000) identity h x = Err OtherError /\
  answer 1 [0] [1] CubicKernel (LinearTail 1) (/1000000) identity (scratch 1 h) x = Ok v.
Proof.
  set (a := [Add [[0]; [0]] [1; 2]]). exists (a ++ [Predict [0]; Add [[1]] [3]]), [0].
  assert (F1 : answer 1 [0] [1] CubicKernel (LinearTail 1) (/1000000) identity a [0] = Err OtherError).
  { destruct (C46_predict (@failed_nil_add 1 [0] [1] CubicKernel (LinearTail 1) (/1000000) identity [[0]; [0]] [1; 2])) as [[L _]|[[_ [_ A]]|[_ [R _]]]].
    - simpl in L. lia.
    - apply A.
    - exfalso. destruct (R (fun j => match j with 1%nat => 1 | _ => 0 end) (fun _ => 0)) as [Z _].
      + intros [|[|i]] Hi; simpl in Hi; try lia; unfold unit_pt, to_unit; cbn [length rsum nth fst map3 t_dim_tail t_eval Nat.add contents fold_left right_shape forallb Nat.eqb andb app combine];
          replace ((0 - 0) / (1 - 0)) with 0 by field; ring.
      + intros j Hj. apply rsum_0. intros; ring.
      + specialize (Z 1%nat ltac:(simpl; lia)). simpl in Z. lra. }
  assert (FF : failed 1 [0] [1] CubicKernel (LinearTail 1) (/1000000) identity (a ++ [Predict [0]; Add [[1]] [3]])).
  { exists a, (Predict [0]), [Add [[1]] [3]]. split; [reflexivity|]. split; [intros [H|[]]; discriminate H|exact F1]. }
  destruct (C46_predict (@scratch_ok 1 [0] [1] CubicKernel (LinearTail 1) (/1000000) identity (a ++ [Predict [0]; Add [[1]] [3]]))) as [[L _]|[[_ [NR _]]|[_ [_ [c [_ [_ A]]]]]]].
  - rewrite scratch_contents in L. simpl in L. lia.
  - exfalso. apply NR. rewrite scratch_contents. clear. unfold a.
    change (contents 1 ([Add [[0]; [0]] [1; 2]] ++ [Predict [0]; Add [[1]] [3]])) with [(([0] : pt), 1); ([0], 2); ([1], 3)].
    intros l w H1 H2.
    pose proof (H1 0%nat ltac:(simpl; lia)) as A. pose proof (H1 1%nat ltac:(simpl; lia)) as C. pose proof (H1 2%nat ltac:(simpl; lia)) as D.
    pose proof (H2 0%nat ltac:(simpl; lia)) as E. pose proof (H2 1%nat ltac:(simpl; lia)) as F. clear H1 H2.
    unfold unit_pt, to_unit in *. cbn [length rsum nth fst map3 t_dim_tail t_eval Nat.add k_eval] in A, C, D, E, F.
    rewrite !edist1 in A, C, D.
    replace ((0 - 0) / (1 - 0)) with 0 in * by field. replace ((1 - 0) / (1 - 0)) with 1 in * by field.
    replace (Rabs (0 - 0)) with 0 in * by (rewrite Rminus_0_r, Rabs_R0; reflexivity).
    replace (Rabs (0 - 1)) with 1 in * by (rewrite Rabs_left by lra; lra). replace (Rabs (1 - 0)) with 1 in * by (rewrite Rabs_right by lra; lra).
    replace (Rabs (1 - 1)) with 0 in * by (rewrite Rabs_right by lra; lra).
    replace (0 ^ 3) with 0 in * by ring. replace (1 ^ 3) with 1 in * by ring.
    assert (W2 : w 2%nat = 0) by lra. rewrite W2 in *. assert (W1 : w 1%nat = 0) by lra. assert (W0 : w 0%nat = 0) by lra. rewrite W0, W1 in *.
    assert (L0 : l 0%nat = 0) by lra. assert (L1 : l 1%nat = 0) by lra.
    split; [intros [|[|j]] Hj|intros [|[|[|i]]] Hi]; simpl in *; try lia; assumption.
  - eexists. split; [apply C45_stuck; exact FF|]. apply (proj1 (A [0])).
Qed.
Print Assumptions C46_incremental_partial.
Print Assumptions C45_stuck_refuted.
