(** * C64, C65: surrogate predictions do not depend on the order of the data or the units of the
    variables, and follow affine changes of the values.

    rbf.py (all methods), surrogate.py:50-74, median_capping.py; exact arithmetic (RBF.v). *)
From Coq Require Import List Arith ZArith Lia Bool Reals Lra Permutation Sorted FinFun.
From Verif Require Import Base Box Design Lin LinProofs RBF RBFProofs RBFFit PropBox PropDesign PropRBF PropSurr PropSolve.
Import ListNotations.

Set Implicit Arguments.
Local Open Scope R_scope.

(** ** Sums over reordered indices *)
(** Specification, no counterpart in /repo. *)
Definition lsum (l : list R) : R := fold_right Rplus 0 l.
Lemma lsum_app : forall l m, lsum (l ++ m) = lsum l + lsum m.
Proof. induction l as [|a l IH]; intros m; simpl; [ring|]. rewrite IH. ring. Qed.
Lemma rsum_lsum : forall n f, rsum n f = lsum (map f (seq 0 n)).
Proof. induction n as [|n IH]; intros f; [reflexivity|]. rewrite seq_S, map_app, lsum_app, <- IH. simpl. ring. Qed.
Lemma lsum_perm : forall l m, Permutation l m -> lsum l = lsum m.
Proof. intros l m P. induction P; simpl; lra. Qed.

(** Specification, no counterpart in /repo. *)
Definition reordering (n : nat) (p q : nat -> nat) : Prop :=
  forall i, (i < n)%nat -> (p i < n)%nat /\ (q i < n)%nat /\ p (q i) = i /\ q (p i) = i.
Lemma reordering_sym : forall n p q, reordering n p q -> reordering n q p.
Proof. intros n p q H i Hi. destruct (H i Hi) as [A [B [C D]]]. auto. Qed.
Lemma NoDup_map_in : forall (f : nat -> nat) l, (forall i j, In i l -> In j l -> f i = f j -> i = j) -> NoDup l -> NoDup (map f l).
Proof.
  intros f l H N. induction N as [|a l NI N IH]; simpl; constructor.
  - intros K. apply in_map_iff in K. destruct K as [b [E Hb]]. apply NI. replace a with b; [exact Hb|]. apply H; simpl; auto.
  - apply IH. intros i j Hi Hj. apply H; simpl; auto.
Qed.
Lemma rsum_reorder : forall n p q f, reordering n p q -> rsum n (fun i => f (p i)) = rsum n f.
Proof.
  intros n p q f H. rewrite !rsum_lsum. rewrite <- (map_map p f). apply lsum_perm. apply Permutation_map.
  apply NoDup_Permutation_bis.
  - apply NoDup_map_in; [|apply seq_NoDup].
    intros i j Hi Hj E. apply in_seq in Hi. apply in_seq in Hj. destruct (H i) as [_ [_ [_ E1]]]; [lia|]. destruct (H j) as [_ [_ [_ E2]]]; [lia|]. congruence.
  - rewrite map_length. reflexivity.
  - intros i Hi. apply in_map_iff in Hi. destruct Hi as [j [<- Hj]]. apply in_seq in Hj. destruct (H j) as [A _]; [lia|]. apply in_seq. lia.
Qed.

(** ** Output transformations *)
(** The transformation treats the values alike: reordered values give reordered results. *)
(** Specification, no counterpart in /repo. *)
Definition order_free (out : list R -> list R) : Prop :=
  forall l l' p q, length l = length l' -> reordering (length l) p q -> (forall i, (i < length l)%nat -> nth i l' 0 = nth (p i) l 0) ->
  forall i, (i < length l)%nat -> nth i (out l') 0 = nth (p i) (out l) 0.
(** It commutes with increasing affine maps. *)
(** Specification, no counterpart in /repo. *)
Definition scale_free (out : list R -> list R) : Prop :=
  forall a b l, 0 < a -> out (map (fun v => a * v + b) l) = map (fun v => a * v + b) (out l).
(** It keeps the number of values. *)
(** Specification, no counterpart in /repo. *)
Definition keeps_length (out : list R -> list R) : Prop := forall l, length (out l) = length l.

Lemma reorder_perm : forall l l' p q, length l = length l' -> reordering (length l) p q -> (forall i, (i < length l)%nat -> nth i l' 0 = nth (p i) l 0) ->
  Permutation l l'.
Proof.
  intros l l' p q L H E. apply (Permutation_nth l l' 0). split; [symmetry; exact L|]. exists p.
  split; [intros i Hi; apply H, Hi|]. split; [|exact E].
  intros i j Hi Hj K. destruct (H i Hi) as [_ [_ [_ A]]]. destruct (H j Hj) as [_ [_ [_ B]]]. congruence.
Qed.
Lemma sorted_unique : forall l m, StronglySorted Rle l -> StronglySorted Rle m -> Permutation l m -> l = m.
Proof.
  intros l m S. revert m. induction S as [|a l S IH F]; intros t S2 P2.
  - symmetry. apply Permutation_nil. exact P2.
  - destruct t as [|b t]; [symmetry in P2; apply Permutation_nil in P2; discriminate|]. inversion S2 as [|? ? S3 F3]; subst.
    assert (a = b).
    { assert (I1 : In a (b :: t)) by (apply (Permutation_in _ P2); left; reflexivity).
      assert (I2 : In b (a :: l)) by (apply (Permutation_in _ (Permutation_sym P2)); left; reflexivity).
      rewrite Forall_forall in F, F3. destruct I1 as [->|I1]; [reflexivity|]. destruct I2 as [->|I2]; [reflexivity|].
      specialize (F b I2). specialize (F3 a I1). lra. }
    subst b. f_equal. apply IH; [exact S3|]. apply (Permutation_cons_inv P2).
Qed.
Lemma median_perm : forall l m, Permutation l m -> median l = median m.
Proof.
  intros l m P. assert (E : sort_r l = sort_r m).
  { apply sorted_unique; [apply sort_sorted|apply sort_sorted|]. rewrite !sort_perm. exact P. }
  unfold median. rewrite E, (Permutation_length P). reflexivity.
Qed.
Lemma median_affine : forall a b l, 0 < a -> l <> [] -> median (map (fun v => a * v + b) l) = a * median l + b.
Proof.
  intros a b l Ha Hl. set (f := fun v => a * v + b).
  assert (E : sort_r (map f l) = map f (sort_r l)).
  { apply sorted_unique; [apply sort_sorted| |].
    - pose proof (sort_sorted l) as S. induction S as [|x m S IH F]; simpl; constructor; [exact IH|].
      apply Forall_map. eapply Forall_impl; [|exact F]. intros y Hy. unfold f. nra.
    - rewrite sort_perm. apply Permutation_map. symmetry. apply sort_perm. }
  assert (LS : length (sort_r l) = length l) by (apply Permutation_length, sort_perm).
  assert (N : forall i, (i < length l)%nat -> nth i (map f (sort_r l)) 0 = f (nth i (sort_r l) 0)).
  { intros i Hi. rewrite (nth_indep _ 0 (f 0)) by (rewrite map_length, LS; exact Hi). apply map_nth. }
  assert (P : (0 < length l)%nat) by (destruct l; [congruence|simpl; lia]).
  unfold median. rewrite map_length, E. pose proof (Nat.div_mod (length l) 2 ltac:(lia)) as DM. pose proof (Nat.mod_upper_bound (length l) 2 ltac:(lia)) as MU.
  rewrite !N by lia. destruct (_ =? _)%nat; unfold f; field.
Qed.
Theorem C65_transformations :
  (order_free identity /\ scale_free identity /\ keeps_length identity) /\
  (order_free median_capping /\ scale_free median_capping /\ keeps_length median_capping).
Proof.
  split; (split; [|split]).
  - intros l l' p q L H E i Hi. apply E, Hi.
  - intros a b l _. reflexivity.
  - intros l. reflexivity.
  - intros l l' p q L H E i Hi. unfold median_capping. rewrite (median_perm (reorder_perm l l' L H E)).
    set (f := fun v => if Rlt_dec (median l') v then median l' else v).
    rewrite !(nth_indep _ 0 (f 0)) by (rewrite map_length; (rewrite <- L; exact Hi) || apply (H i Hi)). rewrite !map_nth. rewrite (E i Hi). reflexivity.
  - intros a b l Ha. destruct l as [|v l]; [reflexivity|]. unfold median_capping. set (x := v :: l).
    rewrite (median_affine b Ha) by discriminate. rewrite !map_map. apply map_ext. intros y.
    destruct (Rlt_dec (a * median x + b) (a * y + b)) as [P|P], (Rlt_dec (median x) y) as [Q|Q]; try reflexivity; nra.
  - intros l. apply map_length.
Qed.

(** ** Transfer between two surrogates *)
Section Transfer.
Variable K : kernel.
Variable T : tail.
Variable eta : R.
Notation ntail := (t_dim_tail T).
Variables lb ub lb' ub' : pt.
Variables out out' : list R -> list R.
Variables d d' : list (pt * R).
Hypothesis HL : length d' = length d.
Variables p q : nat -> nat.
Hypothesis HP : reordering (length d) p q.
Hypothesis HU : forall i, (i < length d)%nat -> unit_pt lb' ub' d' i = unit_pt lb ub d (p i).

Lemma regular_transfer : regular_system lb ub K T eta d -> regular_system lb' ub' K T eta d'.
Proof using HL HP HU.
  intros H l w A B. rewrite HL in *. destruct (H l (fun i => w (q i))) as [Z1 Z2].
  - intros i Hi. destruct (HP Hi) as [P1 [P2 [P3 P4]]]. specialize (A (q i) P2). rewrite (HU P2), P3 in A.
    refine (eq_trans _ A). f_equal. f_equal.
    rewrite <- (@rsum_reorder (length d) p q (fun j => w (q j) * k_eval K (edist (unit_pt lb ub d i) (unit_pt lb ub d j))) HP).
    apply rsum_ext. intros j Hj. destruct (HP Hj) as [_ [_ [_ Q4]]]. rewrite Q4, (HU Hj). reflexivity.
  - intros j Hj. specialize (B j Hj). refine (eq_trans _ B).
    rewrite <- (@rsum_reorder (length d) p q (fun i => w (q i) * nth j (t_eval T (unit_pt lb ub d i)) 0) HP).
    apply rsum_ext. intros i Hi. destruct (HP Hi) as [_ [_ [_ Q4]]]. rewrite Q4, (HU Hi). reflexivity.
  - split; [exact Z1|]. intros i Hi. destruct (HP Hi) as [P1 [_ [_ P4]]]. specialize (Z2 (p i) P1). cbv beta in Z2. rewrite P4 in Z2. exact Z2.
Qed.

Variables a b : R.
Hypothesis HV : forall i, (i < length d)%nat -> value out' d' i = a * value out d (p i) + b.
(** Specification, no counterpart in /repo. *)
Definition lin_l (l : nat -> R) (j : nat) : R := a * l j + (if (j =? 0)%nat then b else 0).
(** Specification, no counterpart in /repo. *)
Definition lin_w (w : nat -> R) (i : nat) : R := a * w (p i).

Lemma tail_sum : forall l u, rsum ntail (fun j => lin_l l j * nth j (t_eval T u) 0) = a * rsum ntail (fun j => l j * nth j (t_eval T u) 0) + b.
Proof using.
  intros l u. rewrite <- rsum_scal.
  rewrite (rsum_ext (n := ntail) _ (fun j => a * (l j * nth j (t_eval T u) 0) + (if (j =? 0)%nat then b else 0) * nth j (t_eval T u) 0))
    by (intros; unfold lin_l; ring).
  rewrite rsum_plus. f_equal.
  assert (N : (0 < ntail)%nat) by (destruct T; apply Nat.lt_0_succ).
  rewrite (@rsum_one ntail (fun j => (if (j =? 0)%nat then b else 0) * nth j (t_eval T u) 0) 0%nat N).
  - destruct T; simpl; ring.
  - intros i Hi Hn. destruct (Nat.eqb_spec i 0); [contradiction|ring].
Qed.
Lemma interp_transfer : forall l w, interpolates lb ub K T eta out d l w -> interpolates lb' ub' K T eta out' d' (lin_l l) (lin_w w).
Proof using HL HP HU HV.
  intros l w [A B]. split.
  - intros i Hi. rewrite HL in *. rewrite tail_sum. destruct (HP Hi) as [P1 _]. rewrite (HV Hi), <- (A (p i) P1), (HU Hi).
    rewrite (rsum_ext (n := length d) _ (fun j => a * (w (p j) * k_eval K (edist (unit_pt lb ub d (p i)) (unit_pt lb ub d (p j)))))).
    2:{ intros j Hj. unfold lin_w. rewrite (HU Hj). ring. }
    rewrite rsum_scal. rewrite (@rsum_reorder (length d) p q (fun j => w j * k_eval K (edist (unit_pt lb ub d (p i)) (unit_pt lb ub d j))) HP).
    unfold lin_w. ring.
  - intros j Hj. rewrite HL. rewrite (rsum_ext (n := length d) _ (fun i => a * (w (p i) * nth j (t_eval T (unit_pt lb ub d (p i))) 0))).
    2:{ intros i Hi. unfold lin_w. rewrite (HU Hi). ring. }
    rewrite rsum_scal. rewrite (@rsum_reorder (length d) p q (fun i => w i * nth j (t_eval T (unit_pt lb ub d i)) 0) HP). rewrite (B j Hj). ring.
Qed.
Lemma value_transfer : forall l w x x', to_unit x' lb' ub' = to_unit x lb ub ->
  rbf_value lb' ub' K T d' (lin_l l) (lin_w w) x' = a * rbf_value lb ub K T d l w x + b.
Proof using HL HP HU.
  intros l w x x' E. unfold rbf_value. rewrite tail_sum, E, HL.
  rewrite (rsum_ext (n := length d) _ (fun i => a * (w (p i) * k_eval K (edist (to_unit x lb ub) (unit_pt lb ub d (p i)))))).
  2:{ intros i Hi. unfold lin_w. rewrite (HU Hi). ring. }
  rewrite rsum_scal. rewrite (@rsum_reorder (length d) p q (fun i => w i * k_eval K (edist (to_unit x lb ub) (unit_pt lb ub d i))) HP). ring.
Qed.
End Transfer.

(** The result of an affine change of a value or exception. *)
(** Specification, no counterpart in /repo. *)
Definition rescaled (a b : R) (r : res R) : res R := match r with Ok v => Ok (a * v + b) | Err e => Err e end.

Section Answers.
Variable dim : nat.
Variables lb ub : pt.
Variable K : kernel.
Variable T : tail.
Variable eta : R.
Variable out : list R -> list R.
Notation answer := (answer dim lb ub K T eta out).
Notation failed := (failed dim lb ub K T eta out).

Lemma answer_transfer : forall h h' p q a b, ~ failed h -> ~ failed h' -> length (contents dim h') = length (contents dim h) ->
  reordering (length (contents dim h)) p q ->
  (forall i, (i < length (contents dim h))%nat -> unit_pt lb ub (contents dim h') i = unit_pt lb ub (contents dim h) (p i)) ->
  (forall i, (i < length (contents dim h))%nat -> value out (contents dim h') i = a * value out (contents dim h) (p i) + b) ->
  forall x, answer h' x = rescaled a b (answer h x).
Proof.
  intros h h' p q a b NF NF' HL HP HU HV x.
  assert (HP' : reordering (length (contents dim h')) q p) by (rewrite HL; apply reordering_sym, HP).
  assert (HU' : forall i, (i < length (contents dim h'))%nat -> unit_pt lb ub (contents dim h) i = unit_pt lb ub (contents dim h') (q i)).
  { rewrite HL. intros i Hi. destruct (HP i Hi) as [_ [P2 [P3 _]]]. rewrite (HU _ P2), P3. reflexivity. }
  pose proof (@regular_transfer K T eta lb ub lb ub _ _ HL p q HP HU) as R1.
  pose proof (@regular_transfer K T eta lb ub lb ub _ _ (eq_sym HL) q p HP' HU') as R2.
  destruct (C46_predict NF) as [[L1 A1]|[[L1 [G1 A1]]|[L1 [G1 [c1 [I1 [_ A1]]]]]]], (C46_predict NF') as [[L2 A2]|[[L2 [G2 A2]]|[L2 [G2 [c2 [I2 [_ A2]]]]]]];
    rewrite HL in *; try lia; try tauto; rewrite ?(A1 x), ?(A2 x); try reflexivity.
  rewrite (proj1 (A1 x)), (proj1 (A2 x)). cbn [rescaled]. f_equal.
  pose proof (@interp_transfer K T eta lb ub lb ub out out _ _ HL p q HP HU a b HV _ _ I1) as I3.
  destruct (interpolates_unique G2 I2 I3) as [U1 U2]. rewrite (@rbf_value_ext lb ub K T _ _ _ _ _ x U1 U2).
  apply (@value_transfer K T lb ub lb ub _ _ HL p q HP HU a b). reflexivity.
Qed.

(** C65: predictions do not depend on the order in which the data were added. *)
Theorem C65_order : order_free out -> forall h h', ~ failed h -> ~ failed h' -> Permutation (contents dim h) (contents dim h') ->
  forall x, answer h x = answer h' x.
Proof.
  intros HO h h' NF NF' P x. apply (Permutation_nth _ _ (([] : pt), 0)) in P. cbv zeta in P. destruct P as [L [p [P1 [P2 P3]]]].
  set (d := contents dim h) in *. set (d' := contents dim h') in *.
  destruct (bSurjective_bBijective (n := length d) (f := p) P1) as [q Q]; [apply bInjective_bSurjective; assumption|].
  assert (HP : reordering (length d) p q). { intros i Hi. destruct Q as [Q1 Q2]. destruct (Q2 i Hi) as [B C]. auto. }
  assert (E : answer h' x = rescaled 1 0 (answer h x)).
  { apply (@answer_transfer h h' p q 1 0 NF NF' L HP).
    - intros i Hi. unfold unit_pt. fold d d'. f_equal. exact (f_equal fst (P3 i Hi)).
    - intros i Hi. unfold value. fold d d'. rewrite Rmult_1_l, Rplus_0_r.
      apply (HO (map snd d) (map snd d') p q); rewrite ?map_length; [symmetry; exact L|exact HP| |exact Hi].
      intros j Hj. destruct (HP j Hj) as [Pj _].
      rewrite (nth_indep (map snd d') 0 (snd (([] : pt), 0))) by (rewrite map_length, L; exact Hj).
      rewrite (nth_indep (map snd d) 0 (snd (([] : pt), 0))) by (rewrite map_length; exact Pj). rewrite !map_nth. exact (f_equal snd (P3 j Hj)). }
  rewrite E. destruct (answer h x) as [v|e]; cbn [rescaled]; [f_equal; ring|reflexivity].
Qed.

Lemma id_reordering : forall n, reordering n (fun i => i) (fun i => i).
Proof. intros n i Hi. auto. Qed.

(** C65: an increasing affine change of the values changes the predictions in the same way. *)
Theorem C65_affine : scale_free out -> keeps_length out -> forall h h' a b, 0 < a -> ~ failed h -> ~ failed h' ->
  contents dim h' = map (fun q => (fst q, a * snd q + b)) (contents dim h) ->
  forall x, answer h' x = rescaled a b (answer h x).
Proof.
  intros HS HK h h' a b Ha NF NF' E x. apply (@answer_transfer h h' (fun i => i) (fun i => i) a b NF NF').
  - rewrite E. apply map_length.
  - apply id_reordering.
  - intros i Hi. unfold unit_pt. rewrite E.
    f_equal. rewrite (nth_indep _ _ ((fun q : pt * R => (fst q, a * snd q + b)) (([] : pt), 0))) by (rewrite map_length; exact Hi).
    rewrite (map_nth (fun q : pt * R => (fst q, a * snd q + b))). reflexivity.
  - intros i Hi. unfold value. rewrite E, map_map. cbn [snd].
    rewrite <- (map_map snd (fun v => a * v + b)). rewrite (HS a b _ Ha).
    rewrite (nth_indep _ 0 ((fun v => a * v + b) 0)) by (rewrite map_length, HK, map_length; exact Hi). rewrite (map_nth (fun v => a * v + b)). reflexivity.
Qed.
End Answers.

(** C65: without output transformation predictions are linear in the values. *)
Theorem C65_linear : forall dim lb ub K T eta h1 h2 h3 (a b : R),
  let failed := failed dim lb ub K T eta identity in let answer := answer dim lb ub K T eta identity in
  ~ failed h1 -> ~ failed h2 -> ~ failed h3 ->
  map fst (contents dim h1) = map fst (contents dim h2) -> map fst (contents dim h1) = map fst (contents dim h3) ->
  (forall i, nth i (map snd (contents dim h3)) 0 = a * nth i (map snd (contents dim h1)) 0 + b * nth i (map snd (contents dim h2)) 0) ->
  forall x v1 v2, answer h1 x = Ok v1 -> answer h2 x = Ok v2 -> answer h3 x = Ok (a * v1 + b * v2).
Proof.
  intros dim lb ub K T eta h1 h2 h3 a b failed answer N1 N2 N3 E2 E3 EV x v1 v2 A1 A2. unfold answer in *.
  set (d1 := contents dim h1) in *. set (d2 := contents dim h2) in *. set (d3 := contents dim h3) in *.
  assert (L2 : length d2 = length d1) by (apply (f_equal (@length pt)) in E2; rewrite !map_length in E2; lia).
  assert (L3 : length d3 = length d1) by (apply (f_equal (@length pt)) in E3; rewrite !map_length in E3; lia).
  assert (U : forall d, map fst d1 = map fst d -> forall i, unit_pt lb ub d i = unit_pt lb ub d1 i).
  { intros d E i. unfold unit_pt. f_equal. change ([] : pt) with (fst (([] : pt), 0)) at 1. 
    rewrite <- (map_nth fst d (([] : pt), 0)), <- (map_nth fst d1 (([] : pt), 0)), E. reflexivity. }
  pose proof (U _ E2) as U2. pose proof (U _ E3) as U3.
  assert (R13 : regular_system lb ub K T eta d1 -> regular_system lb ub K T eta d3).
  { apply (@regular_transfer K T eta lb ub lb ub d1 d3 L3 (fun i => i) (fun i => i) (id_reordering (n := _))). intros i _. apply U3. }
  destruct (C46_predict N1) as [[_ B]|[[_ [_ B]]|[Ln1 [R1 [c1 [[I1 J1] [_ B1]]]]]]]; try (rewrite B in A1; discriminate A1).
  destruct (C46_predict N2) as [[_ B]|[[_ [_ B]]|[Ln2 [R2 [c2 [[I2 J2] [_ B2]]]]]]]; try (rewrite B in A2; discriminate A2).
  destruct (C46_predict N3) as [[K3 _]|[[_ [K3 _]]|[Ln3 [R3 [c3 [I3 [_ B3]]]]]]].
  { exfalso. fold d1 in Ln1. fold d3 in K3. lia. }
  { exfalso. apply K3. apply R13, R1. }
  fold d1 in I1, J1, R1. fold d2 in I2, J2. fold d3 in I3, R3.
  rewrite (proj1 (B1 x)) in A1. rewrite (proj1 (B2 x)) in A2. rewrite (proj1 (B3 x)). injection A1 as <-. injection A2 as <-. f_equal.
  fold d1 d2 d3.
  set (l1 := fun j => nth j c1 0) in *. set (w1 := fun i => nth (t_dim_tail T + i) c1 0) in *.
  set (l2 := fun j => nth j c2 0) in *. set (w2 := fun i => nth (t_dim_tail T + i) c2 0) in *.
  assert (LIN : forall n (s1 s2 g : nat -> R), rsum n (fun j => (a * s1 j + b * s2 j) * g j) = a * rsum n (fun j => s1 j * g j) + b * rsum n (fun j => s2 j * g j)).
  { intros n s1 s2 g. rewrite <- !rsum_scal, <- rsum_plus. apply rsum_ext. intros; ring. }
  assert (I : interpolates lb ub K T eta identity d3 (fun j => a * l1 j + b * l2 j) (fun i => a * w1 i + b * w2 i)).
  { split.
    - intros i Hi. rewrite L3 in *. unfold value, identity. rewrite (EV i). specialize (I1 i Hi). rewrite L2 in I2. specialize (I2 i Hi).
      unfold value, identity in I1, I2. rewrite <- I1, <- I2. rewrite !LIN. rewrite !U3, !U2.
      rewrite (rsum_ext (n := length d1) (fun j => w1 j * k_eval K (edist (unit_pt lb ub d1 i) (unit_pt lb ub d3 j))) (fun j => w1 j * k_eval K (edist (unit_pt lb ub d1 i) (unit_pt lb ub d1 j)))) by (intros; rewrite U3; reflexivity).
      rewrite (rsum_ext (n := length d1) (fun j => w2 j * k_eval K (edist (unit_pt lb ub d1 i) (unit_pt lb ub d3 j))) (fun j => w2 j * k_eval K (edist (unit_pt lb ub d1 i) (unit_pt lb ub d2 j)))) by (intros; rewrite U3, U2; reflexivity).
      unfold l1, l2, w1, w2. ring.
    - intros j Hj. rewrite L3. rewrite LIN. rewrite L2 in J2.
      rewrite (rsum_ext (n := length d1) (fun i => w1 i * nth j (t_eval T (unit_pt lb ub d3 i)) 0) (fun i => w1 i * nth j (t_eval T (unit_pt lb ub d1 i)) 0)) by (intros; rewrite U3; reflexivity).
      rewrite (rsum_ext (n := length d1) (fun i => w2 i * nth j (t_eval T (unit_pt lb ub d3 i)) 0) (fun i => w2 i * nth j (t_eval T (unit_pt lb ub d2 i)) 0)) by (intros; rewrite U3, U2; reflexivity).
      specialize (J1 j Hj). specialize (J2 j Hj). change (rsum (length d1) (fun i => w1 i * nth j (t_eval T (unit_pt lb ub d1 i)) 0) = 0) in J1.
      change (rsum (length d1) (fun i => w2 i * nth j (t_eval T (unit_pt lb ub d2 i)) 0) = 0) in J2. rewrite J1, J2. ring. }
  destruct (interpolates_unique R3 I3 I) as [V1 V2]. rewrite (@rbf_value_ext lb ub K T d3 _ _ _ _ x V1 V2).
  unfold rbf_value. rewrite L3, L2, !LIN.
  rewrite (rsum_ext (n := length d1) (fun i => w1 i * k_eval K (edist (to_unit x lb ub) (unit_pt lb ub d3 i))) (fun i => w1 i * k_eval K (edist (to_unit x lb ub) (unit_pt lb ub d1 i)))) by (intros; rewrite U3; reflexivity).
  rewrite (rsum_ext (n := length d1) (fun i => w2 i * k_eval K (edist (to_unit x lb ub) (unit_pt lb ub d3 i))) (fun i => w2 i * k_eval K (edist (to_unit x lb ub) (unit_pt lb ub d2 i)))) by (intros; rewrite U3, U2; reflexivity).
  ring.
Qed.
