(** * C38, C40 (real part), C41: unit box maps, unit_rescale, round_vars. *)
From Coq Require Import List Arith ZArith Lia Bool Reals Lra.
From Flocq Require Import Core.
From Verif Require Import Base PyList Box.
Import ListNotations.

Set Implicit Arguments.
Local Open Scope R_scope.

(** ** Specification notions *)

(** Coordinate [i] of a point. *)
Notation "x @ i" := (nth i x 0) (at level 9).

(** [lb < ub] in every coordinate of a [dim]-dimensional problem. *)
Definition bounds (dim : nat) (lb ub : pt) : Prop :=
  length lb = dim /\ length ub = dim /\ forall i, (i < dim)%nat -> lb@i < ub@i.

(** The point lies in the box. *)
Definition inside (dim : nat) (lb ub x : pt) : Prop :=
  length x = dim /\ forall i, (i < dim)%nat -> lb@i <= x@i <= ub@i.

Definition zeros (dim : nat) : pt := repeat 0 dim.
Definition ones (dim : nat) : pt := repeat 1 dim.

Definition integral (a : R) : Prop := exists z, a = IZR z.

(** ** Unit box *)
Lemma map3_len : forall f x lb ub dim, length x = dim -> length lb = dim -> length ub = dim ->
  length (map3 f x lb ub) = dim.
Proof.
  intros f x. induction x as [|a x IH]; intros [|l lb] [|u ub] dim H1 H2 H3; simpl in *; subst; try lia.
  injection H2 as H2. injection H3 as H3. f_equal. apply IH; auto.
Qed.

Lemma map3_nth : forall f x lb ub dim i, length x = dim -> length lb = dim -> length ub = dim ->
  (i < dim)%nat -> (map3 f x lb ub)@i = f (x@i) (lb@i) (ub@i).
Proof.
  intros f x. induction x as [|a x IH]; intros [|l lb] [|u ub] dim i H1 H2 H3 Hi; simpl in *; subst; try lia.
  injection H2 as H2. injection H3 as H3. destruct i as [|i]; [reflexivity|].
  apply IH with (dim := length x); auto. lia.
Qed.

Lemma nth_eq : forall (x y : pt) dim, length x = dim -> length y = dim ->
  (forall i, (i < dim)%nat -> x@i = y@i) -> x = y.
Proof.
  intros x y dim L1 L2 H. apply nth_ext with (d := 0) (d' := 0); [congruence|].
  intros n Hn. apply H. congruence.
Qed.

Section Unit.
Variable dim : nat.
Variables lb ub : pt.
Hypothesis Hb : bounds dim lb ub.

Theorem C38_inverse : forall x, length x = dim ->
  to_unit (from_unit x lb ub) lb ub = x /\ from_unit (to_unit x lb ub) lb ub = x.
Proof.
  destruct Hb as [L1 [L2 L3]]. intros x Hx. unfold to_unit, from_unit. split.
  - apply nth_eq with (dim := dim); auto; [repeat apply map3_len; auto|]. intros i Hi.
    rewrite (map3_nth _ _ _ _ (dim := dim)) by (auto; apply map3_len; auto).
    rewrite (map3_nth _ _ _ _ (dim := dim)) by auto. pose proof (L3 i Hi). field. lra.
  - apply nth_eq with (dim := dim); auto; [repeat apply map3_len; auto|]. intros i Hi.
    rewrite (map3_nth _ _ _ _ (dim := dim)) by (auto; apply map3_len; auto).
    rewrite (map3_nth _ _ _ _ (dim := dim)) by auto. pose proof (L3 i Hi). field. lra.
Qed.

Lemma to_unit_nth : forall x i, length x = dim -> (i < dim)%nat ->
  (to_unit x lb ub)@i = (x@i - lb@i) / (ub@i - lb@i).
Proof. destruct Hb as [L1 [L2 L3]]. intros. unfold to_unit. apply map3_nth with (dim := dim); auto. Qed.

Lemma from_unit_nth : forall x i, length x = dim -> (i < dim)%nat ->
  (from_unit x lb ub)@i = lb@i + (ub@i - lb@i) * x@i.
Proof. destruct Hb as [L1 [L2 L3]]. intros. unfold from_unit. apply map3_nth with (dim := dim); auto. Qed.

Lemma to_unit_len : forall x, length x = dim -> length (to_unit x lb ub) = dim.
Proof. destruct Hb as [L1 [L2 L3]]. intros. apply map3_len; auto. Qed.
Lemma from_unit_len : forall x, length x = dim -> length (from_unit x lb ub) = dim.
Proof. destruct Hb as [L1 [L2 L3]]. intros. apply map3_len; auto. Qed.

Lemma from_unit_mono : forall x y i, length x = dim -> length y = dim -> (i < dim)%nat ->
  (x@i < y@i <-> (from_unit x lb ub)@i < (from_unit y lb ub)@i).
Proof.
  intros x y i Lx Ly Hi. rewrite !from_unit_nth by auto. destruct Hb as [L1 [L2 L3]]. pose proof (L3 i Hi).
  split; intros K.
  - apply Rplus_lt_compat_l. apply Rmult_lt_compat_l; lra.
  - apply Rmult_lt_reg_l with (ub@i - lb@i); lra.
Qed.

Theorem C38_increasing : forall x y i, length x = dim -> length y = dim -> (i < dim)%nat ->
  (x@i < y@i <-> (to_unit x lb ub)@i < (to_unit y lb ub)@i) /\
  (x@i < y@i <-> (from_unit x lb ub)@i < (from_unit y lb ub)@i).
Proof.
  intros x y i Lx Ly Hi. split; [|apply from_unit_mono; auto].
  rewrite <- (proj2 (C38_inverse x Lx)) at 1. rewrite <- (proj2 (C38_inverse y Ly)) at 1.
  symmetry. apply from_unit_mono; auto using to_unit_len.
Qed.

Lemma zeros_nth : forall n i, (zeros n)@i = 0.
Proof. intros n i. unfold zeros. revert i. induction n; intros [|i]; simpl; auto. Qed.
Lemma ones_nth : forall n i, (i < n)%nat -> (ones n)@i = 1.
Proof. intros n i. unfold ones. revert i. induction n; intros [|i] H; simpl; try lia; auto. apply IHn. lia. Qed.

Lemma from_unit_box_in : forall u, length u = dim ->
  (inside dim (zeros dim) (ones dim) u <-> inside dim lb ub (from_unit u lb ub)).
Proof.
  intros u Lu. destruct Hb as [L1 [L2 L3]]. unfold inside.
  assert (E : forall i, (i < dim)%nat -> (lb@i <= (from_unit u lb ub)@i <= ub@i <-> 0 <= u@i <= 1)).
  { intros i Hi. rewrite from_unit_nth by auto. pose proof (L3 i Hi). split; intros [K1 K2].
    - split; apply Rmult_le_reg_l with (ub@i - lb@i); lra.
    - split; [assert (0 <= (ub@i - lb@i) * u@i) by (apply Rmult_le_pos; lra); lra|].
      assert ((ub@i - lb@i) * u@i <= (ub@i - lb@i) * 1) by (apply Rmult_le_compat_l; lra). lra. }
  split; intros [A B]; (split; [auto using from_unit_len|]); intros i Hi.
  - apply E; auto. specialize (B i Hi). rewrite zeros_nth, ones_nth in B by auto. exact B.
  - rewrite zeros_nth, ones_nth by auto. apply E; auto.
Qed.

(** The box is mapped onto the unit box and the unit box onto the box. *)
Theorem C38_onto :
  (forall x, inside dim lb ub x -> inside dim (zeros dim) (ones dim) (to_unit x lb ub)) /\
  (forall u, inside dim (zeros dim) (ones dim) u -> exists x, inside dim lb ub x /\ to_unit x lb ub = u) /\
  (forall u, inside dim (zeros dim) (ones dim) u -> inside dim lb ub (from_unit u lb ub)) /\
  (forall x, inside dim lb ub x -> exists u, inside dim (zeros dim) (ones dim) u /\ from_unit u lb ub = x).
Proof.
  assert (A : forall x, inside dim lb ub x -> inside dim (zeros dim) (ones dim) (to_unit x lb ub)).
  { intros x Hx. apply from_unit_box_in; [apply to_unit_len, Hx|]. rewrite (proj2 (C38_inverse x (proj1 Hx))). exact Hx. }
  assert (B : forall u, inside dim (zeros dim) (ones dim) u -> inside dim lb ub (from_unit u lb ub)).
  { intros u Hu. apply from_unit_box_in; [apply Hu|exact Hu]. }
  split; [exact A|]. split; [|split; [exact B|]].
  - intros u Hu. exists (from_unit u lb ub). split; [auto|]. apply (proj1 (C38_inverse u (proj1 Hu))).
  - intros x Hx. exists (to_unit x lb ub). split; [auto|]. apply (proj2 (C38_inverse x (proj1 Hx))).
Qed.

(** C38 for whole arrays of points: row by row and entry by entry. *)
Theorem C38_matrix : forall X, (forall x, In x X -> length x = dim) ->
  length (to_unit_box X lb ub) = length X /\ length (from_unit_box X lb ub) = length X /\
  (forall r x, nth_error X r = Some x ->
     (exists u, nth_error (to_unit_box X lb ub) r = Some u /\ length u = dim /\
        forall i, (i < dim)%nat -> u@i = (x@i - lb@i) / (ub@i - lb@i)) /\
     (exists y, nth_error (from_unit_box X lb ub) r = Some y /\ length y = dim /\
        forall i, (i < dim)%nat -> y@i = lb@i + (ub@i - lb@i) * x@i)).
Proof.
  destruct Hb as [L1 [L2 L3]]. intros X HX. unfold to_unit_box, from_unit_box. rewrite !map_length.
  split; [reflexivity|]. split; [reflexivity|]. intros r x Hr. pose proof (HX x (nth_error_In _ _ Hr)) as Lx. split.
  - exists (to_unit x lb ub). split; [exact (map_nth_error _ _ _ Hr)|].
    split; [unfold to_unit; apply map3_len; auto|]. intros i Hi. unfold to_unit.
    rewrite (map3_nth _ _ _ _ (dim := dim)) by auto. reflexivity.
  - exists (from_unit x lb ub). split; [exact (map_nth_error _ _ _ Hr)|].
    split; [unfold from_unit; apply map3_len; auto|]. intros i Hi. unfold from_unit.
    rewrite (map3_nth _ _ _ _ (dim := dim)) by auto. reflexivity.
Qed.
End Unit.

(** ** unit_rescale *)
Lemma Rmaxl_ge : forall l a, a <= Rmaxl a l /\ forall v, In v l -> v <= Rmaxl a l.
Proof.
  unfold Rmaxl. induction l as [|b l IH]; intros a; simpl; [split; [lra|tauto]|].
  destruct (IH (Rmax a b)) as [A B]. pose proof (Rmax_l a b). pose proof (Rmax_r a b).
  split; [lra|]. intros v [<-|Hv]; [lra|auto].
Qed.
Lemma Rmaxl_in : forall l a, In (Rmaxl a l) (a :: l).
Proof.
  unfold Rmaxl. induction l as [|b l IH]; intros a; [left; reflexivity|]. cbn [fold_left].
  destruct (IH (Rmax a b)) as [E|E]; [|right; right; exact E].
  unfold Rmax in E at 1. destruct (Rle_dec a b); rewrite <- E; simpl; auto.
Qed.
Lemma Rminl_le : forall l a, Rminl a l <= a /\ forall v, In v l -> Rminl a l <= v.
Proof.
  unfold Rminl. induction l as [|b l IH]; intros a; simpl; [split; [lra|tauto]|].
  destruct (IH (Rmin a b)) as [A B]. pose proof (Rmin_l a b). pose proof (Rmin_r a b).
  split; [lra|]. intros v [<-|Hv]; [lra|auto].
Qed.
Lemma Rminl_in : forall l a, In (Rminl a l) (a :: l).
Proof.
  unfold Rminl. induction l as [|b l IH]; intros a; [left; reflexivity|]. cbn [fold_left].
  destruct (IH (Rmin a b)) as [E|E]; [|right; right; exact E].
  unfold Rmin in E at 1. destruct (Rle_dec a b); rewrite <- E; simpl; auto.
Qed.

Lemma extreme : forall a l, let x := a :: l in
  In (Rmaxl a l) x /\ In (Rminl a l) x /\ forall v, In v x -> Rminl a l <= v <= Rmaxl a l.
Proof.
  intros a l x. split; [apply Rmaxl_in|]. split; [apply Rminl_in|].
  destruct (Rmaxl_ge l a), (Rminl_le l a). intros v [<-|Hv]; auto.
Qed.

Definition is_min (l : list R) (m : R) : Prop := In m l /\ forall v, In v l -> m <= v.
Definition is_max (l : list R) (m : R) : Prop := In m l /\ forall v, In v l -> v <= m.

(** An empty array is refused; a constant array becomes ones; otherwise the result is the
    affine image with minimum 0 and maximum 1, hence entries keep their order. *)
Theorem C40_unit_rescale : forall x : list R, x <> [] ->
  exists y, unit_rescale x = Ok y /\ length y = length x /\
  (forall k, (k < length x)%nat -> 0 <= y@k <= 1) /\
  ((forall a b, In a x -> In b x -> a = b) -> forall k, (k < length x)%nat -> y@k = 1) /\
  (~ (forall a b, In a x -> In b x -> a = b) ->
     (forall i j, (i < length x)%nat -> (j < length x)%nat -> (x@i < x@j <-> y@i < y@j)) /\
     (forall i j, (i < length x)%nat -> (j < length x)%nat -> (x@i = x@j <-> y@i = y@j)) /\
     (forall i, (i < length x)%nat -> is_min x (x@i) -> y@i = 0) /\
     (forall i, (i < length x)%nat -> is_max x (x@i) -> y@i = 1)).
Proof.
  intros x Hx. destruct x as [|a l]; [congruence|]. clear Hx. destruct (extreme a l) as [E1 [E2 E3]].
  set (M := Rmaxl a l) in *. set (m := Rminl a l) in *. cbv zeta in E1, E2, E3.
  assert (Hin : forall k, (k < length (a :: l))%nat -> In ((a :: l)@k) (a :: l)) by (intros; apply nth_In; auto).
  unfold unit_rescale. fold M m. destruct (Req_EM_T M m) as [E|E].
  - exists (map (fun _ => 1) (a :: l)). split; [reflexivity|]. split; [apply map_length|].
    assert (N : forall k, (k < length (a :: l))%nat -> (map (fun _ : R => 1) (a :: l))@k = 1).
    { intros k Hk. rewrite (nth_indep _ 0 1) by (rewrite map_length; exact Hk).
      change 1 with ((fun _ : R => 1) 0) at 2. rewrite map_nth. reflexivity. }
    split; [intros k Hk; rewrite N by exact Hk; lra|]. split; [auto|].
    intros K. exfalso. apply K. intros u v Hu Hv. apply E3 in Hu. apply E3 in Hv. lra.
  - exists (map (fun v => (v - m) / (M - m)) (a :: l)). split; [reflexivity|]. split; [apply map_length|].
    assert (HM : m < M) by (specialize (E3 _ E1); lra).
    assert (HI : 0 < / (M - m)) by (apply Rinv_0_lt_compat; lra).
    assert (N : forall k, (k < length (a :: l))%nat -> (map (fun v => (v - m) / (M - m)) (a :: l))@k = ((a :: l)@k - m) / (M - m)).
    { intros k Hk. rewrite (nth_indep _ 0 ((0 - m) / (M - m))) by (rewrite map_length; exact Hk).
      rewrite (map_nth (fun v => (v - m) / (M - m))). reflexivity. }
    split; [|split].
    + intros k Hk. rewrite N by exact Hk. specialize (E3 _ (Hin k Hk)). unfold Rdiv. split.
      * apply Rmult_le_pos; lra.
      * apply Rmult_le_reg_r with (M - m); [lra|]. rewrite Rmult_assoc, Rinv_l by lra. lra.
    + intros K. exfalso. apply E. apply K; assumption.
    + intros _. split; [|split; [|split]].
      * intros i j Hi Hj. rewrite !N by assumption. unfold Rdiv. split; intros K.
        -- apply Rmult_lt_compat_r; lra.
        -- apply Rmult_lt_reg_r in K; lra.
      * intros i j Hi Hj. rewrite !N by assumption. split; intros K; [rewrite K; reflexivity|].
        apply Rmult_eq_reg_r in K; lra.
      * intros i Hi [K1 K2]. rewrite N by exact Hi. specialize (K2 _ E2). specialize (E3 _ K1).
        replace ((a :: l)@i) with m by lra. unfold Rdiv. ring.
      * intros i Hi [K1 K2]. rewrite N by exact Hi. specialize (K2 _ E1). specialize (E3 _ K1).
        replace ((a :: l)@i) with M by lra. field. lra.
Qed.

(** ** round_vars *)
Definition ent (g : nat -> R -> R) (x y : pt) : Prop :=
  length y = length x /\ forall j, (j < length x)%nat -> y@j = g j (x@j).

Lemma ent_comp : forall g h x y z, ent g x y -> ent h y z -> ent (fun j a => h j (g j a)) x z.
Proof.
  intros g h x y z [A B] [C D]. split; [congruence|]. intros j Hj. rewrite D by congruence. rewrite B by exact Hj. reflexivity.
Qed.

Lemma Forall2_comp : forall g h X Y Z, Forall2 (ent g) X Y -> Forall2 (ent h) Y Z ->
  Forall2 (ent (fun j a => h j (g j a))) X Z.
Proof.
  intros g h X Y Z H. revert Z. induction H as [|x y X Y H1 H2 IH]; intros Z K; inversion K; subst; constructor; auto.
  eapply ent_comp; eauto.
Qed.

Lemma Forall2_ext : forall g h X Y dim, Forall (fun x : pt => length x = dim) X ->
  (forall j a, (j < dim)%nat -> g j a = h j a) -> Forall2 (ent g) X Y -> Forall2 (ent h) X Y.
Proof.
  intros g h X Y dim HX HE H. induction H as [|x y X Y [A B] H2 IH]; inversion HX; subst; constructor; auto.
  split; [exact A|]. intros j Hj. rewrite B by exact Hj. apply HE. exact Hj.
Qed.

Lemma Forall2_len : forall g X Y dim, Forall (fun x : pt => length x = dim) X -> Forall2 (ent g) X Y ->
  Forall (fun x : pt => length x = dim) Y.
Proof. intros g X Y dim HX H. induction H as [|x y X Y [A B] H2 IH]; inversion HX; subst; constructor; auto. Qed.

Lemma ent_refl : forall X, Forall2 (ent (fun _ a => a)) X X.
Proof. induction X; constructor; auto. split; auto. Qed.

Lemma col_map_ent : forall dim i f X, (i < dim)%nat -> Forall (fun x : pt => length x = dim) X ->
  exists Y, col_map i f X = Ok Y /\ Forall2 (ent (fun j a => if (j =? i)%nat then f a else a)) X Y.
Proof.
  intros dim i f X Hi HX. unfold col_map. induction HX as [|x X Hx HX [Y [IH1 IH2]]]; [exists []; split; [reflexivity|constructor]|].
  destruct (@upd_total _ x i f) as [y Ey]; [lia|]. exists (y :: Y). cbn [mapR]. rewrite Ey. cbn [rbind]. rewrite IH1.
  split; [reflexivity|]. constructor; [|exact IH2]. destruct (upd_nth _ _ _ Ey) as [L [_ N]]. split; [exact L|].
  intros j Hj. specialize (N j). destruct (nth_error x j) as [b|] eqn:Eb; [|apply nth_error_None in Eb; lia].
  rewrite (nth_error_nth _ _ 0 Eb). destruct (j =? i)%nat; simpl in N; rewrite (nth_error_nth _ _ 0 N); reflexivity.
Qed.

Definition mem (j : nat) (iv : list nat) : bool := existsb (Nat.eqb j) iv.

Lemma mem_spec : forall j iv, mem j iv = true <-> In j iv.
Proof. intros. unfold mem. rewrite existsb_exists. split; [intros [k [A B]]; apply Nat.eqb_eq in B; subst; exact A|intros; exists j; split; [auto|apply Nat.eqb_refl]]. Qed.

Lemma np_round_IZR : forall z, np_round (IZR z) = IZR z.
Proof. intros. unfold np_round. rewrite Znearest_imp with (n := z); [reflexivity|]. rewrite Rminus_diag_eq, Rabs_R0 by reflexivity. lra. Qed.

Lemma round_cols_ent : forall dim iv X, (forall i, In i iv -> (i < dim)%nat) -> Forall (fun x : pt => length x = dim) X ->
  exists Y, round_cols iv X = Ok Y /\ Forall2 (ent (fun j a => if mem j iv then np_round a else a)) X Y.
Proof.
  intros dim iv. induction iv as [|i iv IH]; intros X Hiv HX.
  - exists X. split; [reflexivity|]. apply ent_refl.
  - cbn [round_cols]. destruct (@col_map_ent dim i np_round X) as [Y [E1 E2]]; [apply Hiv; left; reflexivity|exact HX|].
    rewrite E1. cbn [rbind]. destruct (IH Y) as [Z [E3 E4]]; [intros; apply Hiv; right; assumption|eapply Forall2_len; eauto|].
    exists Z. split; [exact E3|]. pose proof (Forall2_comp E2 E4) as K. eapply Forall2_ext; [exact HX| |exact K].
    intros j a Hj. cbn. unfold mem. cbn [existsb]. fold (mem j iv). destruct (j =? i)%nat, (mem j iv); cbn [orb]; auto.
    unfold np_round at 1 2. apply np_round_IZR.
Qed.

Definition clip (l u a : R) : R := clip_high u (clip_low l a).

Lemma clip_idem : forall l u a, clip l u (clip l u a) = clip l u a.
Proof.
  intros. unfold clip, clip_high, clip_low. destruct (Rlt_dec a l).
  - destruct (Rlt_dec u l).
    + destruct (Rlt_dec u l); [|lra]. destruct (Rlt_dec u l); lra.
    + destruct (Rlt_dec l l); [lra|]. destruct (Rlt_dec u l); lra.
  - destruct (Rlt_dec u a).
    + destruct (Rlt_dec u l); [destruct (Rlt_dec u l)|destruct (Rlt_dec u u)]; lra.
    + destruct (Rlt_dec a l); [destruct (Rlt_dec u l)|destruct (Rlt_dec u a)]; lra.
Qed.

Lemma clip_cols_ent : forall dim lb ub iv X, length lb = dim -> length ub = dim ->
  (forall i, In i iv -> (i < dim)%nat) -> Forall (fun x : pt => length x = dim) X ->
  exists Y, clip_cols iv lb ub X = Ok Y /\ Forall2 (ent (fun j a => if mem j iv then clip (lb@j) (ub@j) a else a)) X Y.
Proof.
  intros dim lb ub iv. induction iv as [|i iv IH]; intros X Hl Hu Hiv HX.
  - exists X. split; [reflexivity|]. apply ent_refl.
  - cbn [clip_cols]. assert (Hi : (i < dim)%nat) by (apply Hiv; left; reflexivity).
    assert (G1 : geti lb i = Ok (lb@i)) by (apply geti_ok; apply nth_error_nth'; lia).
    assert (G2 : geti ub i = Ok (ub@i)) by (apply geti_ok; apply nth_error_nth'; lia).
    rewrite G1, G2. cbn [rbind].
    destruct (@col_map_ent dim i (clip_low (lb@i)) X Hi HX) as [Y1 [E1 F1]]. rewrite E1. cbn [rbind].
    pose proof (Forall2_len HX F1) as HY1.
    destruct (@col_map_ent dim i (clip_high (ub@i)) Y1 Hi HY1) as [Y2 [E2 F2]]. rewrite E2. cbn [rbind].
    pose proof (Forall2_len HY1 F2) as HY2.
    destruct (IH Y2) as [Z [E3 F3]]; auto; [intros; apply Hiv; right; assumption|].
    exists Z. split; [exact E3|]. pose proof (Forall2_comp (Forall2_comp F1 F2) F3) as K.
    eapply Forall2_ext; [exact HX| |exact K]. intros j a Hj. cbn. unfold mem. cbn [existsb]. fold (mem j iv).
    destruct (Nat.eqb_spec j i) as [->|]; cbn [orb]; [|reflexivity].
    destruct (mem i iv); [|reflexivity]. apply clip_idem.
Qed.

Definition rv (iv : list nat) (lb ub : pt) (j : nat) (a : R) : R :=
  if mem j iv then clip (lb@j) (ub@j) (np_round a) else a.

Lemma round_vars_ent : forall dim lb ub iv X, length lb = dim -> length ub = dim ->
  (forall i, In i iv -> (i < dim)%nat) -> Forall (fun x : pt => length x = dim) X ->
  exists Y, round_vars X iv lb ub = Ok Y /\ Forall2 (ent (rv iv lb ub)) X Y.
Proof.
  intros dim lb ub iv X Hl Hu Hiv HX.
  destruct (@round_cols_ent dim iv X Hiv HX) as [Y [E1 F1]].
  destruct (@clip_cols_ent dim lb ub iv Y Hl Hu Hiv (Forall2_len HX F1)) as [Z [E2 F2]].
  exists Z. split.
  - unfold round_vars. destruct iv; [cbn in E1, E2; congruence|]. rewrite E1. exact E2.
  - eapply Forall2_ext; [exact HX| |exact (Forall2_comp F1 F2)]. intros j a Hj. unfold rv. destruct (mem j iv); reflexivity.
Qed.

Lemma np_round_closest : forall a z, Rabs (a - np_round a) <= Rabs (a - IZR z).
Proof.
  intros a z. unfold np_round. pose proof (Znearest_half (fun x => negb (Z.even x)) a) as H.
  destruct (Z.eq_dec z (ZnearestE a)) as [->|N]; [lra|].
  assert (K : 1 <= Rabs (IZR z - IZR (ZnearestE a))).
  { rewrite <- minus_IZR, <- abs_IZR. apply IZR_le. lia. }
  pose proof (Rabs_triang (IZR z - a) (a - IZR (ZnearestE a))) as T.
  replace (IZR z - a + (a - IZR (ZnearestE a))) with (IZR z - IZR (ZnearestE a)) in T by ring.
  rewrite (Rabs_minus_sym (IZR z) a) in T. lra.
Qed.

Lemma clip_range : forall l u a, l <= u -> l <= clip l u a <= u.
Proof.
  intros l u a H. unfold clip, clip_high, clip_low.
  destruct (Rlt_dec a l); [destruct (Rlt_dec u l)|destruct (Rlt_dec u a)]; lra.
Qed.

Lemma clip_round_closest : forall (zl zu : Z) a, (zl <= zu)%Z ->
  exists z, clip (IZR zl) (IZR zu) (np_round a) = IZR z /\ (zl <= z <= zu)%Z /\
  forall z', (zl <= z' <= zu)%Z -> Rabs (a - IZR z) <= Rabs (a - IZR z').
Proof.
  intros zl zu a Hz. unfold np_round, clip, clip_low, clip_high.
  pose proof (Znearest_half (fun x => negb (Z.even x)) a) as H. apply Rabs_le_inv in H.
  set (n := ZnearestE a) in *.
  destruct (Rlt_dec (IZR n) (IZR zl)) as [A|A].
  - destruct (Rlt_dec (IZR zu) (IZR zl)) as [B|B]; [apply lt_IZR in B; lia|].
    exists zl. split; [reflexivity|]. split; [lia|]. intros z' Hz'. apply lt_IZR in A.
    assert (IZR n <= IZR (zl - 1)) by (apply IZR_le; lia). rewrite minus_IZR in H0.
    assert (IZR zl <= IZR z') by (apply IZR_le; lia).
    rewrite !Rabs_left1 by lra. lra.
  - destruct (Rlt_dec (IZR zu) (IZR n)) as [B|B].
    + exists zu. split; [reflexivity|]. split; [lia|]. intros z' Hz'. apply lt_IZR in B.
      assert (IZR (zu + 1) <= IZR n) by (apply IZR_le; lia). rewrite plus_IZR in H0.
      assert (IZR z' <= IZR zu) by (apply IZR_le; lia).
      rewrite !Rabs_right by lra. lra.
    + exists n. split; [reflexivity|]. apply Rnot_lt_le, le_IZR in A. apply Rnot_lt_le, le_IZR in B.
      split; [lia|]. intros z' _. apply np_round_closest.
Qed.

(** C41. [X] has rows of length [dim]; the bounds of the integer variables may be any reals. *)
Theorem C41_round_vars : forall dim lb ub iv (X : list pt),
  bounds dim lb ub -> (forall i, In i iv -> (i < dim)%nat) -> Forall (fun x => length x = dim) X ->
  exists Y, round_vars X iv lb ub = Ok Y /\ length Y = length X /\
  forall k x y, nth_error X k = Some x -> nth_error Y k = Some y ->
    length y = dim /\
    forall j, (j < dim)%nat ->
      (~ In j iv -> y@j = x@j) /\
      (In j iv -> lb@j <= y@j <= ub@j) /\
      (In j iv -> integral (lb@j) -> integral (ub@j) ->
         integral (y@j) /\
         forall w, integral w -> lb@j <= w <= ub@j -> Rabs (x@j - y@j) <= Rabs (x@j - w)).
Proof.
  intros dim lb ub iv X [L1 [L2 L3]] Hiv HX.
  destruct (round_vars_ent lb ub iv L1 L2 Hiv HX) as [Y [E F]]. exists Y. split; [exact E|].
  split; [clear -F; induction F; simpl; congruence|]. clear E.
  intros k. revert k. induction F as [|x y X Y [A B] F IH]; intros [|k] x0 y0 H1 H2; try discriminate; inversion HX; subst.
  - injection H1 as <-. injection H2 as <-. split; [congruence|]. intros j Hj. rewrite B by lia. unfold rv.
    destruct (mem j iv) eqn:Em; [apply mem_spec in Em|].
    + split; [tauto|]. split; [intros _; apply clip_range, Rlt_le, L3; auto|].
      intros _ [zl El] [zu Eu]. pose proof (L3 j Hj) as LT. rewrite El, Eu in LT |- *. apply lt_IZR in LT.
      destruct (@clip_round_closest zl zu (x@j)) as [z [Z1 [Z2 Z3]]]; [lia|]. rewrite Z1. split; [exists z; reflexivity|].
      intros w [zw ->] [K1 K2]. apply le_IZR in K1. apply le_IZR in K2. apply Z3. lia.
    + assert (~ In j iv) by (rewrite <- mem_spec; congruence). tauto.
  - eapply IH; eauto.
Qed.

(** Rounding twice is rounding once (integral bounds of the integer variables). *)
Theorem C41_idempotent : forall dim lb ub iv (X Y : list pt),
  bounds dim lb ub -> (forall i, In i iv -> (i < dim)%nat) -> Forall (fun x => length x = dim) X ->
  (forall i, In i iv -> integral (lb@i) /\ integral (ub@i)) ->
  round_vars X iv lb ub = Ok Y -> round_vars Y iv lb ub = Ok Y.
Proof.
  intros dim lb ub iv X Y [L1 [L2 L3]] Hiv HX HZ E.
  destruct (round_vars_ent lb ub iv L1 L2 Hiv HX) as [Y1 [E1 F]]. rewrite E in E1. injection E1 as <-.
  pose proof (Forall2_len HX F) as HY.
  destruct (round_vars_ent lb ub iv L1 L2 Hiv HY) as [Z [E2 F2]]. rewrite E2. f_equal.
  assert (F3 : Forall2 (ent (rv iv lb ub)) X Z).
  { eapply Forall2_ext; [exact HX| |exact (Forall2_comp F F2)]. intros j a Hj. unfold rv. destruct (mem j iv) eqn:Em; [|reflexivity].
    apply mem_spec in Em. pose proof (L3 j Hj) as LT. destruct (HZ j Em) as [[zl El] [zu Eu]]. rewrite El, Eu in LT |- *.
    apply lt_IZR in LT. destruct (@clip_round_closest zl zu a) as [z [-> [Hz _]]]; [lia|]. rewrite np_round_IZR.
    unfold clip, clip_low, clip_high.
    destruct (Rlt_dec (IZR z) (IZR zl)) as [K|_]; [apply lt_IZR in K; lia|].
    destruct (Rlt_dec (IZR zu) (IZR z)) as [K|_]; [apply lt_IZR in K; lia|]. reflexivity. }
  clear -F F3. revert Z F3. induction F as [|x y X Y [A B] F IH]; intros Z F3; inversion F3; subst; [reflexivity|].
  f_equal; [|apply IH; assumption]. destruct H1 as [C D]. apply nth_eq with (dim := length x); auto.
  intros i Hi. rewrite D, B by exact Hi. reflexivity.
Qed.

(** ** Concrete cases and the limits of C41 *)
Lemma np_round_val : forall a z, Rabs (a - IZR z) < /2 -> np_round a = IZR z.
Proof. intros a z H. unfold np_round. rewrite (Znearest_imp _ a z H). reflexivity. Qed.

(** The hypotheses of C38/C41 are met by a box with an integer variable. *)
Example ex_C41 : bounds 2 [0; -2] [1; 5] /\
  round_vars [[/4; 13/10]; [/3; 27/5]] [1%nat] [0; -2] [1; 5] = Ok [[/4; 1]; [/3; 5]].
Proof.
  split.
  - split; [reflexivity|]. split; [reflexivity|]. intros [|[|i]] H; simpl; try lra; lia.
  - unfold round_vars, round_cols, clip_cols, col_map. cbn [mapR upd rbind geti nth_error].
    rewrite (@np_round_val (13/10) 1) by (apply Rabs_def1; lra).
    rewrite (@np_round_val (27/5) 5) by (apply Rabs_def1; lra).
    unfold clip_low, clip_high.
    destruct (Rlt_dec 1 (-2)); [lra|]. destruct (Rlt_dec 5 (-2)); [lra|].
    destruct (Rlt_dec 5 1); [lra|]. destruct (Rlt_dec 5 5); [lra|]. reflexivity.
Qed.

(** With bounds that are not integers the result need not be an integer, and rounding twice is
    not rounding once: the bounds [3/5, 5] turn 2/5 into 3/5 and 3/5 into 1. *)
Theorem C41_fractional_bounds_refuted :
  bounds 1 [3/5] [5] /\
  round_vars [[2/5]] [0%nat] [3/5] [5] = Ok [[3/5]] /\ ~ integral (3/5) /\
  round_vars [[3/5]] [0%nat] [3/5] [5] = Ok [[1]].
Proof.
  split; [split; [reflexivity|]; split; [reflexivity|]; intros [|i] H; simpl; try lra; lia|].
  unfold round_vars, round_cols, clip_cols, col_map. cbn [mapR upd rbind geti nth_error].
  rewrite (@np_round_val (2/5) 0) by (apply Rabs_def1; lra).
  rewrite (@np_round_val (3/5) 1) by (apply Rabs_def1; lra).
  unfold clip_low, clip_high. split; [|split].
  - destruct (Rlt_dec 0 (3/5)); [|lra]. destruct (Rlt_dec 5 (3/5)); [lra|reflexivity].
  - intros [z Hz]. assert (0 < IZR z < 1) as [A B] by lra. apply lt_IZR in A. apply lt_IZR in B. lia.
  - destruct (Rlt_dec 1 (3/5)); [lra|]. destruct (Rlt_dec 5 1); [lra|reflexivity].
Qed.

Example ex_C38_matrix : bounds 2 [0; 1] [2; 3] /\ to_unit_box [[1; 1]; [2; 2]] [0; 1] [2; 3] = [[/2; 0]; [1; /2]] /\
  from_unit_box [[/2; 0]] [0; 1] [2; 3] = [[1; 1]].
Proof.
  split; [split; [reflexivity|split; [reflexivity|]]; intros [|[|i]] H; cbn [nth]; try lra; lia|].
  split; cbn; repeat f_equal; field.
Qed.
Example ex_C40 : unit_rescale [2; 4; 3] = Ok [0; 1; /2].
Proof.
  unfold unit_rescale, Rmaxl, Rminl. cbn [fold_left].
  rewrite (Rmax_right 2 4), (Rmax_left 4 3), (Rmin_left 2 4), (Rmin_left 2 3) by lra.
  destruct (Req_EM_T 4 2); [lra|]. cbn [map]. f_equal. f_equal; [lra|]. f_equal; [lra|]. f_equal; lra.
Qed.
Print Assumptions C38_onto.
Print Assumptions C40_unit_rescale.
Print Assumptions C41_round_vars.
Print Assumptions C41_idempotent.
