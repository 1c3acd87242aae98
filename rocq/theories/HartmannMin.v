(** * Hartmann3 and Hartmann6 *)
From Coq Require Import List Arith ZArith Lia Bool Reals Lra Psatz.
From Verif Require Import Base Box Lin LinProofs Problems ProblemSpec ProblemProofs Hartmann.
Import ListNotations.

Set Implicit Arguments.
Local Open Scope R_scope.

Lemma hartmann_lower : forall n alpha A P al Az' Pz' M c,
  (forall i, (i < 4)%nat -> alpha.[i] = IZR (nth i al 0%Z) / 10) ->
  (forall i j, (i < 4)%nat -> (j < n)%nat -> (nth i A []).[j] = IZR (nth j (nth i Az' []) 0%Z) / 100) ->
  (forall i j, (i < 4)%nat -> (j < n)%nat -> (nth i P []).[j] = IZR (nth j (nth i Pz' []) 0%Z) / 10000) ->
  (forall i j, (0 <= Hartmann.Az Az' i j)%Z) -> (forall i, (0 <= az al i)%Z) ->
  check n al Az' Pz' M c (fun _ => 0%nat) (fun _ => None) = true ->
  forall x, - (IZR M / 100000) <= hartmann n alpha A P x.
Proof.
  intros n alpha A P al Az' Pz' M c H1 H2 H3 H4 H5 HC x. unfold hartmann.
  pose proof (@check_bound n al Az' Pz' M H4 H5 c x HC) as B. apply Ropp_le_contravar.
  refine (Rle_trans _ _ _ (Req_le _ _ _) B). apply rsum_ext. intros i Hi. rewrite H1 by exact Hi. f_equal. f_equal. f_equal.
  unfold Q. apply rsum_ext. intros j Hj. rewrite H2, H3 by assumption. reflexivity.
Qed.

Definition qz (n : nat) (A P : list (list Z)) (x : list Z) (i : nat) : Z :=
  zsum n (fun j => (Hartmann.Az A i j * (nth j x 0 - 100 * Pz P i j) * (nth j x 0 - 100 * Pz P i j))%Z).
Definition low (n : nat) (al : list Z) (A P : list (list Z)) (x : list Z) : Z :=
  zsum 4 (fun i => (az al i * exp_down (qz n A P x i) 100000000000000)%Z).
Definition low_ok (n : nat) (A P : list (list Z)) (x : list Z) : bool :=
  forallb (fun i => (0 <=? DD - (DD * qz n A P x i / (100000000000000 * 16384) + 1))%Z) (seq 0 4).

Lemma hartmann_upper : forall n alpha A P al Az' Pz' x xz,
  (forall i, (i < 4)%nat -> alpha.[i] = IZR (nth i al 0%Z) / 10) ->
  (forall i j, (i < 4)%nat -> (j < n)%nat -> (nth i A []).[j] = IZR (nth j (nth i Az' []) 0%Z) / 100) ->
  (forall i j, (i < 4)%nat -> (j < n)%nat -> (nth i P []).[j] = IZR (nth j (nth i Pz' []) 0%Z) / 10000) ->
  (forall j, (j < n)%nat -> x.[j] = IZR (nth j xz 0%Z) / 1000000) ->
  (forall i, (0 <= az al i)%Z) -> low_ok n Az' Pz' xz = true ->
  hartmann n alpha A P x <= - (IZR (low n al Az' Pz' xz) / (10 * IZR DD)).
Proof.
  intros n alpha A P al Az' Pz' x xz H1 H2 H3 H4 H5 HL. unfold hartmann. apply Ropp_le_contravar.
  assert (D0 : 0 < IZR DD) by (unfold DD; lra).
  unfold low. rewrite IZR_zsum. unfold Rdiv. rewrite <- rsum_scal_r. apply rsum_le. intros i Hi. rewrite H1 by exact Hi.
  rewrite mult_IZR.
  assert (E : rsum n (fun jj => (nth i A []).[jj] * (x.[jj] - (nth i P []).[jj]) ^ 2) = IZR (qz n Az' Pz' xz i) / IZR 100000000000000).
  { unfold qz. rewrite IZR_zsum. unfold Rdiv. rewrite <- rsum_scal_r. apply rsum_ext. intros j Hj. rewrite H2, H3, H4 by assumption.
    unfold Hartmann.Az, Pz. rewrite !mult_IZR, minus_IZR, mult_IZR. field. }
  rewrite E. unfold low_ok in HL. rewrite forallb_forall in HL. assert (K := HL i (proj2 (in_seq 4 0 i) ltac:(lia))). apply Z.leb_le in K.
  pose proof (@exp_down_ok (qz n Az' Pz' xz i) 100000000000000 ltac:(reflexivity) K) as G.
  unfold az at 1. set (a := IZR (nth i al 0%Z)). assert (a0 : 0 <= a) by (unfold a; apply IZR_le; apply H5).
  generalize dependent (IZR (exp_down (qz n Az' Pz' xz i) 100000000000000)). intros ed G.
  replace (a * ed * / (10 * IZR DD)) with (a / 10 * (ed / IZR DD)) by (field; lra).
  apply Rmult_le_compat_l; [lra|]. exact G.
Qed.

Ltac idx i := do 4 (destruct i as [|i]; [|]); try lia.

Lemma nth_nonneg : forall l, forallb (fun z => 0 <=? z)%Z l = true -> forall i, (0 <= nth i l 0)%Z.
Proof.
  intros l H i. rewrite forallb_forall in H. destruct (Nat.lt_ge_cases i (length l)) as [L|L].
  - apply Z.leb_le, H, nth_In, L.
  - rewrite nth_overflow by exact L. lia.
Qed.
Lemma nth2_nonneg : forall l, forallb (forallb (fun z => 0 <=? z)%Z) l = true -> forall i j, (0 <= nth j (nth i l []) 0)%Z.
Proof.
  intros l H i j. apply nth_nonneg. rewrite forallb_forall in H. destruct (Nat.lt_ge_cases i (length l)) as [L|L].
  - apply H, nth_In, L.
  - rewrite nth_overflow by exact L. reflexivity.
Qed.

Lemma al3_eq : forall i, (i < 4)%nat -> H3_alpha.[i] = IZR (nth i al3 0%Z) / 10.
Proof. intros i Hi. do 4 (destruct i as [|i]; [cbn [nth H3_alpha al3]; lra|]). lia. Qed.
Lemma A3_eq : forall i j, (i < 4)%nat -> (j < 3)%nat -> (nth i H3_A []).[j] = IZR (nth j (nth i A3 []) 0%Z) / 100.
Proof. intros i j Hi Hj. do 4 (destruct i as [|i]; [do 3 (destruct j as [|j]; [cbn [nth H3_A A3]; lra|]); lia|]). lia. Qed.
Lemma P3_eq : forall i j, (i < 4)%nat -> (j < 3)%nat -> (nth i H3_P []).[j] = IZR (nth j (nth i P3 []) 0%Z) / 10000.
Proof. intros i j Hi Hj. do 4 (destruct i as [|i]; [do 3 (destruct j as [|j]; [cbn [nth H3_P P3]; lra|]); lia|]). lia. Qed.
Lemma A6_eq : forall i j, (i < 4)%nat -> (j < 6)%nat -> (nth i H6_A []).[j] = IZR (nth j (nth i A6 []) 0%Z) / 100.
Proof. intros i j Hi Hj. do 4 (destruct i as [|i]; [do 6 (destruct j as [|j]; [cbn [nth H6_A A6]; lra|]); lia|]). lia. Qed.
Lemma P6_eq : forall i j, (i < 4)%nat -> (j < 6)%nat -> (nth i H6_P []).[j] = IZR (nth j (nth i P6 []) 0%Z) / 10000.
Proof. intros i j Hi Hj. do 4 (destruct i as [|i]; [do 6 (destruct j as [|j]; [cbn [nth H6_P P6 map]; lra|]); lia|]). lia. Qed.

Lemma Hartmann3_min : minimum_ok (1/1000) Hartmann3.
Proof.
  assert (LB : forall x, - (386378/100000) <= hartmann 3 H3_alpha H3_A H3_P x).
  { apply hartmann_lower with (al := al3) (Az' := A3) (Pz' := P3) (c := cert3).
    - exact al3_eq.
    - exact A3_eq.
    - exact P3_eq.
    - intros i j. apply nth2_nonneg. reflexivity.
    - intros i. apply nth_nonneg. reflexivity.
    - exact cert3_ok. }
  apply minimum_intro; [reflexivity| |].
  - pose proof (LB [114614/1000000; 555649/1000000; 852547/1000000]) as L.
    pose proof (@hartmann_upper 3 H3_alpha H3_A H3_P al3 A3 P3 [114614/1000000; 555649/1000000; 852547/1000000] [114614; 555649; 852547]%Z
      al3_eq A3_eq P3_eq) as U.
    assert (U' : hartmann 3 H3_alpha H3_A H3_P [114614/1000000; 555649/1000000; 852547/1000000] <= - (IZR 42462000000000 / (10 * IZR DD))).
    { refine (Rle_trans _ _ _ (U _ _ _) _).
      - intros j Hj. do 3 (destruct j as [|j]; [cbn [nth]; lra|]). lia.
      - intros i. apply nth_nonneg. reflexivity.
      - vm_compute. reflexivity.
      - apply Ropp_le_contravar. apply Rmult_le_compat_r; [unfold DD; left; apply Rinv_0_lt_compat; lra|]. apply IZR_le. vm_compute. discriminate. }
    unfold DD in U'. apply Rabs_le. lra.
  - intros x _ _. pose proof (LB x). lra.
Qed.

Lemma Hartmann6_min : minimum_ok (1/1000) Hartmann6.
Proof.
  assert (LB : forall x, - (332337/100000) <= hartmann 6 H6_alpha H6_A H6_P x).
  { apply hartmann_lower with (al := al3) (Az' := A6) (Pz' := P6) (c := cert6).
    - exact al3_eq.
    - exact A6_eq.
    - exact P6_eq.
    - intros i j. apply nth2_nonneg. reflexivity.
    - intros i. apply nth_nonneg. reflexivity.
    - exact cert6_ok. }
  apply minimum_intro; [reflexivity| |].
  - set (xm := [20169/100000; 150011/1000000; 476874/1000000; 275332/1000000; 311652/1000000; 6573/10000]).
    pose proof (LB xm) as L.
    pose proof (@hartmann_upper 6 H6_alpha H6_A H6_P al3 A6 P6 xm [201690; 150011; 476874; 275332; 311652; 657300]%Z
      al3_eq A6_eq P6_eq) as U.
    assert (U' : hartmann 6 H6_alpha H6_A H6_P xm <= - (IZR 36520000000000 / (10 * IZR DD))).
    { refine (Rle_trans _ _ _ (U _ _ _) _).
      - intros j Hj. unfold xm. do 6 (destruct j as [|j]; [cbn [nth]; lra|]). lia.
      - intros i. apply nth_nonneg. reflexivity.
      - vm_compute. reflexivity.
      - apply Ropp_le_contravar. apply Rmult_le_compat_r; [unfold DD; left; apply Rinv_0_lt_compat; lra|]. apply IZR_le. vm_compute. discriminate. }
    unfold DD in U'. apply Rabs_le. lra.
  - intros x _ _. pose proof (LB x). lra.
Qed.
