(** * C24, C25, C26: Pareto layers and the radius rule. *)
From Coq Require Import List Arith ZArith Lia Bool Permutation Reals Lra.
From Verif Require Import Base PyList Pareto ParetoProofs.
Import ListNotations.

Set Implicit Arguments.

Section Props.
Variable V : Type.
Variable ltb : V -> V -> bool.
Hypothesis Hlt : ltb_ok ltb.

(** C24.  The code returns (no exception, the loops end) two lists that together contain each
    index exactly once; the first holds exactly the points that no other point beats. *)
Theorem C24_nd_front : forall M (F : list (list V)), matrix M F -> F <> [] ->
  exists ndf df, nd_front ltb F = Some (Ok (ndf, df)) /\
    Permutation (ndf ++ df) (seq 0 (length F)) /\
    forall i, i < length F -> (In i ndf <-> ~ exists k, beats ltb F k i).
Proof.
  intros M F HM HF. destruct (nd_front_inv Hlt HM HF) as [ndf [df [E [P1 [P2 P3]]]]].
  exists ndf, df. split; [exact E|]. split; [exact P1|]. intros i Hi. split.
  - intros Hin [k B]. apply (P2 i Hin k); [|exact B]. destruct B as [a [b [B _]]].
    apply nth_error_Some. congruence.
  - intros Hn. assert (G : In i (ndf ++ df)).
    { eapply Permutation_in; [symmetry; exact P1|]. apply in_seq. lia. }
    apply in_app_or in G. destruct G as [G|G]; [exact G|]. exfalso. apply Hn.
    destruct (P3 i G) as [k [_ B]]. eauto.
Qed.

(** C25.  [r] is the returned list of ranks; [None] is inf. *)
Theorem C25_nd_sorting : forall M (F : list (list V)) (nmax : Z), matrix M F ->
  exists r, nd_sorting ltb F nmax = Some (Ok r) /\
    let N := length F in
    let rank i k := nth_error r i = Some (Some k) in
    let unranked i := nth_error r i = Some None in
    length r = N /\
    (* rank 1 is exactly the non-dominated set *)
    ((1 <= nmax)%Z -> forall i, i < N -> (rank i 1 <-> ~ exists k, beats ltb F k i)) /\
    (* a later layer is dominated by a point of the layer before, and only by earlier layers *)
    (forall i k, rank i k -> 1 <= k) /\
    (forall i k, rank i k -> k <> 1 -> exists j, rank j (k - 1) /\ beats ltb F j i) /\
    (forall i j k, rank i k -> beats ltb F j i -> exists k', rank j k' /\ k' < k) /\
    (* unranked points come after the last layer *)
    (forall i, unranked i -> (1 <= nmax)%Z ->
       exists j k, rank j k /\ beats ltb F j i /\ forall j' k', rank j' k' -> k' <= k) /\
    (* enough points are ranked *)
    (Z.min nmax (Z.of_nat N) <= Z.of_nat (length (filter (fun o => match o with Some _ => true | None => false end) r)))%Z.
Proof.
  intros M F nmax HM.
  assert (R0 : forall p, rank_of (repeat None (length F)) p = None).
  { intros p. unfold rank_of. destruct (nth_error (repeat None (length F)) p) as [x|] eqn:E; [|reflexivity].
    apply nth_error_In, repeat_spec in E. exact E. }
  destruct (@sort_loop_spec V ltb Hlt M F HM (S (length F)) nmax (seq 0 (length F)) 1 0 (repeat None (length F)))
    as [r [i' [P' [E [[HL [Hi1 [HND [HP [HR1 [HR2 [HR3 HR4]]]]]]] [HE [HPl [_ HI]]]]]]]].
  - rewrite seq_length. lia.
  - split; [apply repeat_length|]. split; [lia|]. split; [apply seq_NoDup|]. split.
    { intros p. rewrite in_seq, R0. split; intros; [split; [lia|reflexivity]|lia]. }
    split; [intros p q H; rewrite R0 in H; discriminate|].
    split; [intros p q H; rewrite R0 in H; discriminate|].
    split; [intros p q k H; rewrite R0 in H; discriminate|].
    intros; lia.
  - rewrite seq_length. reflexivity.
  - exists r. split; [exact E|]. cbv zeta. clear E R0.
    assert (rk : forall i k, nth_error r i = Some (Some k) <-> rank_of r i = Some k).
    { intros i k. unfold rank_of. destruct (nth_error r i) as [[x|]|]; split; intros H; congruence. }
    assert (uk : forall i, nth_error r i = Some None -> rank_of r i = None).
    { intros i H. unfold rank_of. rewrite H. reflexivity. }
    assert (bnd : forall i, nth_error r i <> None -> i < length F).
    { intros i H. rewrite <- HL. apply nth_error_Some. exact H. }
    assert (Hi' : (1 <= nmax)%Z -> F <> [] -> 1 < i').
    { intros H1 H2. apply HI; [lia|]. destruct F; [congruence|discriminate]. }
    split; [exact HL|]. split; [|split; [|split; [|split; [|split]]]].
    + intros Hn i Hi. rewrite rk. assert (F <> []) by (intros ->; simpl in Hi; lia). split.
      * intros Hr [k B]. destruct (HR3 i k 1 Hr B) as [r' [Hr' Hlt']]. apply HR1 in Hr'. lia.
      * intros Hno. destruct (rank_of r i) as [k|] eqn:E.
        -- destruct (Nat.eq_dec k 1) as [->|Hk]; [reflexivity|]. exfalso. apply Hno.
           destruct (HR2 i k E Hk) as [q [_ B]]. eauto.
        -- exfalso. apply Hno. destruct (HR4 i) as [q [_ B]].
           ++ apply HP. auto.
           ++ specialize (Hi' Hn H). lia.
           ++ eauto.
    + intros i k Hr. apply rk, HR1 in Hr. lia.
    + intros i k Hr Hk. apply rk in Hr. destruct (HR2 i k Hr Hk) as [q [Q1 Q2]].
      exists q. rewrite rk. auto.
    + intros i j k Hr B. apply rk in Hr. destruct (HR3 i j k Hr B) as [k' [Q1 Q2]].
      exists k'. rewrite rk. auto.
    + intros i Hu Hn. assert (i < length F) by (apply bnd; congruence). apply uk in Hu.
      assert (F <> []) by (intros ->; simpl in *; lia). specialize (Hi' Hn H0).
      destruct (HR4 i) as [q [Q1 Q2]]; [apply HP; auto|lia|].
      exists q, (i' - 1). rewrite rk. split; [exact Q1|]. split; [exact Q2|].
      intros j' k' Hr. apply rk, HR1 in Hr. lia.
    + set (isr := fun o : option nat => match o with Some _ => true | None => false end).
      assert (C : length (filter isr r) + length P' = length F).
      { set (nr := fun p => match rank_of r p with Some _ => true | None => false end).
        assert (A1 : length (filter isr r) = length (filter nr (seq 0 (length F)))).
        { rewrite <- HL. unfold nr, rank_of, isr. clear. revert r.
          assert (G : forall (f : option nat -> bool) r s, length (filter f r) =
            length (filter (fun p => match nth_error r (p - s) with Some o => f o | None => f None end) (seq s (length r)))).
          { intros f r. induction r as [|a r IH]; intros s; [reflexivity|].
            cbn [length seq filter]. rewrite Nat.sub_diag. cbn [nth_error].
            assert (Eq : filter (fun p => match nth_error (a :: r) (p - s) with Some o => f o | None => f None end) (seq (S s) (length r)) =
              filter (fun p => match nth_error r (p - S s) with Some o => f o | None => f None end) (seq (S s) (length r))).
            { apply filter_ext_in. intros p Hp. apply in_seq in Hp. replace (p - s) with (S (p - S s)) by lia. reflexivity. }
            rewrite Eq. destruct (f a); cbn [length]; rewrite (IH (S s)); reflexivity. }
          intros r. rewrite (G _ r 0). f_equal. apply filter_ext. intros p. rewrite Nat.sub_0_r.
          destruct (nth_error r p) as [[|]|]; reflexivity. }
        assert (A2 : Permutation P' (filter (fun p => negb (nr p)) (seq 0 (length F)))).
        { apply NoDup_Permutation; [exact HND|apply NoDup_filter, seq_NoDup|].
          intros p. rewrite filter_In, in_seq, HP. unfold nr. destruct (rank_of r p); simpl; split; intros [? ?]; split; try lia; try congruence. }
        rewrite A1, (Permutation_length A2).
        rewrite <- (seq_length (length F) 0) at 3. generalize (seq 0 (length F)). clear.
        induction l as [|p l IH]; [reflexivity|]. simpl. destruct (nr p); simpl; lia. }
      fold isr. destruct HE as [->|HE]; [simpl in C; lia|]. lia.
Qed.
End Props.

(** ** Radius rule (utils.py:490-522) *)
Section Radius.
Local Open Scope R_scope.

(** scipy.spatial.distance.euclidean for vectors of one length. *)
Fixpoint sumsq (x y : list R) : R :=
  match x, y with
  | a :: x', b :: y' => (a - b) * (a - b) + sumsq x' y'
  | _, _ => 0
  end.
Definition euclid (x y : list R) : R := sqrt (sumsq x y).

(** np.power(1/2, k) * sigma, or sigma if k == 0 (utils.py:513-516). *)
Definition sigma_new (sigma k : R) : R :=
  if Req_EM_T k 0 then sigma else Rpower (1 / 2) k * sigma.

(** utils.py:490-522 [check_radius_rule]; [nc] is consumed by the for loop; reals instead of
    doubles.  [Err IndexError] if row [i] or its column dim+4 does not exist, [Err ValueError]
    if scipy is given vectors of different lengths. *)
Fixpoint radius_loop (X : list R) (X_c : list (list R)) (sigma : R) (dim : nat) (is : list nat)
  (d_thresh : R) : res Z :=
  match is with
  | [] => Ok 1%Z
  | i :: is' =>
    do row <- geti X_c i;
    do k <- geti row (dim + 4);
    if negb (Nat.eqb (length X) (length (firstn dim row))) then Err ValueError else
    if Rlt_dec (euclid X (firstn dim row)) (sigma_new sigma k * d_thresh / sqrt (INR (length X)))
    then Ok 0%Z
    else radius_loop X X_c sigma dim is' d_thresh
  end.
Definition check_radius_rule (X : list R) (X_c : list (list R)) (sigma : R) (dim nc : nat)
  (d_thresh : R) : res Z :=
  radius_loop X X_c sigma dim (seq 0 nc) d_thresh.

(** [row] is an archive row holding point [y] and failure count [k] (columns 0..dim-1, dim+4). *)
Definition center_row (dim : nat) (row : list R) (y : list R) (k : nat) : Prop :=
  length y = dim /\ firstn dim row = y /\ nth_error row (dim + 4) = Some (INR k).

(** C26. *)
Theorem C26_radius_rule : forall X X_c sigma dim nc d_thresh (cs : list (list R * nat)),
  length X = dim -> (1 <= dim)%nat -> (nc <= length X_c)%nat ->
  Forall2 (fun row c => center_row dim row (fst c) (snd c)) (firstn nc X_c) cs ->
  exists flag, check_radius_rule X X_c sigma dim nc d_thresh = Ok flag /\
    (flag = 0 \/ flag = 1)%Z /\
    (flag = 1%Z <->
     forall y k, In (y, k) cs ->
       euclid X y >= d_thresh * sigma * / 2 ^ k / sqrt (INR dim)).
Proof.
  intros X X_c sigma dim nc d_thresh cs HX Hd Hnc H.
  assert (G : forall rows cs0 pre, X_c = pre ++ rows ++ skipn nc X_c -> 
    Forall2 (fun row c => center_row dim row (fst c) (snd c)) rows cs0 ->
    exists flag, radius_loop X X_c sigma dim (seq (length pre) (length rows)) d_thresh = Ok flag /\
    (flag = 0 \/ flag = 1)%Z /\
    (flag = 1%Z <-> forall y k, In (y, k) cs0 ->
       euclid X y >= d_thresh * sigma * / 2 ^ k / sqrt (INR dim))).
  { intros rows. induction rows as [|row rows IH]; intros cs0 pre EX HF; inversion HF; subst.
    - simpl. exists 1%Z. split; [reflexivity|]. split; [auto|]. split; [intros _ y k []|reflexivity].
    - destruct y as [y k]. cbn [length seq radius_loop].
      assert (E1 : geti X_c (length pre) = Ok row).
      { apply geti_ok. rewrite EX. simpl. apply nth_error_mid. }
      rewrite E1. cbn [rbind]. destruct H2 as [L1 [L2 L3]]. cbn [fst snd] in *.
      assert (E2 : geti row (length X + 4) = Ok (INR k)) by (apply geti_ok; exact L3).
      rewrite E2. cbn [rbind]. rewrite L2, L1, Nat.eqb_refl. cbn [negb].
      assert (E3 : sigma_new sigma (INR k) * d_thresh / sqrt (INR (length X)) =
                   d_thresh * sigma * / 2 ^ k / sqrt (INR (length X))).
      { f_equal. unfold sigma_new. destruct (Req_EM_T (INR k) 0) as [E|E].
        - apply (INR_eq k 0) in E. subst k. simpl. rewrite Rinv_1. lra.
        - rewrite Rpower_pow by lra. unfold Rdiv. rewrite Rmult_1_l, pow_inv. lra. }
      rewrite E3. destruct (Rlt_dec (euclid X y) _) as [Hlt|Hge].
      + exists 0%Z. split; [reflexivity|]. split; [auto|]. split; [discriminate|].
        intros K. exfalso. specialize (K y k (or_introl eq_refl)). lra.
      + destruct (IH l' (pre ++ [row])) as [flag [F1 [F2 F3]]].
        * rewrite <- app_assoc. exact EX.
        * assumption.
        * rewrite app_length, Nat.add_1_r in F1. exists flag. split; [exact F1|]. split; [exact F2|].
          rewrite F3. split.
          -- intros K y' k' [E|Hin]; [injection E as <- <-; lra|apply K; exact Hin].
          -- intros K y' k' Hin. apply K. right. exact Hin. }
  destruct (G (firstn nc X_c) cs []) as [flag K].
  - rewrite app_nil_l, firstn_skipn. reflexivity.
  - exact H.
  - rewrite firstn_length, Nat.min_l in K by assumption. exists flag. exact K.
Qed.
End Radius.

(** ** Examples *)
Definition Zlt_ok : ltb_ok Z.ltb.
Proof. split; [apply Z.ltb_irrefl|]. intros a b c. rewrite !Z.ltb_lt. lia. Qed.

(** Two objectives, six points with ties: hypotheses and conclusion are met. *)
Definition exF : list (list Z) := [[3;3]; [1;5]; [2;2]; [2;2]; [4;4]; [5;1]]%Z.
Lemma exF_matrix : matrix 2 exF.
Proof. split; [lia|]. unfold exF. repeat constructor. Qed.
Example ex_C24 : nd_front Z.ltb exF = Some (Ok ([1; 2; 3; 5], [0; 4])).
Proof. reflexivity. Qed.
Example ex_C24_applies : exists ndf df, nd_front Z.ltb exF = Some (Ok (ndf, df)) /\
    Permutation (ndf ++ df) (seq 0 (length exF)) /\
    forall i, i < length exF -> (In i ndf <-> ~ exists k, beats Z.ltb exF k i).
Proof. apply (C24_nd_front Zlt_ok exF_matrix). discriminate. Qed.
Example ex_C25 : nd_sorting Z.ltb exF 100 = Some (Ok [Some 2; Some 1; Some 1; Some 1; Some 3; Some 1])
  /\ nd_sorting Z.ltb exF 3 = Some (Ok [None; Some 1; Some 1; Some 1; None; Some 1]).
Proof. split; reflexivity. Qed.
Example ex_C25_applies : exists r, nd_sorting Z.ltb exF 3 = Some (Ok r) /\ length r = 6.
Proof. destruct (C25_nd_sorting Zlt_ok 3 exF_matrix) as [r [E [L _]]]. exists r. split; [exact E|exact L]. Qed.

(** Outside the hypothesis F <> []: with no points at all index 0 is returned. *)
Example ex_C24_empty : nd_front Z.ltb ([] : list (list Z)) = Some (Ok ([0], [])).
Proof. reflexivity. Qed.

(** C26: the hypotheses hold for one center that has failed twice; the point is too close
    with threshold 1 if sigma is 0.8 and far enough if sigma is 0.2. *)
Local Open Scope R_scope.
Definition exrow : list R := [1; 0; 0; 0; 0; INR 2].
Lemma exrow_ok : center_row 1 exrow [1] 2.
Proof. repeat split. Qed.
Example ex_C26 : exists f1 f2,
  check_radius_rule [9 / 10] [exrow] (8 / 10) 1 1 1 = Ok f1 /\ f1 = 0%Z /\
  check_radius_rule [9 / 10] [exrow] (2 / 10) 1 1 1 = Ok f2 /\ f2 = 1%Z.
Proof.
  assert (H : Forall2 (fun row (c : list R * nat) => center_row 1 row (fst c) (snd c)) (firstn 1 [exrow]) [([1], 2%nat)]).
  { constructor; [exact exrow_ok|constructor]. }
  destruct (@C26_radius_rule [9 / 10] [exrow] (8 / 10) 1 1 1 _ eq_refl (le_n 1) (le_n 1) H) as [f1 [E1 [O1 I1]]].
  destruct (@C26_radius_rule [9 / 10] [exrow] (2 / 10) 1 1 1 _ eq_refl (le_n 1) (le_n 1) H) as [f2 [E2 [O2 I2]]].
  assert (D : euclid [9 / 10] [1] = 1 / 10).
  { unfold euclid. simpl. replace ((9 / 10 - 1) * (9 / 10 - 1) + 0) with ((1 / 10) * (1 / 10)) by lra.
    apply sqrt_square. lra. }
  exists f1, f2. split; [exact E1|]. split.
  - destruct O1 as [-> | ->]; [reflexivity|]. exfalso.
    destruct I1 as [I1 _]. specialize (I1 eq_refl [1] 2%nat (or_introl eq_refl)). rewrite D in I1.
    simpl INR in I1. rewrite sqrt_1 in I1. simpl in I1. lra.
  - split; [exact E2|]. apply I2. intros y k [E|[]]. injection E as <- <-. rewrite D.
    simpl INR. rewrite sqrt_1. simpl. lra.
Qed.
