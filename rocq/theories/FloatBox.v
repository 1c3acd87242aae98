(** * from_unit_box and unit_rescale in IEEE double arithmetic (utils.py:35-64).

    Doubles are Flocq's [binary_float 53 1024] (one NaN), operations round to nearest even, as
    numpy does elementwise for float64 arrays. *)
From Coq Require Import List Arith ZArith Lia Bool Reals Lra.
From Flocq Require Import Core BinarySingleNaN Plus_error.
From Verif Require Import Base.
Import ListNotations.

Local Open Scope R_scope.

(** IEEE binary64 of numpy (Flocq): precision. *)
Definition prec := 53%Z.
(** IEEE binary64 of numpy (Flocq): exponent bound. *)
Definition emax := 1024%Z.
Global Instance prec_gt_0_b64 : Prec_gt_0 prec. Proof. reflexivity. Qed.
Global Instance prec_lt_emax_b64 : Prec_lt_emax prec emax. Proof. reflexivity. Qed.

(** IEEE binary64 of numpy (Flocq): the type of the entries. *)
Definition b64 := binary_float prec emax.
(** IEEE binary64 of numpy (Flocq): + of utils.py:48. *)
Definition fadd : b64 -> b64 -> b64 := Bplus mode_NE.
(** IEEE binary64 of numpy (Flocq): - of utils.py:33, 48. *)
Definition fsub : b64 -> b64 -> b64 := Bminus mode_NE.
(** IEEE binary64 of numpy (Flocq): * of utils.py:48. *)
Definition fmul : b64 -> b64 -> b64 := Bmult mode_NE.
(** IEEE binary64 of numpy (Flocq): / of utils.py:33, 65. *)
Definition fdiv : b64 -> b64 -> b64 := Bdiv mode_NE.
Notation val x := (B2R x).
Notation fin x := (is_finite x = true).

(** from_unit_box, utils.py:47, one entry *)
Definition from_unit_f (x lb ub : b64) : b64 := fadd lb (fmul (fsub ub lb) x).

(** max / min of an array without NaN *)
(** IEEE binary64 of numpy (Flocq): ndarray.max, utils.py:60. *)
Definition fmax_l (a : b64) (l : list b64) : b64 := fold_left (fun m v => if Bltb m v then v else m) l a.
(** IEEE binary64 of numpy (Flocq): ndarray.min, utils.py:61. *)
Definition fmin_l (a : b64) (l : list b64) : b64 := fold_left (fun m v => if Bltb v m then v else m) l a.

(** IEEE binary64 of numpy (Flocq): np.ones, utils.py:63. *)
Definition f1 : b64 := @B754_finite prec emax false 4503599627370496 (-52) eq_refl.

(** unit_rescale, utils.py:59-64 *)
Definition unit_rescale_f (x : list b64) : res (list b64) :=
  match x with
  | [] => Err ValueError
  | a :: l =>
    let xmax := fmax_l a l in
    let xmin := fmin_l a l in
    if Beqb xmax xmin then Ok (map (fun _ => f1) x)
    else Ok (map (fun v => fdiv (fsub v xmin) (fsub xmax xmin)) x)
  end.

Notation fexp := (SpecFloat.fexp prec emax).
Notation rnd := (round radix2 fexp (round_mode mode_NE)).

Global Instance fexp_valid : Valid_exp fexp. Proof. apply fexp_correct. reflexivity. Qed.
Global Instance fexp_mono : Monotone_exp fexp.
Proof. change (Monotone_exp (FLT_exp (SpecFloat.emin prec emax) prec)). apply FLT_exp_monotone. Qed.

Lemma f1_val : val f1 = 1.
Proof. unfold f1, B2R. unfold F2R. simpl. lra. Qed.

Lemma fmt : forall x : b64, generic_format radix2 fexp (val x).
Proof. intros. apply generic_format_B2R. Qed.

Lemma rnd_fix : forall x : b64, rnd (val x) = val x.
Proof. intros. apply round_generic; [auto with typeclass_instances|apply fmt]. Qed.

Lemma rnd_mono : forall a b, a <= b -> rnd a <= rnd b.
Proof. intros. apply round_le; auto with typeclass_instances. Qed.

Lemma rnd_0 : rnd 0 = 0.
Proof. apply round_0. auto with typeclass_instances. Qed.

Lemma ovf_not_fin : forall (x : b64) s, B2SF x = binary_overflow prec emax mode_NE s -> is_finite x = false.
Proof. intros x s H. destruct x as [?|?| |]; try reflexivity; discriminate. Qed.

Lemma fadd_val : forall x y, fin x -> fin y -> fin (fadd x y) -> val (fadd x y) = rnd (val x + val y).
Proof.
  intros x y Fx Fy F. unfold fadd in *. pose proof (Bplus_correct prec emax _ _ mode_NE x y Fx Fy) as H.
  destruct (Rlt_bool _ _); [apply H|]. destruct H as [H _]. apply ovf_not_fin in H. congruence.
Qed.
Lemma fsub_val : forall x y, fin x -> fin y -> fin (fsub x y) -> val (fsub x y) = rnd (val x - val y).
Proof.
  intros x y Fx Fy F. unfold fsub in *. pose proof (Bminus_correct prec emax _ _ mode_NE x y Fx Fy) as H.
  destruct (Rlt_bool _ _); [apply H|]. destruct H as [H _]. apply ovf_not_fin in H. congruence.
Qed.
Lemma fmul_val : forall x y, fin (fmul x y) -> val (fmul x y) = rnd (val x * val y) /\ fin x /\ fin y.
Proof.
  intros x y F. unfold fmul in *. pose proof (Bmult_correct prec emax _ _ mode_NE x y) as H.
  destruct (Rlt_bool _ _).
  - destruct H as [H1 [H2 _]]. rewrite F in H2. symmetry in H2. apply andb_prop in H2. tauto.
  - apply ovf_not_fin in H. congruence.
Qed.

Lemma fadd_fin_r : forall x y, fin x -> fin (fadd x y) -> fin y.
Proof. intros [[]|[]| |[] ? ? ?] [[]|[]| |[] ? ? ?] F H; simpl in *; try reflexivity; discriminate. Qed.

(** C39. The lower bound is always respected; the upper bound is respected whenever ub - lb is
    exactly representable.  [fin] of the result excludes overflow. *)
Theorem C39_bounds_partial : forall x lb ub : b64,
  fin lb -> fin ub -> 0 <= val x <= 1 -> val lb <= val ub ->
  fin (from_unit_f x lb ub) ->
  val lb <= val (from_unit_f x lb ub) <= rnd (val lb + rnd (val ub - val lb)) /\
  (rnd (val ub - val lb) = val ub - val lb -> val (from_unit_f x lb ub) <= val ub).
Proof.
  intros x lb ub Fl Fu [X0 X1] HB F. unfold from_unit_f in *.
  pose proof (fadd_fin_r _ _ Fl F) as Fm. destruct (fmul_val _ _ Fm) as [Em [Fd Fx]].
  rewrite (fadd_val _ _ Fl Fm F), Em, (fsub_val _ _ Fu Fl Fd).
  set (d := rnd (val ub - val lb)).
  assert (D0 : 0 <= d) by (rewrite <- rnd_0; apply rnd_mono; lra).
  assert (P0 : 0 <= rnd (d * val x)) by (apply Rle_trans with (rnd 0); [rewrite rnd_0; lra|]; apply rnd_mono, Rmult_le_pos; [exact D0|exact X0]).
  assert (P1 : rnd (d * val x) <= d).
  { assert (Ed : rnd d = d).
    { unfold d. apply round_generic; [auto with typeclass_instances|]. apply generic_format_round; auto with typeclass_instances. }
    apply Rle_trans with (rnd d); [|rewrite Ed; apply Rle_refl]. apply rnd_mono. apply Rle_trans with (d * 1); [apply Rmult_le_compat_l; assumption|rewrite Rmult_1_r; apply Rle_refl]. }
  split; [split|].
  - rewrite <- (rnd_fix lb) at 1. apply rnd_mono. lra.
  - apply rnd_mono. lra.
  - intros E. rewrite <- (rnd_fix ub). apply rnd_mono. fold d in E. lra.
Qed.

(** The double closest to -9/10 and the double closest to 1/5. *)
(** IEEE binary64 of numpy (Flocq): example value. *)
Definition f_m09 : b64 := @B754_finite prec emax true 8106479329266893 (-53) eq_refl.
(** IEEE binary64 of numpy (Flocq): example value. *)
Definition f_02 : b64 := @B754_finite prec emax false 7205759403792794 (-55) eq_refl.

(** In the box [-0.9, 0.2] the upper corner of the unit box is mapped outside the box. *)
Theorem C39_upper_refuted :
  Bltb f_m09 f_02 = true /\ is_finite (from_unit_f f1 f_m09 f_02) = true /\
  Bltb f_02 (from_unit_f f1 f_m09 f_02) = true /\ val f_02 < val (from_unit_f f1 f_m09 f_02).
Proof.
  assert (H : Bltb f_02 (from_unit_f f1 f_m09 f_02) = true) by (vm_compute; reflexivity).
  assert (F : is_finite (from_unit_f f1 f_m09 f_02) = true) by (vm_compute; reflexivity).
  split; [vm_compute; reflexivity|]. split; [exact F|]. split; [exact H|].
  rewrite Bltb_correct in H by (auto; reflexivity). apply Rlt_bool_true_iff in H || (destruct (Rlt_bool_spec (val f_02) (val (from_unit_f f1 f_m09 f_02))); [assumption|discriminate]).
Qed.

(** [-1, 3] is a box whose width is exact, with an interior and a boundary point. *)
(** IEEE binary64 of numpy (Flocq): example value. *)
Definition f_m1 : b64 := @B754_finite prec emax true 4503599627370496 (-52) eq_refl.
(** IEEE binary64 of numpy (Flocq): example value. *)
Definition f_3 : b64 := @B754_finite prec emax false 6755399441055744 (-51) eq_refl.
(** IEEE binary64 of numpy (Flocq): example value. *)
Definition f_03 : b64 := @B754_finite prec emax false 5404319552844595 (-54) eq_refl.
Example ex_C39 : fin (from_unit_f f1 f_m1 f_3) /\ Beqb (from_unit_f f1 f_m1 f_3) f_3 = true /\
  Bltb f_m1 (from_unit_f f_03 f_m1 f_3) = true /\ Bltb (from_unit_f f_03 f_m1 f_3) f_3 = true.
Proof. repeat (split; [vm_compute; reflexivity|]). vm_compute. reflexivity. Qed.

(** ** unit_rescale *)
Lemma Bltb_val : forall x y : b64, fin x -> fin y -> (Bltb x y = true <-> val x < val y).
Proof. intros x y Fx Fy. rewrite Bltb_correct by assumption. destruct (Rlt_bool_spec (val x) (val y)); split; intros; try lra; auto; discriminate. Qed.

Lemma fmax_l_spec : forall l a, fin a -> Forall (fun v => fin v) l ->
  In (fmax_l a l) (a :: l) /\ fin (fmax_l a l) /\ forall v, In v (a :: l) -> val v <= val (fmax_l a l).
Proof.
  unfold fmax_l. induction l as [|b l IH]; intros a Fa Fl.
  - split; [left; reflexivity|]. split; [exact Fa|]. intros v [<-|[]]. cbn. lra.
  - inversion Fl as [|? ? Fb Fl']; subst. cbn [fold_left]. set (c := if Bltb a b then b else a).
    assert (Fc : fin c) by (unfold c; destruct (Bltb a b); assumption).
    assert (Hc : val a <= val c /\ val b <= val c /\ (c = a \/ c = b)).
    { unfold c. destruct (Bltb a b) eqn:E.
      - apply Bltb_val in E; auto. split; [lra|]. split; [lra|auto].
      - assert (~ val a < val b) by (rewrite <- Bltb_val by auto; congruence). split; [lra|]. split; [lra|auto]. }
    destruct (IH c Fc Fl') as [A [B C]]. split; [|split; [exact B|]].
    + destruct A as [A|A]; [rewrite <- A; destruct Hc as [_ [_ [E|E]]]; rewrite E; simpl; auto|simpl; auto].
    + intros v [<-|[<-|Hv]]; [specialize (C c (or_introl eq_refl))|specialize (C c (or_introl eq_refl))|apply C; right; exact Hv]; lra.
Qed.

Lemma fmin_l_spec : forall l a, fin a -> Forall (fun v => fin v) l ->
  In (fmin_l a l) (a :: l) /\ fin (fmin_l a l) /\ forall v, In v (a :: l) -> val (fmin_l a l) <= val v.
Proof.
  unfold fmin_l. induction l as [|b l IH]; intros a Fa Fl.
  - split; [left; reflexivity|]. split; [exact Fa|]. intros v [<-|[]]. cbn. lra.
  - inversion Fl as [|? ? Fb Fl']; subst. cbn [fold_left]. set (c := if Bltb b a then b else a).
    assert (Fc : fin c) by (unfold c; destruct (Bltb b a); assumption).
    assert (Hc : val c <= val a /\ val c <= val b /\ (c = a \/ c = b)).
    { unfold c. destruct (Bltb b a) eqn:E.
      - apply Bltb_val in E; auto. split; [lra|]. split; [lra|auto].
      - assert (~ val b < val a) by (rewrite <- Bltb_val by auto; congruence). split; [lra|]. split; [lra|auto]. }
    destruct (IH c Fc Fl') as [A [B C]]. split; [|split; [exact B|]].
    + destruct A as [A|A]; [rewrite <- A; destruct Hc as [_ [_ [E|E]]]; rewrite E; simpl; auto|simpl; auto].
    + intros v [<-|[<-|Hv]]; [specialize (C c (or_introl eq_refl))|specialize (C c (or_introl eq_refl))|apply C; right; exact Hv]; lra.
Qed.

Lemma fsub_fin_le : forall a m M, fin a -> fin m -> fin M -> val m <= val a <= val M -> fin (fsub M m) -> fin (fsub a m).
Proof.
  intros a m M Fa Fm FM [H1 H2] F. pose proof (fsub_val M m FM Fm F) as E. unfold fsub.
  pose proof (Bminus_correct prec emax _ _ mode_NE a m Fa Fm) as H.
  rewrite Rlt_bool_true in H; [apply H|].
  assert (0 <= rnd (val a - val m)) by (rewrite <- rnd_0; apply rnd_mono; lra).
  rewrite Rabs_right by lra. apply Rle_lt_trans with (val (fsub M m)).
  - rewrite E. apply rnd_mono. lra.
  - pose proof (abs_B2R_lt_emax prec emax (fsub M m)) as A. apply Rabs_def2 in A. apply A.
Qed.

Lemma fdiv_unit : forall a b, fin a -> fin b -> 0 <= val a <= val b -> 0 < val b ->
  fin (fdiv a b) /\ val (fdiv a b) = rnd (val a / val b) /\ 0 <= val (fdiv a b) <= 1.
Proof.
  intros a b Fa Fb [H0 H1] H2. unfold fdiv. pose proof (Bdiv_correct prec emax _ _ mode_NE a b) as H.
  assert (Q : 0 <= val a / val b <= 1).
  { unfold Rdiv. assert (0 < / val b) by (apply Rinv_0_lt_compat; lra). split; [apply Rmult_le_pos; lra|].
    apply Rmult_le_reg_r with (val b); [lra|]. rewrite Rmult_assoc, Rinv_l by lra. lra. }
  assert (R0 : 0 <= rnd (val a / val b)) by (rewrite <- rnd_0; apply rnd_mono; lra).
  assert (R1 : rnd (val a / val b) <= 1).
  { rewrite <- f1_val, <- (rnd_fix f1). apply rnd_mono. rewrite f1_val. lra. }
  rewrite Rlt_bool_true in H.
  - destruct H as [E [F _]]; [lra|]. rewrite F, E. auto.
  - rewrite Rabs_right by lra. apply Rle_lt_trans with 1; [lra|]. change 1 with (bpow radix2 0). apply bpow_lt. reflexivity.
Qed.

Lemma fsub_pos : forall M m, fin M -> fin m -> val m < val M -> fin (fsub M m) -> 0 < val (fsub M m).
Proof.
  intros M m FM Fm H F. rewrite fsub_val by assumption.
  assert (0 <= rnd (val M - val m)) by (rewrite <- rnd_0; apply rnd_mono; lra).
  assert (rnd (val M - val m) <> 0); [|lra]. unfold Rminus.
  apply round_plus_neq_0; auto with typeclass_instances; [apply fmt|apply generic_format_opp, fmt|lra].
Qed.

(** C40 in floating point: for finite doubles whose spread does not overflow all results are
    doubles in [0,1], in the (weak) order of the inputs, the minimum is mapped to 0 and the
    maximum to 1. *)
Theorem C40_unit_rescale_float : forall x : list b64, x <> [] -> Forall (fun v => fin v) x ->
  (forall a b, In a x -> In b x -> fin (fsub a b)) ->
  exists y, unit_rescale_f x = Ok y /\ length y = length x /\
  (forall i yi, nth_error y i = Some yi -> fin yi /\ 0 <= val yi <= 1) /\
  (~ (forall a b, In a x -> In b x -> val a = val b) ->
   (forall i j xi xj yi yj, nth_error x i = Some xi -> nth_error x j = Some xj ->
      nth_error y i = Some yi -> nth_error y j = Some yj -> val xi <= val xj -> val yi <= val yj) /\
   (forall i xi yi, nth_error x i = Some xi -> nth_error y i = Some yi ->
      (forall v, In v x -> val xi <= val v) -> val yi = 0) /\
   (forall i xi yi, nth_error x i = Some xi -> nth_error y i = Some yi ->
      (forall v, In v x -> val v <= val xi) -> val yi = 1)).
Proof.
  intros x Hx HF HO. destruct x as [|a l]; [congruence|]. clear Hx. inversion HF as [|? ? Fa Fl]; subst.
  destruct (fmax_l_spec l a Fa Fl) as [M1 [M2 M3]]. destruct (fmin_l_spec l a Fa Fl) as [m1 [m2 m3]].
  unfold unit_rescale_f. set (M := fmax_l a l) in *. set (m := fmin_l a l) in *.
  assert (LE : val m <= val M) by (apply m3; exact M1).
  destruct (Beqb M m) eqn:EE.
  - exists (map (fun _ => f1) (a :: l)). split; [reflexivity|]. split; [apply map_length|]. split.
    + intros i yi H. rewrite nth_error_map in H. destruct (nth_error (a :: l) i); simpl in H; [|discriminate].
      injection H as <-. split; [reflexivity|]. rewrite f1_val. lra.
    + intros K. exfalso. apply K. rewrite Beqb_correct in EE by assumption. apply Req_bool_true_iff in EE ||
        (destruct (Req_bool_spec (val M) (val m)); [|discriminate]). intros u v Hu Hv.
      pose proof (M3 u Hu). pose proof (M3 v Hv). pose proof (m3 u Hu). pose proof (m3 v Hv). lra.
  - assert (LT : val m < val M).
    { rewrite Beqb_correct in EE by assumption. destruct (Req_bool_spec (val M) (val m)); [discriminate|]. lra. }
    assert (FD : fin (fsub M m)) by (apply HO; assumption).
    pose proof (fsub_pos _ _ M2 m2 LT FD) as PD.
    assert (ENT : forall v, In v (a :: l) -> fin (fdiv (fsub v m) (fsub M m)) /\
       val (fdiv (fsub v m) (fsub M m)) = rnd (rnd (val v - val m) / val (fsub M m)) /\
       0 <= val (fdiv (fsub v m) (fsub M m)) <= 1).
    { intros v Hv. assert (Fv : fin v) by (rewrite Forall_forall in HF; auto).
      assert (FS : fin (fsub v m)) by (apply HO; assumption).
      assert (0 <= val (fsub v m) <= val (fsub M m)).
      { rewrite !fsub_val by assumption. pose proof (m3 v Hv). pose proof (M3 v Hv). split.
        - rewrite <- rnd_0. apply rnd_mono. lra.
        - apply rnd_mono. lra. }
      destruct (fdiv_unit (fsub v m) (fsub M m) FS FD H PD) as [A [B C]]. split; [exact A|]. split; [|exact C].
      rewrite B. rewrite (fsub_val v m) by assumption. reflexivity. }
    exists (map (fun v => fdiv (fsub v m) (fsub M m)) (a :: l)). split; [reflexivity|]. split; [apply map_length|].
    assert (NT : forall i yi, nth_error (map (fun v => fdiv (fsub v m) (fsub M m)) (a :: l)) i = Some yi ->
      exists v, nth_error (a :: l) i = Some v /\ In v (a :: l) /\ yi = fdiv (fsub v m) (fsub M m)).
    { intros i yi H. rewrite nth_error_map in H. destruct (nth_error (a :: l) i) as [v|] eqn:Ev; [|discriminate].
      exists v. split; [reflexivity|]. split; [eapply nth_error_In; eauto|]. simpl in H. congruence. }
    split; [|intros _; split; [|split]].
    + intros i yi H. apply NT in H. destruct H as [v [_ [Hv ->]]]. destruct (ENT v Hv) as [A [_ B]]. auto.
    + intros i j xi xj yi yj H1 H2 H3 H4 H5. apply NT in H3. apply NT in H4.
      destruct H3 as [v [E1 [V1 ->]]]. destruct H4 as [w [E2 [V2 ->]]].
      assert (v = xi) by congruence. assert (w = xj) by congruence. subst v w.
      destruct (ENT xi V1) as [_ [-> _]]. destruct (ENT xj V2) as [_ [-> _]]. apply rnd_mono. unfold Rdiv.
      apply Rmult_le_compat_r; [apply Rlt_le, Rinv_0_lt_compat, PD|]. apply rnd_mono. lra.
    + intros i xi yi H1 H2 H3. apply NT in H2. destruct H2 as [v [E1 [V1 ->]]]. assert (v = xi) by congruence. subst v.
      destruct (ENT xi V1) as [_ [-> _]]. replace (val xi - val m) with 0 by (pose proof (H3 m m1); pose proof (m3 xi V1); lra).
      rewrite rnd_0. unfold Rdiv. rewrite Rmult_0_l. apply rnd_0.
    + intros i xi yi H1 H2 H3. apply NT in H2. destruct H2 as [v [E1 [V1 ->]]]. assert (v = xi) by congruence. subst v.
      destruct (ENT xi V1) as [_ [-> _]]. replace (val xi) with (val M) by (pose proof (H3 M M1); pose proof (M3 xi V1); lra).
      rewrite <- (fsub_val M m) by assumption. unfold Rdiv. rewrite Rinv_r by lra. rewrite <- f1_val. apply rnd_fix.
Qed.

Example ex_C40_float :
  (exists y, unit_rescale_f [f_m1; f_02; f_3] = Ok y /\ map (@B2SF prec emax) y =
     [SpecFloat.S754_zero false; SpecFloat.S754_finite false 5404319552844595 (-54);
      SpecFloat.S754_finite false 4503599627370496 (-52)]) /\
  forallb (fun a => forallb (fun b => is_finite (fsub a b)) [f_m1; f_02; f_3]) [f_m1; f_02; f_3] = true.
Proof. split; [eexists; split; [reflexivity|]; vm_compute; reflexivity|vm_compute; reflexivity]. Qed.
Print Assumptions C39_bounds_partial.
Print Assumptions C39_upper_refuted.
Print Assumptions C40_unit_rescale_float.
