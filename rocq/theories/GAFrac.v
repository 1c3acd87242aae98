(** * Initial population of the genetic algorithm with bounds that are not integers (C35). *)
From Coq Require Import List Arith ZArith Lia Bool Reals Lra QArith.
From Verif Require Import Base PyList Box PropBox Cand PropCand GA PropGA.
Import ListNotations.
Set Implicit Arguments.
Local Close Scope Q_scope.

(** ** C35: fractional bounds *)
Section Frac.
Local Open Scope R_scope.
Lemma Raux_Rabs : forall x y, Rabs x <= y -> - y <= x <= y.
Proof. intros x y H. unfold Rabs in H. destruct (Rcase_abs x); lra. Qed.
Local Open Scope R_scope.
Variable q : prob.
Variable dim : nat.

Lemma shift_cols_ent : forall iv X, length (q_lb q) = dim -> length (q_ub q) = dim -> NoDup iv ->
  (forall i, In i iv -> (i < dim)%nat) -> Forall (fun x : pt => length x = dim) X ->
  exists Y, shift_cols q iv X = Ok Y /\ Forall2 (ent (fun j a => if PropBox.mem j iv then shift ((q_lb q)@j) ((q_ub q)@j) a else a)) X Y.
Proof using.
  intros iv. induction iv as [|i iv IH]; intros X Hl Hu ND Hiv HX.
  - exists X. split; [reflexivity|]. apply ent_refl.
  - cbn [shift_cols]. assert (Hi : (i < dim)%nat) by (apply Hiv; left; reflexivity).
    assert (G1 : geti (q_lb q) i = Ok ((q_lb q)@i)) by (apply geti_ok; apply nth_error_nth'; lia).
    assert (G2 : geti (q_ub q) i = Ok ((q_ub q)@i)) by (apply geti_ok; apply nth_error_nth'; lia).
    rewrite G1, G2. cbn [rbind].
    destruct (@col_map_ent dim i (shift_low ((q_lb q)@i)) X Hi HX) as [Y1 [E1 F1]]. rewrite E1. cbn [rbind].
    pose proof (Forall2_len HX F1) as HY1.
    destruct (@col_map_ent dim i (shift_high ((q_ub q)@i)) Y1 Hi HY1) as [Y2 [E2 F2]]. rewrite E2. cbn [rbind].
    pose proof (Forall2_len HY1 F2) as HY2. inversion ND as [|? ? NI ND']; subst.
    destruct (IH Y2) as [Z [E3 F3]]; auto; [intros; apply Hiv; right; assumption|].
    exists Z. split; [exact E3|]. pose proof (Forall2_comp (Forall2_comp F1 F2) F3) as K.
    eapply Forall2_ext; [exact HX| |exact K]. intros j a Hj. cbn. unfold PropBox.mem. cbn [existsb]. fold (PropBox.mem j iv).
    destruct (Nat.eqb_spec j i) as [->|]; cbn [orb]; [|reflexivity].
    destruct (PropBox.mem i iv) eqn:Em; [exfalso; apply PropBox.mem_spec in Em; contradiction|]. reflexivity.
Qed.

(** Rounding a value of an interval that contains an integer and then moving by one if it left the
    interval gives an integer of the interval. *)
Lemma shift_round : forall l u a z, l <= a <= u -> l <= IZR z <= u -> l <= shift l u (np_round a) <= u /\ integral (shift l u (np_round a)).
Proof using.
  intros l u a z [A1 A2] [Z1 Z2].
  assert (N : Rabs (a - np_round a) <= / 2) by (unfold np_round; pose proof (Flocq.Core.Generic_fmt.Znearest_half (fun x => negb (Z.even x)) a); lra).
  unfold np_round in *. set (k := Flocq.Core.Generic_fmt.Znearest (fun x => negb (Z.even x)) a) in *. apply Raux_Rabs in N. destruct N as [N1 N2].
  unfold shift, shift_low, shift_high. destruct (Rlt_dec (IZR k) l) as [L|L].
  - assert (K : (k < z)%Z) by (apply lt_IZR; lra). assert (K' : (k + 1 <= z)%Z) by lia. apply IZR_le in K'. rewrite plus_IZR in K'.
    destruct (Rlt_dec u (IZR k + 1)); [lra|]. split; [lra|]. exists (k + 1)%Z. rewrite plus_IZR. reflexivity.
  - destruct (Rlt_dec u (IZR k)) as [U|U].
    + assert (K : (z < k)%Z) by (apply lt_IZR; lra). assert (K' : (z <= k - 1)%Z) by lia. apply IZR_le in K'. rewrite minus_IZR in K'.
      split; [lra|]. exists (k - 1)%Z. rewrite minus_IZR. reflexivity.
    + split; [lra|]. exists k. reflexivity.
Qed.

(** C35, initial population: it is feasible even if the bounds of the integer variables are not
    integers, as long as there is an integer between them; the other coordinates are unchanged. *)
Theorem C35_initial_fractional : forall X, bounds dim (q_lb q) (q_ub q) -> NoDup (q_int q) ->
  (forall i, In i (q_int q) -> (i < dim)%nat /\ exists z, (q_lb q)@i <= IZR z <= (q_ub q)@i) ->
  Forall (inside dim (q_lb q) (q_ub q)) X ->
  exists Y, init_round q X = Ok Y /\ length Y = length X /\ Forall (inside dim (q_lb q) (q_ub q)) Y /\
    Forall2 (fun x y => forall i, (i < dim)%nat -> (In i (q_int q) -> integral (y@i) /\ Rabs (y@i - x@i) <= 1) /\ (~ In i (q_int q) -> y@i = x@i)) X Y.
Proof using.
  intros X [B1 [B2 _]] ND HI HX.
  assert (R : Forall (fun x : pt => length x = dim) X) by (eapply Forall_impl; [|exact HX]; intros x [H _]; exact H).
  destruct (@round_cols_ent dim (q_int q) X) as [Y [E1 F1]]; [intros i Hi; apply (HI i Hi)|exact R|].
  destruct (@shift_cols_ent (q_int q) Y B1 B2 ND) as [Z [E2 F2]]; [intros i Hi; apply (HI i Hi)|eapply Forall2_len; eauto|].
  exists Z. split; [unfold init_round; destruct (q_int q); [cbn in E1, E2; congruence|rewrite E1; exact E2]|].
  pose proof (Forall2_comp F1 F2) as F. clear E1 E2 F1 F2 Y. split; [clear -F; induction F; simpl; congruence|].
  assert (G : forall x y, inside dim (q_lb q) (q_ub q) x -> ent (fun j a => if PropBox.mem j (q_int q) then shift ((q_lb q)@j) ((q_ub q)@j) (if PropBox.mem j (q_int q) then np_round a else a) else (if PropBox.mem j (q_int q) then np_round a else a)) x y ->
     inside dim (q_lb q) (q_ub q) y /\ (forall i, (i < dim)%nat -> (In i (q_int q) -> integral (y@i) /\ Rabs (y@i - x@i) <= 1) /\ (~ In i (q_int q) -> y@i = x@i))).
  { intros x y [L1 L2] [K1 K2].
    assert (P : forall i, (i < dim)%nat -> (q_lb q)@i <= y@i <= (q_ub q)@i /\ (In i (q_int q) -> integral (y@i) /\ Rabs (y@i - x@i) <= 1) /\ (~ In i (q_int q) -> y@i = x@i)).
    { intros i Hi. specialize (L2 i Hi). rewrite K2 by lia. destruct (PropBox.mem i (q_int q)) eqn:Em.
      - apply PropBox.mem_spec in Em. destruct (HI i Em) as [_ [z Hz]]. destruct (@shift_round _ _ _ z L2 Hz) as [S1 S2]. split; [exact S1|]. split; [|intros K; contradiction].
        intros _. split; [exact S2|]. pose proof (Flocq.Core.Generic_fmt.Znearest_half (fun x => negb (Z.even x)) (x@i)) as N. unfold np_round, shift, shift_low, shift_high in *.
        set (k := Flocq.Core.Generic_fmt.Znearest (fun x => negb (Z.even x)) (x@i)) in *. apply Raux_Rabs in N. destruct N as [N1 N2].
        clearbody k. destruct (Rlt_dec (IZR k) ((q_lb q)@i)), (Rlt_dec ((q_ub q)@i) _) as [U|U]; apply Rabs_le; lra.
      - assert (NI : ~ In i (q_int q)) by (intros K; apply PropBox.mem_spec in K; congruence). split; [exact L2|]. split; [intros K; contradiction|reflexivity]. }
    split; [split; [lia|]|]; intros i Hi; apply (P i Hi). }
  clear -F G HX. split.
  - revert HX. induction F as [|x y X Z H F IH]; intros HX; inversion HX; subst; constructor; [apply (G x y); assumption|auto].
  - revert HX. induction F as [|x y X Z H F IH]; intros HX; inversion HX; subst; constructor; [apply (G x y); assumption|auto].
Qed.
End Frac.

(** A box with fractional bounds where both moves happen: [2/5, 12/5] contains 1 and 2; the value 2/5
    is rounded to 0 and moved to 1; in [3/5, 13/5] the value 13/5 is rounded to 3 and moved to 2. *)
Example ex_C35_fractional : (shift (2/5) (12/5) (np_round (2/5)) = 1 /\ shift (3/5) (13/5) (np_round (13/5)) = 2)%R.
Proof.
  rewrite (@np_round_val (2/5) 0), (@np_round_val (13/5) 3) by (apply Rabs_def1; lra). unfold shift, shift_low, shift_high.
  destruct (Rlt_dec 0 (2/5)); [|lra]. destruct (Rlt_dec (12/5) (0+1)); [lra|]. destruct (Rlt_dec 3 (3/5)); [lra|]. destruct (Rlt_dec (13/5) 3); lra.
Qed.

