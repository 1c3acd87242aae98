(** * to_unit_box in IEEE double arithmetic and the round trip (utils.py:20-48). *)
From Coq Require Import List Arith ZArith Lia Bool Reals Lra Psatz.
From Flocq Require Import Core BinarySingleNaN.
From Verif Require Import Base FloatBox FloatCand.
Import ListNotations.
Local Open Scope R_scope.

(** to_unit_box, utils.py:32, one entry: (x - lb) / (ub - lb) *)
Definition to_unit_f (x lb ub : b64) : b64 := fdiv (fsub x lb) (fsub ub lb).

Lemma to_unit_f_val : forall x lb ub : b64, fin x -> fin lb -> fin ub -> val lb < val ub ->
  val lb <= val x <= val ub -> fin (fsub ub lb) ->
  fin (to_unit_f x lb ub) /\ 0 <= val (to_unit_f x lb ub) <= 1 /\ 0 < val (fsub ub lb) /\
  val (fsub ub lb) = rnd (val ub - val lb) /\
  val (to_unit_f x lb ub) = rnd (rnd (val x - val lb) / rnd (val ub - val lb)).
Proof.
  intros x lb ub Fx Fl Fu HB [H1 H2] F. unfold to_unit_f.
  pose proof (fsub_fin_le x lb ub Fx Fl Fu (conj H1 H2) F) as Fd.
  pose proof (fsub_pos ub lb Fu Fl HB F) as P.
  assert (D : 0 <= val (fsub x lb) <= val (fsub ub lb)).
  { rewrite !fsub_val by assumption. split; [rewrite <- rnd_0; apply rnd_mono; lra|apply rnd_mono; lra]. }
  destruct (fdiv_unit _ _ Fd F D P) as [A [B C]].
  rewrite (fsub_val x lb Fx Fl Fd) in B. pose proof (fsub_val ub lb Fu Fl F) as E. rewrite E in B at 1.
  split; [exact A|]. split; [exact C|]. split; [exact P|]. split; [exact E|exact B].
Qed.

(** C38 in doubles: a point of the box is mapped into [0,1], the bounds exactly to 0 and 1, and the
    (weak) order of the points is kept. *)
Theorem C38_to_unit_in_doubles : forall lb ub : b64, fin lb -> fin ub -> val lb < val ub -> fin (fsub ub lb) ->
  (forall x, fin x -> val lb <= val x <= val ub -> fin (to_unit_f x lb ub) /\ 0 <= val (to_unit_f x lb ub) <= 1) /\
  (forall x y, fin x -> fin y -> val lb <= val x -> val x <= val y -> val y <= val ub ->
     val (to_unit_f x lb ub) <= val (to_unit_f y lb ub)) /\
  val (to_unit_f lb lb ub) = 0 /\ val (to_unit_f ub lb ub) = 1.
Proof.
  intros lb ub Fl Fu HB F. split; [|split; [|split]].
  - intros x Fx Hx. destruct (to_unit_f_val x lb ub Fx Fl Fu HB Hx F) as [A [B _]]. auto.
  - intros x y Fx Fy H1 H2 H3.
    destruct (to_unit_f_val x lb ub Fx Fl Fu HB ltac:(lra) F) as [_ [_ [P [E ->]]]].
    destruct (to_unit_f_val y lb ub Fy Fl Fu HB ltac:(lra) F) as [_ [_ [_ [_ ->]]]].
    apply rnd_mono. unfold Rdiv. apply Rmult_le_compat_r; [apply Rlt_le, Rinv_0_lt_compat; lra|]. apply rnd_mono. lra.
  - destruct (to_unit_f_val lb lb ub Fl Fl Fu HB ltac:(lra) F) as [_ [_ [_ [_ ->]]]].
    unfold Rminus at 1. rewrite Rplus_opp_r, rnd_0. unfold Rdiv. rewrite Rmult_0_l. apply rnd_0.
  - destruct (to_unit_f_val ub lb ub Fu Fl Fu HB ltac:(lra) F) as [_ [_ [P [E ->]]]].
    unfold Rdiv. rewrite Rinv_r by lra. rewrite <- f1_val. apply rnd_fix.
Qed.

(** C38 in doubles: mapping a point of the box to the unit box and back returns it up to 2^-51 times
    its distance to the lower bound plus 2^-53 times its size (and an underflow term). *)
Theorem C38_round_trip_in_doubles : forall x lb ub : b64, fin x -> fin lb -> fin ub -> val lb < val ub ->
  val lb <= val x <= val ub -> fin (fsub ub lb) -> fin (from_unit_f (to_unit_f x lb ub) lb ub) ->
  Rabs (val (from_unit_f (to_unit_f x lb ub) lb ub) - val x) <=
    bpow radix2 (-51) * (val x - val lb) + bpow radix2 (-53) * Rabs (val x) + (2 * (val ub - val lb) + 1) * bpow radix2 (-1074).
Proof.
  intros x lb ub Fx Fl Fu HB Hx F FR.
  destruct (to_unit_f_val x lb ub Fx Fl Fu HB Hx F) as [A [B [P [E V]]]].
  unfold from_unit_f in *. pose proof (fadd_fin_r _ _ Fl FR) as Fm. destruct (fmul_val _ _ Fm) as [Em _].
  rewrite (fadd_val _ _ Fl Fm FR), Em, V, E.
  assert (P' : 0 < rnd (val ub - val lb)) by lra.
  pose proof (core_lower (val x) (val lb) _ (fmt x) (fmt lb) P') as L.
  pose proof (core_upper (val x) (val lb) _ (fmt x) (fmt lb) P') as U.
  rewrite Rmult_comm, (Rplus_comm (val lb)).
  rewrite Rabs_left1 in L by lra. rewrite Rabs_right in U by lra.
  pose proof (width_up lb ub ltac:(lra)) as W. pose proof uu_small as US. pose proof tiny_pos as T.
  assert (E4 : bpow radix2 (-51) = 4 * uu).
  { unfold uu. change 4 with (bpow radix2 2). rewrite <- bpow_plus. reflexivity. }
  rewrite E4. fold uu tiny.
  assert (W2 : rnd (val ub - val lb) <= 2 * (val ub - val lb)).
  { assert ((val ub - val lb) * uu <= (val ub - val lb) * 1) by (apply Rmult_le_compat_l; lra). lra. }
  assert (W3 : (rnd (val ub - val lb) + 1) * tiny <= (2 * (val ub - val lb) + 1) * tiny) by (apply Rmult_le_compat_r; lra).
  apply Rabs_le. split; lra.
Qed.

(** The hypotheses are met in the box [-1, 3]. *)
Example ex_C38_doubles : fin (fsub f_3 f_m1) /\ Bltb f_m1 f_3 = true /\
  fin (from_unit_f (to_unit_f f_03 f_m1 f_3) f_m1 f_3) /\ Bltb f_m1 f_03 = true /\ Bltb f_03 f_3 = true /\
  to_unit_f f_3 f_m1 f_3 = f1.
Proof. repeat (split; [vm_compute; reflexivity|]). apply B2SF_inj. vm_compute. reflexivity. Qed.
