(** * DYCORS/SOP perturbation probability (C23).

    Model of the computation of prob_perturb in dycors_strategy.py:86-90 and
    sop_strategy.py:279-284 over the real numbers (rounding is not modelled; [ln] is the real
    logarithm, the code's log of a non-positive number is not modelled and excluded by the
    hypotheses). *)
From Coq Require Import List Arith ZArith Lia Bool Reals Lra Permutation.
From Verif Require Import Base PyList Strategy StrategySpec StrategyProofs StrategyInv StrategyInv2
  StrategyInv3 StrategyInv4 PropStrategy.
Import ListNotations.

Set Implicit Arguments.
Local Open Scope R_scope.

(** [n] is len(self.X) + len(self.Xpend), [m] is num_exp, [b] is max_evals. *)
(** pySOT/strategy/dycors_strategy.py:84-90. *)
Definition prob_perturb (dim m b n : nat) : R :=
  let num_evals := INR n - INR m + 1 in
  let min_prob := Rmin 1 (1 / INR dim) in
  let budget := INR b - INR m in
  Rmax (Rmin (20 / INR dim) 1 * (1 - ln num_evals / ln budget)) min_prob.

Section Prob.
Variables dim m b : nat.
Hypothesis Hdim : (1 <= dim)%nat.
Hypothesis Hbud : (m + 2 <= b)%nat.

Lemma ln_bud : 0 < ln (INR b - INR m).
Proof.
  rewrite <- ln_1. apply ln_increasing; [lra|].
  rewrite <- minus_INR by lia. apply lt_1_INR. lia.
Qed.

Lemma dim_pos : 1 <= INR dim.
Proof. change 1 with (INR 1). apply le_INR. assumption. Qed.

Lemma min_prob_eq : Rmin 1 (1 / INR dim) = 1 / INR dim.
Proof.
  pose proof dim_pos. apply Rmin_right. unfold Rdiv. rewrite Rmult_1_l, <- Rinv_1.
  apply Rinv_le_contravar; lra.
Qed.

(** The probability lies in [1/dim, 1]. *)
Theorem C23_probability : forall n, (m <= n)%nat ->
  1 / INR dim <= prob_perturb dim m b n <= 1.
Proof.
  intros n Hn. unfold prob_perturb. cbv zeta. rewrite min_prob_eq. pose proof dim_pos as D.
  split; [apply Rmax_r|]. apply Rmax_lub.
  - assert (N : 1 <= INR n - INR m + 1).
    { rewrite <- minus_INR by assumption. pose proof (pos_INR (n - m)). lra. }
    assert (L : 0 <= ln (INR n - INR m + 1)).
    { destruct (Req_dec (INR n - INR m + 1) 1) as [->|E]; [rewrite ln_1; lra|].
      apply Rlt_le. rewrite <- ln_1. apply ln_increasing; lra. }
    pose proof ln_bud as B.
    assert (Q : 0 <= ln (INR n - INR m + 1) / ln (INR b - INR m)).
    { apply Rmult_le_pos; [assumption|]. apply Rlt_le, Rinv_0_lt_compat. assumption. }
    assert (P0 : 0 < 20 / INR dim) by (apply Rdiv_lt_0_compat; lra).
    assert (Pm : 0 < Rmin (20 / INR dim) 1) by (apply Rmin_glb_lt; lra).
    pose proof (Rmin_r (20 / INR dim) 1).
    assert (Rmin (20 / INR dim) 1 * (1 - ln (INR n - INR m + 1) / ln (INR b - INR m)) <=
            Rmin (20 / INR dim) 1 * 1) by (apply Rmult_le_compat_l; lra). lra.
  - rewrite <- min_prob_eq. apply Rmin_l.
Qed.

(** It does not increase with the number of evaluations. *)
Theorem C23_antitone : forall n n', (m <= n)%nat -> (n <= n')%nat ->
  prob_perturb dim m b n' <= prob_perturb dim m b n.
Proof.
  intros n n' Hn Hle. unfold prob_perturb. cbv zeta. pose proof dim_pos as D.
  apply Rle_max_compat_r. apply Rmult_le_compat_l.
  - apply Rmin_glb; [|lra]. apply Rlt_le, Rdiv_lt_0_compat; lra.
  - pose proof ln_bud as B.
    assert (N : 1 <= INR n - INR m + 1).
    { rewrite <- minus_INR by assumption. pose proof (pos_INR (n - m)). lra. }
    assert (N' : INR n <= INR n') by (apply le_INR; assumption).
    assert (L : ln (INR n - INR m + 1) <= ln (INR n' - INR m + 1)).
    { destruct (Req_dec (INR n - INR m + 1) (INR n' - INR m + 1)) as [->|E]; [lra|].
      apply Rlt_le. apply ln_increasing; lra. }
    assert (ln (INR n - INR m + 1) / ln (INR b - INR m) <= ln (INR n' - INR m + 1) / ln (INR b - INR m)); [|lra].
    apply Rmult_le_compat_r; [|assumption]. apply Rlt_le, Rinv_0_lt_compat. assumption.
Qed.

(** The first adaptive point is perturbed with probability min(20/dim, 1). *)
Theorem C23_first : prob_perturb dim m b m = Rmin (20 / INR dim) 1.
Proof.
  unfold prob_perturb. cbv zeta. rewrite min_prob_eq. replace (INR m - INR m + 1) with 1 by lra.
  rewrite ln_1. unfold Rdiv at 2. rewrite Rmult_0_l, Rminus_0_r, Rmult_1_r.
  apply Rmax_left. pose proof dim_pos as D. apply Rmin_glb.
  - unfold Rdiv. apply Rmult_le_compat_r; [apply Rlt_le, Rinv_0_lt_compat|]; lra.
  - rewrite <- min_prob_eq. apply Rmin_l.
Qed.
End Prob.

(** ** The count of evaluations when adaptive points are generated *)
Theorem C23_count_partial :
  forall P V Ext Orc (c : cfg P V) (hk : hooks P V Ext Orc) design e0,
  (forall x y, c_peqb c x y = true <-> x = y) ->
  forall p, reached c hk design e0 p ->
  batch_queue (p_s p) = [] -> no_duplicates (p_hist p) ->
  count (@is_resume P V) (p_hist p) = 0%nat -> given_up (c_async c) (p_hist p) = [] ->
  (c_num_pts c <= length (X (p_s p)) + length (Xpend (p_s p)))%nat.
Proof.
  intros P V Ext Orc c hk design e0 Hp p H Hq Hnd Hr Hg.
  destruct (C08_queued_points_conserved_partial H Hr) as [s [e [Hc Hperm]]].
  destruct (C08_initial_queue _ _ _ _ Hc) as [d [_ [Hl Hb]]].
  apply Permutation_length in Hperm. rewrite Hq, Hg, Hb in Hperm.
  rewrite !app_length, Hl, !map_length in Hperm. simpl in Hperm.
  destruct (C04_history H) as [HX _].
  destruct (C05_xpend_partial Hp H) as [_ HXp]. rewrite (HXp Hnd), HX, app_length, !map_length. lia.
Qed.

(** After evaluations were lost (here: the process was killed while a design point was running,
    after adaptive points had been asked for) the count can be too small: the code then takes
    the logarithm of 0 or of a negative number. *)
From Verif Require Import ExStrategy.
(** Example run, no counterpart in /repo. *)
Definition ops_c23 : list (op nat Z (option (list nat))) :=
  [Propose (Ok [20; 21]) None; Accept 0; Propose (Ok [20; 21]) None; Accept 1;
   Propose (Ok [20; 21]) (Some [30]); Accept 2;
   Update 2 SKilled; Crash; Resume]%nat.
Theorem C23_count_refuted : exists p : proc nat Z unit,
  reached (tcfg 9 true 0 true) thk d0 tt p /\ batch_queue (p_s p) = [] /\ phase (p_s p) = 2%nat /\
  (Z.of_nat (length (X (p_s p))) + Z.of_nat (length (Xpend (p_s p))) - Z.of_nat (c_num_pts (tcfg 9 true 0 true)) + 1 = -1)%Z.
Proof.
  pose (p := pr_ (tcfg 9 true 0 true) ops_c23).
  assert (E : y_proc (run_ (tcfg 9 true 0 true) ops_c23) = Some p) by (apply pr_ok; vm_compute; reflexivity).
  exists p. split; [apply (run_reached _ ops_c23); exact E|]. clear E. unfold p. vm_compute. repeat split; reflexivity.
Qed.
