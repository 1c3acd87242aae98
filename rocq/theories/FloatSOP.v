(** * The sampling radii of SOP in IEEE doubles (sop_strategy.py:54-76, utils.py:513-517). *)
From Coq Require Import List Arith ZArith QArith Qreals Qminmax Lia Bool Reals Lra.
From Flocq Require Import Core BinarySingleNaN.
From Verif Require Import Base Strategy StrategyOps SRBF SOP SOPProofs SOPInv PropSOP.
From Coq Require Import Rdefinitions.
From Verif Require Import FloatBox FloatCand FloatStep.
Import ListNotations.

(** np.power(1 / 2, k), utils.py:517: a power of two, exact in doubles; modelled as a product. *)
Definition pow_half (k : nat) : b64 := Nat.iter k (fmul f_half) f1.
(** sigma_new, utils.py:514-517. *)
Definition sigma_new_f (k : nat) (sigma : b64) : b64 := if (k =? 0)%nat then sigma else fmul (pow_half k) sigma.
(** the radius of a record after k failures: reduce_sigma k times, sop_strategy.py:54-56 (the double
    0.2 divided by 2.0 k times) *)
Definition sop_radius_f (k : nat) : b64 := Nat.iter k halve_f f_02.

(** Helper with no counterpart in /repo: the checks of one level. *)
Definition sop_level_ok (k : nat) : bool :=
  let q := (r_max * (1 # 2) ^ Z.of_nat k)%Q in
  has_value (sop_radius_f k) q && has_value (halve_f (sop_radius_f k)) (q / 2) && has_value (sigma_new_f k f_02) q.
Lemma sop_levels_ok : forallb sop_level_ok (seq 0 4) = true.
Proof. vm_compute. reflexivity. Qed.

(** C28. In every reachable state the radius of every archived record is exactly the double that Python
    holds after the same number of failures (0.2 divided by 2.0 that often), the next division is exact
    too, and the radius the center selection derives for the same number of failures
    (0.5^k times 0.2, check_radius_rule) is the same double value. *)
Theorem C28_radius_in_doubles :
  forall (P : Type) (c : cfg P SRBF.val) (dist : P -> P -> Q) (tooclose : P -> P -> nat -> Q -> bool)
    (ncenters : Z) (design : res (list P)) (p : proc P SRBF.val (sop P)) (r : srec P),
  reached c (sop_strategy c dist tooclose ncenters) design sop0 p -> In r (s_evals (p_e p)) ->
  (fin (sop_radius_f (r_nfail r)) /\ val (sop_radius_f (r_nfail r)) = Q2R (r_sigma r)) /\
  (fin (halve_f (sop_radius_f (r_nfail r))) /\ val (halve_f (sop_radius_f (r_nfail r))) = Q2R (r_sigma r / 2)) /\
  (fin (sigma_new_f (r_nfail r) f_02) /\ val (sigma_new_f (r_nfail r) f_02) = Q2R (r_sigma r)).
Proof.
  intros P c dist tooclose nc design p r H Hr.
  destruct (@C28_ranges P c dist tooclose nc design p r H Hr) as [Hk [_ E]].
  pose proof sop_levels_ok as L. rewrite forallb_forall in L.
  specialize (L (r_nfail r) ltac:(apply in_seq; lia)). unfold sop_level_ok in L. cbv zeta in L.
  apply andb_prop in L. destruct L as [L L3]. apply andb_prop in L. destruct L as [L1 L2].
  apply has_value_ok in L1. apply has_value_ok in L2. apply has_value_ok in L3.
  destruct L1 as [A1 A2], L2 as [B1 B2], L3 as [C1 C2].
  rewrite A2, B2, C2. split; [split; [exact A1|]|split; [split; [exact B1|]|split; [exact C1|]]]; apply Qeq_eqR; rewrite E; reflexivity.
Qed.

(** Example: the four radii a record can have are the doubles of 0.2, 0.1, 0.05 and 0.025, and they are
    pairwise different. *)
Example ex_sop_radii :
  has_value f_02 r_max = true /\ has_value (sop_radius_f 1) (r_max / 2) = true /\
  has_value (sop_radius_f 3) (r_max / 8) = true /\ has_value (sop_radius_f 3) (r_max / 4) = false.
Proof. vm_compute. repeat split. Qed.
