(** * C72: a run of SRBF that meets the hypotheses. *)
From Coq Require Import List Arith ZArith Lia Bool QArith Reals Lra Qreals.
From Verif Require Import Base PyList Strategy StrategySpec StrategyProofs StrategyInv StrategyInv2
  StrategyInv3 StrategyInv4 StrategySerial PropStrategy SRBF SRBFProofs SRBFInv PropSRBF Box PropBox Cand PropCand EndToEnd
  SyncRun Design Lin RBF PropRBF PosDef PropSurr PropSolve SRBFRun ExSRBFRun Picks RbfPicks StratMap PointMap ScaleRun UnitsRun UnitsSmall ExUnits Reach.
Import ListNotations.
Local Close Scope Q_scope.
Local Open Scope R_scope.

(** The data are at 0 and 1 in [0, 1]; the next batch of two points can be anywhere, for instance within
    0.001 of 0.3. *)
Example ex_C72 : exists p z1 delta, y_proc (Strategy.run (cfg1 false 2) (hku q1) (Ok d1) srbf0 pre71) = Some p /\ 0 < delta /\
  forall z, in_box 1 z1 delta z -> exists out p2 t x y, do_propose (cfg1 false 2) (hku q1) (Ok d1) z p = Ok (out, p2) /\
  p_hist p2 = p_hist p ++ t /\ In (EvGenerate 2 (Some [[x]; [y]])) t /\ Rabs (x - 3 / 10) <= / 1000 /\ Rabs (y - 3 / 10) <= / 1000.
Proof.
  destruct (batchu 1 ltac:(lra)) as [E [p' [out [t [l [_ [DP [T1 T2]]]]]]]]. destruct unit1 as [U1 [U2 [U3 _]]]. rewrite U1, U2, U3 in E. rewrite U1, U2 in DP.
  pose proof (setu 1 ltac:(lra)) as SE. rewrite U1 in SE. pose proof (feasu 1 ltac:(lra)) as FD. rewrite U1, U2 in FD.
  assert (HL : legal (cfg1 false 2)) by (right; simpl; lia).
  destruct (@C72_srbf q1 1 edist (fixed_dtol 1) (Some 2%nat) (/ 1000000) (cfg1 false 2) w1 SE HL (Ok d1) pre71 (pru 1) E) with (d := Ok d1) (z0 := z71) (out := out) (p' := p') (t := t) (n := 2%nat) (r := Some l)
    (y := [3 / 10]) (eps := / 1000) as [z1 [delta [D1 D2]]]; auto.
  - intros d [= <-]. exact FD.
  - intros d z H. unfold pre71, ask1 in H. cbn [In] in H. destruct H as [H|[H|[H|[H|[H|[H|[]]]]]]]; first [discriminate H|injection H as <- _; exact FD].
  - constructor.
  - split; [|intros i []]. split; [reflexivity|]. intros [|i] Hi; [unfold q1; simpl; lra|lia].
  - lra.
  - exists (pru 1), z1, delta. split; [exact E|]. split; [exact D1|]. intros z Hz. destruct (D2 z Hz) as [o2 [p2 [t2 [l2 [A1 [A2 [A3 [A4 A5]]]]]]]].
    destruct l2 as [|x [|y [|w l2]]]; try discriminate A4. inversion A5 as [|? ? [L1 N1] A6]; subst. inversion A6 as [|? ? [L2 N2] _]; subst.
    destruct x as [|x [|x' l3]]; try discriminate L1. destruct y as [|y [|y' l4]]; try discriminate L2.
    exists o2, p2, t2, x, y. split; [exact A1|]. split; [exact A2|]. split; [exact A3|].
    split; [exact (proj1 (N1 0%nat ltac:(lia)))|exact (proj1 (N2 0%nat ltac:(lia)))].
Qed.
