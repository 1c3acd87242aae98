(** * Examples for C74: a serial run. *)
From Coq Require Import List Arith ZArith Lia Bool QArith Permutation Reals Lra Qreals.
From Verif Require Import Base PyList Strategy StrategySpec StrategyProofs StrategyInv StrategyInv2
  StrategyInv3 StrategyInv4 StrategyOps StrategySerial PropStrategy SRBF SRBFProofs SRBFInv PropSRBF Box PropBox Cand PropCand EndToEnd Lin LinProofs RBF PropRBF PropSurr PropSolve SyncRun SRBFRun
  SOP SOPProofs SOPCenters SOPInv PropSOP SOPTotal SOPAsync SOPSerial ScaleSOP SOPSearch SOPFeas Picks PicksSOP RbfPicks RbfPicksSOP EIStrat ResumeKill ExSRBFRun SOPRbfRun ExSOPRbfRun.
From Coq Require Import Rdefinitions.
Import ListNotations.
Local Close Scope Q_scope.
Local Open Scope R_scope.
Lemma state74 : forall p, Some p = y_proc (run74 (round74 0 ++ round74 1)) -> facts74 (Some p).
Proof. intros p Hp. rewrite Hp. exact facts74_run. Qed.
Lemma generates74 : forall p out p1, y_proc (run74 (round74 0 ++ round74 1)) = Some p -> do_propose cfg74 hk74 (Ok d74) z74 p = Ok (out, p1) ->
  exists l n x, p_hist p1 = p_hist p ++ [EvGenerate n (Some l); EvPropose 2 KAdapt x].
Proof.
  intros p out p1 Hp DP. set (s := check_termination cfg74 (p_s p)).
  pose proof (state74 p (eq_sym Hp)) as K. unfold facts74 in K. destruct K as [_ [_ [F1 [F2 [F3 [F4 F5]]]]]]. fold s in F1, F2, F3, F4. clear Hp.
  destruct (hk_generate hk74 (p_e p) (set_phase 2%nat s) 1%nat z74) as [[e' ol]|er] eqn:G.
  - destruct ol as [l|].
    + pose proof (@rbf_contract cfg74 sdist74 tc74 1 q1 1 dist1 1 (Some 1%nat) (/ 1000000) _ _ _ _ _ _ Nat.lt_0_1 G) as NL.
      destruct (@PicksSOP.propose_batch _ _ _ _ cfg74 hk74 (Ok d74) z74 p e' l F1 F2 F3 eq_refl F4 G NL) as [out' [p' [x [E1 E2]]]].
      rewrite E1 in DP. injection DP as <- <-. exists l, 1%nat, x. rewrite E2, F5. reflexivity.
    + exfalso. unfold hk74 in G. unfold sop_rbf, hooks_at, sop_strategy, sop_hooks in G. cbn [hk_generate] in G. unfold sop_generate in G.
      apply rbind_ok in G. destruct G as [g1 [_ G]]. apply rbind_ok in G. destruct G as [g2 [_ G]]. apply rbind_ok in G. destruct G as [g3 [_ G]]. discriminate G.
  - exfalso. revert DP. unfold do_propose, propose_action. fold s. cbv zeta. rewrite F1, F2, F3. cbn [nonempty]. change (c_async cfg74) with false. cbv iota.
    change (pending_evals (set_phase 2%nat s)) with (pending_evals s). rewrite F4. cbn [Z.eqb]. unfold do_generate. change (c_batch cfg74) with 1%nat. rewrite G. discriminate.
Qed.
Lemma nodup_hist74 : no_duplicates hist2_74.
Proof.
  intros h1 id k y h2 E. unfold hist2_74 in E.
  destruct h1 as [|e1 [|e2 [|e3 [|e4 h1]]]]; cbn [app] in E.
  - intros [].
  - discriminate E.
  - discriminate E.
  - injection E as <- <- <- _ _ <- _. intros [].
  - exfalso. injection E. intros E5. intros. destruct h1 as [|e5 [|e6 [|]]]; discriminate E5.
Qed.
Lemma third74 : forall p, y_proc (run74 (round74 0 ++ round74 1)) = Some p -> 
  p_hist p = hist2_74 /\
  forall out p1, do_propose cfg74 hk74 (Ok d74) z74 p = Ok (out, p1) -> exists y, queued_later (p_hist p1) = [y] /\ ~ In y d74.
Proof.
  intros p Hp. pose proof (state74 p (eq_sym Hp)) as K. unfold facts74 in K. destruct K as [EH [EA _]]. split; [exact EH|]. intros out p1 DP.
  destruct (generates74 p out p1 Hp DP) as [l [n [x ET]]].
  destruct (@C69_sop_rbf cfg74 sdist74 tc74 1 q1 1 dist1 1 (Some 1%nat) (/ 1000000) setting74) with (design := Ok d74) (ops := round74 0 ++ round74 1) (p := p) (d := Ok d74) (z := z74) (out := out) (p' := p1) (t := ([EvGenerate n (Some l); EvPropose 2 KAdapt x] : list (event pt val))) (n := n) (r := Some l)
    as [l' [L1 [L2 [L3 L4]]]].
  - exact (sos_eqb (sop_setting74 false 2)).
  - exact Hp.
  - intros d [= <-]. exact (proj1 (proj2 good_points74)).
  - intros d z K. repeat (destruct K as [K|K]; [try discriminate K; injection K as <- _; exact (proj1 (proj2 good_points74))|]). destruct K.
  - constructor.
  - rewrite EH. exact nodup_hist74.
  - exact DP.
  - exact ET.
  - left. reflexivity.
  - injection L1 as <-. change (n = 1%nat) in L3. rewrite L3 in L2. destruct l as [|y [|]]; try discriminate L2. exists y. split.
    { rewrite ET, EH. reflexivity. }
    destruct (L4 0%nat y eq_refl) as [a [cand [A1 [A2 [A3 [A4 A5]]]]]].
    assert (IC : In y cand) by apply A5. apply In_nth_error in IC. destruct IC as [r IC].
    destruct (A4 r y IC) as [LY LC]. destruct (LC 0%nat ltac:(lia)) as [s [[_ DV] [LC1 _]]].
    specialize (LC1 (or_introl eq_refl)). destruct LC1 as [LC1 _]. specialize (LC1 ltac:(intros [])). specialize (DV ltac:(intros [])).
    assert (RX : nth 0 (r_x a) 0 = / 4 \/ nth 0 (r_x a) 0 = 3 * / 4).
    { rewrite EA in A1. destruct A1 as [<-|[<-|[]]]; cbn [new_rec r_x nth]; auto. }
    assert (RS : / 100 < Q2R (r_sigma a) < / 4).
    { rewrite EA in A1. assert (r_sigma a = r_max) as -> by (destruct A1 as [<-|[<-|[]]]; reflexivity). replace (/ 100) with (Q2R (1 # 100)) by (unfold Q2R; simpl; lra). replace (/ 4) with (Q2R (1 # 4)) by (unfold Q2R; simpl; lra).
      split; apply Qlt_Rlt; reflexivity. }
    clear - LY LC1 DV RX RS. change ((q_lb q1) @ 0) with 0 in *. change ((q_ub q1) @ 0) with 1 in *. change (dy_z (z74 0%nat) 0%nat r) with 1 in LC1.
    assert (NY : y @ 0 <> / 4 /\ y @ 0 <> 3 * / 4).
    { rewrite LC1, DV. destruct RX as [RX|RX]; rewrite RX; unfold Rmin, Rmax; repeat destruct (Rle_dec _ _); split; intros K; lra. }
    intros [<-|[<-|[]]]; destruct NY as [N1 N2]; [exact (N1 eq_refl)|exact (N2 eq_refl)].
Qed.

Example ex_C74_serial :
  sop_setting cfg74 sdist74 q1 1 dist1 1 (Some 1%nat) (/ 1000000) /\ sop_sync cfg74 1 /\ good_points q1 1 cfg74 d74 /\
  (forall k p out p1, (Z.of_nat k < c_max_evals cfg74)%Z -> y_proc (serial74 k) = Some p -> do_propose cfg74 hk74 (Ok d74) z74 p = Ok (out, p1) ->
     NoDup (first_queue cfg74 d74 ++ queued_later (p_hist p1))) /\
  exists p h, y_proc (serial74 4) = Some p /\ p_hist p = h ++ [EvTerminate] /\ length (completed h) = 3%nat /\ outstanding h = [].
Proof.
  assert (S : sop_setting cfg74 sdist74 q1 1 dist1 1 (Some 1%nat) (/ 1000000)).
  { destruct (sop_setting74 false 1) as [_ B C D E F]. constructor; try assumption; [exact setting74|discriminate]. }
  assert (Y : sop_sync cfg74 1) by (repeat split; cbn; lia).
  split; [exact S|]. split; [exact Y|]. split; [exact good_points74|].
  match goal with |- ?A /\ _ => assert (ND : A) end.
  { intros k p out p1 LT Hp DP. change (c_max_evals cfg74) with 3%Z in LT.
    assert (FQ : first_queue cfg74 d74 = d74) by reflexivity. rewrite FQ. 
    destruct serial74_2 as [p0 [p1' [p2 [Q0 [Q1 [Q2 [E0 [E1 E2]]]]]]]].
    destruct k as [|[|[|k]]]; [| | |lia].
    - rewrite E0 in Hp. rewrite <- (@queues74_some p out p1 DP), <- Hp, queues74_0. exact nodup_d74.
    - rewrite E1 in Hp. rewrite <- (@queues74_some p out p1 DP), <- Hp, queues74_1. exact nodup_d74.
    - rewrite E2 in Hp. destruct (proj2 (third74 p Hp) out p1 DP) as [y [-> NY]].
      constructor; [|constructor; [|constructor; [intros []|constructor]]].
      + intros [E|[E|[]]]; [injection E; lra|]. apply NY. left. symmetry. exact E.
      + intros [E|[]]. apply NY. right. left. symmetry. exact E. }
  split; [exact ND|].
  destruct (@C74_sop_serial cfg74 sdist74 tc74 1 q1 1 dist1 1 (Some 1%nat) (/ 1000000) S (or_introl Y) eq_refl ltac:(cbn; lia) (fun _ => Fin 0) (fun _ => d74) (fun _ => z74) d74)
    as [p [h [H1 [H2 [H3 [_ H4]]]]]].
  - intros x. eexists. reflexivity.
  - intros _. exact good_points74.
  - exact good_points74.
  - exact nodup_d74.
  - exact ND.
  - exists p, h. auto.
Qed.
