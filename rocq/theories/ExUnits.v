(** * C71: a run that depends on the unit of length, and cases that meet the hypotheses. *)
From Coq Require Import List Arith ZArith Lia Bool QArith Reals Lra Qreals.
From Verif Require Import Base PyList Strategy StrategySpec StrategyProofs StrategyInv StrategyInv2
  StrategyInv3 StrategyInv4 StrategySerial PropStrategy SRBF SRBFProofs SRBFInv PropSRBF Box PropBox Cand PropCand EndToEnd
  SyncRun Design Lin RBF PropRBF PosDef PropSurr PropSolve SRBFRun ExSRBFRun Picks RbfPicks StratMap PointMap ScaleRun UnitsRun UnitsSmall.
Import ListNotations.
Local Close Scope Q_scope.
Local Open Scope R_scope.

(** The interval [0, 1] and the interval [0, 0.0001]. *)
Definition h71 : pt -> pt := moved (/ 10000) [].
Definition q71 : prob := moved_prob (/ 10000) [] q1.
Definition hku (q : prob) : hooks pt val srbf (nat -> nat -> R) := srbf_rbf q 1 edist (fixed_dtol 1) (Some 2%nat) (/ 1000000) (cfg1 false 2) w1.
(** Normal variables: the candidates are 0.8 and 0.5 in [0, 1]. *)
Definition z71 : nat -> nat -> R := fun _ r => if (r =? 0)%nat then -1 else - (5 / 2).
Definition pre71 : list (op pt val (nat -> nat -> R)) := [ask1; Accept 0; ask1; Accept 1; Update 0 (SCompleted (Fin 0)); Update 1 (SCompleted (Fin 0))].
Definition ops71 : list (op pt val (nat -> nat -> R)) := pre71 ++ [Propose (Ok d1) z71].

Lemma dtol1 : fixed_dtol 1 = / 1000.
Proof. unfold fixed_dtol. cbn [INR]. rewrite sqrt_1. lra. Qed.
Lemma peq1_iff : forall x y, peq1 x y = true <-> x = y.
Proof. intros x y. unfold peq1. destruct (list_eq_dec Req_EM_T x y); split; intros H; congruence. Qed.
Lemma edist1 : forall x y, edist [x] [y] = Rabs (x - y).
Proof. intros x y. unfold edist. cbn [sqdist]. rewrite Rplus_0_r. replace ((x - y) * (x - y)) with (Rsqr (x - y)) by reflexivity. apply sqrt_Rsqr_abs. Qed.
Lemma q71_eq : q71 = mkProb [/ 10000 * 0 + 0] [/ 10000 * 1 + 0] [].
Proof. reflexivity. Qed.

Lemma step_propose : forall P V Ext Orc (c : cfg P V) (hk : hooks P V Ext Orc) y d o p p', y_proc y = Some p ->
  y_proc (Strategy.step c hk y (Propose d o)) = Some p' -> exists out, do_propose c hk d o p = Ok (out, p').
Proof.
  intros P V Ext Orc c hk y d o p p' H. unfold Strategy.step. rewrite H. destruct (do_propose c hk d o p) as [[out p2]|]; [|discriminate].
  intros E. exists out. destruct out; injection E as ->; reflexivity.
Qed.
Lemma run_last : forall P V Ext Orc (c : cfg P V) (hk : hooks P V Ext Orc) d e0 ops a,
  Strategy.run c hk d e0 (ops ++ [a]) = Strategy.step c hk (Strategy.run c hk d e0 ops) a.
Proof. intros. unfold Strategy.run, run_from. rewrite fold_left_app. reflexivity. Qed.
Lemma propose_batch : forall q dim dist dtol nc eta (c : cfg pt val) w d z (p p' : proc pt val srbf) out, below c (p_s p) -> converged (p_s p) = false -> batch_queue (p_s p) = [] ->
  c_async c = false -> pending_evals (p_s p) = 0%Z -> do_propose c (srbf_rbf q dim dist dtol nc eta c w) d z p = Ok (out, p') ->
  exists t l, p_hist p' = p_hist p ++ t /\ In (EvGenerate (c_batch c) (Some l)) t.
Proof.
  intros q dim dist dtol nc eta c w d z p p' out [B1 B2] C Q A PE H. unfold do_propose in H. apply rbind_ok in H. destruct H as [[[o2 [s2 e2]] evs] [H H2]].
  assert (K : exists l, In (EvGenerate (c_batch c) (Some l)) evs).
  { clear H2 p' out. unfold propose_action, check_termination in H.
    destruct (c_max_evals c <=? num_evals (p_s p) + pending_evals (p_s p))%Z eqn:El; [apply Z.leb_le in El; lia|].
    rewrite B1, C, Q, A in H. cbn [nonempty] in H. cbv zeta in H. change (pending_evals (set_phase 2%nat (p_s p))) with (pending_evals (p_s p)) in H. rewrite PE in H. cbn [Z.eqb] in H.
    apply rbind_ok in H. destruct H as [[[s3 e3] ev3] [H1 H]]. unfold do_generate in H1. apply rbind_ok in H1. destruct H1 as [[e4 r4] [H0 H1]].
    cbn [srbf_rbf hooks_with hk_generate srbf_strategy srbf_hooks] in H0. unfold srbf_generate in H0. apply rbind_ok in H0. destruct H0 as [ws [_ H0]].
    apply rbind_ok in H0. destruct H0 as [pts [_ H0]]. apply rbind_ok in H0. destruct H0 as [rows [_ H0]]. injection H0 as _ <-. cbn [snd fst] in H1. injection H1 as <- _ <-.
    exists rows. destruct (converged _ && c_restarts c)%bool.
    - apply rbind_ok in H. destruct H as [[[o5 se5] ev5] [_ H]]. injection H as _ _ <-. left. reflexivity.
    - injection H as _ _ _ <-. left. reflexivity. }
  destruct K as [l K]. injection H2 as _ <-. destruct o2; eexists; exists l; (split; [reflexivity|]); apply in_or_app; left; exact K.
Qed.
Definition qu (u : R) : prob := moved_prob u [] q1.
Definition du (u : R) : list pt := map (moved u []) d1.
Definition mopu (u : R) : list (op pt val (nat -> nat -> R)) -> list (op pt val (nat -> nat -> R)) := map (pm_op (moved u []) (fun z => z)).
Section Box1.
Variable u : R.
Hypothesis Hu : 0 < u.
Notation q := (qu u).
Notation d := (du u).
Notation mop := (mopu u).
Lemma wf1 : well_formed q 1.
Proof using Hu. split; [|intros i []]. split; [reflexivity|]. split; [reflexivity|]. intros [|i] H; [|lia]. unfold qu. simpl. lra. Qed.
Lemma setu : setting q 1 edist (fixed_dtol 1) (Some 2%nat).
Proof using Hu.
  constructor; try lia; try discriminate.
  - exact wf1.
  - rewrite dtol1. lra.
  - intros x. unfold edist. replace (sqdist x x) with 0; [apply sqrt_0|]. clear. induction x as [|t x IH]; [reflexivity|]. cbn [sqdist]. rewrite <- IH. ring.
Qed.
Lemma useru : user_setting q 1 edist (fixed_dtol 1) (Some 2%nat) (/ 1000000) (cfg1 false 2) w1.
Proof using Hu.
  constructor; try reflexivity; try discriminate.
  - exact setu.
  - right. simpl. lia.
  - lra.
  - split; [exact I|]. split; constructor.
Qed.
Lemma feasu : Forall (feasible q 1) d.
Proof using Hu.
  assert (F : forall r, 0 <= r <= 1 -> feasible q 1 [u * r + 0]).
  { intros r Hr. split; [|intros i []]. split; [reflexivity|]. intros [|i] H; [unfold qu; simpl; nra|lia]. }
  constructor; [apply F; lra|]. constructor; [apply F; lra|constructor].
Qed.
Lemma goodu : good_points q 1 (cfg1 false 2) d.
Proof using Hu.
  split; [simpl; lia|]. split; [exact feasu|]. intros a b L H.
  pose proof (H _ (or_introl eq_refl)) as H0. pose proof (H _ (or_intror (or_introl eq_refl))) as H1.
  rewrite affine1 in H0, H1. cbn [moved hd tl nth] in H0, H1. assert (B : nth 0 b 0 = 0) by nra. split; [nra|]. intros [|k] Hk; [exact B|lia].
Qed.
Lemma opsu : Forall (good_op q 1 (cfg1 false 2)) (mop ops71) /\ Forall quiet_op (mop ops71).
Proof using Hu.
  split; [|repeat constructor]. unfold mopu, ops71, pre71, ask1. cbn [app map pm_op rmap].
  repeat constructor; try (exists d; split; [reflexivity|exact goodu]); eexists; reflexivity.
Qed.

Definition pru : proc pt val srbf :=
  match y_proc (Strategy.run (cfg1 false 2) (hku q) (Ok d) srbf0 (mop pre71)) with
  | Some p => p
  | None => mkProc (base0 pt val) srbf0 [] [] 0%nat []
  end.
Lemma pru1 : below (cfg1 false 2) (p_s pru) /\ converged (p_s pru) = false /\ batch_queue (p_s pru) = [] /\ pending_evals (p_s pru) = 0%Z.
Proof. split; [split; vm_compute; reflexivity|]. repeat split; vm_compute; reflexivity. Qed.
Lemma pru2 : 19 / 100 < Q2R (s_radius (p_e pru)) < 21 / 100.
Proof using. replace (s_radius (p_e pru)) with (3602879701896397 # 18014398509481984)%Q by (vm_compute; reflexivity). unfold Q2R. simpl. lra. Qed.
Lemma pru3 : p_hist pru = [EvPropose 0 KInit (moved u [] [1]); EvAccept 0; EvPropose 1 KInit (moved u [] [0]); EvAccept 1;
  EvComplete 0 KInit (moved u [] [1]) (Fin 0); EvComplete 1 KInit (moved u [] [0]) (Fin 0)].
Proof. vm_compute. reflexivity. Qed.
Lemma pru4 : no_duplicates (p_hist pru) /\ outstanding (p_hist pru) = [] /\ run_data (p_hist pru) = [(moved u [] [1], Fin 0); (moved u [] [0], Fin 0)].
Proof using Hu.
  rewrite pru3. split; [|split; reflexivity]. intros h1 id k x h2 E.
  destruct h1 as [|a1 h1]; [injection E as <- <- <- _; intros []|]. injection E as <- E.
  destruct h1 as [|a2 h1]; [discriminate|]. injection E as <- E.
  destruct h1 as [|a3 h1].
  - injection E as <- <- <- _. cbn. intros [K|[]]. injection K as K. nra.
  - injection E as <- E. destruct h1 as [|a4 h1]; [discriminate|]. injection E as <- E. destruct h1 as [|a5 h1]; [discriminate|]. injection E as <- E.
    destruct h1 as [|a6 h1]; [discriminate|]. injection E as <- E. destruct h1; discriminate.
Qed.

(** A batch of two points is generated. *)
Lemma batchu : y_proc (Strategy.run (cfg1 false 2) (hku q) (Ok d) srbf0 (mop pre71)) = Some pru /\
  exists p' out t l, y_proc (Strategy.run (cfg1 false 2) (hku q) (Ok d) srbf0 (mop ops71)) = Some p' /\
  do_propose (cfg1 false 2) (hku q) (Ok d) z71 pru = Ok (out, p') /\ p_hist p' = p_hist pru ++ t /\ In (EvGenerate 2 (Some l)) t.
Proof using Hu.
  destruct opsu as [G Q].
  destruct (@C61_srbf_run q 1 edist (fixed_dtol 1) (Some 2%nat) (/ 1000000) (cfg1 false 2) w1 useru d (mop ops71) goodu G Q) as [p' E'].
  assert (E : exists p, y_proc (Strategy.run (cfg1 false 2) (hku q) (Ok d) srbf0 (mop pre71)) = Some p).
  { apply C61_srbf_run; [exact useru|exact goodu| |]; unfold mopu, ops71 in G, Q; rewrite map_app in G, Q; [exact (proj1 (proj1 (Forall_app _ _ _) G))|exact (proj1 (proj1 (Forall_app _ _ _) Q))]. }
  destruct E as [p E].
  change (y_proc (Strategy.run (cfg1 false 2) (hku q) (Ok d) srbf0 (mop ops71)) = Some p') in E'.
  unfold mopu, ops71 in E'. rewrite map_app in E'. fold mopu in E'. cbn [map pm_op rmap] in E'. rewrite run_last in E'.
  pose proof (step_propose _ _ _ _ _ _ _ _ _ _ _ E E') as [out DP].
  assert (EP : pru = p) by (unfold pru; rewrite E; reflexivity). rewrite <- EP in *. split; [exact E|]. destruct pru1 as [A1 [A2 [A3 A4]]].
  destruct (propose_batch _ _ _ _ _ _ _ _ _ _ _ _ _ A1 A2 A3 eq_refl A4 DP) as [t [l [T1 T2]]].
  exists p', out, t, l. split; [|auto]. unfold mopu, ops71. rewrite map_app. fold mopu. cbn [map pm_op rmap]. rewrite run_last. exact E'.
Qed.
End Box1.

Lemma moved_id : forall x b, Forall (fun t => t = 0) b -> moved 1 b x = x.
Proof.
  induction x as [|t x IH]; intros b H; [reflexivity|]. cbn [moved]. rewrite IH by (destruct b; [constructor|inversion H; assumption]). f_equal.
  destruct b as [|r b]; cbn [hd]; [ring|]. inversion H; subst. ring.
Qed.
Lemma moved1 : forall x, moved 1 [] x = x.
Proof. intros x. apply moved_id. constructor. Qed.
Lemma unit1 : qu 1 = q1 /\ du 1 = d1 /\ mopu 1 pre71 = pre71 /\ mopu 1 ops71 = ops71.
Proof.
  assert (D : map (moved 1 []) d1 = d1) by (rewrite (map_ext _ (fun x => x) moved1); apply map_id).
  split; [unfold qu, moved_prob, q1; cbn [q_lb q_ub q_int]; rewrite !moved1; reflexivity|]. split; [exact D|].
  unfold mopu, ops71, pre71, ask1. cbn [map pm_op rmap app]. rewrite D. split; reflexivity.
Qed.

(** In [0, 1] the two points of the batch are different. *)
Lemma unit_batch : exists p x y, y_proc (Strategy.run (cfg1 false 2) (hku q1) (Ok d1) srbf0 ops71) = Some p /\ x <> y /\ In (EvGenerate 2 (Some [x; y])) (p_hist p).
Proof.
  destruct (batchu 1 ltac:(lra)) as [E [p' [out [t [l [E' [DP [T1 T2]]]]]]]]. destruct unit1 as [U1 [U2 [U3 U4]]]. rewrite U1, U2, U3 in E. rewrite U1, U2, U4 in E'. rewrite U1, U2 in DP.
  pose proof (setu 1 ltac:(lra)) as SE. rewrite U1 in SE. pose proof (feasu 1 ltac:(lra)) as FD. rewrite U1, U2 in FD. destruct (pru4 1 ltac:(lra)) as [N1 [N2 N3]].
  destruct (@C69_srbf_rbf q1 1 edist (fixed_dtol 1) (Some 2%nat) (/ 1000000) (cfg1 false 2) w1 SE) with (design := Ok d1) (ops := pre71) (p := pru 1) (d := Ok d1) (z := z71) (out := out) (p' := p') (t := t) (n := 2%nat) (r := Some l)
    as [l' [data [xb [cand [A1 [A2 [A3 [_ [A4 [A5 [A6 [A7 [_ A8]]]]]]]]]]]]]; auto.
  - right. simpl. lia.
  - discriminate.
  - exact peq1_iff.
  - intros d [= <-]. exact FD.
  - intros d z H. unfold pre71, ask1 in H. cbn [In] in H. destruct H as [H|[H|[H|[H|[H|[H|[]]]]]]]; first [discriminate H|injection H as <- _; exact FD].
  - constructor.
  - injection A1 as <-. specialize (A4 eq_refl). rewrite N3 in A4. rewrite N2 in A8. rewrite A4 in A8. subst data. rewrite !moved1 in A5, A8.
    cbn [restarts] in A8.
    assert (XB : xb = [1]).
    { destruct A5 as [l1 [v [l2 [K1 [K2 K3]]]]]. destruct l1 as [|a1 l1]; [injection K1 as <- _ _; reflexivity|]. injection K1 as <- K1.
      specialize (K2 [1] (Fin 0) (or_introl eq_refl)). destruct l1 as [|a2 l1]; [injection K1 as _ <- _; discriminate K2|]. destruct l1; discriminate. }
    subst xb. pose proof (pru2 1) as RR. set (rad := Q2R (s_radius (p_e (pru 1)))) in *. clearbody rad.
    destruct cand as [|c0 [|c1 [|c2 cand]]]; try discriminate A6.
    assert (CV : forall r y, nth_error [c0; c1] r = Some y -> y = [Rmax 0 (Rmin 1 (1 + rad * z71 0%nat r))]).
    { intros r y Hy. destruct (A7 r y Hy) as [L K]. destruct (K 0%nat ltac:(lia)) as [s [[_ D] [R1 _]]]. specialize (D ltac:(intros [])). specialize (R1 I).
      destruct R1 as [R1 _]. specialize (R1 ltac:(intros [])). cbn [q1 q_lb q_ub nth] in D, R1. destruct y as [|y0 [|y1 y]]; try discriminate L. cbn [nth] in R1. f_equal. rewrite R1. f_equal. f_equal. f_equal. rewrite D. f_equal. lra. }
    pose proof (CV 0%nat c0 eq_refl) as C0. pose proof (CV 1%nat c1 eq_refl) as C1. cbn [z71 Nat.eqb] in C0, C1. clear CV.
    rewrite Rmin_right, Rmax_right in C0 by (try rewrite Rmin_right by lra; lra). rewrite Rmin_right, Rmax_right in C1 by (try rewrite Rmin_right by lra; lra).
    destruct A8 as [js [F G]]. destruct l as [|x [|y [|y2 l]]]; try discriminate A2. inversion F as [|j1 ? js1 ? F1 F2]; subst. inversion F2 as [|j2 ? js2 ? F3 F4]; subst. inversion F4; subst.
    exists p', x, y. split; [exact E'|]. split; [|rewrite T1; apply in_or_app; right; exact T2].
    cbn [good_picks used_weights map seq] in G. destruct G as [_ G]. specialize (G x F1). destruct G as [[x2 [G1 [G2 _]]] _]. rewrite F3 in G1. injection G1 as <-.
    destruct G2 as [G2 _].
    + assert (AD : forall v w, (v = 1 + rad * -1 /\ w = 1 + rad * - (5 / 2)) \/ (w = 1 + rad * -1 /\ v = 1 + rad * - (5 / 2)) ->
        admissible edist (fixed_dtol 1) (([[1]; [0]] ++ []) ++ [[v]]) [w]).
      { intros v w HV t0 [<-|[<-|[<-|[]]]]; rewrite dtol1, edist1; unfold Rabs; destruct (Rcase_abs _); lra. }
      destruct j1 as [|[|j1]]; cbn [nth_error] in F1; [injection F1 as F1; exists 1%nat; eexists|injection F1 as F1; exists 0%nat; eexists|destruct j1; discriminate F1];
        (split; [reflexivity|]); rewrite <- F1; rewrite ?C0, ?C1; apply AD; [left|right]; split; reflexivity.
    + intros ->. specialize (G2 y ltac:(apply in_or_app; right; left; reflexivity)). rewrite dtol1, (se_refl SE) in G2. lra.
Qed.

(** C71: runs depend on the unit of length.  In [0, 1] the first batch has two different points; with
    the same random numbers and values and everything divided by 10000 it has two copies of one point. *)
Theorem C71_scale_refuted : exists p p',
  y_proc (Strategy.run (cfg1 false 2) (hku q1) (Ok d1) srbf0 ops71) = Some p /\
  y_proc (Strategy.run (cfg1 false 2) (hku q71) (Ok (map h71 d1)) srbf0 (map (pm_op h71 (fun z => z)) ops71)) = Some p' /\
  (exists x y, x <> y /\ In (EvGenerate 2 (Some [x; y])) (p_hist p)) /\
  (exists x, In (EvGenerate 2 (Some [x; x])) (p_hist p')) /\
  p_hist p' <> map (pm_event h71) (p_hist p).
Proof.
  destruct unit_batch as [p [x [y [E [NE IN]]]]]. destruct (batchu (/ 10000) ltac:(lra)) as [_ [p' [out [t [l [E' [_ [T1 T2]]]]]]]].
  change (y_proc (Strategy.run (cfg1 false 2) (hku q71) (Ok (map h71 d1)) srbf0 (map (pm_op h71 (fun z => z)) ops71)) = Some p') in E'.
  assert (CP : forall n r, In (EvGenerate n r) (p_hist p') -> exists x, r = Some (repeat x n)).
  { eapply (@C71_srbf_small_box_copies_refuted q71 1 (fixed_dtol 1) (Some 2%nat) (/ 1000000) (cfg1 false 2) w1 (setu (/ 10000) ltac:(lra))); [| | |exact E'| | |].
    - right. simpl. lia.
    - discriminate.
    - rewrite dtol1, q71_eq. cbn [q_lb q_ub]. rewrite edist1. unfold Rabs. destruct (Rcase_abs _); lra.
    - intros d [= <-]. exact (feasu (/ 10000) ltac:(lra)).
    - intros d z H. unfold ops71, pre71, ask1 in H. cbn [In app map pm_op rmap] in H.
      destruct H as [H|[H|[H|[H|[H|[H|[H|[]]]]]]]]; first [discriminate H|injection H as <- _; exact (feasu (/ 10000) ltac:(lra))].
    - constructor. }
  exists p, p'. split; [exact E|]. split; [exact E'|]. split; [exists x, y; auto|]. split.
  - destruct (CP 2%nat (Some l) ltac:(rewrite T1; apply in_or_app; right; exact T2)) as [x0 X0]. exists x0. cbn [repeat] in X0. rewrite <- X0. rewrite T1. apply in_or_app. right. exact T2.
  - intros EQ. apply (in_map (pm_event h71)) in IN. rewrite <- EQ in IN. cbn [pm_event option_map map] in IN. destruct (CP _ _ IN) as [x0 X0]. cbn [repeat] in X0. injection X0 as X1 X2.
    apply NE. apply (@moved_inj (/ 10000) ltac:(lra) x y []). unfold h71 in X1, X2. congruence.
Qed.

(** ** Cases that meet the hypotheses *)
(** The same run in the interval [-3, -2]. *)
Example ex_C71_origin : let h := moved 1 [-3] in
  moved_prob 1 [-3] q1 = mkProb [-3] [-2] [] /\
  Strategy.run (cfg1 false 2) (hku (moved_prob 1 [-3] q1)) (Ok [[-3]; [-2]]) srbf0 (map (pm_op h (fun z => z)) ops71) =
  pm_sys h (fun e => e) (Strategy.run (cfg1 false 2) (hku q1) (Ok d1) srbf0 ops71) /\
  exists p x y, y_proc (Strategy.run (cfg1 false 2) (hku (moved_prob 1 [-3] q1)) (Ok [[-3]; [-2]]) srbf0 (map (pm_op h (fun z => z)) ops71)) = Some p /\
    x <> y /\ In (EvGenerate 2 (Some [x; y])) (p_hist p).
Proof.
  cbv zeta. assert (Q1 : moved_prob 1 [-3] q1 = mkProb [-3] [-2] []).
  { unfold moved_prob, q1. cbn [q_lb q_ub q_int moved hd tl]. f_equal; f_equal; lra. }
  split; [exact Q1|].
  assert (EQ : Strategy.run (cfg1 false 2) (hku (moved_prob 1 [-3] q1)) (Ok [[-3]; [-2]]) srbf0 (map (pm_op (moved 1 [-3]) (fun z => z)) ops71) =
    pm_sys (moved 1 [-3]) (fun e => e) (Strategy.run (cfg1 false 2) (hku q1) (Ok d1) srbf0 ops71)).
  { replace [[-3]; [-2]] with (map (moved 1 [-3]) d1) by (cbn; f_equal; f_equal; f_equal; try f_equal; lra).
    assert (HE : forall x y, peq1 (moved 1 [-3] x) (moved 1 [-3] y) = c_peqb (cfg1 false 2) x y).
    { intros x y. unfold cfg1. cbn [c_peqb]. unfold peq1. destruct (list_eq_dec Req_EM_T x y) as [->|N]; [destruct (list_eq_dec _ _ _); congruence|].
      destruct (list_eq_dec _ _ _) as [K|K]; [|reflexivity]. apply moved_inj in K; [congruence|lra]. }
    exact (@C71_srbf_origin q1 [-3] 1 (/ 1000000) (Some 2%nat) w1 (cfg1 false 2) peq1 eq_refl (proj1 (se_wf set1)) HE (Ok d1) ops71). }
  split; [exact EQ|]. rewrite EQ. destruct unit_batch as [p [x [y [E [NE IN]]]]]. exists (pm_proc (moved 1 [-3]) (fun e => e) p), (moved 1 [-3] x), (moved 1 [-3] y).
  split; [unfold pm_sys; cbn [y_proc]; rewrite E; reflexivity|]. split; [intros K; apply moved_inj in K; [contradiction|lra]|].
  apply (in_map (pm_event (moved 1 [-3]))) in IN. exact IN.
Qed.
