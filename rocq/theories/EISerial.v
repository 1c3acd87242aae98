(** * Serial runs of EIStrategy and LCBStrategy finish (C12). *)
From Coq Require Import List Arith ZArith Lia Bool Reals Lra.
From Verif Require Import Base PyList Strategy StrategySpec StrategyProofs StrategyInv StrategyInv2
  StrategyInv3 StrategyInv4 StrategySerial PropStrategy Box PropBox Cand PropCand GA PropGA EndToEnd EIStrat.
Import ListNotations.

Set Implicit Arguments.

(** ** Strategies whose search needs at least one evaluated point of the current run *)
Section Gen.
Variables P V Ext Orc : Type.
Variable c : cfg P V.
Variable hk : hooks P V Ext Orc.
Variable f : P -> V.
Variable designs : nat -> res (list P).
Variable orcs : nat -> Orc.
Notation proc := (proc P V Ext).
Notation base := (base P V).
Hypothesis Hgen : gen_contract hk.
Hypothesis T1 : forall e (s : base) n o, fX_ s <> [] -> fX s <> [] -> exists r, hk_generate hk e s n o = Ok r.
Hypothesis T2 : forall e (s : base) x v ev, exists r, hk_initial_completed hk e s x v ev = Ok r.
Hypothesis T3 : forall e (s : base) x v ev, exists r, hk_adapt_completed hk e s x v ev = Ok r.
Hypothesis Hext : good_extras c.
Hypothesis Hnum : (0 < c_num_pts c)%nat.
Hypothesis Hbatch : c_async c = true \/ (0 < c_batch c)%nat.
Hypothesis Hrest : c_restarts c = true.
Hypothesis Hdes : forall i, good_design c (designs i).

(** The same strategy with a search that gives up instead of raising. *)
Let plus : hooks P V Ext Orc :=
  mkHooks (hk_sample_initial hk) (hk_initial_completed hk) (hk_adapt_completed hk)
    (fun e s n o => match hk_generate hk e s n o with Ok r => Ok r | Err _ => Ok (e, None) end).

Lemma propose_plus : forall d o (p : proc), batch_queue (p_s p) <> [] \/ (fX_ (p_s p) <> [] /\ fX (p_s p) <> []) ->
  do_propose c plus d o p = do_propose c hk d o p.
Proof using T1.
  intros d o p H. unfold do_propose. f_equal. unfold propose_action.
  assert (F : batch_queue (check_termination c (p_s p)) = batch_queue (p_s p) /\ fX_ (check_termination c (p_s p)) = fX_ (p_s p) /\ fX (check_termination c (p_s p)) = fX (p_s p)).
  { unfold check_termination. destruct (_ <=? _)%Z; auto. }
  set (s0 := check_termination c (p_s p)) in *. clearbody s0. destruct F as [F1 [F2 F3]].
  destruct (terminate s0); [reflexivity|]. destruct (converged s0); [reflexivity|]. destruct (nonempty (batch_queue s0)) eqn:Q; [reflexivity|].
  assert (K : fX_ s0 <> [] /\ fX s0 <> []).
  { destruct H as [H|H]; [|rewrite F2, F3; exact H]. exfalso. rewrite F1 in Q. destruct (batch_queue (p_s p)); [contradiction|discriminate]. }
  assert (D : forall n, do_generate plus n o (set_phase 2 s0) (p_e p) = do_generate hk n o (set_phase 2 s0) (p_e p)).
  { intros n. unfold do_generate. cbn [hk_generate plus]. destruct (@T1 (p_e p) (set_phase 2 s0) n o (proj1 K) (proj2 K)) as [r ->]. reflexivity. }
  rewrite !D. reflexivity.
Qed.

Lemma RunInv_micros : forall p p' : proc, micros c plus p p' -> Inv c p -> RunInv c p -> RunInv c p'.
Proof using.
  intros p p' M. induction M; intros I R; auto. eapply RunInv_micro; [eapply Inv_micros; [exact I|exact M]|auto|eassumption].
Qed.

Definition data_ok (k : nat) (y : sys P V Ext) : Prop :=
  exists p, y_proc y = Some p /\ Inv c p /\ RunInv c p /\ p_out p = [] /\
    (batch_queue (p_s p) <> [] \/ fX_ (p_s p) <> [] /\ fX (p_s p) <> []).

Lemma data_step : forall k i y, @SInv P V Ext c f (fun _ => True) k y -> data_ok k y -> (Z.of_nat k < c_max_evals c)%Z ->
  data_ok (S k) (serial_step c plus f designs orcs y i).
Proof using Hgen T1 T2 T3 Hext Hnum Hbatch Hrest Hdes.
  intros k i y [p [Ey [I [_ [Eo [En [Et _]]]]]]] [p' [Ey' [_ [R [_ J]]]]] Hk. rewrite Ey in Ey'. injection Ey' as <-.
  assert (TH : total_hooks plus (fun _ => True) (fun _ => True)).
  { split; [|split]; [|intros; apply T2|intros; apply T3]. intros e s n o _ _. cbn [hk_generate plus]. destruct (hk_generate hk e s n o); eauto. }
  assert (GC : gen_contract plus).
  { intros e s n o e' l Hn G. cbn [hk_generate plus] in G. destruct (hk_generate hk e s n o) as [r|] eqn:E; [|discriminate]. injection G as ->. eapply Hgen; eauto. }
  destruct (propose_total TH Hext Hnum (orcs i) p Logic.I Logic.I (Hdes i)) as [[out p1] Ep].
  assert (Hpend : pending_evals (p_s p) = 0%Z) by (rewrite (inv_pend I), Eo; reflexivity).
  assert (Hb : below c (p_s p)) by (split; [assumption|lia]).
  destruct (@propose_progress _ _ _ _ c plus GC Hbatch Hrest _ _ _ _ _ Hb (or_intror Hpend) Ep) as [kd [x ->]].
  destruct (@propose_eval_fields _ _ _ _ c plus _ _ _ _ _ _ Ep) as [Et1 [En1 [Eo1 [Ex1 Ec1]]]]. rewrite Eo in Eo1. simpl in Eo1.
  assert (MP : micros c plus p p1) by (eapply propose_micros; exact Ep).
  assert (I1 : Inv c p1) by (eapply Inv_micros; [exact I|exact MP]).
  assert (R1 : RunInv c p1) by (eapply RunInv_micros; eauto).
  unfold serial_step. rewrite Ey, Ep.
  replace (step c plus y (Propose (designs i) (orcs i))) with (mkSys (Some p1) (y_disk y)) by (unfold step; rewrite Ey, Ep; reflexivity).
  replace (step c plus (mkSys (Some p1) (y_disk y)) (Accept (p_next p))) with (mkSys (Some (do_accept (mkOut (p_next p) kd x None) p1)) (y_disk y))
    by (unfold step, get_out; simpl; rewrite Eo1; simpl; rewrite Nat.eqb_refl; reflexivity).
  set (o1 := mkOut (p_next p) kd x None). assert (Hi1 : In o1 (p_out p1)) by (rewrite Eo1; left; reflexivity).
  set (p2 := do_accept o1 p1). assert (A2 : micro c plus p1 p2) by (exact (@mi_accept _ _ _ _ c plus p1 o1 Hi1 eq_refl)).
  assert (I2 : Inv c p2) by (eapply Inv_micro; [exact I1|exact A2]). assert (R2 : RunInv c p2) by (eapply RunInv_micro; [exact I1|exact R1|exact A2]).
  unfold step. simpl y_proc.
  assert (Eo2 : p_out p2 = [mkOut (p_next p) kd x (Some (ev_next (p_s p1)))]).
  { unfold p2, do_accept. simpl. rewrite Eo1. simpl. rewrite Nat.eqb_refl. reflexivity. }
  cbv iota zeta. rewrite Eo2. unfold get_out. simpl find. rewrite Nat.eqb_refl. simpl o_ev. cbv iota.
  set (o2 := mkOut (p_next p) kd x (Some (ev_next (p_s p1)))). assert (Hi2 : In o2 (p_out p2)) by (rewrite Eo2; left; reflexivity).
  assert (Hc : exists p3, do_complete c plus o2 (ev_next (p_s p1)) (f x) p2 = Ok p3).
  { unfold do_complete. simpl o_kind. destruct kd.
    - unfold on_initial_completed. match goal with |- context [hk_initial_completed plus ?a ?b ?u ?w ?z] => destruct (T2 a b u w z) as [r Hr0] end.
      cbn [hk_initial_completed plus]. rewrite Hr0. simpl. eauto.
    - unfold on_adapt_completed. match goal with |- context [hk_adapt_completed plus ?a ?b ?u ?w ?z] => destruct (T3 a b u w z) as [[[r n] cv] Hr0] end.
      cbn [hk_adapt_completed plus]. rewrite Hr0. simpl. eauto. }
  destruct Hc as [p3 Hc]. rewrite Hc. simpl.
  assert (M3 : micro c plus p2 p3) by (eapply mi_complete; [exact Hi2|reflexivity|exact Hc]).
  exists p3. split; [reflexivity|]. split; [eapply Inv_micro; [exact I2|exact M3]|]. split; [eapply RunInv_micro; [exact I2|exact R2|exact M3]|].
  apply do_complete_ok in Hc. destruct Hc as [e' [l [nx [cv [-> _]]]]].
  destruct (base_completed_data c (o_id o2) (o_x o2) (f x) (ev_next (p_s p1)) (p_s p2)) as [_ [_ D]].
  assert (FX : fX (base_completed c (o_id o2) (o_x o2) (f x) (ev_next (p_s p1)) (p_s p2)) <> []).
  { unfold base_completed. cbn [set_fevals fX]. destruct (ev_last _ <? _)%Z; cbn; intros K; apply app_eq_nil in K; destruct K; discriminate. }
  set (sb := base_completed c (o_id o2) (o_x o2) (f x) (ev_next (p_s p1)) (p_s p2)) in *. clearbody sb. simpl. split.
  - rewrite Eo1. simpl. rewrite Nat.eqb_refl. simpl. rewrite Nat.eqb_refl. reflexivity.
  - right. split; [|exact FX]. destruct D as [[_ [_ [-> _]]]|[D _]].
    + intros K. apply app_eq_nil in K. destruct K; discriminate.
    + exfalso. pose proof (ri_last R1) as L. assert (E : ev_last (p_s p2) = ev_last (p_s p1)) by reflexivity. lia.
Qed.

Lemma serial_step_plus : forall i k y, data_ok k y -> serial_step c plus f designs orcs y i = serial_step c hk f designs orcs y i.
Proof using T1.
  intros i k y [p [Ey [I [R [Eo J]]]]]. unfold serial_step. rewrite Ey. unfold step. rewrite Ey, (propose_plus (designs i) (orcs i) p J). reflexivity.
Qed.

Theorem serial_finishes_data : forall design e0, good_design c design -> (0 <= c_max_evals c)%Z ->
  let m := Z.to_nat (c_max_evals c) in
  exists p h, y_proc (serial c hk f designs orcs (S m) (start c hk design e0)) = Some p /\
    p_hist p = h ++ [EvTerminate] /\ length (completed h) = m /\ Forall (fun q => snd q = f (fst q)) (completed h) /\ outstanding h = [].
Proof using Hgen T1 T2 T3 Hext Hnum Hbatch Hrest Hdes.
  intros design e0 GD Hm m.
  assert (TH : total_hooks plus (fun _ => True) (fun _ => True)).
  { split; [|split]; [|intros; apply T2|intros; apply T3]. intros e s n o _ _. cbn [hk_generate plus]. destruct (hk_generate hk e s n o); eauto. }
  assert (GC : gen_contract plus).
  { intros e s n o e' l Hn G. cbn [hk_generate plus] in G. destruct (hk_generate hk e s n o) as [r|] eqn:E; [|discriminate]. injection G as ->. eapply Hgen; eauto. }
  assert (KP : keeps plus (fun _ => True)) by (repeat split).
  assert (D : forall k, (Z.of_nat k <= c_max_evals c)%Z -> data_ok k (serial c plus f designs orcs k (start c plus design e0)) /\
     serial c plus f designs orcs k (start c plus design e0) = serial c hk f designs orcs k (start c hk design e0)).
  { induction k as [|k IH]; intros Hk.
    - split; [|reflexivity]. unfold serial. simpl. unfold start. destruct (@construct_total _ _ _ _ c plus Hext design e0 GD) as [[s e] Ec]. rewrite Ec.
      exists (init_proc (s, e)). split; [reflexivity|]. split; [exact (Inv_init c plus design e0 Ec)|].
      split; [apply (@RunInv_reached _ _ _ _ c plus design e0); exists []; left; unfold run; simpl; unfold start; rewrite Ec; reflexivity|].
      split; [reflexivity|]. left. unfold construct in Ec. apply rbind_ok in Ec. destruct Ec as [s1 [H1 H2]]. injection H2 as <- _.
      apply sample_initial_ok in H1. destruct H1 as [d [rows [_ [_ [L ->]]]]]. simpl. intros K. apply app_eq_nil in K. destruct K as [K _]. rewrite K in L. simpl in L. lia.
    - destruct IH as [IH1 IH2]; [lia|]. rewrite !serial_snoc.
      pose proof (@SInv_serial P V Ext Orc c plus f designs orcs GC (fun _ => True) (fun _ => True) TH KP (fun _ => Logic.I) Hext Hnum Hbatch Hrest Hdes design e0 k Logic.I GD) as SI.
      split; [apply data_step; [apply SI; lia|exact IH1|lia]|]. rewrite <- IH2. eapply serial_step_plus. exact IH1. }
  destruct (D m) as [D1 D2]; [lia|].
  destruct (@serial_terminates P V Ext Orc c plus f designs orcs GC (fun _ => True) (fun _ => True) TH KP (fun _ => Logic.I) Hext Hnum Hbatch Hrest Hdes design e0 Logic.I GD Hm) as [p [h H]].
  exists p, h. fold m in H. rewrite serial_snoc in *. rewrite <- D2, <- (serial_step_plus m D1). exact H.
Qed.
End Gen.

(** ** The two strategies *)
Local Open Scope R_scope.
Section EI.
Variable q : prob.
Variable dim : nat.
Variable dist : pt -> pt -> R.
Variables mu sig : list (pt * R) -> pt -> R.
Variables Phi phi : R -> R.
Variable dtol : R.
Variable c : cfg pt R.
Hypothesis WF : well_formed q dim.

Lemma ei_ga_total : forall mu0 sig0 fmin tol n XX ds, (forall i, run_ok q dim (ds i)) ->
  exists r, ei_ga dist mu0 sig0 Phi phi q fmin dtol tol XX n ds = Ok r.
Proof using WF.
  intros mu0 sig0 fmin tol n. induction n as [|n IH]; intros XX ds HD; cbn [ei_ga]; [eauto|].
  assert (NN : forall x, ei_obj dist mu0 sig0 Phi phi q fmin dtol XX x <> XNan) by (intros x; unfold ei_obj; discriminate).
  destruct (@C35_ga q dim WF _ NN (ga_pop_size q) (gd_unit (ds 0%nat)) (gd_gens (ds 0%nat)) (pop_size_pos q) (HD 0%nat)) as [x [v [tr [G1 [G2 [G3 _]]]]]].
  rewrite G1. cbn [rbind]. rewrite G3. unfold ei_obj at 1. destruct Rlt_dec; [eauto|].
  destruct (IH (XX ++ [x]) (fun i => ds (S i))) as [r ->]; [intros i; apply HD|]. cbn [rbind]. destruct r; eauto.
Qed.
Lemma lcb_ga_total : forall mu0 sig0 kappa tgt n XX ds, (forall i, run_ok q dim (ds i)) ->
  exists r, lcb_ga dist mu0 sig0 q kappa dtol (Some tgt) XX n ds = Ok r.
Proof using WF.
  intros mu0 sig0 kappa tgt n. induction n as [|n IH]; intros XX ds HD; cbn [lcb_ga]; [eauto|].
  assert (NN : forall x, lcb_obj dist mu0 sig0 q kappa dtol XX x <> XNan).
  { intros x. unfold lcb_obj, lcb_merit. destruct Rlt_dec; [destruct too_close|]; discriminate. }
  destruct (@C35_ga q dim WF _ NN (ga_pop_size q) (gd_unit (ds 0%nat)) (gd_gens (ds 0%nat)) (pop_size_pos q) (HD 0%nat)) as [x [v [tr [G1 [G2 [G3 _]]]]]].
  rewrite G1. cbn [rbind]. destruct (xlt (XFin tgt) v); [eauto|].
  destruct (IH (XX ++ [x]) (fun i => ds (S i))) as [r ->]; [intros i; apply HD|]. cbn [rbind]. destruct r; eauto.
Qed.

Lemma np_min_total : forall l, l <> [] -> exists m, np_min l = Ok m.
Proof using. intros [|a l] H; [contradiction|]. eexists. reflexivity. Qed.
Lemma tolerance_total : forall tol l, l <> [] -> exists t, tolerance tol l = Ok t.
Proof using. intros [t|] [|a l] H; try contradiction; eexists; reflexivity. Qed.

(** What a user provides; designs have num_pts rows and the run of the genetic algorithm uses legal
    draws (both for every call). *)
Record serial_setting : Prop := mkSS {
  ss_extras : good_extras c;
  ss_num : (0 < c_num_pts c)%nat;
  ss_mode : c_async c = true \/ (0 < c_batch c)%nat;
  ss_restarts : c_restarts c = true;
  ss_budget : (0 <= c_max_evals c)%Z
}.

Theorem C12_ei_serial_run_finishes : forall tol, serial_setting ->
  forall (f : pt -> R) (designs : nat -> res (list pt)) (draws : nat -> runs q dim) design,
  (forall i, good_design c (designs i)) -> good_design c design ->
  let hk := @ei_strategy q dim dist mu sig Phi phi dtol tol in
  let m := Z.to_nat (c_max_evals c) in
  exists p h, y_proc (serial c hk f designs draws (S m) (start c hk design tt)) = Some p /\
    p_hist p = h ++ [EvTerminate] /\ length (completed h) = m /\ Forall (fun q => snd q = f (fst q)) (completed h) /\ outstanding h = [].
Proof using WF.
  intros tol [S1 S2 S3 S4 S5] f designs draws design Hd Hd0 hk m. apply serial_finishes_data; auto.
  - intros e s n o e' l Hn G. apply (@ei_generate_ok q dim dist mu sig Phi phi dtol WF tol e) in G. intros ->. simpl in G. lia.
  - intros e s n o H1 H2. cbn [hk_generate hk ei_strategy]. unfold ei_generate. destruct (tolerance_total tol H2) as [t ->]. cbn [rbind].
    destruct (np_min_total H1) as [fm ->]. cbn [rbind]. destruct (@ei_ga_total (mu (sur s)) (sig (sur s)) fm t n (X_ s ++ Xpend s) (proj1_sig o) (proj2_sig o)) as [r ->].
    cbn [rbind]. eauto.
  - intros. eexists. reflexivity.
  - intros. eexists. reflexivity.
Qed.
Theorem C12_lcb_serial_run_finishes : forall kappa tol, serial_setting ->
  forall (f : pt -> R) (designs : nat -> res (list pt)) (draws : nat -> runs q dim) design,
  (forall i, good_design c (designs i)) -> good_design c design ->
  let hk := @lcb_strategy q dim dist mu sig dtol kappa tol in
  let m := Z.to_nat (c_max_evals c) in
  exists p h, y_proc (serial c hk f designs draws (S m) (start c hk design tt)) = Some p /\
    p_hist p = h ++ [EvTerminate] /\ length (completed h) = m /\ Forall (fun q => snd q = f (fst q)) (completed h) /\ outstanding h = [].
Proof using WF.
  intros kappa tol [S1 S2 S3 S4 S5] f designs draws design Hd Hd0 hk m. apply serial_finishes_data; auto.
  - intros e s n o e' l Hn G. apply (@lcb_generate_ok q dim dist mu sig dtol WF kappa tol e) in G. intros ->. simpl in G. lia.
  - intros e s n o H1 H2. cbn [hk_generate hk lcb_strategy]. unfold lcb_generate. destruct (tolerance_total tol H2) as [t ->]. cbn [rbind].
    destruct (np_min_total H2) as [fm ->]. cbn [rbind]. destruct (@lcb_ga_total (mu (sur s)) (sig (sur s)) kappa (fm - t) n (X_ s ++ Xpend s) (proj1_sig o) (proj2_sig o)) as [r ->].
    cbn [rbind]. eauto.
  - intros. eexists. reflexivity.
  - intros. eexists. reflexivity.
Qed.
End EI.

(** The hypotheses are met: the problem and draws of ex_C37 (PropGA.v), two design points, batches
    of two, budget seven. *)
Example ex_C12_ei : let q1 := mkProb [0] [1] [] in
  let c1 : cfg pt R := mkCfg 7 false 2 true 2 None None (fun _ => false) (fun _ _ => false) false in
  well_formed q1 1 /\ serial_setting c1 /\ good_design c1 (Ok [[0]; [1]]) /\ exists ds : runs q1 1, True.
Proof.
  intros q1 c1. destruct ex_C37 as [E1 E2]. split; [exact E1|]. split; [split; [exact Logic.I|simpl; lia|right; simpl; lia|reflexivity|simpl; lia]|].
  split; [eexists; split; [reflexivity|simpl; lia]|]. exists (exist (fun ds => forall i : nat, run_ok q1 1 (ds i)) _ (fun _ => E2)). exact Logic.I.
Qed.
