(** * C72 for SOP. *)
From Coq Require Import List Arith ZArith Lia Bool QArith Reals Lra Qreals.
From Verif Require Import Base PyList Strategy StrategySpec StrategyProofs StrategyInv StrategyInv2
  StrategyInv3 StrategyInv4 PropStrategy SRBF SRBFProofs SRBFInv PropSRBF Box PropBox Cand PropCand EndToEnd Design Lin RBF PropRBF PropSolve SRBFRun
  SOP SOPProofs SOPCenters SOPInv PropSOP ScaleSOP SOPSearch SOPFeas Picks PicksSOP RbfPicks UnitsSmall ExEndToEnd Reach.
From Coq Require Import Rdefinitions.
Import ListNotations.
Set Implicit Arguments.
Local Close Scope Q_scope.
Local Open Scope R_scope.

(** ** The loop of generate_evals with other searches *)
Section Loop.
Variable P : Type.
Definition same_center (a b : scen P) : Prop := n_xc a = n_xc b /\ n_index a = n_index b /\ (n_new a = None <-> n_new b = None).
Lemma first_free_same : forall cs cs2, Forall2 same_center cs cs2 -> first_free cs = first_free cs2.
Proof using.
  intros cs cs2 H. induction H as [|a b cs cs2 [_ [_ H]] _ IH]; [reflexivity|]. cbn [first_free].
  destruct (n_new a), (n_new b); try reflexivity; [rewrite IH; reflexivity|destruct H as [_ H]; specialize (H eq_refl); discriminate H|destruct H as [H _]; specialize (H eq_refl); discriminate H].
Qed.
Lemma Forall2_nth : forall A B (R : A -> B -> Prop) l l2 i a, Forall2 R l l2 -> nth_error l i = Some a -> exists b, nth_error l2 i = Some b /\ R a b.
Proof using. intros A B R l l2 i a H. revert i. induction H as [|x y l l2 H0 H IH]; intros [|i] E; try discriminate E; [injection E as ->; exists y; auto|apply IH, E]. Qed.
Lemma upd_same : forall cs cs2 i (f f2 : scen P -> scen P) cs', Forall2 same_center cs cs2 -> (forall a b, same_center a b -> same_center (f a) (f2 b)) ->
  upd cs i f = Ok cs' -> exists cs2', upd cs2 i f2 = Ok cs2' /\ Forall2 same_center cs' cs2'.
Proof using.
  intros cs cs2 i f f2 cs' H Hf. revert i cs'. induction H as [|a b cs cs2 H0 H IH]; intros [|i] cs' E; cbn [upd] in E; try discriminate E.
  - injection E as <-. eexists. split; [reflexivity|]. constructor; auto.
  - apply rbind_ok in E. destruct E as [l [E1 E]]. injection E as <-. destruct (IH i l E1) as [l2 [E2 F]]. cbn [upd]. rewrite E2. cbn [rbind]. eexists. split; [reflexivity|]. constructor; auto.
Qed.
Lemma upd_centers : forall (cs : list (scen P)) i y cs', upd cs i (fun cn => mkCen (n_xc cn) (n_index cn) (Some y) (n_newidx cn)) = Ok cs' -> 
  forall cn', In cn' cs' -> exists cn, In cn cs /\ n_xc cn' = n_xc cn /\ n_index cn' = n_index cn.
Proof using.
  intros cs. induction cs as [|a cs IH]; intros [|i] y cs' E cn' Hc; cbn [upd] in E; try discriminate E.
  - injection E as <-. destruct Hc as [<-|Hc]; [exists a; repeat split; left; reflexivity|exists cn'; repeat split; right; exact Hc].
  - apply rbind_ok in E. destruct E as [l [E1 E]]. injection E as <-. destruct Hc as [<-|Hc]; [exists a; repeat split; left; reflexivity|].
    destruct (IH i y l E1 cn' Hc) as [cn [K1 K2]]. exists cn. split; [right; exact K1|exact K2].
Qed.

(** The searches that succeed decide which centers are used. *)
Lemma perturb_again : forall evals (o : sop_search P) n i cs acc cs' pts, perturb evals o n i cs acc = Ok (cs', pts) ->
  exists l : list (P * srec P), length l = n /\
  (forall xr, In xr l -> exists cn, In cn cs /\ fst xr = n_xc cn /\ nth_error evals (n_index cn) = Some (snd xr)) /\
  (forall j xr, nth_error l j = Some xr -> exists y, o (i + j)%nat (fst xr) (r_sigma (snd xr)) = Ok y) /\
  forall (Good : P -> Prop) (o2 : sop_search P), (forall j xr, nth_error l j = Some xr -> exists y, o2 (i + j)%nat (fst xr) (r_sigma (snd xr)) = Ok y /\ Good y) ->
  forall cs2 acc2, Forall2 same_center cs cs2 -> exists cs2' new, perturb evals o2 n i cs2 acc2 = Ok (cs2', acc2 ++ new) /\ length new = n /\ Forall Good new.
Proof using.
  intros evals o n. induction n as [|n IH]; intros i cs acc cs' pts H; cbn [perturb] in H.
  - exists []. split; [reflexivity|]. split; [intros xr []|]. split; [intros [|j] xr E; discriminate E|]. intros Good o2 _ cs2 acc2 _. exists cs2, []. cbn [perturb]. rewrite app_nil_r. auto.
  - apply rbind_ok in H. destruct H as [cn [H1 H]]. apply rbind_ok in H. destruct H as [r [H2 H]]. apply rbind_ok in H. destruct H as [y [H3 H]]. apply rbind_ok in H. destruct H as [cs1 [H4 H]].
    destruct (IH _ _ _ _ _ H) as [l [L1 [L2 [L3 L4]]]]. exists ((n_xc cn, r) :: l). split; [cbn; congruence|]. apply geti_ok in H1. apply geti_ok in H2.
    split; [|split].
    + intros xr [<-|Hx]; [exists cn; split; [eapply nth_error_In; exact H1|split; [reflexivity|exact H2]]|]. destruct (L2 xr Hx) as [cn1 [K1 [K2 K3]]].
      destruct (upd_centers _ _ _ H4 _ K1) as [cn0 [M1 [M2 M3]]]. exists cn0. rewrite <- M2, <- M3. auto.
    + intros [|j] xr E; cbn [nth_error] in E; [injection E as <-; rewrite Nat.add_0_r; eauto|]. rewrite <- Nat.add_succ_comm. apply L3, E.
    + intros Good o2 G cs2 acc2 SC. cbn [perturb]. rewrite <- (first_free_same SC). destruct (Forall2_nth _ SC H1) as [cn2 [N1 [S1 [S2 _]]]].
      unfold geti at 1. rewrite N1. cbn [rbind]. unfold geti at 1. rewrite <- S2, H2. cbn [rbind]. rewrite <- S1.
      destruct (G 0%nat _ eq_refl) as [y2 [G1 G2]]. rewrite Nat.add_0_r in G1. cbn [fst snd] in G1. rewrite G1. cbn [rbind].
      assert (SB : forall a b, same_center a b -> same_center ((fun cn => mkCen (n_xc cn) (n_index cn) (Some y) (n_newidx cn)) a) ((fun cn => mkCen (n_xc cn) (n_index cn) (Some y2) (n_newidx cn)) b)).
      { cbv beta. intros a b [B1 [B2 _]]. split; [exact B1|]. split; [exact B2|]. cbn [n_new]. split; discriminate. }
      destruct (@upd_same cs cs2 (first_free cs) _ (fun cn => mkCen (n_xc cn) (n_index cn) (Some y2) (n_newidx cn)) cs1 SC SB H4) as [cs3 [U1 U2]]. rewrite U1. cbn [rbind].
      destruct (L4 Good o2) with (cs2 := cs3) (acc2 := acc2 ++ [y2]) as [cs2' [new [A1 [A2 A3]]]]; [|exact U2|].
      { intros j xr E. destruct (G (S j) xr E) as [y3 K]. exists y3. rewrite Nat.add_succ_comm. exact K. }
      exists cs2', (y2 :: new). rewrite A1, <- app_assoc. split; [reflexivity|]. split; [cbn; congruence|constructor; assumption].
Qed.
Lemma same_refl : forall cs : list (scen P), Forall2 same_center cs cs.
Proof using. induction cs as [|a cs IH]; constructor; [|exact IH]. repeat split; auto. Qed.
End Loop.

Section Sop.
Variable c : cfg pt val.
Variable sdist : pt -> pt -> Q.
Variable tooclose : pt -> pt -> nat -> Q -> bool.
Variable ncenters : Z.
Variable q : prob.
Variable dim : nat.
Variable dist : pt -> pt -> R.
Variable dtol : R.
Variable num_cand : option nat.
Notation strategy := (sop_strategy c sdist tooclose ncenters).

Section Surrogate.
Variable predict : list (pt * val) -> pt -> R.
Variable usable : list (pt * val) -> pt -> res R.       (* the surrogate may raise, whatever the draws are *)
Definition sop_any_search (z : nat -> dydraws) (s : base pt val) : sop_search pt := fun i xc r =>
  do _ <- usable (sur s) xc;
  do l <- candidate_dycors dist (predict (sur s)) 1 q (X_ s) (map toxr (fX_ s)) [1%R] (Xpend s) (Q2R r) None dtol num_cand (Some xc)
    (dy_u (z i)) (fun k => (dy_f (z i) k mod (length (q_lb q) - 1))%nat) (in_range q xc (Q2R r) (dy_z (z i)));
  geti l 0.
Notation hk := (hooks_at sop_any_search strategy).

Lemma sop_near : setting q dim dist dtol num_cand ->
  forall design ops p, y_proc (Strategy.run c hk design sop0 ops) = Some p ->
  (forall d, design = Ok d -> Forall (feasible q dim) d) ->
  (forall d z, In (Propose (Ok d) z) ops -> Forall (feasible q dim) d) ->
  Forall (feasible q dim) (unknown c) ->
  forall d z0 out p' t n r, do_propose c hk d z0 p = Ok (out, p') ->
  p_hist p' = p_hist p ++ t -> In (EvGenerate n r) t ->
  forall y eps, feasible q dim y -> 0 < eps ->
  exists z1 delta, (forall i, 0 < delta i) /\ forall z, (forall i, (i < n)%nat -> in_box dim (z1 i) (delta i) (dy_z (z i)) /\ forall r k, (k < dim)%nat -> dy_u (z i) r k = true) ->
  exists out2 p2 t2 l, do_propose c hk d z p = Ok (out2, p2) /\
    p_hist p2 = p_hist p ++ t2 /\ In (EvGenerate n (Some l)) t2 /\ length l = n /\ Forall (near q dim eps y) l.
Proof using.
  intros SE design ops p Hp Hd Ho Hu d z0 out p' t n r DP Ht Hin y eps FY HE.
  destruct (@propose_generates _ _ _ _ c _ d z0 p p' out t n r DP Ht Hin) as [e' [G _]].
  assert (FE : forall id k x, In (EvPropose id k x) (p_hist p) -> feasible q dim x).
  { apply (@sop_feasible c sdist tooclose ncenters q dim dist dtol num_cand _ sop_any_search) with (design := design) (ops := ops); try assumption.
    intros o s i xc r0 y0 H. unfold sop_any_search in H. apply rbind_ok in H. destruct H as [v [_ H]]. apply rbind_ok in H. destruct H as [l [H1 H2]]. eauto. }
  assert (HR : reached c hk design sop0 p) by (exists ops; left; exact Hp).
  assert (HR' : reached c strategy design sop0 p) by (eapply (@reached_at _ _ _ _ _ sop_any_search c strategy); exact HR).
  assert (LD : length (q_lb q) = dim) by apply (se_wf SE).
  assert (LX : length (X_ (p_s p)) = length (fX_ (p_s p))) by (apply (ri_len (RunInv_reached HR'))).
  destruct (SopInv_reached HR') as [IV SV]. pose proof (all_kept HR') as [_ AK].
  set (s' := set_phase 2%nat (check_termination c (p_s p))) in *.
  assert (S1 : X_ s' = X_ (p_s p) /\ fX_ s' = fX_ (p_s p)) by (unfold s', check_termination; destruct (_ <=? _)%Z; repeat split; reflexivity).
  assert (GS : forall o, hk_generate hk (p_e p) s' n o = hk_generate strategy (p_e p) (p_s p) n (sop_any_search o s')).
  { intros o. unfold hooks_at, sop_strategy, sop_hooks. cbn [hk_generate]. unfold s', check_termination. destruct (_ <=? _)%Z; reflexivity. }
  rewrite GS in G. destruct S1 as [S1 S2].
  assert (G0 := G). cbn [hk_generate sop_strategy sop_hooks] in G0. apply sop_generate_cases in G0. destruct G0 as [F [e1 [cs [pts [G1 [G2 [G3 [_ G4]]]]]]]].
  destruct (perturb_again _ _ _ _ _ _ G3) as [l [L1 [L2 [L3 L4]]]].
  destruct (@update_center_list_ok _ _ _ _ _ _ _ _ G2) as [E0 [_ [cs1 [E1 [_ E2]]]]].
  assert (FC : forall xr, In xr l -> feasible q dim (fst xr) /\ 0 < Q2R (r_sigma (snd xr))).
  { intros xr Hx. destruct (L2 xr Hx) as [cn [K1 [K2 K3]]]. split.
    - assert (C : cen_ok c (s_evals (p_e p)) cn).
      { rewrite E1 in K1. apply in_app_or in K1. destruct K1 as [K1|K1].
        - apply filter_In in K1. pose proof (x_cen (si_x SV)) as XC. rewrite Forall_forall in XC. exact (XC _ (proj1 K1)).
        - exact (proj1 (E2 cn K1)). }
      destruct C as [[r' [C1 C2]] _].
      assert (IA : In (n_xc cn, r_fx r') (completed (p_hist p))).
      { rewrite <- (si_arch SV), <- C2. apply in_map_iff. exists r'. split; [reflexivity|]. eapply nth_error_In; exact C1. }
      rewrite <- AK in IA. apply in_combine_l in IA. rewrite K2. apply reached_micros in HR'. destruct HR' as [[s e] [C3 M]].
      destruct (@X_proposed _ _ _ _ c strategy design sop0 s e p _ C3 M IA) as [id [k' K]]. eapply FE; exact K.
    - pose proof (x_mem (si_x SV)) as XM. rewrite Forall_forall in XM. destruct (XM _ (nth_error_In _ _ K3)) as [_ [_ M3]].
      replace 0 with (Q2R 0) by (unfold Q2R; simpl; lra). apply Qlt_Rlt. rewrite M3. apply Qmult_lt_0_compat; [reflexivity|]. apply Qpower.Qpower_0_lt. reflexivity. }
  exists (fun i => match nth_error l i with Some xr => toward q dim (Q2R (r_sigma (snd xr))) (fst xr) y | None => fun _ _ => 0 end).
  exists (fun i => match nth_error l i with Some xr => slack q dim (Q2R (r_sigma (snd xr))) eps | None => 1 end).
  split.
  { intros i. destruct (nth_error l i) as [a|] eqn:E; [|lra]. apply nth_error_In in E. apply slack_pos; [exact (se_wf SE)|apply FC, E|exact (se_dim SE)|exact HE]. }
  intros z Hz.
  destruct (L4 (near q dim eps y) (sop_any_search z s')) with (cs2 := s_centers e1) (acc2 := @nil pt) as [cs2 [new [N1 [N2 N3]]]].
  { intros j a E. cbn [Nat.add]. destruct (L3 j a E) as [y0 Y0]. cbn [Nat.add] in Y0. destruct (FC a (nth_error_In _ _ E)) as [FA RP].
    assert (Hj : (j < n)%nat) by (rewrite <- L1; apply nth_error_Some; congruence).
    destruct (Hz j Hj) as [BX UT]. rewrite E in BX. clear Hz.
    unfold sop_any_search in *. apply rbind_ok in Y0. destruct Y0 as [v [Y1 _]]. rewrite Y1. cbn [rbind].
    unfold candidate_dycors. cbn [rbind]. unfold all_coords. rewrite LD.
    destruct (@dycors_cand_ok q dim (se_wf SE) (Q2R (r_sigma (snd a))) dim (cand_count dim num_cand) (fst a) (dy_u (z j)) (fun k => dy_f (z j) k mod (dim - 1))%nat (in_range q (fst a) (Q2R (r_sigma (snd a))) (dy_z (z j))))
      as [ar [cand [_ [C1 _]]]]; auto.
    { pose proof (se_dim SE). lia. }
    { intros K k _. apply Nat.mod_upper_bound. lia. }
    { intros i k Hi _. unfold in_range. rewrite (@all_seq q dim) by apply (se_wf SE). apply clamp_in. apply (@tn_order q dim (se_wf SE)); auto. }
    destruct (@dycors_drawn q dim (se_wf SE) _ _ _ _ _ _ _ FA RP (se_dim SE) C1) as [L DR].
    assert (FN : Forall (near q dim eps y) cand).
    { eapply drawn_near; [exact (se_wf SE)|exact FA|exact FY|exact RP|exact HE|exact (se_dim SE)|exact BX| |exact DR]. intros k i Hi. right. left. apply UT. exact Hi. }
    unfold cand_count in C1. rewrite C1. cbn [rbind].
    destruct (@C32_merit _ dist (predict (sur s')) cand dtol 1 (X_ s' ++ Xpend s') [1]) as [js [pts' [Q1 [Q2 [Q3 _]]]]].
    { intros ->. cbn in L. symmetry in L. revert L. apply (cand_count_pos SE). }
    { intros K. apply app_eq_nil in K. destruct K as [K _]. rewrite S1 in K. 
      destruct (L2 a (nth_error_In _ _ E)) as [cn [_ [_ K3]]]. rewrite K in AK. cbn [combine] in AK. pose proof (si_arch SV) as AR. rewrite <- AK in AR.
      destruct (s_evals (p_e p)); [destruct (n_index cn); discriminate K3|discriminate AR]. }
    { reflexivity. }
    { intros c0 _. rewrite (se_refl SE). exact (se_dtol SE). }
    rewrite Q1. cbn [rbind]. pose proof (Forall2_len2 Q3) as LQ. rewrite Q2 in LQ. destruct pts' as [|x [|]]; [discriminate LQ| |discriminate LQ].
    exists x. split; [reflexivity|]. rewrite Forall_forall in FN. apply FN. inversion Q3 as [|j0 ? js0 ? Q4 _]; subst. eapply nth_error_In; exact Q4. }
  { apply same_refl. }
  cbn [app] in N1.
  assert (G5 : exists e2, hk_generate hk (p_e p) s' n z = Ok (e2, Some new)).
  { rewrite GS. cbn [hk_generate sop_strategy sop_hooks]. unfold sop_generate. revert G1. destruct (s_F (p_e p)) as [F0|]; intros G1.
    - rewrite <- G1. cbn [rbind]. rewrite G2. cbn [rbind]. rewrite E0, N1. cbn [rbind]. eexists. reflexivity.
    - rewrite G1. cbn [rbind]. rewrite G2. cbn [rbind]. rewrite E0, N1. cbn [rbind]. eexists. reflexivity. }
  destruct G5 as [e2 G5].
  destruct (@Reach.propose_again _ _ _ _ c _ d z0 z p p' out t n r e2 new DP Ht Hin G5) as [out2 [p2 [t2 [D1 [D2 D3]]]]].
  exists out2, p2, t2, new. auto.
Qed.
End Surrogate.

(** C72, SOP, whatever the surrogate predicts: the i-th search can be led near [y], independently of the
    other searches. *)
Theorem C72_sop : forall predict, setting q dim dist dtol num_cand -> let hk := sop_full c sdist tooclose ncenters q dist dtol num_cand predict in
  forall design ops p, y_proc (Strategy.run c hk design sop0 ops) = Some p ->
  (forall d, design = Ok d -> Forall (feasible q dim) d) ->
  (forall d z, In (Propose (Ok d) z) ops -> Forall (feasible q dim) d) ->
  Forall (feasible q dim) (unknown c) ->
  forall d z0 out p' t n r, do_propose c hk d z0 p = Ok (out, p') ->
  p_hist p' = p_hist p ++ t -> In (EvGenerate n r) t ->
  forall y eps, feasible q dim y -> 0 < eps ->
  exists z1 delta, (forall i, 0 < delta i) /\ forall z, (forall i, (i < n)%nat -> in_box dim (z1 i) (delta i) (dy_z (z i)) /\ forall r k, (k < dim)%nat -> dy_u (z i) r k = true) ->
  exists out2 p2 t2 l, do_propose c hk d z p = Ok (out2, p2) /\
    p_hist p2 = p_hist p ++ t2 /\ In (EvGenerate n (Some l)) t2 /\ length l = n /\ Forall (near q dim eps y) l.
Proof using. intros predict SE. exact (@sop_near predict (fun _ _ => Ok 0) SE). Qed.

(** ... and with RBFInterpolant, whose errors end the run. *)
Theorem C72_sop_rbf : forall eta, setting q dim dist dtol num_cand -> let hk := sop_rbf q dim dist dtol num_cand eta c sdist tooclose ncenters in
  forall design ops p, y_proc (Strategy.run c hk design sop0 ops) = Some p ->
  (forall d, design = Ok d -> Forall (feasible q dim) d) ->
  (forall d z, In (Propose (Ok d) z) ops -> Forall (feasible q dim) d) ->
  Forall (feasible q dim) (unknown c) ->
  forall d z0 out p' t n r, do_propose c hk d z0 p = Ok (out, p') ->
  p_hist p' = p_hist p ++ t -> In (EvGenerate n r) t ->
  forall y eps, feasible q dim y -> 0 < eps ->
  exists z1 delta, (forall i, 0 < delta i) /\ forall z, (forall i, (i < n)%nat -> in_box dim (z1 i) (delta i) (dy_z (z i)) /\ forall r k, (k < dim)%nat -> dy_u (z i) r k = true) ->
  exists out2 p2 t2 l, do_propose c hk d z p = Ok (out2, p2) /\
    p_hist p2 = p_hist p ++ t2 /\ In (EvGenerate n (Some l)) t2 /\ length l = n /\ Forall (near q dim eps y) l.
Proof using. intros eta SE. exact (@sop_near (predicted q dim eta) (rbf_predict q dim eta) SE). Qed.
End Sop.

(** Two points of the design have completed in a problem with an integer variable: the next point can be
    within 0.01 of (0.3, 2). *)
Example ex_C72_sop : forall predict z0, let hk := sop_full c3 (fun _ _ : pt => 1%Q) (fun (_ _ : pt) (_ : nat) (_ : Q) => false) 2 q2 d2 (/10) (Some 5%nat) predict in
  exists p, y_proc (Strategy.run c3 hk (Ok [[/2; 1]; [/4; 2]]) sop0 (ops3 z0)) = Some p /\
  exists z1 delta, (forall i, 0 < delta i) /\ forall z, (forall i, (i < 1)%nat -> in_box 2 (z1 i) (delta i) (dy_z (z i)) /\ forall r k, (k < 2)%nat -> dy_u (z i) r k = true) ->
  exists out2 p2 t2 l, do_propose c3 hk (Ok []) z p = Ok (out2, p2) /\
    p_hist p2 = p_hist p ++ t2 /\ In (EvGenerate 1 (Some l)) t2 /\ length l = 1%nat /\ Forall (near q2 2 (/ 100) [3 / 10; 2]) l.
Proof.
  intros predict z0 hk. destruct (ex_C69_sop predict z0) as [p [E [_ [out [p' [x [l [D T]]]]]]]]. fold hk in E, D.
  destruct (ex_C13_srbf (fun _ _ => 0) (fun _ _ => 0)) as [SE [_ [FD [_ _]]]]. exists p. split; [exact E|].
  apply (@C72_sop c3 (fun _ _ : pt => 1%Q) (fun (_ _ : pt) (_ : nat) (_ : Q) => false) 2 q2 2 d2 (/10) (Some 5%nat) predict SE (Ok [[/2; 1]; [/4; 2]]) (ops3 z0) p E) with (z0 := z0) (out := out) (p' := p') (t := [EvGenerate 1 (Some l); EvPropose 2 KAdapt x]) (r := Some l).
  - intros d [= <-]. exact FD.
  - intros d z H. unfold ops3 in H. cbn [In] in H. destruct H as [H|[H|[H|[H|[H|[H|[]]]]]]]; first [discriminate H|injection H as <- _; constructor].
  - constructor.
  - exact D.
  - exact T.
  - left. reflexivity.
  - inversion FD as [|? ? [[_ F1] F2] _]; subst. split; [split; [reflexivity|]|].
    + intros [|[|i]] Hi; [| |lia]; unfold q2 in *; cbn in *; lra.
    + intros i Hi. unfold q2 in *. cbn in *. destruct Hi as [<-|[]]. exists 2%Z. reflexivity.
  - lra.
Qed.
