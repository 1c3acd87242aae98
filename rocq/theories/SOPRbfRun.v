(** * Runs of SOPStrategy with the default RBF surrogate do not raise (C74). *)
From Coq Require Import List Arith ZArith Lia Bool QArith Permutation Reals Lra Qreals.
From Verif Require Import Base PyList Strategy StrategySpec StrategyProofs StrategyInv StrategyInv2
  StrategyInv3 StrategyInv4 StrategyOps StrategySerial PropStrategy SRBF SRBFProofs SRBFInv PropSRBF Box PropBox Cand PropCand EndToEnd Lin LinProofs RBF PropRBF PropSurr PropSolve SyncRun SRBFRun
  SOP SOPProofs SOPCenters SOPInv PropSOP SOPTotal SOPAsync SOPSerial ScaleSOP SOPSearch SOPFeas Picks PicksSOP RbfPicks RbfPicksSOP EIStrat ResumeKill.
From Coq Require Import Rdefinitions.
Import ListNotations.
Set Implicit Arguments.
Local Close Scope Q_scope.
Local Open Scope R_scope.

Section At.
Variable c : cfg pt val.
Variable sdist : pt -> pt -> Q.
Variable tooclose : pt -> pt -> nat -> Q -> bool.
Variable ncenters : Z.
Notation strategy := (sop_strategy c sdist tooclose ncenters).

(** A center keeps the point of its archive entry. *)
(** Specification, no counterpart in /repo. *)
Definition sits (evals : list (srec pt)) (cn : scen pt) : Prop :=
  exists r, nth_error evals (n_index cn) = Some r /\ r_x r = n_xc cn.

Lemma Forall_upd_sits : forall evals cs i f cs', upd cs i f = Ok cs' -> (forall cn, sits evals cn -> sits evals (f cn)) ->
  Forall (sits evals) cs -> Forall (sits evals) cs'.
Proof using.
  intros evals cs. induction cs as [|a cs IH]; intros [|i] f cs' H K F; cbn [upd] in H; try discriminate H.
  - injection H as <-. inversion F; subst. constructor; auto.
  - apply rbind_ok in H. destruct H as [l [H1 H2]]. injection H2 as <-. inversion F; subst. constructor; [assumption|]. eapply IH; eauto.
Qed.

Lemma perturb_at : forall evals (o o' : sop_search pt),
  (forall a j y, In a evals -> o' j (r_x a) (r_sigma a) = Ok y -> o j (r_x a) (r_sigma a) = Ok y) ->
  forall n i cs acc r, Forall (sits evals) cs ->
  perturb evals o' n i cs acc = Ok r -> perturb evals o n i cs acc = Ok r.
Proof using.
  intros evals o o' HO n. induction n as [|n IH]; intros i cs acc r FC H; [exact H|]. cbn [perturb] in *.
  apply rbind_ok in H. destruct H as [cn [H1 H]]. apply rbind_ok in H. destruct H as [a [H2 H]]. apply rbind_ok in H. destruct H as [y [H3 H]]. apply rbind_ok in H. destruct H as [cs' [H4 H]].
  rewrite H1. cbn [rbind]. rewrite H2. cbn [rbind].
  assert (SA : sits evals cn). { rewrite Forall_forall in FC. apply FC. apply geti_ok in H1. eapply nth_error_In; exact H1. }
  destruct SA as [r0 [S1 S2]]. apply geti_ok in H2. assert (r0 = a) by congruence. subst r0. rewrite <- S2 in H3 |- *.
  rewrite (HO a i y (nth_error_In _ _ H2) H3). cbn [rbind]. rewrite S2 in *. rewrite H4. cbn [rbind]. apply IH; [|exact H].
  eapply Forall_upd_sits; [exact H4| |exact FC]. intros cn0 [r1 K]. exists r1. exact K.
Qed.

(** The search with its errors replaced. *)
(** Specification, no counterpart in /repo. *)
Definition patched (o : sop_search pt) : sop_search pt := fun j x sg => match o j x sg with Ok y => Ok y | Err _ => Ok [] end.

Lemma generate_at : forall (p : proc pt val (sop pt)) s n o r, SopInv c ncenters p ->
  (forall a j, In a (s_evals (p_e p)) -> exists y, o j (r_x a) (r_sigma a) = Ok y) ->
  hk_generate strategy (p_e p) s n (patched o) = Ok r -> hk_generate strategy (p_e p) s n o = Ok r.
Proof using.
  intros p s n o r S HO H. cbn [hk_generate sop_strategy sop_hooks] in *. unfold sop_generate in *.
  apply rbind_ok in H. destruct H as [F [H1 H]]. apply rbind_ok in H. destruct H as [e1 [H2 H]]. apply rbind_ok in H. destruct H as [r1 [H3 H]].
  rewrite H1. cbn [rbind]. rewrite H2. cbn [rbind].
  destruct (@update_center_list_ok _ _ _ _ _ _ _ _ H2) as [E0 [_ [cs1 [E1 [_ E2]]]]].
  erewrite perturb_at; [cbn [rbind]; exact H| | |exact H3].
  - intros a j y Ha K. rewrite E0 in Ha. destruct (HO a j Ha) as [y' E]. unfold patched in K. rewrite E in K |- *. exact K.
  - rewrite E0, E1. apply Forall_forall. intros cn K. apply in_app_or in K. destruct K as [K|K].
    + apply filter_In in K. pose proof (x_cen (si_x S)) as XC. rewrite Forall_forall in XC. exact (proj1 (XC _ (proj1 K))).
    + exact (proj1 (proj1 (E2 cn K))).
Qed.

Lemma propose_at : forall (p : proc pt val (sop pt)) d o r, SopInv c ncenters p ->
  (batch_queue (p_s p) = [] -> c_async c = true \/ pending_evals (p_s p) = 0%Z ->
     forall a j, In a (s_evals (p_e p)) -> exists y, o j (r_x a) (r_sigma a) = Ok y) ->
  do_propose c strategy d (patched o) p = Ok r -> do_propose c strategy d o p = Ok r.
Proof using.
  intros p d o r S HO H. unfold do_propose in *. destruct (propose_action c strategy d (patched o) (p_s p) (p_e p)) as [r1|] eqn:E; [|discriminate H].
  assert (E2 : propose_action c strategy d o (p_s p) (p_e p) = Ok r1); [|rewrite E2; exact H]. clear H. revert E. unfold propose_action.
  assert (CT : batch_queue (check_termination c (p_s p)) = batch_queue (p_s p) /\ pending_evals (check_termination c (p_s p)) = pending_evals (p_s p)).
  { unfold check_termination. destruct (_ <=? _)%Z; split; reflexivity. }
  destruct CT as [C1 C2]. generalize dependent (check_termination c (p_s p)). intros s C1 C2. destruct (terminate s); [auto|]. destruct (converged s); [auto|].
  destruct (nonempty (batch_queue s)) eqn:EN; [auto|]. cbv zeta.
  assert (EQ : batch_queue (p_s p) = []) by (rewrite <- C1; destruct (batch_queue s); [reflexivity|discriminate EN]).
  assert (DG : forall n s' r, c_async c = true \/ pending_evals (p_s p) = 0%Z ->
    do_generate strategy n (patched o) s' (p_e p) = Ok r -> do_generate strategy n o s' (p_e p) = Ok r).
  { intros n s' r2 K G. unfold do_generate in *. destruct (hk_generate strategy (p_e p) s' n (patched o)) as [g|] eqn:EG; [|discriminate G].
    rewrite (@generate_at p s' n o g S (HO EQ K) EG). exact G. }
  destruct (if c_async c then do_generate strategy 1 (patched o) (set_phase 2%nat s) (p_e p) else if (pending_evals (set_phase 2%nat s) =? 0)%Z
    then do_generate strategy (c_batch c) (patched o) (set_phase 2%nat s) (p_e p) else Ok (set_phase 2%nat s, p_e p, [])) as [g|] eqn:G; [|discriminate].
  assert (G2 : (if c_async c then do_generate strategy 1 o (set_phase 2%nat s) (p_e p) else if (pending_evals (set_phase 2%nat s) =? 0)%Z
    then do_generate strategy (c_batch c) o (set_phase 2%nat s) (p_e p) else Ok (set_phase 2%nat s, p_e p, [])) = Ok g).
  { destruct (c_async c); [apply DG; [left; reflexivity|exact G]|]. destruct (pending_evals (set_phase 2%nat s) =? 0)%Z eqn:EP; [|exact G].
    apply DG; [right|exact G]. apply Z.eqb_eq in EP. rewrite <- C2. exact EP. }
  rewrite G2. destruct g as [[s' e'] evs]. cbn [rbind]. auto.
Qed.
End At.

Section Rbf.
Variable c : cfg pt val.
Variable sdist : pt -> pt -> Q.
Variable tooclose : pt -> pt -> nat -> Q -> bool.
Variable ncenters : Z.
Variable q : prob.
Variable dim : nat.
Variable dist : pt -> pt -> R.
Variable dtol : R.
Variable num_cand : option nat.
Variable eta : R.
Notation strategy := (sop_strategy c sdist tooclose ncenters).
Notation rbf := (sop_rbf q dim dist dtol num_cand eta c sdist tooclose ncenters).
Notation search := (sop_rbf_search q dim dist dtol num_cand eta).

Hypothesis SE : setting q dim dist dtol num_cand.
Hypothesis Heta : 0 < eta.
Hypothesis GE : good_extra_points q dim c.

Variable d0 : list pt.
Hypothesis G0 : good_points q dim c d0.

Section Ops.
Variable ops : list (op pt val (nat -> dydraws)).
Variable p : proc pt val (sop pt).
Hypothesis GO : Forall (@good_op q dim c (nat -> dydraws)) ops.
Hypothesis Hp : y_proc (Strategy.run c rbf (Ok d0) sop0 ops) = Some p.

Lemma rbf_feasible : forall id k x, In (EvPropose id k x) (p_hist p) -> feasible q dim x.
Proof using SE GE G0 GO Hp.
  apply (@C13_sop_rbf c sdist tooclose ncenters q dim dist dtol num_cand eta (Ok d0) SE ops p Hp).
  - intros d E. injection E as <-. apply G0.
  - intros d z Hin. rewrite Forall_forall in GO. destruct (GO _ Hin) as [l [E [_ [F _]]]]. injection E as <-. exact F.
  - apply GE.
Qed.

Lemma rbf_reached : reached c rbf (Ok d0) sop0 p.
Proof using Hp. exists ops. left. exact Hp. Qed.
Lemma strat_reached : reached c strategy (Ok d0) sop0 p.
Proof using Hp. eapply (@reached_at _ _ _ _ _ search). exact rbf_reached. Qed.

(** The searches around archive entries find a point if the evaluated points do not all lie on one
    hyperplane. *)
Lemma search_total : in_general_position dim (X_ (p_s p)) -> forall z a j, In a (s_evals (p_e p)) ->
  exists y, search z (set_phase 2%nat (check_termination c (p_s p))) j (r_x a) (r_sigma a) = Ok y.
Proof using SE GE G0 GO Hp Heta.
  intros GP z a j Ha.
  pose proof rbf_reached as HR. pose proof strat_reached as HR'. destruct (SopInv_reached HR') as [IV SV].
  destruct (@reached_micros _ _ _ _ c rbf (Ok d0) sop0 p HR) as [[s e] [Hc M]].
  assert (RI : RunInv c p) by (eapply RunInv_micros; eassumption).
  pose proof (ri_len RI) as L. destruct (all_kept HR') as [_ AK].
  assert (FX : Forall (feasible q dim) (X_ (p_s p))).
  { apply Forall_forall. intros x Hx. destruct (@X_proposed _ _ _ _ c rbf _ _ s e p x Hc M Hx) as [id [k Hk]]. eapply rbf_feasible; exact Hk. }
  assert (RD : In (r_x a, r_fx a) (combine (X_ (p_s p)) (fX_ (p_s p)))).
  { rewrite AK, <- (si_arch SV). exact (in_map (@xf pt) _ _ Ha). }
  assert (FA : feasible q dim (r_x a)).
  { apply in_combine_l in RD. rewrite Forall_forall in FX. exact (FX _ RD). }
  assert (RP : 0 < Q2R (r_sigma a)).
  { pose proof (x_mem (si_x SV)) as XM. rewrite Forall_forall in XM. destruct (XM a Ha) as [_ [_ M3]].
    replace 0 with (Q2R 0) by (unfold Q2R; simpl; lra). apply Qlt_Rlt. rewrite M3. apply Qmult_lt_0_compat; [reflexivity|]. apply Qpower.Qpower_0_lt. reflexivity. }
  (* predictions *)
  pose proof (ri_sur RI) as E2.
  assert (HK : forall x v, In (x, v) (sur (p_s p)) -> In (x, v) (known c) \/ In (x, v) (combine (X_ (p_s p)) (fX_ (p_s p)))).
  { intros x v Hx. rewrite E2 in Hx. apply in_app_or in Hx. destruct Hx as [Hx|Hx]; [left|right; exact Hx].
    destruct (restarts (p_hist p) =? 0)%nat; [exact Hx|destruct Hx]. }
  destruct GE as [GE1 [GE2 GE3]]. rewrite Forall_forall in GE3.
  assert (PR : forall x, exists v, rbf_predict q dim eta (sur (p_s p)) x = Ok v).
  { apply predict_total.
    - exact (proj1 (se_wf SE)).
    - exact Heta.
    - intros x v Hx. destruct (HK x v Hx) as [A|A]; [exact (proj1 (GE3 _ A))|].
      apply in_combine_l in A. rewrite Forall_forall in FX. apply (FX x A).
    - apply Forall_forall. intros v Hv. apply in_map_iff in Hv. destruct Hv as [[x v'] [<- Hx]]. simpl.
      destruct (HK x v' Hx) as [A|A]; [exact (proj2 (GE3 _ A))|].
      rewrite AK in A. unfold completed in A. apply in_flat_map in A. destruct A as [ev [A1 A2]].
      destruct ev as [| | | | | | |id k x0 v0| | |]; simpl in A2; try contradiction. destruct A2 as [A2|[]]. injection A2 as -> ->.
      pose proof (@origin_run _ _ _ _ c rbf _ _ ops p (or_introl Hp) _ A1) as [id' Hin].
      rewrite Forall_forall in GO. exact (GO _ Hin).
    - eapply general_incl; [|exact GP]. intros x Hx. destruct (in_combine_ex _ _ _ L Hx) as [v Hv].
      rewrite E2, map_app. apply in_or_app. right. apply in_map_iff. exists (x, v). auto. }
  set (s' := set_phase 2%nat (check_termination c (p_s p))).
  assert (S1 : X_ s' = X_ (p_s p) /\ fX_ s' = fX_ (p_s p) /\ Xpend s' = Xpend (p_s p) /\ sur s' = sur (p_s p)).
  { unfold s', check_termination. destruct (_ <=? _)%Z; repeat split; reflexivity. }
  clearbody s'. destruct S1 as [S1 [S2 [S3 S4]]]. unfold sop_rbf_search. rewrite S1, S2, S3, S4. destruct (PR (r_x a)) as [v ->]. cbn [rbind].
  assert (SI : search_input dist q dim 1 (X_ (p_s p)) (map toxr (fX_ (p_s p))) [1] dtol num_cand).
  { destruct SE as [W D T0 RF NC]. constructor; auto.
    - intros E. rewrite E in RD. destruct RD.
    - rewrite map_length. symmetry. exact L.
    - intros u. apply toxr_nan.
    - apply Forall_forall. exact FX. }
  assert (LD : length (q_lb q) = dim) by apply (se_wf SE).
  destruct (@C33_dycors_partial dist (predicted q dim eta (sur (p_s p))) q dim 1 (X_ (p_s p)) (map toxr (fX_ (p_s p))) [1] (Xpend (p_s p))
    (Q2R (r_sigma a)) None dtol num_cand (Some (r_x a)) (dy_u (z j)) (fun k => (dy_f (z j) k mod (length (q_lb q) - 1))%nat)
    (in_range q (r_x a) (Q2R (r_sigma a)) (dy_z (z j))) SI RP) as [xb [_ [pts' [B3 [B4 _]]]]].
  - exact Logic.I.
  - intros c0 E. injection E as <-. exact FA.
  - intros k. cbn [sub_list]. rewrite seq_length, LD. destruct (Nat.eq_dec dim 1) as [E|E]; [right; exact E|left].
    apply Nat.mod_upper_bound. pose proof (se_dim SE). lia.
  - intros xb i k -> Hi _. cbn [sub_list]. unfold in_range. rewrite (@all_seq q dim LD). apply clamp_in. apply tn_order; auto. apply (se_wf SE).
  - rewrite B3. cbn [rbind]. destruct pts' as [|y [|]]; try discriminate B4. exists y. reflexivity.
Qed.

(** A request with the RBF surrogate succeeds if one with a surrogate that never raises does, and
    the evaluated points do not all lie on one hyperplane. *)
Lemma propose_rbf : (batch_queue (p_s p) = [] -> c_async c = true \/ pending_evals (p_s p) = 0%Z -> in_general_position dim (X_ (p_s p))) ->
  (forall d (o : sop_search pt), (forall j x sg, exists y, o j x sg = Ok y) -> exists r, do_propose c strategy d o p = Ok r) ->
  forall d z, exists r, do_propose c rbf d z p = Ok r.
Proof using SE GE G0 GO Hp Heta.
  intros GP TS d z. destruct (SopInv_reached strat_reached) as [IV SV].
  set (o := search z (set_phase 2%nat (check_termination c (p_s p)))).
  assert (HT : forall j x sg, exists y, patched o j x sg = Ok y) by (intros j x sg; unfold patched; destruct (o j x sg); eauto).
  destruct (TS d (patched o) HT) as [r E]. exists r.
  change (do_propose c strategy d o p = Ok r). eapply propose_at; [exact SV| |exact E].
  intros E1 E2 a j Ha. unfold o. apply search_total; [exact (GP E1 E2)|exact Ha].
Qed.
End Ops.

(** The points that the strategy queued first. *)
Notation queue0 := (first_queue c d0).

Lemma started : exists s0 e0, construct c strategy (Ok d0) sop0 = Ok (s0, e0) /\ batch_queue s0 = queue0.
Proof using GE G0.
  clear SE Heta. unfold construct.
  destruct (@sample_initial_total _ _ c (Ok d0) (base0 pt val) (proj1 GE) (@design_good q dim c d0 G0)) as [s1 E]. rewrite E. cbn [rbind].
  eexists. eexists. split; [reflexivity|]. apply sample_initial_ok in E. destruct E as [d [rows [E1 [-> [_ ->]]]]]. injection E1 as <-. reflexivity.
Qed.
Lemma two_points : (2 <= length queue0)%nat.
Proof using SE G0.
  clear Heta GE. destruct G0 as [L [F G]]. unfold first_queue. rewrite app_length. pose proof (se_dim SE) as D1.
  destruct (firstn (c_num_pts c) d0) as [|a [|b l]] eqn:E; cbn [length]; [| |lia]; exfalso.
  - destruct (G 1 (repeat 0 dim)) as [K _]; [apply repeat_length|intros x []|lra].
  - destruct (G (- nth 0 a 0) (1 :: repeat 0 (dim - 1))) as [_ K].
    + cbn [length]. rewrite repeat_length. lia.
    + intros x [<-|[]]. unfold affine. rewrite (@rsum_one dim _ 0%nat); [cbn [nth]; lra|lia|].
      intros i Hi Ni. destruct i as [|i]; [contradiction|]. cbn [nth]. rewrite nth_repeat. lra.
    + specialize (K 0%nat ltac:(lia)). cbn in K. lra.
Qed.

Lemma general_evaluated : forall ops p, y_proc (Strategy.run c rbf (Ok d0) sop0 ops) = Some p ->
  count (@is_resume pt val) (p_hist p) = 0%nat -> (forall x, In x queue0 -> ~ In x (given_up (c_async c) (p_hist p))) ->
  batch_queue (p_s p) = [] -> p_out p = [] -> in_general_position dim (X_ (p_s p)).
Proof using GE G0.
  intros ops p Hp NR NG Eq Eo.
  assert (HR : reached c strategy (Ok d0) sop0 p) by (eapply (@reached_at _ _ _ _ _ search); exists ops; left; exact Hp).
  destruct (all_kept HR) as [L AK].
  destruct (@C08_queued_points_conserved_partial _ _ _ _ _ _ _ _ _ HR NR) as [s [e [H1 H2]]].
  destruct started as [s0 [e0 [S1 S2]]]. rewrite S1 in H1. injection H1 as <- <-. rewrite S2, Eq, (inv_out (Inv_reached HR)), Eo in H2. cbn [map app] in H2.
  eapply general_incl; [|exact (proj2 (proj2 G0))]. intros x Hx.
  assert (Q : In x queue0) by (apply in_or_app; left; exact Hx).
  assert (K : In x (map fst (completed (p_hist p)) ++ given_up (c_async c) (p_hist p))).
  { eapply Permutation_in; [exact H2|]. apply in_or_app. left. exact Q. }
  apply in_app_or in K. destruct K as [K|K]; [|exfalso; exact (NG x Q K)].
  rewrite <- AK in K. rewrite (EIStrat.map_fst_combine' _ _ L) in K. exact K.
Qed.

Hypothesis Hpe : forall x y, c_peqb c x y = true <-> x = y.
Hypothesis Hsd : forall x y, x <> y -> ~ (sdist x y == 0)%Q.
Hypothesis Hm : c_max_evals c <> Z.of_nat (c_num_pts c).

(** Synchronous mode. *)
Lemma sync_total : c_async c = false -> Z.of_nat (c_batch c) = ncenters -> (0 < c_batch c)%nat ->
  forall ops p, Forall (@good_op q dim c (nat -> dydraws)) ops -> y_proc (Strategy.run c rbf (Ok d0) sop0 ops) = Some p ->
  count (@is_abort pt val) (p_hist p) = 0%nat -> count (@is_resume pt val) (p_hist p) = 0%nat -> protocol (p_hist p) ->
  NoDup (queue0 ++ queued_later (p_hist p)) ->
  (forall d z, exists r, do_propose c rbf d z p = Ok r) /\
  (forall o ev v, In o (p_out p) -> o_ev o = Some ev -> exists p', do_complete c rbf o ev v p = Ok p').
Proof using SE Heta GE G0 Hpe Hsd Hm.
  intros Ha Hb Hb0 ops p GO Hp NA NR PR ND.
  assert (HR : reached c strategy (Ok d0) sop0 p) by (eapply (@reached_at _ _ _ _ _ search); exists ops; left; exact Hp).
  destruct started as [s0 [e0 [S1 S2]]]. rewrite <- S2 in ND.
  assert (Q2 : (2 <= length (batch_queue s0))%nat) by (rewrite S2; exact two_points).
  destruct (@C31_sync_never_fails_partial pt c sdist tooclose ncenters (Ok d0) s0 e0 S1 Ha Hb Hb0 Hm Q2 Hpe Hsd p HR NA NR PR ND) as [C1 C2].
  split; [|exact C2]. apply (@propose_rbf ops p GO Hp); [|exact C1].
  intros E1 [K|E2]; [congruence|]. apply (@general_evaluated ops p Hp NR); [|exact E1|].
  - rewrite Ha, (given_up_calm _ NA). intros x _ [].
  - exact (idle_out (Inv_reached HR) E2).
Qed.

(** Asynchronous mode. *)
Lemma async_total' : c_async c = true ->
  forall ops p, Forall (@good_op q dim c (nat -> dydraws)) ops -> y_proc (Strategy.run c rbf (Ok d0) sop0 ops) = Some p ->
  count (@is_resume pt val) (p_hist p) = 0%nat -> NoDup (queue0 ++ queued_later (p_hist p)) ->
  (forall h1 n r h2, p_hist p = h1 ++ EvGenerate n r :: h2 -> room ncenters h1) ->
  ((Z.of_nat (length queue0) + total (@design_left pt val) (p_hist p) = 0)%Z -> room ncenters (p_hist p)) ->
  (batch_queue (p_s p) = [] -> in_general_position dim (X_ (p_s p))) ->
  forall d z, exists r, do_propose c rbf d z p = Ok r.
Proof using SE Heta GE G0 Hpe Hsd Hm.
  intros Ha ops p GO Hp NR ND RM NOW GP.
  assert (HR : reached c strategy (Ok d0) sop0 p) by (eapply (@reached_at _ _ _ _ _ search); exists ops; left; exact Hp).
  destruct started as [s0 [e0 [S1 S2]]]. rewrite <- S2 in ND, NOW.
  assert (Q2 : (2 <= length (batch_queue s0))%nat) by (rewrite S2; exact two_points).
  destruct (@C31_async_never_fails_partial pt c sdist tooclose ncenters (Ok d0) s0 e0 S1 Ha Hm Q2 Hpe Hsd p HR NR ND RM) as [C1 _].
  apply (@propose_rbf ops p GO Hp); [intros E1 _; exact (GP E1)|].
  intros d o Ho. apply C1; [exact Ho|exact NOW].
Qed.
Lemma async_complete : c_async c = true ->
  forall ops p, y_proc (Strategy.run c rbf (Ok d0) sop0 ops) = Some p ->
  count (@is_resume pt val) (p_hist p) = 0%nat -> NoDup (queue0 ++ queued_later (p_hist p)) ->
  (forall h1 n r h2, p_hist p = h1 ++ EvGenerate n r :: h2 -> room ncenters h1) ->
  forall o ev v, In o (p_out p) -> o_ev o = Some ev -> exists p', do_complete c rbf o ev v p = Ok p'.
Proof using SE GE G0 Hpe Hsd Hm.
  intros Ha ops p Hp NR ND RM.
  assert (HR : reached c strategy (Ok d0) sop0 p) by (eapply (@reached_at _ _ _ _ _ search); exists ops; left; exact Hp).
  destruct started as [s0 [e0 [S1 S2]]]. rewrite <- S2 in ND.
  assert (Q2 : (2 <= length (batch_queue s0))%nat) by (rewrite S2; exact two_points).
  destruct (@C31_async_never_fails_partial pt c sdist tooclose ncenters (Ok d0) s0 e0 S1 Ha Hm Q2 Hpe Hsd p HR NR ND RM) as [_ C2]. exact C2.
Qed.
Lemma async_total : c_async c = true ->
  forall ops p, Forall (@good_op q dim c (nat -> dydraws)) ops -> y_proc (Strategy.run c rbf (Ok d0) sop0 ops) = Some p ->
  count (@is_resume pt val) (p_hist p) = 0%nat -> NoDup (queue0 ++ queued_later (p_hist p)) ->
  (forall h1 n r h2, p_hist p = h1 ++ EvGenerate n r :: h2 -> room ncenters h1) ->
  ((Z.of_nat (length queue0) + total (@design_left pt val) (p_hist p) = 0)%Z ->
     room ncenters (p_hist p) /\ in_general_position dim (map fst (completed (p_hist p)))) ->
  (forall d z, exists r, do_propose c rbf d z p = Ok r) /\
  (forall o ev v, In o (p_out p) -> o_ev o = Some ev -> exists p', do_complete c rbf o ev v p = Ok p').
Proof using SE Heta GE G0 Hpe Hsd Hm.
  intros Ha ops p GO Hp NR ND RM NOW. split; [|eapply async_complete; eassumption].
  apply (@async_total' Ha ops p GO Hp NR ND RM); [intros K; exact (proj1 (NOW K))|].
  assert (HR : reached c strategy (Ok d0) sop0 p) by (eapply (@reached_at _ _ _ _ _ search); exists ops; left; exact Hp).
  destruct started as [s0 [e0 [S1 S2]]]. rewrite <- S2 in ND, NOW.
  assert (Q2 : (2 <= length (batch_queue s0))%nat) by (rewrite S2; exact two_points).
  intros E1. destruct (all_kept HR) as [L AK]. rewrite <- (EIStrat.map_fst_combine' _ _ L), AK. apply NOW.
  assert (Hq0 : forall s e, construct c strategy (Ok d0) sop0 = Ok (s, e) -> batch_queue s = batch_queue s0) by (intros s e K; rewrite S1 in K; injection K as -> _; reflexivity).
  pose proof (@AG_reached pt c sdist tooclose ncenters (Ok d0) (batch_queue s0) Ha Hm Hpe Hsd Hq0 Q2 p HR) as AGR.
  destruct AGR as [G1 G2]; [repeat split; [exact NR|exact ND|intros; eapply RM; eassumption|intros; eapply RM; eassumption]|].
  destruct (existsb (@is_gen pt) (p_hist p)).
  - exact (aq_left (G2 eq_refl)).
  - rewrite <- (ap_left (G1 eq_refl)), E1. reflexivity.
Qed.

(** ** Serial runs *)
Record steadyS (h : list (event pt val)) : Prop := mkSS {
  ss_res : count (@is_resume pt val) h = 0%nat;
  ss_ab : count (@is_abort pt val) h = 0%nat;
  ss_gu : given_up (c_async c) h = [];
  ss_pro : protocol h;
  ss_nd : NoDup (queue0 ++ queued_later h);
  ss_gen : forall h1 n r h2, h = h1 ++ EvGenerate n r :: h2 -> total (@design_running pt val) h1 = 0%Z /\ total (@unfinished pt val) h1 = 0%Z
}.
(** Specification, no counterpart in /repo. *)
Definition idleS (h : list (event pt val)) : Prop := total (@design_running pt val) h = 0%Z /\ total (@unfinished pt val) h = 0%Z.

Lemma steady_snoc : forall h ev, steadyS h -> is_resume ev = false -> is_abort ev = false -> given_up (c_async c) [ev] = [] ->
  (is_call ev = true -> undecided h = []) -> NoDup (queue0 ++ queued_later (h ++ [ev])) ->
  (forall n r, ev = EvGenerate n r -> idleS h) -> steadyS (h ++ [ev]).
Proof using.
  clear. intros h ev [A1 A2 A3 A4 A5 A6] B1 B2 B3 B4 B5 B6. constructor.
  - rewrite count_app, A1. unfold count. cbn [filter]. rewrite B1. reflexivity.
  - rewrite count_app, A2. unfold count. cbn [filter]. rewrite B2. reflexivity.
  - unfold given_up in *. rewrite flat_map_app, A3, B3. reflexivity.
  - apply protocol_snoc; assumption.
  - exact B5.
  - intros h1 n r h2 E. apply snoc_split in E. destruct E as [[-> [E _]]|[h2' E]]; [|eapply A6; exact E]. apply (B6 n r). symmetry. exact E.
Qed.

Variable f : pt -> val.
Variable designs : nat -> list pt.
Variable draws : nat -> nat -> dydraws.
Notation y0 := (start c rbf (Ok d0) sop0).
Notation serial_run k := (serial c rbf f (fun i => Ok (designs i)) draws k y0).
Hypothesis Hmode : (c_async c = true /\ (0 < ncenters)%Z) \/ (c_async c = false /\ Z.of_nat (c_batch c) = ncenters /\ (0 < c_batch c)%nat).
Hypothesis Hf : forall x, finite_val (f x).
Hypothesis Hdes : forall i, good_points q dim c (designs i).
Hypothesis Hdist : forall k p out p1, (Z.of_nat k < c_max_evals c)%Z -> y_proc (serial_run k) = Some p ->
  do_propose c rbf (Ok (designs k)) (draws k) p = Ok (out, p1) -> NoDup (queue0 ++ queued_later (p_hist p1)).

(** Specification, no counterpart in /repo. *)
Definition visited (k : nat) (p : proc pt val (sop pt)) : Prop :=
  y_proc (serial_run k) = Some p /\ (exists ops, serial_run k = Strategy.run c rbf (Ok d0) sop0 ops /\ Forall (@good_op q dim c (nat -> dydraws)) ops) /\
  steadyS (p_hist p) /\ idleS (p_hist p) /\ length (completed (p_hist p)) = k.

Lemma visited_propose : forall k p, visited k p -> p_out p = [] -> exists r, do_propose c rbf (Ok (designs k)) (draws k) p = Ok r.
Proof using SE Heta GE G0 Hpe Hsd Hm Hmode.
  intros k p [V1 [[ops [V2 V3]] [[A1 A2 A3 A4 A5 A6] [[A7 A8] _]]]] Eo. rewrite V2 in V1.
  destruct Hmode as [[Ha Hn]|[Ha [Hb Hb0]]].
  - apply (@async_total' Ha ops p V3 V1 A1 A5).
    + intros h1 n r h2 E. destruct (A6 _ _ _ _ E) as [B1 B2]. split; [exact B1|]. rewrite B2. exact Hn.
    + intros _. split; [exact A7|]. rewrite A8. exact Hn.
    + intros E. apply (@general_evaluated ops p V1 A1); [rewrite A3; intros x _ []|exact E|exact Eo].
  - exact (proj1 (@sync_total Ha Hb Hb0 ops p V3 V1 A2 A1 A4 A5) (Ok (designs k)) (draws k)).
Qed.

Lemma steady_complete : forall ops p o ev v, Forall (@good_op q dim c (nat -> dydraws)) ops -> y_proc (Strategy.run c rbf (Ok d0) sop0 ops) = Some p -> steadyS (p_hist p) ->
  In o (p_out p) -> o_ev o = Some ev -> exists p', do_complete c rbf o ev v p = Ok p'.
Proof using SE Heta GE G0 Hpe Hsd Hm Hmode.
  intros ops p o ev v GO V1 [A1 A2 A3 A4 A5 A6] Hin Hev.
  destruct Hmode as [[Ha Hn]|[Ha [Hb Hb0]]].
  - eapply (@async_complete Ha ops p V1 A1 A5); [|exact Hin|exact Hev].
    intros h1 n r h2 E. destruct (A6 _ _ _ _ E) as [B1 B2]. split; [exact B1|]. rewrite B2. exact Hn.
  - exact (proj2 (@sync_total Ha Hb Hb0 ops p GO V1 A2 A1 A4 A5) o ev v Hin Hev).
Qed.

Lemma eval_below : forall d z (p : proc pt val (sop pt)) kd x p1, do_propose c rbf d z p = Ok (OEval kd x, p1) -> pending_evals (p_s p) = 0%Z -> (num_evals (p_s p) < c_max_evals c)%Z.
Proof using.
  clear. intros d z p kd x p1 Ep Hpend. apply Z.lt_nge. intros K. unfold do_propose, propose_action, check_termination in Ep.
  replace (c_max_evals c <=? num_evals (p_s p) + pending_evals (p_s p))%Z with true in Ep.
  - simpl in Ep. rewrite Hpend in Ep. simpl in Ep. discriminate Ep.
  - symmetry. apply Z.leb_le. lia.
Qed.

Lemma visited_complete : forall k p p1 kd x, reached c rbf (Ok d0) sop0 p -> visited k p -> p_out p = [] ->
  do_propose c rbf (Ok (designs k)) (draws k) p = Ok (OEval kd x, p1) ->
  let o := mkOut (p_next p) kd x (Some (ev_next (p_s p1))) in
  exists p3, do_complete c rbf o (ev_next (p_s p1)) (f x) (do_accept (mkOut (p_next p) kd x None) p1) = Ok p3 /\ visited (S k) p3.
Proof using SE Heta GE G0 Hpe Hsd Hm Hmode Hf Hdes Hdist.
  intros k p p1 kd x HR [V1 [[ops [V2 V3]] [SS [IS LC]]]] Eo Ep o2.
  assert (HRs : reached c strategy (Ok d0) sop0 p) by (eapply (@reached_at _ _ _ _ _ search); exact HR).
  assert (LT : (Z.of_nat k < c_max_evals c)%Z).
  { pose proof (Inv_reached HR) as I0. pose proof (inv_num I0) as IN. pose proof (inv_pend I0) as IP. rewrite Eo in IP. cbn in IP. rewrite LC in IN.
    pose proof (@eval_below _ _ _ _ _ _ Ep IP) as LT. rewrite IN in LT. exact LT. }
  pose proof (@Hdist _ _ _ _ LT V1 Ep) as ND.
  destruct (@propose_eval_fields _ _ _ _ c rbf _ _ _ _ _ _ Ep) as [Et1 [En1 [Eo1 [Ex1 Ec1]]]]. rewrite Eo in Eo1. cbn [app] in Eo1.
  set (o1 := mkOut (p_next p) kd x None) in *. set (p2 := do_accept o1 p1).
  set (a1 := Propose (Ok (designs k)) (draws k) : op pt val (nat -> dydraws)). set (a2 := Accept (p_next p) : op pt val (nat -> dydraws)).
  set (a3 := Update (p_next p) (SCompleted (f x)) : op pt val (nat -> dydraws)).
  set (y := serial_run k) in *.
  assert (Y1 : Strategy.step c rbf y a1 = mkSys (Some p1) (y_disk y)) by (unfold Strategy.step, a1; rewrite V1, Ep; reflexivity).
  assert (Y2 : Strategy.step c rbf (mkSys (Some p1) (y_disk y)) a2 = mkSys (Some p2) (y_disk y)).
  { unfold Strategy.step, get_out, a2. cbn [y_proc]. rewrite Eo1. cbn [find o_id o1]. rewrite Nat.eqb_refl. reflexivity. }
  assert (R2 : Strategy.run c rbf (Ok d0) sop0 (ops ++ [a1] ++ [a2]) = mkSys (Some p2) (y_disk y)).
  { rewrite app_assoc, !StrategyInv4.run_snoc, <- V2, Y1. exact Y2. }
  assert (GO2 : Forall (@good_op q dim c (nat -> dydraws)) (ops ++ [a1] ++ [a2])).
  { apply Forall_app. split; [exact V3|]. constructor; [exists (designs k); split; [reflexivity|apply Hdes]|]. constructor; [exact Logic.I|constructor]. }
  assert (Eo2 : p_out p2 = [o2]).
  { unfold p2, do_accept. cbn [p_out]. rewrite Eo1. unfold set_ev. cbn [map o1 o_id]. rewrite Nat.eqb_refl. reflexivity. }
  assert (U : undecided (p_hist p) = []) by (pose proof (inv_und (Inv_reached HR)) as K; rewrite Eo in K; exact K).
  (* the history after the proposal *)
  assert (H1 : exists h, p_hist p1 = h ++ [EvPropose (p_next p) kd x] /\ steadyS h /\ idleS h /\ undecided h = []).
  { change (do_propose c strategy (Ok (designs k)) (search (draws k) (set_phase 2%nat (check_termination c (p_s p)))) p = Ok (OEval kd x, p1)) in Ep.
    destruct (@sop_propose_hist pt c sdist tooclose ncenters (Ok d0) (fun _ => Ok (designs k)) (fun _ => search (draws k) (set_phase 2%nat (check_termination c (p_s p)))) k p p1 kd x HRs Eo Ep) as [E|[n [l [E HL]]]].
    - exists (p_hist p). auto.
    - exists (p_hist p ++ [EvGenerate n (Some l)]). split; [exact E|]. split; [|split].
      + apply steady_snoc; [exact SS|reflexivity|reflexivity|reflexivity|discriminate| |intros; exact IS].
        rewrite E, queued_later_app in ND. cbn in ND. rewrite app_nil_r in ND. exact ND.
      + destruct IS as [I1 I2]. unfold idleS. rewrite !total_app, I1, I2. split; reflexivity.
      + unfold undecided. rewrite fold_left_app. exact U. }
  destruct H1 as [h [E1 [SS1 [IS1 U1]]]].
  assert (QL : forall h' (ev : event pt val), queued_later [ev] = [] -> queued_later (h' ++ [ev]) = queued_later h') by (intros h' ev K; rewrite queued_later_app, K, app_nil_r; reflexivity).
  assert (E2 : p_hist p2 = (h ++ [EvPropose (p_next p) kd x]) ++ [EvAccept (p_next p)]) by (unfold p2, do_accept; cbn [p_hist o1 o_id]; rewrite E1; reflexivity).
  assert (SS2 : steadyS (p_hist p2)).
  { rewrite E2. apply steady_snoc; [apply steady_snoc; try exact SS1|..]; try reflexivity; try (intros; discriminate); try (intros; assumption).
    - rewrite <- E1. exact ND.
    - rewrite QL by reflexivity. rewrite <- E1. exact ND. }
  destruct (@steady_complete (ops ++ [a1] ++ [a2]) p2 o2 (ev_next (p_s p1)) (f x)) as [p3 Hc]; [exact GO2|rewrite R2; reflexivity|exact SS2|rewrite Eo2; left; reflexivity|reflexivity|].
  exists p3. split; [exact Hc|].
  assert (Y3' : exists dk, Strategy.step c rbf (mkSys (Some p2) (y_disk y)) a3 = mkSys (Some p3) dk).
  { unfold Strategy.step, get_out, a3. cbn [y_proc]. rewrite Eo2. cbn [find]. change (o_id o2) with (p_next p). rewrite Nat.eqb_refl. cbv iota. change (o_ev o2) with (Some (ev_next (p_s p1))). cbv iota. rewrite Hc. eexists. reflexivity. }
  destruct Y3' as [dk Y3'].
  assert (YS : serial_run (S k) = mkSys (Some p3) dk).
  { rewrite serial_snoc. fold y. unfold serial_step. rewrite V1, Ep. fold a1 a2 a3. rewrite Y1, Y2. exact Y3'. }
  split; [rewrite YS; reflexivity|]. split; [|].
  - exists (ops ++ [a1] ++ [a2] ++ [a3]). split.
    + rewrite YS. symmetry. change (ops ++ [a1] ++ [a2] ++ [a3]) with (ops ++ ([a1] ++ [a2]) ++ [a3]). rewrite app_assoc, StrategyInv4.run_snoc, R2. exact Y3'.
    + change (ops ++ [a1] ++ [a2] ++ [a3]) with (ops ++ ([a1] ++ [a2]) ++ [a3]). rewrite app_assoc. apply Forall_app. split; [exact GO2|]. constructor; [exact (Hf x)|constructor].
  - apply do_complete_ok in Hc. destruct Hc as [e' [l [nx [cv [-> _]]]]]. cbn [p_hist o2 o_id o_kind o_x]. split.
    + apply steady_snoc; try exact SS2; try reflexivity; try (intros; discriminate). rewrite QL by reflexivity. exact (ss_nd SS2).
    + split; [destruct IS1 as [I1 I2]; unfold idleS; rewrite E2, !total_app, I1, I2; destruct kd; split; reflexivity|].
      change (p_hist p2) with (p_hist p1 ++ [EvAccept (p_next p) : event pt val]). rewrite !completed_app, !app_length. cbn [completed flat_map app length].
      rewrite Ec1, LC. lia.
Qed.

Lemma rbf_contract : gen_contract rbf.
Proof using.
  clear. intros e s n z e' l Hn H. exact (@sop_contract pt c sdist tooclose ncenters e s n (search z s) e' l Hn H).
Qed.

Lemma serial_total : c_restarts c = true -> (0 <= c_max_evals c)%Z -> NoDup queue0 ->
  let m := Z.to_nat (c_max_evals c) in
  exists p h, y_proc (serial_run (S m)) = Some p /\
    p_hist p = h ++ [EvTerminate] /\ length (completed h) = m /\ Forall (fun xv => snd xv = f (fst xv)) (completed h) /\ outstanding h = [].
Proof using SE Heta GE G0 Hpe Hsd Hm Hmode Hf Hdes Hdist.
  intros Hr Hme N0 m.
  apply (@serial_finishes_K pt val (sop pt) _ c rbf f (fun i => Ok (designs i)) draws (Ok d0) sop0 visited).
  - exact rbf_contract.
  - destruct Hmode as [[H _]|[_ [_ H]]]; auto.
  - exact Hr.
  - destruct started as [s0 [e0 [S1 S2]]]. exists s0, e0. split; [exact S1|].
    assert (Y0 : y0 = mkSys (Some (init_proc (V := val) (s0, e0))) None).
    { unfold start. change (construct c rbf (Ok d0) sop0) with (construct c strategy (Ok d0) sop0). rewrite S1. reflexivity. }
    split; [|split; [|split]].
    + change (y_proc y0 = Some (init_proc (s0, e0))). rewrite Y0. reflexivity.
    + exists []. split; [reflexivity|constructor].
    + constructor; try reflexivity.
      * intros [|a h1] ev h2 E; discriminate E.
      * cbn. rewrite app_nil_r. exact N0.
      * intros [|a h1] n r h2 E; discriminate E.
    + split; [split; reflexivity|reflexivity].
  - intros k p _ V Eo. exact (visited_propose V Eo).
  - intros k p p1 kd x HR V Eo Ep o HR2. exact (visited_complete HR V Eo Ep).
  - exact Hme.
Qed.
End Rbf.

(** ** The theorems *)
Section Main.
Variable c : cfg pt val.
Variable sdist : pt -> pt -> Q.
Variable tooclose : pt -> pt -> nat -> Q -> bool.
Variable ncenters : Z.
Variable q : prob.
Variable dim : nat.
Variable dist : pt -> pt -> R.
Variable dtol : R.
Variable num_cand : option nat.
Variable eta : R.
Notation rbf := (sop_rbf q dim dist dtol num_cand eta c sdist tooclose ncenters).
Notation run := (Strategy.run c rbf).

(** What the user sets up: a box, RBFInterpolant with the cubic kernel, the linear tail and a
    positive eta, legal extra points; points are compared by value and different points have a
    positive distance; the initial design has not exactly max_evals points (C31). *)
(** Specification, no counterpart in /repo. *)
Record sop_setting : Prop := mkSopSetting {
  sos_setting : setting q dim dist dtol num_cand;
  sos_eta : 0 < eta;
  sos_extra : good_extra_points q dim c;
  sos_eqb : forall x y, c_peqb c x y = true <-> x = y;
  sos_dist : forall x y, x <> y -> ~ (sdist x y == 0)%Q;
  sos_max : c_max_evals c <> Z.of_nat (c_num_pts c)
}.
(** A synchronous strategy generates one point per center. *)
(** Specification, no counterpart in /repo. *)
Definition sop_sync : Prop := c_async c = false /\ Z.of_nat (c_batch c) = ncenters /\ (0 < c_batch c)%nat.

Theorem C74_sop_sync_no_call_raises : sop_setting -> sop_sync -> forall d0, good_points q dim c d0 ->
  (exists p, y_proc (run (Ok d0) sop0 []) = Some p) /\
  forall ops p, Forall (@good_op q dim c (nat -> dydraws)) ops -> y_proc (run (Ok d0) sop0 ops) = Some p ->
  (* schedule: nothing was killed or cancelled, no resume, every request is decided before the next
     one, no point was queued twice *)
  count (@is_abort pt val) (p_hist p) = 0%nat -> count (@is_resume pt val) (p_hist p) = 0%nat -> protocol (p_hist p) ->
  NoDup (first_queue c d0 ++ queued_later (p_hist p)) ->
  (forall d z, exists r, do_propose c rbf d z p = Ok r) /\
  (forall o ev v, In o (p_out p) -> o_ev o = Some ev -> exists p', do_complete c rbf o ev v p = Ok p').
Proof using.
  intros [A1 A2 A3 A4 A5 A6] [B1 [B2 B3]] d0 G0. split.
  - destruct (@started c sdist tooclose ncenters q dim A3 d0 G0) as [s0 [e0 [S1 _]]]. exists (init_proc (s0, e0)).
    unfold Strategy.run, run_from, start. cbn [fold_left]. change (construct c rbf (Ok d0) sop0) with (construct c (sop_strategy c sdist tooclose ncenters) (Ok d0) sop0). rewrite S1. reflexivity.
  - intros. eapply (@sync_total c sdist tooclose ncenters q dim dist dtol num_cand eta A1 A2 A3 d0 G0 A4 A5 A6 B1 B2 B3 ops); eassumption.
Qed.

(** Specification, no counterpart in /repo. *)
Definition calm (ev : event pt val) : bool := negb (is_abort ev) && negb (is_resume ev).
Lemma calm_quiet : forall h, forallb calm h = true -> count (@is_abort pt val) h = 0%nat /\ count (@is_resume pt val) h = 0%nat.
Proof using.
  clear. induction h as [|ev h IH]; [split; reflexivity|]. cbn [forallb]. intros H. apply andb_prop in H. destruct H as [H1 H2]. destruct (IH H2) as [A B].
  unfold calm in H1. unfold count in *. cbn [filter]. destruct (is_abort ev); [discriminate H1|]. destruct (is_resume ev); [discriminate H1|]. auto.
Qed.
Lemma quiet_calm : forall h, count (@is_abort pt val) h = 0%nat -> count (@is_resume pt val) h = 0%nat -> forallb calm h = true.
Proof using.
  clear. unfold count. induction h as [|ev h IH]; [reflexivity|]. cbn [filter forallb]. unfold calm at 1. destruct (is_abort ev); [discriminate|]. destruct (is_resume ev); [discriminate|]. exact IH.
Qed.
Lemma propose_calm : forall d z (p : proc pt val (sop pt)) out p', do_propose c rbf d z p = Ok (out, p') -> forallb calm (p_hist p) = true -> forallb calm (p_hist p') = true.
Proof using.
  intros d z p out p' H Q. unfold do_propose in H. apply rbind_ok in H. destruct H as [[[out1 [s1 e1]] evs] [H1 H2]]. injection H2 as <- <-.
  apply propose_events in H1.
  assert (QE : forallb calm evs = true).
  { revert H1. induction evs as [|ev l IH]; [reflexivity|]. cbn [forallb]. destruct ev; try discriminate; exact IH. }
  destruct out1; cbn [p_hist]; rewrite !forallb_app, Q, QE; reflexivity.
Qed.

(** In terms of whole runs: without crashes and without killed or cancelled evaluations the process
    never dies, whatever the schedule, the draws and the (finite) values. *)
Theorem C74_sop_sync_run : sop_setting -> sop_sync -> forall d0 ops, good_points q dim c d0 ->
  Forall (@good_op q dim c (nat -> dydraws)) ops -> Forall quiet_op ops ->
  (* the schedule so far, in every state passed *)
  (forall ops1 ops2 p, ops = ops1 ++ ops2 -> y_proc (run (Ok d0) sop0 ops1) = Some p ->
     protocol (p_hist p) /\ NoDup (first_queue c d0 ++ queued_later (p_hist p))) ->
  exists p, y_proc (run (Ok d0) sop0 ops) = Some p.
Proof using.
  intros SS SY d0 ops G0 GO QO HP.
  assert (K : exists p, y_proc (run (Ok d0) sop0 ops) = Some p /\ count (@is_abort pt val) (p_hist p) = 0%nat /\ count (@is_resume pt val) (p_hist p) = 0%nat);
    [|destruct K as [p [K _]]; eauto].
  destruct (C74_sop_sync_no_call_raises SS SY G0) as [[p0 P0] NC].
  induction ops as [|a ops IH] using rev_ind.
  - exists p0. split; [exact P0|].
    assert (E : p_hist p0 = []).
    { revert P0. unfold Strategy.run, run_from, start. cbn [fold_left]. destruct (construct _ _ _ _) as [[s0 e0]|]; cbn; [|discriminate]. intros [= <-]. reflexivity. }
    rewrite E. split; reflexivity.
  - apply Forall_app in GO, QO. destruct GO as [GO Ga], QO as [QO Qa]. inversion Ga as [|? ? G1 _]. inversion Qa as [|? ? Q1 _]. subst.
    destruct IH as [p [E [NA NR]]]; auto.
    { intros ops1 ops2 p -> Hp. apply (HP ops1 (ops2 ++ [a]) p); [apply app_assoc_reverse|exact Hp]. }
    destruct (HP ops [a] p eq_refl E) as [PR ND].
    destruct (NC ops p GO E NA NR PR ND) as [T1 T2].
    assert (AP : forall ev, is_abort ev = false -> is_resume ev = false ->
      count (@is_abort pt val) (p_hist p ++ [ev]) = 0%nat /\ count (@is_resume pt val) (p_hist p ++ [ev]) = 0%nat).
    { intros ev K1 K2. rewrite !count_app, NA, NR. unfold count. cbn [filter]. rewrite K1, K2. split; reflexivity. }
    rewrite StrategyInv4.run_snoc. set (y := run (Ok d0) sop0 ops) in *. clearbody y. unfold Strategy.step. rewrite E.
    destruct a as [d z|id|id|id st| | |]; cbn [quiet_op] in Q1; try contradiction.
    + destruct (T1 d z) as [[out p'] E1]. rewrite E1. exists p'. split; [destruct out; reflexivity|].
      apply calm_quiet. eapply propose_calm; [exact E1|]. apply quiet_calm; assumption.
    + destruct (get_out id (p_out p)) as [o|]; [|exists p; auto]. destruct (o_ev o); [exists p; auto|].
      eexists. split; [reflexivity|]. apply AP; reflexivity.
    + destruct (get_out id (p_out p)) as [o|]; [|exists p; auto]. destruct (o_ev o); [exists p; auto|].
      eexists. split; [reflexivity|]. apply AP; reflexivity.
    + destruct (get_out id (p_out p)) as [o|] eqn:EG; [|exists p; auto]. destruct (o_ev o) as [ev|] eqn:EV; [|exists p; auto].
      destruct st as [|v| |]; [exists p; auto| |destruct Q1|destruct Q1].
      destruct (T2 o ev v) as [p' E1]; [eapply find_some; exact EG|exact EV|]. rewrite E1. exists p'. split; [reflexivity|].
      apply do_complete_ok in E1. destruct E1 as [e' [l [nx [cv [-> _]]]]]. apply AP; reflexivity.
    + eexists. split; [reflexivity|]. apply AP; reflexivity.
    + exists p. auto.
Qed.

(** Asynchronous strategy: every generation, also the next one, needs that no point of the initial
    design is under evaluation and fewer than ncenters evaluations are ([room]), and that the
    evaluated points determine the interpolant. *)
Theorem C74_sop_async_no_call_raises : sop_setting -> c_async c = true -> forall d0, good_points q dim c d0 ->
  (exists p, y_proc (run (Ok d0) sop0 []) = Some p) /\
  forall ops p, Forall (@good_op q dim c (nat -> dydraws)) ops -> y_proc (run (Ok d0) sop0 ops) = Some p ->
  count (@is_resume pt val) (p_hist p) = 0%nat -> NoDup (first_queue c d0 ++ queued_later (p_hist p)) ->
  (forall h1 n r h2, p_hist p = h1 ++ EvGenerate n r :: h2 -> room ncenters h1) ->
  ((Z.of_nat (length (first_queue c d0)) + total (@design_left pt val) (p_hist p) = 0)%Z ->
     room ncenters (p_hist p) /\ in_general_position dim (map fst (completed (p_hist p)))) ->
  (forall d z, exists r, do_propose c rbf d z p = Ok r) /\
  (forall o ev v, In o (p_out p) -> o_ev o = Some ev -> exists p', do_complete c rbf o ev v p = Ok p').
Proof using.
  intros [A1 A2 A3 A4 A5 A6] Ha d0 G0. split.
  - destruct (@started c sdist tooclose ncenters q dim A3 d0 G0) as [s0 [e0 [S1 _]]]. exists (init_proc (s0, e0)).
    unfold Strategy.run, run_from, start. cbn [fold_left]. change (construct c rbf (Ok d0) sop0) with (construct c (sop_strategy c sdist tooclose ncenters) (Ok d0) sop0). rewrite S1. reflexivity.
  - intros. eapply (@async_total c sdist tooclose ncenters q dim dist dtol num_cand eta A1 A2 A3 d0 G0 A4 A5 A6 Ha ops); eassumption.
Qed.

(** A serial controller evaluates exactly max_evals points and stops, if no request queues a point
    twice. *)
Theorem C74_sop_serial : sop_setting -> sop_sync \/ (c_async c = true /\ (0 < ncenters)%Z) ->
  c_restarts c = true -> (0 <= c_max_evals c)%Z ->
  forall (f : pt -> val) (designs : nat -> list pt) (draws : nat -> nat -> dydraws) d0,
  (forall x, finite_val (f x)) -> (forall i, good_points q dim c (designs i)) -> good_points q dim c d0 -> NoDup (first_queue c d0) ->
  let run_serially k := serial c rbf f (fun i => Ok (designs i)) draws k (start c rbf (Ok d0) sop0) in
  (forall k p out p1, (Z.of_nat k < c_max_evals c)%Z -> y_proc (run_serially k) = Some p -> do_propose c rbf (Ok (designs k)) (draws k) p = Ok (out, p1) ->
     NoDup (first_queue c d0 ++ queued_later (p_hist p1))) ->
  let m := Z.to_nat (c_max_evals c) in
  exists p h, y_proc (run_serially (S m)) = Some p /\
    p_hist p = h ++ [EvTerminate] /\ length (completed h) = m /\ Forall (fun xv => snd xv = f (fst xv)) (completed h) /\ outstanding h = [].
Proof using.
  intros [A1 A2 A3 A4 A5 A6] HM Hr Hme f designs draws d0 Hf Hd G0 N0 rs HD m.
  apply (@serial_total c sdist tooclose ncenters q dim dist dtol num_cand eta A1 A2 A3 d0 G0 A4 A5 A6 f designs draws); auto.
  destruct HM as [[H1 H2]|[H1 H2]]; [right|left]; auto.
Qed.
End Main.
