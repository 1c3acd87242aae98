(** * C69 for SOPStrategy, and an example. *)
From Coq Require Import List Arith ZArith Lia Bool QArith Reals Lra Qreals.
From Verif Require Import Base PyList Strategy StrategySpec StrategyProofs StrategyInv StrategyInv2
  StrategyInv3 StrategyInv4 PropStrategy SRBF SRBFProofs SRBFInv PropSRBF Box PropBox Cand PropCand EndToEnd ExEndToEnd
  SOP SOPProofs SOPCenters SOPInv PropSOP SOPSearch GA EIStrat SOPFeas Picks.
From Coq Require Import Rdefinitions.
Import ListNotations.
Set Implicit Arguments.
Local Close Scope Q_scope.
Local Open Scope nat_scope.
Local Open Scope R_scope.

(** ** Runs with a computed oracle are runs *)
Section At.
Variables P V Ext O O' : Type.
Variable g : O' -> base P V -> O.
Variable c : cfg P V.
Variable hk : hooks P V Ext O.
Definition op_at (y : sys P V Ext) (a : op P V O') : op P V O :=
  match a with
  | Propose d o => match y_proc y with Some p => Propose d (g o (set_phase 2%nat (check_termination c (p_s p)))) | None => Crash end
  | Accept i => Accept i
  | Reject i => Reject i
  | Update i st => Update i st
  | UserStop => UserStop
  | Crash => Crash
  | Resume => Resume
  end.
Lemma step_at : forall y a, step c (hooks_at g hk) y a = step c hk y (op_at y a).
Proof using.
  intros y a. unfold step, op_at. destruct (y_proc y) as [p|] eqn:E; [|destruct a; rewrite ?E; reflexivity]. destruct a; reflexivity.
Qed.
Lemma run_at : forall d e0 ops, exists ops', Strategy.run c (hooks_at g hk) d e0 ops = Strategy.run c hk d e0 ops'.
Proof using.
  intros d e0 ops. induction ops as [|a ops IH] using rev_ind; [exists []; reflexivity|]. destruct IH as [ops' IH].
  exists (ops' ++ [op_at (Strategy.run c (hooks_at g hk) d e0 ops) a]). rewrite !run_snoc, step_at, <- IH. reflexivity.
Qed.
Lemma reached_at : forall d e0 p, reached c (hooks_at g hk) d e0 p -> reached c hk d e0 p.
Proof using. intros d e0 p [ops H]. destruct (run_at d e0 ops) as [ops' E]. exists ops'. rewrite <- E. exact H. Qed.
End At.

(** A candidate with the lowest prediction among those away from [T], if there are such candidates,
    otherwise the first candidate. *)
Definition best_candidate (dist : pt -> pt -> R) (predict : pt -> R) (dtol : R) (T cand : list pt) (y : pt) : Prop :=
  In y cand /\
  (forall y', In y' cand -> admissible dist dtol T y' -> admissible dist dtol T y /\ predict y <= predict y') /\
  ((forall y', In y' cand -> ~ admissible dist dtol T y') -> nth_error cand 0 = Some y).

Section Sop.
Variable c : cfg pt val.
Variable sdist : pt -> pt -> Q.
Variable tooclose : pt -> pt -> nat -> Q -> bool.
Variable ncenters : Z.
Variable q : prob.
Variable dim : nat.
Variable dist : pt -> pt -> R.
Variable dtol : R.
Variable num_cand : option nat.
Variable predict : list (pt * val) -> pt -> R.
Notation strategy := (sop_strategy c sdist tooclose ncenters).
Notation full := (sop_full c sdist tooclose ncenters q dist dtol num_cand predict).

Lemma pick_best : forall f T cand y js, Forall2 (fun j x => nth_error cand j = Some x) js [y] -> good_picks dist f cand dtol [1] T js -> best_candidate dist f dtol T cand y.
Proof using.
  intros f T cand y js F G. inversion F as [|j x js' l' H1 H2]; subst. inversion H2; subst. cbn [good_picks] in G. destruct G as [[y' [E [A B]]] _].
  assert (y' = y) by congruence. subst y'. split; [eapply nth_error_In; exact E|]. split.
  - intros y' Hy K. apply In_nth_error in Hy. destruct Hy as [k Hk]. destruct A as [A1 [m [[ds [drs [fs [M1 [M2 [M3 [M4 M5]]]]]]] A2]]]; [eauto|]. split; [exact A1|].
    specialize (A2 k y' Hk K). assert (Lj : (j < length cand)%nat) by (apply nth_error_Some; congruence). assert (Lk : (k < length cand)%nat) by (apply nth_error_Some; congruence).
    rewrite !M5 in A2 by assumption. assert (A3 : nth j fs 0 <= nth k fs 0) by lra. clear -M3 A3 E Hk Lj Lk.
    destruct (Rle_or_lt (f y) (f y')) as [|N]; [assumption|exfalso].
    assert (NJ : nth j (map f cand) 0 = f y) by (apply nth_error_nth; rewrite nth_error_map, E; reflexivity).
    assert (NK : nth k (map f cand) 0 = f y') by (apply nth_error_nth; rewrite nth_error_map, Hk; reflexivity).
    destruct (@C40_unit_rescale (map f cand)) as [ys [E1 [_ [_ [_ H]]]]]; [destruct cand; [cbn in Lj; lia|discriminate]|]. rewrite M3 in E1. injection E1 as <-.
    destruct H as [H _].
    { intros K. specialize (K (f y) (f y') (in_map f _ _ (nth_error_In _ _ E)) (in_map f _ _ (nth_error_In _ _ Hk))). lra. }
    assert (MJ : (j < length (map f cand))%nat) by (rewrite map_length; exact Lj). assert (MK : (k < length (map f cand))%nat) by (rewrite map_length; exact Lk).
    rewrite <- NJ, <- NK in N. apply (H k j MK MJ) in N. lra.
  - intros K. rewrite <- (B ltac:(intros k c' Hk; apply K; eapply nth_error_In; exact Hk)). exact E.
Qed.

Definition keeps_all (p : proc pt val (sop pt)) : Prop := length (X_ (p_s p)) = length (fX_ (p_s p)) /\ combine (X_ (p_s p)) (fX_ (p_s p)) = completed (p_hist p).
Lemma all_kept : forall design p, reached c strategy design sop0 p -> keeps_all p.
Proof using.
  intros design p H. apply reached_micros in H. destruct H as [[s e] [H1 M]].
  assert (I0 : Inv c (init_proc (s, e))) by (eapply Inv_init; exact H1).
  assert (S0 : SopInv c ncenters (init_proc (V := val) (s, e))).
  { apply (@SopInv_reached pt c sdist tooclose ncenters design). exists []. left. unfold Strategy.run, run_from, start. cbn [fold_left]. rewrite H1. reflexivity. }
  assert (G : SopInv c ncenters p /\ keeps_all p); [|exact (proj2 G)].
  apply (@micros_from _ _ _ _ c strategy (fun p => SopInv c ncenters p /\ keeps_all p) _ I0); [| |exact M].
  { split; [exact S0|]. destruct (construct_form _ _ _ _ H1) as [d [_ [rows0 [_ [_ HS]]]]]. apply sample_initial_ok in HS. destruct HS as [d1 [rows1 [_ [_ [_ ->]]]]]. split; reflexivity. }
  clear M p H1 I0 S0. intros p p' IP [S [L H]] M. split; [exact (@SopInv_micro pt c sdist tooclose ncenters p p' IP S M)|].
  assert (K : forall (p'' : proc pt val (sop pt)) evs, p_hist p'' = p_hist p ++ evs -> completed evs = [] -> X_ (p_s p'') = X_ (p_s p) -> fX_ (p_s p'') = fX_ (p_s p) -> keeps_all p'').
  { intros p'' evs E1 E2 E3 E4. unfold keeps_all. rewrite E3, E4, E1. split; [exact L|]. unfold completed in *. rewrite flat_map_app, E2, app_nil_r. exact H. }
  destruct M as [H1 H2|H1 H2|H1 H2|H1 H2 H3|n o e' l H1 H2 H3 H4 H5 H6 H7
    |n o e' H1 H2 H3 H4 H5 H6 H7|d rows H1 H2 H3 H4 H5 H6|q0 x k H1 H2 H3 H4|o H1 H2|o H1 H2
    |o ev v p' H1 H2 H3|o ev H1 H2| |].
  - eapply (@K _ [EvNone]); reflexivity.
  - eapply (@K _ [EvTerminate]); reflexivity.
  - eapply (@K _ [EvNone]); reflexivity.
  - eapply (@K _ []); reflexivity.
  - eapply (@K _ [EvGenerate n (Some l)]); reflexivity.
  - eapply (@K _ [EvGenerate n None]); reflexivity.
  - exfalso. rewrite (si_conv S) in H2. discriminate.
  - eapply (@K _ [EvPropose (p_next p) k x]); reflexivity.
  - eapply (@K _ [EvAccept (o_id o)]); reflexivity.
  - eapply (@K _ [EvReject (o_id o) (o_kind o) (o_x o)]); try reflexivity; cbn; (destruct (o_kind o); [reflexivity|]); unfold on_adapt_reject; destruct (c_async c); reflexivity.
  - pose proof (si_ev S o H1 H2) as Hev.
    assert (BX : X_ (base_completed c (o_id o) (o_x o) v ev (p_s p)) = X_ (p_s p) ++ [o_x o] /\ fX_ (base_completed c (o_id o) (o_x o) v ev (p_s p)) = fX_ (p_s p) ++ [v]).
    { unfold base_completed. cbn. rewrite (si_last S). replace (0 <? ev)%Z with true by (symmetry; apply Z.ltb_lt; exact Hev). split; reflexivity. }
    apply do_complete_ok in H3. destruct H3 as [e' [l [nx [cv [-> Hk]]]]]. unfold keeps_all. cbn [p_s X_ fX_ p_hist set_converged set_ev_last set_ev_next].
    set (b := base_completed c (o_id o) (o_x o) v ev (p_s p)) in *. clearbody b. destruct BX as [B1 B2].
    change (length (X_ b) = length (fX_ b) /\ combine (X_ b) (fX_ b) = completed (p_hist p ++ [EvComplete (o_id o) (o_kind o) (o_x o) v])). rewrite B1, B2.
    split; [rewrite !app_length, L; reflexivity|]. rewrite combine_snoc by exact L. unfold completed in *. rewrite flat_map_app, H. reflexivity.
  - eapply (@K _ [EvAbort (o_id o) (o_kind o) (o_x o)]); try reflexivity; cbn; destruct (o_kind o); reflexivity.
  - eapply (@K _ [EvStop]); reflexivity.
  - eapply (@K _ [EvResume]); try reflexivity; cbn; unfold resume; destruct (phase (p_s p) =? 1)%nat; reflexivity.
Qed.

(** C69, SOP: the i-th point of a batch is the candidate with the lowest prediction among the
    candidates drawn around an evaluated point (the i-th chosen center) with the radius of its archive
    entry, away from the evaluated points and the running evaluations. *)
Theorem C69_sop : setting q dim dist dtol num_cand -> (forall x y, c_peqb c x y = true <-> x = y) ->
  forall design ops p, y_proc (Strategy.run c full design sop0 ops) = Some p ->
  (forall d, design = Ok d -> Forall (feasible q dim) d) ->
  (forall d z, In (Propose (Ok d) z) ops -> Forall (feasible q dim) d) ->
  Forall (feasible q dim) (unknown c) -> no_duplicates (p_hist p) ->
  forall d z out p' t n r, do_propose c full d z p = Ok (out, p') ->
  p_hist p' = p_hist p ++ t -> In (EvGenerate n r) t ->
  exists l, r = Some l /\ length l = n /\ n = (if c_async c then 1 else c_batch c)%nat /\
  forall i y, nth_error l i = Some y -> exists a cand, In a (s_evals (p_e p)) /\ In (r_x a, r_fx a) (run_data (p_hist p)) /\
    length cand = cand_count dim num_cand /\
    drawn q dim (r_x a) (Q2R (r_sigma a)) (dycors_selected dim (dy_u (z i)) (fun k => dy_f (z i) k mod (dim - 1))%nat) (dy_z (z i)) cand /\
    best_candidate dist (predict (known c ++ run_data (p_hist p))) dtol
      (map fst (run_data (p_hist p)) ++ map snd (outstanding (p_hist p))) cand y.
Proof using.
  intros SE HP design ops p Hp Hd Ho Hu ND d z out p' t n r DP Ht Hin.
  pose proof (@C13_sop c sdist tooclose ncenters q dim dist dtol num_cand predict design SE ops p Hp Hd Ho Hu) as FE.
  assert (HR : reached c full design sop0 p) by (exists ops; left; exact Hp). assert (HR' : reached c strategy design sop0 p) by (eapply reached_at; exact HR).
  destruct (@propose_generates _ _ _ _ c _ d z p p' out t n r DP Ht Hin) as [e' [G EN]].
  set (s' := set_phase 2%nat (check_termination c (p_s p))) in *.
  assert (S1 : X_ s' = X_ (p_s p) /\ fX_ s' = fX_ (p_s p) /\ Xpend s' = Xpend (p_s p) /\ sur s' = sur (p_s p)).
  { unfold s', check_termination. destruct (_ <=? _)%Z; repeat split; reflexivity. }
  assert (G' : hk_generate strategy (p_e p) (p_s p) n (sop_dycors_search q dist dtol num_cand predict z s') = Ok (e', r)).
  { rewrite <- G. unfold sop_full, hooks_at, sop_strategy, sop_hooks. cbn [hk_generate]. fold s'. unfold s', check_termination. destruct (_ <=? _)%Z; reflexivity. }
  clear G. destruct S1 as [S1 [S2 [S3 S4]]]. clearbody s'.
  assert (RS : exists l, r = Some l).
  { cbn [hk_generate sop_strategy sop_hooks] in G'. apply sop_generate_cases in G'. destruct G' as [_ [_ [_ [pts [_ [_ [_ [_ G]]]]]]]]. eauto. }
  destruct RS as [l ->]. exists l. split; [reflexivity|].
  destruct (@C28_search pt c sdist tooclose ncenters design p n _ e' l HR' G') as [LN [_ [ks [_ [_ H]]]]]. split; [exact LN|]. split; [exact EN|]. intros i y Hy.
  destruct (H i y Hy) as [k [cn [a [_ [_ [_ [H1 [_ H2]]]]]]]]. clear H G'. apply nth_error_In in H1.
  destruct (SopInv_reached HR') as [IV SV].
  destruct (@C07_surrogate_complete_partial _ _ _ _ c strategy design sop0) with (p := p) as [D1 D2]; [|exact HR'|].
  { intros e s x v ev e2 m cv K Hm. exfalso. cbn [hk_adapt_completed sop_strategy sop_hooks] in K. unfold sop_adapt_completed in K. destruct (_ <=? _)%Z; [|injection K as _ <- _; lia].
    apply rbind_ok in K. destruct K as [cs [_ K]]. destruct (c_async c); [apply rbind_ok in K; destruct K as [e3 [_ K]]; injection K as _ <- _; lia|].
    destruct (_ && _); [apply rbind_ok in K; destruct K as [e3 [_ K]]; injection K as _ <- _; lia|]. injection K as _ <- _. lia. }
  pose proof (RunInv_reached HR') as RI. assert (LX : length (X_ (p_s p)) = length (fX_ (p_s p))) by (apply (ri_len RI)).
  assert (NR : restarts (p_hist p) = 0%nat) by exact (proj2 (@C27_never_converges pt c sdist tooclose ncenters design p HR')).
  rewrite NR in D2. cbn [Nat.eqb] in D2.
  assert (XP : Xpend (p_s p) = map snd (outstanding (p_hist p))) by (apply (C05_xpend_partial HP HR'); exact ND).
  assert (RD : In (r_x a, r_fx a) (run_data (p_hist p))).
  { rewrite <- D1, (proj2 (all_kept HR')), <- (si_arch SV). exact (in_map (@xf pt) _ _ H1). }
  assert (FA : feasible q dim (r_x a)).
  { rewrite <- D1 in RD. apply in_combine_l in RD. apply reached_micros in HR'. destruct HR' as [[s e] [C1 M]].
    destruct (@X_proposed _ _ _ _ c strategy design sop0 s e p _ C1 M RD) as [id [k' K]]. eapply FE; exact K. }
  assert (RP : 0 < Q2R (r_sigma a)).
  { pose proof (x_mem (si_x SV)) as XM. rewrite Forall_forall in XM. destruct (XM a H1) as [_ [_ M3]].
    replace 0 with (Q2R 0) by (unfold Q2R; simpl; lra). apply Qlt_Rlt. rewrite M3. apply Qmult_lt_0_compat; [reflexivity|]. apply Qpower.Qpower_0_lt. reflexivity. }
  unfold sop_dycors_search in H2. apply rbind_ok in H2. destruct H2 as [l0 [H2 H3]]. unfold candidate_dycors in H2. cbn [rbind] in H2. apply rbind_ok in H2. destruct H2 as [cand [H2 H4]].
  rewrite S1, S3, S4 in H4. unfold all_coords in H2. assert (LD : length (q_lb q) = dim) by apply (se_wf SE). rewrite LD in H2.
  destruct (@dycors_drawn q dim (se_wf SE) _ _ _ _ _ _ _ FA RP (se_dim SE) H2) as [LC DR].
  exists a, cand. split; [exact H1|]. split; [exact RD|]. split; [exact LC|]. split; [exact DR|].
  assert (NC : cand <> []).
  { intros ->. cbn in LC. pose proof (se_dim SE). pose proof (se_nc SE). destruct num_cand as [[|k0]|]; [congruence|discriminate|lia]. }
  destruct (@C32_merit _ dist (predict (sur (p_s p))) cand dtol 1 (X_ (p_s p) ++ Xpend (p_s p)) [1] NC) as [js [pts' [E1 [E2 [E3 E4]]]]].
  { intros K. apply app_eq_nil in K. destruct K as [K _]. rewrite <- D1, K in RD. destruct RD. }
  { reflexivity. }
  { intros c0 _. rewrite (se_refl SE). exact (se_dtol SE). }
  rewrite H4 in E1. injection E1 as <-. pose proof (Forall2_len2 E3) as L1. rewrite E2 in L1. destruct l0 as [|y0 [|]]; [discriminate| |discriminate]. cbn in H3. injection H3 as ->.
  rewrite D2 in E4. rewrite XP in E4. rewrite <- D1 at 2. rewrite (map_fst_combine' _ _ LX). eapply pick_best; [exact E3|exact E4].
Qed.
End Sop.

(** ** Examples: two points of the design have completed, the next call generates a batch *)
Lemma propose_batch : forall P V Ext Orc (c : cfg P V) (hk : hooks P V Ext Orc) d o (p : proc P V Ext) e' l,
  let s := check_termination c (p_s p) in
  terminate s = false -> converged s = false -> batch_queue s = [] -> c_async c = false -> pending_evals s = 0%Z ->
  hk_generate hk (p_e p) (set_phase 2%nat s) (c_batch c) o = Ok (e', Some l) -> l <> [] ->
  exists out p' x, do_propose c hk d o p = Ok (out, p') /\ p_hist p' = p_hist p ++ [EvGenerate (c_batch c) (Some l); EvPropose (p_next p) KAdapt x].
Proof.
  intros P V Ext Orc c hk d o p e' l s T C Q A PE G NL. unfold do_propose, propose_action. fold s. cbv zeta. rewrite T, C, Q. cbn [nonempty]. rewrite A.
  change (pending_evals (set_phase 2%nat s)) with (pending_evals s). rewrite PE. cbn [Z.eqb]. unfold do_generate. rewrite G. cbn [rbind snd fst].
  change (converged (set_batch_queue (batch_queue (set_phase 2%nat s) ++ l) (set_phase 2%nat s))) with (converged s). rewrite C. cbn [andb].
  unfold adapt_proposal. change (batch_queue (set_batch_queue (batch_queue (set_phase 2%nat s) ++ l) (set_phase 2%nat s))) with (batch_queue s ++ l). rewrite Q. cbn [app].
  destruct (py_pop l) as [[x q']|] eqn:EP.
  - cbn [rbind fst snd]. eexists. eexists. exists x. split; [reflexivity|]. cbn [p_hist app]. reflexivity.
  - exfalso. apply NL, py_pop_none, EP.
Qed.

Definition c3 : cfg pt val := mkCfg 10%Z false 1 true 2 None None (fun _ => false) (fun x y => if list_eq_dec Req_EM_T x y then true else false) false.
Lemma c3_eq : forall x y, c_peqb c3 x y = true <-> x = y.
Proof. intros x y. cbn [c3 c_peqb]. destruct (list_eq_dec Req_EM_T x y); split; intros; congruence. Qed.
Definition ops3 {O} (z : O) : list (op pt val O) :=
  [Propose (Ok []) z; Accept 0; Propose (Ok []) z; Accept 1; Update 0 (SCompleted (Fin 3)); Update 1 (SCompleted (Fin 1))].

Lemma nodup2 : forall a b : pt, a <> b -> forall t, forallb (fun ev : event pt val => match ev with EvPropose _ _ _ => false | _ => true end) t = true ->
  no_duplicates ([EvPropose 0 KInit a; EvAccept 0; EvPropose 1 KInit b] ++ t).
Proof.
  intros a b N t Ht h1 id k x h2 E. destruct h1 as [|e1 [|e2 [|e3 h1]]]; cbn in E.
  - intros [].
  - discriminate E.
  - injection E as <- <- _ _ <- _. cbn. intros [F|[]]. contradiction.
  - exfalso. injection E as _ _ _ ->. rewrite forallb_app in Ht. apply andb_true_iff in Ht. destruct Ht as [_ Ht]. discriminate Ht.
Qed.

Example ex_C69_srbf : forall predict z, let hk := srbf_full q2 2 d2 predict (/10) (Some 5%nat) c3 [1%Q] in
  exists p, y_proc (Strategy.run c3 hk (Ok [[/2; 1]; [/4; 2]]) srbf0 (ops3 z)) = Some p /\ no_duplicates (p_hist p) /\
  exists out p' x l, do_propose c3 hk (Ok []) z p = Ok (out, p') /\ p_hist p' = p_hist p ++ [EvGenerate 1 (Some l); EvPropose 2 KAdapt x].
Proof.
  intros predict z hk. destruct (ex_C13_srbf (fun _ _ => 0) (fun _ _ => 0)) as [SE [_ [FD [_ _]]]].
  eexists. split; [unfold hk; lazy -[srbf_search IZR Rinv list_eq_dec]; reflexivity|]. split.
  { cbn [p_hist]. apply (@nodup2 [/4; 2] [/2; 1]); [intros F; injection F; intros; lra|reflexivity]. }
  match goal with |- context [do_propose _ _ _ _ ?P] => set (p := P) end.
  assert (S : exists pts, srbf_search q2 d2 predict (/10) (Some 5%nat) z (set_phase 2%nat (check_termination c3 (p_s p))) 1%nat [1%Q] (s_radius (p_e p)) = Ok pts /\ length pts = 1%nat).
  { unfold srbf_search. rewrite (@center_is pt _ 1%nat [/2; 1] (Fin 1)) by reflexivity. cbn [rbind].
    assert (SI : search_input d2 q2 2%nat 1%nat [[/4; 2]; [/2; 1]] (map toxr [Fin 3; Fin 1]) (map Q2R [1%Q]) (/10) (Some 5%nat)).
    { destruct SE as [W D T0 RF NC]. constructor; auto; [discriminate|intros u; apply toxr_nan|].
      inversion FD as [|? ? F1 F2]; subst. inversion F2; subst. intros x [<-|[<-|[]]]; assumption. }
    assert (R0 : 0 < Q2R r_max) by (unfold Q2R, r_max; cbn; apply Rmult_lt_0_compat; [lra|apply Rinv_0_lt_compat; lra]).
    destruct (@C33_srbf d2 (predict (sur (p_s p))) q2 2%nat 1%nat [[/4; 2]; [/2; 1]] (map toxr [Fin 3; Fin 1]) (map Q2R [1%Q]) (Xpend (p_s p)) (Q2R r_max) None (/10) (Some 5%nat)
      (in_range q2 [/2; 1] (Q2R r_max) z) SI R0) as [xb' [_ [_ [pts [B3 [B4 _]]]]]].
    - intros i Hi. exact Hi.
    - intros xb' i r Hb Hi _. cbn [sub_list].
      assert (Ex : xb' = [/2; 1]).
      { eapply best_unique; [exact Hb|]. exists 1%nat, (toxr (Fin 1)). split; [reflexivity|]. split; [reflexivity|]. split.
        - intros u [<-|[<-|[]]]; rewrite xlt_toxr; reflexivity.
        - intros j w Hj Hw. destruct j as [|j]; [|lia]. injection Hw as <-. exact (xlt_toxr (Fin 1) (Fin 3)). }
      subst xb'. unfold in_range. cbn [all_coords q2 q_lb length]. apply clamp_in. apply tn_order with (dim := 2%nat); auto; [apply (se_wf SE)|].
      inversion FD; assumption.
    - exists pts. split; [exact B3|exact B4]. }
  destruct S as [pts [S1 S2]].
  destruct (@propose_batch _ _ _ _ c3 hk (Ok []) z p (mkSrbf (s_status (p_e p)) (s_failcount (p_e p)) (s_radius (p_e p)) (s_fbest (p_e p)) (s_queue (p_e p)) 0 (s_steps (p_e p)) (s_used (p_e p) ++ [1%Q])) pts)
    as [out [p' [x [E1 E2]]]]; try reflexivity.
  - transitivity (do pts <- srbf_search q2 d2 predict (/10) (Some 5%nat) z (set_phase 2%nat (check_termination c3 (p_s p))) 1%nat [1%Q] (s_radius (p_e p));
      do rows <- take_rows 1 pts; Ok (mkSrbf (s_status (p_e p)) (s_failcount (p_e p)) (s_radius (p_e p)) (s_fbest (p_e p)) (s_queue (p_e p)) 0 (s_steps (p_e p)) (s_used (p_e p) ++ [1%Q]), Some rows)); [reflexivity|].
    rewrite S1. cbn [rbind]. destruct pts as [|y [|]]; try discriminate. reflexivity.
  - intros ->. discriminate.
  - exists out, p', x, pts. split; [exact E1|]. exact E2.
Qed.

Example ex_C69_sop : forall predict z, let sd := fun _ _ : pt => 1%Q in let tc := fun (_ _ : pt) (_ : nat) (_ : Q) => false in
  let hk := sop_full c3 sd tc 2 q2 d2 (/10) (Some 5%nat) predict in
  exists p, y_proc (Strategy.run c3 hk (Ok [[/2; 1]; [/4; 2]]) sop0 (ops3 z)) = Some p /\ no_duplicates (p_hist p) /\
  exists out p' x l, do_propose c3 hk (Ok []) z p = Ok (out, p') /\ p_hist p' = p_hist p ++ [EvGenerate 1 (Some l); EvPropose 2 KAdapt x].
Proof.
  intros predict z sd tc hk. destruct (ex_C13_srbf (fun _ _ => 0) (fun _ _ => 0)) as [SE [_ [FD [_ _]]]].
  eexists. split; [unfold hk; lazy -[sop_dycors_search IZR Rinv list_eq_dec]; reflexivity|]. split.
  { cbn [p_hist]. apply (@nodup2 [/4; 2] [/2; 1]); [intros F; injection F; intros; lra|reflexivity]. }
  match goal with |- context [do_propose _ _ _ _ ?P] => set (p := P) end.
  assert (S : forall xc, feasible q2 2 xc -> exists y, sop_dycors_search q2 d2 (/10) (Some 5%nat) predict z (set_phase 2%nat (check_termination c3 (p_s p))) 0%nat xc r_max = Ok y).
  { intros xc Fc. unfold sop_dycors_search.
    assert (SI : search_input d2 q2 2%nat 1%nat [[/4; 2]; [/2; 1]] (map toxr [Fin 3; Fin 1]) [1] (/10) (Some 5%nat)).
    { destruct SE as [W D T0 RF NC]. constructor; auto; [discriminate|intros u; apply toxr_nan|].
      inversion FD as [|? ? F1 F2]; subst. inversion F2; subst. intros x [<-|[<-|[]]]; assumption. }
    assert (R0 : 0 < Q2R r_max) by (unfold Q2R, r_max; cbn; apply Rmult_lt_0_compat; [lra|apply Rinv_0_lt_compat; lra]).
    destruct (@C33_dycors_partial d2 (predict (sur (p_s p))) q2 2%nat 1%nat [[/4; 2]; [/2; 1]] (map toxr [Fin 3; Fin 1]) [1] (Xpend (p_s p)) (Q2R r_max) None (/10) (Some 5%nat)
      (Some xc) (dy_u (z 0%nat)) (fun k => (dy_f (z 0%nat) k mod (length (q_lb q2) - 1))%nat) (in_range q2 xc (Q2R r_max) (dy_z (z 0%nat))) SI R0) as [xb' [_ [pts [B3 [B4 _]]]]].
    - exact I.
    - intros c0 [= <-]. exact Fc.
    - intros r. left. cbn. lia.
    - intros xb' i r -> Hi _. cbn [sub_list]. unfold in_range. cbn [all_coords q2 q_lb length]. apply clamp_in. apply tn_order with (dim := 2%nat); auto. apply (se_wf SE).
    - destruct pts as [|y [|]]; try discriminate. exists y. change (X_ (set_phase 2%nat (check_termination c3 (p_s p)))) with [[/4; 2]; [/2; 1]].
      change (fX_ (set_phase 2%nat (check_termination c3 (p_s p)))) with [Fin 3; Fin 1]. change (Xpend (set_phase 2%nat (check_termination c3 (p_s p)))) with (Xpend (p_s p)).
      change (sur (set_phase 2%nat (check_termination c3 (p_s p)))) with (sur (p_s p)). rewrite B3. reflexivity. }
  destruct (S [/2; 1]) as [y Sy]; [inversion FD; assumption|]. clear S.
  set (so := sop_dycors_search q2 d2 (/10) (Some 5%nat) predict z (set_phase 2%nat (check_termination c3 (p_s p)))) in *.
  assert (G : exists e', hk_generate hk (p_e p) (set_phase 2%nat (check_termination c3 (p_s p))) 1%nat z = Ok (e', Some [y])).
  { assert (GE : hk_generate hk (p_e p) (set_phase 2%nat (check_termination c3 (p_s p))) 1%nat z =
      hk_generate (sop_strategy c3 sd tc 2) (p_e p) (set_phase 2%nat (check_termination c3 (p_s p))) 1%nat so) by reflexivity.
    rewrite GE. clear GE. clearbody so. cbn [hk_generate sop_strategy sop_hooks]. unfold sop_generate.
    match goal with |- exists e', ?a = _ => let v := eval lazy -[IZR Rinv list_eq_dec] in a in change (exists e', v = Ok (e', Some [y])) end.
    lazy -[IZR Rinv] in Sy. rewrite Sy. eexists. reflexivity. }
  destruct G as [e' G].
  destruct (@propose_batch _ _ _ _ c3 hk (Ok []) z p e' [y]) as [out [p' [x [E1 E2]]]]; try reflexivity; [exact G|discriminate|].
  exists out, p', x, [y]. split; [exact E1|exact E2].
Qed.
