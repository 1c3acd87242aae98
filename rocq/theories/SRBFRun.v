(** * C61: SRBFStrategy and DYCORSStrategy with the default RBF surrogate.

    The candidate searches of EndToEnd.v take the surrogate's predictions as given.  Here they are
    those of RBFInterpolant with its default kernel and tail (cubic, linear; any eta > 0, the
    default is 1e-6), including the exceptions that a failing fit raises. *)
From Coq Require Import List Arith ZArith Lia Bool QArith Reals Lra Qreals.
From Verif Require Import Base PyList Strategy StrategySpec StrategyProofs StrategyInv StrategyInv2
  StrategyInv3 StrategyInv4 StrategySerial PropStrategy SRBF SRBFProofs SRBFInv PropSRBF Box PropBox Cand PropCand EndToEnd
  SyncRun Lin RBF PropRBF PropSolve.
Import ListNotations.

Set Implicit Arguments.
Local Close Scope Q_scope.
Local Open Scope R_scope.

(** A value as a right hand side of the linear system; scipy's solve_triangular (check_finite=True)
    raises ValueError if there is an infinite one. *)
Definition num (v : val) : res R := match v with Fin a => Ok (Q2R a) | PInf => Err ValueError end.
(** Specification, no counterpart in /repo. *)
Definition finite_val (v : val) : Prop := exists a, v = Fin a.

Lemma num_total : forall l, Forall finite_val l -> exists ys, mapR num l = Ok ys /\ length ys = length l.
Proof.
  induction l as [|v l IH]; intros H; [exists []; auto|]. inversion H as [|v' l' [a ->] H2]; subst.
  destruct (IH H2) as [ys [E L]]. exists (Q2R a :: ys). cbn [mapR num rbind]. rewrite E. cbn [rbind]. split; [reflexivity|simpl; congruence].
Qed.

Section Run.
Variable q : prob.
Variable dim : nat.
Variable dist : pt -> pt -> R.
Variable dtol : R.
Variable num_cand : option nat.
Variable eta : R.
Variable c : cfg pt val.
Variable weights : list Q.

(** surrogate.predict(x) when the surrogate holds the data [d], rbf.py:88-175: the prediction of a
    fresh object to which the data were added in one call.  By [object_answers]
    below this is also what the strategy's object answers, which was extended incrementally. *)
Definition rbf_predict (d : list (pt * val)) (x : pt) : res R :=
  do ys <- mapR num (map snd d);
  answer dim (q_lb q) (q_ub q) CubicKernel (LinearTail dim) eta identity [Add (map fst d) ys] x.

(** The same as a total function (the value is irrelevant where predict raises). *)
(** surrogate.predict, rbf.py:170-185, as used at pySOT/auxiliary_problems/candidate_srbf.py:39. *)
Definition predicted (d : list (pt * val)) (x : pt) : R := match rbf_predict d x with Ok v => v | Err _ => 0 end.

(** The candidate searches; they call predict on all candidates at once, and whether that raises
    does not depend on the candidates, so it is tested at the center. *)
(** candidate_srbf, pySOT/auxiliary_problems/candidate_srbf.py:60-121, with the predictions of rbf.py:170-185. *)
Definition srbf_rbf_search (z : nat -> nat -> R) : cand_search pt := fun s n ws r =>
  do xb <- center s; do _ <- rbf_predict (sur s) xb;
  srbf_search q dist predicted dtol num_cand z s n ws r.
(** candidate_dycors.py:8-94 with the predictions of rbf.py:170-185. *)
Definition dycors_rbf_search (o : dydraws) : cand_search pt := fun s n ws r =>
  do xb <- center s; do _ <- rbf_predict (sur s) xb;
  dycors_search q dist predicted dtol num_cand o s n ws r.

(** pySOT/strategy/srbf_strategy.py:13-221 with RBFInterpolant. *)
Definition srbf_rbf : hooks pt val srbf (nat -> nat -> R) := hooks_with srbf_rbf_search (srbf_strategy c weights dim).
(** pySOT/strategy/dycors_strategy.py:12-107 with RBFInterpolant. *)
Definition dycors_rbf : hooks pt val srbf dydraws := hooks_with dycors_rbf_search (srbf_strategy c weights dim).

Notation sett := (setting q dim dist dtol num_cand).

(** What the two searches have in common. *)
(** Specification, no counterpart in /repo. *)
Record search_ok (g : cand_search pt) : Prop := mkSearchOk {
  so_total : forall design s e p n ws nx, sett -> legal c -> construct c (srbf_strategy c weights dim) design srbf0 = Ok (s, e) ->
    micros c (srbf_strategy c weights dim) (init_proc (s, e)) p -> Forall (feasible q dim) (X_ (p_s p)) ->
    get_weights weights n (s_next (p_e p)) = Ok (ws, nx) ->
    X_ (p_s p) <> [] -> (forall x, exists v, rbf_predict (sur (p_s p)) x = Ok v) ->
    exists pts, g (p_s p) n ws (s_radius (p_e p)) = Ok pts /\ (n <= length pts)%nat;
  so_feas : forall design s e p n ws nx pts, sett -> legal c -> construct c (srbf_strategy c weights dim) design srbf0 = Ok (s, e) ->
    micros c (srbf_strategy c weights dim) (init_proc (s, e)) p -> Forall (feasible q dim) (X_ (p_s p)) ->
    get_weights weights n (s_next (p_e p)) = Ok (ws, nx) ->
    g (p_s p) n ws (s_radius (p_e p)) = Ok pts -> Forall (feasible q dim) pts;
  so_predict : forall s n ws r pts, g s n ws r = Ok pts -> exists x v, rbf_predict (sur s) x = Ok v
}.

Lemma center_total : forall s : base pt val, length (X_ s) = length (fX_ s) -> X_ s <> [] -> exists xb, center s = Ok xb.
Proof using. intros s HL HN. destruct (center_kept s HL HN) as [xb [E _]]. eauto. Qed.

Lemma srbf_result : forall z design s e p n ws nx, sett -> legal c -> construct c (srbf_strategy c weights dim) design srbf0 = Ok (s, e) ->
  micros c (srbf_strategy c weights dim) (init_proc (s, e)) p -> Forall (feasible q dim) (X_ (p_s p)) ->
  get_weights weights n (s_next (p_e p)) = Ok (ws, nx) -> forall xb, center (p_s p) = Ok xb ->
  exists pts, srbf_search q dist predicted dtol num_cand z (p_s p) n ws (s_radius (p_e p)) = Ok pts /\ length pts = n /\ Forall (feasible q dim) pts.
Proof using.
  intros z design s e p n ws nx SE HL H1 M FX G1 xb G2. unfold srbf_search. rewrite G2. cbn [rbind].
  destruct (@full_input q dim dist dtol num_cand c weights design SE s e p n ws nx xb H1 M HL FX G1 G2) as [R0 [Fb SI]].
  destruct SE as [W D T0 RF NC].
  destruct (@C33_srbf dist (predicted (sur (p_s p))) q dim n (X_ (p_s p)) (map toxr (fX_ (p_s p))) (map Q2R ws) (Xpend (p_s p))
    (Q2R (s_radius (p_e p))) None dtol num_cand (in_range q xb (Q2R (s_radius (p_e p))) z) SI R0) as [xb' [B1 [B2 [pts' [B3 [B4 B5]]]]]].
  - intros i Hi. exact Hi.
  - intros xb' i r Hb Hi _. cbn [sub_list]. assert (Ex : xb' = xb) by (eapply center_unique; eassumption). subst xb'.
    unfold in_range. rewrite (@all_seq q dim) by apply W. apply clamp_in. apply tn_order; auto.
  - exists pts'. split; [exact B3|]. split; [exact B4|]. apply Forall_forall. intros y Hy. apply B5. exact Hy.
Qed.

Lemma dycors_result : forall z design s e p n ws nx, sett -> legal c -> construct c (srbf_strategy c weights dim) design srbf0 = Ok (s, e) ->
  micros c (srbf_strategy c weights dim) (init_proc (s, e)) p -> Forall (feasible q dim) (X_ (p_s p)) ->
  get_weights weights n (s_next (p_e p)) = Ok (ws, nx) -> forall xb, center (p_s p) = Ok xb ->
  exists pts, dycors_search q dist predicted dtol num_cand z (p_s p) n ws (s_radius (p_e p)) = Ok pts /\ length pts = n /\ Forall (feasible q dim) pts.
Proof using.
  intros z design s e p n ws nx SE HL H1 M FX G1 xb G2. unfold dycors_search. rewrite G2. cbn [rbind].
  destruct (@full_input q dim dist dtol num_cand c weights design SE s e p n ws nx xb H1 M HL FX G1 G2) as [R0 [Fb SI]].
  destruct SE as [W D T0 RF NC]. assert (LD : length (q_lb q) = dim) by apply W.
  destruct (@C33_dycors_partial dist (predicted (sur (p_s p))) q dim n (X_ (p_s p)) (map toxr (fX_ (p_s p))) (map Q2R ws) (Xpend (p_s p))
    (Q2R (s_radius (p_e p))) None dtol num_cand None (dy_u z) (fun k => (dy_f z k mod (length (q_lb q) - 1))%nat)
    (in_range q xb (Q2R (s_radius (p_e p))) (dy_z z)) SI R0) as [xb' [_ [pts' [B3 [B4 B5]]]]].
  - exact I.
  - intros c0 K. discriminate.
  - intros r. cbn [sub_list]. rewrite seq_length, LD. destruct (Nat.eq_dec dim 1) as [E|E]; [right; exact E|left].
    apply Nat.mod_upper_bound. lia.
  - intros xb' i r Hb Hi _. cbn [sub_list]. assert (Ex : xb' = xb) by (eapply center_unique; eassumption). subst xb'.
    unfold in_range. rewrite (@all_seq q dim) by apply W. apply clamp_in. apply tn_order; auto.
  - exists pts'. split; [exact B3|]. split; [exact B4|]. apply Forall_forall. intros y Hy. apply B5. exact Hy.
Qed.

Lemma len_micros : forall design s e p, construct c (srbf_strategy c weights dim) design srbf0 = Ok (s, e) ->
  micros c (srbf_strategy c weights dim) (init_proc (s, e)) p -> length (X_ (p_s p)) = length (fX_ (p_s p)).
Proof using. intros design s e p H1 M. destruct (@RunInv_micros _ _ _ _ _ _ _ _ _ _ _ H1 M); assumption. Qed.

Lemma srbf_search_ok : forall z, search_ok (srbf_rbf_search z).
Proof using.
  intros z. constructor.
  - intros design s e p n ws nx SE HL H1 M FX G1 NE PR. unfold srbf_rbf_search.
    destruct (@center_total (p_s p) (@len_micros design s e p H1 M) NE) as [xb C]. rewrite C. cbn [rbind]. destruct (PR xb) as [v ->]. cbn [rbind].
    destruct (@srbf_result z design s e p n ws nx SE HL H1 M FX G1 xb C) as [pts [E1 [E2 _]]]. exists pts. split; [exact E1|lia].
  - intros design s e p n ws nx pts SE HL H1 M FX G1 G. unfold srbf_rbf_search in G. apply rbind_ok in G. destruct G as [xb [C G]].
    apply rbind_ok in G. destruct G as [v [_ G]]. destruct (@srbf_result z design s e p n ws nx SE HL H1 M FX G1 xb C) as [pts' [E1 [_ E3]]].
    rewrite E1 in G. injection G as <-. exact E3.
  - intros s n ws r pts G. unfold srbf_rbf_search in G. apply rbind_ok in G. destruct G as [xb [_ G]].
    apply rbind_ok in G. destruct G as [v [V _]]. eauto.
Qed.
Lemma dycors_search_ok : forall z, search_ok (dycors_rbf_search z).
Proof using.
  intros z. constructor.
  - intros design s e p n ws nx SE HL H1 M FX G1 NE PR. unfold dycors_rbf_search.
    destruct (@center_total (p_s p) (@len_micros design s e p H1 M) NE) as [xb C]. rewrite C. cbn [rbind]. destruct (PR xb) as [v ->]. cbn [rbind].
    destruct (@dycors_result z design s e p n ws nx SE HL H1 M FX G1 xb C) as [pts [E1 [E2 _]]]. exists pts. split; [exact E1|lia].
  - intros design s e p n ws nx pts SE HL H1 M FX G1 G. unfold dycors_rbf_search in G. apply rbind_ok in G. destruct G as [xb [C G]].
    apply rbind_ok in G. destruct G as [v [_ G]]. destruct (@dycors_result z design s e p n ws nx SE HL H1 M FX G1 xb C) as [pts' [E1 [_ E3]]].
    rewrite E1 in G. injection G as <-. exact E3.
  - intros s n ws r pts G. unfold dycors_rbf_search in G. apply rbind_ok in G. destruct G as [xb [_ G]].
    apply rbind_ok in G. destruct G as [v [V _]]. eauto.
Qed.

(** ** The surrogate can predict when adaptive points are generated *)
Lemma general_incl : forall X Y, incl X Y -> in_general_position dim X -> in_general_position dim Y.
Proof using. intros X0 Y H G a b LB HA. apply G; [exact LB|]. intros x Hx. apply HA, H, Hx. Qed.

Lemma predict_total : forall d, bounds dim (q_lb q) (q_ub q) -> 0 < eta -> (forall x v, In (x, v) d -> length x = dim) ->
  Forall finite_val (map snd d) -> in_general_position dim (map fst d) -> forall x, exists v, rbf_predict d x = Ok v.
Proof using.
  intros d WB He HL HF G x. unfold rbf_predict. destruct (num_total HF) as [ys [E L]]. rewrite map_length in L.
  change (mapR num (map (@snd pt val) d) = Ok ys) in E.
  rewrite E. cbn [rbind].
  assert (RS : right_shape dim (map fst d) ys = true).
  { unfold right_shape. rewrite map_length, L, Nat.eqb_refl. cbn [andb]. apply forallb_forall. intros y Hy. apply in_map_iff in Hy.
    destruct Hy as [[y' v'] [<- Hy]]. apply Nat.eqb_eq. eapply HL; eauto. }
  assert (C : map fst (contents dim [Add (map fst d) ys]) = map fst d).
  { unfold contents. cbn [fold_left]. rewrite RS. cbn [app]. apply fst_combine. rewrite map_length. lia. }
  destruct (@C59_solvable dim (q_lb q) (q_ub q) WB CubicKernel eta identity [Add (map fst d) ys]) with (x := x) as [[_ A] _].
  - intros h1 c0 h2 E1 _ [y Hy]. destruct h1 as [|a h1]; [injection E1 as <- _; destruct Hy; discriminate|destruct h1; discriminate E1].
  - left. exact He.
  - apply A. rewrite C. exact G.
Qed.

Section Hooks.
Variable Orc : Type.
Variable g : Orc -> cand_search pt.
Hypothesis Hg : forall o, search_ok (g o).
Notation hk := (hooks_with g (srbf_strategy c weights dim)).
Hypothesis SE : sett.
Hypothesis HL : legal c.
Hypothesis Hw : weights <> [].
Hypothesis Heta : 0 < eta.

(** What may be passed in: designs with enough feasible points in general position, finite
    values. *)
(** Specification, no counterpart in /repo. *)
Definition good_points (d : list pt) : Prop :=
  (c_num_pts c <= length d)%nat /\ Forall (feasible q dim) d /\ in_general_position dim (firstn (c_num_pts c) d).
(** Specification, no counterpart in /repo. *)
Definition good_op {O} (a : op pt val O) : Prop :=
  match a with
  | Propose d _ => exists l, d = Ok l /\ good_points l
  | Update _ (SCompleted v) => finite_val v
  | _ => True
  end.
(** Extra points: feasible, enough values, known values finite. *)
(** Specification, no counterpart in /repo. *)
Definition good_extra_points : Prop :=
  good_extras c /\ Forall (feasible q dim) (unknown c) /\
  Forall (fun xv => length (fst xv) = dim /\ finite_val (snd xv)) (known c).

Lemma feas_run : forall d0 ops p, good_points d0 -> Forall good_op ops -> good_extra_points ->
  y_proc (Strategy.run c hk (Ok d0) srbf0 ops) = Some p \/ y_disk (Strategy.run c hk (Ok d0) srbf0 ops) = Some p ->
  forall id k x, In (EvPropose id k x) (p_hist p) -> feasible q dim x.
Proof using Hg SE HL.
  intros d0 ops p [_ [G0 _]] GO [_ [GE _]] Hp.
  apply (@feasible_closed _ _ _ _ c hk (Ok d0) srbf0 (feasible q dim) ops p Hp).
  - intros d E. injection E as <-. exact G0.
  - intros d o Hin. rewrite Forall_forall in GO. destruct (GO _ Hin) as [l [E [_ [F _]]]]. injection E as <-. exact F.
  - exact GE.
  - intros s e p0 n o e' l H1 M FX G.
    assert (M' : micros c (srbf_strategy c weights dim) (init_proc (s, e)) p0) by (eapply micros_with; exact M).
    change (construct c (srbf_strategy c weights dim) (Ok d0) srbf0 = Ok (s, e)) in H1.
    change (hk_generate (srbf_strategy c weights dim) (p_e p0) (p_s p0) n (g o) = Ok (e', Some l)) in G.
    destruct (generate_unfold _ _ _ _ _ _ _ G) as [ws [nx [pts [G1 [G2 ->]]]]].
    pose proof (@so_feas (g o) (Hg o) _ _ _ _ _ _ _ _ SE HL H1 M' FX G1 G2) as F. rewrite Forall_forall in *. intros y Hy. apply F.
    rewrite <- (firstn_skipn n pts). apply in_or_app. left. exact Hy.
Qed.

(** ** The callbacks *)
Lemma complete_total : forall (p : proc pt val srbf) o ev v, exists p', do_complete c hk o ev v p = Ok p'.
Proof using.
  intros p o ev v. unfold do_complete. destruct (o_kind o).
  - unfold on_initial_completed. cbn [hk_initial_completed hooks_with srbf_strategy srbf_hooks rbind]. eauto.
  - unfold on_adapt_completed. set (s := base_completed c (o_id o) (o_x o) v ev (p_s p)). clearbody s.
    assert (T : exists r, hk_adapt_completed hk (p_e p) s (o_x o) v ev = Ok r).
    { cbn [hk_adapt_completed hooks_with srbf_strategy srbf_hooks]. unfold srbf_adapt_completed.
      destruct (ev_last s <? ev)%Z; [|eauto].
      assert (AD : exists r, adjust_step (failtol_of (c_async c) dim (c_batch c))
        (mkSrbf (s_status (p_e p)) (s_failcount (p_e p)) (s_radius (p_e p)) (s_fbest (p_e p)) (s_queue (p_e p) ++ [v])
                    (s_next (p_e p)) (s_steps (p_e p)) (s_used (p_e p))) = Ok r).
      { unfold adjust_step. cbn [s_queue]. destruct (s_queue (p_e p) ++ [v]) eqn:Eq; [|eauto].
        exfalso. exact (app_cons_not_nil _ _ _ (eq_sym Eq)). }
      destruct (c_async c); [exact AD|].
      destruct (negb (nonempty (batch_queue s)) && (pending_evals s =? 0)%Z); [exact AD|eauto]. }
    destruct T as [[[r n] cv] ->]. cbn [rbind]. eauto.
Qed.

Lemma general_nonempty : forall X, in_general_position dim X -> X <> [].
Proof using.
  intros X G ->. destruct (G 1 (repeat 0 dim)) as [K _]; [apply repeat_length|intros x []|lra].
Qed.

Lemma in_combine_ex : forall A B (l : list A) (l' : list B) x, length l = length l' -> In x l -> exists v, In (x, v) (combine l l').
Proof using.
  intros A B l. induction l as [|a l IH]; intros [|b l'] x L H; try discriminate; [destruct H|]; destruct H as [->|H].
  - exists b. left. reflexivity.
  - destruct (IH l' x) as [v Hv]; [simpl in L; congruence|exact H|]. exists v. right. exact Hv.
Qed.

Lemma design_good : forall d, good_points d -> good_design c (Ok d).
Proof using. intros d [H _]. exists d. auto. Qed.

Lemma num_pts_pos : forall d, good_points d -> (0 < c_num_pts c)%nat.
Proof using.
  intros d [_ [_ G]]. apply general_nonempty in G. destruct (c_num_pts c); [|lia]. exfalso. apply G. reflexivity.
Qed.

(** Everything needed when propose_action is about to generate points, if the data suffices. *)
Lemma ready_data : forall d0 ops p, good_points d0 -> Forall good_op ops -> good_extra_points ->
  y_proc (Strategy.run c hk (Ok d0) srbf0 ops) = Some p -> in_general_position dim (X_ (p_s p)) ->
  Forall (feasible q dim) (X_ (p_s p)) /\ X_ (p_s p) <> [] /\ (forall x, exists v, rbf_predict (sur (p_s p)) x = Ok v).
Proof using Hg SE HL Heta.
  intros d0 ops p G0 GO GE Hp GP.
  assert (H : reached c hk (Ok d0) srbf0 p) by (exists ops; left; exact Hp).
  pose proof H as HR. apply reached_micros in HR. destruct HR as [[s e] [Hc M]].
  assert (RI : RunInv c p) by (eapply RunInv_micros; eassumption).
  pose proof (ri_len RI) as L.
  assert (FX : Forall (feasible q dim) (X_ (p_s p))).
  { apply Forall_forall. intros x Hx. destruct (@X_proposed _ _ _ _ c hk _ _ s e p x Hc M Hx) as [id [k Hk]].
    eapply feas_run; eauto. }
  split; [exact FX|]. split; [apply general_nonempty; exact GP|].
  pose proof (ri_sur RI) as E2.
  assert (HK : forall x v, In (x, v) (sur (p_s p)) -> In (x, v) (known c) \/ In (x, v) (combine (X_ (p_s p)) (fX_ (p_s p)))).
  { intros x v Hx. rewrite E2 in Hx. apply in_app_or in Hx. destruct Hx as [Hx|Hx]; [left|right; exact Hx].
    destruct (restarts (p_hist p) =? 0)%nat; [exact Hx|destruct Hx]. }
  destruct GE as [GE1 [GE2 GE3]]. rewrite Forall_forall in GE3.
  apply predict_total.
  - exact (proj1 (se_wf SE)).
  - exact Heta.
  - intros x v Hx. destruct (HK x v Hx) as [A|A]; [exact (proj1 (GE3 _ A))|].
    apply in_combine_l in A. rewrite Forall_forall in FX. apply (FX x A).
  - apply Forall_forall. intros v Hv. apply in_map_iff in Hv. destruct Hv as [[x v'] [<- Hx]]. simpl.
    destruct (HK x v' Hx) as [A|A]; [exact (proj2 (GE3 _ A))|].
    apply (@subseq_In _ _ _ _ (ri_sub RI)) in A.
    apply run_data_completed in A. unfold completed in A. apply in_flat_map in A. destruct A as [ev [A1 A2]].
    destruct ev as [| | | | | | |id k x0 v0| | |]; simpl in A2; try contradiction. destruct A2 as [A2|[]]. injection A2 as -> ->.
    pose proof (@origin_run _ _ _ _ c hk _ _ ops p (or_introl Hp) _ A1) as [id' Hin].
    rewrite Forall_forall in GO. exact (GO _ Hin).
  - eapply general_incl; [|exact GP]. intros x Hx. destruct (in_combine_ex _ _ _ L Hx) as [v Hv].
    rewrite E2, map_app. apply in_or_app. right. apply in_map_iff. exists (x, v). auto.
Qed.

Lemma propose_total_if : forall d0 ops p, good_points d0 -> Forall good_op ops -> good_extra_points ->
  y_proc (Strategy.run c hk (Ok d0) srbf0 ops) = Some p ->
  (batch_queue (p_s p) = [] -> c_async c = true \/ pending_evals (p_s p) = 0%Z -> in_general_position dim (X_ (p_s p))) ->
  forall d z, good_points d -> exists r, do_propose c hk (Ok d) z p = Ok r.
Proof using Hg SE HL Heta Hw.
  intros d0 ops p G0 GO GE Hp U d z GD. pose proof (design_good GD) as GD'. pose proof (num_pts_pos GD) as NP.
  assert (H : reached c hk (Ok d0) srbf0 p) by (exists ops; left; exact Hp).
  pose proof H as HR. apply reached_micros in HR. destruct HR as [[s e] [Hc M]].
  assert (H' : reached c (srbf_strategy c weights dim) (Ok d0) srbf0 p) by (eapply reached_with; exact H).
  unfold do_propose.
  assert (RB : forall s e, exists r, restart_branch c hk (Ok d) s e = Ok r).
  { clear s e Hc M. intros s e. unfold restart_branch. destruct (c_async c || (pending_evals s =? 0)%Z); [|eauto].
    unfold sample_restart.
    destruct (@sample_initial_total _ _ c (Ok d)
       (set_phase 1%nat (set_converged false (set_fX_ [] (set_X_ [] (bump s))))) (proj1 GE) GD') as [s1 E].
    rewrite E. cbn [rbind fst snd]. unfold init_proposal.
    apply sample_initial_ok in E. destruct E as [d' [rows [_ [_ [Hl ->]]]]]. simpl.
    match goal with |- context [py_pop ?l] => assert (N : l <> []) end.
    { intros C. apply (f_equal (@length _)) in C. rewrite !app_length in C. simpl in C. lia. }
    destruct (py_pop_nonempty N) as [x [q0 ->]]. cbn [rbind]. eauto. }
  assert (PA : exists r, propose_action c hk (Ok d) z (p_s p) (p_e p) = Ok r).
  { unfold propose_action.
    assert (CT : terminate (check_termination c (p_s p)) = false -> check_termination c (p_s p) = p_s p).
    { unfold check_termination. destruct (c_max_evals c <=? num_evals (p_s p) + pending_evals (p_s p))%Z; [discriminate|reflexivity]. }
    assert (BL : terminate (check_termination c (p_s p)) = false -> below c (p_s p)).
    { unfold check_termination. destruct (c_max_evals c <=? num_evals (p_s p) + pending_evals (p_s p))%Z eqn:El; [discriminate|]. intros T. split; [exact T|apply Z.leb_gt in El; lia]. }
    set (s0 := check_termination c (p_s p)) in *. clearbody s0.
    destruct (terminate s0) eqn:Et; [destruct (pending_evals s0 =? 0)%Z; eauto|]. specialize (CT eq_refl). specialize (BL eq_refl). subst s0.
    destruct (converged (p_s p)) eqn:Ecv; [destruct (c_restarts c); eauto|].
    destruct (nonempty (batch_queue (p_s p))) eqn:En.
    { destruct (phase (p_s p) =? 1)%nat; [|eauto]. unfold init_proposal.
      assert (N : batch_queue (p_s p) <> []) by (destruct (batch_queue (p_s p)); discriminate).
      destruct (py_pop_nonempty N) as [x [q0 ->]]. cbn [rbind]. eauto. }
    assert (Eq : batch_queue (p_s p) = []) by (destruct (batch_queue (p_s p)); [reflexivity|discriminate]).
    assert (DG : forall n, c_async c = true \/ pending_evals (p_s p) = 0%Z -> exists r, do_generate hk n z (set_phase 2%nat (p_s p)) (p_e p) = Ok r).
    { intros n Ep. destruct (ready_data G0 GO GE Hp (U Eq Ep)) as [FX [NE PR]].
      set (p2 := with_s (set_phase 2%nat (p_s p)) [] p).
      assert (M2 : micros c (srbf_strategy c weights dim) (init_proc (s, e)) p2).
      { eapply micros_with with (g := g). eapply ms_step; [exact M|]. apply mi_phase; assumption. }
      assert (Wl : (s_next (p_e p) < length weights)%nat).
      { destruct (ei_w (a_e (all_inv HL H'))) as [_ W]; [destruct weights; [contradiction|discriminate]|].
        rewrite W. apply Nat.mod_upper_bound. destruct weights; [contradiction|discriminate]. }
      destruct (@get_weights_total weights n (s_next (p_e p))) as [[ws nx] GW]; [destruct weights; [contradiction|discriminate]|exact Wl|].
      destruct (@so_total (g z) (Hg z) (Ok d0) s e p2 n ws nx SE HL Hc M2 FX GW NE PR) as [pts [E1 E2]].
      change (p_s p2) with (set_phase 2%nat (p_s p)) in E1. change (p_e p2) with (p_e p) in E1.
      unfold do_generate. cbn [hk_generate hooks_with srbf_strategy srbf_hooks]. unfold srbf_generate. rewrite GW. cbn [rbind fst snd].
      rewrite E1. cbn [rbind]. rewrite take_rows_total by assumption. cbn [rbind fst snd]. eauto. }
    assert (G : exists r, (if c_async c then do_generate hk 1 z (set_phase 2%nat (p_s p)) (p_e p)
             else if (pending_evals (set_phase 2%nat (p_s p)) =? 0)%Z then do_generate hk (c_batch c) z (set_phase 2%nat (p_s p)) (p_e p)
             else Ok (set_phase 2%nat (p_s p), p_e p, [])) = Ok r).
    { destruct (c_async c) eqn:Ea; [apply DG; left; reflexivity|].
      destruct (pending_evals (set_phase 2%nat (p_s p)) =? 0)%Z eqn:Ep; [|eauto]. apply Z.eqb_eq in Ep. simpl in Ep. apply DG. right. exact Ep. }
    destruct G as [[[s3 e3] evs3] ->]. cbn [rbind].
    destruct (converged s3 && c_restarts c); [|eauto].
    destruct (RB s3 e3) as [[[o4 se4] evs4] ->]. cbn [rbind]. eauto. }
  destruct PA as [[[out [s1 e1]] evs] ->]. cbn [rbind]. eauto.
Qed.

Hypothesis Hsync : c_async c = false.

Lemma srbf_idle : bump_when_idle hk.
Proof using Hsync HL.
  intros e s x v ev e' n cv H Hn. refine (@sync_bump_idle pt c (ft c dim) weights Hsync e s x v ev e' n cv _ Hn).
  rewrite hk_eq by exact HL. exact H.
Qed.

(** The points that the strategy queued first: the design and the extra points without value. *)
(** Specification, no counterpart in /repo. *)
Definition first_queue (d0 : list pt) : list pt := firstn (c_num_pts c) d0 ++ unknown c.
(** No evaluation of a design point of the current run was given up, and the run was not resumed. *)
(** Specification, no counterpart in /repo. *)
Definition undisturbed (d0 : list pt) (h : list (event pt val)) : Prop :=
  count (@is_resume pt val) h = 0%nat /\ forall x, In x (current_design (first_queue d0) h) -> ~ In x (given_up false h).

(** In synchronous mode the data suffices. *)
Lemma ready : forall d0 ops p, good_points d0 -> Forall good_op ops ->
  y_proc (Strategy.run c hk (Ok d0) srbf0 ops) = Some p -> undisturbed d0 (p_hist p) ->
  batch_queue (p_s p) = [] -> pending_evals (p_s p) = 0%Z -> in_general_position dim (X_ (p_s p)).
Proof using HL Hsync.
  intros d0 ops p G0 GO Hp [NR ND] Eq Ep.
  assert (H : reached c hk (Ok d0) srbf0 p) by (exists ops; left; exact Hp).
  pose proof H as HR. apply reached_micros in HR. destruct HR as [[s e] [Hc M]].
  destruct (@sync_inv _ _ _ _ c hk Hsync srbf_idle _ _ _ _ _ Hc M) as [I [RI [_ K]]].
assert (IN : incl (current_design (first_queue d0) (p_hist p)) (X_ (p_s p))).
    { intros x Hx. destruct (@C08_initial_queue _ _ _ _ c hk _ _ _ _ Hc) as [d [E [_ Hq]]]. injection E as <-.
      assert (Hx' : In x (current_design (batch_queue s) (p_hist p))) by (rewrite Hq; exact Hx).
      destruct (K NR x Hx') as [A|[A|[A|A]]].
      - rewrite Eq in A. destruct A.
      - rewrite (idle_out I Ep) in A. destruct A.
      - exact A.
      - exfalso. exact (ND x Hx A). }
    eapply general_incl; [exact IN|]. destruct (current_design_cases (first_queue d0) (p_hist p)) as [->|[l [Hl ->]]].
    - eapply general_incl; [|exact (proj2 (proj2 G0))]. intros x Hx. apply in_or_app. left. exact Hx.
    - pose proof (@origin_run _ _ _ _ c hk _ _ ops p (or_introl Hp) _ Hl) as [d [o [A B]]].
      rewrite Forall_forall in GO. destruct (GO _ A) as [d' [E [_ [_ G]]]]. injection E as <-. eapply general_incl; eassumption.
Qed.

Lemma propose_total_run : forall d0 ops p, good_points d0 -> Forall good_op ops -> good_extra_points ->
  y_proc (Strategy.run c hk (Ok d0) srbf0 ops) = Some p -> undisturbed d0 (p_hist p) ->
  forall d z, good_points d -> exists r, do_propose c hk (Ok d) z p = Ok r.
Proof using Hg SE HL Hsync Heta Hw.
  intros d0 ops p G0 GO GE Hp U d z GD. apply (propose_total_if G0 GO GE Hp); [|exact GD].
  intros Eq [K|Ep]; [congruence|]. exact (ready G0 GO Hp U Eq Ep).
Qed.

(** ** Whole runs *)
(** Operations of a run without crashes and without killed or cancelled evaluations. *)
(** Specification, no counterpart in /repo. *)
Definition quiet_op {O} (a : op pt val O) : Prop :=
  match a with Crash => False | Update _ SKilled => False | Update _ SCancelled => False | _ => True end.

(** Specification, no counterpart in /repo. *)
Definition quiet_event (ev : event pt val) : Prop :=
  match ev with EvAbort _ _ _ => False | EvResume => False | _ => True end.

Lemma quiet_undisturbed : forall d0 h, Forall quiet_event h -> undisturbed d0 h.
Proof using.
  intros d0 h Q. split.
  - unfold count. induction Q as [|ev h Q1 Q2 IH]; [reflexivity|]. simpl. destruct ev; simpl; auto. destruct Q1.
  - assert (E : given_up false h = []).
    { unfold given_up. induction Q as [|ev h Q1 Q2 IH]; [reflexivity|]. simpl. rewrite IH. destruct ev; simpl; auto; try (destruct Q1); destruct k; reflexivity. }
    rewrite E. intros x _ [].
Qed.

Lemma propose_quiet : forall d z (p : proc pt val srbf) r, do_propose c hk d z p = Ok r -> Forall quiet_event (p_hist p) -> Forall quiet_event (p_hist (snd r)).
Proof using Hsync.
  intros d z p [out p1] H Q. simpl. unfold do_propose in H. apply rbind_ok in H. destruct H as [[[out1 [s1 e1]] evs] [H1 H2]]. injection H2 as <- <-.
  assert (QE : Forall quiet_event evs).
  { unfold propose_action in H1. set (s0 := check_termination c (p_s p)) in *. clearbody s0.
    assert (RB : forall s e out se evs, restart_branch c hk d s e = Ok (out, se, evs) -> Forall quiet_event evs).
    { intros s e out se evs' Hr. unfold restart_branch in Hr. destruct (c_async c || (pending_evals s =? 0)%Z).
      - apply rbind_ok in Hr. destruct Hr as [[s5 e5] [_ Hr]]. apply rbind_ok in Hr. destruct Hr as [r [_ Hr]]. injection Hr as _ _ <-. repeat constructor.
      - injection Hr as _ _ <-. constructor. }
    assert (DG : forall n s e r, do_generate hk n z s e = Ok r -> Forall quiet_event (snd r)).
    { intros n s e r Hgen. unfold do_generate in Hgen. apply rbind_ok in Hgen. destruct Hgen as [[e5 [l5|]] [_ Hgen]]; simpl in Hgen; injection Hgen as <-; repeat constructor. }
    destruct (terminate s0); [destruct (pending_evals s0 =? 0)%Z; injection H1 as _ _ _ <-; constructor|].
    destruct (converged s0); [destruct (c_restarts c); [eapply RB; eauto|injection H1 as _ _ _ <-; constructor]|].
    destruct (nonempty (batch_queue s0)).
    { destruct (phase s0 =? 1)%nat; [apply rbind_ok in H1; destruct H1 as [r [_ H1]]|]; injection H1 as _ _ _ <-; constructor. }
    apply rbind_ok in H1. destruct H1 as [[[s3 e3] evs3] [H1 H2]].
    assert (N3 : Forall quiet_event evs3).
    { destruct (c_async c); [exact (DG _ _ _ _ H1)|]. destruct (pending_evals (set_phase 2%nat s0) =? 0)%Z; [exact (DG _ _ _ _ H1)|].
      injection H1 as _ _ <-. constructor. }
    destruct (converged s3 && c_restarts c).
    - apply rbind_ok in H2. destruct H2 as [[[o4 se4] evs4] [H2 H3]]. injection H3 as _ _ <-. apply Forall_app. split; [exact N3|eapply RB; eauto].
    - injection H2 as _ _ _ <-. exact N3. }
  destruct out1; simpl; rewrite !Forall_app; repeat split; auto; repeat constructor.
Qed.

Lemma alive : good_extra_points -> forall d0 ops, good_points d0 -> Forall good_op ops -> Forall quiet_op ops ->
  exists p, y_proc (Strategy.run c hk (Ok d0) srbf0 ops) = Some p /\ Forall quiet_event (p_hist p).
Proof using Hg SE HL Hsync Heta Hw.
  intros GE d0 ops G0. induction ops as [|a ops IH] using rev_ind; intros GO QO.
  - destruct (@construct_total _ _ _ _ c hk (proj1 GE) (Ok d0) srbf0 (design_good G0)) as [[s e] E].
    exists (mkProc s e [] [] 0%nat []). unfold Strategy.run, run_from, start. cbn [fold_left]. rewrite E. cbn [y_proc fst snd p_hist]. split; [reflexivity|constructor].
  - apply Forall_app in GO. destruct GO as [GO Ga]. apply Forall_app in QO. destruct QO as [QO Qa].
    inversion Ga as [|a' l' Ga' _]; subst. inversion Qa as [|a' l' Qa' _]; subst.
    destruct (IH GO QO) as [p [Ep Q]]. rewrite StrategyInv4.run_snoc.
    assert (AP : forall (p' : proc pt val srbf) ev, p_hist p' = p_hist p ++ [ev] -> quiet_event ev -> Forall quiet_event (p_hist p')).
    { intros p' ev E N. rewrite E. apply Forall_app. split; [exact Q|]. constructor; [exact N|constructor]. }
    set (y := Strategy.run c hk (Ok d0) srbf0 ops) in *.
    unfold Strategy.step. rewrite Ep. destruct a as [dd o|id|id|id st| | |].
    + destruct Ga' as [d [-> Gd]]. destruct (propose_total_run G0 GO GE Ep (quiet_undisturbed d0 Q) o Gd) as [[out p1] E].
      rewrite E. pose proof (@propose_quiet _ _ _ _ E Q) as Q1. exists p1. destruct out; auto.
    + destruct (get_out id (p_out p)) as [o|]; [|exists p; auto]. destruct (o_ev o); [exists p; auto|].
      eexists. split; [reflexivity|]. eapply AP; [reflexivity|exact I].
    + destruct (get_out id (p_out p)) as [o|]; [|exists p; auto]. destruct (o_ev o); [exists p; auto|].
      eexists. split; [reflexivity|]. eapply AP; [reflexivity|exact I].
    + destruct (get_out id (p_out p)) as [o|]; [|exists p; auto]. destruct (o_ev o) as [ev|]; [|exists p; auto].
      destruct st as [|v| |]; [exists p; auto| |destruct Qa'|destruct Qa'].
      destruct (complete_total p o ev v) as [p' E]. rewrite E. exists p'. split; [reflexivity|].
      apply do_complete_ok in E. destruct E as [e' [l [nx [cv [-> _]]]]]. eapply AP; [reflexivity|exact I].
    + eexists. split; [reflexivity|]. eapply AP; [reflexivity|exact I].
    + destruct Qa'.
    + exists p. auto.
Qed.

(** ** The surrogate object *)
(** Specification, no counterpart in /repo. *)
Definition value (v : val) : R := match v with Fin a => Q2R a | PInf => 0 end.
(** surrogate.add_points(xx, fx), pySOT/strategy/surrogate_strategy.py:364, 429. *)
Definition add_call (xv : pt * val) : call := Add [fst xv] [value (snd xv)].

(** The calls that the strategy makes on its surrogate object, along a history of the strategy:
    reset() and the extra points with known value in the constructor, reset() at a restart
    (surrogate_strategy.py:231, 198-211), add_points at a completion (364, 429), any number of
    predictions, at any points, while generate_evals runs. *)
Inductive object_history : list (event pt val) -> list call -> Prop :=
| oh_nil : object_history [] (Reset :: map add_call (known c))
| oh_complete : forall h cs id k x v, object_history h cs -> object_history (h ++ [EvComplete id k x v]) (cs ++ [Add [x] [value v]])
| oh_restart : forall h cs l, object_history h cs -> object_history (h ++ [EvRestart l]) (cs ++ [Reset])
| oh_generate : forall h cs n l qs, object_history h cs -> (forall c0, In c0 qs -> exists x, c0 = Predict x \/ c0 = PredictDeriv x) ->
    object_history (h ++ [EvGenerate n l]) (cs ++ qs)
| oh_other : forall h cs ev, object_history h cs ->
    match ev with EvComplete _ _ _ _ | EvRestart _ | EvGenerate _ _ => False | _ => True end -> object_history (h ++ [ev]) cs.

(** The data kept if every completion since the last restart is added. *)
(** Specification, no counterpart in /repo. *)
Definition plain_step (d : list (pt * val)) (ev : event pt val) : list (pt * val) :=
  match ev with EvRestart _ => [] | EvComplete _ _ x v => d ++ [(x, v)] | _ => d end.
(** Specification, no counterpart in /repo. *)
Definition plain (h : list (event pt val)) : list (pt * val) := fold_left plain_step h [].
Lemma plain_snoc : forall h ev, plain (h ++ [ev]) = plain_step (plain h) ev.
Proof using. intros. unfold plain. rewrite fold_left_app. reflexivity. Qed.

Lemma combine_snoc : forall A B (l : list A) (l' : list B) x v, length l = length l' -> combine (l ++ [x]) (l' ++ [v]) = combine l l' ++ [(x, v)].
Proof using. intros A B l. induction l as [|a l IH]; intros [|b l'] x v H; try discriminate; [reflexivity|]. simpl. rewrite IH by (simpl in H; congruence). reflexivity. Qed.

Lemma plain_inv : forall d0 s e p, construct c hk d0 srbf0 = Ok (s, e) -> micros c hk (init_proc (s, e)) p ->
  combine (X_ (p_s p)) (fX_ (p_s p)) = plain (p_hist p).
Proof using HL Hsync.
  intros d0 s e p Hc M.
  assert (I0 : Inv c (init_proc (s, e))) by (eapply Inv_init; eassumption).
  assert (Inv' : (RunInv c p /\ Fresh p) /\ combine (X_ (p_s p)) (fX_ (p_s p)) = plain (p_hist p)); [|tauto].
  apply (@micros_from _ _ _ _ c hk (fun p => (RunInv c p /\ Fresh p) /\ combine (X_ (p_s p)) (fX_ (p_s p)) = plain (p_hist p)) _ I0); [| |exact M].
  - destruct (@sync_inv _ _ _ _ c hk Hsync srbf_idle d0 srbf0 s e _ Hc (ms_refl _ _ _)) as [_ [A [B _]]]. split; [split; assumption|].
    unfold construct in Hc. apply rbind_ok in Hc. destruct Hc as [s1 [H1 H2]]. injection H2 as <- <-.
    apply sample_initial_ok in H1. destruct H1 as [d [rows [_ [_ [_ ->]]]]]. reflexivity.
  - intros p1 r Iq [[Rq Fq] C] N. split; [split; [eapply RunInv_micro; eassumption|eapply Fresh_micro; try eassumption; exact srbf_idle]|].
    destruct N.
    + simpl. rewrite plain_snoc. exact C.
    + simpl. rewrite plain_snoc. exact C.
    + simpl. rewrite plain_snoc. exact C.
    + simpl. rewrite app_nil_r. exact C.
    + simpl. rewrite plain_snoc. exact C.
    + simpl. rewrite plain_snoc. exact C.
    + simpl. rewrite plain_snoc. reflexivity.
    + simpl. rewrite plain_snoc. exact C.
    + simpl. rewrite plain_snoc. exact C.
    + simpl. rewrite plain_snoc. simpl. rewrite <- C. destruct (o_kind o); [reflexivity|]. unfold on_adapt_reject. rewrite Hsync. reflexivity.
    + match goal with H : do_complete _ _ _ _ _ _ = Ok _ |- _ => apply do_complete_ok in H; destruct H as [e' [l [nx [cv [-> _]]]]] end.
      destruct (base_completed_data c (o_id o) (o_x o) v ev (p_s p1)) as [_ [_ [[_ [E1 [E2 _]]]|[G _]]]]; [|pose proof (Fq o ev H H0); lia].
      set (sb := base_completed c (o_id o) (o_x o) v ev (p_s p1)) in *. clearbody sb. simpl.
      rewrite plain_snoc. simpl. rewrite E1, E2. rewrite combine_snoc by exact (ri_len Rq). rewrite C. reflexivity.
    + simpl. rewrite plain_snoc. simpl. rewrite <- C. destruct (o_kind o); reflexivity.
    + simpl. rewrite plain_snoc. exact C.
    + simpl. rewrite plain_snoc. simpl. rewrite <- C. unfold resume. destruct (phase (p_s p1) =? 1)%nat; reflexivity.
Qed.

(** Recorded points have the right dimension and finite values. *)
(** Specification, no counterpart in /repo. *)
Definition clean (xv : pt * val) : Prop := length (fst xv) = dim /\ finite_val (snd xv).
(** Specification, no counterpart in /repo. *)
Definition clean_event (ev : event pt val) : Prop := match ev with EvComplete _ _ x v => clean (x, v) | _ => True end.

(** Specification, no counterpart in /repo. *)
Definition numbers (d : list (pt * val)) : list (pt * R) := map (fun xv => (fst xv, value (snd xv))) d.
Lemma numbers_app : forall d d', numbers (d ++ d') = numbers d ++ numbers d'.
Proof using. intros. unfold numbers. apply map_app. Qed.

Lemma clean_shape : forall x r, length x = dim -> right_shape dim [x] [r] = true.
Proof using. intros x r H. unfold right_shape. cbn [length forallb Nat.eqb andb]. rewrite H, Nat.eqb_refl. reflexivity. Qed.

Lemma contents_known : forall d cs, Forall clean d -> contents dim (cs ++ map add_call d) = contents dim cs ++ numbers d.
Proof using.
  induction d as [|[x v] d IH]; intros cs H; [rewrite app_nil_r; cbn; rewrite app_nil_r; reflexivity|].
  inversion H as [|a b [H1 H2] H3]; subst. cbn [map]. change (add_call (x, v) :: map add_call d) with ([add_call (x, v)] ++ map add_call d).
  rewrite app_assoc, IH by assumption. rewrite contents_snoc. cbn [add_call fst snd]. simpl in H1. rewrite clean_shape by assumption.
  rewrite <- app_assoc. reflexivity.
Qed.
Lemma contents_queries : forall qs cs, (forall c0, In c0 qs -> exists x, c0 = Predict x \/ c0 = PredictDeriv x) ->
  contents dim (cs ++ qs) = contents dim cs.
Proof using.
  induction qs as [|a qs IH]; intros cs H; [rewrite app_nil_r; reflexivity|]. change (a :: qs) with ([a] ++ qs). rewrite app_assoc.
  rewrite IH by (intros c0 Hc; apply H; right; exact Hc). rewrite contents_snoc.
  destruct (H a (or_introl eq_refl)) as [x [->| ->]]; reflexivity.
Qed.

Lemma object_contents : Forall clean (known c) -> forall h cs, object_history h cs -> Forall clean_event h ->
  contents dim cs = numbers ((if (restarts h =? 0)%nat then known c else []) ++ plain h).
Proof using.
  intros CK h cs O. induction O as [|h cs id k x v O IH|h cs l O IH|h cs n l qs O IH HQ|h cs ev O IH HE]; intros CE.
  - change (Reset :: map add_call (known c)) with ([Reset] ++ map add_call (known c)). rewrite contents_known by assumption.
    cbn [restarts filter length Nat.eqb plain fold_left]. rewrite app_nil_r. reflexivity.
  - apply Forall_app in CE. destruct CE as [CE CE2]. inversion CE2 as [|a b CE3 _]; subst. destruct (CE3 : clean (x, v)) as [C1 C2]. simpl in C1.
    rewrite contents_snoc, clean_shape by assumption. rewrite IH by assumption. rewrite plain_snoc. cbn [plain_step].
    assert (RE : restarts (h ++ [EvComplete id k x v]) = restarts h) by (unfold restarts; rewrite filter_app; simpl; rewrite app_nil_r; reflexivity).
    rewrite RE, app_assoc, (numbers_app (_ ++ plain h)). reflexivity.
  - rewrite contents_snoc, plain_snoc. cbn [plain_step].
    assert (RE : (restarts (h ++ [EvRestart l]) =? 0)%nat = false) by (unfold restarts; rewrite filter_app, app_length; simpl; apply Nat.eqb_neq; lia).
    rewrite RE. reflexivity.
  - apply Forall_app in CE. destruct CE as [CE _]. rewrite contents_queries by assumption. rewrite plain_snoc. cbn [plain_step].
    assert (RE : restarts (h ++ [EvGenerate n l]) = restarts h) by (unfold restarts; rewrite filter_app; simpl; rewrite app_nil_r; reflexivity).
    rewrite RE. apply IH. exact CE.
  - apply Forall_app in CE. destruct CE as [CE _]. rewrite plain_snoc.
    assert (RE : restarts (h ++ [ev]) = restarts h) by (unfold restarts; rewrite filter_app; destruct ev; simpl; try contradiction; rewrite app_nil_r; reflexivity).
    rewrite RE. destruct ev; try contradiction; apply IH; exact CE.
Qed.

Lemma predict_general : forall d x v, bounds dim (q_lb q) (q_ub q) -> rbf_predict d x = Ok v -> in_general_position dim (map fst d).
Proof using Heta.
  intros d x v WB H. unfold rbf_predict in H. apply rbind_ok in H. destruct H as [ys [_ H]].
  destruct (@C59_solvable dim (q_lb q) (q_ub q) WB CubicKernel eta identity [Add (map fst d) ys]) with (x := x) as [[A _] _].
  - intros h1 c0 h2 E1 _ [y Hy]. destruct h1 as [|a h1]; [injection E1 as <- _; destruct Hy; discriminate|destruct h1; discriminate E1].
  - left. exact Heta.
  - pose proof (A (ex_intro _ v H)) as G. unfold contents in G. cbn [fold_left] in G.
    destruct (right_shape dim (map fst d) ys) eqn:RS; cbn [app map] in G.
    + rewrite fst_combine in G; [exact G|]. apply right_shape_len in RS. exact RS.
    + exfalso. apply (general_nonempty G). reflexivity.
Qed.

Notation rcareful := (careful dim CubicKernel eta).

Lemma careful_app : forall cs qs, rcareful cs -> ~ In Reset qs ->
  (forall a, In a qs -> (exists x, a = Predict x \/ a = PredictDeriv x) -> (forall c0, In c0 qs -> exists x, c0 = Predict x \/ c0 = PredictDeriv x) /\ in_general_position dim (map fst (contents dim cs))) ->
  rcareful (cs ++ qs).
Proof using Heta.
  intros cs qs C NR H h1 a h2 E NR2 HA.
  assert (SP : (exists t, cs = h1 ++ a :: t /\ h2 = t ++ qs) \/ exists t, h1 = cs ++ t /\ qs = t ++ a :: h2).
  { clear -E. revert h1 E. induction cs as [|b cs IH]; intros h1 E.
    - right. exists h1. auto.
    - destruct h1 as [|b' h1].
      + injection E as -> E. left. exists cs. auto.
      + injection E as -> E. destruct (IH h1 E) as [[t [-> ->]]|[t [-> ->]]]; [left; exists t; auto|right; exists t; auto]. }
  destruct SP as [[t [-> ->]]|[t [-> ->]]].
  - apply (C h1 a t eq_refl); [|exact HA]. intros K. apply NR2. apply in_or_app. auto.
  - destruct (H a) as [H1 H2]; [apply in_or_app; right; left; reflexivity|exact HA|]. right.
    rewrite contents_queries; [|intros c0 Hc; apply H1; apply in_or_app; auto]. split; [exact H2|left; exact Heta].
Qed.

Lemma careful_reset : forall cs, rcareful (cs ++ [Reset]).
Proof using.
  intros cs h1 a h2 E NR HA. exfalso. destruct h2 as [|b h2] using rev_ind.
  - apply app_inj_tail in E. destruct E as [_ <-]. destruct HA as [x [K|K]]; discriminate K.
  - apply NR. change (h1 ++ a :: h2 ++ [b]) with (h1 ++ (a :: h2) ++ [b]) in E. rewrite app_assoc in E. apply app_inj_tail in E. destruct E as [_ <-].
    apply in_or_app. right. left. reflexivity.
Qed.

Lemma object_careful : Forall clean (known c) -> forall d0 s e p, construct c hk d0 srbf0 = Ok (s, e) -> micros c hk (init_proc (s, e)) p ->
  Forall clean_event (p_hist p) -> forall cs, object_history (p_hist p) cs -> rcareful cs.
Proof using Hg SE HL Hsync Heta.
  intros CK d0 s e p Hc M.
  assert (G : forall h cs, object_history h cs -> forall h2, p_hist p = h ++ h2 -> Forall clean_event h -> rcareful cs);
    [|intros CE cs O; apply (G _ _ O []); [rewrite app_nil_r; reflexivity|exact CE]].
  intros h cs O. induction O as [|h cs id k x v O IH|h cs l O IH|h cs n l qs O IH HQ|h cs ev O IH HE]; intros h2 E CE.
  - intros h1 a h3 E1 _ [x HA]. exfalso. assert (K : In a (Reset :: map add_call (known c))) by (rewrite E1; apply in_or_app; right; left; reflexivity).
    destruct K as [<-|K]; [destruct HA; discriminate|]. apply in_map_iff in K. destruct K as [y [<- _]]. destruct HA; discriminate.
  - apply Forall_app in CE. destruct CE as [CE _]. rewrite <- app_assoc in E. apply careful_app; [eapply IH; eassumption| |].
    + intros [K|[]]; discriminate K.
    + intros a [<-|[]] [y [K|K]]; discriminate K.
  - apply careful_reset.
  - apply Forall_app in CE. destruct CE as [CE _]. rewrite <- app_assoc in E. apply careful_app; [eapply IH; eassumption| |].
    + intros K. destruct (HQ _ K) as [x [K'|K']]; discriminate K'.
    + intros a Ha _. split; [exact HQ|]. rewrite (object_contents CK O CE). cbn [app] in E.
      destruct (@event_step _ _ _ _ c hk _ _ M eq_refl _ _ _ E) as [p1 [p2 [M1 [M2 [_ [Eq Er]]]]]].
      rewrite <- Eq in Er. pose proof (@micro_event _ _ _ _ c hk _ _ _ M2 Er) as [_ [_ [_ [_ [_ [o [e' GN]]]]]]].
      destruct (@sync_inv _ _ _ _ c hk Hsync srbf_idle _ _ _ _ _ Hc M1) as [_ [RI _]].
      pose proof (ri_sur RI) as ES. rewrite (@plain_inv _ _ _ _ Hc M1), Eq in ES. rewrite <- ES.
      assert (PR : exists x v, rbf_predict (sur (p_s p1)) x = Ok v).
      { change (hk_generate (srbf_strategy c weights dim) (p_e p1) (p_s p1) n (g o) = Ok (e', l)) in GN.
        cbn [hk_generate srbf_strategy srbf_hooks] in GN. unfold srbf_generate in GN.
        apply rbind_ok in GN. destruct GN as [ws [_ GN]]. apply rbind_ok in GN. destruct GN as [pts [GN _]].
        eapply so_predict; [apply Hg|exact GN]. }
      destruct PR as [x [v PR]]. apply predict_general in PR; [|exact (proj1 (se_wf SE))].
      unfold numbers. rewrite map_map. cbn [fst]. exact PR.
  - apply Forall_app in CE. destruct CE as [CE _]. rewrite <- app_assoc in E. eapply IH; eassumption.
Qed.

Lemma run_clean : forall d0 ops p, good_points d0 -> Forall good_op ops -> good_extra_points ->
  y_proc (Strategy.run c hk (Ok d0) srbf0 ops) = Some p -> Forall clean_event (p_hist p).
Proof using Hg SE HL.
  intros d0 ops p G0 GO GE Hp. apply Forall_forall. intros ev Hev. destruct ev as [| | | | | | |id k x v| | |]; try exact I. split.
  - assert (H : reached c hk (Ok d0) srbf0 p) by (exists ops; left; exact Hp).
    apply reached_micros in H. destruct H as [[s e] [Hc M]]. apply in_split in Hev. destruct Hev as [h1 [h2 E]].
    destruct (@event_step _ _ _ _ c hk _ _ M eq_refl _ _ _ E) as [p1 [p2 [M1 [M2 [_ [Eq Er]]]]]].
    rewrite <- Eq in Er. pose proof (@micro_event _ _ _ _ c hk _ _ _ M2 Er) as [o [ev0 [O1 [O2 [_ [O3 _]]]]]].
    assert (Iq : Inv c p1) by (eapply Inv_micros; [|exact M1]; eapply Inv_init; eassumption).
    assert (Ho : In (o_id o, o_x o) (outstanding (p_hist p1))) by (rewrite (inv_out Iq); apply in_map_iff; exists o; auto).
    apply outstanding_proposed in Ho. destruct Ho as [k' Ho]. rewrite O3 in Ho.
    assert (Ho' : In (EvPropose (o_id o) k' x) (p_hist p)) by (rewrite E, <- Eq; apply in_or_app; left; exact Ho).
    pose proof (@feas_run d0 ops p G0 GO GE (or_introl Hp) _ _ _ Ho') as F. apply F.
  - pose proof (@origin_run _ _ _ _ c hk _ _ ops p (or_introl Hp) _ Hev) as [id' Hin].
    rewrite Forall_forall in GO. exact (GO _ Hin).
Qed.

Lemma numbers_scratch : forall d cs, Forall clean d -> contents dim cs = numbers d -> forall x,
  answer dim (q_lb q) (q_ub q) CubicKernel (LinearTail dim) eta identity (scratch dim cs) x = rbf_predict d x.
Proof using.
  intros d cs C E x. unfold rbf_predict, scratch. rewrite E.
  assert (N : mapR num (map (@snd pt val) d) = Ok (map snd (numbers d))).
  { clear E. induction d as [|[y v] d IH]; [reflexivity|]. inversion C as [|a b C1 C2]; subst. destruct C1 as [_ [w Ew]]. simpl in Ew. subst v.
    cbn [map mapR num rbind snd]. change (map (@snd pt val) d) with (map snd d) in *. rewrite IH by assumption. reflexivity. }
  rewrite N. cbn [rbind]. unfold numbers. rewrite map_map. cbn [fst]. reflexivity.
Qed.

(** The answers of the strategy's surrogate object are those of [rbf_predict]. *)
Lemma object_answers : forall d0 ops p, good_points d0 -> Forall good_op ops -> good_extra_points ->
  y_proc (Strategy.run c hk (Ok d0) srbf0 ops) = Some p -> forall cs, object_history (p_hist p) cs ->
  forall x, answer dim (q_lb q) (q_ub q) CubicKernel (LinearTail dim) eta identity cs x = rbf_predict (sur (p_s p)) x.
Proof using Hg SE HL Hsync Heta.
  intros d0 ops p G0 GO GE Hp cs O x.
  assert (H : reached c hk (Ok d0) srbf0 p) by (exists ops; left; exact Hp).
  pose proof H as HR. apply reached_micros in HR. destruct HR as [[s e] [Hc M]].
  assert (CE : Forall clean_event (p_hist p)) by (eapply run_clean; eassumption).
  assert (CK : Forall clean (known c)) by exact (proj2 (proj2 GE)).
  rewrite (@C59_incremental dim (q_lb q) (q_ub q) (proj1 (se_wf SE)) CubicKernel eta identity cs); [|eapply object_careful; eassumption].
  destruct (@sync_inv _ _ _ _ c hk Hsync srbf_idle _ _ _ _ _ Hc M) as [_ [RI _]].
  pose proof (ri_sur RI) as ES. rewrite (@plain_inv _ _ _ _ Hc M) in ES.
  apply numbers_scratch.
  - rewrite ES. apply Forall_app. split; [destruct (restarts (p_hist p) =? 0)%nat; [exact CK|constructor]|].
    clear -CE. apply Forall_forall. intros xv Hx. rewrite Forall_forall in CE.
    assert (K : exists id k, In (EvComplete id k (fst xv) (snd xv)) (p_hist p)).
    { clear CE. revert Hx. generalize (p_hist p). intros h. induction h as [|ev h IH] using rev_ind; intros Hx; [destruct Hx|].
      rewrite plain_snoc in Hx. assert (D : In xv (plain h) -> exists id k, In (EvComplete id k (fst xv) (snd xv)) (h ++ [ev])).
      { intros K. destruct (IH K) as [id [k K']]. exists id, k. apply in_or_app. auto. }
      destruct ev; simpl in Hx; auto; [destruct Hx|]. apply in_app_or in Hx. destruct Hx as [Hx|[<-|[]]]; [auto|].
      exists id, k. apply in_or_app. right. left. reflexivity. }
    destruct K as [id [k K]]. apply CE in K. exact K.
  - rewrite ES. apply object_contents; assumption.
Qed.

(** ** Serial runs *)
(** A search that always returns enough points, and the result of [g o] if that does. *)
(** Helper with no counterpart in /repo: used in proofs only. *)
Definition padded (o : cand_search pt) : cand_search pt := fun s n ws r =>
  match o s n ws r with
  | Ok pts => if (n <=? length pts)%nat then Ok pts else Ok (repeat [] n)
  | Err _ => Ok (repeat [] n)
  end.
Lemma padded_good : forall o, good_search (padded o).
Proof using.
  intros o s n ws r. unfold padded. destruct (o s n ws r) as [pts|].
  - destruct (n <=? length pts)%nat eqn:E; [apply Nat.leb_le in E; eauto|]. eexists. split; [reflexivity|]. rewrite repeat_length. lia.
  - eexists. split; [reflexivity|]. rewrite repeat_length. lia.
Qed.

Lemma padded_propose : forall d o p r, do_propose c (srbf_strategy c weights dim) d o p = Ok r ->
  do_propose c (srbf_strategy c weights dim) d (padded o) p = Ok r.
Proof using Hsync.
  intros d o p r H.
  assert (HG : forall e s n r, hk_generate (srbf_strategy c weights dim) e s n o = Ok r -> hk_generate (srbf_strategy c weights dim) e s n (padded o) = Ok r).
  { clear. intros e s n r H. cbn [hk_generate srbf_strategy srbf_hooks] in *. unfold srbf_generate in *.
    apply rbind_ok in H. destruct H as [ws [E1 H]]. rewrite E1. cbn [rbind].
    apply rbind_ok in H. destruct H as [pts [E2 H]]. unfold padded. rewrite E2.
    destruct (n <=? length pts)%nat eqn:E; [exact H|]. exfalso. apply rbind_ok in H. destruct H as [rows [E3 _]].
    apply take_rows_ok in E3. destruct E3 as [-> E3]. apply Nat.leb_gt in E. rewrite firstn_length in E3. lia. }
  assert (HD : forall n s e r, do_generate (srbf_strategy c weights dim) n o s e = Ok r -> do_generate (srbf_strategy c weights dim) n (padded o) s e = Ok r).
  { intros n s e r0 H0. unfold do_generate in *. apply rbind_ok in H0. destruct H0 as [x [E H0]]. rewrite (HG _ _ _ _ E). exact H0. }
  unfold do_propose in *. apply rbind_ok in H. destruct H as [x [E H]].
  replace (propose_action c (srbf_strategy c weights dim) d (padded o) (p_s p) (p_e p)) with (@Ok (outcome pt * (base pt val * srbf) * list (event pt val)) x); [exact H|].
  symmetry. clear H. unfold propose_action in *. set (s0 := check_termination c (p_s p)) in *. clearbody s0.
  destruct (terminate s0); [exact E|]. destruct (converged s0); [exact E|]. destruct (nonempty (batch_queue s0)); [exact E|].
  apply rbind_ok in E. destruct E as [y [E1 E2]].
  replace (if c_async c then do_generate (srbf_strategy c weights dim) 1 (padded o) (set_phase 2%nat s0) (p_e p)
     else if (pending_evals (set_phase 2%nat s0) =? 0)%Z then do_generate (srbf_strategy c weights dim) (c_batch c) (padded o) (set_phase 2%nat s0) (p_e p)
     else Ok (set_phase 2%nat s0, p_e p, [])) with (@Ok (base pt val * srbf * list (event pt val)) y); [exact E2|].
  symmetry. destruct (c_async c); [apply HD; exact E1|]. destruct (pending_evals (set_phase 2%nat s0) =? 0)%Z; [apply HD; exact E1|exact E1].
Qed.

Section SerialRun.
Variable f : pt -> val.
Variable designs : nat -> list pt.
Variable draws : nat -> Orc.
Hypothesis Hf : forall x, finite_val (f x).
Hypothesis Hd : forall i, good_points (designs i).
Hypothesis GE : good_extra_points.

Lemma serial_ops : forall d0 n, exists ops, Forall good_op ops /\ Forall quiet_op ops /\
  serial c hk f (fun i => Ok (designs i)) draws n (start c hk (Ok d0) srbf0) = Strategy.run c hk (Ok d0) srbf0 ops.
Proof using Hf Hd.
  intros d0 n. induction n as [|n [ops [GO [QO E]]]].
  - exists []. split; [constructor|]. split; [constructor|reflexivity].
  - rewrite serial_snoc, E. set (y := Strategy.run c hk (Ok d0) srbf0 ops) in *. unfold serial_step.
    destruct (y_proc y) as [p|] eqn:Ey; [|exists ops; auto].
    assert (G1 : good_op (Propose (Ok (designs n)) (draws n))) by (exists (designs n); auto).
    destruct (do_propose c hk (Ok (designs n)) (draws n) p) as [[[| |k x] p']|] eqn:Ep.
    1,2,4: (exists (ops ++ [Propose (Ok (designs n)) (draws n)]); rewrite !Forall_app; split; [split; [exact GO|repeat constructor; exact G1]|]; split; [split; [exact QO|repeat constructor]|];
      unfold y; rewrite <- StrategyInv4.run_snoc; reflexivity).
    exists (ops ++ [Propose (Ok (designs n)) (draws n)] ++ [Accept (p_next p)] ++ [Update (p_next p) (SCompleted (f x))]).
    split; [repeat (apply Forall_app; split); auto; constructor; try apply Forall_nil; first [exact G1|exact I|apply Hf]|].
    split; [repeat (apply Forall_app; split); auto; constructor; try apply Forall_nil; exact I|].
    rewrite !app_assoc, !StrategyInv4.run_snoc. reflexivity.
Qed.

Lemma serial_same : forall d0, good_points d0 -> forall n,
  serial c hk f (fun i => Ok (designs i)) draws n (start c hk (Ok d0) srbf0) =
  serial c (srbf_strategy c weights dim) f (fun i => Ok (designs i)) (fun i => padded (g (draws i))) n (start c (srbf_strategy c weights dim) (Ok d0) srbf0).
Proof using Hg SE HL Hsync Heta Hw Hf Hd GE.
  intros d0 G0 n. induction n as [|n IH]; [reflexivity|].
  rewrite !serial_snoc, <- IH. destruct (serial_ops d0 n) as [ops [GO [QO E]]]. rewrite E.
  destruct (alive GE G0 GO QO) as [p [Ep Q]].
  destruct (propose_total_run G0 GO GE Ep (quiet_undisturbed d0 Q) (draws n) (Hd n)) as [[out p1] E1].
  set (y := Strategy.run c hk (Ok d0) srbf0 ops) in *.
  assert (E2 : do_propose c (srbf_strategy c weights dim) (Ok (designs n)) (padded (g (draws n))) p = Ok (out, p1)) by (apply padded_propose; exact E1).
  assert (S1 : Strategy.step c hk y (Propose (Ok (designs n)) (draws n)) = Strategy.step c (srbf_strategy c weights dim) y (Propose (Ok (designs n)) (padded (g (draws n)))))
    by (unfold Strategy.step; rewrite Ep, E1, E2; reflexivity).
  unfold serial_step. rewrite Ep, E1, E2, S1. destruct out; reflexivity.
Qed.

Lemma serial_finishes : (0 <= c_max_evals c)%Z -> c_restarts c = true -> forall d0, good_points d0 ->
  let m := Z.to_nat (c_max_evals c) in
  exists p h, y_proc (serial c hk f (fun i => Ok (designs i)) draws (S m) (start c hk (Ok d0) srbf0)) = Some p /\
    p_hist p = h ++ [EvTerminate] /\ length (completed h) = m /\ Forall (fun xv => snd xv = f (fst xv)) (completed h) /\ outstanding h = [].
Proof using Hg SE HL Hsync Heta Hw Hf Hd GE.
  intros Hm Hr d0 G0 m. rewrite (serial_same G0).
  apply (@C12_srbf_serial_run_finishes pt c weights dim (Ok d0) HL f (fun i => Ok (designs i)) (fun i => padded (g (draws i)))); auto.
  - intros i. apply padded_good.
  - exact (proj1 GE).
  - apply (num_pts_pos G0).
  - intros i. apply design_good. apply Hd.
  - apply design_good. exact G0.
Qed.
End SerialRun.
End Hooks.

(** What the user provides: see [setting]; a synchronous strategy with at least one weight, the
    surrogate's regularisation eta > 0, and extra points that make sense. *)
(** Specification, no counterpart in /repo. *)
Record user_setting : Prop := mkUserSetting {
  us_setting : sett;
  us_legal : legal c;
  us_sync : c_async c = false;
  us_weights : weights <> [];
  us_eta : 0 < eta;
  us_extra : good_extra_points
}.

(** The constructor does not raise, and in every state of every run no call of propose_action and
    no completion raises, provided the process was not resumed from a checkpoint and no evaluation
    of a point of the current initial design was given up. *)
Theorem C61_srbf_no_call_raises : user_setting -> forall d0, good_points d0 ->
  (exists p, y_proc (Strategy.run c srbf_rbf (Ok d0) srbf0 []) = Some p) /\
  forall ops p, Forall good_op ops -> y_proc (Strategy.run c srbf_rbf (Ok d0) srbf0 ops) = Some p -> undisturbed d0 (p_hist p) ->
  (forall d z, good_points d -> exists r, do_propose c srbf_rbf (Ok d) z p = Ok r) /\
  (forall o ev v, exists p', do_complete c srbf_rbf o ev v p = Ok p').
Proof using.
  intros [SE HL HS HW HE GE] d0 G0. split.
  - destruct (@alive _ _ srbf_search_ok SE HL HW HE HS GE d0 [] G0) as [p [E _]]; eauto.
  - intros ops p GO Hp U. split.
    + intros d z GD. exact (@propose_total_run _ _ srbf_search_ok SE HL HW HE HS d0 ops p G0 GO GE Hp U d z GD).
    + intros o ev v. exact (@complete_total _ srbf_rbf_search p o ev v).
Qed.

(** Without crashes and without killed or cancelled evaluations the process never dies, whatever the
    schedule, the draws and the (finite) values. *)
Theorem C61_srbf_run : user_setting -> forall d0 ops, good_points d0 -> Forall good_op ops -> Forall quiet_op ops ->
  exists p, y_proc (Strategy.run c srbf_rbf (Ok d0) srbf0 ops) = Some p.
Proof using.
  intros [SE HL HS HW HE GE] d0 ops G0 GO QO. destruct (@alive _ _ srbf_search_ok SE HL HW HE HS GE d0 ops G0 GO QO) as [p [E _]]. eauto.
Qed.

(** A serial controller evaluates exactly max_evals points and stops. *)
Theorem C61_srbf_serial : user_setting -> (0 <= c_max_evals c)%Z -> c_restarts c = true ->
  forall (f : pt -> val) (designs : nat -> list pt) (draws : nat -> (nat -> nat -> R)) d0,
  (forall x, finite_val (f x)) -> (forall i, good_points (designs i)) -> good_points d0 ->
  let m := Z.to_nat (c_max_evals c) in
  exists p h, y_proc (serial c srbf_rbf f (fun i => Ok (designs i)) draws (S m) (start c srbf_rbf (Ok d0) srbf0)) = Some p /\
    p_hist p = h ++ [EvTerminate] /\ length (completed h) = m /\ Forall (fun xv => snd xv = f (fst xv)) (completed h) /\ outstanding h = [].
Proof using.
  intros [SE HL HS HW HE GE] Hm Hr f designs draws d0 Hf Hd G0.
  exact (@serial_finishes _ _ srbf_search_ok SE HL HW HE HS f designs draws Hf Hd GE Hm Hr d0 G0).
Qed.

(** The predictions used are those of the strategy's own surrogate object, which is extended
    incrementally: after any run (with any predictions in between) it answers like a fresh object to
    which the data were added at once. *)
Theorem C61_srbf_object : user_setting -> forall d0 ops p, good_points d0 -> Forall good_op ops ->
  y_proc (Strategy.run c srbf_rbf (Ok d0) srbf0 ops) = Some p -> forall cs, object_history (p_hist p) cs ->
  forall x, answer dim (q_lb q) (q_ub q) CubicKernel (LinearTail dim) eta identity cs x = rbf_predict (sur (p_s p)) x.
Proof using.
  intros [SE HL HS HW HE GE] d0 ops p G0 GO Hp. exact (@object_answers _ _ srbf_search_ok SE HL HE HS d0 ops p G0 GO GE Hp).
Qed.

(** The constructor does not raise, and in every state of every run no call of propose_action and
    no completion raises, provided the process was not resumed from a checkpoint and no evaluation
    of a point of the current initial design was given up. *)
Theorem C61_dycors_no_call_raises : user_setting -> forall d0, good_points d0 ->
  (exists p, y_proc (Strategy.run c dycors_rbf (Ok d0) srbf0 []) = Some p) /\
  forall ops p, Forall good_op ops -> y_proc (Strategy.run c dycors_rbf (Ok d0) srbf0 ops) = Some p -> undisturbed d0 (p_hist p) ->
  (forall d z, good_points d -> exists r, do_propose c dycors_rbf (Ok d) z p = Ok r) /\
  (forall o ev v, exists p', do_complete c dycors_rbf o ev v p = Ok p').
Proof using.
  intros [SE HL HS HW HE GE] d0 G0. split.
  - destruct (@alive _ _ dycors_search_ok SE HL HW HE HS GE d0 [] G0) as [p [E _]]; eauto.
  - intros ops p GO Hp U. split.
    + intros d z GD. exact (@propose_total_run _ _ dycors_search_ok SE HL HW HE HS d0 ops p G0 GO GE Hp U d z GD).
    + intros o ev v. exact (@complete_total _ dycors_rbf_search p o ev v).
Qed.

(** Without crashes and without killed or cancelled evaluations the process never dies, whatever the
    schedule, the draws and the (finite) values. *)
Theorem C61_dycors_run : user_setting -> forall d0 ops, good_points d0 -> Forall good_op ops -> Forall quiet_op ops ->
  exists p, y_proc (Strategy.run c dycors_rbf (Ok d0) srbf0 ops) = Some p.
Proof using.
  intros [SE HL HS HW HE GE] d0 ops G0 GO QO. destruct (@alive _ _ dycors_search_ok SE HL HW HE HS GE d0 ops G0 GO QO) as [p [E _]]. eauto.
Qed.

(** A serial controller evaluates exactly max_evals points and stops. *)
Theorem C61_dycors_serial : user_setting -> (0 <= c_max_evals c)%Z -> c_restarts c = true ->
  forall (f : pt -> val) (designs : nat -> list pt) (draws : nat -> dydraws) d0,
  (forall x, finite_val (f x)) -> (forall i, good_points (designs i)) -> good_points d0 ->
  let m := Z.to_nat (c_max_evals c) in
  exists p h, y_proc (serial c dycors_rbf f (fun i => Ok (designs i)) draws (S m) (start c dycors_rbf (Ok d0) srbf0)) = Some p /\
    p_hist p = h ++ [EvTerminate] /\ length (completed h) = m /\ Forall (fun xv => snd xv = f (fst xv)) (completed h) /\ outstanding h = [].
Proof using.
  intros [SE HL HS HW HE GE] Hm Hr f designs draws d0 Hf Hd G0.
  exact (@serial_finishes _ _ dycors_search_ok SE HL HW HE HS f designs draws Hf Hd GE Hm Hr d0 G0).
Qed.

(** The predictions used are those of the strategy's own surrogate object, which is extended
    incrementally: after any run (with any predictions in between) it answers like a fresh object to
    which the data were added at once. *)
Theorem C61_dycors_object : user_setting -> forall d0 ops p, good_points d0 -> Forall good_op ops ->
  y_proc (Strategy.run c dycors_rbf (Ok d0) srbf0 ops) = Some p -> forall cs, object_history (p_hist p) cs ->
  forall x, answer dim (q_lb q) (q_ub q) CubicKernel (LinearTail dim) eta identity cs x = rbf_predict (sur (p_s p)) x.
Proof using.
  intros [SE HL HS HW HE GE] d0 ops p G0 GO Hp. exact (@object_answers _ _ dycors_search_ok SE HL HE HS d0 ops p G0 GO GE Hp).
Qed.

(** In any mode, after any history (resumes and lost evaluations included): no request raises if the
    points evaluated so far in the current run do not all lie on one hyperplane (or if no points have
    to be generated). *)
Theorem C61_srbf_enough_data : sett -> legal c -> weights <> [] -> 0 < eta -> good_extra_points ->
  forall d0 ops p, good_points d0 -> Forall good_op ops -> y_proc (Strategy.run c srbf_rbf (Ok d0) srbf0 ops) = Some p ->
  (batch_queue (p_s p) = [] -> c_async c = true \/ pending_evals (p_s p) = 0%Z -> in_general_position dim (X_ (p_s p))) ->
  forall d z, good_points d -> exists r, do_propose c srbf_rbf (Ok d) z p = Ok r.
Proof using.
  intros SE HL HW HE GE d0 ops p G0 GO Hp U d z GD.
  exact (@propose_total_if _ _ srbf_search_ok SE HL HW HE d0 ops p G0 GO GE Hp U d z GD).
Qed.

(** In any mode, after any history (resumes and lost evaluations included): no request raises if the
    points evaluated so far in the current run do not all lie on one hyperplane (or if no points have
    to be generated). *)
Theorem C61_dycors_enough_data : sett -> legal c -> weights <> [] -> 0 < eta -> good_extra_points ->
  forall d0 ops p, good_points d0 -> Forall good_op ops -> y_proc (Strategy.run c dycors_rbf (Ok d0) srbf0 ops) = Some p ->
  (batch_queue (p_s p) = [] -> c_async c = true \/ pending_evals (p_s p) = 0%Z -> in_general_position dim (X_ (p_s p))) ->
  forall d z, good_points d -> exists r, do_propose c dycors_rbf (Ok d) z p = Ok r.
Proof using.
  intros SE HL HW HE GE d0 ops p G0 GO Hp U d z GD.
  exact (@propose_total_if _ _ dycors_search_ok SE HL HW HE d0 ops p G0 GO GE Hp U d z GD).
Qed.
End Run.
