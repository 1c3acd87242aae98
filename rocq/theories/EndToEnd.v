(** * SRBFStrategy and DYCORSStrategy with the actual candidate search.

    The strategy model takes a candidate search as an oracle; here the oracle is
    [candidate_srbf] / [candidate_dycors] (Cand.v) applied to the strategy's attributes as in
    srbf_strategy.py:170-193 and dycors_strategy.py:87-117, so that the only free inputs are the
    random draws, the designs, the surrogate's predictions and the controller. *)
From Coq Require Import List Arith ZArith Lia Bool QArith Reals Lra Qreals.
From Verif Require Import Base PyList Strategy StrategySpec StrategyProofs StrategyInv StrategyInv2
  StrategyInv3 StrategyInv4 PropStrategy SRBF SRBFProofs SRBFInv PropSRBF Box PropBox Cand PropCand.
Import ListNotations.

Set Implicit Arguments.
Local Close Scope Q_scope.
Local Open Scope nat_scope.

(** ** Hooks with a transformed oracle *)
(** Helper with no counterpart in /repo: composition of oracles. *)
Definition hooks_with {P V Ext O O'} (g : O' -> O) (hk : hooks P V Ext O) : hooks P V Ext O' :=
  mkHooks (hk_sample_initial hk) (hk_initial_completed hk) (hk_adapt_completed hk)
    (fun e s n o => hk_generate hk e s n (g o)).
(** Helper with no counterpart in /repo: composition of oracles. *)
Definition op_with {P V O O'} (g : O' -> O) (a : op P V O') : op P V O :=
  match a with
  | Propose d o => Propose d (g o)
  | Accept i => Accept i
  | Reject i => Reject i
  | Update i st => Update i st
  | UserStop => UserStop
  | Crash => Crash
  | Resume => Resume
  end.

Lemma step_with : forall P V Ext O O' (g : O' -> O) c (hk : hooks P V Ext O) y a,
  step c (hooks_with g hk) y a = step c hk y (op_with g a).
Proof.
  intros. unfold step. destruct (y_proc y) as [p|]; [|destruct a; reflexivity].
  destruct a; reflexivity.
Qed.
Lemma run_with : forall P V Ext O O' (g : O' -> O) c (hk : hooks P V Ext O) d e0 ops,
  run c (hooks_with g hk) d e0 ops = run c hk d e0 (map (op_with g) ops).
Proof.
  intros. unfold run, run_from. change (start c (hooks_with g hk) d e0) with (start c hk d e0).
  generalize (start c hk d e0). induction ops as [|a ops IH]; intros y; [reflexivity|].
  cbn [fold_left map]. rewrite step_with. apply IH.
Qed.
Lemma reached_with : forall P V Ext O O' (g : O' -> O) c (hk : hooks P V Ext O) d e0 p,
  reached c (hooks_with g hk) d e0 p -> reached c hk d e0 p.
Proof. intros P V Ext O O' g c hk d e0 p [ops H]. exists (map (op_with g) ops). rewrite <- run_with. exact H. Qed.

Lemma micros_with : forall P V Ext O O' (g : O' -> O) c (hk : hooks P V Ext O) p p',
  micros c (hooks_with g hk) p p' -> micros c hk p p'.
Proof.
  intros P V Ext O O' g c hk p p' M. induction M as [p|p q r M IH N]; [apply ms_refl|]. eapply ms_step; [exact IH|]. clear -N.
  destruct N as [A B|A B|A B|A B C|n o e' l A B C D F G H|n o e' A B C D F G H|d rows A B C D F G|q0 x k A B C D|o A B|o A B|o ev v p' A B C|o ev A B| |].
  - apply mi_wait; assumption.
  - apply mi_term; assumption.
  - apply mi_none; assumption.
  - apply mi_phase; assumption.
  - apply (@mi_gen _ _ _ _ c hk q n (g o)); assumption.
  - apply (@mi_conv _ _ _ _ c hk q n (g o)); assumption.
  - exact (@mi_restart _ _ _ _ c hk q d rows A B C D F G).
  - apply mi_propose; assumption.
  - apply mi_accept; assumption.
  - apply mi_reject; assumption.
  - exact (@mi_complete _ _ _ _ c hk q o ev v p' A B C).
  - exact (@mi_abort _ _ _ _ c hk q o ev A B).
  - apply mi_stop.
  - apply mi_resume.
Qed.

(** ** Proposed points: only what was given or what generate_evals produced from feasible data *)
Section Feas.
Variables P V Ext Orc : Type.
Variable c : cfg P V.
Variable hk : hooks P V Ext Orc.
Variable design : res (list P).
Variable e0 : Ext.

Lemma outstanding_proposed : forall (h : list (event P V)) id x, In (id, x) (outstanding h) ->
  exists k, In (EvPropose id k x) h.
Proof.
  intros h. induction h as [|ev h IH] using rev_ind; intros id x H; [destruct H|].
  unfold outstanding in H. rewrite fold_left_app in H. fold (outstanding h) in H. simpl in H.
  assert (G : In (id, x) (outstanding h) -> exists k, In (EvPropose id k x) (h ++ [ev])).
  { intros K. destruct (IH _ _ K) as [k Hk]. exists k. apply in_or_app. auto. }
  destruct ev; simpl in H; auto.
  - apply in_app_or in H. destruct H as [H|[H|[]]]; [auto|]. injection H as -> ->. exists k. apply in_or_app. right. left. reflexivity.
  - apply filter_In in H. apply G, H.
  - apply filter_In in H. apply G, H.
  - apply filter_In in H. apply G, H.
  - destruct H.
Qed.

Lemma run_data_completed : forall (h : list (event P V)) d, In d (run_data h) -> In d (completed h).
Proof.
  intros h. induction h as [|ev h IH] using rev_ind; intros d H; [destruct H|].
  unfold run_data in H. rewrite fold_left_app in H. unfold completed. rewrite flat_map_app.
  apply in_or_app. unfold run_data in IH. destruct (fold_left (@run_step P V) h ([], [])) as [l d0]. simpl in H, IH.
  destruct ev; simpl in H; auto; try contradiction.
  destruct (existsb (fun i => i =? id) l); simpl in H; auto.
  apply in_app_or in H. destruct H as [H|[H|[]]]; auto. right. simpl. auto.
Qed.

Lemma subseq_In : forall A (l l' : list A) x, subseq l l' -> In x l -> In x l'.
Proof. intros A l l' x H. induction H; simpl; intros; tauto. Qed.

Lemma RunInv_micros : forall s e p, construct c hk design e0 = Ok (s, e) -> micros c hk (init_proc (s, e)) p -> RunInv c p.
Proof.
  intros s e p H1 M. assert (I0 : Inv c (init_proc (s, e))) by (eapply Inv_init; eassumption).
  apply (@micros_from _ _ _ _ c hk (RunInv c) _ I0); [| |exact M].
  - apply (@RunInv_reached _ _ _ _ c hk design e0). exists []. left. unfold run, run_from, start. rewrite H1. reflexivity.
  - intros q r Iq Rq N. eapply RunInv_micro; eassumption.
Qed.

Lemma X_proposed : forall s e p x, construct c hk design e0 = Ok (s, e) -> micros c hk (init_proc (s, e)) p ->
  In x (X_ (p_s p)) -> exists id k, In (EvPropose id k x) (p_hist p).
Proof.
  intros s e p x H1 M Hx. destruct (RunInv_micros H1 M) as [_ _ _ L S _].
  assert (K : exists v, In (x, v) (combine (X_ (p_s p)) (fX_ (p_s p)))).
  { clear -L Hx. revert L. generalize (fX_ (p_s p)). induction (X_ (p_s p)) as [|a l IH]; intros [|v l'] L; try discriminate; [destruct Hx|].
    destruct Hx as [->|Hx]; [exists v; left; reflexivity|]. destruct (IH Hx l') as [v' Hv]; [simpl in L; congruence|]. exists v'. right. exact Hv. }
  destruct K as [v K]. apply (@subseq_In _ _ _ _ S) in K. apply run_data_completed in K.
  unfold completed in K. apply in_flat_map in K. destruct K as [ev [E1 E2]].
  destruct ev; simpl in E2; try contradiction. destruct E2 as [E2|[]]. injection E2 as -> ->.
  apply in_split in E1. destruct E1 as [h1 [h2 E1]].
  destruct (@event_step _ _ _ _ c hk _ _ M eq_refl _ _ _ E1) as [q [r [M1 [M2 [M3 [Eq Er]]]]]].
  rewrite <- Eq in Er. pose proof (@micro_event _ _ _ _ c hk _ _ _ M2 Er) as [o [ev0 [O1 [O2 [_ [O3 _]]]]]].
  assert (Iq : Inv c q) by (eapply Inv_micros; [|exact M1]; eapply Inv_init; eassumption).
  assert (Ho : In (o_id o, o_x o) (outstanding (p_hist q))) by (rewrite (inv_out Iq); apply in_map_iff; exists o; auto).
  apply outstanding_proposed in Ho. destruct Ho as [k' Ho]. subst. exists (o_id o), k'. rewrite E1. apply in_or_app. auto.
Qed.

(** Like C13_feasible, but generate_evals need only preserve feasibility. *)
Lemma feasible_closed : forall (feas : P -> Prop) ops p,
  y_proc (run c hk design e0 ops) = Some p \/ y_disk (run c hk design e0 ops) = Some p ->
  (forall d, design = Ok d -> Forall feas d) ->
  (forall d o, In (Propose (Ok d) o) ops -> Forall feas d) ->
  Forall feas (unknown c) ->
  (forall s e q n o e' l, construct c hk design e0 = Ok (s, e) -> micros c hk (init_proc (s, e)) q ->
     Forall feas (X_ (p_s q)) -> hk_generate hk (p_e q) (p_s q) n o = Ok (e', Some l) -> Forall feas l) ->
  forall id k x, In (EvPropose id k x) (p_hist p) -> feas x.
Proof.
  intros feas ops p Hp Hd Ho Hu Hg.
  assert (H : reached c hk design e0 p) by (exists ops; exact Hp).
  pose proof H as HR. apply reached_micros in HR. destruct HR as [[s e] [Hc M]].
  assert (I0 : Inv c (init_proc (s, e))) by (eapply Inv_init; eassumption).
  assert (H0 : p_hist (init_proc (V:=V) (s, e)) = []) by reflexivity.
  assert (G : forall N h1 id k x h2, length h1 < N -> p_hist p = h1 ++ EvPropose id k x :: h2 -> feas x).
  2:{ intros id k x Hx. apply in_split in Hx. destruct Hx as [h1 [h2 E]]. eapply (G (S (length h1))); eauto. }
  intros N. induction N as [|N IH]; intros h1 id k x h2 HL E; [lia|].
  destruct (event_step M H0 _ _ _ E) as [q [r [M1 [M2 [M3 [Eq Er]]]]]].
  rewrite <- Eq in Er. pose proof (@micro_event _ _ _ _ c hk _ _ _ M2 Er) as [_ [_ [_ [q' Hq]]]].
  assert (PV : Prov (batch_queue s) q).
  { apply (@micros_from _ _ _ _ c hk (Prov (batch_queue s)) _ I0); [| |exact M1].
    - exact (Prov_init c hk design e0 Hc).
    - intros q1 r1 Iq Cq N1. eapply Prov_micro; eassumption. }
  destruct PV as [PV _].
  assert (Hin : In x (batch_queue s ++ queued_later (p_hist q))).
  { apply PV. rewrite Hq. apply in_or_app. right. left. reflexivity. }
  apply in_app_or in Hin. destruct Hin as [Hin|Hin].
  - destruct (@C08_initial_queue _ _ _ _ c hk design e0 _ _ Hc) as [d [-> [_ Hq0]]].
    simpl in Hq0. rewrite Hq0 in Hin. apply in_app_or in Hin. destruct Hin as [Hin|Hin].
    + specialize (Hd d eq_refl). rewrite Forall_forall in Hd. apply Hd.
      rewrite <- (firstn_skipn (c_num_pts c) d). apply in_or_app. auto.
    + rewrite Forall_forall in Hu. auto.
  - unfold queued_later in Hin. apply in_flat_map in Hin. destruct Hin as [ev [Hev Hx]].
    assert (Hev' : In ev (p_hist p)).
    { rewrite E, <- Eq. apply in_or_app. auto. }
    destruct ev; simpl in Hx; try contradiction.
    + destruct pts as [l|]; [|contradiction]. apply in_split in Hev. destruct Hev as [g1 [g2 E2]].
      destruct (event_step M1 H0 _ _ _ E2) as [q2 [r2 [N1 [N2 [_ [Eq2 Er2]]]]]].
      rewrite <- Eq2 in Er2. pose proof (@micro_event _ _ _ _ c hk _ _ _ N2 Er2) as [_ [_ [_ [_ [_ [o [e' G]]]]]]].
      apply (Hg s e q2 _ _ _ _ Hc N1) in G; [rewrite Forall_forall in G; auto|].
      apply Forall_forall. intros y Hy. destruct (@X_proposed s e q2 y Hc N1 Hy) as [id' [k' K]].
      apply in_split in K. destruct K as [a [b K]].
      apply (IH a id' k' y (b ++ EvGenerate n (Some l) :: g2 ++ EvPropose id k x :: h2)).
      * rewrite <- Eq2 in E2. apply (f_equal (@length _)) in K. apply (f_equal (@length _)) in E2.
        apply (f_equal (@length _)) in Eq. rewrite app_length in *. simpl in *. lia.
      * rewrite E, <- Eq, E2, <- Eq2, K. rewrite <- !app_assoc. reflexivity.
    + destruct (@restarts_from_run _ _ _ _ c hk design e0 ops p Hp _ _ Hev' Hx)
        as [[d [o [A B]]]|A].
      * specialize (Ho d o A). rewrite Forall_forall in Ho. apply Ho.
        rewrite <- (firstn_skipn (c_num_pts c) d). apply in_or_app. auto.
      * rewrite Forall_forall in Hu. auto.
Qed.
End Feas.

(** ** The searches applied to the strategy's attributes *)
Local Open Scope R_scope.

(** Helper with no counterpart in /repo: embedding of values. *)
Definition toxr (v : val) : xr := match v with Fin a => XFin (Q2R a) | PInf => XInf end.

(** A draw from a distribution on [a, b]: any real number, moved into [a, b].  Every element of
    [a, b] is such a draw. *)
(** scipy.stats.truncnorm: draws stay in [a, b] (pySOT/auxiliary_problems/candidate_srbf.py:111-113). *)
Definition clamp (a b z : R) : R := Rmax a (Rmin b z).

(** The center of the search: X[np.argmin(fX), :] for the arguments X=self._X, fX=self._fX. *)
Definition center {P} (s : base P val) : res P := x_best (X_ s) (map toxr (fX_ s)).

Section Full.
Variable q : prob.
Variable dim : nat.
Variable dist : pt -> pt -> R.
Variable predict : list (pt * val) -> pt -> R.   (* the surrogate fitted to these data *)
Variable dtol : R.
Variable num_cand : option nat.

(** scipy.stats.truncnorm: draws stay in [a, b] (pySOT/auxiliary_problems/candidate_srbf.py:111-113). *)
Definition in_range (xb : pt) (r : R) (z : nat -> nat -> R) : nat -> nat -> R := fun i k =>
  let sg := scale q r (all_coords q) i in clamp (tn_a q xb sg i) (tn_b q xb sg i) (z i k).

(** generate_evals of SRBFStrategy, srbf_strategy.py:170-193; the draws are [z]. *)
Definition srbf_search (z : nat -> nat -> R) : cand_search pt := fun s n ws r =>
  do xb <- center s;
  candidate_srbf dist (predict (sur s)) n q (X_ s) (map toxr (fX_ s)) (map Q2R ws) (Xpend s) (Q2R r)
    None dtol num_cand (in_range xb (Q2R r) z).

(** generate_evals of DYCORSStrategy, dycors_strategy.py:87-117; the draws are the selected
    coordinates [u] (which depend on prob_perturb), the forced coordinates [f] and [z]. *)
Record dydraws : Type := mkDy { dy_u : nat -> nat -> bool; dy_f : nat -> nat; dy_z : nat -> nat -> R }.
(** pySOT/strategy/dycors_strategy.py:84-104 calling candidate_dycors.py:8-94. *)
Definition dycors_search (o : dydraws) : cand_search pt := fun s n ws r =>
  do xb <- center s;
  candidate_dycors dist (predict (sur s)) n q (X_ s) (map toxr (fX_ s)) (map Q2R ws) (Xpend s) (Q2R r)
    None dtol num_cand None (dy_u o) (fun k => (dy_f o k mod (length (q_lb q) - 1))%nat)
    (in_range xb (Q2R r) (dy_z o)).

Variable c : cfg pt val.
Variable weights : list Q.

(** pySOT/strategy/srbf_strategy.py:13-221 with the concrete search. *)
Definition srbf_full : hooks pt val srbf (nat -> nat -> R) := hooks_with srbf_search (srbf_strategy c weights dim).
(** pySOT/strategy/dycors_strategy.py:12-107 with the concrete search. *)
Definition dycors_full : hooks pt val srbf dydraws := hooks_with dycors_search (srbf_strategy c weights dim).

(** What the user provides: a well-formed problem, dtol > 0 (the default is 1e-3 * |ub - lb|). *)
(** Specification, no counterpart in /repo. *)
Record setting : Prop := mkSetting {
  se_wf : well_formed q dim;
  se_dim : (1 <= dim)%nat;
  se_dtol : 0 < dtol;
  se_refl : forall x, dist x x = 0;
  se_nc : num_cand <> Some 0%nat
}.

Lemma clamp_in : forall a b z, a <= b -> a <= clamp a b z <= b.
Proof. intros a b z H. unfold clamp, Rmax, Rmin. repeat destruct Rle_dec; lra. Qed.

Lemma tn_order : well_formed q dim -> forall xb r i, feasible q dim xb -> 0 < r -> (i < dim)%nat ->
  let sg := scale q r (seq 0 dim) i in tn_a q xb sg i <= tn_b q xb sg i.
Proof.
  intros WF xb r i [[_ Fx] _] Hr Hi sg. assert (Hs : 0 < sg) by (apply (scale_pos WF); auto).
  destruct (Fx i Hi) as [F1 F2]. unfold tn_a, tn_b, Rdiv.
  apply Rmult_le_compat_r; [apply Rlt_le, Rinv_0_lt_compat; exact Hs|].
  change (nth i (q_lb q) 0 - nth i xb 0 <= nth i (q_ub q) 0 - nth i xb 0). lra.
Qed.

Lemma get_weights_length : forall n next ws nx, get_weights weights n next = Ok (ws, nx) -> length ws = n.
Proof.
  intros n. induction n as [|n IH]; intros next ws nx H; cbn [get_weights] in H; [injection H as <- _; reflexivity|].
  destruct (nth_error weights next) as [w|]; [|discriminate]. apply rbind_ok in H. destruct H as [[ws' nx'] [H1 H2]].
  injection H2 as <- _. simpl. f_equal. eapply IH; exact H1.
Qed.

Lemma toxr_nan : forall l u, In u (map toxr l) -> u <> XNan.
Proof. intros l u H. apply in_map_iff in H. destruct H as [v [<- _]]. destruct v; discriminate. Qed.

Lemma radius_pos : forall ft e, (ft <> 0)%nat -> EInv ft weights e -> 0 < Q2R (s_radius e).
Proof.
  intros ft e Hf E. pose proof (si_radius (ei_s E)) as R0. replace 0 with (Q2R 0) by (unfold Q2R; simpl; lra).
  apply Qlt_Rlt. rewrite R0. apply (Qmult_lt_0_compat r_max); [reflexivity|]. apply half_pow_pos; exact Hf.
Qed.

Lemma X_nonempty : forall (s : base pt val) xb, center s = Ok xb -> X_ s <> [].
Proof.
  intros s xb H. unfold center, x_best in H. apply rbind_ok in H. destruct H as [k [H1 H2]]. apply geti_ok in H2.
  intros K. rewrite K in H2. destruct k; discriminate.
Qed.

Section Gen.
Variable design : res (list pt).

Lemma full_input : setting -> forall s e p n ws nx xb, construct c (srbf_strategy c weights dim) design srbf0 = Ok (s, e) ->
  micros c (srbf_strategy c weights dim) (init_proc (s, e)) p -> legal c ->
  Forall (feasible q dim) (X_ (p_s p)) -> get_weights weights n (s_next (p_e p)) = Ok (ws, nx) -> center (p_s p) = Ok xb ->
  0 < Q2R (s_radius (p_e p)) /\ feasible q dim xb /\
  search_input dist q dim n (X_ (p_s p)) (map toxr (fX_ (p_s p))) (map Q2R ws) dtol num_cand.
Proof.
  intros [W D T0 RF NC] s e p n ws nx xb H1 M HL FX HW HC.
  assert (HL0 : length (X_ (p_s p)) = length (fX_ (p_s p))) by (destruct (@RunInv_micros _ _ _ _ _ _ _ _ _ _ _ H1 M); assumption).
  rewrite <- hk_eq in H1, M by assumption.
  assert (F0 : ft c dim <> 0%nat) by (apply ft_nz; assumption).
  assert (A : AllInv c (ft c dim) weights p) by (eapply AllInv_micros; [exact F0|apply ft_4; assumption|exact H1|exact M]).
  split; [eapply radius_pos; [exact F0|exact (a_e A)]|]. split.
  - unfold center, x_best in HC. apply rbind_ok in HC. destruct HC as [k [_ H2]]. apply geti_ok in H2.
    rewrite Forall_forall in FX. apply FX. eapply nth_error_In; eauto.
  - constructor; auto.
    + eapply X_nonempty; eauto.
    + rewrite map_length. congruence.
    + intros u. apply toxr_nan.
    + apply Forall_forall. exact FX.
    + rewrite map_length, (get_weights_length _ _ HW). lia.
Qed.
End Gen.

Lemma best_unique : forall A (X : list A) fX x y, best_of X fX x -> best_of X fX y -> x = y.
Proof.
  intros A X0 fX0 x y [k [v [A1 [A2 [A3 A4]]]]] [j [w [B1 [B2 [B3 B4]]]]].
  destruct (lt_eq_lt_dec k j) as [[L|L]|L].
  - pose proof (B4 _ _ L A2) as K. rewrite (A3 w) in K; [discriminate|]. eapply nth_error_In; eauto.
  - subst j. congruence.
  - pose proof (A4 _ _ L B2) as K. rewrite (B3 v) in K; [discriminate|]. eapply nth_error_In; eauto.
Qed.
Lemma center_unique : forall (s : base pt val) n ws xb y,
  search_input dist q dim n (X_ s) (map toxr (fX_ s)) ws dtol num_cand ->
  center s = Ok xb -> best_of (X_ s) (map toxr (fX_ s)) y -> y = xb.
Proof.
  intros s n ws xb y [H1 H2 H3 H4 H5 _ _ _ _ _] HC HB.
  destruct (@x_best_ok _ _ _ H3 H4 H5) as [xb' [E1 [E2 _]]]. unfold center in HC. rewrite E1 in HC. injection HC as <-.
  eapply best_unique; eauto.
Qed.

Lemma all_seq : length (q_lb q) = dim -> all_coords q = seq 0 dim.
Proof. intros H. unfold all_coords. rewrite H. reflexivity. Qed.

Lemma generate_unfold : forall e (s : base pt val) n (o : cand_search pt) e' l,
  hk_generate (srbf_strategy c weights dim) e s n o = Ok (e', Some l) ->
  exists ws nx pts, get_weights weights n (s_next e) = Ok (ws, nx) /\ o s n ws (s_radius e) = Ok pts /\ l = firstn n pts.
Proof.
  intros e s n o e' l H. cbn [hk_generate srbf_strategy srbf_hooks] in H. unfold srbf_generate in H.
  apply rbind_ok in H. destruct H as [[ws nx] [X1 G]]. apply rbind_ok in G. destruct G as [pts [X2 G]].
  apply rbind_ok in G. destruct G as [rws [X3 G]]. injection G as _ <-.
  apply take_rows_ok in X3. destruct X3 as [-> X3]. exists ws, nx, pts. auto.
Qed.

(** ** C13 for SRBFStrategy and DYCORSStrategy: whatever the draws, the schedule, the crashes and
    the surrogate's predictions, every point whose evaluation is proposed lies in the bounds and
    is integral in the integer variables, if the designs and the user's extra points are. *)
Theorem C13_srbf : forall design, setting -> legal c -> forall ops p,
  y_proc (run c srbf_full design srbf0 ops) = Some p ->
  (forall d, design = Ok d -> Forall (feasible q dim) d) ->
  (forall d z, In (Propose (Ok d) z) ops -> Forall (feasible q dim) d) ->
  Forall (feasible q dim) (unknown c) ->
  forall id k x, In (EvPropose id k x) (p_hist p) -> feasible q dim x.
Proof.
  intros design SE HL ops p Hp Hd Ho Hu.
  apply (@feasible_closed _ _ _ _ c srbf_full design srbf0 (feasible q dim) ops p (or_introl Hp) Hd Ho Hu).
  intros s e p0 n z e' l H1 M FX G.
  assert (M' : micros c (srbf_strategy c weights dim) (init_proc (s, e)) p0).
  { eapply micros_with. exact M. }
  change (construct c (srbf_strategy c weights dim) design srbf0 = Ok (s, e)) in H1.
  change (hk_generate (srbf_strategy c weights dim) (p_e p0) (p_s p0) n (srbf_search z) = Ok (e', Some l)) in G.
  destruct (generate_unfold _ _ _ _ G) as [ws [nx [pts [G1 [G2 ->]]]]].
  unfold srbf_search in G2. apply rbind_ok in G2. destruct G2 as [xb [G2 G3]].
  destruct (@full_input design SE s e p0 n ws nx xb H1 M' HL FX G1 G2) as [R0 [Fb SI]].
  destruct SE as [W D T0 RF NC].
  destruct (@C33_srbf dist (predict (sur (p_s p0))) q dim n (X_ (p_s p0)) (map toxr (fX_ (p_s p0))) (map Q2R ws) (Xpend (p_s p0))
    (Q2R (s_radius (p_e p0))) None dtol num_cand (in_range xb (Q2R (s_radius (p_e p0))) z) SI R0) as [xb' [B1 [B2 [pts' [B3 [B4 B5]]]]]].
  - intros i Hi. exact Hi.
  - intros xb' i r Hb Hi _. cbn [sub_list]. assert (Ex : xb' = xb) by (eapply center_unique; eassumption). subst xb'.
    unfold in_range. rewrite all_seq by apply W. apply clamp_in. apply tn_order; auto.
  - rewrite B3 in G3. injection G3 as <-. apply Forall_forall. intros y Hy. apply B5.
    rewrite <- (firstn_skipn n pts'). apply in_or_app. left. exact Hy.
Qed.

Theorem C13_dycors : forall design, setting -> legal c -> forall ops p,
  y_proc (run c dycors_full design srbf0 ops) = Some p ->
  (forall d, design = Ok d -> Forall (feasible q dim) d) ->
  (forall d z, In (Propose (Ok d) z) ops -> Forall (feasible q dim) d) ->
  Forall (feasible q dim) (unknown c) ->
  forall id k x, In (EvPropose id k x) (p_hist p) -> feasible q dim x.
Proof.
  intros design SE HL ops p Hp Hd Ho Hu.
  apply (@feasible_closed _ _ _ _ c dycors_full design srbf0 (feasible q dim) ops p (or_introl Hp) Hd Ho Hu).
  intros s e p0 n z e' l H1 M FX G.
  assert (M' : micros c (srbf_strategy c weights dim) (init_proc (s, e)) p0).
  { eapply micros_with. exact M. }
  change (construct c (srbf_strategy c weights dim) design srbf0 = Ok (s, e)) in H1.
  change (hk_generate (srbf_strategy c weights dim) (p_e p0) (p_s p0) n (dycors_search z) = Ok (e', Some l)) in G.
  destruct (generate_unfold _ _ _ _ G) as [ws [nx [pts [G1 [G2 ->]]]]].
  unfold dycors_search in G2. apply rbind_ok in G2. destruct G2 as [xb [G2 G3]].
  destruct (@full_input design SE s e p0 n ws nx xb H1 M' HL FX G1 G2) as [R0 [Fb SI]].
  destruct SE as [W D T0 RF NC]. assert (LD : length (q_lb q) = dim) by apply W.
  destruct (@C33_dycors_partial dist (predict (sur (p_s p0))) q dim n (X_ (p_s p0)) (map toxr (fX_ (p_s p0))) (map Q2R ws) (Xpend (p_s p0))
    (Q2R (s_radius (p_e p0))) None dtol num_cand None (dy_u z) (fun k => (dy_f z k mod (length (q_lb q) - 1))%nat)
    (in_range xb (Q2R (s_radius (p_e p0))) (dy_z z)) SI R0) as [xb' [_ [pts' [B3 [B4 B5]]]]].
  - exact I.
  - intros c0 K. discriminate.
  - intros r. cbn [sub_list]. rewrite seq_length, LD. destruct (Nat.eq_dec dim 1) as [E|E]; [right; exact E|left].
    apply Nat.mod_upper_bound. lia.
  - intros xb' i r Hb Hi _. cbn [sub_list]. assert (Ex : xb' = xb) by (eapply center_unique; eassumption). subst xb'.
    unfold in_range. rewrite all_seq by apply W. apply clamp_in. apply tn_order; auto.
  - rewrite B3 in G3. injection G3 as <-. apply Forall_forall. intros y Hy. apply B5.
    rewrite <- (firstn_skipn n pts'). apply in_or_app. left. exact Hy.
Qed.
End Full.

(** ** C57 *)

(** [x] is the point of a best evaluation in [data]. *)
(** Specification, no counterpart in /repo. *)
Definition best_evaluation {P} (data : list (P * val)) (x : P) : Prop :=
  exists v, In (x, v) data /\ forall y w, In (y, w) data -> vlt w v = false.

Lemma xlt_toxr : forall u v, xlt (toxr u) (toxr v) = vlt u v.
Proof.
  intros [a|] [b|]; simpl; try reflexivity. unfold Qlt_b. destruct (Rlt_dec (Q2R a) (Q2R b)) as [H|H].
  - apply Rlt_Qlt in H. destruct (Qle_bool b a) eqn:E; [|reflexivity]. apply Qle_bool_iff in E. exfalso. apply (Qlt_not_le _ _ H E).
  - destruct (Qle_bool b a) eqn:E; [reflexivity|]. exfalso. apply H, Qlt_Rlt. apply Qnot_le_lt. intros K. apply Qle_bool_iff in K. congruence.
Qed.

Lemma nth_combine : forall A B (l : list A) (l' : list B) k x y, nth_error l k = Some x -> nth_error l' k = Some y -> In (x, y) (combine l l').
Proof.
  intros A B l. induction l as [|a l IH]; intros [|b l'] [|k] x y H1 H2; simpl in *; try discriminate.
  - left. congruence.
  - right. eapply IH; eauto.
Qed.

(** In every state of every run (all subclasses): if the current run has data, the center is the
    best evaluation among the data the strategy keeps for the current run. *)
Lemma center_kept : forall P (s : base P val), length (X_ s) = length (fX_ s) -> X_ s <> [] ->
  exists xb, center s = Ok xb /\ best_evaluation (combine (X_ s) (fX_ s)) xb.
Proof.
  intros P s HL HN. destruct (@x_best_ok _ (X_ s) (map toxr (fX_ s)) HN) as [xb [E1 [E2 _]]].
  - rewrite map_length. auto.
  - intros u Hu. eapply toxr_nan; eauto.
  - exists xb. split; [exact E1|]. destruct E2 as [k [v [A1 [A2 [A3 _]]]]]. rewrite nth_error_map in A2.
    destruct (nth_error (fX_ s) k) as [w|] eqn:Ew; [|discriminate]. injection A2 as <-.
    exists w. split; [eapply nth_combine; eauto|]. intros y u Hy. rewrite <- xlt_toxr. apply A3.
    apply in_map. eapply in_combine_r; eauto.
Qed.

(** Synchronous SRBF/DYCORS: the center of the candidate search is the point of a best
    evaluation of the current run (the evaluations accepted since the last restart).
    Missing: extra points with known value, and asynchronous mode (refuted below). *)
Theorem C57_center_partial : forall P (c : cfg P val) weights dim design, c_async c = false -> legal c ->
  forall p, reached c (srbf_strategy c weights dim) design srbf0 p -> run_data (p_hist p) <> [] ->
  exists xb, center (p_s p) = Ok xb /\ best_evaluation (run_data (p_hist p)) xb.
Proof.
  intros P c weights dim design Ha HL p H HN.
  destruct (@C07_srbf_sync P c weights dim design HL Ha p H) as [E _].
  destruct (C06_restart_isolation H) as [L _]. rewrite <- E. apply center_kept; [exact L|].
  intros K. apply HN. rewrite <- E, K. reflexivity.
Qed.
