(** * Runs with transformed points: simulation used for C71.

    [h] changes every point (designs, extra points, proposals, records).  If what the subclass adds
    commutes with [h], so does every run: the same decisions are taken at the same times, whatever
    the controller does, and every proposal is the image of the original one. *)
From Coq Require Import List Arith ZArith Lia Bool Permutation.
From Verif Require Import Base Strategy StratMap.
Import ListNotations.
Local Open Scope Z_scope.

Set Implicit Arguments.

Section Map.
Variables P P' V Ext Ext' Orc Orc' : Type.
Variable h : P -> P'.
Variable gE : Ext -> Ext'.
Variable gO : Orc -> Orc'.

(** ** The same things with every point [x] replaced by [h x] *)
Definition pm_sur (l : list (P * V)) : list (P' * V) := map (fun xv => (h (fst xv), snd xv)) l.
Definition pm_frec (r : frec P V) : frec P' V := mkFrec (f_id r) (h (f_x r)) (f_val r).
Definition pm_out (o : outst P) : outst P' := mkOut (o_id o) (o_kind o) (h (o_x o)) (o_ev o).
Definition pm_base (s : base P V) : base P' V :=
  mkBase (num_evals s) (pending_evals s) (phase s) (terminate s) (converged s) (accepted_count s) (rejected_count s)
    (map h (batch_queue s)) (init_pending s) (map h (X s)) (fX s) (map h (Xpend s)) (map h (X_ s)) (fX_ s) (pm_sur (sur s))
    (map pm_frec (fevals s)) (ev_last s) (ev_next s).
Definition pm_event (e : event P V) : event P' V :=
  match e with
  | EvPropose id k x => EvPropose id k (h x)
  | EvTerminate => EvTerminate
  | EvNone => EvNone
  | EvGenerate n l => EvGenerate n (option_map (map h) l)
  | EvRestart l => EvRestart (map h l)
  | EvAccept id => EvAccept id
  | EvReject id k x => EvReject id k (h x)
  | EvComplete id k x v => EvComplete id k (h x) v
  | EvAbort id k x => EvAbort id k (h x)
  | EvStop => EvStop
  | EvResume => EvResume
  end.
Definition pm_proc (p : proc P V Ext) : proc P' V Ext' :=
  mkProc (pm_base (p_s p)) (gE (p_e p)) (map pm_out (p_out p)) (p_ctl p) (p_next p) (map pm_event (p_hist p)).
Definition pm_sys (y : sys P V Ext) : sys P' V Ext' := mkSys (option_map pm_proc (y_proc y)) (option_map pm_proc (y_disk y)).
Definition pm_op (a : op P V Orc) : op P' V Orc' :=
  match a with
  | Propose d o => Propose (rmap (map h) d) (gO o)
  | Accept id => Accept id
  | Reject id => Reject id
  | Update id st => Update id st
  | UserStop => UserStop
  | Crash => Crash
  | Resume => Resume
  end.

(** The same constructor arguments; the extra points are changed as well. *)
Definition pm_cfg (peqb' : P' -> P' -> bool) (c : cfg P V) : cfg P' V :=
  mkCfg (c_max_evals c) (c_async c) (c_batch c) (c_restarts c) (c_num_pts c) (option_map (map h) (c_extra c))
    (c_extra_vals c) (c_isnan c) peqb' (c_save_first c).

Variable c : cfg P V.
Variable peqb' : P' -> P' -> bool.
Hypothesis Heq : forall x y, peqb' (h x) (h y) = c_peqb c x y.
Let c' := pm_cfg peqb' c.
Variable hk : hooks P V Ext Orc.
Variable hk' : hooks P' V Ext' Orc'.

Hypothesis H_init : forall e, hk_sample_initial hk' (gE e) = gE (hk_sample_initial hk e).
Hypothesis H_ini : forall e s x v ev, hk_initial_completed hk' (gE e) (pm_base s) (h x) v ev = rmap gE (hk_initial_completed hk e s x v ev).
Hypothesis H_ada : forall e s x v ev, hk_adapt_completed hk' (gE e) (pm_base s) (h x) v ev =
  rmap (fun r => let '(e, n, b) := r in (gE e, n, b)) (hk_adapt_completed hk e s x v ev).

(** generate_evals commutes with [h] in the state [s] *)
Definition pm_commutes (e : Ext) (s : base P V) : Prop := forall n o,
  hk_generate hk' (gE e) (pm_base s) n (gO o) = rmap (fun r => (gE (fst r), option_map (map h) (snd r))) (hk_generate hk e s n o).

Lemma pm_take_rows : forall n l, take_rows n (map h l) = rmap (map h) (take_rows n l).
Proof using. induction n as [|n IH]; intros [|x l]; try reflexivity. cbn [map take_rows]. rewrite IH. destruct (take_rows n l); reflexivity. Qed.
Lemma pm_pop : forall l, py_pop (map h l) = option_map (fun r => (h (fst r), map h (snd r))) (py_pop l).
Proof using.
  induction l as [|x l IH]; [reflexivity|]. destruct l as [|y l]; [reflexivity|].
  change (py_pop (map h (x :: y :: l))) with (match py_pop (map h (y :: l)) with Some (y0, r) => Some (y0, h x :: r) | None => None end).
  rewrite IH. change (py_pop (x :: y :: l)) with (match py_pop (y :: l) with Some (y0, r) => Some (y0, x :: r) | None => None end).
  destruct (py_pop (y :: l)) as [[z r]|]; reflexivity.
Qed.
Lemma pm_nonempty : forall l, nonempty (map h l) = nonempty l.
Proof using. intros [|x l]; reflexivity. Qed.
Lemma pm_add_extra : forall pts vals s, add_extra c' (map h pts) vals (pm_base s) = rmap pm_base (add_extra c pts vals s).
Proof using.
  assert (Q : forall x s, set_batch_queue (batch_queue (pm_base s) ++ [h x]) (pm_base s) = pm_base (set_batch_queue (batch_queue s ++ [x]) s)).
  { intros x s. unfold set_batch_queue, pm_base. cbn. rewrite map_app. reflexivity. }
  induction pts as [|x pts IH]; intros vals s; [reflexivity|]. cbn [add_extra map].
  destruct vals as [[|v vals]|].
  - reflexivity.
  - unfold c' at 1. cbn [pm_cfg c_isnan]. destruct (c_isnan c v).
    + rewrite Q. apply IH.
    + rewrite <- IH. f_equal. unfold pm_base. cbn. unfold set_sur, set_fX, set_X, pm_sur. cbn. rewrite !map_app. reflexivity.
  - rewrite Q. apply IH.
Qed.
Lemma pm_sample_initial : forall d s, sample_initial c' (rmap (map h) d) (pm_base s) = rmap pm_base (sample_initial c d s).
Proof using.
  intros [d|e] s; [|reflexivity]. unfold sample_initial. cbn [rbind rmap]. change (c_num_pts c') with (c_num_pts c). rewrite pm_take_rows.
  destruct (take_rows (c_num_pts c) d) as [rows|e]; [|reflexivity]. cbn [rbind rmap].
  change (c_extra c') with (option_map (map h) (c_extra c)).
  set (s1 := set_batch_queue (batch_queue (set_sur [] s) ++ rows) (set_sur [] s)).
  assert (E : set_batch_queue (batch_queue (set_sur [] (pm_base s)) ++ map h rows) (set_sur [] (pm_base s)) = pm_base s1).
  { unfold s1, set_batch_queue, set_sur, pm_base. cbn. rewrite map_app. reflexivity. }
  rewrite E. destruct (c_extra c) as [pts|]; [|reflexivity]. cbn [option_map].
  change (X (pm_base s1)) with (map h (X s1)). rewrite map_length. destruct (length (X s1) =? 0)%nat; [|reflexivity].
  change (c_extra_vals c') with (c_extra_vals c). apply pm_add_extra.
Qed.
Definition pm_se (se : base P V * Ext) : base P' V * Ext' := (pm_base (fst se), gE (snd se)).
Lemma pm_sample_restart : forall d s e, sample_restart c' hk' (rmap (map h) d) (pm_base s, gE e) = rmap pm_se (sample_restart c hk d (s, e)).
Proof using H_init.
  intros d s e. unfold sample_restart.
  set (s1 := set_phase 1%nat (set_converged false (set_fX_ [] (set_X_ [] (bump s))))).
  change (set_phase 1%nat (set_converged false (set_fX_ [] (set_X_ [] (bump (pm_base s)))))) with (pm_base s1).
  rewrite pm_sample_initial. destruct (sample_initial c d s1) as [s2|x]; [|reflexivity]. cbn [rmap rbind]. rewrite H_init. reflexivity.
Qed.
Definition pm_outcome (o : outcome P) : outcome P' :=
  match o with OTerminate => OTerminate | ONone => ONone | OEval k x => OEval k (h x) end.
Lemma pm_init_proposal : forall s, init_proposal (pm_base s) = rmap (fun r => (pm_outcome (fst r), pm_base (snd r))) (init_proposal s).
Proof using.
  intros s. unfold init_proposal. change (batch_queue (pm_base s)) with (map h (batch_queue s)). rewrite pm_pop.
  destruct (py_pop (batch_queue s)) as [[x q]|]; [|reflexivity]. cbn [option_map fst snd rmap]. f_equal. f_equal.
  unfold pm_base. cbn. rewrite map_app. reflexivity.
Qed.
Lemma pm_adapt_proposal : forall s, adapt_proposal (pm_base s) = (pm_outcome (fst (adapt_proposal s)), pm_base (snd (adapt_proposal s))).
Proof using.
  intros s. unfold adapt_proposal. change (batch_queue (pm_base s)) with (map h (batch_queue s)). rewrite pm_pop.
  destruct (py_pop (batch_queue s)) as [[x q]|]; [|reflexivity]. cbn [option_map fst snd pm_outcome]. f_equal.
  unfold pm_base. cbn. rewrite map_app. reflexivity.
Qed.

Definition pm_res (r : outcome P * (base P V * Ext) * list (event P V)) : outcome P' * (base P' V * Ext') * list (event P' V) :=
  let '(out, se, evs) := r in (pm_outcome out, pm_se se, map pm_event evs).
Lemma pm_restart_branch : forall d s e, restart_branch c' hk' (rmap (map h) d) (pm_base s) (gE e) = rmap pm_res (restart_branch c hk d s e).
Proof using H_init.
  intros d s e. unfold restart_branch. change (c_async c') with (c_async c). change (pending_evals (pm_base s)) with (pending_evals s).
  destruct (c_async c || (pending_evals s =? 0)); [|reflexivity].
  rewrite pm_sample_restart. destruct (sample_restart c hk d (s, e)) as [[s1 e1]|x]; [|reflexivity]. cbn [rmap rbind pm_se fst snd].
  rewrite pm_init_proposal. destruct (init_proposal s1) as [[out s2]|x]; [|reflexivity]. cbn [rmap rbind pm_res pm_se fst snd map pm_event].
  change (batch_queue (pm_base s1)) with (map h (batch_queue s1)). change (batch_queue (pm_base s)) with (map h (batch_queue s)). rewrite map_length, skipn_map. reflexivity.
Qed.
Lemma pm_check_termination : forall s, check_termination c' (pm_base s) = pm_base (check_termination c s).
Proof using. intros s. unfold check_termination. change (c_max_evals c') with (c_max_evals c). change (num_evals (pm_base s)) with (num_evals s). change (pending_evals (pm_base s)) with (pending_evals s). destruct (c_max_evals c <=? num_evals s + pending_evals s); reflexivity. Qed.
Lemma pm_do_generate : forall n o s e, pm_commutes e s ->
  do_generate hk' n (gO o) (pm_base s) (gE e) = rmap (fun r => let '(s, e, evs) := r in (pm_base s, gE e, map pm_event evs)) (do_generate hk n o s e).
Proof using.
  intros n o s e H. unfold do_generate. rewrite H. destruct (hk_generate hk e s n o) as [[e1 [l|]]|x]; [|reflexivity|reflexivity]. cbn [rmap rbind fst snd option_map]. f_equal. f_equal. f_equal. unfold set_batch_queue, pm_base. cbn. rewrite ?map_app. reflexivity.
Qed.

Lemma pm_propose_action : forall d o s e, (will_generate c s -> pm_commutes e (at_generate c s)) ->
  propose_action c' hk' (rmap (map h) d) (gO o) (pm_base s) (gE e) = rmap pm_res (propose_action c hk d o s e).
Proof using H_init.
  intros d o s e H0. unfold propose_action. rewrite pm_check_termination.
  assert (H : terminate (check_termination c s) = false -> converged (check_termination c s) = false -> nonempty (batch_queue (check_termination c s)) = false ->
    c_async c = true \/ pending_evals (check_termination c s) = 0 -> pm_commutes e (at_generate c s)).
  { intros K1 K2 K3 K4. apply H0. unfold will_generate, check_termination in *. destruct (c_max_evals c <=? num_evals s + pending_evals s) eqn:EL; [discriminate|].
    apply Z.leb_gt in EL. split; [lia|]. split; [exact K1|]. split; [exact K2|]. split; [|exact K4]. destruct (batch_queue s); [reflexivity|discriminate]. }
  clear H0. unfold at_generate in H. set (s0 := check_termination c s) in *. clearbody s0.
  change (terminate (pm_base s0)) with (terminate s0). change (pending_evals (pm_base s0)) with (pending_evals s0).
  destruct (terminate s0) eqn:ET; [destruct (pending_evals s0 =? 0); reflexivity|].
  change (converged (pm_base s0)) with (converged s0). change (c_restarts c') with (c_restarts c).
  destruct (converged s0) eqn:EC; [destruct (c_restarts c); [apply pm_restart_branch|reflexivity]|].
  change (batch_queue (pm_base s0)) with (map h (batch_queue s0)). rewrite pm_nonempty. change (phase (pm_base s0)) with (phase s0).
  destruct (nonempty (batch_queue s0)) eqn:EQ.
  - destruct (phase s0 =? 1)%nat.
    + rewrite pm_init_proposal. destruct (init_proposal s0) as [[out s1]|x]; reflexivity.
    + rewrite pm_adapt_proposal. reflexivity.
  - change (set_phase 2%nat (pm_base s0)) with (pm_base (set_phase 2%nat s0)). change (pending_evals s0) with (pending_evals (set_phase 2%nat s0)) in H. set (s1 := set_phase 2%nat s0) in *. clearbody s1. specialize (H eq_refl eq_refl eq_refl).
    change (c_async c') with (c_async c). change (c_batch c') with (c_batch c). change (pending_evals (pm_base s1)) with (pending_evals s1).
    assert (G : (if c_async c then do_generate hk' 1 (gO o) (pm_base s1) (gE e)
                 else if pending_evals s1 =? 0 then do_generate hk' (c_batch c) (gO o) (pm_base s1) (gE e) else Ok (pm_base s1, gE e, [])) =
                rmap (fun r => let '(s, e, evs) := r in (pm_base s, gE e, map pm_event evs))
                (if c_async c then do_generate hk 1 o s1 e else if pending_evals s1 =? 0 then do_generate hk (c_batch c) o s1 e else Ok (s1, e, []))).
    { destruct (c_async c); [apply pm_do_generate, H; auto|]. destruct (Z.eqb_spec (pending_evals s1) 0); [apply pm_do_generate, H; auto|reflexivity]. }
    rewrite G. clear G. set (r := if c_async c then do_generate hk 1 o s1 e else _). destruct r as [[[s2 e2] evs]|x]; [|reflexivity]. cbn [rmap rbind].
    change (converged (pm_base s2)) with (converged s2). destruct (converged s2 && c_restarts c).
    + rewrite pm_restart_branch. destruct (restart_branch c hk d s2 e2) as [[[out se] evs']|x]; [|reflexivity]. cbn [rmap rbind pm_res]. rewrite map_app. reflexivity.
    + rewrite pm_adapt_proposal. reflexivity.
Qed.

Lemma pm_filter : forall x l, filter (fun y => negb (peqb' y (h x))) (map h l) = map h (filter (fun y => negb (c_peqb c y x)) l).
Proof using Heq. intros x l. induction l as [|y l IH]; [reflexivity|]. cbn [map filter]. rewrite Heq. destruct (negb (c_peqb c y x)); cbn [map]; rewrite IH; reflexivity. Qed.
Lemma pm_remove_pending : forall x s, remove_pending c' (h x) (pm_base s) = pm_base (remove_pending c x s).
Proof using Heq. intros x s. unfold remove_pending, set_Xpend, pm_base, c'. cbn. rewrite pm_filter. reflexivity. Qed.

Lemma pm_base_completed : forall id x v ev s, base_completed c' id (h x) v ev (pm_base s) = pm_base (base_completed c id x v ev s).
Proof using Heq.
  intros id x v ev s. unfold base_completed.
  set (s1 := set_num_evals (num_evals s + 1) s). change (set_num_evals (num_evals (pm_base s) + 1) (pm_base s)) with (pm_base s1).
  set (s2 := set_pending_evals (pending_evals s1 - 1) s1). change (set_pending_evals (pending_evals (pm_base s1) - 1) (pm_base s1)) with (pm_base s2).
  set (s3 := set_X (X s2 ++ [x]) s2). assert (E3 : set_X (X (pm_base s2) ++ [h x]) (pm_base s2) = pm_base s3).
  { unfold s3, set_X, pm_base. cbn. rewrite map_app. reflexivity. } rewrite E3.
  set (s4 := set_fX (fX s3 ++ [v]) s3). change (set_fX (fX (pm_base s3) ++ [v]) (pm_base s3)) with (pm_base s4).
  rewrite pm_remove_pending. set (s5 := remove_pending c x s4). clearbody s5. clear.
  change (ev_last (pm_base s5)) with (ev_last s5). destruct (ev_last s5 <? ev); unfold set_fevals, pm_base, set_sur, set_fX_, set_X_, pm_sur; cbn; rewrite !map_app; reflexivity.
Qed.
Lemma pm_iter_bump : forall n s, iter_bump n (pm_base s) = pm_base (iter_bump n s).
Proof using. induction n as [|n IH]; intros s; [reflexivity|]. cbn [iter_bump]. rewrite <- IH. reflexivity. Qed.
Lemma pm_del_out : forall id l, del_out id (map pm_out l) = map pm_out (del_out id l).
Proof using. intros id l. induction l as [|o l IH]; [reflexivity|]. cbn [map del_out filter pm_out o_id]. unfold del_out in IH. destruct (negb (o_id o =? id)%nat); cbn [map]; rewrite IH; reflexivity. Qed.
Lemma pm_get_out : forall id l, get_out id (map pm_out l) = option_map pm_out (get_out id l).
Proof using. intros id l. unfold get_out. induction l as [|o l IH]; [reflexivity|]. cbn [map find pm_out o_id]. destruct (o_id o =? id)%nat; [reflexivity|exact IH]. Qed.
Lemma pm_set_ev : forall id ev l, set_ev id ev (map pm_out l) = map pm_out (set_ev id ev l).
Proof using. intros id ev l. unfold set_ev. rewrite !map_map. apply map_ext. intros o. cbn [pm_out o_id o_kind o_x o_ev]. destruct (o_id o =? id)%nat; reflexivity. Qed.

Lemma pm_do_complete : forall o ev v p, do_complete c' hk' (pm_out o) ev v (pm_proc p) = rmap pm_proc (do_complete c hk o ev v p).
Proof using Heq H_ini H_ada.
  intros o ev v p. unfold do_complete. cbn [pm_proc p_s p_e p_out p_ctl p_next p_hist pm_out o_id o_kind o_x o_ev].
  assert (E : forall se : base P V * Ext, @mkProc P' V Ext' (fst (pm_se se)) (snd (pm_se se)) (del_out (o_id o) (map pm_out (p_out p))) (p_ctl p) (p_next p) (map pm_event (p_hist p) ++ [EvComplete (o_id o) (o_kind o) (h (o_x o)) v])
    = pm_proc (mkProc (fst se) (snd se) (del_out (o_id o) (p_out p)) (p_ctl p) (p_next p) (p_hist p ++ [EvComplete (o_id o) (o_kind o) (o_x o) v]))).
  { intros se. unfold pm_proc. cbn. rewrite map_app, pm_del_out. reflexivity. }
  destruct (o_kind o) eqn:EK.
  - unfold on_initial_completed. rewrite pm_base_completed, H_ini. destruct (hk_initial_completed hk _ _ _ _ _) as [e1|x]; [|reflexivity].
    cbn [rmap rbind]. f_equal. exact (E (_, e1)).
  - unfold on_adapt_completed. rewrite pm_base_completed, H_ada. destruct (hk_adapt_completed hk _ _ _ _ _) as [[[e1 n] b]|x]; [|reflexivity].
    cbn [rmap rbind]. f_equal. rewrite <- E. cbn [pm_se fst snd]. rewrite pm_iter_bump. destruct b; reflexivity.
Qed.
Lemma pm_do_abort : forall o p, do_abort c' (pm_out o) (pm_proc p) = pm_proc (do_abort c o p).
Proof using Heq.
  intros o p. unfold do_abort, pm_proc. cbn [p_s p_e p_out p_ctl p_next p_hist pm_out o_id o_kind o_x o_ev]. rewrite map_app, pm_del_out. cbn [map pm_event].
  destruct (o_kind o); f_equal; unfold on_initial_aborted, on_adapt_aborted, set_fevals, remove_pending, set_Xpend, pm_base, c'; cbn; rewrite ?pm_filter, !map_app; reflexivity.
Qed.
Lemma pm_do_reject : forall o p, do_reject c' (pm_out o) (pm_proc p) = pm_proc (do_reject c o p).
Proof using Heq.
  intros o p. unfold do_reject, pm_proc. cbn [p_s p_e p_out p_ctl p_next p_hist pm_out o_id o_kind o_x o_ev]. rewrite map_app, pm_del_out. cbn [map pm_event].
  destruct (o_kind o); f_equal.
  - unfold on_initial_rejected, remove_pending, set_Xpend, pm_base, c'. cbn.
    pose proof (map_app h (Xpend (p_s p)) [o_x o]) as E. cbn [map] in E. rewrite <- E, ?pm_filter, ?map_app. reflexivity.
  - unfold on_adapt_reject. change (c_async c') with (c_async c). destruct (c_async c); unfold remove_pending, set_Xpend, pm_base, c'; cbn; rewrite ?pm_filter, ?map_app; reflexivity.
Qed.
Lemma pm_do_accept : forall o p, do_accept (pm_out o) (pm_proc p) = pm_proc (do_accept o p).
Proof using. intros o p. unfold do_accept, pm_proc. cbn -[set_ev]. rewrite map_app, pm_set_ev. reflexivity. Qed.
Lemma pm_do_resume : forall p, do_resume (pm_proc p) = pm_proc (do_resume p).
Proof using.
  intros p. unfold do_resume, pm_proc. cbn [p_s p_e p_out p_ctl p_next p_hist]. rewrite map_app. cbn [map pm_event].
  f_equal.
  - unfold resume. change (phase (pm_base (p_s p))) with (phase (p_s p)). destruct (phase (p_s p) =? 1)%nat; unfold pm_base; cbn; rewrite ?map_app; reflexivity.
  - cbn. rewrite map_map. reflexivity.
Qed.
Lemma pm_finish : forall p r disk, finish c' (pm_proc p) (rmap pm_proc r) (option_map pm_proc disk) = pm_sys (finish c p r disk).
Proof using. intros p [p'|x] disk; unfold finish; cbn [rmap]; change (c_save_first c') with (c_save_first c); destruct (c_save_first c); reflexivity. Qed.

Lemma pm_do_propose : forall d o p, (will_generate c (p_s p) -> pm_commutes (p_e p) (at_generate c (p_s p))) ->
  do_propose c' hk' (rmap (map h) d) (gO o) (pm_proc p) = rmap (fun r => (pm_outcome (fst r), pm_proc (snd r))) (do_propose c hk d o p).
Proof using H_init.
  intros d o p H. unfold do_propose. cbn [pm_proc p_s p_e p_out p_ctl p_next p_hist]. rewrite pm_propose_action by exact H.
  destruct (propose_action c hk d o (p_s p) (p_e p)) as [[[out [s e]] evs]|x]; [|reflexivity]. cbn [rmap rbind pm_res pm_se fst snd].
  destruct out; unfold pm_proc; cbn; rewrite !map_app; reflexivity.
Qed.

(** What the simulation needs of the operation [a] in the state [y]. *)
Definition pm_fine (y : sys P V Ext) (a : op P V Orc) : Prop :=
  match y_proc y, a with Some p, Propose _ _ => will_generate c (p_s p) -> pm_commutes (p_e p) (at_generate c (p_s p)) | _, _ => True end.
Fixpoint pm_all_fine (y : sys P V Ext) (ops : list (op P V Orc)) : Prop :=
  match ops with [] => True | a :: ops' => pm_fine y a /\ pm_all_fine (step c hk y a) ops' end.

Lemma pm_step : forall y a, pm_fine y a -> step c' hk' (pm_sys y) (pm_op a) = pm_sys (step c hk y a).
Proof using Heq H_init H_ini H_ada.
  intros [[p|] disk] a H; unfold step; cbn [pm_sys y_proc y_disk option_map] in *.
  - destruct a as [d o|id|id|id st| | |]; cbn [pm_op].
    + cbn [pm_fine y_proc] in H. rewrite pm_do_propose by exact H. destruct (do_propose c hk d o p) as [[out p']|x]; [|reflexivity]. cbn [rmap fst snd]. destruct out; reflexivity.
    + cbn [pm_proc p_out]. rewrite pm_get_out. destruct (get_out id (p_out p)) as [o|]; [|reflexivity]. cbn [option_map]. change (o_ev (pm_out o)) with (o_ev o). destruct (o_ev o); [reflexivity|]. unfold pm_sys. cbn [y_proc y_disk option_map]. rewrite <- pm_do_accept. reflexivity.
    + cbn [pm_proc p_out]. rewrite pm_get_out. destruct (get_out id (p_out p)) as [o|]; [|reflexivity]. cbn [option_map]. change (o_ev (pm_out o)) with (o_ev o). destruct (o_ev o); [reflexivity|]. fold (pm_proc p). rewrite pm_do_reject. reflexivity.
    + cbn [pm_proc p_out]. rewrite pm_get_out. destruct (get_out id (p_out p)) as [o|]; [|reflexivity]. cbn [option_map]. change (o_ev (pm_out o)) with (o_ev o). fold (pm_proc p). destruct (o_ev o) as [ev|]; destruct st as [|v| |]; try reflexivity.
      * rewrite pm_do_complete. apply pm_finish.
      * rewrite pm_do_abort. exact (pm_finish p (Ok (do_abort c o p)) disk).
      * rewrite pm_do_abort. exact (pm_finish p (Ok (do_abort c o p)) disk).
    + unfold pm_sys, pm_proc. cbn. rewrite map_app. reflexivity.
    + reflexivity.
    + reflexivity.
  - destruct a; cbn [pm_op]; destruct disk as [p|]; cbn [option_map]; try reflexivity. rewrite pm_do_resume. reflexivity.
Qed.

Lemma pm_run_from : forall ops y, pm_all_fine y ops -> run_from c' hk' (pm_sys y) (map pm_op ops) = pm_sys (run_from c hk y ops).
Proof using Heq H_init H_ini H_ada.
  induction ops as [|a ops IH]; intros y H; [reflexivity|]. destruct H as [H1 H2]. unfold run_from. cbn [map fold_left].
  rewrite pm_step by exact H1. exact (IH _ H2).
Qed.
Lemma pm_start : forall d e0, start c' hk' (rmap (map h) d) (gE e0) = pm_sys (start c hk d e0).
Proof using H_init.
  intros d e0. unfold start, construct. change (@base0 P' V) with (pm_base (@base0 P V)). rewrite pm_sample_initial.
  destruct (sample_initial c d (@base0 P V)) as [s|x]; [|reflexivity]. cbn [rmap rbind]. rewrite H_init. reflexivity.
Qed.

Theorem pm_run : forall d e0 ops, pm_all_fine (start c hk d e0) ops ->
  run c' hk' (rmap (map h) d) (gE e0) (map pm_op ops) = pm_sys (run c hk d e0 ops).
Proof using Heq H_init H_ini H_ada. intros d e0 ops H. unfold run. rewrite pm_start. apply pm_run_from. exact H. Qed.

Lemma pm_all_fine_all : (forall e s, pm_commutes e s) -> forall ops y, pm_all_fine y ops.
Proof using.
  intros H. induction ops as [|a ops IH]; intros y; [exact I|]. split; [|apply IH]. unfold pm_fine. destruct (y_proc y); [|exact I]. destruct a; try exact I. intros _. apply H.
Qed.
Lemma pm_all_fine_run : forall ops y, (forall ops1 d o ops2 p, ops = ops1 ++ Propose d o :: ops2 -> y_proc (run_from c hk y ops1) = Some p -> will_generate c (p_s p) ->
    pm_commutes (p_e p) (at_generate c (p_s p))) -> pm_all_fine y ops.
Proof using.
  induction ops as [|a ops IH]; intros y H; [exact I|]. split.
  - unfold pm_fine. destruct (y_proc y) as [p|] eqn:EP; [|exact I]. destruct a as [d o| | | | | |]; try exact I. intros G. exact (H [] d o ops p eq_refl EP G).
  - apply IH. intros ops1 d o ops2 p E. exact (H (a :: ops1) d o ops2 p (f_equal (cons a) E)).
Qed.
End Map.
