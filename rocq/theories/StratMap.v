(** * Runs with transformed objective values: simulation used for C66.

    [g] changes every value the objective returns.  If what the subclass adds commutes with [g],
    so does every run: the same points are proposed in the same order, whatever the controller
    does. *)
From Coq Require Import List Arith ZArith Lia Bool Permutation.
From Verif Require Import Base Strategy.
Import ListNotations.
Local Open Scope Z_scope.

Set Implicit Arguments.

Definition rmap {A B} (f : A -> B) (r : res A) : res B := match r with Ok a => Ok (f a) | Err e => Err e end.

Section Map.
Variables P V V' Ext Ext' Orc Orc' : Type.
Variable g : V -> V'.
Variable gE : Ext -> Ext'.
Variable gO : Orc -> Orc'.

(** ** The same things with every value [v] replaced by [g v] *)
Definition map_sur (l : list (P * V)) : list (P * V') := map (fun xv => (fst xv, g (snd xv))) l.
Definition map_frec (r : frec P V) : frec P V' := mkFrec (f_id r) (f_x r) (option_map g (f_val r)).
Definition map_base (s : base P V) : base P V' :=
  mkBase (num_evals s) (pending_evals s) (phase s) (terminate s) (converged s) (accepted_count s) (rejected_count s)
    (batch_queue s) (init_pending s) (X s) (map g (fX s)) (Xpend s) (X_ s) (map g (fX_ s)) (map_sur (sur s))
    (map map_frec (fevals s)) (ev_last s) (ev_next s).
Definition map_event (e : event P V) : event P V' :=
  match e with
  | EvPropose id k x => EvPropose id k x
  | EvTerminate => EvTerminate
  | EvNone => EvNone
  | EvGenerate n l => EvGenerate n l
  | EvRestart l => EvRestart l
  | EvAccept id => EvAccept id
  | EvReject id k x => EvReject id k x
  | EvComplete id k x v => EvComplete id k x (g v)
  | EvAbort id k x => EvAbort id k x
  | EvStop => EvStop
  | EvResume => EvResume
  end.
Definition map_proc (p : proc P V Ext) : proc P V' Ext' :=
  mkProc (map_base (p_s p)) (gE (p_e p)) (p_out p) (p_ctl p) (p_next p) (map map_event (p_hist p)).
Definition map_sys (y : sys P V Ext) : sys P V' Ext' := mkSys (option_map map_proc (y_proc y)) (option_map map_proc (y_disk y)).
Definition map_status (st : status V) : status V' :=
  match st with SOther => SOther | SCompleted v => SCompleted (g v) | SKilled => SKilled | SCancelled => SCancelled end.
Definition map_op (a : op P V Orc) : op P V' Orc' :=
  match a with
  | Propose d o => Propose d (gO o)
  | Accept id => Accept id
  | Reject id => Reject id
  | Update id st => Update id (map_status st)
  | UserStop => UserStop
  | Crash => Crash
  | Resume => Resume
  end.

(** The same constructor arguments; the known values of the extra points are changed as well. *)
Definition map_cfg (isnan' : V' -> bool) (c : cfg P V) : cfg P V' :=
  mkCfg (c_max_evals c) (c_async c) (c_batch c) (c_restarts c) (c_num_pts c) (c_extra c)
    (option_map (map g) (c_extra_vals c)) isnan' (c_peqb c) (c_save_first c).

Variable c : cfg P V.
Variable isnan' : V' -> bool.
Hypothesis Hnan : forall v, isnan' (g v) = c_isnan c v.
Let c' := map_cfg isnan' c.
Variable hk : hooks P V Ext Orc.
Variable hk' : hooks P V' Ext' Orc'.

Hypothesis H_init : forall e, hk_sample_initial hk' (gE e) = gE (hk_sample_initial hk e).
Hypothesis H_ini : forall e s x v ev, hk_initial_completed hk' (gE e) (map_base s) x (g v) ev = rmap gE (hk_initial_completed hk e s x v ev).
Hypothesis H_ada : forall e s x v ev, hk_adapt_completed hk' (gE e) (map_base s) x (g v) ev =
  rmap (fun r => let '(e, n, b) := r in (gE e, n, b)) (hk_adapt_completed hk e s x v ev).

(** generate_evals commutes with [g] in the state [s] *)
Definition gen_commutes (e : Ext) (s : base P V) : Prop := forall n o,
  hk_generate hk' (gE e) (map_base s) n (gO o) = rmap (fun r => (gE (fst r), snd r)) (hk_generate hk e s n o).

Lemma map_add_extra : forall pts vals s, add_extra c' pts (option_map (map g) vals) (map_base s) = rmap map_base (add_extra c pts vals s).
Proof using Hnan.
  induction pts as [|x pts IH]; intros vals s; [reflexivity|]. cbn [add_extra].
  destruct vals as [[|v vals]|]; cbn [option_map map].
  - reflexivity.
  - unfold c' at 1. cbn [map_cfg c_isnan]. rewrite Hnan. destruct (c_isnan c v).
    + exact (IH (Some vals) (set_batch_queue (batch_queue s ++ [x]) s)).
    + rewrite <- (IH (Some vals)). cbn [option_map]. f_equal. unfold map_base. cbn. unfold set_sur, set_fX, set_X, map_sur. cbn. rewrite !map_app. reflexivity.
  - exact (IH None (set_batch_queue (batch_queue s ++ [x]) s)).
Qed.
Lemma map_sample_initial : forall d s, sample_initial c' d (map_base s) = rmap map_base (sample_initial c d s).
Proof using Hnan.
  intros [d|e] s; [|reflexivity]. unfold sample_initial. cbn [rbind]. change (c_num_pts c') with (c_num_pts c).
  destruct (take_rows (c_num_pts c) d) as [rows|e]; [|reflexivity]. cbn [rbind].
  change (c_extra c') with (c_extra c). destruct (c_extra c) as [pts|]; [|reflexivity].
  set (s1 := set_batch_queue (batch_queue (set_sur [] s) ++ rows) (set_sur [] s)).
  change (set_batch_queue (batch_queue (set_sur [] (map_base s)) ++ rows) (set_sur [] (map_base s))) with (map_base s1).
  change (X (map_base s1)) with (X s1). destruct (length (X s1) =? 0)%nat; [|reflexivity].
  change (c_extra_vals c') with (option_map (map g) (c_extra_vals c)). apply map_add_extra.
Qed.
Definition map_se (se : base P V * Ext) : base P V' * Ext' := (map_base (fst se), gE (snd se)).
Lemma map_sample_restart : forall d s e, sample_restart c' hk' d (map_base s, gE e) = rmap map_se (sample_restart c hk d (s, e)).
Proof using Hnan H_init.
  intros d s e. unfold sample_restart.
  set (s1 := set_phase 1%nat (set_converged false (set_fX_ [] (set_X_ [] (bump s))))).
  change (set_phase 1%nat (set_converged false (set_fX_ [] (set_X_ [] (bump (map_base s)))))) with (map_base s1).
  rewrite map_sample_initial. destruct (sample_initial c d s1) as [s2|x]; [|reflexivity]. cbn [rmap rbind]. rewrite H_init. reflexivity.
Qed.
Lemma map_init_proposal : forall s, init_proposal (map_base s) = rmap (fun r => (fst r, map_base (snd r))) (init_proposal s).
Proof using. intros s. unfold init_proposal. change (batch_queue (map_base s)) with (batch_queue s). destruct (py_pop (batch_queue s)) as [[x q]|]; reflexivity. Qed.
Lemma map_adapt_proposal : forall s, adapt_proposal (map_base s) = (fst (adapt_proposal s), map_base (snd (adapt_proposal s))).
Proof using. intros s. unfold adapt_proposal. change (batch_queue (map_base s)) with (batch_queue s). destruct (py_pop (batch_queue s)) as [[x q]|]; reflexivity. Qed.

Definition map_res (r : outcome P * (base P V * Ext) * list (event P V)) : outcome P * (base P V' * Ext') * list (event P V') :=
  let '(out, se, evs) := r in (out, map_se se, map map_event evs).
Lemma map_restart_branch : forall d s e, restart_branch c' hk' d (map_base s) (gE e) = rmap map_res (restart_branch c hk d s e).
Proof using Hnan H_init.
  intros d s e. unfold restart_branch. change (c_async c') with (c_async c). change (pending_evals (map_base s)) with (pending_evals s).
  destruct (c_async c || (pending_evals s =? 0)); [|reflexivity].
  rewrite map_sample_restart. destruct (sample_restart c hk d (s, e)) as [[s1 e1]|x]; [|reflexivity]. cbn [rmap rbind map_se fst snd].
  rewrite map_init_proposal. destruct (init_proposal s1) as [[out s2]|x]; reflexivity.
Qed.
Lemma map_check_termination : forall s, check_termination c' (map_base s) = map_base (check_termination c s).
Proof using. intros s. unfold check_termination. change (c_max_evals c') with (c_max_evals c). change (num_evals (map_base s)) with (num_evals s). change (pending_evals (map_base s)) with (pending_evals s). destruct (c_max_evals c <=? num_evals s + pending_evals s); reflexivity. Qed.
Lemma map_do_generate : forall n o s e, gen_commutes e s ->
  do_generate hk' n (gO o) (map_base s) (gE e) = rmap (fun r => let '(s, e, evs) := r in (map_base s, gE e, map map_event evs)) (do_generate hk n o s e).
Proof using.
  intros n o s e H. unfold do_generate. rewrite H. destruct (hk_generate hk e s n o) as [[e1 [l|]]|x]; reflexivity.
Qed.

(** The state in which propose_action calls generate_evals. *)
Definition at_generate (s : base P V) : base P V := set_phase 2%nat (check_termination c s).
(** propose_action calls generate_evals: the budget is not used up, the run has not converged, the
    queue is empty and, in synchronous mode, nothing is outstanding. *)
Definition will_generate (s : base P V) : Prop :=
  num_evals s + pending_evals s < c_max_evals c /\ terminate s = false /\ converged s = false /\ batch_queue s = [] /\
  (c_async c = true \/ pending_evals s = 0).

Lemma map_propose_action : forall d o s e, (will_generate s -> gen_commutes e (at_generate s)) ->
  propose_action c' hk' d (gO o) (map_base s) (gE e) = rmap map_res (propose_action c hk d o s e).
Proof using Hnan H_init.
  intros d o s e H0. unfold propose_action. rewrite map_check_termination.
  assert (H : terminate (check_termination c s) = false -> converged (check_termination c s) = false -> nonempty (batch_queue (check_termination c s)) = false ->
    c_async c = true \/ pending_evals (check_termination c s) = 0 -> gen_commutes e (at_generate s)).
  { intros K1 K2 K3 K4. apply H0. unfold will_generate, check_termination in *. destruct (c_max_evals c <=? num_evals s + pending_evals s) eqn:EL; [discriminate|].
    apply Z.leb_gt in EL. split; [lia|]. split; [exact K1|]. split; [exact K2|]. split; [|exact K4]. destruct (batch_queue s); [reflexivity|discriminate]. }
  clear H0. unfold at_generate in H. set (s0 := check_termination c s) in *. clearbody s0.
  change (terminate (map_base s0)) with (terminate s0). change (pending_evals (map_base s0)) with (pending_evals s0).
  destruct (terminate s0) eqn:ET; [destruct (pending_evals s0 =? 0); reflexivity|].
  change (converged (map_base s0)) with (converged s0). change (c_restarts c') with (c_restarts c).
  destruct (converged s0) eqn:EC; [destruct (c_restarts c); [apply map_restart_branch|reflexivity]|].
  change (batch_queue (map_base s0)) with (batch_queue s0). change (phase (map_base s0)) with (phase s0).
  destruct (nonempty (batch_queue s0)) eqn:EQ.
  - destruct (phase s0 =? 1)%nat.
    + rewrite map_init_proposal. destruct (init_proposal s0) as [[out s1]|x]; reflexivity.
    + rewrite map_adapt_proposal. reflexivity.
  - change (set_phase 2%nat (map_base s0)) with (map_base (set_phase 2%nat s0)). change (pending_evals s0) with (pending_evals (set_phase 2%nat s0)) in H. set (s1 := set_phase 2%nat s0) in *. clearbody s1. specialize (H eq_refl eq_refl eq_refl).
    change (c_async c') with (c_async c). change (c_batch c') with (c_batch c). change (pending_evals (map_base s1)) with (pending_evals s1).
    assert (G : (if c_async c then do_generate hk' 1 (gO o) (map_base s1) (gE e)
                 else if pending_evals s1 =? 0 then do_generate hk' (c_batch c) (gO o) (map_base s1) (gE e) else Ok (map_base s1, gE e, [])) =
                rmap (fun r => let '(s, e, evs) := r in (map_base s, gE e, map map_event evs))
                (if c_async c then do_generate hk 1 o s1 e else if pending_evals s1 =? 0 then do_generate hk (c_batch c) o s1 e else Ok (s1, e, []))).
    { destruct (c_async c); [apply map_do_generate, H; auto|]. destruct (Z.eqb_spec (pending_evals s1) 0); [apply map_do_generate, H; auto|reflexivity]. }
    rewrite G. clear G. set (r := if c_async c then do_generate hk 1 o s1 e else _). destruct r as [[[s2 e2] evs]|x]; [|reflexivity]. cbn [rmap rbind].
    change (converged (map_base s2)) with (converged s2). destruct (converged s2 && c_restarts c).
    + rewrite map_restart_branch. destruct (restart_branch c hk d s2 e2) as [[[out se] evs']|x]; [|reflexivity]. cbn [rmap rbind map_res]. rewrite map_app. reflexivity.
    + rewrite map_adapt_proposal. reflexivity.
Qed.

Lemma map_base_completed : forall id x v ev s, base_completed c' id x (g v) ev (map_base s) = map_base (base_completed c id x v ev s).
Proof using.
  intros id x v ev s. unfold base_completed.
  set (s1 := set_num_evals (num_evals s + 1) s). change (set_num_evals (num_evals (map_base s) + 1) (map_base s)) with (map_base s1).
  set (s2 := set_pending_evals (pending_evals s1 - 1) s1). change (set_pending_evals (pending_evals (map_base s1) - 1) (map_base s1)) with (map_base s2).
  set (s3 := set_X (X s2 ++ [x]) s2). change (set_X (X (map_base s2) ++ [x]) (map_base s2)) with (map_base s3).
  set (s4 := set_fX (fX s3 ++ [v]) s3). assert (E4 : set_fX (fX (map_base s3) ++ [g v]) (map_base s3) = map_base s4).
  { unfold s4, set_fX, map_base. cbn. rewrite map_app. reflexivity. } rewrite E4.
  set (s5 := remove_pending c x s4). change (remove_pending c' x (map_base s4)) with (map_base s5). clearbody s5. clear.
  change (ev_last (map_base s5)) with (ev_last s5). destruct (ev_last s5 <? ev); unfold set_fevals, map_base, set_sur, set_fX_, set_X_, map_sur; cbn; rewrite !map_app; reflexivity.
Qed.
Lemma map_iter_bump : forall n s, iter_bump n (map_base s) = map_base (iter_bump n s).
Proof using. induction n as [|n IH]; intros s; [reflexivity|]. cbn [iter_bump]. rewrite <- IH. reflexivity. Qed.

Lemma map_do_complete : forall o ev v p, do_complete c' hk' o ev (g v) (map_proc p) = rmap map_proc (do_complete c hk o ev v p).
Proof using H_ini H_ada.
  intros o ev v p. unfold do_complete. cbn [map_proc p_s p_e p_out p_ctl p_next p_hist].
  assert (E : forall se : base P V * Ext, @mkProc P V' Ext' (fst (map_se se)) (snd (map_se se)) (del_out (o_id o) (p_out p)) (p_ctl p) (p_next p) (map map_event (p_hist p) ++ [EvComplete (o_id o) (o_kind o) (o_x o) (g v)])
    = map_proc (mkProc (fst se) (snd se) (del_out (o_id o) (p_out p)) (p_ctl p) (p_next p) (p_hist p ++ [EvComplete (o_id o) (o_kind o) (o_x o) v]))).
  { intros se. unfold map_proc. cbn. rewrite map_app. reflexivity. }
  destruct (o_kind o) eqn:EK.
  - unfold on_initial_completed. rewrite map_base_completed, H_ini. destruct (hk_initial_completed hk _ _ _ _ _) as [e1|x]; [|reflexivity].
    cbn [rmap rbind]. f_equal. exact (E (_, e1)).
  - unfold on_adapt_completed. rewrite map_base_completed, H_ada. destruct (hk_adapt_completed hk _ _ _ _ _) as [[[e1 n] b]|x]; [|reflexivity].
    cbn [rmap rbind]. f_equal. rewrite <- E. cbn [map_se fst snd]. rewrite map_iter_bump. destruct b; reflexivity.
Qed.
Lemma map_do_abort : forall o p, do_abort c' o (map_proc p) = map_proc (do_abort c o p).
Proof using.
  intros o p. unfold do_abort, map_proc. cbn [p_s p_e p_out p_ctl p_next p_hist]. rewrite map_app. cbn [map map_event].
  destruct (o_kind o); f_equal; unfold on_initial_aborted, on_adapt_aborted, set_fevals, map_base; cbn; rewrite map_app; reflexivity.
Qed.
Lemma map_do_reject : forall o p, do_reject c' o (map_proc p) = map_proc (do_reject c o p).
Proof using.
  intros o p. unfold do_reject, map_proc. cbn [p_s p_e p_out p_ctl p_next p_hist]. rewrite map_app. cbn [map map_event].
  destruct (o_kind o); f_equal. unfold on_adapt_reject. change (c_async c') with (c_async c). destruct (c_async c); reflexivity.
Qed.
Lemma map_do_accept : forall o p, do_accept o (map_proc p) = map_proc (do_accept o p).
Proof using. intros o p. unfold do_accept, map_proc. cbn. rewrite map_app. reflexivity. Qed.
Lemma map_do_resume : forall p, do_resume (map_proc p) = map_proc (do_resume p).
Proof using.
  intros p. unfold do_resume, map_proc. cbn [p_s p_e p_out p_ctl p_next p_hist]. rewrite map_app. cbn [map map_event].
  f_equal.
  - unfold resume. change (phase (map_base (p_s p))) with (phase (p_s p)). destruct (phase (p_s p) =? 1)%nat; reflexivity.
  - cbn. rewrite map_map. reflexivity.
Qed.
Lemma map_finish : forall p r disk, finish c' (map_proc p) (rmap map_proc r) (option_map map_proc disk) = map_sys (finish c p r disk).
Proof using. intros p [p'|x] disk; unfold finish; cbn [rmap]; change (c_save_first c') with (c_save_first c); destruct (c_save_first c); reflexivity. Qed.

Lemma map_do_propose : forall d o p, (will_generate (p_s p) -> gen_commutes (p_e p) (at_generate (p_s p))) ->
  do_propose c' hk' d (gO o) (map_proc p) = rmap (fun r => (fst r, map_proc (snd r))) (do_propose c hk d o p).
Proof using Hnan H_init.
  intros d o p H. unfold do_propose. cbn [map_proc p_s p_e p_out p_ctl p_next p_hist]. rewrite map_propose_action by exact H.
  destruct (propose_action c hk d o (p_s p) (p_e p)) as [[[out [s e]] evs]|x]; [|reflexivity]. cbn [rmap rbind map_res map_se fst snd].
  destruct out; unfold map_proc; cbn; rewrite !map_app; reflexivity.
Qed.

(** What the simulation needs of the operation [a] in the state [y]. *)
Definition fine (y : sys P V Ext) (a : op P V Orc) : Prop :=
  match y_proc y, a with Some p, Propose _ _ => will_generate (p_s p) -> gen_commutes (p_e p) (at_generate (p_s p)) | _, _ => True end.
Fixpoint all_fine (y : sys P V Ext) (ops : list (op P V Orc)) : Prop :=
  match ops with [] => True | a :: ops' => fine y a /\ all_fine (step c hk y a) ops' end.

Lemma map_step : forall y a, fine y a -> step c' hk' (map_sys y) (map_op a) = map_sys (step c hk y a).
Proof using Hnan H_init H_ini H_ada.
  intros [[p|] disk] a H; unfold step; cbn [map_sys y_proc y_disk option_map] in *.
  - destruct a as [d o|id|id|id st| | |]; cbn [map_op].
    + cbn [fine y_proc] in H. rewrite map_do_propose by exact H. destruct (do_propose c hk d o p) as [[out p']|x]; [|reflexivity]. cbn [rmap fst snd]. destruct out; reflexivity.
    + cbn [map_proc p_out]. destruct (get_out id (p_out p)) as [o|]; [|reflexivity]. destruct (o_ev o); [reflexivity|]. unfold map_sys. cbn [y_proc y_disk option_map]. rewrite <- map_do_accept. reflexivity.
    + cbn [map_proc p_out]. destruct (get_out id (p_out p)) as [o|]; [|reflexivity]. destruct (o_ev o); [reflexivity|]. fold (map_proc p). rewrite map_do_reject. reflexivity.
    + cbn [map_proc p_out]. destruct (get_out id (p_out p)) as [o|]; [|reflexivity]. fold (map_proc p). destruct (o_ev o) as [ev|]; destruct st as [|v| |]; cbn [map_status]; try reflexivity.
      * rewrite map_do_complete. apply map_finish.
      * rewrite map_do_abort. exact (map_finish p (Ok (do_abort c o p)) disk).
      * rewrite map_do_abort. exact (map_finish p (Ok (do_abort c o p)) disk).
    + unfold map_sys, map_proc. cbn. rewrite map_app. reflexivity.
    + reflexivity.
    + reflexivity.
  - destruct a; cbn [map_op]; destruct disk as [p|]; cbn [option_map]; try reflexivity. rewrite map_do_resume. reflexivity.
Qed.

Lemma map_run_from : forall ops y, all_fine y ops -> run_from c' hk' (map_sys y) (map map_op ops) = map_sys (run_from c hk y ops).
Proof using Hnan H_init H_ini H_ada.
  induction ops as [|a ops IH]; intros y H; [reflexivity|]. destruct H as [H1 H2]. unfold run_from. cbn [map fold_left].
  rewrite map_step by exact H1. exact (IH _ H2).
Qed.
Lemma map_start : forall d e0, start c' hk' d (gE e0) = map_sys (start c hk d e0).
Proof using Hnan H_init.
  intros d e0. unfold start, construct. change (@base0 P V') with (map_base (@base0 P V)). rewrite map_sample_initial.
  destruct (sample_initial c d (@base0 P V)) as [s|x]; [|reflexivity]. cbn [rmap rbind]. rewrite H_init. reflexivity.
Qed.

Theorem map_run : forall d e0 ops, all_fine (start c hk d e0) ops ->
  run c' hk' d (gE e0) (map map_op ops) = map_sys (run c hk d e0 ops).
Proof using Hnan H_init H_ini H_ada. intros d e0 ops H. unfold run. rewrite map_start. apply map_run_from. exact H. Qed.

Lemma all_fine_all : (forall e s, gen_commutes e s) -> forall ops y, all_fine y ops.
Proof using.
  intros H. induction ops as [|a ops IH]; intros y; [exact I|]. split; [|apply IH]. unfold fine. destruct (y_proc y); [|exact I]. destruct a; try exact I. intros _. apply H.
Qed.
Lemma all_fine_run : forall ops y, (forall ops1 d o ops2 p, ops = ops1 ++ Propose d o :: ops2 -> y_proc (run_from c hk y ops1) = Some p -> will_generate (p_s p) ->
    gen_commutes (p_e p) (at_generate (p_s p))) -> all_fine y ops.
Proof using.
  induction ops as [|a ops IH]; intros y H; [exact I|]. split.
  - unfold fine. destruct (y_proc y) as [p|] eqn:EP; [|exact I]. destruct a as [d o| | | | | |]; try exact I. intros G. exact (H [] d o ops p eq_refl EP G).
  - apply IH. intros ops1 d o ops2 p E. exact (H (a :: ops1) d o ops2 p (f_equal (cons a) E)).
Qed.
End Map.
