(** * Resuming is the same as killing the running evaluations (C68).

    controller.py:19-24: "The strategy needs to implement a resume method that is called when a run
    is resumed. The strategy object can assume that all pending evaluations have been killed and
    that their respective callbacks won't be executed." *)
From Coq Require Import List Arith ZArith Lia Bool.
From Verif Require Import Base PyList Strategy StrategySpec StrategyProofs StrategyInv StrategyInv2
  StrategyInv3 StrategyInv4 StrategyOps PropStrategy.
Import ListNotations.
Local Open Scope Z_scope.

Set Implicit Arguments.

(** ** Specification *)

(** A history without crashes that explains a history with crashes: instead of each resumption, all
    evaluations that were running at that moment are killed, oldest first. *)
Inductive explains {P V} : list (event P V) -> list (event P V) -> Prop :=
| ex_nil : explains [] []
| ex_event : forall h h' ev, explains h h' -> is_resume ev = false -> explains (h ++ [ev]) (h' ++ [ev])
| ex_resume : forall h h' l, explains h h' ->
    Forall2 (fun ix ev => exists k, ev = EvAbort (fst ix) k (snd ix)) (outstanding h) l ->
    explains (h ++ [EvResume]) (h' ++ l).

(** Operations other than a crash or a resumption. *)
Definition ordinary {P V Orc} (a : op P V Orc) : Prop := a <> Crash /\ a <> Resume.

(** The same strategy object up to the list of finished records. *)
Record same_object {P V Ext} (p q : proc P V Ext) : Prop := mkSO {
  so_base : p_s q = set_fevals (fevals (p_s q)) (p_s p);
  so_ext : p_e q = p_e p;
  so_out : p_out q = p_out p;
  so_next : p_next q = p_next p
}.

(** A snapshot that can be resumed as intended: the controller has decided on every proposal, and
    either nothing is running; or the strategy is in its initial phase, only points of the design are
    running and equal points were never running at the same time; or it is in its adaptive phase and no
    point of the design is running. *)
Definition clean {P V Ext} (p : proc P V Ext) : Prop :=
  (forall o, In o (p_out p) -> o_ev o <> None) /\
  (p_out p = [] \/
   phase (p_s p) = 1%nat /\ (forall o, In o (p_out p) -> o_kind o = KInit) /\ no_duplicates (p_hist p) \/
   phase (p_s p) <> 1%nat /\ (forall o, In o (p_out p) -> o_kind o = KAdapt)).

(** The controller kills all evaluations that are running. *)
Definition kill_all {P V Ext Orc} (p : proc P V Ext) : list (op P V Orc) := map (fun o => Update (o_id o) SKilled) (p_out p).

(** What a subclass computes does not depend on the list of finished records. *)
Record blind {P V Ext Orc} (hk : hooks P V Ext Orc) : Prop := mkBl {
  bl_init : forall e s l x v ev, hk_initial_completed hk e (set_fevals l s) x v ev = hk_initial_completed hk e s x v ev;
  bl_adapt : forall e s l x v ev, hk_adapt_completed hk e (set_fevals l s) x v ev = hk_adapt_completed hk e s x v ev;
  bl_gen : forall e s l n o, hk_generate hk e (set_fevals l s) n o = hk_generate hk e s n o
}.

Section Resume.
Variables P V Ext Orc : Type.
Variable c : cfg P V.
Variable hk : hooks P V Ext Orc.
Hypothesis BL : blind hk.
Notation base := (base P V).
Notation proc := (proc P V Ext).
Notation sys := (sys P V Ext).
Notation op := (op P V Orc).

(** ** Every callback ignores the list of finished records *)
Definition put (l : list (frec P V)) (r : outcome P * (base * Ext) * list (event P V)) : outcome P * (base * Ext) * list (event P V) :=
  let '(out, (s, e), evs) := r in (out, (set_fevals l s, e), evs).
Definition rput {A B} (f : A -> B) (r : res A) : res B := match r with Ok a => Ok (f a) | Err e => Err e end.

Lemma put_check : forall l (s : base), check_termination c (set_fevals l s) = set_fevals l (check_termination c s).
Proof using. intros l s. unfold check_termination. cbn. destruct (c_max_evals c <=? num_evals s + pending_evals s); reflexivity. Qed.
Lemma put_add_extra : forall l pts vals (s : base), add_extra c pts vals (set_fevals l s) = rput (set_fevals l) (add_extra c pts vals s).
Proof using.
  intros l pts. induction pts as [|x pts IH]; intros vals s; [reflexivity|]. cbn [add_extra]. destruct vals as [[|v vals]|].
  - reflexivity.
  - destruct (c_isnan c v); rewrite <- IH; reflexivity.
  - rewrite <- IH. reflexivity.
Qed.
Lemma put_sample_initial : forall l d (s : base), sample_initial c d (set_fevals l s) = rput (set_fevals l) (sample_initial c d s).
Proof using.
  intros l d s. unfold sample_initial. destruct d as [d|]; [|reflexivity]. cbn [rbind]. destruct (take_rows (c_num_pts c) d) as [rows|]; [|reflexivity]. cbn [rbind].
  destruct (c_extra c) as [pts|]; [|reflexivity]. cbn. destruct (length (X s) =? 0)%nat; [|reflexivity].
  exact (put_add_extra l pts (c_extra_vals c) (set_batch_queue (batch_queue s ++ rows) (set_sur [] s))).
Qed.
Lemma put_restart : forall l d (s : base) (e : Ext), restart_branch c hk d (set_fevals l s) e = rput (put l) (restart_branch c hk d s e).
Proof using.
  intros l d s e. unfold restart_branch. cbn [pending_evals set_fevals]. destruct (c_async c || (pending_evals s =? 0)); [|reflexivity].
  unfold sample_restart.
  change (set_phase 1%nat (set_converged false (set_fX_ [] (set_X_ [] (bump (set_fevals l s)))))) with (set_fevals l (set_phase 1%nat (set_converged false (set_fX_ [] (set_X_ [] (bump s)))))).
  rewrite put_sample_initial. destruct (sample_initial c d _) as [s1|]; [|reflexivity]. cbn [rput rbind fst snd].
  unfold init_proposal. cbn [batch_queue set_fevals]. destruct (py_pop (batch_queue s1)) as [[x q]|]; reflexivity.
Qed.
Lemma put_generate : forall l n o (s : base) (e : Ext),
  do_generate hk n o (set_fevals l s) e = rput (fun r => let '(s, e, evs) := r in (set_fevals l s, e, evs)) (do_generate hk n o s e).
Proof using BL.
  intros l n o s e. unfold do_generate. rewrite (bl_gen BL). destruct (hk_generate hk e s n o) as [[e' [pts|]]|]; reflexivity.
Qed.
Lemma put_adapt : forall l (s : base), adapt_proposal (set_fevals l s) = (fst (adapt_proposal s), set_fevals l (snd (adapt_proposal s))).
Proof using. intros l s. unfold adapt_proposal. cbn [batch_queue set_fevals]. destruct (py_pop (batch_queue s)) as [[x q]|]; reflexivity. Qed.
Lemma put_propose : forall l d o (s : base) (e : Ext), propose_action c hk d o (set_fevals l s) e = rput (put l) (propose_action c hk d o s e).
Proof using BL.
  intros l d o s e. unfold propose_action. rewrite put_check. set (t := check_termination c s). clearbody t.
  cbn [terminate converged batch_queue phase pending_evals set_fevals].
  destruct (terminate t); [destruct (pending_evals t =? 0); reflexivity|].
  destruct (converged t); [destruct (c_restarts c); [apply put_restart|reflexivity]|].
  destruct (nonempty (batch_queue t)).
  - destruct (phase t =? 1)%nat.
    + unfold init_proposal. cbn [batch_queue set_fevals]. destruct (py_pop (batch_queue t)) as [[x q]|]; reflexivity.
    + rewrite put_adapt. destruct (adapt_proposal t) as [out s']. reflexivity.
  - change (set_phase 2%nat (set_fevals l t)) with (set_fevals l (set_phase 2%nat t)). set (u := set_phase 2%nat t). clearbody u.
    change (pending_evals (set_fevals l u)) with (pending_evals u).
    assert (G : (if c_async c then do_generate hk 1 o (set_fevals l u) e else if pending_evals u =? 0 then do_generate hk (c_batch c) o (set_fevals l u) e else Ok (set_fevals l u, e, []))
      = rput (fun r => let '(s, e, evs) := r in (set_fevals l s, e, evs)) (if c_async c then do_generate hk 1 o u e else if pending_evals u =? 0 then do_generate hk (c_batch c) o u e else Ok (u, e, []))).
    { destruct (c_async c); [apply put_generate|]. destruct (pending_evals u =? 0); [apply put_generate|reflexivity]. }
    rewrite G. clear G. destruct (if c_async c then _ else _) as [[[s1 e1] evs]|]; [|reflexivity]. cbn [rput rbind]. cbn [converged set_fevals].
    destruct (converged s1 && c_restarts c).
    + rewrite put_restart. destruct (restart_branch c hk d s1 e1) as [[[out [s2 e2]] evs']|]; reflexivity.
    + rewrite put_adapt. destruct (adapt_proposal s1) as [out s']. reflexivity.
Qed.
Lemma put_bump : forall n l (s : base), iter_bump n (set_fevals l s) = set_fevals l (iter_bump n s).
Proof using. induction n as [|n IH]; intros l s; [reflexivity|]. exact (IH l (bump s)). Qed.

(** ** Two processes in the same state stay so *)
Definition news (p q p' q' : proc) : Prop := exists t, p_hist p' = p_hist p ++ t /\ p_hist q' = p_hist q ++ t /\ forallb (fun ev => negb (is_resume ev)) t = true.

Definition inner (ev : event P V) : bool := match ev with EvGenerate _ _ | EvRestart _ => true | _ => false end.
Lemma propose_events : forall d o (s : base) (e : Ext) out se evs, propose_action c hk d o s e = Ok (out, se, evs) -> forallb inner evs = true.
Proof using.
  intros d o s e out se evs. unfold propose_action. generalize (check_termination c s). intros t.
  assert (RB : forall s e out se evs, restart_branch c hk d s e = Ok (out, se, evs) -> forallb inner evs = true).
  { intros s0 e0 out0 se0 evs0. unfold restart_branch. destruct (c_async c || _); [|intros [= _ _ <-]; reflexivity].
    destruct (sample_restart c hk d (s0, e0)) as [se'|]; [|discriminate]. cbn [rbind]. destruct (init_proposal (fst se')) as [r|]; [|discriminate]. cbn [rbind].
    intros [= _ _ <-]. reflexivity. }
  assert (DG : forall n s e s' e' evs, do_generate hk n o s e = Ok (s', e', evs) -> forallb inner evs = true).
  { intros n s0 e0 s1 e1 evs0. unfold do_generate. destruct (hk_generate hk e0 s0 n o) as [[e2 [pts|]]|]; [| |discriminate]; cbn; intros [= _ _ <-]; reflexivity. }
  destruct (terminate t); [destruct (pending_evals t =? 0); intros [= _ _ <-]; reflexivity|].
  destruct (converged t); [destruct (c_restarts c); [apply RB|intros [= _ _ <-]; reflexivity]|].
  destruct (nonempty (batch_queue t)).
  - destruct (phase t =? 1)%nat; [|intros [= _ _ <-]; reflexivity].
    destruct (init_proposal t) as [r|]; [|discriminate]. cbn [rbind]. intros [= _ _ <-]; reflexivity.
  - set (G := if c_async c then _ else _). assert (HG : forall s' e' evs, G = Ok (s', e', evs) -> forallb inner evs = true).
    { intros s' e' evs0. unfold G. destruct (c_async c); [apply DG|]. destruct (_ =? 0); [apply DG|intros [= _ _ <-]; reflexivity]. }
    destruct G as [[[s1 e1] evs1]|]; [|discriminate]. cbn [rbind]. specialize (HG s1 e1 evs1 eq_refl).
    destruct (converged s1 && c_restarts c).
    + destruct (restart_branch c hk d s1 e1) as [[[out' se'] evs']|] eqn:R; [|discriminate]. cbn [rbind]. intros [= _ _ <-]. rewrite forallb_app, HG, (RB _ _ _ _ _ R). reflexivity.
    + intros [= _ _ <-]. exact HG.
Qed.
Lemma inner_news : forall evs, forallb inner evs = true -> forallb (fun ev : event P V => negb (is_resume ev)) evs = true.
Proof using. induction evs as [|[] evs IH]; cbn; auto; discriminate. Qed.

Lemma so_propose : forall d o p q, same_object p q ->
  match do_propose c hk d o p, do_propose c hk d o q with
  | Ok (out, p'), Ok (out', q') => out' = out /\ same_object p' q' /\ news p q p' q'
  | Err e, Err e' => e' = e
  | _, _ => False
  end.
Proof using BL.
  intros d o p q [B E O N]. unfold do_propose. rewrite B, E, put_propose.
  destruct (propose_action c hk d o (p_s p) (p_e p)) as [[[out [s e]] evs]|] eqn:PA; [|reflexivity]. cbn [rput put rbind]. rewrite O, N.
  assert (NR : forallb (fun ev => negb (is_resume ev)) evs = true) by exact (inner_news _ (propose_events _ _ _ _ PA)).
  destruct out; (split; [reflexivity|]); (split; [constructor; cbn; congruence||reflexivity|]); eexists; (split; [reflexivity|]); (split; [reflexivity|]); rewrite forallb_app, NR; reflexivity.
Qed.
Lemma so_accept : forall o p q, same_object p q -> same_object (do_accept o p) (do_accept o q) /\ news p q (do_accept o p) (do_accept o q).
Proof using.
  intros o p q [B E O N]. unfold do_accept, on_accepted. cbn [get_ev fst snd]. split; [constructor; cbn; try congruence; rewrite B, ?O; reflexivity|].
  eexists. split; [reflexivity|]. split; reflexivity.
Qed.
Lemma so_reject : forall o p q, same_object p q -> same_object (do_reject c o p) (do_reject c o q) /\ news p q (do_reject c o p) (do_reject c o q).
Proof using.
  intros o p q [B E O N]. unfold do_reject. split; [|eexists; split; [reflexivity|]; split; reflexivity].
  constructor; cbn [p_s p_e p_out p_next]; try congruence. rewrite B. destruct (o_kind o); [reflexivity|].
  unfold on_adapt_reject. destruct (c_async c); reflexivity.
Qed.
Lemma so_abort : forall o p q, same_object p q -> same_object (do_abort c o p) (do_abort c o q) /\ news p q (do_abort c o p) (do_abort c o q).
Proof using.
  intros o p q [B E O N]. unfold do_abort. split; [|eexists; split; [reflexivity|]; split; reflexivity].
  constructor; cbn [p_s p_e p_out p_next]; try congruence. rewrite B. destruct (o_kind o); reflexivity.
Qed.
Lemma put_base_completed : forall l id x v ev (s : base), exists l', base_completed c id x v ev (set_fevals l s) = set_fevals l' (base_completed c id x v ev s).
Proof using. intros l id x v ev s. exists (l ++ [mkFrec id x (Some v)]). unfold base_completed. cbn. destruct (ev_last s <? ev); reflexivity. Qed.
Lemma so_complete : forall o ev v p q, same_object p q ->
  match do_complete c hk o ev v p, do_complete c hk o ev v q with
  | Ok p', Ok q' => same_object p' q' /\ news p q p' q'
  | Err e, Err e' => e' = e
  | _, _ => False
  end.
Proof using BL.
  intros o ev v p q [B E O N]. unfold do_complete. rewrite B, E, O. unfold on_initial_completed, on_adapt_completed.
  destruct (put_base_completed (fevals (p_s q)) (o_id o) (o_x o) v ev (p_s p)) as [l' ->]. set (s := base_completed c (o_id o) (o_x o) v ev (p_s p)). clearbody s.
  destruct (o_kind o).
  - rewrite (bl_init BL). destruct (hk_initial_completed hk (p_e p) s (o_x o) v ev); [|reflexivity]. cbn [rbind fst snd].
    split; [constructor; cbn; congruence||reflexivity|]. eexists. split; [reflexivity|]. split; reflexivity.
  - rewrite (bl_adapt BL). destruct (hk_adapt_completed hk (p_e p) s (o_x o) v ev) as [[[e n] cv]|]; [|reflexivity]. cbn [rbind fst snd]. rewrite put_bump.
    split; [constructor; cbn; try congruence; destruct cv; reflexivity|]. eexists. split; [reflexivity|]. split; reflexivity.
Qed.

(** One operation on two systems whose processes are in the same state. *)
Definition osame (a b : option proc) : Prop := match a, b with Some p, Some q => same_object p q | None, None => True | _, _ => False end.
Lemma so_refl : forall p : proc, same_object p p.
Proof using. intros p. constructor; reflexivity. Qed.
Lemma news_refl : forall p q : proc, news p q p q.
Proof using. intros p q. exists []. rewrite !app_nil_r. auto. Qed.
Lemma news_trans : forall p q p1 q1 p2 q2 : proc, news p q p1 q1 -> news p1 q1 p2 q2 -> news p q p2 q2.
Proof using.
  intros p q p1 q1 p2 q2 [t [A [B C]]] [t' [A' [B' C']]]. exists (t ++ t'). rewrite A', B', A, B, !app_assoc, forallb_app, C, C'. auto.
Qed.

Lemma same_step : forall y z a p q, ordinary a -> y_proc y = Some p -> y_proc z = Some q -> same_object p q ->
  match y_proc (step c hk y a), y_proc (step c hk z a) with
  | Some p', Some q' => same_object p' q' /\ news p q p' q'
  | None, None => True
  | _, _ => False
  end /\
  (y_disk (step c hk y a) = y_disk y /\ y_disk (step c hk z a) = y_disk z \/
   exists dp dq, y_disk (step c hk y a) = Some dp /\ y_disk (step c hk z a) = Some dq /\ same_object dp dq /\ news p q dp dq /\
     (dp = p /\ dq = q \/ y_proc (step c hk y a) = Some dp /\ y_proc (step c hk z a) = Some dq)).
Proof using BL.
  intros y z a p q [NC NR] EY EZ SO. unfold step. rewrite EY, EZ. destruct a as [d o|id|id|id st| | |]; try congruence.
  - pose proof (so_propose d o SO) as S. destruct (do_propose c hk d o p) as [[out p']|]; destruct (do_propose c hk d o q) as [[out' q']|]; try contradiction.
    + destruct S as [-> [S N]]. destruct out; cbn; (split; [split; assumption|]); auto. right. exists p', q'. auto 8.
    + cbn. auto.
  - rewrite (so_out SO). destruct (get_out id (p_out p)) as [o|]; [destruct (o_ev o)|]; try (rewrite EY, EZ; split; [split; [assumption|apply news_refl]|left; auto]).
    cbn. split; [apply so_accept, SO|left; auto].
  - rewrite (so_out SO). destruct (get_out id (p_out p)) as [o|]; [destruct (o_ev o)|]; try (rewrite EY, EZ; split; [split; [assumption|apply news_refl]|left; auto]).
    cbn. split; [apply so_reject, SO|left; auto].
  - rewrite (so_out SO). destruct (get_out id (p_out p)) as [o|]; [|rewrite EY, EZ; split; [split; [assumption|apply news_refl]|left; auto]].
    assert (F : forall r r', match r, r' with Ok p', Ok q' => same_object p' q' /\ news p q p' q' | Err e, Err e' => e' = e | _, _ => False end ->
      match y_proc (finish c p r (y_disk y)), y_proc (finish c q r' (y_disk z)) with Some p', Some q' => same_object p' q' /\ news p q p' q' | None, None => True | _, _ => False end /\
      (y_disk (finish c p r (y_disk y)) = y_disk y /\ y_disk (finish c q r' (y_disk z)) = y_disk z \/
       exists dp dq, y_disk (finish c p r (y_disk y)) = Some dp /\ y_disk (finish c q r' (y_disk z)) = Some dq /\ same_object dp dq /\ news p q dp dq /\
        (dp = p /\ dq = q \/ y_proc (finish c p r (y_disk y)) = Some dp /\ y_proc (finish c q r' (y_disk z)) = Some dq))).
    { intros [p'|e] [q'|e'] H; try contradiction; cbn.
      - split; [exact H|]. right. destruct (c_save_first c); do 2 eexists; (split; [reflexivity|]); (split; [reflexivity|]); [|tauto]. split; [exact SO|]. split; [apply news_refl|auto].
      - split; [exact I|]. destruct (c_save_first c); [right|left; auto]. exists p, q. split; [reflexivity|]. split; [reflexivity|]. split; [exact SO|]. split; [apply news_refl|auto]. }
    destruct (o_ev o) as [ev|]; [|rewrite EY, EZ; split; [split; [assumption|apply news_refl]|left; auto]].
    destruct st as [|v| |]; try (apply F; apply so_abort, SO); [rewrite EY, EZ; split; [split; [assumption|apply news_refl]|left; auto]|].
    apply F. apply so_complete, SO.
  - cbn. split; [|left; auto]. destruct SO as [B E O N]. split; [constructor; cbn; try congruence; rewrite B; reflexivity|]. eexists. split; [reflexivity|]. split; reflexivity.
Qed.

(** Without a process nothing ordinary happens. *)
Lemma dead_step : forall y a, ordinary a -> y_proc y = None -> step c hk y a = y.
Proof using. intros y a [_ NR] E. unfold step. rewrite E. destruct a; try reflexivity. congruence. Qed.
Lemma dead_run : forall ops y, Forall ordinary ops -> y_proc y = None -> run_from c hk y ops = y.
Proof using.
  induction ops as [|a ops IH]; intros y F E; [reflexivity|]. inversion F; subst. unfold run_from. cbn [fold_left]. rewrite dead_step by assumption. apply IH; assumption.
Qed.
Lemma same_run : forall ops y z p q, Forall ordinary ops -> y_proc y = Some p -> y_proc z = Some q -> same_object p q ->
  match y_proc (run_from c hk y ops), y_proc (run_from c hk z ops) with
  | Some p', Some q' => same_object p' q' /\ news p q p' q'
  | None, None => True
  | _, _ => False
  end.
Proof using BL.
  induction ops as [|a ops IH]; intros y z p q F EY EZ SO; [cbn; rewrite EY, EZ; split; [exact SO|apply news_refl]|].
  inversion F; subst. unfold run_from. cbn [fold_left]. fold (run_from c hk (step c hk y a) ops) (run_from c hk (step c hk z a) ops).
  destruct (@same_step y z a p q H1 EY EZ SO) as [S _]. destruct (y_proc (step c hk y a)) as [p1|] eqn:E1; destruct (y_proc (step c hk z a)) as [q1|] eqn:E2; try contradiction.
  - destruct S as [S N]. specialize (IH _ _ _ _ H2 E1 E2 S). destruct (y_proc (run_from c hk (step c hk y a) ops)), (y_proc (run_from c hk (step c hk z a) ops)); try exact IH.
    destruct IH as [S' N']. split; [exact S'|]. eapply news_trans; eassumption.
  - rewrite !dead_run by assumption. rewrite E1, E2. exact I.
Qed.
(** ** Killing everything *)
Hypothesis Hpeqb : forall x y, c_peqb c x y = true <-> x = y.

Definition abort_base (s : base) (o : outst P) : base := match o_kind o with KInit => on_initial_aborted c (o_id o) (o_x o) s | KAdapt => on_adapt_aborted c (o_id o) (o_x o) s end.
Definition inits (l : list (outst P)) : list P := flat_map (fun o => match o_kind o with KInit => [o_x o] | KAdapt => [] end) l.
Lemma abort_all : forall l (s : base), exists F, fold_left abort_base l s =
  set_fevals F (set_pending_evals (pending_evals s - Z.of_nat (length l)) (set_batch_queue (batch_queue s ++ inits l)
    (set_Xpend (filter (fun y => forallb (fun o => negb (c_peqb c y (o_x o))) l) (Xpend s)) s))).
Proof using.
  induction l as [|o l IH]; intros s.
  - exists (fevals s). cbn. rewrite Z.sub_0_r, app_nil_r. replace (filter (fun _ : P => true) (Xpend s)) with (Xpend s) by (induction (Xpend s) as [|a t IH]; [reflexivity|cbn; f_equal; exact IH]). reflexivity.
  - cbn [fold_left]. destruct (IH (abort_base s o)) as [F ->]. exists F.
    assert (E1 : pending_evals (abort_base s o) = pending_evals s - 1) by (unfold abort_base; destruct (o_kind o); reflexivity).
    assert (E2 : batch_queue (abort_base s o) = batch_queue s ++ inits [o]) by (unfold abort_base, inits; cbn; destruct (o_kind o); cbn; rewrite ?app_nil_r; reflexivity).
    assert (E3 : Xpend (abort_base s o) = filter (fun y => negb (c_peqb c y (o_x o))) (Xpend s)) by (unfold abort_base; destruct (o_kind o); reflexivity).
    assert (E4 : forall F a b d, set_fevals F (set_pending_evals a (set_batch_queue b (set_Xpend d (abort_base s o)))) = set_fevals F (set_pending_evals a (set_batch_queue b (set_Xpend d s)))).
    { intros. unfold abort_base. destruct (o_kind o); reflexivity. }
    rewrite E4, E1, E2, E3. f_equal. f_equal; [|f_equal].
    + cbn [length]. lia.
    + rewrite <- app_assoc. f_equal. unfold inits. cbn. destruct (o_kind o); reflexivity.
    + f_equal. clear. induction (Xpend s) as [|a t IH]; [reflexivity|]. cbn. destruct (c_peqb c a (o_x o)); cbn; [exact IH|]. destruct (forallb _ l); [f_equal|]; exact IH.
Qed.

Definition aborts (l : list (outst P)) : list (event P V) := map (fun o => EvAbort (o_id o) (o_kind o) (o_x o)) l.
Lemma del_first : forall (o : outst P) l, NoDup (map (@o_id P) (o :: l)) -> del_out (o_id o) (o :: l) = l.
Proof using.
  intros o l H. inversion H as [|? ? H1 H2]; subst. unfold del_out. cbn. rewrite Nat.eqb_refl. cbn. clear H H2. induction l as [|a l IH]; [reflexivity|]. cbn in *.
  destruct (o_id a =? o_id o)%nat eqn:E; [apply Nat.eqb_eq in E; exfalso; apply H1; auto|]. cbn. f_equal. apply IH. tauto.
Qed.
Lemma run_kills : forall p d, NoDup (map (@o_id P) (p_out p)) -> (forall o, In o (p_out p) -> o_ev o <> None) ->
  exists q, y_proc (run_from c hk (mkSys (Some p) d) (kill_all p)) = Some q /\ p_s q = fold_left abort_base (p_out p) (p_s p) /\
    p_e q = p_e p /\ p_out q = [] /\ p_next q = p_next p /\ p_hist q = p_hist p ++ aborts (p_out p).
Proof using.
  intros p d. remember (p_out p) as l eqn:El. revert p d El. induction l as [|o l IH]; intros p d El ND AC.
  - exists p. unfold kill_all. rewrite <- El. cbn. rewrite app_nil_r. auto 10.
  - unfold kill_all. rewrite <- El. cbn [map]. unfold run_from. cbn [fold_left]. unfold step at 2. cbn [y_proc]. rewrite <- El. unfold get_out. cbn [find]. rewrite Nat.eqb_refl.
    destruct (o_ev o) as [ev|] eqn:EV; [|exfalso; apply (AC o); [left; reflexivity|exact EV]].
    unfold finish. set (dk := Some (if c_save_first c then p else _)). clearbody dk.
    assert (E : l = p_out (do_abort c o p)) by (cbn; rewrite <- El; symmetry; apply del_first, ND).
    destruct (IH (do_abort c o p) dk E) as [q [A [B [C [D [F G]]]]]]; [inversion ND; assumption|intros o' H; apply AC; right; exact H|].
    exists q. unfold kill_all in A. rewrite <- E in A. unfold run_from in A. cbn [y_disk]. split; [exact A|]. split; [rewrite B; reflexivity|]. split; [rewrite C; reflexivity|]. split; [exact D|].
    split; [rewrite F; reflexivity|]. rewrite G. cbn. rewrite <- app_assoc. reflexivity.
Qed.

Lemma init_pending_0 : forall design e0 p, reached c hk design e0 p -> init_pending (p_s p) = 0.
Proof using.
  intros design e0 p H. apply reached_micros in H. destruct H as [[s e] [H1 M]].
  remember (init_proc (s, e)) as p0 eqn:E0. assert (I0 : init_pending (p_s p0) = 0).
  { subst p0. cbn. unfold construct in H1. apply rbind_ok in H1. destruct H1 as [s1 [H1 H3]]. injection H3 as <- _. apply sample_initial_ok in H1.
    destruct H1 as [d [rows [_ [_ [_ ->]]]]]. reflexivity. }
  clear E0 H1. induction M as [p|p q r M IH N]; [exact I0|]. specialize (IH I0). destruct N; try exact IH.
  - unfold do_reject. cbn [p_s]. destruct (o_kind o); [exact IH|]. unfold on_adapt_reject. destruct (c_async c); exact IH.
  - assert (BC : forall id x v ev (s0 : base), init_pending (base_completed c id x v ev s0) = init_pending s0) by (intros; unfold base_completed; cbn; destruct (ev_last s0 <? ev0); reflexivity).
    unfold do_complete in H1. apply rbind_ok in H1. destruct H1 as [[s1 e1] [H1 H2]]. injection H2 as <-. cbn [p_s fst]. destruct (o_kind o).
    + unfold on_initial_completed in H1. apply rbind_ok in H1. destruct H1 as [e2 [_ H1]]. injection H1 as <- _. rewrite BC. exact IH.
    + unfold on_adapt_completed in H1. apply rbind_ok in H1. destruct H1 as [[[e2 n] cv] [_ H1]]. injection H1 as <- _.
      assert (IB : forall n (s0 : base), init_pending (iter_bump n s0) = init_pending s0) by (induction n0 as [|n0 IHn]; intros s0; [reflexivity|exact (IHn (bump s0))]).
      destruct cv; cbn; rewrite IB, BC; exact IH.
  - unfold do_abort. cbn [p_s]. destruct (o_kind o); exact IH.
  - unfold do_resume, resume. cbn [p_s]. destruct (phase (p_s q) =? 1)%nat; [reflexivity|exact IH].
Qed.

Lemma none_left : forall (f : P -> bool) l, (forall x, In x l -> f x = false) -> filter f l = [].
Proof using. induction l as [|a l IH]; intros H; [reflexivity|]. cbn. rewrite (H a) by (left; reflexivity). apply IH. intros x Hx. apply H. right. exact Hx. Qed.

(** The state after killing everything is the state after resuming. *)
Lemma killed_is_resumed : forall design e0 p q z, reached c hk design e0 p -> clean p -> same_object p q -> y_proc z = Some q ->
  exists q', y_proc (run_from c hk z (kill_all q)) = Some q' /\ same_object (do_resume p) q' /\ p_hist q' = p_hist q ++ aborts (p_out p).
Proof using Hpeqb.
  intros design e0 p q z R [AC CL] SO EZ. pose proof (Inv_reached R) as I. pose proof (init_pending_0 R) as IP.
  assert (XI : (forall x, In x (Xpend (p_s p)) -> In x (map (@o_x P) (p_out p))) /\ (no_duplicates (p_hist p) -> Xpend (p_s p) = map (@o_x P) (p_out p))).
  { destruct (C05_xpend_partial Hpeqb R) as [X1 X2]. rewrite (inv_out I), map_map in X1, X2. cbn [snd] in X1, X2. split; [exact X1|exact X2]. }
  destruct z as [zp zd]. cbn in EZ. subst zp. pose proof (so_out SO) as OO.
  destruct (@run_kills q zd) as [q' [A [B [C [D [E F]]]]]]; [rewrite OO; exact (inv_nodup I)|rewrite OO; exact AC|].
  exists q'. split; [exact A|]. split; [|rewrite F, OO; reflexivity].
  constructor; [|rewrite C; exact (so_ext SO)|rewrite D; reflexivity|rewrite E; exact (so_next SO)].
  rewrite B, OO, (so_base SO). destruct (abort_all (p_out p) (set_fevals (fevals (p_s q)) (p_s p))) as [G ->]. cbn [do_resume p_s].
  change (pending_evals (set_fevals (fevals (p_s q)) (p_s p))) with (pending_evals (p_s p)). change (Xpend (set_fevals (fevals (p_s q)) (p_s p))) with (Xpend (p_s p)).
  change (batch_queue (set_fevals (fevals (p_s q)) (p_s p))) with (batch_queue (p_s p)).
  replace (pending_evals (p_s p) - Z.of_nat (length (p_out p))) with 0 by (rewrite (inv_pend I); lia).
  replace (filter (fun y => forallb (fun o => negb (c_peqb c y (o_x o))) (p_out p)) (Xpend (p_s p))) with (@nil P).
  2:{ destruct XI as [XI _]. symmetry. apply none_left. intros x Hx. apply XI in Hx. apply in_map_iff in Hx. destruct Hx as [o [<- Ho]].
      apply not_true_is_false. intros T. rewrite forallb_forall in T. specialize (T o Ho). assert (c_peqb c (o_x o) (o_x o) = true) by (apply Hpeqb; reflexivity). rewrite H in T. discriminate T. }
  assert (Q : (if (phase (p_s p) =? 1)%nat then batch_queue (p_s p) ++ Xpend (p_s p) else batch_queue (p_s p)) = batch_queue (p_s p) ++ inits (p_out p)).
  { destruct CL as [E0|[[PH [KI ND]]|[PH KA]]].
    - destruct XI as [XI _]. rewrite E0 in *. cbn in *. destruct (Xpend (p_s p)) as [|x l]; [|exfalso; apply (XI x); left; reflexivity]. rewrite app_nil_r. destruct (phase (p_s p) =? 1)%nat; reflexivity.
    - rewrite PH. cbn. f_equal. destruct XI as [_ XI]. rewrite (XI ND). clear -KI. induction (p_out p) as [|o l IH]; [reflexivity|]. unfold inits. cbn. rewrite (KI o) by (left; reflexivity). cbn. f_equal. apply IH. intros o' H. apply KI. right. exact H.
    - apply Nat.eqb_neq in PH. rewrite PH. replace (inits (p_out p)) with (@nil P); [rewrite app_nil_r; reflexivity|]. clear -KA. induction (p_out p) as [|o l IH]; [reflexivity|]. unfold inits. cbn. rewrite (KA o) by (left; reflexivity). cbn. apply IH. intros o' H. apply KA. right. exact H. }
  rewrite <- Q. unfold resume. destruct (phase (p_s p) =? 1)%nat; [|reflexivity].
  clear -IP. destruct (p_s p). cbn in *. subst. reflexivity.
Qed.

(** ** The theorems *)

(** C68: from a clean snapshot, the resumed strategy behaves in every continuation exactly like the
    original one after the controller has killed all running evaluations: the same answers to all calls,
    the same attributes except the list of finished records. *)
Theorem C68_resume_is_kill : forall design e0 p disk ops, reached c hk design e0 p -> clean p -> Forall ordinary ops ->
  match y_proc (run_from c hk (step c hk (mkSys None (Some p)) Resume) ops), y_proc (run_from c hk (mkSys (Some p) disk) (kill_all p ++ ops)) with
  | Some p1, Some p2 => same_object p1 p2 /\ exists t, p_hist p1 = p_hist p ++ [EvResume] ++ t /\ p_hist p2 = p_hist p ++ aborts (p_out p) ++ t
  | None, None => True
  | _, _ => False
  end.
Proof using BL Hpeqb.
  intros design e0 p disk ops R CL OR. destruct (@killed_is_resumed design e0 p p (mkSys (Some p) disk) R CL (so_refl p) eq_refl) as [q' [A [B C]]].
  unfold run_from. rewrite fold_left_app. fold (run_from c hk (mkSys (Some p) disk) (kill_all p)). set (z := run_from c hk (mkSys (Some p) disk) (kill_all p)) in *. clearbody z.
  fold (run_from c hk z ops) (run_from c hk (step c hk (mkSys None (Some p)) Resume) ops).
  pose proof (@same_run ops (step c hk (mkSys None (Some p)) Resume) z (do_resume p) q' OR eq_refl A B) as S.
  destruct (y_proc (run_from c hk (step c hk (mkSys None (Some p)) Resume) ops)), (y_proc (run_from c hk z ops)); try exact S. destruct S as [S [t [T1 [T2 _]]]].
  split; [exact S|]. exists t. rewrite T1, T2, C. cbn [do_resume p_hist]. rewrite <- !app_assoc. auto.
Qed.

Lemma explains_app : forall t (h h' : list (event P V)), explains h h' -> forallb (fun ev => negb (is_resume ev)) t = true -> explains (h ++ t) (h' ++ t).
Proof using.
  induction t as [|ev t IH] using rev_ind; intros h h' E H; [rewrite !app_nil_r; exact E|]. rewrite forallb_app in H. apply andb_true_iff in H. destruct H as [H1 H2].
  rewrite !app_assoc. apply ex_event; [apply IH; assumption|]. cbn in H2. destruct (is_resume ev); [discriminate|reflexivity].
Qed.

(** C68: a run with any number of crashes whose resumptions all start from clean snapshots is, up to the
    list of finished records, a run without crashes in which evaluations were killed. *)
Theorem C68_crash_free : forall design e0 ops p,
  (forall ops1 ops2 d, ops = ops1 ++ Resume :: ops2 -> y_proc (run c hk design e0 ops1) = None -> y_disk (run c hk design e0 ops1) = Some d -> clean d) ->
  y_proc (run c hk design e0 ops) = Some p ->
  exists ops' q, Forall ordinary ops' /\ y_proc (run c hk design e0 ops') = Some q /\ same_object p q /\ explains (p_hist p) (p_hist q).
Proof using BL Hpeqb.
  intros design e0 ops p HC HP. assert (HD : y_proc (run c hk design e0 ops) = Some p \/ y_disk (run c hk design e0 ops) = Some p) by (left; exact HP). clear HP.
  revert p HD. induction ops as [|a ops IH] using rev_ind; intros p HD.
  - exists [], p. unfold run, run_from in *. cbn in *. destruct HD as [HD|HD].
    + split; [constructor|]. split; [exact HD|]. split; [apply so_refl|]. unfold start in HD. destruct (construct c hk design e0) as [[s e]|]; [|discriminate HD]. injection HD as <-. constructor.
    + unfold start in HD. destruct (construct c hk design e0) as [[s e]|]; discriminate HD.
  - specialize (IH ltac:(intros o1 o2 d E; apply (HC o1 (o2 ++ [a]) d); rewrite E, <- app_assoc; reflexivity)).
    rewrite run_snoc in HD.
    assert (RD : forall d, y_disk (run c hk design e0 ops) = Some d -> reached c hk design e0 d) by (intros d E; exists ops; right; exact E).
    specialize (HC ops []). set (y := run c hk design e0 ops) in *. clearbody y.
    destruct (y_proc y) as [p0|] eqn:EY.
    + assert (CA : a = Crash \/ a = Resume \/ ordinary a) by (destruct a; unfold ordinary; try (right; right; split; congruence); auto).
      destruct CA as [-> |[-> |OA]].
      * unfold step in HD. rewrite EY in HD. cbn in HD. destruct HD as [HD|HD]; [discriminate|]. apply IH. auto.
      * unfold step in HD. rewrite EY in HD. apply IH. rewrite EY in HD. auto.
      * destruct (IH p0 (or_introl eq_refl)) as [ops' [q [FO [EQ [SO EX]]]]].
        destruct (@same_step y (run c hk design e0 ops') a p0 q OA EY EQ SO) as [SP SD].
        assert (NEW : forall p' q', y_proc (step c hk (run c hk design e0 ops') a) = Some q' -> same_object p' q' -> news p0 q p' q' ->
          exists ops'' q, Forall ordinary ops'' /\ y_proc (run c hk design e0 ops'') = Some q /\ same_object p' q /\ explains (p_hist p') (p_hist q)).
        { intros p' q' E S [t [T1 [T2 T3]]]. exists (ops' ++ [a]), q'. rewrite run_snoc. split; [apply Forall_app; auto|]. split; [exact E|]. split; [exact S|]. rewrite T1, T2. apply explains_app; assumption. }
        destruct HD as [HD|HD].
        -- rewrite HD in SP. destruct (y_proc (step c hk (run c hk design e0 ops') a)) as [q'|] eqn:EQ'; [|contradiction]. destruct SP as [S N]. exact (NEW p q' eq_refl S N).
        -- destruct SD as [[D1 _]|[dp [dq [D1 [D2 [S [N [[-> ->]|[P1 P2]]]]]]]]].
           ++ rewrite D1 in HD. apply IH. auto.
           ++ rewrite D1 in HD. injection HD as <-. exists ops', q. auto.
           ++ rewrite D1 in HD. injection HD as <-. exact (NEW dp dq P2 S N).
    + assert (CA : a = Resume \/ step c hk y a = y) by (destruct a; unfold step; rewrite EY; auto).
      destruct CA as [-> |E]; [|rewrite E in HD; apply IH; rewrite EY in HD; exact HD].
      unfold step in HD. rewrite EY in HD. destruct (y_disk y) as [d|] eqn:ED; [|rewrite EY, ED in HD; destruct HD; discriminate].
      cbn in HD. destruct HD as [HD|HD]; [|injection HD as <-; apply IH; auto]. injection HD as <-.
      destruct (IH d (or_intror eq_refl)) as [ops' [q [FO [EQ [SO EX]]]]].
      destruct (@killed_is_resumed design e0 d q (run c hk design e0 ops') (RD d eq_refl) (HC d eq_refl eq_refl eq_refl) SO EQ) as [q' [A [B C]]].
      exists (ops' ++ kill_all q), q'. split; [apply Forall_app; split; [exact FO|]; apply Forall_forall; intros x Hx; apply in_map_iff in Hx; destruct Hx as [o [<- _]]; split; discriminate|].
      split; [unfold run, run_from in *; rewrite fold_left_app; exact A|]. split; [exact B|]. rewrite C. cbn [do_resume p_hist]. apply ex_resume; [exact EX|].
      rewrite (inv_out (Inv_reached (RD d eq_refl))). unfold aborts. clear. induction (p_out d) as [|o l IH]; cbn; constructor; eauto.
Qed.
End Resume.
