(** * C69 for the strategies with their RBF surrogate.

    A run with the RBF surrogate (which may raise) is a run with the surrogate's predictions taken as
    given, in which the calls that raised are crashes.  What was proved about the latter runs therefore
    holds for the former. *)
From Coq Require Import List Arith ZArith Lia Bool QArith Reals Lra Qreals.
From Verif Require Import Base PyList Strategy StrategySpec StrategyProofs StrategyInv StrategyInv2
  StrategyInv3 StrategyInv4 PropStrategy SRBF SRBFProofs SRBFInv PropSRBF Box PropBox Cand PropCand EndToEnd Lin RBF PropRBF PropSolve SRBFRun Picks.
Import ListNotations.
Set Implicit Arguments.
Local Close Scope Q_scope.
Local Open Scope nat_scope.
Local Open Scope R_scope.

(** ** Hooks that raise more often *)
Section Refine.
Variables P V Ext Orc : Type.
Variable c : cfg P V.
Variables hk hk2 : hooks P V Ext Orc.
Hypothesis R_sam : forall e, hk_sample_initial hk e = hk_sample_initial hk2 e.
Hypothesis R_ini : forall e s x v ev, hk_initial_completed hk e s x v ev = hk_initial_completed hk2 e s x v ev.
Hypothesis R_ada : forall e s x v ev, hk_adapt_completed hk e s x v ev = hk_adapt_completed hk2 e s x v ev.
Hypothesis R_gen : forall e s n o r, hk_generate hk e s n o = Ok r -> hk_generate hk2 e s n o = Ok r.

Lemma refine_restart : forall d s e, restart_branch c hk d s e = restart_branch c hk2 d s e.
Proof using R_sam.
  intros d s e. unfold restart_branch, sample_restart. destruct (c_async c || _); [|reflexivity]. destruct (sample_initial c d _); [|reflexivity]. cbn [rbind]. rewrite R_sam. reflexivity.
Qed.
Lemma refine_do_generate : forall n o s e r, do_generate hk n o s e = Ok r -> do_generate hk2 n o s e = Ok r.
Proof using R_gen.
  intros n o s e r H. unfold do_generate in *. destruct (hk_generate hk e s n o) as [g|] eqn:E; [|discriminate]. rewrite (R_gen _ _ _ _ E). exact H.
Qed.
Lemma refine_propose : forall d o p r, do_propose c hk d o p = Ok r -> do_propose c hk2 d o p = Ok r.
Proof using R_sam R_gen.
  intros d o p r H. unfold do_propose in *. destruct (propose_action c hk d o (p_s p) (p_e p)) as [r1|] eqn:E; [|discriminate].
  assert (E2 : propose_action c hk2 d o (p_s p) (p_e p) = Ok r1); [|rewrite E2; exact H]. clear H. revert E. unfold propose_action.
  generalize (check_termination c (p_s p)). intros s. destruct (terminate s); [auto|]. destruct (converged s); [rewrite refine_restart; auto|].
  destruct (nonempty (batch_queue s)); [auto|]. cbv zeta.
  destruct (if c_async c then do_generate hk 1 o (set_phase 2%nat s) (p_e p) else if (pending_evals (set_phase 2%nat s) =? 0)%Z
    then do_generate hk (c_batch c) o (set_phase 2%nat s) (p_e p) else Ok (set_phase 2%nat s, p_e p, [])) as [g|] eqn:G; [|discriminate].
  assert (G2 : (if c_async c then do_generate hk2 1 o (set_phase 2%nat s) (p_e p) else if (pending_evals (set_phase 2%nat s) =? 0)%Z
    then do_generate hk2 (c_batch c) o (set_phase 2%nat s) (p_e p) else Ok (set_phase 2%nat s, p_e p, [])) = Ok g).
  { destruct (c_async c); [apply refine_do_generate; exact G|]. destruct (pending_evals (set_phase 2%nat s) =? 0)%Z; [apply refine_do_generate; exact G|exact G]. }
  rewrite G2. destruct g as [[s' e'] evs]. cbn [rbind]. rewrite refine_restart. auto.
Qed.
Lemma refine_complete : forall o ev v p, do_complete c hk o ev v p = do_complete c hk2 o ev v p.
Proof using R_ini R_ada.
  intros o ev v p. unfold do_complete. destruct (o_kind o).
  - unfold on_initial_completed. rewrite R_ini. reflexivity.
  - unfold on_adapt_completed. rewrite R_ada. reflexivity.
Qed.
Lemma refine_step : forall y a, Strategy.step c hk y a = Strategy.step c hk2 y a \/ Strategy.step c hk y a = Strategy.step c hk2 y Crash.
Proof using R_sam R_ini R_ada R_gen.
  intros y a. unfold Strategy.step. destruct (y_proc y) as [p|]; [|left; reflexivity]. destruct a as [d o|id|id|id st| | |]; try (left; reflexivity).
  - destruct (do_propose c hk d o p) as [r|] eqn:E; [|right; reflexivity]. rewrite (refine_propose _ _ _ E). left. reflexivity.
  - destruct (get_out id (p_out p)) as [o|]; [|left; reflexivity]. destruct (o_ev o); [|left; reflexivity]. destruct st; try (left; reflexivity).
    rewrite refine_complete. left. reflexivity.
Qed.
(** The run with [hk] is the run with [hk2] in which the calls that raised are crashes. *)
Lemma refine_run : forall design e0 ops, exists ops', Strategy.run c hk design e0 ops = Strategy.run c hk2 design e0 ops' /\
  Forall2 (fun a a' => a' = a \/ a' = Crash) ops ops'.
Proof using R_sam R_ini R_ada R_gen.
  intros design e0 ops. unfold Strategy.run. assert (ES : start c hk design e0 = start c hk2 design e0).
  { unfold start, construct. destruct (sample_initial c design _); [|reflexivity]. cbn [rbind]. rewrite R_sam. reflexivity. }
  rewrite ES. generalize (start c hk2 design e0). clear ES. induction ops as [|a ops IH]; intros y; [exists []; split; [reflexivity|constructor]|].
  unfold run_from in *. cbn [fold_left]. destruct (refine_step y a) as [E|E]; rewrite E.
  - destruct (IH (Strategy.step c hk2 y a)) as [ops' [A B]]. exists (a :: ops'). split; [exact A|constructor; auto].
  - destruct (IH (Strategy.step c hk2 y Crash)) as [ops' [A B]]. exists (Crash :: ops'). split; [exact A|constructor; auto].
Qed.
Lemma refine_designs : forall ops ops', Forall2 (fun a a' => a' = a \/ a' = Crash) ops ops' -> forall d o, In (Propose d o) ops' -> In (@Propose P V Orc d o) ops.
Proof using.
  intros ops ops' H. induction H as [|a a' l l' H1 H2 IH]; intros d o Hin; [destruct Hin|]. destruct Hin as [E|Hin]; [|right; auto].
  subst a'. destruct H1 as [<-|H1]; [left; reflexivity|discriminate].
Qed.
End Refine.

(** Every batch in the history was generated by a call of propose_action. *)
Lemma generated_all : forall P V Ext Orc (c : cfg P V) (hk : hooks P V Ext Orc) (Q : nat -> option (list P) -> Prop) design e0 ops,
  (forall ops1 d o ops2 p out p' t n r, ops = ops1 ++ Propose d o :: ops2 -> y_proc (Strategy.run c hk design e0 ops1) = Some p ->
     do_propose c hk d o p = Ok (out, p') -> p_hist p' = p_hist p ++ t -> In (EvGenerate n r) t -> Q n r) ->
  forall p, y_proc (Strategy.run c hk design e0 ops) = Some p \/ y_disk (Strategy.run c hk design e0 ops) = Some p ->
  forall n r, In (EvGenerate n r) (p_hist p) -> Q n r.
Proof.
  intros P V Ext Orc c hk Q design e0 ops. induction ops as [|a ops IH] using rev_ind; intros H p Hp n r Hin.
  - unfold Strategy.run, run_from, start in Hp. cbn [fold_left] in Hp. destruct (construct c hk design e0) as [[s e]|].
    + destruct Hp as [[= <-]|Hp]; [destruct Hin|discriminate].
    + destruct Hp; discriminate.
  - assert (IH' : forall p, y_proc (Strategy.run c hk design e0 ops) = Some p \/ y_disk (Strategy.run c hk design e0 ops) = Some p ->
      forall n r, In (EvGenerate n r) (p_hist p) -> Q n r).
    { apply IH. intros ops1 d o ops2 p1 out p' t n1 r1 E. apply (H ops1 d o (ops2 ++ [a])). rewrite E, <- app_assoc. reflexivity. }
    assert (HP : forall d o p1 out p', a = Propose d o -> y_proc (Strategy.run c hk design e0 ops) = Some p1 -> do_propose c hk d o p1 = Ok (out, p') ->
      forall n r, In (EvGenerate n r) (p_hist p') -> Q n r).
    { intros d o p1 out p' -> E1 E2 n1 r1 K. assert (T : exists t, p_hist p' = p_hist p1 ++ t).
      { unfold do_propose in E2. apply rbind_ok in E2. destruct E2 as [[[o2 [s2 e2]] evs] [_ E2]]. injection E2 as _ <-. destruct o2; eexists; reflexivity. }
      destruct T as [t T]. rewrite T in K. apply in_app_or in K. destruct K as [K|K]; [eapply IH'; [left; exact E1|exact K]|].
      eapply (H ops d o []); [reflexivity|exact E1|exact E2|exact T|exact K]. }
    clear IH H. unfold Strategy.run, run_from in Hp, IH', HP. rewrite fold_left_app in Hp. cbn [fold_left] in Hp. fold (run_from c hk (start c hk design e0) ops) in Hp.
    unfold run_from in Hp. set (y := fold_left (Strategy.step c hk) ops (start c hk design e0)) in *. clearbody y.
    assert (OLD : forall p1, y_proc y = Some p1 -> forall ev (p2 : proc P V Ext), (forall n r, ev <> EvGenerate n r) -> p_hist p2 = p_hist p1 ++ [ev] -> In (EvGenerate n r) (p_hist p2) -> Q n r).
    { intros p1 E1 ev p2 NE E2 K. rewrite E2 in K. apply in_app_or in K. destruct K as [K|[K|[]]]; [eapply IH'; [left; exact E1|exact K]|destruct (NE n r); exact K]. }
    unfold Strategy.step in Hp. destruct (y_proc y) as [p1|] eqn:E1.
    + destruct a as [d o|id|id|id st| | |].
      * destruct (do_propose c hk d o p1) as [[out p']|] eqn:E2; [|destruct Hp as [Hp|Hp]; [discriminate|eapply IH'; [right; exact Hp|exact Hin]]].
        destruct out; cbn [y_proc y_disk] in Hp; destruct Hp as [Hp|Hp]; first [injection Hp as <-; eapply HP; eauto; fail | eapply IH'; [right; exact Hp|exact Hin]].
      * destruct (get_out id (p_out p1)) as [o|]; [|rewrite E1 in Hp; eapply IH'; [exact Hp|exact Hin]]. destruct (o_ev o); [rewrite E1 in Hp; eapply IH'; [exact Hp|exact Hin]|].
        destruct Hp as [Hp|Hp]; [|eapply IH'; [right; exact Hp|exact Hin]]. injection Hp as <-. unfold do_accept in Hin. destruct (on_accepted (p_s p1)) as [ev s1].
        eapply (OLD p1 eq_refl (EvAccept (o_id o))); [discriminate| |exact Hin]. reflexivity.
      * destruct (get_out id (p_out p1)) as [o|]; [|rewrite E1 in Hp; eapply IH'; [exact Hp|exact Hin]]. destruct (o_ev o); [rewrite E1 in Hp; eapply IH'; [exact Hp|exact Hin]|].
        destruct Hp as [Hp|Hp]; [|eapply IH'; [right; exact Hp|exact Hin]]. injection Hp as <-.
        eapply (OLD p1 eq_refl (EvReject (o_id o) (o_kind o) (o_x o))); [discriminate| |exact Hin]. reflexivity.
      * destruct (get_out id (p_out p1)) as [o|]; [|rewrite E1 in Hp; eapply IH'; [exact Hp|exact Hin]].
        assert (FIN : forall (rr : res (proc P V Ext)) ev2, (forall p2, rr = Ok p2 -> p_hist p2 = p_hist p1 ++ [ev2]) -> (forall n r, ev2 <> EvGenerate n r) ->
          y_proc (Strategy.finish c p1 rr (y_disk y)) = Some p \/ y_disk (Strategy.finish c p1 rr (y_disk y)) = Some p -> Q n r).
        { intros [p2|e2] ev2 F1 F2 F3; unfold Strategy.finish in F3; cbn [y_proc y_disk] in F3; destruct (c_save_first c); destruct F3 as [F3|F3]; try discriminate; try (injection F3 as <-);
          try (eapply (OLD p1 eq_refl ev2); [exact F2|apply F1; reflexivity|exact Hin]); try (eapply IH'; [left; reflexivity|exact Hin]). eapply IH'; [right; exact F3|exact Hin]. }
        destruct (o_ev o) as [ev|]; [|rewrite E1 in Hp; destruct st; eapply IH'; try exact Hp; exact Hin].
        destruct st as [|v| |].
        -- rewrite E1 in Hp. eapply IH'; [exact Hp|exact Hin].
        -- eapply (FIN _ (EvComplete (o_id o) (o_kind o) (o_x o) v)); [|discriminate|exact Hp].
           intros p2 D. unfold do_complete in D. apply rbind_ok in D. destruct D as [se [_ D]]. injection D as <-. reflexivity.
        -- eapply (FIN _ (EvAbort (o_id o) (o_kind o) (o_x o))); [|discriminate|exact Hp]. intros p2 D. injection D as <-. reflexivity.
        -- eapply (FIN _ (EvAbort (o_id o) (o_kind o) (o_x o))); [|discriminate|exact Hp]. intros p2 D. injection D as <-. reflexivity.
      * destruct Hp as [Hp|Hp]; [|eapply IH'; [right; exact Hp|exact Hin]]. injection Hp as <-. eapply (OLD p1 eq_refl EvStop); [discriminate| |exact Hin]. reflexivity.
      * destruct Hp as [Hp|Hp]; [discriminate|eapply IH'; [right; exact Hp|exact Hin]].
      * rewrite E1 in Hp. eapply IH'; [exact Hp|exact Hin].
    + destruct a; try (rewrite E1 in Hp; eapply IH'; [exact Hp|exact Hin]). destruct (y_disk y) as [p1|] eqn:E2; [|rewrite E1, E2 in Hp; eapply IH'; [exact Hp|exact Hin]].
      cbn [y_proc y_disk] in Hp. destruct Hp as [Hp|Hp]; [|eapply IH'; [right; exact Hp|exact Hin]]. injection Hp as <-. unfold do_resume in Hin. cbn [p_hist] in Hin.
      apply in_app_or in Hin. destruct Hin as [Hin|[Hin|[]]]; [|discriminate]. eapply IH'; [right; reflexivity|exact Hin].
Qed.

(** ** The two strategies *)
Section Rbf.
Variable q : prob.
Variable dim : nat.
Variable dist : pt -> pt -> R.
Variable dtol : R.
Variable num_cand : option nat.
Variable eta : R.
Variable c : cfg pt val.
Variable weights : list Q.
Notation model := (predicted q dim eta).

Lemma srbf_refine : forall e s n (o : nat -> nat -> R) r, hk_generate (srbf_rbf q dim dist dtol num_cand eta c weights) e s n o = Ok r ->
  hk_generate (srbf_full q dim dist model dtol num_cand c weights) e s n o = Ok r.
Proof using.
  intros e s n o r. cbn [srbf_rbf srbf_full hooks_with hk_generate srbf_strategy srbf_hooks]. unfold srbf_generate.
  destruct (get_weights weights n (s_next e)) as [[ws nx]|]; [|discriminate]. cbn [rbind fst snd]. unfold srbf_rbf_search.
  destruct (center s) as [xb|]; [|discriminate]. cbn [rbind]. destruct (rbf_predict q dim eta (sur s) xb); [|discriminate]. cbn [rbind]. auto.
Qed.
Lemma dycors_refine : forall e s n (o : dydraws) r, hk_generate (dycors_rbf q dim dist dtol num_cand eta c weights) e s n o = Ok r ->
  hk_generate (dycors_full q dim dist model dtol num_cand c weights) e s n o = Ok r.
Proof using.
  intros e s n o r. cbn [dycors_rbf dycors_full hooks_with hk_generate srbf_strategy srbf_hooks]. unfold srbf_generate.
  destruct (get_weights weights n (s_next e)) as [[ws nx]|]; [|discriminate]. cbn [rbind fst snd]. unfold dycors_rbf_search.
  destruct (center s) as [xb|]; [|discriminate]. cbn [rbind]. destruct (rbf_predict q dim eta (sur s) xb); [|discriminate]. cbn [rbind]. auto.
Qed.

(** A run with the RBF surrogate is one with its predictions taken as given, where the calls that
    raised are crashes. *)
Lemma srbf_as_full : forall design ops, exists ops', Strategy.run c (srbf_rbf q dim dist dtol num_cand eta c weights) design srbf0 ops =
  Strategy.run c (srbf_full q dim dist model dtol num_cand c weights) design srbf0 ops' /\ forall d z, In (Propose d z) ops' -> In (Propose d z) ops.
Proof using.
  intros design ops. destruct (@refine_run _ _ _ _ c (srbf_rbf q dim dist dtol num_cand eta c weights) (srbf_full q dim dist model dtol num_cand c weights)
    (fun _ => eq_refl) (fun _ _ _ _ _ => eq_refl) (fun _ _ _ _ _ => eq_refl) srbf_refine design srbf0 ops) as [ops' [E1 E2]].
  exists ops'. split; [exact E1|]. exact (refine_designs E2).
Qed.
Lemma dycors_as_full : forall design ops, exists ops', Strategy.run c (dycors_rbf q dim dist dtol num_cand eta c weights) design srbf0 ops =
  Strategy.run c (dycors_full q dim dist model dtol num_cand c weights) design srbf0 ops' /\ forall d z, In (Propose d z) ops' -> In (Propose d z) ops.
Proof using.
  intros design ops. destruct (@refine_run _ _ _ _ c (dycors_rbf q dim dist dtol num_cand eta c weights) (dycors_full q dim dist model dtol num_cand c weights)
    (fun _ => eq_refl) (fun _ _ _ _ _ => eq_refl) (fun _ _ _ _ _ => eq_refl) dycors_refine design srbf0 ops) as [ops' [E1 E2]].
  exists ops'. split; [exact E1|]. exact (refine_designs E2).
Qed.

Lemma predict_any : forall d x v, rbf_predict q dim eta d x = Ok v -> forall y, exists w, rbf_predict q dim eta d y = Ok w.
Proof using.
  intros d x v H y. unfold rbf_predict in *. destruct (mapR num (map snd d)) as [ys|]; [|discriminate]. cbn [rbind] in *. unfold answer, predict in *.
  destruct (fit _ _ _ _ _) as [s' [[]|e]]; cbn [snd] in *; [|discriminate]. destruct (r_c s') as [cc|]; [|discriminate]. eexists. reflexivity.
Qed.

(** C69 for SRBFStrategy with RBFInterpolant: the predictions are those of the cubic RBF with linear
    tail fitted to the data of the current run (and the user's known points before the first restart). *)
Theorem C69_srbf_rbf : setting q dim dist dtol num_cand -> legal c -> weights <> [] -> (forall x y, c_peqb c x y = true <-> x = y) ->
  forall design ops p, y_proc (Strategy.run c (srbf_rbf q dim dist dtol num_cand eta c weights) design srbf0 ops) = Some p ->
  (forall d, design = Ok d -> Forall (feasible q dim) d) ->
  (forall d z, In (Propose (Ok d) z) ops -> Forall (feasible q dim) d) ->
  Forall (feasible q dim) (unknown c) -> no_duplicates (p_hist p) ->
  forall d z out p' t n r, do_propose c (srbf_rbf q dim dist dtol num_cand eta c weights) d z p = Ok (out, p') ->
  p_hist p' = p_hist p ++ t -> In (EvGenerate n r) t ->
  exists l data xb cand, r = Some l /\ length l = n /\ n = (if c_async c then 1 else c_batch c)%nat /\
    subseq data (run_data (p_hist p)) /\ (c_async c = false -> data = run_data (p_hist p)) /\ first_best data xb /\
    length cand = cand_count dim num_cand /\ drawn q dim xb (Q2R (s_radius (p_e p))) (fun _ _ => True) z cand /\
    let fitted := (if (restarts (p_hist p) =? 0)%nat then known c else []) ++ data in
    (forall y, exists v, rbf_predict q dim eta fitted y = Ok v) /\
    chosen dist (predicted q dim eta fitted) dtol (used_weights weights (p_hist p) n) (map fst data ++ map snd (outstanding (p_hist p))) cand l.
Proof using.
  intros SE HL HW HP design ops p Hp Hd Ho Hu ND d z out p' t n r DP Ht Hin.
  destruct (srbf_as_full design ops) as [ops' [E1 E2]]. rewrite E1 in Hp.
  pose proof (@refine_propose _ _ _ _ c (srbf_rbf q dim dist dtol num_cand eta c weights) (srbf_full q dim dist model dtol num_cand c weights) (fun _ => eq_refl) srbf_refine d z p (out, p') DP) as DP'.
  destruct (@propose_generates _ _ _ _ c _ d z p p' out t n r DP Ht Hin) as [e' [G _]].
  assert (PR : forall y, exists v, rbf_predict q dim eta (sur (p_s p)) y = Ok v).
  { set (s' := set_phase 2%nat (check_termination c (p_s p))) in G.
    assert (S4 : sur s' = sur (p_s p)) by (unfold s', check_termination; destruct (_ <=? _)%Z; reflexivity). clearbody s'.
    cbn [srbf_rbf hooks_with hk_generate srbf_strategy srbf_hooks] in G. unfold srbf_generate in G. apply rbind_ok in G. destruct G as [ws [_ G]].
    apply rbind_ok in G. destruct G as [pts [G _]]. unfold srbf_rbf_search in G. apply rbind_ok in G. destruct G as [x0 [_ G]]. apply rbind_ok in G. destruct G as [v0 [G _]].
    rewrite S4 in G. exact (predict_any _ _ G). }
  pose proof (@C13_srbf q dim dist model dtol num_cand c weights design SE HL ops' p Hp Hd (fun d z H => Ho d z (E2 _ _ H)) Hu) as FE.
  assert (HR : reached c (srbf_full q dim dist model dtol num_cand c weights) design srbf0 p) by (exists ops'; left; exact Hp).
  assert (LD : length (q_lb q) = dim) by apply (se_wf SE).
  destruct (@batch_gen q dim dist model dtol num_cand c weights _ (srbf_search q dist model dtol num_cand) (fun z r xb => srbf_cand q r (seq 0 dim) (cand_count dim num_cand) xb (in_range q xb r z))
    SE HL HW HP) with (design := design) (d := d) (o := z) (p := p) (out := out) (p' := p') (t := t) (n := n) (r := r)
    as [l [data [xb [cand [A1 [A2 [A3 [A4 [A5 [A6 [A7 [A8 [A9 [AS A10]]]]]]]]]]]]]]; try assumption.
  - intros o s m ws rr. unfold srbf_search. unfold center at 1. destruct (x_best (X_ s) (map toxr (fX_ s))) as [xb|] eqn:E; [|unfold center; rewrite E; reflexivity].
    unfold center. rewrite E. cbn [rbind]. unfold candidate_srbf. rewrite E. cbn [rbind]. unfold all_coords. rewrite LD. reflexivity.
  - intros xb cand FB K. destruct (Rle_or_lt (Q2R (s_radius (p_e p))) 0) as [N|N].
    + exfalso. assert (RP : 0 < Q2R (s_radius (p_e p))); [|lra]. assert (HR' : reached c (srbf_strategy c weights dim) design srbf0 p) by (eapply reached_with; exact HR).
      eapply radius_pos; [exact (@ft_nz pt c dim HL)|exact (a_e (@all_inv pt c weights dim design HL p HR'))].
    + destruct (@srbf_drawn q dim (se_wf SE) _ _ _ _ _ FB N  K) as [L _]. intros ->. cbn in L. pose proof (se_dim SE). pose proof (se_nc SE). unfold cand_count in L. destruct num_cand as [[|k]|]; [congruence|discriminate|lia].
  - destruct (@srbf_drawn q dim (se_wf SE) _ _ _ _ _ A7 A8  A9) as [L DR]. exists l, data, xb, cand. repeat (split; [assumption|]). cbv zeta.
    rewrite <- AS. split; [exact PR|]. rewrite AS. exact A10.
Qed.

(** C69 for DYCORSStrategy with RBFInterpolant: the predictions are those of the cubic RBF with linear
    tail fitted to the data of the current run (and the user's known points before the first restart). *)
Theorem C69_dycors_rbf : setting q dim dist dtol num_cand -> legal c -> weights <> [] -> (forall x y, c_peqb c x y = true <-> x = y) ->
  forall design ops p, y_proc (Strategy.run c (dycors_rbf q dim dist dtol num_cand eta c weights) design srbf0 ops) = Some p ->
  (forall d, design = Ok d -> Forall (feasible q dim) d) ->
  (forall d z, In (Propose (Ok d) z) ops -> Forall (feasible q dim) d) ->
  Forall (feasible q dim) (unknown c) -> no_duplicates (p_hist p) ->
  forall d z out p' t n r, do_propose c (dycors_rbf q dim dist dtol num_cand eta c weights) d z p = Ok (out, p') ->
  p_hist p' = p_hist p ++ t -> In (EvGenerate n r) t ->
  exists l data xb cand, r = Some l /\ length l = n /\ n = (if c_async c then 1 else c_batch c)%nat /\
    subseq data (run_data (p_hist p)) /\ (c_async c = false -> data = run_data (p_hist p)) /\ first_best data xb /\
    length cand = cand_count dim num_cand /\ drawn q dim xb (Q2R (s_radius (p_e p))) (dycors_selected dim (dy_u z) (fun k => dy_f z k mod (dim - 1))%nat) (dy_z z) cand /\
    let fitted := (if (restarts (p_hist p) =? 0)%nat then known c else []) ++ data in
    (forall y, exists v, rbf_predict q dim eta fitted y = Ok v) /\
    chosen dist (predicted q dim eta fitted) dtol (used_weights weights (p_hist p) n) (map fst data ++ map snd (outstanding (p_hist p))) cand l.
Proof using.
  intros SE HL HW HP design ops p Hp Hd Ho Hu ND d z out p' t n r DP Ht Hin.
  destruct (dycors_as_full design ops) as [ops' [E1 E2]]. rewrite E1 in Hp.
  pose proof (@refine_propose _ _ _ _ c (dycors_rbf q dim dist dtol num_cand eta c weights) (dycors_full q dim dist model dtol num_cand c weights) (fun _ => eq_refl) dycors_refine d z p (out, p') DP) as DP'.
  destruct (@propose_generates _ _ _ _ c _ d z p p' out t n r DP Ht Hin) as [e' [G _]].
  assert (PR : forall y, exists v, rbf_predict q dim eta (sur (p_s p)) y = Ok v).
  { set (s' := set_phase 2%nat (check_termination c (p_s p))) in G.
    assert (S4 : sur s' = sur (p_s p)) by (unfold s', check_termination; destruct (_ <=? _)%Z; reflexivity). clearbody s'.
    cbn [dycors_rbf hooks_with hk_generate srbf_strategy srbf_hooks] in G. unfold srbf_generate in G. apply rbind_ok in G. destruct G as [ws [_ G]].
    apply rbind_ok in G. destruct G as [pts [G _]]. unfold dycors_rbf_search in G. apply rbind_ok in G. destruct G as [x0 [_ G]]. apply rbind_ok in G. destruct G as [v0 [G _]].
    rewrite S4 in G. exact (predict_any _ _ G). }
  pose proof (@C13_dycors q dim dist model dtol num_cand c weights design SE HL ops' p Hp Hd (fun d z H => Ho d z (E2 _ _ H)) Hu) as FE.
  assert (HR : reached c (dycors_full q dim dist model dtol num_cand c weights) design srbf0 p) by (exists ops'; left; exact Hp).
  assert (LD : length (q_lb q) = dim) by apply (se_wf SE).
  destruct (@batch_gen q dim dist model dtol num_cand c weights _ (dycors_search q dist model dtol num_cand) (fun z r xb => dycors_cand q r (seq 0 dim) (cand_count dim num_cand) xb (dy_u z) (fun k => dy_f z k mod (dim - 1))%nat (in_range q xb r (dy_z z)))
    SE HL HW HP) with (design := design) (d := d) (o := z) (p := p) (out := out) (p' := p') (t := t) (n := n) (r := r)
    as [l [data [xb [cand [A1 [A2 [A3 [A4 [A5 [A6 [A7 [A8 [A9 [AS A10]]]]]]]]]]]]]]; try assumption.
  - intros o s m ws rr. unfold dycors_search. unfold center at 1. destruct (x_best (X_ s) (map toxr (fX_ s))) as [xb|] eqn:E; [|unfold center; rewrite E; reflexivity].
    unfold center. rewrite E. cbn [rbind]. unfold candidate_dycors. rewrite E. cbn [rbind]. unfold all_coords. rewrite LD. reflexivity.
  - intros xb cand FB K. destruct (Rle_or_lt (Q2R (s_radius (p_e p))) 0) as [N|N].
    + exfalso. assert (RP : 0 < Q2R (s_radius (p_e p))); [|lra]. assert (HR' : reached c (srbf_strategy c weights dim) design srbf0 p) by (eapply reached_with; exact HR).
      eapply radius_pos; [exact (@ft_nz pt c dim HL)|exact (a_e (@all_inv pt c weights dim design HL p HR'))].
    + destruct (@dycors_drawn q dim (se_wf SE) _ _ _ _ _ _ _ FB N (se_dim SE) K) as [L _]. intros ->. cbn in L. pose proof (se_dim SE). pose proof (se_nc SE). unfold cand_count in L. destruct num_cand as [[|k]|]; [congruence|discriminate|lia].
  - destruct (@dycors_drawn q dim (se_wf SE) _ _ _ _ _ _ _ A7 A8 (se_dim SE) A9) as [L DR]. exists l, data, xb, cand. repeat (split; [assumption|]). cbv zeta.
    rewrite <- AS. split; [exact PR|]. rewrite AS. exact A10.
Qed.
End Rbf.
