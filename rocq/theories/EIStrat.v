(** * EIStrategy and LCBStrategy with the actual searches ei_ga and lcb_ga (C13, C37).

    pySOT/strategy/ei_strategy.py:102-123 and lcb_strategy.py:102-125; the other methods are those
    of SurrogateBaseStrategy.  Function values are reals.  The free inputs are the designs, the
    random draws of the genetic algorithm, the fitted Gaussian process and the controller. *)
From Coq Require Import List Arith ZArith Lia Bool Reals Lra.
From Verif Require Import Base PyList Strategy StrategySpec StrategyProofs StrategyInv StrategyInv2
  StrategyInv3 StrategyInv4 PropStrategy Box PropBox Cand PropCand GA PropGA EndToEnd.
Import ListNotations.

Set Implicit Arguments.
Local Open Scope R_scope.

(** ndarray.min(), ndarray.max(); ValueError for an empty array. *)
(** pySOT/strategy/ei_strategy.py:106: self.fX.min(). *)
Definition np_min (l : list R) : res R := match l with [] => Err ValueError | a :: l' => Ok (Rminl a l') end.
(** pySOT/strategy/ei_strategy.py:106: self.fX.max(). *)
Definition np_max (l : list R) : res R := match l with [] => Err ValueError | a :: l' => Ok (Rmaxl a l') end.

(** ei_strategy.py:104-106; the same formula for lcb_tol, lcb_strategy.py:104-106. *)
Definition tolerance (tol : option R) (fX : list R) : res R :=
  match tol with
  | Some t => Ok t
  | None => do M <- np_max fX; do m <- np_min fX; Ok (/ 1000000 * (M - m))
  end.

Lemma map_fst_combine' : forall A B (l : list A) (l' : list B), length l = length l' -> map fst (combine l l') = l.
Proof. intros A B l. induction l as [|a l IH]; intros [|b l'] H; simpl in *; try discriminate; [reflexivity|]. f_equal. apply IH. congruence. Qed.
Lemma map_snd_combine' : forall A B (l : list A) (l' : list B), length l = length l' -> map snd (combine l l') = l'.
Proof. intros A B l. induction l as [|a l IH]; intros [|b l'] H; simpl in *; try discriminate; [reflexivity|]. f_equal. apply IH. congruence. Qed.

Section Strat.
Variable q : prob.
Variable dim : nat.
Variable dist : pt -> pt -> R.
(** surrogate.predict, surrogate.predict_std of the process fitted to the given data *)
Variables mu sig : list (pt * R) -> pt -> R.
Variables Phi phi : R -> R.
Variable dtol : R.

(** The draws of the runs of the genetic algorithm in one call of generate_evals. *)
(** The draws used by ei_ga.py:53 / lcb_ga.py:53 in one call. *)
Definition runs : Type := { ds : nat -> ga_draws | forall i, run_ok q dim (ds i) }.

(** generate_evals, ei_strategy.py:102-123.  np.min(fX) in ei_merit of an empty fX is a ValueError;
    it is evaluated here also if num_pts = 0. *)
Definition ei_generate (ei_tol : option R) (e : unit) (s : base pt R) (n : nat) (o : runs) : res (unit * option (list pt)) :=
  do tol <- tolerance ei_tol (fX s);
  do fmin <- np_min (fX_ s);
  do r <- ei_ga dist (mu (sur s)) (sig (sur s)) Phi phi q fmin dtol tol (X_ s ++ Xpend s) n (proj1_sig o);
  Ok (tt, r).

(** generate_evals, lcb_strategy.py:102-125. *)
Definition lcb_generate (kappa : R) (lcb_tol : option R) (e : unit) (s : base pt R) (n : nat) (o : runs) : res (unit * option (list pt)) :=
  do tol <- tolerance lcb_tol (fX s);
  do m <- np_min (fX s);
  do r <- lcb_ga dist (mu (sur s)) (sig (sur s)) q kappa dtol (Some (m - tol)) (X_ s ++ Xpend s) n (proj1_sig o);
  Ok (tt, r).

(** pySOT/strategy/ei_strategy.py:102-123: the overridden generate_evals; the other methods are inherited. *)
Definition ei_strategy (ei_tol : option R) : hooks pt R unit runs :=
  mkHooks (fun e => e) (fun e _ _ _ _ => Ok e) (fun e _ _ _ _ => Ok (e, 0%nat, false)) (ei_generate ei_tol).
(** pySOT/strategy/lcb_strategy.py:102-125: the overridden generate_evals; the other methods are inherited. *)
Definition lcb_strategy (kappa : R) (lcb_tol : option R) : hooks pt R unit runs :=
  mkHooks (fun e => e) (fun e _ _ _ _ => Ok e) (fun e _ _ _ _ => Ok (e, 0%nat, false)) (lcb_generate kappa lcb_tol).

Variable c : cfg pt R.
Variable design : res (list pt).
Hypothesis WF : well_formed q dim.

(** ** Feasibility *)
Lemma ei_ga_feasible : forall mu0 sig0 fmin tol n XX ds l, (forall i, run_ok q dim (ds i)) ->
  ei_ga dist mu0 sig0 Phi phi q fmin dtol tol XX n ds = Ok (Some l) -> length l = n /\ Forall (feasible q dim) l.
Proof using WF.
  intros mu0 sig0 fmin tol n. induction n as [|n IH]; intros XX ds l HD H; cbn [ei_ga] in H.
  - injection H as <-. split; [reflexivity|constructor].
  - assert (NN : forall x, ei_obj dist mu0 sig0 Phi phi q fmin dtol XX x <> XNan) by (intros x; unfold ei_obj; discriminate).
    destruct (@C35_ga q dim WF _ NN (ga_pop_size q) (gd_unit (ds 0%nat)) (gd_gens (ds 0%nat)) (pop_size_pos q) (HD 0%nat))
      as [x [v [tr [G1 [G2 [G3 _]]]]]].
    rewrite G1 in H. cbn [rbind] in H. rewrite G3 in H. unfold ei_obj in H at 1. destruct Rlt_dec in H; [discriminate|].
    apply rbind_ok in H. destruct H as [r [H1 H2]]. destruct r as [l'|]; [|discriminate]. injection H2 as <-.
    apply IH in H1; [|intros i; apply HD]. destruct H1. split; [simpl; congruence|constructor; auto].
Qed.
Lemma lcb_ga_feasible : forall mu0 sig0 kappa tgt n XX ds l, (forall i, run_ok q dim (ds i)) ->
  lcb_ga dist mu0 sig0 q kappa dtol (Some tgt) XX n ds = Ok (Some l) -> length l = n /\ Forall (feasible q dim) l.
Proof using WF.
  intros mu0 sig0 kappa tgt n. induction n as [|n IH]; intros XX ds l HD H; cbn [lcb_ga] in H.
  - injection H as <-. split; [reflexivity|constructor].
  - assert (NN : forall x, lcb_obj dist mu0 sig0 q kappa dtol XX x <> XNan).
    { intros x. unfold lcb_obj, lcb_merit. destruct Rlt_dec; [destruct too_close|]; discriminate. }
    destruct (@C35_ga q dim WF _ NN (ga_pop_size q) (gd_unit (ds 0%nat)) (gd_gens (ds 0%nat)) (pop_size_pos q) (HD 0%nat))
      as [x [v [tr [G1 [G2 [G3 _]]]]]].
    rewrite G1 in H. cbn [rbind] in H. destruct (xlt (XFin tgt) v); [discriminate|].
    apply rbind_ok in H. destruct H as [r [H1 H2]]. destruct r as [l'|]; [|discriminate]. injection H2 as <-.
    apply IH in H1; [|intros i; apply HD]. destruct H1. split; [simpl; congruence|constructor; auto].
Qed.

Lemma ei_generate_ok : forall tol e s n o e' l, ei_generate tol e s n o = Ok (e', Some l) -> length l = n /\ Forall (feasible q dim) l.
Proof using WF.
  intros tol e s n o e' l H. unfold ei_generate in H. apply rbind_ok in H. destruct H as [t [_ H]].
  apply rbind_ok in H. destruct H as [fm [_ H]]. apply rbind_ok in H. destruct H as [r [H K]]. injection K as _ ->.
  eapply ei_ga_feasible; [exact (proj2_sig o)|exact H].
Qed.
Lemma lcb_generate_ok : forall kappa tol e s n o e' l, lcb_generate kappa tol e s n o = Ok (e', Some l) ->
  length l = n /\ Forall (feasible q dim) l.
Proof using WF.
  intros kappa tol e s n o e' l H. unfold lcb_generate in H. apply rbind_ok in H. destruct H as [t [_ H]].
  apply rbind_ok in H. destruct H as [fm [_ H]]. apply rbind_ok in H. destruct H as [r [H K]]. injection K as _ ->.
  eapply lcb_ga_feasible; [exact (proj2_sig o)|exact H].
Qed.

Theorem C13_ei : forall tol ops p,
  y_proc (run c (ei_strategy tol) design tt ops) = Some p ->
  (forall d, design = Ok d -> Forall (feasible q dim) d) ->
  (forall d z, In (Propose (Ok d) z) ops -> Forall (feasible q dim) d) ->
  Forall (feasible q dim) (unknown c) ->
  forall id k x, In (EvPropose id k x) (p_hist p) -> feasible q dim x.
Proof using WF.
  intros tol ops p Hp Hd Ho Hu.
  apply (@feasible_closed _ _ _ _ c (ei_strategy tol) design tt (feasible q dim) ops p (or_introl Hp) Hd Ho Hu).
  intros s e p0 n z e' l _ _ _ G. exact (proj2 (@ei_generate_ok tol tt _ _ _ _ _ G)).
Qed.
Theorem C13_lcb : forall kappa tol ops p,
  y_proc (run c (lcb_strategy kappa tol) design tt ops) = Some p ->
  (forall d, design = Ok d -> Forall (feasible q dim) d) ->
  (forall d z, In (Propose (Ok d) z) ops -> Forall (feasible q dim) d) ->
  Forall (feasible q dim) (unknown c) ->
  forall id k x, In (EvPropose id k x) (p_hist p) -> feasible q dim x.
Proof using WF.
  intros kappa tol ops p Hp Hd Ho Hu.
  apply (@feasible_closed _ _ _ _ c (lcb_strategy kappa tol) design tt (feasible q dim) ops p (or_introl Hp) Hd Ho Hu).
  intros s e p0 n z e' l _ _ _ G. exact (proj2 (@lcb_generate_ok kappa tol tt _ _ _ _ _ G)).
Qed.

(** C10 for both: in asynchronous mode with budget left a request always yields an evaluation. *)
Theorem C10_ei_async_always_proposes : forall tol, c_async c = true -> c_restarts c = true ->
  forall d o p out p', reached c (ei_strategy tol) design tt p ->
  ~ stop_seen (c_max_evals c) (p_hist p) -> (used (p_hist p) < c_max_evals c)%Z ->
  do_propose c (ei_strategy tol) d o p = Ok (out, p') -> exists k x, out = OEval k x.
Proof using WF.
  intros tol Ha Hr d o p out p' H. eapply C10_async_always_proposes; eauto.
  intros e s n o' e' l Hn G. apply (@ei_generate_ok tol e) in G. intros ->. simpl in G. lia.
Qed.
Theorem C10_lcb_async_always_proposes : forall kappa tol, c_async c = true -> c_restarts c = true ->
  forall d o p out p', reached c (lcb_strategy kappa tol) design tt p ->
  ~ stop_seen (c_max_evals c) (p_hist p) -> (used (p_hist p) < c_max_evals c)%Z ->
  do_propose c (lcb_strategy kappa tol) d o p = Ok (out, p') -> exists k x, out = OEval k x.
Proof using WF.
  intros kappa tol Ha Hr d o p out p' H. eapply C10_async_always_proposes; eauto.
  intros e s n o' e' l Hn G. apply (@lcb_generate_ok kappa tol e) in G. intros ->. simpl in G. lia.
Qed.

(** ** Batches in a run *)
(** The data of the surrogate, from the history. *)
(** Specification: what add_points got since the last reset, pySOT/strategy/surrogate_strategy.py:227, 247, 364, 429, from the history. *)
Definition surrogate_data (h : list (event pt R)) : list (pt * R) :=
  (if (restarts h =? 0)%nat then known c else []) ++ run_data h.

Lemma state_at : forall (hk : hooks pt R unit runs),
  (forall e s x v ev, hk_adapt_completed hk e s x v ev = Ok (e, 0%nat, false)) ->
  (forall x y, c_peqb c x y = true <-> x = y) ->
  forall p h1 n r h2, reached c hk design tt p -> p_hist p = h1 ++ EvGenerate n r :: h2 -> no_duplicates h1 ->
  exists (s : base pt R) o, hk_generate hk tt s n o = Ok (tt, r) /\
    X_ s = map fst (run_data h1) /\ fX_ s = map snd (run_data h1) /\
    Xpend s = map snd (outstanding h1) /\ sur s = surrogate_data h1 /\
    fX s = map snd (known c) ++ map snd (completed h1) /\
    n = (if c_async c then 1%nat else c_batch c).
Proof using.
  clear WF.
  intros hk HA HP p h1 n r h2 H E ND. apply reached_micros in H. destruct H as [[s e] [H1 M]].
  assert (I0 : Inv c (init_proc (s, e))) by (eapply Inv_init; eassumption).
  destruct (event_step M eq_refl _ _ _ E) as [p1 [p2 [M1 [M2 [_ [Eq Er]]]]]]. rewrite <- Eq in Er.
  pose proof (@micro_event _ _ _ _ c hk _ _ _ M2 Er) as [_ [_ [_ [_ [En [o [e' G]]]]]]].
  assert (Iq : Inv c p1) by (eapply Inv_micros; eassumption).
  assert (XI : XpendInv p1).
  { apply (@micros_from _ _ _ _ c hk (@XpendInv pt R unit) _ I0); [| |exact M1].
    - destruct (construct_form _ _ _ _ H1) as [d [_ [rows0 [_ [_ HS]]]]].
      apply sample_initial_ok in HS. destruct HS as [d1 [rows1 [_ [_ [_ ->]]]]].
      split; simpl; [intros x []|]. intros _. split; [constructor|reflexivity].
    - intros a b Ia Xa N. eapply XpendInv_micro; eassumption. }
  assert (F : RunInv c p1 /\ FullInv p1).
  { apply (@micros_from _ _ _ _ c hk (fun q => RunInv c q /\ FullInv q) _ I0); [| |exact M1].
    - split.
      + apply (@RunInv_reached _ _ _ _ c hk design tt). exists []. left. unfold run. simpl. unfold start. rewrite H1. reflexivity.
      + destruct (construct_form _ _ _ _ H1) as [d [_ [rows0 [_ [_ HS]]]]].
        apply sample_initial_ok in HS. destruct HS as [d1 [rows1 [_ [_ [_ ->]]]]].
        split; simpl; [intros; contradiction|reflexivity].
    - intros a b Ia [Ra Fa] N. split; [eapply RunInv_micro; eassumption|].
      eapply (@FullInv_micro _ _ _ _ c hk); [|exact Ia|exact Ra|exact Fa|exact N].
      intros e1 s1 x v ev e2 m cv K Hm. rewrite HA in K. injection K as _ <- _. lia. }
  destruct F as [RI [_ F]]. destruct XI as [_ XI]. rewrite Eq in *. destruct (XI ND) as [_ XE].
  exists (p_s p1), o. destruct (p_e p1), e'. split; [exact G|].
  assert (L : length (X_ (p_s p1)) = length (fX_ (p_s p1))) by (destruct RI; assumption).
  rewrite <- F. split; [symmetry; apply map_fst_combine'; exact L|]. split; [symmetry; apply map_snd_combine'; exact L|].
  split; [rewrite XE; rewrite <- Eq, (inv_out Iq), map_map; reflexivity|].
  split; [unfold surrogate_data; rewrite <- F, <- Eq; exact (ri_sur RI)|].
  split; [rewrite <- map_app, <- Eq; exact (inv_fX Iq)|]. exact En.
Qed.

(** The tolerance that is used: the given one, or 1e-6 times the range of all known values. *)
(** Specification of pySOT/strategy/ei_strategy.py:104-106. *)
Definition used_tol (given : option R) (vals : list R) (tol : R) : Prop :=
  match given with
  | Some t => tol = t
  | None => exists lo hi, is_min vals lo /\ In hi vals /\ (forall v, In v vals -> v <= hi) /\ tol = (hi - lo) / 1000000
  end.
Lemma used_tol_iff : forall given vals tol, used_tol given vals tol <-> tolerance given vals = Ok tol.
Proof using.
  intros [t|] vals tol; cbn [used_tol tolerance]; [split; [intros ->; reflexivity|congruence]|].
  destruct vals as [|a l].
  - cbn. split; [|discriminate]. intros [lo [hi [_ [[] _]]]].
  - cbn [np_max np_min rbind]. destruct (extreme a l) as [A [B C]]. split.
    + intros [lo [hi [[D1 D2] [D3 [D4 ->]]]]].
      assert (hi = Rmaxl a l) by (apply Rle_antisym; [apply C; exact D3|apply D4; exact A]).
      assert (lo = Rminl a l) by (apply Rle_antisym; [apply D2; exact B|apply C; exact D1]).
      subst. f_equal. field.
    + intros E. injection E as <-. exists (Rminl a l), (Rmaxl a l). split; [split; [exact B|intros v Hv; apply C; exact Hv]|].
      split; [exact A|]. split; [intros v Hv; apply C; exact Hv|field].
Qed.

(** Every batch of EIStrategy, and why it declared convergence otherwise.  [tol] is the value of
    ei_tol that is used, which must be positive (see C37_zero_tol_refuted). *)
Theorem C37_ei_strategy : forall ei_tol, (forall x y, c_peqb c x y = true <-> x = y) -> 0 < dtol ->
  forall p h1 n r h2, reached c (ei_strategy ei_tol) design tt p ->
  p_hist p = h1 ++ EvGenerate n r :: h2 -> no_duplicates h1 ->
  forall tol, used_tol ei_tol (map snd (known c) ++ map snd (completed h1)) tol -> 0 < tol ->
  exists fmin, is_min (map snd (run_data h1)) fmin /\
  let good := fun x => tol <= expected_improvement Phi phi fmin (mu (surrogate_data h1) x) (sig (surrogate_data h1) x) in
  match r with
  | Some l => length l = n /\ batch_ok q dim dist good dtol (map fst (run_data h1)) (map snd (outstanding h1)) l
  | None => exists l ngen, (length l < n)%nat /\ batch_ok q dim dist good dtol (map fst (run_data h1)) (map snd (outstanding h1)) l /\
      gave_up q dim dist good dtol (map fst (run_data h1)) (map snd (outstanding h1)) l ngen
  end.
Proof using WF.
  intros ei_tol HP Hd p h1 n r h2 H E ND tol HT Ht. apply used_tol_iff in HT.
  destruct (@state_at (ei_strategy ei_tol) (fun _ _ _ _ _ => eq_refl) HP p h1 n r h2 H E ND) as [s [o [G [S1 [S2 [S3 [S4 [S5 _]]]]]]]].
  cbn [hk_generate ei_strategy] in G. unfold ei_generate in G. rewrite S1, S2, S3, S4, S5 in G. rewrite HT in G. cbn [rbind] in G.
  apply rbind_ok in G. destruct G as [fmin [G1 G2]]. apply rbind_ok in G2. destruct G2 as [r' [G2 G3]]. injection G3 as ->.
  exists fmin. destruct (map snd (run_data h1)) as [|a l0] eqn:ED; [discriminate|]. cbn [np_min] in G1. injection G1 as <-.
  split; [destruct (extreme a l0) as [_ [A B]]; split; [exact A|intros v Hv; apply B; exact Hv]|]. cbv zeta.
  destruct (@C37_ei q dim WF dist (mu (surrogate_data h1)) (sig (surrogate_data h1)) Phi phi (Rminl a l0) dtol tol
    (map fst (run_data h1)) (map snd (outstanding h1)) n (proj1_sig o) Hd Ht) as [r2 [R1 R2]].
  - intros K. apply map_eq_nil in K. rewrite K in ED. discriminate.
  - intros i _. apply (proj2_sig o).
  - rewrite G2 in R1. injection R1 as <-. destruct r as [l|]; [exact R2|]. destruct R2 as [l R2]. exists l. eexists. exact R2.
Qed.

Theorem C37_lcb_strategy : forall kappa lcb_tol, (forall x y, c_peqb c x y = true <-> x = y) -> 0 < dtol ->
  forall p h1 n r h2, reached c (lcb_strategy kappa lcb_tol) design tt p ->
  p_hist p = h1 ++ EvGenerate n r :: h2 -> no_duplicates h1 -> run_data h1 <> [] ->
  exists tol fmin, used_tol lcb_tol (map snd (known c) ++ map snd (completed h1)) tol /\
  is_min (map snd (known c) ++ map snd (completed h1)) fmin /\
  let good := fun x => lower_confidence_bound kappa (mu (surrogate_data h1) x) (sig (surrogate_data h1) x) <= fmin - tol in
  match r with
  | Some l => length l = n /\ batch_ok q dim dist good dtol (map fst (run_data h1)) (map snd (outstanding h1)) l
  | None => exists l ngen, (length l < n)%nat /\ batch_ok q dim dist good dtol (map fst (run_data h1)) (map snd (outstanding h1)) l /\
      gave_up q dim dist good dtol (map fst (run_data h1)) (map snd (outstanding h1)) l ngen
  end.
Proof using WF.
  intros kappa lcb_tol HP Hd p h1 n r h2 H E ND HN.
  destruct (@state_at (lcb_strategy kappa lcb_tol) (fun _ _ _ _ _ => eq_refl) HP p h1 n r h2 H E ND) as [s [o [G [S1 [S2 [S3 [S4 [S5 _]]]]]]]].
  cbn [hk_generate lcb_strategy] in G. unfold lcb_generate in G. rewrite S1, S3, S4, S5 in G.
  apply rbind_ok in G. destruct G as [tol [HT G]]. exists tol.
  apply rbind_ok in G. destruct G as [fmin [G1 G2]]. apply rbind_ok in G2. destruct G2 as [r' [G2 G3]]. injection G3 as ->.
  exists fmin. split; [apply used_tol_iff; exact HT|]. destruct (map snd (known c) ++ map snd (completed h1)) as [|a l0] eqn:ED; [discriminate|]. cbn [np_min] in G1. injection G1 as <-.
  split; [destruct (extreme a l0) as [_ [A B]]; split; [exact A|intros v Hv; apply B; exact Hv]|]. cbv zeta.
  destruct (@C37_lcb q dim WF dist (mu (surrogate_data h1)) (sig (surrogate_data h1)) kappa dtol (Rminl a l0 - tol)
    (map fst (run_data h1)) (map snd (outstanding h1)) n (proj1_sig o) Hd) as [r2 [R1 R2]].
  - intros K. apply map_eq_nil in K. contradiction.
  - intros i _. apply (proj2_sig o).
  - rewrite G2 in R1. injection R1 as <-. destruct r as [l|]; [exact R2|]. destruct R2 as [l R2]. exists l. eexists. exact R2.
Qed.
End Strat.
Print Assumptions C13_ei.
Print Assumptions C37_ei_strategy.
