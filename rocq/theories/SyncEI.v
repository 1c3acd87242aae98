(** * C67 for EIStrategy and LCBStrategy; C67 refuted for objectives with ties; examples. *)
From Coq Require Import List Arith ZArith Lia Bool QArith Reals Lra Qreals Permutation.
From Verif Require Import Base PyList Strategy StrategySpec StrategyProofs StrategyInv StrategyInv2
  StrategyInv3 StrategyInv4 PropStrategy SRBF SRBFProofs PropSRBF Box PropBox Cand PropCand GA PropGA EndToEnd ExEndToEnd
  SyncRun EIStrat ScaleRun ScaleEI SyncOrder SyncSRBF.
Import ListNotations.

Set Implicit Arguments.
Local Close Scope Q_scope.
Local Open Scope R_scope.

Lemma np_min_perm : forall l l', Permutation l l' -> np_min l = np_min l'.
Proof.
  intros [|a l] [|b l'] HP; [reflexivity|apply Permutation_length in HP; discriminate|apply Permutation_length in HP; discriminate|].
  cbn [np_min]. f_equal.
  assert (LE : forall u v l l', Permutation (u :: l) (v :: l') -> Rminl u l <= Rminl v l').
  { intros u v m m' K. pose proof (Rminl_in m' v) as IN. apply (Permutation_in _ (Permutation_sym K)) in IN.
    destruct (Rminl_le m u) as [B1 B2]. destruct IN as [<-|IN]; [exact B1|exact (B2 _ IN)]. }
  apply Rle_antisym; apply LE; [exact HP|apply Permutation_sym, HP].
Qed.
Lemma np_max_perm : forall l l', Permutation l l' -> np_max l = np_max l'.
Proof.
  intros [|a l] [|b l'] HP; [reflexivity|apply Permutation_length in HP; discriminate|apply Permutation_length in HP; discriminate|].
  cbn [np_max]. f_equal.
  assert (LE : forall u v l l', Permutation (u :: l) (v :: l') -> Rmaxl u l <= Rmaxl v l').
  { intros u v m m' K. pose proof (Rmaxl_in m u) as IN. apply (Permutation_in _ K) in IN.
    destruct (Rmaxl_ge m' v) as [B1 B2]. destruct IN as [<-|IN]; [exact B1|exact (B2 _ IN)]. }
  apply Rle_antisym; apply LE; [exact HP|apply Permutation_sym, HP].
Qed.
Lemma tolerance_perm : forall t l l', Permutation l l' -> tolerance t l = tolerance t l'.
Proof. intros [t|] l l' HP; [reflexivity|]. cbn [tolerance]. rewrite (np_max_perm HP), (np_min_perm HP). reflexivity. Qed.
Lemma too_close_perm : forall dist dtol XX XX' x, Permutation XX XX' -> too_close dist dtol XX x = too_close dist dtol XX' x.
Proof.
  intros dist dtol XX XX' x HP. unfold too_close. apply eq_true_iff_eq. rewrite !existsb_exists.
  split; intros [t [A B]]; exists t; (split; [|exact B]); [apply (Permutation_in _ HP A)|apply (Permutation_in _ (Permutation_sym HP) A)].
Qed.

Section Search.
Variable q : prob.
Variable dist : pt -> pt -> R.
Variables mu sig mu' sig' : pt -> R.
Variables Phi phi : R -> R.
Variable dtol : R.
Hypothesis Hmu : forall x, mu x = mu' x.
Hypothesis Hsig : forall x, sig x = sig' x.

Lemma optimize_ext : forall (g h : pt -> xr) n st gs, (forall x, g x = h x) -> ga_optimize q g n st gs = ga_optimize q h n st gs.
Proof using.
  intros g h n st gs E. rewrite (@optimize_map q (fun v => v) h g (fun _ _ => eq_refl) E). destruct (ga_optimize q h n st gs) as [[[x v] tr]|]; reflexivity.
Qed.
Lemma ei_ga_perm : forall fmin tol n XX XX' ds, Permutation XX XX' ->
  ei_ga dist mu sig Phi phi q fmin dtol tol XX n ds = ei_ga dist mu' sig' Phi phi q fmin dtol tol XX' n ds.
Proof using Hmu Hsig.
  intros fmin tol n. induction n as [|n IH]; intros XX XX' ds HP; [reflexivity|]. cbn [ei_ga].
  rewrite (@optimize_ext (ei_obj dist mu sig Phi phi q fmin dtol XX) (ei_obj dist mu' sig' Phi phi q fmin dtol XX')).
  - destruct (ga_optimize _ _ _ _ _) as [[[x v] tr]|]; [|reflexivity]. cbn [rbind]. destruct v as [w| | |]; try reflexivity. destruct (Rlt_dec (- w) tol); [reflexivity|].
    rewrite (IH (XX ++ [x]) (XX' ++ [x]) (fun i => ds (S i))) by (apply Permutation_app_tail, HP). reflexivity.
  - intros x. unfold ei_obj, ei_merit, ei_raw. rewrite Hmu, Hsig, (too_close_perm dist dtol _ HP). reflexivity.
Qed.
Lemma lcb_ga_perm : forall kappa t n XX XX' ds, Permutation XX XX' ->
  lcb_ga dist mu sig q kappa dtol t XX n ds = lcb_ga dist mu' sig' q kappa dtol t XX' n ds.
Proof using Hmu Hsig.
  intros kappa t n. induction n as [|n IH]; intros XX XX' ds HP; [reflexivity|]. cbn [lcb_ga].
  rewrite (@optimize_ext (lcb_obj dist mu sig q kappa dtol XX) (lcb_obj dist mu' sig' q kappa dtol XX')).
  - destruct (ga_optimize _ _ _ _ _) as [[[x v] tr]|]; [|reflexivity]. cbn [rbind]. destruct t as [t|]; [|reflexivity]. destruct (xlt (XFin t) v); [reflexivity|].
    rewrite (IH (XX ++ [x]) (XX' ++ [x]) (fun i => ds (S i))) by (apply Permutation_app_tail, HP). reflexivity.
  - intros x. unfold lcb_obj, lcb_merit, lcb_raw. rewrite Hmu, Hsig, (too_close_perm dist dtol _ HP). reflexivity.
Qed.
End Search.

Section EI.
Variable q : prob.
Variable dim : nat.
Variable dist : pt -> pt -> R.
Variables mu sig : list (pt * R) -> pt -> R.
Variables Phi phi : R -> R.
Variable dtol : R.
Variable c : cfg pt R.
Variable f : pt -> R.
Hypothesis Hsync : c_async c = false.
Hypothesis Hpeqb : forall x y, c_peqb c x y = true <-> x = y.
Hypothesis Hmu : forall d d' x, Permutation d d' -> mu d x = mu d' x.
Hypothesis Hsig : forall d d' x, Permutation d d' -> sig d x = sig d' x.

Lemma orderly_plain : forall gen : unit -> base pt R -> nat -> runs q dim -> res (unit * option (list pt)),
  (forall s1 s2 n o, similar f (fun _ => True) s1 s2 -> gen tt s1 n o = gen tt s2 n o) ->
  orderly (mkHooks (fun e => e) (fun e _ _ _ _ => Ok e) (fun e _ _ _ _ => Ok (e, 0%nat, false)) gen) f eq (fun _ e _ => (e, false)) (fun _ => True).
Proof using.
  intros gen HG. constructor; cbn.
  - reflexivity.
  - auto.
  - congruence.
  - reflexivity.
  - split; reflexivity.
  - intros k e e' l ->. split; reflexivity.
  - intros e s x ev e' l H. injection H as <-. split; reflexivity.
  - intros e s x ev e' n cv l H _ _. injection H as <- <- <-. split; [reflexivity|]. split; reflexivity.
  - intros [] [] s1 s2 n o [] [] r1 r2 SM _ G1 G2. rewrite (HG _ _ _ _ SM) in G1. split; [congruence|reflexivity].
  - auto.
  - intros e s x v ev e' n cv H Hn. cbn in H. injection H as <- <- <-. lia.
Qed.
Lemma sim_far : forall s1 s2, similar f (fun _ => True) s1 s2 -> Permutation (X_ s1 ++ Xpend s1) (X_ s2 ++ Xpend s2).
Proof using. intros s1 s2 SM. destruct (sim_idle SM) as [_ [_ [_ [_ [-> ->]]]]]. rewrite !app_nil_r. exact (sim_X SM). Qed.

(** C67 for EIStrategy and LCBStrategy, with any surrogate whose mean and standard deviation do not
    depend on the order in which the data were added.  No assumption on the values. *)
Theorem C67_ei : forall tol designs draws d ms1 ms2 p1 p2, let hk := ei_strategy q dim dist mu sig Phi phi dtol tol in
  y_proc (play c hk f designs draws d tt ms1) = Some p1 -> y_proc (play c hk f designs draws d tt ms2) = Some p2 ->
  same_course (p_hist p1) (p_hist p2).
Proof using Hsync Hpeqb Hmu Hsig.
  intros tol designs draws d ms1 ms2 p1 p2 hk H1 H2.
  assert (G : forall s1 s2 n o, similar f (fun _ => True) s1 s2 -> ei_generate (q := q) (dim := dim) dist mu sig Phi phi dtol tol tt s1 n o = ei_generate dist mu sig Phi phi dtol tol tt s2 n o).
  { intros s1 s2 n o SM. unfold ei_generate. rewrite (tolerance_perm tol (sim_vals SM)). destruct (tolerance tol (fX s2)); [|reflexivity]. cbn [rbind].
    assert (PM : Permutation (fX_ s1) (fX_ s2)) by (destruct (sim_fX SM) as [-> ->]; apply Permutation_map, (sim_X SM)).
    rewrite (np_min_perm PM). destruct (np_min (fX_ s2)); [|reflexivity]. cbn [rbind].
    rewrite (@ei_ga_perm q dist (mu (sur s1)) (sig (sur s1)) (mu (sur s2)) (sig (sur s2)) Phi phi dtol (fun x => Hmu x (sim_sur SM)) (fun x => Hsig x (sim_sur SM)) a0 a n _ _ (proj1_sig o) (sim_far SM)).
    reflexivity. }
  refine (order_free_runs c designs draws Hsync Hpeqb (orderly_plain _ G) _ _ _ _ H1 H2 _). intros x v _. exact I.
Qed.
Theorem C67_lcb : forall kappa tol designs draws d ms1 ms2 p1 p2, let hk := lcb_strategy q dim dist mu sig dtol kappa tol in
  y_proc (play c hk f designs draws d tt ms1) = Some p1 -> y_proc (play c hk f designs draws d tt ms2) = Some p2 ->
  same_course (p_hist p1) (p_hist p2).
Proof using Hsync Hpeqb Hmu Hsig.
  intros kappa tol designs draws d ms1 ms2 p1 p2 hk H1 H2.
  assert (G : forall s1 s2 n o, similar f (fun _ => True) s1 s2 -> lcb_generate (q := q) (dim := dim) dist mu sig dtol kappa tol tt s1 n o = lcb_generate dist mu sig dtol kappa tol tt s2 n o).
  { intros s1 s2 n o SM. unfold lcb_generate. rewrite (tolerance_perm tol (sim_vals SM)). destruct (tolerance tol (fX s2)); [|reflexivity]. cbn [rbind].
    rewrite (np_min_perm (sim_vals SM)). destruct (np_min (fX s2)); [|reflexivity]. cbn [rbind].
    rewrite (@lcb_ga_perm q dist (mu (sur s1)) (sig (sur s1)) (mu (sur s2)) (sig (sur s2)) dtol (fun x => Hmu x (sim_sur SM)) (fun x => Hsig x (sim_sur SM)) kappa (Some (a0 - a)) n _ _ (proj1_sig o) (sim_far SM)).
    reflexivity. }
  refine (order_free_runs c designs draws Hsync Hpeqb (orderly_plain _ G) _ _ _ _ H1 H2 _). intros x v _. exact I.
Qed.
End EI.

(** ** Refuted if two evaluated points have the same value *)

(** One variable in [0, 1], designs of two points, batches of one, one candidate drawn at the center. *)
Definition q67 : prob := mkProb [0] [1] [].
Definition dist67 (x y : pt) : R := Rabs (x@0 - y@0).
Definition peqb67 (x y : pt) : bool := if list_eq_dec Req_EM_T x y then true else false.
Definition c67 : cfg pt val := mkCfg 10 false 1 true 2 None None (fun _ => false) peqb67 false.
Definition pred67 (d : list (pt * val)) (x : pt) : R := 0.
Definition hk67 := srbf_full q67 1 dist67 pred67 (/ 10) (Some 1%nat) c67 [1%Q].
Definition play67 (f : pt -> val) (ms : list move) := play c67 hk67 f (fun _ => Ok []) (fun _ _ _ => 0) (Ok [[/ 4]; [3 / 4]]) srbf0 ms.

Lemma search67 : forall (s : base pt val) (x : R) (r : Q), center s = Ok [x] -> X_ s <> [] -> 0 <= x <= 1 -> 0 < Q2R r ->
  srbf_search q67 dist67 pred67 (/ 10) (Some 1%nat) (fun _ _ => 0) s 1%nat [1%Q] r = Ok [[x]].
Proof.
  intros s x r HC HX Hx Hr. unfold srbf_search. rewrite HC. cbn [rbind]. unfold candidate_srbf. unfold center in HC. rewrite HC. cbn [rbind].
  assert (CL : forall a b, a <= 0 -> 0 <= b -> clamp a b 0 = 0).
  { intros a b A B. unfold clamp. rewrite Rmin_right by exact B. apply Rmax_right. exact A. }
  assert (SC : scale q67 (Q2R r) (all_coords q67) 0 = Q2R r) by (unfold scale; cbn; ring).
  assert (IR : in_range q67 [x] (Q2R r) (fun _ _ => 0) 0%nat 0%nat = 0).
  { unfold in_range, tn_a, tn_b. rewrite SC. cbn [q67 q_lb q_ub nth]. assert (0 < / Q2R r) by (apply Rinv_0_lt_compat, Hr). apply CL; unfold Rdiv; nra. }
  assert (CA : srbf_cand q67 (Q2R r) (all_coords q67) 1 [x] (in_range q67 [x] (Q2R r) (fun _ _ => 0)) = Ok [[x]]).
  { unfold srbf_cand. change (srbf_cols q67 (Q2R r) (all_coords q67) [x] (in_range q67 [x] (Q2R r) (fun _ _ : nat => 0)) (all_coords q67) (repeat [x] 1))
      with (Ok [[tn_draw [x] (scale q67 (Q2R r) (all_coords q67) 0) 0 (in_range q67 [x] (Q2R r) (fun _ _ => 0) 0%nat 0%nat)]]).
    rewrite IR. unfold tn_draw. rewrite Rmult_0_r, Rplus_0_r. reflexivity. }
  rewrite CA. cbn [rbind]. unfold weighted_distance_merit.
  assert (MD : exists d, mapR (min_dist dist67 (X_ s ++ Xpend s)) [[x]] = Ok [d]).
  { destruct (X_ s) as [|y l]; [congruence|]. eexists. reflexivity. }
  destruct MD as [d ->]. cbn [rbind map]. unfold pred67.
  assert (UR : forall v, exists w, unit_rescale [v] = Ok [w]).
  { intros v. unfold unit_rescale. cbn. destruct Req_EM_T; eexists; reflexivity. }
  destruct (UR 0) as [w ->]. cbn [rbind picks map]. destruct (UR d) as [w' ->]. reflexivity.
Qed.

(** A request for a new batch when nothing is running. *)
Lemma ask67 : forall f ms p x, y_proc (play67 f ms) = Some p -> center (p_s p) = Ok [x] -> X_ (p_s p) <> [] -> 0 <= x <= 1 -> 0 < Q2R (s_radius (p_e p)) ->
  num_evals (p_s p) = 2%Z -> pending_evals (p_s p) = 0%Z -> terminate (p_s p) = false -> converged (p_s p) = false -> batch_queue (p_s p) = [] -> s_next (p_e p) = 0%nat ->
  exists p', y_proc (play67 f (ms ++ [Ask])) = Some p' /\ proposed_points (p_hist p') = proposed_points (p_hist p) ++ [[x]] /\ completed (p_hist p') = completed (p_hist p).
Proof.
  intros f ms p x HP HC HX Hx Hr N1 N2 N3 N4 N5 N6. unfold play67, play. rewrite fold_left_app. cbn [fold_left]. fold (play c67 hk67 f (fun _ => Ok []) (fun _ _ _ => 0) (Ok [[/ 4]; [3 / 4]]) srbf0 ms).
  fold (play67 f ms). unfold play1. rewrite HP. unfold step. rewrite HP. cbn [op_of].
  unfold do_propose, propose_action, check_termination. rewrite N1, N2. cbn [c67 c_max_evals Z.add Z.leb Z.compare Pos.compare Pos.compare_cont].
  rewrite N3, N4, N5. cbn [nonempty]. change (c_async c67) with false. change (c_batch c67) with 1%nat. cbv iota. change (pending_evals (set_phase 2 (p_s p))) with (pending_evals (p_s p)). rewrite N2. cbn [Z.eqb].
  unfold do_generate. cbn [hk67 srbf_full hooks_with hk_generate srbf_strategy srbf_hooks]. unfold srbf_generate. rewrite N6. cbn [get_weights c_batch nth_error length rbind fst snd].
  change (srbf_search q67 dist67 pred67 (/ 10) (Some 1%nat) (fun _ _ => 0) (set_phase 2 (p_s p)) 1%nat [1%Q] (s_radius (p_e p)))
    with (srbf_search q67 dist67 pred67 (/ 10) (Some 1%nat) (fun _ _ => 0) (p_s p) 1%nat [1%Q] (s_radius (p_e p))).
  rewrite (@search67 (p_s p) x _ HC HX Hx Hr). cbn [rbind take_rows fst snd]. change (batch_queue (set_phase 2 (p_s p))) with (batch_queue (p_s p)). rewrite N5. cbn [app].
  change (converged (set_batch_queue [[x]] (set_phase 2 (p_s p)))) with (converged (p_s p)). rewrite N4. cbn [andb]. unfold adapt_proposal. cbn.
  eexists. split; [reflexivity|]. cbn [p_hist]. unfold proposed_points, completed. rewrite !flat_map_app. cbn. rewrite app_nil_r. auto.
Qed.

Definition fifo : list move := [Ask; Take 0; Ask; Take 1; Finish 0; Finish 1].
Definition lifo : list move := [Ask; Take 0; Ask; Take 1; Finish 1; Finish 0].

Lemma radius67 : 0 < Q2R r_max.
Proof. unfold r_max, Q2R. cbn. apply Rmult_lt_0_compat; [apply IZR_lt; reflexivity|]. apply Rinv_0_lt_compat, IZR_lt. reflexivity. Qed.

(** C67 without the assumption of distinct values is refuted: the objective is constant, and the
    first adaptive point is a neighbour of whichever design point completed first. *)
Theorem C67_ties_refuted : let f := fun _ : pt => Fin 0 in exists p1 p2,
  y_proc (play67 f (fifo ++ [Ask])) = Some p1 /\ y_proc (play67 f (lifo ++ [Ask])) = Some p2 /\
  Permutation (completed (p_hist p1)) (completed (p_hist p2)) /\
  proposed_points (p_hist p1) = [[3 / 4]; [/ 4]; [3 / 4]] /\ proposed_points (p_hist p2) = [[3 / 4]; [/ 4]; [/ 4]] /\
  ~ same_course (p_hist p1) (p_hist p2).
Proof.
  intros f.
  assert (G : forall ms x y, ms = fifo /\ x = 3 / 4 /\ y = / 4 \/ ms = lifo /\ x = / 4 /\ y = 3 / 4 ->
    exists p, y_proc (play67 f ms) = Some p /\ X_ (p_s p) = [[x]; [y]] /\ fX_ (p_s p) = [Fin 0; Fin 0] /\ s_radius (p_e p) = r_max /\
    num_evals (p_s p) = 2%Z /\ pending_evals (p_s p) = 0%Z /\ terminate (p_s p) = false /\ converged (p_s p) = false /\ batch_queue (p_s p) = [] /\ s_next (p_e p) = 0%nat /\
    proposed_points (p_hist p) = [[3 / 4]; [/ 4]] /\ completed (p_hist p) = [([x], Fin 0); ([y], Fin 0)]).
  { intros ms x y [[-> [-> ->]]|[-> [-> ->]]]; (eexists; split; [lazy -[IZR Rinv Rdiv peqb67]; reflexivity|repeat split]). }
  destruct (G fifo (3 / 4) (/ 4)) as [p1 [A1 [B1 [C1 [D1 [E1 [F1 [G1 [H1 [I1 [J1 [K1 L1]]]]]]]]]]]]; [left; auto|].
  destruct (G lifo (/ 4) (3 / 4)) as [p2 [A2 [B2 [C2 [D2 [E2 [F2 [G2 [H2 [I2 [J2 [K2 L2]]]]]]]]]]]]; [right; auto|].
  assert (CT : forall s : base pt val, forall x y : pt, X_ s = [x; y] -> fX_ s = [Fin 0; Fin 0] -> center s = Ok x).
  { intros s x y H K. apply (@center_is pt s 0 x (Fin 0)); rewrite ?H, ?K; reflexivity. }
  destruct (@ask67 f fifo p1 (3 / 4) A1) as [p1' [P1 [Q1 R1]]]; auto; try lra; [exact (CT _ _ _ B1 C1)|congruence|rewrite D1; exact radius67|].
  destruct (@ask67 f lifo p2 (/ 4) A2) as [p2' [P2 [Q2 R2]]]; auto; try lra; [exact (CT _ _ _ B2 C2)|congruence|rewrite D2; exact radius67|].
  rewrite K1 in Q1. rewrite K2 in Q2. exists p1', p2'. split; [exact P1|]. split; [exact P2|]. split; [rewrite R1, R2, L1, L2; apply perm_swap|]. split; [exact Q1|]. split; [exact Q2|].
  intros [[[r E]|[r E]] _]; rewrite Q1, Q2 in E; injection E as E _; lra.
Qed.

(** The hypotheses of C67_srbf_full are met: the same two controllers with an objective that is smaller
    at the point 1/4, so
    that the two design points have different values.  Both runs go on to propose a third point. *)
Example ex_C67 : let f := fun x : pt => Fin (if Rlt_dec (x@0) (/ 2) then 1 else 2)%Q in exists p1 p2,
  c_async c67 = false /\ (forall x y, c_peqb c67 x y = true <-> x = y) /\ (forall d d' x, Permutation d d' -> pred67 d x = pred67 d' x) /\
  y_proc (play67 f (fifo ++ [Ask])) = Some p1 /\ y_proc (play67 f (lifo ++ [Ask])) = Some p2 /\
  completed (p_hist p1) = [([3 / 4], Fin 2); ([/ 4], Fin 1)] /\ completed (p_hist p2) = [([/ 4], Fin 1); ([3 / 4], Fin 2)] /\
  distinct_values f (p_hist p1) (p_hist p2) /\
  proposed_points (p_hist p1) = [[3 / 4]; [/ 4]; [/ 4]] /\ same_course (p_hist p1) (p_hist p2).
Proof.
  intros f.
  assert (PE : forall x y, c_peqb c67 x y = true <-> x = y).
  { intros x y. cbn. unfold peqb67. destruct list_eq_dec; split; congruence. }
  assert (V1 : f [/ 4] = Fin 1) by (unfold f; cbn; destruct Rlt_dec; [reflexivity|lra]).
  assert (V2 : f [3 / 4] = Fin 2) by (unfold f; cbn; destruct Rlt_dec; [lra|reflexivity]).
  assert (G : forall ms x y, ms = fifo /\ x = 3 / 4 /\ y = / 4 \/ ms = lifo /\ x = / 4 /\ y = 3 / 4 ->
    exists p, y_proc (play67 f ms) = Some p /\ X_ (p_s p) = [[x]; [y]] /\ fX_ (p_s p) = [f [x]; f [y]] /\ s_radius (p_e p) = r_max /\
    num_evals (p_s p) = 2%Z /\ pending_evals (p_s p) = 0%Z /\ terminate (p_s p) = false /\ converged (p_s p) = false /\ batch_queue (p_s p) = [] /\ s_next (p_e p) = 0%nat /\
    proposed_points (p_hist p) = [[3 / 4]; [/ 4]] /\ completed (p_hist p) = [([x], f [x]); ([y], f [y])]).
  { intros ms x y [[-> [-> ->]]|[-> [-> ->]]]; (eexists; split; [lazy -[IZR Rinv Rdiv peqb67]; reflexivity|repeat split]). }
  destruct (G fifo (3 / 4) (/ 4)) as [p1 [A1 [B1 [C1 [D1 [E1 [F1 [G1 [H1 [I1 [J1 [K1 L1]]]]]]]]]]]]; [left; auto|].
  destruct (G lifo (/ 4) (3 / 4)) as [p2 [A2 [B2 [C2 [D2 [E2 [F2 [G2 [H2 [I2 [J2 [K2 L2]]]]]]]]]]]]; [right; auto|].
  rewrite V1, V2 in *.
  assert (T1 : center (p_s p1) = Ok [/ 4]).
  { apply (@center_is pt (p_s p1) 1 [/ 4] (Fin 1)); rewrite ?B1, ?C1; reflexivity. }
  assert (T2 : center (p_s p2) = Ok [/ 4]).
  { apply (@center_is pt (p_s p2) 0 [/ 4] (Fin 1)); rewrite ?B2, ?C2; reflexivity. }
  destruct (@ask67 f fifo p1 (/ 4) A1) as [p1' [P1 [Q1 R1]]]; auto; try lra; [congruence|rewrite D1; exact radius67|].
  destruct (@ask67 f lifo p2 (/ 4) A2) as [p2' [P2 [Q2 R2]]]; auto; try lra; [congruence|rewrite D2; exact radius67|].
  rewrite K1 in Q1. rewrite L1 in R1. rewrite L2 in R2.
  assert (NT : distinct_values f (p_hist p1') (p_hist p2')).
  { assert (D : forall x, (exists v, In (x, v) (completed (p_hist p1')) \/ In (x, v) (completed (p_hist p2'))) -> x = [3 / 4] \/ x = [/ 4]).
    { rewrite R1, R2. intros x [v [[H|[H|[]]]|[H|[H|[]]]]]; injection H as <- _; auto. }
    intros x y Hx Hy E. destruct (D x Hx) as [-> | ->]; destruct (D y Hy) as [-> | ->]; try reflexivity; exfalso; rewrite V1, V2 in E; cbn in E; discriminate E. }
  exists p1', p2'. split; [reflexivity|]. split; [exact PE|]. split; [reflexivity|]. split; [exact P1|]. split; [exact P2|]. split; [exact R1|]. split; [exact R2|]. split; [exact NT|].
  split; [exact Q1|].
  exact (@C67_srbf_full q67 1 dist67 pred67 (/ 10) (Some 1%nat) c67 [1%Q] f eq_refl PE (fun _ _ _ _ => eq_refl) (fun _ => Ok []) (fun _ _ _ => 0) (Ok [[/ 4]; [3 / 4]]) (fifo ++ [Ask]) (lifo ++ [Ask]) p1' p2' P1 P2 NT).
Qed.
