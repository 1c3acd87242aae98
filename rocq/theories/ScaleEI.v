(** * Runs of EIStrategy and LCBStrategy do not depend on the unit or the zero of the objective (C66). *)
From Coq Require Import List Arith ZArith Lia Bool QArith Reals Lra.
From Verif Require Import Base PyList Strategy StratMap Box PropBox Design Cand GA PropGA EndToEnd EIStrat
  SRBF PropSRBF ExSRBF ScaleRun Lin LinProofs RBF RBFProofs PropRBF PropSurr RBFEquiv SurrUnits GPWrap.
Import ListNotations.

Set Implicit Arguments.
Local Open Scope R_scope.

(** ** The genetic algorithm only compares values *)
Lemma geti_map : forall A B (h : A -> B) l i, geti (map h l) i = rmap h (geti l i).
Proof.
  intros A B h l. unfold geti. induction l as [|x l IH]; intros [|i]; cbn; try reflexivity. apply IH.
Qed.
Lemma mapR_geti_map : forall A B (h : A -> B) l cs, mapR (geti (map h l)) cs = rmap (map h) (mapR (geti l) cs).
Proof.
  intros A B h l cs. induction cs as [|i cs IH]; [reflexivity|]. cbn [mapR]. rewrite geti_map, IH. destruct (geti l i); [|reflexivity]. cbn [rmap rbind].
  destruct (mapR (geti l) cs); reflexivity.
Qed.

Section Compare.
Variable q : prob.
Variable h : xr -> xr.
Variables f f' : pt -> xr.
Hypothesis Hc : forall u v, replaces (h u) (h v) = replaces u v.
Hypothesis Hf : forall x, f' x = h (f x).

Definition map_ga (s : ga_state) : ga_state := mkGa (ga_pop s) (map h (ga_vals s)) (ga_best s) (h (ga_value s)).
Lemma argmin_map : forall l, xargmin (map h l) = xargmin l.
Proof using Hc. intros l. apply xargmin_map. intros u v _ _. apply Hc. Qed.
Lemma evaluate_map : forall E keep, ga_evaluate f' E keep = rmap map_ga (ga_evaluate f E keep).
Proof using Hc Hf.
  intros E keep. unfold ga_evaluate. rewrite (map_ext f' (fun x => h (f x))) by exact Hf. rewrite <- (map_map f h), argmin_map.
  destruct (xargmin (map f E)) as [k|]; [|reflexivity]. cbn [rbind]. destruct (geti E k); [|reflexivity]. cbn [rbind]. rewrite geti_map.
  destruct (geti (map f E) k); reflexivity.
Qed.
Lemma winner_map : forall vals g r, winner (map h vals) g r = winner vals g r.
Proof using Hc.
  intros vals g r. unfold winner. rewrite mapR_geti_map. destruct (mapR (geti vals) (map (g_comp g r) (seq 0 5))) as [vs|]; [|reflexivity]. cbn [rmap rbind].
  rewrite argmin_map. reflexivity.
Qed.
Lemma mapR_ext : forall A B (f1 f2 : A -> res B) l, (forall x, f1 x = f2 x) -> mapR f1 l = mapR f2 l.
Proof using. intros A B f1 f2 l H. induction l as [|x l IH]; [reflexivity|]. cbn [mapR]. rewrite H, IH. reflexivity. Qed.
Lemma generation_map : forall n g s, generation q f' n g (map_ga s) = rmap (fun r => (map_ga (fst r), snd r)) (generation q f n g s).
Proof using Hc Hf.
  intros n g s. unfold generation. cbn [map_ga ga_pop ga_vals ga_best ga_value]. rewrite (mapR_ext _ _ (seq 0 n) (winner_map (ga_vals s) g)).
  destruct (mapR (winner (ga_vals s) g) (seq 0 n)) as [ws|]; [|reflexivity]. cbn [rbind].
  destruct (mapR (geti (ga_pop s)) ws) as [parents|]; [|reflexivity]. cbn [rbind].
  destruct (round_vars _ _ _ _) as [rounded|]; [|reflexivity]. cbn [rbind]. destruct (set_first rounded (ga_best s)) as [E|]; [|reflexivity]. cbn [rbind].
  rewrite evaluate_map. destruct (ga_evaluate f E _); reflexivity.
Qed.
Lemma generations_map : forall n gs s, generations q f' n gs (map_ga s) = rmap (fun r => (map_ga (fst r), snd r)) (generations q f n gs s).
Proof using Hc Hf.
  intros n gs. induction gs as [|g gs IH]; intros s; [reflexivity|]. cbn [generations]. rewrite generation_map.
  destruct (generation q f n g s) as [[s1 E]|]; [|reflexivity]. cbn [rmap rbind fst snd]. rewrite IH. destruct (generations q f n gs s1); reflexivity.
Qed.
Lemma optimize_map : forall n st gs, ga_optimize q f' n st gs = rmap (fun r => let '(x, v, tr) := r in (x, h v, tr)) (ga_optimize q f n st gs).
Proof using Hc Hf.
  intros n st gs. unfold ga_optimize. destruct (init_population q _ st) as [pop|]; [|reflexivity]. cbn [rbind].
  destruct (init_round q pop) as [E|]; [|reflexivity]. cbn [rbind]. rewrite evaluate_map. destruct (ga_evaluate f E _) as [s|]; [|reflexivity]. cbn [rmap rbind].
  rewrite generations_map. destruct (generations q f _ gs s); reflexivity.
Qed.
End Compare.

(** ** The change of unit and zero *)
Definition xlin (a b : R) (v : xr) : xr := match v with XFin x => XFin (a * x + b) | _ => v end.
Lemma xlt_lin : forall a b u v, 0 < a -> xlt (xlin a b u) (xlin a b v) = xlt u v.
Proof.
  intros a b u v Ha. destruct u, v; cbn [xlin xlt]; try reflexivity. destruct (Rlt_dec (a * r + b) (a * r0 + b)) as [H|H], (Rlt_dec r r0) as [K|K]; try reflexivity; exfalso; nra.
Qed.
Lemma replaces_lin : forall a b u v, 0 < a -> replaces (xlin a b u) (xlin a b v) = replaces u v.
Proof. intros a b u v Ha. pose proof (xlt_lin b u v Ha) as E. destruct u, v; cbn [xlin replaces] in *; try reflexivity; exact E. Qed.

Section Search.
Variable q : prob.
Variable dist : pt -> pt -> R.
Variables mu sig mu' sig' : pt -> R.
Variables Phi phi : R -> R.
Variables a b dtol : R.
Hypothesis Ha : 0 < a.
Hypothesis Hmu : forall x, mu' x = a * mu x + b.
Hypothesis Hsig : forall x, sig' x = a * sig x.

Lemma ei_raw_lin : forall fmin x, ei_raw mu' sig' Phi phi (a * fmin + b) x = a * ei_raw mu sig Phi phi fmin x.
Proof using Ha Hmu Hsig.
  intros fmin x. unfold ei_raw. rewrite Hmu, Hsig. assert (E : (a * fmin + b - (a * mu x + b)) / (a * sig x) = (fmin - mu x) / sig x).
  { destruct (Req_dec (sig x) 0) as [K|K]; [rewrite K, Rmult_0_r; unfold Rdiv; rewrite Rinv_0; ring|field; split; [exact K|lra]]. }
  rewrite E. ring.
Qed.
Lemma ei_obj_lin : forall fmin XX x, ei_obj dist mu' sig' Phi phi q (a * fmin + b) dtol XX x = xlin a 0 (ei_obj dist mu sig Phi phi q fmin dtol XX x).
Proof using Ha Hmu Hsig.
  intros fmin XX x. unfold ei_obj, ei_merit. cbn [xlin]. f_equal. rewrite !ei_raw_lin. destruct (Rlt_dec 0 dtol); [destruct (too_close _ _ _ _)|]; ring.
Qed.
Lemma ei_ga_lin : forall fmin tol n XX ds, ei_ga dist mu' sig' Phi phi q (a * fmin + b) dtol (a * tol) XX n ds = ei_ga dist mu sig Phi phi q fmin dtol tol XX n ds.
Proof using Ha Hmu Hsig.
  intros fmin tol n. induction n as [|n IH]; intros XX ds; [reflexivity|]. cbn [ei_ga].
  rewrite (@optimize_map q (xlin a 0) (ei_obj dist mu sig Phi phi q fmin dtol XX)) by (try (intros; apply replaces_lin; exact Ha); apply ei_obj_lin).
  destruct (ga_optimize q (ei_obj dist mu sig Phi phi q fmin dtol XX) _ _ _) as [[[x v] tr]|]; [|reflexivity]. cbn [rmap rbind].
  destruct v as [w| | |]; cbn [xlin]; try reflexivity. destruct (Rlt_dec (- (a * w + 0)) (a * tol)) as [H|H], (Rlt_dec (- w) tol) as [K|K]; try reflexivity; try (exfalso; nra).
  rewrite IH. reflexivity.
Qed.
Lemma lcb_obj_lin : forall kappa XX x, lcb_obj dist mu' sig' q kappa dtol XX x = xlin a b (lcb_obj dist mu sig q kappa dtol XX x).
Proof using Hmu Hsig.
  intros kappa XX x. unfold lcb_obj, lcb_merit, lcb_raw. rewrite Hmu, Hsig.
  set (m := mu _). set (s := sig _). assert (E : a * m + b - kappa * (a * s) = a * (m - kappa * s) + b) by ring. rewrite E.
  destruct (Rlt_dec 0 dtol); [destruct (too_close _ _ _ _)|]; reflexivity.
Qed.
Lemma lcb_ga_lin : forall kappa t n XX ds, lcb_ga dist mu' sig' q kappa dtol (Some (a * t + b)) XX n ds = lcb_ga dist mu sig q kappa dtol (Some t) XX n ds.
Proof using Ha Hmu Hsig.
  intros kappa t n. induction n as [|n IH]; intros XX ds; [reflexivity|]. cbn [lcb_ga].
  rewrite (@optimize_map q (xlin a b) (lcb_obj dist mu sig q kappa dtol XX)) by (try (intros; apply replaces_lin; exact Ha); apply lcb_obj_lin).
  destruct (ga_optimize q (lcb_obj dist mu sig q kappa dtol XX) _ _ _) as [[[x v] tr]|]; [|reflexivity]. cbn [rmap rbind].
  change (XFin (a * t + b)) with (xlin a b (XFin t)). rewrite xlt_lin by exact Ha. destruct (xlt (XFin t) v); [reflexivity|]. rewrite IH. reflexivity.
Qed.
End Search.

Lemma np_min_lin : forall a b l, 0 < a -> np_min (map (fun v => a * v + b) l) = rmap (fun v => a * v + b) (np_min l).
Proof. intros a b [|x l] Ha; [reflexivity|]. cbn [map np_min rmap]. f_equal. apply (@Rminl_map (fun v => a * v + b)). intros; apply Rmin_lin; exact Ha. Qed.
Lemma np_max_lin : forall a b l, 0 < a -> np_max (map (fun v => a * v + b) l) = rmap (fun v => a * v + b) (np_max l).
Proof. intros a b [|x l] Ha; [reflexivity|]. cbn [map np_max rmap]. f_equal. apply (@Rmaxl_map (fun v => a * v + b)). intros; apply Rmax_lin; exact Ha. Qed.
Lemma tolerance_lin : forall a b tol l, 0 < a -> tolerance (option_map (Rmult a) tol) (map (fun v => a * v + b) l) = rmap (Rmult a) (tolerance tol l).
Proof.
  intros a b [t|] l Ha; [reflexivity|]. cbn [option_map tolerance]. rewrite np_min_lin, np_max_lin by exact Ha.
  destruct (np_max l); [|reflexivity]. cbn [rmap rbind]. destruct (np_min l); [|reflexivity]. cbn [rmap rbind]. f_equal. ring.
Qed.

Section Runs.
Variable q : prob.
Variable dim : nat.
Variable dist : pt -> pt -> R.
Variables mu sig : list (pt * R) -> pt -> R.
Variables Phi phi : R -> R.
Variable dtol : R.
Variables a b : R.
Hypothesis Ha : 0 < a.
Let g (v : R) : R := a * v + b.

(** The surrogate fitted to [d] follows the change. *)
Definition follows (d : list (pt * R)) : Prop :=
  forall x, mu (map_sur g d) x = a * mu d x + b /\ sig (map_sur g d) x = a * sig d x.

Variable c : cfg pt R.
Variable isnan' : R -> bool.
Hypothesis Hnan : forall v, isnan' (g v) = c_isnan c v.
Let c' := map_cfg g isnan' c.
Variable design : res (list pt).

(** Whenever the strategy fits the surrogate to search for new points in the run, the surrogate
    follows the change. *)
Definition surrogate_follows (hk : hooks pt R unit (runs q dim)) (ops : list (op pt R (runs q dim))) : Prop :=
  forall ops1 d o ops2 p, ops = ops1 ++ Propose d o :: ops2 -> y_proc (Strategy.run c hk design tt ops1) = Some p ->
  will_generate c (p_s p) -> follows (sur (p_s p)).

(** C66 for EIStrategy and LCBStrategy: with the same designs, random draws and decisions of the
    controller, the run with objective a*f+b is the run with f with all values changed.  A given
    tolerance is in units of the objective; kappa is a pure number. *)
Theorem C66_ei : forall tol ops, surrogate_follows (@ei_strategy q dim dist mu sig Phi phi dtol tol) ops ->
  Strategy.run c' (@ei_strategy q dim dist mu sig Phi phi dtol (option_map (Rmult a) tol)) design tt (map (map_op g (fun o => o)) ops) =
  map_sys g (fun e => e) (Strategy.run c (@ei_strategy q dim dist mu sig Phi phi dtol tol) design tt ops).
Proof using Ha Hnan.
  intros tol ops H. apply (@map_run pt R R unit unit (runs q dim) (runs q dim) g (fun e => e) (fun o => o) c isnan').
  - exact Hnan.
  - reflexivity.
  - reflexivity.
  - reflexivity.
  - apply all_fine_run. intros ops1 d o ops2 p E HP G n o'. specialize (H ops1 d o ops2 p E HP G). cbn [hk_generate ei_strategy]. unfold ei_generate.
    set (s := at_generate c (p_s p)). assert (ES : sur s = sur (p_s p)) by (unfold s, at_generate, check_termination; destruct (c_max_evals c <=? _)%Z; reflexivity).
    rewrite <- ES in H. change (fX (map_base g s)) with (map g (fX s)). change (fX_ (map_base g s)) with (map g (fX_ s)). change (sur (map_base g s)) with (map_sur g (sur s)).
    change (X_ (map_base g s)) with (X_ s). change (Xpend (map_base g s)) with (Xpend s). unfold g at 1 2. rewrite tolerance_lin, np_min_lin by exact Ha.
    destruct (tolerance tol (fX s)) as [t|]; [|reflexivity]. cbn [rmap rbind]. destruct (np_min (fX_ s)) as [m|]; [|reflexivity]. cbn [rmap rbind].
    rewrite (@ei_ga_lin q dist (mu (sur s)) (sig (sur s)) _ _ Phi phi a b dtol Ha (fun x => proj1 (H x)) (fun x => proj2 (H x))).
    destruct (ei_ga _ _ _ _ _ _ _ _ _ _ _ _); reflexivity.
Qed.
Theorem C66_lcb : forall kappa tol ops, surrogate_follows (@lcb_strategy q dim dist mu sig dtol kappa tol) ops ->
  Strategy.run c' (@lcb_strategy q dim dist mu sig dtol kappa (option_map (Rmult a) tol)) design tt (map (map_op g (fun o => o)) ops) =
  map_sys g (fun e => e) (Strategy.run c (@lcb_strategy q dim dist mu sig dtol kappa tol) design tt ops).
Proof using Ha Hnan.
  intros kappa tol ops H. apply (@map_run pt R R unit unit (runs q dim) (runs q dim) g (fun e => e) (fun o => o) c isnan').
  - exact Hnan.
  - reflexivity.
  - reflexivity.
  - reflexivity.
  - apply all_fine_run. intros ops1 d o ops2 p E HP G n o'. specialize (H ops1 d o ops2 p E HP G). cbn [hk_generate lcb_strategy]. unfold lcb_generate.
    set (s := at_generate c (p_s p)). assert (ES : sur s = sur (p_s p)) by (unfold s, at_generate, check_termination; destruct (c_max_evals c <=? _)%Z; reflexivity).
    rewrite <- ES in H. change (fX (map_base g s)) with (map g (fX s)). change (sur (map_base g s)) with (map_sur g (sur s)).
    change (X_ (map_base g s)) with (X_ s). change (Xpend (map_base g s)) with (Xpend s). unfold g at 1 2. rewrite tolerance_lin, np_min_lin by exact Ha.
    destruct (tolerance tol (fX s)) as [t|]; [|reflexivity]. cbn [rmap rbind]. destruct (np_min (fX s)) as [m|]; [|reflexivity]. cbn [rmap rbind].
    assert (EM : a * m + b - a * t = a * (m - t) + b) by ring. rewrite EM.
    rewrite (@lcb_ga_lin q dist (mu (sur s)) (sig (sur s)) _ _ a b dtol Ha (fun x => proj1 (H x)) (fun x => proj2 (H x))).
    destruct (lcb_ga _ _ _ _ _ _ _ _ _ _); reflexivity.
Qed.
End Runs.

(** ** The Gaussian process of gp.py follows the change unless the values are nearly constant *)
Section GP.
Variable SK : Type.
Variable sk_fit : list pt -> list R -> SK.
Variable sk_mean sk_std : SK -> pt -> R.
Variable dim : nat.
Variables lb ub : pt.
Variable out : list R -> list R.
Definition value (r : res R) : R := match r with Ok v => v | Err _ => 0 end.
(** predict and predict_std of a GPRegressor to which [d] was added. *)
Definition gp_mu (d : list (pt * R)) (x : pt) : R :=
  value (gp_answer (fun U y => Ok (sk_fit U y)) sk_mean dim lb ub out [Add (map fst d) (map snd d)] x).
Definition gp_sig (d : list (pt * R)) (x : pt) : R :=
  value (gp_answer_std (fun U y => Ok (sk_fit U y)) sk_mean sk_std dim lb ub out [Add (map fst d) (map snd d)] x).

Theorem C66_gp : forall a b d, scale_free out -> 0 < a -> Forall (fun xv => length (fst xv) = dim) d ->
  / 1000000 <= np_std (out (map snd d)) -> / 1000000 <= a * np_std (out (map snd d)) -> follows gp_mu gp_sig a b d.
Proof using.
  intros a b d HS Ha HL H1 H2 x.
  assert (C : forall d, Forall (fun xv : pt * R => length (fst xv) = dim) d -> contents dim [Add (map fst d) (map snd d)] = d).
  { clear. intros d HL. cbn [contents fold_left]. assert (E : right_shape dim (map fst d) (map snd d) = true).
    { unfold right_shape. rewrite !map_length, Nat.eqb_refl. cbn [andb]. apply forallb_forall. intros x Hx. apply in_map_iff in Hx. destruct Hx as [xv [<- Hx]].
      rewrite Forall_forall in HL. apply Nat.eqb_eq, HL, Hx. }
    rewrite E. cbn [app]. clear. induction d as [|[x v] d IH]; [reflexivity|]. cbn. f_equal. exact IH. }
  set (g := fun v => a * v + b). set (d' := map_sur g d).
  assert (HL' : Forall (fun xv => length (fst xv) = dim) d').
  { unfold d', map_sur. apply Forall_forall. intros xv Hx. apply in_map_iff in Hx. destruct Hx as [[y v] [<- Hx]]. rewrite Forall_forall in HL. exact (HL _ Hx). }
  assert (NE : exists y l, out (map snd d) = y :: l).
  { destruct (out (map snd d)) as [|y l]; [|eauto]. exfalso. unfold np_std, np_mean in H1. simpl in H1. unfold Rdiv in H1. rewrite Rmult_0_l, sqrt_0 in H1. lra. }
  destruct (@C63_affine SK (fun U y => Ok (sk_fit U y)) sk_mean sk_std dim lb ub out [Add (map fst d) (map snd d)] [Add (map fst d') (map snd d')] a b HS Ha) with (x := x) as [A B].
  - rewrite !C by assumption. reflexivity.
  - rewrite C by exact HL. exact H1.
  - rewrite C by exact HL. exact H2.
  - assert (K : forall b r, (exists v, r = Ok v) -> value (rescaled a b r) = a * value r + b) by (intros b0 r [v ->]; reflexivity).
    assert (A1 : exists v, gp_answer (fun U y => Ok (sk_fit U y)) sk_mean dim lb ub out [Add (map fst d) (map snd d)] x = Ok v).
    { rewrite gp_answer_eq, !C by exact HL. destruct NE as [y [l NE]]. match goal with |- context [out ?z] => replace (out z) with (y :: l) by (symmetry; exact NE) end. cbn [gp_learn rbind]. eauto. }
    assert (B1 : exists v, gp_answer_std (fun U y => Ok (sk_fit U y)) sk_mean sk_std dim lb ub out [Add (map fst d) (map snd d)] x = Ok v).
    { rewrite gp_answer_std_eq, !C by exact HL. destruct NE as [y [l NE]]. match goal with |- context [out ?z] => replace (out z) with (y :: l) by (symmetry; exact NE) end. cbn [gp_learn rbind]. eauto. }
    split; [exact (eq_trans (f_equal value A) (K b _ A1))|]. rewrite <- (Rplus_0_r (a * _)). exact (eq_trans (f_equal value B) (K 0 _ B1)).
Qed.
End GP.

(** ** A shift of the objective changes runs of SRBFStrategy and DYCORSStrategy *)
Definition vshift (b : Q) (v : val) : val := match v with Fin x => Fin (x + b)%Q | PInf => PInf end.
(** Values 100, 100, 99, 98, 97, ...: each adaptive value improves on the best one by about 1%,
    far above the threshold of 0.1%.  With a million added no value improves by 0.1% of the
    best one: the same search converges and restarts. *)
Definition shift_ops : list (op nat val (cand_search nat)) :=
  ask 0 0 100 ++ ask 0 1 100 ++ concat (map (fun i => ask (30 + i) (2 + i) (99 - inject_Z (Z.of_nat i))) (seq 0 17)) ++ [pr 50].
Theorem C66_srbf_shift_refuted : exists (c : cfg nat val) (b : Q) (ops : list (op nat val (cand_search nat))),
  let p := rpr c 3 ops in let p' := rpr c 3 (map (map_op (vshift b) (fun o => o)) ops) in
  map_cfg (vshift b) (c_isnan c) c = c /\
  reached c (rhk c 3) (Ok [10; 11]%nat) srbf0 p /\ reached c (rhk c 3) (Ok [10; 11]%nat) srbf0 p' /\
  StrategySpec.restarts (p_hist p) = 0%nat /\ StrategySpec.restarts (p_hist p') = 1%nat /\
  p_hist p' <> map (map_event (vshift b)) (p_hist p).
Proof.
  exists (rcfg 40 true 0 2), (1000000 # 1)%Q, shift_ops. cbv zeta. split; [reflexivity|].
  split; [apply rpr_ok; vm_compute; reflexivity|]. split; [apply rpr_ok; vm_compute; reflexivity|].
  assert (R0 : StrategySpec.restarts (p_hist (rpr (rcfg 40 true 0 2) 3 shift_ops)) = 0%nat) by (vm_compute; reflexivity).
  assert (R1 : StrategySpec.restarts (p_hist (rpr (rcfg 40 true 0 2) 3 (map (map_op (vshift (1000000 # 1)) (fun o => o)) shift_ops))) = 1%nat) by (vm_compute; reflexivity).
  split; [exact R0|]. split; [exact R1|]. intros E. rewrite E in R1. revert R1. vm_compute. discriminate.
Qed.

(** ** A run to which C66_ei and C66_gp apply: a one-dimensional problem, two design points with
    values 0 and 2, then a batch. *)
Section Example1.
Let q1 : prob := mkProb [0] [1] [].
Variable o : runs q1 1.
Let c1 : cfg pt R := mkCfg 10 false 2 true 2 None None (fun _ => false) (fun _ _ => false) false.
Let mu1 := gp_mu (fun _ _ => tt) (fun _ _ => 0) 1 [0] [1] identity.
Let sig1 := gp_sig (fun _ _ => tt) (fun _ _ => 0) (fun _ _ => 1) 1 [0] [1] identity.
Let ops1 : list (op pt R (runs q1 1)) :=
  [Propose (Ok []) o; Accept 0; Update 0 (SCompleted 0); Propose (Ok []) o; Accept 1; Update 1 (SCompleted 2); Propose (Ok []) o].
Let dist1 (x y : pt) : R := Rabs (nth 0 x 0 - nth 0 y 0).
Example ex_C66 : forall Phi phi tol,
  let hk := @ei_strategy q1 1 dist1 mu1 sig1 Phi phi (/ 10) tol in
  surrogate_follows mu1 sig1 3 5 c1 (Ok [[0]; [1]]) hk ops1 /\
  exists p, y_proc (Strategy.run c1 hk (Ok [[0]; [1]]) tt (firstn 6 ops1)) = Some p /\ will_generate c1 (p_s p) /\ sur (p_s p) = [([1], 0); ([0], 2)].
Proof using.
  intros Phi phi tol hk.
  assert (E6 : exists p, y_proc (Strategy.run c1 hk (Ok [[0]; [1]]) tt (firstn 6 ops1)) = Some p /\ num_evals (p_s p) = 2%Z /\ pending_evals (p_s p) = 0%Z /\
    terminate (p_s p) = false /\ converged (p_s p) = false /\ batch_queue (p_s p) = [] /\ sur (p_s p) = [([1], 0); ([0], 2)]).
  { eexists. split; [vm_compute; reflexivity|]. repeat split. }
  split.
  - intros ops0 d o' ops2 p E HP G. destruct E6 as [p6 [E6 [_ [_ [_ [_ [_ S6]]]]]]].
    assert (Q0 : exists p0, y_proc (Strategy.run c1 hk (Ok [[0]; [1]]) tt []) = Some p0 /\ batch_queue (p_s p0) <> []) by (eexists; split; [vm_compute; reflexivity|discriminate]).
    assert (Q3 : exists p0, y_proc (Strategy.run c1 hk (Ok [[0]; [1]]) tt (firstn 3 ops1)) = Some p0 /\ batch_queue (p_s p0) <> []) by (eexists; split; [vm_compute; reflexivity|discriminate]).
    destruct Q0 as [p0 [Q0 B0]], Q3 as [p3 [Q3 B3]]. destruct G as [_ [_ [_ [G _]]]].
    destruct ops0 as [|x0 ops0]; [rewrite Q0 in HP; injection HP as <-; contradiction|]. injection E as <- E.
    destruct ops0 as [|x1 ops0]; [discriminate|]. injection E as <- E. destruct ops0 as [|x2 ops0]; [discriminate|]. injection E as <- E.
    destruct ops0 as [|x3 ops0]; [pose proof (eq_trans (eq_sym Q3) HP) as K; injection K as <-; contradiction|].
    injection E as <- E. destruct ops0 as [|x4 ops0]; [discriminate|]. injection E as <- E. destruct ops0 as [|x5 ops0]; [discriminate|]. injection E as <- E.
    destruct ops0 as [|x6 ops0]; [|injection E as _ E; destruct ops0; discriminate].
    pose proof (eq_trans (eq_sym E6) HP) as K. injection K as <-. rewrite S6.
    assert (S : np_std (identity (map snd [([1], 0); ([0], 2)])) = 1) by (destruct ex_C63 as [_ [S _]]; exact S).
    apply C66_gp; [apply C65_transformations|lra|repeat constructor| |]; rewrite S; lra.
  - destruct E6 as [p6 [E6 [N [P [T [C [B S]]]]]]]. exists p6. split; [exact E6|]. split; [|exact S]. unfold will_generate. rewrite N, P, T, C, B. repeat split; auto; reflexivity.
Qed.
End Example1.
Print Assumptions C66_ei.
Print Assumptions C66_gp.
