(** * C71 for EIStrategy and LCBStrategy: full invariance under a change of origin and unit of length. *)
From Coq Require Import List Arith ZArith Lia Bool QArith Reals Lra.
From Verif Require Import Base PyList Strategy StratMap PointMap Box PropBox Design Cand GA PropGA EndToEnd EIStrat
  Lin LinProofs RBF RBFProofs PropRBF PropSurr RBFEquiv SurrUnits GPWrap ScaleEI UnitsRun.
Import ListNotations.

Set Implicit Arguments.
Local Close Scope Q_scope.
Local Open Scope R_scope.

Lemma Rmax_lin' : forall a c, 0 < a -> forall x y, a * Rmax x y + c = Rmax (a * x + c) (a * y + c).
Proof. intros a c Ha x y. unfold Rmax. destruct (Rle_dec x y), (Rle_dec (a * x + c) (a * y + c)); try reflexivity; exfalso; nra. Qed.
Lemma Rmin_lin' : forall a c, 0 < a -> forall x y, a * Rmin x y + c = Rmin (a * x + c) (a * y + c).
Proof. intros a c Ha x y. unfold Rmin. destruct (Rle_dec x y), (Rle_dec (a * x + c) (a * y + c)); try reflexivity; exfalso; nra. Qed.

Section Moved.
Variable q : prob.
Variables (a : R) (b : pt).
Hypothesis Ha : 0 < a.
Notation h := (moved a b).
Notation q' := (moved_prob a b q).
Hypothesis NI : q_int q = [].
Hypothesis LB : length (q_lb q) = length (q_ub q).

(** ** The genetic algorithm *)
Lemma side_moved : forall i, nth i (q_ub q') 0 - nth i (q_lb q') 0 = a * (nth i (q_ub q) 0 - nth i (q_lb q) 0).
Proof using LB.
  intros i. unfold moved_prob. cbn [q_lb q_ub]. destruct (Nat.lt_ge_cases i (length (q_lb q))) as [H|H].
  - rewrite !moved_nth by congruence. ring.
  - rewrite !nth_overflow by (rewrite ?moved_len; congruence). ring.
Qed.
Lemma lin_moved : forall al x y, lin al (h x) (h y) = h (lin al x y).
Proof using.
  clear. unfold lin. intros al x. revert b. induction x as [|t x IH]; intros b [|s y]; cbn [moved combine map]; try reflexivity.
  rewrite IH. cbn [moved fst snd]. f_equal. ring.
Qed.
Lemma mapi_from_map : forall A B A' B' (g : A -> A') (g' : B -> B') (f : nat -> A -> B) (f' : nat -> A' -> B') l i, (forall i x, In x l -> f' i (g x) = g' (f i x)) ->
  mapi_from i f' (map g l) = map g' (mapi_from i f l).
Proof using.
  intros A B A' B' g g' f f' l. induction l as [|x l IH]; intros i H; [reflexivity|]. cbn [map mapi_from]. rewrite H by (left; reflexivity). f_equal. apply IH.
  intros j y Hy. apply H. right. exact Hy.
Qed.
Lemma crossover_moved : forall g P1 P2, crossover g (map h P1) (map h P2) = map h (crossover g P1 P2).
Proof using.
  clear. intros g P1 P2. unfold crossover, mapi. set (h2 := fun xy : pt * pt => (h (fst xy), h (snd xy))).
  assert (E : combine (map h P1) (map h P2) = map h2 (combine P1 P2)).
  { revert P2. induction P1 as [|x P1 IH]; intros [|y P2]; cbn; try reflexivity. rewrite IH. reflexivity. }
  rewrite E, (@mapi_from_map _ _ _ _ h2 h2 (cross_row g)).
  - rewrite map_app, !map_map. reflexivity.
  - intros i [x y] _. unfold h2, cross_row. cbn [fst snd]. destruct (g_cross g i); cbn [fst snd]; rewrite ?lin_moved; reflexivity.
Qed.
Lemma mutate_moved : forall g r x, mutate_row q' g r (h x) = h (mutate_row q g r x).
Proof using Ha LB.
  intros g r x. unfold mutate_row, mapi.
  assert (E : forall x i b, mapi_from i (fun i t => t + g_pert g r i * (/ 5 * (nth i (q_ub q') 0 - nth i (q_lb q') 0)) * (if g_mut g r i then 1 else 0)) (moved a b x) =
    moved a b (mapi_from i (fun i t => t + g_pert g r i * (/ 5 * (nth i (q_ub q) 0 - nth i (q_lb q) 0)) * (if g_mut g r i then 1 else 0)) x)).
  { clear x. induction x as [|t x IH]; intros i b0; [reflexivity|]. cbn [moved mapi_from]. rewrite side_moved, IH. f_equal. ring. }
  rewrite E. generalize (mapi_from 0 (fun i t => t + g_pert g r i * (/ 5 * (nth i (q_ub q) 0 - nth i (q_lb q) 0)) * (if g_mut g r i then 1 else 0)) x).
  clear E x. intros y. unfold moved_prob. cbn [q_lb q_ub]. clear LB NI. generalize (q_lb q) (q_ub q). clear q. revert b.
  induction y as [|t y IH]; intros b [|l lb] [|u ub]; cbn [moved map3]; try reflexivity. rewrite IH. f_equal.
  rewrite Rmin_lin', Rmax_lin' by exact Ha. reflexivity.
Qed.
Lemma init_moved : forall n U, init_population q' n (StartUnit U) = rmap (map h) (init_population q n (StartUnit U)).
Proof using.
  clear. intros n U. cbn [init_population rmap]. f_equal. rewrite map_map. apply map_ext. intros x. unfold moved_prob. cbn [q_lb q_ub].
  generalize (q_lb q) (q_ub q). clear q. revert b.
  induction x as [|t x IH]; intros b [|l lb] [|u ub]; cbn [moved map3]; try reflexivity. rewrite IH. f_equal. ring.
Qed.
Lemma round_moved' : forall X, round_vars (map h X) (q_int q') (q_lb q') (q_ub q') = rmap (map h) (round_vars X (q_int q) (q_lb q) (q_ub q)).
Proof using NI. intros X. apply round_moved. exact NI. Qed.

Section Obj.
Variables f f' : pt -> xr.
Hypothesis Hf : forall x, f' (h x) = f x.
Definition mv_ga (s : ga_state) : ga_state := mkGa (map h (ga_pop s)) (ga_vals s) (h (ga_best s)) (ga_value s).
Lemma evaluate_moved : forall E keep, ga_evaluate f' (map h E) (map h keep) = rmap mv_ga (ga_evaluate f E keep).
Proof using Hf.
  intros E keep. unfold ga_evaluate. rewrite map_map, (map_ext (fun x => f' (h x)) f) by exact Hf. destruct (xargmin (map f E)) as [k|]; [|reflexivity]. cbn [rbind].
  rewrite geti_map. destruct (geti E k); [|reflexivity]. cbn [rmap rbind]. destruct (geti (map f E) k); reflexivity.
Qed.
Lemma generation_moved : forall n g s, generation q' f' n g (mv_ga s) = rmap (fun r => (mv_ga (fst r), map h (snd r))) (generation q f n g s).
Proof using Ha NI LB Hf.
  intros n g s. unfold generation. cbn [mv_ga ga_pop ga_vals ga_best ga_value].
  destruct (mapR (winner (ga_vals s) g) (seq 0 n)) as [ws|]; [|reflexivity]. cbn [rbind]. rewrite mapR_geti_map.
  destruct (mapR (geti (ga_pop s)) ws) as [parents|]; [|reflexivity]. cbn [rmap rbind]. rewrite firstn_map, skipn_map, crossover_moved.
  unfold mapi at 1. rewrite (@mapi_from_map _ _ _ _ h h (mutate_row q g)) by (intros; apply mutate_moved). fold (mapi (mutate_row q g)).
  change (mapi_from 0 (mutate_row q g) (crossover g (firstn (n / 2) parents) (skipn (n / 2) parents))) with (mapi (mutate_row q g) (crossover g (firstn (n / 2) parents) (skipn (n / 2) parents))).
  set (pop := mapi _ _). rewrite round_moved'. destruct (round_vars pop _ _ _) as [rounded|]; [|reflexivity]. cbn [rmap rbind].
  assert (SF : set_first (map h rounded) (h (ga_best s)) = rmap (map h) (set_first rounded (ga_best s))) by (destruct rounded; reflexivity).
  rewrite SF. destruct (set_first rounded (ga_best s)) as [E|]; [|reflexivity]. cbn [rmap rbind].
  unfold keep_pop, moved_prob. cbn [q_int]. rewrite NI, evaluate_moved. destruct (ga_evaluate f E E); reflexivity.
Qed.
Lemma generations_moved : forall n gs s, generations q' f' n gs (mv_ga s) = rmap (fun r => (mv_ga (fst r), map (map h) (snd r))) (generations q f n gs s).
Proof using Ha NI LB Hf.
  intros n gs. induction gs as [|g gs IH]; intros s; [reflexivity|]. cbn [generations]. rewrite generation_moved.
  destruct (generation q f n g s) as [[s1 E]|]; [|reflexivity]. cbn [rmap rbind fst snd]. rewrite IH. destruct (generations q f n gs s1); reflexivity.
Qed.
Lemma optimize_moved : forall n U gs, ga_optimize q' f' n (StartUnit U) gs = rmap (fun r => let '(x, v, tr) := r in (h x, v, map (map h) tr)) (ga_optimize q f n (StartUnit U) gs).
Proof using Ha NI LB Hf.
  intros n U gs. unfold ga_optimize. rewrite init_moved. destruct (init_population q _ _) as [pop|]; [|reflexivity]. cbn [rmap rbind].
  assert (IR : init_round q' (map h pop) = rmap (map h) (init_round q pop)) by (unfold init_round, moved_prob; cbn [q_int]; rewrite NI; reflexivity).
  rewrite IR. destruct (init_round q pop) as [E|]; [|reflexivity]. cbn [rmap rbind].
  unfold keep_pop. cbn [moved_prob q_int]. rewrite NI, evaluate_moved. destruct (ga_evaluate f E E) as [s|]; [|reflexivity]. cbn [rmap rbind].
  rewrite generations_moved. destruct (generations q f _ gs s); reflexivity.
Qed.
End Obj.

(** ** The searches *)
Lemma round_row_moved : forall x, round_row q' (h x) = h (round_row q x).
Proof using NI. intros x. unfold round_row, moved_prob. cbn [q_int]. rewrite NI. reflexivity. Qed.
Lemma too_close_moved : forall dtol XX x, too_close edist (a * dtol) (map h XX) (h x) = too_close edist dtol XX x.
Proof using Ha.
  intros dtol XX x. unfold too_close. induction XX as [|t XX IH]; [reflexivity|]. cbn [map existsb]. rewrite IH. f_equal. rewrite moved_dist by exact Ha.
  destruct (Rlt_dec (a * edist x t) (a * dtol)), (Rlt_dec (edist x t) dtol); try reflexivity; exfalso; nra.
Qed.
Lemma pos_moved : forall A dtol (u v : A), (if Rlt_dec 0 (a * dtol) then u else v) = (if Rlt_dec 0 dtol then u else v).
Proof using Ha. intros A dtol u v. destruct (Rlt_dec 0 (a * dtol)), (Rlt_dec 0 dtol); try reflexivity; exfalso; nra. Qed.

Section Search.
Variables mu sig mu' sig' : pt -> R.
Hypothesis Hmu : forall x, mu' (h x) = mu x.
Hypothesis Hsig : forall x, sig' (h x) = sig x.
Variables Phi phi : R -> R.
Variable dtol : R.
Lemma ei_obj_moved : forall fmin XX x, ei_obj edist mu' sig' Phi phi q' fmin (a * dtol) (map h XX) (h x) = ei_obj edist mu sig Phi phi q fmin dtol XX x.
Proof using Ha NI Hmu Hsig.
  intros fmin XX x. unfold ei_obj, ei_merit, ei_raw. rewrite round_row_moved, too_close_moved, pos_moved, Hmu, Hsig. reflexivity.
Qed.
Lemma lcb_obj_moved : forall kappa XX x, lcb_obj edist mu' sig' q' kappa (a * dtol) (map h XX) (h x) = lcb_obj edist mu sig q kappa dtol XX x.
Proof using Ha NI Hmu Hsig.
  intros kappa XX x. unfold lcb_obj, lcb_merit, lcb_raw. rewrite round_row_moved, too_close_moved, pos_moved, Hmu, Hsig. reflexivity.
Qed.
Lemma pop_moved : ga_pop_size q' = ga_pop_size q.
Proof using. unfold ga_pop_size, moved_prob. cbn [q_lb]. rewrite moved_len. reflexivity. Qed.
Lemma ei_ga_moved : forall fmin tol n XX ds, ei_ga edist mu' sig' Phi phi q' fmin (a * dtol) tol (map h XX) n ds =
  rmap (option_map (map h)) (ei_ga edist mu sig Phi phi q fmin dtol tol XX n ds).
Proof using Ha NI LB Hmu Hsig.
  intros fmin tol n. induction n as [|n IH]; intros XX ds; [reflexivity|]. cbn [ei_ga]. rewrite pop_moved.
  rewrite (@optimize_moved (ei_obj edist mu sig Phi phi q fmin dtol XX)) by (apply ei_obj_moved).
  destruct (ga_optimize q (ei_obj edist mu sig Phi phi q fmin dtol XX) _ _ _) as [[[x v] tr]|]; [|reflexivity]. cbn [rmap rbind].
  destruct v as [w| | |]; try reflexivity. destruct (Rlt_dec (- w) tol); [reflexivity|]. change (map h XX ++ [h x]) with (map h XX ++ map h [x]). rewrite <- map_app, IH.
  destruct (ei_ga edist mu sig Phi phi q fmin dtol tol (XX ++ [x]) n _) as [[l|]|]; reflexivity.
Qed.
Lemma lcb_ga_moved : forall kappa tgt n XX ds, lcb_ga edist mu' sig' q' kappa (a * dtol) tgt (map h XX) n ds =
  rmap (option_map (map h)) (lcb_ga edist mu sig q kappa dtol tgt XX n ds).
Proof using Ha NI LB Hmu Hsig.
  intros kappa tgt n. induction n as [|n IH]; intros XX ds; [reflexivity|]. cbn [lcb_ga]. rewrite pop_moved.
  rewrite (@optimize_moved (lcb_obj edist mu sig q kappa dtol XX)) by (apply lcb_obj_moved).
  destruct (ga_optimize q (lcb_obj edist mu sig q kappa dtol XX) _ _ _) as [[[x v] tr]|]; [|reflexivity]. cbn [rmap rbind].
  destruct tgt as [t|]; [|reflexivity]. destruct (xlt (XFin t) v); [reflexivity|]. change (map h XX ++ [h x]) with (map h XX ++ map h [x]). rewrite <- map_app, IH.
  destruct (lcb_ga edist mu sig q kappa dtol (Some t) (XX ++ [x]) n _) as [[l|]|]; reflexivity.
Qed.
End Search.

(** ** The strategies *)
Variable dim : nat.
(** The draws of the genetic algorithm are numbers without a unit: the same ones are used. *)
Lemma draws_moved : forall ds : nat -> ga_draws, (forall i, run_ok q dim (ds i)) -> forall i, run_ok q' dim (ds i).
Proof using. intros ds H i. unfold run_ok. rewrite pop_moved. exact (H i). Qed.
Definition same_draws (o : runs q dim) : runs q' dim := exist _ (proj1_sig o) (@draws_moved _ (proj2_sig o)).

Variables mu sig mu' sig' : list (pt * R) -> pt -> R.
Hypothesis Hmu : forall d x, mu' (pm_sur h d) (h x) = mu d x.
Hypothesis Hsig : forall d x, sig' (pm_sur h d) (h x) = sig d x.
Variables Phi phi : R -> R.
Variable dtol : R.
Variable c : cfg pt R.
Variable peqb' : pt -> pt -> bool.
Hypothesis Heq : forall x y, peqb' (h x) (h y) = c_peqb c x y.
Notation c' := (pm_cfg h peqb' c).

Lemma ei_moved : forall tol d ops,
  Strategy.run c' (@ei_strategy q' dim edist mu' sig' Phi phi (a * dtol) tol) (rmap (map h) d) tt (map (pm_op h same_draws) ops) =
  pm_sys h (fun e => e) (Strategy.run c (@ei_strategy q dim edist mu sig Phi phi dtol tol) d tt ops).
Proof using Ha NI LB Hmu Hsig Heq.
  intros tol d ops. apply (@pm_run pt pt R unit unit (runs q dim) (runs q' dim) h (fun e => e) same_draws).
  - exact Heq.
  - reflexivity.
  - reflexivity.
  - reflexivity.
  - apply pm_all_fine_all. intros e s n o. cbn [hk_generate ei_strategy]. unfold ei_generate.
    change (fX (pm_base h s)) with (fX s). change (fX_ (pm_base h s)) with (fX_ s). change (X_ (pm_base h s)) with (map h (X_ s)). change (Xpend (pm_base h s)) with (map h (Xpend s)).
    change (sur (pm_base h s)) with (pm_sur h (sur s)). change (proj1_sig (same_draws o)) with (proj1_sig o).
    destruct (tolerance tol (fX s)) as [t|]; [|reflexivity]. cbn [rbind]. destruct (np_min (fX_ s)) as [m|]; [|reflexivity]. cbn [rbind]. rewrite <- map_app.
    rewrite (@ei_ga_moved (mu (sur s)) (sig (sur s)) _ _ (Hmu (sur s)) (Hsig (sur s))). destruct (ei_ga _ _ _ _ _ _ _ _ _ _ _ _) as [[l|]|]; reflexivity.
Qed.
Lemma lcb_moved : forall kappa tol d ops,
  Strategy.run c' (@lcb_strategy q' dim edist mu' sig' (a * dtol) kappa tol) (rmap (map h) d) tt (map (pm_op h same_draws) ops) =
  pm_sys h (fun e => e) (Strategy.run c (@lcb_strategy q dim edist mu sig dtol kappa tol) d tt ops).
Proof using Ha NI LB Hmu Hsig Heq.
  intros kappa tol d ops. apply (@pm_run pt pt R unit unit (runs q dim) (runs q' dim) h (fun e => e) same_draws).
  - exact Heq.
  - reflexivity.
  - reflexivity.
  - reflexivity.
  - apply pm_all_fine_all. intros e s n o. cbn [hk_generate lcb_strategy]. unfold lcb_generate.
    change (fX (pm_base h s)) with (fX s). change (X_ (pm_base h s)) with (map h (X_ s)). change (Xpend (pm_base h s)) with (map h (Xpend s)).
    change (sur (pm_base h s)) with (pm_sur h (sur s)). change (proj1_sig (same_draws o)) with (proj1_sig o).
    destruct (tolerance tol (fX s)) as [t|]; [|reflexivity]. cbn [rbind]. destruct (np_min (fX s)) as [m|]; [|reflexivity]. cbn [rbind]. rewrite <- map_app.
    rewrite (@lcb_ga_moved (mu (sur s)) (sig (sur s)) _ _ (Hmu (sur s)) (Hsig (sur s))). destruct (lcb_ga _ _ _ _ _ _ _ _ _ _) as [[l|]|]; reflexivity.
Qed.
End Moved.

(** ** With the Gaussian process and the default minimum distance *)
(** ei_strategy.py:81-83, lcb_strategy.py:80-82 *)
Definition used_dtol (q : prob) (given : option R) : R := match given with Some t => t | None => / 1000 * edist (q_ub q) (q_lb q) end.

Section GP.
Variable SK : Type.
Variable sk_fit : list pt -> list R -> SK.
Variables sk_mean sk_std : SK -> pt -> R.
Variable out : list R -> list R.
Variable q : prob.
Variables (a : R) (b : pt).
Hypothesis Ha : 0 < a.
Notation h := (moved a b).
Notation q' := (moved_prob a b q).
Variable dim : nat.
Hypothesis WB : bounds dim (q_lb q) (q_ub q).

Lemma gp_data_moved : forall d : list (pt * R), contents dim [Add (map fst (pm_sur h d)) (map snd (pm_sur h d))] =
  map (fun xv => (h (fst xv), snd xv)) (contents dim [Add (map fst d) (map snd d)]).
Proof using.
  clear. intros d. cbn [contents fold_left]. assert (E : right_shape dim (map fst (pm_sur h d)) (map snd (pm_sur h d)) = right_shape dim (map fst d) (map snd d)).
  { unfold right_shape, pm_sur. rewrite !map_length. f_equal. induction d as [|[y v] d IH]; [reflexivity|]. cbn. rewrite moved_len. f_equal. exact IH. }
  rewrite E. destruct (right_shape dim (map fst d) (map snd d)); [|reflexivity]. cbn [app]. clear E. induction d as [|[y v] d IH]; [reflexivity|]. cbn. f_equal. exact IH.
Qed.
Lemma unit_rows_moved : forall X, to_unit_box (map h X) (q_lb q') (q_ub q') = to_unit_box X (q_lb q) (q_ub q).
Proof using Ha WB.
  intros X. unfold to_unit_box. rewrite map_map. apply map_ext. intros x. unfold moved_prob. cbn [q_lb q_ub]. apply moved_to_unit; [lra|].
  destruct WB as [B1 [B2 B3]]. intros i Hi. apply B3. congruence.
Qed.
Lemma unit_moved : forall x, to_unit (h x) (q_lb q') (q_ub q') = to_unit x (q_lb q) (q_ub q).
Proof using Ha WB. intros x. pose proof (unit_rows_moved [x]) as E. unfold to_unit_box in E. cbn [map] in E. injection E. auto. Qed.
Lemma gp_mu_moved : forall d x, gp_mu sk_fit sk_mean dim (q_lb q') (q_ub q') out (pm_sur h d) (h x) = gp_mu sk_fit sk_mean dim (q_lb q) (q_ub q) out d x.
Proof using Ha WB.
  intros d x. unfold gp_mu. f_equal. rewrite !gp_answer_eq, gp_data_moved, !map_map. cbn [fst snd]. rewrite <- (map_map fst h), unit_rows_moved, unit_moved. reflexivity.
Qed.
Lemma gp_sig_moved : forall d x, gp_sig sk_fit sk_mean sk_std dim (q_lb q') (q_ub q') out (pm_sur h d) (h x) = gp_sig sk_fit sk_mean sk_std dim (q_lb q) (q_ub q) out d x.
Proof using Ha WB.
  intros d x. unfold gp_sig. f_equal. rewrite !gp_answer_std_eq, gp_data_moved, !map_map. cbn [fst snd]. rewrite <- (map_map fst h), unit_rows_moved, unit_moved. reflexivity.
Qed.
Lemma dtol_moved : forall given, used_dtol q' (option_map (Rmult a) given) = a * used_dtol q given.
Proof using Ha. intros [t|]; [reflexivity|]. cbn [option_map used_dtol]. unfold moved_prob. cbn [q_lb q_ub]. rewrite moved_dist by exact Ha. ring. Qed.

Variables Phi phi : R -> R.
Variable dtol : option R.
Variable c : cfg pt R.
Variable peqb' : pt -> pt -> bool.
Notation c' := (pm_cfg h peqb' c).
Notation mu := (gp_mu sk_fit sk_mean dim (q_lb q) (q_ub q) out).
Notation sig := (gp_sig sk_fit sk_mean sk_std dim (q_lb q) (q_ub q) out).
Notation mu' := (gp_mu sk_fit sk_mean dim (q_lb q') (q_ub q') out).
Notation sig' := (gp_sig sk_fit sk_mean sk_std dim (q_lb q') (q_ub q') out).

(** C71, EIStrategy with GPRegressor: the bounds, designs and extra points are changed by [h], and a
    given minimum distance is multiplied by [a] (the default needs no change).  Then, with the same draws
    of the genetic algorithm, values and controller, every point of the run is changed by [h]. *)
Theorem C71_ei : q_int q = [] -> (forall x y, peqb' (h x) (h y) = c_peqb c x y) -> forall tol d ops,
  Strategy.run c' (@ei_strategy q' dim edist mu' sig' Phi phi (used_dtol q' (option_map (Rmult a) dtol)) tol) (rmap (map h) d) tt (map (pm_op h (@same_draws q a b dim)) ops) =
  pm_sys h (fun e => e) (Strategy.run c (@ei_strategy q dim edist mu sig Phi phi (used_dtol q dtol) tol) d tt ops).
Proof using Ha WB.
  intros NI HE tol d ops. rewrite dtol_moved. apply (@ei_moved q a b Ha NI); [|exact gp_mu_moved|exact gp_sig_moved|exact HE]. destruct WB as [B1 [B2 _]]. congruence.
Qed.
(** C71, LCBStrategy. *)
Theorem C71_lcb : q_int q = [] -> (forall x y, peqb' (h x) (h y) = c_peqb c x y) -> forall kappa tol d ops,
  Strategy.run c' (@lcb_strategy q' dim edist mu' sig' (used_dtol q' (option_map (Rmult a) dtol)) kappa tol) (rmap (map h) d) tt (map (pm_op h (@same_draws q a b dim)) ops) =
  pm_sys h (fun e => e) (Strategy.run c (@lcb_strategy q dim edist mu sig (used_dtol q dtol) kappa tol) d tt ops).
Proof using Ha WB.
  intros NI HE kappa tol d ops. rewrite dtol_moved. apply (@lcb_moved q a b Ha NI); [|exact gp_mu_moved|exact gp_sig_moved|exact HE]. destruct WB as [B1 [B2 _]]. congruence.
Qed.
End GP.

(** C71_ei applies to the interval [0, 1] moved to [3, 3.0001]; two design points are evaluated and the
    next call generates a batch. *)
Example ex_C71_ei : forall Phi phi tol (o : runs (mkProb [0] [1] []) 1),
  let q1 := mkProb [0] [1] [] in let h := moved (/ 10000) [3] in
  let eqb := fun x y : pt => if list_eq_dec Req_EM_T x y then true else false in
  let c1 : cfg pt R := mkCfg 10 false 2 true 2 None None (fun _ => false) eqb false in
  let hk := fun q => @ei_strategy q 1 edist (gp_mu (fun _ _ => tt) (fun _ _ => 0) 1 (q_lb q) (q_ub q) identity)
    (gp_sig (fun _ _ => tt) (fun _ _ => 0) (fun _ _ => 1) 1 (q_lb q) (q_ub q) identity) Phi phi (used_dtol q None) tol in
  let ops1 := [Propose (Ok []) o; Accept 0; Update 0 (SCompleted 0); Propose (Ok []) o; Accept 1; Update 1 (SCompleted 2); Propose (Ok []) o] in
  moved_prob (/ 10000) [3] q1 = mkProb [3] [30001 / 10000] [] /\
  Strategy.run c1 (hk (moved_prob (/ 10000) [3] q1)) (Ok [[3]; [30001 / 10000]]) tt (map (pm_op h (@same_draws q1 (/ 10000) [3] 1)) ops1) =
  pm_sys h (fun e => e) (Strategy.run c1 (hk q1) (Ok [[0]; [1]]) tt ops1) /\
  exists p, y_proc (Strategy.run c1 (hk q1) (Ok [[0]; [1]]) tt (firstn 6 ops1)) = Some p /\ will_generate c1 (p_s p) /\ sur (p_s p) = [([1], 0); ([0], 2)].
Proof.
  intros Phi phi tol o. cbv zeta. split; [unfold moved_prob; cbn [q_lb q_ub q_int moved hd tl]; f_equal; f_equal; lra|]. split.
  - replace [[3]; [30001 / 10000]] with (map (moved (/ 10000) [3]) [[0]; [1]]) by (cbn; f_equal; [f_equal; lra|f_equal; f_equal; lra]).
    set (q1 := mkProb [0] [1] []). assert (WB : bounds 1 (q_lb q1) (q_ub q1)) by (split; [reflexivity|]; split; [reflexivity|]; intros [|i] H; [cbn; lra|lia]).
    match goal with |- Strategy.run ?c _ _ _ _ = _ => set (c1 := c) end.
    refine (@C71_ei unit (fun _ _ => tt) (fun _ _ => 0) (fun _ _ => 1) identity q1 (/ 10000) [3] _ 1 WB Phi phi None c1 (c_peqb c1) eq_refl _ tol (Ok [[0]; [1]]) _); [lra|].
    intros x y. cbn [c1 c_peqb]. destruct (list_eq_dec Req_EM_T x y) as [->|N]; [destruct (list_eq_dec _ _ _); congruence|].
    destruct (list_eq_dec _ _ _) as [K|K]; [|reflexivity]. apply moved_inj in K; [congruence|lra].
  - eexists. split; [vm_compute; reflexivity|]. repeat split; auto; reflexivity.
Qed.
