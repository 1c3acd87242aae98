(** * C71 for SOPStrategy: the origin does not matter, nor would the unit of length if the minimum
    distance of the candidates were scaled with the box. *)
From Coq Require Import List Arith ZArith Lia Bool QArith Reals Lra Qreals.
From Verif Require Import Base PyList Strategy StratMap PointMap SRBF Pareto SOP Box PropBox Design Lin RBF Cand PropCand EndToEnd
  PropRBF PropSolve RBFEquiv SurrUnits SRBFRun ScaleRun ScaleEI ScaleSOP UnitsRun UnitsSmall.
Import ListNotations.
Set Implicit Arguments.
Local Close Scope Q_scope.
Local Close Scope R_scope.

Section Sop.
Variables P P' : Type.
Variable h : P -> P'.
(** The attributes of SOPStrategy with every point [x] replaced by [h x] *)
Definition pm_rec (r : srec P) : srec P' := mkRec (h (r_x r)) (r_fx r) (r_nfail r) (r_ntabu r) (r_sigma r).
Definition pm_row (r : frow P) : frow P' := mkRow (h (w_x r)) (w_fx r) (w_dist r) (w_tabu r) (w_rank r) (w_nfail r).
Definition pm_cen (n : scen P) : scen P' := mkCen (h (n_xc n)) (n_index n) (option_map h (n_new n)) (n_newidx n).
Definition pm_sop (e : sop P) : sop P' := mkSop (map pm_rec (s_evals e)) (map pm_cen (s_centers e)) (option_map (map pm_row) (s_F e)).

Variable peqb : P -> P -> bool.
Variable peqb' : P' -> P' -> bool.
Hypothesis Heq : forall x y, peqb' (h x) (h y) = peqb x y.
Variable dist : P -> P -> Q.
Variable dist' : P' -> P' -> Q.
Hypothesis Hd : forall x y, dist' (h x) (h y) = dist x y.
Variable tooclose : P -> P -> nat -> Q -> bool.
Variable tooclose' : P' -> P' -> nat -> Q -> bool.
Hypothesis Ht : forall x y k t, tooclose' (h x) (h y) k t = tooclose x y k t.
Variables (ncenters : Z) (async : bool) (max_evals : Z) (num_exp : nat).
Notation mb := (pm_base (V := val) h).

Lemma update_F_pm : forall s e, update_F (mb s) (pm_sop e) = rmap (map pm_row) (update_F s e).
Proof using.
  intros s e. unfold update_F. change (num_evals (mb s)) with (num_evals s). cbn [pm_sop s_evals]. rewrite map_length.
  destruct ((num_evals s =? Z.of_nat (length (s_evals e)))%Z && negb (length (s_evals e) =? 0)); [|reflexivity]. cbn [rmap]. rewrite !map_map. reflexivity.
Qed.
Lemma nearest_pm : forall x l, nearest dist' (h x) (map h l) = nearest dist x l.
Proof using Hd. intros x l. unfold nearest, nonzero_dists. rewrite map_map, (map_ext (fun y => dist' (h x) (h y)) (dist x)) by (intros; apply Hd). reflexivity. Qed.
Lemma update_ranks_pm : forall s e, update_ranks dist' (mb s) (pm_sop e) = rmap (map pm_row) (update_ranks dist s e).
Proof using Hd.
  intros s e. unfold update_ranks. rewrite update_F_pm. destruct (update_F s e) as [F|]; [|reflexivity]. cbn [rmap rbind]. rewrite mapR_map.
  assert (E : mapR (fun r => nearest dist' (w_x (pm_row r)) (map (@w_x P') (map pm_row F))) F = mapR (fun r => nearest dist (w_x r) (map (@w_x P) F)) F).
  { apply mapR_ext. intros r. rewrite map_map. cbn [pm_row w_x]. rewrite <- (map_map (@w_x P) h). apply nearest_pm. }
  rewrite E. destruct (mapR (fun r => nearest dist (w_x r) (map (@w_x P) F)) F) as [ds|]; [|reflexivity]. cbn [rbind]. rewrite combine_map_l, map_map. cbn [fst snd pm_row w_fx].
  destruct (nd_sorting vlt _ 100) as [[ranks|]|]; [|reflexivity|reflexivity]. cbn [rmap]. f_equal.
  rewrite combine_map_l, !map_map. apply map_ext. intros [[r d] k]. reflexivity.
Qed.

Lemma judge_all_pm : forall F cs is evals, judge_all (map pm_row F) (map pm_cen cs) (map pm_rec evals) is = rmap (map pm_rec) (judge_all F cs evals is).
Proof using.
  intros F cs is. induction is as [|i is IH]; intros evals; [reflexivity|]. cbn [judge_all].
  assert (E : judge (map pm_row F) (map pm_cen cs) (map pm_rec evals) i = rmap (map pm_rec) (judge F cs evals i)).
  { unfold judge. rewrite geti_map. destruct (geti cs i) as [cp|]; [|reflexivity]. cbn [rmap rbind pm_cen n_newidx n_index]. destruct (n_newidx cp) as [k|]; [|reflexivity]. rewrite geti_map.
    destruct (geti F k) as [row|]; [|reflexivity]. cbn [rmap rbind pm_row w_rank]. destruct (w_rank row) as [[|[|n]]|]; try reflexivity; apply upd_map; reflexivity. }
  rewrite E. destruct (judge F cs evals i) as [ev|]; [|reflexivity]. cbn [rmap rbind]. apply IH.
Qed.
Lemma tenure_pm : forall r, tenure (pm_rec r) = pm_rec (tenure r).
Proof using. intros r. unfold tenure. cbn [pm_rec r_ntabu]. destruct (0 <? r_ntabu r); [destruct (r_ntabu r <? 5)|]; reflexivity. Qed.
Lemma tenure_all_pm : forall n evals, tenure_all n (map pm_rec evals) = rmap (map pm_rec) (tenure_all n evals).
Proof using.
  intros n evals. unfold tenure_all. rewrite map_length. destruct (n <=? length evals); [|reflexivity]. cbn [rmap]. f_equal.
  rewrite firstn_map, skipn_map, map_app, !map_map. f_equal. apply map_ext. apply tenure_pm.
Qed.
Lemma to_tabu_all_pm : forall cs is evals, to_tabu_all (map pm_cen cs) (map pm_rec evals) is = rmap (map pm_rec) (to_tabu_all cs evals is).
Proof using.
  intros cs is. induction is as [|i is IH]; intros evals; [reflexivity|]. cbn [to_tabu_all].
  assert (E : to_tabu (map pm_cen cs) (map pm_rec evals) i = rmap (map pm_rec) (to_tabu cs evals i)).
  { unfold to_tabu. rewrite geti_map. destruct (geti cs i) as [cp|]; [|reflexivity]. cbn [rmap rbind pm_cen n_index]. apply upd_map. intros r. cbn [pm_rec r_nfail]. destruct (3 <? r_nfail r); reflexivity. }
  rewrite E. destruct (to_tabu cs evals i) as [ev|]; [|reflexivity]. cbn [rmap rbind]. apply IH.
Qed.
Lemma adjust_memory_pm : forall ix s e, adjust_memory dist' ncenters ix (mb s) (pm_sop e) = rmap pm_sop (adjust_memory dist ncenters ix s e).
Proof using Hd.
  intros ix s e. unfold adjust_memory. rewrite update_ranks_pm. destruct (update_ranks dist s e) as [F|]; [|reflexivity]. cbn [rmap rbind pm_sop s_evals s_centers].
  rewrite judge_all_pm. destruct (judge_all F (s_centers e) (s_evals e) _) as [ev1|]; [|reflexivity]. cbn [rmap rbind]. change (num_evals (mb s)) with (num_evals s).
  rewrite tenure_all_pm. destruct (tenure_all _ ev1) as [ev2|]; [|reflexivity]. cbn [rmap rbind]. rewrite to_tabu_all_pm.
  destruct (to_tabu_all (s_centers e) ev2 _) as [ev3|]; [|reflexivity]. cbn [rmap rbind].
  change (mkSop (map pm_rec ev3) (map pm_cen (s_centers e)) (Some (map pm_row F))) with (pm_sop (mkSop ev3 (s_centers e) (Some F))). rewrite update_F_pm.
  destruct (update_F s _); reflexivity.
Qed.
Lemma key_lt_pm : forall a b, key_lt (pm_row a) (pm_row b) = key_lt a b.
Proof using. intros a b. reflexivity. Qed.
Lemma lexsort_pm : forall F, lexsort (map pm_row F) = lexsort F.
Proof using.
  intros F. unfold lexsort. rewrite map_length. generalize (seq 0 (length F)). intros is.
  set (hh := fun ar : nat * frow P => (fst ar, pm_row (snd ar))).
  assert (C : combine is (map pm_row F) = map hh (combine is F)).
  { revert F. induction is as [|i is IH]; intros [|r F]; cbn; try reflexivity. rewrite IH. reflexivity. }
  assert (I1 : forall a l, insert_idx (hh a) (map hh l) = map hh (insert_idx a l)).
  { intros a l. induction l as [|b l IH]; [reflexivity|]. cbn [map insert_idx]. change (snd (hh b)) with (pm_row (snd b)). change (snd (hh a)) with (pm_row (snd a)).
    rewrite key_lt_pm. destruct (key_lt (snd b) (snd a)); [rewrite IH; reflexivity|reflexivity]. }
  assert (FR : forall l, fold_right (@insert_idx P') [] (map hh l) = map hh (fold_right (@insert_idx P) [] l)).
  { induction l as [|a l IH]; [reflexivity|]. cbn [map fold_right]. rewrite IH. apply I1. }
  rewrite C, FR, map_map. reflexivity.
Qed.
Lemma order_pm : forall F, SOP.order (map pm_row F) = SOP.order F.
Proof using.
  intros F. unfold SOP.order. rewrite lexsort_pm. rewrite map_map. change (map (fun x : frow P => w_fx (pm_row x)) F) with (map (@w_fx P) F).
  destruct (argmin (map (w_fx (P:=P)) F)) as [m|]; [|reflexivity]. cbn [rbind].
  destruct (geti (lexsort F) 0) as [i0|]; [|reflexivity]. cbn [rbind]. rewrite geti_map. destruct (geti F m); reflexivity.
Qed.
Lemma far_pm : forall F t a ch, SOP.far tooclose' (map pm_row F) t a ch = SOP.far tooclose F t a ch.
Proof using Ht.
  intros F t a ch. unfold SOP.far. rewrite geti_map. destruct (geti F a) as [ra|]; [|reflexivity]. cbn [rmap rbind]. rewrite mapR_geti_map.
  destruct (mapR (geti F) ch) as [rs|]; [|reflexivity]. cbn [rmap rbind]. f_equal. induction rs as [|r rs IH]; [reflexivity|]. cbn [map forallb]. rewrite IH.
  cbn [pm_row w_x w_nfail]. rewrite Ht. reflexivity.
Qed.
Lemma choose_pm : forall F t cc k rest ch, SOP.choose tooclose' (map pm_row F) t cc k rest ch = SOP.choose tooclose F t cc k rest ch.
Proof using Ht.
  intros F t cc k. induction k as [|k IH]; intros rest ch; cbn [SOP.choose]; [reflexivity|]. destruct (length ch <? cc); [|reflexivity]. destruct rest as [|a rest]; [reflexivity|].
  rewrite far_pm. destruct (SOP.far tooclose F t a ch) as [b|]; [|reflexivity]. cbn [rbind]. apply IH.
Qed.
Lemma tag_busy_pm : forall cs F, tag_busy (map pm_row F) (map pm_cen cs) = rmap (map pm_row) (tag_busy F cs).
Proof using.
  intros cs. induction cs as [|cn cs IH]; intros F; [reflexivity|]. cbn [map tag_busy]. change (busy (pm_cen cn)) with (busy cn). destruct (busy cn); [|apply IH].
  cbn [pm_cen n_index]. rewrite (@upd_map _ _ pm_row (@tag_row P)) by reflexivity. destruct (upd F (n_index cn) (@tag_row P)) as [F'|]; [|reflexivity]. cbn [rmap rbind]. apply IH.
Qed.
Lemma filter_pm : forall cs, filter (@busy P') (map pm_cen cs) = map pm_cen (filter (@busy P) cs).
Proof using. induction cs as [|cn cs IH]; [reflexivity|]. cbn [map filter]. change (busy (pm_cen cn)) with (busy cn). rewrite IH. destruct (busy cn); reflexivity. Qed.
Lemma new_centers_pm : forall evals idx, mapR (new_center (map pm_rec evals)) idx = rmap (map pm_cen) (mapR (new_center evals) idx).
Proof using.
  intros evals idx. induction idx as [|i idx IH]; [reflexivity|]. cbn [mapR]. rewrite IH. unfold new_center at 1 3. rewrite geti_map. destruct (geti evals i); [|reflexivity].
  cbn [rmap rbind]. destruct (mapR (new_center evals) idx); reflexivity.
Qed.
Lemma update_center_list_pm : forall s e F, update_center_list tooclose' ncenters max_evals num_exp (mb s) (pm_sop e) (map pm_row F) =
  rmap pm_sop (update_center_list tooclose ncenters max_evals num_exp s e F).
Proof using Ht.
  intros s e F0. unfold update_center_list. change (d_thresh max_evals num_exp (mb s)) with (d_thresh max_evals num_exp s). destruct (d_thresh max_evals num_exp s) as [t|]; [|reflexivity].
  cbn [rbind pm_sop s_centers s_evals]. rewrite tag_busy_pm. destruct (tag_busy F0 (s_centers e)) as [F|]; [|reflexivity]. cbn [rmap rbind]. rewrite order_pm.
  destruct (SOP.order F) as [ind|]; [|reflexivity]. cbn [rbind]. rewrite filter_pm, map_length. destruct (0 <? ncenters - _)%Z; [|reflexivity].
  destruct (geti ind 0) as [i0|]; [|reflexivity]. cbn [rbind]. change (num_evals (mb s)) with (num_evals s). rewrite choose_pm.
  destruct (SOP.choose tooclose F t _ _ _ _) as [idx|]; [|reflexivity]. cbn [rbind]. rewrite new_centers_pm. destruct (mapR (new_center (s_evals e)) idx) as [cs|]; [|reflexivity].
  cbn [rmap rbind]. unfold pm_sop. cbn [s_evals s_centers s_F option_map]. rewrite map_app. reflexivity.
Qed.
Lemma first_free_pm : forall cs, first_free (map pm_cen cs) = first_free cs.
Proof using. induction cs as [|cn cs IH]; [reflexivity|]. cbn [map first_free pm_cen n_new]. rewrite IH. destruct (n_new cn); reflexivity. Qed.
Lemma perturb_pm : forall evals o o' n i cs acc, (forall j x r, o' j (h x) r = rmap h (o j x r)) ->
  perturb (map pm_rec evals) o' n i (map pm_cen cs) (map h acc) = rmap (fun r => (map pm_cen (fst r), map h (snd r))) (perturb evals o n i cs acc).
Proof using.
  intros evals o o' n i cs acc H. revert i cs acc. induction n as [|n IH]; intros i cs acc; [reflexivity|]. cbn [perturb]. rewrite first_free_pm, geti_map.
  destruct (geti cs (first_free cs)) as [cn|]; [|reflexivity]. cbn [rmap rbind pm_cen n_index n_xc].
  rewrite geti_map. destruct (geti evals (n_index cn)) as [r|]; [|reflexivity]. cbn [rmap rbind pm_rec r_sigma]. rewrite H. destruct (o i (n_xc cn) (r_sigma r)) as [y|]; [|reflexivity]. cbn [rmap rbind].
  rewrite (@upd_map _ _ pm_cen (fun cn => mkCen (n_xc cn) (n_index cn) (Some y) (n_newidx cn))) by reflexivity.
  destruct (upd cs (first_free cs) _) as [cs'|]; [|reflexivity]. cbn [rmap rbind]. rewrite <- IH, map_app. reflexivity.
Qed.
Lemma generate_pm : forall e s n o o', (forall j x r, o' j (h x) r = rmap h (o j x r)) ->
  sop_generate dist' tooclose' ncenters max_evals num_exp (pm_sop e) (mb s) n o' =
  rmap (fun r => (pm_sop (fst r), option_map (map h) (snd r))) (sop_generate dist tooclose ncenters max_evals num_exp e s n o).
Proof using Hd Ht.
  intros e s n o o' HO. unfold sop_generate.
  assert (E : match s_F (pm_sop e) with Some F => Ok F | None => update_ranks dist' (mb s) (pm_sop e) end =
    rmap (map pm_row) match s_F e with Some F => Ok F | None => update_ranks dist s e end).
  { cbn [pm_sop s_F]. destruct (s_F e) as [F|]; [reflexivity|]. cbn [option_map]. apply update_ranks_pm. }
  rewrite E. clear E. destruct (match s_F e with Some F => Ok F | None => update_ranks dist s e end) as [F|]; [|reflexivity]. cbn [rmap rbind].
  rewrite update_center_list_pm. destruct (update_center_list _ _ _ _ s e F) as [e1|]; [|reflexivity]. cbn [rmap rbind pm_sop s_evals s_centers s_F].
  change (@nil P') with (map h []). rewrite (@perturb_pm (s_evals e1) o o' n 0 (s_centers e1) [] HO). destruct (perturb (s_evals e1) o n 0 (s_centers e1) []) as [[cs l]|]; reflexivity.
Qed.
Lemma initial_pm : forall e s x v ev, sop_initial_completed (pm_sop e) (mb s) (h x) v ev = rmap pm_sop (sop_initial_completed e s x v ev).
Proof using.
  intros e s x v ev. unfold sop_initial_completed. change (ev_last (mb s)) with (ev_last s). destruct (ev_last s <=? ev)%Z; [|reflexivity]. cbn [rmap]. f_equal.
  unfold pm_sop. cbn [s_evals s_centers s_F]. rewrite map_app. reflexivity.
Qed.
Lemma find_center_pm : forall x cs, find_center peqb' (h x) (map pm_cen cs) = find_center peqb x cs.
Proof using Heq.
  intros x cs. induction cs as [|cn cs IH]; [reflexivity|]. cbn [map find_center]. rewrite IH. unfold proposed. cbn [pm_cen n_new]. destruct (n_new cn) as [y|]; [|reflexivity]. cbn [option_map].
  rewrite Heq. reflexivity.
Qed.
Lemma adapt_pm : forall e s x v ev, sop_adapt_completed peqb' dist' ncenters async (pm_sop e) (mb s) (h x) v ev =
  rmap (fun r => let '(e, n, b) := r in (pm_sop e, n, b)) (sop_adapt_completed peqb dist ncenters async e s x v ev).
Proof using Heq Hd.
  intros e s x v ev. unfold sop_adapt_completed. change (ev_last (mb s)) with (ev_last s). destruct (ev_last s <=? ev)%Z; [|reflexivity].
  change (s_centers (pm_sop e)) with (map pm_cen (s_centers e)). change (num_evals (mb s)) with (num_evals s). rewrite find_center_pm.
  assert (E0 : match find_center peqb x (s_centers e) with Some i => upd (map pm_cen (s_centers e)) i (set_newidx (Z.to_nat (num_evals s - 1))) | None => Ok (map pm_cen (s_centers e)) end =
    rmap (map pm_cen) match find_center peqb x (s_centers e) with Some i => upd (s_centers e) i (set_newidx (Z.to_nat (num_evals s - 1))) | None => Ok (s_centers e) end).
  { destruct (find_center peqb x (s_centers e)); [|reflexivity]. apply upd_map. reflexivity. }
  rewrite E0. destruct (match find_center peqb x (s_centers e) with Some i => upd (s_centers e) i (set_newidx (Z.to_nat (num_evals s - 1))) | None => Ok (s_centers e) end) as [cs|]; [|reflexivity]. cbn [rmap rbind].
  assert (E : mkSop (s_evals (pm_sop e) ++ [new_rec (h x) v]) (map pm_cen cs) (s_F (pm_sop e)) = pm_sop (mkSop (s_evals e ++ [new_rec x v]) cs (s_F e))).
  { unfold pm_sop. cbn [s_evals s_centers s_F]. rewrite map_app. reflexivity. }
  rewrite E, !adjust_memory_pm. change (batch_queue (mb s)) with (map h (batch_queue s)). rewrite pm_nonempty. change (pending_evals (mb s)) with (pending_evals s).
  destruct async.
  - destruct (adjust_memory dist ncenters _ s _); reflexivity.
  - destruct (negb (nonempty (batch_queue s)) && (pending_evals s =? 0)%Z); [destruct (adjust_memory dist ncenters None s _); reflexivity|reflexivity].
Qed.
End Sop.

(** ** With the candidate search and the default surrogate *)
Section Rbf.
Variable q : prob.
Variables (a : R) (b : pt).
Hypothesis Ha : (0 < a)%R.
Notation h := (moved a b).
Notation q' := (moved_prob a b q).
Hypothesis NI : q_int q = [].
Variable dim : nat.
Variables eta dtol : R.
Variable num_cand : option nat.
Hypothesis WB : bounds dim (q_lb q) (q_ub q).
(** Distances and the radius rule look at the points mapped to the unit box,
    sop_strategy.py:376-378, 394, 462-469. *)
Variable dist : pt -> pt -> Q.
Variable tooclose : pt -> pt -> nat -> Q -> bool.
Definition udist (q : prob) (x y : pt) : Q := dist (to_unit x (q_lb q) (q_ub q)) (to_unit y (q_lb q) (q_ub q)).
Definition uclose (q : prob) (x y : pt) : nat -> Q -> bool := tooclose (to_unit x (q_lb q) (q_ub q)) (to_unit y (q_lb q) (q_ub q)).
Lemma unit_of_moved : forall x, to_unit (h x) (q_lb q') (q_ub q') = to_unit x (q_lb q) (q_ub q).
Proof using Ha WB. intros x. unfold moved_prob. cbn [q_lb q_ub]. apply moved_to_unit; [lra|]. destruct WB as [B1 [B2 B3]]. intros i Hi. apply B3. congruence. Qed.

Lemma sop_search_moved : forall z s i x r, sop_rbf_search q' dim edist (a * dtol) num_cand eta z (pm_base h s) i (h x) r =
  rmap h (sop_rbf_search q dim edist dtol num_cand eta z s i x r).
Proof using Ha NI WB.
  intros z s i x r. unfold sop_rbf_search. change (sur (pm_base h s)) with (pm_sur h (sur s)). change (X_ (pm_base h s)) with (map h (X_ s)). change (Xpend (pm_base h s)) with (map h (Xpend s)).
  change (fX_ (pm_base h s)) with (fX_ s). rewrite (rbf_predict_moved q b Ha eta WB). destruct (rbf_predict q dim eta (sur s) x); [|reflexivity]. cbn [rbind].
  unfold candidate_dycors. cbn [rbind]. replace (length (q_lb q')) with (length (q_lb q)) by (unfold moved_prob; cbn [q_lb]; rewrite moved_len; reflexivity).
  rewrite (dycors_cand_moved q b Ha NI). destruct (dycors_cand q _ _ _ _ _ _ _) as [cand|]; [|reflexivity]. cbn [rmap rbind]. rewrite <- map_app.
  rewrite (merit_moved b Ha (predicted q dim eta (sur s))) by (intros; apply predicted_moved; assumption).
  destruct (weighted_distance_merit edist _ 1 _ cand _ dtol) as [l|]; [|reflexivity]. cbn [rmap rbind]. apply geti_map.
Qed.

Variable c : cfg pt val.
Variable peqb' : pt -> pt -> bool.
Hypothesis Heq : forall x y, peqb' (h x) (h y) = c_peqb c x y.
Notation c' := (pm_cfg h peqb' c).

Theorem C71_sop : forall ncenters d ops,
  Strategy.run c' (sop_rbf q' dim edist (a * dtol) num_cand eta c' (udist q') (uclose q') ncenters) (rmap (map h) d) sop0 (map (pm_op h (fun z => z)) ops) =
  pm_sys h (pm_sop h) (Strategy.run c (sop_rbf q dim edist dtol num_cand eta c (udist q) (uclose q) ncenters) d sop0 ops).
Proof using Ha NI WB Heq.
  intros ncenters d ops. assert (UD : forall x y, udist q' (h x) (h y) = udist q x y) by (intros; unfold udist; rewrite !unit_of_moved; reflexivity).
  assert (UC : forall x y k t, uclose q' (h x) (h y) k t = uclose q x y k t) by (intros; unfold uclose; rewrite !unit_of_moved; reflexivity).
  change (@sop0 pt) with (pm_sop h (@sop0 pt)) at 1.
  apply (@pm_run pt pt val (sop pt) (sop pt) (nat -> dydraws) (nat -> dydraws) h (pm_sop h) (fun o => o)).
  - exact Heq.
  - reflexivity.
  - intros e s x v ev. apply initial_pm.
  - intros e s x v ev. apply adapt_pm; assumption.
  - apply pm_all_fine_all. intros e s n z. apply generate_pm; [exact UD|exact UC|]. intros j x r. apply sop_search_moved.
Qed.
End Rbf.

(** C71, SOP as constructed (minimum distance 0.001 sqrt(dim), sop_strategy.py:203): runs do not depend
    on the origin. *)
Theorem C71_sop_origin : forall (q : prob) (b : pt) dim eta num_cand dist tooclose (c : cfg pt val) peqb' ncenters,
  let h := moved 1 b in let q' := moved_prob 1 b q in let c' := pm_cfg h peqb' c in
  q_int q = [] -> bounds dim (q_lb q) (q_ub q) -> (forall x y, peqb' (h x) (h y) = c_peqb c x y) -> forall d ops,
  Strategy.run c' (sop_rbf q' dim edist (fixed_dtol dim) num_cand eta c' (udist dist q') (uclose tooclose q') ncenters) (rmap (map h) d) sop0 (map (pm_op h (fun z => z)) ops) =
  pm_sys h (pm_sop h) (Strategy.run c (sop_rbf q dim edist (fixed_dtol dim) num_cand eta c (udist dist q) (uclose tooclose q) ncenters) d sop0 ops).
Proof.
  intros q b dim eta num_cand dist tooclose c peqb' ncenters h q' c' NI WB HE d ops.
  pose proof (@C71_sop q 1 b ltac:(lra) NI dim eta (fixed_dtol dim) num_cand WB dist tooclose c peqb' HE ncenters d ops) as E.
  rewrite Rmult_1_l in E. exact E.
Qed.

(** C71_sop_origin applies to the interval [0, 1] moved to [-3, -2]: two design points have been
    evaluated and the next call generates a batch. *)
Example ex_C71_sop : forall dist tooclose (z : nat -> dydraws),
  let q1 := mkProb [0%R] [1%R] [] in let h := moved 1 [(-3)%R] in
  let eqb := fun x y : pt => if list_eq_dec Req_EM_T x y then true else false in
  let c1 : cfg pt val := mkCfg 10 false 2 true 2 None None (fun _ => false) eqb false in
  let hk := fun q => sop_rbf q 1 edist (fixed_dtol 1) None (/ 1000000) c1 (udist dist q) (uclose tooclose q) 2 in
  let ops1 := [Propose (Ok []) z; Accept 0; Update 0 (SCompleted (Fin 0)); Propose (Ok []) z; Accept 1; Update 1 (SCompleted (Fin 2)); Propose (Ok []) z] in
  moved_prob 1 [(-3)%R] q1 = mkProb [(-3)%R] [(-2)%R] [] /\
  Strategy.run c1 (hk (moved_prob 1 [(-3)%R] q1)) (Ok [[(-3)%R]; [(-2)%R]]) sop0 (map (pm_op h (fun z => z)) ops1) =
  pm_sys h (pm_sop h) (Strategy.run c1 (hk q1) (Ok [[0%R]; [1%R]]) sop0 ops1) /\
  exists p, y_proc (Strategy.run c1 (hk q1) (Ok [[0%R]; [1%R]]) sop0 (firstn 6 ops1)) = Some p /\ will_generate c1 (p_s p) /\ sur (p_s p) = [([1%R], Fin 0); ([0%R], Fin 2)].
Proof.
  intros dist tooclose z. cbv zeta. split; [unfold moved_prob; cbn [q_lb q_ub q_int moved hd tl]; f_equal; f_equal; lra|]. split.
  - replace [[(-3)%R]; [(-2)%R]] with (map (moved 1 [(-3)%R]) [[0%R]; [1%R]]) by (cbn; f_equal; [f_equal; lra|f_equal; f_equal; lra]).
    set (q1 := mkProb [0%R] [1%R] []). assert (WB : bounds 1 (q_lb q1) (q_ub q1)) by (split; [reflexivity|]; split; [reflexivity|]; intros [|i] H; [cbn; lra|lia]).
    match goal with |- Strategy.run ?c _ _ _ _ = _ => set (c1 := c) end.
    refine (@C71_sop_origin q1 [(-3)%R] 1 (/ 1000000) None dist tooclose c1 (c_peqb c1) 2 eq_refl WB _ (Ok [[0%R]; [1%R]]) _).
    intros x y. cbn [c1 c_peqb]. destruct (list_eq_dec Req_EM_T x y) as [->|N]; [destruct (list_eq_dec _ _ _); congruence|].
    destruct (list_eq_dec _ _ _) as [K|K]; [|reflexivity]. apply moved_inj in K; [congruence|lra].
  - eexists. split; [vm_compute; reflexivity|]. repeat split; auto; reflexivity.
Qed.
