(** * Runs of SOPStrategy under increasing changes of the objective (C66).

    SOPStrategy itself only compares objective values; its searches use the surrogate. *)
From Coq Require Import List Arith ZArith Lia Bool QArith Reals Lra Qreals.
From Verif Require Import Base PyList Strategy StratMap SRBF Pareto SOP SOPInv Box PropBox Design Lin RBF Cand PropCand EndToEnd
  PropRBF PropSolve RBFEquiv SurrUnits SRBFRun ScaleRun ScaleEI ExSRBF ExSOP.
Import ListNotations.
Set Implicit Arguments.
Local Close Scope Q_scope.
Local Close Scope R_scope.

(** ** Non-dominated sorting depends only on the comparisons *)
Section Sorting.
Variable V : Type.
Variable ltb : V -> V -> bool.
Variable h : list V -> list V.
Hypothesis Hh : forall x y, domination ltb (h x) (h y) = domination ltb x y.

Lemma nd_loop_map : forall fuel F N j cnt df ndf, nd_loop ltb fuel (map h F) N j cnt df ndf = nd_loop ltb fuel F N j cnt df ndf.
Proof using Hh.
  induction fuel as [|fuel IH]; intros F N j cnt df ndf; [reflexivity|]. cbn [nd_loop]. destruct (j <? cnt); [|reflexivity].
  destruct (geti ndf (j - 1)) as [a|]; [|reflexivity]. cbn [rbind]. rewrite !geti_map. destruct (geti F N) as [fN|]; [|reflexivity]. cbn [rmap rbind].
  destruct (geti F a) as [fa|]; [|reflexivity]. cbn [rmap rbind]. rewrite !Hh.
  destruct (domination ltb fN fa); [destruct (py_remove a ndf); [apply IH|reflexivity]|]. destruct (domination ltb fa fN); [reflexivity|apply IH].
Qed.
Lemma nd_add_map : forall F df ndf, nd_add ltb (map h F) df ndf = nd_add ltb F df ndf.
Proof using Hh. intros F df ndf. unfold nd_add. rewrite map_length. apply nd_loop_map. Qed.
Lemma front_loop_map : forall F is df ndf, front_loop ltb (map h F) is df ndf = front_loop ltb F is df ndf.
Proof using Hh.
  intros F is. induction is as [|i is IH]; intros df ndf; [reflexivity|]. cbn [front_loop]. rewrite firstn_map, nd_add_map.
  destruct (nd_add ltb (firstn (S i) F) df ndf) as [[[ndf' df']|]|]; [apply IH|reflexivity|reflexivity].
Qed.
Lemma sort_loop_map : forall fuel F nmax P i count ranks, sort_loop ltb fuel (map h F) nmax P i count ranks = sort_loop ltb fuel F nmax P i count ranks.
Proof using Hh.
  induction fuel as [|fuel IH]; intros F nmax P i count ranks; [reflexivity|]. cbn [sort_loop]. destruct ((Z.of_nat count <? nmax)%Z && (0 <? length P)); [|reflexivity].
  rewrite mapR_geti_map. destruct (mapR (geti F) P) as [FP|]; [|reflexivity]. cbn [rmap]. unfold nd_front. rewrite map_length, front_loop_map.
  destruct (front_loop ltb FP (seq 1 (length FP - 1)) [] [0]) as [[[ndf df]|]|]; [|reflexivity|reflexivity].
  destruct (do ranks' <- set_ranks ranks P ndf i; do P' <- mapR (geti P) df; Ok (ranks', P')) as [[r' P']|]; [apply IH|reflexivity].
Qed.
Lemma nd_sorting_map : forall F nmax, nd_sorting ltb (map h F) nmax = nd_sorting ltb F nmax.
Proof using Hh. intros F nmax. unfold nd_sorting. rewrite map_length. apply sort_loop_map. Qed.
End Sorting.

Lemma upd_map : forall A B (h : A -> B) (f : A -> A) (f' : B -> B) l i, (forall x, f' (h x) = h (f x)) -> upd (map h l) i f' = rmap (map h) (upd l i f).
Proof.
  intros A B h f f' l i H. revert i. induction l as [|x l IH]; intros [|i]; cbn [map upd]; try reflexivity; [rewrite H; reflexivity|].
  rewrite IH. destruct (upd l i f); reflexivity.
Qed.

(** ** The hooks of SOPStrategy *)
Section Sop.
Variable P : Type.
Variable g : val -> val.
Hypothesis Hg : forall u v, vlt (g u) (g v) = vlt u v.

(** Specification, no counterpart in /repo. *)
Definition map_rec (r : srec P) : srec P := mkRec (r_x r) (g (r_fx r)) (r_nfail r) (r_ntabu r) (r_sigma r).
(** Specification, no counterpart in /repo. *)
Definition map_row (r : frow P) : frow P := mkRow (w_x r) (g (w_fx r)) (w_dist r) (w_tabu r) (w_rank r) (w_nfail r).
(** The attributes of SOPStrategy with every value [v] replaced by [g v] *)
(** Specification, no counterpart in /repo. *)
Definition map_sop (e : sop P) : sop P := mkSop (map map_rec (s_evals e)) (s_centers e) (option_map (map map_row) (s_F e)).

Variable peqb : P -> P -> bool.
Variable dist : P -> P -> Q.
Variable tooclose : P -> P -> nat -> Q -> bool.
Variables (ncenters : Z) (async : bool) (max_evals : Z) (num_exp : nat).
Notation mb := (map_base (P := P) g).

Lemma update_F_map : forall s e, update_F (mb s) (map_sop e) = rmap (map map_row) (update_F s e).
Proof using.
  intros s e. unfold update_F. cbn [map_base num_evals map_sop s_evals]. rewrite map_length.
  destruct ((num_evals s =? Z.of_nat (length (s_evals e)))%Z && negb (length (s_evals e) =? 0)); [|reflexivity]. cbn [rmap]. rewrite !map_map. reflexivity.
Qed.
Lemma xs_map : forall F, map (@w_x P) (map map_row F) = map (@w_x P) F.
Proof using. intros F. rewrite map_map. reflexivity. Qed.
Lemma mapR_map : forall A B C (f : B -> res C) (h : A -> B) l, mapR f (map h l) = mapR (fun x => f (h x)) l.
Proof using. intros A B C f h l. induction l as [|x l IH]; [reflexivity|]. cbn [map mapR]. rewrite IH. reflexivity. Qed.
(** [fx; -distance] with the first entry changed *)
(** Specification, no counterpart in /repo. *)
Definition map_obj (l : list val) : list val := match l with [] => [] | a :: l' => g a :: l' end.
Lemma dom_map : forall x y, domination vlt (map_obj x) (map_obj y) = domination vlt x y.
Proof using Hg. intros [|a x] [|b y]; cbn [map_obj domination]; try reflexivity. rewrite Hg. reflexivity. Qed.
Lemma combine_map_l : forall A B C (h : A -> C) (l : list A) (l' : list B), combine (map h l) l' = map (fun ab => (h (fst ab), snd ab)) (combine l l').
Proof using. intros A B C h l. induction l as [|a l IH]; intros [|b l']; cbn; try reflexivity. rewrite IH. reflexivity. Qed.
Lemma update_ranks_map : forall s e, update_ranks dist (mb s) (map_sop e) = rmap (map map_row) (update_ranks dist s e).
Proof using Hg.
  intros s e. unfold update_ranks. rewrite update_F_map. destruct (update_F s e) as [F|]; [|reflexivity]. cbn [rmap rbind]. rewrite xs_map, mapR_map.
  change (mapR (fun x : frow P => nearest dist (w_x (map_row x)) (map (w_x (P:=P)) F)) F) with (mapR (fun r : frow P => nearest dist (w_x r) (map (w_x (P:=P)) F)) F).
  destruct (mapR _ F) as [ds|]; [|reflexivity]. cbn [rbind]. rewrite combine_map_l, map_map. cbn [fst snd].
  assert (E : map (fun x : frow P * Q => [w_fx (map_row (fst x)); Fin (- snd x)]) (combine F ds) = map map_obj (map (fun rd : frow P * Q => [w_fx (fst rd); Fin (- snd rd)]) (combine F ds))).
  { rewrite map_map. reflexivity. }
  rewrite E, (nd_sorting_map vlt map_obj dom_map). destruct (nd_sorting vlt _ 100) as [[ranks|]|]; [|reflexivity|reflexivity]. cbn [rmap]. f_equal.
  rewrite combine_map_l, !map_map. apply map_ext. intros [[r d] k]. reflexivity.
Qed.

Lemma judge_all_map : forall F cs is evals, judge_all (map map_row F) cs (map map_rec evals) is = rmap (map map_rec) (judge_all F cs evals is).
Proof using.
  intros F cs is. induction is as [|i is IH]; intros evals; [reflexivity|]. cbn [judge_all].
  assert (E : judge (map map_row F) cs (map map_rec evals) i = rmap (map map_rec) (judge F cs evals i)).
  { unfold judge. destruct (geti cs i) as [cp|]; [|reflexivity]. cbn [rbind]. destruct (n_newidx cp) as [k|]; [|reflexivity]. rewrite geti_map.
    destruct (geti F k) as [row|]; [|reflexivity]. cbn [rmap rbind map_row w_rank]. destruct (w_rank row) as [[|[|n]]|]; try reflexivity; apply upd_map; reflexivity. }
  rewrite E. destruct (judge F cs evals i) as [ev|]; [|reflexivity]. cbn [rmap rbind]. apply IH.
Qed.
Lemma tenure_map : forall r, tenure (map_rec r) = map_rec (tenure r).
Proof using. intros r. unfold tenure. cbn [map_rec r_ntabu]. destruct (0 <? r_ntabu r); [destruct (r_ntabu r <? 5)|]; reflexivity. Qed.
Lemma tenure_all_map : forall n evals, tenure_all n (map map_rec evals) = rmap (map map_rec) (tenure_all n evals).
Proof using.
  intros n evals. unfold tenure_all. rewrite map_length. destruct (n <=? length evals); [|reflexivity]. cbn [rmap]. f_equal.
  rewrite firstn_map, skipn_map, map_app, !map_map. f_equal. apply map_ext. apply tenure_map.
Qed.
Lemma to_tabu_all_map : forall cs is evals, to_tabu_all cs (map map_rec evals) is = rmap (map map_rec) (to_tabu_all cs evals is).
Proof using.
  intros cs is. induction is as [|i is IH]; intros evals; [reflexivity|]. cbn [to_tabu_all].
  assert (E : to_tabu cs (map map_rec evals) i = rmap (map map_rec) (to_tabu cs evals i)).
  { unfold to_tabu. destruct (geti cs i) as [cp|]; [|reflexivity]. cbn [rbind]. apply upd_map. intros r. cbn [map_rec r_nfail]. destruct (3 <? r_nfail r); reflexivity. }
  rewrite E. destruct (to_tabu cs evals i) as [ev|]; [|reflexivity]. cbn [rmap rbind]. apply IH.
Qed.
Lemma adjust_memory_map : forall ix s e, adjust_memory dist ncenters ix (mb s) (map_sop e) = rmap map_sop (adjust_memory dist ncenters ix s e).
Proof using Hg.
  intros ix s e. unfold adjust_memory. rewrite update_ranks_map. destruct (update_ranks dist s e) as [F|]; [|reflexivity]. cbn [rmap rbind map_sop s_evals s_centers].
  rewrite judge_all_map. destruct (judge_all F (s_centers e) (s_evals e) _) as [ev1|]; [|reflexivity]. cbn [rmap rbind]. change (num_evals (mb s)) with (num_evals s).
  rewrite tenure_all_map. destruct (tenure_all _ ev1) as [ev2|]; [|reflexivity]. cbn [rmap rbind]. rewrite to_tabu_all_map.
  destruct (to_tabu_all (s_centers e) ev2 _) as [ev3|]; [|reflexivity]. cbn [rmap rbind].
  change (mkSop (map map_rec ev3) (s_centers e) (Some (map map_row F))) with (map_sop (mkSop ev3 (s_centers e) (Some F))). rewrite update_F_map.
  destruct (update_F s _); reflexivity.
Qed.

Lemma key_lt_map : forall a b, key_lt (map_row a) (map_row b) = key_lt a b.
Proof using Hg. intros a b. unfold key_lt. cbn [map_row w_tabu w_rank w_fx]. rewrite Hg. reflexivity. Qed.
Lemma lexsort_map : forall F, lexsort (map map_row F) = lexsort F.
Proof using Hg.
  intros F. unfold lexsort. rewrite map_length. generalize (seq 0 (length F)). intros is.
  set (hh := fun ar : nat * frow P => (fst ar, map_row (snd ar))).
  assert (C : combine is (map map_row F) = map hh (combine is F)).
  { revert F. induction is as [|i is IH]; intros [|r F]; cbn; try reflexivity. rewrite IH. reflexivity. }
  assert (I1 : forall a l, insert_idx (hh a) (map hh l) = map hh (insert_idx a l)).
  { intros a l. induction l as [|b l IH]; [reflexivity|]. cbn [map insert_idx]. change (snd (hh b)) with (map_row (snd b)). change (snd (hh a)) with (map_row (snd a)).
    rewrite key_lt_map. destruct (key_lt (snd b) (snd a)); [rewrite IH; reflexivity|reflexivity]. }
  assert (FR : forall l, fold_right (@insert_idx P) [] (map hh l) = map hh (fold_right (@insert_idx P) [] l)).
  { induction l as [|a l IH]; [reflexivity|]. cbn [map fold_right]. rewrite IH. apply I1. }
  rewrite C, FR, map_map. reflexivity.
Qed.
Lemma sop_argmin_from_map : forall l v i b, argmin_from i b (g v) (map g l) = argmin_from i b v l.
Proof using Hg.
  intros l. induction l as [|w l IH]; intros v i b; [reflexivity|]. cbn [map argmin_from]. rewrite Hg. destruct (vlt w v); apply IH.
Qed.
Lemma sop_argmin_map : forall l, argmin (map g l) = argmin l.
Proof using Hg. intros [|v l]; [reflexivity|]. cbn [map argmin]. rewrite sop_argmin_from_map. reflexivity. Qed.
Lemma order_map : forall F, SOP.order (map map_row F) = SOP.order F.
Proof using Hg.
  intros F. unfold SOP.order. rewrite lexsort_map. rewrite map_map. change (map (fun x : frow P => w_fx (map_row x)) F) with (map (fun x => g (w_fx x)) F).
  rewrite <- (map_map (@w_fx P) g), sop_argmin_map. destruct (argmin (map (w_fx (P:=P)) F)) as [m|]; [|reflexivity]. cbn [rbind].
  destruct (geti (lexsort F) 0) as [i0|]; [|reflexivity]. cbn [rbind]. rewrite geti_map. destruct (geti F m); reflexivity.
Qed.
Lemma far_map : forall F t a ch, SOP.far tooclose (map map_row F) t a ch = SOP.far tooclose F t a ch.
Proof using.
  intros F t a ch. unfold SOP.far. rewrite geti_map. destruct (geti F a) as [ra|]; [|reflexivity]. cbn [rmap rbind]. rewrite mapR_geti_map.
  destruct (mapR (geti F) ch) as [rs|]; [|reflexivity]. cbn [rmap rbind]. f_equal. induction rs as [|r rs IH]; [reflexivity|]. cbn [map forallb]. rewrite IH. reflexivity.
Qed.
Lemma choose_map : forall F t cc k rest ch, SOP.choose tooclose (map map_row F) t cc k rest ch = SOP.choose tooclose F t cc k rest ch.
Proof using.
  intros F t cc k. induction k as [|k IH]; intros rest ch; cbn [SOP.choose]; [reflexivity|]. destruct (length ch <? cc); [|reflexivity]. destruct rest as [|a rest]; [reflexivity|].
  rewrite far_map. destruct (SOP.far tooclose F t a ch) as [b|]; [|reflexivity]. cbn [rbind]. apply IH.
Qed.
Lemma tag_busy_map : forall cs F, tag_busy (map map_row F) cs = rmap (map map_row) (tag_busy F cs).
Proof using.
  intros cs. induction cs as [|cn cs IH]; intros F; [reflexivity|]. cbn [tag_busy]. destruct (busy cn); [|apply IH].
  rewrite (@upd_map _ _ map_row (@tag_row P)) by reflexivity. destruct (upd F (n_index cn) (@tag_row P)) as [F'|]; [|reflexivity]. cbn [rmap rbind]. apply IH.
Qed.
Lemma new_centers_map : forall evals idx, mapR (new_center (map map_rec evals)) idx = mapR (new_center evals) idx.
Proof using.
  intros evals idx. apply mapR_ext. intros i. unfold new_center. rewrite geti_map. destruct (geti evals i); reflexivity.
Qed.
Lemma update_center_list_map : forall s e F, update_center_list tooclose ncenters max_evals num_exp (mb s) (map_sop e) (map map_row F) =
  rmap map_sop (update_center_list tooclose ncenters max_evals num_exp s e F).
Proof using Hg.
  intros s e F0. unfold update_center_list. change (d_thresh max_evals num_exp (mb s)) with (d_thresh max_evals num_exp s). destruct (d_thresh max_evals num_exp s) as [t|]; [|reflexivity].
  cbn [rbind map_sop s_centers s_evals]. rewrite tag_busy_map. destruct (tag_busy F0 (s_centers e)) as [F|]; [|reflexivity]. cbn [rmap rbind]. rewrite order_map.
  destruct (SOP.order F) as [ind|]; [|reflexivity]. cbn [rbind]. destruct (0 <? ncenters - _)%Z; [|reflexivity].
  destruct (geti ind 0) as [i0|]; [|reflexivity]. cbn [rbind]. change (num_evals (mb s)) with (num_evals s). rewrite choose_map.
  destruct (SOP.choose tooclose F t _ _ _ _) as [idx|]; [|reflexivity]. cbn [rbind]. rewrite new_centers_map. destruct (mapR (new_center (s_evals e)) idx); reflexivity.
Qed.
Lemma perturb_map : forall evals o n i cs acc, perturb (map map_rec evals) o n i cs acc = perturb evals o n i cs acc.
Proof using.
  intros evals o n. induction n as [|n IH]; intros i cs acc; [reflexivity|]. cbn [perturb]. destruct (geti cs (first_free cs)) as [cn|]; [|reflexivity]. cbn [rbind].
  rewrite geti_map. destruct (geti evals (n_index cn)) as [r|]; [|reflexivity]. cbn [rmap rbind map_rec r_sigma]. destruct (o i (n_xc cn) (r_sigma r)) as [y|]; [|reflexivity]. cbn [rbind].
  destruct (upd cs (first_free cs) _) as [cs'|]; [|reflexivity]. cbn [rbind]. apply IH.
Qed.
Lemma perturb_ext : forall evals o o' n i cs acc, (forall j x r, o' j x r = o j x r) -> perturb (P:=P) evals o' n i cs acc = perturb evals o n i cs acc.
Proof using.
  intros evals o o' n i cs acc H. revert i cs acc. induction n as [|n IH]; intros i cs acc; [reflexivity|]. cbn [perturb]. destruct (geti cs (first_free cs)) as [cn|]; [|reflexivity]. cbn [rbind].
  destruct (geti evals (n_index cn)) as [r|]; [|reflexivity]. cbn [rbind]. rewrite H. destruct (o i (n_xc cn) (r_sigma r)) as [y|]; [|reflexivity]. cbn [rbind].
  destruct (upd cs (first_free cs) _) as [cs'|]; [|reflexivity]. cbn [rbind]. apply IH.
Qed.
Lemma generate_map : forall e s n o o', (forall j x r, o' j x r = o j x r) ->
  sop_generate dist tooclose ncenters max_evals num_exp (map_sop e) (mb s) n o' =
  rmap (fun r => (map_sop (fst r), snd r)) (sop_generate dist tooclose ncenters max_evals num_exp e s n o).
Proof using Hg.
  intros e s n o o' HO. unfold sop_generate.
  assert (E : match s_F (map_sop e) with Some F => Ok F | None => update_ranks dist (mb s) (map_sop e) end =
    rmap (map map_row) match s_F e with Some F => Ok F | None => update_ranks dist s e end).
  { cbn [map_sop s_F]. destruct (s_F e) as [F|]; [reflexivity|]. cbn [option_map]. apply update_ranks_map. }
  rewrite E. clear E. destruct (match s_F e with Some F => Ok F | None => update_ranks dist s e end) as [F|]; [|reflexivity]. cbn [rmap rbind].
  rewrite update_center_list_map. destruct (update_center_list _ _ _ _ s e F) as [e1|]; [|reflexivity]. cbn [rmap rbind map_sop s_evals s_centers s_F].
  rewrite perturb_map, (@perturb_ext (s_evals e1) o o' n 0 (s_centers e1) [] HO). destruct (perturb (s_evals e1) o n 0 (s_centers e1) []) as [[cs l]|]; reflexivity.
Qed.
Lemma initial_map : forall e s x v ev, sop_initial_completed (map_sop e) (mb s) x (g v) ev = rmap map_sop (sop_initial_completed e s x v ev).
Proof using.
  intros e s x v ev. unfold sop_initial_completed. change (ev_last (mb s)) with (ev_last s). destruct (ev_last s <=? ev)%Z; [|reflexivity]. cbn [rmap]. f_equal.
  unfold map_sop. cbn [s_evals s_centers s_F]. rewrite map_app. reflexivity.
Qed.
Lemma adapt_map : forall e s x v ev, sop_adapt_completed peqb dist ncenters async (map_sop e) (mb s) x (g v) ev =
  rmap (fun r => let '(e, n, b) := r in (map_sop e, n, b)) (sop_adapt_completed peqb dist ncenters async e s x v ev).
Proof using Hg.
  intros e s x v ev. unfold sop_adapt_completed. change (ev_last (mb s)) with (ev_last s). destruct (ev_last s <=? ev)%Z; [|reflexivity].
  change (s_centers (map_sop e)) with (s_centers e). change (num_evals (mb s)) with (num_evals s).
  destruct (match find_center peqb x (s_centers e) with Some i => upd (s_centers e) i (set_newidx (Z.to_nat (num_evals s - 1))) | None => Ok (s_centers e) end) as [cs|]; [|reflexivity]. cbn [rbind].
  assert (E : mkSop (s_evals (map_sop e) ++ [new_rec x (g v)]) cs (s_F (map_sop e)) = map_sop (mkSop (s_evals e ++ [new_rec x v]) cs (s_F e))).
  { unfold map_sop. cbn [s_evals s_centers s_F]. rewrite map_app. reflexivity. }
  rewrite E, !adjust_memory_map. change (batch_queue (mb s)) with (batch_queue s). change (pending_evals (mb s)) with (pending_evals s).
  destruct async.
  - destruct (adjust_memory dist ncenters _ s _); reflexivity.
  - destruct (negb (nonempty (batch_queue s)) && (pending_evals s =? 0)%Z); [destruct (adjust_memory dist ncenters None s _); reflexivity|reflexivity].
Qed.
End Sop.

(** C66 for SOPStrategy: any change of the objective that keeps the order of its values (for example
    the logarithm of a positive objective) gives the same run, if the searches return the same
    points. *)
Theorem C66_sop : forall P (c : cfg P val) dist tooclose ncenters (g : val -> val) isnan' d ops,
  (forall u v, vlt (g u) (g v) = vlt u v) -> (forall v, isnan' (g v) = c_isnan c v) ->
  let c' := map_cfg g isnan' c in
  Strategy.run c' (sop_strategy c' dist tooclose ncenters) d sop0 (map (map_op g (fun o => o)) ops) =
  map_sys g (map_sop g) (Strategy.run c (sop_strategy c dist tooclose ncenters) d sop0 ops).
Proof.
  intros P c dist tooclose ncenters g isnan' d ops Hg Hnan c'. change (@sop0 P) with (map_sop g (@sop0 P)) at 1.
  apply (@map_run P val val (sop P) (sop P) (sop_search P) (sop_search P) g (map_sop g) (fun o => o) c isnan' Hnan).
  - reflexivity.
  - intros e s x v ev. apply initial_map.
  - intros e s x v ev. apply adapt_map. exact Hg.
  - apply all_fine_all. intros e s n o. apply generate_map; [exact Hg|reflexivity].
Qed.

(** ** With the candidate search and the default surrogate *)
Section Rbf.
Variable q : prob.
Variable dim : nat.
Variable sdist : pt -> pt -> R.
Variable dtol : R.
Variable num_cand : option nat.
Variable eta : R.
Hypothesis WB : bounds dim (q_lb q) (q_ub q).

(** The i-th search of generate_evals, sop_strategy.py:293-307: candidate_dycors with num_pts = 1,
    weights = [1.0], the center and its radius.  As in SRBFRun.v, predict raises for all points or
    for none, which is tested at the center. *)
Definition sop_rbf_search (z : nat -> dydraws) (s : base pt val) : sop_search pt := fun i xc r =>
  do _ <- rbf_predict q dim eta (sur s) xc;
  do l <- candidate_dycors sdist (predicted q dim eta (sur s)) 1 q (X_ s) (map toxr (fX_ s)) [1%R] (Xpend s) (Q2R r) None dtol num_cand (Some xc)
    (dy_u (z i)) (fun k => (dy_f (z i) k mod (length (q_lb q) - 1))%nat) (in_range q xc (Q2R r) (dy_z (z i)));
  geti l 0.
(** pySOT/strategy/sop_strategy.py:126-483 with RBFInterpolant. *)
Definition sop_rbf (c : cfg pt val) dist tooclose ncenters : hooks pt val (sop pt) (nat -> dydraws) :=
  mkHooks (hk_sample_initial (sop_strategy c dist tooclose ncenters)) (hk_initial_completed (sop_strategy c dist tooclose ncenters))
    (hk_adapt_completed (sop_strategy c dist tooclose ncenters)) (fun e s n z => hk_generate (sop_strategy c dist tooclose ncenters) e s n (sop_rbf_search z s)).

Variables a b : Q.
Hypothesis Ha : (0 < a)%Q.
(** Specification, no counterpart in /repo. *)
Definition vlin (v : val) : val := match v with Fin x => Fin (a * x + b)%Q | PInf => PInf end.
Lemma vlt_vlin : forall u v, vlt (vlin u) (vlin v) = vlt u v.
Proof using Ha.
  intros [x|] [y|]; try reflexivity. cbn [vlin vlt]. apply eq_true_iff_eq. rewrite !Qlt_b_iff. split; intros H.
  - apply Qplus_lt_l in H. apply Qmult_lt_l in H; assumption.
  - apply Qplus_lt_l. apply Qmult_lt_l; assumption.
Qed.
Lemma num_lin : forall l, mapR num (map vlin l) = rmap (map (fun v => Q2R a * v + Q2R b)%R) (mapR num l).
Proof using.
  induction l as [|v l IH]; [reflexivity|]. cbn [map mapR]. rewrite IH. destruct v as [x|]; [|reflexivity]. cbn [vlin num rbind].
  destruct (mapR num l) as [ys|]; [|reflexivity]. cbn [rmap rbind map]. rewrite Q2R_plus, Q2R_mult. reflexivity.
Qed.
Lemma rbf_predict_lin : forall d x, rbf_predict q dim eta (map_sur vlin d) x = rescaled (Q2R a) (Q2R b) (rbf_predict q dim eta d x).
Proof using Ha WB.
  intros d x. unfold rbf_predict, map_sur. rewrite !map_map. cbn [fst snd]. rewrite <- (map_map snd vlin), num_lin.
  destruct (mapR num (map snd d)) as [ys|]; [|reflexivity]. cbn [rmap rbind].
  destruct C65_transformations as [[_ [T1 T2]] _].
  rewrite <- (@C65_history dim (q_lb q) (q_ub q) CubicKernel eta identity [Add (map fst d) ys] (Q2R a) (Q2R b) WB T1 T2 (Ra Ha)).
  - cbn [map convert_call]. rewrite map_map. reflexivity.
  - intros h1 cl h2 E _ [y HY]. destruct h1 as [|c1 h1]; [injection E as <- _; destruct HY; discriminate|]. injection E as _ E. destruct h1; discriminate.
Qed.
Lemma predict_all : forall d x v, rbf_predict q dim eta d x = Ok v -> forall y, exists w, rbf_predict q dim eta d y = Ok w.
Proof using.
  intros d x v H y. unfold rbf_predict in *. destruct (mapR num (map snd d)) as [ys|]; [|discriminate]. cbn [rbind] in *. unfold answer, predict in *.
  destruct (fit _ _ _ _ _) as [s' [[]|]] in *; cbn [snd] in *; [|discriminate]. destruct (r_c s'); [eauto|discriminate].
Qed.

(** C66 for SOPStrategy with candidate_dycors and the default surrogate: the run with objective
    a f + b is the run with f with all values changed. *)
Theorem C66_sop_rbf : forall (c : cfg pt val) dist tooclose ncenters isnan' d ops,
  (forall v, isnan' (vlin v) = c_isnan c v) ->
  let c' := map_cfg vlin isnan' c in
  Strategy.run c' (sop_rbf c' dist tooclose ncenters) d sop0 (map (map_op vlin (fun z => z)) ops) =
  map_sys vlin (map_sop vlin) (Strategy.run c (sop_rbf c dist tooclose ncenters) d sop0 ops).
Proof using Ha WB.
  intros c dist tooclose ncenters isnan' d ops Hnan c'. change (@sop0 pt) with (map_sop vlin (@sop0 pt)) at 1.
  apply (@map_run pt val val (sop pt) (sop pt) (nat -> dydraws) (nat -> dydraws) vlin (map_sop vlin) (fun o => o) c isnan' Hnan).
  - reflexivity.
  - intros e s x v ev. apply initial_map.
  - intros e s x v ev. apply adapt_map. exact vlt_vlin.
  - apply all_fine_all. intros e s n z. apply generate_map; [exact vlt_vlin|]. intros j x r. unfold sop_rbf_search.
    change (sur (map_base vlin s)) with (map_sur vlin (sur s)). change (X_ (map_base vlin s)) with (X_ s). change (Xpend (map_base vlin s)) with (Xpend s).
    rewrite rbf_predict_lin. destruct (rbf_predict q dim eta (sur s) x) as [v|] eqn:EP; [|reflexivity]. cbn [rescaled rbind].
    f_equal. unfold candidate_dycors. cbn [rbind]. destruct (dycors_cand _ _ _ _ _ _ _ _) as [cand|]; [|reflexivity]. cbn [rbind].
    apply (@merit_lin _ _ _ _ (Q2R a) (Q2R b)); [apply Ra, Ha|]. intros y. unfold predicted. rewrite rbf_predict_lin.
    destruct (predict_all _ _ EP y) as [w ->]. reflexivity.
Qed.
End Rbf.

(** C66_sop applies to v -> 2 v + 3 and the synchronous run of ExSOP.v (12 completed evaluations):
    the converted run has the same events with converted values. *)
Example ex_C66_sop : let g := vlin (2 # 1) (3 # 1) in
  (forall u v, vlt (g u) (g v) = vlt u v) /\ (forall v : val, c_isnan c4 (g v) = c_isnan c4 v) /\ map_cfg g (c_isnan c4) c4 = c4 /\
  length (StrategySpec.completed (p_hist (spr c4 4 sync4))) = 12%nat /\
  p_hist (spr c4 4 (map (map_op g (fun o => o)) sync4)) = map (map_event g) (p_hist (spr c4 4 sync4)) /\
  map snd (StrategySpec.completed (p_hist (spr c4 4 (map (map_op g (fun o => o)) sync4)))) <> map snd (StrategySpec.completed (p_hist (spr c4 4 sync4))).
Proof.
  intros g. split; [apply vlt_vlin; reflexivity|]. split; [reflexivity|]. split; [reflexivity|]. split; [vm_compute; reflexivity|].
  split; [vm_compute; reflexivity|]. vm_compute. discriminate.
Qed.
