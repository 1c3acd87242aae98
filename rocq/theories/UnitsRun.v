(** * C71: runs of SRBFStrategy and DYCORSStrategy do not depend on the origin and the unit of length. *)
From Coq Require Import List Arith ZArith Lia Bool QArith Reals Lra Qreals.
From Verif Require Import Base PyList Strategy StratMap PointMap SRBF PropSRBF Box PropBox Design Lin RBF Cand PropCand EndToEnd
  PropRBF PropSolve RBFEquiv SurrUnits SRBFRun ScaleRun ScaleEI.
Import ListNotations.

Set Implicit Arguments.
Local Open Scope R_scope.

(** ** Specification *)
(** The point [x] in other coordinates: coordinate i becomes [a * x_i + b_i] (a missing entry of
    [b] counts as 0).  All coordinates have the same factor. *)
Fixpoint moved (a : R) (b x : pt) : pt :=
  match x with [] => [] | t :: x' => a * t + hd 0 b :: moved a (tl b) x' end.
(** The same problem in the new coordinates. *)
Definition moved_prob (a : R) (b : pt) (q : prob) : prob := mkProb (moved a b (q_lb q)) (moved a b (q_ub q)) (q_int q).

Lemma moved_len : forall a x b, length (moved a b x) = length x.
Proof. intros a x. induction x as [|t x IH]; intros b; [reflexivity|]. cbn. rewrite IH. reflexivity. Qed.
Lemma moved_nth : forall a x b i, (i < length x)%nat -> nth i (moved a b x) 0 = a * nth i x 0 + nth i b 0.
Proof.
  intros a x. induction x as [|t x IH]; intros b i Hi; [cbn in Hi; lia|]. destruct i as [|i]; [destruct b; reflexivity|].
  cbn [moved nth]. rewrite IH by (cbn in Hi; lia). destruct b; [destruct i; reflexivity|reflexivity].
Qed.
Lemma moved_inj : forall a, a <> 0 -> forall x y b, moved a b x = moved a b y -> x = y.
Proof.
  intros a Ha x. induction x as [|t x IH]; intros [|s y] b H; try reflexivity; try discriminate. cbn [moved] in H. injection H as H1 H2.
  f_equal; [|exact (IH _ _ H2)]. apply (Rmult_eq_reg_l a); [lra|exact Ha].
Qed.
Lemma moved_geti : forall a b x i, geti (moved a b x) i = rmap (fun t => a * t + nth i b 0) (geti x i).
Proof.
  intros a b x. revert b. unfold geti. induction x as [|t x IH]; intros b [|i]; cbn [moved nth_error rmap]; try reflexivity.
  - destruct b; reflexivity.
  - rewrite IH. destruct b; [destruct i; reflexivity|reflexivity].
Qed.
Lemma moved_sqdist : forall a x y b, sqdist (moved a b x) (moved a b y) = a * a * sqdist x y.
Proof. intros a x. induction x as [|t x IH]; intros [|s y] b; cbn [moved sqdist]; try ring. rewrite IH. ring. Qed.
(** Distances are multiplied by the factor. *)
Lemma moved_dist : forall a b x y, 0 < a -> edist (moved a b x) (moved a b y) = a * edist x y.
Proof.
  intros a b x y Ha. unfold edist. rewrite moved_sqdist, sqrt_mult_alt by nra. rewrite sqrt_square by lra. reflexivity.
Qed.
Lemma moved_to_unit : forall a x lb ub b, a <> 0 -> (forall i, (i < length lb)%nat -> nth i lb 0 < nth i ub 0) ->
  to_unit (moved a b x) (moved a b lb) (moved a b ub) = to_unit x lb ub.
Proof.
  intros a x. induction x as [|t x IH]; intros lb ub b Ha H; [reflexivity|]. destruct lb as [|l lb]; [reflexivity|]. destruct ub as [|u ub]; [reflexivity|].
  unfold to_unit in *. cbn [moved map3]. f_equal.
  - pose proof (H 0%nat ltac:(cbn; lia)) as H0. cbn [nth] in H0. field. split; nra.
  - apply IH; [exact Ha|]. intros i Hi. apply (H (S i)). cbn. lia.
Qed.

(** ** The candidates *)
Section Moved.
Variable q : prob.
Variables (a : R) (b : pt).
Hypothesis Ha : 0 < a.
Let h := moved a b.
Let q' := moved_prob a b q.
Hypothesis NI : q_int q = [].

Lemma upd_moved : forall x i (f f' : R -> R), (forall t, (i < length x)%nat -> f' (a * t + nth i b 0) = a * f t + nth i b 0) ->
  upd (h x) i f' = rmap h (upd x i f).
Proof using.
  unfold h. clear. revert b. intros b0 x. revert b0. induction x as [|t x IH]; intros b [|i] f f' H; cbn [moved upd]; try reflexivity.
  - cbn [rmap moved]. f_equal. f_equal. specialize (H t ltac:(cbn; lia)). destruct b; exact H.
  - rewrite (IH (tl b) i f f').
    + destruct (upd x i f); reflexivity.
    + intros s Hs. specialize (H s ltac:(cbn; lia)). destruct b; [destruct i; exact H|exact H].
Qed.
Lemma combine_map_r : forall A B C (g : B -> C) (l : list A) (l' : list B), combine l (map g l') = map (fun ab => (fst ab, g (snd ab))) (combine l l').
Proof using. intros A B C g l. induction l as [|x l IH]; intros [|y l']; cbn; try reflexivity. rewrite IH. reflexivity. Qed.
Lemma mapR_commute : forall A B A' B' (f : A -> res B) (f' : A' -> res B') (g : A -> A') (g' : B -> B') l,
  (forall x, In x l -> f' (g x) = rmap g' (f x)) -> mapR f' (map g l) = rmap (map g') (mapR f l).
Proof using.
  intros A B A' B' f f' g g' l. induction l as [|x l IH]; intros H; [reflexivity|]. cbn [map mapR]. rewrite H by (left; reflexivity).
  rewrite IH by (intros y Hy; apply H; right; exact Hy). destruct (f x); [|reflexivity]. cbn [rmap rbind]. destruct (mapR f l); reflexivity.
Qed.
Lemma set_col_moved : forall j sel v v' n X, (forall x, In x X -> length x = n) -> (forall r, (j < n)%nat -> v' r = a * v r + nth j b 0) ->
  set_col j sel v' (map h X) = rmap (map h) (set_col j sel v X).
Proof using.
  intros j sel v v' n X HL H. unfold set_col. rewrite map_length, combine_map_r.
  apply mapR_commute. intros [r x] Hx. cbn [fst snd]. apply upd_moved. intros t Ht. apply in_combine_r in Hx. rewrite (HL _ Hx) in Ht.
  destruct (sel r); [rewrite (H r Ht); reflexivity|reflexivity].
Qed.
Lemma upd_len : forall A (x : list A) i f y, upd x i f = Ok y -> length y = length x.
Proof using.
  intros A x. induction x as [|t x IH]; intros [|i] f y H; cbn [upd] in H; try discriminate.
  - injection H as <-. reflexivity.
  - destruct (upd x i f) as [r|] eqn:E; [|discriminate]. injection H as <-. cbn. rewrite (IH _ _ _ E). reflexivity.
Qed.
Lemma set_col_len : forall j sel v n X Y, (forall x, In x X -> length x = n) -> set_col j sel v X = Ok Y -> forall x, In x Y -> length x = n.
Proof using.
  intros j sel v n X Y HL. unfold set_col. assert (G : forall l, (forall rx, In rx l -> length (snd rx) = n) -> forall Y,
    mapR (fun rx : nat * pt => upd (snd rx) j (fun a0 => if sel (fst rx) then v (fst rx) else a0)) l = Ok Y -> forall x, In x Y -> length x = n).
  { clear. intros l. induction l as [|rx l IH]; intros HL Y H x Hx; cbn [mapR] in H; [injection H as <-; destruct Hx|].
    apply rbind_ok in H. destruct H as [y [E H]]. apply rbind_ok in H. destruct H as [Y' [E' H]]. injection H as <-.
    destruct Hx as [<-|Hx]; [rewrite (upd_len _ _ _ E); apply HL; left; reflexivity|]. eapply IH; [|exact E'|exact Hx]. intros r Hr. apply HL. right. exact Hr. }
  intros H. apply (G (combine (seq 0 (length X)) X)) with (Y := Y); [|exact H]. intros [r x] Hx. apply HL. eapply in_combine_r. exact Hx.
Qed.

Lemma moved_scale : forall radius sub i, (i < length (q_lb q))%nat -> (i < length (q_ub q))%nat -> scale q' radius sub i = a * scale q radius sub i.
Proof using NI.
  intros radius sub i H1 H2. unfold scale, q', moved_prob. cbn [q_lb q_ub q_int]. rewrite NI. cbn [rmem existsb andb].
  rewrite !moved_nth by assumption. ring.
Qed.
(** A truncated normal draw in the new coordinates is the image of the old draw. *)
Lemma moved_draw : forall radius sub xb (z : R) i, (i < length (q_lb q))%nat -> (i < length (q_ub q))%nat -> (i < length xb)%nat ->
  let sg := scale q radius sub i in let sg' := scale q' radius sub i in
  tn_draw (h xb) sg' i (clamp (tn_a q' (h xb) sg' i) (tn_b q' (h xb) sg' i) z) =
  a * tn_draw xb sg i (clamp (tn_a q xb sg i) (tn_b q xb sg i) z) + nth i b 0.
Proof using Ha NI.
  intros radius sub xb z i H1 H2 H3. cbv zeta. rewrite moved_scale by assumption. set (sg := scale q radius sub i). unfold tn_draw, tn_a, tn_b, h, q', moved_prob. cbn [q_lb q_ub].
  rewrite !moved_nth by assumption. destruct (Req_dec sg 0) as [E|E]; [rewrite E; ring|].
  replace ((a * nth i (q_lb q) 0 + nth i b 0 - (a * nth i xb 0 + nth i b 0)) / (a * sg)) with ((nth i (q_lb q) 0 - nth i xb 0) / sg) by (field; split; lra).
  replace ((a * nth i (q_ub q) 0 + nth i b 0 - (a * nth i xb 0 + nth i b 0)) / (a * sg)) with ((nth i (q_ub q) 0 - nth i xb 0) / sg) by (field; split; lra).
  ring.
Qed.

Lemma all_moved : all_coords q' = all_coords q.
Proof using. unfold all_coords, q', moved_prob. cbn [q_lb]. rewrite moved_len. reflexivity. Qed.
Lemma geti_lt : forall A (l : list A) i x, geti l i = Ok x -> (i < length l)%nat.
Proof using. intros A l i x H. apply geti_ok in H. apply nth_error_Some. congruence. Qed.

(** [draws xb]: standard truncated normal draws for the problem [q] around [xb]. *)
Lemma srbf_cols_moved : forall radius xb z todo X, (forall x, In x X -> length x = length xb) ->
  srbf_cols q' radius (all_coords q') (h xb) (in_range q' (h xb) radius z) todo (map h X) =
  rmap (map h) (srbf_cols q radius (all_coords q) xb (in_range q xb radius z) todo X).
Proof using Ha NI.
  intros radius xb z todo. induction todo as [|i todo IH]; intros X HL; [reflexivity|]. cbn [srbf_cols].
  unfold q' at 1 2. cbn [moved_prob q_lb q_ub]. rewrite !moved_geti.
  destruct (geti (q_lb q) i) as [l|] eqn:E1; [|reflexivity]. cbn [rmap rbind]. destruct (geti (q_ub q) i) as [u|] eqn:E2; [|reflexivity]. cbn [rmap rbind].
  apply geti_lt in E1. apply geti_lt in E2.
  rewrite (@set_col_moved i (fun _ => true) (fun r => tn_draw xb (scale q radius (all_coords q) i) i (in_range q xb radius z i r)) _ (length xb)) by
    (try exact HL; intros r Hr; unfold in_range; rewrite all_moved; apply moved_draw; assumption).
  destruct (set_col i _ _ X) as [X'|] eqn:E; [|reflexivity]. cbn [rmap rbind]. apply IH. eapply set_col_len; [exact HL|exact E].
Qed.
Lemma round_moved : forall X, round_vars (map h X) (q_int q') (q_lb q') (q_ub q') = rmap (map h) (round_vars X (q_int q) (q_lb q) (q_ub q)).
Proof using NI. intros X. unfold q', moved_prob. cbn [q_int]. rewrite NI. reflexivity. Qed.
Lemma map_rep : forall A B (f : A -> B) x n, map f (repeat x n) = repeat (f x) n.
Proof using. intros A B f x n. induction n as [|n IH]; [reflexivity|]. cbn. rewrite IH. reflexivity. Qed.
Lemma srbf_cand_moved : forall radius nc xb z,
  srbf_cand q' radius (all_coords q') nc (h xb) (in_range q' (h xb) radius z) = rmap (map h) (srbf_cand q radius (all_coords q) nc xb (in_range q xb radius z)).
Proof using Ha NI.
  intros radius nc xb z. unfold srbf_cand. rewrite all_moved at 2.
  pose proof (srbf_cols_moved radius xb z (all_coords q) (repeat xb nc) ltac:(intros x Hx; apply repeat_spec in Hx; rewrite Hx; reflexivity)) as E.
  rewrite map_rep in E. rewrite E. destruct (srbf_cols q _ _ _ _ _ _) as [X|]; [|reflexivity]. cbn [rmap rbind]. apply round_moved.
Qed.
Lemma dycors_cols_moved : forall radius xb z ar todo X, (forall x, In x X -> length x = length xb) -> (forall i, In i todo -> (i < length (q_lb q))%nat) ->
  dycors_cols q' radius (all_coords q') (h xb) (in_range q' (h xb) radius z) ar todo (map h X) =
  rmap (map h) (dycors_cols q radius (all_coords q) xb (in_range q xb radius z) ar todo X).
Proof using Ha NI.
  intros radius xb z ar todo. induction todo as [|i todo IH]; intros X HL HT; [reflexivity|]. cbn [dycors_cols].
  unfold q' at 1 2. cbn [moved_prob q_lb q_ub]. rewrite !moved_geti.
  destruct (geti (q_lb q) i) as [l|] eqn:E1; [|reflexivity]. cbn [rmap rbind]. destruct (geti (q_ub q) i) as [u|] eqn:E2; [|reflexivity]. cbn [rmap rbind].
  apply geti_lt in E1. apply geti_lt in E2. rewrite all_moved. destruct (length (all_coords q) <=? i)%nat eqn:EL; [reflexivity|].
  assert (EJ : geti (all_coords q) i = Ok i).
  { apply geti_ok. unfold all_coords in *. rewrite seq_length in EL. apply Nat.leb_gt in EL.
    rewrite (nth_error_nth' _ 0%nat) by (rewrite seq_length; exact EL). rewrite seq_nth by exact EL. reflexivity. }
  rewrite EJ. cbn [rbind].
  rewrite (@set_col_moved i (fun r => ar r i) (fun r => tn_draw xb (scale q radius (all_coords q) i) i (in_range q xb radius z i r)) _ (length xb)) by
    (try exact HL; intros r Hr; unfold in_range; rewrite all_moved; apply moved_draw; assumption).
  destruct (set_col i _ _ X) as [X'|] eqn:E; [|reflexivity]. cbn [rmap rbind]. rewrite <- all_moved at 1. apply IH; [eapply set_col_len; [exact HL|exact E]|].
  intros j Hj. apply HT. right. exact Hj.
Qed.
Lemma dycors_cand_moved : forall radius nc xb u f z,
  dycors_cand q' radius (all_coords q') nc (h xb) u f (in_range q' (h xb) radius z) = rmap (map h) (dycors_cand q radius (all_coords q) nc xb u f (in_range q xb radius z)).
Proof using Ha NI.
  intros radius nc xb u f z. unfold dycors_cand. replace (length (all_coords q')) with (length (all_coords q)) by (rewrite all_moved; reflexivity).
  destruct (dycors_ar _ _ _ _) as [ar|]; [|reflexivity]. cbn [rbind]. rewrite all_moved at 2.
  pose proof (dycors_cols_moved radius xb z ar (all_coords q) (repeat xb nc) ltac:(intros x Hx; apply repeat_spec in Hx; rewrite Hx; reflexivity)) as E.
  rewrite map_rep in E. rewrite E by (intros i Hi; unfold all_coords in Hi; apply in_seq in Hi; lia).
  destruct (dycors_cols q _ _ _ _ _ _ _) as [X|]; [|reflexivity]. cbn [rmap rbind]. apply round_moved.
Qed.

(** ** The choice among the candidates *)
Lemma min_dist_moved : forall T x, min_dist edist (map h T) (h x) = rmap (Rmult a) (min_dist edist T x).
Proof using Ha.
  intros [|t T] x; [reflexivity|]. cbn [map min_dist rmap]. f_equal. unfold h. rewrite moved_dist by exact Ha.
  rewrite <- (@Rminl_map (Rmult a)) by (intros u v; rewrite <- (Rplus_0_r (a * _)), Rmin_lin by exact Ha; rewrite !Rplus_0_r; reflexivity).
  f_equal. rewrite !map_map. apply map_ext. intros y. apply moved_dist. exact Ha.
Qed.
Lemma merits_moved : forall w dtol fs ds drs, merits w (a * dtol) fs (map (Rmult a) ds) drs = merits w dtol fs ds drs.
Proof using Ha.
  intros w dtol fs. induction fs as [|f fs IH]; intros [|d ds] [|dr drs]; cbn [map merits]; try reflexivity. rewrite IH. f_equal.
  unfold merit. destruct (Rlt_dec (a * d) (a * dtol)) as [H|H], (Rlt_dec d dtol) as [K|K]; try reflexivity; exfalso; nra.
Qed.
Lemma rescale_moved : forall l, unit_rescale (map (Rmult a) l) = unit_rescale l.
Proof using Ha. intros l. rewrite <- (@unit_rescale_lin a 0 l Ha). f_equal. apply map_ext. intros; ring. Qed.
Lemma picks_moved : forall cand dtol n ws fs ds, picks edist (map h cand) (a * dtol) n ws fs (map (Rmult a) ds) = picks edist cand dtol n ws fs ds.
Proof using Ha.
  intros cand dtol n. induction n as [|n IH]; intros ws fs ds; [reflexivity|]. cbn [picks]. destruct ws as [|w ws]; [reflexivity|].
  rewrite rescale_moved. destruct (unit_rescale ds) as [drs|]; [|reflexivity]. cbn [rbind]. rewrite merits_moved.
  destruct (xargmin (merits w dtol fs ds drs)) as [jj|]; [|reflexivity]. cbn [rbind]. destruct (upd fs jj _) as [fs'|]; [|reflexivity]. cbn [rbind].
  rewrite geti_map. destruct (geti cand jj) as [cj|]; [|reflexivity]. cbn [rmap rbind].
  assert (E : map (fun cd : pt * R => Rmin (snd cd) (edist (fst cd) (h cj))) (combine (map h cand) (map (Rmult a) ds)) =
    map (Rmult a) (map (fun cd : pt * R => Rmin (snd cd) (edist (fst cd) cj)) (combine cand ds))).
  { clear -Ha. subst h. revert ds. induction cand as [|x cand IH]; intros [|d ds]; cbn [map combine]; try reflexivity. rewrite IH. cbn [map fst snd]. f_equal.
    rewrite moved_dist by exact Ha. rewrite <- (Rplus_0_r (a * Rmin _ _)), Rmin_lin by exact Ha. rewrite !Rplus_0_r. reflexivity. }
  rewrite E, IH. reflexivity.
Qed.
Lemma merit_moved : forall (pr pr' : pt -> R) n T cand ws dtol, (forall x, In x cand -> pr' (h x) = pr x) ->
  weighted_distance_merit edist pr' n (map h T) (map h cand) ws (a * dtol) = rmap (map h) (weighted_distance_merit edist pr n T cand ws dtol).
Proof using Ha.
  intros pr pr' n T cand ws dtol E. unfold weighted_distance_merit.
  rewrite (@mapR_commute _ _ _ _ (min_dist edist T) (min_dist edist (map h T)) h (Rmult a)) by (intros x _; apply min_dist_moved).
  destruct (mapR (min_dist edist T) cand) as [ds|]; [|reflexivity]. cbn [rmap rbind].
  rewrite map_map, (map_ext_in _ pr) by exact E. destruct (unit_rescale (map pr cand)) as [fs|]; [|reflexivity]. cbn [rbind].
  rewrite picks_moved. destruct (picks edist cand dtol n ws (map XFin fs) ds) as [idx|]; [|reflexivity]. cbn [rbind].
  apply mapR_geti_map.
Qed.
Lemma x_best_moved : forall (X : list pt) l, x_best (map h X) l = rmap h (x_best X l).
Proof using. intros X l. unfold x_best. destruct (xargmin l) as [k|]; [|reflexivity]. cbn [rbind]. apply geti_map. Qed.
Lemma center_moved : forall s : base pt val, center (pm_base h s) = rmap h (center s).
Proof using. intros s. unfold center. cbn [pm_base X_ fX_]. apply x_best_moved. Qed.

Section Any.
Variable dtol : R.
Variable num_cand : option nat.
Variables predict predict' : list (pt * val) -> pt -> R.
Hypothesis HP : forall d x, predict' (pm_sur h d) (h x) = predict d x.

Lemma srbf_search_moved : forall z s n ws r,
  srbf_search q' edist predict' (a * dtol) num_cand z (pm_base h s) n ws r = rmap (map h) (srbf_search q edist predict dtol num_cand z s n ws r).
Proof using Ha NI HP.
  intros z s n ws r. unfold srbf_search. rewrite center_moved. destruct (center s) as [xb|] eqn:EC; [|reflexivity]. cbn [rmap rbind].
  unfold candidate_srbf. unfold center in EC. cbn [pm_base X_ fX_ sur Xpend]. rewrite x_best_moved, EC. cbn [rmap rbind].
  rewrite srbf_cand_moved. replace (length (q_lb q')) with (length (q_lb q)) by (unfold q', moved_prob; cbn [q_lb]; rewrite moved_len; reflexivity).
  destruct (srbf_cand q _ _ _ _ _) as [cand|]; [|reflexivity]. cbn [rmap rbind]. rewrite <- map_app. apply merit_moved. intros x _. apply HP.
Qed.
Lemma dycors_search_moved : forall z s n ws r,
  dycors_search q' edist predict' (a * dtol) num_cand z (pm_base h s) n ws r = rmap (map h) (dycors_search q edist predict dtol num_cand z s n ws r).
Proof using Ha NI HP.
  intros z s n ws r. unfold dycors_search. rewrite center_moved. destruct (center s) as [xb|] eqn:EC; [|reflexivity]. cbn [rmap rbind].
  unfold candidate_dycors. unfold center in EC. cbn [pm_base X_ fX_ sur Xpend]. rewrite x_best_moved, EC. cbn [rmap rbind].
  replace (length (q_lb q')) with (length (q_lb q)) by (unfold q', moved_prob; cbn [q_lb]; rewrite moved_len; reflexivity).
  rewrite dycors_cand_moved.
  destruct (dycors_cand q _ _ _ _ _ _ _) as [cand|]; [|reflexivity]. cbn [rmap rbind]. rewrite <- map_app. apply merit_moved. intros x _. apply HP.
Qed.
End Any.

(** ** The hooks *)
Section Hooks.
Variable dim : nat.
Variable weights : list Q.
Variable O : Type.
Variable c : cfg pt val.
Variable peqb' : pt -> pt -> bool.
Hypothesis Heq : forall x y, peqb' (h x) (h y) = c_peqb c x y.
Let c' := pm_cfg h peqb' c.
Variables srch srch' : O -> cand_search pt.
Hypothesis HS : forall o s n ws r, srch' o (pm_base h s) n ws r = rmap (map h) (srch o s n ws r).

Lemma run_moved : forall d ops,
  Strategy.run c' (hooks_with srch' (srbf_strategy c' weights dim)) (rmap (map h) d) srbf0 (map (pm_op h (fun o : O => o)) ops) =
  pm_sys h (fun e => e) (Strategy.run c (hooks_with srch (srbf_strategy c weights dim)) d srbf0 ops).
Proof using Heq HS.
  intros d ops. apply (@pm_run pt pt val srbf srbf O O h (fun e => e) (fun o => o)).
  - exact Heq.
  - intros e. reflexivity.
  - intros e s x v ev. reflexivity.
  - intros e s x v ev. cbn [hooks_with hk_adapt_completed srbf_strategy srbf_hooks].
    unfold srbf_adapt_completed. change (ev_last (pm_base h s)) with (ev_last s). change (batch_queue (pm_base h s)) with (map h (batch_queue s)). rewrite pm_nonempty.
    change (pending_evals (pm_base h s)) with (pending_evals s). change (c_async c') with (c_async c). change (c_batch c') with (c_batch c).
    set (r := if (ev_last s <? ev)%Z then _ else _). destruct r as [[[e1 n] bb]|]; reflexivity.
  - apply pm_all_fine_all. intros e s n o. cbn [hooks_with hk_generate srbf_strategy srbf_hooks]. unfold srbf_generate.
    destruct (get_weights weights n (s_next e)) as [[ws nx]|]; [|reflexivity]. cbn [rbind fst snd]. rewrite HS.
    destruct (srch o s n ws (s_radius e)) as [pts|]; [|reflexivity]. cbn [rmap rbind]. rewrite pm_take_rows. destruct (take_rows n pts); reflexivity.
Qed.
End Hooks.

(** ** RBF surrogate *)
Section Rbf.
Variable dim : nat.
Variable eta dtol : R.
Variable num_cand : option nat.
Variable weights : list Q.
Hypothesis WB : bounds dim (q_lb q) (q_ub q).

Lemma moved_bounds : bounds dim (q_lb q') (q_ub q').
Proof using Ha WB.
  destruct WB as [B1 [B2 B3]]. unfold q', moved_prob. cbn [q_lb q_ub]. split; [rewrite moved_len; exact B1|]. split; [rewrite moved_len; exact B2|].
  intros i Hi. rewrite !moved_nth by congruence. specialize (B3 i Hi). nra.
Qed.
Lemma moved_convert : forall x, length x = dim -> convert (q_lb q) (q_ub q) (q_lb q') (q_ub q') x = h x.
Proof using Ha WB.
  intros x Hx. apply (nth_ext _ _ 0 0); [unfold h; rewrite convert_len, moved_len; reflexivity|]. intros i Hi. rewrite convert_len in Hi.
  rewrite convert_nth by exact Hi. unfold h, q', moved_prob. cbn [q_lb q_ub]. destruct WB as [B1 [B2 B3]]. rewrite !moved_nth by congruence.
  specialize (B3 i ltac:(congruence)). field. lra.
Qed.
Lemma rbf_predict_moved : forall d x, rbf_predict q' dim eta (pm_sur h d) (h x) = rbf_predict q dim eta d x.
Proof using Ha WB.
  intros d x. unfold rbf_predict, pm_sur. rewrite !map_map. cbn [fst snd]. destruct (mapR num (map snd d)) as [ys|]; [|reflexivity]. cbn [rbind].
  set (cv := convert (q_lb q) (q_ub q) (q_lb q') (q_ub q')).
  destruct (right_shape dim (map fst d) ys) eqn:RS.
  - assert (EM : map (fun x : pt * val => h (fst x)) d = map cv (map fst d)).
    { rewrite map_map. apply map_ext_in. intros [y v] Hy. cbn [fst]. symmetry. apply moved_convert. apply shape_dims in RS. rewrite Forall_forall in RS. apply RS.
      apply in_map_iff. exists (y, v). auto. }
    rewrite EM. replace ys with (map keep ys) at 1 by apply map_keep.
    destruct (@run_convert dim (q_lb q) (q_ub q) (q_lb q') (q_ub q') WB moved_bounds CubicKernel (LinearTail dim) eta identity [Add (map fst d) ys]) as [_ E].
    cbn [map convert_call] in E. fold cv in E. unfold answer, predict. rewrite E, fit_X.
    destruct (fit CubicKernel (LinearTail dim) eta identity (PropRBF.run dim (q_lb q) (q_ub q) CubicKernel (LinearTail dim) eta identity [Add (map fst d) ys])) as [s' [[]|e]]; cbn [fst snd]; [|reflexivity].
    cbn [rwith_X r_c]. destruct (r_c s') as [cc|]; [|reflexivity]. f_equal. unfold h, q', moved_prob. cbn [q_lb q_ub]. rewrite moved_to_unit; [reflexivity|lra|].
    destruct WB as [B1 [_ B3]]. intros i Hi. apply B3. congruence.
  - assert (RS' : right_shape dim (map (fun x : pt * val => h (fst x)) d) ys = false).
    { rewrite <- RS. unfold right_shape. rewrite !map_length. f_equal. clear. unfold h. induction d as [|[y v] d IH]; [reflexivity|]. cbn. rewrite moved_len, IH. reflexivity. }
    unfold answer, PropRBF.run. cbn [fold_left PropRBF.step]. unfold r_add, u_add. fold (right_shape dim (map fst d) ys). fold (right_shape dim (map (fun x : pt * val => h (fst x)) d) ys).
    rewrite RS, RS'. cbn [rbind]. unfold predict. reflexivity.
Qed.
Lemma predicted_moved : forall d x, predicted q' dim eta (pm_sur h d) (h x) = predicted q dim eta d x.
Proof using Ha WB. intros d x. unfold predicted. rewrite rbf_predict_moved. reflexivity. Qed.

Variable c : cfg pt val.
Variable peqb' : pt -> pt -> bool.
Hypothesis Heq : forall x y, peqb' (h x) (h y) = c_peqb c x y.
Let c' := pm_cfg h peqb' c.

Theorem C71_srbf : forall d ops,
  Strategy.run c' (srbf_rbf q' dim edist (a * dtol) num_cand eta c' weights) (rmap (map h) d) srbf0 (map (pm_op h (fun z => z)) ops) =
  pm_sys h (fun e => e) (Strategy.run c (srbf_rbf q dim edist dtol num_cand eta c weights) d srbf0 ops).
Proof using Ha NI WB Heq.
  intros d ops. apply run_moved; [exact Heq|]. intros z s n ws r. unfold srbf_rbf_search. rewrite center_moved. destruct (center s) as [xb|]; [|reflexivity]. cbn [rmap rbind].
  change (sur (pm_base h s)) with (pm_sur h (sur s)). rewrite rbf_predict_moved. destruct (rbf_predict q dim eta (sur s) xb); [|reflexivity]. cbn [rbind].
  apply srbf_search_moved. exact predicted_moved.
Qed.
Theorem C71_dycors : forall d ops,
  Strategy.run c' (dycors_rbf q' dim edist (a * dtol) num_cand eta c' weights) (rmap (map h) d) srbf0 (map (pm_op h (fun z => z)) ops) =
  pm_sys h (fun e => e) (Strategy.run c (dycors_rbf q dim edist dtol num_cand eta c weights) d srbf0 ops).
Proof using Ha NI WB Heq.
  intros d ops. apply run_moved; [exact Heq|]. intros z s n ws r. unfold dycors_rbf_search. rewrite center_moved. destruct (center s) as [xb|]; [|reflexivity]. cbn [rmap rbind].
  change (sur (pm_base h s)) with (pm_sur h (sur s)). rewrite rbf_predict_moved. destruct (rbf_predict q dim eta (sur s) xb); [|reflexivity]. cbn [rbind].
  apply dycors_search_moved. exact predicted_moved.
Qed.
End Rbf.
End Moved.
