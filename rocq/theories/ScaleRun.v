(** * C66: a run does not depend on the unit in which the objective is measured. *)
From Coq Require Import List Arith ZArith Lia Bool QArith Qabs Qminmax Reals Lra Qreals.
From Verif Require Import Base PyList Strategy StratMap SRBF PropSRBF Box PropBox Design Lin RBF Cand PropCand EndToEnd
  PropRBF PropSolve RBFEquiv SurrUnits SRBFRun.
Import ListNotations.

Set Implicit Arguments.

(** ** Values, and the attributes of SRBFStrategy that hold values *)
Definition vscale (a : Q) (v : val) : val := match v with Fin q => Fin (a * q)%Q | PInf => PInf end.
Definition scale_srbf (a : Q) (e : srbf) : srbf :=
  mkSrbf (s_status e) (s_failcount e) (s_radius e) (vscale a (s_fbest e)) (map (vscale a) (s_queue e)) (s_next e)
    (map (map (vscale a)) (s_steps e)) (s_used e).

Section Scale.
Variable a : Q.
Hypothesis Ha : (0 < a)%Q.
Local Open Scope Q_scope.

Lemma Qlt_b_iff : forall x y, Qlt_b x y = true <-> x < y.
Proof using.
  intros x y. unfold Qlt_b. rewrite negb_true_iff. split; intros H.
  - apply Qnot_le_lt. intros K. apply Qle_bool_iff in K. congruence.
  - destruct (Qle_bool y x) eqn:E; [|reflexivity]. apply Qle_bool_iff in E. exfalso. exact (Qle_not_lt _ _ E H).
Qed.
Lemma Qlt_b_scale : forall x y, Qlt_b (a * x) (a * y) = Qlt_b x y.
Proof using Ha.
  intros x y. apply eq_true_iff_eq. rewrite !Qlt_b_iff. split; intros H; [|apply Qmult_lt_l; assumption].
  apply Qmult_lt_l in H; assumption.
Qed.
Lemma vlt_scale : forall u v, vlt (vscale a u) (vscale a v) = vlt u v.
Proof using Ha. intros [x|] [y|]; try reflexivity. apply Qlt_b_scale. Qed.
Lemma vmin_scale : forall l x, vmin (vscale a x) (map (vscale a) l) = vscale a (vmin x l).
Proof using Ha.
  unfold vmin. induction l as [|v l IH]; intros x; [reflexivity|]. cbn [map fold_left]. rewrite vlt_scale. destruct (vlt v x); apply IH.
Qed.
Lemma improves_scale : forall f b, improves (vscale a f) (vscale a b) = improves f b.
Proof using Ha.
  intros f [b|]; [|reflexivity]. destruct f as [f|]; [|reflexivity]. cbn [vscale improves vlt].
  rewrite <- (Qlt_b_scale f). apply eq_true_iff_eq. rewrite !Qlt_b_iff.
  assert (E : a * b - (1 # 1000) * Qabs (a * b) == a * (b - (1 # 1000) * Qabs b)).
  { rewrite Qabs_Qmult, (Qabs_pos a) by (apply Qlt_le_weak; exact Ha). ring. }
  rewrite E. reflexivity.
Qed.
Lemma adjust_scale : forall ft e, adjust_step ft (scale_srbf a e) =
  rmap (fun r => let '(e, n, b) := r in (scale_srbf a e, n, b)) (adjust_step ft e).
Proof using Ha.
  intros ft e. unfold adjust_step. cbn [scale_srbf s_status s_failcount s_radius s_fbest s_queue s_next s_steps s_used].
  destruct (s_queue e) as [|v l]; [reflexivity|]. cbn [map]. rewrite vmin_scale, improves_scale. cbv zeta. cbn [rmap].
  f_equal. f_equal. f_equal. unfold scale_srbf. cbn [s_status s_failcount s_radius s_fbest s_queue s_next s_steps s_used].
  rewrite map_app. cbn [map]. f_equal. destruct (improves (vmin v l) (s_fbest e)); reflexivity.
Qed.
End Scale.

Local Open Scope R_scope.

(** ** The candidate search *)
Lemma xargmin_map : forall (h : xr -> xr) l, (forall u v, In u l -> In v l -> replaces (h u) (h v) = replaces u v) -> xargmin (map h l) = xargmin l.
Proof.
  intros h [|v l] H; [reflexivity|]. cbn [map xargmin]. f_equal.
  assert (G : forall l i b bv, (forall u v, In u (bv :: l) -> In v (bv :: l) -> replaces (h u) (h v) = replaces u v) ->
    xargmin_from i b (h bv) (map h l) = xargmin_from i b bv l).
  { clear. induction l as [|v l IH]; intros i b bv H; [reflexivity|]. cbn [map xargmin_from]. rewrite H by (simpl; auto).
    destruct (replaces v bv); apply IH; intros u w Hu Hw; apply H; simpl in *; tauto. }
  apply G. exact H.
Qed.
Definition xscale (r : R) (v : xr) : xr := match v with XFin x => XFin (r * x) | _ => v end.
Lemma xlt_scale : forall r u v, 0 < r -> xlt (xscale r u) (xscale r v) = xlt u v.
Proof.
  intros r u v Hr. destruct u, v; cbn [xscale xlt]; try reflexivity. destruct (Rlt_dec (r * r0) (r * r1)) as [H|H], (Rlt_dec r0 r1) as [K|K]; try reflexivity; exfalso; nra.
Qed.
Lemma replaces_scale : forall r u v, 0 < r -> replaces (xscale r u) (xscale r v) = replaces u v.
Proof. intros r u v Hr. pose proof (xlt_scale u v Hr) as E. destruct u, v; cbn [xscale replaces] in *; try reflexivity; try exact E. Qed.

Lemma Rminl_map : forall h, (forall x y, h (Rmin x y) = Rmin (h x) (h y)) -> forall l x, Rminl (h x) (map h l) = h (Rminl x l).
Proof. intros h H. induction l as [|v l IH]; intros x; [reflexivity|]. unfold Rminl in *. cbn [map fold_left]. rewrite <- H. apply IH. Qed.
Lemma Rmaxl_map : forall h, (forall x y, h (Rmax x y) = Rmax (h x) (h y)) -> forall l x, Rmaxl (h x) (map h l) = h (Rmaxl x l).
Proof. intros h H. induction l as [|v l IH]; intros x; [reflexivity|]. unfold Rmaxl in *. cbn [map fold_left]. rewrite <- H. apply IH. Qed.
Lemma Rmin_lin : forall r s x y, 0 < r -> r * Rmin x y + s = Rmin (r * x + s) (r * y + s).
Proof. intros r s x y Hr. unfold Rmin. destruct (Rle_dec x y), (Rle_dec (r * x + s) (r * y + s)); try reflexivity; nra. Qed.
Lemma Rmax_lin : forall r s x y, 0 < r -> r * Rmax x y + s = Rmax (r * x + s) (r * y + s).
Proof. intros r s x y Hr. unfold Rmax. destruct (Rle_dec x y), (Rle_dec (r * x + s) (r * y + s)); try reflexivity; nra. Qed.

(** unit_rescale forgets scale and offset. *)
Lemma unit_rescale_lin : forall r s l, 0 < r -> unit_rescale (map (fun v => r * v + s) l) = unit_rescale l.
Proof.
  intros r s [|x l] Hr; [reflexivity|]. unfold unit_rescale. cbn [map].
  rewrite (@Rminl_map (fun v => r * v + s)) by (intros; apply Rmin_lin; exact Hr).
  rewrite (@Rmaxl_map (fun v => r * v + s)) by (intros; apply Rmax_lin; exact Hr).
  set (M := Rmaxl x l). set (m := Rminl x l).
  destruct (Req_EM_T (r * M + s) (r * m + s)) as [E|E], (Req_EM_T M m) as [F|F].
  - f_equal. f_equal. rewrite map_map. reflexivity.
  - exfalso. apply F. nra.
  - exfalso. apply E. rewrite F. reflexivity.
  - f_equal. f_equal; [field; split; nra|]. rewrite map_map. apply map_ext. intros v. field. split; nra.
Qed.
Lemma merit_lin : forall (P : Type) (dist : P -> P -> R) (pr pr' : P -> R) r s n T cand ws dtol, 0 < r -> (forall x, pr' x = r * pr x + s) ->
  weighted_distance_merit dist pr' n T cand ws dtol = weighted_distance_merit dist pr n T cand ws dtol.
Proof.
  intros P dist pr pr' r s n T cand ws dtol Hr E. unfold weighted_distance_merit. destruct (mapR (min_dist dist T) cand); [|reflexivity]. cbn [rbind].
  rewrite (map_ext pr' (fun x => r * pr x + s)) by exact E. rewrite <- (map_map pr (fun v => r * v + s)), unit_rescale_lin by exact Hr. reflexivity.
Qed.

Section Runs.
Variable q : prob.
Variable dim : nat.
Variable dist : pt -> pt -> R.
Variable dtol : R.
Variable num_cand : option nat.
Variable weights : list Q.
Variable a : Q.
Hypothesis Ha : (0 < a)%Q.

Lemma Ra : 0 < Q2R a.
Proof using Ha. replace 0 with (Q2R 0) by (unfold Q2R; simpl; lra). apply Qlt_Rlt, Ha. Qed.
Lemma toxr_scale : forall v, toxr (vscale a v) = xscale (Q2R a) (toxr v).
Proof using. intros [x|]; [|reflexivity]. cbn [vscale toxr xscale]. rewrite Q2R_mult. reflexivity. Qed.
Lemma map_toxr : forall l, map toxr (map (vscale a) l) = map (xscale (Q2R a)) (map toxr l).
Proof using. intros l. rewrite !map_map. apply map_ext. exact toxr_scale. Qed.
Lemma x_best_scale : forall A (X : list A) l, x_best X (map (xscale (Q2R a)) l) = x_best X l.
Proof using Ha. intros A X l. unfold x_best. rewrite xargmin_map; [reflexivity|]. intros u v _ _. apply replaces_scale, Ra. Qed.
Lemma center_scale : forall s : base pt val, center (map_base (vscale a) s) = center s.
Proof using Ha. intros s. unfold center. cbn [map_base X_ fX_]. rewrite map_toxr. apply x_best_scale. Qed.

(** Any surrogate whose predictions follow the scale. *)
Section Any.
Variable predict : list (pt * val) -> pt -> R.
Hypothesis HP : forall d x, predict (map_sur (vscale a) d) x = Q2R a * predict d x.

Lemma srbf_search_scale : forall z s n ws r, srbf_search q dist predict dtol num_cand z (map_base (vscale a) s) n ws r = srbf_search q dist predict dtol num_cand z s n ws r.
Proof using Ha HP.
  intros z s n ws r. unfold srbf_search. rewrite center_scale. destruct (center s) as [xb|]; [|reflexivity]. cbn [rbind].
  unfold candidate_srbf. cbn [map_base X_ fX_ sur Xpend]. rewrite map_toxr, x_best_scale. destruct (x_best _ _); [|reflexivity]. cbn [rbind].
  destruct (srbf_cand _ _ _ _ _ _); [|reflexivity]. cbn [rbind]. apply (@merit_lin _ _ _ _ (Q2R a) 0); [apply Ra|]. intros x. rewrite Rplus_0_r. apply HP.
Qed.
Lemma dycors_search_scale : forall z s n ws r, dycors_search q dist predict dtol num_cand z (map_base (vscale a) s) n ws r = dycors_search q dist predict dtol num_cand z s n ws r.
Proof using Ha HP.
  intros z s n ws r. unfold dycors_search. rewrite center_scale. destruct (center s) as [xb|]; [|reflexivity]. cbn [rbind].
  unfold candidate_dycors. cbn [map_base X_ fX_ sur Xpend]. rewrite map_toxr, x_best_scale. destruct (x_best _ _); [|reflexivity]. cbn [rbind].
  destruct (dycors_cand _ _ _ _ _ _ _ _); [|reflexivity]. cbn [rbind]. apply (@merit_lin _ _ _ _ (Q2R a) 0); [apply Ra|]. intros x. rewrite Rplus_0_r. apply HP.
Qed.
End Any.

(** The hooks commute with the scaling if the search does. *)
Section Hooks.
Variable O : Type.
Variable c : cfg pt val.
Variable isnan' : val -> bool.
Hypothesis Hnan : forall v, isnan' (vscale a v) = c_isnan c v.
Let c' := map_cfg (vscale a) isnan' c.
Variables srch srch' : O -> cand_search pt.
Hypothesis HS : forall o s n ws r, srch' o (map_base (vscale a) s) n ws r = srch o s n ws r.

Lemma run_scale : forall d ops,
  Strategy.run c' (hooks_with srch' (srbf_strategy c' weights dim)) d srbf0 (map (map_op (vscale a) (fun o : O => o)) ops) =
  map_sys (vscale a) (scale_srbf a) (Strategy.run c (hooks_with srch (srbf_strategy c weights dim)) d srbf0 ops).
Proof using Ha Hnan HS.
  intros d ops. change srbf0 with (scale_srbf a srbf0) at 1. apply map_run.
  - exact Hnan.
  - intros e. reflexivity.
  - intros e s x v ev. reflexivity.
  - intros e s x v ev. cbn [hooks_with hk_adapt_completed srbf_strategy srbf_hooks].
    unfold srbf_adapt_completed. change (ev_last (map_base (vscale a) s)) with (ev_last s). change (batch_queue (map_base (vscale a) s)) with (batch_queue s).
    change (pending_evals (map_base (vscale a) s)) with (pending_evals s). change (c_async c') with (c_async c). change (c_batch c') with (c_batch c).
    destruct (ev_last s <? ev)%Z; [|reflexivity].
    set (e1 := mkSrbf (s_status e) (s_failcount e) (s_radius e) (s_fbest e) (s_queue e ++ [v]) (s_next e) (s_steps e) (s_used e)).
    assert (E : mkSrbf (s_status (scale_srbf a e)) (s_failcount (scale_srbf a e)) (s_radius (scale_srbf a e)) (s_fbest (scale_srbf a e)) (s_queue (scale_srbf a e) ++ [vscale a v]) (s_next (scale_srbf a e)) (s_steps (scale_srbf a e)) (s_used (scale_srbf a e)) = scale_srbf a e1).
    { unfold scale_srbf, e1. cbn [s_status s_failcount s_radius s_fbest s_queue s_next s_steps s_used]. rewrite map_app. reflexivity. }
    rewrite E. destruct (c_async c); [apply adjust_scale; exact Ha|]. destruct (negb (nonempty (batch_queue s)) && (pending_evals s =? 0)%Z); [apply adjust_scale; exact Ha|reflexivity].
  - apply all_fine_all. intros e s n o. cbn [hooks_with hk_generate srbf_strategy srbf_hooks]. unfold srbf_generate.
    cbn [scale_srbf s_status s_failcount s_radius s_fbest s_queue s_next s_steps s_used].
    destruct (get_weights weights n (s_next e)) as [[ws nx]|]; [|reflexivity]. cbn [rbind fst snd]. rewrite HS.
    destruct (srch o s n ws (s_radius e)) as [pts|]; [|reflexivity]. cbn [rbind]. destruct (take_rows n pts); reflexivity.
Qed.
End Hooks.

(** ** RBF surrogate *)
Section Rbf.
Variable eta : R.
Hypothesis WB : bounds dim (q_lb q) (q_ub q).

Lemma num_scale : forall l, mapR num (map (vscale a) l) = rmap (map (fun v => Q2R a * v + 0)) (mapR num l).
Proof using.
  induction l as [|v l IH]; [reflexivity|]. cbn [map mapR]. rewrite IH. destruct v as [x|]; [|reflexivity]. cbn [vscale num rbind].
  destruct (mapR num l) as [ys|]; [|reflexivity]. cbn [rmap rbind map]. rewrite Q2R_mult, Rplus_0_r. reflexivity.
Qed.
Lemma rbf_predict_scale : forall d x, rbf_predict q dim eta (map_sur (vscale a) d) x = rescaled (Q2R a) 0 (rbf_predict q dim eta d x).
Proof using Ha WB.
  intros d x. unfold rbf_predict, map_sur. rewrite !map_map. cbn [fst snd]. rewrite <- (map_map snd (vscale a)), num_scale.
  destruct (mapR num (map snd d)) as [ys|]; [|reflexivity]. cbn [rmap rbind].
  destruct C65_transformations as [[_ [T1 T2]] _].
  rewrite <- (@C65_history dim (q_lb q) (q_ub q) CubicKernel eta identity [Add (map fst d) ys] (Q2R a) 0 WB T1 T2 Ra).
  - cbn [map convert_call]. rewrite map_map. reflexivity.
  - intros h1 cl h2 E _ [y HY]. destruct h1 as [|c1 h1]; [injection E as <- _; destruct HY; discriminate|]. injection E as _ E. destruct h1; discriminate.
Qed.
Lemma predicted_scale : forall d x, predicted q dim eta (map_sur (vscale a) d) x = Q2R a * predicted q dim eta d x.
Proof using Ha WB. intros d x. unfold predicted. rewrite rbf_predict_scale. destruct (rbf_predict q dim eta d x); cbn [rescaled]; ring. Qed.

Variable c : cfg pt val.
Variable isnan' : val -> bool.
Hypothesis Hnan : forall v, isnan' (vscale a v) = c_isnan c v.
Let c' := map_cfg (vscale a) isnan' c.

(** C66 for SRBFStrategy and DYCORSStrategy with the default RBF surrogate: for the same designs,
    random draws and controller decisions (including rejections, failures, crashes and resumes),
    the run with the objective multiplied by [a] is the same run with all values multiplied by
    [a]: same proposals, same exceptions, same restarts, same checkpoint. *)
Theorem C66_srbf : forall d ops,
  Strategy.run c' (srbf_rbf q dim dist dtol num_cand eta c' weights) d srbf0 (map (map_op (vscale a) (fun z => z)) ops) =
  map_sys (vscale a) (scale_srbf a) (Strategy.run c (srbf_rbf q dim dist dtol num_cand eta c weights) d srbf0 ops).
Proof using Ha WB Hnan.
  intros d ops. apply run_scale; [exact Hnan|]. intros z s n ws r. unfold srbf_rbf_search. rewrite center_scale. destruct (center s) as [xb|]; [|reflexivity]. cbn [rbind].
  change (sur (map_base (vscale a) s)) with (map_sur (vscale a) (sur s)). rewrite rbf_predict_scale. destruct (rbf_predict q dim eta (sur s) xb); [|reflexivity]. cbn [rescaled rbind].
  apply srbf_search_scale. exact predicted_scale.
Qed.
Theorem C66_dycors : forall d ops,
  Strategy.run c' (dycors_rbf q dim dist dtol num_cand eta c' weights) d srbf0 (map (map_op (vscale a) (fun z => z)) ops) =
  map_sys (vscale a) (scale_srbf a) (Strategy.run c (dycors_rbf q dim dist dtol num_cand eta c weights) d srbf0 ops).
Proof using Ha WB Hnan.
  intros d ops. apply run_scale; [exact Hnan|]. intros z s n ws r. unfold dycors_rbf_search. rewrite center_scale. destruct (center s) as [xb|]; [|reflexivity]. cbn [rbind].
  change (sur (map_base (vscale a) s)) with (map_sur (vscale a) (sur s)). rewrite rbf_predict_scale. destruct (rbf_predict q dim eta (sur s) xb); [|reflexivity]. cbn [rescaled rbind].
  apply dycors_search_scale. exact predicted_scale.
Qed.
End Rbf.
End Runs.
