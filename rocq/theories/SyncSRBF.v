(** * C67 for SRBFStrategy and DYCORSStrategy. *)
From Coq Require Import List Arith ZArith Lia Bool QArith Qabs Reals Lra Qreals Permutation.
From Verif Require Import Base PyList Strategy StrategySpec StrategyProofs StrategyInv StrategyInv2
  StrategyInv3 StrategyInv4 PropStrategy SRBF SRBFProofs SRBFInv PropSRBF Box PropBox Cand PropCand EndToEnd
  SyncRun Lin RBF PropRBF PropSolve RBFEquiv SRBFRun SyncOrder.
Import ListNotations.

Set Implicit Arguments.
Local Close Scope Q_scope.
Local Open Scope R_scope.

(** Values that are equal as numbers. *)
Definition veq (a b : val) : Prop := match a, b with Fin x, Fin y => (x == y)%Q | PInf, PInf => True | _, _ => False end.

Lemma veq_refl : forall a, veq a a.
Proof. intros [x|]; cbn; [reflexivity|exact I]. Qed.
Lemma veq_sym : forall a b, veq a b -> veq b a.
Proof. intros [x|] [y|]; cbn; auto. intros H. symmetry. exact H. Qed.
Lemma veq_trans : forall a b d, veq a b -> veq b d -> veq a d.
Proof. intros [x|] [y|] [z|]; cbn; try tauto. intros A B. rewrite A. exact B. Qed.
Lemma veq_of : forall a b, vlt a b = false -> vlt b a = false -> veq a b.
Proof. intros [x|] [y|]; cbn; try discriminate; auto. rewrite !Qlt_b_false. intros A B. apply Qle_antisym; assumption. Qed.
Lemma improves_veq : forall v v' b b', veq v v' -> veq b b' -> improves v b = improves v' b'.
Proof.
  intros v v' [b|] [b'|] H1 H2; try contradiction; [|reflexivity]. cbn [improves]. destruct v as [x|], v' as [x'|]; try contradiction; [|reflexivity].
  cbn [vlt]. cbn in H1, H2. apply eq_true_iff_eq. rewrite !Qlt_b_iff. rewrite H1, H2. reflexivity.
Qed.
Lemma vmin_perm : forall a l b l', Permutation (a :: l) (b :: l') -> veq (vmin a l) (vmin b l').
Proof.
  intros a l b l' H. apply veq_of.
  - apply vmin_le. apply (Permutation_in _ H). apply vmin_in.
  - apply vmin_le. apply (Permutation_in _ (Permutation_sym H)). apply vmin_in.
Qed.

(** ** The subclass state up to the order of completions *)
Record Eeq (e1 e2 : srbf) : Prop := mkEeq {
  ee_status : s_status e1 = s_status e2;
  ee_fail : s_failcount e1 = s_failcount e2;
  ee_radius : s_radius e1 = s_radius e2;
  ee_best : veq (s_fbest e1) (s_fbest e2);
  ee_queue : Permutation (s_queue e1) (s_queue e2);
  ee_next : s_next e1 = s_next e2;
  ee_used : s_used e1 = s_used e2
}.

Section Hooks.
Variables P O : Type.
Variable c : cfg P val.
Variable weights : list Q.
Variable dim : nat.
Variable f : P -> val.
Variable T : P -> Prop.
Variable srch : O -> cand_search P.
Hypothesis Hsync : c_async c = false.
Hypothesis Hsrch : forall o s1 s2 n ws r, similar f T s1 s2 -> srch o s1 n ws r = srch o s2 n ws r.
Let hk := hooks_with srch (srbf_strategy c weights dim).
Let ft := failtol_of (c_async c) dim (c_batch c).

Definition push (l : list val) (e : srbf) : srbf := mkSrbf (s_status e) (s_failcount e) (s_radius e) (s_fbest e) (s_queue e ++ l) (s_next e) (s_steps e) (s_used e).
Definition adjusted (e : srbf) : srbf * bool := match adjust_step ft e with Ok (e', _, cv) => (e', cv) | Err _ => (e, false) end.
Definition fut (k : kind) (e : srbf) (l : list P) : srbf * bool :=
  match k, l with KAdapt, _ :: _ => adjusted (push (map f l) e) | _, _ => (e, false) end.

Lemma adjusted_eq : forall e1 e2, Eeq e1 e2 -> feq Eeq (adjusted e1) (adjusted e2).
Proof using.
  intros e1 e2 [A B C D E F G]. unfold adjusted, adjust_step.
  destruct (s_queue e1) as [|v1 l1] eqn:Q1; destruct (s_queue e2) as [|v2 l2] eqn:Q2.
  - split; [constructor; cbn; auto; rewrite Q1, Q2; constructor|reflexivity].
  - apply Permutation_length in E. discriminate.
  - apply Permutation_length in E. discriminate.
  - pose proof (vmin_perm E) as VM. rewrite <- A, <- B, <- C, (improves_veq _ _ _ _ VM D).
    split; [|reflexivity]. cbn [fst]. constructor; cbn; auto.
    destruct (improves (vmin v2 l2) (s_fbest e2)); [exact VM|exact D].
Qed.
Lemma Eeq_refl : forall e, Eeq e e.
Proof using. intros e. constructor; auto. apply veq_refl. Qed.

Lemma orderly_srbf : orderly hk f Eeq fut T.
Proof using Hsync Hsrch.
  assert (PE : forall l l' e e', Permutation l l' -> Eeq e e' -> Eeq (push l e) (push l' e')).
  { intros l l' e e' HP [A B C D E F G]. constructor; cbn; auto. apply Permutation_app; assumption. }
  constructor.
  - exact Eeq_refl.
  - intros e e' [A B C D E F G]. constructor; auto; [apply veq_sym, D|apply Permutation_sym, E].
  - intros e1 e2 e3 [A B C D E F G] [A' B' C' D' E' F' G']. constructor; try congruence; [eapply veq_trans; eassumption|eapply Permutation_trans; eassumption].
  - intros [|] e; reflexivity.
  - intros [|] e l l' HP; [split; [apply Eeq_refl|reflexivity]|]. unfold fut. destruct l as [|a l], l' as [|a' l'].
    + split; [apply Eeq_refl|reflexivity].
    + apply Permutation_length in HP. discriminate.
    + apply Permutation_length in HP. discriminate.
    + apply adjusted_eq. apply PE; [apply Permutation_map, HP|apply Eeq_refl].
  - intros [|] e e' l HE; [split; [exact HE|reflexivity]|]. unfold fut. destruct l as [|a l]; [split; [exact HE|reflexivity]|].
    apply adjusted_eq. apply PE; [reflexivity|exact HE].
  - intros e s x ev e' l H. injection H as <-. split; [apply Eeq_refl|reflexivity].
  - intros e s x ev e' n cv l H HF HL. cbn [hk hk_adapt_completed hooks_with srbf_strategy srbf_hooks] in H. unfold srbf_adapt_completed in H.
    rewrite (proj2 (Z.ltb_lt _ _) HF), Hsync in H. fold (push [f x] e) in H.
    destruct l as [|y l].
    + destruct (proj1 HL eq_refl) as [K1 K2]. rewrite K1, K2 in H. cbn [nonempty negb andb Z.eqb] in H. split; [congruence|].
      cbn [fut fst snd map]. rewrite orb_false_r. unfold adjusted, ft. rewrite Hsync, H. split; [apply Eeq_refl|reflexivity].
    + assert (K : negb (nonempty (batch_queue s)) && (pending_evals s =? 0)%Z = false).
      { apply andb_false_iff. destruct (batch_queue s) eqn:K1; [|left; reflexivity]. right. apply Z.eqb_neq. intros K2. discriminate (proj2 HL (conj eq_refl K2)). }
      rewrite K in H. injection H as <- <- <-. split; [reflexivity|]. cbn [orb fut map].
      replace (push (f y :: map f l) (push [f x] e)) with (push (f x :: f y :: map f l) e); [split; [apply Eeq_refl|reflexivity]|].
      unfold push. cbn. rewrite <- app_assoc. reflexivity.
  - intros e1 e2 s1 s2 n o e1' e2' r1 r2 SM HE G1 G2. cbn [hk hk_generate hooks_with srbf_strategy srbf_hooks] in G1, G2. unfold srbf_generate in G1, G2.
    pose proof HE as [A B C D E F G]. rewrite <- F, <- C in G2.
    apply rbind_ok in G1. destruct G1 as [w [W1 G1]]. rewrite W1 in G2. cbn [rbind] in G2. rewrite <- (@Hsrch o s1 s2 _ _ _ SM) in G2.
    apply rbind_ok in G1. destruct G1 as [pts [W2 G1]]. rewrite W2 in G2. cbn [rbind] in G2.
    apply rbind_ok in G1. destruct G1 as [rows [W3 G1]]. rewrite W3 in G2. cbn [rbind] in G2.
    injection G1 as <- <-. injection G2 as <- <-. split; [reflexivity|]. constructor; cbn; auto; congruence.
  - intros e e' [A B C D E F G]. constructor; cbn; auto; exact I.
  - intros e s x v ev e' n cv H Hn. cbn [hk hk_adapt_completed hooks_with srbf_strategy srbf_hooks] in H. unfold srbf_adapt_completed in H. rewrite Hsync in H.
    destruct (ev_last s <? ev)%Z; [|injection H as <- <- <-; lia].
    destruct (negb (nonempty (batch_queue s)) && (pending_evals s =? 0)%Z) eqn:K; [|injection H as <- <- <-; lia].
    apply andb_prop in K. apply Z.eqb_eq, K.
Qed.
End Hooks.

(** ** The candidate search *)
Lemma min_dist_perm : forall A (dist : A -> A -> R) T1 T2 x, Permutation T1 T2 -> min_dist dist T1 x = min_dist dist T2 x.
Proof.
  intros A dist T1 T2 x HP. destruct T1 as [|a T1], T2 as [|b T2]; [reflexivity|apply Permutation_length in HP; discriminate|apply Permutation_length in HP; discriminate|].
  unfold min_dist. f_equal. change (dist x a) with (dist x a). apply (Permutation_map (dist x)) in HP. cbn [map] in HP.
  assert (LE : forall u v l l', Permutation (u :: l) (v :: l') -> Rminl u l <= Rminl v l').
  { intros u v l l' K. pose proof (Rminl_in l' v) as IN. apply (Permutation_in _ (Permutation_sym K)) in IN.
    destruct (Rminl_le l u) as [B1 B2]. destruct IN as [<-|IN]; [exact B1|exact (B2 _ IN)]. }
  apply Rle_antisym; apply LE; [exact HP|apply Permutation_sym, HP].
Qed.
Lemma mapR_ext : forall A B (g h : A -> res B) l, (forall x, g x = h x) -> mapR g l = mapR h l.
Proof. intros A B g h l E. induction l as [|a l IH]; [reflexivity|]. cbn [mapR]. rewrite E, IH. reflexivity. Qed.
Lemma wdm_perm : forall A (dist : A -> A -> R) pred pred' n T1 T2 cand ws dtol, Permutation T1 T2 -> (forall x, pred x = pred' x) ->
  weighted_distance_merit dist pred n T1 cand ws dtol = weighted_distance_merit dist pred' n T2 cand ws dtol.
Proof.
  intros A dist pred pred' n T1 T2 cand ws dtol HP HE. unfold weighted_distance_merit.
  rewrite (mapR_ext (min_dist dist T1) (min_dist dist T2)) by (intros; apply min_dist_perm, HP). rewrite (map_ext _ _ HE). reflexivity.
Qed.

(** No two of these points have the same value. *)
Definition no_ties {P} (f : P -> val) (S : P -> Prop) : Prop := forall x y, S x -> S y -> veq (f x) (f y) -> x = y.

Lemma center_perm : forall P (f : P -> val) T s1 s2, no_ties f T -> similar f T s1 s2 -> center s1 = center s2.
Proof.
  intros P f T s1 s2 NT SM. unfold center. destruct (sim_fX SM) as [-> ->]. pose proof (sim_X SM) as HP. pose proof (sim_T SM) as HT.
  rewrite Forall_forall in HT. set (X1 := X_ s1) in *. set (X2 := X_ s2) in *. clearbody X1 X2.
  destruct X1 as [|a X1]; [apply Permutation_nil in HP; subst X2; reflexivity|].
  assert (N2 : X2 <> []) by (intros ->; apply Permutation_sym, Permutation_nil in HP; discriminate).
  assert (BO : forall X, X <> [] -> exists xb, x_best X (map toxr (map f X)) = Ok xb /\ In xb X /\ forall y, In y X -> vlt (f y) (f xb) = false).
  { intros X HX. destruct (@x_best_ok P X (map toxr (map f X))) as [xb [E [[k [v [B1 [B2 [B3 _]]]]] B4]]]; [exact HX|rewrite !map_length; reflexivity|apply toxr_nan|].
    exists xb. split; [exact E|]. split; [exact B4|]. intros y Hy. rewrite !nth_error_map, B1 in B2. injection B2 as <-. rewrite <- xlt_toxr. apply B3. do 2 apply in_map. exact Hy. }
  destruct (BO (a :: X1)) as [x1 [E1 [I1 M1]]]; [discriminate|]. destruct (BO X2 N2) as [x2 [E2 [I2 M2]]]. rewrite E1, E2. f_equal.
  pose proof (Permutation_in _ HP I1) as J1. pose proof (Permutation_in _ (Permutation_sym HP) I2) as J2.
  apply NT; [auto|auto|]. apply veq_of; [apply M2, J1|apply M1, J2].
Qed.

Section Full.
Variable q : prob.
Variable dim : nat.
Variable dist : pt -> pt -> R.
Variable predict : list (pt * val) -> pt -> R.
Variable dtol : R.
Variable num_cand : option nat.
Variable c : cfg pt val.
Variable weights : list Q.
Variable f : pt -> val.
Hypothesis Hsync : c_async c = false.
Hypothesis Hpeqb : forall x y, c_peqb c x y = true <-> x = y.
Hypothesis Hpred : forall d d' x, Permutation d d' -> predict d x = predict d' x.

Lemma srbf_search_perm : forall T, no_ties f T -> forall z s1 s2 n ws r, similar f T s1 s2 ->
  srbf_search q dist predict dtol num_cand z s1 n ws r = srbf_search q dist predict dtol num_cand z s2 n ws r.
Proof using Hpred.
  intros T NT z s1 s2 n ws r SM. unfold srbf_search. rewrite (center_perm NT SM). destruct (center s2) as [xb|] eqn:C2; [|reflexivity]. cbn [rbind].
  unfold candidate_srbf. pose proof (center_perm NT SM) as CP. unfold center in CP, C2. rewrite CP, C2. cbn [rbind].
  destruct (srbf_cand _ _ _ _ _ _) as [cand|]; [|reflexivity]. cbn [rbind].
  destruct (sim_idle SM) as [_ [_ [_ [_ [-> ->]]]]]. rewrite !app_nil_r. apply wdm_perm; [exact (sim_X SM)|]. intros x. apply Hpred, (sim_sur SM).
Qed.
Lemma dycors_search_perm : forall T, no_ties f T -> forall z s1 s2 n ws r, similar f T s1 s2 ->
  dycors_search q dist predict dtol num_cand z s1 n ws r = dycors_search q dist predict dtol num_cand z s2 n ws r.
Proof using Hpred.
  intros T NT z s1 s2 n ws r SM. unfold dycors_search. rewrite (center_perm NT SM). destruct (center s2) as [xb|] eqn:C2; [|reflexivity]. cbn [rbind].
  unfold candidate_dycors. pose proof (center_perm NT SM) as CP. unfold center in CP, C2. rewrite CP, C2. cbn [rbind].
  destruct (dycors_cand _ _ _ _ _ _ _ _) as [cand|]; [|reflexivity]. cbn [rbind].
  destruct (sim_idle SM) as [_ [_ [_ [_ [-> ->]]]]]. rewrite !app_nil_r. apply wdm_perm; [exact (sim_X SM)|]. intros x. apply Hpred, (sim_sur SM).
Qed.

(** C67 for SRBFStrategy and DYCORSStrategy with any surrogate whose predictions do not depend on the
    order in which the data were added.  [draws k]: the random numbers of the k-th search. *)
Definition distinct_values (h1 h2 : list (event pt val)) : Prop :=
  no_ties f (fun x => exists v, In (x, v) (completed h1) \/ In (x, v) (completed h2)).
Theorem C67_srbf_full : let hk := srbf_full q dim dist predict dtol num_cand c weights in forall designs draws d ms1 ms2 p1 p2,
  y_proc (play c hk f designs draws d srbf0 ms1) = Some p1 -> y_proc (play c hk f designs draws d srbf0 ms2) = Some p2 ->
  distinct_values (p_hist p1) (p_hist p2) -> same_course (p_hist p1) (p_hist p2).
Proof using Hsync Hpeqb Hpred.
  intros hk designs draws d ms1 ms2 p1 p2 H1 H2 NT.
  refine (order_free_runs c designs draws Hsync Hpeqb (@orderly_srbf pt _ c weights dim f _ _ Hsync (srbf_search_perm NT)) _ _ _ _ H1 H2 _).
  intros x v [H|H]; exists v; auto.
Qed.
Theorem C67_dycors_full : let hk := dycors_full q dim dist predict dtol num_cand c weights in forall designs draws d ms1 ms2 p1 p2,
  y_proc (play c hk f designs draws d srbf0 ms1) = Some p1 -> y_proc (play c hk f designs draws d srbf0 ms2) = Some p2 ->
  distinct_values (p_hist p1) (p_hist p2) -> same_course (p_hist p1) (p_hist p2).
Proof using Hsync Hpeqb Hpred.
  intros hk designs draws d ms1 ms2 p1 p2 H1 H2 NT.
  refine (order_free_runs c designs draws Hsync Hpeqb (@orderly_srbf pt _ c weights dim f _ _ Hsync (dycors_search_perm NT)) _ _ _ _ H1 H2 _).
  intros x v [H|H]; exists v; auto.
Qed.
End Full.

(** ** With the default RBF surrogate *)
Section Rbf.
Variable q : prob.
Variable dim : nat.
Variable dist : pt -> pt -> R.
Variable dtol : R.
Variable num_cand : option nat.
Variable eta : R.
Variable c : cfg pt val.
Variable weights : list Q.
Variable f : pt -> val.
Hypothesis Hsync : c_async c = false.
Hypothesis Hpeqb : forall x y, c_peqb c x y = true <-> x = y.

Definition real (v : val) : R := match v with Fin a => Q2R a | PInf => 0 end.
Lemma num_real : forall l, mapR num l = if forallb (fun v => match v with Fin _ => true | PInf => false end) l then Ok (map real l) else Err ValueError.
Proof using.
  induction l as [|v l IH]; [reflexivity|]. cbn [mapR forallb map]. destruct v as [a|]; cbn [num rbind andb]; [|reflexivity]. rewrite IH.
  destruct (forallb _ l); reflexivity.
Qed.
Lemma forallb_perm : forall A (g : A -> bool) l l', Permutation l l' -> forallb g l = forallb g l'.
Proof using.
  intros A g l l' H. apply eq_true_iff_eq. rewrite !forallb_forall. split; intros K x Hx; apply K; [apply (Permutation_in _ (Permutation_sym H) Hx)|apply (Permutation_in _ H Hx)].
Qed.
Lemma rbf_predict_perm : forall d d' x, Permutation d d' -> rbf_predict q dim eta d x = rbf_predict q dim eta d' x.
Proof using.
  intros d d' x HP. unfold rbf_predict. rewrite !num_real.
  rewrite (@forallb_perm _ _ (map snd d) (map snd d')) by (apply Permutation_map, HP).
  destruct (forallb _ (map snd d')); [|reflexivity]. cbn [rbind].
  apply C65_order; [apply C65_transformations|apply failed_nil_add|apply failed_nil_add|].
  assert (CE : forall e : list (pt * val), contents dim [Add (map fst e) (map real (map snd e))] =
    if forallb (fun x : pt => (length x =? dim)%nat) (map fst e : list pt) then map (fun xv => (fst xv, real (snd xv))) e else []).
  { intros e. cbn [contents fold_left]. unfold right_shape. rewrite !map_length, Nat.eqb_refl. cbn [andb]. destruct (forallb _ _); [|reflexivity]. cbn [app].
    induction e as [|[y v] e IH]; [reflexivity|]. cbn. f_equal. exact IH. }
  rewrite !CE. pose proof (forallb_perm (fun x : pt => (length x =? dim)%nat) (Permutation_map (fst : pt * val -> pt) HP)) as FP.
  set (b1 := forallb _ _) in FP. set (b2 := forallb _ _) in FP. change (Permutation (if b1 then map (fun xv => (fst xv, real (snd xv))) d else []) (if b2 then map (fun xv => (fst xv, real (snd xv))) d' else [])).
  clearbody b1 b2. destruct b1, b2; try discriminate; [apply Permutation_map, HP|constructor].
Qed.
Lemma predicted_perm : forall d d' x, Permutation d d' -> predicted q dim eta d x = predicted q dim eta d' x.
Proof using. intros d d' x HP. unfold predicted. rewrite (rbf_predict_perm x HP). reflexivity. Qed.

Lemma srbf_rbf_perm : forall T, no_ties f T -> forall z s1 s2 n ws r, similar f T s1 s2 ->
  srbf_rbf_search q dim dist dtol num_cand eta z s1 n ws r = srbf_rbf_search q dim dist dtol num_cand eta z s2 n ws r.
Proof using.
  intros T NT z s1 s2 n ws r SM. unfold srbf_rbf_search. rewrite (center_perm NT SM). destruct (center s2) as [xb|]; [|reflexivity]. cbn [rbind].
  rewrite (rbf_predict_perm xb (sim_sur SM)). destruct (rbf_predict q dim eta (sur s2) xb); [|reflexivity]. cbn [rbind].
  apply (@srbf_search_perm q dist (predicted q dim eta) dtol num_cand f predicted_perm T NT); exact SM.
Qed.
Lemma dycors_rbf_perm : forall T, no_ties f T -> forall z s1 s2 n ws r, similar f T s1 s2 ->
  dycors_rbf_search q dim dist dtol num_cand eta z s1 n ws r = dycors_rbf_search q dim dist dtol num_cand eta z s2 n ws r.
Proof using.
  intros T NT z s1 s2 n ws r SM. unfold dycors_rbf_search. rewrite (center_perm NT SM). destruct (center s2) as [xb|]; [|reflexivity]. cbn [rbind].
  rewrite (rbf_predict_perm xb (sim_sur SM)). destruct (rbf_predict q dim eta (sur s2) xb); [|reflexivity]. cbn [rbind].
  apply (@dycors_search_perm q dist (predicted q dim eta) dtol num_cand f predicted_perm T NT); exact SM.
Qed.

Theorem C67_srbf : let hk := srbf_rbf q dim dist dtol num_cand eta c weights in forall designs draws d ms1 ms2 p1 p2,
  y_proc (play c hk f designs draws d srbf0 ms1) = Some p1 -> y_proc (play c hk f designs draws d srbf0 ms2) = Some p2 ->
  distinct_values f (p_hist p1) (p_hist p2) -> same_course (p_hist p1) (p_hist p2).
Proof using Hsync Hpeqb.
  intros hk designs draws d ms1 ms2 p1 p2 H1 H2 NT.
  refine (order_free_runs c designs draws Hsync Hpeqb (@orderly_srbf pt _ c weights dim f _ _ Hsync (srbf_rbf_perm NT)) _ _ _ _ H1 H2 _).
  intros x v [H|H]; exists v; auto.
Qed.
Theorem C67_dycors : let hk := dycors_rbf q dim dist dtol num_cand eta c weights in forall designs draws d ms1 ms2 p1 p2,
  y_proc (play c hk f designs draws d srbf0 ms1) = Some p1 -> y_proc (play c hk f designs draws d srbf0 ms2) = Some p2 ->
  distinct_values f (p_hist p1) (p_hist p2) -> same_course (p_hist p1) (p_hist p2).
Proof using Hsync Hpeqb.
  intros hk designs draws d ms1 ms2 p1 p2 H1 H2 NT.
  refine (order_free_runs c designs draws Hsync Hpeqb (@orderly_srbf pt _ c weights dim f _ _ Hsync (dycors_rbf_perm NT)) _ _ _ _ H1 H2 _).
  intros x v [H|H]; exists v; auto.
Qed.
End Rbf.
