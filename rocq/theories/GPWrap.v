(** * GPRegressor (C63): pySOT/surrogate/gp.py:51-86, the standardisation of the values around the
    scikit-learn regressor.

    Exact reals.  The scikit-learn regressor is a parameter: [sk_fit] (GaussianProcessRegressor.fit
    on unit-box points and standardised values), [sk_mean] and [sk_std]
    (GaussianProcessRegressor.predict with return_std). *)
From Coq Require Import List Arith ZArith Lia Bool Reals Lra.
From Verif Require Import Base Box Design Lin LinProofs RBF PropBox PropRBF PropSurr RBFEquiv.
Import ListNotations.

Set Implicit Arguments.
Local Open Scope R_scope.

(** np.mean, np.std of a non-empty array *)
Definition np_mean (l : list R) : R := lsum l / INR (length l).
(** numpy.std, gp.py:55. *)
Definition np_std (l : list R) : R := sqrt (np_mean (map (fun v => (v - np_mean l) ^ 2) l)).

Section GP.
Variable SK : Type.
Variable sk_fit : list pt -> list R -> res SK.
Variable sk_mean sk_std : SK -> pt -> R.
Variable dim : nat.
Variables lb ub : pt.
Variable out : list R -> list R.

(** self._mu, self._sigma and the fitted regressor *)
(** Attributes _mu, _sigma, model: gp.py:55-57. *)
Definition gp_model : Type := (R * R * SK)%type.
(** gp.py:54: max([np.std(fX), 1e-6]) *)
Definition gp_sigma (y : list R) : R := Rmax (np_std y) (/ 1000000).
(** gp.py:55 *)
Definition standardised (y : list R) : list R := map (fun v => (v - np_mean y) / gp_sigma y) y.
(** _fit, gp.py:49-58, without the test of self.updated (which is in [l_fit]).  An empty array
    (mean nan) makes scikit-learn raise ValueError. *)
Definition gp_learn (U : list pt) (y : list R) : res gp_model :=
  match y with
  | [] => Err ValueError
  | _ => do m <- sk_fit U (standardised y); Ok (np_mean y, gp_sigma y, m)
  end.
(** predict for one row, gp.py:60-71, and predict_std, gp.py:73-86, after the fit *)
Definition gp_use (m : gp_model) (u : pt) : R := let '(mu, sigma, k) := m in mu + sigma * sk_mean k u.
(** gp.py:84-85. *)
Definition gp_use_std (m : gp_model) (u : pt) : R := let '(mu, sigma, k) := m in sigma * sk_std k u.

(** What predict(x) and predict_std(x) return or raise after a history of calls. *)
(** gp.py:60-71 after a history of calls. *)
Definition gp_answer (h : list call) (x : pt) : res R :=
  snd (l_predict lb ub out gp_learn gp_use x (l_run dim lb ub out gp_learn gp_use h)).
(** gp.py:73-85 after a history of calls. *)
Definition gp_answer_std (h : list call) (x : pt) : res R :=
  snd (l_predict lb ub out gp_learn gp_use_std x (l_run dim lb ub out gp_learn gp_use h)).

(** The standard deviation does not enter the state, so the run is that with [gp_use]. *)
Lemma run_use : forall M learn (use use' : M -> pt -> R) h, l_run dim lb ub out learn use h = l_run dim lb ub out learn use' h.
Proof using.
  intros M learn use use' h. induction h as [|c h IH] using rev_ind; [reflexivity|]. unfold l_run. rewrite !fold_left_app.
  fold (l_run dim lb ub out learn use h). fold (l_run dim lb ub out learn use' h). rewrite IH. cbn [fold_left]. destruct c; try reflexivity.
  cbn [l_step]. unfold l_predict. destruct (l_fit out learn _) as [s' [[]|e]]; reflexivity.
Qed.
Lemma gp_answer_eq : forall h x, gp_answer h x =
  (do m <- gp_learn (to_unit_box (map fst (contents dim h)) lb ub) (out (map snd (contents dim h))); Ok (gp_use m (to_unit x lb ub))).
Proof using.
  intros h x. destruct (C45_sklearn dim lb ub out gp_learn gp_use h) as [_ [_ [_ A]]]. apply A.
Qed.
Lemma gp_answer_std_eq : forall h x, gp_answer_std h x =
  (do m <- gp_learn (to_unit_box (map fst (contents dim h)) lb ub) (out (map snd (contents dim h))); Ok (gp_use_std m (to_unit x lb ub))).
Proof using.
  intros h x. unfold gp_answer_std. rewrite (run_use gp_learn gp_use gp_use_std). destruct (C45_sklearn dim lb ub out gp_learn gp_use_std h) as [_ [_ [_ A]]]. apply A.
Qed.
End GP.

(** ** The standardised values *)
Lemma lsum_map_lin : forall a b l, lsum (map (fun v => a * v + b) l) = a * lsum l + INR (length l) * b.
Proof.
  intros a b l. induction l as [|v l IH]; [simpl; ring|]. cbn [map lsum fold_right length]. fold (lsum (map (fun v => a * v + b) l)). fold (lsum l). rewrite IH, S_INR. ring.
Qed.
Lemma len_pos : forall (l : list R), l <> [] -> 0 < INR (length l).
Proof. intros l H. apply lt_0_INR. destruct l; [congruence|simpl; lia]. Qed.
Lemma mean_lin : forall a b l, l <> [] -> np_mean (map (fun v => a * v + b) l) = a * np_mean l + b.
Proof. intros a b l H. unfold np_mean. rewrite lsum_map_lin, map_length. pose proof (len_pos H). field. lra. Qed.
Lemma std_lin : forall a b l, 0 <= a -> np_std (map (fun v => a * v + b) l) = a * np_std l.
Proof.
  intros a b l Ha. destruct l as [|v0 l0]; [|].
  - unfold np_std, np_mean. simpl. unfold Rdiv. rewrite Rmult_0_l, sqrt_0. ring.
  - set (l := v0 :: l0) in *. assert (NE : l <> []) by discriminate. unfold np_std. rewrite (mean_lin a b NE), map_map.
    rewrite (map_ext (fun v => (a * v + b - (a * np_mean l + b)) ^ 2) (fun v => (a * a) * ((v - np_mean l) ^ 2) + 0)) by (intros; ring).
    rewrite <- (map_map (fun v => (v - np_mean l) ^ 2) (fun v => (a * a) * v + 0)).
    rewrite mean_lin by discriminate. rewrite Rplus_0_r. 
    assert (SQ : 0 <= np_mean (map (fun v => (v - np_mean l) ^ 2) l)).
    { unfold np_mean at 1. rewrite map_length. apply Rmult_le_pos; [|left; apply Rinv_0_lt_compat, len_pos, NE].
      clear. generalize (np_mean l) as m. intros m. induction l as [|v l IH]; [simpl; lra|]. cbn [map lsum fold_right]. fold (lsum (map (fun v => (v - m) ^ 2) l)). pose proof (pow2_ge_0 (v - m)). lra. }
    rewrite sqrt_mult by nra. rewrite sqrt_square by exact Ha. reflexivity.
Qed.
Lemma std_nonneg : forall l, 0 <= np_std l.
Proof. intros l. apply sqrt_pos. Qed.
Lemma sigma_pos : forall l, / 1000000 <= gp_sigma l.
Proof. intros l. apply Rmax_r. Qed.

(** C63: never a division by zero; the regressor is fitted to values with mean 0 and standard
    deviation 1 (at most 1 if the spread is below the threshold), in the order of the data. *)
Theorem C63_standardised : forall y, y <> [] ->
  0 < gp_sigma y /\ length (standardised y) = length y /\ np_mean (standardised y) = 0 /\
  (/ 1000000 <= np_std y -> np_std (standardised y) = 1) /\ np_std (standardised y) <= 1 /\
  (forall i j, (i < length y)%nat -> (j < length y)%nat -> (nth i y 0 < nth j y 0 <-> nth i (standardised y) 0 < nth j (standardised y) 0)) /\
  (forall i, (i < length y)%nat -> np_mean y + gp_sigma y * nth i (standardised y) 0 = nth i y 0).
Proof.
  intros y NE. pose proof (sigma_pos y) as SP. assert (S0 : 0 < gp_sigma y) by lra. set (s := gp_sigma y) in *. set (m := np_mean y) in *.
  assert (E : standardised y = map (fun v => / s * v + (- m / s)) y).
  { unfold standardised. apply map_ext. intros v. fold s m. field. lra. }
  assert (SI : 0 < / s) by (apply Rinv_0_lt_compat; exact S0).
  assert (N : forall i, (i < length y)%nat -> nth i (standardised y) 0 = (nth i y 0 - m) / s).
  { intros i Hi. unfold standardised. fold s m. rewrite (nth_indep _ 0 ((fun v => (v - m) / s) 0)) by (rewrite map_length; exact Hi). apply (map_nth (fun v => (v - m) / s)). }
  split; [exact S0|]. split; [unfold standardised; apply map_length|]. split; [|split; [|split; [|split]]].
  - rewrite E, mean_lin by exact NE. fold m. field. lra.
  - intros H. rewrite E, std_lin by lra. assert (s = np_std y) as -> by (unfold s, gp_sigma; apply Rmax_left; exact H). field. lra.
  - rewrite E, std_lin by lra. apply (Rmult_le_reg_l s); [exact S0|]. rewrite <- Rmult_assoc, Rinv_r, Rmult_1_l, Rmult_1_r by lra. unfold s, gp_sigma. apply Rmax_l.
  - intros i j Hi Hj. rewrite (N i Hi), (N j Hj). unfold Rdiv. split; intros H.
    + apply Rmult_lt_compat_r; [exact SI|lra].
    + apply Rmult_lt_reg_r in H; [lra|exact SI].
  - intros i Hi. rewrite (N i Hi). field. lra.
Qed.

(** C63: predictions and predicted deviations follow an increasing affine change of the values as
    long as the spread stays at or above the threshold 1e-6. *)
Theorem C63_affine : forall SK (sk_fit : list pt -> list R -> res SK) sk_mean sk_std dim lb ub out h h' a b,
  scale_free out -> 0 < a ->
  contents dim h' = map (fun q => (fst q, a * snd q + b)) (contents dim h) ->
  / 1000000 <= np_std (out (map snd (contents dim h))) -> / 1000000 <= a * np_std (out (map snd (contents dim h))) ->
  forall x,
  gp_answer sk_fit sk_mean dim lb ub out h' x = rescaled a b (gp_answer sk_fit sk_mean dim lb ub out h x) /\
  gp_answer_std sk_fit sk_mean sk_std dim lb ub out h' x = rescaled a 0 (gp_answer_std sk_fit sk_mean sk_std dim lb ub out h x).
Proof.
  intros SK sk_fit sk_mean sk_std dim lb ub out h h' a b HS Ha HC H1 H2 x. rewrite !gp_answer_eq, !gp_answer_std_eq. rewrite HC, !map_map. cbn [fst snd].
  rewrite <- (map_map snd (fun v => a * v + b)). rewrite (HS a b _ Ha). set (y := out (map snd (contents dim h))) in *.
  set (U := to_unit_box (map fst (contents dim h)) lb ub).
  change (map (fun x0 : pt * R => fst x0) (contents dim h)) with (map fst (contents dim h)). fold U.
  destruct y as [|v l] eqn:EY; [|].
  { cbn [map gp_learn rbind rescaled]. split; reflexivity. }
  rewrite <- EY in *. assert (NE : y <> []) by (rewrite EY; discriminate).
  assert (S1 : gp_sigma y = np_std y) by (apply Rmax_left; exact H1).
  assert (S2 : gp_sigma (map (fun v => a * v + b) y) = a * gp_sigma y).
  { unfold gp_sigma at 1. rewrite std_lin by lra. rewrite Rmax_left by exact H2. rewrite S1. reflexivity. }
  assert (P0 : 0 < gp_sigma y) by (pose proof (sigma_pos y); lra).
  assert (SZ : standardised (map (fun v => a * v + b) y) = standardised y).
  { unfold standardised. rewrite S2, mean_lin by exact NE. rewrite map_map. apply map_ext. intros w. field. split; lra. }
  assert (L1 : gp_learn sk_fit U y = do m <- sk_fit U (standardised y); Ok (np_mean y, gp_sigma y, m)) by (unfold gp_learn; rewrite EY; reflexivity).
  assert (L2 : gp_learn sk_fit U (map (fun v => a * v + b) y) = do m <- sk_fit U (standardised y); Ok (a * np_mean y + b, a * gp_sigma y, m)).
  { rewrite <- SZ, <- S2, <- (mean_lin a b NE). unfold gp_learn. rewrite EY. reflexivity. }
  rewrite L1, L2. destruct (sk_fit U (standardised y)) as [m|e]; cbn [rbind rescaled gp_use gp_use_std]; [|split; reflexivity].
  split; f_equal; ring.
Qed.

(** Below the threshold this fails: the predicted deviation is then in units of 1e-6. *)
Theorem C63_threshold_refuted : exists (h h' : list call) (a : R), 0 < a /\
  contents 1 h' = map (fun q => (fst q, a * snd q + 0)) (contents 1 h) /\
  let sd := gp_answer_std (fun _ _ => Ok tt) (fun _ _ => 0) (fun _ _ => 1) 1 [0] [1] identity in
  sd h [0] = Ok (/ 1000000) /\ sd h' [0] = Ok (/ 1000000) /\ a = / 2.
Proof.
  assert (S : forall y, np_std [y; y] = 0).
  { intros y. unfold np_std, np_mean. simpl. replace ((y + (y + 0)) / (1 + 1)) with y by field. replace (((y - y) * ((y - y) * 1) + ((y - y) * ((y - y) * 1) + 0)) / (1 + 1)) with 0 by field. apply sqrt_0. }
  exists [Add [[0]; [1]] [2; 2]], [Add [[0]; [1]] [1; 1]], (/ 2). split; [lra|].
  split; [simpl; assert (E : / 2 * 2 + 0 = 1) by lra; rewrite E; reflexivity|]. cbv zeta.
  rewrite !gp_answer_std_eq. cbn [contents fold_left right_shape length Nat.eqb forallb andb combine app map snd gp_learn identity rbind gp_use_std].
  split; [|split; [|reflexivity]]; f_equal; unfold gp_sigma; rewrite S, Rmax_right by lra; ring.
Qed.

(** A data set to which the theorems apply. *)
Example ex_C63 : let h := [Add [[0]; [1]] [0; 2]] in let h' := [Add [[0]] [5]; Predict [1]; Add [[1]] [11]] in
  contents 1 h' = map (fun q => (fst q, 3 * snd q + 5)) (contents 1 h) /\ np_std (identity (map snd (contents 1 h))) = 1 /\ scale_free identity /\
  standardised [0; 2] = [-1; 1].
Proof.
  assert (S : np_std [0; 2] = 1).
  { unfold np_std, np_mean. simpl. match goal with |- sqrt ?e = 1 => replace e with 1 by field end. apply sqrt_1. }
  cbv zeta.
  split; [simpl; assert (E1 : 3 * 0 + 5 = 5) by lra; assert (E2 : 3 * 2 + 5 = 11) by lra; rewrite E1, E2; reflexivity|]. split; [exact S|]. split; [apply C65_transformations|].
  unfold standardised, gp_sigma. rewrite S, Rmax_left by lra. unfold np_mean. simpl. f_equal; [field|]. f_equal. field.
Qed.
