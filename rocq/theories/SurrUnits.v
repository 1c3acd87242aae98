(** * C64: surrogates do not depend on the units in which the variables are given; C65 along
    histories of calls. *)
From Coq Require Import List Arith ZArith Lia Bool Reals Lra Permutation Sorted.
From Verif Require Import Base Box Design Lin LinProofs RBF RBFProofs RBFFit PropBox PropDesign PropRBF PropSurr PropSolve RBFEquiv.
Import ListNotations.

Set Implicit Arguments.
Local Open Scope R_scope.

(** ** Specification *)
(** The coordinates of a point in other units: the box [lb, ub] becomes [lb', ub']. *)
(** Specification, no counterpart in /repo. *)
Definition convert (lb ub lb' ub' x : pt) : pt :=
  map (fun i => nth i lb' 0 + (nth i x 0 - nth i lb 0) * ((nth i ub' 0 - nth i lb' 0) / (nth i ub 0 - nth i lb 0))) (seq 0 (length x)).
(** The same calls with the points converted by [f] and the values by [g]. *)
(** Specification, no counterpart in /repo. *)
Definition convert_call (f : pt -> pt) (g : R -> R) (c : call) : call :=
  match c with
  | Reset => Reset
  | Add xx fx => Add (map f xx) (map g fx)
  | Predict x => Predict (f x)
  | PredictDeriv x => PredictDeriv (f x)
  end.
(** Specification, no counterpart in /repo. *)
Definition keep (v : R) : R := v.

Lemma convert_len : forall lb ub lb' ub' x, length (convert lb ub lb' ub' x) = length x.
Proof. intros. unfold convert. rewrite map_length, seq_length. reflexivity. Qed.
Lemma convert_nth : forall lb ub lb' ub' x i, (i < length x)%nat ->
  nth i (convert lb ub lb' ub' x) 0 = nth i lb' 0 + (nth i x 0 - nth i lb 0) * ((nth i ub' 0 - nth i lb' 0) / (nth i ub 0 - nth i lb 0)).
Proof.
  intros lb ub lb' ub' x i Hi. unfold convert.
  set (f := fun i => nth i lb' 0 + (nth i x 0 - nth i lb 0) * ((nth i ub' 0 - nth i lb' 0) / (nth i ub 0 - nth i lb 0))).
  rewrite (nth_indep _ 0 (f 0%nat)) by (rewrite map_length, seq_length; exact Hi). rewrite map_nth, seq_nth by exact Hi. reflexivity.
Qed.

Section Units.
Variable dim : nat.
Variables lb ub lb' ub' : pt.
Hypothesis B : bounds dim lb ub.
Hypothesis B' : bounds dim lb' ub'.
Let cv := convert lb ub lb' ub'.
Let ch := map (convert_call cv keep).

Lemma to_unit_convert : forall x, length x = dim -> to_unit (cv x) lb' ub' = to_unit x lb ub.
Proof using B B'.
  intros x Hx. assert (HL : length (cv x) = dim) by (unfold cv; rewrite convert_len; exact Hx).
  apply (nth_ext _ _ 0 0).
  - rewrite !(to_unit_len (dim := dim)); auto.
  - intros i Hi. rewrite (to_unit_len B' _ HL) in Hi. rewrite (to_unit_nth B' _ HL Hi), (to_unit_nth B _ Hx Hi).
    unfold cv. rewrite convert_nth by lia. destruct B as [_ [_ B3]]. destruct B' as [_ [_ B4]]. specialize (B3 i Hi). specialize (B4 i Hi). field. lra.
Qed.
Lemma to_unit_box_convert : forall X, Forall (fun x : pt => length x = dim) X -> to_unit_box (map cv X) lb' ub' = to_unit_box X lb ub.
Proof using B B'.
  intros X H. unfold to_unit_box. rewrite map_map. induction H as [|x X H _ IH]; [reflexivity|]. simpl. rewrite IH, to_unit_convert by exact H. reflexivity.
Qed.
Lemma shape_convert : forall xx fx, right_shape dim (map cv xx) (map keep fx) = right_shape dim xx fx.
Proof using.
  intros xx fx. unfold right_shape. rewrite !map_length. f_equal. induction xx as [|x xx IH]; [reflexivity|]. simpl. unfold cv at 1. rewrite convert_len, IH. reflexivity.
Qed.
Lemma shape_dims : forall xx fx, right_shape dim xx fx = true -> Forall (fun x : pt => length x = dim) xx.
Proof using.
  intros xx fx H. apply andb_prop in H. destruct H as [_ H]. rewrite forallb_forall in H. apply Forall_forall. intros x Hx. apply Nat.eqb_eq, H, Hx.
Qed.
Lemma map_keep : forall l, map keep l = l.
Proof using. intros l. apply map_id. Qed.

(** The stored points are only used in unit-box coordinates. *)
(** Specification, no counterpart in /repo. *)
Definition with_X (X : list pt) (s : surr) : surr :=
  {| u_num := u_num s; u_X := X; u_UX := u_UX s; u_fX := u_fX s; u_updated := u_updated s |}.
(** Specification, no counterpart in /repo. *)
Definition rwith_X (X : list pt) (s : rbf) : rbf :=
  {| r_s := with_X X (r_s s); r_L := r_L s; r_U := r_U s; r_piv := r_piv s; r_c := r_c s |}.

Section Rbf.
Variable K : kernel.
Variable T : tail.
Variable eta : R.
Variable out : list R -> list R.

Lemma coefs_X : forall X s, coefs T out (rwith_X X s) = (rwith_X X (fst (coefs T out s)), snd (coefs T out s)).
Proof using.
  intros X s. unfold coefs. cbn [rwith_X with_X r_s r_L r_U r_piv r_c u_num u_X u_UX u_fX u_updated].
  destruct (solve_lower _ _ _) as [y|e]; [|reflexivity]. destruct (solve_upper _ _ _) as [c|e]; reflexivity.
Qed.
Lemma fit_initial_X : forall X s, fit_initial K T eta out (rwith_X X s) = (rwith_X X (fst (fit_initial K T eta out s)), snd (fit_initial K T eta out s)).
Proof using.
  intros X s. unfold fit_initial. cbn [rwith_X with_X r_s r_L r_U r_piv r_c u_num u_X u_UX u_fX u_updated].
  destruct (_ <? _)%nat; [reflexivity|]. destruct (lu_factor _ _) as [LU sw].
  exact (coefs_X X {| r_s := r_s s; r_L := madd (tril1 LU) eye; r_U := triu LU; r_piv := piv_of (t_dim_tail T + u_num (r_s s)) sw; r_c := r_c s |}).
Qed.
Lemma fit_X : forall X s, fit K T eta out (rwith_X X s) = (rwith_X X (fst (fit K T eta out s)), snd (fit K T eta out s)).
Proof using.
  intros X s. unfold fit. cbn [rwith_X with_X r_s r_L r_U r_piv r_c u_num u_X u_UX u_fX u_updated].
  destruct (u_updated (r_s s)); [reflexivity|]. destruct (r_c s) as [c|]; [|exact (fit_initial_X X s)].
  destruct (solve_cols _ _) as [ab|e]; [|reflexivity]. destruct (cholesky _ _) as [C|].
  - exact (coefs_X X {| r_s := r_s s; r_L := _; r_U := _; r_piv := _; r_c := Some c |}).
  - exact (fit_initial_X X {| r_s := r_s s; r_L := r_L s; r_U := r_U s; r_piv := r_piv s; r_c := None |}).
Qed.

Notation run1 := (PropRBF.run dim lb ub K T eta out).
Notation run2 := (PropRBF.run dim lb' ub' K T eta out).

Lemma run_convert : forall h, Forall (fun x : pt => length x = dim) (u_X (r_s (run1 h))) /\
  run2 (ch h) = rwith_X (map cv (u_X (r_s (run1 h)))) (run1 h).
Proof using B B'.
  intros h. induction h as [|c h IH] using rev_ind; [split; [constructor|reflexivity]|].
  destruct IH as [F E]. unfold ch. rewrite map_app. cbn [map]. rewrite !PropRBF.run_snoc. fold (ch h). rewrite E.
  set (s := run1 h) in *. destruct c as [|xx fx|x|x]; cbn [convert_call PropRBF.step].
  - split; [constructor|reflexivity].
  - unfold r_add, u_add. fold (right_shape dim xx fx). fold (right_shape dim (map cv xx) (map keep fx)). rewrite shape_convert.
    destruct (right_shape dim xx fx) eqn:ES; cbn [rbind]; [|split; [exact F|reflexivity]].
    pose proof (shape_dims _ _ ES) as FX. split.
    + cbn [r_s u_X]. apply Forall_app. split; assumption.
    + unfold rwith_X, with_X. cbn [r_s r_L r_U r_piv r_c u_num u_X u_UX u_fX u_updated]. rewrite map_keep, map_length, <- map_app.
      rewrite to_unit_box_convert by (apply Forall_app; split; assumption). reflexivity.
  - rewrite !PropRBF.predict_fit. rewrite fit_X. cbn [fst].
    assert (SX : u_X (r_s (fst (fit K T eta out s))) = u_X (r_s s)).
    { destruct (C45_contents dim lb ub K T eta out (h ++ [Predict x])) as [A _]. destruct (C45_contents dim lb ub K T eta out h) as [A' _].
      cbv zeta in A, A'. rewrite PropRBF.run_snoc in A. cbn [PropRBF.step] in A. rewrite PropRBF.predict_fit in A. rewrite contents_snoc in A. unfold s. rewrite A, A'. reflexivity. }
    rewrite SX. split; [exact F|reflexivity].
  - rewrite !PropRBF.deriv_fit. rewrite fit_X. cbn [fst].
    assert (SX : u_X (r_s (fst (fit K T eta out s))) = u_X (r_s s)).
    { destruct (C45_contents dim lb ub K T eta out (h ++ [Predict x])) as [A _]. destruct (C45_contents dim lb ub K T eta out h) as [A' _].
      cbv zeta in A, A'. rewrite PropRBF.run_snoc in A. cbn [PropRBF.step] in A. rewrite PropRBF.predict_fit in A. rewrite contents_snoc in A. unfold s. rewrite A, A'. reflexivity. }
    rewrite SX. split; [exact F|reflexivity].
Qed.

(** C64 for RBFInterpolant: after the same calls with converted points, predict gives the same
    values (or exceptions) and predict_deriv the same derivatives, in the new units (chain rule). *)
Theorem C64_rbf : forall h x, length x = dim ->
  answer dim lb' ub' K T eta out (ch h) (cv x) = answer dim lb ub K T eta out h x /\
  match answer_deriv dim lb ub K T eta out h x with
  | Err e => answer_deriv dim lb' ub' K T eta out (ch h) (cv x) = Err e
  | Ok g => exists g', answer_deriv dim lb' ub' K T eta out (ch h) (cv x) = Ok g' /\ length g' = dim /\ length g = dim /\
      forall k, (k < dim)%nat -> nth k g' 0 = nth k g 0 * ((nth k ub 0 - nth k lb 0) / (nth k ub' 0 - nth k lb' 0))
  end.
Proof using B B'.
  intros h x Hx. destruct (run_convert h) as [_ E]. unfold answer, answer_deriv, predict, predict_deriv. rewrite E, fit_X.
  destruct (fit K T eta out (run1 h)) as [s' [[]|e]]; cbn [fst snd]; [|split; reflexivity].
  cbn [rwith_X r_c]. destruct (r_c s') as [c|]; [|split; reflexivity]. split.
  - f_equal. rewrite to_unit_convert by exact Hx. reflexivity.
  - eexists. split; [reflexivity|]. rewrite !map_length, !seq_length. split; [reflexivity|]. split; [reflexivity|]. intros k Hk.
    rewrite to_unit_convert by exact Hx.
    set (f := fun d => deriv_at K T c (rwith_X _ s') (to_unit x lb ub) d / (nth d ub' 0 - nth d lb' 0)).
    set (f2 := fun d => deriv_at K T c s' (to_unit x lb ub) d / (nth d ub 0 - nth d lb 0)).
    rewrite (nth_indep _ 0 (f 0%nat)) by (rewrite map_length, seq_length; exact Hk). rewrite (nth_indep (map f2 _) 0 (f2 0%nat)) by (rewrite map_length, seq_length; exact Hk).
    rewrite !map_nth, !seq_nth by exact Hk. cbn [Nat.add]. unfold f, f2.
    change (deriv_at K T c (rwith_X (map cv (u_X (r_s (run1 h)))) s') (to_unit x lb ub) k) with (deriv_at K T c s' (to_unit x lb ub) k).
    destruct B as [_ [_ B3]]. destruct B' as [_ [_ B4]]. specialize (B3 k Hk). specialize (B4 k Hk). field. lra.
Qed.
End Rbf.

(** C64 for PolyRegressor and GPRegressor. *)
Theorem C64_sklearn : forall (M : Type) out (learn : list pt -> list R -> res M) use h x, length x = dim ->
  snd (l_predict lb' ub' out learn use (cv x) (l_run dim lb' ub' out learn use (ch h))) =
  snd (l_predict lb ub out learn use x (l_run dim lb ub out learn use h)).
Proof using B B'.
  intros M out learn use h x Hx.
  destruct (C45_sklearn dim lb ub out learn use h) as [_ [_ [_ A]]]. destruct (C45_sklearn dim lb' ub' out learn use (ch h)) as [_ [_ [_ A']]]. cbv zeta in A, A'.
  rewrite A, A'. 
  assert (E : contents dim (ch h) = map (fun q => (cv (fst q), snd q)) (contents dim h)).
  { clear -dim lb ub lb' ub'. induction h as [|c h IH] using rev_ind; [reflexivity|]. unfold ch. rewrite map_app. cbn [map]. rewrite !contents_snoc. fold (ch h).
    destruct c as [|xx fx|y|y]; cbn [convert_call]; try exact IH; [reflexivity|]. rewrite shape_convert. destruct (right_shape dim xx fx) eqn:ES; [|exact IH].
    rewrite IH, map_app, map_keep. f_equal. clear. revert fx. induction xx as [|x xx IH]; intros [|f fx]; simpl; [reflexivity|reflexivity|reflexivity|]. rewrite IH. reflexivity. }
  rewrite E, !map_map. cbn [fst snd]. rewrite <- (map_map fst cv). rewrite to_unit_box_convert, to_unit_convert; [reflexivity|exact Hx|].
  apply Forall_forall. intros y Hy. apply in_map_iff in Hy. destruct Hy as [[z f] [<- Hz]]. eapply contents_dim. exact Hz.
Qed.
End Units.

(** ** C65 along histories *)
(** The same calls with changed values; no hypothesis on failures beyond that of C59. *)
Theorem C65_history : forall dim lb ub K eta out h a b, bounds dim lb ub -> scale_free out -> keeps_length out -> 0 < a -> careful dim K eta h ->
  forall x, answer dim lb ub K (LinearTail dim) eta out (map (convert_call (fun y => y) (fun v => a * v + b)) h) x =
            rescaled a b (answer dim lb ub K (LinearTail dim) eta out h x).
Proof.
  intros dim lb ub K eta out h a b WB HS HK Ha HC x. set (cc := convert_call (fun y : pt => y) (fun v => a * v + b)).
  assert (E : forall h, contents dim (map cc h) = map (fun q => (fst q, a * snd q + b)) (contents dim h)).
  { clear. intros h. induction h as [|c h IH] using rev_ind; [reflexivity|]. rewrite map_app. cbn [map]. rewrite !contents_snoc.
    destruct c as [|xx fx|y|y]; cbn [cc convert_call]; try exact IH; [reflexivity|].
    assert (S : right_shape dim (map (fun y => y) xx) (map (fun v => a * v + b) fx) = right_shape dim xx fx) by (unfold right_shape; rewrite map_id, !map_length; reflexivity).
    rewrite S. destruct (right_shape dim xx fx); [|exact IH]. rewrite IH, map_app, map_id. f_equal. clear. revert fx.
    induction xx as [|x xx IH]; intros [|f fx]; simpl; [reflexivity|reflexivity|reflexivity|]. rewrite IH. reflexivity. }
  apply C65_affine; try assumption.
  - exact (@careful_ok dim lb ub WB K eta out h HC).
  - apply (@careful_ok dim lb ub WB K eta). intros h1 c h2 EH NR PC.
    assert (X : exists h1' c' h2', h = h1' ++ c' :: h2' /\ h1 = map cc h1' /\ c = cc c' /\ h2 = map cc h2').
    { clear -EH. revert h EH. induction h1 as [|e h1 IH]; intros [|d h] EH; simpl in EH; try discriminate.
      - injection EH as E1 E2. exists [], d, h. rewrite <- E1, <- E2. auto.
      - injection EH as E1 E2. destruct (IH h E2) as [h1' [c' [h2' [F1 [F2 [F3 F4]]]]]]. exists (d :: h1'), c', h2'. rewrite F1, F2, F3, F4, <- E1. auto. }
    destruct X as [h1' [c' [h2' [F1 [F2 [F3 F4]]]]]].
    assert (EC : map fst (contents dim h1) = map fst (contents dim h1')) by (rewrite F2, E, map_map; reflexivity).
    rewrite EC. replace (length (contents dim h1)) with (length (contents dim h1')) by (rewrite F2, E, map_length; reflexivity).
    apply (HC h1' c' h2' F1).
    + intros Q. apply NR. rewrite F4. apply in_map_iff. exists Reset. split; [reflexivity|exact Q].
    + destruct PC as [y PC]. rewrite F3 in PC. destruct c' as [|xx fx|z|z]; cbn [cc convert_call] in PC; destruct PC as [PC|PC]; try discriminate; exists z; auto.
  - apply E.
Qed.

(** Concrete cases. *)
Example ex_C65 : let h := [Add [[0]; [2]] [1; 5]; Predict [1]; Add [[1]] [2]] in
  careful 1 CubicKernel (/ 1000000) h /\ in_general_position 1 (map fst (contents 1 h)) /\
  scale_free median_capping /\ keeps_length median_capping /\ order_free median_capping /\
  (exists v, answer 1 [0] [2] CubicKernel (LinearTail 1) (/ 1000000) median_capping h [1/2] = Ok v /\
     answer 1 [0] [2] CubicKernel (LinearTail 1) (/ 1000000) median_capping [Add [[0]; [2]] [13; 53]; Predict [1]; Add [[1]] [23]] [1/2] = Ok (10 * v + 3)) /\
  bounds 1 [0] [2] /\ bounds 1 [-10] [30] /\ convert [0] [2] [-10] [30] [1] = [10].
Proof.
  cbv zeta. set (h := [Add [[0]; [2]] [1; 5]; Predict [1]; Add [[1]] [2]]).
  assert (G : forall X, In [0] X -> In [2] X -> in_general_position 1 X).
  { intros X I0 I2 a b Lb H. pose proof (H [0] I0) as H0. pose proof (H [2] I2) as H2. unfold affine in H0, H2. simpl in H0, H2.
    assert (A : a = 0) by lra. split; [exact A|]. intros k Hk. replace k with 0%nat by lia. lra. }
  assert (E : contents 1 h = [([0], 1); ([2], 5); ([1], 2)]) by reflexivity.
  assert (C : careful 1 CubicKernel (/ 1000000) h).
  { intros h1 c h2 EH NR [y HY]. right. split; [|left; lra].
    destruct h1 as [|c1 h1]; [injection EH as <- _; destruct HY; discriminate|]. injection EH as <- EH.
    destruct h1 as [|c2 h1]; [apply G; simpl; auto|]. injection EH as <- EH.
    destruct h1 as [|c3 h1]; [injection EH as <- _; destruct HY; discriminate|]. injection EH as _ EH. destruct h1; discriminate. }
  assert (GP : in_general_position 1 (map fst (contents 1 h))) by (rewrite E; apply G; simpl; auto).
  assert (WB : bounds 1 [0] [2]). { split; [reflexivity|]. split; [reflexivity|]. intros i Hi. replace i with 0%nat by lia. simpl. lra. }
  destruct C65_transformations as [_ [T1 [T2 T3]]].
  split; [exact C|]. split; [exact GP|]. split; [exact T2|]. split; [exact T3|]. split; [exact T1|]. split; [|split; [exact WB|split]].
  - assert (ES : eta_suits CubicKernel (/ 1000000) (map fst (contents 1 h))) by (left; lra).
    destruct (@C59_solvable 1 [0] [2] WB CubicKernel (/ 1000000) median_capping h C ES [1/2]) as [[_ A] _].
    destruct (A GP) as [v V]. exists v. split; [exact V|].
    assert (T10 : 0 < 10) by lra.
    pose proof (@C65_history 1 [0] [2] CubicKernel (/ 1000000) median_capping h 10 3 WB T2 T3 T10 C [1/2]) as P. rewrite V in P. cbn [rescaled] in P.
    rewrite <- P. f_equal. unfold h. cbn [map convert_call]. repeat f_equal; lra.
  - split; [reflexivity|]. split; [reflexivity|]. intros i Hi. replace i with 0%nat by lia. simpl. lra.
  - unfold convert. simpl. f_equal. lra.
Qed.
