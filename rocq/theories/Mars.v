(** * C70: MARSInterpolant (mars.py).

    py-earth's [Earth] is a parameter: [learn] returns any linear combination of products of hinge
    functions and coordinates (the form documented in mars.py:14-27), evaluated and differentiated by
    the formulas below. *)
From Coq Require Import List Arith ZArith Lia Bool Reals Lra.
From Coquelicot Require Import Coquelicot.
From Verif Require Import Base PyList Box Design Lin LinProofs RBF RBFProofs RBFFit PropBox PropRBF PropSurr RBFDeriv.
Import ListNotations.
Set Implicit Arguments.
Local Open Scope R_scope.

(** ** Specification: a MARS model, mars.py:14-27 *)

(** max(0, x_j - t), max(0, t - x_j), or x_j *)
(** Specification of a model of py-earth, mars.py:14-27 (documentation). *)
Inductive factor : Type := Above (j : nat) (t : R) | Below (j : nat) (t : R) | Linear (j : nat).
(** the sum of c_i B_i(x), every B_i a product of factors (the empty product is the constant 1) *)
(** Specification of a model of py-earth, mars.py:14-27 (documentation). *)
Definition earth : Type := list (R * list factor).

(** Specification of a model of py-earth, mars.py:14-27 (documentation). *)
Definition f_var (f : factor) : nat := match f with Above j _ | Below j _ | Linear j => j end.
(** Specification of a model of py-earth, mars.py:14-27 (documentation). *)
Definition f_eval (u : pt) (f : factor) : R :=
  match f with Above j t => Rmax 0 (nth j u 0 - t) | Below j t => Rmax 0 (t - nth j u 0) | Linear j => nth j u 0 end.
(** Specification of a model of py-earth, mars.py:14-27 (documentation). *)
Fixpoint b_eval (u : pt) (l : list factor) : R := match l with [] => 1 | f :: l' => f_eval u f * b_eval u l' end.
(** Specification of a model of py-earth, mars.py:14-27 (documentation). *)
Fixpoint e_eval (m : earth) (u : pt) : R := match m with [] => 0 | (c, l) :: m' => c * b_eval u l + e_eval m' u end.

(** No coordinate of [u] is at a knot. *)
(** Specification of a model of py-earth, mars.py:14-27 (documentation). *)
Definition off_knots (u : pt) (m : earth) : Prop := forall c l f, In (c, l) m -> In f l ->
  match f with Above j t | Below j t => nth j u 0 <> t | Linear _ => True end.
(** Specification of a model of py-earth, mars.py:14-27 (documentation). *)
Definition in_dim (dim : nat) (m : earth) : Prop := forall c l f, In (c, l) m -> In f l -> (f_var f < dim)%nat.

(** ** Model *)

(** Earth.predict_deriv: the product rule; the derivative of a hinge function is the indicator of its
    linear part. *)
Definition f_slope (u : pt) (f : factor) : R :=
  match f with
  | Above j t => if Rlt_dec t (nth j u 0) then 1 else 0
  | Below j t => if Rlt_dec (nth j u 0) t then -1 else 0
  | Linear _ => 1
  end.
(** py-earth Earth.predict_deriv, called at mars.py:92. *)
Definition f_deriv (u : pt) (k : nat) (f : factor) : R := if (f_var f =? k)%nat then f_slope u f else 0.
(** py-earth Earth.predict_deriv, called at mars.py:92. *)
Fixpoint b_deriv (u : pt) (k : nat) (l : list factor) : R :=
  match l with [] => 0 | f :: l' => f_deriv u k f * b_eval u l' + f_eval u f * b_deriv u k l' end.
(** py-earth Earth.predict_deriv, called at mars.py:92. *)
Fixpoint e_deriv (m : earth) (u : pt) (k : nat) : R := match m with [] => 0 | (c, l) :: m' => c * b_deriv u k l + e_deriv m' u k end.

(** numpy: a matrix divided by a vector; rows of length 1 are stretched. *)
Definition divide_row (d row : list R) : res (list R) :=
  match row with
  | [a] => Ok (map (fun b => a / b) d)
  | _ => if (length row =? length d)%nat then Ok (map (fun ab : R * R => fst ab / snd ab) (combine row d)) else Err ValueError
  end.

Lemma nth_map_lt : forall A C (f : A -> C) l i d d', (i < length l)%nat -> nth i (map f l) d' = f (nth i l d).
Proof. intros A C f l i d d' H. rewrite (nth_indep _ d' (f d)) by (rewrite map_length; exact H). apply map_nth. Qed.
Lemma of_fun_eta : forall dim x, length x = dim -> of_fun dim (fun j => nth j x 0) = x.
Proof.
  intros dim x H. subst. apply nth_ext with (d := 0) (d' := 0); [apply of_fun_len|]. intros n Hn. rewrite of_fun_len in Hn. apply (of_fun_nth (fun j => nth j x 0) Hn).
Qed.

Section Mars.
Variable dim : nat.
Variables lb ub : pt.
Variable out : list R -> list R.
Variable learn : list pt -> list R -> res earth.

Notation mars := (learned earth).
(** _fit and predict, mars.py:59-78, are [l_fit] and [l_predict] as in poly.py. *)
Notation m_fit := (l_fit out learn).
Notation m_predict := (l_predict lb ub out learn e_eval).

(** mars.py:93: self.ub - self.lb. *)
Definition sides : list R := map (fun lu : R * R => snd lu - fst lu) (combine lb ub).

(** Earth.predict_deriv(xx, variables=None) *)
(** mars.py:92 with two-dimensional result. *)
Definition jac2 (m : earth) (xs : list pt) : list (list R) := map (fun x => of_fun dim (e_deriv m (to_unit x lb ub))) xs.
(** mars.py:92 with three-dimensional result. *)
Definition jac3 (m : earth) (xs : list pt) : list (list (list R)) :=
  map (fun x => map (fun k => [e_deriv m (to_unit x lb ub) k]) (seq 0 dim)) xs.

(** mars.py:90-91: self._fit() and use of the model. *)
Definition with_model {A} (f : earth -> res A) (s : mars) : mars * res A :=
  let (s', r) := m_fit s in
  match r with
  | Err e => (s', Err e)
  | Ok _ => (s', match l_model s' with Some m => f m | None => Err TypeError end)
  end.

(** predict_deriv, mars.py:80-93, if py-earth returns an array of size points x variables x outputs
    (as its documentation says): dfx[0] has one column. *)
Definition m_deriv (xs : list pt) : mars -> mars * res (list (list R)) := with_model (fun m =>
  do J <- match jac3 m xs with [] => Err IndexError | J :: _ => Ok J end; mapR (divide_row sides) J).
(** The same if it returned an array of size points x variables. *)
(** mars.py:81-93. *)
Definition m_deriv_flat (xs : list pt) : mars -> mars * res (list R) := with_model (fun m =>
  do J <- match jac2 m xs with [] => Err IndexError | J :: _ => Ok J end; divide_row sides J).

(** Public calls: surrogate.py:42-74, mars.py:68-93. *)
Inductive mcall : Type := MReset | MAdd (xx : list pt) (fx : list R) | MPredict (x : pt) | MDeriv (xs : list pt).
(** Effect of a call: surrogate.py:42-74, mars.py:59-93. *)
Definition m_step (s : mars) (c : mcall) : mars :=
  match c with
  | MReset => l_reset s
  | MAdd xx fx => match l_add dim lb ub xx fx s with Ok s' => s' | Err _ => s end
  | MPredict x => fst (m_predict x s)
  | MDeriv xs => fst (m_deriv xs s)
  end.
(** Helper with no counterpart in /repo: a sequence of calls. *)
Definition m_run (h : list mcall) : mars := fold_left m_step h {| l_s := u_reset; l_model := None |}.

(** The data a history leaves: what was added since the last reset (calls with the wrong shape raise). *)
(** Specification. *)
Definition as_call (c : mcall) : call :=
  match c with MReset => Reset | MAdd xx fx => Add xx fx | MPredict x => Predict x | MDeriv _ => PredictDeriv [] end.
(** Specification. *)
Definition m_contents (h : list mcall) : list (pt * R) := contents dim (map as_call h).
(** The model fitted to them. *)
(** Specification: mars.py:64-65 on the data of the history. *)
Definition fitted (h : list mcall) : res earth := let d := m_contents h in learn (to_unit_box (map fst d) lb ub) (out (map snd d)).

Notation m_inv := (l_inv lb ub out learn).
Lemma m_fit_inv : forall s d, m_inv s d -> m_inv (fst (m_fit s)) d /\
  (snd (m_fit s) = Ok tt -> exists m, l_model (fst (m_fit s)) = Some m /\ learn (to_unit_box (map fst d) lb ub) (out (map snd d)) = Ok m) /\
  (forall e, snd (m_fit s) = Err e -> learn (to_unit_box (map fst d) lb ub) (out (map snd d)) = Err e).
Proof using.
  intros s d [H1 [H2 [H3 [H4 H5]]]]. unfold l_fit. destruct (u_updated (l_s s)) eqn:EU.
  { cbn [fst snd]. split; [repeat split; auto|]. split; [intros _; apply H5; reflexivity|discriminate]. }
  rewrite H4, H2. destruct (learn _ _) as [m|e] eqn:EL; cbn [fst snd].
  - split; [|split; [intros _; exists m; auto|discriminate]]. unfold l_inv. cbn. repeat split; auto. intros _. exists m. auto.
  - split; [unfold l_inv; rewrite EU; repeat split; auto; discriminate|]. split; [discriminate|intros e' [= <-]; reflexivity].
Qed.

Lemma m_run_inv : forall h, m_inv (m_run h) (m_contents h).
Proof using.
  intros h. induction h as [|c h IH] using rev_ind; [repeat split; discriminate|].
  unfold m_run. rewrite fold_left_app. fold (m_run h). cbn [fold_left]. unfold m_contents. rewrite map_app. cbn [map]. rewrite contents_snoc. fold (m_contents h).
  destruct c as [|xx fx|x|xs]; cbn [m_step as_call].
  - repeat split. discriminate.
  - destruct IH as [H1 [H2 [H3 [H4 H5]]]]. unfold l_add, u_add. fold (right_shape dim xx fx). destruct (right_shape dim xx fx) eqn:E; cbn [rbind]; [|repeat split; assumption].
    pose proof (right_shape_len _ _ _ E) as L. unfold l_inv. cbn [l_s u_X u_fX u_num u_UX u_updated].
    rewrite !map_app, app_length, H1, H2, H3, fst_combine, snd_combine, combine_length by exact L. repeat split; [lia|discriminate].
  - destruct (m_fit_inv IH) as [I _]. unfold l_predict. destruct (m_fit (m_run h)) as [s' [u|e]]; exact I.
  - destruct (m_fit_inv IH) as [I _]. unfold m_deriv, with_model. destruct (m_fit (m_run h)) as [s' [u|e]]; exact I.
Qed.

Lemma with_model_run : forall A (f : earth -> res A) h, snd (with_model f (m_run h)) = rbind (fitted h) f.
Proof using.
  intros A f h. destruct (m_fit_inv (m_run_inv h)) as [_ [F1 F2]]. unfold with_model, fitted. destruct (m_fit (m_run h)) as [s' [[]|e]]; cbn [fst snd] in *.
  - destruct (F1 eq_refl) as [m [E1 E2]]. rewrite E1, E2. reflexivity.
  - rewrite (F2 e eq_refl). reflexivity.
Qed.

(** For every history: the surrogate holds what was added since the last reset and predict is the
    model fitted to exactly these data, whatever was predicted or differentiated in between. *)
Theorem C70_history : forall h, let s := l_s (m_run h) in let d := m_contents h in
  u_X s = map fst d /\ u_fX s = map snd d /\ u_num s = length d /\
  forall x, snd (m_predict x (m_run h)) = (do m <- fitted h; Ok (e_eval m (to_unit x lb ub))).
Proof using.
  intros h. cbv zeta. pose proof (m_run_inv h) as I. destruct I as [H1 [H2 [H3 _]]]. repeat split; auto. intros x. exact (with_model_run (fun m => Ok (e_eval m (to_unit x lb ub))) h).
Qed.

Hypothesis B : bounds dim lb ub.

(** ** The derivative *)
Section At.
Variables (u a : nat -> R).
Definition line (t : R) : pt := of_fun dim (fun j => u j + t * a j).

Lemma line_nth : forall t j, (j < dim)%nat -> nth j (line t) 0 = u j + t * a j.
Proof using. intros. apply of_fun_nth. assumption. Qed.

Lemma near : forall j b, u j <> b -> exists e : posreal, forall t, Rabs t < e -> (b < u j -> b < u j + t * a j) /\ (u j < b -> u j + t * a j < b).
Proof using.
  intros j b Hb. set (g := Rabs (u j - b)). assert (G : 0 < g) by (apply Rabs_pos_lt; lra).
  assert (E : 0 < g / (Rabs (a j) + 1)) by (apply Rdiv_lt_0_compat; [lra|pose proof (Rabs_pos (a j)); lra]). exists (mkposreal _ E). intros t Ht. cbn [pos] in Ht.
  assert (T : Rabs (t * a j) < g).
  { rewrite Rabs_mult. pose proof (Rabs_pos (a j)). pose proof (Rabs_pos t). apply Rle_lt_trans with (Rabs t * (Rabs (a j) + 1)); [nra|].
    apply Rmult_lt_reg_r with (/ (Rabs (a j) + 1)); [apply Rinv_0_lt_compat; lra|]. rewrite Rmult_assoc, Rinv_r by lra. unfold Rdiv in Ht. lra. }
  apply Rabs_def2 in T. unfold g, Rabs in *. destruct (Rcase_abs (u j - b)); split; intros; lra.
Qed.

Lemma lin_derive : forall b c s, is_derive (fun t => b + s * (c + t * b)) 0 (s * b).
Proof using. intros. auto_derive; [exact I|ring]. Qed.

Lemma f_derive : forall f, (f_var f < dim)%nat -> match f with Above j b | Below j b => u j <> b | Linear _ => True end ->
  is_derive (fun t => f_eval (line t) f) 0 (f_slope (of_fun dim u) f * a (f_var f)).
Proof using.
  intros f Hj Hk. destruct f as [j b|j b|j]; cbn [f_var f_slope f_eval] in *; rewrite ?of_fun_nth by exact Hj.
  - destruct (near Hk) as [e He]. destruct (Rlt_dec b (u j)) as [L|L].
    + apply (is_derive_ext_loc (fun t => u j + t * a j - b)).
      * exists e. intros t Ht. rewrite line_nth by exact Hj. assert (T : Rabs t < e) by (unfold ball in Ht; cbn in Ht; unfold AbsRing_ball, abs, minus, plus, opp in Ht; cbn in Ht; replace t with (t + - 0) by ring; exact Ht).
        pose proof (proj1 (He t T) L). rewrite Rmax_right; lra.
      * auto_derive; [exact I|ring].
    + apply (is_derive_ext_loc (fun t => 0)).
      * exists e. intros t Ht. rewrite line_nth by exact Hj. assert (T : Rabs t < e) by (unfold ball in Ht; cbn in Ht; unfold AbsRing_ball, abs, minus, plus, opp in Ht; cbn in Ht; replace t with (t + - 0) by ring; exact Ht).
        assert (L' : u j < b) by lra. pose proof (proj2 (He t T) L'). rewrite Rmax_left; lra.
      * auto_derive; [exact I|ring].
  - destruct (near Hk) as [e He]. destruct (Rlt_dec (u j) b) as [L|L].
    + apply (is_derive_ext_loc (fun t => b - (u j + t * a j))).
      * exists e. intros t Ht. rewrite line_nth by exact Hj. assert (T : Rabs t < e) by (unfold ball in Ht; cbn in Ht; unfold AbsRing_ball, abs, minus, plus, opp in Ht; cbn in Ht; replace t with (t + - 0) by ring; exact Ht).
        pose proof (proj2 (He t T) L). rewrite Rmax_right; lra.
      * auto_derive; [exact I|ring].
    + apply (is_derive_ext_loc (fun t => 0)).
      * exists e. intros t Ht. rewrite line_nth by exact Hj. assert (T : Rabs t < e) by (unfold ball in Ht; cbn in Ht; unfold AbsRing_ball, abs, minus, plus, opp in Ht; cbn in Ht; replace t with (t + - 0) by ring; exact Ht).
        assert (L' : b < u j) by lra. pose proof (proj1 (He t T) L'). rewrite Rmax_left; lra.
      * auto_derive; [exact I|ring].
  - apply (is_derive_ext (fun t => u j + t * a j)); [intros t; rewrite line_nth by exact Hj; reflexivity|]. auto_derive; [exact I|ring].
Qed.

Lemma line_0 : line 0 = of_fun dim u.
Proof using. unfold line, of_fun. apply map_ext. intros. ring. Qed.

Lemma b_derive : forall l, (forall f, In f l -> (f_var f < dim)%nat /\ match f with Above j b | Below j b => u j <> b | Linear _ => True end) ->
  is_derive (fun t => b_eval (line t) l) 0 (rsum dim (fun k => b_deriv (of_fun dim u) k l * a k)).
Proof using.
  induction l as [|f l IH]; intros H; cbn [b_eval b_deriv].
  - rewrite (rsum_0 (n := dim)) by (intros; ring). apply (is_derive_const (V := R_NormedModule)).
  - specialize (IH (fun f' Hf => H f' (or_intror Hf))). destruct (H f (or_introl eq_refl)) as [Hj Hk]. pose proof (f_derive f Hj Hk) as F.
    pose proof (@is_derive_mult R_AbsRing (fun t => f_eval (line t) f) (fun t => b_eval (line t) l) 0 _ _ F IH Rmult_comm) as M. cbv beta in M. rewrite line_0 in M.
    assert (E : rsum dim (fun k => (f_deriv (of_fun dim u) k f * b_eval (of_fun dim u) l + f_eval (of_fun dim u) f * b_deriv (of_fun dim u) k l) * a k) =
      f_slope (of_fun dim u) f * a (f_var f) * b_eval (of_fun dim u) l + f_eval (of_fun dim u) f * rsum dim (fun k => b_deriv (of_fun dim u) k l * a k)).
    { rewrite (rsum_ext (n := dim)) with (g := fun k => f_deriv (of_fun dim u) k f * a k * b_eval (of_fun dim u) l + f_eval (of_fun dim u) f * (b_deriv (of_fun dim u) k l * a k)) by (intros; ring).
      rewrite rsum_plus, rsum_scal, rsum_scal_r. f_equal. f_equal. rewrite (@rsum_one dim _ (f_var f) Hj); [unfold f_deriv; rewrite Nat.eqb_refl; reflexivity|].
      intros i _ Ni. unfold f_deriv. destruct (Nat.eqb_spec (f_var f) i); [congruence|ring]. }
    rewrite E. exact M.
Qed.

Lemma e_derive : forall m, in_dim dim m -> off_knots (of_fun dim u) m ->
  is_derive (fun t => e_eval m (line t)) 0 (rsum dim (fun k => e_deriv m (of_fun dim u) k * a k)).
Proof using.
  induction m as [|[c l] m IH]; intros D K; cbn [e_eval e_deriv].
  - rewrite (rsum_0 (n := dim)) by (intros; ring). apply (is_derive_const (V := R_NormedModule)).
  - assert (D' : in_dim dim m) by (intros c' l' f H1 H2; eapply D; [right; exact H1|exact H2]).
    assert (K' : off_knots (of_fun dim u) m) by (intros c' l' f H1 H2; apply (K c' l' f (or_intror H1) H2)). specialize (IH D' K').
    rewrite (rsum_ext (n := dim)) with (g := fun k => c * (b_deriv (of_fun dim u) k l * a k) + e_deriv m (of_fun dim u) k * a k) by (intros; ring).
    rewrite rsum_plus, rsum_scal. apply (is_derive_plus (V := R_NormedModule)); [|exact IH]. apply is_derive_scal. apply b_derive.
    intros f Hf. specialize (D c l f (or_introl eq_refl) Hf). split; [exact D|]. specialize (K c l f (or_introl eq_refl) Hf).
    destruct f; cbn [f_var] in D; [rewrite of_fun_nth in K by exact D; exact K|rewrite of_fun_nth in K by exact D; exact K|exact I].
Qed.
End At.

(** Specification. *)
Definition grad_of (m : earth) (x : pt) : pt := of_fun dim (fun k => e_deriv m (to_unit x lb ub) k / (nth k ub 0 - nth k lb 0)).

Lemma grad_is_gradient : forall m x, length x = dim -> in_dim dim m -> off_knots (to_unit x lb ub) m ->
  gradient dim (fun y => e_eval m (to_unit y lb ub)) x (grad_of m x).
Proof using B.
  intros m x Hx D K. split; [apply of_fun_len|]. intros v Hv. pose proof (to_unit_len B x Hx) as LU.
  set (u := fun j => nth j (to_unit x lb ub) 0). set (a := fun j => nth j v 0 / (nth j ub 0 - nth j lb 0)).
  assert (EU : of_fun dim u = to_unit x lb ub) by (apply of_fun_eta; exact LU).
  apply (is_derive_ext (fun t => e_eval m (line u a t))).
  { intros t. f_equal. apply nth_ext with (d := 0) (d' := 0); [unfold line; rewrite of_fun_len, (to_unit_len B); [reflexivity|apply of_fun_len]|].
    intros n Hn. unfold line in Hn. rewrite of_fun_len in Hn. rewrite line_nth by exact Hn. unfold along. rewrite (to_unit_nth B _ (of_fun_len _ _) Hn). rewrite of_fun_nth by exact Hn.
    unfold u, a. rewrite (to_unit_nth B _ Hx Hn). destruct B as [_ [_ B3]]. specialize (B3 n Hn). field. lra. }
  rewrite (rsum_ext (n := dim)) with (g := fun k => e_deriv m (of_fun dim u) k * a k).
  { apply e_derive; [exact D|rewrite EU; exact K]. }
  intros k Hk. unfold grad_of. rewrite of_fun_nth by exact Hk. rewrite EU. unfold a. field. destruct B as [_ [_ B3]]. specialize (B3 k Hk). lra.
Qed.

Lemma sides_nth : forall k, (k < dim)%nat -> nth k sides 0 = nth k ub 0 - nth k lb 0.
Proof using B.
  intros k Hk. destruct B as [L1 [L2 _]]. unfold sides. rewrite (@nth_map_lt _ _ _ _ _ (0, 0)) by (rewrite combine_length; lia).
  rewrite combine_nth by lia. reflexivity.
Qed.
Lemma sides_len : length sides = dim.
Proof using B. destruct B as [L1 [L2 _]]. unfold sides. rewrite map_length, combine_length. lia. Qed.

(** The layout of the documentation of pySOT (points x variables): predict_deriv of one point is the
    gradient of predict there (in the user's coordinates), unless the point is at a knot. *)
Theorem C70_gradient_flat_partial : forall h m x xs, fitted h = Ok m -> in_dim dim m -> length x = dim -> off_knots (to_unit x lb ub) m ->
  exists g, snd (m_deriv_flat (x :: xs) (m_run h)) = Ok g /\
    gradient dim (fun y => match snd (m_predict y (m_run h)) with Ok v => v | Err _ => 0 end) x g.
Proof using B.
  intros h m x xs F D Hx K. exists (grad_of m x). split.
  - unfold m_deriv_flat. rewrite with_model_run, F. cbn [rbind jac2 map]. unfold divide_row.
    assert (G : map (fun ab : R * R => fst ab / snd ab) (combine (of_fun dim (e_deriv m (to_unit x lb ub))) sides) = grad_of m x).
    { apply nth_ext with (d := 0) (d' := 0). { unfold grad_of. rewrite map_length, combine_length, !of_fun_len, sides_len. lia. }
      intros n Hn. rewrite map_length, combine_length, of_fun_len, sides_len in Hn. assert (Hn' : (n < dim)%nat) by lia.
      rewrite (@nth_map_lt _ _ _ _ _ (0, 0)) by (rewrite combine_length, of_fun_len, sides_len; lia).
      rewrite combine_nth by (rewrite of_fun_len, sides_len; reflexivity). cbn [fst snd]. unfold grad_of. rewrite !of_fun_nth, sides_nth by exact Hn'. reflexivity. }
    set (J := of_fun dim _) in *. assert (LJ : length J = dim) by apply of_fun_len. pose proof sides_len as LS. rewrite <- G. rewrite LJ, LS, Nat.eqb_refl.
    destruct J as [|a [|b J]]; try reflexivity. destruct sides as [|d [|]]; try reflexivity; cbn in LJ, LS; lia.
  - destruct (C70_history h) as [_ [_ [_ P]]]. pose proof (@grad_is_gradient m x Hx D K) as [G1 G2]. split; [exact G1|]. intros v Hv.
    apply (is_derive_ext (fun t => e_eval m (to_unit (along dim x v t) lb ub))); [|exact (G2 v Hv)]. intros t. rewrite (P (along dim x v t)), F. reflexivity.
Qed.

(** The layout of py-earth (points x variables x outputs): the answer is a square matrix, whatever
    the number of points; entry (i, j) is the i-th partial derivative in the unit box divided by the
    j-th side, so only its diagonal is the gradient (at the first point). *)
Theorem C70_gradient_partial : forall h m x xs, fitted h = Ok m -> in_dim dim m -> length x = dim -> off_knots (to_unit x lb ub) m ->
  exists A, snd (m_deriv (x :: xs) (m_run h)) = Ok A /\ length A = dim /\ (forall row, In row A -> length row = dim) /\
    gradient dim (fun y => match snd (m_predict y (m_run h)) with Ok v => v | Err _ => 0 end) x (of_fun dim (fun k => nth k (nth k A []) 0)) /\
    forall i j, (i < dim)%nat -> (j < dim)%nat ->
      nth j (nth i A []) 0 * (nth j ub 0 - nth j lb 0) = nth i (nth i A []) 0 * (nth i ub 0 - nth i lb 0).
Proof using B.
  intros h m x xs F D Hx K. set (A := map (fun k => map (fun b => e_deriv m (to_unit x lb ub) k / b) sides) (seq 0 dim)).
  assert (LA : forall i j, (i < dim)%nat -> (j < dim)%nat -> nth j (nth i A []) 0 = e_deriv m (to_unit x lb ub) i / (nth j ub 0 - nth j lb 0)).
  { intros i j Hi Hj. unfold A. rewrite (@nth_map_lt _ _ _ _ _ 0%nat) by (rewrite seq_length; exact Hi). rewrite seq_nth by exact Hi. cbn [plus Nat.add].
    rewrite (@nth_map_lt _ _ _ _ _ 0) by (rewrite sides_len; exact Hj). rewrite sides_nth by exact Hj. reflexivity. }
  exists A. split; [|split; [|split; [|split]]].
  - unfold m_deriv. rewrite with_model_run, F. cbn [rbind jac3 map]. unfold A. generalize (seq 0 dim). intros l. induction l as [|k l IH]; [reflexivity|]. cbn [map mapR divide_row rbind]. rewrite IH. reflexivity.
  - unfold A. rewrite map_length, seq_length. reflexivity.
  - intros row H. unfold A in H. apply in_map_iff in H. destruct H as [k [<- _]]. rewrite map_length. apply sides_len.
  - assert (E : of_fun dim (fun k => nth k (nth k A []) 0) = grad_of m x).
    { unfold grad_of, of_fun. apply map_ext_in. intros k Hk. apply in_seq in Hk. apply LA; lia. }
    rewrite E. destruct (C70_history h) as [_ [_ [_ P]]]. pose proof (@grad_is_gradient m x Hx D K) as [G1 G2]. split; [exact G1|]. intros v Hv.
    apply (is_derive_ext (fun t => e_eval m (to_unit (along dim x v t) lb ub))); [|exact (G2 v Hv)]. intros t. rewrite (P (along dim x v t)), F. reflexivity.
  - intros i j Hi Hj. rewrite !LA by assumption. destruct B as [_ [_ B3]]. pose proof (B3 i Hi). pose proof (B3 j Hj). field. lra.
Qed.

(** Points other than the first are ignored, and the gradient of one point is not returned as one row. *)
Theorem C70_rows_refuted : forall h m x xs, fitted h = Ok m -> length x = dim ->
  snd (m_deriv (x :: xs) (m_run h)) = snd (m_deriv [x] (m_run h)) /\
  snd (m_deriv_flat (x :: xs) (m_run h)) = snd (m_deriv_flat [x] (m_run h)) /\
  (dim <> 1%nat -> forall g, snd (m_deriv [x] (m_run h)) <> Ok [g]).
Proof using B.
  intros h m x xs F Hx. unfold m_deriv, m_deriv_flat. rewrite !with_model_run, F. split; [reflexivity|]. split; [reflexivity|]. intros D g. cbn [rbind jac3 map].
  intros E. assert (L : forall l r, mapR (divide_row sides) l = Ok r -> length r = length l).
  { induction l as [|a l IH]; intros r H; [injection H as <-; reflexivity|]. cbn [mapR] in H. destruct (divide_row sides a) as [b|]; [|discriminate]. cbn [rbind] in H.
    destruct (mapR (divide_row sides) l) as [r'|]; [|discriminate]. injection H as <-. cbn. f_equal. apply IH. reflexivity. }
  apply L in E. rewrite map_length, seq_length in E. cbn in E. lia.
Qed.

(** ** Continuity *)
Lemma line_cont : forall (u a : nat -> R) m t0, in_dim dim m -> continuous (fun t => e_eval m (line u a t)) t0.
Proof using.
  intros u a m t0. 
  assert (LC : forall j b, continuous (fun t => u j + t * a j - b) t0).
  { intros j b. apply (ex_derive_continuous (V := R_NormedModule)). auto_derive. exact I. }
  assert (FC : forall f, (f_var f < dim)%nat -> continuous (fun t => f_eval (line u a t) f) t0).
  { intros f Hj. assert (MX : forall z, Rmax 0 z = (z + Rabs z) / 2) by (intros z; unfold Rmax, Rabs; destruct (Rle_dec 0 z), (Rcase_abs z); lra).
    assert (AB : forall g : R -> R, continuous g t0 -> continuous (fun t => (g t + Rabs (g t)) / 2) t0).
    { intros g Hg. apply (continuous_mult (fun t => g t + Rabs (g t)) (fun _ => / 2)); [|apply continuous_const]. apply (continuous_plus (V := R_NormedModule)); [exact Hg|]. apply continuous_comp; [exact Hg|]. apply continuous_Rabs. }
    destruct f as [j b|j b|j]; cbn [f_eval f_var] in *.
    - apply (continuous_ext (fun t => (u j + t * a j - b + Rabs (u j + t * a j - b)) / 2)); [intros t; rewrite MX, line_nth by exact Hj; reflexivity|]. apply AB, LC.
    - apply (continuous_ext (fun t => (b - (u j + t * a j) + Rabs (b - (u j + t * a j))) / 2)); [intros t; rewrite MX, line_nth by exact Hj; reflexivity|].
      apply (AB (fun t => b - (u j + t * a j))). apply (ex_derive_continuous (V := R_NormedModule)). auto_derive. exact I.
    - apply (continuous_ext (fun t => u j + t * a j - 0)); [intros t; rewrite line_nth by exact Hj; change (u j + t * a j - 0 = u j + t * a j); ring|]. apply LC. }
  assert (BC : forall l, (forall f, In f l -> (f_var f < dim)%nat) -> continuous (fun t => b_eval (line u a t) l) t0).
  { induction l as [|f l IH]; intros H; cbn [b_eval]; [apply continuous_const|]. apply (continuous_mult (fun t => f_eval (line u a t) f)).
    - apply FC, H. left. reflexivity.
    - apply IH. intros f' Hf. apply H. right. exact Hf. }
  induction m as [|[c l] m IH]; intros D; cbn [e_eval]; [apply continuous_const|]. apply (continuous_plus (V := R_NormedModule)).
  - apply (continuous_mult (fun _ => c)); [apply continuous_const|]. apply BC. intros f Hf. exact (D c l f (or_introl eq_refl) Hf).
  - apply IH. intros c' l' f H1 H2. exact (D c' l' f (or_intror H1) H2).
Qed.

(** The prediction is continuous along every line, knots included. *)
Theorem C70_continuous : forall h m x v t0, fitted h = Ok m -> in_dim dim m -> length x = dim -> length v = dim ->
  continuous (fun t => match snd (m_predict (along dim x v t) (m_run h)) with Ok y => y | Err _ => 0 end) t0.
Proof using B.
  intros h m x v t0 F D Hx Hv. destruct (C70_history h) as [_ [_ [_ P]]].
  apply (continuous_ext (fun t => e_eval m (line (fun j => nth j (to_unit x lb ub) 0) (fun j => nth j v 0 / (nth j ub 0 - nth j lb 0)) t))); [|apply line_cont; exact D].
  intros t. rewrite (P (along dim x v t)), F. cbn [rbind]. f_equal. apply nth_ext with (d := 0) (d' := 0); [unfold line; rewrite of_fun_len, (to_unit_len B); [reflexivity|apply of_fun_len]|].
  intros n Hn. unfold line in Hn. rewrite of_fun_len in Hn. rewrite line_nth by exact Hn. unfold along. rewrite (to_unit_nth B _ (of_fun_len _ _) Hn). rewrite of_fun_nth by exact Hn.
  rewrite (to_unit_nth B _ Hx Hn). destruct B as [_ [_ B3]]. specialize (B3 n Hn). field. lra.
Qed.
End Mars.

(** ** Example: two data points in a box with unequal sides *)
(** Example, no counterpart in /repo. *)
Definition m70 : earth := [(3, []); (2, [Above 0 (/2)]); (1, [Linear 1; Below 0 (/4)])].
(** Example, no counterpart in /repo. *)
Definition learn70 (X : list pt) (y : list R) : res earth := match X with [] => Err ValueError | _ => Ok m70 end.
(** Example, no counterpart in /repo. *)
Definition h70 : list mcall := [MAdd [[0; 0]] [3]; MDeriv [[1; 1]]; MAdd [[1; 2]] [4]].
Example ex_C70 : bounds 2 [0; 0] [1; 2] /\ fitted 2 [0; 0] [1; 2] (fun y => y) learn70 h70 = Ok m70 /\ in_dim 2 m70 /\ off_knots (to_unit [3/4; 1] [0; 0] [1; 2]) m70 /\
  snd (m_deriv 2 [0; 0] [1; 2] (fun y => y) learn70 [[3/4; 1]] (m_run 2 [0; 0] [1; 2] (fun y => y) learn70 h70)) = Ok [[2; 1]; [0; 0]].
Proof.
  assert (BB : bounds 2 [0; 0] [1; 2]).
  { split; [reflexivity|]. split; [reflexivity|]. intros [|[|i]] H; cbn; try lra. lia. }
  assert (F : fitted 2 [0; 0] [1; 2] (fun y => y) learn70 h70 = Ok m70) by reflexivity.
  split; [exact BB|]. split; [exact F|]. split; [|split].
  - intros c l f [H|[H|[H|[]]]]; injection H as <- <-; intros G; cbn in G; repeat (destruct G as [<-|G]); try destruct G; cbn; lia.
  - intros c l f [H|[H|[H|[]]]]; injection H as <- <-; intros G; cbn in G; repeat (destruct G as [<-|G]); try destruct G; cbn; try exact I; lra.
  - unfold m_deriv. rewrite with_model_run, F. cbn. destruct (Rlt_dec _ _) as [_|N]; [|exfalso; apply N; lra]. destruct (Rlt_dec _ _) as [N|_]; [exfalso; lra|].
    assert (M0 : Rmax 0 (/ 4 - (3 / 4 - 0) / (1 - 0)) = 0) by (apply Rmax_left; lra). rewrite M0. repeat f_equal; field.
Qed.
