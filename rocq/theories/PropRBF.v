(** * C45, C46, C47, C49, C50: surrogates over arbitrary call histories *)
From Coq Require Import List Arith ZArith Lia Bool Reals Lra Permutation Sorted.
From Verif Require Import Base Box Design Lin LinProofs RBF RBFProofs RBFFit PropBox.
Import ListNotations.

Set Implicit Arguments.
Local Open Scope R_scope.

(** ** Specification of call histories *)
(** The calls a user can make on a surrogate. *)
Inductive call := Reset | Add (xx : list pt) (fx : list R) | Predict (x : pt) | PredictDeriv (x : pt).

(** The data a surrogate should contain after a history: what was added since the last reset.
    A call of add_points with arrays of the wrong size raises and adds nothing. *)
Definition right_shape (dim : nat) (xx : list pt) (fx : list R) : bool :=
  ((length xx =? length fx)%nat && forallb (fun x : pt => (length x =? dim)%nat) xx)%bool.
Definition contents (dim : nat) (h : list call) : list (pt * R) :=
  fold_left (fun d c => match c with
                        | Reset => []
                        | Add xx fx => if right_shape dim xx fx then d ++ combine xx fx else d
                        | Predict _ | PredictDeriv _ => d
                        end) h [].

Lemma contents_snoc : forall dim h c, contents dim (h ++ [c]) =
  match c with
  | Reset => []
  | Add xx fx => if right_shape dim xx fx then contents dim h ++ combine xx fx else contents dim h
  | Predict _ | PredictDeriv _ => contents dim h
  end.
Proof. intros. unfold contents. rewrite fold_left_app. reflexivity. Qed.

Lemma right_shape_len : forall dim xx fx, right_shape dim xx fx = true -> length xx = length fx.
Proof. intros dim xx fx H. apply andb_prop in H. apply Nat.eqb_eq. apply H. Qed.

Lemma fst_combine : forall (xx : list pt) (fx : list R), length xx = length fx -> map fst (combine xx fx) = xx.
Proof. induction xx as [|x xx IH]; intros [|f fx] H; simpl in *; try lia; [reflexivity|]. f_equal. apply IH. lia. Qed.
Lemma snd_combine : forall (xx : list pt) (fx : list R), length xx = length fx -> map snd (combine xx fx) = fx.
Proof. induction xx as [|x xx IH]; intros [|f fx] H; simpl in *; try lia; [reflexivity|]. f_equal. apply IH. lia. Qed.

Section RBF.
Variable dim : nat.
Variables lb ub : pt.
Variable K : kernel.
Variable T : tail.
Variable eta : R.
Variable out : list R -> list R.

Notation ntail := (t_dim_tail T).
Notation row X i := (nth i X ([] : pt)).
Notation Inv := (Inv lb ub K T eta out).
Notation good := (good K T eta).
Notation broken := (broken K T eta).
Notation predict := (predict lb ub K T eta out).
Notation predict_deriv := (predict_deriv dim lb ub K T eta out).

(** The object after a history of calls on a fresh object; an exception leaves the state that the
    code left behind. *)
Definition step (s : rbf) (c : call) : rbf :=
  match c with
  | Reset => r_reset
  | Add xx fx => match r_add dim lb ub xx fx s with Ok s' => s' | Err _ => s end
  | Predict x => fst (predict x s)
  | PredictDeriv x => fst (predict_deriv x s)
  end.
Definition run (h : list call) : rbf := fold_left step h r_reset.
(** What predict(x) returns or raises after the history. *)
Definition answer (h : list call) (x : pt) : res R := snd (predict x (run h)).
Definition answer_deriv (h : list call) (x : pt) : res (list R) := snd (predict_deriv x (run h)).

(** A fit since the last reset raised numpy.linalg.LinAlgError. *)
Definition failed (h : list call) : Prop :=
  exists h1 c h2, h = h1 ++ c :: h2 /\ ~ In Reset h2 /\
    match c with
    | Predict x => answer h1 x = Err OtherError
    | PredictDeriv x => answer_deriv h1 x = Err OtherError
    | _ => False
    end.

Lemma run_snoc : forall h c, run (h ++ [c]) = step (run h) c.
Proof. intros. unfold run. rewrite fold_left_app. reflexivity. Qed.

Lemma predict_fit : forall s x, fst (predict x s) = fst (fit K T eta out s).
Proof. intros s x. unfold RBF.predict. destruct (fit K T eta out s) as [s' [u|e]]; reflexivity. Qed.
Lemma deriv_fit : forall s x, fst (predict_deriv x s) = fst (fit K T eta out s).
Proof. intros s x. unfold RBF.predict_deriv. destruct (fit K T eta out s) as [s' [u|e]]; reflexivity. Qed.

Lemma data_contents : forall h, Inv (run h) ->
  forall c, Inv (run (h ++ [c])) ->
  u_X (r_s (run h)) = map fst (contents dim h) -> u_fX (r_s (run h)) = map snd (contents dim h) ->
  (match c with Predict _ | PredictDeriv _ => same_data (run h) (run (h ++ [c])) | _ => True end) ->
  u_X (r_s (run (h ++ [c]))) = map fst (contents dim (h ++ [c])) /\ u_fX (r_s (run (h ++ [c]))) = map snd (contents dim (h ++ [c])).
Proof.
  intros h I c I' HX HF SD. rewrite contents_snoc. rewrite run_snoc in *. destruct c as [|xx fx|x|x].
  - split; reflexivity.
  - cbn [step] in *. unfold r_add, u_add in *. fold (right_shape dim xx fx) in *. destruct (right_shape dim xx fx) eqn:E; cbn [rbind] in *.
    + cbn [r_s u_X u_fX]. rewrite !map_app, HX, HF, fst_combine, snd_combine by (eapply right_shape_len; exact E). auto.
    + auto.
  - destruct SD as [_ [D1 [_ D2]]]. rewrite D1, D2. auto.
  - destruct SD as [_ [D1 [_ D2]]]. rewrite D1, D2. auto.
Qed.

(** The state after any history: either no fit has failed and the state is good, or one has and
    it is broken. *)
Lemma run_inv : forall h, Inv (run h) /\ u_X (r_s (run h)) = map fst (contents dim h) /\ u_fX (r_s (run h)) = map snd (contents dim h) /\
  ((good (run h) /\ ~ failed h) \/ (broken (run h) /\ failed h)).
Proof.
  intros h. induction h as [|c h IH] using rev_ind.
  - split; [apply Inv_reset|]. split; [reflexivity|]. split; [reflexivity|]. left. split; [apply good_reset|]. intros [h1 [c [h2 [E _]]]].
    destruct h1; discriminate E.
  - destruct IH as [I [HX [HF G]]].
    assert (FS : failed (h ++ [c]) <-> (c <> Reset /\ failed h) \/ match c with
        | Predict x => answer h x = Err OtherError | PredictDeriv x => answer_deriv h x = Err OtherError | _ => False end).
    { split.
      - intros [h1 [c' [h2 [E [NR Q]]]]]. destruct h2 as [|b h2] using rev_ind.
        + apply app_inj_tail in E. destruct E as [-> ->]. right. exact Q.
        + clear IHh2. change (h1 ++ c' :: h2 ++ [b]) with (h1 ++ (c' :: h2) ++ [b]) in E. rewrite app_assoc in E. apply app_inj_tail in E. destruct E as [-> ->].
          left. split; [intros ->; apply NR; apply in_or_app; right; left; reflexivity|].
          exists h1, c', h2. split; [reflexivity|]. split; [intros H; apply NR; apply in_or_app; left; exact H|exact Q].
      - intros [[NC [h1 [c' [h2 [E [NR Q]]]]]]|Q].
        + exists h1, c', (h2 ++ [c]). split; [rewrite E, <- app_assoc; reflexivity|]. split; [|exact Q].
          intros H. apply in_app_or in H. destruct H as [H|[H|[]]]; [contradiction|congruence].
        + exists h, c, []. split; [reflexivity|]. split; [intros []|exact Q]. }
    assert (FIT : match c with Predict _ | PredictDeriv _ => True | _ => False end ->
      run (h ++ [c]) = fst (fit K T eta out (run h)) -> 
      (match c with Predict x => answer h x = Err OtherError | PredictDeriv x => answer_deriv h x = Err OtherError | _ => False end
        <-> snd (fit K T eta out (run h)) = Err OtherError) ->
      Inv (run (h ++ [c])) /\ same_data (run h) (run (h ++ [c])) /\
      ((good (run (h ++ [c])) /\ ~ failed (h ++ [c])) \/ (broken (run (h ++ [c])) /\ failed (h ++ [c])))).
    { intros HC HR HA. rewrite HR. destruct G as [[G NF]|[B FF]].
      - pose proof (fit_spec I G) as FSP. destruct (fit K T eta out (run h)) as [s' r]. cbn [fst snd] in *.
        destruct FSP as [S1 [S2 S3]]. split; [exact S2|]. split; [exact S1|]. destruct S3 as [[R1 [R2 [R3 [R4 [c0 [R5 R6]]]]]]|[[R1 [R2 R3]]|[R1 [R2 [R3 [R4 [c0 [R5 R6]]]]]]]].
        + left. split.
          * intros c1 H1. replace c1 with c0 by congruence. destruct R6 as [R6 _]. rewrite R6. destruct S1 as [-> [_ [-> _]]]. exact R3.
          * rewrite FS. intros [[_ H]|H]; [contradiction|]. apply HA in H. rewrite R1 in H. discriminate H.
        + left. split; [intros c1 H1; congruence|]. rewrite FS. intros [[_ H]|H]; [contradiction|]. apply HA in H. rewrite R1 in H. discriminate H.
        + right. split; [|apply FS; right; apply HA; exact R1]. split; [exact R4|]. exists c0. split; [exact R5|].
          rewrite R6. destruct S1 as [_ [_ [-> _]]]. exact R3.
      - pose proof (fit_broken I B) as FB. destruct (fit K T eta out (run h)) as [s' r]. cbn [fst snd] in *. destruct FB as [R1 [R2 [R3 R4]]].
        split; [exact R3|]. split; [exact R2|]. right. split; [exact R4|]. apply FS. left. split; [destruct c; (discriminate || contradiction)|exact FF]. }
    assert (SPLIT : Inv (run (h ++ [c])) /\ (match c with Predict _ | PredictDeriv _ => same_data (run h) (run (h ++ [c])) | _ => True end) /\
      ((good (run (h ++ [c])) /\ ~ failed (h ++ [c])) \/ (broken (run (h ++ [c])) /\ failed (h ++ [c])))).
    { destruct c as [|xx fx|x|x].
      - rewrite run_snoc. split; [apply Inv_reset|]. split; [exact Logic.I|]. left. split; [apply good_reset|]. rewrite FS. intros [[H _]|[]]; congruence.
      - rewrite run_snoc. cbn [step]. destruct (r_add dim lb ub xx fx (run h)) as [s'|e] eqn:EA.
        + destruct (@Inv_add dim lb ub K T eta out xx fx _ _ I EA) as [I' [G' [C1 [C2 [C3 [C4 C5]]]]]]. split; [exact I'|]. split; [exact Logic.I|].
          destruct G as [[G NF]|[B FF]]; [left|right].
          * split; [apply G'; exact G|]. rewrite FS. intros [[_ H]|[]]; contradiction.
          * split; [|apply FS; left; split; [discriminate|exact FF]]. destruct B as [B1 [c0 [B2 B3]]]. split; [exact C2|]. exists c0. split; [congruence|].
            intros H. apply B3. destruct (I_some I B2) as [k [Hk [LC _]]]. eapply nonsingular_eq; [|exact H]. intros i j Hi Hj.
            rewrite (I_box I'), (I_box I), C4. unfold to_unit_box. rewrite map_app. apply sys_prefix; rewrite map_length, <- (I_num I); lia.
        + split; [exact I|]. split; [exact Logic.I|]. destruct G as [[G NF]|[B FF]]; [left|right].
          * split; [exact G|]. rewrite FS. intros [[_ H]|[]]; contradiction.
          * split; [exact B|]. apply FS. left. split; [discriminate|exact FF].
      - apply FIT; [exact Logic.I|rewrite run_snoc; apply predict_fit|]. unfold answer, RBF.predict.
        destruct (fit K T eta out (run h)) as [s' [u|e]]; cbn [snd]; [|split; intros Q; injection Q as ->; reflexivity].
        split; [|discriminate]. destruct (r_c s'); discriminate.
      - apply FIT; [exact Logic.I|rewrite run_snoc; apply deriv_fit|]. unfold answer_deriv, RBF.predict_deriv.
        destruct (fit K T eta out (run h)) as [s' [u|e]]; cbn [snd]; [|split; intros Q; injection Q as ->; reflexivity].
        split; [|discriminate]. destruct (r_c s'); discriminate. }
    destruct SPLIT as [I' [SD G']]. split; [exact I'|]. destruct (@data_contents h I c I' HX HF SD) as [A B]. auto.
Qed.

(** C45: the surrogate contains exactly what was added since the last reset, however the calls
    were grouped and whatever was predicted in between. *)
Theorem C45_contents : forall h, let d := contents dim h in let s := r_s (run h) in
  u_X s = map fst d /\ u_fX s = map snd d /\ u_num s = length d.
Proof.
  intros h. cbv zeta. destruct (run_inv h) as [I [HX [HF _]]]. split; [exact HX|]. split; [exact HF|].
  rewrite (I_num I), HX. apply map_length.
Qed.

(** What a fit has to solve, in terms of the contents [d] of the surrogate: the unit-box points
    u_i, weights w_i, polynomial coefficients l_j with
      sum_j w_j phi(|u_i - u_j|) + eta w_i + sum_j l_j p_j(u_i) = f_i,   sum_i w_i p_j(u_i) = 0. *)
Section System.
Variable d : list (pt * R).
Definition unit_pt (i : nat) : pt := to_unit (fst (nth i d ([], 0))) lb ub.
Definition value (i : nat) : R := nth i (out (map snd d)) 0.
Definition interpolates (l w : nat -> R) : Prop :=
  (forall i, (i < length d)%nat ->
     rsum (length d) (fun j => w j * k_eval K (edist (unit_pt i) (unit_pt j))) + eta * w i +
     rsum ntail (fun j => l j * nth j (t_eval T (unit_pt i)) 0) = value i) /\
  (forall j, (j < ntail)%nat -> rsum (length d) (fun i => w i * nth j (t_eval T (unit_pt i)) 0) = 0).
(** the value of the interpolant with these coefficients *)
Definition rbf_value (l w : nat -> R) (x : pt) : R :=
  rsum (length d) (fun i => w i * k_eval K (edist (to_unit x lb ub) (unit_pt i))) +
  rsum ntail (fun j => l j * nth j (t_eval T (to_unit x lb ub)) 0).
(** the homogeneous system has only the zero solution *)
Definition regular_system : Prop :=
  forall l w, (forall i, (i < length d)%nat ->
     rsum (length d) (fun j => w j * k_eval K (edist (unit_pt i) (unit_pt j))) + eta * w i +
     rsum ntail (fun j => l j * nth j (t_eval T (unit_pt i)) 0) = 0) ->
  (forall j, (j < ntail)%nat -> rsum (length d) (fun i => w i * nth j (t_eval T (unit_pt i)) 0) = 0) ->
  (forall j, (j < ntail)%nat -> l j = 0) /\ forall i, (i < length d)%nat -> w i = 0.
End System.

Section Match.
Variable s : rbf.
Variable d : list (pt * R).
Hypothesis I : Inv s.
Hypothesis HX : u_X (r_s s) = map fst d.
Hypothesis HF : u_fX (r_s s) = map snd d.

Lemma num_d : u_num (r_s s) = length d.
Proof using I HX. rewrite (I_num I), HX. apply map_length. Qed.
Lemma row_d : forall i, (i < length d)%nat -> row (u_UX (r_s s)) i = unit_pt d i.
Proof using I HX.
  intros i Hi. rewrite (I_box I), HX. unfold to_unit_box, unit_pt. rewrite map_map.
  rewrite (nth_indep _ ([] : pt) (to_unit (fst (([] : pt), 0)) lb ub)) by (rewrite map_length; exact Hi).
  rewrite (map_nth (fun q : pt * R => to_unit (fst q) lb ub)). reflexivity.
Qed.

Lemma mul_tail : forall c j, (j < ntail)%nat -> 
  mulv (ntail + u_num (r_s s)) (sysmat K T eta (u_UX (r_s s))) c j =
  rsum (length d) (fun i => nth (ntail + i) c 0 * nth j (t_eval T (unit_pt d i)) 0).
Proof using I HX.
  intros c j Hj. unfold mulv. rewrite num_d, rsum_split. rewrite rsum_0.
  - rewrite Rplus_0_l. apply rsum_ext. intros i Hi. rewrite sys_eq. destruct (Nat.ltb_spec j ntail); [|lia].
    destruct (Nat.ltb_spec (ntail + i) ntail); [lia|]. replace (ntail + i - ntail)%nat with i by lia. rewrite row_d by exact Hi. ring.
  - intros i Hi. rewrite sys_eq. destruct (Nat.ltb_spec j ntail); [|lia]. destruct (Nat.ltb_spec i ntail); [ring|lia].
Qed.
Lemma mul_data : forall c i, (i < length d)%nat ->
  mulv (ntail + u_num (r_s s)) (sysmat K T eta (u_UX (r_s s))) c (ntail + i)%nat =
  rsum (length d) (fun j => nth (ntail + j) c 0 * k_eval K (edist (unit_pt d i) (unit_pt d j))) + eta * nth (ntail + i) c 0 +
  rsum ntail (fun j => nth j c 0 * nth j (t_eval T (unit_pt d i)) 0).
Proof using I HX.
  intros c i Hi. unfold mulv. rewrite num_d, rsum_split.
  rewrite (rsum_ext (n := ntail) _ (fun j => nth j c 0 * nth j (t_eval T (unit_pt d i)) 0)).
  2:{ intros j Hj. rewrite sys_eq. destruct (Nat.ltb_spec (ntail + i) ntail); [lia|]. destruct (Nat.ltb_spec j ntail); [|lia].
      replace (ntail + i - ntail)%nat with i by lia. rewrite row_d by exact Hi. ring. }
  rewrite (rsum_ext (n := length d) _ (fun j => nth (ntail + j) c 0 * k_eval K (edist (unit_pt d i) (unit_pt d j)) + eta * ((if (i =? j)%nat then 1 else 0) * nth (ntail + j) c 0))).
  2:{ intros j Hj. rewrite sys_eq. destruct (Nat.ltb_spec (ntail + i) ntail); [lia|]. destruct (Nat.ltb_spec (ntail + j) ntail); [lia|].
      replace (ntail + i - ntail)%nat with i by lia. replace (ntail + j - ntail)%nat with j by lia. rewrite !row_d by assumption. ring. }
  rewrite rsum_plus, rsum_scal. rewrite (@rsum_one _ (fun j => (if (i =? j)%nat then 1 else 0) * nth (ntail + j) c 0) i Hi).
  - rewrite Nat.eqb_refl. ring.
  - intros j Hj N. destruct (Nat.eqb_spec i j); [congruence|ring].
Qed.
Lemma rhs_tail : forall j, (j < ntail)%nat -> nth j (rhs T out s) 0 = 0.
Proof using. intros j Hj. unfold rhs. rewrite app_nth1 by (rewrite repeat_length; exact Hj). apply nth_repeat. Qed.
Lemma rhs_data : forall i, nth (ntail + i) (rhs T out s) 0 = value d i.
Proof using HF. intros i. unfold rhs. rewrite app_nth2; rewrite repeat_length; [|lia]. rewrite HF. replace (ntail + i - ntail)%nat with i by lia. reflexivity. Qed.

Lemma solves_interpolates : forall c, solves K T eta out s c -> interpolates d (fun j => nth j c 0) (fun i => nth (ntail + i) c 0).
Proof using I HX HF.
  intros c [LC S]. rewrite num_d in S. split.
  - intros i Hi. rewrite <- rhs_data, <- S by lia. rewrite <- mul_data by exact Hi. rewrite num_d. reflexivity.
  - intros j Hj. rewrite <- mul_tail by exact Hj. rewrite num_d, S by lia. apply rhs_tail. exact Hj.
Qed.

Lemma vec_of : forall l w : nat -> R, exists c, length c = (ntail + length d)%nat /\ (forall j, (j < ntail)%nat -> nth j c 0 = l j) /\ (forall i, (i < length d)%nat -> nth (ntail + i) c 0 = w i).
Proof using.
  intros l w. exists (of_fun (ntail + length d) (fun i => if (i <? ntail)%nat then l i else w (i - ntail)%nat)).
  split; [apply of_fun_len|]. split.
  - intros j Hj. rewrite of_fun_nth by lia. destruct (Nat.ltb_spec j ntail); [reflexivity|lia].
  - intros i Hi. rewrite of_fun_nth by lia. destruct (Nat.ltb_spec (ntail + i) ntail); [lia|]. f_equal. lia.
Qed.

Lemma regular_iff : regular K T eta s <-> regular_system d.
Proof using I HX.
  unfold regular. split.
  - intros N l w H1 H2. destruct (vec_of l w) as [c [LC [C1 C2]]].
    assert (Z : forall i, (i < ntail + u_num (r_s s))%nat -> nth i c 0 = 0).
    { apply N; [rewrite num_d; exact LC|]. intros i Hi. rewrite num_d in Hi. destruct (Nat.lt_ge_cases i ntail) as [Hn|Hn].
      - rewrite mul_tail by exact Hn. refine (eq_trans _ (H2 i Hn)). apply rsum_ext. intros a Ha. rewrite C2 by exact Ha. reflexivity.
      - replace i with (ntail + (i - ntail))%nat by lia. rewrite mul_data by lia. refine (eq_trans _ (H1 (i - ntail)%nat ltac:(lia))).
        rewrite C2 by lia. f_equal; [f_equal|].
        + apply rsum_ext. intros a Ha. rewrite C2 by exact Ha. reflexivity.
        + apply rsum_ext. intros a Ha. rewrite C1 by exact Ha. reflexivity. }
    rewrite num_d in Z. split; [intros j Hj; rewrite <- C1 by exact Hj; apply Z; lia|intros i Hi; rewrite <- C2 by exact Hi; apply Z; lia].
  - intros H c LC HC. rewrite num_d in *. destruct (H (fun j => nth j c 0) (fun i => nth (ntail + i) c 0)) as [Z1 Z2].
    + intros i Hi. pose proof (HC (ntail + i)%nat ltac:(lia)) as E. rewrite <- num_d, mul_data in E by exact Hi. exact E.
    + intros j Hj. pose proof (HC j ltac:(lia)) as E. rewrite <- num_d, mul_tail in E by exact Hj. exact E.
    + intros i Hi. destruct (Nat.lt_ge_cases i ntail) as [Hn|Hn]; [apply Z1; exact Hn|].
      specialize (Z2 (i - ntail)%nat ltac:(lia)). replace (ntail + (i - ntail))%nat with i in Z2 by lia. exact Z2.
Qed.

Lemma eval_value : forall c x, eval_at K T c s (to_unit x lb ub) = rbf_value d (fun j => nth j c 0) (fun i => nth (ntail + i) c 0) x.
Proof using I HX.
  intros c x. unfold eval_at, rbf_value. rewrite num_d. f_equal; apply rsum_ext; intros i Hi; [rewrite row_d by exact Hi|]; ring.
Qed.
End Match.

(** The interpolation conditions have at most one solution if the system is regular. *)
Lemma interpolates_unique : forall d l w l' w', regular_system d -> interpolates d l w -> interpolates d l' w' ->
  (forall j, (j < ntail)%nat -> l j = l' j) /\ forall i, (i < length d)%nat -> w i = w' i.
Proof.
  intros d l w l' w' R [A1 A2] [B1 B2]. destruct (R (fun j => l j - l' j) (fun i => w i - w' i)) as [Z1 Z2].
  - intros i Hi. specialize (A1 i Hi). specialize (B1 i Hi).
    rewrite (rsum_ext (n := length d) _ (fun j => w j * k_eval K (edist (unit_pt d i) (unit_pt d j)) - w' j * k_eval K (edist (unit_pt d i) (unit_pt d j)))) by (intros; ring).
    rewrite (rsum_ext (n := ntail) _ (fun j => l j * nth j (t_eval T (unit_pt d i)) 0 - l' j * nth j (t_eval T (unit_pt d i)) 0)) by (intros; ring).
    rewrite !rsum_minus. lra.
  - intros j Hj. specialize (A2 j Hj). specialize (B2 j Hj).
    rewrite (rsum_ext (n := length d) _ (fun i => w i * nth j (t_eval T (unit_pt d i)) 0 - w' i * nth j (t_eval T (unit_pt d i)) 0)) by (intros; ring).
    rewrite rsum_minus. lra.
  - split; [intros j Hj; specialize (Z1 j Hj); lra|intros i Hi; specialize (Z2 i Hi); lra].
Qed.

Lemma rbf_value_ext : forall d l w l' w' x, (forall j, (j < ntail)%nat -> l j = l' j) -> (forall i, (i < length d)%nat -> w i = w' i) ->
  rbf_value d l w x = rbf_value d l' w' x.
Proof.
  intros d l w l' w' x H1 H2. unfold rbf_value. f_equal; apply rsum_ext; intros i Hi; [rewrite H2 by exact Hi|rewrite H1 by exact Hi]; reflexivity.
Qed.

(** C46, full characterisation of predict after any history in which no fit raised LinAlgError
    since the last reset: with too few points AssertionError; with a singular system LinAlgError;
    otherwise the value of the unique interpolant of all data, kept in [c]. *)
Theorem C46_predict : forall h, ~ failed h -> let d := contents dim h in
  ((length d < ntail)%nat /\ forall x, answer h x = Err AssertionError) \/
  ((ntail <= length d)%nat /\ ~ regular_system d /\ forall x, answer h x = Err OtherError) \/
  ((ntail <= length d)%nat /\ regular_system d /\
   exists c, interpolates d (fun j => nth j c 0) (fun i => nth (ntail + i) c 0) /\ length c = (ntail + length d)%nat /\
     forall x, answer h x = Ok (rbf_value d (fun j => nth j c 0) (fun i => nth (ntail + i) c 0) x) /\ r_c (run (h ++ [Predict x])) = Some c).
Proof.
  intros h NF. cbv zeta. destruct (run_inv h) as [I [HX [HF G]]]. destruct G as [[G _]|[_ FF]]; [|contradiction].
  pose proof (fit_spec I G) as S. unfold answer, RBF.predict.
  assert (RS : forall x, run (h ++ [Predict x]) = fst (fit K T eta out (run h))) by (intros x; rewrite run_snoc; apply predict_fit).
  destruct (fit K T eta out (run h)) as [s' r]. cbn [fst] in RS.
  destruct S as [SD [I' S]]. pose proof (@regular_iff _ (contents dim h) I HX) as RI. rewrite (@num_d _ (contents dim h) I HX) in S.
  assert (HX' : u_X (r_s s') = map fst (contents dim h)) by (destruct SD as [_ [-> _]]; exact HX).
  assert (HF' : u_fX (r_s s') = map snd (contents dim h)) by (destruct SD as [_ [_ [_ ->]]]; exact HF).
  destruct S as [[-> [R2 [R3 [R4 [c [R5 R6]]]]]]|[[-> [R2 R3]]|[-> [R2 [R3 _]]]]].
  - right. right. split; [exact R2|]. split; [apply RI; exact R3|]. exists c. rewrite R5. cbn [snd].
    pose proof (@solves_interpolates _ (contents dim h) I' HX' HF' c R6) as SI. split; [exact SI|].
    split; [destruct R6 as [R6 _]; rewrite R6; rewrite (@num_d _ (contents dim h) I' HX'); reflexivity|].
    intros x. split; [rewrite (@eval_value _ (contents dim h) I' HX'); reflexivity|rewrite RS; exact R5].
  - left. split; [exact R2|]. intros x. reflexivity.
  - right. left. split; [exact R2|]. split; [intros H; apply R3; apply RI; exact H|]. intros x. reflexivity.
Qed.

Lemma failed_nil_add : forall xx fx, ~ failed [Add xx fx].
Proof.
  intros xx fx [h1 [c [h2 [E [_ Q]]]]]. destruct h1 as [|a h1]; [injection E as <- _; exact Q|]. injection E as _ E. destruct h1; discriminate E.
Qed.

Lemma contents_dim : forall h x f, In (x, f) (contents dim h) -> length x = dim.
Proof.
  intros h x f. induction h as [|c h IH] using rev_ind; [intros []|]. rewrite contents_snoc. destruct c as [|xx fx|y|y]; [intros []| |exact IH|exact IH].
  destruct (right_shape dim xx fx) eqn:E; [|exact IH]. intros H. apply in_app_or in H. destruct H as [H|H]; [exact (IH H)|].
  apply in_combine_l in H. apply andb_prop in E. destruct E as [_ E]. rewrite forallb_forall in E. apply Nat.eqb_eq. apply E. exact H.
Qed.

(** All the data added in one call. *)
Definition scratch (h : list call) : list call := [Add (map fst (contents dim h)) (map snd (contents dim h))].

Lemma scratch_contents : forall h, contents dim (scratch h) = contents dim h.
Proof.
  intros h. unfold scratch. change [Add (map fst (contents dim h)) (map snd (contents dim h))] with ([] ++ [Add (map fst (contents dim h)) (map snd (contents dim h))]).
  rewrite contents_snoc.
  assert (E : right_shape dim (map fst (contents dim h)) (map snd (contents dim h)) = true).
  { unfold right_shape. rewrite !map_length, Nat.eqb_refl. cbn [andb]. apply forallb_forall. intros x Hx. apply in_map_iff in Hx. destruct Hx as [[y f] [<- Hy]].
    apply Nat.eqb_eq. eapply contents_dim. exact Hy. }
  rewrite E. cbn [contents fold_left app]. generalize (contents dim h) as l. induction l as [|[x f] l IH]; [reflexivity|]. simpl. f_equal. exact IH.
Qed.

Lemma scratch_ok : forall h, ~ failed (scratch h).
Proof. intros h. apply failed_nil_add. Qed.

(** Predictions depend on the contents only. *)
Theorem C46_same_contents : forall h1 h2, ~ failed h1 -> ~ failed h2 -> contents dim h1 = contents dim h2 ->
  forall x, answer h1 x = answer h2 x.
Proof.
  intros h1 h2 N1 N2 E x. pose proof (C46_predict N1) as P1. pose proof (C46_predict N2) as P2. cbv zeta in P1, P2. rewrite <- E in P2.
  destruct P1 as [[L1 A1]|[[L1 [R1 A1]]|[L1 [R1 [c1 [I1 [_ A1]]]]]]], P2 as [[L2 A2]|[[L2 [R2 A2]]|[L2 [R2 [c2 [I2 [_ A2]]]]]]]; try lia; try contradiction;
    rewrite ?A1, ?A2; try reflexivity.
  rewrite (proj1 (A1 x)), (proj1 (A2 x)). f_equal. destruct (interpolates_unique R1 I1 I2) as [U1 U2]. apply rbf_value_ext; assumption.
Qed.

(** Hence extending the factorisation gives what a fit from scratch on all points gives. *)
Theorem C46_incremental_partial : forall h, ~ failed h -> forall x, answer h x = answer (scratch h) x.
Proof. intros h N x. apply C46_same_contents; [exact N|apply scratch_ok|symmetry; apply scratch_contents]. Qed.

(** C45: predict leaves the data alone and, once it has returned a value, a further call of
    predict or predict_deriv changes nothing (no refit). *)
Theorem C45_no_refit : forall h c x v, In c [Predict x; PredictDeriv x] -> answer h x = Ok v ->
  forall y, run (h ++ [c; Predict y]) = run (h ++ [c]) /\ run (h ++ [c; PredictDeriv y]) = run (h ++ [c]).
Proof.
  intros h c x v HC HV y. change [c; Predict y] with ([c] ++ [Predict y]). change [c; PredictDeriv y] with ([c] ++ [PredictDeriv y]).
  rewrite !app_assoc, !(run_snoc (h ++ [c])). cbn [step]. rewrite predict_fit, deriv_fit.
  assert (U : u_updated (r_s (run (h ++ [c]))) = true).
  { assert (E : run (h ++ [c]) = fst (fit K T eta out (run h))).
    { rewrite run_snoc. destruct HC as [<-|[<-|[]]]; [apply predict_fit|apply deriv_fit]. }
    rewrite E. unfold answer, RBF.predict in HV. destruct (run_inv h) as [I [_ [_ [[G _]|[B _]]]]].
    - pose proof (fit_spec I G) as S. destruct (fit K T eta out (run h)) as [s' r]. destruct S as [_ [_ S]].
      destruct S as [[_ [_ [_ [S _]]]]|[[-> _]|[-> _]]]; [exact S|discriminate HV|discriminate HV].
    - pose proof (fit_broken I B) as S. destruct (fit K T eta out (run h)) as [s' r]. destruct S as [-> _]. discriminate HV. }
  unfold fit. rewrite U. split; reflexivity.
Qed.

(** After a LinAlgError every later predict raises, whatever is added, until reset is called. *)
Theorem C45_stuck : forall h, failed h -> forall x, answer h x = Err OtherError.
Proof.
  intros h FF x. destruct (run_inv h) as [I [_ [_ [[_ NF]|[B _]]]]]; [contradiction|].
  pose proof (fit_broken I B) as S. unfold answer, RBF.predict. destruct (fit K T eta out (run h)) as [s' r]. destruct S as [-> _]. reflexivity.
Qed.

(** C47: at the data points. *)
Theorem C47_interpolation : forall h, ~ failed h -> let d := contents dim h in
  forall x v, answer h x = Ok v -> exists c,
  (forall i, (i < length d)%nat -> answer h (fst (nth i d ([], 0))) = Ok (value d i - eta * nth (ntail + i) c 0)) /\
  (forall j, (j < ntail)%nat -> rsum (length d) (fun i => nth (ntail + i) c 0 * nth j (t_eval T (unit_pt d i)) 0) = 0) /\
  r_c (run (h ++ [Predict x])) = Some c.
Proof.
  intros h NF. cbv zeta. intros x v HV. destruct (C46_predict NF) as [[_ A]|[[_ [_ A]]|[_ [_ [c [[I1 I2] [_ A]]]]]]]; try (rewrite A in HV; discriminate HV).
  exists c. split; [|split; [exact I2|apply A]]. intros i Hi. rewrite (proj1 (A _)). f_equal. rewrite <- (I1 i Hi). unfold rbf_value.
  change (to_unit (fst (nth i (contents dim h) ([], 0))) lb ub) with (unit_pt (contents dim h) i). ring.
Qed.

(** Exact interpolation for eta = 0 and no output transformation. *)
Corollary C47_exact : forall h, eta = 0 -> (forall l, out l = l) -> ~ failed h ->
  forall x v, answer h x = Ok v ->
  forall x_i f_i, In (x_i, f_i) (contents dim h) -> answer h x_i = Ok f_i.
Proof.
  intros h E0 HO NF x v HV xi fi HI. destruct (C47_interpolation NF x HV) as [c [C _]].
  destruct (In_nth _ _ (([] : pt), 0) HI) as [i [Hi E]]. specialize (C i Hi). cbv zeta in C. match type of C with answer ?a (fst ?b) = _ => replace b with (xi, fi) in C end. cbn [fst] in C. rewrite C. f_equal.
  rewrite E0. unfold value. rewrite HO. rewrite (nth_indep _ 0 (snd (([] : pt), 0))) by (rewrite map_length; exact Hi). rewrite map_nth, E. cbn [snd]. ring.
Qed.

(** C47: data from a function of the tail space are reproduced everywhere. *)
Theorem C47_reproduction : forall h l, ~ failed h -> let d := contents dim h in
  (ntail <= length d)%nat -> regular_system d ->
  (forall i, (i < length d)%nat -> value d i = rsum ntail (fun j => l j * nth j (t_eval T (unit_pt d i)) 0)) ->
  forall x, answer h x = Ok (rsum ntail (fun j => l j * nth j (t_eval T (to_unit x lb ub)) 0)).
Proof.
  intros h l NF. cbv zeta. intros HN R HV x. destruct (C46_predict NF) as [[L _]|[[_ [NR _]]|[_ [_ [c [I1 [_ A]]]]]]]; [lia|contradiction|].
  rewrite (proj1 (A x)). f_equal.
  assert (I2 : interpolates (contents dim h) l (fun _ => 0)).
  { split.
    - intros i Hi. rewrite (HV i Hi). rewrite (@rsum_0 (length (contents dim h))) by (intros; ring). ring.
    - intros j Hj. apply rsum_0. intros; ring. }
  destruct (interpolates_unique R I1 I2) as [U1 U2]. rewrite (@rbf_value_ext (contents dim h) _ _ _ _ x U1 U2). unfold rbf_value. rewrite rsum_0 by (intros; ring). ring.
Qed.
End RBF.
