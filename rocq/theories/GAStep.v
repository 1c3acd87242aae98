(** * C73: what one generation of the genetic algorithm does. *)
From Coq Require Import List Arith ZArith Lia Bool Reals Lra.
From Verif Require Import Base PyList Box PropBox Cand PropCand GA PropGA.
Import ListNotations.
Set Implicit Arguments.
Local Open Scope R_scope.

(** ** Specification *)
Section Spec.
Variable q : prob.
Variable dim : nat.
Variable f : pt -> xr.

(** [b] is the first of the individuals with the lowest value. *)
Definition first_best (E : list pt) (b : pt) : Prop :=
  exists k, nth_error E k = Some b /\ forall j y, nth_error E j = Some y -> xlt (f y) (f b) = false /\ ((j < k)%nat -> xlt (f b) (f y) = true).
(** [x] is the position of the competitor with the lowest value in a tournament of five: the values are
    those of the evaluated population [E], the positions those of [U]. *)
Definition tournament (E U : list pt) (comp : nat -> nat) (x : pt) : Prop :=
  exists k e, (k < 5)%nat /\ nth_error E (comp k) = Some e /\ nth_error U (comp k) = Some x /\
  forall k' e', (k' < 5)%nat -> nth_error E (comp k') = Some e' -> xlt (f e') (f e) = false /\ ((k' < k)%nat -> xlt (f e) (f e') = true).
(** The r-th child of the parents [x] and [y] with the draws [g]; [r] and [partner] share their crossover. *)
Definition partner (nind r : nat) : nat := if (r <? nind / 2)%nat then (r + nind / 2)%nat else (r - nind / 2)%nat.
Definition couple (nind r : nat) : nat := if (r <? nind / 2)%nat then r else (r - nind / 2)%nat.
Definition child (nind : nat) (g : gen_draw) (r : nat) (x y u : pt) : Prop :=
  length u = dim /\ forall i, (i < dim)%nat ->
  let a := g_alpha g (couple nind r) in
  let m := if g_cross g (couple nind r) then a * x@i + (1 - a) * y@i else x@i in
  u@i = Rmin ((q_ub q)@i) (Rmax ((q_lb q)@i) (if g_mut g r i then m + g_pert g r i * (/ 5 * ((q_ub q)@i - (q_lb q)@i)) else m)).
(** [e] is [u] with the integer variables rounded to the closest feasible integer. *)
Definition rounded (u e : pt) : Prop :=
  length e = dim /\ forall i, (i < dim)%nat -> (~ In i (q_int q) -> e@i = u@i) /\
  (In i (q_int q) -> integral (e@i) /\ forall w, integral w -> (q_lb q)@i <= w <= (q_ub q)@i -> Rabs (u@i - e@i) <= Rabs (u@i - w)).
(** From the evaluated population [E] with the positions [U] to the next ones. *)
Definition next_generation (nind : nat) (g : gen_draw) (E U E' U' : list pt) : Prop :=
  length E' = nind /\
  exists C, length C = nind /\
  (forall r, (r < nind)%nat -> exists x y u, tournament E U (g_comp g r) x /\ tournament E U (g_comp g (partner nind r)) y /\
     nth_error C r = Some u /\ child nind g r x y u) /\
  (exists b, nth_error E' 0 = Some b /\ first_best E b) /\
  (forall r u e, (0 < r)%nat -> nth_error C r = Some u -> nth_error E' r = Some e -> rounded u e) /\
  (q_int q = [] -> U' = E') /\ (q_int q <> [] -> U' = C).
End Spec.

(** ** Lists *)
Lemma mapi_from_nth : forall A B (f : nat -> A -> B) l i k, nth_error (mapi_from i f l) k = option_map (f (i + k)%nat) (nth_error l k).
Proof.
  intros A B f l. induction l as [|a l IH]; intros i [|k]; try reflexivity; cbn [mapi_from nth_error option_map].
  - rewrite Nat.add_0_r. reflexivity.
  - rewrite IH. rewrite Nat.add_succ_comm. reflexivity.
Qed.
Lemma mapi_nth : forall A B (f : nat -> A -> B) l k, nth_error (mapi f l) k = option_map (f k) (nth_error l k).
Proof. intros. unfold mapi. rewrite mapi_from_nth. reflexivity. Qed.
Lemma nth_error_combine : forall A B (l : list A) (l' : list B) k a b, nth_error l k = Some a -> nth_error l' k = Some b -> nth_error (combine l l') k = Some (a, b).
Proof. intros A B l. induction l as [|x l IH]; intros [|y l'] [|k] a b H1 H2; try discriminate; cbn in *; [congruence|auto]. Qed.
Lemma nth_of_error : forall (l : pt) k a, nth_error l k = Some a -> l@k = a.
Proof. intros l. induction l as [|x l IH]; intros [|k] a H; try discriminate; cbn in *; [congruence|auto]. Qed.

Lemma last_cons : forall A (l : list A) a d, last (a :: l) d = last l a.
Proof. intros A l. induction l as [|b l IH]; intros a d; [reflexivity|]. change (last (a :: b :: l) d) with (last (b :: l) d). rewrite !IH. reflexivity. Qed.

Section GA.
Variable q : prob.
Variable dim : nat.
Hypothesis WF : well_formed q dim.
Variable f : pt -> xr.
Hypothesis NN : forall x, f x <> XNan.
Notation first_best := (first_best f).
Notation tournament := (tournament f).
Notation child := (child q dim).
Notation rounded := (rounded q dim).

Lemma evaluate_first : forall E keep s, E <> [] -> ga_evaluate f E keep = Ok s -> ga_pop s = keep /\ ga_vals s = map f E /\ first_best E (ga_best s) /\ ga_value s = f (ga_best s).
Proof using NN.
  intros E keep s NE H. unfold ga_evaluate in H.
  destruct (@xargmin_first (map f E)) as [k [v [E1 [E2 [E3 E4]]]]].
  { intros K. apply map_eq_nil in K. contradiction. }
  { apply (@not_nan_map f NN). }
  rewrite E1 in H. cbn [rbind] in H. rewrite nth_error_map in E2. destruct (nth_error E k) as [x|] eqn:EK; [|discriminate E2]. cbn in E2. injection E2 as <-.
  unfold geti in H at 1. rewrite EK in H. cbn [rbind] in H. unfold geti in H. rewrite nth_error_map, EK in H. cbn in H. injection H as <-. cbn [ga_pop ga_vals ga_best ga_value].
  split; [reflexivity|]. split; [reflexivity|]. split; [|reflexivity]. exists k. split; [exact EK|]. intros j y Hj. split.
  - apply E3. apply in_map. eapply nth_error_In; exact Hj.
  - intros L. apply (E4 j); [exact L|]. rewrite nth_error_map, Hj. reflexivity.
Qed.

Lemma winner_tournament : forall E U g r w x, winner (map f E) g r = Ok w -> nth_error U w = Some x -> tournament E U (g_comp g r) x.
Proof using NN.
  intros E U g r w x H HU. unfold winner in H. apply rbind_ok in H. destruct H as [vs [H1 H]]. apply rbind_ok in H. destruct H as [k [H2 H3]].
  destruct (mapR_nth _ _ H1) as [L N]. rewrite map_length, seq_length in L.
  assert (CE : forall j, (j < 5)%nat -> nth_error (map (g_comp g r) (seq 0 5)) j = Some (g_comp g r j)).
  { intros j Hj. rewrite nth_error_map. replace (nth_error (seq 0 5) j) with (Some j) by (do 5 (destruct j as [|j]; [reflexivity|]); lia). reflexivity. }
  assert (VE : forall j v, nth_error vs j = Some v -> exists e, nth_error E (g_comp g r j) = Some e /\ v = f e).
  { intros j v Hv. pose proof Hv as Hj. apply N in Hv. destruct Hv as [a [A1 A2]]. assert (j < 5)%nat by (rewrite <- L; apply nth_error_Some; congruence).
    rewrite CE in A1 by assumption. injection A1 as <-. apply geti_ok in A2. rewrite nth_error_map in A2. destruct (nth_error E (g_comp g r j)) as [e|]; [|discriminate A2]. injection A2 as <-. eauto. }
  destruct (@xargmin_first vs) as [k0 [v [E1 [E2 [E3 E4]]]]].
  { intros ->. discriminate L. }
  { apply Forall_forall. intros v Hv. apply In_nth_error in Hv. destruct Hv as [j Hj]. destruct (VE j v Hj) as [e [_ ->]]. apply NN. }
  rewrite H2 in E1. injection E1 as <-. assert (K5 : (k < 5)%nat) by (rewrite <- L; apply nth_error_Some; congruence).
  apply geti_ok in H3. rewrite CE in H3 by exact K5. injection H3 as <-. destruct (VE k v E2) as [e [A1 ->]].
  exists k, e. split; [exact K5|]. split; [exact A1|]. split; [exact HU|]. intros k' e' K' A2.
  destruct (nth_error vs k') as [v'|] eqn:EV; [|apply nth_error_None in EV; lia]. destruct (VE k' v' EV) as [e2 [B1 B2]].
  rewrite A2 in B1. injection B1 as <-. split.
  - rewrite <- B2. apply E3. eapply nth_error_In; exact EV.
  - intros LT. rewrite <- B2. exact (E4 k' v' LT EV).
Qed.

Lemma lin_nth : forall al (x y : pt) i, length x = dim -> length y = dim -> (i < dim)%nat -> (lin al x y)@i = al * x@i + (1 - al) * y@i.
Proof using.
  intros al x y i Lx Ly Hi. apply nth_of_error. unfold lin. rewrite nth_error_map.
  rewrite (nth_error_combine x y i (a := x@i) (b := y@i)); [reflexivity| |]; apply nth_error_nth'; lia.
Qed.
Lemma mutate_child : forall g r (x : pt) i, length x = dim -> (i < dim)%nat ->
  (mutate_row q g r x)@i = Rmin ((q_ub q)@i) (Rmax ((q_lb q)@i) (if g_mut g r i then x@i + g_pert g r i * (/ 5 * ((q_ub q)@i - (q_lb q)@i)) else x@i)).
Proof using WF.
  intros g r x i Lx Hi. destruct WF as [[L1 [L2 _]] _]. unfold mutate_row. rewrite (map3_nth _ _ _ _ (dim := dim)) by (auto; rewrite mapi_len; exact Lx).
  f_equal. f_equal. apply nth_of_error. rewrite mapi_nth. rewrite (nth_error_nth' x 0) by lia. cbn [option_map]. f_equal. destruct (g_mut g r i); ring.
Qed.

Lemma crossover_nth : forall g ps nind r x y, length ps = nind -> Nat.Even nind -> (r < nind)%nat -> rows dim ps -> nth_error ps r = Some x -> nth_error ps (partner nind r) = Some y ->
  exists z, nth_error (crossover g (firstn (nind / 2) ps) (skipn (nind / 2) ps)) r = Some z /\ length z = dim /\
  forall i, (i < dim)%nat -> z@i = (if g_cross g (couple nind r) then g_alpha g (couple nind r) * x@i + (1 - g_alpha g (couple nind r)) * y@i else x@i).
Proof using.
  clear WF NN f. intros g ps nind r x y L [m Hm] Hr RP Hx Hy. assert (Hh : (nind / 2 = m)%nat) by (rewrite Hm, Nat.mul_comm; apply Nat.div_mul; lia).
  unfold partner, couple in *. rewrite Hh in *.
  assert (NS : forall k, nth_error (skipn m ps) k = nth_error ps (m + k)).
  { intros k. clear. revert ps. induction m as [|m IH]; intros ps; [reflexivity|]. destruct ps as [|p ps]; [destruct k; reflexivity|]. cbn [skipn Nat.add nth_error]. apply IH. }
  assert (NF : forall k, (k < m)%nat -> nth_error (firstn m ps) k = nth_error ps k).
  { intros k. clear. revert ps m. induction k as [|k IH]; intros [|p ps] [|m] Hk; try lia; try reflexivity. cbn [firstn nth_error]. apply IH. lia. }
  assert (LX : forall k a, nth_error ps k = Some a -> length a = dim).
  { intros k a Ha. unfold rows in RP. rewrite Forall_forall in RP. apply RP. eapply nth_error_In; exact Ha. }
  pose proof (LX _ _ Hx) as L1. pose proof (LX _ _ Hy) as L2.
  unfold crossover. cbv zeta. set (c := mapi (cross_row g) (combine (firstn m ps) (skipn m ps))).
  assert (LC : length c = m) by (unfold c; rewrite mapi_len, combine_length, firstn_length, skipn_length; lia).
  destruct (Nat.ltb_spec r m) as [H|H].
  - assert (CN : nth_error c r = Some (cross_row g r (x, y))).
    { unfold c. rewrite mapi_nth. rewrite (nth_error_combine _ _ r (a := x) (b := y)); [reflexivity|rewrite NF by exact H; exact Hx|rewrite NS, Nat.add_comm; exact Hy]. }
    rewrite nth_error_app1 by (rewrite map_length; lia). rewrite nth_error_map, CN. cbn [option_map]. unfold cross_row.
    destruct (g_cross g r); cbn [fst]; eexists; (split; [reflexivity|]); [|split; [exact L1|reflexivity]].
    split; [apply lin_len; assumption|]. intros i Hi. apply lin_nth; assumption.
  - assert (CN : nth_error c (r - m) = Some (cross_row g (r - m) (y, x))).
    { unfold c. rewrite mapi_nth. rewrite (nth_error_combine _ _ (r - m) (a := y) (b := x)); [reflexivity|rewrite NF by lia; exact Hy|rewrite NS; replace (m + (r - m))%nat with r by lia; exact Hx]. }
    rewrite nth_error_app2 by (rewrite map_length; lia). rewrite map_length, LC, nth_error_map, CN. cbn [option_map]. unfold cross_row.
    destruct (g_cross g (r - m)); cbn [snd]; eexists; (split; [reflexivity|]); [|split; [exact L1|reflexivity]].
    split; [apply lin_len; assumption|]. intros i Hi. apply lin_nth; assumption.
Qed.

(** State between generations: [E] is the population that was evaluated last. *)
Definition between (nind : nat) (E : list pt) (s : ga_state) : Prop :=
  length E = nind /\ ga_vals s = map f E /\ first_best E (ga_best s) /\ rows dim (ga_pop s) /\ length (ga_pop s) = nind /\ length (ga_best s) = dim.

Lemma generation_step : forall nind g s s' E E', (1 <= nind)%nat -> Nat.Even nind -> between nind E s -> generation q f nind g s = Ok (s', E') ->
  between nind E' s' /\ next_generation q dim f nind g E (ga_pop s) E' (ga_pop s') /\ ga_value s' = f (ga_best s').
Proof using WF NN.
  intros nind g s s' E E' Hn He [B1 [B2 [B3 [B4 [B5 B6]]]]] H. unfold generation in H.
  apply rbind_ok in H. destruct H as [ws [H1 H]]. apply rbind_ok in H. destruct H as [ps [H2 H]]. cbv zeta in H.
  apply rbind_ok in H. destruct H as [Y [H3 H]]. apply rbind_ok in H. destruct H as [E2 [H4 H]]. apply rbind_ok in H. destruct H as [s2 [H5 H]]. injection H as -> ->.
  destruct (mapR_nth _ _ H1) as [L1 N1]. rewrite seq_length in L1. destruct (mapR_nth _ _ H2) as [L2 N2].
  assert (LP : length ps = nind) by lia.
  assert (RP : rows dim ps).
  { apply Forall_forall. intros x Hx. destruct (mapR_in _ _ x H2 Hx) as [w [_ Hw]]. apply geti_ok in Hw.
    unfold rows in B4. rewrite Forall_forall in B4. apply B4. eapply nth_error_In; eauto. }
  set (C0 := crossover g (firstn (nind / 2) ps) (skipn (nind / 2) ps)) in *. set (C := mapi (mutate_row q g) C0) in *.
  assert (PA : forall r, (r < nind)%nat -> exists x, nth_error ps r = Some x /\ tournament E (ga_pop s) (g_comp g r) x).
  { intros r Hr. destruct (nth_error ps r) as [x|] eqn:Ex; [|apply nth_error_None in Ex; lia]. exists x. split; [reflexivity|].
    pose proof Ex as K. apply N2 in K. destruct K as [w [K1 K2]]. apply geti_ok in K2. apply N1 in K1. destruct K1 as [r' [K3 K4]].
    assert (r' = r).
    { apply nth_error_nth with (d := 0%nat) in K3. rewrite seq_nth in K3 by exact Hr. lia. }
    subst r'. rewrite B2 in K4. eapply winner_tournament; [exact K4|exact K2]. }
  assert (PR : forall r, (r < nind)%nat -> (partner nind r < nind)%nat).
  { intros r Hr. destruct He as [m Hm]. assert (Hh : (nind / 2 = m)%nat) by (rewrite Hm, Nat.mul_comm; apply Nat.div_mul; lia).
    unfold partner. rewrite Hh. destruct (Nat.ltb_spec r m); lia. }
  assert (CH : forall r, (r < nind)%nat -> exists x y u, tournament E (ga_pop s) (g_comp g r) x /\ tournament E (ga_pop s) (g_comp g (partner nind r)) y /\ nth_error C r = Some u /\ child nind g r x y u).
  { intros r Hr. destruct (PA r Hr) as [x [X1 X2]]. destruct (PA _ (PR r Hr)) as [y [Y1 Y2]].
    destruct (crossover_nth g LP He Hr RP X1 Y1) as [z [Z1 [Z2 Z3]]]. exists x, y, (mutate_row q g r z). split; [exact X2|]. split; [exact Y2|].
    split; [unfold C; rewrite mapi_nth; fold C0 in Z1; rewrite Z1; reflexivity|]. split.
    - apply (mutate_inside WF). exact Z2.
    - intros i Hi. cbv zeta. rewrite mutate_child by assumption. rewrite Z3 by exact Hi. reflexivity. }
  assert (LC : length C = nind).
  { unfold C. rewrite mapi_len. unfold C0. destruct He as [m Hm]. assert (Hh : (nind / 2 = m)%nat) by (rewrite Hm, Nat.mul_comm; apply Nat.div_mul; lia).
    unfold crossover. rewrite app_length, !map_length, mapi_len, combine_length, firstn_length, skipn_length. lia. }
  assert (RC : Forall (fun x => length x = dim) C).
  { apply Forall_forall. intros u Hu. apply In_nth_error in Hu. destruct Hu as [r Hr]. assert (Hrn : (r < nind)%nat) by (rewrite <- LC; apply nth_error_Some; intros K; pose proof (eq_trans (eq_sym Hr) K) as F; discriminate F).
    destruct (CH r Hrn) as [x [y [u' [_ [_ [K1 [K2 _]]]]]]]. pose proof (eq_trans (eq_sym Hr) K1) as F. injection F as ->. exact K2. }
  destruct WF as [BD IV].
  destruct (@C41_round_vars dim (q_lb q) (q_ub q) (q_int q) C BD) as [Y2 [R1 [R2 R3]]]; [intros; apply IV; assumption|exact RC|]. rewrite H3 in R1. injection R1 as <-.
  assert (R2' := eq_trans R2 LC). destruct Y as [|y0 Y]; [cbn in R2'; lia|]. cbn [set_first] in H4. injection H4 as <-.
  assert (LE : length (ga_best s :: Y) = nind) by (cbn [length] in *; lia).
  destruct (@evaluate_first (ga_best s :: Y) (keep_pop q C (ga_best s :: Y)) s') as [F1 [F2 [F3 F4]]]; [discriminate|exact H5|].
  assert (RE : rows dim (ga_best s :: Y)).
  { constructor; [exact B6|]. apply Forall_forall. intros e He2. apply In_nth_error in He2. destruct He2 as [r Hr].
    assert (HL : (r < length Y)%nat) by (apply nth_error_Some; intros K; pose proof (eq_trans (eq_sym Hr) K) as F; discriminate F).
    destruct (nth_error C (S r)) as [u|] eqn:EU; [|apply nth_error_None in EU; exfalso; cbn [length] in *; lia].
    exact (proj1 (R3 (S r) u e EU Hr)). }
  split; [|split; [|exact F4]].
  - split; [exact LE|]. split; [exact F2|]. split; [exact F3|]. rewrite F1.
    assert (BL : length (ga_best s') = dim).
    { destruct F3 as [k [K _]]. unfold rows in RE. rewrite Forall_forall in RE. apply RE. eapply nth_error_In; exact K. }
    unfold keep_pop. destruct (q_int q); repeat split; try assumption; lia.
  - split; [exact LE|]. exists C. split; [exact LC|]. split; [exact CH|]. split; [exists (ga_best s); split; [reflexivity|exact B3]|]. split.
    + intros [|r] u e Hr HU HE; [lia|]. cbn [nth_error] in HE. destruct (R3 (S r) u e HU HE) as [K1 K2]. split; [exact K1|]. intros i Hi. destruct (K2 i Hi) as [M1 [M2 M3]].
      split; [exact M1|]. intros I. destruct (IV i I) as [_ [I1 I2]]. exact (M3 I I1 I2).
    + rewrite F1. unfold keep_pop. destruct (q_int q); split; intros K; congruence.
Qed.

Lemma generations_step : forall nind gs s s' tr E, (1 <= nind)%nat -> Nat.Even nind -> between nind E s -> generations q f nind gs s = Ok (s', tr) ->
  exists us, length us = length tr /\ length tr = length gs /\ first_best (last tr E) (ga_best s') /\
  forall k E1 U1 E2 U2 g, nth_error (E :: tr) k = Some E1 -> nth_error (ga_pop s :: us) k = Some U1 -> nth_error tr k = Some E2 -> nth_error us k = Some U2 -> nth_error gs k = Some g ->
  next_generation q dim f nind g E1 U1 E2 U2.
Proof using WF NN.
  intros nind gs. induction gs as [|g gs IH]; intros s s' tr E Hn He B H; cbn [generations] in H.
  - injection H as <- <-. exists []. split; [reflexivity|]. split; [reflexivity|]. split; [apply B|]. intros [|k] E1 U1 E2 U2 g _ _ K; discriminate K.
  - apply rbind_ok in H. destruct H as [[s1 E1] [H1 H]]. apply rbind_ok in H. destruct H as [[s2 tr2] [H2 H]]. cbn [fst snd] in *. injection H as <- <-.
    destruct (@generation_step nind g s s1 E E1 Hn He B H1) as [B1 [G _]]. destruct (IH s1 s2 tr2 E1 Hn He B1 H2) as [us [U1 [U2 [U3 U4]]]].
    exists (ga_pop s1 :: us). split; [cbn; congruence|]. split; [cbn; congruence|]. split.
    + rewrite last_cons. exact U3.
    + intros [|k] A1 A2 A3 A4 g' K1 K2 K3 K4 K5; cbn [nth_error] in *.
      * congruence.
      * exact (U4 k A1 A2 A3 A4 g' K1 K2 K3 K4 K5).
Qed.

Lemma init_rounded : forall X Y, Forall (inside dim (q_lb q) (q_ub q)) X -> init_round q X = Ok Y -> Forall2 rounded X Y.
Proof using WF.
  clear NN f. intros X Y HX H.
  assert (R : rows dim X) by (unfold rows; eapply Forall_impl; [|exact HX]; intros x [L _]; exact L).
  destruct WF as [B I].
  destruct (@round_cols_ent dim (q_int q) X) as [Z [E1 F1]]; [intros; apply I; auto|exact R|].
  assert (FZ : Forall2 rounded X Z /\ Forall (fun z => length z = dim /\ forall j, (j < dim)%nat -> (q_lb q)@j <= z@j <= (q_ub q)@j) Z).
  { clear E1 H. revert R HX. induction F1 as [|x y X Z [A C] F1 IH]; intros R HX; [split; constructor|].
    inversion R; inversion HX; subst. destruct (IH H2 H6) as [IH1 IH2]. destruct H5 as [L1 L2].
    assert (C' : forall j, (j < length x)%nat -> (q_lb q)@j <= y@j <= (q_ub q)@j).
    { intros j Hj. rewrite C by exact Hj. destruct (mem j (q_int q)) eqn:Em; [|apply L2; exact Hj].
      apply mem_spec in Em. destruct (I j Em) as [_ [[zl El] [zu Eu]]]. specialize (L2 j Hj). rewrite El, Eu in *. apply np_round_in. exact L2. }
    split; (constructor; [|assumption]); [|split; [exact A|exact C']]. split; [exact A|]. intros j Hj. rewrite C by exact Hj. split.
    - intros K. destruct (mem j (q_int q)) eqn:Em; [apply mem_spec in Em; contradiction|reflexivity].
    - intros K. destruct (mem j (q_int q)) eqn:Em; [|apply mem_spec in K; congruence]. split; [eexists; reflexivity|].
      intros w [z ->] _. apply np_round_closest. }
  destruct FZ as [FZ BZ]. replace Y with Z; [exact FZ|]. unfold init_round in H. destruct (q_int q) as [|i0 iv] eqn:Eq; [cbn in E1; congruence|].
  rewrite <- Eq in *. rewrite E1 in H. cbn [rbind] in H.
  rewrite (@shift_cols_id q dim (conj B I)) in H; [congruence|intros i Hi; apply I; exact Hi| |].
  - unfold rows. eapply Forall_impl; [|exact BZ]. intros z [L _]. exact L.
  - intros z i Hz Hi. rewrite Forall_forall in BZ. destruct (BZ z Hz) as [_ K]. apply K, I, Hi.
Qed.

(** C73: the evaluated populations [tr] and the positions [us] of their individuals.  The first population
    is the start population with rounded integer variables; every further one consists of the first best
    individual so far and rounded children of winners of tournaments; the result is the first best
    individual of the last population. *)
Theorem C73_generations : forall pop_size U gs x v tr, (1 <= pop_size)%nat -> draws_ok dim (pop_size + pop_size mod 2) U gs ->
  ga_optimize q f pop_size (StartUnit U) gs = Ok (x, v, tr) ->
  exists us, length us = length tr /\ length tr = S (length gs) /\
  (exists E0 U0, nth_error tr 0 = Some E0 /\ nth_error us 0 = Some U0 /\ Forall2 rounded U0 E0 /\
     Forall2 (fun u p => length p = dim /\ forall i, (i < dim)%nat -> p@i = (q_lb q)@i + u@i * ((q_ub q)@i - (q_lb q)@i)) U U0) /\
  first_best (last tr []) x /\ v = f x /\
  forall k E1 U1 E2 U2 g, nth_error tr k = Some E1 -> nth_error us k = Some U1 -> nth_error tr (S k) = Some E2 -> nth_error us (S k) = Some U2 -> nth_error gs k = Some g ->
  next_generation q dim f (pop_size + pop_size mod 2) g E1 U1 E2 U2.
Proof using WF NN.
  intros pop_size U gs x v tr Hp [D1 [D2 D3]] H. pose proof H as H0. destruct (@C35_ga q dim WF f NN pop_size U gs Hp (conj D1 (conj D2 D3))) as [x' [v' [tr' [HO [_ [HV _]]]]]].
  assert (HVX : v = f x) by congruence. clear x' v' tr' HO HV H0.
  unfold ga_optimize in H. cbv zeta in H. set (nind := (pop_size + pop_size mod 2)%nat) in *.
  assert (He : Nat.Even nind).
  { unfold nind. apply Nat.even_spec. rewrite Nat.even_add.
    pose proof (Nat.mod_upper_bound pop_size 2 ltac:(lia)) as M. rewrite (Nat.div_mod pop_size 2) at 1 by lia.
    rewrite Nat.even_add, Nat.even_mul. cbn [Nat.even orb]. destruct (pop_size mod 2)%nat as [|[|?]]; [reflexivity|reflexivity|lia]. }
  assert (Hn : (1 <= nind)%nat) by (unfold nind; lia). clearbody nind.
  cbn [init_population rbind] in H. set (pop := map _ U) in *. apply rbind_ok in H. destruct H as [E [H1 H]]. apply rbind_ok in H. destruct H as [s [H2 H]].
  apply rbind_ok in H. destruct H as [[s2 tr2] [H3 H]]. cbn [fst snd] in H. injection H as <- _ <-.
  destruct WF as [[L1 [L2 L3]] IV].
  assert (PU : Forall2 (fun u p => length p = dim /\ forall i, (i < dim)%nat -> p@i = (q_lb q)@i + u@i * ((q_ub q)@i - (q_lb q)@i)) U pop).
  { unfold pop. clear -D2 L1 L2. induction D2 as [|u U [LU _] _ IH]; constructor; [|exact IH]. split; [apply map3_len; assumption|]. intros i Hi. rewrite (map3_nth _ _ _ _ (dim := dim)) by assumption. reflexivity. }
  assert (IP : Forall (inside dim (q_lb q) (q_ub q)) pop).
  { clear -PU D2 L3. revert D2. induction PU as [|u p U P [A1 A2] _ IH]; intros D2; [constructor|]. inversion D2 as [|? ? [_ D] D2']; subst. constructor; [|apply IH; assumption].
    split; [reflexivity|]. intros i Hi. specialize (D i Hi). specialize (L3 i Hi). rewrite A2 by exact Hi. unfold zeros, ones in D. rewrite !nth_repeat in D. 
    assert (I1 : (repeat 1 (length p))@i = 1) by (clear -Hi; revert Hi; generalize (length p); intros n; revert i; induction n as [|n IH]; intros [|i] Hi; try lia; [reflexivity|apply IH; lia]).
    rewrite I1 in D. nra. }
  assert (LPO : length pop = nind) by (unfold pop; rewrite map_length; exact D1).
  pose proof (init_rounded IP H1) as RD.
  assert (LE : length E = nind) by (rewrite <- LPO; clear -RD; induction RD; cbn; congruence).
  destruct (evaluate_first (keep_pop q pop E) (E := E) (s := s)) as [F1 [F2 [F3 F4]]]; [intros ->; cbn in LE; lia|exact H2|].
  assert (RE : rows dim E) by (unfold rows; clear -RD; induction RD as [|? ? ? ? [A _]]; constructor; auto).
  assert (RU : rows dim pop) by (unfold rows; eapply Forall_impl; [|exact IP]; intros a [A _]; exact A).
  assert (BT : between nind E s).
  { split; [exact LE|]. split; [exact F2|]. split; [exact F3|]. rewrite F1.
    assert (BL : length (ga_best s) = dim).
    { destruct F3 as [k [K _]]. unfold rows in RE. rewrite Forall_forall in RE. apply RE. eapply nth_error_In; exact K. }
    unfold keep_pop. destruct (q_int q); auto. }
  destruct (@generations_step nind gs s s2 tr2 E Hn He BT H3) as [us [U1 [U2 [U3 U4]]]].
  exists (ga_pop s :: us). split; [cbn; congruence|]. split; [cbn; congruence|]. split.
  - exists E, (ga_pop s). split; [reflexivity|]. split; [reflexivity|]. rewrite F1. unfold keep_pop. destruct (q_int q) as [|i0 iv] eqn:EQ.
    + assert (pop = E) by (unfold init_round in H1; rewrite EQ in H1; congruence). subst E. split; [exact RD|exact PU].
    + split; [exact RD|exact PU].
  - split; [rewrite last_cons; exact U3|]. split; [exact HVX|].
    intros k E1 A1 E2 A2 g K1 K2 K3 K4 K5. exact (U4 k E1 A1 E2 A2 g K1 K2 K3 K4 K5).
Qed.
End GA.

(** Without integer variables the positions are the evaluated individuals: every parent has the lowest
    value of its tournament.  Missing: integer variables, see C73_winner_refuted. *)
Theorem C73_parents_partial : forall q dim f, well_formed q dim -> (forall x, f x <> XNan) -> q_int q = [] ->
  forall pop_size U gs x v tr, (1 <= pop_size)%nat -> draws_ok dim (pop_size + pop_size mod 2) U gs ->
  ga_optimize q f pop_size (StartUnit U) gs = Ok (x, v, tr) ->
  forall k E E' g, nth_error tr k = Some E -> nth_error tr (S k) = Some E' -> nth_error gs k = Some g ->
  next_generation q dim f (pop_size + pop_size mod 2) g E E E' E'.
Proof.
  intros q dim f WF NN NI pop_size U gs x v tr Hp HD H k E E' g K1 K2 K3.
  destruct (@C73_generations q dim WF f NN pop_size U gs x v tr Hp HD H) as [us [U1 [U2 [[E0 [U0 [A1 [A2 [A3 A4]]]]] [_ [_ G]]]]]].
  assert (UE : forall k A, nth_error tr k = Some A -> nth_error us k = Some A).
  { intros j. induction j as [|j IH]; intros A HA.
    - rewrite A1 in HA. injection HA as <-. rewrite A2. f_equal.
      assert (LU : Forall (fun u => length u = dim) U0) by (clear -A4; induction A4 as [|? ? ? ? [L _]]; constructor; assumption).
      clear -A3 LU NI. induction A3 as [|u e U0 E0 [R1 R2] A3 IH]; [reflexivity|]. inversion LU; subst. f_equal; [|auto].
      apply nth_eq with (dim := length e); auto. intros i Hi. symmetry. apply R2; [exact Hi|]. rewrite NI. intros [].
    - assert (LJ : (S j < length tr)%nat) by (apply nth_error_Some; congruence).
      destruct (nth_error tr j) as [B|] eqn:EB; [|apply nth_error_None in EB; lia].
      destruct (nth_error gs j) as [g0|] eqn:EG; [|apply nth_error_None in EG; lia].
      destruct (nth_error us (S j)) as [C|] eqn:EC; [|apply nth_error_None in EC; lia].
      destruct (G j B B A C g0 EB (IH B eq_refl) HA EC EG) as [_ [_ [_ [_ [_ [_ [K _]]]]]]]. f_equal. apply K, NI. }
  exact (G k E E E' E' g K1 (UE k E K1) K2 (UE _ _ K2) K3).
Qed.

(** With an integer variable the winner of the tournaments need not have children: minimize x over the
    integers of [0, 10] with the individuals 1 and 9.  In the first generation 9 wins both tournaments; in
    the second one the best individual 1 wins both, there is no crossover and no mutation, and the child
    is 9. *)
Definition q73 : prob := mkProb [0] [10] [0%nat].
Definition f73 (x : pt) : xr := XFin (x@0).
Definition g73 (w : nat) : gen_draw := mkGen (fun _ _ => w) (fun _ => false) (fun _ => 0) (fun _ _ => 0) (fun _ _ => false).
Theorem C73_winner_refuted : let gs := [g73 1; g73 0] in let U := [[/ 10]; [9 / 10]] in
  well_formed q73 1 /\ draws_ok 1 2 U gs /\
  exists x v tr E E', ga_optimize q73 f73 2 (StartUnit U) gs = Ok (x, v, tr) /\ nth_error tr 1 = Some E /\ nth_error tr 2 = Some E' /\
  nth_error E 0 = Some [1] /\ first_best f73 E [1] /\ nth_error E' 1 = Some [9] /\
  ~ exists E0 U0 U', next_generation q73 1 f73 2 (g73 0) E0 U0 E' U' /\ E0 = E /\ U0 = E.
Proof.
  intros gs U.
  assert (WF : well_formed q73 1).
  { split; [split; [reflexivity|split; [reflexivity|]]|].
    - intros [|i] Hi; [cbn; lra|lia].
    - intros i [<-|[]]. split; [lia|]. split; [exists 0%Z; reflexivity|exists 10%Z; reflexivity]. }
  assert (HD : draws_ok 1 2 U gs).
  { split; [reflexivity|]. split.
    - constructor; [|constructor; [|constructor]]; (split; [reflexivity|]); intros [|i] Hi; try lia; cbn; lra.
    - intros g r k [<-|[<-|[]]] Hr Hk; cbn; lia. }
  split; [exact WF|]. split; [exact HD|].
  assert (NN : forall x, f73 x <> XNan) by (intros x; discriminate).
  destruct (@C35_ga q73 1 WF f73 NN 2 U gs) as [x [v [tr [G1 _]]]]; [lia|exact HD|].
  destruct (@C73_generations q73 1 WF f73 NN 2 U gs x v tr ltac:(lia) HD G1) as [us [L1 [L2 [[E0 [U0 [T0 [S0 [R0 P0]]]]] [_ [_ G]]]]]].
  destruct tr as [|E0' [|E1 [|E2 [|]]]]; try discriminate L2. destruct us as [|U0' [|U1 [|U2 [|]]]]; try discriminate L1. injection T0 as ->. injection S0 as ->.
  pose proof (G 0%nat E0 U0 E1 U1 _ eq_refl eq_refl eq_refl eq_refl eq_refl) as N1. pose proof (G 1%nat E1 U1 E2 U2 _ eq_refl eq_refl eq_refl eq_refl eq_refl) as N2. clear G.
  assert (ONE : forall y : pt, length y = 1%nat -> y = [y@0]) by (intros [|a [|]] L; try discriminate L; reflexivity).
  assert (RND : forall (u e : pt) z, (0 <= z <= 10)%Z -> u = [IZR z] -> rounded q73 1 u e -> e = [IZR z]).
  { intros u e z Hz -> [L R]. rewrite (ONE e L). f_equal. destruct (R 0%nat ltac:(lia)) as [_ R']. destruct (R' (or_introl eq_refl)) as [_ K].
    specialize (K (IZR z) (ex_intro _ z eq_refl)). cbn [nth q73 q_lb q_ub] in K. rewrite Rminus_eq_0, Rabs_R0 in K.
    assert (K2 : 0 <= IZR z <= 10) by (split; apply IZR_le; lia). specialize (K K2). pose proof (Rabs_pos (IZR z - nth 0 e 0)) as K3.
    assert (K4 : Rabs (IZR z - nth 0 e 0) = 0) by lra. revert K4. clear. unfold Rabs. destruct Rcase_abs; lra. }
  unfold U in P0. inversion P0 as [|? ua ? ? [LA PA] P1]; subst. inversion P1 as [|? ub ? ? [LB PB] P2]; subst. inversion P2; subst. clear P0 P1 P2.
  assert (EA : ua = [IZR 1]) by (rewrite (ONE ua LA); f_equal; rewrite (PA 0%nat ltac:(lia)); cbn; lra).
  assert (EB : ub = [IZR 9]) by (rewrite (ONE ub LB); f_equal; rewrite (PB 0%nat ltac:(lia)); cbn; lra).
  inversion R0 as [|? ea ? ? RA R1]; subst ua. subst. inversion R1 as [|? eb ? ? RB R2]; subst. inversion R2; subst.
  apply (@RND _ _ 1%Z) in RA; [|lia|reflexivity]. apply (@RND _ _ 9%Z) in RB; [|lia|reflexivity]. subst ea eb. clear R0 R1 R2 PA PB LA LB.
  assert (CH : forall g r (a b u : pt), g_cross g (couple 2 r) = false -> g_mut g r 0%nat = false -> a = [IZR 9] -> child q73 1 2 g r a b u -> u = [IZR 9]).
  { intros g r a b u Hc Hm -> [L K]. rewrite (ONE u L). f_equal. rewrite (K 0%nat ltac:(lia)). cbv zeta. rewrite Hc, Hm. cbn [nth q73 q_lb q_ub].
    rewrite Rmax_right, Rmin_right by lra. reflexivity. }
  (* first generation *)
  destruct N1 as [LE1 [C [LC [N1 [[b [B1 B2]] [N3 [_ N5]]]]]]]. specialize (N5 ltac:(discriminate)). subst U1.
  assert (CC : forall r, (r < 2)%nat -> nth_error C r = Some [IZR 9]).
  { intros r Hr. destruct (N1 r Hr) as [xa [ya [u [[k [e [_ [_ [T _]]]]] [_ [K1 K2]]]]]]. cbn [g73 g_comp nth_error] in T. injection T as <-.
    rewrite K1. f_equal. eapply CH; [| | |exact K2]; reflexivity. }
  assert (BE : b = [IZR 1]).
  { destruct B2 as [k [K1 K2]]. destruct k as [|[|k]]; cbn [nth_error] in K1; [injection K1 as <-; reflexivity| |destruct k; discriminate K1].
    injection K1 as <-. destruct (K2 0%nat [IZR 1] eq_refl) as [K _]. exfalso. revert K. cbn. destruct Rlt_dec; [discriminate|lra]. }
  subst b. destruct E1 as [|e0 [|e1 [|]]]; try discriminate LE1. cbn [nth_error] in B1. injection B1 as ->.
  assert (EE : e1 = [IZR 9]) by (apply (@RND [IZR 9] e1 9%Z); [lia|reflexivity|]; exact (N3 1%nat _ e1 ltac:(lia) (CC 1%nat ltac:(lia)) eq_refl)). subst e1.
  (* second generation *)
  destruct N2 as [LE2 [D [LD [M1 [_ [M3 _]]]]]].
  assert (DD : nth_error D 1 = Some [IZR 9]).
  { destruct (M1 1%nat ltac:(lia)) as [xa [ya [u [[k [e [_ [_ [T _]]]]] [_ [K1 K2]]]]]]. cbn [g73 g_comp] in T. rewrite (CC 0%nat ltac:(lia)) in T. injection T as <-.
    rewrite K1. f_equal. eapply CH; [| | |exact K2]; reflexivity. }
  destruct E2 as [|d0 [|d1 [|]]]; try discriminate LE2.
  assert (EF : d1 = [IZR 9]) by (apply (@RND [IZR 9] d1 9%Z); [lia|reflexivity|]; exact (M3 1%nat _ d1 ltac:(lia) DD eq_refl)). subst d1.
  exists x, v, [[[1]; [9]]; [[1]; [9]]; [d0; [9]]], [[1]; [9]], [d0; [9]]. split; [exact G1|]. split; [reflexivity|]. split; [reflexivity|]. split; [reflexivity|].
  assert (FB : first_best f73 [[1]; [9]] [1]).
  { exists 0%nat. split; [reflexivity|]. intros [|[|j]] y K; [injection K as <-|injection K as <-|destruct j; discriminate K]; (split; [|lia]); cbn; destruct Rlt_dec; try reflexivity; lra. }
  split; [exact FB|]. split; [reflexivity|]. intros [A0 [A1 [A2 [N [-> ->]]]]].
  destruct N as [_ [C2 [_ [Q1 [_ [Q3 _]]]]]]. destruct (Q1 1%nat ltac:(lia)) as [xa [ya [u [[k [e [_ [_ [T _]]]]] [_ [K1 K2]]]]]]. cbn [g73 g_comp nth_error] in T. injection T as <-.
  assert (KU : u = [IZR 1]).
  { destruct K2 as [L K2]. rewrite (ONE u L). f_equal. rewrite (K2 0%nat ltac:(lia)). cbn. rewrite Rmax_right, Rmin_right by lra. reflexivity. }
  subst u. pose proof (Q3 1%nat _ [9] ltac:(lia) K1 eq_refl) as K3. apply (@RND _ _ 1%Z) in K3; [|lia|reflexivity]. injection K3 as K3. lra.
Qed.

(** Two generations in which everything happens: the hypotheses of C73_generations and
    C73_parents_partial. *)
Example ex_C73 : let q := mkProb [0; 0] [1; 3] [] in let gs := repeat (mkGen (fun r k => ((r + k) mod 2)%nat) (fun _ => true) (fun _ => / 3) (fun _ _ => 1) (fun _ _ => true)) 2 in
  let U := [[/ 2; / 2]; [0; 1]] in let f := fun x : pt => XFin (x@0 + x@1) in
  well_formed q 2 /\ draws_ok 2 2 U gs /\ exists x v tr E E', ga_optimize q f 2 (StartUnit U) gs = Ok (x, v, tr) /\ nth_error tr 1 = Some E /\ nth_error tr 2 = Some E' /\
  next_generation q 2 f 2 (nth 1 gs (g73 0)) E E E' E'.
Proof.
  intros q gs U f.
  assert (WF : well_formed q 2).
  { split; [split; [reflexivity|split; [reflexivity|]]|intros i []]. intros [|[|i]] Hi; cbn; try lra. lia. }
  assert (HD : draws_ok 2 2 U gs).
  { split; [reflexivity|]. split.
    - constructor; [|constructor; [|constructor]]; (split; [reflexivity|]); intros [|[|i]] Hi; cbn; try lra; lia.
    - intros g r k Hg Hr Hk. apply repeat_spec in Hg. subst g. cbn [g_comp]. apply Nat.mod_upper_bound. lia. }
  assert (NN : forall x, f x <> XNan) by (intros x; discriminate).
  split; [exact WF|]. split; [exact HD|]. destruct (@C35_ga q 2 WF f NN 2 U gs) as [x [v [tr [G1 [_ [_ [L _]]]]]]]; [lia|exact HD|].
  destruct tr as [|E0 [|E1 [|E2 [|]]]]; try discriminate L. exists x, v, [E0; E1; E2], E1, E2. split; [exact G1|]. split; [reflexivity|]. split; [reflexivity|].
  exact (@C73_parents_partial q 2 f WF NN eq_refl 2 U gs x v [E0; E1; E2] ltac:(lia) HD G1 1%nat E1 E2 _ eq_refl eq_refl eq_refl).
Qed.
