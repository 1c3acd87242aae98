(** * Properties C35-C37: the genetic algorithm and the EI/LCB searches. *)
From Coq Require Import List Arith ZArith Lia Bool Reals Lra.
From Flocq Require Import Core.
From Verif Require Import Base PyList Box PropBox Cand PropCand GA.
Import ListNotations.

Set Implicit Arguments.
Local Open Scope R_scope.

Lemma mapi_from_len : forall A B (f : nat -> A -> B) l i, length (mapi_from i f l) = length l.
Proof. intros A B f l. induction l; intros i; simpl; auto. Qed.
Lemma mapi_len : forall A B (f : nat -> A -> B) l, length (mapi f l) = length l.
Proof. intros. apply mapi_from_len. Qed.
Lemma mapi_from_in : forall A B (f : nat -> A -> B) l i b, In b (mapi_from i f l) -> exists j a, In a l /\ b = f j a.
Proof.
  intros A B f l. induction l as [|a l IH]; intros i b H; simpl in H; [contradiction|].
  destruct H as [<-|H]; [exists i, a; simpl; auto|]. destruct (IH _ _ H) as [j [a' [H1 H2]]]. exists j, a'. simpl. auto.
Qed.

(** Index lookups that succeed. *)
Lemma mapR_total : forall A B (f : A -> res B) l, (forall a, In a l -> exists b, f a = Ok b) -> exists r, mapR f l = Ok r.
Proof.
  intros A B f l. induction l as [|a l IH]; intros H; [exists []; reflexivity|].
  destruct (H a (or_introl eq_refl)) as [b Hb]. destruct IH as [r Hr]; [intros; apply H; right; assumption|].
  exists (b :: r). simpl. rewrite Hb. cbn [rbind]. rewrite Hr. reflexivity.
Qed.
Lemma mapR_len : forall A B (f : A -> res B) l r, mapR f l = Ok r -> length r = length l.
Proof. intros A B f l r H. destruct (mapR_nth _ _ H) as [L _]. exact L. Qed.
Lemma mapR_in : forall A B (f : A -> res B) l r b, mapR f l = Ok r -> In b r -> exists a, In a l /\ f a = Ok b.
Proof.
  intros A B f l r b H Hb. destruct (mapR_nth _ _ H) as [_ N]. apply In_nth_error in Hb. destruct Hb as [k Hk].
  apply N in Hk. destruct Hk as [a [H1 H2]]. exists a. split; [eapply nth_error_In; eauto|exact H2].
Qed.
Lemma geti_total : forall A (l : list A) i, (i < length l)%nat -> exists a, geti l i = Ok a /\ In a l.
Proof.
  intros A l i H. destruct (nth_error l i) as [a|] eqn:E; [|apply nth_error_None in E; lia].
  exists a. split; [apply geti_ok; exact E|eapply nth_error_In; eauto].
Qed.

Section GA.
Variable q : prob.
Variable dim : nat.
Hypothesis WF : well_formed q dim.
Variable f : pt -> xr.
Hypothesis NN : forall x, f x <> XNan.

Lemma lbdim : length (q_lb q) = dim. Proof. apply WF. Qed.
Lemma ubdim : length (q_ub q) = dim. Proof. apply WF. Qed.

(** ** One generation *)
Lemma winner_ok : forall nind vals g r, length vals = nind -> Forall not_nan vals ->
  (forall k, (k < 5)%nat -> (g_comp g r k < nind)%nat) ->
  exists w, winner vals g r = Ok w /\ (w < nind)%nat.
Proof.
  intros nind vals g r L V H. unfold winner. set (cs := map (g_comp g r) (seq 0 5)).
  assert (C : forall c, In c cs -> (c < nind)%nat).
  { intros c Hc. apply in_map_iff in Hc. destruct Hc as [k [<- Hk]]. apply in_seq in Hk. apply H. lia. }
  destruct (@mapR_total _ _ (geti vals) cs) as [vs E].
  { intros c Hc. destruct (@geti_total _ vals c) as [a [A _]]; [rewrite L; auto|eauto]. }
  rewrite E. cbn [rbind]. assert (Lv : length vs = 5%nat) by (rewrite (mapR_len _ _ E); reflexivity).
  destruct (@xargmin_first vs) as [k [v [E1 [E2 _]]]].
  - intros ->. discriminate.
  - apply Forall_forall. intros v Hv. destruct (mapR_in _ _ v E Hv) as [c [_ Hc]]. apply geti_ok in Hc.
    rewrite Forall_forall in V. apply V. eapply nth_error_In; eauto.
  - rewrite E1. cbn [rbind]. assert (Hk : (k < length cs)%nat).
    { change (length cs) with 5%nat. rewrite <- Lv. apply nth_error_Some. congruence. }
    destruct (geti_total cs Hk) as [c [G1 G2]]. exists c. auto.
Qed.

Lemma lin_len : forall al x y, length x = dim -> length y = dim -> length (lin al x y) = dim.
Proof. intros al x y Hx Hy. unfold lin. rewrite map_length, combine_length. lia. Qed.

Lemma crossover_ok : forall g P1 P2, rows dim P1 -> rows dim P2 -> length P1 = length P2 ->
  rows dim (crossover g P1 P2) /\ length (crossover g P1 P2) = (length P1 + length P2)%nat.
Proof.
  intros g P1 P2 R1 R2 L. unfold crossover. split.
  - unfold rows in *. rewrite Forall_forall in *. intros x Hx. apply in_app_or in Hx.
    assert (K : forall ab, In ab (mapi (cross_row g) (combine P1 P2)) -> length (fst ab) = dim /\ length (snd ab) = dim).
    { intros ab H. apply mapi_from_in in H. destruct H as [j [[a b] [H1 ->]]].
      pose proof (R1 a (in_combine_l _ _ _ _ H1)). pose proof (R2 b (in_combine_r _ _ _ _ H1)).
      unfold cross_row. destruct (g_cross g j); simpl; auto using lin_len. }
    destruct Hx as [Hx|Hx]; apply in_map_iff in Hx; destruct Hx as [ab [<- Hab]]; apply K; exact Hab.
  - rewrite app_length, !map_length, mapi_len, combine_length. lia.
Qed.

Lemma mutate_inside : forall g r x, length x = dim -> inside dim (q_lb q) (q_ub q) (mutate_row q g r x).
Proof.
  intros g r x Lx. destruct WF as [[L1 [L2 L3]] _]. unfold mutate_row. set (y := mapi _ x).
  assert (Ly : length y = dim) by (unfold y; rewrite mapi_len; exact Lx).
  split; [apply map3_len; auto|]. intros i Hi. rewrite (map3_nth _ _ _ _ (dim := dim)) by auto.
  pose proof (L3 i Hi). unfold Rmin, Rmax. repeat destruct Rle_dec; lra.
Qed.

Lemma rounded_ok : forall X, Forall (inside dim (q_lb q) (q_ub q)) X ->
  exists Y, round_vars X (q_int q) (q_lb q) (q_ub q) = Ok Y /\ length Y = length X /\ Forall (feasible q dim) Y.
Proof.
  intros X HX. assert (R : rows dim X) by (unfold rows; eapply Forall_impl; [|exact HX]; intros x [H _]; exact H).
  destruct (round_feasible WF R) as [Y [E1 [E2 E3]]]. exists Y. split; [exact E1|]. split; [exact E2|].
  apply Forall_forall. intros y Hy. apply In_nth_error in Hy. destruct Hy as [r Hr].
  assert (r < length X)%nat by (rewrite <- E2; apply nth_error_Some; congruence).
  destruct (nth_error X r) as [x|] eqn:Ex; [|apply nth_error_None in Ex; lia].
  destruct (E3 r x Ex) as [y' [Y1 [Y2 _]]]. assert (y' = y) by congruence. subst y'. apply Y2.
  rewrite Forall_forall in HX. apply HX. eapply nth_error_In; eauto.
Qed.

Lemma evaluate_ok : forall E keep, E <> [] -> exists x, ga_evaluate f E keep = Ok (mkGa keep (map f E) x (f x)) /\
  In x E /\ forall y, In y E -> xlt (f y) (f x) = false.
Proof.
  intros E keep HE. unfold ga_evaluate.
  destruct (@xargmin_first (map f E)) as [k [v [E1 [E2 [E3 _]]]]].
  - intros K. apply map_eq_nil in K. contradiction.
  - apply Forall_forall. intros u Hu. apply in_map_iff in Hu. destruct Hu as [y [<- _]]. apply NN.
  - rewrite E1. cbn [rbind]. rewrite nth_error_map in E2. destruct (nth_error E k) as [x|] eqn:Ek; [|discriminate].
    injection E2 as <-. assert (G : geti E k = Ok x) by (apply geti_ok; exact Ek). rewrite G. cbn [rbind].
    assert (G2 : geti (map f E) k = Ok (f x)) by (apply geti_ok; rewrite nth_error_map, Ek; reflexivity). rewrite G2. cbn [rbind].
    exists x. split; [reflexivity|]. split; [eapply nth_error_In; eauto|]. intros y Hy. apply E3. apply in_map. exact Hy.
Qed.

(** What holds between generations. *)
Record ga_ok (nind : nat) (s : ga_state) : Prop := mkOk {
  go_pop : rows dim (ga_pop s);
  go_len : length (ga_pop s) = nind;
  go_vals : length (ga_vals s) = nind;
  go_nan : Forall not_nan (ga_vals s);
  go_best : feasible q dim (ga_best s);
  go_value : ga_value s = f (ga_best s)
}.

Lemma rows_feas : forall X, Forall (feasible q dim) X -> rows dim X.
Proof. intros X H. eapply Forall_impl; [|exact H]. intros x [[L _] _]. exact L. Qed.

Lemma keep_ok : forall A B : list pt, rows dim A -> rows dim B -> length A = length B ->
  rows dim (keep_pop q A B) /\ length (keep_pop q A B) = length B.
Proof. intros A B HA HB HL. unfold keep_pop. destruct (q_int q); auto. Qed.

Lemma not_nan_map : forall E, Forall not_nan (map f E).
Proof. intros E. apply Forall_forall. intros u Hu. apply in_map_iff in Hu. destruct Hu as [y [<- _]]. apply NN. Qed.

Lemma generation_ok : forall nind g s, (1 <= nind)%nat -> Nat.Even nind -> ga_ok nind s ->
  (forall r k, (r < nind)%nat -> (k < 5)%nat -> (g_comp g r k < nind)%nat) ->
  exists s' E, generation q f nind g s = Ok (s', E) /\ ga_ok nind s' /\ length E = nind /\
    Forall (feasible q dim) E /\ In (ga_best s') E /\
    (forall y, In y E -> xlt (f y) (ga_value s') = false) /\ xlt (ga_value s) (ga_value s') = false.
Proof.
  intros nind g s Hn He [P1 P2 P3 P4 P5 P6] HC. unfold generation.
  destruct (@mapR_total _ _ (winner (ga_vals s) g) (seq 0 nind)) as [ws E1].
  { intros r Hr. apply in_seq in Hr. destruct (@winner_ok nind (ga_vals s) g r P3 P4) as [w [W _]]; [intros; apply HC; lia|eauto]. }
  rewrite E1. cbn [rbind].
  assert (HW : forall w, In w ws -> (w < nind)%nat).
  { intros w Hw. destruct (mapR_in _ _ w E1 Hw) as [r [R1 R2]]. apply in_seq in R1.
    destruct (@winner_ok nind (ga_vals s) g r P3 P4) as [w' [W1 W2]]; [intros; apply HC; lia|]. congruence. }
  destruct (@mapR_total _ _ (geti (ga_pop s)) ws) as [ps E2].
  { intros w Hw. destruct (@geti_total _ (ga_pop s) w) as [a [A _]]; [rewrite P2; auto|eauto]. }
  rewrite E2. cbn [rbind].
  assert (LP : length ps = nind) by (rewrite (mapR_len _ _ E2), (mapR_len _ _ E1); apply seq_length).
  assert (RP : rows dim ps).
  { apply Forall_forall. intros x Hx. destruct (mapR_in _ _ x E2 Hx) as [w [_ Hw]]. apply geti_ok in Hw.
    unfold rows in P1. rewrite Forall_forall in P1. apply P1. eapply nth_error_In; eauto. }
  destruct He as [m Hm].
  assert (Hh : (nind / 2 = m)%nat) by (rewrite Hm, Nat.mul_comm; apply Nat.div_mul; lia). rewrite Hh.
  destruct (@crossover_ok g (firstn m ps) (skipn m ps)) as [C1 C2].
  { unfold rows in *. rewrite Forall_forall in *. intros x Hx. apply RP. rewrite <- (firstn_skipn m ps). apply in_or_app; auto. }
  { unfold rows in *. rewrite Forall_forall in *. intros x Hx. apply RP. rewrite <- (firstn_skipn m ps). apply in_or_app; auto. }
  { rewrite firstn_length, skipn_length. lia. }
  rewrite firstn_length, skipn_length in C2.
  set (pop := mapi (mutate_row q g) (crossover g (firstn m ps) (skipn m ps))).
  assert (Lpop : length pop = nind) by (unfold pop; rewrite mapi_len; lia).
  assert (Ipop : Forall (inside dim (q_lb q) (q_ub q)) pop).
  { apply Forall_forall. intros x Hx. apply mapi_from_in in Hx. destruct Hx as [j [a [Ha ->]]]. apply mutate_inside.
    unfold rows in C1. rewrite Forall_forall in C1. apply C1. exact Ha. }
  destruct (rounded_ok Ipop) as [Y [E3 [L3 F3]]]. rewrite E3. cbn [rbind].
  destruct Y as [|y0 Y]; [simpl in L3; lia|]. cbn [set_first rbind].
  set (E := ga_best s :: Y).
  assert (FE : Forall (feasible q dim) E) by (inversion F3; subst; constructor; assumption).
  assert (LE : length E = nind) by (simpl in *; lia).
  destruct (@evaluate_ok E (keep_pop q pop E)) as [x [X1 [X2 X3]]]; [discriminate|]. rewrite X1. cbn [rbind].
  destruct (@keep_ok pop E) as [K1 K2]; [|apply rows_feas; exact FE|lia|].
  { eapply Forall_impl; [|exact Ipop]. intros a [H _]. exact H. }
  eexists _, E. split; [reflexivity|]. split; [|split; [exact LE|split; [exact FE|split; [exact X2|split; [exact X3|]]]]].
  - constructor; cbn [ga_pop ga_vals ga_best ga_value]; auto; try lia; try apply not_nan_map.
    + rewrite map_length. exact LE.
    + rewrite Forall_forall in FE. auto.
  - cbn [ga_value]. rewrite P6. apply X3. left. reflexivity.
Qed.

Lemma generations_ok : forall nind gs s, (1 <= nind)%nat -> Nat.Even nind -> ga_ok nind s ->
  (forall g r k, In g gs -> (r < nind)%nat -> (k < 5)%nat -> (g_comp g r k < nind)%nat) ->
  exists s' tr, generations q f nind gs s = Ok (s', tr) /\ ga_ok nind s' /\ length tr = length gs /\
    (forall E, In E tr -> length E = nind /\ Forall (feasible q dim) E) /\
    (tr = [] /\ s' = s \/ exists E, In E tr /\ In (ga_best s') E) /\
    (forall E y, In E tr -> In y E -> xlt (f y) (ga_value s') = false) /\ xlt (ga_value s) (ga_value s') = false.
Proof.
  intros nind gs. induction gs as [|g gs IH]; intros s Hn He HS HC.
  - exists s, []. split; [reflexivity|]. split; [exact HS|]. split; [reflexivity|]. split; [intros E []|]. split; [left; auto|].
    split; [intros E y []|]. apply xle_refl.
  - destruct (@generation_ok nind g s Hn He HS) as [s1 [E [G1 [G2 [G3 [G4 [G5 [G6 G7]]]]]]]]; [intros; apply HC; simpl; auto|].
    destruct (IH s1 Hn He G2) as [s2 [tr [H1 [H2 [H3 [H4 [H5 [H6 H7]]]]]]]]; [intros; apply HC; simpl; auto|].
    cbn [generations]. rewrite G1. cbn [rbind fst snd]. rewrite H1. cbn [rbind fst snd].
    exists s2, (E :: tr). split; [reflexivity|]. split; [exact H2|]. split; [simpl; congruence|].
    assert (N1 : not_nan (ga_value s1)) by (rewrite (go_value G2); apply NN).
    assert (T : forall v, xlt v (ga_value s1) = false -> xlt v (ga_value s2) = false).
    { intros v Hv. eapply xle_trans; [exact N1|exact H7|exact Hv]. }
    split; [|split; [|split]].
    + intros E' [<-|HE]; [auto|apply H4; exact HE].
    + right. destruct H5 as [[-> ->]|[E' [A B]]]; [exists E; simpl; auto|exists E'; simpl; auto].
    + intros E' y [<-|HE] Hy; [apply T, G6, Hy|eapply H6; eauto].
    + apply T. exact G7.
Qed.

(** ** The initial population *)
Definition shift (l u a : R) : R := shift_high u (shift_low l a).

(** What [shift_cols] does to entries that already lie within the bounds: nothing. *)
Lemma shift_cols_id : forall iv X, (forall i, In i iv -> (i < dim)%nat) -> rows dim X ->
  (forall x i, In x X -> In i iv -> (q_lb q)@i <= x@i <= (q_ub q)@i) -> shift_cols q iv X = Ok X.
Proof using WF.
  clear NN f. assert (HL := lbdim). assert (HU := ubdim).
  intros iv. induction iv as [|i iv IH]; intros X Hiv HX HB; [reflexivity|].
  cbn [shift_cols]. assert (Hi : (i < dim)%nat) by (apply Hiv; left; reflexivity).
  assert (G1 : geti (q_lb q) i = Ok ((q_lb q)@i)) by (apply geti_ok; apply nth_error_nth'; lia).
  assert (G2 : geti (q_ub q) i = Ok ((q_ub q)@i)) by (apply geti_ok; apply nth_error_nth'; lia).
  assert (ID : forall g : R -> R, (forall x, In x X -> g (x@i) = x@i) -> col_map i g X = Ok X).
  { intros g Hg. destruct (@col_map_ent dim i g X Hi HX) as [Y [E1 F1]]. rewrite E1. f_equal.
    clear E1 HB IH. induction F1 as [|x y X Y [A B] F1 IHF]; [reflexivity|]. inversion HX; subst. f_equal.
    - apply nth_eq with (dim := length x); auto. intros j Hj. rewrite B by exact Hj.
      destruct (Nat.eqb_spec j i) as [->|]; [apply Hg; left; reflexivity|reflexivity].
    - apply IHF; auto. intros. apply Hg. right. assumption. }
  assert (S1 : col_map i (shift_low ((q_lb q)@i)) X = Ok X).
  { apply ID. intros x Hx. unfold shift_low. destruct Rlt_dec; [|reflexivity].
    specialize (HB x i Hx (or_introl eq_refl)). lra. }
  assert (S2 : col_map i (shift_high ((q_ub q)@i)) X = Ok X).
  { apply ID. intros x Hx. unfold shift_high. destruct Rlt_dec; [|reflexivity].
    specialize (HB x i Hx (or_introl eq_refl)). lra. }
  rewrite G1, G2. cbn [rbind]. rewrite S1. cbn [rbind]. rewrite S2. cbn [rbind]. apply IH; auto.
  - intros. apply Hiv. right. assumption.
  - intros x j Hx Hj. apply HB; [exact Hx|right; exact Hj].
Qed.

Lemma np_round_in : forall zl zu a, IZR zl <= a <= IZR zu -> IZR zl <= np_round a <= IZR zu.
Proof using.
  intros zl zu a [H1 H2]. pose proof (np_round_closest a zl) as A. pose proof (np_round_closest a zu) as B.
  assert (C : (zl <= ZnearestE a)%Z \/ (ZnearestE a < zl)%Z) by lia. unfold np_round in *.
  split; apply IZR_le.
  - destruct (Z_lt_le_dec (ZnearestE a) zl) as [K|K]; [|exact K]. exfalso.
    apply IZR_lt in K. rewrite !Rabs_right in A by lra. lra.
  - destruct (Z_lt_le_dec zu (ZnearestE a)) as [K|K]; [|exact K]. exfalso.
    apply IZR_lt in K. rewrite !Rabs_left1 in B by lra. lra.
Qed.

Lemma init_round_ok : forall X, Forall (inside dim (q_lb q) (q_ub q)) X ->
  exists Y, init_round q X = Ok Y /\ length Y = length X /\ Forall (feasible q dim) Y.
Proof using WF.
  clear NN f. intros X HX.
  assert (R : rows dim X) by (unfold rows; eapply Forall_impl; [|exact HX]; intros x [H _]; exact H).
  destruct WF as [B I].
  destruct (@round_cols_ent dim (q_int q) X) as [Y [E1 F1]]; [intros; apply I; auto|exact R|].
  assert (FY : Forall (feasible q dim) Y).
  { clear E1. revert R HX. induction F1 as [|x y X Y [A C] F1 IH]; intros R HX; [constructor|].
    inversion R; inversion HX; subst. constructor; [|auto]. destruct H5 as [L1 L2].
    assert (C' : forall j, (j < length x)%nat -> (q_lb q)@j <= y@j <= (q_ub q)@j /\ (In j (q_int q) -> integral (y@j))).
    { intros j Hj. rewrite C by exact Hj. destruct (mem j (q_int q)) eqn:Em.
      - apply mem_spec in Em. destruct (I j Em) as [_ [[zl El] [zu Eu]]]. specialize (L2 j Hj). rewrite El, Eu in *.
        split; [apply np_round_in; exact L2|]. intros _. eexists. reflexivity.
      - split; [apply L2; exact Hj|]. intros K. apply mem_spec in K. congruence. }
    split; [split; [congruence|]|].
    - intros j Hj. apply C'. exact Hj.
    - intros j Hj. apply C'; [|exact Hj]. apply I. exact Hj. }
  exists Y. split; [|split; [clear -F1; induction F1; simpl; congruence|exact FY]].
  unfold init_round. destruct (q_int q) as [|i0 iv] eqn:Eq; [cbn in E1; congruence|]. rewrite <- Eq in *. rewrite E1. cbn [rbind].
  apply shift_cols_id.
  - intros i Hi. apply I. exact Hi.
  - eapply Forall2_len; eauto.
  - intros y i Hy Hi. rewrite Forall_forall in FY. destruct (FY y Hy) as [[_ K] _]. apply K, I, Hi.
Qed.

(** What the random number generator delivers: [nind] points of the unit box, and competitors
    that are row numbers. *)
Definition draws_ok (nind : nat) (U : list pt) (gs : list gen_draw) : Prop :=
  length U = nind /\ Forall (inside dim (zeros dim) (ones dim)) U /\
  forall g r k, In g gs -> (r < nind)%nat -> (k < 5)%nat -> (g_comp g r k < nind)%nat.

Theorem C35_ga : forall pop_size U gs, (1 <= pop_size)%nat ->
  draws_ok (pop_size + pop_size mod 2) U gs ->
  exists x v tr, ga_optimize q f pop_size (StartUnit U) gs = Ok (x, v, tr) /\
    feasible q dim x /\ v = f x /\ length tr = S (length gs) /\
    (exists E, In E tr /\ In x E) /\
    forall E y, In E tr -> In y E -> feasible q dim y /\ xlt (f y) v = false.
Proof using WF NN.
  intros pop_size U gs Hp [D1 [D2 D3]]. unfold ga_optimize. cbv zeta. set (nind := (pop_size + pop_size mod 2)%nat) in *.
  assert (He : Nat.Even nind).
  { unfold nind. apply Nat.even_spec. rewrite Nat.even_add.
    pose proof (Nat.mod_upper_bound pop_size 2 ltac:(lia)) as M. rewrite (Nat.div_mod pop_size 2) at 1 by lia.
    rewrite Nat.even_add, Nat.even_mul. cbn [Nat.even orb]. destruct (pop_size mod 2)%nat as [|[|?]]; [reflexivity|reflexivity|lia]. }
  assert (Hn : (1 <= nind)%nat) by (unfold nind; lia). clearbody nind.
  cbn [init_population rbind].
  set (pop := map _ U).
  assert (Ipop : Forall (inside dim (q_lb q) (q_ub q)) pop).
  { apply Forall_forall. intros x Hx. apply in_map_iff in Hx. destruct Hx as [u [<- Hu]].
    rewrite Forall_forall in D2. specialize (D2 u Hu). destruct WF as [[L1 [L2 L3]] _].
    pose proof (proj1 (proj2 (proj2 (C38_onto (proj1 WF)))) u D2) as K.
    replace (map3 (fun a l h => l + a * (h - l)) u (q_lb q) (q_ub q)) with (from_unit u (q_lb q) (q_ub q)); [exact K|].
    destruct D2 as [Lu _]. apply nth_eq with (dim := dim); [apply map3_len; auto|apply map3_len; auto|].
    intros i Hi. unfold from_unit. rewrite !(map3_nth _ _ _ _ (dim := dim)) by auto. ring. }
  assert (Lpop : length pop = nind) by (unfold pop; rewrite map_length; exact D1).
  destruct (init_round_ok Ipop) as [E [E1 [E2 E3]]]. rewrite E1. cbn [rbind].
  assert (LE : length E = nind) by lia.
  destruct (@evaluate_ok E (keep_pop q pop E)) as [x0 [X1 [X2 X3]]]; [intros ->; simpl in LE; lia|]. rewrite X1. cbn [rbind].
  destruct (@keep_ok pop E) as [K1 K2]; [|apply rows_feas; exact E3|lia|].
  { eapply Forall_impl; [|exact Ipop]. intros a [H _]. exact H. }
  destruct (@generations_ok nind gs (mkGa (keep_pop q pop E) (map f E) x0 (f x0)) Hn He) as [s [tr [G1 [G2 [G3 [G4 [G5 [G6 G7]]]]]]]].
  { constructor; cbn [ga_pop ga_vals ga_best ga_value]; auto; try lia; try apply not_nan_map.
    - rewrite map_length. exact LE.
    - rewrite Forall_forall in E3. auto. }
  { exact D3. }
  rewrite G1. cbn [rbind fst snd]. exists (ga_best s), (ga_value s), (E :: tr). split; [reflexivity|].
  split; [apply (go_best G2)|]. split; [apply (go_value G2)|]. split; [simpl; congruence|]. split.
  - destruct G5 as [[-> ->]|[E' [A B]]]; [exists E; simpl; auto|exists E'; simpl; auto].
  - intros E' y [<-|HE] Hy.
    + split; [rewrite Forall_forall in E3; auto|]. cbn [ga_value] in G7. eapply xle_trans; [apply NN|exact G7|apply X3; exact Hy].
    + split; [|eapply G6; eauto]. destruct (G4 _ HE) as [_ K]. rewrite Forall_forall in K. auto.
Qed.
End GA.

(** ** C36: which start populations are accepted *)
Section Start.
Variable q : prob.
Variable dim : nat.
Hypothesis WF : well_formed q dim.

Lemma col_min_le : forall i X x, In x X -> col_min i X <= x@i.
Proof.
  intros i X x H. unfold col_min. assert (K : In (x@i) (col i X)) by (apply in_map_iff; eauto).
  destruct (col i X) as [|a l]; [contradiction|]. destruct (Rminl_le l a) as [A B]. destruct K as [<-|K]; auto.
Qed.
Lemma col_max_ge : forall i X x, In x X -> x@i <= col_max i X.
Proof.
  intros i X x H. unfold col_max. assert (K : In (x@i) (col i X)) by (apply in_map_iff; eauto).
  destruct (col i X) as [|a l]; [contradiction|]. destruct (Rmaxl_ge l a) as [A B]. destruct K as [<-|K]; auto.
Qed.
Lemma col_min_in : forall i X, X <> [] -> exists x, In x X /\ col_min i X = x@i.
Proof.
  intros i X H. unfold col_min. destruct (col i X) as [|a l] eqn:E; [apply map_eq_nil in E; contradiction|].
  pose proof (Rminl_in l a) as K. rewrite <- E in K. apply in_map_iff in K. destruct K as [x [K1 K2]]. exists x. auto.
Qed.
Lemma col_max_in : forall i X, X <> [] -> exists x, In x X /\ col_max i X = x@i.
Proof.
  intros i X H. unfold col_max. destruct (col i X) as [|a l] eqn:E; [apply map_eq_nil in E; contradiction|].
  pose proof (Rmaxl_in l a) as K. rewrite <- E in K. apply in_map_iff in K. destruct K as [x [K1 K2]]. exists x. auto.
Qed.

Lemma start_refused_false : forall X, X <> [] ->
  (start_refused q X = false <->
   forall i, (i < dim)%nat -> (exists x, In x X /\ x@i < (q_lb q)@i) /\ (exists x, In x X /\ (q_ub q)@i < x@i)).
Proof using WF.
  intros X HX. unfold start_refused. rewrite orb_false_iff. rewrite (proj1 (proj1 WF)).
  assert (N : forall (p : nat -> bool) n, existsb p (seq 0 n) = false <-> forall i, (i < n)%nat -> p i = false).
  { intros p n. split.
    - intros H i Hi. destruct (p i) eqn:E; [|reflexivity]. exfalso.
      assert (existsb p (seq 0 n) = true); [|congruence]. apply existsb_exists. exists i. split; [apply in_seq; lia|exact E].
    - intros H. destruct (existsb p (seq 0 n)) eqn:E; [|reflexivity]. apply existsb_exists in E. destruct E as [i [A B]].
      apply in_seq in A. rewrite H in B by lia. discriminate. }
  rewrite !N. split.
  - intros [A B] i Hi. split.
    + specialize (A i Hi). destruct Rle_dec; [discriminate|]. destruct (col_min_in i HX) as [x [H1 H2]]. exists x. split; [exact H1|lra].
    + specialize (B i Hi). destruct Rle_dec; [discriminate|]. destruct (col_max_in i HX) as [x [H1 H2]]. exists x. split; [exact H1|lra].
  - intros H. split; intros i Hi; destruct (H i Hi) as [[x [A1 A2]] [y [B1 B2]]]; destruct Rle_dec as [K|K]; [|reflexivity| |reflexivity]; exfalso.
    + pose proof (col_min_le i X x A1). lra.
    + pose proof (col_max_ge i X y B1). lra.
Qed.

(** The exact condition: a population of the right shape is accepted iff in every coordinate some
    individual is below the lower bound and some individual is above the upper bound. *)
Theorem C36_accepts_partial : forall nind X, (1 <= nind)%nat -> length X = nind -> rows dim X ->
  ((exists pop, init_population q nind (StartArray X) = Ok pop) <->
   forall i, (i < dim)%nat -> (exists x, In x X /\ x@i < (q_lb q)@i) /\ (exists x, In x X /\ (q_ub q)@i < x@i)) /\
  ((forall pop, init_population q nind (StartArray X) <> Ok pop) -> init_population q nind (StartArray X) = Err ValueError).
Proof using WF.
  intros nind X Hn HL HR. assert (HX : X <> []) by (intros ->; simpl in HL; lia).
  rewrite <- (start_refused_false HX). unfold init_population.
  assert (S : (length X =? nind)%nat && forallb (fun x : pt => (length x =? length (q_lb q))%nat) X = true).
  { apply andb_true_iff. split; [apply Nat.eqb_eq; exact HL|]. apply forallb_forall. intros x Hx. apply Nat.eqb_eq.
    unfold rows in HR. rewrite Forall_forall in HR. rewrite (HR x Hx). symmetry. apply WF. }
  rewrite S. cbn [negb]. replace (length X =? 0)%nat with false by (symmetry; apply Nat.eqb_neq; lia).
  destruct (start_refused q X); split.
  - split; [intros [pop K]; discriminate|discriminate].
  - reflexivity.
  - split; [reflexivity|eauto].
  - intros K. exfalso. apply (K X). reflexivity.
Qed.

(** The property as stated fails in both directions, for every problem: a population inside the
    bounds is always refused ... *)
Theorem C36_feasible_rejected_refuted : forall nind X, (1 <= dim)%nat -> (1 <= nind)%nat -> length X = nind ->
  Forall (inside dim (q_lb q) (q_ub q)) X -> init_population q nind (StartArray X) = Err ValueError.
Proof using WF.
  intros nind X Hd Hn HL HX. assert (HR : rows dim X) by (eapply Forall_impl; [|exact HX]; intros x [H _]; exact H).
  destruct (@C36_accepts_partial nind X Hn HL HR) as [A B]. apply B. intros pop K.
  destruct (proj1 A (ex_intro _ pop K) 0%nat Hd) as [[x [K1 K2]] _]. rewrite Forall_forall in HX.
  destruct (HX x K1) as [_ H]. specialize (H 0%nat Hd). lra.
Qed.

(** ... and what is accepted is never inside the bounds. *)
Theorem C36_infeasible_accepted_refuted : forall nind X pop, (1 <= dim)%nat ->
  init_population q nind (StartArray X) = Ok pop -> pop = X /\ ~ Forall (inside dim (q_lb q) (q_ub q)) X.
Proof using WF.
  intros nind X pop Hd H. pose proof H as H'. unfold init_population in H'.
  destruct ((length X =? nind)%nat && forallb (fun x : pt => (length x =? length (q_lb q))%nat) X) eqn:S; [|discriminate].
  cbn [negb] in H'. destruct (length X =? 0)%nat eqn:Z; [discriminate|]. apply Nat.eqb_neq in Z.
  destruct (start_refused q X) eqn:SR; [discriminate|]. injection H' as <-. split; [reflexivity|]. intros K.
  apply andb_true_iff in S. destruct S as [S _]. apply Nat.eqb_eq in S.
  rewrite (@C36_feasible_rejected_refuted nind X) in H; auto; [discriminate|lia].
Qed.
End Start.

(** ** C35 with a user supplied start population: the result can lie outside the bounds.
    Minimize x^2... here f(x) = x over [0, 1] with the two individuals -1 and 2, no generations. *)
Theorem C35_start_refuted :
  let q := mkProb [0] [1] [] in
  let f := fun x : pt => XFin (x@0) in
  well_formed q 1 /\
  ga_optimize q f 2 (StartArray [[-1]; [2]]) [] = Ok ([-1], XFin (-1), [[[-1]; [2]]]) /\
  ~ inside 1 (q_lb q) (q_ub q) [-1].
Proof.
  cbv zeta. split; [|split].
  - split; [|intros i []]. split; [reflexivity|]. split; [reflexivity|]. intros [|i] Hi; simpl; [lra|lia].
  - unfold ga_optimize. change (2 + 2 mod 2)%nat with 2%nat. unfold init_population.
    cbn -[start_refused]. replace (start_refused (mkProb [0] [1] []) [[-1]; [2]]) with false.
    2:{ unfold start_refused. cbn. unfold col_min, col_max. cbn. unfold Rminl, Rmaxl. cbn.
        rewrite (Rmin_left (-1) 2), (Rmax_right (-1) 2) by lra.
        destruct Rle_dec; [lra|]. destruct Rle_dec; [lra|]. reflexivity. }
    cbn. unfold replaces. cbn. destruct Rlt_dec; [lra|]. reflexivity.
  - intros [_ H]. specialize (H 0%nat ltac:(lia)). simpl in H. lra.
Qed.

(** Non-trivial instance of the hypotheses of C35 (an integer variable, two generations). *)
Example ex_C35 :
  let q := mkProb [0; 0] [1; 3] [1%nat] in
  well_formed q 2 /\
  draws_ok 2 2 [[/2; /2]; [0; 1]] (repeat (mkGen (fun r k => ((r + k) mod 2)%nat) (fun _ => true) (fun _ => /3) (fun _ _ => 1) (fun _ _ => true)) 2).
Proof.
  cbv zeta. split.
  - split; [split; [reflexivity|split; [reflexivity|]]|].
    + intros [|[|i]] Hi; simpl; try lra. lia.
    + intros i [<-|[]]. split; [lia|]. split; [exists 0%Z; reflexivity|exists 3%Z; reflexivity].
  - split; [reflexivity|]. split.
    + constructor; [|constructor; [|constructor]]; (split; [reflexivity|]); intros [|[|i]] Hi; simpl; try lra; lia.
    + intros g r k Hg Hr Hk. apply repeat_spec in Hg. subst g. cbn [g_comp]. apply Nat.mod_upper_bound. lia.
Qed.

(** ** C37 *)
Section EILCB.
Variable q : prob.
Variable dim : nat.
Hypothesis WF : well_formed q dim.
Variable dist : pt -> pt -> R.
Variables mu sig : pt -> R.
Variables Phi phi : R -> R.

Lemma round_row_feasible : forall x, feasible q dim x -> round_row q x = x.
Proof using WF.
  intros x [[L H] I]. destruct (@round_feasible q dim WF [x]) as [Y [E1 [E2 E3]]]; [repeat constructor; exact L|].
  unfold round_row. rewrite E1. destruct (E3 0%nat x eq_refl) as [y [Y1 [Y2 Y3]]].
  destruct Y as [|y' [|? ?]]; simpl in E2; try lia. injection Y1 as ->.
  destruct (Y2 (conj L H)) as [[Ly _] _]. apply nth_eq with (dim := dim); auto. intros i Hi. apply Y3; [exact Hi|].
  destruct (in_dec Nat.eq_dec i (q_int q)); auto.
Qed.

Lemma too_close_false : forall dtol XX x, too_close dist dtol XX x = false <-> forall t, In t XX -> dtol <= dist x t.
Proof.
  intros. unfold too_close. split.
  - intros H t Ht. destruct (Rlt_dec (dist x t) dtol) as [K|K]; [|lra]. exfalso.
    assert (existsb (fun t => if Rlt_dec (dist x t) dtol then true else false) XX = true); [|congruence].
    apply existsb_exists. exists t. split; [exact Ht|]. destruct Rlt_dec; [reflexivity|contradiction].
  - intros H. destruct (existsb _ XX) eqn:E; [|reflexivity]. apply existsb_exists in E. destruct E as [t [A B]].
    specialize (H t A). destruct Rlt_dec; [lra|discriminate].
Qed.

Lemma pop_size_pos : (1 <= ga_pop_size q)%nat.
Proof. unfold ga_pop_size. lia. Qed.

(** The population size used by ei_ga and lcb_ga is even. *)
Definition run_ok (d : ga_draws) : Prop :=
  draws_ok dim (ga_pop_size q + ga_pop_size q mod 2) (gd_unit d) (gd_gens d).

(** [l] is a batch in which each point is good with respect to [score] and keeps the distance
    [dtol] from [X], [Xpend] and the points before it. *)
Definition batch_ok (good : pt -> Prop) (dtol : R) (X Xpend l : list pt) : Prop :=
  forall i x, nth_error l i = Some x ->
    feasible q dim x /\ good x /\ forall t, In t (X ++ Xpend ++ firstn i l) -> dtol <= dist x t.

(** Why a search gives up after the batch [l]: the next run of the genetic algorithm (on S gens
    populations) saw no individual that is good and far enough from everything. *)
Definition gave_up (good : pt -> Prop) (dtol : R) (X Xpend l : list pt) (ngen : nat) : Prop :=
  exists tr : list (list pt), length tr = S ngen /\ (forall E, In E tr -> E <> []) /\
  forall E y, In E tr -> In y E -> feasible q dim y /\
    (~ good y \/ exists t, In t (X ++ Xpend ++ l) /\ dist y t < dtol).

Lemma batch_snoc : forall (good : pt -> Prop) dtol XX x l,
  feasible q dim x -> good x -> (forall t, In t XX -> dtol <= dist x t) ->
  batch_ok good dtol (XX ++ [x]) [] l -> batch_ok good dtol XX [] (x :: l).
Proof.
  intros good dtol XX x l F G D B [|i] y Hy.
  - injection Hy as <-. split; [exact F|]. split; [exact G|]. intros t Ht. rewrite app_nil_r in Ht. auto.
  - simpl in Hy. destruct (B i y Hy) as [B1 [B2 B3]]. split; [exact B1|]. split; [exact B2|]. intros t Ht. apply B3.
    rewrite <- app_assoc. exact Ht.
Qed.

Lemma tr_nonempty : forall (f : pt -> xr) (NN : forall x, f x <> XNan) ps U gs x v tr,
  (1 <= ps)%nat -> draws_ok dim (ps + ps mod 2) U gs ->
  ga_optimize q f ps (StartUnit U) gs = Ok (x, v, tr) -> forall E, In E tr -> E <> [].
Proof using WF.
  intros f NN ps U gs x v tr Hp HD H. unfold ga_optimize in H. cbv zeta in H. set (nind := (ps + ps mod 2)%nat) in *.
  destruct (init_population q nind (StartUnit U)) as [pop|] eqn:E1; [|discriminate]. cbn [rbind] in H.
  destruct (init_round q pop) as [E|] eqn:E2; [|discriminate]. cbn [rbind] in H.
  destruct (ga_evaluate f E (keep_pop q pop E)) as [s|] eqn:E3; [|discriminate]. cbn [rbind] in H.
  destruct (generations q f nind gs s) as [[s' t']|] eqn:E4; [|discriminate]. cbn [rbind fst snd] in H. injection H as _ _ <-.
  intros E' [<-|HE].
  - intros ->. discriminate.
  - clear -E4 HE. revert s s' t' E4 HE. induction gs as [|g gs IH]; intros s s' t' E4 HE; simpl in E4.
    + injection E4 as _ <-. contradiction.
    + destruct (generation q f nind g s) as [[s1 E0]|] eqn:G; [|discriminate]. cbn [rbind fst snd] in E4.
      destruct (generations q f nind gs s1) as [[s2 t2]|] eqn:G2; [|discriminate]. cbn [rbind fst snd] in E4. injection E4 as _ <-.
      destruct HE as [<-|HE]; [|eapply IH; eauto].
      unfold generation in G. destruct (mapR _ _) as [ws|]; [|discriminate]. cbn [rbind] in G.
      destruct (mapR _ ws) as [ps2|]; [|discriminate]. cbn [rbind] in G.
      destruct (round_vars _ _ _ _) as [ro|]; [|discriminate]. cbn [rbind] in G.
      destruct ro as [|r0 ro]; [discriminate|]. cbn [set_first rbind] in G.
      destruct (ga_evaluate f _ _) as [s3|]; [|discriminate]. cbn [rbind] in G. injection G as _ <-. discriminate.
Qed.

Section EI.
Variables fmin dtol ei_tol : R.
Hypothesis Hd : 0 < dtol.
Hypothesis He : 0 < ei_tol.
Let EI := ei_raw mu sig Phi phi fmin.

Lemma ei_obj_feasible : forall XX x, feasible q dim x ->
  ei_obj dist mu sig Phi phi q fmin dtol XX x = XFin (- (if too_close dist dtol XX x then 0 else EI x)).
Proof using WF Hd.
  intros XX x F. unfold ei_obj, ei_merit. rewrite (round_row_feasible F). destruct (Rlt_dec 0 dtol); [|lra]. reflexivity.
Qed.

Lemma ei_ga_ok : forall n XX ds, (forall i, (i < n)%nat -> run_ok (ds i)) ->
  exists r, ei_ga dist mu sig Phi phi q fmin dtol ei_tol XX n ds = Ok r /\
  match r with
  | Some l => length l = n /\ batch_ok (fun x => ei_tol <= EI x) dtol XX [] l
  | None => exists l, (length l < n)%nat /\ batch_ok (fun x => ei_tol <= EI x) dtol XX [] l /\
      gave_up (fun x => ei_tol <= EI x) dtol XX [] l (length (gd_gens (ds (length l))))
  end.
Proof using WF Hd He.
  intros n. induction n as [|n IH]; intros XX ds HD.
  - exists (Some []). split; [reflexivity|]. split; [reflexivity|]. intros [|i] x H; discriminate.
  - cbn [ei_ga]. set (f := ei_obj dist mu sig Phi phi q fmin dtol XX).
    assert (NN : forall x, f x <> XNan) by (intros x; unfold f, ei_obj; discriminate).
    destruct (@C35_ga q dim WF f NN (ga_pop_size q) (gd_unit (ds 0%nat)) (gd_gens (ds 0%nat)) pop_size_pos)
      as [x [v [tr [G1 [G2 [G3 [G4 [G5 G6]]]]]]]]; [apply (HD 0%nat); lia|].
    rewrite G1. cbn [rbind]. assert (Ev : v = XFin (- (if too_close dist dtol XX x then 0 else EI x))).
    { rewrite G3. apply ei_obj_feasible. exact G2. }
    rewrite Ev. rewrite Ropp_involutive. destruct (Rlt_dec (if too_close dist dtol XX x then 0 else EI x) ei_tol) as [K|K].
    + exists None. split; [reflexivity|]. exists []. split; [simpl; lia|]. split; [intros [|i] y H; discriminate|].
      exists tr. split; [exact G4|]. split; [eapply tr_nonempty; [exact NN|apply pop_size_pos|apply (HD 0%nat); lia|exact G1]|].
      intros E y HE Hy. destruct (G6 E y HE Hy) as [F1 F2]. split; [exact F1|].
      rewrite Ev in F2. unfold f in F2. rewrite (ei_obj_feasible XX F1) in F2. cbn [xlt] in F2.
      destruct Rlt_dec as [|F3]; [discriminate|].
      rewrite !app_nil_r. destruct (too_close dist dtol XX y) eqn:T.
      * right. unfold too_close in T. apply existsb_exists in T. destruct T as [t [T1 T2]]. exists t. split; [exact T1|].
        destruct Rlt_dec; [assumption|discriminate].
      * left. lra.
    + destruct (too_close dist dtol XX x) eqn:T; [lra|]. rewrite too_close_false in T.
      destruct (IH (XX ++ [x]) (fun i => ds (S i))) as [r [R1 R2]]; [intros; apply HD; lia|].
      rewrite R1. cbn [rbind]. destruct r as [l|].
      * eexists. split; [reflexivity|]. destruct R2 as [R2 R3]. split; [simpl; congruence|].
        apply batch_snoc; auto. lra.
      * exists None. split; [reflexivity|]. destruct R2 as [l [L1 [L2 [tr' [L3 [L4 L5]]]]]]. exists (x :: l).
        split; [simpl; lia|]. split; [apply batch_snoc; auto; lra|]. exists tr'. split; [exact L3|]. split; [exact L4|].
        intros E y HE Hy. destruct (L5 E y HE Hy) as [M1 M2]. split; [exact M1|]. destruct M2 as [M2|[t [M2 M3]]]; [left; exact M2|].
        right. exists t. split; [|exact M3]. rewrite <- app_assoc in M2. exact M2.
Qed.
End EI.

(** The textbook quantities, written without the model's functions: expected improvement over
    [fmin] of a normal variable with mean [m] and standard deviation [s] (cdf [F], density [f]),
    and the lower confidence bound. *)
Definition expected_improvement (F f : R -> R) (fmin m s : R) : R :=
  let z := (fmin - m) / s in s * (z * F z + f z).
Definition lower_confidence_bound (k m s : R) : R := m - k * s.

Theorem C37_ei : forall fmin dtol ei_tol X Xpend n ds, 0 < dtol -> 0 < ei_tol -> X <> [] ->
  (forall i, (i < n)%nat -> run_ok (ds i)) ->
  let good := fun x => ei_tol <= expected_improvement Phi phi fmin (mu x) (sig x) in
  exists r, ei_ga dist mu sig Phi phi q fmin dtol ei_tol (X ++ Xpend) n ds = Ok r /\
  match r with
  | Some l => length l = n /\ batch_ok good dtol X Xpend l
  | None => exists l, (length l < n)%nat /\ batch_ok good dtol X Xpend l /\
      gave_up good dtol X Xpend l (length (gd_gens (ds (length l))))
  end.
Proof using WF.
  intros fmin dtol ei_tol X Xpend n ds Hd He HX HD good.
  destruct (@ei_ga_ok fmin dtol ei_tol Hd He n (X ++ Xpend) ds HD) as [r [R1 R2]]. exists r. split; [exact R1|].
  unfold batch_ok, gave_up in *. destruct r as [l|].
  - destruct R2 as [A B]. split; [exact A|]. intros i x H. specialize (B i x H). rewrite <- app_assoc in B. exact B.
  - destruct R2 as [l [A [B [tr [C1 [C2 C3]]]]]]. exists l. split; [exact A|]. split.
    + intros i x H. specialize (B i x H). rewrite <- app_assoc in B. exact B.
    + exists tr. split; [exact C1|]. split; [exact C2|]. intros E y HE Hy. specialize (C3 E y HE Hy). rewrite <- app_assoc in C3. exact C3.
Qed.

Section LCB.
Variables kappa dtol target : R.
Hypothesis Hd : 0 < dtol.
Let LCB := lcb_raw mu sig kappa.

Lemma lcb_obj_feasible : forall XX x, feasible q dim x ->
  lcb_obj dist mu sig q kappa dtol XX x = if too_close dist dtol XX x then XInf else XFin (LCB x).
Proof using WF Hd.
  intros XX x F. unfold lcb_obj, lcb_merit. rewrite (round_row_feasible F). destruct (Rlt_dec 0 dtol); [|lra]. reflexivity.
Qed.

Lemma lcb_ga_ok : forall n XX ds, (forall i, (i < n)%nat -> run_ok (ds i)) ->
  exists r, lcb_ga dist mu sig q kappa dtol (Some target) XX n ds = Ok r /\
  match r with
  | Some l => length l = n /\ batch_ok (fun x => LCB x <= target) dtol XX [] l
  | None => exists l, (length l < n)%nat /\ batch_ok (fun x => LCB x <= target) dtol XX [] l /\
      gave_up (fun x => LCB x <= target) dtol XX [] l (length (gd_gens (ds (length l))))
  end.
Proof using WF Hd.
  intros n. induction n as [|n IH]; intros XX ds HD.
  - exists (Some []). split; [reflexivity|]. split; [reflexivity|]. intros [|i] x H; discriminate.
  - cbn [lcb_ga]. set (f := lcb_obj dist mu sig q kappa dtol XX).
    assert (NN : forall x, f x <> XNan).
    { intros x. unfold f, lcb_obj, lcb_merit. destruct Rlt_dec; [destruct too_close|]; discriminate. }
    destruct (@C35_ga q dim WF f NN (ga_pop_size q) (gd_unit (ds 0%nat)) (gd_gens (ds 0%nat)) pop_size_pos)
      as [x [v [tr [G1 [G2 [G3 [G4 [G5 G6]]]]]]]]; [apply (HD 0%nat); lia|].
    rewrite G1. cbn [rbind]. assert (Ev : v = if too_close dist dtol XX x then XInf else XFin (LCB x)).
    { rewrite G3. apply lcb_obj_feasible. exact G2. }
    rewrite Ev. destruct (xlt (XFin target) (if too_close dist dtol XX x then XInf else XFin (LCB x))) eqn:K.
    + exists None. split; [reflexivity|]. exists []. split; [simpl; lia|]. split; [intros [|i] y H; discriminate|].
      exists tr. split; [exact G4|]. split; [eapply tr_nonempty; [exact NN|apply pop_size_pos|apply (HD 0%nat); lia|exact G1]|].
      intros E y HE Hy. destruct (G6 E y HE Hy) as [F1 F2]. split; [exact F1|].
      rewrite Ev in F2. unfold f in F2. rewrite (lcb_obj_feasible XX F1) in F2.
      rewrite !app_nil_r. destruct (too_close dist dtol XX y) eqn:T.
      * right. unfold too_close in T. apply existsb_exists in T. destruct T as [t [T1 T2]]. exists t. split; [exact T1|].
        destruct Rlt_dec; [assumption|discriminate].
      * left. destruct (too_close dist dtol XX x); cbn [xlt] in F2, K; [discriminate|].
        destruct Rlt_dec in F2; [discriminate|]. destruct Rlt_dec in K; [lra|discriminate].
    + destruct (too_close dist dtol XX x) eqn:T; [discriminate|]. rewrite too_close_false in T.
      cbn [xlt] in K. destruct Rlt_dec in K; [discriminate|].
      destruct (IH (XX ++ [x]) (fun i => ds (S i))) as [r [R1 R2]]; [intros; apply HD; lia|].
      rewrite R1. cbn [rbind]. destruct r as [l|].
      * eexists. split; [reflexivity|]. destruct R2 as [R2 R3]. split; [simpl; congruence|].
        apply batch_snoc; auto. lra.
      * exists None. split; [reflexivity|]. destruct R2 as [l [L1 [L2 [tr' [L3 [L4 L5]]]]]]. exists (x :: l).
        split; [simpl; lia|]. split; [apply batch_snoc; auto; lra|]. exists tr'. split; [exact L3|]. split; [exact L4|].
        intros E y HE Hy. destruct (L5 E y HE Hy) as [M1 M2]. split; [exact M1|]. destruct M2 as [M2|[t [M2 M3]]]; [left; exact M2|].
        right. exists t. split; [|exact M3]. rewrite <- app_assoc in M2. exact M2.
Qed.
End LCB.

Theorem C37_lcb : forall kappa dtol target X Xpend n ds, 0 < dtol -> X <> [] ->
  (forall i, (i < n)%nat -> run_ok (ds i)) ->
  let good := fun x => lower_confidence_bound kappa (mu x) (sig x) <= target in
  exists r, lcb_ga dist mu sig q kappa dtol (Some target) (X ++ Xpend) n ds = Ok r /\
  match r with
  | Some l => length l = n /\ batch_ok good dtol X Xpend l
  | None => exists l, (length l < n)%nat /\ batch_ok good dtol X Xpend l /\
      gave_up good dtol X Xpend l (length (gd_gens (ds (length l))))
  end.
Proof using WF.
  intros kappa dtol target X Xpend n ds Hd HX HD good.
  destruct (@lcb_ga_ok kappa dtol target Hd n (X ++ Xpend) ds HD) as [r [R1 R2]]. exists r. split; [exact R1|].
  unfold batch_ok, gave_up in *. destruct r as [l|].
  - destruct R2 as [A B]. split; [exact A|]. intros i x H. specialize (B i x H). rewrite <- app_assoc in B. exact B.
  - destruct R2 as [l [A [B [tr [C1 [C2 C3]]]]]]. exists l. split; [exact A|]. split.
    + intros i x H. specialize (B i x H). rewrite <- app_assoc in B. exact B.
    + exists tr. split; [exact C1|]. split; [exact C2|]. intros E y HE Hy. specialize (C3 E y HE Hy). rewrite <- app_assoc in C3. exact C3.
Qed.

(** With the default lcb_target = None every request for a point raises TypeError. *)
Theorem C37_lcb_default_refuted : forall kappa dtol XX n ds, 0 < dtol -> run_ok (ds 0%nat) -> (1 <= n)%nat ->
  lcb_ga dist mu sig q kappa dtol None XX n ds = Err TypeError.
Proof using WF.
  intros kappa dtol XX n ds Hd HD Hn. destruct n as [|n]; [lia|]. cbn [lcb_ga].
  assert (NN : forall x, lcb_obj dist mu sig q kappa dtol XX x <> XNan).
  { intros x. unfold lcb_obj, lcb_merit. destruct Rlt_dec; [destruct too_close|]; discriminate. }
  destruct (@C35_ga q dim WF _ NN (ga_pop_size q) (gd_unit (ds 0%nat)) (gd_gens (ds 0%nat)) pop_size_pos HD) as [x [v [tr [G1 _]]]].
  rewrite G1. reflexivity.
Qed.

(** With ei_tol = 0 (the default of EIStrategy when all values are equal) ei_ga never gives up,
    and the distance is not enforced: if every point is too close it still returns n points. *)
Theorem C37_zero_tol_refuted : forall fmin dtol XX n ds, 0 < dtol ->
  (forall i, (i < n)%nat -> run_ok (ds i)) ->
  (forall x, feasible q dim x -> exists t, In t XX /\ dist x t < dtol) ->
  exists l, ei_ga dist mu sig Phi phi q fmin dtol 0 XX n ds = Ok (Some l) /\ length l = n /\
    forall x, In x l -> feasible q dim x /\ exists t, In t XX /\ dist x t < dtol.
Proof using WF.
  intros fmin dtol XX n ds Hd. revert XX ds. induction n as [|n IH]; intros XX ds HD HA.
  - exists []. split; [reflexivity|]. split; [reflexivity|]. intros x [].
  - cbn [ei_ga].
    assert (NN : forall x, ei_obj dist mu sig Phi phi q fmin dtol XX x <> XNan) by (intros x; unfold ei_obj; discriminate).
    destruct (@C35_ga q dim WF _ NN (ga_pop_size q) (gd_unit (ds 0%nat)) (gd_gens (ds 0%nat)) pop_size_pos)
      as [x [v [tr [G1 [G2 [G3 _]]]]]]; [apply (HD 0%nat); lia|].
    rewrite G1. cbn [rbind]. rewrite (@ei_obj_feasible fmin dtol Hd XX x G2) in G3.
    assert (T : too_close dist dtol XX x = true).
    { destruct (too_close dist dtol XX x) eqn:E; [reflexivity|]. rewrite too_close_false in E. destruct (HA x G2) as [t [A B]]. specialize (E t A). lra. }
    rewrite T in G3. rewrite G3. destruct (Rlt_dec (- - 0) 0) as [K|_]; [lra|].
    destruct (IH (XX ++ [x]) (fun i => ds (S i))) as [l [L1 [L2 L3]]].
    + intros i Hi. apply HD. lia.
    + intros y Hf. destruct (HA y Hf) as [t [A B]]. exists t. split; [apply in_or_app; auto|exact B].
    + rewrite L1. cbn [rbind]. exists (x :: l). split; [reflexivity|]. split; [simpl; congruence|].
      intros y [<-|Hy]; [split; [exact G2|apply HA; exact G2]|]. destruct (L3 y Hy) as [F _]. split; [exact F|]. apply HA. exact F.
Qed.
End EILCB.
Print Assumptions C35_ga.
Print Assumptions C37_ei.

(** The hypotheses of C37 are met: 100 individuals at the midpoint, one generation. *)
Example ex_C37 : let q := mkProb [0] [1] [] in
  well_formed q 1 /\
  run_ok q 1 (mkDraws (repeat [/2] 100) [mkGen (fun r k => ((r + k) mod 100)%nat) (fun _ => true) (fun _ => /3) (fun _ _ => 1) (fun _ _ => true)]).
Proof.
  cbv zeta. split.
  - split; [|intros i []]. split; [reflexivity|]. split; [reflexivity|]. intros [|i] Hi; simpl; [lra|lia].
  - unfold run_ok. replace (ga_pop_size _ + ga_pop_size _ mod 2)%nat with 100%nat by reflexivity.
    split; [reflexivity|]. split.
    + apply Forall_forall. intros x Hx. apply repeat_spec in Hx. subst x. split; [reflexivity|]. intros [|i] Hi; simpl; [lra|lia].
    + intros g r k [<-|[]] Hr Hk. cbn [g_comp]. apply Nat.mod_upper_bound. lia.
Qed.
