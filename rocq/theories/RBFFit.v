(** * The state of RBFInterpolant between calls, and what _fit establishes. *)
From Coq Require Import List Arith ZArith Lia Bool Reals Lra Permutation.
From Verif Require Import Base Box Design Lin LinProofs RBF RBFProofs.
Import ListNotations.

Set Implicit Arguments.
Local Open Scope R_scope.

Lemma sqdist_sym : forall x y, sqdist x y = sqdist y x.
Proof. induction x as [|a x IH]; intros [|b y]; simpl; try reflexivity. rewrite IH. ring. Qed.
Lemma edist_sym : forall x y, edist x y = edist y x.
Proof. intros. unfold edist. rewrite sqdist_sym. reflexivity. Qed.

Lemma solve_cols_ok : forall (f : nat -> res (list R)) (P : nat -> list R -> Prop) n,
  (forall i, (i < n)%nat -> exists x, f i = Ok x /\ P i x) ->
  exists l, solve_cols f n = Ok l /\ length l = n /\ forall i, (i < n)%nat -> P i (nth i l []).
Proof.
  intros f P n. induction n as [|n IH]; intros H.
  - exists []. split; [reflexivity|]. split; [reflexivity|]. intros i Hi. lia.
  - destruct IH as [l [E [L Q]]]; [intros i Hi; apply H; lia|]. destruct (H n ltac:(lia)) as [x [Ex Px]].
    exists (l ++ [x]). cbn [solve_cols]. rewrite E. cbn [rbind]. rewrite Ex. split; [reflexivity|]. split; [rewrite app_length; simpl; lia|].
    intros i Hi. destruct (Nat.eq_dec i n) as [->|N].
    + rewrite app_nth2, L, Nat.sub_diag by lia. exact Px.
    + rewrite app_nth1 by lia. apply Q. lia.
Qed.
Lemma solve_cols_err : forall (f : nat -> res (list R)) e n, (0 < n)%nat -> f 0%nat = Err e -> solve_cols f n = Err e.
Proof.
  intros f e n. induction n as [|n IH]; intros Hn H; [lia|]. cbn [solve_cols]. destruct n as [|n].
  - cbn [solve_cols rbind]. rewrite H. reflexivity.
  - rewrite IH by (lia || exact H). reflexivity.
Qed.

Section Fit.
Variable dim : nat.
Variables lb ub : pt.
Variable K : kernel.
Variable T : tail.
Variable eta : R.
Variable out : list R -> list R.

Notation ntail := (t_dim_tail T).
Notation row X i := (nth i X ([] : pt)).
Notation sysm := (sysmat K T eta).

Lemma sys_eq : forall X i j, sysm X i j =
  if (i <? ntail)%nat then (if (j <? ntail)%nat then 0 else nth i (t_eval T (row X (j - ntail))) 0)
  else (if (j <? ntail)%nat then nth j (t_eval T (row X (i - ntail))) 0
        else k_eval K (edist (row X (i - ntail)) (row X (j - ntail))) + eta * (if (i - ntail =? j - ntail)%nat then 1 else 0)).
Proof.
  intros X i j. unfold sysmat, vstack, hstack, zero, tr, teval, madd, mscal, keval, cdist, eye.
  destruct (i <? ntail)%nat, (j <? ntail)%nat; reflexivity.
Qed.

Lemma sys_sym : forall X i j, sysm X i j = sysm X j i.
Proof.
  intros X i j. rewrite !sys_eq. destruct (i <? ntail)%nat, (j <? ntail)%nat; try reflexivity.
  rewrite edist_sym, (Nat.eqb_sym (i - ntail)). reflexivity.
Qed.

Lemma sys_prefix : forall X Y i j, (i < ntail + length X)%nat -> (j < ntail + length X)%nat -> sysm (X ++ Y) i j = sysm X i j.
Proof.
  intros X Y i j Hi Hj. rewrite !sys_eq. destruct (Nat.ltb_spec i ntail), (Nat.ltb_spec j ntail); try reflexivity; rewrite ?app_nth1 by lia; reflexivity.
Qed.

Lemma factored_eq : forall n A B L U piv, (forall i j, (i < n)%nat -> (j < n)%nat -> A i j = B i j) -> factored n A L U piv -> factored n B L U piv.
Proof.
  intros n A B L U piv H F. split; try apply F. intros i j Hi Hj. rewrite <- H; [apply (f_eq F); assumption|apply perm_lt; [apply F|exact Hi]|exact Hj].
Qed.
Lemma nonsingular_eq : forall n A B, (forall i j, (i < n)%nat -> (j < n)%nat -> A i j = B i j) -> nonsingular n A -> nonsingular n B.
Proof.
  intros n A B H N x LX HX. apply N; [exact LX|]. intros i Hi. rewrite <- (HX i Hi). unfold mulv. apply rsum_ext. intros j Hj. rewrite H by assumption. reflexivity.
Qed.

Definition rhs (s : rbf) : list R := repeat 0 ntail ++ out (u_fX (r_s s)).

(** [c] solves the interpolation system for all points of the surrogate. *)
Definition solves (s : rbf) (c : list R) : Prop :=
  length c = (ntail + u_num (r_s s))%nat /\
  forall i, (i < ntail + u_num (r_s s))%nat -> mulv (ntail + u_num (r_s s)) (sysm (u_UX (r_s s))) c i = nth i (rhs s) 0.
Definition regular (s : rbf) : Prop := nonsingular (ntail + u_num (r_s s)) (sysm (u_UX (r_s s))).

(** What always holds between calls. *)
Record Inv (s : rbf) : Prop := {
  I_num : u_num (r_s s) = length (u_X (r_s s));
  I_box : u_UX (r_s s) = to_unit_box (u_X (r_s s)) lb ub;
  I_fX : length (u_fX (r_s s)) = length (u_X (r_s s));
  I_none : r_c s = None -> u_updated (r_s s) = false;
  I_some : forall c, r_c s = Some c -> exists k, (ntail <= k <= u_num (r_s s))%nat /\ length c = (ntail + k)%nat /\
    factored (ntail + k) (sysm (u_UX (r_s s))) (r_L s) (r_U s) (r_piv s) /\
    (u_updated (r_s s) = true -> k = u_num (r_s s) /\ solves s c /\ regular s) }.

(** The factorised part of the system is regular: no failed fit since the last reset. *)
Definition good (s : rbf) : Prop := forall c, r_c s = Some c -> nonsingular (length c) (sysm (u_UX (r_s s))).

(** same data *)
Definition same_data (s s' : rbf) : Prop :=
  u_num (r_s s') = u_num (r_s s) /\ u_X (r_s s') = u_X (r_s s) /\ u_UX (r_s s') = u_UX (r_s s) /\ u_fX (r_s s') = u_fX (r_s s).

Lemma Inv_reset : Inv r_reset.
Proof. split; try reflexivity. intros c H. discriminate H. Qed.
Lemma good_reset : good r_reset.
Proof. intros c H. discriminate H. Qed.

Lemma UX_len : forall s, Inv s -> length (u_UX (r_s s)) = u_num (r_s s).
Proof. intros s I. rewrite (I_box I), (I_num I). unfold to_unit_box. apply map_length. Qed.

Lemma Inv_add : forall xx fx s s', Inv s -> r_add dim lb ub xx fx s = Ok s' -> Inv s' /\ (good s -> good s') /\
  r_c s' = r_c s /\ u_updated (r_s s') = false /\
  u_num (r_s s') = (u_num (r_s s) + length xx)%nat /\ u_X (r_s s') = u_X (r_s s) ++ xx /\ u_fX (r_s s') = u_fX (r_s s) ++ fx.
Proof.
  intros xx fx s s' I E. unfold r_add, u_add in E. destruct (_ && _)%bool eqn:EC; [|discriminate E].
  apply andb_prop in EC. destruct EC as [E1 _]. apply Nat.eqb_eq in E1. injection E as <-. cbn [r_s r_c r_L r_U r_piv u_num u_X u_UX u_fX u_updated].
  assert (P : forall c k, (k <= u_num (r_s s))%nat -> length c = (ntail + k)%nat -> forall i j, (i < length (c : list R))%nat -> (j < length c)%nat ->
    sysm (u_UX (r_s s)) i j = sysm (to_unit_box (u_X (r_s s) ++ xx) lb ub) i j).
  { intros c k Hk LC i j Hi Hj. unfold to_unit_box. rewrite map_app. change (map (fun x : pt => to_unit x lb ub) (u_X (r_s s))) with (to_unit_box (u_X (r_s s)) lb ub).
    rewrite <- (I_box I). symmetry. apply sys_prefix; rewrite (UX_len I); lia. }
  split; [|split; [|repeat split]].
  - split; cbn [r_s r_c r_L r_U r_piv u_num u_X u_UX u_fX u_updated].
    + rewrite app_length, (I_num I). reflexivity.
    + reflexivity.
    + rewrite !app_length, (I_fX I). lia.
    + reflexivity.
    + intros c Hc. destruct (I_some I Hc) as [k [Hk [LC [F _]]]]. exists k. split; [lia|]. split; [exact LC|]. split; [|discriminate].
      eapply factored_eq; [|exact F]. intros i j Hi Hj. apply (P c k); [lia|exact LC|lia|lia].
  - intros G c Hc. destruct (I_some I Hc) as [k [Hk [LC _]]]. cbn [r_s u_UX]. eapply nonsingular_eq; [|apply G; exact Hc].
    intros i j Hi Hj. apply (P c k); [lia|exact LC|lia|lia].
Qed.

(** ** coefs *)
Lemma coefs_spec : forall s, Inv {| r_s := r_s s; r_L := r_L s; r_U := r_U s; r_piv := r_piv s; r_c := None |} -> (ntail <= u_num (r_s s))%nat ->
  factored (ntail + u_num (r_s s)) (sysm (u_UX (r_s s))) (r_L s) (r_U s) (r_piv s) ->
  let (s', r) := coefs T out s in
  same_data s s' /\ Inv s' /\
  ((r = Ok tt /\ regular s /\ u_updated (r_s s') = true /\ exists c, r_c s' = Some c /\ solves s' c) \/
   (r = Err OtherError /\ ~ regular s /\ u_updated (r_s s') = false /\ exists c, r_c s' = Some c /\ length c = (ntail + u_num (r_s s))%nat)).
Proof.
  intros s I HN F. unfold coefs. fold (rhs s).
  destruct (@fac_solve _ _ _ _ _ F (fun i => nth i (rhs s) 0)) as [y [E1 [LY [S1 S2]]]]. rewrite E1.
  pose proof (fac_nonsingular F) as FN.
  destruct (@solve_upper_spec (ntail + u_num (r_s s))%nat (r_U s) (fun i => nth i y 0) (f_upper F)) as [[D _]|[D _]].
  - assert (NS : regular s) by (apply FN; exact D). destruct (S1 NS) as [c [E2 [LC C]]]. rewrite E2.
    assert (SV : forall sx, r_s sx = {| u_num := u_num (r_s s); u_X := u_X (r_s s); u_UX := u_UX (r_s s); u_fX := u_fX (r_s s); u_updated := true |} -> solves sx c).
    { intros sx Ex. unfold solves, rhs. rewrite Ex. cbn. split; [exact LC|]. exact C. }
    split; [repeat split|]. split.
    + split; cbn [r_s r_c r_L r_U r_piv u_num u_X u_UX u_fX u_updated]; [apply (I_num I)|apply (I_box I)|apply (I_fX I)|discriminate|].
      intros c' Hc'. injection Hc' as <-. exists (u_num (r_s s)). split; [lia|]. split; [exact LC|]. split; [exact F|].
      intros _. split; [reflexivity|]. split; [apply SV; reflexivity|exact NS].
    + left. split; [reflexivity|]. split; [exact NS|]. split; [reflexivity|]. exists c. split; [reflexivity|apply SV; reflexivity].
  - assert (NS : ~ regular s) by (intros H; apply D; apply FN; exact H). rewrite (S2 NS).
    split; [repeat split|]. pose proof (I_none I eq_refl) as UF. cbn [r_s] in UF. split.
    + split; cbn [r_s r_c r_L r_U r_piv]; [apply (I_num I)|apply (I_box I)|apply (I_fX I)|discriminate|].
      intros c' Hc'. injection Hc' as <-. exists (u_num (r_s s)). split; [lia|]. split; [exact LY|]. split; [exact F|].
      intros K1. congruence.
    + right. split; [reflexivity|]. split; [exact NS|]. split; [exact UF|]. exists y. split; [reflexivity|exact LY].
Qed.

Definition fit_result (s s' : rbf) (r : res unit) : Prop :=
  same_data s s' /\ Inv s' /\
  ((r = Ok tt /\ (ntail <= u_num (r_s s))%nat /\ regular s /\ u_updated (r_s s') = true /\ exists c, r_c s' = Some c /\ solves s' c) \/
   (r = Err AssertionError /\ (u_num (r_s s) < ntail)%nat /\ r_c s' = None) \/
   (r = Err OtherError /\ (ntail <= u_num (r_s s))%nat /\ ~ regular s /\ u_updated (r_s s') = false /\ exists c, r_c s' = Some c /\ length c = (ntail + u_num (r_s s))%nat)).

Definition forget (s : rbf) : rbf := {| r_s := r_s s; r_L := r_L s; r_U := r_U s; r_piv := r_piv s; r_c := None |}.

Lemma Inv_forget : forall s L U piv, Inv s -> u_updated (r_s s) = false ->
  Inv {| r_s := r_s s; r_L := L; r_U := U; r_piv := piv; r_c := None |}.
Proof. intros s L U piv I H. split; cbn [r_s r_c]; [apply (I_num I)|apply (I_box I)|apply (I_fX I)|intros _; exact H|discriminate]. Qed.

Lemma fit_initial_spec : forall s, Inv s -> u_updated (r_s s) = false -> r_c s = None ->
  let (s', r) := fit_initial K T eta out s in fit_result s s' r.
Proof.
  intros s I HU HC. unfold fit_initial. destruct (Nat.ltb_spec (u_num (r_s s)) ntail) as [HN|HN].
  - split; [repeat split|]. split; [exact I|]. right. left. repeat split; assumption.
  - pose proof (initial_factored (ntail + u_num (r_s s)) (sysm (u_UX (r_s s)))) as F.
    destruct (lu_factor (ntail + u_num (r_s s)) (sysm (u_UX (r_s s)))) as [LU sw].
    set (s0 := {| r_s := r_s s; r_L := madd (tril1 LU) eye; r_U := triu LU; r_piv := piv_of (ntail + u_num (r_s s)) sw; r_c := r_c s |}).
    pose proof (@coefs_spec s0) as H. specialize (H (Inv_forget _ _ _ I HU) HN F).
    destruct (coefs T out s0) as [s' r]. destruct H as [H1 [H2 H3]]. split; [exact H1|]. split; [exact H2|].
    destruct H3 as [[A [B C]]|[A [B C]]]; [left|right; right]; split; auto.
Qed.

(** _fit on a state without failed fits *)
Theorem fit_spec : forall s, Inv s -> good s -> let (s', r) := fit K T eta out s in fit_result s s' r.
Proof.
  intros s I G. unfold fit. destruct (u_updated (r_s s)) eqn:EU.
  { destruct (r_c s) as [c|] eqn:EC; [|rewrite (I_none I EC) in EU; discriminate].
    destruct (I_some I EC) as [k [Hk [LC [F H]]]]. destruct (H EU) as [-> [SV RG]].
    split; [repeat split|]. split; [exact I|]. left. split; [reflexivity|]. split; [lia|]. split; [exact RG|]. split; [exact EU|]. exists c. auto. }
  destruct (r_c s) as [c|] eqn:EC; [|apply fit_initial_spec; assumption].
  destruct (I_some I EC) as [k [Hk [LC [F _]]]]. replace (length c - ntail)%nat with k by lia.
  set (m := (u_num (r_s s) - k)%nat). set (X := u_UX (r_s s)). set (ka := (ntail + k)%nat) in *.
  pose proof (G c EC) as NS. rewrite LC in NS. fold X in F, NS.
  assert (LX : length X = (k + m)%nat). { unfold X. rewrite (UX_len I). unfold m. lia. }
  assert (Efull : (ntail + u_num (r_s s))%nat = (ka + m)%nat) by (unfold ka, m; lia).
  pose proof (proj1 (fac_nonsingular F) NS) as DU.
  assert (RX : forall j, row (skipn k X) j = row X (k + j)).
  { intros j. rewrite <- (firstn_skipn k X) at 2. rewrite app_nth2; rewrite firstn_length_le by lia; [|lia]. f_equal. lia. }
  set (Pnew := vstack ntail (tr (teval T (skipn k X))) (keval K (cdist X (skipn k X)))).
  assert (PN : forall i j, (i < ka)%nat -> Pnew i j = sysm X i (ka + j)%nat).
  { intros i j Hi. rewrite sys_eq. unfold Pnew, vstack, tr, teval, keval, cdist. unfold ka in *.
    destruct (Nat.ltb_spec i ntail) as [H1|H1].
    - destruct (Nat.ltb_spec (ntail + k + j) ntail); [lia|]. rewrite RX. replace (ntail + k + j - ntail)%nat with (k + j)%nat by lia. reflexivity.
    - destruct (Nat.ltb_spec (ntail + k + j) ntail); [lia|]. rewrite RX. replace (ntail + k + j - ntail)%nat with (k + j)%nat by lia.
      destruct (Nat.eqb_spec (i - ntail) (k + j)); [lia|]. ring. }
  destruct (@solve_cols_ok (fun i => do a <- solve_upper_T ka (r_U s) (fun r => Pnew r i);
                               do b <- solve_lower ka (r_L s) (fun r => Pnew (nth r (r_piv s) 0%nat) i);
                               Ok (a ++ b))
     (fun j x => length x = (ka + ka)%nat /\
        (forall i, (i < ka)%nat -> rsum ka (fun l => r_U s l i * nth l (firstn ka x) 0) = sysm X i (ka + j)%nat) /\
        (forall i, (i < ka)%nat -> rsum ka (fun l => r_L s i l * nth l (skipn ka x) 0) = sysm X (nth i (r_piv s) 0%nat) (ka + j)%nat)) m)
    as [ab [EAB [LAB HAB]]].
  { intros j Hj. unfold solve_upper_T.
    assert (LT : lower ka (tr (r_U s))) by (intros a b Ha Hb Hab; unfold tr; apply (f_upper F); assumption).
    destruct (@solve_lower_spec ka (tr (r_U s)) (fun r => Pnew r j) LT) as [[_ [a [E1 [L1 H1]]]]|[C _]].
    2:{ exfalso. apply C. intros a Ha. apply DU. exact Ha. }
    destruct (@solve_lower_spec ka (r_L s) (fun r => Pnew (nth r (r_piv s) 0%nat) j) (f_lower F)) as [[_ [b [E2 [L2 H2]]]]|[C _]].
    2:{ exfalso. apply C. apply F. }
    rewrite E1. cbn [rbind]. rewrite E2. cbn [rbind]. exists (a ++ b). split; [reflexivity|]. split; [rewrite app_length; lia|].
    rewrite firstn_app, skipn_app, L1, Nat.sub_diag. rewrite firstn_all2, skipn_all2 by lia. cbn [firstn skipn app]. rewrite app_nil_r. split.
    - intros i Hi. rewrite <- PN by exact Hi. apply (H1 i Hi).
    - intros i Hi. rewrite <- PN by (apply perm_lt; [apply F|exact Hi]). apply (H2 i Hi). }
  rewrite EAB.
  set (L21 := tr (cols (map (firstn ka) ab))). set (U12 := cols (map (skipn ka) ab)).
  assert (NF : forall j, (j < m)%nat -> nth j (map (firstn ka) ab) [] = firstn ka (nth j ab [])).
  { intros j Hj. rewrite <- (map_nth (firstn ka)). rewrite firstn_nil. reflexivity. }
  assert (NK : forall j, (j < m)%nat -> nth j (map (skipn ka) ab) [] = skipn ka (nth j ab [])).
  { intros j Hj. rewrite <- (map_nth (skipn ka)). rewrite skipn_nil. reflexivity. }
  destruct (cholesky m _) as [C|] eqn:ECH.
  - destruct (cholesky_spec _ _ ECH) as [C1 [C2 C3]].
    assert (HL : forall j i, (j < m)%nat -> (i < ka)%nat -> rsum ka (fun l => r_U s l i * L21 j l) = sysm X i (ka + j)%nat).
    { intros j i Hj Hi. rewrite <- (proj1 (proj2 (HAB j Hj)) i Hi). apply rsum_ext. intros l Hl. unfold L21, tr, cols. rewrite NF by exact Hj. reflexivity. }
    assert (HR : forall j i, (j < m)%nat -> (i < ka)%nat -> rsum ka (fun l => r_L s i l * U12 l j) = sysm X (nth i (r_piv s) 0%nat) (ka + j)%nat).
    { intros j i Hj Hi. rewrite <- (proj2 (proj2 (HAB j Hj)) i Hi). apply rsum_ext. intros l Hl. unfold U12, cols. rewrite NK by exact Hj. reflexivity. }
    assert (HS : forall i j, (i < m)%nat -> (j <= i)%nat -> sysm X (ka + i)%nat (ka + j)%nat - mulm ka L21 U12 i j = mulm m C (tr C) i j).
    { intros i j Hi Hj. rewrite <- (C3 i j Hi Hj). unfold msub, madd, mscal, keval, cdist, eye. f_equal. rewrite sys_eq. unfold ka.
      destruct (Nat.ltb_spec (ntail + k + i) ntail); [lia|]. destruct (Nat.ltb_spec (ntail + k + j) ntail); [lia|].
      replace (ntail + k + i - ntail)%nat with (k + i)%nat by lia. replace (ntail + k + j - ntail)%nat with (k + j)%nat by lia.
      rewrite RX. f_equal. f_equal. destruct (Nat.eqb_spec i j), (Nat.eqb_spec (k + i) (k + j)); try reflexivity; lia. }
    pose proof (@extend_factored ka m (sysm X) (r_L s) (r_U s) (r_piv s) F NS (fun i j _ _ => sys_sym X i j) L21 U12 C HL HR C1 C2 HS) as F'.
    pose proof (@extend_nonsingular ka m (sysm X) (r_L s) (r_U s) (r_piv s) F NS (fun i j _ _ => sys_sym X i j) L21 U12 C HL HR C1 C2 HS) as NS'.
    unfold Lx, Ux in F'. rewrite <- Efull in F', NS'.
    match goal with |- let (_, _) := coefs T out ?s0 in _ => set (s1 := s0) end.
    pose proof (@coefs_spec s1 (Inv_forget _ _ _ I EU) ltac:(cbn; lia) F') as H.
    destruct (coefs T out s1) as [s' r]. destruct H as [H1 [H2 H3]]. split; [exact H1|]. split; [exact H2|].
    destruct H3 as [[A B]|[_ [B _]]]; [left; split; [exact A|]; split; [lia|exact B]|exfalso; apply B; exact NS'].
  - pose proof (@fit_initial_spec (forget s)) as H. specialize (H (Inv_forget _ _ _ I EU) EU eq_refl). unfold forget in H.
    destruct (fit_initial K T eta out _) as [s' r]. exact H.
Qed.

(** ** After a failed fit *)
Definition broken (s : rbf) : Prop := u_updated (r_s s) = false /\ exists c, r_c s = Some c /\ ~ nonsingular (length c) (sysm (u_UX (r_s s))).

Theorem fit_broken : forall s, Inv s -> broken s ->
  let (s', r) := fit K T eta out s in r = Err OtherError /\ same_data s s' /\ Inv s' /\ broken s'.
Proof.
  intros s I [EU [c [EC NS]]]. unfold fit. rewrite EU, EC.
  destruct (I_some I EC) as [k [Hk [LC [F _]]]]. replace (length c - ntail)%nat with k by lia. rewrite LC in NS.
  assert (DU : ~ diag_ok (ntail + k) (r_U s)). { intros H. apply NS. apply (fac_nonsingular F). exact H. }
  destruct (Nat.eq_dec k (u_num (r_s s))) as [E|N].
  - subst k. rewrite Nat.sub_diag. cbn [solve_cols map cholesky chol_steps].
    unfold cholesky. cbn [chol_steps seq]. rewrite app_nil_r.
    match goal with |- let (_, _) := coefs T out ?s0 in _ => set (s1 := s0) end.
    assert (F' : factored (ntail + u_num (r_s s)) (sysm (u_UX (r_s s1))) (r_L s1) (r_U s1) (r_piv s1)).
    { assert (E1 : forall i j, (i < ntail + u_num (r_s s))%nat -> (j < ntail + u_num (r_s s))%nat -> r_L s1 i j = r_L s i j).
      { intros i j Hi Hj. unfold s1. cbn [r_L]. unfold hstack, vstack. destruct (Nat.ltb_spec j (ntail + u_num (r_s s))); [|lia].
        destruct (Nat.ltb_spec i (ntail + u_num (r_s s))); [reflexivity|lia]. }
      assert (E2 : forall i j, (i < ntail + u_num (r_s s))%nat -> (j < ntail + u_num (r_s s))%nat -> r_U s1 i j = r_U s i j).
      { intros i j Hi Hj. unfold s1. cbn [r_U]. unfold hstack, vstack. destruct (Nat.ltb_spec j (ntail + u_num (r_s s))); [|lia].
        destruct (Nat.ltb_spec i (ntail + u_num (r_s s))); [reflexivity|lia]. }
      split; [apply F| | | |].
      - intros i j Hi Hj Hij. rewrite E1 by assumption. apply (f_lower F); assumption.
      - intros i j Hi Hj Hij. rewrite E2 by assumption. apply (f_upper F); assumption.
      - intros i Hi. rewrite E1 by assumption. apply (f_diag F); assumption.
      - intros i j Hi Hj. change (u_UX (r_s s1)) with (u_UX (r_s s)). change (r_piv s1) with (r_piv s). rewrite (f_eq F Hi Hj).
        unfold mulm. apply rsum_ext. intros l Hl. rewrite E1, E2 by assumption. reflexivity. }
    pose proof (@coefs_spec s1 (Inv_forget _ _ _ I EU) ltac:(cbn; lia) F') as H.
    destruct (coefs T out s1) as [s' r]. destruct H as [H1 [H2 [[_ [H3 _]]|[H3 [H4 [H5 [c' [H6 H7]]]]]]]].
    + exfalso. apply NS. exact H3.
    + split; [exact H3|]. split; [exact H1|]. split; [exact H2|]. split; [exact H5|]. exists c'. split; [exact H6|].
      destruct H1 as [_ [_ [H1 _]]]. rewrite H1, H7. exact H4.
  - rewrite (@solve_cols_err _ OtherError); [|lia|].
    + split; [reflexivity|]. split; [repeat split|]. split; [exact I|]. split; [exact EU|]. exists c. rewrite LC. auto.
    + unfold solve_upper_T, solve_lower. destruct (zero_diag (ntail + k) (tr (r_U s))) eqn:EZ; [reflexivity|].
      exfalso. apply DU. exact (proj1 (zero_diag_spec (ntail + k) (tr (r_U s))) EZ).
Qed.
End Fit.
