(** * SRBF/DYCORS: step rule and sampling radius. *)
From Coq Require Import List Arith ZArith Lia Bool QArith Qabs Qminmax Qpower Lqa.
From Verif Require Import Base Strategy StrategySpec StrategyProofs StrategyInv StrategyInv2
  StrategyInv3 SRBF.
Import ListNotations.
Local Close Scope Q_scope.

Set Implicit Arguments.

(** ** Specification of the step rule, on the list of processed steps alone *)

(** Smallest value of a step. *)
Definition step_best (l : list val) : val := match l with [] => PInf | v :: l' => vmin v l' end.

(** Which steps improve: by more than 0.1 percent on the last improving step, the first one
    always. Oldest first. *)
Fixpoint flags_from (ref : val) (steps : list (list val)) : list bool :=
  match steps with
  | [] => []
  | l :: steps' =>
    let b := improves (step_best l) ref in
    b :: flags_from (if b then step_best l else ref) steps'
  end.
Fixpoint ref_from (ref : val) (steps : list (list val)) : val :=
  match steps with
  | [] => ref
  | l :: steps' => ref_from (if improves (step_best l) ref then step_best l else ref) steps'
  end.
Definition flags (steps : list (list val)) : list bool := flags_from PInf steps.

(** Length of the block of flags equal to [b] at the front of a list (newest first). *)
Fixpoint lead (b : bool) (l : list bool) : nat :=
  match l with
  | x :: l' => if Bool.eqb x b then S (lead b l') else 0
  | [] => 0
  end.

(** Number of halvings minus doublings (not below zero); newest flag first: a block of failures
    halves at every multiple of [ft], a block of successes doubles at every multiple of 3. *)
Fixpoint level (ft : nat) (rl : list bool) : nat :=
  match rl with
  | [] => 0
  | true :: rl' => if lead true rl mod 3 =? 0 then pred (level ft rl') else level ft rl'
  | false :: rl' => if lead false rl mod ft =? 0 then S (level ft rl') else level ft rl'
  end.

Lemma flags_from_app : forall l1 l2 ref,
  flags_from ref (l1 ++ l2) = flags_from ref l1 ++ flags_from (ref_from ref l1) l2.
Proof. induction l1 as [|l l1 IH]; intros l2 ref; simpl; [reflexivity|]. rewrite IH. reflexivity. Qed.
Lemma ref_from_app : forall l1 l2 ref,
  ref_from ref (l1 ++ l2) = ref_from (ref_from ref l1) l2.
Proof. induction l1 as [|l l1 IH]; intros l2 ref; simpl; auto. Qed.

Lemma mod_S : forall m n, n <> 0 ->
  S m mod n = if S (m mod n) =? n then 0 else S (m mod n).
Proof.
  intros m n Hn. pose proof (Nat.mod_upper_bound m n Hn).
  pose proof (Nat.div_mod m n Hn) as E.
  destruct (Nat.eqb_spec (S (m mod n)) n) as [D|D].
  - symmetry. apply Nat.mod_unique with (q := S (m / n)); [lia|]. nia.
  - symmetry. apply Nat.mod_unique with (q := m / n); [lia|]. nia.
Qed.

(** ** The state of adjust_step is a function of the processed steps *)
Section Step.
Variable ft : nat.
Hypothesis ft_pos : ft <> 0.
Notation failtol := (Z.of_nat ft).

Definition half_pow (k : nat) : Q := Qpower (1 # 2) (Z.of_nat k).

Lemma half_pow_S : forall k, (half_pow (S k) == (1 # 2) * half_pow k)%Q.
Proof.
  intros k. unfold half_pow. replace (Z.of_nat (S k)) with (Z.of_nat k + 1)%Z by lia.
  rewrite Qpower_plus by discriminate. simpl. field.
Qed.
Lemma half_pow_pos : forall k, (0 < half_pow k)%Q.
Proof. intros k. unfold half_pow. apply Qpower_0_lt. reflexivity. Qed.
Lemma half_pow_le : forall j k, j <= k -> (half_pow k <= half_pow j)%Q.
Proof.
  intros j k H. induction H; [apply Qle_refl|].
  rewrite half_pow_S. pose proof (half_pow_pos m). lra.
Qed.
Lemma half_pow_lt : forall j k, j < k -> (half_pow k < half_pow j)%Q.
Proof.
  intros j k H. apply Qle_lt_trans with (half_pow (S j)); [apply half_pow_le; lia|].
  rewrite half_pow_S. pose proof (half_pow_pos j). lra.
Qed.

Definition sgn_status (rl : list bool) : Z :=
  match rl with
  | [] => 0
  | true :: _ => Z.of_nat (lead true rl mod 3)
  | false :: _ => - Z.of_nat (lead false rl mod ft)
  end.

Record SInv (e : srbf) : Prop := mkSInv {
  si_status : s_status e = sgn_status (rev (flags (s_steps e)));
  si_fail : s_failcount e = Z.of_nat (lead false (rev (flags (s_steps e))));
  si_radius : (s_radius e == r_max * half_pow (level ft (rev (flags (s_steps e)))))%Q;
  si_fbest : s_fbest e = ref_from PInf (s_steps e)
}.

Lemma SInv_init : forall e, SInv (srbf_init e).
Proof. intros e. constructor; simpl; try reflexivity. Qed.

Lemma lead_other : forall b rl, lead (negb b) (b :: rl) = 0.
Proof. intros [] rl; reflexivity. Qed.

Lemma adjust_SInv : forall e e' n cv, SInv e -> adjust_step failtol e = Ok (e', n, cv) ->
  SInv e' /\ s_queue e' = [] /\ s_steps e' = s_steps e ++ [s_queue e] /\ s_queue e <> [] /\
  s_next e' = s_next e /\ s_used e' = s_used e /\
  let f := flags (s_steps e') in
  cv = ((4 * failtol <=? Z.of_nat (lead false (rev f)))%Z || Qle_bool (s_radius e') r_min) /\
  n = (if (s_status e' =? 0)%Z then 1 else 0).
Proof.
  intros e e' n cv I H. destruct I as [I1 I2 I3 I4]. unfold adjust_step in H.
  destruct (s_queue e) as [|v l] eqn:Eq; [discriminate|].
  set (b := improves (vmin v l) (s_fbest e)) in *.
  assert (Ef : flags (s_steps e ++ [v :: l]) = flags (s_steps e) ++ [b]).
  { unfold flags. rewrite flags_from_app. simpl. rewrite <- I4. reflexivity. }
  assert (Er : ref_from PInf (s_steps e ++ [v :: l]) = if b then vmin v l else s_fbest e).
  { rewrite ref_from_app, <- I4. reflexivity. }
  set (rl := rev (flags (s_steps e))) in *.
  assert (Erl : rev (flags (s_steps e ++ [v :: l])) = b :: rl)
    by (rewrite Ef, rev_app_distr; reflexivity).
  destruct b eqn:Eb.
  - (* improvement *)
    assert (Hm : Z.max 1 (s_status e + 1) = Z.of_nat (S (lead true rl mod 3))).
    { rewrite I1. destruct rl as [|[] rl']; cbn [sgn_status]; try (simpl; lia). }
    rewrite Hm in H.
    assert (H1 : (Z.of_nat (S (lead true rl mod 3)) <=? - failtol)%Z = false)
      by (apply Z.leb_gt; lia).
    rewrite H1 in H.
    assert (Hl : lead true (true :: rl) = S (lead true rl)) by reflexivity.
    pose proof (mod_S (lead true rl) (n := 3) ltac:(discriminate)) as Hmod.
    pose proof (Nat.mod_upper_bound (lead true rl) 3 ltac:(discriminate)) as Hub.
    assert (Hd : (succtol <=? Z.of_nat (S (lead true rl mod 3)))%Z = (S (lead true rl mod 3) =? 3)).
    { unfold succtol. destruct (Nat.eqb_spec (S (lead true rl mod 3)) 3).
      - apply Z.leb_le. lia.
      - apply Z.leb_gt. lia. }
    rewrite Hd in H.
    set (m3 := lead true rl mod 3) in *. clearbody m3.
    set (dv := S m3 =? 3) in *. assert (Edv : dv = (S m3 =? 3)) by reflexivity. clearbody dv.
    injection H as <- <- <-. cbn [s_status s_failcount s_radius s_fbest s_queue s_next s_steps s_used].
    split; [|repeat split; auto; try discriminate; rewrite ?Erl].
    + constructor; cbn [s_status s_failcount s_radius s_fbest s_queue s_next s_steps s_used];
        rewrite ?Erl, ?Er; try reflexivity.
      * unfold sgn_status. rewrite Hl, Hmod.
        destruct dv; reflexivity.
      * cbn [level]. rewrite Hl, Hmod.
        destruct dv; change (0 =? 0) with true; cbv iota; [|exact I3].
        destruct (level ft rl) as [|k] eqn:El; cbn [pred].
        -- rewrite Q.min_r; [unfold half_pow; simpl; field|].
           rewrite I3. unfold half_pow. simpl. unfold r_max. unfold Qle. simpl. lia.
        -- rewrite I3, half_pow_S, Q.min_l.
           ++ field.
           ++ pose proof (@half_pow_le 0 k ltac:(lia)). unfold half_pow in H at 2. simpl in H.
              assert (0 < r_max)%Q by reflexivity.
              assert (r_max * half_pow k <= r_max * 1)%Q by (apply Qmult_le_l; assumption). lra.
    + reflexivity.
    + destruct dv; reflexivity.
  - (* failure *)
    assert (Hm : Z.min (-1) (s_status e - 1) = (- Z.of_nat (S (lead false rl mod ft)))%Z).
    { rewrite I1. destruct rl as [|[] rl']; cbn [sgn_status].
      - change (lead false []) with 0. rewrite Nat.mod_0_l by assumption. reflexivity.
      - change (lead false (true :: rl')) with 0. rewrite Nat.mod_0_l by assumption. lia.
      - lia. }
    rewrite Hm in H.
    assert (Hl : lead false (false :: rl) = S (lead false rl)) by reflexivity.
    pose proof (mod_S (lead false rl) ft_pos) as Hmod.
    pose proof (Nat.mod_upper_bound (lead false rl) ft ft_pos) as Hub.
    assert (Hd : (- Z.of_nat (S (lead false rl mod ft)) <=? - failtol)%Z = (S (lead false rl mod ft) =? ft)).
    { destruct (Nat.eqb_spec (S (lead false rl mod ft)) ft).
      - apply Z.leb_le. lia.
      - apply Z.leb_gt. lia. }
    rewrite Hd in H.
    set (hv := S (lead false rl mod ft) =? ft) in *.
    assert (H2 : (succtol <=? (if hv then 0 else - Z.of_nat (S (lead false rl mod ft))))%Z = false).
    { apply Z.leb_gt. unfold succtol. destruct hv; lia. }
    rewrite H2 in H. injection H as <- <- <-. cbn [s_status s_failcount s_radius s_fbest s_queue s_next s_steps s_used].
    split; [|repeat split; auto; try discriminate; rewrite ?Erl].
    + constructor; cbn [s_status s_failcount s_radius s_fbest s_queue s_next s_steps s_used];
        rewrite ?Erl, ?Er; try reflexivity.
      * unfold sgn_status. rewrite Hl, Hmod. fold hv. destruct hv; reflexivity.
      * rewrite I2, Hl. lia.
      * cbn [level]. rewrite Hl, Hmod. fold hv.
        destruct hv; change (0 =? 0) with true; cbv iota; [|exact I3].
        rewrite I3, half_pow_S. field.
    + rewrite I2, Hl. f_equal. f_equal. lia.
    + destruct hv; [reflexivity|].
      destruct (Z.eqb_spec (- Z.of_nat (S (lead false rl mod ft))) 0); [lia|reflexivity].
Qed.

Lemma radius_min_iff : forall e, SInv e ->
  Qle_bool (s_radius e) r_min = (6 <=? level ft (rev (flags (s_steps e)))).
Proof.
  intros e I. pose proof (si_radius I) as R. set (k := level ft _) in *. clearbody k.
  assert (E : (r_min == r_max * half_pow 6)%Q) by reflexivity.
  assert (P0 : (0 < r_max)%Q) by reflexivity.
  destruct (Nat.leb_spec 6 k) as [H|H].
  - apply Qle_bool_iff. rewrite R, E. apply Qmult_le_l; [assumption|]. apply half_pow_le; assumption.
  - destruct (Qle_bool (s_radius e) r_min) eqn:B; [|reflexivity]. exfalso.
    apply Qle_bool_iff in B. rewrite R, E in B. apply Qmult_le_l in B; [|assumption].
    pose proof (@half_pow_lt k 6 H). lra.
Qed.

(** Consecutive failures and the status are linked. *)
Lemma lead_mod_zero : forall e, SInv e -> lead false (rev (flags (s_steps e))) = 4 * ft ->
  s_status e = 0%Z.
Proof.
  intros e I H. rewrite (si_status I). destruct (rev (flags (s_steps e))) as [|[] rl]; cbn [sgn_status].
  - reflexivity.
  - simpl in H. lia.
  - rewrite H, Nat.mod_mul by assumption. reflexivity.
Qed.

End Step.

(** ** Comparison of values; the reference value of the improvement test *)
Lemma Qlt_b_iff : forall x y, Qlt_b x y = true <-> (x < y)%Q.
Proof.
  intros x y. unfold Qlt_b. destruct (Qle_bool y x) eqn:E; simpl.
  - apply Qle_bool_iff in E. split; [discriminate|]. intros L. exfalso. lra.
  - split; [intros _|reflexivity]. apply Qnot_le_lt. intros L. apply Qle_bool_iff in L. congruence.
Qed.
Lemma Qlt_b_false : forall x y, Qlt_b x y = false <-> (y <= x)%Q.
Proof.
  intros x y. split; intros H.
  - apply Qnot_lt_le. intros L. apply Qlt_b_iff in L. congruence.
  - destruct (Qlt_b x y) eqn:E; [|reflexivity]. apply Qlt_b_iff in E. lra.
Qed.
Lemma vlt_trans_f : forall a b d, vlt a b = false -> vlt b d = false -> vlt a d = false.
Proof.
  intros [x|] [y|] [z|]; simpl; try congruence. rewrite !Qlt_b_false. intros. lra.
Qed.
Lemma vlt_asym : forall a b, vlt a b = true -> vlt b a = false.
Proof.
  intros [x|] [y|]; simpl; try congruence. rewrite Qlt_b_false, Qlt_b_iff. intros. lra.
Qed.
Lemma vlt_irrefl : forall a, vlt a a = false.
Proof. intros [x|]; simpl; [|reflexivity]. apply Qlt_b_false. apply Qle_refl. Qed.

Lemma vmin_cons : forall m z l, vmin m (z :: l) = vmin (if vlt z m then z else m) l.
Proof. reflexivity. Qed.
Lemma vmin_le : forall l m w, In w (m :: l) -> vlt w (vmin m l) = false.
Proof.
  induction l as [|z l IH]; intros m w [->|Hw].
  - apply vlt_irrefl.
  - contradiction.
  - rewrite vmin_cons. destruct (vlt z w) eqn:Z1; [|apply IH; left; reflexivity].
    apply vlt_trans_f with z; [apply vlt_asym; assumption|]. apply IH. left. reflexivity.
  - rewrite vmin_cons. destruct Hw as [->|Hw].
    + destruct (vlt w m) eqn:Z1; [apply IH; left; reflexivity|].
      apply vlt_trans_f with m; [assumption|]. apply IH. left. reflexivity.
    + apply IH. right. assumption.
Qed.
Lemma vmin_in : forall l m, In (vmin m l) (m :: l).
Proof.
  induction l as [|z l IH]; intros m; [left; reflexivity|]. rewrite vmin_cons.
  destruct (vlt z m).
  - destruct (IH z) as [X|X]; [right; left; assumption|right; right; assumption].
  - destruct (IH m) as [X|X]; [left; assumption|right; right; assumption].
Qed.

(** Being better by more than 0.1 percent implies being better. *)
Lemma improves_lt : forall v b, improves v (Fin b) = true -> vlt v (Fin b) = true.
Proof.
  intros [x|] b; simpl; [|congruence]. rewrite !Qlt_b_iff. intros H.
  pose proof (Qabs_nonneg b). lra.
Qed.
Lemma improves_mono : forall v w r, vlt w v = false -> improves w r = true -> improves v r = true.
Proof.
  intros v w [b|] H; simpl; [|reflexivity]. destruct v as [x|], w as [y|]; simpl in *; try congruence.
  rewrite Qlt_b_false in H. rewrite !Qlt_b_iff. intros. lra.
Qed.

Definition near (ref : val) (seen : list val) : Prop :=
  match ref with
  | Fin b => forall v, In v seen -> improves v (Fin b) = false
  | PInf => forall v, In v seen -> v = PInf
  end.

Lemma ref_from_near : forall steps, Forall (fun l => l <> []) steps -> forall ref seen,
  near ref seen -> near (ref_from ref steps) (seen ++ concat steps).
Proof.
  induction steps as [|l steps IH]; intros N ref seen Hs.
  - simpl. rewrite app_nil_r. assumption.
  - cbn [ref_from concat]. rewrite app_assoc. inversion N as [|? ? N1 N2]; subst. apply IH; [assumption|].
    destruct l as [|m l]; [contradiction|]. cbn [step_best].
    destruct (improves (vmin m l) ref) eqn:Ei.
    + destruct (vmin m l) as [y|] eqn:Em.
      * intros w Hw. destruct (improves w (Fin y)) eqn:Ew; [|reflexivity]. exfalso.
        apply in_app_or in Hw. destruct Hw as [Hw|Hw].
        -- destruct ref as [r|]; unfold near in Hs.
           ++ apply improves_lt in Ew. assert (X : improves w (Fin r) = true).
              { apply improves_mono with (Fin y); [apply vlt_asym; assumption|assumption]. }
              rewrite (Hs w Hw) in X. discriminate.
           ++ rewrite (Hs w Hw) in Ew. discriminate.
        -- apply improves_lt in Ew. rewrite <- Em in Ew. rewrite vmin_le in Ew; [discriminate|assumption].
      * destruct ref as [r|]; [discriminate|]. intros w Hw. apply in_app_or in Hw.
        destruct Hw as [Hw|Hw]; [auto|]. pose proof (@vmin_le l m w Hw) as X. rewrite Em in X.
        destruct w; [discriminate|reflexivity].
    + destruct ref as [r|]; [|discriminate]. intros w Hw. apply in_app_or in Hw.
      destruct Hw as [Hw|Hw]; [auto|]. destruct (improves w (Fin r)) eqn:Ew; [|reflexivity].
      rewrite (@improves_mono (vmin m l) w (Fin r)) in Ei; [discriminate| |assumption].
      apply vmin_le. assumption.
Qed.

Lemma ref_from_in : forall steps, Forall (fun l => l <> []) steps -> forall ref,
  ref_from ref steps = ref \/ In (ref_from ref steps) (concat steps).
Proof.
  induction steps as [|l steps IH]; intros N ref; [left; reflexivity|].
  inversion N as [|? ? N1 N2]; subst. cbn [ref_from concat].
  destruct l as [|m l]; [contradiction|]. cbn [step_best].
  destruct (improves (vmin m l) ref).
  - destruct (IH N2 (vmin m l)) as [E|E].
    + right. rewrite E. apply in_or_app. left. apply vmin_in.
    + right. apply in_or_app. right. assumption.
  - destruct (IH N2 ref) as [E|E]; [left; assumption|]. right. apply in_or_app. right. assumption.
Qed.
