(** * C32, C33, C34: candidate searches. *)
From Coq Require Import List Arith ZArith Lia Bool Reals Lra.
From Verif Require Import Base PyList Box PropBox Cand.
Import ListNotations.

Set Implicit Arguments.
Local Open Scope R_scope.

(** ** argmin *)
Definition xle (a b : xr) : Prop := xlt b a = false.

Definition not_nan (a : xr) : Prop := a <> XNan.

Ltac xr_cases := unfold xle, not_nan in *;
  repeat match goal with x : xr |- _ => destruct x end; cbn [xlt] in *; try congruence; auto;
  repeat match goal with
  | H : context [Rlt_dec ?x ?y] |- _ => destruct (Rlt_dec x y); try discriminate
  | |- context [Rlt_dec ?x ?y] => destruct (Rlt_dec x y); try reflexivity
  end; try congruence; try lra.

Lemma xle_lt_trans : forall v a b, xle v a -> xlt a b = true -> xle v b.
Proof. intros. xr_cases. Qed.
Lemma xle_lt_lt : forall v a b, not_nan v -> xle v a -> xlt a b = true -> xlt v b = true.
Proof. intros. xr_cases. Qed.
Lemma xle_trans : forall v a b, not_nan a -> xle v a -> xle a b -> xle v b.
Proof. intros. xr_cases. Qed.
Lemma xle_refl : forall v, xle v v.
Proof. intros. xr_cases. Qed.

Lemma xargmin_from_spec : forall l i best bv,
  not_nan bv -> Forall not_nan l ->
  let k := xargmin_from i best bv l in
  exists v, not_nan v /\ (forall u, In u (bv :: l) -> xle v u) /\
  ((k = best /\ v = bv) \/ ((i <= k)%nat /\ nth_error l (k - i) = Some v /\ xlt v bv = true /\
     forall j w, (j < k - i)%nat -> nth_error l j = Some w -> xlt v w = true)).
Proof.
  intros l. induction l as [|a l IH]; intros i best bv Hb Hl k.
  - exists bv. split; [exact Hb|]. split; [|left; auto]. intros u [<-|[]]. apply xle_refl.
  - inversion Hl as [|? ? Ha Hl']; subst. cbn [xargmin_from] in k.
    assert (Er : replaces a bv = xlt a bv) by (destruct bv, a; simpl; try reflexivity; unfold not_nan in *; congruence).
    unfold k. rewrite Er. clear k. destruct (xlt a bv) eqn:E.
    + destruct (IH (S i) i a Ha Hl') as [v [V1 [V2 V3]]]. exists v. split; [exact V1|].
      pose proof (V2 a (or_introl eq_refl)) as V0.
      split; [intros u [<-|Hu]; [eapply xle_lt_trans; eauto|auto]|]. right.
      destruct V3 as [[V3 ->]|[V3 [V4 [V5 V6]]]].
      * rewrite V3. split; [lia|]. rewrite Nat.sub_diag. split; [reflexivity|]. split; [exact E|]. intros; lia.
      * assert (V7 : (xargmin_from (S i) i a l - i)%nat = S (xargmin_from (S i) i a l - S i)) by lia.
        split; [lia|]. split; [rewrite V7; exact V4|]. split; [eapply xle_lt_lt; eauto|].
        rewrite V7. intros [|j] w Hj Hw; simpl in Hw; [injection Hw as <-; exact V5|]. apply (V6 j); [lia|exact Hw].
    + destruct (IH (S i) best bv Hb Hl') as [v [V1 [V2 V3]]]. exists v. split; [exact V1|]. split.
      * intros u [<-|[<-|Hu]]; [apply V2; left; reflexivity| |apply V2; right; exact Hu].
        eapply xle_trans; [exact Hb|apply V2; left; reflexivity|exact E].
      * destruct V3 as [V3|[V3 [V4 [V5 V6]]]]; [left; exact V3|]. right.
        assert (V7 : (xargmin_from (S i) best bv l - i)%nat = S (xargmin_from (S i) best bv l - S i)) by lia.
        split; [lia|]. split; [rewrite V7; exact V4|]. split; [exact V5|].
        rewrite V7. intros [|j] w Hj Hw; simpl in Hw; [injection Hw as <-|apply (V6 j); [lia|exact Hw]].
        clear -Hb Ha V1 V5 E. unfold not_nan in *. destruct v, bv, a; simpl in *; try congruence; try reflexivity.
        repeat destruct Rlt_dec; try congruence. exfalso. lra.
Qed.

(** Without NaN, argmin returns the index of a smallest entry, and the first one. *)
Lemma xargmin_first : forall l, l <> [] -> Forall not_nan l ->
  exists k v, xargmin l = Ok k /\ nth_error l k = Some v /\ (forall u, In u l -> xle v u) /\
    forall j w, (j < k)%nat -> nth_error l j = Some w -> xlt v w = true.
Proof.
  intros [|a l] H HN; [congruence|]. inversion HN; subst.
  destruct (@xargmin_from_spec l 1 0%nat a) as [v [V1 [V2 V3]]]; auto.
  exists (xargmin_from 1 0 a l), v. split; [reflexivity|].
  destruct V3 as [[-> ->]|[V3 [V4 [V5 V6]]]]; [split; [reflexivity|]; split; [exact V2|]; intros; lia|].
  destruct (xargmin_from 1 0 a l) as [|k]; [lia|]. simpl in *. rewrite Nat.sub_0_r in *. split; [exact V4|]. split; [exact V2|].
  intros [|j] w Hj Hw; simpl in Hw; [injection Hw as <-; exact V5|]. apply (V6 j); [lia|exact Hw].
Qed.
Lemma xargmin_spec : forall l, l <> [] -> Forall not_nan l ->
  exists k v, xargmin l = Ok k /\ nth_error l k = Some v /\ forall u, In u l -> xle v u.
Proof.
  intros l H HN. destruct (xargmin_first H HN) as [k [v [A [B [C _]]]]]. eauto 6.
Qed.

Lemma xargmin_const : forall l, l <> [] -> (forall u, In u l -> u = XInf) -> xargmin l = Ok 0%nat.
Proof.
  intros [|a l] H HI; [congruence|]. simpl. f_equal. rewrite (HI a (or_introl eq_refl)).
  assert (K : forall u, In u l -> u = XInf) by (intros; apply HI; right; assumption). clear H HI.
  generalize 1%nat. induction l as [|b l IH]; intros i; [reflexivity|]. simpl.
  rewrite (K b (or_introl eq_refl)). simpl. apply IH. intros; apply K; right; assumption.
Qed.

(** ** C32 *)
Section Merit.
Variable P : Type.
Variable dist : P -> P -> R.
Variable predict : P -> R.
Variable cand : list P.
Variable dtol : R.

(** The distance of [c] to the closest point of [T]. *)
Definition closest (T : list P) (c : P) (d : R) : Prop :=
  (exists t, In t T /\ dist c t = d) /\ forall t, In t T -> d <= dist c t.

(** At distance at least [dtol] from all points of [T]. *)
Definition admissible (T : list P) (c : P) : Prop := forall t, In t T -> dtol <= dist c t.

(** The documented merit of the candidates: [w] times the rescaled prediction plus [1-w] times
    one minus the rescaled distance to the points taken so far. *)
Definition merit_table (w : R) (T : list P) (m : list R) : Prop :=
  exists ds drs fs,
    Forall2 (closest T) cand ds /\ unit_rescale ds = Ok drs /\
    unit_rescale (map predict cand) = Ok fs /\
    length m = length cand /\
    forall k, (k < length cand)%nat -> nth k m 0 = w * nth k fs 0 + (1 - w) * (1 - nth k drs 0).

(** Index [j] is a legal pick when the points [T] are taken. *)
Definition good_pick (w : R) (T : list P) (j : nat) : Prop :=
  exists c, nth_error cand j = Some c /\
  ((exists k c', nth_error cand k = Some c' /\ admissible T c') ->
     admissible T c /\
     exists m, merit_table w T m /\
       forall k c', nth_error cand k = Some c' -> admissible T c' -> nth j m 0 <= nth k m 0) /\
  ((forall k c', nth_error cand k = Some c' -> ~ admissible T c') -> j = 0%nat).

(** A sequence of legal picks, each taking the earlier ones into account. *)
Fixpoint good_picks (ws : list R) (T : list P) (js : list nat) {struct js} : Prop :=
  match js with
  | [] => True
  | j :: js' => match ws with
    | [] => False
    | w :: ws' => good_pick w T j /\ forall c, nth_error cand j = Some c -> good_picks ws' (T ++ [c]) js'
    end
  end.

Lemma closest_snoc : forall T c d x, closest T c d -> closest (T ++ [x]) c (Rmin d (dist c x)).
Proof.
  intros T c d x [[t [H1 H2]] H3]. split.
  - unfold Rmin. destruct (Rle_dec d (dist c x)).
    + exists t. split; [apply in_or_app; auto|exact H2].
    + exists x. split; [apply in_or_app; simpl; auto|reflexivity].
  - intros u Hu. apply in_app_or in Hu. destruct Hu as [Hu|[<-|[]]].
    + apply Rle_trans with d; [apply Rmin_l|auto].
    + apply Rmin_r.
Qed.

Lemma closest_adm : forall T c d, closest T c d -> (d < dtol <-> ~ admissible T c).
Proof.
  intros T c d [[t [H1 H2]] H3]. split.
  - intros Hd A. specialize (A t H1). lra.
  - intros A. destruct (Rlt_dec d dtol) as [|N]; [assumption|]. exfalso. apply A. intros u Hu. specialize (H3 u Hu). lra.
Qed.

Lemma unit_rescale_total : forall l : list R, l <> [] -> exists y, unit_rescale l = Ok y /\ length y = length l.
Proof. intros l H. destruct (C40_unit_rescale H) as [y [A [B _]]]. eauto. Qed.

Lemma merits_nth : forall w fs ds drs k f d dr,
  nth_error fs k = Some f -> nth_error ds k = Some d -> nth_error drs k = Some dr ->
  nth_error (merits w dtol fs ds drs) k = Some (merit w dtol f d dr).
Proof.
  intros w fs. induction fs as [|f fs IH]; intros [|d ds] [|dr drs] [|k] f0 d0 dr0 H1 H2 H3; simpl in *; try discriminate.
  - congruence.
  - apply IH; auto.
Qed.
Lemma merits_len : forall w fs ds drs n, length fs = n -> length ds = n -> length drs = n ->
  length (merits w dtol fs ds drs) = n.
Proof.
  intros w fs. induction fs as [|f fs IH]; intros [|d ds] [|dr drs] n H1 H2 H3; simpl in *; subst; try discriminate; auto.
Qed.

Lemma Forall2_nth2 : forall A B (R : A -> B -> Prop) l l' k a b, Forall2 R l l' ->
  nth_error l k = Some a -> nth_error l' k = Some b -> R a b.
Proof.
  intros A B R l l' k a b H. revert k. induction H; intros [|k] H1 H2; simpl in *; try discriminate; [congruence|eauto].
Qed.
Lemma Forall2_len2 : forall A B (R : A -> B -> Prop) l l', Forall2 R l l' -> length l' = length l.
Proof. intros A B R l l' H. induction H; simpl; congruence. Qed.

(** What the loop knows about fvals: infinite only at candidates that are already taken. *)
Definition fvals_ok (f0 : list R) (fs : list xr) (T : list P) : Prop :=
  length fs = length cand /\
  forall k c f, nth_error cand k = Some c -> nth_error fs k = Some f ->
    f = XFin (nth k f0 0) \/ (f = XInf /\ ~ admissible T c).

Lemma picks_good : (forall c, In c cand -> dist c c < dtol) -> cand <> [] ->
  forall f0, unit_rescale (map predict cand) = Ok f0 ->
  forall n ws T fs ds, (n <= length ws)%nat ->
  Forall2 (closest T) cand ds -> fvals_ok f0 fs T ->
  exists js, picks dist cand dtol n ws fs ds = Ok js /\ length js = n /\ good_picks ws T js.
Proof.
  intros Hself Hne f0 Hf0 n. induction n as [|n IH]; intros ws T fs ds Hn HD [HL HF].
  - exists []. split; [reflexivity|]. split; [reflexivity|]. exact I.
  - destruct ws as [|w ws]; [simpl in Hn; lia|].
    cbn [picks]. pose proof (Forall2_len2 HD) as LD.
    destruct (@unit_rescale_total ds) as [drs [E1 L1]]; [intros ->; destruct cand; [congruence|discriminate]|].
    rewrite E1. cbn [rbind].
    set (M := merits w dtol fs ds drs).
    assert (LM : length M = length cand) by (apply merits_len; congruence).
    assert (ENT : forall k c, nth_error cand k = Some c -> exists f d dr, nth_error fs k = Some f /\ nth_error ds k = Some d /\
       nth_error drs k = Some dr /\ nth_error M k = Some (merit w dtol f d dr)).
    { intros k c Hc. assert (k < length cand)%nat by (apply nth_error_Some; congruence).
      destruct (nth_error fs k) as [f|] eqn:Ef; [|apply nth_error_None in Ef; lia].
      destruct (nth_error ds k) as [d|] eqn:Ed; [|apply nth_error_None in Ed; lia].
      destruct (nth_error drs k) as [dr|] eqn:Edr; [|apply nth_error_None in Edr; lia].
      exists f, d, dr. repeat (split; [reflexivity|]). apply merits_nth; auto. }
    assert (VAL : forall k c, nth_error cand k = Some c ->
       (admissible T c /\ nth_error M k = Some (XFin (w * nth k f0 0 + (1 - w) * (1 - nth k drs 0)))) \/
       (~ admissible T c /\ nth_error M k = Some XInf)).
    { intros k c Hc. destruct (ENT k c Hc) as [f [d [dr [Ef [Ed [Edr ->]]]]]].
      pose proof (Forall2_nth2 k HD Hc Ed) as Hcl. pose proof (closest_adm Hcl) as Hadm. unfold merit.
      destruct (Rlt_dec d dtol) as [Hd|Hd]; [right; split; [tauto|reflexivity]|].
      destruct (HF k c f Hc Ef) as [->|[-> K]]; [|tauto]. left. split.
      - intros t Ht. destruct Hcl as [_ Hcl]. specialize (Hcl t Ht). lra.
      - cbn [xmul xaddr]. rewrite (nth_error_nth _ _ 0 Edr). reflexivity. }
    assert (NN : Forall not_nan M).
    { apply Forall_forall. intros v Hv. apply In_nth_error in Hv. destruct Hv as [k Hk].
      assert (k < length cand)%nat by (rewrite <- LM; apply nth_error_Some; congruence).
      destruct (nth_error cand k) as [c|] eqn:Ec; [|apply nth_error_None in Ec; lia].
      destruct (VAL k c Ec) as [[_ E]|[_ E]]; rewrite E in Hk; injection Hk as <-; discriminate. }
    assert (MNE : M <> []) by (intros E; rewrite E in LM; destruct cand; [congruence|discriminate]).
    destruct (xargmin_spec MNE NN) as [jj [v [E2 [E3 E4]]]]. rewrite E2. cbn [rbind].
    assert (Hj : (jj < length cand)%nat) by (rewrite <- LM; apply nth_error_Some; congruence).
    destruct (@upd_total _ fs jj (fun _ => XInf)) as [fs' E5]; [lia|]. rewrite E5. cbn [rbind].
    destruct (nth_error cand jj) as [c|] eqn:Ec; [|apply nth_error_None in Ec; lia].
    assert (G : geti cand jj = Ok c) by (apply geti_ok; exact Ec). rewrite G. cbn [rbind].
    destruct (upd_nth _ _ _ E5) as [L5 [_ N5]].
    destruct (IH ws (T ++ [c]) fs' (map (fun cd : P * R => Rmin (snd cd) (dist (fst cd) c)) (combine cand ds)))
      as [js [E6 [E7 E8]]]; [simpl in Hn; lia| | |].
    + clear -HD. induction HD as [|a d l l' H1 H2 IH2]; simpl; constructor; auto. apply closest_snoc. exact H1.
    + split; [congruence|]. intros k c' f Hc' Hf. rewrite N5 in Hf. destruct (Nat.eqb_spec k jj) as [->|Nk].
      * right. assert (c' = c) by congruence. subst c'. destruct (nth_error fs jj); [|discriminate]. simpl in Hf. split; [congruence|].
        intros A. assert (dtol <= dist c c) by (apply A, in_or_app; right; left; reflexivity).
        specialize (Hself c (nth_error_In _ _ Ec)). lra.
      * destruct (HF k c' f Hc' Hf) as [|[A B]]; [left; assumption|right]. split; [exact A|]. intros K. apply B.
        intros t Ht. apply K. apply in_or_app. left. exact Ht.
    + rewrite E6. cbn [rbind]. exists (jj :: js). split; [reflexivity|]. split; [simpl; congruence|]. cbn [good_picks]. split.
      * exists c. split; [exact Ec|]. split.
        -- intros [k [c' [Hk Hadm]]]. destruct (VAL jj c Ec) as [[A1 A2]|[A1 A2]].
           ++ split; [exact A1|]. exists (map (fun k => w * nth k f0 0 + (1 - w) * (1 - nth k drs 0)) (seq 0 (length cand))).
              assert (NT : forall k, (k < length cand)%nat ->
                 nth k (map (fun k => w * nth k f0 0 + (1 - w) * (1 - nth k drs 0)) (seq 0 (length cand))) 0
                 = w * nth k f0 0 + (1 - w) * (1 - nth k drs 0)).
              { intros k0 Hk0. apply nth_error_nth. rewrite nth_error_map.
                rewrite (nth_error_nth' _ 0%nat) by (rewrite seq_length; exact Hk0). rewrite seq_nth by exact Hk0. reflexivity. }
              split.
              ** exists ds, drs, f0. split; [exact HD|]. split; [exact E1|]. split; [exact Hf0|].
                 split; [rewrite map_length, seq_length; reflexivity|]. exact NT.
              ** intros k' c'' Hk' Hadm'. rewrite !NT by (auto; apply nth_error_Some; congruence).
                 destruct (VAL k' c'' Hk') as [[_ B2]|[B1 _]]; [|tauto].
                 specialize (E4 _ (nth_error_In _ _ B2)). rewrite E3 in A2. injection A2 as ->. unfold xle in E4.
                 cbn [xlt] in E4. destruct (Rlt_dec _ _) as [|N] in E4; [discriminate|]. lra.
           ++ exfalso. destruct (VAL k c' Hk) as [[_ B2]|[B1 _]]; [|tauto].
              specialize (E4 _ (nth_error_In _ _ B2)). rewrite E3 in A2. injection A2 as ->. discriminate.
        -- intros Hno. assert (K : xargmin M = Ok 0%nat).
           { apply xargmin_const; [exact MNE|]. intros u Hu. apply In_nth_error in Hu. destruct Hu as [k Hk].
             assert (k < length cand)%nat by (rewrite <- LM; apply nth_error_Some; congruence).
             destruct (nth_error cand k) as [c'|] eqn:Ec'; [|apply nth_error_None in Ec'; lia].
             destruct (VAL k c' Ec') as [[B1 _]|[_ B2]]; [exfalso; exact (Hno k c' Ec' B1)|congruence]. }
           congruence.
      * intros c' Hc'. assert (c' = c) by congruence. subst c'. exact E8.
Qed.

(** C32: with at least one candidate, at least one evaluated or pending point, enough
    weights and a positive [dtol] the search returns [n] candidates, each of which
    is a legal pick given the points before it. *)
Theorem C32_merit : forall n T ws,
  cand <> [] -> T <> [] -> (n <= length ws)%nat ->
  (forall c, In c cand -> dist c c < dtol) ->
  exists js pts, weighted_distance_merit dist predict n T cand ws dtol = Ok pts /\
    length js = n /\ Forall2 (fun j c => nth_error cand j = Some c) js pts /\ good_picks ws T js.
Proof.
  intros n T ws Hne HT Hn Hself. unfold weighted_distance_merit.
  assert (D : exists ds, mapR (min_dist dist T) cand = Ok ds /\ Forall2 (closest T) cand ds).
  { clear Hself Hne Hn. destruct T as [|t T]; [congruence|]. induction cand as [|c l [ds [IH1 IH2]]]; [exists []; auto|].
    cbn [mapR min_dist rbind]. rewrite IH1. cbn [rbind]. eexists. split; [reflexivity|]. constructor; [|exact IH2].
    destruct (Rminl_le (map (dist c) T) (dist c t)) as [A B]. pose proof (Rminl_in (map (dist c) T) (dist c t)) as I.
    split.
    - destruct I as [I|I]; [exists t; split; [left; reflexivity|exact I]|].
      apply in_map_iff in I. destruct I as [u [U1 U2]]. exists u. split; [right; exact U2|exact U1].
    - intros u [<-|Hu]; [exact A|]. apply B. apply in_map. exact Hu. }
  destruct D as [ds [D1 D2]]. rewrite D1. cbn [rbind].
  destruct (@unit_rescale_total (map predict cand)) as [f0 [F1 F2]]; [intros E; apply map_eq_nil in E; congruence|].
  rewrite F1. cbn [rbind]. rewrite map_length in F2.
  destruct (@picks_good Hself Hne f0 F1 n ws T (map XFin f0) ds) as [js [E1 [E2 E3]]]; auto.
  { split; [rewrite map_length; exact F2|]. intros k c f Hc Hf. left. rewrite nth_error_map in Hf.
    destruct (nth_error f0 k) eqn:E; [|discriminate]. simpl in Hf. rewrite (nth_error_nth _ _ 0 E). congruence. }
  rewrite E1. cbn [rbind].
  assert (K : exists pts, mapR (geti cand) js = Ok pts /\ Forall2 (fun j c => nth_error cand j = Some c) js pts).
  { clear -E3. revert ws T E3. induction js as [|j js IH]; intros ws T E3; [exists []; auto|]. destruct ws as [|w ws]; [contradiction|].
    destruct E3 as [[c [G1 _]] G2]. destruct (IH ws (T ++ [c]) (G2 c G1)) as [pts [K1 K2]].
    exists (c :: pts). cbn [mapR]. assert (G : geti cand j = Ok c) by (apply geti_ok; exact G1). rewrite G. cbn [rbind]. rewrite K1.
    split; [reflexivity|constructor; auto]. }
  destruct K as [pts [K1 K2]]. exists js, pts. auto.
Qed.

(** Hence the points returned keep their distance from everything as long as admissible
    candidates are left. *)
Theorem C32_spread : forall n T ws pts,
  cand <> [] -> T <> [] -> (n <= length ws)%nat ->
  (forall c, In c cand -> dist c c < dtol) ->
  weighted_distance_merit dist predict n T cand ws dtol = Ok pts ->
  length pts = n /\ (forall c, In c pts -> In c cand) /\
  forall i c, nth_error pts i = Some c ->
    (exists c', In c' cand /\ admissible (T ++ firstn i pts) c') -> admissible (T ++ firstn i pts) c.
Proof.
  intros n T ws pts Hne HT Hn Hself H. destruct (@C32_merit n T ws Hne HT Hn Hself) as [js [pts' [E1 [E2 [E3 E4]]]]].
  assert (pts' = pts) by congruence. subst pts'. clear H E1. pose proof (Forall2_len2 E3) as L.
  split; [congruence|]. split.
  { intros c Hc. clear -E3 Hc. induction E3; [destruct Hc|]. destruct Hc as [<-|Hc]; [eapply nth_error_In; eauto|auto]. }
  intros i. clear -E3 E4. revert ws T i E4. induction E3 as [|j c js pts H1 H2 IH]; intros ws T [|i] E4 c0 H; try discriminate;
    destruct ws as [|w ws]; try contradiction; destruct E4 as [E4 E5].
  - simpl in H. injection H as <-. simpl. rewrite app_nil_r. intros [c' [K1 K2]].
    destruct E4 as [c1 [G1 [G2 _]]]. assert (c1 = c) by congruence. subst c1. apply In_nth_error in K1. destruct K1 as [k K1].
    destruct G2 as [G2 _]; [exists k, c'; auto|]. exact G2.
  - simpl in H. specialize (IH ws (T ++ [c]) i (E5 c H1) c0 H). rewrite <- app_assoc in IH. exact IH.
Qed.
End Merit.

(** ** C33 *)
Section Gen.
Variable q : prob.
Variable dim : nat.

(** The point lies in the box and its integer variables are integral. *)
Definition feasible (x : pt) : Prop :=
  inside dim (q_lb q) (q_ub q) x /\ forall i, In i (q_int q) -> integral (x@i).

(** A well-formed problem: lb < ub, integer variables with integral bounds. *)
Definition well_formed : Prop :=
  bounds dim (q_lb q) (q_ub q) /\
  forall i, In i (q_int q) -> (i < dim)%nat /\ integral ((q_lb q)@i) /\ integral ((q_ub q)@i).

Hypothesis WF : well_formed.

Lemma rmem_spec : forall j l, rmem j l = true <-> In j l.
Proof. intros. apply mem_spec. Qed.

Definition rows (X : list pt) : Prop := Forall (fun x : pt => length x = dim) X.

Lemma set_col_aux : forall j (sel : nat -> bool) (v : nat -> R) X s, (j < dim)%nat -> rows X ->
  exists Y, mapR (fun rx : nat * pt => upd (snd rx) j (fun a => if sel (fst rx) then v (fst rx) else a))
                 (combine (seq s (length X)) X) = Ok Y /\ length Y = length X /\ rows Y /\
  forall r x, nth_error X r = Some x -> exists y, nth_error Y r = Some y /\
    forall k, (k < dim)%nat -> y@k = if (k =? j)%nat then (if sel (s + r)%nat then v (s + r)%nat else x@k) else x@k.
Proof.
  intros j sel v X. induction X as [|x X IH]; intros s Hj HX.
  - exists []. split; [reflexivity|]. split; [reflexivity|]. split; [constructor|]. intros [|r] x H; discriminate.
  - inversion HX as [|? ? Lx HX']; subst. cbn [length seq combine mapR fst snd].
    destruct (@upd_total _ x j (fun a => if sel s then v s else a)) as [y Ey]; [lia|]. rewrite Ey. cbn [rbind].
    destruct (IH (S s) Hj HX') as [Y [E1 [E2 [E3 E4]]]]. rewrite E1. cbn [rbind].
    destruct (upd_nth _ _ _ Ey) as [L [_ N]].
    exists (y :: Y). split; [reflexivity|]. split; [simpl; congruence|]. split; [constructor; [congruence|exact E3]|].
    intros [|r] x0 H; simpl in H.
    + injection H as <-. exists y. split; [reflexivity|]. intros k Hk. rewrite Nat.add_0_r. specialize (N k).
      rewrite (nth_error_nth' x 0) in N by lia. destruct (k =? j)%nat; simpl in N; exact (nth_error_nth _ _ 0 N).
    + destruct (E4 r x0 H) as [y0 [Y1 Y2]]. exists y0. split; [exact Y1|]. rewrite <- plus_n_Sm. exact Y2.
Qed.

Lemma set_col_ok : forall j (sel : nat -> bool) (v : nat -> R) X, (j < dim)%nat -> rows X ->
  exists Y, set_col j sel v X = Ok Y /\ length Y = length X /\ rows Y /\
  forall r x, nth_error X r = Some x -> exists y, nth_error Y r = Some y /\
    forall k, (k < dim)%nat -> y@k = if (k =? j)%nat then (if sel r then v r else x@k) else x@k.
Proof. intros. apply set_col_aux; auto. Qed.

Lemma bound_geti : forall i, (i < dim)%nat -> geti (q_lb q) i = Ok ((q_lb q)@i) /\ geti (q_ub q) i = Ok ((q_ub q)@i).
Proof.
  destruct WF as [[L1 [L2 _]] _]. intros i Hi. split; apply geti_ok; apply nth_error_nth'; lia.
Qed.

(** Each coordinate is written by the step for that coordinate. *)
Definition gen_spec (val : nat -> nat -> R -> R) (X Y : list pt) : Prop :=
  length Y = length X /\ rows Y /\
  forall r x, nth_error X r = Some x -> exists y, nth_error Y r = Some y /\ forall k, (k < dim)%nat -> y@k = val r k (x@k).

Lemma gen_comp : forall f g X Y Z, gen_spec f X Y -> gen_spec g Y Z -> gen_spec (fun r k a => g r k (f r k a)) X Z.
Proof.
  intros f g X Y Z [A1 [A2 A3]] [B1 [B2 B3]]. split; [congruence|]. split; [exact B2|]. intros r x H.
  destruct (A3 r x H) as [y [Y1 Y2]]. destruct (B3 r y Y1) as [z [Z1 Z2]]. exists z. split; [exact Z1|].
  intros k Hk. rewrite Z2, Y2 by exact Hk. reflexivity.
Qed.
Lemma gen_ext : forall f g X Y, (forall r k a, (k < dim)%nat -> f r k a = g r k a) -> gen_spec f X Y -> gen_spec g X Y.
Proof.
  intros f g X Y E [A1 [A2 A3]]. split; [exact A1|]. split; [exact A2|]. intros r x H. destruct (A3 r x H) as [y [Y1 Y2]].
  exists y. split; [exact Y1|]. intros k Hk. rewrite Y2 by exact Hk. auto.
Qed.
Lemma gen_refl : forall X, rows X -> gen_spec (fun _ _ a => a) X X.
Proof. intros X H. split; [reflexivity|]. split; [exact H|]. intros r x Hx. exists x. auto. Qed.

Lemma srbf_cols_ok : forall radius subset xb z todo X, (forall i, In i todo -> (i < dim)%nat) -> rows X ->
  exists Y, srbf_cols q radius subset xb z todo X = Ok Y /\
  gen_spec (fun r k a => if rmem k todo then tn_draw xb (scale q radius subset k) k (z k r) else a) X Y.
Proof.
  intros radius subset xb z todo. induction todo as [|i todo IH]; intros X Hs HX.
  - exists X. split; [reflexivity|]. apply gen_refl. exact HX.
  - cbn [srbf_cols]. assert (Hi : (i < dim)%nat) by (apply Hs; left; reflexivity).
    destruct (bound_geti Hi) as [-> ->]. cbn [rbind].
    destruct (@set_col_ok i (fun _ => true) (fun r => tn_draw xb (scale q radius subset i) i (z i r)) X Hi HX) as [Y [E1 [E2 [E3 E4]]]].
    rewrite E1. cbn [rbind]. destruct (IH Y) as [Z [F1 F2]]; [intros; apply Hs; right; assumption|exact E3|].
    exists Z. split; [exact F1|].
    assert (G : gen_spec (fun r k a => if (k =? i)%nat then tn_draw xb (scale q radius subset i) i (z i r) else a) X Y)
      by (split; [exact E2|]; split; [exact E3|exact E4]).
    eapply gen_ext; [|exact (gen_comp G F2)]. intros r k a Hk. cbn. unfold rmem. cbn [existsb]. fold (rmem k todo).
    destruct (Nat.eqb_spec k i) as [->|]; cbn [orb]; [destruct (rmem i todo); reflexivity|reflexivity].
Qed.

Lemma uniform_cols_ok : forall z todo X, (forall i, In i todo -> (i < dim)%nat) -> rows X ->
  exists Y, uniform_cols q z todo X = Ok Y /\
  gen_spec (fun r k a => if rmem k todo then z k r else a) X Y.
Proof.
  intros z todo. induction todo as [|i todo IH]; intros X Hs HX.
  - exists X. split; [reflexivity|]. apply gen_refl. exact HX.
  - cbn [uniform_cols]. assert (Hi : (i < dim)%nat) by (apply Hs; left; reflexivity).
    destruct (bound_geti Hi) as [-> ->]. cbn [rbind].
    destruct (@set_col_ok i (fun _ => true) (fun r => z i r) X Hi HX) as [Y [E1 [E2 [E3 E4]]]].
    rewrite E1. cbn [rbind]. destruct (IH Y) as [Z [F1 F2]]; [intros; apply Hs; right; assumption|exact E3|].
    exists Z. split; [exact F1|].
    assert (G : gen_spec (fun r k a => if (k =? i)%nat then z i r else a) X Y)
      by (split; [exact E2|]; split; [exact E3|exact E4]).
    eapply gen_ext; [|exact (gen_comp G F2)]. intros r k a Hk. cbn. unfold rmem. cbn [existsb]. fold (rmem k todo).
    destruct (Nat.eqb_spec k i) as [->|]; cbn [orb]; [destruct (rmem i todo); reflexivity|reflexivity].
Qed.

Lemma dycors_cols_ok : forall radius len xb z ar todo X, (len <= dim)%nat -> (forall i, In i todo -> (i < len)%nat) -> rows X ->
  exists Y, dycors_cols q radius (seq 0 len) xb z ar todo X = Ok Y /\
  gen_spec (fun r k a => if rmem k todo && ar r k then tn_draw xb (scale q radius (seq 0 len) k) k (z k r) else a) X Y.
Proof.
  intros radius len xb z ar todo. induction todo as [|i todo IH]; intros X Hlen Hs HX.
  - exists X. split; [reflexivity|]. apply gen_refl. exact HX.
  - cbn [dycors_cols]. assert (Hi : (i < len)%nat) by (apply Hs; left; reflexivity).
    destruct (@bound_geti i) as [-> ->]; [lia|]. cbn [rbind]. rewrite seq_length.
    destruct (Nat.leb_spec len i) as [K|_]; [lia|].
    assert (G : geti (seq 0 len) i = Ok i).
    { apply geti_ok. rewrite (nth_error_nth' _ 0%nat) by (rewrite seq_length; lia). rewrite seq_nth by lia. reflexivity. }
    rewrite G. cbn [rbind].
    destruct (@set_col_ok i (fun r => ar r i) (fun r => tn_draw xb (scale q radius (seq 0 len) i) i (z i r)) X) as [Y [E1 [E2 [E3 E4]]]]; [lia|exact HX|].
    rewrite E1. cbn [rbind]. destruct (IH Y) as [Z [F1 F2]]; [exact Hlen|intros; apply Hs; right; assumption|exact E3|].
    exists Z. split; [exact F1|].
    assert (G2 : gen_spec (fun r k a => if (k =? i)%nat then (if ar r i then tn_draw xb (scale q radius (seq 0 len) i) i (z i r) else a) else a) X Y)
      by (split; [exact E2|]; split; [exact E3|exact E4]).
    eapply gen_ext; [|exact (gen_comp G2 F2)]. intros r k a Hk. cbn. unfold rmem. cbn [existsb]. fold (rmem k todo).
    destruct (Nat.eqb_spec k i) as [->|]; cbn [orb andb]; [|reflexivity].
    destruct (rmem i todo), (ar r i); reflexivity.
Qed.

(** A truncated normal draw lies in the bounds. *)
Lemma tn_in : forall xb sigma i z, 0 < sigma ->
  tn_a q xb sigma i <= z <= tn_b q xb sigma i -> (q_lb q)@i <= tn_draw xb sigma i z <= (q_ub q)@i.
Proof.
  intros xb sigma i z Hs [A B]. unfold tn_a, tn_b, tn_draw in *.
  assert (E : forall a, sigma * (a / sigma) = a) by (intros; field; lra).
  split.
  - apply Rmult_le_compat_l with (r := sigma) in A; [|lra]. rewrite E in A. lra.
  - apply Rmult_le_compat_l with (r := sigma) in B; [|lra]. rewrite E in B. lra.
Qed.

Lemma scale_pos : forall radius subset i, 0 < radius -> (i < dim)%nat -> 0 < scale q radius subset i.
Proof.
  destruct WF as [[_ [_ L3]] _]. intros radius subset i Hr Hi. unfold scale. specialize (L3 i Hi).
  assert (0 < radius * ((q_ub q)@i - (q_lb q)@i)) by (apply Rmult_lt_0_compat; lra).
  destruct (_ && _); [|assumption]. apply Rlt_le_trans with (2 := Rmax_l _ _). assumption.
Qed.

(** Integer variables are perturbed by at least one unit of standard deviation. *)
Lemma scale_int : forall radius subset i, In i (q_int q) -> In i subset -> 1 <= scale q radius subset i.
Proof.
  intros radius subset i H1 H2. unfold scale. apply rmem_spec in H1. apply rmem_spec in H2. rewrite H1, H2. apply Rmax_r.
Qed.

(** Rounding keeps points of the box in the box and makes them feasible; coordinates that are
    already those of a feasible point are unchanged. *)
Lemma round_feasible : forall X, rows X -> exists Y, round_vars X (q_int q) (q_lb q) (q_ub q) = Ok Y /\ length Y = length X /\
  forall r x, nth_error X r = Some x -> exists y, nth_error Y r = Some y /\
    (inside dim (q_lb q) (q_ub q) x -> feasible y) /\
    forall k, (k < dim)%nat -> (~ In k (q_int q) \/ integral (x@k) /\ (q_lb q)@k <= x@k <= (q_ub q)@k) -> y@k = x@k.
Proof.
  destruct WF as [B I]. intros X HX.
  destruct (@C41_round_vars dim (q_lb q) (q_ub q) (q_int q) X B) as [Y [E1 [E2 E3]]]; [intros; apply I; auto|exact HX|].
  exists Y. split; [exact E1|]. split; [exact E2|]. intros r x Hx.
  assert (r < length X)%nat by (apply nth_error_Some; congruence).
  destruct (nth_error Y r) as [y|] eqn:Ey; [|apply nth_error_None in Ey; lia]. exists y. split; [reflexivity|].
  destruct (E3 r x y Hx Ey) as [L N]. split.
  - intros [_ Hin]. split.
    + split; [exact L|]. intros i Hi. destruct (N i Hi) as [N1 [N2 _]].
      destruct (in_dec Nat.eq_dec i (q_int q)) as [K|K]; [auto|]. rewrite N1 by exact K. auto.
    + intros i Hi. destruct (I i Hi) as [Hd [Il Iu]]. destruct (N i Hd) as [_ [_ N3]]. apply N3; auto.
  - intros k Hk [K|[K1 K2]]; [apply N; auto|]. destruct (in_dec Nat.eq_dec k (q_int q)) as [Kin|Kin]; [|apply N; auto].
    destruct (N k Hk) as [_ [_ N3]]. destruct (I k Kin) as [_ [Il Iu]]. destruct (N3 Kin Il Iu) as [_ N4].
    specialize (N4 _ K1 K2). replace (x@k - x@k) with 0 in N4 by ring. rewrite Rabs_R0 in N4.
    pose proof (Rabs_pos (x@k - y@k)). assert (E : Rabs (x@k - y@k) = 0) by lra.
    destruct (Req_dec (x@k - y@k) 0) as [Z|Z]; [lra|]. apply Rabs_no_R0 in Z. lra.
Qed.

Lemma rows_repeat : forall xb n, length xb = dim -> rows (repeat xb n).
Proof. intros xb n H. induction n; simpl; constructor; auto. Qed.

Lemma nth_repeat_row : forall (xb : pt) n r, (r < n)%nat -> nth_error (repeat xb n) r = Some xb.
Proof. intros xb n. induction n; intros [|r] H; simpl; try lia; auto. apply IHn. lia. Qed.

(** Candidates that are the center except where a value of the bounds was written. *)
Lemma finish : forall xb nc X (val : nat -> nat -> R -> R) (changed : nat -> nat -> Prop), feasible xb ->
  gen_spec val (repeat xb nc) X ->
  (forall r k, (r < nc)%nat -> (k < dim)%nat ->
     (q_lb q)@k <= val r k (xb@k) <= (q_ub q)@k /\ (~ changed r k -> val r k (xb@k) = xb@k)) ->
  exists Y, round_vars X (q_int q) (q_lb q) (q_ub q) = Ok Y /\ length Y = nc /\
    forall r y, nth_error Y r = Some y -> feasible y /\ forall k, (k < dim)%nat -> ~ changed r k -> y@k = xb@k.
Proof.
  intros xb nc X val changed Fx [G1 [G2 G3]] HV. rewrite repeat_length in G1.
  destruct (round_feasible G2) as [Y [E1 [E2 E3]]]. exists Y. split; [exact E1|]. split; [congruence|].
  intros r y Hy. assert (Hr : (r < nc)%nat) by (rewrite <- G1, <- E2; apply nth_error_Some; congruence).
  destruct (G3 r xb (nth_repeat_row xb Hr)) as [x [X1 X2]]. destruct (E3 r x X1) as [y' [Y1 [Y2 Y3]]].
  assert (y' = y) by congruence. subst y'. split.
  - apply Y2. split; [unfold rows in G2; rewrite Forall_forall in G2; apply G2; eapply nth_error_In; eauto|].
    intros i Hi. rewrite X2 by exact Hi. apply HV; auto.
  - intros k Hk Hc. destruct (HV r k Hr Hk) as [V1 V2]. rewrite <- (V2 Hc). rewrite <- X2 by exact Hk. apply Y3; [exact Hk|].
    rewrite X2 by exact Hk. rewrite (V2 Hc). destruct (in_dec Nat.eq_dec k (q_int q)); [|auto]. right. split; [apply Fx; auto|]. apply Fx. exact Hk.
Qed.

(** The candidates of SRBF: [num_cand] feasible points that agree with the center outside
    [subset].  The truncated normal draws [z i r] are arbitrary numbers in their range. *)
Lemma srbf_cand_ok : forall radius subset nc xb z, feasible xb -> 0 < radius ->
  (forall i, In i subset -> (i < dim)%nat) ->
  (forall i r, In i subset -> (r < nc)%nat ->
     let s := scale q radius subset i in tn_a q xb s i <= z i r <= tn_b q xb s i) ->
  exists Y, srbf_cand q radius subset nc xb z = Ok Y /\ length Y = nc /\
    forall y, In y Y -> feasible y /\ forall k, (k < dim)%nat -> ~ In k subset -> y@k = xb@k.
Proof.
  intros radius subset nc xb z Fx Hr Hs Hz. unfold srbf_cand.
  destruct (@srbf_cols_ok radius subset xb z subset (repeat xb nc) Hs) as [X [E1 E2]]; [apply rows_repeat, Fx|].
  rewrite E1. cbn [rbind]. destruct (@finish xb nc X _ (fun _ k => In k subset) Fx E2) as [Y [F1 [F2 F3]]].
  - intros r k Hr' Hk. cbv beta. destruct (rmem k subset) eqn:Em.
    + apply rmem_spec in Em. split; [|tauto]. apply tn_in; [apply scale_pos; auto|]. apply Hz; auto.
    + split; [apply Fx; exact Hk|reflexivity].
  - exists Y. split; [exact F1|]. split; [exact F2|]. intros y Hy. apply In_nth_error in Hy. destruct Hy as [r Hy].
    destruct (F3 r y Hy) as [A B]. split; [exact A|]. intros k Hk Hn. apply B; auto.
Qed.

Lemma uniform_cand_ok : forall subset nc xb z, feasible xb ->
  (forall i, In i subset -> (i < dim)%nat) ->
  (forall i r, In i subset -> (r < nc)%nat -> (q_lb q)@i <= z i r <= (q_ub q)@i) ->
  exists Y, uniform_cand q subset nc xb z = Ok Y /\ length Y = nc /\
    forall y, In y Y -> feasible y /\ forall k, (k < dim)%nat -> ~ In k subset -> y@k = xb@k.
Proof.
  intros subset nc xb z Fx Hs Hz. unfold uniform_cand.
  destruct (@uniform_cols_ok z subset (repeat xb nc) Hs) as [X [E1 E2]]; [apply rows_repeat, Fx|].
  rewrite E1. cbn [rbind]. destruct (@finish xb nc X _ (fun _ k => In k subset) Fx E2) as [Y [F1 [F2 F3]]].
  - intros r k Hr' Hk. cbv beta. destruct (rmem k subset) eqn:Em.
    + apply rmem_spec in Em. split; [|tauto]. apply Hz; auto.
    + split; [apply Fx; exact Hk|reflexivity].
  - exists Y. split; [exact F1|]. split; [exact F2|]. intros y Hy. apply In_nth_error in Hy. destruct Hy as [r Hy].
    destruct (F3 r y Hy) as [A B]. split; [exact A|]. intros k Hk Hn. apply B; auto.
Qed.

(** DYCORS, [subset] = 0..len-1: additionally a coordinate that is not selected keeps the value
    of the center, and every candidate has a selected coordinate ([ar] is the selection). *)
Lemma dycors_cand_ok : forall radius len nc xb u f z, feasible xb -> 0 < radius -> (1 <= len <= dim)%nat ->
  (2 <= len -> forall r, r < nc -> f r < len - 1)%nat ->
  (forall i r, (i < len)%nat -> (r < nc)%nat ->
     let s := scale q radius (seq 0 len) i in tn_a q xb s i <= z i r <= tn_b q xb s i) ->
  exists ar Y, dycors_ar len nc u f = Ok ar /\ dycors_cand q radius (seq 0 len) nc xb u f z = Ok Y /\ length Y = nc /\
    (forall r, (r < nc)%nat -> exists k, (k < len)%nat /\ ar r k = true) /\
    (forall r k, (r < nc)%nat -> (k < len)%nat -> u r k = true -> ar r k = true) /\
    forall r y, nth_error Y r = Some y -> feasible y /\
      forall k, (k < dim)%nat -> ((len <= k)%nat \/ ar r k = false) -> y@k = xb@k.
Proof.
  intros radius len nc xb u f z Fx Hr Hlen Hf Hz. unfold dycors_cand. rewrite seq_length.
  assert (A : exists ar, dycors_ar len nc u f = Ok ar /\ (forall r, (r < nc)%nat -> exists k, (k < len)%nat /\ ar r k = true) /\
     (forall r k, (r < nc)%nat -> (k < len)%nat -> u r k = true -> ar r k = true)).
  { unfold dycors_ar. destruct (Nat.eqb_spec len 1) as [->|N1]; [exists (fun _ _ => true); split; [reflexivity|split; auto]; intros; exists 0%nat; auto|].
    destruct (Nat.eqb_spec len 0) as [->|N0]; [lia|]. cbn [andb]. eexists. split; [reflexivity|]. split.
    - intros r Hr'. destruct (forallb (fun j => negb (u r j)) (seq 0 len)) eqn:E.
      + exists (f r). specialize (Hf ltac:(lia) r Hr'). split; [lia|]. rewrite Nat.eqb_refl. apply orb_true_r.
      + assert (exists j, (j < len)%nat /\ u r j = true) as [j [J1 J2]].
        { clear -E. destruct (existsb (u r) (seq 0 len)) eqn:K.
          - apply existsb_exists in K. destruct K as [j [K1 K2]]. apply in_seq in K1. exists j. split; [lia|exact K2].
          - exfalso. assert (K2 : forallb (fun j => negb (u r j)) (seq 0 len) = true); [|congruence].
            apply forallb_forall. intros j Hj. destruct (u r j) eqn:Ej; [|reflexivity].
            assert (existsb (u r) (seq 0 len) = true) by (apply existsb_exists; eauto). congruence. }
        exists j. split; [exact J1|]. rewrite J2. reflexivity.
    - intros r k _ _ ->. reflexivity. }
  destruct A as [ar [A1 [A2 A3]]]. exists ar. rewrite A1. cbn [rbind].
  assert (Hin : forall i, In i (seq 0 len) -> (i < len)%nat) by (intros i Hi; apply in_seq in Hi; lia).
  destruct (@dycors_cols_ok radius len xb z ar (seq 0 len) (repeat xb nc)) as [X [E1 E2]]; [lia|exact Hin|apply rows_repeat, Fx|].
  rewrite E1. cbn [rbind].
  destruct (@finish xb nc X _ (fun r k => (k < len)%nat /\ ar r k = true) Fx E2) as [Y [F1 [F2 F3]]].
  - intros r k Hr' Hk. cbv beta. destruct (rmem k (seq 0 len)) eqn:Em; [destruct (ar r k) eqn:Ea|]; cbn [andb].
    + apply rmem_spec in Em. apply Hin in Em. split; [|tauto]. apply tn_in; [apply scale_pos; auto|]. apply Hz; auto.
    + split; [apply Fx; exact Hk|reflexivity].
    + split; [apply Fx; exact Hk|reflexivity].
  - exists Y. split; [reflexivity|]. split; [exact F1|]. split; [exact F2|]. split; [exact A2|]. split; [exact A3|].
    intros r y Hy. destruct (F3 r y Hy) as [B1 B2]. split; [exact B1|]. intros k Hk Hn. apply B2; [exact Hk|]. intros [K1 K2]. destruct Hn; [lia|congruence].
Qed.

End Gen.

(** ** The searches *)

Lemma wdm_in : forall (P : Type) (dist : P -> P -> R) predict n T cand ws dtol pts,
  weighted_distance_merit dist predict n T cand ws dtol = Ok pts -> forall c, In c pts -> In c cand.
Proof.
  intros P dist predict n T cand ws dtol pts H c Hc. unfold weighted_distance_merit in H.
  apply rbind_ok in H. destruct H as [ds [_ H]]. apply rbind_ok in H. destruct H as [fs [_ H]].
  apply rbind_ok in H. destruct H as [idx [_ H]]. destruct (mapR_nth _ _ H) as [_ N].
  apply In_nth_error in Hc. destruct Hc as [k Hk]. apply N in Hk. destruct Hk as [j [_ Hj]].
  apply geti_ok in Hj. eapply nth_error_In; eauto.
Qed.

(** [xb] is the first evaluated point with a smallest value. *)
Definition best_of {A : Type} (X : list A) (fX : list xr) (xb : A) : Prop :=
  exists k v, nth_error X k = Some xb /\ nth_error fX k = Some v /\ (forall u, In u fX -> xlt u v = false) /\
  forall j w, (j < k)%nat -> nth_error fX j = Some w -> xlt v w = true.

Lemma x_best_ok : forall A (X : list A) fX, X <> [] -> length fX = length X -> (forall u, In u fX -> u <> XNan) ->
  exists xb, x_best X fX = Ok xb /\ best_of X fX xb /\ In xb X.
Proof.
  intros A X fX HX HL HN. unfold x_best.
  destruct (@xargmin_first fX) as [k [v [E1 [E2 [E3 E4]]]]]; [intros ->; destruct X; [congruence|discriminate]|apply Forall_forall; exact HN|].
  rewrite E1. cbn [rbind]. assert (k < length X)%nat by (rewrite <- HL; apply nth_error_Some; congruence).
  destruct (nth_error X k) as [xb|] eqn:Ek; [|apply nth_error_None in Ek; lia].
  exists xb. split; [apply geti_ok; exact Ek|]. split; [exists k, v; auto|eapply nth_error_In; eauto].
Qed.

(** What every search needs: a well-formed problem of dimension >= 1, feasible evaluated points
    with values that are not NaN, enough weights, a positive tolerance. *)
Record search_input (dist : pt -> pt -> R) (q : prob) (dim n : nat) (X : list pt) (fX : list xr)
  (weights : list R) (dtol : R) (num_cand : option nat) : Prop := mkSI {
  in_wf : well_formed q dim;
  in_dim : (1 <= dim)%nat;
  in_X : X <> [];
  in_fX : length fX = length X;
  in_nan : forall u, In u fX -> u <> XNan;
  in_feas : forall x, In x X -> feasible q dim x;
  in_w : (n <= length weights)%nat;
  in_dtol : 0 < dtol;
  in_refl : forall x, dist x x = 0;
  in_nc : num_cand <> Some 0%nat
}.

Definition cand_count (dim : nat) (num_cand : option nat) : nat :=
  match num_cand with Some k => k | None => (100 * dim)%nat end.
Definition coords (dim : nat) (subset : option (list nat)) (k : nat) : Prop :=
  match subset with Some s => In k s | None => (k < dim)%nat end.

(** The result of a search: [n] feasible points that agree with the center [xb] outside the
    selected coordinates. *)
Definition search_result (q : prob) (dim n : nat) (subset : option (list nat)) (xb : pt) (r : res (list pt)) : Prop :=
  exists pts, r = Ok pts /\ length pts = n /\
  forall p, In p pts -> feasible q dim p /\ forall k, (k < dim)%nat -> ~ coords dim subset k -> p@k = xb@k.

Definition sub_list (dim : nat) (subset : option (list nat)) : list nat :=
  match subset with Some s => s | None => seq 0 dim end.

Lemma sub_coords : forall dim subset k, In k (sub_list dim subset) <-> coords dim subset k.
Proof. intros dim [s|] k; simpl; [tauto|]. rewrite in_seq. lia. Qed.

Lemma search_end : forall dist predict q dim n X fX weights dtol num_cand Xpend subset xb Y,
  search_input dist q dim n X fX weights dtol num_cand -> length Y = cand_count dim num_cand ->
  (forall y, In y Y -> feasible q dim y /\ forall k, (k < dim)%nat -> ~ In k (sub_list dim subset) -> y@k = xb@k) ->
  search_result q dim n subset xb (weighted_distance_merit dist predict n (X ++ Xpend) Y weights dtol).
Proof.
  intros dist predict q dim n X fX weights dtol num_cand Xpend subset xb Y [H1 H2 H3 H4 H5 H6 H7 H8 H9 H10] LY HY.
  assert (NY : Y <> []).
  { intros ->. simpl in LY. unfold cand_count in LY. destruct num_cand as [[|k]|]; [congruence|discriminate|lia]. }
  destruct (@C32_merit _ dist predict Y dtol n (X ++ Xpend) weights NY) as [js [pts [E1 [E2 [E3 _]]]]]; auto.
  { intros E. apply app_eq_nil in E. tauto. }
  { intros c _. rewrite H9. exact H8. }
  exists pts. split; [exact E1|]. split; [rewrite (Forall2_len2 E3); exact E2|].
  intros p Hp. destruct (HY p (wdm_in _ _ _ _ _ _ _ E1 p Hp)) as [A B]. split; [exact A|].
  intros k Hk Hc. apply B; [exact Hk|]. rewrite sub_coords. exact Hc.
Qed.

(** candidate_srbf, for all truncated normal draws [z i r] (coordinate i, candidate r) in the
    range that is passed to truncnorm. *)
Theorem C33_srbf : forall dist predict q dim n X fX weights Xpend radius subset dtol num_cand z,
  search_input dist q dim n X fX weights dtol num_cand -> 0 < radius ->
  (forall i, coords dim subset i -> (i < dim)%nat) ->
  (forall xb i r, best_of X fX xb -> coords dim subset i -> (r < cand_count dim num_cand)%nat ->
     let s := scale q radius (sub_list dim subset) i in tn_a q xb s i <= z i r <= tn_b q xb s i) ->
  exists xb, In xb X /\ best_of X fX xb /\
  search_result q dim n subset xb
    (candidate_srbf dist predict n q X fX weights Xpend radius subset dtol num_cand z).
Proof.
  intros dist predict q dim n X fX weights Xpend radius subset dtol num_cand z SI Hr Hs Hz.
  pose proof SI as [H1 H2 H3 H4 H5 H6 H7 H8 H9 H10].
  destruct (@x_best_ok _ X fX H3 H4 H5) as [xb [E1 [E2 E3]]]. exists xb. split; [exact E3|]. split; [exact E2|].
  unfold candidate_srbf. rewrite E1. cbn [rbind]. assert (LD : length (q_lb q) = dim) by apply H1.
  unfold all_coords. rewrite LD. fold (cand_count dim num_cand). fold (sub_list dim subset).
  destruct (@srbf_cand_ok q dim H1 radius (sub_list dim subset) (cand_count dim num_cand) xb z) as [Y [F1 [F2 F3]]]; auto.
  - intros i Hi. apply Hs, sub_coords, Hi.
  - intros i r Hi Hr'. apply Hz; auto. apply sub_coords, Hi.
  - rewrite F1. cbn [rbind]. eapply search_end; eauto.
Qed.

(** candidate_uniform, for all draws in the bounds. *)
Theorem C33_uniform : forall dist predict q dim n X fX weights Xpend subset dtol num_cand z,
  search_input dist q dim n X fX weights dtol num_cand ->
  (forall i, coords dim subset i -> (i < dim)%nat) ->
  (forall i r, coords dim subset i -> (r < cand_count dim num_cand)%nat -> (q_lb q)@i <= z i r <= (q_ub q)@i) ->
  exists xb, In xb X /\ best_of X fX xb /\
  search_result q dim n subset xb
    (candidate_uniform dist predict n q X fX weights Xpend subset dtol num_cand z).
Proof.
  intros dist predict q dim n X fX weights Xpend subset dtol num_cand z SI Hs Hz.
  pose proof SI as [H1 H2 H3 H4 H5 H6 H7 H8 H9 H10].
  destruct (@x_best_ok _ X fX H3 H4 H5) as [xb [E1 [E2 E3]]]. exists xb. split; [exact E3|]. split; [exact E2|].
  unfold candidate_uniform. rewrite E1. cbn [rbind]. assert (LD : length (q_lb q) = dim) by apply H1.
  unfold all_coords. rewrite LD. fold (cand_count dim num_cand). fold (sub_list dim subset).
  destruct (@uniform_cand_ok q dim H1 (sub_list dim subset) (cand_count dim num_cand) xb z) as [Y [F1 [F2 F3]]]; auto.
  - intros i Hi. apply Hs, sub_coords, Hi.
  - intros i r Hi Hr'. apply Hz; auto. apply sub_coords, Hi.
  - rewrite F1. cbn [rbind]. eapply search_end; eauto.
Qed.

(** candidate_dycors for subset = None, or 0..len-1; the center is the given one or the best
    point.  [u] and [f] are the coordinate selection and the forced positions. *)
Definition prefix_subset (dim : nat) (subset : option (list nat)) : Prop :=
  match subset with None => True | Some s => exists len, (1 <= len <= dim)%nat /\ s = seq 0 len end.

Theorem C33_dycors_partial : forall dist predict q dim n X fX weights Xpend radius subset dtol num_cand center u f z,
  search_input dist q dim n X fX weights dtol num_cand -> 0 < radius -> prefix_subset dim subset ->
  (forall c, center = Some c -> feasible q dim c) ->
  (forall r, (f r < length (sub_list dim subset) - 1)%nat \/ length (sub_list dim subset) = 1%nat) ->
  (forall xb i r, match center with Some c => xb = c | None => best_of X fX xb end ->
     coords dim subset i -> (r < cand_count dim num_cand)%nat ->
     let s := scale q radius (sub_list dim subset) i in tn_a q xb s i <= z i r <= tn_b q xb s i) ->
  exists xb, match center with Some c => xb = c | None => best_of X fX xb /\ In xb X end /\
  search_result q dim n subset xb
    (candidate_dycors dist predict n q X fX weights Xpend radius subset dtol num_cand center u f z).
Proof.
  intros dist predict q dim n X fX weights Xpend radius subset dtol num_cand center u f z SI Hr Hs Hc Hf Hz.
  pose proof SI as [H1 H2 H3 H4 H5 H6 H7 H8 H9 H10].
  destruct (@x_best_ok _ X fX H3 H4 H5) as [xb0 [E1 [E2 E3]]].
  assert (HX : exists xb, match center with Some c => Ok c | None => x_best X fX end = Ok xb /\ feasible q dim xb /\
    match center with Some c => xb = c | None => best_of X fX xb /\ In xb X end).
  { destruct center as [c|]; [exists c; auto|exists xb0; auto]. }
  destruct HX as [xb [G1 [G2 G3]]]. exists xb. split; [exact G3|].
  unfold candidate_dycors. rewrite G1. cbn [rbind]. assert (LD : length (q_lb q) = dim) by apply H1.
  unfold all_coords. rewrite LD. fold (cand_count dim num_cand). fold (sub_list dim subset).
  assert (HL : exists len, (1 <= len <= dim)%nat /\ sub_list dim subset = seq 0 len).
  { destruct subset as [s|]; [exact Hs|]. exists dim. simpl. split; [lia|reflexivity]. }
  destruct HL as [len [L1 L2]].
  assert (HZ : forall i r, (i < len)%nat -> (r < cand_count dim num_cand)%nat ->
     let s := scale q radius (seq 0 len) i in tn_a q xb s i <= z i r <= tn_b q xb s i).
  { intros i r Hi Hr'. rewrite <- L2. apply Hz; [destruct center; [assumption|apply G3]| |exact Hr'].
    apply sub_coords. rewrite L2. apply in_seq. lia. }
  destruct (@dycors_cand_ok q dim H1 radius len (cand_count dim num_cand) xb u f z) as [ar [Y [F0 [F1 [F2 [_ [_ F3]]]]]]]; auto.
  - intros Hl r _. rewrite L2, seq_length in Hf. destruct (Hf r); lia.
  - rewrite L2. rewrite F1. cbn [rbind]. eapply search_end; eauto.
    intros y Hy. apply In_nth_error in Hy. destruct Hy as [r Hy]. destruct (F3 r y Hy) as [A B]. split; [exact A|].
    intros k Hk Hn. apply B; [exact Hk|]. left. rewrite L2, in_seq in Hn. lia.
Qed.

(** Other subsets do not work in DYCORS: a single coordinate other than 0 raises IndexError ... *)
Theorem C33_dycors_subset_refuted : forall dist predict X fX weights Xpend radius dtol z u f,
  X = [[/2; /2]] -> fX = [XFin 1] ->
  candidate_dycors dist predict 1 (mkProb [0; 0] [1; 1] []) X fX weights Xpend radius (Some [1%nat]) dtol
    (Some 1%nat) None u f z = Err IndexError.
Proof. intros dist predict X fX weights Xpend radius dtol z u f -> ->. reflexivity. Qed.

(** ... and a permuted subset writes values of one coordinate into another one: the candidate
    (1, 5) of the box [0,1]x[0,10] becomes (5, ...), outside the bounds. *)
Theorem C33_dycors_permuted_refuted :
  let q := mkProb [0; 0] [1; 10] [] in
  exists Y, dycors_cand q 1 [1%nat; 0%nat] 1 [/2; 5] (fun _ k => (k =? 1)%nat) (fun _ => 0%nat) (fun _ _ => 0) = Ok Y /\
  (let s := scale q 1 [1%nat; 0%nat] 1 in tn_a q [/2; 5] s 1 <= 0 <= tn_b q [/2; 5] s 1) /\
  exists y, In y Y /\ ~ feasible q 2 y.
Proof.
  cbv zeta. exists [[5 + (1 * (10 - 0)) * 0; 5]]. split; [reflexivity|]. split.
  - unfold tn_a, tn_b, scale. simpl. lra.
  - eexists. split; [left; reflexivity|]. intros [[_ K] _]. specialize (K 0%nat). simpl in K. assert (0 < 2)%nat by lia. specialize (K H). lra.
Qed.

(** ** C32 for the searches: the chosen points stay away from the evaluated points, the pending
    points and the points chosen before them, whenever some candidate does. *)
Definition far (dist : pt -> pt -> R) (dtol : R) (X Xpend before : list pt) (c : pt) : Prop :=
  forall t, In t X \/ In t Xpend \/ In t before -> dtol <= dist c t.
Definition spread (dist : pt -> pt -> R) (dtol : R) (X Xpend cand pts : list pt) : Prop :=
  (forall c, In c pts -> In c cand) /\
  forall i c, nth_error pts i = Some c ->
    (exists c', In c' cand /\ far dist dtol X Xpend (firstn i pts) c') -> far dist dtol X Xpend (firstn i pts) c.

Lemma wdm_spread : forall dist predict q dim n X fX weights dtol num_cand Xpend cand pts,
  search_input dist q dim n X fX weights dtol num_cand ->
  weighted_distance_merit dist predict n (X ++ Xpend) cand weights dtol = Ok pts ->
  spread dist dtol X Xpend cand pts.
Proof.
  intros dist predict q dim n X fX weights dtol num_cand Xpend cand pts [H1 H2 H3 H4 H5 H6 H7 H8 H9 H10] H.
  assert (F : forall l c, admissible dist dtol ((X ++ Xpend) ++ l) c <-> far dist dtol X Xpend l c).
  { intros l c. unfold admissible, far. split; intros K t Ht; apply K; rewrite ?in_app_iff in *; tauto. }
  destruct cand as [|c0 cand].
  { unfold weighted_distance_merit in H. cbn [mapR rbind map] in H. discriminate H. }
  destruct (@C32_spread _ dist predict (c0 :: cand) dtol n (X ++ Xpend) weights pts) as [_ [A B]]; auto; [discriminate| | |].
  { intros E. apply app_eq_nil in E. tauto. }
  { intros c _. rewrite H9. exact H8. }
  split; [exact A|]. intros i c Hi [c' [K1 K2]]. apply F. apply (B i c Hi). exists c'. split; [exact K1|]. apply F. exact K2.
Qed.

Theorem C32_srbf : forall dist predict q dim n X fX weights Xpend radius subset dtol num_cand z pts,
  search_input dist q dim n X fX weights dtol num_cand ->
  candidate_srbf dist predict n q X fX weights Xpend radius subset dtol num_cand z = Ok pts ->
  exists xb cand, best_of X fX xb /\
    srbf_cand q radius (sub_list dim subset) (cand_count dim num_cand) xb z = Ok cand /\
    spread dist dtol X Xpend cand pts.
Proof.
  intros dist predict q dim n X fX weights Xpend radius subset dtol num_cand z pts SI H.
  pose proof SI as [H1 H2 H3 H4 H5 H6 H7 H8 H9 H10].
  destruct (@x_best_ok _ X fX H3 H4 H5) as [xb [E1 [E2 E3]]]. unfold candidate_srbf in H. rewrite E1 in H. cbn [rbind] in H.
  assert (LD : length (q_lb q) = dim) by apply H1. unfold all_coords in H. rewrite LD in H.
  fold (cand_count dim num_cand) in H. fold (sub_list dim subset) in H.
  apply rbind_ok in H. destruct H as [cand [C1 C2]]. exists xb, cand. split; [exact E2|]. split; [exact C1|].
  eapply wdm_spread; eauto.
Qed.

Theorem C32_dycors : forall dist predict q dim n X fX weights Xpend radius subset dtol num_cand center u f z pts,
  search_input dist q dim n X fX weights dtol num_cand ->
  candidate_dycors dist predict n q X fX weights Xpend radius subset dtol num_cand center u f z = Ok pts ->
  exists xb cand, match center with Some c => xb = c | None => best_of X fX xb end /\
    dycors_cand q radius (sub_list dim subset) (cand_count dim num_cand) xb u f z = Ok cand /\
    spread dist dtol X Xpend cand pts.
Proof.
  intros dist predict q dim n X fX weights Xpend radius subset dtol num_cand center u f z pts SI H.
  pose proof SI as [H1 H2 H3 H4 H5 H6 H7 H8 H9 H10].
  destruct (@x_best_ok _ X fX H3 H4 H5) as [xb0 [E1 [E2 E3]]].
  assert (LD : length (q_lb q) = dim) by apply H1. unfold candidate_dycors, all_coords in H. rewrite LD in H.
  fold (cand_count dim num_cand) in H. fold (sub_list dim subset) in H.
  apply rbind_ok in H. destruct H as [xb [C0 H]]. apply rbind_ok in H. destruct H as [cand [C1 C2]].
  exists xb, cand. split; [|split; [exact C1|eapply wdm_spread; eauto]].
  destruct center as [c|]; [injection C0 as <-; reflexivity|]. rewrite E1 in C0. injection C0 as <-. exact E2.
Qed.

Theorem C32_uniform : forall dist predict q dim n X fX weights Xpend subset dtol num_cand z pts,
  search_input dist q dim n X fX weights dtol num_cand ->
  candidate_uniform dist predict n q X fX weights Xpend subset dtol num_cand z = Ok pts ->
  exists xb cand, best_of X fX xb /\
    uniform_cand q (sub_list dim subset) (cand_count dim num_cand) xb z = Ok cand /\
    spread dist dtol X Xpend cand pts.
Proof.
  intros dist predict q dim n X fX weights Xpend subset dtol num_cand z pts SI H.
  pose proof SI as [H1 H2 H3 H4 H5 H6 H7 H8 H9 H10].
  destruct (@x_best_ok _ X fX H3 H4 H5) as [xb [E1 [E2 E3]]]. unfold candidate_uniform in H. rewrite E1 in H. cbn [rbind] in H.
  assert (LD : length (q_lb q) = dim) by apply H1. unfold all_coords in H. rewrite LD in H.
  fold (cand_count dim num_cand) in H. fold (sub_list dim subset) in H.
  apply rbind_ok in H. destruct H as [cand [C1 C2]]. exists xb, cand. split; [exact E2|]. split; [exact C1|].
  eapply wdm_spread; eauto.
Qed.

(** ** C34 *)

(** For every selection draw [u] and forced position [f] each of the candidates has a selected
    coordinate, and the selected coordinates include all drawn ones. *)
Theorem C34_always_perturbs : forall len nc u f, (1 <= len)%nat ->
  (2 <= len -> forall r, r < nc -> f r < len - 1)%nat ->
  exists ar, dycors_ar len nc u f = Ok ar /\
    forall r, (r < nc)%nat -> (exists k, (k < len)%nat /\ ar r k = true) /\
      forall k, (k < len)%nat -> u r k = true -> ar r k = true.
Proof.
  intros len nc u f Hl Hf. set (q := mkProb (repeat 0 len) (repeat 1 len) []).
  assert (WF : well_formed q len).
  { split; [|intros i []]. split; [apply repeat_length|]. split; [apply repeat_length|]. intros i Hi. simpl.
    change (repeat 0 len) with (zeros len). change (repeat 1 len) with (ones len). rewrite zeros_nth, ones_nth by exact Hi. lra. }
  assert (FZ : feasible q len (zeros len)).
  { split; [|intros i []]. split; [apply repeat_length|]. intros i Hi. simpl.
    change (repeat 0 len) with (zeros len). change (repeat 1 len) with (ones len). rewrite !zeros_nth, ones_nth by exact Hi. lra. }
  destruct (@dycors_cand_ok q len WF 1 len nc (zeros len) u f (fun i _ => 0)) as [ar [Y [A [_ [_ [B [C _]]]]]]]; auto; try lra; try lia.
  - intros i r Hi Hr. cbv zeta. unfold tn_a, tn_b, scale. cbn [q q_int q_lb q_ub].
    change (rmem i (q_int q)) with false. cbn [andb]. simpl.
    change (repeat 0 len) with (zeros len). change (repeat 1 len) with (ones len). rewrite !zeros_nth, ones_nth by exact Hi. lra.
  - exists ar. split; [exact A|]. intros r Hr. split; [apply B; exact Hr|]. intros k. apply C. exact Hr.
Qed.

(** The forced coordinate is never the last one: if nothing is selected by the draw then the
    last coordinate keeps the center's value, whatever randint(0, len-1) returns. *)
Theorem C34_last_never_forced_refuted : forall len nc u f ar r, (2 <= len)%nat ->
  (forall r, r < nc -> f r < len - 1)%nat -> dycors_ar len nc u f = Ok ar -> (r < nc)%nat ->
  (forall k, (k < len)%nat -> u r k = false) -> ar r (len - 1)%nat = false.
Proof.
  intros len nc u f ar r Hl Hf H Hr Hu. unfold dycors_ar in H.
  destruct (Nat.eqb_spec len 1); [lia|]. destruct (Nat.eqb_spec len 0); [lia|]. cbn [andb] in H. injection H as <-.
  rewrite Hu by lia. cbn [orb]. specialize (Hf r Hr). destruct (Nat.eqb_spec (len - 1) (f r)); [lia|]. apply andb_false_r.
Qed.

(** A concrete problem that meets the hypotheses of C32/C33: the unit interval times {0,..,3},
    two evaluated points. *)
Example ex_C33 :
  search_input (fun x y => Rabs (x@0 - y@0) + Rabs (x@1 - y@1)) (mkProb [0; 0] [1; 3] [1%nat]) 2 1
    [[/2; 1]; [/4; 2]] [XFin 3; XFin 1] [1] (/10) (Some 2%nat) /\
  best_of [[/2; 1]; [/4; 2]] [XFin 3; XFin 1] [/4; 2] /\
  (forall xb i r, best_of [[/2; 1]; [/4; 2]] [XFin 3; XFin 1] xb -> coords 2 None i -> (r < cand_count 2 (Some 2%nat))%nat ->
     let s := scale (mkProb [0; 0] [1; 3] [1%nat]) (/2) (sub_list 2 None) i in
     tn_a (mkProb [0; 0] [1; 3] [1%nat]) xb s i <= 0 <= tn_b (mkProb [0; 0] [1; 3] [1%nat]) xb s i).
Proof.
  assert (I : forall z : Z, integral (IZR z)) by (intros z; exists z; reflexivity).
  split; [|split].
  - constructor; auto; try discriminate; try (simpl; lia); try lra.
    + split; [split; [reflexivity|split; [reflexivity|]]|].
      * intros [|[|i]] Hi; simpl; try lra; lia.
      * intros i [<-|[]]. simpl. auto.
    + intros u [<-|[<-|[]]]; discriminate.
    + intros x [<-|[<-|[]]]; (split; [split; [reflexivity|]; intros [|[|i]] Hi; simpl; try lra; lia|]); intros i [<-|[]]; simpl; auto.
    + intros x. rewrite !Rminus_diag_eq by reflexivity. rewrite Rabs_R0. lra.
  - exists 1%nat, (XFin 1). split; [reflexivity|]. split; [reflexivity|]. split.
    + intros u [<-|[<-|[]]]; simpl; destruct (Rlt_dec _ _); try lra; reflexivity.
    + intros [|j] w Hj Hw; [|lia]. injection Hw as <-. simpl. destruct (Rlt_dec 1 3); [reflexivity|lra].
  - intros xb i r [k [v [K1 [K2 [K3 _]]]]] Hi _.
    assert (xb = [/4; 2]).
    { destruct k as [|[|k]]; simpl in K1, K2; [|congruence|destruct k; discriminate]. injection K2 as <-.
      specialize (K3 (XFin 1) ltac:(simpl; auto)). simpl in K3. destruct (Rlt_dec 1 3); [discriminate|lra]. }
    subst xb. simpl in Hi. unfold tn_a, tn_b, scale. destruct i as [|[|i]]; [| |lia]; simpl.
    + lra.
    + rewrite Rmax_left by lra. lra.
Qed.

