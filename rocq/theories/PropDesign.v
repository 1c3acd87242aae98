(** * C42-C44: experimental designs. *)
From Coq Require Import List Arith ZArith Lia Bool Reals Lra Permutation.
From Verif Require Import Base PyList Box PropBox Cand PropCand Design.
Import ListNotations.

Set Implicit Arguments.

(** ** C42 *)
Section Column.
Variable n : nat.
Notation mid := (n / 2)%nat.

Lemma mid_cases : (n = 2 * mid \/ n = 2 * mid + 1)%nat.
Proof. pose proof (Nat.div_mod n 2 ltac:(lia)). pose proof (Nat.mod_upper_bound n 2 ltac:(lia)). lia. Qed.

(** The loop over rows k, ..., k+len-1 reads only rows that it has not written yet. *)
Lemma bottom_spec : forall len k c, (n <= 2 * k + 1)%nat -> (k + len <= n)%nat -> length c = n ->
  exists c', bottom n (seq k len) c = Ok c' /\ length c' = n /\
  forall i, (i < n)%nat ->
    nth i c' 0%Z = if ((k <=? i) && (i <? k + len))%nat then (Z.of_nat n + 1 - nth (n - 1 - i) c 0)%Z else nth i c 0%Z.
Proof.
  induction len as [|len IH]; intros k c Hk Hl Lc.
  - exists c. split; [reflexivity|]. split; [exact Lc|]. intros i Hi.
    destruct (Nat.leb_spec k i), (Nat.ltb_spec i (k + 0)); simpl; try reflexivity; lia.
  - cbn [seq bottom].
    assert (G : geti c (n - 1 - k) = Ok (nth (n - 1 - k) c 0%Z)) by (apply geti_ok; apply nth_error_nth'; lia).
    rewrite G. cbn [rbind].
    destruct (@upd_total _ c k (fun _ => Z.of_nat n + 1 - nth (n - 1 - k) c 0)%Z) as [c1 E1]; [lia|].
    rewrite E1. cbn [rbind]. destruct (upd_nth _ _ _ E1) as [L1 [_ N1]].
    destruct (IH (S k) c1) as [c' [E2 [L2 N2]]]; [lia|lia|lia|].
    exists c'. split; [exact E2|]. split; [exact L2|].
    assert (N1' : forall i, (i < n)%nat -> nth i c1 0%Z = if (i =? k)%nat then (Z.of_nat n + 1 - nth (n - 1 - k) c 0)%Z else nth i c 0%Z).
    { intros i Hi. specialize (N1 i). destruct (nth_error c i) as [a|] eqn:Ea; [|apply nth_error_None in Ea; lia].
      rewrite (nth_error_nth _ _ 0%Z Ea). destruct (i =? k)%nat; simpl in N1; rewrite (nth_error_nth _ _ 0%Z N1); reflexivity. }
    intros i Hi. rewrite N2 by exact Hi.
    destruct (Nat.leb_spec (S k) i) as [A|A]; destruct (Nat.ltb_spec i (S k + len)) as [B|B];
      destruct (Nat.leb_spec k i) as [C|C]; destruct (Nat.ltb_spec i (k + S len)) as [D|D]; cbn [andb]; try lia.
    + rewrite N1' by lia. destruct (Nat.eqb_spec (n - 1 - i) k); [lia|reflexivity].
    + rewrite N1' by lia. destruct (Nat.eqb_spec i k); [lia|reflexivity].
    + rewrite N1' by lia. destruct (Nat.eqb_spec i k) as [->|]; [reflexivity|lia].
    + rewrite N1' by lia. destruct (Nat.eqb_spec i k); [lia|reflexivity].
Qed.

Lemma finish_spec : forall c, length c = n -> exists c', finish n c = Ok c' /\ length c' = n /\
  (forall i, (i < mid)%nat -> nth i c' 0%Z = nth i c 0%Z) /\
  (forall i, (mid <= i < n)%nat -> nth i c' 0%Z = (Z.of_nat n + 1 - nth (n - 1 - i) c 0)%Z).
Proof.
  intros c Lc. pose proof mid_cases as HM. set (m := mid) in *.
  destruct (@bottom_spec (n - m) m c) as [c' [E [L N]]]; [lia|lia|exact Lc|].
  exists c'. split; [exact E|]. split; [exact L|]. split; intros i Hi; rewrite N by lia.
  - destruct (Nat.leb_spec m i); [lia|reflexivity].
  - destruct (Nat.leb_spec m i); [|lia]. destruct (Nat.ltb_spec i (m + (n - m))); [reflexivity|lia].
Qed.

(** A column before the last loop: in the top half one of each pair of mirrored levels, and the
    middle level in the middle row if n is odd. *)
Definition half_ok (c : list Z) : Prop :=
  length c = n /\
  (forall i, (i < mid)%nat -> exists r, (r < mid)%nat /\
     (nth r c 0%Z = Z.of_nat i + 1 \/ nth r c 0%Z = Z.of_nat n - Z.of_nat i)%Z) /\
  ((n = 2 * mid + 1)%nat -> nth mid c 0%Z = (Z.of_nat mid + 1)%Z).

Lemma half_first : exists c, first_col n = Ok c /\ half_ok c /\ forall r, (r < n)%nat -> nth r c 0%Z = (Z.of_nat r + 1)%Z.
Proof.
  unfold first_col. pose proof mid_cases as HM.
  assert (N : forall r, (r < n)%nat -> nth r (map Z.of_nat (seq 1 n)) 0%Z = (Z.of_nat r + 1)%Z).
  { intros r Hr. change 0%Z with (Z.of_nat 0). rewrite map_nth, seq_nth by exact Hr. lia. }
  assert (exists c, (if (n mod 2 =? 1)%nat then upd (map Z.of_nat (seq 1 n)) mid (fun _ => Z.of_nat (mid + 1)) else Ok (map Z.of_nat (seq 1 n))) = Ok c /\
    length c = n /\ forall r, (r < n)%nat -> nth r c 0%Z = (Z.of_nat r + 1)%Z) as [c [E [L K]]].
  { destruct (n mod 2 =? 1)%nat eqn:Eo.
    - apply Nat.eqb_eq in Eo. assert (Hm : (mid < n)%nat) by (destruct n; [discriminate|]; apply Nat.div_lt; lia).
      destruct (@upd_total _ (map Z.of_nat (seq 1 n)) mid (fun _ => Z.of_nat (mid + 1))) as [c E]; [rewrite map_length, seq_length; exact Hm|].
      exists c. split; [exact E|]. destruct (upd_nth _ _ _ E) as [L [_ U]]. rewrite map_length, seq_length in L. split; [exact L|].
      intros r Hr. specialize (U r). rewrite <- N by exact Hr.
      destruct (nth_error (map Z.of_nat (seq 1 n)) r) as [a|] eqn:Ea; [|apply nth_error_None in Ea; rewrite map_length, seq_length in Ea; lia].
      rewrite (nth_error_nth _ _ 0%Z Ea). destruct (Nat.eqb_spec r mid) as [Erm|]; cbn [option_map] in U; rewrite (nth_error_nth _ _ 0%Z U); [|reflexivity].
      apply (nth_error_nth _ _ 0%Z) in Ea. rewrite N in Ea by exact Hr. rewrite <- Erm. lia.
    - eexists. split; [reflexivity|]. split; [rewrite map_length, seq_length; reflexivity|exact N]. }
  exists c. split; [exact E|]. split; [|exact K]. set (m := mid) in *. split; [exact L|]. split.
  - intros i Hi. exists i. split; [exact Hi|]. left. apply K. lia.
  - intros Ho. apply K. lia.
Qed.

Lemma half_other : forall flip shuffle, (forall l, Permutation (shuffle l) l) -> half_ok (other_col n flip shuffle).
Proof.
  intros flip shuffle HS. pose proof mid_cases as HM. pose proof (Nat.div_mod n 2 ltac:(lia)) as DM. unfold other_col, half_ok. set (m := mid) in *.
  set (top := map (fun i => if flip i then (Z.of_nat n - Z.of_nat i)%Z else (Z.of_nat i + 1)%Z) (seq 0 m)).
  assert (LT : length (shuffle top) = m).
  { rewrite (Permutation_length (HS top)). unfold top. rewrite map_length. apply seq_length. }
  split; [|split].
  - rewrite !app_length, LT, repeat_length. destruct (Nat.eqb_spec (n mod 2) 1); simpl length; lia.
  - intros i Hi.
    assert (K : In (if flip i then (Z.of_nat n - Z.of_nat i)%Z else (Z.of_nat i + 1)%Z) (shuffle top)).
    { eapply Permutation_in; [symmetry; apply HS|]. unfold top. apply in_map_iff. exists i. split; [reflexivity|]. apply in_seq. lia. }
    apply In_nth with (d := 0%Z) in K. destruct K as [r [K1 K2]]. exists r. split; [lia|]. rewrite app_nth1 by lia. rewrite K2.
    destruct (flip i); [right|left]; reflexivity.
  - intros Ho. rewrite app_nth2 by lia. rewrite LT, Nat.sub_diag.
    destruct (Nat.eqb_spec (n mod 2) 1); [simpl; lia|]. exfalso. lia.
Qed.

(** The finished column: mirrored about the middle, and a permutation of 1..n. *)
Lemma finish_col : forall c, half_ok c -> exists c', finish n c = Ok c' /\ length c' = n /\
  (forall i, (i < n)%nat -> (nth i c' 0 + nth (n - 1 - i) c' 0 = Z.of_nat n + 1)%Z) /\
  Permutation c' (map Z.of_nat (seq 1 n)).
Proof.
  intros c [L [H1 H2]]. destruct (finish_spec _ L) as [c' [E [L' [N1 N2]]]]. pose proof mid_cases as HM. set (m := mid) in *.
  exists c'. split; [exact E|]. split; [exact L'|]. split.
  - intros i Hi. destruct (Nat.lt_ge_cases i m) as [A|A].
    + rewrite (N1 i A). rewrite N2 by lia. replace (n - 1 - (n - 1 - i))%nat with i by lia. lia.
    + rewrite (N2 i) by lia. destruct (Nat.lt_ge_cases (n - 1 - i) m) as [B|B].
      * rewrite N1 by exact B. lia.
      * rewrite N2 by lia. replace (n - 1 - (n - 1 - i))%nat with i by lia.
        assert (i = m /\ n - 1 - i = m)%nat as [-> ->] by lia. rewrite H2 by lia. lia.
  - assert (SU : forall k, (1 <= k <= n)%nat -> In (Z.of_nat k) c').
    { intros k Hk. assert (HN : forall r, (r < n)%nat -> nth r c' 0%Z = Z.of_nat k -> In (Z.of_nat k) c').
      { intros r Hr <-. apply nth_In. lia. }
      assert (TOP : forall i, (i < m)%nat -> (k = i + 1 \/ k = n - i)%nat -> In (Z.of_nat k) c').
      { intros i Hi Hki. destruct (H1 i Hi) as [r [R1 R2]]. pose proof (N1 r R1) as NR.
        assert (NB : nth (n - 1 - r) c' 0%Z = (Z.of_nat n + 1 - nth r c 0)%Z).
        { rewrite N2 by lia. replace (n - 1 - (n - 1 - r))%nat with r by lia. reflexivity. }
        destruct R2 as [R2|R2], Hki as [->| ->].
        - apply (HN r); [lia|]. rewrite NR. lia.
        - apply (HN (n - 1 - r)%nat); [lia|]. rewrite NB. lia.
        - apply (HN (n - 1 - r)%nat); [lia|]. rewrite NB. lia.
        - apply (HN r); [lia|]. rewrite NR. lia. }
      destruct (Nat.lt_ge_cases (k - 1) m) as [A|A]; [apply (TOP (k - 1)%nat A); lia|].
      destruct (Nat.lt_ge_cases (n - k) m) as [B|B]; [apply (TOP (n - k)%nat B); lia|].
      apply (HN m); [lia|]. rewrite N2 by lia. replace (n - 1 - m)%nat with m by lia. rewrite H2 by lia. lia. }
    symmetry. apply NoDup_Permutation_bis.
    + apply FinFun.Injective_map_NoDup; [intros a b; lia|apply seq_NoDup].
    + rewrite map_length, seq_length. lia.
    + intros z Hz. apply in_map_iff in Hz. destruct Hz as [k [<- Hk]]. apply in_seq in Hk. apply SU. lia.
Qed.
End Column.

Local Open Scope R_scope.

Lemma level_inj : forall n a b, (2 <= n)%nat -> a / (INR n - 1) = b / (INR n - 1) -> a = b.
Proof.
  intros n a b Hn H. assert (1 < INR n) by (change 1 with (INR 1); apply lt_INR; lia).
  apply Rmult_eq_reg_r in H; [exact H|]. apply Rinv_neq_0_compat. lra.
Qed.

(** For every number of points, dimension and draw: the design has num_pts rows; in each column
    each of the num_pts levels k/(num_pts-1) occurs in exactly one row; the mirror image of row r
    is row num_pts-1-r. *)
Theorem C42_slhd : forall n (draws : list ((nat -> bool) * (list Z -> list Z))), (2 <= n)%nat ->
  (forall d, In d draws -> forall l, Permutation (snd d l) l) ->
  exists D, slhd n draws = Ok D /\ length D = n /\
  (forall x, In x D -> length x = S (length draws)) /\
  (forall j k, (j < S (length draws))%nat -> (k < n)%nat ->
     exists r, ((r < n)%nat /\ (nth r D [])@j = INR k / (INR n - 1)) /\
       forall r', (r' < n)%nat -> (nth r' D [])@j = INR k / (INR n - 1) -> r' = r) /\
  (forall r j, (r < n)%nat -> (j < S (length draws))%nat -> (nth r D [])@j + (nth (n - 1 - r) D [])@j = 1).
Proof.
  intros n draws Hn HS. unfold slhd. replace (n =? 1)%nat with false by (symmetry; apply Nat.eqb_neq; lia).
  unfold slhd_cols. destruct (half_first n) as [c0 [E0 [H0 _]]]. rewrite E0. cbn [rbind].
  set (good := fun c' : list Z => length c' = n /\
    (forall i, (i < n)%nat -> (nth i c' 0 + nth (n - 1 - i) c' 0 = Z.of_nat n + 1)%Z) /\ Permutation c' (map Z.of_nat (seq 1 n))).
  destruct (finish_col H0) as [c0' [F0 G0]]. rewrite F0. cbn [rbind].
  assert (exists cs, mapR (fun d : (nat -> bool) * (list Z -> list Z) => finish n (other_col n (fst d) (snd d))) draws = Ok cs /\
    length cs = length draws /\ Forall good cs) as [cs [E1 [L1 G1]]].
  { clear -HS. induction draws as [|d draws IH]; [exists []; repeat split; constructor|].
    destruct (finish_col (@half_other n (fst d) (snd d) (HS d (or_introl eq_refl)))) as [c [F G]].
    destruct IH as [cs [E [L K]]]; [intros; apply HS; right; assumption|].
    exists (c :: cs). cbn [mapR]. rewrite F. cbn [rbind]. rewrite E. split; [reflexivity|]. split; [simpl; congruence|]. constructor; assumption. }
  rewrite E1. cbn [rbind]. set (cols := c0' :: cs).
  assert (GC : Forall good cols) by (constructor; assumption). assert (LC : length cols = S (length draws)) by (simpl; congruence).
  clearbody cols. clear E0 H0 F0 G0 E1 L1 G1 c0 c0' cs.
  set (D := map _ (seq 0 n)). exists D. split; [reflexivity|].
  assert (LD : length D = n) by (unfold D; rewrite map_length; apply seq_length). split; [exact LD|].
  split; [intros x Hx; apply in_map_iff in Hx; destruct Hx as [r [<- _]]; rewrite map_length; exact LC|].
  assert (EN : forall r j, (r < n)%nat -> (j < S (length draws))%nat ->
    (nth r D [])@j = (IZR (nth r (nth j cols []) 0%Z) - 1) / (INR n - 1)).
  { intros r j Hr Hj. unfold D.
    rewrite nth_indep with (d' := (fun r0 => map (fun c : list Z => (IZR (nth r0 c 0%Z) - 1) / (INR n - 1)) cols) 0%nat) by (rewrite map_length, seq_length; exact Hr).
    rewrite (map_nth (fun r0 => map (fun c : list Z => (IZR (nth r0 c 0%Z) - 1) / (INR n - 1)) cols)), seq_nth by exact Hr. simpl plus.
    rewrite nth_indep with (d' := (fun c : list Z => (IZR (nth r c 0%Z) - 1) / (INR n - 1)) []) by (rewrite map_length; lia).
    rewrite (map_nth (fun c : list Z => (IZR (nth r c 0%Z) - 1) / (INR n - 1))). reflexivity. }
  assert (GJ : forall j, (j < S (length draws))%nat -> good (nth j cols [])).
  { intros j Hj. rewrite Forall_forall in GC. apply GC. apply nth_In. lia. }
  assert (N1 : 1 < INR n) by (change 1 with (INR 1); apply lt_INR; lia).
  split.
  - intros j k Hj Hk. destruct (GJ j Hj) as [GL [_ GP]]. set (c := nth j cols []) in *.
    assert (ND : NoDup c). { eapply Permutation_NoDup; [symmetry; exact GP|]. apply FinFun.Injective_map_NoDup; [intros a b; lia|apply seq_NoDup]. }
    assert (K : In (Z.of_nat (S k)) c).
    { eapply Permutation_in; [symmetry; exact GP|]. apply in_map. apply in_seq. lia. }
    apply In_nth with (d := 0%Z) in K. destruct K as [r [R1 R2]]. rewrite GL in R1. exists r.
    assert (V : forall r', (r' < n)%nat -> ((nth r' D [])@j = INR k / (INR n - 1) <-> nth r' c 0%Z = Z.of_nat (S k))).
    { intros r' Hr. rewrite EN by assumption. fold c. split; intros H.
      - apply level_inj in H; [|exact Hn]. apply eq_IZR. rewrite <- INR_IZR_INZ, S_INR. lra.
      - rewrite H, <- INR_IZR_INZ, S_INR. f_equal. ring. }
    split; [split; [exact R1|apply V; auto]|]. intros r' Hr' E'. apply V in E'; [|exact Hr'].
    apply (proj1 (NoDup_nth c 0%Z) ND); try congruence; lia.
  - intros r j Hr Hj. rewrite !EN by (auto; lia). destruct (GJ j Hj) as [_ [GS _]]. specialize (GS r Hr).
    set (a := nth r (nth j cols []) 0%Z) in *. set (b := nth (n - 1 - r) (nth j cols []) 0%Z) in *.
    assert (IZR a + IZR b = INR n + 1). { rewrite <- plus_IZR, GS, plus_IZR, INR_IZR_INZ. reflexivity. }
    replace (IZR b) with (INR n + 1 - IZR a) by lra. field. lra.
Qed.

Lemma classic_dec_fin : forall (D : list pt) j d r n,
  (exists k, (k < n)%nat /\ (nth r D [])@j = INR k / d) \/ ~ (exists k, (k < n)%nat /\ (nth r D [])@j = INR k / d).
Proof.
  intros D j d r n. induction n as [|n IH]; [right; intros [k [K _]]; lia|].
  destruct IH as [[k [K1 K2]]|N]; [left; exists k; split; [lia|exact K2]|].
  destruct (Req_EM_T ((nth r D [])@j) (INR n / d)) as [E|E]; [left; exists n; split; [lia|exact E]|].
  right. intros [k [K1 K2]]. destruct (Nat.eq_dec k n) as [->|]; [contradiction|]. apply N. exists k. split; [lia|exact K2].
Qed.

(** In particular all points lie in the unit box. *)
Corollary C42_unit_box : forall n (draws : list ((nat -> bool) * (list Z -> list Z))) D, (2 <= n)%nat ->
  (forall d, In d draws -> forall l, Permutation (snd d l) l) -> slhd n draws = Ok D ->
  let dim := S (length draws) in Forall (inside dim (zeros dim) (ones dim)) D.
Proof.
  intros n draws D Hn HS HD dim. destruct (@C42_slhd n draws Hn HS) as [D' [E [L [H1 [H2 _]]]]].
  rewrite HD in E. injection E as <-. apply Forall_forall. intros x Hx. split; [apply H1; exact Hx|].
  intros j Hj. rewrite zeros_nth, ones_nth by exact Hj.
  apply In_nth with (d := []) in Hx. destruct Hx as [r [R1 <-]]. rewrite L in R1.
  (* every row holds some level in column j *)
  assert (exists k, (k < n)%nat /\ (nth r D [])@j = INR k / (INR n - 1)) as [k [K1 K2]].
  { destruct (classic_dec_fin D j (INR n - 1) r n) as [K|K]; [exact K|]. exfalso.
    (* n levels at n - 1 rows: pigeonhole *)
    assert (PH : forall m, (m <= n)%nat -> exists rs, length rs = m /\ NoDup rs /\ incl rs (seq 0 n) /\ ~ In r rs /\
        forall r', In r' rs -> exists k, (k < m)%nat /\ (nth r' D [])@j = INR k / (INR n - 1)).
    { induction m as [|m IHm]; intros Hm.
      - exists []. split; [reflexivity|]. split; [constructor|]. split; [intros a []|]. split; [intros []|intros r' []].
      - destruct IHm as [rs [A1 [A2 [A3 [A4 A5]]]]]; [lia|]. destruct (H2 j m Hj Hm) as [r1 [[B1 B2] B3]].
        exists (r1 :: rs). split; [simpl; congruence|]. split; [constructor; [|exact A2]|].
        + intros K1. destruct (A5 r1 K1) as [k [C1 C2]]. rewrite B2 in C2. apply level_inj in C2; [|exact Hn]. apply INR_eq in C2. lia.
        + split; [intros a [<-|Ha]; [apply in_seq; lia|apply A3; exact Ha]|]. split.
          * intros [->|K1]; [|contradiction]. apply K. exists m. split; [lia|exact B2].
          * intros r' [<-|K1]; [exists m; split; [lia|exact B2]|]. destruct (A5 r' K1) as [k [C1 C2]]. exists k. split; [lia|exact C2]. }
    destruct (PH n (le_n n)) as [rs [A1 [A2 [A3 [A4 _]]]]]. apply A4.
    assert (P : incl (seq 0 n) rs) by (apply NoDup_length_incl; [exact A2|rewrite seq_length; lia|exact A3]).
    apply P. apply in_seq. lia. }
  rewrite K2. assert (1 < INR n) by (change 1 with (INR 1); apply lt_INR; lia).
  assert (INR k <= INR n - 1). { assert (INR (S k) <= INR n) by (apply le_INR; lia). rewrite S_INR in H0. lra. }
  pose proof (pos_INR k). split.
  - apply Rmult_le_pos; [lra|]. apply Rlt_le, Rinv_0_lt_compat. lra.
  - apply Rmult_le_reg_r with (INR n - 1); [lra|]. unfold Rdiv. rewrite Rmult_assoc, Rinv_l by lra. lra.
Qed.

(** ** C43 *)
Lemma round_id : forall q dim, well_formed q dim -> forall X, Forall (feasible q dim) X ->
  round_vars X (q_int q) (q_lb q) (q_ub q) = Ok X.
Proof.
  intros q dim WF X HX. assert (R : rows dim X) by (eapply Forall_impl; [|exact HX]; intros x [[H _] _]; exact H).
  destruct (round_feasible WF R) as [Y [E1 [E2 E3]]]. rewrite E1. f_equal.
  apply nth_ext with (d := [] : pt) (d' := [] : pt); [exact E2|]. intros r Hr.
  destruct (nth_error X r) as [x|] eqn:Ex; [|apply nth_error_None in Ex; lia].
  destruct (E3 r x Ex) as [y [Y1 [Y2 Y3]]]. rewrite (nth_error_nth _ _ ([] : pt) Y1), (nth_error_nth _ _ ([] : pt) Ex).
  rewrite Forall_forall in HX. destruct (HX x (nth_error_In _ _ Ex)) as [B I]. pose proof (Y2 B) as [[Ly _] _].
  destruct B as [Lx B]. apply nth_eq with (dim := dim); auto. intros k Hk. apply Y3; [exact Hk|].
  destruct (in_dec Nat.eq_dec k (q_int q)); auto.
Qed.

(** A corner of the box. *)
Definition corner_of (dim : nat) (lb ub x : pt) : Prop :=
  length x = dim /\ forall i, (i < dim)%nat -> x@i = lb@i \/ x@i = ub@i.

Lemma corners_spec : forall dim x, In x (corners dim) <-> corner_of dim (zeros dim) (ones dim) x.
Proof.
  induction dim as [|d IH]; intros x; simpl.
  - split; [intros [<-|[]]; split; [reflexivity|intros i Hi; lia]|]. intros [L _]. destruct x; [left; reflexivity|discriminate].
  - rewrite in_app_iff, !in_map_iff. split.
    + intros [[y [<- Hy]]|[y [<- Hy]]]; apply IH in Hy; destruct Hy as [L H]; (split; [simpl; congruence|]);
        intros [|i] Hi; simpl; auto; apply H; lia.
    + intros [L H]. destruct x as [|a y]; [discriminate|].
      assert (C : corner_of d (zeros d) (ones d) y) by (split; [simpl in L; congruence|intros i Hi; apply (H (S i)); lia]).
      destruct (H 0%nat ltac:(lia)) as [E|E]; simpl in E; subst a; [left|right]; exists y; (split; [reflexivity|apply IH; exact C]).
Qed.

Lemma corners_len : forall dim, length (corners dim) = (2 ^ dim)%nat.
Proof. induction dim as [|d IH]; [reflexivity|]. cbn [corners]. rewrite app_length, !map_length. unfold pt in *. rewrite IH. cbn [Nat.pow]. lia. Qed.

Lemma NoDup_app_disj : forall A (l l' : list A), NoDup l -> NoDup l' -> (forall a, In a l -> ~ In a l') -> NoDup (l ++ l').
Proof.
  intros A l. induction l as [|a l IH]; intros l' H1 H2 H3; [exact H2|]. inversion H1; subst. simpl. constructor.
  - rewrite in_app_iff. intros [K|K]; [contradiction|]. apply (H3 a); [left; reflexivity|exact K].
  - apply IH; auto. intros b Hb. apply H3. right. exact Hb.
Qed.

Lemma corners_nodup : forall dim, NoDup (corners dim).
Proof.
  induction dim as [|d IH]; cbn [corners]; [constructor; [intros []|constructor]|].
  apply NoDup_app_disj.
  - apply FinFun.Injective_map_NoDup; [intros a b H; injection H as ->; reflexivity|exact IH].
  - apply FinFun.Injective_map_NoDup; [intros a b H; injection H as ->; reflexivity|exact IH].
  - intros x H1 H2. apply in_map_iff in H1. apply in_map_iff in H2. destruct H1 as [y [<- _]], H2 as [z [E _]].
    injection E as E _. lra.
Qed.

Lemma map_inj_on : forall A B (f : A -> B) l, (forall a b, In a l -> In b l -> f a = f b -> a = b) -> NoDup l -> NoDup (map f l).
Proof.
  intros A B f l. induction l as [|a l IH]; intros H N; [constructor|]. inversion N; subst. simpl. constructor.
  - intros K. apply in_map_iff in K. destruct K as [b [E Hb]]. assert (b = a) by (apply H; simpl; auto). subst. contradiction.
  - apply IH; [intros; apply H; simpl; auto|assumption].
Qed.

(** With bounds: the rows are the 2^dim corners of [lb, ub], each once; without bounds those of
    the unit box; dim >= 15 is refused. *)
Theorem C43_two_factorial : forall q dim, well_formed q dim ->
  ((dim < 15)%nat ->
    two_factorial_num_pts dim = Ok (2 ^ dim)%nat /\
    exists X U, two_factorial_points dim (Some (q_lb q)) (Some (q_ub q)) (q_int q) = Ok X /\
      length X = (2 ^ dim)%nat /\ NoDup X /\ (forall x, In x X <-> corner_of dim (q_lb q) (q_ub q) x) /\
      Forall (feasible q dim) X /\
      two_factorial_points dim None None (q_int q) = Ok U /\
      length U = (2 ^ dim)%nat /\ NoDup U /\ (forall x, In x U <-> corner_of dim (zeros dim) (ones dim) x)) /\
  ((15 <= dim)%nat -> forall lb ub, two_factorial_num_pts dim = Err ValueError /\ two_factorial_points dim lb ub (q_int q) = Err ValueError).
Proof.
  intros q dim WF. unfold two_factorial_points, two_factorial_num_pts. split.
  2:{ intros H lb ub. destruct (Nat.leb_spec 15 dim); [|lia]. split; reflexivity. }
  intros Hd. destruct (Nat.leb_spec 15 dim); [lia|]. split; [reflexivity|]. cbn [rbind map_round].
  pose proof WF as [[L1 [L2 L3]] I].
  assert (FU : forall u i, In u (corners dim) -> (i < dim)%nat ->
    (u@i = 0 /\ (from_unit u (q_lb q) (q_ub q))@i = (q_lb q)@i) \/ (u@i = 1 /\ (from_unit u (q_lb q) (q_ub q))@i = (q_ub q)@i)).
  { intros u i Hu Hi. apply corners_spec in Hu. destruct Hu as [Lu Hu]. rewrite (from_unit_nth (proj1 WF)) by auto.
    destruct (Hu i Hi) as [E|E]; rewrite ?zeros_nth, ?ones_nth in E by exact Hi; rewrite E; [left|right]; split; auto; ring. }
  assert (LF : forall u, In u (corners dim) -> length (from_unit u (q_lb q) (q_ub q)) = dim).
  { intros u Hu. apply corners_spec in Hu. apply (from_unit_len (proj1 WF)). apply Hu. }
  assert (F : Forall (feasible q dim) (from_unit_box (corners dim) (q_lb q) (q_ub q))).
  { apply Forall_forall. intros x Hx. unfold from_unit_box in Hx. apply in_map_iff in Hx. destruct Hx as [u [<- Hu]].
    split; [split; [apply LF; exact Hu|]|].
    - intros i Hi. pose proof (L3 i Hi). destruct (FU u i Hu Hi) as [[_ ->]|[_ ->]]; lra.
    - intros i Hi. destruct (I i Hi) as [I1 [I2 I3]]. destruct (FU u i Hu I1) as [[_ ->]|[_ ->]]; assumption. }
  exists (from_unit_box (corners dim) (q_lb q) (q_ub q)), (corners dim).
  split; [apply round_id with (dim := dim); assumption|].
  split; [unfold from_unit_box; rewrite map_length; apply corners_len|].
  split.
  { unfold from_unit_box. apply map_inj_on; [|apply corners_nodup]. intros a b Ha Hb E.
    apply corners_spec in Ha. apply corners_spec in Hb.
    rewrite <- (proj1 (C38_inverse (proj1 WF) a (proj1 Ha))), E. apply (C38_inverse (proj1 WF)). apply Hb. }
  split.
  { intros x. unfold from_unit_box. rewrite in_map_iff. split.
    - intros [u [<- Hu]]. split; [apply LF; exact Hu|]. intros i Hi. destruct (FU u i Hu Hi) as [[_ K]|[_ K]]; auto.
    - intros [Lx Hx]. exists (to_unit x (q_lb q) (q_ub q)). split; [apply (C38_inverse (proj1 WF)); exact Lx|].
      apply corners_spec. split; [apply (to_unit_len (proj1 WF)); exact Lx|]. intros i Hi.
      rewrite zeros_nth, ones_nth by exact Hi. rewrite (to_unit_nth (proj1 WF)) by auto. pose proof (L3 i Hi).
      destruct (Hx i Hi) as [->| ->]; [left|right]; field; lra. }
  split; [exact F|]. split; [reflexivity|]. split; [apply corners_len|]. split; [apply corners_nodup|apply corners_spec].
Qed.

(** The order is that of itertools.product. *)
Example ex_C43 : corners 2 = [[0; 0]; [0; 1]; [1; 0]; [1; 1]].
Proof. reflexivity. Qed.

(** ** C44 *)
Lemma sqdist_nonneg : forall x y, 0 <= sqdist x y.
Proof.
  induction x as [|a x IH]; intros [|b y]; simpl; try lra. specialize (IH y). pose proof (Rle_0_sqr (a - b)). unfold Rsqr in H. lra.
Qed.
Lemma sqdist_zero : forall x y, length x = length y -> sqdist x y = 0 -> x = y.
Proof.
  induction x as [|a x IH]; intros [|b y] L H; simpl in *; try discriminate; [reflexivity|].
  pose proof (sqdist_nonneg x y). pose proof (Rle_0_sqr (a - b)) as Q. unfold Rsqr in Q.
  assert (E1 : (a - b) * (a - b) = 0) by lra. assert (E2 : sqdist x y = 0) by lra.
  f_equal; [|apply IH; [congruence|exact E2]]. apply Rmult_integral in E1. lra.
Qed.
Lemma edist_refl : forall x, edist x x = 0.
Proof. intros x. unfold edist. replace (sqdist x x) with 0; [apply sqrt_0|]. induction x as [|a x IH]; simpl; [reflexivity|]. rewrite <- IH. ring. Qed.

(** The smallest distance between two different rows of a design (infinite if there is one row). *)
Definition min_pairwise (D : list pt) (s : xr) : Prop :=
  (forall i j, (i < length D)%nat -> (j < length D)%nat -> i <> j -> xlt (XFin (edist (nth i D []) (nth j D []))) s = false) /\
  (s = XInf /\ length D = 1%nat \/
   exists i j, (i < length D)%nat /\ (j < length D)%nat /\ i <> j /\ s = XFin (edist (nth i D []) (nth j D []))).

Lemma fold_xmin : forall l d, (forall v, In v (d :: l) -> not_nan v) -> In (fold_left xmin l d) (d :: l) /\ forall v, In v (d :: l) -> xlt v (fold_left xmin l d) = false.
Proof.
  induction l as [|b l IH]; intros d HN.
  - simpl. split; [left; reflexivity|]. intros v [<-|[]]. apply xle_refl.
  - cbn [fold_left]. assert (HM : xmin d b = d \/ xmin d b = b) by (unfold xmin; destruct (xlt b d); auto).
    destruct (IH (xmin d b)) as [A B].
    { intros v [<-|Hv]; [destruct HM as [-> | ->]; apply HN; simpl; auto|apply HN; simpl; auto]. }
    split.
    + destruct A as [A|A]; [rewrite <- A; destruct HM as [-> | ->]; simpl; auto|simpl; auto].
    + assert (N0 : not_nan (xmin d b)) by (destruct HM as [-> | ->]; apply HN; simpl; auto).
      assert (LE : xlt d (xmin d b) = false /\ xlt b (xmin d b) = false).
      { unfold xmin. destruct (xlt b d) eqn:E; split; try apply xle_refl; try exact E.
        assert (Nd := HN d (or_introl eq_refl)). assert (Nb := HN b (or_intror (or_introl eq_refl))).
        destruct d, b; simpl in *; try discriminate; try reflexivity; try (exfalso; apply Nd; reflexivity); try (exfalso; apply Nb; reflexivity).
        destruct (Rlt_dec r0 r); [|discriminate]. destruct (Rlt_dec r r0); [lra|reflexivity]. }
      specialize (B (xmin d b) (or_introl eq_refl)) as B0.
      intros v [<-|[<-|Hv]].
      * eapply xle_trans; [exact N0|exact B0|apply LE].
      * eapply xle_trans; [exact N0|exact B0|apply LE].
      * apply B. right. exact Hv.
Qed.

Lemma score_spec : forall D, D <> [] -> exists s, score D = Ok s /\ min_pairwise D s.
Proof.
  intros D HD. unfold score.
  assert (IN : forall v, In v (dists D) <-> exists i j, (i < length D)%nat /\ (j < length D)%nat /\
    v = if (i =? j)%nat then XInf else XFin (edist (nth i D []) (nth j D []))).
  { intros v. unfold dists. rewrite in_flat_map. split.
    - intros [i [A B]]. apply in_seq in A. apply in_map_iff in B. destruct B as [j [<- B]]. apply in_seq in B. exists i, j. repeat split; lia.
    - intros [i [j [A [B ->]]]]. exists i. split; [apply in_seq; lia|]. apply in_map_iff. exists j. split; [reflexivity|apply in_seq; lia]. }
  assert (P : (0 < length D)%nat) by (destruct D; [congruence|simpl; lia]).
  destruct (dists D) as [|d l] eqn:ED.
  - exfalso. apply (proj2 (IN XInf)). exists 0%nat, 0%nat. repeat split; auto.
  - destruct (@fold_xmin l d) as [A B].
    { intros v Hv. apply IN in Hv. destruct Hv as [i [j [_ [_ ->]]]]. destruct (i =? j)%nat; discriminate. }
    eexists. split; [reflexivity|]. set (s := fold_left xmin l d) in *. split.
    + intros i j Hi Hj Hij. apply B. apply IN. exists i, j. split; [exact Hi|]. split; [exact Hj|].
      destruct (Nat.eqb_spec i j); [contradiction|reflexivity].
    + apply IN in A. destruct A as [i [j [Hi [Hj E]]]]. destruct (Nat.eqb_spec i j) as [Eij|Nij].
      * destruct (Nat.eq_dec (length D) 1) as [L1|L1]; [left; auto|]. exfalso.
        assert (K : xlt (XFin (edist (nth 0 D []) (nth 1 D []))) s = false).
        { apply B. apply IN. exists 0%nat, 1%nat. split; [lia|]. split; [lia|]. reflexivity. }
        rewrite E in K. discriminate.
      * right. exists i, j. auto.
Qed.

Section Choice.
Variable rank : list pt -> nat.
Variables lb ub : option pt.
Variable iv : list nat.
Variable dim : nat.

(** A design the function may return: it has full rank and pairwise different points. *)
Definition valid (D : list pt) : Prop := rank D = dim /\ exists s, min_pairwise D s /\ xlt (XFin 0) s = true.

Lemma min_pairwise_unique : forall D s t, D <> [] -> min_pairwise D s -> score D = Ok t -> s = t \/ (xlt s t = false /\ xlt t s = false).
Proof.
  intros D s t HD [A1 A2] HS. destruct (score_spec HD) as [t' [E [B1 B2]]]. rewrite HS in E. injection E as <-.
  destruct A2 as [[-> LA]|[i [j [Hi [Hj [Hij ->]]]]]], B2 as [[-> LB]|[i' [j' [Hi' [Hj' [Hij' ->]]]]]]; auto; try lia.
Qed.

Lemma choose_spec : forall gens best X0 Ms,
  (forall D, In D Ms -> D <> [] /\ shape1 D = dim) ->
  Forall2 (fun g D => map_round lb ub iv g = Ok D) gens Ms ->
  not_nan best ->
  exists r, choose rank lb ub iv gens best X0 = Ok r /\
  match r with
  | Some X => (X0 = Some X /\ (forall D s, In D Ms -> rank D = dim -> score D = Ok s -> xlt best s = false)) \/
              (exists s, In X Ms /\ rank X = dim /\ score X = Ok s /\ xlt best s = true /\
                 forall D t, In D Ms -> rank D = dim -> score D = Ok t -> xlt s t = false)
  | None => X0 = None /\ (forall D s, In D Ms -> rank D = dim -> score D = Ok s -> xlt best s = false)
  end.
Proof.
  intros gens. induction gens as [|g gens IH]; intros best X0 Ms HM HF HB; inversion HF; subst.
  - exists X0. split; [reflexivity|]. destruct X0; [left|]; split; auto; intros D s [].
  - rename y into D0, l' into Ms', H1 into E0, H3 into HF'. cbn [choose]. rewrite E0. cbn [rbind].
    destruct (HM D0 (or_introl eq_refl)) as [ND SD]. destruct (score_spec ND) as [s0 [ES [PS1 PS2]]]. rewrite ES. cbn [rbind].
    assert (N0 : not_nan s0) by (destruct PS2 as [[-> _]|[i [j [_ [_ [_ ->]]]]]]; discriminate).
    rewrite SD. destruct (xlt best s0) eqn:EB; cbn [andb]; [destruct (Nat.eqb_spec (rank D0) dim) as [ER|ER]|].
    + destruct (IH s0 (Some D0) Ms') as [r [R1 R2]]; [intros; apply HM; right; assumption|exact HF'|exact N0|].
      exists r. split; [exact R1|]. destruct r as [X|]; [|destruct R2 as [R2 _]; discriminate].
      right. destruct R2 as [[R2 R3]|[s [R2 [R3 [R4 [R5 R6]]]]]].
      * injection R2 as <-. exists s0. split; [left; reflexivity|]. split; [exact ER|]. split; [exact ES|]. split; [exact EB|].
        intros D t [<-|HD] HR HS; [|eapply R3; eauto]. rewrite ES in HS. injection HS as <-. apply xle_refl.
      * exists s. split; [right; exact R2|]. split; [exact R3|]. split; [exact R4|].
        assert (T : forall a, xlt a s0 = true -> not_nan a -> xlt a s = true).
        { intros a Ha Na. destruct a as [a| | |], s0 as [b| | |], s as [c| | |]; simpl in *; try discriminate; try reflexivity.
          destruct (Rlt_dec a b), (Rlt_dec b c), (Rlt_dec a c); try discriminate; try reflexivity; lra. }
        split; [apply T; [exact EB|exact HB]|]. intros D t [<-|HD] HR HS; [|eapply R6; eauto].
        rewrite ES in HS. injection HS as <-. clear -R5. destruct s0 as [b| | |], s as [c| | |]; simpl in *; try discriminate; try reflexivity.
        destruct (Rlt_dec b c), (Rlt_dec c b); try discriminate; try reflexivity; lra.
    + destruct (IH best X0 Ms') as [r [R1 R2]]; [intros; apply HM; right; assumption|exact HF'|exact HB|].
      exists r. split; [exact R1|]. destruct r as [X|].
      * destruct R2 as [[R2 R3]|[s [R2 [R3 [R4 [R5 R6]]]]]].
        -- left. split; [exact R2|]. intros D s [<-|HD] HR HS; [contradiction|eapply R3; eauto].
        -- right. exists s. split; [right; exact R2|]. split; [exact R3|]. split; [exact R4|]. split; [exact R5|].
           intros D t [<-|HD] HR HS; [contradiction|eapply R6; eauto].
      * destruct R2 as [R2 R3]. split; [exact R2|]. intros D s [<-|HD] HR HS; [contradiction|eapply R3; eauto].
    + destruct (IH best X0 Ms') as [r [R1 R2]]; [intros; apply HM; right; assumption|exact HF'|exact HB|].
      exists r. split; [exact R1|]. destruct r as [X|].
      * destruct R2 as [[R2 R3]|[s [R2 [R3 [R4 [R5 R6]]]]]].
        -- left. split; [exact R2|]. intros D s [<-|HD] HR HS; [congruence|eapply R3; eauto].
        -- right. exists s. split; [right; exact R2|]. split; [exact R3|]. split; [exact R4|]. split; [exact R5|].
           intros D t [<-|HD] HR HS; [|eapply R6; eauto]. rewrite ES in HS. injection HS as <-.
           clear -R5 HB EB. destruct best as [b| | |], s as [c| | |], s0 as [d| | |]; simpl in *; try discriminate; try reflexivity; try (exfalso; apply HB; reflexivity).
           destruct (Rlt_dec b c), (Rlt_dec b d), (Rlt_dec c d); try discriminate; try reflexivity; lra.
      * destruct R2 as [R2 R3]. split; [exact R2|]. intros D s [<-|HD] HR HS; [congruence|eapply R3; eauto].
Qed.

(** [Ms] are the generated designs after mapping and rounding; they have rows of length [dim].
    The function returns a valid one (full rank, smallest distance positive) whose smallest
    distance is at least that of every other design of full rank; it raises ValueError iff there
    is no valid one. *)
Theorem C44_best_valid_design : forall gens Ms,
  Forall2 (fun g D => map_round lb ub iv g = Ok D) gens Ms ->
  (forall D, In D Ms -> D <> [] /\ rows dim D) ->
  ((exists X, expdes_dist rank lb ub iv gens = Ok X /\ In X Ms /\ valid X /\
      forall s, min_pairwise X s -> forall D t, In D Ms -> rank D = dim -> min_pairwise D t -> xlt s t = false)
    /\ (exists D, In D Ms /\ valid D))
  \/ (expdes_dist rank lb ub iv gens = Err ValueError /\ forall D, In D Ms -> ~ valid D).
Proof.
  intros gens Ms HF HM.
  assert (HM' : forall D, In D Ms -> D <> [] /\ shape1 D = dim).
  { intros D HD. destruct (HM D HD) as [A B]. split; [exact A|]. destruct D as [|x D]; [congruence|]. inversion B; assumption. }
  assert (SC : forall D s, D <> [] -> min_pairwise D s -> exists t, score D = Ok t /\ forall a, xlt a s = xlt a t /\ xlt s a = xlt t a).
  { intros D s ND MS. destruct (score_spec ND) as [t [E T]]. exists t. split; [exact E|].
    assert (s = t); [|subst; auto].
    destruct MS as [A1 A2], T as [B1 B2].
    destruct A2 as [[-> LA]|[i [j [Hi [Hj [Hij ->]]]]]], B2 as [[-> LB]|[i' [j' [Hi' [Hj' [Hij' ->]]]]]]; auto; try lia.
    specialize (A1 i' j' Hi' Hj' Hij'). specialize (B1 i j Hi Hj Hij). simpl in A1, B1. f_equal.
    destruct Rlt_dec in A1; [discriminate|]. destruct Rlt_dec in B1; [discriminate|]. lra. }
  assert (SM : forall D t, D <> [] -> score D = Ok t -> min_pairwise D t).
  { intros D t ND E. destruct (score_spec ND) as [t' [E' T]]. congruence. }
  destruct (@choose_spec gens (XFin 0) None Ms HM' HF) as [r [R1 R2]]; [discriminate|].
  unfold expdes_dist. rewrite R1. cbn [rbind]. destruct r as [X|].
  - left. destruct R2 as [[R2 _]|[s [R2 [R3 [R4 [R5 R6]]]]]]; [discriminate|].
    assert (VX : valid X). { split; [exact R3|]. exists s. split; [apply SM; [apply HM; exact R2|exact R4]|exact R5]. }
    split; [|exists X; auto]. exists X. split; [reflexivity|]. split; [exact R2|]. split; [exact VX|].
    intros s' HS' D t HD HR HT. destruct (SC X s') as [s1 [E1 K1]]; [apply HM; exact R2|exact HS'|].
    destruct (SC D t) as [t1 [E2 K2]]; [apply HM; exact HD|exact HT|]. rewrite (proj1 (K2 s')), (proj2 (K1 t1)).
    rewrite E1 in R4. injection R4 as ->. eapply R6; eauto.
  - right. split; [reflexivity|]. destruct R2 as [_ R2]. intros D HD [V1 [s [V2 V3]]].
    destruct (SC D s) as [t [E K]]; [apply HM; exact HD|exact V2|]. rewrite (proj1 (K (XFin 0))) in V3. rewrite (R2 D t HD V1 E) in V3. discriminate.
Qed.
End Choice.

(** [valid] means pairwise different points. *)
Lemma valid_distinct : forall rank dim D, rows dim D -> valid rank dim D -> NoDup D.
Proof.
  intros rank dim D HR [_ [s [[A _] P]]]. apply (proj2 (NoDup_nth D [])). intros i j Hi Hj E.
  destruct (Nat.eq_dec i j) as [|N]; [assumption|]. exfalso. specialize (A i j Hi Hj N). rewrite E, edist_refl in A. congruence.
Qed.

(** Full column rank, which numpy.linalg.matrix_rank decides numerically. *)
Fixpoint dot (w x : pt) {struct w} : R := match w, x with a :: w', b :: x' => a * b + dot w' x' | _, _ => 0 end.
Definition full_column_rank (dim : nat) (D : list pt) : Prop :=
  forall w, length w = dim -> (forall x, In x D -> dot w x = 0) -> w = zeros dim.

(** ** SymmetricLatinHypercube.generate_points *)
Section Slhd.
Variable q : prob.
Variable dim : nat.
Hypothesis WF : well_formed q dim.
Variable rank : list pt -> nat.

Lemma map_round_feasible : forall D, Forall (inside dim (zeros dim) (ones dim)) D ->
  exists M, map_round (Some (q_lb q)) (Some (q_ub q)) (q_int q) D = Ok M /\ length M = length D /\ Forall (feasible q dim) M.
Proof using WF.
  intros D HD. cbn [map_round].
  assert (I : Forall (inside dim (q_lb q) (q_ub q)) (from_unit_box D (q_lb q) (q_ub q))).
  { apply Forall_forall. intros x Hx. unfold from_unit_box in Hx. apply in_map_iff in Hx. destruct Hx as [u [<- Hu]].
    rewrite Forall_forall in HD. apply (C38_onto (proj1 WF)). auto. }
  assert (R : rows dim (from_unit_box D (q_lb q) (q_ub q))) by (eapply Forall_impl; [|exact I]; intros x [H _]; exact H).
  destruct (round_feasible WF R) as [M [E1 [E2 E3]]]. exists M. split; [exact E1|].
  split; [rewrite E2; unfold from_unit_box; apply map_length|].
  apply Forall_forall. intros y Hy. apply In_nth_error in Hy. destruct Hy as [r Hr].
  assert (r < length (from_unit_box D (q_lb q) (q_ub q)))%nat by (rewrite <- E2; apply nth_error_Some; congruence).
  destruct (nth_error (from_unit_box D (q_lb q) (q_ub q)) r) as [x|] eqn:Ex; [|apply nth_error_None in Ex; lia].
  destruct (E3 r x Ex) as [y' [Y1 [Y2 _]]]. assert (y' = y) by congruence. subst y'. apply Y2.
  rewrite Forall_forall in I. apply I. eapply nth_error_In; eauto.
Qed.

(** Whatever is drawn, generate_points(lb, ub, int_var) either raises ValueError or returns
    num_pts pairwise different feasible points: the hypothesis on designs in C13. *)
Theorem C44_slhd_feasible : forall n draws, (2 <= n)%nat ->
  (forall ds, In ds draws -> S (length ds) = dim /\ forall d, In d ds -> forall l, Permutation (snd d l) l) ->
  slhd_generate rank n (Some (q_lb q)) (Some (q_ub q)) (q_int q) draws = Err ValueError \/
  exists X, slhd_generate rank n (Some (q_lb q)) (Some (q_ub q)) (q_int q) draws = Ok X /\
    length X = n /\ Forall (feasible q dim) X /\ NoDup X /\ rank X = dim.
Proof using WF.
  intros n draws Hn HD. unfold slhd_generate.
  assert (exists gens Ms, mapR (slhd n) draws = Ok gens /\
    Forall2 (fun g D => map_round (Some (q_lb q)) (Some (q_ub q)) (q_int q) g = Ok D) gens Ms /\
    forall D, In D Ms -> length D = n /\ Forall (feasible q dim) D) as [gens [Ms [E [F G]]]].
  { clear -WF Hn HD. induction draws as [|ds draws IH].
    - exists [], []. split; [reflexivity|]. split; [constructor|]. intros D [].
    - destruct IH as [gens [Ms [E [F G]]]]; [intros; apply HD; right; assumption|].
      destruct (HD ds (or_introl eq_refl)) as [L P]. destruct (@C42_slhd n ds Hn P) as [D [S1 [S2 _]]].
      pose proof (@C42_unit_box n ds D Hn P S1) as B. cbv zeta in B. rewrite L in B.
      destruct (map_round_feasible B) as [M [M1 [M2 M3]]].
      exists (D :: gens), (M :: Ms). cbn [mapR]. rewrite S1. cbn [rbind]. rewrite E. split; [reflexivity|].
      split; [constructor; assumption|]. intros D' [<-|HD']; [split; [congruence|exact M3]|apply G; exact HD']. }
  rewrite E. cbn [rbind].
  assert (G' : forall D, In D Ms -> D <> [] /\ rows dim D).
  { intros D K. destruct (G D K) as [A B]. split; [intros ->; simpl in A; lia|]. eapply Forall_impl; [|exact B]. intros x [[H _] _]. exact H. }
  destruct (@C44_best_valid_design rank (Some (q_lb q)) (Some (q_ub q)) (q_int q) dim gens Ms F G') as [[[X [K1 [K2 [K3 _]]]] _]|[K1 _]].
  - right. exists X. split; [exact K1|]. destruct (G X K2) as [A B]. split; [exact A|]. split; [exact B|].
    split; [eapply valid_distinct; [apply G'; exact K2|exact K3]|apply K3].
  - left. exact K1.
Qed.
End Slhd.

(** A valid design: it has full column rank and pairwise different points. *)
Example ex_C44 : let D := [[0; 1]; [1; 0]; [/2; /2]] in full_column_rank 2 D /\ rows 2 D /\ valid (fun _ => 2%nat) 2 D.
Proof.
  cbv zeta. split; [|split].
  - intros w L H. destruct w as [|a [|b [|? ?]]]; try discriminate.
    pose proof (H [0; 1] ltac:(simpl; auto)) as A. pose proof (H [1; 0] ltac:(simpl; auto)) as B. simpl in A, B.
    unfold zeros. simpl. f_equal; [lra|]. f_equal; lra.
  - repeat constructor.
  - split; [reflexivity|]. destruct (@score_spec [[0; 1]; [1; 0]; [/2; /2]]) as [s [_ S]]; [discriminate|]. exists s. split; [exact S|].
    destruct S as [_ [[-> _]|[i [j [Hi [Hj [Hij ->]]]]]]]; [reflexivity|]. simpl in Hi, Hj. cbn [xlt].
    assert (K : 0 < edist (nth i [[0; 1]; [1; 0]; [/2; /2]] []) (nth j [[0; 1]; [1; 0]; [/2; /2]] [])).
    { unfold edist. apply sqrt_lt_R0. destruct i as [|[|[|i]]], j as [|[|[|j]]]; try lia; simpl; lra. }
    destruct Rlt_dec; [reflexivity|contradiction].
Qed.
Print Assumptions C42_slhd.
Print Assumptions C43_two_factorial.
Print Assumptions C44_slhd_feasible.
