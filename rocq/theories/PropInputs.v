(** * C53, C54: argument checking *)
From Coq Require Import List Arith ZArith Lia Bool Reals Lra Permutation.
From Verif Require Import Base Box Lin Problems ProblemSpec Inputs.
Import ListNotations.

Set Implicit Arguments.

(** ** Specification *)
(** 0, 1, ..., d - 1 *)
Definition indices (d : nat) : list Z := map Z.of_nat (seq 0 d).

(** A well-formed problem: bounds of length dim with lb < ub, and cont_var / int_var partition the
    variables 0..dim-1 (each variable in exactly one of them, once).  An index set is a numpy array,
    or an empty list. *)
Definition idx_wf (v : idx) (l : list Z) : Prop := v = IArr l \/ (v = IList [] /\ l = []).
Definition bounds_wf (d : nat) (o : object) : Prop :=
  o_is_problem o = true /\ o_dim o = NInt (Z.of_nat d) /\
  exists lb ub, o_lb o = Arr lb /\ o_ub o = Arr ub /\ length lb = d /\ length ub = d /\
    forall i, (i < d)%nat -> (nth i lb 0 < nth i ub 0)%R.
Definition problem_wf (o : object) : Prop :=
  exists d c n, bounds_wf d o /\ idx_wf (o_cont o) c /\ idx_wf (o_int o) n /\ Permutation (c ++ n) (indices d).

(** ** Proofs *)
Lemma raise_ok : forall b e u, raise_if b e = Ok u -> b = false.
Proof. intros [] e u H; [discriminate|reflexivity]. Qed.
Lemma bind_ok : forall A B (r : res A) (k : A -> res B) b, (do x <- r; k x) = Ok b -> exists a, r = Ok a /\ k a = Ok b.
Proof. intros A B [a|e] k b H; [exists a; auto|discriminate]. Qed.
Lemma Rltb_lt : forall a b, Rltb a b = true <-> (a < b)%R.
Proof. intros a b. unfold Rltb. destruct (Rlt_dec a b); split; intros; auto; discriminate. Qed.

Lemma kind_ok : forall v u, check_kind v = Ok u -> exists l, idx_wf v l /\ idx_vals v = l.
Proof.
  intros [l|l|] u H; unfold check_kind in H; cbn [idx_len rbind] in H.
  - exists l. split; [left; reflexivity|reflexivity].
  - destruct l as [|z l]; [exists []; split; [right; auto|reflexivity]|]. cbn in H. discriminate.
  - discriminate.
Qed.
Lemma idx_wf_vals : forall v l, idx_wf v l -> idx_vals v = l /\ check_kind v = Ok tt /\ idx_len v = Ok (Z.of_nat (length l)).
Proof.
  intros v l [->|[-> ->]]; (split; [reflexivity|]); (split; [|reflexivity]).
  - unfold check_kind. cbn [idx_len rbind]. rewrite andb_false_r. reflexivity.
  - reflexivity.
Qed.
Lemma range_ok : forall d v l u, idx_wf v l -> check_range d v = Ok u -> forall z, In z l -> (0 <= z < d)%Z.
Proof.
  intros d v l u W H z Hz. destruct (idx_wf_vals W) as (E & _ & L). unfold check_range in H. rewrite L in H. cbn [rbind] in H. apply raise_ok in H.
  rewrite E in H. assert (N : (0 <? Z.of_nat (length l))%Z = true).
  { apply Z.ltb_lt. destruct l; [destruct Hz|]. simpl. lia. }
  rewrite N in H. cbn [andb] in H. apply negb_false_iff, andb_prop in H. destruct H as [H1 H2]. rewrite forallb_forall in H1, H2.
  specialize (H1 z Hz). specialize (H2 z Hz). apply Z.ltb_lt in H1. apply Z.leb_le in H2. lia.
Qed.
Lemma range_pass : forall d v l, idx_wf v l -> (forall z, In z l -> (0 <= z < d)%Z) -> check_range d v = Ok tt.
Proof.
  intros d v l W H. destruct (idx_wf_vals W) as (E & _ & L). unfold check_range. rewrite L. cbn [rbind]. rewrite E.
  assert (A : forallb (fun z => (z <? d)%Z) l = true) by (apply forallb_forall; intros z Hz; apply Z.ltb_lt; apply H; exact Hz).
  assert (B : forallb (fun z => (0 <=? z)%Z) l = true) by (apply forallb_forall; intros z Hz; apply Z.leb_le; apply H; exact Hz).
  rewrite A, B. rewrite andb_false_r. reflexivity.
Qed.

(** What check_opt_prob establishes. *)
Theorem C53_accepted_partial : forall o, check_opt_prob o = Ok tt ->
  exists d c n, bounds_wf d o /\ idx_wf (o_cont o) c /\ idx_wf (o_int o) n /\
    (length c + length n = d)%nat /\ incl (c ++ n) (indices d) /\ (forall z, In z c -> ~ In z n) /\
    (NoDup c -> NoDup n -> Permutation (c ++ n) (indices d)).
Proof.
  intros o H. unfold check_opt_prob in H.
  apply bind_ok in H. destruct H as ([] & HP & H). apply raise_ok in HP. apply negb_false_iff in HP.
  apply bind_ok in H. destruct H as ([] & HD & H).
  destruct (o_lb o) as [lb|] eqn:EL; [|discriminate]. destruct (o_ub o) as [ub|] eqn:EU; [|discriminate].
  destruct (o_dim o) as [d| | |] eqn:ED; try discriminate.
  apply bind_ok in H. destruct H as ([] & H1 & H). apply raise_ok in H1. apply negb_false_iff, andb_prop in H1. destruct H1 as [L1 L2].
  apply Z.eqb_eq in L1, L2.
  apply bind_ok in H. destruct H as ([] & H2 & H). apply raise_ok in H2. apply negb_false_iff in H2. rewrite forallb_forall in H2.
  apply bind_ok in H. destruct H as ([] & K1 & H). apply kind_ok in K1. destruct K1 as (c & Wc & Vc).
  apply bind_ok in H. destruct H as ([] & K2 & H). apply kind_ok in K2. destruct K2 as (n & Wn & Vn).
  apply bind_ok in H. destruct H as ([] & R1 & H). assert (R1' := @range_ok d (o_cont o) c tt Wc R1).
  apply bind_ok in H. destruct H as ([] & R2 & H). assert (R2' := @range_ok d (o_int o) n tt Wn R2).
  rewrite Vc, Vn in H. apply bind_ok in H. destruct H as ([] & D & H). apply raise_ok in D. apply raise_ok in H.
  apply negb_false_iff, Z.eqb_eq in H.
  exists (length lb), c, n.
  assert (INC : incl (c ++ n) (indices (length lb))).
  { intros z Hz. unfold indices. apply in_map_iff. exists (Z.to_nat z). rewrite in_seq. apply in_app_or in Hz.
    assert (0 <= z < d)%Z by (destruct Hz as [Hz|Hz]; auto). split; lia. }
  assert (DIS : forall z, In z c -> ~ In z n).
  { intros z Hc Hn. assert (X : existsb (fun z => existsb (Z.eqb z) n) c = true); [|rewrite X in D; discriminate].
    apply existsb_exists. exists z. split; [exact Hc|]. apply existsb_exists. exists z. split; [exact Hn|apply Z.eqb_refl]. }
  split; [|split; [exact Wc|split; [exact Wn|split; [lia|split; [exact INC|split; [exact DIS|]]]]]].
  - split; [exact HP|]. split; [rewrite ED; f_equal; lia|]. exists lb, ub. repeat (split; [assumption || reflexivity || lia|]).
    intros i Hi. apply Rltb_lt. apply H2. apply in_seq. lia.
  - intros N1 N2. assert (NA : NoDup (c ++ n)).
    { clear - N1 N2 DIS. induction N1 as [|z c Hz N1 IH]; [exact N2|]. simpl. constructor.
      - intros I. apply in_app_or in I. destruct I as [I|I]; [contradiction|]. apply (DIS z); [left; reflexivity|exact I].
      - apply IH. intros y Hy. apply DIS. right. exact Hy. }
    apply NoDup_Permutation_bis; [exact NA| |exact INC].
    unfold indices. rewrite map_length, seq_length, app_length. lia.
Qed.

(** Every well-formed problem is accepted. *)
Theorem C53_wellformed_accepted : forall o, problem_wf o -> check_opt_prob o = Ok tt.
Proof.
  intros o (d & c & n & (HP & ED & lb & ub & EL & EU & L1 & L2 & B) & Wc & Wn & PERM).
  assert (IN : forall z, In z (c ++ n) -> (0 <= z < Z.of_nat d)%Z).
  { intros z Hz. apply (Permutation_in _ PERM) in Hz. unfold indices in Hz. apply in_map_iff in Hz. destruct Hz as (k & <- & Hk).
    apply in_seq in Hk. lia. }
  assert (ND : NoDup (c ++ n)).
  { apply (Permutation_NoDup (Permutation_sym PERM)). unfold indices. apply FinFun.Injective_map_NoDup; [intros a b; lia|apply seq_NoDup]. }
  destruct (idx_wf_vals Wc) as (Vc & Kc & _). destruct (idx_wf_vals Wn) as (Vn & Kn & _).
  unfold check_opt_prob. rewrite HP, ED, EL, EU, L1, L2, !Z.eqb_refl. cbn [negb raise_if rbind andb].
  assert (F : forallb (fun i => Rltb (nth i lb 0%R) (nth i ub 0%R)) (seq 0 (Z.to_nat (Z.of_nat d))) = true).
  { apply forallb_forall. intros i Hi. apply in_seq in Hi. apply Rltb_lt. apply B. lia. }
  rewrite F, Kc, Kn. cbn [negb raise_if rbind].
  rewrite (@range_pass (Z.of_nat d) (o_cont o) c Wc) by (intros z Hz; apply IN; apply in_or_app; left; exact Hz).
  rewrite (@range_pass (Z.of_nat d) (o_int o) n Wn) by (intros z Hz; apply IN; apply in_or_app; right; exact Hz).
  cbn [rbind]. rewrite Vc, Vn.
  assert (X : existsb (fun z => existsb (Z.eqb z) n) c = false).
  { destruct (existsb _ c) eqn:E; [|reflexivity]. apply existsb_exists in E. destruct E as (z & Hc & E). apply existsb_exists in E.
    destruct E as (y & Hn & E). apply Z.eqb_eq in E. subst y. exfalso.
    clear - ND Hc Hn. induction c as [|a c IH]; [destruct Hc|]. simpl in ND. inversion ND; subst. destruct Hc as [->|Hc].
    - apply H1. apply in_or_app. right. exact Hn.
    - apply IH; assumption. }
  rewrite X. cbn [raise_if rbind].
  assert (LEN : (length c + length n = d)%nat).
  { rewrite <- app_length. rewrite (Permutation_length PERM). unfold indices. rewrite map_length, seq_length. reflexivity. }
  replace (Z.of_nat (length c) + Z.of_nat (length n))%Z with (Z.of_nat d) by lia. rewrite Z.eqb_refl. reflexivity.
Qed.

(** The converse fails: a repeated index is accepted although variable 1 is neither continuous nor
    integer. *)
Theorem C53_duplicates_refuted : exists o, check_opt_prob o = Ok tt /\ ~ problem_wf o.
Proof.
  exists {| o_is_problem := true; o_dim := NInt 2; o_lb := Arr [0; 0]%R; o_ub := Arr [1; 1]%R; o_cont := IArr []; o_int := IArr [0; 0]%Z |}.
  split.
  - unfold check_opt_prob. cbn. change (Pos.to_nat 2) with 2%nat. cbn. unfold Rltb. destruct (Rlt_dec 0 1); [reflexivity|exfalso; lra].
  - intros (d & c & n & (_ & ED & _) & Wc & Wn & PERM). cbn in *. inversion ED.
    assert (d = 2%nat) by lia. subst d.
    destruct Wc as [Wc|[Wc _]]; inversion Wc; subst c. destruct Wn as [Wn|[Wn _]]; inversion Wn; subst n.
    assert (I : In 1%Z (indices 2)) by (right; left; reflexivity).
    apply (Permutation_in _ (Permutation_sym PERM)) in I. simpl in I. intuition discriminate.
Qed.

(** Every benchmark problem, in every dimension, is well-formed and accepted. *)
Definition as_object (P : problem) : object :=
  {| o_is_problem := true; o_dim := NInt (Z.of_nat (q_dim P)); o_lb := Arr (q_lb P); o_ub := Arr (q_ub P);
     o_cont := IArr (map Z.of_nat (q_cont P)); o_int := IArr (map Z.of_nat (q_int P)) |}.
Lemma ones_nth' : forall c n i, (i < n)%nat -> nth i (ones c n) 0%R = c.
Proof. intros c n i. unfold ones. revert i. induction n as [|n IH]; intros i Hi; [lia|]. destruct i; [reflexivity|]. simpl. apply IH. lia. Qed.
Theorem C53_benchmarks_accepted : forall dim P, In P (benchmarks dim) -> problem_wf (as_object P) /\ check_opt_prob (as_object P) = Ok tt.
Proof.
  intros dim P HI.
  assert (G : forall d lo hi m xm f, (lo < hi)%R -> problem_wf (as_object (cont_problem d lo hi m xm f))).
  { intros d lo hi m xm f H. exists d, (indices d), []. split; [|split; [left; reflexivity|split; [left; reflexivity|rewrite app_nil_r; apply Permutation_refl]]].
    split; [reflexivity|]. split; [reflexivity|]. exists (ones lo d), (ones hi d). split; [reflexivity|]. split; [reflexivity|].
    split; [apply repeat_length|]. split; [apply repeat_length|]. intros i Hi. rewrite !ones_nth' by exact Hi. exact H. }
  assert (problem_wf (as_object P)); [|split; [assumption|apply C53_wellformed_accepted; assumption]].
  pose proof PI_RGT_0 as HPI. cbn [benchmarks In] in HI.
  repeat (destruct HI as [E|HI]; [subst P; apply G; lra|]). destruct HI.
Qed.

(** ** C54 *)
(** Synchronous mode without a batch size is refused by every strategy. *)
Theorem C54_batch_required : forall g, g_async g = false -> g_batch g = None ->
  base_check g <> Ok tt /\ sop_check g <> Ok tt /\ srbf_check g <> Ok tt /\ gp_check g <> Ok tt.
Proof.
  intros g Ha Hb. assert (B : base_check g <> Ok tt).
  { intros H. unfold base_check in H.
    do 4 (apply bind_ok in H; destruct H as ([] & _ & H)). apply bind_ok in H. destruct H as ([] & H & _). rewrite Ha, Hb in H. discriminate. }
  split; [exact B|]. split; [|split].
  - intros H. unfold sop_check in H. apply bind_ok in H. destruct H as ([] & H & _). auto.
  - intros H. unfold srbf_check in H. rewrite Ha, Hb in H. discriminate.
  - intros H. unfold gp_check in H. apply bind_ok in H. destruct H as ([] & H & _). auto.
Qed.

(** What an accepting constructor has established: the problem passed check_opt_prob, the surrogate and
    the design have the right class, synchronous mode has a batch size, and max_evals is an int or a
    float that is not both positive and at least num_pts. *)
Theorem C54_base_accepts_partial : forall g, base_check g = Ok tt <->
  (g_is_surrogate g = true /\ g_is_design g = true /\ check_opt_prob (g_prob g) = Ok tt /\
   (g_async g = false -> g_batch g <> None) /\
   ((exists z, g_max_evals g = NInt z) \/
    (exists r, g_max_evals g = NFloat r /\ (r <= 0 \/ r < IZR (g_num_pts g))%R))).
Proof.
  intros g. split.
  - intros H. unfold base_check in H.
    apply bind_ok in H; destruct H as ([] & H1 & H). apply bind_ok in H; destruct H as ([] & H2 & H).
    apply bind_ok in H; destruct H as ([] & H3 & H). apply bind_ok in H; destruct H as ([] & H4 & H).
    apply bind_ok in H; destruct H as ([] & H5 & H).
    apply raise_ok in H1, H2, H3, H5. apply negb_false_iff in H1, H2, H3.
    split; [exact H1|]. split; [exact H2|]. split; [exact H4|]. split.
    + intros E1 E2. rewrite E1, E2 in H5. discriminate.
    + destruct (g_max_evals g) as [z|r|z|] eqn:E; cbn in H; try discriminate; [left; exists z; reflexivity|].
      right. exists r. split; [reflexivity|]. unfold Rltb in H. destruct (Rlt_dec 0 r) as [L|L]; cbn in H; [|left; lra].
      destruct (Rlt_dec r (IZR (g_num_pts g))) as [L'|L']; [right; exact L'|discriminate].
  - intros (H1 & H2 & H4 & H5 & H6). unfold base_check. rewrite H1, H2, H4. cbn [negb raise_if rbind].
    assert (HP : o_is_problem (g_prob g) = true).
    { unfold check_opt_prob in H4. apply bind_ok in H4. destruct H4 as ([] & H4 & _). apply raise_ok in H4. apply negb_false_iff in H4. exact H4. }
    rewrite HP. cbn [negb raise_if rbind].
    assert (HB : negb (g_async g) && match g_batch g with Some _ => false | None => true end = false).
    { destruct (g_async g); [reflexivity|]. specialize (H5 eq_refl). destruct (g_batch g); [reflexivity|contradiction]. }
    rewrite HB. cbn [raise_if rbind].
    destruct H6 as [(z & E)|(r & E & L)]; rewrite E; cbn; [reflexivity|]. unfold Rltb.
    destruct (Rlt_dec 0 r) as [P|P]; cbn; [|reflexivity].
    destruct (Rlt_dec r (IZR (g_num_pts g))) as [P'|P']; [reflexivity|]. exfalso. destruct L; lra.
Qed.

Definition good_object : object :=
  {| o_is_problem := true; o_dim := NInt 2; o_lb := Arr [0; 0]%R; o_ub := Arr [1; 1]%R; o_cont := IArr [0]%Z; o_int := IArr [1]%Z |}.
Lemma good_ok : check_opt_prob good_object = Ok tt.
Proof.
  apply C53_wellformed_accepted. exists 2%nat, [0%Z], [1%Z]. split; [|split; [left; reflexivity|split; [left; reflexivity|apply Permutation_refl]]].
  split; [reflexivity|]. split; [reflexivity|]. exists [0; 0]%R, [1; 1]%R. do 4 (split; [reflexivity|]).
  intros i Hi. do 2 (destruct i as [|i]; [simpl; lra|]). lia.
Qed.
Definition args_of (me nc : num) (num_pts : Z) (async : bool) (batch : option Z) : args :=
  {| g_prob := good_object; g_is_design := true; g_num_pts := num_pts; g_is_surrogate := true; g_is_gp := true;
     g_async := async; g_batch := batch; g_max_evals := me; g_ncenters := nc; g_weights := None |}.

(** A negative budget, a budget smaller than the initial design and a float budget are accepted by
    every strategy. *)
Theorem C54_max_evals_refuted : exists num_pts, (0 < num_pts)%Z /\ forall me, In me [NInt (-5); NInt 1; NFloat (1/2)%R] ->
  let g := args_of me (NInt 4) num_pts true None in
  base_check g = Ok tt /\ sop_check g = Ok tt /\ srbf_check g = Ok tt /\ gp_check g = Ok tt.
Proof.
  exists 6%Z. split; [lia|]. intros me HI g.
  assert (B : base_check g = Ok tt).
  { apply C54_base_accepts_partial. split; [reflexivity|]. split; [reflexivity|]. split; [exact good_ok|]. split; [intros E; discriminate E|].
    destruct HI as [<-|[<-|[<-|[]]]]; [left; eexists; reflexivity|left; eexists; reflexivity|right; exists (1/2)%R; split; [reflexivity|simpl; lra]]. }
  split; [exact B|]. unfold sop_check, srbf_check, gp_check. rewrite B. split; [reflexivity|]. split; [|reflexivity].
  cbn [g_async g args_of rbind g_weights forallb]. unfold Rltb.
  repeat (match goal with |- context [Rlt_dec ?a ?b] => destruct (Rlt_dec a b); [exfalso; lra|] end). reflexivity.
Qed.
(** So is a non-positive budget by RandomStrategy, and SOP accepts fewer than four centers. *)
Theorem C54_random_refuted : random_check good_object (NInt (-5)) = Ok tt.
Proof. unfold random_check. rewrite good_ok. reflexivity. Qed.
Theorem C54_ncenters_refuted : forall nc, In nc [NInt 1; NInt 0; NFloat (5/2)%R] ->
  sop_check (args_of (NInt 50) nc 6 true None) = Ok tt.
Proof.
  intros nc HI. assert (B : base_check (args_of (NInt 50) nc 6 true None) = Ok tt).
  { apply C54_base_accepts_partial. split; [reflexivity|]. split; [reflexivity|]. split; [exact good_ok|]. split; [intros E; discriminate E|].
    left. eexists. reflexivity. }
  unfold sop_check. rewrite B. cbn [rbind]. destruct HI as [<-|[<-|[<-|[]]]]; try reflexivity.
  cbn. unfold Rltb. destruct (Rlt_dec 3 (5/2)); [exfalso; lra|reflexivity].
Qed.
(** SOP in synchronous mode accepts exactly ncenters >= batch_size (and refuses floats above 3). *)
Theorem C54_sop_accepts_partial : forall g, sop_check g = Ok tt <->
  (base_check g = Ok tt /\
   ((exists z, g_ncenters g = NInt z /\ (g_async g = false -> forall p, g_batch g = Some p -> (p <= z)%Z)) \/
    (exists r, g_ncenters g = NFloat r /\ (r <= 3)%R /\ (g_async g = false -> forall p, g_batch g = Some p -> (IZR p <= r)%R)))).
Proof.
  intros g. split.
  - intros H. unfold sop_check in H. apply bind_ok in H. destruct H as ([] & HB & H). split; [exact HB|].
    apply bind_ok in H. destruct H as ([] & H1 & H).
    destruct (g_ncenters g) as [z|r|z|] eqn:E; cbn in H1; try discriminate.
    + left. exists z. split; [reflexivity|]. intros Ea p Eb. rewrite Ea, Eb in H. cbn in H. apply raise_ok in H. apply negb_false_iff, Z.leb_le in H. exact H.
    + right. exists r. split; [reflexivity|]. unfold Rltb in H1. destruct (Rlt_dec 3 r) as [L|L]; [discriminate|]. split; [lra|].
      intros Ea p Eb. rewrite Ea, Eb in H. cbn in H. unfold Rltb in H. destruct (Rlt_dec r (IZR p)); [discriminate|lra].
  - intros (HB & H). unfold sop_check. rewrite HB. cbn [rbind].
    assert (HN : g_async g = false -> g_batch g <> None) by (apply C54_base_accepts_partial in HB; apply HB).
    destruct H as [(z & E & H)|(r & E & L & H)]; rewrite E; cbn.
    + destruct (g_async g); [reflexivity|]. destruct (g_batch g) as [p|]; [|exfalso; apply HN; reflexivity].
      assert (K := H eq_refl p eq_refl). apply Z.leb_le in K. rewrite K. reflexivity.
    + unfold Rltb. destruct (Rlt_dec 3 r) as [L'|L']; [exfalso; lra|]. cbn.
      destruct (g_async g); [reflexivity|]. destruct (g_batch g) as [p|]; [|exfalso; apply HN; reflexivity].
      assert (K := H eq_refl p eq_refl). destruct (Rlt_dec r (IZR p)); [exfalso; lra|reflexivity].
Qed.
Example ex_C54 : base_check (args_of (NInt 50) (NInt 4) 6 false (Some 4%Z)) = Ok tt /\
  base_check (args_of (NInt 50) (NInt 4) 6 false None) = Err ValueError /\ base_check (args_of (NFloat 50) (NInt 4) 6 true None) = Err ValueError /\
  sop_check (args_of (NInt 50) (NInt 4) 6 false (Some 5%Z)) = Err ValueError.
Proof.
  unfold sop_check, base_check. cbn [g_prob args_of g_is_surrogate g_is_design o_is_problem good_object negb raise_if rbind g_async g_batch g_max_evals is_int g_num_pts gt0 ge g_ncenters andb].
  rewrite good_ok. cbn. unfold Rltb. split; [reflexivity|]. split; [reflexivity|]. split; [|reflexivity].
  destruct (Rlt_dec 0 50); [|exfalso; lra]. cbn. destruct (Rlt_dec 50 6); [exfalso; lra|reflexivity].
Qed.

(** SRBFStrategy and DYCORSStrategy accept exactly lists of weights between 0 and 1 (also the empty
    list) and, in synchronous mode, a batch size other than 0; EIStrategy and LCBStrategy accept
    exactly Gaussian processes as surrogates. *)
Theorem C54_srbf_accepts_partial : forall g, srbf_check g = Ok tt <->
  (base_check g = Ok tt /\ (g_async g = false -> g_batch g <> Some 0%Z) /\
   (forall ws, g_weights g = Some ws -> Forall (fun w => 0 <= w <= 1)%R ws)).
Proof.
  intros g. assert (W : forallb (fun w => negb (Rltb w 0) && negb (Rltb 1 w))
      match g_weights g with Some l => l | None => [3/10; 5/10; 8/10; 95/100]%R end = true <->
      (forall ws, g_weights g = Some ws -> Forall (fun w => 0 <= w <= 1)%R ws)).
  { assert (K : forall l, forallb (fun w => negb (Rltb w 0) && negb (Rltb 1 w)) l = true <-> Forall (fun w => 0 <= w <= 1)%R l).
    { intros l. rewrite forallb_forall, Forall_forall. split; intros H w Hw; specialize (H w Hw).
      - apply andb_prop in H. destruct H as [H1 H2]. apply negb_true_iff in H1, H2. unfold Rltb in *. destruct (Rlt_dec w 0), (Rlt_dec 1 w); try discriminate. lra.
      - unfold Rltb. destruct (Rlt_dec w 0), (Rlt_dec 1 w); try (exfalso; lra); reflexivity. }
    destruct (g_weights g) as [l|]; rewrite K; split.
    - intros H ws E. injection E as <-. exact H.
    - intros H. exact (H l eq_refl).
    - intros _ ws E. discriminate E.
    - intros _. repeat constructor; lra. }
  split.
  - intros H. unfold srbf_check in H. apply bind_ok in H. destruct H as ([] & H1 & H). apply bind_ok in H. destruct H as ([] & H2 & H). apply raise_ok in H2. apply negb_false_iff in H2.
    split; [exact H|]. split; [|apply W; exact H2]. intros Ea Eb. rewrite Ea, Eb in H1. discriminate.
  - intros (HB & H1 & H2). apply W in H2. unfold srbf_check. rewrite H2, HB.
    assert (HN : g_async g = false -> g_batch g <> None) by (apply C54_base_accepts_partial in HB; apply HB).
    destruct (g_async g); [reflexivity|]. destruct (g_batch g) as [p|]; [|exfalso; apply HN; reflexivity].
    destruct (Z.eqb_spec p 0) as [->|]; [exfalso; apply H1; reflexivity|]. reflexivity.
Qed.
Theorem C54_gp_required : forall g, gp_check g = Ok tt <-> base_check g = Ok tt /\ g_is_gp g = true.
Proof.
  intros g. unfold gp_check. split.
  - intros H. apply bind_ok in H. destruct H as ([] & H1 & H). apply raise_ok in H. apply negb_false_iff in H. auto.
  - intros [H1 H2]. rewrite H1, H2. reflexivity.
Qed.
