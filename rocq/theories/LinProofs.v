(** * Correctness of the linear algebra of Lin.v *)
From Coq Require Import List Arith ZArith Lia Bool Reals Lra Permutation.
From Verif Require Import Base Lin.
Import ListNotations.

Set Implicit Arguments.
Local Open Scope R_scope.

(** ** Sums *)
Lemma rsum_ext : forall n f g, (forall i, (i < n)%nat -> f i = g i) -> rsum n f = rsum n g.
Proof. induction n as [|n IH]; intros f g H; simpl; [reflexivity|]. rewrite (IH f g), (H n); auto. Qed.
Lemma rsum_0 : forall n f, (forall i, (i < n)%nat -> f i = 0) -> rsum n f = 0.
Proof. induction n as [|n IH]; intros f H; simpl; [reflexivity|]. rewrite IH, H; auto. ring. Qed.
Lemma rsum_plus : forall n f g, rsum n (fun i => f i + g i) = rsum n f + rsum n g.
Proof. induction n as [|n IH]; intros f g; simpl; [ring|]. rewrite IH. ring. Qed.
Lemma rsum_scal : forall n c f, rsum n (fun i => c * f i) = c * rsum n f.
Proof. induction n as [|n IH]; intros c f; simpl; [ring|]. rewrite IH. ring. Qed.
Lemma rsum_scal_r : forall n c f, rsum n (fun i => f i * c) = rsum n f * c.
Proof. induction n as [|n IH]; intros c f; simpl; [ring|]. rewrite IH. ring. Qed.
Lemma rsum_minus : forall n f g, rsum n (fun i => f i - g i) = rsum n f - rsum n g.
Proof. induction n as [|n IH]; intros f g; simpl; [ring|]. rewrite IH. ring. Qed.
Lemma rsum_swap : forall n m f, rsum n (fun i => rsum m (fun j => f i j)) = rsum m (fun j => rsum n (fun i => f i j)).
Proof.
  induction n as [|n IH]; intros m f; simpl.
  - symmetry. apply rsum_0. reflexivity.
  - rewrite IH, <- rsum_plus. reflexivity.
Qed.
Lemma rsum_split : forall m n f, rsum (n + m) f = rsum n f + rsum m (fun i => f (n + i)%nat).
Proof.
  induction m as [|m IH]; intros n f; simpl; [rewrite Nat.add_0_r; ring|].
  rewrite Nat.add_succ_r. simpl. rewrite IH. ring.
Qed.
Lemma rsum_one : forall n f k, (k < n)%nat -> (forall i, (i < n)%nat -> i <> k -> f i = 0) -> rsum n f = f k.
Proof.
  induction n as [|n IH]; intros f k Hk H; [lia|]. simpl. destruct (Nat.eq_dec k n) as [->|N].
  - rewrite rsum_0; [ring|]. intros i Hi. apply H; lia.
  - rewrite (IH f k); [rewrite (H n); [ring|lia|lia]|lia|]. intros i Hi Hn. apply H; [lia|exact Hn].
Qed.
Lemma rsum_head : forall n f, rsum (S n) f = f 0%nat + rsum n (fun i => f (S i)).
Proof. induction n as [|n IH]; intros f; [simpl; ring|]. change (rsum (S (S n)) f) with (rsum (S n) f + f (S n)). rewrite IH. simpl. ring. Qed.
Lemma rsum_rev : forall n f, rsum n f = rsum n (fun i => f (n - 1 - i)%nat).
Proof.
  induction n as [|n IH]; intros f; [reflexivity|]. rewrite rsum_head. simpl rsum. rewrite Nat.sub_0_r, Nat.sub_diag, IH, Rplus_comm. f_equal.
  apply rsum_ext. intros i Hi. f_equal. lia.
Qed.
(** a sum whose terms vanish from [k] on *)
Lemma rsum_cut : forall n k f, (k <= n)%nat -> (forall i, (k <= i < n)%nat -> f i = 0) -> rsum n f = rsum k f.
Proof.
  intros n k f Hk H. pose proof (rsum_split (n - k) k f) as E. replace (k + (n - k))%nat with n in E by lia. rewrite E.
  rewrite (@rsum_0 (n - k)); [ring|]. intros i Hi. apply H. lia.
Qed.

(** ** Triangular systems *)
Lemma zero_diag_spec : forall n A, zero_diag n A = false <-> forall i, (i < n)%nat -> A i i <> 0.
Proof.
  induction n as [|n IH]; intros A; simpl; [split; [intros _ i Hi; lia|reflexivity]|].
  destruct Req_EM_T as [E|E].
  - split; [discriminate|]. intros H. exfalso. apply (H n); [lia|exact E].
  - rewrite IH. split; intros H i Hi; [|apply H; lia]. destruct (Nat.eq_dec i n) as [->|]; [exact E|apply H; lia].
Qed.

Lemma forward_len : forall n A b, length (forward n A b) = n.
Proof. induction n as [|n IH]; intros; simpl; [reflexivity|]. rewrite app_length, IH. simpl. lia. Qed.

Lemma forward_prefix : forall n k A b i, (i < k)%nat -> (k <= n)%nat -> nth i (forward n A b) 0 = nth i (forward k A b) 0.
Proof.
  induction n as [|n IH]; intros k A b i Hi Hk; [lia|]. destruct (Nat.eq_dec k (S n)) as [->|N]; [reflexivity|].
  simpl. rewrite app_nth1; [apply IH; lia|]. rewrite forward_len. lia.
Qed.

(** Lower triangular: entries right of the diagonal are zero (for the indices below [n]). *)
Definition lower (n : nat) (A : mat) : Prop := forall i j, (i < n)%nat -> (j < n)%nat -> (i < j)%nat -> A i j = 0.
Definition upper (n : nat) (A : mat) : Prop := forall i j, (i < n)%nat -> (j < n)%nat -> (j < i)%nat -> A i j = 0.
Definition diag_ok (n : nat) (A : mat) : Prop := forall i, (i < n)%nat -> A i i <> 0.

Lemma forward_solves : forall n A b, lower n A -> diag_ok n A ->
  forall i, (i < n)%nat -> mulv n A (forward n A b) i = b i.
Proof.
  intros n A b HL HD i Hi. unfold mulv. rewrite (@rsum_cut n (S i)); [|lia|].
  2:{ intros j Hj. rewrite (HL i j); [ring|lia|lia|lia]. }
  simpl rsum. rewrite (@forward_prefix n (S i) A b i); [|lia|lia]. simpl forward. rewrite app_nth2; rewrite forward_len; [|lia].
  rewrite Nat.sub_diag. simpl nth.
  rewrite (rsum_ext _ (fun j => A i j * nth j (forward i A b) 0)).
  2:{ intros j Hj. rewrite (@forward_prefix n i A b j); [reflexivity|lia|lia]. }
  field. apply HD. exact Hi.
Qed.

Lemma solve_lower_spec : forall n A b, lower n A ->
  (diag_ok n A /\ exists x, solve_lower n A b = Ok x /\ length x = n /\ forall i, (i < n)%nat -> mulv n A x i = b i) \/
  (~ diag_ok n A /\ solve_lower n A b = Err OtherError).
Proof.
  intros n A b HL. unfold solve_lower. destruct (zero_diag n A) eqn:E.
  - right. split; [|reflexivity]. intros H. apply zero_diag_spec in H. congruence.
  - left. assert (E0 := proj1 (zero_diag_spec n A) E). clear E. rename E0 into E. split; [exact E|]. eexists. split; [reflexivity|]. split; [apply forward_len|]. apply forward_solves; assumption.
Qed.

Lemma solve_upper_spec : forall n A b, upper n A ->
  (diag_ok n A /\ exists x, solve_upper n A b = Ok x /\ length x = n /\ forall i, (i < n)%nat -> mulv n A x i = b i) \/
  (~ diag_ok n A /\ solve_upper n A b = Err OtherError).
Proof.
  intros n A b HU. unfold solve_upper. destruct (zero_diag n A) eqn:E.
  - right. split; [|reflexivity]. intros H. apply zero_diag_spec in H. congruence.
  - left. assert (E0 := proj1 (zero_diag_spec n A) E). clear E. rename E0 into E. split; [exact E|]. eexists. split; [reflexivity|].
    set (A' := fun i j => A (n - 1 - i)%nat (n - 1 - j)%nat). set (b' := fun i => b (n - 1 - i)%nat).
    split; [rewrite rev_length; apply forward_len|]. intros i Hi.
    assert (L' : lower n A') by (intros a c Ha Hc Hac; unfold A'; apply HU; lia).
    assert (D' : diag_ok n A') by (intros a Ha; unfold A'; apply E; lia).
    pose proof (@forward_solves n A' b' L' D' (n - 1 - i)%nat ltac:(lia)) as K. unfold mulv in K |- *.
    rewrite rsum_rev. unfold b' in K. replace (n - 1 - (n - 1 - i))%nat with i in K by lia. rewrite <- K.
    apply rsum_ext. intros j Hj. unfold A'. replace (n - 1 - (n - 1 - i))%nat with i by lia. f_equal.
    rewrite rev_nth; rewrite forward_len; [|lia]. f_equal. lia.
Qed.

(** ** Injectivity *)
(** [A x = 0] only for [x = 0]: the matrix is nonsingular. *)
Definition nonsingular (n : nat) (A : mat) : Prop :=
  forall x, length x = n -> (forall i, (i < n)%nat -> mulv n A x i = 0) -> forall i, (i < n)%nat -> nth i x 0 = 0.

Lemma lower_nonsingular : forall n A, lower n A -> diag_ok n A -> nonsingular n A.
Proof.
  intros n A HL HD x LX H i Hi. assert (K : forall k, (k <= n)%nat -> forall j, (j < k)%nat -> nth j x 0 = 0).
  2:{ apply (K n); lia. }
  induction k as [|k IH]; intros Hk j Hj; [lia|]. destruct (Nat.eq_dec j k) as [->|N]; [|apply IH; lia].
  specialize (H k ltac:(lia)). unfold mulv in H. rewrite (@rsum_one n _ k) in H; [|lia|].
  - destruct (Rmult_integral _ _ H) as [E|E]; [exfalso; apply (HD k); [lia|exact E]|exact E].
  - intros l Hl Hn. destruct (Nat.lt_ge_cases l k); [rewrite (IH ltac:(lia) l) by lia; ring|rewrite (HL k l); [ring|lia|lia|lia]].
Qed.

Lemma upper_nonsingular : forall n A, upper n A -> diag_ok n A -> nonsingular n A.
Proof.
  intros n A HU HD x LX H i Hi. assert (K : forall k, (k <= n)%nat -> forall j, (n - k <= j < n)%nat -> nth j x 0 = 0).
  2:{ apply (K n); lia. }
  induction k as [|k IH]; intros Hk j Hj; [lia|]. destruct (Nat.eq_dec j (n - S k)) as [->|N]; [|apply IH; lia].
  specialize (H (n - S k)%nat ltac:(lia)). unfold mulv in H. rewrite (@rsum_one n _ (n - S k)) in H; [|lia|].
  - destruct (Rmult_integral _ _ H) as [E|E]; [exfalso; apply (HD (n - S k)%nat); [lia|exact E]|exact E].
  - intros l Hl Hn. destruct (Nat.lt_ge_cases l (n - S k)); [rewrite (HU (n - S k)%nat l); [ring|lia|lia|lia]|rewrite (IH ltac:(lia) l) by lia; ring].
Qed.

(** An upper triangular matrix with a zero on its diagonal is singular. *)
Lemma upper_singular : forall n A, upper n A -> nonsingular n A -> diag_ok n A.
Proof.
  intros n A HU HN.
  assert (K : forall k, (k <= n)%nat -> forall i, (i < k)%nat -> A i i <> 0).
  2:{ intros i Hi. apply (K n); lia. }
  induction k as [|k IH]; intros Hk i Hi; [lia|]. destruct (Nat.eq_dec i k) as [->|N]; [|apply IH; lia].
  intros E.
  (* solve for the first k unknowns with x_k = 1 and zeros below *)
  assert (HUk : upper k A) by (intros a c Ha Hc Hac; apply HU; lia).
  destruct (@solve_upper_spec k A (fun a => - A a k) HUk) as [[_ [y [_ [LY Y]]]]|[C _]].
  2:{ apply C. intros a Ha. apply IH; lia. }
  set (x := y ++ 1 :: repeat 0 (n - S k)).
  assert (LX : length x = n). { unfold x. rewrite app_length. simpl. rewrite repeat_length. lia. }
  assert (X1 : forall j, (j < k)%nat -> nth j x 0 = nth j y 0) by (intros j Hj; unfold x; apply app_nth1; lia).
  assert (X2 : nth k x 0 = 1). { unfold x. rewrite app_nth2, LY, Nat.sub_diag; [reflexivity|lia]. }
  assert (X3 : forall j, (k < j)%nat -> nth j x 0 = 0).
  { intros j Hj. unfold x. rewrite app_nth2, LY by lia. destruct (j - k)%nat as [|m] eqn:Em; [lia|]. simpl. clear.
    generalize (n - S k)%nat as r. intros r. revert m. induction r as [|r IHr]; intros [|m]; simpl; auto. }
  assert (Z : nth k x 0 = 0).
  { apply HN; [exact LX| |lia]. intros a Ha. unfold mulv. rewrite (@rsum_cut n (S k)); [|lia|].
    2:{ intros j Hj. rewrite X3 by lia. ring. }
    simpl rsum. rewrite X2. destruct (Nat.lt_ge_cases a k) as [Hak|Hak].
    - rewrite (rsum_ext _ (fun j => A a j * nth j y 0)); [|intros j Hj; rewrite X1 by lia; reflexivity].
      specialize (Y a Hak). unfold mulv in Y. rewrite Y. ring.
    - rewrite rsum_0; [|intros j Hj; rewrite (HU a j); [ring|lia|lia|lia]].
      destruct (Nat.eq_dec a k) as [->|]; [rewrite E; ring|]. rewrite (HU a k); [ring|lia|lia|lia]. }
  lra.
Qed.

Lemma mulv_mulm : forall n A B x i, mulv n (mulm n A B) x i = rsum n (fun l => A i l * mulv n B x l).
Proof.
  intros n A B x i. unfold mulv, mulm.
  rewrite (rsum_ext _ (fun j => rsum n (fun l => A i l * (B l j * nth j x 0)))).
  - rewrite rsum_swap. apply rsum_ext. intros l Hl. apply rsum_scal.
  - intros j Hj. rewrite <- rsum_scal_r. apply rsum_ext. intros l Hl. ring.
Qed.

Definition of_fun (n : nat) (f : nat -> R) : list R := map f (seq 0 n).
Lemma of_fun_len : forall n f, length (of_fun n f) = n.
Proof. intros. unfold of_fun. rewrite map_length. apply seq_length. Qed.
Lemma of_fun_nth : forall n f i, (i < n)%nat -> nth i (of_fun n f) 0 = f i.
Proof.
  intros n f i Hi. unfold of_fun. rewrite (nth_indep _ 0 (f 0%nat)) by (rewrite map_length, seq_length; lia).
  rewrite map_nth, seq_nth by lia. reflexivity.
Qed.

(** ** Row permutations *)
(** [p] lists every index below [n] once. *)
Definition perm (n : nat) (p : list nat) : Prop := Permutation p (seq 0 n).

Lemma perm_len : forall n p, perm n p -> length p = n.
Proof. intros n p H. rewrite (Permutation_length H). apply seq_length. Qed.
Lemma perm_lt : forall n p i, perm n p -> (i < n)%nat -> (nth i p 0 < n)%nat.
Proof.
  intros n p i H Hi. assert (In (nth i p 0%nat) p) by (apply nth_In; rewrite (perm_len H); exact Hi).
  apply (Permutation_in _ H) in H0. apply in_seq in H0. lia.
Qed.
Lemma perm_onto : forall n p k, perm n p -> (k < n)%nat -> exists i, (i < n)%nat /\ nth i p 0%nat = k.
Proof.
  intros n p k H Hk. assert (In k p) by (apply (Permutation_in _ (Permutation_sym H)); apply in_seq; lia).
  destruct (In_nth _ _ 0%nat H0) as [i [Hi E]]. exists i. rewrite (perm_len H) in Hi. auto.
Qed.

(** [A] with its rows permuted is [L U], with [L] lower and [U] upper triangular. *)
Record factored (n : nat) (A L U : mat) (piv : list nat) : Prop := {
  f_perm : perm n piv;
  f_lower : lower n L;
  f_upper : upper n U;
  f_diag : diag_ok n L;
  f_eq : forall i j, (i < n)%nat -> (j < n)%nat -> A (nth i piv 0%nat) j = mulm n L U i j }.

Section Factored.
Variables (n : nat) (A L U : mat) (piv : list nat).
Hypothesis F : factored n A L U piv.

Lemma fac_mulv : forall x i, (i < n)%nat -> mulv n A x (nth i piv 0%nat) = rsum n (fun l => L i l * mulv n U x l).
Proof using F.
  intros x i Hi. rewrite <- mulv_mulm. unfold mulv. apply rsum_ext. intros j Hj. rewrite (f_eq F Hi Hj). reflexivity.
Qed.

Lemma fac_nonsingular : nonsingular n A <-> diag_ok n U.
Proof using F.
  split.
  - intros HN. apply upper_singular; [apply F|]. intros x LX H i Hi. apply HN; [exact LX| |exact Hi].
    intros k Hk. destruct (perm_onto (f_perm F) Hk) as [a [Ha <-]]. rewrite fac_mulv by exact Ha. apply rsum_0.
    intros l Hl. rewrite H by exact Hl. ring.
  - intros HD x LX H. apply (upper_nonsingular (f_upper F) HD); [exact LX|]. intros i Hi.
    pose proof (@lower_nonsingular n L (f_lower F) (f_diag F) (of_fun n (mulv n U x))) as K.
    rewrite <- (@of_fun_nth n (mulv n U x)) by exact Hi. apply K; [apply of_fun_len| |exact Hi]. intros a Ha.
    transitivity (mulv n A x (nth a piv 0%nat)); [|apply H; apply perm_lt; [apply F|exact Ha]].
    rewrite fac_mulv by exact Ha. unfold mulv at 1. apply rsum_ext. intros l Hl. rewrite of_fun_nth by exact Hl. reflexivity.
Qed.

(** The two triangular solves of rbf.py:150-151. *)
Lemma fac_solve : forall b, exists y, solve_lower n L (fun i => b (nth i piv 0%nat)) = Ok y /\ length y = n /\
  (nonsingular n A -> exists c, solve_upper n U (fun i => nth i y 0) = Ok c /\ length c = n /\
     forall i, (i < n)%nat -> mulv n A c i = b i) /\
  (~ nonsingular n A -> solve_upper n U (fun i => nth i y 0) = Err OtherError).
Proof using F.
  intros b. destruct (@solve_lower_spec n L (fun i => b (nth i piv 0%nat)) (f_lower F)) as [[_ [y [E [LY Y]]]]|[C _]]; [|exfalso; apply C; apply F].
  exists y. split; [exact E|]. split; [exact LY|].
  destruct (@solve_upper_spec n U (fun i => nth i y 0) (f_upper F)) as [[D [c [E2 [LC CC]]]]|[C E2]].
  - split; [|intros C; exfalso; apply C; apply fac_nonsingular; exact D]. intros _. exists c. split; [exact E2|]. split; [exact LC|].
    intros i Hi. destruct (perm_onto (f_perm F) Hi) as [a [Ha <-]]. rewrite fac_mulv by exact Ha. rewrite <- (Y a Ha). unfold mulv at 2.
    apply rsum_ext. intros l Hl. rewrite CC by exact Hl. reflexivity.
  - split; [|intros _; exact E2]. intros HN. exfalso. apply C. apply fac_nonsingular. exact HN.
Qed.
End Factored.

Lemma nonsingular_unique : forall n A x y, nonsingular n A -> length x = n -> length y = n ->
  (forall i, (i < n)%nat -> mulv n A x i = mulv n A y i) -> x = y.
Proof.
  intros n A x y HN LX LY H. apply (nth_ext _ _ 0 0); [congruence|]. rewrite LX. intros i Hi.
  assert (K : nth i (of_fun n (fun j => nth j x 0 - nth j y 0)) 0 = 0).
  { apply HN; [apply of_fun_len| |exact Hi]. intros a Ha. specialize (H a Ha). unfold mulv in *.
    rewrite (rsum_ext _ (fun j => A a j * nth j x 0 - A a j * nth j y 0)); [rewrite rsum_minus; lra|].
    intros j Hj. rewrite of_fun_nth by exact Hj. ring. }
  rewrite of_fun_nth in K by exact Hi. lra.
Qed.

(** ** lu_factor *)
Lemma pivot_row_spec : forall M k m, (k <= pivot_row M k m <= k + m)%nat /\
  forall i, (k <= i <= k + m)%nat -> Rabs (M i k) <= Rabs (M (pivot_row M k m) k).
Proof.
  intros M k m. induction m as [|m [IH1 IH2]].
  - simpl. split; [lia|]. intros i Hi. replace i with k by lia. lra.
  - cbn [pivot_row]. destruct Rlt_dec as [Hlt|Hge].
    + split; [lia|]. intros i Hi. destruct (Nat.eq_dec i (k + S m)) as [->|]; [lra|].
      specialize (IH2 i ltac:(lia)). lra.
    + split; [lia|]. intros i Hi. destruct (Nat.eq_dec i (k + S m)) as [->|]; [lra|]. apply IH2. lia.
Qed.

Lemma swapn_lt : forall n a b i, (a < n)%nat -> (b < n)%nat -> (i < n)%nat -> (swapn a b i < n)%nat.
Proof. intros n a b i Ha Hb Hi. unfold swapn. destruct (i =? a)%nat, (i =? b)%nat; assumption. Qed.
Lemma swapn_invol : forall a b i, swapn a b (swapn a b i) = i.
Proof.
  intros a b i. unfold swapn. destruct (Nat.eqb_spec i a) as [->|N1]; [|destruct (Nat.eqb_spec i b) as [->|N2]].
  - destruct (Nat.eqb_spec b a) as [->|]; [reflexivity|]. rewrite Nat.eqb_refl. reflexivity.
  - rewrite Nat.eqb_refl. reflexivity.
  - destruct (Nat.eqb_spec i a); [contradiction|]. destruct (Nat.eqb_spec i b); [contradiction|]. reflexivity.
Qed.

(** the accumulated row interchanges: row [i] of the permuted matrix is row [rowof sw i] of A *)
Definition rowof (sw : list nat) : nat -> nat :=
  fold_left (fun (f : nat -> nat) kp => fun i => f (swapn (fst kp) (snd kp) i)) (combine (seq 0 (length sw)) sw) (fun i => i).

Lemma combine_seq_snoc : forall (sw : list nat) p s, combine (seq s (length (sw ++ [p]))) (sw ++ [p]) =
  combine (seq s (length sw)) sw ++ [((s + length sw)%nat, p)].
Proof.
  induction sw as [|q sw IH]; intros p s; simpl; [rewrite Nat.add_0_r; reflexivity|].
  rewrite IH. f_equal. f_equal. f_equal. f_equal. lia.
Qed.

Lemma rowof_snoc : forall sw p i, rowof (sw ++ [p]) i = rowof sw (swapn (length sw) p i).
Proof. intros sw p i. unfold rowof. rewrite combine_seq_snoc, fold_left_app. reflexivity. Qed.

(** state after k steps *)
Definition Lf (M : mat) : mat := madd (tril1 M) eye.
Definition Uf (M : mat) : mat := triu M.

Definition lu_inv (n k : nat) (A M : mat) (sw : list nat) : Prop :=
  length sw = k /\ (forall p, In p sw -> (p < n)%nat) /\
  forall i j, (i < n)%nat -> (j < n)%nat ->
    A (rowof sw i) j = rsum (Nat.min k (S (Nat.min i j))) (fun l => Lf M i l * Uf M l j) + (if (Nat.min i j <? k)%nat then 0 else M i j).

Lemma Lf_low : forall M i l, (l < i)%nat -> Lf M i l = M i l.
Proof. intros M i l H. unfold Lf, madd, tril1, eye. destruct (Nat.ltb_spec l i); [|lia]. destruct (Nat.eqb_spec i l); [lia|]. ring. Qed.
Lemma Lf_diag : forall M i, Lf M i i = 1.
Proof. intros M i. unfold Lf, madd, tril1, eye. rewrite Nat.ltb_irrefl, Nat.eqb_refl. ring. Qed.
Lemma Lf_up : forall M i l, (i < l)%nat -> Lf M i l = 0.
Proof. intros M i l H. unfold Lf, madd, tril1, eye. destruct (Nat.ltb_spec l i); [lia|]. destruct (Nat.eqb_spec i l); [lia|]. ring. Qed.
Lemma Uf_up : forall M i l, (i <= l)%nat -> Uf M i l = M i l.
Proof. intros M i l H. unfold Uf, triu. destruct (Nat.leb_spec i l); [reflexivity|lia]. Qed.
Lemma Uf_low : forall M i l, (l < i)%nat -> Uf M i l = 0.
Proof. intros M i l H. unfold Uf, triu. destruct (Nat.leb_spec i l); [lia|reflexivity]. Qed.

(** swapping rows k and p >= k keeps the equation of the invariant *)
Lemma lu_swap : forall n k A M sw p, lu_inv n k A M sw -> (k <= p < n)%nat ->
  forall i j, (i < n)%nat -> (j < n)%nat ->
    A (rowof (sw ++ [p]) i) j =
    rsum (Nat.min k (S (Nat.min i j))) (fun l => Lf (swap_rows k p M) i l * Uf (swap_rows k p M) l j) +
    (if (Nat.min i j <? k)%nat then 0 else swap_rows k p M i j).
Proof.
  intros n k A M sw p [L [HB H]] Hp i j Hi Hj. rewrite rowof_snoc, L. rewrite H; [|apply swapn_lt; lia|exact Hj].
  assert (C : swapn k p i = i \/ (k <= i /\ k <= swapn k p i)%nat).
  { unfold swapn. destruct (Nat.eqb_spec i k) as [->|]; [right; lia|]. destruct (Nat.eqb_spec i p) as [->|]; [right; lia|left; reflexivity]. }
  assert (UE : forall l, (l < k)%nat -> Uf (swap_rows k p M) l j = Uf M l j).
  { intros l Hl. unfold Uf, triu, swap_rows. replace (swapn k p l) with l; [reflexivity|]. unfold swapn.
    destruct (Nat.eqb_spec l k); [lia|]. destruct (Nat.eqb_spec l p); [lia|reflexivity]. }
  destruct C as [E|[E1 E2]].
  - rewrite E. f_equal.
    + apply rsum_ext. intros l Hl. rewrite UE by lia. f_equal. unfold Lf, madd, tril1, swap_rows. rewrite E. reflexivity.
    + unfold swap_rows. rewrite E. reflexivity.
  - replace (Nat.min (swapn k p i) j <? k)%nat with (j <? k)%nat by (destruct (Nat.ltb_spec j k), (Nat.ltb_spec (Nat.min (swapn k p i) j) k); try reflexivity; lia).
    replace (Nat.min i j <? k)%nat with (j <? k)%nat by (destruct (Nat.ltb_spec j k), (Nat.ltb_spec (Nat.min i j) k); try reflexivity; lia).
    replace (Nat.min k (S (Nat.min (swapn k p i) j))) with (Nat.min k (S j)) by lia.
    replace (Nat.min k (S (Nat.min i j))) with (Nat.min k (S j)) by lia.
    f_equal. apply rsum_ext. intros l Hl. rewrite UE by lia. f_equal.
    rewrite !Lf_low by lia. reflexivity.
Qed.

Lemma lu_steps_inv : forall n A k, (k <= n)%nat -> let (M, sw) := lu_steps n k A in lu_inv n k A M sw.
Proof.
  intros n A k. induction k as [|k IH]; intros Hk.
  - simpl. split; [reflexivity|]. split; [intros p []|]. intros i j Hi Hj. change (Nat.min i j <? 0)%nat with false. simpl. unfold rowof. simpl. ring.
  - specialize (IH ltac:(lia)). cbn [lu_steps]. destruct (lu_steps n k A) as [M0 sw]. 
    destruct (@pivot_row_spec M0 k (n - 1 - k)) as [P1 P2]. set (p := pivot_row M0 k (n - 1 - k)) in *.
    pose proof (lu_swap IH (p := p) ltac:(lia)) as H. destruct IH as [L [HB _]].
    split; [rewrite app_length; simpl; lia|]. split.
    { intros q Hq. apply in_app_or in Hq. destruct Hq as [Hq|[<-|[]]]; [auto|lia]. }
    intros i j Hi Hj. rewrite H by assumption. set (M := swap_rows k p M0) in *.
    assert (ZP : M k k = 0 -> forall a, (k < a < n)%nat -> M a k = 0).
    { intros Z a Ha. assert (Z' : M0 p k = 0). { unfold M, swap_rows, swapn in Z. rewrite Nat.eqb_refl in Z. exact Z. }
      assert (G : forall b, (k <= b < n)%nat -> M0 b k = 0).
      { intros b Hb. specialize (P2 b ltac:(lia)). rewrite Z', Rabs_R0 in P2. pose proof (Rabs_pos (M0 b k)).
        destruct (Req_dec (M0 b k) 0) as [|NZ]; [assumption|]. pose proof (Rabs_pos_lt _ NZ). lra. }
      unfold M, swap_rows. apply G. unfold swapn. destruct (Nat.eqb_spec a k); [lia|]. destruct (Nat.eqb_spec a p); lia. }
    clearbody M. clear H P1 P2 HB L. clear M0 sw p.
    set (E := eliminate k M).
    assert (E1 : forall a b, (a <= k)%nat -> E a b = M a b).
    { intros a b Ha. unfold E, eliminate. destruct Req_EM_T; [reflexivity|]. destruct (Nat.ltb_spec k a); [lia|reflexivity]. }
    assert (E2 : forall a b, (b < k)%nat -> E a b = M a b).
    { intros a b Ha. unfold E, eliminate. destruct Req_EM_T; [reflexivity|]. destruct (Nat.ltb_spec k a); [|reflexivity].
      destruct (Nat.ltb_spec k b); [lia|]. destruct (Nat.eqb_spec b k); [lia|reflexivity]. }
    assert (S0 : forall m, (m <= k)%nat -> rsum m (fun l => Lf E i l * Uf E l j) = rsum m (fun l => Lf M i l * Uf M l j)).
    { intros m Hm. apply rsum_ext. intros l Hl. f_equal.
      - unfold Lf, madd, tril1. rewrite E2 by lia. reflexivity.
      - unfold Uf, triu. rewrite E1 by lia. reflexivity. }
    destruct (Nat.ltb_spec (Nat.min i j) k) as [H1|H1].
    + destruct (Nat.ltb_spec (Nat.min i j) (S k)); [|lia].
      replace (Nat.min (S k) (S (Nat.min i j))) with (Nat.min k (S (Nat.min i j))) by lia. rewrite S0 by lia. reflexivity.
    + replace (Nat.min k (S (Nat.min i j))) with k by lia. replace (Nat.min (S k) (S (Nat.min i j))) with (S k) by lia.
      cbn [rsum]. rewrite S0 by lia. destruct (Nat.ltb_spec (Nat.min i j) (S k)) as [H2|H2].
      * destruct (Nat.eq_dec i k) as [->|Ni].
        -- rewrite Lf_diag, Uf_up by lia. rewrite E1 by lia. ring.
        -- assert (j = k) by lia. subst j. rewrite Lf_low, Uf_up by lia. rewrite (E1 k k) by lia.
           unfold E, eliminate. destruct Req_EM_T as [Z|Z].
           ++ rewrite Z, (ZP Z i) by lia. ring.
           ++ destruct (Nat.ltb_spec k i); [|lia]. rewrite Nat.ltb_irrefl, Nat.eqb_refl. field. exact Z.
      * rewrite Lf_low, Uf_up by lia. rewrite (E1 k j) by lia. unfold E, eliminate. destruct Req_EM_T as [Z|Z].
        -- rewrite (ZP Z i) by lia. ring.
        -- destruct (Nat.ltb_spec k i); [|lia]. rewrite Nat.ltb_irrefl, Nat.eqb_refl. destruct (Nat.ltb_spec k j); [|lia]. field. exact Z.
Qed.

(** P A = L U with the interchanges applied one after the other *)
Lemma lu_factor_spec : forall n A, let (M, sw) := lu_factor n A in
  length sw = n /\ (forall p, In p sw -> (p < n)%nat) /\
  forall i j, (i < n)%nat -> (j < n)%nat -> A (rowof sw i) j = mulm n (Lf M) (Uf M) i j.
Proof.
  intros n A. unfold lu_factor. pose proof (@lu_steps_inv n A n (le_n n)) as H. destruct (lu_steps n n A) as [M sw].
  destruct H as [L [B H]]. split; [exact L|]. split; [exact B|]. intros i j Hi Hj. rewrite H by assumption.
  destruct (Nat.ltb_spec (Nat.min i j) n); [|lia]. rewrite Rplus_0_r. unfold mulm. symmetry. apply rsum_cut; [lia|].
  intros l Hl. destruct (Nat.lt_ge_cases i l); [rewrite Lf_up by assumption; ring|rewrite (@Uf_low M l j) by lia; ring].
Qed.

(** ** cholesky *)
Definition chol_inv (n k : nat) (A M C : mat) : Prop :=
  lower n C /\ (forall i, (i < k)%nat -> 0 < C i i) /\ (forall i j, (k <= j)%nat -> C i j = 0) /\
  forall i j, (i < n)%nat -> (j <= i)%nat -> A i j = rsum k (fun l => C i l * C j l) + (if (j <? k)%nat then 0 else M i j).

Lemma chol_steps_inv : forall n A k, (k <= n)%nat -> forall M C, chol_steps k A = Some (M, C) -> chol_inv n k A M C.
Proof.
  intros n A k. induction k as [|k IH]; intros Hk M C E.
  - simpl in E. injection E as <- <-. split; [intros i j _ _ _; reflexivity|]. split; [intros i Hi; lia|]. split; [reflexivity|].
    intros i j Hi Hj. simpl. ring.
  - cbn [chol_steps] in E. destruct (chol_steps k A) as [[M0 C0]|]; [|discriminate]. destruct Rlt_dec as [P|]; [|discriminate].
    injection E as <- <-. destruct (IH ltac:(lia) M0 C0 eq_refl) as [H1 [H2 [H3 H4]]]. clear IH.
    assert (SP : 0 < sqrt (M0 k k)) by (apply sqrt_lt_R0; exact P).
    assert (SS : sqrt (M0 k k) * sqrt (M0 k k) = M0 k k) by (apply sqrt_sqrt; lra).
    assert (OLD : forall i l, (l < k)%nat -> chol_col k M0 C0 i l = C0 i l).
    { intros i l Hl. unfold chol_col. destruct (Nat.eqb_spec l k); [lia|reflexivity]. }
    split; [|split; [|split]].
    + intros i j Hi Hj Hij. unfold chol_col. destruct (Nat.eqb_spec j k) as [->|].
      * destruct (Nat.ltb_spec i k); [reflexivity|lia].
      * apply H1; assumption.
    + intros i Hi. unfold chol_col. destruct (Nat.eqb_spec i k) as [->|].
      * rewrite Nat.ltb_irrefl. rewrite <- SS at 1. unfold Rdiv. rewrite Rmult_assoc, Rinv_r by lra. lra.
      * apply H2. lia.
    + intros i j Hj. unfold chol_col. destruct (Nat.eqb_spec j k); [lia|]. apply H3. lia.
    + intros i j Hi Hj. rewrite H4 by assumption. cbn [rsum].
      rewrite (@rsum_ext k (fun l => chol_col k M0 C0 i l * chol_col k M0 C0 j l) (fun l => C0 i l * C0 j l)).
      2:{ intros l Hl. rewrite !OLD by exact Hl. reflexivity. }
      rewrite Rplus_assoc. f_equal. unfold chol_col. rewrite Nat.eqb_refl.
      destruct (Nat.ltb_spec j k) as [Hjk|Hjk].
      * destruct (Nat.ltb_spec j (S k)); [|lia]. ring.
      * destruct (Nat.ltb_spec i k); [lia|]. destruct (Nat.ltb_spec j (S k)) as [H5|H5].
        -- assert (j = k) by lia. subst j. rewrite Rplus_0_r. replace (M0 k k / sqrt (M0 k k)) with (sqrt (M0 k k)); [field; lra|]. rewrite <- SS at 2. field. lra.
        -- unfold chol_sub. replace (M0 i k / sqrt (M0 k k) * (M0 j k / sqrt (M0 k k))) with (M0 i k * M0 j k / M0 k k).
           ++ ring.
           ++ rewrite <- SS at 1. field. lra.
Qed.

(** On success: C is lower triangular with positive diagonal and C C^T has the lower triangle of A *)
Lemma cholesky_spec : forall n A C, cholesky n A = Some C ->
  lower n C /\ (forall i, (i < n)%nat -> 0 < C i i) /\
  forall i j, (i < n)%nat -> (j <= i)%nat -> A i j = mulm n C (tr C) i j.
Proof.
  intros n A C H. unfold cholesky in H. destruct (chol_steps n A) as [[M C0]|] eqn:E; [|discriminate]. injection H as ->.
  destruct (@chol_steps_inv n A n (le_n n) M C E) as [H1 [H2 [_ H4]]]. split; [exact H1|]. split; [exact H2|].
  intros i j Hi Hj. rewrite H4 by assumption. destruct (Nat.ltb_spec j n); [|lia]. unfold mulm, tr. ring.
Qed.
