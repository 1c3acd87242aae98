(** * progress_plot (utils.py:151-197): what is drawn for the records of a controller.

    matplotlib is only represented by whether it can be imported and by the one check of ylim that
    depends on the data: the limits have to be finite numbers. *)
From Coq Require Import List Arith Lia Bool Reals Lra.
Import ListNotations.
Local Open Scope R_scope.

(** A value stored in a record of controller.fevals: a finite float, inf, or None (no value: the
    evaluation was killed, is still running or crashed), utils.py:181. *)
Inductive rvalue : Type := VFin (r : R) | VInf | VNone.

(** The two curves and the limits of the vertical axis, utils.py:186-192: the points, the running
    minimum, and the limits. *)
Record picture : Type := mkPicture {
  dots : list (option R);          (* None: inf, a point that is not drawn *)
  best_line : list (option R);
  y_low : R;
  y_high : R
}.

(** Outcome of progress_plot, utils.py:165-197: a picture, the message of line 177 and a return, or an
    exception. *)
Inductive outcome : Type :=
| Drawn (p : picture)
| Message
| RaisesImportError
| RaisesValueError.

(** o.value for o in controller.fevals if o.value is not None, utils.py:181. *)
Fixpoint fvals (l : list rvalue) : list (option R) :=
  match l with
  | [] => []
  | VFin r :: l' => Some r :: fvals l'
  | VInf :: l' => None :: fvals l'
  | VNone :: l' => fvals l'
  end.

(** np.minimum of two values, None = inf: utils.py:187, 190. *)
Definition omin (a b : option R) : option R :=
  match a, b with
  | Some x, Some y => Some (Rmin x y)
  | Some x, None => Some x
  | None, _ => b
  end.
(** np.maximum of two values, None = inf: utils.py:191. *)
Definition omax (a b : option R) : option R :=
  match a, b with Some x, Some y => Some (Rmax x y) | _, _ => None end.

(** np.minimum.accumulate, utils.py:187. *)
Fixpoint accumulate (m : option R) (l : list (option R)) : list (option R) :=
  match l with [] => [] | v :: l' => omin m v :: accumulate (omin m v) l' end.

(** progress_plot, utils.py:165-197.  [mpl]: "import matplotlib.pyplot" succeeds.  The try statement
    has a finally clause and no except clause, so a failing import leaves the function. *)
Definition progress_plot (mpl : bool) (records : list rvalue) : outcome :=
  if negb mpl then RaisesImportError
  else match fvals records with
       | [] => RaisesValueError                               (* np.min of an empty array *)
       | v :: l =>
         let ymin := fold_left omin l v in
         let ymax := fold_left omax l v in
         match ymin, ymax with
         | Some a, Some b =>
             Drawn (mkPicture (v :: l) (accumulate None (v :: l)) (a - 1/10 * (b - a)) (b + 1/10 * (b - a)))
         | _, _ => RaisesValueError                           (* ylim with inf or nan *)
         end
       end.

(** ** Specification *)
(** The record has a value. *)
(** Specification, no counterpart in /repo. *)
Definition completed (v : rvalue) : bool := match v with VNone => false | _ => true end.
(** Specification, no counterpart in /repo: the finite value drawn for a completed record. *)
Definition drawn_as (v : rvalue) : option R := match v with VFin r => Some r | _ => None end.

(** Specification, no counterpart in /repo: [m] is the least of the values [l]. *)
Definition least (m : R) (l : list R) : Prop := In m l /\ forall x, In x l -> m <= x.

(** ** Proofs *)
Lemma fvals_filter : forall l, fvals l = map drawn_as (filter completed l).
Proof. induction l as [|[r| |] l IH]; simpl; congruence. Qed.

Lemma fvals_fin : forall l, (forall v, In v l -> v <> VInf) ->
  exists rs, fvals l = map Some rs /\ filter completed l = map VFin rs.
Proof.
  intros l. induction l as [|[r| |] l IH]; intros H; simpl.
  - exists []. auto.
  - destruct IH as [rs [A B]]; [intros; apply H; right; assumption|]. exists (r :: rs). simpl. rewrite A, B. auto.
  - exfalso. apply (H VInf); [left|]; reflexivity.
  - apply IH. intros; apply H; right; assumption.
Qed.

Lemma fold_min : forall l a, fold_left omin (map Some l) (Some a) = Some (fold_left Rmin l a).
Proof. induction l as [|b l IH]; intros a; simpl; auto. Qed.
Lemma fold_max : forall l a, fold_left omax (map Some l) (Some a) = Some (fold_left Rmax l a).
Proof. induction l as [|b l IH]; intros a; simpl; auto. Qed.
Lemma rmin_least : forall l a, least (fold_left Rmin l a) (a :: l).
Proof.
  induction l as [|b l IH]; intros a; simpl; [split; [left; reflexivity|intros x [<-|[]]; lra]|].
  destruct (IH (Rmin a b)) as [A B]. split.
  - destruct A as [A|A]; [|right; right; exact A]. rewrite <- A. unfold Rmin. destruct (Rle_dec a b); simpl; auto.
  - pose proof (B _ (or_introl eq_refl)). pose proof (Rmin_l a b). pose proof (Rmin_r a b).
    intros x [<-|[<-|Hx]]; [lra|lra|apply B; right; exact Hx].
Qed.
Lemma rmax_most : forall l a, In (fold_left Rmax l a) (a :: l) /\ forall x, In x (a :: l) -> x <= fold_left Rmax l a.
Proof.
  induction l as [|b l IH]; intros a; simpl; [split; [left; reflexivity|intros x [<-|[]]; lra]|].
  destruct (IH (Rmax a b)) as [A B]. split.
  - destruct A as [A|A]; [|right; right; exact A]. rewrite <- A. unfold Rmax. destruct (Rle_dec a b); simpl; auto.
  - pose proof (B _ (or_introl eq_refl)). pose proof (Rmax_l a b). pose proof (Rmax_r a b).
    intros x [<-|[<-|Hx]]; [lra|lra|apply B; right; exact Hx].
Qed.

Lemma accumulate_fin : forall l a, accumulate (Some a) (map Some l) =
  map (fun k => Some (fold_left Rmin (firstn (S k) l) a)) (seq 0 (length l)).
Proof.
  induction l as [|b l IH]; intros a; [reflexivity|]. cbn [map accumulate omin length seq].
  rewrite IH. f_equal. rewrite <- seq_shift, map_map. apply map_ext. intros k. reflexivity.
Qed.

(** C76. When every completed evaluation has a finite value (and there is one), the plot shows the
    completed evaluations in the order of the controller; the k-th point of the line is the least value
    among the first k+1 of them; all points lie within the limits of the axis. *)
Theorem C76_plot_contents : forall records, (forall v, In v records -> v <> VInf) ->
  existsb completed records = true ->
  exists rs p, filter completed records = map VFin rs /\ progress_plot true records = Drawn p /\
    dots p = map Some rs /\ length (best_line p) = length rs /\
    (forall k, (k < length rs)%nat -> exists m, nth_error (best_line p) k = Some (Some m) /\ least m (firstn (S k) rs)) /\
    (forall x, In x rs -> y_low p <= x <= y_high p).
Proof.
  intros records H HE. destruct (fvals_fin records H) as [rs [A B]]. exists rs.
  destruct rs as [|r rs].
  - exfalso. apply existsb_exists in HE. destruct HE as [v [V1 V2]].
    assert (K : In v (filter completed records)) by (apply filter_In; auto). rewrite B in K. exact K.
  - unfold progress_plot. cbn [negb]. rewrite A. cbn [map]. rewrite fold_min, fold_max.
    eexists. split; [exact B|]. split; [reflexivity|]. cbn [dots best_line y_low y_high].
    split; [reflexivity|]. cbn [accumulate omin]. rewrite accumulate_fin.
    split; [simpl; rewrite map_length, seq_length; reflexivity|]. split.
    + intros [|k] Hk.
      * exists r. split; [reflexivity|]. split; [left; reflexivity|]. intros x [<-|[]]. lra.
      * cbn [nth_error]. assert (Hk' : (k < length rs)%nat) by (simpl in Hk; lia).
        exists (fold_left Rmin (firstn (S k) rs) r). split; [|exact (rmin_least (firstn (S k) rs) r)].
        rewrite nth_error_map. rewrite (nth_error_nth' _ 0%nat) by (rewrite seq_length; exact Hk').
        rewrite seq_nth by exact Hk'. reflexivity.
    + destruct (rmin_least rs r) as [_ M]. destruct (rmax_most rs r) as [_ X]. intros x Hx.
      pose proof (M x Hx). pose proof (X x Hx). lra.
Qed.

Lemma fold_max_none : forall l, fold_left omax l None = None.
Proof. induction l as [|[b|] l IH]; simpl; auto. Qed.
Lemma fold_max_inf : forall l a, In None l -> fold_left omax l a = None.
Proof.
  induction l as [|b l IH]; intros a H; [destruct H|]. simpl. destruct H as [->|H].
  - replace (omax a None) with (@None R) by (destruct a; reflexivity). apply fold_max_none.
  - apply IH, H.
Qed.

(** C76. It draws exactly when matplotlib can be imported, some evaluation is completed and all completed
    values are finite; otherwise it raises, and the message announced in its documentation for a
    missing matplotlib is never printed. *)
Theorem C76_when_drawn_partial : forall mpl records,
  ((exists p, progress_plot mpl records = Drawn p) <->
   (mpl = true /\ existsb completed records = true /\ (forall v, In v records -> v <> VInf))) /\
  (forall e, progress_plot mpl records = e -> e <> Message) /\
  (mpl = true -> existsb completed records = false -> progress_plot mpl records = RaisesValueError) /\
  (mpl = true -> In VInf records -> progress_plot mpl records = RaisesValueError).
Proof.
  intros mpl records.
  assert (INF : mpl = true -> In VInf records -> progress_plot mpl records = RaisesValueError).
  { intros -> HI. unfold progress_plot. cbn [negb]. rewrite fvals_filter.
    assert (K : In None (map drawn_as (filter completed records))).
    { apply in_map_iff. exists VInf. split; [reflexivity|]. apply filter_In. auto. }
    destruct (map drawn_as (filter completed records)) as [|v l]; [destruct K|].
    assert (E : fold_left omax l v = None).
    { destruct K as [->|K]; [apply fold_max_none|apply fold_max_inf, K]. }
    rewrite E. destruct (fold_left omin l v); reflexivity. }
  assert (EMP : mpl = true -> existsb completed records = false -> progress_plot mpl records = RaisesValueError).
  { intros -> HE. unfold progress_plot. cbn [negb]. rewrite fvals_filter.
    assert (K : filter completed records = []).
    { clear INF. induction records as [|v l IH]; [reflexivity|]. simpl in *. apply orb_false_iff in HE. destruct HE as [-> HE]. auto. }
    rewrite K. reflexivity. }
  split; [|split; [|split; [exact EMP|exact INF]]].
  - split.
    + intros [p Hp]. destruct mpl; [|discriminate Hp]. split; [reflexivity|]. split.
      * destruct (existsb completed records) eqn:E; [reflexivity|]. rewrite EMP in Hp by reflexivity. discriminate Hp.
      * intros v Hv ->. rewrite INF in Hp by (auto; reflexivity). discriminate Hp.
    + intros [-> [HE HI]]. destruct (C76_plot_contents records HI HE) as [rs [p [_ [Hp _]]]]. exists p. exact Hp.
  - intros e <-. unfold progress_plot. destruct mpl; [|discriminate]. cbn [negb].
    destruct (fvals records) as [|v l]; [discriminate|]. destruct (fold_left omin l v), (fold_left omax l v); discriminate.
Qed.

(** The documentation says that without matplotlib the method terminates with a message: it raises. *)
Theorem C76_missing_matplotlib_refuted : forall records, progress_plot false records = RaisesImportError.
Proof. reflexivity. Qed.

Example ex_C76 : let records := [VFin 3; VNone; VFin 1; VFin 2] in
  (forall v, In v records -> v <> VInf) /\ existsb completed records = true /\
  fvals records = [Some 3; Some 1; Some 2].
Proof. split; [|split; reflexivity]. intros v [<-|[<-|[<-|[<-|[]]]]]; discriminate. Qed.
