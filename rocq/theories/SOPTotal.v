(** * SOPStrategy in synchronous mode with batch_size = ncenters: no call raises (the positive
    part of C31).

    Legal schedules: every proposal is decided before the next call, no evaluation is killed,
    no resume, and the searches never return a point twice.  Each of these conditions is needed:
    see C31_*_refuted in ExSOP.v. *)
From Coq Require Import List Arith ZArith Lia Bool QArith Permutation.
From Verif Require Import Base PyList Strategy StrategySpec StrategyProofs StrategyInv StrategyInv2
  StrategyInv3 StrategyInv4 StrategyOps PropStrategy SRBF Pareto ParetoProofs SOP SOPProofs
  SOPCenters SOPInv PropSOP.
Import ListNotations.
Local Close Scope Q_scope.

Set Implicit Arguments.

Section Total.
Variable P : Type.
Variable c : cfg P val.
Variable dist : P -> P -> Q.
Variable tooclose : P -> P -> nat -> Q -> bool.
Variable ncenters : Z.
Variable design : res (list P).

Notation strategy := (sop_strategy c dist tooclose ncenters).
Notation proc := (proc P val (sop P)).
Notation base := (base P val).
Notation sop := (sop P).
Notation srec := (srec P).
Notation scen := (scen P).
Notation Reached := (reached c strategy design sop0).

(** ** The perturbation loop fills the free centers in order. *)
Lemma first_free_app : forall (done free : list scen), Forall (fun cn => n_new cn <> None) done ->
  first_free (done ++ free) = length done + first_free free.
Proof.
  intros done. induction done as [|a l IH]; intros free H; [reflexivity|]. inversion H; subst. simpl.
  destruct (n_new a); [|contradiction]. rewrite IH by assumption. reflexivity.
Qed.

Lemma upd_mid : forall A (l1 l2 : list A) a f, upd (l1 ++ a :: l2) (length l1) f = Ok (l1 ++ f a :: l2).
Proof. intros A l1. induction l1 as [|b l IH]; intros l2 a f; simpl; [reflexivity|]. rewrite IH. reflexivity. Qed.

Definition filled (free : list scen) (pts : list P) : list scen :=
  map (fun cy : scen * P => mkCen (n_xc (fst cy)) (n_index (fst cy)) (Some (snd cy)) (n_newidx (fst cy))) (combine free pts).

Lemma perturb_fill : forall (evals : list srec) o free i done acc,
  Forall (fun cn => n_new cn <> None) done -> Forall (fun cn => n_new cn = None) free ->
  Forall (fun cn => n_index cn < length evals) free ->
  (forall j x q, exists y, o j x q = Ok y) ->
  exists pts, length pts = length free /\
    perturb evals o (length free) i (done ++ free) acc = Ok (done ++ filled free pts, acc ++ pts).
Proof.
  intros evals o free. induction free as [|a free IH]; intros i done acc H1 H2 H3 Ho.
  - exists []. split; [reflexivity|]. simpl. rewrite !app_nil_r. reflexivity.
  - inversion H2; subst. inversion H3; subst. cbn [perturb length].
    rewrite first_free_app by assumption. cbn [first_free]. rewrite H4, Nat.add_0_r.
    unfold geti at 1. rewrite nth_error_app2, Nat.sub_diag by lia. cbn [nth_error rbind].
    unfold geti. destruct (nth_error evals (n_index a)) as [r|] eqn:Er; [|apply nth_error_None in Er; lia].
    cbn [rbind]. destruct (Ho i (n_xc a) (r_sigma r)) as [y ->]. cbn [rbind].
    rewrite upd_mid. cbn [rbind].
    destruct (IH (S i) (done ++ [mkCen (n_xc a) (n_index a) (Some y) (n_newidx a)]) (acc ++ [y])) as [pts [L E]]; auto.
    { apply Forall_app. split; [assumption|]. constructor; [discriminate|constructor]. }
    exists (y :: pts). split; [simpl; congruence|]. rewrite <- !app_assoc in E. cbn [app] in E. rewrite E. reflexivity.
Qed.

(** The same for a search that may raise: if the loop succeeds, this is its result. *)
Lemma perturb_fill_ok : forall (evals : list srec) o free i done acc cs pts,
  Forall (fun cn => n_new cn <> None) done -> Forall (fun cn => n_new cn = None) free ->
  perturb evals o (length free) i (done ++ free) acc = Ok (cs, pts) ->
  exists new, length new = length free /\ cs = done ++ filled free new /\ pts = acc ++ new.
Proof.
  intros evals o free. induction free as [|a free IH]; intros i done acc cs pts H1 H2 H.
  - exists []. simpl in H. injection H as <- <-. rewrite !app_nil_r. auto.
  - inversion H2; subst. cbn [perturb length] in H.
    rewrite first_free_app in H by assumption. cbn [first_free] in H. rewrite H4, Nat.add_0_r in H.
    unfold geti at 1 in H. rewrite nth_error_app2, Nat.sub_diag in H by lia. cbn [nth_error rbind] in H.
    apply rbind_ok in H. destruct H as [r [_ H]]. apply rbind_ok in H. destruct H as [y [_ H]].
    rewrite upd_mid in H. cbn [rbind] in H.
    destruct (IH (S i) (done ++ [mkCen (n_xc a) (n_index a) (Some y) (n_newidx a)]) (acc ++ [y]) cs pts) as [new [L [E1 E2]]]; auto.
    { apply Forall_app. split; [assumption|]. constructor; [discriminate|constructor]. }
    { rewrite <- app_assoc. exact H. }
    exists (y :: new). split; [simpl; congruence|]. rewrite E1, E2, <- !app_assoc. split; reflexivity.
Qed.

Lemma filled_new : forall free pts, length pts = length free -> map (@n_new P) (filled free pts) = map Some pts.
Proof.
  intros free. induction free as [|a free IH]; intros [|y pts] H; simpl in *; try discriminate; [reflexivity|].
  f_equal. apply IH. congruence.
Qed.
Lemma filled_length : forall free pts, length pts = length free -> length (filled free pts) = length free.
Proof. intros free pts H. unfold filled. rewrite map_length, combine_length. lia. Qed.
Lemma filled_idle : forall free pts cn, Forall (fun c : scen => n_newidx c = None) free ->
  In cn (filled free pts) -> n_newidx cn = None.
Proof.
  intros free pts cn H Hin. apply in_map_iff in Hin. destruct Hin as [[a y] [<- Hin]]. apply in_combine_l in Hin.
  rewrite Forall_forall in H. apply (H a Hin).
Qed.

(** ** propose_action of a strategy that never converges, synchronous mode. *)
Lemma propose_sync : c_async c = false -> forall (p : proc) d o,
  converged (p_s p) = false -> pending_evals (p_s p) = Z.of_nat (length (p_out p)) ->
  (exists ev, (ev = EvNone \/ ev = EvTerminate) /\
     exists out p', do_propose c strategy d o p = Ok (out, p') /\ p_e p' = p_e p /\ p_out p' = p_out p /\
       batch_queue (p_s p') = batch_queue (p_s p) /\ phase (p_s p') = phase (p_s p) /\ p_hist p' = p_hist p ++ [ev]) \/
  (exists q x, batch_queue (p_s p) = q ++ [x] /\
     exists out p', do_propose c strategy d o p = Ok (out, p') /\ p_e p' = p_e p /\
       p_out p' = p_out p ++ [mkOut (p_next p) (phase_kind (p_s p)) x None] /\
       batch_queue (p_s p') = q /\ phase (p_s p') = phase (p_s p) /\
       p_hist p' = p_hist p ++ [EvPropose (p_next p) (phase_kind (p_s p)) x]) \/
  (batch_queue (p_s p) = [] /\ p_out p <> [] /\
     exists out p', do_propose c strategy d o p = Ok (out, p') /\ p_e p' = p_e p /\ p_out p' = p_out p /\
       batch_queue (p_s p') = [] /\ phase (p_s p') = 2 /\ p_hist p' = p_hist p ++ [EvNone]) \/
  (batch_queue (p_s p) = [] /\ p_out p = [] /\
     exists s2, num_evals s2 = num_evals (p_s p) /\
       match hk_generate strategy (p_e p) s2 (c_batch c) o with
       | Err x => do_propose c strategy d o p = Err x
       | Ok (e', Some l) =>
         exists out p', do_propose c strategy d o p = Ok (out, p') /\ p_e p' = e' /\ phase (p_s p') = 2 /\
           ((l = [] /\ p_out p' = [] /\ batch_queue (p_s p') = [] /\
               p_hist p' = p_hist p ++ [EvGenerate (c_batch c) (Some l); EvNone]) \/
            exists q x, l = q ++ [x] /\ p_out p' = [mkOut (p_next p) KAdapt x None] /\ batch_queue (p_s p') = q /\
               p_hist p' = p_hist p ++ [EvGenerate (c_batch c) (Some l); EvPropose (p_next p) KAdapt x])
       | Ok (e', None) => True
       end).
Proof.
  intros Ha p d o Hc Hp. unfold do_propose, propose_action.
  set (s1 := check_termination c (p_s p)).
  assert (F : pending_evals s1 = pending_evals (p_s p) /\ converged s1 = false /\ batch_queue s1 = batch_queue (p_s p) /\
              phase s1 = phase (p_s p) /\ num_evals s1 = num_evals (p_s p)).
  { unfold s1, check_termination. destruct (_ <=? _)%Z; cbn; auto. }
  destruct F as [F1 [F2 [F3 [F4 F5]]]]. clearbody s1. rewrite F1, F2, F3, F4.
  destruct (terminate s1).
  { left. destruct (Z.eqb_spec (pending_evals (p_s p)) 0) as [E|E].
    - exists EvTerminate. split; [auto|]. cbn [rbind]. do 2 eexists. split; [reflexivity|]. cbn. auto.
    - exists EvNone. split; [auto|]. cbn [rbind]. do 2 eexists. split; [reflexivity|]. cbn. auto. }
  destruct (batch_queue (p_s p)) as [|q0 ql] eqn:Eq; cbn [nonempty].
  2:{ right; left. rewrite <- Eq in *. clear Hc.
      assert (Hne : batch_queue (p_s p) <> []) by (rewrite Eq; discriminate).
      destruct (exists_last Hne) as [q [x Ex]]. exists q, x. split; [exact Ex|].
      unfold init_proposal, adapt_proposal. rewrite F3, Ex, py_pop_snoc. unfold phase_kind.
      destruct (phase (p_s p) =? 1); cbn [rbind fst snd]; do 2 eexists; (split; [reflexivity|]); cbn; auto. }
  rewrite Ha. cbn [set_phase pending_evals]. rewrite F1.
  destruct (Z.eqb_spec (pending_evals (p_s p)) 0) as [E|E].
  - right; right; right. split; [reflexivity|]. split; [apply length_zero_iff_nil; lia|].
    exists (set_phase 2 s1). split; [exact F5|]. unfold do_generate.
    destruct (hk_generate strategy (p_e p) (set_phase 2 s1) (c_batch c) o) as [[e' [l|]]|x]; [|exact Logic.I|reflexivity].
    assert (L0 : p_out p = []) by (apply length_zero_iff_nil; lia).
    cbn [rbind fst snd set_batch_queue converged set_phase]. rewrite F2. cbn [andb].
    unfold adapt_proposal. cbn [batch_queue set_batch_queue set_phase]. rewrite F3. cbn [app].
    destruct l as [|l0 ll].
    + cbn [py_pop rbind fst snd]. do 2 eexists. split; [reflexivity|]. cbn. split; [reflexivity|]. split; [reflexivity|].
      left. auto.
    + assert (Hne : l0 :: ll <> []) by discriminate. destruct (exists_last Hne) as [q [x Ex]]. rewrite Ex, py_pop_snoc.
      cbn [rbind fst snd]. do 2 eexists. split; [reflexivity|]. cbn. split; [reflexivity|]. split; [reflexivity|].
      right. exists q, x. rewrite L0. auto.
  - right; right; left. split; [reflexivity|]. split; [intros K; rewrite K in Hp; simpl in Hp; lia|].
    cbn [rbind converged set_phase]. rewrite F2. cbn [andb]. unfold adapt_proposal. cbn [batch_queue set_phase]. rewrite F3.
    cbn [py_pop rbind fst snd]. do 2 eexists. split; [reflexivity|]. cbn. auto.
Qed.

(** ** The setting *)
Variable q0 : list P.

(** Every proposal is decided before the next call, nothing is killed or cancelled, no resume,
    and no point is put in the queue twice. *)
Definition calm (h : list (event P val)) : Prop :=
  count (@is_abort P val) h = 0 /\ count (@is_resume P val) h = 0 /\ protocol h /\
  NoDup (q0 ++ queued_later h).

Lemma NoDup_app_l : forall A (l l' : list A), NoDup (l ++ l') -> NoDup l.
Proof. intros A l. induction l as [|a l IH]; intros l' H; [constructor|]. inversion H; subst. constructor; [|eauto]. intros K. apply H2. apply in_or_app. auto. Qed.
Lemma NoDup_app_r : forall A (l l' : list A), NoDup (l ++ l') -> NoDup l'.
Proof. intros A l. induction l as [|a l IH]; intros l' H; [exact H|]. inversion H; subst. eauto. Qed.

Lemma calm_prefix : forall h evs, calm (h ++ evs) -> calm h.
Proof.
  intros h evs [A [B [C D]]]. unfold calm. rewrite count_app in A, B.
  split; [lia|]. split; [lia|]. split; [eapply protocol_prefix; exact C|].
  rewrite queued_later_app, app_assoc in D. eapply NoDup_app_l. exact D.
Qed.

Definition todo (p : proc) : list P := batch_queue (p_s p) ++ map (@o_x P) (p_out p).

Record Pre (p : proc) : Prop := mkPre {
  pre_F : s_F (p_e p) = None;
  pre_kind : forall o, In o (p_out p) -> o_kind o = KInit;
  pre_phase : phase (p_s p) = 1 \/
    (phase (p_s p) = 2 /\ batch_queue (p_s p) = [] /\ forall o, In o (p_out p) -> o_ev o <> None)
}.
Record Post (p : proc) : Prop := mkPost {
  post_phase : phase (p_s p) = 2;
  post_kind : forall o, In o (p_out p) -> o_kind o = KAdapt;
  post_two : 2 <= length (completed (p_hist p));
  post_ys : exists ys, map (@n_new P) (s_centers (p_e p)) = map Some ys /\ NoDup ys;
  post_idle : forall cn y, In cn (s_centers (p_e p)) -> n_new cn = Some y -> n_newidx cn = None -> In y (todo p);
  post_F : todo p = [] -> exists F, s_F (p_e p) = Some F /\ length F = length (s_evals (p_e p))
}.
Definition G (p : proc) : Prop :=
  (existsb (@is_gen P) (p_hist p) = false -> Pre p) /\ (existsb (@is_gen P) (p_hist p) = true -> Post p).

(** A step that changes neither the subclass state nor the work to do. *)
Lemma G_keep : forall (p p' : proc) evs, p_e p' = p_e p -> p_hist p' = p_hist p ++ evs ->
  existsb (@is_gen P) evs = false -> completed evs = [] ->
  phase (p_s p') = phase (p_s p) ->
  (forall x, In x (todo p) <-> In x (todo p')) ->
  (forall o, In o (p_out p') -> exists o', In o' (p_out p) /\ o_kind o = o_kind o') ->
  (phase (p_s p) = 2 -> existsb (@is_gen P) (p_hist p) = false -> batch_queue (p_s p) = [] ->
     (forall o, In o (p_out p) -> o_ev o <> None) ->
     batch_queue (p_s p') = [] /\ forall o, In o (p_out p') -> o_ev o <> None) ->
  G p -> G p'.
Proof.
  intros p p' evs E1 E2 E3 Ec E4 E5 E6 E7 [G1 G2]. unfold G. rewrite E2, existsb_app, E3, orb_false_r. split; intros Hg.
  - destruct (G1 Hg) as [A B C]. constructor; rewrite ?E1, ?E4; auto.
    + intros o Ho. destruct (E6 o Ho) as [o' [Ho' ->]]. auto.
    + destruct C as [C|[C [D E]]]; [left; exact C|right]. split; [exact C|]. apply E7; auto.
  - destruct (G2 Hg) as [A B T C D F]. constructor; rewrite ?E1, ?E4; auto.
    + intros o Ho. destruct (E6 o Ho) as [o' [Ho' ->]]. auto.
    + rewrite E2, completed_app, Ec, app_nil_r. exact T.
    + intros cn y H1 H2 H3. apply E5. eauto.
    + intros K. apply F. destruct (todo p) as [|x l] eqn:Et; [reflexivity|]. exfalso.
      assert (In x (todo p')) as Hx by (apply E5; left; reflexivity). rewrite K in Hx. destruct Hx.
Qed.

Hypothesis Hsync : c_async c = false.
Hypothesis Hb : Z.of_nat (c_batch c) = ncenters.
Hypothesis Hb0 : 0 < c_batch c.
Hypothesis Hm : c_max_evals c <> Z.of_nat (c_num_pts c).
Hypothesis Hpe : forall x y, c_peqb c x y = true <-> x = y.
Hypothesis Hd : forall x y, x <> y -> ~ (dist x y == 0)%Q.
Hypothesis Hq0 : forall s e, construct c strategy design sop0 = Ok (s, e) -> batch_queue s = q0.
Hypothesis Hq2 : 2 <= length q0.

Lemma given_up_calm : forall h, count (@is_abort P val) h = 0 -> given_up false h = [].
Proof.
  induction h as [|ev h IH]; intros H; [reflexivity|]. unfold count in *. simpl in H |- *.
  destruct ev as [| | | | | |? [] ?| |? [] ?| |]; simpl in *; try discriminate; auto.
Qed.

Lemma cons_calm : forall p, Reached p -> calm (p_hist p) ->
  Permutation (q0 ++ queued_later (p_hist p)) (todo p ++ map fst (completed (p_hist p))).
Proof using Hq0 Hsync.
  clear -Hq0 Hsync.
  intros p H [A [B _]]. destruct (@C08_queued_points_conserved_partial _ _ _ _ _ _ _ _ _ H B) as [s [e [H1 H2]]].
  rewrite (Hq0 H1) in H2. pose proof (Inv_reached H) as I. rewrite (inv_out I), map_map in H2. simpl in H2.
  rewrite Hsync, (given_up_calm _ A), app_nil_r in H2. unfold todo. rewrite <- app_assoc. exact H2.
Qed.

Lemma evals_points : forall p, SopInv c ncenters p -> map (@r_x P) (s_evals (p_e p)) = map fst (completed (p_hist p)).
Proof. intros p S. rewrite map_fst_xf, (si_arch S). reflexivity. Qed.

Lemma separated_of : forall evals : list srec, NoDup (map (@r_x P) evals) -> 2 <= length evals -> separated dist evals.
Proof using Hd.
  clear -Hd. intros evals N L r Hr. destruct evals as [|a [|b l]]; simpl in L; try lia.
  simpl in N. inversion N as [|? ? N1 N2]; subst. simpl in N1. destruct Hr as [<-|Hr].
  - exists b. split; [right; left; reflexivity|]. apply Hd. intros K. apply N1. left. congruence.
  - exists a. split; [left; reflexivity|]. apply Hd. intros K. apply N1. rewrite <- K. destruct Hr as [<-|Hr]; [left; reflexivity|].
    right. apply in_map. exact Hr.
Qed.

Lemma adjust_total : forall (s : base) (e : sop),
  num_evals s = Z.of_nat (length (s_evals e)) -> NoDup (map (@r_x P) (s_evals e)) -> 2 <= length (s_evals e) ->
  length (s_centers e) = Z.to_nat ncenters ->
  (forall cn, In cn (s_centers e) -> n_index cn < length (s_evals e) /\ exists k, n_newidx cn = Some k /\ k < length (s_evals e)) ->
  exists e', adjust_memory dist ncenters None s e = Ok e'.
Proof using Hd.
  clear -Hd. intros s e H1 H2 H3 H4 H5.
  assert (Hne : s_evals e <> []) by (intros K; rewrite K in H3; simpl in H3; lia).
  destruct (@update_ranks_total _ dist s e H1 Hne (@separated_of _ H2 H3)) as [F EF].
  destruct (update_ranks_ok _ _ _ EF) as [_ [_ [_ [_ [_ [_ [_ [_ [LF _]]]]]]]]].
  unfold adjust_memory. rewrite EF. cbn [rbind].
  assert (GET : forall i, In i (seq 0 (Z.to_nat ncenters)) -> exists cn, nth_error (s_centers e) i = Some cn /\ In cn (s_centers e)).
  { intros i Hi. apply in_seq in Hi. destruct (nth_error (s_centers e) i) as [cn|] eqn:E; [|apply nth_error_None in E; lia].
    exists cn. split; [reflexivity|]. eapply nth_error_In. exact E. }
  destruct (@judge_all_total _ F (s_centers e) (seq 0 (Z.to_nat ncenters)) (s_evals e)) as [ev1 E1].
  { intros i Hi. destruct (GET i Hi) as [cn [G1 G2]]. destruct (H5 cn G2) as [K1 [k [K2 K3]]].
    destruct (nth_error F k) as [row|] eqn:Er; [|apply nth_error_None in Er; lia]. exists cn, k, row. auto. }
  rewrite E1. cbn [rbind].
  assert (L1 : length ev1 = length (s_evals e)).
  { clear -E1. revert E1. generalize (s_evals e). induction (seq 0 (Z.to_nat ncenters)) as [|i is IH]; intros ev E; simpl in E.
    - injection E as <-. reflexivity.
    - apply rbind_ok in E. destruct E as [ev' [E1 E2]]. rewrite (IH _ E2). unfold judge in E1.
      apply rbind_ok in E1. destruct E1 as [cp [_ E1]]. destruct (n_newidx cp); [|discriminate].
      apply rbind_ok in E1. destruct E1 as [row [_ E1]].
      destruct (w_rank row) as [[|[|]]|]; try (injection E1 as <-; reflexivity); destruct (upd_nth _ _ _ E1) as [L _]; exact L. }
  unfold tenure_all. rewrite H1, Nat2Z.id, L1, Nat.leb_refl. cbn [rbind].
  set (ev2 := map (@tenure P) (firstn (length (s_evals e)) ev1) ++ skipn (length (s_evals e)) ev1).
  assert (L2 : length ev2 = length (s_evals e)).
  { unfold ev2. rewrite app_length, map_length, firstn_length, skipn_length. lia. }
  destruct (@to_tabu_all_total _ (s_centers e) (seq 0 (Z.to_nat ncenters)) ev2) as [ev3 E3].
  { intros i Hi. destruct (GET i Hi) as [cn [G1 G2]]. exists cn. rewrite L2. split; [exact G1|]. apply H5. exact G2. }
  rewrite E3. cbn [rbind]. destruct (to_tabu_all_ok _ _ _ E3) as [L3 _].
  destruct (@update_F_total _ s (mkSop ev3 (s_centers e) (Some F))) as [F' EF']; cbn [s_evals].
  - rewrite L3, L2. exact H1.
  - intros K. rewrite K in L3. simpl in L3. lia.
  - rewrite EF'. cbn [rbind]. eauto.
Qed.

Lemma cen_index : forall evals (cn : scen), cen_ok c evals cn -> n_index cn < length evals.
Proof. intros evals cn [[r [H _]] _]. apply nth_error_Some. congruence. Qed.

(** ** Completion of an adaptive evaluation *)
Section Complete.
Variables (p : proc) (o : outst P) (ev : Z) (v : val).
Hypothesis HR : Reached p.
Hypothesis HG : Post p.
Hypothesis Hcalm : calm (p_hist p).
Hypothesis Hg : existsb (@is_gen P) (p_hist p) = true.
Hypothesis Hin : In o (p_out p).
Hypothesis Hev : o_ev o = Some ev.

Let s' : base := base_completed c (o_id o) (o_x o) v ev (p_s p).
Let cs_of (cs : list scen) : Prop :=
  match find_center (c_peqb c) (o_x o) (s_centers (p_e p)) with
  | None => cs = s_centers (p_e p)
  | Some i => upd (s_centers (p_e p)) i (@set_newidx P (Z.to_nat (num_evals s' - 1))) = Ok cs
  end.

Lemma nodup_all : NoDup (todo p ++ map fst (completed (p_hist p))).
Proof. eapply Permutation_NoDup; [apply cons_calm; assumption|]. apply Hcalm. Qed.

Lemma todo_split : forall y, In y (todo p) -> y <> o_x o ->
  In y (batch_queue (p_s p) ++ map (@o_x P) (del_out (o_id o) (p_out p))).
Proof.
  intros y Hy Hne. unfold todo in Hy. apply in_app_or in Hy. apply in_or_app. destruct Hy as [Hy|Hy]; [left; exact Hy|right].
  apply in_map_iff in Hy. destruct Hy as [o' [<- Ho']]. apply in_map. unfold del_out. apply filter_In. split; [exact Ho'|].
  destruct (Nat.eqb_spec (o_id o') (o_id o)) as [E|E]; [|reflexivity]. exfalso. apply Hne.
  pose proof (inv_nodup (Inv_reached HR)) as N. clear -N Hin Ho' E.
  induction (p_out p) as [|a l IH]; [contradiction|]. simpl in N. inversion N as [|? ? N1 N2]; subst.
  destruct Hin as [->|K1], Ho' as [->|K2]; auto.
  - exfalso. apply N1. rewrite <- E. apply in_map. assumption.
  - exfalso. apply N1. rewrite E. apply in_map. assumption.
Qed.

Lemma cs_props : forall cs, cs_of cs ->
  map (@n_new P) cs = map (@n_new P) (s_centers (p_e p)) /\ length cs = length (s_centers (p_e p)) /\
  (forall cn y, In cn cs -> n_new cn = Some y -> n_newidx cn = None -> In y (todo p) /\ y <> o_x o).
Proof.
  intros cs H. unfold cs_of in H. destruct (post_ys HG) as [ys [Y1 Y2]].
  destruct (find_center (c_peqb c) (o_x o) (s_centers (p_e p))) as [i|] eqn:Ef.
  - destruct (find_center_some _ _ _ Ef) as [cn0 [y0 [E1 [E2 [E3 _]]]]]. apply Hpe in E3. subst y0.
    split; [apply (upd_map (@n_new P) _ _ _ H); reflexivity|]. destruct (upd_nth _ _ _ H) as [L [_ N]]. split; [exact L|].
    intros cn y Hc Hy Hn. apply In_nth_error in Hc. destruct Hc as [j Hj]. rewrite N in Hj.
    destruct (Nat.eqb_spec j i) as [Hji|Hji]; [subst j|].
    + rewrite E1 in Hj. injection Hj as <-. discriminate.
    + split; [eapply (post_idle HG); eauto; eapply nth_error_In; exact Hj|]. intros ->. apply Hji.
      assert (A1 : nth_error (map Some ys) j = Some (Some (o_x o))) by (rewrite <- Y1, nth_error_map, Hj; cbn; congruence).
      assert (A2 : nth_error (map Some ys) i = Some (Some (o_x o))) by (rewrite <- Y1, nth_error_map, E1; cbn; congruence).
      rewrite nth_error_map in A1, A2. destruct (nth_error ys j) as [a|] eqn:B1; [|discriminate].
      destruct (nth_error ys i) as [b|] eqn:B2; [|discriminate]. injection A1 as ->. injection A2 as ->.
      apply (proj1 (NoDup_nth_error ys) Y2 j i); [apply nth_error_Some; congruence|congruence].
  - subst cs. split; [reflexivity|]. split; [reflexivity|]. intros cn y Hc Hy Hn. split; [eapply (post_idle HG); eauto|].
    intros ->. clear -Ef Hc Hy Hpe. revert Ef. induction (s_centers (p_e p)) as [|a l IH]; [contradiction|].
    cbn [find_center]. unfold proposed at 1. destruct Hc as [->|Hc].
    + rewrite Hy. rewrite (proj2 (Hpe (o_x o) (o_x o)) eq_refl). discriminate.
    + destruct (match n_new a with Some y => _ | None => _ end); [discriminate|].
      destruct (find_center (c_peqb c) (o_x o) l); [discriminate|]. intros _. apply IH; auto.
Qed.

Lemma cs_exists : exists cs, cs_of cs.
Proof.
  unfold cs_of. destruct (find_center (c_peqb c) (o_x o) (s_centers (p_e p))) as [i|] eqn:Ef; [|eauto].
  destruct (find_center_some _ _ _ Ef) as [cn [y [E _]]]. apply upd_total. apply nth_error_Some. congruence.
Qed.

Lemma last_total : forall cs, cs_of cs -> batch_queue (p_s p) = [] -> length (p_out p) = 1 ->
  exists e', adjust_memory dist ncenters None s' (mkSop (s_evals (p_e p) ++ [new_rec (o_x o) v]) cs (s_F (p_e p))) = Ok e'.
Proof.
  intros cs Hcs Hq Hl. destruct (SopInv_reached HR) as [I S]. destruct (@cs_props cs Hcs) as [C1 [C2 C3]].
  assert (HN : num_evals s' = Z.of_nat (Datatypes.S (length (s_evals (p_e p))))).
  { unfold s'. destruct (base_completed_fields c (o_id o) (o_x o) v ev (p_s p)) as [-> _]. rewrite (inv_num I), <- (si_arch S), map_length. lia. }
  pose proof (@XInv_newidx P c s' (p_e p) (o_x o) v cs (si_x S) HN Hcs) as [_ XC _]. cbn [s_evals s_centers] in XC.
  assert (T : todo p = [o_x o]).
  { unfold todo. rewrite Hq. cbn [app]. destruct (p_out p) as [|a [|b l]]; simpl in Hl; try lia. destruct Hin as [->|[]]. reflexivity. }
  assert (LE : length (completed (p_hist p)) = length (s_evals (p_e p))) by (rewrite <- (si_arch S), map_length; reflexivity).
  apply adjust_total; cbn [s_evals s_centers].
  - rewrite HN, app_length. cbn [length]. lia.
  - rewrite map_app, evals_points by exact S. cbn [map r_x new_rec]. pose proof nodup_all as N. rewrite T in N. simpl in N.
    inversion N; subst. apply NoDup_snoc; assumption.
  - rewrite app_length. pose proof (post_two HG). lia.
  - rewrite C2, (si_cnt S), Hg. reflexivity.
  - intros cn Hc. rewrite Forall_forall in XC. pose proof (XC cn Hc) as XK. split; [eapply cen_index; exact XK|].
    destruct (n_newidx cn) as [k|] eqn:En.
    + exists k. split; [reflexivity|]. destruct XK as [_ K]. destruct (K k En) as [r [y [_ [K2 _]]]]. apply nth_error_Some. congruence.
    + exfalso. destruct (post_ys HG) as [ys [Y1 _]].
      assert (exists y, n_new cn = Some y) as [y Hy].
      { assert (In (n_new cn) (map Some ys)) as K by (rewrite <- Y1, <- C1; apply in_map; exact Hc).
        apply in_map_iff in K. destruct K as [y [K _]]. eauto. }
      destruct (C3 cn y Hc Hy En) as [K1 K2]. rewrite T in K1. destruct K1 as [K1|[]]. congruence.
Qed.

Lemma complete_total : o_kind o = KAdapt -> exists p', do_complete c strategy o ev v p = Ok p'.
Proof.
  intros Hk. destruct (SopInv_reached HR) as [I S]. unfold do_complete, on_adapt_completed. rewrite Hk. fold s'.
  destruct cs_exists as [cs Hcs].
  assert (BL : ev_last s' = 0%Z).
  { unfold s', base_completed. cbn. destruct (ev_last (p_s p) <? ev)%Z; exact (si_last S). }
  assert (FQ : batch_queue s' = batch_queue (p_s p) /\ pending_evals s' = (pending_evals (p_s p) - 1)%Z).
  { unfold s'. destruct (base_completed_fields c (o_id o) (o_x o) v ev (p_s p)) as [_ [BP [_ [_ [_ [BQ _]]]]]]. auto. }
  destruct FQ as [FQ FP].
  cbn [hk_adapt_completed sop_strategy sop_hooks]. unfold sop_adapt_completed. rewrite BL.
  destruct (Z.leb_spec 0 ev) as [_|K]; [|pose proof (si_ev S _ Hin Hev); lia].
  assert (E1 : match find_center (c_peqb c) (o_x o) (s_centers (p_e p)) with
    | Some i => upd (s_centers (p_e p)) i (@set_newidx P (Z.to_nat (num_evals s' - 1)))
    | None => Ok (s_centers (p_e p)) end = Ok cs).
  { unfold cs_of in Hcs. destruct (find_center _ _ _); [exact Hcs|congruence]. }
  rewrite E1. cbn [rbind]. rewrite Hsync, FQ, FP.
  destruct (batch_queue (p_s p)) as [|x l] eqn:Eq; cbn [nonempty negb andb]; [|cbn [rbind]; eauto].
  destruct (Z.eqb_spec (pending_evals (p_s p) - 1) 0) as [E|E]; [|cbn [rbind]; eauto].
  destruct (@last_total cs Hcs Eq) as [e' ->]; [rewrite (inv_pend I) in E; lia|]. cbn [rbind]. eauto.
Qed.

Lemma complete_post : forall p', o_kind o = KAdapt -> do_complete c strategy o ev v p = Ok p' -> Post p'.
Proof.
  intros p' Hk H. destruct (SopInv_reached HR) as [I S].
  apply do_complete_ok in H. destruct H as [e' [l [nx [cv [-> K]]]]]. rewrite Hk in K.
  destruct K as [n [cv0 [K1 _]]]. cbn [hk_adapt_completed sop_strategy sop_hooks] in K1. fold s' in K1.
  assert (BL : ev_last s' = 0%Z).
  { unfold s', base_completed. cbn. destruct (ev_last (p_s p) <? ev)%Z; exact (si_last S). }
  destruct (base_completed_fields c (o_id o) (o_x o) v ev (p_s p)) as [_ [BP [_ [_ [_ [BQ [BH _]]]]]]]. fold s' in BP, BQ, BH.
  apply sop_completed_cases in K1. destruct K1 as [_ [_ K]].
  destruct K as [[_ K]|[_ [cs [Hcs K]]]]; [pose proof (si_ev S _ Hin Hev); lia|]. fold (cs_of cs) in Hcs.
  destruct (@cs_props cs Hcs) as [C1 [C2 C3]]. rewrite Hsync in K.
  assert (EC : s_centers e' = cs).
  { destruct K as [[-> _]|[[K _]|[_ [_ [_ K]]]]]; [reflexivity|discriminate|].
    destruct (adjust_memory_ok _ _ _ _ _ K) as [F [_ [E _]]]. exact E. }
  assert (TE : todo (mkProc (set_converged cv (set_ev_next nx (set_ev_last l s'))) e' (del_out (o_id o) (p_out p)) (p_ctl p)
     (p_next p) (p_hist p ++ [EvComplete (o_id o) (o_kind o) (o_x o) v])) = batch_queue (p_s p) ++ map (@o_x P) (del_out (o_id o) (p_out p))).
  { exact (f_equal (fun q => q ++ map (@o_x P) (del_out (o_id o) (p_out p))) BQ). }
  constructor.
  - refine (eq_trans _ (eq_trans BH (post_phase HG))). reflexivity.
  - cbn. intros o' Ho'. apply in_del_out in Ho'. apply (post_kind HG). exact Ho'.
  - cbn [p_hist]. rewrite completed_app, app_length. pose proof (post_two HG). lia.
  - cbn [p_e]. rewrite EC, C1. apply (post_ys HG).
  - cbn [p_e]. rewrite EC. intros cn y Hc Hy Hn. destruct (C3 cn y Hc Hy Hn) as [D1 D2]. refine (eq_ind_r (fun t => In y t) _ TE). apply todo_split; assumption.
  - intros T0. pose proof (eq_trans (eq_sym TE) T0) as T. apply app_eq_nil in T. destruct T as [T1 T2]. apply map_eq_nil in T2. cbn [p_e].
    assert (PZ : pending_evals s' = 0%Z).
    { rewrite BP, (inv_pend I). pose proof (@del_out_length _ (p_out p) o (inv_nodup I) Hin) as DL. rewrite T2 in DL. simpl in DL. lia. }
    destruct K as [[_ [_ K]]|[[K _]|[_ [_ [_ K]]]]]; [|discriminate|].
    + rewrite BQ in K. destruct K; contradiction.
    + destruct (adjust_memory_ok _ _ _ _ _ K) as [F [_ [_ [_ [_ [_ [_ E]]]]]]]. eexists. split; [exact E|]. apply map_length.
Qed.
End Complete.

(** ** Generation of a batch *)
Section Generate.
Variables (p : proc) (s2 : base) (o : sop_search P).
Hypothesis HR : Reached p.
Hypothesis HG : G p.
Hypothesis Hcalm : calm (p_hist p).
Hypothesis Ht : todo p = [].
Hypothesis Hs2 : num_evals s2 = num_evals (p_s p).

Lemma gen_two : 2 <= length (completed (p_hist p)).
Proof.
  destruct HG as [G1 G2]. destruct (existsb (@is_gen P) (p_hist p)) eqn:Eg; [apply (post_two (G2 eq_refl))|].
  pose proof (cons_calm HR Hcalm) as C. rewrite Ht in C. cbn [app] in C. apply Permutation_length in C.
  rewrite app_length, map_length in C. lia.
Qed.

Lemma gen_idle : filter (@busy P) (s_centers (p_e p)) = [].
Proof.
  destruct (SopInv_reached HR) as [I S]. destruct HG as [G1 G2]. pose proof (si_cnt S) as SC.
  destruct (existsb (@is_gen P) (p_hist p)) eqn:Eg.
  - destruct (G2 eq_refl) as [_ _ _ [ys [Y1 _]] D _]. destruct (filter (@busy P) (s_centers (p_e p))) as [|cn l] eqn:Ef; [reflexivity|].
    exfalso. assert (Hin : In cn (filter (@busy P) (s_centers (p_e p)))) by (rewrite Ef; left; reflexivity).
    apply filter_In in Hin. destruct Hin as [Hin Hbusy].
    assert (In (n_new cn) (map Some ys)) as K by (rewrite <- Y1; apply in_map; exact Hin).
    apply in_map_iff in K. destruct K as [y [K _]]. unfold busy in Hbusy. destruct (n_newidx cn) eqn:En; [discriminate|].
    pose proof (D cn y Hin (eq_sym K) En) as K2. rewrite Ht in K2. destruct K2.
  - apply length_zero_iff_nil in SC. rewrite SC. reflexivity.
Qed.

Lemma gen_result : forall e' l, hk_generate strategy (p_e p) s2 (c_batch c) o = Ok (e', Some l) ->
  length l = c_batch c /\ map (@n_new P) (s_centers e') = map Some l /\
  (forall cn, In cn (s_centers e') -> n_newidx cn = None).
Proof.
  intros e' l H. cbn [hk_generate sop_strategy sop_hooks] in H. apply sop_generate_cases in H.
  destruct H as [F [e1 [cs [pts [_ [H2 [H3 [-> E]]]]]]]]. injection E as E0; subst pts.
  destruct (update_center_list_ok c _ _ _ _ _ H2) as [E1 [E2 [cs0 [E3 [E4 E5]]]]]. rewrite gen_idle in E3, E4. cbn [app length] in E3, E4.
  assert (L0 : length cs0 = c_batch c) by lia. rewrite E3, <- L0 in H3.
  destruct (@perturb_fill_ok (s_evals (p_e p)) o cs0 0 [] [] cs l) as [new [L [-> ->]]]; [constructor| |exact H3|].
  { apply Forall_forall. intros cn Hc. apply E5. exact Hc. }
  cbn [s_centers app]. split; [congruence|]. split; [apply filled_new; exact L|].
  intros cn Hc. eapply filled_idle; [|exact Hc]. apply Forall_forall. intros cn' Hc'. apply E5. exact Hc'.
Qed.

Lemma gen_total : (forall j x q, exists y, o j x q = Ok y) ->
  exists e' l, hk_generate strategy (p_e p) s2 (c_batch c) o = Ok (e', Some l).
Proof.
  intros Ho. destruct (SopInv_reached HR) as [I S]. pose proof gen_two as H2.
  assert (LE : length (completed (p_hist p)) = length (s_evals (p_e p))) by (rewrite <- (si_arch S), map_length; reflexivity).
  assert (HN : num_evals s2 = Z.of_nat (length (s_evals (p_e p)))) by (rewrite Hs2, (inv_num I), LE; reflexivity).
  assert (Hne : s_evals (p_e p) <> []) by (intros K; rewrite K in LE; simpl in LE; lia).
  assert (ND : NoDup (map (@r_x P) (s_evals (p_e p)))).
  { rewrite evals_points by exact S. eapply NoDup_app_r. eapply Permutation_NoDup; [apply cons_calm; eassumption|]. apply Hcalm. }
  assert (HF : exists F, match s_F (p_e p) with None => update_ranks dist s2 (p_e p) | Some F => Ok F end = Ok F /\
                 length F = length (s_evals (p_e p))).
  { destruct HG as [G1 G2]. destruct (existsb (@is_gen P) (p_hist p)).
    - destruct (post_F (G2 eq_refl) Ht) as [F [-> L]]. eauto.
    - rewrite (pre_F (G1 eq_refl)).
      destruct (@update_ranks_total _ dist s2 (p_e p) HN Hne) as [F EF]; [apply separated_of; [exact ND|lia]|].
      destruct (update_ranks_ok _ _ _ EF) as [_ [_ [_ [_ [_ [_ [_ [_ [LF _]]]]]]]]]. eauto. }
  destruct HF as [F [EF LF]].
  destruct (@C29_center_selection P c tooclose ncenters s2 (p_e p) F LF HN Hne) as [e1 [_ [_ [_ [_ [E1 _]]]]]].
  { intros cn Hc. destruct (si_x S) as [_ XC _]. rewrite Forall_forall in XC. eapply cen_index. apply XC. exact Hc. }
  { exact Hm. }
  cbn [hk_generate sop_strategy sop_hooks]. unfold sop_generate. rewrite EF. cbn [rbind]. rewrite E1. cbn [rbind].
  destruct (update_center_list_ok c _ _ _ _ _ E1) as [E2 [E3 [cs0 [E4 [E5 E6]]]]]. rewrite gen_idle in E4, E5. cbn [app length] in E4, E5.
  assert (L0 : length cs0 = c_batch c) by lia. rewrite E2, E4, <- L0.
  destruct (@perturb_fill (s_evals (p_e p)) o cs0 0 [] []) as [pts [_ EP]]; auto.
  { apply Forall_forall. intros cn Hc. apply E6. exact Hc. }
  { apply Forall_forall. intros cn Hc. eapply cen_index. apply E6. exact Hc. }
  cbn [app] in EP. rewrite EP. cbn [rbind fst snd]. eauto.
Qed.
End Generate.

Lemma todo_nil : forall p : proc, batch_queue (p_s p) = [] -> p_out p = [] -> todo p = [].
Proof. intros p H1 H2. unfold todo. rewrite H1, H2. reflexivity. Qed.

Lemma G_reached : forall p, Reached p -> calm (p_hist p) -> G p.
Proof.
  intros p H. pattern p. revert p H. apply reached_ops.
  - intros s e Hc _. split; [|discriminate]. intros _.
    destruct (construct_form _ _ _ _ Hc) as [d [_ [rows [_ [_ HS]]]]].
    unfold construct in Hc. apply rbind_ok in Hc. destruct Hc as [s1 [_ Hc]]. injection Hc as _ <-.
    apply sample_initial_ok in HS. destruct HS as [d1 [rows1 [_ [_ [_ ->]]]]].
    constructor; cbn; auto. intros o [].
  - intros p d o out p' HR IH Hp HC. destruct (SopInv_reached HR) as [I S].
    destruct (@propose_sync Hsync p d o (si_conv S) (inv_pend I)) as [[ev [Hev [out1 [p1 [E [E1 [E2 [E3 [E4 E5]]]]]]]]]|
      [[q [x [Eq [out1 [p1 [E [E1 [E2 [E3 [E4 E5]]]]]]]]]]|
       [[Eq [Eo [out1 [p1 [E [E1 [E2 [E3 [E4 E5]]]]]]]]]|[Eq [Eo [s2 [Es D]]]]]]].
    + rewrite E in Hp. injection Hp as <- <-. pose proof HC as HC'. rewrite E5 in HC'. apply calm_prefix in HC'.
      eapply (@G_keep p) with (evs := [ev]); eauto.
      * destruct Hev as [->| ->]; reflexivity.
      * destruct Hev as [->| ->]; reflexivity.
      * intros x. unfold todo. rewrite E2, E3. tauto.
      * intros o'. rewrite E2. eauto.
      * rewrite E2, E3. auto.
    + rewrite E in Hp. injection Hp as <- <-. pose proof HC as HC'. rewrite E5 in HC'. apply calm_prefix in HC'.
      specialize (IH HC'). assert (TD : forall y, In y (todo p) <-> In y (todo p1)).
      { intros y. unfold todo. rewrite E2, E3, Eq, map_app. cbn [map o_x]. rewrite !in_app_iff. simpl. tauto. }
      unfold G. rewrite E5, gen_snoc. cbn [is_gen]. rewrite orb_false_r. destruct IH as [G1 G2]. split; intros Hg.
      * destruct (G1 Hg) as [A B C]. constructor; rewrite ?E1, ?E4; auto.
        -- rewrite E2. intros o' Ho'. apply in_app_or in Ho'. destruct Ho' as [Ho'|[<-|[]]]; [auto|]. cbn [o_kind].
           destruct C as [C|[_ [C _]]]; [unfold phase_kind; rewrite C; reflexivity|]. rewrite Eq in C. destruct q; discriminate.
        -- destruct C as [C|[_ [C _]]]; [left; exact C|]. rewrite Eq in C. destruct q; discriminate.
      * destruct (G2 Hg) as [A B T C D F]. constructor; rewrite ?E1, ?E4; auto.
        -- rewrite E2. intros o' Ho'. apply in_app_or in Ho'. destruct Ho' as [Ho'|[<-|[]]]; [auto|]. cbn [o_kind].
           unfold phase_kind. rewrite A. reflexivity.
        -- rewrite E5, completed_app, app_length. lia.
        -- intros cn y H1 H2 H3. apply TD. eauto.
        -- intros K. exfalso. assert (In x (todo p1)) as Hx by (apply TD; unfold todo; rewrite Eq; apply in_or_app; left; apply in_or_app; right; left; reflexivity).
           rewrite K in Hx. destruct Hx.
    + rewrite E in Hp. injection Hp as <- <-. pose proof HC as HC'. rewrite E5 in HC'. apply calm_prefix in HC'.
      specialize (IH HC'). unfold G. rewrite E5, gen_snoc. cbn [is_gen]. rewrite orb_false_r. destruct IH as [G1 G2]. split; intros Hg.
      * destruct (G1 Hg) as [A B C]. constructor; rewrite ?E1; auto.
        -- rewrite E2. auto.
        -- right. split; [exact E4|]. split; [exact E3|]. rewrite E2. intros o' Ho' Hn.
           assert (U : undecided (p_hist p) = []).
           { destruct HC as [_ [_ [HP _]]]. rewrite E5 in HP. apply (HP (p_hist p) EvNone []); reflexivity. }
           rewrite (inv_und I) in U. apply map_eq_nil in U.
           assert (In o' (filter (@is_und P) (p_out p))) as K by (apply filter_In; split; [exact Ho'|unfold is_und; rewrite Hn; reflexivity]).
           rewrite U in K. destruct K.
      * destruct (G2 Hg) as [A B T C D F].
        assert (TE : todo p1 = todo p) by (unfold todo; rewrite E2, E3, Eq; reflexivity).
        constructor; rewrite ?E1, ?E4, ?TE; auto.
        -- rewrite E2. auto.
        -- rewrite E5, completed_app, app_length. lia.
    + destruct (hk_generate strategy (p_e p) s2 (c_batch c) o) as [[e' [l|]]|x] eqn:Eg.
      3:{ rewrite D in Hp. discriminate. }
      2:{ exfalso. cbn [hk_generate sop_strategy sop_hooks] in Eg. apply sop_generate_cases in Eg.
          destruct Eg as [F [e1 [cs [pts [_ [_ [_ [_ K]]]]]]]]. discriminate. }
      destruct D as [out1 [p1 [E [E1 [E2 D]]]]]. rewrite E in Hp. injection Hp as <- <-.
      assert (HC' : calm (p_hist p)) by (destruct D as [[_ [_ [_ D]]]|[q [x [_ [_ [_ D]]]]]]; rewrite D in HC; eapply calm_prefix; exact HC).
      specialize (IH HC'). pose proof (todo_nil _ Eq Eo) as Ht.
      destruct (@gen_result p s2 o HR IH Ht e' l Eg) as [R1 [R2 R3]].
      pose proof (@gen_two p HR IH HC' Ht) as R4.
      destruct D as [[-> _]|[q [x [El [D1 [D2 D3]]]]]]; [simpl in R1; lia|].
      assert (TE : todo p1 = l) by (unfold todo; rewrite D1, D2, El; reflexivity).
      unfold G. rewrite D3, existsb_app. cbn [existsb is_gen orb]. rewrite orb_true_r. split; [discriminate|]. intros _.
      constructor; rewrite ?E1.
      * exact E2.
      * rewrite D1. intros o' [<-|[]]. reflexivity.
      * rewrite D3, completed_app, app_length. lia.
      * exists l. split; [exact R2|]. destruct HC as [_ [_ [_ N]]]. rewrite D3, queued_later_app in N.
        unfold queued_later at 2 in N. cbn [flat_map app] in N. rewrite app_nil_r, app_assoc in N. eapply NoDup_app_r. exact N.
      * intros cn y H1 H2 _. rewrite TE. assert (In (n_new cn) (map Some l)) as K by (rewrite <- R2; apply in_map; exact H1).
        rewrite H2 in K. apply in_map_iff in K. destruct K as [y' [K1 K2]]. congruence.
      * rewrite TE. intros ->. simpl in R1. lia.
  - intros p o HR IH Hin Ho HC. assert (HC' : calm (p_hist p)) by (eapply calm_prefix; exact HC).
    eapply (@G_keep p) with (evs := [EvAccept (o_id o)]); try reflexivity; auto.
    + intros x. unfold todo. cbn. assert (E : map (@o_x P) (set_ev (o_id o) (ev_next (p_s p)) (p_out p)) = map (@o_x P) (p_out p)).
      { unfold set_ev. rewrite map_map. apply map_ext. intros a. destruct (_ =? _); reflexivity. }
      rewrite E. tauto.
    + cbn. intros o' Ho'. apply in_set_ev in Ho'. destruct Ho' as [o2 [K1 [_ [_ [K2 _]]]]]. eauto.
    + cbn. intros _ _ Q N. split; [exact Q|]. intros o' Ho'. apply in_set_ev in Ho'.
      destruct Ho' as [o2 [K1 [_ [_ [_ [->|[_ ->]]]]]]]; [auto|discriminate].
  - intros p o HR IH Hin Ho HC. assert (HC' : calm (p_hist p)) by (eapply calm_prefix; exact HC).
    specialize (IH HC'). pose proof (Inv_reached HR) as I.
    assert (NP : phase (p_s p) = 2 -> existsb (@is_gen P) (p_hist p) = false -> False).
    { intros H1 H2. destruct (pre_phase (proj1 IH H2)) as [K|[_ [_ K]]]; [lia|]. exact (K o Hin Ho). }
    assert (BQ : batch_queue (p_s (do_reject c o p)) = batch_queue (p_s p) ++ [o_x o] /\ phase (p_s (do_reject c o p)) = phase (p_s p)).
    { cbn. destruct (o_kind o); [split; reflexivity|]. unfold on_adapt_reject. rewrite Hsync. split; reflexivity. }
    destruct BQ as [BQ BH].
    eapply (@G_keep p) with (evs := [EvReject (o_id o) (o_kind o) (o_x o)]); try reflexivity; auto.
    + intros x. unfold todo. rewrite BQ. cbn [p_out do_reject].
      destruct (del_out_split _ _ (inv_nodup I) Hin) as [l1 [l2 [E1 E2]]]. rewrite E2, E1, !map_app. cbn [map].
      rewrite !in_app_iff. simpl. tauto.
    + cbn [p_out do_reject]. intros o' Ho'. apply in_del_out in Ho'. eauto.
    + intros H1 H2. destruct (NP H1 H2).
  - intros p o ev v p' HR IH Hin Ho Hc HC. pose proof Hc as Hc'. apply do_complete_ok in Hc'.
    destruct Hc' as [e' [l [nx [cv [-> K]]]]]. assert (HC' : calm (p_hist p)) by (eapply calm_prefix; exact HC).
    specialize (IH HC'). destruct (SopInv_reached HR) as [I S]. unfold G. cbn [p_hist]. rewrite gen_snoc. cbn [is_gen]. rewrite orb_false_r.
    destruct (base_completed_fields c (o_id o) (o_x o) v ev (p_s p)) as [_ [BP [_ [_ [_ [BQ [BH _]]]]]]]. split; intros Hg.
    + destruct (proj1 IH Hg) as [A B C]. rewrite (B o Hin) in K. destruct K as [K _].
      cbn [hk_initial_completed sop_strategy sop_hooks] in K. unfold sop_initial_completed in K.
      assert (EF : s_F e' = None) by (destruct (_ <=? _)%Z in K; injection K as <-; exact A).
      constructor; cbn [p_e p_out p_s].
      * exact EF.
      * intros o' Ho'. apply in_del_out in Ho'. auto.
      * destruct C as [C|[C1 [C2 C3]]]; [left; exact (eq_trans BH C)|right].
        split; [exact (eq_trans BH C1)|]. split; [exact (eq_trans BQ C2)|]. intros o' Ho'. apply in_del_out in Ho'. auto.
    + pose proof (proj2 IH Hg) as HPost. eapply complete_post; eauto. apply (post_kind HPost). exact Hin.
  - intros p o ev HR IH Hin Ho [K _]. exfalso. cbn [do_abort p_hist] in K. rewrite count_app in K. unfold count at 2 in K. simpl in K. lia.
  - intros p HR IH HC. assert (HC' : calm (p_hist p)) by (eapply calm_prefix; exact HC).
    eapply (@G_keep p) with (evs := [EvStop]); try reflexivity; auto. eauto.
  - intros p HR IH [_ [K _]]. exfalso. cbn [do_resume p_hist] in K. rewrite count_app in K. unfold count at 2 in K. simpl in K. lia.
Qed.

Lemma never_fails : forall p, Reached p -> calm (p_hist p) ->
  (forall d o, (forall j x q, exists y, o j x q = Ok y) -> exists r, do_propose c strategy d o p = Ok r) /\
  (forall o ev v, In o (p_out p) -> o_ev o = Some ev -> exists p', do_complete c strategy o ev v p = Ok p').
Proof.
  intros p HR HC. pose proof (G_reached HR HC) as HG. destruct (SopInv_reached HR) as [I S]. split.
  - intros d o Ho. destruct (@propose_sync Hsync p d o (si_conv S) (inv_pend I)) as [[ev [Hev [out1 [p1 [E _]]]]]|
      [[q [x [Eq [out1 [p1 [E _]]]]]]| [[Eq [Eo [out1 [p1 [E _]]]]]|[Eq [Eo [s2 [Es D]]]]]]]; [eauto..|].
    destruct (@gen_total p s2 o HR HG HC (todo_nil _ Eq Eo) Es Ho) as [e' [l El]]. rewrite El in D.
    destruct D as [out1 [p1 [E _]]]. eauto.
  - intros o ev v Hin Ho. destruct (existsb (@is_gen P) (p_hist p)) eqn:Eg.
    + pose proof (proj2 HG Eg) as HP. eapply complete_total; eauto. apply (post_kind HP). exact Hin.
    + pose proof (proj1 HG Eg) as HP. unfold do_complete. rewrite (pre_kind HP _ Hin). unfold on_initial_completed.
      cbn [hk_initial_completed sop_strategy sop_hooks]. unfold sop_initial_completed. destruct (_ <=? _)%Z; cbn [rbind]; eauto.
Qed.
End Total.

(** ** C31, positive part *)
Theorem C31_sync_never_fails_partial : forall P (c : cfg P val) dist tooclose ncenters design s0 e0,
  let strategy := sop_strategy c dist tooclose ncenters in
  construct c strategy design sop0 = Ok (s0, e0) ->
  (* configuration *)
  c_async c = false -> Z.of_nat (c_batch c) = ncenters -> 0 < c_batch c ->
  c_max_evals c <> Z.of_nat (c_num_pts c) -> 2 <= length (batch_queue s0) ->
  (forall x y, c_peqb c x y = true <-> x = y) -> (forall x y, x <> y -> ~ (dist x y == 0)%Q) ->
  forall p, reached c strategy design sop0 p ->
  (* schedule *)
  count (@is_abort P val) (p_hist p) = 0 -> count (@is_resume P val) (p_hist p) = 0 ->
  protocol (p_hist p) -> NoDup (batch_queue s0 ++ queued_later (p_hist p)) ->
  (* no call raises *)
  (forall d o, (forall j x q, exists y, o j x q = Ok y) -> exists r, do_propose c strategy d o p = Ok r) /\
  (forall o ev v, In o (p_out p) -> o_ev o = Some ev -> exists p', do_complete c strategy o ev v p = Ok p').
Proof.
  intros P c dist tooclose ncenters design s0 e0 strategy Hc H1 H2 H3 H4 H5 H6 H7 p HR A B D E.
  apply (@never_fails P c dist tooclose ncenters design (batch_queue s0) H1 H2 H3 H4 H6 H7); auto.
  - intros s e Hs. unfold strategy in Hc. rewrite Hs in Hc. injection Hc as -> _. reflexivity.
  - repeat split; assumption.
Qed.
