(** * SOPStrategy: invariants of whole runs. *)
From Coq Require Import List Arith ZArith Lia Bool QArith Qpower.
From Verif Require Import Base PyList Strategy StrategySpec StrategyProofs StrategyInv StrategyInv2
  StrategyInv3 PropStrategy SRBF Pareto ParetoProofs SOP SOPProofs SOPCenters.
Import ListNotations.
Local Close Scope Q_scope.

Set Implicit Arguments.

Lemma Forall_upd : forall A (Q Q' : A -> Prop) (l : list A) i f r, upd l i f = Ok r ->
  (forall a, Q a -> Q' a) -> (forall a, nth_error l i = Some a -> Q a -> Q' (f a)) -> Forall Q l -> Forall Q' r.
Proof.
  intros A Q Q' l. induction l as [|a l IH]; intros [|i] f r H H1 H2 HF; simpl in H; try discriminate;
    inversion HF; subst.
  - injection H as <-. constructor; [apply H2; auto|]. eapply Forall_impl; [|eassumption]. assumption.
  - apply rbind_ok in H. destruct H as [r' [E H]]. injection H as <-. constructor; [auto|].
    eapply IH; [exact E|exact H1| |assumption]. intros b Hb. apply H2. exact Hb.
Qed.

Lemma nth_error_firstn_lt : forall A (l : list A) n k, k < n -> nth_error (firstn n l) k = nth_error l k.
Proof.
  intros A l. induction l as [|a l IH]; intros [|n] [|k] H; simpl; try lia; try reflexivity. apply IH. lia.
Qed.

Lemma map_nth_ext2 : forall A B C (f : A -> C) (g : B -> C) l l', length l = length l' ->
  (forall k a b, nth_error l k = Some a -> nth_error l' k = Some b -> f a = g b) -> map f l = map g l'.
Proof.
  intros A B C f g l. induction l as [|a l IH]; intros [|b l'] HL H; simpl in *; try discriminate; [reflexivity|].
  f_equal; [apply (H O); reflexivity|]. apply IH; [congruence|]. intros k x y. apply (H (S k)).
Qed.

Section Run.
Variable P : Type.
Variable c : cfg P val.
Variable dist : P -> P -> Q.
Variable tooclose : P -> P -> nat -> Q -> bool.
Variable ncenters : Z.

(** The hooks of SOPStrategy for a configuration (sop_strategy.py:196-229). *)
Definition sop_strategy : hooks P val (sop P) (sop_search P) :=
  sop_hooks (c_peqb c) dist tooclose ncenters (c_async c) (c_max_evals c) (c_num_pts c).

Notation proc := (proc P val (sop P)).
Notation base := (base P val).
Notation sop := (sop P).
Notation srec := (srec P).
Notation scen := (scen P).
Notation frow := (frow P).

(** A center belongs to the archive. *)
Definition cen_ok (evals : list srec) (cn : scen) : Prop :=
  (exists r, nth_error evals (n_index cn) = Some r /\ r_x r = n_xc cn) /\
  (forall k, n_newidx cn = Some k -> exists r y,
     n_new cn = Some y /\ nth_error evals k = Some r /\ c_peqb c (r_x r) y = true).

Record XInv (e : sop) : Prop := mkX {
  x_mem : Forall (@mem_ok P) (s_evals e);
  x_cen : Forall (cen_ok (s_evals e)) (s_centers e);
  x_F : forall F, s_F e = Some F ->
        F <> [] /\ map (fun r => (w_x r, w_fx r)) F = firstn (length F) (map (@xf P) (s_evals e))
}.

Lemma cen_ok_mono : forall ev ev' cn, map (@r_x P) ev = firstn (length ev) (map (@r_x P) ev') ->
  cen_ok ev cn -> cen_ok ev' cn.
Proof.
  intros ev ev' cn H [[r [A1 A2]] B].
  assert (G : forall k r, nth_error ev k = Some r -> exists r', nth_error ev' k = Some r' /\ r_x r' = r_x r).
  { intros k r0 E. assert (E1 : nth_error (map (@r_x P) ev) k = Some (r_x r0)) by (rewrite nth_error_map, E; reflexivity).
    rewrite H in E1. assert (k < length ev) by (apply nth_error_Some; congruence).
    rewrite nth_error_firstn_lt in E1 by assumption.
    rewrite nth_error_map in E1. destruct (nth_error ev' k) as [r'|]; [|discriminate]. injection E1 as E1. eauto. }
  split.
  - destruct (G _ _ A1) as [r' [E1 E2]]. exists r'. split; [exact E1|congruence].
  - intros k Hk. destruct (B k Hk) as [r0 [y [B1 [B2 B3]]]]. destruct (G _ _ B2) as [r' [E1 E2]].
    exists r', y. rewrite E2. auto.
Qed.

Lemma map_fst_xf : forall ev : list srec, map (@r_x P) ev = map fst (map (@xf P) ev).
Proof. intros. rewrite map_map. reflexivity. Qed.

Lemma XInv_append : forall (e : sop) x v, XInv e ->
  XInv (mkSop (s_evals e ++ [new_rec x v]) (s_centers e) (s_F e)).
Proof.
  intros e x v [A B C]. constructor; cbn [s_evals s_centers s_F].
  - apply Forall_app. split; [exact A|]. constructor; [|constructor]. apply new_rec_ok.
  - eapply Forall_impl; [|exact B]. intros cn. apply cen_ok_mono. rewrite map_app, firstn_app, map_length, Nat.sub_diag.
    cbn [firstn]. rewrite app_nil_r. rewrite <- (map_length (@r_x P) (s_evals e)) at 1. rewrite firstn_all. reflexivity.
  - intros F HF. destruct (C F HF) as [C1 C2]. split; [exact C1|]. rewrite map_app, firstn_app, C2.
    assert (L : length F <= length (map (@xf P) (s_evals e))).
    { assert (L := f_equal (@length _) C2). rewrite map_length, firstn_length in L. lia. }
    replace (length F - length (map (@xf P) (s_evals e))) with 0 by lia. cbn [firstn]. rewrite app_nil_r. reflexivity.
Qed.

Lemma XInv_adjust : forall index (s : base) (e e' : sop), XInv e ->
  adjust_memory dist ncenters index s e = Ok e' -> XInv e'.
Proof.
  intros index s e e' [A B C] H. assert (Hx := adjust_memory_xf _ _ _ _ _ H).
  assert (Hm := adjust_memory_mem _ _ _ _ _ H A).
  destruct (adjust_memory_ok _ _ _ _ _ H) as [F [H1 [H2 [H3 [_ [_ [_ H4]]]]]]]. constructor.
  - exact Hm.
  - rewrite H2. eapply Forall_impl; [|exact B]. intros cn. apply cen_ok_mono.
    rewrite !map_fst_xf, Hx. rewrite firstn_all2; [reflexivity|]. rewrite !map_length. lia.
  - intros F' HF'. rewrite H4 in HF'. injection HF' as <-. rewrite map_map, map_length. split.
    + destruct (update_ranks_ok _ _ _ H1) as [_ [_ [_ [_ [_ [_ [_ [Hne _]]]]]]]].
      intros K. apply map_eq_nil in K. apply Hne. apply length_zero_iff_nil. rewrite <- H3, K. reflexivity.
    + rewrite firstn_all2; [reflexivity|]. rewrite map_length. lia.
Qed.

Lemma find_center_some : forall (peqb : P -> P -> bool) x (l : list scen) i, find_center peqb x l = Some i ->
  exists cn y, nth_error l i = Some cn /\ n_new cn = Some y /\ peqb x y = true /\
    forall j cn', nth_error l j = Some cn' -> j < i -> proposed peqb x cn' = false.
Proof.
  intros peqb x l. induction l as [|cn l IH]; intros i H; simpl in H; [discriminate|].
  destruct (proposed peqb x cn) eqn:E.
  - injection H as <-. unfold proposed in E. destruct (n_new cn) as [y|] eqn:Ey; [|discriminate].
    exists cn, y. repeat split; auto. intros; lia.
  - destruct (find_center peqb x l) as [i'|] eqn:Ef; [|discriminate]. injection H as <-.
    destruct (IH i' eq_refl) as [cn' [y [A1 [A2 [A3 A4]]]]]. exists cn', y. repeat split; auto.
    intros [|j] cn2 Hj Hlt; simpl in Hj; [injection Hj as <-; exact E|]. apply (A4 j); [exact Hj|lia].
Qed.

(** What on_adapt_completed does, by cases. *)
Lemma sop_completed_cases : forall (e : sop) (s : base) x v ev e' n cv,
  sop_adapt_completed (c_peqb c) dist ncenters (c_async c) e s x v ev = Ok (e', n, cv) ->
  n = 0 /\ cv = false /\
  ((e' = e /\ (ev < ev_last s)%Z) \/
   ((ev_last s <= ev)%Z /\ exists cs,
      let e1 := mkSop (s_evals e ++ [new_rec x v]) cs (s_F e) in
      let ci := find_center (c_peqb c) x (s_centers e) in
      match ci with
      | None => cs = s_centers e
      | Some i => upd (s_centers e) i (@set_newidx P (Z.to_nat (num_evals s - 1))) = Ok cs
      end /\
      ((e' = e1 /\ c_async c = false /\ (batch_queue s <> [] \/ pending_evals s <> 0%Z)) \/
       (c_async c = true /\ adjust_memory dist ncenters ci s e1 = Ok e') \/
       (c_async c = false /\ batch_queue s = [] /\ pending_evals s = 0%Z /\
        adjust_memory dist ncenters None s e1 = Ok e')))).
Proof.
  intros e s x v ev e' n cv H. unfold sop_adapt_completed in H.
  destruct (Z.leb_spec (ev_last s) ev) as [Hl|Hl].
  2:{ injection H as <- <- <-. auto. }
  apply rbind_ok in H. destruct H as [cs [H1 H]].
  set (ci := find_center (c_peqb c) x (s_centers e)) in *.
  assert (HC : match ci with
      | None => cs = s_centers e
      | Some i => upd (s_centers e) i (@set_newidx P (Z.to_nat (num_evals s - 1))) = Ok cs
      end) by (destruct ci; [exact H1|injection H1 as <-; reflexivity]).
  destruct (c_async c) eqn:Ea.
  - apply rbind_ok in H. destruct H as [e2 [H2 H]]. injection H as <- <- <-.
    split; [reflexivity|]. split; [reflexivity|]. right. split; [exact Hl|]. exists cs. split; [exact HC|].
    right. left. auto.
  - destruct (batch_queue s) as [|q0 q] eqn:Eq; cbn [nonempty negb andb] in H.
    + destruct (Z.eqb_spec (pending_evals s) 0) as [Ep|Ep].
      * apply rbind_ok in H. destruct H as [e2 [H2 H]]. injection H as <- <- <-.
        split; [reflexivity|]. split; [reflexivity|]. right. split; [exact Hl|]. exists cs. split; [exact HC|].
        right. right. auto.
      * injection H as <- <- <-. split; [reflexivity|]. split; [reflexivity|]. right. split; [exact Hl|].
        exists cs. split; [exact HC|]. left. auto.
    + injection H as <- <- <-. split; [reflexivity|]. split; [reflexivity|]. right. split; [exact Hl|].
      exists cs. split; [exact HC|]. left. split; [reflexivity|]. split; [reflexivity|]. left. discriminate.
Qed.

Lemma XInv_newidx : forall (s : base) (e : sop) x v cs, XInv e ->
  num_evals s = Z.of_nat (S (length (s_evals e))) ->
  match find_center (c_peqb c) x (s_centers e) with
  | None => cs = s_centers e
  | Some i => upd (s_centers e) i (@set_newidx P (Z.to_nat (num_evals s - 1))) = Ok cs
  end -> XInv (mkSop (s_evals e ++ [new_rec x v]) cs (s_F e)).
Proof.
  intros s e x v cs I Hn H. pose proof (XInv_append x v I) as [A B C]. cbn [s_evals s_centers s_F] in *.
  constructor; cbn [s_evals s_centers s_F]; [exact A| |exact C].
  destruct (find_center (c_peqb c) x (s_centers e)) as [i|] eqn:Ef; [|subst cs; exact B].
  destruct (find_center_some _ _ _ Ef) as [cn [y [E1 [E2 [E3 _]]]]].
  eapply (@Forall_upd _ (cen_ok (s_evals e ++ [new_rec x v]))); [exact H|auto| |exact B].
  intros a Ha [K1 K2]. assert (a = cn) by congruence. subst a. split; [exact K1|].
  cbn [set_newidx n_newidx n_new]. intros k Hk. injection Hk as <-.
  exists (new_rec x v), y. split; [exact E2|]. split; [|exact E3].
  rewrite nth_error_app2 by lia. replace (Z.to_nat (num_evals s - 1) - length (s_evals e)) with 0 by lia. reflexivity.
Qed.

Lemma XInv_completed : forall (e : sop) (s : base) x v ev e' n cv, XInv e ->
  num_evals s = Z.of_nat (S (length (s_evals e))) ->
  sop_adapt_completed (c_peqb c) dist ncenters (c_async c) e s x v ev = Ok (e', n, cv) -> XInv e'.
Proof.
  intros e s x v ev e' n cv I Hn H. apply sop_completed_cases in H. destruct H as [_ [_ [[-> _]|[_ [cs [H1 H]]]]]]; [exact I|].
  pose proof (@XInv_newidx s e x v cs I Hn H1) as I1.
  destruct H as [[-> _]|[[_ H]|[_ [_ [_ H]]]]]; [exact I1| |]; eapply XInv_adjust; eauto.
Qed.

(** ** generate_evals *)
Lemma tag_busy_ok : forall l (F F' : list frow), tag_busy F l = Ok F' ->
  length F' = length F /\
  forall k, nth_error F' k = option_map (fun r => if existsb (fun cn : scen => busy cn && (n_index cn =? k)) l then tag_row r else r) (nth_error F k).
Proof.
  intros l. induction l as [|cn l IH]; intros F F' H; simpl in H.
  - injection H as <-. split; [reflexivity|]. intros k. simpl. destruct (nth_error F k); reflexivity.
  - destruct (busy cn) eqn:Eb.
    + apply rbind_ok in H. destruct H as [F1 [H1 H]]. destruct (upd_nth _ _ _ H1) as [L1 [_ N1]].
      destruct (IH _ _ H) as [L2 N2]. split; [congruence|]. intros k. rewrite N2, N1. cbn [existsb]. rewrite Eb. cbn [andb].
      rewrite (Nat.eqb_sym k). destruct (nth_error F k) as [r|]; [|destruct (n_index cn =? k); reflexivity].
      destruct (n_index cn =? k); cbn [option_map orb]; destruct (existsb _ l); reflexivity.
    + destruct (IH _ _ H) as [L2 N2]. split; [exact L2|]. intros k. rewrite N2. cbn [existsb]. rewrite Eb. reflexivity.
Qed.

Lemma new_center_ok : forall (evals : list srec) i cn, new_center evals i = Ok cn ->
  cen_ok evals cn /\ n_new cn = None /\ n_newidx cn = None /\ n_index cn = i.
Proof.
  intros evals i cn H. unfold new_center in H. apply rbind_ok in H. destruct H as [r [H1 H]]. injection H as <-.
  apply geti_ok in H1. cbn. repeat split; auto. 1: eauto. intros; discriminate.
Qed.

Lemma choose_length : forall (F : list frow) t cc k rest chosen idx, length chosen <= cc ->
  choose tooclose F t cc k rest chosen = Ok idx -> length idx = cc.
Proof.
  intros F t cc k. induction k as [|k IH]; intros rest chosen idx Hc H; cbn [choose] in H;
    destruct (Nat.ltb_spec (length chosen) cc) as [Hl|Hl].
  - apply rbind_ok in H. destruct H as [more [H1 H]]. injection H as <-.
    destruct (mapR_nth _ _ H1) as [L _]. rewrite app_length, L, seq_length. lia.
  - injection H as <-. lia.
  - destruct rest as [|a rest]; [discriminate|]. apply rbind_ok in H. destruct H as [b [H1 H]].
    eapply IH; [|exact H]. destruct b; [rewrite app_length; simpl|]; lia.
  - injection H as <-. lia.
Qed.

Lemma update_center_list_ok : forall (s : base) (e : sop) F0 e',
  update_center_list tooclose ncenters (c_max_evals c) (c_num_pts c) s e F0 = Ok e' ->
  s_evals e' = s_evals e /\ s_F e' = Some F0 /\ exists cs,
    s_centers e' = filter (@busy P) (s_centers e) ++ cs /\
    length cs = Z.to_nat (ncenters - Z.of_nat (length (filter (@busy P) (s_centers e)))) /\
    forall cn, In cn cs -> cen_ok (s_evals e) cn /\ n_new cn = None /\ n_newidx cn = None.
Proof.
  intros s e F0 e' H. unfold update_center_list in H.
  apply rbind_ok in H. destruct H as [t [_ H]]. apply rbind_ok in H. destruct H as [F [_ H]].
  apply rbind_ok in H. destruct H as [ind [_ H]].
  destruct (Z.ltb_spec 0 (ncenters - Z.of_nat (length (filter (@busy P) (s_centers e))))) as [Hc|Hc].
  - apply rbind_ok in H. destruct H as [i0 [_ H]]. apply rbind_ok in H. destruct H as [idx [H1 H]].
    apply rbind_ok in H. destruct H as [cs [H2 H]]. injection H as <-. cbn [s_evals s_centers s_F].
    split; [reflexivity|]. split; [reflexivity|]. exists cs. split; [reflexivity|].
    destruct (mapR_nth _ _ H2) as [L N]. split.
    + rewrite L. eapply choose_length; [|exact H1]. simpl. lia.
    + intros cn Hin. apply In_nth_error in Hin. destruct Hin as [k Hk]. apply N in Hk. destruct Hk as [i [_ Hi]].
      apply new_center_ok in Hi. tauto.
  - injection H as <-. cbn [s_evals s_centers s_F]. split; [reflexivity|]. split; [reflexivity|].
    exists []. rewrite app_nil_r. split; [reflexivity|]. split; [simpl; lia|]. intros cn [].
Qed.

Lemma perturb_ok : forall (evals : list srec) o n i (cs : list scen) acc cs' pts,
  perturb evals o n i cs acc = Ok (cs', pts) ->
  Forall (cen_ok evals) cs ->
  Forall (cen_ok evals) cs' /\ length cs' = length cs /\ exists new, pts = acc ++ new /\ length new = n.
Proof.
  intros evals o n. induction n as [|n IH]; intros i cs acc cs' pts H HF; cbn [perturb] in H.
  - injection H as <- <-. split; [exact HF|]. split; [reflexivity|]. exists []. rewrite app_nil_r. auto.
  - apply rbind_ok in H. destruct H as [cn [H1 H]]. apply rbind_ok in H. destruct H as [r [H2 H]].
    apply rbind_ok in H. destruct H as [y [H3 H]]. apply rbind_ok in H. destruct H as [cs1 [H4 H]].
    assert (HF1 : Forall (cen_ok evals) cs1).
    { eapply (@Forall_upd _ (cen_ok evals)); [exact H4|auto| |exact HF]. intros a Ha [K1 K2]. split; [exact K1|].
      cbn [n_newidx n_new]. intros k Hk. destruct (K2 k Hk) as [r0 [y0 [K3 _]]]. exfalso.
      assert (En : n_new a = None).
      { clear -Ha. revert Ha. induction cs as [|b l IHl]; [discriminate|]. cbn [first_free].
        destruct (n_new b) eqn:Eb; [exact IHl|]. simpl. intros Ha. injection Ha as <-. exact Eb. }
      congruence. }
    destruct (IH _ _ _ _ _ H HF1) as [A [B [new [C D]]]]. destruct (upd_nth _ _ _ H4) as [L _].
    split; [exact A|]. split; [congruence|]. exists (y :: new). rewrite C, <- app_assoc. split; [reflexivity|simpl; congruence].
Qed.

Lemma sop_generate_cases : forall (e : sop) (s : base) n o e' l,
  sop_generate dist tooclose ncenters (c_max_evals c) (c_num_pts c) e s n o = Ok (e', l) ->
  exists F e1 cs pts,
    match s_F e with None => update_ranks dist s e = Ok F | Some F0 => F = F0 end /\
    update_center_list tooclose ncenters (c_max_evals c) (c_num_pts c) s e F = Ok e1 /\
    perturb (s_evals e) o n 0 (s_centers e1) [] = Ok (cs, pts) /\
    e' = mkSop (s_evals e) cs (Some F) /\ l = Some pts.
Proof.
  intros e s n o e' l H. unfold sop_generate in H.
  apply rbind_ok in H. destruct H as [F [H1 H]]. apply rbind_ok in H. destruct H as [e1 [H2 H]].
  apply rbind_ok in H. destruct H as [[cs pts] [H3 H]]. injection H as <- <-.
  destruct (update_center_list_ok _ _ _ H2) as [E1 [E2 _]]. rewrite E1 in *. rewrite E2.
  exists F, e1, cs, pts. split; [destruct (s_F e); [injection H1 as <-; reflexivity|exact H1]|]. auto.
Qed.

Lemma update_ranks_xf : forall (s : base) (e : sop) F, update_ranks dist s e = Ok F ->
  F <> [] /\ map (fun r => (w_x r, w_fx r)) F = map (@xf P) (s_evals e).
Proof.
  intros s e F H. destruct (update_ranks_ok _ _ _ H) as [ds [rk [_ [_ [Ld [Lr [_ [Hne [LF N]]]]]]]]].
  split; [intros ->; simpl in LF; apply Hne; apply length_zero_iff_nil; lia|].
  apply map_nth_ext2; [exact LF|]. intros k a b Ha Hb.
  assert (k < length (s_evals e)) by (apply nth_error_Some; congruence).
  destruct (nth_error ds k) as [d|] eqn:Ed; [|apply nth_error_None in Ed; lia].
  destruct (nth_error rk k) as [r|] eqn:Er; [|apply nth_error_None in Er; lia].
  rewrite (N k b d r Hb Ed Er) in Ha. injection Ha as <-. reflexivity.
Qed.

Lemma XInv_generate : forall (e : sop) (s : base) n o e' l, XInv e ->
  sop_generate dist tooclose ncenters (c_max_evals c) (c_num_pts c) e s n o = Ok (e', l) ->
  XInv e' /\ s_evals e' = s_evals e /\
  (length (s_centers e) = 0 \/ length (s_centers e) = Z.to_nat ncenters ->
   length (s_centers e') = Z.to_nat ncenters) /\ exists pts, l = Some pts /\ length pts = n.
Proof.
  intros e s n o e' l [A B C] H. apply sop_generate_cases in H.
  destruct H as [F [e1 [cs [pts [H1 [H2 [H3 [-> ->]]]]]]]].
  destruct (update_center_list_ok _ _ _ H2) as [E1 [E2 [cs0 [E3 [E4 E5]]]]].
  assert (HF : Forall (cen_ok (s_evals e)) (s_centers e1)).
  { rewrite E3. apply Forall_app. split.
    - apply Forall_forall. intros cn Hin. apply filter_In in Hin. rewrite Forall_forall in B. apply B. tauto.
    - apply Forall_forall. intros cn Hin. apply E5. exact Hin. }
  destruct (@perturb_ok _ _ _ _ _ _ _ _ H3 HF) as [G1 [G2 [new [G3 G4]]]]. cbn [s_evals s_centers s_F].
  split; [constructor; cbn [s_evals s_centers s_F]; auto|].
  - intros F' HF'. injection HF' as <-. destruct (s_F e) as [F0|] eqn:EF.
    + subst F. apply C. reflexivity.
    + destruct (update_ranks_xf _ _ H1) as [X1 X2]. split; [exact X1|].
      rewrite X2. assert (L := f_equal (@length _) X2). rewrite !map_length in L. rewrite L.
      rewrite firstn_all2; [reflexivity|]. rewrite map_length. lia.
  - split; [reflexivity|]. split; [|exists pts; split; [reflexivity|rewrite G3; exact G4]].
    intros HL. rewrite G2, E3, app_length, E4.
    assert (length (filter (@busy P) (s_centers e)) <= length (s_centers e)) by
      (clear; induction (s_centers e) as [|x l IH]; simpl; [lia|destruct (busy x); simpl; lia]).
    lia.
Qed.

(** ** The invariant of whole runs *)
Definition is_gen (ev : event P val) : bool := match ev with EvGenerate _ _ => true | _ => false end.

Record SopInv (p : proc) : Prop := mkSI {
  si_conv : converged (p_s p) = false;
  si_last : ev_last (p_s p) = 0%Z;
  si_next : (0 < ev_next (p_s p))%Z;
  si_ev : forall o ev, In o (p_out p) -> o_ev o = Some ev -> (0 < ev)%Z;
  si_arch : map (@xf P) (s_evals (p_e p)) = completed (p_hist p);
  si_cnt : length (s_centers (p_e p)) = if existsb is_gen (p_hist p) then Z.to_nat ncenters else 0;
  si_x : XInv (p_e p)
}.

Lemma completed_snoc_other : forall (h : list (event P val)) ev,
  match ev with EvComplete _ _ _ _ => False | _ => True end -> completed (h ++ [ev]) = completed h.
Proof. intros h ev H. unfold completed. rewrite flat_map_app. destruct ev; try contradiction; simpl; apply app_nil_r. Qed.

Lemma gen_snoc : forall (h : list (event P val)) ev, existsb is_gen (h ++ [ev]) = existsb is_gen h || is_gen ev.
Proof. intros. rewrite existsb_app. simpl. rewrite orb_false_r. reflexivity. Qed.

Lemma SopInv_keep : forall (p p' : proc) evs, p_e p' = p_e p -> p_hist p' = p_hist p ++ evs ->
  converged (p_s p') = converged (p_s p) -> ev_last (p_s p') = ev_last (p_s p) -> (ev_next (p_s p) <= ev_next (p_s p'))%Z ->
  (forall o ev, In o (p_out p') -> o_ev o = Some ev -> (0 < ev)%Z) ->
  completed evs = [] -> existsb is_gen evs = false -> SopInv p -> SopInv p'.
Proof.
  intros p p' evs E1 E2 E3 E4 E5 E6 E7 E8 [A B B' C D F G]. constructor; rewrite ?E1, ?E2, ?E3, ?E4; auto; try lia.
  - unfold completed in *. rewrite flat_map_app, E7, app_nil_r. exact D.
  - rewrite existsb_app, E8, orb_false_r. exact F.
Qed.

Lemma in_del_out : forall id (l : list (outst P)) o, In o (del_out id l) -> In o l.
Proof. intros id l o H. unfold del_out in H. apply filter_In in H. tauto. Qed.

Lemma SopInv_micro : forall p p', Inv c p -> SopInv p -> micro c sop_strategy p p' -> SopInv p'.
Proof.
  intros p p' I S M. destruct M as [H1 H2|H1 H2|H1 H2|H1 H2 H3|n o e' l H1 H2 H3 H4 H5 H6 H7
    |n o e' H1 H2 H3 H4 H5 H6 H7|d rows H1 H2 H3 H4 H5 H6|q x k H1 H2 H3 H4|o H1 H2|o H1 H2
    |o ev v p' H1 H2 H3|o ev H1 H2| |].
  - eapply (@SopInv_keep p) with (evs := [EvNone]); try reflexivity; try lia; [apply (si_ev S)|exact S].
  - eapply (@SopInv_keep p) with (evs := [EvTerminate]); try reflexivity; try lia; [apply (si_ev S)|exact S].
  - eapply (@SopInv_keep p) with (evs := [EvNone]); try reflexivity; try lia; [apply (si_ev S)|exact S].
  - eapply (@SopInv_keep p) with (evs := []); try reflexivity; try lia; [apply (si_ev S)|exact S].
  - cbn [hk_generate sop_strategy sop_hooks] in H7. destruct S as [A B B' C D F G].
    destruct (XInv_generate _ _ _ G H7) as [G1 [G2 [G3 _]]].
    constructor; cbn [p_s p_e p_hist p_out with_se]; auto.
    + rewrite G2, D. symmetry. apply completed_snoc_other. exact Logic.I.
    + rewrite gen_snoc. cbn [is_gen]. rewrite orb_true_r. apply G3. rewrite F. destruct (existsb _ _); auto.
  - exfalso. cbn [hk_generate sop_strategy sop_hooks] in H7. apply sop_generate_cases in H7.
    destruct H7 as [F [e1 [cs [pts [_ [_ [_ [_ K]]]]]]]]. discriminate.
  - exfalso. rewrite (si_conv S) in H2. discriminate.
  - eapply (@SopInv_keep p) with (evs := [EvPropose (p_next p) k x]); try reflexivity; try lia; [|exact S].
    cbn [p_out]. intros o ev Hin He. apply in_app_or in Hin. destruct Hin as [Hin|[<-|[]]]; [eapply (si_ev S); eauto|discriminate].
  - eapply (@SopInv_keep p) with (evs := [EvAccept (o_id o)]); try reflexivity; [cbn; lia| |exact S].
    cbn. intros o' ev Hin He. unfold set_ev in Hin. apply in_map_iff in Hin. destruct Hin as [o2 [E Hin]].
    destruct (o_id o2 =? o_id o); subst o'; [|eapply (si_ev S); eauto]. cbn in He. injection He as <-. apply (si_next S).
  - eapply (@SopInv_keep p) with (evs := [EvReject (o_id o) (o_kind o) (o_x o)]); try reflexivity; [| | | |exact S].
    + cbn. destruct (o_kind o); [reflexivity|]. unfold on_adapt_reject. destruct (c_async c); reflexivity.
    + cbn. destruct (o_kind o); [reflexivity|]. unfold on_adapt_reject. destruct (c_async c); reflexivity.
    + cbn. destruct (o_kind o); [cbn; lia|]. unfold on_adapt_reject. destruct (c_async c); cbn; lia.
    + cbn. intros o' ev Hin He. apply in_del_out in Hin. eapply (si_ev S); eauto.
  - destruct S as [A B B' C D F G].
    assert (HN : num_evals (base_completed c (o_id o) (o_x o) v ev (p_s p)) = Z.of_nat (S (length (s_evals (p_e p))))).
    { destruct (base_completed_fields c (o_id o) (o_x o) v ev (p_s p)) as [-> _]. rewrite (inv_num I), <- D, map_length. lia. }
    assert (BL : ev_last (base_completed c (o_id o) (o_x o) v ev (p_s p)) = 0%Z).
    { unfold base_completed. cbn. destruct (ev_last (p_s p) <? ev)%Z; exact B. }
    pose proof (C o ev H1 H2) as Hev.
    apply do_complete_ok in H3. destruct H3 as [e' [l [nx [cv [-> Hk]]]]].
    assert (CS : completed (p_hist p ++ [EvComplete (o_id o) (o_kind o) (o_x o) v]) = completed (p_hist p) ++ [(o_x o, v)]).
    { unfold completed. rewrite flat_map_app. reflexivity. }
    assert (OUT : forall o' ev', In o' (del_out (o_id o) (p_out p)) -> o_ev o' = Some ev' -> (0 < ev')%Z).
    { intros o' ev' Hin. apply in_del_out in Hin. eauto. }
    destruct (o_kind o) eqn:Ek.
    + destruct Hk as [K1 [-> [-> ->]]]. cbn [hk_initial_completed sop_strategy sop_hooks] in K1.
      unfold sop_initial_completed in K1. rewrite BL in K1. replace (0 <=? ev)%Z with true in K1 by (symmetry; apply Z.leb_le; lia).
      injection K1 as <-. constructor; cbn [p_s p_e p_hist p_out converged set_converged ev_last set_ev_last set_ev_next ev_next s_evals s_centers]; auto.
      * rewrite map_app, D, CS. reflexivity.
      * rewrite gen_snoc. cbn [is_gen]. rewrite orb_false_r. exact F.
      * apply XInv_append. exact G.
    + destruct Hk as [n [cv0 [K1 [-> [K2 _]]]]]. cbn [hk_adapt_completed sop_strategy sop_hooks] in K1.
      pose proof (XInv_completed _ _ _ _ G HN K1) as G1. apply sop_completed_cases in K1.
      destruct K1 as [-> [-> K]]. destruct (K2 eq_refl) as [-> ->].
      assert (XE : map (@xf P) (s_evals e') = map (@xf P) (s_evals (p_e p)) ++ [(o_x o, v)] /\
                   length (s_centers e') = length (s_centers (p_e p))).
      { destruct K as [[_ K]|[_ [cs [K K']]]]; [rewrite BL in K; lia|].
        assert (LC : length cs = length (s_centers (p_e p))).
        { destruct (find_center (c_peqb c) (o_x o) (s_centers (p_e p))); [|subst cs; reflexivity].
          destruct (upd_nth _ _ _ K) as [L _]. exact L. }
        assert (AM : forall ix, adjust_memory dist ncenters ix (base_completed c (o_id o) (o_x o) v ev (p_s p))
                       (mkSop (s_evals (p_e p) ++ [new_rec (o_x o) v]) cs (s_F (p_e p))) = Ok e' ->
                     map (@xf P) (s_evals e') = map (@xf P) (s_evals (p_e p)) ++ [(o_x o, v)] /\
                     length (s_centers e') = length (s_centers (p_e p))).
        { intros ix Hx. split.
          - rewrite (adjust_memory_xf _ _ _ _ _ Hx). cbn [s_evals]. rewrite map_app. reflexivity.
          - destruct (adjust_memory_ok _ _ _ _ _ Hx) as [F' [_ [-> _]]]. exact LC. }
        destruct K' as [[-> _]|[[_ K']|[_ [_ [_ K']]]]]; [|eauto|eauto].
        cbn [s_evals s_centers]. rewrite map_app. auto. }
      destruct XE as [XE1 XE2].
      constructor; cbn [p_s p_e p_hist p_out converged set_converged ev_last set_ev_last set_ev_next ev_next orb]; auto.
      * rewrite XE1, D, CS. reflexivity.
      * rewrite gen_snoc. cbn [is_gen]. rewrite orb_false_r, XE2. exact F.
  - eapply (@SopInv_keep p) with (evs := [EvAbort (o_id o) (o_kind o) (o_x o)]); try reflexivity; [| | | |exact S].
    + cbn. destruct (o_kind o); reflexivity.
    + cbn. destruct (o_kind o); reflexivity.
    + cbn. destruct (o_kind o); cbn; lia.
    + cbn. intros o' ev' Hin He. apply in_del_out in Hin. eapply (si_ev S); eauto.
  - eapply (@SopInv_keep p) with (evs := [EvStop]); try reflexivity; try lia; [apply (si_ev S)|exact S].
  - eapply (@SopInv_keep p) with (evs := [EvResume]); try reflexivity; [| | | |exact S].
    + cbn. unfold resume. destruct (phase (p_s p) =? 1); reflexivity.
    + cbn. unfold resume. destruct (phase (p_s p) =? 1); reflexivity.
    + cbn. unfold resume. destruct (phase (p_s p) =? 1); cbn; lia.
    + cbn. intros o' ev' [].
Qed.

Variable design : res (list P).

Lemma SopInv_reached : forall p, reached c sop_strategy design sop0 p -> Inv c p /\ SopInv p.
Proof.
  intros p H. apply reached_micros in H. destruct H as [[s e] [H1 H2]].
  assert (I0 : Inv c (init_proc (s, e))) by (eapply Inv_init; exact H1).
  split; [eapply Inv_micros; eassumption|].
  apply (@micros_from P val (sop) (sop_search P) c sop_strategy SopInv _ I0).
  - destruct (construct_form _ _ _ _ H1) as [d [_ [rows [_ [_ HS]]]]].
    assert (Ee : e = sop0).
    { unfold construct in H1. apply rbind_ok in H1. destruct H1 as [s1 [_ H3]]. injection H3 as _ <-. reflexivity. }
    apply sample_initial_ok in HS. destruct HS as [d1 [rows1 [_ [_ [_ ->]]]]]. subst e.
    constructor; cbn; auto; try lia; try reflexivity; try (intros; contradiction).
    constructor; cbn; auto. intros; discriminate.
  - intros q r IQ SQ M. eapply SopInv_micro; eauto.
  - exact H2.
Qed.
End Run.
