(** * SOPStrategy in asynchronous mode: no call raises (the other positive part of C31).

    Legal schedules: no resume, no point twice, and at every request that is not served from the
    design no design evaluation is running and fewer than ncenters adaptive proposals are unfinished
    (running, rejected or killed: the code never frees the center of a rejected or killed one).
    C31_many_workers_refuted, C31_rejects_leak_centers_refuted, C31_early_worker_refuted and
    C31_resume_refuted in ExSOP.v show that these conditions are needed. *)
From Coq Require Import List Arith ZArith Lia Bool QArith Permutation.
From Verif Require Import Base PyList Strategy StrategySpec StrategyProofs StrategyInv StrategyInv2
  StrategyInv3 StrategyInv4 StrategyOps PropStrategy SRBF Pareto ParetoProofs SOP SOPProofs
  SOPCenters SOPInv PropSOP SOPTotal.
Import ListNotations.
Local Close Scope Q_scope.
Set Implicit Arguments.

(** ** Specification: counting over a history *)
Section Spec.
Variables P V : Type.
Notation event := (event P V).
Fixpoint total (f : event -> Z) (h : list event) : Z := match h with [] => 0%Z | ev :: h' => (f ev + total f h')%Z end.

(** design points that are running, and design points that were given back *)
Definition design_running (ev : event) : Z :=
  match ev with EvPropose _ KInit _ => 1 | EvReject _ KInit _ | EvAbort _ KInit _ | EvComplete _ KInit _ _ => -1 | _ => 0 end.
Definition design_left (ev : event) : Z :=
  match ev with EvPropose _ KInit _ => -1 | EvReject _ KInit _ | EvAbort _ KInit _ => 1 | _ => 0 end.
(** adaptive proposals without a value *)
Definition unfinished (ev : event) : Z :=
  match ev with EvPropose _ KAdapt _ => 1 | EvComplete _ KAdapt _ _ => -1 | _ => 0 end.

(** A request can be served: the design has been evaluated and there is a free center. *)
Definition room (ncenters : Z) (h : list event) : Prop := total design_running h = 0%Z /\ (total unfinished h < ncenters)%Z.

Lemma total_app : forall f h1 h2, total f (h1 ++ h2) = (total f h1 + total f h2)%Z.
Proof. intros f h1 h2. induction h1 as [|a h IH]; cbn [app total]; [reflexivity|]. rewrite IH. lia. Qed.
End Spec.

Section Async.
Variable P : Type.
Variable c : cfg P val.
Variable dist : P -> P -> Q.
Variable tooclose : P -> P -> nat -> Q -> bool.
Variable ncenters : Z.
Variable design : res (list P).

Notation strategy := (sop_strategy c dist tooclose ncenters).
Notation proc := (proc P val (sop P)).
Notation base := (base P val).
Notation sop := (sop P).
Notation srec := (srec P).
Notation scen := (scen P).
Notation Reached := (reached c strategy design sop0).

(** ** propose_action in asynchronous mode *)
Lemma propose_async : c_async c = true -> forall (p : proc) d o, converged (p_s p) = false ->
  (exists ev, (ev = EvNone \/ ev = EvTerminate) /\
     exists out p', do_propose c strategy d o p = Ok (out, p') /\ p_e p' = p_e p /\ p_out p' = p_out p /\
       batch_queue (p_s p') = batch_queue (p_s p) /\ phase (p_s p') = phase (p_s p) /\ p_hist p' = p_hist p ++ [ev]) \/
  (exists q x, batch_queue (p_s p) = q ++ [x] /\
     exists out p', do_propose c strategy d o p = Ok (out, p') /\ p_e p' = p_e p /\
       p_out p' = p_out p ++ [mkOut (p_next p) (phase_kind (p_s p)) x None] /\
       batch_queue (p_s p') = q /\ phase (p_s p') = phase (p_s p) /\
       p_hist p' = p_hist p ++ [EvPropose (p_next p) (phase_kind (p_s p)) x]) \/
  (batch_queue (p_s p) = [] /\
     exists s2, num_evals s2 = num_evals (p_s p) /\
       match hk_generate strategy (p_e p) s2 1 o with
       | Err x => do_propose c strategy d o p = Err x
       | Ok (e', Some l) =>
         exists out p', do_propose c strategy d o p = Ok (out, p') /\ p_e p' = e' /\ phase (p_s p') = 2 /\
           ((l = [] /\ p_out p' = p_out p /\ batch_queue (p_s p') = [] /\
               p_hist p' = p_hist p ++ [EvGenerate 1 (Some l); EvNone]) \/
            exists q x, l = q ++ [x] /\ p_out p' = p_out p ++ [mkOut (p_next p) KAdapt x None] /\ batch_queue (p_s p') = q /\
               p_hist p' = p_hist p ++ [EvGenerate 1 (Some l); EvPropose (p_next p) KAdapt x])
       | Ok (e', None) => True
       end).
Proof.
  intros Ha p d o Hc. unfold do_propose, propose_action.
  set (s1 := check_termination c (p_s p)).
  assert (F : pending_evals s1 = pending_evals (p_s p) /\ converged s1 = false /\ batch_queue s1 = batch_queue (p_s p) /\
              phase s1 = phase (p_s p) /\ num_evals s1 = num_evals (p_s p)).
  { unfold s1, check_termination. destruct (_ <=? _)%Z; cbn; auto. }
  destruct F as [F1 [F2 [F3 [F4 F5]]]]. clearbody s1. rewrite F1, F2, F3, F4.
  destruct (terminate s1).
  { left. destruct (Z.eqb_spec (pending_evals (p_s p)) 0) as [E|E].
    - exists EvTerminate. split; [auto|]. cbn [rbind]. do 2 eexists. split; [reflexivity|]. cbn. auto.
    - exists EvNone. split; [auto|]. cbn [rbind]. do 2 eexists. split; [reflexivity|]. cbn. auto. }
  destruct (batch_queue (p_s p)) as [|q0 ql] eqn:Eq; cbn [nonempty].
  2:{ right; left. rewrite <- Eq in *. clear Hc.
      assert (Hne : batch_queue (p_s p) <> []) by (rewrite Eq; discriminate).
      destruct (exists_last Hne) as [q [x Ex]]. exists q, x. split; [exact Ex|].
      unfold init_proposal, adapt_proposal. rewrite F3, Ex, py_pop_snoc. unfold phase_kind.
      destruct (phase (p_s p) =? 1); cbn [rbind fst snd]; do 2 eexists; (split; [reflexivity|]); cbn; auto. }
  rewrite Ha. right; right. split; [reflexivity|].
  exists (set_phase 2 s1). split; [exact F5|]. unfold do_generate.
  destruct (hk_generate strategy (p_e p) (set_phase 2 s1) 1 o) as [[e' [l|]]|x]; [|exact Logic.I|reflexivity].
  cbn [rbind fst snd set_batch_queue converged set_phase]. rewrite F2. cbn [andb].
  unfold adapt_proposal. cbn [batch_queue set_batch_queue set_phase]. rewrite F3. cbn [app].
  destruct l as [|l0 ll].
  + cbn [py_pop rbind fst snd]. do 2 eexists. split; [reflexivity|]. cbn. split; [reflexivity|]. split; [reflexivity|].
    left. auto.
  + assert (Hne : l0 :: ll <> []) by discriminate. destruct (exists_last Hne) as [q [x Ex]]. rewrite Ex, py_pop_snoc.
    cbn [rbind fst snd]. do 2 eexists. split; [reflexivity|]. cbn. split; [reflexivity|]. split; [reflexivity|].
    right. exists q, x. auto.
Qed.

(** ** The setting *)
Variable q0 : list P.
Definition steady (h : list (event P val)) : Prop :=
  count (@is_resume P val) h = 0 /\ NoDup (q0 ++ queued_later h) /\
  forall h1 n r h2, h = h1 ++ EvGenerate n r :: h2 -> room ncenters h1.

Lemma steady_prefix : forall h evs, steady (h ++ evs) -> steady h.
Proof.
  intros h evs [A [B C]]. unfold steady. rewrite count_app in A. split; [lia|]. split.
  - rewrite queued_later_app, app_assoc in B. eapply NoDup_app_l. exact B.
  - intros h1 n r h2 ->. eapply C. rewrite <- app_assoc. reflexivity.
Qed.

Definition news (l : list scen) : list P := flat_map (fun cn => match n_new cn with Some y => [y] | None => [] end) l.
Definition claimed (cn : scen) : bool := match n_new cn, n_newidx cn with Some _, None => true | _, _ => false end.
Definition uses (l : list scen) : Z := Z.of_nat (length (filter claimed l)).

Record APre (p : proc) : Prop := mkAPre {
  ap_F : s_F (p_e p) = None;
  ap_kind : forall o, In o (p_out p) -> o_kind o = KInit;
  ap_phase : phase (p_s p) = 1;
  ap_left : Z.of_nat (length (batch_queue (p_s p))) = (Z.of_nat (length q0) + total (@design_left P val) (p_hist p))%Z;
  ap_run : total (@design_running P val) (p_hist p) = Z.of_nat (length (p_out p));
  ap_use : total (@unfinished P val) (p_hist p) = 0%Z;
  ap_gu : given_up true (p_hist p) = []
}.
Record APost (p : proc) : Prop := mkAPost {
  aq_phase : phase (p_s p) = 2;
  aq_queue : batch_queue (p_s p) = [];
  aq_kind : forall o, In o (p_out p) -> o_kind o = KAdapt;
  aq_two : 2 <= length (completed (p_hist p));
  aq_have : forall o, In o (p_out p) -> exists cn, In cn (s_centers (p_e p)) /\ n_new cn = Some (o_x o) /\ n_newidx cn = None;
  aq_nd : NoDup (news (s_centers (p_e p)));
  aq_in : forall y, In y (news (s_centers (p_e p))) -> In y (queued_later (p_hist p));
  aq_F : exists F, s_F (p_e p) = Some F /\ length F = length (s_evals (p_e p));
  aq_use : uses (s_centers (p_e p)) = total (@unfinished P val) (p_hist p);
  aq_left : (Z.of_nat (length q0) + total (@design_left P val) (p_hist p))%Z = 0%Z
}.
Definition AG (p : proc) : Prop :=
  (existsb (@is_gen P) (p_hist p) = false -> APre p) /\ (existsb (@is_gen P) (p_hist p) = true -> APost p).

(** ** Lists of centers *)
Lemma news_app : forall l1 l2, news (l1 ++ l2) = news l1 ++ news l2.
Proof. intros. unfold news. apply flat_map_app. Qed.
Lemma in_news : forall l y, In y (news l) <-> exists cn, In cn l /\ n_new cn = Some y.
Proof.
  intros l y. unfold news. rewrite in_flat_map. split.
  - intros [cn [H1 H2]]. exists cn. split; [exact H1|]. destruct (n_new cn); [|destruct H2]. destruct H2 as [->|[]]. reflexivity.
  - intros [cn [H1 H2]]. exists cn. split; [exact H1|]. rewrite H2. left. reflexivity.
Qed.
Lemma news_filter : forall g l, NoDup (news l) -> NoDup (news (filter g l)).
Proof.
  intros g l. induction l as [|a l IH]; intros H; [exact H|]. cbn [filter]. unfold news in H. cbn [flat_map] in H. fold (news l) in H.
  pose proof (NoDup_app_r _ _ H) as H'. specialize (IH H'). destruct (g a); [|exact IH]. unfold news. cbn [flat_map]. fold (news (filter g l)).
  destruct (n_new a) as [y|]; [|exact IH]. cbn [app] in *. inversion H as [|? ? H1 H2]; subst. constructor; [|exact IH].
  intros K. apply H1. apply in_news in K. destruct K as [cn [K1 K2]]. apply filter_In in K1. apply in_news. exists cn. tauto.
Qed.
Lemma news_none : forall l, (forall cn, In cn l -> n_new cn = None) -> news l = [].
Proof. intros l. induction l as [|a l IH]; intros H; [reflexivity|]. unfold news. cbn [flat_map]. fold (news l). rewrite (H a (or_introl eq_refl)). apply IH. intros cn Hc. apply H. right. exact Hc. Qed.
Lemma uses_app : forall l1 l2, uses (l1 ++ l2) = (uses l1 + uses l2)%Z.
Proof. intros. unfold uses. rewrite filter_app, app_length. lia. Qed.
Lemma uses_busy : forall l, uses (filter (@busy P) l) = uses l.
Proof.
  intros l. unfold uses. f_equal. f_equal. induction l as [|a l IH]; [reflexivity|]. cbn [filter].
  destruct (busy a) eqn:Eb; cbn [filter]; rewrite IH; [reflexivity|].
  unfold claimed. unfold busy in Eb. destruct (n_newidx a); [|discriminate]. destruct (n_new a); reflexivity.
Qed.
Lemma uses_none : forall l, (forall cn, In cn l -> n_new cn = None) -> uses l = 0%Z.
Proof.
  intros l H. unfold uses. replace (filter claimed l) with (@nil scen); [reflexivity|]. symmetry.
  induction l as [|a l IH]; [reflexivity|]. cbn [filter]. unfold claimed at 1. rewrite (H a (or_introl eq_refl)). apply IH. intros cn Hc. apply H. right. exact Hc.
Qed.

Lemma free_split : forall (l : list scen) a, nth_error l (first_free l) = Some a ->
  exists l1 l2, l = l1 ++ a :: l2 /\ length l1 = first_free l /\ n_new a = None.
Proof.
  intros l. induction l as [|b l IH]; intros a H; [discriminate|]. cbn [first_free] in *. destruct (n_new b) eqn:Eb.
  - cbn [nth_error] in H. destruct (IH a H) as [l1 [l2 [E1 [E2 E3]]]]. exists (b :: l1), l2. rewrite E1 at 1. cbn [app length]. rewrite E2. auto.
  - injection H as <-. exists [], l. auto.
Qed.
Lemma free_exists : forall l : list scen, (forall cn k, In cn l -> n_newidx cn = Some k -> exists y, n_new cn = Some y) ->
  forallb (@busy P) l = true -> (uses l < Z.of_nat (length l))%Z -> first_free l < length l.
Proof.
  intros l. induction l as [|b l IH]; intros H B U; [cbn in U; lia|]. cbn [first_free length forallb] in *. apply andb_true_iff in B. destruct B as [B1 B2].
  destruct (n_new b) eqn:Eb; [|lia]. apply -> Nat.succ_lt_mono. apply IH; [intros cn k Hc; apply H; right; exact Hc|exact B2|].
  change (b :: l) with ([b] ++ l) in U. rewrite uses_app in U. assert (U1 : uses [b] = 1%Z).
  { unfold uses. cbn [filter]. unfold claimed. rewrite Eb. unfold busy in B1. destruct (n_newidx b); [discriminate|]. reflexivity. }
  lia.
Qed.

Hypothesis Hasync : c_async c = true.
Hypothesis Hm : c_max_evals c <> Z.of_nat (c_num_pts c).
Hypothesis Hpe : forall x y, c_peqb c x y = true <-> x = y.
Hypothesis Hd : forall x y, x <> y -> ~ (dist x y == 0)%Q.
Hypothesis Hq0 : forall s e, construct c strategy design sop0 = Ok (s, e) -> batch_queue s = q0.
Hypothesis Hq2 : 2 <= length q0.

Lemma cons_steady : forall p, Reached p -> steady (p_hist p) ->
  Permutation (q0 ++ queued_later (p_hist p))
    (batch_queue (p_s p) ++ map (@o_x P) (p_out p) ++ map fst (completed (p_hist p)) ++ given_up true (p_hist p)).
Proof using Hq0 Hasync.
  clear -Hq0 Hasync.
  intros p H [B _]. destruct (@C08_queued_points_conserved_partial _ _ _ _ _ _ _ _ _ H B) as [s [e [H1 H2]]].
  rewrite (Hq0 H1) in H2. pose proof (Inv_reached H) as I. rewrite (inv_out I), map_map in H2. simpl in H2.
  rewrite Hasync in H2. exact H2.
Qed.
Lemma nodup_steady : forall p, Reached p -> steady (p_hist p) -> NoDup (map (@o_x P) (p_out p) ++ map fst (completed (p_hist p))).
Proof using Hq0 Hasync.
  clear -Hq0 Hasync. intros p H S. pose proof (cons_steady H S) as C. destruct S as [_ [N _]]. apply (Permutation_NoDup C) in N.
  apply NoDup_app_r in N. rewrite app_assoc in N. apply NoDup_app_l in N. exact N.
Qed.

(** ** Totality of adjust_memory for one center *)
Lemma adjust_one : forall (s : base) (e : sop) i cn k,
  num_evals s = Z.of_nat (length (s_evals e)) -> NoDup (map (@r_x P) (s_evals e)) -> 2 <= length (s_evals e) ->
  nth_error (s_centers e) i = Some cn -> n_newidx cn = Some k -> k < length (s_evals e) -> n_index cn < length (s_evals e) ->
  exists e', adjust_memory dist ncenters (Some i) s e = Ok e'.
Proof using Hd.
  clear -Hd. intros s e i cn k H1 H2 H3 H4 H5 H6 H7.
  assert (Hne : s_evals e <> []) by (intros K; rewrite K in H3; simpl in H3; lia).
  destruct (@update_ranks_total _ dist s e H1 Hne (@separated_of _ dist Hd _ H2 H3)) as [F EF].
  destruct (update_ranks_ok _ _ _ EF) as [_ [_ [_ [_ [_ [_ [_ [_ [LF _]]]]]]]]].
  unfold adjust_memory. rewrite EF. cbn [rbind].
  destruct (nth_error F k) as [row|] eqn:Er; [|apply nth_error_None in Er; lia].
  destruct (@judge_all_total _ F (s_centers e) [i] (s_evals e)) as [ev1 E1].
  { intros j [<-|[]]. exists cn, k, row. auto. }
  rewrite E1. cbn [rbind].
  assert (L1 : length ev1 = length (s_evals e)).
  { cbn [judge_all] in E1. apply rbind_ok in E1. destruct E1 as [ev' [E1 E2]]. injection E2 as <-. unfold judge in E1.
    apply rbind_ok in E1. destruct E1 as [cp [_ E1]]. destruct (n_newidx cp); [|discriminate].
    apply rbind_ok in E1. destruct E1 as [row' [_ E1]].
    destruct (w_rank row') as [[|[|]]|]; try (injection E1 as <-; reflexivity); destruct (upd_nth _ _ _ E1) as [L _]; exact L. }
  unfold tenure_all. rewrite H1, Nat2Z.id, L1, Nat.leb_refl. cbn [rbind].
  set (ev2 := map (@tenure P) (firstn (length (s_evals e)) ev1) ++ skipn (length (s_evals e)) ev1).
  assert (L2 : length ev2 = length (s_evals e)).
  { unfold ev2. rewrite app_length, map_length, firstn_length, skipn_length. lia. }
  destruct (@to_tabu_all_total _ (s_centers e) [i] ev2) as [ev3 E3].
  { intros j [<-|[]]. exists cn. rewrite L2. auto. }
  rewrite E3. cbn [rbind]. destruct (to_tabu_all_ok _ _ _ E3) as [L3 _].
  destruct (@update_F_total _ s (mkSop ev3 (s_centers e) (Some F))) as [F' EF']; cbn [s_evals].
  - rewrite L3, L2. exact H1.
  - intros K. rewrite K in L3. simpl in L3. lia.
  - rewrite EF'. cbn [rbind]. eauto.
Qed.
(** ** Generation *)
Section Gen.
Variables (p : proc) (s2 : base) (o : sop_search P).
Hypothesis HR : Reached p.
Hypothesis HG : AG p.
Hypothesis HS : steady (p_hist p).
Hypothesis Hq : batch_queue (p_s p) = [].
Hypothesis Hroom : room ncenters (p_hist p).
Hypothesis Hs2 : num_evals s2 = num_evals (p_s p).

Lemma a_two : 2 <= length (completed (p_hist p)).
Proof using HR HG HS Hq Hroom Hq0 Hq2 Hasync.
  clear -HR HG HS Hq Hroom Hq0 Hq2 Hasync.
  destruct HG as [G1 G2]. destruct (existsb (@is_gen P) (p_hist p)) eqn:Eg; [apply (aq_two (G2 eq_refl))|].
  pose proof (G1 eq_refl) as A. pose proof (cons_steady HR HS) as C. rewrite Hq, (ap_gu A) in C. destruct Hroom as [R1 _].
  rewrite (ap_run A) in R1. assert (p_out p = []) as Ho by (apply length_zero_iff_nil; lia). rewrite Ho in C. cbn [map app] in C.
  rewrite app_nil_r in C. apply Permutation_length in C. rewrite app_length, map_length in C. lia.
Qed.

Lemma a_uses : (uses (s_centers (p_e p)) < ncenters)%Z.
Proof using HR HG Hroom.
  clear -HR HG Hroom.
  destruct (SopInv_reached HR) as [I S]. destruct HG as [G1 G2]. pose proof (si_cnt S) as SC. destruct Hroom as [_ R2].
  destruct (existsb (@is_gen P) (p_hist p)) eqn:Eg.
  - rewrite (aq_use (G2 eq_refl)). exact R2.
  - apply length_zero_iff_nil in SC. rewrite SC. pose proof (ap_use (G1 eq_refl)) as K. rewrite K in R2. exact R2.
Qed.

Lemma a_free : forall cs0 : list scen,
  length cs0 = Z.to_nat (ncenters - Z.of_nat (length (filter (@busy P) (s_centers (p_e p))))) ->
  (forall cn, In cn cs0 -> n_new cn = None /\ n_newidx cn = None) ->
  let cs := filter (@busy P) (s_centers (p_e p)) ++ cs0 in first_free cs < length cs.
Proof using HR HG Hroom.
  clear -HR HG Hroom. intros cs0 L H cs.
  assert (B : forallb (@busy P) cs = true).
  { unfold cs. rewrite forallb_app. apply andb_true_iff. split; apply forallb_forall; intros cn Hc.
    - apply filter_In in Hc. tauto.
    - unfold busy. destruct (H cn Hc) as [_ ->]. reflexivity. }
  apply free_exists; [|exact B|].
  - intros cn k Hc Hk. exfalso. rewrite forallb_forall in B. specialize (B cn Hc). unfold busy in B. rewrite Hk in B. discriminate.
  - unfold cs. rewrite uses_app, uses_busy, (@uses_none cs0) by (intros cn Hc; apply H; exact Hc). rewrite app_length.
    pose proof a_uses. lia.
Qed.

Lemma a_result : forall e' l, hk_generate strategy (p_e p) s2 1 o = Ok (e', Some l) ->
  exists y F l1 a l2, l = [y] /\ s_F e' = Some F /\ s_evals e' = s_evals (p_e p) /\
    (match s_F (p_e p) with None => update_ranks dist s2 (p_e p) = Ok F | Some F0 => F = F0 end) /\
    s_centers e' = l1 ++ mkCen (n_xc a) (n_index a) (Some y) (n_newidx a) :: l2 /\ n_new a = None /\ n_newidx a = None /\
    exists cs0, l1 ++ a :: l2 = filter (@busy P) (s_centers (p_e p)) ++ cs0 /\
      (forall cn, In cn cs0 -> n_new cn = None).
Proof using Type.
  clear -p.
  intros e' l H. cbn [hk_generate sop_strategy sop_hooks] in H. apply sop_generate_cases in H.
  destruct H as [F [e1 [cs [pts [H1 [H2 [H3 [-> E]]]]]]]]. injection E as E0; subst pts.
  destruct (update_center_list_ok c _ _ _ _ _ H2) as [E1 [E2 [cs0 [E3 [E4 E5]]]]].
  rewrite E3 in H3. cbn [perturb] in H3. apply rbind_ok in H3. destruct H3 as [a [H3 H4]]. unfold geti in H3.
  destruct (nth_error (filter (@busy P) (s_centers (p_e p)) ++ cs0) (first_free (filter (@busy P) (s_centers (p_e p)) ++ cs0))) as [a0|] eqn:Ea; [|discriminate].
  injection H3 as ->. destruct (free_split _ Ea) as [l1 [l2 [F1 [F2 F3]]]].
  apply rbind_ok in H4. destruct H4 as [r [_ H4]]. apply rbind_ok in H4. destruct H4 as [y [_ H4]].
  rewrite <- F2 in H4. rewrite F1 in H4. rewrite upd_mid in H4. cbn [rbind app] in H4. injection H4 as <- <-.
  exists y, F, l1, a, l2. cbn [s_F s_evals s_centers]. split; [reflexivity|]. split; [reflexivity|]. split; [reflexivity|]. split; [exact H1|].
  split; [reflexivity|]. split; [exact F3|]. split.
  - assert (Hin : In a (filter (@busy P) (s_centers (p_e p)) ++ cs0)) by (rewrite F1; apply in_or_app; right; left; reflexivity).
    apply in_app_or in Hin. destruct Hin as [Hin|Hin]; [|apply E5; exact Hin]. apply filter_In in Hin. destruct Hin as [_ Hin].
    unfold busy in Hin. destruct (n_newidx a); [discriminate|reflexivity].
  - exists cs0. split; [symmetry; exact F1|]. intros cn Hc. apply E5. exact Hc.
Qed.

Lemma a_evals : num_evals s2 = Z.of_nat (length (s_evals (p_e p))) /\ s_evals (p_e p) <> [] /\
  length (completed (p_hist p)) = length (s_evals (p_e p)) /\ NoDup (map (@r_x P) (s_evals (p_e p))).
Proof using HR HG HS Hq Hroom Hq0 Hq2 Hasync Hs2.
  clear -HR HG HS Hq Hroom Hq0 Hq2 Hasync Hs2.
  destruct (SopInv_reached HR) as [I S]. pose proof a_two as H2.
  assert (LE : length (completed (p_hist p)) = length (s_evals (p_e p))) by (rewrite <- (si_arch S), map_length; reflexivity).
  split; [rewrite Hs2, (inv_num I), LE; reflexivity|]. split; [intros K; rewrite K in LE; simpl in LE; lia|]. split; [exact LE|].
  rewrite (evals_points S). pose proof (nodup_steady HR HS) as N. apply NoDup_app_r in N. exact N.
Qed.

Lemma a_F : exists F, match s_F (p_e p) with None => update_ranks dist s2 (p_e p) | Some F => Ok F end = Ok F /\
                 length F = length (s_evals (p_e p)).
Proof using HR HG HS Hq Hroom Hq0 Hq2 Hasync Hs2 Hd.
  clear -HR HG HS Hq Hroom Hq0 Hq2 Hasync Hs2 Hd.
  pose proof a_evals as [HN [Hne [LE ND]]]. pose proof a_two as H2.
  destruct HG as [G1 G2]. destruct (existsb (@is_gen P) (p_hist p)).
  - destruct (aq_F (G2 eq_refl)) as [F [-> L]]. eauto.
  - rewrite (ap_F (G1 eq_refl)).
    destruct (@update_ranks_total _ dist s2 (p_e p) HN Hne) as [F EF]; [apply separated_of; [exact Hd|exact ND|lia]|].
    destruct (update_ranks_ok _ _ _ EF) as [_ [_ [_ [_ [_ [_ [_ [_ [LF _]]]]]]]]]. eauto.
Qed.

Lemma a_total : (forall j x q, exists y, o j x q = Ok y) ->
  exists e' l, hk_generate strategy (p_e p) s2 1 o = Ok (e', Some l).
Proof using HR HG HS Hq Hroom Hq0 Hq2 Hasync Hs2 Hd Hm.
  clear -HR HG HS Hq Hroom Hq0 Hq2 Hasync Hs2 Hd Hm. intros Ho. destruct (SopInv_reached HR) as [I S]. pose proof a_evals as [HN [Hne [LE ND]]].
  destruct a_F as [F [EF LF]].
  destruct (@C29_center_selection P c tooclose ncenters s2 (p_e p) F LF HN Hne) as [e1 [_ [_ [_ [_ [E1 _]]]]]].
  { intros cn Hc. destruct (si_x S) as [_ XC _]. rewrite Forall_forall in XC. eapply cen_index. apply XC. exact Hc. }
  { exact Hm. }
  cbn [hk_generate sop_strategy sop_hooks]. unfold sop_generate. rewrite EF. cbn [rbind]. rewrite E1. cbn [rbind].
  destruct (update_center_list_ok c _ _ _ _ _ E1) as [E2 [E3 [cs0 [E4 [E5 E6]]]]].
  pose proof (@a_free cs0 E5 (fun cn Hc => proj2 (E6 cn Hc))) as Hf. cbv zeta in Hf. rewrite E2, E4. cbn [perturb].
  set (cs := filter (@busy P) (s_centers (p_e p)) ++ cs0) in *.
  assert (HC : forall cn, In cn cs -> n_index cn < length (s_evals (p_e p))).
  { intros cn Hc. apply in_app_or in Hc. destruct Hc as [Hc|Hc].
    - apply filter_In in Hc. destruct (si_x S) as [_ XC _]. rewrite Forall_forall in XC. eapply cen_index. apply XC. tauto.
    - eapply cen_index. apply E6. exact Hc. }
  unfold geti at 1. destruct (nth_error cs (first_free cs)) as [a|] eqn:Ea; [|apply nth_error_None in Ea; lia]. cbn [rbind].
  unfold geti. destruct (nth_error (s_evals (p_e p)) (n_index a)) as [r|] eqn:Er.
  2:{ apply nth_error_None in Er. assert (In a cs) as K by (eapply nth_error_In; exact Ea). apply HC in K. lia. }
  cbn [rbind]. destruct (Ho 0 (n_xc a) (r_sigma r)) as [y ->]. cbn [rbind].
  destruct (@upd_total _ cs (first_free cs) (fun cn => mkCen (n_xc cn) (n_index cn) (Some y) (n_newidx cn)) Hf) as [cs' ->]. cbn [rbind fst snd]. eauto.
Qed.
End Gen.

Lemma news_unique : forall l (a b : scen) y, NoDup (news l) -> In a l -> In b l -> n_new a = Some y -> n_new b = Some y -> a = b.
Proof using Type.
  clear. intros l. induction l as [|d l IH]; intros a b y N Ha Hb E1 E2; [destruct Ha|].
  unfold news in N. cbn [flat_map] in N. fold (news l) in N. pose proof (NoDup_app_r _ _ N) as N'.
  destruct Ha as [->|Ha], Hb as [->|Hb]; [reflexivity| | |eauto].
  - exfalso. rewrite E1 in N. cbn [app] in N. inversion N as [|? ? N1 N2]; subst. apply N1. apply in_news. eauto.
  - exfalso. rewrite E2 in N. cbn [app] in N. inversion N as [|? ? N1 N2]; subst. apply N1. apply in_news. eauto.
Qed.

(** ** Completion of an adaptive evaluation *)
Section Com.
Variables (p : proc) (o : outst P) (ev : Z) (v : val).
Hypothesis HR : Reached p.
Hypothesis HG : APost p.
Hypothesis HS : steady (p_hist p).
Hypothesis Hg : existsb (@is_gen P) (p_hist p) = true.
Hypothesis Hin : In o (p_out p).
Hypothesis Hev : o_ev o = Some ev.

Let s' : base := base_completed c (o_id o) (o_x o) v ev (p_s p).

Lemma c_found : exists l1 cn l2, s_centers (p_e p) = l1 ++ cn :: l2 /\ n_new cn = Some (o_x o) /\ n_newidx cn = None /\
  find_center (c_peqb c) (o_x o) (s_centers (p_e p)) = Some (length l1).
Proof using HG Hin Hpe.
  clear -HG Hin Hpe. destruct (aq_have HG _ Hin) as [cn [H1 [H2 H3]]].
  destruct (find_center (c_peqb c) (o_x o) (s_centers (p_e p))) as [i|] eqn:Ef.
  - destruct (find_center_some _ _ _ Ef) as [cn0 [y [E1 [E2 [E3 _]]]]]. apply Hpe in E3. subst y.
    assert (cn0 = cn) by (eapply news_unique; [exact (aq_nd HG)|eapply nth_error_In; exact E1|exact H1|exact E2|exact H2]). subst cn0.
    apply nth_error_split in E1. destruct E1 as [l1 [l2 [E1 E4]]]. exists l1, cn, l2. subst i. auto.
  - exfalso. clear -Ef H1 H2 Hpe. revert Ef. induction (s_centers (p_e p)) as [|a l IH]; [destruct H1|]. cbn [find_center]. unfold proposed at 1.
    destruct H1 as [->|H1].
    + rewrite H2, (proj2 (Hpe (o_x o) (o_x o)) eq_refl). discriminate.
    + destruct (match n_new a with Some y => _ | None => _ end); [discriminate|]. destruct (find_center (c_peqb c) (o_x o) l); [discriminate|]. auto.
Qed.

Lemma c_num : num_evals s' = Z.of_nat (Datatypes.S (length (s_evals (p_e p)))).
Proof using HR.
  clear -HR. destruct (SopInv_reached HR) as [I S]. unfold s'. destruct (base_completed_fields c (o_id o) (o_x o) v ev (p_s p)) as [-> _].
  rewrite (inv_num I), <- (si_arch S), map_length. lia.
Qed.

Lemma c_adjust : forall l1 cn l2, s_centers (p_e p) = l1 ++ cn :: l2 ->
  find_center (c_peqb c) (o_x o) (s_centers (p_e p)) = Some (length l1) ->
  exists e', adjust_memory dist ncenters (Some (length l1)) s'
    (mkSop (s_evals (p_e p) ++ [new_rec (o_x o) v]) (l1 ++ set_newidx (Z.to_nat (num_evals s' - 1)) cn :: l2) (s_F (p_e p))) = Ok e'.
Proof using HR HG HS Hin Hd Hq0 Hasync.
  clear -HR HG HS Hin Hd Hq0 Hasync. intros l1 cn l2 E Ef. destruct (SopInv_reached HR) as [I S].
  pose proof c_num as HN. set (k := Z.to_nat (num_evals s' - 1)).
  assert (LE : length (completed (p_hist p)) = length (s_evals (p_e p))) by (rewrite <- (si_arch S), map_length; reflexivity).
  assert (HU : match find_center (c_peqb c) (o_x o) (s_centers (p_e p)) with
     | None => (l1 ++ set_newidx k cn :: l2) = s_centers (p_e p)
     | Some i => upd (s_centers (p_e p)) i (@set_newidx P k) = Ok (l1 ++ set_newidx k cn :: l2) end).
  { rewrite Ef, E, upd_mid. reflexivity. }
  pose proof (@XInv_newidx P c s' (p_e p) (o_x o) v _ (si_x S) HN HU) as [_ XC _]. cbn [s_evals s_centers] in XC.
  rewrite Forall_forall in XC. specialize (XC (set_newidx k cn)). assert (Hi : In (set_newidx k cn) (l1 ++ set_newidx k cn :: l2)) by (apply in_or_app; right; left; reflexivity).
  specialize (XC Hi). eapply adjust_one with (k := k); cbn [s_evals s_centers].
  - rewrite HN, app_length. cbn [length]. lia.
  - rewrite map_app, (evals_points S). cbn [map r_x new_rec]. pose proof (nodup_steady HR HS) as N.
    apply NoDup_snoc; [exact (NoDup_app_r _ _ N)|]. intros K. apply in_split in Hin. destruct Hin as [o1 [o2 Eo]]. rewrite Eo, map_app in N. cbn [map] in N.
    rewrite <- app_assoc in N. apply NoDup_app_r in N. cbn [app] in N. inversion N as [|? ? N1 _]; subst. apply N1. apply in_or_app. right. exact K.
  - rewrite app_length. pose proof (aq_two HG). lia.
  - rewrite nth_error_app2, Nat.sub_diag by lia. reflexivity.
  - reflexivity.
  - unfold k. rewrite HN, app_length. cbn [length]. lia.
  - exact (cen_index XC).
Qed.

Lemma c_last : ev_last s' = 0%Z /\ (0 <= ev)%Z.
Proof using HR Hin Hev.
  clear -HR Hin Hev. destruct (SopInv_reached HR) as [I S]. split; [|pose proof (si_ev S _ Hin Hev); lia].
  unfold s', base_completed. cbn. destruct (ev_last (p_s p) <? ev)%Z; exact (si_last S).
Qed.

Lemma c_total : exists p', do_complete c strategy o ev v p = Ok p'.
Proof using HR HG HS Hin Hev Hd Hq0 Hasync Hpe.
  clear -s' HR HG HS Hin Hev Hd Hq0 Hasync Hpe. unfold do_complete, on_adapt_completed. rewrite (aq_kind HG _ Hin). fold s'.
  destruct c_found as [l1 [cn [l2 [E [E1 [E2 E3]]]]]]. destruct c_last as [L1 L2].
  cbn [hk_adapt_completed sop_strategy sop_hooks]. unfold sop_adapt_completed. rewrite L1.
  destruct (Z.leb_spec 0 ev) as [_|K]; [|lia]. rewrite E3, E, upd_mid. cbn [rbind]. rewrite Hasync.
  destruct (@c_adjust l1 cn l2 E E3) as [e' ->]. cbn [rbind]. eauto.
Qed.

Lemma others : forall o', In o' (del_out (o_id o) (p_out p)) -> In o' (p_out p) /\ o_x o' <> o_x o.
Proof using HR HS Hin Hq0 Hasync.
  clear -HR HS Hin Hq0 Hasync. intros o' Ho'. split; [eapply in_del_out; exact Ho'|]. destruct (SopInv_reached HR) as [I S].
  destruct (del_out_split _ _ (inv_nodup I) Hin) as [l1 [l2 [E1 E2]]]. rewrite E2 in Ho'. pose proof (nodup_steady HR HS) as N.
  apply NoDup_app_l in N. rewrite E1, map_app in N. cbn [map] in N. apply NoDup_remove_2 in N. intros K. apply N. rewrite <- K, <- map_app. apply in_map. exact Ho'.
Qed.

Lemma c_post : forall p', do_complete c strategy o ev v p = Ok p' -> APost p'.
Proof using HR HG HS Hin Hev Hq0 Hasync Hpe.
  clear -s' HR HG HS Hin Hev Hq0 Hasync Hpe. intros p' H.
  apply do_complete_ok in H. destruct H as [e' [l [nx [cv [-> K]]]]]. pose proof (aq_kind HG _ Hin) as Hk. rewrite Hk in K.
  destruct K as [n [cv0 [K1 _]]]. cbn [hk_adapt_completed sop_strategy sop_hooks] in K1. fold s' in K1 |- *.
  destruct c_found as [l1 [cn [l2 [E [E1 [E2 E3]]]]]]. destruct c_last as [L1 L2].
  destruct (base_completed_fields c (o_id o) (o_x o) v ev (p_s p)) as [_ [_ [_ [_ [_ [BQ [BH _]]]]]]]. fold s' in BQ, BH. clearbody s'.
  apply sop_completed_cases in K1. destruct K1 as [_ [_ K]].
  destruct K as [[_ K]|[_ [cs [Hcs K]]]]; [lia|]. rewrite E3, E, upd_mid in Hcs. injection Hcs as Hcs. rewrite E3, Hasync in K.
  destruct K as [[_ [K _]]|[[_ K]|[K _]]]; [discriminate| |discriminate].
  destruct (adjust_memory_ok _ _ _ _ _ K) as [F [_ [EC [_ [_ [_ [_ EF]]]]]]]. cbn [s_centers] in EC. rewrite <- Hcs in EC.
  assert (EN : news (s_centers e') = news (s_centers (p_e p))).
  { rewrite EC, E, !news_app. f_equal. }
  constructor.
  - cbn. rewrite BH. exact (aq_phase HG).
  - cbn. rewrite BQ. exact (aq_queue HG).
  - cbn [p_out]. intros o' Ho'. apply others in Ho'. apply (aq_kind HG). tauto.
  - cbn [p_hist]. rewrite completed_app, app_length. pose proof (aq_two HG). lia.
  - cbn [p_out p_e]. intros o' Ho'. apply others in Ho'. destruct Ho' as [Ho' Hne]. destruct (aq_have HG _ Ho') as [d [D1 [D2 D3]]].
    exists d. split; [|auto]. rewrite EC. rewrite E in D1. apply in_app_or in D1. apply in_or_app. destruct D1 as [D1|[D1|D1]]; [auto| |right; right; exact D1].
    subst d. congruence.
  - cbn [p_e]. rewrite EN. exact (aq_nd HG).
  - cbn [p_e p_hist]. rewrite EN, queued_later_app. intros y Hy. apply in_or_app. left. apply (aq_in HG). exact Hy.
  - cbn [p_e]. eexists. split; [exact EF|]. apply map_length.
  - cbn [p_e p_hist]. rewrite total_app, <- (aq_use HG), EC, E, Hk. cbn [total unfinished]. unfold uses. rewrite !filter_app, !app_length. cbn [filter].
    assert (C1 : claimed cn = true) by (unfold claimed; rewrite E1, E2; reflexivity).
    assert (C2 : claimed (set_newidx (Z.to_nat (num_evals s' - 1)) cn) = false) by (unfold claimed; cbn; rewrite E1; reflexivity).
    rewrite C1, C2. cbn [length]. lia.
  - cbn [p_hist]. rewrite total_app, Hk. cbn [total design_left]. pose proof (aq_left HG). lia.
Qed.
End Com.

(** ** All reachable states *)
Lemma AG_keep : forall (p p' : proc) ev, p_e p' = p_e p -> p_hist p' = p_hist p ++ [ev] ->
  (ev = EvNone \/ ev = EvTerminate \/ ev = EvStop \/ exists i, ev = EvAccept i) ->
  batch_queue (p_s p') = batch_queue (p_s p) -> phase (p_s p') = phase (p_s p) ->
  length (p_out p') = length (p_out p) ->
  (forall o, In o (p_out p') -> exists o', In o' (p_out p) /\ o_kind o = o_kind o' /\ o_x o = o_x o') ->
  AG p -> AG p'.
Proof using Type.
  clear. intros p p' ev E1 E2 Hev E3 E4 E5 E6 [G1 G2].
  assert (Z1 : is_gen ev = false /\ completed [ev] = [] /\ queued_later [ev] = [] /\ given_up true [ev] = [] /\ total (@design_left P val) [ev] = 0%Z /\
     total (@design_running P val) [ev] = 0%Z /\ total (@unfinished P val) [ev] = 0%Z).
  { destruct Hev as [->|[->|[->|[i ->]]]]; repeat split. }
  destruct Z1 as [Z1 [Z2 [Z3 [Z4 [Z5 [Z6 Z7]]]]]].
  unfold AG. rewrite E2, gen_snoc, Z1, orb_false_r. split; intros Hg.
  - destruct (G1 Hg) as [A1 A2 A3 A4 A5 A6 A7]. constructor; rewrite ?E1, ?E3, ?E4, ?E5, ?E2, ?total_app, ?Z5, ?Z6, ?Z7; auto; try lia.
    + intros o Ho. destruct (E6 o Ho) as [o' [H1 [-> _]]]. auto.
    + unfold given_up in *. rewrite flat_map_app, A7. exact Z4.
  - destruct (G2 Hg) as [A1 A2 A3 A4 A5 A6 A7 A8 A9 A10]. constructor; rewrite ?E1, ?E3, ?E4, ?E5, ?E2, ?total_app, ?Z5, ?Z6, ?Z7; auto; try lia.
    + intros o Ho. destruct (E6 o Ho) as [o' [H1 [-> _]]]. auto.
    + rewrite completed_app, app_length. lia.
    + intros o Ho. destruct (E6 o Ho) as [o' [H1 [_ ->]]]. auto.
    + intros y Hy. rewrite queued_later_app. apply in_or_app. left. auto.
Qed.

Lemma AG_reached : forall p, Reached p -> steady (p_hist p) -> AG p.
Proof using Hasync Hpe Hd Hq0 Hq2 Hm.
  clear -Hasync Hpe Hd Hq0 Hq2 Hm.
  intros p H. pattern p. revert p H. apply reached_ops.
  - intros s e Hc _. split; [|discriminate]. intros _. pose proof (Hq0 Hc) as HQ.
    destruct (construct_form _ _ _ _ Hc) as [d [_ [rows [_ [_ HS]]]]].
    unfold construct in Hc. apply rbind_ok in Hc. destruct Hc as [s1 [_ Hc]]. injection Hc as _ <-.
    apply sample_initial_ok in HS. destruct HS as [d1 [rows1 [_ [_ [_ ->]]]]].
    constructor; cbn [init_proc p_e p_out p_s p_hist s_F total]; auto.
    + intros o [].
    + cbn. cbn in HQ. rewrite HQ. lia.
  - intros p d o out p' HR IH Hp HC. destruct (SopInv_reached HR) as [I S].
    destruct (@propose_async Hasync p d o (si_conv S)) as [[ev [Hev [out1 [p1 [E [E1 [E2 [E3 [E4 E5]]]]]]]]]|
      [[q [x [Eq [out1 [p1 [E [E1 [E2 [E3 [E4 E5]]]]]]]]]]|[Eq [s2 [Es D]]]]].
    + rewrite E in Hp. injection Hp as <- <-. pose proof HC as HC'. rewrite E5 in HC'. apply steady_prefix in HC'.
      eapply (@AG_keep p) with (ev := ev); eauto.
      * destruct Hev as [->| ->]; auto.
      * rewrite E2. reflexivity.
      * rewrite E2. eauto.
    + rewrite E in Hp. injection Hp as <- <-. pose proof HC as HC'. rewrite E5 in HC'. apply steady_prefix in HC'.
      specialize (IH HC'). unfold AG. rewrite E5, gen_snoc. cbn [is_gen]. rewrite orb_false_r. destruct IH as [G1 G2]. split; intros Hg.
      * destruct (G1 Hg) as [A1 A2 A3 A4 A5 A6 A7].
        assert (PK : phase_kind (p_s p) = KInit) by (unfold phase_kind; rewrite A3; reflexivity).
        constructor; rewrite ?E1, ?E2, ?E3, ?E4, ?E5, ?PK, ?total_app; cbn [total design_left design_running unfinished]; auto; try lia.
        -- intros o' Ho'. apply in_app_or in Ho'. destruct Ho' as [Ho'|[<-|[]]]; [auto|]. first [exact PK|reflexivity].
        -- rewrite Eq, app_length in A4. cbn [length] in A4. lia.
        -- rewrite app_length. cbn [length]. lia.
        -- unfold given_up in *. rewrite flat_map_app, A7. reflexivity.
      * exfalso. pose proof (aq_queue (G2 Hg)) as K. rewrite Eq in K. destruct q; discriminate.
    + destruct (hk_generate strategy (p_e p) s2 1 o) as [[e' [l|]]|x] eqn:Eg.
      3:{ rewrite D in Hp. discriminate. }
      2:{ exfalso. cbn [hk_generate sop_strategy sop_hooks] in Eg. apply sop_generate_cases in Eg.
          destruct Eg as [F [e1 [cs [pts [_ [_ [_ [_ K]]]]]]]]. discriminate. }
      destruct D as [out1 [p1 [E [E1 [E2 D]]]]]. rewrite E in Hp. injection Hp as <- <-.
      destruct (@a_result p s2 o e' l Eg) as [y [F [l1 [a [l2 [El [F1 [F2 [F3 [F4 [F5 [F6 [cs0 [F7 F8]]]]]]]]]]]]]]. subst l.
      destruct D as [[K _]|[q [x [El [D1 [D2 D3]]]]]]; [discriminate|].
      assert (q = [] /\ x = y) as [-> ->].
      { change [y] with ([] ++ [y]) in El. apply app_inj_tail in El. destruct El as [-> ->]. auto. }
      assert (HC' : steady (p_hist p)) by (rewrite D3 in HC; eapply steady_prefix; exact HC).
      assert (HRo : room ncenters (p_hist p)).
      { destruct HC as [_ [_ K]]. eapply K. rewrite D3. reflexivity. }
      specialize (IH HC').
      pose proof (@a_two p HR IH HC' Eq HRo) as T2.
      destruct (@a_F p s2 HR IH HC' Eq HRo Es) as [F' [EF LF]].
      assert (F' = F) by (destruct (s_F (p_e p)); congruence). subst F'.
      assert (Hy : ~ In y (q0 ++ queued_later (p_hist p))).
      { destruct HC as [_ [N _]]. rewrite D3, queued_later_app in N. unfold queued_later at 2 in N. cbn [flat_map app] in N.
        rewrite app_assoc in N. apply NoDup_remove_2 in N. rewrite app_nil_r in N. exact N. }
      (* the state before *)
      assert (ST : NoDup (news (filter (@busy P) (s_centers (p_e p)))) /\
        (forall z, In z (news (filter (@busy P) (s_centers (p_e p)))) -> In z (queued_later (p_hist p))) /\
        uses (filter (@busy P) (s_centers (p_e p))) = total (@unfinished P val) (p_hist p) /\
        (Z.of_nat (length q0) + total (@design_left P val) (p_hist p))%Z = 0%Z /\
        forall o', In o' (p_out p) -> o_kind o' = KAdapt /\ exists cn, In cn (filter (@busy P) (s_centers (p_e p))) /\ n_new cn = Some (o_x o') /\ n_newidx cn = None).
      { rewrite uses_busy. destruct IH as [G1 G2]. destruct (existsb (@is_gen P) (p_hist p)) eqn:Egen.
        - destruct (G2 eq_refl) as [A1 A2 A3 A4 A5 A6 A7 A8 A9 A10]. split; [apply news_filter; exact A6|]. split.
          + intros z Hz. apply A7. apply in_news in Hz. destruct Hz as [cn [Z1 Z2]]. apply filter_In in Z1. apply in_news. exists cn. tauto.
          + split; [exact A9|]. split; [exact A10|]. intros o' Ho'. split; [auto|]. destruct (A5 o' Ho') as [cn [C1 [C2 C3]]]. exists cn. split; [|auto].
            apply filter_In. split; [exact C1|]. unfold busy. rewrite C3. reflexivity.
        - destruct (G1 eq_refl) as [A1 A2 A3 A4 A5 A6 A7]. pose proof (si_cnt S) as SC. rewrite Egen in SC. apply length_zero_iff_nil in SC.
          rewrite SC. cbn [filter news flat_map]. split; [constructor|]. split; [intros z []|]. split; [symmetry; exact A6|].
          split; [rewrite <- A4, Eq; reflexivity|]. destruct HRo as [HRo _]. rewrite A5 in HRo.
          intros o' Ho'. exfalso. destruct (p_out p); [exact Ho'|]. cbn [length] in HRo. lia. }
      destruct ST as [S1 [S2 [S3 [S4 S5]]]].
      assert (NL : news (l1 ++ a :: l2) = news (filter (@busy P) (s_centers (p_e p)))).
      { rewrite F7, news_app, (@news_none cs0 F8), app_nil_r. reflexivity. }
      assert (NA : news (l1 ++ a :: l2) = news l1 ++ news l2).
      { rewrite news_app. f_equal. unfold news at 1. cbn [flat_map]. rewrite F5. reflexivity. }
      set (b := mkCen (n_xc a) (n_index a) (Some y) (n_newidx a)) in *.
      assert (NB : news (l1 ++ b :: l2) = news l1 ++ y :: news l2).
      { rewrite news_app. reflexivity. }
      unfold AG. rewrite D3, existsb_app. cbn [existsb is_gen orb]. rewrite orb_true_r. split; [discriminate|]. intros _.
      constructor; rewrite ?E1, ?D1, ?D2, ?D3.
      * exact E2.
      * reflexivity.
      * intros o' Ho'. apply in_app_or in Ho'. destruct Ho' as [Ho'|[<-|[]]]; [|reflexivity]. apply S5. exact Ho'.
      * rewrite completed_app, app_length. lia.
      * rewrite F4. intros o' Ho'. apply in_app_or in Ho'. destruct Ho' as [Ho'|[<-|[]]].
        -- destruct (S5 o' Ho') as [_ [cn [C1 [C2 C3]]]]. exists cn. split; [|auto].
           assert (K : In cn (l1 ++ a :: l2)) by (rewrite F7; apply in_or_app; left; exact C1).
           apply in_app_or in K. apply in_or_app. destruct K as [K|[K|K]]; [auto| |right; right; exact K]. subst cn. congruence.
        -- exists b. split; [apply in_or_app; right; left; reflexivity|]. split; [reflexivity|]. exact F6.
      * rewrite F4, NB. rewrite <- NL, NA in S1, S2.
        apply (Permutation_NoDup (l := y :: news l1 ++ news l2)); [apply Permutation_middle|].
        constructor; [|exact S1]. intros K. apply Hy. apply in_or_app. right. apply S2. exact K.
      * rewrite F4, NB, queued_later_app. rewrite <- NL, NA in S2. intros z Hz. apply in_or_app.
        assert (K : z = y \/ In z (news l1 ++ news l2)) by (rewrite in_app_iff in *; destruct Hz as [Hz|[Hz|Hz]]; auto).
        destruct K as [->|K]; [right; left; reflexivity|left; apply S2; exact K].
      * rewrite F1, F2. exists F. split; [reflexivity|exact LF].
      * rewrite F4, total_app. cbn [total unfinished]. change (b :: l2) with ([b] ++ l2). rewrite !uses_app.
        assert (U1 : uses [b] = 1%Z) by (unfold uses, claimed, b; cbn [filter n_new n_newidx]; rewrite F6; reflexivity).
        assert (U2 : uses (l1 ++ a :: l2) = total (@unfinished P val) (p_hist p)) by (rewrite F7, uses_app, S3; rewrite (@uses_none cs0 F8); apply Z.add_0_r).
        change (a :: l2) with ([a] ++ l2) in U2. rewrite !uses_app in U2.
        assert (U3 : uses [a] = 0%Z) by (apply uses_none; intros cn [<-|[]]; exact F5). lia.
      * rewrite total_app. cbn [total design_left]. lia.
  - intros p o HR IH Hin Ho HC. assert (HC' : steady (p_hist p)) by (eapply steady_prefix; exact HC).
    eapply (@AG_keep p) with (ev := EvAccept (o_id o)); try reflexivity; auto.
    + right; right; right. eauto.
    + cbn. unfold set_ev. apply map_length.
    + cbn. intros o' Ho'. apply in_set_ev in Ho'. destruct Ho' as [o2 [K1 [_ [K3 [K2 _]]]]]. eauto.
  - intros p o HR IH Hin Ho HC. assert (HC' : steady (p_hist p)) by (eapply steady_prefix; exact HC).
    specialize (IH HC'). pose proof (Inv_reached HR) as I. destruct IH as [G1 G2].
    pose proof (@del_out_length _ (p_out p) o (inv_nodup I) Hin) as DL.
    unfold AG. cbn [do_reject p_hist]. rewrite gen_snoc. cbn [is_gen]. rewrite orb_false_r. split; intros Hg.
    + destruct (G1 Hg) as [A1 A2 A3 A4 A5 A6 A7]. pose proof (A2 o Hin) as Hk.
      assert (BQ : batch_queue (p_s (do_reject c o p)) = batch_queue (p_s p) ++ [o_x o] /\ phase (p_s (do_reject c o p)) = phase (p_s p)).
      { cbn. rewrite Hk. split; reflexivity. }
      destruct BQ as [BQ BH].
      constructor; rewrite ?BQ, ?BH; cbn [do_reject p_e p_out p_hist]; rewrite ?Hk, ?total_app; cbn [total design_left design_running unfinished]; auto; try lia.
      * intros o' Ho'. apply in_del_out in Ho'. auto.
      * rewrite app_length. cbn [length]. lia.
      * unfold given_up in *. rewrite flat_map_app, A7. reflexivity.
    + destruct (G2 Hg) as [A1 A2 A3 A4 A5 A6 A7 A8 A9 A10]. pose proof (A3 o Hin) as Hk.
      assert (BQ : batch_queue (p_s (do_reject c o p)) = batch_queue (p_s p) /\ phase (p_s (do_reject c o p)) = phase (p_s p)).
      { cbn. rewrite Hk. unfold on_adapt_reject. rewrite Hasync. split; reflexivity. }
      destruct BQ as [BQ BH].
      constructor; rewrite ?BQ, ?BH; cbn [do_reject p_e p_out p_hist]; rewrite ?Hk, ?total_app; cbn [total design_left design_running unfinished]; auto; try lia.
      * intros o' Ho'. apply in_del_out in Ho'. auto.
      * rewrite completed_app, app_length. lia.
      * intros o' Ho'. apply in_del_out in Ho'. auto.
      * intros z Hz. rewrite queued_later_app. apply in_or_app. left. auto.
  - intros p o ev v p' HR IH Hin Ho Hc HC.
    assert (EH : p_hist p' = p_hist p ++ [EvComplete (o_id o) (o_kind o) (o_x o) v]).
    { apply do_complete_ok in Hc. destruct Hc as [e' [l [nx [cv [-> K]]]]]. reflexivity. }
    assert (HC' : steady (p_hist p)) by (rewrite EH in HC; eapply steady_prefix; exact HC).
    specialize (IH HC'). unfold AG. rewrite EH, gen_snoc. cbn [is_gen]. rewrite orb_false_r. split; intros Hg.
    + destruct (proj1 IH Hg) as [A1 A2 A3 A4 A5 A6 A7]. pose proof (A2 o Hin) as Hk. pose proof (Inv_reached HR) as I.
      pose proof (@del_out_length _ (p_out p) o (inv_nodup I) Hin) as DL.
      apply do_complete_ok in Hc. destruct Hc as [e' [l [nx [cv [-> K]]]]]. rewrite Hk in K. destruct K as [K _].
      cbn [hk_initial_completed sop_strategy sop_hooks] in K. unfold sop_initial_completed in K.
      assert (EF : s_F e' = None) by (destruct (_ <=? _)%Z in K; injection K as <-; exact A1).
      destruct (base_completed_fields c (o_id o) (o_x o) v ev (p_s p)) as [_ [_ [_ [_ [_ [BQ [BH _]]]]]]].
      set (s' := base_completed c (o_id o) (o_x o) v ev (p_s p)) in *. clearbody s'.
      constructor; cbn [p_e p_out p_hist]; rewrite ?Hk, ?total_app; cbn [total design_left design_running unfinished]; auto; try lia.
      * intros o' Ho'. apply in_del_out in Ho'. auto.
      * cbn. rewrite BH. exact A3.
      * cbn. rewrite BQ. lia.
      * unfold given_up in *. rewrite flat_map_app, A7. reflexivity.
    + eapply (@c_post p o ev v); eauto. exact (proj2 IH Hg).
  - intros p o ev HR IH Hin Ho HC. assert (HC' : steady (p_hist p)) by (eapply steady_prefix; exact HC).
    specialize (IH HC'). pose proof (Inv_reached HR) as I. destruct IH as [G1 G2].
    pose proof (@del_out_length _ (p_out p) o (inv_nodup I) Hin) as DL.
    unfold AG. cbn [do_abort p_hist]. rewrite gen_snoc. cbn [is_gen]. rewrite orb_false_r. split; intros Hg.
    + destruct (G1 Hg) as [A1 A2 A3 A4 A5 A6 A7]. pose proof (A2 o Hin) as Hk.
      assert (BQ : batch_queue (p_s (do_abort c o p)) = batch_queue (p_s p) ++ [o_x o] /\ phase (p_s (do_abort c o p)) = phase (p_s p)).
      { cbn. rewrite Hk. split; reflexivity. }
      destruct BQ as [BQ BH].
      constructor; rewrite ?BQ, ?BH; cbn [do_abort p_e p_out p_hist]; rewrite ?Hk, ?total_app; cbn [total design_left design_running unfinished]; auto; try lia.
      * intros o' Ho'. apply in_del_out in Ho'. auto.
      * rewrite app_length. cbn [length]. lia.
      * unfold given_up in *. rewrite flat_map_app, A7. reflexivity.
    + destruct (G2 Hg) as [A1 A2 A3 A4 A5 A6 A7 A8 A9 A10]. pose proof (A3 o Hin) as Hk.
      assert (BQ : batch_queue (p_s (do_abort c o p)) = batch_queue (p_s p) /\ phase (p_s (do_abort c o p)) = phase (p_s p)).
      { cbn. rewrite Hk. split; reflexivity. }
      destruct BQ as [BQ BH].
      constructor; rewrite ?BQ, ?BH; cbn [do_abort p_e p_out p_hist]; rewrite ?Hk, ?total_app; cbn [total design_left design_running unfinished]; auto; try lia.
      * intros o' Ho'. apply in_del_out in Ho'. auto.
      * rewrite completed_app, app_length. lia.
      * intros o' Ho'. apply in_del_out in Ho'. auto.
      * intros z Hz. rewrite queued_later_app. apply in_or_app. left. auto.
  - intros p HR IH HC. assert (HC' : steady (p_hist p)) by (eapply steady_prefix; exact HC).
    eapply (@AG_keep p) with (ev := EvStop); try reflexivity; auto. eauto.
  - intros p HR IH [K _]. exfalso. cbn [do_resume p_hist] in K. rewrite count_app in K. unfold count at 2 in K. simpl in K. lia.
Qed.

Lemma async_never_fails : forall p, Reached p -> steady (p_hist p) ->
  (forall d o, (forall j x q, exists y, o j x q = Ok y) ->
     ((Z.of_nat (length q0) + total (@design_left P val) (p_hist p) = 0)%Z -> room ncenters (p_hist p)) ->
     exists r, do_propose c strategy d o p = Ok r) /\
  (forall o ev v, In o (p_out p) -> o_ev o = Some ev -> exists p', do_complete c strategy o ev v p = Ok p').
Proof using Hasync Hpe Hd Hq0 Hq2 Hm.
  intros p HR HC. pose proof (AG_reached HR HC) as HG. destruct (SopInv_reached HR) as [I S]. split.
  - intros d o Ho Hr. destruct (@propose_async Hasync p d o (si_conv S)) as [[ev [Hev [out1 [p1 [E _]]]]]|
      [[q [x [Eq [out1 [p1 [E _]]]]]]|[Eq [s2 [Es D]]]]]; [eauto..|].
    assert (HRo : room ncenters (p_hist p)).
    { apply Hr. destruct HG as [G1 G2]. destruct (existsb (@is_gen P) (p_hist p)).
      - exact (aq_left (G2 eq_refl)).
      - rewrite <- (ap_left (G1 eq_refl)), Eq. reflexivity. }
    destruct (@a_total p s2 o HR HG HC Eq HRo Es Ho) as [e' [l El]]. rewrite El in D.
    destruct D as [out1 [p1 [E _]]]. eauto.
  - intros o ev v Hin Ho. destruct (existsb (@is_gen P) (p_hist p)) eqn:Eg.
    + pose proof (proj2 HG Eg) as HP. eapply c_total; eauto.
    + pose proof (proj1 HG Eg) as HP. unfold do_complete. rewrite (ap_kind HP _ Hin). unfold on_initial_completed.
      cbn [hk_initial_completed sop_strategy sop_hooks]. unfold sop_initial_completed. destruct (_ <=? _)%Z; cbn [rbind]; eauto.
Qed.
End Async.

(** ** C31, positive part for asynchronous strategies.  [room] bounds the number of workers: at every
    request served by a search the design is finished and fewer than ncenters adaptive proposals have
    no value yet. *)
Theorem C31_async_never_fails_partial : forall P (c : cfg P val) dist tooclose ncenters design s0 e0,
  let strategy := sop_strategy c dist tooclose ncenters in
  construct c strategy design sop0 = Ok (s0, e0) ->
  (* configuration *)
  c_async c = true -> c_max_evals c <> Z.of_nat (c_num_pts c) -> 2 <= length (batch_queue s0) ->
  (forall x y, c_peqb c x y = true <-> x = y) -> (forall x y, x <> y -> ~ (dist x y == 0)%Q) ->
  forall p, reached c strategy design sop0 p ->
  (* schedule *)
  count (@is_resume P val) (p_hist p) = 0 -> NoDup (batch_queue s0 ++ queued_later (p_hist p)) ->
  (forall h1 n r h2, p_hist p = h1 ++ EvGenerate n r :: h2 -> room ncenters h1) ->
  (* no call raises *)
  (forall d o, (forall j x q, exists y, o j x q = Ok y) ->
     ((Z.of_nat (length (batch_queue s0)) + total (@design_left P val) (p_hist p) = 0)%Z -> room ncenters (p_hist p)) ->
     exists r, do_propose c strategy d o p = Ok r) /\
  (forall o ev v, In o (p_out p) -> o_ev o = Some ev -> exists p', do_complete c strategy o ev v p = Ok p').
Proof.
  intros P c dist tooclose ncenters design s0 e0 strategy Hc H1 H4 H5 H6 H7 p HR A B D.
  apply (@async_never_fails P c dist tooclose ncenters design (batch_queue s0) H1 H4 H6 H7); auto.
  - intros s e Hs. unfold strategy in Hc. rewrite Hs in Hc. injection Hc as -> _. reflexivity.
  - repeat split; assumption || (eapply D; eassumption).
Qed.
