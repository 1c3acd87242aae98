(** * Properties of SOPStrategy (C27-C30).

    The theorems range over all configurations, numbers of centers, distance functions, candidate
    searches, objective values (rational or +inf), schedules, crashes and resumes. *)
From Coq Require Import List Arith ZArith Lia Bool QArith Qpower Permutation Sorted.
From Verif Require Import Base PyList Strategy StrategySpec StrategyProofs StrategyInv StrategyInv2
  StrategyInv3 PropStrategy SRBF Pareto ParetoProofs PropPareto SOP SOPProofs SOPCenters SOPInv.
Import ListNotations.
Local Close Scope Q_scope.

Set Implicit Arguments.

(** ** Specification *)
Section Spec.
Variable P : Type.
Variable dist : P -> P -> Q.
Variable peqb : P -> P -> bool.
Notation srec := (srec P).
Notation scen := (scen P).
Notation frow := (frow P).

(** [d] is the distance from [x] to the nearest of the points [xs] that is not at distance 0. *)
Definition nearest_is (xs : list P) (x : P) (d : Q) : Prop :=
  (exists y, In y xs /\ (dist x y == d)%Q) /\ ~ (d == 0)%Q /\
  forall y, In y xs -> ~ (dist x y == 0)%Q -> (d <= dist x y)%Q.

(** Entry [j] is better than entry [i] in both objectives: smaller value and larger distance to
    its nearest neighbour. *)
Definition better (evals : list srec) (j i : nat) : Prop :=
  exists rj ri dj di, nth_error evals j = Some rj /\ nth_error evals i = Some ri /\
    nearest_is (map (@r_x P) evals) (r_x rj) dj /\ nearest_is (map (@r_x P) evals) (r_x ri) di /\
    vlt (r_fx rj) (r_fx ri) = true /\ (di < dj)%Q.
Definition on_front (evals : list srec) (i : nat) : Prop := ~ exists j, better evals j i.

(** New content of an archive entry when [f] of the processed centers that refer to it have
    failed; [touched]: some processed center refers to it. *)
Definition memory_rule (f : nat) (touched : Prop) (r r' : srec) : Prop :=
  r_x r' = r_x r /\ r_fx r' = r_fx r /\
  let nf := r_nfail r + f in
  let fresh := r_nfail r' = 0 /\ (r_sigma r' == r_max)%Q in
  (r_ntabu r = 5 -> r_ntabu r' = 0 /\ fresh) /\
  (r_ntabu r <> 5 -> touched -> 3 < nf -> r_ntabu r' = 1 /\ fresh) /\
  (r_ntabu r <> 5 -> (~ touched \/ nf <= 3) ->
     r_ntabu r' = (if r_ntabu r =? 0 then 0 else S (r_ntabu r)) /\
     r_nfail r' = nf /\ (r_sigma r' == r_max * (1 # 2) ^ Z.of_nat nf)%Q).

(** The centers processed when the evaluation of [x] completes. *)
Definition processed (async : bool) (x : P) (cs : list scen) : list scen :=
  if async then match find (proposed peqb x) cs with Some cn => [cn] | None => cs end else cs.

(** A failed center at entry [k]: its new point is not on the front. *)
Definition failed_at (evals : list srec) (k : nat) (cn : scen) : Prop :=
  n_index cn = k /\ exists i, n_newidx cn = Some i /\ ~ on_front evals i.

(** The table of ranks is the table of Pareto layers of the archive (C25). *)
Definition pareto_ranks (evals : list srec) (F : list frow) : Prop :=
  length F = length evals /\
  (forall i row r, nth_error F i = Some row -> nth_error evals i = Some r ->
     w_x row = r_x r /\ w_fx row = r_fx r /\ w_tabu row = r_ntabu r /\ w_nfail row = r_nfail r) /\
  let rank i k := exists row, nth_error F i = Some row /\ w_rank row = Some k in
  (forall i, i < length evals -> (rank i 1 <-> on_front evals i)) /\
  (forall i k, rank i k -> k <> 1 -> exists j, rank j (k - 1) /\ better evals j i) /\
  (forall i j k, rank i k -> better evals j i -> exists k', rank j k' /\ k' < k).
End Spec.

Section Aux.
Variable P : Type.
Variable dist : P -> P -> Q.
Notation srec := (srec P).

Lemma Qmin_list_spec : forall l q, let m := Qmin_list q l in
  (m = q \/ In m l) /\ (m <= q)%Q /\ forall v, In v l -> (m <= v)%Q.
Proof.
  intros l. induction l as [|a l IH]; intros q; unfold Qmin_list; simpl.
  - split; [auto|]. split; [apply Qle_refl|]. intros v [].
  - fold (Qmin_list (if Qlt_b a q then a else q) l).
    destruct (IH (if Qlt_b a q then a else q)) as [A [B C]].
    destruct (Qlt_b a q) eqn:E.
    + apply Qlt_b_true in E. split; [destruct A as [->|A]; auto|]. split.
      * eapply Qle_trans; [exact B|]. apply Qlt_le_weak. exact E.
      * intros v [<-|Hv]; [exact B|auto].
    + apply Qlt_b_false in E. split; [destruct A as [A|A]; auto|]. split; [exact B|].
      intros v [<-|Hv]; [eapply Qle_trans; eauto|auto].
Qed.

Lemma nearest_spec : forall x xs d, nearest dist x xs = Ok d -> nearest_is dist xs x d.
Proof.
  intros x xs d H. unfold nearest in H. destruct (nonzero_dists dist x xs) as [|q l] eqn:E; [discriminate|].
  injection H as <-. destruct (Qmin_list_spec l q) as [A [B C]]. cbv zeta in A, B, C.
  assert (NZ : forall v, In v (q :: l) -> In v (map (dist x) xs) /\ ~ (v == 0)%Q).
  { intros v Hv. rewrite <- E in Hv. unfold nonzero_dists in Hv. apply filter_In in Hv. destruct Hv as [H1 H2].
    split; [exact H1|]. intros K. apply Qeq_bool_iff in K. rewrite K in H2. discriminate. }
  assert (IM : In (Qmin_list q l) (q :: l)) by (destruct A as [->|A]; [left; reflexivity|right; exact A]).
  destruct (NZ _ IM) as [N1 N2]. apply in_map_iff in N1. destruct N1 as [y [Ey Hy]].
  split; [exists y; split; [exact Hy|rewrite Ey; reflexivity]|]. split; [exact N2|].
  intros z Hz Hn. assert (Iz : In (dist x z) (q :: l)).
  { rewrite <- E. unfold nonzero_dists. apply filter_In. split; [apply in_map; exact Hz|].
    destruct (Qeq_bool (dist x z) 0) eqn:Ez; [|reflexivity]. apply Qeq_bool_iff in Ez. contradiction. }
  destruct Iz as [<-|Iz]; auto.
Qed.

Lemma nearest_unique : forall xs x d d', nearest_is dist xs x d -> nearest_is dist xs x d' -> (d == d')%Q.
Proof.
  assert (G : forall xs x d d', nearest_is dist xs x d -> nearest_is dist xs x d' -> (d <= d')%Q).
  { intros xs x d d' [_ [_ A]] [[y [Hy Ey]] [Hn _]]. rewrite <- Ey. apply A; [exact Hy|]. rewrite Ey. exact Hn. }
  intros. apply Qle_antisym; eauto.
Qed.

Lemma nth_objectives : forall (evals : list srec) ds i, nth_error (objectives evals ds) i =
  match nth_error evals i, nth_error ds i with Some r, Some d => Some [r_fx r; Fin (- d)] | _, _ => None end.
Proof.
  intros evals. unfold objectives. induction evals as [|r l IH]; intros [|d ds] [|i]; simpl; try reflexivity.
  - destruct (nth_error l i); reflexivity.
  - apply IH.
Qed.

Lemma beats_better : forall (evals : list srec) ds,
  mapR (fun r => nearest dist (r_x r) (map (@r_x P) evals)) evals = Ok ds ->
  forall j i, beats vlt (objectives evals ds) j i <-> better dist evals j i.
Proof.
  intros evals ds H j i. destruct (mapR_nth _ _ H) as [L N].
  assert (G : forall k r, nth_error evals k = Some r -> exists d, nth_error ds k = Some d /\ nearest_is dist (map (@r_x P) evals) (r_x r) d).
  { intros k r E. assert (k < length ds) by (rewrite L; apply nth_error_Some; congruence).
    destruct (nth_error ds k) as [d|] eqn:Ed; [|apply nth_error_None in Ed; lia].
    exists d. split; [reflexivity|]. apply N in Ed. destruct Ed as [r' [E1 E2]].
    assert (r' = r) by congruence. subst r'. apply nearest_spec. exact E2. }
  unfold beats, better. split.
  - intros [a [b [Ha [Hb B]]]]. rewrite nth_objectives in Ha, Hb.
    destruct (nth_error evals j) as [rj|] eqn:Ej; [|discriminate]. destruct (nth_error evals i) as [ri|] eqn:Ei; [|discriminate].
    destruct (G _ _ Ej) as [dj [Dj Nj]]. destruct (G _ _ Ei) as [di [Di Ni]]. rewrite Dj in Ha. rewrite Di in Hb.
    injection Ha as <-. injection Hb as <-. exists rj, ri, dj, di. repeat split; auto; try apply Nj; try apply Ni.
    + inversion B; subst; assumption.
    + inversion B as [|? ? ? ? _ B2]; subst. inversion B2 as [|? ? ? ? B3 _]; subst. simpl in B3. apply Qlt_b_true in B3.
      apply Qopp_lt_compat in B3. rewrite !Qopp_involutive in B3. exact B3.
  - intros [rj [ri [dj [di [Ej [Ei [Nj [Ni [B1 B2]]]]]]]]].
    destruct (G _ _ Ej) as [dj' [Dj Nj']]. destruct (G _ _ Ei) as [di' [Di Ni']].
    exists [r_fx rj; Fin (- dj')], [r_fx ri; Fin (- di')]. rewrite !nth_objectives, Ej, Ei, Dj, Di.
    split; [reflexivity|]. split; [reflexivity|]. constructor; [exact B1|]. constructor; [|constructor].
    simpl. apply Qlt_b_true. apply Qopp_lt_compat.
    rewrite (nearest_unique Ni' Ni), (nearest_unique Nj' Nj). exact B2.
Qed.

Lemma update_ranks_pareto : forall (s : base P val) (e : sop P) F, update_ranks dist s e = Ok F ->
  pareto_ranks dist (s_evals e) F.
Proof.
  intros s e F H. destruct (update_ranks_ok _ _ _ H) as [ds [ranks [Ed [En [Ld [Lr [_ [_ [LF N]]]]]]]]].
  assert (HM : matrix 2 (objectives (s_evals e) ds)).
  { split; [lia|]. apply Forall_forall. intros a Hc. unfold objectives in Hc. apply in_map_iff in Hc.
    destruct Hc as [rd [<- _]]. reflexivity. }
  assert (Lo : length (objectives (s_evals e) ds) = length (s_evals e)).
  { unfold objectives. rewrite map_length, combine_length. lia. }
  destruct (C25_nd_sorting vlt_ltb_ok 100%Z HM) as [rk [E [_ [R1 [_ [R2 [R3 _]]]]]]].
  rewrite En in E. injection E as <-. rewrite Lo in R1.
  assert (RK : forall i k, (exists row, nth_error F i = Some row /\ w_rank row = Some k) <-> nth_error ranks i = Some (Some k)).
  { intros i k. split.
    - intros [row [E1 E2]]. assert (i < length F) by (apply nth_error_Some; congruence).
      destruct (nth_error (s_evals e) i) as [r|] eqn:Er; [|apply nth_error_None in Er; lia].
      destruct (nth_error ds i) as [d|] eqn:Edi; [|apply nth_error_None in Edi; lia].
      destruct (nth_error ranks i) as [x|] eqn:Ex; [|apply nth_error_None in Ex; lia].
      rewrite (N _ _ _ _ Er Edi Ex) in E1. injection E1 as <-. simpl in E2. congruence.
    - intros E1. assert (i < length ranks) by (apply nth_error_Some; congruence).
      destruct (nth_error (s_evals e) i) as [r|] eqn:Er; [|apply nth_error_None in Er; lia].
      destruct (nth_error ds i) as [d|] eqn:Edi; [|apply nth_error_None in Edi; lia].
      eexists. split; [apply (N _ _ _ _ Er Edi E1)|reflexivity]. }
  split; [exact LF|]. split.
  - intros i row r E1 E2. assert (i < length (s_evals e)) by (apply nth_error_Some; congruence).
    destruct (nth_error ds i) as [d|] eqn:Edi; [|apply nth_error_None in Edi; lia].
    destruct (nth_error ranks i) as [x|] eqn:Ex; [|apply nth_error_None in Ex; lia].
    rewrite (N _ _ _ _ E2 Edi Ex) in E1. injection E1 as <-. auto.
  - cbv zeta. split; [|split].
    + intros i Hi. rewrite RK. rewrite (R1 ltac:(lia) i Hi). unfold on_front. split; intros K [j B]; apply K; exists j;
        apply (beats_better _ Ed); exact B.
    + intros i k Hr Hk. apply RK in Hr. destruct (R2 i k Hr Hk) as [j [A B]]. exists j. rewrite RK.
      split; [exact A|]. apply (beats_better _ Ed). exact B.
    + intros i j k Hr B. apply RK in Hr. apply (beats_better _ Ed) in B. destruct (R3 i j k Hr B) as [k' [A1 A2]].
      exists k'. rewrite RK. auto.
Qed.

Lemma nfail_fail_n : forall n (r : srec), r_nfail (fail_n n r) = r_nfail r + n /\ r_ntabu (fail_n n r) = r_ntabu r.
Proof. induction n as [|n IH]; intros r; simpl; [lia|]. destruct (IH r) as [-> ->]. lia. Qed.

Lemma aged_rule : forall F (cs : list (scen P)) k (r : srec), mem_ok r ->
  memory_rule (fails_at F cs k) (exists cn, In cn cs /\ n_index cn = k) r (aged F cs k r).
Proof.
  intros F cs k r [M1 [M2 M3]]. pose proof (xf_aged F cs k r) as X. unfold xf in X. injection X as X1 X2.
  split; [exact X1|]. split; [exact X2|]. cbv zeta. clear X1 X2.
  pose proof (@fail_n_mid P (fails_at F cs k) r (conj M2 M3)) as [_ MS].
  destruct (nfail_fail_n (fails_at F cs k) r) as [N1 N2].
  assert (T : touched cs k = true <-> exists cn, In cn cs /\ n_index cn = k).
  { unfold touched. rewrite existsb_exists. split; intros [cn [H1 H2]]; exists cn; split; auto; apply Nat.eqb_eq; exact H2. }
  rewrite N1 in MS. unfold aged, tenure, tabu_if. set (r1 := fail_n (fails_at F cs k) r) in *.
  rewrite N2. split; [|split].
  - intros E5. rewrite E5. simpl. destruct (touched cs k); simpl; split; auto; split; auto; reflexivity.
  - intros E5 Ht Hn. apply T in Ht. rewrite Ht.
    destruct (Nat.ltb_spec 0 (r_ntabu r)); [destruct (Nat.ltb_spec (r_ntabu r) 5); [|lia]|];
      cbn [tenure_rec r_nfail]; rewrite N1; destruct (Nat.ltb_spec 3 (r_nfail r + fails_at F cs k)); try lia;
      cbn; split; auto; split; auto; reflexivity.
  - intros E5 Ht.
    set (r2 := if 0 <? r_ntabu r then if r_ntabu r <? 5 then tenure_rec r1 else reset_rec r1 else r1).
    assert (R2 : r_ntabu r2 = (if r_ntabu r =? 0 then 0 else S (r_ntabu r)) /\ r_nfail r2 = r_nfail r + fails_at F cs k /\
                 (r_sigma r2 == r_max * (1 # 2) ^ Z.of_nat (r_nfail r + fails_at F cs k))%Q).
    { unfold r2. destruct (Nat.ltb_spec 0 (r_ntabu r)); destruct (Nat.eqb_spec (r_ntabu r) 0); try lia.
      - destruct (Nat.ltb_spec (r_ntabu r) 5); [|lia]. cbn. rewrite N2. auto.
      - rewrite N2. auto. }
    destruct (touched cs k) eqn:Et; [|exact R2].
    destruct Ht as [Ht|Ht]; [exfalso; apply Ht; apply T; reflexivity|].
    destruct R2 as [R1 [R2 R3]]. rewrite R2. destruct (Nat.ltb_spec 3 (r_nfail r + fails_at F cs k)); [lia|]. auto.
Qed.
End Aux.

Lemma pick_nil : forall P is, length (pick (@nil (scen P)) is) = 0.
Proof. intros P is. induction is as [|[|i] is IH]; simpl; auto. Qed.
Lemma pick_shift : forall P (a : scen P) l n k, pick (a :: l) (seq (S k) n) = pick l (seq k n).
Proof.
  intros P a l n. induction n as [|n IH]; intros k; [reflexivity|]. cbn [seq pick nth_error]. rewrite IH. reflexivity.
Qed.
Lemma pick_all : forall P (l : list (scen P)), pick l (seq 0 (length l)) = l.
Proof.
  intros P l. induction l as [|a l IH]; [reflexivity|]. cbn [length seq pick nth_error]. rewrite pick_shift, IH. reflexivity.
Qed.

Section Props.
Variable P : Type.
Variable c : cfg P val.
Variable dist : P -> P -> Q.
Variable tooclose : P -> P -> nat -> Q -> bool.
Variable ncenters : Z.
Variable design : res (list P).
Notation strategy := (sop_strategy c dist tooclose ncenters).
Notation Reached := (reached c strategy design sop0).

(** ** C27 *)
Theorem C27_archive : forall p, Reached p ->
  map (fun r => (r_x r, r_fx r)) (s_evals (p_e p)) = completed (p_hist p) /\
  Z.of_nat (length (s_evals (p_e p))) = num_evals (p_s p).
Proof.
  intros p H. destruct (SopInv_reached H) as [I S]. pose proof (si_arch S) as A. unfold xf in A. split; [exact A|].
  rewrite (inv_num I), <- A, map_length. reflexivity.
Qed.

Theorem C27_centers : forall p cn, Reached p -> In cn (s_centers (p_e p)) ->
  (exists r, nth_error (s_evals (p_e p)) (n_index cn) = Some r /\ r_x r = n_xc cn) /\
  (forall k, n_newidx cn = Some k -> exists r y,
     n_new cn = Some y /\ nth_error (s_evals (p_e p)) k = Some r /\ c_peqb c (r_x r) y = true).
Proof.
  intros p cn H Hin. destruct (SopInv_reached H) as [_ S]. pose proof (x_cen (si_x S)) as A.
  rewrite Forall_forall in A. apply (A cn Hin).
Qed.

Theorem C27_count : forall p, Reached p -> (0 <= ncenters)%Z ->
  Z.of_nat (length (s_centers (p_e p))) =
    if existsb (fun ev => match ev with EvGenerate _ _ => true | _ => false end) (p_hist p) then ncenters else 0%Z.
Proof.
  intros p H Hn. destruct (SopInv_reached H) as [_ S]. rewrite (si_cnt S).
  change (is_gen (P:=P)) with (fun ev : event P val => match ev with EvGenerate _ _ => true | _ => false end).
  destruct (existsb _ (p_hist p)); lia.
Qed.

(** SOP never restarts by itself. *)
Theorem C27_never_converges : forall p, Reached p -> converged (p_s p) = false /\ restarts (p_hist p) = 0.
Proof.
  intros p H. split; [apply (SopInv_reached H)|].
  pose proof H as H'. apply reached_micros in H. destruct H as [[s e] [H1 H2]].
  assert (I0 : Inv c (init_proc (s, e))) by (eapply Inv_init; exact H1).
  assert (R0 : Reached (init_proc (s, e))).
  { exists []. left. unfold run. simpl. unfold start. rewrite H1. reflexivity. }
  assert (G : forall q, micros c strategy (init_proc (s, e)) q -> SopInv c ncenters q /\ restarts (p_hist q) = 0).
  { apply (@micros_from P val (sop P) (sop_search P) c strategy (fun q => SopInv c ncenters q /\ restarts (p_hist q) = 0) _ I0).
    - split; [apply (SopInv_reached R0)|reflexivity].
    - intros q r Iq [Sq Rq] M. split; [eapply SopInv_micro; eauto|].
      destruct M; cbn [p_hist with_s with_se do_accept do_reject do_abort do_resume fst snd];
        try (rewrite ?restarts_app, ?Rq; reflexivity).
      + exfalso. rewrite (si_conv Sq) in *. discriminate.
      + unfold do_accept. destruct (on_accepted (p_s q)). cbn [p_hist]. rewrite restarts_app, Rq. reflexivity.
      + match goal with X : do_complete _ _ _ _ _ _ = Ok _ |- _ => apply do_complete_ok in X; destruct X as [? [? [? [? [-> _]]]]] end.
        cbn [p_hist]. rewrite restarts_app, Rq. reflexivity. }
  apply G. exact H2.
Qed.

(** ** C28 *)
Theorem C28_ranges : forall p r, Reached p -> In r (s_evals (p_e p)) ->
  r_nfail r <= 3 /\ r_ntabu r <= 5 /\ (r_sigma r == r_max * (1 # 2) ^ Z.of_nat (r_nfail r))%Q.
Proof.
  intros p r H Hin. destruct (SopInv_reached H) as [_ S]. pose proof (x_mem (si_x S)) as A.
  rewrite Forall_forall in A. apply (A r Hin).
Qed.

(** A completed adaptive evaluation either only adds its entry (synchronous mode, batch not
    finished) or applies the memory rule to all entries. *)
Theorem C28_step : forall p o ev v p', Reached p -> In o (p_out p) -> o_ev o = Some ev ->
  o_kind o = KAdapt -> do_complete c strategy o ev v p = Ok p' ->
  let old := s_evals (p_e p) ++ [mkRec (o_x o) v 0 0 r_max] in
  let batch_done := batch_queue (p_s p) = [] /\ length (p_out p) = 1 in
  (c_async c = false -> ~ batch_done -> s_evals (p_e p') = old) /\
  (c_async c = true \/ batch_done ->
   length (s_evals (p_e p')) = length old /\
   exists cs, cs = processed (c_peqb c) (c_async c) (o_x o) (s_centers (p_e p')) /\
     forall k r r', nth_error old k = Some r -> nth_error (s_evals (p_e p')) k = Some r' ->
     exists isfail, (forall cn, In cn cs -> (isfail cn = true <-> failed_at dist old k cn)) /\
       memory_rule (length (filter isfail cs)) (exists cn, In cn cs /\ n_index cn = k) r r').
Proof.
  intros p o ev v p' H Hin Ho Hk Hc old batch_done.
  destruct (SopInv_reached H) as [I S].
  apply do_complete_ok in Hc. destruct Hc as [e' [l [nx [cv [-> K]]]]]. rewrite Hk in K.
  destruct K as [n [cv0 [K _]]]. cbn [hk_adapt_completed sop_strategy sop_hooks] in K. cbn [p_e].
  set (sb := base_completed c (o_id o) (o_x o) v ev (p_s p)) in *.
  assert (BQ : batch_queue sb = batch_queue (p_s p)).
  { unfold sb. destruct (base_completed_fields c (o_id o) (o_x o) v ev (p_s p)) as [_ [_ [_ [_ [_ [E _]]]]]]. exact E. }
  assert (BP : pending_evals sb = (Z.of_nat (length (p_out p)) - 1)%Z).
  { unfold sb. destruct (base_completed_fields c (o_id o) (o_x o) v ev (p_s p)) as [_ [E _]]. rewrite E, (inv_pend I). reflexivity. }
  assert (BN : num_evals sb = Z.of_nat (length old)).
  { unfold sb, old. destruct (base_completed_fields c (o_id o) (o_x o) v ev (p_s p)) as [E _].
    rewrite E, (inv_num I), <- (si_arch S), app_length, map_length. simpl. lia. }
  assert (BL : ev_last sb = 0%Z).
  { unfold sb, base_completed. cbn. destruct (ev_last (p_s p) <? ev)%Z; exact (si_last S). }
  clearbody sb. pose proof (si_ev S _ Hin Ho) as Hev.
  apply sop_completed_cases in K. destruct K as [_ [_ K]].
  destruct K as [[_ K]|[_ [cs [K1 K2]]]]; [lia|]. cbv zeta in K1, K2.
  change (s_evals (p_e p) ++ [new_rec (o_x o) v]) with old in K2.
  assert (MO : Forall (@mem_ok P) old).
  { apply Forall_app. split; [exact (x_mem (si_x S))|]. constructor; [|constructor]. apply (new_rec_ok (o_x o) v). }
  assert (LC : length cs = length (s_centers (p_e p))).
  { destruct (find_center (c_peqb c) (o_x o) (s_centers (p_e p))); [|subst cs; reflexivity].
    destruct (upd_nth _ _ _ K1) as [L _]. exact L. }
  assert (MAIN : forall ix, adjust_memory dist ncenters ix sb (mkSop old cs (s_F (p_e p))) = Ok e' ->
    pick cs (indices ncenters ix) = processed (c_peqb c) (c_async c) (o_x o) cs ->
    length (s_evals e') = length old /\
    exists ps, ps = processed (c_peqb c) (c_async c) (o_x o) (s_centers e') /\
     forall k r r', nth_error old k = Some r -> nth_error (s_evals e') k = Some r' ->
     exists isfail, (forall cn, In cn ps -> (isfail cn = true <-> failed_at dist old k cn)) /\
       memory_rule (length (filter isfail ps)) (exists cn, In cn ps /\ n_index cn = k) r r').
  { intros ix Ha Hp. destruct (adjust_memory_ok _ _ _ _ _ Ha) as [F [A1 [A2 [A3 [_ [A5 [A6 _]]]]]]].
    cbn [s_evals s_centers] in *. rewrite Hp in *. split; [exact A3|].
    exists (processed (c_peqb c) (c_async c) (o_x o) cs). rewrite A2. split; [reflexivity|].
    intros k r r' Er Er'. rewrite A6, Er in Er'. injection Er' as <-.
    pose proof (update_ranks_pareto _ _ _ A1) as [PL [_ [PR _]]]. cbn [s_evals] in PL, PR.
    exists (fun cn => failing F cn && (n_index cn =? k)). split.
    - intros cn Hcn. destruct (A5 cn Hcn) as [i [row [B1 B2]]]. unfold failing, failed_at. rewrite B1, B2.
      assert (Hi : i < length old) by (rewrite <- PL; apply nth_error_Some; congruence).
      rewrite andb_true_iff, Nat.eqb_eq. specialize (PR i Hi).
      assert (W : (match w_rank row with Some 1 => false | _ => true end) = true <-> ~ on_front dist old i).
      { rewrite <- PR. split.
        - intros W [row' [E1 E2]]. assert (row' = row) by congruence. subst row'. rewrite E2 in W. discriminate.
        - intros W. destruct (w_rank row) as [[|[|q]]|] eqn:Ew; try reflexivity. exfalso. apply W. eauto. }
      rewrite W. split; [intros [W1 W2]; split; [exact W2|]; eauto|].
      intros [W1 [i' [W2 W3]]]. injection W2 as <-. auto.
    - change (length (filter (fun cn => failing F cn && (n_index cn =? k)) (processed (c_peqb c) (c_async c) (o_x o) cs)))
        with (fails_at F (processed (c_peqb c) (c_async c) (o_x o) cs) k).
      apply aged_rule. rewrite Forall_forall in MO. apply MO. eapply nth_error_In; eauto. }
  (* all centers are processed when the loop ranges over all of them *)
  assert (PALL : forall e2, adjust_memory dist ncenters None sb (mkSop old cs (s_F (p_e p))) = Ok e2 ->
                 pick cs (indices ncenters None) = cs).
  { intros e2 Ha. destruct (adjust_memory_ok _ _ _ _ _ Ha) as [F [_ [_ [_ [A4 _]]]]]. cbn [s_centers indices] in *.
    rewrite seq_length in A4. pose proof (si_cnt S) as SC. rewrite <- LC in SC.
    assert (LE : length cs = Z.to_nat ncenters).
    { destruct (existsb (is_gen (P:=P)) (p_hist p)); [exact SC|].
      apply length_zero_iff_nil in SC. subst cs. rewrite <- A4. simpl.
      symmetry; apply pick_nil. }
    rewrite <- LE. apply pick_all. }
  split.
  - intros Hs Hb. destruct K2 as [[-> _]|[[K2 _]|[_ [K3 [K4 _]]]]]; [reflexivity|congruence|].
    exfalso. apply Hb. rewrite BQ in K3. rewrite BP in K4. split; [exact K3|lia].
  - intros Hd. destruct K2 as [[_ [K2 K3]]|[[K2 K3]|[K2 [_ [_ K3]]]]].
    + exfalso. destruct Hd as [Hd|[Hd1 Hd2]]; [congruence|]. rewrite BQ, BP in K3. destruct K3 as [K3|K3]; [contradiction|lia].
    + apply (MAIN _ K3). unfold processed. rewrite K2.
      destruct (find_center (c_peqb c) (o_x o) (s_centers (p_e p))) as [i|] eqn:Ef.
      * destruct (find_center_some _ _ _ Ef) as [cn [y [E1 [E2 [E3 E4]]]]].
        destruct (upd_nth _ _ _ K1) as [_ [_ N1]]. cbn [indices].
        assert (EI : nth_error cs i = Some (set_newidx (Z.to_nat (num_evals sb - 1)) cn)).
        { rewrite N1, Nat.eqb_refl, E1. reflexivity. }
        cbn [pick]. rewrite EI.
        replace (find (proposed (c_peqb c) (o_x o)) cs) with (Some (set_newidx (Z.to_nat (num_evals sb - 1)) cn)); [reflexivity|].
        symmetry. revert EI. assert (F0 : forall j cn', nth_error cs j = Some cn' -> j < i -> proposed (c_peqb c) (o_x o) cn' = false).
        { intros j cn' Hj Hlt. rewrite N1 in Hj. destruct (Nat.eqb_spec j i); [lia|]. eapply E4; eauto. }
        assert (PS : proposed (c_peqb c) (o_x o) (set_newidx (Z.to_nat (num_evals sb - 1)) cn) = true)
          by (unfold proposed; cbn [set_newidx n_new]; rewrite E2; exact E3).
        revert F0 PS. generalize (set_newidx (Z.to_nat (num_evals sb - 1)) cn). clear. intros cn F0 PS. revert i F0.
        induction cs as [|a l IH]; intros i F0 EI; [destruct i; discriminate|]. destruct i as [|i]; simpl in EI.
        -- injection EI as ->. simpl. rewrite PS. reflexivity.
        -- simpl. rewrite (F0 0 a eq_refl ltac:(lia)). apply (IH i); [|exact EI].
           intros j cn' Hj Hlt. apply (F0 (S j) cn' Hj). lia.
      * subst cs. rewrite (PALL _ K3).
        assert (EN : find (proposed (c_peqb c) (o_x o)) (s_centers (p_e p)) = None).
        { revert Ef. clear. induction (s_centers (p_e p)) as [|a l IH]; [reflexivity|]. simpl.
          destruct (proposed (c_peqb c) (o_x o) a); [discriminate|].
          destruct (find_center (c_peqb c) (o_x o) l); [discriminate|]. intros _. apply IH. reflexivity. }
        rewrite EN. reflexivity.
    + apply (MAIN _ K3). unfold processed. rewrite K2. apply (PALL _ K3).
Qed.

(** ** C29 *)

(** The table used for the selection: rows whose center is being processed get tabu status 2. *)
Definition tagged (cs : list (scen P)) (F F' : list (frow P)) : Prop :=
  length F' = length F /\ forall k r r', nth_error F k = Some r -> nth_error F' k = Some r' ->
    ((exists cn, In cn cs /\ n_newidx cn = None /\ n_index cn = k) ->
       r' = mkRow (w_x r) (w_fx r) (w_dist r) 2 (w_rank r) (w_nfail r)) /\
    (~ (exists cn, In cn cs /\ n_newidx cn = None /\ n_index cn = k) -> r' = r).

Lemma tag_busy_total : forall (l : list (scen P)) (F : list (frow P)),
  (forall cn, In cn l -> n_index cn < length F) -> exists F', tag_busy F l = Ok F'.
Proof.
  intros l. induction l as [|cn l IH]; intros F H; simpl; [eauto|].
  destruct (busy cn).
  - destruct (@upd_total _ F (n_index cn) (@tag_row P)) as [F1 E1]; [apply H; left; reflexivity|].
    rewrite E1. cbn [rbind]. apply IH. intros cn' Hin. destruct (upd_nth _ _ _ E1) as [-> _]. apply H. right. exact Hin.
  - apply IH. intros cn' Hin. apply H. right. exact Hin.
Qed.

Lemma tag_busy_tagged : forall cs F F', tag_busy F cs = Ok F' -> tagged cs F F'.
Proof.
  intros cs F F' H. apply tag_busy_ok in H. destruct H as [L N]. split; [exact L|].
  intros k r r' E1 E2. rewrite N, E1 in E2. injection E2 as <-.
  assert (B : existsb (fun cn : scen P => busy cn && (n_index cn =? k)) cs = true <->
              exists cn, In cn cs /\ n_newidx cn = None /\ n_index cn = k).
  { rewrite existsb_exists. split.
    - intros [cn [H1 H2]]. apply andb_true_iff in H2. destruct H2 as [H2 H3]. apply Nat.eqb_eq in H3.
      exists cn. unfold busy in H2. destruct (n_newidx cn); [discriminate|]. auto.
    - intros [cn [H1 [H2 H3]]]. exists cn. split; [exact H1|]. unfold busy. rewrite H2. apply Nat.eqb_eq. exact H3. }
  destruct (existsb _ cs).
  - split; [reflexivity|]. intros K. exfalso. apply K. apply B. reflexivity.
  - split; [|reflexivity]. intros K. apply B in K. discriminate.
Qed.

(** Selection of the centers: on a complete table the code terminates without an exception and
    does exactly what the property says.  [t] is d_thresh (1 minus the used fraction of the
    adaptive budget), [F0] the table of ranked points. *)
Theorem C29_center_selection : forall (s : base P val) (e : sop P) (F0 : list (frow P)),
  length F0 = length (s_evals e) -> num_evals s = Z.of_nat (length (s_evals e)) -> s_evals e <> [] ->
  (forall cn, In cn (s_centers e) -> n_index cn < length (s_evals e)) ->
  c_max_evals c <> Z.of_nat (c_num_pts c) ->
  exists e' F ind m rm,
    let t := (1 - inject_Z (num_evals s - Z.of_nat (c_num_pts c)) / inject_Z (c_max_evals c - Z.of_nat (c_num_pts c)))%Q in
    let order := if w_tabu rm =? 2 then ind else m :: filter (fun i => negb (i =? m)) ind in
    let inprocess := filter (fun cn => match n_newidx cn with None => true | _ => false end) (s_centers e) in
    update_center_list tooclose ncenters (c_max_evals c) (c_num_pts c) s e F0 = Ok e' /\
    s_evals e' = s_evals e /\
    tagged (s_centers e) F0 F /\ sorted_indices F ind /\ best_row F m /\ nth_error F m = Some rm /\
    ((ncenters <= Z.of_nat (length inprocess))%Z -> s_centers e' = inprocess) /\
    ((Z.of_nat (length inprocess) < ncenters)%Z ->
       exists g idx, let cc := Z.to_nat (ncenters - Z.of_nat (length inprocess)) in
         greedy (close_rows tooclose F t) cc order g /\ cyclic g idx cc /\
         Forall2 (fun i cn => exists r, nth_error (s_evals e) i = Some r /\ cn = mkCen (r_x r) i None None) idx
                 (skipn (length inprocess) (s_centers e')) /\
         firstn (length inprocess) (s_centers e') = inprocess).
Proof.
  intros s e F0 HL HN HE HC HB.
  destruct (@tag_busy_total (s_centers e) F0) as [F EF]; [intros cn Hin; rewrite HL; auto|].
  pose proof (tag_busy_tagged _ _ EF) as HT. pose proof HT as [LF _].
  assert (HF : F <> []) by (intros ->; simpl in LF; apply HE; apply length_zero_iff_nil; lia).
  destruct (order_spec HF) as [ind [m [rm [Hs [Hm [Er Eo]]]]]].
  set (ord := if w_tabu rm =? 2 then ind else m :: filter (fun i => negb (i =? m)) ind) in *.
  assert (PO : Permutation ord (seq 0 (length F))).
  { unfold ord. destruct Hs as [Hp _]. destruct (w_tabu rm =? 2); [exact Hp|]. etransitivity; [|exact Hp].
    assert (Hin : In m ind).
    { eapply Permutation_in; [symmetry; exact Hp|]. apply in_seq. assert (m < length F) by (apply nth_error_Some; congruence). lia. }
    assert (Hnd : NoDup ind) by (eapply Permutation_NoDup; [symmetry; exact Hp|apply seq_NoDup]).
    clear -Hin Hnd. apply NoDup_Permutation; [constructor|exact Hnd|].
    - rewrite filter_In, Nat.eqb_refl. intros [_ K]. discriminate.
    - apply NoDup_filter. exact Hnd.
    - intros x. simpl. rewrite filter_In. split.
      + intros [<-|[K _]]; assumption.
      + intros K. destruct (Nat.eqb_spec x m) as [->|N]; [left; reflexivity|]. right. split; [exact K|].
        destruct (Nat.eqb_spec x m); [contradiction|reflexivity]. }
  assert (LO : length ord = length (s_evals e)) by (rewrite (Permutation_length PO), seq_length; congruence).
  assert (NDO : NoDup ord) by (eapply Permutation_NoDup; [symmetry; exact PO|apply seq_NoDup]).
  assert (RO : forall i, In i ord -> i < length F) by (intros i Hi; eapply Permutation_in in Hi; [|exact PO]; apply in_seq in Hi; lia).
  set (t := (1 - inject_Z (num_evals s - Z.of_nat (c_num_pts c)) / inject_Z (c_max_evals c - Z.of_nat (c_num_pts c)))%Q) in *.
  set (inp := filter (fun cn : scen P => match n_newidx cn with None => true | _ => false end) (s_centers e)).
  assert (EB : filter (@busy P) (s_centers e) = inp) by reflexivity.
  assert (ED : d_thresh (c_max_evals c) (c_num_pts c) s = Ok t).
  { unfold d_thresh. destruct (Z.eqb_spec (c_max_evals c - Z.of_nat (c_num_pts c)) 0); [lia|reflexivity]. }
  destruct (Z.ltb_spec 0 (ncenters - Z.of_nat (length inp))) as [Hc|Hc].
  - destruct ord as [|i0 rest] eqn:EO; [simpl in LO; exfalso; apply HE, length_zero_iff_nil; auto|].
    destruct (@choose_greedy P tooclose F t (Z.to_nat (ncenters - Z.of_nat (length inp))) i0 rest) as [g [idx [E1 [E2 E3]]]];
      [lia|exact RO|exact NDO|].
    destruct (@mapR_ok _ _ (new_center (s_evals e)) idx) as [cs Ecs].
    { intros i Hi. assert (i < length (s_evals e)).
      { rewrite <- HL, <- LF. apply RO. apply In_nth_error in Hi. destruct Hi as [j Hj].
        destruct E3 as [C1 C2]. assert (j < length idx) by (apply nth_error_Some; congruence). rewrite C1 in H.
        rewrite (C2 j H) in Hj. destruct E2 as [[keep E2] _]. apply nth_error_In in Hj. rewrite E2 in Hj. apply filter_In in Hj. tauto. }
      unfold new_center. destruct (nth_error (s_evals e) i) as [r|] eqn:Eri; [|apply nth_error_None in Eri; lia].
      apply geti_ok in Eri. rewrite Eri. simpl. eauto. }
    exists (mkSop (s_evals e) (inp ++ cs) (Some F0)), F, ind, m, rm. cbv zeta. fold t ord. rewrite EO.
    split.
    { unfold update_center_list. rewrite ED. cbn [rbind]. rewrite EF. cbn [rbind]. rewrite EB, Eo. cbn [rbind].
      destruct (Z.ltb_spec 0 (ncenters - Z.of_nat (length inp))); [|lia].
      unfold geti at 1. cbn [nth_error rbind tl].
      assert (LR : length rest = Z.to_nat (num_evals s) - 1) by (rewrite HN, Nat2Z.id, <- LO; simpl; lia).
      rewrite <- LR, E1. cbn [rbind]. rewrite Ecs. reflexivity. }
    split; [reflexivity|]. split; [exact HT|]. split; [exact Hs|]. split; [exact Hm|]. split; [exact Er|].
    fold inp. split; [intros; lia|]. intros _. exists g, idx. split; [exact E2|]. split; [exact E3|].
    cbn [s_centers]. rewrite skipn_app, skipn_all, Nat.sub_diag. cbn [app skipn].
    rewrite firstn_app, firstn_all, Nat.sub_diag. cbn [firstn]. rewrite app_nil_r. split; [|reflexivity].
    destruct (mapR_nth _ _ Ecs) as [Lc Nc]. clear -Lc Nc. revert cs Lc Nc. induction idx as [|i idx IH]; intros [|cn cs] Lc Nc; simpl in Lc; try discriminate; [constructor|].
    constructor.
    + destruct (proj1 (Nc 0 cn) eq_refl) as [i' [E1 E2]]. simpl in E1. injection E1 as <-. unfold new_center in E2.
      apply rbind_ok in E2. destruct E2 as [r [E2 E3]]. apply geti_ok in E2. injection E3 as <-. eauto.
    + apply IH; [congruence|]. intros k b. apply (Nc (S k) b).
  - exists (mkSop (s_evals e) inp (Some F0)), F, ind, m, rm. cbv zeta. split.
    { unfold update_center_list. rewrite ED. cbn [rbind]. rewrite EF. cbn [rbind]. rewrite EB, Eo. cbn [rbind].
      destruct (Z.ltb_spec 0 (ncenters - Z.of_nat (length inp))); [lia|]. reflexivity. }
    split; [reflexivity|]. split; [exact HT|]. split; [exact Hs|]. split; [exact Hm|]. split; [exact Er|].
    fold inp. split; [reflexivity|]. intros; lia.
Qed.

(** ** C30 *)

(** The first selection uses the Pareto layers of the archive. *)
Theorem C30_first_selection_partial : forall p n o e' l, Reached p -> s_F (p_e p) = None ->
  hk_generate strategy (p_e p) (p_s p) n o = Ok (e', l) ->
  exists F, s_F e' = Some F /\ pareto_ranks dist (s_evals (p_e p)) F.
Proof.
  intros p n o e' l H HF Hg. cbn [hk_generate sop_strategy sop_hooks] in Hg. apply sop_generate_cases in Hg.
  destruct Hg as [F [e1 [cs [pts [H1 [_ [_ [-> _]]]]]]]]. rewrite HF in H1.
  exists F. split; [reflexivity|]. eapply update_ranks_pareto. exact H1.
Qed.

(** From the first processed adaptive evaluation on, the table used for selecting centers has no
    ranks at all (all inf): centers are ordered by tabu status and value only. *)
Definition processed_adaptive (p : proc P val (sop P)) : Prop :=
  exists id x v, In (EvComplete id KAdapt x v) (p_hist p).

Lemma adjust_forgets : forall ix (s : base P val) (e e' : sop P), adjust_memory dist ncenters ix s e = Ok e' ->
  exists F, s_F e' = Some F /\ Forall (fun row => w_rank row = None) F.
Proof.
  intros ix s e e' H. destruct (adjust_memory_ok _ _ _ _ _ H) as [F [_ [_ [_ [_ [_ [_ E]]]]]]].
  eexists. split; [exact E|]. apply Forall_forall. intros row Hr. apply in_map_iff in Hr. destruct Hr as [r [<- _]]. reflexivity.
Qed.

Definition forgotten (e : sop P) : Prop := exists F, s_F e = Some F /\ Forall (fun row => w_rank row = None) F.

Lemma forgotten_micro : forall p p', SopInv c ncenters p -> c_async c = true -> (processed_adaptive p -> forgotten (p_e p)) ->
  micro c strategy p p' -> processed_adaptive p' -> forgotten (p_e p').
Proof.
  intros p p' S Ha IH M.
  assert (SN : forall h (ev : event P val), (exists id x v, In (EvComplete id KAdapt x v) (h ++ [ev])) ->
    match ev with EvComplete _ KAdapt _ _ => False | _ => True end -> exists id x v, In (EvComplete id KAdapt x v) h).
  { intros h ev [id [x [v K]]] Hev. apply in_app_or in K. destruct K as [K|[K|[]]]; [eauto|]. subst ev. contradiction. }
  destruct M as [H1 H2|H1 H2|H1 H2|H1 H2 H3|n o e' l H1 H2 H3 H4 H5 H6 H7
    |n o e' H1 H2 H3 H4 H5 H6 H7|d rows H1 H2 H3 H4 H5 H6|q x k H1 H2 H3 H4|o H1 H2|o H1 H2
    |o ev v p' H1 H2 H3|o ev H1 H2| |]; unfold processed_adaptive.
  - intros K. apply SN in K; [apply IH; exact K|exact Logic.I].
  - intros K. apply SN in K; [apply IH; exact K|exact Logic.I].
  - intros K. apply SN in K; [apply IH; exact K|exact Logic.I].
  - intros [id [x [v K]]]. cbn in K. rewrite app_nil_r in K. apply IH. unfold processed_adaptive. eauto.
  - intros K. apply SN in K; [|exact Logic.I]. destruct (IH K) as [F [E1 E2]].
    cbn [hk_generate sop_strategy sop_hooks] in H7. apply sop_generate_cases in H7.
    destruct H7 as [F' [e1 [cs [pts [G1 [_ [_ [-> _]]]]]]]]. rewrite E1 in G1. subst F'. exists F. auto.
  - cbn [hk_generate sop_strategy sop_hooks] in H7. apply sop_generate_cases in H7.
    destruct H7 as [F' [e1 [cs [pts [_ [_ [_ [_ K]]]]]]]]. discriminate.
  - rewrite (si_conv S) in H2. discriminate.
  - intros K. apply SN in K; [apply IH; exact K|exact Logic.I].
  - intros K. cbn in K. apply SN in K; [apply IH; exact K|exact Logic.I].
  - intros K. cbn in K. apply SN in K; [apply IH; exact K|exact Logic.I].
  - apply do_complete_ok in H3. destruct H3 as [e' [l [nx [cv [-> Hk]]]]]. cbn [p_hist p_e].
    destruct (o_kind o) eqn:Ek.
    + intros K. apply SN in K; [|exact Logic.I]. destruct (IH K) as [F [E1 E2]]. destruct Hk as [K1 _].
      cbn [hk_initial_completed sop_strategy sop_hooks] in K1. unfold sop_initial_completed in K1.
      destruct (_ <=? _)%Z in K1; injection K1 as <-; exists F; auto.
    + intros _. destruct Hk as [n [cv0 [K1 _]]]. cbn [hk_adapt_completed sop_strategy sop_hooks] in K1.
      assert (BL : ev_last (base_completed c (o_id o) (o_x o) v ev (p_s p)) = 0%Z).
      { unfold base_completed. cbn. destruct (ev_last (p_s p) <? ev)%Z; exact (si_last S). }
      pose proof (si_ev S _ H1 H2). apply sop_completed_cases in K1. destruct K1 as [_ [_ K]].
      destruct K as [[_ K]|[_ [cs [_ K]]]]; [lia|]. destruct K as [[_ [K _]]|[[_ K]|[K _]]]; try congruence.
      eapply adjust_forgets. exact K.
  - intros K. cbn in K. apply SN in K; [apply IH; exact K|exact Logic.I].
  - intros K. apply SN in K; [apply IH; exact K|exact Logic.I].
  - intros K. apply SN in K; [apply IH; exact K|exact Logic.I].
Qed.

Theorem C30_ranks_forgotten : forall p, Reached p -> c_async c = true -> processed_adaptive p ->
  exists F, s_F (p_e p) = Some F /\ Forall (fun row => w_rank row = None) F.
Proof.
  intros p H Ha. pose proof H as H'. apply reached_micros in H. destruct H as [[s e] [H1 H2]].
  assert (I0 : Inv c (init_proc (s, e))) by (eapply Inv_init; exact H1).
  assert (R0 : Reached (init_proc (s, e))).
  { exists []. left. unfold run. simpl. unfold start. rewrite H1. reflexivity. }
  assert (G : forall q, micros c strategy (init_proc (s, e)) q -> SopInv c ncenters q /\ (processed_adaptive q -> forgotten (p_e q))).
  { apply (@micros_from P val (sop P) (sop_search P) c strategy (fun q => SopInv c ncenters q /\ (processed_adaptive q -> forgotten (p_e q))) _ I0).
    - split; [apply (SopInv_reached R0)|]. intros [id [x [v []]]].
    - intros q r Iq [Sq Rq] M. split; [eapply SopInv_micro; eauto|]. eapply forgotten_micro; eauto. }
  apply G. exact H2.
Qed.

(** The synchronous counterpart: the completion that finishes a batch forgets all ranks. *)
Theorem C30_ranks_forgotten_sync : forall p o ev v p', Reached p -> In o (p_out p) -> o_ev o = Some ev ->
  o_kind o = KAdapt -> do_complete c strategy o ev v p = Ok p' ->
  batch_queue (p_s p) = [] -> length (p_out p) = 1 ->
  exists F, s_F (p_e p') = Some F /\ Forall (fun row => w_rank row = None) F.
Proof.
  intros p o ev v p' H Hin Ho Hk Hc Hq Hl. destruct (SopInv_reached H) as [I S].
  apply do_complete_ok in Hc. destruct Hc as [e' [l [nx [cv [-> K]]]]]. rewrite Hk in K.
  destruct K as [n [cv0 [K _]]]. cbn [hk_adapt_completed sop_strategy sop_hooks] in K. cbn [p_e].
  assert (BL : ev_last (base_completed c (o_id o) (o_x o) v ev (p_s p)) = 0%Z).
  { unfold base_completed. cbn. destruct (ev_last (p_s p) <? ev)%Z; exact (si_last S). }
  destruct (base_completed_fields c (o_id o) (o_x o) v ev (p_s p)) as [_ [BP [_ [_ [_ [BQ _]]]]]].
  pose proof (si_ev S _ Hin Ho). apply sop_completed_cases in K. destruct K as [_ [_ K]].
  destruct K as [[_ K]|[_ [cs [_ K]]]]; [lia|].
  destruct K as [[_ [_ K]]|[[_ K]|[_ [_ [_ K]]]]]; [|eapply adjust_forgets; exact K..].
  exfalso. rewrite BQ, BP, (inv_pend I), Hl in K. destruct K as [K|K]; [contradiction|apply K; reflexivity].
Qed.
End Props.
