(** * Serial runs of SOPStrategy finish (C12). *)
From Coq Require Import List Arith ZArith Lia Bool QArith Permutation.
From Verif Require Import Base PyList Strategy StrategySpec StrategyProofs StrategyInv StrategyInv2
  StrategyInv3 StrategyInv4 StrategyOps StrategySerial PropStrategy SRBF Pareto ParetoProofs SOP SOPProofs
  SOPCenters SOPInv PropSOP SOPTotal SOPAsync.
Import ListNotations.
Local Close Scope Q_scope.
Set Implicit Arguments.

Lemma snoc_split : forall A (h h1 h2 : list A) a b, h ++ [a] = h1 ++ b :: h2 ->
  (h1 = h /\ b = a /\ h2 = []) \/ exists h2', h = h1 ++ b :: h2'.
Proof.
  intros A h h1 h2 a b H. destruct h2 as [|d h2'] using rev_ind.
  - left. apply app_inj_tail in H. destruct H. auto.
  - right. clear IHh2'. exists h2'. change (h1 ++ b :: h2' ++ [d]) with (h1 ++ (b :: h2') ++ [d]) in H. rewrite app_assoc in H.
    apply app_inj_tail in H. tauto.
Qed.

(** ** Strategies that do not raise in the states a serial run visits *)
Section Gen.
Variables P V Ext Orc : Type.
Variable c : cfg P V.
Variable hk : hooks P V Ext Orc.
Variable f : P -> V.
Variable designs : nat -> res (list P).
Variable orcs : nat -> Orc.
Variable design : res (list P).
Variable e0 : Ext.
Notation proc := (proc P V Ext).
Notation Reached := (reached c hk design e0).
Variable K : nat -> proc -> Prop.
Hypothesis Hgen : gen_contract hk.
Hypothesis Hbatch : c_async c = true \/ (0 < c_batch c)%nat.
Hypothesis Hrest : c_restarts c = true.
Hypothesis Hinit : exists s e, construct c hk design e0 = Ok (s, e) /\ K 0 (init_proc (s, e)).
Hypothesis HP : forall k p, Reached p -> K k p -> p_out p = [] -> exists r, do_propose c hk (designs k) (orcs k) p = Ok r.
Hypothesis HC : forall k p p1 kd x, Reached p -> K k p -> p_out p = [] ->
  do_propose c hk (designs k) (orcs k) p = Ok (OEval kd x, p1) ->
  let o := mkOut (p_next p) kd x (Some (ev_next (p_s p1))) in
  Reached (do_accept (mkOut (p_next p) kd x None) p1) ->
  exists p3, do_complete c hk o (ev_next (p_s p1)) (f x) (do_accept (mkOut (p_next p) kd x None) p1) = Ok p3 /\ K (S k) p3.

Definition visits (k : nat) (y : sys P V Ext) : Prop :=
  exists ops p, y = run c hk design e0 ops /\ y_proc y = Some p /\ K k p /\ p_out p = [] /\
    num_evals (p_s p) = Z.of_nat k /\ terminate (p_s p) = false /\
    Forall (fun q => snd q = f (fst q)) (completed (p_hist p)).

Lemma visits_step : forall k y, visits k y -> (Z.of_nat k < c_max_evals c)%Z -> visits (S k) (serial_step c hk f designs orcs y k).
Proof using Hgen Hbatch Hrest HP HC.
  clear Hinit. intros k y [ops [p [Ey0 [Ey [HK [Eo [En [Et Hf]]]]]]]] Hk.
  assert (HR : Reached p) by (exists ops; left; rewrite <- Ey0; exact Ey). pose proof (Inv_reached HR) as I.
  destruct (@HP k p HR HK Eo) as [[out p1] Ep].
  assert (Hpend : pending_evals (p_s p) = 0%Z) by (rewrite (inv_pend I), Eo; reflexivity).
  assert (Hb : below c (p_s p)) by (split; [assumption|lia]).
  destruct (@propose_progress _ _ _ _ c hk Hgen Hbatch Hrest _ _ _ _ _ Hb (or_intror Hpend) Ep) as [kd [x ->]].
  destruct (@propose_eval_fields _ _ _ _ c hk _ _ _ _ _ _ Ep) as [Et1 [En1 [Eo1 [Ex1 Ec1]]]]. rewrite Eo in Eo1. cbn [app] in Eo1.
  set (o1 := mkOut (p_next p) kd x None) in *. set (p2 := do_accept o1 p1).
  set (a1 := Propose (designs k) (orcs k) : op P V Orc). set (a2 := Accept (p_next p) : op P V Orc).
  set (a3 := Update (p_next p) (SCompleted (f x)) : op P V Orc).
  assert (Y1 : step c hk y a1 = mkSys (Some p1) (y_disk y)) by (unfold step, a1; rewrite Ey, Ep; reflexivity).
  assert (Y2 : step c hk (mkSys (Some p1) (y_disk y)) a2 = mkSys (Some p2) (y_disk y)).
  { unfold step, get_out, a2. cbn [y_proc]. rewrite Eo1. cbn [find o_id o1]. rewrite Nat.eqb_refl. reflexivity. }
  assert (R2 : run c hk design e0 (ops ++ [a1] ++ [a2]) = mkSys (Some p2) (y_disk y)).
  { rewrite app_assoc, !run_snoc, <- Ey0, Y1. exact Y2. }
  assert (HR2 : Reached p2) by (eexists; left; rewrite R2; reflexivity).
  destruct (@HC k p p1 kd x HR HK Eo Ep HR2) as [p3 [Hc HK3]]. fold o1 in Hc. fold p2 in Hc.
  set (o2 := mkOut (p_next p) kd x (Some (ev_next (p_s p1)))) in *.
  assert (Eo2 : p_out p2 = [o2]).
  { unfold p2, do_accept. cbn [p_out]. rewrite Eo1. unfold set_ev. cbn [map o1 o_id]. rewrite Nat.eqb_refl. reflexivity. }
  assert (Y3' : exists dk, step c hk (mkSys (Some p2) (y_disk y)) a3 = mkSys (Some p3) dk).
  { unfold step, get_out, a3. cbn [y_proc]. rewrite Eo2. cbn [find]. change (o_id o2) with (p_next p). rewrite Nat.eqb_refl. cbv iota. change (o_ev o2) with (Some (ev_next (p_s p1))). cbv iota. rewrite Hc. eexists. reflexivity. }
  destruct Y3' as [dk Y3'].
  unfold serial_step. rewrite Ey, Ep. fold a1 a2 a3. rewrite Y1, Y2, Y3'.
  exists (ops ++ [a1] ++ [a2] ++ [a3]), p3. split.
  { symmetry. change (ops ++ [a1] ++ [a2] ++ [a3]) with (ops ++ ([a1] ++ [a2]) ++ [a3]). rewrite app_assoc, run_snoc, R2. exact Y3'. }
  split; [reflexivity|]. split; [exact HK3|].
  apply do_complete_ok in Hc. destruct Hc as [e' [l [nx [cv [-> _]]]]].
  destruct (base_completed_fields c (o_id o2) (o_x o2) (f x) (ev_next (p_s p1)) (p_s p2))
    as [F1 [_ [_ [_ [_ [_ [_ [F8 _]]]]]]]].
  set (sb := base_completed c (o_id o2) (o_x o2) (f x) (ev_next (p_s p1)) (p_s p2)) in *.
  clearbody sb. cbn [p_out p_s p_hist]. split; [|split; [|split]].
  - rewrite Eo2. unfold del_out. cbn [filter]. rewrite Nat.eqb_refl. reflexivity.
  - cbn. rewrite F1. cbn. lia.
  - cbn. rewrite F8. exact Et1.
  - change (p_hist p2) with (p_hist p1 ++ [EvAccept (p_next p) : event P V]). rewrite !completed_app, Ec1. cbn. rewrite app_nil_r.
    apply Forall_app. split; [exact Hf|]. constructor; [reflexivity|constructor].
Qed.

Theorem serial_finishes_K : (0 <= c_max_evals c)%Z ->
  let m := Z.to_nat (c_max_evals c) in
  exists p h, y_proc (serial c hk f designs orcs (S m) (start c hk design e0)) = Some p /\
    p_hist p = h ++ [EvTerminate] /\ length (completed h) = m /\ Forall (fun q => snd q = f (fst q)) (completed h) /\ outstanding h = [].
Proof using Hgen Hbatch Hrest Hinit HP HC.
  intros Hm m.
  assert (D : forall k, (Z.of_nat k <= c_max_evals c)%Z -> visits k (serial c hk f designs orcs k (start c hk design e0))).
  { induction k as [|k IH]; intros Hk.
    - destruct Hinit as [s [e [Ec HK]]]. exists [], (init_proc (s, e)). split; [reflexivity|].
      unfold serial. cbn [seq fold_left]. unfold start. rewrite Ec. split; [reflexivity|]. split; [exact HK|].
      unfold construct in Ec. apply rbind_ok in Ec. destruct Ec as [s1 [H1 H2]]. injection H2 as <- _.
      apply sample_initial_ok in H1. destruct H1 as [d [rows [_ [_ [_ ->]]]]]. cbn. repeat split; auto.
    - rewrite serial_snoc. apply visits_step; [apply IH; lia|lia]. }
  destruct (D m) as [ops [p [Ey0 [Ey [HK [Eo [En [Et Hf]]]]]]]]; [lia|]. rewrite serial_snoc.
  set (y := serial c hk f designs orcs m (start c hk design e0)) in *. clearbody y.
  assert (HR : Reached p) by (exists ops; left; rewrite <- Ey0; exact Ey). pose proof (Inv_reached HR) as I.
  destruct (@HP m p HR HK Eo) as [[out p1] Ep].
  assert (Hpend : pending_evals (p_s p) = 0%Z) by (rewrite (inv_pend I), Eo; reflexivity).
  assert (E : out = OTerminate /\ p_hist p1 = p_hist p ++ [EvTerminate]).
  { unfold do_propose, propose_action, check_termination in Ep.
    replace (c_max_evals c <=? num_evals (p_s p) + pending_evals (p_s p))%Z with true in Ep.
    - simpl in Ep. rewrite Hpend in Ep. simpl in Ep. injection Ep as <- <-. auto.
    - symmetry. apply Z.leb_le. lia. }
  destruct E as [-> Eh].
  unfold serial_step. rewrite Ey. rewrite Ep. unfold step. rewrite Ey, Ep.
  exists p1, (p_hist p). repeat split; auto.
  - pose proof (inv_num I). lia.
  - rewrite (inv_out I), Eo. reflexivity.
Qed.
End Gen.

(** ** SOPStrategy *)
Section SOP.
Variable P : Type.
Variable q0 : list P.
Variable orcs : nat -> sop_search P.

(** The searches return new points: not the points queued initially, and no point twice. *)
Definition fresh_searches : Prop :=
  (forall i j x q, exists y, orcs i j x q = Ok y) /\
  (forall i j x q y, orcs i j x q = Ok y -> ~ In y q0) /\
  (forall i j x q i' j' x' q' y, orcs i j x q = Ok y -> orcs i' j' x' q' = Ok y -> i = i' /\ j = j').

Record KH (k : nat) (h : list (event P val)) : Prop := mkKH {
  kh_res : count (@is_resume P val) h = 0;
  kh_ab : count (@is_abort P val) h = 0;
  kh_pro : protocol h;
  kh_nd : NoDup (q0 ++ queued_later h);
  kh_src : forall y, In y (queued_later h) -> exists i j x q, i < k /\ orcs i j x q = Ok y;
  kh_run : total (@design_running P val) h = 0%Z;
  kh_use : total (@unfinished P val) h = 0%Z;
  kh_gen : forall h1 n r h2, h = h1 ++ EvGenerate n r :: h2 ->
    total (@design_running P val) h1 = 0%Z /\ total (@unfinished P val) h1 = 0%Z
}.

Lemma protocol_snoc : forall (h : list (event P val)) ev, protocol h -> (is_call ev = true -> undecided h = []) -> protocol (h ++ [ev]).
Proof using.
  clear. intros h ev H1 H2 h1 ev' h2 E C. apply snoc_split in E. destruct E as [[-> [-> _]]|[h2' E]]; [auto|]. eapply H1; eauto.
Qed.

Lemma KH_round : forall k h id kd x v, undecided h = [] -> KH k h -> KH k (((h ++ [EvPropose id kd x]) ++ [EvAccept id]) ++ [EvComplete id kd x v]).
Proof using.
  clear. intros k h id kd x v U [A1 A2 A3 A4 A5 A6 A7 A8].
  assert (Q : queued_later (((h ++ [EvPropose id kd x]) ++ [EvAccept id]) ++ [EvComplete id kd x v]) = queued_later h).
  { rewrite !queued_later_app. cbn. rewrite !app_nil_r. reflexivity. }
  constructor; rewrite ?Q; auto.
  - rewrite !count_app, A1. reflexivity.
  - rewrite !count_app, A2. reflexivity.
  - apply protocol_snoc; [apply protocol_snoc; [apply protocol_snoc; auto|]|]; discriminate.
  - rewrite !total_app, A6. destruct kd; reflexivity.
  - rewrite !total_app, A7. destruct kd; reflexivity.
  - intros h1 n r h2 E. do 3 (apply snoc_split in E; destruct E as [[_ [E _]]|[? E]]; [discriminate|]). eapply A8. exact E.
Qed.

Lemma KH_S : forall k h, KH k h -> KH (S k) h.
Proof using.
  clear. intros k h [A1 A2 A3 A4 A5 A6 A7 A8]. constructor; auto. intros y Hy. destruct (A5 y Hy) as [i [j [x [q [H1 H2]]]]]. exists i, j, x, q. split; [lia|exact H2].
Qed.

Lemma KH_generate : fresh_searches -> forall k h n l, (forall t y, nth_error l t = Some y -> exists x q, orcs k t x q = Ok y) ->
  KH k h -> KH (S k) (h ++ [EvGenerate n (Some l)]).
Proof using.
  clear. intros [_ [F2 F3]] k h n l HL [A1 A2 A3 A4 A5 A6 A7 A8].
  assert (Q : queued_later (h ++ [EvGenerate n (Some l)]) = queued_later h ++ l).
  { rewrite queued_later_app. cbn. rewrite app_nil_r. reflexivity. }
  constructor; rewrite ?Q.
  - rewrite count_app, A1. reflexivity.
  - rewrite count_app, A2. reflexivity.
  - apply protocol_snoc; [exact A3|discriminate].
  - rewrite app_assoc. assert (ND : NoDup l).
    { apply NoDup_nth_error. intros s t Hs E. apply nth_error_Some in Hs. destruct (nth_error l s) as [y|] eqn:Es; [|contradiction].
      destruct (HL _ _ Es) as [x1 [r1 K1]]. symmetry in E. destruct (HL _ _ E) as [x2 [r2 K2]]. apply (F3 _ _ _ _ _ _ _ _ _ K1 K2). }
    assert (DJ : forall y, In y (q0 ++ queued_later h) -> ~ In y l).
    { intros y Hy Hl. apply In_nth_error in Hl. destruct Hl as [t Ht]. destruct (HL _ _ Ht) as [x [r K]]. apply in_app_or in Hy. destruct Hy as [Hy|Hy].
      - exact (F2 _ _ _ _ _ K Hy).
      - destruct (A5 y Hy) as [i [j [x' [r' [L K']]]]]. destruct (F3 _ _ _ _ _ _ _ _ _ K' K). lia. }
    revert A4 DJ ND. generalize (q0 ++ queued_later h). clear. intros g. induction g as [|a g IH]; intros N D NL; cbn [app]; [exact NL|].
    inversion N as [|? ? N1 N2]; subst. constructor; [|apply IH; auto; intros y Hy; apply D; right; exact Hy].
    intros K. apply in_app_or in K. destruct K as [K|K]; [exact (N1 K)|]. exact (D a (or_introl eq_refl) K).
  - intros y Hy. apply in_app_or in Hy. destruct Hy as [Hy|Hy].
    + destruct (A5 y Hy) as [i [j [x [r [L K]]]]]. exists i, j, x, r. split; [lia|exact K].
    + apply In_nth_error in Hy. destruct Hy as [t Ht]. destruct (HL _ _ Ht) as [x [r K]]. exists k, t, x, r. split; [lia|exact K].
  - rewrite total_app, A6. reflexivity.
  - rewrite total_app, A7. reflexivity.
  - intros h1 n' r h2 E. apply snoc_split in E. destruct E as [[-> _]|[h2' E]]; [auto|]. eapply A8. exact E.
Qed.

Lemma perturb_points : forall (evals : list (srec P)) o n i centers acc cs pts, perturb evals o n i centers acc = Ok (cs, pts) ->
  exists new, pts = acc ++ new /\ length new = n /\ forall t y, nth_error new t = Some y -> exists x q, o (i + t) x q = Ok y.
Proof using.
  clear. intros evals o n. induction n as [|n IH]; intros i centers acc cs pts H; cbn [perturb] in H.
  - injection H as _ <-. exists []. rewrite app_nil_r. split; [reflexivity|]. split; [reflexivity|]. intros [|t] y K; discriminate.
  - apply rbind_ok in H. destruct H as [cn [_ H]]. apply rbind_ok in H. destruct H as [r [_ H]]. apply rbind_ok in H. destruct H as [y [Hy H]].
    apply rbind_ok in H. destruct H as [cs' [_ H]]. destruct (IH _ _ _ _ _ H) as [new [E [L N]]]. exists (y :: new). rewrite E, <- app_assoc. split; [reflexivity|].
    split; [cbn; congruence|]. intros [|t] z K; cbn in K.
    + injection K as <-. rewrite Nat.add_0_r. eauto.
    + destruct (N t z K) as [x [q K']]. exists x, q. rewrite Nat.add_succ_r. exact K'.
Qed.
End SOP.

Section Runs.
Variable P : Type.
Variable c : cfg P val.
Variable dist : P -> P -> Q.
Variable tooclose : P -> P -> nat -> Q -> bool.
Variable ncenters : Z.
Variable design : res (list P).
Variables (s0 : base P val) (e0 : sop P).
Variable f : P -> val.
Variable designs : nat -> res (list P).
Variable orcs : nat -> sop_search P.
Notation strategy := (sop_strategy c dist tooclose ncenters).
Notation proc := (proc P val (sop P)).
Hypothesis Hc : construct c strategy design sop0 = Ok (s0, e0).
Hypothesis Hmode : (c_async c = true /\ (0 < ncenters)%Z) \/ (c_async c = false /\ Z.of_nat (c_batch c) = ncenters /\ 0 < c_batch c).
Hypothesis Hm : c_max_evals c <> Z.of_nat (c_num_pts c).
Hypothesis Hpe : forall x y, c_peqb c x y = true <-> x = y.
Hypothesis Hd : forall x y, x <> y -> ~ (dist x y == 0)%Q.
Hypothesis Hq2 : 2 <= length (batch_queue s0).
Hypothesis Hfresh : fresh_searches (batch_queue s0) orcs.
Hypothesis Hnd : NoDup (batch_queue s0).

Lemma sop_contract : gen_contract strategy.
Proof using.
  clear. intros e s n o e' l Hn H. cbn [hk_generate sop_strategy sop_hooks] in H. apply sop_generate_cases in H.
  destruct H as [F [e1 [cs [pts [_ [_ [H3 [_ E]]]]]]]]. injection E as <-. apply perturb_points in H3. destruct H3 as [new [-> [L _]]].
  intros K. cbn in K. subst new. cbn in L. lia.
Qed.

Lemma sop_safe : forall k p evs, reached c strategy design sop0 p -> KH (batch_queue s0) orcs k (p_hist p ++ evs) ->
  (evs = [] -> forall d o, (forall j x q, exists y, o j x q = Ok y) -> exists r, do_propose c strategy d o p = Ok r) /\
  (forall o ev v, In o (p_out p) -> o_ev o = Some ev -> exists p', do_complete c strategy o ev v p = Ok p').
Proof using Hc Hmode Hm Hpe Hd Hq2.
  clear -Hc Hmode Hm Hpe Hd Hq2. intros k p evs HR [A1 A2 A3 A4 A5 A6 A7 A8].
  rewrite count_app in A1, A2. apply protocol_prefix in A3. rewrite queued_later_app, app_assoc in A4. apply NoDup_app_l in A4.
  assert (B1 : count (@is_resume P val) (p_hist p) = 0) by lia. assert (B2 : count (@is_abort P val) (p_hist p) = 0) by lia.
  destruct Hmode as [[Ha Hn]|[Ha [Hb Hb0]]].
  - destruct (@C31_async_never_fails_partial P c dist tooclose ncenters design s0 e0 Hc Ha Hm Hq2 Hpe Hd p HR B1 A4) as [C1 C2].
    + intros h1 n r h2 E. destruct (A8 h1 n r (h2 ++ evs)) as [E1 E2]; [rewrite E, <- app_assoc; reflexivity|]. split; [exact E1|]. rewrite E2. exact Hn.
    + split; [|exact C2]. intros -> d o Ho. rewrite app_nil_r in A6, A7. apply C1; [exact Ho|]. intros _. split; [exact A6|]. rewrite A7. exact Hn.
  - destruct (@C31_sync_never_fails_partial P c dist tooclose ncenters design s0 e0 Hc Ha Hb Hb0 Hm Hq2 Hpe Hd p HR B2 B1 A3 A4) as [C1 C2].
    split; [intros _; exact C1|exact C2].
Qed.

(** What a request that returns an evaluation adds to the history. *)
Lemma sop_propose_hist : forall k p p1 kd x, reached c strategy design sop0 p -> p_out p = [] ->
  do_propose c strategy (designs k) (orcs k) p = Ok (OEval kd x, p1) ->
  p_hist p1 = p_hist p ++ [EvPropose (p_next p) kd x] \/
  exists n l, p_hist p1 = (p_hist p ++ [EvGenerate n (Some l)]) ++ [EvPropose (p_next p) kd x] /\
    forall t y, nth_error l t = Some y -> exists x q, orcs k t x q = Ok y.
Proof using.
  clear. intros k p p1 kd x HR Eo H. destruct (SopInv_reached HR) as [I S].
  assert (G : forall e' s n l, hk_generate strategy (p_e p) s n (orcs k) = Ok (e', Some l) ->
     forall t y, nth_error l t = Some y -> exists x q, orcs k t x q = Ok y).
  { intros e' s n l G. cbn [hk_generate sop_strategy sop_hooks] in G. apply sop_generate_cases in G.
    destruct G as [F [e1 [cs [pts [_ [_ [H3 [_ E]]]]]]]]. injection E as <-. apply perturb_points in H3. destruct H3 as [new [-> [L N]]]. exact N. }
  assert (L : forall g g' (e e' : event P val), g ++ [e] = g' ++ [e'] -> e = e') by (intros g g' e e' K; apply app_inj_tail in K; tauto).
  destruct (@propose_eval_fields _ _ _ _ c strategy _ _ _ _ _ _ H) as [_ [_ [Eo1 [_ _]]]]. rewrite Eo in Eo1. cbn [app] in Eo1.
  destruct (c_async c) eqn:Ea.
  - destruct (@propose_async P c dist tooclose ncenters Ea p (designs k) (orcs k) (si_conv S)) as [[ev [Hev [out1 [p2 [E [E1 [E2 [E3 [E4 E5]]]]]]]]]|
      [[q [z [Eq [out1 [p2 [E [E1 [E2 [E3 [E4 E5]]]]]]]]]]|[Eq [s2 [Es D]]]]].
    + rewrite E in H. injection H as -> ->. rewrite E2, Eo in Eo1. discriminate.
    + rewrite E in H. injection H as -> ->. rewrite E2, Eo in Eo1. cbn [app] in Eo1. injection Eo1 as <- <-. left. exact E5.
    + destruct (hk_generate strategy (p_e p) s2 1 (orcs k)) as [[e' [l|]]|x1] eqn:Eg; [|exfalso|rewrite D in H; discriminate].
      2:{ cbn [hk_generate sop_strategy sop_hooks] in Eg. apply sop_generate_cases in Eg. destruct Eg as [F [e1 [cs [pts [_ [_ [_ [_ K]]]]]]]]. discriminate. }
      destruct D as [out1 [p2 [E [E1 [E2 D]]]]]. rewrite E in H. injection H as -> ->. right. exists 1, l. split; [|eapply G; exact Eg].
      destruct D as [[_ [D _]]|[q [z [_ [D1 [_ D3]]]]]]; [rewrite D, Eo in Eo1; discriminate|]. rewrite D1, Eo in Eo1. cbn [app] in Eo1. injection Eo1 as <- <-.
      rewrite D3, <- app_assoc. reflexivity.
  - destruct (@propose_sync P c dist tooclose ncenters Ea p (designs k) (orcs k) (si_conv S) (inv_pend I)) as [[ev [Hev [out1 [p2 [E [E1 [E2 [E3 [E4 E5]]]]]]]]]|
      [[q [z [Eq [out1 [p2 [E [E1 [E2 [E3 [E4 E5]]]]]]]]]]|
       [[Eq [Eo' _]]|[Eq [_ [s2 [Es D]]]]]]].
    + rewrite E in H. injection H as -> ->. rewrite E2, Eo in Eo1. discriminate.
    + rewrite E in H. injection H as -> ->. rewrite E2, Eo in Eo1. cbn [app] in Eo1. injection Eo1 as <- <-. left. exact E5.
    + contradiction.
    + destruct (hk_generate strategy (p_e p) s2 (c_batch c) (orcs k)) as [[e' [l|]]|x1] eqn:Eg; [|exfalso|rewrite D in H; discriminate].
      2:{ cbn [hk_generate sop_strategy sop_hooks] in Eg. apply sop_generate_cases in Eg. destruct Eg as [F [e1 [cs [pts [_ [_ [_ [_ K]]]]]]]]. discriminate. }
      destruct D as [out1 [p2 [E [E1 [E2 D]]]]]. rewrite E in H. injection H as -> ->. right. exists (c_batch c), l. split; [|eapply G; exact Eg].
      destruct D as [[_ [D _]]|[q [z [_ [D1 [_ D3]]]]]]; [rewrite D in Eo1; discriminate|]. rewrite D1 in Eo1. injection Eo1 as <- <-.
      rewrite D3, <- app_assoc. reflexivity.
Qed.
End Runs.

(** ** C12 for SOPStrategy *)
Theorem C12_sop_serial_run_finishes : forall P (c : cfg P val) dist tooclose ncenters design s0 e0,
  let strategy := sop_strategy c dist tooclose ncenters in
  construct c strategy design sop0 = Ok (s0, e0) ->
  (* configuration: asynchronous, or batches of ncenters points *)
  (c_async c = true /\ (0 < ncenters)%Z) \/ (c_async c = false /\ Z.of_nat (c_batch c) = ncenters /\ 0 < c_batch c) ->
  c_restarts c = true -> (0 <= c_max_evals c)%Z -> c_max_evals c <> Z.of_nat (c_num_pts c) ->
  (forall x y, c_peqb c x y = true <-> x = y) -> (forall x y, x <> y -> ~ (dist x y == 0)%Q) ->
  (* at least two different initial points; the searches return new points *)
  2 <= length (batch_queue s0) -> NoDup (batch_queue s0) ->
  forall (f : P -> val) designs orcs, fresh_searches (batch_queue s0) orcs ->
  let m := Z.to_nat (c_max_evals c) in
  exists p h, y_proc (serial c strategy f designs orcs (S m) (start c strategy design sop0)) = Some p /\
    p_hist p = h ++ [EvTerminate] /\ length (completed h) = m /\ Forall (fun q => snd q = f (fst q)) (completed h) /\ outstanding h = [].
Proof.
  intros P c dist tooclose ncenters design s0 e0 strategy Hc Hmode Hr Hme Hm Hpe Hd Hq2 Hnd f designs orcs Hf m.
  apply (@serial_finishes_K P val (sop P) (sop_search P) c strategy f designs orcs design sop0 (fun k p => KH (batch_queue s0) orcs k (p_hist p))).
  - apply sop_contract.
  - destruct Hmode as [[H _]|[_ [_ H]]]; auto.
  - exact Hr.
  - exists s0, e0. split; [exact Hc|]. cbn [init_proc p_hist]. constructor; try reflexivity.
    + intros [|] ev h2 E; discriminate.
    + cbn. rewrite app_nil_r. exact Hnd.
    + intros y [].
    + intros [|] n r h2 E; discriminate.
  - intros k p HR HK _. rewrite <- (app_nil_r (p_hist p)) in HK.
    destruct (@sop_safe P c dist tooclose ncenters design s0 e0 orcs Hc Hmode Hm Hpe Hd Hq2 k p [] HR HK) as [A _]. apply A; [reflexivity|]. apply (proj1 Hf).
  - intros k p p1 kd x HR HK Eo Ep o HR2.
    assert (U : undecided (p_hist p) = []) by (pose proof (inv_und (Inv_reached HR)) as K; rewrite Eo in K; exact K).
    set (o1 := mkOut (p_next p) kd x None) in *.
    assert (EH : p_hist (do_accept o1 p1) = p_hist p1 ++ [EvAccept (p_next p)]) by reflexivity.
    (* the history after the evaluation *)
    assert (KK : KH (batch_queue s0) orcs (S k) ((p_hist p1 ++ [EvAccept (p_next p)]) ++ [EvComplete (p_next p) kd x (f x)])).
    { destruct (@sop_propose_hist P c dist tooclose ncenters design designs orcs k p p1 kd x HR Eo Ep) as [->|[n [l [-> HL]]]].
      - apply KH_round; [exact U|]. apply KH_S. exact HK.
      - apply KH_round.
        + unfold undecided. rewrite fold_left_app. cbn [fold_left undecided_step]. exact U.
        + apply KH_generate; assumption. }
    assert (HO : In o (p_out (do_accept o1 p1))).
    { destruct (@propose_eval_fields _ _ _ _ c strategy _ _ _ _ _ _ Ep) as [_ [_ [Eo1 _]]]. rewrite Eo in Eo1. cbn [app] in Eo1. unfold do_accept. cbn [p_out]. rewrite Eo1.
      unfold set_ev. cbn [map o1 o_id]. rewrite Nat.eqb_refl. left. reflexivity. }
    rewrite <- EH in KK.
    destruct (@sop_safe P c dist tooclose ncenters design s0 e0 orcs Hc Hmode Hm Hpe Hd Hq2 (S k) _ _ HR2 KK) as [_ A].
    destruct (A o (ev_next (p_s p1)) (f x) HO eq_refl) as [p3 Hp3]. exists p3. split; [exact Hp3|].
    apply do_complete_ok in Hp3. destruct Hp3 as [e' [l [nx [cv [-> _]]]]]. exact KK.
  - exact Hme.
Qed.
