(** * What the candidate searches of SOPStrategy are given (C28): generate_evals,
    pySOT/strategy/sop_strategy.py:286-307. *)
From Coq Require Import List Arith ZArith Lia Bool QArith.
From Verif Require Import Base PyList Strategy StrategySpec StrategyProofs StrategyInv StrategyInv2 StrategyInv3 PropStrategy SRBF Pareto ParetoProofs
  PropPareto SOP SOPProofs SOPCenters SOPInv PropSOP.
Import ListNotations.
Set Implicit Arguments.
Local Close Scope Q_scope.

(** ** C28: the searches of SOPStrategy *)
Section Sop.
Variable P : Type.
Variable c : cfg P val.
Variable dist : P -> P -> Q.
Variable tooclose : P -> P -> nat -> Q -> bool.
Variable ncenters : Z.
Variable design : res (list P).
Notation strategy := (sop_strategy c dist tooclose ncenters).

Lemma first_free_none : forall (l : list (scen P)) cn, nth_error l (first_free l) = Some cn -> n_new cn = None.
Proof using.
  induction l as [|b l IHl]; intros cn H; [discriminate|]. cbn [first_free] in H. destruct (n_new b) eqn:Eb; [exact (IHl _ H)|]. simpl in H. injection H as <-. exact Eb.
Qed.
Lemma perturb_search : forall (evals : list (srec P)) o n i cs acc cs' pts, perturb evals o n i cs acc = Ok (cs', pts) ->
  exists new ks, pts = acc ++ new /\ length new = n /\ length ks = n /\ NoDup ks /\
  (forall k, ~ In k ks -> nth_error cs' k = nth_error cs k) /\
  (forall k, In k ks -> exists cn, nth_error cs k = Some cn /\ n_new cn = None) /\
  forall j y, nth_error new j = Some y -> exists k cn r, nth_error ks j = Some k /\ nth_error cs k = Some cn /\
    nth_error evals (n_index cn) = Some r /\ o (i + j) (n_xc cn) (r_sigma r) = Ok y /\
    nth_error cs' k = Some (mkCen (n_xc cn) (n_index cn) (Some y) (n_newidx cn)).
Proof using.
  intros evals o n. induction n as [|n IH]; intros i cs acc cs' pts H; cbn [perturb] in H.
  - injection H as <- <-. exists [], []. rewrite app_nil_r. split; [reflexivity|]. split; [reflexivity|]. split; [reflexivity|]. split; [constructor|].
    split; [reflexivity|]. split; [intros k []|]. intros [|j] y Hy; discriminate.
  - apply rbind_ok in H. destruct H as [cn [H1 H]]. apply rbind_ok in H. destruct H as [r [H2 H]].
    apply rbind_ok in H. destruct H as [y [H3 H]]. apply rbind_ok in H. destruct H as [cs1 [H4 H]].
    apply geti_ok in H1, H2. destruct (upd_nth _ _ _ H4) as [_ [_ N]].
    destruct (IH _ _ _ _ _ H) as [new [ks [A1 [A2 [A3 [A4 [A5 [A6 A7]]]]]]]].
    assert (NI : ~ In (first_free cs) ks).
    { intros K. destruct (A6 _ K) as [cn' [K1 K2]]. rewrite N, Nat.eqb_refl, H1 in K1. injection K1 as <-. discriminate. }
    exists (y :: new), (first_free cs :: ks). rewrite A1, <- app_assoc. split; [reflexivity|]. split; [simpl; congruence|]. split; [simpl; congruence|].
    split; [constructor; assumption|]. split; [|split].
    + intros k Hk. rewrite A5 by (intros K; apply Hk; right; exact K). rewrite N. destruct (Nat.eqb_spec k (first_free cs)) as [->|]; [exfalso; apply Hk; left; reflexivity|reflexivity].
    + intros k [<-|Hk]; [exists cn; split; [exact H1|exact (first_free_none _ H1)]|]. destruct (A6 k Hk) as [cn' [K1 K2]]. rewrite N in K1.
      destruct (Nat.eqb_spec k (first_free cs)) as [->|]; [contradiction|]. exists cn'. auto.
    + intros [|j] y' Hy; simpl in Hy.
      * injection Hy as <-. exists (first_free cs), cn, r. split; [reflexivity|]. split; [exact H1|]. split; [exact H2|]. rewrite Nat.add_0_r. split; [exact H3|].
        rewrite A5 by exact NI. rewrite N, Nat.eqb_refl, H1. reflexivity.
      * destruct (A7 j y' Hy) as [k [cn' [r' [K1 [K2 [K3 [K4 K5]]]]]]]. exists k, cn', r'. split; [exact K1|]. rewrite Nat.add_succ_r, <- Nat.add_succ_l.
        rewrite N in K2. destruct (Nat.eqb_spec k (first_free cs)) as [->|]; [exfalso; apply NI; eapply nth_error_In; eauto|]. auto.
Qed.

(** C28: the i-th new point of a batch is what the i-th candidate search finds around the point of
    an archive entry with the sampling radius of that entry (0.2 * 2^-failures by C28_ranges); it is
    recorded in a center of that entry, a different center for each point of the batch. *)
Theorem C28_search : forall p n o e' l, reached c strategy design sop0 p ->
  hk_generate strategy (p_e p) (p_s p) n o = Ok (e', Some l) ->
  length l = n /\ s_evals e' = s_evals (p_e p) /\
  exists ks, length ks = n /\ NoDup ks /\
  forall i y, nth_error l i = Some y -> exists k cn r, nth_error ks i = Some k /\ nth_error (s_centers e') k = Some cn /\
    n_new cn = Some y /\ nth_error (s_evals (p_e p)) (n_index cn) = Some r /\ n_xc cn = r_x r /\
    o i (r_x r) (r_sigma r) = Ok y.
Proof using.
  intros p n o e' l H G. cbn [hk_generate sop_strategy sop_hooks] in G. apply sop_generate_cases in G.
  destruct G as [F [e1 [cs [pts [_ [G2 [G3 [-> G4]]]]]]]]. injection G4 as <-.
  destruct (perturb_search _ _ _ _ _ _ G3) as [new [ks [A1 [A2 [A3 [A4 [_ [_ A7]]]]]]]]. cbn [app] in A1. subst new. cbn [s_evals s_centers].
  split; [exact A2|]. split; [reflexivity|]. exists ks. split; [exact A3|]. split; [exact A4|].
  intros i y Hy. destruct (A7 i y Hy) as [k [cn [r [K1 [K2 [K3 [K4 K5]]]]]]]. exists k, (mkCen (n_xc cn) (n_index cn) (Some y) (n_newidx cn)), r.
  cbn [n_index n_xc n_new]. split; [exact K1|]. split; [exact K5|]. split; [reflexivity|]. split; [exact K3|].
  destruct (SopInv_reached H) as [I S].
  assert (C : cen_ok c (s_evals (p_e p)) cn).
  { destruct (@update_center_list_ok _ _ _ _ _ _ _ _ G2) as [_ [_ [cs1 [E1 [_ E2]]]]]. apply nth_error_In in K2. rewrite E1 in K2. apply in_app_or in K2. destruct K2 as [K2|K2].
    - apply filter_In in K2. pose proof (x_cen (si_x S)) as XC. rewrite Forall_forall in XC. exact (XC _ (proj1 K2)).
    - exact (proj1 (E2 cn K2)). }
  destruct C as [[r' [C1 C2]] _]. assert (r' = r) by congruence. subst r'. split; [symmetry; exact C2|]. rewrite C2. exact K4.
Qed.
End Sop.
