(** * C69 for SOP with its RBF surrogate. *)
From Coq Require Import List Arith ZArith Lia Bool QArith Reals Lra Qreals.
From Verif Require Import Base PyList Strategy StrategySpec StrategyProofs StrategyInv StrategyInv2
  StrategyInv3 StrategyInv4 PropStrategy SRBF SRBFProofs SRBFInv PropSRBF Box PropBox Cand PropCand EndToEnd Lin RBF PropRBF PropSolve SRBFRun
  SOP SOPProofs SOPCenters SOPInv PropSOP ScaleSOP SOPSearch SOPFeas Picks PicksSOP RbfPicks ExSRBFRun PosDef PropSurr UnitsSmall UnitsRun.
From Coq Require Import Rdefinitions.
Import ListNotations.
Set Implicit Arguments.
Local Close Scope Q_scope.
Local Open Scope R_scope.

Lemma perturb_mono : forall P evals (o o2 : sop_search P) n i cs acc r, (forall j x s y, o j x s = Ok y -> o2 j x s = Ok y) ->
  perturb evals o n i cs acc = Ok r -> perturb evals o2 n i cs acc = Ok r.
Proof.
  intros P evals o o2 n. induction n as [|n IH]; intros i cs acc r HO H; [exact H|]. cbn [perturb] in *.
  apply rbind_ok in H. destruct H as [cn [H1 H]]. apply rbind_ok in H. destruct H as [a [H2 H]]. apply rbind_ok in H. destruct H as [y [H3 H]]. apply rbind_ok in H. destruct H as [cs' [H4 H]].
  rewrite H1. cbn [rbind]. rewrite H2. cbn [rbind]. rewrite (HO _ _ _ _ H3). cbn [rbind]. rewrite H4. cbn [rbind]. apply IH; assumption.
Qed.

Section Sop.
Variable c : cfg pt val.
Variable sdist : pt -> pt -> Q.
Variable tooclose : pt -> pt -> nat -> Q -> bool.
Variable ncenters : Z.
Variable q : prob.
Variable dim : nat.
Variable dist : pt -> pt -> R.
Variable dtol : R.
Variable num_cand : option nat.
Variable eta : R.
Notation model := (predicted q dim eta).
Notation rbf := (sop_rbf q dim dist dtol num_cand eta c sdist tooclose ncenters).
Notation full := (sop_full c sdist tooclose ncenters q dist dtol num_cand model).

Lemma sop_generate_mono : forall e s n o r, hk_generate rbf e s n o = Ok r -> hk_generate full e s n o = Ok r.
Proof using.
  intros e s n o r H. unfold sop_rbf, sop_full, hooks_at, sop_strategy, sop_hooks in *. cbn [hk_generate] in *. unfold sop_generate in *.
  apply rbind_ok in H. destruct H as [F [H1 H]]. apply rbind_ok in H. destruct H as [e1 [H2 H]]. apply rbind_ok in H. destruct H as [r1 [H3 H]].
  rewrite H1. cbn [rbind]. rewrite H2. cbn [rbind]. erewrite perturb_mono; [cbn [rbind]; exact H| |exact H3].
  intros j x sg y K. unfold sop_rbf_search in K. apply rbind_ok in K. destruct K as [v [_ K]]. exact K.
Qed.

(** C69, SOP with RBFInterpolant: the predictions are those of the interpolant of all known and
    evaluated points. *)
Theorem C69_sop_rbf : setting q dim dist dtol num_cand -> (forall x y, c_peqb c x y = true <-> x = y) ->
  forall design ops p, y_proc (Strategy.run c rbf design sop0 ops) = Some p ->
  (forall d, design = Ok d -> Forall (feasible q dim) d) ->
  (forall d z, In (Propose (Ok d) z) ops -> Forall (feasible q dim) d) ->
  Forall (feasible q dim) (unknown c) -> no_duplicates (p_hist p) ->
  forall d z out p' t n r, do_propose c rbf d z p = Ok (out, p') ->
  p_hist p' = p_hist p ++ t -> In (EvGenerate n r) t ->
  exists l, r = Some l /\ length l = n /\ n = (if c_async c then 1 else c_batch c)%nat /\
  forall i y, nth_error l i = Some y -> exists a cand, In a (s_evals (p_e p)) /\ In (r_x a, r_fx a) (run_data (p_hist p)) /\
    length cand = cand_count dim num_cand /\
    drawn q dim (r_x a) (Q2R (r_sigma a)) (dycors_selected dim (dy_u (z i)) (fun k => dy_f (z i) k mod (dim - 1))%nat) (dy_z (z i)) cand /\
    best_candidate dist (model (known c ++ run_data (p_hist p))) dtol
      (map fst (run_data (p_hist p)) ++ map snd (outstanding (p_hist p))) cand y.
Proof using.
  intros SE HP design ops p Hp Hd Ho Hu ND d z out p' t n r DP Ht Hin.
  destruct (@refine_run _ _ _ _ c rbf full) with (design := design) (e0 := @sop0 pt) (ops := ops) as [ops' [E1 E2]]; try reflexivity; [exact sop_generate_mono|].
  rewrite E1 in Hp.
  eapply (@C69_sop c sdist tooclose ncenters q dim dist dtol num_cand model SE HP design ops' p Hp Hd) with (d := d) (p' := p') (t := t); try eassumption.
  - intros d0 z0 K. eapply Ho. eapply refine_designs; [exact E2|exact K].
  - eapply (@refine_propose _ _ _ _ c rbf full); [reflexivity|exact sop_generate_mono|exact DP].
Qed.
End Sop.

(** The interval [0, 1], the design {0, 1} with values 3 and 1: one batch of SOP with the RBF
    surrogate is generated and its first point is proposed. *)
Example ex_C69_sop_rbf : forall z, let sd := fun _ _ : pt => 1%Q in let tc := fun (_ _ : pt) (_ : nat) (_ : Q) => false in
  let c := cfg1 false 1 in let hk := sop_rbf q1 1 dist1 1 (Some 5%nat) (/ 1000000) c sd tc 2 in
  setting q1 1 dist1 1 (Some 5%nat) /\ (forall x y, c_peqb c x y = true <-> x = y) /\
  exists p, y_proc (Strategy.run c hk (Ok d1) sop0 (ops3 z)) = Some p /\ no_duplicates (p_hist p) /\
  exists out p' x l, do_propose c hk (Ok []) z p = Ok (out, p') /\ p_hist p' = p_hist p ++ [EvGenerate 1 (Some l); EvPropose 2 KAdapt x].
Proof.
  intros z sd tc c hk.
  assert (SE : setting q1 1 dist1 1 (Some 5%nat)).
  { destruct set1 as [W D T0 RF NC]. constructor; auto. discriminate. }
  split; [exact SE|]. split.
  { intros x y. cbn [c cfg1 c_peqb]. unfold peq1. destruct (list_eq_dec Req_EM_T x y); split; intros; congruence. }
  pose proof (proj1 (proj2 (good1 false 1))) as FD.
  eexists. split; [unfold hk; lazy -[sop_rbf_search IZR Rinv list_eq_dec]; reflexivity|]. split.
  { cbn [p_hist]. apply (@nodup2 [1] [0]); [intros F; injection F; intros; lra|reflexivity]. }
  match goal with |- context [do_propose _ _ _ _ ?P] => set (p := P) end.
  assert (PT : forall x, exists v, rbf_predict q1 1 (/ 1000000) (sur (p_s p)) x = Ok v).
  { apply predict_total.
    - exact (proj1 (se_wf SE)).
    - apply Rinv_0_lt_compat. lra.
    - intros x v [E|[E|[]]]; injection E as <- _; reflexivity.
    - repeat constructor; eexists; reflexivity.
    - eapply general_incl; [|exact gen1]. intros x [<-|[<-|[]]]; cbn; auto. }
  assert (S : forall xc, feasible q1 1 xc -> exists y, sop_rbf_search q1 1 dist1 1 (Some 5%nat) (/ 1000000) z (set_phase 2%nat (check_termination c (p_s p))) 0%nat xc r_max = Ok y).
  { intros xc Fc. unfold sop_rbf_search. change (sur (set_phase 2%nat (check_termination c (p_s p)))) with (sur (p_s p)). destruct (PT xc) as [v0 ->]. cbn [rbind].
    assert (SI : search_input dist1 q1 1%nat 1%nat [[1]; [0]] (map toxr [Fin 3; Fin 1]) [1] 1 (Some 5%nat)).
    { destruct SE as [W D T0 RF NC]. constructor; auto; [discriminate|intros u; apply toxr_nan|].
      inversion FD as [|? ? F1 F2]; subst. inversion F2; subst. intros x [<-|[<-|[]]]; assumption. }
    assert (R0 : 0 < Q2R r_max) by (unfold Q2R, r_max; cbn; apply Rmult_lt_0_compat; [lra|apply Rinv_0_lt_compat; lra]).
    destruct (@C33_dycors_partial dist1 (predicted q1 1 (/ 1000000) (sur (p_s p))) q1 1%nat 1%nat [[1]; [0]] (map toxr [Fin 3; Fin 1]) [1] (Xpend (p_s p)) (Q2R r_max) None 1 (Some 5%nat)
      (Some xc) (dy_u (z 0%nat)) (fun k => (dy_f (z 0%nat) k mod (length (q_lb q1) - 1))%nat) (in_range q1 xc (Q2R r_max) (dy_z (z 0%nat))) SI R0) as [xb' [_ [pts [B3 [B4 _]]]]].
    - exact I.
    - intros c0 [= <-]. exact Fc.
    - intros r. right. reflexivity.
    - intros xb' i r -> Hi _. cbn [sub_list]. unfold in_range. cbn [all_coords q1 q_lb length]. apply clamp_in. apply tn_order with (dim := 1%nat); auto. apply (se_wf SE).
    - destruct pts as [|y [|]]; try discriminate. exists y. change (X_ (set_phase 2%nat (check_termination c (p_s p)))) with [[1]; [0]].
      change (fX_ (set_phase 2%nat (check_termination c (p_s p)))) with [Fin 3; Fin 1]. change (Xpend (set_phase 2%nat (check_termination c (p_s p)))) with (Xpend (p_s p)).
      rewrite B3. reflexivity. }
  destruct (S [0]) as [y Sy]; [inversion FD; assumption|]. clear S PT.
  set (so := sop_rbf_search q1 1 dist1 1 (Some 5%nat) (/ 1000000) z (set_phase 2%nat (check_termination c (p_s p)))) in *.
  assert (G : exists e', hk_generate hk (p_e p) (set_phase 2%nat (check_termination c (p_s p))) 1%nat z = Ok (e', Some [y])).
  { assert (GE : hk_generate hk (p_e p) (set_phase 2%nat (check_termination c (p_s p))) 1%nat z =
      hk_generate (sop_strategy c sd tc 2) (p_e p) (set_phase 2%nat (check_termination c (p_s p))) 1%nat so) by reflexivity.
    rewrite GE. clear GE. clearbody so. cbn [hk_generate sop_strategy sop_hooks]. unfold sop_generate.
    match goal with |- exists e', ?a = _ => let v := eval lazy -[IZR Rinv list_eq_dec] in a in change (exists e', v = Ok (e', Some [y])) end.
    lazy -[IZR Rinv] in Sy. rewrite Sy. eexists. reflexivity. }
  destruct G as [e' G].
  destruct (@PicksSOP.propose_batch _ _ _ _ c hk (Ok []) z p e' [y]) as [out [p' [x [E1 E2]]]]; try reflexivity; [exact G|discriminate|].
  exists out, p', x, [y]. split; [exact E1|exact E2].
Qed.
