(** * C72: no part of the domain is excluded from the search.

    Whatever the state of the run, with suitable random draws the next adaptive points of SRBF and DYCORS
    lie as close as we like to any given feasible point; the suitable draws contain a box of positive
    size, so they have a positive probability. *)
From Coq Require Import List Arith ZArith Lia Bool QArith Reals Lra Qreals.
From Verif Require Import Base PyList Strategy StrategySpec StrategyProofs StrategyInv StrategyInv2
  StrategyInv3 StrategyInv4 PropStrategy SRBF SRBFProofs SRBFInv PropSRBF Box PropBox Cand PropCand EndToEnd Design Lin RBF PropRBF PropSolve SRBFRun Picks RbfPicks UnitsSmall.
Import ListNotations.
Set Implicit Arguments.
Local Close Scope Q_scope.
Local Open Scope R_scope.

(** ** Specification *)
(** [x] is within [eps] of [y] in every coordinate, and equal in the integer ones. *)
Definition near (q : prob) (dim : nat) (eps : R) (y x : pt) : Prop :=
  length x = dim /\ forall i, (i < dim)%nat -> Rabs (x@i - y@i) <= eps /\ (In i (q_int q) -> x@i = y@i).
(** [z] is in the box with center [z1] and side 2 [delta]. *)
Definition in_box (dim : nat) (z1 : nat -> nat -> R) (delta : R) (z : nat -> nat -> R) : Prop :=
  forall i r, (i < dim)%nat -> Rabs (z i r - z1 i r) <= delta.

(** ** A request that generates points generates points with other draws as well *)
Lemma propose_again : forall P V Ext Orc (c : cfg P V) (hk : hooks P V Ext Orc) d o o2 (p p' : proc P V Ext) out t n r e2 l2,
  do_propose c hk d o p = Ok (out, p') -> p_hist p' = p_hist p ++ t -> In (EvGenerate n r) t ->
  hk_generate hk (p_e p) (set_phase 2%nat (check_termination c (p_s p))) n o2 = Ok (e2, Some l2) ->
  exists out2 p2 t2, do_propose c hk d o2 p = Ok (out2, p2) /\ p_hist p2 = p_hist p ++ t2 /\ In (EvGenerate n (Some l2)) t2.
Proof.
  intros P V Ext Orc c hk d o o2 p p' out t n r e2 l2 H Ht Hg G2.
  destruct (@propose_generates _ _ _ _ c hk d o p p' out t n r H Ht Hg) as [_ [_ EN]].
  unfold do_propose in H. apply rbind_ok in H. destruct H as [[[out1 [s1 e1]] evs] [H H2]].
  assert (Hevs : In (EvGenerate n r) evs).
  { injection H2 as -> <-. destruct out; cbn [p_hist] in Ht; apply app_inv_head in Ht; subst t; apply in_app_or in Hg; destruct Hg as [Hg|[Hg|[]]]; try exact Hg; discriminate Hg. }
  clear H2 Ht Hg t.
  assert (K : exists out2 se2 evs2, propose_action c hk d o2 (p_s p) (p_e p) = Ok (out2, se2, evs2) /\ In (EvGenerate n (Some l2)) evs2).
  { revert H. unfold propose_action. revert G2. generalize (check_termination c (p_s p)). intros s. cbv zeta. intros G2.
    assert (RB : forall s e o2 se2 ev2, restart_branch c hk d s e = Ok (o2, se2, ev2) -> ~ In (EvGenerate n r) ev2).
    { intros s0 e0 o3 se3 ev3. unfold restart_branch. destruct (c_async c || _); [|intros [= _ _ <-] []].
      destruct (sample_restart c hk d (s0, e0)) as [se'|]; [|discriminate]. cbn [rbind]. destruct (init_proposal (fst se')) as [r0|]; [|discriminate]. cbn [rbind].
      intros [= _ _ <-] [F|[]]. discriminate F. }
    destruct (terminate s); [destruct (pending_evals s =? 0)%Z; intros [= _ _ _ <-]; destruct Hevs|].
    destruct (converged s) eqn:EC; [destruct (c_restarts c); [intros R; destruct (RB _ _ _ _ _ R Hevs)|intros [= _ _ _ <-]; destruct Hevs]|].
    destruct (nonempty (batch_queue s)).
    { destruct (phase s =? 1)%nat; [|intros [= _ _ _ <-]; destruct Hevs]. destruct (init_proposal s) as [r0|]; [|discriminate]. cbn [rbind]. intros [= _ _ _ <-]. destruct Hevs. }
    assert (DG : do_generate hk n o2 (set_phase 2%nat s) (p_e p) = Ok (set_batch_queue (batch_queue (set_phase 2%nat s) ++ l2) (set_phase 2%nat s), e2, [EvGenerate n (Some l2)])).
    { unfold do_generate. rewrite G2. reflexivity. }
    assert (C2 : converged (set_batch_queue (batch_queue (set_phase 2%nat s) ++ l2) (set_phase 2%nat s)) = false) by exact EC.
    destruct (c_async c).
    - intros _. subst n. rewrite DG. cbn [rbind]. rewrite C2. cbn [andb]. eexists _, _, _. split; [reflexivity|]. left. reflexivity.
    - change (pending_evals (set_phase 2%nat s)) with (pending_evals s). destruct (pending_evals s =? 0)%Z.
      + intros _. subst n. rewrite DG. cbn [rbind]. rewrite C2. cbn [andb]. eexists _, _, _. split; [reflexivity|]. left. reflexivity.
      + cbn [rbind]. change (converged (set_phase 2%nat s)) with (converged s). rewrite EC. cbn [andb]. intros [= _ _ _ <-]. destruct Hevs. }
  destruct K as [out2 [[s2 e3] [evs2 [K1 K2]]]]. unfold do_propose. rewrite K1. cbn [rbind].
  exists out2. eexists. exists (evs2 ++ [match out2 with OEval k x => EvPropose (p_next p) k x | OTerminate => EvTerminate | ONone => EvNone end]).
  split; [reflexivity|]. split; [destruct out2; reflexivity|]. apply in_or_app. left. exact K2.
Qed.

Lemma take_rows_all : forall P n (l : list P), length l = n -> take_rows n l = Ok l.
Proof. intros P n. induction n as [|n IH]; intros [|x l] H; try discriminate; [reflexivity|]. cbn [take_rows]. rewrite IH by (cbn in H; congruence). reflexivity. Qed.

(** ** The candidates *)
Section Draw.
Variable q : prob.
Variable dim : nat.
Hypothesis WF : well_formed q dim.

Definition scale_sum (radius : R) : R := fold_right Rplus 1 (map (scale q radius (seq 0 dim)) (seq 0 dim)).
Lemma scale_sum_ge : forall radius i, 0 < radius -> (i < dim)%nat -> scale q radius (seq 0 dim) i <= scale_sum radius /\ 1 <= scale_sum radius.
Proof using WF.
  intros radius i HR Hi. unfold scale_sum. assert (P : forall j, In j (seq 0 dim) -> 0 < scale q radius (seq 0 dim) j).
  { intros j Hj. apply in_seq in Hj. apply scale_pos with (dim := dim); [assumption|assumption|lia]. }
  assert (I : In i (seq 0 dim)) by (apply in_seq; lia). revert P I. generalize (scale q radius (seq 0 dim)). intros f. generalize (seq 0 dim). intros js P.
  assert (G : 1 <= fold_right Rplus 1 (map f js)).
  { clear i Hi. induction js as [|j js IH]; cbn [map fold_right]; [lra|]. pose proof (P j (or_introl eq_refl)). specialize (IH (fun k Hk => P k (or_intror Hk))). lra. }
  intros I. split; [|exact G]. clear G. induction js as [|j js IH]; [destruct I|]. cbn [map fold_right]. assert (G : 1 <= fold_right Rplus 1 (map f js)).
  { clear -P. induction js as [|k js IH]; cbn [map fold_right]; [lra|]. pose proof (P k (or_intror (or_introl eq_refl))).
    assert (H1 : 1 <= fold_right Rplus 1 (map f js)) by (apply IH; intros i [Hi|Hi]; [apply P; left; exact Hi|apply P; right; right; exact Hi]). lra. }
  destruct I as [->|I]; [lra|]. pose proof (P j (or_introl eq_refl)). specialize (IH (fun k Hk => P k (or_intror Hk)) I). lra.
Qed.

(** The draws that lead from [xb] to [y], and how far they may be off. *)
Definition toward (radius : R) (xb y : pt) : nat -> nat -> R := fun i _ => (y@i - xb@i) / scale q radius (seq 0 dim) i.
Definition slack (radius eps : R) : R := Rmin eps (/ 4) / scale_sum radius.
Lemma slack_pos : forall radius eps, 0 < radius -> (1 <= dim)%nat -> 0 < eps -> 0 < slack radius eps.
Proof using WF.
  intros radius eps HR HD HE. destruct (@scale_sum_ge radius 0%nat HR ltac:(lia)) as [_ S]. unfold slack. apply Rdiv_lt_0_compat; [|lra]. apply Rmin_glb_lt; lra.
Qed.
Lemma integral_eq : forall u v, integral u -> integral v -> Rabs (u - v) < 1 -> u = v.
Proof using.
  intros u v [a ->] [b ->] H. rewrite <- minus_IZR in H. rewrite <- abs_IZR in H. apply lt_IZR in H. f_equal. lia.
Qed.
Lemma drawn_near : forall radius xb y eps z (sel : nat -> nat -> Prop) cand, feasible q dim xb -> feasible q dim y -> 0 < radius -> 0 < eps -> (1 <= dim)%nat ->
  in_box dim (toward radius xb y) (slack radius eps) z -> (forall r i, (i < dim)%nat -> sel r i) ->
  drawn q dim xb radius sel z cand -> Forall (near q dim eps y) cand.
Proof using WF.
  intros radius xb y eps z sel cand FX FY HR HE HD BX SL DR. apply Forall_forall. intros x Hx. apply In_nth_error in Hx. destruct Hx as [r Hx].
  destruct (DR r x Hx) as [L D]. split; [exact L|]. intros i Hi. destruct (D i Hi) as [s [DV [D1 _]]]. specialize (D1 (SL r i Hi)).
  assert (ES : s = scale q radius (seq 0 dim) i).
  { destruct (@deviation_scale q dim radius i Hi) as [A B]. destruct DV as [A' B']. destruct (in_dec Nat.eq_dec i (q_int q)) as [K|K]; [rewrite A by exact K; apply A', K|rewrite B by exact K; apply B', K]. }
  assert (SP : 0 < s) by (rewrite ES; apply scale_pos with (dim := dim); assumption).
  destruct (@scale_sum_ge radius i HR Hi) as [SS S1]. rewrite <- ES in SS. specialize (BX i r Hi). unfold toward in BX. rewrite <- ES in BX.
  set (t := Rmax ((q_lb q)@i) (Rmin ((q_ub q)@i) (xb@i + s * z i r))) in *.
  assert (M : 0 < Rmin eps (/ 4) <= eps /\ Rmin eps (/ 4) <= / 4) by (split; [split; [apply Rmin_glb_lt; lra|apply Rmin_l]|apply Rmin_r]).
  assert (T : Rabs (t - y@i) <= Rmin eps (/ 4)).
  { assert (E : Rabs (xb@i + s * z i r - y@i) <= Rmin eps (/ 4)).
    { replace (xb@i + s * z i r - y@i) with (s * (z i r - (y@i - xb@i) / s)) by (field; lra). rewrite Rabs_mult, (Rabs_right s) by lra.
      apply Rle_trans with (s * slack radius eps); [apply Rmult_le_compat_l; [lra|exact BX]|]. unfold slack.
      apply Rle_trans with (scale_sum radius * (Rmin eps (/ 4) / scale_sum radius)); [apply Rmult_le_compat_r; [|exact SS]|right; field; lra].
      apply Rlt_le, Rdiv_lt_0_compat; lra. }
    destruct FY as [[_ FY] _]. specialize (FY i Hi). unfold t. clear -E FY. revert E. unfold Rabs, Rmax, Rmin. repeat destruct Rle_dec; repeat destruct Rcase_abs; lra. }
  destruct D1 as [R1 R2]. destruct (in_dec Nat.eq_dec i (q_int q)) as [K|K].
  - destruct (R2 K) as [I1 [I2 I3]]. destruct FY as [[_ FY] FYI]. specialize (I3 (y@i) (FYI i K) (FY i Hi)).
    assert (E : x@i = y@i).
    { apply integral_eq; [exact I1|exact (FYI i K)|]. replace (x@i - y@i) with ((t - y@i) - (t - x@i)) by ring.
      eapply Rle_lt_trans; [apply Rabs_triang|]. rewrite Rabs_Ropp. lra. }
    split; [rewrite E, Rminus_eq_0, Rabs_R0; lra|intros _; exact E].
  - rewrite (R1 K). split; [lra|contradiction].
Qed.
End Draw.

(** ** SRBF and DYCORS *)
Section Strategies.
Variable q : prob.
Variable dim : nat.
Variable dist : pt -> pt -> R.
Variable dtol : R.
Variable num_cand : option nat.
Variable c : cfg pt val.
Variable weights : list Q.
Variable predict : list (pt * val) -> pt -> R.
Variable usable : list (pt * val) -> pt -> res R.       (* the surrogate may raise, whatever the draws are *)
Hypothesis SE : setting q dim dist dtol num_cand.

Variable O : Type.
Variable g : O -> cand_search pt.
Variable mk : O -> R -> pt -> res (list pt).
Hypothesis Hg : forall o s n ws r, g o s n ws r = do xb <- center s; do _ <- usable (sur s) xb; do cand <- mk o (Q2R r) xb;
  weighted_distance_merit dist (predict (sur s)) n (X_ s ++ Xpend s) cand (map Q2R ws) dtol.
Notation hk := (hooks_with g (srbf_strategy c weights dim)).

Lemma generate_near : forall (p : proc pt val srbf) n o e' r y eps,
  Forall (feasible q dim) (X_ (p_s p)) -> length (X_ (p_s p)) = length (fX_ (p_s p)) ->
  hk_generate hk (p_e p) (set_phase 2%nat (check_termination c (p_s p))) n o = Ok (e', r) ->
  exists xb, feasible q dim xb /\ forall o2, (exists cand, mk o2 (Q2R (s_radius (p_e p))) xb = Ok cand /\ cand <> [] /\ Forall (near q dim eps y) cand) ->
    exists e2 l, hk_generate hk (p_e p) (set_phase 2%nat (check_termination c (p_s p))) n o2 = Ok (e2, Some l) /\ length l = n /\ Forall (near q dim eps y) l.
Proof using SE Hg.
  intros p n o e' r y eps FX LX G. set (s' := set_phase 2%nat (check_termination c (p_s p))) in *.
  assert (S1 : X_ s' = X_ (p_s p) /\ fX_ s' = fX_ (p_s p)) by (unfold s', check_termination; destruct (_ <=? _)%Z; repeat split; reflexivity).
  destruct S1 as [S1 S2]. clearbody s'. change (srbf_generate weights (p_e p) s' n (g o) = Ok (e', r)) in G.
  unfold srbf_generate in G. apply rbind_ok in G. destruct G as [[ws nx] [GW G]]. cbn [fst snd] in G.
  apply rbind_ok in G. destruct G as [pts [G1 _]]. rewrite Hg in G1. apply rbind_ok in G1. destruct G1 as [xb [G3 G1]]. apply rbind_ok in G1. destruct G1 as [v [G4 _]].
  assert (NE : X_ s' <> []) by (eapply X_nonempty; exact G3).
  assert (IX : In xb (X_ (p_s p))).
  { destruct (@x_best_ok _ (X_ s') (map toxr (fX_ s')) NE) as [xb' [E1 [_ E2]]].
    - rewrite map_length. congruence.
    - intros u. apply toxr_nan.
    - unfold center in G3. rewrite E1 in G3. injection G3 as ->. rewrite <- S1. exact E2. }
  exists xb. split; [rewrite Forall_forall in FX; apply FX, IX|]. intros o2 [cand [C1 [C2 C3]]].
  assert (LW : length ws = n) by (eapply get_weights_len; exact GW).
  destruct (@C32_merit _ dist (predict (sur s')) cand dtol n (X_ s' ++ Xpend s') (map Q2R ws)) as [js [pts' [E1 [E2 [E3 E4]]]]].
  { exact C2. }
  { intros K. apply app_eq_nil in K. tauto. }
  { rewrite map_length. lia. }
  { intros c0 _. rewrite (se_refl SE). exact (se_dtol SE). }
  assert (LP : length pts' = n) by (rewrite <- E2; symmetry; exact (eq_sym (Forall2_len2 E3))).
  assert (FN : Forall (near q dim eps y) pts').
  { apply Forall_forall. intros x Hx. rewrite Forall_forall in C3. apply C3. clear -E3 Hx. induction E3 as [|j x0 js l H E3 IH]; [destruct Hx|]. destruct Hx as [->|Hx]; [eapply nth_error_In; exact H|auto]. }
  eexists _, pts'. split; [|split; [exact LP|exact FN]].
  cbn [hooks_with hk_generate srbf_strategy srbf_hooks].
  unfold srbf_generate. rewrite GW. cbn [rbind fst snd]. rewrite Hg, G3. cbn [rbind]. rewrite G4. cbn [rbind]. rewrite C1. cbn [rbind]. rewrite E1. cbn [rbind].
  rewrite take_rows_all by exact LP. reflexivity.
Qed.
End Strategies.

Section Rbf.
Variable q : prob.
Variable dim : nat.
Variable dist : pt -> pt -> R.
Variable dtol : R.
Variable num_cand : option nat.
Variable eta : R.
Variable c : cfg pt val.
Variable weights : list Q.
Notation model := (predicted q dim eta).

(** C72, SRBF with RBFInterpolant: let the next request generate points (with some draws).  For every
    feasible [y] there are other draws, filling a box of positive size, for which all the generated points
    are near [y]. *)
Theorem C72_srbf : setting q dim dist dtol num_cand -> legal c ->
  forall design ops p, y_proc (Strategy.run c (srbf_rbf q dim dist dtol num_cand eta c weights) design srbf0 ops) = Some p ->
  (forall d, design = Ok d -> Forall (feasible q dim) d) ->
  (forall d z, In (Propose (Ok d) z) ops -> Forall (feasible q dim) d) ->
  Forall (feasible q dim) (unknown c) ->
  forall d z0 out p' t n r, do_propose c (srbf_rbf q dim dist dtol num_cand eta c weights) d z0 p = Ok (out, p') ->
  p_hist p' = p_hist p ++ t -> In (EvGenerate n r) t ->
  forall y eps, feasible q dim y -> 0 < eps ->
  exists z1 delta, 0 < delta /\ forall z, in_box dim z1 delta z ->
  exists out2 p2 t2 l, do_propose c (srbf_rbf q dim dist dtol num_cand eta c weights) d z p = Ok (out2, p2) /\
    p_hist p2 = p_hist p ++ t2 /\ In (EvGenerate n (Some l)) t2 /\ length l = n /\ Forall (near q dim eps y) l.
Proof using.
  intros SE HL design ops p Hp Hd Ho Hu d z0 out p' t n r DP Ht Hin y eps FY HE.
  destruct (@srbf_as_full q dim dist dtol num_cand eta c weights design ops) as [ops' [E1 E2]]. rewrite E1 in Hp.
  destruct (@propose_generates _ _ _ _ c _ d z0 p p' out t n r DP Ht Hin) as [e' [G _]].
  pose proof (@C13_srbf q dim dist model dtol num_cand c weights design SE HL ops' p Hp Hd (fun d z H => Ho d z (E2 _ _ H)) Hu) as FE.
  assert (HR : reached c (srbf_full q dim dist model dtol num_cand c weights) design srbf0 p) by (exists ops'; left; exact Hp).
  assert (LD : length (q_lb q) = dim) by apply (se_wf SE).
  pose proof (@proposed_data q dim c _ _ _ design p HR FE) as FX.
  assert (HR' : reached c (srbf_strategy c weights dim) design srbf0 p) by (eapply reached_with; exact HR).
  assert (LX : length (X_ (p_s p)) = length (fX_ (p_s p))) by (apply (ri_len (RunInv_reached HR'))).
  assert (RP : 0 < Q2R (s_radius (p_e p))).
  { eapply radius_pos; [exact (@ft_nz pt c dim HL)|exact (a_e (@all_inv pt c weights dim design HL p HR'))]. }
  destruct (@generate_near q dim dist dtol num_cand c weights model (rbf_predict q dim eta) SE _ (srbf_rbf_search q dim dist dtol num_cand eta)
    (fun z r xb => srbf_cand q r (seq 0 dim) (cand_count dim num_cand) xb (in_range q xb r z))) with (p := p) (n := n) (o := z0) (e' := e') (r := r) (y := y) (eps := eps)
    as [xb [FB N]]; try assumption.
  { intros o s m ws rr. unfold srbf_rbf_search. destruct (center s) as [xb|] eqn:EC; [|reflexivity]. cbn [rbind]. destruct (rbf_predict q dim eta (sur s) xb); [|reflexivity]. cbn [rbind].
    unfold srbf_search. rewrite EC. cbn [rbind]. unfold candidate_srbf. unfold center in EC. rewrite EC. cbn [rbind]. unfold all_coords. rewrite LD. reflexivity. }
  exists (toward q dim (Q2R (s_radius (p_e p))) xb y), (slack q dim (Q2R (s_radius (p_e p))) eps).
  split; [apply slack_pos; [exact (se_wf SE)|exact RP|exact (se_dim SE)|exact HE]|]. intros z BX.
  destruct (@srbf_cand_ok q dim (se_wf SE) (Q2R (s_radius (p_e p))) (seq 0 dim) (cand_count dim num_cand) xb (in_range q xb (Q2R (s_radius (p_e p))) z)) as [cand [C1 _]]; auto.
  { intros i Hi. apply in_seq in Hi. lia. }
  { intros i k Hi _. unfold in_range. rewrite (@all_seq q dim) by apply (se_wf SE). apply clamp_in. apply in_seq in Hi. apply (@tn_order q dim (se_wf SE)); auto. lia. }
  destruct (@srbf_drawn q dim (se_wf SE) _ _ _ _ _ FB RP C1) as [L DR].
  destruct (N z) as [e2 [l [G2 [LL NL]]]].
  { exists cand. split; [exact C1|]. split; [intros ->; cbn in L; symmetry in L; revert L; apply (cand_count_pos SE)|].
    eapply drawn_near; [exact (se_wf SE)|exact FB|exact FY|exact RP|exact HE|exact (se_dim SE)|exact BX| |exact DR]. intros; exact I. }
  destruct (@propose_again _ _ _ _ c _ d z0 z p p' out t n r e2 l DP Ht Hin G2) as [out2 [p2 [t2 [D1 [D2 D3]]]]].
  exists out2, p2, t2, l. auto.
Qed.

(** C72, DYCORS: the same if every coordinate is perturbed in every candidate.  These draws are possible
    as well: every coordinate is perturbed with probability at least 1/dim (C23_probability). *)
Theorem C72_dycors : setting q dim dist dtol num_cand -> legal c ->
  forall design ops p, y_proc (Strategy.run c (dycors_rbf q dim dist dtol num_cand eta c weights) design srbf0 ops) = Some p ->
  (forall d, design = Ok d -> Forall (feasible q dim) d) ->
  (forall d z, In (Propose (Ok d) z) ops -> Forall (feasible q dim) d) ->
  Forall (feasible q dim) (unknown c) ->
  forall d z0 out p' t n r, do_propose c (dycors_rbf q dim dist dtol num_cand eta c weights) d z0 p = Ok (out, p') ->
  p_hist p' = p_hist p ++ t -> In (EvGenerate n r) t ->
  forall y eps, feasible q dim y -> 0 < eps ->
  exists z1 delta, 0 < delta /\ forall z, in_box dim z1 delta (dy_z z) -> (forall r i, (i < dim)%nat -> dy_u z r i = true) ->
  exists out2 p2 t2 l, do_propose c (dycors_rbf q dim dist dtol num_cand eta c weights) d z p = Ok (out2, p2) /\
    p_hist p2 = p_hist p ++ t2 /\ In (EvGenerate n (Some l)) t2 /\ length l = n /\ Forall (near q dim eps y) l.
Proof using.
  intros SE HL design ops p Hp Hd Ho Hu d z0 out p' t n r DP Ht Hin y eps FY HE.
  destruct (@dycors_as_full q dim dist dtol num_cand eta c weights design ops) as [ops' [E1 E2]]. rewrite E1 in Hp.
  destruct (@propose_generates _ _ _ _ c _ d z0 p p' out t n r DP Ht Hin) as [e' [G _]].
  pose proof (@C13_dycors q dim dist model dtol num_cand c weights design SE HL ops' p Hp Hd (fun d z H => Ho d z (E2 _ _ H)) Hu) as FE.
  assert (HR : reached c (dycors_full q dim dist model dtol num_cand c weights) design srbf0 p) by (exists ops'; left; exact Hp).
  assert (LD : length (q_lb q) = dim) by apply (se_wf SE).
  pose proof (@proposed_data q dim c _ _ _ design p HR FE) as FX.
  assert (HR' : reached c (srbf_strategy c weights dim) design srbf0 p) by (eapply reached_with; exact HR).
  assert (LX : length (X_ (p_s p)) = length (fX_ (p_s p))) by (apply (ri_len (RunInv_reached HR'))).
  assert (RP : 0 < Q2R (s_radius (p_e p))).
  { eapply radius_pos; [exact (@ft_nz pt c dim HL)|exact (a_e (@all_inv pt c weights dim design HL p HR'))]. }
  destruct (@generate_near q dim dist dtol num_cand c weights model (rbf_predict q dim eta) SE _ (dycors_rbf_search q dim dist dtol num_cand eta)
    (fun z r xb => dycors_cand q r (seq 0 dim) (cand_count dim num_cand) xb (dy_u z) (fun k => dy_f z k mod (dim - 1))%nat (in_range q xb r (dy_z z))))
    with (p := p) (n := n) (o := z0) (e' := e') (r := r) (y := y) (eps := eps)
    as [xb [FB N]]; try assumption.
  { intros o s m ws rr. unfold dycors_rbf_search. destruct (center s) as [xb|] eqn:EC; [|reflexivity]. cbn [rbind]. destruct (rbf_predict q dim eta (sur s) xb); [|reflexivity]. cbn [rbind].
    unfold dycors_search. rewrite EC. cbn [rbind]. unfold candidate_dycors. unfold center in EC. rewrite EC. cbn [rbind]. unfold all_coords. rewrite LD. reflexivity. }
  exists (toward q dim (Q2R (s_radius (p_e p))) xb y), (slack q dim (Q2R (s_radius (p_e p))) eps).
  split; [apply slack_pos; [exact (se_wf SE)|exact RP|exact (se_dim SE)|exact HE]|]. intros z BX UT.
  destruct (@dycors_cand_ok q dim (se_wf SE) (Q2R (s_radius (p_e p))) dim (cand_count dim num_cand) xb (dy_u z) (fun k => dy_f z k mod (dim - 1))%nat (in_range q xb (Q2R (s_radius (p_e p))) (dy_z z)))
    as [ar [cand [_ [C1 _]]]]; auto.
  { pose proof (se_dim SE). lia. }
  { intros K k _. apply Nat.mod_upper_bound. lia. }
  { intros i k Hi _. unfold in_range. rewrite (@all_seq q dim) by apply (se_wf SE). apply clamp_in. apply (@tn_order q dim (se_wf SE)); auto. }
  destruct (@dycors_drawn q dim (se_wf SE) _ _ _ _ _ _ _ FB RP (se_dim SE) C1) as [L DR].
  destruct (N z) as [e2 [l [G2 [LL NL]]]].
  { exists cand. split; [exact C1|]. split; [intros ->; cbn in L; symmetry in L; revert L; apply (cand_count_pos SE)|].
    eapply drawn_near; [exact (se_wf SE)|exact FB|exact FY|exact RP|exact HE|exact (se_dim SE)|exact BX| |exact DR]. intros k i Hi. right. left. apply UT. exact Hi. }
  destruct (@propose_again _ _ _ _ c _ d z0 z p p' out t n r e2 l DP Ht Hin G2) as [out2 [p2 [t2 [D1 [D2 D3]]]]].
  exists out2, p2, t2, l. auto.
Qed.
End Rbf.
