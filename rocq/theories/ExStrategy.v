(** * Concrete runs: the hypotheses of the theorems of PropStrategy.v are met by non-trivial
    runs, and the parts of the properties that the code violates are refuted by witnesses. *)
From Coq Require Import List Arith ZArith Lia Bool Permutation.
From Verif Require Import Base Strategy StrategySpec StrategyProofs StrategyInv StrategyInv2
  StrategyInv3 StrategyInv4 StrategySerial PropStrategy.
Import ListNotations.
Local Open Scope Z_scope.

(** Points are naturals, values integers; generate_evals returns what the oracle says
    ([None]: it sets converged), and an adaptive value below zero makes the strategy converge. *)
Definition tcfg (maxe : Z) (async : bool) (batch : nat) (restarts : bool) : cfg nat Z :=
  mkCfg maxe async batch restarts 2 None None (fun _ => false) Nat.eqb false.
Definition thk : hooks nat Z unit (option (list nat)) :=
  mkHooks (fun e => e) (fun e _ _ _ _ => Ok e)
    (fun e _ _ v _ => Ok (e, 0%nat, v <? 0)) (fun e _ _ o => Ok (e, o)).
Definition d0 : res (list nat) := Ok [10; 11]%nat.
Notation P_ o := (Propose (Ok [20; 21]%nat) o) (only parsing).
Notation top := (op nat Z (option (list nat))).
Definition run_ (c : cfg nat Z) (ops : list top) : sys nat Z unit := run c thk d0 tt ops.
Definition hist_ (c : cfg nat Z) (ops : list top) : list (event nat Z) :=
  match y_proc (run_ c ops) with Some p => p_hist p | None => [] end.

Lemma run_reached : forall c ops p, y_proc (run_ c ops) = Some p -> reached c thk d0 tt p.
Proof. intros c ops p H. exists ops. left. exact H. Qed.

Definition pr_ (c : cfg nat Z) (ops : list top) : proc nat Z unit :=
  match y_proc (run_ c ops) with
  | Some p => p
  | None => mkProc (base0 nat Z) tt [] [] 0%nat []
  end.
Lemma pr_ok : forall c ops,
  match y_proc (run_ c ops) with Some _ => true | None => false end = true ->
  y_proc (run_ c ops) = Some (pr_ c ops).
Proof. intros c ops H. unfold pr_. destruct (y_proc (run_ c ops)); [reflexivity|discriminate]. Qed.

Lemma peqb_nat : forall m a b r x y,
  c_peqb (tcfg m a b r) x y = true <-> x = y.
Proof. intros. simpl. apply Nat.eqb_eq. Qed.

(** ** A complete asynchronous run with a restart, a straggler, a reject and an abort. *)
Definition ops_full : list top :=
  [P_ None; Accept 0; P_ None; Accept 1; Update 0 (SCompleted 5%Z); Update 1 SKilled;
   P_ None; Reject 2; P_ None; Accept 3; Update 3 (SCompleted 6%Z);
   P_ (Some [30]%nat); Accept 4; P_ (Some [31]%nat); Accept 5;
   Update 4 (SCompleted (-1)%Z);                          (* converges *)
   P_ None; Accept 6;                                   (* restart, 31 still running *)
   Update 5 (SCompleted 7%Z); Update 6 (SCompleted 8%Z);
   P_ None; Accept 7; Update 7 (SCompleted 9%Z); P_ None]%nat.

Example ex_full_history : hist_ (tcfg 6 true 0 true) ops_full =
  [EvPropose 0 KInit 11; EvAccept 0; EvPropose 1 KInit 10; EvAccept 1;
   EvComplete 0 KInit 11 5%Z; EvAbort 1 KInit 10; EvPropose 2 KInit 10; EvReject 2 KInit 10;
   EvPropose 3 KInit 10; EvAccept 3; EvComplete 3 KInit 10 6%Z;
   EvGenerate 1 (Some [30]); EvPropose 4 KAdapt 30; EvAccept 4;
   EvGenerate 1 (Some [31]); EvPropose 5 KAdapt 31; EvAccept 5;
   EvComplete 4 KAdapt 30 (-1)%Z; EvRestart [20; 21]; EvPropose 6 KInit 21; EvAccept 6;
   EvComplete 5 KAdapt 31 7%Z; EvComplete 6 KInit 21 8%Z; EvPropose 7 KInit 20; EvAccept 7;
   EvComplete 7 KInit 20 9%Z; EvTerminate]%nat.
Proof. vm_compute. reflexivity. Qed.

(** The hypotheses of C01-C06, C08 (no resume), C03 (abort before the criterion is seen). *)
Example ex_full_reached : exists p, reached (tcfg 6 true 0 true) thk d0 tt p /\
  used (p_hist p) = 6 /\ restarts (p_hist p) = 1%nat /\
  run_data (p_hist p) = [(21%nat, 8); (20%nat, 9)] /\
  count (@is_resume nat Z) (p_hist p) = 0%nat /\ count (@is_abort nat Z) (p_hist p) = 1%nat /\
  accepted_count (p_s p) = 7 /\ rejected_count (p_s p) = 1.
Proof.
  pose (p := pr_ (tcfg 6 true 0 true) ops_full).
  assert (E : y_proc (run_ (tcfg 6 true 0 true) ops_full) = Some p) by (apply pr_ok; vm_compute; reflexivity).
  exists p. split; [apply (run_reached _ ops_full); exact E|].
  clear E. unfold p. vm_compute. repeat split; reflexivity.
Qed.

Ltac list_splits H h1 :=
  repeat (destruct h1 as [|? h1]; simpl in H; [injection H as; subst; try discriminate|
          try (injection H as ? H; subst)]).

(** [protocol] is decidable on a concrete history: check every prefix. *)
Fixpoint protocol_b (pre h : list (event nat Z)) : bool :=
  match h with
  | [] => true
  | ev :: h' => (negb (is_call ev) || match undecided pre with [] => true | _ => false end)
                && protocol_b (pre ++ [ev]) h'
  end.
Lemma protocol_b_ok : forall h pre, protocol_b pre h = true ->
  forall h1 ev h2, h = h1 ++ ev :: h2 -> is_call ev = true -> undecided (pre ++ h1) = [].
Proof.
  induction h as [|e h IH]; intros pre H h1 ev h2 E Hc.
  - destruct h1; discriminate.
  - simpl in H. apply andb_true_iff in H. destruct H as [H1 H2]. destruct h1 as [|e1 h1].
    + injection E as <- <-. rewrite Hc in H1. simpl in H1. rewrite app_nil_r.
      destruct (undecided pre); [reflexivity|discriminate].
    + injection E as <- ->. specialize (IH _ H2 h1 ev h2 eq_refl Hc).
      rewrite <- app_assoc in IH. exact IH.
Qed.
Lemma protocol_check : forall h, protocol_b [] h = true -> protocol h.
Proof. intros h H h1 ev h2 E Hc. exact (protocol_b_ok _ _ H h1 ev h2 E Hc). Qed.

Fixpoint stop_b (maxe : Z) (pre h : list (event nat Z)) : bool :=
  match h with
  | [] => false
  | ev :: h' => is_stop ev || (is_call ev && (maxe <=? used pre)) || stop_b maxe (pre ++ [ev]) h'
  end.
Lemma stop_b_ok : forall maxe h pre, (exists h1 ev h2, h = h1 ++ ev :: h2 /\
    (is_stop ev = true \/ (is_call ev = true /\ (maxe <= used (pre ++ h1))%Z))) ->
  stop_b maxe pre h = true.
Proof.
  intros maxe. induction h as [|e h IH]; intros pre [h1 [ev [h2 [E H]]]].
  - destruct h1; discriminate.
  - simpl. destruct h1 as [|e1 h1].
    + injection E as <- <-. rewrite app_nil_r in H. destruct H as [->|[-> H]]; [reflexivity|].
      apply Z.leb_le in H. rewrite H, orb_true_r. reflexivity.
    + injection E as <- ->. rewrite IH; [apply orb_true_r|].
      exists h1, ev, h2. rewrite <- app_assoc. auto.
Qed.
Lemma stop_check : forall maxe h, stop_b maxe [] h = false -> ~ stop_seen maxe h.
Proof. intros maxe h H S. rewrite (stop_b_ok maxe h []) in H; [discriminate|exact S]. Qed.

Fixpoint all_splits (f : list (event nat Z) -> event nat Z -> bool) (pre h : list (event nat Z)) : bool :=
  match h with [] => true | ev :: h' => f pre ev && all_splits f (pre ++ [ev]) h' end.
Lemma all_splits_ok : forall f h pre, all_splits f pre h = true ->
  forall h1 ev h2, h = h1 ++ ev :: h2 -> f (pre ++ h1) ev = true.
Proof.
  intros f. induction h as [|e h IH]; intros pre H h1 ev h2 E.
  - destruct h1; discriminate.
  - simpl in H. apply andb_true_iff in H. destruct H as [H1 H2]. destruct h1 as [|e1 h1].
    + injection E as <- <-. rewrite app_nil_r. assumption.
    + injection E as <- ->. specialize (IH _ H2 h1 ev h2 eq_refl).
      rewrite <- app_assoc in IH. exact IH.
Qed.

(** C03/C17 hypotheses on this run: the abort happens before the criterion is observed. *)
Example ex_C03_hyps : forall p, y_proc (run_ (tcfg 6 true 0 true) ops_full) = Some p ->
  exists h, p_hist p = h ++ [EvTerminate] /\ protocol (p_hist p) /\
  (forall h1 ev h2, h = h1 ++ ev :: h2 ->
     is_abort ev = true \/ is_resume ev = true \/ is_stop ev = true ->
     ~ stop_seen 6 (h1 ++ [ev])).
Proof.
  intros p E. assert (Eh : p_hist p = hist_ (tcfg 6 true 0 true) ops_full)
    by (unfold hist_; rewrite E; reflexivity).
  rewrite Eh, ex_full_history. eexists. split; [|split].
  - match goal with |- ?l = _ => change l with (removelast l ++ [last l EvNone]) end. reflexivity.
  - apply protocol_check. vm_compute. reflexivity.
  - intros h1 ev h2 E2 Hb. apply stop_check.
    assert (A := all_splits_ok (fun pre ev =>
      negb (is_abort ev || is_resume ev || is_stop ev) || negb (stop_b 6 [] (pre ++ [ev])))
      (h1 ++ ev :: h2) [] ltac:(rewrite <- E2; vm_compute; reflexivity) h1 ev h2 eq_refl).
    simpl app in A.
    apply orb_true_iff in A. destruct A as [A|A].
    + exfalso. apply negb_true_iff in A. apply orb_false_iff in A. destruct A as [A C].
      apply orb_false_iff in A. destruct A as [A B]. destruct Hb as [?|[?|?]]; congruence.
    + apply negb_true_iff in A. exact A.
Qed.

(** ** C03 refuted: an evaluation aborted after the criterion was observed costs budget. *)
Definition ops_c03 : list top :=
  [P_ None; Accept 0; P_ None; Accept 1; P_ None (* None: budget reached *);
   Update 0 (SCompleted 5%Z); Update 1 SKilled; P_ None]%nat.
Theorem C03_full_budget_refuted : exists c (p : proc nat Z unit) h,
  reached c thk d0 tt p /\ p_hist p = h ++ [EvTerminate] /\ protocol (p_hist p) /\
  count (@is_stop nat Z) h = 0%nat /\ count (@is_resume nat Z) h = 0%nat /\
  Z.of_nat (length (completed h)) < c_max_evals c.
Proof.
  exists (tcfg 2 true 0 true).
  pose (p := pr_ (tcfg 2 true 0 true) ops_c03).
  assert (E : y_proc (run_ (tcfg 2 true 0 true) ops_c03) = Some p) by (apply pr_ok; vm_compute; reflexivity).
  exists p. exists (removelast (p_hist p)). split; [apply (run_reached _ ops_c03); exact E|].
  clear E. unfold p. split; [reflexivity|].
  split; [apply protocol_check; vm_compute; reflexivity|]. vm_compute. auto.
Qed.

(** ** C05 refuted: two equal outstanding points. *)
Definition ops_c05 : list top :=
  [P_ None; Accept 0; P_ None; Accept 1; Update 0 (SCompleted 5%Z); Update 1 (SCompleted 6%Z);
   P_ (Some [30]%nat); Accept 2; P_ (Some [30]%nat); Accept 3; Update 2 (SCompleted 7%Z)]%nat.
Theorem C05_xpend_refuted : exists (p : proc nat Z unit),
  reached (tcfg 9 true 0 true) thk d0 tt p /\
  outstanding (p_hist p) = [(3%nat, 30%nat)] /\ Xpend (p_s p) = [].
Proof.
  pose (p := pr_ (tcfg 9 true 0 true) ops_c05).
  assert (E : y_proc (run_ (tcfg 9 true 0 true) ops_c05) = Some p) by (apply pr_ok; vm_compute; reflexivity).
  exists p. split; [apply (run_reached _ ops_c05); exact E|].
  clear E. unfold p. vm_compute. auto.
Qed.

(** ** C08 refuted: design point 10 is aborted, re-proposed on the adaptive path, aborted
    again and lost: it is not queued, not outstanding, not evaluated. *)
Definition ops_c08 : list top :=
  [P_ None; Accept 0; P_ None; Accept 1; P_ (Some [30]%nat); Accept 2;
   Update 1 SKilled; P_ None; Accept 3; Update 3 SKilled; Update 0 (SCompleted 5%Z)]%nat.
Theorem C08_design_lost_refuted : exists (p : proc nat Z unit),
  reached (tcfg 9 true 0 true) thk d0 tt p /\ count (@is_resume nat Z) (p_hist p) = 0%nat /\
  In 10%nat [10; 11]%nat (* the design *) /\ ~ In 10%nat (batch_queue (p_s p)) /\
  ~ In 10%nat (map snd (outstanding (p_hist p))) /\
  ~ In 10%nat (map fst (completed (p_hist p))) /\
  In (EvPropose 1 KInit 10)%nat (p_hist p) /\ In (EvPropose 3 KAdapt 10)%nat (p_hist p).
Proof.
  pose (p := pr_ (tcfg 9 true 0 true) ops_c08).
  assert (E : y_proc (run_ (tcfg 9 true 0 true) ops_c08) = Some p) by (apply pr_ok; vm_compute; reflexivity).
  exists p. split; [apply (run_reached _ ops_c08); exact E|].
  clear E. unfold p. vm_compute.
  repeat match goal with |- _ /\ _ => split end;
    try reflexivity; try (intros H; intuition discriminate); auto 20.
Qed.

(** ** C09: a synchronous run with batch size 2 meets the hypotheses. *)
Definition ops_c09 : list top :=
  [P_ None; Accept 0; P_ None; Accept 1; P_ (Some [30;31]%nat) (* waits *);
   Update 0 (SCompleted 5%Z); Update 1 (SCompleted 6%Z);
   P_ (Some [30;31]%nat); Reject 2; P_ None; Accept 3; P_ None; Accept 4; P_ None;
   Update 3 (SCompleted 7%Z); Update 4 SKilled; P_ (Some [32;33]%nat)]%nat.
Example ex_C09 : exists p h1 h2, reached (tcfg 9 false 2 true) thk d0 tt p /\
  p_hist p = h1 ++ EvGenerate 2 (Some [32;33]%nat) :: h2 /\
  count (@is_resume nat Z) h1 = 0%nat /\ given_up false h1 = [30%nat] /\
  map fst (completed h1) = [11; 10; 31]%nat.
Proof.
  pose (p := pr_ (tcfg 9 false 2 true) ops_c09).
  assert (E : y_proc (run_ (tcfg 9 false 2 true) ops_c09) = Some p) by (apply pr_ok; vm_compute; reflexivity).
  exists p, (firstn 17 (p_hist p)), (skipn 18 (p_hist p)).
  split; [apply (run_reached _ ops_c09); exact E|].
  clear E. unfold p. vm_compute. repeat split; reflexivity.
Qed.

(** ** C11 refuted: without restarts a converged strategy returns None forever. *)
Definition ops_c11 : list top :=
  [P_ None; Accept 0; P_ None; Accept 1; Update 0 (SCompleted 5%Z); Update 1 (SCompleted 6%Z);
   P_ (Some [30]%nat); Accept 2; Update 2 (SCompleted (-1)%Z)]%nat.
Theorem C11_no_stall_refuted : forall async, exists (p : proc nat Z unit),
  let c := tcfg 9 async 1 false in
  reached c thk d0 tt p /\ outstanding (p_hist p) = [] /\
  forall n d o, exists p', Nat.iter n (fun r => do q <- r; do r2 <- do_propose c thk d o q; Ok (snd r2)) (Ok p)
                  = Ok p' /\ do_propose c thk d o p' = Ok (ONone, mkProc (p_s p') (p_e p') (p_out p')
                              (p_ctl p') (p_next p') (p_hist p' ++ [EvNone])).
Proof.
  intros async. set (c := tcfg 9 async 1 false). cbv zeta.
  pose (p := pr_ c ops_c11).
  assert (E : y_proc (run_ c ops_c11) = Some p)
    by (apply pr_ok; destruct async; vm_compute; reflexivity).
  exists p. split; [apply (run_reached _ ops_c11); exact E|].
  assert (G : outstanding (p_hist p) = [] /\ converged (p_s p) = true /\ terminate (p_s p) = false /\
              num_evals (p_s p) = 3 /\ pending_evals (p_s p) = 0).
  { clear E. unfold p, c. destruct async; vm_compute; repeat split; reflexivity. }
  clearbody p.
  destruct G as [G0 [G1 [G2 [G3 G4]]]]. split; [assumption|]. intros n d o.
  assert (S : forall q : proc nat Z unit, p_s q = p_s p ->
     do_propose c thk d o q = Ok (ONone, mkProc (p_s q) (p_e q) (p_out q)
                              (p_ctl q) (p_next q) (p_hist q ++ [EvNone]))).
  { intros q Eq. unfold do_propose, propose_action, check_termination. rewrite Eq, G3, G4. simpl.
    rewrite G2, G1. reflexivity. }
  assert (I : exists p', Nat.iter n (fun r => do q <- r; do r2 <- do_propose c thk d o q; Ok (snd r2)) (Ok p)
                  = Ok p' /\ p_s p' = p_s p).
  { induction n as [|n [p' [IH Es]]]; [exists p; auto|].
    simpl. simpl in IH. rewrite IH. simpl. rewrite (S p' Es). simpl.
    eexists. split; [reflexivity|exact Es]. }
  destruct I as [p' [I Es]]. exists p'. split; [exact I|]. apply S. exact Es.
Qed.

(** ** C12: the hypotheses of the serial-run theorem hold for a concrete instance, whose
    candidate search always returns points. *)
Definition thk1 : hooks nat Z unit unit :=
  mkHooks (fun e => e) (fun e _ _ _ _ => Ok e)
    (fun e _ _ v _ => Ok (e, 0%nat, v <? 0)) (fun e _ n _ => Ok (e, Some (repeat 30%nat n))).
Example ex_C12 : forall f : nat -> Z, exists p h,
  y_proc (serial (tcfg 7 false 3 true) thk1 f (fun i => Ok [20; 21 + i]%nat) (fun _ => tt) 8
            (start (tcfg 7 false 3 true) thk1 d0 tt)) = Some p /\
  p_hist p = h ++ [EvTerminate] /\ length (completed h) = 7%nat /\
  Forall (fun q => snd q = f (fst q)) (completed h) /\ outstanding h = [].
Proof.
  intros f.
  apply (@C12_serial_run_finishes nat Z unit unit (tcfg 7 false 3 true) thk1 f
           (fun _ => True) (fun _ => True) (fun i => Ok [20; 21 + i]%nat) (fun _ => tt) d0 tt); auto.
  - intros e s n o e' l Hn H. injection H as _ <-. destruct n; [lia|discriminate].
  - split; [|split]; intros; simpl; eauto.
  - split; [|split; [|split]]; auto.
  - exact I.
  - simpl. lia.
  - right. simpl. lia.
  - simpl. lia.
  - intros i. eexists. split; [reflexivity|]. simpl. lia.
  - eexists. split; [reflexivity|]. simpl. lia.
Qed.

(** ** C16 refuted: the initial point 10 is running when the strategy already asks for
    adaptive points; crash after the next checkpoint, resume: the point is gone. *)
Definition ops_c16 : list top :=
  [P_ None; Accept 0; P_ None; Accept 1; P_ (Some [30]%nat); Accept 2;
   Update 0 (SCompleted 5%Z); Crash; Resume]%nat.
Theorem C16_resume_loses_design_refuted : exists (p : proc nat Z unit) ops,
  y_proc (run_ (tcfg 9 true 0 true) ops) = Some p /\ count (@is_resume nat Z) (p_hist p) = 1%nat /\
  no_duplicates (p_hist p) /\
  In 10%nat [10; 11]%nat (* the design *) /\ ~ In 10%nat (batch_queue (p_s p)) /\
  ~ In 10%nat (map snd (outstanding (p_hist p))) /\
  ~ In 10%nat (map fst (completed (p_hist p))).
Proof.
  pose (p := pr_ (tcfg 9 true 0 true) ops_c16).
  assert (E : y_proc (run_ (tcfg 9 true 0 true) ops_c16) = Some p) by (apply pr_ok; vm_compute; reflexivity).
  exists p, ops_c16. split; [exact E|].
  clear E. unfold p. split; [reflexivity|]. split.
  - intros h1 id k x h2 Eh. match type of Eh with ?l = _ => let v := eval vm_compute in l in change l with v in Eh end.
    assert (A := all_splits_ok (fun pre ev => match ev with
        | EvPropose _ _ x => negb (existsb (Nat.eqb x) (map snd (outstanding pre)))
        | _ => true end) (h1 ++ EvPropose id k x :: h2) []
        ltac:(rewrite <- Eh; vm_compute; reflexivity) h1 _ h2 eq_refl). simpl in A.
    intros C. apply negb_true_iff in A. rewrite <- not_true_iff_false in A. apply A.
    apply existsb_exists. exists x. split; [exact C|apply Nat.eqb_refl].
  - vm_compute. repeat match goal with |- _ /\ _ => split end;
    try reflexivity; try (intros H; intuition discriminate); auto 20.
Qed.

(** A snapshot in the initial phase meets the hypotheses of C16. *)
Example ex_C16 : exists p, reached (tcfg 9 true 0 true) thk d0 tt p /\ in_design (p_hist p) /\ no_duplicates (p_hist p) /\
  outstanding (p_hist p) = [(1%nat, 10%nat)] /\ batch_queue (p_s (do_resume p)) = [10%nat] /\
  count (@is_resume nat Z) (p_hist p) = 0%nat.
Proof.
  pose (p := pr_ (tcfg 9 true 0 true) (firstn 4 ops_c16 ++ [Update 0%nat (SCompleted 5%Z)])).
  assert (E : y_proc (run_ (tcfg 9 true 0 true) (firstn 4 ops_c16 ++ [Update 0%nat (SCompleted 5%Z)])) = Some p) by (apply pr_ok; vm_compute; reflexivity).
  exists p. split; [eapply run_reached; exact E|].
  clear E. unfold p. split; [vm_compute; reflexivity|]. split.
  - intros h1 id k x h2 Eh. match type of Eh with ?l = _ => let v := eval vm_compute in l in change l with v in Eh end.
    assert (A := all_splits_ok (fun pre ev => match ev with
        | EvPropose _ _ x => negb (existsb (Nat.eqb x) (map snd (outstanding pre)))
        | _ => true end) (h1 ++ EvPropose id k x :: h2) []
        ltac:(rewrite <- Eh; vm_compute; reflexivity) h1 _ h2 eq_refl). simpl in A.
    intros C. apply negb_true_iff in A. rewrite <- not_true_iff_false in A. apply A.
    apply existsb_exists. exists x. split; [exact C|apply Nat.eqb_refl].
  - vm_compute. repeat split; reflexivity.
Qed.

(** ** C17 refuted: killed after the criterion was observed; the resumed run terminates at
    once although only 1 of 2 evaluations has completed. *)
Definition ops_c17 : list top :=
  [P_ None; Accept 0; P_ None; Accept 1; P_ None; Update 0 (SCompleted 5%Z); Crash; Resume; P_ None]%nat.
Theorem C17_resumed_budget_refuted : exists c ops (p : proc nat Z unit) h,
  y_proc (run_ c ops) = Some p /\ p_hist p = h ++ [EvTerminate] /\ protocol (p_hist p) /\
  count (@is_stop nat Z) h = 0%nat /\ count (@is_abort nat Z) h = 0%nat /\
  count (@is_resume nat Z) h = 1%nat /\ Z.of_nat (length (completed h)) < c_max_evals c.
Proof.
  exists (tcfg 2 true 0 true), ops_c17.
  pose (p := pr_ (tcfg 2 true 0 true) ops_c17).
  assert (E : y_proc (run_ (tcfg 2 true 0 true) ops_c17) = Some p) by (apply pr_ok; vm_compute; reflexivity).
  exists p. exists (removelast (p_hist p)). split; [exact E|].
  clear E. unfold p. split; [reflexivity|].
  split; [apply protocol_check; vm_compute; reflexivity|]. vm_compute. auto.
Qed.

(** A crash and resume before the criterion: the hypotheses of C03_C17 hold. *)
Definition ops_c17ok : list top :=
  [P_ None; Accept 0; P_ None; Accept 1; Update 0 (SCompleted 5%Z); Crash; Resume;
   P_ None; Accept 2; Update 2 (SCompleted 6%Z); P_ (Some [30]%nat); Accept 3;
   Update 3 (SCompleted 7%Z); P_ None]%nat.
Example ex_C17 : hist_ (tcfg 3 true 0 true) ops_c17ok =
  [EvPropose 0 KInit 11; EvAccept 0; EvPropose 1 KInit 10; EvAccept 1; EvComplete 0 KInit 11 5%Z;
   EvResume; EvPropose 2 KInit 10; EvAccept 2; EvComplete 2 KInit 10 6%Z;
   EvGenerate 1 (Some [30]); EvPropose 3 KAdapt 30; EvAccept 3; EvComplete 3 KAdapt 30 7%Z;
   EvTerminate]%nat.
Proof. vm_compute. reflexivity. Qed.

(** ** C56 *)
Inductive fval : Type := Fin (z : Z) | Inf | NaN.
Definition fval_isnan (v : fval) : bool := match v with NaN => true | _ => false end.
Definition xcfg : cfg nat fval :=
  mkCfg 9 true 0 true 2 (Some [40; 41; 42]%nat) (Some [Fin 3; NaN; Inf]) fval_isnan Nat.eqb false.
Definition xhk : hooks nat fval unit unit :=
  mkHooks (fun e => e) (fun e _ _ _ _ => Ok e)
    (fun e _ _ v _ => Ok (e, 0%nat, false)) (fun e _ n _ => Ok (e, Some (repeat 30%nat n))).
Example ex_C56 : known xcfg = [(40%nat, Fin 3); (42%nat, Inf)] /\ unknown xcfg = [41%nat] /\
  exists se, construct xcfg xhk d0 tt = Ok se.
Proof. vm_compute. eauto. Qed.

(** The value inf, documented as "unknown" (surrogate_strategy.py:76), is stored and given
    to the surrogate instead of being evaluated. *)
Theorem C56_inf_is_unknown_refuted : exists s e, construct xcfg xhk d0 tt = Ok (s, e) /\
  ~ In 42%nat (batch_queue s) /\ In (42%nat, Inf) (sur s).
Proof.
  destruct (construct xcfg xhk d0 tt) as [[s e]|] eqn:E; [|discriminate E].
  exists s, e. split; [reflexivity|]. vm_compute in E. injection E as <- _. simpl.
  split; [|auto]. intros H. repeat (destruct H as [H|H]; try discriminate). assumption.
Qed.
