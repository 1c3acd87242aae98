(** * C68 for the strategies of pySOT, examples and refutations. *)
From Coq Require Import List Arith ZArith QArith Lia Bool Reals.
From Verif Require Import Base PyList Strategy StrategySpec StrategyProofs StrategyInv StrategyInv2
  StrategyInv3 StrategyInv4 StrategyOps StrategySerial PropStrategy ExStrategy SRBF SOP Box Cand GA EIStrat EndToEnd SRBFRun ScaleSOP SOPFeas ResumeKill ResumeSerial.
From Coq Require Import Rdefinitions.
Import ListNotations.
Set Implicit Arguments.

(** ** The strategies do not look at the list of finished records *)
Theorem C68_strategies :
  (forall q dim dist predict dtol num_cand c weights, blind (srbf_full q dim dist predict dtol num_cand c weights)) /\
  (forall q dim dist predict dtol num_cand c weights, blind (dycors_full q dim dist predict dtol num_cand c weights)) /\
  (forall q dim dist dtol num_cand eta c weights, blind (srbf_rbf q dim dist dtol num_cand eta c weights)) /\
  (forall q dim dist dtol num_cand eta c weights, blind (dycors_rbf q dim dist dtol num_cand eta c weights)) /\
  (forall q dim dist mu sig Phi phi dtol tol, blind (ei_strategy q dim dist mu sig Phi phi dtol tol)) /\
  (forall q dim dist mu sig dtol kappa tol, blind (lcb_strategy q dim dist mu sig dtol kappa tol)) /\
  (forall c sdist tooclose ncenters q dist dtol num_cand predict, blind (sop_full c sdist tooclose ncenters q dist dtol num_cand predict)).
Proof.
  repeat split; intros; try reflexivity.
Qed.

(** ** A serial run with two crashes *)
Section Check.
Variables P V Ext Orc : Type.
Variable c : cfg P V.
Variable hk : hooks P V Ext Orc.
Fixpoint idle_asks (y : sys P V Ext) (ops : list (op P V Orc)) : bool :=
  match ops with
  | [] => true
  | a :: ops' => match a, y_proc y with Propose _ _, Some p => negb (nonempty (outstanding (p_hist p))) | _, _ => true end && idle_asks (step c hk y a) ops'
  end.
Lemma idle_asks_ok : forall design e0 ops, idle_asks (start c hk design e0) ops = true -> asks_when_idle c hk design e0 ops.
Proof.
  intros design e0 ops. unfold asks_when_idle, run. generalize (start c hk design e0). induction ops as [|a ops IH]; intros y H o1 d o o2 p E; [destruct o1; discriminate E|].
  cbn in H. apply andb_true_iff in H. destruct H as [H1 H2]. destruct o1 as [|b o1]; cbn in E; injection E as -> E.
  - cbn. intros EY. rewrite EY in H1. destruct (outstanding (p_hist p)); [reflexivity|discriminate H1].
  - unfold run_from. cbn [fold_left]. exact (IH (step c hk y b) H2 o1 d o o2 p E).
Qed.
End Check.

(** The first crash happens while the second point of the design is running, the second one while an
    adaptive point is running. *)
Definition ops_crash : list top :=
  [P_ None; Accept 0; Update 0 (SCompleted 5%Z); P_ None; Accept 1; Crash; Resume;
   P_ None; Accept 1; Update 1 (SCompleted 6%Z); P_ (Some [30]); Accept 2; Update 2 (SCompleted 7%Z);
   P_ (Some [31]); Accept 3; Crash; Resume; P_ (Some [32]); Accept 3; Update 3 (SCompleted 8%Z)]%nat.
Example ex_C68_serial : exists p, y_proc (run_ (tcfg 9 true 0 true) ops_crash) = Some p /\
  blind thk /\ asks_when_idle (tcfg 9 true 0 true) thk d0 tt ops_crash /\
  p_hist p = [EvPropose 0 KInit 11; EvAccept 0; EvComplete 0 KInit 11 5%Z; EvResume; EvPropose 1 KInit 10; EvAccept 1; EvComplete 1 KInit 10 6%Z;
    EvGenerate 1 (Some [30]); EvPropose 2 KAdapt 30; EvAccept 2; EvComplete 2 KAdapt 30 7%Z; EvResume;
    EvGenerate 1 (Some [32]); EvPropose 3 KAdapt 32; EvAccept 3; EvComplete 3 KAdapt 32 8%Z]%nat.
Proof.
  exists (pr_ (tcfg 9 true 0 true) ops_crash). split; [apply pr_ok; vm_compute; reflexivity|]. split; [constructor; reflexivity|].
  split; [apply idle_asks_ok; vm_compute; reflexivity|vm_compute; reflexivity].
Qed.

Lemma nodup_check : forall h : list (event nat Z), all_splits (fun pre ev => match ev with
    | EvPropose _ _ x => negb (existsb (Nat.eqb x) (map snd (outstanding pre))) | _ => true end) [] h = true -> no_duplicates h.
Proof.
  intros h H h1 id k x h2 Eh C. assert (A := all_splits_ok _ h [] H h1 _ h2 Eh). simpl in A. apply negb_true_iff in A. rewrite <- not_true_iff_false in A. apply A.
  apply existsb_exists. exists x. split; [exact C|apply Nat.eqb_refl].
Qed.
Definition is_kinit (k : kind) : bool := match k with KInit => true | KAdapt => false end.
Lemma kinit_check : forall l : list (outst nat), forallb (fun o => is_kinit (o_kind o)) l = true -> forall o, In o l -> o_kind o = KInit.
Proof. intros l H o Ho. apply (proj1 (forallb_forall _ _) H) in Ho. destruct (o_kind o); [reflexivity|discriminate Ho]. Qed.
Lemma handed_check : forall l : list (outst nat), forallb (fun o => match o_ev o with None => false | Some _ => true end) l = true -> forall o, In o l -> o_ev o <> None.
Proof. intros l H o Ho E. apply (proj1 (forallb_forall _ _) H) in Ho. rewrite E in Ho. discriminate Ho. Qed.

(** A parallel run whose snapshot has two running evaluations: the conclusion of C68_resume_is_kill
    for a continuation that evaluates the second of them again. *)
Definition ops_two : list top := [P_ None; Accept 0; P_ None; Accept 1]%nat.
Example ex_C68_resume : exists p, y_proc (run_ (tcfg 9 true 0 true) ops_two) = Some p /\ clean p /\ length (p_out p) = 2%nat /\
  let more := [P_ None; Accept 2; Update 2 (SCompleted 5%Z)]%nat in
  option_map (@p_hist nat Z unit) (y_proc (run_from (tcfg 9 true 0 true) thk (step (tcfg 9 true 0 true) thk (mkSys None (Some p)) Resume) more)) =
    Some (p_hist p ++ [EvResume; EvPropose 2 KInit 10; EvAccept 2; EvComplete 2 KInit 10 5%Z])%nat /\
  option_map (@p_hist nat Z unit) (y_proc (run_from (tcfg 9 true 0 true) thk (mkSys (Some p) None) (kill_all p ++ more))) =
    Some (p_hist p ++ [EvAbort 0 KInit 11; EvAbort 1 KInit 10; EvPropose 2 KInit 10; EvAccept 2; EvComplete 2 KInit 10 5%Z])%nat.
Proof.
  exists (pr_ (tcfg 9 true 0 true) ops_two). split; [apply pr_ok; vm_compute; reflexivity|]. split.
  - split; [apply handed_check; vm_compute; reflexivity|]. right. left. split; [vm_compute; reflexivity|].
    split; [apply kinit_check; vm_compute; reflexivity|apply nodup_check; vm_compute; reflexivity].
  - split; [vm_compute; reflexivity|]. split; vm_compute; reflexivity.
Qed.

(** ** Refutations *)

(** If a point of the design is running in the adaptive phase, killing it would queue it again but
    resuming does not. *)
Theorem C68_unclean_refuted : exists (p q : proc nat Z unit), let c := tcfg 9 true 0 true in
  reached c thk d0 tt p /\ (forall o, In o (p_out p) -> o_ev o <> None) /\ no_duplicates (p_hist p) /\
  y_proc (run_from c thk (mkSys (Some p) None) (kill_all p)) = Some q /\
  In 10%nat (batch_queue (p_s q)) /\ ~ In 10%nat (batch_queue (p_s (do_resume p))).
Proof.
  pose (ops := [P_ None; Accept 0; P_ None; Accept 1; P_ (Some [30]); Accept 2; Update 0 (SCompleted 5%Z)]%nat : list top).
  assert (E : y_proc (run_ (tcfg 9 true 0 true) ops) = Some (pr_ (tcfg 9 true 0 true) ops)) by (apply pr_ok; vm_compute; reflexivity).
  set (p := pr_ (tcfg 9 true 0 true) ops) in *.
  destruct (y_proc (run_from (tcfg 9 true 0 true) thk (mkSys (Some p) None) (kill_all p))) as [q|] eqn:EQ; [|vm_compute in EQ; discriminate EQ].
  exists p, q. cbv zeta. split; [exact (@run_reached _ _ _ E)|]. clear E. split; [apply handed_check; vm_compute; reflexivity|].
  split; [apply nodup_check; vm_compute; reflexivity|]. split; [exact EQ|]. vm_compute in EQ. injection EQ as <-. split; [left; reflexivity|].
  vm_compute. intros F. repeat (destruct F as [F|F]; try discriminate F). exact F.
Qed.

(** If the snapshot is written before the callback of the strategy (record callbacks run in the order in
    which they were added, and CheckpointController adds its own when the record is created), the
    evaluation that has just finished is not in the snapshot: an adaptive point is lost with its value. *)
Theorem C68_save_first_refuted : exists (p d : proc nat Z unit) ops, let c := mkCfg 9 true 0 true 2 None None (fun _ => false) Nat.eqb true in
  y_proc (run c thk d0 tt ops) = Some p /\ y_disk (run c thk d0 tt ops) = Some d /\ asks_when_idle c thk d0 tt ops /\
  completed (p_hist p) = [(11%nat, 5%Z); (10%nat, 6%Z); (30%nat, 7%Z)] /\ completed (p_hist d) = [(11%nat, 5%Z); (10%nat, 6%Z)] /\
  X (p_s (do_resume d)) = [11; 10]%nat /\ batch_queue (p_s (do_resume d)) = [].
Proof.
  pose (c := mkCfg 9 true 0 true 2 None None (fun _ : Z => false) Nat.eqb true).
  pose (ops := [P_ None; Accept 0; Update 0 (SCompleted 5%Z); P_ None; Accept 1; Update 1 (SCompleted 6%Z); P_ (Some [30]); Accept 2; Update 2 (SCompleted 7%Z)]%nat : list top).
  destruct (y_proc (run c thk d0 tt ops)) as [p|] eqn:EP; [|vm_compute in EP; discriminate EP].
  destruct (y_disk (run c thk d0 tt ops)) as [d|] eqn:ED; [|vm_compute in ED; discriminate ED].
  exists p, d, ops. cbv zeta. split; [exact EP|]. split; [exact ED|]. split; [apply idle_asks_ok; vm_compute; reflexivity|].
  vm_compute in EP, ED. injection EP as <-. injection ED as <-. repeat split; vm_compute; reflexivity.
Qed.
