(** * Synchronous runs: the design of the current run and the calls made on the surrogate object.

    Used for C61.  Generic in the subclass, for synchronous strategies that open a new event epoch
    only when nothing is pending. *)
From Coq Require Import List Arith ZArith Lia Bool.
From Verif Require Import Base PyList Strategy StrategySpec StrategyProofs StrategyInv StrategyInv2
  StrategyInv3 StrategyInv4 PropStrategy.
Import ListNotations.
Local Open Scope Z_scope.

Set Implicit Arguments.

(** Specification: the points queued by the last restart ([q0]: those queued at the start). *)
Definition current_design {P V} (q0 : list P) (h : list (event P V)) : list P :=
  fold_left (fun q ev => match ev with EvRestart l => l | _ => q end) h q0.

Lemma current_design_snoc : forall P V (q0 : list P) (h : list (event P V)) ev,
  current_design q0 (h ++ [ev]) = match ev with EvRestart l => l | _ => current_design q0 h end.
Proof. intros. unfold current_design. rewrite fold_left_app. reflexivity. Qed.

Lemma current_design_cases : forall P V (q0 : list P) (h : list (event P V)),
  current_design q0 h = q0 \/ exists l, In (EvRestart l) h /\ current_design q0 h = l.
Proof.
  intros P V q0 h. induction h as [|ev h IH] using rev_ind; [left; reflexivity|].
  rewrite current_design_snoc.
  assert (G : current_design q0 h = q0 \/ exists l, In (EvRestart l) (h ++ [ev]) /\ current_design q0 h = l).
  { destruct IH as [IH|[l [A B]]]; [auto|]. right. exists l. split; [apply in_or_app; auto|exact B]. }
  destruct ev; try exact G. right. eexists. split; [apply in_or_app; right; left; reflexivity|reflexivity].
Qed.

Section Sync.
Variables P V Ext Orc : Type.
Variable c : cfg P V.
Variable hk : hooks P V Ext Orc.
Hypothesis Hsync : c_async c = false.
Hypothesis Hidle : bump_when_idle hk.
Notation proc := (proc P V Ext).

(** Every running evaluation belongs to the current event epoch. *)
Definition Fresh (p : proc) : Prop := forall o ev, In o (p_out p) -> o_ev o = Some ev -> ev_last (p_s p) < ev.

Lemma idle_out : forall p : proc, Inv c p -> pending_evals (p_s p) = 0 -> p_out p = [].
Proof using.
  intros p I H. rewrite (inv_pend I) in H. destruct (p_out p); [reflexivity|simpl in H; lia].
Qed.

Lemma complete_idle : forall p o ev v p', Inv c p -> In o (p_out p) -> do_complete c hk o ev v p = Ok p' ->
  ev_last (p_s p') = ev_last (p_s p) \/ p_out p' = [].
Proof using Hidle.
  intros p o ev v p' I Hi H. apply do_complete_ok in H. destruct H as [e' [l [nx [cv [-> Hk]]]]]. simpl.
  destruct (base_completed_fields c (o_id o) (o_x o) v ev (p_s p)) as [_ [Gp _]].
  pose proof (del_out_length _ _ (inv_nodup I) Hi) as Hl.
  destruct (o_kind o).
  - destruct Hk as [_ [-> _]]. auto.
  - destruct Hk as [n [cv0 [E [_ [K0 K1]]]]]. destruct n as [|n].
    + left. apply K0; reflexivity.
    + right. pose proof (Hidle _ _ _ _ _ E ltac:(lia)) as E'. rewrite Gp, (inv_pend I) in E'.
      destruct (del_out (o_id o) (p_out p)); [reflexivity|simpl in Hl; lia].
Qed.

Lemma Fresh_micro : forall p p', Inv c p -> RunInv c p -> Fresh p -> micro c hk p p' -> Fresh p'.
Proof using Hsync Hidle.
  intros p p' I R F M.
  assert (SM : forall p' : proc, ev_last (p_s p') = ev_last (p_s p) -> (forall o ev, In o (p_out p') -> o_ev o = Some ev -> exists o', In o' (p_out p) /\ o_ev o' = Some ev) -> Fresh p').
  { intros q E1 E2 o ev Hi He. rewrite E1. destruct (E2 o ev Hi He) as [o' [A B]]. eapply F; eauto. }
  destruct M.
  - apply SM; simpl; eauto.
  - apply SM; simpl; eauto.
  - apply SM; simpl; eauto.
  - apply SM; simpl; eauto.
  - apply SM; simpl; eauto.
  - apply SM; simpl; eauto.
  - intros o ev Hi. simpl in Hi. rewrite (idle_out I) in Hi; [destruct Hi|]. match goal with H : may_generate _ _ |- _ => destruct H as [H|H]; [congruence|exact H] end.
  - apply SM; [reflexivity|]. simpl. intros o ev Hi He. apply in_app_or in Hi. destruct Hi as [Hi|[<-|[]]]; [eauto|discriminate].
  - intros o' ev Hi He. simpl in Hi. apply in_set_ev in Hi. destruct Hi as [o1 [Hi [E1 [_ [_ [->|[E2 E3]]]]]]].
    + simpl. eapply F; eauto.
    + rewrite E3 in He. injection He as <-. simpl. pose proof (ri_last R). lia.
  - apply SM.
    + simpl. destruct (o_kind o); [reflexivity|]. unfold on_adapt_reject. destruct (c_async c); reflexivity.
    + simpl. intros o' ev Hi He. apply in_del_out in Hi. eauto.
  - destruct (complete_idle _ _ _ I H H1) as [E|E]; apply do_complete_ok in H1; destruct H1 as [e' [l [nx [cv [-> Hk]]]]].
    + apply SM; [exact E|]. simpl. intros o' ev' Hi He. apply in_del_out in Hi. eauto.
    + intros o' ev' Hi. rewrite E in Hi. destruct Hi.
  - apply SM.
    + simpl. destruct (o_kind o); reflexivity.
    + simpl. intros o' ev' Hi He. apply in_del_out in Hi. eauto.
  - apply SM; simpl; eauto.
  - intros o ev [].
Qed.

(** Every point of the current design is queued, outstanding, part of the data of the current run,
    or was given up. *)
Definition Kept (q0 : list P) (p : proc) : Prop :=
  noresume (p_hist p) -> forall x, In x (current_design q0 (p_hist p)) ->
  In x (batch_queue (p_s p)) \/ In x (map (@o_x P) (p_out p)) \/ In x (X_ (p_s p)) \/ In x (given_up false (p_hist p)).

Lemma given_up_snoc : forall (h : list (event P V)) ev, given_up false (h ++ [ev]) = given_up false h ++ given_up false [ev].
Proof using. intros. unfold given_up. rewrite flat_map_app. reflexivity. Qed.

Lemma Kept_micro : forall q0 p p', Inv c p -> Fresh p -> Kept q0 p -> micro c hk p p' -> Kept q0 p'.
Proof using Hsync.
  intros q0 p p' I F K M.
  assert (SM : forall (p' : proc) evs, p_hist p' = p_hist p ++ evs -> (evs = [] \/ exists ev, evs = [ev] /\ (forall l, ev <> EvRestart l)) ->
    (forall x, In x (batch_queue (p_s p)) \/ In x (map (@o_x P) (p_out p)) \/ In x (X_ (p_s p)) ->
       In x (batch_queue (p_s p')) \/ In x (map (@o_x P) (p_out p')) \/ In x (X_ (p_s p')) \/ In x (given_up false evs)) -> Kept q0 p').
  { intros q evs E1 E2 E3 NR x Hx. rewrite E1 in *.
    assert (Hx' : In x (current_design q0 (p_hist p))).
    { destruct E2 as [->|[ev [-> E2]]]; [rewrite app_nil_r in Hx; exact Hx|]. rewrite current_design_snoc in Hx. destruct ev; try exact Hx. exfalso. eapply E2; reflexivity. }
    assert (GU : given_up false (p_hist p ++ evs) = given_up false (p_hist p) ++ given_up false evs) by (unfold given_up; apply flat_map_app).
    rewrite GU. destruct (K (noresume_prefix _ _ NR) x Hx') as [A|[A|[A|A]]].
    - destruct (E3 x (or_introl A)) as [B|[B|[B|B]]]; auto. right; right; right. apply in_or_app. auto.
    - destruct (E3 x (or_intror (or_introl A))) as [B|[B|[B|B]]]; auto. right; right; right. apply in_or_app. auto.
    - destruct (E3 x (or_intror (or_intror A))) as [B|[B|[B|B]]]; auto. right; right; right. apply in_or_app. auto.
    - right; right; right. apply in_or_app. auto. }
  assert (DO : forall o x, In x (map (@o_x P) (p_out p)) -> In o (p_out p) -> x = o_x o \/ In x (map (@o_x P) (del_out (o_id o) (p_out p)))).
  { intros o x Hx Hi. destruct (del_out_split _ _ (inv_nodup I) Hi) as [l1 [l2 [Eo Ed]]]. rewrite Ed. rewrite Eo in Hx.
    rewrite map_app in *. simpl in Hx. apply in_app_or in Hx. destruct Hx as [Hx|[Hx|Hx]]; [right|left; auto|right]; apply in_or_app; auto. }
  destruct M.
  - apply (SM _ [EvNone]); [reflexivity|right; eexists; split; [reflexivity|discriminate]|simpl; tauto].
  - apply (SM _ [EvTerminate]); [reflexivity|right; eexists; split; [reflexivity|discriminate]|simpl; tauto].
  - apply (SM _ [EvNone]); [reflexivity|right; eexists; split; [reflexivity|discriminate]|simpl; tauto].
  - apply (SM _ []); [reflexivity|left; reflexivity|simpl; tauto].
  - apply (SM _ [EvGenerate n (Some l)]); [reflexivity|right; eexists; split; [reflexivity|discriminate]|].
    simpl. intros x [Hx|Hx]; [|tauto]. rewrite H0 in Hx. destruct Hx.
  - apply (SM _ [EvGenerate n None]); [reflexivity|right; eexists; split; [reflexivity|discriminate]|simpl; tauto].
  - intros NR x Hx. simpl in Hx. rewrite current_design_snoc in Hx. left. simpl. apply in_or_app. right. exact Hx.
  - apply (SM _ [EvPropose (p_next p) k x]); [reflexivity|right; eexists; split; [reflexivity|discriminate]|].
    simpl. intros y [Hy|[Hy|Hy]]; [|right; left; rewrite map_app; apply in_or_app; auto|tauto].
    rewrite H0 in Hy. apply in_app_or in Hy. destruct Hy as [Hy|[<-|[]]]; [tauto|]. right; left. rewrite map_app. apply in_or_app. right. left. reflexivity.
  - apply (SM _ [EvAccept (o_id o)]); [reflexivity|right; eexists; split; [reflexivity|discriminate]|].
    simpl. rewrite !map_xs, set_ev_map. tauto.
  - apply (SM _ [EvReject (o_id o) (o_kind o) (o_x o)]); [reflexivity|right; eexists; split; [reflexivity|discriminate]|].
    intros x [Hx|[Hx|Hx]].
    + left. simpl. destruct (o_kind o); simpl; [apply in_or_app; auto|]. unfold on_adapt_reject. rewrite Hsync. simpl. apply in_or_app. auto.
    + destruct (DO o x Hx H) as [->|E]; [|right; left; exact E].
      left. simpl. destruct (o_kind o); simpl; [apply in_or_app; right; left; reflexivity|]. unfold on_adapt_reject. rewrite Hsync. simpl. apply in_or_app. right. left. reflexivity.
    + right. right. left. simpl. destruct (o_kind o); simpl; [exact Hx|]. unfold on_adapt_reject. rewrite Hsync. exact Hx.
  - match goal with H : do_complete _ _ _ _ _ _ = Ok _ |- _ => apply do_complete_ok in H; destruct H as [e' [l [nx [cv [-> Hk]]]]] end.
    apply (SM _ [EvComplete (o_id o) (o_kind o) (o_x o) v]); [reflexivity|right; eexists; split; [reflexivity|discriminate]|].
    destruct (base_completed_fields c (o_id o) (o_x o) v ev (p_s p)) as [_ [_ [_ [_ [_ [Fq _]]]]]].
    destruct (base_completed_data c (o_id o) (o_x o) v ev (p_s p)) as [_ [_ [[_ [G _]]|[G _]]]]; [|pose proof (F o ev H H0); lia].
    clear Hk. set (sb := base_completed c (o_id o) (o_x o) v ev (p_s p)) in *. clearbody sb.
    intros x [Hx|[Hx|Hx]]; simpl.
    + left. rewrite Fq. exact Hx.
    + destruct (DO o x Hx H) as [->|E]; [|right; left; exact E]. right. right. left. rewrite G. apply in_or_app. right. left. reflexivity.
    + right. right. left. rewrite G. apply in_or_app. auto.
  - apply (SM _ [EvAbort (o_id o) (o_kind o) (o_x o)]); [reflexivity|right; eexists; split; [reflexivity|discriminate]|].
    intros x [Hx|[Hx|Hx]].
    + left. simpl. destruct (o_kind o); simpl; [apply in_or_app; auto|exact Hx].
    + destruct (DO o x Hx H) as [->|E]; [|right; left; exact E].
      simpl. destruct (o_kind o); simpl; [left; apply in_or_app; right; left; reflexivity|tauto].
    + right. right. left. simpl. destruct (o_kind o); exact Hx.
  - apply (SM _ [EvStop]); [reflexivity|right; eexists; split; [reflexivity|discriminate]|simpl; tauto].
  - intros L. exfalso. unfold noresume in L. simpl in L. rewrite count_app in L. unfold count in L. simpl in L. lia.
Qed.

Lemma sync_inv : forall design e0 s e p, construct c hk design e0 = Ok (s, e) -> micros c hk (init_proc (s, e)) p ->
  Inv c p /\ RunInv c p /\ Fresh p /\ Kept (batch_queue s) p.
Proof using Hsync Hidle.
  intros design e0 s e p Hc M. assert (I0 : Inv c (init_proc (s, e))) by (eapply Inv_init; eassumption).
  split; [eapply Inv_micros; eassumption|].
  apply (@micros_from _ _ _ _ c hk (fun p => RunInv c p /\ Fresh p /\ Kept (batch_queue s) p) _ I0); [| |exact M].
  - split; [|split].
    + apply (@RunInv_reached _ _ _ _ c hk design e0). exists []. left. unfold run, run_from, start. rewrite Hc. reflexivity.
    + intros o ev [].
    + intros _ x Hx. left. exact Hx.
  - intros q r Iq [Rq [Fq Kq]] N. split; [eapply RunInv_micro; eassumption|]. split; [eapply Fresh_micro; eassumption|eapply Kept_micro; eassumption].
Qed.
End Sync.

(** ** Where restarts and values come from *)
Section Origin.
Variables P V Ext Orc : Type.
Variable c : cfg P V.
Variable hk : hooks P V Ext Orc.
Notation proc := (proc P V Ext).

(** The event comes from these operations: a restart from a design, a value from an update. *)
Definition origin (ops : list (op P V Orc)) (ev : event P V) : Prop :=
  match ev with
  | EvRestart l => exists d o, In (Propose (Ok d) o) ops /\ incl (firstn (c_num_pts c) d) l
  | EvComplete _ _ _ v => exists id, In (Update id (SCompleted v)) ops
  | _ => True
  end.
Lemma origin_mono : forall ops a ev, origin ops ev -> origin (ops ++ [a]) ev.
Proof using.
  intros ops a ev H. destruct ev; simpl in *; auto.
  - destruct H as [d [o [A B]]]. exists d, o. split; [apply in_or_app; auto|exact B].
  - destruct H as [i A]. exists i. apply in_or_app. auto.
Qed.
Definition all_origin (ops : list (op P V Orc)) (p : proc) : Prop := forall ev, In ev (p_hist p) -> origin ops ev.

Lemma origin_run : forall design e0 ops p,
  y_proc (run c hk design e0 ops) = Some p \/ y_disk (run c hk design e0 ops) = Some p -> all_origin ops p.
Proof using.
  intros design e0 ops. induction ops as [|a ops IH] using rev_ind; intros p H.
  - unfold run in H. simpl in H. unfold start in H.
    destruct (construct c hk design e0) as [[s e]|]; simpl in H; destruct H as [H|H]; try discriminate. injection H as <-. intros ev [].
  - rewrite run_snoc in H. set (y := run c hk design e0 ops) in *.
    assert (IH' : forall q, y_proc y = Some q \/ y_disk y = Some q -> all_origin (ops ++ [a]) q)
      by (intros q Hq ev Hev; apply origin_mono; eapply IH; eauto).
    clearbody y.
    assert (ext : forall p q ev, all_origin (ops ++ [a]) p -> p_hist q = p_hist p ++ [ev] ->
               origin (ops ++ [a]) ev -> all_origin (ops ++ [a]) q).
    { intros p1 q ev R E N ev' Hl. rewrite E in Hl. apply in_app_or in Hl. destruct Hl as [Hl|[<-|[]]]; auto. }
    unfold step in H. destruct (y_proc y) as [p0|] eqn:Ey.
    + assert (R0 : all_origin (ops ++ [a]) p0) by auto.
      destruct a as [dd o|id|id|id st| | |].
      * destruct (do_propose c hk dd o p0) as [[out p1]|] eqn:Ep.
        -- assert (R1 : all_origin (ops ++ [Propose dd o]) p1).
           { pose proof Ep as Ep0. unfold do_propose in Ep. apply rbind_ok in Ep.
             destruct Ep as [[[out1 [s1 e1]] evs] [H1 H2]]. injection H2 as <- <-.
             intros ev Hev.
             assert (Hl' : In ev (p_hist p0) \/ In ev evs \/ (ev = EvTerminate \/ ev = EvNone \/ exists k x, ev = EvPropose (p_next p0) k x)).
             { destruct out1; simpl in Hev; apply in_app_or in Hev; destruct Hev as [Hev|Hev]; auto;
               apply in_app_or in Hev; destruct Hev as [Hev|[<-|[]]]; eauto 8. }
             destruct Hl' as [Hl'|[Hl'|Hl']]; [eauto| |].
             - destruct ev as [| | | |l| | |id0 k0 x0 v0| | |]; simpl; auto.
               + destruct (@propose_restart_event P V Ext Orc c hk _ _ _ _ _ _ _ _ H1 Hl') as [d [-> [s2 ->]]].
                 exists d, o. split; [apply in_or_app; right; left; reflexivity|]. intros x Hx. apply in_or_app. auto.
               + exfalso. clear -H1 Hl'. unfold propose_action in H1. set (s0 := check_termination c (p_s p0)) in *. clearbody s0.
                 assert (RB : forall s e out se evs, restart_branch c hk dd s e = Ok (out, se, evs) -> ~ In (EvComplete id0 k0 x0 v0) evs).
                 { intros s e out se evs' Hr. unfold restart_branch in Hr. destruct (c_async c || (pending_evals s =? 0)).
                   - apply rbind_ok in Hr. destruct Hr as [[s5 e5] [_ Hr]]. apply rbind_ok in Hr. destruct Hr as [r [_ Hr]]. injection Hr as _ _ <-. intros [K|[]]; discriminate K.
                   - injection Hr as _ _ <-. intros []. }
                 assert (DG : forall n s e r, do_generate hk n o s e = Ok r -> ~ In (EvComplete id0 k0 x0 v0) (snd r)).
                 { intros n s e r Hg. unfold do_generate in Hg. apply rbind_ok in Hg. destruct Hg as [[e5 [l5|]] [_ Hg]]; simpl in Hg; injection Hg as <-; intros [K|[]]; discriminate K. }
                 destruct (terminate s0); [destruct (pending_evals s0 =? 0); injection H1 as _ _ _ <-; exact Hl'|].
                 destruct (converged s0); [destruct (c_restarts c); [eapply RB; eauto|injection H1 as _ _ _ <-; exact Hl']|].
                 destruct (nonempty (batch_queue s0)).
                 { destruct (phase s0 =? 1)%nat; [apply rbind_ok in H1; destruct H1 as [r [_ H1]]|]; injection H1 as _ _ _ <-; exact Hl'. }
                 apply rbind_ok in H1. destruct H1 as [[[s3 e3] evs3] [H1 H2]].
                 assert (N3 : ~ In (EvComplete id0 k0 x0 v0) evs3).
                 { destruct (c_async c); [exact (DG _ _ _ _ H1)|]. destruct (pending_evals (set_phase 2%nat s0) =? 0); [exact (DG _ _ _ _ H1)|].
                   injection H1 as _ _ <-. intros []. }
                 destruct (converged s3 && c_restarts c).
                 -- apply rbind_ok in H2. destruct H2 as [[[o4 se4] evs4] [H2 H3]]. injection H3 as _ _ <-.
                    apply in_app_or in Hl'. destruct Hl' as [Hl'|Hl']; [contradiction|]. eapply RB; eauto.
                 -- injection H2 as _ _ _ <-. contradiction.
             - destruct Hl' as [->|[->|[k [x ->]]]]; exact I. }
           destruct out; simpl in H; destruct H as [H|H]; try (injection H as <-; exact R1); auto.
        -- simpl in H. destruct H as [H|H]; [discriminate|auto].
      * destruct (get_out id (p_out p0)) as [o|]; [|rewrite Ey in H; auto].
        destruct (o_ev o); [rewrite Ey in H; auto|]. simpl in H.
        destruct H as [H|H]; [|auto]. injection H as <-. eapply ext; [exact R0|reflexivity|exact I].
      * destruct (get_out id (p_out p0)) as [o|]; [|rewrite Ey in H; auto].
        destruct (o_ev o); [rewrite Ey in H; auto|]. simpl in H.
        destruct H as [H|H]; [|auto]. injection H as <-. eapply ext; [exact R0|reflexivity|exact I].
      * destruct (get_out id (p_out p0)) as [o|]; [|rewrite Ey in H; auto].
        assert (FI : forall r, (forall p', r = Ok p' -> all_origin (ops ++ [Update id st]) p') ->
             y_proc (finish c p0 r (y_disk y)) = Some p \/
             y_disk (finish c p0 r (y_disk y)) = Some p -> all_origin (ops ++ [Update id st]) p).
        { intros r Hr Hf. destruct r as [p1|]; simpl in Hf.
          - destruct Hf as [Hf|Hf]; [injection Hf as <-; auto|]. destruct (c_save_first c); injection Hf as <-; auto.
          - destruct Hf as [Hf|Hf]; [discriminate|]. destruct (c_save_first c); [injection Hf as <-; auto|auto]. }
        destruct (o_ev o) as [ev|]; [|rewrite Ey in H; auto].
        destruct st as [|v| |].
        -- rewrite Ey in H; auto.
        -- eapply FI; [|exact H]. intros p' E. apply do_complete_ok in E.
           destruct E as [e' [l [nx [cv [-> _]]]]]. eapply ext; [exact R0|reflexivity|]. exists id. apply in_or_app. right. left. reflexivity.
        -- eapply FI; [|exact H]. intros p' E. injection E as <-. eapply ext; [exact R0|reflexivity|exact I].
        -- eapply FI; [|exact H]. intros p' E. injection E as <-. eapply ext; [exact R0|reflexivity|exact I].
      * simpl in H. destruct H as [H|H]; [|auto]. injection H as <-. eapply ext; [exact R0|reflexivity|exact I].
      * simpl in H. destruct H as [H|H]; [discriminate|auto].
      * rewrite Ey in H. auto.
    + destruct a; try (rewrite Ey in H; auto; fail).
      destruct (y_disk y) as [p0|] eqn:Ed; [|rewrite Ey in H; rewrite Ed in H; auto].
      simpl in H. destruct H as [H|H].
      * injection H as <-. eapply ext; [apply IH'; right; reflexivity|reflexivity|exact I].
      * injection H as <-. auto.
Qed.
End Origin.
