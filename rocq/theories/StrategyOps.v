(** * Induction over the operations of a run (coarser than the micro-steps of StrategyProofs.v:
    one step is one call of the strategy by the controller). *)
From Coq Require Import List Arith ZArith Lia Bool.
From Verif Require Import Base Strategy StrategySpec StrategyProofs StrategyInv StrategyInv2
  StrategyInv3 StrategyInv4.
Import ListNotations.

Set Implicit Arguments.

Section Ops.
Variables P V Ext Orc : Type.
Variable c : cfg P V.
Variable hk : hooks P V Ext Orc.
Variable design : res (list P).
Variable e0 : Ext.
Notation proc := (proc P V Ext).
Notation Reached := (reached c hk design e0).

Lemma reached_ops : forall Q : proc -> Prop,
  (forall s e, construct c hk design e0 = Ok (s, e) -> Q (init_proc (s, e))) ->
  (forall p d o out p', Reached p -> Q p -> do_propose c hk d o p = Ok (out, p') -> Q p') ->
  (forall p o, Reached p -> Q p -> In o (p_out p) -> o_ev o = None -> Q (do_accept o p)) ->
  (forall p o, Reached p -> Q p -> In o (p_out p) -> o_ev o = None -> Q (do_reject c o p)) ->
  (forall p o ev v p', Reached p -> Q p -> In o (p_out p) -> o_ev o = Some ev ->
     do_complete c hk o ev v p = Ok p' -> Q p') ->
  (forall p o ev, Reached p -> Q p -> In o (p_out p) -> o_ev o = Some ev -> Q (do_abort c o p)) ->
  (forall p, Reached p -> Q p -> Q (with_s (set_terminate true (p_s p)) [EvStop] p)) ->
  (forall p, Reached p -> Q p -> Q (do_resume p)) ->
  forall p, Reached p -> Q p.
Proof.
  intros Q Hi Hp Ha Hr Hc Hb Hs Hu.
  assert (G : forall ops p, y_proc (run c hk design e0 ops) = Some p \/ y_disk (run c hk design e0 ops) = Some p -> Q p).
  { intros ops. induction ops as [|a ops IH] using rev_ind; intros p H.
    - unfold run in H. simpl in H. unfold start in H.
      destruct (construct c hk design e0) as [[s e]|] eqn:Ec; simpl in H; destruct H as [H|H];
        try discriminate. injection H as <-. exact (Hi s e eq_refl).
    - rewrite run_snoc in H.
      assert (RR : forall q, y_proc (run c hk design e0 ops) = Some q \/ y_disk (run c hk design e0 ops) = Some q -> Reached q)
        by (intros q Hq; exists ops; exact Hq).
      set (y := run c hk design e0 ops) in *. clearbody y.
      unfold step in H. destruct (y_proc y) as [p0|] eqn:Ey.
      + assert (Q0 : Q p0) by auto. assert (R0 : Reached p0) by auto.
        destruct a as [dd o|id|id|id st| | |].
        * destruct (do_propose c hk dd o p0) as [[out p1]|] eqn:Ep.
          -- assert (Q1 : Q p1) by (eapply Hp; eauto).
             destruct out; simpl in H; destruct H as [H|H]; try (injection H as <-; exact Q1); auto.
          -- simpl in H. destruct H as [H|H]; [discriminate|auto].
        * destruct (get_out id (p_out p0)) as [o|] eqn:Eg; [|rewrite Ey in H; auto].
          destruct (o_ev o) eqn:Eo; [rewrite Ey in H; auto|]. simpl in H.
          destruct H as [H|H]; [|auto]. injection H as <-.
          apply get_out_some in Eg. destruct Eg as [Eg _].
          apply (Ha p0 o R0 Q0 Eg Eo).
        * destruct (get_out id (p_out p0)) as [o|] eqn:Eg; [|rewrite Ey in H; auto].
          destruct (o_ev o) eqn:Eo; [rewrite Ey in H; auto|]. simpl in H.
          destruct H as [H|H]; [|auto]. injection H as <-.
          apply get_out_some in Eg. destruct Eg as [Eg _].
          apply (Hr p0 o R0 Q0 Eg Eo).
        * destruct (get_out id (p_out p0)) as [o|] eqn:Eg; [|rewrite Ey in H; auto].
          apply get_out_some in Eg. destruct Eg as [Eg _].
          assert (FI : forall r, (forall p', r = Ok p' -> Q p') ->
               y_proc (finish c p0 r (y_disk y)) = Some p \/
               y_disk (finish c p0 r (y_disk y)) = Some p -> Q p).
          { intros r Hr' Hf. destruct r as [p1|]; simpl in Hf.
            - destruct Hf as [Hf|Hf]; [injection Hf as <-; auto|].
              destruct (c_save_first c); injection Hf as <-; auto.
            - destruct Hf as [Hf|Hf]; [discriminate|].
              destruct (c_save_first c); [injection Hf as <-; auto|auto]. }
          destruct (o_ev o) as [ev|] eqn:Eo; [|rewrite Ey in H; auto].
          destruct st as [|v| |].
          -- rewrite Ey in H; auto.
          -- eapply FI; [|exact H]. intros p' E. eapply (Hc p0 o ev v p' R0 Q0 Eg Eo E).
          -- eapply FI; [|exact H]. intros p' E. injection E as <-. apply (Hb p0 o ev R0 Q0 Eg Eo).
          -- eapply FI; [|exact H]. intros p' E. injection E as <-. apply (Hb p0 o ev R0 Q0 Eg Eo).
        * simpl in H. destruct H as [H|H]; [|auto]. injection H as <-. apply (Hs p0 R0 Q0).
        * simpl in H. destruct H as [H|H]; [discriminate|auto].
        * rewrite Ey in H. auto.
      + destruct a; try (rewrite Ey in H; auto; fail).
        destruct (y_disk y) as [p0|] eqn:Ed; [|rewrite Ey in H; rewrite Ed in H; auto].
        simpl in H. destruct H as [H|H].
        * injection H as <-. apply (Hu p0); auto.
        * injection H as <-. auto. }
  intros p [ops H]. exact (G ops p H).
Qed.
End Ops.
