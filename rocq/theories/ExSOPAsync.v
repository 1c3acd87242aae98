(** * Concrete asynchronous and serial runs of SOPStrategy that meet the hypotheses of
    C31_async_never_fails_partial and C12_sop_serial_run_finishes. *)
From Coq Require Import List Arith ZArith Lia Bool QArith Cantor.
From Verif Require Import Base PyList Strategy StrategySpec StrategyProofs StrategyInv StrategyInv2
  StrategyInv3 StrategySerial PropStrategy SRBF Pareto ParetoProofs PropPareto SOP SOPProofs SOPCenters SOPInv PropSOP
  SOPTotal ExSRBF ExSOP SOPAsync SOPSerial.
Import ListNotations.
Local Close Scope Q_scope.

(** A boolean test of the schedule condition. *)
Fixpoint room_b (nc : Z) (pre h : list (event nat val)) : bool :=
  match h with
  | [] => true
  | ev :: h' =>
    match ev with
    | EvGenerate _ _ => (total (@design_running nat val) pre =? 0)%Z && (total (@unfinished nat val) pre <? nc)%Z
    | _ => true
    end && room_b nc (pre ++ [ev]) h'
  end.
Lemma room_b_ok : forall nc h pre, room_b nc pre h = true ->
  forall h1 n r h2, h = h1 ++ EvGenerate n r :: h2 -> room nc (pre ++ h1).
Proof.
  intros nc h. induction h as [|ev h IH]; intros pre H h1 n r h2 E; [destruct h1; discriminate|].
  cbn [room_b] in H. apply andb_prop in H. destruct H as [H1 H2]. destruct h1 as [|a h1]; cbn [app] in E; injection E as -> ->.
  - apply andb_prop in H1. destruct H1 as [K1 K2]. rewrite app_nil_r. split; [apply Z.eqb_eq|apply Z.ltb_lt]; assumption.
  - specialize (IH _ H2 h1 n r h2 eq_refl). rewrite <- app_assoc in IH. exact IH.
Qed.

(** Three workers with four centers; one proposal is rejected, one evaluation finishes out of order. *)
Definition ops3 : list sop_op :=
  init4 ++ [spp 310; Accept 4; spp 320; Accept 5; spp 330; Reject 6; Update 5 (SCompleted (Fin 2)); spp 340; Accept 7;
            Update 4 (SCompleted (Fin 0)); spp 350; Accept 8].
Example ex_C31_async :
  exists s0 e0, construct ca (shk ca 4) sdesign sop0 = Ok (s0, e0) /\
  let p := spr ca 4 ops3 in
  c_async ca = true /\ c_max_evals ca <> Z.of_nat (c_num_pts ca) /\ 2 <= length (batch_queue s0) /\
  (forall x y, c_peqb ca x y = true <-> x = y) /\ (forall x y, x <> y -> ~ (sdist x y == 0)%Q) /\
  reached ca (shk ca 4) sdesign sop0 p /\
  count (@is_resume nat val) (p_hist p) = 0 /\ NoDup (batch_queue s0 ++ queued_later (p_hist p)) /\
  (forall h1 n r h2, p_hist p = h1 ++ EvGenerate n r :: h2 -> room 4 h1) /\
  total (@unfinished nat val) (p_hist p) = 3%Z /\ length (p_out p) = 2 /\
  ((forall d o, (forall j x q, exists y, o j x q = Ok y) -> exists r, do_propose ca (shk ca 4) d o p = Ok r) /\
   (forall o ev v, In o (p_out p) -> o_ev o = Some ev -> exists p', do_complete ca (shk ca 4) o ev v p = Ok p')).
Proof.
  destruct (construct ca (shk ca 4) sdesign sop0) as [[s0 e0]|] eqn:E; [|vm_compute in E; discriminate].
  exists s0, e0. split; [reflexivity|]. cbv zeta.
  assert (Q0 : batch_queue s0 = [100; 300; 700; 900] \/ batch_queue s0 = [900; 700; 300; 100]).
  { vm_compute in E. injection E as <- _. vm_compute. auto. }
  assert (N : NoDup (batch_queue s0 ++ queued_later (p_hist (spr ca 4 ops3)))).
  { let v := eval vm_compute in (queued_later (p_hist (spr ca 4 ops3))) in
      replace (queued_later (p_hist (spr ca 4 ops3))) with v by (vm_compute; reflexivity).
    destruct Q0 as [-> | ->]; repeat (constructor; [simpl; intuition discriminate|]); constructor. }
  assert (A1 : c_async ca = true) by reflexivity.
  assert (A4 : c_max_evals ca <> Z.of_nat (c_num_pts ca)) by (vm_compute; discriminate).
  assert (A5 : 2 <= length (batch_queue s0)) by (destruct Q0 as [-> | ->]; simpl; lia).
  assert (A6 : forall x y, c_peqb ca x y = true <-> x = y) by (intros; apply Nat.eqb_eq).
  assert (A7 : forall x y, x <> y -> ~ (sdist x y == 0)%Q).
  { intros x y H K. unfold sdist, Qeq in K. cbn [Qnum Qden] in K. lia. }
  assert (A8 : reached ca (shk ca 4) sdesign sop0 (spr ca 4 ops3)) by (apply spr_ok; vm_compute; reflexivity).
  assert (A9 : count (@is_resume nat val) (p_hist (spr ca 4 ops3)) = 0) by (vm_compute; reflexivity).
  assert (A10 : forall h1 n r h2, p_hist (spr ca 4 ops3) = h1 ++ EvGenerate n r :: h2 -> room 4 h1).
  { intros h1 n r h2 K. apply (@room_b_ok 4 (p_hist (spr ca 4 ops3)) []) with (n := n) (r := r) (h2 := h2); [vm_compute; reflexivity|exact K]. }
  assert (A11 : total (@unfinished nat val) (p_hist (spr ca 4 ops3)) = 3%Z) by (vm_compute; reflexivity).
  repeat (split; [assumption|]). split; [vm_compute; reflexivity|].
  destruct (@C31_async_never_fails_partial nat ca sdist sclose 4%Z sdesign s0 e0 E A1 A4 A5 A6 A7 _ A8 A9 N A10) as [B1 B2].
  split; [|exact B2]. intros d o Ho. apply B1; [exact Ho|]. intros _. split; [vm_compute; reflexivity|rewrite A11; reflexivity].
Qed.

(** Serial runs: searches that return a new point each. *)
Definition sorcs (i : nat) : sop_search nat := fun j _ _ => Ok (1000 + Cantor.to_nat (i, j)).
Lemma sorcs_fresh : forall q0, (forall x, In x q0 -> x < 1000) -> fresh_searches q0 sorcs.
Proof.
  intros q0 H. unfold fresh_searches, sorcs. split; [eauto|]. split.
  - intros i j x q y E K. injection E as <-. apply H in K. pose proof (Nat.le_add_r 1000 (Cantor.to_nat (i, j))). lia.
  - intros i j x q i' j' x' q' y E1 E2. assert (K : 1000 + Cantor.to_nat (i, j) = 1000 + Cantor.to_nat (i', j')) by congruence. apply Nat.add_cancel_l in K. clear E1 E2. rename K into E2.
    apply Cantor.to_nat_inj in E2. injection E2 as -> ->. auto.
Qed.
Definition cs_async := rcfg 9 true 0 4.
Definition cs_sync := rcfg 9 false 4 4.
Example ex_C12_sop : forall c, c = cs_async \/ c = cs_sync ->
  exists p h, y_proc (serial c (shk c 4) (fun x => Fin (inject_Z (Z.of_nat x))) (fun _ => sdesign) sorcs 10 (start c (shk c 4) sdesign sop0)) = Some p /\
    p_hist p = h ++ [EvTerminate] /\ length (completed h) = 9.
Proof.
  intros c Hc.
  destruct (construct c (shk c 4) sdesign sop0) as [[s0 e0]|] eqn:E; [|destruct Hc as [-> | ->]; vm_compute in E; discriminate].
  assert (Q0 : batch_queue s0 = [100; 300; 700; 900] \/ batch_queue s0 = [900; 700; 300; 100]).
  { destruct Hc as [-> | ->]; vm_compute in E; injection E as <- _; vm_compute; auto. }
  assert (M : c_max_evals c = 9%Z) by (destruct Hc as [-> | ->]; reflexivity).
  destruct (@C12_sop_serial_run_finishes nat c sdist sclose 4%Z sdesign s0 e0 E) with
    (f := fun x => Fin (inject_Z (Z.of_nat x))) (designs := fun _ : nat => sdesign) (orcs := sorcs) as [p [h [H1 [H2 [H3 _]]]]].
  - destruct Hc as [-> | ->]; [left; split; [reflexivity|lia]|right; repeat split; cbn; lia].
  - destruct Hc as [-> | ->]; reflexivity.
  - rewrite M. lia.
  - destruct Hc as [-> | ->]; cbn; lia.
  - intros x y. destruct Hc as [-> | ->]; apply Nat.eqb_eq.
  - intros x y H K. unfold sdist, Qeq in K. cbn [Qnum Qden] in K. lia.
  - destruct Q0 as [-> | ->]; cbn; lia.
  - destruct Q0 as [-> | ->]; repeat (constructor; [simpl; intuition discriminate|]); constructor.
  - apply sorcs_fresh. intros x Hx. destruct Q0 as [K|K]; rewrite K in Hx; cbn [In] in Hx; destruct Hx as [<-|[<-|[<-|[<-|[]]]]]; lia.
  - rewrite M in H1, H3. exists p, h. auto.
Qed.
