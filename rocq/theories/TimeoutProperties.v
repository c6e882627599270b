From Coq Require Import List NArith Bool Lia ZifyBool ZifyN Permutation.
From Verif Require Import TimeoutModel TimeoutSpec TimeoutProof.
Import ListNotations.
Local Open Scope N_scope.

(* C45: in every run of schedule, cancel, cancel-all, reset and reporting operations, each
   report answers one scheduled timeout that was neither cancelled nor answered before, is
   due, and is due no later than every other timeout still waiting; and whenever the
   reporting loop ends at some time, no waiting timeout is due at that time. *)
Theorem C45_timeouts_reported_once_in_order : forall values tr heap,
  tm_run values tr heap ->
  exists who : nat -> nat, forall j,
    (forall t now, nth_error tr j = Some (Report t now) ->
      exists s, waiting (firstn j tr) who (who j) t s /\
        due values (firstn j tr) (who j) t s <= now /\
        forall i t' s', waiting (firstn j tr) who i t' s' ->
          due values (firstn j tr) (who j) t s <= due values (firstn j tr) i t' s') /\
    (forall now, nth_error tr j = Some (Idle now) ->
      forall i t s, waiting (firstn j tr) who i t s -> now < due values (firstn j tr) i t s).
Proof.
  intros values tr heap R. destruct (run_inv values tr heap R) as (who & P & _). exists who. exact P.
Qed.
Print Assumptions C45_timeouts_reported_once_in_order.

(* Consequence without the matching: between a cancellation of t (or the creation of the
   manager) and the next one, t is reported at most as often as it is scheduled. *)
Theorem C45_not_after_cancel : forall values tr heap,
  tm_run values tr heap ->
  forall before t c after now rest, tr = before ++ c :: after ++ Report t now :: rest ->
    c = Cancel t \/ c = CancelAll ->
    exists s, In (Schedule t s) after.
Proof.
  intros values tr heap R before t c after now rest -> C.
  destruct (run_inv values _ heap R) as (who & P & _).
  set (j := length (before ++ c :: after)).
  assert (E : nth_error (before ++ c :: after ++ Report t now :: rest) j = Some (Report t now)).
  { change (before ++ c :: after ++ Report t now :: rest) with (before ++ (c :: after) ++ Report t now :: rest).
    rewrite app_assoc, nth_error_app2 by reflexivity. unfold j. rewrite PeanoNat.Nat.sub_diag. reflexivity. }
  assert (F : firstn j (before ++ c :: after ++ Report t now :: rest) = before ++ c :: after).
  { change (before ++ c :: after ++ Report t now :: rest) with (before ++ (c :: after) ++ Report t now :: rest).
    rewrite app_assoc, firstn_app. unfold j. rewrite PeanoNat.Nat.sub_diag, firstn_all. simpl. apply app_nil_r. }
  destruct (P j) as [RP _]. destruct (RP _ _ E) as (s & (ES & NC & _) & _). rewrite F in *.
  exists s. remember (who j) as i eqn:EI. clear EI.
  destruct (Compare_dec.le_lt_dec i (length before)) as [L|L].
  - exfalso. destruct (PeanoNat.Nat.eq_dec i (length before)) as [EQ|NE].
    + subst i. rewrite nth_error_app2, PeanoNat.Nat.sub_diag in ES by reflexivity. simpl in ES.
      destruct C as [-> | ->]; discriminate.
    + apply NC. unfold cancelled. rewrite skipn_app. rewrite !in_app_iff.
      replace (S i - length before)%nat with O by lia. cbn [skipn].
      destruct C as [-> | ->]; [left|right]; right; left; reflexivity.
  - rewrite nth_error_app2 in ES by lia. destruct (i - length before)%nat as [|k] eqn:EK; [lia|].
    cbn [nth_error] in ES. eapply nth_error_In, ES.
Qed.
Print Assumptions C45_not_after_cancel.

(* The reporting loop is never stuck: at any time it either ends or reports. *)
Theorem C45_loop_progress : forall values heap now,
  (exists heap', tm_step values heap (Idle now) heap') \/
  (exists t heap', tm_step values heap (Report t now) heap').
Proof.
  intros values heap now. destruct heap as [|x heap]; [left; exists []; constructor|].
  assert (G : exists y, heap_greatest (x :: heap) y).
  { clear. revert x. induction heap as [|z heap IH]; intros x.
    - exists x. split; [left; reflexivity|]. intros y [<-|[]]. unfold scheduled_cmp. rewrite N.compare_refl. discriminate.
    - destruct (IH z) as (y & I & M). destruct (N.le_gt_cases (s_due x) (s_due y)) as [L|L].
      + exists x. split; [left; reflexivity|]. intros w [<-|W]; unfold scheduled_cmp in *.
        * rewrite N.compare_refl. discriminate.
        * specialize (M _ W). destruct (N.compare_spec (s_due w) (s_due x)); try congruence.
          exfalso. destruct (N.compare_spec (s_due w) (s_due y)); try lia; congruence.
      + exists y. split; [right; exact I|]. intros w [<-|W]; [|exact (M _ W)].
        unfold scheduled_cmp. destruct (N.compare_spec (s_due x) (s_due y)); try lia; discriminate. }
  destruct G as (y & HG). destruct (now <? s_due y) eqn:E.
  - left. exists (x :: heap). eapply step_idle; eauto.
  - right. pose proof HG as [I _]. apply in_split in I. destruct I as (a & b & EQ).
    exists (s_timeout y), (a ++ b). constructor; auto. rewrite EQ. apply Permutation_sym, Permutation_middle.
Qed.
Print Assumptions C45_loop_progress.

Module TimeoutExamples.
  Definition vals := mkValues 10 5 5 20.
  Definition tp := mkTimeout Propose 0.
  Definition tv := mkTimeout Prevote 0.
  Definition tc := mkTimeout Precommit 0.
  (* scheduled in one order, reported in due order; the cancelled one never is *)
  Definition trace : list op :=
    [Schedule tp 100; Schedule tv 101; Schedule tc 102; Cancel tc; Idle 105; Report tv 107; Idle 107; Report tp 111; Idle 111].
  Example trace_runs : tm_run vals trace [].
  Proof.
    unfold trace.
    assert (R0 : tm_run vals [] []) by constructor.
    assert (R1 := run_step vals _ _ (Schedule tp 100) _ R0 (step_schedule vals _ _ _ _ (Permutation_refl _))).
    assert (R2 := run_step vals _ _ (Schedule tv 101) _ R1 (step_schedule vals _ _ _ _ (Permutation_refl _))).
    assert (R3 := run_step vals _ _ (Schedule tc 102) _ R2 (step_schedule vals _ _ _ _ (Permutation_refl _))).
    assert (R4 := run_step vals _ _ (Cancel tc) _ R3 (step_cancel vals _ _ _ (Permutation_refl _))).
    cbn in R4. change (tm_run vals [Schedule tp 100; Schedule tv 101; Schedule tc 102; Cancel tc]
      [mkScheduled tv 106; mkScheduled tp 110]) in R4.
    assert (G : heap_greatest [mkScheduled tv 106; mkScheduled tp 110] (mkScheduled tv 106)).
    { split; [left; reflexivity|]. intros y [<-|[<-|[]]]; vm_compute; discriminate. }
    assert (R5 := run_step vals _ _ (Idle 105) _ R4 (step_idle vals _ _ 105 G eq_refl)).
    assert (R6 := run_step vals _ _ _ _ R5 (step_report vals _ _ 107 _ G eq_refl (Permutation_refl _))).
    assert (G2 : heap_greatest [mkScheduled tp 110] (mkScheduled tp 110)).
    { split; [left; reflexivity|]. intros y [<-|[]]; vm_compute; discriminate. }
    assert (R7 := run_step vals _ _ (Idle 107) _ R6 (step_idle vals _ _ 107 G2 eq_refl)).
    assert (R8 := run_step vals _ _ _ _ R7 (step_report vals _ _ 111 _ G2 eq_refl (Permutation_refl _))).
    exact (run_step vals _ _ (Idle 111) _ R8 (step_idle_empty vals 111)).
  Qed.
End TimeoutExamples.
