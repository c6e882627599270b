From Coq Require Import List NArith Bool Lia ZifyBool ZifyN ZifyNat Permutation.
From Verif Require Import AList Radix WalModel WalSpec WalProof WalProperties EngineModel EngineSpec EngineProof.
Import ListNotations.
Local Open Scope N_scope.

(* C44, what is kept: after any sequence of commands, polls and restarts, every height ever
   started that is within the history depth of all running heights has its engine and log. *)
Theorem C44_window_is_kept : forall ser de address depth tr n h,
  json_like ser de -> ~ In 45 address ->
  node_run ser de address depth (new_node []) tr n ->
  In (OStart h) tr -> (forall t, is_height_active n t = true -> t <= h + depth) ->
  is_height_active n h = true /\ exists es, logged (wal n) h = Some es.
Proof.
  intros ser de address depth tr n h J ND R I W.
  pose proof (inv_run ser de address depth J ND _ _ _ _ R (inv_new depth)) as IV.
  unfold is_height_active in *. destruct (active n h) as [e|] eqn:E.
  - split; [reflexivity|]. destruct (i_file _ _ _ IV h e E) as (es & L & _). eauto.
  - exfalso. destruct (i_gone _ _ _ IV h (or_intror I) E) as (m & EM & L).
    destruct (i_min _ _ _ IV m EM) as (t & IT & LE). apply key_get in IT.
    assert (X : match active n t with Some _ => true | None => false end = true)
      by (unfold active; destruct (al_get N.eqb t (engines n)); [reflexivity|congruence]).
    specialize (W t X). lia.
Qed.
Print Assumptions C44_window_is_kept.

(* C44, what is dropped: whenever an engine hands out a decision, in that same poll every
   engine further than the history depth below the highest goes, and its log is deleted. *)
Theorem C44_older_are_dropped : forall ser de address depth tr n polls h0 e0 ch v,
  json_like ser de -> ~ In 45 address ->
  node_run ser de address depth (new_node []) tr n ->
  active n h0 = Some e0 -> snd (poll_internal h0 e0 (polls h0)) = Some (EvDecision ch v) ->
  let n' := fst (next_event depth n polls) in
  forall h t, is_height_active n h = true -> is_height_active n t = true ->
    if h + depth <? t then is_height_active n' h = false /\ logged (wal n') h = None
    else (forall t', is_height_active n t' = true -> t' <= t) -> is_height_active n' h = true.
Proof.
  intros ser de address depth tr n polls h0 e0 ch v J ND R A0 P0. cbv zeta. intros h t AH AT.
  pose proof (inv_run ser de address depth J ND _ _ _ _ R (inv_new depth)) as IV.
  pose proof (inv_mid depth _ n polls IV) as IM.
  destruct (next_event_node depth n polls) as (E1 & E2 & E3 & _).
  assert (PD : popped_decision n polls = true).
  { unfold popped_decision. apply existsb_exists. exists (EvDecision ch v). split; [|reflexivity].
    destruct (poll_all_spec (engines n) polls) as (_ & _ & _ & V). apply V. exists h0, e0. split; [|exact P0].
    apply (al_get_in _ N.eqb_spec), A0. }
  rewrite PD in E1, E2, E3. destruct (mid_spec n polls) as (K & G & _).
  assert (ACT : forall x, is_height_active (mid n polls) x = is_height_active n x).
  { intros x. unfold is_height_active. rewrite G. destruct (active n x); reflexivity. }
  assert (AEQ : is_height_active (fst (next_event depth n polls)) h = is_height_active (prune_old_engines depth (mid n polls)) h)
    by (unfold is_height_active, active; rewrite E1; reflexivity).
  rewrite AEQ, E3. rewrite <- ACT in AH, AT.
  assert (INK : forall x, is_height_active (mid n polls) x = true -> In x (map fst (engines (mid n polls)))).
  { intros x X. apply key_get. unfold is_height_active, active in X. destruct (al_get N.eqb x (engines (mid n polls))); congruence. }
  destruct (prune_spec depth (mid n polls)) as [[EQ S]|(m & top & MX & EM & M & EE & EW)].
  - rewrite EQ. destruct (N.ltb_spec (h + depth) t) as [L|L].
    + exfalso. destruct (max_active_height (mid n polls)) as [top|] eqn:MX.
      * specialize (S _ eq_refl). apply max_height_some in MX. destruct MX as [_ MX]. specialize (MX _ (INK _ AT)). lia.
      * apply max_height_none in MX. pose proof (INK _ AT) as X. rewrite MX in X. exact X.
    + intros _. exact AH.
  - apply max_height_some in MX. destruct MX as [ITOP MX]. pose proof (MX _ (INK _ AT)) as LT.
    assert (PR : is_height_active (prune_old_engines depth (mid n polls)) h = (m <=? h) && is_height_active (mid n polls) h).
    { unfold is_height_active, active. rewrite EE, (al_get_retain _ N.eqb_spec). destruct (m <=? h); reflexivity. }
    rewrite PR, AH, andb_true_r. destruct (N.ltb_spec (h + depth) t) as [L|L].
    + destruct (N.leb_spec m h); [lia|]. split; [reflexivity|]. rewrite EW. apply logged_deleted, filter_In.
      split; [apply INK, AH|lia].
    + intros TOP. assert (top <= t).
      { apply TOP. rewrite <- ACT. apply key_get in ITOP. unfold is_height_active, active.
        destruct (al_get N.eqb top (engines (mid n polls))); congruence. }
      destruct (N.leb_spec m h); [|lia]. reflexivity.
Qed.
Print Assumptions C44_older_are_dropped.

(* C44, decisions: a height that decides is reported as finalized from then on, through any
   further commands, polls, pruning and restarts, unless it is started again. *)
Theorem C44_decisions_are_not_forgotten_partial : forall ser de address depth tr n o n1 h tr' n2,
  json_like ser de -> ~ In 45 address ->
  node_run ser de address depth (new_node []) tr n ->
  node_step ser de address depth n o n1 -> decides n o n1 h ->
  node_run ser de address depth n1 tr' n2 -> ~ In (OStart h) tr' ->
  is_height_finalized n2 h = true.
Proof.
  intros ser de address depth tr n o n1 h tr' n2 J ND R ST D R' NI.
  pose proof (inv_run ser de address depth J ND _ _ _ _ R (inv_new depth)) as IV.
  pose proof (inv_step ser de address depth J ND _ _ _ _ IV ST) as IV1.
  apply (settled_finalized de address). eapply (settled_run ser de address depth J ND _ _ _ _ h R' IV1); [|exact NI].
  inversion ST; subst; cbn [decides] in D; try (destruct D; fail).
  - destruct D as [A (ch & v & I)]. unfold is_height_active in A. destruct (active n h) as [e|] eqn:E; [|discriminate].
    eapply decides_next; eassumption.
  - destruct D as [A (ch & v & I)]. unfold is_height_active in A.
    destruct (active (recover de depth listing (wal n) hc replay) h) as [e|] eqn:E; [|discriminate].
    eapply decides_restart; eassumption.
Qed.
Print Assumptions C44_decisions_are_not_forgotten_partial.

Definition decide_at (h v : N) : node_op := ONext (fun x => if x =? h then [FxWal 1; FxDecide h v] else []).

Lemma toy_dash : ~ In 45 (text "0x1").
Proof. vm_compute. intuition discriminate. Qed.

(* Without the side condition: starting a decided height again, which neither the command
   nor recovery prevents, makes it unfinalized. *)
Theorem C44_started_again_refuted : exists ser de address depth n n',
  json_like ser de /\ ~ In 45 address /\
  node_run ser de address depth (new_node []) [OStart 5; decide_at 5 9] n /\
  is_height_finalized n 5 = true /\
  node_step ser de address depth n (OStart 5) n' /\ is_height_finalized n' 5 = false.
Proof.
  exists ToyJson.ser, ToyJson.de, (text "0x1"), 2.
  eexists. eexists. split; [exact ToyJson.json|]. split; [exact toy_dash|]. split.
  - eapply nrun_cons; [apply do_start; reflexivity|]. eapply nrun_cons; [apply do_next|apply nrun_nil].
  - split; [vm_compute; reflexivity|]. split; [apply do_start; reflexivity|]. vm_compute. reflexivity.
Qed.
Print Assumptions C44_started_again_refuted.

(* The converse fails: a height can be reported as finalized though it never decided.  Here
   height 5 is running when height 100 decides. *)
Theorem C44_finalized_means_decided_refuted : exists ser de address depth tr n,
  json_like ser de /\ ~ In 45 address /\
  node_run ser de address depth (new_node []) tr n /\
  In (OStart 5) tr /\ Forall (never_told 5) tr /\
  is_height_finalized n 5 = true /\ is_height_active n 5 = false.
Proof.
  exists ToyJson.ser, ToyJson.de, (text "0x1"), 2, [OStart 5; OStart 100; decide_at 100 9].
  eexists. split; [exact ToyJson.json|]. split; [exact toy_dash|]. split.
  - eapply nrun_cons; [apply do_start; reflexivity|]. eapply nrun_cons; [apply do_start; reflexivity|].
    eapply nrun_cons; [apply do_next|apply nrun_nil].
  - split; [left; reflexivity|]. split.
    + apply Forall_cons; [exact I|]. apply Forall_cons; [exact I|]. apply Forall_cons; [|constructor].
      cbn. auto.
    + split; vm_compute; reflexivity.
Qed.
Print Assumptions C44_finalized_means_decided_refuted.

(* A crash inside a write to the log of one height makes the restarted validator forget that
   another height was decided. *)
Theorem C44_torn_write_refuted : exists ser de address depth n h e k,
  json_like ser de /\ ~ In 45 address /\
  node_run ser de address depth (new_node []) [OStart 5; decide_at 5 9; OStart 6] n /\
  is_height_finalized n 5 = true /\ h = 6 /\ (0 < k < length (ser e))%nat /\
  forall hc replay,
    is_height_finalized
      (recover de depth (wal_write address (wal_run ser address (wal n)) h (firstn k (wal_line ser e))) (wal n) hc replay) 5 = false.
Proof.
  exists ToyJson.ser, ToyJson.de, (text "0x1"), 2. eexists. exists 6, (Other 2), 3%nat.
  split; [exact ToyJson.json|]. split; [exact toy_dash|]. split.
  - eapply nrun_cons; [apply do_start; reflexivity|]. eapply nrun_cons; [apply do_next|].
    eapply nrun_cons; [apply do_start; reflexivity|apply nrun_nil].
  - split; [vm_compute; reflexivity|]. split; [reflexivity|]. split; [vm_compute; lia|].
    intros hc replay. unfold recover. 
    match goal with |- context [recover_incomplete_heights _ (wal_write _ (wal_run _ _ ?t) _ _) _] => set (tr := t) end.
    assert (OK : heights_ok tr) by (repeat constructor; vm_compute; reflexivity).
    destruct (C43_crash_inside_append ToyJson.ser ToyJson.de (text "0x1") tr hc 6 (Other 2) 3 _ ToyJson.json toy_dash OK
                ltac:(lia) ltac:(vm_compute; lia) (Permutation_refl _)) as (_ & T & _).
    rewrite T by (vm_compute; lia). reflexivity.
Qed.
Print Assumptions C44_torn_write_refuted.

Module EngineExamples.
  (* depth 2: heights 1..4 are started, 2 decides, the validator restarts, 4 decides *)
  Definition before := fold_left (fun n o => match o with
      | OStart h => start_height n h
      | ONext p => fst (next_event 2 n p)
      | _ => n end) [OStart 1; OStart 2; decide_at 2 7; OStart 3; OStart 4] (new_node []).
  Definition after := recover ToyJson.de 2 (wal_run ToyJson.ser (text "0x1") (wal before)) (wal before) None (fun _ => []).
  Definition finally := fst (next_event 2 after (fun x => if x =? 4 then [FxDecide 4 8] else [])).

  Example runs : node_run ToyJson.ser ToyJson.de (text "0x1") 2 (new_node [])
    [OStart 1; OStart 2; decide_at 2 7; OStart 3; OStart 4] before.
  Proof.
    unfold before, decide_at. cbn [fold_left].
    do 2 (eapply nrun_cons; [apply do_start; reflexivity|]). eapply nrun_cons; [apply do_next|].
    do 2 (eapply nrun_cons; [apply do_start; reflexivity|]). apply nrun_nil.
  Qed.
  Example restarts : node_step ToyJson.ser ToyJson.de (text "0x1") 2 before
    (ORestart (wal_run ToyJson.ser (text "0x1") (wal before)) None (fun _ => [])) after.
  Proof. apply do_restart, Permutation_refl. Qed.
  Example goes_on : node_step ToyJson.ser ToyJson.de (text "0x1") 2 after
    (ONext (fun x => if x =? 4 then [FxDecide 4 8] else [])) finally.
  Proof. apply do_next. Qed.
  Example before_restart : map (is_height_finalized before) [1; 2; 3; 4] = [false; true; false; false].
  Proof. vm_compute. reflexivity. Qed.
  Example after_restart : map (is_height_active after) [1; 2; 3; 4] = [true; true; true; true] /\
    map (is_height_finalized after) [1; 2; 3; 4] = [false; true; false; false].
  Proof. split; vm_compute; reflexivity. Qed.
  Example at_the_end : map (is_height_active finally) [1; 2; 3; 4] = [false; true; true; true] /\
    map (is_height_finalized finally) [1; 2; 3; 4] = [true; true; false; true].
  Proof. split; vm_compute; reflexivity. Qed.
End EngineExamples.
