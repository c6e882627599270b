(** C40 (only well-formed proposals are completed), C41 (deferral does not change
    what is executed) and C42 (rollback leaves a consistent prefix). *)
From Coq Require Import List Bool Arith NArith Lia.
From Verif Require Import AList P2PStreamModel P2PStreamProof ProposalModel ProposalSpec ProposalProof ProposalTaskProof.
Import ListNotations.
Local Open Scope N_scope.

(* ---------------------------------------------------------------- *)
(** * C40 *)

(** Whatever parts are offered: when the validator says that the proposal is complete,
    the parts it has taken are an init, then no batch (empty proposal) or one or more
    non-empty batches, then the commitment; and it says so at most once, because after
    that the only parts it still takes are batches. *)
Theorem C40_completed_is_well_formed :
  forall ps before p r after,
    answers pv_new ps = before ++ (p, Some r) :: after ->
    r <> Accepted ->
    complete_as r (taken before ++ [p]) /\
    (forall q r', In (q, Some r') after -> r' = Accepted /\ exists txs, q = Batch txs).
Proof.
  intros ps before p r after A NR.
  destruct (answers_complete pv_new ps before p r after (or_introl eq_refl) A NR) as (C & D).
  split; [exact C|exact D].
Qed.
Print Assumptions C40_completed_is_well_formed.

(** Conversely, every well-formed proposal is taken part by part and completed. *)
Theorem C40_well_formed_is_completed :
  forall i batches c n,
    Forall (fun b => b <> []) batches ->
    answers pv_new (proposal i batches c n) =
    (Init i, Some Accepted) :: map (fun b => (Batch b, Some Accepted)) batches ++
    [(PFin c n, Some match batches with [] => EmptyProposal | _ => NonEmptyProposal end)].
Proof. exact answers_proposal. Qed.
Print Assumptions C40_well_formed_is_completed.

(** Refused parts (a commitment first, an empty batch, a second init) do not count. *)
Example C40_example :
  let i := mkInit 5 1 None 0 in
  answers pv_new [PFin 9 1; Init i; Batch []; Batch [7; 8]; Init i; Batch [4]; PFin 9 3; PFin 9 3] =
  [(PFin 9 1, None); (Init i, Some Accepted); (Batch [], None); (Batch [7; 8], Some Accepted);
   (Init i, None); (Batch [4], Some Accepted); (PFin 9 3, Some NonEmptyProposal); (PFin 9 3, None)] /\
  complete_as NonEmptyProposal [Init i; Batch [7; 8]; Batch [4]; PFin 9 3].
Proof.
  split; [reflexivity|]. exists (mkInit 5 1 None 0), [[7; 8]; [4]], 9, 3.
  split; [reflexivity|]. split; [discriminate|]. repeat (apply Forall_cons; [discriminate|]). apply Forall_nil.
Qed.

(** Finding: "parts after completion are refused" is false, a batch after the
    commitment is taken. *)
Theorem C40_refused_after_completion_refuted :
  exists ps before p r after txs,
    answers pv_new ps = before ++ (p, Some r) :: after /\ r <> Accepted /\
    In (Batch txs, Some Accepted) after.
Proof.
  exists [Init (mkInit 5 1 None 0); Batch [7]; PFin 9 1; Batch [8]],
    [(Init (mkInit 5 1 None 0), Some Accepted); (Batch [7], Some Accepted)],
    (PFin 9 1), NonEmptyProposal, [(Batch [8], Some Accepted)], [8].
  split; [reflexivity|]. split; [discriminate|]. left; reflexivity.
Qed.
Print Assumptions C40_refused_after_completion_refuted.

(* ---------------------------------------------------------------- *)
(** * C42 *)

Section C42.
  Variable ok_tx : N -> bool.
  Variable tx_class : N -> option N.
  Variable exec : init -> list N -> N -> option output.
  Variable state_update : init -> list N -> N.

  Local Notation execute_batches := (execute_batches ok_tx tx_class exec).

  (** After executing any batches and rolling back to any count, the block has exactly
      the first [count] transactions, with the receipts (indices from zero), events
      and state update of running just these. *)
  Theorem C42_rollback_is_prefix :
    forall i batches count v v' b,
      execute_batches (vs_new i) batches = Some v ->
      rollback_to v count = Some v' ->
      finalize0 state_update v' = Some b ->
      (N.to_nat count <= length (concat batches))%nat /\
      block_of exec state_update i (firstn (N.to_nat count) (concat batches)) b.
  Proof.
    intros i batches count v v' b X R F.
    pose proof (ran_batches ok_tx tx_class exec state_update (fun x => x) i [] (vs_new i) batches v
                  (ran_new tx_class exec i) X) as RN.
    destruct (cut_rollback ok_tx tx_class exec state_update (fun x => x) (fun _ => true) _ _ _ _ _ RN R) as (L & C).
    split; [exact L|].
    exact (cut_finalize ok_tx tx_class exec state_update (fun x => x) (fun _ => true) _ _ _ _ _ C F).
  Qed.

  (** Rolling back and finalizing only fail for a count that is too large. *)
  Theorem C42_rollback_possible :
    forall i batches count v,
      execute_batches (vs_new i) batches = Some v ->
      (N.to_nat count <= length (concat batches))%nat ->
      exists v' b, rollback_to v count = Some v' /\ finalize0 state_update v' = Some b.
  Proof.
    intros i batches count v X L.
    pose proof (ran_batches ok_tx tx_class exec state_update (fun x => x) i [] (vs_new i) batches v
                  (ran_new tx_class exec i) X) as RN.
    assert (R : exists v', rollback_to v count = Some v').
    { unfold rollback_to. destruct RN as (os & _ & E). rewrite E. cbn [vs_txs app].
      destruct (Nat.ltb_spec (length (concat batches)) (N.to_nat count)); [lia|].
      destruct (Nat.eqb (N.to_nat count) (length (concat batches))); eexists; reflexivity. }
    destruct R as (v' & R).
    destruct (cut_rollback ok_tx tx_class exec state_update (fun x => x) (fun _ => true) _ _ _ _ _ RN R) as (_ & C).
    destruct (cut_finalizes tx_class exec state_update _ _ _ _ C) as (b & F).
    exists v', b. auto.
  Qed.

  (** Without rollback, how the transactions were split into batches does not matter,
      and the declared classes are those of the transactions that were not reverted. *)
  Theorem C42_without_rollback :
    forall i batches v b,
      execute_batches (vs_new i) batches = Some v ->
      finalize0 state_update v = Some b ->
      block_of exec state_update i (concat batches) b /\
      exists os, outputs_of exec i (concat batches) os /\
                 b_declared b = classes_of tx_class (concat batches) os.
  Proof.
    intros i batches v b X F.
    pose proof (ran_batches ok_tx tx_class exec state_update (fun x => x) i [] (vs_new i) batches v
                  (ran_new tx_class exec i) X) as RN. cbn [app] in RN.
    split.
    - rewrite <- (firstn_all (concat batches)).
      exact (cut_finalize ok_tx tx_class exec state_update (fun x => x) (fun _ => true) _ _ _ _ _
               (ran_cut ok_tx tx_class exec state_update (fun x => x) (fun _ => true) _ _ _ _ RN (le_n _)) F).
    - destruct RN as (os & R & E). exists os. split; [apply outputs_of_run; exact R|].
      subst v. unfold finalize0 in F. cbn in F.
      destruct (concat batches); inversion F; reflexivity.
  Qed.
End C42.
Print Assumptions C42_rollback_is_prefix.
Print Assumptions C42_rollback_possible.
Print Assumptions C42_without_rollback.

(** A toy executor: a transaction is reverted if it is odd, and its receipt tells how
    many transactions ran before it; every transaction above 100 declares a class. *)
Definition toy_exec (i : init) (log : list N) (t : N) : option output :=
  if t =? 0 then None else Some (mkOutput (N.of_nat (length log)) (N.odd t) [t]).
Definition toy_class (t : N) : option N := if 100 <? t then Some t else None.
Definition toy_update (i : init) (txs : list N) : N := fold_left N.add txs 0.

Example C42_example :
  let i := mkInit 5 1 None 0 in
  exists v v' b,
    execute_batches (fun _ => true) toy_class toy_exec (vs_new i) [[2; 3]; [104]; [6; 107]] = Some v /\
    rollback_to v 3 = Some v' /\
    finalize0 toy_update v' = Some b /\
    b_txs b = [2; 3; 104] /\
    b_receipts b = [mkReceipt 2 0 false 0; mkReceipt 3 1 true 1; mkReceipt 104 2 false 2] /\
    b_events b = [[2]; [3]; [104]] /\
    b_update b = 109.
Proof.
  cbv zeta. do 3 eexists. split; [vm_compute; reflexivity|]. split; [vm_compute; reflexivity|].
  split; [vm_compute; reflexivity|]. vm_compute. auto.
Qed.

(** Finding: the declared classes are not rolled back. *)
Theorem C42_declared_classes_refuted :
  exists i batches count v v' b os,
    execute_batches (fun _ => true) toy_class toy_exec (vs_new i) batches = Some v /\
    rollback_to v count = Some v' /\
    finalize0 toy_update v' = Some b /\
    outputs_of toy_exec i (b_txs b) os /\
    b_declared b <> classes_of toy_class (b_txs b) os.
Proof.
  exists (mkInit 5 1 None 0), [[2]; [104]], 1. do 3 eexists. exists [mkOutput 0 false [2]].
  split; [vm_compute; reflexivity|]. split; [vm_compute; reflexivity|]. split; [vm_compute; reflexivity|]. split.
  - apply outputs_of_run. vm_compute. reflexivity.
  - vm_compute. discriminate.
Qed.
Print Assumptions C42_declared_classes_refuted.

(** Finding: a batch executed after a rollback is finalized with the wrong state
    update, that of the transactions that were rolled back. *)
Theorem C42_batch_after_rollback_refuted :
  exists i v v' v'' b,
    execute_batches (fun _ => true) toy_class toy_exec (vs_new i) [[2; 4]] = Some v /\
    rollback_to v 1 = Some v' /\
    execute_batches (fun _ => true) toy_class toy_exec v' [[6]] = Some v'' /\
    finalize0 toy_update v'' = Some b /\
    b_txs b = [2; 6] /\ b_update b <> toy_update i (b_txs b).
Proof.
  exists (mkInit 5 1 None 0). do 4 eexists.
  split; [vm_compute; reflexivity|]. split; [vm_compute; reflexivity|]. split; [vm_compute; reflexivity|].
  split; [vm_compute; reflexivity|]. vm_compute. split; [reflexivity|discriminate].
Qed.
Print Assumptions C42_batch_after_rollback_refuted.

(* ---------------------------------------------------------------- *)
(** * C41 *)

Section C41.
  Variable ok_tx : N -> bool.
  Variable tx_class : N -> option N.
  Variable exec : init -> list N -> N -> option output.
  Variable state_update : init -> list N -> N.
  Variable diff_commitment : N -> N.
  Variable valid_info : init -> bool.

  Local Notation run := (run ok_tx tx_class exec state_update diff_commitment valid_info).

  (** Take any history of the task: proposal parts of any streams, decisions, blocks
      stored and confirmed, in any order.  Suppose the parts of one stream are a prefix
      of a well-formed proposal (of any size) for the height of the stream.  Then the
      only block the task can ever hold for it is the one of exactly the first [n]
      transactions, run one after the other on the parent, matching the commitment
      (and the empty block for a proposal without batches); and what it reports to
      consensus is the commitment, proposer and valid round of that proposal.  So it is
      never anything else than without deferral.

      Missing from the full claim: that the proposal is executed at all; this is false
      in general, see the refutations below. *)
  Theorem C41_executed_as_proposed_partial :
    forall key i batches c n committed es rest s rs,
      Forall (fun b => b <> []) batches ->
      i_height i = fst key ->
      proposal i batches c n = parts_of key es ++ rest ->
      run (task_new committed) es = Some (s, rs) ->
      match hget key (t_finalized s) with
      | None => True
      | Some (Empty h) => batches = [] /\ h = fst key
      | Some (Executed b) =>
          batches <> [] /\
          block_of exec state_update i (firstn (N.to_nat n) (concat batches)) b /\
          diff_commitment (b_update b) = c
      end /\
      forall g, In (Done key g) rs -> g = mkOrigin c (i_proposer i) (i_valid_round i).
  Proof.
    intros key i batches c n committed es rest s rs FB HH PR R.
    destruct (inv_run ok_tx tx_class exec state_update diff_commitment valid_info key i batches c n es 0
                (task_new committed) s rs FB HH) as (IV & DN).
    - apply inv_new.
    - exists rest. exact PR.
    - exact R.
    - split.
      + destruct IV as (_ & _ & _ & I4). destruct (hget key (t_finalized s)) as [[b|h]|]; exact I4.
      + intros g I. rewrite Forall_forall in DN. exact (DN _ I g eq_refl).
  Qed.
End C41.
Print Assumptions C41_executed_as_proposed_partial.

(** The toy executor; every block info is valid; the commitment of a state update is
    itself. *)
Definition toy_run :=
  run (fun _ => true) toy_class toy_exec toy_update (fun x => x) (fun _ => true).

(** The parent (block 4) is decided between two batches, so that one batch is deferred
    and executed with the decision; the last transaction is rolled back. *)
Example C41_example :
  let i := mkInit 5 1 None 0 in
  let key := (5, 0) in
  let j := mkInit 4 2 None 0 in
  exists s,
    toy_run (task_new [(3, tt)])
      [EPart (4, 1) (Init j); EPart key (Init i); EPart (4, 1) (Batch [8]); EPart key (Batch [2; 4]);
       EPart (4, 1) (PFin 8 1); EDecided (4, 1); EPart key (Batch [6; 10]); EPart key (PFin 12 3)] =
    Some (s, [Nothing; Nothing; Nothing; Nothing; Done (4, 1) (mkOrigin 8 2 None); Nothing; Nothing;
              Done key (mkOrigin 12 1 None)]) /\
    exists b, hget key (t_finalized s) = Some (Executed b) /\ b_txs b = [2; 4; 6].
Proof. vm_compute. eexists. split; [reflexivity|]. eexists. split; reflexivity. Qed.

(** Finding: the same events, but block 4 is decided between the init and the first
    batch: the proposal is dropped. *)
Theorem C41_decided_after_init_refuted :
  exists s1 s2 rs1 rs2,
    let parent := [EPart (4, 1) (Init (mkInit 4 2 None 0)); EPart (4, 1) (Batch [8]); EPart (4, 1) (PFin 8 1)] in
    let i := EPart (5, 0) (Init (mkInit 5 1 None 0)) in
    let rest := [EPart (5, 0) (Batch [2; 4]); EPart (5, 0) (PFin 6 2)] in
    toy_run (task_new [(3, tt)]) (parent ++ [i] ++ rest ++ [EDecided (4, 1)]) = Some (s1, rs1) /\
    In (Done (5, 0) (mkOrigin 6 1 None)) rs1 /\
    toy_run (task_new [(3, tt)]) (parent ++ [i] ++ [EDecided (4, 1)] ++ rest) = Some (s2, rs2) /\
    hget (5, 0) (t_finalized s2) = None /\ ~ In (Done (5, 0) (mkOrigin 6 1 None)) rs2.
Proof.
  vm_compute. do 4 eexists. split; [reflexivity|]. split; [tauto|]. split; [reflexivity|]. split; [reflexivity|].
  intros I. repeat (destruct I as [I|I]; [discriminate|]). exact I.
Qed.
Print Assumptions C41_decided_after_init_refuted.

(** Finding: when two rounds are deferred, only the higher one is executed; the other
    is lost although all of it was received. *)
Theorem C41_lower_round_refuted :
  exists s rs,
    let prop r t := [EPart (5, r) (Init (mkInit 5 1 None 0)); EPart (5, r) (Batch [t]); EPart (5, r) (PFin t 1)] in
    toy_run (task_new []) (prop 0 2 ++ prop 1 4 ++ [EStored 4; EConfirmed 4]) = Some (s, rs) /\
    In (Done (5, 1) (mkOrigin 4 1 None)) rs /\
    hget (5, 0) (t_finalized s) = None /\ hget (5, 0) (t_deferred s) = None.
Proof. vm_compute. do 2 eexists. split; [reflexivity|]. split; [tauto|]. split; reflexivity. Qed.
Print Assumptions C41_lower_round_refuted.

(** Finding: transactions deferred for a proposal that was then refused (empty batch)
    are executed with the next proposal of the same height and round; without deferral
    they are not.  With them, the commitment of the correct proposal does not match and
    the task ends. *)
Theorem C41_purged_transactions_refuted :
  exists s rs,
    let i := EPart (5, 0) (Init (mkInit 5 1 None 0)) in
    let es := [i; EPart (5, 0) (Batch [2]); EPart (5, 0) (Batch []); i; EPart (5, 0) (Batch [4]); EPart (5, 0) (PFin 4 1)] in
    toy_run (task_new [(4, tt)]) es = Some (s, rs) /\ In (Done (5, 0) (mkOrigin 4 1 None)) rs /\
    toy_run (task_new []) (es ++ [EStored 4; EConfirmed 4]) = None.
Proof. vm_compute. do 2 eexists. split; [reflexivity|]. split; [tauto|]. reflexivity. Qed.
Print Assumptions C41_purged_transactions_refuted.

(** Finding: a batch after the commitment changes a deferred proposal; without deferral
    it does not. *)
Theorem C41_batch_after_commitment_refuted :
  exists s rs,
    let i := EPart (5, 0) (Init (mkInit 5 1 None 0)) in
    let es := [i; EPart (5, 0) (Batch [2]); EPart (5, 0) (PFin 2 7); EPart (5, 0) (Batch [4])] in
    toy_run (task_new [(4, tt)]) es = Some (s, rs) /\ In (Done (5, 0) (mkOrigin 2 1 None)) rs /\
    toy_run (task_new []) (es ++ [EStored 4; EConfirmed 4]) = None.
Proof. vm_compute. do 2 eexists. split; [reflexivity|]. split; [tauto|]. reflexivity. Qed.
Print Assumptions C41_batch_after_commitment_refuted.

(** Finding: a peer can end the task ([run] gives [None] on a fatal error): with an init
    for another height than that of its stream, with a stream above i64::MAX, or with a
    wrong commitment in a deferred proposal. *)
Theorem C41_task_survives_refuted :
  toy_run (task_new [(8, tt)])
    [EPart (5, 0) (Init (mkInit 9 1 None 0)); EPart (5, 0) (Batch [2]); EStored 4; EConfirmed 4] = None /\
  toy_run (task_new [(8, tt)])
    [EPart (9223372036854775809, 0) (Init (mkInit 9 1 None 0)); EPart (9223372036854775809, 0) (Batch [2])] = None /\
  toy_run (task_new [])
    [EPart (5, 0) (Init (mkInit 5 1 None 0)); EPart (5, 0) (Batch [2]); EPart (5, 0) (PFin 3 1); EStored 4; EConfirmed 4]
  = None.
Proof. vm_compute. auto. Qed.
Print Assumptions C41_task_survives_refuted.

(** Finding: one init for a far height makes the task drop the parts for the heights
    that are being agreed on. *)
Theorem C41_current_heights_heard_refuted :
  exists s rs,
    toy_run (task_new [(4, tt)]) [EPart (1000000, 0) (Init (mkInit 1000000 1 None 0))] = Some (s, rs) /\
    is_outdated 10 (Some 4) (task_new [(4, tt)]) 5 = false /\
    is_outdated 10 (Some 4) s 5 = true.
Proof. do 2 eexists. split; [vm_compute; reflexivity|]. split; vm_compute; reflexivity. Qed.
Print Assumptions C41_current_heights_heard_refuted.
