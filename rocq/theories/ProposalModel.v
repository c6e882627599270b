(** Incoming consensus proposals: structural validation, execution, deferral and
    finalization.

    Modelled from
      crates/pathfinder/src/consensus/inner/proposal_validator.rs 14-170
      crates/pathfinder/src/consensus/inner/batch_execution.rs 60-310
      crates/pathfinder/src/consensus/inner/p2p_task.rs 244-333 (proposal events),
        384-425 (commit confirmation), 545-670 (decision), 750-935, 934-985, 1039-1347
      crates/validator/src/lib.rs 93-128, 146-267, 519-690, 761-870
      crates/executor/src/concurrent_block.rs 126-245

    A transaction, class, receipt body, event and state update is an opaque number.
    Running the transactions (blockifier) and checking block info against gas prices
    and the parent header are parameters; they are assumed not to depend on when they
    are called once the parent block is available.  Database errors, peer scores,
    gossip, our own proposals (CacheProposal) and the info watch are not modelled. *)
From Coq Require Import List Bool Arith NArith.
From Verif Require Import AList P2PStreamModel.
Import ListNotations.
Local Open Scope N_scope.

(** HeightAndRound *)
Notation hr := stream_id.
Notation hget := (al_get sid_eqb).
Notation hset := (al_set sid_eqb).
Notation hremove := (al_remove sid_eqb).

(** ProposalInit, the fields the code looks at; [i_data] stands for the rest. *)
Record init := mkInit { i_height : N; i_proposer : N; i_valid_round : option N; i_data : N }.

(** ProposalPart; ProposalFin without fin_payload (unused). *)
Inductive part :=
| Init (i : init)
| Batch (txs : list N)
| PFin (commitment count : N).

(* ---------------------------------------------------------------- *)
(** proposal_validator.rs *)

(** ProposalPartsValidator, proposal_validator.rs:14-22 *)
Record pv := mkPv {
  pv_parts : list part;
  pv_has_init : bool;
  pv_has_fin : bool;
  pv_batches : N;
  pv_proposer : option N;
  pv_valid_round : option N
}.

(** new, proposal_validator.rs:36-46 *)
Definition pv_new : pv := mkPv [] false false 0 None None.

(** ValidationResult, proposal_validator.rs:25-33 *)
Inductive verdict := Accepted | EmptyProposal | NonEmptyProposal.

(** accept_part and its three parts, proposal_validator.rs:49-60, 79-170; [None] is
    the Recoverable error, which leaves the validator as it was. *)
Definition accept_part (v : pv) (p : part) : option (pv * verdict) :=
  match p with
  | Init i =>
      match pv_parts v with
      | [] => Some (mkPv [p] true (pv_has_fin v) (pv_batches v) (Some (i_proposer i)) (i_valid_round i),
                    Accepted)
      | _ => None
      end
  | Batch txs =>
      match pv_parts v with
      | [] => None
      | _ =>
          match txs with
          | [] => None
          | _ => Some (mkPv (pv_parts v ++ [p]) (pv_has_init v) (pv_has_fin v) (pv_batches v + 1)
                            (pv_proposer v) (pv_valid_round v), Accepted)
          end
      end
  | PFin _ _ =>
      let v' := mkPv (pv_parts v ++ [p]) (pv_has_init v) true (pv_batches v)
                     (pv_proposer v) (pv_valid_round v) in
      if pv_has_fin v then None
      else if (Nat.eqb (length (pv_parts v)) 1 && pv_has_init v)%bool then Some (v', EmptyProposal)
      else if (Nat.leb 2 (length (pv_parts v)) && pv_has_init v)%bool then Some (v', NonEmptyProposal)
      else None
  end.

(* ---------------------------------------------------------------- *)
(** validator/src/lib.rs, the transaction batch stage *)

(** What running one transaction gives: receipt body, reverted flag, events. *)
Record output := mkOutput { o_body : N; o_reverted : bool; o_events : list N }.

(** Receipt, with its index (lib.rs:616-631). *)
Record receipt := mkReceipt { r_tx : N; r_body : N; r_reverted : bool; r_index : N }.

Section Validator.
  (** try_map_transaction succeeds and verify_hash holds (lib.rs:541-580) *)
  Variable ok_tx : N -> bool.
  (** the class a declare transaction brings (MappedTransaction::class_definition) *)
  Variable tx_class : N -> option N.
  (** running a transaction after the given ones on the parent state, for a block
      with the given info; [None] is a TransactionExecutionError *)
  Variable exec : init -> list N -> N -> option output.
  (** the state update of the given transactions (close_block), and its commitment *)
  Variable state_update : init -> list N -> N.
  Variable diff_commitment : N -> N.
  (** validate_block_info (lib.rs:171-267) succeeds *)
  Variable valid_info : init -> bool.

  (** ValidatorTransactionBatchStage, lib.rs:497-517.  [vs_executor] is the list of
      transactions run by the concurrent executor, which is created with the first
      batch. *)
  Record vstage := mkVs {
    vs_init : init;
    vs_txs : list N;
    vs_receipts : list receipt;
    vs_events : list (list N);
    vs_executor : option (list N);
    vs_declared : list N
  }.

  (** end of validate_block_info, lib.rs:255-266 *)
  Definition vs_new (i : init) : vstage := mkVs i [] [] [] None [].

  (** ConcurrentBlockExecutor::execute, concurrent_block.rs:130-195 *)
  Fixpoint run_txs (i : init) (log txs : list N) : option (list output) :=
    match txs with
    | [] => Some []
    | t :: txs' =>
        match exec i log t with
        | None => None
        | Some o =>
            match run_txs i (log ++ [t]) txs' with
            | None => None
            | Some os => Some (o :: os)
            end
        end
    end.

  (** the receipts of a batch, lib.rs:613-631 *)
  Fixpoint make_receipts (index : N) (txs : list N) (os : list output) : list receipt :=
    match txs, os with
    | t :: txs', o :: os' =>
        mkReceipt t (o_body o) (o_reverted o) index :: make_receipts (index + 1) txs' os'
    | _, _ => []
    end.

  (** the classes declared by a batch, lib.rs:639-648 *)
  Fixpoint new_classes (rs : list receipt) (txs : list N) : list N :=
    match rs, txs with
    | r :: rs', t :: txs' =>
        match tx_class t with
        | Some c => if r_reverted r then new_classes rs' txs' else c :: new_classes rs' txs'
        | None => new_classes rs' txs'
        end
    | _, _ => []
    end.

  (** execute_batch, lib.rs:524-659; [None] is a Recoverable error, after which the
      callers drop the stage *)
  Definition execute_batch (v : vstage) (txs : list N) : option vstage :=
    match txs with
    | [] => Some v
    | _ =>
        if forallb ok_tx txs then
          let log := match vs_executor v with Some l => l | None => [] end in
          match run_txs (vs_init v) log txs with
          | None => None
          | Some os =>
              let rs := make_receipts (N.of_nat (length (vs_txs v))) txs os in
              Some (mkVs (vs_init v) (vs_txs v ++ txs) (vs_receipts v ++ rs)
                         (vs_events v ++ map o_events os) (Some (log ++ txs))
                         (vs_declared v ++ new_classes rs txs))
          end
        else None
    end.

  (** rollback_to_transaction, lib.rs:665-693 *)
  Definition rollback_to (v : vstage) (target : N) : option vstage :=
    let n := N.to_nat target in
    let current := length (vs_txs v) in
    if Nat.ltb current n then None
    else if Nat.eqb n current then Some v
    else Some (mkVs (vs_init v) (firstn n (vs_txs v)) (firstn n (vs_receipts v))
                    (firstn n (vs_events v)) (vs_executor v) (vs_declared v)).

  (** ConsensusFinalizedL2Block, lib.rs:863-869, with the parts of the header that
      are not computed from the other fields *)
  Record block := mkBlock {
    b_init : init;
    b_txs : list N;
    b_receipts : list receipt;
    b_events : list (list N);
    b_update : N;
    b_declared : list N
  }.

  (** consensus_finalize0, lib.rs:790-870; [None] is the missing executor *)
  Definition finalize0 (v : vstage) : option block :=
    let n := length (vs_txs v) in
    match vs_executor v with
    | None =>
        match vs_txs v with
        | [] => Some (mkBlock (vs_init v) [] [] (vs_events v) (state_update (vs_init v) []) (vs_declared v))
        | _ => None
        end
    | Some log =>
        let paired := combine (vs_txs v) (vs_receipts v) in
        Some (mkBlock (vs_init v) (map fst paired) (map snd paired) (vs_events v)
                      (state_update (vs_init v) (firstn n log)) (vs_declared v))
    end.

  (** consensus_finalize, lib.rs:761-785 (without the test-only bypass) *)
  Definition finalize (v : vstage) (expected : N) : option block :=
    match finalize0 v with
    | Some b => if diff_commitment (b_update b) =? expected then Some b else None
    | None => None
    end.

  (* ---------------------------------------------------------------- *)
  (** The task state *)

  (** ValidatorStage, lib.rs:900-903 *)
  Inductive stage := SInfo (i : init) | SBatch (v : vstage).

  (** ProposalCommitmentWithOrigin, batch_execution.rs:301-307 *)
  Record origin := mkOrigin { g_commitment : N; g_proposer : N; g_pol_round : option N }.

  (** DeferredExecution, batch_execution.rs:292-298 *)
  Record deferred := mkDeferred {
    d_txs : list N; d_commitment : option origin; d_count : option N }.
  Definition no_deferred : deferred := mkDeferred [] None None.

  (** a finalized block: executed, or create_empty_block(height) *)
  Inductive final := Executed (b : block) | Empty (height : N).

  Record task := mkTask {
    t_incoming : list (hr * pv);
    t_cache : list (hr * stage);
    t_deferred : list (hr * deferred);
    t_executing : list (hr * unit);
    t_finalized : list (hr * final);
    t_decided : list (N * unit);
    (* blocks in the main database *)
    t_committed : list (N * unit)
  }.

  Definition task_new (committed : list (N * unit)) : task := mkTask [] [] [] [] [] [] committed.

  (** record updates *)
  Definition set_incoming (s : task) x :=
    mkTask x (t_cache s) (t_deferred s) (t_executing s) (t_finalized s) (t_decided s) (t_committed s).
  Definition set_cache (s : task) x :=
    mkTask (t_incoming s) x (t_deferred s) (t_executing s) (t_finalized s) (t_decided s) (t_committed s).
  Definition set_deferred (s : task) x :=
    mkTask (t_incoming s) (t_cache s) x (t_executing s) (t_finalized s) (t_decided s) (t_committed s).
  Definition set_executing (s : task) x :=
    mkTask (t_incoming s) (t_cache s) (t_deferred s) x (t_finalized s) (t_decided s) (t_committed s).
  Definition set_finalized (s : task) x :=
    mkTask (t_incoming s) (t_cache s) (t_deferred s) (t_executing s) x (t_decided s) (t_committed s).
  Definition set_decided (s : task) x :=
    mkTask (t_incoming s) (t_cache s) (t_deferred s) (t_executing s) (t_finalized s) x (t_committed s).
  Definition set_committed (s : task) x :=
    mkTask (t_incoming s) (t_cache s) (t_deferred s) (t_executing s) (t_finalized s) (t_decided s) x.

  Definition I64_MAX : N := 9223372036854775807.

  (** should_defer_validation, lib.rs:93-128; [None] is the Fatal error for a
      parent height above i64::MAX *)
  Definition should_defer (s : task) (height : N) : option bool :=
    if height =? 0 then Some false
    else
      let parent := height - 1 in
      if I64_MAX <? parent then None
      else Some (negb (al_mem N.eqb parent (t_decided s) || al_mem N.eqb parent (t_committed s))).

  (** How a call ends. *)
  Inductive ending :=
  | Nothing                              (* Ok(None) *)
  | Done (key : hr) (c : origin)         (* a complete, executed proposal is reported *)
  | Recoverable                          (* logged, the proposal is purged *)
  | Fatal.                               (* the task ends *)

  (** process_executed_transaction_count, batch_execution.rs:227-280; [None] is any
      error (not executing, or rollback) *)
  Definition process_count (s : task) (key : hr) (count : N) (v : vstage) : option vstage :=
    if al_mem sid_eqb key (t_executing s) then
      if count <? N.of_nat (length (vs_txs v)) then rollback_to v count else Some v
    else None.

  (** BatchExecutionManager::execute_batch, batch_execution.rs:190-220 *)
  Definition manager_execute (s : task) (key : hr) (txs : list N) (v : vstage)
    : task * option vstage :=
    (set_executing s (hset key tt (t_executing s)), execute_batch v txs).

  Definition to_batch_stage (st : stage) : option vstage :=
    match st with
    | SBatch v => Some v
    | SInfo i => if valid_info i then Some (vs_new i) else None
    end.

  (** process_batch_with_deferral, batch_execution.rs:72-182, with the removal from
      and insertion into the validator cache of its caller, p2p_task.rs:1109-1128 *)
  Definition handle_batch (s : task) (key : hr) (txs : list N) : task * ending :=
    match hget key (t_cache s) with
    | None => (s, Recoverable)
    | Some st =>
        let s := set_cache s (hremove key (t_cache s)) in
        match should_defer s (fst key) with
        | None => (s, Fatal)
        | Some true =>
            let d := match hget key (t_deferred s) with Some d => d | None => no_deferred end in
            let d' := mkDeferred (d_txs d ++ txs) (d_commitment d) (d_count d) in
            (set_cache (set_deferred s (hset key d' (t_deferred s))) (hset key st (t_cache s)), Nothing)
        | Some false =>
            let dd := hget key (t_deferred s) in
            let s := set_deferred s (hremove key (t_deferred s)) in
            let txs := match dd with Some d => d_txs d ++ txs | None => txs end in
            let count := match dd with Some d => d_count d | None => None end in
            let ov := match dd with
                      | Some _ => to_batch_stage st
                      | None => match st with SBatch v => Some v | SInfo _ => None end
                      end in
            match ov with
            | None => (s, Recoverable)
            | Some v =>
                match execute_batch v txs with
                | None => (s, Recoverable)
                | Some v =>
                    let s := set_executing s (hset key tt (t_executing s)) in
                    let ov := match count with Some c => process_count s key c v | None => Some v end in
                    match ov with
                    | None => (s, Fatal)
                    | Some v => (set_cache s (hset key (SBatch v) (t_cache s)), Nothing)
                    end
                end
            end
        end
    end.

  (** defer_or_execute_proposal_fin, p2p_task.rs:1211-1350; its caller makes every
      error recoverable (1203-1205) *)
  Definition handle_fin (s : task) (key : hr) (c : origin) (count : N) : task * ending :=
    match should_defer s (fst key) with
    | None => (s, Recoverable)
    | Some true =>
        let d := match hget key (t_deferred s) with Some d => d | None => no_deferred end in
        (set_deferred s (hset key (mkDeferred (d_txs d) (Some c) (Some count)) (t_deferred s)), Nothing)
    | Some false =>
        let dd := hget key (t_deferred s) in
        let s := set_deferred s (hremove key (t_deferred s)) in
        match hget key (t_cache s) with
        | None => (s, Recoverable)
        | Some st =>
            let s := set_cache s (hremove key (t_cache s)) in
            match dd with
            | Some d =>
                match to_batch_stage st with
                | None => (s, Recoverable)
                | Some v =>
                    let '(s, ov) := match d_txs d with
                                    | [] => (s, Some v)
                                    | _ => manager_execute s key (d_txs d) v
                                    end in
                    match ov with
                    | None => (s, Recoverable)
                    | Some v =>
                        match process_count s key count v with
                        | None => (s, Recoverable)
                        | Some v =>
                            let c := match d_commitment d with Some c' => c' | None => c end in
                            match finalize v (g_commitment c) with
                            | None => (s, Recoverable)
                            | Some b => (set_finalized s (hset key (Executed b) (t_finalized s)), Done key c)
                            end
                        end
                    end
                end
            | None =>
                match st with
                | SInfo _ => (s, Recoverable)
                | SBatch v =>
                    match process_count s key count v with
                    | None => (s, Recoverable)
                    | Some v =>
                        match finalize v (g_commitment c) with
                        | None => (s, Recoverable)
                        | Some b => (set_finalized s (hset key (Executed b) (t_finalized s)), Done key c)
                        end
                    end
                end
            end
        end
    end.

  (** the Init arm of handle_incoming_proposal_part, p2p_task.rs:1071-1108 *)
  Definition handle_init (s : task) (key : hr) (i : init) : task * ending :=
    if I64_MAX <? i_height i then (s, Recoverable)
    else
      match should_defer s (i_height i) with
      | None => (s, Fatal)
      | Some true => (set_cache s (hset key (SInfo i) (t_cache s)), Nothing)
      | Some false =>
          if valid_info i then (set_cache s (hset key (SBatch (vs_new i)) (t_cache s)), Nothing)
          else (s, Recoverable)
      end.

  (** handle_incoming_proposal_part, p2p_task.rs:1039-1208 *)
  Definition handle_part (s : task) (key : hr) (p : part) : task * ending :=
    let v := match hget key (t_incoming s) with Some v => v | None => pv_new end in
    match accept_part v p with
    | None => (set_incoming s (hset key v (t_incoming s)), Recoverable)
    | Some (v', r) =>
        let s := set_incoming s (hset key v' (t_incoming s)) in
        match p with
        | Init i => handle_init s key i
        | Batch txs => handle_batch s key txs
        | PFin commitment count =>
            match pv_proposer v' with
            | None => (s, Fatal)
            | Some proposer =>
                let c := mkOrigin commitment proposer (pv_valid_round v') in
                match r with
                | EmptyProposal =>
                    (set_finalized s (hset key (Empty (fst key)) (t_finalized s)), Done key c)
                | _ => handle_fin s key c count
                end
            end
        end
    end.

  (** the key with the largest round, of a non-empty list of keys of one height *)
  Fixpoint last_round (ks : list hr) : option hr :=
    match ks with
    | [] => None
    | k :: ks' =>
        match last_round ks' with
        | Some k' => if snd k <? snd k' then Some k' else Some k
        | None => Some k
        end
    end.

  (** execute_deferred_for_next_height, p2p_task.rs:828-932; every error ends the
      task (on_finalized_block_decided, 771-803, and the ? of its callers) *)
  Definition exec_deferred (s : task) (height : N) : task * ending :=
    let mine := filter (fun k => fst k =? height + 1) (map fst (t_deferred s)) in
    let s' := set_deferred s (al_retain (fun k => negb (fst k =? height + 1)) (t_deferred s)) in
    match last_round mine with
    | None => (s', Nothing)
    | Some key =>
        let d := match hget key (t_deferred s) with Some d => d | None => no_deferred end in
        let s := s' in
        match hget key (t_cache s) with
        | Some (SInfo i) =>
            let s := set_cache s (hremove key (t_cache s)) in
            if valid_info i then
              let v := vs_new i in
              let '(s, ov) := match d_txs d with
                              | [] => (s, Some v)
                              | _ => manager_execute s key (d_txs d) v
                              end in
              match ov with
              | None => (s, Fatal)
              | Some v =>
                  let ov := match d_count d with Some c => process_count s key c v | None => Some v end in
                  match ov with
                  | None => (s, Fatal)
                  | Some v =>
                      match d_commitment d with
                      | Some c =>
                          match finalize v (g_commitment c) with
                          | None => (s, Fatal)
                          | Some b => (set_finalized s (hset key (Executed b) (t_finalized s)), Done key c)
                          end
                      | None => (set_cache s (hset key (SBatch v) (t_cache s)), Nothing)
                      end
                  end
              end
            else (s, Fatal)
        | _ => (s, Fatal)
        end
    end.

  (** What reaches the task.  EStored: the sync task commits a block to the main
      database (which the task observes before the confirmation reaches it). *)
  Inductive event :=
  | EPart (key : hr) (p : part)
  | EDecided (key : hr)
  | EStored (height : N)
  | EConfirmed (height : N).

  (** MarkBlockAsDecidedAndCleanUp, p2p_task.rs:545-670 *)
  Definition handle_decided (s : task) (key : hr) : task * ending :=
    let h := fst key in
    let present := al_mem sid_eqb key (t_finalized s) in
    if I64_MAX <? h then (s, Fatal)
    else
      let s := if present then set_decided s (al_set N.eqb h tt (t_decided s)) else s in
      let keep := fun k : hr => negb (fst k =? h) in
      let s := set_finalized s (al_retain keep (t_finalized s)) in
      let s := set_executing s (hremove key (t_executing s)) in
      let s := set_incoming s (al_retain keep (t_incoming s)) in
      let committed := al_mem N.eqb h (t_committed s) in
      let '(s, e) := if present || committed then exec_deferred s h else (s, Nothing) in
      (if committed then set_decided s (al_remove N.eqb h (t_decided s)) else s, e).

  (** One event.  p2p_task.rs:306-318 purges a proposal after a recoverable error.
      The sync task confirms only blocks it has committed, so a confirmation of
      another block does not happen: no effect. *)
  Definition step (s : task) (e : event) : task * ending :=
    match e with
    | EPart key p =>
        match handle_part s key p with
        | (s', Recoverable) => (set_incoming s' (hremove key (t_incoming s')), Recoverable)
        | r => r
        end
    | EDecided key => handle_decided s key
    | EStored h => (set_committed s (al_set N.eqb h tt (t_committed s)), Nothing)
    | EConfirmed h =>
        if al_mem N.eqb h (t_committed s) then
          exec_deferred (set_decided s (al_remove N.eqb h (t_decided s))) h
        else (s, Nothing)
    end.

  (** A run; it stops at a fatal error ([None]). *)
  Fixpoint run (s : task) (es : list event) : option (task * list ending) :=
    match es with
    | [] => Some (s, [])
    | e :: es' =>
        match step s e with
        | (_, Fatal) => None
        | (s', r) =>
            match run s' es' with
            | Some (s'', rs) => Some (s'', r :: rs)
            | None => None
            end
        end
    end.

  (** is_outdated_p2p_event, p2p_task.rs:934-985: the events the task drops before
      [step]; [latest] is the latest committed block *)
  Definition is_outdated (history_depth : N) (latest : option N) (s : task) (height : N) : bool :=
    match t_incoming s with
    | [] => match latest with Some l => height <? l - history_depth | None => false end
    | _ => height <? fold_right N.max 0 (map (fun kv => fst (fst kv)) (t_incoming s)) - history_depth
    end.
End Validator.
