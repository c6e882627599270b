(** Model of starknet_subscribeTransactionStatus:
    /repo/crates/rpc/src/method/subscribe_transaction_status.rs:122-505, with the part of the
    sync consumer that commits and announces (/repo/crates/pathfinder/src/state/sync.rs:1043-1053,
    1516-1542).

    The subscription is a task that runs next to the consumer, the poller of pending data
    and the rest of the node, in any order: a transition system.

    Simplifications that hold for the whole file:
    - the client stays: a task whose client is gone is aborted (C69).
    - database errors and closed channels are [Stop], at any time.
    - transactions are their hashes (receipts: hash and execution status), hashes and texts
      are numbers.
    - the watch channel of pending data may wake the task at any time; if nothing is new this
      only reads the same data again. *)
From Coq Require Import List Bool Arith NArith.
Import ListNotations.

(** pathfinder_common::receipt::ExecutionStatus *)
Inductive exec : Type := Succeeded | Reverted (reason : N).

(** subscribe_transaction_status.rs:42-50 *)
Inductive finality : Type :=
| Received | Candidate | PreConfirmed | AcceptedOnL2 | AcceptedOnL1 | Rejected (reason : option N).

(** subscribe_transaction_status.rs:492-504 as_num *)
Definition as_num (f : finality) : nat :=
  match f with
  | Received => 0 | Candidate => 1 | PreConfirmed => 2
  | AcceptedOnL2 => 3 | AcceptedOnL1 => 4 | Rejected _ => 5
  end.

(** A block: its transactions' hashes and execution statuses. *)
Definition receipts := list (N * exec).

(** /repo/crates/rpc/src/pending.rs PendingData, as far as used: the pre-latest block with its
    number, the number of the pre-confirmed block, its candidates and its receipts. *)
Record pending_data : Type := mkPending {
  p_pre_latest : option (nat * receipts);
  p_number : nat;
  p_candidates : list N;
  p_receipts : receipts
}.

(** subscribe_transaction_status.rs:36-40 and the block number of the message: the
    subscription's notifications. *)
Inductive message : Type :=
| Status (block : nat) (f : finality) (e : option exec)
| ReorgSeen (block : nat).

(** What the consumer has committed and not yet announced. *)
Inductive notice : Type :=
| NewBlock (number : nat) (rs : receipts)
| NewReorg.

(** What the node holds, beside the subscription: the stored blocks by number, the notice to
    send, the block of the latest L1 state, the pending data, and the entry of the transaction in
    the tracker of submitted transactions (tracker.rs:37-40). *)
Record world : Type := mkWorld {
  w_chain : list receipts;
  w_todo : option notice;
  w_l1 : option nat;
  w_pending : pending_data;
  w_tracker : option nat
}.

(** Where the task is: about to read the database (135-165), about to read the pending data
    (387-394), about to subscribe to blocks (167) and to reorgs (168), at the head of the loop
    (177), in the select with no reorg found, handling a block and about to read the L1 state
    (296-304), returned. *)
Inductive phase : Type :=
| AtDb | AtPending | AtSubscribeBlocks | AtSubscribeReorgs | AtLoop | Polled | AtL1 | Returned.

(** subscribe_transaction_status.rs:452-458 Sender; the sent messages are in the state. *)
Record sender : Type := mkSender {
  last_finality : option finality;
  last_exec : option exec;
  last_block : nat
}.
(** 137-143: a new one in every round of the outer loop *)
Definition new_sender : sender := mkSender None None 0.

Record state : Type := mkState {
  s_world : world;
  s_phase : phase;
  s_sender : sender;
  s_blocks : list (nat * receipts);   (* l2_blocks, the receiver's queue *)
  s_reorgs : nat;                     (* reorgs: how many are queued *)
  s_sent : list message
}.

(** Who does the next step. *)
Inductive label : Type :=
| Commit (rs : receipts)        (* the consumer stores a block *)
| Reorg (n : nat)               (* the consumer removes the blocks from n on *)
| Announce                      (* the consumer sends the notice for what it committed *)
| L1Update (n : nat)            (* the consumer stores an L1 state *)
| NewPending (p : pending_data) (* the pending data change *)
| Track (t : option nat)        (* the transaction is submitted, or drops out of the tracker *)
| LagBlocks (k : nat)           (* the channel of blocks overflows *)
| LagReorgs (k : nat)
| ReadDb | ReadPending | SubscribeBlocks | SubscribeReorgs
| Tick (rejected : option (option N)) (* the gateway says that the transaction is rejected, or not *)
| TakeReorg | Poll | TakePending | TakeBlock | ReadL1
| Stop.

Section Task.
  (** params.transaction_hash *)
  Variable tx : N.

  (** the status of the transaction in receipts: 439-450 find_tx_receipt, 274-278 *)
  Fixpoint find_receipt (rs : receipts) : option exec :=
    match rs with
    | [] => None
    | (h, e) :: rs' => if (h =? tx)%N then Some e else find_receipt rs'
    end.

  (** transaction_with_receipt: the block and the status *)
  Fixpoint in_chain (chain : list receipts) : option (nat * exec) :=
    match chain with
    | [] => None
    | rs :: chain' =>
        match find_receipt rs with
        | Some e => Some (0, e)
        | None => match in_chain chain' with Some (n, e) => Some (S n, e) | None => None end
        end
    end.

  (** 397-437 pending_data_tx_status *)
  Definition pending_data_tx_status (p : pending_data) : option (nat * finality * option exec) :=
    let now :=
      if existsb (fun h => (h =? tx)%N) (p_candidates p) then Some (p_number p, Candidate, None)
      else match find_receipt (p_receipts p) with
           | Some e => Some (p_number p, PreConfirmed, Some e)
           | None => None
           end in
    match p_pre_latest p with
    | Some (n, rs) =>
        match find_receipt rs with
        | Some e => Some (n, PreConfirmed, Some e)
        | None => now
        end
    | None => now
    end.

  (** 461-489 send_and_update *)
  Definition send (s : state) (block : nat) (f : finality) (e : option exec) : state :=
    let progressed :=
      match last_finality (s_sender s) with
      | Some l => negb (as_num f <=? as_num l)
      | None => true
      end in
    if progressed then
      mkState (s_world s) (s_phase s) (mkSender (Some f) e block) (s_blocks s) (s_reorgs s)
              (s_sent s ++ [Status block f e])
    else s.
  Definition send_opt (s : state) (x : option (nat * finality * option exec)) : state :=
    match x with Some (n, f, e) => send s n f e | None => s end.

  Definition to (s : state) (p : phase) : state :=
    mkState (s_world s) p (s_sender s) (s_blocks s) (s_reorgs s) (s_sent s).
  Definition with_world (s : state) (w : world) : state :=
    mkState w (s_phase s) (s_sender s) (s_blocks s) (s_reorgs s) (s_sent s).
  Definition with_queues (s : state) (bs : list (nat * receipts)) (rs : nat) : state :=
    mkState (s_world s) (s_phase s) (s_sender s) bs rs (s_sent s).

  (** Whether the receivers exist. *)
  Definition has_blocks (p : phase) : bool :=
    match p with AtSubscribeReorgs | AtLoop | Polled | AtL1 => true | _ => false end.
  Definition has_reorgs (p : phase) : bool :=
    match p with AtLoop | Polled | AtL1 => true | _ => false end.

  (** 347-385 of current_known_tx_status: the status if the database has it *)
  Definition db_status (w : world) : option (nat * finality * option exec) :=
    match in_chain (w_chain w) with
    | None => None
    | Some (n, e) =>
        match w_l1 w with
        | Some l => if n <=? l then Some (l, AcceptedOnL1, Some e) else Some (n, AcceptedOnL2, Some e)
        | None => Some (n, AcceptedOnL2, Some e)
        end
    end.

  (** One step.  A step that is not possible changes nothing.  The consumer does one thing
      after another: it announces what it committed before it goes on. *)
  Definition step (s : state) (l : label) : state :=
    let w := s_world s in
    match l with
    | Commit rs =>
        match w_todo w with
        | None => with_world s (mkWorld (w_chain w ++ [rs]) (Some (NewBlock (length (w_chain w)) rs))
                                        (w_l1 w) (w_pending w) (w_tracker w))
        | Some _ => s
        end
    | Reorg n =>
        match w_todo w with
        | None => with_world s (mkWorld (firstn n (w_chain w)) (Some NewReorg)
                                        (w_l1 w) (w_pending w) (w_tracker w))
        | Some _ => s
        end
    | Announce =>
        (* sync.rs:1043-1053, 1516-1542 *)
        let s' := with_world s (mkWorld (w_chain w) None (w_l1 w) (w_pending w) (w_tracker w)) in
        match w_todo w with
        | None => s
        | Some (NewBlock n rs) =>
            if has_blocks (s_phase s) then with_queues s' (s_blocks s ++ [(n, rs)]) (s_reorgs s) else s'
        | Some NewReorg =>
            if has_reorgs (s_phase s) then with_queues s' (s_blocks s) (S (s_reorgs s)) else s'
        end
    | L1Update n =>
        with_world s (mkWorld (w_chain w) (w_todo w) (Some n) (w_pending w) (w_tracker w))
    | NewPending p =>
        with_world s (mkWorld (w_chain w) (w_todo w) (w_l1 w) p (w_tracker w))
    | Track t =>
        with_world s (mkWorld (w_chain w) (w_todo w) (w_l1 w) (w_pending w) t)
    | LagBlocks k => with_queues s (skipn k (s_blocks s)) (s_reorgs s)
    | LagReorgs k => with_queues s (s_blocks s) (s_reorgs s - k)
    | ReadDb =>
        match s_phase s with
        | AtDb =>
            match db_status w with
            | Some (n, f, e) => to (send s n f e) AtSubscribeBlocks
            | None => to s AtPending
            end
        | _ => s
        end
    | ReadPending =>
        (* 387-394; the tracker is read at the same moment *)
        match s_phase s with
        | AtPending =>
            to (send_opt s (match pending_data_tx_status (w_pending w) with
                            | Some x => Some x
                            | None => match w_tracker w with
                                      | Some n => Some (n, Received, None)
                                      | None => None
                                      end
                            end)) AtSubscribeBlocks
        | _ => s
        end
    | SubscribeBlocks =>
        match s_phase s with
        | AtSubscribeBlocks => with_queues (to s AtSubscribeReorgs) [] (s_reorgs s)
        | _ => s
        end
    | SubscribeReorgs =>
        match s_phase s with
        | AtSubscribeReorgs => with_queues (to s AtLoop) (s_blocks s) 0
        | _ => s
        end
    | Tick rejected =>
        (* 180-203; any other answer, or none, changes nothing *)
        match s_phase s, rejected with
        | AtLoop, Some reason => to (send s 0 (Rejected reason) None) Returned
        | _, _ => s
        end
    | TakeReorg =>
        (* 204-226: [continue 'reorg] *)
        match s_phase s, s_reorgs s with
        | AtLoop, S k =>
            mkState w AtDb new_sender [] 0 (s_sent s ++ [ReorgSeen (last_block (s_sender s))])
        | _, _ => s
        end
    | Poll =>
        (* biased: the later branches only if there is no reorg *)
        match s_phase s, s_reorgs s with
        | AtLoop, 0 => to s Polled
        | _, _ => s
        end
    | TakePending =>
        (* 227-249 *)
        match s_phase s with
        | Polled => to (send_opt s (pending_data_tx_status (w_pending w))) AtLoop
        | _ => s
        end
    | TakeBlock =>
        (* 250-294 *)
        match s_phase s, s_blocks s with
        | Polled, (n, rs) :: bs =>
            let s1 := match w_tracker w with Some m => send s m Received None | None => s end in
            let s2 := match find_receipt rs with
                      | Some e => send s1 n AcceptedOnL2 (Some e)
                      | None => s1
                      end in
            with_queues (to s2 AtL1) bs (s_reorgs s)
        | Polled, [] => to s AtLoop
        | _, _ => s
        end
    | ReadL1 =>
        (* 296-320 *)
        match s_phase s with
        | AtL1 =>
            to (match w_l1 w, last_exec (s_sender s) with
                | Some l, Some e =>
                    if last_block (s_sender s) <=? l then send s l AcceptedOnL1 (Some e) else s
                | _, _ => s
                end) AtLoop
        | _ => s
        end
    | Stop => to s Returned
    end.

  Definition run (s : state) (ls : list label) : state := fold_left step ls s.
End Task.

(** A new subscription on a node in any condition. *)
Definition start (w : world) : state := mkState w AtDb new_sender [] 0 [].
