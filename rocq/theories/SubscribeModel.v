(* Websocket subscriptions: the flow common to all of them
   (crates/rpc/src/jsonrpc/router/subscription.rs), block header subscriptions
   (crates/rpc/src/method/subscribe_new_heads.rs) and event subscriptions
   (crates/rpc/src/method/subscribe_events.rs), together with the part of the sync consumer
   that commits blocks and announces them (crates/pathfinder/src/state/sync.rs:1043-1053, 1516-1542).

   A subscription is a transition system: the consumer, the task that receives live
   notifications and the task that sends to the client take their steps in any order.

   Left out: reorgs, and with them the reorg notifications; JSON; that a batch is not sent at
   once.  The channel between the two tasks has no bound (1024 in the code, subscription.rs:296):
   a full channel only delays the sender, and delays are possible at every step here.  The
   broadcast channel (1024, crates/rpc/src/jsonrpc.rs:62) may overflow at any time, see Lag.
   Block numbers are unbounded. *)
From Coq Require Import List NArith PeanoNat Bool.
From Verif Require Import BloomModel EventModel GetEventsModel.
Import ListNotations.
Local Open Scope nat_scope.

(* SubscriptionMessage, subscription.rs:160-170: block number and notification *)
Definition message (note : Type) : Type := (nat * note)%type.

(* RpcSubscriptionFlow, subscription.rs:99-138, for an endpoint with given parameters.  block is
   what is stored and announced, pending the pending data, memory what the subscribe task
   remembers.  f_catch_up reads the stored blocks, of which those below the second argument
   are pruned: the messages and last_block, or None for an error. *)
Record flow (block pending memory note : Type) := mkFlow {
  f_batch : nat;
  f_catch_up : list block -> nat -> nat -> nat -> option (list (message note) * option nat);
  f_start : memory;
  f_on_block : memory -> nat -> block -> memory * list (message note);
  f_on_pending : memory -> pending -> memory * list (message note)
}.
Arguments mkFlow {block pending memory note}.
Arguments f_batch {block pending memory note}.
Arguments f_catch_up {block pending memory note}.
Arguments f_start {block pending memory note}.
Arguments f_on_block {block pending memory note}.
Arguments f_on_pending {block pending memory note}.

(* The task running RpcSubscriptionFlow::subscribe: not spawned, spawned but not yet subscribed
   to the broadcast channels, running (with the index of the next announcement to receive), or
   returned. *)
Inductive task (memory : Type) := NotSpawned | Spawned | Running (m : memory) (next : nat) | Returned.
Arguments NotSpawned {memory}. Arguments Spawned {memory}. Arguments Running {memory}. Arguments Returned {memory}.

(* Where RpcSubscriptionEndpoint::invoke is: catching up in batches (subscription.rs:252-293), about
   to spawn the task (296-309), waiting for its first message (310-316), about to catch up to it
   (322-352), forwarding (354-376), done. *)
Inductive phase (note : Type) :=
| CatchingUp (current_block : nat)
| Subscribing (current_block : nat)
| AwaitingFirst (current_block : nat)
| CatchingUpToFirst (current_block : nat) (first : message note)
| Forwarding
| Closed.
Arguments CatchingUp {note}. Arguments Subscribing {note}. Arguments AwaitingFirst {note}.
Arguments CatchingUpToFirst {note}. Arguments Forwarding {note}. Arguments Closed {note}.

Record sub (block memory note : Type) := mkSub {
  s_chain : list block;            (* committed blocks, by number *)
  s_earliest : nat;                (* the first block that is not pruned *)
  s_announced : nat;               (* how many blocks have been announced *)
  s_task : task memory;
  s_queue : list (message note);   (* tx1/rx1, subscription.rs:296 *)
  s_phase : phase note;
  s_sent : list (message note)     (* what was sent to the client *)
}.
Arguments mkSub {block memory note}.
Arguments s_chain {block memory note}. Arguments s_earliest {block memory note}. Arguments s_announced {block memory note}.
Arguments s_task {block memory note}. Arguments s_queue {block memory note}. Arguments s_phase {block memory note}.
Arguments s_sent {block memory note}.

(* Who does the next step. *)
Inductive label (block pending : Type) :=
| Commit (b : block)      (* the consumer commits a block *)
| Announce                (* the consumer sends the notification for the block it committed *)
| Prune (n : nat)         (* the consumer prunes the blocks below n *)
| CatchUpBatch            (* one iteration of the catch-up loop *)
| Spawn                   (* spawn the subscribe task *)
| TaskSubscribe           (* the task subscribes to the broadcast channels *)
| TaskBlock               (* the task receives an announced block *)
| TaskPending (p : pending)  (* the task sees new pending data *)
| Lag                     (* the task missed an announcement, and returns *)
| FirstMessage            (* receive the first message *)
| CatchUpToFirst          (* catch up to it, and send it *)
| Forward                 (* forward a message *)
| Disconnect.             (* the client is gone *)
Arguments Commit {block pending}. Arguments Announce {block pending}. Arguments Prune {block pending}.
Arguments CatchUpBatch {block pending}. Arguments Spawn {block pending}. Arguments TaskSubscribe {block pending}.
Arguments TaskBlock {block pending}. Arguments TaskPending {block pending}. Arguments Lag {block pending}.
Arguments FirstMessage {block pending}. Arguments CatchUpToFirst {block pending}. Arguments Forward {block pending}.
Arguments Disconnect {block pending}.

Section Flow.
  Context {block pending memory note : Type}.
  Variable F : flow block pending memory note.

  Definition set_phase (s : sub block memory note) (p : phase note) :=
    mkSub (s_chain s) (s_earliest s) (s_announced s) (s_task s) (s_queue s) p (s_sent s).
  Definition send (s : sub block memory note) (ms : list (message note)) :=
    mkSub (s_chain s) (s_earliest s) (s_announced s) (s_task s) (s_queue s) (s_phase s) (s_sent s ++ ms).
  Definition set_task (s : sub block memory note) (t : task memory) (new : list (message note)) :=
    mkSub (s_chain s) (s_earliest s) (s_announced s) t (s_queue s ++ new) (s_phase s) (s_sent s).
  Definition set_queue (s : sub block memory note) (q : list (message note)) :=
    mkSub (s_chain s) (s_earliest s) (s_announced s) (s_task s) q (s_phase s) (s_sent s).

  (* subscription.rs:255-292 *)
  Definition catch_up_batch (s : sub block memory note) (current_block : nat) : sub block memory note :=
    let last := current_block + f_batch F - 1 in
    match f_catch_up F (s_chain s) (s_earliest s) current_block last with
    | None => set_phase s Closed
    | Some (messages, None) => set_phase s (Subscribing current_block)
    | Some (messages, Some last_block) =>
        let s := send s messages in
        if last_block <? last then set_phase s (Subscribing (last_block + 1))
        else set_phase s (CatchingUp (last_block + 1))
    end.

  (* subscription.rs:322-363 *)
  Definition catch_up_to_first (s : sub block memory note) (current_block : nat) (first : message note) : sub block memory note :=
    match fst first with
    | S last =>
        if current_block <=? last then
          match f_catch_up F (s_chain s) (s_earliest s) current_block last with
          | None => set_phase s Closed
          | Some (messages, _) => set_phase (send (send s messages) [first]) Forwarding
          end
        else set_phase (send s [first]) Forwarding
    | O => set_phase (send s [first]) Forwarding
    end.

  (* One step.  A step that is not possible changes nothing.  The consumer does one thing after
     another: it commits, then announces, then goes on with the next block. *)
  Definition step (s : sub block memory note) (l : label block pending) : sub block memory note :=
    match l with
    | Commit b =>
        if s_announced s =? length (s_chain s)
        then mkSub (s_chain s ++ [b]) (s_earliest s) (s_announced s) (s_task s) (s_queue s) (s_phase s) (s_sent s)
        else s
    | Announce =>
        if s_announced s <? length (s_chain s)
        then mkSub (s_chain s) (s_earliest s) (s_announced s + 1) (s_task s) (s_queue s) (s_phase s) (s_sent s)
        else s
    | Prune n =>
        if (s_earliest s <? n) && (n <? length (s_chain s))
        then mkSub (s_chain s) n (s_announced s) (s_task s) (s_queue s) (s_phase s) (s_sent s)
        else s
    | CatchUpBatch => match s_phase s with CatchingUp current_block => catch_up_batch s current_block | _ => s end
    | Spawn =>
        match s_phase s with
        | Subscribing current_block => set_phase (set_task s Spawned []) (AwaitingFirst current_block)
        | _ => s
        end
    (* broadcast::Sender::subscribe: only later announcements are received *)
    | TaskSubscribe => match s_task s with Spawned => set_task s (Running (f_start F) (s_announced s)) [] | _ => s end
    | TaskBlock =>
        match s_task s with
        | Running m next =>
            if next <? s_announced s then
              match nth_error (s_chain s) next with
              | Some b => let (m, new) := f_on_block F m next b in set_task s (Running m (next + 1)) new
              | None => s
              end
            else s
        | _ => s
        end
    | TaskPending p =>
        match s_task s with
        | Running m next => let (m, new) := f_on_pending F m p in set_task s (Running m next) new
        | _ => s
        end
    | Lag => match s_task s with Running _ _ => set_task s Returned [] | _ => s end
    | FirstMessage =>
        match s_phase s with
        | AwaitingFirst current_block =>
            match s_queue s with
            | m :: q => set_phase (set_queue s q) (CatchingUpToFirst current_block m)
            | [] => match s_task s with Returned => set_phase s Closed | _ => s end
            end
        | _ => s
        end
    | CatchUpToFirst =>
        match s_phase s with
        | CatchingUpToFirst current_block first => catch_up_to_first s current_block first
        | _ => s
        end
    | Forward =>
        match s_phase s with
        | Forwarding =>
            match s_queue s with
            | m :: q => send (set_queue s q) [m]
            | [] => match s_task s with Returned => set_phase s Closed | _ => s end
            end
        | _ => s
        end
    | Disconnect => set_phase s Closed
    end.
  Definition run (s : sub block memory note) (ls : list (label block pending)) : sub block memory note := fold_left step ls s.

  (* A subscription from block start on, subscription.rs:241-252 *)
  Definition subscribed (chain : list block) (announced start : nat) : sub block memory note :=
    mkSub chain 0 announced NotSpawned [] (CatchingUp start) [].
End Flow.

(* The starting block, subscription.rs:196-241: None is an error.  requested is None for the
   latest block; a hash is looked up like a number.  limit is max_history. *)
Definition starting_block {block} (pruning : bool) (earliest : nat) (chain : list block) (limit : option nat)
    (requested : option nat) : option nat :=
  let requested := match requested with
                   | Some n => Some (if pruning then Nat.max earliest n else n)
                   | None => None
                   end in
  let found := match requested with
               | None => if is_nil chain then None else Some (length chain - 1)
               | Some n => if (earliest <=? n) && (n <? length chain) then Some n else None
               end in
  match found with
  | None => None
  | Some n =>
      match limit with
      | Some limit => if limit <? length chain - n then None else Some n
      | None => Some n
      end
  end.

(* ---- block headers ---- *)

(* Transaction::block_range, crates/storage/src/connection/block.rs:373-391 *)
Definition block_range {block} (chain : list block) (earliest from to : nat) : list (nat * block) :=
  List.filter (fun nb => (earliest <=? fst nb) && (from <=? fst nb) && (fst nb <=? to))
    (combine (seq 0 (length chain)) chain).

(* SubscribeNewHeads, subscribe_new_heads.rs:50-152; a block stands for its header, and pending data is not used. *)
Definition new_heads (block : Type) : flow block unit unit block :=
  mkFlow 64
    (fun chain earliest from to =>
       let messages := block_range chain earliest from to in
       Some (messages, match rev messages with [] => None | m :: _ => Some (fst m) end))
    tt
    (fun m n b => (m, [(n, b)]))
    (fun m _ => (m, [])).

(* ---- events ---- *)

(* TxnFinalityStatus, crates/rpc/src/dto *)
Inductive finality := AtPreConfirmed | AcceptedOnL2 | AcceptedOnL1.
Definition finality_eqb (a b : finality) : bool :=
  match a, b with AtPreConfirmed, AtPreConfirmed | AcceptedOnL2, AcceptedOnL2 | AcceptedOnL1, AcceptedOnL1 => true | _, _ => false end.

(* Params, subscribe_events.rs:21-27, without the starting block; addresses are a set in the code *)
Record params := mkParams { from_addresses : list N; p_keys : option (list (list N)); pre_confirmed_too : bool }.

(* EventWithFinality, subscribe_events.rs:92-96 *)
Definition notification : Type := (answer * finality)%type.

(* Params::matches, subscribe_events.rs:30-50 *)
Definition matches (p : params) (e : event) : bool :=
  if negb (is_nil (from_addresses p)) && negb (felt_mem (ev_from e) (from_addresses p)) then false
  else match p_keys p with
       | Some keys =>
           if forallb is_nil keys then true
           else if length (ev_keys e) <? length keys then false
           else forallb (fun kf => is_nil (snd kf) || felt_mem (fst kf) (snd kf)) (combine (ev_keys e) keys)
       | None => true
       end.

(* The truncation at the start of subscribe, subscribe_events.rs:255-260 *)
Definition truncate_params (p : params) : params :=
  mkParams (from_addresses p) (match p_keys p with Some keys => Some (truncate_keys keys) | None => None end) (pre_confirmed_too p).

(* sent_updates_per_block, subscribe_events.rs:267-270 *)
Definition updates : Type := list (N * finality).
Definition memory : Type := list (nat * updates).
Definition sent_before (u : updates) (tx : N) (f : finality) : bool :=
  existsb (fun x => (fst x =? tx)%N && finality_eqb (snd x) f) u.
Fixpoint memory_get (m : memory) (n : nat) : updates :=
  match m with [] => [] | (k, u) :: m => if k =? n then u else memory_get m n end.
Definition memory_remove (m : memory) (n : nat) : memory := List.filter (fun ku => negb (fst ku =? n)) m.
Definition memory_set (m : memory) (n : nat) (u : updates) : memory := (n, u) :: memory_remove m n.

(* The messages for the events of one transaction, subscribe_events.rs:334-359 and 455-476 *)
Definition tx_messages (p : params) (hash : option N) (n : nat) (f : finality) (tx : (N * N) * list event) : list (message notification) :=
  map (fun ie : nat * event => (n, (mkAnswer (snd ie) hash (N.of_nat n) (fst tx) (fst ie), f)))
    (List.filter (fun ie => matches p (snd ie)) (enumerate (snd tx))).

(* Receiving an L2 block, subscribe_events.rs:301-361; p is truncated *)
Definition on_block (p : params) (m : memory) (n : nat) (b : block) : memory * list (message notification) :=
  let sent := memory_get m n in
  (memory_remove m n,
   flat_map (fun tx => if sent_before sent (fst (fst tx)) AcceptedOnL2 then [] else tx_messages p (Some (b_hash b)) n AcceptedOnL2 tx) (b_txs b)).

(* send_event_updates, subscribe_events.rs:436-480 *)
Fixpoint send_event_updates (p : params) (n : nat) (f : finality) (txs : list ((N * N) * list event)) (sent : updates)
    : updates * list (message notification) :=
  match txs with
  | [] => (sent, [])
  | tx :: txs =>
      if sent_before sent (fst (fst tx)) f then send_event_updates p n f txs sent
      else
        let (sent, rest) := send_event_updates p n f txs ((fst (fst tx), f) :: sent) in
        (sent, tx_messages p None n f tx ++ rest)
  end.

(* New pending data, subscribe_events.rs:373-432 *)
Definition on_pending (p : params) (m : memory) (d : pending) : memory * list (message notification) :=
  if negb (pre_confirmed_too p) then (m, [])
  else
    let c := pd_pre_confirmed d in
    let nc := N.to_nat (pb_number c) in
    let (sent, messages) := send_event_updates p nc AtPreConfirmed (pb_txs c) (memory_get m nc) in
    let m := memory_set m nc sent in
    match pd_pre_latest d with
    | None => (m, messages)
    | Some l =>
        let nl := N.to_nat (pb_number l) in
        let sent := memory_get m nl in
        if negb (is_nil sent) then (memory_set m nl sent, messages)
        else
          let (sent, more) := send_event_updates p nl AtPreConfirmed (pb_txs l) sent in
          (memory_set m nl sent, messages ++ more)
    end.

(* A reorg from block n on, subscribe_events.rs:273-281; its notification is left out *)
Definition on_reorg (m : memory) (n : nat) : memory := List.filter (fun ku => fst ku <? n) m.

Section EventsFlow.
  Variables bloom_bytes range_bytes : nat.
  Variables sip0 sip1 : N -> N.

  (* catch_up, subscribe_events.rs:179-246, without blockchain pruning; l1 is the L1-L2 pointer *)
  Definition catch_up_events (p : params) (l1 : option N) (s : state) (from to : nat)
      : list (message notification) * option nat :=
    let (events, last_block) :=
      events_in_range bloom_bytes range_bytes sip0 sip1 (s_db s) (s_cache s) (s_running s) (N.of_nat from) (N.of_nat to)
        (from_addresses p) (match p_keys p with Some keys => keys | None => [] end) in
    (map (fun e =>
            let f := match l1 with
                     | Some last_l1 => if (e_block_number e <=? last_l1)%N then AcceptedOnL1 else AcceptedOnL2
                     | None => AcceptedOnL2
                     end in
            (N.to_nat (e_block_number e), (of_stored e, f))) events,
     match last_block with Some n => Some (N.to_nat n) | None => None end).

  (* SubscribeEvents, subscribe_events.rs:146-434.  storage gives the state of the storage with
     these blocks, l1 the L1-L2 pointer when they are read. *)
  Definition events_flow (p : params) (storage : list block -> option state) (l1 : list block -> option N)
      : flow block pending memory notification :=
    mkFlow (range_len range_bytes)
      (fun chain earliest from to =>
         if from <? earliest then None
         else match storage chain with
              | Some s => Some (catch_up_events p (l1 chain) s from to)
              | None => None
              end)
      []
      (on_block (truncate_params p))
      (on_pending (truncate_params p)).
End EventsFlow.
