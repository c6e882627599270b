(* The producer side of block synchronisation: pathfinder/src/state/sync/l2.rs, and the
   supervision of producer and consumer in pathfinder/src/state/sync.rs.  The consumer is
   [ChainModel.consume].

   The gateway is arbitrary: every step of the producer carries the answers it gets during that
   step, as functions of the requested block number (no number is requested twice in a step).
   Timing, metrics, and the contents of classes are left out.  State commitments are carried
   along but the code takes no decision on them. *)
From Coq Require Import List NArith Bool.
From Verif Require Import AList StateUpdateModel ChainModel.
Import ListNotations.
Local Open Scope N_scope.

(* (BlockNumber, BlockHash, StateCommitment), the type of `head`, l2.rs:104 *)
Definition tip : Type := N * N * N.

(* ---- struct BlockChain, l2.rs:34-43 ---- *)
Record cache := Cache { k_head : N; k_tail : N; k_map : nmap (N * N) }.

(* reset_to_genesis, l2.rs:46-50 *)
Definition reset_to_genesis : cache := Cache 0 0 [].

(* with_capacity, l2.rs:52-66: keeps the last [capacity] blocks *)
Definition with_capacity (capacity : nat) (blocks : list tip) : cache :=
  let kept := skipn (length blocks - capacity) blocks in
  Cache (match rev kept with (n, _, _) :: _ => n | [] => 0 end)
        (match kept with (n, _, _) :: _ => n | [] => 0 end)
        (map (fun b : tip => let '(n, h, c) := b in (n, (h, c))) kept).

(* push, l2.rs:72-83.  [full]: capacity and length of the hash map agree; the capacity of a Rust
   hash map is not determined by its contents, so this is left open. *)
Definition push (full : bool) (n h c : N) (k : cache) : cache :=
  let m := al_retain (fun i => negb ((n <=? i) && (i <=? k_head k))) (k_map k) in
  let m := if full then al_remove N.eqb (k_tail k) m else m in
  Cache n (if full then k_tail k + 1 else k_tail k) (nset n (h, c) m).

(* ---- the answers of the gateway ---- *)
(* verify_gateway_block_commitments_and_hash, l2.rs:1442-1537, modelled in CommitModel; here only
   its outcome *)
Inductive verdict := HashMatch | HashMismatch | VerifyError.
(* state_update_with_block; [txs_ok]: all transaction hashes verify; [accepted]: the status is
   AcceptedOnL1 or AcceptedOnL2 *)
Inductive block_reply :=
| Served (b : l2_block) (txs_ok accepted : bool) (v : verdict)
| NotFound
| RequestFails.
(* head() *)
Inductive head_reply := HeadIs (n h : N) | NoHead | HeadFails.

(* [g_head n]: head() as answered after a failed request for block n.
   [g_classes n]: download_new_classes for block n, the hashes of the classes that are emitted
   (l2.rs:1270-1328), None when a download fails.
   [g_signature n]: the block hash of the signature served for block n, after the retries of
   l2.rs:257-299; None when the request fails.  Whether the signature itself verifies is left
   out: l2.rs:309-328 only logs a warning.
   [g_full n]: the cache is full when block n is pushed, see [push]. *)
Record gateway := Gateway {
  g_block : N -> block_reply;
  g_head : N -> head_reply;
  g_classes : N -> option (list N);
  g_signature : N -> option N;
  g_full : N -> bool
}.

(* BlockValidationMode, l2.rs:828-835 *)
Inductive validation := Strict | AllowMismatch.

(* the match on (status, verify_result, mode), l2.rs:913-940 and 1357-1377 *)
Definition admits (mode : validation) (accepted : bool) (v : verdict) : bool :=
  match accepted, v, mode with
  | true, HashMatch, _ => true
  | true, HashMismatch, AllowMismatch => true
  | _, _, _ => false
  end.

(* enum DownloadBlock, l2.rs:817-827, and the failures of download_block *)
Inductive download := GotBlock (b : l2_block) | Wait | Retry | ReorgSeen | DownloadFails | DownloadPanics.

(* ---- download_block, l2.rs:838-998 ---- *)
Definition download_block (mode : validation) (g : gateway) (n : N) (prev : option N) (blocks : cache)
  : download :=
  match g_block g n with
  | Served b txs_ok accepted v =>
      if negb txs_ok then DownloadFails
      else if admits mode accepted v then GotBlock b else DownloadFails
  | NotFound =>
      match g_head g n with
      | NoHead => Wait
      | HeadFails => DownloadFails
      | HeadIs head_number head_hash =>
          if n <=? head_number then Retry
          else if (head_number + 1 =? n) && negb (is_some prev) then DownloadPanics  (* assert! *)
          else
            match (if head_number + 1 =? n then prev
                   else option_map fst (nget head_number (k_map blocks))) with
            | Some ours => if ours =? head_hash then Wait else ReorgSeen
            | None => ReorgSeen
            end
      end
  | RequestFails => DownloadFails
  end.

(* ---- reorg, l2.rs:1541-1596 ---- *)
Inductive search := NewHead (h : option tip) | SearchFails | SearchPanics.

(* the loop, with reorg_tail.0 = k *)
Fixpoint find_new_head (mode : validation) (g : gateway) (blocks : cache) (k : nat) : search :=
  match k with
  | O => NewHead None
  | S k' =>
      let previous_number := N.of_nat k' in
      match nget previous_number (k_map blocks) with
      | None => SearchFails              (* Reorg exceeded local blockchain cache *)
      | Some (h, c) =>
          match download_block mode g previous_number (Some h) blocks with
          | DownloadFails => SearchFails
          | DownloadPanics => SearchPanics
          | GotBlock b => if lb_hash b =? h then NewHead (Some (previous_number, h, c))
                          else find_new_head mode g blocks k'
          | _ => find_new_head mode g blocks k'
          end
      end
  end.

Definition tail_of (new_head : option tip) : N :=
  match new_head with Some (n, _, _) => n + 1 | None => 0 end.

(* ---- the producer task: its local variables, and where it is ---- *)
(* Bulk: `start` and `ordered_blocks` of bulk_sync, the latter in ascending order of keys *)
Inductive phase :=
| Bulk (start : N) (ordered : list (N * (l2_block * list N)))
| Tracking
| Ended.
Record producer := Producer { p_head : option tip; p_blocks : cache; p_phase : phase }.

Definition ended (p : producer) : producer := Producer (p_head p) (p_blocks p) Ended.

(* the Reorg branches of sync, l2.rs:184-209 and 213-235 *)
Definition roll_back (mode : validation) (g : gateway) (p : producer) : producer * list sync_event :=
  match p_head p with
  | None => (Producer None reset_to_genesis Tracking, [])
  | Some (n, _, _) =>
      match find_new_head mode g (p_blocks p) (N.to_nat n) with
      | NewHead nh =>
          (Producer nh
             (match nh with
              | Some (n', h', c') => push (g_full g n') n' h' c' (p_blocks p)
              | None => reset_to_genesis
              end) Tracking,
           [Reorg (tail_of nh)])
      | _ => (ended p, [])
      end
  end.

(* ---- one turn of the loops of sync, l2.rs:136-348 ---- *)
(* Wait and Retry come back to the same download with the same variables; waiting for `latest`
   to change is left to the schedule *)
Definition track (mode : validation) (g : gateway) (p : producer) : producer * list sync_event :=
  let next := match p_head p with Some (n, _, _) => n + 1 | None => 0 end in
  let prev := match p_head p with Some (_, h, _) => Some h | None => None end in
  match download_block mode g next prev (p_blocks p) with
  | Wait | Retry => (p, [])
  | ReorgSeen => roll_back mode g p
  | DownloadFails | DownloadPanics => (ended p, [])
  | GotBlock b =>
      if match prev with Some h => negb (h =? lb_parent b) | None => false end
      then roll_back mode g p
      else
        match g_classes g next with
        | None => (ended p, [])
        | Some classes =>
            let emitted := map ClassDefinition classes in
            match g_signature g next with
            | None => (ended p, emitted)
            | Some signed =>
                if negb (lb_hash b =? signed) then (ended p, emitted)
                else (Producer (Some (next, lb_hash b, lb_commitment b))
                               (push (g_full g next) next (lb_hash b) (lb_commitment b) (p_blocks p))
                               Tracking,
                      emitted ++ [DownloadedBlock b])
            end
        end
  end.

(* ---- bulk_sync, l2.rs:1000-1268 ---- *)
(* the futures of l2.rs:1034-1152 with verify_block_and_state_update (1330-1401) and
   verify_signature (1423-1434, called with AllowMismatch) *)
Definition fetch (mode : validation) (g : gateway) (n : N) : option (l2_block * list N) :=
  match g_block g n with
  | Served b txs_ok accepted v =>
      if admits mode accepted v && txs_ok then
        match g_signature g n, g_classes g n with
        | Some _, Some classes => Some (b, classes)
        | _, _ => None
        end
      else None
  | _ => None
  end.

(* BTreeMap::insert *)
Fixpoint ordered_insert {V} (k : N) (v : V) (m : list (N * V)) : list (N * V) :=
  match m with
  | [] => [(k, v)]
  | (k', v') :: r =>
      if k <? k' then (k, v) :: m
      else if k =? k' then (k, v) :: r
      else (k', v') :: ordered_insert k v r
  end.

(* num_to_emit, l2.rs:1192-1203: the entries that are popped, the rest, and the new start *)
Fixpoint take_run {V} (start : N) (m : list (N * V)) : list (N * V) * list (N * V) * N :=
  match m with
  | (k, v) :: r =>
      if k =? start
      then let '(run, rest, s) := take_run (start + 1) r in ((k, v) :: run, rest, s)
      else ([], m, start)
  | [] => ([], [], start)
  end.

(* the emitting loop, l2.rs:1205-1263; the boolean: a reorg was detected, bulk_sync returns *)
Fixpoint emit_run (full : N -> bool) (run : list (N * (l2_block * list N))) (head : option tip)
    (blocks : cache) : option tip * cache * list sync_event * bool :=
  match run with
  | [] => (head, blocks, [], false)
  | (_, (b, classes)) :: r =>
      if match head with Some (_, h, _) => negb (h =? lb_parent b) | None => false end
      then (head, blocks, [], true)
      else
        let n := lb_number b in
        let '(head', blocks', es, stop) :=
          emit_run full r (Some (n, lb_hash b, lb_commitment b))
                   (push (full n) n (lb_hash b) (lb_commitment b) blocks) in
        (head', blocks', map ClassDefinition classes ++ DownloadedBlock b :: es, stop)
  end.

(* one result of the stream, l2.rs:1174-1264: the answer to some request n.  That the requests are
   start..=end, each made once, is not modelled: results may come in any number and order. *)
Definition bulk_result (mode : validation) (g : gateway) (n : N) (p : producer)
  : producer * list sync_event :=
  match p_phase p with
  | Bulk start ordered =>
      match fetch mode g n with
      | None => (Producer (p_head p) (p_blocks p) Tracking, [])
      | Some (b, classes) =>
          let '(run, rest, start') := take_run start (ordered_insert (lb_number b) (b, classes) ordered) in
          let '(head', blocks', es, stop) := emit_run (g_full g) run (p_head p) (p_blocks p) in
          (Producer head' blocks' (if stop then Tracking else Bulk start' rest), es)
      end
  | _ => (p, [])
  end.

(* ---- the supervisor: sync::sync, sync.rs:164-440 ---- *)
(* latest_n_blocks, sync.rs:1179-1212: the loop from block n down, in chronological order *)
Fixpoint latest_blocks (k : nat) (d : db) (n : N) : list tip :=
  match k with
  | O => []
  | S k' =>
      match header_at d n with
      | None => []
      | Some h => (if n =? 0 then [] else latest_blocks k' d (n - 1)) ++ [(n, h_hash h, h_commitment h)]
      end
  end.

(* the start of the producer, sync.rs:216-226, 260-275 (at process start, capacity
   block_cache_size) and 343-365 (restart, capacity 1000): head and latest blocks are read from
   the database; the first phase is bulk_sync with start as in l2.rs:1023-1026 *)
Definition start_producer (size capacity : nat) (d : db) : producer :=
  match top_header (d_headers d) with
  | None => Producer None (with_capacity capacity []) (Bulk 0 [])
  | Some h => Producer (Some (h_number h, h_hash h, h_commitment h))
                       (with_capacity capacity (latest_blocks size d (h_number h)))
                       (Bulk (h_number h + 1) [])
  end.

(* the settings: blockchain history mode, block validation mode, block_cache_size *)
Record config := Config { f_history : history_mode; f_mode : validation; f_cache : nat }.
Definition restart_capacity : nat := N.to_nat 1000.

(* The node: the events the consumer has taken so far, in order (its state is [run] of these), the
   events in the channel, and the producer.  The bound of the channel (8 events) is left out. *)
Record node := Node { n_taken : list sync_event; n_queue : list sync_event; n_producer : producer }.

Definition node_db (c : config) (s : node) : db := c_db (run (f_history c) (n_taken s)).

(* when the consumer ends the process ends with it (sync.rs:371-440) and is started again: the
   channel is lost and a new producer reads the database *)
Definition reboot (c : config) (taken : list sync_event) : node :=
  Node taken [] (start_producer (f_cache c) (f_cache c) (c_db (run (f_history c) taken))).

Inductive action :=
| Consume                           (* the consumer takes the next event *)
| ConsumeFails                      (* the same, but handling it fails for an outside reason *)
| Track (g : gateway)               (* one turn of the loop of sync *)
| BulkResult (n : N) (g : gateway)  (* one result in bulk_sync *)
| BulkChunk                         (* a chunk of downloads ends: ordered_blocks is dropped *)
| BulkDone                          (* bulk_sync returns *)
| L1Sends (n hash : N)              (* the L1 producer sends an update *)
| ProducerEnds                      (* the L2 producer ends: `latest` closed, a panic elsewhere *)
| ProducerRestarts                  (* sync.rs:343-370 *)
| Crash.                            (* the process ends and is started again *)

Definition with_producer (s : node) (r : producer * list sync_event) : node :=
  Node (n_taken s) (n_queue s ++ snd r) (fst r).

Definition act (c : config) (s : node) (a : action) : node :=
  let p := n_producer s in
  match a with
  | Consume =>
      match n_queue s with
      | [] => s
      | e :: q =>
          match consume (f_history c) (run (f_history c) (n_taken s)) e with
          | Some _ => Node (n_taken s ++ [e]) q p
          | None => reboot c (n_taken s ++ [e])
          end
      end
  | ConsumeFails =>
      match n_queue s with
      | [] => s
      | _ :: _ => reboot c (n_taken s ++ [Failure])
      end
  | Track g => match p_phase p with Tracking => with_producer s (track (f_mode c) g p) | _ => s end
  | BulkResult n g => with_producer s (bulk_result (f_mode c) g n p)
  | BulkChunk =>
      match p_phase p with
      | Bulk start _ => with_producer s (Producer (p_head p) (p_blocks p) (Bulk start []), [])
      | _ => s
      end
  | BulkDone =>
      match p_phase p with
      | Bulk _ _ => with_producer s (Producer (p_head p) (p_blocks p) Tracking, [])
      | _ => s
      end
  | L1Sends n h => Node (n_taken s) (n_queue s ++ [L1Update n h]) p
  | ProducerEnds => with_producer s (ended p, [])
  | ProducerRestarts =>
      match p_phase p with
      | Ended => Node (n_taken s) (n_queue s) (start_producer (f_cache c) restart_capacity (node_db c s))
      | _ => s
      end
  | Crash => reboot c (n_taken s ++ [Failure])
  end.

(* a node that starts on an empty database *)
Definition boot (c : config) : node := reboot c [].
Definition acts (c : config) (l : list action) : node := fold_left (act c) l (boot c).
