(* Model of crates/storage/src/connection/event.rs: the filters kept for the stored chain and
   event queries over them; with purge_block (connection/block.rs:96-105), the reorg loop
   (crates/pathfinder/src/state/sync.rs:1575-1606), reset_in_memory_state
   (connection.rs:151-154) and the filter cache (bloom.rs:355-421).

   Blocks whose events column is NULL (synced by checkpoint) are not modelled: every stored
   block has its events.

   SQL tables are lists.  A row of the transactions table is a list of transactions with
   their events; blocks without a row are blocks without transactions.  Serialization and
   compression of events and bitmaps are taken to be lossless; sizes, block numbers and
   counters are unbounded (u64 and usize in the code). *)
From Coq Require Import List NArith PeanoNat Bool.
From Verif Require Import BloomModel.
Import ListNotations.
Local Open Scope N_scope.

(* pathfinder_common::event::Event; a felt is a number *)
Record event := mkEvent { ev_from : N; ev_keys : list N; ev_data : list N }.

(* A stored block: its hash and, for each transaction, (hash, index) and events, as
   events_for_block returns them (connection/transaction.rs:311-337). *)
Record block := mkBlock { b_hash : N; b_txs : list ((N * N) * list event) }.

(* EmittedEvent, event.rs:33-43 *)
Record emitted := mkEmitted {
  e_event : event; e_block_hash : N; e_block_number : N; e_tx : N * N; e_index : nat }.

(* EventConstraints, event.rs:23-31 *)
Record constraints := mkConstraints {
  c_from : option N; c_to : option N; c_addresses : list N; c_keys : list (list N);
  c_page_size : nat; c_offset : nat }.

(* ContinuationToken, event.rs:59-63, and PageOfEvents, 65-69 *)
Record token := mkToken { t_block : N; t_offset : nat }.
Record page := mkPage { p_events : list emitted; p_token : option token }.
Inductive result := ROk (p : page) | RTooSmall | RPanic.

Definition felt_mem (x : N) (l : list N) : bool := existsb (N.eqb x) l.
Definition is_nil {X} (l : list X) : bool := match l with [] => true | _ => false end.

Section Events.
  Variables bloom_bytes range_bytes : nat.
  Variables sip0 sip1 : N -> N.

  Definition len : N := N.of_nat (range_len range_bytes).

  (* EVENT_KEY_FILTER_LIMIT, event.rs:20 *)
  Definition key_limit : nat := 16.

  (* key.as_mut_be_bytes()[0] |= (idx as u8) << 4, event.rs:571-573 and 598-599: the index is
     cut to 8 bits and bits shifted out of the byte are lost. *)
  Definition index_key (key : N) (idx : nat) : N :=
    N.lor key (N.shiftl ((N.shiftl (N.of_nat idx mod 256) 4) mod 256) 248).

  Definition enumerate {X} (l : list X) : list (nat * X) := combine (seq 0 (length l)) l.

  (* set_keys and set_address, event.rs:592-602 *)
  Definition set_keys (keys : list N) (bloom : list N) : list N :=
    fold_left (fun b (ik : nat * N) => bloom_set bloom_bytes sip0 sip1 (index_key (snd ik) (fst ik)) b)
      (enumerate (firstn key_limit keys)) bloom.
  Definition set_address (a : N) (bloom : list N) : list N := bloom_set bloom_bytes sip0 sip1 a bloom.

  (* The loops event.rs:125-129 and 772-776 *)
  Definition events_bloom (evs : list event) : list N :=
    fold_left (fun b e => set_address (ev_from e) (set_keys (ev_keys e) b)) evs (bloom_new bloom_bytes).
  Definition block_events (b : block) : list event := flat_map snd (b_txs b).

  (* check_addresses, event.rs:550-558 *)
  Definition check_addresses (a : aggregate) (addresses : list N) : list N :=
    if is_nil addresses then range_full range_bytes
    else blocks_for_keys bloom_bytes range_bytes sip0 sip1 a addresses.

  Fixpoint bytes_eqb (a b : list N) : bool :=
    match a, b with
    | [], [] => true
    | x :: a, y :: b => (x =? y) && bytes_eqb a b
    | _, _ => false
    end.

  (* check_keys, event.rs:560-588 *)
  Fixpoint check_groups (a : aggregate) (groups : list (nat * list N)) (acc : list N) : list N :=
    match groups with
    | [] => acc
    | (idx, key_group) :: groups =>
        let indexed_keys := map (fun k => index_key k idx) key_group in
        let blocks_for_key := blocks_for_keys bloom_bytes range_bytes sip0 sip1 a indexed_keys in
        if bytes_eqb blocks_for_key (range_empty range_bytes) then range_empty range_bytes
        else check_groups a groups (range_and acc blocks_for_key)
    end.
  Definition check_keys (a : aggregate) (keys : list (list N)) : list N :=
    if is_nil keys || existsb is_nil keys then range_full range_bytes
    else check_groups a (enumerate keys) (range_full range_bytes).

  (* check, event.rs:538-548 *)
  Definition check (a : aggregate) (addresses : list N) (keys : list (list N)) : list N :=
    map (fun offset => from_block a + N.of_nat offset)
      (iter_ones (range_and (check_addresses a addresses) (check_keys a keys))).

  (* ---- the stored chain and its filters ---- *)

  (* RunningEventFilter, event.rs:607-610 *)
  Record running := mkRunning { r_filter : aggregate; r_next : N }.

  (* The database, as far as events need it: block n is the n-th of d_blocks unless it is below
     d_pruned (blockchain pruning); the event_filters table and the row of the
     running_event_filter table. *)
  Record db := mkDb {
    d_blocks : list block; d_pruned : N; d_filters : list aggregate; d_stored : running }.
  Definition height (d : db) : N := N.of_nat (length (d_blocks d)).
  Definition block_at (d : db) (n : N) : option block :=
    if n <? d_pruned d then None else nth_error (d_blocks d) (N.to_nat n).

  (* ... and the state in memory: the running filter and the cache of filters. *)
  Record state := mkState { s_db : db; s_running : running; s_cache : list aggregate }.

  Definition same_range (a b : aggregate) : bool :=
    (from_block a =? from_block b) && (to_block a =? to_block b).

  (* upsert_block_event_filters, event.rs:109-150, with the new block put into the chain.
     None is a panic. *)
  Definition insert_block (s : state) (b : block) : option state :=
    let d := s_db s in
    let block_number := height d in
    let bloom := events_bloom (block_events b) in
    match agg_insert range_bytes (r_filter (s_running s)) bloom block_number with
    | None => None
    | Some filter =>
        let blocks := d_blocks d ++ [b] in
        if block_number =? to_block filter then
          let others := List.filter (fun f => negb (same_range f filter)) (d_filters d) in
          Some (mkState (mkDb blocks (d_pruned d) (others ++ [filter]) (d_stored d))
            (mkRunning (agg_new bloom_bytes range_bytes (block_number + 1)) (block_number + 1)) (s_cache s))
        else
          Some (mkState (mkDb blocks (d_pruned d) (d_filters d) (d_stored d)) (mkRunning filter (block_number + 1)) (s_cache s))
    end.

  (* SELECT to_block FROM event_filters ORDER BY from_block DESC LIMIT 1, event.rs:681-687 *)
  Definition last_filter (fs : list aggregate) : option aggregate :=
    fold_left (fun m f => match m with
                          | Some g => if from_block g <? from_block f then Some f else m
                          | None => Some f
                          end) fs None.

  (* The blocks from number i on, with their numbers. *)
  Definition numbered (d : db) (i : N) : list (N * block) :=
    flat_map (fun n => match block_at d (N.of_nat n) with Some b => [(N.of_nat n, b)] | None => [] end)
      (seq (N.to_nat i) (length (d_blocks d) - N.to_nat i)).

  (* rebuild, event.rs:675-803.  None is a panic: of the subtraction in line 723 or of the
     insertion into the filter. *)
  Definition rebuild (d : db) (latest : N) : option running :=
    let last_to_block := option_map to_block (last_filter (d_filters d)) in
    let first := match last_to_block with
                 | Some t => t + 1
                 | None => latest - latest mod len
                 end in
    if match last_to_block with Some t => t =? latest | None => false end then
      Some (mkRunning (agg_new bloom_bytes range_bytes (latest + 1)) (latest + 1))
    else if latest <? first then None
    else
      option_map (fun f => mkRunning f (latest + 1))
        (fold_left (fun a nb => match a with
                                | Some a => agg_insert range_bytes a (events_bloom (block_events (snd nb))) (fst nb)
                                | None => None
                                end) (numbered d first) (Some (agg_new bloom_bytes range_bytes first))).

  (* load, event.rs:616-667 *)
  Definition load (d : db) : option running :=
    if height d =? 0 then Some (mkRunning (agg_new bloom_bytes range_bytes 0) 0)
    else
      let latest := height d - 1 in
      if r_next (d_stored d) =? latest + 1 then Some (d_stored d) else rebuild d latest.

  (* purge_block, connection/block.rs:96-113: of the tables modelled here, the filters whose
     range has the block, and the block. *)
  Definition purge_block (d : db) (n : N) : db :=
    mkDb (firstn (N.to_nat n) (d_blocks d)) (d_pruned d)
      (List.filter (fun f => negb ((from_block f <=? n) && (n <=? to_block f))) (d_filters d)) (d_stored d).

  (* The purge loop of l2_reorg, sync.rs:1583-1602, from new_head down to reorg_tail:
     the database and the final new_head. *)
  Fixpoint purge_loop (fuel : nat) (d : db) (new_head reorg_tail : N) : db * N :=
    match fuel with
    | O => (d, new_head)
    | S fuel =>
        if reorg_tail <=? new_head then
          let d := purge_block d new_head in
          if new_head =? 0 then (d, new_head) else purge_loop fuel d (new_head - 1) reorg_tail
        else (d, new_head)
    end.

  (* l2_reorg, sync.rs:1543-1606 with reset_in_memory_state, connection.rs:151-154. *)
  Definition reorg (s : state) (reorg_tail : N) : option state :=
    let d := s_db s in
    let (d, new_head) := purge_loop (length (d_blocks d)) d (height d - 1) reorg_tail in
    option_map (fun r => mkState d r []) (rebuild d new_head).

  (* store_running_event_filter, event.rs:72-92, on shutdown; and a start of the node. *)
  Definition shutdown (s : state) : state :=
    mkState (mkDb (d_blocks (s_db s)) (d_pruned (s_db s)) (d_filters (s_db s)) (s_running s)) (s_running s) (s_cache s).
  Definition start (d : db) : option state := option_map (fun r => mkState d r []) (load d).

  (* The database created by the migrations, schema/revision_0068.rs. *)
  Definition new_db : db := mkDb [] 0 [] (mkRunning (agg_new bloom_bytes range_bytes 0) 0).

  (* ---- queries ---- *)

  (* get_many, bloom.rs:372-407 *)
  Definition get_many (cache : list aggregate) (from to : N) : list aggregate :=
    let from_aligned := from - from mod len in
    let to_aligned := to + len - to mod len - 1 in
    flat_map (fun i =>
      let f := from_aligned + N.of_nat i * len in
      match find (fun g => (from_block g =? f) && (to_block g =? f + len - 1)) cache with
      | Some g => [g]
      | None => []
      end) (seq 0 (if to_aligned <? from_aligned then 0 else S (N.to_nat ((to_aligned - from_aligned) / len)))).

  Fixpoint insert_by_from (a : aggregate) (l : list aggregate) : list aggregate :=
    match l with
    | [] => [a]
    | b :: r => if from_block a <=? from_block b then a :: l else b :: insert_by_from a r
    end.
  Definition sort_by_from (l : list aggregate) : list aggregate := fold_right insert_by_from [] l.

  Definition last_of {X} (l : list X) : option X := match rev l with [] => None | x :: _ => Some x end.

  (* load_event_filter_range, event.rs:440-507 *)
  Definition loaded_filters (filters cached : list aggregate) (start_block end_block : N) : list aggregate :=
    List.filter (fun f => (from_block f <=? end_block) && (start_block <=? to_block f)
                            && negb (existsb (fun g => from_block g =? from_block f) cached)) filters.
  Definition load_range (filters cache : list aggregate) (r : running) (start_block end_block : N) : list aggregate :=
    let cached := get_many cache start_block end_block in
    let event_filters := sort_by_from (loaded_filters filters cached start_block end_block ++ cached) in
    let should_include_running :=
      match last_of event_filters with
      | None => true
      | Some last => (to_block last + 1 =? from_block (r_filter r)) && (to_block last <? end_block)
      end in
    if should_include_running then event_filters ++ [r_filter r] else event_filters.

  (* The cache after load_event_filter_range: set_many, event.rs:490 and bloom.rs:410-420, puts
     the filters loaded from the table in front; the cache is of limited size, so that any
     entries may be dropped: keep tells which are not. *)
  Definition load_caches (s : state) (start_block end_block : N) (keep : aggregate -> bool) : state :=
    let cached := get_many (s_cache s) start_block end_block in
    mkState (s_db s) (s_running s)
      (List.filter keep (loaded_filters (d_filters (s_db s)) cached start_block end_block ++ s_cache s)).

  (* The key filter, event.rs:362-376 (also 225-239) *)
  Definition keys_match (keys : list (list N)) (e : event) : bool :=
    if forallb is_nil keys then true
    else if (length (ev_keys e) <? length keys)%nat then false
    else forallb (fun kf => is_nil (snd kf) || felt_mem (fst kf) (snd kf)) (combine (ev_keys e) keys).
  (* The address filter, event.rs:355-361 (also 218-224) *)
  Definition address_match (addresses : list N) (e : event) : bool :=
    is_nil addresses || felt_mem (ev_from e) addresses.

  (* The matching events of a block, event.rs:348-376 and 383-392 (also 211-249) *)
  Definition block_matches (addresses : list N) (keys : list (list N)) (n : N) (b : block) : list emitted :=
    flat_map (fun tx : (N * N) * list event =>
      map (fun ie => mkEmitted (snd ie) (b_hash b) n (fst tx) (fst ie))
        (List.filter (fun ie => keys_match keys (snd ie))
          (List.filter (fun ie => address_match addresses (snd ie)) (enumerate (snd tx)))))
      (b_txs b).

  (* skip_while with the countdown of offset, event.rs:377-381 *)
  Fixpoint skip_while {X} (offset : nat) (l : list X) : list X * nat :=
    match l with
    | [] => ([], offset)
    | x :: r => if (0 <? offset)%nat then skip_while (offset - 1) r else (l, offset)
    end.

  (* take_while from the back, event.rs:814-819 *)
  Fixpoint count_last_block (n : N) (rev_events : list emitted) : nat :=
    match rev_events with
    | [] => O
    | e :: r => if e_block_number e =? n then S (count_last_block n r) else O
    end.

  (* continuation_token, event.rs:806-839 *)
  Definition continuation_token (events : list emitted) (previous : token) : option token :=
    match rev events with
    | [] => None
    | last :: _ =>
        let in_last := count_last_block (e_block_number last) (rev events) in
        if (in_last <? length events)%nat then Some (mkToken (e_block_number last) in_last)
        else Some (mkToken (t_block previous) (t_offset previous + length events))
    end.

  (* The scan loop, event.rs:329-435.  add_token is the token to return at the end. *)
  Fixpoint scan (d : db) (c : constraints) (from : N) (blocks : list N) (offset : nat) (acc : list emitted)
      (add_token : option token) : result :=
    match blocks with
    | [] => ROk (mkPage acc add_token)
    | n :: blocks =>
        let events_required := (c_page_size c + 1 - length acc)%nat in
        match block_at d n with
        | None => RPanic
        | Some b =>
            let (found, offset) := skip_while offset (block_matches (c_addresses c) (c_keys c) n b) in
            let acc := acc ++ firstn events_required found in
            if (c_page_size c <? length acc)%nat then
              match continuation_token acc (mkToken from (c_offset c)) with
              | None => RPanic
              | Some t => ROk (mkPage (firstn (c_page_size c) acc) (Some (mkToken (t_block t) (t_offset t - 1))))
              end
            else scan d c from blocks offset acc add_token
        end
    end.

  (* events, event.rs:258-436 *)
  Definition events (pruning : bool) (limit : N) (d : db) (cache : list aggregate) (r : running) (c : constraints) : result :=
    if (c_page_size c <? 1)%nat then RTooSmall
    else if height d =? 0 then ROk (mkPage [] None)
    else
      let latest := height d - 1 in
      let from := match c_from c with
                  | Some f => if pruning then d_pruned d else f
                  | None => 0
                  end in
      let max_to := from + limit - 1 in
      let to := match c_to c with Some t => N.min t latest | None => latest end in
      let to_limited := N.min to max_to in
      let filters := load_range (d_filters d) cache r from to_limited in
      match last_of filters with
      | None => RPanic
      | Some last =>
          let last_covered := N.min to_limited (to_block last) in
          let add_token := if last_covered <? to then Some (mkToken (last_covered + 1) O) else None in
          let blocks := List.filter (fun n => (from <=? n) && (n <=? last_covered))
                          (flat_map (fun f => check f (c_addresses c) (c_keys c)) filters) in
          scan d c from blocks (c_offset c) [] add_token
      end.

  (* keys.truncate after the last non-empty list, event.rs:172-175; only if there is one *)
  Fixpoint drop_empty (rev_keys : list (list N)) : list (list N) :=
    match rev_keys with
    | [] => []
    | k :: r => if is_nil k then drop_empty r else rev_keys
    end.
  Definition truncate_keys (keys : list (list N)) : list (list N) :=
    if forallb is_nil keys then keys else rev (drop_empty (rev keys)).

  (* The loop of events_in_range, event.rs:200-252 *)
  Fixpoint scan_range (d : db) (addresses : list N) (keys : list (list N)) (blocks : list N) : list emitted :=
    match blocks with
    | [] => []
    | n :: blocks =>
        match block_at d n with
        | None => []
        | Some b => block_matches addresses keys n b ++ scan_range d addresses keys blocks
        end
    end.

  (* events_in_range, event.rs:156-255 *)
  Definition events_in_range (d : db) (cache : list aggregate) (r : running) (from to : N)
      (addresses : list N) (keys : list (list N)) : list emitted * option N :=
    if height d =? 0 then ([], None)
    else
      let latest := height d - 1 in
      if latest <? from then ([], None)
      else
        let to := N.min to latest in
        let keys := truncate_keys keys in
        let blocks := List.filter (fun n => (from <=? n) && (n <=? to))
                        (flat_map (fun f => check f addresses keys) (load_range (d_filters d) cache r from to)) in
        (scan_range d addresses keys blocks, Some to).
End Events.
