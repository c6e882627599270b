(* starknet_getEvents: crates/rpc/src/method/get_events.rs, on top of the storage's event
   queries (EventModel), and the pending data it uses: crates/rpc/src/pending.rs.

   Left out: the JSON forms of requests and answers, and the asynchronous task the query runs
   in.  Addresses are a list instead of a set; only membership is used (get_addresses sorts
   them, get_events.rs:77-81, which the storage's filter does not depend on). *)
From Coq Require Import List NArith PeanoNat Bool.
From Verif Require Import Radix BloomModel EventModel.
Import ListNotations.
Local Open Scope N_scope.

(* ---- continuation tokens as text, get_events.rs:606-638 ---- *)

(* str::parse::<u64> and parse::<usize> of the standard library: an optional '+', at least one
   decimal digit, value below 2^64. *)
Fixpoint uint_digits (s : list N) (acc : N) : option N :=
  match s with
  | [] => Some acc
  | c :: s' =>
      if (48 <=? c) && (c <=? 57) then
        let a := acc * 10 + (c - 48) in
        if a <? 2 ^ 64 then uint_digits s' a else None
      else None
  end.
Definition parse_uint (s : list N) : option N :=
  match s with
  | [] => None
  | c :: t =>
      if c =? 43 then (match t with [] => None | _ => uint_digits t 0 end)
      else uint_digits s 0
  end.

(* str::split_once('-') of the standard library *)
Fixpoint split_once (sep : N) (s : list N) : option (list N * list N) :=
  match s with
  | [] => None
  | c :: s' =>
      if c =? sep then Some ([], s')
      else match split_once sep s' with Some (a, b) => Some (c :: a, b) | None => None end
  end.

(* BlockNumber::new, crates/common/src/macros.rs:21-28: at most i64::MAX *)
Definition block_number_new (n : N) : option N := if n <=? 2 ^ 63 - 1 then Some n else None.

(* FromStr for ContinuationToken, get_events.rs:612-632 *)
Definition parse_token (s : list N) : option token :=
  match split_once 45 s with
  | None => None
  | Some (block_number, offset) =>
      match parse_uint block_number with
      | None => None
      | Some block_number =>
          match parse_uint offset with
          | None => None
          | Some offset =>
              match block_number_new block_number with
              | None => None
              | Some block_number => Some (mkToken block_number (N.to_nat offset))
              end
          end
      end
  end.

(* write!(f, "{}", u64) *)
Definition show_uint (n : N) : list N := map (fun d => 48 + d) (min_digits 10 n).

(* Display for ContinuationToken, get_events.rs:634-638 *)
Definition show_token (t : token) : list N :=
  show_uint (t_block t) ++ [45] ++ show_uint (N.of_nat (t_offset t)).

(* ---- pending data, pending.rs ---- *)

(* A pending block: its number and receipts with events (PreConfirmedBlock and PreLatestBlock,
   pending.rs:43-79, of which the rest is not used here). *)
Record pending_block := mkPending { pb_number : N; pb_txs : list ((N * N) * list event) }.
(* PendingBlocks and PendingData, pending.rs:87-142 (number is that of pre_confirmed). *)
Record pending := mkPendingData { pd_pre_latest : option pending_block; pd_pre_confirmed : pending_block }.

(* PendingData::empty, pending.rs:294-332 *)
Definition pending_empty (latest : N) : pending := mkPendingData None (mkPending (latest + 1) []).

(* PendingWatcher::get, pending.rs:605-716.  latest is the number of the latest stored block, 0
   if there is none.  None is a failed assertion; v09 tells if the JSON-RPC version is 0.9 or later. *)
Definition pending_get (watched : pending) (latest : N) (v09 : bool) : option pending :=
  let pre_confirmed := pd_pre_confirmed watched in
  if v09 then
    match pd_pre_latest watched with
    | Some pre_latest =>
        if pb_number pre_latest =? latest + 1 then
          if pb_number pre_latest + 1 =? pb_number pre_confirmed
          then Some (mkPendingData (Some pre_latest) pre_confirmed) else None
        else if pb_number pre_latest =? latest then
          if pb_number pre_latest + 1 =? pb_number pre_confirmed
          then Some (mkPendingData None pre_confirmed) else None
        else Some (pending_empty latest)
    | None =>
        if pb_number pre_confirmed =? latest + 1 then Some watched else Some (pending_empty latest)
    end
  else Some (pending_empty latest).

(* is_pre_latest_or_pre_confirmed, pending.rs:586-591 *)
Definition is_pending (p : pending) (n : N) : bool :=
  match pd_pre_latest p with Some b => pb_number b =? n | None => false end || (pb_number (pd_pre_confirmed p) =? n).

(* ---- the answer ---- *)

(* EmittedEvent of the RPC, get_events.rs:594-602 and its conversion from the storage's *)
Record answer := mkAnswer { a_event : event; a_block_hash : option N; a_block_number : N; a_tx : N * N; a_index : nat }.
Definition of_stored (e : emitted) : answer :=
  mkAnswer (e_event e) (Some (e_block_hash e)) (e_block_number e) (e_tx e) (e_index e).

Inductive reply (T : Type) :=
| Page (events : list answer) (continuation_token : option T)
| BlockNotFound | PageSizeTooBig | InvalidContinuationToken | TooManyKeysInFilter | PageSizeTooSmall
| Panicked.
Arguments Page {T}. Arguments BlockNotFound {T}. Arguments PageSizeTooBig {T}. Arguments InvalidContinuationToken {T}.
Arguments TooManyKeysInFilter {T}. Arguments PageSizeTooSmall {T}. Arguments Panicked {T}.

(* BlockId of the RPC, crates/rpc/src/types.rs:24-30 *)
Inductive block_id := Number (n : N) | Hash (h : N) | L1Accepted | Latest | PreConfirmed.

(* EventFilter, get_events.rs:64-75 *)
Record request := mkRequest {
  q_from : option block_id; q_to : option block_id; q_addresses : list N; q_keys : list (list N); q_chunk_size : nat
}.

(* EVENT_PAGE_SIZE_LIMIT, get_events.rs:16 *)
Definition page_size_limit : N := 1024.

(* match_and_fill_events, get_events.rs:532-604, without the destination: the events to append
   and whether all are taken *)
Definition matching (addresses : list N) (keys : list (list N)) (b : pending_block) : list answer :=
  map (fun iet : (nat * event) * (N * N) => mkAnswer (snd (fst iet)) None (pb_number b) (snd iet) (fst (fst iet)))
    (List.filter (fun iet => keys_match keys (snd (fst iet)))
      (List.filter (fun iet => address_match addresses (snd (fst iet)))
        (flat_map (fun tx : (N * N) * list event => map (fun ie => (ie, fst tx)) (enumerate (snd tx))) (pb_txs b)))).
Definition match_and_fill (addresses : list N) (keys : list (list N)) (b : pending_block) (skip max_amount : nat)
    : list answer * bool :=
  let taken := firstn (max_amount + 1) (skipn skip (matching addresses keys b)) in
  if (max_amount <? length taken)%nat then (removelast taken, false) else (taken, true).

(* get_pending_events, get_events.rs:331-449; None is InvalidContinuationToken *)
Definition get_pending_events (p : pending) (max_amount : nat) (keys : list (list N)) (addresses : list N)
    (continuation_token : option token) : option (list answer * option token) :=
  let pre_confirmed := pd_pre_confirmed p in
  let pending_block := pb_number pre_confirmed in
  let default := (match pd_pre_latest p with Some b => pb_number b | None => pending_block end, O) in
  let start :=
    match continuation_token with
    | Some ct =>
        if pending_block <? t_block ct then None
        else if is_pending p (t_block ct) then Some (t_block ct, t_offset ct)
        else Some default
    | None => Some default
    end in
  match start with
  | None => None
  | Some (start_block, start_offset) =>
      let pending_only :=
        let (evs, exhausted) := match_and_fill addresses keys pre_confirmed start_offset max_amount in
        Some (evs, if exhausted then None else Some (mkToken pending_block (start_offset + length evs))) in
      match pd_pre_latest p with
      | Some pre_latest =>
          if pb_number pre_latest =? start_block then
            let (evs, pre_latest_exhausted) := match_and_fill addresses keys pre_latest start_offset max_amount in
            if (length evs =? max_amount)%nat then
              Some (evs, Some (if pre_latest_exhausted then mkToken pending_block 0
                               else mkToken (pb_number pre_latest) (start_offset + max_amount)))
            else
              let (evs', exhausted) := match_and_fill addresses keys pre_confirmed 0 (max_amount - length evs) in
              Some (evs ++ evs', if exhausted then None else Some (mkToken pending_block (length evs')))
          else pending_only
      | None => pending_only
      end
  end.

Section GetEvents.
  Variables bloom_bytes range_bytes : nat.
  Variables sip0 sip1 : N -> N.

  (* Transaction::block_id by hash, crates/storage/src/connection/block.rs: the number of the
     stored block with this hash *)
  Fixpoint find_hash (blocks : list block) (h : N) (n : N) : option N :=
    match blocks with
    | [] => None
    | b :: blocks => if b_hash b =? h then Some n else find_hash blocks h (n + 1)
    end.

  (* map_to_block_to_number, get_events.rs:456-484; the outer None is BlockNotFound *)
  Definition map_to (d : db) (l1 : option N) (b : option block_id) : option (option N) :=
    match b with
    | Some (Hash h) => match find_hash (d_blocks d) h 0 with Some n => Some (Some n) | None => None end
    | Some (Number n) => Some (Some n)
    | Some L1Accepted => match l1 with Some n => Some (Some n) | None => None end
    | Some PreConfirmed | Some Latest | None => Some None
    end.
  (* map_from_block_to_number, get_events.rs:490-525 *)
  Definition map_from (d : db) (l1 : option N) (b : option block_id) : option (option N) :=
    match b with
    | Some (Hash h) => match find_hash (d_blocks d) h 0 with Some n => Some (Some n) | None => None end
    | Some (Number n) => Some (Some n)
    | Some L1Accepted => match l1 with Some n => Some (Some n) | None => None end
    | Some PreConfirmed | Some Latest => if height d =? 0 then None else Some (Some (height d - 1))
    | None => Some None
    end.

  (* get_events.rs:191-198 *)
  Definition replace_pending (p : pending) (b : option block_id) : option block_id :=
    match b with
    | Some (Number n) => if is_pending p n then Some PreConfirmed else b
    | _ => b
    end.

  Definition is_pre_confirmed_or_none (b : option block_id) : bool :=
    match b with Some PreConfirmed | None => true | _ => false end.

  (* get_events, get_events.rs:116-321, with the continuation token parsed.  pruning and limit
     are the node's configuration, l1 is the L1-L2 pointer. *)
  Definition get_events_from (pruning : bool) (limit : N) (s : state) (l1 : option N) (watched : pending) (v09 : bool)
      (q : request) (request_ct : option token) : reply token :=
    let d := s_db s in
    let addresses := q_addresses q in
    let chunk_size := q_chunk_size q in
    if (16 <? length (q_keys q))%nat then TooManyKeysInFilter
    else if page_size_limit <? N.of_nat chunk_size then PageSizeTooBig
    else
      let keys := truncate_keys (q_keys q) in
      match pending_get watched (height d - 1) v09 with
      | None => Panicked
      | Some p =>
          let from_id := replace_pending p (q_from q) in
          let to_id := replace_pending p (q_to q) in
          let rest :=
            match map_from d l1 from_id with
            | None => BlockNotFound
            | Some from =>
                match map_to d l1 to_id with
                | None => BlockNotFound
                | Some to =>
                    if match from, to with Some f, Some t => t <? f | _, _ => false end then Page [] None
                    else if match request_ct, from with Some t, Some f => t_block t <? f | _, _ => false end
                    then InvalidContinuationToken
                    else
                      let (from, offset) := match request_ct with
                                            | Some t => (Some (t_block t), t_offset t)
                                            | None => (from, O)
                                            end in
                      match events bloom_bytes range_bytes sip0 sip1 pruning limit d (s_cache s) (s_running s)
                              (mkConstraints from to addresses keys chunk_size offset) with
                      | RTooSmall => PageSizeTooSmall
                      | RPanic => Panicked
                      | ROk page =>
                          let evs := map of_stored (p_events page) in
                          match p_token page with
                          | Some t => Page evs (Some t)
                          | None =>
                              if is_pre_confirmed_or_none to_id then
                                if (length evs <? chunk_size)%nat then
                                  match get_pending_events p (chunk_size - length evs) keys addresses request_ct with
                                  | None => InvalidContinuationToken
                                  | Some (pending_events, pending_ct) => Page (evs ++ pending_events) pending_ct
                                  end
                                else
                                  Page evs (Some (mkToken (match pd_pre_latest p with
                                                           | Some b => pb_number b
                                                           | None => pb_number (pd_pre_confirmed p)
                                                           end) 0))
                              else Page evs None
                          end
                      end
                end
            end in
          match from_id, to_id with
          | Some PreConfirmed, _ =>
              if is_pre_confirmed_or_none to_id then
                match get_pending_events p chunk_size keys addresses request_ct with
                | None => InvalidContinuationToken
                | Some (pending_events, pending_ct) => Page pending_events pending_ct
                end
              else Page [] None
          | Some (Number from), Some PreConfirmed =>
              if pb_number (pd_pre_confirmed p) <? from then Page [] None else rest
          | _, _ => rest
          end
      end.

  (* get_events with the tokens as text, get_events.rs:147-155 and 309-312 (and 216-219) *)
  Definition get_events (pruning : bool) (limit : N) (s : state) (l1 : option N) (watched : pending) (v09 : bool)
      (q : request) (request_ct : option (list N)) : reply (list N) :=
    let ct := match request_ct with
              | None => Some None
              | Some text => match parse_token text with Some t => Some (Some t) | None => None end
              end in
    match ct with
    | None => InvalidContinuationToken
    | Some ct =>
        match get_events_from pruning limit s l1 watched v09 q ct with
        | Page evs t => Page evs (match t with Some t => Some (show_token t) | None => None end)
        | BlockNotFound => BlockNotFound
        | PageSizeTooBig => PageSizeTooBig
        | InvalidContinuationToken => InvalidContinuationToken
        | TooManyKeysInFilter => TooManyKeysInFilter
        | PageSizeTooSmall => PageSizeTooSmall
        | Panicked => Panicked
        end
    end.
End GetEvents.
