(* Reading contract state over the RPC, including the pending blocks:
   crates/gateway-types/src/reply.rs (StateDiff and its conversion), crates/rpc/src/pending.rs,
   crates/rpc/src/types.rs (BlockId), crates/rpc/src/method/{get_nonce,get_storage_at,
   get_class_hash_at}.rs.

   Of the pending data only numbers and state updates are kept (events are in GetEventsModel.v).  The database is that of ChainModel.v. *)
From Coq Require Import List Arith NArith Bool.
From Verif Require Import AList StateUpdateModel ChainModel.
Import ListNotations.
Local Open Scope N_scope.

(* ---- state diffs of the gateway ---- *)

(* StateDiff, reply.rs:2141-2158 *)
Record gdiff := Gdiff {
  g_storage : nmap (list (N * N));
  g_deployed : list (N * N);
  g_cairo : list N;
  g_sierra : list (N * N);
  g_nonces : nmap N;
  g_replaced : list (N * N);
  g_migrated : list (N * N) }.
Definition gdiff_default : gdiff := Gdiff [] [] [] [] [] [] [].

(* StateDiff::extend, reply.rs:2168-2182: migrated_compiled_classes are not appended *)
Definition gextend (self other : gdiff) : gdiff :=
  Gdiff
    (fold_left (fun m kv => nset (fst kv) (get_or [] (nget (fst kv) m) ++ snd kv) m)
       (g_storage other) (g_storage self))
    (g_deployed self ++ g_deployed other)
    (extend_set (g_cairo self) (g_cairo other))
    (g_sierra self ++ g_sierra other)
    (extend_map (g_nonces self) (g_nonces other))
    (g_replaced self ++ g_replaced other)
    (g_migrated self).

(* StateDiff::deduplicate, reply.rs:2185-2202 *)
Definition gdedup (d : gdiff) : gdiff :=
  Gdiff (map (fun x => (fst x, extend_map [] (snd x))) (g_storage d))
    (g_deployed d) (g_cairo d) (g_sierra d) (g_nonces d) (g_replaced d) (g_migrated d).

(* contract_updates.entry(a).or_default(), then a change: with_storage_update,
   with_deployed_contract, with_contract_nonce, with_replaced_class, state_update.rs:147-189 *)
Definition with_entry (a : N) (f : contract_update -> contract_update) (m : nmap contract_update)
  : nmap contract_update := nset a (f (get_or contract_default (nget a m))) m.
Definition set_slot (k v : N) (u : contract_update) : contract_update :=
  ContractUpdate (nset k v (cu_storage u)) (cu_class u) (cu_nonce u).
Definition set_class (c : class_update) (u : contract_update) : contract_update :=
  ContractUpdate (cu_storage u) (Some c) (cu_nonce u).
Definition set_nonce (n : N) (u : contract_update) : contract_update :=
  ContractUpdate (cu_storage u) (cu_class u) (Some n).
(* with_system_storage_update, state_update.rs:165-177 *)
Definition set_system_slot (a : N) (m : nmap (nmap N)) (kv : N * N) : nmap (nmap N) :=
  nset a (nset (fst kv) (snd kv) (get_or [] (nget a m))) m.

(* From<StateUpdate> for pathfinder_common::StateUpdate, reply.rs:2056-2131.  The system contracts
   are 0x1 and 0x2. *)
Definition of_gateway (block_hash parent_commitment commitment : N) (d : gdiff) : state_update :=
  let system := fold_left
    (fun m s => fold_left (set_system_slot s) (get_or [] (nget s (g_storage d))) m) [1; 2] [] in
  let rest := filter (fun x => negb (is_system (fst x))) (g_storage d) in
  let c1 := fold_left (fun m x => fold_left (fun m kv => with_entry (fst x) (set_slot (fst kv) (snd kv)) m) (snd x) m) rest [] in
  let c2 := fold_left (fun m x => with_entry (fst x) (set_class (Deploy (snd x))) m) (g_deployed d) c1 in
  let c3 := fold_left (fun m x => with_entry (fst x) (set_nonce (snd x)) m) (g_nonces d) c2 in
  let c4 := fold_left (fun m x => with_entry (fst x) (set_class (Replace (snd x))) m) (g_replaced d) c3 in
  StateUpdate block_hash parent_commitment commitment c4 system (g_cairo d)
    (extend_map [] (g_sierra d)) (extend_map [] (g_migrated d)).

(* ---- pending data ---- *)

Definition update_default : state_update := StateUpdate 0 0 0 [] [] [] [] [].
Definition with_parent_commitment (c : N) (u : state_update) : state_update :=
  StateUpdate (su_block_hash u) c (su_commitment u) (su_contracts u) (su_system u) (su_cairo u)
    (su_sierra u) (su_migrated u).

(* PendingData, pending.rs:130-143: the pre-latest block with its update, the update of the
   pre-confirmed block, both merged, and the number of the pre-confirmed block *)
Record pending := Pending {
  p_pre_latest : option (N * state_update);
  p_update : state_update;
  p_aggregated : state_update;
  p_number : N }.

(* try_from_pre_confirmed_and_pre_latest, pending.rs:183-292, the part about state: [diffs] is
   transaction_state_diffs, None for candidates.  None: the assertion fails. *)
Definition pre_confirmed_update (diffs : list (option gdiff)) : state_update :=
  of_gateway 0 0 0 (gdedup (fold_left gextend (filter_map (fun x => x) diffs) gdiff_default)).
Definition make_pending (diffs : list (option gdiff)) (number : N)
    (pre_latest : option (N * state_update)) : option pending :=
  let u := pre_confirmed_update diffs in
  match pre_latest with
  | Some (n, p) => if n + 1 =? number then Some (Pending (Some (n, p)) u (apply p u) number) else None
  | None => Some (Pending None u (apply update_default u) number)
  end.

(* PendingData::empty, pending.rs:294-332 *)
Definition pending_empty (number commitment : N) : pending :=
  let u := with_parent_commitment commitment update_default in
  Pending None u u (number + 1).

(* PendingWatcher::get, pending.rs:605-716.  None: an assertion fails. *)
Definition pending_get (d : db) (v09 : bool) (w : pending) : option pending :=
  let '(number, commitment) :=
    match top_header (d_headers d) with Some h => (h_number h, h_commitment h) | None => (0, 0) end in
  if v09 then
    match p_pre_latest w with
    | Some (n, p) =>
        if n =? number + 1 then
          if n + 1 =? p_number w
          then Some (Pending (Some (n, with_parent_commitment commitment p)) (p_update w) (p_aggregated w) (p_number w))
          else None
        else if n =? number then
          if n + 1 =? p_number w
          then let u := with_parent_commitment commitment (p_update w) in Some (Pending None u u (p_number w))
          else None
        else Some (pending_empty number commitment)
    | None =>
        if p_number w =? number + 1
        then let u := with_parent_commitment commitment (p_update w) in Some (Pending None u u (p_number w))
        else Some (pending_empty number commitment)
    end
  else Some (pending_empty number commitment).

(* ---- block ids ---- *)

(* BlockId of the RPC, types.rs:24-36 *)
Inductive rpc_block_id := RNumber (n : N) | RHash (h : N) | RL1Accepted | RLatest | RPreConfirmed.

(* to_common_coerced, types.rs:86-101 *)
Definition to_common_coerced (d : db) (id : rpc_block_id) : option block_id :=
  match id with
  | RNumber n => Some (Number n)
  | RHash h => Some (Hash h)
  | RL1Accepted => option_map Number (d_pointer d)
  | RLatest | RPreConfirmed => Some Latest
  end.

(* block_exists, block.rs:316-338 *)
Definition id_exists (d : db) (b : block_id) : bool :=
  match b with
  | Latest => negb (is_nil (d_headers d))
  | Number n => block_exists d n
  | Hash h => existsb (fun x => h_hash x =? h) (d_headers d)
  end.

(* ---- the methods ---- *)
Inductive reply (A : Type) := Found (a : A) | ContractNotFound | BlockNotFound | Panics.
Arguments Found {A}. Arguments ContractNotFound {A}. Arguments BlockNotFound {A}. Arguments Panics {A}.

(* storage_value_with_block, storage/src/connection/state_update.rs:633-686 *)
Definition lookup_storage_block (d : db) (b : block_id) (a k : N) : option (N * N) :=
  option_map (fun r => (r_val r, r_block r))
    (newest (filter (fun r => pair_eqb (a, k) (r_key r) && bound_of d b (r_block r)) (d_storage d))).

(* The beginning of every method: pending data first if the pre-confirmed block is asked for, then
   the stored blocks.  [from_pending] None: nothing found there. *)
Definition read {A} (d : db) (v09 : bool) (w : pending) (id : rpc_block_id)
    (from_pending : pending -> option A) (from_db : block_id -> reply A) : reply A :=
  let stored :=
    match to_common_coerced d id with
    | None => BlockNotFound
    | Some b => if id_exists d b then from_db b else BlockNotFound
    end in
  match id with
  | RPreConfirmed =>
      match pending_get d v09 w with
      | None => Panics
      | Some p => match from_pending p with Some x => Found x | None => stored end
      end
  | _ => stored
  end.

(* get_nonce, get_nonce.rs:30-86 *)
Definition get_nonce (d : db) (v09 : bool) (w : pending) (id : rpc_block_id) (a : N) : reply N :=
  read d v09 w id
    (fun p => contract_nonce (p_aggregated p) a)
    (fun b => match lookup_nonce d b a with
              | Some n => Found n
              | None => if contract_exists d b a then Found 0 else ContractNotFound
              end).

(* get_storage_at, get_storage_at.rs:56-125: the value and last_update_block *)
Definition get_storage_at (d : db) (v09 : bool) (w : pending) (id : rpc_block_id) (a k : N)
  : reply (N * N) :=
  read d v09 w id
    (fun p => option_map (fun f => match f with FoundZero => (0, 0) | FoundSet v => (v, p_number p) end)
                (storage_provenance (p_aggregated p) a k))
    (fun b => match lookup_storage_block d b a k with
              | Some x => Found x
              | None => if contract_exists d b a then Found (0, 0) else ContractNotFound
              end).

(* get_class_hash_at, get_class_hash_at.rs:29-75 *)
Definition get_class_hash_at (d : db) (v09 : bool) (w : pending) (id : rpc_block_id) (a : N) : reply N :=
  read d v09 w id
    (fun p => contract_class (p_aggregated p) a)
    (fun b => match lookup_class d b a with Some c => Found c | None => ContractNotFound end).
