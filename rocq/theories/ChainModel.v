(* The stored chain: block headers, state update tables, class tables, L1 state, and the
   sync consumer that writes them.
   crates/storage/src/connection/{state_update,block,pruning,class,ethereum,reference}.rs,
   crates/pathfinder/src/state/sync.rs, crates/merkle-tree/src/contract_state.rs.

   A table is a list of rows in no particular order.  Contract and storage addresses are
   kept in the rows themselves instead of behind the ids of contract_addresses and
   storage_addresses: both id tables are unique by address and never shrink.
   Felts and block numbers are N; a block number never reaches i64::MAX.
   Not modelled here: transactions, receipts and event filters (EventModel.v), the tries
   and their root tables (Trie*.v), signatures, and class definitions' bytes. *)
From Coq Require Import List Arith NArith Bool.
From Verif Require Import Radix AList SortedMap StateUpdateModel.
Import ListNotations.
Local Open Scope N_scope.

(* a row of contract_updates, nonce_updates, storage_updates or casm_class_hashes *)
Record row (K V : Type) := Row { r_block : N; r_key : K; r_val : V }.
Arguments Row {K V}. Arguments r_block {K V}. Arguments r_key {K V}. Arguments r_val {K V}.

(* ORDER BY block_number DESC LIMIT 1 *)
Fixpoint newest {K V} (rows : list (row K V)) : option (row K V) :=
  match rows with
  | [] => None
  | r :: rest =>
      match newest rest with
      | None => Some r
      | Some r' => if r_block r <? r_block r' then Some r' else Some r
      end
  end.

(* WHERE key = ? AND bound(block_number) ORDER BY block_number DESC LIMIT 1 *)
Definition latest {K V} (eqb : K -> K -> bool) (bound : N -> bool) (k : K) (t : list (row K V))
  : option V :=
  option_map r_val (newest (filter (fun r => eqb k (r_key r) && bound (r_block r)) t)).

(* DELETE FROM t WHERE block_number = n *)
Definition delete_block {K V} (n : N) (t : list (row K V)) : list (row K V) :=
  filter (fun r => negb (r_block r =? n)) t.

(* prune_block, pruning.rs:141-221, for one of the three tables: for every key with a row at
   the last kept block, delete the rows of this key below it *)
Definition prune_table {K V} (eqb : K -> K -> bool) (last_kept : N) (t : list (row K V))
  : list (row K V) :=
  fold_left
    (fun t' k => filter (fun r => negb (eqb k (r_key r) && (r_block r <? last_kept))) t')
    (map r_key (filter (fun r => r_block r =? last_kept) t)) t.

Definition pair_eqb (a b : N * N) : bool := (fst a =? fst b) && (snd a =? snd b).

(* block_headers: hash is the primary key, number has a unique index (base.rs:27-40,
   revision_0056.rs:9); the other columns are left out *)
Record header := Header { h_number : N; h_hash : N; h_parent : N; h_commitment : N }.

(* the database *)
Record db := Db {
  d_headers : list header;
  d_classes : list (row N N);        (* contract_updates: address, class_hash *)
  d_nonces : list (row N N);         (* nonce_updates: address, nonce *)
  d_storage : list (row (N * N) N);  (* storage_updates: (address, key), value *)
  d_defs : nmap (option N);          (* class_definitions: hash, block_number or NULL *)
  d_redeclared : list (N * N);       (* redeclared_classes: class_hash, block_number *)
  d_casm : list (row N N);           (* casm_class_hashes: class hash, compiled_class_hash *)
  d_l1 : nmap N;                     (* l1_state: block number, block hash *)
  d_pointer : option N               (* refs.l1_l2_head *)
}.

Definition empty_db : db := Db [] [] [] [] [] [] [] [] None.

(* enum BlockId, common/src/lib.rs: Latest, Number, Hash *)
Inductive block_id := Latest | Number (n : N) | Hash (h : N).

Definition header_at (d : db) (n : N) : option header :=
  find (fun h => h_number h =? n) (d_headers d).
Definition header_of_hash (d : db) (x : N) : option header :=
  find (fun h => h_hash h =? x) (d_headers d).

(* block_exists(Number), block.rs:324-329 *)
Definition block_exists (d : db) (n : N) : bool := existsb (fun h => h_number h =? n) (d_headers d).

(* SELECT … FROM block_headers ORDER BY number DESC LIMIT 1 (block_id(Latest), block_number(Latest)) *)
Fixpoint top_header (l : list header) : option header :=
  match l with
  | [] => None
  | h :: r =>
      match top_header r with
      | None => Some h
      | Some h' => if h_number h <? h_number h' then Some h' else Some h
      end
  end.
Definition latest_number (d : db) : option N := option_map h_number (top_header (d_headers d)).

(* earliest_block_number: ORDER BY number ASC LIMIT 1 *)
Fixpoint least (l : list N) : option N :=
  match l with
  | [] => None
  | n :: r => match least r with None => Some n | Some m => Some (N.min n m) end
  end.
Definition earliest_number (d : db) : option N := least (map h_number (d_headers d)).

(* the three forms of the block condition in the lookups *)
Definition bound_of (d : db) (b : block_id) : N -> bool :=
  match b with
  | Latest => fun _ => true
  | Number n => fun m => m <=? n
  | Hash x => match header_of_hash d x with
              | Some h => fun m => m <=? h_number h
              | None => fun _ => false
              end
  end.

(* storage_value (storage_value_with_block), state_update.rs:620-677 *)
Definition lookup_storage (d : db) (b : block_id) (a k : N) : option N :=
  latest pair_eqb (bound_of d b) (a, k) (d_storage d).
(* contract_nonce, state_update.rs:720-768 *)
Definition lookup_nonce (d : db) (b : block_id) (a : N) : option N :=
  latest N.eqb (bound_of d b) a (d_nonces d).
(* contract_class_hash, state_update.rs:770-818 *)
Definition lookup_class (d : db) (b : block_id) (a : N) : option N :=
  latest N.eqb (bound_of d b) a (d_classes d).
(* contract_exists, state_update.rs:679-718 *)
Definition contract_exists (d : db) (b : block_id) (a : N) : bool :=
  existsb (fun r => (a =? r_key r) && bound_of d b (r_block r)) (d_classes d).
(* casm_hash_at, class.rs:470-528 *)
Definition lookup_casm (d : db) (b : block_id) (c : N) : option N :=
  latest N.eqb (bound_of d b) c (d_casm d).
(* class_definition_at_with_block_number, class.rs:225-293: the block number column *)
Definition lookup_declared_at (d : db) (b : block_id) (c : N) : option N :=
  match nget c (d_defs d) with
  | Some (Some n) => if bound_of d b n then Some n else None
  | _ => None
  end.

(* ContractAddress::is_system_contract, common/src/lib.rs:660-662 *)
Definition is_system (a : N) : bool := (a =? 1) || (a =? 2).

(* ---- insert_state_update_data0, state_update.rs:51-258 ---- *)
Definition class_rows (n : N) (m : nmap contract_update) : list (row N N) :=
  flat_map (fun x => match cu_class (snd x) with
                     | Some c => [Row n (fst x) (class_hash c)]
                     | None => []
                     end) m.
Definition nonce_rows (n : N) (m : nmap contract_update) : list (row N N) :=
  flat_map (fun x => match cu_nonce (snd x) with
                     | Some v => [Row n (fst x) v]
                     | None => []
                     end) m.
Definition slot_rows (n a : N) (m : nmap N) : list (row (N * N) N) :=
  map (fun kv => Row n (a, fst kv) (snd kv)) m.
Definition storage_rows (n : N) (u : state_update_data) : list (row (N * N) N) :=
  flat_map (fun x => slot_rows n (fst x) (cu_storage (snd x))) (sd_contracts u)
  ++ flat_map (fun x => slot_rows n (fst x) (snd x)) (sd_system u).

(* upsert_declared_at, state_update.rs:107-115, returning block_number *)
Definition upsert_declared (n c : N) (defs : nmap (option N)) : nmap (option N) * N :=
  match nget c defs with
  | Some (Some m) => (defs, m)
  | _ => (nset c (Some n) defs, n)
  end.

(* one declared class, state_update.rs:212-222 *)
Definition declare (n : N) (s : nmap (option N) * list (N * N)) (c : N)
  : nmap (option N) * list (N * N) :=
  let (defs, m) := upsert_declared n c (fst s) in
  (defs, if m =? n then snd s else (c, n) :: snd s).

(* the classes of new deployments, state_update.rs:228-233 *)
Definition deployed_classes (m : nmap contract_update) : list N :=
  flat_map (fun x => match cu_class (snd x) with Some (Deploy c) => [c] | _ => [] end) m.

(* INSERT OR IGNORE INTO casm_class_hashes, unique by (hash, block_number) *)
Definition insert_casm (n : N) (t : list (row N N)) (x : N * N) : list (row N N) :=
  if existsb (fun r => (r_key r =? fst x) && (r_block r =? n)) t then t
  else Row n (fst x) (snd x) :: t.

Definition insert_data (n : N) (u : state_update_data) (d : db) : db :=
  let s := fold_left (declare n) (map fst (sd_sierra u) ++ sd_cairo u) (d_defs d, d_redeclared d) in
  let defs := fold_left (fun defs c => fst (upsert_declared n c defs))
                        (deployed_classes (sd_contracts u)) (fst s) in
  Db (d_headers d)
     (class_rows n (sd_contracts u) ++ d_classes d)
     (nonce_rows n (sd_contracts u) ++ d_nonces d)
     (storage_rows n u ++ d_storage d)
     defs (snd s)
     (fold_left (insert_casm n) (sd_migrated u) (fold_left (insert_casm n) (sd_sierra u) (d_casm d)))
     (d_l1 d) (d_pointer d).

(* insert_block_header, block.rs:11-43: fails when the number or the hash is taken *)
Definition insert_header (h : header) (d : db) : option db :=
  if existsb (fun x => (h_number x =? h_number h) || (h_hash x =? h_hash h)) (d_headers d)
  then None
  else Some (Db (h :: d_headers d) (d_classes d) (d_nonces d) (d_storage d) (d_defs d)
                (d_redeclared d) (d_casm d) (d_l1 d) (d_pointer d)).

(* insert_cairo_class_definition / insert_sierra_class_definition, class.rs:20-140: the row
   appears with block_number NULL if there is none yet *)
Definition insert_definition (c : N) (d : db) : db :=
  Db (d_headers d) (d_classes d) (d_nonces d) (d_storage d)
     (match nget c (d_defs d) with Some _ => d_defs d | None => nset c None (d_defs d) end)
     (d_redeclared d) (d_casm d) (d_l1 d) (d_pointer d).

(* ---- state_update, state_update.rs:260-502 ---- *)
Definition with_contract (a : N) (f : contract_update -> contract_update) (m : nmap contract_update)
  : nmap contract_update :=
  nset a (f (get_or contract_default (nget a m))) m.

(* the with_… builders of common/src/state_update.rs:126-203 *)
Definition with_nonce (m : nmap contract_update) (r : row N N) : nmap contract_update :=
  with_contract (r_key r) (fun c => ContractUpdate (cu_storage c) (cu_class c) (Some (r_val r))) m.
Definition with_storage (s : nmap contract_update * nmap (nmap N)) (r : row (N * N) N)
  : nmap contract_update * nmap (nmap N) :=
  let (a, k) := r_key r in
  if is_system a
  then (fst s, nset a (nset k (r_val r) (get_or [] (nget a (snd s)))) (snd s))
  else (with_contract a (fun c => ContractUpdate (nset k (r_val r) (cu_storage c)) (cu_class c) (cu_nonce c))
                      (fst s), snd s).
Definition with_class (replaced : bool) (m : nmap contract_update) (r : row N N)
  : nmap contract_update :=
  with_contract (r_key r)
    (fun c => ContractUpdate (cu_storage c)
                (Some (if replaced then Replace (r_val r) else Deploy (r_val r))) (cu_nonce c)) m.

(* class_definitions LEFT OUTER JOIN casm_class_hashes, state_update.rs:379-417 *)
Definition with_declared (n : N) (casm : list (row N N)) (s : nmap N * list N) (x : N * option N)
  : nmap N * list N :=
  if match snd x with Some m => m =? n | None => false end then
    match find (fun r => (r_key r =? fst x) && (r_block r =? n)) casm with
    | Some r => (nset (fst x) (r_val r) (fst s), snd s)
    | None => (fst s, extend_set (snd s) [fst x])
    end
  else s.

Inductive read_outcome := ReadPanic | ReadNothing | ReadUpdate (u : state_update).

(* block_details, state_update.rs:260-303 *)
Definition find_header (d : db) (b : block_id) : option header :=
  match b with
  | Latest => top_header (d_headers d)
  | Number n => header_at d n
  | Hash x => header_of_hash d x
  end.

(* the rows of block n put together, state_update.rs:313-500 *)
Definition read_rows (d : db) (n hash commitment parent : N) : state_update :=
  let at_n {K} (r : row K N) := r_block r =? n in
  let nonces := fold_left with_nonce (filter at_n (d_nonces d)) [] in
  let stored := fold_left with_storage (filter at_n (d_storage d)) (nonces, []) in
  let declared := fold_left (with_declared n (d_casm d)) (d_defs d) ([], []) in
  let cairo := extend_set (snd declared)
                 (map fst (filter (fun x => snd x =? n) (d_redeclared d))) in
  let migrated :=
    fold_left (fun m r => nset (r_key r) (r_val r) m)
      (filter (fun r => at_n r
                        && existsb (fun r' => (r_key r' =? r_key r) && (r_block r' <? n)) (d_casm d))
              (d_casm d)) [] in
  let contracts :=
    fold_left (fun m r => with_class (existsb (fun r' => (r_key r' =? r_key r) && (r_block r' <? n))
                                              (d_classes d)) m r)
      (filter at_n (d_classes d)) (fst stored) in
  StateUpdate hash parent commitment contracts (snd stored) cairo (fst declared) migrated.

Definition read_state_update (d : db) (b : block_id) : read_outcome :=
  match find_header d b with
  | None => ReadNothing
  | Some h =>
      if h_number h =? 0 then ReadUpdate (read_rows d 0 (h_hash h) (h_commitment h) 0)
      else match header_at d (h_number h - 1) with
           | None => ReadPanic     (* the assertion on the genesis number fails *)
           | Some p => ReadUpdate (read_rows d (h_number h) (h_hash h) (h_commitment h) (h_commitment p))
           end
  end.

(* the checks of starknet_getStateUpdate, rpc/src/method/get_state_update.rs:84-108; None is
   the error BlockNotFound *)
Definition rpc_state_update (d : db) (b : block_id) : option read_outcome :=
  match find_header d b with
  | None => None
  | Some h =>
      if (h_number h =? 0) || block_exists d (h_number h - 1)
      then match read_state_update d b with ReadNothing => None | o => Some o end
      else None
  end.

(* ---- pruning.rs:40-223 ---- *)
Definition prune_block (n : N) (d : db) : db :=
  Db (filter (fun h => negb (h_number h =? n)) (d_headers d))
     (prune_table N.eqb (n + 1) (d_classes d))
     (prune_table N.eqb (n + 1) (d_nonces d))
     (prune_table pair_eqb (n + 1) (d_storage d))
     (d_defs d)
     (filter (fun x => negb (snd x =? n)) (d_redeclared d))   (* ON DELETE CASCADE *)
     (d_casm d) (d_l1 d) (d_pointer d).

(* ---- purge_block, block.rs:96-199 ---- *)
Definition purge_block (n : N) (d : db) : db :=
  Db (filter (fun h => negb (h_number h =? n)) (d_headers d))
     (delete_block n (d_classes d)) (delete_block n (d_nonces d)) (delete_block n (d_storage d))
     (map (fun x => (fst x, match snd x with
                            | Some m => if m =? n then None else Some m
                            | None => None
                            end)) (d_defs d))
     (filter (fun x => negb (snd x =? n)) (d_redeclared d))   (* ON DELETE CASCADE *)
     (d_casm d) (d_l1 d) (d_pointer d).

Definition set_pointer (p : option N) (d : db) : db :=
  Db (d_headers d) (d_classes d) (d_nonces d) (d_storage d) (d_defs d) (d_redeclared d)
     (d_casm d) (d_l1 d) p.

(* ---- l1_update, sync.rs:1273-1297 ---- *)
Definition l1_update (n hash : N) (d : db) : db :=
  let d1 := Db (d_headers d) (d_classes d) (d_nonces d) (d_storage d) (d_defs d) (d_redeclared d)
               (d_casm d) (nset n hash (d_l1 d)) (d_pointer d) in
  match header_at d1 n with
  | Some h => if h_hash h =? hash then set_pointer (Some n) d1 else d1
  | None => d1
  end.

(* a block as handed to the consumer; only the parts that reach the modelled tables *)
Record l2_block := L2Block {
  lb_number : N; lb_hash : N; lb_parent : N; lb_commitment : N; lb_data : state_update_data }.

Definition is_some {A} (o : option A) : bool := match o with Some _ => true | None => false end.

(* update_contract_state, contract_state.rs:80-92: an update of a contract without class
   fails.  The comparison of the resulting state commitment (sync.rs:1321-1329) is not
   modelled: a mismatch is a failing event, see [Failure]. *)
Definition classes_known (d : db) (b : l2_block) : bool :=
  forallb (fun x => is_system (fst x) || is_some (cu_class (snd x))
                    || is_some (lookup_class d (Number (lb_number b)) (fst x)))
          (sd_contracts (lb_data b)).

(* ---- l2_update, sync.rs:1300-1434 ---- *)
Definition l2_update (b : l2_block) (d : db) : option db :=
  if negb (classes_known d b) then None else
  match insert_header (Header (lb_number b) (lb_hash b) (lb_parent b) (lb_commitment b)) d with
  | None => None
  | Some d1 =>
      let d2 := insert_data (lb_number b) (lb_data b) d1 in
      let expected := match d_pointer d2 with Some p => p + 1 | None => 0 end in
      Some (if expected =? lb_number b then
              match nget (lb_number b) (d_l1 d2) with
              | Some x => if x =? lb_hash b then set_pointer (Some (lb_number b)) d2 else d2
              | None => d2
              end
            else d2)
  end.

(* the purge loop of l2_reorg, sync.rs:1588-1601, [k] iterations down from n *)
Fixpoint purge_down (k : nat) (n : N) (d : db) : db :=
  match k with
  | O => d
  | S k' => purge_down k' (n - 1) (purge_block n d)
  end.

(* ---- l2_reorg, sync.rs:1543-1625, without revert_starknet_state (below) ---- *)
Definition l2_reorg (tail : N) (d : db) : option db :=
  match latest_number d with
  | None => None
  | Some head =>
      if negb (block_exists d tail) then None
      else if negb (tail =? 0) && negb (block_exists d (tail - 1)) then None
      else
        let d1 := purge_down (N.to_nat (head + 1 - tail)) head d in
        Some (match d_pointer d1 with
              | None => d1
              | Some p => if tail =? 0 then set_pointer None d1
                          else if tail <=? p then set_pointer (Some (tail - 1)) d1
                          else d1
              end)
  end.

(* BlockchainHistoryMode, pruning.rs:30-37 *)
Inductive history_mode := Archive | Prune (num_blocks_kept : N).
(* PruningEvent, sync.rs:1068-1084 *)
Inductive pruning_event := L1Checkpoint (n : N) | L2Head (n : N).

(* the pruning point, sync.rs:1111-1145; None is an early return *)
Definition pruning_point (e : pruning_event) (d : db) : option N :=
  match e with
  | L1Checkpoint c =>
      match latest_number d with
      | None => None
      | Some head => if head <=? c then None else Some c
      end
  | L2Head h =>
      if h =? 0 then None
      else match top_header (map (fun x => Header (fst x) 0 0 0) (d_l1 d)) with  (* latest_l1_checkpoint *)
           | Some c => if h_number c <? h then None else Some h
           | None => Some h
           end
  end.

(* the loop of sync.rs:1166-1173, [k] iterations up from n *)
Fixpoint prune_up (k : nat) (n : N) (d : db) : db :=
  match k with
  | O => d
  | S k' => prune_up k' (n + 1) (if block_exists d n then prune_block n d else d)
  end.

(* ---- perform_blockchain_pruning, sync.rs:1103-1177; None is the panic of expect ---- *)
Definition perform_pruning (m : history_mode) (e : pruning_event) (d : db) : option db :=
  match m with
  | Archive => Some d
  | Prune kept =>
      match pruning_point e d with
      | None => Some d
      | Some point =>
          if point <? kept then Some d
          else
            let last_kept := point - kept in
            match earliest_number d with
            | None => None
            | Some earliest => Some (prune_up (N.to_nat (last_kept - earliest)) earliest d)
            end
      end
  end.

(* SyncEvent, sync.rs.  PreConfirmed writes nothing.  Failure: the handling of an event fails
   for a reason outside the model (state commitment mismatch, disk, …) *)
Inductive sync_event :=
| L1Update (n hash : N)
| DownloadedBlock (b : l2_block)
| FinalizedConsensusBlock (b : l2_block)
| Reorg (tail : N)
| ClassDefinition (c : N)
| Failure.

(* the consumer task: the database and next_number *)
Record consumer := Consumer { c_db : db; c_next : N }.

(* the start of consumer, sync.rs:757-772 *)
Definition start (d : db) : consumer :=
  Consumer d (match latest_number d with Some n => n + 1 | None => 0 end).

(* one iteration of the loop of consumer, sync.rs:774-1062; None: the task ends with an error
   or a panic and the transaction is rolled back *)
Definition consume (m : history_mode) (s : consumer) (e : sync_event) : option consumer :=
  match e with
  | L1Update n x =>
      match perform_pruning m (L1Checkpoint n) (l1_update n x (c_db s)) with
      | None => None
      | Some d => Some (Consumer d (c_next s))
      end
  | DownloadedBlock b =>
      if lb_number b <? c_next s then Some s
      else match l2_update b (c_db s) with
           | None => None
           | Some d1 =>
               match perform_pruning m (L2Head (lb_number b)) d1 with
               | None => None
               | Some d => Some (Consumer d (c_next s + 1))
               end
           end
  | FinalizedConsensusBlock b =>
      if lb_number b <? c_next s then Some s
      else match l2_update b (c_db s) with
           | None => None
           | Some d => Some (Consumer d (c_next s))
           end
  | Reorg tail =>
      match l2_reorg tail (c_db s) with
      | None => None
      | Some d => Some (Consumer d tail)
      end
  | ClassDefinition c => Some (Consumer (insert_definition c (c_db s)) (c_next s))
  | Failure => None
  end.

(* when the consumer ends, so does the sync process (sync.rs:662-735): the next consumer
   starts from the committed database *)
Definition step (m : history_mode) (s : consumer) (e : sync_event) : consumer :=
  match consume m s e with
  | Some s' => s'
  | None => start (c_db s)
  end.

Definition run (m : history_mode) (es : list sync_event) : consumer :=
  fold_left (step m) es (start empty_db).

(* ---- reverse updates, state_update.rs:820-1053 ---- *)
(* enum ReverseContractUpdate, common/src/state_update.rs:60-72 *)
Inductive reverse_update := Deleted | Updated (u : contract_update).

Definition dedup {K} (eqb : K -> K -> bool) (l : list K) : list K :=
  fold_right (fun x acc => if existsb (eqb x) acc then acc else x :: acc) [] l.

(* SELECT DISTINCT key FROM t WHERE block_number > to AND block_number <= from *)
Definition touched {K V} (eqb : K -> K -> bool) (from to : N) (t : list (row K V)) : list K :=
  dedup eqb (map r_key (filter (fun r => (to <? r_block r) && (r_block r <=? from)) t)).

(* reverse_contract_updates, state_update.rs:836-874: the class changes *)
Definition reverse_classes (d : db) (from to : N) : nmap reverse_update :=
  map (fun a => (a, match latest N.eqb (fun m => m <=? to) a (d_classes d) with
                    | None => Deleted
                    | Some c => Updated (ContractUpdate [] (Some (Replace c)) None)
                    end))
      (touched N.eqb from to (d_classes d)).

(* entry(address).or_insert_with(Updated(default)).update_mut(), state_update.rs:876-894 *)
Definition update_mut (f : contract_update -> contract_update) (m : nmap reverse_update) (a : N)
  : nmap reverse_update :=
  match nget a m with
  | Some Deleted => m
  | Some (Updated u) => nset a (Updated (f u)) m
  | None => nset a (Updated (f contract_default)) m
  end.

(* reverse_storage_updates, state_update.rs:900-966, for one contract *)
Definition reverse_slots (d : db) (from to a : N) : nmap N :=
  map (fun ak => (snd ak, get_or 0 (latest pair_eqb (fun m => m <=? to) ak (d_storage d))))
      (filter (fun ak => fst ak =? a) (touched pair_eqb from to (d_storage d))).

Definition reverse_contract_updates (d : db) (from to : N) : nmap reverse_update :=
  let m1 := fold_left
    (fun m a => update_mut (fun u => ContractUpdate (cu_storage u) (cu_class u)
                                       (latest N.eqb (fun x => x <=? to) a (d_nonces d))) m a)
    (touched N.eqb from to (d_nonces d)) (reverse_classes d from to) in
  fold_left
    (fun m a => update_mut (fun u => ContractUpdate (reverse_slots d from to a) (cu_class u) (cu_nonce u)) m a)
    (dedup N.eqb (map fst (touched pair_eqb from to (d_storage d)))) m1.

(* A contract's leaf in the global trie before hashing: class, nonce and the contents of its
   storage trie (only non-zero values are present).  None is the zero state hash, which the
   trie does not hold. *)
Record leaf := Leaf { lf_class : N; lf_nonce : N; lf_storage : nmap N }.

(* set in a storage trie: zero removes the key (merkle_tree.rs, see TrieModel.v) *)
Definition tree_set (m : nmap N) (kv : N * N) : nmap N :=
  if snd kv =? 0 then al_remove N.eqb (fst kv) m else nset (fst kv) (snd kv) m.

(* revert_contract_state, contract_state.rs:138-216, given the contents of the contract's
   storage trie at the head; the outer None is the panic of unwrap *)
Definition revert_contract (d : db) (target a : N) (tree : nmap N) (r : reverse_update)
  : option (option leaf) :=
  match r with
  | Deleted => Some None
  | Updated u =>
      let class :=
        match cu_class u with
        | Some c => Some (class_hash c)
        | None => if is_system a then Some 0 else lookup_class d (Number target) a
        end in
      let nonce :=
        match cu_nonce u with
        | Some x => x
        | None => get_or 0 (lookup_nonce d (Number target) a)
        end in
      let tree' := fold_left tree_set (cu_storage u) tree in
      match class with
      | None => None
      | Some c => Some (if is_system a && is_nil tree' then None else Some (Leaf c nonce tree'))
      end
  end.

(* update_contract_state, contract_state.rs:42-109, as a change of the leaf: [old] is the
   contract's storage trie after the parent block; None is ContractClassHashMissing *)
Definition update_contract (d : db) (n a : N) (old : nmap N) (u : contract_update) : option leaf :=
  let class :=
    if is_system a then Some 0
    else match cu_class u with
         | Some c => Some (class_hash c)
         | None => lookup_class d (Number n) a
         end in
  let nonce :=
    match cu_nonce u with
    | Some x => x
    | None => get_or 0 (lookup_nonce d (Number n) a)
    end in
  match class with
  | None => None
  | Some c => Some (Leaf c nonce (fold_left tree_set (cu_storage u) old))
  end.

(* reverse_sierra_class_updates, state_update.rs:1011-1053: the classes with a row in the
   range, each with the compiled hash of SOME older row, the subquery having no order *)
Definition reverse_sierra_ok (d : db) (from to : N) (l : list (N * option N)) : Prop :=
  map fst l = map r_key (filter (fun r => (to <? r_block r) && (r_block r <=? from)) (d_casm d)) /\
  Forall (fun x =>
    match snd x with
    | Some v => exists r, In r (d_casm d) /\ r_key r = fst x /\ r_block r <= to /\ r_val r = v
    | None => forall r, In r (d_casm d) -> r_key r = fst x -> to < r_block r
    end) l.
