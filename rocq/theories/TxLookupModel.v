(* Stored and pending transactions and the methods that look them up:
   crates/storage/src/connection/transaction.rs, crates/rpc/src/pending.rs (the part about
   transactions), crates/rpc/src/method/{get_transaction_by_hash,get_transaction_receipt,
   get_transaction_status,get_transaction_by_block_id_and_index,get_block_transaction_count}.rs.

   A transaction is its hash and the rest of it, and so is a receipt; the rest is a number.  Encoding and
   compression of the stored rows is left out (bincode and zstd give back what was put in). *)
From Coq Require Import List Arith NArith Bool.
From Verif Require Import AList StateUpdateModel ChainModel RpcReadModel.
Import ListNotations.
Local Open Scope N_scope.

Record tx := Tx { tx_hash : N; tx_body : N }.
Record receipt := Receipt { rc_hash : N; rc_status : N; rc_body : N }.
Definition event := N.

(* ---- the tables ---- *)

(* a row of transactions, schema/revision_0057.rs:128-132: block_number, transactions, events *)
Record tx_row := TxRow { row_block : N; row_txs : list (tx * receipt); row_events : option (list (list event)) }.
(* a row of transaction_hashes, revision_0057.rs:133-137 *)
Record hash_row := HashRow { hr_hash : N; hr_block : N; hr_idx : nat }.
(* the headers (number and hash), the two tables and the L1-L2 pointer *)
Record tdb := Tdb {
  t_headers : list (N * N);
  t_txs : list tx_row;
  t_hashes : list hash_row;
  t_pointer : option N }.
Definition tdb_empty : tdb := Tdb [] [] [] None.

(* a block that is stored: header, transactions with receipts, events *)
Record sblock := SBlock {
  sb_number : N; sb_hash : N; sb_txs : list (tx * receipt); sb_events : list (list event) }.

(* INSERT INTO transaction_hashes for one transaction: the hash is the primary key *)
Definition insert_hash (n : N) (rows : option (list hash_row)) (x : nat * (tx * receipt)) : option (list hash_row) :=
  match rows with
  | None => None
  | Some l => if existsb (fun r => hr_hash r =? tx_hash (fst (snd x))) l then None
              else Some (l ++ [HashRow (tx_hash (fst (snd x))) n (fst x)])
  end.
Fixpoint enumerate_from {A} (i : nat) (l : list A) : list (nat * A) :=
  match l with [] => [] | x :: r => (i, x) :: enumerate_from (S i) r end.

(* insert_transaction_data, transaction.rs:95-172; None: a constraint of the tables is violated.
   The bloom filters are in AggregateModel.v. *)
Definition insert_transaction_data (n : N) (txs : list (tx * receipt)) (events : option (list (list event)))
    (d : tdb) : option tdb :=
  if is_nil txs && match events with Some e => is_nil e | None => true end then Some d
  else
    match fold_left (insert_hash n) (enumerate_from 0 txs) (Some (t_hashes d)) with
    | None => None
    | Some hashes =>
        if existsb (fun r => row_block r =? n) (t_txs d) then None
        else Some (Tdb (t_headers d) (t_txs d ++ [TxRow n txs events]) hashes (t_pointer d))
    end.

(* insert_block_header, block.rs:11-43, and then insert_transaction_data, as in l2_update,
   sync.rs:1392-1403, in one database transaction *)
Definition store (b : sblock) (d : tdb) : option tdb :=
  if existsb (fun x => (fst x =? sb_number b) || (snd x =? sb_hash b)) (t_headers d) then None
  else insert_transaction_data (sb_number b) (sb_txs b) (Some (sb_events b))
         (Tdb (t_headers d ++ [(sb_number b, sb_hash b)]) (t_txs d) (t_hashes d) (t_pointer d)).

(* DELETE FROM block_headers WHERE number = n: purge_block, block.rs:96-112, and prune_block,
   pruning.rs:45-67; the rows of both tables go with it (ON DELETE CASCADE) *)
Definition delete_block (n : N) (d : tdb) : tdb :=
  Tdb (filter (fun x => negb (fst x =? n)) (t_headers d))
      (filter (fun r => negb (row_block r =? n)) (t_txs d))
      (filter (fun r => negb (hr_block r =? n)) (t_hashes d))
      (t_pointer d).

Definition set_l1_pointer (p : option N) (d : tdb) : tdb := Tdb (t_headers d) (t_txs d) (t_hashes d) p.

Inductive change := Store (b : sblock) | Delete (n : N) | Pointer (p : option N).
(* a database transaction that fails is rolled back *)
Definition apply_change (d : tdb) (c : change) : tdb :=
  match c with
  | Store b => get_or d (store b d)
  | Delete n => delete_block n d
  | Pointer p => set_l1_pointer p d
  end.
Definition tdb_after (cs : list change) : tdb := fold_left apply_change cs tdb_empty.

(* ---- lookups in the database ---- *)
(* Broken: an error that cannot be the caller's *)
Inductive lookup (A : Type) := Hit (a : A) | Miss | Broken.
Arguments Hit {A}. Arguments Miss {A}. Arguments Broken {A}.

(* the JOIN of query_transaction_by_hash, transaction.rs:559-571 and 598-610 *)
Definition join_hash (d : tdb) (h : N) : option (tx_row * nat) :=
  match find (fun r => hr_hash r =? h) (t_hashes d) with
  | None => None
  | Some hr => option_map (fun r => (r, hr_idx hr)) (find (fun r => row_block r =? hr_block hr) (t_txs d))
  end.

(* transaction, transaction.rs:216-224, with query_transaction_by_hash, 555-592 *)
Definition transaction (d : tdb) (h : N) : lookup tx :=
  match join_hash d h with
  | None => Miss
  | Some (r, i) => match nth_error (row_txs r) i with Some x => Hit (fst x) | None => Broken end
  end.

(* transaction_with_receipt, transaction.rs:226-237, with query_transaction_and_events_by_hash,
   594-653 *)
Definition transaction_with_receipt (d : tdb) (h : N) : lookup (tx * receipt * list event * N) :=
  match join_hash d h with
  | None => Miss
  | Some (r, i) =>
      match nth_error (row_txs r) i with
      | None => Broken
      | Some x =>
          match row_events r with
          | None => Broken
          | Some ev => match nth_error ev i with
                       | Some e => Hit (fst x, snd x, e, row_block r)
                       | None => Broken
                       end
          end
      end
  end.

(* block_number, block.rs:268-305 *)
Fixpoint top_number (l : list (N * N)) : option N :=
  match l with
  | [] => None
  | x :: r => match top_number r with Some m => Some (N.max (fst x) m) | None => Some (fst x) end
  end.
Definition block_number (d : tdb) (b : block_id) : option N :=
  match b with
  | Latest => top_number (t_headers d)
  | Number n => if existsb (fun x => fst x =? n) (t_headers d) then Some n else None
  | Hash h => option_map fst (find (fun x => snd x =? h) (t_headers d))
  end.
(* block_hash of a number, block.rs:240-266 *)
Definition block_hash_of (d : tdb) (n : N) : option N :=
  option_map snd (find (fun x => fst x =? n) (t_headers d)).
(* block_exists, block.rs:316-338 *)
Definition exists_block (d : tdb) (b : block_id) : bool :=
  match b with
  | Latest => negb (is_nil (t_headers d))
  | Number n => existsb (fun x => fst x =? n) (t_headers d)
  | Hash h => existsb (fun x => snd x =? h) (t_headers d)
  end.
(* query_transactions_by_block, transaction.rs:399-432 *)
Definition transactions_by_block (d : tdb) (n : N) : list (tx * receipt) :=
  match find (fun r => row_block r =? n) (t_txs d) with Some r => row_txs r | None => [] end.
(* transaction_at_block, transaction.rs:239-251 *)
Definition transaction_at_block (d : tdb) (b : block_id) (i : nat) : option tx :=
  match block_number d b with
  | None => None
  | Some n => option_map fst (nth_error (transactions_by_block d n) i)
  end.
(* transaction_count, transaction.rs:253-258 *)
Definition transaction_count (d : tdb) (b : block_id) : nat :=
  match block_number d b with None => 0%nat | Some n => length (transactions_by_block d n) end.

(* block_is_l1_accepted, block.rs:424-434, for a number *)
Definition is_l1_accepted (d : tdb) (n : N) : bool :=
  match t_pointer d with
  | None => false
  | Some p => match block_number d (Number n) with Some m => m <=? p | None => false end
  end.

(* ---- pending data ---- *)

(* the pre-confirmed block of the gateway, gateway-types/src/reply.rs:96-120 *)
Record gw_block := GwBlock { gw_txs : list tx; gw_receipts : list (option (receipt * list event)) }.
(* the pre-latest block, reply.rs:60-91 *)
Record pl_block := PlBlock { pl_parent : N; pl_txs : list tx; pl_receipts : list (receipt * list event) }.

(* PendingBlocks, pending.rs, with the number *)
Record ptx := Ptx {
  pt_number : N;
  pt_txs : list tx;
  pt_receipts : list (receipt * list event);
  pt_candidates : list tx;
  pt_pre_latest : option (N * pl_block) }.

(* try_from_pre_confirmed_and_pre_latest, pending.rs:183-292, the part about transactions *)
Inductive conversion := Converted (p : ptx) | Mismatched | AssertionFails.
Definition has_receipt (rs : list (receipt * list event)) (t : tx) : bool :=
  existsb (fun r => rc_hash (fst r) =? tx_hash t) rs.
Definition convert (b : gw_block) (number : N) (pre_latest : option (N * pl_block)) : conversion :=
  let receipts := flat_map (fun r => match r with Some x => [x] | None => [] end) (gw_receipts b) in
  let confirmed := filter (has_receipt receipts) (gw_txs b) in
  let candidates := filter (fun t => negb (has_receipt receipts t)) (gw_txs b) in
  if negb (length receipts =? length confirmed)%nat then Mismatched
  else
    match pre_latest with
    | Some (n, _) =>
        if n + 1 =? number then Converted (Ptx number confirmed receipts candidates pre_latest) else AssertionFails
    | None => Converted (Ptx number confirmed receipts candidates None)
    end.

(* PendingData::empty, pending.rs:294-332 *)
Definition ptx_empty (latest : N) : ptx := Ptx (latest + 1) [] [] [] None.

(* PendingWatcher::get, pending.rs:605-716; None: an assertion fails *)
Definition ptx_get (d : tdb) (v09 : bool) (w : ptx) : option ptx :=
  let latest := get_or 0 (top_number (t_headers d)) in
  if v09 then
    match pt_pre_latest w with
    | Some (n, _) =>
        if n =? latest + 1 then if n + 1 =? pt_number w then Some w else None
        else if n =? latest then
          if n + 1 =? pt_number w
          then Some (Ptx (pt_number w) (pt_txs w) (pt_receipts w) (pt_candidates w) None) else None
        else Some (ptx_empty latest)
    | None => if pt_number w =? latest + 1 then Some w else Some (ptx_empty latest)
    end
  else Some (ptx_empty latest).

(* find_transaction, pending.rs:481-505 *)
Definition find_tx (h : N) (l : list tx) : option tx := find (fun t => tx_hash t =? h) l.
Definition find_transaction (p : ptx) (h : N) : option tx :=
  match find_tx h (pt_txs p) with
  | Some t => Some t
  | None =>
      match find_tx h (pt_candidates p) with
      | Some t => Some t
      | None => match pt_pre_latest p with Some (_, b) => find_tx h (pl_txs b) | None => None end
      end
  end.

(* find_finalized_tx_data, pending.rs:507-565: number, transaction, receipt and events; Broken: the
   panic of expect.  Its finality is always PreConfirmed. *)
Definition find_receipt (h : N) (l : list (receipt * list event)) : option (receipt * list event) :=
  find (fun r => rc_hash (fst r) =? h) l.
Definition find_finalized (p : ptx) (h : N) : lookup (N * tx * receipt * list event) :=
  match find_tx h (pt_txs p) with
  | Some t =>
      match find_receipt h (pt_receipts p) with
      | Some (r, e) => Hit (pt_number p, t, r, e)
      | None => Broken
      end
  | None =>
      match pt_pre_latest p with
      | Some (n, b) =>
          match find_tx h (pl_txs b) with
          | Some t =>
              match find_receipt h (pl_receipts b) with
              | Some (r, e) => Hit (n, t, r, e)
              | None => Broken
              end
          | None => Miss
          end
      | None => Miss
      end
  end.

(* ---- the methods ---- *)

(* get_transaction_by_hash, get_transaction_by_hash.rs:44-93 *)
Definition get_transaction_by_hash (d : tdb) (v09 : bool) (w : ptx) (h : N) : lookup tx :=
  match ptx_get d v09 w with
  | None => Broken
  | Some p => match find_transaction p h with Some t => Hit t | None => transaction d h end
  end.

(* get_transaction_receipt, get_transaction_receipt.rs:84-150 *)
Inductive finality := PreConfirmed | AcceptedOnL2 | AcceptedOnL1.
Record receipt_answer := ReceiptAnswer {
  ra_block_hash : option N;
  ra_block : N;
  ra_tx : tx;
  ra_receipt : receipt;
  ra_events : list event;
  ra_finality : finality }.
Definition get_transaction_receipt (d : tdb) (v09 : bool) (w : ptx) (h : N) : lookup receipt_answer :=
  match ptx_get d v09 w with
  | None => Broken
  | Some p =>
      match find_finalized p h with
      | Broken => Broken
      | Hit (n, t, r, e) => Hit (ReceiptAnswer None n t r e PreConfirmed)
      | Miss =>
          match transaction_with_receipt d h with
          | Broken => Broken
          | Miss => Miss
          | Hit (t, r, e, n) =>
              match block_hash_of d n with
              | None => Broken
              | Some bh =>
                  Hit (ReceiptAnswer (Some bh) n t r e (if is_l1_accepted d n then AcceptedOnL1 else AcceptedOnL2))
              end
          end
      end
  end.

(* get_transaction_status, get_transaction_status.rs:44-166.  [gateway]: the answer of the feeder
   gateway; [submitted]: whether this node has recently passed the transaction on; [v09]: the
   version of the RPC is 0.9 or later. *)
Inductive gw_finality := NotReceived | GwReceived | GwAcceptedOnL2 | GwAcceptedOnL1.
Inductive status :=
| Received | Rejected | Candidate
| Executed (f : finality) (execution : N).
Definition get_transaction_status (d : tdb) (v09 : bool) (w : ptx) (h : N)
    (gateway : option (gw_finality * bool)) (submitted : bool) : lookup status :=
  let ask :=
    match gateway with
    | None => Broken
    | Some (NotReceived, _) => if submitted then Hit Received else Miss
    | Some (_, true) => if v09 then Miss else Hit Rejected
    | Some (_, false) => Hit Received
    end in
  match ptx_get d v09 w with
  | None => Broken
  | Some p =>
      match find_finalized p h with
      | Broken => Broken
      | Hit (_, _, r, _) => Hit (Executed PreConfirmed (rc_status r))
      | Miss =>
          if existsb (fun t => tx_hash t =? h) (pt_candidates p) then Hit Candidate
          else
            match transaction_with_receipt d h with
            | Broken => Broken
            | Miss => ask
            | Hit (_, r, _, n) =>
                Hit (Executed (if is_l1_accepted d n then AcceptedOnL1 else AcceptedOnL2) (rc_status r))
            end
      end
  end.

(* to_common_or_panic, types.rs:57-76, for ids other than the pre-confirmed block *)
Definition common_id (d : tdb) (id : rpc_block_id) : option block_id :=
  match id with
  | RNumber n => Some (Number n)
  | RHash h => Some (Hash h)
  | RL1Accepted => option_map Number (t_pointer d)
  | RLatest => Some Latest
  | RPreConfirmed => None
  end.

(* get_transaction_by_block_id_and_index, get_transaction_by_block_id_and_index.rs:53-126 *)
Inductive by_index := At (t : tx) | InvalidIndex | NoBlock | IndexPanics.
Definition get_transaction_by_index (d : tdb) (v09 : bool) (w : ptx) (id : rpc_block_id) (i : nat) : by_index :=
  match id with
  | RPreConfirmed =>
      match ptx_get d v09 w with
      | None => IndexPanics
      | Some p => match nth_error (pt_txs p) i with Some t => At t | None => InvalidIndex end
      end
  | _ =>
      match common_id d id with
      | None => NoBlock
      | Some b =>
          match transaction_at_block d b i with
          | Some t => At t
          | None => if exists_block d b then InvalidIndex else NoBlock
          end
      end
  end.

(* get_block_transaction_count, get_block_transaction_count.rs:28-72; None: the block does not
   exist, or a panic *)
Definition get_transaction_count (d : tdb) (v09 : bool) (w : ptx) (id : rpc_block_id) : option nat :=
  match id with
  | RPreConfirmed => option_map (fun p => length (pt_txs p)) (ptx_get d v09 w)
  | _ =>
      match common_id d id with
      | None => None
      | Some b => if exists_block d b then Some (transaction_count d b) else None
      end
  end.
