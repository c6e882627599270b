(** Model of /repo/crates/block-commitments/src/lib.rs and of
    /repo/crates/merkle-tree/src/transaction.rs: transaction, event and receipt
    commitments, block hashes and their verification.

    Simplifications that hold for the whole file:
    - field elements are numbers; conversions between [Felt], [MontFelt] and
      unsigned integers that always fit are the identity (C03, C05).
    - the two-to-one hashes, the Poseidon list hash and Keccak-256 are
      parameters.  [PoseidonHasher] writes followed by [finish] are the list hash
      of what was written (C06).
    - rayon's parallel maps keep the order of their input, so they are maps.
    - log lines are dropped. *)
From Coq Require Import List Bool Arith NArith.
From Verif Require Import Radix MerkleModel HashModel VersionModel.
From Verif Require FeltModel.
Import ListNotations.
Local Open Scope N_scope.

(** Fields of pathfinder_common::transaction::TransactionVariant
    (crates/common/src/transaction.rs:49-62) that the commitments read: the
    variant and its signature (absent in deploy and L1 handler transactions). *)
Inductive tx_variant : Type :=
| DeclareV0 (signature : list felt)
| DeclareV1 (signature : list felt)
| DeclareV2 (signature : list felt)
| DeclareV3 (signature : list felt)
| DeployV0
| DeployV1
| DeployAccountV1 (signature : list felt)
| DeployAccountV3 (signature : list felt)
| InvokeV0 (signature : list felt)
| InvokeV1 (signature : list felt)
| InvokeV3 (signature : list felt)
| L1Handler.

(** pathfinder_common::transaction::Transaction *)
Record transaction := Tx { tx_hash : felt; tx_var : tx_variant }.

(** pathfinder_common::event::Event, crates/common/src/event.rs:12-18 *)
Record event := Event { ev_data : list felt; ev_from : felt; ev_keys : list felt }.

(** pathfinder_common::receipt::L2ToL1Message, crates/common/src/receipt.rs *)
Record message := Message { ms_from : felt; ms_to : felt; ms_payload : list felt }.

(** pathfinder_common::receipt::Receipt, receipt.rs:7-14: the fields that the
    commitment reads; [rc_revert] is [None] for ExecutionStatus::Succeeded and the
    bytes of the reason otherwise.  (Other execution resources and the transaction
    index are not read.) *)
Record receipt := Receipt {
  rc_fee : felt;
  rc_l1_gas : N;
  rc_l1_data_gas : N;
  rc_messages : list message;
  rc_revert : option (list N);
  rc_tx_hash : felt
}.

(** pathfinder_common::BlockHeader, crates/common/src/header.rs:7-29; [hd_blob]
    is L1DataAvailabilityMode::Blob. *)
Record header := Header {
  hd_hash : felt;
  hd_parent : felt;
  hd_number : N;
  hd_timestamp : N;
  hd_eth_l1_gas : N;
  hd_strk_l1_gas : N;
  hd_eth_l1_data_gas : N;
  hd_strk_l1_data_gas : N;
  hd_eth_l2_gas : N;
  hd_strk_l2_gas : N;
  hd_sequencer : felt;
  hd_version : version;
  hd_event_commitment : felt;
  hd_state_commitment : felt;
  hd_tx_commitment : felt;
  hd_tx_count : N;
  hd_event_count : N;
  hd_blob : bool;
  hd_receipt_commitment : felt;
  hd_sd_commitment : felt;
  hd_sd_length : N
}.

(** starknet_gateway_types::reply::Block, crates/gateway-types/src/reply.rs:13-56
    (the status and the optional state diff fields are not read here); gas
    prices are (price_in_wei, price_in_fri). *)
Record gw_block := GwBlock {
  gb_hash : felt;
  gb_number : N;
  gb_l1_gas : N * N;
  gb_l1_data_gas : N * N;
  gb_l2_gas : option (N * N);
  gb_parent : felt;
  gb_sequencer : option felt;
  gb_state_commitment : felt;
  gb_timestamp : N;
  gb_receipts : list (receipt * list event);
  gb_transactions : list transaction;
  gb_version : version;
  gb_tx_commitment : felt;
  gb_event_commitment : felt;
  gb_blob : bool;
  gb_receipt_commitment : option felt
}.

(** pathfinder_common::Chain, crates/common/src/lib.rs *)
Inductive chain_name : Type := Mainnet | SepoliaTestnet | SepoliaIntegration | Custom.

(** enum VerifyResult, lib.rs:19-23 *)
Inductive verify_result : Type := Match | Mismatch.

(** derive(PartialOrd) on StarknetVersion: [v < w] *)
Definition version_lt (v w : version) : bool :=
  match version_cmp v w with Lt => true | _ => false end.

(** lib.rs:17; StarknetVersion::V_0_13_2 and V_0_13_4, crates/common/src/lib.rs *)
Definition V_0_11_1 : version := Version 0 11 1 0.
Definition V_0_13_2 : version := Version 0 13 2 0.
Definition V_0_13_4 : version := Version 0 13 4 0.

(** struct NullStorage, transaction.rs:30-48 *)
Definition null_storage : storage := mkStorage (fun _ => None) (fun _ => None) (fun _ => None).

(** index.to_be_bytes().view_bits(), transaction.rs:52: 64 bits, most significant
    first *)
Fixpoint be_bits (width : nat) (n : N) : bits :=
  match width with
  | O => []
  | S w => N.testbit n (N.of_nat w) :: be_bits w n
  end.

(** felt_bytes!(b"...") *)
Definition felt_bytes (s : list N) : felt := rval 256 s.

(** A map whose function may panic, in order. *)
Fixpoint map_outcome {A B} (f : A -> outcome B) (l : list A) : outcome (list B) :=
  match l with
  | [] => Ok []
  | a :: l' =>
      do b <- f a;
      do bs <- map_outcome f l';
      Ok (b :: bs)
  end.

Definition len {A} (l : list A) : N := N.of_nat (length l).

Section Hashes.
  (** pedersen_hash *)
  Variable pedersen : felt -> felt -> felt.
  (** poseidon_hash, the two-to-one hash of PoseidonHash *)
  Variable poseidon2 : felt -> felt -> felt.
  (** poseidon_hash_many and PoseidonHasher *)
  Variable poseidon : list felt -> felt.
  (** sha3::Keccak256: 32 bytes *)
  Variable keccak : list N -> list N.

  (** the loop of calculate_commitment_root, lib.rs:514-522, with
      TransactionOrEventTree::set, transaction.rs:51-54; the index conversion
      panics above 64 bits *)
  Fixpoint set_items (t : tree) (idx : N) (hashes : list felt) : outcome tree :=
    match hashes with
    | [] => Ok t
    | h :: hashes' =>
        if idx <? 2 ^ 64 then
          do t' <- tree_set 64 null_storage t (be_bits 64 idx) h;
          set_items t' (idx + 1) hashes'
        else Panic
    end.

  (** calculate_commitment_root, lib.rs:511-525, with
      TransactionOrEventTree::commit, transaction.rs:56-60 *)
  Definition commitment_root (H : felt -> felt -> felt) (hashes : list felt) : outcome felt :=
    do t <- set_items tree_empty 0 hashes;
    do u <- commit H null_storage t;
    Ok (u_root u).

  (** HashChain over a list, the loops of calculate_signature_hash
      (lib.rs:646-652) and of the event hashes *)
  Definition chain_hash (l : list felt) : outcome felt := or_panic (hash_chain pedersen l).

  (** calculate_transaction_hash_with_signature_pre_0_11_1, lib.rs:537-556 *)
  Definition tx_item_pre_0_11_1 (tx : transaction) : outcome felt :=
    do signature_hash <-
      match tx_var tx with
      | InvokeV0 s | InvokeV1 s | InvokeV3 s => chain_hash s
      | DeclareV0 _ | DeclareV1 _ | DeclareV2 _ | DeclareV3 _ | DeployV0 | DeployV1
      | DeployAccountV1 _ | DeployAccountV3 _ | L1Handler => chain_hash []
      end;
    Ok (pedersen (tx_hash tx) signature_hash).

  (** calculate_transaction_hash_with_signature_pre_0_13_2, lib.rs:568-587 *)
  Definition tx_item_pre_0_13_2 (tx : transaction) : outcome felt :=
    do signature_hash <-
      match tx_var tx with
      | InvokeV0 s | DeclareV0 s | DeclareV1 s | DeclareV2 s | DeclareV3 s
      | DeployAccountV1 s | DeployAccountV3 s | InvokeV1 s | InvokeV3 s => chain_hash s
      | DeployV0 | DeployV1 | L1Handler => chain_hash []
      end;
    Ok (pedersen (tx_hash tx) signature_hash).

  (** the match of lib.rs:593-606 and 623-636 *)
  Definition signature_slice (v : tx_variant) : list felt :=
    match v with
    | InvokeV0 s | DeclareV0 s | DeclareV1 s | DeclareV2 s | DeclareV3 s
    | DeployAccountV1 s | DeployAccountV3 s | InvokeV1 s | InvokeV3 s => s
    | DeployV0 | DeployV1 | L1Handler => []
    end.

  (** calculate_transaction_hash_with_signature_pre_0_13_4, lib.rs:592-620 *)
  Definition tx_item_pre_0_13_4 (tx : transaction) : felt :=
    let signature := signature_slice (tx_var tx) in
    let signature := match signature with [] => [0] | s => s end in
    poseidon (tx_hash tx :: signature).

  (** calculate_transaction_hash_with_signature, lib.rs:622-644 *)
  Definition tx_item (tx : transaction) : felt :=
    poseidon (tx_hash tx :: signature_slice (tx_var tx)).

  (** the closure of lib.rs:405-415 *)
  Definition tx_item_for (v : version) (tx : transaction) : outcome felt :=
    if version_lt v V_0_11_1 then tx_item_pre_0_11_1 tx
    else if version_lt v V_0_13_2 then tx_item_pre_0_13_2 tx
    else if version_lt v V_0_13_4 then Ok (tx_item_pre_0_13_4 tx)
    else Ok (tx_item tx).

  (** calculate_transaction_commitment, lib.rs:397-423 *)
  Definition transaction_commitment (txs : list transaction) (v : version) : outcome felt :=
    do hashes <- map_outcome (tx_item_for v) txs;
    if version_lt v V_0_13_2 then commitment_root pedersen hashes
    else commitment_root poseidon2 hashes.

  (** the revert reason of lib.rs:448-456: Keccak-256 without its six most
      significant bits *)
  Definition revert_reason (status : option (list N)) : felt :=
    match status with
    | None => 0
    | Some reason =>
        match keccak reason with
        | [] => 0
        | b :: bs => rval 256 (N.land b 3 :: bs) mod P
        end
    end.

  (** the messages of lib.rs:435-446 *)
  Definition messages_hash (ms : list message) : felt :=
    poseidon (len ms :: flat_map (fun m => ms_from m :: ms_to m :: len (ms_payload m) :: ms_payload m) ms).

  (** the closure of calculate_receipt_commitment, lib.rs:430-471 *)
  Definition receipt_item (r : receipt) : felt :=
    poseidon [ rc_tx_hash r; rc_fee r; messages_hash (rc_messages r); revert_reason (rc_revert r);
               0; rc_l1_gas r; rc_l1_data_gas r ].

  (** calculate_receipt_commitment, lib.rs:425-475 *)
  Definition receipt_commitment (rs : list receipt) : outcome felt :=
    commitment_root poseidon2 (map receipt_item rs).

  (** calculate_event_hash_pre_0_13_2, lib.rs:688-706 *)
  Definition event_item_pre_0_13_2 (e : event) : outcome felt :=
    do keys_hash <- chain_hash (ev_keys e);
    do data_hash <- chain_hash (ev_data e);
    chain_hash [ev_from e; keys_hash; data_hash].

  (** calculate_event_hash, lib.rs:711-723 *)
  Definition event_item (e : event) (txh : felt) : felt :=
    poseidon (ev_from e :: txh :: len (ev_keys e) :: ev_keys e ++ len (ev_data e) :: ev_data e).

  (** calculate_event_commitment, lib.rs:659-682 *)
  Definition event_commitment (tx_events : list (felt * list event)) (v : version) : outcome felt :=
    do hashes <- map_outcome
      (fun te => if version_lt v V_0_13_2 then event_item_pre_0_13_2 (snd te)
                 else Ok (event_item (snd te) (fst te)))
      (flat_map (fun tes => map (fun e => (fst tes, e)) (snd tes)) tx_events);
    if version_lt v V_0_13_2 then commitment_root pedersen hashes
    else commitment_root poseidon2 hashes.

  (** compute_final_hash_pre_0_7, lib.rs:262-292 *)
  Definition final_hash_pre_0_7 (h : header) (chain_id : felt) : outcome felt :=
    chain_hash [ hd_number h; hd_state_commitment h; 0; 0; hd_tx_count h; hd_tx_commitment h;
                 0; 0; 0; 0; chain_id; hd_parent h ].

  (** compute_final_hash_pre_0_13_2, lib.rs:295-322 *)
  Definition final_hash_pre_0_13_2 (h : header) : outcome felt :=
    chain_hash [ hd_number h; hd_state_commitment h; hd_sequencer h; hd_timestamp h;
                 hd_tx_count h; hd_tx_commitment h; hd_event_count h; hd_event_commitment h;
                 0; 0; hd_parent h ].

  (** concatenate_counts, lib.rs:480-497; MontFelt::from_be_bytes reduces modulo
      the prime (MontBytesProof) *)
  Definition concatenate_counts (h : header) : felt :=
    let bytes := rdigits 256 8 (hd_tx_count h) ++ rdigits 256 8 (hd_event_count h) ++
                 rdigits 256 8 (hd_sd_length h) ++ [if hd_blob h then 128 else 0] ++ repeat 0 7 in
    rval 256 bytes mod P.

  (** gas_prices_to_hash, lib.rs:499-509 *)
  Definition gas_prices_to_hash (h : header) : felt :=
    poseidon [ felt_bytes (text "STARKNET_GAS_PRICES0"); hd_eth_l1_gas h; hd_strk_l1_gas h;
               hd_eth_l1_data_gas h; hd_strk_l1_data_gas h; hd_eth_l2_gas h; hd_strk_l2_gas h ].

  (** Felt::from_be_slice(starknet_version_str.as_bytes()).expect(..),
      lib.rs:341-345 *)
  Definition version_felt (s : list N) : outcome felt :=
    match FeltModel.from_be_slice s with
    | FeltModel.Ok f => Ok (rval 256 f)
    | FeltModel.Err _ => Panic
    end.

  (** compute_final_hash_v0, lib.rs:324-349 *)
  Definition final_hash_v0 (h : header) (version_str : list N) : outcome felt :=
    do v <- version_felt version_str;
    Ok (poseidon [ felt_bytes (text "STARKNET_BLOCK_HASH0"); hd_number h; hd_state_commitment h;
                   hd_sequencer h; hd_timestamp h; concatenate_counts h; hd_sd_commitment h;
                   hd_tx_commitment h; hd_event_commitment h; hd_receipt_commitment h;
                   hd_eth_l1_gas h; hd_strk_l1_gas h; hd_eth_l1_data_gas h; hd_strk_l1_data_gas h;
                   v; 0; hd_parent h ]).

  (** compute_final_hash_v1, lib.rs:353-375 *)
  Definition final_hash_v1 (h : header) (version_str : list N) : outcome felt :=
    do v <- version_felt version_str;
    Ok (poseidon [ felt_bytes (text "STARKNET_BLOCK_HASH1"); hd_number h; hd_state_commitment h;
                   hd_sequencer h; hd_timestamp h; concatenate_counts h; hd_sd_commitment h;
                   hd_tx_commitment h; hd_event_commitment h; hd_receipt_commitment h;
                   gas_prices_to_hash h; v; 0; hd_parent h ]).

  (** compute_final_hash and compute_final_hash0, lib.rs:379-390 *)
  Definition final_hash (h : header) : outcome felt :=
    let version_str := version_to_string (hd_version h) in
    if version_lt (hd_version h) V_0_13_4 then final_hash_v0 h version_str
    else final_hash_v1 h version_str.

  (** meta::for_chain, lib.rs:182-251: the first block hashed with the 0.7
      algorithm and the fallback sequencer address *)
  Definition MAINNET_FALLBACK : felt :=
    0x21f4b90b0377c82bf330b7b5295820769e72d79d8acd0effa0ebde6e9988bc5.
  Definition first_0_7_block (c : chain_name) : N :=
    match c with Mainnet => 833 | _ => 0 end.
  Definition fallback_sequencer (c : chain_name) : option felt :=
    match c with Mainnet => Some MAINNET_FALLBACK | _ => None end.

  (** BlockHeader { sequencer_address: fallback_sequencer_address, ..header } *)
  Definition with_sequencer (h : header) (s : felt) : header :=
    Header (hd_hash h) (hd_parent h) (hd_number h) (hd_timestamp h) (hd_eth_l1_gas h)
      (hd_strk_l1_gas h) (hd_eth_l1_data_gas h) (hd_strk_l1_data_gas h) (hd_eth_l2_gas h)
      (hd_strk_l2_gas h) s (hd_version h) (hd_event_commitment h) (hd_state_commitment h)
      (hd_tx_commitment h) (hd_tx_count h) (hd_event_count h) (hd_blob h)
      (hd_receipt_commitment h) (hd_sd_commitment h) (hd_sd_length h).

  (** verify_block_hash, lib.rs:142-180 *)
  Definition verify_block_hash (h : header) (c : chain_name) (chain_id : felt)
    : outcome verify_result :=
    do verified <-
      (if hd_number h <? first_0_7_block c then
         match c with
         | Custom => Err
         | _ => do x <- final_hash_pre_0_7 h chain_id; Ok (x =? hd_hash h)
         end
       else if version_lt (hd_version h) V_0_13_2 then
         do x <- final_hash_pre_0_13_2 h;
         if x =? hd_hash h then Ok true
         else match fallback_sequencer c with
              | Some s => do y <- final_hash_pre_0_13_2 (with_sequencer h s); Ok (y =? hd_hash h)
              | None => Ok false
              end
       else do x <- final_hash h; Ok (x =? hd_hash h));
    Ok (if verified : bool then Match else Mismatch).

  (** header_from_gateway_block, lib.rs:97-130 *)
  Definition header_from_gateway_block (b : gw_block) (sd_commitment : felt) (sd_length : N) : header :=
    let or_default (o : option (N * N)) := match o with Some p => p | None => (0, 0) end in
    Header (gb_hash b) (gb_parent b) (gb_number b) (gb_timestamp b)
      (fst (gb_l1_gas b)) (snd (gb_l1_gas b)) (fst (gb_l1_data_gas b)) (snd (gb_l1_data_gas b))
      (fst (or_default (gb_l2_gas b))) (snd (or_default (gb_l2_gas b)))
      (match gb_sequencer b with Some s => s | None => 0 end) (gb_version b)
      (gb_event_commitment b) (gb_state_commitment b) (gb_tx_commitment b)
      (len (gb_transactions b)) (len (flat_map snd (gb_receipts b))) (gb_blob b)
      (match gb_receipt_commitment b with Some r => r | None => 0 end)
      sd_commitment sd_length.

  (** header.transaction_commitment = .. and its siblings, lib.rs:47, 71, 88 *)
  Definition with_commitments (h : header) (txc rcc evc : felt) : header :=
    Header (hd_hash h) (hd_parent h) (hd_number h) (hd_timestamp h) (hd_eth_l1_gas h)
      (hd_strk_l1_gas h) (hd_eth_l1_data_gas h) (hd_strk_l1_data_gas h) (hd_eth_l2_gas h)
      (hd_strk_l2_gas h) (hd_sequencer h) (hd_version h) evc (hd_state_commitment h)
      txc (hd_tx_count h) (hd_event_count h) (hd_blob h) rcc (hd_sd_commitment h) (hd_sd_length h).

  (** verify_gateway_block_commitments_and_hash, lib.rs:31-95 *)
  Definition verify_gateway_block (b : gw_block) (sd_commitment : felt) (sd_length : N)
             (c : chain_name) (chain_id : felt) : outcome verify_result :=
    let h0 := header_from_gateway_block b sd_commitment sd_length in
    do txc <- transaction_commitment (gb_transactions b) (gb_version b);
    let h1 := with_commitments h0 txc (hd_receipt_commitment h0) (hd_event_commitment h0) in
    let step2 (h : header) :=
      do rcc <- receipt_commitment (map fst (gb_receipts b));
      let step3 (h : header) :=
        do evc <- event_commitment (map (fun re => (rc_tx_hash (fst re), snd re)) (gb_receipts b))
                                   (gb_version b);
        if gb_event_commitment b =? 0 then
          verify_block_hash (with_commitments h (hd_tx_commitment h) (hd_receipt_commitment h) evc) c chain_id
        else if negb (evc =? gb_event_commitment b) then Ok Mismatch
        else verify_block_hash h c chain_id in
      match gb_receipt_commitment b with
      | Some given => if negb (rcc =? given) then Ok Mismatch else step3 h
      | None => step3 (with_commitments h (hd_tx_commitment h) rcc (hd_event_commitment h))
      end in
    if gb_tx_commitment b =? 0 then step2 h1
    else if negb (txc =? hd_tx_commitment h0) then Ok Mismatch
    else step2 h0.
End Hashes.
