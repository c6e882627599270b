(** Vocabulary for C17, C52 and C56: what a commitment or a block hash covers,
    and the hash computations that go into it. *)
From Coq Require Import List Bool Arith NArith.
From Verif Require Import Radix MerkleModel MerkleSpec VersionModel CommitModel.
Import ListNotations.
Local Open Scope N_scope.

(** ---- what is covered ---- *)

(** The version [v] is earlier than [a.b.c]. *)
Definition before (v : version) (a b c : N) : bool :=
  match version_cmp v (Version a b c 0) with Lt => true | _ => false end.

Definition is_invoke (tx : transaction) : bool :=
  match tx_var tx with InvokeV0 _ | InvokeV1 _ | InvokeV3 _ => true | _ => false end.

(** The signature a transaction carries; none for deploy and L1 handler. *)
Definition signature_of (tx : transaction) : list felt :=
  match tx_var tx with
  | DeclareV0 s | DeclareV1 s | DeclareV2 s | DeclareV3 s
  | DeployAccountV1 s | DeployAccountV3 s | InvokeV0 s | InvokeV1 s | InvokeV3 s => s
  | DeployV0 | DeployV1 | L1Handler => []
  end.

(** The part of the signature that a block of version [v] commits to: before
    0.11.1 only those of invoke transactions; from 0.13.2 until 0.13.4 a missing
    signature counts as a single zero. *)
Definition covered_signature (v : version) (tx : transaction) : list felt :=
  if before v 0 11 1 then (if is_invoke tx then signature_of tx else [])
  else if before v 0 13 2 then signature_of tx
  else if before v 0 13 4 then (match signature_of tx with [] => [0] | s => s end)
  else signature_of tx.

Definition covered_tx (v : version) (tx : transaction) : felt * list felt :=
  (tx_hash tx, covered_signature v tx).

(** Events are covered in order, across transactions; the hash of the emitting
    transaction from 0.13.2 on. *)
Definition events_in_order (tes : list (felt * list event)) : list (felt * event) :=
  flat_map (fun te => map (pair (fst te)) (snd te)) tes.
Definition covered_event (v : version) (te : felt * event) : option felt * felt * list felt * list felt :=
  let '(t, e) := te in
  (if before v 0 13 2 then None else Some t, ev_from e, ev_keys e, ev_data e).

(** ---- hash computations ---- *)

Inductive call : Type :=
| PedersenCall (q : query)           (* pedersen a b, plus a length on tree edges *)
| PoseidonNode (q : query)           (* the same with the two-to-one Poseidon hash *)
| PoseidonList (l : list felt)
| KeccakCall (reason : list N).

(** The item number [i] of a list, zero when there is none. *)
Fixpoint item (hs : list felt) (i : N) : felt :=
  match hs with
  | [] => 0
  | h :: hs' => if i =? 0 then h else item hs' (i - 1)
  end.
(** The trie that holds item [i] under the 64-bit key [i]. *)
Definition items (hs : list felt) : contents := fun k => item hs (bits_val k).

Section Hashes.
  Variable pedersen : felt -> felt -> felt.
  Variable poseidon2 : felt -> felt -> felt.
  Variable poseidon : list felt -> felt.
  Variable keccak : list N -> list N.

  Definition call_value (c : call) : felt :=
    match c with
    | PedersenCall q => query_value pedersen q
    | PoseidonNode q => query_value poseidon2 q
    | PoseidonList l => poseidon l
    | KeccakCall r => revert_reason keccak (Some r)
    end.

  (** No two different computations of a list give one value, and none gives
      zero. *)
  Definition clean (cs : list call) : Prop :=
    (forall c1 c2, In c1 cs -> In c2 cs -> call_value c1 = call_value c2 -> c1 = c2) /\
    (forall c, In c cs -> call_value c <> 0).

  (** The hash chain: fold from zero, then the length (C07). *)
  Definition chain_value (l : list felt) : felt := pedersen (fold_left pedersen l 0) (len l).
  Fixpoint fold_calls (acc : felt) (l : list felt) : list call :=
    match l with
    | [] => []
    | x :: l' => PedersenCall (acc, x, 0) :: fold_calls (pedersen acc x) l'
    end.
  Definition chain_calls (l : list felt) : list call :=
    fold_calls 0 l ++ [PedersenCall (fold_left pedersen l 0, len l, 0)].

  (** Hash of one transaction in the tree. *)
  Definition tx_value (v : version) (tx : transaction) : felt :=
    if before v 0 13 2 then pedersen (tx_hash tx) (chain_value (covered_signature v tx))
    else poseidon (tx_hash tx :: covered_signature v tx).
  Definition tx_calls (v : version) (tx : transaction) : list call :=
    if before v 0 13 2
    then chain_calls (covered_signature v tx) ++
         [PedersenCall (tx_hash tx, chain_value (covered_signature v tx), 0)]
    else [PoseidonList (tx_hash tx :: covered_signature v tx)].

  (** Hash of one event. *)
  Definition event_words (te : felt * event) : list felt :=
    let '(t, e) := te in
    ev_from e :: t :: len (ev_keys e) :: ev_keys e ++ len (ev_data e) :: ev_data e.
  Definition event_value (v : version) (te : felt * event) : felt :=
    if before v 0 13 2
    then chain_value [ev_from (snd te); chain_value (ev_keys (snd te)); chain_value (ev_data (snd te))]
    else poseidon (event_words te).
  Definition event_calls (v : version) (te : felt * event) : list call :=
    if before v 0 13 2
    then chain_calls (ev_keys (snd te)) ++ chain_calls (ev_data (snd te)) ++
         chain_calls [ev_from (snd te); chain_value (ev_keys (snd te)); chain_value (ev_data (snd te))]
    else [PoseidonList (event_words te)].

  (** Hash of one receipt. *)
  Definition message_words (ms : list message) : list felt :=
    len ms :: flat_map (fun m => ms_from m :: ms_to m :: len (ms_payload m) :: ms_payload m) ms.
  Definition reason_value (r : receipt) : felt :=
    match rc_revert r with None => 0 | Some s => call_value (KeccakCall s) end.
  Definition receipt_words (r : receipt) : list felt :=
    [ rc_tx_hash r; rc_fee r; poseidon (message_words (rc_messages r)); reason_value r; 0;
      rc_l1_gas r; rc_l1_data_gas r ].
  Definition receipt_calls (r : receipt) : list call :=
    PoseidonList (message_words (rc_messages r)) :: PoseidonList (receipt_words r) ::
    match rc_revert r with None => [] | Some s => [KeccakCall s] end.

  (** The tree over a list of item hashes, height 64. *)
  Definition pedersen_tree (hs : list felt) : list call :=
    map PedersenCall (root_queries pedersen 64 (items hs)).
  Definition poseidon_tree (hs : list felt) : list call :=
    map PoseidonNode (root_queries poseidon2 64 (items hs)).
  Definition tree_for (v : version) (hs : list felt) : list call :=
    if before v 0 13 2 then pedersen_tree hs else poseidon_tree hs.

  (** All computations of a commitment. *)
  Definition tx_commitment_calls (v : version) (txs : list transaction) : list call :=
    flat_map (tx_calls v) txs ++ tree_for v (map (tx_value v) txs).
  Definition event_commitment_calls (v : version) (tes : list (felt * list event)) : list call :=
    flat_map (event_calls v) (events_in_order tes) ++
    tree_for v (map (event_value v) (events_in_order tes)).
  Definition receipt_commitment_calls (rs : list receipt) : list call :=
    flat_map receipt_calls rs ++ poseidon_tree (map (fun r => poseidon (receipt_words r)) rs).

  (** ---- block hashes ---- *)

  (** The four ways a block hash is computed. *)
  Inductive scheme : Type := Pre07 | Pre0132 | Hash0 | Hash1.
  Definition scheme_of (c : chain_name) (h : header) : scheme :=
    match c with
    | Mainnet => if hd_number h <? 833 then Pre07
                 else if before (hd_version h) 0 13 2 then Pre0132
                 else if before (hd_version h) 0 13 4 then Hash0 else Hash1
    | _ => if before (hd_version h) 0 13 2 then Pre0132
           else if before (hd_version h) 0 13 4 then Hash0 else Hash1
    end.

  (** Counts packed into one field element. *)
  Definition packed_counts (h : header) : felt :=
    (hd_tx_count h * 2 ^ 192 + hd_event_count h * 2 ^ 128 + hd_sd_length h * 2 ^ 64 +
     (if hd_blob h then 2 ^ 63 else 0)) mod P.
  Definition gas_words (h : header) : list felt :=
    [ rval 256 (text "STARKNET_GAS_PRICES0"); hd_eth_l1_gas h; hd_strk_l1_gas h;
      hd_eth_l1_data_gas h; hd_strk_l1_data_gas h; hd_eth_l2_gas h; hd_strk_l2_gas h ].
  Definition version_word (h : header) : felt := rval 256 (version_to_string (hd_version h)).

  (** The words that are hashed. *)
  Definition words (s : scheme) (chain_id : felt) (h : header) : list felt :=
    match s with
    | Pre07 =>
        [ hd_number h; hd_state_commitment h; 0; 0; hd_tx_count h; hd_tx_commitment h;
          0; 0; 0; 0; chain_id; hd_parent h ]
    | Pre0132 =>
        [ hd_number h; hd_state_commitment h; hd_sequencer h; hd_timestamp h; hd_tx_count h;
          hd_tx_commitment h; hd_event_count h; hd_event_commitment h; 0; 0; hd_parent h ]
    | Hash0 =>
        [ rval 256 (text "STARKNET_BLOCK_HASH0"); hd_number h; hd_state_commitment h; hd_sequencer h;
          hd_timestamp h; packed_counts h; hd_sd_commitment h; hd_tx_commitment h;
          hd_event_commitment h; hd_receipt_commitment h; hd_eth_l1_gas h; hd_strk_l1_gas h;
          hd_eth_l1_data_gas h; hd_strk_l1_data_gas h; version_word h; 0; hd_parent h ]
    | Hash1 =>
        [ rval 256 (text "STARKNET_BLOCK_HASH1"); hd_number h; hd_state_commitment h; hd_sequencer h;
          hd_timestamp h; packed_counts h; hd_sd_commitment h; hd_tx_commitment h;
          hd_event_commitment h; hd_receipt_commitment h; poseidon (gas_words h); version_word h; 0;
          hd_parent h ]
    end.
  Definition scheme_hash (s : scheme) (chain_id : felt) (h : header) : felt :=
    match s with
    | Pre07 | Pre0132 => chain_value (words s chain_id h)
    | Hash0 | Hash1 => poseidon (words s chain_id h)
    end.
  Definition scheme_calls (s : scheme) (chain_id : felt) (h : header) : list call :=
    match s with
    | Pre07 | Pre0132 => chain_calls (words s chain_id h)
    | Hash0 => [PoseidonList (words s chain_id h)]
    | Hash1 => [PoseidonList (gas_words h); PoseidonList (words s chain_id h)]
    end.

  (** On mainnet, blocks hashed by the scheme before 0.13.2 are tried with a
      fixed sequencer address as well. *)
  Definition tried (c : chain_name) (s : scheme) (h : header) : list header :=
    match c, s with
    | Mainnet, Pre0132 => [h; with_sequencer h MAINNET_FALLBACK]
    | _, _ => [h]
    end.
  Definition header_calls (c : chain_name) (chain_id : felt) (h : header) : list call :=
    flat_map (scheme_calls (scheme_of c h) chain_id) (tried c (scheme_of c h) h).

  (** What the types of the fields of a header guarantee (as far as needed). *)
  Definition header_ok (h : header) : Prop :=
    hd_tx_count h < 2 ^ 64 /\ hd_event_count h < 2 ^ 64 /\ hd_sd_length h < 2 ^ 64 /\
    Forall (fun x => x < 256) [v0 (hd_version h); v1 (hd_version h); v2 (hd_version h); v3 (hd_version h)].

  (** The fields a scheme covers, besides the sequencer address. *)
  Definition same_fields (s : scheme) (h1 h2 : header) : Prop :=
    hd_number h1 = hd_number h2 /\
    hd_state_commitment h1 = hd_state_commitment h2 /\
    hd_tx_count h1 = hd_tx_count h2 /\
    hd_tx_commitment h1 = hd_tx_commitment h2 /\
    hd_parent h1 = hd_parent h2 /\
    (s <> Pre07 ->
       hd_timestamp h1 = hd_timestamp h2 /\
       hd_event_count h1 = hd_event_count h2 /\
       hd_event_commitment h1 = hd_event_commitment h2) /\
    (s = Hash0 \/ s = Hash1 ->
       hd_version h1 = hd_version h2 /\
       hd_blob h1 = hd_blob h2 /\
       hd_receipt_commitment h1 = hd_receipt_commitment h2 /\
       hd_sd_commitment h1 = hd_sd_commitment h2 /\
       hd_sd_length h1 = hd_sd_length h2 /\
       hd_eth_l1_gas h1 = hd_eth_l1_gas h2 /\
       hd_strk_l1_gas h1 = hd_strk_l1_gas h2 /\
       hd_eth_l1_data_gas h1 = hd_eth_l1_data_gas h2 /\
       hd_strk_l1_data_gas h1 = hd_strk_l1_data_gas h2) /\
    (s = Hash1 ->
       hd_eth_l2_gas h1 = hd_eth_l2_gas h2 /\
       hd_strk_l2_gas h1 = hd_strk_l2_gas h2).

  (** ---- gateway blocks ---- *)

  Definition block_events (b : gw_block) : list (felt * list event) :=
    map (fun re => (rc_tx_hash (fst re), snd re)) (gb_receipts b).
  Definition prices (o : option (N * N)) : N * N := match o with Some p => p | None => (0, 0) end.

  (** The header whose hash is checked: the block with its three commitments
      replaced by those of its contents. *)
  Definition block_header (b : gw_block) (sdc : felt) (sdl : N) (txc rcc evc : felt) : header :=
    {| hd_hash := gb_hash b; hd_parent := gb_parent b; hd_number := gb_number b;
       hd_timestamp := gb_timestamp b;
       hd_eth_l1_gas := fst (gb_l1_gas b); hd_strk_l1_gas := snd (gb_l1_gas b);
       hd_eth_l1_data_gas := fst (gb_l1_data_gas b); hd_strk_l1_data_gas := snd (gb_l1_data_gas b);
       hd_eth_l2_gas := fst (prices (gb_l2_gas b)); hd_strk_l2_gas := snd (prices (gb_l2_gas b));
       hd_sequencer := match gb_sequencer b with Some s => s | None => 0 end;
       hd_version := gb_version b; hd_event_commitment := evc;
       hd_state_commitment := gb_state_commitment b; hd_tx_commitment := txc;
       hd_tx_count := len (gb_transactions b); hd_event_count := len (flat_map snd (gb_receipts b));
       hd_blob := gb_blob b; hd_receipt_commitment := rcc; hd_sd_commitment := sdc;
       hd_sd_length := sdl |}.

  (** The commitments of the contents of a block. *)
  Definition root_for (v : version) (hs : list felt) : felt :=
    spec_root (if before v 0 13 2 then pedersen else poseidon2) 64 (items hs).
  Definition tx_root (b : gw_block) : felt :=
    root_for (gb_version b) (map (tx_value (gb_version b)) (gb_transactions b)).
  Definition event_root (b : gw_block) : felt :=
    root_for (gb_version b) (map (event_value (gb_version b)) (events_in_order (block_events b))).
  Definition receipt_root (b : gw_block) : felt :=
    spec_root poseidon2 64 (items (map (fun r => poseidon (receipt_words r)) (map fst (gb_receipts b)))).
  Definition checked_header (b : gw_block) (sdc : felt) (sdl : N) : header :=
    block_header b sdc sdl (tx_root b) (receipt_root b) (event_root b).

  (** All computations of the verification of a block. *)
  Definition block_calls (c : chain_name) (chain_id : felt) (b : gw_block) (sdc : felt) (sdl : N) : list call :=
    tx_commitment_calls (gb_version b) (gb_transactions b) ++
    event_commitment_calls (gb_version b) (block_events b) ++
    receipt_commitment_calls (map fst (gb_receipts b)) ++
    header_calls c chain_id (checked_header b sdc sdl).

  (** What the block hash says about a block. *)
  Definition same_block (s : scheme) (b1 b2 : gw_block) (sdc1 sdc2 : felt) (sdl1 sdl2 : N) : Prop :=
    gb_number b1 = gb_number b2 /\
    gb_parent b1 = gb_parent b2 /\
    gb_state_commitment b1 = gb_state_commitment b2 /\
    map (covered_tx (gb_version b1)) (gb_transactions b1) =
      map (covered_tx (gb_version b2)) (gb_transactions b2) /\
    (s <> Pre07 ->
       gb_timestamp b1 = gb_timestamp b2 /\
       map (covered_event (gb_version b1)) (events_in_order (block_events b1)) =
         map (covered_event (gb_version b2)) (events_in_order (block_events b2))) /\
    (s = Hash0 \/ s = Hash1 ->
       gb_version b1 = gb_version b2 /\
       gb_blob b1 = gb_blob b2 /\
       map fst (gb_receipts b1) = map fst (gb_receipts b2) /\
       sdc1 = sdc2 /\ sdl1 = sdl2 /\
       gb_l1_gas b1 = gb_l1_gas b2 /\
       gb_l1_data_gas b1 = gb_l1_data_gas b2) /\
    (s = Hash1 -> prices (gb_l2_gas b1) = prices (gb_l2_gas b2)).

  Definition block_ok (b : gw_block) (sdl : N) : Prop :=
    len (gb_transactions b) < 2 ^ 64 /\ len (flat_map snd (gb_receipts b)) < 2 ^ 64 /\ sdl < 2 ^ 64 /\
    Forall (fun x => x < 256) [v0 (gb_version b); v1 (gb_version b); v2 (gb_version b); v3 (gb_version b)].

  (** Every list fits into the memory of a 64-bit machine. *)
  Definition txs_fit (txs : list transaction) : Prop :=
    len txs < 2 ^ 64 /\ Forall (fun tx => len (signature_of tx) < 2 ^ 64) txs.
  Definition events_fit (tes : list (felt * list event)) : Prop :=
    len (events_in_order tes) < 2 ^ 64 /\
    Forall (fun te => len (ev_keys (snd te)) < 2 ^ 64 /\ len (ev_data (snd te)) < 2 ^ 64)
           (events_in_order tes).
  Definition block_fits (b : gw_block) : Prop :=
    txs_fit (gb_transactions b) /\ events_fit (block_events b) /\ len (gb_receipts b) < 2 ^ 64.

  (** The commitments a block states (zero or none: not stated) are those of its
      contents. *)
  Definition commitments_right (b : gw_block) : Prop :=
    (gb_tx_commitment b <> 0 -> gb_tx_commitment b = tx_root b) /\
    (gb_event_commitment b <> 0 -> gb_event_commitment b = event_root b) /\
    (forall r, gb_receipt_commitment b = Some r -> r = receipt_root b).
End Hashes.
