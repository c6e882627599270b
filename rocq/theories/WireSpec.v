(** Vocabulary for C79: what of a block's data arrives at the peer it is sent to. *)
From Coq Require Import List Bool Arith NArith ZArith.
From Verif Require Import MerkleModel VersionModel VersionSpec CommitModel TxHashModel CodecModel BlobModel BlobSpec WireModel.
Import ListNotations.
Local Open Scope N_scope.

(** A transaction whose parts are values of their types, contract addresses below 2^251. *)
Definition is_sendable (t : stx) : Prop :=
  is_felt (s_hash t) /\ is_variant (s_variant t) /\
  match s_variant t with
  | VDeclareV1 v => is_251 (d1_sender v)
  | VDeclareV2 v => is_251 (d2_sender v)
  | _ => True
  end.

(** What a message says of a transaction: all but the nonce of a declare transaction of version 0,
    the type of the entry point of an invoke transaction of version 0, and the address of a
    contract that the transaction deploys. *)
Definition received (v : variant) : variant :=
  match v with
  | VDeclareV0 (DeclareTx01 cl fee _ sig sender) => VDeclareV0 (DeclareTx01 cl fee 0 sig sender)
  | VInvokeV0 (InvokeTx0 calldata sender selector _ fee sig) =>
      VInvokeV0 (InvokeTx0 calldata sender selector None fee sig)
  | VDeployV0 (DeployTx cl _ salt calldata) => VDeployV0 (DeployTx cl 0 salt calldata)
  | VDeployV1 (DeployTx cl _ salt calldata) => VDeployV1 (DeployTx cl 0 salt calldata)
  | VDeployAccountV1 (DeployAccountTx1 _ fee sig nonce salt calldata cl) =>
      VDeployAccountV1 (DeployAccountTx1 0 fee sig nonce salt calldata cl)
  | VDeployAccountV3 (DeployAccountTx3 _ sig nonce nm fm bounds tip pay salt calldata cl) =>
      VDeployAccountV3 (DeployAccountTx3 0 sig nonce nm fm bounds tip pay salt calldata cl)
  | v => v
  end.

(** What is kept of a transaction once addresses are computed again. *)
Definition kept (v : variant) : variant :=
  match v with
  | VDeclareV0 (DeclareTx01 cl fee _ sig sender) => VDeclareV0 (DeclareTx01 cl fee 0 sig sender)
  | VInvokeV0 (InvokeTx0 calldata sender selector _ fee sig) =>
      VInvokeV0 (InvokeTx0 calldata sender selector None fee sig)
  | v => v
  end.

(** The counters of a receipt that are sent as u32 fit. *)
Definition is_small (x : resources) : Prop :=
  let b := x_builtins x in
  Forall (fun n => n < 2 ^ 32)
    [b_output b; b_pedersen b; b_range_check b; b_ecdsa b; b_bitwise b; b_ec_op b; b_keccak b;
     b_poseidon b; b_add_mod b; b_mul_mod b; b_range_check96 b; x_steps x; x_holes x].

(** What arrives of a receipt: not the segment arena counter, not the data gas in the total, and of
    the address of a message to L1 only its last 160 bits. *)
Definition kept_resources (x : resources) : resources :=
  let 'Resources (Builtins a b c d e f g h _ j k l) steps holes da total l2 := x in
  Resources (Builtins a b c d e f g h 0 j k l) steps holes da (L1Gas (g_l1 total) 0) l2.
Definition kept_message (m : message) : message :=
  Message (m_from m) (m_payload m) (m_to m mod 2 ^ 160).
Definition kept_receipt (r : rcpt) : rcpt :=
  Rcpt (r_fee r) (kept_resources (r_resources r)) (map kept_message (r_messages r)) (r_status r)
    (r_tx_hash r) (r_index r).

(** Nothing that is not sent is there. *)
Definition nothing_lost (x : stx * rcpt) : Prop :=
  match s_variant (fst x) with
  | VDeclareV0 t => d1_nonce t = 0
  | VInvokeV0 t => i0_entry_type t = None
  | _ => True
  end /\
  b_segment_arena (x_builtins (r_resources (snd x))) = 0 /\
  g_l1_data (x_total_gas (r_resources (snd x))) = 0 /\
  Forall (fun m => m_to m < 2 ^ 160) (r_messages (snd x)).

(** The values of a transaction: field elements, addresses of contracts, bounds of resources. *)
Definition felts_of (v : variant) : list N :=
  match v with
  | VDeclareV0 (DeclareTx01 cl fee nonce sig _) | VDeclareV1 (DeclareTx01 cl fee nonce sig _) =>
      cl :: fee :: nonce :: sig
  | VDeclareV2 (DeclareTx2 cl fee nonce sig _ casm) => cl :: fee :: nonce :: casm :: sig
  | VDeclareV3 (DeclareTx3 cl nonce _ _ _ _ pay sig deployment _ casm) =>
      cl :: nonce :: casm :: pay ++ sig ++ deployment
  | VDeployV0 (DeployTx cl _ salt calldata) | VDeployV1 (DeployTx cl _ salt calldata) =>
      cl :: salt :: calldata
  | VDeployAccountV1 (DeployAccountTx1 _ fee sig nonce salt calldata cl) =>
      fee :: nonce :: salt :: cl :: sig ++ calldata
  | VDeployAccountV3 (DeployAccountTx3 _ sig nonce _ _ _ _ pay salt calldata cl) =>
      nonce :: salt :: cl :: sig ++ pay ++ calldata
  | VInvokeV0 (InvokeTx0 calldata _ selector _ fee sig) => selector :: fee :: calldata ++ sig
  | VInvokeV1 (InvokeTx1 calldata _ fee sig nonce) => fee :: nonce :: calldata ++ sig
  | VInvokeV3 (InvokeTx3 sig nonce _ _ _ _ pay deployment calldata _ proof) =>
      nonce :: sig ++ pay ++ deployment ++ calldata ++ proof
  | VL1Handler (L1HandlerTx _ selector nonce calldata) => selector :: nonce :: calldata
  end.
Definition address_of (v : variant) : N :=
  match v with
  | VDeclareV0 t | VDeclareV1 t => d1_sender t
  | VDeclareV2 t => d2_sender t
  | VDeclareV3 t => d3_sender t
  | VDeployV0 t | VDeployV1 t => dp_address t
  | VDeployAccountV1 t => a1_address t
  | VDeployAccountV3 t => a3_address t
  | VInvokeV0 t => i0_sender t
  | VInvokeV1 t => i1_sender t
  | VInvokeV3 t => i3_sender t
  | VL1Handler t => l1_address t
  end.
Definition bounds_of (v : variant) : option resource_bounds :=
  match v with
  | VDeclareV3 t => Some (d3_bounds t)
  | VDeployAccountV3 t => Some (a3_bounds t)
  | VInvokeV3 t => Some (i3_bounds t)
  | _ => None
  end.

(** Whatever is in a message: lists of bytes. *)
Definition all_bytes (b : list byte) : Prop := Forall (fun x => x < 256) b.
Definition limits_bytes (l : limits (list byte)) : Prop :=
  all_bytes (li_amount l) /\ all_bytes (li_price l).
Definition bounds_bytes (b : p_bounds (list byte)) : Prop :=
  limits_bytes (pb_l1 _ b) /\ limits_bytes (pb_l2 _ b) /\ is_option limits_bytes (pb_data _ b).
Definition variant_bytes (v : p_variant (list byte) Z) : Prop :=
  match v with
  | PVDeclareV0 (PDeclare0 a b c d) => all_bytes a /\ all_bytes b /\ Forall all_bytes c /\ all_bytes d
  | PVDeclareV1 (PDeclare1 a b c d e) =>
      all_bytes a /\ all_bytes b /\ Forall all_bytes c /\ all_bytes d /\ all_bytes e
  | PVDeclareV2 (PDeclare2 a b c d e f) =>
      all_bytes a /\ all_bytes b /\ Forall all_bytes c /\ all_bytes d /\ all_bytes e /\ all_bytes f
  | PVDeclareV3 (PDeclare3 a b c d e _ g h _ _ k) =>
      all_bytes a /\ Forall all_bytes b /\ all_bytes c /\ all_bytes d /\ bounds_bytes e /\
      Forall all_bytes g /\ Forall all_bytes h /\ all_bytes k
  | PVDeploy (PDeploy a b c _) => all_bytes a /\ all_bytes b /\ Forall all_bytes c
  | PVDeployAccountV1 (PAccount1 a b c d e f) =>
      all_bytes a /\ Forall all_bytes b /\ all_bytes c /\ all_bytes d /\ all_bytes e /\
      Forall all_bytes f
  | PVDeployAccountV3 (PAccount3 a b c d e f _ h _ _) =>
      Forall all_bytes a /\ all_bytes b /\ all_bytes c /\ all_bytes d /\ Forall all_bytes e /\
      bounds_bytes f /\ Forall all_bytes h
  | PVInvokeV0 (PInvoke0 a b c d e) =>
      all_bytes a /\ Forall all_bytes b /\ all_bytes c /\ all_bytes d /\ Forall all_bytes e
  | PVInvokeV1 (PInvoke1 a b c d e) =>
      all_bytes a /\ all_bytes b /\ Forall all_bytes c /\ all_bytes d /\ Forall all_bytes e
  | PVInvokeV3 (PInvoke3 a b c d _ f g _ _ j k) =>
      all_bytes a /\ Forall all_bytes b /\ Forall all_bytes c /\ bounds_bytes d /\
      Forall all_bytes f /\ Forall all_bytes g /\ all_bytes j /\ Forall all_bytes k
  | PVL1HandlerV0 (PL1Handler a b c d) =>
      all_bytes a /\ all_bytes b /\ all_bytes c /\ Forall all_bytes d
  end.
Definition message_bytes (m : p_message (list byte)) : Prop :=
  all_bytes (pm_from _ m) /\ Forall all_bytes (pm_payload _ m) /\ all_bytes (pm_to _ m).
Definition receipt_bytes (r : p_receipt (list byte) Z) : Prop :=
  let c := common_of r in
  let x := pc_resources _ _ c in
  all_bytes (pc_fee _ _ c) /\ Forall message_bytes (pc_messages _ _ c) /\
  is_option all_bytes (px_l1 _ x) /\ is_option all_bytes (px_l1_data _ x) /\
  is_option all_bytes (px_total_l1 _ x) /\ is_option all_bytes (px_l2 _ x) /\
  match r with PRDeploy _ a | PRDeployAccount _ a => all_bytes a | _ => True end.

(** What is made of a receipt is made of values of their types. *)
Definition receipt_values (r : c_rcpt) : Prop :=
  is_felt (cr_fee r) /\ is_u128 (g_l1 (x_data_availability (cr_resources r))) /\
  is_u128 (g_l1_data (x_data_availability (cr_resources r))) /\
  is_u128 (g_l1 (x_total_gas (cr_resources r))) /\ is_u128 (x_l2_gas (cr_resources r)) /\
  Forall (fun m => is_felt (m_from m) /\ Forall is_felt (m_payload m) /\ m_to m < 2 ^ 160) (cr_messages r).

(** A block header whose parts are values of their types. *)
Definition is_header (h : header) : Prop :=
  is_felt (hd_hash h) /\ is_felt (hd_parent h) /\ hd_number h < 2 ^ 63 /\ hd_timestamp h < 2 ^ 63 /\
  Forall is_u128 [hd_eth_l1_gas h; hd_strk_l1_gas h; hd_eth_l1_data_gas h; hd_strk_l1_data_gas h;
                  hd_eth_l2_gas h; hd_strk_l2_gas h] /\
  is_251 (hd_sequencer h) /\ valid (hd_version h) /\
  Forall is_felt [hd_event_commitment h; hd_state_commitment h; hd_tx_commitment h;
                  hd_receipt_commitment h; hd_sd_commitment h] /\
  is_u64 (hd_tx_count h) /\ is_u64 (hd_event_count h) /\ is_u64 (hd_sd_length h).
Definition u128_parts (u : N * N) : Prop := is_u64 (fst u) /\ is_u64 (snd u).
Definition header_bytes (m : p_header (list byte) (N * N) Z) : Prop :=
  let 'PHeader hash parent number time seq root sd txs evs rcs version a b c d e f mode sigs := m in
  Forall all_bytes [hash; parent; seq; root; snd sd; snd txs; snd evs; rcs; version] /\
  Forall is_u64 [number; time; fst sd; fst txs; fst evs] /\
  Forall u128_parts [a; b; c; d] /\ is_option u128_parts e /\ is_option u128_parts f /\
  Forall (fun s => all_bytes (fst s) /\ all_bytes (snd s)) sigs.

(** A block's transactions and receipts as they belong together: contract addresses are those the
    transactions give, hashes are those of the transactions, each receipt has the hash and the place
    of its transaction. *)
Definition belongs (pedersen : felt -> felt -> felt) (poseidon : list felt -> felt) (chain_id : felt)
    (l : list (stx * rcpt)) : Prop :=
  forall i t r, nth_error l i = Some (t, r) ->
    calculate_contract_address pedersen (s_variant t) = Ok (s_variant t) /\
    calculate_hash pedersen poseidon (s_variant t) chain_id false = Ok (s_hash t) /\
    r_tx_hash r = s_hash t /\ r_index r = N.of_nat i.
