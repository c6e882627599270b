(** Model of /repo/crates/common/src/transaction.rs (hashes of transactions and their
    verification) and of ContractAddress::deployed_contract_address,
    /repo/crates/common/src/lib.rs:622-658.

    Simplifications that hold for the whole file: field elements and unsigned integers are
    numbers; the Pedersen hash, the Poseidon list hash and Keccak-256 are parameters
    ([PoseidonHasher] writes followed by [finish] are the list hash of what was written, C06). *)
From Coq Require Import List Bool Arith NArith.
From Verif Require Import Radix MerkleModel HashModel VersionModel CommitModel.
From Verif Require FeltModel.
Import ListNotations.
Local Open Scope N_scope.

(** enum EntryPointType, transaction.rs:387-391 *)
Inductive entry_point_type : Type := External | EntryL1Handler.
(** struct ResourceBound, transaction.rs:400-404: u64 and u128 *)
Record resource_bound := Bound { rb_amount : N; rb_price : N }.
(** struct ResourceBounds, transaction.rs:393-398 *)
Record resource_bounds := Bounds {
  rb_l1_gas : resource_bound; rb_l2_gas : resource_bound; rb_l1_data_gas : option resource_bound }.
(** enum DataAvailabilityMode, transaction.rs:406-420, with its conversion to u64 *)
Inductive da_mode : Type := DaL1 | DaL2.
Definition da_u64 (m : da_mode) : N := match m with DaL1 => 0 | DaL2 => 1 end.

(** DeclareTransactionV0V1, transaction.rs:269-276 *)
Record declare_v0v1 := DeclareTx01 {
  d1_class : felt; d1_max_fee : felt; d1_nonce : felt; d1_signature : list felt; d1_sender : felt }.
(** DeclareTransactionV2, transaction.rs:278-286 *)
Record declare_v2 := DeclareTx2 {
  d2_class : felt; d2_max_fee : felt; d2_nonce : felt; d2_signature : list felt; d2_sender : felt;
  d2_casm : felt }.
(** DeclareTransactionV3, transaction.rs:288-301 *)
Record declare_v3 := DeclareTx3 {
  d3_class : felt; d3_nonce : felt; d3_nonce_mode : da_mode; d3_fee_mode : da_mode;
  d3_bounds : resource_bounds; d3_tip : N; d3_paymaster : list felt; d3_signature : list felt;
  d3_deployment : list felt; d3_sender : felt; d3_casm : felt }.
(** DeployTransactionV0 and DeployTransactionV1, transaction.rs:303-317 *)
Record deploy := DeployTx {
  dp_class : felt; dp_address : felt; dp_salt : felt; dp_calldata : list felt }.
(** DeployAccountTransactionV1, transaction.rs:319-328 *)
Record deploy_account_v1 := DeployAccountTx1 {
  a1_address : felt; a1_max_fee : felt; a1_signature : list felt; a1_nonce : felt; a1_salt : felt;
  a1_calldata : list felt; a1_class : felt }.
(** DeployAccountTransactionV3, transaction.rs:330-343 *)
Record deploy_account_v3 := DeployAccountTx3 {
  a3_address : felt; a3_signature : list felt; a3_nonce : felt; a3_nonce_mode : da_mode;
  a3_fee_mode : da_mode; a3_bounds : resource_bounds; a3_tip : N; a3_paymaster : list felt;
  a3_salt : felt; a3_calldata : list felt; a3_class : felt }.
(** InvokeTransactionV0, transaction.rs:345-353 *)
Record invoke_v0 := InvokeTx0 {
  i0_calldata : list felt; i0_sender : felt; i0_selector : felt;
  i0_entry_type : option entry_point_type; i0_max_fee : felt; i0_signature : list felt }.
(** InvokeTransactionV1, transaction.rs:355-362 *)
Record invoke_v1 := InvokeTx1 {
  i1_calldata : list felt; i1_sender : felt; i1_max_fee : felt; i1_signature : list felt;
  i1_nonce : felt }.
(** InvokeTransactionV3, transaction.rs:364-377 *)
Record invoke_v3 := InvokeTx3 {
  i3_signature : list felt; i3_nonce : felt; i3_nonce_mode : da_mode; i3_fee_mode : da_mode;
  i3_bounds : resource_bounds; i3_tip : N; i3_paymaster : list felt; i3_deployment : list felt;
  i3_calldata : list felt; i3_sender : felt; i3_proof_facts : list felt }.
(** L1HandlerTransaction, transaction.rs:379-385 *)
Record l1_handler := L1HandlerTx {
  l1_address : felt; l1_selector : felt; l1_nonce : felt; l1_calldata : list felt }.

(** enum TransactionVariant, transaction.rs:48-62 *)
Inductive variant : Type :=
| VDeclareV0 (t : declare_v0v1)
| VDeclareV1 (t : declare_v0v1)
| VDeclareV2 (t : declare_v2)
| VDeclareV3 (t : declare_v3)
| VDeployV0 (t : deploy)
| VDeployV1 (t : deploy)
| VDeployAccountV1 (t : deploy_account_v1)
| VDeployAccountV3 (t : deploy_account_v3)
| VInvokeV0 (t : invoke_v0)
| VInvokeV1 (t : invoke_v1)
| VInvokeV3 (t : invoke_v3)
| VL1Handler (t : l1_handler).

(** EntryPoint::CONSTRUCTOR, lib.rs:94-97 *)
Definition CONSTRUCTOR : felt := 0x028FFE4FF0F226A9107253E17A904099AA4F63A02A5621DE0576E5AA71BC5194.

(** TransactionVersion::ZERO, ONE, TWO, THREE (lib.rs:271-279) with_query_only, lib.rs:263-269;
    [v] is below 256 *)
Definition version_word (v : N) (query_only : bool) : outcome felt :=
  match with_query_only (repeat 0 31 ++ [v]) query_only with
  | Some f => Ok (rval 256 f)
  | None => Panic
  end.

(** V3Hasher::pack_gas_bound, transaction.rs:943-954; the names have at most 8 bytes *)
Definition pack_gas_bound (name : list N) (b : resource_bound) : outcome felt :=
  let buffer := repeat 0 (8 - length name) ++ name ++ rdigits 256 8 (rb_amount b) ++
                rdigits 256 16 (rb_price b) in
  match FeltModel.from_be_bytes buffer with
  | FeltModel.Ok f => Ok (rval 256 f)
  | FeltModel.Err _ => Panic
  end.

(** V3Hasher::pack_data_availability, transaction.rs:913-918 *)
Definition pack_data_availability (nonce_mode fee_mode : da_mode) : N :=
  N.shiftl (da_u64 nonce_mode) 32 + da_u64 fee_mode.

Section Hashes.
  Variable pedersen : felt -> felt -> felt.
  Variable poseidon : list felt -> felt.
  Variable keccak : list N -> list N.

  (** LegacyHasher::hash, transaction.rs:796-820 *)
  Definition legacy_hasher (prefix address entry_point data_hash : felt) (nonce : option felt)
      (chain_id : felt) : outcome felt :=
    chain_hash pedersen
      ([prefix; address; entry_point; data_hash; chain_id] ++
       match nonce with Some n => [n] | None => [] end).

  (** PreV3Hasher::hash, transaction.rs:822-855 *)
  Definition pre_v3_hasher (prefix version address entry_point data_hash max_fee : felt)
      (nonce_or_class casm_hash : option felt) (chain_id : felt) : outcome felt :=
    chain_hash pedersen
      ([prefix; version; address; entry_point; data_hash; max_fee; chain_id] ++
       match nonce_or_class with Some x => [x] | None => [] end ++
       match casm_hash with Some x => [x] | None => [] end).

  (** V3Hasher::hash_fee_fields, transaction.rs:930-941 *)
  Definition hash_fee_fields (tip : N) (b : resource_bounds) : outcome felt :=
    do l1 <- pack_gas_bound (text "L1_GAS") (rb_l1_gas b);
    do l2 <- pack_gas_bound (text "L2_GAS") (rb_l2_gas b);
    match rb_l1_data_gas b with
    | Some d => do l1_data <- pack_gas_bound (text "L1_DATA") d; Ok (poseidon [tip; l1; l2; l1_data])
    | None => Ok (poseidon [tip; l1; l2])
    end.

  (** V3Hasher::hash, transaction.rs:873-911, with hash_paymaster_data, 920-928 *)
  Definition v3_hasher (prefix sender nonce : felt) (data_hashes : list felt) (tip : N)
      (paymaster : list felt) (nonce_mode fee_mode : da_mode) (bounds : resource_bounds)
      (query_only : bool) (proof_facts : list felt) (chain_id : felt) : outcome felt :=
    do version <- version_word 3 query_only;
    do fee <- hash_fee_fields tip bounds;
    Ok (poseidon
          ([ prefix; version; sender; fee; poseidon paymaster; chain_id; nonce;
             pack_data_availability nonce_mode fee_mode ] ++ data_hashes ++
           match proof_facts with [] => [] | _ => [poseidon proof_facts] end)).

  (** DeclareTransactionV0V1, transaction.rs:422-447 *)
  Definition declare_v0_hash (t : declare_v0v1) (chain_id : felt) (q : bool) : outcome felt :=
    do v <- version_word 0 q;
    do data_hash <- chain_hash pedersen [];
    pre_v3_hasher (felt_bytes (text "declare")) v (d1_sender t) 0 data_hash 0 (Some (d1_class t)) None chain_id.
  Definition declare_v1_hash (t : declare_v0v1) (chain_id : felt) (q : bool) : outcome felt :=
    do v <- version_word 1 q;
    do data_hash <- or_panic (chain_single pedersen (d1_class t));
    pre_v3_hasher (felt_bytes (text "declare")) v (d1_sender t) 0 data_hash (d1_max_fee t)
      (Some (d1_nonce t)) None chain_id.

  (** DeclareTransactionV2, transaction.rs:449-463 *)
  Definition declare_v2_hash (t : declare_v2) (chain_id : felt) (q : bool) : outcome felt :=
    do v <- version_word 2 q;
    do data_hash <- or_panic (chain_single pedersen (d2_class t));
    pre_v3_hasher (felt_bytes (text "declare")) v (d2_sender t) 0 data_hash (d2_max_fee t)
      (Some (d2_nonce t)) (Some (d2_casm t)) chain_id.

  (** DeployTransactionV0 and V1, transaction.rs:465-531: [version] is 0 or 1 *)
  Definition deploy_hash (version : N) (t : deploy) (chain_id : felt) (q : bool) : outcome felt :=
    do v <- version_word version q;
    do data_hash <- chain_hash pedersen (dp_calldata t);
    pre_v3_hasher (felt_bytes (text "deploy")) v (dp_address t) CONSTRUCTOR data_hash 0 None None chain_id.
  Definition deploy_legacy_hash (t : deploy) (chain_id : felt) : outcome felt :=
    do data_hash <- chain_hash pedersen (dp_calldata t);
    legacy_hasher (felt_bytes (text "deploy")) (dp_address t) CONSTRUCTOR data_hash None chain_id.

  (** DeployAccountTransactionV1, transaction.rs:533-554 *)
  Definition deploy_account_v1_hash (t : deploy_account_v1) (chain_id : felt) (q : bool) : outcome felt :=
    do data_hash <- chain_hash pedersen (a1_class t :: a1_salt t :: a1_calldata t);
    do v <- version_word 1 q;
    pre_v3_hasher (felt_bytes (text "deploy_account")) v (a1_address t) 0 data_hash (a1_max_fee t)
      (Some (a1_nonce t)) None chain_id.

  (** InvokeTransactionV0, transaction.rs:556-590 *)
  Definition invoke_v0_hash (t : invoke_v0) (chain_id : felt) (q : bool) : outcome felt :=
    do v <- version_word 0 q;
    do data_hash <- chain_hash pedersen (i0_calldata t);
    pre_v3_hasher (felt_bytes (text "invoke")) v (i0_sender t) (i0_selector t) data_hash (i0_max_fee t)
      None None chain_id.
  Definition invoke_v0_legacy_hash (t : invoke_v0) (chain_id : felt) : outcome felt :=
    do data_hash <- chain_hash pedersen (i0_calldata t);
    legacy_hasher (felt_bytes (text "invoke")) (i0_sender t) (i0_selector t) data_hash None chain_id.

  (** L1HandlerTransaction, transaction.rs:626-671 *)
  Definition l1_handler_hash (t : l1_handler) (chain_id : felt) : outcome felt :=
    do v <- version_word 0 false;
    do data_hash <- chain_hash pedersen (l1_calldata t);
    pre_v3_hasher (felt_bytes (text "l1_handler")) v (l1_address t) (l1_selector t) data_hash 0
      (Some (l1_nonce t)) None chain_id.
  Definition l1_handler_legacy_hash (t : l1_handler) (chain_id : felt) : outcome felt :=
    do data_hash <- chain_hash pedersen (l1_calldata t);
    legacy_hasher (felt_bytes (text "invoke")) (l1_address t) (l1_selector t) data_hash None chain_id.
  Definition l1_handler_v07_hash (t : l1_handler) (chain_id : felt) : outcome felt :=
    do data_hash <- chain_hash pedersen (l1_calldata t);
    legacy_hasher (felt_bytes (text "l1_handler")) (l1_address t) (l1_selector t) data_hash
      (Some (l1_nonce t)) chain_id.

  (** DeclareTransactionV3, transaction.rs:673-703 *)
  Definition declare_v3_hash (t : declare_v3) (chain_id : felt) (q : bool) : outcome felt :=
    v3_hasher (felt_bytes (text "declare")) (d3_sender t) (d3_nonce t)
      [poseidon (d3_deployment t); d3_class t; d3_casm t] (d3_tip t) (d3_paymaster t)
      (d3_nonce_mode t) (d3_fee_mode t) (d3_bounds t) q [] chain_id.

  (** DeployAccountTransactionV3, transaction.rs:705-735 *)
  Definition deploy_account_v3_hash (t : deploy_account_v3) (chain_id : felt) (q : bool) : outcome felt :=
    v3_hasher (felt_bytes (text "deploy_account")) (a3_address t) (a3_nonce t)
      [poseidon (a3_calldata t); a3_class t; a3_salt t] (a3_tip t) (a3_paymaster t)
      (a3_nonce_mode t) (a3_fee_mode t) (a3_bounds t) q [] chain_id.

  (** InvokeTransactionV3, transaction.rs:737-771 *)
  Definition invoke_v3_hash (t : invoke_v3) (chain_id : felt) (q : bool) : outcome felt :=
    v3_hasher (felt_bytes (text "invoke")) (i3_sender t) (i3_nonce t)
      [poseidon (i3_deployment t); poseidon (i3_calldata t)] (i3_tip t) (i3_paymaster t)
      (i3_nonce_mode t) (i3_fee_mode t) (i3_bounds t) q (i3_proof_facts t) chain_id.

  (** InvokeTransactionV1, transaction.rs:773-794 *)
  Definition invoke_v1_hash (t : invoke_v1) (chain_id : felt) (q : bool) : outcome felt :=
    do data_hash <- chain_hash pedersen (i1_calldata t);
    do v <- version_word 1 q;
    pre_v3_hasher (felt_bytes (text "invoke")) v (i1_sender t) 0 data_hash (i1_max_fee t)
      (Some (i1_nonce t)) None chain_id.

  (** TransactionVariant::calculate_hash, transaction.rs:101-116 *)
  Definition calculate_hash (t : variant) (chain_id : felt) (q : bool) : outcome felt :=
    match t with
    | VDeclareV0 t => declare_v0_hash t chain_id q
    | VDeclareV1 t => declare_v1_hash t chain_id q
    | VDeclareV2 t => declare_v2_hash t chain_id q
    | VDeclareV3 t => declare_v3_hash t chain_id q
    | VDeployV0 t => deploy_hash 0 t chain_id q
    | VDeployV1 t => deploy_hash 1 t chain_id q
    | VDeployAccountV1 t => deploy_account_v1_hash t chain_id q
    | VDeployAccountV3 t => deploy_account_v3_hash t chain_id q
    | VInvokeV0 t => invoke_v0_hash t chain_id q
    | VInvokeV1 t => invoke_v1_hash t chain_id q
    | VInvokeV3 t => invoke_v3_hash t chain_id q
    | VL1Handler t => l1_handler_hash t chain_id
    end.

  (** TransactionVariant::calculate_legacy_hash, transaction.rs:138-148 *)
  Definition calculate_legacy_hash (t : variant) (chain_id : felt) : outcome (option felt) :=
    match t with
    | VDeployV0 t | VDeployV1 t => do h <- deploy_legacy_hash t chain_id; Ok (Some h)
    | VInvokeV0 t => do h <- invoke_v0_legacy_hash t chain_id; Ok (Some h)
    | VL1Handler t => do h <- l1_handler_legacy_hash t chain_id; Ok (Some h)
    | _ => Ok None
    end.

  (** TransactionVariant::verify_hash, transaction.rs:80-99 *)
  Definition verify_hash (t : variant) (chain_id expected : felt) : outcome bool :=
    do h <- calculate_hash t chain_id false;
    if expected =? h then Ok true
    else
      do l <- calculate_legacy_hash t chain_id;
      if match l with Some h => expected =? h | None => false end then Ok true
      else
        match t with
        | VL1Handler t => do h <- l1_handler_v07_hash t chain_id; Ok (expected =? h)
        | _ => Ok false
        end.

  (** L1HandlerTransaction::calculate_message_hash, transaction.rs:592-624; H256::zero() when
      there is no calldata *)
  Definition message_hash (t : l1_handler) : list N :=
    match l1_calldata t with
    | [] => repeat 0 32
    | from_address :: payload =>
        keccak (rdigits 256 32 from_address ++ rdigits 256 32 (l1_address t) ++
                rdigits 256 32 (l1_nonce t) ++ rdigits 256 32 (l1_selector t) ++
                repeat 0 24 ++ rdigits 256 8 (len payload) ++
                flat_map (rdigits 256 32) payload)
    end.

  (** MAX_CONTRACT_ADDRESS, lib.rs:645-648 *)
  Definition MAX_CONTRACT_ADDRESS : felt :=
    0x7ffffffffffffffffffffffffffffffffffffffffffffffffffffffffffff00.
  (** ContractAddress::deployed_contract_address, lib.rs:622-658; subtraction of felts, which does
      not wrap here; ContractAddress::new_or_panic refuses more than 251 bits *)
  Definition deployed_contract_address (calldata : list felt) (salt class : felt) : outcome felt :=
    do calldata_hash <- chain_hash pedersen calldata;
    do a <- chain_hash pedersen
              [felt_bytes (text "STARKNET_CONTRACT_ADDRESS"); 0; salt; class; calldata_hash];
    let a := if MAX_CONTRACT_ADDRESS <=? a then a - MAX_CONTRACT_ADDRESS else a in
    if a <? 2 ^ 251 then Ok a else Panic.

  (** TransactionVariant::calculate_contract_address, transaction.rs:156-198 *)
  Definition calculate_contract_address (t : variant) : outcome variant :=
    match t with
    | VDeployV0 t =>
        do a <- deployed_contract_address (dp_calldata t) (dp_salt t) (dp_class t);
        Ok (VDeployV0 (DeployTx (dp_class t) a (dp_salt t) (dp_calldata t)))
    | VDeployV1 t =>
        do a <- deployed_contract_address (dp_calldata t) (dp_salt t) (dp_class t);
        Ok (VDeployV1 (DeployTx (dp_class t) a (dp_salt t) (dp_calldata t)))
    | VDeployAccountV1 t =>
        do a <- deployed_contract_address (a1_calldata t) (a1_salt t) (a1_class t);
        Ok (VDeployAccountV1 (DeployAccountTx1 a (a1_max_fee t) (a1_signature t) (a1_nonce t)
              (a1_salt t) (a1_calldata t) (a1_class t)))
    | VDeployAccountV3 t =>
        do a <- deployed_contract_address (a3_calldata t) (a3_salt t) (a3_class t);
        Ok (VDeployAccountV3 (DeployAccountTx3 a (a3_signature t) (a3_nonce t) (a3_nonce_mode t)
              (a3_fee_mode t) (a3_bounds t) (a3_tip t) (a3_paymaster t) (a3_salt t) (a3_calldata t)
              (a3_class t)))
    | t => Ok t
    end.
End Hashes.
