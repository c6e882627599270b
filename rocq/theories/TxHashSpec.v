(** Vocabulary for C57, C60 and C61: what a transaction hash covers, and the hash computations that
    go into it. *)
From Coq Require Import List Bool Arith NArith.
From Verif Require Import Radix MerkleModel CommitModel CommitSpec TxHashModel.
Import ListNotations.
Local Open Scope N_scope.

(** What the integer types of the fields guarantee. *)
Definition bound_ok (b : resource_bound) : Prop := rb_amount b < 2 ^ 64 /\ rb_price b < 2 ^ 128.
Definition bounds_ok (b : resource_bounds) : Prop :=
  bound_ok (rb_l1_gas b) /\ bound_ok (rb_l2_gas b) /\
  match rb_l1_data_gas b with Some d => bound_ok d | None => True end.
Definition typed (t : variant) : Prop :=
  match t with
  | VDeclareV3 t => bounds_ok (d3_bounds t)
  | VDeployAccountV3 t => bounds_ok (a3_bounds t)
  | VInvokeV3 t => bounds_ok (i3_bounds t)
  | _ => True
  end.
(** Calldata fits into the memory of a 64-bit machine (with some room). *)
Definition fits (t : variant) : Prop :=
  match t with
  | VDeployV0 t | VDeployV1 t => len (dp_calldata t) < 2 ^ 60
  | VDeployAccountV1 t => len (a1_calldata t) < 2 ^ 60
  | VInvokeV0 t => len (i0_calldata t) < 2 ^ 60
  | VInvokeV1 t => len (i1_calldata t) < 2 ^ 60
  | VL1Handler t => len (l1_calldata t) < 2 ^ 60
  | _ => True
  end.

(** The formulas a hash may follow: that of today, that of ancient deploy, invoke and L1 handler
    transactions, and that of L1 handlers in Starknet 0.7. *)
Inductive form : Type := Current | Ancient | Starknet07.
Definition has_form (f : form) (t : variant) : bool :=
  match f, t with
  | Current, _ => true
  | Ancient, (VDeployV0 _ | VDeployV1 _ | VInvokeV0 _ | VL1Handler _) => true
  | Starknet07, VL1Handler _ => true
  | _, _ => false
  end.

(** The transaction with everything blanked that the hash does not cover. *)
Definition covered (f : form) (t : variant) : variant :=
  match f, t with
  | _, VDeclareV0 t => VDeclareV0 (DeclareTx01 (d1_class t) 0 0 [] (d1_sender t))
  | _, VDeclareV1 t => VDeclareV1 (DeclareTx01 (d1_class t) (d1_max_fee t) (d1_nonce t) [] (d1_sender t))
  | _, VDeclareV2 t =>
      VDeclareV2 (DeclareTx2 (d2_class t) (d2_max_fee t) (d2_nonce t) [] (d2_sender t) (d2_casm t))
  | _, VDeclareV3 t =>
      VDeclareV3 (DeclareTx3 (d3_class t) (d3_nonce t) (d3_nonce_mode t) (d3_fee_mode t) (d3_bounds t)
                    (d3_tip t) (d3_paymaster t) [] (d3_deployment t) (d3_sender t) (d3_casm t))
  | Ancient, (VDeployV0 t | VDeployV1 t) => VDeployV0 (DeployTx 0 (dp_address t) 0 (dp_calldata t))
  | _, VDeployV0 t => VDeployV0 (DeployTx 0 (dp_address t) 0 (dp_calldata t))
  | _, VDeployV1 t => VDeployV1 (DeployTx 0 (dp_address t) 0 (dp_calldata t))
  | _, VDeployAccountV1 t =>
      VDeployAccountV1 (DeployAccountTx1 (a1_address t) (a1_max_fee t) [] (a1_nonce t) (a1_salt t)
                          (a1_calldata t) (a1_class t))
  | _, VDeployAccountV3 t =>
      VDeployAccountV3 (DeployAccountTx3 (a3_address t) [] (a3_nonce t) (a3_nonce_mode t) (a3_fee_mode t)
                          (a3_bounds t) (a3_tip t) (a3_paymaster t) (a3_salt t) (a3_calldata t) (a3_class t))
  | Ancient, VInvokeV0 t => VInvokeV0 (InvokeTx0 (i0_calldata t) (i0_sender t) (i0_selector t) None 0 [])
  | _, VInvokeV0 t =>
      VInvokeV0 (InvokeTx0 (i0_calldata t) (i0_sender t) (i0_selector t) None (i0_max_fee t) [])
  | _, VInvokeV1 t =>
      VInvokeV1 (InvokeTx1 (i1_calldata t) (i1_sender t) (i1_max_fee t) [] (i1_nonce t))
  | _, VInvokeV3 t =>
      VInvokeV3 (InvokeTx3 [] (i3_nonce t) (i3_nonce_mode t) (i3_fee_mode t) (i3_bounds t) (i3_tip t)
                   (i3_paymaster t) (i3_deployment t) (i3_calldata t) (i3_sender t) (i3_proof_facts t))
  | Ancient, VL1Handler t => VInvokeV0 (InvokeTx0 (l1_calldata t) (l1_address t) (l1_selector t) None 0 [])
  | _, VL1Handler t => VL1Handler t
  end.

(** Transactions that accounts sign: their nonce is part of them. *)
Definition by_account (t : variant) : bool :=
  match t with
  | VDeclareV1 _ | VDeclareV2 _ | VDeclareV3 _ | VDeployAccountV1 _ | VDeployAccountV3 _
  | VInvokeV1 _ | VInvokeV3 _ => true
  | _ => false
  end.
(** Everything but the signature. *)
Definition unsigned (t : variant) : variant :=
  match t with
  | VDeclareV0 t => VDeclareV0 (DeclareTx01 (d1_class t) (d1_max_fee t) (d1_nonce t) [] (d1_sender t))
  | VDeclareV1 t => VDeclareV1 (DeclareTx01 (d1_class t) (d1_max_fee t) (d1_nonce t) [] (d1_sender t))
  | VDeclareV2 t =>
      VDeclareV2 (DeclareTx2 (d2_class t) (d2_max_fee t) (d2_nonce t) [] (d2_sender t) (d2_casm t))
  | VDeclareV3 t =>
      VDeclareV3 (DeclareTx3 (d3_class t) (d3_nonce t) (d3_nonce_mode t) (d3_fee_mode t) (d3_bounds t)
                    (d3_tip t) (d3_paymaster t) [] (d3_deployment t) (d3_sender t) (d3_casm t))
  | VDeployAccountV1 t =>
      VDeployAccountV1 (DeployAccountTx1 (a1_address t) (a1_max_fee t) [] (a1_nonce t) (a1_salt t)
                          (a1_calldata t) (a1_class t))
  | VDeployAccountV3 t =>
      VDeployAccountV3 (DeployAccountTx3 (a3_address t) [] (a3_nonce t) (a3_nonce_mode t) (a3_fee_mode t)
                          (a3_bounds t) (a3_tip t) (a3_paymaster t) (a3_salt t) (a3_calldata t) (a3_class t))
  | VInvokeV0 t =>
      VInvokeV0 (InvokeTx0 (i0_calldata t) (i0_sender t) (i0_selector t) (i0_entry_type t) (i0_max_fee t) [])
  | VInvokeV1 t =>
      VInvokeV1 (InvokeTx1 (i1_calldata t) (i1_sender t) (i1_max_fee t) [] (i1_nonce t))
  | VInvokeV3 t =>
      VInvokeV3 (InvokeTx3 [] (i3_nonce t) (i3_nonce_mode t) (i3_fee_mode t) (i3_bounds t) (i3_tip t)
                   (i3_paymaster t) (i3_deployment t) (i3_calldata t) (i3_sender t) (i3_proof_facts t))
  | t => t
  end.

(** ---- the hashed words ---- *)
Definition word (s : list N) : felt := rval 256 s.
Definition version (v : N) (query : bool) : felt := v + (if query then 2 ^ 128 else 0).
Definition gas_word (name : list N) (b : resource_bound) : felt :=
  word name * 2 ^ 192 + rb_amount b * 2 ^ 128 + rb_price b.
Definition fee_words (tip : N) (b : resource_bounds) : list felt :=
  [tip; gas_word (text "L1_GAS") (rb_l1_gas b); gas_word (text "L2_GAS") (rb_l2_gas b)] ++
  match rb_l1_data_gas b with Some d => [gas_word (text "L1_DATA") d] | None => [] end.
Definition mode_word (nonce fee : da_mode) : felt := da_u64 nonce * 2 ^ 32 + da_u64 fee.
Definition is_v3 (t : variant) : bool :=
  match t with VDeclareV3 _ | VDeployAccountV3 _ | VInvokeV3 _ => true | _ => false end.

Section Hashes.
  Variable pedersen : felt -> felt -> felt.
  Variable poseidon : list felt -> felt.
  Notation chain := (chain_value pedersen).

  Definition v3_words (prefix : list N) (sender nonce : felt) (nonce_mode fee_mode : da_mode)
      (b : resource_bounds) (tip : N) (paymaster : list felt) (id : felt) (q : bool) : list felt :=
    [ word prefix; version 3 q; sender; poseidon (fee_words tip b); poseidon paymaster; id; nonce;
      mode_word nonce_mode fee_mode ].

  Definition tx_words (f : form) (t : variant) (id : felt) (q : bool) : list felt :=
    match f, t with
    | _, VDeclareV0 t =>
        [word (text "declare"); version 0 q; d1_sender t; 0; chain []; 0; id; d1_class t]
    | _, VDeclareV1 t =>
        [word (text "declare"); version 1 q; d1_sender t; 0; chain [d1_class t]; d1_max_fee t; id; d1_nonce t]
    | _, VDeclareV2 t =>
        [word (text "declare"); version 2 q; d2_sender t; 0; chain [d2_class t]; d2_max_fee t; id;
         d2_nonce t; d2_casm t]
    | _, VDeclareV3 t =>
        v3_words (text "declare") (d3_sender t) (d3_nonce t) (d3_nonce_mode t) (d3_fee_mode t)
          (d3_bounds t) (d3_tip t) (d3_paymaster t) id q ++
        [poseidon (d3_deployment t); d3_class t; d3_casm t]
    | Ancient, (VDeployV0 t | VDeployV1 t) =>
        [word (text "deploy"); dp_address t; CONSTRUCTOR; chain (dp_calldata t); id]
    | _, VDeployV0 t =>
        [word (text "deploy"); version 0 q; dp_address t; CONSTRUCTOR; chain (dp_calldata t); 0; id]
    | _, VDeployV1 t =>
        [word (text "deploy"); version 1 q; dp_address t; CONSTRUCTOR; chain (dp_calldata t); 0; id]
    | _, VDeployAccountV1 t =>
        [word (text "deploy_account"); version 1 q; a1_address t; 0;
         chain (a1_class t :: a1_salt t :: a1_calldata t); a1_max_fee t; id; a1_nonce t]
    | _, VDeployAccountV3 t =>
        v3_words (text "deploy_account") (a3_address t) (a3_nonce t) (a3_nonce_mode t) (a3_fee_mode t)
          (a3_bounds t) (a3_tip t) (a3_paymaster t) id q ++
        [poseidon (a3_calldata t); a3_class t; a3_salt t]
    | Ancient, VInvokeV0 t =>
        [word (text "invoke"); i0_sender t; i0_selector t; chain (i0_calldata t); id]
    | _, VInvokeV0 t =>
        [word (text "invoke"); version 0 q; i0_sender t; i0_selector t; chain (i0_calldata t); i0_max_fee t; id]
    | _, VInvokeV1 t =>
        [word (text "invoke"); version 1 q; i1_sender t; 0; chain (i1_calldata t); i1_max_fee t; id; i1_nonce t]
    | _, VInvokeV3 t =>
        v3_words (text "invoke") (i3_sender t) (i3_nonce t) (i3_nonce_mode t) (i3_fee_mode t)
          (i3_bounds t) (i3_tip t) (i3_paymaster t) id q ++
        [poseidon (i3_deployment t); poseidon (i3_calldata t)] ++
        match i3_proof_facts t with [] => [] | l => [poseidon l] end
    | Ancient, VL1Handler t =>
        [word (text "invoke"); l1_address t; l1_selector t; chain (l1_calldata t); id]
    | Starknet07, VL1Handler t =>
        [word (text "l1_handler"); l1_address t; l1_selector t; chain (l1_calldata t); id; l1_nonce t]
    | Current, VL1Handler t =>
        [word (text "l1_handler"); version 0 false; l1_address t; l1_selector t; chain (l1_calldata t); 0; id;
         l1_nonce t]
    end.
  Definition hash_value (f : form) (t : variant) (id : felt) (q : bool) : felt :=
    if is_v3 t then poseidon (tx_words f t id q) else chain (tx_words f t id q).

  (** All computations of a hash. *)
  Definition part_calls (t : variant) : list call :=
    match t with
    | VDeclareV0 t => chain_calls pedersen []
    | VDeclareV1 t => chain_calls pedersen [d1_class t]
    | VDeclareV2 t => chain_calls pedersen [d2_class t]
    | VDeclareV3 t =>
        map PoseidonList [fee_words (d3_tip t) (d3_bounds t); d3_paymaster t; d3_deployment t]
    | VDeployV0 t | VDeployV1 t => chain_calls pedersen (dp_calldata t)
    | VDeployAccountV1 t => chain_calls pedersen (a1_class t :: a1_salt t :: a1_calldata t)
    | VDeployAccountV3 t =>
        map PoseidonList [fee_words (a3_tip t) (a3_bounds t); a3_paymaster t; a3_calldata t]
    | VInvokeV0 t => chain_calls pedersen (i0_calldata t)
    | VInvokeV1 t => chain_calls pedersen (i1_calldata t)
    | VInvokeV3 t =>
        map PoseidonList [fee_words (i3_tip t) (i3_bounds t); i3_paymaster t; i3_deployment t;
                          i3_calldata t; i3_proof_facts t]
    | VL1Handler t => chain_calls pedersen (l1_calldata t)
    end.
  Definition hash_calls (f : form) (t : variant) (id : felt) (q : bool) : list call :=
    part_calls t ++
    if is_v3 t then [PoseidonList (tx_words f t id q)] else chain_calls pedersen (tx_words f t id q).
  (** ... and of its verification. *)
  Definition verify_calls (t : variant) (id : felt) : list call :=
    flat_map (fun f => if has_form f t then hash_calls f t id false else []) [Current; Ancient; Starknet07].
End Hashes.

(** ---- messages from L1 ---- *)
Definition word_bytes (n : N) : list N := rdigits 256 32 n.
(** keccak(abi.encodePacked(from, to, nonce, selector, payload.length, payload)), each a uint256 *)
Definition message_bytes (from to nonce selector : felt) (payload : list felt) : list N :=
  flat_map word_bytes ([from; to; nonce; selector; len payload] ++ payload).
