(** What is stored of blocks, as a user sees it: a list of blocks with their transactions,
    receipts and events.  Vocabulary for the statements in BlobProperties.v. *)
From Coq Require Import List Bool Arith NArith.
From Verif Require Import MerkleModel CommitModel TxHashModel CodecModel BlobModel.
Import ListNotations.
Local Open Scope N_scope.

(** ---- the values of the types ---- *)

(** a field element; a contract address or compiled class hash; u64; u128 *)
Definition is_felt (x : N) : Prop := x < 2 ^ 251 + 17 * 2 ^ 192 + 1.
Definition is_251 (x : N) : Prop := x < 2 ^ 251.
Definition is_u64 (x : N) : Prop := x < 2 ^ 64.
Definition is_u128 (x : N) : Prop := x < 2 ^ 128.
(** a list of such values; no list has 2^64 elements *)
Definition is_list {A} (ok : A -> Prop) (l : list A) : Prop :=
  len l < 2 ^ 64 /\ Forall ok l.
Definition is_felts : list N -> Prop := is_list is_felt.
Definition is_option {A} (ok : A -> Prop) (o : option A) : Prop :=
  match o with None => True | Some x => ok x end.

Definition is_bound (b : resource_bound) : Prop := is_u64 (rb_amount b) /\ is_u128 (rb_price b).
Definition is_bounds (b : resource_bounds) : Prop :=
  is_bound (rb_l1_gas b) /\ is_bound (rb_l2_gas b) /\ is_option is_bound (rb_l1_data_gas b).

Definition is_variant (v : variant) : Prop :=
  match v with
  | VDeclareV0 (DeclareTx01 cl fee nonce sig sender) =>
      is_felt cl /\ is_felt fee /\ is_felt nonce /\ is_felts sig /\ is_251 sender
  | VDeclareV1 (DeclareTx01 cl fee nonce sig sender) =>
      is_felt cl /\ is_felt fee /\ is_felt nonce /\ is_felts sig /\ is_felt sender
  | VDeclareV2 (DeclareTx2 cl fee nonce sig sender casm) =>
      is_felt cl /\ is_felt fee /\ is_felt nonce /\ is_felts sig /\ is_felt sender /\ is_251 casm
  | VDeclareV3 (DeclareTx3 cl nonce _ _ bounds tip pay sig deployment sender casm) =>
      is_felt cl /\ is_felt nonce /\ is_bounds bounds /\ is_u64 tip /\ is_felts pay /\
      is_felts sig /\ is_felts deployment /\ is_251 sender /\ is_251 casm
  | VDeployV0 (DeployTx cl address salt calldata)
  | VDeployV1 (DeployTx cl address salt calldata) =>
      is_felt cl /\ is_251 address /\ is_felt salt /\ is_felts calldata
  | VDeployAccountV1 (DeployAccountTx1 address fee sig nonce salt calldata cl) =>
      is_251 address /\ is_felt fee /\ is_felts sig /\ is_felt nonce /\ is_felt salt /\
      is_felts calldata /\ is_felt cl
  | VDeployAccountV3 (DeployAccountTx3 address sig nonce _ _ bounds tip pay salt calldata cl) =>
      is_251 address /\ is_felts sig /\ is_felt nonce /\ is_bounds bounds /\ is_u64 tip /\
      is_felts pay /\ is_felt salt /\ is_felts calldata /\ is_felt cl
  | VInvokeV0 (InvokeTx0 calldata sender selector _ fee sig) =>
      is_felts calldata /\ is_251 sender /\ is_felt selector /\ is_felt fee /\ is_felts sig
  | VInvokeV1 (InvokeTx1 calldata sender fee sig nonce) =>
      is_felts calldata /\ is_251 sender /\ is_felt fee /\ is_felts sig /\ is_felt nonce
  | VInvokeV3 (InvokeTx3 sig nonce _ _ bounds tip pay deployment calldata sender proof) =>
      is_felts sig /\ is_felt nonce /\ is_bounds bounds /\ is_u64 tip /\ is_felts pay /\
      is_felts deployment /\ is_felts calldata /\ is_251 sender /\ is_felts proof
  | VL1Handler (L1HandlerTx address selector nonce calldata) =>
      is_251 address /\ is_felt selector /\ is_felt nonce /\ is_felts calldata
  end.

Definition is_builtins (b : builtins) : Prop :=
  let 'Builtins a b c d e f g h i j k l := b in
  Forall is_u64 [a; b; c; d; e; f; g; h; i; j; k; l].
Definition is_gas (g : l1_gas) : Prop := is_u128 (g_l1 g) /\ is_u128 (g_l1_data g).
Definition is_resources (x : resources) : Prop :=
  is_builtins (x_builtins x) /\ is_u64 (x_steps x) /\ is_u64 (x_holes x) /\
  is_gas (x_data_availability x) /\ is_gas (x_total_gas x) /\ is_u128 (x_l2_gas x).
Definition is_message (m : message) : Prop :=
  is_251 (m_from m) /\ is_felts (m_payload m) /\ is_251 (m_to m).
Definition is_status (s : status) : Prop :=
  match s with
  | Succeeded => True
  | Reverted reason => is_list (fun b => b < 256) reason
  end.
Definition is_receipt (r : rcpt) : Prop :=
  is_felt (r_fee r) /\ is_resources (r_resources r) /\ is_list is_message (r_messages r) /\
  is_status (r_status r) /\ is_felt (r_tx_hash r) /\ r_index r < 2 ^ 63.
Definition is_tx (x : stx * rcpt) : Prop :=
  is_felt (s_hash (fst x)) /\ is_variant (s_variant (fst x)) /\ is_receipt (snd x).
Definition is_event (e : event) : Prop :=
  is_felts (ev_data e) /\ is_251 (ev_from e) /\ is_felts (ev_keys e).
Definition is_events : list (list event) -> Prop := is_list (is_list is_event).

(** ---- the store ---- *)

(** a stored block: its transactions with their receipts, and the events of each transaction,
    when they are known *)
Definition block := (list (stx * rcpt) * option (list (list event)))%type.
Definition store := list (N * block).

(** what is done to the store *)
Inductive op : Type :=
| Insert (n : N) (b : block)
| Update (n : N) (events : list (list event))
| Remove (n : N).

(** nothing to store *)
Definition nothing (b : block) : bool :=
  match b with
  | ([], None) | ([], Some []) => true
  | _ => false
  end.

Definition tx_hashes (b : block) : list N := map (fun x => s_hash (fst x)) (fst b).
Definition all_hashes (s : store) : list N := flat_map (fun x => tx_hashes (snd x)) s.

(** a block can be added when its number is new and its transactions are new and distinct *)
Definition addable (s : store) (n : N) (b : block) : Prop :=
  ~ In n (map fst s) /\ NoDup (tx_hashes b) /\
  (forall h, In h (tx_hashes b) -> ~ In h (all_hashes s)).

(** [store_step s o s']: the store after [o] *)
Inductive store_step (s : store) : op -> store -> Prop :=
| insert_nothing n b : nothing b = true -> store_step s (Insert n b) s
| insert_new n b : nothing b = false -> addable s n b ->
    store_step s (Insert n b) (s ++ [(n, b)])
| insert_refused n b : nothing b = false -> ~ addable s n b -> store_step s (Insert n b) s
| update_events_of n es :
    store_step s (Update n es)
      (map (fun x => if fst x =? n then (fst x, (fst (snd x), Some es)) else x) s)
| remove_one n : store_step s (Remove n) (filter (fun x => negb (fst x =? n)) s).

(** the store after a history *)
Inductive reached : list op -> store -> Prop :=
| reached_empty : reached [] []
| reached_step os o s s' : reached os s -> store_step s o s' -> reached (os ++ [o]) s'.

(** the transactions of a block with their positions *)
Definition numbered (b : block) : list (N * N) :=
  combine (tx_hashes b) (map N.of_nat (seq 0 (length (fst b)))).

(** ---- blobs of older versions ---- *)

(** what a transaction in a blob of the current version says *)
Inductive says : variant3 -> variant -> Prop :=
| says_declare_v0 cl fee nonce sig sender :
    says (SDeclareV0 (SDeclare01 cl fee nonce sig sender))
         (VDeclareV0 (DeclareTx01 cl fee nonce sig sender))
| says_declare_v1 cl fee nonce sig sender :
    says (SDeclareV1 (SDeclare01 cl fee nonce sig sender))
         (VDeclareV1 (DeclareTx01 cl fee nonce sig sender))
| says_declare_v2 cl fee nonce sig sender casm :
    says (SDeclareV2 (SDeclare2 cl fee nonce sig sender casm))
         (VDeclareV2 (DeclareTx2 cl fee nonce sig sender casm))
| says_declare_v3 cl nonce nm fm l1 l2 tip pay sig deployment sender casm :
    says (SDeclareV3 (SDeclare3 cl nonce nm fm (Bounds0 l1 l2) tip pay sig deployment sender casm))
         (VDeclareV3 (DeclareTx3 cl nonce nm fm (Bounds l1 l2 None) tip pay sig deployment sender
                                 casm))
| says_declare_v4 cl nonce nm fm bounds tip pay sig deployment sender casm :
    says (SDeclareV4 (SDeclare3 cl nonce nm fm bounds tip pay sig deployment sender casm))
         (VDeclareV3 (DeclareTx3 cl nonce nm fm bounds tip pay sig deployment sender casm))
| says_deploy_v0 address salt cl calldata :
    says (SDeployV0 (SDeploy address salt cl calldata))
         (VDeployV0 (DeployTx cl address salt calldata))
| says_deploy_v1 address salt cl calldata :
    says (SDeployV1 (SDeploy address salt cl calldata))
         (VDeployV1 (DeployTx cl address salt calldata))
| says_account_v1 address fee sig nonce salt calldata cl :
    says (SDeployAccountV1 (SAccount1 address fee sig nonce salt calldata cl))
         (VDeployAccountV1 (DeployAccountTx1 address fee sig nonce salt calldata cl))
| says_account_v3 address sig nonce nm fm l1 l2 tip pay salt calldata cl :
    says (SDeployAccountV3 (SAccount3 address sig nonce nm fm (Bounds0 l1 l2) tip pay salt calldata
                                      cl))
         (VDeployAccountV3 (DeployAccountTx3 address sig nonce nm fm (Bounds l1 l2 None) tip pay
                                             salt calldata cl))
| says_account_v4 address sig nonce nm fm bounds tip pay salt calldata cl :
    says (SDeployAccountV4 (SAccount3 address sig nonce nm fm bounds tip pay salt calldata cl))
         (VDeployAccountV3 (DeployAccountTx3 address sig nonce nm fm bounds tip pay salt calldata
                                             cl))
| says_invoke_v0 calldata sender selector entry fee sig :
    says (SInvokeV0 (SInvoke0 calldata sender selector entry fee sig))
         (VInvokeV0 (InvokeTx0 calldata sender selector entry fee sig))
| says_invoke_v1 calldata sender fee sig nonce :
    says (SInvokeV1 (SInvoke1 calldata sender fee sig nonce))
         (VInvokeV1 (InvokeTx1 calldata sender fee sig nonce))
| says_invoke_v3 sig nonce nm fm l1 l2 tip pay deployment calldata sender :
    says (SInvokeV3 (SInvoke3 sig nonce nm fm (Bounds0 l1 l2) tip pay deployment calldata sender))
         (VInvokeV3 (InvokeTx3 sig nonce nm fm (Bounds l1 l2 None) tip pay deployment calldata
                               sender []))
| says_invoke_v4 sig nonce nm fm bounds tip pay deployment calldata sender :
    says (SInvokeV4 (SInvoke3 sig nonce nm fm bounds tip pay deployment calldata sender))
         (VInvokeV3 (InvokeTx3 sig nonce nm fm bounds tip pay deployment calldata sender []))
| says_invoke_v5 sig nonce nm fm bounds tip pay deployment calldata sender proof :
    says (SInvokeV5 (SInvoke5 (SInvoke3 sig nonce nm fm bounds tip pay deployment calldata sender)
                              proof))
         (VInvokeV3 (InvokeTx3 sig nonce nm fm bounds tip pay deployment calldata sender proof))
| says_l1_handler address selector nonce calldata :
    says (SL1HandlerV0 (SL1Handler address selector nonce calldata))
         (VL1Handler (L1HandlerTx address selector nonce calldata)).

(** ... and one in a blob of the versions before it, which lack some of the variants; the first
    had one variant for deploys of both versions *)
Inductive says0 : variant0 -> variant -> Prop :=
| says0_declare_v0 t v : says (SDeclareV0 t) v -> says0 (V0DeclareV0 t) v
| says0_declare_v1 t v : says (SDeclareV1 t) v -> says0 (V0DeclareV1 t) v
| says0_declare_v2 t v : says (SDeclareV2 t) v -> says0 (V0DeclareV2 t) v
| says0_declare_v3 t v : says (SDeclareV3 t) v -> says0 (V0DeclareV3 t) v
| says0_deploy_0 address salt cl calldata :
    says0 (V0Deploy (SDeployAny address 0 salt cl calldata))
          (VDeployV0 (DeployTx cl address salt calldata))
| says0_deploy_1 address salt cl calldata :
    says0 (V0Deploy (SDeployAny address 1 salt cl calldata))
          (VDeployV1 (DeployTx cl address salt calldata))
| says0_account_v1 t v : says (SDeployAccountV1 t) v -> says0 (V0DeployAccountV1 t) v
| says0_account_v3 t v : says (SDeployAccountV3 t) v -> says0 (V0DeployAccountV3 t) v
| says0_invoke_v0 t v : says (SInvokeV0 t) v -> says0 (V0InvokeV0 t) v
| says0_invoke_v1 t v : says (SInvokeV1 t) v -> says0 (V0InvokeV1 t) v
| says0_invoke_v3 t v : says (SInvokeV3 t) v -> says0 (V0InvokeV3 t) v
| says0_l1_handler t v : says (SL1HandlerV0 t) v -> says0 (V0L1Handler t) v.
Inductive says1 : variant1 -> variant -> Prop :=
| says1_declare_v0 t v : says (SDeclareV0 t) v -> says1 (V1DeclareV0 t) v
| says1_declare_v1 t v : says (SDeclareV1 t) v -> says1 (V1DeclareV1 t) v
| says1_declare_v2 t v : says (SDeclareV2 t) v -> says1 (V1DeclareV2 t) v
| says1_declare_v3 t v : says (SDeclareV3 t) v -> says1 (V1DeclareV3 t) v
| says1_deploy_v0 t v : says (SDeployV0 t) v -> says1 (V1DeployV0 t) v
| says1_deploy_v1 t v : says (SDeployV1 t) v -> says1 (V1DeployV1 t) v
| says1_account_v1 t v : says (SDeployAccountV1 t) v -> says1 (V1DeployAccountV1 t) v
| says1_account_v3 t v : says (SDeployAccountV3 t) v -> says1 (V1DeployAccountV3 t) v
| says1_invoke_v0 t v : says (SInvokeV0 t) v -> says1 (V1InvokeV0 t) v
| says1_invoke_v1 t v : says (SInvokeV1 t) v -> says1 (V1InvokeV1 t) v
| says1_invoke_v3 t v : says (SInvokeV3 t) v -> says1 (V1InvokeV3 t) v
| says1_l1_handler t v : says (SL1HandlerV0 t) v -> says1 (V1L1Handler t) v.
Inductive says2 : variant2 -> variant -> Prop :=
| says2_declare_v0 t v : says (SDeclareV0 t) v -> says2 (V2DeclareV0 t) v
| says2_declare_v1 t v : says (SDeclareV1 t) v -> says2 (V2DeclareV1 t) v
| says2_declare_v2 t v : says (SDeclareV2 t) v -> says2 (V2DeclareV2 t) v
| says2_declare_v3 t v : says (SDeclareV3 t) v -> says2 (V2DeclareV3 t) v
| says2_declare_v4 t v : says (SDeclareV4 t) v -> says2 (V2DeclareV4 t) v
| says2_deploy_v0 t v : says (SDeployV0 t) v -> says2 (V2DeployV0 t) v
| says2_deploy_v1 t v : says (SDeployV1 t) v -> says2 (V2DeployV1 t) v
| says2_account_v1 t v : says (SDeployAccountV1 t) v -> says2 (V2DeployAccountV1 t) v
| says2_account_v3 t v : says (SDeployAccountV3 t) v -> says2 (V2DeployAccountV3 t) v
| says2_account_v4 t v : says (SDeployAccountV4 t) v -> says2 (V2DeployAccountV4 t) v
| says2_invoke_v0 t v : says (SInvokeV0 t) v -> says2 (V2InvokeV0 t) v
| says2_invoke_v1 t v : says (SInvokeV1 t) v -> says2 (V2InvokeV1 t) v
| says2_invoke_v3 t v : says (SInvokeV3 t) v -> says2 (V2InvokeV3 t) v
| says2_invoke_v4 t v : says (SInvokeV4 t) v -> says2 (V2InvokeV4 t) v
| says2_l1_handler t v : says (SL1HandlerV0 t) v -> says2 (V2L1Handler t) v.

(** what the gas in a blob says: both numbers, or that it is not known, which reads as none used *)
Definition says_gas (g : s_l1_gas) (g' : l1_gas) : Prop :=
  (forall a b, g = SL1Gas (Some a) (Some b) -> g' = L1Gas a b) /\
  (g = SL1Gas None None -> g' = L1Gas 0 0).
(** the builtins in the first two versions are the first nine *)
Definition says_builtins0 (b : s_builtins0) (b' : builtins) : Prop :=
  b_output b' = sb_output b /\ b_pedersen b' = sb_pedersen b /\
  b_range_check b' = sb_range_check b /\ b_ecdsa b' = sb_ecdsa b /\ b_bitwise b' = sb_bitwise b /\
  b_ec_op b' = sb_ec_op b /\ b_keccak b' = sb_keccak b /\ b_poseidon b' = sb_poseidon b /\
  b_segment_arena b' = sb_segment_arena b /\ b_add_mod b' = 0 /\ b_mul_mod b' = 0 /\
  b_range_check96 b' = 0.
(** what the resources of the four versions of receipts say, but for the gas used in all *)
Definition says_resources0 (x : s_resources0) (x' : resources) : Prop :=
  says_builtins0 (sx0_builtins x) (x_builtins x') /\ x_steps x' = sx0_steps x /\
  x_holes x' = sx0_holes x /\ says_gas (sx0_data x) (x_data_availability x').
Definition says_resources1 (x : s_resources1) (x' : resources) : Prop :=
  x_builtins x' = sx1_builtins x /\ x_steps x' = sx1_steps x /\ x_holes x' = sx1_holes x /\
  says_gas (sx1_data x) (x_data_availability x').
Definition says_resources2 (x : s_resources2) (x' : resources) : Prop :=
  x_builtins x' = sx_builtins x /\ x_steps x' = sx_steps x /\ x_holes x' = sx_holes x /\
  says_gas (sx_data x) (x_data_availability x') /\ says_gas (sx_total x) (x_total_gas x') /\
  x_l2_gas x' = sx_l2 x.
(** resources that are all zero *)
Definition nothing_used : resources :=
  Resources (Builtins 0 0 0 0 0 0 0 0 0 0 0 0) 0 0 (L1Gas 0 0) (L1Gas 0 0) 0.
Definition says_message (m : s_message) (m' : message) : Prop :=
  m_from m' = sm_from m /\ m_payload m' = sm_payload m /\ m_to m' = sm_to m.
Definition says_receipt {X} (says_x : X -> resources -> Prop) (r : s_receipt X) (r' : rcpt) : Prop :=
  r_fee r' = sr_fee r /\
  match sr_resources r with
  | Some x => says_x x (r_resources r')
  | None => r_resources r' = nothing_used
  end /\
  Forall2 says_message (sr_messages r) (r_messages r') /\
  r_status r' = sr_status r /\ r_tx_hash r' = sr_tx_hash r /\ r_index r' = sr_index r.
Definition says_entry {V X} (says_v : V -> variant -> Prop) (says_x : X -> resources -> Prop)
  (e : entry V X) (x : stx * rcpt) : Prop :=
  s_hash (fst x) = fst (fst e) /\ says_v (snd (fst e)) (s_variant (fst x)) /\
  says_receipt says_x (snd e) (snd x).
(** what a blob of any version says, but for the gas used in all of the third version *)
Definition says_blob (b : block_blob) (txs : list (stx * rcpt)) : Prop :=
  match b with
  | BlobV0 l => Forall2 (says_entry says0 says_resources0) l txs
  | BlobV1 l => Forall2 (says_entry says1 says_resources0) l txs
  | BlobV2 l => Forall2 (says_entry says1 says_resources1) l txs
  | BlobV3 l => Forall2 (says_entry says2 says_resources2) l txs
  | BlobV4 l => Forall2 (says_entry says says_resources2) l txs
  end.

(** ---- the values that a blob may hold ---- *)

Definition is_bounds0 (b : bounds0) : Prop := is_bound (b0_l1 b) /\ is_bound (b0_l2 b).
Definition is_sgas (g : s_l1_gas) : Prop :=
  is_option is_u128 (sg_l1 g) /\ is_option is_u128 (sg_l1_data g).
Definition is_builtins0 (b : s_builtins0) : Prop :=
  let 'SBuiltins0 a b c d e f g h i := b in Forall is_u64 [a; b; c; d; e; f; g; h; i].
Definition is_resources0 (x : s_resources0) : Prop :=
  is_builtins0 (sx0_builtins x) /\ is_u64 (sx0_steps x) /\ is_u64 (sx0_holes x) /\
  is_sgas (sx0_data x).
Definition is_resources1 (x : s_resources1) : Prop :=
  is_builtins (sx1_builtins x) /\ is_u64 (sx1_steps x) /\ is_u64 (sx1_holes x) /\
  is_sgas (sx1_data x) /\ is_sgas (sx1_total x).
Definition is_resources2 (x : s_resources2) : Prop :=
  is_builtins (sx_builtins x) /\ is_u64 (sx_steps x) /\ is_u64 (sx_holes x) /\
  is_sgas (sx_data x) /\ is_sgas (sx_total x) /\ is_u128 (sx_l2 x).
(** [is_to]: the values of receivers *)
Definition is_smessage (is_to : N -> Prop) (m : s_message) : Prop :=
  is_251 (sm_from m) /\ is_felts (sm_payload m) /\ is_to (sm_to m).
Definition is_sreceipt {X} (is_x : X -> Prop) (is_to : N -> Prop) (r : s_receipt X) : Prop :=
  is_felt (sr_fee r) /\ is_option is_x (sr_resources r) /\
  is_list (is_smessage is_to) (sr_messages r) /\ is_felt (sr_tx_hash r) /\ sr_index r < 2 ^ 63 /\
  is_status (sr_status r).
(** a transaction in a blob is one that says something in range; [says_v] relates it to that *)
Definition is_entry {V X} (says_v : V -> variant -> Prop) (is_x : X -> Prop) (is_to : N -> Prop)
  (e : entry V X) : Prop :=
  is_felt (fst (fst e)) /\ (exists v, says_v (snd (fst e)) v /\ is_variant v) /\
  is_sreceipt is_x is_to (snd e).
Definition is_eth (x : N) : Prop := x < 2 ^ 160.
Definition is_blob (b : block_blob) : Prop :=
  match b with
  | BlobV0 l => is_list (is_entry says0 is_resources0 is_eth) l
  | BlobV1 l => is_list (is_entry says1 is_resources0 is_251) l
  | BlobV2 l => is_list (is_entry says1 is_resources1 is_251) l
  | BlobV3 l => is_list (is_entry says2 is_resources2 is_251) l
  | BlobV4 l => is_list (is_entry says is_resources2 is_251) l
  end.

(** ---- histories ---- *)

Section Run.
Variable c_eth : codec felt.
Variables zstd_txs zstd_events : zstd.

(** zstd gives back what it compressed, when that is within the limit *)
Definition faithful (z : zstd) : Prop :=
  forall limit bs, decompress z limit (compress z bs) = if len bs <=? limit then Some bs else None.

(** one operation on the tables: one that fails leaves them as they were *)
Definition apply (d : db) (o : op) : db :=
  match o with
  | Insert n (txs, es) =>
      match insert_transaction_data c_eth zstd_txs zstd_events d n txs es with
      | Some d' => d'
      | None => d
      end
  | Update n es => update_events zstd_events d n es
  | Remove n => remove_block d n
  end.
Definition run (os : list op) : db := fold_left apply os (Db [] []).

(** an operation with values of their types, whose encodings are at most 128 MiB *)
Definition within (o : op) : Prop :=
  match o with
  | Insert _ (txs, es) =>
      is_list is_tx txs /\ len (txs_blob c_eth txs) <= 2 ^ 27 /\
      is_option (fun es => is_events es /\ len (events_blob es) <= 2 ^ 27) es
  | Update _ es => is_events es /\ len (events_blob es) <= 2 ^ 27
  | Remove _ => True
  end.
End Run.
