(** Model of the conversions that headers, transactions, receipts and events go through on their
    way to another peer and back:
    /repo/crates/p2p/src/sync/client/conv.rs and types.rs (to and from the DTOs),
    /repo/crates/p2p_proto/src/{common,transaction}.rs and sync/{header,transaction,receipt,event}.rs
    (to and from the protobuf messages), and the stage CalculateHashes of
    /repo/crates/pathfinder/src/sync/transactions.rs that completes what was received.

    A DTO and the protobuf message made of it have the same fields under the same names; the
    conversions between them (derive(ToProtobuf, TryFromProtobuf), p2p_proto_derive/src/lib.rs)
    convert field by field.  So each struct is one record here, over the types of its leaves:
    [L] is a field element in a DTO and its bytes in a message, [V] an enum of two values in a
    DTO and an i32 in a message.

    Simplifications that hold for the whole file: field elements and unsigned integers are
    numbers, the newtypes around a field element are that number, a string is its bytes; every
    message that a field of a message holds is there (reading refuses a message without one,
    p2p_proto/src/lib.rs:210-217); the encoding of messages as bytes by prost is not
    modelled.  An error of a reader is [None]; a panic is [Panic] where there can be one. *)
From Coq Require Import List Bool Arith NArith ZArith.
From Verif Require Import Radix FeltModel MerkleModel VersionModel CommitModel TxHashModel CodecModel BlobModel.
Import ListNotations.
Local Open Scope N_scope.

(** The [?] operator. *)
Notation "'try' x <- e ; f" := (match e with Some x => f | None => None end)
  (at level 200, x name, e at level 100, f at level 200).

(** iter().map(f).collect::<Result<Vec<_>, _>>() *)
Fixpoint try_map {A B} (f : A -> option B) (l : list A) : option (list B) :=
  match l with
  | [] => Some []
  | x :: r => try y <- f x; try r' <- try_map f r; Some (y :: r')
  end.
(** reading a field marked optional, p2p_proto_derive/src/lib.rs:158-164 *)
Definition try_opt {A B} (f : A -> option B) (o : option A) : option (option B) :=
  match o with None => Some None | Some x => try y <- f x; Some (Some y) end.

(** ---- leaves ---- *)

(** ToProtobuf for Felt, Hash and Address, p2p_proto/src/common.rs:139-145, 162-168, 212-218 *)
Definition write_felt (x : N) : list byte := rdigits 256 32 x.
(** TryFromProtobuf for Felt and Hash, common.rs:147-160, 170-183 *)
Definition read_felt (b : list byte) : option N :=
  match FeltModel.from_be_slice b with
  | FeltModel.Ok f => Some (rval 256 f)
  | FeltModel.Err _ => None
  end.
(** TryFromProtobuf for Address, common.rs:220-239 *)
Definition read_address (b : list byte) : option N :=
  match FeltModel.from_be_slice b with
  | FeltModel.Ok f => if has_more_than_251_bits f then None else Some (rval 256 f)
  | FeltModel.Err _ => None
  end.
(** Uint128, common.rs:297-313: the low and the high 64 bits *)
Definition write_u128 (n : N) : N * N := (N.land n 0xFFFFFFFFFFFFFFFF, N.shiftr n 64).
Definition read_u128 (m : N * N) : N := N.lor (N.shiftl (snd m) 64) (fst m).
(** VolitionDomain, common.rs:247-272, and L1DataAvailabilityMode, common.rs:97-125; the protobuf
    enums number their values 0 and 1 *)
Definition write_mode (m : da_mode) : Z := match m with DaL1 => 0%Z | DaL2 => 1%Z end.
Definition read_mode (z : Z) : option da_mode :=
  match z with 0%Z => Some DaL1 | 1%Z => Some DaL2 | _ => None end.
Definition write_blob (b : bool) : Z := if b then 1%Z else 0%Z.
Definition read_blob (z : Z) : option bool :=
  match z with 0%Z => Some false | 1%Z => Some true | _ => None end.
(** TryFromProtobuf for EthereumAddress, sync/receipt.rs:155-172: 20 bytes, kept as such; and for
    Hash256, common.rs:193-210: 32 bytes *)
Definition read_bytes (n : nat) (b : list byte) : option (list byte) :=
  if Nat.eqb (length b) n then Some b else None.

(** From<u64> and From<u128> for Felt, crypto felt.rs:202-214 (a number is a number), and back:
    TryInto<u64> and TryInto<u128>, felt.rs:254-287, and TryFrom<Felt> for GasPrice, common
    lib.rs:406-420, of the felt with the bytes of [x] *)
Definition to_u64 (x : N) : option N :=
  match try_into_u64 (rdigits 256 32 x) with FeltModel.Ok n => Some n | _ => None end.
Definition to_u128 (x : N) : option N :=
  match try_into_u128 (rdigits 256 32 x) with FeltModel.Ok n => Some n | _ => None end.
Definition to_gas_price (x : N) : option N :=
  if forallb (fun b => b =? 0) (firstn 16 (rdigits 256 32 x))
  then Some (rval 256 (skipn 16 (rdigits 256 32 x))) else None.

(** ---- transactions ---- *)

(** ResourceLimits and ResourceBounds, p2p_proto/src/transaction.rs:8-31 *)
Record limits (L : Type) := Limits { li_amount : L; li_price : L }.
Record p_bounds (L : Type) := PBounds {
  pb_l1 : limits L; pb_l2 : limits L; pb_data : option (limits L) }.
(** DeclareV0WithoutClass, V1 and V2, sync/transaction.rs:53-81 *)
Record p_declare0 (L : Type) := PDeclare0 {
  pd0_sender : L; pd0_fee : L; pd0_sig : list L; pd0_class : L }.
Record p_declare1 (L : Type) := PDeclare1 {
  pd1_sender : L; pd1_fee : L; pd1_sig : list L; pd1_class : L; pd1_nonce : L }.
Record p_declare2 (L : Type) := PDeclare2 {
  pd2_sender : L; pd2_fee : L; pd2_sig : list L; pd2_class : L; pd2_nonce : L; pd2_casm : L }.
(** DeclareV3Common, transaction.rs:48-61, and DeclareV3WithoutClass, sync/transaction.rs:83-88 *)
Record p_declare3 (L V : Type) := PDeclare3 {
  pd3_sender : L; pd3_sig : list L; pd3_nonce : L; pd3_casm : L; pd3_bounds : p_bounds L;
  pd3_tip : N; pd3_paymaster : list L; pd3_deployment : list L; pd3_nonce_mode : V;
  pd3_fee_mode : V; pd3_class : L }.
(** Deploy and DeployAccountV1, sync/transaction.rs:90-108 *)
Record p_deploy (L : Type) := PDeploy {
  pp_class : L; pp_salt : L; pp_calldata : list L; pp_version : N }.
Record p_account1 (L : Type) := PAccount1 {
  pa1_fee : L; pa1_sig : list L; pa1_class : L; pa1_nonce : L; pa1_salt : L;
  pa1_calldata : list L }.
(** DeployAccountV3, transaction.rs:93-106 *)
Record p_account3 (L V : Type) := PAccount3 {
  pa3_sig : list L; pa3_class : L; pa3_nonce : L; pa3_salt : L; pa3_calldata : list L;
  pa3_bounds : p_bounds L; pa3_tip : N; pa3_paymaster : list L; pa3_nonce_mode : V;
  pa3_fee_mode : V }.
(** InvokeV0 and V1, sync/transaction.rs:110-118, 126-136; InvokeV3 and L1HandlerV0,
    transaction.rs:70-84 and 39-46 *)
Record p_invoke0 (L : Type) := PInvoke0 {
  pi0_fee : L; pi0_sig : list L; pi0_address : L; pi0_selector : L; pi0_calldata : list L }.
Record p_invoke1 (L : Type) := PInvoke1 {
  pi1_sender : L; pi1_fee : L; pi1_sig : list L; pi1_nonce : L; pi1_calldata : list L }.
Record p_invoke3 (L V : Type) := PInvoke3 {
  pi3_sender : L; pi3_sig : list L; pi3_calldata : list L; pi3_bounds : p_bounds L; pi3_tip : N;
  pi3_paymaster : list L; pi3_deployment : list L; pi3_nonce_mode : V; pi3_fee_mode : V;
  pi3_nonce : L; pi3_proof_facts : list L }.
Record p_l1_handler (L : Type) := PL1Handler {
  pl_nonce : L; pl_address : L; pl_selector : L; pl_calldata : list L }.
Arguments Limits {L}. Arguments li_amount {L}. Arguments li_price {L}.
Arguments PBounds {L}. Arguments PDeclare0 {L}. Arguments PDeclare1 {L}. Arguments PDeclare2 {L}.
Arguments PDeclare3 {L V}. Arguments PDeploy {L}. Arguments PAccount1 {L}.
Arguments PAccount3 {L V}. Arguments PInvoke0 {L}. Arguments PInvoke1 {L}.
Arguments PInvoke3 {L V}. Arguments PL1Handler {L}.

(** TransactionVariant, sync/transaction.rs:31-44 *)
Inductive p_variant (L V : Type) : Type :=
| PVDeclareV0 (t : p_declare0 L)
| PVDeclareV1 (t : p_declare1 L)
| PVDeclareV2 (t : p_declare2 L)
| PVDeclareV3 (t : p_declare3 L V)
| PVDeploy (t : p_deploy L)
| PVDeployAccountV1 (t : p_account1 L)
| PVDeployAccountV3 (t : p_account3 L V)
| PVInvokeV0 (t : p_invoke0 L)
| PVInvokeV1 (t : p_invoke1 L)
| PVInvokeV3 (t : p_invoke3 L V)
| PVL1HandlerV0 (t : p_l1_handler L).
Arguments PVDeclareV0 {L V}. Arguments PVDeclareV1 {L V}. Arguments PVDeclareV2 {L V}.
Arguments PVDeclareV3 {L V}. Arguments PVDeploy {L V}. Arguments PVDeployAccountV1 {L V}.
Arguments PVDeployAccountV3 {L V}. Arguments PVInvokeV0 {L V}. Arguments PVInvokeV1 {L V}.
Arguments PVInvokeV3 {L V}. Arguments PVL1HandlerV0 {L V}.

(** to_protobuf: the derived ones (p2p_proto_derive/src/lib.rs:90-105) of the structs above, and
    that of TransactionVariant, sync/transaction.rs:213-230 *)
Definition write_limits (l : limits N) : limits (list byte) :=
  Limits (write_felt (li_amount l)) (write_felt (li_price l)).
Definition write_bounds (b : p_bounds N) : p_bounds (list byte) :=
  let 'PBounds a b c := b in
  PBounds (write_limits a) (write_limits b) (option_map write_limits c).
Definition variant_to_proto (v : p_variant N da_mode) : p_variant (list byte) Z :=
  let f := write_felt in
  let fs := map write_felt in
  let m := write_mode in
  match v with
  | PVDeclareV0 (PDeclare0 sender fee sig cl) =>
      PVDeclareV0 (PDeclare0 (f sender) (f fee) (fs sig) (f cl))
  | PVDeclareV1 (PDeclare1 sender fee sig cl nonce) =>
      PVDeclareV1 (PDeclare1 (f sender) (f fee) (fs sig) (f cl) (f nonce))
  | PVDeclareV2 (PDeclare2 sender fee sig cl nonce casm) =>
      PVDeclareV2 (PDeclare2 (f sender) (f fee) (fs sig) (f cl) (f nonce) (f casm))
  | PVDeclareV3 (PDeclare3 sender sig nonce casm bounds tip pay depl nm fm cl) =>
      PVDeclareV3 (PDeclare3 (f sender) (fs sig) (f nonce) (f casm) (write_bounds bounds) tip
                     (fs pay) (fs depl) (m nm) (m fm) (f cl))
  | PVDeploy (PDeploy cl salt calldata version) =>
      PVDeploy (PDeploy (f cl) (f salt) (fs calldata) version)
  | PVDeployAccountV1 (PAccount1 fee sig cl nonce salt calldata) =>
      PVDeployAccountV1 (PAccount1 (f fee) (fs sig) (f cl) (f nonce) (f salt) (fs calldata))
  | PVDeployAccountV3 (PAccount3 sig cl nonce salt calldata bounds tip pay nm fm) =>
      PVDeployAccountV3 (PAccount3 (fs sig) (f cl) (f nonce) (f salt) (fs calldata)
                           (write_bounds bounds) tip (fs pay) (m nm) (m fm))
  | PVInvokeV0 (PInvoke0 fee sig address selector calldata) =>
      PVInvokeV0 (PInvoke0 (f fee) (fs sig) (f address) (f selector) (fs calldata))
  | PVInvokeV1 (PInvoke1 sender fee sig nonce calldata) =>
      PVInvokeV1 (PInvoke1 (f sender) (f fee) (fs sig) (f nonce) (fs calldata))
  | PVInvokeV3 (PInvoke3 sender sig calldata bounds tip pay depl nm fm nonce facts) =>
      PVInvokeV3 (PInvoke3 (f sender) (fs sig) (fs calldata) (write_bounds bounds) tip (fs pay)
                    (fs depl) (m nm) (m fm) (f nonce) (fs facts))
  | PVL1HandlerV0 (PL1Handler nonce address selector calldata) =>
      PVL1HandlerV0 (PL1Handler (f nonce) (f address) (f selector) (fs calldata))
  end.

(** try_from_protobuf: the derived ones (p2p_proto_derive/src/lib.rs:149-175), and that of
    TransactionVariant, sync/transaction.rs:171-211 *)
Definition read_limits (l : limits (list byte)) : option (limits N) :=
  try a <- read_felt (li_amount l); try p <- read_felt (li_price l); Some (Limits a p).
Definition read_bounds (b : p_bounds (list byte)) : option (p_bounds N) :=
  let 'PBounds a b c := b in
  try a <- read_limits a; try b <- read_limits b; try c <- try_opt read_limits c;
  Some (PBounds a b c).
Definition variant_from_proto (v : p_variant (list byte) Z) : option (p_variant N da_mode) :=
  let f := read_felt in
  let a := read_address in
  let fs := try_map read_felt in
  let m := read_mode in
  match v with
  | PVDeclareV0 (PDeclare0 sender fee sig cl) =>
      try sender <- a sender; try fee <- f fee; try sig <- fs sig; try cl <- f cl;
      Some (PVDeclareV0 (PDeclare0 sender fee sig cl))
  | PVDeclareV1 (PDeclare1 sender fee sig cl nonce) =>
      try sender <- a sender; try fee <- f fee; try sig <- fs sig; try cl <- f cl;
      try nonce <- f nonce;
      Some (PVDeclareV1 (PDeclare1 sender fee sig cl nonce))
  | PVDeclareV2 (PDeclare2 sender fee sig cl nonce casm) =>
      try sender <- a sender; try fee <- f fee; try sig <- fs sig; try cl <- f cl;
      try nonce <- f nonce; try casm <- f casm;
      Some (PVDeclareV2 (PDeclare2 sender fee sig cl nonce casm))
  | PVDeclareV3 (PDeclare3 sender sig nonce casm bounds tip pay depl nm fm cl) =>
      try sender <- a sender; try sig <- fs sig; try nonce <- f nonce; try casm <- f casm;
      try bounds <- read_bounds bounds; try pay <- fs pay; try depl <- fs depl; try nm <- m nm;
      try fm <- m fm; try cl <- f cl;
      Some (PVDeclareV3 (PDeclare3 sender sig nonce casm bounds tip pay depl nm fm cl))
  | PVDeploy (PDeploy cl salt calldata version) =>
      try cl <- f cl; try salt <- f salt; try calldata <- fs calldata;
      Some (PVDeploy (PDeploy cl salt calldata version))
  | PVDeployAccountV1 (PAccount1 fee sig cl nonce salt calldata) =>
      try fee <- f fee; try sig <- fs sig; try cl <- f cl; try nonce <- f nonce;
      try salt <- f salt; try calldata <- fs calldata;
      Some (PVDeployAccountV1 (PAccount1 fee sig cl nonce salt calldata))
  | PVDeployAccountV3 (PAccount3 sig cl nonce salt calldata bounds tip pay nm fm) =>
      try sig <- fs sig; try cl <- f cl; try nonce <- f nonce; try salt <- f salt;
      try calldata <- fs calldata; try bounds <- read_bounds bounds; try pay <- fs pay;
      try nm <- m nm; try fm <- m fm;
      Some (PVDeployAccountV3 (PAccount3 sig cl nonce salt calldata bounds tip pay nm fm))
  | PVInvokeV0 (PInvoke0 fee sig address selector calldata) =>
      try fee <- f fee; try sig <- fs sig; try address <- a address;
      try selector <- f selector; try calldata <- fs calldata;
      Some (PVInvokeV0 (PInvoke0 fee sig address selector calldata))
  | PVInvokeV1 (PInvoke1 sender fee sig nonce calldata) =>
      try sender <- a sender; try fee <- f fee; try sig <- fs sig; try nonce <- f nonce;
      try calldata <- fs calldata;
      Some (PVInvokeV1 (PInvoke1 sender fee sig nonce calldata))
  | PVInvokeV3 (PInvoke3 sender sig calldata bounds tip pay depl nm fm nonce facts) =>
      try sender <- a sender; try sig <- fs sig; try calldata <- fs calldata;
      try bounds <- read_bounds bounds; try pay <- fs pay; try depl <- fs depl; try nm <- m nm;
      try fm <- m fm; try nonce <- f nonce; try facts <- fs facts;
      Some (PVInvokeV3 (PInvoke3 sender sig calldata bounds tip pay depl nm fm nonce facts))
  | PVL1HandlerV0 (PL1Handler nonce address selector calldata) =>
      try nonce <- f nonce; try address <- a address; try selector <- f selector;
      try calldata <- fs calldata;
      Some (PVL1HandlerV0 (PL1Handler nonce address selector calldata))
  end.

(** ResourceBound::to_dto, conv.rs:433-440, and the ResourceBounds made of it, e.g. 180-184 *)
Definition bound_to_dto (b : resource_bound) : limits N := Limits (rb_amount b) (rb_price b).
Definition bounds_to_dto (b : resource_bounds) : p_bounds N :=
  PBounds (bound_to_dto (rb_l1_gas b)) (bound_to_dto (rb_l2_gas b))
          (option_map bound_to_dto (rb_l1_data_gas b)).
(** TransactionVariant::to_dto, conv.rs:131-305 (the modes: 442-449) *)
Definition to_dto (v : variant) : p_variant N da_mode :=
  match v with
  | VDeclareV0 t =>
      PVDeclareV0 (PDeclare0 (d1_sender t) (d1_max_fee t) (d1_signature t) (d1_class t))
  | VDeclareV1 t =>
      PVDeclareV1 (PDeclare1 (d1_sender t) (d1_max_fee t) (d1_signature t) (d1_class t) (d1_nonce t))
  | VDeclareV2 t =>
      PVDeclareV2 (PDeclare2 (d2_sender t) (d2_max_fee t) (d2_signature t) (d2_class t)
                     (d2_nonce t) (d2_casm t))
  | VDeclareV3 t =>
      PVDeclareV3 (PDeclare3 (d3_sender t) (d3_signature t) (d3_nonce t) (d3_casm t)
                     (bounds_to_dto (d3_bounds t)) (d3_tip t) (d3_paymaster t) (d3_deployment t)
                     (d3_nonce_mode t) (d3_fee_mode t) (d3_class t))
  | VDeployV0 t => PVDeploy (PDeploy (dp_class t) (dp_salt t) (dp_calldata t) 0)
  | VDeployV1 t => PVDeploy (PDeploy (dp_class t) (dp_salt t) (dp_calldata t) 1)
  | VDeployAccountV1 t =>
      PVDeployAccountV1 (PAccount1 (a1_max_fee t) (a1_signature t) (a1_class t) (a1_nonce t)
                           (a1_salt t) (a1_calldata t))
  | VDeployAccountV3 t =>
      PVDeployAccountV3 (PAccount3 (a3_signature t) (a3_class t) (a3_nonce t) (a3_salt t)
                           (a3_calldata t) (bounds_to_dto (a3_bounds t)) (a3_tip t)
                           (a3_paymaster t) (a3_nonce_mode t) (a3_fee_mode t))
  | VInvokeV0 t =>
      PVInvokeV0 (PInvoke0 (i0_max_fee t) (i0_signature t) (i0_sender t) (i0_selector t)
                    (i0_calldata t))
  | VInvokeV1 t =>
      PVInvokeV1 (PInvoke1 (i1_sender t) (i1_max_fee t) (i1_signature t) (i1_nonce t)
                    (i1_calldata t))
  | VInvokeV3 t =>
      PVInvokeV3 (PInvoke3 (i3_sender t) (i3_signature t) (i3_calldata t)
                    (bounds_to_dto (i3_bounds t)) (i3_tip t) (i3_paymaster t) (i3_deployment t)
                    (i3_nonce_mode t) (i3_fee_mode t) (i3_nonce t) (i3_proof_facts t))
  | VL1Handler t =>
      PVL1HandlerV0 (PL1Handler (l1_nonce t) (l1_address t) (l1_selector t) (l1_calldata t))
  end.

(** ResourceBounds::try_from_dto, conv.rs:810-840 *)
Definition bound_from_dto (l : limits N) : option resource_bound :=
  try a <- to_u64 (li_amount l); try p <- to_u128 (li_price l); Some (Bound a p).
Definition bounds_from_dto (b : p_bounds N) : option resource_bounds :=
  let 'PBounds a b c := b in
  try a <- bound_from_dto a; try b <- bound_from_dto b; try c <- try_opt bound_from_dto c;
  Some (Bounds a b c).
(** TransactionVariant::try_from_dto, conv.rs:461-700 *)
Definition from_dto (v : p_variant N da_mode) : option variant :=
  match v with
  | PVDeclareV0 (PDeclare0 sender fee sig cl) => Some (VDeclareV0 (DeclareTx01 cl fee 0 sig sender))
  | PVDeclareV1 (PDeclare1 sender fee sig cl nonce) =>
      Some (VDeclareV1 (DeclareTx01 cl fee nonce sig sender))
  | PVDeclareV2 (PDeclare2 sender fee sig cl nonce casm) =>
      Some (VDeclareV2 (DeclareTx2 cl fee nonce sig sender casm))
  | PVDeclareV3 (PDeclare3 sender sig nonce casm bounds tip pay depl nm fm cl) =>
      try bounds <- bounds_from_dto bounds;
      Some (VDeclareV3 (DeclareTx3 cl nonce nm fm bounds tip pay sig depl sender casm))
  | PVDeploy (PDeploy cl salt calldata version) =>
      if version =? 0 then Some (VDeployV0 (DeployTx cl 0 salt calldata))
      else if version =? 1 then Some (VDeployV1 (DeployTx cl 0 salt calldata))
      else None
  | PVDeployAccountV1 (PAccount1 fee sig cl nonce salt calldata) =>
      Some (VDeployAccountV1 (DeployAccountTx1 0 fee sig nonce salt calldata cl))
  | PVDeployAccountV3 (PAccount3 sig cl nonce salt calldata bounds tip pay nm fm) =>
      try bounds <- bounds_from_dto bounds;
      Some (VDeployAccountV3 (DeployAccountTx3 0 sig nonce nm fm bounds tip pay salt calldata cl))
  | PVInvokeV0 (PInvoke0 fee sig address selector calldata) =>
      Some (VInvokeV0 (InvokeTx0 calldata address selector None fee sig))
  | PVInvokeV1 (PInvoke1 sender fee sig nonce calldata) =>
      Some (VInvokeV1 (InvokeTx1 calldata sender fee sig nonce))
  | PVInvokeV3 (PInvoke3 sender sig calldata bounds tip pay depl nm fm nonce facts) =>
      try bounds <- bounds_from_dto bounds;
      Some (VInvokeV3 (InvokeTx3 sig nonce nm fm bounds tip pay depl calldata sender facts))
  | PVL1HandlerV0 (PL1Handler nonce address selector calldata) =>
      Some (VL1Handler (L1HandlerTx address selector nonce calldata))
  end.

(** Transaction (TransactionInBlock), sync/transaction.rs:46-51: the hash and the variant *)
Definition p_tx (L V : Type) : Type := L * p_variant L V.
(** a transaction as it is sent: sync_handlers.rs get_transactions_for_block and to_protobuf *)
Definition send_tx (t : stx) : p_tx (list byte) Z :=
  (write_felt (s_hash t), variant_to_proto (to_dto (s_variant t))).
(** and received: try_from_protobuf, then Transaction::try_from_dto, conv.rs:702-714 *)
Definition receive_tx (m : p_tx (list byte) Z) : option stx :=
  try v <- variant_from_proto (snd m); try h <- read_felt (fst m); try v <- from_dto v; Some (Stx h v).

(** ---- receipts ---- *)

(** MessageToL1, sync/receipt.rs:8-14; the address has 20 bytes (H160) *)
Record p_message (L : Type) := PMessage { pm_from : L; pm_payload : list L; pm_to : list byte }.
(** BuiltinCounter, sync/receipt.rs:45-59: of u32 *)
Record p_builtins := PBuiltins {
  pb_bitwise : N; pb_ecdsa : N; pb_ec_op : N; pb_pedersen : N; pb_range_check : N;
  pb_poseidon : N; pb_keccak : N; pb_output : N; pb_add_mod : N; pb_mul_mod : N;
  pb_range_check96 : N }.
(** ExecutionResources, sync/receipt.rs:26-40 *)
Record p_resources (L : Type) := PResources {
  px_builtins : p_builtins; px_steps : N; px_holes : N; px_l1 : option L; px_l1_data : option L;
  px_total_l1 : option L; px_l2 : option L }.
(** PriceUnit, sync/receipt.rs:16-20, and its i32 (116-139) *)
Inductive price_unit : Type := Wei | Fri.
Definition write_unit (u : price_unit) : Z := match u with Wei => 0%Z | Fri => 1%Z end.
Definition read_unit (z : Z) : option price_unit :=
  match z with 0%Z => Some Wei | 1%Z => Some Fri | _ => None end.
(** ReceiptCommon, sync/receipt.rs:62-71 *)
Record p_common (L V : Type) := PCommon {
  pc_fee : L; pc_unit : V; pc_messages : list (p_message L); pc_resources : p_resources L;
  pc_revert : option (list byte) }.
(** Receipt, sync/receipt.rs:106-114, with the structs of its kinds (73-104) *)
Inductive p_receipt (L V : Type) : Type :=
| PRInvoke (c : p_common L V)
| PRDeclare (c : p_common L V)
| PRDeploy (c : p_common L V) (address : L)
| PRDeployAccount (c : p_common L V) (address : L)
| PRL1Handler (c : p_common L V) (msg_hash : list byte).
Arguments PMessage {L}. Arguments PResources {L}. Arguments PCommon {L V}.
Arguments PRInvoke {L V}. Arguments PRDeclare {L V}. Arguments PRDeploy {L V}.
Arguments PRDeployAccount {L V}. Arguments PRL1Handler {L V}.

(** to_protobuf of these, derived, and of Receipt, sync/receipt.rs:199-218 *)
Definition message_to_proto (m : p_message N) : p_message (list byte) :=
  let 'PMessage from payload to := m in
  PMessage (write_felt from) (map write_felt payload) to.
Definition resources_to_proto (x : p_resources N) : p_resources (list byte) :=
  let 'PResources b steps holes l1 l1_data total l2 := x in
  let o := option_map write_felt in
  PResources b steps holes (o l1) (o l1_data) (o total) (o l2).
Definition common_to_proto (c : p_common N price_unit) : p_common (list byte) Z :=
  let 'PCommon fee unit messages resources revert := c in
  PCommon (write_felt fee) (write_unit unit) (map message_to_proto messages)
    (resources_to_proto resources) revert.
Definition receipt_to_proto (r : p_receipt N price_unit) : p_receipt (list byte) Z :=
  match r with
  | PRInvoke c => PRInvoke (common_to_proto c)
  | PRDeclare c => PRDeclare (common_to_proto c)
  | PRDeploy c a => PRDeploy (common_to_proto c) (write_felt a)
  | PRDeployAccount c a => PRDeployAccount (common_to_proto c) (write_felt a)
  | PRL1Handler c h => PRL1Handler (common_to_proto c) h
  end.

(** try_from_protobuf of these, derived, and of Receipt, sync/receipt.rs:174-197 *)
Definition message_from_proto (m : p_message (list byte)) : option (p_message N) :=
  let 'PMessage from payload to := m in
  try from <- read_felt from; try payload <- try_map read_felt payload;
  try to <- read_bytes 20 to; Some (PMessage from payload to).
Definition resources_from_proto (x : p_resources (list byte)) : option (p_resources N) :=
  let 'PResources b steps holes l1 l1_data total l2 := x in
  let o := try_opt read_felt in
  try l1 <- o l1; try l1_data <- o l1_data; try total <- o total; try l2 <- o l2;
  Some (PResources b steps holes l1 l1_data total l2).
Definition common_from_proto (c : p_common (list byte) Z) : option (p_common N price_unit) :=
  let 'PCommon fee unit messages resources revert := c in
  try fee <- read_felt fee; try unit <- read_unit unit;
  try messages <- try_map message_from_proto messages;
  try resources <- resources_from_proto resources;
  Some (PCommon fee unit messages resources revert).
Definition receipt_from_proto (r : p_receipt (list byte) Z) : option (p_receipt N price_unit) :=
  match r with
  | PRInvoke c => try c <- common_from_proto c; Some (PRInvoke c)
  | PRDeclare c => try c <- common_from_proto c; Some (PRDeclare c)
  | PRDeploy c a => try c <- common_from_proto c; try a <- read_felt a; Some (PRDeploy c a)
  | PRDeployAccount c a =>
      try c <- common_from_proto c; try a <- read_felt a; Some (PRDeployAccount c a)
  | PRL1Handler c h =>
      try c <- common_from_proto c; try h <- read_bytes 32 h; Some (PRL1Handler c h)
  end.

(** u64's try_into::<u32>().unwrap() *)
Definition u32_or_panic (n : N) : outcome N := if n <? 2 ^ 32 then Ok n else Panic.

Section Receipts.
  Variable keccak : list N -> list N.

  (** to_dto for (&TransactionVariant, Receipt), conv.rs:307-399 *)
  Definition message_to_dto (m : message) : p_message N :=
    PMessage (m_from m) (m_payload m) (skipn 12 (rdigits 256 32 (m_to m))).
  Definition resources_to_dto (x : resources) : outcome (p_resources N) :=
    let b := x_builtins x in
    do bitwise <- u32_or_panic (b_bitwise b);
    do ecdsa <- u32_or_panic (b_ecdsa b);
    do ec_op <- u32_or_panic (b_ec_op b);
    do pedersen <- u32_or_panic (b_pedersen b);
    do range_check <- u32_or_panic (b_range_check b);
    do poseidon <- u32_or_panic (b_poseidon b);
    do keccak <- u32_or_panic (b_keccak b);
    do output <- u32_or_panic (b_output b);
    do add_mod <- u32_or_panic (b_add_mod b);
    do mul_mod <- u32_or_panic (b_mul_mod b);
    do range_check96 <- u32_or_panic (b_range_check96 b);
    do steps <- u32_or_panic (x_steps x);
    do holes <- u32_or_panic (x_holes x);
    Ok (PResources (PBuiltins bitwise ecdsa ec_op pedersen range_check poseidon keccak output
                      add_mod mul_mod range_check96)
          steps holes (Some (g_l1 (x_data_availability x)))
          (Some (g_l1_data (x_data_availability x))) (Some (g_l1 (x_total_gas x)))
          (Some (x_l2_gas x))).
  Definition receipt_to_dto (v : variant) (r : rcpt) : outcome (p_receipt N price_unit) :=
    do resources <- resources_to_dto (r_resources r);
    let common :=
      PCommon (r_fee r) Wei (map message_to_dto (r_messages r)) resources
        (match r_status r with Succeeded => None | Reverted reason => Some reason end) in
    Ok match v with
       | VDeclareV0 _ | VDeclareV1 _ | VDeclareV2 _ | VDeclareV3 _ => PRDeclare common
       | VDeployV0 t | VDeployV1 t => PRDeploy common (dp_address t)
       | VDeployAccountV1 t => PRDeployAccount common (a1_address t)
       | VDeployAccountV3 t => PRDeployAccount common (a3_address t)
       | VInvokeV0 _ | VInvokeV1 _ | VInvokeV3 _ => PRInvoke common
       | VL1Handler t => PRL1Handler common (message_hash keccak t)
       end.
End Receipts.

(** types::Receipt, p2p/src/sync/client/types.rs:44-51: a receipt without its transaction's hash *)
Record c_rcpt := CRcpt {
  cr_fee : felt; cr_resources : resources; cr_messages : list message; cr_status : status;
  cr_index : N }.

(** TryFrom<(Receipt, TransactionIndex)> for types::Receipt, conv.rs:716-808.  The address of a
    message is 20 bytes; from_be_slice(..).expect(..) and ContractAddress::new_or_panic, which
    refuses more than 251 bits, may panic *)
Definition message_from_dto (m : p_message N) : outcome message :=
  do to <- match FeltModel.from_be_slice (pm_to _ m) with
           | FeltModel.Ok f => if has_more_than_251_bits f then Panic else Ok (rval 256 f)
           | FeltModel.Err _ => Panic
           end;
  Ok (Message (pm_from _ m) (pm_payload _ m) to).
Fixpoint messages_from_dto (l : list (p_message N)) : outcome (list message) :=
  match l with
  | [] => Ok []
  | m :: r => do m' <- message_from_dto m; do r' <- messages_from_dto r; Ok (m' :: r')
  end.
Definition or_zero (o : option N) : N := match o with Some x => x | None => 0 end.
Definition resources_from_dto (x : p_resources N) : outcome resources :=
  let b := px_builtins _ x in
  do l1 <- or_err (to_gas_price (or_zero (px_l1 _ x)));
  do l1_data <- or_err (to_gas_price (or_zero (px_l1_data _ x)));
  do total <- or_err (to_gas_price (or_zero (px_total_l1 _ x)));
  do l2 <- or_err (to_gas_price (or_zero (px_l2 _ x)));
  Ok (Resources
        (Builtins (pb_output b) (pb_pedersen b) (pb_range_check b) (pb_ecdsa b) (pb_bitwise b)
           (pb_ec_op b) (pb_keccak b) (pb_poseidon b) 0 (pb_add_mod b) (pb_mul_mod b)
           (pb_range_check96 b))
        (px_steps _ x) (px_holes _ x) (L1Gas l1 l1_data) (L1Gas total 0) l2).
Definition common_of {L V} (r : p_receipt L V) : p_common L V :=
  match r with
  | PRInvoke c | PRDeclare c | PRDeploy c _ | PRDeployAccount c _ | PRL1Handler c _ => c
  end.
Definition receipt_from_dto (r : p_receipt N price_unit) (index : N) : outcome c_rcpt :=
  let c := common_of r in
  do resources <- resources_from_dto (pc_resources _ _ c);
  do messages <- messages_from_dto (pc_messages _ _ c);
  Ok (CRcpt (pc_fee _ _ c) resources messages
        (match pc_revert _ _ c with Some reason => Reverted reason | None => Succeeded end) index).

(** a receipt as it is sent, with the transaction it belongs to, and received *)
Definition send_receipt (keccak : list N -> list N) (v : variant) (r : rcpt) :
    outcome (p_receipt (list byte) Z) :=
  do d <- receipt_to_dto keccak v r; Ok (receipt_to_proto d).
Definition receive_receipt (m : p_receipt (list byte) Z) (index : N) : outcome c_rcpt :=
  do d <- or_err (receipt_from_proto m); receipt_from_dto d index.

(** ---- transactions with their receipts ---- *)

(** get_transactions_for_block, sync_handlers.rs:287-314: what is sent of a block *)
Fixpoint send_block (keccak : list N -> list N) (l : list (stx * rcpt)) :
    outcome (list (p_tx (list byte) Z * p_receipt (list byte) Z)) :=
  match l with
  | [] => Ok []
  | (t, r) :: l' =>
      do m <- send_receipt keccak (s_variant t) r;
      do ms <- send_block keccak l';
      Ok ((send_tx t, m) :: ms)
  end.
(** what a peer makes of it, peer_agnostic.rs: the index of a transaction is its place in the
    block, counted from [index] *)
Fixpoint receive_block (index : N) (l : list (p_tx (list byte) Z * p_receipt (list byte) Z)) :
    outcome (list (stx * c_rcpt)) :=
  match l with
  | [] => Ok []
  | (t, r) :: l' =>
      do t' <- or_err (receive_tx t);
      do r' <- receive_receipt r index;
      do l'' <- receive_block (index + 1) l';
      Ok ((t', r') :: l'')
  end.

Section Stage.
  Variable pedersen : felt -> felt -> felt.
  Variable poseidon : list felt -> felt.

  (** CalculateHashes::map, pathfinder/src/sync/transactions.rs:88-127; [Err] is
      SyncError::BadTransactionHash *)
  Fixpoint calculate_hashes (chain_id : felt) (l : list (stx * c_rcpt)) : outcome (list (stx * rcpt)) :=
    match l with
    | [] => Ok []
    | (t, r) :: l' =>
        do v <- calculate_contract_address pedersen (s_variant t);
        do h <- calculate_hash pedersen poseidon v chain_id false;
        if s_hash t =? h then
          do l'' <- calculate_hashes chain_id l';
          Ok ((Stx (s_hash t) v,
               Rcpt (cr_fee r) (cr_resources r) (cr_messages r) (cr_status r) h (cr_index r)) :: l'')
        else Err
    end.
End Stage.

(** ---- events ---- *)

(** Event, sync/event.rs:10-17 *)
Record p_event (L : Type) := PEvent { pe_tx : L; pe_from : L; pe_keys : list L; pe_data : list L }.
Arguments PEvent {L}.
(** (TransactionHash, Event)::to_dto, conv.rs:422-431, and to_protobuf *)
Definition send_event (tx_hash : felt) (e : event) : p_event (list byte) :=
  PEvent (write_felt tx_hash) (write_felt (ev_from e)) (map write_felt (ev_keys e))
    (map write_felt (ev_data e)).
(** try_from_protobuf, then Event::try_from_dto, conv.rs:864-875; the transaction's hash is that
    of the DTO *)
Definition receive_event (m : p_event (list byte)) : option (felt * event) :=
  let 'PEvent tx from keys data := m in
  try tx <- read_felt tx; try from <- read_felt from; try keys <- try_map read_felt keys;
  try data <- try_map read_felt data;
  Some (tx, Event data from keys).

(** ---- headers ---- *)

(** SignedBlockHeader, sync/header.rs:11-35; [L] as above, [U] a u128 or its message, [V] the data
    availability mode or its i32; Patricia and StateDiffCommitment are pairs of a number of leaves
    and a root, ConsensusSignature a pair of felts *)
Record p_header (L U V : Type) := PHeader {
  ph_hash : L; ph_parent : L; ph_number : N; ph_time : N; ph_sequencer : L; ph_state_root : L;
  ph_state_diff : N * L; ph_transactions : N * L; ph_events : N * L; ph_receipts : L;
  ph_version : list byte; ph_l1_fri : U; ph_l1_wei : U; ph_l1_data_fri : U; ph_l1_data_wei : U;
  ph_l2_fri : option U; ph_l2_wei : option U; ph_mode : V; ph_signatures : list (L * L) }.
Arguments PHeader {L U V}.

(** SignedBlockHeader::to_dto, conv.rs:83-129; counts are usize, 64 bits wide *)
Definition header_to_dto (h : header) (sig : felt * felt) : p_header N N bool :=
  PHeader (hd_hash h) (hd_parent h) (hd_number h) (hd_timestamp h) (hd_sequencer h)
    (hd_state_commitment h) (hd_sd_length h, hd_sd_commitment h)
    (hd_tx_count h, hd_tx_commitment h) (hd_event_count h, hd_event_commitment h)
    (hd_receipt_commitment h) (version_to_string (hd_version h)) (hd_strk_l1_gas h)
    (hd_eth_l1_gas h) (hd_strk_l1_data_gas h) (hd_eth_l1_data_gas h)
    (Some (hd_strk_l2_gas h)) (Some (hd_eth_l2_gas h)) (hd_blob h) [sig].
(** to_protobuf, derived *)
Definition header_to_proto (h : p_header N N bool) : p_header (list byte) (N * N) Z :=
  let 'PHeader hash parent number time seq root sd txs evs rcs version a b c d e f mode sigs := h in
  let w := write_felt in
  PHeader (w hash) (w parent) number time (w seq) (w root) (fst sd, w (snd sd))
    (fst txs, w (snd txs)) (fst evs, w (snd evs)) (w rcs) version (write_u128 a) (write_u128 b)
    (write_u128 c) (write_u128 d) (option_map write_u128 e) (option_map write_u128 f)
    (write_blob mode) (map (fun s => (w (fst s), w (snd s))) sigs).
(** try_from_protobuf, derived *)
Definition read_signature (s : list byte * list byte) : option (N * N) :=
  try a <- read_felt (fst s); try b <- read_felt (snd s); Some (a, b).
Definition header_from_proto (h : p_header (list byte) (N * N) Z) : option (p_header N N bool) :=
  let 'PHeader hash parent number time seq root sd txs evs rcs version a b c d e f mode sigs := h in
  try hash <- read_felt hash; try parent <- read_felt parent; try seq <- read_address seq;
  try root <- read_felt root; try sd_root <- read_felt (snd sd);
  try txs_root <- read_felt (snd txs); try evs_root <- read_felt (snd evs);
  try rcs <- read_felt rcs; try mode <- read_blob mode; try sigs <- try_map read_signature sigs;
  Some (PHeader hash parent number time seq root (fst sd, sd_root) (fst txs, txs_root)
          (fst evs, evs_root) rcs version (read_u128 a) (read_u128 b) (read_u128 c) (read_u128 d)
          (option_map read_u128 e) (option_map read_u128 f) mode sigs).
(** SignedBlockHeader::try_from_dto, types.rs:69-108; BlockNumber::new and BlockTimestamp::new
    (common macros.rs:9-17) refuse more than i64::MAX *)
Definition header_from_dto (h : p_header N N bool) : option (header * (felt * felt)) :=
  let 'PHeader hash parent number time seq root sd txs evs rcs version a b c d e f mode sigs := h in
  match sigs with
  | [sig] =>
      if (number <=? 9223372036854775807) && (time <=? 9223372036854775807) then
        try version <- version_from_str version;
        Some (Header hash parent number time b a d c (or_zero f) (or_zero e) seq version
                (snd evs) root (snd txs) (fst txs) (fst evs) mode rcs (snd sd) (fst sd), sig)
      else None
  | _ => None
  end.
Definition send_header (h : header) (sig : felt * felt) : p_header (list byte) (N * N) Z :=
  header_to_proto (header_to_dto h sig).
Definition receive_header (m : p_header (list byte) (N * N) Z) : option (header * (felt * felt)) :=
  try d <- header_from_proto m; header_from_dto d.
