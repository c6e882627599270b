(** Model of how the transactions, receipts and events of a block are stored,
    /repo/crates/storage/src/connection/transaction.rs: the two blobs of a row of table
    transactions, the table transaction_hashes, and the functions that read them.

    The blobs are bincode 2 (standard configuration, through serde), compressed with zstd.
    bincode is not part of /repo; what is modelled of it is its documented format: integers as
    in CodecModel, the fields of a struct in their order, an enum as its tag and the fields of
    its variant, an option as a byte 0 or 1, a list as its length and its elements.  zstd is a
    parameter.

    Simplifications that hold for the whole file: field elements and unsigned integers are
    numbers; the newtypes around a field element are that number; a string is its bytes (that
    they are UTF-8 is not checked when reading); an error and a panic of a reader are both
    [None]; the row of block_headers that a row refers to is not modelled: a block is named by
    its number, and removing its header removes its rows ([remove_block]); the bloom filters
    that [upsert_block_event_filters] writes are in C30 and C31. *)
From Coq Require Import List Bool Arith NArith.
From Verif Require Import Radix MerkleModel CommitModel TxHashModel CodecModel.
Import ListNotations.
Local Open Scope N_scope.

(** ---- bincode through serde ---- *)

(** serde::Serialize and serde::Deserialize of a type, on bincode: the bytes written, and what
    is read from the front of some bytes, with the bytes left. *)
Record codec (A : Type) := Codec {
  enc : A -> list byte;
  dec : list byte -> option (A * list byte) }.
Arguments Codec {A}.
Arguments enc {A}.
Arguments dec {A}.

(** u64, and the newtypes Tip and ResourceAmount around it *)
Definition c_u64 : codec N := Codec encode_uint decode_u64.

(** bincode varint_encode_u128 and varint_decode_u128: as u64, with 254 before 16 bytes *)
Definition encode_u128 (n : N) : list byte :=
  if n <=? 18446744073709551615 then encode_uint n else 254 :: le_bytes 16 n.
Definition decode_u128 (bs : list byte) : option (N * list byte) :=
  match bs with
  | [] => None
  | b :: rest =>
      if b =? 254 then option_map (fun r => (le_val (fst r), snd r)) (take 16 rest)
      else decode_u64 bs
  end.
Definition c_u128 : codec N := Codec encode_u128 decode_u128.

(** two fields in their order *)
Definition c_pair {A B} (ca : codec A) (cb : codec B) : codec (A * B) :=
  Codec
    (fun x => enc ca (fst x) ++ enc cb (snd x))
    (fun bs =>
       match dec ca bs with
       | None => None
       | Some (a, r) =>
           match dec cb r with
           | None => None
           | Some (b, r') => Some ((a, b), r')
           end
       end).
Notation "a ** b" := (c_pair a b) (at level 36, right associativity).

(** a struct: its fields, and itself from its fields *)
Definition c_map {A B} (f : A -> B) (g : B -> A) (c : codec B) : codec A :=
  Codec
    (fun x => enc c (f x))
    (fun bs => match dec c bs with None => None | Some (y, r) => Some (g y, r) end).

(** Option: a byte that is 0 or 1 *)
Definition c_opt {A} (c : codec A) : codec (option A) :=
  Codec
    (fun x => match x with None => [0] | Some y => 1 :: enc c y end)
    (fun bs =>
       match bs with
       | [] => None
       | b :: r =>
           if b =? 0 then Some (None, r)
           else if b =? 1 then
             match dec c r with None => None | Some (y, r') => Some (Some y, r') end
           else None
       end).

(** [k] elements one after another *)
Fixpoint dec_n {A} (c : codec A) (k : nat) (bs : list byte) : option (list A * list byte) :=
  match k with
  | O => Some ([], bs)
  | S k' =>
      match dec c bs with
      | None => None
      | Some (x, r) =>
          match dec_n c k' r with
          | None => None
          | Some (xs, r') => Some (x :: xs, r')
          end
      end
  end.

(** Vec: the length, then the elements *)
Definition c_vec {A} (c : codec A) : codec (list A) :=
  Codec
    (fun xs => encode_uint (len xs) ++ flat_map (enc c) xs)
    (fun bs =>
       match decode_u64 bs with
       | None => None
       | Some (n, r) => dec_n c (N.to_nat n) r
       end).

(** String: the length, then the bytes *)
Definition c_string : codec (list byte) := Codec encode_bytes decode_bytes.

(** an enum without fields, of two variants: the tag of the variant *)
Definition c_two {A} (is_first : A -> bool) (first second : A) : codec A :=
  Codec
    (fun x => encode_uint (if is_first x then 0 else 1))
    (fun bs =>
       match decode_u32 bs with
       | None => None
       | Some (t, r) =>
           if t =? 0 then Some (first, r) else if t =? 1 then Some (second, r) else None
       end).

(** one variant of an enum that has fields *)
Definition arm {A B} (k : A -> B) (c : codec A) (bs : list byte) : option (B * list byte) :=
  match dec c bs with None => None | Some (x, r) => Some (k x, r) end.

(** take_while over the leading zero bytes, transaction.rs:671-672 *)
Fixpoint drop_zeros (bs : list byte) : list byte :=
  match bs with
  | 0 :: bs' => drop_zeros bs'
  | _ => bs
  end.

(** impl Serialize for MinimalFelt, transaction.rs:666-675 *)
Definition encode_felt (x : felt) : list byte :=
  encode_bytes (drop_zeros (rdigits 256 32 x)).
(** impl Deserialize for MinimalFelt, transaction.rs:677-709: more than 32 bytes panic (697 or
    700), and so does a value that is not below the modulus (703, from_be_bytes by C01) *)
Definition decode_felt (bs : list byte) : option (felt * list byte) :=
  match decode_u64 bs with
  | None => None
  | Some (n, r) =>
      if 32 <? n then None
      else
        match take (N.to_nat n) r with
        | None => None
        | Some (v, r') => if rval 256 v <? P then Some (rval 256 v, r') else None
        end
  end.
Definition c_felt : codec felt := Codec encode_felt decode_felt.
Definition c_felts : codec (list felt) := c_vec c_felt.

(** TransactionIndex, common/src/lib.rs:197-202 with macros.rs:50-92: values above i64::MAX are
    refused when reading *)
Definition I64_MAX : N := 9223372036854775807.
Definition c_index : codec N :=
  Codec encode_uint
    (fun bs =>
       match decode_u64 bs with
       | None => None
       | Some (n, r) => if n <=? I64_MAX then Some (n, r) else None
       end).

(** ---- receipts ---- *)

(** BuiltinCounters, common/src/receipt.rs:60-74; BuiltinCountersV1, transaction.rs:1023-1038,
    has the same fields in the same order, and the conversions (1069-1135) copy them *)
Record builtins := Builtins {
  b_output : N; b_pedersen : N; b_range_check : N; b_ecdsa : N; b_bitwise : N; b_ec_op : N;
  b_keccak : N; b_poseidon : N; b_segment_arena : N; b_add_mod : N; b_mul_mod : N;
  b_range_check96 : N }.
(** common L1Gas, receipt.rs:50-54 *)
Record l1_gas := L1Gas { g_l1 : N; g_l1_data : N }.
(** common ExecutionResources, receipt.rs:40-48 *)
Record resources := Resources {
  x_builtins : builtins; x_steps : N; x_holes : N; x_data_availability : l1_gas;
  x_total_gas : l1_gas; x_l2_gas : N }.
(** common L2ToL1Message, receipt.rs:29-38 *)
Record message := Message { m_from : felt; m_payload : list felt; m_to : felt }.
(** common ExecutionStatus, receipt.rs:76-85, and the DTO of that name, transaction.rs:1250-1254 *)
Inductive status : Type := Succeeded | Reverted (reason : list byte).
(** common Receipt, receipt.rs:6-14 *)
Record rcpt := Rcpt {
  r_fee : felt; r_resources : resources; r_messages : list message; r_status : status;
  r_tx_hash : felt; r_index : N }.

(** dto::L1Gas, transaction.rs:846-852 *)
Record s_l1_gas := SL1Gas { sg_l1 : option N; sg_l1_data : option N }.
(** dto::BuiltinCountersV0, transaction.rs:1009-1021 *)
Record s_builtins0 := SBuiltins0 {
  sb_output : N; sb_pedersen : N; sb_range_check : N; sb_ecdsa : N; sb_bitwise : N; sb_ec_op : N;
  sb_keccak : N; sb_poseidon : N; sb_segment_arena : N }.
(** ExecutionResourcesV0, V1 and V2, transaction.rs:814-844; L2Gas (854-858) is its number *)
Record s_resources0 := SResources0 {
  sx0_builtins : s_builtins0; sx0_steps : N; sx0_holes : N; sx0_data : s_l1_gas }.
Record s_resources1 := SResources1 {
  sx1_builtins : builtins; sx1_steps : N; sx1_holes : N; sx1_data : s_l1_gas;
  sx1_total : s_l1_gas }.
Record s_resources2 := SResources2 {
  sx_builtins : builtins; sx_steps : N; sx_holes : N; sx_data : s_l1_gas; sx_total : s_l1_gas;
  sx_l2 : N }.
(** L2ToL1MessageV0 and V1, transaction.rs:1172-1188; the first with an Ethereum address, the
    number of its 20 bytes.  The common message has the fields of V1 in the same order. *)
Record s_message := SMessage { sm_from : felt; sm_payload : list felt; sm_to : felt }.
(** ReceiptV0 to V3, transaction.rs:1256-1301: alike but for the types of the resources [X] *)
Record s_receipt (X : Type) := SReceipt {
  sr_fee : felt; sr_resources : option X; sr_messages : list s_message; sr_tx_hash : felt;
  sr_index : N; sr_status : status }.
Arguments SReceipt {X}.
Arguments sr_fee {X}.
Arguments sr_resources {X}.
Arguments sr_messages {X}.
Arguments sr_tx_hash {X}.
Arguments sr_index {X}.
Arguments sr_status {X}.

(** derive(Serialize, Deserialize) of these structs, in the order of their fields *)
Definition c_l1_gas : codec s_l1_gas :=
  c_map (fun g => (sg_l1 g, sg_l1_data g)) (fun '(a, b) => SL1Gas a b)
        (c_opt c_u128 ** c_opt c_u128).
Definition c_builtins0 : codec s_builtins0 :=
  c_map (fun b => (sb_output b, (sb_pedersen b, (sb_range_check b, (sb_ecdsa b, (sb_bitwise b,
           (sb_ec_op b, (sb_keccak b, (sb_poseidon b, sb_segment_arena b)))))))))
        (fun '(a, (b, (c, (d, (e, (f, (g, (h, i)))))))) => SBuiltins0 a b c d e f g h i)
        (c_u64 ** c_u64 ** c_u64 ** c_u64 ** c_u64 ** c_u64 ** c_u64 ** c_u64 ** c_u64).
Definition c_builtins : codec builtins :=
  c_map (fun b => (b_output b, (b_pedersen b, (b_range_check b, (b_ecdsa b, (b_bitwise b,
           (b_ec_op b, (b_keccak b, (b_poseidon b, (b_segment_arena b, (b_add_mod b,
           (b_mul_mod b, b_range_check96 b))))))))))))
        (fun '(a, (b, (c, (d, (e, (f, (g, (h, (i, (j, (k, l))))))))))) =>
           Builtins a b c d e f g h i j k l)
        (c_u64 ** c_u64 ** c_u64 ** c_u64 ** c_u64 ** c_u64 ** c_u64 ** c_u64 ** c_u64 ** c_u64
           ** c_u64 ** c_u64).
Definition c_resources0 : codec s_resources0 :=
  c_map (fun x => (sx0_builtins x, (sx0_steps x, (sx0_holes x, sx0_data x))))
        (fun '(a, (b, (c, d))) => SResources0 a b c d)
        (c_builtins0 ** c_u64 ** c_u64 ** c_l1_gas).
Definition c_resources1 : codec s_resources1 :=
  c_map (fun x => (sx1_builtins x, (sx1_steps x, (sx1_holes x, (sx1_data x, sx1_total x)))))
        (fun '(a, (b, (c, (d, e)))) => SResources1 a b c d e)
        (c_builtins ** c_u64 ** c_u64 ** c_l1_gas ** c_l1_gas).
Definition c_resources2 : codec s_resources2 :=
  c_map (fun x => (sx_builtins x, (sx_steps x, (sx_holes x, (sx_data x, (sx_total x,
           sx_l2 x))))))
        (fun '(a, (b, (c, (d, (e, f))))) => SResources2 a b c d e f)
        (c_builtins ** c_u64 ** c_u64 ** c_l1_gas ** c_l1_gas ** c_u128).
(** [c_to]: how the receiver is written, a MinimalFelt since V1 *)
Definition c_message (c_to : codec felt) : codec s_message :=
  c_map (fun m => (sm_from m, (sm_payload m, sm_to m))) (fun '(a, (b, c)) => SMessage a b c)
        (c_felt ** c_felts ** c_to).
Definition c_status : codec status :=
  Codec
    (fun s => match s with
              | Succeeded => encode_uint 0
              | Reverted reason => encode_uint 1 ++ enc c_string reason
              end)
    (fun bs => match decode_u32 bs with
               | Some (0, r) => Some (Succeeded, r)
               | Some (1, r) => arm Reverted c_string r
               | _ => None
               end).
Definition c_receipt {X} (c_x : codec X) (c_to : codec felt) : codec (s_receipt X) :=
  c_map (fun r => (sr_fee r, (sr_resources r, (sr_messages r, (sr_tx_hash r, (sr_index r,
           sr_status r))))))
        (fun '(a, (b, (c, (d, (e, f))))) => SReceipt a b c d e f)
        (c_felt ** c_opt c_x ** c_vec (c_message c_to) ** c_felt ** c_index ** c_status).

(** impl From<BuiltinCountersV0> for BuiltinCountersV1, transaction.rs:1040-1067 *)
Definition upgrade_builtins (b : s_builtins0) : builtins :=
  Builtins (sb_output b) (sb_pedersen b) (sb_range_check b) (sb_ecdsa b) (sb_bitwise b)
           (sb_ec_op b) (sb_keccak b) (sb_poseidon b) (sb_segment_arena b) 0 0 0.
(** dto::L1Gas::default() *)
Definition no_gas : s_l1_gas := SL1Gas None None.
(** impl From<ExecutionResourcesV0> for ExecutionResourcesV2, transaction.rs:860-871 *)
Definition upgrade_resources0 (x : s_resources0) : s_resources2 :=
  SResources2 (upgrade_builtins (sx0_builtins x)) (sx0_steps x) (sx0_holes x) (sx0_data x)
              no_gas 0.
(** impl From<ExecutionResourcesV1> for ExecutionResourcesV2, transaction.rs:873-884 *)
Definition upgrade_resources1 (x : s_resources1) : s_resources2 :=
  SResources2 (sx1_builtins x) (sx1_steps x) (sx1_holes x) (sx1_data x) no_gas 0.
(** impl From<ReceiptV0>, From<ReceiptV1> and From<ReceiptV2> for ReceiptV3,
    transaction.rs:1303-1344; a message of V0 is one of V1 whose receiver is an Ethereum address
    (1202-1212) *)
Definition upgrade_receipt {X} (f : X -> s_resources2) (r : s_receipt X) : s_receipt s_resources2 :=
  SReceipt (sr_fee r) (option_map f (sr_resources r)) (sr_messages r) (sr_tx_hash r) (sr_index r)
           (sr_status r).

(** ContractAddress::new_or_panic and CasmHash::new_or_panic, macros.rs with felt.rs:198-200: a
    value of more than 251 bits panics *)
Definition LIMIT251 : N := 2 ^ 251.
Definition in251 (x : felt) : option felt := if x <? LIMIT251 then Some x else None.

(** the gas of impl From<ExecutionResourcesV2> for ExecutionResources, transaction.rs:892-911 *)
Definition read_gas (g : s_l1_gas) : l1_gas :=
  match sg_l1 g, sg_l1_data g with
  | Some a, Some b => L1Gas a b
  | _, _ => L1Gas 0 0
  end.
(** impl From<ExecutionResourcesV2> for ExecutionResources, transaction.rs:886-915 *)
Definition read_resources (x : s_resources2) : resources :=
  Resources (sx_builtins x) (sx_steps x) (sx_holes x) (read_gas (sx_data x))
            (read_gas (sx_total x)) (sx_l2 x).
(** impl From<&ExecutionResources> for ExecutionResourcesV2, transaction.rs:917-936 *)
Definition write_resources (x : resources) : s_resources2 :=
  SResources2 (x_builtins x) (x_steps x) (x_holes x)
    (SL1Gas (Some (g_l1 (x_data_availability x))) (Some (g_l1_data (x_data_availability x))))
    (SL1Gas (Some (g_l1 (x_total_gas x))) (Some (g_l1_data (x_total_gas x))))
    (x_l2_gas x).
(** ExecutionResourcesV2::default() *)
Definition no_resources : s_resources2 :=
  SResources2 (Builtins 0 0 0 0 0 0 0 0 0 0 0 0) 0 0 no_gas no_gas 0.

(** into_iter().map(..).collect(), where an element may panic *)
Fixpoint map_opt {A B} (f : A -> option B) (l : list A) : option (list B) :=
  match l with
  | [] => Some []
  | x :: l' =>
      match f x with
      | None => None
      | Some y => match map_opt f l' with None => None | Some ys => Some (y :: ys) end
      end
  end.

(** impl From<L2ToL1MessageV1> for L2ToL1Message, transaction.rs:1214-1230 *)
Definition read_message (m : s_message) : option message :=
  match in251 (sm_from m), in251 (sm_to m) with
  | Some from, Some to => Some (Message from (sm_payload m) to)
  | _, _ => None
  end.
(** impl From<&L2ToL1Message> for L2ToL1MessageV1, transaction.rs:1232-1248 *)
Definition write_message (m : message) : s_message :=
  SMessage (m_from m) (m_payload m) (m_to m).

(** impl From<ReceiptV3> for Receipt, transaction.rs:1346-1374 *)
Definition read_receipt (r : s_receipt s_resources2) : option rcpt :=
  match map_opt read_message (sr_messages r) with
  | None => None
  | Some ms =>
      Some (Rcpt (sr_fee r)
                 (read_resources match sr_resources r with Some x => x | None => no_resources end)
                 ms (sr_status r) (sr_tx_hash r) (sr_index r))
  end.
(** impl From<&Receipt> for ReceiptV3, transaction.rs:1376-1392 *)
Definition write_receipt (r : rcpt) : s_receipt s_resources2 :=
  SReceipt (r_fee r) (Some (write_resources (r_resources r))) (map write_message (r_messages r))
           (r_tx_hash r) (r_index r) (r_status r).

(** ---- events ---- *)

(** dto::Event, transaction.rs:771-777: the fields of the common Event
    (common/src/event.rs:9-17), in the same order *)
Definition c_event : codec event :=
  c_map (fun e => (ev_data e, (ev_from e, ev_keys e))) (fun '(a, (b, c)) => Event a b c)
        (c_felts ** c_felt ** c_felts).
(** EventsForBlock, transaction.rs:757-769: only V0 *)
Definition c_events : codec (list (list event)) :=
  Codec
    (fun es => encode_uint 0 ++ enc (c_vec (c_vec c_event)) es)
    (fun bs => match decode_u32 bs with
               | Some (0, r) => dec (c_vec (c_vec c_event)) r
               | _ => None
               end).
(** impl From<Event> for event::Event, transaction.rs:800-812; writing (779-798) copies the
    fields *)
Definition read_event (e : event) : option event :=
  match in251 (ev_from e) with
  | None => None
  | Some from => Some (Event (ev_data e) from (ev_keys e))
  end.

(** ---- transactions ---- *)

(** dto::DataAvailabilityMode (transaction.rs:1394-1398) and dto::EntryPointType (730-736): as
    the common enums, and so are their conversions (738-755, 1400-1416) *)
Definition c_mode : codec da_mode :=
  c_two (fun m => match m with DaL1 => true | DaL2 => false end) DaL1 DaL2.
Definition c_entry : codec entry_point_type :=
  c_two (fun t => match t with External => true | EntryL1Handler => false end)
        External EntryL1Handler.
(** dto::ResourceBound, transaction.rs:1461-1483: as the common struct *)
Definition c_bound : codec resource_bound :=
  c_map (fun b => (rb_amount b, rb_price b)) (fun '(a, b) => Bound a b) (c_u64 ** c_u128).
(** ResourceBoundsV0, transaction.rs:1418-1422 *)
Record bounds0 := Bounds0 { b0_l1 : resource_bound; b0_l2 : resource_bound }.
Definition c_bounds0 : codec bounds0 :=
  c_map (fun b => (b0_l1 b, b0_l2 b)) (fun '(a, b) => Bounds0 a b) (c_bound ** c_bound).
(** ResourceBoundsV1, transaction.rs:1424-1429: the fields of the common ResourceBounds in the
    same order, copied by its conversions (1441-1459) *)
Definition c_bounds1 : codec resource_bounds :=
  c_map (fun b => (rb_l1_gas b, (rb_l2_gas b, rb_l1_data_gas b)))
        (fun '(a, (b, c)) => Bounds a b c) (c_bound ** c_bound ** c_opt c_bound).
(** impl From<ResourceBoundsV0> for ResourceBoundsV1, transaction.rs:1431-1439 *)
Definition upgrade_bounds (b : bounds0) : resource_bounds := Bounds (b0_l1 b) (b0_l2 b) None.

(** dto::DeclareTransactionV0V1, transaction.rs:2655-2664 *)
Record s_declare01 := SDeclare01 {
  sd1_class : felt; sd1_fee : felt; sd1_nonce : felt; sd1_signature : list felt;
  sd1_sender : felt }.
Definition c_declare01 : codec s_declare01 :=
  c_map (fun t => (sd1_class t, (sd1_fee t, (sd1_nonce t, (sd1_signature t, sd1_sender t)))))
        (fun '(a, (b, (c, (d, e)))) => SDeclare01 a b c d e)
        (c_felt ** c_felt ** c_felt ** c_felts ** c_felt).
(** dto::DeclareTransactionV2, transaction.rs:2679-2688 *)
Record s_declare2 := SDeclare2 {
  sd2_class : felt; sd2_fee : felt; sd2_nonce : felt; sd2_signature : list felt;
  sd2_sender : felt; sd2_casm : felt }.
Definition c_declare2 : codec s_declare2 :=
  c_map (fun t => (sd2_class t, (sd2_fee t, (sd2_nonce t, (sd2_signature t, (sd2_sender t,
           sd2_casm t))))))
        (fun '(a, (b, (c, (d, (e, f))))) => SDeclare2 a b c d e f)
        (c_felt ** c_felt ** c_felt ** c_felts ** c_felt ** c_felt).
(** dto::DeclareTransactionV3 and V4, transaction.rs:2691-2705 and 2726-2740: alike but for the
    type of the bounds [B] *)
Record s_declare3 (B : Type) := SDeclare3 {
  sd3_class : felt; sd3_nonce : felt; sd3_nonce_mode : da_mode; sd3_fee_mode : da_mode;
  sd3_bounds : B; sd3_tip : N; sd3_paymaster : list felt; sd3_signature : list felt;
  sd3_deployment : list felt; sd3_sender : felt; sd3_casm : felt }.
Arguments SDeclare3 {B}.
Arguments sd3_class {B}. Arguments sd3_nonce {B}. Arguments sd3_nonce_mode {B}.
Arguments sd3_fee_mode {B}. Arguments sd3_bounds {B}. Arguments sd3_tip {B}.
Arguments sd3_paymaster {B}. Arguments sd3_signature {B}. Arguments sd3_deployment {B}.
Arguments sd3_sender {B}. Arguments sd3_casm {B}.
Definition c_declare3 {B} (c_b : codec B) : codec (s_declare3 B) :=
  c_map (fun t => (sd3_class t, (sd3_nonce t, (sd3_nonce_mode t, (sd3_fee_mode t, (sd3_bounds t,
           (sd3_tip t, (sd3_paymaster t, (sd3_signature t, (sd3_deployment t, (sd3_sender t,
           sd3_casm t)))))))))))
        (fun '(a, (b, (c, (d, (e, (f, (g, (h, (i, (j, k)))))))))) =>
           SDeclare3 a b c d e f g h i j k)
        (c_felt ** c_felt ** c_mode ** c_mode ** c_b ** c_u64 ** c_felts ** c_felts ** c_felts
           ** c_felt ** c_felt).
(** dto::DeployTransaction, transaction.rs:2762-2770, only in V0 *)
Record s_deploy_any := SDeployAny {
  sp_address : felt; sp_version : felt; sp_salt : felt; sp_class : felt;
  sp_calldata : list felt }.
Definition c_deploy_any : codec s_deploy_any :=
  c_map (fun t => (sp_address t, (sp_version t, (sp_salt t, (sp_class t, sp_calldata t)))))
        (fun '(a, (b, (c, (d, e)))) => SDeployAny a b c d e)
        (c_felt ** c_felt ** c_felt ** c_felt ** c_felts).
(** dto::DeployTransactionV0 and V1, transaction.rs:2797-2804 and 2830-2837 *)
Record s_deploy := SDeploy {
  sy_address : felt; sy_salt : felt; sy_class : felt; sy_calldata : list felt }.
Definition c_deploy : codec s_deploy :=
  c_map (fun t => (sy_address t, (sy_salt t, (sy_class t, sy_calldata t))))
        (fun '(a, (b, (c, d))) => SDeploy a b c d)
        (c_felt ** c_felt ** c_felt ** c_felts).
(** dto::DeployAccountTransactionV1, transaction.rs:2863-2873 *)
Record s_account1 := SAccount1 {
  sa1_address : felt; sa1_fee : felt; sa1_signature : list felt; sa1_nonce : felt;
  sa1_salt : felt; sa1_calldata : list felt; sa1_class : felt }.
Definition c_account1 : codec s_account1 :=
  c_map (fun t => (sa1_address t, (sa1_fee t, (sa1_signature t, (sa1_nonce t, (sa1_salt t,
           (sa1_calldata t, sa1_class t)))))))
        (fun '(a, (b, (c, (d, (e, (f, g)))))) => SAccount1 a b c d e f g)
        (c_felt ** c_felt ** c_felts ** c_felt ** c_felt ** c_felts ** c_felt).
(** dto::DeployAccountTransactionV3 and V4, transaction.rs:2903-2917 and 2952-2966 *)
Record s_account3 (B : Type) := SAccount3 {
  sa3_sender : felt; sa3_signature : list felt; sa3_nonce : felt; sa3_nonce_mode : da_mode;
  sa3_fee_mode : da_mode; sa3_bounds : B; sa3_tip : N; sa3_paymaster : list felt;
  sa3_salt : felt; sa3_calldata : list felt; sa3_class : felt }.
Arguments SAccount3 {B}.
Arguments sa3_sender {B}. Arguments sa3_signature {B}. Arguments sa3_nonce {B}.
Arguments sa3_nonce_mode {B}. Arguments sa3_fee_mode {B}. Arguments sa3_bounds {B}.
Arguments sa3_tip {B}. Arguments sa3_paymaster {B}. Arguments sa3_salt {B}.
Arguments sa3_calldata {B}. Arguments sa3_class {B}.
Definition c_account3 {B} (c_b : codec B) : codec (s_account3 B) :=
  c_map (fun t => (sa3_sender t, (sa3_signature t, (sa3_nonce t, (sa3_nonce_mode t,
           (sa3_fee_mode t, (sa3_bounds t, (sa3_tip t, (sa3_paymaster t, (sa3_salt t,
           (sa3_calldata t, sa3_class t)))))))))))
        (fun '(a, (b, (c, (d, (e, (f, (g, (h, (i, (j, k)))))))))) =>
           SAccount3 a b c d e f g h i j k)
        (c_felt ** c_felts ** c_felt ** c_mode ** c_mode ** c_b ** c_u64 ** c_felts ** c_felt
           ** c_felts ** c_felt).
(** dto::InvokeTransactionV0, transaction.rs:3002-3011 *)
Record s_invoke0 := SInvoke0 {
  si0_calldata : list felt; si0_sender : felt; si0_selector : felt;
  si0_entry : option entry_point_type; si0_fee : felt; si0_signature : list felt }.
Definition c_invoke0 : codec s_invoke0 :=
  c_map (fun t => (si0_calldata t, (si0_sender t, (si0_selector t, (si0_entry t, (si0_fee t,
           si0_signature t))))))
        (fun '(a, (b, (c, (d, (e, f))))) => SInvoke0 a b c d e f)
        (c_felts ** c_felt ** c_felt ** c_opt c_entry ** c_felt ** c_felts).
(** dto::InvokeTransactionV1, transaction.rs:3027-3035 *)
Record s_invoke1 := SInvoke1 {
  si1_calldata : list felt; si1_sender : felt; si1_fee : felt; si1_signature : list felt;
  si1_nonce : felt }.
Definition c_invoke1 : codec s_invoke1 :=
  c_map (fun t => (si1_calldata t, (si1_sender t, (si1_fee t, (si1_signature t, si1_nonce t)))))
        (fun '(a, (b, (c, (d, e)))) => SInvoke1 a b c d e)
        (c_felts ** c_felt ** c_felt ** c_felts ** c_felt).
(** dto::InvokeTransactionV3 and V4, transaction.rs:3038-3051 and 3072-3085 *)
Record s_invoke3 (B : Type) := SInvoke3 {
  si3_signature : list felt; si3_nonce : felt; si3_nonce_mode : da_mode; si3_fee_mode : da_mode;
  si3_bounds : B; si3_tip : N; si3_paymaster : list felt; si3_deployment : list felt;
  si3_calldata : list felt; si3_sender : felt }.
Arguments SInvoke3 {B}.
Arguments si3_signature {B}. Arguments si3_nonce {B}. Arguments si3_nonce_mode {B}.
Arguments si3_fee_mode {B}. Arguments si3_bounds {B}. Arguments si3_tip {B}.
Arguments si3_paymaster {B}. Arguments si3_deployment {B}. Arguments si3_calldata {B}.
Arguments si3_sender {B}.
Definition c_invoke3 {B} (c_b : codec B) : codec (s_invoke3 B) :=
  c_map (fun t => (si3_signature t, (si3_nonce t, (si3_nonce_mode t, (si3_fee_mode t,
           (si3_bounds t, (si3_tip t, (si3_paymaster t, (si3_deployment t, (si3_calldata t,
           si3_sender t))))))))))
        (fun '(a, (b, (c, (d, (e, (f, (g, (h, (i, j))))))))) => SInvoke3 a b c d e f g h i j)
        (c_felts ** c_felt ** c_mode ** c_mode ** c_b ** c_u64 ** c_felts ** c_felts ** c_felts
           ** c_felt).
(** dto::InvokeTransactionV5, transaction.rs:3106-3120: one of V4 with the proof facts after it *)
Record s_invoke5 := SInvoke5 { si5_base : s_invoke3 resource_bounds; si5_proof : list felt }.
Definition c_invoke5 : codec s_invoke5 :=
  c_map (fun t => (si5_base t, si5_proof t)) (fun '(a, b) => SInvoke5 a b)
        (c_invoke3 c_bounds1 ** c_felts).
(** dto::L1HandlerTransactionV0, transaction.rs:3143-3150 *)
Record s_l1_handler := SL1Handler {
  sl_address : felt; sl_selector : felt; sl_nonce : felt; sl_calldata : list felt }.
Definition c_l1_handler : codec s_l1_handler :=
  c_map (fun t => (sl_address t, (sl_selector t, (sl_nonce t, sl_calldata t))))
        (fun '(a, (b, (c, d))) => SL1Handler a b c d)
        (c_felt ** c_felt ** c_felt ** c_felts).

(** enum TransactionVariantV0, transaction.rs:1607-1625 *)
Inductive variant0 : Type :=
| V0DeclareV0 (t : s_declare01) | V0DeclareV1 (t : s_declare01) | V0DeclareV2 (t : s_declare2)
| V0DeclareV3 (t : s_declare3 bounds0) | V0Deploy (t : s_deploy_any)
| V0DeployAccountV1 (t : s_account1) | V0DeployAccountV3 (t : s_account3 bounds0)
| V0InvokeV0 (t : s_invoke0) | V0InvokeV1 (t : s_invoke1) | V0InvokeV3 (t : s_invoke3 bounds0)
| V0L1Handler (t : s_l1_handler).
(** enum TransactionVariantV1, transaction.rs:1641-1659 *)
Inductive variant1 : Type :=
| V1DeclareV0 (t : s_declare01) | V1DeclareV1 (t : s_declare01) | V1DeclareV2 (t : s_declare2)
| V1DeclareV3 (t : s_declare3 bounds0) | V1DeployV0 (t : s_deploy) | V1DeployV1 (t : s_deploy)
| V1DeployAccountV1 (t : s_account1) | V1DeployAccountV3 (t : s_account3 bounds0)
| V1InvokeV0 (t : s_invoke0) | V1InvokeV1 (t : s_invoke1) | V1InvokeV3 (t : s_invoke3 bounds0)
| V1L1Handler (t : s_l1_handler).
(** enum TransactionVariantV2, transaction.rs:1675-1697 *)
Inductive variant2 : Type :=
| V2DeclareV0 (t : s_declare01) | V2DeclareV1 (t : s_declare01) | V2DeclareV2 (t : s_declare2)
| V2DeclareV3 (t : s_declare3 bounds0) | V2DeclareV4 (t : s_declare3 resource_bounds)
| V2DeployV0 (t : s_deploy) | V2DeployV1 (t : s_deploy)
| V2DeployAccountV1 (t : s_account1) | V2DeployAccountV3 (t : s_account3 bounds0)
| V2DeployAccountV4 (t : s_account3 resource_bounds)
| V2InvokeV0 (t : s_invoke0) | V2InvokeV1 (t : s_invoke1) | V2InvokeV3 (t : s_invoke3 bounds0)
| V2InvokeV4 (t : s_invoke3 resource_bounds) | V2L1Handler (t : s_l1_handler).
(** enum TransactionVariantV3, transaction.rs:1713-1736 *)
Inductive variant3 : Type :=
| SDeclareV0 (t : s_declare01) | SDeclareV1 (t : s_declare01) | SDeclareV2 (t : s_declare2)
| SDeclareV3 (t : s_declare3 bounds0) | SDeclareV4 (t : s_declare3 resource_bounds)
| SDeployV0 (t : s_deploy) | SDeployV1 (t : s_deploy)
| SDeployAccountV1 (t : s_account1) | SDeployAccountV3 (t : s_account3 bounds0)
| SDeployAccountV4 (t : s_account3 resource_bounds)
| SInvokeV0 (t : s_invoke0) | SInvokeV1 (t : s_invoke1) | SInvokeV3 (t : s_invoke3 bounds0)
| SInvokeV4 (t : s_invoke3 resource_bounds) | SInvokeV5 (t : s_invoke5)
| SL1HandlerV0 (t : s_l1_handler).

(** derive(Serialize, Deserialize) of these enums: the tag is the position of the variant *)
Definition c_variant0 : codec variant0 :=
  Codec
    (fun v => match v with
              | V0DeclareV0 t => encode_uint 0 ++ enc c_declare01 t
              | V0DeclareV1 t => encode_uint 1 ++ enc c_declare01 t
              | V0DeclareV2 t => encode_uint 2 ++ enc c_declare2 t
              | V0DeclareV3 t => encode_uint 3 ++ enc (c_declare3 c_bounds0) t
              | V0Deploy t => encode_uint 4 ++ enc c_deploy_any t
              | V0DeployAccountV1 t => encode_uint 5 ++ enc c_account1 t
              | V0DeployAccountV3 t => encode_uint 6 ++ enc (c_account3 c_bounds0) t
              | V0InvokeV0 t => encode_uint 7 ++ enc c_invoke0 t
              | V0InvokeV1 t => encode_uint 8 ++ enc c_invoke1 t
              | V0InvokeV3 t => encode_uint 9 ++ enc (c_invoke3 c_bounds0) t
              | V0L1Handler t => encode_uint 10 ++ enc c_l1_handler t
              end)
    (fun bs => match decode_u32 bs with
               | Some (0, r) => arm V0DeclareV0 c_declare01 r
               | Some (1, r) => arm V0DeclareV1 c_declare01 r
               | Some (2, r) => arm V0DeclareV2 c_declare2 r
               | Some (3, r) => arm V0DeclareV3 (c_declare3 c_bounds0) r
               | Some (4, r) => arm V0Deploy c_deploy_any r
               | Some (5, r) => arm V0DeployAccountV1 c_account1 r
               | Some (6, r) => arm V0DeployAccountV3 (c_account3 c_bounds0) r
               | Some (7, r) => arm V0InvokeV0 c_invoke0 r
               | Some (8, r) => arm V0InvokeV1 c_invoke1 r
               | Some (9, r) => arm V0InvokeV3 (c_invoke3 c_bounds0) r
               | Some (10, r) => arm V0L1Handler c_l1_handler r
               | _ => None
               end).
Definition c_variant1 : codec variant1 :=
  Codec
    (fun v => match v with
              | V1DeclareV0 t => encode_uint 0 ++ enc c_declare01 t
              | V1DeclareV1 t => encode_uint 1 ++ enc c_declare01 t
              | V1DeclareV2 t => encode_uint 2 ++ enc c_declare2 t
              | V1DeclareV3 t => encode_uint 3 ++ enc (c_declare3 c_bounds0) t
              | V1DeployV0 t => encode_uint 4 ++ enc c_deploy t
              | V1DeployV1 t => encode_uint 5 ++ enc c_deploy t
              | V1DeployAccountV1 t => encode_uint 6 ++ enc c_account1 t
              | V1DeployAccountV3 t => encode_uint 7 ++ enc (c_account3 c_bounds0) t
              | V1InvokeV0 t => encode_uint 8 ++ enc c_invoke0 t
              | V1InvokeV1 t => encode_uint 9 ++ enc c_invoke1 t
              | V1InvokeV3 t => encode_uint 10 ++ enc (c_invoke3 c_bounds0) t
              | V1L1Handler t => encode_uint 11 ++ enc c_l1_handler t
              end)
    (fun bs => match decode_u32 bs with
               | Some (0, r) => arm V1DeclareV0 c_declare01 r
               | Some (1, r) => arm V1DeclareV1 c_declare01 r
               | Some (2, r) => arm V1DeclareV2 c_declare2 r
               | Some (3, r) => arm V1DeclareV3 (c_declare3 c_bounds0) r
               | Some (4, r) => arm V1DeployV0 c_deploy r
               | Some (5, r) => arm V1DeployV1 c_deploy r
               | Some (6, r) => arm V1DeployAccountV1 c_account1 r
               | Some (7, r) => arm V1DeployAccountV3 (c_account3 c_bounds0) r
               | Some (8, r) => arm V1InvokeV0 c_invoke0 r
               | Some (9, r) => arm V1InvokeV1 c_invoke1 r
               | Some (10, r) => arm V1InvokeV3 (c_invoke3 c_bounds0) r
               | Some (11, r) => arm V1L1Handler c_l1_handler r
               | _ => None
               end).
Definition c_variant2 : codec variant2 :=
  Codec
    (fun v => match v with
              | V2DeclareV0 t => encode_uint 0 ++ enc c_declare01 t
              | V2DeclareV1 t => encode_uint 1 ++ enc c_declare01 t
              | V2DeclareV2 t => encode_uint 2 ++ enc c_declare2 t
              | V2DeclareV3 t => encode_uint 3 ++ enc (c_declare3 c_bounds0) t
              | V2DeclareV4 t => encode_uint 4 ++ enc (c_declare3 c_bounds1) t
              | V2DeployV0 t => encode_uint 5 ++ enc c_deploy t
              | V2DeployV1 t => encode_uint 6 ++ enc c_deploy t
              | V2DeployAccountV1 t => encode_uint 7 ++ enc c_account1 t
              | V2DeployAccountV3 t => encode_uint 8 ++ enc (c_account3 c_bounds0) t
              | V2DeployAccountV4 t => encode_uint 9 ++ enc (c_account3 c_bounds1) t
              | V2InvokeV0 t => encode_uint 10 ++ enc c_invoke0 t
              | V2InvokeV1 t => encode_uint 11 ++ enc c_invoke1 t
              | V2InvokeV3 t => encode_uint 12 ++ enc (c_invoke3 c_bounds0) t
              | V2InvokeV4 t => encode_uint 13 ++ enc (c_invoke3 c_bounds1) t
              | V2L1Handler t => encode_uint 14 ++ enc c_l1_handler t
              end)
    (fun bs => match decode_u32 bs with
               | Some (0, r) => arm V2DeclareV0 c_declare01 r
               | Some (1, r) => arm V2DeclareV1 c_declare01 r
               | Some (2, r) => arm V2DeclareV2 c_declare2 r
               | Some (3, r) => arm V2DeclareV3 (c_declare3 c_bounds0) r
               | Some (4, r) => arm V2DeclareV4 (c_declare3 c_bounds1) r
               | Some (5, r) => arm V2DeployV0 c_deploy r
               | Some (6, r) => arm V2DeployV1 c_deploy r
               | Some (7, r) => arm V2DeployAccountV1 c_account1 r
               | Some (8, r) => arm V2DeployAccountV3 (c_account3 c_bounds0) r
               | Some (9, r) => arm V2DeployAccountV4 (c_account3 c_bounds1) r
               | Some (10, r) => arm V2InvokeV0 c_invoke0 r
               | Some (11, r) => arm V2InvokeV1 c_invoke1 r
               | Some (12, r) => arm V2InvokeV3 (c_invoke3 c_bounds0) r
               | Some (13, r) => arm V2InvokeV4 (c_invoke3 c_bounds1) r
               | Some (14, r) => arm V2L1Handler c_l1_handler r
               | _ => None
               end).
Definition c_variant3 : codec variant3 :=
  Codec
    (fun v => match v with
              | SDeclareV0 t => encode_uint 0 ++ enc c_declare01 t
              | SDeclareV1 t => encode_uint 1 ++ enc c_declare01 t
              | SDeclareV2 t => encode_uint 2 ++ enc c_declare2 t
              | SDeclareV3 t => encode_uint 3 ++ enc (c_declare3 c_bounds0) t
              | SDeclareV4 t => encode_uint 4 ++ enc (c_declare3 c_bounds1) t
              | SDeployV0 t => encode_uint 5 ++ enc c_deploy t
              | SDeployV1 t => encode_uint 6 ++ enc c_deploy t
              | SDeployAccountV1 t => encode_uint 7 ++ enc c_account1 t
              | SDeployAccountV3 t => encode_uint 8 ++ enc (c_account3 c_bounds0) t
              | SDeployAccountV4 t => encode_uint 9 ++ enc (c_account3 c_bounds1) t
              | SInvokeV0 t => encode_uint 10 ++ enc c_invoke0 t
              | SInvokeV1 t => encode_uint 11 ++ enc c_invoke1 t
              | SInvokeV3 t => encode_uint 12 ++ enc (c_invoke3 c_bounds0) t
              | SInvokeV4 t => encode_uint 13 ++ enc (c_invoke3 c_bounds1) t
              | SInvokeV5 t => encode_uint 14 ++ enc c_invoke5 t
              | SL1HandlerV0 t => encode_uint 15 ++ enc c_l1_handler t
              end)
    (fun bs => match decode_u32 bs with
               | Some (0, r) => arm SDeclareV0 c_declare01 r
               | Some (1, r) => arm SDeclareV1 c_declare01 r
               | Some (2, r) => arm SDeclareV2 c_declare2 r
               | Some (3, r) => arm SDeclareV3 (c_declare3 c_bounds0) r
               | Some (4, r) => arm SDeclareV4 (c_declare3 c_bounds1) r
               | Some (5, r) => arm SDeployV0 c_deploy r
               | Some (6, r) => arm SDeployV1 c_deploy r
               | Some (7, r) => arm SDeployAccountV1 c_account1 r
               | Some (8, r) => arm SDeployAccountV3 (c_account3 c_bounds0) r
               | Some (9, r) => arm SDeployAccountV4 (c_account3 c_bounds1) r
               | Some (10, r) => arm SInvokeV0 c_invoke0 r
               | Some (11, r) => arm SInvokeV1 c_invoke1 r
               | Some (12, r) => arm SInvokeV3 (c_invoke3 c_bounds0) r
               | Some (13, r) => arm SInvokeV4 (c_invoke3 c_bounds1) r
               | Some (14, r) => arm SInvokeV5 c_invoke5 r
               | Some (15, r) => arm SL1HandlerV0 c_l1_handler r
               | _ => None
               end).

(** impl From<TransactionVariantV0> for TransactionVariantV3, transaction.rs:1738-1772: a deploy
    whose version is neither 0 nor 1 panics *)
Definition upgrade_variant0 (v : variant0) : option variant3 :=
  match v with
  | V0DeclareV0 t => Some (SDeclareV0 t)
  | V0DeclareV1 t => Some (SDeclareV1 t)
  | V0DeclareV2 t => Some (SDeclareV2 t)
  | V0DeclareV3 t => Some (SDeclareV3 t)
  | V0Deploy t =>
      if sp_version t =? 0 then
        Some (SDeployV0 (SDeploy (sp_address t) (sp_salt t) (sp_class t) (sp_calldata t)))
      else if sp_version t =? 1 then
        Some (SDeployV1 (SDeploy (sp_address t) (sp_salt t) (sp_class t) (sp_calldata t)))
      else None
  | V0DeployAccountV1 t => Some (SDeployAccountV1 t)
  | V0DeployAccountV3 t => Some (SDeployAccountV3 t)
  | V0InvokeV0 t => Some (SInvokeV0 t)
  | V0InvokeV1 t => Some (SInvokeV1 t)
  | V0InvokeV3 t => Some (SInvokeV3 t)
  | V0L1Handler t => Some (SL1HandlerV0 t)
  end.
(** impl From<TransactionVariantV1> for TransactionVariantV3, transaction.rs:1774-1791 *)
Definition upgrade_variant1 (v : variant1) : variant3 :=
  match v with
  | V1DeclareV0 t => SDeclareV0 t
  | V1DeclareV1 t => SDeclareV1 t
  | V1DeclareV2 t => SDeclareV2 t
  | V1DeclareV3 t => SDeclareV3 t
  | V1DeployV0 t => SDeployV0 t
  | V1DeployV1 t => SDeployV1 t
  | V1DeployAccountV1 t => SDeployAccountV1 t
  | V1DeployAccountV3 t => SDeployAccountV3 t
  | V1InvokeV0 t => SInvokeV0 t
  | V1InvokeV1 t => SInvokeV1 t
  | V1InvokeV3 t => SInvokeV3 t
  | V1L1Handler t => SL1HandlerV0 t
  end.
(** impl From<TransactionVariantV2> for TransactionVariantV3, transaction.rs:1793-1813 *)
Definition upgrade_variant2 (v : variant2) : variant3 :=
  match v with
  | V2DeclareV0 t => SDeclareV0 t
  | V2DeclareV1 t => SDeclareV1 t
  | V2DeclareV2 t => SDeclareV2 t
  | V2DeclareV3 t => SDeclareV3 t
  | V2DeclareV4 t => SDeclareV4 t
  | V2DeployV0 t => SDeployV0 t
  | V2DeployV1 t => SDeployV1 t
  | V2DeployAccountV1 t => SDeployAccountV1 t
  | V2DeployAccountV3 t => SDeployAccountV3 t
  | V2DeployAccountV4 t => SDeployAccountV4 t
  | V2InvokeV0 t => SInvokeV0 t
  | V2InvokeV1 t => SInvokeV1 t
  | V2InvokeV3 t => SInvokeV3 t
  | V2InvokeV4 t => SInvokeV4 t
  | V2L1Handler t => SL1HandlerV0 t
  end.

(** common Transaction, common/src/transaction.rs:17-21 *)
Record stx := Stx { s_hash : felt; s_variant : variant }.

(** impl From<&Transaction> for TransactionV3, transaction.rs:1842-2160 *)
Definition write_variant (v : variant) : variant3 :=
  match v with
  | VDeclareV0 t =>
      SDeclareV0 (SDeclare01 (d1_class t) (d1_max_fee t) (d1_nonce t) (d1_signature t)
                             (d1_sender t))
  | VDeclareV1 t =>
      SDeclareV1 (SDeclare01 (d1_class t) (d1_max_fee t) (d1_nonce t) (d1_signature t)
                             (d1_sender t))
  | VDeclareV2 t =>
      SDeclareV2 (SDeclare2 (d2_class t) (d2_max_fee t) (d2_nonce t) (d2_signature t)
                            (d2_sender t) (d2_casm t))
  | VDeclareV3 t =>
      SDeclareV4 (SDeclare3 (d3_class t) (d3_nonce t) (d3_nonce_mode t) (d3_fee_mode t)
                            (d3_bounds t) (d3_tip t) (d3_paymaster t) (d3_signature t)
                            (d3_deployment t) (d3_sender t) (d3_casm t))
  | VDeployV0 t =>
      SDeployV0 (SDeploy (dp_address t) (dp_salt t) (dp_class t) (dp_calldata t))
  | VDeployV1 t =>
      SDeployV1 (SDeploy (dp_address t) (dp_salt t) (dp_class t) (dp_calldata t))
  | VDeployAccountV1 t =>
      SDeployAccountV1 (SAccount1 (a1_address t) (a1_max_fee t) (a1_signature t) (a1_nonce t)
                                  (a1_salt t) (a1_calldata t) (a1_class t))
  | VDeployAccountV3 t =>
      SDeployAccountV4 (SAccount3 (a3_address t) (a3_signature t) (a3_nonce t) (a3_nonce_mode t)
                                  (a3_fee_mode t) (a3_bounds t) (a3_tip t) (a3_paymaster t)
                                  (a3_salt t) (a3_calldata t) (a3_class t))
  | VInvokeV0 t =>
      SInvokeV0 (SInvoke0 (i0_calldata t) (i0_sender t) (i0_selector t) (i0_entry_type t)
                          (i0_max_fee t) (i0_signature t))
  | VInvokeV1 t =>
      SInvokeV1 (SInvoke1 (i1_calldata t) (i1_sender t) (i1_max_fee t) (i1_signature t)
                          (i1_nonce t))
  | VInvokeV3 t =>
      SInvokeV5 (SInvoke5
        (SInvoke3 (i3_signature t) (i3_nonce t) (i3_nonce_mode t) (i3_fee_mode t) (i3_bounds t)
                  (i3_tip t) (i3_paymaster t) (i3_deployment t) (i3_calldata t) (i3_sender t))
        (i3_proof_facts t))
  | VL1Handler t =>
      SL1HandlerV0 (SL1Handler (l1_address t) (l1_selector t) (l1_nonce t) (l1_calldata t))
  end.

(** the arms of impl From<TransactionV3> for Transaction, transaction.rs:2162-2653 *)
Definition read_declare3 (t : s_declare3 resource_bounds) : option variant :=
  match in251 (sd3_sender t), in251 (sd3_casm t) with
  | Some sender, Some casm =>
      Some (VDeclareV3 (DeclareTx3 (sd3_class t) (sd3_nonce t) (sd3_nonce_mode t)
                          (sd3_fee_mode t) (sd3_bounds t) (sd3_tip t) (sd3_paymaster t)
                          (sd3_signature t) (sd3_deployment t) sender casm))
  | _, _ => None
  end.
Definition read_account3 (t : s_account3 resource_bounds) : option variant :=
  match in251 (sa3_sender t) with
  | Some address =>
      Some (VDeployAccountV3 (DeployAccountTx3 address (sa3_signature t) (sa3_nonce t)
                                (sa3_nonce_mode t) (sa3_fee_mode t) (sa3_bounds t) (sa3_tip t)
                                (sa3_paymaster t) (sa3_salt t) (sa3_calldata t) (sa3_class t)))
  | None => None
  end.
Definition read_invoke3 (t : s_invoke3 resource_bounds) (proof : list felt) : option variant :=
  match in251 (si3_sender t) with
  | Some sender =>
      Some (VInvokeV3 (InvokeTx3 (si3_signature t) (si3_nonce t) (si3_nonce_mode t)
                         (si3_fee_mode t) (si3_bounds t) (si3_tip t) (si3_paymaster t)
                         (si3_deployment t) (si3_calldata t) sender proof))
  | None => None
  end.
(** a transaction of V3 bounds has ResourceBoundsV0, upgraded when reading (2258, 2411, 2535) *)
Definition up_declare3 (t : s_declare3 bounds0) : s_declare3 resource_bounds :=
  SDeclare3 (sd3_class t) (sd3_nonce t) (sd3_nonce_mode t) (sd3_fee_mode t)
            (upgrade_bounds (sd3_bounds t)) (sd3_tip t) (sd3_paymaster t) (sd3_signature t)
            (sd3_deployment t) (sd3_sender t) (sd3_casm t).
Definition up_account3 (t : s_account3 bounds0) : s_account3 resource_bounds :=
  SAccount3 (sa3_sender t) (sa3_signature t) (sa3_nonce t) (sa3_nonce_mode t) (sa3_fee_mode t)
            (upgrade_bounds (sa3_bounds t)) (sa3_tip t) (sa3_paymaster t) (sa3_salt t)
            (sa3_calldata t) (sa3_class t).
Definition up_invoke3 (t : s_invoke3 bounds0) : s_invoke3 resource_bounds :=
  SInvoke3 (si3_signature t) (si3_nonce t) (si3_nonce_mode t) (si3_fee_mode t)
           (upgrade_bounds (si3_bounds t)) (si3_tip t) (si3_paymaster t) (si3_deployment t)
           (si3_calldata t) (si3_sender t).
Definition read_variant (v : variant3) : option variant :=
  match v with
  | SDeclareV0 t =>
      option_map (fun sender =>
        VDeclareV0 (DeclareTx01 (sd1_class t) (sd1_fee t) (sd1_nonce t) (sd1_signature t) sender))
        (in251 (sd1_sender t))
  | SDeclareV1 t =>
      Some (VDeclareV1 (DeclareTx01 (sd1_class t) (sd1_fee t) (sd1_nonce t) (sd1_signature t)
                                    (sd1_sender t)))
  | SDeclareV2 t =>
      option_map (fun casm =>
        VDeclareV2 (DeclareTx2 (sd2_class t) (sd2_fee t) (sd2_nonce t) (sd2_signature t)
                               (sd2_sender t) casm))
        (in251 (sd2_casm t))
  | SDeclareV3 t => read_declare3 (up_declare3 t)
  | SDeclareV4 t => read_declare3 t
  | SDeployV0 t =>
      option_map (fun address =>
        VDeployV0 (DeployTx (sy_class t) address (sy_salt t) (sy_calldata t)))
        (in251 (sy_address t))
  | SDeployV1 t =>
      option_map (fun address =>
        VDeployV1 (DeployTx (sy_class t) address (sy_salt t) (sy_calldata t)))
        (in251 (sy_address t))
  | SDeployAccountV1 t =>
      option_map (fun address =>
        VDeployAccountV1 (DeployAccountTx1 address (sa1_fee t) (sa1_signature t) (sa1_nonce t)
                                           (sa1_salt t) (sa1_calldata t) (sa1_class t)))
        (in251 (sa1_address t))
  | SDeployAccountV3 t => read_account3 (up_account3 t)
  | SDeployAccountV4 t => read_account3 t
  | SInvokeV0 t =>
      option_map (fun sender =>
        VInvokeV0 (InvokeTx0 (si0_calldata t) sender (si0_selector t) (si0_entry t) (si0_fee t)
                             (si0_signature t)))
        (in251 (si0_sender t))
  | SInvokeV1 t =>
      option_map (fun sender =>
        VInvokeV1 (InvokeTx1 (si1_calldata t) sender (si1_fee t) (si1_signature t)
                             (si1_nonce t)))
        (in251 (si1_sender t))
  | SInvokeV3 t => read_invoke3 (up_invoke3 t) []
  | SInvokeV4 t => read_invoke3 t []
  | SInvokeV5 t => read_invoke3 (si5_base t) (si5_proof t)
  | SL1HandlerV0 t =>
      option_map (fun address =>
        VL1Handler (L1HandlerTx address (sl_selector t) (sl_nonce t) (sl_calldata t)))
        (in251 (sl_address t))
  end.

(** ---- the blob of the transactions of a block ---- *)

(** TransactionWithReceiptV0 to V4, transaction.rs:1527-1555, with TransactionV0 to V3
    (1593-1711): the hash, the variant, the receipt *)
Definition entry (V X : Type) : Type := ((felt * V) * s_receipt X)%type.
(** TransactionsWithReceiptsForBlock, transaction.rs:1485-1503 *)
Inductive block_blob : Type :=
| BlobV0 (l : list (entry variant0 s_resources0))
| BlobV1 (l : list (entry variant1 s_resources0))
| BlobV2 (l : list (entry variant1 s_resources1))
| BlobV3 (l : list (entry variant2 s_resources2))
| BlobV4 (l : list (entry variant3 s_resources2)).

Section Blobs.
(** how an Ethereum address is written in V0: by the ethereum-types crate *)
Variable c_eth : codec felt.

Definition c_entry_of {V X} (c_v : codec V) (c_x : codec X) (c_to : codec felt)
  : codec (entry V X) := (c_felt ** c_v) ** c_receipt c_x c_to.
Definition c_blob : codec block_blob :=
  Codec
    (fun b => match b with
              | BlobV0 l => encode_uint 0 ++ enc (c_vec (c_entry_of c_variant0 c_resources0 c_eth)) l
              | BlobV1 l => encode_uint 1 ++ enc (c_vec (c_entry_of c_variant1 c_resources0 c_felt)) l
              | BlobV2 l => encode_uint 2 ++ enc (c_vec (c_entry_of c_variant1 c_resources1 c_felt)) l
              | BlobV3 l => encode_uint 3 ++ enc (c_vec (c_entry_of c_variant2 c_resources2 c_felt)) l
              | BlobV4 l => encode_uint 4 ++ enc (c_vec (c_entry_of c_variant3 c_resources2 c_felt)) l
              end)
    (fun bs => match decode_u32 bs with
               | Some (0, r) => arm BlobV0 (c_vec (c_entry_of c_variant0 c_resources0 c_eth)) r
               | Some (1, r) => arm BlobV1 (c_vec (c_entry_of c_variant1 c_resources0 c_felt)) r
               | Some (2, r) => arm BlobV2 (c_vec (c_entry_of c_variant1 c_resources1 c_felt)) r
               | Some (3, r) => arm BlobV3 (c_vec (c_entry_of c_variant2 c_resources2 c_felt)) r
               | Some (4, r) => arm BlobV4 (c_vec (c_entry_of c_variant3 c_resources2 c_felt)) r
               | _ => None
               end).

(** TransactionsWithReceiptsForBlock::transactions_with_receipts, transaction.rs:1505-1525, with
    the conversions of an entry (1557-1591, 1815-1840) *)
Definition upgrade_entry {V X} (f : V -> option variant3) (g : X -> s_resources2)
  (e : entry V X) : option (entry variant3 s_resources2) :=
  match f (snd (fst e)) with
  | None => None
  | Some v => Some ((fst (fst e), v), upgrade_receipt g (snd e))
  end.
Definition upgrade_blob (b : block_blob) : option (list (entry variant3 s_resources2)) :=
  match b with
  | BlobV0 l => map_opt (upgrade_entry upgrade_variant0 upgrade_resources0) l
  | BlobV1 l => map_opt (upgrade_entry (fun v => Some (upgrade_variant1 v)) upgrade_resources0) l
  | BlobV2 l => map_opt (upgrade_entry (fun v => Some (upgrade_variant1 v)) upgrade_resources1) l
  | BlobV3 l => map_opt (upgrade_entry (fun v => Some (upgrade_variant2 v)) (fun x => x)) l
  | BlobV4 l => Some l
  end.

(** (transaction.into(), receipt.into()), transaction.rs:428, 502, 587-591 *)
Definition read_entry (e : entry variant3 s_resources2) : option (stx * rcpt) :=
  match read_variant (snd (fst e)), read_receipt (snd e) with
  | Some v, Some r => Some (Stx (fst (fst e)) v, r)
  | _, _ => None
  end.
(** what insert_transaction_data makes of a transaction and its receipt, transaction.rs:129-135 *)
Definition write_entry (x : stx * rcpt) : entry variant3 s_resources2 :=
  ((s_hash (fst x), write_variant (s_variant (fst x))), write_receipt (snd x)).

(** ---- the tables ---- *)

(** zstd with a dictionary: compressing, and decompressing with a limit on the size of the
    result *)
Record zstd := Zstd {
  compress : list byte -> list byte;
  decompress : N -> list byte -> option (list byte) }.
Variables zstd_txs zstd_events : zstd.

(** MAX_TRANSACTIONS_UNCOMPRESSED_SIZE and MAX_EVENTS_UNCOMPRESSED_SIZE, transaction.rs:20-24 *)
Definition MAX_TXS : N := 134217728.
Definition MAX_EVENTS : N := 134217728.

(** the columns transactions and events of table transactions, and the columns of table
    transaction_hashes, schema/revision_0057.rs:128-138 *)
Record db := Db {
  rows : list (N * (list byte * option (list byte)));
  hashes : list (felt * (N * N)) }.

(** SELECT .. WHERE block_number = ?, on the primary key *)
Fixpoint find_row (n : N) (l : list (N * (list byte * option (list byte))))
  : option (list byte * option (list byte)) :=
  match l with
  | [] => None
  | (m, r) :: l' => if m =? n then Some r else find_row n l'
  end.
(** SELECT .. WHERE hash = ?, on the primary key *)
Fixpoint find_hash (h : felt) (l : list (felt * (N * N))) : option (N * N) :=
  match l with
  | [] => None
  | (k, p) :: l' => if k =? h then Some p else find_hash h l'
  end.

(** the blobs, transaction.rs:129-144 and 146-160, 184-196 *)
Definition txs_blob (txs : list (stx * rcpt)) : list byte :=
  enc c_blob (BlobV4 (map write_entry txs)).
Definition events_blob (es : list (list event)) : list byte := enc c_events es.

(** INSERT INTO transaction_hashes for one transaction after another, transaction.rs:119-126:
    fails when the hash is there *)
Fixpoint insert_hashes (n : N) (idx : N) (txs : list (stx * rcpt)) (l : list (felt * (N * N)))
  : option (list (felt * (N * N))) :=
  match txs with
  | [] => Some l
  | (t, _) :: txs' =>
      match find_hash (s_hash t) l with
      | Some _ => None
      | None => insert_hashes n (idx + 1) txs' (l ++ [(s_hash t, (n, idx))])
      end
  end.

(** Transaction::insert_transaction_data, transaction.rs:95-172.  [None] is an error; its caller
    then drops the database transaction, which leaves the tables as they were. *)
Definition insert_transaction_data (d : db) (n : N) (txs : list (stx * rcpt))
  (events : option (list (list event))) : option db :=
  if match txs with [] => true | _ => false end
     && match events with None => true | Some [] => true | Some _ => false end
  then Some d
  else
    match insert_hashes n 0 txs (hashes d) with
    | None => None
    | Some hs =>
        match find_row n (rows d) with
        | Some _ => None
        | None =>
            Some (Db (rows d ++ [(n, (compress zstd_txs (txs_blob txs),
                                      option_map (fun es => compress zstd_events (events_blob es))
                                                 events))])
                     hs)
        end
    end.

(** Transaction::update_events, transaction.rs:174-214 *)
Definition update_events (d : db) (n : N) (es : list (list event)) : db :=
  Db (map (fun r => if fst r =? n
                    then (fst r, (fst (snd r), Some (compress zstd_events (events_blob es))))
                    else r) (rows d))
     (hashes d).

(** DELETE FROM block_headers WHERE number = ? with ON DELETE CASCADE, schema/revision_0057.rs:129
    and 135, as in Transaction::purge_block, block.rs:107-112 *)
Definition remove_block (d : db) (n : N) : db :=
  Db (filter (fun r => negb (fst r =? n)) (rows d))
     (filter (fun h => negb (fst (snd h) =? n)) (hashes d)).

(** reading a blob of transactions, as in query_transactions_by_block, transaction.rs:414-431 *)
Definition read_txs (blob : list byte) : option (list (entry variant3 s_resources2)) :=
  match decompress zstd_txs MAX_TXS blob with
  | None => None
  | Some bs =>
      match dec c_blob bs with
      | None => None
      | Some (b, _) => upgrade_blob b
      end
  end.
(** reading a blob of events, as in query_events_by_block, transaction.rs:532-552 *)
Definition decode_events (blob : list byte) : option (list (list event)) :=
  match decompress zstd_events MAX_EVENTS blob with
  | None => None
  | Some bs => match dec c_events bs with None => None | Some (es, _) => Some es end
  end.
Definition read_events (blob : list byte) : option (list (list event)) :=
  match decode_events blob with
  | None => None
  | Some es => map_opt (map_opt read_event) es
  end.

(** Transaction::query_transactions_by_block, transaction.rs:399-432 *)
Definition query_transactions_by_block (d : db) (n : N) : option (list (stx * rcpt)) :=
  match find_row n (rows d) with
  | None => Some []
  | Some (t, _) => match read_txs t with None => None | Some l => map_opt read_entry l end
  end.

(** Transaction::query_transaction_infos_by_block, transaction.rs:434-456.  The rows of a block
    are inserted in the order of idx, so that ORDER BY idx leaves them as they are. *)
Definition query_transaction_infos_by_block (d : db) (n : N) : list (felt * N) :=
  map (fun h => (fst h, snd (snd h))) (filter (fun h => fst (snd h) =? n) (hashes d)).

(** Transaction::query_events_by_block, transaction.rs:517-553 *)
Definition query_events_by_block (d : db) (n : N) : option (option (list (list event))) :=
  match find_row n (rows d) with
  | None => Some None
  | Some (_, None) => Some None
  | Some (_, Some e) => match read_events e with None => None | Some es => Some (Some es) end
  end.

(** Transaction::query_transactions_and_events_by_block, transaction.rs:458-515 *)
Definition query_transactions_and_events_by_block (d : db) (n : N)
  : option (list (stx * rcpt) * list (list event)) :=
  match find_row n (rows d) with
  | None => Some ([], [])
  | Some (t, e) =>
      match query_transactions_by_block d n with
      | None => None
      | Some txs =>
          match e with
          | None => Some (txs, [])
          | Some e => match read_events e with None => None | Some es => Some (txs, es) end
          end
      end
  end.

(** Transaction::transactions_with_receipts_for_block, transaction.rs:295-309, for a block whose
    header is stored; transactions_for_block (279-293), transaction_at_block (239-251) and
    transaction_count (253-258) are the transactions of it, one of them, and their number *)
Definition transactions_with_receipts_for_block (d : db) (n : N) : option (list (stx * rcpt)) :=
  query_transactions_by_block d n.

(** Transaction::transaction_data_for_block, transaction.rs:260-277 *)
Definition transaction_data_for_block (d : db) (n : N) : option (list ((stx * rcpt) * list event)) :=
  match query_transactions_and_events_by_block d n with
  | None => None
  | Some (txs, es) => Some (combine txs es)
  end.

(** Transaction::events_for_block, transaction.rs:311-337 *)
Definition events_for_block (d : db) (n : N) : option (list ((felt * N) * list event)) :=
  match query_events_by_block d n with
  | None => None
  | Some found =>
      let es := match found with Some es => es | None => [] end in
      let infos := query_transaction_infos_by_block d n in
      if (length es =? length infos)%nat then Some (combine infos es) else None
  end.

(** Transaction::transaction_hashes_for_block, transaction.rs:339-350 *)
Definition transaction_hashes_for_block (d : db) (n : N) : list felt :=
  map fst (query_transaction_infos_by_block d n).

(** Transaction::query_transaction_and_events_by_hash, transaction.rs:594-651; the first option
    is an error, the second that there is no such transaction *)
Definition query_transaction_and_events_by_hash (d : db) (h : felt)
  : option (option (N * stx * rcpt * option (list event))) :=
  match find_hash h (hashes d) with
  | None => Some None
  | Some (n, idx) =>
      match find_row n (rows d) with
      | None => Some None
      | Some (t, e) =>
          match read_txs t with
          | None => None
          | Some l =>
              match match e with
                    | None => Some None
                    | Some e => option_map Some (decode_events e)
                    end with
              | None => None
              | Some es =>
                  match nth_error l (N.to_nat idx) with
                  | None => None
                  | Some x =>
                      match es with
                      | None =>
                          option_map (fun y => Some (n, fst y, snd y, None)) (read_entry x)
                      | Some es =>
                          match nth_error es (N.to_nat idx) with
                          | None => None
                          | Some e =>
                              match map_opt read_event e, read_entry x with
                              | Some e, Some y => Some (Some (n, fst y, snd y, Some e))
                              | _, _ => None
                              end
                          end
                      end
                  end
              end
          end
      end
  end.

(** Transaction::transaction, transaction.rs:216-224, on query_transaction_by_hash, 555-592 *)
Definition transaction (d : db) (h : felt) : option (option stx) :=
  match find_hash h (hashes d) with
  | None => Some None
  | Some (n, idx) =>
      match find_row n (rows d) with
      | None => Some None
      | Some (t, _) =>
          match read_txs t with
          | None => None
          | Some l =>
              match nth_error l (N.to_nat idx) with
              | None => None
              | Some x => option_map (fun y => Some (fst y)) (read_entry x)
              end
          end
      end
  end.

(** Transaction::transaction_with_receipt, transaction.rs:226-237 *)
Definition transaction_with_receipt (d : db) (h : felt)
  : option (option (stx * rcpt * list event * N)) :=
  match query_transaction_and_events_by_hash d h with
  | None => None
  | Some None => Some None
  | Some (Some (n, t, r, e)) =>
      match e with None => None | Some e => Some (Some (t, r, e, n)) end
  end.

End Blobs.
