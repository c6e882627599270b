(** Model of /repo/crates/class-hash/src/lib.rs: hashes of Cairo 0 and Sierra classes.

    Simplifications that hold for the whole file: field elements and unsigned integers are numbers;
    the Pedersen hash, the Poseidon list hash and Keccak-256 are parameters ([PoseidonHasher] writes
    followed by [finish] are the list hash of what was written, C06); a string is the list of its
    characters (Unicode scalar values); JSON is parsed by serde_json, so that the functions here
    start from the parsed definitions; a [HashMap] by type of entry point is three optional lists. *)
From Coq Require Import List Bool Arith NArith.
From Verif Require Import Radix MerkleModel HashModel CommitModel.
From Verif Require FeltModel.
Import ListNotations.
Local Open Scope N_scope.

(** str: its characters *)
Definition str := list N.
(** the bytes of a string, str::as_bytes: UTF-8 *)
Definition utf8_char (c : N) : list N :=
  if c <? 128 then [c]
  else if c <? 2048 then [192 + c / 64; 128 + c mod 64]
  else if c <? 65536 then [224 + c / 4096; 128 + c / 64 mod 64; 128 + c mod 64]
  else [240 + c / 262144; 128 + c / 4096 mod 64; 128 + c / 64 mod 64; 128 + c mod 64].
Definition utf8 (s : str) : list N := flat_map utf8_char s.

(** serde_json::Value with the features that lib.rs:765-772 asks for: a number is its text
    (arbitrary_precision); an object is a BTreeMap, that is, its entries in the order of their keys *)
Inductive json : Type :=
| JNull
| JBool (b : bool)
| JNumber (t : list N)
| JString (s : str)
| JArray (l : list json)
| JObject (l : list (str * json)).

(** ---- writing JSON ---- *)

(** a hexadecimal digit *)
Definition hex_digit (d : N) : N := if d <? 10 then 48 + d else 87 + d.
(** the format {i:4x} of a u16, lib.rs:715: at least four characters, filled up with spaces *)
Definition hex4 (u : N) : list N :=
  [ if u <? 4096 then 32 else hex_digit (u / 4096);
    if u <? 256 then 32 else hex_digit (u / 256 mod 16);
    if u <? 16 then 32 else hex_digit (u / 16 mod 16);
    hex_digit (u mod 16) ].
(** char::encode_utf16 *)
Definition utf16 (c : N) : list N :=
  if c <? 65536 then [c]
  else [55296 + (c - 65536) / 1024; 56320 + (c - 65536) mod 1024].
(** one character of a string: the escapes of serde_json (format_escaped_str_contents with the
    default write_char_escape; characters below 32, the quote and the backslash) and
    PythonDefaultFormatter::write_string_fragment for what is between them, lib.rs:701-723 *)
Definition write_char (c : N) : list N :=
  if c =? 34 then [92; 34]
  else if c =? 92 then [92; 92]
  else if c =? 8 then [92; 98]
  else if c =? 12 then [92; 102]
  else if c =? 10 then [92; 110]
  else if c =? 13 then [92; 114]
  else if c =? 9 then [92; 116]
  else if c <? 32 then [92; 117; 48; 48; hex_digit (c / 16); hex_digit (c mod 16)]
  else if c <? 128 then [c]
  else flat_map (fun u => [92; 117] ++ hex4 u) (utf16 c).
Definition write_string (s : str) : list N := [34] ++ flat_map write_char s ++ [34].

(** serde_json::Serializer with PythonDefaultFormatter, lib.rs:668-724: ", " between items and ": "
    after a key *)
Fixpoint write (v : json) : list N :=
  match v with
  | JNull => text "null"
  | JBool true => text "true"
  | JBool false => text "false"
  | JNumber t => t
  | JString s => write_string s
  | JArray l =>
      text "[" ++
      (fix items (first : bool) (l : list json) : list N :=
         match l with
         | [] => []
         | x :: l' => (if first then [] else text ", ") ++ write x ++ items false l'
         end) true l ++
      text "]"
  | JObject l =>
      text "{" ++
      (fix items (first : bool) (l : list (str * json)) : list N :=
         match l with
         | [] => []
         | (k, x) :: l' =>
             (if first then [] else text ", ") ++ write_string k ++ text ": " ++ write x ++
             items false l'
         end) true l ++
      text "}"
  end.

(** ---- definitions of classes ---- *)

(** HashMap<EntryPointType, Vec<_>> *)
Record by_type (A : Type) := ByType {
  bt_external : option (list A); bt_l1_handler : option (list A); bt_constructor : option (list A) }.
Arguments ByType {A}. Arguments bt_external {A}. Arguments bt_l1_handler {A}.
Arguments bt_constructor {A}.
(** SelectorAndOffset and SelectorAndFunctionIndex, common/src/class_definition.rs:157-164 and
    207-213: the selector, and the offset (a felt) or the index (a u64) *)
Definition entry_point := (felt * N)%type.

(** CairoProgram, lib.rs:795-833; debug_info is the text of it *)
Record program := Program {
  p_attributes : list json; p_builtins : list str; p_compiler : option str; p_data : list str;
  p_debug : option (list N); p_hints : list (N * list json); p_identifiers : json;
  p_main_scope : str; p_prime : str; p_references : json }.
(** CairoContractDefinition, lib.rs:777-793 *)
Record cairo := Cairo { ca_abi : json; ca_program : program; ca_entries : by_type entry_point }.
(** SierraContractDefinition, lib.rs:742-759 *)
Record sierra := Sierra {
  si_abi : str; si_program : list felt; si_version : str; si_entries : by_type entry_point }.

(** the derived Serialize of the two structs: fields in their order, those with
    skip_serializing_if left out, without the entry points; keys of a map of u64 are decimal *)
Definition decimal (n : N) : str := map (fun d => d + 48) (min_digits 10 n).
Definition program_json (p : program) : json :=
  JObject
    ((match p_attributes p with [] => [] | l => [(text "attributes", JArray l)] end) ++
     [(text "builtins", JArray (map JString (p_builtins p)))] ++
     (match p_compiler p with None => [] | Some s => [(text "compiler_version", JString s)] end) ++
     [(text "data", JArray (map JString (p_data p)));
      (text "debug_info", match p_debug p with None => JNull | Some t => JNumber t end);
      (text "hints", JObject (map (fun h => (decimal (fst h), JArray (snd h))) (p_hints p)));
      (text "identifiers", p_identifiers p);
      (text "main_scope", JString (p_main_scope p));
      (text "prime", JString (p_prime p));
      (text "reference_manager", p_references p)]).
Definition cairo_json (d : cairo) : json :=
  JObject [(text "abi", ca_abi d); (text "program", program_json (ca_program d))].

(** ---- preparation, lib.rs:446-545 ---- *)

Definition str_eqb (a b : str) : bool := if list_eq_dec N.eq_dec a b then true else false.
(** BTreeMap::get_mut and remove *)
Fixpoint find (k : str) (l : list (str * json)) : option json :=
  match l with
  | [] => None
  | (k', v) :: l' => if str_eqb k' k then Some v else find k l'
  end.
Definition remove (k : str) (l : list (str * json)) : list (str * json) :=
  filter (fun e => negb (str_eqb (fst e) k)) l.

(** the closure of lib.rs:464-487 *)
Definition prepare_attribute (a : json) : outcome json :=
  match a with
  | JObject vals =>
      do vals <-
        match find (text "accessible_scopes") vals with
        | Some (JArray []) => Ok (remove (text "accessible_scopes") vals)
        | Some (JArray _) => Ok vals
        | Some _ => Err
        | None => Ok vals
        end;
      match find (text "flow_tracking_data") vals with
      | Some JNull => Ok (JObject (remove (text "flow_tracking_data") vals))
      | _ => Ok (JObject vals)
      end
  | _ => Err
  end.
(** try_for_each, lib.rs:460-488 *)
Fixpoint prepare_attributes (l : list json) : outcome (list json) :=
  match l with
  | [] => Ok []
  | a :: l' => do a' <- prepare_attribute a; do r <- prepare_attributes l'; Ok (a' :: r)
  end.

(** str::replace: the occurrences of [pat] from left to right, without overlaps; [skip] characters
    are part of the last one *)
Fixpoint starts (pat s : str) : bool :=
  match pat, s with
  | [], _ => true
  | a :: pat', c :: s' => (a =? c) && starts pat' s'
  | _ :: _, [] => false
  end.
Fixpoint replace_from (pat by_ : str) (skip : nat) (s : str) : str :=
  match s with
  | [] => []
  | c :: s' =>
      match skip with
      | S k => replace_from pat by_ k s'
      | O => if starts pat s then by_ ++ replace_from pat by_ (length pat - 1) s'
             else c :: replace_from pat by_ 0 s'
      end
  end.
Definition replace (pat by_ s : str) : str := replace_from pat by_ 0 s.

(** add_extra_space_before_colon, lib.rs:529-533 *)
Definition add_extra_space_before_colon (s : str) : str :=
  replace (text "  :") (text " :") (replace (text ": ") (text " : ") s).
(** add_extra_space_to_named_tuple_type_definition, lib.rs:518-527 *)
Definition spaced_entry (k s : str) : str :=
  if str_eqb k (text "cairo_type") || str_eqb k (text "value")
  then add_extra_space_before_colon s else s.
(** add_extra_space_to_cairo_named_tuples, walk_array and walk_map, lib.rs:490-516 *)
Fixpoint add_extra_space (v : json) : json :=
  match v with
  | JArray l => JArray (map add_extra_space l)
  | JObject l =>
      JObject (map (fun e => match e with
                             | (k, JString s) => (k, JString (spaced_entry k s))
                             | (k, x) => (k, add_extra_space x)
                             end) l)
  | _ => v
  end.

(** prepare_json_contract_definition, lib.rs:446-545 *)
Definition prepare (d : cairo) : outcome cairo :=
  let p := ca_program d in
  do attributes <- prepare_attributes (p_attributes p);
  let fix_ := match p_compiler p with None => add_extra_space | Some _ => fun v => v end in
  Ok (Cairo (ca_abi d)
        (Program attributes (p_builtins p) (p_compiler p) (p_data p) None (p_hints p)
                 (fix_ (p_identifiers p)) (p_main_scope p) (p_prime p) (fix_ (p_references p)))
        (ca_entries d)).

Section Hashes.
  Variable pedersen : felt -> felt -> felt.
  Variable poseidon : list felt -> felt.
  Variable keccak : list N -> list N.

  (** truncated_keccak, lib.rs:637-642; [None] is the panic of the expect *)
  Definition truncated_keccak (plain : list N) : option felt :=
    match plain with
    | [] => None
    | b :: bs =>
        match FeltModel.from_be_bytes (N.land b 3 :: bs) with
        | FeltModel.Ok f => Some (rval 256 f)
        | FeltModel.Err _ => None
        end
    end.
  Definition keccak_felt (bytes : list N) : outcome felt := or_panic (truncated_keccak (keccak bytes)).

  (** compute_cairo_hinted_class_hash, lib.rs:134-160 *)
  Definition cairo_hinted_hash (d : cairo) : outcome felt := keccak_felt (write (cairo_json d)).

  (** .get(key).unwrap_or(&Vec::new()), flattened, lib.rs:363-372 and 579-588 *)
  Definition flattened (l : option (list entry_point)) : list felt :=
    flat_map (fun e => [fst e; snd e]) (match l with Some l => l | None => [] end).
  (** HashChain over a list *)
  Definition chain_of (l : list felt) : outcome felt := or_panic (hash_chain pedersen l).

  (** the builtins as felts, lib.rs:385-396, and the bytecodes, 402-412 *)
  Fixpoint felts_of (f : list N -> option felt) (l : list str) : outcome (list felt) :=
    match l with
    | [] => Ok []
    | s :: l' => do x <- or_err (f (utf8 s)); do r <- felts_of f l'; Ok (x :: r)
    end.
  Definition builtin_felt (bs : list N) : option felt :=
    match FeltModel.from_be_slice bs with FeltModel.Ok f => Some (rval 256 f) | _ => None end.
  Definition bytecode_felt (bs : list N) : option felt :=
    match FeltModel.from_hex_str bs with FeltModel.Ok f => Some (rval 256 f) | _ => None end.

  (** compute_cairo_class_hash, lib.rs:334-418 *)
  Definition compute_cairo_class_hash (d : cairo) : outcome felt :=
    do d <- prepare d;
    do hinted <- cairo_hinted_hash d;
    do external <- chain_of (flattened (bt_external (ca_entries d)));
    do l1_handler <- chain_of (flattened (bt_l1_handler (ca_entries d)));
    do constructor <- chain_of (flattened (bt_constructor (ca_entries d)));
    do builtins <- felts_of builtin_felt (p_builtins (ca_program d));
    do builtins <- chain_of builtins;
    do bytecodes <- felts_of bytecode_felt (p_data (ca_program d));
    do bytecodes <- chain_of bytecodes;
    chain_of [0; external; l1_handler; constructor; builtins; hinted; bytecodes].

  (** compute_sierra_class_hash, lib.rs:557-619 *)
  Definition compute_sierra_class_hash (d : sierra) : outcome felt :=
    if negb (str_eqb (si_version d) (text "0.1.0")) then Err
    else
      do abi <- keccak_felt (utf8 (si_abi d));
      Ok (poseidon
            [ rval 256 (text "CONTRACT_CLASS_V0.1.0");
              poseidon (flattened (bt_external (si_entries d)));
              poseidon (flattened (bt_l1_handler (si_entries d)));
              poseidon (flattened (bt_constructor (si_entries d)));
              abi;
              poseidon (si_program d) ]).

  (** compute_class_hash, lib.rs:96-131, with parse_contract_definition, 166-178; the two parsers
      are serde_json's on the types above.  The bytes are kept with the kind of the definition. *)
  Inductive kind : Type := IsCairo | IsSierra.
  Definition compute_class_hash (parse_sierra : list N -> option sierra)
    (parse_cairo : list N -> option cairo) (bytes : list N) : outcome (kind * felt * list N) :=
    match parse_sierra bytes with
    | Some d => do h <- compute_sierra_class_hash d; Ok (IsSierra, h, bytes)
    | None =>
        match parse_cairo bytes with
        | Some d => do h <- compute_cairo_class_hash d; Ok (IsCairo, h, bytes)
        | None => Err
        end
    end.
End Hashes.
