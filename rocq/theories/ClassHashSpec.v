(** Vocabulary for C78: what a class hash is of. *)
From Coq Require Import List Bool Arith NArith.
From Verif Require Import Radix MerkleModel HashModel CommitModel CommitSpec ClassHashModel.
From Verif Require FeltSpec.
Import ListNotations.
Local Open Scope N_scope.

(** ---- JSON ---- *)

(** Unicode scalar values, the values of char *)
Definition scalar (c : N) : Prop := c < 55296 \/ 57344 <= c < 1114112.
(** a number is made of digits, signs, a point and an exponent *)
Definition number_char (c : N) : Prop := In c (text "0123456789+-.eE").
Definition number_text (t : list N) : Prop := t <> [] /\ Forall number_char t.

(** [num] holds of all numbers of a value and [q] of all its strings, keys among them *)
Section All.
  Variable num : list N -> Prop.
  Variable q : str -> Prop.
  Fixpoint json_all (v : json) : Prop :=
    match v with
    | JNull | JBool _ => True
    | JNumber t => num t
    | JString s => q s
    | JArray l =>
        (fix all (l : list json) : Prop :=
           match l with [] => True | x :: l' => json_all x /\ all l' end) l
    | JObject l =>
        (fix all (l : list (str * json)) : Prop :=
           match l with [] => True | (k, x) :: l' => q k /\ json_all x /\ all l' end) l
    end.
  (** ... of a definition *)
  Definition cairo_all (d : cairo) : Prop :=
    let p := ca_program d in
    json_all (ca_abi d) /\ Forall json_all (p_attributes p) /\ Forall q (p_builtins p) /\
    match p_compiler p with Some s => q s | None => True end /\ Forall q (p_data p) /\
    Forall (fun h => Forall json_all (snd h)) (p_hints p) /\ json_all (p_identifiers p) /\
    q (p_main_scope p) /\ q (p_prime p) /\ json_all (p_references p).
End All.

(** what json.dumps of Python writes, with its defaults: a character that is not printable ASCII is
    escaped, by four hexadecimal digits or twice that *)
Definition py_unit (u : N) : list N :=
  text "\u" ++ map (fun d => if d <? 10 then 48 + d else 87 + d) (rdigits 16 4 u).
Definition py_char (c : N) : list N :=
  if c =? 34 then [92; 34]
  else if c =? 92 then text "\\"
  else if c =? 10 then text "\n"
  else if c =? 13 then text "\r"
  else if c =? 9 then text "\t"
  else if c =? 12 then text "\f"
  else if c =? 8 then text "\b"
  else if (32 <=? c) && (c <=? 126) then [c]
  else if c <? 65536 then py_unit c
  else py_unit (55296 + (c - 65536) / 1024) ++ py_unit (56320 + (c - 65536) mod 1024).
Definition py_string (s : str) : list N := [34] ++ flat_map py_char s ++ [34].
Definition joined (l : list (list N)) : list N :=
  match l with [] => [] | x :: l' => x ++ flat_map (fun y => text ", " ++ y) l' end.
Fixpoint py_dumps (v : json) : list N :=
  match v with
  | JNull => text "null"
  | JBool b => if b then text "true" else text "false"
  | JNumber t => t
  | JString s => py_string s
  | JArray l => text "[" ++ joined (map py_dumps l) ++ text "]"
  | JObject l =>
      text "{" ++ joined (map (fun e => py_string (fst e) ++ text ": " ++ py_dumps (snd e)) l) ++
      text "}"
  end.
(** characters that are no trouble: ASCII without DEL, and from U+1000 on *)
Definition plain_char (c : N) : Prop := c < 127 \/ 4096 <= c.
Definition plain (d : cairo) : Prop := cairo_all (fun _ => True) (Forall plain_char) d.

(** ---- what of a Cairo 0 class is covered ---- *)

(** an attribute without the entries that older compilers did not write *)
Definition old_entry (e : str * json) : bool :=
  match e with
  | (k, JArray []) => str_eqb k (text "accessible_scopes")
  | (k, JNull) => str_eqb k (text "flow_tracking_data")
  | _ => false
  end.
Definition covered_attribute (a : json) : json :=
  match a with
  | JObject l => JObject (filter (fun e => negb (old_entry e)) l)
  | v => v
  end.
(** an attribute must be an object whose accessible_scopes, if any, are an array *)
Definition attribute_ok (a : json) : Prop :=
  exists l, a = JObject l /\
    forall v, In (text "accessible_scopes", v) l -> exists scopes, v = JArray scopes.

(** a type in the form of older compilers, with a space before each colon that has one behind it:
    [k] spaces come before the rest of the text.  (Of two spaces or more before any other colon one
    is left out.) *)
Fixpoint old_type (k : nat) (s : str) : str :=
  match s with
  | [] => repeat 32 k
  | c :: s' =>
      if c =? 32 then old_type (S k) s'
      else if c =? 58 then
        repeat 32 (match s' with
                   | 32 :: _ => Nat.max 1 k
                   | _ => if (2 <=? k)%nat then k - 1 else k
                   end) ++ 58 :: old_type 0 s'
      else repeat 32 k ++ c :: old_type 0 s'
  end.
(** ... in the entries cairo_type and value of all objects *)
Fixpoint old_types (v : json) : json :=
  match v with
  | JArray l => JArray (map old_types l)
  | JObject l =>
      JObject (map (fun e =>
                      let '(k, x) := e in
                      (k, match x with
                          | JString s =>
                              if str_eqb k (text "cairo_type") || str_eqb k (text "value")
                              then JString (old_type 0 s) else x
                          | _ => old_types x
                          end)) l)
  | _ => v
  end.

(** no entry points of a type are as good as an empty list of them *)
Definition listed (l : option (list entry_point)) : list entry_point :=
  match l with Some l => l | None => [] end.
(** everything that is covered: all but the debug info, in the old form where no version of the
    compiler is given *)
Definition covered (d : cairo) : cairo :=
  let p := ca_program d in
  let old v := match p_compiler p with None => old_types v | Some _ => v end in
  Cairo (ca_abi d)
    (Program (map covered_attribute (p_attributes p)) (p_builtins p) (p_compiler p) (p_data p) None
             (p_hints p) (old (p_identifiers p)) (p_main_scope p) (p_prime p) (old (p_references p)))
    (ByType (Some (listed (bt_external (ca_entries d)))) (Some (listed (bt_l1_handler (ca_entries d))))
            (Some (listed (bt_constructor (ca_entries d))))).

(** the document that is hashed, with its keys in alphabetical order: the ABI and the program,
    without entry points *)
Definition document (d : cairo) : json :=
  let p := ca_program d in
  let when (b : bool) (l : list (str * json)) := if b then l else [] in
  JObject
    [ (text "abi", ca_abi d);
      (text "program", JObject
        (when (negb (length (p_attributes p) =? 0)%nat) [(text "attributes", JArray (p_attributes p))] ++
         [(text "builtins", JArray (map JString (p_builtins p)))] ++
         match p_compiler p with Some s => [(text "compiler_version", JString s)] | None => [] end ++
         [ (text "data", JArray (map JString (p_data p)));
           (text "debug_info", JNull);
           (text "hints", JObject (map (fun h => (decimal (fst h), JArray (snd h))) (p_hints p)));
           (text "identifiers", p_identifiers p);
           (text "main_scope", JString (p_main_scope p));
           (text "prime", JString (p_prime p));
           (text "reference_manager", p_references p) ])) ].

(** the number that the name of a builtin is, and that a bytecode spells *)
Definition builtin_number (s : str) : N := rval 256 (utf8 s).
Definition builtin_ok (s : str) : Prop := (length (utf8 s) <= 32)%nat /\ builtin_number s < P.
Definition digit_value (c : N) : N :=
  if c <? 58 then c - 48 else if c <? 71 then c - 55 else c - 87.
Definition bytecode_number (s : str) : N := rval 16 (map digit_value (skipn 2 s)).
Definition bytecode_ok (s : str) : Prop :=
  exists digits n, s = text "0x" ++ digits /\ (length digits <= 64)%nat /\
    FeltSpec.hex_spells digits n /\ n < P.

(** a definition that has a class hash *)
Definition accepted (d : cairo) : Prop :=
  Forall attribute_ok (p_attributes (ca_program d)) /\
  Forall builtin_ok (p_builtins (ca_program d)) /\ Forall bytecode_ok (p_data (ca_program d)).

(** a definition as serde_json parses it: keys of attributes are distinct *)
Definition cairo_ok (d : cairo) : Prop :=
  cairo_all number_text (Forall scalar) d /\
  Forall (fun a => forall l, a = JObject l -> NoDup (map fst l)) (p_attributes (ca_program d)).
(** lists fit into the memory of a 64-bit machine (with some room) *)
Definition entries_fit (e : by_type entry_point) : Prop :=
  len (listed (bt_external e)) < 2 ^ 59 /\ len (listed (bt_l1_handler e)) < 2 ^ 59 /\
  len (listed (bt_constructor e)) < 2 ^ 59.
Definition cairo_fits (d : cairo) : Prop :=
  entries_fit (ca_entries d) /\ len (p_builtins (ca_program d)) < 2 ^ 60 /\
  len (p_data (ca_program d)) < 2 ^ 60.

Definition selectors (l : option (list entry_point)) : list felt :=
  flat_map (fun e => [fst e; snd e]) (listed l).

Section Hashes.
  Variable pedersen : felt -> felt -> felt.
  Variable poseidon2 : felt -> felt -> felt.
  Variable poseidon : list felt -> felt.
  Variable keccak : list N -> list N.
  Notation chain := (chain_value pedersen).
  (** Keccak-256 without its six most significant bits *)
  Definition keccak_value (bytes : list N) : felt := rval 256 (keccak bytes) mod 2 ^ 250.

  Definition cairo_words (doc : list N) (d : cairo) : list felt :=
    [ 0; chain (selectors (bt_external (ca_entries d))); chain (selectors (bt_l1_handler (ca_entries d)));
      chain (selectors (bt_constructor (ca_entries d)));
      chain (map builtin_number (p_builtins (ca_program d))); keccak_value doc;
      chain (map bytecode_number (p_data (ca_program d))) ].
  Definition sierra_words (d : sierra) : list felt :=
    [ rval 256 (text "CONTRACT_CLASS_V0.1.0"); poseidon (selectors (bt_external (si_entries d)));
      poseidon (selectors (bt_l1_handler (si_entries d)));
      poseidon (selectors (bt_constructor (si_entries d))); keccak_value (utf8 (si_abi d));
      poseidon (si_program d) ].

  (** the hash computations of a class hash *)
  Definition cairo_calls (d : cairo) : list call :=
    let doc := write (document (covered d)) in
    chain_calls pedersen (selectors (bt_external (ca_entries d))) ++
    chain_calls pedersen (selectors (bt_l1_handler (ca_entries d))) ++
    chain_calls pedersen (selectors (bt_constructor (ca_entries d))) ++
    [KeccakCall doc] ++ chain_calls pedersen (cairo_words doc d).
  Definition sierra_calls (d : sierra) : list call :=
    [ PoseidonList (selectors (bt_external (si_entries d)));
      PoseidonList (selectors (bt_l1_handler (si_entries d)));
      PoseidonList (selectors (bt_constructor (si_entries d)));
      KeccakCall (utf8 (si_abi d)); PoseidonList (si_program d); PoseidonList (sierra_words d) ].
End Hashes.
