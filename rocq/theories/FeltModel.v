(* Model of the byte-level felt type, crates/crypto/src/algebra/field/felt.rs.

   A felt is its 32 big-endian bytes; bytes and characters are N values below 256.
   Text is the list of its UTF-8 bytes.  Arithmetic (through Montgomery form) is
   modelled in MontModel.v. *)
From Coq Require Import List Arith NArith Bool.
From Verif Require Import Radix.
Import ListNotations.
Local Open Scope N_scope.

Definition bytes := list N.

(* struct Felt([u8; 32]), felt.rs:18 *)
Definition felt := bytes.

(* MODULUS_U64, felt.rs:20 (most significant limb first) *)
Definition MODULUS_U64 : list N := [576460752303423505; 0; 0; 1].

(* Felt::ZERO, felt.rs:79 *)
Definition ZERO : felt := repeat 0 32.

Inductive result (A E : Type) := Ok (a : A) | Err (e : E).
Arguments Ok {A E} a.
Arguments Err {A E} e.

Inductive overflow := OverflowError.

(* ---- bytes ---- *)

(* u64::from_be_bytes of bytes[8i .. 8i+8], felt.rs:139-156 *)
Definition limb (i : nat) (b : bytes) : N := rval 256 (firstn 8 (skipn (8 * i) b)).

Definition limbs (b : bytes) : list N := map (fun i => limb i b) [0; 1; 2; 3]%nat.

(* the loop of felt.rs:160-174: true when the value is accepted *)
Fixpoint below_modulus (ls ms : list N) : bool :=
  match ls, ms with
  | l :: ls', m :: ms' =>
      if l <? m then true else if m <? l then false else below_modulus ls' ms'
  | _, _ => false
  end.

(* Felt::from_be_bytes, felt.rs:137-175 *)
Definition from_be_bytes (b : bytes) : result felt overflow :=
  if below_modulus (limbs b) MODULUS_U64 then Ok b else Err OverflowError.

(* buf[i] = x on an array *)
Fixpoint set_nth (i : nat) (x : N) (b : bytes) : bytes :=
  match b, i with
  | [], _ => []
  | _ :: b', O => x :: b'
  | y :: b', S i' => y :: set_nth i' x b'
  end.

(* the copy loop of felt.rs:116-124; [index] counts up, [n] iterations remain *)
Fixpoint copy_loop (n index : nat) (src buf : bytes) : bytes :=
  match n with
  | O => buf
  | S n' =>
      copy_loop n' (S index) src
        (set_nth (32 - length src + index) (nth index src 0) buf)
  end.

(* Felt::from_be_slice, felt.rs:111-127 *)
Definition from_be_slice (b : bytes) : result felt overflow :=
  if Nat.ltb 32 (length b) then Err OverflowError
  else from_be_bytes (copy_loop (length b) 0 b ZERO).

(* Felt::to_le_bytes, felt.rs:93-97 *)
Definition to_le_bytes (f : felt) : bytes := rev f.

(* u64::to_be_bytes / u128::to_be_bytes *)
Definition int_be_bytes (width : nat) (n : N) : bytes := rdigits 256 width n.

(* Felt::from_u64 and from_u128, felt.rs:202-214: the const_expect panics on Err;
   None is that panic. *)
Definition from_uint (width : nat) (n : N) : option felt :=
  match from_be_slice (int_be_bytes width n) with
  | Ok f => Some f
  | Err _ => None
  end.
Definition from_u64 (n : N) : option felt := from_uint 8 n.
Definition from_u128 (n : N) : option felt := from_uint 16 n.

(* self.0.iter().take_while(|b| **b == 0).count(), felt.rs:258 and 276 *)
Fixpoint leading_zeros (b : bytes) : nat :=
  match b with
  | x :: b' => if x =? 0 then S (leading_zeros b') else O
  | [] => O
  end.

(* TryInto<u128> (felt.rs:254-270) and TryInto<u64> (felt.rs:272-287) *)
Definition try_into (width : nat) (f : felt) : result N overflow :=
  let expected_zeroes := (32 - width)%nat in
  if Nat.ltb (leading_zeros f) expected_zeroes then Err OverflowError
  else Ok (rval 256 (skipn expected_zeroes f)).
Definition try_into_u64 (f : felt) := try_into 8 f.
Definition try_into_u128 (f : felt) := try_into 16 f.

(* ---- bits ---- *)

(* bitvec Msb0 view of a byte: most significant bit first *)
Definition byte_bits (x : N) : list bool :=
  map (fun i => N.testbit x i) [7; 6; 5; 4; 3; 2; 1; 0].

(* Felt::view_bits, felt.rs:178-180 *)
Definition view_bits (f : felt) : list bool := skipn 5 (flat_map byte_bits f).

(* bytes of a bit string whose length is a multiple of 8 *)
Definition bit (b : bool) : N := if b then 1 else 0.
Fixpoint pack_bits (n : nat) (bs : list bool) : bytes :=
  match n with
  | O => []
  | S n' => rval 2 (map bit (firstn 8 bs)) :: pack_bits n' (skipn 8 bs)
  end.

(* Felt::from_bits, felt.rs:183-192: the bits are copied to the end of a zeroed
   256-bit view. *)
Definition from_bits (bs : list bool) : result felt overflow :=
  if Nat.ltb 251 (length bs) then Err OverflowError
  else Ok (pack_bits 32 (repeat false (256 - length bs) ++ bs)).

(* Felt::has_more_than_251_bits, felt.rs:198-200 *)
Definition has_more_than_251_bits (f : felt) : bool :=
  0 <? N.land (nth 0 f 0) 248.

(* ---- hexadecimal text ---- *)

(* parse_hex_digit, felt.rs:331-338 *)
Definition parse_hex_digit (c : N) : option N :=
  if (48 <=? c) && (c <=? 57) then Some (c - 48)
  else if (65 <=? c) && (c <=? 70) then Some (c - 65 + 10)
  else if (97 <=? c) && (c <=? 102) then Some (c - 97 + 10)
  else None.

(* HexParseError, felt.rs:495-500 *)
Inductive hex_error :=
| InvalidNibble (c : N) | InvalidLength (actual : nat) | MissingPrefix | HexOverflow.

(* the while loop of felt.rs:366-380; [n] iterations remain.  [upper << 4 | lower]
   of two nibbles is written as in the source. *)
Fixpoint hex_loop (n chunk : nat) (s buf : bytes) : result bytes hex_error :=
  match n with
  | O => Ok buf
  | S n' =>
      let lc := nth (length s - chunk * 2 - 1) s 0 in
      match parse_hex_digit lc with
      | None => Err (InvalidNibble lc)
      | Some lower =>
          let uc := nth (length s - chunk * 2 - 2) s 0 in
          match parse_hex_digit uc with
          | None => Err (InvalidNibble uc)
          | Some upper =>
              hex_loop n' (S chunk) s
                (set_nth (31 - chunk) (N.lor (N.shiftl upper 4) lower) buf)
          end
      end
  end.

(* Felt::from_hex_str, felt.rs:330-387 *)
Definition from_hex_str (s : bytes) : result felt hex_error :=
  match s with
  | 48 :: 120 :: rest =>
      let len := length rest in
      if Nat.ltb 64 len then Err (InvalidLength len)
      else
        let start :=
          if Nat.odd len then
            match parse_hex_digit (nth 2 s 0) with
            | Some b => Ok (set_nth (31 - Nat.div2 len) b ZERO)
            | None => Err (InvalidNibble (nth 2 s 0))
            end
          else Ok ZERO in
        match start with
        | Err e => Err e
        | Ok buf =>
            match hex_loop (Nat.div2 len) 0 s buf with
            | Err e => Err e
            | Ok buf' =>
                match from_be_bytes buf' with
                | Ok f => Ok f
                | Err _ => Err HexOverflow
                end
            end
        end
  | _ => Err MissingPrefix
  end.

(* LUT, felt.rs:409 *)
Definition LUT : bytes := text "0123456789abcdef".

(* it_to_hex_str, felt.rs:403-420, writing the bytes of [it] from position [pos] *)
Fixpoint hex_write (it : bytes) (pos : nat) (buf : bytes) : bytes :=
  match it with
  | [] => buf
  | b :: it' =>
      hex_write it' (pos + 2)
        (set_nth (S pos) (nth (N.to_nat (N.land b 15)) LUT 0)
          (set_nth pos (nth (N.to_nat (N.shiftr (N.land b 240) 4)) LUT 0) buf))
  end.

(* buf[0] = '0', the loop, buf[1] = 'x', &buf[..len] *)
Definition it_to_hex_str (it : bytes) (start len : nat) (buf : bytes) : bytes :=
  firstn len (set_nth 1 120 (hex_write it start (set_nth 0 48 buf))).

(* self.0.iter().skip_while(|&&b| b == 0) *)
Fixpoint skip_zero_bytes (b : bytes) : bytes :=
  match b with
  | x :: b' => if x =? 0 then skip_zero_bytes b' else b
  | [] => []
  end.

(* skip_zeros, felt.rs:390-400 *)
Definition skip_zeros (f : felt) : bytes * nat * nat :=
  let it := skip_zero_bytes f in
  let num_bytes := length it in
  let skipped := (length f - num_bytes)%nat in
  let start := if nth skipped f 0 <? 16 then 1%nat else 2%nat in
  let len := (start + num_bytes * 2)%nat in
  (it, start, len).

(* Felt::to_hex_str, felt.rs:446-455 *)
Definition to_hex_str (f : felt) : bytes :=
  if negb (existsb (fun b => negb (b =? 0)) f) then text "0x0"
  else let '(it, start, len) := skip_zeros f in
       it_to_hex_str it start len (repeat 0 len).

(* Felt::as_hex_str, felt.rs:425-442; None is the assert's panic. *)
Definition as_hex_str (f : felt) (buf : bytes) : option bytes :=
  if Nat.ltb (length buf) (length f * 2 + 2) then None
  else if negb (existsb (fun b => negb (b =? 0)) f) then Some (text "0x0")
  else let '(it, start, len) := skip_zeros f in
       Some (it_to_hex_str it start len buf).

(* write!(f, "{b:02X}") for each byte, felt.rs:41-45, after "0x" (felt.rs:28-33) *)
Definition UPPER : bytes := text "0123456789ABCDEF".
Definition display (f : felt) : bytes :=
  text "0x" ++ flat_map (fun b => map (fun d => nth (N.to_nat d) UPPER 0) (split_digit 16 b)) f.

(* ---- decimal text ---- *)

(* BigUint::from_str of the num-bigint crate (external, not in /repo), radix 10:
   one optional '+' (not followed by another), at least one character, not starting
   with '_', decimal digits with '_' ignored. *)
Fixpoint big_digits (s : bytes) : option (list N) :=
  match s with
  | [] => Some []
  | c :: s' =>
      if c =? 95 then big_digits s'
      else if (48 <=? c) && (c <=? 57) then
        match big_digits s' with Some l => Some (c - 48 :: l) | None => None end
      else None
  end.

Definition strip_plus (s : bytes) : bytes :=
  match s with
  | c :: t =>
      if (c =? 43) && negb (match t with c1 :: _ => c1 =? 43 | [] => false end) then t else s
  | [] => s
  end.

Definition biguint_from_str (s : bytes) : option N :=
  match strip_plus s with
  | [] => None
  | c :: t =>
      if c =? 95 then None
      else match big_digits (c :: t) with Some l => Some (rval 10 l) | None => None end
  end.

(* BigUint::to_bytes_be (external): minimal big-endian bytes, [0] for zero. *)
Definition biguint_to_bytes_be (n : N) : bytes := min_digits 256 n.

(* Felt::from_biguint, felt.rs:461-463 *)
Definition from_biguint (n : N) : result felt overflow := from_be_slice (biguint_to_bytes_be n).

Inductive dec_error := ParseBigInt | DecOverflow.

(* Felt::from_dec_str, felt.rs:469-480 *)
Definition from_dec_str (s : bytes) : result felt dec_error :=
  match from_hex_str s with
  | Ok h => Ok h
  | Err _ =>
      match biguint_from_str s with
      | None => Err ParseBigInt
      | Some b =>
          match from_biguint b with
          | Ok f => Ok f
          | Err _ => Err DecOverflow
          end
      end
  end.

(* Felt::to_dec_str, felt.rs:486-490; BigUint::to_str_radix(10) is external:
   decimal digits without leading zeros. *)
Definition to_dec_str (f : felt) : bytes :=
  map (fun d => d + 48) (min_digits 10 (rval 256 f)).
