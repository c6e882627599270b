(* Vocabulary for C01-C03, in terms of plain numbers. *)
From Coq Require Import List Arith NArith Bool.
From Verif Require Import Radix FeltModel.
Import ListNotations.
Local Open Scope N_scope.

(* The Starknet field prime, as in the doc comment felt.rs:15. *)
Definition P : N := 2 ^ 251 + 17 * 2 ^ 192 + 1.

Definition is_bytes (b : bytes) : Prop := Forall (fun x => x < 256) b.

(* The number a byte string denotes, most significant byte first. *)
Fixpoint be_value (b : bytes) : N :=
  match b with
  | [] => 0
  | x :: b' => x * 256 ^ N.of_nat (length b') + be_value b'
  end.

(* A 32-byte value in the field. *)
Definition canonical (f : felt) : Prop :=
  length f = 32%nat /\ is_bytes f /\ be_value f < P.

(* The felt of a number. *)
Definition denotes (f : felt) (n : N) : Prop := canonical f /\ be_value f = n.

(* Numeral systems: the value of a digit character. *)
Inductive hex_digit : N -> N -> Prop :=
| hex_09 : forall d, d < 10 -> hex_digit (48 + d) d
| hex_af : forall d, 10 <= d < 16 -> hex_digit (97 + (d - 10)) d
| hex_AF : forall d, 10 <= d < 16 -> hex_digit (65 + (d - 10)) d.

(* "0x" followed by hex digits spells n *)
Inductive hex_spells : bytes -> N -> Prop :=
| spells_nil : hex_spells [] 0
| spells_snoc : forall s n c d, hex_spells s n -> hex_digit c d -> hex_spells (s ++ [c]) (16 * n + d).

(* Decimal digits with optional '_' separators after the first digit, and an
   optional leading '+'. *)
Inductive dec_spells : bytes -> N -> Prop :=
| dec_first : forall d, d < 10 -> dec_spells [48 + d] d
| dec_snoc : forall s n d, dec_spells s n -> d < 10 -> dec_spells (s ++ [48 + d]) (10 * n + d)
| dec_sep : forall s n, dec_spells s n -> dec_spells (s ++ [95]) n.

Definition is_ok {A E} (r : result A E) : Prop := exists a, r = Ok a.
Definition is_err {A E} (r : result A E) : Prop := exists e, r = Err e.

(* The number a bit string denotes, most significant bit first. *)
Fixpoint bits_value (bs : list bool) : N :=
  match bs with
  | [] => 0
  | b :: bs' => (if b then 2 ^ N.of_nat (length bs') else 0) + bits_value bs'
  end.
