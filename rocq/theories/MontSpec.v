(* Vocabulary for C04, C05 and C54, in terms of plain integers modulo the field's prime. *)
From Coq Require Import ZArith.
From Verif Require Import MontModel.
Local Open Scope Z_scope.

(* The field primes, written out. *)
Definition base_prime : Z := 2 ^ 251 + 17 * 2 ^ 192 + 1.
Definition curve_order : Z :=
  3618502788666131213697322783095070105526743751716087489154079457884512865583.

(* The two instances of the code, each with the modulus it is meant for. *)
Inductive is_field : field -> Z -> Prop :=
| is_base : is_field base_field base_prime
| is_scalar : is_field scalar_field curve_order.

(* A u64 array, and the number it spells, least significant limb first. *)
Definition u64 (x : Z) : Prop := 0 <= x < 2 ^ 64.
Definition u64s (a : limbs) : Prop := u64 (l0 a) /\ u64 (l1 a) /\ u64 (l2 a) /\ u64 (l3 a).
Definition value (a : limbs) : Z := l0 a + 2 ^ 64 * l1 a + 2 ^ 128 * l2 a + 2 ^ 192 * l3 a.

(* a is the Montgomery form, with factor 2^256, of the residue n modulo p. *)
Definition represents (p : Z) (a : limbs) (n : Z) : Prop :=
  u64s a /\ 0 <= n < p /\ value a = (n * 2 ^ 256) mod p.
