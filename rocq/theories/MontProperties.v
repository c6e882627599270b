(* C04, C05, C54: Montgomery arithmetic, its conversions, powers and square roots.
   Every theorem holds for the base field and for the scalar field (is_field),
   and for the const and non-const versions of each operation. *)
From Coq Require Import List ZArith NArith Znumtheory Bool Lia.
From Verif Require Import Radix FeltModel FeltSpec FeltProof MontModel MontSpec MontProof
  MontOpsProof NumTheory MontRootProof MontBytesProof MontPrimes.
Import ListNotations.
Local Open Scope Z_scope.

(* ------------------------------------------------------------------ *)
(* C04                                                                *)

(* A residue has exactly one representation, so comparing limbs compares numbers. *)
Theorem C04_one_representation : forall F p, is_field F p -> forall a b n m,
  represents p a n -> represents p b m -> (a = b <-> n = m).
Proof.
  intros F p IF a b n m Ha Hb. pose proof (is_field_facts F p IF) as FF. split.
  - intros ->. exact (represents_fun F p FF b n m Ha Hb).
  - intros ->. exact (represents_inj p a b m Ha Hb).
Qed.
Print Assumptions C04_one_representation.

Theorem C04_add : forall F p, is_field F p -> forall a b n m,
  represents p a n -> represents p b m ->
  represents p (add F a b) ((n + m) mod p) /\ represents p (const_add F a b) ((n + m) mod p).
Proof. intros F p IF. exact (add_rep F p (is_field_facts F p IF)). Qed.
Print Assumptions C04_add.

Theorem C04_sub : forall F p, is_field F p -> forall a b n m,
  represents p a n -> represents p b m ->
  represents p (sub F a b) ((n - m) mod p) /\ represents p (const_sub F a b) ((n - m) mod p).
Proof. intros F p IF. exact (sub_rep F p (is_field_facts F p IF)). Qed.
Print Assumptions C04_sub.

Theorem C04_neg : forall F p, is_field F p -> forall a n, represents p a n ->
  represents p (neg F a) ((- n) mod p) /\ represents p (const_neg F a) ((- n) mod p).
Proof. intros F p IF. exact (neg_rep F p (is_field_facts F p IF)). Qed.
Print Assumptions C04_neg.

Theorem C04_mul : forall F p, is_field F p -> forall a b n m,
  represents p a n -> represents p b m ->
  represents p (mul F a b) ((n * m) mod p) /\ represents p (const_mul F a b) ((n * m) mod p).
Proof. intros F p IF. exact (mul_rep F p (is_field_facts F p IF)). Qed.
Print Assumptions C04_mul.

Theorem C04_square : forall F p, is_field F p -> forall a n, represents p a n ->
  represents p (square F a) ((n * n) mod p) /\ represents p (const_square F a) ((n * n) mod p).
Proof. intros F p IF. exact (square_rep F p (is_field_facts F p IF)). Qed.
Print Assumptions C04_square.

Theorem C04_tests : forall F p, is_field F p -> forall a b n m,
  represents p a n -> represents p b m ->
  is_zero a = (n =? 0) /\ is_one F a = (n =? 1) /\ cmp_native F a b = (n ?= m).
Proof.
  intros F p IF a b n m Ha Hb. pose proof (is_field_facts F p IF) as FF. split.
  - exact (is_zero_rep F p FF a n Ha).
  - split; [exact (is_one_rep F p FF a n Ha)|exact (cmp_native_rep F p FF a b n m Ha Hb)].
Qed.
Print Assumptions C04_tests.

(* Inversion: the loop ends within 600 steps whatever the input, and gives the
   inverse of every element but zero. *)
Theorem C04_inverse : forall F p, is_field F p -> forall fuel a n, (600 <= fuel)%nat ->
  represents p a n ->
  match inverse F fuel a with
  | Some (Some y) => n <> 0 /\ exists m, represents p y m /\ (n * m) mod p = 1
  | Some None => n = 0
  | None => False
  end.
Proof. exact field_inverse. Qed.
Print Assumptions C04_inverse.

Theorem C04_moduli_prime : forall F p, is_field F p -> prime p.
Proof. exact field_prime. Qed.
Print Assumptions C04_moduli_prime.

Local Ltac conc := lazymatch goal with
  | _ => vm_compute; solve [reflexivity | discriminate]
  end.

Example C04_example :
  let a := from_native base_field (Limbs 5 0 0 1) in
  let b := from_native base_field (Limbs 7 1 0 0) in
  represents base_prime a (5 + 2 ^ 192) /\ represents base_prime b (7 + 2 ^ 64) /\
  represents base_prime (sub base_field b a) (7 + 2 ^ 64 - (5 + 2 ^ 192) + base_prime) /\
  inverse base_field 600 ZERO = Some None.
Proof.
  cbv zeta. unfold represents, u64s, u64.
  repeat match goal with |- _ /\ _ => split end; conc.
Qed.

Example C04_example_scalar :
  let a := from_native scalar_field (Limbs 5 0 0 1) in
  represents curve_order a (5 + 2 ^ 192) /\ inverse scalar_field 600 ZERO = Some None.
Proof.
  cbv zeta. unfold represents, u64s, u64.
  repeat match goal with |- _ /\ _ => split end; conc.
Qed.

(* ------------------------------------------------------------------ *)
(* C05                                                                *)

(* Reading 32 bytes as a field element reduces the number modulo the prime. *)
Theorem C05_from_bytes : forall F p, is_field F p -> forall bs, length bs = 32%nat -> is_bytes bs ->
  represents p (mont_from_be_bytes F bs) (Z.of_N (be_value bs) mod p).
Proof. exact from_bytes_rep. Qed.
Print Assumptions C05_from_bytes.

(* Writing a field element gives the 32 bytes of its residue. *)
Theorem C05_to_bytes : forall F p, is_field F p -> forall a n, represents p a n ->
  length (mont_to_be_bytes F a) = 32%nat /\ is_bytes (mont_to_be_bytes F a) /\
  Z.of_N (be_value (mont_to_be_bytes F a)) = n.
Proof. exact to_bytes_rep. Qed.
Print Assumptions C05_to_bytes.

(* Any 256-bit native integer converts to its residue. *)
Theorem C05_from_native : forall F p, is_field F p -> forall a, u64s a ->
  represents p (from_native F a) (value a mod p).
Proof.
  intros F p IF a W. rewrite val_eq. apply wf_iff in W.
  exact (proj1 (from_native_both F p (is_field_facts F p IF) a W)).
Qed.
Print Assumptions C05_from_native.

(* A felt goes to the field element of its number and back to itself... *)
Theorem C05_felt_round_trip : forall f n, denotes f n ->
  represents base_prime (mont_of_felt f) (Z.of_N n) /\ felt_of_mont (mont_of_felt f) = Some f.
Proof.
  intros f n D. pose proof (mont_of_felt_rep f n D) as R. split; [exact R|].
  destruct (felt_of_mont_rep _ _ R) as (g & E & D2). rewrite E. f_equal.
  rewrite N2Z.id in D2. exact (denotes_inj _ _ _ D2 D).
Qed.
Print Assumptions C05_felt_round_trip.

(* ... and a field element goes to the felt of its number (no panic) and back. *)
Theorem C05_mont_round_trip : forall a n, represents base_prime a n ->
  exists f, felt_of_mont a = Some f /\ denotes f (Z.to_N n) /\ mont_of_felt f = a.
Proof.
  intros a n R. destruct (felt_of_mont_rep a n R) as (f & E & D). exists f.
  split; [exact E|]. split; [exact D|]. pose proof (mont_of_felt_rep f _ D) as R2.
  rewrite Z2N.id in R2 by apply R. exact (represents_inj base_prime _ _ n R2 R).
Qed.
Print Assumptions C05_mont_round_trip.

(* Felt addition and subtraction are those of the integers modulo the prime. *)
Theorem C05_felt_add : forall x y n m, denotes x n -> denotes y m ->
  exists z, felt_add x y = Some z /\ denotes z ((n + m) mod P)%N.
Proof.
  intros x y n m Dx Dy. unfold felt_add.
  pose proof (C04_add _ _ is_base _ _ _ _ (mont_of_felt_rep x n Dx) (mont_of_felt_rep y m Dy)) as [R _].
  destruct (felt_of_mont_rep _ _ R) as (z & E & D). exists z. split; [exact E|].
  rewrite <- N2Z.inj_add, <- P_base, <- N2Z.inj_mod, N2Z.id in D. exact D.
Qed.
Print Assumptions C05_felt_add.

Theorem C05_felt_sub : forall x y n m, denotes x n -> denotes y m ->
  exists z, felt_sub x y = Some z /\ denotes z ((n + (P - m)) mod P)%N.
Proof.
  intros x y n m Dx Dy. unfold felt_sub.
  pose proof (C04_sub _ _ is_base _ _ _ _ (mont_of_felt_rep x n Dx) (mont_of_felt_rep y m Dy)) as [R _].
  destruct (felt_of_mont_rep _ _ R) as (z & E & D). exists z. split; [exact E|].
  assert (LM : (m < P)%N). { destruct Dy as [(_ & _ & L) <-]. exact L. }
  replace ((Z.of_N n - Z.of_N m) mod base_prime) with (Z.of_N ((n + (P - m)) mod P)) in D.
  - rewrite N2Z.id in D. exact D.
  - rewrite N2Z.inj_mod, N2Z.inj_add, N2Z.inj_sub, P_base by (apply N.lt_le_incl; exact LM).
    replace (Z.of_N n + (base_prime - Z.of_N m)) with (Z.of_N n - Z.of_N m + 1 * base_prime) by lia.
    apply Z_mod_plus_full.
Qed.
Print Assumptions C05_felt_sub.

(* A felt becomes a scalar exactly when it is below the curve order, and keeps its number. *)
Theorem C05_scalar_of_felt : forall f n, denotes f n ->
  match scalar_of_felt f with
  | Some s => Z.of_N n < curve_order /\ represents curve_order s (Z.of_N n)
  | None => curve_order <= Z.of_N n
  end.
Proof.
  intros f n D. pose proof (mont_of_felt_rep f n D) as R.
  unfold scalar_of_felt, mont_ltb. rewrite (cmp_native_rep _ _ (is_field_facts _ _ is_base) _ _ _ _ R curve_order_rep).
  destruct D as [(L & HB & LT) E].
  destruct (Z.compare_spec (Z.of_N n) curve_order) as [H|H|H]; try lia.
  split; [exact H|]. pose proof (from_bytes_rep _ _ is_scalar f L HB) as S1. rewrite E in S1.
  rewrite Z.mod_small in S1 by lia. exact S1.
Qed.
Print Assumptions C05_scalar_of_felt.

Theorem C05_scalar_of_mont : forall a n, represents base_prime a n ->
  match scalar_of_mont a with
  | Some s => n < curve_order /\ represents curve_order s n
  | None => curve_order <= n
  end.
Proof.
  intros a n R. assert (NR : 0 <= n < base_prime) by apply R.
  unfold scalar_of_mont, mont_ltb. rewrite (cmp_native_rep _ _ (is_field_facts _ _ is_base) _ _ _ _ R curve_order_rep).
  destruct (to_bytes_rep _ _ is_base a n R) as (L & HB & E).
  destruct (Z.compare_spec n curve_order) as [H|H|H]; try lia.
  split; [exact H|]. pose proof (from_bytes_rep _ _ is_scalar _ L HB) as S1. rewrite E in S1.
  rewrite Z.mod_small in S1 by lia. exact S1.
Qed.
Print Assumptions C05_scalar_of_mont.

Example C05_example :
  exists x y, denotes x 3 /\ denotes y (P - 1) /\
    felt_add x y = Some (rdigits 256 32 2) /\ felt_sub x y = Some (rdigits 256 32 4) /\
    scalar_of_felt y = None /\ (exists s, scalar_of_felt x = Some s).
Proof.
  exists (rdigits 256 32 3), (rdigits 256 32 (P - 1)).
  unfold denotes, canonical, is_bytes.
  repeat match goal with |- _ /\ _ => split end;
    lazymatch goal with
    | |- exists _, _ => eexists; vm_compute; reflexivity
    | |- Forall _ _ => vm_compute; repeat constructor
    | _ => vm_compute; reflexivity
    end.
Qed.

(* ------------------------------------------------------------------ *)
(* C54                                                                *)

(* Raising to a 256-bit exponent gives the power, for any exponent. *)
Theorem C54_pow : forall F p, is_field F p -> forall a n e, represents p a n -> u64s e ->
  represents p (pow F a e) (n ^ value e mod p).
Proof.
  intros F p IF a n e R W. pose proof (is_field_facts F p IF) as FF. rewrite val_eq.
  apply (pow_rq F p FF a n e); [|apply wf_iff; exact W].
  unfold rq. rewrite Z.mod_small by apply R. exact R.
Qed.
Print Assumptions C54_pow.

(* Square root: ends without panicking; what it returns squares to the input, and
   when it returns nothing the input has no root. *)
Theorem C54_sqrt : forall fuel a n, (500 <= fuel)%nat -> represents base_prime a n ->
  match sqrt base_field fuel a with
  | SqrtSome x => exists r, represents base_prime x r /\ (r * r) mod base_prime = n
  | SqrtNone => forall r, (r * r) mod base_prime <> n
  | SqrtPanic | SqrtDiverges => False
  end.
Proof. exact sqrt_spec. Qed.
Print Assumptions C54_sqrt.

Example C54_example :
  let m := from_native base_field (Limbs 0 0 0 1) in
  represents base_prime m (2 ^ 192) /\ u64s (Limbs 5 0 0 0) /\ value (Limbs 5 0 0 0) = 5 /\
  sqrt base_field 500 ZERO = SqrtSome ZERO.
Proof.
  cbv zeta. unfold represents, u64s, u64.
  repeat match goal with |- _ /\ _ => split end; conc.
Qed.
