(* Montgomery field elements, crates/crypto/src/algebra/field/{core.rs,montfelt,curveorder}.
   A u64 is an integer between 0 and 2^64 - 1.  The base field (MontFelt) and the scalar
   field (CurveOrderMontFelt) are the same code over different constants; the model takes
   the constants as a record.  Where both files exist, the montfelt/ lines are cited and
   the curveorder/ file of the same name contains the same function. *)
From Coq Require Import List ZArith NArith Bool.
From Verif Require Import Radix FeltModel.
Import ListNotations.
Local Open Scope Z_scope.

Definition B : Z := 18446744073709551616. (* 2^64 *)

(* ---- core.rs ---- *)

(* const_adc, core.rs:3-7: two overflowing additions, carry is the "or" of the flags *)
Definition const_adc (a b carry : Z) : Z * Z :=
  let s := (a + b) mod B in
  let c1 := B <=? a + b in
  let s2 := (s + carry) mod B in
  let c2 := B <=? s + carry in
  (s2, if c1 || c2 then 1 else 0).

(* adc, core.rs:11-23: the intrinsic and the portable version compute the same *)
Definition adc (a b carry : Z) : Z * Z :=
  let tmp := a + b + carry in (tmp mod B, tmp / B).

(* acc, core.rs:27-31 *)
Definition acc (a carry : Z) : Z * Z := let t := a + carry in (t mod B, t / B).

(* const_sbb, core.rs:35-39 *)
Definition const_sbb (a b borrow : Z) : Z * Z :=
  let d := (a - b) mod B in
  let b1 := a <? b in
  let d2 := (d - borrow) mod B in
  let b2 := d <? borrow in
  (d2, if b1 || b2 then 1 else 0).

(* sbb, core.rs:43-55 *)
Definition sbb (a b borrow : Z) : Z * Z :=
  let tmp := B + a - b - borrow in
  (tmp mod B, if tmp / B =? 0 then 1 else 0).

(* const_mac and mac, core.rs:59-70 *)
Definition mac (a b c carry : Z) : Z * Z :=
  let tmp := a * b + c + carry in (tmp mod B, tmp / B).

(* struct MontFelt(pub [u64; 4]), montfelt/mod.rs:19 *)
Record limbs := Limbs { l0 : Z; l1 : Z; l2 : Z; l3 : Z }.

(* the constants P, R, R2, M0 of montfelt/constants.rs:6-31 *)
Record field := Field { f_P : limbs; f_R : limbs; f_R2 : limbs; f_M0 : Z }.

(* montfelt/constants.rs *)
Definition base_field : field := Field
  (Limbs 1 0 0 576460752303423505)
  (Limbs 18446744073709551585 18446744073709551615 18446744073709551615 576460752303422960)
  (Limbs 18446741271209837569 5151653887 18446744073700081664 576413109808302096)
  18446744073709551615.

(* curveorder/constants.rs *)
Definition scalar_field : field := Field
  (Limbs 2190616671734353199 13222870243701404210 18446744073709551615 576460752303423504)
  (Limbs 5877859471073257295 14366136140576156654 8 576460752303422961)
  (Limbs 6927015553468754061 5808788430323081401 13470454832524147387 565735549540988526)
  13504954208620504625.

Definition ZERO : limbs := Limbs 0 0 0 0.

(* ---- additive.rs, without reduction ---- *)

(* the carry loop over the four limbs *)
Definition carry_loop (step : Z -> Z -> Z -> Z * Z) (a b : limbs) : limbs :=
  let '(r0, c) := step (l0 a) (l0 b) 0 in
  let '(r1, c) := step (l1 a) (l1 b) c in
  let '(r2, c) := step (l2 a) (l2 b) c in
  let '(r3, _) := step (l3 a) (l3 b) c in
  Limbs r0 r1 r2 r3.

(* const_add_noreduce, additive.rs:7-18 *)
Definition const_add_noreduce := carry_loop const_adc.
(* add_assign_noreduce, additive.rs:82-87 (double_assign_noreduce, 72-78, is a + a) *)
Definition add_noreduce := carry_loop adc.
(* const_sub_noreduce, additive.rs:22-33 *)
Definition const_sub_noreduce := carry_loop const_sbb.
(* sub_assign_noreduce, additive.rs:98-103 *)
Definition sub_noreduce := carry_loop sbb.

(* ---- cmp.rs ---- *)

(* is_zero, cmp.rs:8-10 *)
Definition is_zero (a : limbs) : bool := (l0 a =? 0) && (l1 a =? 0) && (l2 a =? 0) && (l3 a =? 0).

(* equality of the limb arrays *)
Definition limbs_eqb (a b : limbs) : bool :=
  (l0 a =? l0 b) && (l1 a =? l1 b) && (l2 a =? l2 b) && (l3 a =? l3 b).

(* const_cmp, cmp.rs:31-42: from the most significant limb down *)
Definition const_cmp (a x : limbs) : comparison :=
  if l3 a <? l3 x then Lt else if l3 x <? l3 a then Gt
  else if l2 a <? l2 x then Lt else if l2 x <? l2 a then Gt
  else if l1 a <? l1 x then Lt else if l1 x <? l1 a then Gt
  else if l0 a <? l0 x then Lt else if l0 x <? l0 a then Gt
  else Eq.
(* const_gt, const_geq, const_lt, cmp.rs:50-66 *)
Definition const_gt (a x : limbs) : bool := match const_cmp a x with Gt => true | _ => false end.
Definition const_geq (a x : limbs) : bool := match const_cmp a x with Lt => false | _ => true end.
Definition const_lt (a x : limbs) : bool := match const_cmp a x with Lt => true | _ => false end.

(* ---- division.rs and parity.rs ---- *)

(* div2, division.rs:5-11; >> and << on u64 *)
Definition shr (a n : Z) : Z := Z.shiftr a n.
Definition shl (a n : Z) : Z := Z.shiftl a n mod B.
Definition div2 (a : limbs) : limbs :=
  Limbs (Z.lor (shr (l0 a) 1) (shl (l1 a) 63))
        (Z.lor (shr (l1 a) 1) (shl (l2 a) 63))
        (Z.lor (shr (l2 a) 1) (shl (l3 a) 63))
        (shr (l3 a) 1).
(* is_even, parity.rs:10-12 *)
Definition is_even (a : limbs) : bool := Z.land (l0 a) 1 =? 0.

Fixpoint repeat_times (f : limbs -> limbs) (n : nat) (w : limbs) : limbs :=
  match n with O => w | S n' => repeat_times f n' (f w) end.

Section Field.
Variable F : field.
Let P := f_P F.

(* const_reduce_partial, reduce.rs:22-27 *)
Definition const_reduce_partial (a : limbs) : limbs :=
  if const_geq a P then const_sub_noreduce a P else a.
(* reduce_partial_assign, reduce.rs:7-11 *)
Definition reduce_partial (a : limbs) : limbs :=
  if const_geq a P then sub_noreduce a P else a.

(* const_neg, additive.rs:37-43 *)
Definition const_neg (a : limbs) : limbs := if is_zero a then a else const_sub_noreduce P a.
(* negate_assign, additive.rs:114-118 *)
Definition neg (a : limbs) : limbs := if is_zero a then a else sub_noreduce P a.
(* const_add and const_double, additive.rs:47-57 *)
Definition const_add (a x : limbs) : limbs := const_reduce_partial (const_add_noreduce a x).
(* add_assign and double_assign, additive.rs:129-146 *)
Definition add (a x : limbs) : limbs := reduce_partial (add_noreduce a x).
(* const_sub, additive.rs:61-68 *)
Definition const_sub (a x : limbs) : limbs :=
  if const_gt x a then const_sub_noreduce (const_add_noreduce a P) x else const_sub_noreduce a x.
(* sub_assign, additive.rs:158-163 *)
Definition sub (a x : limbs) : limbs :=
  let a := if const_gt x a then add_noreduce a P else a in sub_noreduce a x.

(* one round of mont_reduce, e.g. reduce.rs:54-59: returns the new r1..r4 and carry2 *)
Definition mont_round (r0 r1 r2 r3 r4 carry2 : Z) : Z * Z * Z * Z * Z :=
  let k := (r0 * f_M0 F) mod B in
  let '(_, carry) := mac k (l0 P) r0 0 in
  let '(r1, carry) := mac k (l1 P) r1 carry in
  let '(r2, carry) := mac k (l2 P) r2 carry in
  let '(r3, carry) := mac k (l3 P) r3 carry in
  let '(r4, carry2) := const_adc r4 carry2 carry in
  (r1, r2, r3, r4, carry2).

(* mont_reduce before the final partial reduction, reduce.rs:45-82 *)
Definition mont_rounds (r0 r1 r2 r3 r4 r5 r6 r7 : Z) : limbs :=
  let '(r1, r2, r3, r4, c) := mont_round r0 r1 r2 r3 r4 0 in
  let '(r2, r3, r4, r5, c) := mont_round r1 r2 r3 r4 r5 c in
  let '(r3, r4, r5, r6, c) := mont_round r2 r3 r4 r5 r6 c in
  let '(r4, r5, r6, r7, _) := mont_round r3 r4 r5 r6 r7 c in
  Limbs r4 r5 r6 r7.
(* const_mont_reduce, reduce.rs:44-84, and mont_reduce, reduce.rs:89-129 *)
Definition const_mont_reduce (r0 r1 r2 r3 r4 r5 r6 r7 : Z) : limbs :=
  const_reduce_partial (mont_rounds r0 r1 r2 r3 r4 r5 r6 r7).
Definition mont_reduce (r0 r1 r2 r3 r4 r5 r6 r7 : Z) : limbs :=
  reduce_partial (mont_rounds r0 r1 r2 r3 r4 r5 r6 r7).

(* reduce_full / const_reduce_full, reduce.rs:31-39; to_native, mont.rs:6-14 *)
Definition reduce_full (a : limbs) : limbs := mont_reduce (l0 a) (l1 a) (l2 a) (l3 a) 0 0 0 0.
Definition const_reduce_full (a : limbs) : limbs :=
  const_mont_reduce (l0 a) (l1 a) (l2 a) (l3 a) 0 0 0 0.

(* ---- multiplicative.rs ---- *)

(* one row, e.g. multiplicative.rs:18-22 *)
Definition mul_row (a : Z) (x : limbs) (r0 r1 r2 r3 : Z) : Z * Z * Z * Z * Z :=
  let '(r0, carry) := mac a (l0 x) r0 0 in
  let '(r1, carry) := mac a (l1 x) r1 carry in
  let '(r2, carry) := mac a (l2 x) r2 carry in
  let '(r3, carry) := mac a (l3 x) r3 carry in
  (r0, r1, r2, r3, carry).

(* the eight limbs of the product, multiplicative.rs:8-38 *)
Definition mul_wide (a x : limbs) : Z * Z * Z * Z * Z * Z * Z * Z :=
  let '(r0, r1, r2, r3, r4) := mul_row (l0 a) x 0 0 0 0 in
  let '(r1, r2, r3, r4, r5) := mul_row (l1 a) x r1 r2 r3 r4 in
  let '(r2, r3, r4, r5, r6) := mul_row (l2 a) x r2 r3 r4 r5 in
  let '(r3, r4, r5, r6, r7) := mul_row (l3 a) x r3 r4 r5 r6 in
  (r0, r1, r2, r3, r4, r5, r6, r7).

(* const_mul, multiplicative.rs:7-42 *)
Definition const_mul (a x : limbs) : limbs :=
  let '(r0, r1, r2, r3, r4, r5, r6, r7) := mul_wide a x in
  const_mont_reduce r0 r1 r2 r3 r4 r5 r6 r7.
(* mul, multiplicative.rs:89-124 *)
Definition mul (a x : limbs) : limbs :=
  let '(r0, r1, r2, r3, r4, r5, r6, r7) := mul_wide a x in
  mont_reduce r0 r1 r2 r3 r4 r5 r6 r7.

(* the off-diagonal products, multiplicative.rs:47-61 *)
Definition square_cross (a : limbs) : Z * Z * Z * Z * Z * Z :=
  let '(r1, carry) := mac (l0 a) (l1 a) 0 0 in
  let '(r2, carry) := mac (l0 a) (l2 a) 0 carry in
  let '(r3, carry) := mac (l0 a) (l3 a) 0 carry in
  let r4 := carry in
  let '(r3, carry) := mac (l1 a) (l2 a) r3 0 in
  let '(r4, carry) := mac (l1 a) (l3 a) r4 carry in
  let r5 := carry in
  let '(r5, carry) := mac (l2 a) (l3 a) r5 0 in
  let r6 := carry in
  (r1, r2, r3, r4, r5, r6).
(* doubling them by shifting, multiplicative.rs:63-70 *)
Definition square_double (r1 r2 r3 r4 r5 r6 : Z) : Z * Z * Z * Z * Z * Z * Z :=
  (shl r1 1,
   Z.lor (shl r2 1) (shr r1 63),
   Z.lor (shl r3 1) (shr r2 63),
   Z.lor (shl r4 1) (shr r3 63),
   Z.lor (shl r5 1) (shr r4 63),
   Z.lor (shl r6 1) (shr r5 63),
   shr r6 63).
(* adding the diagonal, multiplicative.rs:72-80 (const_adc) and 154-163 (acc) *)
Definition square_diag (add_carry : Z -> Z -> Z * Z) (a : limbs) (r1 r2 r3 r4 r5 r6 r7 : Z)
  : Z * Z * Z * Z * Z * Z * Z * Z :=
  let '(r0, carry) := mac (l0 a) (l0 a) 0 0 in
  let '(r1, carry) := add_carry r1 carry in
  let '(r2, carry) := mac (l1 a) (l1 a) r2 carry in
  let '(r3, carry) := add_carry r3 carry in
  let '(r4, carry) := mac (l2 a) (l2 a) r4 carry in
  let '(r5, carry) := add_carry r5 carry in
  let '(r6, carry) := mac (l3 a) (l3 a) r6 carry in
  let '(r7, _) := add_carry r7 carry in
  (r0, r1, r2, r3, r4, r5, r6, r7).
Definition square_wide (add_carry : Z -> Z -> Z * Z) (a : limbs) :=
  let '(r1, r2, r3, r4, r5, r6) := square_cross a in
  let '(r1, r2, r3, r4, r5, r6, r7) := square_double r1 r2 r3 r4 r5 r6 in
  square_diag add_carry a r1 r2 r3 r4 r5 r6 r7.
(* const_square, multiplicative.rs:46-84 *)
Definition const_square (a : limbs) : limbs :=
  let '(r0, r1, r2, r3, r4, r5, r6, r7) := square_wide (fun r c => const_adc r 0 c) a in
  const_mont_reduce r0 r1 r2 r3 r4 r5 r6 r7.
(* square, multiplicative.rs:128-167 *)
Definition square (a : limbs) : limbs :=
  let '(r0, r1, r2, r3, r4, r5, r6, r7) := square_wide acc a in
  mont_reduce r0 r1 r2 r3 r4 r5 r6 r7.

(* ---- cmp.rs on field elements ---- *)
(* is_one, cmp.rs:14-19 *)
Definition is_one (a : limbs) : bool := limbs_eqb a (f_R F).
(* const_cmp_native and Ord, cmp.rs:23-27, 75-79 *)
Definition cmp_native (a x : limbs) : comparison := const_cmp (const_reduce_full a) (const_reduce_full x).

(* ---- convert.rs ---- *)
(* u64::from_be_bytes of 8 of the bytes *)
Definition u64_be (bs : bytes) : Z := Z.of_N (rval 256 bs).
(* from_be_bytes, convert.rs:6-22 *)
Definition limbs_of_be_bytes (bs : bytes) : limbs :=
  Limbs (u64_be (firstn 8 (skipn 24 bs))) (u64_be (firstn 8 (skipn 16 bs)))
        (u64_be (firstn 8 (skipn 8 bs))) (u64_be (firstn 8 bs)).
Definition mont_from_be_bytes (bs : bytes) : limbs := const_mul (limbs_of_be_bytes bs) (f_R2 F).
(* to_be_bytes, convert.rs:24-42 *)
Definition be_u64 (x : Z) : bytes := rdigits 256 8 (Z.to_N x).
Definition mont_to_be_bytes (a : limbs) : bytes :=
  let s := const_reduce_full a in be_u64 (l3 s) ++ be_u64 (l2 s) ++ be_u64 (l1 s) ++ be_u64 (l0 s).
(* from_native, from_native_limbs and const_from_native, mont.rs:17-32 *)
Definition from_native (a : limbs) : limbs := mul a (f_R2 F).

(* ---- inverse.rs:9-57, with fuel for the loops; None is fuel running out ---- *)

(* while u.is_even(), inverse.rs:22-30 and 32-40 *)
Fixpoint halve_loop (fuel : nat) (u b : limbs) : option (limbs * limbs) :=
  match fuel with
  | O => None
  | S fuel' =>
      if is_even u then
        halve_loop fuel' (div2 u) (if is_even b then div2 b else div2 (add_noreduce b P))
      else Some (u, b)
  end.
Definition ONE_LIMBS : limbs := Limbs 1 0 0 0.
(* the outer loop, inverse.rs:21-55 *)
Fixpoint inverse_loop (fuel : nat) (u v b c : limbs) : option limbs :=
  match fuel with
  | O => None
  | S fuel' =>
      if negb (limbs_eqb u ONE_LIMBS) && negb (limbs_eqb v ONE_LIMBS) then
        match halve_loop fuel' u b with
        | None => None
        | Some (u, b) =>
            match halve_loop fuel' v c with
            | None => None
            | Some (v, c) =>
                if const_lt v u then inverse_loop fuel' (sub_noreduce u v) v (const_sub b c) c
                else inverse_loop fuel' u (sub_noreduce v u) b (const_sub c b)
            end
        end
      else if limbs_eqb u ONE_LIMBS then Some b else Some c
  end.
(* outer None: the loops did not finish; inner None: the inverse of zero *)
Definition inverse (fuel : nat) (a : limbs) : option (option limbs) :=
  if is_zero a then Some None
  else option_map Some (inverse_loop fuel a P (f_R2 F) ZERO).

(* ---- pow.rs:6-15; the exponent's bits, most significant first, without leading zeros ---- *)
Fixpoint skip_zeros (bits : list bool) : list bool :=
  match bits with false :: bits' => skip_zeros bits' | _ => bits end.
(* BitIteratorBE over four limbs, bits.rs:8-33 *)
Definition limb_bits_be (x : Z) : list bool := map (fun i => Z.testbit x (Z.of_nat i)) (rev (seq 0 64)).
Definition bits_be (e : limbs) : list bool :=
  limb_bits_be (l3 e) ++ limb_bits_be (l2 e) ++ limb_bits_be (l1 e) ++ limb_bits_be (l0 e).
Definition pow (a : limbs) (e : limbs) : limbs :=
  fold_left (fun res i => let res := square res in if i : bool then mul res a else res)
            (skip_zeros (bits_be e)) (f_R F).

(* ---- sqrt.rs:7-47, with fuel for the loops ---- *)
Definition SQRT_S : nat := 192.
Definition SQRT_T_MINUS_ONE_DIV2 : limbs := Limbs 288230376151711752 0 0 0.
Definition SQRT_Z : limbs :=
  Limbs 4685640052668284376 12298664652803292137 735711535595279732 514024103053294630.
(* while !b2k.is_one(), sqrt.rs:24-28 *)
Fixpoint order_loop (fuel : nat) (b2k : limbs) (k : nat) : option nat :=
  match fuel with
  | O => None
  | S fuel' => if is_one b2k then Some k else order_loop fuel' (square b2k) (S k)
  end.
(* for _ in 1..j { w = w.square() }, sqrt.rs:35-37 *)
Definition square_times (n : nat) (w : limbs) : limbs := repeat_times square n w.
Inductive sqrt_result := SqrtSome (x : limbs) | SqrtNone | SqrtPanic | SqrtDiverges.
(* while !b.is_one(), sqrt.rs:19-43; j = v - k panics when k > v *)
Fixpoint sqrt_loop (fuel : nat) (z x b : limbs) (v : nat) : sqrt_result :=
  match fuel with
  | O => SqrtDiverges
  | S fuel' =>
      if is_one b then SqrtSome x
      else
        match order_loop fuel' b 0 with
        | None => SqrtDiverges
        | Some k =>
            if Nat.eqb k SQRT_S then SqrtNone
            else if Nat.ltb v k then SqrtPanic
            else
              let w := square_times (v - k - 1) z in
              let z := square w in
              sqrt_loop fuel' z (mul x w) (mul b z) k
        end
  end.
Definition sqrt (fuel : nat) (a : limbs) : sqrt_result :=
  if is_zero a then SqrtSome ZERO
  else
    let w := pow a SQRT_T_MINUS_ONE_DIV2 in
    let x := mul w a in
    let b := mul x w in
    sqrt_loop fuel SQRT_Z x b SQRT_S.
End Field.

(* From<Felt> for MontFelt, convert.rs:56-61 *)
Definition mont_of_felt (f : felt) : limbs := mont_from_be_bytes base_field f.
(* From<MontFelt> for Felt, felt.rs:307-314; None is the panic of unwrap *)
Definition felt_of_mont (a : limbs) : option felt :=
  match from_be_bytes (mont_to_be_bytes base_field a) with Ok f => Some f | Err _ => None end.
(* Add and Sub for Felt, felt.rs:288-305 *)
Definition felt_add (x y : felt) : option felt :=
  felt_of_mont (add base_field (mont_of_felt x) (mont_of_felt y)).
Definition felt_sub (x y : felt) : option felt :=
  felt_of_mont (sub base_field (mont_of_felt x) (mont_of_felt y)).

(* CURVE_ORDER, curve/params.rs:6-7 : MontFelt::from_hex of the literal, which is
   const_mul of its limbs with R2 (hex.rs:22-58); the digit loop of from_hex on
   this one literal is not modelled, the four limbs are written out *)
Definition CURVE_ORDER : limbs :=
  const_mul base_field
    (Limbs 0x1E66A241ADC64D2F 0xB781126DCAE7B232 0xFFFFFFFFFFFFFFFF 0x0800000000000010)
    (f_R2 base_field).
(* PartialOrd::lt of MontFelt, montfelt/cmp.rs:75-85 *)
Definition mont_ltb (a b : limbs) : bool :=
  match cmp_native base_field a b with Lt => true | _ => false end.
(* TryFrom<MontFelt> for CurveOrderMontFelt, curveorder/convert.rs:67-77; None is Err(()) *)
Definition scalar_of_mont (a : limbs) : option limbs :=
  if mont_ltb a CURVE_ORDER then Some (mont_from_be_bytes scalar_field (mont_to_be_bytes base_field a)) else None.
(* TryFrom<Felt> for CurveOrderMontFelt, curveorder/convert.rs:79-91 *)
Definition scalar_of_felt (f : felt) : option limbs :=
  if mont_ltb (mont_of_felt f) CURVE_ORDER then Some (mont_from_be_bytes scalar_field f) else None.
