(* The Stark curve, crates/crypto/src/algebra/curve, and the Pedersen hash,
   crates/crypto/src/hash/pedersen/hash.rs.  A MontFelt is a limbs of MontModel and its
   operations are those of base_field there.  The loops of inverse and sqrt take fuel. *)
From Coq Require Import List ZArith NArith Bool.
From Verif Require Import FeltModel MontModel.
Import ListNotations.
Local Open Scope Z_scope.

(* What a call comes to: a value, a panic, or fuel running out in a loop of the field. *)
Inductive result (A : Type) := Ret (v : A) | Panics | Diverges.
Arguments Ret {A} v.
Arguments Panics {A}.
Arguments Diverges {A}.
Definition bind {A B} (r : result A) (f : A -> result B) : result B :=
  match r with Ret v => f v | Panics => Panics | Diverges => Diverges end.

(* the operators of MontFelt: montfelt/additive.rs, multiplicative.rs; == is on the limbs *)
Local Notation "a +' b" := (add base_field a b) (at level 50, left associativity).
Local Notation "a -' b" := (sub base_field a b) (at level 50, left associativity).
Local Notation "a *' b" := (mul base_field a b) (at level 40, left associativity).
(* MontFelt::double, additive.rs:141-146 *)
Definition double (a : limbs) : limbs := add base_field a a.
(* ONE, TWO and THREE, montfelt/constants.rs:34-40 *)
Definition ONE : limbs := f_R base_field.
Definition TWO : limbs := const_add base_field ONE ONE.
Definition THREE : limbs := const_add base_field TWO ONE.
(* MontFelt::from_hex, montfelt/hex.rs:22-55, from the four limbs of the literal; the digit
   loop on the literals is not modelled, the limbs are written out *)
Definition from_hex (a : limbs) : limbs := const_mul base_field a (f_R2 base_field).
(* .inverse().unwrap() *)
Definition unwrap_inverse (F : field) (fuel : nat) (a : limbs) : result limbs :=
  match inverse F fuel a with Some (Some y) => Ret y | Some None => Panics | None => Diverges end.
(* into_le_bits, montfelt/convert.rs:49-53 and curveorder/convert.rs:60-64: the bits of the
   four limbs of the reduced number, the lowest first *)
Definition word_bits (width : nat) (x : Z) : list bool :=
  map (fun i => Z.testbit x (Z.of_nat i)) (seq 0 width).
Definition into_le_bits (F : field) (a : limbs) : list bool :=
  let s := reduce_full F a in
  word_bits 64 (l0 s) ++ word_bits 64 (l1 s) ++ word_bits 64 (l2 s) ++ word_bits 64 (l3 s).

(* struct AffinePoint, affine.rs:8-13, and ProjectivePoint, projective.rs:8-14 *)
Record affine := Affine { a_x : limbs; a_y : limbs; a_inf : bool }.
Record projective := Projective { p_x : limbs; p_y : limbs; p_z : limbs; p_inf : bool }.

(* ---- affine.rs ---- *)

(* From<&ProjectivePoint> for AffinePoint, affine.rs:15-26 *)
Definition affine_of_projective (fuel : nat) (p : projective) : result affine :=
  bind (unwrap_inverse base_field fuel (p_z p)) (fun zinv =>
  Ret (Affine (p_x p *' zinv) (p_y p *' zinv) false)).
(* CURVE_A and CURVE_B, params.rs:10-14 *)
Definition CURVE_A : limbs := ONE.
Definition CURVE_B : limbs :=
  from_hex (Limbs 0xF4CDFCB99CEE9E89 0x609AD26C15C915C1 0x150E596D72F7A8C5 0x06F21413EFBE40DE).
(* AffinePoint::from_x, affine.rs:52-60 *)
Definition from_x (fuel : nat) (x : limbs) : result (option affine) :=
  let y2 := square base_field x *' x +' CURVE_A *' x +' CURVE_B in
  match sqrt base_field fuel y2 with
  | SqrtSome y => Ret (Some (Affine x y false))
  | SqrtNone => Ret None
  | SqrtPanic => Panics
  | SqrtDiverges => Diverges
  end.
(* AffinePoint::identity, affine.rs:63-69 *)
Definition affine_identity : affine := Affine ZERO ZERO true.
(* AffinePoint::negate, affine.rs:72-74 *)
Definition affine_negate (p : affine) : affine := Affine (a_x p) (neg base_field (a_y p)) (a_inf p).
(* AffinePoint::double, affine.rs:77-92 *)
Definition affine_double (fuel : nat) (p : affine) : result affine :=
  if a_inf p then Ret p
  else
    bind (unwrap_inverse base_field fuel (TWO *' a_y p)) (fun divisor_inv =>
    let lambda := (THREE *' (a_x p *' a_x p) +' ONE) *' divisor_inv in
    let result_x := lambda *' lambda -' a_x p -' a_x p in
    Ret (Affine result_x (lambda *' (a_x p -' result_x) -' a_y p) (a_inf p))).
(* AffinePoint::add, affine.rs:95-124 *)
Definition affine_add (fuel : nat) (p other : affine) : result affine :=
  if a_inf other then Ret p
  else if a_inf p then Ret (Affine (a_x other) (a_y other) (a_inf other))
  else if limbs_eqb (a_x p) (a_x other) then
    if negb (limbs_eqb (a_y p) (a_y other)) then Ret (Affine (a_x p) (a_y p) true)
    else affine_double fuel p
  else
    bind (unwrap_inverse base_field fuel (a_x other -' a_x p)) (fun divisor_inv =>
    let lambda := (a_y other -' a_y p) *' divisor_inv in
    let result_x := lambda *' lambda -' a_x p -' a_x other in
    Ret (Affine result_x (lambda *' (a_x p -' result_x) -' a_y p) (a_inf p))).
(* AffinePoint::multiply, affine.rs:127-136: bits is in the order of the slice, read from its end *)
Definition affine_multiply (fuel : nat) (p : affine) (bits : list bool) : result affine :=
  fold_left (fun product (b : bool) =>
      bind product (fun product =>
      bind (affine_double fuel product) (fun product =>
      if b then affine_add fuel product p else Ret product)))
    (rev bits) (Ret affine_identity).
(* AffinePoint::multiply_elm, affine.rs:139-142 *)
Definition affine_multiply_elm (fuel : nat) (p : affine) (elm : limbs) : result affine :=
  affine_multiply fuel p (into_le_bits base_field elm).

(* ---- projective.rs ---- *)

(* From<&AffinePoint> for ProjectivePoint, projective.rs:16-28 *)
Definition projective_of_affine (p : affine) : projective := Projective (a_x p) (a_y p) ONE false.
(* ProjectivePoint::from_hex, projective.rs:44-53 *)
Definition projective_from_hex (x y : limbs) : projective := Projective (from_hex x) (from_hex y) ONE false.
(* ProjectivePoint::identity, projective.rs:62-69 *)
Definition projective_identity : projective := Projective ZERO ZERO ONE true.
(* ProjectivePoint::negate, projective.rs:72-74 *)
Definition projective_negate (p : projective) : projective :=
  Projective (p_x p) (neg base_field (p_y p)) (p_z p) (p_inf p).
(* ProjectivePoint::double, projective.rs:77-98 *)
Definition projective_double (p : projective) : projective :=
  if p_inf p then p
  else
    let x2 := square base_field (p_x p) in
    let t := x2 +' double x2 +' square base_field (p_z p) in
    let u := double (p_y p *' p_z p) in
    let v := double (u *' p_x p *' p_y p) in
    let w := square base_field t -' double v in
    let uy := u *' p_y p in
    Projective (u *' w) (t *' (v -' w) -' double (uy *' uy)) (u *' u *' u) (p_inf p).
(* ProjectivePoint::add, projective.rs:101-140 *)
Definition projective_add (p other : projective) : projective :=
  if p_inf other then p
  else if p_inf p then Projective (p_x other) (p_y other) (p_z other) (p_inf other)
  else
    let u0 := p_x p *' p_z other in
    let u1 := p_x other *' p_z p in
    let t0 := p_y p *' p_z other in
    let t1 := p_y other *' p_z p in
    if limbs_eqb u0 u1 then
      if negb (limbs_eqb t0 t1) then Projective (p_x p) (p_y p) (p_z p) true
      else projective_double p
    else
      let t := t0 -' t1 in
      let u := u0 -' u1 in
      let u2 := square base_field u in
      let v := p_z p *' p_z other in
      let w := square base_field t *' v -' u2 *' (u0 +' u1) in
      let u3 := u *' u2 in
      Projective (u *' w) (t *' (u0 *' u2 -' w) -' t0 *' u3) (u3 *' v) (p_inf p).
(* ProjectivePoint::add_affine, projective.rs:143-183 *)
Definition projective_add_affine (p : projective) (other : affine) : projective :=
  if a_inf other then p
  else if p_inf p then Projective (a_x other) (a_y other) ONE (a_inf other)
  else
    let u0 := p_x p in
    let u1 := a_x other *' p_z p in
    let t0 := p_y p in
    let t1 := a_y other *' p_z p in
    if limbs_eqb u0 u1 then
      if negb (limbs_eqb t0 t1) then Projective (p_x p) (p_y p) (p_z p) true
      else projective_double p
    else
      let t := t0 -' t1 in
      let u := u0 -' u1 in
      let u2 := u *' u in
      let v := p_z p in
      let w := t *' t *' v -' u2 *' (u0 +' u1) in
      let u3 := u *' u2 in
      Projective (u *' w) (t *' (u0 *' u2 -' w) -' t0 *' u3) (u3 *' v) (p_inf p).
(* ProjectivePoint::multiply, projective.rs:186-195 *)
Definition projective_multiply (p : projective) (bits : list bool) : projective :=
  fold_left (fun product (b : bool) =>
      let product := projective_double product in
      if b then projective_add product p else product)
    (rev bits) projective_identity.
(* ProjectivePoint::multiply_elm, projective.rs:198-201 *)
Definition projective_multiply_elm (p : projective) (elm : limbs) : projective :=
  projective_multiply p (into_le_bits scalar_field elm).
(* CURVE_G, params.rs:17-20 *)
Definition CURVE_G : projective := projective_from_hex
  (Limbs 0x3D723D8BC943CFCA 0xDEACFD9B0D1819E0 0x7BECED415A40F0C7 0x01EF15C18599971B)
  (Limbs 0x2873000C36E8DC1F 0xDE53ECD11ABE43A3 0xB7BE4801DF46EC62 0x005668060AA49730).

(* ---- tables: gen_mul.rs and pedersen/hash.rs ---- *)

(* BitSlice::chunks: pieces of size bits, the last one possibly shorter; fuel is the length *)
Fixpoint chunks_loop (fuel size : nat) (bits : list bool) : list (list bool) :=
  match fuel, bits with
  | _, [] | O, _ => []
  | S fuel', _ => firstn size bits :: chunks_loop fuel' size (skipn size bits)
  end.
Definition chunks (size : nat) (bits : list bool) : list (list bool) :=
  chunks_loop (length bits) size bits.
(* BitField::load_le of an Lsb0 slice: the number whose lowest bit comes first *)
Fixpoint load_le (bits : list bool) : N :=
  match bits with [] => 0%N | b :: bits' => (N.b2n b + 2 * load_le bits')%N end.
(* the closure add_points, gen_mul.rs:14-24 and pedersen/hash.rs:22-32: the loop over the
   chunks from chunk i on; prep[..] panics out of bounds *)
Fixpoint add_points_loop (table_size : N) (acc : projective) (i : N) (cs : list (list bool)) (prep : list affine)
  : result projective :=
  match cs with
  | [] => Ret acc
  | v :: cs' =>
      let offset := load_le v in
      if (0 <? offset)%N then
        match nth_error prep (N.to_nat (i * table_size + offset - 1)) with
        | Some entry => add_points_loop table_size (projective_add_affine acc entry) (i + 1) cs' prep
        | None => Panics
        end
      else add_points_loop table_size acc (i + 1) cs' prep
  end.
Definition add_points (width : nat) (acc : projective) (bits : list bool) (prep : list affine) : result projective :=
  add_points_loop (2 ^ N.of_nat width - 1) acc 0 (chunks width bits) prep.
(* ProjectivePoint::gen_multiply_elm, gen_mul.rs:11-30; the table G_CONSTS of curve/consts.rs is
   a parameter; G_CONSTS_BITS is 4 (curve/consts.rs:3) *)
Definition gen_multiply_elm (g_consts : list affine) (x : limbs) : result projective :=
  add_points 4 projective_identity (into_le_bits scalar_field x) g_consts.
(* AffinePoint::gen_multiply_elm, gen_mul.rs:33-40 *)
Definition affine_gen_multiply_elm (fuel : nat) (g_consts : list affine) (x : limbs) : result affine :=
  bind (gen_multiply_elm g_consts x) (affine_of_projective fuel).

(* PEDERSEN_P0, pedersen/gens.rs:7-10 *)
Definition PEDERSEN_P0 : projective := projective_from_hex
  (Limbs 0x551FDE4050CA6804 0x716B0B1022947733 0x00EE1B87EB599F16 0x049EE3EBA8C16007)
  (Limbs 0xD0405D266E10268A 0x4E621062C0E056C1 0xF346D49D06EA0ED3 0x03CA0CFE4B3BC6DD).
(* Felt::to_le_bytes, felt.rs:93-97, and view_bits::<Lsb0> of the bytes *)
Definition felt_le_bits (f : felt) : list bool := flat_map (fun b => word_bits 8 (Z.of_N b)) (rev f).
(* the statics CURVE_CONSTS_P1 to CURVE_CONSTS_P4 of pedersen/consts.rs, a parameter *)
Record tables := Tables { CONSTS_P1 : list affine; CONSTS_P2 : list affine; CONSTS_P3 : list affine; CONSTS_P4 : list affine }.
(* pedersen_hash, pedersen/hash.rs:14-46; CURVE_CONSTS_BITS is 8 (pedersen/consts.rs:3);
   Felt::from of the result panics if felt_of_mont is None *)
Definition pedersen_hash (fuel : nat) (t : tables) (a b : felt) : result felt :=
  let a_bits := felt_le_bits a in
  let b_bits := felt_le_bits b in
  bind (add_points 8 PEDERSEN_P0 (firstn 248 a_bits) (CONSTS_P1 t)) (fun acc =>
  bind (add_points 8 acc (firstn 4 (skipn 248 a_bits)) (CONSTS_P2 t)) (fun acc =>
  bind (add_points 8 acc (firstn 248 b_bits) (CONSTS_P3 t)) (fun acc =>
  bind (add_points 8 acc (firstn 4 (skipn 248 b_bits)) (CONSTS_P4 t)) (fun acc =>
  bind (affine_of_projective fuel acc) (fun result =>
  match felt_of_mont (a_x result) with Some h => Ret h | None => Panics end))))).
