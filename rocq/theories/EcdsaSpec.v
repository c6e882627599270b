(* Vocabulary for C81, in plain integers. *)
From Coq Require Import ZArith NArith.
From Verif Require Import MontSpec CurveSpec.
Local Open Scope Z_scope.

(* The largest number of bits allowed in messages and signatures. *)
Definition bound : Z := 2 ^ 251.

(* pk is the x coordinate of sk times the generator. *)
Definition key_pair (sk pk : N) : Prop := exists y, times sk generator (At (Z.of_N pk) y).

(* The two multiples that checking (r, s) on z against a public point Q adds up: z/s times the
   generator, and r/s times Q, dividing modulo the curve order. *)
Definition parts (Q : cpoint) (z r s : N) (A B : cpoint) : Prop :=
  exists w, ((s * w) mod (Z.to_N curve_order) = 1)%N /\
    times ((z * w) mod (Z.to_N curve_order))%N generator A /\ times ((r * w) mod (Z.to_N curve_order))%N Q B.

(* (r, s) is a signature of z under the key with x coordinate pk: for one of the two points
   with that coordinate, the sum of the parts has x coordinate r. *)
Definition valid (pk z r s : N) : Prop :=
  exists y A B y', on_stark (At (Z.of_N pk) y) /\ parts (At (Z.of_N pk) y) z r s A B /\ sum A B (At (Z.of_N r) y').
(* What the code accepts besides: the parts cancel, and the first of them has x coordinate r. *)
Definition cancels (pk z r s : N) : Prop :=
  exists y A B y', on_stark (At (Z.of_N pk) y) /\ parts (At (Z.of_N pk) y) z r s A B /\
    A = At (Z.of_N r) y' /\ sum A B Infinity.
Definition in_bounds (z r s : N) : Prop :=
  Z.of_N z < bound /\ 0 < Z.of_N r < bound /\ 0 < Z.of_N s < bound.
