(* Vocabulary for C80 and C81: which point of the curve a value of the code stands for, in
   plain integers, and which tables of points hold the multiples they should. *)
From Coq Require Import List ZArith NArith.
From Verif Require Import MontModel MontSpec CurveModel CurveSpec.
Import ListNotations.
Local Open Scope Z_scope.

(* An affine point of the code is the neutral point if flagged, whatever its coordinates;
   otherwise its coordinates are those of the point. *)
Definition means_affine (a : affine) (P : cpoint) : Prop :=
  exists x y, represents base_prime (a_x a) x /\ represents base_prime (a_y a) y /\
    P = (if a_inf a then Infinity else At x y).
(* A projective one has x and y multiplied by its z, which is never zero, even if flagged. *)
Definition means_projective (a : projective) (P : cpoint) : Prop :=
  exists x y z, represents base_prime (p_x a) x /\ represents base_prime (p_y a) y /\
    represents base_prime (p_z a) z /\ z <> 0 /\
    match P with
    | Infinity => p_inf a = true
    | At px py => p_inf a = false /\ 0 <= px < base_prime /\ 0 <= py < base_prime /\
        x = (px * z) mod base_prime /\ y = (py * z) mod base_prime
    end.

(* A table for chunks of width bits: the entry for chunk i and digit d is d * 2^(width * i)
   times P, at position i * (2^width - 1) + d - 1, for the first n chunks. *)
Definition multiples (width n : N) (P : cpoint) (prep : list affine) : Prop :=
  forall i d : N, (i < n)%N -> (0 < d < 2 ^ width)%N ->
  exists entry E, nth_error prep (N.to_nat (i * (2 ^ width - 1) + d - 1)) = Some entry /\
    times (d * 2 ^ (width * i)) P E /\ means_affine entry E.

(* The constant points of the Pedersen hash. *)
Definition shift_point : cpoint := At
  2089986280348253421170679821480865132823066470938446095505822317253594081284
  1713931329540660377023406109199410414810705867260802078187082345529207694986.
Definition pedersen_1 : cpoint := At
  996781205833008774514500082376783249102396023663454813447423147977397232763
  1668503676786377725805489344771023921079126552019160156920634619255970485781.
Definition pedersen_2 : cpoint := At
  2251563274489750535117886426533222435294046428347329203627021249169616184184
  1798716007562728905295480679789526322175868328062420237419143593021674992973.
Definition pedersen_3 : cpoint := At
  2138414695194151160943305727036575959195309218611738193261179310511854807447
  113410276730064486255102093846540133784865286929052426931474106396135072156.
Definition pedersen_4 : cpoint := At
  2379962749567351885752724891227938183011949129833673362440656643086021394946
  776496453633298175483985398648758586525933812536653089401905292063708816422.
Definition right_tables (t : tables) : Prop :=
  multiples 8 31 pedersen_1 (CONSTS_P1 t) /\ multiples 4 1 pedersen_2 (CONSTS_P2 t) /\
  multiples 8 31 pedersen_3 (CONSTS_P3 t) /\ multiples 4 1 pedersen_4 (CONSTS_P4 t).

(* R is the shift point plus the low 248 bits and the rest of a times the first two points
   and the same of b times the other two: the point whose x coordinate is the hash. *)
Definition pedersen_point (a b : N) (R : cpoint) : Prop :=
  exists A1 A2 B1 B2 S1 S2 S3,
    times (a mod 2 ^ 248) pedersen_1 A1 /\ times (a / 2 ^ 248) pedersen_2 A2 /\
    times (b mod 2 ^ 248) pedersen_3 B1 /\ times (b / 2 ^ 248) pedersen_4 B2 /\
    sum shift_point A1 S1 /\ sum S1 A2 S2 /\ sum S2 B1 S3 /\ sum S3 B2 R.
