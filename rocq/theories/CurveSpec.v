(* Vocabulary for C80 and C81: the Stark curve y^2 = x^3 + x + b over the integers modulo
   the field prime, its chord-and-tangent sum, and multiples of a point, in plain integers. *)
From Coq Require Import ZArith NArith.
From Verif Require Import MontModel MontSpec.
Local Open Scope Z_scope.

Definition curve_b : Z := 3141592653589793238462643383279502884197169399375105820974944592307816406665.

(* A point: the neutral one, or one with coordinates. *)
Inductive cpoint : Type := Infinity | At (x y : Z).
Definition on_stark (P : cpoint) : Prop :=
  match P with
  | Infinity => True
  | At x y => 0 <= x < base_prime /\ 0 <= y < base_prime /\
      (y * y) mod base_prime = (x * x * x + x + curve_b) mod base_prime
  end.
Definition generator : cpoint := At
  874739451078007766457464989774322083649278607533249481151382481072868806602
  152666792071518830868575557812948353041420400780739481342941381225525861407.

(* The third point on the line of slope l through (x1, y1), mirrored. *)
Definition mirrored (l x1 y1 x2 : Z) : cpoint :=
  let x3 := (l * l - x1 - x2) mod base_prime in At x3 ((l * (x1 - x3) - y1) mod base_prime).
Inductive sum : cpoint -> cpoint -> cpoint -> Prop :=
| sum_left : forall Q, sum Infinity Q Q
| sum_right : forall P, sum P Infinity P
| sum_opposite : forall x y y', (y + y') mod base_prime = 0 -> sum (At x y) (At x y') Infinity
| sum_chord : forall x1 y1 x2 y2 l, x1 <> x2 ->
    (l * (x2 - x1)) mod base_prime = (y2 - y1) mod base_prime ->
    sum (At x1 y1) (At x2 y2) (mirrored l x1 y1 x2)
| sum_tangent : forall x y l, (y + y) mod base_prime <> 0 ->
    (l * (y + y)) mod base_prime = (3 * (x * x) + 1) mod base_prime ->
    sum (At x y) (At x y) (mirrored l x y x).
Definition opposite (P : cpoint) : cpoint :=
  match P with Infinity => Infinity | At x y => At x ((- y) mod base_prime) end.

(* R is k times P: P added to the neutral point k times. *)
Inductive times : N -> cpoint -> cpoint -> Prop :=
| times_none : forall P, times 0 P Infinity
| times_more : forall k P Q R, times k P Q -> sum P Q R -> times (N.succ k) P R.
