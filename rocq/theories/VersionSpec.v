(* Vocabulary for C50 and C51. *)
From Coq Require Import List Arith NArith Bool.
From Verif Require Import Radix FeltModel FeltSpec VersionModel.
Import ListNotations.
Local Open Scope N_scope.

Definition components (v : version) : list N := [v0 v; v1 v; v2 v; v3 v].

(* every component is a u8 *)
Definition valid (v : version) : Prop := Forall (fun c => c < 256) (components v).

(* [a] comes before [b]: equal up to some position, smaller there *)
Inductive lex_lt : list N -> list N -> Prop :=
| lex_here : forall x y a b, x < y -> lex_lt (x :: a) (y :: b)
| lex_next : forall x a b, lex_lt a b -> lex_lt (x :: a) (x :: b).

(* Plain decimal digits (leading zeros allowed) spelling n, optionally after '+' *)
Inductive plain_dec : bytes -> N -> Prop :=
| plain_first : forall d, d < 10 -> plain_dec [48 + d] d
| plain_snoc : forall s n d, plain_dec s n -> d < 10 -> plain_dec (s ++ [48 + d]) (10 * n + d).
Definition component_text (s : bytes) (n : N) : Prop :=
  n < 256 /\ (plain_dec s n \/ exists t, s = text "+" ++ t /\ plain_dec t n).

(* What a version string says. *)
Definition version_text (s : bytes) (v : version) : Prop :=
  (s = [] /\ v = Version 0 0 0 0) \/
  exists a b c,
    component_text a (v0 v) /\ component_text b (v1 v) /\ component_text c (v2 v) /\
    ((s = a ++ text "." ++ b ++ text "." ++ c /\ v3 v = 0) \/
     (exists d, component_text d (v3 v) /\
        s = a ++ text "." ++ b ++ text "." ++ c ++ text "." ++ d)).

(* The query flag of a transaction version. *)
Definition QUERY_BASE : N := 2 ^ 128.
