(* Vocabulary for the statements about validator sets. *)
From Coq Require Import List NArith.
From Verif Require Import ValidatorModel.
Import ListNotations.
Local Open Scope N_scope.

(* v is the last entry of l with its address. *)
Definition last_with_address (l : list validator) (v : validator) : Prop :=
  exists before after, l = before ++ v :: after /\ ~ In (v_addr v) (map v_addr after).

(* The sum of the voting powers. *)
Fixpoint power_sum (vs : list validator) : N :=
  match vs with [] => 0 | v :: vs => v_power v + power_sum vs end.

(* The k rounds starting at r. *)
Fixpoint rounds_from (r : N) (k : nat) : list N :=
  match k with O => [] | S k => r :: rounds_from (r + 1) k end.

(* How many rounds of a list have v as proposer. *)
Definition turns (sel : N -> option validator) (v : validator) (rs : list N) : nat :=
  length (filter (fun r => match sel r with Some p => v_addr p =? v_addr v | None => false end) rs).
