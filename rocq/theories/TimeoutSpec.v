(* Vocabulary for the statements about timeouts.  A history is the list of operations so
   far; a scheduled timeout is named by the position of its Schedule operation. *)
From Coq Require Import List NArith.
From Verif Require Import TimeoutModel.
Import ListNotations.
Local Open Scope N_scope.

(* The timeout scheduled at position i has been cancelled since. *)
Definition cancelled (h : list op) (i : nat) (t : timeout) : Prop :=
  In (Cancel t) (skipn (S i) h) \/ In CancelAll (skipn (S i) h).

(* When the timeout t scheduled at position i at time s is due: its delay after it was
   scheduled, or after the last reset since. *)
Definition due (values : timeout_values) (h : list op) (i : nat) (t : timeout) (s : N) : N :=
  fold_left (fun d o => match o with Reset now => now + value_of values (t_kind t) | _ => d end)
    (skipn (S i) h) (s + value_of values (t_kind t)).

(* who j names the Schedule operation that the report at position j answers. *)
Definition reported (h : list op) (who : nat -> nat) (i : nat) : Prop :=
  exists j t now, nth_error h j = Some (Report t now) /\ who j = i.

(* Scheduled at position i, neither cancelled nor reported. *)
Definition waiting (h : list op) (who : nat -> nat) (i : nat) (t : timeout) (s : N) : Prop :=
  nth_error h i = Some (Schedule t s) /\ ~ cancelled h i t /\ ~ reported h who i.
