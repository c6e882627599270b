(** Vocabulary for the properties of the cache of block traces. *)
From Coq Require Import List Bool NArith.
From Verif Require Import TraceCacheModel.
Import ListNotations.
Local Open Scope N_scope.

(* in the history [l], the call [i] for [k] was executing at some time *)
Definition executed (l : list action) (i : N) (k : key) : Prop :=
  exists l1 l2, l = l1 ++ l2 /\ s_call (run l1) i = Some (k, Executing).

(* in the history [l] some execution for [k] came to the result [r] *)
Definition computed (l : list action) (k : key) (r : result) : Prop :=
  exists l1 j l2, l = l1 ++ Finish j r :: l2 /\ s_call (run l1) j = Some (k, Executing).

(* nothing fails and nothing is dropped from the cache *)
Definition undisturbed (l : list action) : Prop :=
  forall a, In a l -> match a with FailCleanly _ | Abandon _ | Evict _ => False | _ => True end.
(* nothing fails; entries may be dropped *)
Definition unfailing (l : list action) : Prop :=
  forall a, In a l -> match a with FailCleanly _ | Abandon _ => False | _ => True end.
