(* What a contract's leaf of the global storage trie holds as of a block: the vocabulary of the
   properties of reverse updates. *)
From Coq Require Import List NArith Bool.
From Verif Require Import AList StateUpdateModel ChainModel ChainSpec.
Import ListNotations.
Local Open Scope N_scope.

(* zero is the same as absent *)
Definition value (o : option N) : N := match o with Some v => v | None => 0 end.
(* a storage trie holds the non-zero values *)
Definition holds (t : nmap N) (f : N -> option N) : Prop :=
  forall k, nget k t = if value (f k) =? 0 then None else f k.

(* the leaf of contract [a] as of block n; system contracts have no class *)
Definition leaf_at (c : chain) (n a : N) (l : leaf) : Prop :=
  (if is_system a then lf_class l = 0 else class_at c n a = Some (lf_class l)) /\
  lf_nonce l = value (nonce_at c n a) /\
  holds (lf_storage l) (storage_at c n a).
(* there is no leaf: the contract is not deployed; for a system contract, its storage is empty *)
Definition no_leaf_at (c : chain) (n a : N) : Prop :=
  class_at c n a = None /\ forall k, value (storage_at c n a k) = 0.
Definition leaf_is (c : chain) (n a : N) (o : option leaf) : Prop :=
  match o with Some l => leaf_at c n a l | None => no_leaf_at c n a end.

(* the leaves as of two blocks are the same *)
Definition same_leaf (c : chain) (n n' a : N) : Prop :=
  class_at c n a = class_at c n' a /\ nonce_at c n a = nonce_at c n' a /\
  forall k, storage_at c n a k = storage_at c n' a k.
