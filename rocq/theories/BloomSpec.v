(* Vocabulary for the statements about Bloom filters. *)
From Coq Require Import List NArith PeanoNat Bool.
From Verif Require Import BloomModel.
Import ListNotations.
Local Open Scope N_scope.

(* Bit i of an array of bytes, the highest bit of a byte being its first. *)
Definition bit (bytes : list N) (i : nat) : bool :=
  N.testbit (nth (i / 8) bytes 0) (N.of_nat (7 - i mod 8)).

Section Spec.
  Variables bloom_bytes range_bytes : nat.
  Variables sip0 sip1 : N -> N.

  (* The filter of a block with these keys. *)
  Definition bloom_of (keys : list N) : list N :=
    fold_left (fun b k => bloom_set bloom_bytes sip0 sip1 k b) keys (bloom_new bloom_bytes).

  (* A filter is positive for a key if all bits of the key are set. *)
  Definition found (bloom : list N) (key : N) : Prop :=
    forall i, In i (indices_for_key bloom_bytes sip0 sip1 key) -> bit bloom i = true.

  (* The aggregate after the given blocks were inserted, in order, each with its keys. *)
  Definition agg_of (from : N) (blocks : list (N * list N)) : option aggregate :=
    fold_left (fun a b => match a with
                          | Some a => agg_insert range_bytes a (bloom_of (snd b)) (fst b)
                          | None => None
                          end) blocks (Some (agg_new bloom_bytes range_bytes from)).

  (* The blocks an aggregate reports for a set of keys. *)
  Definition reported (a : aggregate) (keys : list N) : list N :=
    map (fun i => from_block a + N.of_nat i) (iter_ones (blocks_for_keys bloom_bytes range_bytes sip0 sip1 a keys)).
End Spec.
