(* Model of crates/storage/src/bloom.rs: Bloom filters of single blocks and aggregates of
   them over ranges of blocks.

   The two sizes are parameters: bloom_bytes is BITVEC_BYTES (bloom.rs:455, 2048) and
   range_bytes is BLOCK_RANGE_BYTES (bloom.rs:97, 1024, or 3 with small_aggregate_filters).
   The two keyed SipHashes (bloom.rs:431-440) are parameters, any functions to u64.
   zstd compression of stored bitmaps and the cache are not modelled here. *)
From Coq Require Import List NArith PeanoNat Bool.
Import ListNotations.
Local Open Scope N_scope.

(* Assignment to an element of a Vec.  All indices below are in range. *)
Fixpoint upd (i : nat) (f : N -> N) (l : list N) : list N :=
  match l, i with
  | [], _ => []
  | x :: l, O => f x :: l
  | x :: l, S i => x :: upd i f l
  end.

Section Bloom.
  Variables bloom_bytes range_bytes : nat.
  Variables sip0 sip1 : N -> N.

  Definition bloom_bits : nat := 8 * bloom_bytes.     (* BITVEC_BITS, bloom.rs:453 *)
  Definition range_len : nat := 8 * range_bytes.      (* AGGREGATE_BLOOM_BLOCK_RANGE_LEN, bloom.rs:72-78 *)
  Definition k_num : nat := 12.                       (* K_NUM, bloom.rs:442 *)

  (* BloomFilter::new, bloom.rs:458-461 *)
  Definition bloom_new : list N := repeat 0 bloom_bytes.

  (* bloom_hash, bloom.rs:506-517: the hash and the updated pair of base hashes. *)
  Definition bloom_hash (hashes : N * N) (item : N) (k_i : nat) : N * (N * N) :=
    if Nat.ltb k_i 2 then
      if Nat.eqb k_i 0 then (sip0 item, (sip0 item, snd hashes))
      else (sip1 item, (fst hashes, sip1 item))
    else
      (((fst hashes + (N.of_nat k_i * snd hashes) mod 2 ^ 64) mod 2 ^ 64) mod 0xFFFFFFFFFFFFFFC5, hashes).

  (* BitVec<u8, Msb0>::set(i, true) of the bitvec crate: the first bit is the highest. *)
  Definition bit_set (i : nat) (bytes : list N) : list N :=
    upd (i / 8) (fun b => N.lor b (N.shiftl 1 (N.of_nat (7 - i mod 8)))) bytes.

  (* BloomFilter::set, bloom.rs:486-492 *)
  Fixpoint set_loop (item : N) (hashes : N * N) (ks : list nat) (bits : list N) : list N :=
    match ks with
    | [] => bits
    | k_i :: ks =>
        let (h, hashes) := bloom_hash hashes item k_i in
        let bit_offset := N.to_nat (h mod N.of_nat bloom_bits) in
        set_loop item hashes ks (bit_set bit_offset bits)
    end.
  Definition bloom_set (item : N) (bits : list N) : list N := set_loop item (0, 0) (seq 0 k_num) bits.

  (* indices_for_key, bloom.rs:495-504 *)
  Fixpoint indices_loop (key : N) (hashes : N * N) (ks : list nat) : list nat :=
    match ks with
    | [] => []
    | k_i :: ks =>
        let (h, hashes) := bloom_hash hashes key k_i in
        N.to_nat (h mod N.of_nat bloom_bits) :: indices_loop key hashes ks
    end.
  Definition indices_for_key (key : N) : list nat := indices_loop key (0, 0) (seq 0 k_num).

  (* BlockRange, bloom.rs:237-345: EMPTY and FULL, & and |, iter_ones. *)
  Definition range_empty : list N := repeat 0 range_bytes.
  Definition range_full : list N := repeat 255 range_bytes.
  Fixpoint zip_with (f : N -> N -> N) (a b : list N) : list N :=
    match a, b with
    | x :: a, y :: b => f x y :: zip_with f a b
    | a, _ => a
    end.
  Definition range_and := zip_with N.land.
  Definition range_or := zip_with N.lor.
  Definition iter_ones (r : list N) : list nat :=
    flat_map (fun ib => let (byte_idx, byte) := ib : nat * N in
      flat_map (fun bit_idx =>
        if N.land (N.shiftr byte (N.of_nat (7 - bit_idx))) 1 =? 1 then [(byte_idx * 8 + bit_idx)%nat] else []) (seq 0 8))
      (combine (seq 0 (length r)) r).

  (* AggregateBloom, bloom.rs:84-95 *)
  Record aggregate := mkAgg { bitmap : list N; from_block : N; to_block : N }.

  (* new, bloom.rs:102-106 *)
  Definition agg_new (from : N) : aggregate :=
    mkAgg (repeat 0 (range_bytes * bloom_bits)) from (from + N.of_nat range_len - 1).

  (* insert, bloom.rs:145-182; None is the panic for a block outside the range. *)
  Definition insert_byte (byte_idx bit_idx : nat) (bm : list N) (ib : nat * N) : list N :=
    let (i, bloom_byte) := ib in
    let row_idx_base := (8 * i)%nat in
    fold_left (fun bm offset =>
      let row_idx := ((row_idx_base + offset) * range_bytes)%nat in
      let bitmap_idx := (row_idx + byte_idx)%nat in
      let bit := N.land (N.shiftr bloom_byte (N.of_nat (7 - offset))) 1 in
      upd bitmap_idx (fun b => N.lor b (N.shiftl bit (N.of_nat (7 - bit_idx)))) bm) (seq 0 8) bm.
  Definition agg_insert (a : aggregate) (bloom : list N) (block_number : N) : option aggregate :=
    if (from_block a <=? block_number) && (block_number <=? to_block a) then
      let relative_block_number := N.to_nat (block_number - from_block a) in
      let byte_idx := (relative_block_number / 8)%nat in
      let bit_idx := (relative_block_number mod 8)%nat in
      Some (mkAgg
        (fold_left (insert_byte byte_idx bit_idx)
          (filter (fun ib => negb (snd ib =? 0)) (combine (seq 0 (length bloom)) bloom)) (bitmap a))
        (from_block a) (to_block a))
    else None.

  (* blocks_for_keys, bloom.rs:189-213 *)
  Definition range_of_row (a : aggregate) (row_idx : nat) : list N :=
    let row_start := (row_idx * range_bytes)%nat in
    let row_end := (row_start + range_bytes)%nat in
    firstn (row_end - row_start) (skipn row_start (bitmap a)).
  Definition blocks_for_keys (a : aggregate) (keys : list N) : list N :=
    match keys with
    | [] => range_full
    | _ =>
        fold_left (fun block_matches k =>
          range_or block_matches
            (fold_left (fun matches_for_key row_idx => range_and matches_for_key (range_of_row a row_idx))
              (indices_for_key k) range_full)) keys range_empty
    end.
End Bloom.
