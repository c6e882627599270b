From Coq Require Import List NArith PeanoNat Bool Lia ZifyBool ZifyN ZifyNat Sorted.
From Verif Require Import BloomModel BloomSpec BloomProof.
Import ListNotations.
Local Open Scope N_scope.

(* C28: a key inserted into a filter is found, whatever else is inserted. *)
Theorem C28_inserted_keys_are_found : forall bloom_bytes sip0 sip1 keys k,
  (0 < bloom_bytes)%nat -> In k keys ->
  found bloom_bytes sip0 sip1 (bloom_of bloom_bytes sip0 sip1 keys) k.
Proof.
  intros bb s0 s1 keys k P I i J. apply (bloom_bit bb 1 s0 s1 P Nat.lt_0_1). exists k. split; assumption.
Qed.
Print Assumptions C28_inserted_keys_are_found.

(* C28, and nothing else is set: inserting keys sets exactly their bits, 12 for each key and
   all of them inside the filter. *)
Theorem C28_only_bits_of_keys : forall bloom_bytes sip0 sip1 keys,
  (0 < bloom_bytes)%nat ->
  length (bloom_of bloom_bytes sip0 sip1 keys) = bloom_bytes /\
  (forall i, bit (bloom_of bloom_bytes sip0 sip1 keys) i = true <->
             exists k, In k keys /\ In i (indices_for_key bloom_bytes sip0 sip1 k)) /\
  forall k, length (indices_for_key bloom_bytes sip0 sip1 k) = 12%nat /\
            Forall (fun i => (i < 8 * bloom_bytes)%nat) (indices_for_key bloom_bytes sip0 sip1 k).
Proof.
  intros bb s0 s1 keys P. split; [apply (bloom_of_spec bb 1 s0 s1 P Nat.lt_0_1)|]. split; [apply (bloom_bit bb 1 s0 s1 P Nat.lt_0_1)|].
  intros k. split; [|apply (indices_bound bb 1 s0 s1 P Nat.lt_0_1)]. reflexivity.
Qed.
Print Assumptions C28_only_bits_of_keys.

(* C29: every block inserted into an aggregate with a key is reported for any set of keys
   with that key, under its own number; and for no keys all blocks of the range are. *)
Theorem C29_no_false_negatives : forall bloom_bytes range_bytes sip0 sip1 from blocks a,
  (0 < bloom_bytes)%nat -> (0 < range_bytes)%nat ->
  agg_of bloom_bytes range_bytes sip0 sip1 from blocks = Some a ->
  (forall n ks k keys, In (n, ks) blocks -> In k ks -> In k keys ->
     In n (reported bloom_bytes range_bytes sip0 sip1 a keys)) /\
  forall n, In n (reported bloom_bytes range_bytes sip0 sip1 a []) <-> from <= n < from + 8 * N.of_nat range_bytes.
Proof.
  intros bb rb s0 s1 from blocks a P PR E. destruct (agg_of_spec bb rb s0 s1 P PR from blocks a E) as (W & F & B). split.
  - intros n ks k keys I IK IK'. rewrite Forall_forall in F. specialize (F _ I). cbn [fst] in F.
    apply (reported_in bb rb s0 s1 P PR from a keys n W). split; [exact F|].
    destruct keys as [|k0 keys0]; [destruct IK'|]. apply existsb_exists. exists k. split; [exact IK'|].
    apply forallb_forall. intros i II. pose proof (indices_bound bb 1 s0 s1 P Nat.lt_0_1 k) as IB. rewrite Forall_forall in IB.
    specialize (IB _ II). apply B; [exact IB|lia|]. exists ks, k.
    replace (from + N.of_nat (N.to_nat (n - from))) with n by lia. auto.
  - intros n. rewrite (reported_in bb rb s0 s1 P PR from a [] n W). unfold range_len.
    replace (N.of_nat (8 * rb)) with (8 * N.of_nat rb) by lia. tauto.
Qed.
Print Assumptions C29_no_false_negatives.

(* C29, exactly: a block of the range is reported if and only if all bits of one of the keys
   come from keys inserted for that very block; blocks come in ascending order. *)
Theorem C29_reported_blocks : forall bloom_bytes range_bytes sip0 sip1 from blocks a keys,
  (0 < bloom_bytes)%nat -> (0 < range_bytes)%nat ->
  agg_of bloom_bytes range_bytes sip0 sip1 from blocks = Some a -> keys <> [] ->
  StronglySorted N.lt (reported bloom_bytes range_bytes sip0 sip1 a keys) /\
  forall n, In n (reported bloom_bytes range_bytes sip0 sip1 a keys) <->
    from <= n < from + 8 * N.of_nat range_bytes /\
    exists k, In k keys /\ forall i, In i (indices_for_key bloom_bytes sip0 sip1 k) ->
      exists ks k', In (n, ks) blocks /\ In k' ks /\ In i (indices_for_key bloom_bytes sip0 sip1 k').
Proof.
  intros bb rb s0 s1 from blocks a keys P PR E NE.
  destruct (agg_of_spec bb rb s0 s1 P PR from blocks a E) as (W & F & B).
  split; [apply (reported_sorted bb rb s0 s1 P PR from), W|]. intros n.
  rewrite (reported_in bb rb s0 s1 P PR from a keys n W). destruct keys as [|k0 keys0]; [congruence|].
  unfold range_len at 1. replace (N.of_nat (8 * rb)) with (8 * N.of_nat rb) by lia.
  rewrite existsb_exists.
  assert (X : forall k, from <= n < from + 8 * N.of_nat rb ->
    (forallb (fun i => bit (bitmap a) (i * range_len rb + N.to_nat (n - from))) (indices_for_key bb s0 s1 k) = true <->
     forall i, In i (indices_for_key bb s0 s1 k) ->
      exists ks k', In (n, ks) blocks /\ In k' ks /\ In i (indices_for_key bb s0 s1 k'))).
  { intros k L. rewrite forallb_forall. pose proof (indices_bound bb 1 s0 s1 P Nat.lt_0_1 k) as IB. rewrite Forall_forall in IB.
    split; intros H i I; specialize (H i I); specialize (IB _ I).
    - apply B in H; [|exact IB|unfold range_len; lia]. replace (from + N.of_nat (N.to_nat (n - from))) with n in H by lia. exact H.
    - apply B; [exact IB|unfold range_len; lia|]. replace (from + N.of_nat (N.to_nat (n - from))) with n by lia. exact H. }
  split; intros [L (k & I & H)]; (split; [exact L|]); exists k; (split; [exact I|]); apply (X k L), H.
Qed.
Print Assumptions C29_reported_blocks.

(* C29: inserting panics exactly for blocks outside the range. *)
Theorem C29_insert_in_range : forall bloom_bytes range_bytes sip0 sip1 from blocks,
  (0 < bloom_bytes)%nat -> (0 < range_bytes)%nat ->
  ((exists a, agg_of bloom_bytes range_bytes sip0 sip1 from blocks = Some a) <->
   forall n ks, In (n, ks) blocks -> from <= n < from + 8 * N.of_nat range_bytes).
Proof.
  intros bb rb s0 s1 from blocks P PR. split.
  - intros (a & E) n ks I. destruct (agg_of_spec bb rb s0 s1 P PR from blocks a E) as (_ & F & _).
    rewrite Forall_forall in F. specialize (F _ I). unfold range_len in F. cbn [fst] in F. lia.
  - intros H. apply (agg_of_total bb rb s0 s1 P PR). apply Forall_forall. intros [n ks] I. cbn [fst].
    unfold range_len. specialize (H n ks I). lia.
Qed.
Print Assumptions C29_insert_in_range.

Module BloomExamples.
  Definition s0 (x : N) := (x * 37 + 11) mod 2 ^ 64.
  Definition s1 (x : N) := (x * 101 + 5) mod 2 ^ 64.
  Definition blocks : list (N * list N) := [(24, [7; 1000]); (25, []); (47, [7]); (30, [2 ^ 200])].

  (* 128 bits per block, 24 blocks per aggregate *)
  Example aggregate_of_four :
    option_map (fun a => (reported 16 3 s0 s1 a [7], reported 16 3 s0 s1 a [2 ^ 200; 1000], reported 16 3 s0 s1 a [8]))
      (agg_of 16 3 s0 s1 24 blocks) = Some ([24; 47], [24; 30], []).
  Proof. vm_compute. reflexivity. Qed.
  Example outside : agg_of 16 3 s0 s1 24 [(48, [1])] = None.
  Proof. vm_compute. reflexivity. Qed.
  Example bits_of_a_key : indices_for_key 16 s0 s1 7 = [14; 72; 30; 102; 46; 118; 62; 6; 78; 22; 94; 38]%nat.
  Proof. vm_compute. reflexivity. Qed.
  Example inserted : In 7 [3; 7; 9] /\ map (bit (bloom_of 16 s0 s1 [3; 7; 9])) [14; 72; 30; 102; 46; 118; 62; 6; 78; 22; 94; 38]%nat = repeat true 12.
  Proof. split; [simpl; auto|vm_compute; reflexivity]. Qed.
End BloomExamples.
