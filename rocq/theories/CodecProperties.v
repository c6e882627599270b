(** C16: the bytes of a stored trie node determine the node.  Definitions are in
    CodecModel.v. *)
From Coq Require Import List Bool Arith NArith ZArith Lia ZifyBool ZifyNat ZifyN.
From Verif Require Import Radix MerkleModel CommitModel CommitProof CodecModel CodecProof.
Import ListNotations.
Local Open Scope N_scope.

(* A node whose row numbers are 64-bit numbers and whose path has at most [l] bits. *)
Definition node_ok (l : nat) (n : stored) : Prop :=
  match n with
  | SBin a b => a < 2 ^ 64 /\ b < 2 ^ 64
  | SEdge c p => c < 2 ^ 64 /\ (length p <= l)%nat
  | SLeafBin => True
  | SLeafEdge p => (length p <= l)%nat
  end.

Lemma node_fits dead n : node_ok 255 n -> fits (to_serde dead n).
Proof.
  destruct n as [a b|c p| |p]; cbn [node_ok to_serde fits]; auto.
  - intros [C L]. pose proof (path_bytes_length dead p L). unfold len. split; [exact C|lia].
  - intros L. pose proof (path_bytes_length dead p L). unfold len. lia.
Qed.

(* Encoding succeeds, takes at most 44 of the 256 bytes of the buffer, and decoding gives the
   node back - whatever the unused bits of the path's last byte are, and whatever follows. *)
Theorem C16_round_trip dead n rest :
  node_ok 251 n ->
  exists bs, encode_node 256 dead n = Some bs /\ (length bs <= 44)%nat /\
    Forall (fun b => b < 256) bs /\ decode_node (bs ++ rest) = Some n.
Proof.
  intros O.
  assert (O5 : node_ok 255 n) by (destruct n; cbn [node_ok] in *; intuition lia).
  exists (encode_serde (to_serde dead n)).
  assert (L : (length (encode_serde (to_serde dead n)) <= 44)%nat).
  { destruct n as [a b|c p| |p]; cbn [to_serde encode_serde]; unfold encode_bytes;
      rewrite ?app_length; change (length (encode_uint 0)) with 1%nat;
      change (length (encode_uint 1)) with 1%nat; change (length (encode_uint 2)) with 1%nat;
      change (length (encode_uint 3)) with 1%nat.
    - pose proof (uint_length a). pose proof (uint_length b). lia.
    - pose proof (path_bytes_length dead p (proj2 O5)) as LP.
      assert (LL : length (encode_uint (len (path_bytes dead p))) = 1%nat).
      { unfold encode_uint. destruct (N.leb_spec (len (path_bytes dead p)) 250); [reflexivity|].
        unfold len in *. lia. }
      pose proof (uint_length c). rewrite LL. lia.
    - lia.
    - pose proof (path_bytes_length dead p O5) as LP.
      pose proof (uint_length (len (path_bytes dead p))). lia. }
  split; [|split; [exact L|split]].
  - unfold encode_node. destruct (N.leb_spec (len (encode_serde (to_serde dead n))) 256); [reflexivity|].
    unfold len in *. lia.
  - assert (PB : forall p, Forall (fun b => b < 256) (path_bytes dead p)).
    { intros p. unfold path_bytes. apply Forall_app. split.
      - unfold into_vec. generalize (length p) at 1. intros f.
        generalize (p ++ map dead (seq 0 (pad_len (length p)))). induction f as [|f IH]; intros l; [constructor|].
        destruct l as [|x l]; [constructor|]. cbn [pack]. constructor; [|apply IH].
        eapply N.lt_le_trans; [apply MerkleMemberProof.bits_val_bound|].
        change 256 with (2 ^ N.of_nat 8). apply N.pow_le_mono_r; [lia|].
        rewrite firstn_length. lia.
      - constructor; [|constructor]. apply N.mod_lt. lia. }
    destruct n as [a b|c p| |p]; cbn [to_serde encode_serde]; unfold encode_bytes;
      rewrite ?Forall_app; repeat split; try apply uint_bytes; apply PB.
  - unfold decode_node. rewrite serde_round by (apply node_fits; exact O5).
    destruct n as [a b|c p| |p]; cbn [to_serde]; try reflexivity.
    + rewrite path_round by (destruct O5; assumption). reflexivity.
    + rewrite path_round by exact O5. reflexivity.
Qed.
Print Assumptions C16_round_trip.

Example C16_meets :
  let n := SEdge 123456789 (repeat true 250 ++ [false]) in
  node_ok 251 n /\ option_map (@length N) (encode_node 256 (fun _ => true) n) = Some 40%nat /\
  encode_node 256 (fun i => Nat.odd i) (SEdge 70000 [true; false; true]) =
    Some [1; 252; 112; 17; 1; 0; 2; 170; 3] /\
  decode_node [1; 252; 112; 17; 1; 0; 2; 181; 3; 99] = Some (SEdge 70000 [true; false; true]).
Proof.
  split; [split; [reflexivity|apply Nat.leb_le; reflexivity]|].
  split; [vm_compute; reflexivity|]. split; vm_compute; reflexivity.
Qed.

(* The code stores the path length in one byte.  It would still do for 255 bits; it does not for
   256, which cannot occur in a tree of height 251. *)
Theorem C16_longest_path dead p : (length p <= 255)%nat ->
  decode_path (path_bytes dead p) = Some p.
Proof. apply path_round. Qed.
Print Assumptions C16_longest_path.

Theorem C16_longer_path_refuted :
  exists p, length p = 256%nat /\ forall dead, decode_path (path_bytes dead p) <> Some p.
Proof.
  exists (repeat true 256). split; [reflexivity|]. intros dead E.
  assert (X : decode_path (path_bytes dead (repeat true 256)) = Some []) by (vm_compute; reflexivity).
  rewrite X in E. discriminate.
Qed.
Print Assumptions C16_longer_path_refuted.

(* Two nodes never share their bytes. *)
Theorem C16_distinct dead1 dead2 n1 n2 bs :
  node_ok 251 n1 -> node_ok 251 n2 ->
  encode_node 256 dead1 n1 = Some bs -> encode_node 256 dead2 n2 = Some bs -> n1 = n2.
Proof.
  intros O1 O2 E1 E2.
  destruct (C16_round_trip dead1 n1 [] O1) as (b1 & F1 & _ & _ & D1).
  destruct (C16_round_trip dead2 n2 [] O2) as (b2 & F2 & _ & _ & D2).
  assert (b1 = b2) by congruence. subst b2. congruence.
Qed.
Print Assumptions C16_distinct.

(* The list of removed nodes that pruning reads is the one that was written. *)
Theorem C16_removed_round_trip is :
  Forall (fun i => i < 2 ^ 64) is -> len is < 2 ^ 64 ->
  decode_removed (encode_removed is) = Some is.
Proof.
  intros F L. unfold decode_removed, encode_removed. rewrite u64_round by exact L.
  rewrite <- (app_nil_r (flat_map encode_uint is)). rewrite u64s_round; [reflexivity|exact F|].
  rewrite app_nil_r. apply u64s_length.
Qed.
Print Assumptions C16_removed_round_trip.

Example C16_removed_meets :
  Forall (fun i => i < 2 ^ 64) [1; 250; 251; 65536; 18446744073709551615] /\
  encode_removed [1; 250; 251; 65536; 18446744073709551615] =
    [5; 1; 250; 251; 251; 0; 252; 0; 0; 1; 0; 253; 255; 255; 255; 255; 255; 255; 255; 255].
Proof. split; [repeat constructor|vm_compute; reflexivity]. Qed.
