(** Proofs for C16. *)
From Coq Require Import List Bool Arith NArith ZArith Lia ZifyBool ZifyNat ZifyN.
From Verif Require Import Radix MerkleModel MerkleSpec MerkleProof MerkleMemberProof CommitModel CommitProof CodecModel.
Import ListNotations.
Local Open Scope N_scope.
#[local] Arguments be_bits : simpl never.
#[local] Arguments encode_uint : simpl never.

Lemma le_bytes_length w n : length (le_bytes w n) = w.
Proof. unfold le_bytes. rewrite rev_length. apply rdigits_length. Qed.
Lemma le_val_bytes w n : n < 256 ^ N.of_nat w -> le_val (le_bytes w n) = n.
Proof. intros B. unfold le_val, le_bytes. rewrite rev_involutive. apply rval_rdigits; lia. Qed.
Lemma take_app k l r : length l = k -> take k (l ++ r) = Some (l, r).
Proof.
  intros L. unfold take. rewrite app_length. destruct (Nat.ltb_spec (length l + length r) k); [lia|].
  rewrite firstn_app, skipn_app, L, Nat.sub_diag. cbn [firstn skipn].
  rewrite <- L, firstn_all, skipn_all. rewrite app_nil_r. reflexivity.
Qed.
Lemma take_le w n r : n < 256 ^ N.of_nat w ->
  option_map (fun x => (le_val (fst x), snd x)) (take w (le_bytes w n ++ r)) = Some (n, r).
Proof.
  intros B. rewrite take_app by apply le_bytes_length. cbn [option_map fst snd].
  rewrite le_val_bytes by exact B. reflexivity.
Qed.

Lemma u64_round n r : n < 2 ^ 64 -> decode_u64 (encode_uint n ++ r) = Some (n, r).
Proof.
  intros B. unfold encode_uint.
  destruct (N.leb_spec n 250); [cbn [app decode_u64]; destruct (N.leb_spec n 250); [reflexivity|lia]|].
  destruct (N.leb_spec n 65535); [apply (take_le 2); change (256 ^ N.of_nat 2) with 65536; lia|].
  destruct (N.leb_spec n 4294967295).
  - apply (take_le 4). change (256 ^ N.of_nat 4) with 4294967296. lia.
  - apply (take_le 8). change (256 ^ N.of_nat 8) with (2 ^ 64). lia.
Qed.
Lemma tag_round n r : n <= 250 -> decode_u32 (encode_uint n ++ r) = Some (n, r).
Proof.
  intros B. unfold encode_uint. destruct (N.leb_spec n 250); [|lia]. cbn [app decode_u32].
  destruct (N.leb_spec n 250); [reflexivity|lia].
Qed.
Lemma uint_length n : (1 <= length (encode_uint n) <= 9)%nat.
Proof.
  unfold encode_uint. destruct (n <=? 250); [cbn; lia|].
  destruct (n <=? 65535); [cbn [length]; rewrite le_bytes_length; lia|].
  destruct (n <=? 4294967295); cbn [length]; rewrite le_bytes_length; lia.
Qed.
Lemma uint_bytes n : Forall (fun b => b < 256) (encode_uint n).
Proof.
  assert (L : forall w, Forall (fun b => b < 256) (le_bytes w n)).
  { intros w. unfold le_bytes. apply Forall_rev. apply rdigits_lt. lia. }
  unfold encode_uint. destruct (N.leb_spec n 250); [constructor; [lia|constructor]|].
  destruct (n <=? 65535); [constructor; [lia|apply L]|].
  destruct (n <=? 4294967295); (constructor; [lia|apply L]).
Qed.

Lemma bytes_round bs r : len bs < 2 ^ 64 -> decode_bytes (encode_bytes bs ++ r) = Some (bs, r).
Proof.
  intros B. unfold decode_bytes, encode_bytes. rewrite <- app_assoc, u64_round by exact B.
  assert (L : (len (bs ++ r) <? len bs) = false) by (unfold len; rewrite app_length; lia).
  rewrite L. unfold len. rewrite Nat2N.id. apply take_app. reflexivity.
Qed.

Definition fits (s : serde) : Prop :=
  match s with
  | SerBinary l r => l < 2 ^ 64 /\ r < 2 ^ 64
  | SerEdge c p => c < 2 ^ 64 /\ len p < 2 ^ 64
  | SerLeafBinary => True
  | SerLeafEdge p => len p < 2 ^ 64
  end.
Lemma serde_round s r : fits s -> decode_serde (encode_serde s ++ r) = Some (s, r).
Proof.
  destruct s as [a b|c p| |p]; cbn [fits encode_serde]; intros F; unfold decode_serde;
    rewrite <- ?app_assoc, tag_round by lia.
  - change (0 =? 0) with true. cbv iota. rewrite !u64_round by tauto. reflexivity.
  - change (1 =? 0) with false. change (1 =? 1) with true. cbv iota.
    rewrite u64_round, bytes_round by tauto. reflexivity.
  - reflexivity.
  - change (3 =? 0) with false. change (3 =? 1) with false. change (3 =? 2) with false.
    change (3 =? 3) with true. cbv iota. rewrite bytes_round by tauto. reflexivity.
Qed.

(** paths *)
Lemma be_bits_of k : be_bits (length k) (bits_val k) = k.
Proof.
  apply bits_val_inj; [apply be_bits_length|]. rewrite be_bits_val. apply N.mod_small.
  apply bits_val_bound.
Qed.

Lemma from_vec_pack fuel : forall bs, (length bs <= 8 * fuel)%nat -> (length bs mod 8 = 0)%nat ->
  from_vec (pack fuel bs) = bs /\ length (pack fuel bs) = (length bs / 8)%nat.
Proof.
  induction fuel as [|f IH]; intros bs L M.
  - destruct bs; [split; reflexivity|cbn in L; lia].
  - destruct bs as [|b bs]; [split; reflexivity|]. remember (b :: bs) as l.
    assert (P : (8 <= length l)%nat).
    { assert (length l <> 0)%nat by (subst; cbn; lia).
      destruct (Nat.le_gt_cases 8 (length l)) as [G|G]; [exact G|]. rewrite Nat.mod_small in M by exact G. lia. }
    assert (E : pack (S f) l = bits_val (firstn 8 l) :: pack f (skipn 8 l)) by (subst; reflexivity).
    assert (F8 : length (firstn 8 l) = 8%nat) by (rewrite firstn_length; lia).
    assert (S8 : length (skipn 8 l) = (length l - 8)%nat) by apply skipn_length.
    assert (D : length l = (length (skipn 8 l) + 1 * 8)%nat) by lia.
    destruct (IH (skipn 8 l)) as [I1 I2].
    { lia. }
    { rewrite D, Nat.mod_add in M by lia. exact M. }
    rewrite E. split.
    + change (from_vec (bits_val (firstn 8 l) :: pack f (skipn 8 l)))
        with (be_bits 8 (bits_val (firstn 8 l)) ++ from_vec (pack f (skipn 8 l))).
      rewrite I1. rewrite <- F8 at 1. rewrite be_bits_of. apply firstn_skipn.
    + cbn [length]. rewrite I2. rewrite D. rewrite Nat.div_add by lia. lia.
Qed.

Lemma pad_multiple n : ((n + pad_len n) mod 8 = 0)%nat /\ (n + pad_len n <= 8 * n)%nat /\ (pad_len n <= 7)%nat.
Proof.
  unfold pad_len. pose proof (Nat.div_mod (n + 7) 8 ltac:(lia)) as D.
  pose proof (Nat.mod_upper_bound (n + 7) 8 ltac:(lia)) as B.
  assert (E : (n + (7 - (n + 7) mod 8) = 8 * ((n + 7) / 8))%nat) by lia.
  split; [|split; [|lia]].
  - rewrite E, Nat.mul_comm. apply Nat.mod_mul. lia.
  - destruct n; [reflexivity|]. lia.
Qed.

Lemma resize_app p q : resize (p ++ q) (length p) = p.
Proof.
  unfold resize. rewrite firstn_app, firstn_all, Nat.sub_diag, app_length. cbn [firstn].
  replace (length p - (length p + length q))%nat with 0%nat by lia. cbn [repeat]. rewrite !app_nil_r. reflexivity.
Qed.

Lemma into_vec_facts dead p :
  from_vec (into_vec dead p) = p ++ map dead (seq 0 (pad_len (length p))) /\
  (8 * length (into_vec dead p) = length p + pad_len (length p))%nat.
Proof.
  unfold into_vec. destruct (pad_multiple (length p)) as (M & L & _).
  destruct (from_vec_pack (length p) (p ++ map dead (seq 0 (pad_len (length p))))) as [A B].
  - rewrite app_length, map_length, seq_length. exact L.
  - rewrite app_length, map_length, seq_length. exact M.
  - split; [exact A|]. rewrite B, app_length, map_length, seq_length.
    pose proof (Nat.div_mod (length p + pad_len (length p)) 8 ltac:(lia)). lia.
Qed.

Lemma path_round dead p : (length p <= 255)%nat -> decode_path (path_bytes dead p) = Some p.
Proof.
  intros L. unfold decode_path, pop, path_bytes. rewrite rev_app_distr. cbn [rev app].
  rewrite rev_involutive. rewrite (proj1 (into_vec_facts dead p)).
  rewrite N.mod_small by (unfold len; lia). unfold len. rewrite Nat2N.id.
  rewrite resize_app. reflexivity.
Qed.

Lemma path_bytes_length dead p : (length p <= 255)%nat -> (length (path_bytes dead p) <= 33)%nat.
Proof.
  intros L. unfold path_bytes. rewrite app_length. cbn [length].
  pose proof (proj2 (into_vec_facts dead p)). pose proof (pad_multiple (length p)) as (M & _ & B).
  assert ((length p + pad_len (length p)) <= 256)%nat; [|lia].
  pose proof (Nat.div_mod (length p + pad_len (length p)) 8 ltac:(lia)). lia.
Qed.

(** lists of removed nodes *)
Lemma u64s_round is : forall fuel r, Forall (fun i => i < 2 ^ 64) is -> (length is <= fuel)%nat ->
  decode_u64s fuel (len is) (flat_map encode_uint is ++ r) = Some (is, r).
Proof.
  induction is as [|i is IH]; intros fuel r F L.
  - destruct fuel; reflexivity.
  - destruct fuel as [|f]; [cbn in L; lia|]. cbn [decode_u64s flat_map].
    destruct (N.eqb_spec (len (i :: is)) 0) as [E|_]; [rewrite len_cons in E; lia|].
    inversion F as [|? ? Fi Fis]; subst. rewrite <- app_assoc, u64_round by exact Fi.
    replace (len (i :: is) - 1) with (len is) by (rewrite len_cons; lia).
    rewrite IH; [reflexivity|exact Fis|cbn in L; lia].
Qed.
Lemma u64s_length is : (length is <= length (flat_map encode_uint is))%nat.
Proof.
  induction is as [|i is IH]; [reflexivity|]. cbn [flat_map length]. rewrite app_length.
  pose proof (uint_length i). lia.
Qed.
