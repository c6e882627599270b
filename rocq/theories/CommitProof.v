(** Proofs for C17, C52 and C56. *)
From Coq Require Import List Bool Arith NArith Lia ZifyBool ZifyNat ZifyN.
From Verif Require Import Radix MerkleModel MerkleSpec MerkleProof MerkleTreeProof MerkleCommitProof
  MerkleMemberProof TrieDbModel TrieDbSpec TrieRowsProof TrieDbProof TrieLoopProof TrieInvProof
  TrieFinalProof HashModel VersionModel CommitModel CommitSpec.
From Verif Require FeltModel FeltSpec FeltProof VersionSpec VersionProof VersionProperties HashProperties.
Import ListNotations.
Local Open Scope N_scope.

#[local] Arguments be_bits : simpl never.
#[local] Arguments item : simpl never.

Lemma len_nil A : len (@nil A) = 0. Proof. reflexivity. Qed.
Lemma len_cons A (a : A) l : len (a :: l) = len l + 1.
Proof. unfold len. cbn [length]. lia. Qed.

(** ---- keys ---- *)

Lemma be_bits_length w n : length (be_bits w n) = w.
Proof. induction w; [reflexivity|]. change (S (length (be_bits w n)) = S w). now rewrite IHw. Qed.

Lemma be_bits_val w n : bits_val (be_bits w n) = n mod 2 ^ N.of_nat w.
Proof.
  induction w as [|w IH].
  - change (0 = n mod 1). now rewrite N.mod_1_r.
  - change (be_bits (S w) n) with ([N.testbit n (N.of_nat w)] ++ be_bits w n).
    rewrite bits_val_app, be_bits_length, IH.
    replace (N.of_nat (S w)) with (N.of_nat w + 1) by lia.
    rewrite N.pow_add_r, N.pow_1_r. 
    assert (2 ^ N.of_nat w <> 0) by (apply N.pow_nonzero; lia).
    rewrite N.mod_mul_r by lia.
    rewrite N.testbit_eqb.
    assert (B : n / 2 ^ N.of_nat w mod 2 < 2) by (apply N.mod_lt; lia).
    unfold bits_val, bits_val_acc.
    revert B. generalize (n / 2 ^ N.of_nat w mod 2). intros x B.
    destruct (N.eqb_spec x 1) as [->|E].
    + rewrite N.mul_1_r. change (2 * 0 + 1) with 1. lia.
    + assert (x = 0) as -> by lia. change (2 * 0 + 0) with 0. lia.
Qed.

Lemma key_eqb k i : length k = 64%nat -> i < 2 ^ 64 -> bits_eqb k (be_bits 64 i) = (bits_val k =? i).
Proof.
  intros L B. pose proof (be_bits_val 64 i) as V. change (N.of_nat 64) with 64 in V.
  rewrite N.mod_small in V by exact B.
  destruct (bits_eqb_spec k (be_bits 64 i)) as [->|NE].
  - rewrite V. symmetry. apply N.eqb_refl.
  - symmetry. apply N.eqb_neq. intros E. apply NE. apply bits_val_inj.
    + now rewrite be_bits_length.
    + now rewrite V.
Qed.

Lemma item_0 h hs : item (h :: hs) 0 = h.
Proof. reflexivity. Qed.
Lemma item_S h hs i : i <> 0 -> item (h :: hs) i = item hs (i - 1).
Proof. intros N. change (item (h :: hs) i) with (if i =? 0 then h else item hs (i - 1)).
  destruct (N.eqb_spec i 0); [contradiction|reflexivity]. Qed.
Lemma item_out hs : forall i, len hs <= i -> item hs i = 0.
Proof.
  induction hs as [|h hs IH]; intros i L; [reflexivity|]. rewrite len_cons in L.
  rewrite item_S by lia. apply IH. lia.
Qed.
Lemma item_in hs : forall i, i < len hs -> In (item hs i) hs.
Proof.
  induction hs as [|h hs IH]; intros i L; [rewrite len_nil in L; lia|]. rewrite len_cons in L.
  destruct (N.eq_dec i 0) as [->|N]; [left; reflexivity|]. right. rewrite item_S by lia.
  apply IH. lia.
Qed.

Lemma items_ext hs1 : forall hs2,
  Forall (fun h => h <> 0) hs1 -> Forall (fun h => h <> 0) hs2 ->
  (forall i, item hs1 i = item hs2 i) -> hs1 = hs2.
Proof.
  induction hs1 as [|h1 hs1 IH]; intros [|h2 hs2] N1 N2 E; auto.
  - exfalso. specialize (E 0). change (0 = h2) in E. inversion N2. congruence.
  - exfalso. specialize (E 0). change (h1 = 0) in E. inversion N1. congruence.
  - f_equal; [exact (E 0)|]. apply IH; [now inversion N1|now inversion N2|].
    intros i. specialize (E (i + 1)). rewrite !item_S in E by lia.
    now replace (i + 1 - 1) with i in E by lia.
Qed.

(** ---- the tree ---- *)

Fixpoint item_ops (i : N) (hs : list felt) : list tree_op :=
  match hs with [] => [] | h :: hs' => TSet (be_bits 64 i) h :: item_ops (i + 1) hs' end.

Lemma item_ops_keys hs : forall i, Forall (fun o => length (op_key o) = 64%nat) (item_ops i hs).
Proof. induction hs as [|h hs IH]; intros i; constructor; [apply be_bits_length|apply IH]. Qed.

Lemma set_items_run hs : forall t i,
  i + len hs <= 2 ^ 64 ->
  set_items t i hs = do (t', _) <- run_script 64 null_storage t (item_ops i hs); Ok t'.
Proof.
  induction hs as [|h hs IH]; intros t i L; [reflexivity|]. rewrite len_cons in L.
  cbn [set_items item_ops run_script].
  destruct (N.ltb_spec i (2 ^ 64)); [|lia].
  destruct (tree_set 64 null_storage t (be_bits 64 i) h) as [t'| | |]; try reflexivity.
  cbn [obind]. apply IH. lia.
Qed.

Lemma set_items_long hs : forall t i, i <= 2 ^ 64 -> 2 ^ 64 < i + len hs ->
  forall t', set_items t i hs <> Ok t'.
Proof.
  induction hs as [|h hs IH]; intros t i B L t'; [rewrite len_nil in L; lia|].
  rewrite len_cons in L. cbn [set_items]. destruct (N.ltb_spec i (2 ^ 64)); [|discriminate].
  destruct (tree_set 64 null_storage t (be_bits 64 i) h) as [t1| | |]; try discriminate.
  cbn [obind]. apply IH; lia.
Qed.

Lemma item_ops_contents hs : forall i m k, length k = 64%nat -> i + len hs <= 2 ^ 64 ->
  fst (map_script m (item_ops i hs)) k =
  if (i <=? bits_val k) && (bits_val k <? i + len hs) then item hs (bits_val k - i) else m k.
Proof.
  induction hs as [|h hs IH]; intros i m k L B; cbn [item_ops map_script].
  - rewrite len_nil. cbn [fst]. destruct ((i <=? bits_val k) && (bits_val k <? i + 0)) eqn:E; [lia|reflexivity].
  - rewrite len_cons in *. rewrite IH by (auto; lia). unfold put. rewrite key_eqb by (auto; lia).
    destruct (N.eqb_spec (bits_val k) i) as [E|E].
    + rewrite E. destruct ((i + 1 <=? i) && (i <? i + 1 + len hs)) eqn:X; [lia|].
      destruct ((i <=? i) && (i <? i + (len hs + 1))) eqn:Y; [|lia].
      rewrite N.sub_diag. reflexivity.
    + destruct ((i + 1 <=? bits_val k) && (bits_val k <? i + 1 + len hs)) eqn:X;
      destruct ((i <=? bits_val k) && (bits_val k <? i + (len hs + 1))) eqn:Y; try lia; auto.
      rewrite item_S by lia. f_equal. lia.
Qed.

Lemma commitment_root_ok H hs : len hs <= 2 ^ 64 ->
  commitment_root H hs = Ok (spec_root H 64 (items hs)).
Proof.
  intros L. unfold commitment_root. rewrite set_items_run by lia.
  destruct (script_from_empty 64 ltac:(discriminate) ltac:(lia) H null_storage
              (item_ops 0 hs) (item_ops_keys hs 0)) as (t & u & E & C & R).
  rewrite E. cbn [obind]. rewrite C. cbn [obind]. rewrite R. f_equal.
  apply spec_root_ext. intros k Lk. rewrite item_ops_contents by (auto; lia).
  unfold items, no_contents. rewrite N.sub_0_r.
  destruct ((0 <=? bits_val k) && (bits_val k <? 0 + len hs)) eqn:X; auto.
  symmetry. apply item_out. lia.
Qed.

Lemma commitment_root_long H hs r : commitment_root H hs = Ok r -> len hs <= 2 ^ 64.
Proof.
  unfold commitment_root. intros E. destruct (N.le_gt_cases (len hs) (2 ^ 64)) as [L|L]; auto.
  exfalso. destruct (set_items tree_empty 0 hs) as [t| | |] eqn:S0; try discriminate.
  apply set_items_long in S0; auto; lia.
Qed.

Lemma commitment_root_eq H hs r : commitment_root H hs = Ok r ->
  r = spec_root H 64 (items hs) /\ len hs <= 2 ^ 64.
Proof.
  intros E. pose proof (commitment_root_long _ _ _ E) as L. rewrite commitment_root_ok in E by auto.
  split; congruence.
Qed.

(** items under all 64-bit keys *)
Lemma items_keys hs1 hs2 : len hs1 <= 2 ^ 64 -> len hs2 <= 2 ^ 64 ->
  (forall k, length k = 64%nat -> items hs1 k = items hs2 k) ->
  forall i, item hs1 i = item hs2 i.
Proof.
  intros L1 L2 E i. destruct (N.lt_ge_cases i (2 ^ 64)) as [B|B].
  - specialize (E (be_bits 64 i) (be_bits_length _ _)). unfold items in E.
    rewrite be_bits_val in E. change (N.of_nat 64) with 64 in E.
    now rewrite N.mod_small in E by exact B.
  - rewrite !item_out by lia. reflexivity.
Qed.

(** The empty trie is the only one with root zero; otherwise the root is the
    value of one of the computations. *)
Lemma root_or_query H hs : len hs <= 2 ^ 64 -> Forall (fun h => h <> 0) hs ->
  hs = [] \/ exists q, In q (root_queries H 64 (items hs)) /\ query_value H q = spec_root H 64 (items hs).
Proof.
  intros L N. destruct (atree_of_contents 64 (items hs)) as [Z|(a & W & C)].
  - left. apply items_ext; auto. intros i. apply items_keys; auto. unfold len; simpl; lia.
  - right. destruct (ahash_query H 64 a W ltac:(discriminate)) as (q & Iq & E).
    exists q. split.
    + eapply root_queries_wfa; eauto.
    + rewrite E. symmetry. now apply spec_root_wfa.
Qed.

Lemma empty_root H : spec_root H 64 (items []) = 0.
Proof. apply spec_root_empty. reflexivity. Qed.

Lemma tree_binds H hs1 hs2 :
  len hs1 <= 2 ^ 64 -> len hs2 <= 2 ^ 64 ->
  Forall (fun h => h <> 0) hs1 -> Forall (fun h => h <> 0) hs2 ->
  collision_free H (root_queries H 64 (items hs1) ++ root_queries H 64 (items hs2)) ->
  spec_root H 64 (items hs1) = spec_root H 64 (items hs2) -> hs1 = hs2.
Proof.
  intros L1 L2 N1 N2 CF E. apply items_ext; auto. apply items_keys; auto.
  apply (root_binds H 64); auto.
Qed.

(** ---- item hashes ---- *)

Lemma version_lt_before v a b c : version_lt v (Version a b c 0) = before v a b c.
Proof. reflexivity. Qed.

Lemma map_outcome_ok {A B} (f : A -> outcome B) (g : A -> B) l bs :
  (forall a b, f a = Ok b -> b = g a) -> map_outcome f l = Ok bs -> bs = map g l.
Proof.
  intros E. revert bs. induction l as [|a l IH]; intros bs M; cbn [map_outcome] in M.
  - now injection M as <-.
  - destruct (f a) as [b| | |] eqn:F; try discriminate. cbn [obind] in M.
    destruct (map_outcome f l) as [bs'| | |]; try discriminate. injection M as <-.
    cbn [map]. f_equal; [now apply E|now apply IH].
Qed.

Lemma before_mono v : before v 0 11 1 = true -> before v 0 13 2 = true.
Proof.
  destruct v as [a b c d]. unfold before, version_cmp. cbn [v0 v1 v2 v3].
  destruct (N.compare_spec a 0); cbn [then_cmp]; try discriminate; auto; try lia.
  destruct (N.compare_spec b 11), (N.compare_spec b 13); cbn [then_cmp]; auto; try discriminate; try lia.
Qed.

Section Hashes.
  Variable pedersen : felt -> felt -> felt.
  Variable poseidon2 : felt -> felt -> felt.
  Variable poseidon : list felt -> felt.
  Variable keccak : list N -> list N.
  Notation value := (call_value pedersen poseidon2 poseidon keccak).
  Notation clean := (clean pedersen poseidon2 poseidon keccak).
  Notation chain_value := (chain_value pedersen).
  Notation chain_calls := (chain_calls pedersen).
  Notation fold_calls := (fold_calls pedersen).

  Lemma clean_incl cs cs' : incl cs' cs -> clean cs -> clean cs'.
  Proof. intros I [C1 C2]. split; intros; [apply C1|apply C2]; auto. Qed.

  Lemma chain_hash_ok l x : chain_hash pedersen l = Ok x -> x = chain_value l.
  Proof.
    unfold chain_hash. intros E. destruct (N.le_gt_cases (len l) USIZE_MAX) as [B|B].
    - rewrite HashProperties.C07_fold in E by exact B. cbn [or_panic] in E. injection E as <-. reflexivity.
    - rewrite HashProperties.C07_overflow in E by exact B. discriminate.
  Qed.
  Lemma chain_hash_short l : len l <= USIZE_MAX -> chain_hash pedersen l = Ok (chain_value l).
  Proof. intros B. unfold chain_hash. rewrite HashProperties.C07_fold by exact B. reflexivity. Qed.

  Lemma tx_item_value v tx x : tx_item_for pedersen poseidon v tx = Ok x ->
    x = tx_value pedersen poseidon v tx.
  Proof.
    unfold tx_item_for, tx_value, covered_signature.
    change (version_lt v V_0_11_1) with (before v 0 11 1).
    change (version_lt v V_0_13_2) with (before v 0 13 2).
    change (version_lt v V_0_13_4) with (before v 0 13 4).
    destruct (before v 0 11 1) eqn:B1.
    - rewrite (before_mono v B1). unfold tx_item_pre_0_11_1, is_invoke, signature_of.
      destruct (tx_var tx);
        (destruct (chain_hash pedersen _) as [y| | |] eqn:C; try discriminate;
         apply chain_hash_ok in C; subst y; cbn [obind]; intros E; injection E as <-; reflexivity).
    - destruct (before v 0 13 2) eqn:B2.
      + unfold tx_item_pre_0_13_2, signature_of.
        destruct (tx_var tx);
          (destruct (chain_hash pedersen _) as [y| | |] eqn:C; try discriminate;
           apply chain_hash_ok in C; subst y; cbn [obind]; intros E; injection E as <-; reflexivity).
      + destruct (before v 0 13 4); intros E; injection E as <-;
          unfold tx_item_pre_0_13_4, tx_item, signature_of, signature_slice;
          destruct (tx_var tx) as [s|s|s|s| | |s|s|s|s|s|]; try reflexivity; destruct s; reflexivity.
  Qed.

  (** hash chains *)
  Lemma fold_binds l1 : forall l2 a b, length l1 = length l2 ->
    clean (fold_calls a l1 ++ fold_calls b l2) ->
    fold_left pedersen l1 a = fold_left pedersen l2 b -> a = b /\ l1 = l2.
  Proof.
    induction l1 as [|x l1 IH]; intros [|y l2] a b L C E; try discriminate; auto.
    cbn [fold_left CommitSpec.fold_calls length] in *.
    destruct (IH l2 (pedersen a x) (pedersen b y)) as [E1 ->]; auto.
    - eapply clean_incl; [|exact C]. intros c. cbn [app In]. rewrite !in_app_iff. cbn [In]. tauto.
    - assert (Q : PedersenCall (a, x, 0) = PedersenCall (b, y, 0)).
      { apply (proj1 C); [left; reflexivity| |exact E1].
        cbn [app]. right. apply in_app_iff. right. left. reflexivity. }
      injection Q as -> ->. auto.
  Qed.

  Lemma chain_binds l1 l2 : clean (chain_calls l1 ++ chain_calls l2) ->
    chain_value l1 = chain_value l2 -> l1 = l2.
  Proof.
    intros C E. unfold CommitSpec.chain_calls in C. 
    assert (Q : PedersenCall (fold_left pedersen l1 0, len l1, 0) =
                PedersenCall (fold_left pedersen l2 0, len l2, 0)).
    { apply (proj1 C); [| |exact E]; rewrite !in_app_iff; cbn [In]; tauto. }
    injection Q as Ef El. unfold len in El. 
    apply (fold_binds l1 l2 0 0); auto; [lia|].
    eapply clean_incl; [|exact C]. intros c. rewrite !in_app_iff. tauto.
  Qed.

  Lemma chain_in l : In (PedersenCall (fold_left pedersen l 0, len l, 0)) (chain_calls l).
  Proof. unfold CommitSpec.chain_calls. apply in_app_iff. right. left. reflexivity. Qed.

  (** every item hash is the value of one of the computations *)
  Lemma tx_value_call v tx : exists c, In c (tx_calls pedersen v tx) /\
    value c = tx_value pedersen poseidon v tx.
  Proof.
    unfold tx_calls, tx_value. destruct (before v 0 13 2).
    - eexists. split; [apply in_app_iff; right; left; reflexivity|]. reflexivity.
    - eexists. split; [left; reflexivity|]. reflexivity.
  Qed.

  Lemma tx_binds v1 v2 t1 t2 :
    clean (tx_calls pedersen v1 t1 ++ tx_calls pedersen v2 t2) ->
    tx_value pedersen poseidon v1 t1 = tx_value pedersen poseidon v2 t2 ->
    covered_tx v1 t1 = covered_tx v2 t2.
  Proof.
    unfold tx_calls, tx_value, covered_tx. intros C E.
    destruct (before v1 0 13 2), (before v2 0 13 2).
    - match type of E with pedersen ?a ?b = pedersen ?c ?d =>
        assert (Q : PedersenCall (a, b, 0) = PedersenCall (c, d, 0)) end.
      { apply (proj1 C); [| |exact E]; rewrite !in_app_iff; cbn [In]; tauto. }
      injection Q as -> Ec. f_equal. apply chain_binds; auto.
      eapply clean_incl; [|exact C]. intros c. rewrite !in_app_iff. tauto.
    - exfalso. match type of E with pedersen ?a ?b = poseidon ?l =>
        assert (Q : PedersenCall (a, b, 0) = PoseidonList l) end.
      { apply (proj1 C); [| |exact E]; rewrite !in_app_iff; cbn [In]; tauto. }
      discriminate.
    - exfalso. match type of E with poseidon ?l = pedersen ?a ?b =>
        assert (Q : PoseidonList l = PedersenCall (a, b, 0)) end.
      { apply (proj1 C); [| |exact E]; rewrite !in_app_iff; cbn [In]; tauto. }
      discriminate.
    - match type of E with poseidon ?l = poseidon ?m =>
        assert (Q : PoseidonList l = PoseidonList m) end.
      { apply (proj1 C); [| |exact E]; cbn [app In]; tauto. }
      injection Q as -> ->. reflexivity.
  Qed.

  (** lists of items *)
  Lemma items_bind {A B} (calls1 calls2 : A -> list call) (val1 val2 : A -> felt) (cov1 cov2 : A -> B) :
    (forall a1 a2, clean (calls1 a1 ++ calls2 a2) -> val1 a1 = val2 a2 -> cov1 a1 = cov2 a2) ->
    forall l1 l2, clean (flat_map calls1 l1 ++ flat_map calls2 l2) ->
    map val1 l1 = map val2 l2 -> map cov1 l1 = map cov2 l2.
  Proof.
    intros Bi. induction l1 as [|a1 l1 IH]; intros [|a2 l2] C E; try discriminate; auto.
    cbn [map flat_map] in *. injection E as E1 E2. f_equal.
    - apply Bi; auto. eapply clean_incl; [|exact C]. intros c. rewrite !in_app_iff. tauto.
    - apply IH; auto. eapply clean_incl; [|exact C]. intros c. rewrite !in_app_iff. tauto.
  Qed.

  Lemma values_nonzero {A} (calls : A -> list call) (val : A -> felt) l :
    (forall a, exists c, In c (calls a) /\ value c = val a) ->
    clean (flat_map calls l) -> Forall (fun h => h <> 0) (map val l).
  Proof.
    intros V C. apply Forall_forall. intros h I. apply in_map_iff in I. destruct I as (a & <- & Ia).
    destruct (V a) as (c & Ic & <-). apply (proj2 C). apply in_flat_map. eauto.
  Qed.

  Notation tree_for := (tree_for pedersen poseidon2).
  Definition node_hash (v : version) := if before v 0 13 2 then pedersen else poseidon2.

  Lemma pedersen_free qs : clean (map PedersenCall qs) -> collision_free pedersen qs.
  Proof.
    intros C. split.
    - intros q1 q2 I1 I2 E. assert (Q : PedersenCall q1 = PedersenCall q2).
      { apply (proj1 C); [apply in_map|apply in_map|exact E]; assumption. }
      now injection Q.
    - intros q I. apply (proj2 C (PedersenCall q)). now apply in_map.
  Qed.
  Lemma poseidon_free qs : clean (map PoseidonNode qs) -> collision_free poseidon2 qs.
  Proof.
    intros C. split.
    - intros q1 q2 I1 I2 E. assert (Q : PoseidonNode q1 = PoseidonNode q2).
      { apply (proj1 C); [apply in_map|apply in_map|exact E]; assumption. }
      now injection Q.
    - intros q I. apply (proj2 C (PoseidonNode q)). now apply in_map.
  Qed.

  #[local] Opaque spec_root root_queries items.

  Lemma trees_bind v1 v2 hs1 hs2 :
    len hs1 <= 2 ^ 64 -> len hs2 <= 2 ^ 64 ->
    Forall (fun h => h <> 0) hs1 -> Forall (fun h => h <> 0) hs2 ->
    clean (tree_for v1 hs1 ++ tree_for v2 hs2) ->
    spec_root (node_hash v1) 64 (items hs1) = spec_root (node_hash v2) 64 (items hs2) -> hs1 = hs2.
  Proof.
    intros L1 L2 N1 N2 C E. unfold node_hash in E. unfold CommitSpec.tree_for, pedersen_tree, poseidon_tree in C.
    destruct (before v1 0 13 2), (before v2 0 13 2).
    - apply (tree_binds pedersen); auto. apply pedersen_free. now rewrite map_app.
    - destruct (root_or_query pedersen hs1 L1 N1) as [->|(q1 & I1 & V1)];
        destruct (root_or_query poseidon2 hs2 L2 N2) as [->|(q2 & I2 & V2)]; [reflexivity| | |]; exfalso.
      + rewrite <- E in V2. apply (proj2 C (PoseidonNode q2)).
        * apply in_or_app. right. apply in_map. exact I2.
        * cbn [call_value]. rewrite V2. apply empty_root.
      + rewrite E in V1. apply (proj2 C (PedersenCall q1)).
        * apply in_or_app. left. apply in_map. exact I1.
        * cbn [call_value]. rewrite V1. apply empty_root.
      + assert (Q : PedersenCall q1 = PoseidonNode q2); [|discriminate].
        apply (proj1 C); [| |cbn [call_value]; congruence]; apply in_or_app; [left|right]; apply in_map; assumption.
    - destruct (root_or_query poseidon2 hs1 L1 N1) as [->|(q1 & I1 & V1)];
        destruct (root_or_query pedersen hs2 L2 N2) as [->|(q2 & I2 & V2)]; [reflexivity| | |]; exfalso.
      + rewrite <- E in V2. apply (proj2 C (PedersenCall q2)).
        * apply in_or_app. right. apply in_map. exact I2.
        * cbn [call_value]. rewrite V2. apply empty_root.
      + rewrite E in V1. apply (proj2 C (PoseidonNode q1)).
        * apply in_or_app. left. apply in_map. exact I1.
        * cbn [call_value]. rewrite V1. apply empty_root.
      + assert (Q : PoseidonNode q1 = PedersenCall q2); [|discriminate].
        apply (proj1 C); [| |cbn [call_value]; congruence]; apply in_or_app; [left|right]; apply in_map; assumption.
    - apply (tree_binds poseidon2); auto. apply poseidon_free. now rewrite map_app.
  Qed.

  Lemma commitment_for v (hs : list felt) x :
    (if version_lt v V_0_13_2 then commitment_root pedersen hs else commitment_root poseidon2 hs) = Ok x ->
    x = spec_root (node_hash v) 64 (items hs) /\ len hs <= 2 ^ 64.
  Proof.
    change (version_lt v V_0_13_2) with (before v 0 13 2). unfold node_hash.
    destruct (before v 0 13 2); apply commitment_root_eq.
  Qed.

  Lemma transaction_commitment_ok txs v x :
    transaction_commitment pedersen poseidon2 poseidon txs v = Ok x ->
    x = spec_root (node_hash v) 64 (items (map (tx_value pedersen poseidon v) txs)) /\ len txs <= 2 ^ 64.
  Proof.
    unfold transaction_commitment. intros E.
    destruct (map_outcome (tx_item_for pedersen poseidon v) txs) as [hs| | |] eqn:M; try discriminate.
    apply (map_outcome_ok _ (tx_value pedersen poseidon v)) in M; [|apply tx_item_value].
    subst hs. cbn [obind] in E. apply commitment_for in E. unfold len in E. rewrite map_length in E.
    exact E.
  Qed.

  Lemma transactions_bind v1 v2 txs1 txs2 x :
    transaction_commitment pedersen poseidon2 poseidon txs1 v1 = Ok x ->
    transaction_commitment pedersen poseidon2 poseidon txs2 v2 = Ok x ->
    clean (tx_commitment_calls pedersen poseidon2 poseidon v1 txs1 ++
           tx_commitment_calls pedersen poseidon2 poseidon v2 txs2) ->
    map (covered_tx v1) txs1 = map (covered_tx v2) txs2.
  Proof.
    intros E1 E2 C. apply transaction_commitment_ok in E1. apply transaction_commitment_ok in E2.
    destruct E1 as [E1 L1], E2 as [E2 L2]. unfold tx_commitment_calls in C.
    apply (items_bind (tx_calls pedersen v1) (tx_calls pedersen v2)
             (tx_value pedersen poseidon v1) (tx_value pedersen poseidon v2)).
    - intros a1 a2. apply tx_binds.
    - eapply clean_incl; [|exact C]. intros c. rewrite !in_app_iff. tauto.
    - apply (trees_bind v1 v2).
      + unfold len. rewrite map_length. exact L1.
      + unfold len. rewrite map_length. exact L2.
      + apply (values_nonzero (tx_calls pedersen v1)); [apply tx_value_call|].
        eapply clean_incl; [|exact C]. intros c. rewrite !in_app_iff. tauto.
      + apply (values_nonzero (tx_calls pedersen v2)); [apply tx_value_call|].
        eapply clean_incl; [|exact C]. intros c. rewrite !in_app_iff. tauto.
      + eapply clean_incl; [|exact C]. intros c. rewrite !in_app_iff. tauto.
      + congruence.
  Qed.

  (** events *)
  Lemma counted_inj (k1 : list felt) : forall k2 r1 r2,
    len k1 :: k1 ++ r1 = len k2 :: k2 ++ r2 -> k1 = k2 /\ r1 = r2.
  Proof.
    intros k2 r1 r2 E. injection E as L E. unfold len in L. apply Nat2N.inj in L.
    revert k2 L E. induction k1 as [|x k1 IH]; intros [|y k2] L E; try discriminate; auto.
    cbn [app length] in *. injection E as -> E. injection L as L. destruct (IH k2 L E) as [-> ->]. auto.
  Qed.

  Lemma event_words_inj te1 te2 : event_words te1 = event_words te2 -> te1 = te2.
  Proof.
    destruct te1 as [t1 [d1 f1 k1]], te2 as [t2 [d2 f2 k2]]. unfold event_words. cbn [ev_from ev_keys ev_data].
    intros E. injection E as -> -> L E.
    assert (E' : len k1 :: k1 ++ len d1 :: d1 = len k2 :: k2 ++ len d2 :: d2) by (f_equal; assumption).
    apply counted_inj in E'. destruct E' as [-> E']. injection E' as _ ->. reflexivity.
  Qed.

  Lemma event_item_value v te x :
    (if version_lt v V_0_13_2 then event_item_pre_0_13_2 pedersen (snd te)
     else Ok (event_item poseidon (snd te) (fst te))) = Ok x ->
    x = event_value pedersen poseidon v te.
  Proof.
    change (version_lt v V_0_13_2) with (before v 0 13 2). unfold event_value.
    destruct te as [t e]. cbn [fst snd]. destruct (before v 0 13 2).
    - unfold event_item_pre_0_13_2. intros E.
      destruct (chain_hash pedersen (ev_keys e)) as [a| | |] eqn:A; try discriminate. cbn [obind] in E.
      destruct (chain_hash pedersen (ev_data e)) as [b| | |] eqn:B; try discriminate. cbn [obind] in E.
      apply chain_hash_ok in A. apply chain_hash_ok in B. apply chain_hash_ok in E. congruence.
    - unfold event_item, event_words. intros E. injection E as <-. reflexivity.
  Qed.

  Lemma event_value_call v te : exists c, In c (event_calls pedersen v te) /\
    value c = event_value pedersen poseidon v te.
  Proof.
    unfold event_calls, event_value. destruct (before v 0 13 2).
    - eexists. split; [apply in_app_iff; right; apply in_app_iff; right; apply chain_in|]. reflexivity.
    - eexists. split; [left; reflexivity|]. reflexivity.
  Qed.

  Lemma event_binds v1 v2 te1 te2 :
    clean (event_calls pedersen v1 te1 ++ event_calls pedersen v2 te2) ->
    event_value pedersen poseidon v1 te1 = event_value pedersen poseidon v2 te2 ->
    covered_event v1 te1 = covered_event v2 te2.
  Proof.
    destruct te1 as [t1 e1], te2 as [t2 e2].
    unfold event_calls, event_value, covered_event. cbn [snd]. intros C E.
    destruct (before v1 0 13 2), (before v2 0 13 2).
    - apply chain_binds in E; [|eapply clean_incl; [|exact C]; intros c; rewrite !in_app_iff; tauto].
      injection E as Ef Ek Ed.
      apply chain_binds in Ek; [|eapply clean_incl; [|exact C]; intros c; rewrite !in_app_iff; tauto].
      apply chain_binds in Ed; [|eapply clean_incl; [|exact C]; intros c; rewrite !in_app_iff; tauto].
      congruence.
    - exfalso. unfold CommitSpec.chain_value in E. match type of E with pedersen ?a ?b = poseidon ?l =>
        assert (Q : PedersenCall (a, b, 0) = PoseidonList l) end; [|discriminate].
      apply (proj1 C); [| |exact E]; rewrite !in_app_iff; cbn [In]; auto.
      left. right. right. apply chain_in.
    - exfalso. unfold CommitSpec.chain_value in E. match type of E with poseidon ?l = pedersen ?a ?b =>
        assert (Q : PoseidonList l = PedersenCall (a, b, 0)) end; [|discriminate].
      apply (proj1 C); [| |exact E]; rewrite !in_app_iff; cbn [In]; auto.
      right. right. right. apply chain_in.
    - assert (Q : PoseidonList (event_words (t1, e1)) = PoseidonList (event_words (t2, e2))).
      { apply (proj1 C); [| |exact E]; cbn [app In]; tauto. }
      assert (W : event_words (t1, e1) = event_words (t2, e2)) by congruence.
      apply event_words_inj in W. congruence.
  Qed.

  Lemma event_commitment_ok tes v x :
    event_commitment pedersen poseidon2 poseidon tes v = Ok x ->
    x = spec_root (node_hash v) 64 (items (map (event_value pedersen poseidon v) (events_in_order tes))) /\
    len (events_in_order tes) <= 2 ^ 64.
  Proof.
    unfold event_commitment. intros E.
    change (flat_map (fun tes => map (fun e => (fst tes, e)) (snd tes)) tes) with (events_in_order tes) in E.
    match type of E with obind ?m _ = _ => destruct m as [hs| | |] eqn:M; try discriminate end.
    apply (map_outcome_ok _ (event_value pedersen poseidon v)) in M; [|intros a b; apply event_item_value].
    subst hs. cbn [obind] in E. apply commitment_for in E. unfold len in E. rewrite map_length in E.
    exact E.
  Qed.

  Lemma events_bind v1 v2 tes1 tes2 x :
    event_commitment pedersen poseidon2 poseidon tes1 v1 = Ok x ->
    event_commitment pedersen poseidon2 poseidon tes2 v2 = Ok x ->
    clean (event_commitment_calls pedersen poseidon2 poseidon v1 tes1 ++
           event_commitment_calls pedersen poseidon2 poseidon v2 tes2) ->
    map (covered_event v1) (events_in_order tes1) = map (covered_event v2) (events_in_order tes2).
  Proof.
    intros E1 E2 C. apply event_commitment_ok in E1. apply event_commitment_ok in E2.
    destruct E1 as [E1 L1], E2 as [E2 L2]. unfold event_commitment_calls in C.
    apply (items_bind (event_calls pedersen v1) (event_calls pedersen v2)
             (event_value pedersen poseidon v1) (event_value pedersen poseidon v2)).
    - intros a1 a2. apply event_binds.
    - eapply clean_incl; [|exact C]. intros c. rewrite !in_app_iff. tauto.
    - apply (trees_bind v1 v2).
      + unfold len. rewrite map_length. exact L1.
      + unfold len. rewrite map_length. exact L2.
      + apply (values_nonzero (event_calls pedersen v1)); [apply event_value_call|].
        eapply clean_incl; [|exact C]. intros c. rewrite !in_app_iff. tauto.
      + apply (values_nonzero (event_calls pedersen v2)); [apply event_value_call|].
        eapply clean_incl; [|exact C]. intros c. rewrite !in_app_iff. tauto.
      + eapply clean_incl; [|exact C]. intros c. rewrite !in_app_iff. tauto.
      + congruence.
  Qed.

  (** receipts *)
  Lemma message_words_inj ms1 ms2 : message_words ms1 = message_words ms2 -> ms1 = ms2.
  Proof.
    unfold message_words. intros E. injection E as L E. unfold len in L. apply Nat2N.inj in L.
    revert ms2 L E. induction ms1 as [|[f1 t1 p1] ms1 IH]; intros [|[f2 t2 p2] ms2] L E; try discriminate; auto.
    cbn [flat_map ms_from ms_to ms_payload app length] in *. injection L as L. injection E as -> -> L1 E.
    assert (E' : len p1 :: p1 ++ flat_map (fun m => ms_from m :: ms_to m :: len (ms_payload m) :: ms_payload m) ms1 =
                 len p2 :: p2 ++ flat_map (fun m => ms_from m :: ms_to m :: len (ms_payload m) :: ms_payload m) ms2)
      by (f_equal; assumption).
    apply counted_inj in E'. destruct E' as [-> E']. f_equal. now apply IH.
  Qed.

  Notation receipt_words := (receipt_words pedersen poseidon2 poseidon keccak).
  Notation receipt_calls := (receipt_calls pedersen poseidon2 poseidon keccak).

  Lemma receipt_item_value r : receipt_item poseidon keccak r = poseidon (receipt_words r).
  Proof.
    unfold receipt_item, CommitSpec.receipt_words, messages_hash, message_words, reason_value, revert_reason.
    destruct (rc_revert r); reflexivity.
  Qed.

  Lemma receipt_binds r1 r2 :
    clean (receipt_calls r1 ++ receipt_calls r2) ->
    poseidon (receipt_words r1) = poseidon (receipt_words r2) -> r1 = r2.
  Proof.
    intros C E.
    assert (Q : PoseidonList (receipt_words r1) = PoseidonList (receipt_words r2)).
    { apply (proj1 C); [| |exact E]; rewrite !in_app_iff; unfold CommitSpec.receipt_calls; cbn [In]; tauto. }
    assert (W : receipt_words r1 = receipt_words r2) by congruence. clear Q.
    unfold CommitSpec.receipt_words in W. injection W as W1 W2 W3 W4 W5 W6.
    assert (Q : PoseidonList (message_words (rc_messages r1)) = PoseidonList (message_words (rc_messages r2))).
    { apply (proj1 C); [| |exact W3]; rewrite !in_app_iff; unfold CommitSpec.receipt_calls; cbn [In]; tauto. }
    assert (M : message_words (rc_messages r1) = message_words (rc_messages r2)) by congruence.
    apply message_words_inj in M.
    assert (Rv : rc_revert r1 = rc_revert r2).
    { unfold reason_value in W4. unfold CommitSpec.receipt_calls in C.
      destruct (rc_revert r1) as [s1|], (rc_revert r2) as [s2|]; auto.
      - assert (X : KeccakCall s1 = KeccakCall s2).
        { apply (proj1 C); [| |exact W4]; rewrite !in_app_iff; cbn [In]; tauto. }
        congruence.
      - exfalso. apply (proj2 C (KeccakCall s1)); [rewrite !in_app_iff; cbn [In]; tauto|exact W4].
      - exfalso. apply (proj2 C (KeccakCall s2)); [rewrite !in_app_iff; cbn [In]; tauto|now symmetry]. }
    destruct r1 as [f1 g1 d1 m1 s1 t1], r2 as [f2 g2 d2 m2 s2 t2]. cbn [rc_fee rc_l1_gas rc_l1_data_gas rc_messages rc_revert rc_tx_hash] in *. congruence.
  Qed.

  Lemma receipts_bind rs1 rs2 x :
    receipt_commitment poseidon2 poseidon keccak rs1 = Ok x ->
    receipt_commitment poseidon2 poseidon keccak rs2 = Ok x ->
    clean (receipt_commitment_calls pedersen poseidon2 poseidon keccak rs1 ++
           receipt_commitment_calls pedersen poseidon2 poseidon keccak rs2) ->
    rs1 = rs2.
  Proof.
    intros E1 E2 C. unfold receipt_commitment in E1, E2. unfold receipt_commitment_calls in C.
    rewrite (map_ext _ _ receipt_item_value) in E1, E2.
    apply commitment_root_eq in E1. apply commitment_root_eq in E2.
    destruct E1 as [E1 L1], E2 as [E2 L2].
    rewrite <- (map_id rs1), <- (map_id rs2).
    apply (items_bind receipt_calls receipt_calls
             (fun r => poseidon (receipt_words r)) (fun r => poseidon (receipt_words r)) (fun r => r) (fun r => r)).
    - intros a1 a2. apply receipt_binds.
    - eapply clean_incl; [|exact C]. intros c. rewrite !in_app_iff. tauto.
    - assert (V : forall a, exists c, In c (receipt_calls a) /\ value c = poseidon (receipt_words a)).
      { intros a. exists (PoseidonList (receipt_words a)). split; [right; left; reflexivity|reflexivity]. }
      apply (tree_binds poseidon2); auto.
      + apply (values_nonzero receipt_calls); [exact V|].
        eapply clean_incl; [|exact C]. intros c. rewrite !in_app_iff. tauto.
      + apply (values_nonzero receipt_calls); [exact V|].
        eapply clean_incl; [|exact C]. intros c. rewrite !in_app_iff. tauto.
      + apply poseidon_free. rewrite map_app. eapply clean_incl; [|exact C].
        intros c. unfold poseidon_tree. rewrite !in_app_iff. tauto.
      + congruence.
  Qed.
End Hashes.
