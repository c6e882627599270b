(** Proofs about starknet_getStorageProof: what a client can rely on. *)
From Coq Require Import List Bool Arith NArith Lia.
From Verif Require Import AList MerkleModel MerkleSpec MerkleProof MerkleMemberProof VersionModel
  CommitModel StateRootModel StateRootSpec StateRootProof StateRootRun StateRootBind
  StorageProofModel StorageProofSpec.
Import ListNotations.

Lemma combined_state HEIGHT hs w v :
  combined hs (storage_commitment HEIGHT hs w) (class_commitment HEIGHT hs w) v = state_commitment HEIGHT hs w v.
Proof.
  unfold combined, state_commitment.
  destruct (storage_commitment HEIGHT hs w), (class_commitment HEIGHT hs w); reflexivity.
Qed.

Section Bind.
  Variable HEIGHT : nat.
  Variable hs : hashes.
  Hypothesis HEIGHT_pos : HEIGHT <> 0.
  Variable w : world.
  Variable r : response.
  Variable casms : list felt.

  Definition involved (c : computation) : Prop := computed HEIGHT hs w c \/ checked hs r casms c.
  Hypothesis NC : no_collision hs involved.

  Lemma client_forms v :
    (r_contracts_root r = 0%N /\ r_classes_root r = 0%N /\ combined hs (r_contracts_root r) (r_classes_root r) v = 0%N) \/
    (r_classes_root r = 0%N /\ version_lt v (Version 0 14 0 0) = true /\
     combined hs (r_contracts_root r) (r_classes_root r) v = r_contracts_root r) \/
    combined hs (r_contracts_root r) (r_classes_root r) v =
      value hs (Many [STATE_V0; r_contracts_root r; r_classes_root r]).
  Proof.
    unfold combined. destruct (r_classes_root r) as [|cc].
    - destruct (r_contracts_root r) as [|sc]; auto.
      destruct (version_lt v (Version 0 14 0 0)); auto.
    - right. right. destruct (r_contracts_root r); reflexivity.
  Qed.

  Lemma roots_right v : combined hs (r_contracts_root r) (r_classes_root r) v = state_commitment HEIGHT hs w v ->
    (r_contracts_root r = 0%N \/ (exists q, involved (Ped q) /\ value hs (Ped q) = r_contracts_root r) \/
     version_lt v (Version 0 14 0 0) = false \/ r_classes_root r <> 0%N) ->
    r_contracts_root r = storage_commitment HEIGHT hs w /\ r_classes_root r = class_commitment HEIGHT hs w.
  Proof.
    intros E K. destruct NC as [Inj NZ].
    assert (M1 : involved (Many [STATE_V0; r_contracts_root r; r_classes_root r])) by (right; constructor).
    assert (M2 : involved (Many [STATE_V0; storage_commitment HEIGHT hs w; class_commitment HEIGHT hs w]))
      by (left; constructor).
    destruct (forms HEIGHT hs HEIGHT_pos w v) as [(S2 & C2 & V2)|[(C2 & q2 & Q2 & S2 & V2)|V2]]; rewrite V2 in E;
    destruct (client_forms v) as [(S1 & C1 & V1)|[(C1 & Lt & V1)|V1]]; rewrite V1 in E.
    - split; congruence.
    - split; congruence.
    - exfalso. now apply (NZ _ M1).
    - exfalso. apply (NZ (Ped q2)); [now left|]. congruence.
    - split; congruence.
    - exfalso. apply Inj in E; [discriminate|exact M1|now left].
    - exfalso. apply (NZ _ M2). congruence.
    - exfalso. destruct K as [K|[(q & Q & K)|[K|K]]]; try congruence.
      + apply (NZ _ M2). congruence.
      + rewrite <- K in E. apply Inj in E; [discriminate|exact Q|exact M2].
    - apply Inj in E; [|exact M1|exact M2]. injection E as -> ->. auto.
  Qed.

  Lemma ped_free qs : (forall q, In q qs -> involved (Ped q)) -> collision_free (pedersen hs) qs.
  Proof.
    destruct NC as [Inj NZ]. intros I. split.
    - intros q1 q2 H1 H2 E. assert (X : Ped q1 = Ped q2) by (apply Inj; auto). now injection X.
    - intros q Hq. apply (NZ (Ped q)). auto.
  Qed.
  Lemma pos_free qs : (forall q, In q qs -> involved (Pos q)) -> collision_free (poseidon hs) qs.
  Proof.
    destruct NC as [Inj NZ]. intros I. split.
    - intros q1 q2 H1 H2 E. assert (X : Pos q1 = Pos q2) by (apply Inj; auto). now injection X.
    - intros q Hq. apply (NZ (Pos q)). auto.
  Qed.

  Lemma queries_incl (proof ns : nodes) q : (forall n, In n proof -> In n ns) ->
    In q (proof_queries (map fst proof)) -> In q (proof_queries (map fst ns)).
  Proof.
    intros I Hq. unfold proof_queries in *. rewrite map_map in *. apply in_map_iff in Hq.
    destruct Hq as (n & <- & Hn). apply in_map_iff. exists n. auto.
  Qed.

  Lemma proves_sound_ped (m : contents) k ns x : length k = HEIGHT ->
    (forall q, In q (root_queries (pedersen hs) HEIGHT m) -> involved (Ped q)) ->
    (forall q, In q (proof_queries (map fst ns)) -> involved (Ped q)) ->
    proves (pedersen hs) (spec_root (pedersen hs) HEIGHT m) k ns x -> x = m k.
  Proof.
    intros Lk Q1 Q2 (proof & I & _ & V).
    apply (verify_sound (pedersen hs) HEIGHT m HEIGHT_pos (map fst proof) k x Lk); auto.
    apply ped_free. intros q Hq. apply in_app_iff in Hq. destruct Hq as [Hq|Hq]; auto.
    apply Q2. eapply queries_incl; eauto.
  Qed.
  Lemma proves_sound_pos (m : contents) k ns x : length k = HEIGHT ->
    (forall q, In q (root_queries (poseidon hs) HEIGHT m) -> involved (Pos q)) ->
    (forall q, In q (proof_queries (map fst ns)) -> involved (Pos q)) ->
    proves (poseidon hs) (spec_root (poseidon hs) HEIGHT m) k ns x -> x = m k.
  Proof.
    intros Lk Q1 Q2 (proof & I & _ & V).
    apply (verify_sound (poseidon hs) HEIGHT m HEIGHT_pos (map fst proof) k x Lk); auto.
    apply pos_free. intros q Hq. apply in_app_iff in Hq. destruct Hq as [Hq|Hq]; auto.
    apply Q2. eapply queries_incl; eauto.
  Qed.

  (** A proof has a first node, with the hash of the root. *)
  Lemma proves_root root k ns x : length k = HEIGHT -> proves (pedersen hs) root k ns x ->
    root = 0%N \/ exists q, In q (proof_queries (map fst ns)) /\ query_value (pedersen hs) q = root.
  Proof.
    intros Lk (proof & I & _ & V). unfold verify in V. destruct (N.eqb_spec root 0) as [->|N]; [now left|right].
    destruct proof as [|[n h] proof]; cbn [map fst] in V.
    - destruct k; [cbn in Lk; congruence|discriminate].
    - assert (In_n : forall q, q = match n with TBin l r => (l, r, 0%N) | TEdge c p => (c, bits_val p, N.of_nat (length p)) end ->
        In q (proof_queries (map fst ns))).
      { intros q ->. unfold proof_queries. rewrite map_map. apply in_map_iff. exists (n, h). split; auto. apply I. now left. }
      destruct k as [|b k]; [cbn in Lk; congruence|]. destruct n as [l rr|c p]; cbn [check_proof] in V.
      + destruct (N.eqb_spec (pedersen hs l rr) root); [|discriminate].
        eexists. split; [now apply In_n|]. cbn. auto.
      + destruct (negb (length p =? 0) && (length p <=? length (b :: k)) &&
                  (fadd (pedersen hs c (bits_val p)) (N.of_nat (length p)) =? root)%N) eqn:X; [|discriminate].
        apply andb_prop in X. destruct X as [X1 X2]. apply andb_prop in X1. destruct X1 as [X1 _].
        eexists. split; [now apply In_n|]. cbn. apply N.eqb_eq in X2.
        destruct (N.eqb_spec (N.of_nat (length p)) 0) as [Z|Z]; auto.
        destruct p; [discriminate|cbn in Z; lia].
  Qed.

  Hypothesis T : tidy HEIGHT w.

  Lemma contracts_right v a x : combined hs (r_contracts_root r) (r_classes_root r) v = state_commitment HEIGHT hs w v ->
    length a = HEIGHT -> proves (pedersen hs) (r_contracts_root r) a (r_contract_nodes r) x ->
    x = state_contents HEIGHT hs w a.
  Proof.
    intros E La P. destruct (roots_right v E) as [Er _].
    - destruct (proves_root _ _ _ _ La P) as [Z|(q & Hq & V)]; auto.
      right. left. exists q. split; auto. right. now constructor.
    - rewrite Er in P. apply (proves_sound_ped _ a (r_contract_nodes r)); auto.
      + intros q Hq. left. now constructor.
      + intros q Hq. right. now constructor.
  Qed.

  Lemma leaf_right v a x : combined hs (r_contracts_root r) (r_classes_root r) v = state_commitment HEIGHT hs w v ->
    length a = HEIGHT -> In x (r_leaves r) ->
    proves (pedersen hs) (r_contracts_root r) a (r_contract_nodes r) (leaf hs (l_class x) (l_root x) (l_nonce x)) ->
    present HEIGHT w a /\ l_class x = class_in_leaf w a /\ l_root x = storage_root HEIGHT hs w a /\ l_nonce x = w_nonce w a.
  Proof.
    intros E La Hx P. apply (contracts_right v) in P; auto. destruct NC as [Inj NZ].
    assert (Q3 : involved (Ped (pedersen hs (pedersen hs (l_class x) (l_root x)) (l_nonce x), 0%N, 0%N)))
      by (right; now constructor).
    assert (Q2 : involved (Ped (pedersen hs (l_class x) (l_root x), l_nonce x, 0%N))) by (right; now constructor).
    assert (Q1 : involved (Ped (l_class x, l_root x, 0%N))) by (right; now constructor).
    destruct (contents_cases HEIGHT hs w a T La) as [[Pa L]|[Pa L]]; rewrite L in P.
    - unfold leaf in P.
      assert (X := Inj _ _ Q3 (or_introl (cp_leaf3 HEIGHT hs w a Pa)) P). injection X as X3.
      assert (Y := Inj _ _ Q2 (or_introl (cp_leaf2 HEIGHT hs w a Pa)) X3). injection Y as Y1 Y2.
      assert (Z := Inj _ _ Q1 (or_introl (cp_leaf1 HEIGHT hs w a Pa)) Y1). injection Z as Z1 Z2. auto.
    - exfalso. exact (NZ _ Q3 P).
  Qed.

  Lemma absent_right v a : combined hs (r_contracts_root r) (r_classes_root r) v = state_commitment HEIGHT hs w v ->
    length a = HEIGHT -> proves (pedersen hs) (r_contracts_root r) a (r_contract_nodes r) 0%N ->
    ~ present HEIGHT w a.
  Proof.
    intros E La P Pa. apply (contracts_right v) in P; auto.
    destruct (contents_cases HEIGHT hs w a T La) as [[_ L]|[N _]]; auto. rewrite L in P.
    destruct NC as [_ NZ]. apply (NZ _ (or_introl (cp_leaf3 HEIGHT hs w a Pa))). symmetry. exact P.
  Qed.

  Lemma storage_right a k ns y : present HEIGHT w a -> length k = HEIGHT -> In ns (r_storage_nodes r) ->
    proves (pedersen hs) (storage_root HEIGHT hs w a) k ns y -> y = w_storage w a k.
  Proof.
    intros Pa Lk Hn P. apply (proves_sound_ped _ k ns); auto.
    - intros q Hq. left. eapply cp_storage; eauto.
    - intros q Hq. right. eapply ck_storage; eauto.
  Qed.

  Lemma classes_right v k x : combined hs (r_contracts_root r) (r_classes_root r) v = state_commitment HEIGHT hs w v ->
    version_lt v (Version 0 14 0 0) = false \/ r_classes_root r <> 0%N ->
    length k = HEIGHT -> proves (poseidon hs) (r_classes_root r) k (r_class_nodes r) x ->
    x = class_contents hs w k.
  Proof.
    intros E K Lk P. destruct (roots_right v E) as [_ Er]; [tauto|]. rewrite Er in P.
    apply (proves_sound_pos _ k (r_class_nodes r)); auto.
    - intros q Hq. left. now constructor.
    - intros q Hq. right. now constructor.
  Qed.
End Bind.
