(** Proofs for C17 and C56: commitments are always computed, and exactly which
    gateway blocks verify. *)
From Coq Require Import List Bool Arith NArith ZArith Lia ZifyBool ZifyNat ZifyN.
From Verif Require Import Radix MerkleModel MerkleSpec HashModel VersionModel CommitModel CommitSpec CommitProof BlockHashProof.
Import ListNotations.
Local Open Scope N_scope.
#[local] Opaque spec_root root_queries items.

Lemma map_outcome_total {A B} (f : A -> outcome B) (g : A -> B) l :
  Forall (fun a => f a = Ok (g a)) l -> map_outcome f l = Ok (map g l).
Proof.
  induction 1 as [|a l E _ IH]; [reflexivity|]. cbn [map_outcome map]. rewrite E. cbn [obind].
  rewrite IH. reflexivity.
Qed.

Section Total.
  Variable pedersen : felt -> felt -> felt.
  Variable poseidon2 : felt -> felt -> felt.
  Variable poseidon : list felt -> felt.
  Variable keccak : list N -> list N.

  Lemma chain_fits l : len l < 2 ^ 64 -> chain_hash pedersen l = Ok (chain_value pedersen l).
  Proof. intros B. apply chain_hash_short. unfold USIZE_MAX. lia. Qed.

  Lemma tx_item_total v tx : len (signature_of tx) < 2 ^ 64 ->
    tx_item_for pedersen poseidon v tx = Ok (tx_value pedersen poseidon v tx).
  Proof.
    intros B. assert (X : exists x, tx_item_for pedersen poseidon v tx = Ok x).
    { unfold tx_item_for. pose proof (chain_fits [] ltac:(reflexivity)) as C0.
      destruct (version_lt v V_0_11_1); [|destruct (version_lt v V_0_13_2);
        [|destruct (version_lt v V_0_13_4); eexists; reflexivity]];
        unfold tx_item_pre_0_11_1, tx_item_pre_0_13_2; unfold signature_of in B;
        destruct (tx_var tx);
        first [rewrite C0 | rewrite (chain_fits _ B)]; eexists; reflexivity. }
    destruct X as [x E]. rewrite E. f_equal. eapply tx_item_value. exact E.
  Qed.

  Lemma root_total v hs : len hs <= 2 ^ 64 ->
    (if version_lt v V_0_13_2 then commitment_root pedersen hs else commitment_root poseidon2 hs) =
    Ok (root_for pedersen poseidon2 v hs).
  Proof.
    intros L. change (version_lt v V_0_13_2) with (before v 0 13 2). unfold root_for.
    destruct (before v 0 13 2); apply commitment_root_ok; exact L.
  Qed.

  Lemma transaction_commitment_total txs v : txs_fit txs ->
    transaction_commitment pedersen poseidon2 poseidon txs v =
    Ok (root_for pedersen poseidon2 v (map (tx_value pedersen poseidon v) txs)).
  Proof.
    intros [L F]. unfold transaction_commitment.
    rewrite (map_outcome_total _ (tx_value pedersen poseidon v)).
    - cbn [obind]. apply root_total. unfold len. rewrite map_length. fold (len txs). lia.
    - eapply Forall_impl; [|exact F]. intros tx B. apply tx_item_total. exact B.
  Qed.

  Lemma event_commitment_total tes v : events_fit tes ->
    event_commitment pedersen poseidon2 poseidon tes v =
    Ok (root_for pedersen poseidon2 v (map (event_value pedersen poseidon v) (events_in_order tes))).
  Proof.
    intros [L F]. unfold event_commitment.
    change (flat_map (fun tes => map (fun e => (fst tes, e)) (snd tes)) tes) with (events_in_order tes).
    rewrite (map_outcome_total _ (event_value pedersen poseidon v)).
    - cbn [obind]. apply root_total. unfold len. rewrite map_length. fold (len (events_in_order tes)). lia.
    - eapply Forall_impl; [|exact F]. intros [t e] [B1 B2]. cbn [fst snd] in *.
      change (version_lt v V_0_13_2) with (before v 0 13 2). unfold event_value. cbn [fst snd].
      destruct (before v 0 13 2); [|reflexivity].
      unfold event_item_pre_0_13_2. rewrite (chain_fits _ B1). cbn [obind].
      rewrite (chain_fits _ B2). cbn [obind]. apply chain_fits. reflexivity.
  Qed.

  Lemma receipt_commitment_total rs : len rs < 2 ^ 64 ->
    receipt_commitment poseidon2 poseidon keccak rs =
    Ok (spec_root poseidon2 64
          (items (map (fun r => poseidon (receipt_words pedersen poseidon2 poseidon keccak r)) rs))).
  Proof.
    intros L. unfold receipt_commitment.
    rewrite (map_ext _ _ (receipt_item_value pedersen poseidon2 poseidon keccak)).
    apply commitment_root_ok. unfold len. rewrite map_length. fold (len rs). lia.
  Qed.

  Notation verify_gateway := (verify_gateway_block pedersen poseidon2 poseidon keccak).
  Notation checked := (checked_header pedersen poseidon2 poseidon keccak).
  Notation right := (commitments_right pedersen poseidon2 poseidon keccak).

  Lemma gateway_answer b sdc sdl c id : block_fits b ->
    (right b -> verify_gateway b sdc sdl c id =
                verify_block_hash pedersen poseidon (checked b sdc sdl) c id) /\
    (~ right b -> verify_gateway b sdc sdl c id = Ok Mismatch).
  Proof.
    intros (F1 & F2 & F3). unfold verify_gateway_block.
    rewrite (transaction_commitment_total _ (gb_version b) F1). cbn [obind].
    change (map (fun re => (rc_tx_hash (fst re), snd re)) (gb_receipts b)) with (block_events b).
    rewrite (event_commitment_total _ (gb_version b) F2). cbn [obind].
    rewrite receipt_commitment_total; [|unfold len in *; rewrite map_length; exact F3]. cbn [obind].
    fold (tx_root pedersen poseidon2 poseidon b). fold (event_root pedersen poseidon2 poseidon b).
    fold (receipt_root pedersen poseidon2 poseidon keccak b).
    unfold commitments_right, checked_header.
    generalize (tx_root pedersen poseidon2 poseidon b), (event_root pedersen poseidon2 poseidon b),
      (receipt_root pedersen poseidon2 poseidon keccak b).
    intros txc evc rcc.
    change (hd_tx_commitment (header_from_gateway_block b sdc sdl)) with (gb_tx_commitment b).
    unfold header_from_gateway_block, with_commitments, block_header.
    cbn [hd_hash hd_parent hd_number hd_timestamp hd_eth_l1_gas hd_strk_l1_gas hd_eth_l1_data_gas
         hd_strk_l1_data_gas hd_eth_l2_gas hd_strk_l2_gas hd_sequencer hd_version hd_event_commitment
         hd_state_commitment hd_tx_commitment hd_tx_count hd_event_count hd_blob hd_receipt_commitment
         hd_sd_commitment hd_sd_length].
    change (match gb_l2_gas b with Some p => p | None => (0, 0) end) with (prices (gb_l2_gas b)).
    destruct (N.eqb_spec (gb_tx_commitment b) 0) as [T0|T0];
      [|destruct (N.eqb_spec txc (gb_tx_commitment b)) as [T1|T1]]; cbn [negb].
    all: try (split; [intros (A & _); exfalso; apply T1; symmetry; exact (A T0)|reflexivity]).
    all: destruct (gb_receipt_commitment b) as [given|];
      [destruct (N.eqb_spec rcc given) as [R1|R1]; cbn [negb]|].
    all: try (split; [intros (_ & _ & A); exfalso; apply R1; symmetry; exact (A given eq_refl)|reflexivity]).
    all: destruct (N.eqb_spec (gb_event_commitment b) 0) as [E0|E0];
      [|destruct (N.eqb_spec evc (gb_event_commitment b)) as [E1|E1]]; cbn [negb].
    all: try (split; [intros (_ & A & _); exfalso; apply E1; symmetry; exact (A E0)|reflexivity]).
    all: split; [intros _; congruence|].
    all: intros NR; exfalso; apply NR; split; [intros; congruence|split; [intros; congruence|]].
    all: intros r Er; congruence.
  Qed.
End Total.
