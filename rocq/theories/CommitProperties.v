(** C17, C52, C56: commitments and block hashes.  Definitions are in
    CommitModel.v, the vocabulary of the statements in CommitSpec.v. *)
From Coq Require Import List Bool Arith NArith ZArith Lia ZifyBool ZifyNat ZifyN.
From Verif Require Import Radix MerkleModel MerkleSpec MerkleProof TrieInvProof HashModel VersionModel CommitModel CommitSpec
  CommitProof BlockHashProof CommitTotalProof.
Import ListNotations.
Local Open Scope N_scope.
#[local] Opaque spec_root root_queries items.

(** Hash functions for the examples. *)
Definition ex_pedersen (a b : felt) : felt := (a * 31 + b * 1009 + 7) mod P.
Definition ex_poseidon2 (a b : felt) : felt := (a * 37 + b * 2003 + 11) mod P.
Definition ex_poseidon (l : list felt) : felt := fold_left (fun acc x => (acc * 4099 + x + 13) mod P) l 5.
Definition ex_keccak (l : list N) : list N := repeat 9 30 ++ [N.of_nat (length l); fold_left N.add l 0 mod 256].
Notation ex_clean := (clean ex_pedersen ex_poseidon2 ex_poseidon ex_keccak).

(* The calls of an example, with the tree evaluated only where there are items. *)
Lemma tree_for_eval pedersen poseidon2 v hs : len hs <= 2 ^ 64 ->
  tree_for pedersen poseidon2 v hs =
  if before v 0 13 2 then map PedersenCall (fqueries pedersen 64 (item_keys 0 hs))
  else map PoseidonNode (fqueries poseidon2 64 (item_keys 0 hs)).
Proof.
  intros L. unfold tree_for, pedersen_tree, poseidon_tree. rewrite !items_queries by exact L. reflexivity.
Qed.
Lemma poseidon_tree_eval poseidon2 hs : len hs <= 2 ^ 64 ->
  poseidon_tree poseidon2 hs = map PoseidonNode (fqueries poseidon2 64 (item_keys 0 hs)).
Proof. intros L. unfold poseidon_tree. rewrite items_queries by exact L. reflexivity. Qed.

(** ================ C17 ================ *)

(* A commitment is the root of the trie that holds item i under the 64-bit key i: nothing but
   the ordered list of item hashes matters. *)
Theorem C17_is_trie_root H hs : len hs <= 2 ^ 64 ->
  commitment_root H hs = Ok (spec_root H 64 (items hs)).
Proof. apply commitment_root_ok. Qed.
Print Assumptions C17_is_trie_root.

(* Different lists of non-zero hashes have different commitments, unless the hash function
   collides on the nodes of the two trees. *)
Theorem C17_lists_bind H hs1 hs2 r :
  Forall (fun h => h <> 0) hs1 -> Forall (fun h => h <> 0) hs2 ->
  collision_free H (root_queries H 64 (items hs1) ++ root_queries H 64 (items hs2)) ->
  commitment_root H hs1 = Ok r -> commitment_root H hs2 = Ok r -> hs1 = hs2.
Proof.
  intros N1 N2 C E1 E2. apply commitment_root_eq in E1. apply commitment_root_eq in E2.
  destruct E1 as [E1 L1], E2 as [E2 L2]. apply (tree_binds H); auto. congruence.
Qed.
Print Assumptions C17_lists_bind.

Definition distinct_queries_b (H : felt -> felt -> felt) (qs : list query) : bool :=
  let ds := nodup query_dec qs in
  distinct (map (query_value H) ds) && forallb (fun q => negb (query_value H q =? 0)) ds.
Lemma collision_free_check H qs : distinct_queries_b H qs = true -> collision_free H qs.
Proof.
  unfold distinct_queries_b. intros E. apply andb_true_iff in E. destruct E as [D Z]. split.
  - intros q1 q2 I1 I2 E. apply (distinct_inj _ _ D); auto; apply nodup_In; assumption.
  - intros q I E. rewrite forallb_forall in Z. specialize (Z q (proj2 (nodup_In _ _ _) I)).
    rewrite E in Z. discriminate.
Qed.

Example C17_lists_bind_meets :
  Forall (fun h => h <> 0) [5; 6; 7] /\ Forall (fun h => h <> 0) [5; 6] /\
  collision_free ex_pedersen
    (root_queries ex_pedersen 64 (items [5; 6; 7]) ++ root_queries ex_pedersen 64 (items [5; 6])) /\
  (exists r, commitment_root ex_pedersen [5; 6; 7] = Ok r).
Proof.
  split; [repeat constructor; discriminate|]. split; [repeat constructor; discriminate|]. split.
  - rewrite !items_queries by (vm_compute; discriminate). apply collision_free_check. vm_compute. reflexivity.
  - eexists. apply C17_is_trie_root. vm_compute. discriminate.
Qed.

(* Item hashes of zero are not seen: with and without a trailing zero the commitment is the same. *)
Theorem C17_zero_item_refuted :
  exists hs1 hs2, hs1 <> hs2 /\ forall H, commitment_root H hs1 = commitment_root H hs2.
Proof.
  exists [5], [5; 0]. split; [discriminate|]. intros H.
  rewrite !commitment_root_ok by (vm_compute; discriminate).
  rewrite (spec_root_ext 64 H (items [5]) (items [5; 0])); [reflexivity|].
  intros k _. change (item [5] (bits_val k) = item [5; 0] (bits_val k)). cbn [item].
  destruct (bits_val k =? 0); [reflexivity|]. destruct (bits_val k - 1 =? 0); reflexivity.
Qed.
Print Assumptions C17_zero_item_refuted.

Section Hashes.
  Variable pedersen : felt -> felt -> felt.
  Variable poseidon2 : felt -> felt -> felt.
  Variable poseidon : list felt -> felt.
  Variable keccak : list N -> list N.

  (* Commitments are always computed, and only from the covered parts of the items, in order. *)
  Theorem C17_transactions_function v txs1 txs2 :
    txs_fit txs1 -> txs_fit txs2 -> map (covered_tx v) txs1 = map (covered_tx v) txs2 ->
    exists x, transaction_commitment pedersen poseidon2 poseidon txs1 v = Ok x /\
              transaction_commitment pedersen poseidon2 poseidon txs2 v = Ok x.
  Proof.
    intros F1 F2 E.
    set (g := fun c : felt * list felt =>
                if before v 0 13 2 then pedersen (fst c) (chain_value pedersen (snd c))
                else poseidon (fst c :: snd c)).
    assert (G : forall txs, map (tx_value pedersen poseidon v) txs = map g (map (covered_tx v) txs)).
    { intros txs. rewrite map_map. reflexivity. }
    rewrite !transaction_commitment_total by assumption. rewrite !G, E. eexists. split; reflexivity.
  Qed.

  Theorem C17_events_function v tes1 tes2 :
    events_fit tes1 -> events_fit tes2 ->
    map (covered_event v) (events_in_order tes1) = map (covered_event v) (events_in_order tes2) ->
    exists x, event_commitment pedersen poseidon2 poseidon tes1 v = Ok x /\
              event_commitment pedersen poseidon2 poseidon tes2 v = Ok x.
  Proof.
    intros F1 F2 E.
    set (g := fun c : option felt * felt * list felt * list felt =>
                let '(t, from, keys, data) := c in
                match t with
                | None => chain_value pedersen [from; chain_value pedersen keys; chain_value pedersen data]
                | Some t => poseidon (from :: t :: len keys :: keys ++ len data :: data)
                end).
    assert (G : forall te, event_value pedersen poseidon v te = g (covered_event v te)).
    { intros [t e]. unfold event_value, covered_event, g, event_words. cbn [snd].
      destruct (before v 0 13 2); reflexivity. }
    rewrite !event_commitment_total by assumption.
    rewrite !(map_ext _ _ G). rewrite <- !(map_map (covered_event v) g). rewrite E.
    eexists. split; reflexivity.
  Qed.

  Theorem C17_receipts_total rs : len rs < 2 ^ 64 ->
    exists x, receipt_commitment poseidon2 poseidon keccak rs = Ok x.
  Proof. intros L. eexists. apply (receipt_commitment_total pedersen). exact L. Qed.

  (* Equal commitments: the same items, in the same order, or a collision among the hashes that
     were computed.  The two blocks may even be of different versions. *)
  Theorem C17_transactions_bind v1 v2 txs1 txs2 x :
    transaction_commitment pedersen poseidon2 poseidon txs1 v1 = Ok x ->
    transaction_commitment pedersen poseidon2 poseidon txs2 v2 = Ok x ->
    clean pedersen poseidon2 poseidon keccak
      (tx_commitment_calls pedersen poseidon2 poseidon v1 txs1 ++
       tx_commitment_calls pedersen poseidon2 poseidon v2 txs2) ->
    map (covered_tx v1) txs1 = map (covered_tx v2) txs2.
  Proof. apply transactions_bind. Qed.

  Theorem C17_events_bind v1 v2 tes1 tes2 x :
    event_commitment pedersen poseidon2 poseidon tes1 v1 = Ok x ->
    event_commitment pedersen poseidon2 poseidon tes2 v2 = Ok x ->
    clean pedersen poseidon2 poseidon keccak
      (event_commitment_calls pedersen poseidon2 poseidon v1 tes1 ++
       event_commitment_calls pedersen poseidon2 poseidon v2 tes2) ->
    map (covered_event v1) (events_in_order tes1) = map (covered_event v2) (events_in_order tes2).
  Proof. apply events_bind. Qed.

  Theorem C17_receipts_bind rs1 rs2 x :
    receipt_commitment poseidon2 poseidon keccak rs1 = Ok x ->
    receipt_commitment poseidon2 poseidon keccak rs2 = Ok x ->
    clean pedersen poseidon2 poseidon keccak
      (receipt_commitment_calls pedersen poseidon2 poseidon keccak rs1 ++
       receipt_commitment_calls pedersen poseidon2 poseidon keccak rs2) ->
    rs1 = rs2.
  Proof. apply receipts_bind. Qed.

  (* From 0.13.2 until 0.13.4 an empty signature and a signature of one zero are one and the same. *)
  Theorem C17_empty_signature_refuted :
    exists v tx1 tx2, signature_of tx1 <> signature_of tx2 /\ tx_hash tx1 = tx_hash tx2 /\
      transaction_commitment pedersen poseidon2 poseidon [tx1] v =
      transaction_commitment pedersen poseidon2 poseidon [tx2] v.
  Proof.
    exists (Version 0 13 3 0), (Tx 9 (InvokeV3 [])), (Tx 9 (InvokeV3 [0])).
    split; [discriminate|]. split; [reflexivity|].
    assert (F1 : txs_fit [Tx 9 (InvokeV3 [])]) by (split; [|repeat constructor]; reflexivity).
    assert (F2 : txs_fit [Tx 9 (InvokeV3 [0])]) by (split; [|repeat constructor]; reflexivity).
    rewrite (transaction_commitment_total _ _ _ keccak _ (Version 0 13 3 0) F1), (transaction_commitment_total _ _ _ keccak _ (Version 0 13 3 0) F2).
    reflexivity.
  Qed.
End Hashes.
Print Assumptions C17_transactions_function.
Print Assumptions C17_events_function.
Print Assumptions C17_receipts_total.
Print Assumptions C17_transactions_bind.
Print Assumptions C17_events_bind.
Print Assumptions C17_receipts_bind.
Print Assumptions C17_empty_signature_refuted.

(* Meeting the hypotheses: three transactions of a 0.13.1 block against two of a 0.13.4 block. *)
Definition ex_v1 : version := Version 0 13 1 0.
Definition ex_v4 : version := Version 0 13 4 0.
Definition ex_txs : list transaction :=
  [Tx 101 (InvokeV1 [11; 12]); Tx 102 L1Handler; Tx 103 (DeclareV2 [13])].
Definition ex_txs' : list transaction := [Tx 101 (InvokeV3 [11]); Tx 105 DeployV1].

Example C17_transactions_meets :
  txs_fit ex_txs /\ txs_fit ex_txs' /\
  ex_clean (tx_commitment_calls ex_pedersen ex_poseidon2 ex_poseidon ex_v1 ex_txs ++
            tx_commitment_calls ex_pedersen ex_poseidon2 ex_poseidon ex_v4 ex_txs') /\
  map (covered_tx ex_v1) ex_txs = [(101, [11; 12]); (102, []); (103, [13])].
Proof.
  split; [split; [|repeat constructor]; reflexivity|]. split; [split; [|repeat constructor]; reflexivity|].
  split; [|reflexivity]. unfold tx_commitment_calls. rewrite !tree_for_eval by (vm_compute; discriminate).
  apply clean_check; vm_compute; reflexivity.
Qed.

Definition ex_events : list (felt * list event) :=
  [(101, [Event [1] 50 [2; 3]; Event [] 51 []]); (102, []); (103, [Event [4; 5] 50 [6]])].
Example C17_events_meets :
  events_fit ex_events /\
  ex_clean (event_commitment_calls ex_pedersen ex_poseidon2 ex_poseidon ex_v1 ex_events ++
            event_commitment_calls ex_pedersen ex_poseidon2 ex_poseidon ex_v4 ex_events) /\
  map (covered_event ex_v4) (events_in_order ex_events) =
    [(Some 101, 50, [2; 3], [1]); (Some 101, 51, [], []); (Some 103, 50, [6], [4; 5])].
Proof.
  split; [split; [|repeat constructor]; reflexivity|].
  split; [|reflexivity]. unfold event_commitment_calls. rewrite !tree_for_eval by (vm_compute; discriminate).
  apply clean_check; vm_compute; reflexivity.
Qed.

Definition ex_receipts : list receipt :=
  [Receipt 20 21 22 [Message 30 31 [32; 33]] None 101; Receipt 23 24 25 [] (Some [65; 66]) 102].
Example C17_receipts_meets :
  len ex_receipts < 2 ^ 64 /\
  ex_clean (receipt_commitment_calls ex_pedersen ex_poseidon2 ex_poseidon ex_keccak ex_receipts ++
            receipt_commitment_calls ex_pedersen ex_poseidon2 ex_poseidon ex_keccak (rev ex_receipts)).
Proof.
  split; [reflexivity|]. unfold receipt_commitment_calls. rewrite !poseidon_tree_eval by (vm_compute; discriminate).
  apply clean_check; vm_compute; reflexivity.
Qed.

(** ================ C52 ================ *)

Section BlockHash.
  Variable pedersen : felt -> felt -> felt.
  Variable poseidon2 : felt -> felt -> felt.
  Variable poseidon : list felt -> felt.
  Variable keccak : list N -> list N.
  Notation verify := (verify_block_hash pedersen poseidon).

  (* Verification always answers; it answers match exactly if the header carries the hash of the
     scheme selected by chain, number and version (on mainnet before 0.13.2: for its own or for
     the fixed sequencer address). *)
  Theorem C52_verification h c id : header_ok h ->
    (verify h c id = Ok Match \/ verify h c id = Ok Mismatch) /\
    (verify h c id = Ok Match <->
     exists h', In h' (tried c (scheme_of c h) h) /\
       scheme_hash pedersen poseidon (scheme_of c h) id h' = hd_hash h).
  Proof.
    intros O. split; [|apply (verify_match pedersen poseidon2); exact O].
    rewrite (verify_ok pedersen poseidon2) by exact O. destruct (existsb _ _); auto.
  Qed.

  (* The words that are hashed determine the fields. *)
  Theorem C52_preimage s id1 id2 h1 h2 :
    header_ok h1 -> header_ok h2 ->
    (s = Hash1 -> poseidon (gas_words h1) = poseidon (gas_words h2) -> gas_words h1 = gas_words h2) ->
    words poseidon s id1 h1 = words poseidon s id2 h2 ->
    same_fields s h1 h2 /\ (s <> Pre07 -> hd_sequencer h1 = hd_sequencer h2) /\ (s = Pre07 -> id1 = id2).
  Proof. apply words_fields. Qed.

  (* Two verified headers with one hash agree on everything their scheme covers, which is one
     and the same scheme, or a hash collision has been found. *)
  Theorem C52_binding h1 h2 c id1 id2 :
    header_ok h1 -> header_ok h2 ->
    verify h1 c id1 = Ok Match -> verify h2 c id2 = Ok Match -> hd_hash h1 = hd_hash h2 ->
    clean pedersen poseidon2 poseidon keccak
      (header_calls pedersen poseidon c id1 h1 ++ header_calls pedersen poseidon c id2 h2) ->
    scheme_of c h1 = scheme_of c h2 /\ same_fields (scheme_of c h1) h1 h2 /\
    (scheme_of c h1 = Pre07 -> id1 = id2) /\
    (scheme_of c h1 <> Pre07 -> c <> Mainnet \/ scheme_of c h1 <> Pre0132 ->
     hd_sequencer h1 = hd_sequencer h2).
  Proof. apply headers_bind. Qed.

  (* Mainnet before 0.13.2: the sequencer address is not bound.  Whatever the hash function,
     headers with different sequencers verify with the same hash. *)
  Theorem C52_sequencer_refuted :
    exists h1 h2, header_ok h1 /\ header_ok h2 /\ hd_hash h1 = hd_hash h2 /\
      hd_sequencer h1 <> hd_sequencer h2 /\ scheme_of Mainnet h1 = Pre0132 /\
      verify h1 Mainnet 7 = Ok Match /\ verify h2 Mainnet 7 = Ok Match.
  Proof.
    set (mk := fun hash seq =>
      Header hash 1 1000 1700000000 0 0 0 0 0 0 seq (Version 0 13 1 0) 3 4 5 6 7 false 0 0 0).
    set (hash := scheme_hash pedersen poseidon Pre0132 7 (mk 0 MAINNET_FALLBACK)).
    exists (mk hash 1), (mk hash 2).
    assert (O : forall s, header_ok (mk hash s)).
    { intros s. unfold header_ok, mk. cbn -[N.lt N.pow].
      repeat split; try reflexivity; repeat constructor; reflexivity. }
    split; [apply O|]. split; [apply O|]. split; [reflexivity|]. split; [discriminate|].
    split; [vm_compute; reflexivity|].
    assert (V : forall s, verify (mk hash s) Mainnet 7 = Ok Match).
    { intros s. apply (verify_match pedersen poseidon2); [apply O|].
      exists (with_sequencer (mk hash s) MAINNET_FALLBACK). split.
      - change (scheme_of Mainnet (mk hash s)) with Pre0132. right. left. reflexivity.
      - change (scheme_of Mainnet (mk hash s)) with Pre0132. reflexivity. }
    split; apply V.
  Qed.
End BlockHash.
Print Assumptions C52_verification.
Print Assumptions C52_preimage.
Print Assumptions C52_binding.
Print Assumptions C52_sequencer_refuted.

(* One header under each scheme; each verifies on the chain that selects the scheme. *)
Definition ex_header (hash number : N) (v : version) : header :=
  Header hash 1 number 1700000000 11 12 13 14 15 16 17 v 3 4 5 6 7 true 8 9 10.
Definition ex_hashed (c : chain_name) (number : N) (v : version) : header :=
  ex_header (scheme_hash ex_pedersen ex_poseidon (scheme_of c (ex_header 0 number v)) 77
                         (ex_header 0 number v)) number v.
Definition ex_headers : list (chain_name * header) :=
  [(Mainnet, ex_hashed Mainnet 832 (Version 0 6 0 0)); (Mainnet, ex_hashed Mainnet 833 ex_v1);
   (SepoliaTestnet, ex_hashed SepoliaTestnet 5 (Version 0 13 3 0)); (Custom, ex_hashed Custom 6 ex_v4)].
Example C52_meets :
  map (fun ch => scheme_of (fst ch) (snd ch)) ex_headers = [Pre07; Pre0132; Hash0; Hash1] /\
  Forall (fun ch => header_ok (snd ch) /\
            verify_block_hash ex_pedersen ex_poseidon (snd ch) (fst ch) 77 = Ok Match /\
            ex_clean (header_calls ex_pedersen ex_poseidon (fst ch) 77 (snd ch) ++
                      header_calls ex_pedersen ex_poseidon (fst ch) 77 (snd ch))) ex_headers.
Proof.
  split; [vm_compute; reflexivity|].
  repeat (apply Forall_cons || apply Forall_nil).
  all: split; [unfold header_ok; cbn -[N.lt N.pow]; repeat split; try reflexivity; repeat constructor; reflexivity|].
  all: split; [vm_compute; reflexivity|].
  all: apply clean_check; vm_compute; reflexivity.
Qed.

(** ================ C56 ================ *)

Section Gateway.
  Variable pedersen : felt -> felt -> felt.
  Variable poseidon2 : felt -> felt -> felt.
  Variable poseidon : list felt -> felt.
  Variable keccak : list N -> list N.
  Notation verify_gateway := (verify_gateway_block pedersen poseidon2 poseidon keccak).
  Notation checked := (checked_header pedersen poseidon2 poseidon keccak).

  (* A block from the gateway is accepted exactly if every commitment it states is that of its
     contents and its hash is that of the header with these commitments; otherwise the answer is
     mismatch. *)
  Theorem C56_verification b sdc sdl c id : block_fits b -> block_ok b sdl ->
    (verify_gateway b sdc sdl c id = Ok Match \/ verify_gateway b sdc sdl c id = Ok Mismatch) /\
    (verify_gateway b sdc sdl c id = Ok Match <->
     commitments_right pedersen poseidon2 poseidon keccak b /\
     exists h', In h' (tried c (scheme_of c (checked b sdc sdl)) (checked b sdc sdl)) /\
       scheme_hash pedersen poseidon (scheme_of c (checked b sdc sdl)) id h' = gb_hash b).
  Proof.
    intros F O. destruct (gateway_answer pedersen poseidon2 poseidon keccak b sdc sdl c id F) as [A B].
    assert (OK : header_ok (checked b sdc sdl)) by exact O.
    destruct (C52_verification pedersen poseidon2 poseidon (checked b sdc sdl) c id OK) as [T I].
    assert (D : commitments_right pedersen poseidon2 poseidon keccak b \/
                ~ commitments_right pedersen poseidon2 poseidon keccak b).
    { unfold commitments_right.
      generalize (tx_root pedersen poseidon2 poseidon b), (event_root pedersen poseidon2 poseidon b),
        (receipt_root pedersen poseidon2 poseidon keccak b). intros x y z.
      destruct (N.eq_dec (gb_tx_commitment b) 0), (N.eq_dec (gb_tx_commitment b) x),
        (N.eq_dec (gb_event_commitment b) 0), (N.eq_dec (gb_event_commitment b) y).
      all: try (right; intros (? & ? & _); intuition congruence).
      all: destruct (gb_receipt_commitment b) as [r|];
        [destruct (N.eq_dec r z); [|right; intros (_ & _ & X); specialize (X r eq_refl); congruence]|].
      all: left; split; [|split]; try tauto; intros; congruence. }
    destruct D as [D|D].
    - rewrite (A D). split; [exact T|]. rewrite I. tauto.
    - rewrite (B D). split; [auto|]. split; [discriminate|tauto].
  Qed.

  (* Two accepted blocks with one hash have the same transactions (hash and signature), events,
     receipts, state commitment and so on, as far as the scheme covers them, in the same order. *)
  Theorem C56_binding b1 b2 sdc1 sdc2 sdl1 sdl2 c id1 id2 :
    block_ok b1 sdl1 -> block_ok b2 sdl2 ->
    verify_gateway b1 sdc1 sdl1 c id1 = Ok Match -> verify_gateway b2 sdc2 sdl2 c id2 = Ok Match ->
    gb_hash b1 = gb_hash b2 ->
    clean pedersen poseidon2 poseidon keccak
      (block_calls pedersen poseidon2 poseidon keccak c id1 b1 sdc1 sdl1 ++
       block_calls pedersen poseidon2 poseidon keccak c id2 b2 sdc2 sdl2) ->
    let s := scheme_of c (checked b1 sdc1 sdl1) in
    s = scheme_of c (checked b2 sdc2 sdl2) /\
    same_block s b1 b2 sdc1 sdc2 sdl1 sdl2 /\
    (s <> Pre07 -> c <> Mainnet \/ s <> Pre0132 ->
     match gb_sequencer b1 with Some a => a | None => 0 end =
     match gb_sequencer b2 with Some a => a | None => 0 end).
  Proof. apply blocks_bind. Qed.
End Gateway.
Print Assumptions C56_verification.
Print Assumptions C56_binding.

(* A block with transactions, events and receipts; its commitments are not stated, so that its
   roots need no evaluation. *)
Definition ex_block (hash : N) : gw_block :=
  GwBlock hash 900 (1, 2) (3, 4) (Some (5, 6)) 7 (Some 8) 9 1700000000
    [(Receipt 20 21 22 [Message 30 31 [32; 33]] None 101, [Event [1] 50 [2; 3]; Event [] 51 []])]
    [Tx 101 (InvokeV3 [11; 12])] ex_v4 0 0 true None.
Definition ex_block_hash : N :=
  scheme_hash ex_pedersen ex_poseidon Hash1 77
    (checked_header ex_pedersen ex_poseidon2 ex_poseidon ex_keccak (ex_block 0) 40 41).
Example C56_meets :
  block_fits (ex_block ex_block_hash) /\ block_ok (ex_block ex_block_hash) 41 /\
  verify_gateway_block ex_pedersen ex_poseidon2 ex_poseidon ex_keccak (ex_block ex_block_hash) 40 41 SepoliaTestnet 77
    = Ok Match /\
  (* and no two of the hashes that this computes collide *)
  ex_clean (block_calls ex_pedersen ex_poseidon2 ex_poseidon ex_keccak SepoliaTestnet 77 (ex_block ex_block_hash) 40 41 ++
            block_calls ex_pedersen ex_poseidon2 ex_poseidon ex_keccak SepoliaTestnet 77 (ex_block ex_block_hash) 40 41).
Proof.
  assert (F : block_fits (ex_block ex_block_hash)).
  { split; [split; [|repeat constructor]; reflexivity|]. split; [split; [|repeat constructor]; reflexivity|reflexivity]. }
  assert (O : block_ok (ex_block ex_block_hash) 41).
  { unfold block_ok. repeat split; try reflexivity; repeat constructor; reflexivity. }
  split; [exact F|]. split; [exact O|].
  split; [apply (C56_verification _ _ _ _ _ _ _ _ _ F O); split|].
  - split; [intros X; contradiction X; reflexivity|]. split; [intros X; contradiction X; reflexivity|discriminate].
  - assert (S1 : scheme_of SepoliaTestnet (checked_header ex_pedersen ex_poseidon2 ex_poseidon ex_keccak
                   (ex_block ex_block_hash) 40 41) = Hash1) by reflexivity.
    rewrite S1. eexists. split; [left; reflexivity|].
    change (gb_hash (ex_block ex_block_hash)) with ex_block_hash. unfold ex_block_hash at 2.
    generalize ex_block_hash. intros x. clear.
    unfold checked_header, tx_root, event_root, receipt_root, block_events.
    cbn [ex_block gb_version gb_transactions gb_receipts].
    repeat match goal with |- context [root_for ?a ?b ?c ?d] => generalize (root_for a b c d); intros end.
    repeat match goal with |- context [spec_root ?a ?b ?c] => generalize (spec_root a b c); intros end.
    reflexivity.
  - clear. generalize ex_block_hash. intros x.
    unfold block_calls, tx_commitment_calls, event_commitment_calls, receipt_commitment_calls.
    unfold checked_header, tx_root, event_root, receipt_root, root_for, block_events.
    cbn [ex_block gb_version gb_transactions gb_receipts].
    rewrite !tree_for_eval, !poseidon_tree_eval, !items_root by (vm_compute; discriminate).
    apply clean_check; vm_compute; reflexivity.
Qed.
