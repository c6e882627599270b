(** * Storage proofs (starknet_getStorageProof) prove the state, and cannot lie about it (C74) *)
From Coq Require Import List Bool Arith NArith Lia.
From Verif Require Import AList MerkleModel MerkleSpec VersionModel CommitModel
  StateRootModel StateRootSpec StateRootProof StateRootRun StateRootBind StateRootProperties
  StorageProofModel StorageProofSpec StorageProofProof StorageProofRun StorageProofInv StorageProofBind.
Import ListNotations.

Lemma position_nth headers : forall b h, NoDup headers -> nth_error headers b = Some h -> position h headers = Some b.
Proof.
  induction headers as [|x l IH]; intros b h N E; [destruct b; discriminate|].
  apply NoDup_cons_iff in N. destruct N as [N1 N2]. destruct b as [|b]; cbn in *.
  - injection E as ->. now rewrite N.eqb_refl.
  - destruct (N.eqb_spec x h) as [->|_]; [exfalso; apply N1; eapply nth_error_In; eauto|].
    now rewrite (IH b h N2 E).
Qed.
Lemma named headers l1 id b : NoDup headers -> names headers l1 id b ->
  block_number headers l1 id = Fine b /\ b < length headers.
Proof.
  intros N X. destruct X as [b L|b h E|b E|b E L]; unfold block_number.
  - destruct (Nat.ltb_spec b (length headers)); [auto|lia].
  - rewrite (position_nth _ _ _ N E). split; auto. apply nth_error_Some. congruence.
  - destruct headers; [discriminate|]. split; [|lia]. f_equal. lia.
  - rewrite E. destruct (Nat.ltb_spec b (length headers)); [auto|lia].
Qed.
Lemma keys_total q : keys_asked q = total_keys q.
Proof.
  unfold keys_asked, total_keys, count, listed. rewrite !app_length, flat_map_concat_map.
  assert (L : forall (l : list (bits * list bits)),
    length (concat (map snd l)) = fold_right Nat.add 0 (map (fun x => length (snd x)) l)).
  { induction l as [|x l IH]; cbn; auto. now rewrite app_length, IH. }
  rewrite L. destruct (q_classes q), (q_contracts q), (q_storage q); cbn; lia.
Qed.
Lemma unnamed headers l1 id : (forall b, ~ names headers l1 id b) -> id <> PreConfirmed ->
  block_number headers l1 id = Fail BlockNotFound.
Proof.
  intros X P. destruct id as [n|h| | |]; unfold block_number; auto.
  - destruct (Nat.ltb_spec n (length headers)) as [L|]; auto. exfalso. apply (X n). now constructor.
  - destruct (position h headers) as [b|] eqn:E; auto. exfalso.
    apply (X b). constructor. clear X P. revert b E. induction headers as [|x l IH]; intros b; cbn; [discriminate|].
    destruct (N.eqb_spec x h) as [->|_]; [now intros [= <-]|].
    destruct (position h l) as [b'|]; [|discriminate]. intros [= <-]. cbn. now apply IH.
  - destruct headers as [|x l]; auto. exfalso. apply (X (length l)). now constructor.
  - destruct l1 as [n|]; auto. destruct (Nat.ltb_spec n (length headers)) as [L|]; auto.
    exfalso. apply (X n). now constructor.
  - congruence.
Qed.

Lemma full_node_app HEIGHT hs l1 : forall l2 d v n,
  full_node HEIGHT hs d v n (l1 ++ l2) =
  match full_node HEIGHT hs d v n l1 with
  | Some (d', v') => full_node HEIGHT hs d' v' (n + length (all_blocks l1)) l2
  | None => None
  end.
Proof.
  induction l1 as [|s l1 IH]; intros l2 d v n; cbn [app full_node].
  - cbn. now rewrite Nat.add_0_r.
  - destruct (full_arrive HEIGHT hs d v n s) as [[d1 v1]|]; auto. rewrite IH.
    cbn [all_blocks flat_map]. now rewrite app_length, Nat.add_assoc.
Qed.

(** A node that has stored a history of blocks ([l1], then [l2]) and has not pruned
    its trees answers a request for the block at the end of [l1], by number, hash or
    tag, whatever came later, and with whatever keys if they are no more than 100:
    the answer has the two roots that make up the state commitment of the block, and
    nodes that show, for every key asked for, what the state holds under it (or that
    it holds nothing), with the hash of the block.  The block is one that arrived
    alone or the last of a batch. *)
Theorem C74_served : forall HEIGHT hs (l1 l2 : list arrival) d v headers ptr q b,
  HEIGHT <> 0 ->
  Forall (well_formed HEIGHT) (all_blocks (l1 ++ l2)) -> Forall from_maps (all_blocks (l1 ++ l2)) ->
  (forall s, In s (l1 ++ l2) -> plain_batch s) ->
  full_node HEIGHT hs empty_db no_leaves 0 (l1 ++ l2) = Some (d, v) ->
  length (all_blocks l1) = S b -> NoDup headers -> names headers ptr (q_block q) b ->
  proper_keys HEIGHT q -> keys_asked q <= 100 -> no_zero HEIGHT hs (state_after l1) ->
  exists r, get_storage_proof HEIGHT hs false headers ptr d v q = Fine r /\
    right_answer HEIGHT hs (state_after l1) q r /\
    (forall ver, combined hs (r_contracts_root r) (r_classes_root r) ver =
                 state_commitment HEIGHT hs (state_after l1) ver) /\
    nth_error headers b = Some (r_block_hash r).
Proof.
  intros HEIGHT hs l1 l2 d v headers ptr q b HP F M P E Lb ND Nm PK KA NZ.
  assert (AB : all_blocks (l1 ++ l2) = all_blocks l1 ++ all_blocks l2) by apply flat_map_app.
  rewrite AB in F, M. apply Forall_app in F. destruct F as [F1 F2]. apply Forall_app in M. destruct M as [M1 M2].
  assert (P1 : forall s, In s l1 -> plain_batch s) by (intros s Hs; apply P, in_app_iff; auto).
  assert (P2 : forall s, In s l2 -> plain_batch s) by (intros s Hs; apply P, in_app_iff; auto).
  rewrite full_node_app in E.
  destruct (full_node HEIGHT hs empty_db no_leaves 0 l1) as [[d1 v1]|] eqn:E1; [|discriminate].
  assert (Z : no_system_nonce genesis) by (intros a _; reflexivity).
  destruct (full_inv HEIGHT hs l1 _ _ _ _ _ _ (inv_empty HEIGHT hs) (vinv_empty HEIGHT hs) Z F1 M1 P1 E1) as [I V].
  cbn [Nat.add] in *. rewrite Lb in *.
  assert (R : reads HEIGHT hs d1 v1 b (state_after l1)) by (apply inv_reads; assumption).
  destruct (stable_full_node HEIGHT hs l2 _ _ _ _ _ P2 E) as [S1 S2].
  assert (R' : reads HEIGHT hs d v b (state_after l1)) by (eapply reads_stable; eauto).
  destruct (named headers ptr _ _ ND Nm) as [Eb Lt].
  assert (T : tidy HEIGHT (state_after l1)) by apply I.
  assert (K : total_keys q <= MAX_KEYS) by (rewrite <- keys_total; exact KA).
  destruct (answer_right HEIGHT hs HP headers ptr d v q b _ R' T NZ Eb PK K) as (r & G & A & H).
  exists r. split; auto. split; auto. split.
  - intros ver. destruct A as (-> & -> & _). apply combined_state.
  - rewrite H. now apply nth_error_nth'.
Qed.

(** What is refused, whatever the node holds: more than 100 keys, the pre-confirmed
    block, and blocks that it does not have. *)
Theorem C74_refused : forall HEIGHT hs pruning headers ptr d v q,
  (100 < keys_asked q ->
   get_storage_proof HEIGHT hs pruning headers ptr d v q = Fail (ProofLimitExceeded (keys_asked q))) /\
  (keys_asked q <= 100 -> q_block q = PreConfirmed ->
   get_storage_proof HEIGHT hs pruning headers ptr d v q = Fail ProofMissing) /\
  (keys_asked q <= 100 -> q_block q <> PreConfirmed -> (forall b, ~ names headers ptr (q_block q) b) ->
   get_storage_proof HEIGHT hs pruning headers ptr d v q = Fail BlockNotFound).
Proof.
  intros HEIGHT hs pruning headers ptr d v q. rewrite keys_total. unfold get_storage_proof.
  change MAX_KEYS with 100. destruct (Nat.ltb_spec 100 (total_keys q)) as [L|L].
  - repeat split; auto; intros; lia.
  - split; [intros; lia|]. split.
    + intros _ ->. reflexivity.
    + intros _ P X. now rewrite (unnamed headers ptr _ X P).
Qed.

(** Whoever sends it, an answer whose roots make up the state commitment of a state
    shows nothing that is not in that state, unless hash computations of the state
    and of the client collide: a contract shown with a class, a nonce and a storage
    root has those, and the values shown under that storage root are those of its
    storage; a contract shown to be absent is; and a class shown with a compiled
    hash, or shown to be absent, is so.  For the last the classes' root must be part
    of the commitment, which it is not if it is zero in a block older than 0.14.0. *)
Theorem C74_sound : forall HEIGHT hs (l : list arrival) d cs ver (r : response) casms,
  HEIGHT <> 0 ->
  Forall (well_formed HEIGHT) (all_blocks l) -> (forall s, In s l -> plain_batch s) ->
  node HEIGHT hs empty_db 0 l = Some (d, cs) ->
  let w := state_after l in
  no_collision hs (fun c => computed HEIGHT hs w c \/ checked hs r casms c) ->
  combined hs (r_contracts_root r) (r_classes_root r) ver = state_commitment HEIGHT hs w ver ->
  (forall a x, length a = HEIGHT -> In x (r_leaves r) ->
     proves (pedersen hs) (r_contracts_root r) a (r_contract_nodes r) (leaf hs (l_class x) (l_root x) (l_nonce x)) ->
     present HEIGHT w a /\ l_class x = class_in_leaf w a /\ l_nonce x = w_nonce w a /\
     forall k ns y, length k = HEIGHT -> In ns (r_storage_nodes r) ->
       proves (pedersen hs) (l_root x) k ns y -> y = w_storage w a k) /\
  (forall a, length a = HEIGHT ->
     proves (pedersen hs) (r_contracts_root r) a (r_contract_nodes r) 0%N -> ~ present HEIGHT w a) /\
  (version_lt ver (Version 0 14 0 0) = false \/ r_classes_root r <> 0%N ->
   forall k, length k = HEIGHT ->
     (forall casm, In casm casms ->
        proves (poseidon hs) (r_classes_root r) k (r_class_nodes r) (class_leaf_hash hs casm) ->
        w_casm w k = Some casm) /\
     (proves (poseidon hs) (r_classes_root r) k (r_class_nodes r) 0%N -> w_casm w k = None)).
Proof.
  intros HEIGHT hs l d cs ver r casms HP F P E w NC C.
  assert (T : tidy HEIGHT w).
  { assert (Z : no_system_nonce genesis) by (intros a _; reflexivity).
    destruct (node_spec HEIGHT hs l empty_db 0 genesis (inv_empty HEIGHT hs) Z F P) as [A B].
    destruct (A (B ltac:(congruence))) as (d' & _ & T). exact T. }
  split; [|split].
  - intros a x La Hx Pr.
    destruct (leaf_right HEIGHT hs HP w r casms NC T ver a x C La Hx Pr) as (Pa & -> & -> & ->).
    split; auto. split; auto. split; auto. intros k ns y Lk Hn Py.
    eapply (storage_right HEIGHT hs HP w r casms NC a k ns y); eauto.
  - intros a La Pr. eapply (absent_right HEIGHT hs HP w r casms NC T ver a); eauto.
  - intros K k Lk. destruct NC as [Inj NZ].
    assert (CR : forall x, proves (poseidon hs) (r_classes_root r) k (r_class_nodes r) x -> x = class_contents hs w k).
    { intros x. apply (classes_right HEIGHT hs HP w r casms (conj Inj NZ) ver k x C K Lk). }
    split.
    + intros casm Hc Pr. apply CR in Pr. unfold class_contents in Pr.
      assert (Q : checked hs r casms (Pos (CLASS_LEAF_V0, casm, 0%N))) by now constructor.
      destruct (w_casm w k) as [casm'|] eqn:G.
      * assert (Q' : computed HEIGHT hs w (Pos (CLASS_LEAF_V0, casm', 0%N))) by (eapply cp_casm; eauto).
        assert (X := Inj _ _ (or_intror Q) (or_introl Q') Pr). now injection X as ->.
      * exfalso. exact (NZ _ (or_intror Q) Pr).
    + intros Pr. apply CR in Pr. unfold class_contents in Pr. destruct (w_casm w k) as [casm'|] eqn:G; auto.
      exfalso. assert (Q' : computed HEIGHT hs w (Pos (CLASS_LEAF_V0, casm', 0%N))) by (eapply cp_casm; eauto).
      apply (NZ _ (or_introl Q')). symmetry. exact Pr.
Qed.

(** ** Cases *)

Ltac nd := unfold keys; cbn [map fst c_storage];
  repeat (apply NoDup_cons; [cbn; intros X; repeat destruct X as [X|X]; first [discriminate X|destruct X]|]); apply NoDup_nil.

Lemma fm0 : from_maps up0.
Proof.
  split; [|split].
  - intros a c [H|[]]. injection H as <- <-. nd.
  - intros a s [H|[]]. injection H as <- <-. nd.
  - intros k _ [].
Qed.
Lemma fm1 : from_maps up1.
Proof.
  split; [|split].
  - intros a c [H|[]]. injection H as <- <-. nd.
  - intros a s [].
  - intros k [].
Qed.
Lemma fm_empty : from_maps (mkUpdate [] [] [] []).
Proof. split; [|split]; [intros a c []|intros a s []|intros k []]. Qed.

(** The computations of a client, listed. *)
Definition checks (hs : hashes) (r : response) (casms : list felt) : list computation :=
  map Ped (proof_queries (map fst (r_contract_nodes r))) ++
  map Pos (proof_queries (map fst (r_class_nodes r))) ++
  flat_map (fun ns => map Ped (proof_queries (map fst ns))) (r_storage_nodes r) ++
  flat_map (fun x => [Ped (l_class x, l_root x, 0%N);
                      Ped (pedersen hs (l_class x) (l_root x), l_nonce x, 0%N);
                      Ped (pedersen hs (pedersen hs (l_class x) (l_root x)) (l_nonce x), 0%N, 0%N)]) (r_leaves r) ++
  map (fun casm => Pos (CLASS_LEAF_V0, casm, 0%N)) casms ++
  [Many [STATE_V0; r_contracts_root r; r_classes_root r]].
Lemma checks_all hs r casms c : checked hs r casms c -> In c (checks hs r casms).
Proof.
  intros C. unfold checks. rewrite !in_app_iff, !in_flat_map.
  destruct C as [q Hq|q Hq|ns q Hn Hq|x Hx|x Hx|x Hx|k Hk|].
  - left. now apply in_map.
  - right. left. now apply in_map.
  - right. right. left. exists ns. split; auto. now apply in_map.
  - right. right. right. left. exists x. cbn. auto.
  - right. right. right. left. exists x. cbn. auto.
  - right. right. right. left. exists x. cbn. auto.
  - right. right. right. right. left. apply in_map_iff. eauto.
  - right. right. right. right. right. now left.
Qed.

(** Two blocks, of which the first is asked for by hash: a class that is declared
    and one that is not, a contract and an address without one, and two storage
    keys of the contract. *)
Definition first_block := [Gateway up0 v13 (Some c0)].
Definition second_block := [Track up1 v14 c1].
Definition ask : request :=
  mkRequest (Hash 51%N) (Some [k2; k1]) (Some [k3; k0]) (Some [(k3, [k1; k0])]).
Definition stored (l : list arrival) : db * leaves :=
  match full_node 2 toy empty_db no_leaves 0 l with Some x => x | None => (empty_db, no_leaves) end.
Lemma stored_ok l : (if full_node 2 toy empty_db no_leaves 0 l then true else false) = true ->
  full_node 2 toy empty_db no_leaves 0 l = Some (fst (stored l), snd (stored l)).
Proof. unfold stored. destruct (full_node 2 toy empty_db no_leaves 0 l) as [[d v]|]; [reflexivity|discriminate]. Qed.
Definition answer : response :=
  match get_storage_proof 2 toy false [51; 52]%N None (fst (stored (first_block ++ second_block)))
                          (snd (stored (first_block ++ second_block))) ask with
  | Fine r => r
  | Fail _ => mkResponse [] [] [] [] 0 0 0
  end%N.

Lemma no_zero_first : no_zero 2 toy (state_after first_block).
Proof.
  intros c C. apply listing_all in C. revert c C. apply Forall_forall.
  assert (X : forallb (fun c => negb (value toy c =? 0)%N) (listing 2 toy (state_after first_block)) = true)
    by (vm_compute; reflexivity).
  apply Forall_forall. intros c Hc. rewrite forallb_forall in X. specialize (X c Hc).
  apply negb_true_iff, N.eqb_neq in X. exact X.
Qed.

Example C74_served_case :
  2 <> 0 /\
  Forall (well_formed 2) (all_blocks (first_block ++ second_block)) /\
  Forall from_maps (all_blocks (first_block ++ second_block)) /\
  (forall s, In s (first_block ++ second_block) -> plain_batch s) /\
  (exists d v, full_node 2 toy empty_db no_leaves 0 (first_block ++ second_block) = Some (d, v) /\
               get_storage_proof 2 toy false [51; 52]%N None d v ask = Fine answer) /\
  length (all_blocks first_block) = 1 /\ NoDup [51; 52]%N /\ names [51; 52]%N None (q_block ask) 0 /\
  proper_keys 2 ask /\ keys_asked ask <= 100 /\ no_zero 2 toy (state_after first_block) /\
  (length (r_class_nodes answer), length (r_contract_nodes answer), map (@length _) (r_storage_nodes answer)) =
    (1, 3, [2]) /\
  r_leaves answer = [mkLeaf 1 11 (storage_root 2 toy (state_after first_block) k3); mkLeaf 0 0 0]%N.
Proof.
  split; [discriminate|].
  split; [constructor; [exact wf0|constructor; [exact wf1|constructor]]|].
  split; [constructor; [exact fm0|constructor; [exact fm1|constructor]]|].
  split; [intros s [<-|[<-|[]]]; exact Coq.Init.Logic.I|].
  split.
  { exists (fst (stored (first_block ++ second_block))), (snd (stored (first_block ++ second_block))).
    split; [apply stored_ok; vm_compute; reflexivity|vm_compute; reflexivity]. }
  split; [reflexivity|].
  split; [constructor; [|constructor; [intros []|constructor]]; intros [X|[]]; discriminate|].
  split; [now constructor|].
  split; [|split; [vm_compute; lia|split; [exact no_zero_first|split; vm_compute; reflexivity]]].
  split; [|split].
  - intros k [<-|[<-|[]]]; reflexivity.
  - intros k [<-|[<-|[]]]; reflexivity.
  - intros a ks [H|[]]. injection H as <- <-. split; [reflexivity|]. intros k [<-|[<-|[]]]; reflexivity.
Qed.

Example C74_refused_case :
  100 < keys_asked (mkRequest Latest (Some (repeat k0 101)) None None) /\
  (forall b, ~ names [51; 52]%N (Some 2) (q_block (mkRequest L1Accepted (Some [k0]) None None)) b).
Proof.
  split; [vm_compute; lia|]. intros b X. cbn in X. inversion X; subst. cbn in *.
  match goal with E : Some _ = Some _ |- _ => injection E as <- end. lia.
Qed.

(** The same answer, checked against the state commitment of the first block. *)
Example C74_sound_case :
  Forall (well_formed 2) (all_blocks first_block) /\ (forall s, In s first_block -> plain_batch s) /\
  (exists d, node 2 toy empty_db 0 first_block = Some (d, [c0])) /\
  no_collision toy (fun c => computed 2 toy (state_after first_block) c \/ checked toy answer [99%N] c) /\
  combined toy (r_contracts_root answer) (r_classes_root answer) v13 = c0 /\
  (exists x ns, In x (r_leaves answer) /\ In ns (r_storage_nodes answer) /\
     proves (pedersen toy) (r_contracts_root answer) k3 (r_contract_nodes answer)
            (leaf toy (l_class x) (l_root x) (l_nonce x)) /\
     proves (pedersen toy) (l_root x) k1 ns 5%N) /\
  proves (pedersen toy) (r_contracts_root answer) k0 (r_contract_nodes answer) 0%N /\
  proves (poseidon toy) (r_classes_root answer) k2 (r_class_nodes answer) (class_leaf_hash toy 99%N) /\
  proves (poseidon toy) (r_classes_root answer) k1 (r_class_nodes answer) 0%N /\
  r_classes_root answer <> 0%N.
Proof.
  destruct C74_served_case as (HP & F & M & P & (d & v & E & G) & Lb & ND & Nm & PK & KA & NZ & _ & _).
  destruct (C74_served 2 toy first_block second_block d v _ _ ask 0 HP F M P E Lb ND Nm PK KA NZ)
    as (r & G' & (_ & _ & R3 & R4 & _ & R6) & _).
  assert (r = answer) by congruence. subst r.
  cbn [ask listed q_classes q_contracts q_storage] in *.
  assert (V0 : state_contents 2 toy (state_after first_block) k0 = 0%N) by (vm_compute; reflexivity).
  assert (V1 : class_contents toy (state_after first_block) k1 = 0%N) by (vm_compute; reflexivity).
  assert (V2 : class_contents toy (state_after first_block) k2 = class_leaf_hash toy 99%N) by (vm_compute; reflexivity).
  assert (V3 : state_contents 2 toy (state_after first_block) k3 =
    let x := data_of 2 toy (state_after first_block) k3 in leaf toy (l_class x) (l_root x) (l_nonce x))
    by (vm_compute; reflexivity).
  assert (V4 : w_storage (state_after first_block) k3 k1 = 5%N) by (vm_compute; reflexivity).
  assert (V5 : l_root (data_of 2 toy (state_after first_block) k3) = storage_root 2 toy (state_after first_block) k3)
    by reflexivity.
  split; [|split; [|split; [|split; [|split; [|split; [|split; [|split; [|split]]]]]]]].
  - constructor; [exact wf0|constructor].
  - intros s [<-|[]]; exact Coq.Init.Logic.I.
  - eexists. vm_compute. reflexivity.
  - apply (no_collision_check toy (listing 2 toy (state_after first_block) ++ checks toy answer [99%N])).
    + intros c [H|H]; apply in_app_iff; [left; now apply listing_all|right; now apply checks_all].
    + vm_compute. reflexivity.
  - vm_compute. reflexivity.
  - remember (r_storage_nodes answer) as sn eqn:Es. inversion R6 as [|x ns l l' Hk HF E1 Ens].
    exists (data_of 2 toy (state_after first_block) k3), ns.
    split; [vm_compute; left; reflexivity|]. split; [now left|].
    specialize (R4 k3 (or_introl eq_refl)). specialize (Hk k1 (or_introl eq_refl)). cbn [fst snd] in Hk.
    rewrite V3 in R4. rewrite V4 in Hk. rewrite V5. split; assumption.
  - specialize (R4 k0 (or_intror (or_introl eq_refl))). rewrite V0 in R4. exact R4.
  - specialize (R3 k2 (or_introl eq_refl)). rewrite V2 in R3. exact R3.
  - specialize (R3 k1 (or_intror (or_introl eq_refl))). rewrite V1 in R3. exact R3.
  - vm_compute. discriminate.
Qed.

(** ** What is false *)

(** A block in the middle of a batch: the trees have no roots of it.  The node
    answers, with nodes that show that a contract is absent which was deployed in
    that block, and roots that do not make up the state commitment of the block.
    The blocks taken one by one give the right answer. *)
Theorem C74_mid_batch_refuted : exists HEIGHT hs us ver c d v headers q r a,
  Forall (well_formed HEIGHT) us /\ Forall from_maps us /\ plain_batch (Batch us ver c) /\
  full_node HEIGHT hs empty_db no_leaves 0 [Batch us ver c] = Some (d, v) /\
  NoDup headers /\ names headers None (q_block q) 0 /\ In a (listed (q_contracts q)) /\
  let w := apply_updates genesis (firstn 1 us) in
  get_storage_proof HEIGHT hs false headers None d v q = Fine r /\
  proves (pedersen hs) (r_contracts_root r) a (r_contract_nodes r) 0%N /\
  w_class w a <> None /\ r_leaves r = [] /\
  combined hs (r_contracts_root r) (r_classes_root r) ver <> state_commitment HEIGHT hs w ver.
Proof.
  exists 2, toy, [up0; up1], v14, c1, (fst (stored [Batch [up0; up1] v14 c1])), (snd (stored [Batch [up0; up1] v14 c1])).
  exists [51; 52]%N, (mkRequest (Number 0) None (Some [k3]) None), (mkResponse [] [] [] [] 0 0 51)%N, k3.
  split; [constructor; [exact wf0|constructor; [exact wf1|constructor]]|].
  split; [constructor; [exact fm0|constructor; [exact fm1|constructor]]|].
  split; [split; [discriminate|]; intros u [<-|[<-|[]]]; reflexivity|].
  split; [apply stored_ok; vm_compute; reflexivity|].
  split; [constructor; [|constructor; [intros []|constructor]]; intros [X|[]]; discriminate|].
  split; [constructor; cbn; lia|]. split; [now left|].
  cbv zeta. split; [vm_compute; reflexivity|]. split.
  - exists []. split; [intros n []|]. split; [intros n []|]. reflexivity.
  - split; [discriminate|]. split; [reflexivity|]. vm_compute. discriminate.
Qed.

Definition one_contract : list arrival :=
  [Gateway (mkUpdate [(k3, mkContractUpdate [(k1, 5%N)] (Some 11%N) (Some 1%N))] [] [] []) v13 None].
Definition nothing : list arrival := [Gateway (mkUpdate [] [] [] []) v13 None].

(** A node that prunes its trees refuses to prove anything of its newest block as
    long as no class is declared, although it has all that is asked for. *)
Theorem C74_pruned_refuted : exists HEIGHT hs l d v headers q,
  Forall (well_formed HEIGHT) (all_blocks l) /\ Forall from_maps (all_blocks l) /\
  full_node HEIGHT hs empty_db no_leaves 0 l = Some (d, v) /\
  length (all_blocks l) = length headers /\ q_block q = Latest /\
  get_storage_proof HEIGHT hs true headers None d v q = Fail StorageProofNotSupported /\
  exists r, get_storage_proof HEIGHT hs false headers None d v q = Fine r /\
    r_contracts_root r <> 0%N /\ r_contract_nodes r <> [].
Proof.
  exists 2, toy, one_contract, (fst (stored one_contract)), (snd (stored one_contract)).
  exists [51%N], (mkRequest Latest None (Some [k3]) None).
  split; [constructor; [|constructor]; unfold well_formed; wf; cbn in *; contradiction|].
  split; [constructor; [|constructor]|].
  { split; [|split].
    - intros a c [H|[]]. injection H as <- <-. nd.
    - intros a s [].
    - intros k []. }
  split; [apply stored_ok; vm_compute; reflexivity|]. split; [reflexivity|]. split; [reflexivity|].
  split; [vm_compute; reflexivity|].
  eexists. split; [vm_compute; reflexivity|]. split; vm_compute; discriminate.
Qed.

(** The data of a contract that is asked for is left out, not given as zeros, if
    there is no contract at all. *)
Theorem C74_leaves_refuted : exists HEIGHT hs l d v headers q r,
  full_node HEIGHT hs empty_db no_leaves 0 l = Some (d, v) /\
  length (all_blocks l) = length headers /\
  get_storage_proof HEIGHT hs false headers None d v q = Fine r /\
  length (r_leaves r) <> length (listed (q_contracts q)).
Proof.
  exists 2, toy, nothing, (fst (stored nothing)), (snd (stored nothing)).
  exists [51%N], (mkRequest Latest None (Some [k3]) None). eexists.
  split; [apply stored_ok; vm_compute; reflexivity|]. split; [reflexivity|]. split; [vm_compute; reflexivity|].
  vm_compute. discriminate.
Qed.

(** A client that checks roots given to it against the state commitment of a block
    older than 0.14.0 can be made to believe that there are no classes: the
    commitment itself passes for the contracts' root. *)
Theorem C74_class_absence_refuted : exists HEIGHT hs l d cs ver r k,
  HEIGHT <> 0 /\ Forall (well_formed HEIGHT) (all_blocks l) /\ (forall s, In s l -> plain_batch s) /\
  node HEIGHT hs empty_db 0 l = Some (d, cs) /\
  no_collision hs (fun c => computed HEIGHT hs (state_after l) c \/ checked hs r [] c) /\
  combined hs (r_contracts_root r) (r_classes_root r) ver = state_commitment HEIGHT hs (state_after l) ver /\
  length k = HEIGHT /\ proves (poseidon hs) (r_classes_root r) k (r_class_nodes r) 0%N /\
  w_casm (state_after l) k <> None.
Proof.
  exists 2, toy, first_block. eexists. exists [c0], v13, (mkResponse [] [] [] [] c0 0 51)%N, k2.
  destruct C74_sound_case as (F & P & _).
  split; [discriminate|]. split; [exact F|]. split; [exact P|]. split; [vm_compute; reflexivity|].
  split.
  - apply (no_collision_check toy (listing 2 toy (state_after first_block) ++
                                   checks toy (mkResponse [] [] [] [] c0 0 51)%N [])).
    + intros c [H|H]; apply in_app_iff; [left; now apply listing_all|right; now apply checks_all].
    + vm_compute. reflexivity.
  - split; [vm_compute; reflexivity|]. split; [reflexivity|]. split; [|discriminate].
    exists []. split; [intros n []|]. split; [intros n []|]. reflexivity.
Qed.

Print Assumptions C74_served.
Print Assumptions C74_refused.
Print Assumptions C74_sound.
Print Assumptions C74_mid_batch_refuted.
Print Assumptions C74_pruned_refuted.
Print Assumptions C74_leaves_refuted.
Print Assumptions C74_class_absence_refuted.
