(** Vocabulary of the statements about starknet_getStorageProof: what a client
    checks, in terms of the state ([world] of StateRootSpec) and of hashes. *)
From Coq Require Import List Bool Arith NArith.
From Verif Require Import AList MerkleModel MerkleSpec VersionModel CommitModel StateRootModel
  StateRootSpec StorageProofModel.
Import ListNotations.

(** The hash of a node of a proof. *)
Definition node_hash (H : felt -> felt -> felt) (n : trie_node) : felt :=
  match n with
  | TBin l r => H l r
  | TEdge c p => fadd (H c (bits_val p)) (N.of_nat (length p))
  end.

(** The nodes come in no order, each with its hash.  They show that the tree with
    this root holds [x] under [key] (zero: nothing) if some of them, with the right
    hashes, make up a proof of it ([verify] of MerkleSpec). *)
Definition proves (H : felt -> felt -> felt) (root : felt) (key : bits) (ns : nodes) (x : felt) : Prop :=
  exists proof, (forall n, In n proof -> In n ns) /\
    (forall n, In n proof -> node_hash H (fst n) = snd n) /\
    verify H root key (map fst proof) = Some x.

(** How two roots make up a state commitment. *)
Definition combined (hs : hashes) (contracts classes : felt) (v : version) : felt :=
  match contracts, classes with
  | 0%N, 0%N => 0%N
  | r, 0%N => if version_lt v (Version 0 14 0 0) then r else poseidon_many hs [STATE_V0; r; 0%N]
  | r, c => poseidon_many hs [STATE_V0; r; c]
  end.

(** What is asked. *)
Definition listed {A} (x : option (list A)) : list A := match x with Some l => l | None => [] end.
Definition keys_asked (q : request) : nat :=
  length (listed (q_classes q) ++ listed (q_contracts q) ++ flat_map snd (listed (q_storage q))).
Definition proper_keys (HEIGHT : nat) (q : request) : Prop :=
  (forall k, In k (listed (q_classes q)) -> length k = HEIGHT) /\
  (forall k, In k (listed (q_contracts q)) -> length k = HEIGHT) /\
  (forall a ks, In (a, ks) (listed (q_storage q)) ->
     length a = HEIGHT /\ forall k, In k ks -> length k = HEIGHT).

(** The block that is asked for. *)
Inductive names (headers : list felt) (l1 : option nat) : block_id -> nat -> Prop :=
| nm_number b : b < length headers -> names headers l1 (Number b) b
| nm_hash b h : nth_error headers b = Some h -> names headers l1 (Hash h) b
| nm_latest b : length headers = S b -> names headers l1 Latest b
| nm_l1 b : l1 = Some b -> b < length headers -> names headers l1 L1Accepted b.

(** An update from maps: every storage key once, and no class both declared and
    migrated. *)
Definition from_maps (u : update) : Prop :=
  (forall a c, In (a, c) (u_contracts u) -> NoDup (keys (c_storage c))) /\
  (forall a s, In (a, s) (u_system u) -> NoDup (keys s)) /\
  (forall k, In k (keys (u_declared u)) -> ~ In k (keys (u_migrated u))).

Section Answer.
  Variable HEIGHT : nat.
  Variable hs : hashes.

  Definition no_zero (w : world) : Prop := forall c, computed HEIGHT hs w c -> value hs c <> 0%N.

  (** What there is to know of a contract. *)
  Definition data_of (w : world) (a : bits) : leaf_data :=
    mkLeaf (w_nonce w a) (class_in_leaf w a) (storage_root HEIGHT hs w a).

  (** A right answer: the roots are those of the state, and the nodes show what is
      in the state under every key asked for. *)
  Definition right_answer (w : world) (q : request) (r : response) : Prop :=
    r_contracts_root r = storage_commitment HEIGHT hs w /\
    r_classes_root r = class_commitment HEIGHT hs w /\
    (forall k, In k (listed (q_classes q)) ->
       proves (poseidon hs) (r_classes_root r) k (r_class_nodes r) (class_contents hs w k)) /\
    (forall a, In a (listed (q_contracts q)) ->
       proves (pedersen hs) (r_contracts_root r) a (r_contract_nodes r) (state_contents HEIGHT hs w a)) /\
    (* the contracts' data, in the order asked; none if there is no contract at all *)
    (r_leaves r = map (data_of w) (listed (q_contracts q)) \/
     r_leaves r = [] /\ forall a, ~ present HEIGHT w a) /\
    Forall2 (fun asked ns => forall k, In k (snd asked) ->
               proves (pedersen hs) (storage_root HEIGHT hs w (fst asked)) k ns (w_storage w (fst asked) k))
            (listed (q_storage q)) (r_storage_nodes r).

  (** The computations of a client that checks an answer, with the class hashes
      it knows the compiled hashes of. *)
  Inductive checked (r : response) (casms : list felt) : computation -> Prop :=
  | ck_contract q : In q (proof_queries (map fst (r_contract_nodes r))) -> checked r casms (Ped q)
  | ck_class q : In q (proof_queries (map fst (r_class_nodes r))) -> checked r casms (Pos q)
  | ck_storage ns q : In ns (r_storage_nodes r) -> In q (proof_queries (map fst ns)) ->
      checked r casms (Ped q)
  | ck_leaf1 x : In x (r_leaves r) -> checked r casms (Ped (l_class x, l_root x, 0%N))
  | ck_leaf2 x : In x (r_leaves r) ->
      checked r casms (Ped (pedersen hs (l_class x) (l_root x), l_nonce x, 0%N))
  | ck_leaf3 x : In x (r_leaves r) ->
      checked r casms (Ped (pedersen hs (pedersen hs (l_class x) (l_root x)) (l_nonce x), 0%N, 0%N))
  | ck_casm casm : In casm casms -> checked r casms (Pos (CLASS_LEAF_V0, casm, 0%N))
  | ck_top : checked r casms (Many [STATE_V0; r_contracts_root r; r_classes_root r]).
End Answer.
