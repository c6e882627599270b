(** Model of starknet_getStorageProof:
    /repo/crates/rpc/src/method/get_storage_proof.rs:260-503,
    [get_proofs] of /repo/crates/merkle-tree/src/tree.rs:550-665 and the leaves it
    reads, /repo/crates/merkle-tree/src/{class.rs:126-155, contract.rs:267-317},
    on the database of StateRootModel.

    Simplifications that hold for the whole file, beside those of StateRootModel:
    - a root row is the contents of the tree, so the nodes [get_proofs] visits are
      those of that tree; that the node tables hold them is C10 and C12.  The
      leaves are read from their own tables, as in the code.
    - the caches of [get_proofs] are left out.
    - a request has addresses, keys and hashes as the bits of tree keys. *)
From Coq Require Import List Bool Arith NArith.
From Verif Require Import AList MerkleModel MerkleSpec VersionModel CommitModel StateRootModel.
Import ListNotations.

(** ** The tables of leaves *)

(** contract_state_hashes (trie.rs:161-223); casm_class_hashes and
    class_commitment_leaves (class.rs:471-525 and 569-597, a leaf by its casm
    hash); storage_updates (state_update.rs:623-684). *)
Record leaves : Type := mkLeaves {
  v_hashes : list (nat * (bits * felt));
  v_casms : list (nat * (bits * felt));
  v_class_leaves : list (nat * (felt * felt));
  v_storage : list (nat * (bits * (bits * felt)))
}.
Definition no_leaves : leaves := mkLeaves [] [] [] [].

(** trie.rs:209-223 contract_state_hash *)
Definition state_hash_at (v : leaves) (b : nat) (a : bits) : option felt :=
  found (newest b (of_contract a (v_hashes v))).
(** class.rs:493-507 casm_hash_at by number *)
Definition casm_at (v : leaves) (b : nat) (k : bits) : option felt :=
  found (newest b (of_contract k (v_casms v))).
(** class.rs:583-596 class_commitment_leaf: any row, there is no ORDER BY *)
Definition class_leaf_at (v : leaves) (b : nat) (casm : felt) : option felt :=
  match find (fun r => (fst (snd r) =? casm)%N && (fst r <=? b)) (v_class_leaves v) with
  | Some r => Some (snd (snd r))
  | None => None
  end.
(** state_update.rs:655-667 storage_value by number *)
Definition storage_value_at (v : leaves) (b : nat) (a k : bits) : option felt :=
  found (newest b (of_contract k (of_contract a (v_storage v)))).

(** [Storage::leaf] of the three trees: contract.rs:303-317 (StorageTrieStorage),
    class.rs:126-155 (ClassStorage), contract.rs:267-283 (ContractStorage). *)
Definition contract_leaf (v : leaves) (b : nat) : bits -> option felt := state_hash_at v b.
Definition class_leaf (v : leaves) (b : nat) (k : bits) : option felt :=
  match casm_at v b k with
  | None => None
  | Some casm => class_leaf_at v b casm
  end.
Definition storage_leaf (v : leaves) (b : nat) (a : bits) : bits -> option felt :=
  storage_value_at v b a.

(** state_update.rs:155-200: the rows of storage_updates *)
Definition storage_rows (b : nat) (a : bits) (s : list (bits * felt)) : list (nat * (bits * (bits * felt))) :=
  map (fun kv => (b, (a, kv))) s.
(** state_update.rs:237-252: casm_class_hashes, INSERT OR IGNORE with a unique
    index on hash and block (revision_0075.rs:19-20). *)
Definition casm_rows (b : nat) (u : update) : list (nat * (bits * felt)) :=
  map (fun kv => (b, kv))
      (u_declared u ++
       filter (fun kv => negb (existsb (fun kv' => bits_eqb (fst kv) (fst kv')) (u_declared u))) (u_migrated u)).
(** what insert_state_update_data adds to the tables of leaves *)
Definition add_data (v : leaves) (b : nat) (u : update) : leaves :=
  mkLeaves (v_hashes v) (casm_rows b u ++ v_casms v) (v_class_leaves v)
    (flat_map (fun c => storage_rows b (fst c) (c_storage (snd c))) (u_contracts u) ++
     flat_map (fun s => storage_rows b (fst s) (snd s)) (u_system u) ++ v_storage v).
Fixpoint add_all (v : leaves) (n : nat) (us : list update) : leaves :=
  match us with
  | [] => v
  | u :: us' => add_all (add_data v n u) (S n) us'
  end.

Section Proof.
  Variable HEIGHT : nat.
  Variable hs : hashes.

  (** What update_starknet_state adds to them: contract_state.rs:23-29 (the hash
      of every contract of the update, INSERT OR REPLACE; it is the one that
      starknet_state.rs:67-98 puts into the tree, which is [d] here) and
      starknet_state.rs:126-130 (the leaf of every class). *)
  Definition add_trees (v : leaves) (d : db) (b : nat) (u : update) : leaves :=
    let tree := match storage_root_at d b with Some t => t | None => no_contents end in
    let named := map fst (u_contracts u) ++ map fst (u_system u) in
    mkLeaves
      (map (fun a => (b, (a, tree a))) named ++
       filter (fun r => negb ((fst r =? b) && existsb (bits_eqb (fst (snd r))) named)) (v_hashes v))
      (v_casms v)
      (map (fun kv => (b, (snd kv, class_leaf_hash hs (snd kv)))) (u_declared u ++ u_migrated u)
         ++ v_class_leaves v)
      (v_storage v).

  (** One arrival (StateRootModel), with the tables of leaves. *)
  Definition whole_update (s : arrival) : update :=
    match s with
    | Gateway u _ _ => u
    | Track u _ _ => u
    | Batch us _ _ => merge_state_updates us
    end.
  Definition full_arrive (d : db) (v : leaves) (n : nat) (s : arrival) : option (db * leaves) :=
    match arrive HEIGHT hs d n s with
    | None => None
    | Some (d', _) =>
        let tail := n + length (blocks_of s) - 1 in
        Some (d', add_trees (add_all v n (blocks_of s)) d' tail (whole_update s))
    end.
  Fixpoint full_node (d : db) (v : leaves) (n : nat) (l : list arrival) : option (db * leaves) :=
    match l with
    | [] => Some (d, v)
    | s :: l' =>
        match full_arrive d v n s with
        | None => None
        | Some (d', v') => full_node d' v' (n + length (blocks_of s)) l'
        end
    end.

  (** ** get_proofs, tree.rs:550-665 *)

  (** tree.rs:602-631 for a child that is a node, [storage.hash]; 637-662 for one
      that is a leaf, [storage.leaf]. *)
  Definition child_hash (H : felt -> felt -> felt) (n : nat) (m : contents) (leaf : bits -> option felt)
    : option felt :=
    match n with
    | 0 => leaf []
    | _ => Some (spec_root H n m)
    end.

  (** tree.rs:565-660 for one key, from a node of height [n] down.  [None] is an
      error (a node or a leaf is missing). *)
  Fixpoint tree_proof (H : felt -> felt -> felt) (fuel n : nat) (m : contents)
    (leaf : bits -> option felt) (key : bits) : option (list (trie_node * felt)) :=
    match fuel with
    | 0 => None
    | S fuel' =>
        match n with
        | 0 => Some []
        | S n' =>
            match summary H n m with
            | None => None
            | Some ([], h) =>
                match key with
                | [] => None
                | b :: key' =>
                    match child_hash H n' (fun k => m (false :: k)) (fun k => leaf (false :: k)),
                          child_hash H n' (fun k => m (true :: k)) (fun k => leaf (true :: k)) with
                    | Some l, Some r =>
                        match tree_proof H fuel' n' (fun k => m (b :: k)) (fun k => leaf (b :: k)) key' with
                        | Some rest => Some ((TBin l r, h) :: rest)
                        | None => None
                        end
                    | _, _ => None
                    end
                end
            | Some (p, h) =>
                match child_hash H (n - length p) (fun k => m (p ++ k)) (fun k => leaf (p ++ k)) with
                | None => None
                | Some c =>
                    let node := (TEdge c p, top H (p, h)) in
                    if bits_eqb (firstn (length p) key) p then
                      match tree_proof H fuel' (n - length p) (fun k => m (p ++ k)) (fun k => leaf (p ++ k))
                                       (skipn (length p) key) with
                      | Some rest => Some (node :: rest)
                      | None => None
                      end
                    else Some [node]
                end
            end
        end
    end.

  Fixpoint tree_proofs (H : felt -> felt -> felt) (m : contents) (leaf : bits -> option felt)
    (keys : list bits) : option (list (list (trie_node * felt))) :=
    match keys with
    | [] => Some []
    | k :: keys' =>
        match tree_proof H (S HEIGHT) HEIGHT m leaf k, tree_proofs H m leaf keys' with
        | Some p, Some ps => Some (p :: ps)
        | _, _ => None
        end
    end.

  (** ** The method *)

  (** get_storage_proof.rs:15-32, 77-105 Input *)
  Inductive block_id : Type :=
  | Number (n : nat) | Hash (h : felt) | Latest | L1Accepted | PreConfirmed.
  Record request : Type := mkRequest {
    q_block : block_id;
    q_classes : option (list bits);
    q_contracts : option (list bits);
    q_storage : option (list (bits * list bits))
  }.

  (** get_storage_proof.rs:34-75 Error *)
  Inductive error : Type :=
  | ProofLimitExceeded (requested : nat) | ProofMissing | BlockNotFound | StorageProofNotSupported | Internal.

  Definition nodes := list (trie_node * felt).
  (** get_storage_proof.rs:164-169 *)
  Record leaf_data : Type := mkLeaf { l_nonce : felt; l_class : felt; l_root : felt }.
  (** get_storage_proof.rs:184-188, 206-211, 226-232 *)
  Record response : Type := mkResponse {
    r_class_nodes : nodes;
    r_contract_nodes : nodes;
    r_leaves : list leaf_data;
    r_storage_nodes : list nodes;
    r_contracts_root : felt;
    r_classes_root : felt;
    r_block_hash : felt
  }.

  Inductive result (A : Type) : Type :=
  | Fine (x : A)
  | Fail (e : error).
  Arguments Fine {A}. Arguments Fail {A}.

  Definition node_dec (x y : trie_node * felt) : {x = y} + {x <> y}.
  Proof. repeat decide equality. Defined.
  (** get_storage_proof.rs:367-377, 410-422, 476-488: through a HashSet.  The order is not that of
      the code, which has none. *)
  Definition distinct (ps : list nodes) : nodes := nodup node_dec (concat ps).

  (** A root row of an empty tree has no root index (RootIndexUpdate::TrieEmpty,
      trie.rs:13-94). *)
  Definition with_root (H : felt -> felt -> felt) (row : option contents) : option contents :=
    match row with
    | Some m => match summary H HEIGHT m with Some _ => Some m | None => None end
    | None => None
    end.

  (** get_storage_proof.rs:338-381 get_class_proofs *)
  Definition get_class_proofs (pruning : bool) (d : db) (v : leaves) (b : nat) (ks : option (list bits))
    : result (felt * nodes) :=
    match with_root (poseidon hs) (class_root_at d b) with
    | None => if pruning then Fail StorageProofNotSupported else Fine (0%N, [])
    | Some m =>
        let root := spec_root (poseidon hs) HEIGHT m in
        match ks with
        | None => Fine (root, [])
        | Some ks =>
            match tree_proofs (poseidon hs) m (class_leaf v b) ks with
            | None => Fail Internal
            | Some ps => Fine (root, distinct ps)
            end
        end
    end.

  (** trie.rs contract_root: the hash of the root node *)
  Definition contract_root_hash (d : db) (b : nat) (a : bits) : option felt :=
    match with_root (pedersen hs) (contract_root_at d b a) with
    | Some m => Some (spec_root (pedersen hs) HEIGHT m)
    | None => None
    end.
  Definition or_zero (x : option felt) : felt := match x with Some v => v | None => 0%N end.

  (** get_storage_proof.rs:426-449 *)
  Definition leaf_data_of (d : db) (b : nat) (a : bits) : leaf_data :=
    mkLeaf (or_zero (nonce_at d b a)) (or_zero (class_hash_at d b a)) (or_zero (contract_root_hash d b a)).

  (** get_storage_proof.rs:383-456 get_contract_proofs *)
  Definition get_contract_proofs (pruning : bool) (d : db) (v : leaves) (b : nat) (asked : option (list bits))
    : result (felt * nodes * list leaf_data) :=
    match with_root (pedersen hs) (storage_root_at d b) with
    | None => if pruning then Fail StorageProofNotSupported else Fine (0%N, [], [])
    | Some m =>
        let root := spec_root (pedersen hs) HEIGHT m in
        match asked with
        | None => Fine (root, [], [])
        | Some asked =>
            match tree_proofs (pedersen hs) m (contract_leaf v b) asked with
            | None => Fail Internal
            | Some ps => Fine (root, distinct ps, map (leaf_data_of d b) asked)
            end
        end
    end.

  (** get_storage_proof.rs:458-503 get_contract_storage_proofs *)
  Fixpoint storage_proofs (d : db) (v : leaves) (b : nat) (l : list (bits * list bits))
    : result (list nodes) :=
    match l with
    | [] => Fine []
    | (a, ks) :: l' =>
        let here :=
          match with_root (pedersen hs) (contract_root_at d b a) with
          | Some m =>
              match tree_proofs (pedersen hs) m (storage_leaf v b a) ks with
              | Some ps => Fine (distinct ps)
              | None => Fail Internal
              end
          | None => Fine []
          end in
        match here with
        | Fail e => Fail e
        | Fine x =>
            match storage_proofs d v b l' with
            | Fail e => Fail e
            | Fine xs => Fine (x :: xs)
            end
        end
    end.
  Definition get_contract_storage_proofs (d : db) (v : leaves) (b : nat)
    (asked : option (list (bits * list bits))) : result (list nodes) :=
    match asked with
    | None => Fine []
    | Some l => storage_proofs d v b l
    end.

  (** get_storage_proof.rs:261 *)
  Definition MAX_KEYS : nat := 100.
  Definition count {A} (x : option (list A)) : nat := match x with Some l => length l | None => 0 end.
  (** get_storage_proof.rs:262-271 *)
  Definition total_keys (q : request) : nat :=
    count (q_classes q) + count (q_contracts q) +
    match q_storage q with
    | Some l => fold_right Nat.add 0 (map (fun x => length (snd x)) l)
    | None => 0
    end.

  (** The header of a block (get_storage_proof.rs:291-307): [headers] are the
      hashes of the stored headers by number, [l1] the pointer to the last block
      L1 accepted. *)
  Fixpoint position (h : felt) (l : list felt) : option nat :=
    match l with
    | [] => None
    | x :: l' => if (x =? h)%N then Some 0 else option_map S (position h l')
    end.
  Definition block_number (headers : list felt) (l1 : option nat) (id : block_id) : result nat :=
    let stored n := if n <? length headers then Fine n else Fail BlockNotFound in
    match id with
    | PreConfirmed => Fail ProofMissing
    | Number n => stored n
    | Hash h => match position h headers with Some n => Fine n | None => Fail BlockNotFound end
    | Latest => match headers with [] => Fail BlockNotFound | _ => Fine (length headers - 1) end
    | L1Accepted => match l1 with Some n => stored n | None => Fail BlockNotFound end
    end.

  (** get_storage_proof.rs:260-336 *)
  Definition get_storage_proof (pruning : bool) (headers : list felt) (l1 : option nat)
    (d : db) (v : leaves) (q : request) : result response :=
    if MAX_KEYS <? total_keys q then Fail (ProofLimitExceeded (total_keys q))
    else
      match block_number headers l1 (q_block q) with
      | Fail e => Fail e
      | Fine b =>
          match get_class_proofs pruning d v b (q_classes q) with
          | Fail e => Fail e
          | Fine (class_root, class_nodes) =>
              match get_contract_proofs pruning d v b (q_contracts q) with
              | Fail e => Fail e
              | Fine (storage_root, contract_nodes, data) =>
                  match get_contract_storage_proofs d v b (q_storage q) with
                  | Fail e => Fail e
                  | Fine storage_nodes =>
                      Fine (mkResponse class_nodes contract_nodes data storage_nodes
                              storage_root class_root (nth b headers 0%N))
                  end
              end
          end
      end.
End Proof.
Arguments Fine {A}. Arguments Fail {A}.
