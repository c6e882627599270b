(** Model of the computation of the state commitment:
    /repo/crates/merkle-tree/src/starknet_state.rs:9-151 (update_starknet_state),
    /repo/crates/merkle-tree/src/contract_state.rs:10-133,
    /repo/crates/common/src/lib.rs:112-137, 660-662 and 704-716,
    the three callers /repo/crates/pathfinder/src/state/sync.rs:1300-1413
    (l2_update), /repo/crates/pathfinder/src/sync/track.rs:757-862 and
    /repo/crates/pathfinder/src/sync/state_updates.rs:140-305, and the rows of
    /repo/crates/storage/src/connection/{trie.rs, state_update.rs} they use.

    Simplifications that hold for the whole file:
    - the three kinds of tree are what they hold: a root row keeps the contents
      of the tree instead of the index of its root node.  That [set], [commit],
      the insertion of the new nodes and [load] behave as that map, and that the
      committed root is [spec_root] of it, is C08, C09, C10 and C11.  A row
      [RootIndexUpdate::Unchanged] would leave out repeats the contents of the
      row before it.
    - the height of the trees is a parameter, 251 in the code.
    - an address, a storage key and a class hash used as a tree key are its 251
      bits.
    - a database error is not modelled; neither are pruning and reverting
      (C10, C20, C21).
    - a HashMap is the list of its entries in the order it is iterated. *)
From Coq Require Import List Bool Arith NArith.
From Verif Require Import AList MerkleModel MerkleSpec VersionModel CommitModel.
Import ListNotations.

(** pedersen_hash, poseidon_hash and poseidon_hash_many of
    /repo/crates/crypto/src/hash: parameters. *)
Record hashes : Type := mkHashes {
  pedersen : felt -> felt -> felt;
  poseidon : felt -> felt -> felt;
  poseidon_many : list felt -> felt
}.

(** common/src/state_update.rs:60-81 ContractUpdateRef: the storage updates
    ([StorageRef], a map or a vector with repetitions), the class of a Deploy or
    Replace (class_hash, 115-120), the nonce. *)
Record contract_update : Type := mkContractUpdate {
  c_storage : list (bits * felt);
  c_class : option felt;
  c_nonce : option felt
}.

(** common/src/state_update.rs:60-65 StateUpdateRef. *)
Record update : Type := mkUpdate {
  u_contracts : list (bits * contract_update);
  u_system : list (bits * list (bits * felt));
  u_declared : list (bits * felt);
  u_migrated : list (bits * felt)
}.

(** The rows used: tables contract_roots, storage_roots, class_roots (trie.rs),
    contract_updates and nonce_updates (state_update.rs), each with its block
    number. *)
Record db : Type := mkDb {
  d_contract_roots : list (nat * (bits * contents));
  d_storage_roots : list (nat * contents);
  d_class_roots : list (nat * contents);
  d_classes : list (nat * (bits * felt));
  d_nonces : list (nat * (bits * felt))
}.

Definition empty_db : db := mkDb [] [] [] [] [].

(** [... WHERE block_number <= ? ORDER BY block_number DESC LIMIT 1] *)
Fixpoint newest {A} (b : nat) (rows : list (nat * A)) : option (nat * A) :=
  match rows with
  | [] => None
  | (n, x) :: rows' =>
      match newest b rows' with
      | Some (n', x') => if (n <=? b) && (n' <=? n) then Some (n, x) else Some (n', x')
      | None => if n <=? b then Some (n, x) else None
      end
  end.

(** [... WHERE contract_address = ? AND ...] *)
Definition of_contract {A} (a : bits) (rows : list (nat * (bits * A))) : list (nat * A) :=
  flat_map (fun r => if bits_eqb a (fst (snd r)) then [(fst r, snd (snd r))] else []) rows.

Definition found {A} (x : option (nat * A)) : option A :=
  match x with Some (_, v) => Some v | None => None end.

(** trie.rs:79-94 contract_root_index, trie.rs:53-67 storage_root_index,
    trie.rs:13-27 class_root_index: the tree at a block, if it has a root. *)
Definition contract_root_at (d : db) (b : nat) (a : bits) : option contents :=
  found (newest b (of_contract a (d_contract_roots d))).
Definition storage_root_at (d : db) (b : nat) : option contents :=
  found (newest b (d_storage_roots d)).
Definition class_root_at (d : db) (b : nat) : option contents :=
  found (newest b (d_class_roots d)).

(** state_update.rs:793-802 contract_class_hash and 746-758 contract_nonce, by
    number. *)
Definition class_hash_at (d : db) (b : nat) (a : bits) : option felt :=
  found (newest b (of_contract a (d_classes d))).
Definition nonce_at (d : db) (b : nat) (a : bits) : option felt :=
  found (newest b (of_contract a (d_nonces d))).

(** trie.rs:271-295 insert_contract_root, 225-247 insert_storage_root, 113-136
    insert_class_root: INSERT OR REPLACE. *)
Definition insert_contract_root (d : db) (b : nat) (a : bits) (t : contents) : db :=
  mkDb ((b, (a, t)) ::
        filter (fun r => negb ((fst r =? b) && bits_eqb a (fst (snd r)))) (d_contract_roots d))
       (d_storage_roots d) (d_class_roots d) (d_classes d) (d_nonces d).
Definition insert_storage_root (d : db) (b : nat) (t : contents) : db :=
  mkDb (d_contract_roots d)
       ((b, t) :: filter (fun r => negb (fst r =? b)) (d_storage_roots d))
       (d_class_roots d) (d_classes d) (d_nonces d).
Definition insert_class_root (d : db) (b : nat) (t : contents) : db :=
  mkDb (d_contract_roots d) (d_storage_roots d)
       ((b, t) :: filter (fun r => negb (fst r =? b)) (d_class_roots d))
       (d_classes d) (d_nonces d).

(** state_update.rs:133-153 of insert_state_update_data: the rows of classes and
    nonces.  The other tables are not read by the commitment and left out. *)
Definition class_rows (b : nat) (cs : list (bits * contract_update)) : list (nat * (bits * felt)) :=
  flat_map (fun c => match c_class (snd c) with
                     | Some h => [(b, (fst c, h))] | None => [] end) cs.
Definition nonce_rows (b : nat) (cs : list (bits * contract_update)) : list (nat * (bits * felt)) :=
  flat_map (fun c => match c_nonce (snd c) with
                     | Some h => [(b, (fst c, h))] | None => [] end) cs.
Definition insert_state_update_data (d : db) (b : nat) (u : update) : db :=
  mkDb (d_contract_roots d) (d_storage_roots d) (d_class_roots d)
       (class_rows b (u_contracts u) ++ d_classes d)
       (nonce_rows b (u_contracts u) ++ d_nonces d).

(** common/src/lib.rs:660-662 is_system_contract: address 0x1 or 0x2. *)
Definition is_system (a : bits) : bool := (bits_val a =? 1)%N || (bits_val a =? 2)%N.

Section Root.
  Variable HEIGHT : nat.
  Variable hs : hashes.

  (** contract_state.rs:116-133 calculate_contract_state_hash *)
  Definition contract_state_hash (class root nonce : felt) : felt :=
    pedersen hs (pedersen hs (pedersen hs class root) nonce) 0%N.

  (** felt_bytes!(b"CONTRACT_CLASS_LEAF_V0"), lib.rs:707-708 *)
  Definition CLASS_LEAF_V0 : felt := 25183581894556924416237943157264143779807617924159024%N.
  (** lib.rs:704-716 calculate_class_commitment_leaf_hash *)
  Definition class_leaf_hash (casm : felt) : felt := poseidon hs CLASS_LEAF_V0 casm.

  (** felt_bytes!(b"STARKNET_STATE_V0"), lib.rs:127 *)
  Definition STATE_V0 : felt := 28355430774503553497671514844211693180464%N.
  (** lib.rs:530 *)
  Definition V_0_14_0 : version := Version 0 14 0 0.
  (** lib.rs:112-137 StateCommitment::calculate *)
  Definition calculate_state_commitment (storage class : felt) (v : version) : felt :=
    if (class =? 0)%N && (storage =? 0)%N then 0%N
    else if (class =? 0)%N && version_lt v V_0_14_0 then storage
    else poseidon_many hs [STATE_V0; storage; class].

  (** [match block.parent() { Some(parent) => load(.., parent), None => empty }] *)
  Definition at_parent (block : nat) (load : nat -> option contents) : contents :=
    match block with
    | 0 => no_contents
    | S parent => match load parent with Some t => t | None => no_contents end
    end.

  (** contract_state.rs:10-16 ContractStateUpdateResult; the tree is there when
      did_storage_updates. *)
  Record contract_result : Type := mkResult {
    r_address : bits;
    r_state_hash : felt;
    r_tree : option contents
  }.

  (** contract_state.rs:43-113 update_contract_state; [None] is
      ContractClassHashMissing. *)
  Definition update_contract_state (d : db) (block : nat) (a : bits)
    (updates : list (bits * felt)) (new_nonce new_class : option felt) : option contract_result :=
    let '(root, tree) :=
      match updates with
      | _ :: _ =>
          let t := puts (at_parent block (fun p => contract_root_at d p a)) updates in
          (spec_root (pedersen hs) HEIGHT t, Some t)
      | [] =>
          (match contract_root_at d block a with
           | Some t => spec_root (pedersen hs) HEIGHT t
           | None => 0%N
           end, None)
      end in
    let class :=
      if is_system a then Some 0%N
      else match new_class with
           | Some c => Some c
           | None => class_hash_at d block a
           end in
    match class with
    | None => None
    | Some class =>
        let nonce :=
          match new_nonce with
          | Some n => n
          | None => match nonce_at d block a with Some n => n | None => 0%N end
          end in
        Some (mkResult a (contract_state_hash class root nonce) tree)
    end.

  (** contract_state.rs:23-38 ContractStateUpdateResult::insert.  The table
      contract_state_hashes is left out. *)
  Definition insert_result (d : db) (block : nat) (r : contract_result) : db :=
    match r_tree r with
    | Some t => insert_contract_root d block (r_address r) t
    | None => d
    end.

  (** starknet_state.rs:31-60: the contracts of the update, each on a connection
      of its own, that is on the committed database [ro]. *)
  Fixpoint contract_results (ro : db) (block : nat) (cs : list (bits * contract_update))
    : option (list contract_result) :=
    match cs with
    | [] => Some []
    | (a, c) :: cs' =>
        match update_contract_state ro block a (c_storage c) (c_nonce c) (c_class c) with
        | None => None
        | Some r =>
            match contract_results ro block cs' with
            | None => None
            | Some rs => Some (r :: rs)
            end
        end
    end.

  (** starknet_state.rs:67-77 *)
  Definition apply_results (d : db) (block : nat) (tree : contents) (rs : list contract_result)
    : db * contents :=
    fold_left (fun x r => (insert_result (fst x) block r,
                           put (snd x) (r_address r) (r_state_hash r))) rs (d, tree).

  (** starknet_state.rs:79-98: the system contracts, within the transaction. *)
  Fixpoint apply_system (d : db) (block : nat) (tree : contents)
    (ss : list (bits * list (bits * felt))) : option (db * contents) :=
    match ss with
    | [] => Some (d, tree)
    | (a, storage) :: ss' =>
        match update_contract_state d block a storage None None with
        | None => None
        | Some r => apply_system (insert_result d block r) block (put tree a (r_state_hash r)) ss'
        end
    end.

  (** starknet_state.rs:121-135, without the table of leaves *)
  Definition apply_classes (tree : contents) (u : update) : contents :=
    fold_left (fun t kv => put t (fst kv) (class_leaf_hash (snd kv)))
              (u_declared u ++ u_migrated u) tree.

  (** starknet_state.rs:9-151 update_starknet_state in the transaction [d]; [ro]
      is what other connections see.  The result is the database and the storage
      and class commitments. *)
  Definition update_starknet_state (ro d : db) (block : nat) (u : update)
    : option (db * (felt * felt)) :=
    let tree := at_parent block (storage_root_at d) in
    match contract_results ro block (u_contracts u) with
    | None => None
    | Some rs =>
        let '(d1, t1) := apply_results d block tree rs in
        match apply_system d1 block t1 (u_system u) with
        | None => None
        | Some (d2, t2) =>
            let storage_commitment := spec_root (pedersen hs) HEIGHT t2 in
            let d3 := insert_storage_root d2 block t2 in
            let ctree := apply_classes (at_parent block (class_root_at d3)) u in
            let class_commitment := spec_root (poseidon hs) HEIGHT ctree in
            Some (insert_class_root d3 block ctree, (storage_commitment, class_commitment))
        end
    end.

  (** ** The callers: [None] when the block (or batch) is refused and the
      transaction dropped, otherwise the committed database. *)

  (** sync.rs:1309-1330 and 1404-1407 of l2_update.  A block made by consensus
      has no expected commitment: it gets the one computed. *)
  Definition l2_update (d : db) (block : nat) (u : update) (v : version) (expected : option felt)
    : option (db * felt) :=
    match update_starknet_state d d block u with
    | None => None
    | Some (d', (sc, cc)) =>
        let c := calculate_state_commitment sc cc v in
        if match expected with Some e => (c =? e)%N | None => true end
        then Some (insert_state_update_data d' block u, c)
        else None
    end.

  (** track.rs:807-833 *)
  Definition track_update (d : db) (block : nat) (u : update) (v : version) (expected : felt)
    : option (db * felt) :=
    match update_starknet_state d (insert_state_update_data d block u) block u with
    | None => None
    | Some (d', (sc, cc)) =>
        let c := calculate_state_commitment sc cc v in
        if (c =? expected)%N then Some (d', c) else None
    end.

  (** HashMap::entry(k).or_default() and the update of the entry,
      state_updates.rs:217-226 *)
  Definition upsert {A} (k : bits) (f : option A -> A) (m : list (bits * A)) : list (bits * A) :=
    al_set bits_eqb k (f (al_get bits_eqb k m)) m.

  (** [x.or(y)] *)
  Definition or_else {A} (x y : option A) : option A := match x with Some _ => x | None => y end.

  (** state_updates.rs:217-222 *)
  Definition merge_contract (v : contract_update) (e : option contract_update) : contract_update :=
    match e with
    | Some e => mkContractUpdate (c_storage e ++ c_storage v) (or_else (c_class v) (c_class e))
                                 (or_else (c_nonce v) (c_nonce e))
    | None => mkContractUpdate (c_storage v) (c_class v) (c_nonce v)
    end.
  (** state_updates.rs:223-226 *)
  Definition merge_system (v : list (bits * felt)) (e : option (list (bits * felt)))
    : list (bits * felt) :=
    match e with Some e => e ++ v | None => v end.

  (** state_updates.rs:216-233: one update into the merged one.  The migrated
      classes are not looked at. *)
  Definition merge_one (m x : update) : update :=
    mkUpdate
      (fold_left (fun m kv => upsert (fst kv) (merge_contract (snd kv)) m) (u_contracts x) (u_contracts m))
      (fold_left (fun m kv => upsert (fst kv) (merge_system (snd kv)) m) (u_system x) (u_system m))
      (fold_left (fun m kv => al_set bits_eqb (fst kv) (snd kv) m) (u_declared x) (u_declared m))
      (u_migrated m).

  (** state_updates.rs:207-236 merge_state_updates *)
  Definition merge_state_updates (us : list update) : update :=
    fold_left merge_one us (mkUpdate [] [] [] []).

  (** state_updates.rs:251-258, from block [n] on *)
  Fixpoint insert_all (d : db) (n : nat) (us : list update) : db :=
    match us with
    | [] => d
    | u :: us' => insert_all (insert_state_update_data d n u) (S n) us'
    end.

  (** state_updates.rs:238-303 batch_update_starknet_state of the blocks [n],
      [n + 1], .. (a batch is not empty); version and commitment are those of the
      header of the last one. *)
  Definition batch_update (d : db) (n : nat) (us : list update) (v : version) (expected : felt)
    : option (db * felt) :=
    let tail := n + length us - 1 in
    match update_starknet_state d (insert_all d n us) tail (merge_state_updates us) with
    | None => None
    | Some (d', (sc, cc)) =>
        let c := calculate_state_commitment sc cc v in
        if (c =? expected)%N then Some (d', c) else None
    end.

  (** How the next block or blocks can arrive. *)
  Inductive arrival : Type :=
  | Gateway (u : update) (v : version) (expected : option felt)
  | Track (u : update) (v : version) (expected : felt)
  | Batch (us : list update) (v : version) (expected : felt).

  Definition blocks_of (s : arrival) : list update :=
    match s with Gateway u _ _ => [u] | Track u _ _ => [u] | Batch us _ _ => us end.

  Definition arrive (d : db) (n : nat) (s : arrival) : option (db * felt) :=
    match s with
    | Gateway u v e => l2_update d n u v e
    | Track u v e => track_update d n u v e
    | Batch us v e => batch_update d n us v e
    end.

  (** A node that takes the arrivals one after the other, from block [n] on; the
      commitments it computes. *)
  Fixpoint node (d : db) (n : nat) (l : list arrival) : option (db * list felt) :=
    match l with
    | [] => Some (d, [])
    | s :: l' =>
        match arrive d n s with
        | None => None
        | Some (d', c) =>
            match node d' (n + length (blocks_of s)) l' with
            | None => None
            | Some (d2, cs) => Some (d2, c :: cs)
            end
        end
    end.
End Root.
