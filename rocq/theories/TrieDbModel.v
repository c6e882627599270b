(** The database around the tries: node tables, removal markers, root index
    tables, leaf tables, trie pruning and reorgs.

    Modelled from:
      crates/storage/src/connection/trie.rs   roots 12-335, prune_tries 375-389,
                                              remove_trie 397-421, coalesce 423-449,
                                              prune_trie 451-492, insert_trie 494-585
      crates/merkle-tree/src/{contract,storage,class}.rs  load/empty/set/commit
      crates/merkle-tree/src/contract_state.rs 23-108, 134-215
      crates/merkle-tree/src/starknet_state.rs update_starknet_state
      crates/pathfinder/src/state/sync/revert.rs  revert_starknet_state
      crates/pathfinder/src/state/sync.rs     l2_reorg 1543-1625
      crates/storage/src/connection/block.rs  purge_block 96-199

    One [triedb] stands for one node table with its removal and root tables.
    Several tries may share a node table: an [owner] is a contract address for
    trie_contracts; trie_class and trie_storage have one owner.  Block numbers
    are natural numbers (u64/i63 overflow is not modelled). *)
From Coq Require Import List Bool Arith NArith.
From Verif Require Import AList MerkleModel.
Import ListNotations.

Definition owner := N.
Definition sets := list (bits * felt).
(** The trie updates of one block (or of one revert): for each trie the [set]
    calls in order. *)
Definition updates := list (owner * sets).

(** Rows with a block number, e.g. the rows of class_roots, or the rows of
    contract_roots with one contract address. *)
Definition rows (A : Type) := list (nat * A).

(** "... WHERE block_number <= b ORDER BY block_number DESC LIMIT 1",
    trie.rs:13-27, 53-67, 79-94, 211-226 and state_update.rs [storage_value]. *)
Fixpoint latest {A} (b : nat) (r : rows A) : option (nat * A) :=
  match r with
  | [] => None
  | (n, x) :: r' =>
      match latest b r' with
      | Some (n', x') => if (n <=? b) && (n' <=? n) then Some (n, x) else Some (n', x')
      | None => if n <=? b then Some (n, x) else None
      end
  end.

(** "INSERT OR REPLACE" with the block number as (part of the) key. *)
Definition insert_or_replace {A} (n : nat) (x : A) (r : rows A) : rows A :=
  (n, x) :: filter (fun e => negb (fst e =? n)) r.

(** trie.rs:133-156 [delete_class_roots], 179-206 [delete_contract_state_hashes],
    249-272 [delete_storage_roots], 300-328 [delete_contract_roots]. *)
Definition delete_before {A} (before : nat) (r : rows A) : rows A :=
  match latest before r with
  | Some (m, _) => filter (fun e => m <=? fst e) r
  | None => r
  end.

(** block.rs:96-199 [purge_block] for every block above [target]
    (sync.rs:1590-1603). *)
Definition purge_above {A} (target : nat) (r : rows A) : rows A :=
  filter (fun e => fst e <=? target) r.

Record triedb := mkDb {
  d_nodes : table;
  d_removals : rows (list idx);
  (* root index rows per owner *)
  d_roots : owner -> rows (option idx);
  (* leaf rows per owner and key (storage_updates, contract_state_hashes,
     class_commitment_leaves) *)
  d_leaves : owner -> bits -> rows felt
}.

Definition empty_db : triedb := mkDb [] [] (fun _ => []) (fun _ _ => []).

(** trie.rs:13-27, 53-67, 79-94: an absent row and a NULL index both give
    [None]. *)
Definition root_index (db : triedb) (o : owner) (b : nat) : option idx :=
  match latest b (d_roots db o) with
  | Some (_, i) => i
  | None => None
  end.

(** storage.rs implementations of [leaf] in crates/merkle-tree/src/contract.rs,
    storage.rs, class.rs: the newest row not after the block the tree was
    loaded at. *)
Definition leaf_at (db : triedb) (o : owner) (b : nat) (k : bits) : option felt :=
  option_map snd (latest b (d_leaves db o k)).

(** The storage a tree loaded at block [at] reads from; without a block the
    tree is empty and never reads. *)
Definition db_storage (db : triedb) (o : owner) (at_block : option nat) : storage :=
  table_storage (d_nodes db)
    (fun k => match at_block with Some b => leaf_at db o b k | None => None end).

(** {Contracts,Storage,Class}...Tree::load / ::empty. *)
Definition db_load (db : triedb) (o : owner) (at_block : option nat) : tree :=
  match at_block with
  | None => tree_empty
  | Some b => match root_index db o b with
              | None => tree_empty
              | Some i => tree_new i
              end
  end.

(** trie.rs:397-421 [remove_trie]. *)
Definition remove_trie (removed : list idx) (n : nat) (db : triedb) : triedb :=
  match removed with
  | [] => db
  | _ => mkDb (d_nodes db) (d_removals db ++ [(n, removed)]) (d_roots db) (d_leaves db)
  end.

Definition mem_idx (i : idx) (l : list idx) : bool := existsb (N.eqb i) l.

(** trie.rs:451-492 [prune_trie]. *)
Definition prune_trie (n kept : nat) (db : triedb) : triedb :=
  if kept <=? n then
    let before := n - kept in
    let dead := flat_map snd (filter (fun e => fst e <? before) (d_removals db)) in
    mkDb (filter (fun row => negb (mem_idx (fst row) dead)) (d_nodes db))
         (filter (fun e => negb (fst e <? before)) (d_removals db))
         (d_roots db) (d_leaves db)
  else db.

(** trie.rs:423-449 [coalesce_removed_trie_nodes]. *)
Definition coalesce (target : nat) (db : triedb) : triedb :=
  mkDb (d_nodes db)
       (map (fun e => if target <? fst e then (target, snd e) else e) (d_removals db))
       (d_roots db) (d_leaves db).

Definition upd_owner {A} (f : owner -> A) (o : owner) (x : A) : owner -> A :=
  fun o' => if (o' =? o)%N then x else f o'.

Section Db.
  Variable HEIGHT : nat.
  Variable H : felt -> felt -> felt.
  (** [TriePruneMode]: [None] for Archive, [Some num_blocks_kept]. *)
  Variable mode : option nat.
  (** Tries whose leaves live in contract_state_hashes, i.e. the global storage
      trie: these rows are pruned as they are inserted, and are also inserted
      at the target of a revert (revert.rs:86-88). *)
  Variable hash_leaves : owner -> bool.

  (** insert_class_root 108-131, insert_storage_root 228-247,
      insert_contract_root 274-298. *)
  Definition insert_root (n : nat) (o : owner) (u : root_update) (db : triedb) : triedb :=
    let ins i :=
      let r := insert_or_replace n i (d_roots db o) in
      let r := match mode with
               | Some kept => if kept <=? n then delete_before (n - kept) r else r
               | None => r
               end in
      mkDb (d_nodes db) (d_removals db) (upd_owner (d_roots db) o r) (d_leaves db) in
    match u with
    | RUnchanged => db
    | RUpdated i => ins (Some i)
    | REmpty => ins None
    end.

  (** insert_contract_state_hash 158-177; for the other tries the rows are
      written by insert_state_update without pruning.  contract_state_hashes
      has no unique index, so "INSERT OR REPLACE" appends there; a second row
      for the same block is written only by a revert, with the same value. *)
  Definition insert_leaf (n : nat) (o : owner) (kv : bits * felt) (db : triedb) : triedb :=
    let r := insert_or_replace n (snd kv) (d_leaves db o (fst kv)) in
    let r := match mode with
             | Some kept => if (kept <=? n) && hash_leaves o then delete_before (n - kept) r else r
             | None => r
             end in
    mkDb (d_nodes db) (d_removals db) (d_roots db)
         (upd_owner (d_leaves db) o
            (fun k => if bits_eqb k (fst kv) then r else d_leaves db o k)).

  Fixpoint apply_sets (st : storage) (t : tree) (s : sets) : outcome tree :=
    match s with
    | [] => Ok t
    | (k, v) :: s' => do t' <- tree_set HEIGHT st t k v; apply_sets st t' s'
    end.

  (** trie.rs:494-585 [insert_trie] with its pruning steps 501-504. *)
  Definition insert_trie_pruned (n : nat) (u : trie_update) (db : triedb)
    : outcome (triedb * root_update) :=
    let db := match mode with
              | Some kept => remove_trie (u_removed u) n (prune_trie n kept db)
              | None => db
              end in
    do (nodes, ru) <- insert_trie (d_nodes db) u;
    Ok (mkDb nodes (d_removals db) (d_roots db) (d_leaves db), ru).

  (** Load one trie as of [load_at], apply the sets, commit, store at block
      [n].  contract_state.rs:53-73 and 23-38 for a block ([load_at] is the
      parent), 176-197 for a revert ([load_at] is the head, [n] the target);
      the storage and class tries do the same in starknet_state.rs and
      revert.rs.  Returns the root commitment too. *)
  Definition update_trie (load_at : option nat) (n : nat) (o : owner) (s : sets)
             (db : triedb) : outcome (triedb * felt) :=
    let st := db_storage db o load_at in
    do t <- apply_sets st (db_load db o load_at) s;
    do u <- commit H st t;
    do (db', ru) <- insert_trie_pruned n u db;
    Ok (insert_root n o ru db', u_root u).

  Definition insert_leaves (n : nat) (o : owner) (s : sets) (db : triedb) : triedb :=
    fold_left (fun db kv => insert_leaf n o kv db) s db.

  (** All tries of a block (or of a revert), one after the other.  In
      update_starknet_state the contract tries are computed in parallel from
      the parent state and then inserted one after the other; they never touch
      each other's rows.  [writes] tells which leaf rows are written: all of
      them for a block; only the contract_state_hashes rows for a revert
      (revert.rs:80-96).  Simplification: in the code the leaf rows of a block
      are written just before its trie is updated, not just after; a tree that
      is loaded at the parent block and in which a key was set reads neither
      the old nor the new leaf row of that key. *)
  Fixpoint update_all (writes : owner -> bool) (load_at : option nat) (n : nat)
           (ups : updates) (db : triedb) : outcome (triedb * list (owner * felt)) :=
    match ups with
    | [] => Ok (db, [])
    | (o, s) :: ups' =>
        do (db1, root) <- update_trie load_at n o s db;
        do (db2, roots) <-
           update_all writes load_at n ups'
                      (if writes o then insert_leaves n o s db1 else db1);
        Ok (db2, (o, root) :: roots)
    end.

  (** sync.rs:1590-1603: purge all blocks above the target.  [None]: all. *)
  Definition purge_blocks (target : option nat) (db : triedb) : triedb :=
    match target with
    | Some t =>
        mkDb (d_nodes db) (purge_above t (d_removals db))
             (fun o => purge_above t (d_roots db o))
             (fun o k => purge_above t (d_leaves db o k))
    | None => mkDb (d_nodes db) [] (fun _ => []) (fun _ _ => [])
    end.

  Record chain_db := mkChainDb {
    x_db : triedb;
    x_head : option nat
  }.

  Definition empty_chain_db : chain_db := mkChainDb empty_db None.

  (** What happens to the tries. *)
  Inductive op : Type :=
  (* a new block, sync.rs l2_update -> update_starknet_state *)
  | OBlock (ups : updates)
  (* sync.rs l2_reorg with a tail above genesis: [target] is its parent,
     [rev] the reverse updates *)
  | OReorg (target : nat) (rev : updates)
  (* sync.rs l2_reorg with the genesis block as tail *)
  | OReorgGenesis
  (* [prune_tries] at start-up, trie.rs:375-389 *)
  | OPrune.

  Definition next_block (head : option nat) : nat :=
    match head with Some h => S h | None => 0 end.

  (** One operation; the second component lists the root commitments
      computed. *)
  Definition step (x : chain_db) (o : op) : outcome (chain_db * list (owner * felt)) :=
    match o with
    | OBlock ups =>
        let n := next_block (x_head x) in
        do (db, roots) <- update_all (fun _ => true) (x_head x) n ups (x_db x);
        Ok (mkChainDb db (Some n), roots)
    | OReorg target rev =>
        match x_head x with
        | None => Err
        | Some head =>
            do (db, roots) <- update_all hash_leaves (Some head) target rev (x_db x);
            Ok (mkChainDb (purge_blocks (Some target) (coalesce target db)) (Some target), roots)
        end
    | OReorgGenesis => Ok (mkChainDb (purge_blocks None (x_db x)) None, [])
    | OPrune =>
        match x_head x, mode with
        | Some head, Some kept => Ok (mkChainDb (prune_trie head kept (x_db x)) (x_head x), [])
        | _, _ => Ok (x, [])
        end
    end.

  Fixpoint run (x : chain_db) (ops : list op) : outcome (chain_db * list (list (owner * felt))) :=
    match ops with
    | [] => Ok (x, [])
    | o :: ops' =>
        do (x1, r) <- step x o;
        do (x2, rs) <- run x1 ops';
        Ok (x2, r :: rs)
    end.

  (** Reading one trie at a block. *)
  Definition read_value (db : triedb) (o : owner) (b : nat) (k : bits) : outcome (option felt) :=
    do (_, v) <- tree_get HEIGHT (db_storage db o (Some b)) (db_load db o (Some b)) k;
    Ok v.

  (** {Contracts,...}Tree::get_proof(s): no root, no proof (an empty list). *)
  Definition read_proof (db : triedb) (o : owner) (b : nat) (k : bits)
    : outcome (list (trie_node * felt)) :=
    match root_index db o b with
    | None => Ok []
    | Some i => get_proof HEIGHT (db_storage db o (Some b)) i k
    end.

  (** trie.rs:29-41 [class_root], 96-106 [contract_root]: the hash in the root
      row; no root index, no hash (the callers use zero). *)
  Definition read_root (db : triedb) (o : owner) (b : nat) : option felt :=
    match root_index db o b with
    | None => Some 0%N
    | Some i => option_map fst (al_get N.eqb i (d_nodes db))
    end.
End Db.
