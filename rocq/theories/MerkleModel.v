(** Model of the Merkle-Patricia tree:
    /repo/crates/merkle-tree/src/{tree.rs, merkle_node.rs, storage.rs} and of
    the node table of /repo/crates/storage/src/connection/trie.rs.

    Simplifications that hold for the whole file:
    - [Rc<RefCell<InternalNode>>] is a plain inductive tree.  The mutation in
      place of a node found by [traverse] is modelled by a zipper: [traverse]
      returns the frames from the found node up to the root and [plug] puts a
      replacement back.  No two handles of one tree share nodes in the code
      that is modelled (a [MerkleTree] is consumed by [commit]).
    - a field element is a number; [fadd] is addition modulo the field prime.
      The hash function [H] is a parameter.
    - a database error (as opposed to a missing row) is not modelled.
    - tracing, metrics and error texts are dropped. *)
From Coq Require Import List Bool Arith NArith Lia.
From Verif Require Import AList.
Import ListNotations.

(** Outcome of a Rust call: [Ok], [Err] (anyhow error), [Panic] (slice index
    out of range, [unwrap], [unreachable!]) or running out of model fuel. *)
Inductive outcome (A : Type) : Type :=
| Ok (a : A)
| Err
| Panic
| Stuck.
Arguments Ok {A}. Arguments Err {A}. Arguments Panic {A}. Arguments Stuck {A}.

Definition obind {A B} (x : outcome A) (f : A -> outcome B) : outcome B :=
  match x with Ok a => f a | Err => Err | Panic => Panic | Stuck => Stuck end.

Notation "'do' x <- e ; f" := (obind e (fun x => f))
  (at level 200, x pattern, e at level 100, f at level 200).

(** An [Option] turned into an error with [.context(..)?]. *)
Definition or_err {A} (x : option A) : outcome A :=
  match x with Some a => Ok a | None => Err end.

(** An [Option]/index that panics when absent. *)
Definition or_panic {A} (x : option A) : outcome A :=
  match x with Some a => Ok a | None => Panic end.

(** crates/crypto/src/algebra/field/felt.rs: field elements.  The prime is
    2^251 + 17 * 2^192 + 1 (montfelt/config.rs, see MontModel for its limbs). *)
Definition felt := N.
Definition P : N := (2 ^ 251 + 17 * 2 ^ 192 + 1)%N.
Definition fadd (a b : felt) : felt := ((a + b) mod P)%N.

(** BitVec<u8, Msb0>: the most significant bit comes first. *)
Definition bits := list bool.

Fixpoint bits_val_acc (acc : N) (p : bits) : N :=
  match p with
  | [] => acc
  | b :: p' => bits_val_acc (2 * acc + (if b then 1 else 0))%N p'
  end.
Definition bits_val (p : bits) : N := bits_val_acc 0 p.

Fixpoint bits_eqb (p q : bits) : bool :=
  match p, q with
  | [], [] => true
  | a :: p', b :: q' => Bool.eqb a b && bits_eqb p' q'
  | _, _ => false
  end.

(** felt.rs:183-192 [Felt::from_bits]: error above 251 bits. *)
Definition felt_from_bits (p : bits) : option felt :=
  if 251 <? length p then None else Some (bits_val p).

(** connection/trie.rs TrieStorageIndex: an SQLite row id. *)
Definition idx := N.

(** connection/trie.rs:727-752 [StoredNode]. *)
Inductive stored : Type :=
| SBin (l r : idx)
| SEdge (c : idx) (p : bits)
| SLeafBin
| SLeafEdge (p : bits).

(** connection/trie.rs [NodeRef] and [Node]. *)
Inductive noderef : Type :=
| RStored (i : idx)
| RNew (i : nat).

Inductive pnode : Type :=
| PBin (l r : noderef)
| PEdge (c : noderef) (p : bits)
| PLeafBin
| PLeafEdge (p : bits).

(** merkle-tree/src/storage.rs trait [Storage]: get, hash, leaf. *)
Record storage := mkStorage {
  s_get : idx -> option stored;
  s_hash : idx -> option felt;
  s_leaf : bits -> option felt
}.

(** merkle_node.rs:19-55 [InternalNode]. *)
Inductive node : Type :=
| NUnres (i : idx)
| NBin (si : option idx) (h : nat) (l r : node)
| NEdge (si : option idx) (h : nat) (p : bits) (c : node)
| NLeaf.

(** merkle_node.rs [InternalNode::storage_index]. *)
Definition storage_index (n : node) : option idx :=
  match n with
  | NUnres i => Some i
  | NBin si _ _ _ => si
  | NEdge si _ _ _ => si
  | NLeaf => None
  end.

Definition opt_list {A} (o : option A) : list A :=
  match o with Some a => [a] | None => [] end.

(** tree.rs:70-80 [MerkleTree]. *)
Record tree := mkTree {
  t_root : option node;
  t_leaves : list (bits * felt);
  t_removed : list idx
}.

(** tree.rs:82-92 [MerkleTree::new] and 99-107 [MerkleTree::empty]. *)
Definition tree_new (root : idx) : tree := mkTree (Some (NUnres root)) [] [].
Definition tree_empty : tree := mkTree None [] [].

(** One step of the way from the root to the node found by [traverse]. *)
Inductive frame : Type :=
| FBin (si : option idx) (h : nat) (dir : bool) (sibling : node)
| FEdge (si : option idx) (h : nat) (p : bits).

Definition plug1 (f : frame) (n : node) : node :=
  match f with
  | FBin si h false sib => NBin si h n sib
  | FBin si h true sib => NBin si h sib n
  | FEdge si h p => NEdge si h p n
  end.

(** Innermost frame first. *)
Definition plug (fs : list frame) (n : node) : node :=
  fold_left (fun acc f => plug1 f acc) fs n.

Section Tree.
  (** The height of the tree: const parameter HEIGHT (251 for state tries, 64
      for transaction, event and receipt commitments). *)
  Variable HEIGHT : nat.
  (** FeltHash::hash: Pedersen or Poseidon. *)
  Variable H : felt -> felt -> felt.

  (** merkle_node.rs [BinaryNode::calculate_hash]. *)
  Definition bin_hash (l r : felt) : felt := H l r.

  (** merkle_node.rs [EdgeNode::calculate_hash]: the path length is cut to one
      byte; [Felt::from_bits(path).unwrap()] panics above 251 bits. *)
  Definition edge_hash (c : felt) (p : bits) : outcome felt :=
    do v <- or_panic (felt_from_bits p);
    Ok (fadd (H c v) (N.of_nat (length p) mod 256)%N).

  (** tree.rs:732-776 [resolve]. *)
  Definition resolve (st : storage) (i : idx) (height : nat) : outcome node :=
    if height <? HEIGHT then
      match s_get st i with
      | None => Err
      | Some (SBin l r) => Ok (NBin (Some i) height (NUnres l) (NUnres r))
      | Some (SEdge c p) => Ok (NEdge (Some i) height p (NUnres c))
      | Some SLeafBin => Ok (NBin (Some i) height NLeaf NLeaf)
      | Some (SLeafEdge p) => Ok (NEdge (Some i) height p NLeaf)
      end
    else Err.

  (** merkle_node.rs [EdgeNode::path_matches]: slicing panics when the key is
      too short. *)
  Definition path_matches (h : nat) (p key : bits) : outcome bool :=
    if h + length p <=? length key
    then Ok (bits_eqb p (firstn (length p) (skipn h key)))
    else Panic.

  (** merkle_node.rs [EdgeNode::common_path]. *)
  Fixpoint common (p q : bits) : bits :=
    match p, q with
    | a :: p', b :: q' => if Bool.eqb a b then a :: common p' q' else []
    | _, _ => []
    end.
  Definition common_path (h : nat) (p key : bits) : bits := common p (skipn h key).

  (** tree.rs:684-726 [traverse].  The frames collected correspond to all but
      the last element of the returned vector (the nodes on the way), the node
      to the last one.  An [Unresolved] node is replaced by the resolved one
      in place, hence it is never part of the result. *)
  Fixpoint traverse (fuel : nat) (st : storage) (dst : bits)
           (height : nat) (fs : list frame) (n : node) : outcome (list frame * node) :=
    match fuel with
    | 0 => Stuck
    | S fuel' =>
        match n with
        | NUnres i =>
            do n' <- resolve st i height;
            traverse fuel' st dst height fs n'
        | NBin si h l r =>
            do b <- or_panic (nth_error dst h);
            if b : bool
            then traverse fuel' st dst (S height) (FBin si h true l :: fs) r
            else traverse fuel' st dst (S height) (FBin si h false r :: fs) l
        | NEdge si h p c =>
            do m <- path_matches h p dst;
            if m : bool
            then traverse fuel' st dst (height + length p) (FEdge si h p :: fs) c
            else Ok (fs, NEdge si h p c)
        | NLeaf => Ok (fs, NLeaf)
        end
    end.

  (** Enough for HEIGHT bits: at most one resolve and one step per bit. *)
  Definition traverse_fuel : nat := 2 * HEIGHT + 2.

  (** The Edge arm of [set] (tree.rs:293-351): split the edge at the common
      prefix. *)
  Definition split_edge (key : bits) (h : nat) (p : bits) (c : node) : outcome node :=
    let com := common_path h p key in
    let branch_height := h + length com in
    let child_height := S branch_height in
    if (child_height <=? length key) && (S (length com) <=? length p) then
      let new_path := skipn child_height key in
      let old_path := skipn (S (length com)) p in
      let new := match new_path with
                 | [] => NLeaf
                 | _ => NEdge None child_height new_path NLeaf
                 end in
      let old := match old_path with
                 | [] => c
                 | _ => NEdge None child_height old_path c
                 end in
      do b <- or_panic (nth_error key branch_height);
      let branch := if b : bool
                    then NBin None branch_height old new
                    else NBin None branch_height new old in
      Ok (match com with
          | [] => branch
          | _ => NEdge None h com branch
          end)
    else Panic.

  (** tree.rs:786-803 [merge_edges] on the edge (height, path, child); returns
      the new path and child and the storage indices to add to
      [nodes_removed]. *)
  Definition merge_edges (st : storage) (h : nat) (p : bits) (c : node)
    : outcome (bits * node * list idx) :=
    do rc <- match c with
             | NUnres i => resolve st i (h + length p)
             | other => Ok other
             end;
    match rc with
    | NEdge si _ cp cc => Ok (p ++ cp, cc, opt_list si)
    | _ => Ok (p, c, [])
    end.

  (** tree.rs:431-443: the iterator skips everything below the closest binary
      node while collecting storage indices. *)
  Fixpoint skip_to_binary (fs : list frame) (acc : list idx) : list frame * list idx :=
    match fs with
    | FEdge si _ _ :: fs' => skip_to_binary fs' (acc ++ opt_list si)
    | _ => (fs, acc)
    end.

  (** tree.rs:403-498 [delete_leaf]. *)
  Definition delete_leaf (st : storage) (t : tree) (key : bits) : outcome tree :=
    match t_root t with
    | None => Ok t
    | Some root =>
        do (fs, last) <- traverse traverse_fuel st key 0 [] root;
        match last with
        | NLeaf =>
            match skip_to_binary fs [] with
            | (FBin si h dir sib :: fs', below) =>
                (* the remaining child is on the other side of [dir] *)
                do (ep, ec, rem1) <- merge_edges st h [negb dir] sib;
                let removed1 := t_removed t ++ rem1 ++ opt_list si in
                match fs' with
                | FEdge psi ph pp :: fs'' =>
                    do (pp', pc', rem2) <- merge_edges st ph pp (NEdge None h ep ec);
                    Ok (mkTree (Some (plug fs'' (NEdge psi ph pp' pc')))
                               (t_leaves t)
                               (removed1 ++ rem2 ++ below))
                | _ =>
                    Ok (mkTree (Some (plug fs' (NEdge None h ep ec)))
                               (t_leaves t)
                               (removed1 ++ below))
                end
            | (_, below) =>
                Ok (mkTree None (t_leaves t) (t_removed t ++ below))
            end
        | _ => Ok (mkTree (Some (plug fs last)) (t_leaves t) (t_removed t))
        end
    end.

  (** tree.rs:261-396 [set]. *)
  Definition tree_set (st : storage) (t : tree) (key : bits) (value : felt) : outcome tree :=
    if (value =? 0)%N then delete_leaf st t key
    else
      match t_root t with
      | None =>
          Ok (mkTree (Some (NEdge None 0 key NLeaf))
                     (al_set bits_eqb key value (t_leaves t))
                     (t_removed t))
      | Some root =>
          do (fs, last) <- traverse traverse_fuel st key 0 [] root;
          do updated <- match last with
                        | NEdge _ h p c => split_edge key h p c
                        | NLeaf => Ok NLeaf
                        | _ => Panic
                        end;
          Ok (mkTree (Some (plug fs updated))
                     (al_set bits_eqb key value (t_leaves t))
                     (t_removed t ++ opt_list (storage_index last)))
      end.

  (** tree.rs:501-522 [get].  Nodes are resolved in place, so the tree after
      the call is returned as well. *)
  Definition tree_get (st : storage) (t : tree) (key : bits) : outcome (tree * option felt) :=
    match t_root t with
    | None => Ok (t, None)
    | Some root =>
        do (fs, last) <- traverse traverse_fuel st key 0 [] root;
        let t' := mkTree (Some (plug fs last)) (t_leaves t) (t_removed t) in
        match last with
        | NLeaf =>
            match al_get bits_eqb key (t_leaves t) with
            | Some v => Ok (t', Some v)
            | None => Ok (t', s_leaf st key)
            end
        | _ => Ok (t', None)
        end
    end.

  (** tree.rs:155-258 [commit_subtree].  [added] and [removed] are the
      accumulators; the result adds the hash of the node and its reference
      ([None] for a leaf). *)
  Fixpoint commit_subtree (st : storage) (leaves : list (bits * felt))
           (n : node) (path : bits)
           (added : list (felt * pnode)) (removed : list idx)
    : outcome (felt * option noderef * list (felt * pnode) * list idx) :=
    match n with
    | NUnres i =>
        do hash <- or_err (s_hash st i);
        Ok (hash, Some (RStored i), added, removed)
    | NLeaf =>
        do hash <- match al_get bits_eqb path leaves with
                   | Some v => Ok v
                   | None => or_err (s_leaf st path)
                   end;
        Ok (hash, None, added, removed)
    | NBin si _ l r =>
        do (lh, lref, added1, removed1) <-
           commit_subtree st leaves l (path ++ [false]) added removed;
        do (rh, rref, added2, removed2) <-
           commit_subtree st leaves r (path ++ [true]) added1 removed1;
        let hash := bin_hash lh rh in
        do pn <- match lref, rref with
                 | None, None => Ok PLeafBin
                 | Some a, Some b => Ok (PBin a b)
                 | _, _ => Err
                 end;
        Ok (hash, Some (RNew (length added2)),
            added2 ++ [(hash, pn)], removed2 ++ opt_list si)
    | NEdge si _ p c =>
        do (ch, cref, added1, removed1) <-
           commit_subtree st leaves c (path ++ p) added removed;
        do hash <- edge_hash ch p;
        let pn := match cref with
                  | None => PLeafEdge p
                  | Some a => PEdge a p
                  end in
        Ok (hash, Some (RNew (length added1)),
            added1 ++ [(hash, pn)], removed1 ++ opt_list si)
    end.

  (** connection/trie.rs:625-640 [TrieUpdate]. *)
  Record trie_update := mkUpdate {
    u_added : list (felt * pnode);
    u_removed : list idx;
    u_root : felt
  }.

  (** tree.rs:110-146 [commit]. *)
  Definition commit (st : storage) (t : tree) : outcome trie_update :=
    match t_root t with
    | None => Ok (mkUpdate [] ([] ++ t_removed t) 0%N)
    | Some (NUnres i) =>
        do h <- or_err (s_hash st i);
        Ok (mkUpdate [] ([] ++ t_removed t) h)
    | Some other =>
        do (h, _, added, removed) <- commit_subtree st (t_leaves t) other [] [] [];
        Ok (mkUpdate added (removed ++ t_removed t) h)
    end.

  (** tree.rs:545-669 [get_proofs] for one key (the caches only avoid repeated
      reads of the same rows; a list of keys is handled key by key). *)
  (** pathfinder_common::trie::TrieNode, crates/common/src/trie.rs. *)
  Inductive trie_node : Type :=
  | TBin (l r : felt)
  | TEdge (c : felt) (p : bits).

  Fixpoint get_proof_loop (fuel : nat) (st : storage) (key : bits)
           (next : idx) (height : nat) (acc : list (trie_node * felt))
    : outcome (list (trie_node * felt)) :=
    match fuel with
    | 0 => Stuck
    | S fuel' =>
        do sn <- or_err (s_get st next);
        match sn with
        | SBin l r =>
            do b <- or_err (nth_error key height);
            do lh <- or_err (s_hash st l);
            do rh <- or_err (s_hash st r);
            do nh <- or_err (s_hash st next);
            get_proof_loop fuel' st key (if b : bool then r else l) (S height)
                           (acc ++ [(TBin lh rh, nh)])
        | SEdge c p =>
            if height + length p <=? length key then
              let m := bits_eqb (firstn (length p) (skipn height key)) p in
              do ch <- or_err (s_hash st c);
              do nh <- or_err (s_hash st next);
              let acc' := acc ++ [(TEdge ch p, nh)] in
              if m then get_proof_loop fuel' st key c (height + length p) acc'
              else Ok acc'
            else Err
        | SLeafBin =>
            if height <=? length key then
              let base := firstn height key in
              do lh <- or_err (s_leaf st (base ++ [false]));
              do rh <- or_err (s_leaf st (base ++ [true]));
              do nh <- or_err (s_hash st next);
              Ok (acc ++ [(TBin lh rh, nh)])
            else Panic
        | SLeafEdge p =>
            if height <=? length key then
              let base := firstn height key in
              do ch <- or_err (s_leaf st (base ++ p));
              do nh <- or_err (s_hash st next);
              Ok (acc ++ [(TEdge ch p, nh)])
            else Panic
        end
    end.

  Definition get_proof (st : storage) (root : idx) (key : bits)
    : outcome (list (trie_node * felt)) :=
    get_proof_loop (S HEIGHT) st key root 0 [].

  (** crates/common/src/trie.rs [TrieNode::hash]. *)
  Definition trie_node_hash (n : trie_node) : outcome felt :=
    match n with
    | TBin l r => Ok (H l r)
    | TEdge c p =>
        (* length.as byte, Felt::from_bits(path).unwrap() *)
        do v <- or_panic (felt_from_bits p);
        Ok (fadd (H c v) (N.of_nat (length p) mod 256)%N)
    end.
End Tree.

(** The node table of one trie (trie_class, trie_storage or trie_contracts):
    rows (idx, (hash, data)).  trie.rs:495-585.  The encoding of [data] is
    modelled separately (NodeCodecModel). *)
Definition table := list (idx * (felt * stored)).

(** SQLite "INTEGER PRIMARY KEY" without AUTOINCREMENT
    (schema/revision_0041.rs:88-92): the new row id is one more than the
    largest row id in use, 1 for an empty table. *)
Definition next_idx (tb : table) : idx :=
  N.succ (fold_right N.max 0%N (map fst tb)).

(** trie.rs:901-945 [Node::as_stored]. *)
Definition ref_stored (indices : list (nat * idx)) (r : noderef) : outcome idx :=
  match r with
  | RStored i => Ok i
  | RNew k => or_err (al_get Nat.eqb k indices)
  end.

Definition as_stored (indices : list (nat * idx)) (n : pnode) : outcome stored :=
  match n with
  | PBin l r =>
      do l' <- ref_stored indices l;
      do r' <- ref_stored indices r;
      Ok (SBin l' r')
  | PEdge c p => do c' <- ref_stored indices c; Ok (SEdge c' p)
  | PLeafBin => Ok SLeafBin
  | PLeafEdge p => Ok (SLeafEdge p)
  end.

(** trie.rs:521-549: the first loop of [insert_trie]: positions of the nodes to
    insert, in the order found.  The head of [stack] is the top. *)
Fixpoint collect (fuel : nat) (added : list (felt * pnode)) (stack : list noderef)
         (acc : list nat) : outcome (list nat) :=
  match stack with
  | [] => Ok acc
  | r :: stack' =>
      match fuel with
      | 0 => Stuck
      | S fuel' =>
          match r with
          | RStored _ => collect fuel' added stack' acc
          | RNew k =>
              do e <- or_err (nth_error added k);
              let acc' := acc ++ [k] in
              match snd e with
              | PBin l r' => collect fuel' added (r' :: l :: stack') acc'
              | PEdge c _ => collect fuel' added (c :: stack') acc'
              | PLeafBin | PLeafEdge _ => collect fuel' added stack' acc'
              end
          end
      end
  end.

(** trie.rs:557-577: the second loop of [insert_trie]. *)
Fixpoint insert_nodes (added : list (felt * pnode)) (order : list nat)
         (tb : table) (indices : list (nat * idx)) : outcome (table * list (nat * idx)) :=
  match order with
  | [] => Ok (tb, indices)
  | k :: order' =>
      do e <- or_err (nth_error added k);
      do sn <- as_stored indices (snd e);
      let i := next_idx tb in
      insert_nodes added order' (tb ++ [(i, (fst e, sn))]) (al_set Nat.eqb k i indices)
  end.

(** trie.rs:672-677 [RootIndexUpdate]. *)
Inductive root_update : Type :=
| RUnchanged
| RUpdated (i : idx)
| REmpty.

(** trie.rs:495-585 [insert_trie] without the pruning steps 501-504, which are
    modelled in TrieDbModel. *)
Definition insert_trie (tb : table) (u : trie_update) : outcome (table * root_update) :=
  match u_added u with
  | [] =>
      match u_removed u with
      | _ :: _ => if (u_root u =? 0)%N then Ok (tb, REmpty) else Ok (tb, RUnchanged)
      | [] => Ok (tb, RUnchanged)
      end
  | _ =>
      let n := length (u_added u) in
      do order <- collect (2 * n + 1) (u_added u) [RNew (n - 1)] [];
      do (tb', indices) <- insert_nodes (u_added u) (rev order) tb [];
      do root <- or_panic (al_get Nat.eqb (n - 1) indices);
      Ok (tb', RUpdated root)
  end.

(** trie.rs:587-631 [trie_node] and [trie_node_hash]: reads by row id.
    [leaf] comes from another table (see TrieDbModel). *)
Definition table_storage (tb : table) (leaf : bits -> option felt) : storage :=
  mkStorage (fun i => option_map snd (al_get N.eqb i tb))
            (fun i => option_map fst (al_get N.eqb i tb))
            leaf.
