(** Vocabulary of the Merkle tree statements.  Nothing in here refers to nodes,
    traversal or storage: a trie is a total map from keys (bit strings) to
    field elements in which zero means "absent". *)
From Coq Require Import List Bool Arith NArith.
From Verif Require Import AList MerkleModel.
Import ListNotations.

(** What a trie holds. *)
Definition contents := bits -> felt.
Definition no_contents : contents := fun _ => 0%N.

(** The effect of [set key value]; value zero deletes. *)
Definition put (m : contents) (key : bits) (value : felt) : contents :=
  fun k => if bits_eqb k key then value else m k.

(** The effect of a list of [set]s, first one first. *)
Definition puts (m : contents) (kvs : list (bits * felt)) : contents :=
  fold_left (fun m kv => put m (fst kv) (snd kv)) kvs m.

(** What [get key] must answer. *)
Definition answer (m : contents) (k : bits) : option felt :=
  if (m k =? 0)%N then None else Some (m k).

(** The root commitment as the Starknet documentation defines it: a node is
    summarised by (path, bottom); a node with both children occupied starts a
    new summary; a missing child prolongs the path of its sibling. *)
Section Root.
  Variable H : felt -> felt -> felt.

  Definition top (s : bits * felt) : felt :=
    match fst s with
    | [] => snd s
    | p => fadd (H (snd s) (bits_val p)) (N.of_nat (length p))
    end.

  Fixpoint summary (height : nat) (m : contents) : option (bits * felt) :=
    match height with
    | 0 => if (m [] =? 0)%N then None else Some ([], m [])
    | S n =>
        match summary n (fun k => m (false :: k)), summary n (fun k => m (true :: k)) with
        | None, None => None
        | Some (p, b), None => Some (false :: p, b)
        | None, Some (p, b) => Some (true :: p, b)
        | Some l, Some r => Some ([], H (top l) (top r))
        end
    end.

  Definition spec_root (height : nat) (m : contents) : felt :=
    match summary height m with
    | None => 0%N
    | Some s => top s
    end.

  (** The hash computations that make up a root: (first argument, second
      argument, length added). *)
  Definition query := (felt * felt * N)%type.
  Definition query_value (q : query) : felt :=
    let '(a, b, len) := q in
    if (len =? 0)%N then H a b else fadd (H a b) len.

  Definition top_queries (s : bits * felt) : list query :=
    match fst s with
    | [] => []
    | p => [(snd s, bits_val p, N.of_nat (length p))]
    end.

  Fixpoint summary_queries (height : nat) (m : contents) : list query :=
    match height with
    | 0 => []
    | S n =>
        let ml := fun k : bits => m (false :: k) in
        let mr := fun k : bits => m (true :: k) in
        summary_queries n ml ++ summary_queries n mr ++
        match summary n ml, summary n mr with
        | Some l, Some r => top_queries l ++ top_queries r ++ [(top l, top r, 0%N)]
        | _, _ => []
        end
    end.

  Definition root_queries (height : nat) (m : contents) : list query :=
    summary_queries height m ++
    match summary height m with Some s => top_queries s | None => [] end.

  (** No two different computations of a list give one value, and none gives
      zero.  (Pedersen and Poseidon are believed to make this true of any list
      of computations anybody can write down.) *)
  Definition collision_free (qs : list query) : Prop :=
    (forall q1 q2, In q1 qs -> In q2 qs -> query_value q1 = query_value q2 -> q1 = q2) /\
    (forall q, In q qs -> query_value q <> 0%N).

  (** Proof verification as described at tree.rs:535-545 and 2040-2057: follow
      the key through the nodes, checking each hash.  The result is the value
      the proof shows to be stored under the key, zero for "absent". *)
  Fixpoint check_proof (expected : felt) (key : bits) (proof : list trie_node) : option felt :=
    match key, proof with
    | [], [] => Some expected
    | b :: key', TBin l r :: proof' =>
        if (H l r =? expected)%N
        then check_proof (if b : bool then r else l) key' proof'
        else None
    | _ :: _, TEdge c p :: proof' =>
        if negb (length p =? 0) && (length p <=? length key) &&
           (fadd (H c (bits_val p)) (N.of_nat (length p)) =? expected)%N
        then
          if bits_eqb p (firstn (length p) key)
          then check_proof c (skipn (length p) key) proof'
          else match proof' with [] => Some 0%N | _ => None end
        else None
    | _, _ => None
    end.

  (** The root is known; the empty trie has root zero and an empty proof. *)
  Definition verify (root : felt) (key : bits) (proof : list trie_node) : option felt :=
    if (root =? 0)%N
    then match proof with [] => Some 0%N | _ => None end
    else check_proof root key proof.

  Definition proof_queries (proof : list trie_node) : list query :=
    map (fun n => match n with
                  | TBin l r => (l, r, 0%N)
                  | TEdge c p => (c, bits_val p, N.of_nat (length p))
                  end) proof.
End Root.

(** Scripts of reads and writes. *)
Inductive tree_op : Type :=
| TSet (k : bits) (v : felt)
| TGet (k : bits).

Definition op_key (o : tree_op) : bits := match o with TSet k _ => k | TGet k => k end.

(** What a map does: its contents and what the reads answer. *)
Fixpoint map_script (m : contents) (ops : list tree_op) : contents * list (option felt) :=
  match ops with
  | [] => (m, [])
  | TSet k v :: ops' => map_script (put m k v) ops'
  | TGet k :: ops' => let '(m', out) := map_script m ops' in (m', answer m k :: out)
  end.

(** Rows of a node table that can be reached from a row. *)
Inductive reaches (tb : table) : idx -> idx -> Prop :=
| reach_here i e : al_get N.eqb i tb = Some e -> reaches tb i i
| reach_left i h l r j : al_get N.eqb i tb = Some (h, SBin l r) -> reaches tb l j -> reaches tb i j
| reach_right i h l r j : al_get N.eqb i tb = Some (h, SBin l r) -> reaches tb r j -> reaches tb i j
| reach_edge i h c p j : al_get N.eqb i tb = Some (h, SEdge c p) -> reaches tb c j -> reaches tb i j.

Definition reaches_opt (tb : table) (root : option idx) (j : idx) : Prop :=
  match root with Some i => reaches tb i j | None => False end.

(** The same script run on a tree that reads rows from [st]. *)
Fixpoint run_script (HEIGHT : nat) (st : storage) (t : tree) (ops : list tree_op)
  : outcome (tree * list (option felt)) :=
  match ops with
  | [] => Ok (t, [])
  | TSet k v :: ops' =>
      do t' <- tree_set HEIGHT st t k v;
      run_script HEIGHT st t' ops'
  | TGet k :: ops' =>
      do (t', a) <- tree_get HEIGHT st t k;
      do (t2, out) <- run_script HEIGHT st t' ops';
      Ok (t2, a :: out)
  end.
