(** Vocabulary of the statements about tries in the database.  The history of a
    chain is the list of what its blocks set; a reorg cuts it. *)
From Coq Require Import List Bool Arith NArith.
From Verif Require Import MerkleModel MerkleSpec TrieDbModel.
Import ListNotations.

(** One entry per block: what the block set, and what reverts to this block set
    again while it was the head. *)
Definition history := list (updates * updates).

(** The sets made to trie [o] among some updates. *)
Definition block_sets (o : owner) (ups : updates) : sets :=
  flat_map (fun e => if (fst e =? o)%N then snd e else []) ups.

(** What trie [o] holds after block [b]. *)
Definition contents_at (h : history) (o : owner) (b : nat) : contents :=
  puts no_contents (flat_map (fun e => block_sets o (fst e)) (firstn (S b) h)).

(** What trie [o] holds at the head. *)
Definition contents_now (h : history) (o : owner) : contents :=
  puts no_contents (flat_map (fun e => block_sets o (fst e)) h).

Definition names (o : owner) (ups : updates) : Prop := In o (map fst ups).
Definition names_key (o : owner) (k : bits) (ups : updates) : Prop :=
  In k (map fst (block_sets o ups)).

(** Trie [o] was written at block [b], by the block or by a revert to it. *)
Definition written (h : history) (o : owner) (b : nat) : Prop :=
  exists e, nth_error h b = Some e /\ (names o (fst e) \/ names o (snd e)).
Definition written_key (h : history) (o : owner) (k : bits) (b : nat) : Prop :=
  exists e, nth_error h b = Some e /\ (names_key o k (fst e) \/ names_key o k (snd e)).

Section Spec.
  Variable HEIGHT : nat.
  Variable mode : option nat.

  (** Every trie occurs once, keys have the right length. *)
  Definition valid_updates (ups : updates) : Prop :=
    NoDup (map fst ups) /\
    forall o s k v, In (o, s) ups -> In (k, v) s -> length k = HEIGHT.

  (** [rev] takes the head back to block [t]: each trie written since is either
      set back, key by key, or did not exist at [t]; the others are left
      alone. *)
  Definition reverts (h : history) (t : nat) (rev : updates) : Prop :=
    S t < length h /\ valid_updates rev /\
    forall o,
      (names o rev /\
       (forall k, length k = HEIGHT ->
          puts (contents_now h o) (block_sets o rev) k = contents_at h o t k) /\
       (forall b k, t < b -> written_key h o k b -> names_key o k rev)) \/
      (~ names o rev /\
       ((forall b, t < b -> ~ written h o b) \/ (forall b, b <= t -> ~ written h o b))).

  Definition valid_op (h : history) (o : op) : Prop :=
    match o with
    | OBlock ups => valid_updates ups
    | OReorg t rev => reverts h t rev
    | OReorgGenesis => True
    | OPrune => True
    end.

  (** The history after an operation, and the largest number of blocks there
      ever were. *)
  Definition spec_step (s : history * nat) (o : op) : history * nat :=
    let '(h, peak) := s in
    match o with
    | OBlock ups => (h ++ [(ups, [])], Nat.max peak (S (length h)))
    | OReorg t rev =>
        (firstn t h ++ map (fun e => (fst e, snd e ++ rev)) (firstn 1 (skipn t h)), peak)
    | OReorgGenesis => ([], 0)
    | OPrune => (h, peak)
    end.

  Fixpoint valid_ops (s : history * nat) (ops : list op) : Prop :=
    match ops with
    | [] => True
    | o :: ops' => valid_op (fst s) o /\ valid_ops (spec_step s o) ops'
    end.

  Definition spec_run (s : history * nat) (ops : list op) : history * nat :=
    fold_left spec_step ops s.

  (** Blocks whose tries must be readable: the head, and the last
      [num_blocks_kept] blocks below the highest block there ever was. *)
  Definition readable (s : history * nat) (b : nat) : Prop :=
    b < length (fst s) /\
    (S b = length (fst s) \/
     match mode with None => True | Some kept => snd s <= S b + kept end).
End Spec.

(** The root commitments an operation must report. *)
Definition spec_out (H : felt -> felt -> felt) (HEIGHT : nat) (s : history * nat) (o : op)
  : list (owner * felt) :=
  match o with
  | OBlock ups =>
      map (fun e => (fst e, spec_root H HEIGHT (contents_at (fst (spec_step s o)) (fst e)
                                                  (length (fst s))))) ups
  | OReorg t rev => map (fun e => (fst e, spec_root H HEIGHT (contents_at (fst s) (fst e) t))) rev
  | _ => []
  end.

Fixpoint spec_outs (H : felt -> felt -> felt) (HEIGHT : nat) (s : history * nat) (ops : list op)
  : list (list (owner * felt)) :=
  match ops with
  | [] => []
  | o :: ops' => spec_out H HEIGHT s o :: spec_outs H HEIGHT (spec_step s o) ops'
  end.

(** ** Chains that only grow *)

(** Only new blocks and prunings happen. *)
Definition grows (HEIGHT : nat) (ops : list op) : Prop :=
  Forall (fun o => match o with
                   | OBlock ups => valid_updates HEIGHT ups
                   | OPrune => True
                   | _ => False
                   end) ops.

Definition blocks_of (ops : list op) : list updates :=
  flat_map (fun o => match o with OBlock ups => [ups] | _ => [] end) ops.

(** What trie [o] holds after block [b]: the sets of blocks 0 to [b]. *)
Definition after_block (blocks : list updates) (o : owner) (b : nat) : contents :=
  puts no_contents (flat_map (block_sets o) (firstn (S b) blocks)).

(** ** Reorgs whose reverse updates are computed from the state diffs *)

(** As [reverts], but only what the blocks themselves set counts as written:
    the reverse updates of revert.rs are computed from the state diff tables
    (state_update.rs:820-1053), which know nothing of earlier reverts. *)
Definition changed (h : history) (o : owner) (b : nat) : Prop :=
  exists e, nth_error h b = Some e /\ names o (fst e).
Definition changed_key (h : history) (o : owner) (k : bits) (b : nat) : Prop :=
  exists e, nth_error h b = Some e /\ names_key o k (fst e).

Definition reverts_diff (HEIGHT : nat) (h : history) (t : nat) (rev : updates) : Prop :=
  S t < length h /\ valid_updates HEIGHT rev /\
  forall o,
    (names o rev /\
     (forall k, length k = HEIGHT ->
        puts (contents_now h o) (block_sets o rev) k = contents_at h o t k) /\
     (forall b k, t < b -> changed_key h o k b -> names_key o k rev)) \/
    (~ names o rev /\
     ((forall b, t < b -> ~ changed h o b) \/ (forall b, b <= t -> ~ changed h o b))).

Fixpoint valid_ops_diff (HEIGHT : nat) (s : history * nat) (ops : list op) : Prop :=
  match ops with
  | [] => True
  | o :: ops' =>
      match o with
      | OReorg t rev => reverts_diff HEIGHT (fst s) t rev
      | _ => valid_op HEIGHT (fst s) o
      end /\ valid_ops_diff HEIGHT (spec_step s o) ops'
  end.
