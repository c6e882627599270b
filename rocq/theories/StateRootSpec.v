(** Vocabulary of the statements about the state commitment.  Nothing in here
    refers to rows, tables or the order of processing: a state is what contracts
    and classes there are, an update changes it, and its commitment is defined as
    the Starknet documentation does. *)
From Coq Require Import List Bool Arith NArith.
From Verif Require Import AList MerkleModel MerkleSpec VersionModel CommitModel StateRootModel.
Import ListNotations.

(** The state of Starknet.  A system contract (0x1, 0x2) has no class; it is there
    once an update names it. *)
Record world : Type := mkWorld {
  w_class : bits -> option felt;
  w_nonce : bits -> felt;
  w_storage : bits -> contents;
  w_system : bits -> bool;
  w_casm : bits -> option felt
}.

Definition genesis : world :=
  mkWorld (fun _ => None) (fun _ => 0%N) (fun _ => no_contents) (fun _ => false) (fun _ => None).

(** What an update says. *)
Definition contract_of (u : update) (a : bits) : option contract_update :=
  al_get bits_eqb a (u_contracts u).
Definition system_of (u : update) (a : bits) : option (list (bits * felt)) :=
  al_get bits_eqb a (u_system u).

(** The state after an update. *)
Definition apply_update (w : world) (u : update) : world :=
  mkWorld
    (fun a => match contract_of u a with
              | Some (mkContractUpdate _ (Some c) _) => Some c
              | _ => w_class w a
              end)
    (fun a => match contract_of u a with
              | Some (mkContractUpdate _ _ (Some n)) => n
              | _ => w_nonce w a
              end)
    (fun a => match contract_of u a, system_of u a with
              | Some c, _ => puts (w_storage w a) (c_storage c)
              | None, Some s => puts (w_storage w a) s
              | None, None => w_storage w a
              end)
    (fun a => match system_of u a with Some _ => true | None => w_system w a end)
    (fun k => match al_get bits_eqb k (u_migrated u), al_get bits_eqb k (u_declared u) with
              | Some h, _ => Some h
              | None, Some h => Some h
              | None, None => w_casm w k
              end).

Definition apply_updates (w : world) (us : list update) : world := fold_left apply_update us w.

(** An update as the types of the code have it: maps with one entry per key, keys
    of the length of the trees, system contracts apart from the others. *)
Definition keys {A} (m : list (bits * A)) : list bits := map fst m.
Definition lengths {A} (HEIGHT : nat) (m : list (bits * A)) : Prop :=
  forall k, In k (keys m) -> length k = HEIGHT.

Definition well_formed (HEIGHT : nat) (u : update) : Prop :=
  NoDup (keys (u_contracts u)) /\ NoDup (keys (u_system u)) /\
  NoDup (keys (u_declared u)) /\ NoDup (keys (u_migrated u)) /\
  lengths HEIGHT (u_contracts u) /\ lengths HEIGHT (u_system u) /\
  lengths HEIGHT (u_declared u) /\ lengths HEIGHT (u_migrated u) /\
  (forall a c, In (a, c) (u_contracts u) -> is_system a = false /\ lengths HEIGHT (c_storage c)) /\
  (forall a s, In (a, s) (u_system u) -> is_system a = true /\ lengths HEIGHT s).

(** Every contract the updates name has a class once they are applied. *)
Definition deployed (w : world) (us : list update) : Prop :=
  forall u a, In u us -> In a (keys (u_contracts u)) -> w_class (apply_updates w us) a <> None.

Section Commitment.
  Variable HEIGHT : nat.
  Variable hs : hashes.

  (** The storage root of a contract. *)
  Definition storage_root (w : world) (a : bits) : felt :=
    spec_root (pedersen hs) HEIGHT (w_storage w a).

  (** The leaf of a contract: H(H(H(class, storage root), nonce), 0). *)
  Definition leaf (class root nonce : felt) : felt :=
    pedersen hs (pedersen hs (pedersen hs class root) nonce) 0%N.

  (** The contract tree: a leaf for every contract there is. *)
  Definition state_contents (w : world) : contents :=
    fun a =>
      if is_system a then
        if w_system w a then leaf 0%N (storage_root w a) 0%N else 0%N
      else
        match w_class w a with
        | Some c => leaf c (storage_root w a) (w_nonce w a)
        | None => 0%N
        end.

  (** The class tree: a leaf for every class. *)
  Definition class_contents (w : world) : contents :=
    fun k => match w_casm w k with
             | Some casm => poseidon hs CLASS_LEAF_V0 casm
             | None => 0%N
             end.

  Definition storage_commitment (w : world) : felt := spec_root (pedersen hs) HEIGHT (state_contents w).
  Definition class_commitment (w : world) : felt := spec_root (poseidon hs) HEIGHT (class_contents w).

  (** The state commitment: zero for nothing at all, the storage commitment if
      there are no classes and the protocol is older than 0.14.0, otherwise the
      hash of both. *)
  Definition state_commitment (w : world) (v : version) : felt :=
    match storage_commitment w, class_commitment w with
    | 0%N, 0%N => 0%N
    | sc, 0%N => if version_lt v (Version 0 14 0 0) then sc
                 else poseidon_many hs [STATE_V0; sc; 0%N]
    | sc, cc => poseidon_many hs [STATE_V0; sc; cc]
    end.

  (** The version and the expected commitment of an arrival. *)
  Definition version_of (s : arrival) : version :=
    match s with Gateway _ v _ => v | Track _ v _ => v | Batch _ v _ => v end.
  Definition expected_of (s : arrival) : option felt :=
    match s with Gateway _ _ e => e | Track _ _ e => Some e | Batch _ _ e => Some e end.

  (** What may be stored: contracts have classes, and the commitment of the header
      is that of the state. *)
  Definition acceptable (w : world) (s : arrival) : Prop :=
    deployed w (blocks_of s) /\
    match expected_of s with
    | Some e => e = state_commitment (apply_updates w (blocks_of s)) (version_of s)
    | None => True
    end.

  Fixpoint all_acceptable (w : world) (l : list arrival) : Prop :=
    match l with
    | [] => True
    | s :: l' => acceptable w s /\ all_acceptable (apply_updates w (blocks_of s)) l'
    end.

  Fixpoint commitments (w : world) (l : list arrival) : list felt :=
    match l with
    | [] => []
    | s :: l' =>
        let w' := apply_updates w (blocks_of s) in
        state_commitment w' (version_of s) :: commitments w' l'
    end.

  (** The blocks of a history and the state they lead to. *)
  Definition all_blocks (l : list arrival) : list update := flat_map blocks_of l.
  Definition state_after (l : list arrival) : world := apply_updates genesis (all_blocks l).

  Definition is_batch (s : arrival) : bool := match s with Batch _ _ _ => true | _ => false end.

  (** A batch has a block, and (the part that is missing, see
      [C73_migrated_refuted]) none of its blocks migrates a class. *)
  Definition plain_batch (s : arrival) : Prop :=
    match s with
    | Batch us _ _ => us <> [] /\ forall u, In u us -> u_migrated u = []
    | _ => True
    end.

  (** ** Hash computations *)

  (** Two-argument hashes (with the length an edge adds) and the hash of a list. *)
  Inductive computation : Type :=
  | Ped (q : query)
  | Pos (q : query)
  | Many (l : list felt).

  Definition value (c : computation) : felt :=
    match c with
    | Ped q => query_value (pedersen hs) q
    | Pos q => query_value (poseidon hs) q
    | Many l => poseidon_many hs l
    end.

  Definition present (w : world) (a : bits) : Prop :=
    length a = HEIGHT /\
    if is_system a then w_system w a = true else w_class w a <> None.
  (** The class that goes into the leaf. *)
  Definition class_in_leaf (w : world) (a : bits) : felt :=
    match w_class w a with Some c => c | None => 0%N end.

  (** The computations a state commitment consists of. *)
  Inductive computed (w : world) : computation -> Prop :=
  | cp_state q : In q (root_queries (pedersen hs) HEIGHT (state_contents w)) -> computed w (Ped q)
  | cp_class q : In q (root_queries (poseidon hs) HEIGHT (class_contents w)) -> computed w (Pos q)
  | cp_storage a q : present w a ->
      In q (root_queries (pedersen hs) HEIGHT (w_storage w a)) -> computed w (Ped q)
  | cp_leaf1 a : present w a ->
      computed w (Ped (class_in_leaf w a, storage_root w a, 0%N))
  | cp_leaf2 a : present w a ->
      computed w (Ped (pedersen hs (class_in_leaf w a) (storage_root w a), w_nonce w a, 0%N))
  | cp_leaf3 a : present w a ->
      computed w (Ped (pedersen hs (pedersen hs (class_in_leaf w a) (storage_root w a)) (w_nonce w a),
                       0%N, 0%N))
  | cp_casm k casm : length k = HEIGHT -> w_casm w k = Some casm ->
      computed w (Pos (CLASS_LEAF_V0, casm, 0%N))
  | cp_top : computed w (Many [STATE_V0; storage_commitment w; class_commitment w]).

  (** No two different computations give one value, none gives zero. *)
  Definition no_collision (Q : computation -> Prop) : Prop :=
    (forall c1 c2, Q c1 -> Q c2 -> value c1 = value c2 -> c1 = c2) /\
    (forall c, Q c -> value c <> 0%N).

  (** Two states that cannot be told apart. *)
  Definition same_state (w1 w2 : world) : Prop :=
    (forall a, length a = HEIGHT ->
       w_class w1 a = w_class w2 a /\ w_nonce w1 a = w_nonce w2 a /\ w_system w1 a = w_system w2 a /\
       forall k, length k = HEIGHT -> w_storage w1 a k = w_storage w2 a k) /\
    (forall k, length k = HEIGHT -> w_casm w1 k = w_casm w2 k).
End Commitment.
