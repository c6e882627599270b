(* State updates, crates/common/src/state_update.rs.
   Felts (addresses, hashes, keys, values, nonces) are their numbers.  A HashMap is an
   association list with distinct keys whose order is the (arbitrary) iteration order; a
   HashSet is a list of distinct elements. *)
From Coq Require Import List Arith NArith Bool.
From Verif Require Import Radix AList SortedMap.
Import ListNotations.
Local Open Scope N_scope.

Notation nmap V := (list (N * V)).
Notation nget := (al_get N.eqb).
Notation nset := (al_set N.eqb).

(* enum ContractClassUpdate, state_update.rs:54-58 *)
Inductive class_update := Deploy (h : N) | Replace (h : N).

(* ContractClassUpdate::class_hash, state_update.rs:115-120 *)
Definition class_hash (c : class_update) : N := match c with Deploy x => x | Replace x => x end.

(* struct ContractUpdate, state_update.rs:40-47, and its Default *)
Record contract_update := ContractUpdate {
  cu_storage : nmap N;
  cu_class : option class_update;
  cu_nonce : option N
}.
Definition contract_default : contract_update := ContractUpdate [] None None.

(* struct StateUpdate, state_update.rs:19-29 (a SystemContractUpdate, 49-52, is its storage) *)
Record state_update := StateUpdate {
  su_block_hash : N;
  su_parent_commitment : N;
  su_commitment : N;
  su_contracts : nmap contract_update;
  su_system : nmap (nmap N);
  su_cairo : list N;
  su_sierra : nmap N;
  su_migrated : nmap N
}.

(* struct StateUpdateData, state_update.rs:31-38 *)
Record state_update_data := StateUpdateData {
  sd_contracts : nmap contract_update;
  sd_system : nmap (nmap N);
  sd_cairo : list N;
  sd_sierra : nmap N;
  sd_migrated : nmap N
}.

(* From<StateUpdate> for StateUpdateData, state_update.rs:430-440 *)
Definition to_data (u : state_update) : state_update_data :=
  StateUpdateData (su_contracts u) (su_system u) (su_cairo u) (su_sierra u) (su_migrated u).

(* change_count, state_update.rs:216-236 *)
Definition opt_count {A} (o : option A) : nat := match o with Some _ => 1 | None => 0 end.
Definition sum (l : list nat) : nat := fold_right Nat.add 0%nat l.
Definition change_count (u : state_update) : nat :=
  (length (su_cairo u) + length (su_sierra u)
   + sum (map (fun x => length (snd x)) (su_system u))
   + sum (map (fun x => length (cu_storage (snd x)) + opt_count (cu_class (snd x))
                        + opt_count (cu_nonce (snd x))) (su_contracts u)))%nat.

(* contract_nonce, state_update.rs:244-257 *)
Definition contract_nonce (u : state_update) (contract : N) : option N :=
  match nget contract (su_contracts u) with
  | None => None
  | Some x =>
      match cu_nonce x with
      | Some n => Some n
      | None => match cu_class x with Some (Deploy _) => Some 0 | _ => None end
      end
  end.

(* contract_class, state_update.rs:261-265 *)
Definition contract_class (u : state_update) (contract : N) : option N :=
  match nget contract (su_contracts u) with
  | None => None
  | Some x => option_map class_hash (cu_class x)
  end.

(* class_is_declared, state_update.rs:269-276 *)
Definition class_is_declared (u : state_update) (class : N) : bool :=
  existsb (N.eqb class) (su_cairo u) || al_mem N.eqb class (su_sierra u).

(* enum FoundStorageValue, state_update.rs:88-96 *)
Inductive found := FoundZero | FoundSet (v : N).

(* storage_value_with_provenance, state_update.rs:295-330; find_map over the entries of a
   map is a lookup *)
Definition storage_provenance (u : state_update) (contract key : N) : option found :=
  let first :=
    match nget contract (su_contracts u) with
    | None => None
    | Some x =>
        match nget key (cu_storage x) with
        | Some v => Some (FoundSet v)
        | None => match cu_class x with Some (Deploy _) => Some FoundZero | _ => None end
        end
    end in
  match first with
  | Some f => Some f
  | None =>
      match nget contract (su_system u) with
      | None => None
      | Some st => option_map FoundSet (nget key st)
      end
  end.

(* storage_value, state_update.rs:282-293 *)
Definition storage_value (u : state_update) (contract key : N) : option N :=
  option_map (fun f => match f with FoundZero => 0 | FoundSet v => v end)
             (storage_provenance u contract key).

(* state_diff_length, state_update.rs:342-356 *)
Definition contracts_length (m : nmap contract_update) : nat :=
  sum (map (fun x => length (cu_storage (snd x)) + opt_count (cu_nonce (snd x))
                     + opt_count (cu_class (snd x)))%nat m).
Definition system_length (m : nmap (nmap N)) : nat := sum (map (fun x => length (snd x)) m).
Definition state_diff_length (u : state_update) : nat :=
  (contracts_length (su_contracts u) + system_length (su_system u)
   + (length (su_cairo u) + length (su_sierra u) + length (su_migrated u)))%nat.

(* StateUpdateData::state_diff_length, state_update.rs:414-424 *)
Definition data_state_diff_length (d : state_update_data) : nat :=
  (contracts_length (sd_contracts d) + system_length (sd_system d)
   + (length (sd_cairo d) + length (sd_sierra d)))%nat.

(* StateUpdateData::is_empty, state_update.rs:401-406 *)
Definition is_nil {A} (l : list A) : bool := match l with [] => true | _ => false end.
Definition data_is_empty (d : state_update_data) : bool :=
  is_nil (sd_contracts d) && is_nil (sd_system d) && is_nil (sd_cairo d) && is_nil (sd_sierra d).

(* insert every entry of [other] into [m], as in the loops and extends of apply *)
Definition extend_map {V} (m other : nmap V) : nmap V :=
  fold_left (fun m kv => nset (fst kv) (snd kv) m) other m.
Definition extend_set (s other : list N) : list N :=
  fold_left (fun s x => if existsb (N.eqb x) s then s else x :: s) other s.

Definition get_or {V} (d : V) (o : option V) : V := match o with Some v => v | None => d end.

(* the body of the first loop of apply, state_update.rs:364-381 *)
Definition merge_contract (update other : contract_update) : contract_update :=
  ContractUpdate
    (extend_map (cu_storage update) (cu_storage other))
    (match cu_class other with Some c => Some c | None => cu_class update end)
    (match cu_nonce other with Some n => Some n | None => cu_nonce update end).

(* apply, state_update.rs:359-400: migrated_compiled_classes of [other] is not merged *)
Definition apply (u other : state_update) : state_update :=
  StateUpdate (su_block_hash other) (su_parent_commitment other) (su_commitment other)
    (fold_left (fun m kv => nset (fst kv)
        (merge_contract (get_or contract_default (nget (fst kv) m)) (snd kv)) m)
      (su_contracts other) (su_contracts u))
    (fold_left (fun m kv => nset (fst kv)
        (extend_map (get_or [] (nget (fst kv) m)) (snd kv)) m)
      (su_system other) (su_system u))
    (extend_set (su_cairo u) (su_cairo other))
    (extend_map (su_sierra u) (su_sierra other))
    (su_migrated u).

(* ---- state_diff_commitment::compute, state_update.rs:567-668 ---- *)

(* the tag written first, line 590 *)
Definition STATE_DIFF_TAG : N := rval 256 (text "STARKNET_STATE_DIFF0").

Definition filter_map {A B} (f : A -> option B) (l : list A) : list B :=
  flat_map (fun x => match f x with Some y => [y] | None => [] end) l.

Definition bt_map {V} (l : nmap V) : nmap V := bt_collect N.ltb l.

(* lengths are written as u64: a collection has fewer than 2^64 elements *)
Definition write_pairs (m : list (N * N)) : list N :=
  N.of_nat (length m) :: flat_map (fun kv => [fst kv; snd kv]) m.

(* deployed_contracts, lines 592-605 *)
Definition sdc_deployed (cs : nmap contract_update) : list (N * N) :=
  bt_map (filter_map (fun x => option_map (fun c => (fst x, class_hash c)) (cu_class (snd x))) cs).
(* declared_classes, lines 607-616: a BTreeSet of pairs *)
Definition sdc_declared (sierra migrated : nmap N) : list (N * N) :=
  bt_set pair_ltb (sierra ++ migrated).
(* deprecated_declared_classes, lines 618-623 *)
Definition sdc_cairo (cairo : list N) : list N :=
  bt_set N.ltb cairo.
(* storage_diffs, lines 627-648 *)
Definition sdc_storage (cs : nmap contract_update) (sys : nmap (nmap N)) : list (N * list (N * N)) :=
  bt_map (filter_map (fun x => if is_nil (snd x) then None else Some (fst x, bt_map (snd x)))
    (map (fun x => (fst x, cu_storage (snd x))) cs ++ sys)).
(* nonces, lines 658-661 *)
Definition sdc_nonces (cs : nmap contract_update) : list (N * N) :=
  bt_map (filter_map (fun x => option_map (fun n => (fst x, n)) (cu_nonce (snd x))) cs).

(* the sequence of field elements written to the hasher *)
Definition sdc_sequence (d : state_update_data) : list N :=
  STATE_DIFF_TAG
  :: write_pairs (sdc_deployed (sd_contracts d))
  ++ write_pairs (sdc_declared (sd_sierra d) (sd_migrated d))
  ++ (let c := sdc_cairo (sd_cairo d) in N.of_nat (length c) :: c)
  ++ [1; 0]
  ++ (let s := sdc_storage (sd_contracts d) (sd_system d) in
      N.of_nat (length s) :: flat_map (fun x => fst x :: write_pairs (snd x)) s)
  ++ write_pairs (sdc_nonces (sd_contracts d)).

(* compute: [poseidon] is PoseidonHasher over the sequence (C06) *)
Definition state_diff_commitment (poseidon : list N -> N) (d : state_update_data) : N :=
  poseidon (sdc_sequence d).
