(* What the execution of a proposal reads: decided blocks that are not committed yet, on top of the database.
   crates/executor/src/state_reader/storage_adapter/concurrent.rs. *)
From Coq Require Import List NArith Bool.
From Verif Require Import AList StateUpdateModel ChainModel.
Import ListNotations.
Local Open Scope N_scope.

(* DecidedBlocks, common/src/l2.rs:42-51: a BTreeMap in ascending order. Of a block only its state update;
   its declared_classes are the Sierra classes of the update, with the class hash for the definitions. *)
Definition decided : Type := list (N * l2_block).

(* Iterator::find_map *)
Fixpoint find_map {A B} (f : A -> option B) (l : list A) : option B :=
  match l with
  | [] => None
  | x :: r => match f x with Some y => Some y | None => find_map f r end
  end.

(* rev_blocks_by_id, concurrent.rs:436-450 *)
Definition rev_blocks_by_id (ds : decided) (b : block_id) : decided :=
  match b with
  | Number n => rev (filter (fun p => fst p <=? n) ds)
  | Hash _ => []
  | Latest => rev ds
  end.
(* find_class, concurrent.rs:452-461: the number of the block *)
Definition find_class (blocks : decided) (x : N) : option N :=
  find_map (fun p => find_map (fun c => if fst c =? x then Some (fst p) else None) (sd_sierra (lb_data (snd p)))) blocks.
(* find_contract_update, concurrent.rs:463-468 *)
Definition find_contract_update (blocks : decided) (a : N) : option contract_update :=
  find_map (fun p => nget a (sd_contracts (lb_data (snd p)))) blocks.

(* decided::storage_value, concurrent.rs:507-533 *)
Definition decided_storage (ds : decided) (b : block_id) (a k : N) : option N :=
  find_map (fun p =>
    let u := lb_data (snd p) in
    match find_map (fun e : N * nmap N => if fst e =? a then Some (nget k (snd e)) else None)
                   (map (fun e => (fst e, cu_storage (snd e))) (sd_contracts u) ++ sd_system u) with
    | Some v => v
    | None => None
    end) (rev_blocks_by_id ds b).
(* decided::contract_nonce, concurrent.rs:535-543 *)
Definition decided_nonce (ds : decided) (b : block_id) (a : N) : option N :=
  match find_contract_update (rev_blocks_by_id ds b) a with Some u => cu_nonce u | None => None end.
(* decided::contract_class_hash, concurrent.rs:545-554 *)
Definition decided_class_hash (ds : decided) (b : block_id) (a : N) : option N :=
  match find_contract_update (rev_blocks_by_id ds b) a with Some u => option_map class_hash (cu_class u) | None => None end.
(* decided::class_definition_at_with_block_number, concurrent.rs:497-505: the number *)
Definition decided_class_at (ds : decided) (b : block_id) (x : N) : option N := find_class (rev_blocks_by_id ds b) x.

Definition or_else {A} (o p : option A) : option A := match o with Some v => Some v | None => p end.
(* storage_value, concurrent.rs:208-234. The channel to db_thread, 314-408, is left out: it answers in order *)
Definition storage_value (d : db) (ds : decided) (b : block_id) (a k : N) : option N :=
  or_else (decided_storage ds b a k) (lookup_storage d b a k).
(* contract_nonce, concurrent.rs:236-253 *)
Definition contract_nonce (d : db) (ds : decided) (a : N) (b : block_id) : option N :=
  or_else (decided_nonce ds b a) (lookup_nonce d b a).
(* contract_class_hash, concurrent.rs:255-272 *)
Definition contract_class_hash (d : db) (ds : decided) (b : block_id) (a : N) : option N :=
  or_else (decided_class_hash ds b a) (lookup_class d b a).
(* class_definition_at_with_block_number, concurrent.rs:185-206 *)
Definition class_definition_at (d : db) (ds : decided) (b : block_id) (x : N) : option N :=
  or_else (decided_class_at ds b x) (lookup_declared_at d b x).

(* BTreeMap::insert *)
Fixpoint bt_insert (n : N) (b : l2_block) (ds : decided) : decided :=
  match ds with
  | [] => [(n, b)]
  | (k, v) :: r => if n <? k then (n, b) :: ds else if n =? k then (n, b) :: r else (k, v) :: bt_insert n b r
  end.
(* the consensus task next to the sync task: a block is decided, p2p_task.rs:545-570; the sync task handles
   an event; remove_decided_block, p2p_task.rs:750-766, once the commit is confirmed *)
Inductive step_ := Decide (n : N) (b : l2_block) | Synced (e : sync_event) | Remove (n : N).
Record node := Node { n_events : list sync_event; n_decided : decided }.
Definition act (s : node) (x : step_) : node :=
  match x with
  | Decide n b => Node (n_events s) (bt_insert n b (n_decided s))
  | Synced e => Node (n_events s ++ [e]) (n_decided s)
  | Remove n => Node (n_events s) (filter (fun p => negb (fst p =? n)) (n_decided s))
  end.
Definition acts (xs : list step_) : node := fold_left act xs (Node [] []).
