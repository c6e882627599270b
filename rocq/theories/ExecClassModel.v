(* What contract execution reads: the state reader of crates/executor/src/state_reader.rs over the
   database of ChainModel.v, and the cache of classes shared by all executions,
   crates/executor/src/lru_cache.rs. Without the cairo-native feature, and without the blocks of
   DecidedBlocks (storage_adapter/concurrent.rs). *)
From Coq Require Import List NArith Bool.
From Verif Require Import AList StateUpdateModel ChainModel.
Import ListNotations.
Local Open Scope N_scope.

Section Exec.
(* RunnableCompiledClass, and what a stored definition is parsed into. The class hash determines the
   definition; that parsing fails, or that a row has no definition yet, is not modelled. *)
Variable D : Type.
Variable code : N -> D.

(* Entry, lru_cache.rs:10-15, with its key *)
Record entry : Type := Entry { e_hash : N; e_definition : D; e_height : N }.
(* LruContractCache, lru_cache.rs:17-23: the one last used is first *)
Definition cache : Type := list entry.
Definition cache_size : nat := 128.
Definition without (x : N) (c : cache) : cache := filter (fun e => negb (e_hash e =? x)) c.
(* get, lru_cache.rs:29-31; cache_get of the crate `cached` *)
Definition cache_get (x : N) (c : cache) : option entry * cache :=
  match find (fun e => e_hash e =? x) c with
  | Some e => (Some e, e :: without x c)
  | None => (None, c)
  end.
(* set, lru_cache.rs:33-46; cache_set of the crate `cached`, which makes room before it looks for the key *)
Definition cache_set (x : N) (d : D) (height : N) (c : cache) : cache :=
  let c := if Nat.leb cache_size (length c) then removelast c else c in
  Entry x d height :: without x c.

(* PathfinderStateReader, state_reader.rs:42-57, the fields read here *)
Record reader : Type := Reader { r_block : option N; r_ignore : bool }.

(* get_storage_at, state_reader.rs:215-248 *)
Definition get_storage_at (d : db) (r : reader) (a k : N) : N :=
  match r_block r with
  | None => 0
  | Some n => match lookup_storage d (Number n) a k with Some v => v | None => 0 end
  end.
(* get_nonce_at, state_reader.rs:250-275 *)
Definition get_nonce_at (d : db) (r : reader) (a : N) : N :=
  match r_block r with
  | None => 0
  | Some n => match lookup_nonce d (Number n) a with Some v => v | None => 0 end
  end.
(* get_class_hash_at, state_reader.rs:277-305 *)
Definition get_class_hash_at (d : db) (r : reader) (a : N) : N :=
  match r_block r with
  | None => 0
  | Some n => match lookup_class d (Number n) a with Some v => v | None => 0 end
  end.

(* non_cached_compiled_contract_class, state_reader.rs:81-188; None is UndeclaredClassHash.
   class_definition_with_block_number, storage/src/connection/class.rs:193-222, has no condition on the block. *)
Definition non_cached (d : db) (r : reader) (x : N) : option (option N * D) :=
  match r_block r with
  | None => None
  | Some n =>
      if r_ignore r then
        match nget x (d_defs d) with Some h => Some (h, code x) | None => None end
      else
        match lookup_declared_at d (Number n) x with Some h => Some (Some h, code x) | None => None end
  end.
(* get_compiled_class, state_reader.rs:307-334, up to the call of set: the answer, the cache, and what is
   to be set. The cache is locked for each of get and set, not from one to the other. *)
Definition get_compiled_class (d : db) (r : reader) (x : N) (c : cache) : option D * cache * option entry :=
  let (hit, c) := cache_get x c in
  let miss :=
    match non_cached d r x with
    | None => (None, c, None)
    | Some (Some h, v) => (Some v, c, Some (Entry x v h))
    | Some (None, v) => (Some v, c, None)
    end in
  match hit, r_block r with
  | Some e, Some n => if e_height e <=? n then (Some (e_definition e), c, None) else miss
  | _, _ => miss
  end.

(* ---- executions next to the sync task. An execution reads the database as of when its transaction
   began: as it was after the first `seen` events. ---- *)
Record world : Type := World { w_events : list sync_event; w_cache : cache; w_sets : list entry }.
Inductive op : Type :=
| Sync (e : sync_event)
| Read (seen : nat) (r : reader) (x : N)
| Set_ (k : nat).
Definition snapshot (m : history_mode) (w : world) (seen : nat) : db := c_db (run m (firstn seen (w_events w))).
Definition answer (m : history_mode) (w : world) (seen : nat) (r : reader) (x : N) : option D :=
  fst (fst (get_compiled_class (snapshot m w seen) r x (w_cache w))).
Definition exec (m : history_mode) (w : world) (o : op) : world :=
  match o with
  | Sync e => World (w_events w ++ [e]) (w_cache w) (w_sets w)
  | Read seen r x =>
      let '(_, c, s) := get_compiled_class (snapshot m w seen) r x (w_cache w) in
      World (w_events w) c (match s with Some e => e :: w_sets w | None => w_sets w end)
  | Set_ k =>
      match nth_error (w_sets w) k with
      | Some e => World (w_events w) (cache_set (e_hash e) (e_definition e) (e_height e) (w_cache w))
                        (firstn k (w_sets w) ++ skipn (S k) (w_sets w))
      | None => w
      end
  end.
Definition world0 : world := World [] [] [].
Definition execs (m : history_mode) (ops : list op) : world := fold_left (exec m) ops world0.
End Exec.
