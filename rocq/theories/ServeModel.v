(** Serving blocks to peers and fetching them from peers: the sync protocols for transactions, state
    diffs, classes and events.
    crates/pathfinder/src/p2p_network/sync/sync_handlers.rs (the server),
    crates/p2p/src/sync/client/peer_agnostic.rs (the client).

    The transport is not modelled: what a client receives from a peer is a list of responses. *)
From Coq Require Import List Bool Arith NArith.
Import ListNotations.
Local Open Scope N_scope.

(** ** The server *)

(** p2p_proto/src/sync/common.rs: Direction, Iteration; the start is a number or a hash.  A step is
    at least 1 (29-47). *)
Inductive direction := Forward | Backward.
Inductive start_at := ByNumber (n : N) | ByHash (h : N).
Record iteration := Iteration { q_start : start_at; q_dir : direction; q_limit : N; q_step : N }.

(** TransactionsResponse, StateDiffsResponse, ClassesResponse, EventsResponse: an item or Fin; a
    client may also see the stream fail. *)
Inductive response (R : Type) := Item (r : R) | Fin | Failed.
Arguments Item {R} r.
Arguments Fin {R}.
Arguments Failed {R}.

(** What a block handler finds in the database: an error, no such block, or what it sends. *)
Inductive found (R : Type) := DbError | NoBlock | Block (l : list R).
Arguments DbError {R}.
Arguments NoBlock {R}.
Arguments Block {R} l.

(** common/src/lib.rs:297-301 BlockNumber::new: at most i64::MAX *)
Definition MAX_NUMBER : N := 2 ^ 63 - 1.
Definition block_number (n : N) : option N := if n <=? MAX_NUMBER then Some n else None.
(** sync_handlers.rs:35-36 *)
Definition SERVER_MAX : N := 100.

Section Server.
  Context {R : Type}.
  (** the block handler on the database as of the request's transaction, by number; block_id by
      hash *)
  Variable db : N -> found R.
  Variable by_hash : N -> option N.

  (** sync_handlers.rs:395-403 get_start_block_number *)
  Definition get_start_block_number (s : start_at) : option N :=
    match s with ByNumber n => block_number n | ByHash h => by_hash h end.

  (** sync_handlers.rs:450-469 get_next_block_number.  The additions are on u64: a sum above u64::MAX
      is also above MAX_NUMBER. *)
  Definition get_next_block_number (n : N) (step : N) (d : direction) : option N :=
    match d with
    | Forward => block_number (n + step)
    | Backward => if step <=? n then Some (n - step) else None
    end.

  (** sync_handlers.rs:366-388, with the number of turns left *)
  Fixpoint turns (k : nat) (n : N) (step : N) (d : direction) : list (response R) :=
    match k with
    | O => [Fin]
    | S k' =>
        match db n with
        | DbError => []              (* the [?] returns before Fin *)
        | NoBlock => [Fin]
        | Block l =>
            map Item l ++
            match k' with
            | O => [Fin]
            | S _ => match get_next_block_number n step d with
                     | Some n' => turns k' n' step d
                     | None => [Fin]
                     end
            end
        end
    end.

  (** sync_handlers.rs:335-393 iterate: all that is sent *)
  Definition iterate (q : iteration) : list (response R) :=
    if q_limit q =? 0 then [Fin]
    else match get_start_block_number (q_start q) with
         | None => [Fin]
         | Some n => turns (N.to_nat (N.min (q_limit q) SERVER_MAX)) n (q_step q) (q_dir q)
         end.
End Server.

(** ** The client: one stream of blocks from many peers *)

(** peer_agnostic.rs:600-601 *)
Definition CLIENT_MAX : N := 500.

(** What a handler makes of an item: what it has now and how many of the expected items this was; or
    the peer is given up; or a panic. *)
Inductive handled (C A : Type) := Got (c : C) (a : A) (w : nat) | Refused | Panicked.
Arguments Got {C A} c a w.
Arguments Refused {C A}.
Arguments Panicked {C A}.

Section Client.
  (** [A] is what is collected for a block and [C] what is kept from block to block of one answer. *)
  Context {R C A : Type}.
  Variable handle : C -> A -> R -> handled C A.
  Variable no_carry : C.
  Variable empty : A.

  Inductive taken := Whole (c : C) (a : A) (rest : list (response R)) | GiveUp | Crash.

  (** The inner loop: 793-805, 975-986, 1200-1212, 1401-1413.  State diffs subtract the parts of an
      item one after the other (1028, 1052, 1057, 1066); what was collected is dropped if one
      fails, so their sum matters only. *)
  Fixpoint take (c : C) (a : A) (left : nat) (rs : list (response R)) : taken :=
    match left with
    | O => Whole c a rs
    | S _ =>
        match rs with
        | Item r :: rs' =>
            match handle c a r with
            | Got c' a' w => if (w <=? left)%nat then take c' a' (left - w) rs' else GiveUp
            | Refused => GiveUp
            | Panicked => Crash
            end
        | Fin :: _ | Failed :: _ | [] => GiveUp
        end
    end.

  (** [Running next count counts]: the next block, the number of items it has, and the rest of the
      stream of these numbers.  [Stopped]: the stream ended with an error. *)
  Inductive status := Running (next : N) (count : nat) (counts : list (option nat)) | Ended | Stopped | Crashed.
  Record client := Client { k_out : list (N * A); k_status : status }.

  (** The loop over the blocks with one peer: 789-822, 971-1003, 1196-1229, 1397-1430; yield_block
      886-925, 1110-1149, 1308-1348, 1498-1536.  The receiver of the stream is not dropped.  Classes
      are sent one by one. *)
  Fixpoint blocks (stop : N) (counts : list (option nat)) (c : C) (next : N) (count : nat)
      (rs : list (response R)) (out : list (N * A)) : client :=
    match take c empty count rs with
    | GiveUp => Client out (Running next count counts)
    | Crash => Client out Crashed
    | Whole c' a rs' =>
        let out' := out ++ [(next, a)] in
        if next =? stop then Client out' Ended
        else match counts with
             | Some n :: counts' => blocks stop counts' c' (next + 1) n rs' out'
             | None :: _ | [] => Client out' Stopped
             end
    end.

  (** make_request: 863-877, 1091-1105, 1235-1249, 1436-1450.  [start.abs_diff(stop)] with the
      start at most the stop. *)
  Definition make_request (next stop : N) : iteration :=
    Iteration (ByNumber next) Forward (N.min (stop - next + 1) CLIENT_MAX) 1.

  (** One peer: the request fails, or this is received.  Nothing happens once the stream has ended. *)
  Definition session (stop : N) (k : client) (answer : option (list (response R))) : client :=
    match k_status k, answer with
    | Running next count counts, Some rs =>
        if stop <? next then Client (k_out k) Ended
        else blocks stop counts no_carry next count rs (k_out k)
    | _, _ => k
    end.

  (** 762-771: the first number *)
  Definition begin (start : N) (counts : list (option nat)) : client :=
    match counts with
    | Some n :: counts' => Client [] (Running start n counts')
    | None :: _ | [] => Client [] Stopped
    end.

  Definition stream (start stop : N) (counts : list (option nat))
      (answers : list (option (list (response R)))) : client :=
    fold_left (session stop) answers (begin start counts).
End Client.
Arguments Client {A} _ _.
Arguments k_out {A} _.
Arguments k_status {A} _.

(** ** The handlers *)

(** 831-861: the transaction and its receipt with the index in the block *)
Definition handle_tx {D T : Type} (parse : D -> nat -> option T) (_ : unit) (a : list T) (d : D)
    : handled unit (list T) :=
  match parse d (length a) with Some t => Got tt (a ++ [t]) 1 | None => Refused end.

(** 1254-1303: a class definition *)
Definition handle_class {D T : Type} (parse : D -> option T) (_ : unit) (a : list T) (d : D)
    : handled unit (list T) :=
  match parse d with Some t => Got tt (a ++ [t]) 1 | None => Refused end.

(** 1455-1493: events with the hash of their transaction are grouped by it *)
Fixpoint push_last {E : Type} (l : list (N * list E)) (e : E) : option (list (N * list E)) :=
  match l with
  | [] => None                    (* .last_mut().expect("not empty") *)
  | [(h, es)] => Some [(h, es ++ [e])]
  | x :: l' => option_map (cons x) (push_last l' e)
  end.
Definition handle_event {E : Type} (current : option N) (a : list (N * list E)) (d : N * E)
    : handled (option N) (list (N * list E)) :=
  let (h, e) := d in
  let new := Got (Some h) (a ++ [(h, [e])]) 1 in
  match current with
  | Some x => if x =? h then match push_last a e with Some a' => Got current a' 1 | None => Panicked end else new
  | None => new
  end.

(** *** State diffs *)

(** common/src/state_update.rs: the update of a contract; its class is deployed or replaced. *)
Inductive class_update := Deploy (h : N) | Replace (h : N).
Definition class_hash (c : class_update) : N := match c with Deploy h | Replace h => h end.
Record contract := Contract { c_storage : list (N * N); c_nonce : option N; c_class : option class_update }.
(** StateUpdateData: maps are lists with different keys. *)
Record diff := Diff {
  d_contracts : list (N * contract);
  d_system : list (N * list (N * N));
  d_cairo : list N;
  d_sierra : list (N * N);
  d_migrated : list (N * N)
}.
(** StateDiffsResponse::ContractDiff, DeclaredClass *)
Inductive diff_item :=
| ContractDiff (address : N) (nonce class : option N) (values : list (N * N))
| DeclaredClass (class : N) (casm : option N).

(** common/src/state_update.rs:333-347: what the header says, as taken from the gateway's update *)
Definition opt {X} (o : option X) : nat := match o with Some _ => 1 | None => 0 end.
Definition contract_length (c : contract) : nat := length (c_storage c) + opt (c_nonce c) + opt (c_class c).
Definition state_diff_length (d : diff) : nat :=
  list_sum (map (fun x => contract_length (snd x)) (d_contracts d)) +
  list_sum (map (fun x => length (snd x)) (d_system d)) +
  length (d_cairo d) + length (d_sierra d) + length (d_migrated d).

(** sync_handlers.rs:219-285 get_state_diff *)
Definition diff_items (d : diff) : list diff_item :=
  map (fun x => ContractDiff (fst x) (c_nonce (snd x)) (option_map class_hash (c_class (snd x)))
                             (c_storage (snd x))) (d_contracts d) ++
  map (fun x => ContractDiff (fst x) None None (snd x)) (d_system d) ++
  map (fun h => DeclaredClass h None) (d_cairo d) ++
  map (fun x => DeclaredClass (fst x) (Some (snd x))) (d_sierra d).

(** maps: entry(k).or_default() and a change *)
Fixpoint upsert {V : Type} (k : N) (f : option V -> V) (m : list (N * V)) : list (N * V) :=
  match m with
  | [] => [(k, f None)]
  | (k', v) :: m' => if k =? k' then (k', f (Some v)) :: m' else (k', v) :: upsert k f m'
  end.
Definition insert {V : Type} (k : N) (v : V) := upsert k (fun _ => v).
Definition insert_all (vs : list (N * N)) (m : list (N * N)) : list (N * N) :=
  fold_left (fun m kv => insert (fst kv) (snd kv) m) vs m.
(** HashSet::insert *)
Definition add (h : N) (l : list N) : list N := if existsb (N.eqb h) l then l else l ++ [h].

(** common/src/lib.rs:660-662 *)
Definition is_system (a : N) : bool := (a =? 1) || (a =? 2).

(** peer_agnostic.rs:1012-1089 *)
Definition handle_diff (_ : unit) (d : diff) (i : diff_item) : handled unit diff :=
  match i with
  | ContractDiff a nonce class values =>
      if is_system a then
        Got tt (Diff (d_contracts d)
                     (upsert a (fun o => insert_all values (match o with Some s => s | None => [] end)) (d_system d))
                     (d_cairo d) (d_sierra d) (d_migrated d))
            (length values)
      else
        Got tt (Diff (upsert a (fun o =>
                        let c := match o with Some c => c | None => Contract [] None None end in
                        Contract (insert_all values (c_storage c))
                                 (match nonce with Some n => Some n | None => c_nonce c end)
                                 (match class with Some h => Some (Deploy h) | None => c_class c end))
                      (d_contracts d))
                     (d_system d) (d_cairo d) (d_sierra d) (d_migrated d))
            (length values + opt nonce + opt class)
  | DeclaredClass h (Some casm) =>
      Got tt (Diff (d_contracts d) (d_system d) (d_cairo d) (insert h casm (d_sierra d)) (d_migrated d)) 1
  | DeclaredClass h None =>
      Got tt (Diff (d_contracts d) (d_system d) (add h (d_cairo d)) (d_sierra d) (d_migrated d)) 1
  end.
Definition no_diff : diff := Diff [] [] [] [] [].

(** *** One block: peer_agnostic.rs:333-461 state_diff_for_block, after a peer has answered.  [None]: an
    error, or the answer ends before Fin. *)
Fixpoint state_diff_for_block (d : diff) (left : nat) (rs : list (response diff_item)) : option diff :=
  match rs with
  | Item i :: rs' =>
      match handle_diff tt d i with
      | Got _ d' w => if (w <=? left)%nat then state_diff_for_block d' (left - w) rs' else None
      | _ => None
      end
  | Fin :: _ => match left with O => Some d | S _ => None end
  | Failed :: _ | [] => None
  end.
