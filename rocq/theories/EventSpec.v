(* Vocabulary for the statements about event queries. *)
From Coq Require Import List NArith PeanoNat Bool.
From Verif Require Import BloomModel EventModel.
Import ListNotations.
Local Open Scope N_scope.

(* The events a user asks for: from one of the addresses, if any are given, and with a key of
   each non-empty group at the position of the group.  Empty groups match any key; with at
   least one non-empty group, events with fewer keys than groups are left out. *)
Definition wanted (addresses : list N) (keys : list (list N)) (e : event) : Prop :=
  (addresses = [] \/ In (ev_from e) addresses) /\
  ((forall g, In g keys -> g = []) \/
   ((length keys <= length (ev_keys e))%nat /\
    forall i g, nth_error keys i = Some g -> g = [] \/ exists k, nth_error (ev_keys e) i = Some k /\ In k g)).

(* The same without the rule about events with fewer keys than groups. *)
Definition wanted_by_position (addresses : list N) (keys : list (list N)) (e : event) : Prop :=
  (addresses = [] \/ In (ev_from e) addresses) /\
  forall i g, nth_error keys i = Some g -> g = [] \/ exists k, nth_error (ev_keys e) i = Some k /\ In k g.

(* All events of blocks from .. from + count - 1 of a chain, in order, each with its place. *)
Definition emitted_at (n : N) (b : block) : list emitted :=
  flat_map (fun tx : (N * N) * list event =>
    map (fun i => mkEmitted (nth i (snd tx) (mkEvent 0 [] [])) (b_hash b) n (fst tx) i) (seq 0 (length (snd tx)))) (b_txs b).
Definition emitted_in (chain : list block) (from count : nat) : list emitted :=
  flat_map (fun i => match nth_error chain i with Some b => emitted_at (N.of_nat i) b | None => [] end) (seq from count).
Definition emitted_between (chain : list block) (from to : N) : list emitted :=
  emitted_in chain (N.to_nat from) (N.to_nat (to + 1) - N.to_nat from).

Section Spec.
  Variables bloom_bytes range_bytes : nat.
  Variables sip0 sip1 : N -> N.

  (* The aggregate made of these blocks. *)
  Definition filter_of (from : N) (blocks : list (N * block)) : option aggregate :=
    fold_left (fun a nb => match a with
                           | Some a => agg_insert range_bytes a (events_bloom bloom_bytes sip0 sip1 (block_events (snd nb))) (fst nb)
                           | None => None
                           end) blocks (Some (agg_new bloom_bytes range_bytes from)).

  (* A filter has the events of block number n: whatever is asked for, if one of these events
     is wanted then the block is a candidate. *)
  Definition contains (a : aggregate) (n : N) (b : block) : Prop :=
    forall addresses keys e, In e (block_events b) -> wanted addresses keys e -> (length keys <= 16)%nat ->
      In n (check bloom_bytes range_bytes sip0 sip1 a addresses keys).
  Definition in_range (a : aggregate) (n : N) : Prop := from_block a <= n <= to_block a.

  (* What happens to a node: a new block, a reorg (from the given block on), a query that
     changes the cache, and restarts, after an orderly shutdown or a crash. *)
  Inductive op :=
  | Insert (b : block)
  | Reorg (tail : N)
  | Query (start_block end_block : N) (keep : aggregate -> bool)
  | Restart
  | Crash.

  (* None is a panic; a reorg of a block that is not stored does nothing (sync.rs:1550-1558). *)
  Definition step (s : state) (o : op) : option state :=
    match o with
    | Insert b => insert_block bloom_bytes range_bytes sip0 sip1 s b
    | Reorg tail => if tail <? height (s_db s) then reorg bloom_bytes range_bytes sip0 sip1 s tail else Some s
    | Query start_block end_block keep => Some (load_caches range_bytes s start_block end_block keep)
    | Restart => start bloom_bytes range_bytes sip0 sip1 (s_db (shutdown s))
    | Crash => start bloom_bytes range_bytes sip0 sip1 (s_db s)
    end.
  Definition steps (s : option state) (ops : list op) : option state :=
    fold_left (fun s o => match s with Some s => step s o | None => None end) ops s.
  Definition node (ops : list op) : option state :=
    steps (start bloom_bytes range_bytes sip0 sip1 (new_db bloom_bytes range_bytes)) ops.

  (* The chain after these operations. *)
  Definition chain_step (chain : list block) (o : op) : list block :=
    match o with
    | Insert b => chain ++ [b]
    | Reorg tail => firstn (N.to_nat tail) chain
    | _ => chain
    end.
  Definition chain_of (ops : list op) : list block := fold_left chain_step ops [].

  (* No crash after a reorg, unless there was an orderly restart, with a chain that is not
     empty, in between. *)
  Fixpoint orderly (chain : list block) (reorged : bool) (ops : list op) : Prop :=
    match ops with
    | [] => True
    | o :: ops =>
        (o = Crash -> reorged = false) /\
        orderly (chain_step chain o)
          (match o with Reorg _ => true | Restart => reorged && is_nil chain | _ => reorged end) ops
    end.

  (* Following continuation tokens from (from, offset) until there is none: the pages. *)
  Inductive paged (ask : option N -> nat -> result) : option N -> nat -> list (list emitted) -> Prop :=
  | paged_last from offset evs :
      ask from offset = ROk (mkPage evs None) -> paged ask from offset [evs]
  | paged_more from offset evs t rest :
      ask from offset = ROk (mkPage evs (Some t)) -> paged ask (Some (t_block t)) (t_offset t) rest ->
      paged ask from offset (evs :: rest).

  (* The query for one page. *)
  Definition ask (pruning : bool) (limit : N) (s : state) (to : option N) (addresses : list N) (keys : list (list N))
      (page_size : nat) (from : option N) (offset : nat) : result :=
    events bloom_bytes range_bytes sip0 sip1 pruning limit (s_db s) (s_cache s) (s_running s)
      (mkConstraints from to addresses keys page_size offset).
End Spec.
