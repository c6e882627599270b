(* Model of the map of consensus engines, one per height, their pruning and their recovery
   at start: crates/consensus/src/lib.rs:325-333, 461-605, 608-645, 672-864 and
   crates/consensus/src/internal.rs:110-180, 355-465.

   The Malachite state machine inside an engine is not modelled: whatever it is fed, it may
   answer with any list of effects, which are arguments of the operations below.  Of an
   engine only what handling these effects changes is kept: its output queue and whether a
   decision was logged.  Commands other than StartHeight only reach Malachite.  HashMap
   iteration (lib.rs:735) goes in list order; the order only shows in the order of queued
   events.  Files can always be opened, written and deleted. *)
From Coq Require Import List NArith Bool Permutation.
From Verif Require Import AList WalModel.
Import ListNotations.
Local Open Scope N_scope.

(* ConsensusEvent, lib.rs: decisions and everything else. *)
Inductive event := EvDecision (height value : N) | EvOther (body : N).

(* The effects of Malachite that change modelled state, internal.rs:355-465: Decide,
   WalAppend (never of a decision, internal/wal.rs), and the ones that queue an event. *)
Inductive effect := FxDecide (height value : N) | FxWal (body : N) | FxEmit (body : N).

(* InternalConsensus, internal.rs: the WAL's has_decision flag and the output queue. *)
Record engine := mkEngine { decided : bool; out : list event }.

(* InternalConsensus::new, internal.rs:80-108, on a FileWalSink::new, wal.rs:94-108. *)
Definition new_engine : engine := mkEngine false [].

(* handle_effect, internal.rs:362-380 (Decide), 459-462 (WalAppend) and the pushes onto the
   output queue: the engine after it and the WAL operations done. *)
Definition handle_effect (h : N) (st : engine * list wal_op) (fx : effect) : engine * list wal_op :=
  let (e, ws) := st in
  match fx with
  | FxDecide ch v => (mkEngine true (out e ++ [EvDecision ch v]), ws ++ [WAppend h (Decision ch v)])
  | FxWal b => (e, ws ++ [WAppend h (Other b)])
  | FxEmit b => (mkEngine (decided e) (out e ++ [EvOther b]), ws)
  end.
Definition run_effects (h : N) (e : engine) (fxs : list effect) : engine * list wal_op :=
  fold_left (handle_effect h) fxs (e, []).

(* poll_internal, internal.rs:183-262: handles the effects of due timeouts and of one
   command, then pops an event. *)
Definition poll_internal (h : N) (e : engine) (fxs : list effect) : engine * list wal_op * option event :=
  let (e, ws) := run_effects h e fxs in
  match out e with
  | [] => (e, ws, None)
  | ev :: rest => (mkEngine (decided e) rest, ws, Some ev)
  end.

(* Consensus, lib.rs:325-333, together with the WAL directory, represented by the
   operations that made it (WalModel.wal_run). *)
Record node := mkNode {
  engines : list (N * engine);
  event_queue : list event;
  min_kept : option N;
  last_decided : option N;
  wal : list wal_op }.

Definition new_node (w : list wal_op) : node := mkNode [] [] None None w.

Definition active (n : node) (h : N) : option engine := al_get N.eqb h (engines n).

(* is_height_active, lib.rs:853-855 *)
Definition is_height_active (n : node) (h : N) : bool :=
  match active n h with Some _ => true | None => false end.

(* max_active_height, lib.rs:862-864 *)
Definition max_height (hs : list N) : option N :=
  fold_left (fun m h => match m with Some c => Some (N.max c h) | None => Some h end) hs None.
Definition max_active_height (n : node) : option N := max_height (map fst (engines n)).

(* is_height_finalized, lib.rs:828-842 *)
Definition is_height_finalized (n : node) (h : N) : bool :=
  match active n h with
  | Some e => decided e
  | None => match min_kept n with Some m => h <? m | None => false end
  end.

(* u64::checked_sub *)
Definition checked_sub (a b : N) : option N := if b <=? a then Some (a - b) else None.

(* handle_command(StartHeight), lib.rs:674-685: creates an engine (opening its WAL) and
   inserts it, replacing one that is there. *)
Definition start_height (n : node) (h : N) : node :=
  mkNode (al_set N.eqb h new_engine (engines n)) (event_queue n) (min_kept n) (last_decided n) (wal n ++ [WOpen h]).

(* prune_old_engines, lib.rs:764-804 *)
Definition prune_old_engines (depth : N) (n : node) : node :=
  match max_active_height n with
  | None => n
  | Some top =>
      match checked_sub top depth with
      | None => n
      | Some m =>
          let pruned := filter (fun h => h <? m) (map fst (engines n)) in
          mkNode (al_retain (fun h => m <=? h) (engines n)) (event_queue n) (Some m) (last_decided n)
            (wal n ++ map WDelete pruned)
      end
  end.

(* The loop over the engines in next_event, lib.rs:733-755. *)
Definition poll_all (es : list (N * engine)) (polls : N -> list effect)
    : list (N * engine) * list wal_op * list event :=
  fold_right (fun he acc =>
    let '(es, ws, evs) := acc in
    let '(e, w, ev) := poll_internal (fst he) (snd he) (polls (fst he)) in
    ((fst he, e) :: es, w ++ ws, match ev with Some v => v :: evs | None => evs end)) ([], [], []) es.

Definition is_decision_event (ev : event) : bool := match ev with EvDecision _ _ => true | EvOther _ => false end.
Definition note_decision (m : option N) (ev : event) : option N :=
  match ev with
  | EvDecision h _ => Some (match m with Some c => N.max c h | None => h end)
  | EvOther _ => m
  end.

(* next_event, lib.rs:730-762 *)
Definition next_event (depth : N) (n : node) (polls : N -> list effect) : node * option event :=
  let '(es, ws, evs) := poll_all (engines n) polls in
  let n := mkNode es (event_queue n ++ evs) (min_kept n) (fold_left note_decision evs (last_decided n)) (wal n ++ ws) in
  let n := if existsb is_decision_event evs then prune_old_engines depth n else n in
  match event_queue n with
  | [] => (n, None)
  | ev :: rest => (mkNode (engines n) rest (min_kept n) (last_decided n) (wal n), Some ev)
  end.

(* create_consensus, recover_from_wal and insert for one height, lib.rs:546-563 and 586-594,
   internal.rs:110-155.  [replay] are the effects of feeding the logged entries to Malachite. *)
Definition restore (replay : N -> list effect) (n : node) (he : N * list wal_entry) : node :=
  let (h, entries) := he in
  let e := mkEngine (existsb is_decision entries) [] in
  let (e, ws) := run_effects h e (replay h) in
  mkNode (al_set N.eqb h e (engines n)) (event_queue n) (min_kept n) (last_decided n) (wal n ++ WOpen h :: ws).

(* recover_inner, lib.rs:461-605.  An error of the WAL recovery counts as an empty WAL. *)
Definition recover (de : bytes -> option wal_entry) (depth : N) (listing : dir) (w : list wal_op)
    (highest_committed : option N) (replay : N -> list effect) : node :=
  let r := match recover_incomplete_heights de listing highest_committed with
           | Some r => r
           | None => mkRecovered [] [] None
           end in
  let top := match max_height (map fst (incomplete r ++ finalized r)) with
             | Some m => Some m
             | None => highest_decision r
             end in
  let m := match top with Some t => checked_sub t depth | None => None end in
  let restored := filter (fun he => match m with Some m => m <=? fst he | None => true end) (finalized r) in
  let n := fold_left (restore replay) (restored ++ incomplete r) (new_node w) in
  mkNode (engines n) (event_queue n) m (highest_decision r) (wal n).

Inductive node_op :=
| OStart (h : N)
| OCommand (h : N)                           (* any other command, lib.rs:686-702 *)
| ONext (polls : N -> list effect)
| ORestart (listing : dir) (highest_committed : option N) (replay : N -> list effect).

Section Runs.
  Variable ser : wal_entry -> bytes.
  Variable de : bytes -> option wal_entry.
  Variable address : bytes.
  Variable depth : N.

  (* One operation.  A restart may come at any time and finds the WAL directory as it is,
     listed in any order. *)
  Inductive node_step : node -> node_op -> node -> Prop :=
  | do_start n h : h < 2 ^ 64 -> node_step n (OStart h) (start_height n h)
  | do_command n h : node_step n (OCommand h) n
  | do_next n polls : node_step n (ONext polls) (fst (next_event depth n polls))
  | do_restart n listing hc replay :
      Permutation listing (wal_run ser address (wal n)) ->
      node_step n (ORestart listing hc replay) (recover de depth listing (wal n) hc replay).

  Inductive node_run : node -> list node_op -> node -> Prop :=
  | nrun_nil n : node_run n [] n
  | nrun_cons n o n1 tr n2 : node_step n o n1 -> node_run n1 tr n2 -> node_run n (o :: tr) n2.
End Runs.
