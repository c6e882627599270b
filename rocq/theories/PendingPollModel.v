(* Polling of pending data: crates/pathfinder/src/state/sync/pending.rs, and the handling of its
   events, crates/pathfinder/src/state/sync.rs:999-1041.

   Of a pre-confirmed block its transactions and receipts are kept, as in TxLookupModel.v, of a
   pre-latest block also its parent hash. *)
From Coq Require Import List Arith NArith Bool.
From Verif Require Import AList StateUpdateModel TxLookupModel.
Import ListNotations.
Local Open Scope N_scope.

(* State, pending.rs:21-26 *)
Record pstate := PState { ps_number : N; ps_count : nat; ps_pre_latest : bool }.
(* State::default *)
Definition pstate_default : pstate := PState 0 0 false.
(* State::update, pending.rs:30-53: whether the state was updated *)
Definition should_update (s new : pstate) : bool :=
  match ps_number new ?= ps_number s with
  | Lt => false
  | Gt => true
  | Eq =>
      match (ps_count new ?= ps_count s)%nat with
      | Lt => false
      | Gt => true
      | Eq => ps_pre_latest s && negb (ps_pre_latest new)
      end
  end.

(* what one iteration of the loop finds: the latest block of the gateway, the number of the block
   the synchronisation is at, the pending block and the pre-confirmed blocks the gateway answers
   with (None: the request fails) *)
Record poll := Poll {
  q_latest : N;
  q_hash : N;
  q_current : N;
  q_pending : option pl_block;
  q_pre_confirmed : N -> option gw_block }.
(* SyncEvent::PreConfirmed, sync.rs:98-102 *)
Record event := Event { e_number : N; e_block : gw_block; e_pre_latest : option (N * pl_block) }.

(* pending.rs:19 *)
Definition IN_SYNC_THRESHOLD : N := 6.
(* u64::abs_diff *)
Definition abs_diff (a b : N) : N := if a <? b then b - a else a - b.
(* fetch_pre_latest, pending.rs:130-152 *)
Definition fetch_pre_latest (q : poll) : option (option (N * pl_block)) :=
  match q_pending q with
  | None => None
  | Some b => Some (if pl_parent b =? q_hash q then Some (q_latest q + 1, b) else None)
  end.
(* an iteration of poll_pre_confirmed, pending.rs:58-120.  A full channel makes the poller wait,
   which is not modelled: the queue below is unbounded. *)
Definition poll_step (s : pstate) (q : poll) : pstate * option event :=
  if IN_SYNC_THRESHOLD <? abs_diff (q_latest q) (q_current q) then (s, None)
  else
    match fetch_pre_latest q with
    | None => (s, None)
    | Some pre_latest =>
        let number := match pre_latest with Some _ => q_latest q + 2 | None => q_latest q + 1 end in
        match q_pre_confirmed q number with
        | None => (s, None)
        | Some b =>
            let new := PState number (length (gw_txs b)) (match pre_latest with Some _ => true | None => false end) in
            if should_update s new then (new, Some (Event number b pre_latest)) else (s, None)
        end
    end.

(* ---- the node ---- *)
(* the poller, the events on their way, the number of the latest stored block, the pending data the
   RPC is given, and whether an assertion has failed *)
Record sys := Sys {
  s_poller : pstate;
  s_queue : list event;
  s_latest : option N;
  s_watch : ptx;
  s_panicked : bool }.
(* watch::channel(Default::default()), pathfinder/src/bin/pathfinder/main.rs:248, with the derived
   Default of PendingData, rpc/src/pending.rs:131-132.  The restart of the poller when it has ended,
   sync.rs:300-310, is not modelled: it ends only if the channel is closed. *)
Definition sys_start : sys := Sys pstate_default [] None (Ptx 0 [] [] [] None) false.
(* an iteration of the poller, the delivery of its oldest event, any change of the latest block
   (by the other events) *)
Inductive action := DoPoll (q : poll) | Deliver | SetLatest (l : option N).
(* the arm for PreConfirmed of the consumer, sync.rs:999-1041 *)
Definition consume (e : event) (s : sys) : sys :=
  let latest := get_or 0 (s_latest s) in
  let next := match e_pre_latest e with Some (n, _) => n | None => e_number e end in
  if next =? latest + 1 then
    match convert (e_block e) (e_number e) (e_pre_latest e) with
    | Converted w => Sys (s_poller s) (s_queue s) (s_latest s) w (s_panicked s)
    | Mismatched => s
    | AssertionFails => Sys (s_poller s) (s_queue s) (s_latest s) (s_watch s) true
    end
  else s.
Definition step (s : sys) (a : action) : sys :=
  match a with
  | DoPoll q =>
      let '(p, e) := poll_step (s_poller s) q in
      Sys p (s_queue s ++ match e with Some e => [e] | None => [] end) (s_latest s) (s_watch s) (s_panicked s)
  | Deliver =>
      match s_queue s with
      | [] => s
      | e :: r => consume e (Sys (s_poller s) r (s_latest s) (s_watch s) (s_panicked s))
      end
  | SetLatest l => Sys (s_poller s) (s_queue s) l (s_watch s) (s_panicked s)
  end.
Definition run (acts : list action) : sys := fold_left step acts sys_start.
