(** Model of the cache of block traces, /repo/crates/executor/src/simulate.rs:46-129 and of its
    use in trace, 216-350, as a transition system of concurrent calls.

    Simplifications: the execution of the transactions of a block is not modelled; a call that
    executes ends with an arbitrary result.  [SizedCache] drops the entry used least recently when
    it is full; here any entry may be dropped at any time.  A call that fails before it looks at
    the cache (217-223) is left out, it has no effect. *)
From Coq Require Import List Bool NArith.
Import ListNotations.
Local Open Scope N_scope.

(** CacheKey, simulate.rs:46-50: block hash and return_initial_reads *)
Definition key : Type := N * bool.
Definition key_eqb (a b : key) : bool := (fst a =? fst b) && Bool.eqb (snd a) (snd b).

(** Result<BlockTraces, TraceError>, simulate.rs:69-73 and 108-115 *)
Inductive result := Traces (v : N) | TraceFails (e : N).

(** CacheItem, simulate.rs:62-67.  A channel is named by the call that made it. *)
Inductive item := Inflight (channel : N) | Cached (r : result).

(** a broadcast channel: nothing sent yet, one message sent, or its sender dropped without
    sending *)
Inductive chan := Open | Sent (r : result) | Closed.

(** what a call returns: a result of an execution, or an error of its own (a receive error
    "Trace error", a failure of to_state_diff or get_initial_reads, a panic) *)
Inductive answer := Answer (r : result) | Internal.

(** A call executes the transactions, or waits on a channel, or has returned.  [late]: the message
    had been sent already when the call subscribed, so that it does not see it. *)
Inductive status := Executing | Waiting (channel : N) (late : bool) | Returned (a : answer).

Record state := State {
  s_cache : key -> option item;
  s_chan : N -> chan;
  s_call : N -> option (key * status) }.

Definition initial : state := State (fun _ => None) (fun _ => Open) (fun _ => None).

Definition set_cache (k : key) (v : option item) (s : state) : state :=
  State (fun k' => if key_eqb k k' then v else s_cache s k') (s_chan s) (s_call s).
Definition set_chan (i : N) (c : chan) (s : state) : state :=
  State (s_cache s) (fun j => if i =? j then c else s_chan s j) (s_call s).
Definition set_call (i : N) (k : key) (x : status) (s : state) : state :=
  State (s_cache s) (s_chan s) (fun j => if i =? j then Some (k, x) else s_call s j).

Inductive action :=
| Call (i : N) (k : key)        (* the lookup, simulate.rs:230-257, under the lock *)
| Finish (i : N) (r : result)   (* simulate.rs:288-294 and 344-349, under the lock *)
| FailCleanly (i : N)           (* to_state_diff fails, simulate.rs:298-307; one step here, though the sender is dropped after the lock *)
| Abandon (i : N)               (* get_initial_reads fails, simulate.rs:327-332, or a panic *)
| Receive (i : N)               (* blocking_recv, simulate.rs:247 *)
| Evict (k : key).              (* the cache drops an entry *)

Definition step (s : state) (a : action) : state :=
  match a with
  | Call i k =>
      match s_call s i with
      | Some _ => s                (* every call has a name of its own *)
      | None =>
          match s_cache s k with
          | Some (Cached r) => set_call i k (Returned (Answer r)) s
          | Some (Inflight c) =>
              set_call i k (Waiting c (match s_chan s c with Sent _ => true | _ => false end)) s
          | None => set_cache k (Some (Inflight i)) (set_call i k Executing s)
          end
      end
  | Finish i r =>
      match s_call s i with
      | Some (k, Executing) =>
          set_cache k (Some (Cached r)) (set_chan i (Sent r) (set_call i k (Returned (Answer r)) s))
      | _ => s
      end
  | FailCleanly i =>
      match s_call s i with
      | Some (k, Executing) => set_cache k None (set_chan i Closed (set_call i k (Returned Internal) s))
      | _ => s
      end
  | Abandon i =>
      match s_call s i with
      | Some (k, Executing) => set_chan i Closed (set_call i k (Returned Internal) s)
      | _ => s
      end
  | Receive i =>
      match s_call s i with
      | Some (k, Waiting c late) =>
          match s_chan s c with
          | Open => s              (* blocks *)
          | Sent r => set_call i k (Returned (if late then Internal else Answer r)) s
          | Closed => set_call i k (Returned Internal) s
          end
      | _ => s
      end
  | Evict k => set_cache k None s
  end.

Definition run (l : list action) : state := fold_left step l initial.
