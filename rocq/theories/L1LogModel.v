(* Following the Starknet state on L1: crates/ethereum/src/lib.rs, sync_and_listen.

   The world: an L1 node with a chain of blocks numbered from 0, each with the state updates it logs
   (LogStateUpdate), in order; new blocks are added, blocks above the last finalized one may be
   replaced, the finalized block moves up.  While it is subscribed the client is sent an event for each
   log of a new block and one for each log of a block that is dropped, in this order.  It handles
   events and the numbers of finalized blocks, which it polls, in any order.  A state update is a
   number. *)
From Coq Require Import List Arith NArith Bool.
Import ListNotations.

Inductive event := Added (n : nat) (u : N) | Removed (n : nat) (u : N).
(* pending_state_updates, lib.rs:107: a BTreeMap, by increasing L1 block *)
Definition pending := list (nat * N).

Record world := World {
  w_chain : list (list N);      (* the logs of the blocks *)
  w_final : nat;                (* the number of the last finalized block *)
  w_sub : bool;                 (* subscribed *)
  w_queue : list event;         (* events sent, not yet handled *)
  w_polled : list nat;          (* finalized block numbers received, not yet handled *)
  w_pending : pending;
  w_emitted : list N            (* what the callback was called with *)
}.

(* insert of a BTreeMap *)
Fixpoint ins (n : nat) (u : N) (p : pending) : pending :=
  match p with
  | [] => [(n, u)]
  | (m, v) :: p' =>
      if n <? m then (n, u) :: p
      else if n =? m then (n, u) :: p'
      else (m, v) :: ins n u p'
  end.
(* remove of a BTreeMap *)
Definition del (n : nat) (p : pending) : pending := filter (fun e => negb (fst e =? n)) p.

(* the arm for an event, lib.rs:376-400.  Logs of other contracts are left out. *)
Definition handle_event (p : pending) (e : event) : pending :=
  match e with
  | Added n u => ins n u p
  | Removed n _ => del n p
  end.
(* the arm for a finalized block, lib.rs:410-424: what stays pending, and what is emitted *)
Definition handle_final (p : pending) (f : nat) : pending * list N :=
  (filter (fun e => f <? fst e) p, map snd (filter (fun e => fst e <=? f) p)).

(* the state of the Starknet contract at a block, as get_starknet_state reads it, lib.rs:507-531: that
   of the last update logged up to it *)
Definition state_at (chain : list (list N)) (n : nat) : option N :=
  match rev (concat (firstn (S n) chain)) with u :: _ => Some u | [] => None end.

Inductive act :=
(* the L1 node *)
| Mine (logs : list N) | Reorg (k : nat) | Finalize (n : nat)
(* the client: the initial state; subscribing to logs; losing the subscription; polling; the two arms *)
| Begin | Subscribe | Lose | Poll | DropPolls | OnEvent | OnFinal.

Fixpoint events (kind : nat -> N -> event) (n : nat) (blocks : list (list N)) : list event :=
  match blocks with
  | [] => []
  | b :: blocks' => map (kind n) b ++ events kind (S n) blocks'
  end.

Definition step (w : world) (a : act) : option world :=
  let '(World chain final sub queue polled pend emitted) := w in
  match a with
  | Mine logs =>
      Some (World (chain ++ [logs]) final sub
                  (if sub then queue ++ map (Added (length chain)) logs else queue) polled pend emitted)
  (* the blocks from number k on are dropped *)
  | Reorg k =>
      if final <? k
      then Some (World (firstn k chain) final sub
                       (if sub then queue ++ events Removed k (skipn k chain) else queue) polled pend emitted)
      else None
  | Finalize n =>
      if (final <=? n) && (n <? length chain)
      then Some (World chain n sub queue polled pend emitted) else None
  (* lib.rs:308-310 *)
  | Begin =>
      match emitted, sub with
      | [], false => match state_at chain final with Some u => Some (World chain final sub queue polled pend [u]) | None => None end
      | _, _ => None
      end
  (* lib.rs:329, 403 *)
  | Subscribe =>
      match emitted, sub with
      | _ :: _, false => Some (World chain final true queue polled pend emitted)
      | _, _ => None
      end
  (* lib.rs:401-407, 433-437: the pending updates are kept *)
  | Lose => if sub then Some (World chain final false [] polled pend emitted) else None
  (* lib.rs:346-370 *)
  | Poll => if sub then Some (World chain final sub queue (polled ++ [final]) pend emitted) else None
  | DropPolls => Some (World chain final sub queue [] pend emitted)
  | OnEvent =>
      match queue with
      | e :: queue' => Some (World chain final sub queue' polled (handle_event pend e) emitted)
      | [] => None
      end
  | OnFinal =>
      match polled with
      | f :: polled' =>
          let (pend', out) := handle_final pend f in
          Some (World chain final sub queue polled' pend' (emitted ++ out))
      | [] => None
      end
  end.

Fixpoint run_from (w : world) (acts : list act) : option world :=
  match acts with
  | [] => Some w
  | a :: acts' => match step w a with Some w' => run_from w' acts' | None => None end
  end.
(* the start: some chain, some finalized block of it, no client *)
Definition init (chain : list (list N)) (final : nat) : world := World chain final false [] [] [] [].
Definition run (chain : list (list N)) (final : nat) (acts : list act) : option world :=
  if final <? length chain then run_from (init chain final) acts else None.
