(* Vocabulary for C66: the blocks that are stored, and the pending transactions that are seen. *)
From Coq Require Import List Arith NArith Bool.
From Verif Require Import AList ChainModel RpcReadModel TxLookupModel.
Import ListNotations.
Local Open Scope N_scope.

(* ---- stored blocks ---- *)
Definition hashes (b : sblock) : list N := map (fun x => tx_hash (fst x)) (sb_txs b).
Fixpoint distinct (l : list N) : bool :=
  match l with [] => true | x :: r => negb (existsb (N.eqb x) r) && distinct r end.
(* a block is stored unless its number, its hash or one of its transactions is stored already *)
Definition allowed (kept : list sblock) (b : sblock) : bool :=
  if in_dec N.eq_dec (sb_number b) (map sb_number kept) then false
  else if in_dec N.eq_dec (sb_hash b) (map sb_hash kept) then false
  else distinct (flat_map hashes kept ++ hashes b).
Definition kept_step (kept : list sblock) (c : change) : list sblock :=
  match c with
  | Store b => if allowed kept b then kept ++ [b] else kept
  | Delete n => filter (fun b => negb (sb_number b =? n)) kept
  | Pointer _ => kept
  end.
Definition kept_after (cs : list change) : list sblock := fold_left kept_step cs [].
Definition pointer_after (cs : list change) : option N :=
  fold_left (fun p c => match c with Pointer q => q | _ => p end) cs None.
(* blocks have a list of events for every transaction *)
Definition wf_changes (cs : list change) : Prop :=
  forall b, In (Store b) cs -> length (sb_events b) = length (sb_txs b).

(* transaction i of block b *)
Definition at_index (b : sblock) (i : nat) (t : tx) (r : receipt) (e : list event) : Prop :=
  nth_error (sb_txs b) i = Some (t, r) /\ nth_error (sb_events b) i = Some e.
Definition stored_in (kept : list sblock) (b : sblock) (t : tx) (r : receipt) (e : list event) : Prop :=
  In b kept /\ exists i, at_index b i t r e.
Definition stored_hash (kept : list sblock) (h : N) : Prop :=
  exists b t r e, stored_in kept b t r e /\ tx_hash t = h.

(* n is the number of the latest block, 0 if there is none *)
Definition is_latest (kept : list sblock) (n : N) : Prop :=
  (kept = [] /\ n = 0) \/ ((exists b, In b kept /\ sb_number b = n) /\ forall b, In b kept -> sb_number b <= n).

(* the stored block a block id names *)
Definition names (kept : list sblock) (pointer : option N) (id : rpc_block_id) (b : sblock) : Prop :=
  In b kept /\
  match id with
  | RNumber n => sb_number b = n
  | RHash h => sb_hash b = h
  | RL1Accepted => pointer = Some (sb_number b)
  | RLatest => is_latest kept (sb_number b)
  | RPreConfirmed => False
  end.

(* ---- pending blocks ---- *)
(* transactions with a receipt have been executed, the others are candidates *)
Definition executed (b : gw_block) (t : tx) (r : receipt) (e : list event) : Prop :=
  In t (gw_txs b) /\ In (Some (r, e)) (gw_receipts b) /\ rc_hash r = tx_hash t.
Definition is_candidate (b : gw_block) (t : tx) : Prop :=
  In t (gw_txs b) /\ forall r e, In (Some (r, e)) (gw_receipts b) -> rc_hash r <> tx_hash t.
(* the pre-confirmed block is seen when it, or the pre-latest block below it, follows the latest
   block, or when that pre-latest block is the latest block *)
Definition pre_confirmed_seen (n : N) (v09 : bool) (number : N) (pl : option (N * pl_block)) : Prop :=
  v09 = true /\ match pl with Some (p, _) => p = n + 1 \/ p = n | None => number = n + 1 end.
Definition pre_latest_seen (n : N) (v09 : bool) (pl : option (N * pl_block)) (x : pl_block) : Prop :=
  v09 = true /\ pl = Some (n + 1, x).
Definition executed_pre_latest (x : pl_block) (t : tx) (r : receipt) (e : list event) : Prop :=
  In t (pl_txs x) /\ In (r, e) (pl_receipts x) /\ rc_hash r = tx_hash t.

(* t has been executed in pending block m that is seen on top of block n *)
Definition pending_executed (n : N) (v09 : bool) (b : gw_block) (number : N) (pl : option (N * pl_block))
    (m : N) (t : tx) (r : receipt) (e : list event) : Prop :=
  (pre_confirmed_seen n v09 number pl /\ executed b t r e /\ m = number) \/
  (exists x, pre_latest_seen n v09 pl x /\ executed_pre_latest x t r e /\ m = n + 1).
Definition pending_candidate (n : N) (v09 : bool) (b : gw_block) (number : N) (pl : option (N * pl_block)) (t : tx) : Prop :=
  pre_confirmed_seen n v09 number pl /\ is_candidate b t.
Definition pending_tx (n : N) (v09 : bool) (b : gw_block) (number : N) (pl : option (N * pl_block)) (t : tx) : Prop :=
  (pre_confirmed_seen n v09 number pl /\ In t (gw_txs b)) \/
  (exists x, pre_latest_seen n v09 pl x /\ In t (pl_txs x)).

(* every transaction of the pre-latest block has its receipt *)
Definition wf_pre_latest (pl : option (N * pl_block)) : Prop :=
  forall p x t, pl = Some (p, x) -> In t (pl_txs x) -> exists r e, In (r, e) (pl_receipts x) /\ rc_hash r = tx_hash t.
