(* Vocabulary for C67: pending data are compared by block number, number of transactions, and
   whether the block below is stored. *)
From Coq Require Import List Arith NArith Bool.
From Verif Require Import TxLookupModel PendingPollModel.
Import ListNotations.
Local Open Scope N_scope.

Record key := Key { k_number : N; k_count : nat; k_pre_latest : bool }.
(* b is newer than a: of a later block, or with more transactions, or with the same but the block
   before it complete *)
Definition newer (a b : key) : Prop :=
  k_number a < k_number b \/
  (k_number a = k_number b /\
   ((k_count a < k_count b)%nat \/ (k_count a = k_count b /\ k_pre_latest a = true /\ k_pre_latest b = false))).
Definition present {A} (o : option A) : bool := match o with Some _ => true | None => false end.
(* of the data the RPC is given *)
Definition shown_key (w : ptx) : key :=
  Key (pt_number w) (length (pt_txs w) + length (pt_candidates w)) (present (pt_pre_latest w)).

(* the data the gateway has at a poll: the node is near the head of the chain, the pending block is
   the pre-latest one if it follows the latest block, and the pre-confirmed block comes after *)
Definition gateway_has (q : poll) (number : N) (b : gw_block) (pl : option (N * pl_block)) : Prop :=
  q_latest q <= q_current q + 6 /\ q_current q <= q_latest q + 6 /\
  q_pre_confirmed q number = Some b /\
  exists x, q_pending q = Some x /\
    ((pl_parent x = q_hash q /\ pl = Some (q_latest q + 1, x) /\ number = q_latest q + 2) \/
     (pl_parent x <> q_hash q /\ pl = None /\ number = q_latest q + 1)).
Definition data_key (number : N) (b : gw_block) (pl : option (N * pl_block)) : key :=
  Key number (length (gw_txs b)) (present pl).
(* the block the data are on top of *)
Definition base (number : N) (pl : option (N * pl_block)) : N :=
  match pl with Some (n, _) => n - 1 | None => number - 1 end.
Definition latest_number (s : sys) : N := match s_latest s with Some n => n | None => 0 end.
