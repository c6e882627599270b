(* What the statements about reads over decided blocks are made of. *)
From Coq Require Import List NArith.
From Verif Require Import AList StateUpdateModel ChainModel ChainSpec DecidedModel.
Import ListNotations.
Local Open Scope N_scope.

Fixpoint numbered (i : N) (l : list l2_block) : list (N * l2_block) :=
  match l with [] => [] | b :: r => (i, b) :: numbered (i + 1) r end.
(* the blocks of the chain from block lo on *)
Definition blocks_from (c : chain) (lo : N) : list (N * l2_block) := numbered lo (skipn (N.to_nat lo) c).
Definition wf_from (c : chain) (lo : N) : Prop := forall i b, lo <= i -> block_at c i = Some b -> wf_data (lb_data b).
(* the block changes something of the contract, other than what the system contracts are *)
Definition changes (b : l2_block) (a : N) : Prop := nget a (sd_contracts (lb_data b)) <> None.
(* of the blocks lo .. n, those that change the contract include none that sets what w reads, or the last one does *)
Definition none_or_last {V} (w : l2_block -> N -> option V) (c : chain) (lo n a : N) : Prop :=
  (forall i b, lo <= i <= n -> block_at c i = Some b -> w b a = None) \/
  (exists i b, lo <= i <= n /\ block_at c i = Some b /\ w b a <> None /\
     forall j b', i < j <= n -> block_at c j = Some b' -> ~ changes b' a).

(* ---- what consensus and sync do: F is the chain the node knows of, stored or decided ---- *)
Inductive disciplined (m : history_mode) : list step_ -> chain -> Prop :=
| begins : disciplined m [] []
(* a proposal is executed, and so can be decided here, on top of the last known block *)
| decides : forall xs f b, disciplined m xs f -> wf_data (lb_data b) -> disciplined m (xs ++ [Decide (clen f) b]) (f ++ [b])
(* what is committed is what was decided, if anything was *)
| commits : forall xs f e l, disciplined m xs f ->
    clen (chain_after m (n_events (acts xs))) <= clen (chain_after m (n_events (acts xs) ++ [e])) ->
    f = chain_after m (n_events (acts xs) ++ [e]) ++ l -> disciplined m (xs ++ [Synced e]) f
| syncs : forall xs f e, disciplined m xs f -> n_decided (acts xs) = [] ->
    disciplined m (xs ++ [Synced e]) (chain_after m (n_events (acts xs) ++ [e]))
(* a committed block is forgotten, the oldest first *)
| forgets : forall xs f n b r, disciplined m xs f -> n_decided (acts xs) = (n, b) :: r ->
    n < clen (chain_after m (n_events (acts xs))) -> disciplined m (xs ++ [Remove n]) f
| nothing_to_forget : forall xs f n, disciplined m xs f -> (forall b, ~ In (n, b) (n_decided (acts xs))) ->
    disciplined m (xs ++ [Remove n]) f.
