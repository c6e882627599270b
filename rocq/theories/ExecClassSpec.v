(* What the statements about the classes that executions find are made of. *)
From Coq Require Import List NArith.
From Verif Require Import ChainModel ChainSpec.
Import ListNotations.
Local Open Scope N_scope.

(* on the chain after the events, a block up to n declares the class *)
Definition declared_by (m : history_mode) (es : list sync_event) (n x : N) : Prop :=
  exists i b, i <= n /\ block_at (chain_after m es) i = Some b /\ declares b x.
Definition no_reorg (es : list sync_event) : Prop := forall t, ~ In (Reorg t) es.
