(** What it means for a proposal to be well formed and to have been executed in
    full, independently of batches, deferral and rollback. *)
From Coq Require Import List Bool Arith NArith.
From Verif Require Import AList P2PStreamModel ProposalModel.
Import ListNotations.
Local Open Scope N_scope.

(** The parts of a complete proposal. *)
Definition proposal (i : init) (batches : list (list N)) (commitment count : N) : list part :=
  Init i :: map Batch batches ++ [PFin commitment count].

(** A complete proposal of the kind the validator announced. *)
Definition complete_as (r : verdict) (ps : list part) : Prop :=
  match r with
  | Accepted => False
  | EmptyProposal => exists i c n, ps = [Init i; PFin c n]
  | NonEmptyProposal =>
      exists i batches c n,
        ps = proposal i batches c n /\ batches <> [] /\ Forall (fun b => b <> []) batches
  end.

(** Parts offered one after the other, each with what the validator answered; a
    refused part leaves the validator as it was. *)
Fixpoint answers (v : pv) (ps : list part) : list (part * option verdict) :=
  match ps with
  | [] => []
  | p :: ps' =>
      match accept_part v p with
      | None => (p, None) :: answers v ps'
      | Some (v', r) => (p, Some r) :: answers v' ps'
      end
  end.

(** The parts that were not refused. *)
Definition taken (ans : list (part * option verdict)) : list part :=
  map fst (filter (fun pr => match snd pr with Some _ => true | None => false end) ans).

Section Spec.
  Variable tx_class : N -> option N.
  Variable exec : init -> list N -> N -> option output.
  Variable state_update : init -> list N -> N.

  (** The outputs of running [txs] one after the other on the parent state. *)
  Definition outputs_of (i : init) (txs : list N) (os : list output) : Prop :=
    length os = length txs /\
    forall k t, nth_error txs k = Some t -> nth_error os k = exec i (firstn k txs) t.

  (** One receipt per transaction, numbered from zero. *)
  Definition receipts_of (txs : list N) (os : list output) (rs : list receipt) : Prop :=
    length rs = length txs /\
    forall k t o, nth_error txs k = Some t -> nth_error os k = Some o ->
      nth_error rs k = Some (mkReceipt t (o_body o) (o_reverted o) (N.of_nat k)).

  (** [b] is the block of exactly [txs], in order: transactions, receipts, events and
      state update are those of running [txs] one after the other. *)
  Definition block_of (i : init) (txs : list N) (b : block) : Prop :=
    exists os,
      outputs_of i txs os /\
      b_init b = i /\
      b_txs b = txs /\
      receipts_of txs os (b_receipts b) /\
      b_events b = map o_events os /\
      b_update b = state_update i txs.

  (** The classes declared by transactions that were not reverted, in order. *)
  Definition classes_of (txs : list N) (os : list output) : list N :=
    flat_map (fun p : N * output =>
                if o_reverted (snd p) then []
                else match tx_class (fst p) with Some c => [c] | None => [] end)
             (combine txs os).
End Spec.

(** The parts of [key] among the events. *)
Fixpoint parts_of (key : hr) (es : list event) : list part :=
  match es with
  | EPart k p :: es' => if sid_eqb key k then p :: parts_of key es' else parts_of key es'
  | _ :: es' => parts_of key es'
  | [] => []
  end.

(** Is the parent of a block known: decided here, or in the main database? *)
Definition parent_known (s : task) (height : N) : bool :=
  (height =? 0) || al_mem N.eqb (height - 1) (t_decided s) || al_mem N.eqb (height - 1) (t_committed s).
