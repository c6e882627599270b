(** Vocabulary of the statements about transaction status subscriptions. *)
From Coq Require Import List Bool Arith NArith.
From Verif Require Import TxStatusModel.
Import ListNotations.

(** How far a transaction has got. *)
Definition progress (f : finality) : nat :=
  match f with
  | Received => 0 | Candidate => 1 | PreConfirmed => 2 | AcceptedOnL2 => 3 | AcceptedOnL1 => 4
  | Rejected _ => 5
  end.

(** No reorg was reported in these messages. *)
Definition no_reorg (ms : list message) : Prop := forall n, ~ In (ReorgSeen n) ms.

(** The transaction is in block [n] of the chain, with this execution status. *)
Definition stored (tx : N) (w : world) (n : nat) (e : exec) : Prop :=
  exists rs, nth_error (w_chain w) n = Some rs /\ In (tx, e) rs.
(** It is pre-confirmed, or in the pre-latest block. *)
Definition pre_confirmed (tx : N) (w : world) (n : nat) (e : exec) : Prop :=
  (exists rs, p_pre_latest (w_pending w) = Some (n, rs) /\ In (tx, e) rs) \/
  (p_number (w_pending w) = n /\ In (tx, e) (p_receipts (w_pending w))).
Definition candidate (tx : N) (w : world) (n : nat) : Prop :=
  p_number (w_pending w) = n /\ In tx (p_candidates (w_pending w)).

Section Moments.
  Variable tx : N.
  Variable w0 : world.

  (** The state after the steps [ls] of a subscription that started on [w0]. *)
  Definition after (ls : list label) : state := run tx (start w0) ls.

  (** At some moment of the execution [ls], before a message was sent that came after the
      messages [pre], but not before the last reorg reported in [pre], the node was like [P]. *)
  Definition at_some_moment (ls : list label) (pre : list message) (P : world -> Prop) : Prop :=
    exists ls1 ls2 rest, ls = ls1 ++ ls2 /\
      pre = s_sent (after ls1) ++ rest /\ no_reorg rest /\ P (s_world (after ls1)).

  (** What makes a message true. *)
  Definition true_message (ls : list label) (pre : list message) (m : message) : Prop :=
    match m with
    | ReorgSeen _ => (exists n, In (Reorg n) ls) \/ w_todo w0 = Some NewReorg
    | Status n Received e => e = None /\ at_some_moment ls pre (fun w => w_tracker w = Some n)
    | Status n Candidate e => e = None /\ at_some_moment ls pre (fun w => candidate tx w n)
    | Status n PreConfirmed e =>
        exists x, e = Some x /\ at_some_moment ls pre (fun w => pre_confirmed tx w n x)
    | Status n AcceptedOnL2 e =>
        exists x, e = Some x /\ at_some_moment ls pre (fun w => stored tx w n x)
    | Status n AcceptedOnL1 e =>
        at_some_moment ls pre (fun w => w_l1 w = Some n) /\
        exists x b, e = Some x /\ b <= n /\ at_some_moment ls pre (fun w => stored tx w b x)
    | Status _ (Rejected reason) e => e = None /\ In (Tick (Some reason)) ls
    end.
End Moments.

(** Between two reorgs: the messages that came before are of less progress. *)
Definition in_order (ms : list message) : Prop :=
  forall pre b1 f1 e1 mid b2 f2 e2 post,
    ms = pre ++ Status b1 f1 e1 :: mid ++ Status b2 f2 e2 :: post -> no_reorg mid ->
    progress f1 < progress f2.

(** What has been said since the last reorg. *)
Definition now_said (ms : list message) (P : finality -> Prop) : Prop :=
  exists pre b f e post, ms = pre ++ Status b f e :: post /\ no_reorg post /\ P f.

(** There is nothing left to do: all is announced, and the task has taken everything. *)
Definition quiet (s : state) : Prop :=
  w_todo (s_world s) = None /\ s_phase s = AtLoop /\ s_blocks s = [] /\ s_reorgs s = 0.

(** A well-formed start: what is to be announced has been committed. *)
Definition consistent (w : world) : Prop :=
  forall n rs, w_todo w = Some (NewBlock n rs) -> nth_error (w_chain w) n = Some rs.
