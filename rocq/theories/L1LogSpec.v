(* What the updates emitted from L1 should be: those of the finalized chain, in its order. *)
From Coq Require Import List Arith NArith Bool.
From Verif Require Import L1LogModel.
Import ListNotations.

(* the log at a position: block and index in the block *)
Definition log_at (chain : list (list N)) (p : nat * nat) : option N := nth_error (nth (fst p) chain []) (snd p).
(* positions in the order of the chain *)
Definition before (p q : nat * nat) : Prop := fst p < fst q \/ (fst p = fst q /\ snd p < snd q).
Fixpoint increasing (l : list (nat * nat)) : Prop :=
  match l with
  | p :: ((q :: _) as l') => before p q /\ increasing l'
  | _ => True
  end.

(* the subscription is not lost *)
Definition unbroken (acts : list act) : Prop := ~ In Lose acts.
(* no block is reported as finalized while the removal of a block of that number, or below, is still
   under way to the client *)
Definition timely (chain : list (list N)) (final : nat) (acts : list act) : Prop :=
  forall pre post w f polled n u,
    acts = pre ++ OnFinal :: post -> run chain final pre = Some w -> w_polled w = f :: polled ->
    In (Removed n u) (w_queue w) -> f < n.
(* the lowest block of the chain that was mined while the client was subscribed: [d] blocks were there
   when it subscribed, and then it did [acts] *)
Definition seen_from (d : nat) (acts : list act) : nat :=
  fold_left (fun d a => match a with Reorg k => Nat.min d k | _ => d end) acts d.

Definition last_opt (l : list N) : option N := match rev l with x :: _ => Some x | [] => None end.
Definition block_of (e : event) : nat := match e with Added n _ | Removed n _ => n end.
