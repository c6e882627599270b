(* Vocabulary for the statements about subscriptions. *)
From Coq Require Import List NArith PeanoNat Bool.
From Verif Require Import BloomModel EventModel EventSpec GetEventsModel SubscribeModel.
Import ListNotations.
Local Open Scope nat_scope.

(* What a subscriber should see of the blocks from .. to - 1 of a chain, if live n b is what
   they should see of block number n. *)
Definition news {block V} (live : nat -> block -> list V) (chain : list block) (from to : nat) : list (nat * V) :=
  flat_map (fun n => match nth_error chain n with Some b => map (pair n) (live n b) | None => [] end) (seq from (to - from)).

(* What a subscriber sees. *)
Definition seen {note V} (view : note -> V) (l : list (nat * note)) : list (nat * V) := map (fun m => (fst m, view (snd m))) l.

(* Steps of the subscription itself. *)
Definition own_step {block pending} (l : label block pending) : Prop :=
  match l with CatchUpBatch | Spawn | TaskSubscribe | TaskBlock | FirstMessage | CatchUpToFirst | Forward => True | _ => False end.
Definition no_pruning {block pending} (l : label block pending) : Prop := match l with Prune _ => False | _ => True end.

(* Nothing left to do for the subscription. *)
Definition idle {block pending memory note} (F : flow block pending memory note) (s : sub block memory note) : Prop :=
  forall l, own_step l -> step F s l = s.
(* Every step does something. *)
Fixpoint effective {block pending memory note} (F : flow block pending memory note) (s : sub block memory note) (ls : list (label block pending)) : Prop :=
  match ls with
  | [] => True
  | l :: ls => step F s l <> s /\ effective F (step F s l) ls
  end.

(* The subscription has not ended. *)
Definition open {block memory note} (s : sub block memory note) : Prop := s_phase s <> Closed /\ s_task s <> Returned.

(* A flow shows live n b of block number n to a subscriber, both when it reads the stored blocks
   and when a block is announced, and nothing when pending data arrive. *)
Record shows {block pending memory note V} (F : flow block pending memory note) (view : note -> V) (live : nat -> block -> list V) : Prop := {
  sh_batch : 1 <= f_batch F;
  sh_catch_up : forall chain from to, from < length chain -> from <= to -> exists messages,
    f_catch_up F chain 0 from to = Some (messages, Some (Nat.min to (length chain - 1))) /\
    seen view messages = news live chain from (Nat.min to (length chain - 1) + 1);
  sh_nothing : forall chain from to, length chain <= from -> f_catch_up F chain 0 from to = Some ([], None);
  sh_memory : exists good : memory -> Prop,
    good (f_start F) /\
    (forall m p, good m -> good (fst (f_on_pending F m p)) /\ snd (f_on_pending F m p) = []) /\
    (forall m n b, good m -> good (fst (f_on_block F m n b)) /\
       seen view (snd (f_on_block F m n b)) = map (pair n) (live n b))
}.

(* The events of a block that match, as answers; without their finality. *)
Definition matching_events (f : event -> bool) (n : nat) (b : block) : list answer :=
  map of_stored (filter (fun e => f (e_event e)) (emitted_at (N.of_nat n) b)).

(* What the task of an event subscription may remember: after any pending data, blocks and reorgs. *)
Inductive remembers (p : params) : memory -> Prop :=
| remembers_start : remembers p []
| remembers_pending m d : remembers p m -> remembers p (fst (on_pending (truncate_params p) m d))
| remembers_block m n b : remembers p m -> remembers p (fst (on_block (truncate_params p) m n b))
| remembers_reorg m n : remembers p m -> remembers p (on_reorg m n).

(* The key groups asked for, none if not given. *)
Definition key_groups (p : params) : list (list N) := match p_keys p with Some keys => keys | None => [] end.
