(* Model of the timeout manager of one consensus engine and of the loop that reports
   elapsed timeouts: crates/consensus/src/internal.rs:183-202 and 527-617.

   An Instant or a Duration is a number of nanoseconds.  Which inputs make the Malachite
   state machine schedule, cancel or reset timeouts is not modelled: any sequence of these
   operations, interleaved in any way with the pops of the reporting loop, is a run.
   std's BinaryHeap is a list up to permutation, and pop returns some greatest element of
   it, which is all its documentation promises; the relation below allows every choice. *)
From Coq Require Import List NArith Bool Permutation.
Import ListNotations.
Local Open Scope N_scope.

(* TimeoutKind as matched in crates/consensus/src/config.rs:121-128. *)
Inductive kind := Propose | Prevote | Precommit | Rebroadcast.

Definition kind_eqb (a b : kind) : bool :=
  match a, b with
  | Propose, Propose | Prevote, Prevote | Precommit, Precommit | Rebroadcast, Rebroadcast => true
  | _, _ => false
  end.

(* Malachite's Timeout: a kind and a round. *)
Record timeout := mkTimeout { t_kind : kind; t_round : N }.

Definition timeout_eqb (a b : timeout) : bool :=
  kind_eqb (t_kind a) (t_kind b) && (t_round a =? t_round b).

(* TimeoutValues, crates/consensus/src/config.rs:88-129. *)
Record timeout_values := mkValues { propose : N; prevote : N; precommit : N; rebroadcast : N }.

(* TimeoutValues::get, crates/consensus/src/config.rs:121-128. *)
Definition value_of (v : timeout_values) (k : kind) : N :=
  match k with
  | Propose => propose v
  | Prevote => prevote v
  | Precommit => precommit v
  | Rebroadcast => rebroadcast v
  end.

(* ScheduledTimeout, crates/consensus/src/internal.rs:530-533. *)
Record scheduled := mkScheduled { s_timeout : timeout; s_due : N }.

(* Ord for ScheduledTimeout, crates/consensus/src/internal.rs:543-548: reversed by due. *)
Definition scheduled_cmp (a b : scheduled) : comparison := N.compare (s_due b) (s_due a).

(* BinaryHeap::peek and BinaryHeap::pop: some greatest element in the order above. *)
Definition heap_greatest (l : list scheduled) (x : scheduled) : Prop :=
  In x l /\ forall y, In y l -> scheduled_cmp x y <> Lt.

Inductive op :=
| Schedule (t : timeout) (now : N)  (* schedule_timeout, internal.rs:570-579 *)
| Cancel (t : timeout)              (* cancel_timeout, internal.rs:582-593 *)
| CancelAll                         (* cancel_all_timeouts, internal.rs:596-600 *)
| Reset (now : N)                   (* reset_timeouts, internal.rs:603-616 *)
| Report (t : timeout) (now : N)    (* one turn of the loop, internal.rs:186-202 *)
| Idle (now : N).                   (* the loop ends, internal.rs:186-189 *)

Section Manager.
  Variable values : timeout_values.

  (* One operation on the heap.  The loop turn pops when the greatest element is due
     (internal.rs:186-194) and the loop ends when there is none or it is not due yet. *)
  Inductive tm_step : list scheduled -> op -> list scheduled -> Prop :=
  | step_schedule l t now l' :
      Permutation l' (mkScheduled t (now + value_of values (t_kind t)) :: l) ->
      tm_step l (Schedule t now) l'
  | step_cancel l t l' :
      Permutation l' (filter (fun st => negb (timeout_eqb (s_timeout st) t)) l) ->
      tm_step l (Cancel t) l'
  | step_cancel_all l : tm_step l CancelAll []
  | step_reset l now l' :
      Permutation l'
        (map (fun st => mkScheduled (s_timeout st) (now + value_of values (t_kind (s_timeout st)))) l) ->
      tm_step l (Reset now) l'
  | step_report l x now l' :
      heap_greatest l x -> (now <? s_due x) = false -> Permutation l (x :: l') ->
      tm_step l (Report (s_timeout x) now) l'
  | step_idle_empty now : tm_step [] (Idle now) []
  | step_idle l x now : heap_greatest l x -> (now <? s_due x) = true -> tm_step l (Idle now) l.

  (* A run of the manager from its creation (internal.rs:101-104). *)
  Inductive tm_run : list op -> list scheduled -> Prop :=
  | run_new : tm_run [] []
  | run_step tr l o l' : tm_run tr l -> tm_step l o l' -> tm_run (tr ++ [o]) l'.
End Manager.
