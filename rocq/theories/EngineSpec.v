(* Vocabulary for the statements about the consensus engines. *)
From Coq Require Import List NArith Bool.
From Verif Require Import WalModel EngineModel.
Import ListNotations.
Local Open Scope N_scope.

(* A height decides in a step: its running engine is told to decide while it is polled, or
   its restored engine is while its log is replayed at start. *)
Definition decides (n : node) (o : node_op) (n' : node) (h : N) : Prop :=
  match o with
  | ONext polls => is_height_active n h = true /\ exists ch v, In (FxDecide ch v) (polls h)
  | ORestart _ _ replay => is_height_active n' h = true /\ exists ch v, In (FxDecide ch v) (replay h)
  | _ => False
  end.

(* No operation of the run lets height h decide. *)
Definition never_told (h : N) (o : node_op) : Prop :=
  match o with
  | ONext polls => forall ch v, ~ In (FxDecide ch v) (polls h)
  | ORestart _ _ replay => forall ch v, ~ In (FxDecide ch v) (replay h)
  | _ => True
  end.
