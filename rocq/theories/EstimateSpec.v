(** Vocabulary for the properties of fee estimation. *)
From Coq Require Import List Bool NArith.
From Verif Require Import EstimateModel.
Import ListNotations.
Local Open Scope N_scope.

Section Runs.
  Variable State : Type.
  Variable execute : N -> State -> execution * State.

  (* with this limit the transaction runs: it is not stopped for lack of L2 gas, and is not
     reverted at all if reverted transactions count as failures *)
  Definition runs (fail_on_revert : bool) (limit : N) (s : State) (o : output) (s' : State) : Prop :=
    execute limit s = (Executed o, s') /\ o_revert o <> Some RevertOutOfGas /\
    (fail_on_revert = true -> o_revert o = None).

  (* with this limit it is stopped for lack of L2 gas *)
  Definition starves (limit : N) (s : State) : Prop :=
    fst (execute limit s) = Failed ErrorOutOfGas \/
    exists o, fst (execute limit s) = Executed o /\ o_revert o = Some RevertOutOfGas.

  Definition consumes (o : output) : N := gv_l2 (o_gas o).
End Runs.
