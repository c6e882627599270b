(** Model of the search for an L2 gas limit in fee estimation and simulation,
    /repo/crates/executor/src/transaction.rs:120-429 and 608-674.

    Simplifications that hold for the whole file: execution of a transaction by blockifier is an
    arbitrary function of the L2 gas limit of the transaction and of the state; gas amounts are
    numbers below 2^64; log lines and metrics are left out. *)
From Coq Require Import List Bool NArith.
Import ListNotations.
Local Open Scope N_scope.

Definition U64_MAX : N := 2 ^ 64 - 1.
Definition U128_MAX : N := 2 ^ 128 - 1.

(** GasVector of starknet_api *)
Record gas_vector := GasVector { gv_l1 : N; gv_l1_data : N; gv_l2 : N }.

(** TransactionExecutionInfo::revert_error as far as it matters: whether its text contains
    OUT_OF_GAS_CAIRO_STRING (failed_with_insufficient_l2_gas, transaction.rs:674-682) *)
Inductive revert := RevertOutOfGas | RevertOther (text : N).
(** TransactionExecutionOutput: the gas of the receipt, the revert error, and the rest of it *)
Record output := Output { o_gas : gas_vector; o_revert : option revert; o_rest : N }.
(** the error of tx_executor.execute, with failed_with_insufficient_l2_gas_error *)
Inductive exec_error := ErrorOutOfGas | ErrorOther (text : N).
Inductive execution := Executed (o : output) | Failed (e : exec_error).

(** Percentage::of for u64, util/src/percentage.rs:30-45; [p] is at most 100 *)
Definition percentage_of (p v : N) : N := v * p / 100.
(** u64::saturating_add *)
Definition saturating_add (a b : N) : N := N.min U64_MAX (a + b).

(** L2_GAS_SEARCH_MARGIN, transaction.rs:129-130 *)
Definition L2_GAS_SEARCH_MARGIN : N := 1000000.

(** midpoint, transaction.rs:346-356; None: the panic of expect *)
Definition midpoint (a b : N) : option N :=
  if b <? a then None else Some (a + (b - a + 1) / 2).

(** search_done, transaction.rs:358-364 *)
Definition search_done (lower upper margin : N) : option bool :=
  if upper <? lower then None else Some (upper - lower <=? margin).

Section Search.
  Variable State : Type.
  (** tx_executor.execute on the transaction with the given L2 gas limit, with the state before
      and the state after *)
  Variable execute : N -> State -> execution * State.

  (** the errors of simulate_transaction, TransactionSimulationError, transaction.rs:424-429 *)
  Inductive sim_result :=
  | SimOk (o : output) (saved : State)
  | SimOutOfGas (saved : State)
  | SimError (reverted : bool) (text : N).

  (** simulate_transaction, transaction.rs:366-422: the result and the state of the executor *)
  Definition simulate_transaction (fail_on_revert : bool) (limit : N) (s : State)
    : sim_result * State :=
    let '(x, s') := execute limit s in
    (match x with
     | Executed o =>
         match o_revert o with
         | Some RevertOutOfGas => SimOutOfGas s
         | Some (RevertOther t) => if fail_on_revert then SimError true t else SimOk o s
         | None => SimOk o s
         end
     | Failed ErrorOutOfGas => SimOutOfGas s
     | Failed (ErrorOther t) => SimError false t
     end, s').

  (** the answers of find_l2_gas_limit_and_execute_transaction; [OutOfFuel] has no counterpart *)
  Inductive estimation :=
  | Estimated (o : output) (limit : gas_vector) (s : State)
  | Refused (reverted : bool) (text : N)
  | MaximumExceeded
  | Panics
  | OutOfFuel.

  (** the loop, transaction.rs:233-265; the state of the executor is [s] at the start of every
      turn, as it was restored *)
  Inductive search_result :=
  | Found (limit : N) (o : output) (s' saved : State)
  | SearchRefused (reverted : bool) (text : N)
  | SearchPanics
  | SearchOutOfFuel.
  Fixpoint search (fuel : nat) (fail_on_revert : bool) (lower upper current : N) (s : State)
    : search_result :=
    match fuel with
    | O => SearchOutOfFuel
    | S fuel' =>
        let '(r, s') := simulate_transaction fail_on_revert current s in
        match r with
        | SimOk o saved =>
            match search_done lower upper L2_GAS_SEARCH_MARGIN with
            | None => SearchPanics
            | Some true => Found current o s' saved
            | Some false =>
                match midpoint lower current with
                | None => SearchPanics
                | Some m => search fuel' fail_on_revert lower current m saved
                end
            end
        | SimOutOfGas saved =>
            match midpoint current upper with
            | None => SearchPanics
            | Some m => search fuel' fail_on_revert current upper m saved
            end
        | SimError r t => SearchRefused r t
        end
    end.

  (** execute_transaction, transaction.rs:313-344 *)
  Definition execute_transaction (fail_on_revert : bool) (limit : N) (s : State)
    : (output + bool * N) * State :=
    let '(x, s') := execute limit s in
    (match x with
     | Executed o =>
         match o_revert o with
         | Some RevertOutOfGas => if fail_on_revert then inr (true, 0) else inl o
         | Some (RevertOther t) => if fail_on_revert then inr (true, t) else inl o
         | None => inl o
         end
     | Failed ErrorOutOfGas => inr (false, 0)
     | Failed (ErrorOther t) => inr (false, t)
     end, s').

  (** the end of find_l2_gas_limit_and_execute_transaction, transaction.rs:277-311: the metric,
      whose expect may panic, and the second execution if the limit of the transaction is lower *)
  Definition finish (charge_fee fail_on_revert : bool) (initial consumed : N) (limit : gas_vector)
      (o : output) (s' saved : State) : estimation :=
    if gv_l2 limit <? consumed then Panics
    else if charge_fee && (initial <? gv_l2 limit) then
      match execute_transaction fail_on_revert initial saved with
      | (inl o', s'') => Estimated o' limit s''
      | (inr (r, t), _) => Refused r t
      end
    else Estimated o limit s'.

  (** find_l2_gas_limit_and_execute_transaction, transaction.rs:132-311.  [max]: the result of
      get_max_l2_gas_amount_covered_by_balance if fees are charged, else
      execute_max_sierra_gas.  [initial]: the limit in the transaction. *)
  Definition find_l2_gas_limit (fuel : nat) (charge_fee fail_on_revert : bool) (epsilon initial max : N)
      (s : State) : estimation :=
    let '(r1, _) := simulate_transaction fail_on_revert max s in
    match r1 with
    | SimError r t => Refused r t
    | SimOutOfGas _ => MaximumExceeded
    | SimOk o1 s1 =>
        let consumed := gv_l2 (o_gas o1) in
        let adjusted := saturating_add consumed (percentage_of epsilon consumed) in
        let '(r2, s2) := simulate_transaction fail_on_revert adjusted s1 in
        match r2 with
        | SimOk o2 saved =>
            finish charge_fee fail_on_revert initial consumed
              (GasVector (gv_l1 (o_gas o2)) (gv_l1_data (o_gas o2)) adjusted) o2 s2 saved
        | SimOutOfGas saved =>
            match midpoint consumed max with
            | None => Panics
            | Some m =>
                match search fuel fail_on_revert consumed max m saved with
                | Found limit o s' saved' =>
                    finish charge_fee fail_on_revert initial consumed
                      (GasVector (gv_l1 (o_gas o1)) (gv_l1_data (o_gas o1)) limit) o s' saved'
                | SearchRefused r t => Refused r t
                | SearchPanics => Panics
                | SearchOutOfFuel => OutOfFuel
                end
            end
        | SimError r t => Refused r t
        end
    end.
End Search.
Arguments SimOk {State}. Arguments SimOutOfGas {State}. Arguments SimError {State}.
Arguments Estimated {State}. Arguments Refused {State}. Arguments MaximumExceeded {State}.
Arguments Panics {State}. Arguments OutOfFuel {State}.
Arguments Found {State}. Arguments SearchRefused {State}. Arguments SearchPanics {State}.
Arguments SearchOutOfFuel {State}.

(** get_max_l2_gas_amount_covered_by_balance, transaction.rs:608-661, with
    balance_from_felt_pair, 663-672, and the effective price, 636-643; [fee_without_l2] is
    max_possible_fee of the bounds with the L2 gas set to zero *)
Definition balance_from_felt_pair (low high : N) : N := N.shiftl high 128 + low.
Definition effective_price (max_price tip : N) : N := N.max (N.min U128_MAX (max_price + tip)) 1.
Definition covered_by_balance (low high fee_without_l2 max_price tip : N) : N :=
  let balance := balance_from_felt_pair low high in
  if fee_without_l2 <? balance then
    let amount := (balance - fee_without_l2) / effective_price max_price tip in
    if amount <=? U64_MAX then amount else U64_MAX
  else 0.
