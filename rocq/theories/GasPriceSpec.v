(* Vocabulary for the gas price properties (C47-C49), independent of how the
   provider stores its window. *)
From Coq Require Import List NArith.
From Verif Require Import GasPriceModel.
Import ListNotations.
Local Open Scope N_scope.

(* The last [n] elements of a list. *)
Definition lastn {A} (n : nat) (l : list A) : list A := skipn (length l - n) l.

(* [s] may follow the samples of [log]: it is the next block and names the
   previous block as its parent.  Anything may follow an empty log. *)
Definition follows (log : list sample) (s : sample) : Prop :=
  log = [] \/
  exists init p, log = init ++ [p] /\
    block_number s = block_number p + 1 /\ parent_hash s = block_hash p.

(* The unbounded log of accepted samples since the last reset, and what each
   call must answer: a sample that does not follow the log is refused and
   changes nothing; a batch stops at its first refused sample. *)
Inductive offers : list sample -> list sample -> list sample -> bool -> Prop :=
| offers_done : forall log, offers log [] log true
| offers_take : forall log s ss log' ok,
    follows log s -> offers (log ++ [s]) ss log' ok -> offers log (s :: ss) log' ok
| offers_stop : forall log s ss, ~ follows log s -> offers log (s :: ss) log false.

Inductive log_call : list sample -> call -> list sample -> bool -> Prop :=
| log_offer : forall log s log' ok, offers log [s] log' ok -> log_call log (Offer s) log' ok
| log_offer_all : forall log ss log' ok, offers log ss log' ok -> log_call log (OfferAll ss) log' ok
| log_clear : forall log, log_call log Clear [] true.

Inductive log_run : list sample -> list call -> list sample -> list bool -> Prop :=
| log_run_nil : forall log, log_run log [] log []
| log_run_cons : forall log x log1 ok xs log2 oks,
    log_call log x log1 ok -> log_run log1 xs log2 oks ->
    log_run log (x :: xs) log2 (ok :: oks).

Definition accepted (r : add_result) : bool :=
  match r with Added => true | Refused _ => false end.

(* Consecutive block numbers, each block naming its predecessor. *)
Inductive contiguous : list sample -> Prop :=
| contig_nil : contiguous []
| contig_one : forall s, contiguous [s]
| contig_cons : forall s t w,
    block_number t = block_number s + 1 -> parent_hash t = block_hash s ->
    contiguous (t :: w) -> contiguous (s :: t :: w).

Definition samples_of (x : call) : list sample :=
  match x with Offer s => [s] | OfferAll ss => ss | Clear => [] end.

(* All offered block numbers leave room for a successor. *)
Definition numbers_ok (xs : list call) : Prop :=
  forall x s, In x xs -> In s (samples_of x) -> block_number s < I64_MAX.

(* The exact sum of a field, without machine bounds. *)
Definition total (f : sample -> N) (ss : list sample) : N :=
  fold_right (fun s acc => f s + acc) 0 ss.

(* The samples averaged for a query at time [t]: up to [blocks_for_mean] samples
   ending at the last one that is no newer than [t - lag]. *)
Definition averaged (c : config) (w : list sample) (t : N) (sel : list sample) : Prop :=
  exists before s after,
    w = before ++ s :: after /\
    timestamp s <= t - lag_margin c /\
    (forall x, In x after -> t - lag_margin c < timestamp x) /\
    sel = lastn (blocks_for_mean c) (before ++ [s]).

(* The window's newest sample is more than the allowed gap older than [t]. *)
Definition stale (c : config) (w : list sample) (t : N) : Prop :=
  exists init latest, w = init ++ [latest] /\ timestamp latest + max_time_gap c < t.

(* ---- L2 ---- *)

(* Constants that make the formula meaningful. *)
Definition l2_sane (k : l2_constants) : Prop :=
  0 < change_denominator k /\ 0 < gas_target k /\
  gas_target k * change_denominator k <= U128_MAX.

(* The price after a list of blocks with the given gas usages. *)
Fixpoint price_after (price min_price : N) (k : l2_constants) (used : list N) : ret N :=
  match used with
  | [] => Returns price
  | u :: us =>
      match next_base_gas_price price u min_price k with
      | Returns p => price_after p min_price k us
      | Panics => Panics
      end
  end.
