(* Model of the gas price crate: the L1 sample window (crates/gas-price/src/l1.rs)
   and the L2 base price formula (crates/gas-price/src/l2.rs).

   Machine integers are N; every place where the Rust code can overflow is an
   explicit outcome.  The workspace builds release binaries with
   overflow-checks = true (Cargo.toml:162-163), so overflowing + - * panic.
   Not modelled: the f64 deviation check (lib.rs deviation_pct and the two
   validate functions built on it), the oracle, logging. *)
From Coq Require Import List NArith.
Import ListNotations.
Local Open Scope N_scope.

(* i64::MAX, the bound of L1BlockNumber::new (crates/common/src/macros.rs:9-17). *)
Definition I64_MAX : N := 2 ^ 63 - 1.
Definition U64_MAX : N := 2 ^ 64 - 1.
Definition U128_MAX : N := 2 ^ 128 - 1.

(* A Rust computation that either returns or panics. *)
Inductive ret (A : Type) := Returns (a : A) | Panics.
Arguments Returns {A} a.
Arguments Panics {A}.

(* ---- L1 samples ---- *)

(* pathfinder_ethereum L1GasPriceData as used by crates/gas-price/src/l1.rs:
   hashes are opaque numbers. *)
Record sample := mkSample {
  block_number : N;
  block_hash : N;
  parent_hash : N;
  timestamp : N;
  base_fee : N;
  blob_fee : N }.

(* L1GasPriceConfig, crates/gas-price/src/l1.rs:15-40, without the f64 tolerance. *)
Record config := mkConfig {
  storage_limit : nat;
  blocks_for_mean : nat;
  lag_margin : N;
  max_time_gap : N }.

(* AddSampleError, crates/gas-price/src/l1.rs:104-116. *)
Inductive add_error :=
| Gap (expected actual : N)
| Reorg (number expected_parent actual_parent : N).

Inductive add_result := Added | Refused (e : add_error).

(* buffer.back() *)
Fixpoint back (w : list sample) : option sample :=
  match w with
  | [] => None
  | [s] => Some s
  | _ :: w' => back w'
  end.

(* buffer.pop_front() (no effect on an empty buffer) *)
Definition pop_front (w : list sample) : list sample :=
  match w with [] => [] | _ :: w' => w' end.

(* lines 201-206: drop the oldest sample when full, then push_back *)
Definition push (c : config) (w : list sample) (s : sample) : list sample :=
  (if Nat.leb (storage_limit c) (length w) then pop_front w else w) ++ [s].

(* L1GasPriceProvider::add_sample, crates/gas-price/src/l1.rs:179-207.
   A panic in new_or_panic poisons the lock: see [provider_step]. *)
Definition add_sample (c : config) (w : list sample) (s : sample)
  : ret (list sample * add_result) :=
  match back w with
  | Some last =>
      let expected := block_number last + 1 in
      if I64_MAX <? expected then Panics
      else if negb (block_number s =? expected)
      then Returns (w, Refused (Gap expected (block_number s)))
      else if negb (parent_hash s =? block_hash last)
      then Returns (w, Refused (Reorg (block_number s) (block_hash last) (parent_hash s)))
      else Returns (push c w s, Added)
  | None => Returns (push c w s, Added)
  end.

(* L1GasPriceProvider::add_samples, crates/gas-price/src/l1.rs:210-215:
   samples before the first refused one stay in the buffer. *)
Fixpoint add_samples (c : config) (w : list sample) (ss : list sample)
  : ret (list sample * add_result) :=
  match ss with
  | [] => Returns (w, Added)
  | s :: ss' =>
      match add_sample c w s with
      | Panics => Panics
      | Returns (w', Added) => add_samples c w' ss'
      | Returns (w', Refused e) => Returns (w', Refused e)
      end
  end.

(* The calls that change the buffer. *)
Inductive call := Offer (s : sample) | OfferAll (ss : list sample) | Clear.

(* One call; [clear] is crates/gas-price/src/l1.rs:219-221. *)
Definition provider_step (c : config) (w : list sample) (x : call)
  : ret (list sample * add_result) :=
  match x with
  | Offer s => add_sample c w s
  | OfferAll ss => add_samples c w ss
  | Clear => Returns ([], Added)
  end.

(* A sequence of calls on a fresh provider (crates/gas-price/src/l1.rs:144-151).
   After a panic the RwLock is poisoned and every later call panics too, so the
   run as a whole has no further results: it is [Panics]. *)
Fixpoint provider_run (c : config) (w : list sample) (xs : list call)
  : ret (list sample * list add_result) :=
  match xs with
  | [] => Returns (w, [])
  | x :: xs' =>
      match provider_step c w x with
      | Panics => Panics
      | Returns (w', r) =>
          match provider_run c w' xs' with
          | Panics => Panics
          | Returns (w'', rs) => Returns (w'', r :: rs)
          end
      end
  end.

(* ---- L1 average ---- *)

(* The two errors get_average_prices can return, crates/gas-price/src/l1.rs:77-88. *)
Inductive price_error := StaleData | NoDataAvailable.
Inductive price_result := Average (base blob : N) | PriceError (e : price_error).

(* iter().rposition(|data| data.timestamp <= target): index of the last
   matching sample, crates/gas-price/src/l1.rs:251-253. *)
Fixpoint rposition (target : N) (w : list sample) : option nat :=
  match w with
  | [] => None
  | s :: w' =>
      match rposition target w' with
      | Some i => Some (S i)
      | None => if timestamp s <=? target then Some O else None
      end
  end.

(* u128::saturating_add *)
Definition saturating_add (a b : N) : N := N.min (a + b) U128_MAX.

(* the loop of lines 286-289 *)
Fixpoint sum_loop (ss : list sample) (acc : N * N) : N * N :=
  match ss with
  | [] => acc
  | s :: ss' =>
      sum_loop ss' (saturating_add (fst acc) (base_fee s),
                    saturating_add (snd acc) (blob_fee s))
  end.

(* buffer.range(first..last) *)
Definition range (first last : nat) (w : list sample) : list sample :=
  firstn (last - first) (skipn first w).

(* L1GasPriceProvider::get_average_prices, crates/gas-price/src/l1.rs:226-295.
   [latest.timestamp + max_time_gap_seconds] is a plain u64 addition. *)
Definition get_average_prices (c : config) (w : list sample) (t : N) : ret price_result :=
  match back w with
  | None => Returns (PriceError NoDataAvailable)
  | Some latest =>
      let limit := timestamp latest + max_time_gap c in
      if U64_MAX <? limit then Panics
      else if limit <? t then Returns (PriceError StaleData)
      else
        let target := t - lag_margin c in
        match rposition target w with
        | None => Returns (PriceError NoDataAvailable)
        | Some idx =>
            let last := S idx in
            let first := (last - blocks_for_mean c)%nat in
            let count := (last - first)%nat in
            match count with
            | O => Returns (PriceError NoDataAvailable)
            | _ =>
                let (b, d) := sum_loop (range first last w) (0, 0) in
                Returns (Average (b / N.of_nat count) (d / N.of_nat count))
            end
        end
  end.

(* ---- L2 base price ---- *)

(* L2GasPriceConstants, crates/gas-price/src/l2.rs:13-19 (max_block_size is not
   used by the formula). *)
Record l2_constants := mkL2 {
  change_denominator : N;
  gas_target : N;
  max_block_size : N;
  l2_min_gas_price : N }.

(* crates/gas-price/src/l2.rs:23-28 *)
Definition PRE_0_14_1 : l2_constants := mkL2 48 3200000000 4000000000 3000000000.
(* crates/gas-price/src/l2.rs:31-36 *)
Definition POST_0_14_1 : l2_constants := mkL2 48 4000000000 5000000000 8000000000.

(* crates/gas-price/src/l2.rs:51 *)
Definition MIN_GAS_PRICE_INCREASE_DENOMINATOR : N := 333.

(* u128::abs_diff *)
Definition abs_diff (a b : N) : N := if a <? b then b - a else a - b.

(* calculate_next_base_gas_price, crates/gas-price/src/l2.rs:59-103.  Divisions
   by zero panic in Rust; both constant sets have non-zero denominators and the
   theorems assume it. *)
Definition next_base_gas_price (price gas_used min_price : N) (k : l2_constants) : ret N :=
  if price <? min_price then
    let max_increase := price / MIN_GAS_PRICE_INCREASE_DENOMINATOR in
    let adjusted := price + max_increase in
    if U128_MAX <? adjusted then Panics
    else Returns (N.min adjusted min_price)
  else
    let delta := abs_diff gas_used (gas_target k) in
    if U128_MAX <? price * delta then
      if gas_target k <? gas_used
      then Returns (saturating_add price (price / change_denominator k))
      else Returns (N.max (price - price / change_denominator k) min_price)
    else
      let denominator := gas_target k * change_denominator k in
      if U128_MAX <? denominator then Panics
      else
        let change := (price * delta) / denominator in
        if gas_target k <? gas_used then
          if U128_MAX <? price + change then Panics
          else Returns (N.max (price + change) min_price)
        else
          if price <? change then Panics
          else Returns (N.max (price - change) min_price).

(* L2GasPriceProvider, crates/gas-price/src/l2.rs:115-159: the expected price of
   the next block, if any block has been seen. *)
Definition l2_update (price consumed : N) (k : l2_constants) : ret (option N) :=
  match next_base_gas_price price consumed (l2_min_gas_price k) k with
  | Returns p => Returns (Some p)
  | Panics => Panics
  end.

Inductive l2_verdict := L2Valid | L2Invalid (proposed expected : N) | L2InsufficientData.

(* L2GasPriceProvider::validate, crates/gas-price/src/l2.rs:151-158 *)
Definition l2_validate (st : option N) (proposed : N) : l2_verdict :=
  match st with
  | None => L2InsufficientData
  | Some expected => if proposed =? expected then L2Valid else L2Invalid proposed expected
  end.
