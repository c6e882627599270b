(* Model of validator sets and proposer selection:
   crates/consensus/src/lib.rs:1060-1140 and 1284-1329,
   crates/consensus/src/internal/malachite.rs:186-268 and 449-480,
   crates/pathfinder/src/consensus/inner/fetch_proposers.rs:27-52.

   Addresses are numbers ordered as numbers (ContractAddress is a felt; the Rust
   code is generic in any ordered address type).  A panic is None. *)
From Coq Require Import List NArith.
From Verif Require Import AList SortedMap.
Import ListNotations.
Local Open Scope N_scope.

(* Validator, crates/consensus/src/lib.rs:1070-1077; the public key is an opaque number. *)
Record validator := mkValidator { v_addr : N; v_key : N; v_power : N }.

(* ValidatorSet::new, crates/consensus/src/lib.rs:1117-1130: collects into a BTreeMap
   keyed by address, asserts that it is not empty, keeps the values in key order. *)
Definition vs_new (l : list validator) : option (list validator) :=
  match bt_collect N.ltb (map (fun v => (v_addr v, v)) l) with
  | [] => None
  | m => Some (map snd m)
  end.

(* ValidatorSet::count, crates/consensus/src/lib.rs:1133-1135. *)
Definition vs_count (vs : list validator) : N := N.of_nat (length vs).

(* u64 addition under overflow-checks = true (Cargo.toml:162-163). *)
Definition u64_add (a b : N) : option N := if a + b <? 2 ^ 64 then Some (a + b) else None.

(* total_voting_power, crates/consensus/src/internal/malachite.rs:257-259: an iterator
   sum over u64, left to right from zero. *)
Definition vs_total_power (vs : list validator) : option N :=
  fold_left (fun acc v => match acc with Some a => u64_add a (v_power v) | None => None end) vs (Some 0).

(* get_by_address, crates/consensus/src/internal/malachite.rs:261-263. *)
Definition vs_get (vs : list validator) (a : N) : option validator :=
  find (fun v => v_addr v =? a) vs.

(* RoundRobinProposerSelector::select_proposer, crates/consensus/src/lib.rs:1313-1323:
   validators[round % count]; a remainder by zero panics. *)
Definition round_robin (vs : list validator) (round : N) : option validator :=
  if vs_count vs =? 0 then None else nth_error vs (N.to_nat (round mod vs_count vs)).

(* MalachiteContext::select_proposer, crates/consensus/src/internal/malachite.rs:449-480:
   asks the configured selector, then looks its address up in the set. *)
Definition ctx_select (sel : list validator -> N -> option validator)
    (vs : list validator) (round : N) : option validator :=
  match sel vs round with
  | Some v => vs_get vs (v_addr v)
  | None => None
  end.

(* L2ProposerSelector::select_proposer, crates/pathfinder/src/consensus/inner/
   fetch_proposers.rs:28-51: the first member of the proposer set of the height, whatever
   the round.  The proposers are given as the argument (they come from the node's
   configuration or from an L2 contract, fetch_proposers.rs:75-131). *)
Definition l2_select (proposers : list validator) (vs : list validator) (round : N) : option validator :=
  match vs_new proposers with
  | Some (p :: _) => vs_get vs (v_addr p)
  | _ => None
  end.
