(* Starknet versions and transaction versions, crates/common/src/lib.rs. *)
From Coq Require Import List Arith NArith Bool.
From Verif Require Import Radix FeltModel.
Import ListNotations.
Local Open Scope N_scope.

(* struct StarknetVersion(u8, u8, u8, u8), lib.rs:492 *)
Record version := Version { v0 : N; v1 : N; v2 : N; v3 : N }.

(* as_u32, lib.rs:499-501: u32::from_le_bytes *)
Definition as_u32 (v : version) : N := rval 256 (rev [v0 v; v1 v; v2 v; v3 v]).

(* from_u32, lib.rs:503-506: to_le_bytes *)
Definition from_u32 (x : N) : version :=
  match rev (rdigits 256 4 x) with
  | [a; b; c; d] => Version a b c d
  | _ => Version 0 0 0 0
  end.

(* str::split('.') of the standard library: always at least one part *)
Fixpoint split_dots (s cur : bytes) : list bytes :=
  match s with
  | [] => [cur]
  | c :: s' => if c =? 46 then cur :: split_dots s' [] else split_dots s' (cur ++ [c])
  end.

(* str::parse::<u8> of the standard library: an optional '+', at least one decimal
   digit, value at most 255 (checked at every digit). *)
Fixpoint u8_digits (s : bytes) (acc : N) : option N :=
  match s with
  | [] => Some acc
  | c :: s' =>
      if (48 <=? c) && (c <=? 57) then
        let a := acc * 10 + (c - 48) in
        if a <=? 255 then u8_digits s' a else None
      else None
  end.
Definition parse_u8 (s : bytes) : option N :=
  match s with
  | [] => None
  | c :: t =>
      if c =? 43 then (match t with [] => None | _ => u8_digits t 0 end)
      else u8_digits s 0
  end.

(* FromStr for StarknetVersion, lib.rs:534-556 *)
Definition version_from_str (s : bytes) : option version :=
  match s with
  | [] => Some (Version 0 0 0 0)
  | _ =>
      match split_dots s [] with
      | [pa; pb; pc] =>
          match parse_u8 pa, parse_u8 pb, parse_u8 pc with
          | Some a, Some b, Some c => Some (Version a b c 0)
          | _, _, _ => None
          end
      | [pa; pb; pc; pd] =>
          match parse_u8 pa, parse_u8 pb, parse_u8 pc, parse_u8 pd with
          | Some a, Some b, Some c, Some d => Some (Version a b c d)
          | _, _, _, _ => None
          end
      | _ => None
      end
  end.

(* write!(f, "{}", u8) *)
Definition show_u8 (n : N) : bytes := map (fun d => 48 + d) (min_digits 10 n).

(* Display for StarknetVersion, lib.rs:558-569 *)
Definition version_to_string (v : version) : bytes :=
  if (v0 v =? 0) && (v1 v =? 0) && (v2 v =? 0) && (v3 v =? 0) then []
  else if v3 v =? 0 then show_u8 (v0 v) ++ [46] ++ show_u8 (v1 v) ++ [46] ++ show_u8 (v2 v)
  else show_u8 (v0 v) ++ [46] ++ show_u8 (v1 v) ++ [46] ++ show_u8 (v2 v) ++ [46] ++ show_u8 (v3 v).

(* derive(PartialOrd, Ord) on the tuple struct, lib.rs:491-492 *)
Definition then_cmp (a b : comparison) : comparison := match a with Eq => b | _ => a end.
Definition version_cmp (v w : version) : comparison :=
  then_cmp (v0 v ?= v0 w) (then_cmp (v1 v ?= v1 w) (then_cmp (v2 v ?= v2 w) (v3 v ?= v3 w))).

(* ---- TransactionVersion, lib.rs:230-279 ---- *)

(* without_query_version, lib.rs:243-246 *)
Definition without_query_version (f : felt) : N := rval 256 (skipn 16 f).

(* is_zero, lib.rs:234-236 *)
Definition tv_is_zero (f : felt) : bool := without_query_version f =? 0.

(* with_query_version, lib.rs:248-257; None is the panic *)
Definition with_query_version (f : felt) : option felt :=
  match from_be_bytes (set_nth 15 (N.lor (nth 15 f 0) 1) f) with
  | Ok x => Some x
  | Err _ => None
  end.

(* has_query_version, lib.rs:259-261 *)
Definition has_query_version (f : felt) : bool := negb (N.land (nth 15 f 0) 1 =? 0).

(* with_query_only, lib.rs:263-269 *)
Definition with_query_only (f : felt) (query_only : bool) : option felt :=
  if query_only then with_query_version f else from_u128 (without_query_version f).
