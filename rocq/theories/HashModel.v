(* The incremental hashers of crates/crypto/src/hash. *)
From Coq Require Import List Arith NArith Bool.
Import ListNotations.

(* ---- Poseidon, crates/crypto/src/hash/poseidon/hash.rs ---- *)
Section Poseidon.
(* MontFelt with its constants and addition (modelled in MontModel.v), and the
   permutation of permutation.rs:56-76, which stays abstract here. *)
Variable F : Type.
Variables zero one two : F.
Variable add : F -> F -> F.
Variable permute : F * F * F -> F * F * F.

(* PoseidonState = [MontFelt; 3], permutation.rs:5 *)
Definition state : Type := F * F * F.

(* state[0] += x, state[1] += x *)
Definition add0 (s : state) (x : F) : state := let '(a, b, c) := s in (add a x, b, c).
Definition add1 (s : state) (x : F) : state := let '(a, b, c) := s in (a, add b x, c).
(* state[0] *)
Definition out (s : state) : F := let '(a, _, _) := s in a.

(* poseidon_hash, hash.rs:7-12 *)
Definition poseidon_hash (x y : F) : F := out (permute (x, y, two)).

(* the chunks_exact(2) loop of poseidon_hash_many, hash.rs:18-24; returns the state
   and the remainder *)
Fixpoint absorb_chunks (s : state) (msgs : list F) : state * list F :=
  match msgs with
  | x :: y :: rest => absorb_chunks (permute (add1 (add0 s x) y)) rest
  | r => (s, r)
  end.

(* poseidon_hash_many, hash.rs:17-33; the remainder has at most one element, so
   state[r.len()] is state[0] or state[1] *)
Definition poseidon_hash_many (msgs : list F) : F :=
  let '(s, r) := absorb_chunks (zero, zero, zero) msgs in
  let s := match r with x :: _ => add0 s x | [] => s end in
  let s := match length r with 0 => add0 s one | _ => add1 s one end in
  out (permute s).

(* struct PoseidonHasher, hash.rs:39-42 *)
Record hasher := Hasher { h_state : state; h_buffer : option F }.

(* new, hash.rs:46-51 *)
Definition hasher_new : hasher := Hasher (zero, zero, zero) None.

(* write (and chain), hash.rs:54-71 *)
Definition write (h : hasher) (msg : F) : hasher :=
  match h_buffer h with
  | Some prev => Hasher (permute (add1 (add0 (h_state h) prev) msg)) None
  | None => Hasher (h_state h) (Some msg)
  end.

(* finish, hash.rs:74-88 *)
Definition finish (h : hasher) : F :=
  let s := match h_buffer h with
           | Some last => add1 (add0 (h_state h) last) one
           | None => add0 (h_state h) one
           end in
  out (permute s).
End Poseidon.

(* ---- HashChain, crates/crypto/src/hash/pedersen/chain.rs ---- *)
Section Chain.
Local Open Scope N_scope.
(* pedersen_hash on felts, identified with their numbers *)
Variable H : N -> N -> N.

Definition USIZE_MAX : N := 18446744073709551615.

(* struct HashChain, chain.rs:12-16; Default is zero and zero *)
Record chain := Chain { c_hash : N; c_count : N }.
Definition chain_default : chain := Chain 0 0.

(* update, chain.rs:19-25; None is the panic of the checked_add *)
Definition chain_update (c : chain) (value : N) : option chain :=
  if c_count c + 1 <=? USIZE_MAX then Some (Chain (H (c_hash c) value) (c_count c + 1)) else None.

(* finalize, chain.rs:32-36; the 8-byte slice always fits a felt (C03_slice) *)
Definition chain_finalize (c : chain) : N := H (c_hash c) (c_count c).

(* single, chain.rs:38-40 *)
Definition chain_single (value : N) : option N :=
  match chain_update chain_default value with
  | Some c => Some (chain_finalize c)
  | None => None
  end.

(* a sequence of updates *)
Fixpoint chain_updates (c : chain) (l : list N) : option chain :=
  match l with
  | [] => Some c
  | x :: l' => match chain_update c x with Some c' => chain_updates c' l' | None => None end
  end.
Definition hash_chain (l : list N) : option N :=
  match chain_updates chain_default l with
  | Some c => Some (chain_finalize c)
  | None => None
  end.
End Chain.
