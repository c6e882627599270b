(* Vocabulary for the statements about starknet_getEvents. *)
From Coq Require Import List NArith PeanoNat Bool.
From Verif Require Import Radix VersionSpec BloomModel EventModel EventSpec GetEventsModel.
Import ListNotations.
Local Open Scope N_scope.

(* Decimal digits, with or without a plus sign in front, of a number below 2^64 *)
Definition uint_text (s : list N) (n : N) : Prop :=
  n < 2 ^ 64 /\ (plain_dec s n \/ exists t, s = text "+" ++ t /\ plain_dec t n).
(* The texts of a token: two such numbers with a minus sign in between *)
Definition token_text (s : list N) (t : token) : Prop :=
  exists a b, s = a ++ text "-" ++ b /\ uint_text a (t_block t) /\ uint_text b (N.of_nat (t_offset t)) /\ t_block t < 2 ^ 63.

(* Following continuation tokens until there is none: the pages. *)
Inductive followed {T} (ask : option T -> reply T) : option T -> list (list answer) -> Prop :=
| followed_last ct evs : ask ct = Page evs None -> followed ask ct [evs]
| followed_more ct evs t rest :
    ask ct = Page evs (Some t) -> followed ask (Some t) rest -> followed ask ct (evs :: rest).

(* The pending blocks that go with a chain: those newer than its latest block, if they directly
   follow it. *)
Definition pending_on (latest : N) (watched : pending) : list pending_block :=
  let blocks := match pd_pre_latest watched with Some b => [b] | None => [] end ++ [pd_pre_confirmed watched] in
  let newer := List.filter (fun b => latest <? pb_number b) blocks in
  match newer with
  | b :: _ => if pb_number b =? latest + 1 then newer else []
  | [] => []
  end.

(* All events of a pending block, and of the chain with its pending blocks *)
Definition pending_events (b : pending_block) : list answer :=
  flat_map (fun tx : (N * N) * list event =>
    map (fun i => mkAnswer (nth i (snd tx) (mkEvent 0 [] [])) None (pb_number b) (fst tx) i) (seq 0 (length (snd tx)))) (pb_txs b).
Definition all_events (chain : list block) (pend : list pending_block) : list answer :=
  map of_stored (emitted_in chain 0 (length chain)) ++ flat_map pending_events pend.

(* The first and last blocks asked for.  There may be no last one. *)
Definition first_block (chain : list block) (l1 : option N) (b : option block_id) (n : N) : Prop :=
  match b with
  | None => n = 0
  | Some (Number m) => n = m
  | Some (Hash h) => exists b, nth_error chain (N.to_nat n) = Some b /\ b_hash b = h
  | Some L1Accepted => l1 = Some n
  | Some Latest => n + 1 = N.of_nat (length chain)
  | Some PreConfirmed => n = N.of_nat (length chain)
  end.
Definition last_block (chain : list block) (l1 : option N) (b : option block_id) (n : option N) : Prop :=
  match b with
  | None | Some PreConfirmed => n = None
  | Some id => exists l, n = Some l /\ first_block chain l1 (Some id) l
  end.
Definition between (first : N) (last : option N) (e : answer) : bool :=
  (first <=? a_block_number e) && match last with Some l => a_block_number e <=? l | None => true end.
