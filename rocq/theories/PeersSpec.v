(* What the statements about connections to peers are made of. *)
From Coq Require Import List NArith Bool Arith.
From Verif Require Import PeersModel.
Import ListNotations.
Local Open Scope N_scope.

(* the peers the operations were told of as connecting to us, and as being dialed *)
Definition inward (ops : list (N * op)) (id : N) : Prop := exists t a i, In (t, EstablishedIn id a i) ops.
Definition outward (ops : list (N * op)) (id : N) : Prop :=
  exists t, (exists d, In (t, PendingOut (Some id) d) ops) \/ (exists a i, In (t, EstablishedOut id a i) ops) \/
    In (t, DialFailed (Some id)) ops.
(* no peer is both *)
Definition one_way (ops : list (N * op)) : Prop := forall id, inward ops id -> outward ops id -> False.

Definition dir_eqb (a b : direction) : bool :=
  match a, b with Inbound, Inbound | Outbound, Outbound => true | _, _ => false end.
(* the peers with an open connection that they opened, and that is not being closed; over a relay or
   not *)
Definition inbound_open (relayed : bool) (w : world) : peer_set :=
  filter (fun e => is_connected (snd e) && eqb (is_relayed (snd e)) relayed &&
    existsb (fun c => (fst c =? fst e) && dir_eqb (snd c) Inbound) (w_conns w)) (w_set w).
(* the peers with an open connection that we opened, and that is not being closed *)
Definition outbound_open (w : world) : peer_set :=
  filter (fun e => is_connected (snd e) &&
    existsb (fun c => (fst c =? fst e) && dir_eqb (snd c) Outbound) (w_conns w)) (w_set w).

(* the entry of a peer *)
Definition entry (w : world) (id : N) (q : peer) : Prop := In (id, q) (w_set w).
Definition evicted_at (q : peer) (t : N) : Prop := p_evicted q = true /\ exists c, p_conn q = Disconnected c t.
Definition being_disconnected (q : peer) : Prop := exists c, p_conn q = Disconnecting c.
Definition connected (q : peer) : Prop := exists t, p_conn q = Connected t.

(* candidates for eviction: their number in a group *)
Definition population (c : list candidate) (g : N) : nat := length (filter (fun x => c_group x =? g) c).
