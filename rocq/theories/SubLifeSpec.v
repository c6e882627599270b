(* What a client of a websocket connection sees: the ids it was given, the subscriptions it was told
   have ended, and the items and errors of a subscription, in the order in which they are sent. *)
From Coq Require Import List Arith NArith Bool.
From Verif Require Import SubLifeModel.
Import ListNotations.
Local Open Scope N_scope.

Definition given_by (a : answer) : list N := match a with ASub id => [id] | _ => [] end.
Definition ended_by (a : answer) : list N := match a with AUnsub id => [id] | _ => [] end.
Definition given (o : out) : list N := match o with OReply l => flat_map given_by l | _ => [] end.
Definition ended (o : out) : list N := match o with OReply l => flat_map ended_by l | _ => [] end.
Definition given_ids (l : list out) : list N := flat_map given l.
Definition ended_ids (l : list out) : list N := flat_map ended l.

(* the items sent for a subscription *)
Definition item_of (id : N) (o : out) : list nat :=
  match o with ONote k n => if N.eqb k id then [n] else [] | _ => [] end.
Definition items (id : N) (l : list out) : list nat := flat_map (item_of id) l.
(* the errors sent for a subscription *)
Definition err_of (id : N) (o : out) : list unit :=
  match o with OErr k => if N.eqb k id then [tt] else [] | _ => [] end.
Definition errors (id : N) (l : list out) : nat := length (flat_map (err_of id) l).

(* about subscription [id]: an item or an error of it *)
Definition about (id : N) (o : out) : Prop := (exists n, o = ONote id n) \/ o = OErr id.

(* the ids the client has asked to unsubscribe *)
Definition asked (acts : list act) : list N :=
  flat_map (fun a => match a with
                     | Receive qs => flat_map (fun q => match q with QUnsub id => [id] | _ => [] end) qs
                     | _ => []
                     end) acts.

(* the first so many numbers *)
Definition first_items (l : list nat) : Prop := l = seq 0 (length l).
