(* What a block stored while tracking the head has to do with its header, and with what peers have. *)
From Coq Require Import List Arith NArith Bool.
From Verif Require Import TrackModel.
Import ListNotations.

(* the headers that arrived, with their signatures *)
Fixpoint arrived (acts : list act) : list (hdr * N) :=
  match acts with
  | [] => []
  | Arrive (IHeader _ h sig) :: l => (h, sig) :: arrived l
  | _ :: l => arrived l
  end.
Definition hashes (b : block) : list N := map (fun x => t_hash (fst x)) (b_txs b).

(* the transactions of a block with the events they emitted, those without events left out *)
Definition emitted (b : block) : list (N * list event) :=
  filter (fun x => match snd x with [] => false | _ => true end) (combine (hashes b) (b_events b)).
Definition sum (l : list nat) : nat := fold_right plus 0 l.

(* the contents of a block are those its header commits to *)
Record belongs (e : env) (h : hdr) (b : block) : Prop := {
  bl_header : b_header b = h;
  bl_tx_count : length (b_txs b) = hd_tx_count h;
  bl_tx_commitment : e_tx_commitment e (map fst (b_txs b)) (hd_version h) = hd_tx_commitment h;
  bl_tx_hashes : forall t r, In (t, r) (b_txs b) -> t_hash t = e_tx_hash e (t_body t);
  (* the receipts are filed under their transactions *)
  bl_receipts : forall i t r, nth_error (b_txs b) i = Some (t, r) -> r_hash r = t_hash t /\ r_index r = i;
  bl_events : length (b_events b) = length (b_txs b);
  bl_event_count : NoDup (hashes b) -> sum (map (@length event) (b_events b)) = hd_event_count h;
  bl_event_commitment : NoDup (hashes b) -> e_event_commitment e (emitted b) (hd_version h) = hd_event_commitment h;
  bl_diff : e_diff_commitment e (b_diff b) = hd_diff_commitment h;
  (* the classes are those declared in the block, each once, and have the hash they are declared with *)
  bl_cairo : forall c, In c (d_cairo (b_diff b)) <-> exists d m, In (c, Cairo d, m) (b_classes b);
  bl_sierra : forall c, In c (map fst (d_sierra (b_diff b))) <-> exists d m, In (c, Sierra d, m) (b_classes b);
  bl_once : NoDup (map (fun x => match x with (c, Cairo _, _) => (c, true) | (c, Sierra _, _) => (c, false) end) (b_classes b));
  bl_class_hash : forall c d m, In (c, d, m) (b_classes b) -> e_class_hash e d = Some c
}.
(* the state commitment of the header is that of the state after the block *)
Definition rooted (e : env) (l : list block) (i : nat) (h : hdr) : Prop :=
  e_root e (map b_diff (firstn (S i) l)) (hd_version h) = hd_root h.

(* no task can take a step, and none waits for an answer *)
Definition at_rest (e : env) (cap : cid -> nat) (s : state) : Prop :=
  forall p, step e cap s (Run p) = None /\ forall r k, prog e (s_loc s p) <> Ask r k.
(* the steps of tasks in a run *)
Definition worked (acts : list act) : nat :=
  length (filter (fun a => match a with Run _ | Answer _ _ => true | _ => false end) acts).

(* ---- peers that have the chain ---- *)
Record world := World {
  w_txs : N -> list (tx * N);
  w_events : N -> list (N * event);
  w_diff : N -> diff;
  w_classes : N -> list (N * def)
}.
(* what an honest peer answers for block [n] *)
Definition honest (w : world) (n : N) (a : answer) : Prop :=
  match a with
  | ATxs _ l => l = map Some (w_txs w n)
  | AEvents _ l => l = map Some (w_events w n)
  | ADiff _ d => d = Some (w_diff w n)
  | AClasses _ l => l = Some (w_classes w n)
  end.
(* every answer in the run is honest, given which block it was asked for *)
Fixpoint honestly (e : env) (cap : cid -> nat) (w : world) (s : state) (acts : list act) : Prop :=
  match acts with
  | [] => True
  | a :: l =>
      match a with
      | Answer p x => forall r k, prog e (s_loc s p) = Ask r k -> honest w (snd r) x
      | Arrive (IErr _) | NoMore => False
      | _ => True
      end /\
      match step e cap s a with Some s' => honestly e cap w s' l | None => True end
  end.
(* the events of each transaction, those without events left out *)
Definition by_tx (l : list (N * event)) (txs : list N) : list (N * list event) :=
  filter (fun x => match snd x with [] => false | _ => true end)
    (map (fun t => (t, map snd (filter (fun x => N.eqb (fst x) t) l))) txs).
(* the header describes what the world has for its number *)
Definition describes (e : env) (w : world) (h : hdr) : Prop :=
  let n := hd_number h in
  let txs := map (fun x => Tx (t_hash (fst x)) (e_address e (t_body (fst x)))) (w_txs w n) in
  length (w_txs w n) = hd_tx_count h /\
  (forall t, In t txs -> t_hash t = e_tx_hash e (t_body t)) /\
  e_tx_commitment e txs (hd_version h) = hd_tx_commitment h /\
  length (w_events w n) = hd_event_count h /\
  NoDup (map t_hash txs) /\
  (forall x, In x (w_events w n) -> In (fst x) (map t_hash txs)) /\
  e_event_commitment e (by_tx (w_events w n) (map t_hash txs)) (hd_version h) = hd_event_commitment h /\
  e_diff_commitment e (w_diff w n) = hd_diff_commitment h /\
  NoDup (map (fun x => match x with (c, Cairo _) => (c, true) | (c, Sierra _) => (c, false) end) (w_classes w n)) /\
  (forall c, In c (d_cairo (w_diff w n)) <-> exists d, In (c, Cairo d) (w_classes w n)) /\
  (forall c, In c (map fst (d_sierra (w_diff w n))) <-> exists d, In (c, Sierra d) (w_classes w n)) /\
  (forall c d, In (c, d) (w_classes w n) -> e_class_hash e d = Some c) /\
  (forall c d, In (c, Sierra d) (w_classes w n) -> e_casm e c d <> None).
(* the headers are numbered from the first tracked block on, describe the world, and have the right
   state commitments *)
Definition true_headers (e : env) (w : world) (first : N) (l : list (hdr * N)) : Prop :=
  forall i h sig, nth_error l i = Some (h, sig) ->
    hd_number h = (first + N.of_nat i)%N /\ describes e w h /\
    e_root e (map (fun j => w_diff w (first + N.of_nat j)%N) (seq 0 (S i))) (hd_version h) = hd_root h.
