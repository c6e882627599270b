(** Model of the consensus proposal streams:
    /repo/crates/p2p/src/consensus.rs and /repo/crates/p2p/src/consensus/stream.rs,
    /repo/crates/p2p/src/consensus/height_and_round.rs. *)
From Coq Require Import List Bool NArith Arith Lia.
From Verif Require Import AList.
Import ListNotations.
Local Open Scope N_scope.

(** HeightAndRound: height_and_round.rs 6-10 (u64 height, u32 round). *)
Definition stream_id : Type := (N * N)%type.

(** derived PartialEq of HeightAndRound: height_and_round.rs 6. *)
Definition sid_eqb (a b : stream_id) : bool :=
  (fst a =? fst b) && (snd a =? snd b).

(** Big-endian encoding of [n] into [k] bytes; models BufMut::put_u64 / put_u32
    (height_and_round.rs 35-42). *)
Fixpoint be_bytes (k : nat) (n : N) : list N :=
  match k with
  | O => []
  | S k' => be_bytes k' (n / 256) ++ [n mod 256]
  end.

(** Big-endian decoding; models Buf::get_u64 / get_u32 (height_and_round.rs 54-57). *)
Definition be_value (bs : list N) : N := fold_left (fun acc b => acc * 256 + b) bs 0.

(** From<HeightAndRound> for Vec<u8>: height_and_round.rs 35-42. *)
Definition hr_encode (s : stream_id) : list N := be_bytes 8 (fst s) ++ be_bytes 4 (snd s).

(** TryFrom<Vec<u8>> for HeightAndRound: height_and_round.rs 44-59. *)
Definition hr_decode (bs : list N) : option stream_id :=
  if negb (Nat.eqb (length bs) 12) then None
  else Some (be_value (firstn 8 bs), be_value (firstn 4 (skipn 8 bs))).

Section Stream.
  (** The payload type and the test "is this ProposalPart::Fin".  ProposalPart is
      kept abstract: the code only inspects whether it is the Fin variant
      (consensus.rs 154). *)
  Context {Part Peer : Type}.
  Variable is_fin_part : Part -> bool.

  (** StreamMessageBody: stream.rs 59-65. *)
  Inductive body := Content (p : Part) | Fin.

  (** StreamMessage: stream.rs 13-21. *)
  Record msg := Msg { m_stream : stream_id; m_id : N; m_body : body }.

  (** IncomingStreamState: stream.rs 93-101. *)
  Record incoming := Incoming_ {
    next_id : N; received : list (N * msg); fin_id : option N }.

  (** OutgoingStreamState: stream.rs 115-122. *)
  Record outgoing := Outgoing_ {
    last_sent : option N; sent : list (N * Part); fin_sent : bool }.

  (** StreamState: stream.rs 72-77. *)
  Inductive stream_state := Incoming (i : incoming) | Outgoing (o : outgoing).

  (** IncomingStreamState::new: stream.rs 103-111. *)
  Definition new_incoming : incoming := Incoming_ 0 [] None.

  (** OutgoingStreamState::new: stream.rs 124-132. *)
  Definition new_outgoing : outgoing := Outgoing_ None [] false.

  (** State::active_streams: consensus.rs 109-116 (peer scores are unrelated). *)
  Definition state : Type := list (stream_id * stream_state).

  (** Event with EventKind::Proposal: consensus.rs 64-77. *)
  Record event := Event { ev_source : Peer; ev_stream : stream_id; ev_part : Part }.

  (** A panic of the code is an explicit outcome. *)
  Inductive outcome (A : Type) := Ok (a : A) | Panic.
  Arguments Ok {A} a.
  Arguments Panic {A}.

  (** The body of create_outgoing_proposal_message on an outgoing stream:
      consensus.rs 140-165. *)
  Definition out_create (o : outgoing) (s : stream_id) (p : Part) : outgoing * list msg :=
    let message_id := match last_sent o with Some id => id + 1 | None => 0 end in
    let sent' := al_set N.eqb message_id p (sent o) in
    let m1 := Msg s message_id (Content p) in
    if is_fin_part p then
      (Outgoing_ (Some message_id) sent' true, [m1; Msg s (message_id + 1) Fin])
    else
      (Outgoing_ (Some message_id) sent' (fin_sent o), [m1]).

  (** create_outgoing_proposal_message: consensus.rs 127-171. *)
  Definition create_outgoing (st : state) (s : stream_id) (p : Part)
    : outcome (state * list msg) :=
    match (match al_get sid_eqb s st with
           | Some ss => ss
           | None => Outgoing new_outgoing
           end) with
    | Outgoing o =>
        let (o', ms) := out_create o s p in
        Ok (al_set sid_eqb s (Outgoing o') st, ms)
    | Incoming _ => Panic
    end.

  (** The loop draining buffered messages: consensus.rs 223-232.  Every iteration
      removes an entry, so [length received] iterations suffice; [fuel] is that
      number and the exhausted case returns the state unchanged (it is shown to
      be unreachable in P2PStreamProof.drain_complete). *)
  Fixpoint drain (fuel : nat) (st : incoming) (src : Peer) (s : stream_id)
    : incoming * list event :=
    match fuel with
    | O => (st, [])
    | S f =>
        match al_get N.eqb (next_id st) (received st) with
        | None => (st, [])
        | Some m =>
            let rest := al_remove N.eqb (next_id st) (received st) in
            match m_body m with
            | Content c =>
                let (st', evs) :=
                  drain f (Incoming_ (next_id st + 1) rest (fin_id st)) src s in
                (st', Event src s c :: evs)
            | Fin => drain f (Incoming_ (next_id st) rest (fin_id st)) src s
            end
        end
    end.

  (** The body of handle_incoming_proposal_message on an incoming stream:
      consensus.rs 187-234. *)
  Definition inc_handle (st : incoming) (m : msg) (src : Peer)
    : incoming * list event :=
    if match fin_id st with Some f => f <=? m_id m | None => false end then (st, [])
    else
      match m_body m with
      | Fin =>
          (Incoming_ (next_id st)
                     (al_retain (fun id => id <? m_id m) (received st))
                     (Some (m_id m)), [])
      | Content c =>
          if negb (m_id m =? next_id st) then
            (Incoming_ (next_id st) (al_set N.eqb (m_id m) m (received st)) (fin_id st), [])
          else
            let st1 := Incoming_ (next_id st + 1) (received st) (fin_id st) in
            let (st2, evs) := drain (length (received st1)) st1 src (m_stream m) in
            (st2, Event src (m_stream m) c :: evs)
      end.

  (** handle_incoming_proposal_message: consensus.rs 174-238. *)
  Definition handle_incoming (st : state) (m : msg) (src : Peer)
    : outcome (state * list event) :=
    match (match al_get sid_eqb (m_stream m) st with
           | Some ss => ss
           | None => Incoming new_incoming
           end) with
    | Incoming i =>
        let (i', evs) := inc_handle i m src in
        Ok (al_set sid_eqb (m_stream m) (Incoming i') st, evs)
    | Outgoing _ => Panic
    end.

  (** The network loop feeding one received message after another (the caller in
      p2p/src/consensus/behaviour.rs); stops at a panic. *)
  Fixpoint run_incoming (st : state) (ms : list (msg * Peer))
    : outcome (state * list event) :=
    match ms with
    | [] => Ok (st, [])
    | (m, src) :: ms' =>
        match handle_incoming st m src with
        | Panic => Panic
        | Ok (st1, e1) =>
            match run_incoming st1 ms' with
            | Panic => Panic
            | Ok (st2, e2) => Ok (st2, e1 ++ e2)
            end
        end
    end.

  (** Sending a list of parts on a stream, one call per part. *)
  Fixpoint run_outgoing (st : state) (s : stream_id) (ps : list Part)
    : outcome (state * list msg) :=
    match ps with
    | [] => Ok (st, [])
    | p :: ps' =>
        match create_outgoing st s p with
        | Panic => Panic
        | Ok (st1, m1) =>
            match run_outgoing st1 s ps' with
            | Panic => Panic
            | Ok (st2, m2) => Ok (st2, m1 ++ m2)
            end
        end
    end.
End Stream.

Arguments Content {Part} p.
Arguments Fin {Part}.
Arguments Msg {Part} _ _ _.
Arguments m_stream {Part} _.
Arguments m_id {Part} _.
Arguments m_body {Part} _.
Arguments Incoming_ {Part} _ _ _.
Arguments next_id {Part} _.
Arguments received {Part} _.
Arguments fin_id {Part} _.
Arguments Event {Part Peer} _ _ _.
Arguments ev_source {Part Peer} _.
Arguments ev_stream {Part Peer} _.
Arguments ev_part {Part Peer} _.
Arguments Ok {A} a.
Arguments Panic {A}.
Arguments new_incoming {Part}.
Arguments new_outgoing {Part}.
Arguments Incoming {Part} i.
Arguments Outgoing {Part} o.
