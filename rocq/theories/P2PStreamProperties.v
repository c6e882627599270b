(** Theorems for C37, C38, C39 (proposal streams). *)
From Coq Require Import List Bool NArith Arith.
From Verif Require Import P2PStreamModel P2PStreamSpec P2PStreamProof.
Import ListNotations.
Local Open Scope N_scope.

(** C37.  For every schedule of messages (any streams, any order, duplicates,
    losses, even contradictory contents and end markers) handling never panics on a
    node that does not send itself, and for each stream the delivered parts are
    parts 0,1,2,... each of which was really received under its number; the delivered
    prefix is the longest one: the next number was never received, unless an
    end marker at or below it was received. *)
Theorem C37_delivers_longest_prefix :
  forall (Part Peer : Type) (ms : list (@msg Part * Peer)),
    exists st evs, run_incoming [] ms = Ok (st, evs) /\
    forall s,
      (forall i p, nth_error (parts_of s evs) i = Some p ->
         exists src, In (Msg s (N.of_nat i) (Content p), src) ms) /\
      (forall c src, In (Msg s (N.of_nat (length (parts_of s evs))) (Content c), src) ms ->
         exists f src', In (Msg s f Fin, src') ms /\ f <= N.of_nat (length (parts_of s evs))).
Proof. exact @incoming_prefix_lemma. Qed.
Print Assumptions C37_delivers_longest_prefix.

(** C37.  After an end marker [f] was received, later arrivals only extend what was
    delivered before, and never to or beyond number [f]. *)
Theorem C37_nothing_after_end :
  forall (Part Peer : Type) (ms1 ms2 : list (@msg Part * Peer)) s f src st1 evs1 st2 evs2,
    In (Msg s f Fin, src) ms1 ->
    run_incoming [] ms1 = Ok (st1, evs1) ->
    run_incoming [] (ms1 ++ ms2) = Ok (st2, evs2) ->
    exists new, parts_of s evs2 = parts_of s evs1 ++ new /\
      (new <> [] -> N.of_nat (length (parts_of s evs2)) <= f).
Proof. exact @no_delivery_after_fin_lemma. Qed.
Print Assumptions C37_nothing_after_end.

(** C37.  Streams do not influence each other. *)
Theorem C37_streams_isolated :
  forall (Part Peer : Type) (ms : list (@msg Part * Peer)) s st evs st' evs',
    run_incoming [] ms = Ok (st, evs) ->
    run_incoming [] (of_stream s ms) = Ok (st', evs') ->
    parts_of s evs = parts_of s evs'.
Proof. exact @stream_isolation_lemma. Qed.
Print Assumptions C37_streams_isolated.

(** C38.  The messages produced for a proposal (parts [qs] followed by the closing
    part), arriving in any order with any duplication and interleaved with any
    other streams, deliver exactly the proposal. *)
Theorem C38_sent_proposal_arrives :
  forall (Part Peer : Type) (is_fin : Part -> bool) s (qs : list Part) fin st msgs
         (arrivals : list (@msg Part * Peer)),
    (forall q, In q qs -> is_fin q = false) -> is_fin fin = true ->
    run_outgoing is_fin [] s (qs ++ [fin]) = Ok (st, msgs) ->
    (forall m, In m msgs -> exists src, In (m, src) arrivals) ->
    (forall m src, In (m, src) arrivals -> m_stream m = s -> In m msgs) ->
    exists st' evs, run_incoming [] arrivals = Ok (st', evs) /\ parts_of s evs = qs ++ [fin].
Proof. exact @sent_arrives_lemma. Qed.
Print Assumptions C38_sent_proposal_arrives.

(** A concrete schedule meeting the hypotheses: three parts 10, 11, 99 (99 closes),
    arriving last-first with duplicates and a foreign stream in between. *)
Example C38_example :
  let s := (7, 1) in
  let isfin := fun p => p =? 99 in
  exists st msgs, run_outgoing isfin [] s [10; 11; 99] = Ok (st, msgs) /\
    msgs = [Msg s 0 (Content 10); Msg s 1 (Content 11); Msg s 2 (Content 99); Msg s 3 Fin] /\
    let arr := [(Msg s 3 Fin, 1%nat); (Msg s 2 (Content 99), 2%nat); (Msg (8, 0) 0 (Content 5), 2%nat);
                (Msg s 1 (Content 11), 1%nat); (Msg s 2 (Content 99), 1%nat); (Msg s 0 (Content 10), 3%nat)] in
    exists st' evs, run_incoming [] arr = Ok (st', evs) /\ parts_of s evs = [10; 11; 99].
Proof.
  cbv zeta. do 2 eexists. split; [reflexivity|]. split; [reflexivity|].
  do 2 eexists. split; reflexivity.
Qed.

(** Finding: a part that was buffered is attributed to the peer whose message closed
    the gap, not to a peer that sent it (peer scores are charged to [ev_source]). *)
Theorem C37_part_attribution_refuted :
  exists (ms : list (@msg N * nat)) st evs e,
    run_incoming [] ms = Ok (st, evs) /\ In e evs /\
    ~ exists id, In (Msg (ev_stream e) id (Content (ev_part e)), ev_source e) ms.
Proof.
  exists [(Msg (1, 0) 1 (Content 666), 13%nat); (Msg (1, 0) 0 (Content 1), 5%nat)].
  do 2 eexists. exists (Event 5%nat (1, 0) 666). split; [reflexivity|].
  split; [simpl; auto|]. intros [id [H|[H|[]]]]; discriminate.
Qed.
Print Assumptions C37_part_attribution_refuted.

(** Finding: a message received for a stream id on which this node itself is sending
    (another peer replays or forges our own height and round) panics the node. *)
Theorem C37_no_panic_when_sending_refuted :
  exists (st : @state N) msgs m,
    create_outgoing (fun _ => false) [] (1, 0) 42 = Ok (st, msgs) /\
    m_stream m = (1, 0) /\ handle_incoming st m 5%nat = Panic.
Proof.
  do 2 eexists. exists (Msg (1, 0) 0 (Content 43)). split; [reflexivity|]. split; reflexivity.
Qed.
Print Assumptions C37_no_panic_when_sending_refuted.

(** C39.  Stream ids round-trip, and decoding accepts exactly the encodings. *)
Theorem C39_stream_id_roundtrip :
  forall h r, h < 2 ^ 64 -> r < 2 ^ 32 -> hr_decode (hr_encode (h, r)) = Some (h, r).
Proof. exact hr_roundtrip. Qed.
Print Assumptions C39_stream_id_roundtrip.

Theorem C39_stream_id_decode_exact :
  forall bs s, Forall (fun b => b < 256) bs -> hr_decode bs = Some s ->
    hr_encode s = bs /\ length bs = 12%nat /\ fst s < 2 ^ 64 /\ snd s < 2 ^ 32.
Proof. exact hr_decode_inv. Qed.
Print Assumptions C39_stream_id_decode_exact.

Example C39_example : hr_decode (hr_encode (18446744073709551615, 258)) =
  Some (18446744073709551615, 258).
Proof. reflexivity. Qed.
