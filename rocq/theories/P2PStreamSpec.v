(** Vocabulary for the statements about proposal streams. *)
From Coq Require Import List Bool NArith.
From Verif Require Import P2PStreamModel.
Import ListNotations.

(** The messages of a schedule that belong to stream [s], in arrival order. *)
Definition of_stream {Part Peer} (s : stream_id) (ms : list (@msg Part * Peer))
  : list (@msg Part * Peer) :=
  filter (fun mp => sid_eqb s (m_stream (fst mp))) ms.

(** The proposal parts handed to the application for stream [s], in delivery order. *)
Definition parts_of {Part Peer} (s : stream_id) (evs : list (@event Part Peer)) : list Part :=
  map ev_part (filter (fun e => sid_eqb s (ev_stream e)) evs).
