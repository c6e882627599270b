From Coq Require Import List NArith PeanoNat Bool Lia ZifyBool ZifyN ZifyNat.
From Verif Require Import Radix VersionSpec BloomModel EventModel EventSpec EventProof GetEventsModel GetEventsSpec GetEventsProof.
Import ListNotations.
Local Open Scope N_scope.

(* C34: the texts accepted as a token are exactly two decimal numbers with a minus sign in
   between, the first below 2^63 and the second below 2^64. *)
Theorem C34_parse : forall s t, parse_token s = Some t <-> token_text s t.
Proof. exact parse_token_spec. Qed.
Print Assumptions C34_parse.

(* C34: parsing the printed form of a token gives the token back; no text is parsed as one
   token and printed for another. *)
Theorem C34_roundtrip : forall t, t_block t < 2 ^ 63 -> N.of_nat (t_offset t) < 2 ^ 64 ->
  parse_token (show_token t) = Some t /\
  forall t', t_block t' < 2 ^ 63 -> N.of_nat (t_offset t') < 2 ^ 64 -> show_token t' = show_token t -> t' = t.
Proof.
  intros t B O. assert (E : parse_token (show_token t) = Some t) by (apply parse_show; split; assumption).
  split; [exact E|]. intros t' B' O' ES. assert (E' : parse_token (show_token t') = Some t') by (apply parse_show; split; assumption).
  rewrite ES in E'. congruence.
Qed.
Print Assumptions C34_roundtrip.

(* Different texts may be parsed as the same token. *)
Example C34_token : show_token (mkToken 1234567 89) = text "1234567-89" /\ parse_token (text "1234567-89") = Some (mkToken 1234567 89) /\
  parse_token (text "+01234567-089") = Some (mkToken 1234567 89) /\ parse_token (text "1-2-3") = None /\ parse_token (text "-5") = None /\
  parse_token (text "9223372036854775808-0") = None /\ parse_token (text "0-18446744073709551616") = None.
Proof. vm_compute. repeat split. Qed.

(* C33: after any history of a node as in C31, with any pending data and for every request
   (page size at least 1): following the continuation tokens from the first page ends, after
   one sequence of pages only, no page is larger than asked for, and the pages have exactly the
   wanted events of the blocks asked for, in order: first those of the stored chain, then those of
   the pending blocks, of which the pre-latest comes first.

   The request must not start after the first pending block, and must end in the stored chain
   or after the last pending block; see below for other requests.  The bounds at the end are
   those of block numbers and offsets. *)
Theorem C33_pages_exact_partial : forall bloom_bytes range_bytes sip0 sip1 ops,
  (0 < bloom_bytes)%nat -> (0 < range_bytes)%nat -> orderly [] false ops -> chain_of ops <> [] ->
  exists s, node bloom_bytes range_bytes sip0 sip1 ops = Some s /\
    forall limit l1 watched (v09 : bool) q first last (f : event -> bool),
      let chain := chain_of ops in
      let latest := N.of_nat (length chain) - 1 in
      let pend := if v09 then pending_on latest watched else [] in
      0 < limit -> (1 <= q_chunk_size q)%nat -> N.of_nat (q_chunk_size q) <= 1024 -> (length (q_keys q) <= 16)%nat ->
      (forall e, f e = true <-> wanted_by_position (q_addresses q) (q_keys q) e) ->
      (forall b, pd_pre_latest watched = Some b -> pb_number b + 1 = pb_number (pd_pre_confirmed watched)) ->
      NoDup (map b_hash chain) ->
      first_block chain l1 (q_from q) first -> last_block chain l1 (q_to q) last ->
      first <= latest + 1 ->
      (forall l, last = Some l -> l <= latest \/ q_to q = Some (Number l) /\ l = latest + N.of_nat (length pend)) ->
      latest + 2 < 2 ^ 63 -> N.of_nat (length (all_events chain pend)) < 2 ^ 64 ->
      exists pages,
        followed (get_events bloom_bytes range_bytes sip0 sip1 false limit s l1 watched v09 q) None pages /\
        concat pages = filter (fun e => between first last e && f (a_event e)) (all_events chain pend) /\
        Forall (fun p => (length p <= q_chunk_size q)%nat) pages /\
        forall pages', followed (get_events bloom_bytes range_bytes sip0 sip1 false limit s l1 watched v09 q) None pages' -> pages' = pages.
Proof.
  intros bb rb s0 s1 ops P PR O NEC. destruct (node_ok bb rb s0 s1 P PR ops O) as (s & K & E & SY & EB).
  exists s. split; [exact E|]. intros limit l1 watched v09 q first last f chain latest pend LP C1 C2 LK HF HW ND F L LF HL SM FE.
  assert (EH : height (s_db s) = N.of_nat (length chain)) by (unfold height, chain; rewrite EB; reflexivity).
  assert (NE : height (s_db s) <> 0) by (rewrite EH; unfold chain; destruct (chain_of ops); [congruence|cbn [length]; lia]).
  assert (FEQ : forall e, f e = wants (q_addresses q) (truncate_keys (q_keys q)) e).
  { intros e. apply eq_iff_eq_true. rewrite HF, wants_spec, (truncate_spec bb rb s0 s1 P PR). reflexivity. }
  pose proof (get_events_pages bb rb s0 s1 K s limit l1 watched v09 q first last P PR SY) as X. cbv zeta in X.
  rewrite EH, EB in X. fold chain latest pend in X.
  destruct X as (pages & FT & EC & FA); try assumption; [lia|].
  set (h := get_events bb rb s0 s1 false limit s l1 watched v09 q).
  assert (FO : followed h None pages).
  { refine (text_followed (get_events_from bb rb s0 s1 false limit s l1 watched v09 q) h _ _ None pages FT _).
    - unfold h, get_events. destruct (get_events_from bb rb s0 s1 false limit s l1 watched v09 q None); reflexivity.
    - intros t PT. unfold h, get_events. rewrite (parse_show t PT).
      destruct (get_events_from bb rb s0 s1 false limit s l1 watched v09 q (Some t)); reflexivity.
    - intros t Z. discriminate. }
  exists pages. split; [exact FO|]. split; [|split; [exact FA|intros pages' F'; symmetry; apply (followed_unique _ _ _ FO _ F')]].
  rewrite EC. apply filter_ext. intros e. rewrite FEQ. reflexivity.
Qed.
Print Assumptions C33_pages_exact_partial.

Module GetEventsExamples.
  Definition h0 (x : N) := (x * 37 + 11) mod 2 ^ 64.
  Definition h1 (x : N) := (x * 101 + 5) mod 2 ^ 64.
  Definition ev (a : N) (ks : list N) := mkEvent a ks [].
  Definition one (h a : N) (ks : list N) := mkBlock h [((h, 0), [ev a ks])].
  Definition ops := [Insert (one 100 7 [1]); Insert (mkBlock 101 [((5, 0), [ev 7 [1]; ev 8 [1]; ev 7 [2]])])].
  Definition final := match node 16 1 h0 h1 ops with Some s => s | None => mkState (new_db 16 1) (mkRunning (agg_new 16 1 0) 0) [] end.
  Definition pre_latest := mkPending 2 [((6, 0), [ev 7 [1]; ev 7 [1; 3]])].
  Definition pre_confirmed := mkPending 3 [((8, 0), [ev 9 [1]]); ((9, 1), [ev 7 [1]])].
  Definition watched := mkPendingData (Some pre_latest) pre_confirmed.
  Definition query from to chunk ct := get_events 16 1 h0 h1 false 100 final None watched true (mkRequest from to [7] [[1]; []] chunk) ct.
  Definition places (r : reply (list N)) := match r with Page es t => Some (map (fun e => (a_block_number e, a_index e)) es, t) | _ => None end.

  Example runs : node 16 1 h0 h1 ops = Some final.
  Proof. vm_compute. reflexivity. Qed.
  Example pages : places (query None None 2 None) = Some ([(0, 0%nat); (1, 0%nat)], Some (text "2-0")) /\
    places (query None None 3 None) = Some ([(0, 0%nat); (1, 0%nat); (2, 0%nat)], Some (text "2-1")) /\
    places (query None (Some PreConfirmed) 4 None) = Some ([(0, 0%nat); (1, 0%nat); (2, 0%nat); (2, 1%nat)], Some (text "3-0")) /\
    places (query (Some (Hash 101)) (Some Latest) 4 None) = Some ([(1, 0%nat)], None).
  Proof. vm_compute. repeat split. Qed.
  Example next_page : places (query None None 3 (Some (text "2-1"))) = Some ([(2, 1%nat); (3, 0%nat)], None).
  Proof. vm_compute. reflexivity. Qed.
End GetEventsExamples.
Import GetEventsExamples.

(* The rest of C33 is false.  A request for the blocks from a future one on, without an end,
   is answered with the events of the pending blocks. *)
Theorem C33_from_future_block_refuted : exists e, In e (all_events (chain_of ops) (pending_on 1 watched)) /\
  a_block_number e = 3 /\ query (Some (Number 1000)) None 10 None = Page (filter (fun e => wants [7] [[1]] (a_event e)) (flat_map pending_events [pre_latest; pre_confirmed])) None /\
  In e (filter (fun e => wants [7] [[1]] (a_event e)) (flat_map pending_events [pre_latest; pre_confirmed])).
Proof.
  exists (mkAnswer (ev 7 [1]) None 3 (9, 1) 0). split; [vm_compute; auto 20|]. split; [reflexivity|]. split; [vm_compute; reflexivity|vm_compute; auto 20].
Qed.
Print Assumptions C33_from_future_block_refuted.

(* A request from the pre-confirmed block on, by its number, has events of the pre-latest block. *)
Theorem C33_from_pre_confirmed_number_refuted : exists es e,
  query (Some (Number 3)) None 10 None = Page es None /\ In e es /\ a_block_number e < 3.
Proof.
  exists (filter (fun e => wants [7] [[1]] (a_event e)) (flat_map pending_events [pre_latest; pre_confirmed])), (mkAnswer (ev 7 [1]) None 2 (6, 0) 0).
  split; [vm_compute; reflexivity|]. split; [vm_compute; auto|]. vm_compute. reflexivity.
Qed.
Print Assumptions C33_from_pre_confirmed_number_refuted.

(* A request up to the pre-latest block, by its number, has events of the pre-confirmed block. *)
Theorem C33_to_pre_latest_number_refuted : exists es e,
  query (Some (Number 2)) (Some (Number 2)) 10 None = Page es None /\ In e es /\ 2 < a_block_number e.
Proof.
  exists (filter (fun e => wants [7] [[1]] (a_event e)) (flat_map pending_events [pre_latest; pre_confirmed])), (mkAnswer (ev 7 [1]) None 3 (9, 1) 0).
  split; [vm_compute; reflexivity|]. split; [vm_compute; auto|]. vm_compute. reflexivity.
Qed.
Print Assumptions C33_to_pre_latest_number_refuted.

(* A request up to a future block, by its number, has no events of the pending blocks. *)
Theorem C33_to_future_block_refuted :
  query (Some (Number 0)) (Some (Number 1000)) 10 None = query (Some (Number 0)) (Some Latest) 10 None /\
  exists e, In e (all_events (chain_of ops) (pending_on 1 watched)) /\ between 0 (Some 1000) e = true /\ wanted_by_position [7] [[1]; []] (a_event e) /\
    forall es t, query (Some (Number 0)) (Some (Number 1000)) 10 None = Page es t -> ~ In e es.
Proof.
  split; [vm_compute; reflexivity|]. exists (mkAnswer (ev 7 [1]) None 3 (9, 1) 0). split; [vm_compute; auto 20|]. split; [reflexivity|]. split.
  - split; [right; left; reflexivity|]. intros [|[|i]] g E; cbn in E.
    + injection E as <-. right. exists 1. split; [reflexivity|left; reflexivity].
    + injection E as <-. left. reflexivity.
    + destruct i; discriminate.
  - intros es t E. vm_compute in E. injection E as <- <-. cbn [In]. intros [H|[H|[]]]; discriminate.
Qed.
Print Assumptions C33_to_future_block_refuted.

(* With page size 0, which is rejected otherwise, a request from the pre-confirmed block on is
   answered with empty pages forever. *)
Theorem C33_page_size_zero_refuted : forall pages, ~ followed (query (Some PreConfirmed) None 0) None pages.
Proof.
  assert (X : forall ct pages, followed (query (Some PreConfirmed) None 0) ct pages -> ct = None \/ ct = Some (text "2-0") -> False).
  { induction 1 as [ct evs E|ct evs t rest E F IH]; intros H.
    - destruct H as [->| ->]; vm_compute in E; discriminate.
    - apply IH. right. destruct H as [->| ->]; vm_compute in E; injection E as <- <-; reflexivity. }
  intros pages F. apply (X _ _ F). left. reflexivity.
Qed.
Print Assumptions C33_page_size_zero_refuted.
