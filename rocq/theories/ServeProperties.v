(** C76: what a node serves to its peers, and what a node fetching a range of blocks from its peers
    gets. *)
From Coq Require Import List Bool Arith NArith Lia ZifyBool ZifyNat ZifyN.
From Verif Require Import ServeModel ServeSpec ServeProof.
Import ListNotations.
Local Open Scope N_scope.

(** The server, on a database that can be read: nothing for no blocks or from an unknown start; else the
    data of the blocks asked for, in their order, one block after the other, at most 100 of them and
    fewer only if there is no such block; then Fin. *)
Theorem C76_served {R} (db : N -> found R) (by_hash : N -> option N) (q : iteration) :
  (forall n, db n <> DbError) -> (forall h n, by_hash h = Some n -> n <= MAX_NUMBER) ->
  match (if q_limit q =? 0 then None
         else match q_start q with
              | ByNumber n => if n <=? MAX_NUMBER then Some n else None
              | ByHash h => by_hash h
              end) with
  | None => iterate db by_hash q = [Fin]
  | Some first =>
      exists items : list (list R),
        iterate db by_hash q = map Item (concat items) ++ [Fin] /\
        (forall i l, nth_error items i = Some l -> exists n, asked q first i = Some n /\ db n = Block l) /\
        N.of_nat (length items) <= N.min (q_limit q) 100 /\
        (N.of_nat (length items) = N.min (q_limit q) 100 \/
         asked q first (length items) = None \/
         exists n, asked q first (length items) = Some n /\ db n = NoBlock)
  end.
Proof.
  intros E B. unfold iterate. destruct (N.eqb_spec (q_limit q) 0); [reflexivity|].
  assert (X : forall first, first <= MAX_NUMBER -> exists items : list (list R),
        turns db (N.to_nat (N.min (q_limit q) SERVER_MAX)) first (q_step q) (q_dir q) = map Item (concat items) ++ [Fin] /\
        (forall i l, nth_error items i = Some l -> exists n, asked q first i = Some n /\ db n = Block l) /\
        N.of_nat (length items) <= N.min (q_limit q) 100 /\
        (N.of_nat (length items) = N.min (q_limit q) 100 \/
         asked q first (length items) = None \/
         exists n, asked q first (length items) = Some n /\ db n = NoBlock)).
  { intros first F. destruct (turns_spec db q (N.to_nat (N.min (q_limit q) SERVER_MAX)) first F E) as (items & L & I & T & D).
    exists items. unfold SERVER_MAX in *. split; auto. split; auto. split; [lia|]. destruct D as [D|D]; [left; lia|auto]. }
  destruct (q_start q) as [first|h]; cbn [get_start_block_number]; unfold block_number.
  - destruct (N.leb_spec first MAX_NUMBER); [now apply X|reflexivity].
  - destruct (by_hash h) as [first|] eqn:H; [apply X; eauto|reflexivity].
Qed.
Print Assumptions C76_served.

(** a chain of three blocks *)
Definition demo_db (n : N) : found N :=
  if n =? 0 then Block [10; 11] else if n =? 1 then Block [] else if n =? 2 then Block [12] else NoBlock.
Example C76_served_example :
  iterate demo_db (fun h => if h =? 77 then Some 2 else None) (Iteration (ByHash 77) Backward 5 2) =
    [Item 12; Item 10; Item 11; Fin] /\
  iterate demo_db (fun _ => None) (Iteration (ByNumber 0) Forward 50 1) = [Item 10; Item 11; Item 12; Fin].
Proof. split; reflexivity. Qed.

(** Fetching transactions with receipts from honest peers: each block's, in order, each with its
    position, once the data of the peers is readable. *)
Theorem C76_transactions {X D T} (txs : N -> list X) (dto : X -> D) (parse : D -> nat -> option T)
    (seen : X -> nat -> T) (start stop : N) :
  start <= stop -> stop <= MAX_NUMBER ->
  (forall n i x, nth_error (txs n) i = Some x -> parse (dto x) i = Some (seen x i)) ->
  forall m k,
    fetched (fun n => map dto (txs n)) (handle_tx parse) tt [] stop
      (begin start (map (fun n => Some (length (txs n))) (wanted start stop))) m k ->
    gives (fun n => indexed seen 0 (txs n)) start stop m k.
Proof.
  intros L M H m k F.
  refine (fetched_gives (handle_tx parse) tt [] (fun n => map dto (txs n)) (fun n => length (txs n))
           (fun n => indexed seen 0 (txs n)) (fun _ _ => True) start stop _ _ m k L M F); [|auto].
  intros n [] _ _. exists tt. split; auto.
  now rewrite (fold_tx parse dto seen (txs n) []) by (intros i x; apply H).
Qed.
Print Assumptions C76_transactions.

(** Fetching classes. *)
Theorem C76_classes {X D T} (classes : N -> list X) (dto : X -> D) (parse : D -> option T)
    (seen : X -> T) (start stop : N) :
  start <= stop -> stop <= MAX_NUMBER ->
  (forall n x, In x (classes n) -> parse (dto x) = Some (seen x)) ->
  forall m k,
    fetched (fun n => map dto (classes n)) (handle_class parse) tt [] stop
      (begin start (map (fun n => Some (length (classes n))) (wanted start stop))) m k ->
    gives (fun n => map seen (classes n)) start stop m k.
Proof.
  intros L M H m k F.
  refine (fetched_gives (handle_class parse) tt [] (fun n => map dto (classes n)) (fun n => length (classes n))
           (fun n => map seen (classes n)) (fun _ _ => True) start stop _ _ m k L M F); [|auto].
  intros n [] _ _. exists tt. split; auto.
  now rewrite (fold_class parse dto seen (classes n) []) by (intros x; apply H).
Qed.
Print Assumptions C76_classes.

(** Fetching events: the hashes of transactions differ, in a block and between blocks. *)
Theorem C76_events {E} (events : N -> list (N * list E)) (start stop : N) :
  start <= stop -> stop <= MAX_NUMBER ->
  (forall n, NoDup (map fst (events n))) ->
  (forall n n' h, n <> n' -> In h (map fst (events n)) -> ~ In h (map fst (events n'))) ->
  forall m k,
    fetched (fun n => event_items (events n)) handle_event None [] stop
      (begin start (map (fun n => Some (length (event_items (events n)))) (wanted start stop))) m k ->
    gives (fun n => with_events (events n)) start stop m k.
Proof.
  intros L M ND DJ m k F.
  refine (fetched_gives handle_event None [] (fun n => event_items (events n)) (fun n => length (event_items (events n)))
           (fun n => with_events (events n))
           (fun n c => forall h, c = Some h -> forall b, n <= b -> ~ In h (map fst (events b)))
           start stop _ _ m k L M F); [|discriminate].
  intros n c B K. exists (last_hash c (events n)). split.
  - apply (fold_events (events n) c []); auto. intros h Hc. apply (K h Hc). lia.
  - intros h Hh b Lb. apply last_hash_in in Hh. destruct Hh as [Hc|Hi].
    + apply (K h Hc). lia.
    + apply (DJ n); auto. lia.
Qed.
Print Assumptions C76_events.

(** Fetching state diffs, if no block has migrated classes.  (With them it fails: see below.) *)
Theorem C76_state_diffs_partial (diffs : N -> diff) (start stop : N) :
  start <= stop -> stop <= MAX_NUMBER ->
  (forall n, start <= n <= stop -> well_formed (diffs n) /\ d_migrated (diffs n) = []) ->
  forall m k,
    fetched (fun n => diff_items (diffs n)) handle_diff tt no_diff stop
      (begin start (map (fun n => Some (state_diff_length (diffs n))) (wanted start stop))) m k ->
    gives (fun n => as_deployed (diffs n)) start stop m k.
Proof.
  intros L M W m k F.
  refine (fetched_gives handle_diff tt no_diff (fun n => diff_items (diffs n)) (fun n => state_diff_length (diffs n))
           (fun n => as_deployed (diffs n)) (fun _ _ => True) start stop _ _ m k L M F); [|auto].
  intros n [] B _. exists tt. split; auto. destruct (W n B) as [Wf Mi].
  rewrite (fold_diff _ Wf). rewrite Mi. cbn [length]. rewrite Nat.sub_0_r.
  unfold as_deployed. now rewrite Mi.
Qed.
Print Assumptions C76_state_diffs_partial.

(** The state diff of one block from one peer that has it, if no classes were migrated. *)
Theorem C76_block_partial (db : N -> found diff_item) (by_hash : N -> option N) (n : N) (d : diff) :
  n <= MAX_NUMBER -> well_formed d -> d_migrated d = [] -> db n = Block (diff_items d) ->
  state_diff_for_block no_diff (state_diff_length d)
    (iterate db by_hash (Iteration (ByNumber n) Forward 1 1)) = Some (as_deployed d).
Proof.
  intros B W M D. unfold iterate. cbn [q_limit q_start q_step q_dir get_start_block_number]. unfold block_number.
  replace (n <=? MAX_NUMBER) with true by lia. change (N.to_nat (N.min 1 SERVER_MAX)) with 1%nat. cbn [N.eqb turns].
  change (1 =? 0) with false. cbv iota. rewrite D. rewrite (for_block _ _ _ _ _ _ (fold_diff d W)).
  rewrite M. cbn [length]. rewrite Nat.sub_0_r, Nat.leb_refl, Nat.sub_diag. cbn [state_diff_for_block].
  unfold as_deployed. now rewrite M.
Qed.
Print Assumptions C76_block_partial.

(** Whatever the peers send: transactions. *)
Theorem C76_any_transactions {D T} (parse : D -> nat -> option T) (start stop : N) counts answers :
  start <= stop ->
  let k := stream (handle_tx parse) tt [] start stop counts answers in
  orderly (fun a c => length a = c) start stop counts k /\ k_status k <> Crashed.
Proof.
  intros L. split.
  - apply sized_orderly. apply stream_sized; auto.
    intros c a r c' a' w w' H G. unfold handle_tx in G. destruct (parse r (length a)); [|discriminate].
    injection G as <- <- <-. rewrite app_length. cbn [length]. lia.
  - apply stream_no_crash. intros c a r. unfold handle_tx. destruct (parse r (length a)); discriminate.
Qed.
Print Assumptions C76_any_transactions.

(** Classes. *)
Theorem C76_any_classes {D T} (parse : D -> option T) (start stop : N) counts answers :
  start <= stop ->
  let k := stream (handle_class parse) tt [] start stop counts answers in
  orderly (fun a c => length a = c) start stop counts k /\ k_status k <> Crashed.
Proof.
  intros L. split.
  - apply sized_orderly. apply stream_sized; auto.
    intros c a r c' a' w w' H G. unfold handle_class in G. destruct (parse r); [|discriminate].
    injection G as <- <- <-. rewrite app_length. cbn [length]. lia.
  - apply stream_no_crash. intros c a r. unfold handle_class. destruct (parse r); discriminate.
Qed.
Print Assumptions C76_any_classes.

(** Events; the stream may crash: see below. *)
Theorem C76_any_events {E} (start stop : N) counts (answers : list (option (list (response (N * E))))) :
  start <= stop ->
  orderly (fun a c => length (event_items a) = c) start stop counts
    (stream handle_event None [] start stop counts answers).
Proof.
  intros L. apply sized_orderly. apply stream_sized; auto. intros c a r c' a' w w'. apply event_step.
Qed.
Print Assumptions C76_any_events.

(** State diffs: each is what some items with the right number of entries say, the last word on each
    entry counting; so it may be shorter than said, if an entry was sent twice. *)
Theorem C76_any_state_diffs (start stop : N) counts answers :
  start <= stop ->
  let k := stream handle_diff tt no_diff start stop counts answers in
  orderly (fun d c => (state_diff_length d <= c)%nat /\
                      exists items, list_sum (map entries items) = c /\ made_of items d) start stop counts k /\
  k_status k <> Crashed.
Proof.
  intros L. split.
  - apply sized_orderly. apply (stream_sized handle_diff tt no_diff diff_ok); auto.
    + split; [cbn; lia|]. exists []. split; [reflexivity|apply made_of_nothing].
    + intros c a r c' a' w w'. apply diff_ok_step.
  - apply stream_no_crash. intros c a [ad n cl v|h [x|]]; cbn [handle_diff]; [|discriminate|discriminate].
    destruct (is_system ad); discriminate.
Qed.
Print Assumptions C76_any_state_diffs.

(** The state diff of one block from any peer is what all items before Fin say, and they have the right
    number of entries. *)
Theorem C76_any_block (length : nat) (answer : list (response diff_item)) (d : diff) :
  state_diff_for_block no_diff length answer = Some d ->
  exists items rest, answer = map Item items ++ Fin :: rest /\
    list_sum (map entries items) = length /\ made_of items d.
Proof. intros E. exact (for_block_any _ _ _ _ [] made_of_nothing E). Qed.
Print Assumptions C76_any_block.

(** ** Cases *)

(** Events of three blocks: a transaction without events; a block without events.  The first peer answers
    with an error after one block, the second with everything. *)
Definition demo_events (n : N) : list (N * list N) :=
  if n =? 5 then [(100, [1; 2]); (101, []); (102, [3])] else if n =? 6 then [] else if n =? 7 then [(103, [4])] else [].
Definition demo_counts : list (option nat) := [Some 3%nat; Some 0%nat; Some 1%nat].
Definition demo_found (n : N) : found (N * N) := if n <=? 7 then Block (event_items (demo_events n)) else NoBlock.
Definition demo_first : list (response (N * N)) :=
  [Item (100, 1); Item (100, 2); Item (102, 3); Failed].
Definition demo_client : @client (list (N * list N)) :=
  session handle_event None [] 7
    (session handle_event None [] 7 (begin 5 demo_counts) (Some demo_first))
    (Some (iterate demo_found (fun _ => None) (make_request 7 7))).

Example C76_events_example :
  fetched (fun n => event_items (demo_events n)) handle_event None [] 7
    (begin 5 (map (fun n => Some (length (event_items (demo_events n)))) (wanted 5 7))) 1 demo_client /\
  k_out demo_client = [(5, [(100, [1; 2]); (102, [3])]); (6, []); (7, [(103, [4])])] /\
  k_status demo_client = Ended.
Proof.
  assert (H : honest (fun n => event_items (demo_events n)) demo_found).
  { exists 8. intros n. unfold demo_found. destruct (N.leb_spec n 7); [right; right; left; split; [lia|auto]|auto]. }
  split; [|split; reflexivity].
  unfold demo_client. eapply fetched_all with (next := 7).
  - eapply fetched_some with (db := demo_found) (by_hash := fun _ => None) (next := 5).
    + apply fetched_start.
    + reflexivity.
    + exact H.
    + exists [Item (100, 1); Item (100, 2); Item (102, 3)]. split; [|right; reflexivity].
      exists [Item (103, 4); Fin]. reflexivity.
  - reflexivity.
  - exact H.
  - intros n Hn Hs. unfold demo_found. now replace (n <=? 7) with true by lia.
Qed.

(** A diff with all kinds of entries. *)
Definition demo_diff : diff :=
  Diff [(50, Contract [(1, 9); (2, 8)] (Some 3) (Some (Replace 70))); (51, Contract [] (Some 1) None)]
       [(1, [(400, 401)])] [80] [(81, 82)] [].
Example C76_state_diffs_example :
  well_formed demo_diff /\ state_diff_length demo_diff = 8%nat /\
  state_diff_for_block no_diff 8 (map Item (diff_items demo_diff) ++ [Fin]) =
    Some (Diff [(50, Contract [(1, 9); (2, 8)] (Some 3) (Some (Deploy 70))); (51, Contract [] (Some 1) None)]
               [(1, [(400, 401)])] [80] [(81, 82)] []).
Proof.
  split; [|split; reflexivity]. unfold well_formed, demo_diff. cbn [d_contracts d_system d_cairo d_sierra map fst].
  repeat split; try (repeat constructor; cbn; intuition discriminate).
  - destruct H as [H|[H|[]]]; injection H as <- <-; discriminate.
  - destruct H as [H|[H|[]]]; injection H as <- <-; discriminate.
  - destruct H as [H|[H|[]]]; injection H as <- <-; repeat constructor; cbn; intuition discriminate.
  - destruct H as [H|[H|[]]]; injection H as <- <-; discriminate.
  - destruct H as [H|[]]; injection H as <- <-; auto.
  - destruct H as [H|[]]; injection H as <- <-; repeat constructor; cbn; intuition discriminate.
  - destruct H as [H|[]]; injection H as <- <-; discriminate.
Qed.

Example C76_any_example :
  stream (handle_tx (fun d i => if d =? 99 then None else Some (d, i))) tt [] 3 4 [Some 2%nat; Some 1%nat]
    [Some [Item 5; Item 99; Item 6; Item 7; Fin]; None; Some [Item 5; Item 6; Fin]; Some [Item 7; Item 8; Item 9]]
  = Client [(3, [(5, 0%nat); (6, 1%nat)]); (4, [(7, 0%nat)])] Ended.
Proof. reflexivity. Qed.

Example C76_any_block_example :
  state_diff_for_block no_diff 6
    [Item (ContractDiff 50 (Some 1) None [(1, 5); (2, 6)]); Item (DeclaredClass 80 None);
     Item (ContractDiff 50 (Some 2) None [(1, 7)]); Fin] =
  Some (Diff [(50, Contract [(1, 7); (2, 6)] (Some 2) None)] [] [80] [] []).
Proof. reflexivity. Qed.

(** ** Refuted *)

(** A peer can crash the stream of events: it sends events of one transaction on both sides of the end of a
    block. *)
Theorem C76_event_panic_refuted : exists (start stop : N) (counts : list (option nat))
    (answer : list (response (N * N))),
  start <= stop /\ k_status (stream handle_event None [] start stop counts [Some answer]) = Crashed.
Proof. exists 0, 1, [Some 1%nat; Some 1%nat], [Item (7, 1); Item (7, 2)]. split; [lia|reflexivity]. Qed.
Print Assumptions C76_event_panic_refuted.

(** Migrated classes count as items of a diff but are not sent.  A block that has them is never fetched if it is
    the last one wanted, however many honest peers answer. *)
Theorem C76_migrated_stuck (diffs : N -> diff) (n : N) :
  n <= MAX_NUMBER -> well_formed (diffs n) -> d_migrated (diffs n) <> [] ->
  (forall m k, fetched (fun b => diff_items (diffs b)) handle_diff tt no_diff n
      (begin n [Some (state_diff_length (diffs n))]) m k -> k_out k = []) /\
  forall db by_hash, db n = Block (diff_items (diffs n)) ->
    state_diff_for_block no_diff (state_diff_length (diffs n))
      (iterate db by_hash (Iteration (ByNumber n) Forward 1 1)) = None.
Proof.
  intros B W M. split.
  - intros m k F. now apply (migrated_stuck diffs n B W M m k).
  - intros db by_hash D. unfold iterate. cbn [q_limit q_start q_step q_dir get_start_block_number]. unfold block_number.
    replace (n <=? MAX_NUMBER) with true by lia. change (N.to_nat (N.min 1 SERVER_MAX)) with 1%nat. cbn [turns].
    change (1 =? 0) with false. cbv iota. rewrite D. rewrite (for_block _ _ _ _ _ _ (fold_diff _ W)).
    assert (L : (length (d_migrated (diffs n)) <= state_diff_length (diffs n))%nat) by (unfold state_diff_length; lia).
    assert (Z : length (d_migrated (diffs n)) <> 0%nat) by (destruct (d_migrated (diffs n)); [congruence|discriminate]).
    destruct (Nat.leb_spec (state_diff_length (diffs n) - length (d_migrated (diffs n))) (state_diff_length (diffs n))); auto.
    cbn [state_diff_for_block].
    destruct (state_diff_length (diffs n) - (state_diff_length (diffs n) - length (d_migrated (diffs n))))%nat eqn:E; [lia|reflexivity].
Qed.
Print Assumptions C76_migrated_stuck.

Theorem C76_migrated_stuck_refuted : exists (diffs : N -> diff) (n : N),
  well_formed (diffs n) /\
  forall m k, fetched (fun b => diff_items (diffs b)) handle_diff tt no_diff n
    (begin n [Some (state_diff_length (diffs n))]) m k -> k_out k = [].
Proof.
  exists (fun _ => Diff [] [] [] [(81, 82)] [(83, 84)]), 9.
  assert (W : well_formed (Diff [] [] [] [(81, 82)] [(83, 84)])).
  { unfold well_formed. cbn. intuition (try contradiction); repeat constructor; cbn; tauto. }
  split; [exact W|]. apply (C76_migrated_stuck (fun _ => Diff [] [] [] [(81, 82)] [(83, 84)]) 9);
    [unfold MAX_NUMBER; lia|exact W|discriminate].
Qed.
Print Assumptions C76_migrated_stuck_refuted.

(** If it is not the last one, the items of the next block are taken for its own: honest peers give a wrong
    diff. *)
Definition migrated_diffs (n : N) : diff :=
  if n =? 0 then Diff [] [] [] [(81, 82)] [(83, 84)] else Diff [(50, Contract [] (Some 1) None)] [] [] [] [].
Definition migrated_found (n : N) : found diff_item := if n <=? 1 then Block (diff_items (migrated_diffs n)) else NoBlock.
Definition migrated_client : @client diff :=
  session handle_diff tt no_diff 1 (begin 0 [Some 2%nat; Some 1%nat])
    (Some (iterate migrated_found (fun _ => None) (make_request 0 1))).

Theorem C76_migrated_wrong_refuted : exists (diffs : N -> diff) (stop : N) (m : nat) (k : @client diff),
  fetched (fun n => diff_items (diffs n)) handle_diff tt no_diff stop
    (begin 0 (map (fun n => Some (state_diff_length (diffs n))) (wanted 0 stop))) m k /\
  k_out k = [(0, Diff [(50, Contract [] (Some 1) None)] [] [] [(81, 82)] [])] /\
  d_contracts (diffs 0) = [].
Proof.
  exists migrated_diffs, 1, 1%nat, migrated_client. split; [|split; reflexivity].
  unfold migrated_client. eapply fetched_all with (next := 0).
  - apply fetched_start.
  - reflexivity.
  - exists 2. intros n. unfold migrated_found. destruct (N.leb_spec n 1); [right; right; left; split; [lia|auto]|auto].
  - intros n Hn Hs. unfold migrated_found. now replace (n <=? 1) with true by lia.
Qed.
Print Assumptions C76_migrated_wrong_refuted.

(** A peer that sends an entry twice makes the diff shorter than said. *)
Theorem C76_short_diff_refuted : exists answer k,
  k = stream handle_diff tt no_diff 0 0 [Some 2%nat] [Some answer] /\
  k_status k = Ended /\ exists d, k_out k = [(0, d)] /\ state_diff_length d = 1%nat.
Proof.
  exists [Item (DeclaredClass 5 None); Item (DeclaredClass 5 None); Fin], (Client [(0, Diff [] [] [5] [] [])] Ended).
  split; [reflexivity|]. split; [reflexivity|]. eexists. split; reflexivity.
Qed.
Print Assumptions C76_short_diff_refuted.
