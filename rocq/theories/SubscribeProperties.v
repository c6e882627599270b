From Coq Require Import List NArith PeanoNat Bool Lia ZifyBool ZifyN ZifyNat.
From Verif Require Import BloomModel EventModel EventSpec EventProof GetEventsModel SubscribeModel SubscribeSpec SubscribeProof.
Import ListNotations.
Local Open Scope nat_scope.

(* C35: a subscription to block headers, and one to the events of accepted blocks, shows of each
   block what it should, both in the catch-up and live.  The rest of C35 is proved for all
   subscriptions that do. *)
Theorem C35_new_heads_shown : forall block, shows (new_heads block) (fun header => header) (fun n header => [header]).
Proof. exact new_heads_shows. Qed.
Print Assumptions C35_new_heads_shown.

Theorem C35_events_shown : forall bloom_bytes range_bytes sip0 sip1 p l1 (f : event -> bool),
  0 < bloom_bytes -> 0 < range_bytes ->
  length (key_groups p) <= 16 -> pre_confirmed_too p = false ->
  (forall e, f e = true <-> wanted_by_position (from_addresses p) (key_groups p) e) ->
  shows (events_flow bloom_bytes range_bytes sip0 sip1 p (fun chain => node bloom_bytes range_bytes sip0 sip1 (map Insert chain)) l1)
    fst (matching_events f).
Proof.
  intros bb rb s0 s1 p l1 f P PR LK PC HF. apply events_shows; try assumption. intros e. apply eq_iff_eq_true.
  rewrite HF, wants_spec, (truncate_spec bb rb s0 s1 P PR). reflexivity.
Qed.
Print Assumptions C35_events_shown.

(* C35: without reorgs and pruning, for every way the steps of the node and the subscription may
   interleave, including one that ends the subscription: what the subscriber has received is, up to some
   point, what there is to see of the blocks from the starting block on, in order and without gaps;
   except that one block, the last one of the catch-up, may be repeated. *)
Theorem C35_no_gaps_partial : forall block pending memory note V (F : flow block pending memory note) (view : note -> V) live,
  shows F view live ->
  forall chain announced start ls,
  start < length chain -> announced <= length chain <= announced + 1 -> Forall no_pruning ls ->
  let s := run F (subscribed chain announced start) ls in
  exists a b c rest, start <= a /\ (b = a \/ b + 1 = a) /\ b <= c <= length (s_chain s) /\
    seen view (s_sent s) ++ rest = news live (s_chain s) start a ++ news live (s_chain s) b c.
Proof.
  intros block pending memory note V F view live [B CU NO (good & G1 & G2 & G3)] chain announced start ls L A NP s.
  destruct (ok_summary F view live good B CU NO G2 G3 start s) as (a & b & c & rest & R & AB & BC & EQ).
  { apply ok_run; try assumption. apply (ok_start F view live good B CU NO G3 start chain announced); [lia|exact A]. }
  exists a, b, c, rest. split; [lia|]. do 2 (split; [assumption|]). exact EQ.
Qed.
Print Assumptions C35_no_gaps_partial.

(* C35: once a live message has been received, a subscription that has nothing more to do, and
   has not ended, has sent everything there is to see of the announced blocks.  Before, it has sent
   what it caught up to, and there is nothing to see in the blocks announced since it
   subscribed. *)
Theorem C35_everything_is_sent : forall block pending memory note V (F : flow block pending memory note) (view : note -> V) live,
  shows F view live ->
  forall chain announced start ls,
  start < length chain -> announced <= length chain <= announced + 1 -> Forall no_pruning ls ->
  let s := run F (subscribed chain announced start) ls in
  open s -> idle F s ->
  (exists c first, s_phase s = AwaitingFirst c /\ seen view (s_sent s) = news live (s_chain s) start c /\
     c <= first + 1 /\ first <= s_announced s /\ news live (s_chain s) first (s_announced s) = []) \/
  (exists a b, start <= a /\ (b = a \/ b + 1 = a) /\
     seen view (s_sent s) = news live (s_chain s) start a ++ news live (s_chain s) b (s_announced s)).
Proof.
  intros block pending memory note V F view live [B CU NO (good & G1 & G2 & G3)] chain announced start ls L A NP s O I.
  destruct (idle_state F view live good B CU NO G2 G3 start s) as [X|(a & b & R & AB & BA & EQ)]; try assumption.
  - apply ok_run; try assumption. apply (ok_start F view live good B CU NO G3 start chain announced); [lia|exact A].
  - left. exact X.
  - right. exists a, b. split; [lia|]. split; assumption.
Qed.
Print Assumptions C35_everything_is_sent.

(* C35: the subscription cannot go on forever by itself. *)
Theorem C35_progress : forall block pending memory note V (F : flow block pending memory note) (view : note -> V) live,
  shows F view live ->
  forall chain announced start ls,
  start < length chain -> announced <= length chain <= announced + 1 -> Forall no_pruning ls ->
  let s := run F (subscribed chain announced start) ls in
  exists bound, forall own, Forall own_step own -> effective F s own -> length own <= bound.
Proof.
  intros block pending memory note V F view live [B CU NO (good & G1 & G2 & G3)] chain announced start ls L A NP s.
  assert (K : ok view live good start s) by (apply ok_run; try assumption; apply (ok_start F view live good B CU NO G3 start chain announced); [lia|exact A]).
  exists (work live s). intros own. revert K. generalize s. clear s NP ls.
  induction own as [|l own IH]; intros s K FO E; cbn [length]; [lia|]. inversion FO; subst. destruct E as [NE E].
  assert (W : work live (step F s l) < work live s) by (eapply work_step; eassumption).
  assert (K2 : ok view live good start (step F s l)) by (apply ok_step; try assumption; destruct l; try exact I; contradiction).
  specialize (IH _ K2 H2 E). lia.
Qed.
Print Assumptions C35_progress.

(* C36: what an event subscription sends when it reads stored blocks: after any history of the
   node as in C30, exactly the events wanted, in order, and how far it got. *)
Theorem C36_historical : forall bloom_bytes range_bytes sip0 sip1 ops,
  0 < bloom_bytes -> 0 < range_bytes -> orderly [] false ops ->
  exists s, node bloom_bytes range_bytes sip0 sip1 ops = Some s /\
    forall p l1 from to (f : event -> bool),
      length (key_groups p) <= 16 ->
      (forall e, f e = true <-> wanted_by_position (from_addresses p) (key_groups p) e) ->
      from < length (chain_of ops) -> from <= to ->
      let last := Nat.min to (length (chain_of ops) - 1) in
      exists messages, catch_up_events bloom_bytes range_bytes sip0 sip1 p l1 s from to = (messages, Some last) /\
        seen fst messages = news (matching_events f) (chain_of ops) from (last + 1) /\
        forall n a fin, In (n, (a, fin)) messages ->
          fin = match l1 with Some l1 => if (N.of_nat n <=? l1)%N then AcceptedOnL1 else AcceptedOnL2 | None => AcceptedOnL2 end.
Proof.
  intros bb rb s0 s1 ops P PR O. destruct (node_ok bb rb s0 s1 P PR ops O) as (s & K & E & SY & EB).
  exists s. split; [exact E|]. intros p l1 from to f LK HF LF LT last.
  assert (FE : forall e, f e = wants (from_addresses p) (truncate_keys (keys_of p)) e).
  { intros e. apply eq_iff_eq_true. rewrite HF, wants_spec, (truncate_spec bb rb s0 s1 P PR). reflexivity. }
  pose proof (catch_up_shows bb rb s0 s1 P PR p l1 K s f from to SY LK FE) as X. cbv zeta in X. rewrite EB in X. destruct (X LF LT) as [E1 E2].
  destruct (catch_up_events bb rb s0 s1 p l1 s from to) as [ms o] eqn:EC. cbn [fst snd] in E1, E2. subst o.
  exists ms. split; [reflexivity|]. split; [exact E1|]. intros n a fin IN. unfold catch_up_events in EC.
  destruct (events_in_range bb rb s0 s1 (s_db s) (s_cache s) (s_running s) _ _ _ _) as [es lb]. injection EC as EM _. subst ms.
  apply in_map_iff in IN. destruct IN as (e & EE & _). injection EE as EN _ EF. subst n. rewrite N2Nat.id. symmetry. exact EF.
Qed.
Print Assumptions C36_historical.

(* C36: what it sends when a block is announced, whatever pending data and blocks it has seen
   before: the same events. *)
Theorem C36_live : forall p m n b (f : event -> bool),
  remembers p m ->
  (forall e, f e = true <-> wanted_by_position (from_addresses p) (key_groups p) e) ->
  snd (on_block (truncate_params p) m n b) = map (fun a => (n, (a, AcceptedOnL2))) (matching_events f n b).
Proof.
  intros p m n b f R HF. apply on_block_shows; [apply (remembers_unsent p m R)|]. intros e. apply eq_iff_eq_true.
  rewrite HF, wants_spec, (truncate_spec 1 1 (fun x => x) (fun x => x) Nat.lt_0_1 Nat.lt_0_1). reflexivity.
Qed.
Print Assumptions C36_live.

Module SubscribeExamples.
  Local Notation chain := [100; 101; 102].
  Local Notation heads := (new_heads nat).
  Definition from1 := subscribed (memory := unit) (note := nat) chain 3 1.
  Definition ls : list (label nat unit) :=
    [Commit 103; CatchUpBatch; Announce; Commit 104; Announce; Spawn; Commit 105; TaskSubscribe; Announce; TaskBlock; FirstMessage; Commit 106; CatchUpToFirst; Announce; TaskBlock; Forward].
  Example delivered : s_sent (run heads from1 ls) = [(1, 101); (2, 102); (3, 103); (4, 104); (5, 105); (6, 106)] /\ s_phase (run heads from1 ls) = Forwarding.
  Proof. vm_compute. split; reflexivity. Qed.
  Example hypotheses : 1 < length chain /\ 3 <= length chain <= 3 + 1 /\ Forall no_pruning ls.
  Proof. cbn [length]. split; [lia|]. split; [lia|]. repeat constructor. Qed.

  Local Open Scope N_scope.
  Definition h0 (x : N) := (x * 37 + 11) mod 2 ^ 64.
  Definition h1 (x : N) := (x * 101 + 5) mod 2 ^ 64.
  Definition ev (a : N) (ks : list N) := mkEvent a ks [].
  Definition blocks := [mkBlock 100 [((5, 0), [ev 7 [1]])]; mkBlock 101 [((6, 0), [ev 7 [1]; ev 8 [1]]); ((7, 1), [ev 7 [1; 2]; ev 7 [2]])]].
  Definition wish := mkParams [7] (Some [[1]; []]) true.
  Definition flow7 := events_flow 16 1 h0 h1 wish (fun chain => node 16 1 h0 h1 (map Insert chain)) (fun _ => None).
  Definition places (l : list (nat * notification)) := map (fun m => (fst m, fst (a_tx (fst (snd m))), a_index (fst (snd m)), snd (snd m))) l.
  Example historical_and_live :
    match f_catch_up flow7 blocks 0 0 10 with Some (l, o) => (places l, o) | None => ([], None) end =
      ([(0%nat, 5, 0%nat, AcceptedOnL2); (1%nat, 6, 0%nat, AcceptedOnL2); (1%nat, 7, 0%nat, AcceptedOnL2)], Some 1%nat) /\
    places (snd (f_on_block flow7 [] 1%nat (nth 1 blocks (mkBlock 0 [])))) = [(1%nat, 6, 0%nat, AcceptedOnL2); (1%nat, 7, 0%nat, AcceptedOnL2)].
  Proof. vm_compute. split; reflexivity. Qed.
End SubscribeExamples.
Import SubscribeExamples.

(* The rest of C35 is false.  A block can be received twice: it is read from the storage before it
   is announced. *)
Theorem C35_twice_refuted : exists ls, Forall no_pruning ls /\
  s_sent (run (new_heads nat) (subscribed [100; 101] 2 1) ls) = [(1, 101); (2, 102); (2, 102)].
Proof.
  exists [Commit 102; CatchUpBatch; Spawn; TaskSubscribe; Announce; TaskBlock; FirstMessage; CatchUpToFirst].
  split; [repeat constructor|vm_compute; reflexivity].
Qed.
Print Assumptions C35_twice_refuted.

(* A block that is announced after the catch-up, and before the subscription to live blocks, is not
   received until there is another block. *)
Theorem C35_late_refuted : exists ls, Forall no_pruning ls /\
  let s := run (new_heads nat) (subscribed [100; 101] 2 1) ls in
  open s /\ idle (new_heads nat) s /\ s_chain s = [100; 101; 102] /\ s_announced s = 3 /\ s_sent s = [(1, 101)].
Proof.
  exists [CatchUpBatch; Commit 102; Announce; Spawn; TaskSubscribe]. split; [repeat constructor|]. cbv zeta. split; [split; vm_compute; discriminate|].
  split; [|vm_compute; auto]. intros l OW. destruct l; try contradiction; vm_compute; reflexivity.
Qed.
Print Assumptions C35_late_refuted.

(* With pruning, blocks can be missing: the catch-up goes on with the first block that is left. *)
Theorem C35_pruned_refuted : exists ls, s_sent (run (new_heads nat) (subscribed (seq 0 70) 70 0) ls) =
  map (fun n => (n, n)) (seq 0 64) ++ [(68, 68); (69, 69)].
Proof. exists [CatchUpBatch; Prune 68; CatchUpBatch]. vm_compute. reflexivity. Qed.
Print Assumptions C35_pruned_refuted.

(* A subscription to events with pre-confirmed ones misses the events of an accepted block that is
   announced before the subscription to live blocks, if the pending data are still those
   of this block: here the event of its second transaction is never sent. *)
Theorem C35_pending_first_refuted : exists ls, Forall no_pruning ls /\
  let s := run flow7 (subscribed (firstn 1 blocks) 1 0) ls in
  open s /\ idle flow7 s /\ s_phase s = Forwarding /\ s_chain s = blocks /\ s_announced s = 2 /\
  places (s_sent s) = [(0, 5%N, 0, AcceptedOnL2); (1, 6%N, 0, AtPreConfirmed)].
Proof.
  exists [CatchUpBatch; Commit (nth 1 blocks (mkBlock 0 [])); Announce; Spawn; TaskSubscribe;
          TaskPending (mkPendingData None (mkPending 1 [((6%N, 0%N), [ev 7 [1%N]; ev 8 [1%N]])])); FirstMessage; CatchUpToFirst].
  split; [repeat constructor|]. cbv zeta. split; [split; vm_compute; discriminate|]. split; [|vm_compute; repeat split].
  intros l OW. destruct l; try contradiction; vm_compute; reflexivity.
Qed.
Print Assumptions C35_pending_first_refuted.
