From Coq Require Import List NArith PeanoNat Bool Lia ZifyBool ZifyN ZifyNat Sorted.
From Verif Require Import BloomModel BloomSpec BloomProof EventModel EventSpec EventProof.
Import ListNotations.
Local Open Scope N_scope.

(* C30: whatever is asked for, with up to 16 key groups, every block with a wanted event is a
   candidate of the filter the block was put into. *)
Theorem C30_candidates_cover_matching : forall bloom_bytes range_bytes sip0 sip1 from blocks a n b addresses keys e,
  (0 < bloom_bytes)%nat -> (0 < range_bytes)%nat ->
  filter_of bloom_bytes range_bytes sip0 sip1 from blocks = Some a ->
  In (n, b) blocks -> In e (block_events b) -> wanted addresses keys e -> (length keys <= 16)%nat ->
  In n (check bloom_bytes range_bytes sip0 sip1 a addresses keys).
Proof.
  intros bb rb s0 s1 from blocks a n b addresses keys e P PR E I IE W L.
  assert (G : forall n b, In (n, b) blocks -> from <= n < from + len rb).
  { clear I IE W L n b e. unfold filter_of in E.
    assert (X : forall nbs a0, agg_wf bb rb from a0 -> fold_left (fun a nb => match a with
        | Some a => agg_insert rb a (events_bloom bb s0 s1 (block_events (snd nb))) (fst nb)
        | None => None end) nbs (Some a0) <> None -> forall n b, In (n, b) nbs -> from <= n < from + len rb).
    { induction nbs as [|[m c] nbs IH]; intros a0 W0 NN n b I; [destruct I|]. cbn [fold_left fst snd] in NN.
      assert (LM : from <= m < from + len rb).
      { assert (D : from <= m < from + len rb \/ ~ (from <= m < from + len rb)) by lia.
        destruct D as [D|D]; [exact D|exfalso]. apply NN.
        rewrite (insert_outside bb rb s0 s1 P PR from a0 _ m W0); [|rewrite events_bloom_spec; apply (bloom_of_spec bb rb s0 s1 P PR)|exact D].
        clear. induction nbs as [|x nbs IH]; [reflexivity|exact IH]. }
      destruct I as [I|I]; [injection I as <- <-; exact LM|].
      destruct (insert_covers bb rb s0 s1 P PR from a0 m c W0 LM) as (a1 & E1 & W1 & _). rewrite E1 in NN. apply (IH a1 W1 NN n b I). }
    intros n b I. apply (X blocks (agg_new bb rb from) (agg_new_wf bb rb from)) with (b := b); [|exact I].
    unfold filter_of in E. intros Z. rewrite Z in E. discriminate. }
  destruct (fold_covers bb rb s0 s1 P PR from blocks (agg_new bb rb from) (agg_new_wf bb rb from) G) as (a' & E' & W' & C & _).
  unfold filter_of in E. assert (a' = a) by (rewrite E in E'; congruence). subst a'.
  apply (check_complete bb rb s0 s1 P PR from a n b W' (C n b I) (G n b I) addresses keys e IE W L).
Qed.
Print Assumptions C30_candidates_cover_matching.

(* C32: after any history of new blocks, reorgs, queries and restarts (crashes not after
   reorgs), nothing has panicked, the chain is the expected one, and every block of it is in
   the range of exactly one filter, stored or running, and this one has its events. *)
Theorem C32_filters_cover_chain_partial : forall bloom_bytes range_bytes sip0 sip1 ops,
  (0 < bloom_bytes)%nat -> (0 < range_bytes)%nat -> orderly [] false ops ->
  exists s, node bloom_bytes range_bytes sip0 sip1 ops = Some s /\ d_blocks (s_db s) = chain_of ops /\
    forall n b, nth_error (chain_of ops) (N.to_nat n) = Some b ->
      exists l1 a l2, d_filters (s_db s) ++ [r_filter (s_running s)] = l1 ++ a :: l2 /\
        in_range a n /\ Forall (fun f => ~ in_range f n) (l1 ++ l2) /\
        contains bloom_bytes range_bytes sip0 sip1 a n b.
Proof.
  intros bb rb s0 s1 ops P PR O. destruct (node_ok bb rb s0 s1 P PR ops O) as (s & K & E & SY & EB).
  exists s. split; [exact E|]. split; [exact EB|]. intros n b N. rewrite <- EB in N.
  pose proof (sy_table _ _ _ _ _ _ SY) as T. pose proof (sy_running _ _ _ _ _ _ SY) as R.
  pose proof (to_height _ _ _ _ _ _ T) as H. pose proof (len_pos bb rb P PR) as LP. rewrite N.mul_add_distr_r, N.mul_1_l in H.
  assert (LN : n < height (s_db s)). { assert (N.to_nat n < length (d_blocks (s_db s)))%nat by (apply nth_error_Some; congruence). unfold height. lia. }
  pose proof (ro_wf _ _ _ _ _ _ _ R) as WR. pose proof (w_from _ _ _ _ WR) as FR. pose proof (agg_to _ _ _ _ WR) as TR.
  assert (FI : forall f, In f (d_filters (s_db s)) -> exists i, (i < K)%nat /\ from_block f = N.of_nat i * len rb /\ to_block f = N.of_nat i * len rb + len rb - 1)
    by (intros f I; apply (filter_from bb rb s0 s1 P PR K (s_db s) f T I)).
  destruct (N.lt_ge_cases n (N.of_nat K * len rb)) as [L|L].
  - pose proof (N.div_mod n (len rb) ltac:(lia)) as DN. pose proof (N.mod_lt n (len rb) ltac:(lia)) as MN.
    assert (LQ : n / len rb < N.of_nat K) by nia.
    assert (J : In (n / len rb * len rb) (map from_block (d_filters (s_db s)))).
    { rewrite (to_from _ _ _ _ _ _ T). apply in_map_iff. exists (N.to_nat (n / len rb)). split; [rewrite N2Nat.id; reflexivity|apply in_seq; revert LQ; generalize (n / len rb); intros; lia]. }
    apply in_map_iff in J. destruct J as (a & EA & IA). destruct (in_split _ _ IA) as (l1 & l2 & ES).
    assert (WA : agg_wf bb rb (from_block a) a) by (apply (to_wf _ _ _ _ _ _ T a IA)).
    exists l1, a, (l2 ++ [r_filter (s_running s)]). split; [rewrite ES, <- app_assoc; reflexivity|].
    assert (RA : from_block a <= n < from_block a + len rb) by (rewrite EA; nia).
    split; [unfold in_range; rewrite (agg_to _ _ _ _ WA); lia|]. split.
    + pose proof (fless_nodup bb rb P PR _ (table_sorted bb rb s0 s1 P PR K _ T)) as ND. rewrite ES, map_app in ND. cbn [map] in ND.
      apply NoDup_remove_2 in ND.
      assert (OTH : forall f, In f l1 \/ In f l2 -> ~ in_range f n).
      { intros f IF RF. assert (IFF : In f (d_filters (s_db s))) by (rewrite ES; apply in_or_app; destruct IF; [left|right; right]; assumption).
        destruct (FI f IFF) as (i & LI & EF & ET). unfold in_range in RF. rewrite EF, ET in RF.
        apply ND. rewrite <- map_app. apply in_map_iff. exists f. split; [|apply in_or_app; exact IF]. rewrite EF, EA.
        assert (N.of_nat i = n / len rb) by nia. congruence. }
      apply Forall_forall. intros f IF. rewrite !in_app_iff in IF. destruct IF as [IF|[IF|[<-|[]]]]; [apply OTH; auto|apply OTH; auto|].
      unfold in_range. rewrite FR. lia.
    + apply (check_complete bb rb s0 s1 P PR (from_block a)); [exact WA| |exact RA]. apply (to_covered _ _ _ _ _ _ T a n b IA N RA).
  - exists (d_filters (s_db s)), (r_filter (s_running s)), []. split; [reflexivity|]. split; [unfold in_range; rewrite FR, TR; lia|]. split.
    + rewrite app_nil_r. apply Forall_forall. intros f IF RF. destruct (FI f IF) as (i & LI & EF & ET). unfold in_range in RF. rewrite ET in RF. nia.
    + apply (check_complete bb rb s0 s1 P PR (N.of_nat K * len rb)); [exact WR| |lia]. apply (ro_covered _ _ _ _ _ _ _ R n b N L).
Qed.
Print Assumptions C32_filters_cover_chain_partial.

(* C31: after any such history, for every query with up to 16 key groups, every page size and
   every scan limit, following the continuation tokens ends, after one sequence of pages only;
   no page is larger than asked for, and the pages have exactly the wanted events of the
   requested part of the chain, in order. *)
Theorem C31_paging_exact_partial : forall bloom_bytes range_bytes sip0 sip1 ops,
  (0 < bloom_bytes)%nat -> (0 < range_bytes)%nat -> orderly [] false ops ->
  exists s, node bloom_bytes range_bytes sip0 sip1 ops = Some s /\
    forall limit from to addresses keys page_size (f : event -> bool),
      0 < limit -> (0 < page_size)%nat -> (length keys <= 16)%nat ->
      (forall e, f e = true <-> wanted addresses keys e) ->
      let latest := N.of_nat (length (chain_of ops)) - 1 in
      let first := match from with Some n => n | None => 0 end in
      let last := match to with Some n => N.min n latest | None => latest end in
      exists pages,
        paged (ask bloom_bytes range_bytes sip0 sip1 false limit s to addresses keys page_size) from 0 pages /\
        concat pages = filter (fun e => f (e_event e)) (emitted_between (chain_of ops) first last) /\
        Forall (fun p => (length p <= page_size)%nat) pages /\
        forall pages', paged (ask bloom_bytes range_bytes sip0 sip1 false limit s to addresses keys page_size) from 0 pages' -> pages' = pages.
Proof.
  intros bb rb s0 s1 ops P PR O. destruct (node_ok bb rb s0 s1 P PR ops O) as (s & K & E & SY & EB).
  exists s. split; [exact E|]. intros limit from to addresses keys page_size f LP PP LK HF latest first last.
  assert (FE : forall e, f e = wants addresses keys e) by (intros e; apply eq_iff_eq_true; rewrite HF, wants_spec; reflexivity).
  destruct (N.eq_dec (height (s_db s)) 0) as [Z|NZ].
  - assert (EC : chain_of ops = []). { unfold height in Z. rewrite EB in Z. destruct (chain_of ops); [reflexivity|cbn [length] in Z; lia]. }
    assert (EA : forall fr o, ask bb rb s0 s1 false limit s to addresses keys page_size fr o = ROk (mkPage [] None)).
    { intros fr o. unfold ask, events. cbn [c_page_size]. replace (page_size <? 1)%nat with false by lia. rewrite Z. reflexivity. }
    assert (PG : paged (ask bb rb s0 s1 false limit s to addresses keys page_size) from 0 [[]]) by (apply paged_last, EA).
    exists [[]]. split; [exact PG|]. rewrite EC. split.
    + unfold emitted_between, emitted_in. cbn [concat app]. symmetry. generalize (N.to_nat first) as a, (N.to_nat (last + 1) - N.to_nat first)%nat as n.
      intros a n. revert a. induction n as [|n IH]; intros a; [reflexivity|]. cbn [seq flat_map]. destruct a; apply IH.
    + split; [repeat constructor; cbn [length]; lia|]. intros pages' P'. symmetry. apply (paged_unique _ _ _ _ PG _ P').
  - destruct (paged_ok bb rb s0 s1 P PR K s limit to addresses keys page_size SY LP PP LK NZ
      (S (measure s to addresses keys (default_from from) 0)) from 0%nat (Nat.lt_succ_diag_r _) (or_introl eq_refl)) as (pages & PG & EC & F).
    exists pages. split; [exact PG|]. split; [|split; [exact F|intros pages' P'; symmetry; apply (paged_unique _ _ _ _ PG _ P')]].
    rewrite EC. unfold remaining. cbn [skipn]. rewrite M_expected, EB. unfold emitted_between.
    rewrite (filter_ext (fun e => f (e_event e)) (fun e => wants addresses keys (e_event e)) (fun e => FE (e_event e))).
    f_equal. f_equal; [unfold default_from, first; destruct from; reflexivity|].
    assert (EH : height (s_db s) - 1 = latest) by (unfold height, latest; rewrite EB; reflexivity). rewrite EH. fold last.
    unfold default_from, first. destruct from; lia.
Qed.
Print Assumptions C31_paging_exact_partial.

(* C30, C32 for queries without pages: they return exactly the events wanted by position in
   the requested part of the chain, and the last block looked at. *)
Theorem C30_events_in_range : forall bloom_bytes range_bytes sip0 sip1 ops,
  (0 < bloom_bytes)%nat -> (0 < range_bytes)%nat -> orderly [] false ops ->
  exists s, node bloom_bytes range_bytes sip0 sip1 ops = Some s /\
    forall from to addresses keys (f : event -> bool),
      (length keys <= 16)%nat -> (forall e, f e = true <-> wanted_by_position addresses keys e) ->
      from < N.of_nat (length (chain_of ops)) ->
      let last := N.min to (N.of_nat (length (chain_of ops)) - 1) in
      events_in_range bloom_bytes range_bytes sip0 sip1 (s_db s) (s_cache s) (s_running s) from to addresses keys =
      (filter (fun e => f (e_event e)) (emitted_between (chain_of ops) from last), Some last).
Proof.
  intros bb rb s0 s1 ops P PR O. destruct (node_ok bb rb s0 s1 P PR ops O) as (s & K & E & SY & EB).
  exists s. split; [exact E|]. intros from to addresses keys f LK HF LF last.
  assert (FE : forall e, f e = wants addresses (truncate_keys keys) e).
  { intros e. apply eq_iff_eq_true. rewrite HF, wants_spec, (truncate_spec bb rb s0 s1 P PR). reflexivity. }
  rewrite (events_in_range_ok bb rb s0 s1 P PR K s from to addresses keys SY LK) by (unfold height; rewrite EB; exact LF).
  unfold height. rewrite EB. fold last. rewrite M_expected.
  rewrite (filter_ext (fun e => f (e_event e)) (fun e => wants addresses (truncate_keys keys) (e_event e)) (fun e => FE (e_event e))). reflexivity.
Qed.
Print Assumptions C30_events_in_range.

Module EventExamples.
  Definition h0 (x : N) := (x * 37 + 11) mod 2 ^ 64.
  Definition h1 (x : N) := (x * 101 + 5) mod 2 ^ 64.
  Definition ev (a : N) (ks : list N) := mkEvent a ks [].
  Definition one (h a : N) (ks : list N) := mkBlock h [((h, 0), [ev a ks])].
  Definition empty (h : N) := mkBlock h [].
  Definition two := mkBlock 5 [((50, 0), [ev 7 [1]; ev 8 [2]]); ((51, 1), [ev 7 [3]; ev 7 [1; 2]])].
  (* 8 blocks per range; a reorg across a range boundary, restarts and a query in between *)
  Definition history : list op :=
    [Insert (one 0 7 [1]); Crash; Insert two; Insert (empty 2); Insert (one 3 9 []); Insert (empty 4); Insert (empty 5); Insert (empty 6);
     Insert two; Insert (one 8 7 [1]); Query 0 20 (fun _ => true); Reorg 6; Insert (empty 60); Restart; Insert (one 61 7 [1; 4]); Insert (empty 62); Crash; Insert two].
  Definition final := match node 16 1 h0 h1 history with Some s => s | None => mkState (new_db 16 1) (mkRunning (agg_new 16 1 0) 0) [] end.
  Definition q := ask 16 1 h0 h1 false 4 final None [7] [[1]] 1.

  Example history_is_orderly : orderly [] false history.
  Proof. vm_compute. repeat (split; [let H := fresh in intros H; first [discriminate H|reflexivity]|]). exact I. Qed.
  Example history_runs : node 16 1 h0 h1 history = Some final /\ length (chain_of history) = 10%nat /\ length (d_filters (s_db final)) = 1%nat.
  Proof. vm_compute. repeat split. Qed.
  Definition places (r : result) := match r with ROk p => Some (map (fun e => (e_block_number e, e_index e)) (p_events p), p_token p) | _ => None end.
  Example first_pages :
    places (q None 0) = Some ([(0, 0%nat)], Some (mkToken 1 0)) /\
    places (q (Some 1) 0) = Some ([(1, 0%nat)], Some (mkToken 1 1)) /\
    places (q (Some 1) 1) = Some ([(1, 1%nat)], Some (mkToken 5 0)) /\
    places (q (Some 5) 0) = Some ([(7, 0%nat)], Some (mkToken 9 0)) /\
    places (q (Some 9) 0) = Some ([(9, 0%nat)], Some (mkToken 9 1)) /\
    places (q (Some 9) 1) = Some ([(9, 1%nat)], None).
  Proof. vm_compute. repeat split. Qed.
  Example wanted_here : wanted [7] [[1]] (ev 7 [1; 2]) /\ ~ wanted [7] [[1]; []] (ev 7 [1]).
  Proof.
    split.
    - split; [right; left; reflexivity|]. right. split; [cbn; lia|]. intros [|i] g E; cbn in E; [injection E as <-; right; exists 1; split; [reflexivity|left; reflexivity]|destruct i; discriminate].
    - intros [_ [H|[H _]]]; [specialize (H [1] (or_introl eq_refl)); discriminate|cbn in H; lia].
  Qed.
  Example in_range_query : map (fun e => (e_block_number e, e_index e)) (fst (events_in_range 16 1 h0 h1 (s_db final) (s_cache final) (s_running final) 1 8 [7] [[1]; []]))
    = [(1, 0%nat); (1, 1%nat); (7, 0%nat)].
  Proof. vm_compute. reflexivity. Qed.
End EventExamples.
Import EventExamples.

(* C30 fails for more than 16 key groups (the RPC methods reject such requests): only the
   first 16 keys of an event are in the filter. *)
Theorem C30_more_than_16_groups_refuted : exists a n b e keys,
  filter_of 128 1 h0 h1 0 [(n, b)] = Some a /\ In e (block_events b) /\ wanted [] keys e /\ length keys = 17%nat /\
  check 128 1 h0 h1 a [] keys = [].
Proof.
  set (ks := map N.of_nat (seq 1 16) ++ [1000003]). set (b := mkBlock 1 [((1, 0), [ev 7 ks])]).
  assert (X : match filter_of 128 1 h0 h1 0 [(3, b)] with Some a => check 128 1 h0 h1 a [] (map (fun k => [k]) ks) = [] | None => False end)
    by (vm_compute; reflexivity).
  destruct (filter_of 128 1 h0 h1 0 [(3, b)]) as [a|] eqn:E; [|destruct X].
  exists a, 3, b, (ev 7 ks), (map (fun k => [k]) ks). split; [exact E|]. split; [left; reflexivity|]. split.
  - split; [left; reflexivity|]. right. split; [rewrite map_length; apply Nat.le_refl|]. intros i g EG. right.
    rewrite nth_error_map in EG. destruct (nth_error ks i) as [k|] eqn:EK; [|discriminate]. injection EG as <-. exists k.
    split; [exact EK|left; reflexivity].
  - split; [reflexivity|exact X].
Qed.
Print Assumptions C30_more_than_16_groups_refuted.

(* C31 fails with blockchain pruning enabled: the block of a continuation token is replaced by
   the earliest stored block, so that following the tokens of this query never ends. *)
Theorem C31_paging_with_pruning_refuted : exists s, node 16 1 h0 h1 [Insert (one 0 7 [1]); Insert (one 1 7 [1])] = Some s /\
  forall pages, ~ paged (ask 16 1 h0 h1 true 100 s None [7] [] 1) (Some 0) 0 pages.
Proof.
  assert (X : match node 16 1 h0 h1 [Insert (one 0 7 [1]); Insert (one 1 7 [1])] with
    | Some s => forall n, ask 16 1 h0 h1 true 100 s None [7] [] 1 (Some n) 0 =
        ROk (mkPage [mkEmitted (ev 7 [1]) 0 0 (0, 0) 0] (Some (mkToken 1 0)))
    | None => False end) by (vm_compute; reflexivity).
  destruct (node 16 1 h0 h1 [Insert (one 0 7 [1]); Insert (one 1 7 [1])]) as [s|] eqn:E; [|destruct X].
  exists s. split; [reflexivity|]. rename X into Q.
  assert (Y : forall from off pages, paged (ask 16 1 h0 h1 true 100 s None [7] [] 1) from off pages -> off = 0%nat -> from <> None -> False).
  { clear - Q. induction 1 as [from off evs EP|from off evs t rest EP P IH]; intros -> NN; (destruct from as [n|]; [|congruence]); rewrite Q in EP; [discriminate|].
    injection EP as <- <-. apply IH; [reflexivity|discriminate]. }
  intros pages P. apply (Y _ _ _ P); [reflexivity|discriminate].
Qed.
Print Assumptions C31_paging_with_pruning_refuted.

(* C32 fails for a crash after a reorg: the filter stored by the last orderly shutdown is taken
   for that of the new chain if the chain has the same length again, and an event is lost. *)
Theorem C32_crash_after_reorg_refuted : exists ops s,
  ops = [Insert (one 0 7 [1]); Insert (one 1 7 [1]); Restart; Reorg 1; Insert (one 10 9 [5]); Crash] /\
  node 16 1 h0 h1 ops = Some s /\
  (exists e, In e (emitted_between (chain_of ops) 0 1) /\ wanted [9] [] (e_event e)) /\
  paged (ask 16 1 h0 h1 false 100 s None [9] [] 10) None 0 [[]].
Proof.
  eexists. assert (X : match node 16 1 h0 h1 [Insert (one 0 7 [1]); Insert (one 1 7 [1]); Restart; Reorg 1; Insert (one 10 9 [5]); Crash] with
    | Some s => ask 16 1 h0 h1 false 100 s None [9] [] 10 None 0 = ROk (mkPage [] None) | None => False end) by (vm_compute; reflexivity).
  destruct (node 16 1 h0 h1 [Insert (one 0 7 [1]); Insert (one 1 7 [1]); Restart; Reorg 1; Insert (one 10 9 [5]); Crash]) as [s|] eqn:E; [|destruct X].
  exists s. split; [reflexivity|]. split; [exact E|]. split.
  - exists (mkEmitted (ev 9 [5]) 10 1 (10, 0) 0). split; [vm_compute; auto|]. split; [right; left; reflexivity|]. left. intros g [].
  - apply paged_last, X.
Qed.
Print Assumptions C32_crash_after_reorg_refuted.

(* ... and after a reorg of the first block, even if there was an orderly shutdown. *)
Theorem C32_reorg_of_genesis_refuted : exists ops s,
  ops = [Insert (one 0 7 [1]); Reorg 0; Restart; Insert (one 10 9 [5]); Crash] /\
  node 16 1 h0 h1 ops = Some s /\
  (exists e, In e (emitted_between (chain_of ops) 0 0) /\ wanted [9] [] (e_event e)) /\
  paged (ask 16 1 h0 h1 false 100 s None [9] [] 10) None 0 [[]].
Proof.
  eexists. assert (X : match node 16 1 h0 h1 [Insert (one 0 7 [1]); Reorg 0; Restart; Insert (one 10 9 [5]); Crash] with
    | Some s => ask 16 1 h0 h1 false 100 s None [9] [] 10 None 0 = ROk (mkPage [] None) | None => False end) by (vm_compute; reflexivity).
  destruct (node 16 1 h0 h1 [Insert (one 0 7 [1]); Reorg 0; Restart; Insert (one 10 9 [5]); Crash]) as [s|] eqn:E; [|destruct X].
  exists s. split; [reflexivity|]. split; [exact E|]. split.
  - exists (mkEmitted (ev 9 [5]) 10 0 (10, 0) 0). split; [vm_compute; auto|]. split; [right; left; reflexivity|]. left. intros g [].
  - apply paged_last, X.
Qed.
Print Assumptions C32_reorg_of_genesis_refuted.

(* The running filter is changed in memory before the transaction commits.  If the insertion
   of the last block of a range is rolled back, inserting the block again panics. *)
Theorem C32_rolled_back_insert_refuted : exists s s' b,
  node 16 1 h0 h1 (map (fun n => Insert (empty (N.of_nat n))) (seq 0 7)) = Some s /\
  insert_block 16 1 h0 h1 s b = Some s' /\
  insert_block 16 1 h0 h1 (mkState (s_db s) (s_running s') (s_cache s')) b = None.
Proof.
  assert (X : match node 16 1 h0 h1 (map (fun n => Insert (empty (N.of_nat n))) (seq 0 7)) with
    | Some s => match insert_block 16 1 h0 h1 s (one 7 7 [1]) with
                | Some s' => insert_block 16 1 h0 h1 (mkState (s_db s) (s_running s') (s_cache s')) (one 7 7 [1]) = None
                | None => False end
    | None => False end) by (vm_compute; reflexivity).
  destruct (node 16 1 h0 h1 (map (fun n => Insert (empty (N.of_nat n))) (seq 0 7))) as [s|]; [|destruct X].
  destruct (insert_block 16 1 h0 h1 s (one 7 7 [1])) as [s'|] eqn:E'; [|destruct X].
  exists s, s', (one 7 7 [1]). split; [reflexivity|]. split; [exact E'|exact X].
Qed.
Print Assumptions C32_rolled_back_insert_refuted.

(* The running filter is shared by all connections.  A query that reads the database as it was
   before the last block of a range while the filter is already that of the next range misses
   the events of the whole range. *)
Theorem C32_stale_snapshot_refuted : exists s s' b,
  node 16 1 h0 h1 (map (fun n => Insert (one (N.of_nat n) 7 [1])) (seq 0 7)) = Some s /\
  insert_block 16 1 h0 h1 s b = Some s' /\
  length (filter (fun e => ev_from (e_event e) =? 7) (emitted_between (d_blocks (s_db s)) 0 6)) = 7%nat /\
  paged (ask 16 1 h0 h1 false 100 (mkState (s_db s) (s_running s') (s_cache s)) None [7] [] 10) None 0 [[]].
Proof.
  assert (X : match node 16 1 h0 h1 (map (fun n => Insert (one (N.of_nat n) 7 [1])) (seq 0 7)) with
    | Some s => match insert_block 16 1 h0 h1 s (one 7 7 [1]) with
                | Some s' => length (filter (fun e => ev_from (e_event e) =? 7) (emitted_between (d_blocks (s_db s)) 0 6)) = 7%nat /\
                    ask 16 1 h0 h1 false 100 (mkState (s_db s) (s_running s') (s_cache s)) None [7] [] 10 None 0 = ROk (mkPage [] None)
                | None => False end
    | None => False end) by (vm_compute; split; reflexivity).
  destruct (node 16 1 h0 h1 (map (fun n => Insert (one (N.of_nat n) 7 [1])) (seq 0 7))) as [s|]; [|destruct X].
  destruct (insert_block 16 1 h0 h1 s (one 7 7 [1])) as [s'|] eqn:E'; [|destruct X]. destruct X as [X1 X2].
  exists s, s', (one 7 7 [1]). split; [reflexivity|]. split; [exact E'|]. split; [exact X1|apply paged_last, X2].
Qed.
Print Assumptions C32_stale_snapshot_refuted.
