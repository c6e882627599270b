From Coq Require Import List NArith PeanoNat Bool Lia ZifyBool ZifyN ZifyNat Sorted Permutation.
From Verif Require Import BloomModel BloomSpec BloomProof EventModel EventSpec.
Import ListNotations.
Local Open Scope N_scope.

(* ---- lists ---- *)

Lemma felt_mem_spec x l : felt_mem x l = true <-> In x l.
Proof.
  unfold felt_mem. rewrite existsb_exists. split.
  - intros (y & I & E). apply N.eqb_eq in E. subst y. exact I.
  - intros I. exists x. split; [exact I|apply N.eqb_refl].
Qed.

Lemma is_nil_spec {X} (l : list X) : is_nil l = true <-> l = [].
Proof. destruct l; cbn [is_nil]; split; congruence. Qed.

Lemma enumerate_gen {X} (l : list X) d : forall i0,
  combine (seq i0 (length l)) l = map (fun i => (i, nth (i - i0) l d)) (seq i0 (length l)).
Proof.
  induction l as [|x l IH]; intros i0; cbn [length seq combine map]; [reflexivity|].
  rewrite Nat.sub_diag. cbn [nth]. f_equal. rewrite IH. apply map_ext_in. intros i I. apply in_seq in I.
  f_equal. replace (i - i0)%nat with (S (i - S i0)) by lia. reflexivity.
Qed.

Lemma enumerate_spec {X} (l : list X) d : enumerate l = map (fun i => (i, nth i l d)) (seq 0 (length l)).
Proof.
  unfold enumerate. rewrite (enumerate_gen l d 0). apply map_ext. intros i. rewrite Nat.sub_0_r. reflexivity.
Qed.

Lemma in_enumerate {X} (l : list X) i x : In (i, x) (enumerate l) <-> nth_error l i = Some x.
Proof.
  rewrite (enumerate_spec l x), in_map_iff. split.
  - intros (j & E & I). apply in_seq in I. injection E as -> E. rewrite <- E. apply nth_error_nth'. lia.
  - intros E. exists i. split; [f_equal; apply nth_error_nth, E|]. apply in_seq.
    assert (i < length l)%nat by (apply nth_error_Some; congruence). lia.
Qed.

Lemma nth_error_firstn_lt {X} (l : list X) : forall n i, (i < n)%nat -> nth_error (firstn n l) i = nth_error l i.
Proof.
  induction l as [|x l IH]; intros [|n] [|i] L; cbn [firstn nth_error]; try lia; auto. apply IH. lia.
Qed.

(* ---- the matching functions decide what is wanted ---- *)

Lemma address_match_spec addresses e : address_match addresses e = true <-> addresses = [] \/ In (ev_from e) addresses.
Proof. unfold address_match. rewrite orb_true_iff, is_nil_spec, felt_mem_spec. reflexivity. Qed.

Lemma combine_all (P : N -> list N -> Prop) ks : forall gs, (length gs <= length ks)%nat ->
  ((forall k g, In (k, g) (combine ks gs) -> P k g) <->
   (forall i g, nth_error gs i = Some g -> exists k, nth_error ks i = Some k /\ P k g)).
Proof.
  induction ks as [|k ks IH]; intros [|g gs] L; cbn [length combine] in *; try lia.
  - split; [intros _ [|i] g E; discriminate|intros _ k g []].
  - split; [intros _ [|i] g E; discriminate|intros _ k0 g []].
  - specialize (IH gs ltac:(lia)). split.
    + intros H [|i] g0 E; cbn [nth_error] in *.
      * injection E as <-. exists k. split; [reflexivity|]. apply H. left. reflexivity.
      * apply IH; [|exact E]. intros k1 g1 I. apply H. right. exact I.
    + intros H k0 g0 [E|I].
      * injection E as <- <-. destruct (H 0%nat g eq_refl) as (k1 & E1 & P1). cbn [nth_error] in E1. injection E1 as <-. exact P1.
      * apply IH; [|exact I]. intros i g1 E1. apply (H (S i) g1 E1).
Qed.

Lemma keys_match_spec keys e : keys_match keys e = true <->
  (forall g, In g keys -> g = []) \/
  ((length keys <= length (ev_keys e))%nat /\
   forall i g, nth_error keys i = Some g -> g = [] \/ exists k, nth_error (ev_keys e) i = Some k /\ In k g).
Proof.
  unfold keys_match. destruct (forallb is_nil keys) eqn:A.
  - split; [intros _; left|reflexivity]. rewrite forallb_forall in A. intros g I. apply is_nil_spec, A, I.
  - assert (NA : ~ (forall g, In g keys -> g = [])).
    { intros H. assert (forallb is_nil keys = true); [|congruence]. apply forallb_forall. intros g I. apply is_nil_spec, H, I. }
    destruct (Nat.ltb_spec (length (ev_keys e)) (length keys)) as [L|L].
    + split; [discriminate|]. intros [H|[H _]]; [contradiction|lia].
    + rewrite forallb_forall. split.
      * intros H. right. split; [exact L|]. intros i g E.
        assert (X : exists k, nth_error (ev_keys e) i = Some k /\ (g = [] \/ In k g)).
        { revert i g E. apply (proj1 (combine_all (fun k g => g = [] \/ In k g) (ev_keys e) keys L)).
          intros k g I. specialize (H _ I). cbn [fst snd] in H. apply orb_true_iff in H.
          rewrite is_nil_spec, felt_mem_spec in H. exact H. }
        destruct X as (k & EK & [X|X]); [left; exact X|right; exists k; auto].
      * intros [H|[_ H]]; [contradiction|]. intros [k g] I. cbn [fst snd]. apply orb_true_iff.
        rewrite is_nil_spec, felt_mem_spec. revert k g I.
        apply (proj2 (combine_all (fun k g => g = [] \/ In k g) (ev_keys e) keys L)). intros i g E.
        assert (LI : (i < length (ev_keys e))%nat).
        { assert (i < length keys)%nat by (apply nth_error_Some; congruence). lia. }
        apply nth_error_Some in LI. destruct (nth_error (ev_keys e) i) as [k|] eqn:EK; [|congruence].
        exists k. split; [reflexivity|]. destruct (H i g E) as [X|(k' & E' & X)]; [left; exact X|right; congruence].
Qed.

Definition wants (addresses : list N) (keys : list (list N)) (e : event) : bool :=
  address_match addresses e && keys_match keys e.
Lemma wants_spec addresses keys e : wants addresses keys e = true <-> wanted addresses keys e.
Proof. unfold wants, wanted. rewrite andb_true_iff, address_match_spec, keys_match_spec. reflexivity. Qed.

Lemma filter_filter {X} (f g : X -> bool) l : filter f (filter g l) = filter (fun x => g x && f x) l.
Proof.
  induction l as [|x l IH]; cbn [filter]; [reflexivity|]. destruct (g x) eqn:G; cbn [filter andb]; rewrite ?IH; [|reflexivity].
  destruct (f x); reflexivity.
Qed.
Lemma filter_flat_map {X Y} (f : Y -> bool) (g : X -> list Y) l : filter f (flat_map g l) = flat_map (fun x => filter f (g x)) l.
Proof. induction l as [|x l IH]; cbn [flat_map filter]; [reflexivity|]. rewrite filter_app, IH. reflexivity. Qed.
Lemma filter_map {X Y} (f : Y -> bool) (g : X -> Y) l : filter f (map g l) = map g (filter (fun x => f (g x)) l).
Proof. induction l as [|x l IH]; cbn [map filter]; [reflexivity|]. rewrite IH. destruct (f (g x)); reflexivity. Qed.

(* The matching events of a block are the wanted ones of its events. *)
Lemma block_matches_spec addresses keys n b :
  block_matches addresses keys n b = filter (fun e => wants addresses keys (e_event e)) (emitted_at n b).
Proof.
  unfold block_matches, emitted_at. rewrite filter_flat_map. apply flat_map_ext. intros [tx evs]. cbn [fst snd].
  rewrite filter_filter, filter_map, (enumerate_spec evs (mkEvent 0 [] [])), filter_map, map_map. cbn [fst snd e_event]. reflexivity.
Qed.

Lemma emitted_at_block n b e : In e (emitted_at n b) -> e_block_number e = n /\ In (e_event e) (block_events b).
Proof.
  unfold emitted_at, block_events. rewrite !in_flat_map. intros (tx & I & J). apply in_map_iff in J.
  destruct J as (i & <- & J). cbn [e_block_number e_event]. split; [reflexivity|]. exists tx. split; [exact I|].
  apply in_seq in J. apply nth_In. lia.
Qed.

(* ---- candidates ---- *)

Section Events.
  Variables bloom_bytes range_bytes : nat.
  Variables sip0 sip1 : N -> N.
  Hypothesis bloom_pos : (0 < bloom_bytes)%nat.
  Hypothesis range_pos : (0 < range_bytes)%nat.
  Notation agg_wf := (agg_wf bloom_bytes range_bytes).
  Notation indices := (indices_for_key bloom_bytes sip0 sip1).
  Notation col := (range_len range_bytes).
  Notation len := (len range_bytes).
  Notation check := (check bloom_bytes range_bytes sip0 sip1).

  (* The keys an event puts into the filter of its block. *)
  Definition event_filter_keys (e : event) : list N :=
    map (fun ik => index_key (snd ik) (fst ik)) (enumerate (firstn key_limit (ev_keys e))) ++ [ev_from e].
  Definition filter_keys (b : block) : list N := flat_map event_filter_keys (block_events b).

  Lemma events_bloom_spec evs : events_bloom bloom_bytes sip0 sip1 evs = bloom_of bloom_bytes sip0 sip1 (flat_map event_filter_keys evs).
  Proof.
    unfold events_bloom, bloom_of. generalize (bloom_new bloom_bytes) as b0. induction evs as [|e evs IH]; intros b0; cbn [fold_left flat_map]; [reflexivity|].
    rewrite fold_left_app, IH. f_equal. unfold event_filter_keys. rewrite fold_left_app. cbn [fold_left]. unfold set_address. f_equal.
    unfold set_keys. generalize (enumerate (firstn key_limit (ev_keys e))) as l, b0. induction l as [|x l IHl]; intros b1; cbn [map fold_left]; [reflexivity|].
    apply IHl.
  Qed.

  (* All bits of all keys of block n are set. *)
  Definition covered (a : aggregate) (n : N) (b : block) : Prop :=
    forall k i, In k (filter_keys b) -> In i (indices k) ->
      bit (bitmap a) (i * col + N.to_nat (n - from_block a)) = true.

  Lemma check_groups_bits from a groups : agg_wf from a -> forall acc, length acc = range_bytes ->
    length (check_groups bloom_bytes range_bytes sip0 sip1 a groups acc) = range_bytes /\
    forall c, (c < col)%nat ->
      bit acc c = true ->
      (forall idx g, In (idx, g) groups -> g = [] \/ exists k, In k g /\
         forall i, In i (indices (index_key k idx)) -> bit (bitmap a) (i * col + c) = true) ->
      bit (check_groups bloom_bytes range_bytes sip0 sip1 a groups acc) c = true.
  Proof.
    intros W. induction groups as [|[idx g] groups IH]; intros acc L; cbn [check_groups]; [split; auto|].
    destruct (blocks_bits bloom_bytes range_bytes sip0 sip1 bloom_pos range_pos from a (map (fun k => index_key k idx) g) W) as [BL BB].
    set (r := blocks_for_keys _ _ _ _ _ _) in *. destruct (bytes_eqb r (range_empty range_bytes)) eqn:E.
    - split; [apply repeat_length|]. intros c LC A H. exfalso.
      assert (ER : r = range_empty range_bytes).
      { clear - E. revert E. generalize (range_empty range_bytes) as l. induction r as [|x r IH]; intros [|y l] E; cbn [bytes_eqb] in E; try discriminate; [reflexivity|].
        apply andb_true_iff in E. destruct E as [E1 E2]. apply N.eqb_eq in E1. subst y. f_equal. apply IH, E2. }
      assert (Z : bit r c = false) by (rewrite ER; apply bit_zeros).
      rewrite BB in Z by exact LC. destruct (H idx g (or_introl eq_refl)) as [->|(k & I & X)]; [cbn [map] in Z; discriminate|].
      assert (existsb (fun k => forallb (fun i => bit (bitmap a) (i * col + c)) (indices k)) (map (fun k => index_key k idx) g) = true).
      { apply existsb_exists. exists (index_key k idx). split; [apply (in_map (fun k => index_key k idx)), I|]. apply forallb_forall, X. }
      destruct g; [destruct I|]. cbn [map] in *. congruence.
    - destruct (IH (range_and acc r)) as [IL IB]; [unfold range_and; rewrite zip_length; exact L|]. split; [exact IL|].
      intros c LC A H. apply IB; [exact LC| |intros idx' g' I; apply H; right; exact I].
      rewrite (range_and_bit bloom_bytes range_bytes sip0 sip1 bloom_pos range_pos) by assumption. rewrite A, BB by exact LC. cbn [andb].
      destruct (H idx g (or_introl eq_refl)) as [->|(k & I & X)]; [reflexivity|].
      assert (Y : existsb (fun k => forallb (fun i => bit (bitmap a) (i * col + c)) (indices k)) (map (fun k => index_key k idx) g) = true).
      { apply existsb_exists. exists (index_key k idx). split; [apply (in_map (fun k => index_key k idx)), I|]. apply forallb_forall, X. }
      destruct g; [destruct I|]. cbn [map] in *. exact Y.
  Qed.

  Definition candidates_range (a : aggregate) (addresses : list N) (keys : list (list N)) : list N :=
    range_and (check_addresses bloom_bytes range_bytes sip0 sip1 a addresses) (check_keys bloom_bytes range_bytes sip0 sip1 a keys).

  Lemma check_addresses_length from a addresses : agg_wf from a -> length (check_addresses bloom_bytes range_bytes sip0 sip1 a addresses) = range_bytes.
  Proof.
    intros W. unfold check_addresses. destruct (is_nil addresses); [apply repeat_length|].
    apply (blocks_bits bloom_bytes range_bytes sip0 sip1 bloom_pos range_pos from a addresses W).
  Qed.
  Lemma check_keys_length from a keys : agg_wf from a -> length (check_keys bloom_bytes range_bytes sip0 sip1 a keys) = range_bytes.
  Proof.
    intros W. unfold check_keys. destruct (_ || _); [apply repeat_length|].
    apply (check_groups_bits from a (enumerate keys) W (range_full range_bytes) (repeat_length _ _)).
  Qed.

  (* What a filter reports are blocks of its range, in ascending order. *)
  Lemma check_spec from a addresses keys : agg_wf from a ->
    check a addresses keys = map (fun i => from + N.of_nat i) (filter (bit (candidates_range a addresses keys)) (seq 0 col)).
  Proof.
    intros W. unfold EventModel.check. fold (candidates_range a addresses keys).
    rewrite (iter_ones_filter bloom_bytes range_bytes sip0 sip1 bloom_pos range_pos). rewrite (w_from _ _ _ _ W).
    do 3 f_equal. unfold candidates_range, range_and. rewrite zip_length. rewrite (check_addresses_length from a addresses W). reflexivity.
  Qed.

  Lemma check_in from a addresses keys n : agg_wf from a -> In n (check a addresses keys) -> from <= n < from + len.
  Proof.
    intros W I. rewrite (check_spec from a addresses keys W) in I. apply in_map_iff in I. destruct I as (i & <- & I).
    apply filter_In in I. destruct I as [I _]. apply in_seq in I. unfold EventModel.len. lia.
  Qed.

  Lemma sorted_map_filter (from : N) f n : forall k, StronglySorted N.lt (map (fun i => from + N.of_nat i) (filter f (seq k n))) /\
    Forall (fun x => from + N.of_nat k <= x) (map (fun i => from + N.of_nat i) (filter f (seq k n))).
  Proof.
    induction n as [|n IH]; intros k; cbn [seq filter map]; [split; constructor|].
    destruct (IH (S k)) as [S1 F1]. destruct (f k); cbn [map].
    - split.
      + constructor; [exact S1|]. eapply Forall_impl; [|exact F1]. cbv beta. intros; lia.
      + constructor; [lia|]. eapply Forall_impl; [|exact F1]. cbv beta. intros; lia.
    - split; [exact S1|]. eapply Forall_impl; [|exact F1]. cbv beta. intros; lia.
  Qed.
  Lemma check_sorted from a addresses keys : agg_wf from a -> StronglySorted N.lt (check a addresses keys).
  Proof. intros W. rewrite (check_spec from a addresses keys W). apply sorted_map_filter. Qed.

  Lemma indexed_key_in b e i k : In e (block_events b) -> nth_error (ev_keys e) i = Some k -> (i < 16)%nat ->
    In (index_key k i) (filter_keys b).
  Proof.
    intros I E L. unfold filter_keys. apply in_flat_map. exists e. split; [exact I|]. unfold event_filter_keys.
    apply in_or_app. left. apply in_map_iff. exists (i, k). split; [reflexivity|]. apply in_enumerate.
    rewrite nth_error_firstn_lt by (unfold key_limit; lia). exact E.
  Qed.

  (* A covered block with a wanted event is reported. *)
  Lemma check_complete from a n b : agg_wf from a -> covered a n b -> from <= n < from + len -> contains bloom_bytes range_bytes sip0 sip1 a n b.
  Proof.
    intros W C LN addresses keys e I WT LK. rewrite (check_spec from a addresses keys W). apply in_map_iff.
    exists (N.to_nat (n - from)). split; [lia|]. unfold EventModel.len in LN.
    assert (LC : (N.to_nat (n - from) < col)%nat) by lia.
    apply filter_In. split; [apply in_seq; lia|]. unfold candidates_range.
    rewrite (range_and_bit bloom_bytes range_bytes sip0 sip1 bloom_pos range_pos) by
      first [exact LC | apply (check_addresses_length from a addresses W) | apply (check_keys_length from a keys W)].
    pose proof (w_from _ _ _ _ W) as EF. unfold covered in C. rewrite EF in C.
    destruct WT as [WA WK]. apply andb_true_iff. split.
    - unfold check_addresses. destruct WA as [->|WA]; [cbn [is_nil]; apply (full_bit bloom_bytes); assumption|].
      destruct addresses as [|a0 al]; [destruct WA|]. cbn [is_nil].
      rewrite (proj2 (blocks_bits bloom_bytes range_bytes sip0 sip1 bloom_pos range_pos from a (a0 :: al) W)) by exact LC.
      apply existsb_exists. exists (ev_from e). split; [exact WA|]. apply forallb_forall. intros i II. apply (C (ev_from e)); [|exact II].
      unfold filter_keys. apply in_flat_map. exists e. split; [exact I|]. unfold event_filter_keys. apply in_or_app. right. left. reflexivity.
    - unfold check_keys. destruct (is_nil keys || existsb is_nil keys) eqn:X; [apply (full_bit bloom_bytes); assumption|].
      apply orb_false_iff in X. destruct X as [XN XE].
      apply (check_groups_bits from a (enumerate keys) W (range_full range_bytes) (repeat_length _ _)); [exact LC|apply (full_bit bloom_bytes); assumption|].
      intros idx g IG. apply in_enumerate in IG. right.
      assert (NG : g <> []).
      { intros ->. assert (existsb is_nil keys = true); [|congruence]. apply existsb_exists. exists []. split; [apply (nth_error_In _ _ IG)|reflexivity]. }
      destruct WK as [WK|[_ WK]]; [exfalso; apply NG, WK, (nth_error_In _ _ IG)|].
      destruct (WK idx g IG) as [?|(k & EK & IK)]; [contradiction|]. exists k. split; [exact IK|]. intros i II.
      assert (idx < length keys)%nat by (apply nth_error_Some; congruence).
      apply (C (index_key k idx)); [|exact II]. apply (indexed_key_in b e); [exact I|exact EK|lia].
  Qed.

  (* Inserting a block covers it and keeps others covered. *)
  Lemma insert_covers from a n b : agg_wf from a -> from <= n < from + len ->
    exists a', agg_insert range_bytes a (events_bloom bloom_bytes sip0 sip1 (block_events b)) n = Some a' /\ agg_wf from a' /\
      covered a' n b /\ forall m c, from <= m < from + len -> covered a m c -> covered a' m c.
  Proof.
    intros W L. rewrite events_bloom_spec. fold (filter_keys b).
    pose proof (agg_insert_spec bloom_bytes range_bytes sip0 sip1 bloom_pos range_pos from a (bloom_of bloom_bytes sip0 sip1 (filter_keys b)) n W
      (proj1 (bloom_of_spec bloom_bytes range_bytes sip0 sip1 bloom_pos range_pos _))) as S.
    unfold EventModel.len in *. destruct (agg_insert _ _ _ _) as [a'|]; [|lia]. destruct S as (_ & W' & B). exists a'.
    pose proof (w_from _ _ _ _ W) as F. pose proof (w_from _ _ _ _ W') as F'.
    assert (IB : forall k i, In i (indices k) -> (i < bloom_bits bloom_bytes)%nat).
    { intros k i I. pose proof (indices_bound bloom_bytes range_bytes sip0 sip1 bloom_pos range_pos k) as H. rewrite Forall_forall in H. apply H, I. }
    split; [reflexivity|]. split; [exact W'|]. split.
    - intros k i IK II. rewrite F'. rewrite B by (eauto; lia). apply orb_true_iff. right. apply andb_true_iff. split; [lia|].
      apply (bloom_bit bloom_bytes range_bytes sip0 sip1 bloom_pos range_pos). exists k. auto.
    - intros m c LM C k i IK II. rewrite F'. rewrite B by (eauto; lia). apply orb_true_iff. left. rewrite <- F. apply (C k i IK II).
  Qed.

  Lemma insert_outside from a bloom n : agg_wf from a -> length bloom = bloom_bytes -> ~ (from <= n < from + len) -> agg_insert range_bytes a bloom n = None.
  Proof.
    intros W LB L. pose proof (agg_insert_spec bloom_bytes range_bytes sip0 sip1 bloom_pos range_pos from a bloom n W LB) as S.
    unfold EventModel.len in *. destruct (agg_insert _ _ _ _) as [a'|]; [lia|reflexivity].
  Qed.

  (* ---- the filters of a chain ---- *)

  Lemma len_pos : 0 < len.
  Proof. unfold EventModel.len, range_len. lia. Qed.

  (* K full ranges of blocks are in the table; the running filter is for the next one. *)
  Record table_ok (K : nat) (d : db) : Prop := {
    to_pruned : d_pruned d = 0;
    to_from : map from_block (d_filters d) = map (fun i => N.of_nat i * len) (seq 0 K);
    to_wf : forall f, In f (d_filters d) -> agg_wf (from_block f) f;
    to_height : N.of_nat K * len <= height d < (N.of_nat K + 1) * len;
    to_covered : forall f n b, In f (d_filters d) -> nth_error (d_blocks d) (N.to_nat n) = Some b ->
      from_block f <= n < from_block f + len -> covered f n b }.
  Record running_ok (K : nat) (d : db) (f : aggregate) : Prop := {
    ro_wf : agg_wf (N.of_nat K * len) f;
    ro_covered : forall n b, nth_error (d_blocks d) (N.to_nat n) = Some b -> N.of_nat K * len <= n -> covered f n b }.

  Lemma filter_from K d f : table_ok K d -> In f (d_filters d) -> exists i, (i < K)%nat /\ from_block f = N.of_nat i * len /\ to_block f = N.of_nat i * len + len - 1.
  Proof.
    intros T I. pose proof (in_map from_block _ _ I) as J. rewrite (to_from K d T) in J. apply in_map_iff in J.
    destruct J as (i & E & J). apply in_seq in J. exists i. split; [lia|]. split; [congruence|].
    rewrite (w_to _ _ _ _ (to_wf K d T f I)). unfold EventModel.len in *. congruence.
  Qed.

  Lemma agg_to from a : agg_wf from a -> to_block a = from + len - 1.
  Proof. intros W. apply (w_to _ _ _ _ W). Qed.

  Lemma filter_true {X} (f : X -> bool) l : (forall x, In x l -> f x = true) -> filter f l = l.
  Proof.
    induction l as [|x l IH]; intros H; cbn [filter]; [reflexivity|]. rewrite (H x (or_introl eq_refl)), IH; [reflexivity|].
    intros y I. apply H. right. exact I.
  Qed.
  Lemma filter_false {X} (f : X -> bool) l : (forall x, In x l -> f x = false) -> filter f l = [].
  Proof.
    induction l as [|x l IH]; intros H; cbn [filter]; [reflexivity|]. rewrite (H x (or_introl eq_refl)), IH; [reflexivity|].
    intros y I. apply H. right. exact I.
  Qed.

  Lemma nth_app_snoc {X} (l : list X) x i y : nth_error (l ++ [x]) i = Some y -> nth_error l i = Some y \/ (i = length l /\ y = x).
  Proof.
    intros E. destruct (Nat.lt_ge_cases i (length l)) as [L|L].
    - left. rewrite nth_error_app1 in E by exact L. exact E.
    - right. rewrite nth_error_app2 in E by exact L. destruct (i - length l)%nat as [|j] eqn:D; cbn [nth_error] in E.
      + split; [lia|congruence].
      + destruct j; discriminate.
  Qed.

  (* ---- a new block ---- *)

  Lemma insert_ok K s b : table_ok K (s_db s) -> running_ok K (s_db s) (r_filter (s_running s)) -> incl (s_cache s) (d_filters (s_db s)) ->
    exists s' K', insert_block bloom_bytes range_bytes sip0 sip1 s b = Some s' /\
      d_blocks (s_db s') = d_blocks (s_db s) ++ [b] /\ table_ok K' (s_db s') /\ running_ok K' (s_db s') (r_filter (s_running s')) /\
      incl (s_cache s') (d_filters (s_db s')) /\ r_next (s_running s') = height (s_db s) + 1 /\ d_stored (s_db s') = d_stored (s_db s).
  Proof.
    intros T R C. unfold insert_block. set (d := s_db s) in *. pose proof (to_height K d T) as H. pose proof len_pos as LP. rewrite N.mul_add_distr_r, N.mul_1_l in H.
    destruct (insert_covers (N.of_nat K * len) (r_filter (s_running s)) (height d) b (ro_wf _ _ _ R)) as (a & E & W & CN & CO); [lia|].
    rewrite E. rewrite (agg_to _ _ W).
    assert (X : forall n b', nth_error (d_blocks d ++ [b]) (N.to_nat n) = Some b' -> nth_error (d_blocks d) (N.to_nat n) = Some b' \/ (n = height d /\ b' = b)).
    { intros n b' Y. apply nth_app_snoc in Y. destruct Y as [Y|[Y1 Y2]]; [left; exact Y|right; split; [unfold height; lia|exact Y2]]. }
    assert (LN : forall n b', nth_error (d_blocks d) (N.to_nat n) = Some b' -> n < height d).
    { intros n b' Y. assert (N.to_nat n < length (d_blocks d))%nat by (apply nth_error_Some; congruence). unfold height. lia. }
    assert (HS : N.of_nat (length (d_blocks d ++ [b])) = height d + 1) by (rewrite app_length; cbn [length]; unfold height; lia).
    destruct (N.eqb_spec (height d) (N.of_nat K * len + len - 1)) as [EQ|NE].
    - set (others := filter _ (d_filters d)). assert (EO : others = d_filters d).
      { apply filter_true. intros f I. destruct (filter_from K d f T I) as (i & LI & EF & _). unfold same_range.
        rewrite EF, (w_from _ _ _ _ W). replace (N.of_nat i * len =? N.of_nat K * len) with false; [reflexivity|].
        symmetry. apply N.eqb_neq. nia. }
      rewrite EO. eexists. exists (S K). split; [reflexivity|]. cbn [s_db s_running s_cache d_blocks d_filters d_pruned d_stored r_filter r_next].
      split; [reflexivity|].
      assert (EK : height d + 1 = N.of_nat (S K) * len) by nia.
      split; [|split; [|split; [|split; reflexivity]]].
      + constructor; cbn [d_pruned d_filters d_blocks]; [apply (to_pruned K d T)| | |unfold height; cbn [d_blocks]; rewrite HS, EK; nia|].
        * rewrite map_app, (to_from K d T), seq_S, map_app. cbn [map]. rewrite (w_from _ _ _ _ W). reflexivity.
        * intros f I. apply in_app_or in I. destruct I as [I|[<-|[]]]; [apply (to_wf K d T f I)|]. rewrite (w_from _ _ _ _ W). exact W.
        * intros f n b' I Y L. apply in_app_or in I. destruct I as [I|[<-|[]]].
          -- destruct (X _ _ Y) as [Y'|[-> ->]]; [apply (to_covered K d T f n b' I Y' L)|].
             destruct (filter_from K d f T I) as (i & LI & EF & _). rewrite EF in L. nia.
          -- rewrite (w_from _ _ _ _ W) in L. destruct (X _ _ Y) as [Y'|[-> ->]]; [|exact CN].
             apply CO; [exact L|]. apply (ro_covered _ _ _ R n b' Y'). lia.
      + constructor; [rewrite <- EK; apply agg_new_wf|]. cbn [d_blocks]. intros n b' Y L. exfalso.
        destruct (X _ _ Y) as [Y'|[-> _]]; [specialize (LN _ _ Y')|]; lia.
      + intros f I. apply in_or_app. left. apply C, I.
    - eexists. exists K. split; [reflexivity|]. cbn [s_db s_running s_cache d_blocks d_filters d_pruned d_stored r_filter r_next].
      split; [reflexivity|]. split; [|split; [|split; [exact C|split; reflexivity]]].
      + constructor; cbn [d_pruned d_filters d_blocks]; [apply (to_pruned K d T)|apply (to_from K d T)|apply (to_wf K d T)|unfold height; cbn [d_blocks]; rewrite HS; rewrite N.mul_add_distr_r, N.mul_1_l in *; lia|].
        intros f n b' I Y L. destruct (X _ _ Y) as [Y'|[-> ->]]; [apply (to_covered K d T f n b' I Y' L)|].
        destruct (filter_from K d f T I) as (i & LI & EF & _). rewrite EF in L. nia.
      + constructor; [exact W|]. cbn [d_blocks]. intros n b' Y L. destruct (X _ _ Y) as [Y'|[-> ->]]; [|exact CN].
        specialize (LN _ _ Y'). apply CO; [nia|]. apply (ro_covered _ _ _ R n b' Y' L).
  Qed.

  (* ---- rebuilding ---- *)

  Lemma last_filter_sorted K d : table_ok K d ->
    last_filter (d_filters d) = match K with O => None | S _ => last_of (d_filters d) end /\
    match last_filter (d_filters d) with None => K = 0%nat | Some f => (0 < K)%nat /\ to_block f = N.of_nat K * len - 1 end.
  Proof.
    intros T. pose proof (to_from K d T) as F. pose proof len_pos as LP.
    assert (G : forall fs k, map from_block fs = map (fun i => N.of_nat i * len) (seq 0 k) ->
      last_filter fs = match k with O => None | S _ => last_of fs end).
    { induction fs as [|f fs IH] using rev_ind; intros k E.
      - destruct k; [reflexivity|discriminate].
      - destruct k as [|k]; [destruct fs; discriminate|]. rewrite seq_S, !map_app in E. cbn [map] in E. apply app_inj_tail in E. destruct E as [E EF].
        unfold last_filter. rewrite fold_left_app. fold (last_filter fs). rewrite (IH k E). cbn [fold_left].
        unfold last_of. rewrite rev_app_distr. cbn [rev app]. destruct k as [|k]; [reflexivity|].
        destruct (rev fs) as [|g r] eqn:ER; [reflexivity|].
        assert (IG : In g fs) by (apply in_rev; rewrite ER; left; reflexivity).
        apply (in_map from_block) in IG. rewrite E in IG. apply in_map_iff in IG. destruct IG as (i & EG & II). apply in_seq in II.
        replace (from_block g <? from_block f) with true; [reflexivity|]. symmetry. apply N.ltb_lt. rewrite EF, <- EG. cbn [plus]. nia. }
    specialize (G _ _ F). split; [exact G|]. rewrite G. destruct K as [|K]; [reflexivity|].
    rewrite seq_S, map_app in F. cbn [map plus] in F. destruct (d_filters d) as [|f fs] eqn:ED using rev_ind; [destruct (map _ (seq 0 K)); discriminate|].
    clear IHfs. rewrite map_app in F. cbn [map] in F. apply app_inj_tail in F. destruct F as [_ F].
    unfold last_of. rewrite rev_app_distr. cbn [rev app]. split; [lia|].
    assert (I : In f (d_filters d)) by (rewrite ED; apply in_or_app; right; left; reflexivity).
    destruct (filter_from (S K) d f T I) as (i & LI & EF & ->). rewrite EF in F. nia.
  Qed.

  Lemma in_numbered d i n b : d_pruned d = 0 -> In (n, b) (numbered d i) <-> i <= n /\ nth_error (d_blocks d) (N.to_nat n) = Some b.
  Proof.
    intros P. unfold numbered. rewrite in_flat_map. unfold block_at. rewrite P. split.
    - intros (x & I & J). apply in_seq in I. replace (N.of_nat x <? 0) with false in J by lia. rewrite Nat2N.id in J.
      destruct (nth_error (d_blocks d) x) as [b'|] eqn:E; [|destruct J]. destruct J as [J|[]]. injection J as <- <-.
      rewrite Nat2N.id. split; [lia|exact E].
    - intros [L E]. exists (N.to_nat n). assert (N.to_nat n < length (d_blocks d))%nat by (apply nth_error_Some; congruence).
      split; [apply in_seq; lia|]. rewrite N2Nat.id. replace (n <? 0) with false by lia. rewrite E. left. reflexivity.
  Qed.

  Lemma fold_covers from : forall nbs a, agg_wf from a -> (forall n b, In (n, b) nbs -> from <= n < from + len) ->
    exists a', fold_left (fun a nb => match a with
                                | Some a => agg_insert range_bytes a (events_bloom bloom_bytes sip0 sip1 (block_events (snd nb))) (fst nb)
                                | None => None
                                end) nbs (Some a) = Some a' /\ agg_wf from a' /\
      (forall n b, In (n, b) nbs -> covered a' n b) /\ (forall n b, from <= n < from + len -> covered a n b -> covered a' n b).
  Proof.
    induction nbs as [|[n b] nbs IH]; intros a W L; cbn [fold_left].
    - exists a. repeat split; auto. apply (w_from _ _ _ _ W). apply (w_to _ _ _ _ W). apply (w_len _ _ _ _ W). intros ? ? [].
    - cbn [fst snd]. destruct (insert_covers from a n b W (L n b (or_introl eq_refl))) as (a1 & E & W1 & C1 & C2). rewrite E.
      destruct (IH a1 W1) as (a2 & E2 & W2 & C3 & C4); [intros; apply (L n0 b0); right; assumption|].
      exists a2. split; [exact E2|]. split; [exact W2|]. split.
      + intros n' b' [I|I]; [|apply C3, I]. injection I as <- <-. apply C4; [apply (L n b); left; reflexivity|exact C1].
      + intros n' b' LN C. apply C4; [exact LN|]. apply C2; assumption.
  Qed.

  Lemma rebuild_ok K d latest : table_ok K d -> (height d = latest + 1 \/ (height d = 0 /\ latest = 0)) ->
    exists r, rebuild bloom_bytes range_bytes sip0 sip1 d latest = Some r /\ running_ok K d (r_filter r) /\ r_next r = latest + 1.
  Proof.
    intros T HL. unfold rebuild. pose proof (to_height K d T) as H. pose proof len_pos as LP. rewrite N.mul_add_distr_r, N.mul_1_l in H.
    pose proof (proj2 (last_filter_sorted K d T)) as LF.
    assert (NB : forall n b, nth_error (d_blocks d) (N.to_nat n) = Some b -> n < height d).
    { intros n b Y. assert (N.to_nat n < length (d_blocks d))%nat by (apply nth_error_Some; congruence). unfold height. lia. }
    destruct (last_filter (d_filters d)) as [f|]; cbn [option_map].
    - destruct LF as [KP ->]. rewrite N.sub_add by nia. destruct (N.eqb_spec (N.of_nat K * len - 1) latest) as [E|NE].
      + eexists. split; [reflexivity|]. cbn [r_filter r_next]. split; [|reflexivity].
        assert (EK : latest + 1 = N.of_nat K * len) by nia. rewrite EK. constructor; [apply agg_new_wf|].
        intros n b Y L. specialize (NB _ _ Y). lia.
      + replace (latest <? N.of_nat K * len) with false by nia.
        destruct (fold_covers (N.of_nat K * len) (numbered d (N.of_nat K * len)) (agg_new bloom_bytes range_bytes (N.of_nat K * len)))
          as (a & E & W & C & _); [apply agg_new_wf| |].
        { intros n b I. apply (in_numbered d _ n b (to_pruned K d T)) in I. destruct I as [L I]. specialize (NB _ _ I). nia. }
        rewrite E. eexists. split; [reflexivity|]. cbn [r_filter r_next]. split; [|reflexivity]. constructor; [exact W|].
        intros n b Y L. apply C, (in_numbered d _ n b (to_pruned K d T)). auto.
    - subst K. assert (LL : latest < len) by (cbn in H; lia). rewrite (N.mod_small latest len LL), N.sub_diag.
      replace (latest <? 0) with false by lia.
      destruct (fold_covers 0 (numbered d 0) (agg_new bloom_bytes range_bytes 0)) as (a & E & W & C & _); [apply agg_new_wf| |].
      { intros n b I. apply (in_numbered d _ n b (to_pruned 0 d T)) in I. destruct I as [L I]. specialize (NB _ _ I). lia. }
      rewrite E. eexists. split; [reflexivity|]. cbn [r_filter r_next]. split; [|reflexivity]. constructor; [exact W|].
      intros n b Y L. apply C, (in_numbered d _ n b (to_pruned 0 d T)). split; [lia|exact Y].
  Qed.

  (* ---- reorgs ---- *)

  Lemma firstn_nth {X} (l : list X) n i x : nth_error (firstn n l) i = Some x -> nth_error l i = Some x /\ (i < n)%nat.
  Proof.
    intros E. assert (L : (i < length (firstn n l))%nat) by (apply nth_error_Some; congruence). rewrite firstn_length in L.
    rewrite nth_error_firstn_lt in E by lia. split; [exact E|lia].
  Qed.

  Lemma purge_ok K d n : table_ok K d -> height d = n + 1 -> exists K', table_ok K' (purge_block d n).
  Proof.
    intros T HN. pose proof (to_height K d T) as H. pose proof len_pos as LP. rewrite N.mul_add_distr_r, N.mul_1_l in H.
    assert (HP : height (purge_block d n) = n). { unfold height, purge_block in *. cbn [d_blocks]. rewrite firstn_length. lia. }
    assert (CV : forall f m b, In f (d_filters d) -> nth_error (d_blocks (purge_block d n)) (N.to_nat m) = Some b ->
      from_block f <= m < from_block f + len -> covered f m b).
    { intros f m b I Y L. cbn [purge_block d_blocks] in Y. apply firstn_nth in Y. apply (to_covered K d T f m b I (proj1 Y) L). }
    destruct (N.le_gt_cases (N.of_nat K * len) n) as [L|L].
    - exists K. assert (EF : d_filters (purge_block d n) = d_filters d).
      { cbn [purge_block d_filters]. apply filter_true. intros f I. destruct (filter_from K d f T I) as (i & LI & EF & ET).
        rewrite EF, ET. apply negb_true_iff, andb_false_iff. right. apply N.leb_gt. nia. }
      constructor; rewrite ?EF; [apply (to_pruned K d T)|apply (to_from K d T)|apply (to_wf K d T)|rewrite HP; lia|exact CV].
    - assert (EN : n + 1 = N.of_nat K * len) by lia. destruct K as [|K]; [lia|]. exists K.
      pose proof (to_from (S K) d T) as F. rewrite seq_S, map_app in F. cbn [map plus] in F.
      destruct (d_filters d) as [|f fs] eqn:ED using rev_ind; [destruct (map _ (seq 0 K)); discriminate|].
      clear IHfs. rewrite map_app in F. cbn [map] in F. apply app_inj_tail in F. destruct F as [F1 F2].
      assert (EF : d_filters (purge_block d n) = fs).
      { cbn [purge_block d_filters]. rewrite ED, filter_app. cbn [filter].
        assert (IF : In f (d_filters d)) by (rewrite ED; apply in_or_app; right; left; reflexivity).
        pose proof (to_wf (S K) d T f IF) as W. rewrite (agg_to _ _ W), F2.
        replace ((N.of_nat K * len <=? n) && (n <=? N.of_nat K * len + len - 1)) with true by nia. cbn [negb].
        rewrite app_nil_r. apply filter_true. intros g I.
        assert (IG : In g (d_filters d)) by (rewrite ED; apply in_or_app; left; exact I).
        pose proof (to_wf (S K) d T g IG) as WG. rewrite (agg_to _ _ WG). apply (in_map from_block) in I. rewrite F1 in I.
        apply in_map_iff in I. destruct I as (i & EG & II). apply in_seq in II. rewrite <- EG.
        apply negb_true_iff, andb_false_iff. right. apply N.leb_gt. nia. }
      constructor; rewrite ?EF.
      + apply (to_pruned _ d T).
      + exact F1.
      + intros g I. apply (to_wf _ d T). rewrite ED. apply in_or_app. left. exact I.
      + rewrite HP. nia.
      + intros g m b I. apply CV. rewrite ?ED. apply in_or_app. left. exact I.
  Qed.

  Lemma purge_loop_ok tail : forall fuel d new_head K, table_ok K d -> height d = new_head + 1 -> tail < height d -> height d <= N.of_nat fuel ->
    exists d' K', purge_loop fuel d new_head tail = (d', tail - 1) /\ table_ok K' d' /\
      d_blocks d' = firstn (N.to_nat tail) (d_blocks d) /\ d_stored d' = d_stored d.
  Proof.
    induction fuel as [|fuel IH]; intros d new_head K T HN LT LF; [lia|]. cbn [purge_loop].
    replace (tail <=? new_head) with true by lia. destruct (purge_ok K d new_head T HN) as (K1 & T1).
    assert (HP : height (purge_block d new_head) = new_head). { unfold height, purge_block in *. cbn [d_blocks]. rewrite firstn_length. lia. }
    assert (FF : firstn (N.to_nat tail) (d_blocks (purge_block d new_head)) = firstn (N.to_nat tail) (d_blocks d)).
    { cbn [purge_block d_blocks]. rewrite firstn_firstn. f_equal. lia. }
    destruct (N.eqb_spec new_head 0) as [Z|NZ].
    - exists (purge_block d new_head), K1. replace tail with 0 by lia. rewrite Z. split; [reflexivity|]. split; [rewrite <- Z; exact T1|]. split; reflexivity.
    - destruct (N.eqb_spec tail new_head) as [ET|NT].
      + exists (purge_block d new_head), K1. split; [|split; [exact T1|split; [cbn [purge_block d_blocks]; congruence|reflexivity]]].
        destruct fuel as [|fuel]; cbn [purge_loop]; [rewrite ET; reflexivity|]. replace (tail <=? new_head - 1) with false by lia. rewrite ET. reflexivity.
      + destruct (IH (purge_block d new_head) (new_head - 1) K1 T1) as (d' & K' & E & T' & B & ST); [lia|lia|lia|].
        exists d', K'. split; [exact E|]. split; [exact T'|]. rewrite B, FF, ST. split; reflexivity.
  Qed.

  Lemma reorg_ok K s tail : table_ok K (s_db s) -> tail < height (s_db s) ->
    exists s' K', reorg bloom_bytes range_bytes sip0 sip1 s tail = Some s' /\ table_ok K' (s_db s') /\
      running_ok K' (s_db s') (r_filter (s_running s')) /\ s_cache s' = [] /\
      d_blocks (s_db s') = firstn (N.to_nat tail) (d_blocks (s_db s)) /\
      (height (s_db s') <> 0 -> r_next (s_running s') = height (s_db s')).
  Proof.
    intros T LT. unfold reorg.
    destruct (purge_loop_ok tail (length (d_blocks (s_db s))) (s_db s) (height (s_db s) - 1) K T) as (d' & K' & E & T' & B & _);
      [lia|exact LT|unfold height; lia|]. rewrite E.
    assert (HB : height d' = tail). { unfold height in *. rewrite B, firstn_length. lia. }
    destruct (rebuild_ok K' d' (tail - 1) T') as (r & ER & R & RN); [lia|]. rewrite ER. cbn [option_map].
    exists (mkState d' r []), K'. cbn [s_db s_running s_cache]. do 5 (split; [first [reflexivity|assumption]|]). rewrite RN. lia.
  Qed.

  (* ---- starts ---- *)

  Lemma start_ok K d : table_ok K d ->
    (height d <> 0 -> r_next (d_stored d) = height d -> running_ok K d (r_filter (d_stored d))) ->
    exists s, start bloom_bytes range_bytes sip0 sip1 d = Some s /\ s_db s = d /\ s_cache s = [] /\
      running_ok K d (r_filter (s_running s)) /\ r_next (s_running s) = height d.
  Proof.
    intros T ST. unfold start, load. destruct (N.eqb_spec (height d) 0) as [Z|NZ]; cbn [option_map].
    - eexists. split; [reflexivity|]. cbn [s_db s_running s_cache r_filter r_next]. repeat split; auto.
      + pose proof (to_height K d T) as H. pose proof len_pos. assert (K = 0%nat) by nia. subst K. apply agg_new_wf.
      + pose proof (to_height K d T) as H. pose proof len_pos. assert (K = 0%nat) by nia. subst K. apply agg_new_wf.
      + apply repeat_length.
      + intros n b Y. exfalso. assert (N.to_nat n < length (d_blocks d))%nat by (apply nth_error_Some; congruence). unfold height in Z. lia.
    - replace (height d - 1 + 1) with (height d) by lia. destruct (N.eqb_spec (r_next (d_stored d)) (height d)) as [E|NE]; cbn [option_map].
      + eexists. split; [reflexivity|]. cbn [s_db s_running s_cache]. repeat split; auto; apply (ST NZ E).
      + destruct (rebuild_ok K d (height d - 1) T) as (r & ER & R & RN); [lia|]. rewrite ER. cbn [option_map].
        eexists. split; [reflexivity|]. cbn [s_db s_running s_cache]. repeat split; auto; try apply R. rewrite RN. lia.
  Qed.

  (* ---- histories ---- *)

  Record synced (K : nat) (s : state) : Prop := {
    sy_table : table_ok K (s_db s);
    sy_running : running_ok K (s_db s) (r_filter (s_running s));
    sy_cache : incl (s_cache s) (d_filters (s_db s)) }.

  Record inv (chain : list block) (reorged : bool) (s : state) : Prop := {
    i_chain : d_blocks (s_db s) = chain;
    i_synced : exists K, synced K s;
    i_next : height (s_db s) <> 0 -> r_next (s_running s) = height (s_db s);
    i_stored : reorged = false -> r_next (s_running s) = height (s_db s) /\ r_next (d_stored (s_db s)) <= height (s_db s) /\
      (height (s_db s) <> 0 -> r_next (d_stored (s_db s)) = height (s_db s) ->
       forall K, table_ok K (s_db s) -> running_ok K (s_db s) (r_filter (d_stored (s_db s)))) }.

  Lemma table_unique K K' d : table_ok K d -> table_ok K' d -> K = K'.
  Proof. intros T T'. pose proof (to_height _ _ T). pose proof (to_height _ _ T'). pose proof len_pos. nia. Qed.

  Lemma table_stored K d r : table_ok K d -> table_ok K (mkDb (d_blocks d) (d_pruned d) (d_filters d) r).
  Proof. intros [P F W H C]. constructor; assumption. Qed.
  Lemma running_stored K d r f : running_ok K d f <-> running_ok K (mkDb (d_blocks d) (d_pruned d) (d_filters d) r) f.
  Proof. split; intros [W C]; constructor; assumption. Qed.

  Lemma step_inv chain reorged s o : inv chain reorged s -> (o = Crash -> reorged = false) ->
    exists s', step bloom_bytes range_bytes sip0 sip1 s o = Some s' /\
      inv (chain_step chain o) (match o with Reorg _ => true | Restart => reorged && is_nil chain | _ => reorged end) s'.
  Proof.
    intros [IC (K & [T R C]) IN IS] CR. destruct o as [b|tail|start_block end_block keep| |]; cbn [step chain_step].
    - destruct (insert_ok K s b T R C) as (s' & K' & E & B & T' & R' & C' & RN & ST). exists s'. split; [exact E|].
      assert (H1 : height (s_db s') = height (s_db s) + 1) by (unfold height; rewrite B, app_length; cbn [length]; lia).
      constructor; [congruence|exists K'; constructor; assumption|intros _; congruence|].
      intros F. destruct (IS F) as (A1 & A2 & A3). rewrite ST. split; [congruence|]. split; [lia|]. intros _ X. lia.
    - destruct (N.ltb_spec tail (height (s_db s))) as [L|L].
      + destruct (reorg_ok K s tail T L) as (s' & K' & E & T' & R' & C' & B & RN). exists s'. split; [exact E|].
        constructor; [congruence|exists K'; constructor; try assumption; rewrite C'; intros ? []|exact RN|discriminate].
      + exists s. split; [reflexivity|]. constructor; [|exists K; constructor; assumption|exact IN|discriminate].
        rewrite IC. symmetry. apply firstn_all2. unfold height in L. rewrite IC in L. lia.
    - eexists. split; [reflexivity|]. constructor; cbn [load_caches s_db s_running]; [exact IC| |exact IN|exact IS].
      exists K. constructor; cbn [load_caches s_db s_running s_cache]; [exact T|exact R|].
      intros f I. apply filter_In in I. destruct I as [I _]. apply in_app_or in I. destruct I as [I|I]; [|apply C, I].
      unfold loaded_filters in I. apply filter_In in I. apply I.
    - cbn [shutdown s_db]. set (d' := mkDb (d_blocks (s_db s)) (d_pruned (s_db s)) (d_filters (s_db s)) (s_running s)).
      destruct (start_ok K d') as (s' & E & ED & EC & R' & RN).
      { apply table_stored, T. }
      { intros _ _. apply running_stored. exact R. }
      exists s'. split; [exact E|]. constructor; rewrite ?ED.
      + exact IC.
      + exists K. constructor; rewrite ?ED; [apply table_stored, T|exact R'|rewrite EC; intros ? []].
      + intros _. exact RN.
      + intros F. split; [exact RN|]. cbn [d' d_stored]. change (height d') with (height (s_db s)).
        assert (X : r_next (s_running s) <= height (s_db s)).
        { destruct (N.eq_dec (height (s_db s)) 0) as [Z|NZ]; [|rewrite (IN NZ); lia]. destruct reorged; [|rewrite (proj1 (IS eq_refl)); lia].
          exfalso. destruct chain; [discriminate|]. unfold height in Z. rewrite IC in Z. cbn [length] in Z. lia. }
        split; [exact X|]. intros NZ EN K' T'. rewrite <- (table_unique K K' d' (table_stored _ _ _ T) T'). apply running_stored, R.
    - rewrite (CR eq_refl) in *. destruct (IS eq_refl) as (A1 & A2 & A3).
      destruct (start_ok K (s_db s) T) as (s' & E & ED & EC & R' & RN); [intros NZ EN; apply (A3 NZ EN K T)|].
      exists s'. split; [exact E|]. constructor; rewrite ?ED; [exact IC| |intros _; exact RN|intros _; auto].
      exists K. constructor; rewrite ?ED; [exact T|exact R'|rewrite EC; intros ? []].
  Qed.

  Lemma steps_inv : forall ops chain reorged s, inv chain reorged s -> orderly chain reorged ops ->
    exists s' reorged', steps bloom_bytes range_bytes sip0 sip1 (Some s) ops = Some s' /\ inv (fold_left chain_step ops chain) reorged' s'.
  Proof.
    induction ops as [|o ops IH]; intros chain reorged s I O; cbn [steps fold_left] in *; [exists s, reorged; auto|].
    destruct O as [O1 O2]. destruct (step_inv chain reorged s o I O1) as (s1 & E1 & I1). rewrite E1. apply (IH _ _ s1 I1 O2).
  Qed.

  Lemma new_ok : exists s, start bloom_bytes range_bytes sip0 sip1 (new_db bloom_bytes range_bytes) = Some s /\ inv [] false s.
  Proof.
    pose proof len_pos as LP. assert (T : table_ok 0 (new_db bloom_bytes range_bytes)).
    { constructor; try reflexivity; cbn [new_db d_filters d_blocks]; try (intros; contradiction). unfold height. cbn [new_db d_blocks length]. lia. }
    destruct (start_ok 0 _ T) as (s & E & ED & EC & R & RN); [intros NZ; exfalso; apply NZ; reflexivity|].
    exists s. split; [exact E|]. constructor; rewrite ?ED; [reflexivity| |intros _; exact RN|].
    - exists 0%nat. constructor; rewrite ?ED; [exact T|exact R|rewrite EC; intros ? []].
    - intros _. split; [exact RN|]. split; [apply N.le_refl|]. intros NZ. exfalso. apply NZ. reflexivity.
  Qed.

  Lemma node_ok ops : orderly [] false ops ->
    exists s K, node bloom_bytes range_bytes sip0 sip1 ops = Some s /\ synced K s /\ d_blocks (s_db s) = chain_of ops.
  Proof.
    intros O. unfold node. destruct new_ok as (s0 & E & I). rewrite E.
    destruct (steps_inv ops [] false s0 I O) as (s & r & ES & IV). destruct (i_synced _ _ _ IV) as (K & SY).
    exists s, K. split; [exact ES|]. split; [exact SY|]. apply (i_chain _ _ _ IV).
  Qed.

  (* ---- the filters of a query ---- *)

  Definition overlaps (start_block end_block : N) (f : aggregate) : bool := (from_block f <=? end_block) && (start_block <=? to_block f).
  Definition fless (a b : aggregate) : Prop := from_block a + len <= from_block b.

  Lemma insert_perm a l : Permutation (insert_by_from a l) (a :: l).
  Proof.
    induction l as [|b l IH]; cbn [insert_by_from]; [apply Permutation_refl|]. destruct (_ <=? _); [apply Permutation_refl|].
    eapply perm_trans; [apply perm_skip, IH|]. apply perm_swap.
  Qed.
  Lemma sort_perm l : Permutation (sort_by_from l) l.
  Proof.
    induction l as [|a l IH]; cbn [sort_by_from fold_right]; [apply Permutation_refl|].
    eapply perm_trans; [apply insert_perm|]. apply perm_skip, IH.
  Qed.
  Lemma insert_sorted a l : StronglySorted (fun x y => from_block x <= from_block y) l -> StronglySorted (fun x y => from_block x <= from_block y) (insert_by_from a l).
  Proof.
    induction 1 as [|b l S IH F]; cbn [insert_by_from]; [repeat constructor|]. destruct (N.leb_spec (from_block a) (from_block b)) as [L|L].
    - constructor; [constructor; assumption|]. constructor; [exact L|]. eapply Forall_impl; [|exact F]. cbv beta. intros; lia.
    - constructor; [exact IH|]. rewrite Forall_forall. intros x I. apply (Permutation_in _ (insert_perm a l)) in I.
      destruct I as [<-|I]; [lia|]. rewrite Forall_forall in F. apply F, I.
  Qed.
  Lemma sort_sorted l : StronglySorted (fun x y => from_block x <= from_block y) (sort_by_from l).
  Proof. induction l as [|a l IH]; cbn [sort_by_from fold_right]; [constructor|]. apply insert_sorted, IH. Qed.

  Lemma sorted_unique : forall l1 l2, StronglySorted (fun x y => from_block x <= from_block y) l1 -> StronglySorted fless l2 ->
    Permutation l1 l2 -> l1 = l2.
  Proof.
    pose proof len_pos as LP. induction l1 as [|a l1 IH]; intros l2 S1 S2 P.
    - apply Permutation_nil in P. congruence.
    - destruct l2 as [|b l2]; [apply Permutation_sym, Permutation_nil in P; discriminate|].
      assert (a = b).
      { assert (Ia : In a (b :: l2)) by (apply (Permutation_in _ P); left; reflexivity).
        assert (Ib : In b (a :: l1)) by (apply (Permutation_in _ (Permutation_sym P)); left; reflexivity).
        destruct Ia as [|Ia]; [congruence|]. destruct Ib as [|Ib]; [congruence|].
        apply StronglySorted_inv in S1. destruct S1 as [_ F1]. apply StronglySorted_inv in S2. destruct S2 as [_ F2].
        rewrite Forall_forall in F1, F2. specialize (F1 _ Ib). specialize (F2 _ Ia). unfold fless in F2. lia. }
      subst b. f_equal. apply IH; [apply (StronglySorted_inv S1)|apply (StronglySorted_inv S2)|apply (Permutation_cons_inv P)].
  Qed.

  Lemma table_sorted K d : table_ok K d -> StronglySorted fless (d_filters d).
  Proof.
    intros T. pose proof (to_from K d T) as F. revert F. generalize (d_filters d) as l.
    assert (G : forall k n l, map from_block l = map (fun i => N.of_nat i * len) (seq n k) -> StronglySorted fless l).
    { induction k as [|k IH]; intros n l E; destruct l as [|a l]; cbn [seq map] in E; try discriminate; [constructor|].
      injection E as E1 E2. constructor; [apply (IH (S n)), E2|]. apply Forall_forall. intros b I.
      apply (in_map from_block) in I. rewrite E2 in I. apply in_map_iff in I. destruct I as (i & EB & I). apply in_seq in I.
      unfold fless. rewrite E1, <- EB. nia. }
    intros l F. apply (G K 0%nat), F.
  Qed.

  Lemma sorted_filter {X} (R : X -> X -> Prop) f l : StronglySorted R l -> StronglySorted R (filter f l).
  Proof.
    induction 1 as [|a l S IH F]; cbn [filter]; [constructor|]. destruct (f a); [|exact IH]. constructor; [exact IH|].
    rewrite Forall_forall in *. intros x I. apply filter_In in I. apply F, I.
  Qed.

  Lemma fless_nodup l : StronglySorted fless l -> NoDup (map from_block l).
  Proof.
    pose proof len_pos as LP. induction 1 as [|a l S IH F]; cbn [map]; constructor; [|exact IH].
    intros I. apply in_map_iff in I. destruct I as (b & E & I). rewrite Forall_forall in F. specialize (F _ I). unfold fless in F. lia.
  Qed.
  Lemma from_inj l a b : NoDup (map from_block l) -> In a l -> In b l -> from_block a = from_block b -> a = b.
  Proof.
    induction l as [|c l IH]; cbn [map]; intros ND IA IB E; [destruct IA|]. apply NoDup_cons_iff in ND. destruct ND as [NI ND].
    destruct IA as [->|IA]; destruct IB as [->|IB]; auto; exfalso; apply NI;
      first [rewrite E; apply in_map; assumption|rewrite <- E; apply in_map; assumption].
  Qed.

  Lemma cached_in cache start_block end_block f : In f (get_many range_bytes cache start_block end_block) ->
    In f cache /\ overlaps start_block end_block f = true.
  Proof.
    unfold get_many. pose proof len_pos as LP. rewrite in_flat_map. intros (i & I & J).
    pose proof (N.div_mod start_block len ltac:(lia)) as DS. pose proof (N.mod_lt start_block len ltac:(lia)) as MS.
    pose proof (N.div_mod end_block len ltac:(lia)) as DE. pose proof (N.mod_lt end_block len ltac:(lia)) as ME.
    set (qs := start_block / len) in *. set (qe := end_block / len) in *. set (ms := start_block mod len) in *. set (me := end_block mod len) in *.
    replace (start_block - ms) with (len * qs) in * by lia. replace (end_block + len - me - 1) with (len * qe + (len - 1)) in * by lia.
    destruct (N.ltb_spec (len * qe + (len - 1)) (len * qs)) as [L|L]; [destruct I|].
    assert (LQ : qs <= qe) by nia.
    assert (DQ : (len * qe + (len - 1) - len * qs) / len = qe - qs).
    { symmetry. apply (N.div_unique _ _ _ (len - 1)); nia. }
    rewrite DQ in I. apply in_seq in I.
    destruct (find _ cache) as [g|] eqn:E; [|destruct J]. destruct J as [<-|[]]. apply find_some in E. destruct E as [IC E].
    split; [exact IC|]. apply andb_true_iff in E. destruct E as [E1 E2]. apply N.eqb_eq in E1, E2. unfold overlaps. rewrite E1, E2.
    assert (IQ : N.of_nat i <= qe - qs) by lia. apply andb_true_iff. split; apply N.leb_le; nia.
  Qed.

  Lemma cached_nodup cache start_block end_block : NoDup (map from_block (get_many range_bytes cache start_block end_block)).
  Proof.
    unfold get_many. pose proof len_pos as LP. match goal with |- context [seq 0 ?k] => generalize k as n end.
    generalize (start_block - start_block mod len) as a. intros a n.
    assert (G : forall n k, NoDup (map from_block (flat_map (fun i : nat =>
       match find (fun g => (from_block g =? a + N.of_nat i * len) && (to_block g =? a + N.of_nat i * len + len - 1)) cache with
       | Some g => [g] | None => [] end) (seq k n))) /\
       forall x, In x (map from_block (flat_map (fun i : nat =>
       match find (fun g => (from_block g =? a + N.of_nat i * len) && (to_block g =? a + N.of_nat i * len + len - 1)) cache with
       | Some g => [g] | None => [] end) (seq k n))) -> a + N.of_nat k * len <= x).
    { clear n. induction n as [|n IH]; intros k; cbn [seq flat_map map]; [split; [constructor|intros ? []]|].
      destruct (IH (S k)) as [ND LB]. destruct (find _ cache) as [g|] eqn:E; cbn [app map].
      - apply find_some in E. destruct E as [_ E]. apply andb_true_iff in E. destruct E as [E _]. apply N.eqb_eq in E. split.
        + constructor; [|exact ND]. intros I. specialize (LB _ I). nia.
        + intros x [<-|I]; [lia|]. specialize (LB _ I). nia.
      - split; [exact ND|]. intros x I. specialize (LB _ I). nia. }
    apply G.
  Qed.

  Lemma load_filters K s start_block end_block : synced K s ->
    sort_by_from (loaded_filters (d_filters (s_db s)) (get_many range_bytes (s_cache s) start_block end_block) start_block end_block
                    ++ get_many range_bytes (s_cache s) start_block end_block)
    = filter (overlaps start_block end_block) (d_filters (s_db s)).
  Proof.
    intros SY. pose proof (sy_table K s SY) as T. pose proof (table_sorted K _ T) as SO.
    set (cached := get_many _ _ _ _). apply sorted_unique; [apply sort_sorted|apply sorted_filter, SO|].
    eapply perm_trans; [apply sort_perm|]. pose proof (fless_nodup _ SO) as ND.
    apply NoDup_Permutation.
    - apply NoDup_map_inv with (f := from_block). rewrite map_app.
      assert (NA : forall l1 l2 : list N, NoDup l1 -> NoDup l2 -> (forall x, In x l1 -> In x l2 -> False) -> NoDup (l1 ++ l2)).
      { clear. induction l1 as [|x l1 IH]; intros l2 N1 N2 D; cbn [app]; [exact N2|]. apply NoDup_cons_iff in N1. destruct N1 as [NI N1].
        constructor; [|apply IH; auto; intros y I1 I2; apply (D y); [right; exact I1|exact I2]].
        intros I. apply in_app_or in I. destruct I as [I|I]; [contradiction|]. apply (D x); [left; reflexivity|exact I]. }
      apply NA; [|apply cached_nodup|].
      + apply fless_nodup. unfold loaded_filters. apply sorted_filter, SO.
      + intros x I1 I2. apply in_map_iff in I1. destruct I1 as (f & <- & I1). apply in_map_iff in I2. destruct I2 as (g & E & I2).
        unfold loaded_filters in I1. apply filter_In in I1. destruct I1 as [_ I1]. apply andb_true_iff in I1. destruct I1 as [_ I1].
        apply negb_true_iff in I1. assert (existsb (fun g => from_block g =? from_block f) cached = true); [|congruence].
        apply existsb_exists. exists g. split; [exact I2|apply N.eqb_eq, E].
    - apply NoDup_map_inv with (f := from_block). apply fless_nodup, sorted_filter, SO.
    - intros f. rewrite in_app_iff, filter_In. unfold loaded_filters. rewrite filter_In. split.
      + intros [[I E]|I].
        * split; [exact I|]. apply andb_true_iff in E. apply E.
        * apply cached_in in I. destruct I as [I O]. split; [apply (sy_cache K s SY), I|exact O].
      + intros [I O]. destruct (existsb (fun g => from_block g =? from_block f) cached) eqn:E.
        * right. apply existsb_exists in E. destruct E as (g & IG & E). apply N.eqb_eq in E.
          replace f with g; [exact IG|]. apply (from_inj (d_filters (s_db s))); auto. apply (sy_cache K s SY). apply cached_in in IG. apply IG.
        * left. split; [exact I|]. unfold overlaps in O. rewrite O. reflexivity.
  Qed.

  Lemma last_of_app {X} (l : list X) x : last_of (l ++ [x]) = Some x.
  Proof. unfold last_of. rewrite rev_app_distr. reflexivity. Qed.
  Lemma last_of_max l f : StronglySorted fless l -> last_of l = Some f -> In f l /\ forall g, In g l -> from_block g <= from_block f.
  Proof.
    pose proof len_pos as LP. destruct l as [|x l] using rev_ind; [discriminate|]. intros S E. rewrite last_of_app in E. injection E as ->. clear IHl.
    split; [apply in_or_app; right; left; reflexivity|]. intros g I. apply in_app_or in I. destruct I as [I|[->|[]]]; [|lia].
    induction l as [|y l IH]; [destruct I|]. cbn [app] in S. apply StronglySorted_inv in S. destruct S as [S F].
    destruct I as [->|I]; [|apply IH; assumption]. rewrite Forall_forall in F. specialize (F f ltac:(apply in_or_app; right; left; reflexivity)).
    unfold fless in F. lia.
  Qed.
  Lemma last_of_none {X} (l : list X) : last_of l = None -> l = [].
  Proof. unfold last_of. destruct (rev l) eqn:E; [|discriminate]. intros _. rewrite <- (rev_involutive l), E. reflexivity. Qed.

  (* What load_event_filter_range returns. *)
  Lemma load_range_ok K s start_block end_block : synced K s -> end_block < height (s_db s) ->
    let F := load_range range_bytes (d_filters (s_db s)) (s_cache s) (s_running s) start_block end_block in
    StronglySorted fless F /\ (forall f, In f F -> agg_wf (from_block f) f) /\
    (forall f, In f F -> In f (d_filters (s_db s)) \/ f = r_filter (s_running s)) /\
    (exists l, last_of F = Some l /\ end_block <= to_block l) /\
    forall n, start_block <= n <= end_block -> exists f, In f F /\ from_block f <= n < from_block f + len.
  Proof.
    intros SY LE F. pose proof (sy_table K s SY) as T. pose proof (table_sorted K _ T) as SO. pose proof (to_height K _ T) as H.
    pose proof (ro_wf _ _ _ (sy_running K s SY)) as WR. pose proof len_pos as LP. rewrite N.mul_add_distr_r, N.mul_1_l in H.
    pose proof (w_from _ _ _ _ WR) as FR. pose proof (agg_to _ _ WR) as TR.
    assert (EF : F = filter (overlaps start_block end_block) (d_filters (s_db s)) ++
      (if match last_of (filter (overlaps start_block end_block) (d_filters (s_db s))) with
          | None => true | Some last => (to_block last + 1 =? N.of_nat K * len) && (to_block last <? end_block) end
       then [r_filter (s_running s)] else [])).
    { unfold F, load_range. rewrite (load_filters K s start_block end_block SY), FR.
      destruct (match last_of _ with None => true | Some _ => _ end); [reflexivity|rewrite app_nil_r; reflexivity]. }
    clearbody F. set (tab := filter (overlaps start_block end_block) (d_filters (s_db s))) in *.
    assert (ST : StronglySorted fless tab) by (apply sorted_filter, SO).
    assert (IT : forall f, In f tab <-> In f (d_filters (s_db s)) /\ overlaps start_block end_block f = true) by (intros f; apply filter_In).
    (* the filter of a full range *)
    assert (FI : forall i, (i < K)%nat -> exists f, In f (d_filters (s_db s)) /\ from_block f = N.of_nat i * len /\ to_block f = N.of_nat i * len + len - 1).
    { intros i LI. assert (J : In (N.of_nat i * len) (map from_block (d_filters (s_db s)))).
      { rewrite (to_from K _ T). apply in_map_iff. exists i. split; [reflexivity|apply in_seq; lia]. }
      apply in_map_iff in J. destruct J as (f & E & I). exists f. split; [exact I|]. split; [exact E|].
      rewrite (agg_to _ _ (to_wf K _ T f I)). congruence. }
    assert (INC : forall n, start_block <= n <= end_block -> N.of_nat K * len <= n ->
      match last_of tab with None => true | Some last => (to_block last + 1 =? N.of_nat K * len) && (to_block last <? end_block) end = true).
    { intros n LN LK. destruct (last_of tab) as [l|] eqn:EL; [|reflexivity]. destruct (last_of_max tab l ST EL) as [IL ML].
      apply IT in IL. destruct IL as [IL OL]. destruct (filter_from K _ l T IL) as (i & LI & EFL & ETL).
      unfold overlaps in OL. destruct K as [|K]; [lia|]. destruct (FI K ltac:(lia)) as (f & IF & EFF & ETF).
      assert (IFT : In f tab). { apply IT. split; [exact IF|]. unfold overlaps. rewrite EFF, ETF. rewrite EFL, ETL in OL. nia. }
      specialize (ML f IFT). rewrite EFF, EFL in ML. assert (i = K) by nia. subst i. rewrite ETL. nia. }
    split; [|split; [|split; [|split]]].
    - rewrite EF. destruct (match last_of tab with None => true | Some _ => _ end); [|rewrite app_nil_r; exact ST].
      assert (GA : Forall (fun f => fless f (r_filter (s_running s))) tab).
      { apply Forall_forall. intros f I. apply IT in I. destruct I as [I _]. destruct (filter_from K _ f T I) as (i & LI & EFF & _).
        unfold fless. rewrite EFF, FR. nia. }
      clear - ST GA. induction ST as [|a l S IH FA]; cbn [app]; [repeat constructor|]. apply Forall_cons_iff in GA. destruct GA as [G1 G2].
      constructor; [apply IH, G2|]. apply Forall_app. split; [exact FA|repeat constructor; exact G1].
    - intros f I. rewrite EF in I. apply in_app_or in I. destruct I as [I|I]; [apply IT in I; apply (to_wf K _ T), I|].
      destruct (match last_of tab with None => true | Some _ => _ end); [|destruct I]. destruct I as [<-|[]]. rewrite FR. exact WR.
    - intros f I. rewrite EF in I. apply in_app_or in I. destruct I as [I|I]; [left; apply IT in I; apply I|].
      destruct (match last_of tab with None => true | Some _ => _ end); [|destruct I]. destruct I as [<-|[]]. right. reflexivity.
    - rewrite EF. destruct (match last_of tab with None => true | Some _ => _ end) eqn:EI.
      + exists (r_filter (s_running s)). split; [apply last_of_app|]. rewrite TR. lia.
      + rewrite app_nil_r. destruct (last_of tab) as [l|] eqn:EL; [|discriminate]. exists l. split; [reflexivity|].
        destruct (last_of_max tab l ST EL) as [IL ML]. apply IT in IL. destruct IL as [IL OL].
        destruct (filter_from K _ l T IL) as (i & LI & EFL & ETL).
        destruct (N.le_gt_cases end_block (to_block l)) as [?|LT]; [assumption|exfalso].
        assert (LK : (S i < K)%nat).
        { destruct (Nat.lt_ge_cases (S i) K) as [?|G]; [assumption|]. assert (EK : K = S i) by lia. subst K. rewrite ETL in EI, LT. nia. }
        destruct (FI (S i) LK) as (f & IF & EFF & ETF).
        assert (IFT : In f tab). { apply IT. split; [exact IF|]. unfold overlaps in *. rewrite EFF, ETF. rewrite EFL, ETL in OL. rewrite ETL in LT. nia. }
        specialize (ML f IFT). rewrite EFF, EFL in ML. nia.
    - intros n LN. destruct (N.lt_ge_cases n (N.of_nat K * len)) as [LK|LK].
      + pose proof (N.div_mod n len ltac:(lia)) as DN. pose proof (N.mod_lt n len ltac:(lia)) as MN.
        assert (LQ : n / len < N.of_nat K) by nia. destruct (FI (N.to_nat (n / len)) ltac:(lia)) as (f & IF & EFF & ETF).
        rewrite N2Nat.id in EFF, ETF. exists f. split; [|rewrite EFF; nia]. rewrite EF. apply in_or_app. left. apply IT.
        split; [exact IF|]. unfold overlaps. rewrite EFF, ETF. nia.
      + exists (r_filter (s_running s)). split; [|rewrite FR; lia]. rewrite EF, (INC n LN LK). apply in_or_app. right. left. reflexivity.
  Qed.

  (* ---- the blocks of a query ---- *)

  Lemma ssorted_app {X} (R : X -> X -> Prop) l1 : forall l2, StronglySorted R l1 -> StronglySorted R l2 ->
    (forall x y, In x l1 -> In y l2 -> R x y) -> StronglySorted R (l1 ++ l2).
  Proof.
    induction l1 as [|x l1 IH]; intros l2 S1 S2 H; cbn [app]; [exact S2|]. apply StronglySorted_inv in S1. destruct S1 as [S1 F].
    constructor; [apply IH; auto; intros; apply H; auto; right; assumption|]. apply Forall_app. split; [exact F|].
    apply Forall_forall. intros y I. apply H; [left; reflexivity|exact I].
  Qed.

  Lemma candidates_sorted addresses keys F : StronglySorted fless F -> (forall f, In f F -> agg_wf (from_block f) f) ->
    StronglySorted N.lt (flat_map (fun f => check f addresses keys) F).
  Proof.
    induction 1 as [|f F S IH FA]; intros W; cbn [flat_map]; [constructor|]. apply ssorted_app.
    - apply (check_sorted (from_block f)), W. left. reflexivity.
    - apply IH. intros g I. apply W. right. exact I.
    - intros x y IX IY. apply (check_in (from_block f)) in IX; [|apply W; left; reflexivity]. apply in_flat_map in IY.
      destruct IY as (g & IG & IY). apply (check_in (from_block g)) in IY; [|apply W; right; exact IG].
      rewrite Forall_forall in FA. specialize (FA _ IG). unfold fless in FA. lia.
  Qed.

  (* Leaving out elements of a range that give nothing changes nothing. *)
  Lemma in_firstn {X} n (l : list X) x : In x (firstn n l) -> In x l.
  Proof. intros I. rewrite <- (firstn_skipn n l). apply in_or_app. left. exact I. Qed.
  Lemma in_skipn {X} n (l : list X) x : In x (skipn n l) -> In x l.
  Proof. intros I. rewrite <- (firstn_skipn n l). apply in_or_app. right. exact I. Qed.

  Lemma sparse_flat_map {Y} (M : nat -> list Y) : forall n a blocks, StronglySorted N.lt blocks ->
    (forall x, In x blocks -> N.of_nat a <= x < N.of_nat (a + n)) ->
    (forall i, (a <= i < a + n)%nat -> ~ In (N.of_nat i) blocks -> M i = []) ->
    flat_map (fun x => M (N.to_nat x)) blocks = flat_map M (seq a n).
  Proof.
    induction n as [|n IH]; intros a blocks SS B H.
    - destruct blocks as [|x l]; [reflexivity|]. specialize (B x (or_introl eq_refl)). lia.
    - cbn [seq flat_map]. destruct blocks as [|x l].
      + rewrite (H a); [|lia|intros []]. cbn [app]. rewrite <- (IH (S a) []); [reflexivity|constructor|intros ? []|intros i L _; apply H; [lia|intros []]].
      + pose proof (StronglySorted_inv SS) as [S1 F]. rewrite Forall_forall in F. pose proof (B x (or_introl eq_refl)) as BX.
        destruct (N.eq_dec x (N.of_nat a)) as [->|NE].
        * cbn [flat_map]. rewrite Nat2N.id. f_equal. apply IH; [exact S1| |].
          -- intros y I. specialize (F _ I). specialize (B y (or_intror I)). lia.
          -- intros i L NI. apply H; [lia|]. intros [E|I]; [lia|contradiction].
        * rewrite (H a); [|lia|intros [E|I]; [congruence|specialize (F _ I); lia]]. cbn [app]. apply IH; [exact SS| |].
          -- intros y I. specialize (B y I). destruct I as [<-|I]; [lia|]. specialize (F _ I). lia.
          -- intros i L NI. apply H; [lia|exact NI].
  Qed.

  Definition M (chain : list block) (addresses : list N) (keys : list (list N)) (i : nat) : list emitted :=
    match nth_error chain i with Some b => block_matches addresses keys (N.of_nat i) b | None => [] end.

  Lemma blocks_ok K s start_block end_block addresses keys : synced K s -> end_block < height (s_db s) -> (length keys <= 16)%nat ->
    let blocks := filter (fun n => (start_block <=? n) && (n <=? end_block))
                    (flat_map (fun f => check f addresses keys) (load_range range_bytes (d_filters (s_db s)) (s_cache s) (s_running s) start_block end_block)) in
    (forall n, In n blocks -> start_block <= n <= end_block) /\
    flat_map (fun x => M (d_blocks (s_db s)) addresses keys (N.to_nat x)) blocks =
    flat_map (M (d_blocks (s_db s)) addresses keys) (seq (N.to_nat start_block) (N.to_nat (end_block + 1) - N.to_nat start_block)).
  Proof.
    intros SY LE LK blocks. destruct (load_range_ok K s start_block end_block SY LE) as (S & W & IN & _ & CV). cbv zeta in *.
    set (F := load_range _ _ _ _ _ _) in *.
    assert (B : forall n, In n blocks -> start_block <= n <= end_block). { intros n I. apply filter_In in I. lia. }
    split; [exact B|]. apply sparse_flat_map.
    - apply sorted_filter, candidates_sorted; assumption.
    - intros x I. specialize (B x I). lia.
    - intros i L NI. unfold M. destruct (nth_error (d_blocks (s_db s)) i) as [b|] eqn:E; [|reflexivity].
      rewrite block_matches_spec. destruct (filter _ (emitted_at (N.of_nat i) b)) as [|e l] eqn:EE; [reflexivity|exfalso]. apply NI.
      assert (IE : In e (filter (fun e => wants addresses keys (e_event e)) (emitted_at (N.of_nat i) b))) by (rewrite EE; left; reflexivity).
      apply filter_In in IE. destruct IE as [IE WE]. apply wants_spec in WE. apply emitted_at_block in IE. destruct IE as [_ IE].
      apply filter_In. split; [|lia]. destruct (CV (N.of_nat i)) as (f & IF & RF); [lia|]. apply in_flat_map. exists f. split; [exact IF|].
      refine (check_complete (from_block f) f (N.of_nat i) b (W f IF) _ RF addresses keys (e_event e) IE WE LK).
      destruct (IN f IF) as [IT|ER].
      + apply (to_covered K _ (sy_table K s SY) f (N.of_nat i) b IT); [rewrite Nat2N.id; exact E|exact RF].
      + subst f. apply (ro_covered _ _ _ (sy_running K s SY) (N.of_nat i) b); [rewrite Nat2N.id; exact E|].
        rewrite (w_from _ _ _ _ (ro_wf _ _ _ (sy_running K s SY))) in RF. lia.
  Qed.

  (* ---- scanning ---- *)

  Lemma skip_while_spec {X} (l : list X) : forall offset, skip_while offset l = (skipn offset l, (offset - length l)%nat).
  Proof.
    induction l as [|x l IH]; intros offset; cbn [skip_while length].
    - rewrite skipn_nil, Nat.sub_0_r. reflexivity.
    - destruct offset as [|o]; cbn [Nat.ltb Nat.leb skipn]; [reflexivity|]. rewrite Nat.sub_0_r || idtac.
      replace (S o - 1)%nat with o by lia. rewrite IH. f_equal.
  Qed.

  Definition scan_result (c : constraints) (from : N) (add_token : option token) (T : list emitted) : result :=
    if (length T <=? c_page_size c)%nat then ROk (mkPage T add_token)
    else match continuation_token (firstn (S (c_page_size c)) T) (mkToken from (c_offset c)) with
         | None => RPanic
         | Some t => ROk (mkPage (firstn (c_page_size c) T) (Some (mkToken (t_block t) (t_offset t - 1))))
         end.

  Lemma scan_spec d c from add_token : d_pruned d = 0 -> forall blocks offset acc,
    (length acc <= c_page_size c)%nat -> (forall n, In n blocks -> n < height d) ->
    scan d c from blocks offset acc add_token =
    scan_result c from add_token (acc ++ skipn offset (flat_map (fun x => M (d_blocks d) (c_addresses c) (c_keys c) (N.to_nat x)) blocks)).
  Proof.
    intros P. induction blocks as [|n blocks IH]; intros offset acc LA B; cbn [scan flat_map].
    - rewrite skipn_nil, app_nil_r. unfold scan_result. replace (length acc <=? c_page_size c)%nat with true by lia. reflexivity.
    - unfold block_at. rewrite P. replace (n <? 0) with false by lia.
      assert (EX : exists b, nth_error (d_blocks d) (N.to_nat n) = Some b).
      { specialize (B n (or_introl eq_refl)). unfold height in B.
        destruct (nth_error (d_blocks d) (N.to_nat n)) as [b|] eqn:E; [exists b; reflexivity|]. apply nth_error_None in E. lia. }
      destruct EX as (b & E). rewrite E.
      assert (EM : block_matches (c_addresses c) (c_keys c) n b = M (d_blocks d) (c_addresses c) (c_keys c) (N.to_nat n)).
      { unfold M. rewrite E, N2Nat.id. reflexivity. }
      rewrite EM, skip_while_spec. set (m := M _ _ _ (N.to_nat n)). set (rest := flat_map _ blocks).
      rewrite skipn_app. set (fnd := skipn offset m). set (off' := (offset - length m)%nat).
      set (acc' := acc ++ firstn (c_page_size c + 1 - length acc) fnd).
      assert (EA : acc' = firstn (S (c_page_size c)) (acc ++ fnd)).
      { rewrite firstn_app. unfold acc'. f_equal; [symmetry; apply firstn_all2; lia|f_equal; lia]. }
      destruct (Nat.ltb_spec (c_page_size c) (length acc')) as [L|L].
      + rewrite app_assoc. unfold scan_result. rewrite EA, firstn_length in L.
        replace (length ((acc ++ fnd) ++ skipn off' rest) <=? c_page_size c)%nat with false by (rewrite app_length; lia).
        assert (E1 : firstn (S (c_page_size c)) ((acc ++ fnd) ++ skipn off' rest) = acc').
        { rewrite EA, firstn_app. replace (S (c_page_size c) - length (acc ++ fnd))%nat with 0%nat by lia. rewrite app_nil_r. reflexivity. }
        assert (E3 : firstn (c_page_size c) acc' = firstn (c_page_size c) ((acc ++ fnd) ++ skipn off' rest)).
        { rewrite <- E1, firstn_firstn. f_equal. lia. }
        rewrite E1, E3. reflexivity.
      + assert (E2 : acc' = acc ++ fnd). { rewrite EA in *. rewrite firstn_length in L. apply firstn_all2. lia. }
        rewrite IH; [|exact L|intros x I; apply B; right; exact I]. rewrite E2, app_assoc. reflexivity.
  Qed.

  (* ---- tokens ---- *)

  Lemma count_last lb : forall Y X, (forall e, In e Y -> e_block_number e = lb) -> (forall e, In e X -> e_block_number e <> lb) ->
    count_last_block lb (rev (X ++ Y)) = length Y.
  Proof.
    intros Y X HY HX. rewrite rev_app_distr. rewrite <- (rev_length Y).
    assert (HR : forall e, In e (rev Y) -> e_block_number e = lb) by (intros e I; apply HY, in_rev, I).
    revert HR. generalize (rev Y) as R. clear HY. induction R as [|e R IH]; intros HR; cbn [app length].
    - destruct (rev X) as [|x r] eqn:E; [reflexivity|]. cbn [count_last_block].
      assert (I : In x X) by (apply in_rev; rewrite E; left; reflexivity). specialize (HX _ I).
      apply N.eqb_neq in HX. rewrite HX. reflexivity.
    - cbn [count_last_block]. rewrite (HR e (or_introl eq_refl)), N.eqb_refl. f_equal. apply IH. intros x I. apply HR. right. exact I.
  Qed.

  Lemma rev_nonempty {X} (l : list X) : l <> [] -> exists l' x, l = l' ++ [x].
  Proof. intros N. destruct l as [|x l'] using rev_ind; [congruence|]. eauto. Qed.

  Section Token.
    Variable stream : nat -> list emitted.
    Hypothesis numbers : forall i e, In e (stream i) -> e_block_number e = N.of_nat i.

    Lemma stream_in a n e : In e (flat_map stream (seq a n)) -> exists i, (a <= i < a + n)%nat /\ In e (stream i) /\ e_block_number e = N.of_nat i.
    Proof. rewrite in_flat_map. intros (i & I & J). apply in_seq in I. exists i. split; [lia|]. split; [exact J|apply numbers, J]. Qed.

    (* The token for the next page, when the page is full. *)
    Lemma token_ok (f w o page : nat) : (o + page < length (flat_map stream (seq f (w - f))))%nat ->
      exists t, continuation_token (firstn (S page) (skipn o (flat_map stream (seq f (w - f))))) (mkToken (N.of_nat f) o) = Some t /\
        (exists lb, t_block t = N.of_nat lb /\ (f <= lb < w)%nat /\ (0 < t_offset t)%nat /\
           (t_offset t - 1 < length (flat_map stream (seq lb (if lb =? f then w - f else 1))))%nat /\
           forall z, (w <= z)%nat -> skipn (t_offset t - 1) (flat_map stream (seq lb (z - lb))) =
                                     skipn (o + page) (flat_map stream (seq f (z - f)))).
    Proof.
      intros L. set (W := flat_map stream (seq f (w - f))) in *.
      destruct (nth_error W (o + page)) as [e|] eqn:E; [|apply nth_error_None in E; lia].
      assert (IE : In e W) by (apply (nth_error_In _ _ E)). apply stream_in in IE. destruct IE as (lb & LB & IE & EN).
      set (A := flat_map stream (seq f (lb - f))). set (C := flat_map stream (seq (S lb) (w - S lb))).
      assert (EW : W = A ++ stream lb ++ C).
      { unfold W, A, C. replace (w - f)%nat with ((lb - f) + S (w - S lb))%nat by lia. rewrite seq_app, flat_map_app.
        replace (f + (lb - f))%nat with lb by lia. reflexivity. }
      assert (HA : forall x, In x A -> e_block_number x < N.of_nat lb). { intros x I. apply stream_in in I. destruct I as (i & LI & _ & ->). lia. }
      assert (HC : forall x, In x C -> N.of_nat lb < e_block_number x). { intros x I. apply stream_in in I. destruct I as (i & LI & _ & ->). lia. }
      assert (LA : (length A <= o + page)%nat).
      { destruct (Nat.lt_ge_cases (o + page) (length A)) as [L1|]; [exfalso|assumption].
        rewrite EW, nth_error_app1 in E by exact L1. apply nth_error_In, HA in E. lia. }
      assert (LM : (o + page < length A + length (stream lb))%nat).
      { destruct (Nat.lt_ge_cases (o + page) (length A + length (stream lb))) as [|L1]; [assumption|exfalso].
        rewrite EW, nth_error_app2, nth_error_app2 in E by lia. apply nth_error_In, HC in E. lia. }
      set (acc := firstn (S page) (skipn o W)).
      assert (EA : acc = skipn o A ++ firstn (S (o + page) - Nat.max o (length A)) (skipn (o - length A) (stream lb))).
      { unfold acc. rewrite EW, skipn_app, firstn_app, skipn_length. f_equal; [apply firstn_all2; rewrite skipn_length; lia|].
        rewrite skipn_app, firstn_app, skipn_length.
        replace (S page - (length A - o))%nat with (S (o + page) - Nat.max o (length A))%nat by lia.
        replace (S (o + page) - Nat.max o (length A) - (length (stream lb) - (o - length A)))%nat with 0%nat by lia.
        rewrite app_nil_r. reflexivity. }
      set (Y := firstn (S (o + page) - Nat.max o (length A)) (skipn (o - length A) (stream lb))) in *.
      assert (LY : length Y = (S (o + page) - Nat.max o (length A))%nat). { unfold Y. rewrite firstn_length, skipn_length. lia. }
      assert (HY : forall x, In x Y -> e_block_number x = N.of_nat lb).
      { intros x I. apply numbers. unfold Y in I. apply in_firstn, in_skipn in I. exact I. }
      assert (HX : forall x, In x (skipn o A) -> e_block_number x <> N.of_nat lb).
      { intros x I. apply in_skipn, HA in I. lia. }
      assert (LX : length (skipn o A) = (length A - o)%nat) by apply skipn_length.
      assert (CT : count_last_block (N.of_nat lb) (rev acc) = length Y) by (rewrite EA; apply count_last; assumption).
      assert (NY : Y <> []) by (intros Z; rewrite Z in LY; cbn [length] in LY; lia).
      destruct (rev_nonempty Y NY) as (Y' & last & EY).
      assert (RA : exists r, rev acc = last :: r). { rewrite EA, EY, app_assoc, rev_app_distr. cbn [rev app]. eauto. }
      destruct RA as (r & RA).
      assert (NL : e_block_number last = N.of_nat lb) by (apply HY; rewrite EY; apply in_or_app; right; left; reflexivity).
      unfold continuation_token. rewrite RA, NL, <- RA, CT.
      assert (LACC : length acc = (length A - o + length Y)%nat) by (rewrite EA, app_length, LX; reflexivity).
      assert (TAIL : forall z, (w <= z)%nat -> flat_map stream (seq f (z - f)) = A ++ flat_map stream (seq lb (z - lb))).
      { intros z LZ. unfold A. replace (z - f)%nat with ((lb - f) + (z - lb))%nat by lia. rewrite seq_app, flat_map_app.
        replace (f + (lb - f))%nat with lb by lia. reflexivity. }
      destruct (Nat.ltb_spec (length Y) (length acc)) as [LT|LT].
      - eexists. split; [reflexivity|]. exists lb. cbn [t_block t_offset]. split; [reflexivity|]. split; [lia|]. split; [lia|].
        assert (lb <> f). { intros ->. unfold A in LACC, LY. rewrite Nat.sub_diag in *. cbn [seq flat_map length] in *. lia. }
        replace (lb =? f)%nat with false by lia. split.
        + cbn [seq flat_map]. rewrite app_nil_r. lia.
        + intros z LZ. rewrite (TAIL z LZ), (skipn_app (o + page)). rewrite (skipn_all2 A) by lia. cbn [app]. f_equal. lia.
      - eexists. split; [reflexivity|]. exists f. cbn [t_block t_offset]. split; [reflexivity|]. split; [lia|]. split; [lia|].
        rewrite Nat.eqb_refl. fold W. split; [lia|]. intros z LZ. f_equal. lia.
    Qed.
  End Token.

  (* ---- pages ---- *)

  Lemma skipn_skipn_add {X} (l : list X) : forall a b, skipn a (skipn b l) = skipn (b + a) l.
  Proof.
    induction l as [|x l IH]; intros a b; [rewrite !skipn_nil; reflexivity|]. destruct b as [|b]; [reflexivity|]. cbn [skipn plus]. apply IH.
  Qed.

  Lemma M_numbers chain addresses keys i e : In e (M chain addresses keys i) -> e_block_number e = N.of_nat i.
  Proof.
    unfold M. destruct (nth_error chain i) as [b|]; [|intros []]. rewrite block_matches_spec. intros I. apply filter_In in I.
    apply (emitted_at_block _ b), I.
  Qed.

  Lemma M_expected chain addresses keys a n : flat_map (M chain addresses keys) (seq a n) =
    filter (fun e => wants addresses keys (e_event e)) (emitted_in chain a n).
  Proof.
    unfold emitted_in. rewrite filter_flat_map. apply flat_map_ext. intros i. unfold M.
    destruct (nth_error chain i) as [b|]; [apply block_matches_spec|reflexivity].
  Qed.

  Lemma last_below to h : h <> 0 -> match to with Some t => N.min t (h - 1) | None => h - 1 end < h.
  Proof. intros N. destruct to; lia. Qed.
  Section Pages.
    Variables (K : nat) (s : state) (limit : N) (to : option N) (addresses : list N) (keys : list (list N)) (page : nat).
    Hypothesis SY : synced K s.
    Hypothesis limit_pos : 0 < limit.
    Hypothesis page_pos : (0 < page)%nat.
    Hypothesis few_keys : (length keys <= 16)%nat.
    Hypothesis nonempty : height (s_db s) <> 0.
    Let query := ask bloom_bytes range_bytes sip0 sip1 false limit s to addresses keys page.
    Let last := match to with Some t => N.min t (height (s_db s) - 1) | None => height (s_db s) - 1 end.
    Let z := S (N.to_nat last).
    Let stream := M (d_blocks (s_db s)) addresses keys.
    Definition remaining (f o : nat) : list emitted := skipn o (flat_map stream (seq f (z - f))).
    Definition token_valid (f o : nat) : Prop :=
      o = 0%nat \/ (o < length (flat_map stream (seq f (Nat.min z (f + N.to_nat limit) - f))))%nat.
    Definition default_from (from : option N) : nat := match from with Some f => N.to_nat f | None => 0%nat end.
    Definition measure (f o : nat) : nat := (length (remaining f o) + (z - f))%nat.

    Lemma page_step from o : token_valid (default_from from) o ->
      let f := default_from from in
      (query from o = ROk (mkPage (remaining f o) None) /\ (length (remaining f o) <= page)%nat) \/
      exists evs t, query from o = ROk (mkPage evs (Some t)) /\ (length evs <= page)%nat /\
        remaining f o = evs ++ remaining (N.to_nat (t_block t)) (t_offset t) /\
        token_valid (N.to_nat (t_block t)) (t_offset t) /\
        (measure (N.to_nat (t_block t)) (t_offset t) < measure f o)%nat /\
        (f <= N.to_nat (t_block t) < z)%nat.
    Proof.
      intros V f. unfold query, ask, events. cbn [c_page_size c_from c_to c_addresses c_keys c_offset].
      replace (page <? 1)%nat with false by lia. replace (height (s_db s) =? 0) with false by lia.
      assert (EFR : match from with Some f0 => f0 | None => 0 end = N.of_nat f) by (unfold f, default_from; destruct from; lia).
      rewrite EFR. fold last. set (fr := N.of_nat f). set (tl := N.min last (fr + limit - 1)).
      assert (LL : last < height (s_db s)) by (apply last_below; exact nonempty).
      destruct (load_range_ok K s fr tl SY ltac:(lia)) as (_ & _ & _ & (lf & EL & TL) & _). cbv zeta in EL, TL.
      set (F := load_range _ _ _ _ _ _) in *. rewrite EL. replace (N.min tl (to_block lf)) with tl by lia.
      destruct (blocks_ok K s fr tl addresses keys SY ltac:(lia) few_keys) as [B EB]. cbv zeta in B, EB. fold F in B, EB.
      set (blocks := filter _ (flat_map _ F)) in *.
      rewrite scan_spec; [|apply (to_pruned K _ (sy_table K s SY))|cbn [length]; lia|intros n I; specialize (B n I); lia].
      cbn [c_addresses c_keys c_page_size c_offset app]. rewrite EB. fold stream.
      set (w := N.to_nat (tl + 1)). replace (N.to_nat fr) with f by lia.
      set (W := flat_map stream (seq f (w - f))).
      assert (WZ : (w <= z)%nat) by lia.
      assert (WW : Nat.min z (f + N.to_nat limit) = w) by lia.
      assert (EXP : (f <= w)%nat -> flat_map stream (seq f (z - f)) = W ++ flat_map stream (seq w (z - w))).
      { intros LW. unfold W. replace (z - f)%nat with ((w - f) + (z - w))%nat by lia. rewrite seq_app, flat_map_app.
        replace (f + (w - f))%nat with w by lia. reflexivity. }
      assert (OW : (o <= length W)%nat). { unfold token_valid in V. fold f in V. rewrite WW in V. fold W in V. lia. }
      unfold scan_result. cbn [c_page_size c_offset].
      destruct (Nat.leb_spec (length (skipn o W)) page) as [LP|LP].
      - destruct (N.ltb_spec tl last) as [LT|LT].
        + right. do 2 eexists. split; [reflexivity|]. cbn [t_block t_offset]. fold w. split; [exact LP|].
          assert (LW : (f <= w)%nat) by lia.
          assert (ER : remaining f o = skipn o W ++ remaining w 0).
          { unfold remaining. rewrite (EXP LW), skipn_app. replace (o - length W)%nat with 0%nat by lia. reflexivity. }
          split; [exact ER|]. split; [left; reflexivity|].
          unfold measure. rewrite ER, app_length. assert (f < w)%nat by lia. lia.
        + left. assert (w = z) by lia. unfold remaining. replace (flat_map stream (seq f (z - f))) with W by (unfold W; congruence).
          split; [reflexivity|exact LP].
      - rewrite skipn_length in LP.
        destruct (token_ok stream (M_numbers _ _ _) f w o page) as (t & ET & lb & TB & LB & TO & TV & TR); [fold W; lia|].
        fold W in ET. fold fr in ET. rewrite ET. right. do 2 eexists. split; [reflexivity|]. cbn [t_block t_offset].
        rewrite TB, Nat2N.id. assert (LW : (f <= w)%nat) by lia.
        assert (ER : remaining f o = firstn page (skipn o W) ++ remaining lb (t_offset t - 1)).
        { unfold remaining. rewrite (TR z WZ), (EXP LW), <- skipn_skipn_add, skipn_app. replace (o - length W)%nat with 0%nat by lia.
          cbn [skipn]. set (rest := flat_map stream (seq w (z - w))).
          rewrite <- (firstn_skipn page (skipn o W ++ rest)) at 1. f_equal. rewrite firstn_app, skipn_length.
          replace (page - (length W - o))%nat with 0%nat by lia. cbn [firstn]. rewrite app_nil_r. reflexivity. }
        split; [rewrite firstn_length; lia|]. split; [exact ER|]. split.
        + right. destruct (Nat.eqb_spec lb f) as [->|NE]; [rewrite WW; exact TV|].
          eapply Nat.lt_le_trans; [exact TV|]. replace (Nat.min z (lb + N.to_nat limit) - lb)%nat with (1 + (Nat.min z (lb + N.to_nat limit) - lb - 1))%nat by lia.
          rewrite seq_app, flat_map_app, app_length. lia.
        + split; [|lia]. unfold measure. rewrite ER, app_length, firstn_length, skipn_length. lia.
    Qed.

    Lemma paged_ok : forall m from o, (measure (default_from from) o < m)%nat -> token_valid (default_from from) o ->
      exists pages, paged query from o pages /\ concat pages = remaining (default_from from) o /\ Forall (fun p => (length p <= page)%nat) pages.
    Proof.
      induction m as [|m IH]; intros from o LM V; [lia|].
      destruct (page_step from o V) as [[E L]|(evs & t & E & L & ER & V' & LT & _)]; cbv zeta in *.
      - eexists. split; [apply paged_last; exact E|]. cbn [concat]. rewrite app_nil_r. split; [reflexivity|repeat constructor; exact L].
      - destruct (IH (Some (t_block t)) (t_offset t)) as (pages & P & EC & F); [cbn [default_from]; lia|exact V'|].
        exists (evs :: pages). split; [eapply paged_more; eassumption|]. cbn [concat]. rewrite EC, ER. split; [reflexivity|constructor; assumption].
    Qed.
  End Pages.

  Lemma paged_unique q from o p1 : paged q from o p1 -> forall p2, paged q from o p2 -> p1 = p2.
  Proof.
    induction 1 as [from o evs E|from o evs t rest E P IH]; intros p2 Q; inversion Q as [? ? evs' E' |? ? evs' t' rest' E' P']; subst; rewrite E in E'.
    - congruence.
    - discriminate.
    - discriminate.
    - injection E' as <- <-. f_equal. apply IH, P'.
  Qed.

  (* ---- events_in_range ---- *)

  Lemma drop_empty_spec l : exists e, l = e ++ drop_empty l /\ (forall g, In g e -> g = []) /\
    match drop_empty l with [] => True | g :: _ => g <> [] end.
  Proof.
    induction l as [|g l (e & E & H & D)]; cbn [drop_empty]; [exists []; repeat split; intros ? []|].
    destruct g as [|k g]; cbn [is_nil].
    - exists ([] :: e). cbn [app]. split; [congruence|]. split; [|exact D]. intros g [<-|I]; [reflexivity|apply H, I].
    - exists []. split; [reflexivity|]. split; [intros ? []|discriminate].
  Qed.

  Lemma truncate_spec addresses keys e : wanted addresses (truncate_keys keys) e <-> wanted_by_position addresses keys e.
  Proof.
    unfold wanted, wanted_by_position, truncate_keys. destruct (forallb is_nil keys) eqn:A.
    - rewrite forallb_forall in A. assert (AN : forall g, In g keys -> g = []) by (intros g I; apply is_nil_spec, A, I).
      split; intros [H1 _]; (split; [exact H1|]); [|left; exact AN]. intros i g E. left. apply AN, (nth_error_In _ _ E).
    - destruct (drop_empty_spec (rev keys)) as (em & E & HE & D). set (dr := drop_empty (rev keys)) in *.
      assert (EK : keys = rev dr ++ rev em) by (rewrite <- (rev_involutive keys), E, rev_app_distr; reflexivity).
      assert (ND : dr <> []).
      { intros Z. assert (forallb is_nil keys = true); [|congruence]. apply forallb_forall. intros g I. apply is_nil_spec, HE.
        rewrite Z, app_nil_r in E. rewrite <- E. apply -> in_rev. exact I. }
      destruct dr as [|g0 r]; [congruence|]. cbn [rev] in *. set (pre := rev r ++ [g0]) in *.
      assert (NT : nth_error keys (length pre - 1) = Some g0).
      { rewrite EK, nth_error_app1 by (unfold pre; rewrite app_length; cbn [length]; lia). unfold pre.
        rewrite app_length. cbn [length]. rewrite nth_error_app2 by lia. replace (length (rev r) + 1 - 1 - length (rev r))%nat with 0%nat by lia. reflexivity. }
      split; intros [H1 H2]; (split; [exact H1|]).
      + destruct H2 as [H2|[_ H2]]; [exfalso; apply D, H2; unfold pre; apply in_or_app; right; left; reflexivity|].
        intros i g EG. rewrite EK in EG. destruct (Nat.lt_ge_cases i (length pre)) as [L|L].
        * rewrite nth_error_app1 in EG by exact L. apply H2, EG.
        * rewrite nth_error_app2 in EG by exact L. left. apply HE, in_rev, (nth_error_In _ _ EG).
      + right. assert (LP : (length pre <= length (ev_keys e))%nat).
        { destruct (H2 _ _ NT) as [Z|(k & EN & _)]; [contradiction|].
          assert (length pre - 1 < length (ev_keys e))%nat by (apply nth_error_Some; congruence). lia. }
        split; [exact LP|]. intros i g EG. apply H2. rewrite EK. rewrite nth_error_app1; [exact EG|]. apply nth_error_Some. congruence.
  Qed.

  Lemma truncate_length keys : (length (truncate_keys keys) <= length keys)%nat.
  Proof.
    unfold truncate_keys. destruct (forallb _ _); [lia|]. destruct (drop_empty_spec (rev keys)) as (em & E & _).
    rewrite rev_length. rewrite <- (rev_length keys), E, app_length. assert (length (drop_empty (rev keys)) = length (drop_empty (em ++ drop_empty (rev keys)))) by congruence. lia.
  Qed.

  Lemma events_in_range_ok K s from to addresses keys : synced K s -> (length keys <= 16)%nat -> from < height (s_db s) ->
    events_in_range bloom_bytes range_bytes sip0 sip1 (s_db s) (s_cache s) (s_running s) from to addresses keys =
    (flat_map (M (d_blocks (s_db s)) addresses (truncate_keys keys)) (seq (N.to_nat from) (N.to_nat (N.min to (height (s_db s) - 1) + 1) - N.to_nat from)),
     Some (N.min to (height (s_db s) - 1))).
  Proof.
    intros SY LK LF. unfold events_in_range. replace (height (s_db s) =? 0) with false by lia.
    replace (height (s_db s) - 1 <? from) with false by lia. set (tl := N.min to (height (s_db s) - 1)). f_equal.
    pose proof (truncate_length keys) as TL.
    destruct (blocks_ok K s from tl addresses (truncate_keys keys) SY ltac:(lia) ltac:(lia)) as [B EB]. cbv zeta in B, EB.
    rewrite <- EB. set (blocks := filter _ _) in *. clearbody blocks. clear EB. induction blocks as [|n blocks IH]; cbn [scan_range flat_map]; [reflexivity|].
    unfold block_at. rewrite (to_pruned K _ (sy_table K s SY)). replace (n <? 0) with false by lia.
    assert (LN : n < height (s_db s)) by (specialize (B n (or_introl eq_refl)); lia). unfold height in LN.
    unfold M at 1. destruct (nth_error (d_blocks (s_db s)) (N.to_nat n)) as [b|] eqn:E; [|apply nth_error_None in E; lia].
    rewrite N2Nat.id. f_equal. apply IH. intros m I. apply B. right. exact I.
  Qed.
End Events.
