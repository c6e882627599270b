From Coq Require Import List NArith PeanoNat Bool Lia ZifyBool ZifyN ZifyNat Sorted.
From Verif Require Import BloomModel BloomSpec.
Import ListNotations.
Local Open Scope N_scope.

Ltac dmod8 i := pose proof (Nat.div_mod i 8 ltac:(discriminate)); pose proof (Nat.mod_upper_bound i 8 ltac:(discriminate)).

Lemma upd_length f l : forall i, length (upd i f l) = length l.
Proof. induction l as [|x l IH]; intros [|i]; cbn [upd length]; auto. Qed.

Lemma upd_nth f l : forall i j, (i < length l)%nat ->
  nth j (upd i f l) 0 = if Nat.eqb j i then f (nth i l 0) else nth j l 0.
Proof.
  induction l as [|x l IH]; intros i j L; [cbn [length] in L; lia|].
  destruct i as [|i]; destruct j as [|j]; cbn [upd nth]; try reflexivity.
  cbn [length] in L. rewrite IH by lia. reflexivity.
Qed.

Lemma bit_upd l i m j : (i < length l)%nat ->
  bit (upd i (fun b => N.lor b m) l) j = bit l j || ((j / 8 =? i)%nat && N.testbit m (N.of_nat (7 - j mod 8))).
Proof.
  intros L. unfold bit. rewrite upd_nth by exact L. destruct (Nat.eqb_spec (j / 8) i) as [E|NE].
  - rewrite <- E, N.lor_spec. reflexivity.
  - rewrite orb_false_r. reflexivity.
Qed.

Lemma testbit_shift b k n : b = 0 \/ b = 1 ->
  N.testbit (N.shiftl b k) n = (b =? 1) && (n =? k).
Proof.
  intros B. destruct (N.eqb_spec n k) as [->|NE].
  - rewrite N.shiftl_spec_high' by lia. rewrite N.sub_diag. destruct B as [->| ->]; reflexivity.
  - rewrite andb_false_r. destruct (N.ltb_spec n k) as [L|L].
    + apply N.shiftl_spec_low, L.
    + rewrite N.shiftl_spec_high' by exact L. destruct B as [->| ->]; [apply N.bits_0|].
      apply N.bits_above_log2. cbn. lia.
Qed.

Lemma seven_sub a b : (a < 8)%nat -> (b < 8)%nat -> (N.of_nat (7 - a) =? N.of_nat (7 - b)) = (a =? b)%nat.
Proof. intros. lia. Qed.

Lemma land_one x : N.land x 1 = 0 \/ N.land x 1 = 1.
Proof.
  pose proof (N.land_ones x 1) as E. change (N.ones 1) with 1 in E. change (2 ^ 1) with 2 in E.
  pose proof (N.mod_upper_bound x 2 ltac:(discriminate)). lia.
Qed.

Lemma bit_of_byte x n : (N.land (N.shiftr x n) 1 =? 1) = N.testbit x n.
Proof.
  rewrite <- (N.add_0_l n) at 2. rewrite <- N.shiftr_spec'.
  pose proof (N.land_ones (N.shiftr x n) 1) as E. change (N.ones 1) with 1 in E. change (2 ^ 1) with 2 in E.
  rewrite E, <- N.bit0_mod. destruct (N.testbit _ 0); reflexivity.
Qed.

Lemma bit_set_spec i l j : (i / 8 < length l)%nat -> bit (bit_set i l) j = bit l j || (i =? j)%nat.
Proof.
  intros L. unfold bit_set. rewrite bit_upd by exact L. rewrite testbit_shift by auto. change (1 =? 1) with true.
  cbn [andb]. rewrite seven_sub by (apply Nat.mod_upper_bound; discriminate). f_equal.
  dmod8 i. dmod8 j. destruct (Nat.eqb_spec i j) as [->|NE]; [rewrite !Nat.eqb_refl; reflexivity|].
  destruct (Nat.eqb_spec (j / 8) (i / 8)); destruct (Nat.eqb_spec (j mod 8) (i mod 8)); try reflexivity. lia.
Qed.

Lemma bit_repeat x n j : (j < 8 * n)%nat -> bit (repeat x n) j = N.testbit x (N.of_nat (7 - j mod 8)).
Proof.
  intros L. unfold bit. assert (D : (j / 8 < n)%nat) by (dmod8 j; lia).
  f_equal. revert D. generalize (j / 8)%nat as i. clear. induction n as [|n IH]; intros i D; [lia|].
  destruct i as [|i]; cbn [repeat nth]; [reflexivity|]. apply IH. lia.
Qed.

Lemma bit_zeros n j : bit (repeat 0 n) j = false.
Proof.
  unfold bit. assert (E : forall i, nth i (repeat 0 n) 0 = 0).
  { clear. induction n as [|n IH]; intros [|i]; cbn [repeat nth]; auto. }
  rewrite E. apply N.bits_0.
Qed.

Lemma mixed n a x b y : (x < n -> y < n -> a * n + x = b * n + y -> a = b /\ x = y)%nat.
Proof.
  intros LX LY E. assert (a = b)%nat; [|subst; lia].
  destruct (Nat.lt_trichotomy a b) as [L|[L|L]]; [exfalso| |exfalso]; nia.
Qed.

(* ---- one block ---- *)

Section Bloom.
  Variables bloom_bytes range_bytes : nat.
  Variables sip0 sip1 : N -> N.
  Hypothesis bloom_pos : (0 < bloom_bytes)%nat.
  Hypothesis range_pos : (0 < range_bytes)%nat.
  Notation indices := (indices_for_key bloom_bytes sip0 sip1).
  Notation bbits := (bloom_bits bloom_bytes).

  Lemma offset_bound h : (N.to_nat (h mod N.of_nat bbits) < bbits)%nat.
  Proof. unfold bloom_bits in *. pose proof (N.mod_upper_bound h (N.of_nat (8 * bloom_bytes))). lia. Qed.

  Lemma indices_bound key : Forall (fun i => (i < bbits)%nat) (indices key).
  Proof.
    unfold indices_for_key. generalize (seq 0 k_num) as ks, (0, 0) as hs. induction ks as [|k ks IH]; intros hs; cbn [indices_loop]; [constructor|].
    destruct (bloom_hash sip0 sip1 hs key k) as [h hs']. constructor; [apply offset_bound|apply IH].
  Qed.

  Lemma set_loop_length key ks : forall hs l, length (set_loop bloom_bytes sip0 sip1 key hs ks l) = length l.
  Proof.
    induction ks as [|k ks IH]; intros hs l; cbn [set_loop]; [reflexivity|].
    destruct (bloom_hash sip0 sip1 hs key k) as [h hs']. rewrite IH. unfold bit_set. apply upd_length.
  Qed.

  Lemma set_loop_bit key ks : forall hs l j, length l = bloom_bytes ->
    bit (set_loop bloom_bytes sip0 sip1 key hs ks l) j =
    bit l j || existsb (Nat.eqb j) (indices_loop bloom_bytes sip0 sip1 key hs ks).
  Proof.
    induction ks as [|k ks IH]; intros hs l j L; cbn [set_loop indices_loop]; [cbn [existsb]; rewrite orb_false_r; reflexivity|].
    destruct (bloom_hash sip0 sip1 hs key k) as [h hs']. pose proof (offset_bound h) as B.
    set (i := N.to_nat (h mod N.of_nat (bloom_bits bloom_bytes))) in *. unfold bloom_bits in B.
    assert (D : (i / 8 < length l)%nat) by (dmod8 i; lia).
    rewrite IH by (unfold bit_set; rewrite upd_length; exact L). rewrite bit_set_spec by exact D.
    cbn [existsb]. rewrite (Nat.eqb_sym i j), orb_assoc. reflexivity.
  Qed.

  Lemma bloom_of_spec keys : length (bloom_of bloom_bytes sip0 sip1 keys) = bloom_bytes /\
    forall j, bit (bloom_of bloom_bytes sip0 sip1 keys) j = existsb (fun k => existsb (Nat.eqb j) (indices k)) keys.
  Proof.
    unfold bloom_of. induction keys as [|k keys IH] using rev_ind.
    - cbn [fold_left existsb]. unfold bloom_new. split; [apply repeat_length|]. intros j. apply bit_zeros.
    - rewrite fold_left_app. cbn [fold_left]. destruct IH as [L B]. split.
      + unfold bloom_set. rewrite set_loop_length. exact L.
      + intros j. unfold bloom_set. rewrite set_loop_bit by exact L. rewrite B, existsb_app. cbn [existsb].
        rewrite orb_false_r. reflexivity.
  Qed.

  Lemma bloom_bit keys j : bit (bloom_of bloom_bytes sip0 sip1 keys) j = true <-> exists k, In k keys /\ In j (indices k).
  Proof.
    destruct (bloom_of_spec keys) as [_ B]. rewrite B, existsb_exists. split; intros (k & I & E); exists k; (split; [exact I|]).
    - apply existsb_exists in E. destruct E as (x & IX & EX). apply Nat.eqb_eq in EX. subst x. exact IX.
    - apply existsb_exists. exists j. split; [exact E|apply Nat.eqb_refl].
  Qed.

  (* ---- aggregates ---- *)

  Notation col := (range_len range_bytes).

  Lemma fold_upd_bits (us : list (nat * N)) (bi : nat) : (bi < 8)%nat -> forall bm j,
    Forall (fun u => (fst u < length bm)%nat /\ (snd u = 0 \/ snd u = 1)) us ->
    let r := fold_left (fun bm u => upd (fst u) (fun b => N.lor b (N.shiftl (snd u) (N.of_nat (7 - bi)))) bm) us bm in
    length r = length bm /\
    bit r j = bit bm j || ((j mod 8 =? bi)%nat && existsb (fun u => (fst u =? j / 8)%nat && (snd u =? 1)) us).
  Proof.
    intros LB. induction us as [|u us IH]; intros bm j F; cbn [fold_left existsb].
    - cbv zeta. rewrite andb_false_r, orb_false_r. auto.
    - apply Forall_cons_iff in F. destruct F as [[L B] F].
      destruct (IH (upd (fst u) (fun b => N.lor b (N.shiftl (snd u) (N.of_nat (7 - bi)))) bm) j) as [IL IB].
      { rewrite upd_length. exact F. }
      cbv zeta. split; [rewrite IL; apply upd_length|]. rewrite IB, bit_upd by exact L.
      rewrite testbit_shift by exact B. rewrite seven_sub by (try apply Nat.mod_upper_bound; try discriminate; exact LB).
      rewrite (Nat.eqb_sym (j / 8)). destruct (bit bm j), (j mod 8 =? bi)%nat, (fst u =? j / 8)%nat, (snd u =? 1); reflexivity.
  Qed.

  Definition updates (byte_idx : nat) (ib : nat * N) : list (nat * N) :=
    map (fun off => (((8 * fst ib + off) * range_bytes + byte_idx)%nat, N.land (N.shiftr (snd ib) (N.of_nat (7 - off))) 1)) (seq 0 8).

  Lemma insert_byte_updates byi bi bm ib :
    insert_byte range_bytes byi bi bm ib =
    fold_left (fun bm u => upd (fst u) (fun b => N.lor b (N.shiftl (snd u) (N.of_nat (7 - bi)))) bm) (updates byi ib) bm.
  Proof. destruct ib as [i b]. reflexivity. Qed.

  Lemma fold_flat {A B C} (f : A -> C -> A) (g : B -> list C) (h : A -> B -> A) bs :
    (forall a b, h a b = fold_left f (g b) a) -> forall a, fold_left h bs a = fold_left f (flat_map g bs) a.
  Proof.
    intros E. induction bs as [|b bs IH]; intros a; cbn [fold_left flat_map]; [reflexivity|].
    rewrite fold_left_app, <- E. apply IH.
  Qed.

  Lemma in_enum (l : list N) : forall i0 i b, In (i, b) (combine (seq i0 (length l)) l) <-> (i0 <= i < i0 + length l)%nat /\ nth (i - i0) l 0 = b.
  Proof.
    induction l as [|x l IH]; intros i0 i b; cbn [length seq combine].
    - split; [intros []|intros [L _]; lia].
    - split.
      + intros [E|I].
        * injection E as <- <-. split; [lia|]. rewrite Nat.sub_diag. reflexivity.
        * apply IH in I. destruct I as [L E]. split; [lia|]. replace (i - i0)%nat with (S (i - S i0)) by lia. exact E.
      + intros [L E]. destruct (Nat.eq_dec i i0) as [->|NE].
        * left. rewrite Nat.sub_diag in E. cbn [nth] in E. congruence.
        * right. apply IH. split; [lia|]. replace (i - i0)%nat with (S (i - S i0)) in E by lia. exact E.
  Qed.

  Record agg_wf (from : N) (a : aggregate) : Prop := {
    w_from : from_block a = from;
    w_to : to_block a = from + N.of_nat col - 1;
    w_len : length (bitmap a) = (range_bytes * bbits)%nat }.

  Lemma agg_new_wf from : agg_wf from (agg_new bloom_bytes range_bytes from).
  Proof. constructor; try reflexivity. apply repeat_length. Qed.

  Lemma col_div c : (c < col)%nat -> (c / 8 < range_bytes)%nat.
  Proof. unfold range_len. intros L. dmod8 c. lia. Qed.

  Lemma cell_div r c : ((r * col + c) / 8 = r * range_bytes + c / 8 /\ (r * col + c) mod 8 = c mod 8)%nat.
  Proof.
    unfold range_len. replace (r * (8 * range_bytes) + c)%nat with (c + (r * range_bytes) * 8)%nat by lia.
    rewrite Nat.div_add, Nat.mod_add by discriminate. lia.
  Qed.

  Lemma agg_insert_spec from a bloom n : agg_wf from a -> length bloom = bloom_bytes ->
    match agg_insert range_bytes a bloom n with
    | None => n < from \/ from + N.of_nat col <= n
    | Some a' => from <= n < from + N.of_nat col /\ agg_wf from a' /\
        forall r c, (r < bbits)%nat -> (c < col)%nat ->
          bit (bitmap a') (r * col + c) = bit (bitmap a) (r * col + c) || ((from + N.of_nat c =? n) && bit bloom r)
    end.
  Proof.
    intros [WF WT WL] LB. unfold agg_insert. rewrite WF, WT.
    destruct ((from <=? n) && (n <=? from + N.of_nat col - 1)) eqn:E.
    2: { unfold range_len in *. lia. }
    assert (LN : from <= n < from + N.of_nat col) by (unfold range_len in *; lia).
    split; [exact LN|]. set (rel := N.to_nat (n - from)). assert (LR : (rel < col)%nat) by (unfold rel; lia).
    set (l := filter (fun ib : nat * N => negb (snd ib =? 0)) (combine (seq 0 (length bloom)) bloom)).
    assert (EQ : fold_left (insert_byte range_bytes (rel / 8) (rel mod 8)) l (bitmap a) =
      fold_left (fun bm u => upd (fst u) (fun b => N.lor b (N.shiftl (snd u) (N.of_nat (7 - rel mod 8)))) bm)
        (flat_map (updates (rel / 8)) l) (bitmap a)).
    { apply fold_flat. intros bm ib. apply insert_byte_updates. }
    rewrite EQ.
    assert (INU : forall x b, In (x, b) (flat_map (updates (rel / 8)) l) <->
        exists r, (r < bbits)%nat /\ nth (r / 8) bloom 0 <> 0 /\ x = (r * range_bytes + rel / 8)%nat /\
          b = N.land (N.shiftr (nth (r / 8) bloom 0) (N.of_nat (7 - r mod 8))) 1).
    { intros x b. rewrite in_flat_map. unfold bloom_bits. split.
      - intros ([i by_] & I & IU). unfold l in I. apply filter_In in I. destruct I as [I NZ]. cbn [snd] in NZ.
        apply in_enum in I. destruct I as [LI EB]. rewrite Nat.sub_0_r in EB.
        unfold updates in IU. apply in_map_iff in IU. destruct IU as (off & EU & IO). apply in_seq in IO. cbn [fst snd] in EU.
        exists (8 * i + off)%nat.
        assert (D : ((8 * i + off) / 8 = i)%nat) by (symmetry; apply (Nat.div_unique _ 8 i off); lia).
        assert (M : ((8 * i + off) mod 8 = off)%nat) by (symmetry; apply (Nat.mod_unique _ 8 i off); lia).
        rewrite D, M, EB. injection EU as <- <-. split; [lia|]. split; [|split; reflexivity].
        apply negb_true_iff, N.eqb_neq in NZ. exact NZ.
      - intros (r & LR' & NZ & -> & ->). dmod8 r. exists ((r / 8)%nat, nth (r / 8) bloom 0). split.
        + unfold l. apply filter_In. split; [apply in_enum; rewrite Nat.sub_0_r; split; [lia|reflexivity]|].
          cbn [snd]. apply negb_true_iff, N.eqb_neq, NZ.
        + unfold updates. apply in_map_iff. exists (r mod 8)%nat. cbn [fst snd]. split; [|apply in_seq; lia].
          replace (8 * (r / 8) + r mod 8)%nat with r by lia. reflexivity. }
    pose proof (Nat.mod_upper_bound rel 8 ltac:(discriminate)) as LM.
    assert (FU : Forall (fun u : nat * N => (fst u < length (bitmap a))%nat /\ (snd u = 0 \/ snd u = 1)) (flat_map (updates (rel / 8)) l)).
    { apply Forall_forall. intros [x b] I. cbn [fst snd]. apply INU in I. destruct I as (r & LR' & _ & -> & ->). split; [|apply land_one].
      rewrite WL. pose proof (col_div rel LR). unfold bloom_bits in *. nia. }
    split.
    - constructor; cbn [from_block to_block bitmap]; [reflexivity|reflexivity|].
      destruct (fold_upd_bits _ (rel mod 8) LM _ 0%nat FU) as [X _]. cbv zeta in X. rewrite X. exact WL.
    - intros r c LR' LC. cbn [bitmap].
      destruct (fold_upd_bits _ (rel mod 8) LM _ (r * col + c)%nat FU) as [_ X]. cbv zeta in X. rewrite X. f_equal.
      destruct (cell_div r c) as [-> ->]. apply eq_iff_eq_true. rewrite !andb_true_iff, existsb_exists, Nat.eqb_eq, N.eqb_eq.
      pose proof (col_div c LC) as DC. pose proof (col_div rel LR) as DR. dmod8 c. dmod8 rel. split.
      + intros [EM ([x b] & I & EX)]. cbn [fst snd] in EX. apply andb_true_iff in EX. destruct EX as [EX EB].
        apply Nat.eqb_eq in EX. apply INU in I. destruct I as (r' & LR'' & NZ & -> & EB').
        destruct (mixed _ _ _ _ _ DR DC EX) as [-> ED]. split; [unfold rel in *; lia|].
        rewrite EB', bit_of_byte in EB. exact EB.
      + intros [EN EB]. assert (ER : rel = c) by (unfold rel; lia). split; [rewrite ER; reflexivity|].
        exists ((r * range_bytes + rel / 8)%nat, N.land (N.shiftr (nth (r / 8) bloom 0) (N.of_nat (7 - r mod 8))) 1).
        cbn [fst snd]. split.
        * apply INU. exists r. split; [exact LR'|]. split; [|split; reflexivity].
          intros Z. unfold bit in EB. rewrite Z, N.bits_0 in EB. discriminate.
        * rewrite ER, Nat.eqb_refl, bit_of_byte. exact EB.
  Qed.

  (* ---- queries ---- *)

  Lemma zip_length f a : forall b, length (zip_with f a b) = length a.
  Proof. induction a as [|x a IH]; intros [|y b]; cbn [zip_with length]; auto. Qed.

  Lemma zip_nth f a : forall b i, (i < length a)%nat -> length b = length a ->
    nth i (zip_with f a b) 0 = f (nth i a 0) (nth i b 0).
  Proof.
    induction a as [|x a IH]; intros [|y b] i L E; cbn [length] in *; try lia.
    destruct i as [|i]; cbn [zip_with nth]; [reflexivity|]. apply IH; lia.
  Qed.

  Lemma range_and_bit a b c : (c < col)%nat -> length a = range_bytes -> length b = range_bytes ->
    bit (range_and a b) c = bit a c && bit b c.
  Proof.
    intros LC LA LB. pose proof (col_div c LC). unfold bit, range_and. rewrite zip_nth by lia. apply N.land_spec.
  Qed.

  Lemma range_or_bit a b c : (c < col)%nat -> length a = range_bytes -> length b = range_bytes ->
    bit (range_or a b) c = bit a c || bit b c.
  Proof.
    intros LC LA LB. pose proof (col_div c LC). unfold bit, range_or. rewrite zip_nth by lia. apply N.lor_spec.
  Qed.

  Lemma full_bit c : (c < col)%nat -> bit (range_full range_bytes) c = true.
  Proof.
    intros L. unfold range_full. rewrite bit_repeat by exact L.
    assert (E : forall k, (k < 8)%nat -> N.testbit 255 (N.of_nat k) = true).
    { intros k K. do 8 (destruct k as [|k]; [reflexivity|]). lia. }
    apply E. lia.
  Qed.

  Lemma nth_firstn_skipn (l : list N) s n i : (i < n)%nat -> nth i (firstn n (skipn s l)) 0 = nth (s + i) l 0.
  Proof.
    intros L. assert (F : forall (m : list N) n i, (i < n)%nat -> nth i (firstn n m) 0 = nth i m 0).
    { clear. induction m as [|x m IH]; intros [|n] [|i] L; cbn [firstn nth]; try lia; auto. apply IH. lia. }
    rewrite F by exact L. clear. revert l. induction s as [|s IH]; intros l; [reflexivity|].
    destruct l as [|x l]; cbn [skipn plus nth]; [destruct i; reflexivity|apply IH].
  Qed.

  Lemma row_spec from a r : agg_wf from a -> (r < bbits)%nat ->
    length (range_of_row range_bytes a r) = range_bytes /\
    forall c, (c < col)%nat -> bit (range_of_row range_bytes a r) c = bit (bitmap a) (r * col + c).
  Proof.
    intros [WF WT WL] LR. unfold range_of_row. replace (r * range_bytes + range_bytes - r * range_bytes)%nat with range_bytes by lia.
    split.
    - rewrite firstn_length, skipn_length, WL. nia.
    - intros c LC. unfold bit. destruct (cell_div r c) as [-> ->]. rewrite nth_firstn_skipn by (apply col_div, LC). reflexivity.
  Qed.

  Lemma key_rows from a rows : agg_wf from a -> Forall (fun i => (i < bbits)%nat) rows -> forall acc, length acc = range_bytes ->
    let r := fold_left (fun m i => range_and m (range_of_row range_bytes a i)) rows acc in
    length r = range_bytes /\
    forall c, (c < col)%nat -> bit r c = bit acc c && forallb (fun i => bit (bitmap a) (i * col + c)) rows.
  Proof.
    intros W. induction rows as [|i rows IH]; intros F acc L; cbn [fold_left forallb]; cbv zeta.
    - split; [exact L|]. intros c _. rewrite andb_true_r. reflexivity.
    - apply Forall_cons_iff in F. destruct F as [LI F]. destruct (row_spec from a i W LI) as [RL RB].
      destruct (IH F (range_and acc (range_of_row range_bytes a i))) as [IL IB].
      { unfold range_and. rewrite zip_length. exact L. }
      split; [exact IL|]. intros c LC. rewrite IB, range_and_bit, RB, andb_assoc by assumption. reflexivity.
  Qed.

  Lemma blocks_bits from a keys : agg_wf from a ->
    length (blocks_for_keys bloom_bytes range_bytes sip0 sip1 a keys) = range_bytes /\
    forall c, (c < col)%nat ->
      bit (blocks_for_keys bloom_bytes range_bytes sip0 sip1 a keys) c =
      match keys with [] => true | _ => existsb (fun k => forallb (fun i => bit (bitmap a) (i * col + c)) (indices k)) keys end.
  Proof.
    intros W. unfold blocks_for_keys. destruct keys as [|k0 keys0]; [split; [apply repeat_length|apply full_bit]|].
    generalize (k0 :: keys0) as keys. clear k0 keys0. intros keys.
    assert (G : forall acc, length acc = range_bytes ->
      let r := fold_left (fun m k => range_or m (fold_left (fun m i => range_and m (range_of_row range_bytes a i)) (indices k) (range_full range_bytes))) keys acc in
      length r = range_bytes /\ forall c, (c < col)%nat -> bit r c = bit acc c || existsb (fun k => forallb (fun i => bit (bitmap a) (i * col + c)) (indices k)) keys).
    { induction keys as [|k keys IH]; intros acc L; cbn [fold_left existsb]; cbv zeta.
      - split; [exact L|]. intros c _. rewrite orb_false_r. reflexivity.
      - destruct (key_rows from a (indices k) W (indices_bound k) (range_full range_bytes) (repeat_length _ _)) as [KL KB].
        cbv zeta in KL, KB. set (m := fold_left _ (indices k) (range_full range_bytes)) in *.
        destruct (IH (range_or acc m)) as [IL IB]; [unfold range_or; rewrite zip_length; exact L|].
        split; [exact IL|]. intros c LC. rewrite IB, range_or_bit, KB, full_bit by assumption. cbn [andb].
        rewrite orb_assoc. reflexivity. }
    destruct (G (range_empty range_bytes) (repeat_length _ _)) as [GL GB]. split; [exact GL|].
    intros c LC. rewrite GB by exact LC. unfold range_empty. rewrite bit_zeros. reflexivity.
  Qed.

  Lemma iter_ones_filter l : iter_ones l = filter (bit l) (seq 0 (8 * length l)).
  Proof.
    unfold iter_ones.
    assert (G : forall (m : list N) i0, (forall i, (i < length m)%nat -> nth (i0 + i) l 0 = nth i m 0) ->
      flat_map (fun ib => let (byte_idx, byte) := ib : nat * N in
        flat_map (fun bit_idx => if N.land (N.shiftr byte (N.of_nat (7 - bit_idx))) 1 =? 1 then [(byte_idx * 8 + bit_idx)%nat] else []) (seq 0 8))
        (combine (seq i0 (length m)) m) = filter (bit l) (seq (8 * i0) (8 * length m))).
    { induction m as [|x m IH]; intros i0 H; [cbn [length combine seq flat_map]; rewrite Nat.mul_0_r; reflexivity|].
      cbn [length seq combine flat_map]. replace (8 * S (length m))%nat with (8 + 8 * length m)%nat by lia.
      rewrite seq_app, filter_app. f_equal.
      - assert (E : nth i0 l 0 = x).
        { specialize (H 0%nat). rewrite Nat.add_0_r in H. apply H. cbn [length]. lia. }
        assert (B : forall k, (k < 8)%nat -> (N.land (N.shiftr x (N.of_nat (7 - k))) 1 =? 1) = bit l (8 * i0 + k)).
        { intros k K. rewrite bit_of_byte. unfold bit.
          replace ((8 * i0 + k) / 8)%nat with i0 by (apply (Nat.div_unique _ 8 i0 k); lia).
          replace ((8 * i0 + k) mod 8)%nat with k by (apply (Nat.mod_unique _ 8 i0 k); lia). rewrite E. reflexivity. }
        assert (G2 : forall n k, (k + n <= 8)%nat ->
          flat_map (fun bit_idx => if N.land (N.shiftr x (N.of_nat (7 - bit_idx))) 1 =? 1 then [(i0 * 8 + bit_idx)%nat] else []) (seq k n)
          = filter (bit l) (seq (8 * i0 + k) n)).
        { induction n as [|n IHn]; intros k K; [reflexivity|]. cbn [seq flat_map filter]. rewrite B by lia.
          rewrite IHn by lia. replace (8 * i0 + S k)%nat with (S (8 * i0 + k)) by lia.
          destruct (bit l (8 * i0 + k)); [|reflexivity]. cbn [app]. f_equal. lia. }
        pose proof (G2 8%nat 0%nat ltac:(lia)) as X. rewrite Nat.add_0_r in X. exact X.
      - replace (8 * i0 + 8)%nat with (8 * S i0)%nat by lia. apply IH. intros i LI. specialize (H (S i)).
        replace (i0 + S i)%nat with (S i0 + i)%nat in H by lia. apply H. cbn [length]. lia. }
    apply (G l 0%nat). reflexivity.
  Qed.

  Lemma reported_in from a keys n : agg_wf from a ->
    (In n (reported bloom_bytes range_bytes sip0 sip1 a keys) <->
     from <= n < from + N.of_nat col /\
     match keys with [] => true | _ => existsb (fun k => forallb (fun i => bit (bitmap a) (i * col + N.to_nat (n - from))) (indices k)) keys end = true).
  Proof.
    intros W. destruct (blocks_bits from a keys W) as [BL BB]. unfold reported. rewrite iter_ones_filter, BL. fold col.
    rewrite in_map_iff, (w_from _ _ W). split.
    - intros (i & <- & I). apply filter_In in I. destruct I as [I B]. apply in_seq in I. fold col in I. rewrite BB in B by lia.
      split; [lia|]. replace (N.to_nat (from + N.of_nat i - from)) with i by lia. exact B.
    - intros [L B]. exists (N.to_nat (n - from)). split; [lia|]. apply filter_In. split; [apply in_seq; lia|].
      rewrite BB by lia. exact B.
  Qed.

  Lemma reported_sorted from a keys : agg_wf from a -> StronglySorted N.lt (reported bloom_bytes range_bytes sip0 sip1 a keys).
  Proof.
    intros W. unfold reported. rewrite iter_ones_filter.
    assert (G : forall n k, StronglySorted N.lt (map (fun i => from_block a + N.of_nat i)
        (filter (bit (blocks_for_keys bloom_bytes range_bytes sip0 sip1 a keys)) (seq k n))) /\
        Forall (fun x => from_block a + N.of_nat k <= x) (map (fun i => from_block a + N.of_nat i)
        (filter (bit (blocks_for_keys bloom_bytes range_bytes sip0 sip1 a keys)) (seq k n)))).
    { induction n as [|n IH]; intros k; cbn [seq filter map]; [split; constructor|]. destruct (IH (S k)) as [S1 F1].
      destruct (bit _ k); cbn [map].
      - split.
        + constructor; [exact S1|]. eapply Forall_impl; [|exact F1]. cbv beta. intros; lia.
        + constructor; [lia|]. eapply Forall_impl; [|exact F1]. cbv beta. intros; lia.
      - split; [exact S1|]. eapply Forall_impl; [|exact F1]. cbv beta. intros; lia. }
    apply G.
  Qed.

  Lemma agg_of_spec from blocks : forall a, agg_of bloom_bytes range_bytes sip0 sip1 from blocks = Some a ->
    agg_wf from a /\ Forall (fun b => from <= fst b < from + N.of_nat col) blocks /\
    forall r c, (r < bbits)%nat -> (c < col)%nat ->
      (bit (bitmap a) (r * col + c) = true <->
       exists ks k, In (from + N.of_nat c, ks) blocks /\ In k ks /\ In r (indices k)).
  Proof.
    induction blocks as [|[n ks] blocks IH] using rev_ind; intros a E.
    - unfold agg_of in E. cbn [fold_left] in E. injection E as <-. split; [apply agg_new_wf|]. split; [constructor|].
      intros r c LR LC. cbn [agg_new bitmap]. rewrite bit_zeros. split; [discriminate|]. intros (? & ? & [] & _).
    - unfold agg_of in *. rewrite fold_left_app in E. cbn [fold_left fst snd] in E.
      destruct (fold_left _ blocks _) as [a0|]; [|discriminate]. destruct (IH a0 eq_refl) as (W & F & B).
      destruct (bloom_of_spec ks) as [LB _].
      pose proof (agg_insert_spec from a0 (bloom_of bloom_bytes sip0 sip1 ks) n W LB) as S. rewrite E in S.
      destruct S as (LN & W' & B'). split; [exact W'|]. split; [apply Forall_app; split; [exact F|repeat constructor; cbn [fst]; lia]|].
      intros r c LR LC. rewrite B' by assumption. rewrite orb_true_iff, andb_true_iff, B, bloom_bit, N.eqb_eq by assumption. split.
      + intros [(ks' & k & I & J)|(EN & k & I & J)].
        * exists ks', k. split; [apply in_or_app; left; exact I|exact J].
        * exists ks, k. split; [apply in_or_app; right; left; congruence|auto].
      + intros (ks' & k & I & J). apply in_app_or in I. destruct I as [I|[I|[]]]; [left; eauto|].
        injection I as -> ->. right. split; [reflexivity|]. eauto.
  Qed.

  Lemma agg_of_total from blocks : Forall (fun b => from <= fst b < from + N.of_nat col) blocks ->
    exists a, agg_of bloom_bytes range_bytes sip0 sip1 from blocks = Some a.
  Proof.
    induction blocks as [|[n ks] blocks IH] using rev_ind; intros F; [eexists; reflexivity|].
    apply Forall_app in F. destruct F as [F FN]. apply Forall_cons_iff in FN. destruct FN as [LN _]. cbn [fst] in LN.
    destruct (IH F) as (a0 & E). destruct (agg_of_spec from blocks a0 E) as (W & _ & _).
    destruct (bloom_of_spec ks) as [LB _].
    pose proof (agg_insert_spec from a0 (bloom_of bloom_bytes sip0 sip1 ks) n W LB) as S.
    unfold agg_of in *. rewrite fold_left_app, E. cbn [fold_left fst snd].
    destruct (agg_insert range_bytes a0 _ n) as [a|]; [eexists; reflexivity|lia].
  Qed.
End Bloom.
