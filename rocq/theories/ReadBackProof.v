(* Lemmas on reading a stored state update back *)
From Coq Require Import List Arith NArith Bool Lia ZifyBool ZifyNat ZifyN.
From Verif Require Import ListLib Radix AList SortedMap StateUpdateModel ChainModel ChainSpec ChainProof ReadBackSpec.
Import ListNotations.
Local Open Scope N_scope.

Lemma contract_of_with a f m a' :
  contract_of (with_contract a f m) a' = if a' =? a then f (contract_of m a) else contract_of m a'.
Proof.
  unfold contract_of, with_contract. destruct (N.eqb_spec a' a) as [->|NE].
  - rewrite (al_get_set_eq _ neqb_spec). destruct (nget a m); reflexivity.
  - rewrite (al_get_set_neq _ neqb_spec) by exact NE. reflexivity.
Qed.

(* among the rows of one block the key determines the value *)
Definition functional {K V} (rows : list (row K V)) : Prop :=
  forall r r', In r rows -> In r' rows -> r_key r = r_key r' -> r_val r = r_val r'.
Lemma functional_app {K V} (l : list (row K V)) x : functional (l ++ [x]) -> functional l.
Proof. intros F r r' R R'. apply F; apply in_or_app; auto. Qed.

Lemma nonces_fold rows : forall m a, functional rows ->
  let x := contract_of (fold_left with_nonce rows m) a in
  (forall r, In r rows -> r_key r = a -> cu_nonce x = Some (r_val r)) /\
  ((forall r, In r rows -> r_key r <> a) -> cu_nonce x = cu_nonce (contract_of m a)) /\
  cu_storage x = cu_storage (contract_of m a) /\ cu_class x = cu_class (contract_of m a).
Proof.
  induction rows as [|y rows IH] using rev_ind; intros m a F; cbv zeta.
  - cbn. split; [intros r []|]. auto.
  - rewrite fold_left_app. cbn [fold_left]. unfold with_nonce at 1 3 5 7. rewrite contract_of_with.
    destruct (IH m a (functional_app _ _ F)) as (A1 & A2 & A3 & A4).
    destruct (N.eqb_spec a (r_key y)) as [E|E].
    + cbn [cu_nonce cu_storage cu_class]. rewrite <- E. split; [|split; [|split; [exact A3|exact A4]]].
      * intros r R K. f_equal. apply F; [apply in_or_app; right; left; reflexivity|exact R|congruence].
      * intros N. exfalso. apply (N y); [apply in_or_app; right; left; reflexivity|congruence].
    + split; [|split; [|split; [exact A3|exact A4]]].
      * intros r R K. apply in_app_iff in R. destruct R as [R|[->|[]]]; [auto|congruence].
      * intros N. apply A2. intros r R. apply N. apply in_or_app. auto.
Qed.

Lemma storage_fold rows : forall s a k, functional rows ->
  let t := fold_left with_storage rows s in
  let x := contract_of (fst t) a in
  (is_system a = false ->
     (forall r, In r rows -> r_key r = (a, k) -> nget k (cu_storage x) = Some (r_val r)) /\
     ((forall r, In r rows -> r_key r <> (a, k)) -> nget k (cu_storage x) = nget k (cu_storage (contract_of (fst s) a)))) /\
  (is_system a = true ->
     (forall r, In r rows -> r_key r = (a, k) -> slot_of (snd t) a k = Some (r_val r)) /\
     ((forall r, In r rows -> r_key r <> (a, k)) -> slot_of (snd t) a k = slot_of (snd s) a k)) /\
  (is_system a = false -> slot_of (snd t) a k = slot_of (snd s) a k) /\
  (is_system a = true -> contract_of (fst t) a = contract_of (fst s) a) /\
  cu_nonce x = cu_nonce (contract_of (fst s) a) /\ cu_class x = cu_class (contract_of (fst s) a).
Proof.
  induction rows as [|y rows IH] using rev_ind; intros s a k F; cbv zeta.
  - cbn. repeat split; try (intros r []); auto.
  - rewrite fold_left_app. cbn [fold_left].
    destruct (IH s a k (functional_app _ _ F)) as (A1 & A2 & A3 & A4 & A5 & A6). clear IH.
    set (t := fold_left with_storage rows s) in *.
    destruct (r_key y) as (ay, ky) eqn:KY. unfold with_storage. rewrite KY.
    assert (YI : In y (rows ++ [y])) by (apply in_or_app; right; left; reflexivity).
    assert (LAST : forall r, In r (rows ++ [y]) -> r_key r = (ay, ky) -> r_val r = r_val y).
    { intros r R K. apply F; [exact R|exact YI|congruence]. }
    assert (OLD : (forall r, In r (rows ++ [y]) -> r_key r <> (a, k)) -> forall r, In r rows -> r_key r <> (a, k)).
    { intros N r R. apply N. apply in_or_app. auto. }
    destruct (is_system ay) eqn:SY; cbn [fst snd].
    + (* a system contract's slot *)
      split; [|split; [|split; [|split; [|split]]]].
      * intros NS. destruct (A1 NS) as [B1 B2]. split; [|auto].
        intros r R K. apply in_app_iff in R. destruct R as [R|[->|[]]]; [auto|]. congruence.
      * intros SA. destruct (A2 SA) as [B1 B2]. unfold slot_of in *.
        destruct (N.eq_dec a ay) as [->|NA].
        { rewrite (al_get_set_eq _ neqb_spec). destruct (N.eq_dec k ky) as [->|NK].
          - rewrite (al_get_set_eq _ neqb_spec). split.
            + intros r R K. f_equal. symmetry. apply LAST; auto.
            + intros N. destruct (N y YI KY).
          - rewrite (al_get_set_neq _ neqb_spec) by exact NK.
            assert (E : nget k (get_or [] (nget ay (snd t))) = match nget ay (snd t) with Some s0 => nget k s0 | None => None end).
            { destruct (nget ay (snd t)); reflexivity. }
            rewrite E. split; [|auto].
            intros r R K. apply in_app_iff in R. destruct R as [R|[->|[]]]; [auto|]. congruence. }
        { rewrite (al_get_set_neq _ neqb_spec) by exact NA. split; [|auto].
          intros r R K. apply in_app_iff in R. destruct R as [R|[->|[]]]; [auto|]. congruence. }
      * intros NS. unfold slot_of in *. rewrite (al_get_set_neq _ neqb_spec) by congruence. auto.
      * exact A4.
      * exact A5.
      * exact A6.
    + rewrite contract_of_with. destruct (N.eqb_spec a ay) as [->|NA].
      * cbn [cu_storage cu_nonce cu_class].
        split; [|split; [|split; [|split; [|split]]]]; try assumption; try congruence.
        intros NS. destruct (A1 NS) as [B1 B2].
        destruct (N.eq_dec k ky) as [->|NK].
        { rewrite (al_get_set_eq _ neqb_spec). split.
          - intros r R K. f_equal. symmetry. apply LAST; auto.
          - intros N. destruct (N y YI KY). }
        { rewrite (al_get_set_neq _ neqb_spec) by exact NK. split; [|auto].
          intros r R K. apply in_app_iff in R. destruct R as [R|[->|[]]]; [auto|]. congruence. }
      * split; [|split; [|split; [exact A3|split; [exact A4|split; [exact A5|exact A6]]]]].
        { intros NS. destruct (A1 NS) as [B1 B2]. split; [|auto].
          intros r R K. apply in_app_iff in R. destruct R as [R|[->|[]]]; [auto|]. congruence. }
        { intros SA. destruct (A2 SA) as [B1 B2]. split; [|auto].
          intros r R K. apply in_app_iff in R. destruct R as [R|[->|[]]]; [auto|]. congruence. }
Qed.

Lemma class_fold (g : row N N -> bool) rows : forall m a, functional rows ->
  (forall r r', r_key r = r_key r' -> g r = g r') ->
  let x := contract_of (fold_left (fun m r => with_class (g r) m r) rows m) a in
  (forall r, In r rows -> r_key r = a -> cu_class x = Some (if g r then Replace (r_val r) else Deploy (r_val r))) /\
  ((forall r, In r rows -> r_key r <> a) -> cu_class x = cu_class (contract_of m a)) /\
  cu_storage x = cu_storage (contract_of m a) /\ cu_nonce x = cu_nonce (contract_of m a).
Proof.
  induction rows as [|y rows IH] using rev_ind; intros m a F G; cbv zeta.
  - cbn. split; [intros r []|]. auto.
  - rewrite fold_left_app. cbn [fold_left]. unfold with_class at 1 3 5 7. rewrite contract_of_with.
    destruct (IH m a (functional_app _ _ F) G) as (A1 & A2 & A3 & A4).
    destruct (N.eqb_spec a (r_key y)) as [E|E].
    + cbn [cu_nonce cu_storage cu_class]. rewrite <- E. split; [|split; [|split; [exact A3|exact A4]]].
      * intros r R K. rewrite (G r y) by congruence.
        rewrite (F r y R); [reflexivity|apply in_or_app; right; left; reflexivity|congruence].
      * intros N. exfalso. apply (N y); [apply in_or_app; right; left; reflexivity|congruence].
    + split; [|split; [|split; [exact A3|exact A4]]].
      * intros r R K. apply in_app_iff in R. destruct R as [R|[->|[]]]; [auto|congruence].
      * intros N. apply A2. intros r R. apply N. apply in_or_app. auto.
Qed.

Lemma rows_at {K V} (w : l2_block -> K -> option V) t low c n b :
  tracks w t low c -> low <= n -> block_at c n = Some b ->
  (forall r, In r (filter (fun r => r_block r =? n) t) <-> r_block r = n /\ w b (r_key r) = Some (r_val r)) /\
  functional (filter (fun r => r_block r =? n) t).
Proof.
  intros T L B.
  assert (X : forall r, In r (filter (fun r => r_block r =? n) t) <-> r_block r = n /\ w b (r_key r) = Some (r_val r)).
  { intros r. rewrite filter_In, (T r). split.
    - intros [[(y & Y & W) _] E]. assert (E' : r_block r = n) by lia. rewrite E' in Y. split; [exact E'|congruence].
    - intros [E W]. split; [|lia]. split; [exists b; rewrite E; auto|]. intros d x D1 D2. lia. }
  split; [exact X|]. intros r r' R R' EK. apply X in R. apply X in R'. destruct R as [_ R], R' as [_ R'].
  rewrite EK in R. congruence.
Qed.

Lemma earlier_row low d c n a :
  inv low d c -> n < clen c -> (n = 0 \/ low <= n - 1) ->
  existsb (fun r => (r_key r =? a) && (r_block r <? n)) (d_classes d) = deployed_before c n a.
Proof.
  intros I U L. unfold deployed_before. destruct (N.eqb_spec n 0) as [->|NZ].
  - destruct (existsb _ _) eqn:E; [|reflexivity]. apply existsb_exists in E. destruct E as (r & _ & E). lia.
  - destruct L as [->|L]; [congruence|].
    rewrite <- (tracks_lookup writes_class N.eqb neqb_spec (d_classes d) low c (n - 1) (fun m => m <=? n - 1) a
                  (i_classes _ _ _ I) L ltac:(lia) (fun _ _ => eq_refl) : _ = class_at c (n - 1) a).
    unfold latest. destruct (newest _) as [r|] eqn:E; cbn [option_map is_some].
    + apply newest_some in E. destruct E as [IN _]. apply filter_In in IN. destruct IN as [IN P].
      apply existsb_exists. exists r. split; [exact IN|]. lia.
    + apply newest_none in E. destruct (existsb _ _) eqn:X; [|reflexivity].
      apply existsb_exists in X. destruct X as (r & IN & P).
      assert (F : In r (filter (fun r => (a =? r_key r) && (r_block r <=? n - 1)) (d_classes d))).
      { apply filter_In. split; [exact IN|]. lia. }
      rewrite E in F. destruct F.
Qed.

Lemma read_rows_spec low d c n b x y z :
  inv low d c -> block_at c n = Some b -> low <= n -> (n = 0 \/ low <= n - 1) ->
  let u := read_rows d n x y z in
  (forall a, cu_nonce (contract_of (su_contracts u) a) = writes_nonce b a) /\
  (forall a k, is_system a = false -> nget k (cu_storage (contract_of (su_contracts u) a)) = writes_storage b (a, k)) /\
  (forall a k, slot_of (su_system u) a k = if is_system a then writes_storage b (a, k) else None) /\
  (forall a, cu_class (contract_of (su_contracts u) a)
             = option_map (if deployed_before c n a then Replace else Deploy) (writes_class b a)) /\
  (forall a, is_system a = true -> contract_of (su_contracts u) a = contract_default).
Proof.
  intros I B L L1 u. pose proof (block_at_lt _ _ _ B) as U.
  destruct (rows_at writes_nonce (d_nonces d) low c n b (i_nonces _ _ _ I) L B) as [RN FN].
  destruct (rows_at writes_storage (d_storage d) low c n b (i_storage _ _ _ I) L B) as [RS FS].
  destruct (rows_at writes_class (d_classes d) low c n b (i_classes _ _ _ I) L B) as [RC FC].
  set (rn := filter (fun r : row N N => r_block r =? n) (d_nonces d)) in *.
  set (rs := filter (fun r : row (N * N) N => r_block r =? n) (d_storage d)) in *.
  set (rc := filter (fun r : row N N => r_block r =? n) (d_classes d)) in *.
  set (m1 := fold_left with_nonce rn []).
  set (m2 := fold_left with_storage rs (m1, [])).
  set (g := fun r : row N N => existsb (fun r' : row N N => (r_key r' =? r_key r) && (r_block r' <? n)) (d_classes d)).
  set (m3 := fold_left (fun m r => with_class (g r) m r) rc (fst m2)).
  assert (EU : su_contracts u = m3) by reflexivity.
  assert (ES : su_system u = snd m2) by reflexivity.
  rewrite EU, ES. clear EU ES u.
  assert (G : forall r r' : row N N, r_key r = r_key r' -> g r = g r') by (intros r r' E; unfold g; rewrite E; reflexivity).
  assert (CW : forall a v, writes_class b a = Some v -> In (Row n a v) rc) by (intros a v W; apply RC; auto).
  assert (NW : forall a v, writes_nonce b a = Some v -> In (Row n a v) rn) by (intros a v W; apply RN; auto).
  assert (SW : forall a k v, writes_storage b (a, k) = Some v -> In (Row n (a, k) v) rs) by (intros a k v W; apply RS; auto).
  assert (NN : forall a, cu_nonce (contract_of m1 a) = writes_nonce b a).
  { intros a. destruct (nonces_fold rn [] a FN) as (A1 & A2 & _). fold m1 in A1, A2.
    destruct (writes_nonce b a) as [v|] eqn:W; [exact (A1 _ (NW _ _ W) eq_refl)|].
    rewrite A2; [reflexivity|]. intros r R E. apply RN in R. destruct R as [_ R]. rewrite E in R. congruence. }
  assert (M1S : forall a, cu_storage (contract_of m1 a) = [] /\ cu_class (contract_of m1 a) = None).
  { intros a. destruct (nonces_fold rn [] a FN) as (_ & _ & A3 & A4). fold m1 in A3, A4. rewrite A3, A4. auto. }
  split; [|split; [|split; [|split]]].
  - intros a. destruct (class_fold g rc (fst m2) a FC G) as (_ & _ & _ & C4). fold m3 in C4. rewrite C4.
    destruct (storage_fold rs (m1, []) a 0 FS) as (_ & _ & _ & _ & B5 & _). fold m2 in B5. rewrite B5. apply NN.
  - intros a k NS. destruct (class_fold g rc (fst m2) a FC G) as (_ & _ & C3 & _). fold m3 in C3. rewrite C3.
    destruct (storage_fold rs (m1, []) a k FS) as (B1 & _). fold m2 in B1. destruct (B1 NS) as [B1a B1b].
    destruct (writes_storage b (a, k)) as [v|] eqn:W; [exact (B1a _ (SW _ _ _ W) eq_refl)|].
    rewrite B1b; [cbn [fst]; rewrite (proj1 (M1S a)); reflexivity|].
    intros r R E. apply RS in R. destruct R as [_ R]. rewrite E in R. congruence.
  - intros a k. destruct (storage_fold rs (m1, []) a k FS) as (_ & B2 & B3 & _). fold m2 in B2, B3.
    destruct (is_system a) eqn:SY; [|rewrite B3 by reflexivity; reflexivity]. destruct (B2 eq_refl) as [B2a B2b].
    destruct (writes_storage b (a, k)) as [v|] eqn:W; [exact (B2a _ (SW _ _ _ W) eq_refl)|].
    rewrite B2b; [reflexivity|]. intros r R E. apply RS in R. destruct R as [_ R]. rewrite E in R. congruence.
  - intros a. destruct (class_fold g rc (fst m2) a FC G) as (C1 & C2 & _). fold m3 in C1, C2.
    destruct (writes_class b a) as [v|] eqn:W.
    + rewrite (C1 _ (CW _ _ W) eq_refl). cbn [r_val option_map]. unfold g. cbn [r_key].
      rewrite (earlier_row low d c n a I U L1). destruct (deployed_before c n a); reflexivity.
    + rewrite C2.
      * destruct (storage_fold rs (m1, []) a 0 FS) as (_ & _ & _ & _ & _ & B6). fold m2 in B6. rewrite B6.
        cbn [fst]. rewrite (proj2 (M1S a)). reflexivity.
      * intros r R E. apply RC in R. destruct R as [_ R]. rewrite E in R. congruence.
  - intros a SY.
    assert (NC : nget a (sd_contracts (lb_data b)) = None).
    { destruct (nget a (sd_contracts (lb_data b))) as [v|] eqn:X; [|reflexivity]. apply nget_in in X.
      destruct (i_wf _ _ _ I n b B) as (_ & _ & _ & _ & W & _). destruct (W a v X). congruence. }
    assert (E3 : contract_of m3 a = contract_of (fst m2) a).
    { assert (NR : forall r, In r rc -> r_key r <> a).
      { intros r R E. apply RC in R. destruct R as [_ R]. unfold writes_class in R. rewrite E, NC in R. discriminate. }
      destruct (class_fold g rc (fst m2) a FC G) as (_ & C2 & C3 & C4). fold m3 in C2, C3, C4.
      specialize (C2 NR). destruct (contract_of m3 a), (contract_of (fst m2) a). cbn in *. congruence. }
    rewrite E3. destruct (storage_fold rs (m1, []) a 0 FS) as (_ & _ & _ & B4 & _). fold m2 in B4. rewrite (B4 SY).
    cbn [fst]. destruct (nonces_fold rn [] a FN) as (_ & A2 & A3 & A4). fold m1 in A2, A3, A4.
    assert (NR : forall r, In r rn -> r_key r <> a).
    { intros r R E. apply RN in R. destruct R as [_ R]. unfold writes_nonce in R. rewrite E, NC in R. discriminate. }
    specialize (A2 NR). change (contract_of [] a) with contract_default in A2, A3, A4.
    destruct (contract_of m1 a). cbn in A2, A3, A4. unfold contract_default. congruence.
Qed.

Lemma system_not_contract low d c n b a :
  inv low d c -> block_at c n = Some b -> is_system a = true -> nget a (sd_contracts (lb_data b)) = None.
Proof.
  intros I B SY. destruct (nget a (sd_contracts (lb_data b))) as [v|] eqn:X; [|reflexivity]. apply nget_in in X.
  destruct (i_wf _ _ _ I n b B) as (_ & _ & _ & _ & W & _). destruct (W a v X). congruence.
Qed.
Lemma contract_not_system low d c n b a :
  inv low d c -> block_at c n = Some b -> is_system a = false -> nget a (sd_system (lb_data b)) = None.
Proof.
  intros I B SY. destruct (nget a (sd_system (lb_data b))) as [v|] eqn:X; [|reflexivity]. apply nget_in in X.
  destruct (i_wf _ _ _ I n b B) as (_ & _ & _ & _ & _ & W). destruct (W a v X). congruence.
Qed.

Lemma read_rows_back low d c n b z :
  inv low d c -> block_at c n = Some b -> low <= n -> (n = 0 \/ low <= n - 1) -> proper_classes c n b ->
  reads_back b (read_rows d n (lb_hash b) (lb_commitment b) z).
Proof.
  intros I B L L1 PC.
  destruct (read_rows_spec low d c n b (lb_hash b) (lb_commitment b) z I B L L1) as (R1 & R2 & R3 & R4 & R5).
  set (u := read_rows d n (lb_hash b) (lb_commitment b) z) in *. unfold reads_back.
  split; [reflexivity|]. split; [reflexivity|].
  intros a. split; [|split; [|split]].
  - rewrite R1. unfold writes_nonce, contract_of. destruct (nget a (sd_contracts (lb_data b))); reflexivity.
  - rewrite R4. unfold writes_class. specialize (PC a). unfold contract_of.
    destruct (nget a (sd_contracts (lb_data b))) as [x|]; [|reflexivity]. specialize (PC x eq_refl).
    destruct (cu_class x) as [[h|h]|]; [rewrite PC; reflexivity|rewrite PC; reflexivity|reflexivity].
  - intros k. destruct (is_system a) eqn:SY.
    + rewrite (R5 a SY). unfold contract_of. rewrite (system_not_contract low d c n b a I B SY). reflexivity.
    + rewrite (R2 a k SY). unfold writes_storage. rewrite SY. unfold contract_of.
      destruct (nget a (sd_contracts (lb_data b))); reflexivity.
  - intros k. rewrite R3. unfold writes_storage, slot_of. destruct (is_system a) eqn:SY; [reflexivity|].
    rewrite (contract_not_system low d c n b a I B SY). reflexivity.
Qed.

(* the three ways to name a block *)
Lemma find_header_number low d c n b :
  inv low d c -> low <= n -> block_at c n = Some b ->
  find_header d (Number n) = Some (Header n (lb_hash b) (lb_parent b) (lb_commitment b)).
Proof. intros I L B. cbn. eapply heads_at; eauto. apply I. Qed.
Lemma find_header_hash low d c n b :
  inv low d c -> low <= n -> block_at c n = Some b ->
  find_header d (Hash (lb_hash b)) = Some (Header n (lb_hash b) (lb_parent b) (lb_commitment b)).
Proof. intros I L B. cbn. eapply heads_hash; eauto. apply I. Qed.
Lemma find_header_latest low d c b :
  inv low d c -> block_at c (clen c - 1) = Some b ->
  find_header d Latest = Some (Header (clen c - 1) (lb_hash b) (lb_parent b) (lb_commitment b)).
Proof.
  intros I B. cbn. pose proof (heads_latest d low c (i_heads _ _ _ I) (i_low _ _ _ I)) as H.
  destruct (top_header (d_headers d)) as [h|].
  - destruct H as (_ & E & IN). apply (i_heads _ _ _ I) in IN. destruct IN as (_ & b' & B' & E1 & E2 & E3).
    rewrite E in B'. destruct h as [hn hh hp hc]. cbn in *. congruence.
  - subst c. discriminate.
Qed.

Lemma read_at low d c n b id :
  inv low d c -> low <= n -> block_at c n = Some b ->
  find_header d id = Some (Header n (lb_hash b) (lb_parent b) (lb_commitment b)) ->
  if (n =? 0) || (low <=? n - 1)
  then read_state_update d id = ReadUpdate (read_rows d n (lb_hash b) (lb_commitment b) (parent_commitment c n)) /\
       rpc_state_update d id = Some (ReadUpdate (read_rows d n (lb_hash b) (lb_commitment b) (parent_commitment c n)))
  else read_state_update d id = ReadPanic /\ rpc_state_update d id = None.
Proof.
  intros I L B F. pose proof (block_at_lt _ _ _ B) as U.
  unfold rpc_state_update, read_state_update, parent_commitment. rewrite F. cbn [h_number h_hash h_commitment].
  destruct (N.eqb_spec n 0) as [->|NZ]; cbn [orb]; [auto|].
  destruct (N.leb_spec low (n - 1)) as [LE|GT].
  - destruct (block_at c (n - 1)) as [p|] eqn:P; [|exfalso; unfold block_at in P; apply nth_error_None in P; unfold clen in U; lia].
    rewrite (heads_at d low c (n - 1) p (i_heads _ _ _ I) LE P). cbn [h_commitment].
    assert (K : block_exists d (n - 1) = true) by (apply (heads_exists d low c (n - 1) (i_heads _ _ _ I)); lia).
    rewrite K. auto.
  - rewrite (heads_at_none d low c (n - 1) (i_heads _ _ _ I) (or_introl GT)).
    assert (K : block_exists d (n - 1) = false).
    { destruct (block_exists d (n - 1)) eqn:K; [|reflexivity].
      apply (heads_exists d low c (n - 1) (i_heads _ _ _ I)) in K. lia. }
    rewrite K. auto.
Qed.
