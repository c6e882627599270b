(** Proofs about starknet_getStorageProof: the tables hold what the state has. *)
From Coq Require Import List Bool Arith NArith Lia.
From Verif Require Import AList MerkleModel MerkleSpec MerkleProof TrieDbProof VersionModel
  CommitModel MerkleMemberProof StateRootModel StateRootSpec StateRootProof StateRootRun StateRootBind
  StorageProofModel StorageProofSpec StorageProofProof StorageProofRun.
Import ListNotations.

Lemma rows_of_map {A} n k (m : list (bits * A)) : NoDup (keys m) ->
  of_contract k (map (fun kv => (n, kv)) m) =
  match al_get bits_eqb k m with Some x => [(n, x)] | None => [] end.
Proof.
  induction m as [|[k' x] m IH]; intros ND; auto. inversion ND as [|? ? Nin ND']; subst.
  cbn [map]. unfold of_contract. cbn [flat_map fst snd]. fold (of_contract k (map (fun kv => (n, kv)) m)).
  rewrite IH by auto. rewrite get_cons. destruct (bits_eqb_spec k k') as [->|N]; auto.
  rewrite (al_not_in_get_none _ bits_eqb_spec k' m) by auto. reflexivity.
Qed.

Lemma puts_get k s : NoDup (keys s) -> forall m : contents,
  puts m s k = match al_get bits_eqb k s with Some x => x | None => m k end.
Proof.
  induction s as [|[k' x] s IH]; intros ND m; auto. inversion ND as [|? ? Nin ND']; subst.
  cbn [puts fold_left fst snd]. change (fold_left _ s (put m k' x)) with (puts (put m k' x) s).
  rewrite IH by auto. rewrite get_cons. unfold put. destruct (bits_eqb_spec k k') as [->|N]; auto.
  now rewrite (al_not_in_get_none _ bits_eqb_spec k' s) by auto.
Qed.

Lemma rows_of_slots {A} (f : A -> list (bits * felt)) n a (m : list (bits * A)) : NoDup (keys m) ->
  of_contract a (flat_map (fun c => storage_rows n (fst c) (f (snd c))) m) =
  match al_get bits_eqb a m with Some c => map (fun kv => (n, kv)) (f c) | None => [] end.
Proof.
  assert (One : forall a' s, of_contract a (storage_rows n a' s) =
    if bits_eqb a a' then map (fun kv : bits * felt => (n, kv)) s else []).
  { intros a' s. induction s as [|kv s IH]; cbn [storage_rows map].
    - now destruct (bits_eqb a a').
    - unfold of_contract. cbn [flat_map fst snd]. change (flat_map _ _) with (of_contract a (storage_rows n a' s)).
      rewrite IH. destruct (bits_eqb a a'); reflexivity. }
  induction m as [|[a' c] m IH]; intros ND; auto. inversion ND as [|? ? Nin ND']; subst.
  cbn [flat_map fst snd]. rewrite of_contract_app, One, IH, get_cons by auto.
  destruct (bits_eqb_spec a a') as [->|N]; auto.
  rewrite (al_not_in_get_none _ bits_eqb_spec a' m) by auto. apply app_nil_r.
Qed.

(** The rows insert_state_update_data writes. *)
Definition shows_data (v : leaves) (n : nat) (w : world) : Prop :=
  bounded n (v_casms v) /\ bounded n (v_storage v) /\
  forall b, n <= S b ->
    (forall k, casm_at v b k = w_casm w k) /\
    (forall a k, or_zero (storage_value_at v b a k) = w_storage w a k).

Lemma data_step HEIGHT v n w u : well_formed HEIGHT u -> from_maps u -> shows_data v n w ->
  shows_data (add_data v n u) (S n) (apply_update w u).
Proof.
  intros W (M1 & M2 & M3) (B1 & B2 & R).
  assert (W1 : NoDup (keys (u_contracts u))) by apply W.
  assert (W2 : NoDup (keys (u_system u))) by apply W.
  assert (W3 : NoDup (keys (u_declared u))) by apply W.
  assert (W4 : NoDup (keys (u_migrated u))) by apply W.
  assert (Casm : forall k, of_contract k (casm_rows n u) =
    match al_get bits_eqb k (u_migrated u) with
    | Some x => [(n, x)]
    | None => match al_get bits_eqb k (u_declared u) with Some x => [(n, x)] | None => [] end
    end).
  { intros k. unfold casm_rows.
    assert (Ef : filter (fun kv => negb (existsb (fun kv' => bits_eqb (fst kv) (fst kv')) (u_declared u))) (u_migrated u)
                 = u_migrated u).
    { assert (G : forall l, (forall kv : bits * felt, In kv l -> In (fst kv) (keys (u_migrated u))) ->
        filter (fun kv => negb (existsb (fun kv' => bits_eqb (fst kv) (fst kv')) (u_declared u))) l = l).
      { induction l as [|kv l IH]; intros Hl; auto. cbn [filter].
        assert (E : existsb (fun kv' => bits_eqb (fst kv) (fst kv')) (u_declared u) = false).
        { destruct (existsb _ _) eqn:E; auto. exfalso. apply existsb_exists in E. destruct E as (kv' & I & E).
          destruct (bits_eqb_spec (fst kv) (fst kv')) as [Eq|]; [|discriminate].
          apply (M3 (fst kv)); [rewrite Eq; now apply in_map|]. apply Hl. now left. }
        rewrite E. cbn [negb]. f_equal. apply IH. intros; apply Hl; now right. }
      apply G. intros kv Hkv. now apply in_map. }
    rewrite Ef, map_app, of_contract_app, !rows_of_map by auto.
    destruct (al_get bits_eqb k (u_declared u)) as [x|] eqn:G1; destruct (al_get bits_eqb k (u_migrated u)) as [y|] eqn:G2; auto.
    exfalso. apply (M3 k); eapply al_get_key; eauto. }
  assert (Excl : forall a c s, contract_of u a = Some c -> system_of u a = Some s -> False).
  { intros a c s G1 G2. apply (al_get_in _ bits_eqb_spec) in G1. apply (al_get_in _ bits_eqb_spec) in G2.
    assert (is_system a = false) by (eapply W; eauto). assert (is_system a = true) by (eapply W; eauto). congruence. }
  split; [|split].
  - intros r Hr. cbn in Hr. apply in_app_iff in Hr. destruct Hr as [Hr|Hr].
    + unfold casm_rows in Hr. apply in_map_iff in Hr. destruct Hr as (y & <- & _). cbn. lia.
    + apply B1 in Hr. lia.
  - intros r Hr. cbn [add_data v_storage] in Hr. rewrite app_assoc in Hr. apply in_app_iff in Hr. destruct Hr as [Hr|Hr].
    + apply in_app_iff in Hr. destruct Hr as [Hr|Hr]; apply in_flat_map in Hr; destruct Hr as (c & _ & Hr);
        unfold storage_rows in Hr; apply in_map_iff in Hr; destruct Hr as (y & <- & _); cbn; lia.
    + apply B2 in Hr. lia.
  - intros b Lb. destruct (R b ltac:(lia)) as [RC RS]. split.
    + intros k. unfold casm_at in *. cbn [add_data v_casms]. rewrite of_contract_app, Casm.
      unfold apply_update. cbn [w_casm]. specialize (RC k).
      assert (Bk : bounded (S n) (of_contract k (v_casms v))) by (apply bounded_of; eapply bounded_mono; [exact B1|lia]).
      destruct (al_get bits_eqb k (u_migrated u)) as [x|]; [cbn [app]; rewrite newest_top; auto; lia|].
      destruct (al_get bits_eqb k (u_declared u)) as [x|]; [cbn [app]; rewrite newest_top; auto; lia|exact RC].
    + intros a k. specialize (RS a k). unfold storage_value_at in *. cbn [add_data v_storage].
      rewrite !of_contract_app.
      rewrite (rows_of_slots c_storage n a (u_contracts u) W1).
      rewrite (rows_of_slots (fun s => s) n a (u_system u) W2).
      assert (Bk : bounded (S n) (of_contract k (of_contract a (v_storage v)))).
      { apply bounded_of. apply bounded_of. eapply bounded_mono; [exact B2|lia]. }
      assert (Slot : forall s, NoDup (keys s) ->
        or_zero (found (newest b (of_contract k (map (fun kv => (n, kv)) s) ++ of_contract k (of_contract a (v_storage v))))) =
        puts (w_storage w a) s k).
      { intros s ND. rewrite rows_of_map, puts_get by auto.
        destruct (al_get bits_eqb k s) as [x|]; [|exact RS]. cbn [app]. rewrite newest_top; auto. lia. }
      unfold apply_update. cbn [w_storage]. pose proof (Excl a) as Ex. unfold contract_of, system_of in *.
      destruct (al_get bits_eqb a (u_contracts u)) as [c|] eqn:G1; destruct (al_get bits_eqb a (u_system u)) as [s|] eqn:G2.
      * exfalso. eapply Ex; eauto.
      * change (of_contract k (@nil (nat * (bits * felt)))) with (@nil (nat * felt)). cbn [app]. rewrite Slot; auto.
        apply (al_get_in _ bits_eqb_spec) in G1. eapply M1; eauto.
      * change (of_contract k (@nil (nat * (bits * felt)))) with (@nil (nat * felt)). cbn [app]. rewrite Slot; auto.
        apply (al_get_in _ bits_eqb_spec) in G2. eapply M2; eauto.
      * exact RS.
Qed.

Lemma data_all HEIGHT us : Forall (well_formed HEIGHT) us -> Forall from_maps us -> forall v n w, shows_data v n w ->
  shows_data (add_all v n us) (n + length us) (apply_updates w us).
Proof.
  induction 1 as [|u us Wu W IH]; intros M v n w R.
  - cbn. now rewrite Nat.add_0_r.
  - inversion M; subst. cbn [add_all length apply_updates fold_left].
    replace (n + S (length us)) with (S n + length us) by lia. apply IH; auto. eapply data_step; eauto.
Qed.

Section Inv.
  Variable HEIGHT : nat.
  Variable hs : hashes.

  (** The rows update_starknet_state writes. *)
  Definition shows_leaves (v : leaves) (n : nat) (w : world) : Prop :=
    bounded n (v_hashes v) /\
    (forall b, n <= S b -> forall a, length a = HEIGHT ->
       or_zero (state_hash_at v b a) = state_contents HEIGHT hs w a) /\
    (forall m c x, In (m, (c, x)) (v_class_leaves v) -> m < n /\ x = class_leaf_hash hs c) /\
    (forall k c, w_casm w k = Some c -> exists m x, In (m, (c, x)) (v_class_leaves v)).

  Lemma hashes_read b tail (f : bits -> felt) a named rows : bounded (S tail) rows -> tail <= b ->
    newest b (of_contract a (map (fun a => (tail, (a, f a))) named ++ rows)) =
    if existsb (bits_eqb a) named then Some (tail, f a) else newest b (of_contract a rows).
  Proof.
    intros B L. induction named as [|x named IH]; auto. cbn [map app existsb].
    unfold of_contract. cbn [flat_map fst snd]. fold (of_contract a (map (fun a => (tail, (a, f a))) named ++ rows)).
    destruct (bits_eqb_spec a x) as [->|N]; [|exact IH].
    cbn [app]. apply newest_top; auto. apply bounded_of. intros r Hr. apply in_app_iff in Hr. destruct Hr as [Hr|Hr].
    - apply in_map_iff in Hr. destruct Hr as (y & <- & _). cbn. lia.
    - now apply B.
  Qed.

  Lemma leaves_step v n w d tail u w' : shows_leaves v n w -> n <= tail ->
    shows_trees HEIGHT hs d (S tail) w' -> weq (apply_update w u) w' ->
    shows_leaves (add_trees hs v d tail u) (S tail) w'.
  Proof.
    intros (B1 & R1 & R2 & R3) L (_ & _ & _ & T) E.
    assert (Ef : forall named, filter (fun r => negb ((fst r =? tail) && existsb (bits_eqb (fst (snd r))) named)) (v_hashes v)
                  = v_hashes v).
    { intros named. clear - B1 L. revert B1. generalize (v_hashes v) as rows.
      induction rows as [|r rows IH]; intros B; auto. cbn [filter].
      assert (X : (fst r =? tail) = false) by (apply Nat.eqb_neq; specialize (B r (or_introl eq_refl)); lia).
      rewrite X. cbn [andb negb]. f_equal. apply IH. intros y Hy. apply B. now right. }
    unfold add_trees, shows_leaves. cbn [v_hashes v_casms v_class_leaves v_storage]. rewrite Ef.
    split; [|split; [|split]].
    - intros r Hr. apply in_app_iff in Hr. destruct Hr as [Hr|Hr].
      + apply in_map_iff in Hr. destruct Hr as (y & <- & _). cbn. lia.
      + apply B1 in Hr. lia.
    - intros b Lb a La. unfold state_hash_at. cbn [v_hashes].
      set (tree := match storage_root_at d tail with Some t => t | None => no_contents end).
      rewrite (hashes_read b tail tree); [|eapply bounded_mono; [exact B1|lia]|lia].
      destruct (existsb (bits_eqb a) (map fst (u_contracts u) ++ map fst (u_system u))) eqn:X.
      + cbn [found or_zero]. destruct (T tail ltac:(lia)) as (T1 & _). now apply T1.
      + rewrite <- (state_contents_weq HEIGHT hs _ _ _ E).
        assert (Nin : ~ In a (keys (u_contracts u)) /\ ~ In a (keys (u_system u))).
        { rewrite existsb_app in X. apply orb_false_iff in X. destruct X as [X1 X2].
          assert (Ex : forall l, In a l -> existsb (bits_eqb a) l = true)
            by (intros l I; apply existsb_exists; exists a; split; [exact I|apply bits_eqb_refl]).
          split; intros I; apply Ex in I; unfold keys in I; congruence. }
        destruct Nin as [N1 N2].
        assert (G1 : contract_of u a = None) by (apply (al_not_in_get_none _ bits_eqb_spec); auto).
        assert (G2 : system_of u a = None) by (apply (al_not_in_get_none _ bits_eqb_spec); auto).
        assert (Same : state_contents HEIGHT hs (apply_update w u) a = state_contents HEIGHT hs w a).
        { unfold state_contents, storage_root, apply_update. cbn [w_class w_nonce w_storage w_system].
          now rewrite G1, G2. }
        rewrite Same. apply R1; auto. lia.
    - intros m c x Hin. apply in_app_iff in Hin. destruct Hin as [Hin|Hin].
      + apply in_map_iff in Hin. destruct Hin as (y & Ey & _). injection Ey as <- <- <-. split; [lia|auto].
      + apply R2 in Hin. destruct Hin. split; [lia|auto].
    - intros k c G. destruct E as (_ & _ & _ & _ & E). rewrite <- E in G. unfold apply_update in G. cbn [w_casm] in G.
      destruct (al_get bits_eqb k (u_migrated u)) as [x|] eqn:G1; [|destruct (al_get bits_eqb k (u_declared u)) as [x|] eqn:G2].
      + injection G as ->. exists tail, (class_leaf_hash hs c). apply in_app_iff. left. apply in_map_iff.
        exists (k, c). split; auto. apply in_app_iff. right. now apply (al_get_in _ bits_eqb_spec).
      + injection G as ->. exists tail, (class_leaf_hash hs c). apply in_app_iff. left. apply in_map_iff.
        exists (k, c). split; auto. apply in_app_iff. left. now apply (al_get_in _ bits_eqb_spec).
      + destruct (R3 k c G) as (m & x & Hx). exists m, x. apply in_app_iff. now right.
  Qed.

  Definition VInv (v : leaves) (n : nat) (w : world) : Prop := shows_data v n w /\ shows_leaves v n w.

  Lemma vinv_empty : VInv no_leaves 0 genesis.
  Proof.
    assert (B : forall A n, @bounded A n []) by (intros A n r []).
    split.
    - split; [apply B|]. split; [apply B|]. intros b _. split; reflexivity.
    - split; [apply B|]. split; [|split].
      + intros b _ a La. unfold state_contents. cbn. now destruct (is_system a).
      + intros m c x [].
      + intros k c G. discriminate.
  Qed.

  Lemma arrive_accepted d n w s d' c :
    Inv HEIGHT hs d n w -> no_system_nonce w -> Forall (well_formed HEIGHT) (blocks_of s) -> plain_batch s ->
    arrive HEIGHT hs d n s = Some (d', c) ->
    c = state_commitment HEIGHT hs (apply_updates w (blocks_of s)) (version_of s) /\
    Inv HEIGHT hs d' (n + length (blocks_of s)) (apply_updates w (blocks_of s)).
  Proof.
    intros I Z F P G. destruct (arrive_spec HEIGHT hs d n w s I Z F P) as [A1 A2].
    assert (As : acceptable HEIGHT hs w s).
    { assert (NN : ~ ~ acceptable HEIGHT hs w s) by (intros X; apply A2 in X; congruence).
      unfold acceptable in *.
      assert (D : deployed w (blocks_of s)).
      { intros u a Hu Ha E. apply NN. intros [D _]. now apply (D u a Hu Ha). }
      split; auto. destruct (expected_of s) as [e|]; auto.
      destruct (N.eq_dec e (state_commitment HEIGHT hs (apply_updates w (blocks_of s)) (version_of s))); auto.
      exfalso. apply NN. intros [_ E]. contradiction. }
    destruct (A1 As) as (d2 & G2 & I2). rewrite G in G2. injection G2 as -> ->. auto.
  Qed.

  Lemma whole_weq w s : Forall (well_formed HEIGHT) (blocks_of s) -> plain_batch s ->
    weq (apply_update w (whole_update s)) (apply_updates w (blocks_of s)).
  Proof.
    intros F P. destruct s as [u v e|u v e|us v e]; cbn [whole_update blocks_of] in *; try apply weq_refl.
    destruct P as [_ P].
    assert (W0 : well_formed HEIGHT (mkUpdate [] [] [] [])).
    { repeat split; try constructor; try (intros ? []); try (intros; contradiction). all: cbn in *; contradiction. }
    destruct (merge_all HEIGHT us (mkUpdate [] [] [] []) W0 eq_refl F P) as (_ & A & _).
    unfold merge_state_updates. eapply weq_trans; [apply A|]. apply apply_updates_weq. repeat split.
  Qed.

  Lemma full_inv l : forall d v n w d' v', Inv HEIGHT hs d n w -> VInv v n w -> no_system_nonce w ->
    Forall (well_formed HEIGHT) (all_blocks l) -> Forall from_maps (all_blocks l) -> (forall s, In s l -> plain_batch s) ->
    full_node HEIGHT hs d v n l = Some (d', v') ->
    Inv HEIGHT hs d' (n + length (all_blocks l)) (apply_updates w (all_blocks l)) /\
    VInv v' (n + length (all_blocks l)) (apply_updates w (all_blocks l)).
  Proof.
    induction l as [|s l IH]; intros d v n w d' v' I [V1 V2] Z F M P; cbn [full_node].
    - intros [= <- <-]. cbn. rewrite Nat.add_0_r. split; auto. split; auto.
    - cbn [all_blocks flat_map] in *. apply Forall_app in F. destruct F as [F1 F2].
      apply Forall_app in M. destruct M as [M1 M2].
      unfold full_arrive. destruct (arrive HEIGHT hs d n s) as [[d1 c]|] eqn:G; [|discriminate]. intros G2.
      assert (Ps : plain_batch s) by (apply P; now left).
      destruct (arrive_accepted d n w s d1 c I Z F1 Ps G) as [_ I1].
      pose proof (nonempty_blocks s Ps) as Lb.
      pose proof (no_system_nonce_updates HEIGHT w _ F1 Z) as Z'.
      assert (V' : VInv (add_trees hs (add_all v n (blocks_of s)) d1 (n + length (blocks_of s) - 1) (whole_update s))
                        (n + length (blocks_of s)) (apply_updates w (blocks_of s))).
      { split.
        - exact (data_all HEIGHT _ F1 M1 _ _ _ V1).
        - replace (n + length (blocks_of s)) with (S (n + length (blocks_of s) - 1)) at 2 by lia.
          apply (leaves_step _ n w); auto; try lia.
          + assert (Eh : forall us v n, v_hashes (add_all v n us) = v_hashes v /\ v_class_leaves (add_all v n us) = v_class_leaves v).
            { induction us as [|u us IHu]; intros v0 n0; auto. cbn [add_all]. exact (IHu (add_data v0 n0 u) (S n0)). }
            destruct (Eh (blocks_of s) v n) as [E1 E2]. destruct V2 as (Y1 & Y2 & Y3 & Y4).
            unfold shows_leaves, state_hash_at in *. rewrite E1, E2. auto.
          + replace (S (n + length (blocks_of s) - 1)) with (n + length (blocks_of s)) by lia. apply I1.
          + now apply whole_weq. }
      destruct (IH d1 _ _ _ _ _ I1 V' Z' F2 M2 (fun s' Hs => P s' (or_intror Hs)) G2) as [A B].
      rewrite app_length, Nat.add_assoc, apply_updates_app. auto.
  Qed.

  Lemma inv_reads d v b w : Inv HEIGHT hs d (S b) w -> VInv v (S b) w -> reads HEIGHT hs d v b w.
  Proof.
    intros ((_ & _ & _ & T) & (_ & _ & R) & _) ((_ & _ & D) & (_ & L1 & L2 & L3)).
    destruct (T b ltac:(lia)) as (T1 & T2 & T3). destruct (D b ltac:(lia)) as (D1 & D2).
    assert (OZ : forall (x : option felt) (y : felt), or_zero x = y -> y <> 0%N -> x = Some y).
    { intros [x|] y; cbn; congruence. }
    unfold reads. split; auto. split; auto. split; auto. split; [|split; [|split]].
    - intros a. exact (R b ltac:(lia) a).
    - intros k Lk N. apply OZ; auto.
    - intros k Lk N. unfold class_leaf. rewrite D1. unfold class_contents in *.
      destruct (w_casm w k) as [c|] eqn:G; [|congruence]. destruct (L3 k c G) as (m & x & Hx).
      unfold class_leaf_at.
      destruct (find (fun r => (fst (snd r) =? c)%N && (fst r <=? b)) (v_class_leaves v)) as [[m' [c' x']]|] eqn:Fd.
      + apply find_some in Fd. destruct Fd as [I E]. cbn [fst snd] in *. apply andb_prop in E. destruct E as [E _].
        apply N.eqb_eq in E. destruct (L2 _ _ _ I) as [_ ->]. now rewrite E.
      + exfalso. assert (X := find_none _ _ Fd _ Hx). cbn [fst snd] in X. rewrite N.eqb_refl in X. cbn [andb] in X.
        apply Nat.leb_gt in X. destruct (L2 _ _ _ Hx). lia.
    - intros a La k Lk N. apply OZ; auto.
  Qed.
End Inv.
