(** Proofs about starknet_getStorageProof: the tables of a node. *)
From Coq Require Import List Bool Arith NArith Lia.
From Verif Require Import AList MerkleModel MerkleSpec MerkleProof TrieDbProof VersionModel
  CommitModel MerkleMemberProof StateRootModel StateRootSpec StateRootProof StateRootRun StateRootBind
  StorageProofModel StorageProofSpec StorageProofProof.
Import ListNotations.

(** ** What is below a block stays *)

Definition below {A} (n : nat) (rows : list (nat * A)) := filter (fun r => fst r <? n) rows.

Lemma newest_below {A} b n (rows : list (nat * A)) : b < n -> newest b (below n rows) = newest b rows.
Proof.
  intros L. induction rows as [|[m x] rows IH]; auto. cbn [below filter fst].
  destruct (Nat.ltb_spec m n) as [Lt|Ge].
  - cbn [newest]. unfold below in IH. now rewrite IH.
  - change (filter (fun r => fst r <? n) rows) with (below n rows). rewrite IH. cbn [newest].
    assert (E : (m <=? b) = false) by (apply Nat.leb_gt; lia). rewrite E. cbn [andb].
    now destruct (newest b rows) as [[? ?]|].
Qed.

Lemma of_contract_below {A} n a (rows : list (nat * (bits * A))) :
  of_contract a (below n rows) = below n (of_contract a rows).
Proof.
  induction rows as [|[m [k x]] rows IH]; auto.
  cbn [below filter fst]. unfold of_contract at 2. cbn [flat_map fst snd].
  change (flat_map _ rows) with (of_contract a rows).
  destruct (m <? n) eqn:E.
  - unfold of_contract at 1. cbn [flat_map fst snd]. change (flat_map _ (filter _ rows)) with (of_contract a (below n rows)).
    rewrite IH. destruct (bits_eqb a k); cbn [app]; auto. unfold below at 2. cbn [filter fst]. now rewrite E.
  - change (filter (fun r => fst r <? n) rows) with (below n rows). rewrite IH.
    destruct (bits_eqb a k); cbn [app]; auto. unfold below at 2. cbn [filter fst]. now rewrite E.
Qed.

Lemma below_above {A} n (r rows : list (nat * A)) : (forall x, In x r -> n <= fst x) -> below n (r ++ rows) = below n rows.
Proof.
  intros Ab. induction r as [|x r IH]; auto. cbn [app]. unfold below. cbn [filter].
  assert (E : (fst x <? n) = false) by (apply Nat.ltb_ge, Ab; now left). rewrite E.
  apply IH. intros; apply Ab; now right.
Qed.
Lemma below_cons {A} n b (x : A) rows : n <= b -> below n ((b, x) :: rows) = below n rows.
Proof. intros L. apply (below_above n [(b, x)]). intros y [<-|[]]. exact L. Qed.
Lemma below_filter {A} n f (rows : list (nat * A)) : (forall r, fst r < n -> f r = true) ->
  below n (filter f rows) = below n rows.
Proof.
  intros Hf. induction rows as [|x rows IH]; auto. cbn [filter]. destruct (f x) eqn:E.
  - unfold below in *. cbn [filter]. now rewrite IH.
  - rewrite IH. unfold below. cbn [filter]. destruct (Nat.ltb_spec (fst x) n); auto.
    rewrite Hf in E by auto. discriminate.
Qed.

Definition stable (n : nat) (d d' : db) : Prop :=
  below n (d_contract_roots d') = below n (d_contract_roots d) /\
  below n (d_storage_roots d') = below n (d_storage_roots d) /\
  below n (d_class_roots d') = below n (d_class_roots d) /\
  below n (d_classes d') = below n (d_classes d) /\
  below n (d_nonces d') = below n (d_nonces d).

Lemma stable_refl n d : stable n d d. Proof. repeat split. Qed.
Lemma stable_trans n d1 d2 d3 : stable n d1 d2 -> stable n d2 d3 -> stable n d1 d3.
Proof. unfold stable. intuition congruence. Qed.
Lemma below_below {A} n n' (rows : list (nat * A)) : n <= n' -> below n (below n' rows) = below n rows.
Proof.
  intros L. apply below_filter. intros r Hr. apply Nat.ltb_lt. lia.
Qed.
Lemma below_less {A} n n' (r r' : list (nat * A)) : n <= n' -> below n' r' = below n' r -> below n r' = below n r.
Proof. intros L E. rewrite <- (below_below n n' r L), <- (below_below n n' r' L). now rewrite E. Qed.
Lemma stable_less n n' d d' : n <= n' -> stable n' d d' -> stable n d d'.
Proof.
  intros L (A & B & C & D & E). repeat split; eapply below_less; eauto.
Qed.

Lemma stable_contract n d b a t : n <= b -> stable n d (insert_contract_root d b a t).
Proof.
  intros L. unfold stable, insert_contract_root. cbn [d_contract_roots d_storage_roots d_class_roots d_classes d_nonces]. repeat split; auto. rewrite below_cons by auto.
  apply below_filter. intros r Hr. apply negb_true_iff. assert (E : (fst r =? b) = false) by (apply Nat.eqb_neq; lia).
  now rewrite E.
Qed.
Lemma stable_storage n d b t : n <= b -> stable n d (insert_storage_root d b t).
Proof.
  intros L. unfold stable, insert_storage_root. cbn [d_contract_roots d_storage_roots d_class_roots d_classes d_nonces]. repeat split; auto. rewrite below_cons by auto.
  apply below_filter. intros r Hr. apply negb_true_iff. apply Nat.eqb_neq; lia.
Qed.
Lemma stable_class n d b t : n <= b -> stable n d (insert_class_root d b t).
Proof.
  intros L. unfold stable, insert_class_root. cbn [d_contract_roots d_storage_roots d_class_roots d_classes d_nonces]. repeat split; auto. rewrite below_cons by auto.
  apply below_filter. intros r Hr. apply negb_true_iff. apply Nat.eqb_neq; lia.
Qed.
Lemma stable_data n d b u : n <= b -> stable n d (insert_state_update_data d b u).
Proof.
  intros L. unfold stable, insert_state_update_data. cbn [d_contract_roots d_storage_roots d_class_roots d_classes d_nonces]. repeat split; auto; apply below_above; intros x Hx.
  - apply in_flat_map in Hx. destruct Hx as (c & _ & Hx). destruct (c_class (snd c)); [|contradiction].
    destruct Hx as [<-|[]]. exact L.
  - apply in_flat_map in Hx. destruct Hx as (c & _ & Hx). destruct (c_nonce (snd c)); [|contradiction].
    destruct Hx as [<-|[]]. exact L.
Qed.
Lemma stable_insert_all n us : forall d b, n <= b -> stable n d (insert_all d b us).
Proof.
  induction us as [|u us IH]; intros d b L; [apply stable_refl|]. cbn [insert_all].
  eapply stable_trans; [apply (stable_data n d b u L)|]. apply IH. lia.
Qed.
Lemma stable_result n d b r : n <= b -> stable n d (insert_result d b r).
Proof. intros L. unfold insert_result. destruct (r_tree r); [now apply stable_contract|apply stable_refl]. Qed.

Section Run.
  Variable HEIGHT : nat.
  Variable hs : hashes.

  Lemma stable_results n b rs : n <= b -> forall d t, stable n d (fst (apply_results d b t rs)).
  Proof.
    intros L. unfold apply_results. induction rs as [|r rs IH]; intros d t; cbn [fold_left fst snd]; [apply stable_refl|].
    eapply stable_trans; [apply (stable_result n d b r L)|apply IH].
  Qed.
  Lemma stable_system n b ss : n <= b -> forall d t d' t', apply_system HEIGHT hs d b t ss = Some (d', t') -> stable n d d'.
  Proof.
    intros L. induction ss as [|[a s] ss IH]; intros d t d' t'; cbn [apply_system].
    - intros [= <- _]. apply stable_refl.
    - destruct (update_contract_state HEIGHT hs d b a s None None) as [r|]; [|discriminate]. intros E.
      eapply stable_trans; [apply (stable_result n d b r L)|]. eapply IH; eauto.
  Qed.
  Lemma stable_update n ro d b u d' x : n <= b -> update_starknet_state HEIGHT hs ro d b u = Some (d', x) -> stable n d d'.
  Proof.
    intros L. unfold update_starknet_state. destruct (contract_results HEIGHT hs ro b (u_contracts u)) as [rs|]; [|discriminate].
    pose proof (stable_results n b rs L d (at_parent b (storage_root_at d))) as S1.
    destruct (apply_results d b (at_parent b (storage_root_at d)) rs) as [d1 t1]. cbn [fst] in S1.
    destruct (apply_system HEIGHT hs d1 b t1 (u_system u)) as [[d2 t2]|] eqn:E; [|discriminate].
    pose proof (stable_system n b _ L _ _ _ _ E) as S2. intros [= <- _].
    eapply stable_trans; [exact S1|]. eapply stable_trans; [exact S2|].
    eapply stable_trans; [apply (stable_storage n d2 b t2 L)|]. now apply stable_class.
  Qed.

  Lemma stable_arrive n d s d' c : plain_batch s -> arrive HEIGHT hs d n s = Some (d', c) -> stable n d d'.
  Proof.
    intros P. destruct s as [u v e|u v e|us v e]; cbn [arrive].
    - unfold l2_update. destruct (update_starknet_state HEIGHT hs d d n u) as [[d1 [sc cc]]|] eqn:E; [|discriminate].
      destruct (match e with Some e => _ | None => _ end); [|discriminate]. intros [= <- _].
      eapply stable_trans; [eapply stable_update; eauto|]. apply stable_data; lia.
    - unfold track_update. destruct (update_starknet_state HEIGHT hs d _ n u) as [[d1 [sc cc]]|] eqn:E; [|discriminate].
      destruct (_ =? _)%N; [|discriminate]. intros [= <- _].
      eapply stable_trans; [apply (stable_data n d n u); lia|]. eapply stable_update; eauto.
    - unfold batch_update. destruct P as [P _]. assert (Lu : 0 < length us) by (destruct us; [congruence|cbn; lia]).
      destruct (update_starknet_state HEIGHT hs d _ _ _) as [[d1 [sc cc]]|] eqn:E; [|discriminate].
      destruct (_ =? _)%N; [|discriminate]. intros [= <- _].
      eapply stable_trans; [apply (stable_insert_all n us d n); lia|]. eapply stable_update; [|exact E]. lia.
  Qed.

  (** The same for the leaves. *)
  Definition stablev (n : nat) (v v' : leaves) : Prop :=
    below n (v_hashes v') = below n (v_hashes v) /\
    below n (v_casms v') = below n (v_casms v) /\
    below n (v_class_leaves v') = below n (v_class_leaves v) /\
    below n (v_storage v') = below n (v_storage v).
  Lemma stablev_refl n v : stablev n v v. Proof. repeat split. Qed.
  Lemma stablev_trans n v1 v2 v3 : stablev n v1 v2 -> stablev n v2 v3 -> stablev n v1 v3.
  Proof. unfold stablev. intuition congruence. Qed.
  Lemma stablev_less n n' v v' : n <= n' -> stablev n' v v' -> stablev n v v'.
  Proof.
    intros L (A & B & C & D). repeat split; eapply below_less; eauto.
  Qed.

  Lemma stablev_data n v b u : n <= b -> stablev n v (add_data v b u).
  Proof.
    intros L. unfold stablev, add_data. cbn [v_hashes v_casms v_class_leaves v_storage]. repeat split; auto.
    - apply below_above. intros x Hx. unfold casm_rows in Hx. apply in_map_iff in Hx. destruct Hx as (y & <- & _). exact L.
    - rewrite app_assoc. apply below_above. intros x Hx. apply in_app_iff in Hx.
      destruct Hx as [Hx|Hx]; apply in_flat_map in Hx; destruct Hx as (c & _ & Hx);
        unfold storage_rows in Hx; apply in_map_iff in Hx; destruct Hx as (y & <- & _); exact L.
  Qed.
  Lemma stablev_all n us : forall v b, n <= b -> stablev n v (add_all v b us).
  Proof.
    induction us as [|u us IH]; intros v b L; [apply stablev_refl|]. cbn [add_all].
    eapply stablev_trans; [apply (stablev_data n v b u L)|]. apply IH. lia.
  Qed.
  Lemma stablev_trees n v d b u : n <= b -> stablev n v (add_trees hs v d b u).
  Proof.
    intros L. unfold stablev, add_trees. cbn [v_hashes v_casms v_class_leaves v_storage]. repeat split; auto.
    - rewrite below_above. 2: { intros x Hx. apply in_map_iff in Hx. destruct Hx as (y & <- & _). exact L. }
      apply below_filter. intros r Hr. apply negb_true_iff. assert (E : (fst r =? b) = false) by (apply Nat.eqb_neq; lia).
      now rewrite E.
    - apply below_above. intros x Hx. apply in_map_iff in Hx. destruct Hx as (y & <- & _). exact L.
  Qed.

  Lemma nonempty_blocks s : plain_batch s -> 0 < length (blocks_of s).
  Proof. destruct s as [u v e|u v e|us v e]; cbn; try lia. intros [P _]. destruct us; [congruence|cbn; lia]. Qed.

  Lemma stable_full_arrive n d v s d' v' : plain_batch s ->
    full_arrive HEIGHT hs d v n s = Some (d', v') -> stable n d d' /\ stablev n v v'.
  Proof.
    intros P. unfold full_arrive. destruct (arrive HEIGHT hs d n s) as [[d1 c]|] eqn:E; [|discriminate]. intros [= <- <-].
    split; [eapply stable_arrive; eauto|]. pose proof (nonempty_blocks s P).
    eapply stablev_trans; [apply (stablev_all n (blocks_of s) v n); lia|]. apply stablev_trees. lia.
  Qed.

  Lemma stable_full_node l : forall n d v d' v', (forall s, In s l -> plain_batch s) ->
    full_node HEIGHT hs d v n l = Some (d', v') -> stable n d d' /\ stablev n v v'.
  Proof.
    induction l as [|s l IH]; intros n d v d' v' P; cbn [full_node].
    - intros [= <- <-]. split; [apply stable_refl|apply stablev_refl].
    - destruct (full_arrive HEIGHT hs d v n s) as [[d1 v1]|] eqn:E; [|discriminate]. intros G.
      destruct (stable_full_arrive _ _ _ _ _ _ (P s (or_introl eq_refl)) E) as [A B].
      destruct (IH _ _ _ _ _ (fun s' Hs => P s' (or_intror Hs)) G) as [A' B'].
      split; [eapply stable_trans; eauto; eapply stable_less; [|eauto]; lia|].
      eapply stablev_trans; eauto. eapply stablev_less; [|eauto]. lia.
  Qed.

  (** Readings below. *)
  Lemma newest_eq {A} b n (r r' : list (nat * A)) : b < n -> below n r' = below n r -> newest b r' = newest b r.
  Proof. intros L E. now rewrite <- (newest_below b n r L), <- (newest_below b n r' L), E. Qed.
  Lemma newest_of_eq {A} b n a (r r' : list (nat * (bits * A))) : b < n -> below n r' = below n r ->
    newest b (of_contract a r') = newest b (of_contract a r).
  Proof. intros L E. apply (newest_eq b n); auto. now rewrite <- !of_contract_below, E. Qed.

  Lemma reads_stable n d d' v v' b w : b < n -> stable n d d' -> stablev n v v' ->
    reads HEIGHT hs d v b w -> reads HEIGHT hs d' v' b w.
  Proof.
    intros L (A & B & C & D & E) (A' & B' & C' & D') (R1 & R2 & R3 & R4 & R5 & R6 & R7).
    assert (X1 : storage_root_at d' b = storage_root_at d b) by (unfold storage_root_at; now rewrite (newest_eq b n _ _ L B)).
    assert (X2 : class_root_at d' b = class_root_at d b) by (unfold class_root_at; now rewrite (newest_eq b n _ _ L C)).
    assert (X3 : forall a, contract_root_at d' b a = contract_root_at d b a)
      by (intros a; unfold contract_root_at; now rewrite (newest_of_eq b n a _ _ L A)).
    assert (X4 : forall a, class_hash_at d' b a = class_hash_at d b a)
      by (intros a; unfold class_hash_at; now rewrite (newest_of_eq b n a _ _ L D)).
    assert (X5 : forall a, nonce_at d' b a = nonce_at d b a)
      by (intros a; unfold nonce_at; now rewrite (newest_of_eq b n a _ _ L E)).
    assert (X6 : forall a, contract_leaf v' b a = contract_leaf v b a)
      by (intros a; unfold contract_leaf, state_hash_at; now rewrite (newest_of_eq b n a _ _ L A')).
    assert (X7 : forall a, casm_at v' b a = casm_at v b a)
      by (intros a; unfold casm_at; now rewrite (newest_of_eq b n a _ _ L B')).
    assert (X8 : forall c, class_leaf_at v' b c = class_leaf_at v b c).
    { intros c. unfold class_leaf_at.
      assert (Fd : forall rows : list (nat * (felt * felt)),
        find (fun r => (fst (snd r) =? c)%N && (fst r <=? b)) (below n rows) =
        find (fun r => (fst (snd r) =? c)%N && (fst r <=? b)) rows).
      { induction rows as [|[m [x y]] rows IH]; auto. cbn [below filter fst]. destruct (Nat.ltb_spec m n).
        - cbn [find fst snd]. unfold below in IH. now rewrite IH.
        - cbn [find fst snd]. assert (Q : (m <=? b) = false) by (apply Nat.leb_gt; lia).
          rewrite Q, andb_false_r. exact IH. }
      now rewrite <- (Fd (v_class_leaves v')), C', Fd. }
    assert (X9 : forall a k, storage_leaf v' b a k = storage_leaf v b a k).
    { intros a k. unfold storage_leaf, storage_value_at. f_equal. apply (newest_of_eq b n); auto.
      rewrite <- !of_contract_below. now rewrite D'. }
    unfold reads. rewrite X1, X2. split; auto. split; auto. split; [|split; [|split; [|split]]].
    - intros a La. rewrite X3. auto.
    - intros a. rewrite X4, X5. auto.
    - intros k Lk N. rewrite X6. auto.
    - intros k Lk N. unfold class_leaf. rewrite X7. specialize (R6 k Lk N). unfold class_leaf in R6.
      destruct (casm_at v b k); auto. now rewrite X8.
    - intros a La k Lk N. rewrite X9. now apply R7.
  Qed.
End Run.
