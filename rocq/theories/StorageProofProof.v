(** Proofs about starknet_getStorageProof: the nodes. *)
From Coq Require Import List Bool Arith NArith Lia.
From Verif Require Import AList MerkleModel MerkleSpec MerkleProof TrieDbProof VersionModel
  CommitModel MerkleMemberProof StateRootModel StateRootSpec StateRootProof StateRootRun StateRootBind
  StorageProofModel StorageProofSpec.
Import ListNotations.

Lemma summary_zero H n : forall m : contents, summary H n m = None <-> (forall k, length k = n -> m k = 0%N).
Proof.
  induction n as [|n IH]; intros m; cbn [summary].
  - destruct (N.eqb_spec (m []) 0) as [E|E].
    + split; auto. intros _ [|] L; [auto|discriminate].
    + split; [discriminate|]. intros Z. exfalso. apply E. now apply Z.
  - pose proof (IH (fun k => m (false :: k))) as F. pose proof (IH (fun k => m (true :: k))) as T.
    destruct (summary H n (fun k => m (false :: k))) as [[p b]|];
    destruct (summary H n (fun k => m (true :: k))) as [[p' b']|];
      try (split; [discriminate|]; intros Z; exfalso;
           (assert (X : Some (p, b) = None) by (apply F; intros; apply Z; cbn; auto); discriminate) ||
           (assert (X : Some (p', b') = None) by (apply T; intros; apply Z; cbn; auto); discriminate)).
    split; auto. intros _ [|[|] k] L; [discriminate|apply T|apply F]; auto.
Qed.

Lemma summary_path H n : forall (m : contents) p h, summary H n m = Some (p, h) ->
  length p <= n /\ summary H (n - length p) (fun k => m (p ++ k)) = Some ([], h) /\
  forall k, length k = n -> firstn (length p) k <> p -> m k = 0%N.
Proof.
  induction n as [|n IH]; intros m p h; cbn [summary].
  - destruct (m [] =? 0)%N eqn:E; [discriminate|]. intros [= <- <-]. cbn. rewrite E. repeat split; auto.
    intros k L N. now destruct k.
  - destruct (summary H n (fun k => m (false :: k))) as [[q b]|] eqn:F;
    destruct (summary H n (fun k => m (true :: k))) as [[q' b']|] eqn:T; intros E; try discriminate.
    + injection E as <- <-. cbn [length app Nat.sub]. split; [lia|]. split.
      * cbn [summary]. rewrite F, T. reflexivity.
      * intros k L N. now destruct k.
    + injection E as <- <-. destruct (IH _ _ _ F) as (L & S & Z). cbn [length Nat.sub]. split; [lia|]. split.
      * exact S.
      * intros [|[|] k] Lk N; [discriminate| |].
        -- apply (proj1 (summary_zero H n _) T). now injection Lk.
        -- apply Z; [now injection Lk|]. intros X. apply N. cbn. now rewrite X.
    + injection E as <- <-. destruct (IH _ _ _ T) as (L & S & Z). cbn [length Nat.sub]. split; [lia|]. split.
      * exact S.
      * intros [|[|] k] Lk N; [discriminate| |].
        -- apply Z; [now injection Lk|]. intros X. apply N. cbn. now rewrite X.
        -- apply (proj1 (summary_zero H n _) F). now injection Lk.
Qed.

(** Leaves as far as they are needed. *)
Definition gives (n : nat) (leaf : bits -> option felt) (m : contents) : Prop :=
  forall k, length k = n -> m k <> 0%N -> leaf k = Some (m k).

Lemma child_hash_ok H n (m : contents) leaf p h : gives n leaf m -> summary H n m = Some (p, h) ->
  child_hash H n m leaf = Some (top H (p, h)).
Proof.
  intros G E. destruct n as [|n].
  - cbn in *. destruct (N.eqb_spec (m []) 0) as [Z|Z]; [discriminate|]. injection E as <- <-.
    now rewrite G.
  - cbn [child_hash]. unfold spec_root. now rewrite E.
Qed.

Lemma tree_proof_ok H fuel : forall n (m : contents) leaf key p h, n < fuel ->
  gives n leaf m -> length key = n -> summary H n m = Some (p, h) ->
  exists pr, tree_proof H fuel n m leaf key = Some pr /\
    (forall x, In x pr -> node_hash H (fst x) = snd x) /\
    check_proof H (top H (p, h)) key (map fst pr) = Some (m key).
Proof.
  induction fuel as [|fuel IH]; intros n m leaf key p h Lf G Lk E; [lia|].
  cbn [tree_proof]. destruct n as [|n].
  - exists []. destruct key; [|discriminate]. cbn in E.
    destruct (N.eqb_spec (m []) 0); [discriminate|]. injection E as <- <-. repeat split. intros x [].
  - rewrite E. destruct p as [|d p].
    + (* binary *)
      destruct key as [|b key]; [discriminate|]. injection Lk as Lk.
      cbn [summary] in E.
      destruct (summary H n (fun k => m (false :: k))) as [[pl hl]|] eqn:F;
      destruct (summary H n (fun k => m (true :: k))) as [[pr hr]|] eqn:T; try discriminate.
      injection E as <-.
      assert (Gl : gives n (fun k => leaf (false :: k)) (fun k => m (false :: k)))
        by (intros k L N; apply G; cbn; auto).
      assert (Gr : gives n (fun k => leaf (true :: k)) (fun k => m (true :: k)))
        by (intros k L N; apply G; cbn; auto).
      rewrite (child_hash_ok H n _ _ _ _ Gl F), (child_hash_ok H n _ _ _ _ Gr T).
      destruct b.
      * destruct (IH n _ _ key _ _ ltac:(lia) Gr Lk T) as (pf & -> & A & C).
        eexists. split; [reflexivity|]. split.
        -- intros x [<-|Hx]; auto.
        -- cbn [map fst check_proof]. cbn [top fst snd]. rewrite N.eqb_refl. exact C.
      * destruct (IH n _ _ key _ _ ltac:(lia) Gl Lk F) as (pf & -> & A & C).
        eexists. split; [reflexivity|]. split.
        -- intros x [<-|Hx]; auto.
        -- cbn [map fst check_proof]. cbn [top fst snd]. rewrite N.eqb_refl. exact C.
    + (* edge *)
      destruct (summary_path H _ _ _ _ E) as (L & S1 & Z).
      set (q := d :: p) in *.
      assert (Lq : 1 <= length q) by (cbn; lia).
      assert (G' : gives (S n - length q) (fun k => leaf (q ++ k)) (fun k => m (q ++ k))).
      { intros k Lk' N. apply G; auto. rewrite app_length. lia. }
      rewrite (child_hash_ok H _ _ _ _ _ G' S1). cbn [top fst snd].
      destruct (bits_eqb_spec (firstn (length q) key) q) as [Eq|Nq].
      * destruct (IH (S n - length q) _ _ (skipn (length q) key) _ _ ltac:(lia) G'
          ltac:(rewrite skipn_length; lia) S1) as (pf & -> & A & C).
        eexists. split; [reflexivity|]. split.
        -- intros x [<-|Hx]; auto.
        -- assert (Ek : key = q ++ skipn (length q) key) by (rewrite <- Eq at 1; symmetry; apply firstn_skipn).
           destruct key as [|b0 key0] eqn:Kk; [discriminate|]. rewrite <- Kk in *.
           cbn [map fst]. rewrite Kk. cbn [check_proof]. rewrite <- Kk.
           assert (B1 : negb (length q =? 0) = true) by (apply negb_true_iff, Nat.eqb_neq; lia).
           assert (B2 : (length q <=? length key) = true) by (apply Nat.leb_le; lia).
           rewrite B1, B2. fold q. cbn [top fst snd]. unfold q at 3 4. rewrite N.eqb_refl. cbn [andb].
           fold q. rewrite Eq, bits_eqb_refl. cbn [top fst snd] in C. rewrite C. f_equal. now rewrite <- Ek.
      * eexists. split; [reflexivity|]. split.
        -- intros x [<-|[]]; auto.
        -- destruct key as [|b0 key0] eqn:Kk; [discriminate|]. rewrite <- Kk in *.
           cbn [map fst]. rewrite Kk. cbn [check_proof]. rewrite <- Kk.
           assert (B1 : negb (length q =? 0) = true) by (apply negb_true_iff, Nat.eqb_neq; lia).
           assert (B2 : (length q <=? length key) = true) by (apply Nat.leb_le; lia).
           rewrite B1, B2. cbn [andb]. unfold q at 3 4. cbn [top fst snd]. rewrite N.eqb_refl. fold q.
           assert (X : bits_eqb q (firstn (length q) key) = false) by (apply bits_eqb_neq; congruence).
           rewrite X. f_equal. symmetry. apply Z; auto.
Qed.

Section Answer.
  Variable HEIGHT : nat.
  Variable hs : hashes.
  Hypothesis HEIGHT_pos : HEIGHT <> 0.

  Lemma in_distinct x (ps : list nodes) p : In p ps -> In x p -> In x (distinct ps).
  Proof. intros. unfold distinct. apply nodup_In. apply in_concat. eauto. Qed.

  Lemma tree_proofs_ok H (m : contents) leaf ks s : gives HEIGHT leaf m -> summary H HEIGHT m = Some s ->
    spec_root H HEIGHT m <> 0%N -> (forall k, In k ks -> length k = HEIGHT) ->
    exists ps, tree_proofs HEIGHT H m leaf ks = Some ps /\
      forall k, In k ks -> proves H (spec_root H HEIGHT m) k (distinct ps) (m k).
  Proof.
    intros G E N L.
    assert (X : exists ps, tree_proofs HEIGHT H m leaf ks = Some ps /\
      forall k, In k ks -> exists pr, In pr ps /\ (forall x, In x pr -> node_hash H (fst x) = snd x) /\
        check_proof H (spec_root H HEIGHT m) k (map fst pr) = Some (m k)).
    { induction ks as [|k ks IH]; cbn [tree_proofs].
      - exists []. split; auto. intros k [].
      - destruct s as [p h]. destruct (tree_proof_ok H (S HEIGHT) HEIGHT m leaf k p h) as (pr & -> & A & C); auto.
        + apply L. now left.
        + destruct IH as (ps & -> & B); [intros; apply L; now right|].
          exists (pr :: ps). split; auto. intros k' [<-|Hk].
          * exists pr. split; [now left|]. split; auto. unfold spec_root. now rewrite E.
          * destruct (B k' Hk) as (pr' & I & R). exists pr'. split; auto. now right. }
    destruct X as (ps & -> & B). exists ps. split; auto. intros k Hk.
    destruct (B k Hk) as (pr & I & A & C). exists pr. split; [|split; auto].
    - intros x Hx. eapply in_distinct; eauto.
    - unfold verify. destruct (N.eqb_spec (spec_root H HEIGHT m) 0); [contradiction|exact C].
  Qed.

  (** An empty tree. *)
  Lemma proves_empty H k ns : proves H 0%N k ns 0%N.
  Proof. exists []. cbn. repeat split; intros n []. Qed.

  Lemma root_query_of F m : summary F HEIGHT m <> None ->
    exists q, In q (root_queries F HEIGHT m) /\ query_value F q = spec_root F HEIGHT m.
  Proof.
    intros N. destruct (atree_of_contents HEIGHT m) as [Z|(a & W & C)].
    - exfalso. apply N. now apply summary_zero.
    - destruct (MerkleMemberProof.ahash_query F _ _ W HEIGHT_pos) as (q & Hq & E). exists q. split.
      + now apply (MerkleMemberProof.root_queries_wfa F HEIGHT a W m C).
      + rewrite E. symmetry. now apply spec_root_wfa.
  Qed.

  (** What the tables show at a block. *)
  Definition reads (d : db) (v : leaves) (b : nat) (w : world) : Prop :=
    same_map HEIGHT (dflt (storage_root_at d b)) (state_contents HEIGHT hs w) /\
    same_map HEIGHT (dflt (class_root_at d b)) (class_contents hs w) /\
    (forall a, length a = HEIGHT -> same_map HEIGHT (dflt (contract_root_at d b a)) (w_storage w a)) /\
    (forall a, class_hash_at d b a = w_class w a /\ or_zero (nonce_at d b a) = w_nonce w a) /\
    gives HEIGHT (contract_leaf v b) (state_contents HEIGHT hs w) /\
    gives HEIGHT (class_leaf v b) (class_contents hs w) /\
    (forall a, length a = HEIGHT -> gives HEIGHT (storage_leaf v b a) (w_storage w a)).

  Lemma with_root_cases H row (M : contents) : same_map HEIGHT (dflt row) M ->
    (exists m s, with_root HEIGHT H row = Some m /\ same_map HEIGHT m M /\ summary H HEIGHT m = Some s /\
       summary H HEIGHT M = Some s /\ spec_root H HEIGHT m = spec_root H HEIGHT M) \/
    (with_root HEIGHT H row = None /\ (forall k, length k = HEIGHT -> M k = 0%N) /\ spec_root H HEIGHT M = 0%N).
  Proof.
    intros S.
    assert (Em : forall Z : contents, (forall k, length k = HEIGHT -> Z k = 0%N) -> same_map HEIGHT Z M ->
      (forall k, length k = HEIGHT -> M k = 0%N) /\ spec_root H HEIGHT M = 0%N).
    { intros Z HZ HS. assert (A : forall k, length k = HEIGHT -> M k = 0%N) by (intros k Lk; rewrite <- HS; auto).
      split; auto. unfold spec_root. now rewrite (proj2 (summary_zero H HEIGHT M) A). }
    unfold with_root. destruct row as [m|]; cbn [dflt] in S.
    - destruct (summary H HEIGHT m) as [s|] eqn:E.
      + left. exists m, s. split; auto. split; auto. split; auto. split.
        * rewrite <- E. symmetry. apply summary_ext. exact S.
        * now apply root_ext.
      + right. split; auto. apply (Em m); auto. now apply (summary_zero H).
    - right. split; auto. now apply (Em no_contents).
  Qed.

  Lemma gives_ext leaf m M : same_map HEIGHT m M -> gives HEIGHT leaf M -> gives HEIGHT leaf m.
  Proof. intros S G k Lk N. rewrite S in * by auto. now apply G. Qed.

  Lemma proves_ext H root k ns x y : proves H root k ns x -> x = y -> proves H root k ns y.
  Proof. now intros P <-. Qed.

  Lemma answer_right headers l1 d v q b w : reads d v b w -> tidy HEIGHT w -> no_zero HEIGHT hs w ->
    block_number headers l1 (q_block q) = Fine b ->
    proper_keys HEIGHT q -> total_keys q <= MAX_KEYS ->
    exists r, get_storage_proof HEIGHT hs false headers l1 d v q = Fine r /\ right_answer HEIGHT hs w q r /\
      r_block_hash r = nth b headers 0%N.
  Proof.
    intros (R1 & R2 & R3 & R4 & R5 & R6 & R7) T NZ Eb (K1 & K2 & K3) Lim.
    unfold get_storage_proof. destruct (Nat.ltb_spec MAX_KEYS (total_keys q)) as [X|_]; [lia|]. rewrite Eb.
    (* classes *)
    assert (C1 : exists ns, get_class_proofs HEIGHT hs false d v b (q_classes q) =
        Fine (class_commitment HEIGHT hs w, ns) /\
        forall k, In k (listed (q_classes q)) ->
          proves (poseidon hs) (class_commitment HEIGHT hs w) k ns (class_contents hs w k)).
    { unfold get_class_proofs.
      destruct (with_root_cases (poseidon hs) _ _ R2) as [(m & s & -> & S & E & E' & Er)|(-> & Z & Er)].
      - rewrite Er. change (spec_root (poseidon hs) HEIGHT (class_contents hs w)) with (class_commitment HEIGHT hs w) in *.
        assert (N0 : spec_root (poseidon hs) HEIGHT m <> 0%N).
        { rewrite Er. destruct (root_query_of (poseidon hs) (class_contents hs w)) as (qq & Hq & V); [congruence|].
          unfold class_commitment. rewrite <- V. apply (NZ (Pos qq)). now constructor. }
        destruct (q_classes q) as [ks|]; [|eexists; split; [reflexivity|intros k []]].
        destruct (tree_proofs_ok (poseidon hs) m (class_leaf v b) ks s) as (ps & -> & P); auto.
        { now apply (gives_ext _ m (class_contents hs w)). }
        eexists. split; [reflexivity|]. intros k Hk. rewrite <- Er.
        eapply proves_ext; [now apply P|]. apply S. now apply K1.
      - unfold class_commitment. rewrite Er. eexists. split; [reflexivity|].
        intros k Hk. eapply proves_ext; [apply proves_empty|]. symmetry. apply Z. now apply K1. }
    destruct C1 as (cns & -> & C1).
    (* contracts *)
    assert (Lf : forall a, length a = HEIGHT -> leaf_data_of HEIGHT hs d b a = data_of HEIGHT hs w a).
    { intros a La. unfold leaf_data_of, data_of, class_in_leaf. destruct (R4 a) as [-> ->].
      assert (E : or_zero (contract_root_hash HEIGHT hs d b a) = storage_root HEIGHT hs w a).
      { unfold contract_root_hash, storage_root.
        destruct (with_root_cases (pedersen hs) _ _ (R3 a La)) as [(m & s & -> & S & E & E' & Er)|(-> & Z & Er)].
        - exact Er.
        - now rewrite Er. }
      rewrite E. reflexivity. }
    assert (C2 : exists ns ld, get_contract_proofs HEIGHT hs false d v b (q_contracts q) =
        Fine (storage_commitment HEIGHT hs w, ns, ld) /\
        (forall a, In a (listed (q_contracts q)) ->
          proves (pedersen hs) (storage_commitment HEIGHT hs w) a ns (state_contents HEIGHT hs w a)) /\
        (ld = map (data_of HEIGHT hs w) (listed (q_contracts q)) \/ ld = [] /\ forall a, ~ present HEIGHT w a)).
    { unfold get_contract_proofs.
      destruct (with_root_cases (pedersen hs) _ _ R1) as [(m & s & -> & S & E & E' & Er)|(-> & Z & Er)].
      - rewrite Er. change (spec_root (pedersen hs) HEIGHT (state_contents HEIGHT hs w)) with (storage_commitment HEIGHT hs w) in *.
        assert (N0 : spec_root (pedersen hs) HEIGHT m <> 0%N).
        { rewrite Er. destruct (root_query_of (pedersen hs) (state_contents HEIGHT hs w)) as (qq & Hq & V); [congruence|].
          unfold storage_commitment. rewrite <- V. apply (NZ (Ped qq)). now constructor. }
        destruct (q_contracts q) as [ks|]; [|do 2 eexists; split; [reflexivity|split; [intros k []|now left]]].
        destruct (tree_proofs_ok (pedersen hs) m (contract_leaf v b) ks s) as (ps & -> & P); auto.
        { now apply (gives_ext _ m (state_contents HEIGHT hs w)). }
        do 2 eexists. split; [reflexivity|]. split.
        + intros k Hk. rewrite <- Er. eapply proves_ext; [now apply P|]. apply S. now apply K2.
        + left. apply map_ext_in. intros a Ha. apply Lf. now apply K2.
      - unfold storage_commitment. rewrite Er. do 2 eexists. split; [reflexivity|]. split.
        + intros k Hk. eapply proves_ext; [apply proves_empty|]. symmetry. apply Z. now apply K2.
        + right. split; auto. intros a P.
          destruct (StateRootBind.contents_cases HEIGHT hs w a T (proj1 P)) as [[_ L]|[NP _]]; [|contradiction].
          rewrite Z in L by apply P. apply (NZ _ (cp_leaf3 HEIGHT hs w a P)). symmetry. exact L. }
    destruct C2 as (kns & ld & -> & C2 & C3).
    (* storage *)
    assert (C4 : exists xs, get_contract_storage_proofs HEIGHT hs d v b (q_storage q) = Fine xs /\
        Forall2 (fun asked ns => forall k, In k (snd asked) ->
               proves (pedersen hs) (storage_root HEIGHT hs w (fst asked)) k ns (w_storage w (fst asked) k))
            (listed (q_storage q)) xs).
    { unfold get_contract_storage_proofs. destruct (q_storage q) as [l|]; [|exists []; split; auto; constructor].
      cbn [listed] in *. clear - R3 R7 K3 NZ T HEIGHT_pos.
      induction l as [|[a ks] l IH]; cbn [storage_proofs].
      { exists []. split; auto; constructor. }
      destruct IH as (xs & -> & F). { intros; apply K3; now right. }
      destruct (K3 a ks (or_introl eq_refl)) as [La Lks].
      destruct (with_root_cases (pedersen hs) _ _ (R3 a La)) as [(m & s & -> & S & E & E' & Er)|(-> & Z & Er)].
      - assert (N0 : spec_root (pedersen hs) HEIGHT m <> 0%N).
        { rewrite Er. destruct (root_query_of (pedersen hs) (w_storage w a)) as (qq & Hq & V); [congruence|].
          rewrite <- V. apply (NZ (Ped qq)). apply (cp_storage HEIGHT hs w a); auto. split; auto.
          destruct (T a La) as (_ & _ & T3).
          destruct (is_system a) eqn:Sa.
          - destruct (w_system w a); auto. exfalso. destruct (T3 eq_refl) as [_ T4].
            apply (summary_zero (pedersen hs)) in T4. congruence.
          - intros X. destruct (T3 X) as [_ T4]. apply (summary_zero (pedersen hs)) in T4. congruence. }
        destruct (tree_proofs_ok (pedersen hs) m (storage_leaf v b a) ks s) as (ps & -> & P); auto.
        { apply (gives_ext _ m (w_storage w a)); auto. }
        eexists. split; [reflexivity|]. constructor; auto. cbn [fst snd]. intros k Hk.
        unfold storage_root. rewrite <- Er. eapply proves_ext; [now apply P|]. apply S. auto.
      - eexists. split; [reflexivity|]. constructor; auto. cbn [fst snd]. intros k Hk.
        unfold storage_root. rewrite Er. eapply proves_ext; [apply proves_empty|]. symmetry. apply Z. auto. }
    destruct C4 as (xs & -> & C4).
    eexists. split; [reflexivity|]. split; [|reflexivity].
    unfold right_answer. cbn [r_contracts_root r_classes_root r_class_nodes r_contract_nodes r_leaves r_storage_nodes].
    auto 10.
  Qed.
End Answer.
