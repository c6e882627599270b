(** Proofs about the state commitment: merging, and whole histories. *)
From Coq Require Import List Bool Arith NArith Lia.
From Verif Require Import AList MerkleModel MerkleSpec MerkleProof TrieDbProof VersionModel
  CommitModel StateRootModel StateRootSpec StateRootProof.
Import ListNotations.

(** ** Merging updates *)

Lemma upsert_fold_get {A} (g : A -> option A -> A) a xs : NoDup (keys xs) -> forall m,
  al_get bits_eqb a (fold_left (fun m kv => upsert (fst kv) (g (snd kv)) m) xs m) =
  match al_get bits_eqb a xs with
  | Some v => Some (g v (al_get bits_eqb a m))
  | None => al_get bits_eqb a m
  end.
Proof.
  induction xs as [|[k v] xs IH]; intros ND m; auto. inversion ND; subst. cbn [fold_left fst snd].
  rewrite IH by auto. rewrite get_cons. unfold upsert. destruct (bits_eqb_spec a k) as [E|N].
  - subst a. rewrite (al_not_in_get_none _ bits_eqb_spec k xs) by auto.
    apply al_get_set_eq. apply bits_eqb_spec.
  - rewrite al_get_set_neq by (auto; apply bits_eqb_spec). reflexivity.
Qed.

Lemma upsert_fold_nodup {A} (g : A -> option A -> A) xs : forall m, NoDup (keys m) ->
  NoDup (keys (fold_left (fun m kv => upsert (fst kv) (g (snd kv)) m) xs m)).
Proof.
  induction xs as [|[k v] xs IH]; intros m ND; auto. cbn [fold_left]. apply IH.
  apply al_nodup_set; [apply bits_eqb_spec|auto].
Qed.

Definition weq (w1 w2 : world) : Prop :=
  (forall a, w_class w1 a = w_class w2 a) /\ (forall a, w_nonce w1 a = w_nonce w2 a) /\
  (forall a, w_storage w1 a = w_storage w2 a) /\ (forall a, w_system w1 a = w_system w2 a) /\
  (forall k, w_casm w1 k = w_casm w2 k).

Lemma weq_refl w : weq w w. Proof. repeat split. Qed.
Lemma weq_trans w1 w2 w3 : weq w1 w2 -> weq w2 w3 -> weq w1 w3.
Proof.
  intros (A & B & C & D & E) (A' & B' & C' & D' & E').
  repeat split; intros; [rewrite A|rewrite B|rewrite C|rewrite D|rewrite E]; auto.
Qed.

Lemma apply_update_weq w1 w2 u : weq w1 w2 -> weq (apply_update w1 u) (apply_update w2 u).
Proof.
  intros (A & B & C & D & E). unfold apply_update. repeat split; intros; cbn; rewrite ?A, ?B, ?C, ?D, ?E; auto.
Qed.

Lemma apply_updates_weq us : forall w1 w2, weq w1 w2 -> weq (apply_updates w1 us) (apply_updates w2 us).
Proof. induction us; intros; auto. cbn. apply IHus. now apply apply_update_weq. Qed.

Lemma merge_contracts_get m x a : NoDup (keys (u_contracts x)) ->
  al_get bits_eqb a (u_contracts (merge_one m x)) =
  match al_get bits_eqb a (u_contracts x) with
  | Some v => Some (merge_contract v (al_get bits_eqb a (u_contracts m)))
  | None => al_get bits_eqb a (u_contracts m)
  end.
Proof. intros. unfold merge_one. cbn [u_contracts]. now apply upsert_fold_get. Qed.

Lemma merge_system_get m x a : NoDup (keys (u_system x)) ->
  al_get bits_eqb a (u_system (merge_one m x)) =
  match al_get bits_eqb a (u_system x) with
  | Some v => Some (merge_system v (al_get bits_eqb a (u_system m)))
  | None => al_get bits_eqb a (u_system m)
  end.
Proof. intros. unfold merge_one. cbn [u_system]. now apply upsert_fold_get. Qed.

Lemma merge_declared_get m x a : NoDup (keys (u_declared x)) ->
  al_get bits_eqb a (u_declared (merge_one m x)) =
  match al_get bits_eqb a (u_declared x) with
  | Some v => Some v
  | None => al_get bits_eqb a (u_declared m)
  end.
Proof.
  intros. unfold merge_one. cbn [u_declared].
  exact (upsert_fold_get (fun v _ => v) a (u_declared x) H (u_declared m)).
Qed.

Lemma keys_in {A} (k : bits) (v : A) m : In (k, v) m -> In k (keys m).
Proof. intros. unfold keys. change k with (fst (k, v)). now apply in_map. Qed.

Lemma merge_wf HEIGHT m x : well_formed HEIGHT m -> well_formed HEIGHT x -> well_formed HEIGHT (merge_one m x).
Proof.
  intros (M1 & M2 & M3 & M4 & M5 & M6 & M7 & M8 & M9 & M10)
         (X1 & X2 & X3 & X4 & X5 & X6 & X7 & X8 & X9 & X10).
  assert (N1 : NoDup (keys (u_contracts (merge_one m x)))) by (apply upsert_fold_nodup; auto).
  assert (N2 : NoDup (keys (u_system (merge_one m x)))) by (apply upsert_fold_nodup; auto).
  assert (N3 : NoDup (keys (u_declared (merge_one m x))))
    by (exact (upsert_fold_nodup (fun v _ => v) (u_declared x) (u_declared m) M3)).
  assert (C : forall a c, In (a, c) (u_contracts (merge_one m x)) ->
    length a = HEIGHT /\ is_system a = false /\ lengths HEIGHT (c_storage c)).
  { intros a c Hin. apply (al_in_get _ bits_eqb_spec) in Hin; auto. rewrite merge_contracts_get in Hin by auto.
    destruct (al_get bits_eqb a (u_contracts x)) as [v|] eqn:Gx.
    - injection Hin as <-. apply (al_get_in _ bits_eqb_spec) in Gx.
      destruct (X9 _ _ Gx) as [S L]. split; [eapply X5, keys_in; eauto|]. split; auto.
      destruct (al_get bits_eqb a (u_contracts m)) as [e|] eqn:Gm; cbn; auto.
      apply (al_get_in _ bits_eqb_spec) in Gm. destruct (M9 _ _ Gm) as [_ L'].
      intros k Hk. unfold keys in Hk. rewrite map_app in Hk. apply in_app_iff in Hk. destruct Hk; [now apply L'|now apply L].
    - apply (al_get_in _ bits_eqb_spec) in Hin. split; [eapply M5, keys_in; eauto|]. now apply M9. }
  assert (S : forall a s, In (a, s) (u_system (merge_one m x)) ->
    length a = HEIGHT /\ is_system a = true /\ lengths HEIGHT s).
  { intros a c Hin. apply (al_in_get _ bits_eqb_spec) in Hin; auto. rewrite merge_system_get in Hin by auto.
    destruct (al_get bits_eqb a (u_system x)) as [v|] eqn:Gx.
    - injection Hin as <-. apply (al_get_in _ bits_eqb_spec) in Gx.
      destruct (X10 _ _ Gx) as [S L]. split; [eapply X6, keys_in; eauto|]. split; auto.
      destruct (al_get bits_eqb a (u_system m)) as [e|] eqn:Gm; cbn; auto.
      apply (al_get_in _ bits_eqb_spec) in Gm. destruct (M10 _ _ Gm) as [_ L'].
      intros k Hk. unfold keys in Hk. rewrite map_app in Hk. apply in_app_iff in Hk. destruct Hk; [now apply L'|now apply L].
    - apply (al_get_in _ bits_eqb_spec) in Hin. split; [eapply M6, keys_in; eauto|]. now apply M10. }
  split; [exact N1|]. split; [exact N2|]. split; [exact N3|]. split; [exact M4|].
  split; [|split; [|split; [|split; [exact M8|split]]]].
  - intros a Ha. destruct (key_al_get _ _ Ha) as (c & G). apply (al_get_in _ bits_eqb_spec) in G. exact (proj1 (C a c G)).
  - intros a Ha. destruct (key_al_get _ _ Ha) as (c & G). apply (al_get_in _ bits_eqb_spec) in G. exact (proj1 (S a c G)).
  - intros a Ha. destruct (key_al_get _ _ Ha) as (c & G). rewrite merge_declared_get in G by auto.
    destruct (al_get bits_eqb a (u_declared x)) eqn:Gx.
    + eapply X7, al_get_key; eauto.
    + eapply M7, al_get_key; eauto.
  - intros a c Hin. exact (proj2 (C a c Hin)).
  - intros a c Hin. exact (proj2 (S a c Hin)).
Qed.

Lemma merge_apply HEIGHT w m x : well_formed HEIGHT m -> well_formed HEIGHT x ->
  u_migrated m = [] -> u_migrated x = [] ->
  weq (apply_update w (merge_one m x)) (apply_update (apply_update w m) x).
Proof.
  intros Wm Wx Em Ex.
  assert (X1 : NoDup (keys (u_contracts x))) by apply Wx.
  assert (X2 : NoDup (keys (u_system x))) by apply Wx.
  assert (X3 : NoDup (keys (u_declared x))) by apply Wx.
  assert (Dis : forall y z a c s, well_formed HEIGHT y -> well_formed HEIGHT z ->
    al_get bits_eqb a (u_contracts y) = Some c -> al_get bits_eqb a (u_system z) = Some s -> False).
  { intros y z a c s Wy Wz G1 G2. apply (al_get_in _ bits_eqb_spec) in G1. apply (al_get_in _ bits_eqb_spec) in G2.
    assert (is_system a = false) by (eapply Wy; eauto). assert (is_system a = true) by (eapply Wz; eauto). congruence. }
  unfold apply_update at 1 2. split; [|split; [|split; [|split]]]; intros a;
    cbn [w_class w_nonce w_storage w_system w_casm]; unfold apply_update, contract_of, system_of;
    cbn [w_class w_nonce w_storage w_system w_casm];
    rewrite ?merge_contracts_get, ?merge_system_get, ?merge_declared_get by auto.
  - destruct (al_get bits_eqb a (u_contracts x)) as [[sx [cx|] nx]|]; destruct (al_get bits_eqb a (u_contracts m)) as [[sm [cm|] nm]|]; reflexivity.
  - destruct (al_get bits_eqb a (u_contracts x)) as [[sx cx [nx|]]|]; destruct (al_get bits_eqb a (u_contracts m)) as [[sm cm [nm|]]|]; reflexivity.
  - destruct (al_get bits_eqb a (u_contracts x)) as [cx|] eqn:Gx; destruct (al_get bits_eqb a (u_contracts m)) as [cm|] eqn:Gm;
    destruct (al_get bits_eqb a (u_system x)) as [sx|] eqn:Hx; destruct (al_get bits_eqb a (u_system m)) as [sm|] eqn:Hm;
      try reflexivity; try (exfalso; eapply (Dis x x); eauto; fail); try (exfalso; eapply (Dis x m); eauto; fail);
      try (exfalso; eapply (Dis m x); eauto; fail); try (exfalso; eapply (Dis m m); eauto; fail);
      cbn [merge_contract merge_system c_storage]; try apply puts_app.
  - destruct (al_get bits_eqb a (u_system x)); auto.
  - cbn [merge_one u_migrated]. rewrite Em, Ex. cbn [al_get].
    destruct (al_get bits_eqb a (u_declared x)); auto.
Qed.

Definition named_in (us : list update) (a : bits) : Prop :=
  exists u, In u us /\ In a (keys (u_contracts u)).

Lemma merge_all HEIGHT us : forall m, well_formed HEIGHT m -> u_migrated m = [] ->
  Forall (well_formed HEIGHT) us -> (forall u, In u us -> u_migrated u = []) ->
  well_formed HEIGHT (fold_left merge_one us m) /\
  (forall w, weq (apply_update w (fold_left merge_one us m)) (apply_updates (apply_update w m) us)) /\
  (forall a, In a (keys (u_contracts (fold_left merge_one us m))) <->
             In a (keys (u_contracts m)) \/ named_in us a).
Proof.
  induction us as [|x us IH]; intros m Wm Em F Mg.
  - split; auto. split; [intros; apply weq_refl|]. intros a. cbn. split; auto.
    intros [?|(u & [] & _)]; auto.
  - inversion F as [|? ? Wx F']; subst. cbn [fold_left].
    assert (Ex : u_migrated x = []) by (apply Mg; left; auto).
    destruct (IH (merge_one m x)) as (W & A & K); auto.
    + now apply merge_wf.
    + intros u Hu. apply Mg. now right.
    + split; auto. split.
      * intros w. eapply weq_trans; [apply A|].
        exact (apply_updates_weq us _ _ (merge_apply HEIGHT w m x Wm Wx Em Ex)).
      * intros a. rewrite K.
        assert (E : In a (keys (u_contracts (merge_one m x))) <-> In a (keys (u_contracts m)) \/ In a (keys (u_contracts x))).
        { assert (X1 : NoDup (keys (u_contracts x))) by apply Wx. pose proof (merge_contracts_get m x a X1) as G.
          split.
          - intros Ha. destruct (key_al_get _ _ Ha) as (c & Gc). rewrite G in Gc.
            destruct (al_get bits_eqb a (u_contracts x)) eqn:Gx; [right|left]; eapply al_get_key; eauto.
          - intros [Ha|Ha]; destruct (key_al_get _ _ Ha) as (c & Gc).
            + rewrite Gc in G. destruct (al_get bits_eqb a (u_contracts x)); eapply al_get_key; eauto.
            + rewrite Gc in G. eapply al_get_key; eauto. }
        rewrite E. unfold named_in. split.
        -- intros [[?|?]|(u & Hu & Hk)]; auto; right; [exists x|exists u]; cbn [In]; auto.
        -- intros [?|(u & [<-|Hu] & Hk)]; eauto.
Qed.

(** ** Rows of classes and nonces *)

Lemma class_rows_of a n cs : NoDup (keys cs) ->
  of_contract a (class_rows n cs) =
  match al_get bits_eqb a cs with
  | Some c => match c_class c with Some h => [(n, h)] | None => [] end
  | None => []
  end.
Proof.
  induction cs as [|[k c] cs IH]; intros ND; auto. inversion ND as [|? ? Nin ND']; subst.
  unfold class_rows. cbn [flat_map fst snd]. rewrite of_contract_app, get_cons.
  change (flat_map _ cs) with (class_rows n cs). rewrite IH by auto.
  destruct (bits_eqb_spec a k) as [E|N].
  - subst. rewrite (al_not_in_get_none _ bits_eqb_spec k cs) by auto. rewrite app_nil_r.
    destruct (c_class c); auto. unfold of_contract. cbn. now rewrite bits_eqb_refl.
  - destruct (c_class c); auto. unfold of_contract at 1. cbn. now rewrite bits_eqb_neq.
Qed.

Lemma nonce_rows_of a n cs : NoDup (keys cs) ->
  of_contract a (nonce_rows n cs) =
  match al_get bits_eqb a cs with
  | Some c => match c_nonce c with Some h => [(n, h)] | None => [] end
  | None => []
  end.
Proof.
  induction cs as [|[k c] cs IH]; intros ND; auto. inversion ND as [|? ? Nin ND']; subst.
  unfold nonce_rows. cbn [flat_map fst snd]. rewrite of_contract_app, get_cons.
  change (flat_map _ cs) with (nonce_rows n cs). rewrite IH by auto.
  destruct (bits_eqb_spec a k) as [E|N].
  - subst. rewrite (al_not_in_get_none _ bits_eqb_spec k cs) by auto. rewrite app_nil_r.
    destruct (c_nonce c); auto. unfold of_contract. cbn. now rewrite bits_eqb_refl.
  - destruct (c_nonce c); auto. unfold of_contract at 1. cbn. now rewrite bits_eqb_neq.
Qed.

Lemma shows_rows_ext d d' n w : d_classes d' = d_classes d -> d_nonces d' = d_nonces d ->
  shows_rows d n w -> shows_rows d' n w.
Proof.
  intros A B (X & Y & Z). unfold shows_rows, class_hash_at, nonce_at in *. rewrite A, B. auto.
Qed.

Lemma shows_rows_weq d n w w' : weq w w' -> shows_rows d n w -> shows_rows d n w'.
Proof.
  intros (A & B & _) (X & Y & Z). split; [|split]; auto. intros b Lb a.
  rewrite <- A, <- B. now apply Z.
Qed.

Lemma rows_step d n w u : NoDup (keys (u_contracts u)) -> shows_rows d n w ->
  shows_rows (insert_state_update_data d n u) (S n) (apply_update w u).
Proof.
  intros ND (B1 & B2 & R). split; [|split].
  - intros r Hr. cbn in Hr. apply in_app_iff in Hr. destruct Hr as [Hr|Hr].
    + unfold class_rows in Hr. apply in_flat_map in Hr. destruct Hr as (c & _ & Hr).
      destruct (c_class (snd c)); [|contradiction]. destruct Hr as [<-|[]]. cbn. lia.
    + apply B1 in Hr. lia.
  - intros r Hr. cbn in Hr. apply in_app_iff in Hr. destruct Hr as [Hr|Hr].
    + unfold nonce_rows in Hr. apply in_flat_map in Hr. destruct Hr as (c & _ & Hr).
      destruct (c_nonce (snd c)); [|contradiction]. destruct Hr as [<-|[]]. cbn. lia.
    + apply B2 in Hr. lia.
  - intros b Lb a. destruct (R b ltac:(lia) a) as [RC RN].
    unfold class_hash_at, nonce_at in *. cbn [insert_state_update_data d_classes d_nonces].
    rewrite !of_contract_app, class_rows_of, nonce_rows_of by auto.
    unfold apply_update, contract_of. cbn [w_class w_nonce].
    destruct (al_get bits_eqb a (u_contracts u)) as [[s cl nn]|]; cbn [c_class c_nonce]; [|split; assumption].
    split.
    + destruct cl as [h|]; [|exact RC]. cbn [app]. rewrite newest_top; auto; [|lia].
      apply bounded_of. eapply bounded_mono; [exact B1|lia].
    + destruct nn as [h|]; [|exact RN]. cbn [app]. rewrite newest_top; auto; [|lia].
      apply bounded_of. eapply bounded_mono; [exact B2|lia].
Qed.

Lemma rows_all us : forall d n w, (forall u, In u us -> NoDup (keys (u_contracts u))) -> shows_rows d n w ->
  shows_rows (insert_all d n us) (n + length us) (apply_updates w us).
Proof.
  induction us as [|u us IH]; intros d n w ND R.
  - cbn. now rewrite Nat.add_0_r.
  - cbn [insert_all length apply_updates fold_left].
    replace (n + S (length us)) with (S n + length us) by lia. apply IH.
    + intros; apply ND; now right.
    + apply rows_step; auto. apply ND. now left.
Qed.

Lemma insert_all_trees us : forall d n,
  d_contract_roots (insert_all d n us) = d_contract_roots d /\
  d_storage_roots (insert_all d n us) = d_storage_roots d /\
  d_class_roots (insert_all d n us) = d_class_roots d.
Proof. induction us as [|u us IH]; intros d n; cbn [insert_all]; auto. exact (IH (insert_state_update_data d n u) (S n)). Qed.

Section Run.
  Variable HEIGHT : nat.
  Variable hs : hashes.

  Lemma shows_trees_ext d d' n w :
    d_contract_roots d' = d_contract_roots d -> d_storage_roots d' = d_storage_roots d ->
    d_class_roots d' = d_class_roots d ->
    shows_trees HEIGHT hs d n w -> shows_trees HEIGHT hs d' n w.
  Proof.
    intros A B C. unfold shows_trees, contract_root_at, storage_root_at, class_root_at. now rewrite A, B, C.
  Qed.

  Lemma state_contents_weq w w' a : weq w w' -> state_contents HEIGHT hs w a = state_contents HEIGHT hs w' a.
  Proof.
    intros (A & B & C & D & E). unfold state_contents, storage_root. now rewrite A, B, C, D.
  Qed.
  Lemma class_contents_weq w w' a : weq w w' -> class_contents hs w a = class_contents hs w' a.
  Proof. intros (A & B & C & D & E). unfold class_contents. now rewrite E. Qed.

  Lemma sc_weq w w' : weq w w' -> storage_commitment HEIGHT hs w = storage_commitment HEIGHT hs w'.
  Proof. intros E. apply root_ext. intros k _. now apply state_contents_weq. Qed.
  Lemma cc_weq w w' : weq w w' -> class_commitment HEIGHT hs w = class_commitment HEIGHT hs w'.
  Proof. intros E. apply root_ext. intros k _. now apply class_contents_weq. Qed.

  Lemma shows_trees_weq d n w w' : weq w w' ->
    shows_trees HEIGHT hs d n w -> shows_trees HEIGHT hs d n w'.
  Proof.
    intros E (X & Y & Z & R). split; [|split; [|split]]; auto. intros b Lb.
    destruct (R b Lb) as (R1 & R2 & R3). split; [|split].
    - intros k Lk. rewrite <- (state_contents_weq _ _ _ E). now apply R1.
    - intros k Lk. rewrite <- (class_contents_weq _ _ _ E). now apply R2.
    - intros a La k Lk. destruct E as (_ & _ & C & _). rewrite <- C. now apply R3.
  Qed.

  Lemma calculate_spec w v :
    calculate_state_commitment hs (storage_commitment HEIGHT hs w) (class_commitment HEIGHT hs w) v =
    state_commitment HEIGHT hs w v.
  Proof.
    unfold calculate_state_commitment, state_commitment, V_0_14_0.
    destruct (storage_commitment HEIGHT hs w) as [|sc]; destruct (class_commitment HEIGHT hs w) as [|cc]; reflexivity.
  Qed.

  (** ** Contracts that are not there *)

  Lemma class_kept us : forall w a, w_class w a <> None -> w_class (apply_updates w us) a <> None.
  Proof.
    induction us as [|u us IH]; intros w a N; auto. cbn. apply IH. unfold apply_update. cbn [w_class].
    destruct (contract_of u a) as [[s [c|] n]|]; auto. discriminate.
  Qed.

  Lemma system_kept us : forall w a, w_system w a = true -> w_system (apply_updates w us) a = true.
  Proof.
    induction us as [|u us IH]; intros w a N; auto. cbn. apply IH. unfold apply_update. cbn [w_system].
    destruct (system_of u a); auto.
  Qed.

  Lemma unnamed us : forall w a,
    (forall u, In u us -> contract_of u a = None) -> (forall u, In u us -> system_of u a = None) ->
    w_class (apply_updates w us) a = w_class w a /\ w_nonce (apply_updates w us) a = w_nonce w a /\
    w_storage (apply_updates w us) a = w_storage w a /\ w_system (apply_updates w us) a = w_system w a.
  Proof.
    induction us as [|u us IH]; intros w a N1 N2; auto. cbn [apply_updates fold_left].
    destruct (IH (apply_update w u) a) as (A & B & C & D).
    - intros; apply N1; now right.
    - intros; apply N2; now right.
    - unfold apply_updates in *. rewrite A, B, C, D. unfold apply_update. cbn [w_class w_nonce w_storage w_system].
      rewrite (N1 u (or_introl eq_refl)), (N2 u (or_introl eq_refl)). auto.
  Qed.

  Lemma no_contract us : forall w a, (forall u, In u us -> contract_of u a = None) ->
    w_class (apply_updates w us) a = w_class w a /\ w_nonce (apply_updates w us) a = w_nonce w a.
  Proof.
    induction us as [|u us IH]; intros w a N1; auto. cbn [apply_updates fold_left].
    destruct (IH (apply_update w u) a) as (A & B).
    - intros; apply N1; now right.
    - unfold apply_updates in *. rewrite A, B. unfold apply_update. cbn [w_class w_nonce].
      rewrite (N1 u (or_introl eq_refl)). auto.
  Qed.

  Lemma no_system us : forall w a, (forall u, In u us -> system_of u a = None) ->
    w_system (apply_updates w us) a = w_system w a.
  Proof.
    induction us as [|u us IH]; intros w a N1; auto. cbn [apply_updates fold_left].
    specialize (IH (apply_update w u) a). unfold apply_updates in *. rewrite IH by (intros; apply N1; now right).
    unfold apply_update. cbn [w_system]. now rewrite (N1 u (or_introl eq_refl)).
  Qed.

  Lemma system_named us : forall w a u s, In u us -> system_of u a = Some s -> w_system (apply_updates w us) a = true.
  Proof.
    induction us as [|x us IH]; intros w a u s; [intros []|]. intros [->|Hin] G; cbn [apply_updates fold_left].
    - apply (system_kept us). unfold apply_update. cbn [w_system]. now rewrite G.
    - eapply IH; eauto.
  Qed.

  Lemma tidy_genesis : tidy HEIGHT genesis.
  Proof. intros a La. repeat split. Qed.

  Lemma tidy_updates w us : Forall (well_formed HEIGHT) us -> tidy HEIGHT w -> deployed w us ->
    tidy HEIGHT (apply_updates w us).
  Proof.
    intros F T D a La. rewrite Forall_forall in F.
    assert (SC : is_system a = true -> forall u, In u us -> contract_of u a = None).
    { intros S u Hu. destruct (contract_of u a) as [c|] eqn:G; auto. exfalso.
      apply (al_get_in _ bits_eqb_spec) in G. assert (is_system a = false) by (eapply (F u Hu); eauto). congruence. }
    assert (CS : is_system a = false -> forall u, In u us -> system_of u a = None).
    { intros S u Hu. destruct (system_of u a) as [c|] eqn:G; auto. exfalso.
      apply (al_get_in _ bits_eqb_spec) in G. assert (is_system a = true) by (eapply (F u Hu); eauto). congruence. }
    destruct (T a La) as (T1 & T2 & T3). split; [|split].
    - intros S. destruct (no_contract us w a (SC S)) as [-> ->]. auto.
    - intros S. rewrite (no_system us w a (CS S)). auto.
    - intros Ab.
      assert (U1 : forall u, In u us -> contract_of u a = None).
      { intros u Hu. destruct (contract_of u a) as [c|] eqn:G; auto. exfalso.
        destruct (is_system a) eqn:S; [now rewrite (SC eq_refl u Hu) in G|].
        apply (D u a Hu); auto. eapply al_get_key; exact G. }
      assert (U2 : forall u, In u us -> system_of u a = None).
      { intros u Hu. destruct (system_of u a) as [c|] eqn:G; auto. exfalso.
        destruct (is_system a) eqn:S; [|now rewrite (CS eq_refl u Hu) in G].
        rewrite (system_named us w a u c Hu G) in Ab. discriminate. }
      destruct (unnamed us w a U1 U2) as (E1 & E2 & E3 & E4). rewrite E2, E3. apply T3.
      destruct (is_system a); congruence.
  Qed.

  (** ** One arrival *)

  Definition Inv (d : db) (n : nat) (w : world) : Prop :=
    shows_trees HEIGHT hs d n w /\ shows_rows d n w /\ tidy HEIGHT w.

  Lemma inv_empty : Inv empty_db 0 genesis.
  Proof.
    assert (B : forall A n, @bounded A n []) by (intros A n r []).
    split; [|split; [|apply tidy_genesis]].
    - split; [apply B|]. split; [apply B|]. split; [apply B|]. intros b _. split; [|split].
      + intros k Lk. unfold state_contents. cbn. now destruct (is_system k).
      + intros k Lk. reflexivity.
      + intros a La k Lk. reflexivity.
    - split; [apply B|]. split; [apply B|]. intros b _ a. split; reflexivity.
  Qed.

  Lemma wf_nodup u : well_formed HEIGHT u -> NoDup (keys (u_contracts u)).
  Proof. intros W; apply W. Qed.

  Lemma nonce_sys d n block w a : shows_rows d n w -> n <= S block -> w_nonce w a = 0%N ->
    nonce_at d block a = None \/ nonce_at d block a = Some 0%N.
  Proof.
    intros (_ & _ & R) L E. destruct (R block L a) as [_ RN]. rewrite E in RN.
    destruct (nonce_at d block a) as [x|]; auto. right. now rewrite RN.
  Qed.

  (** Nonces of system contracts, whatever their length: nothing writes them. *)
  Definition no_system_nonce (w : world) : Prop := forall a, is_system a = true -> w_nonce w a = 0%N.

  Lemma no_system_nonce_updates w us : Forall (well_formed HEIGHT) us -> no_system_nonce w ->
    no_system_nonce (apply_updates w us).
  Proof.
    intros F Z a S. rewrite Forall_forall in F.
    assert (SC : forall u, In u us -> contract_of u a = None).
    { intros u Hu. destruct (contract_of u a) as [c|] eqn:G; auto. exfalso.
      apply (al_get_in _ bits_eqb_spec) in G. assert (is_system a = false) by (eapply (F u Hu); eauto). congruence. }
    destruct (no_contract us w a SC) as [_ ->]. now apply Z.
  Qed.

  Lemma named_deployed w u : named u w <-> deployed w [u].
  Proof.
    unfold named, deployed. cbn. split.
    - intros N u' a [<-|[]] Ha. now apply N.
    - intros D a Ha. apply (D u a); auto.
  Qed.

  Lemma expected_eq (c : felt) (e : option felt) :
    (match e with Some e => (c =? e)%N | None => true end) = true <->
    match e with Some e => e = c | None => True end.
  Proof. destruct e as [e|]; [|tauto]. rewrite N.eqb_eq. split; congruence. Qed.

  Lemma arrive_spec d n w s :
    Inv d n w -> no_system_nonce w -> Forall (well_formed HEIGHT) (blocks_of s) -> plain_batch s ->
    let w' := apply_updates w (blocks_of s) in
    (acceptable HEIGHT hs w s ->
       exists d', arrive HEIGHT hs d n s = Some (d', state_commitment HEIGHT hs w' (version_of s)) /\
                  Inv d' (n + length (blocks_of s)) w') /\
    (~ acceptable HEIGHT hs w s -> arrive HEIGHT hs d n s = None).
  Proof.
    intros (TT & RR & T) Z F PB w'.
    assert (Fin : forall d', shows_trees HEIGHT hs d' (n + length (blocks_of s)) w' ->
              shows_rows d' (n + length (blocks_of s)) w' -> deployed w (blocks_of s) ->
              Inv d' (n + length (blocks_of s)) w').
    { intros d' A B D. split; auto. split; auto. now apply tidy_updates. }
    pose proof (no_system_nonce_updates w (blocks_of s) F Z) as Z'.
    destruct s as [u v e|u v e|us v e]; cbn [blocks_of version_of expected_of arrive] in *.
    - (* gateway *)
      inversion F as [|? ? Wu _]; subst. cbn [length] in *. rewrite Nat.add_1_r in *. cbn [length] in Fin.
      destruct (update_state_spec HEIGHT hs d d n w u Wu T TT RR TT
        (fun a S => nonce_sys d n n w a RR ltac:(lia) (Z a S))) as [U1 U2].
      unfold acceptable, l2_update. cbn [blocks_of version_of expected_of]. split.
      + intros [D E]. destruct (U1 (proj2 (named_deployed w u) D)) as (d' & G & ST & C1 & C2).
        rewrite G, calculate_spec.
        change (apply_update w u) with w' in *.
        assert (X : (match e with Some e => (state_commitment HEIGHT hs w' v =? e)%N | None => true end) = true)
          by (apply expected_eq; exact E).
        rewrite X. eexists. split; [reflexivity|]. apply Fin; [exact ST| |exact D].
        apply (rows_step d' n w u); [now apply wf_nodup|]. now apply (shows_rows_ext d).
      + intros NA. destruct (update_starknet_state HEIGHT hs d d n u) as [[d' [sc cc]]|] eqn:G; auto.
        assert (Nm : ~ ~ named u w).
        { intros Nn. apply U2 in Nn. congruence. }
        destruct (match e with Some e => (calculate_state_commitment hs sc cc v =? e)%N | None => true end) eqn:X; auto.
        exfalso. apply Nm. intros Nn. destruct (U1 Nn) as (d2 & G2 & _). injection G2 as _ Esc Ecc. rewrite Esc, Ecc in X.
        rewrite calculate_spec in X. apply expected_eq in X.
        apply NA. split; [now apply named_deployed|exact X].
    - (* track *)
      inversion F as [|? ? Wu _]; subst. cbn [length] in *. rewrite Nat.add_1_r in *. cbn [length] in Fin.
      pose proof (rows_step d n w u (wf_nodup u Wu) RR) as RS.
      assert (TS : shows_trees HEIGHT hs (insert_state_update_data d n u) n w)
        by (eapply shows_trees_ext; [| | |exact TT]; reflexivity).
      destruct (update_state_spec HEIGHT hs d (insert_state_update_data d n u) n w u Wu T TT RR TS
        (fun a Sy => nonce_sys _ (S n) n w' a RS ltac:(lia) (Z' a Sy))) as [U1 U2].
      unfold acceptable, track_update. cbn [blocks_of version_of expected_of]. split.
      + intros [D E]. destruct (U1 (proj2 (named_deployed w u) D)) as (d' & G & ST & C1 & C2).
        rewrite G, calculate_spec. change (apply_update w u) with w' in *.
        assert (X : (state_commitment HEIGHT hs w' v =? e)%N = true) by (apply N.eqb_eq; symmetry; exact E).
        rewrite X. eexists. split; [reflexivity|]. apply Fin; [exact ST| |exact D].
        now apply (shows_rows_ext (insert_state_update_data d n u)).
      + intros NA. destruct (update_starknet_state HEIGHT hs d (insert_state_update_data d n u) n u) as [[d' [sc cc]]|] eqn:G; auto.
        assert (Nm : ~ ~ named u w).
        { intros Nn. apply U2 in Nn. congruence. }
        destruct (calculate_state_commitment hs sc cc v =? e)%N eqn:X; auto.
        exfalso. apply Nm. intros Nn. destruct (U1 Nn) as (d2 & G2 & _). injection G2 as _ Esc Ecc. rewrite Esc, Ecc in X.
        rewrite calculate_spec in X. apply N.eqb_eq in X.
        apply NA. split; [now apply named_deployed|]. symmetry. exact X.
    - (* batch *)
      destruct PB as [Ne Mg].
      assert (W0 : well_formed HEIGHT (mkUpdate [] [] [] [])).
      { repeat split; try constructor; try (intros ? []); try (intros; contradiction). all: cbn in *; contradiction. }
      destruct (merge_all HEIGHT us (mkUpdate [] [] [] []) W0 eq_refl F Mg) as (Wm & Am & Km).
      change (fold_left merge_one us (mkUpdate [] [] [] [])) with (merge_state_updates us) in *.
      set (tail := n + length us - 1).
      assert (Lu : 0 < length us) by (destruct us; [congruence|cbn; lia]).
      assert (Et : S tail = n + length us) by (unfold tail; lia).
      assert (Eq : weq (apply_update w (merge_state_updates us)) w').
      { eapply weq_trans; [apply Am|]. apply apply_updates_weq. unfold apply_update. cbn. repeat split. }
      assert (Nd : named (merge_state_updates us) w <-> deployed w us).
      { unfold named, deployed. destruct Eq as (Ec & _). split.
        - intros N u a Hu Ha. fold w'. rewrite <- Ec. apply N. apply Km. right. exists u. auto.
        - intros D a Ha. rewrite Ec. apply Km in Ha. destruct Ha as [[]|(u & Hu & Ha)]. apply (D u a); auto. }
      assert (NDs : forall u, In u us -> NoDup (keys (u_contracts u))).
      { intros u Hu. rewrite Forall_forall in F. apply wf_nodup. auto. }
      pose proof (rows_all us d n w NDs RR) as RS. fold w' in RS.
      assert (TS : shows_trees HEIGHT hs (insert_all d n us) tail w).
      { destruct (insert_all_trees us d n) as (A & B & C).
        eapply shows_trees_ext; [exact A|exact B|exact C|].
        eapply shows_trees_later; [exact TT|unfold tail; lia]. }
      assert (Lt : n <= tail) by (unfold tail; lia).
      assert (Lt' : n + length us <= S tail) by lia.
      destruct (update_state_spec HEIGHT hs d (insert_all d n us) tail w (merge_state_updates us) Wm T
        (shows_trees_later _ _ _ _ _ _ TT Lt) (shows_rows_later _ _ _ _ RR Lt) TS
        (fun a Sy => nonce_sys _ (n + length us) tail w' a RS Lt' (Z' a Sy))) as [U1 U2].
      unfold acceptable, batch_update. cbn [blocks_of version_of expected_of]. fold tail. fold w'. split.
      + intros [D E]. destruct (U1 (proj2 Nd D)) as (d' & G & ST & C1 & C2).
        rewrite (sc_weq _ _ Eq), (cc_weq _ _ Eq) in G.
        rewrite G, calculate_spec.
        assert (X : (state_commitment HEIGHT hs w' v =? e)%N = true) by (apply N.eqb_eq; symmetry; exact E).
        rewrite X. eexists. split; [reflexivity|]. apply Fin; [| |exact D].
        * rewrite <- Et. eapply shows_trees_weq; [exact Eq|exact ST].
        * now apply (shows_rows_ext (insert_all d n us)).
      + intros NA. destruct (update_starknet_state HEIGHT hs d (insert_all d n us) tail (merge_state_updates us)) as [[d' [sc cc]]|] eqn:G; auto.
        assert (Nm : ~ ~ named (merge_state_updates us) w).
        { intros Nn. apply U2 in Nn. congruence. }
        destruct (calculate_state_commitment hs sc cc v =? e)%N eqn:X; auto.
        exfalso. apply Nm. intros Nn. destruct (U1 Nn) as (d2 & G2 & _). injection G2 as _ Esc Ecc. rewrite Esc, Ecc in X.
        rewrite (sc_weq _ _ Eq), (cc_weq _ _ Eq), calculate_spec in X. apply N.eqb_eq in X.
        apply NA. split; [now apply Nd|]. symmetry. exact X.
  Qed.

  (** ** Histories *)

  Lemma apply_updates_app w us1 us2 : apply_updates w (us1 ++ us2) = apply_updates (apply_updates w us1) us2.
  Proof. unfold apply_updates. apply fold_left_app. Qed.

  Lemma node_spec l : forall d n w, Inv d n w -> no_system_nonce w ->
    Forall (well_formed HEIGHT) (all_blocks l) -> (forall s, In s l -> plain_batch s) ->
    (all_acceptable HEIGHT hs w l ->
       exists d', node HEIGHT hs d n l = Some (d', commitments HEIGHT hs w l) /\
                  tidy HEIGHT (apply_updates w (all_blocks l))) /\
    (node HEIGHT hs d n l <> None -> all_acceptable HEIGHT hs w l).
  Proof.
    induction l as [|s l IH]; intros d n w I Z F P.
    - cbn. split; auto. intros _. exists d. split; auto. apply I.
    - cbn [all_blocks flat_map] in *. apply Forall_app in F. destruct F as [F1 F2].
      destruct (arrive_spec d n w s I Z F1 (P s (or_introl eq_refl))) as [A1 A2].
      pose proof (no_system_nonce_updates w _ F1 Z) as Z'.
      cbn [all_acceptable node commitments]. split.
      + intros [As Al]. destruct (A1 As) as (d' & G & I'). rewrite G.
        destruct (IH d' _ _ I' Z' F2 (fun s' Hs => P s' (or_intror Hs))) as [B1 _].
        destruct (B1 Al) as (d2 & G2 & T2). rewrite G2. exists d2. split; auto.
        rewrite apply_updates_app. exact T2.
      + intros N. destruct (arrive HEIGHT hs d n s) as [[d' c]|] eqn:G; [|congruence].
        assert (As : acceptable HEIGHT hs w s).
        { (* decidable: otherwise it would have been refused *)
          assert (NN : ~ ~ acceptable HEIGHT hs w s) by (intros X; apply A2 in X; congruence).
          unfold acceptable in *.
          assert (D : deployed w (blocks_of s)).
          { intros u a Hu Ha E. apply NN. intros [D _]. now apply (D u a Hu Ha). }
          split; auto. destruct (expected_of s) as [e|]; auto.
          destruct (N.eq_dec e (state_commitment HEIGHT hs (apply_updates w (blocks_of s)) (version_of s))); auto.
          exfalso. apply NN. intros [_ E]. contradiction. }
        split; auto. destruct (A1 As) as (d2 & G2 & I'). injection G2 as Ed _. rewrite <- Ed in I'.
        destruct (IH d' _ _ I' Z' F2 (fun s' Hs => P s' (or_intror Hs))) as [_ B2].
        apply B2. destruct (node HEIGHT hs d' (n + length (blocks_of s)) l) as [[? ?]|]; [discriminate|congruence].
  Qed.
End Run.
