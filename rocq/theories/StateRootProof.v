(** Proofs about the state commitment: the trees hold what the state has. *)
From Coq Require Import List Bool Arith NArith Lia.
From Verif Require Import AList MerkleModel MerkleSpec MerkleProof TrieDbProof VersionModel
  CommitModel StateRootModel StateRootSpec.
Import ListNotations.

(** ** Rows *)

Definition bounded {A} (n : nat) (rows : list (nat * A)) : Prop := forall r, In r rows -> fst r < n.

Lemma newest_in {A} b (rows : list (nat * A)) n x : newest b rows = Some (n, x) -> In (n, x) rows.
Proof.
  revert n x. induction rows as [|[m y] rows IH]; intros n x; simpl; [discriminate|].
  destruct (newest b rows) as [[n' x']|].
  - destruct ((m <=? b) && (n' <=? m)); intros [= <- <-]; auto.
  - destruct (m <=? b); intros [= <- <-]; auto.
Qed.

Lemma newest_top {A} b n (x : A) rows : bounded (S n) rows -> n <= b ->
  newest b ((n, x) :: rows) = Some (n, x).
Proof.
  intros B L. simpl. assert (E : (n <=? b) = true) by now apply Nat.leb_le. rewrite E.
  destruct (newest b rows) as [[n' x']|] eqn:G; auto.
  apply newest_in in G. apply B in G. simpl in G.
  assert (E' : (n' <=? n) = true) by (apply Nat.leb_le; lia). rewrite E'. reflexivity.
Qed.

Lemma newest_low {A} b b' n (rows : list (nat * A)) : bounded n rows -> n <= S b -> n <= S b' ->
  newest b rows = newest b' rows.
Proof.
  intros B L L'. induction rows as [|[m y] rows IH]; simpl; auto.
  assert (Hm : m < n) by (apply (B (m, y)); left; auto).
  rewrite IH by (intros r Hr; apply B; right; auto).
  assert (E : (m <=? b) = true) by (apply Nat.leb_le; lia).
  assert (E' : (m <=? b') = true) by (apply Nat.leb_le; lia).
  now rewrite E, E'.
Qed.

Lemma bounded_filter {A} n f (rows : list (nat * A)) : bounded n rows -> bounded n (filter f rows).
Proof. intros B r Hr. apply filter_In in Hr. apply B. tauto. Qed.

Lemma bounded_mono {A} n n' (rows : list (nat * A)) : bounded n rows -> n <= n' -> bounded n' rows.
Proof. intros B L r Hr. apply B in Hr. lia. Qed.

Lemma bounded_of {A} n a (rows : list (nat * (bits * A))) : bounded n rows -> bounded n (of_contract a rows).
Proof.
  intros B r Hr. unfold of_contract in Hr. apply in_flat_map in Hr. destruct Hr as ([m [a' y]] & Hin & Hr).
  simpl in Hr. destruct (bits_eqb a a'); [|contradiction]. destruct Hr as [<-|[]]. apply (B _ Hin).
Qed.

Lemma of_contract_app {A} a (r1 r2 : list (nat * (bits * A))) :
  of_contract a (r1 ++ r2) = of_contract a r1 ++ of_contract a r2.
Proof. unfold of_contract. apply flat_map_app. Qed.

Lemma bits_eqb_neq a b : a <> b -> bits_eqb a b = false.
Proof. intros. destruct (bits_eqb_spec a b); congruence. Qed.

Lemma get_cons {A} a k (v : A) m :
  al_get bits_eqb a ((k, v) :: m) = if bits_eqb a k then Some v else al_get bits_eqb a m.
Proof. reflexivity. Qed.

(** ** Root rows of one contract *)

Definition rows_after (block : nat) (rows : list (nat * contents)) (o : option contents)
  : list (nat * contents) :=
  match o with
  | Some t => (block, t) :: filter (fun r => negb (fst r =? block)) rows
  | None => rows
  end.

Definition root_rows (d : db) (a : bits) := of_contract a (d_contract_roots d).

Lemma root_rows_insert_same d block a t :
  root_rows (insert_contract_root d block a t) a = rows_after block (root_rows d a) (Some t).
Proof.
  unfold root_rows, insert_contract_root, rows_after. cbn [d_contract_roots].
  unfold of_contract at 1. cbn [flat_map fst snd]. rewrite bits_eqb_refl. cbn [app]. f_equal.
  induction (d_contract_roots d) as [|[m [a' y]] l IH]; auto.
  cbn [filter fst snd]. unfold of_contract in *. cbn [flat_map fst snd].
  destruct (bits_eqb_spec a a') as [<-|Na]; cbn [app filter fst].
  - rewrite andb_true_r. destruct (m =? block); cbn [negb flat_map fst snd]; auto.
    rewrite bits_eqb_refl. cbn [app]. now f_equal.
  - rewrite andb_false_r. cbn [negb flat_map fst snd]. rewrite bits_eqb_neq by auto. auto.
Qed.

Lemma root_rows_insert_other d block a a' t : a <> a' ->
  root_rows (insert_contract_root d block a' t) a = root_rows d a.
Proof.
  intros Na. unfold root_rows, insert_contract_root. cbn [d_contract_roots].
  unfold of_contract at 1. cbn [flat_map fst snd]. rewrite bits_eqb_neq by auto. cbn [app].
  induction (d_contract_roots d) as [|[m [b y]] l IH]; auto.
  cbn [filter fst snd]. unfold of_contract in *. cbn [flat_map fst snd].
  destruct (bits_eqb_spec a' b) as [<-|Nb].
  - rewrite (bits_eqb_neq a a' Na). destruct (m =? block); cbn [andb negb flat_map fst snd app]; auto.
    rewrite (bits_eqb_neq a a' Na). auto.
  - rewrite andb_false_r. cbn [negb flat_map fst snd]. now rewrite IH.
Qed.

(** The other tables. *)
Definition others (d : db) := (d_storage_roots d, d_class_roots d, d_classes d, d_nonces d).

Lemma others_insert_result d block r : others (insert_result d block r) = others d.
Proof. unfold insert_result. destruct (r_tree r); reflexivity. Qed.

Lemma root_rows_insert_result d block r a :
  root_rows (insert_result d block r) a =
  if bits_eqb a (r_address r) then rows_after block (root_rows d a) (r_tree r) else root_rows d a.
Proof.
  unfold insert_result. destruct (r_tree r) as [t|]; destruct (bits_eqb_spec a (r_address r)) as [->|N]; auto.
  - apply root_rows_insert_same.
  - now apply root_rows_insert_other.
Qed.

Lemma bounded_insert_result n d block r : block < n ->
  bounded n (d_contract_roots d) -> bounded n (d_contract_roots (insert_result d block r)).
Proof.
  intros L B. unfold insert_result. destruct (r_tree r); auto.
  intros x [<-|Hx]; auto. apply filter_In in Hx. apply B. tauto.
Qed.

Section Commit.
  Variable HEIGHT : nat.
  Variable hs : hashes.

  Notation H := (pedersen hs).
  Definition same_map (m m' : contents) : Prop := forall k, length k = HEIGHT -> m k = m' k.

  Lemma same_map_refl m : same_map m m. Proof. intros k _; auto. Qed.
  Lemma same_map_trans m1 m2 m3 : same_map m1 m2 -> same_map m2 m3 -> same_map m1 m3.
  Proof. intros A B k L. rewrite A, B; auto. Qed.

  Lemma root_ext F m m' : same_map m m' -> spec_root F HEIGHT m = spec_root F HEIGHT m'.
  Proof. intros E. unfold spec_root. now rewrite (summary_ext F HEIGHT m m' E). Qed.

  Lemma same_puts m m' s : same_map m m' -> lengths HEIGHT s -> same_map (puts m s) (puts m' s).
  Proof.
    intros E L k Lk. apply (puts_ext m m' HEIGHT); auto.
    intros k' v Hin. apply L. unfold keys. change k' with (fst (k', v)). now apply in_map.
  Qed.

  Definition dflt (o : option contents) : contents := match o with Some t => t | None => no_contents end.

  Lemma at_parent_dflt block load :
    at_parent block load = match block with 0 => no_contents | S p => dflt (load p) end.
  Proof. destruct block; reflexivity. Qed.

  Lemma ucs_unfold d block a st nn nc (cls : option felt) (nonce : felt) :
    (if is_system a then Some 0%N else match nc with Some c => Some c | None => class_hash_at d block a end) = cls ->
    match nn with Some n => n | None => match nonce_at d block a with Some n => n | None => 0%N end end = nonce ->
    update_contract_state HEIGHT hs d block a st nn nc =
    match cls with
    | None => None
    | Some c =>
        Some (mkResult a
          (leaf hs c match st with
             | [] => match contract_root_at d block a with Some t => spec_root H HEIGHT t | None => 0%N end
             | _ :: _ => spec_root H HEIGHT (puts (at_parent block (fun p => contract_root_at d p a)) st)
             end nonce)
          match st with
          | [] => None
          | _ :: _ => Some (puts (at_parent block (fun p => contract_root_at d p a)) st)
          end)
    end.
  Proof. intros <- <-. destruct st; reflexivity. Qed.

  (** What an update of one contract reads and gives. *)
  Lemma ucs_value d block a st nn nc (m : contents) (cls : option felt) (nonce : felt) :
    lengths HEIGHT st ->
    same_map (at_parent block (fun p => contract_root_at d p a)) m ->
    same_map (dflt (contract_root_at d block a)) m ->
    (if is_system a then Some 0%N else match nc with Some c => Some c | None => class_hash_at d block a end) = cls ->
    match nn with Some n => n | None => match nonce_at d block a with Some n => n | None => 0%N end end = nonce ->
    match cls with
    | None => update_contract_state HEIGHT hs d block a st nn nc = None
    | Some c => exists o,
        update_contract_state HEIGHT hs d block a st nn nc =
          Some (mkResult a (leaf hs c (spec_root H HEIGHT (puts m st)) nonce) o) /\
        match o with Some t => same_map t (puts m st) | None => st = [] end
    end.
  Proof.
    intros Ls P B C N. rewrite (ucs_unfold _ _ _ _ _ _ _ _ C N).
    destruct cls as [c|]; auto. destruct st as [|kv st].
    - exists None. split; auto. f_equal. f_equal. f_equal.
      cbn [puts fold_left]. rewrite <- (root_ext H _ _ B).
      destruct (contract_root_at d block a); cbn [dflt]; auto.
      symmetry. apply spec_root_empty. intros; reflexivity.
    - eexists. split.
      + f_equal. f_equal. f_equal.
        apply root_ext. apply same_puts; [exact P|exact Ls].
      + apply same_puts; [exact P|exact Ls].
  Qed.

  Lemma ucs_ext d d' block a st nn nc :
    root_rows d a = root_rows d' a -> d_classes d = d_classes d' -> d_nonces d = d_nonces d' ->
    update_contract_state HEIGHT hs d block a st nn nc = update_contract_state HEIGHT hs d' block a st nn nc.
  Proof.
    unfold root_rows. intros R C N. unfold update_contract_state.
    assert (E : forall p, contract_root_at d p a = contract_root_at d' p a)
      by (intros; unfold contract_root_at; now rewrite R).
    assert (E2 : class_hash_at d block a = class_hash_at d' block a) by (unfold class_hash_at; now rewrite C).
    assert (E3 : nonce_at d block a = nonce_at d' block a) by (unfold nonce_at; now rewrite N).
    rewrite E2, E3, E.
    assert (E4 : at_parent block (fun p => contract_root_at d p a) =
                 at_parent block (fun p => contract_root_at d' p a)).
    { destruct block as [|p]; auto. cbn [at_parent]. now rewrite E. }
    now rewrite E4.
  Qed.

  Lemma ucs_address d block a st nn nc r :
    update_contract_state HEIGHT hs d block a st nn nc = Some r -> r_address r = a.
  Proof.
    unfold update_contract_state.
    destruct st; destruct (if is_system a then _ else _); try discriminate; intros [= <-]; reflexivity.
  Qed.

  (** The contracts of an update. *)
  Definition ucs1 (ro : db) (block : nat) (a : bits) (c : contract_update) :=
    update_contract_state HEIGHT hs ro block a (c_storage c) (c_nonce c) (c_class c).

  Lemma contract_results_none ro block cs :
    contract_results HEIGHT hs ro block cs = None <->
    exists a c, In (a, c) cs /\ ucs1 ro block a c = None.
  Proof.
    unfold ucs1. induction cs as [|[a c] cs IH]; simpl.
    - split; [discriminate|]. intros (? & ? & [] & _).
    - destruct (update_contract_state HEIGHT hs ro block a _ _ _) as [r|] eqn:G.
      + destruct (contract_results HEIGHT hs ro block cs) as [rs|].
        * split; [discriminate|]. intros (a' & c' & [E|Hin] & N).
          -- injection E as <- <-. congruence.
          -- assert (X : exists a c, In (a, c) cs /\ update_contract_state HEIGHT hs ro block a (c_storage c) (c_nonce c) (c_class c) = None) by eauto.
             apply IH in X. discriminate.
        * split; auto. intros _. destruct (proj1 IH eq_refl) as (a' & c' & Hin & N). eauto 6.
      + split; auto. intros _. exists a, c. auto.
  Qed.

  Lemma contract_results_some ro block cs : forall rs, contract_results HEIGHT hs ro block cs = Some rs ->
    Forall2 (fun ac r => ucs1 ro block (fst ac) (snd ac) = Some r) cs rs.
  Proof.
    unfold ucs1. induction cs as [|[a c] cs IH]; simpl; intros rs.
    - intros [= <-]. constructor.
    - destruct (update_contract_state HEIGHT hs ro block a _ _ _) as [r|] eqn:G; [|discriminate].
      destruct (contract_results HEIGHT hs ro block cs) as [rs'|]; [|discriminate].
      intros [= <-]. constructor; auto.
  Qed.

  Lemma apply_results_cons d block t r rs :
    apply_results d block t (r :: rs) = apply_results (insert_result d block r) block (put t (r_address r) (r_state_hash r)) rs.
  Proof. reflexivity. Qed.

  Lemma apply_results_spec ro block cs rs :
    Forall2 (fun ac r => ucs1 ro block (fst ac) (snd ac) = Some r) cs rs ->
    NoDup (keys cs) -> forall d t d1 t1, apply_results d block t rs = (d1, t1) ->
    others d1 = others d /\
    (forall n, block < n -> bounded n (d_contract_roots d) -> bounded n (d_contract_roots d1)) /\
    forall a,
      match al_get bits_eqb a cs with
      | Some c => exists r, ucs1 ro block a c = Some r /\ t1 a = r_state_hash r /\
                            root_rows d1 a = rows_after block (root_rows d a) (r_tree r)
      | None => t1 a = t a /\ root_rows d1 a = root_rows d a
      end.
  Proof.
    induction 1 as [|[a0 c0] r0 cs rs G F IH]; intros ND d t d1 t1 E.
    - unfold apply_results in E. cbn [fold_left] in E. injection E as <- <-. repeat split; auto.
    - rewrite apply_results_cons in E. inversion ND as [|? ? Nin ND']; subst. cbn [fst snd] in *.
      specialize (IH ND' _ _ _ _ E). destruct IH as (O & B & S).
      assert (Ea : r_address r0 = a0) by (eapply ucs_address; exact G).
      rewrite others_insert_result in O. split; auto. split.
      { intros n L Bn. apply B; auto. now apply bounded_insert_result. }
      intros a. specialize (S a). rewrite get_cons. rewrite root_rows_insert_result, Ea in S.
      destruct (bits_eqb_spec a a0) as [E1|Na]; [subst a|].
      + assert (E0 : al_get bits_eqb a0 cs = None)
          by (apply al_not_in_get_none; [apply bits_eqb_spec|exact Nin]).
        rewrite E0 in S.  destruct S as [S1 S2]. exists r0. repeat split; auto.
        rewrite S1. unfold put. now rewrite bits_eqb_refl.
      + destruct (al_get bits_eqb a cs); auto.
        destruct S as [S1 S2]. split; auto. rewrite S1. unfold put. now rewrite bits_eqb_neq.
  Qed.

  (** The system contracts. *)
  Lemma apply_system_spec block ss : NoDup (keys ss) -> (forall a, In a (keys ss) -> is_system a = true) ->
    forall d t, exists d2 t2, apply_system HEIGHT hs d block t ss = Some (d2, t2) /\
    others d2 = others d /\
    (forall n, block < n -> bounded n (d_contract_roots d) -> bounded n (d_contract_roots d2)) /\
    forall a,
      match al_get bits_eqb a ss with
      | Some s => exists r, update_contract_state HEIGHT hs d block a s None None = Some r /\
                            t2 a = r_state_hash r /\
                            root_rows d2 a = rows_after block (root_rows d a) (r_tree r)
      | None => t2 a = t a /\ root_rows d2 a = root_rows d a
      end.
  Proof.
    induction ss as [|[a0 s0] ss IH]; intros ND Sys d t.
    - exists d, t. repeat split; auto.
    - inversion ND as [|? ? Nin ND']; subst. cbn [fst] in *. cbn [apply_system].
      assert (Y : is_system a0 = true) by (apply Sys; left; reflexivity).
      destruct (update_contract_state HEIGHT hs d block a0 s0 None None) as [r0|] eqn:G.
      2:{ exfalso. unfold update_contract_state in G. rewrite Y in G. destruct s0; discriminate. }
      assert (Ea : r_address r0 = a0) by (eapply ucs_address; exact G).
      destruct (IH ND' (fun a Ha => Sys a (or_intror Ha)) (insert_result d block r0) (put t a0 (r_state_hash r0)))
        as (d2 & t2 & E & O & B & S).
      exists d2, t2. split; auto. pose proof (others_insert_result d block r0) as OO.
      split; [congruence|]. split.
      { intros n L Bn. apply B; auto. now apply bounded_insert_result. }
      intros a. specialize (S a). rewrite get_cons. rewrite root_rows_insert_result, Ea in S.
      destruct (bits_eqb_spec a a0) as [E1|Na]; [subst a|].
      + assert (E0 : al_get bits_eqb a0 ss = None)
          by (apply al_not_in_get_none; [apply bits_eqb_spec|exact Nin]).
        rewrite E0 in S. destruct S as [S1 S2]. exists r0. repeat split; auto.
        rewrite S1. unfold put. now rewrite bits_eqb_refl.
      + destruct (al_get bits_eqb a ss) as [s|].
        * destruct S as (r & R1 & R2 & R3). exists r. split; auto.
          rewrite <- R1. apply ucs_ext.
          -- rewrite root_rows_insert_result, Ea. now rewrite bits_eqb_neq.
          -- unfold others in OO. congruence.
          -- unfold others in OO. congruence.
        * destruct S as [S1 S2]. split; auto. rewrite S1. unfold put. now rewrite bits_eqb_neq.
  Qed.

  Lemma puts_leaves k l t : NoDup (keys l) ->
    fold_left (fun t kv => put t (fst kv) (class_leaf_hash hs (snd kv))) l t k =
    match al_get bits_eqb k l with Some h => class_leaf_hash hs h | None => t k end.
  Proof.
    revert t. induction l as [|[k0 h0] l IH]; intros t ND; auto. inversion ND; subst.
    cbn [fold_left fst snd]. rewrite get_cons, IH by auto.
    destruct (bits_eqb_spec k k0) as [->|N].
    - rewrite al_not_in_get_none; [|apply bits_eqb_spec|auto]. unfold put. now rewrite bits_eqb_refl.
    - destruct (al_get bits_eqb k l); auto. unfold put. now rewrite bits_eqb_neq.
  Qed.

  Lemma apply_classes_spec w t u : NoDup (keys (u_declared u)) -> NoDup (keys (u_migrated u)) ->
    same_map t (class_contents hs w) ->
    same_map (apply_classes hs t u) (class_contents hs (apply_update w u)).
  Proof.
    intros N1 N2 E k Lk. unfold apply_classes. rewrite fold_left_app, puts_leaves by auto.
    unfold class_contents, apply_update, class_leaf_hash. cbn [w_casm].
    destruct (al_get bits_eqb k (u_migrated u)); auto.
    rewrite puts_leaves by auto. unfold class_leaf_hash.
    destruct (al_get bits_eqb k (u_declared u)); auto. now rewrite E.
  Qed.

  (** ** The whole update *)

  (** What a database shows of the state at a block: the trees.. *)
  Definition shows_trees (d : db) (block : nat) (w : world) : Prop :=
    bounded block (d_contract_roots d) /\ bounded block (d_storage_roots d) /\ bounded block (d_class_roots d) /\
    forall b, block <= S b ->
      same_map (dflt (storage_root_at d b)) (state_contents HEIGHT hs w) /\
      same_map (dflt (class_root_at d b)) (class_contents hs w) /\
      forall a, length a = HEIGHT -> same_map (dflt (contract_root_at d b a)) (w_storage w a).
  (** .. and the classes and nonces. *)
  Definition shows_rows (d : db) (block : nat) (w : world) : Prop :=
    bounded block (d_classes d) /\ bounded block (d_nonces d) /\
    forall b, block <= S b -> forall a,
      class_hash_at d b a = w_class w a /\
      match nonce_at d b a with Some n => n | None => 0%N end = w_nonce w a.

  (** Nothing is known of contracts that are not there. *)
  Definition tidy (w : world) : Prop :=
    forall a, length a = HEIGHT ->
      (is_system a = true -> w_class w a = None /\ w_nonce w a = 0%N) /\
      (is_system a = false -> w_system w a = false) /\
      ((if is_system a then w_system w a = false else w_class w a = None) ->
       w_nonce w a = 0%N /\ forall k, length k = HEIGHT -> w_storage w a k = 0%N).

  Lemma shows_trees_later d n block w : shows_trees d n w -> n <= block -> shows_trees d block w.
  Proof.
    intros (B1 & B2 & B3 & R) L. repeat split; try (eapply bounded_mono; eauto);
      apply R; auto; lia.
  Qed.

  Lemma shows_rows_later d n block w : shows_rows d n w -> n <= block -> shows_rows d block w.
  Proof.
    intros (B1 & B2 & R) L. repeat split; try (eapply bounded_mono; eauto);
      apply R; auto; lia.
  Qed.

  Lemma bounded_nil {A} (rows : list (nat * A)) : bounded 0 rows -> rows = [].
  Proof. destruct rows as [|r l]; auto. intros B. specialize (B r (or_introl eq_refl)). lia. Qed.

  (** Reading at the parent, at genesis too. *)
  Lemma parent_storage d block w : shows_trees d block w ->
    same_map (at_parent block (storage_root_at d)) (state_contents HEIGHT hs w).
  Proof.
    intros (B1 & B2 & B3 & R). destruct block as [|p]; cbn [at_parent].
    - destruct (R 0 ltac:(lia)) as [E _]. apply bounded_nil in B2. unfold storage_root_at in E.
      rewrite B2 in E. exact E.
    - now destruct (R p ltac:(lia)) as [E _].
  Qed.
  Lemma parent_class d block w : shows_trees d block w ->
    same_map (at_parent block (class_root_at d)) (class_contents hs w).
  Proof.
    intros (B1 & B2 & B3 & R). destruct block as [|p]; cbn [at_parent].
    - destruct (R 0 ltac:(lia)) as (_ & E & _). apply bounded_nil in B3. unfold class_root_at in E.
      rewrite B3 in E. exact E.
    - now destruct (R p ltac:(lia)) as (_ & E & _).
  Qed.
  Lemma parent_contract d block w a : length a = HEIGHT -> shows_trees d block w ->
    same_map (at_parent block (fun p => contract_root_at d p a)) (w_storage w a).
  Proof.
    intros La (B1 & B2 & B3 & R). destruct block as [|p]; cbn [at_parent].
    - destruct (R 0 ltac:(lia)) as (_ & _ & E). specialize (E a La). apply bounded_nil in B1. unfold contract_root_at in E.
      rewrite B1 in E. exact E.
    - destruct (R p ltac:(lia)) as (_ & _ & E). exact (E a La).
  Qed.
  Lemma here_contract d block w a : length a = HEIGHT -> shows_trees d block w ->
    same_map (dflt (contract_root_at d block a)) (w_storage w a).
  Proof. intros La (_ & _ & _ & R). destruct (R block ltac:(lia)) as (_ & _ & E). auto. Qed.

  Lemma al_get_key {A} a (m : list (bits * A)) x : al_get bits_eqb a m = Some x -> In a (keys m).
  Proof.
    intros G. apply al_get_in in G; [|apply bits_eqb_spec]. unfold keys.
    change a with (fst (a, x)). now apply in_map.
  Qed.
  Lemma key_al_get {A} a (m : list (bits * A)) : In a (keys m) -> exists x, al_get bits_eqb a m = Some x.
  Proof. apply al_in_keys_get. apply bits_eqb_spec. Qed.

  Lemma after_rows block rows o (m0 m : contents) : bounded block rows ->
    (match o with Some t => same_map t m | None => same_map (dflt (found (newest block rows))) m end) ->
    forall b, block <= b -> same_map (dflt (found (newest b (rows_after block rows o)))) m.
  Proof.
    intros B E b L. destruct o as [t|]; cbn [rows_after].
    - rewrite newest_top; auto.
      apply bounded_filter. eapply bounded_mono; eauto.
    - rewrite (newest_low b block block); auto; lia.
  Qed.

  Definition named (u : update) (w : world) : Prop :=
    forall a, In a (keys (u_contracts u)) -> w_class (apply_update w u) a <> None.

  Lemma update_state_spec ro d block w u :
    well_formed HEIGHT u -> tidy w ->
    shows_trees ro block w -> shows_rows ro block w -> shows_trees d block w ->
    (forall a, is_system a = true -> nonce_at d block a = None \/ nonce_at d block a = Some 0%N) ->
    (named u w ->
     exists d', update_starknet_state HEIGHT hs ro d block u =
       Some (d', (storage_commitment HEIGHT hs (apply_update w u), class_commitment HEIGHT hs (apply_update w u))) /\
       shows_trees d' (S block) (apply_update w u) /\
       d_classes d' = d_classes d /\ d_nonces d' = d_nonces d) /\
    (~ named u w -> update_starknet_state HEIGHT hs ro d block u = None).
  Proof.
    intros (ND1 & ND2 & ND3 & ND4 & L1 & L2 & L3 & L4 & WC & WS) T TR RR TD NS.
    pose proof (parent_storage _ _ _ TD) as PS. pose proof (parent_class _ _ _ TD) as PC.
    (* what one contract gives *)
    assert (One : forall a c, al_get bits_eqb a (u_contracts u) = Some c ->
      match w_class (apply_update w u) a with
      | None => ucs1 ro block a c = None
      | Some cl => exists o,
          ucs1 ro block a c =
            Some (mkResult a (state_contents HEIGHT hs (apply_update w u) a) o) /\
          match o with Some t => same_map t (w_storage (apply_update w u) a)
                     | None => same_map (w_storage (apply_update w u) a) (w_storage w a) end
      end).
    { intros a c G.
      pose proof (al_get_key _ _ _ G) as Hk. pose proof (L1 a Hk) as La.
      destruct (WC a c (al_get_in _ bits_eqb_spec _ _ _ G)) as [Sys Ls].
      destruct RR as (_ & _ & RR). destruct (RR block ltac:(lia) a) as [RC RN].
      assert (EC : w_class (apply_update w u) a = match c_class c with Some x => Some x | None => w_class w a end).
      { unfold apply_update, contract_of. cbn [w_class]. rewrite G. destruct c as [s [cl|] n]; reflexivity. }
      assert (EN : w_nonce (apply_update w u) a =
        match c_nonce c with Some n => n | None => match nonce_at ro block a with Some n => n | None => 0%N end end).
      { unfold apply_update, contract_of. cbn [w_nonce]. rewrite G, RN. destruct c as [s cl [n|]]; reflexivity. }
      assert (ES : w_storage (apply_update w u) a = puts (w_storage w a) (c_storage c)).
      { unfold apply_update, contract_of. cbn [w_storage]. now rewrite G. }
      pose proof (ucs_value ro block a (c_storage c) (c_nonce c) (c_class c) (w_storage w a)
        (w_class (apply_update w u) a) (w_nonce (apply_update w u) a) Ls
        (parent_contract _ _ _ _ La TR) (here_contract _ _ _ _ La TR)) as V.
      rewrite Sys, RC, EC, EN in V. specialize (V eq_refl eq_refl). rewrite EC.
      match goal with |- match ?x with _ => _ end => destruct x as [cl|] eqn:Ecl end.
      - destruct V as (o & V1 & V2). exists o. split.
        + unfold ucs1. rewrite V1. f_equal. f_equal. unfold state_contents. rewrite Sys, EC.
          unfold storage_root. now rewrite ES, EN.
        + rewrite ES. destruct o; auto. rewrite V2. apply same_map_refl.
      - exact V. }
    assert (OneS : forall a s d0, al_get bits_eqb a (u_system u) = Some s ->
      root_rows d0 a = root_rows d a -> d_classes d0 = d_classes d -> d_nonces d0 = d_nonces d ->
      exists o, update_contract_state HEIGHT hs d0 block a s None None =
            Some (mkResult a (state_contents HEIGHT hs (apply_update w u) a) o) /\
          match o with Some t => same_map t (w_storage (apply_update w u) a)
                     | None => same_map (w_storage (apply_update w u) a) (w_storage w a) end).
    { intros a s d0 G R0 C0 N0.
      pose proof (al_get_key _ _ _ G) as Hk. pose proof (L2 a Hk) as La.
      destruct (WS a s (al_get_in _ bits_eqb_spec _ _ _ G)) as [Sys Ls].
      pose proof (ucs_value d block a s None None (w_storage w a) _ _ Ls
        (parent_contract _ _ _ _ La TD) (here_contract _ _ _ _ La TD) eq_refl eq_refl) as V.
      rewrite Sys in V. cbv beta iota in V. destruct V as (o & V1 & V2). exists o.
      assert (GC : contract_of u a = None).
      { unfold contract_of. destruct (al_get bits_eqb a (u_contracts u)) as [c|] eqn:Gc; auto.
        destruct (WC a c (al_get_in _ bits_eqb_spec _ _ _ Gc)) as [F _]. congruence. }
      assert (ES : w_storage (apply_update w u) a = puts (w_storage w a) s).
      { unfold apply_update. cbn [w_storage]. rewrite GC. unfold system_of. now rewrite G. }
      split.
      - etransitivity; [apply (ucs_ext d0 d); auto|]. etransitivity; [exact V1|]. f_equal. f_equal.
        unfold state_contents. rewrite Sys. unfold storage_root. rewrite ES.
        assert (ET : w_system (apply_update w u) a = true).
        { unfold apply_update, system_of. cbn [w_system]. now rewrite G. }
        rewrite ET. destruct (NS a Sys) as [-> | ->]; reflexivity.
      - rewrite ES. destruct o; auto. rewrite V2. apply same_map_refl. }
    unfold update_starknet_state. split.
    - intros Nm.
      destruct (contract_results HEIGHT hs ro block (u_contracts u)) as [rs|] eqn:CR.
      2:{ exfalso. apply contract_results_none in CR. destruct CR as (a & c & Hin & G).
          pose proof (al_in_get _ bits_eqb_spec _ _ _ ND1 Hin) as Ga. specialize (One a c Ga).
          specialize (Nm a (al_get_key _ _ _ Ga)). destruct (w_class (apply_update w u) a); [|congruence].
          destruct One as (o & O1 & _). congruence. }
      apply contract_results_some in CR.
      destruct (apply_results d block (at_parent block (storage_root_at d)) rs) as [d1 t1] eqn:AR.
      destruct (apply_results_spec _ _ _ _ CR ND1 _ _ _ _ AR) as (O1 & B1 & S1).
      assert (HS : forall a, In a (keys (u_system u)) -> is_system a = true).
      { intros a Ha. destruct (key_al_get _ _ Ha) as (s & G).
        now destruct (WS a s (al_get_in _ bits_eqb_spec _ _ _ G)). }
      destruct (apply_system_spec block (u_system u) ND2 HS d1 t1) as (d2 & t2 & AS & O2 & B2 & S2).
      rewrite AS.
      assert (EO : others d2 = others d) by congruence. unfold others in EO.
      assert (X1 : d_classes d2 = d_classes d) by congruence. assert (X2 : d_nonces d2 = d_nonces d) by congruence.
      assert (X3 : d_storage_roots d2 = d_storage_roots d) by congruence.
      assert (X4 : d_class_roots d2 = d_class_roots d) by congruence.
      (* the contract tree and the root rows of one contract *)
      assert (Key : forall a, length a = HEIGHT ->
        t2 a = state_contents HEIGHT hs (apply_update w u) a /\
        exists o, root_rows d2 a = rows_after block (root_rows d a) o /\
          match o with Some t => same_map t (w_storage (apply_update w u) a)
                     | None => same_map (w_storage (apply_update w u) a) (w_storage w a) end).
      { intros a La. specialize (S1 a). specialize (S2 a).
        destruct (al_get bits_eqb a (u_system u)) as [s|] eqn:Gs.
        - assert (GC : al_get bits_eqb a (u_contracts u) = None).
          { destruct (al_get bits_eqb a (u_contracts u)) as [c|] eqn:Gc; auto.
            destruct (WC a c (al_get_in _ bits_eqb_spec _ _ _ Gc)) as [F _].
            destruct (WS a s (al_get_in _ bits_eqb_spec _ _ _ Gs)) as [F' _]. congruence. }
          rewrite GC in S1. destruct S1 as [S1a S1b]. destruct S2 as (r & R1 & R2 & R3).
          destruct (OneS a s d1 Gs S1b) as (o & V1 & V2); [unfold others in O1; congruence..|].
          rewrite V1 in R1. injection R1 as <-. cbn [r_state_hash r_tree] in *.
          split; auto. exists o. split; auto. now rewrite R3, S1b.
        - destruct S2 as [S2a S2b]. destruct (al_get bits_eqb a (u_contracts u)) as [c|] eqn:Gc.
          + destruct S1 as (r & R1 & R2 & R3). specialize (One a c Gc).
            specialize (Nm a (al_get_key _ _ _ Gc)).
            destruct (w_class (apply_update w u) a); [|congruence].
            destruct One as (o & V1 & V2). rewrite V1 in R1. injection R1 as <-.
            cbn [r_state_hash r_tree] in *. split; [congruence|]. exists o. split; auto. now rewrite S2b.
          + destruct S1 as [S1a S1b].
            assert (EW : state_contents HEIGHT hs (apply_update w u) a = state_contents HEIGHT hs w a /\
                         w_storage (apply_update w u) a = w_storage w a).
            { unfold state_contents, storage_root, apply_update, contract_of, system_of.
              cbn [w_class w_nonce w_storage w_system]. now rewrite Gc, Gs. }
            destruct EW as [EW1 EW2]. split.
            * rewrite S2a, S1a, EW1. now apply PS.
            * exists None. split; [cbn [rows_after]; congruence|]. rewrite EW2. apply same_map_refl. }
      assert (K1 : same_map t2 (state_contents HEIGHT hs (apply_update w u)))
        by (intros a La; apply Key; auto).
      assert (Cl : same_map (apply_classes hs (at_parent block (class_root_at (insert_storage_root d2 block t2))) u)
                            (class_contents hs (apply_update w u))).
      { apply apply_classes_spec; auto.
        assert (E : at_parent block (class_root_at (insert_storage_root d2 block t2)) = at_parent block (class_root_at d)).
        { destruct block as [|p]; auto. cbn [at_parent]. unfold class_root_at, insert_storage_root. cbn [d_class_roots].
          now rewrite X4. }
        rewrite E. exact PC. }
      eexists. split; [unfold storage_commitment, class_commitment;
        rewrite (root_ext _ _ _ K1), (root_ext _ _ _ Cl); reflexivity|].
      destruct TD as (TB1 & TB2 & TB3 & TDR).
      split; [|split; cbn [insert_class_root insert_storage_root d_classes d_nonces]; auto].
      split; [|split; [|split]].
      + cbn [insert_class_root insert_storage_root d_contract_roots]. apply B2; [lia|]. apply B1; [lia|].
        eapply bounded_mono; [exact TB1|lia].
      + cbn [insert_class_root insert_storage_root d_storage_roots].
        intros x [<-|Hx]; [cbn [fst]; lia|]. apply filter_In in Hx. rewrite X3 in Hx. destruct Hx as [Hx _].
        apply TB2 in Hx. lia.
      + cbn [insert_class_root insert_storage_root d_class_roots].
        intros x [<-|Hx]; [cbn [fst]; lia|]. apply filter_In in Hx. rewrite X4 in Hx. destruct Hx as [Hx _].
        apply TB3 in Hx. lia.
      + intros b Lb. split; [|split].
        * unfold storage_root_at. cbn [insert_class_root insert_storage_root d_storage_roots].
          rewrite newest_top; [exact K1| |lia].
          apply bounded_filter. rewrite X3. eapply bounded_mono; [exact TB2|lia].
        * unfold class_root_at at 1. cbn [insert_class_root insert_storage_root d_class_roots].
          rewrite newest_top; [exact Cl| |lia].
          apply bounded_filter. rewrite X4. eapply bounded_mono; [exact TB3|lia].
        * intros a La. destruct (Key a La) as (_ & o & R & Ro).
          unfold contract_root_at. cbn [insert_class_root insert_storage_root d_contract_roots].
          change (of_contract a (d_contract_roots d2)) with (root_rows d2 a). rewrite R.
          apply after_rows; [exact no_contents| | |lia].
          -- apply bounded_of. exact TB1.
          -- destruct o as [t|]; auto.
             destruct (TDR block ltac:(lia)) as (_ & _ & E).
             intros k Lk. rewrite (Ro k Lk). now apply E.
    - intros NN. destruct (contract_results HEIGHT hs ro block (u_contracts u)) as [rs|] eqn:CR; auto.
      exfalso. apply NN. intros a Ha. destruct (key_al_get _ _ Ha) as (c & G).
      specialize (One a c G). destruct (w_class (apply_update w u) a); [discriminate|].
      assert (X : exists a c, In (a, c) (u_contracts u) /\ ucs1 ro block a c = None).
      { exists a, c. split; auto. now apply (al_get_in _ bits_eqb_spec). }
      apply contract_results_none in X. congruence.
  Qed.
End Commit.
