(** Proofs about tries in the database: updating all tries of a block. *)
From Coq Require Import List Bool Arith NArith Lia Permutation.
From Coq Require Import ZifyBool ZifyNat ZifyN.
From Verif Require Import AList ListLib MerkleModel MerkleSpec MerkleProof MerkleTreeProof
  MerkleCommitProof MerkleMemberProof TrieDbModel TrieDbSpec TrieRowsProof TrieDbProof.
Import ListNotations.

Lemma puts_key s : forall (m m' : contents) k, In k (map fst s) -> puts m s k = puts m' s k.
Proof.
  induction s as [|[k0 v0] s IH] using rev_ind; intros m m' k Hin; [destruct Hin|].
  rewrite !puts_app. simpl. unfold put. destruct (bits_eqb_spec k k0); auto.
  apply IH. rewrite map_app, in_app_iff in Hin. simpl in Hin. destruct Hin as [|[|[]]]; auto; congruence.
Qed.

Lemma puts_other s : forall (m : contents) k, ~ In k (map fst s) -> puts m s k = m k.
Proof.
  induction s as [|[k0 v0] s IH]; intros m k Hin; auto.
  simpl. rewrite IH by (simpl in Hin; tauto). unfold put. simpl.
  destruct (bits_eqb_spec k k0); auto. subst. simpl in Hin. tauto.
Qed.

Lemma in_keys_dec (k : bits) (s : sets) : {In k (map fst s)} + {~ In k (map fst s)}.
Proof. apply in_dec. intros x y. destruct (bits_eqb_spec x y); auto. Qed.

Lemma owner_in_dec (o : owner) (l : list owner) : {In o l} + {~ In o l}.
Proof. apply in_dec. apply N.eq_dec. Qed.

Lemma block_sets_app o u1 u2 : block_sets o (u1 ++ u2) = block_sets o u1 ++ block_sets o u2.
Proof. apply flat_map_app. Qed.

Lemma block_sets_none o ups : ~ names o ups -> block_sets o ups = [].
Proof.
  unfold names. induction ups as [|[o' s] ups IH]; simpl; auto. intros Hn.
  destruct (N.eqb_spec o' o); [tauto|]. apply IH. tauto.
Qed.

Lemma block_sets_in o s ups : NoDup (map fst ups) -> In (o, s) ups -> block_sets o ups = s.
Proof.
  induction ups as [|[o' s'] ups IH]; simpl; [tauto|]. intros ND [E|Hin].
  - injection E as -> ->. rewrite N.eqb_refl. apply NoDup_cons_iff in ND.
    rewrite block_sets_none by apply ND. apply app_nil_r.
  - apply NoDup_cons_iff in ND. destruct ND as [Nin ND].
    destruct (N.eqb_spec o' o) as [->|]; [|simpl; auto].
    exfalso. apply Nin. apply in_map_iff. exists (o, s). auto.
Qed.

Section Loop.
  Variable HEIGHT : nat.
  Hypothesis HEIGHT_pos : HEIGHT <> 0.
  Hypothesis HEIGHT_small : HEIGHT <= 251.
  Variable H : felt -> felt -> felt.
  Variable mode : option nat.
  Variable hash_leaves writes : owner -> bool.
  Variable db0 : triedb.
  Variable L : option nat.
  Variable n : nat.
  Variable W : nat -> Prop.
  Variable hist : owner -> nat -> contents.
  Variable F : owner -> nat -> list idx.
  Variable cm0 : owner -> contents.

  Hypothesis W_lt : forall b, W b -> b < n.
  Hypothesis W_kept : forall b kept, W b -> mode = Some kept -> n - kept <= b.

  Definition ri_load (db : triedb) (o : owner) : option idx :=
    match L with Some b => root_index db o b | None => None end.
  Definition leaf_load (db : triedb) (o : owner) (k : bits) : option felt :=
    match L with Some b => leaf_at db o b k | None => None end.

  Definition all_marked (db : triedb) : list idx := flat_map snd (d_removals db).

  Record LI (db : triedb) (dl : updates) (cf : owner -> list idx) : Prop := {
    li_W : forall o b, W b -> nodes_ok HEIGHT H (d_nodes db) (root_index db o b) (hist o b) (F o b);
    li_Wl : forall o b, W b -> leaf_ok HEIGHT (leaf_at db o b) (hist o b);
    li_todo : forall o, ~ names o dl ->
      nodes_ok HEIGHT H (d_nodes db) (ri_load db o) (cm0 o) (cf o) /\
      leaf_ok HEIGHT (leaf_load db o) (cm0 o);
    li_done : forall o, names o dl ->
      nodes_ok HEIGHT H (d_nodes db) (root_index db o n) (puts (cm0 o) (block_sets o dl)) (cf o);
    li_nodup : forall o, NoDup (cf o);
    li_disj : forall o o' i, o <> o' -> In i (cf o) -> In i (cf o') -> False;
    li_mnd : NoDup (all_marked db);
    li_mtab : forall i, In i (all_marked db) -> al_get N.eqb i (d_nodes db) <> None;
    li_mcf : forall i o, In i (all_marked db) -> In i (cf o) -> False;
    li_mF : forall r l i o b, In (r, l) (d_removals db) -> In i l -> W b -> r <= b -> ~ In i (F o b);
    li_mode : mode = None -> d_removals db = [];
    li_frame : forall o, ~ names o dl ->
      d_roots db o = d_roots db0 o /\ forall k, d_leaves db o k = d_leaves db0 o k;
    li_roots : forall o e, In e (d_roots db o) ->
      (fst e = n /\ block_sets o dl <> []) \/ In e (d_roots db0 o);
    li_removals : forall e, In e (d_removals db) ->
      fst e = n \/ In (fst e) (map fst (d_removals db0));
    li_leaf1 : forall o k, In k (map fst (block_sets o dl)) -> writes o = true ->
      leaf_at db o n k = Some (puts no_contents (block_sets o dl) k);
    li_leaf2 : forall o k, (~ In k (map fst (block_sets o dl)) \/ writes o = false) ->
      d_leaves db o k = d_leaves db0 o k;
    li_leaf3 : forall o k e, In e (d_leaves db o k) ->
      (fst e = n /\ In k (map fst (block_sets o dl)) /\ writes o = true) \/ In e (d_leaves db0 o k);
    li_stale : forall o b i, b < n -> root_index db o b = Some i ->
      exists k, length k = HEIGHT /\ hist o b k <> 0%N;
    li_leaf4 : forall o k b, b < n -> hash_leaves o = false ->
      leaf_at db o b k = leaf_at db0 o b k
  }.

  Definition prune_opt (db : triedb) : triedb :=
    match mode with Some kept => prune_trie n kept db | None => db end.

  Lemma NoDup_flat_map_filter {A} (P : nat * list A -> bool) l :
    NoDup (flat_map snd l) -> NoDup (flat_map snd (filter P l)).
  Proof.
    induction l as [|[r x] l IH]; simpl; auto. intros ND.
    assert (NDl : NoDup (flat_map snd l)).
    { clear - ND. induction x; simpl in *; auto. apply NoDup_cons_iff in ND. tauto. }
    destruct (P (r, x)); auto. simpl.
    clear IH. induction x as [|y x IHx]; simpl in *.
    - specialize (NDl). clear - NDl. induction l as [|[r x] l IH]; simpl in *; auto.
      assert (NDl' : NoDup (flat_map snd l)).
      { clear - NDl. induction x; simpl in *; auto. apply NoDup_cons_iff in NDl. tauto. }
      destruct (P (r, x)); auto. simpl. clear - NDl IH NDl'.
      specialize (IH NDl').
      induction x as [|y x IHx]; simpl in *; auto.
      apply NoDup_cons_iff in NDl. destruct NDl as [Ny NDl]. constructor; auto.
      rewrite in_app_iff in *. intros [Hi|Hi]; [tauto|]. apply Ny. right.
      apply in_flat_map in Hi. destruct Hi as (e & He & Hy). apply filter_In in He.
      apply in_flat_map. exists e. tauto.
    - apply NoDup_cons_iff in ND. destruct ND as [Ny ND]. constructor; auto.
      rewrite in_app_iff in *. intros [Hi|Hi]; [tauto|]. apply Ny. right.
      apply in_flat_map in Hi. destruct Hi as (e & He & Hy). apply filter_In in He.
      apply in_flat_map. exists e. tauto.
  Qed.

  Lemma LI_prune db dl cf : LI db dl cf -> LI (prune_opt db) dl cf.
  Proof.
    intros I. unfold prune_opt. destruct mode as [kept|] eqn:Md; [|exact I].
    unfold prune_trie. destruct (Nat.leb_spec kept n) as [Lk|]; [|exact I].
    set (dead := flat_map snd (filter (fun e => fst e <? n - kept) (d_removals db))).
    assert (Dm : forall i, In i dead -> In i (all_marked db)).
    { intros i Hi. unfold dead in Hi. apply in_flat_map in Hi. destruct Hi as (e & He & Hi).
      apply filter_In in He. apply in_flat_map. exists e. tauto. }
    assert (Dc : forall o j, In j (cf o) -> ~ In j dead).
    { intros o j Hj Hd. eapply li_mcf; eauto. }
    assert (DF : forall o b j, W b -> In j (F o b) -> ~ In j dead).
    { intros o b j Hb Hj Hd. unfold dead in Hd. apply in_flat_map in Hd.
      destruct Hd as ([r l] & He & Hi). apply filter_In in He. destruct He as [He Lr].
      apply Nat.ltb_lt in Lr. simpl in *.
      eapply (li_mF _ _ _ I r l j o b); eauto. specialize (W_kept b kept Hb eq_refl). lia. }
    assert (Am : forall i, In i (flat_map snd (filter (fun e => negb (fst e <? n - kept)) (d_removals db))) ->
                 In i (all_marked db) /\ ~ In i dead).
    { intros i Hi. split.
      - apply in_flat_map in Hi. destruct Hi as (e & He & Hi). apply filter_In in He.
        apply in_flat_map. exists e. tauto.
      - intros Hd. pose proof (li_mnd _ _ _ I) as ND. unfold all_marked in ND.
        unfold dead in Hd. clear - Hi Hd ND.
        revert Hi Hd. induction (d_removals db) as [|[r l] rs IH]; simpl; [tauto|].
        simpl in ND. assert (NDl : NoDup (flat_map snd rs)).
        { clear - ND. induction l; simpl in *; auto. apply NoDup_cons_iff in ND. tauto. }
        assert (X : forall P, In i l -> In i (flat_map snd (filter P rs)) -> False).
        { intros P Hl Hf. assert (Hr : In i (flat_map snd rs)).
          { apply in_flat_map in Hf. destruct Hf as (e & He & Hy). apply filter_In in He.
            apply in_flat_map. exists e. tauto. }
          clear - ND Hl Hr. induction l as [|y l IHl]; simpl in *; [tauto|].
          apply NoDup_cons_iff in ND. destruct ND as [Ny ND]. destruct Hl as [->|Hl]; auto.
          apply Ny. apply in_or_app. auto. }
        destruct (r <? n - kept); simpl; rewrite in_app_iff; intros Hi Hd; [destruct Hd|destruct Hi]; eauto. }
    constructor; unfold all_marked; cbn [d_nodes d_removals d_roots d_leaves].
    - intros o b Hb. change (root_index _ o b) with (root_index db o b).
      eapply nodes_ok_ext; [now apply (li_W _ _ _ I)|auto|].
      intros j Hj. apply al_get_filter_dead. eauto.
    - intros o b Hb. apply (li_Wl _ _ _ I); auto.
    - intros o Ho. destruct (li_todo _ _ _ I o Ho) as [T1 T2]. split; [|exact T2].
      eapply nodes_ok_ext; [exact T1|auto|]. intros j Hj. apply al_get_filter_dead. eauto.
    - intros o Ho. eapply nodes_ok_ext; [exact (li_done _ _ _ I o Ho)|auto|].
      intros j Hj. apply al_get_filter_dead. eauto.
    - apply (li_nodup _ _ _ I).
    - apply (li_disj _ _ _ I).
    - apply NoDup_flat_map_filter. apply (li_mnd _ _ _ I).
    - intros i Hi. apply Am in Hi. destruct Hi as [Hi Hd].
      rewrite al_get_filter_dead by auto. now apply (li_mtab _ _ _ I).
    - intros i o Hi. apply Am in Hi. now apply (li_mcf _ _ _ I).
    - intros r l i o b Hr. apply filter_In in Hr. apply (li_mF _ _ _ I). tauto.
    - intros X; congruence.
    - apply (li_frame _ _ _ I).
    - apply (li_roots _ _ _ I).
    - intros e He. apply filter_In in He. apply (li_removals _ _ _ I). tauto.
    - apply (li_leaf1 _ _ _ I).
    - apply (li_leaf2 _ _ _ I).
    - apply (li_leaf3 _ _ _ I).
    - apply (li_stale _ _ _ I).
    - apply (li_leaf4 _ _ _ I).
  Qed.

  (** ** Leaf rows *)

  Definition leaf_row (o : owner) (k : bits) (v : felt) (r : rows felt) : rows felt :=
    let r := insert_or_replace n v r in
    match mode with
    | Some kept => if (kept <=? n) && hash_leaves o then delete_before (n - kept) r else r
    | None => r
    end.

  Lemma insert_leaf_get o kv db o' k :
    d_leaves (insert_leaf mode hash_leaves n o kv db) o' k =
    if ((o' =? o)%N && bits_eqb k (fst kv))%bool
    then leaf_row o (fst kv) (snd kv) (d_leaves db o (fst kv)) else d_leaves db o' k.
  Proof.
    unfold insert_leaf, upd_owner. cbn [d_leaves].
    destruct (N.eqb_spec o' o) as [->|]; cbn [andb]; auto.
  Qed.

  Lemma leaf_row_eq o k v r : latest n (leaf_row o k v r) = Some (n, v).
  Proof.
    unfold leaf_row. destruct mode as [kept|]; [|apply latest_insert_eq].
    destruct (_ && _)%bool; [|apply latest_insert_eq].
    rewrite latest_delete_before by lia. apply latest_insert_eq.
  Qed.

  Lemma leaf_row_lt o k v r b : b < n -> (forall kept, mode = Some kept -> n - kept <= b) ->
    latest b (leaf_row o k v r) = latest b r.
  Proof.
    intros Lb Lk. unfold leaf_row. destruct mode as [kept|]; [|now apply latest_insert_lt].
    destruct (_ && _)%bool; [|now apply latest_insert_lt].
    rewrite latest_delete_before by (now apply Lk). now apply latest_insert_lt.
  Qed.

  Lemma leaf_row_unpruned o k v r b : b < n -> hash_leaves o = false ->
    latest b (leaf_row o k v r) = latest b r.
  Proof.
    intros Lb Hh. unfold leaf_row.
    destruct mode; [|now apply latest_insert_lt].
    rewrite Hh, andb_false_r. now apply latest_insert_lt.
  Qed.

  Lemma leaf_row_in o k v r e : In e (leaf_row o k v r) -> e = (n, v) \/ In e r.
  Proof.
    unfold leaf_row. intros He.
    assert (Hi : In e (insert_or_replace n v r)).
    { destruct mode as [kept|]; auto. destruct (_ && _)%bool; auto.
      eapply in_delete_before; eauto. }
    now apply in_insert_or_replace.
  Qed.

  Lemma insert_leaves_frame o s : forall db,
    d_nodes (insert_leaves mode hash_leaves n o s db) = d_nodes db /\
    d_removals (insert_leaves mode hash_leaves n o s db) = d_removals db /\
    d_roots (insert_leaves mode hash_leaves n o s db) = d_roots db.
  Proof.
    induction s as [|kv s IH]; intros db; [auto|].
    destruct (IH (insert_leaf mode hash_leaves n o kv db)) as (E1 & E2 & E3).
    unfold insert_leaves in *. cbn [fold_left]. now rewrite E1, E2, E3.
  Qed.

  Lemma insert_leaves_other o s : forall db o' k,
    (o' <> o \/ ~ In k (map fst s)) ->
    d_leaves (insert_leaves mode hash_leaves n o s db) o' k = d_leaves db o' k.
  Proof.
    induction s as [|kv s IH]; intros db o' k Ho; [auto|].
    unfold insert_leaves in *. cbn [fold_left]. rewrite IH.
    - rewrite insert_leaf_get. destruct (N.eqb_spec o' o); destruct (bits_eqb_spec k (fst kv)); auto.
      exfalso. subst. simpl in Ho. tauto.
    - simpl in Ho. tauto.
  Qed.

  Lemma insert_leaves_lt o s b : b < n ->
    (forall kept, mode = Some kept -> n - kept <= b) \/ hash_leaves o = false -> forall db o' k,
    latest b (d_leaves (insert_leaves mode hash_leaves n o s db) o' k) = latest b (d_leaves db o' k).
  Proof.
    intros Lb Lk. induction s as [|kv s IH]; intros db o' k; [auto|].
    unfold insert_leaves in *. cbn [fold_left]. rewrite IH, insert_leaf_get.
    destruct (N.eqb_spec o' o) as [->|]; destruct (bits_eqb_spec k (fst kv)) as [->|]; cbn [andb]; auto.
    destruct Lk; [now apply leaf_row_lt|now apply leaf_row_unpruned].
  Qed.

  Lemma insert_leaves_in o s : forall db o' k e,
    In e (d_leaves (insert_leaves mode hash_leaves n o s db) o' k) ->
    (fst e = n /\ o' = o /\ In k (map fst s)) \/ In e (d_leaves db o' k).
  Proof.
    induction s as [|kv s IH]; intros db o' k e He; [auto|].
    unfold insert_leaves in *. cbn [fold_left] in He. apply IH in He.
    destruct He as [(? & ? & ?)|He]; [left; simpl; auto|].
    rewrite insert_leaf_get in He.
    destruct (N.eqb_spec o' o) as [->|]; destruct (bits_eqb_spec k (fst kv)) as [->|];
      cbn [andb] in He; auto.
    apply leaf_row_in in He. destruct He as [->|He]; auto. left. simpl. auto.
  Qed.

  Lemma insert_leaves_eq o s : forall db k (m : contents), In k (map fst s) ->
    leaf_at (insert_leaves mode hash_leaves n o s db) o n k = Some (puts m s k).
  Proof.
    induction s as [|kv s IH] using rev_ind; intros db k m Hk; [destruct Hk|].
    unfold insert_leaves, leaf_at. rewrite fold_left_app. cbn [fold_left].
    rewrite insert_leaf_get, N.eqb_refl. cbn [andb]. rewrite puts_app. simpl puts. unfold put.
    destruct (bits_eqb_spec k (fst kv)) as [->|Nk].
    - rewrite leaf_row_eq. reflexivity.
    - apply IH. rewrite map_app, in_app_iff in Hk. simpl in Hk. destruct Hk as [|[|[]]]; auto. congruence.
  Qed.

  (** ** Root rows *)

  Lemma insert_root_frame o ru db :
    d_nodes (insert_root mode n o ru db) = d_nodes db /\
    d_removals (insert_root mode n o ru db) = d_removals db /\
    d_leaves (insert_root mode n o ru db) = d_leaves db.
  Proof. destruct ru; auto. Qed.

  Lemma insert_root_other o ru db o' :
    o' <> o -> d_roots (insert_root mode n o ru db) o' = d_roots db o'.
  Proof.
    intros Ho. destruct ru; auto; unfold insert_root, upd_owner; cbn [d_roots];
      (destruct (N.eqb_spec o' o); [congruence|reflexivity]).
  Qed.

  Lemma insert_root_lt o ru db o' b :
    b < n -> (forall kept, mode = Some kept -> n - kept <= b) ->
    root_index (insert_root mode n o ru db) o' b = root_index db o' b.
  Proof.
    intros Lb Lk. unfold root_index.
    destruct (N.eq_dec o' o) as [->|No]; [|now rewrite insert_root_other].
    destruct ru; auto; unfold insert_root, upd_owner; cbn [d_roots]; rewrite N.eqb_refl;
      (destruct mode as [kept|]; [destruct (Nat.leb_spec kept n)|]);
      rewrite ?latest_delete_before by (now apply Lk); rewrite ?latest_insert_lt by auto; auto.
  Qed.

  Lemma insert_root_stale o ru db o' b i :
    b < n -> root_index (insert_root mode n o ru db) o' b = Some i -> root_index db o' b = Some i.
  Proof.
    intros Lb. unfold root_index.
    destruct (N.eq_dec o' o) as [->|No]; [|now rewrite insert_root_other].
    assert (G : forall (x : option idx),
       match latest b (match mode with
                       | Some kept => if kept <=? n then delete_before (n - kept) (insert_or_replace n x (d_roots db o))
                                      else insert_or_replace n x (d_roots db o)
                       | None => insert_or_replace n x (d_roots db o) end) with
       | Some (_, i0) => i0 | None => None end = Some i ->
       match latest b (d_roots db o) with Some (_, i0) => i0 | None => None end = Some i).
    { intros x. destruct mode as [kept|]; [destruct (Nat.leb_spec kept n)|];
        rewrite ?latest_insert_lt by auto; auto.
      unfold delete_before. set (r := insert_or_replace n x (d_roots db o)).
      assert (Er : latest b r = latest b (d_roots db o)) by (apply latest_insert_lt; auto).
      destruct (latest (n - kept) r) as [[m y]|] eqn:Em; [|rewrite Er; auto].
      destruct (le_lt_dec (n - kept) b) as [Lk|Gk].
      - intros E. pose proof (latest_delete_before b (n - kept) r Lk) as X.
        unfold delete_before in X. rewrite Em in X. rewrite X, Er in E. exact E.
      - destruct (latest b (filter (fun e => m <=? fst e) r)) as [[m' y']|] eqn:E'; [|discriminate].
        intros ->. destruct (latest_some _ _ _ _ E') as (I' & L' & M').
        apply filter_In in I'. destruct I' as [I' Lm]. apply Nat.leb_le in Lm. simpl in Lm.
        rewrite <- Er.
        assert (Eb : latest b r = Some (m', Some i)).
        { rewrite <- E'. symmetry. apply latest_filter. intros e He Pe Le.
          apply Nat.leb_gt in Pe.
          destruct (latest b r) as [[m2 y2]|] eqn:E2; auto.
          apply latest_some in E2. destruct E2 as (_ & _ & M2). specialize (M2 _ I' L'). simpl in M2. lia. }
        now rewrite Eb. }
    destruct ru; auto; unfold insert_root, upd_owner; cbn [d_roots]; rewrite N.eqb_refl; apply G.
  Qed.

  Lemma insert_root_eq o ru db :
    root_index (insert_root mode n o ru db) o n = new_root (root_index db o n) ru.
  Proof.
    unfold root_index. destruct ru; auto; unfold insert_root, upd_owner; cbn [d_roots];
      rewrite N.eqb_refl; (destruct mode as [kept|]; [destruct (Nat.leb_spec kept n)|]);
      rewrite ?latest_delete_before by lia; rewrite latest_insert_eq; reflexivity.
  Qed.

  Lemma insert_root_in o ru db o' e :
    In e (d_roots (insert_root mode n o ru db) o') ->
    (fst e = n /\ o' = o /\ ru <> RUnchanged) \/ In e (d_roots db o').
  Proof.
    intros He. destruct (N.eq_dec o' o) as [->|No]; [|rewrite insert_root_other in He; auto].
    destruct ru as [|i|]; auto; unfold insert_root, upd_owner in He; cbn [d_roots] in He;
      rewrite N.eqb_refl in He.
    - assert (Hi : In e (insert_or_replace n (Some i) (d_roots db o))).
      { destruct mode as [kept|]; auto. destruct (kept <=? n); auto. eapply in_delete_before; eauto. }
      apply in_insert_or_replace in Hi. destruct Hi as [->|Hi]; auto.
      left. split; [auto|]. split; [auto|discriminate].
    - assert (Hi : In e (insert_or_replace n None (d_roots db o))).
      { destruct mode as [kept|]; auto. destruct (kept <=? n); auto. eapply in_delete_before; eauto. }
      apply in_insert_or_replace in Hi. destruct Hi as [->|Hi]; auto.
      left. split; [auto|]. split; [auto|discriminate].
  Qed.

  Lemma db_load_eq db o : db_load db o L = load (ri_load db o).
  Proof. unfold db_load, ri_load, load. destruct L; reflexivity. Qed.

  Lemma db_storage_eq db o : db_storage db o L = table_storage (d_nodes db) (leaf_load db o).
  Proof. reflexivity. Qed.

  (** One more trie. *)
  Lemma LI_step db dl cf o s :
    LI db dl cf -> ~ names o dl ->
    (forall k v, In (k, v) s -> length k = HEIGHT) ->
    (s = [] -> root_index db0 o n = ri_load db0 o) ->
    (ri_load db0 o = None -> (forall k, length k = HEIGHT -> puts (cm0 o) s k = 0%N) ->
     root_index db0 o n = None) ->
    exists db1 cf1,
      update_trie HEIGHT H mode L n o s db = Ok (db1, spec_root H HEIGHT (puts (cm0 o) s)) /\
      LI (if writes o then insert_leaves mode hash_leaves n o s db1 else db1) (dl ++ [(o, s)]) cf1.
  Proof.
    intros I0 Ho V Hsame Hempty.
    destruct (li_todo _ _ _ I0 o Ho) as [T1 T2].
    pose proof (LI_prune _ _ _ I0) as I. set (dbp := prune_opt db) in *.
    assert (Ap : forall j, In j (cf o) -> al_get N.eqb j (d_nodes dbp) = al_get N.eqb j (d_nodes db)).
    { intros j Hj. unfold dbp, prune_opt. destruct mode as [kept|]; auto.
      unfold prune_trie. destruct (kept <=? n); auto. cbn [d_nodes]. apply al_get_filter_dead.
      intros Hd. eapply (li_mcf _ _ _ I0); [|exact Hj].
      apply in_flat_map in Hd. destruct Hd as (e & He & Hi). apply filter_In in He.
      apply in_flat_map. exists e. tauto. }
    assert (Rp : d_roots dbp = d_roots db /\ d_leaves dbp = d_leaves db).
    { unfold dbp, prune_opt. destruct mode as [kept|]; auto. unfold prune_trie.
      destruct (kept <=? n); auto. }
    destruct Rp as [Rp Lp].
    destruct (update_core HEIGHT HEIGHT_pos HEIGHT_small H (d_nodes db) (d_nodes dbp)
                (ri_load db o) (cm0 o) (cf o) (leaf_load db o) s T1 T2 V Ap)
      as (t & u & more & ru & fp' & keep & Et & Eu & Cr & Ei & N' & P1 & P2 & ND & Fr & RU & RS & RN).
    set (rem' := match mode, u_removed u with
                 | Some _, _ :: _ => d_removals dbp ++ [(n, u_removed u)]
                 | _, _ => d_removals dbp end).
    set (dbi := mkDb (d_nodes dbp ++ more) rem' (d_roots db) (d_leaves db)).
    set (db1 := insert_root mode n o ru dbi).
    set (cf1 := fun o' => if (o' =? o)%N then fp' else cf o').
    exists db1, cf1.
    split.
    { unfold update_trie. rewrite db_storage_eq, db_load_eq, Et. cbn [obind]. rewrite Eu. cbn [obind].
      unfold insert_trie_pruned.
      assert (Ed : match mode with
                   | Some kept => remove_trie (u_removed u) n (prune_trie n kept db)
                   | None => db end = mkDb (d_nodes dbp) rem' (d_roots db) (d_leaves db)).
      { unfold rem'. rewrite <- Rp, <- Lp. unfold dbp, prune_opt.
        destruct mode as [kept|]; [|destruct db; reflexivity].
        unfold remove_trie. destruct (u_removed u); [|reflexivity].
        destruct (prune_trie n kept db); reflexivity. }
      rewrite Ed. cbn [d_nodes d_removals d_roots d_leaves]. rewrite Ei. cbn [obind].
      rewrite Cr. reflexivity. }
    assert (Hri : new_root (root_index db o n) ru = new_root (ri_load db o) ru).
    { destruct ru; auto. simpl. destruct (li_frame _ _ _ I0 o Ho) as [Fr1 _].
      assert (E1 : root_index db o n = root_index db0 o n) by (unfold root_index; now rewrite Fr1).
      assert (E2 : ri_load db o = ri_load db0 o).
      { unfold ri_load, root_index. now rewrite Fr1. }
      destruct RU as [->|[Rn Z]]; auto.
      - rewrite E1, E2. auto.
      - rewrite E1, E2 in *. rewrite Rn. auto. }
    destruct (insert_root_frame o ru dbi) as (Fn & Fm & Fl).
    fold db1 in Fn, Fm, Fl. unfold dbi in Fn, Fm, Fl. cbn [d_nodes d_removals d_leaves] in Fn, Fm, Fl.
    set (db2 := if writes o then insert_leaves mode hash_leaves n o s db1 else db1).
    assert (Fn2 : d_nodes db2 = d_nodes dbp ++ more).
    { unfold db2. destruct (writes o); auto. destruct (insert_leaves_frame o s db1) as (-> & _ & _). auto. }
    assert (Fm2 : d_removals db2 = rem').
    { unfold db2. destruct (writes o); auto. destruct (insert_leaves_frame o s db1) as (_ & -> & _). auto. }
    assert (Fr2 : d_roots db2 = d_roots db1).
    { unfold db2. destruct (writes o); auto. destruct (insert_leaves_frame o s db1) as (_ & _ & ->). auto. }
    assert (Ri2 : forall o' b, root_index db2 o' b = root_index db1 o' b).
    { intros. unfold root_index. now rewrite Fr2. }
    (* table agreement *)
    assert (Keep : forall j, al_get N.eqb j (d_nodes dbp) <> None ->
                     al_get N.eqb j (d_nodes db2) = al_get N.eqb j (d_nodes dbp)).
    { intros j Hj. rewrite Fn2. destruct (al_get N.eqb j (d_nodes dbp)) eqn:E; [|congruence].
      now apply al_get_app_some. }
    assert (Fresh : forall i, In i (map fst more) -> al_get N.eqb i (d_nodes dbp) = None) by auto.
    assert (Bs : forall o', block_sets o' (dl ++ [(o, s)]) =
                   if (o' =? o)%N then s else block_sets o' dl).
    { intros o'. rewrite block_sets_app. unfold block_sets at 2. simpl. rewrite N.eqb_sym.
      destruct (N.eqb_spec o' o) as [->|].
      - rewrite (block_sets_none _ _ Ho). now rewrite app_nil_r.
      - now rewrite app_nil_r. }
    assert (Nm : forall o', names o' (dl ++ [(o, s)]) <-> names o' dl \/ o' = o).
    { intros o'. unfold names. rewrite map_app, in_app_iff. simpl. intuition congruence. }
    assert (Cfp : forall o', nodes_ok HEIGHT H (d_nodes dbp) 
               (if owner_in_dec o' (map fst dl) then root_index dbp o' n else ri_load dbp o')
               (if owner_in_dec o' (map fst dl) then puts (cm0 o') (block_sets o' dl) else cm0 o') (cf o')).
    { intros o'. destruct (owner_in_dec o' (map fst dl)) as [Hi|Hi].
      - now apply (li_done _ _ _ I).
      - now apply (li_todo _ _ _ I). }
    assert (Cft : forall o' j, In j (cf o') -> al_get N.eqb j (d_nodes dbp) <> None).
    { intros o' j Hj. eapply nodes_ok_in_table; [apply (Cfp o')|exact Hj]. }
    assert (NDall : NoDup (keep ++ u_removed u)).
    { eapply Permutation_NoDup; [apply Permutation_sym; exact P2|]. apply (li_nodup _ _ _ I). }
    assert (RemCf : forall i, In i (u_removed u) -> In i (cf o)).
    { intros i Hi. eapply Permutation_in; [exact P2|]. apply in_or_app. auto. }
    assert (KeepCf : forall i, In i keep -> In i (cf o)).
    { intros i Hi. eapply Permutation_in; [exact P2|]. apply in_or_app. auto. }
    assert (Fp' : forall i, In i fp' -> In i keep \/ In i (map fst more)).
    { intros i Hi. apply (Permutation_in _ P1) in Hi. now apply in_app_or in Hi. }
    assert (RemIn : forall r l, In (r, l) rem' -> In (r, l) (d_removals dbp) \/ (r = n /\ l = u_removed u)).
    { intros r l Hi. unfold rem' in Hi. destruct mode; auto. destruct (u_removed u); auto.
      apply in_app_or in Hi. destruct Hi as [Hi|[E|[]]]; auto. injection E as <- <-. auto. }
    assert (RemAll : forall i, In i (flat_map snd rem') -> In i (all_marked dbp) \/ In i (u_removed u)).
    { intros i Hi. apply in_flat_map in Hi. destruct Hi as ([r l] & He & Hi). simpl in Hi.
      apply RemIn in He. destruct He as [He|[-> ->]]; auto. left. apply in_flat_map. exists (r, l). auto. }
    assert (KR : forall i, In i keep -> In i (u_removed u) -> False).
    { intros i Hk Hr. clear - NDall Hk Hr. induction keep as [|x keep IH]; [destruct Hk|].
      simpl in NDall. apply NoDup_cons_iff in NDall. destruct NDall as [Nx NDall].
      destruct Hk as [->|Hk]; auto. apply Nx, in_or_app. auto. }
    constructor.
    - (* li_W *) intros o' b Hb. rewrite Ri2. unfold db1.
      rewrite insert_root_lt by (auto; intros; eapply W_kept; eauto).
      pose proof (li_W _ _ _ I o' b Hb) as X.
      assert (Rx : root_index dbi o' b = root_index dbp o' b).
      { unfold root_index, dbi. cbn [d_roots]. now rewrite Rp. }
      rewrite Rx. eapply nodes_ok_ext; [exact X|auto|].
      intros j Hj. apply Keep. eapply nodes_ok_in_table; eauto.
    - (* li_Wl *) intros o' b Hb k Lk Nz. rewrite <- (li_Wl _ _ _ I0 o' b Hb k Lk Nz).
      unfold leaf_at, db2. destruct (writes o).
      + rewrite insert_leaves_lt; auto. now rewrite Fl.
      + now rewrite Fl.
    - (* li_todo *) intros o' Ho'. rewrite Nm in Ho'.
      assert (No : o' <> o) by tauto.
      destruct (li_todo _ _ _ I o') as [X1 X2]; [tauto|].
      assert (Er : ri_load db2 o' = ri_load dbp o').
      { unfold ri_load. destruct L; auto. rewrite Ri2. unfold root_index, db1.
        rewrite insert_root_other by auto. unfold dbi. cbn [d_roots]. now rewrite Rp. }
      split.
      + rewrite Er. unfold cf1. destruct (N.eqb_spec o' o); [congruence|].
        eapply nodes_ok_ext; [exact X1|auto|]. intros j Hj. apply Keep. eauto.
      + intros k Lk Nz. rewrite <- (X2 k Lk Nz). unfold leaf_load. destruct L; auto.
        unfold leaf_at, db2. destruct (writes o).
        * rewrite insert_leaves_other by auto. now rewrite Fl, Lp.
        * now rewrite Fl, Lp.
    - (* li_done *) intros o' Ho'. rewrite Nm in Ho'. rewrite Ri2, Bs. unfold cf1.
      destruct (N.eqb_spec o' o) as [->|No].
      + unfold db1. rewrite insert_root_eq. change (root_index dbi o n) with (root_index db o n).
        rewrite Hri, Fn2. exact N'.
      + assert (Hd : names o' dl) by tauto.
        pose proof (li_done _ _ _ I o' Hd) as X.
        assert (Er : root_index db1 o' n = root_index dbp o' n).
        { unfold root_index, db1. rewrite insert_root_other by auto. unfold dbi. cbn [d_roots]. now rewrite Rp. }
        rewrite Er. eapply nodes_ok_ext; [exact X|auto|]. intros j Hj. apply Keep. eauto.
    - (* li_nodup *) intros o'. unfold cf1. destruct (N.eqb_spec o' o); [|apply (li_nodup _ _ _ I)].
      eapply Permutation_NoDup; [apply Permutation_sym; exact P1|].
      assert (NDk : NoDup keep) by (clear - NDall; induction keep; simpl in *; [constructor|];
        apply NoDup_cons_iff in NDall; destruct NDall as [Na NDall]; constructor; auto;
        intros X; apply Na, in_or_app; auto).
      clear - NDk ND KeepCf Cft Fresh. induction keep as [|x keep IH]; simpl; auto.
      apply NoDup_cons_iff in NDk. destruct NDk as [Nx NDk]. constructor.
      + rewrite in_app_iff. intros [X|X]; [tauto|].
        apply Fresh in X. apply (Cft o x); [apply KeepCf; simpl; auto|exact X].
      + apply IH; auto. intros i Hi. apply KeepCf. simpl. auto.
    - (* li_disj *)
      assert (G : forall o' i, o' <> o -> In i fp' -> In i (cf o') -> False).
      { intros o' i No Hi Hc. destruct (Fp' i Hi) as [Hk|Hm].
        - eapply (li_disj _ _ _ I o' o i); eauto.
        - apply Fresh in Hm. eapply Cft; eauto. }
      intros o1 o2 i Nq H1 H2. unfold cf1 in H1, H2.
      destruct (N.eqb_spec o1 o), (N.eqb_spec o2 o); subst; try congruence.
      + eapply G; eauto.
      + eapply G; eauto.
      + eapply (li_disj _ _ _ I o1 o2 i); eauto.
    - (* li_mnd *) unfold all_marked. rewrite Fm2. unfold rem'.
      assert (Er : match mode, u_removed u with
                   | Some _, _ :: _ => d_removals dbp ++ [(n, u_removed u)]
                   | _, _ => d_removals dbp end = d_removals dbp \/
                   match mode, u_removed u with
                   | Some _, _ :: _ => d_removals dbp ++ [(n, u_removed u)]
                   | _, _ => d_removals dbp end = d_removals dbp ++ [(n, u_removed u)])
        by (destruct mode, (u_removed u); auto).
      destruct Er as [Er|Er]; rewrite Er; [apply (li_mnd _ _ _ I)|].
      rewrite flat_map_app. simpl flat_map. rewrite app_nil_r.
      pose proof (li_mnd _ _ _ I) as NDm. unfold all_marked in NDm.
      assert (NDr : NoDup (u_removed u)).
      { clear - NDall. induction keep; simpl in *; auto. apply NoDup_cons_iff in NDall. tauto. }
      assert (Dj : forall i, In i (flat_map snd (d_removals dbp)) -> In i (u_removed u) -> False).
      { intros i Hi Hr. eapply (li_mcf _ _ _ I i o); eauto. }
      clear - NDm NDr Dj. induction (flat_map snd (d_removals dbp)) as [|y l IH]; simpl; auto.
      apply NoDup_cons_iff in NDm. destruct NDm as [Ny NDm]. constructor.
      + rewrite in_app_iff. intros [X|X]; [tauto|]. eapply Dj; [left; reflexivity|exact X].
      + apply IH; auto. intros i Hi. apply Dj. simpl. auto.
    - (* li_mtab *) unfold all_marked. rewrite Fm2. intros i Hi.
      assert (X : al_get N.eqb i (d_nodes dbp) <> None).
      { apply RemAll in Hi. destruct Hi as [Hi|Hi]; [now apply (li_mtab _ _ _ I)|].
        eapply Cft. apply RemCf. exact Hi. }
      rewrite Keep; auto.
    - (* li_mcf *) unfold all_marked. rewrite Fm2. intros i o' Hi Hc. unfold cf1 in Hc.
      apply RemAll in Hi. destruct (N.eqb_spec o' o) as [->|No].
      + destruct (Fp' i Hc) as [Hk|Hm].
        * destruct Hi as [Hi|Hi]; [|eapply KR; eauto]. eapply (li_mcf _ _ _ I i o); eauto.
        * apply Fresh in Hm. destruct Hi as [Hi|Hi].
          -- eapply (li_mtab _ _ _ I); eauto.
          -- eapply Cft; eauto.
      + destruct Hi as [Hi|Hi]; [eapply (li_mcf _ _ _ I i o'); eauto|].
        eapply (li_disj _ _ _ I o' o i); eauto.
    - (* li_mF *) rewrite Fm2. intros r l i o' b He Hi Hb Lr. apply RemIn in He.
      destruct He as [He|[-> ->]].
      + eapply (li_mF _ _ _ I); eauto.
      + specialize (W_lt b Hb). lia.
    - (* li_mode *) intros Md. rewrite Fm2. unfold rem'. rewrite Md. apply (li_mode _ _ _ I). exact Md.
    - (* li_frame *) intros o' Ho'. rewrite Nm in Ho'. assert (No : o' <> o) by tauto.
      destruct (li_frame _ _ _ I0 o') as [X1 X2]; [tauto|]. split.
      + rewrite Fr2. unfold db1. rewrite insert_root_other by auto. exact X1.
      + intros k. unfold db2. destruct (writes o).
        * rewrite insert_leaves_other by auto. rewrite Fl. apply X2.
        * rewrite Fl. apply X2.
    - (* li_roots *) intros o' e He. rewrite Fr2 in He. unfold db1 in He. apply insert_root_in in He.
      rewrite Bs. destruct He as [(E & -> & NU)|He].
      + left. split; auto. rewrite N.eqb_refl. intros ->. apply NU, RS. reflexivity.
      + unfold dbi in He. cbn [d_roots] in He. apply (li_roots _ _ _ I0) in He.
        destruct He as [[E NB]|He]; auto. left. split; auto.
        destruct (N.eqb_spec o' o) as [->|]; auto. exfalso. apply NB. now apply block_sets_none.
    - (* li_removals *) rewrite Fm2. intros [r l] He. apply RemIn in He.
      destruct He as [He|[-> _]]; [apply (li_removals _ _ _ I); auto|auto].
    - (* li_leaf1 *) intros o' k Hk Hw. rewrite Bs in *. destruct (N.eqb_spec o' o) as [->|No].
      + unfold db2. rewrite Hw. apply insert_leaves_eq. exact Hk.
      + rewrite <- (li_leaf1 _ _ _ I0 o' k Hk Hw). unfold leaf_at, db2. destruct (writes o).
        * rewrite insert_leaves_other by auto. now rewrite Fl.
        * now rewrite Fl.
    - (* li_leaf2 *) intros o' k Hk. rewrite Bs in Hk. destruct (N.eqb_spec o' o) as [->|No].
      + destruct (li_frame _ _ _ I0 o Ho) as [_ X2]. rewrite <- X2. unfold db2.
        destruct (writes o).
        * destruct Hk as [Hk|Hk]; [|discriminate].
          rewrite insert_leaves_other by auto. now rewrite Fl.
        * now rewrite Fl.
      + rewrite <- (li_leaf2 _ _ _ I0 o' k Hk). unfold db2. destruct (writes o).
        * rewrite insert_leaves_other by auto. now rewrite Fl.
        * now rewrite Fl.
    - (* li_leaf3 *) intros o' k e He. rewrite Bs. unfold db2 in He. destruct (writes o) eqn:Hw.
      + apply insert_leaves_in in He. destruct He as [(E & -> & Hk)|He].
        * left. rewrite N.eqb_refl. auto.
        * rewrite Fl in He. apply (li_leaf3 _ _ _ I0) in He. destruct He as [(E & Hk & Hw')|He]; auto.
          left. split; auto. split; auto. destruct (N.eqb_spec o' o) as [->|]; auto.
          rewrite (block_sets_none _ _ Ho) in Hk. destruct Hk.
      + rewrite Fl in He. apply (li_leaf3 _ _ _ I0) in He. destruct He as [(E & Hk & Hw')|He]; auto.
        left. split; auto. split; auto. destruct (N.eqb_spec o' o) as [->|]; auto. congruence.
    - (* li_stale *) intros o' b i Lb E. rewrite Ri2 in E. unfold db1 in E.
      apply insert_root_stale in E; auto. eapply (li_stale _ _ _ I0); eauto.
    - (* li_leaf4 *) intros o' k b Lb Hh. rewrite <- (li_leaf4 _ _ _ I0 o' k b Lb Hh).
      unfold leaf_at, db2. destruct (writes o); [|now rewrite Fl].
      destruct (N.eq_dec o' o) as [->|No].
      + rewrite insert_leaves_lt by auto. now rewrite Fl.
      + rewrite insert_leaves_other by auto. now rewrite Fl.
  Qed.

  Lemma loop_ok : forall ups dl db cf,
    LI db dl cf -> NoDup (map fst (dl ++ ups)) ->
    (forall o s k v, In (o, s) ups -> In (k, v) s -> length k = HEIGHT) ->
    (forall o, In (o, []) ups -> root_index db0 o n = ri_load db0 o) ->
    (forall o s, In (o, s) ups -> ri_load db0 o = None ->
       (forall k, length k = HEIGHT -> puts (cm0 o) s k = 0%N) -> root_index db0 o n = None) ->
    exists db' cf',
      update_all HEIGHT H mode hash_leaves writes L n ups db =
        Ok (db', map (fun e => (fst e, spec_root H HEIGHT (puts (cm0 (fst e)) (snd e)))) ups) /\
      LI db' (dl ++ ups) cf'.
  Proof.
    induction ups as [|[o s] ups IH]; intros dl db cf I ND V Hs He.
    - exists db, cf. rewrite app_nil_r. auto.
    - destruct (LI_step db dl cf o s) as (db1 & cf1 & E1 & I1); auto.
      + intros Hn. rewrite map_app in ND. simpl in ND. apply NoDup_remove_2 in ND.
        apply ND. apply in_or_app. auto.
      + intros k v Hin. eapply V; [left; reflexivity|eauto].
      + intros ->. apply Hs. left. reflexivity.
      + apply (He o s). left. reflexivity.
      + destruct (IH (dl ++ [(o, s)]) _ cf1 I1) as (db' & cf' & E & I').
        * now rewrite <- app_assoc.
        * intros o' s' k v Hin. eapply V. right. eauto.
        * intros o' Hin. apply Hs. right. auto.
        * intros o' s' Hin. apply He. right. auto.
        * exists db', cf'. split; [|now rewrite <- app_assoc in I'].
          cbn [update_all]. rewrite E1. cbn [obind]. rewrite E. cbn [obind]. reflexivity.
  Qed.
End Loop.
