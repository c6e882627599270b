(** Proofs about tries in the database. *)
From Coq Require Import List Bool Arith NArith Lia Permutation.
From Coq Require Import ZifyBool ZifyNat ZifyN.
From Verif Require Import AList ListLib MerkleModel MerkleSpec MerkleProof MerkleTreeProof
  MerkleCommitProof MerkleMemberProof TrieDbModel TrieDbSpec TrieRowsProof.
Import ListNotations.

Lemma traverse_not_unres HEIGHT fuel : forall st dst height fs n fs' n',
  traverse HEIGHT fuel st dst height fs n = Ok (fs', n') ->
  match n' with NUnres _ => False | _ => True end.
Proof.
  induction fuel as [|fuel IH]; intros st dst height fs n fs' n' E; [discriminate|].
  cbn [traverse] in E. destruct n as [i|si h l r|si h p c|].
  - destruct (resolve HEIGHT st i height); cbn [obind] in E; try discriminate. exact (IH _ _ _ _ _ _ _ E).
  - destruct (nth_error dst h) as [[]|]; cbn [obind or_panic] in E; try discriminate; exact (IH _ _ _ _ _ _ _ E).
  - destruct (path_matches h p dst) as [[]| | |]; cbn [obind] in E; try discriminate.
    + exact (IH _ _ _ _ _ _ _ E).
    + injection E as <- <-. exact I.
  - injection E as <- <-. exact I.
Qed.

Lemma plug_root_not_unres fs n i :
  (match n with NUnres _ => False | _ => True end) -> plug fs n = NUnres i -> False.
Proof. intros Hn E. pose proof (plug_not_unres fs n Hn) as X. now rewrite E in X. Qed.

Lemma delete_leaf_not_unres HEIGHT st t key t' i :
  delete_leaf HEIGHT st t key = Ok t' -> t_root t' = Some (NUnres i) -> False.
Proof.
  unfold delete_leaf. destruct (t_root t) as [root|] eqn:R; [|intros [= <-]; congruence].
  destruct (traverse HEIGHT (traverse_fuel HEIGHT) st key 0 [] root) as [[fs last]| | |] eqn:T;
    cbn [obind]; try discriminate.
  apply traverse_not_unres in T.
  destruct last as [j|si h l r|si h p c|].
  - destruct T.
  - intros [= <-] E. injection E as E. now apply plug_root_not_unres in E.
  - intros [= <-] E. injection E as E. now apply plug_root_not_unres in E.
  - destruct (skip_to_binary fs []) as [[|[si h dir sib|si h p] fs'] below].
    + intros [= <-]. discriminate.
    + destruct (merge_edges HEIGHT st h [negb dir] sib) as [[[ep ec] rem1]| | |];
        cbn [obind]; try discriminate.
      destruct fs' as [|[si' h' dir' sib'|psi ph pp] fs''].
      * intros [= <-] E. discriminate.
      * intros [= <-] E. injection E as E.
        now apply (plug_root_not_unres (FBin si' h' dir' sib' :: fs'') (NEdge None h ep ec)) in E.
      * destruct (merge_edges HEIGHT st ph pp (NEdge None h ep ec)) as [[[pp' pc'] rem2]| | |];
          cbn [obind]; try discriminate.
        intros [= <-] E. injection E as E. now apply plug_root_not_unres in E.
    + intros [= <-]. discriminate.
Qed.

Lemma tree_set_not_unres HEIGHT st t key v t' i :
  tree_set HEIGHT st t key v = Ok t' -> t_root t' = Some (NUnres i) -> False.
Proof.
  unfold tree_set. destruct (v =? 0)%N; [apply delete_leaf_not_unres|].
  destruct (t_root t) as [root|]; [|intros [= <-]; discriminate].
  destruct (traverse HEIGHT (traverse_fuel HEIGHT) st key 0 [] root) as [[fs last]| | |] eqn:T;
    cbn [obind]; try discriminate.
  destruct last as [j|si h l r|si h p c|]; cbn [obind]; try discriminate.
  - unfold split_edge. destruct (_ && _)%bool; cbn [obind]; try discriminate.
    destruct (nth_error key _) as [b|]; cbn [obind or_panic]; try discriminate.
    intros [= <-] E. injection E as E. revert E. apply plug_root_not_unres.
    destruct (common_path h p key), b; exact I.
  - intros [= <-] E. injection E as E. now apply plug_root_not_unres in E.
Qed.

Lemma puts_ext (m m' : contents) n s :
  (forall k, length k = n -> m k = m' k) -> (forall k v, In (k, v) s -> length k = n) ->
  forall k, length k = n -> puts m s k = puts m' s k.
Proof.
  revert m m'. induction s as [|[k0 v0] s IH]; intros m m' E V k Lk; simpl; auto.
  apply IH; auto.
  - intros k' Lk'. unfold put. simpl. destruct (bits_eqb k' k0); auto.
  - intros. eapply V. right. eauto.
Qed.

Lemma puts_app m s1 s2 : puts m (s1 ++ s2) = puts (puts m s1) s2.
Proof. unfold puts. apply fold_left_app. Qed.

Section Core.
  Variable HEIGHT : nat.
  Hypothesis HEIGHT_pos : HEIGHT <> 0.
  Hypothesis HEIGHT_small : HEIGHT <= 251.
  Variable H : felt -> felt -> felt.

  Lemma apply_sets_ok st s : (forall k v, In (k, v) s -> length k = HEIGHT) ->
    forall t m S0, tinv H st HEIGHT t m S0 ->
    exists t', apply_sets HEIGHT st t s = Ok t' /\ tinv H st HEIGHT t' (puts m s) S0 /\
               (s = [] \/ forall i, t_root t' <> Some (NUnres i)).
  Proof using HEIGHT_pos.
    induction s as [|[k v] s IH]; intros V t m S0 I.
    - exists t. simpl. auto.
    - destruct (tree_set_any H st HEIGHT t m S0 k v I) as (t1 & E1 & I1); auto.
      { eapply V. left. reflexivity. }
      destruct (IH (fun k v Hin => V k v (or_intror Hin)) t1 _ _ I1) as (t2 & E2 & I2 & N2).
      exists t2. simpl. rewrite E1. cbn [obind]. split; [exact E2|]. split; [exact I2|].
      right. destruct N2 as [->|N2]; auto.
      simpl in E2. injection E2 as <-. intros i X. eapply tree_set_not_unres; eauto.
  Qed.

  (** The trie with root row [ri] in a node table holds [m]; its rows are
      [fp]. *)
  Definition nodes_ok (tb : table) (ri : option idx) (m : contents) (fp : list idx) : Prop :=
    match ri with
    | None => fp = [] /\ forall k, length k = HEIGHT -> m k = 0%N
    | Some i => exists a, sden H (table_storage tb (answer m)) [] i a fp /\ wfa HEIGHT a /\
                  forall k, length k = HEIGHT -> m k = acontent a k
    end.

  Definition leaf_ok (leaf : bits -> option felt) (m : contents) : Prop :=
    forall k, length k = HEIGHT -> m k <> 0%N -> leaf k = Some (m k).

  Lemma alookup_content a (m : contents) k v :
    wfa HEIGHT a -> (forall k, length k = HEIGHT -> m k = acontent a k) ->
    alookup a k = Some v -> length k = HEIGHT /\ m k = v /\ v <> 0%N.
  Proof.
    intros W C L. pose proof (alookup_length _ _ _ _ W L) as Lk.
    split; auto. split; [|eapply alookup_nonzero; eauto].
    rewrite C by auto. unfold acontent. now rewrite L.
  Qed.

  Lemma sden_leaf tb tb' m leaf i a fp :
    sden H (table_storage tb (answer m)) [] i a fp -> wfa HEIGHT a ->
    (forall k, length k = HEIGHT -> m k = acontent a k) ->
    leaf_ok leaf m -> (forall j, In j fp -> al_get N.eqb j tb' = al_get N.eqb j tb) ->
    sden H (table_storage tb' leaf) [] i a fp.
  Proof.
    intros S W C L A. eapply sden_ext; [exact S| |].
    - intros j Hj. simpl. now rewrite A.
    - intros k v Lk. destruct (alookup_content _ _ _ _ W C Lk) as (Lk' & E & Nz).
      simpl. rewrite L; congruence.
  Qed.

  Lemma answer_leaf_ok (m m' : contents) :
    (forall k, length k = HEIGHT -> m k = m' k) -> leaf_ok (answer m') m.
  Proof.
    intros E k Lk Nz. unfold answer. rewrite E in * by auto.
    destruct (N.eqb_spec (m' k) 0); [congruence|reflexivity].
  Qed.

  Lemma nodes_ok_ext tb tb' ri m m' fp :
    nodes_ok tb ri m fp -> (forall k, length k = HEIGHT -> m k = m' k) ->
    (forall j, In j fp -> al_get N.eqb j tb' = al_get N.eqb j tb) -> nodes_ok tb' ri m' fp.
  Proof.
    unfold nodes_ok. destruct ri as [i|].
    - intros (a & S & W & C) E A. exists a. split; [|split; auto].
      + eapply sden_leaf; eauto. now apply answer_leaf_ok.
      + intros k Lk. rewrite <- E by auto. auto.
    - intros [-> Z] E A. split; auto. intros k Lk. rewrite <- E; auto.
  Qed.

  Lemma nodes_ok_in_table tb ri m fp : nodes_ok tb ri m fp ->
    forall j, In j fp -> al_get N.eqb j tb <> None.
  Proof.
    destruct ri as [i|].
    - intros (a & S & _ & _). eapply sden_in_table; eauto.
    - intros [-> _] j [].
  Qed.

  Definition load (ri : option idx) : tree :=
    match ri with None => tree_empty | Some i => tree_new i end.

  Lemma nodes_ok_tinv tb ri m fp leaf :
    nodes_ok tb ri m fp -> leaf_ok leaf m ->
    tinv H (table_storage tb leaf) HEIGHT (load ri) m fp.
  Proof.
    destruct ri as [i|]; unfold tinv; simpl.
    - intros (a & S & W & C) L. exists a, fp. split; [|split; [|split; [|split]]]; auto.
      + constructor.
        * eapply sden_leaf; eauto.
        * intros k _. reflexivity.
      + now rewrite app_nil_r.
    - intros [-> Z] _. split; auto.
  Qed.

  Lemma rden_ext st st' added p r a s e keep :
    rden H st added p r a s e keep ->
    (forall j, In j keep -> s_get st' j = s_get st j /\ s_hash st' j = s_hash st j) ->
    (forall k v, alookup a k = Some v -> s_leaf st' (p ++ k) = Some v) ->
    rden H st' added p r a s e keep.
  Proof.
    induction 1 as [p i a fp s S|p i l r al ar s m fl fr En Rl IHl Rr IHr
                   |p i c q ac s fc En Rc IHc|p i vl vr En|p i q v En]; intros A L.
    - constructor. eapply sden_ext; eauto.
    - eapply rden_bin; eauto.
      + apply IHl; [intros; apply A, in_or_app; auto|].
        intros k v Lk. rewrite <- app_assoc. apply L. exact Lk.
      + apply IHr; [intros; apply A, in_or_app; auto|].
        intros k v Lk. rewrite <- app_assoc. apply L. exact Lk.
    - eapply rden_edge; eauto. apply IHc; auto.
      intros k v Lk. rewrite <- app_assoc. apply L. now rewrite alookup_edge_app.
    - now apply rden_leafbin.
    - now apply rden_leafedge.
  Qed.

  Definition new_root (ri : option idx) (ru : root_update) : option idx :=
    match ru with RUnchanged => ri | RUpdated i => Some i | REmpty => None end.

  (** One trie updated and written back to a table in which its rows still
      are. *)
  Lemma update_core tb tb2 ri m fp leaf s :
    nodes_ok tb ri m fp -> leaf_ok leaf m ->
    (forall k v, In (k, v) s -> length k = HEIGHT) ->
    (forall j, In j fp -> al_get N.eqb j tb2 = al_get N.eqb j tb) ->
    exists t u more ru fp' keep,
      apply_sets HEIGHT (table_storage tb leaf) (load ri) s = Ok t /\
      commit H (table_storage tb leaf) t = Ok u /\
      u_root u = spec_root H HEIGHT (puts m s) /\
      insert_trie tb2 u = Ok (tb2 ++ more, ru) /\
      nodes_ok (tb2 ++ more) (new_root ri ru) (puts m s) fp' /\
      Permutation fp' (keep ++ map fst more) /\
      Permutation (keep ++ u_removed u) fp /\
      NoDup (map fst more) /\
      (forall i, In i (map fst more) -> al_get N.eqb i tb2 = None) /\
      (ru = RUnchanged ->
       s = [] \/ (ri = None /\ forall k, length k = HEIGHT -> puts m s k = 0%N)) /\
      (s = [] -> ru = RUnchanged) /\
      (forall i, ru = RUpdated i -> exists k, length k = HEIGHT /\ puts m s k <> 0%N).
  Proof using HEIGHT_pos HEIGHT_small.
    intros N L V A.
    destruct (apply_sets_ok (table_storage tb leaf) s V _ _ _ (nodes_ok_tinv _ _ _ _ _ N L))
      as (t & Et & I & NU).
    destruct (commit_ok H (table_storage tb leaf) HEIGHT HEIGHT_small t _ _ I HEIGHT_pos)
      as (u & Eu & Cr & Cu).
    exists t, u.
    assert (Nonzero : forall m', spec_root H HEIGHT m' = spec_root H HEIGHT m') by reflexivity.
    destruct (t_root t) as [n|] eqn:Rt.
    - assert (Case : (exists i, n = NUnres i) \/
        exists a keep, wfa HEIGHT a /\ (forall k, length k = HEIGHT -> puts m s k = acontent a k) /\
          u_added u <> [] /\
          rden H (table_storage tb leaf) (u_added u) [] (RNew (length (u_added u) - 1)) a 0
               (length (u_added u)) keep /\
          Permutation (keep ++ u_removed u) fp).
      { destruct n; eauto. }
      destruct Case as [[i ->]|(a & keep & W & C & NE & R & Pm)].
      + destruct NU as [->|NU]; [|exfalso; eapply NU; eauto].
        simpl in Et. injection Et as <-. destruct Cu as (Ea & Er & _).
        exists [], RUnchanged, fp, fp. rewrite Er, !app_nil_r.
        repeat match goal with |- _ /\ _ => split end; auto.
        * unfold insert_trie. now rewrite Ea, Er.
        * eapply nodes_ok_ext; eauto.
        * constructor.
        * intros i0 [].
        * discriminate.
      + assert (R2 : rden H (table_storage tb2 (answer (puts m s))) (u_added u) []
                       (RNew (length (u_added u) - 1)) a 0 (length (u_added u)) keep).
        { eapply rden_ext; [exact R| |].
          - intros j Hj. simpl. rewrite A; auto.
            eapply Permutation_in; [exact Pm|]. apply in_or_app. auto.
          - intros k v Lk. simpl. destruct (alookup_content _ _ _ _ W C Lk) as (Lk' & E & Nz).
            rewrite <- E. unfold answer. destruct (N.eqb_spec (puts m s k) 0); congruence. }
        destruct (insert_trie_ok H tb2 _ (answer (puts m s)) u a keep R2 NE)
          as (more & root & fp' & Ei & S & P1 & ND & Fr).
        { intros k v Lk. destruct (alookup_content _ _ _ _ W C Lk) as (Lk' & E & Nz).
          rewrite <- E. unfold answer. destruct (N.eqb_spec (puts m s k) 0); congruence. }
        exists more, (RUpdated root), fp', keep.
        repeat match goal with |- _ /\ _ => split end; auto.
        * exists a. auto.
        * discriminate.
        * intros ->. exfalso. simpl in Et. injection Et as <-.
          destruct ri as [i|]; simpl in Rt; [|discriminate]. injection Rt as <-.
          simpl in Cu. destruct Cu as (Ea & _). congruence.
        * intros i _. destruct (wfa_nonempty _ _ W) as (k & v & Lk).
          destruct (alookup_content _ _ _ _ W C Lk) as (Lk' & E & Nz).
          exists k. split; congruence.
    - destruct Cu as (Ea & Pm & Z).
      destruct (u_removed u) as [|x rem] eqn:Er.
      + apply Permutation_nil in Pm. subst fp.
        assert (ri = None).
        { destruct ri as [i|]; auto. destruct N as (a & S & _).
          apply sden_root_in in S. destruct S. }
        subst ri. exists [], RUnchanged, [], []. rewrite !app_nil_r.
        repeat match goal with |- _ /\ _ => split end; auto.
        * unfold insert_trie. now rewrite Ea, Er.
        * split; auto.
        * constructor.
        * intros i0 [].
        * discriminate.
      + exists [], REmpty, [], []. rewrite !app_nil_r.
        repeat match goal with |- _ /\ _ => split end; auto.
        * unfold insert_trie. rewrite Ea, Er, Cr. rewrite (spec_root_empty H HEIGHT _ Z). rewrite N.eqb_refl. reflexivity.
        * split; auto.
        * constructor.
        * intros i0 [].
        * discriminate.
        * intros ->. exfalso. simpl in Et. injection Et as <-.
          destruct ri as [i|]; simpl in Rt; [discriminate|].
          destruct N as [-> _]. apply Permutation_sym, Permutation_nil in Pm. discriminate.
        * discriminate.
  Qed.

  (** Reading. *)
  Lemma read_get tb ri m fp leaf k :
    nodes_ok tb ri m fp -> leaf_ok leaf m -> length k = HEIGHT ->
    exists t', tree_get HEIGHT (table_storage tb leaf) (load ri) k = Ok (t', answer m k).
  Proof using HEIGHT_pos.
    intros N L Lk.
    destruct (tree_get_ok H (table_storage tb leaf) HEIGHT (load ri) m fp k
                (nodes_ok_tinv _ _ _ _ _ N L)) as (t' & E & _); auto.
    exists t'. exact E.
  Qed.

  Lemma read_hash tb ri m fp :
    nodes_ok tb ri m fp ->
    match ri with
    | None => Some 0%N
    | Some i => option_map fst (al_get N.eqb i tb)
    end = Some (spec_root H HEIGHT m).
  Proof.
    destruct ri as [i|].
    - intros (a & S & W & C). apply sden_hash in S. simpl in S. rewrite S.
      now rewrite (spec_root_wfa H HEIGHT a m W C).
    - intros [_ Z]. now rewrite spec_root_empty.
  Qed.

  Lemma read_proof_ok tb ri m fp leaf k :
    nodes_ok tb ri m fp -> leaf_ok leaf m -> length k = HEIGHT ->
    exists pr,
      match ri with
      | None => Ok []
      | Some i => get_proof HEIGHT (table_storage tb leaf) i k
      end = Ok pr /\
      (spec_root H HEIGHT m <> 0%N \/ ri = None ->
       verify H (spec_root H HEIGHT m) k (map fst pr) = Some (m k)) /\
      Forall (fun e => trie_node_hash H (fst e) = Ok (snd e)) pr.
  Proof using HEIGHT_pos HEIGHT_small.
    intros N L Lk. destruct ri as [i|].
    - destruct N as (a & Sd & W & C).
      assert (Sd' : sden H (table_storage tb leaf) [] i a fp) by (eapply sden_leaf; eauto).
      unfold get_proof.
      destruct (get_proof_loop_ok H _ [] i a fp Sd' HEIGHT k (S HEIGHT) [] W Lk) as (pr & E & V & F);
        auto.
      exists pr. split; [exact E|]. split; [|exact F].
      intros [NZ|X]; [|discriminate].
      unfold verify. rewrite (spec_root_wfa H HEIGHT a m W C) in *.
      destruct (N.eqb_spec (ahash H a) 0); [congruence|]. rewrite V. now rewrite C.
    - destruct N as [_ Z]. exists []. split; [reflexivity|]. split; [|constructor].
      intros _. rewrite spec_root_empty by auto. unfold verify. simpl. now rewrite Z.
  Qed.
End Core.
