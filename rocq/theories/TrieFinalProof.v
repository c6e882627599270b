(** Proofs about tries in the database: the statements of the theorems. *)
From Coq Require Import List Bool Arith NArith Lia Permutation.
From Coq Require Import ZifyBool ZifyNat ZifyN.
From Verif Require Import AList ListLib MerkleModel MerkleSpec MerkleProof MerkleTreeProof
  MerkleCommitProof MerkleMemberProof TrieDbModel TrieDbSpec TrieRowsProof TrieDbProof
  TrieLoopProof TrieInvProof.
Import ListNotations.

Lemma map_script_fst ops : forall m,
  fst (map_script m ops) = puts m (flat_map (fun o => match o with TSet k v => [(k, v)] | _ => [] end) ops).
Proof.
  induction ops as [|[k v|k] ops IH]; intros m; simpl; auto.
  rewrite <- IH. destruct (map_script m ops); reflexivity.
Qed.

Section Final.
  Variable HEIGHT : nat.
  Hypothesis HEIGHT_pos : HEIGHT <> 0.
  Hypothesis HEIGHT_small : HEIGHT <= 251.
  Variable H : felt -> felt -> felt.

  Lemma script_ok st ops : forall t m S0,
    tinv H st HEIGHT t m S0 -> Forall (fun o => length (op_key o) = HEIGHT) ops ->
    exists t', run_script HEIGHT st t ops = Ok (t', snd (map_script m ops)) /\
               tinv H st HEIGHT t' (fst (map_script m ops)) S0.
  Proof using HEIGHT_pos.
    induction ops as [|[k v|k] ops IH]; intros t m S0 I V.
    - exists t. auto.
    - apply Forall_cons_iff in V. destruct V as [Lk V']. simpl in Lk.
      destruct (tree_set_any H st HEIGHT t m S0 k v I Lk HEIGHT_pos) as (t1 & E1 & I1).
      destruct (IH t1 _ S0 I1 V') as (t2 & E2 & I2).
      exists t2. cbn [run_script map_script]. rewrite E1. cbn [obind]. auto.
    - apply Forall_cons_iff in V. destruct V as [Lk V']. simpl in Lk.
      destruct (tree_get_ok H st HEIGHT t m S0 k I Lk) as (t1 & E1 & I1).
      destruct (IH t1 _ S0 I1 V') as (t2 & E2 & I2).
      exists t2. cbn [run_script map_script]. rewrite E1. cbn [obind].
      rewrite E2. cbn [obind]. destruct (map_script m ops). auto.
  Qed.

  Lemma tinv_empty st : tinv H st HEIGHT tree_empty no_contents [].
  Proof. simpl. split; auto. Qed.

  Lemma script_from_empty st ops :
    Forall (fun o => length (op_key o) = HEIGHT) ops ->
    exists t u, run_script HEIGHT st tree_empty ops = Ok (t, snd (map_script no_contents ops)) /\
      commit H st t = Ok u /\ u_root u = spec_root H HEIGHT (fst (map_script no_contents ops)).
  Proof using HEIGHT_pos HEIGHT_small.
    intros V. destruct (script_ok st ops _ _ _ (tinv_empty st) V) as (t & E & I).
    destruct (commit_ok H st HEIGHT HEIGHT_small _ _ _ I HEIGHT_pos) as (u & Eu & (Cr & _)).
    exists t, u. auto.
  Qed.

  Variable mode : option nat.
  Variable hash_leaves : owner -> bool.

  Lemma script_from_stored ops :
    valid_ops HEIGHT ([], 0) ops ->
    exists x, run HEIGHT H mode hash_leaves empty_chain_db ops = Ok (x, spec_outs H HEIGHT ([], 0) ops) /\
      forall o b script, readable mode (spec_run ([], 0) ops) b ->
        Forall (fun q => length (op_key q) = HEIGHT) script ->
        let m := contents_at (fst (spec_run ([], 0) ops)) o b in
        let st := db_storage (x_db x) o (Some b) in
        exists t u, run_script HEIGHT st (db_load (x_db x) o (Some b)) script =
                      Ok (t, snd (map_script m script)) /\
          commit H st t = Ok u /\ u_root u = spec_root H HEIGHT (fst (map_script m script)).
  Proof using HEIGHT_pos HEIGHT_small.
    intros V. destruct (run_ok HEIGHT HEIGHT_pos HEIGHT_small H mode hash_leaves ops _ _ _
                          (Inv_empty HEIGHT HEIGHT_pos HEIGHT_small H mode hash_leaves) V) as (x & F & E & I).
    exists x. split; auto. intros o b script R Vs m st.
    pose proof (nodes_ok_tinv HEIGHT H _ _ _ _ _ (i_nodes _ _ _ _ _ _ _ I o b R)
                  (i_leaf _ _ _ _ _ _ _ I o b R)) as T.
    assert (Es : db_load (x_db x) o (Some b) = load (root_index (x_db x) o b)) by reflexivity.
    rewrite Es. change (tinv H st HEIGHT (load (root_index (x_db x) o b)) m (F o b)) in T.
    destruct (script_ok st script _ _ _ T Vs) as (t & Et & It).
    destruct (commit_ok H st HEIGHT HEIGHT_small _ _ _ It HEIGHT_pos) as (u & Eu & (Cr & _)).
    exists t, u. auto.
  Qed.

  (** ** Reachable rows *)

  Lemma sden_reaches tb leaf p i a fp :
    sden H (table_storage tb leaf) p i a fp -> forall j, In j fp <-> reaches tb i j.
  Proof.
    assert (G : forall i s, option_map snd (al_get N.eqb i tb) = Some s ->
                  exists h, al_get N.eqb i tb = Some (h, s)).
    { intros i' s E. destruct (al_get N.eqb i' tb) as [[h s']|]; [|discriminate].
      simpl in E. injection E as ->. eauto. }
    induction 1 as [p i l r al ar fl fr Eg Eh Sl IHl Sr IHr|p i c q ac fc Eg Eh Sc IHc
                   |p i vl vr Eg Eh|p i q v Eg Eh]; intros j; simpl in Eg;
      destruct (G _ _ Eg) as (h & Ei).
    - simpl. rewrite in_app_iff. rewrite (IHl j), (IHr j). split.
      + intros [<-|[Hj|Hj]]; [eapply reach_here; eauto|eapply reach_left; eauto|eapply reach_right; eauto].
      + intros Hr. inversion Hr as [i0 e E|i0 h0 l0 r0 j0 E R|i0 h0 l0 r0 j0 E R|i0 h0 c0 p0 j0 E R]; subst;
          auto; rewrite Ei in E; inversion E; subst; auto.
    - simpl. rewrite (IHc j). split.
      + intros [<-|Hj]; [eapply reach_here; eauto|eapply reach_edge; eauto].
      + intros Hr. inversion Hr as [i0 e E|i0 h0 l0 r0 j0 E R|i0 h0 l0 r0 j0 E R|i0 h0 c0 p0 j0 E R]; subst;
          auto; rewrite Ei in E; inversion E; subst; auto.
    - simpl. split.
      + intros [<-|[]]. eapply reach_here; eauto.
      + intros Hr. inversion Hr as [i0 e E|i0 h0 l0 r0 j0 E R|i0 h0 l0 r0 j0 E R|i0 h0 c0 p0 j0 E R]; subst;
          auto; rewrite Ei in E; inversion E; subst; auto.
    - simpl. split.
      + intros [<-|[]]. eapply reach_here; eauto.
      + intros Hr. inversion Hr as [i0 e E|i0 h0 l0 r0 j0 E R|i0 h0 l0 r0 j0 E R|i0 h0 c0 p0 j0 E R]; subst;
          auto; rewrite Ei in E; inversion E; subst; auto.
  Qed.

  Lemma nodes_ok_reaches tb ri m fp :
    nodes_ok HEIGHT H tb ri m fp -> forall j, In j fp <-> reaches_opt tb ri j.
  Proof.
    destruct ri as [i|]; simpl.
    - intros (a & Sd & _ & _). eapply sden_reaches; eauto.
    - intros [-> _] j. simpl. tauto.
  Qed.

  Lemma removed_ok ops b :
    valid_ops HEIGHT ([], 0) ops -> S b = length (fst (spec_run ([], 0) ops)) ->
    exists x, run HEIGHT H mode hash_leaves empty_chain_db ops = Ok (x, spec_outs H HEIGHT ([], 0) ops) /\
      forall o s, (forall k v, In (k, v) s -> length k = HEIGHT) ->
        let tb := d_nodes (x_db x) in
        let old := root_index (x_db x) o b in
        exists t u tb' ru,
          apply_sets HEIGHT (db_storage (x_db x) o (Some b)) (db_load (x_db x) o (Some b)) s = Ok t /\
          commit H (db_storage (x_db x) o (Some b)) t = Ok u /\
          insert_trie tb u = Ok (tb', ru) /\
          let new := new_root old ru in
          (forall i, In i (u_removed u) -> reaches_opt tb old i /\ ~ reaches_opt tb' new i) /\
          (forall i, reaches_opt tb old i -> In i (u_removed u) \/ reaches_opt tb' new i) /\
          (forall i, reaches_opt tb' new i -> reaches_opt tb old i \/ al_get N.eqb i tb = None).
  Proof using HEIGHT_pos HEIGHT_small.
    intros V Eb. destruct (run_ok HEIGHT HEIGHT_pos HEIGHT_small H mode hash_leaves ops _ _ _
                          (Inv_empty HEIGHT HEIGHT_pos HEIGHT_small H mode hash_leaves) V) as (x & F & E & I).
    exists x. split; auto. intros o s Vs tb old.
    assert (R : readable mode (spec_run ([], 0) ops) b) by (split; [lia|auto]).
    pose proof (i_nodes _ _ _ _ _ _ _ I o b R) as Nk. pose proof (i_leaf _ _ _ _ _ _ _ I o b R) as Lf.
    pose proof (i_nodup _ _ _ _ _ _ _ I o b Eb) as ND.
    destruct (update_core HEIGHT HEIGHT_pos HEIGHT_small H tb tb old _ (F o b)
                (leaf_at (x_db x) o b) s Nk Lf Vs (fun _ _ => eq_refl))
      as (t & u & more & ru & fp' & keep & Et & Eu & _ & Ei & N' & P1 & P2 & _ & Fr & _).
    exists t, u, (tb ++ more), ru. split; [exact Et|]. split; [exact Eu|]. split; [exact Ei|].
    pose proof (nodes_ok_reaches _ _ _ _ Nk) as R1. pose proof (nodes_ok_reaches _ _ _ _ N') as R2.
    assert (ND2 : NoDup (keep ++ u_removed u)).
    { eapply Permutation_NoDup; [apply Permutation_sym; exact P2|exact ND]. }
    assert (T : forall j, In j (F o b) -> al_get N.eqb j tb <> None)
      by (intros; eapply nodes_ok_in_table; eauto).
    split; [|split].
    - intros i Hi.
      assert (Hf : In i (F o b)) by (eapply Permutation_in; [exact P2|]; apply in_or_app; auto).
      split; [now apply R1|]. intros Hr. apply R2 in Hr. apply (Permutation_in _ P1) in Hr.
      apply in_app_or in Hr. destruct Hr as [Hk|Hm].
      + clear - ND2 Hi Hk. induction keep as [|y keep IH]; [destruct Hk|]. simpl in ND2.
        apply NoDup_cons_iff in ND2. destruct ND2 as [Ny ND2]. destruct Hk as [->|Hk]; auto.
        apply Ny, in_or_app. auto.
      + eapply T; eauto.
    - intros i Hr. apply R1 in Hr.
      apply (Permutation_in _ (Permutation_sym P2)) in Hr. apply in_app_or in Hr.
      destruct Hr as [Hk|Hk]; auto. right. apply R2.
      eapply Permutation_in; [apply Permutation_sym; exact P1|]. apply in_or_app. auto.
    - intros i Hr. apply R2 in Hr. apply (Permutation_in _ P1) in Hr. apply in_app_or in Hr.
      destruct Hr as [Hk|Hm]; auto. left. apply R1.
      eapply Permutation_in; [exact P2|]. apply in_or_app. auto.
  Qed.

  (** ** Growing chains *)

  Lemma grows_spec ops : grows HEIGHT ops -> forall h,
    valid_ops HEIGHT (h, length h) ops /\
    spec_run (h, length h) ops =
      (h ++ map (fun ups => (ups, [])) (blocks_of ops), length h + length (blocks_of ops)).
  Proof.
    induction 1 as [|o ops Ho Hs IH]; intros h; simpl.
    - rewrite app_nil_r, Nat.add_0_r. auto.
    - destruct o as [ups|t rev| |]; simpl in *; try tauto.
      + destruct (IH (h ++ [(ups, [])])) as [V E].
        rewrite Nat.max_r by lia.
        rewrite app_length, Nat.add_1_r in V, E.
        split; auto. unfold spec_run in *. simpl. rewrite E.
        rewrite <- app_assoc. f_equal. lia.
      + destruct (IH h) as [V E]. split; auto.
  Qed.

  Lemma contents_at_after blocks o b :
    contents_at (map (fun ups => (ups, [])) blocks) o b = after_block blocks o b.
  Proof.
    unfold contents_at, after_block. f_equal. rewrite firstn_map.
    rewrite !flat_map_concat_map, map_map. reflexivity.
  Qed.

  Lemma grows_reads ops :
    grows HEIGHT ops ->
    exists x outs, run HEIGHT H mode hash_leaves empty_chain_db ops = Ok (x, outs) /\
      let blocks := blocks_of ops in
      forall o b, b < length blocks ->
        (match mode with Some kept => length blocks <= S b + kept | None => True end \/
         S b = length blocks) ->
        read_root (x_db x) o b = Some (spec_root H HEIGHT (after_block blocks o b)) /\
        (forall k, length k = HEIGHT ->
           read_value HEIGHT (x_db x) o b k = Ok (answer (after_block blocks o b) k) /\
           exists pr, read_proof HEIGHT (x_db x) o b k = Ok pr /\
             (spec_root H HEIGHT (after_block blocks o b) <> 0%N ->
              verify H (spec_root H HEIGHT (after_block blocks o b)) k (map fst pr) =
                Some (after_block blocks o b k))).
  Proof using HEIGHT_pos HEIGHT_small.
    intros G. destruct (grows_spec ops G []) as [V Es]. simpl in V, Es.
    destruct (run_reads HEIGHT HEIGHT_pos HEIGHT_small H mode hash_leaves ops V) as (x & E & Rd).
    exists x, (spec_outs H HEIGHT ([], 0) ops). split; auto. intros blocks o b Lb Kb.
    rewrite Es in Rd. cbn [fst] in Rd.
    assert (R : readable mode (map (fun ups => (ups, [])) (blocks_of ops), length (blocks_of ops)) b).
    { split; cbn [fst snd]; rewrite map_length; auto.
      destruct Kb as [K|K]; auto. }
    destruct (Rd o b R) as [R1 R2]. rewrite contents_at_after in R1. split; auto.
    intros k Lk. destruct (R2 k Lk) as (R3 & pr & R4 & _ & R5).
    rewrite contents_at_after in *. split; auto. exists pr. auto.
  Qed.

  Lemma grows_roots ops : grows HEIGHT ops ->
    forall x outs, run HEIGHT H mode hash_leaves empty_chain_db ops = Ok (x, outs) ->
    forall o ups ops1 ops2, ops = ops1 ++ OBlock ups :: ops2 -> names o ups ->
    exists rs, nth_error outs (length ops1) = Some rs /\
      In (o, spec_root H HEIGHT (after_block (blocks_of ops) o (length (blocks_of ops1)))) rs.
  Proof using HEIGHT_pos HEIGHT_small.
    intros G x outs Er o ups ops1 ops2 Eo Hn.
    destruct (grows_spec ops G []) as [V Es]. simpl in V, Es.
    destruct (run_ok HEIGHT HEIGHT_pos HEIGHT_small H mode hash_leaves ops _ _ _
                          (Inv_empty HEIGHT HEIGHT_pos HEIGHT_small H mode hash_leaves) V) as (x' & F & E & I).
    rewrite E in Er. injection Er as <- <-.
    assert (Gn : forall l1 l2 h, grows HEIGHT (l1 ++ OBlock ups :: l2) ->
      nth_error (spec_outs H HEIGHT (h, length h) (l1 ++ OBlock ups :: l2)) (length l1) =
      Some (map (fun e => (fst e, spec_root H HEIGHT
             (contents_at (h ++ map (fun u => (u, [])) (blocks_of l1) ++ [(ups, [])]) (fst e)
                 (length h + length (blocks_of l1))))) ups)).
    { clear. induction l1 as [|a l1 IH]; intros l2 h G.
      - simpl. rewrite Nat.add_0_r. reflexivity.
      - inversion G as [|? ? Ga G']; subst. destruct a as [u|t rev| |]; simpl in *; try tauto.
        + rewrite Nat.max_r by lia.
          specialize (IH l2 (h ++ [(u, [])]) G'). rewrite app_length, Nat.add_1_r in IH.
          rewrite IH. f_equal. apply map_ext. intros e. f_equal. f_equal.
          rewrite <- app_assoc. simpl. f_equal. lia.
        + apply IH. exact G'. }
    exists (map (fun e => (fst e, spec_root H HEIGHT
             (contents_at (map (fun u => (u, [])) (blocks_of ops1) ++ [(ups, [])]) (fst e)
                 (length (blocks_of ops1))))) ups).
    split; [subst ops; apply (Gn ops1 ops2 [] G)|].
    unfold names in Hn. apply in_map_iff in Hn. destruct Hn as ([o' s] & Eo' & Hin). simpl in Eo'. subst o'.
    apply in_map_iff. exists (o, s). split; auto. simpl fst. f_equal. f_equal.
    subst ops. unfold blocks_of at 3. rewrite flat_map_app. fold (blocks_of ops1). simpl.
    rewrite <- contents_at_after, map_app. unfold contents_at. f_equal. f_equal.
    rewrite !firstn_app, map_length. replace (S (length (blocks_of ops1)) - length (blocks_of ops1)) with 1 by lia.
    reflexivity.
  Qed.
End Final.
