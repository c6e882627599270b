(** Proofs about tries in the database: the invariant of all operations. *)
From Coq Require Import List Bool Arith NArith Lia Permutation.
From Coq Require Import ZifyBool ZifyNat ZifyN.
From Verif Require Import AList ListLib MerkleModel MerkleSpec MerkleProof MerkleTreeProof
  MerkleCommitProof MerkleMemberProof TrieDbModel TrieDbSpec TrieRowsProof TrieDbProof
  TrieLoopProof.
Import ListNotations.

(** ** Histories *)

Lemma firstn_S_nth {A} n (l : list A) x :
  nth_error l n = Some x -> firstn (S n) l = firstn n l ++ [x].
Proof.
  revert l. induction n as [|n IH]; intros [|y l]; simpl; try discriminate.
  - intros E. now injection E as ->.
  - intros E. now rewrite <- (IH l E).
Qed.

Lemma contents_at_snoc_lt h e o b : b < length h -> contents_at (h ++ [e]) o b = contents_at h o b.
Proof.
  intros Lb. unfold contents_at. rewrite firstn_app.
  replace (S b - length h) with 0 by lia. simpl. now rewrite app_nil_r.
Qed.

Lemma contents_at_now h o b : S b = length h -> contents_at h o b = contents_now h o.
Proof. intros E. unfold contents_at, contents_now. now rewrite E, firstn_all. Qed.

Lemma contents_at_snoc h e o :
  contents_at (h ++ [e]) o (length h) = puts (contents_now h o) (block_sets o (fst e)).
Proof.
  rewrite contents_at_now by (rewrite app_length; simpl; lia).
  unfold contents_now. rewrite flat_map_app, puts_app. simpl. now rewrite app_nil_r.
Qed.

Definition cut (h : history) (t : nat) (rev : updates) : history :=
  firstn t h ++ map (fun e => (fst e, snd e ++ rev)) (firstn 1 (skipn t h)).

Lemma cut_split h t rev : t < length h ->
  exists h1 e h2, h = h1 ++ e :: h2 /\ length h1 = t /\ cut h t rev = h1 ++ [(fst e, snd e ++ rev)].
Proof.
  intros Lt. exists (firstn t h). destruct (skipn t h) as [|e h2] eqn:E.
  - exfalso. apply (f_equal (@length _)) in E. rewrite skipn_length in E. simpl in E. lia.
  - exists e, h2. split; [now rewrite <- E, firstn_skipn|]. split; [now rewrite firstn_length_le by lia|].
    unfold cut. now rewrite E.
Qed.

Lemma cut_length h t rev : t < length h -> length (cut h t rev) = S t.
Proof.
  intros Lt. destruct (cut_split h t rev Lt) as (h1 & e & h2 & _ & L1 & ->).
  rewrite app_length. simpl. lia.
Qed.

Lemma contents_at_cut h t rev o b : t < length h -> b <= t ->
  contents_at (cut h t rev) o b = contents_at h o b.
Proof.
  intros Lt Lb. destruct (cut_split h t rev Lt) as (h1 & e & h2 & -> & L1 & ->).
  unfold contents_at. rewrite !firstn_app.
  destruct (S b - length h1) as [|x] eqn:E; simpl; auto.
  assert (x = 0) by lia. subst x. rewrite !flat_map_app. reflexivity.
Qed.

Lemma names_key_names o k ups : names_key o k ups -> names o ups.
Proof.
  unfold names_key. intros Hk. destruct (owner_in_dec o (map fst ups)); auto.
  rewrite block_sets_none in Hk by auto. destruct Hk.
Qed.

Lemma written_key_written h o k b : written_key h o k b -> written h o b.
Proof.
  intros (e & E & [N|N]); exists e; split; auto; [left|right]; eapply names_key_names; eauto.
Qed.

Lemma written_key_lt h o k b : written_key h o k b -> b < length h.
Proof. intros (e & E & _). apply nth_error_Some. congruence. Qed.

Lemma written_key_snoc h e o k b : written_key h o k b -> written_key (h ++ [e]) o k b.
Proof.
  intros W. pose proof (written_key_lt _ _ _ _ W). destruct W as (x & E & N).
  exists x. split; auto. now rewrite nth_error_app1.
Qed.

Lemma written_key_cut h t rev o k b : t < length h -> b <= t ->
  written_key h o k b -> written_key (cut h t rev) o k b.
Proof.
  intros Lt Lb (x & E & N). destruct (cut_split h t rev Lt) as (h1 & e & h2 & -> & L1 & ->).
  destruct (Nat.eq_dec b t) as [->|Nb].
  - rewrite nth_error_app2 in E by lia. replace (t - length h1) with 0 in E by lia.
    simpl in E. injection E as <-. exists (fst e, snd e ++ rev). split.
    + rewrite nth_error_app2 by lia. now replace (t - length h1) with 0 by lia.
    + simpl. destruct N as [N|N]; auto. right. unfold names_key in *.
      rewrite block_sets_app, map_app, in_app_iff. auto.
  - exists x. split; auto. rewrite nth_error_app1 in * by lia. auto.
Qed.

Lemma written_key_cut_rev h t rev o k : t < length h ->
  names_key o k rev -> written_key (cut h t rev) o k t.
Proof.
  intros Lt N. destruct (cut_split h t rev Lt) as (h1 & e & h2 & -> & L1 & ->).
  exists (fst e, snd e ++ rev). split.
  - rewrite nth_error_app2 by lia. now replace (t - length h1) with 0 by lia.
  - right. simpl. unfold names_key in *. rewrite block_sets_app, map_app, in_app_iff. auto.
Qed.

Lemma contents_unwritten h o k : forall t b, t <= b ->
  (forall c, t < c -> ~ written_key h o k c) -> contents_at h o b k = contents_at h o t k.
Proof.
  intros t b L U. induction L as [|b L IH]; auto. rewrite <- IH. clear IH.
  unfold contents_at.
  destruct (nth_error h (S b)) as [e|] eqn:E.
  - rewrite (firstn_S_nth (S b) h e E), flat_map_app, puts_app. simpl. rewrite app_nil_r.
    apply puts_other. intros Hk. apply (U (S b)); [lia|]. exists e. split; auto.
  - apply nth_error_None in E. rewrite !firstn_all2 by lia. reflexivity.
Qed.

Lemma contents_never h o k : forall t,
  (forall c, c <= t -> ~ written_key h o k c) -> contents_at h o t k = 0%N.
Proof.
  induction t as [|t IH]; intros U; unfold contents_at in *.
  - destruct h as [|e h]; auto. simpl. rewrite app_nil_r. rewrite puts_other; auto.
    intros Hk. apply (U 0); auto. exists e. split; auto.
  - destruct (nth_error h (S t)) as [e|] eqn:E.
    + rewrite (firstn_S_nth (S t) h e E), flat_map_app, puts_app. simpl. rewrite app_nil_r.
      rewrite puts_other; auto. intros Hk. apply (U (S t)); auto. exists e. split; auto.
    + apply nth_error_None in E. rewrite firstn_all2 in * by lia. apply IH. auto.
Qed.

Section Inv.
  Variable HEIGHT : nat.
  Hypothesis HEIGHT_pos : HEIGHT <> 0.
  Hypothesis HEIGHT_small : HEIGHT <= 251.
  Variable H : felt -> felt -> felt.
  Variable mode : option nat.
  Variable hash_leaves : owner -> bool.

  Lemma spec_root_ext (m m' : contents) :
    (forall k, length k = HEIGHT -> m k = m' k) -> spec_root H HEIGHT m = spec_root H HEIGHT m'.
  Proof. intros E. unfold spec_root. now rewrite (summary_ext H HEIGHT m m' E). Qed.

  Lemma nodes_ok_some tb i m fp : nodes_ok HEIGHT H tb (Some i) m fp ->
    exists k, length k = HEIGHT /\ m k <> 0%N.
  Proof.
    intros (a & _ & W & C). destruct (wfa_nonempty _ _ W) as (k & v & L).
    destruct (alookup_content _ _ _ _ _ W C L) as (Lk & E & Nz). exists k. split; congruence.
  Qed.

  Definition head_of (h : history) : option nat :=
    match length h with 0 => None | S n => Some n end.

  Record Inv (x : chain_db) (s : history * nat) (F : owner -> nat -> list idx) : Prop := {
    i_head : x_head x = head_of (fst s);
    i_peak : length (fst s) <= snd s;
    i_nodes : forall o b, readable mode s b ->
      nodes_ok HEIGHT H (d_nodes (x_db x)) (root_index (x_db x) o b) (contents_at (fst s) o b) (F o b);
    i_leaf : forall o b, readable mode s b ->
      leaf_ok HEIGHT (leaf_at (x_db x) o b) (contents_at (fst s) o b);
    i_nodup : forall o b, S b = length (fst s) -> NoDup (F o b);
    i_disj : forall o o' b i, S b = length (fst s) -> o <> o' -> In i (F o b) -> In i (F o' b) -> False;
    i_mnd : NoDup (all_marked (x_db x));
    i_mtab : forall i, In i (all_marked (x_db x)) -> al_get N.eqb i (d_nodes (x_db x)) <> None;
    i_mF : forall r l i o b, In (r, l) (d_removals (x_db x)) -> In i l ->
      readable mode s b -> r <= b -> ~ In i (F o b);
    i_mode : mode = None -> d_removals (x_db x) = [];
    i_roots : forall o e, In e (d_roots (x_db x) o) -> exists k, written_key (fst s) o k (fst e);
    i_leaves : forall o k e, In e (d_leaves (x_db x) o k) -> written_key (fst s) o k (fst e);
    i_removals : forall e, In e (d_removals (x_db x)) -> fst e < length (fst s);
    i_stale : forall o b i, b < length (fst s) -> root_index (x_db x) o b = Some i ->
      exists k, length k = HEIGHT /\ contents_at (fst s) o b k <> 0%N;
    i_plain : forall o b, b < length (fst s) -> hash_leaves o = false ->
      leaf_ok HEIGHT (leaf_at (x_db x) o b) (contents_at (fst s) o b)
  }.

  Lemma Inv_empty : Inv empty_chain_db ([], 0) (fun _ _ => []).
  Proof.
    assert (R : forall b, ~ readable mode ([], 0) b) by (intros b [Lb _]; simpl in Lb; lia).
    constructor; simpl; auto; try (intros; lia); try (intros; tauto).
    all: try (intros o b Rb; exfalso; eapply R; eassumption).
    constructor.
  Qed.

  Definition cf_of (h : history) (F : owner -> nat -> list idx) (o : owner) : list idx :=
    match length h with 0 => [] | S b => F o b end.

  Lemma head_readable h peak b : S b = length h -> readable mode (h, peak) b.
  Proof. intros E. split; simpl; [lia|auto]. Qed.

  (** Before an update of all tries at block [n]. *)
  Lemma Inv_LI x h peak F writes n (W : nat -> Prop) :
    Inv x (h, peak) F -> n <= length h ->
    (forall b, W b -> b < n /\ readable mode (h, peak) b) ->
    LI HEIGHT H mode hash_leaves writes (x_db x) (x_head x) n W (contents_at h) F (contents_now h)
       (x_db x) [] (cf_of h F).
  Proof.
    intros I Ln HW. unfold cf_of.
    assert (Hh : x_head x = head_of h) by exact (i_head _ _ _ I). unfold head_of in Hh.
    constructor.
    - intros o b Hb. apply (i_nodes _ _ _ I o b). now apply HW.
    - intros o b Hb. apply (i_leaf _ _ _ I o b). now apply HW.
    - intros o _. unfold ri_load, leaf_load. rewrite Hh.
      destruct (length h) as [|c] eqn:E.
      + destruct h; [|discriminate]. split; [simpl; auto|].
        intros k Lk Nz. exfalso. apply Nz. reflexivity.
      + rewrite <- (contents_at_now h o c) by auto.
        assert (R : readable mode (h, peak) c) by (apply head_readable; auto).
        split; [apply (i_nodes _ _ _ I o c R)|apply (i_leaf _ _ _ I o c R)].
    - intros o [].
    - intros o. destruct (length h) eqn:E; [constructor|]. apply (i_nodup _ _ _ I). simpl. auto.
    - intros o o' i No. destruct (length h) eqn:E; [intros []|]. intros H1 H2.
      eapply (i_disj _ _ _ I); simpl; eauto.
    - apply (i_mnd _ _ _ I).
    - apply (i_mtab _ _ _ I).
    - intros i o Hi Hc. destruct (length h) as [|c] eqn:E; [destruct Hc|].
      apply in_flat_map in Hi. destruct Hi as ([r l] & He & Hi). simpl in Hi.
      pose proof (i_removals _ _ _ I _ He) as Lr. simpl in Lr.
      eapply (i_mF _ _ _ I r l i o c); eauto; [apply head_readable; auto|lia].
    - intros r l i o b He Hi Hb Lr. eapply (i_mF _ _ _ I); eauto. now apply HW.
    - apply (i_mode _ _ _ I).
    - auto.
    - auto.
    - intros e He. right. now apply in_map.
    - intros o k [].
    - auto.
    - auto.
    - intros o b i Lb. apply (i_stale _ _ _ I). simpl. lia.
    - auto.
  Qed.

  Lemma readable_snoc h peak e b :
    b < length h -> readable mode (h ++ [e], Nat.max peak (S (length h))) b ->
    readable mode (h, peak) b /\ (forall kept, mode = Some kept -> length h - kept <= b).
  Proof.
    intros Lb [_ [E|R]]; cbn [fst snd] in *.
    - rewrite app_length in E. simpl in E. lia.
    - split.
      + split; auto. right. destruct mode; auto. simpl. lia.
      + intros kept ->. lia.
  Qed.

  Lemma roots_at_end x h peak F o b : Inv x (h, peak) F -> length h <= b ->
    root_index (x_db x) o b = ri_load (x_head x) (x_db x) o.
  Proof.
    intros I Lb. unfold ri_load, root_index. rewrite (i_head _ _ _ I). unfold head_of. simpl fst.
    assert (G : forall e, In e (d_roots (x_db x) o) -> fst e < length h).
    { intros e He. destruct (i_roots _ _ _ I o e He) as (k & Wk). eapply written_key_lt; eauto. }
    destruct (length h) as [|c] eqn:E.
    - destruct (latest b (d_roots (x_db x) o)) as [[m y]|] eqn:El; auto.
      apply latest_some in El. destruct El as (Hi & _ & _). apply G in Hi. lia.
    - rewrite (latest_gap c b); auto; [lia|]. intros e He Le. apply G in He. lia.
  Qed.

  Lemma step_block x h peak F ups :
    Inv x (h, peak) F -> valid_updates HEIGHT ups ->
    exists x' F',
      step HEIGHT H mode hash_leaves x (OBlock ups) = Ok (x', spec_out H HEIGHT (h, peak) (OBlock ups)) /\
      Inv x' (spec_step (h, peak) (OBlock ups)) F'.
  Proof.
    intros I [ND V]. set (n := length h). set (s' := spec_step (h, peak) (OBlock ups)).
    assert (Hn : next_block (x_head x) = n).
    { rewrite (i_head _ _ _ I). unfold head_of, next_block, n. simpl. destruct (length h); auto. }
    set (W := fun b => b < n /\ readable mode s' b).
    assert (HW : forall b, W b -> b < n /\ readable mode (h, peak) b).
    { intros b [Lb R]. split; auto. eapply readable_snoc; eauto. }
    assert (W_lt : forall b, W b -> b < n) by (intros b []; auto).
    assert (W_kept : forall b kept, W b -> mode = Some kept -> n - kept <= b).
    { intros b kept [Lb R] Md. eapply readable_snoc in R; auto. now apply R. }
    pose proof (Inv_LI x h peak F (fun _ => true) n W I (le_n _) HW) as L0.
    destruct (loop_ok HEIGHT HEIGHT_pos HEIGHT_small H mode hash_leaves (fun _ => true) (x_db x)
                (x_head x) n W (contents_at h) F (contents_now h) W_lt W_kept ups [] (x_db x) _ L0)
      as (db' & cf' & E & L').
    { exact ND. }
    { exact V. }
    { intros o _. eapply roots_at_end; eauto. }
    { intros o s _ Hn' _. rewrite (roots_at_end x h peak F o n) by auto. exact Hn'. }
    simpl app in L'.
    exists (mkChainDb db' (Some n)), (fun o b => if b =? n then cf' o else F o b).
    assert (Ls : length (fst s') = S n).
    { unfold s', spec_step. simpl fst. rewrite app_length. simpl. unfold n. lia. }
    assert (Cl : forall o b, b < n -> contents_at (fst s') o b = contents_at h o b).
    { intros o b Lb. apply contents_at_snoc_lt. exact Lb. }
    assert (Cn : forall o, contents_at (fst s') o n = puts (contents_now h o) (block_sets o ups)).
    { intros o. unfold s', spec_step. simpl fst. unfold n. now rewrite contents_at_snoc. }
    assert (Rh : forall b, readable mode s' b -> b = n \/ W b).
    { intros b R. destruct (Nat.eq_dec b n); auto. right. split; auto.
      destruct R as [Lb _]. rewrite Ls in Lb. lia. }
    assert (Wk : forall o k b, written_key h o k b -> written_key (fst s') o k b).
    { intros. now apply written_key_snoc. }
    assert (Wn : forall o k, names_key o k ups -> written_key (fst s') o k n).
    { intros o k Hk. exists (ups, []). split; [|auto]. unfold s', spec_step. simpl fst.
      rewrite nth_error_app2 by (unfold n; lia). unfold n. now rewrite Nat.sub_diag. }
    (* head *)
    assert (Todo : forall o, ~ names o ups ->
      nodes_ok HEIGHT H (d_nodes db') (root_index db' o n) (contents_at (fst s') o n) (cf' o)).
    { intros o Ho. rewrite Cn, (block_sets_none _ _ Ho). simpl.
      destruct (li_todo _ _ _ _ _ _ _ _ _ _ _ _ _ _ _ L' o Ho) as [T1 _].
      assert (Er : root_index db' o n = ri_load (x_head x) db' o).
      { destruct (li_frame _ _ _ _ _ _ _ _ _ _ _ _ _ _ _ L' o Ho) as [Fr _].
        unfold root_index at 1. rewrite Fr.
        change (match latest n (d_roots (x_db x) o) with Some (_, i) => i | None => None end)
          with (root_index (x_db x) o n).
        rewrite (roots_at_end x h peak F o n) by auto.
        unfold ri_load, root_index. now rewrite Fr. }
      rewrite Er. exact T1. }
    assert (HeadN : forall o, nodes_ok HEIGHT H (d_nodes db') (root_index db' o n)
                                (contents_at (fst s') o n) (cf' o)).
    { intros o. destruct (owner_in_dec o (map fst ups)) as [Ho|Ho]; [|now apply Todo].
      rewrite Cn. now apply (li_done _ _ _ _ _ _ _ _ _ _ _ _ _ _ _ L'). }
    assert (LeafGap : forall o k, leaf_at (x_db x) o n k =
        match x_head x with Some b => leaf_at (x_db x) o b k | None => None end).
    { intros o k. unfold leaf_at. rewrite (i_head _ _ _ I). unfold head_of. simpl fst.
      assert (G : forall e, In e (d_leaves (x_db x) o k) -> fst e < length h).
      { intros e He. eapply written_key_lt. apply (i_leaves _ _ _ I o k e He). }
      unfold n. destruct (length h) as [|c] eqn:Eh.
      - destruct (latest 0 (d_leaves (x_db x) o k)) as [[m y]|] eqn:El; auto.
        apply latest_some in El. destruct El as (Hi & _ & _). apply G in Hi. lia.
      - rewrite (latest_gap c (S c)); auto. intros e He Le. apply G in He. lia. }
    assert (HeadL : forall o, leaf_ok HEIGHT (leaf_at db' o n) (contents_at (fst s') o n)).
    { intros o k Lk Nz. rewrite Cn in *.
      destruct (in_keys_dec k (block_sets o ups)) as [Hk|Hk].
      - rewrite (li_leaf1 _ _ _ _ _ _ _ _ _ _ _ _ _ _ _ L' o k Hk eq_refl).
        f_equal. now apply puts_key.
      - rewrite (puts_other _ (contents_now h o) k Hk) in *.
        assert (El : leaf_at db' o n k = leaf_at (x_db x) o n k).
        { unfold leaf_at. now rewrite (li_leaf2 _ _ _ _ _ _ _ _ _ _ _ _ _ _ _ L' o k (or_introl Hk)). }
        rewrite El, LeafGap.
        destruct (li_todo _ _ _ _ _ _ _ _ _ _ _ _ _ _ _ L0 o (fun x => x)) as [_ T2].
        specialize (T2 k Lk Nz). exact T2. }
    split.
    { unfold step. rewrite Hn, E. cbn [obind]. f_equal. f_equal. unfold spec_out.
      apply map_ext_in. intros [o s] Hin. simpl fst. simpl snd. f_equal.
      unfold s' in Cn. change (length h) with n. rewrite Cn.
      now rewrite (block_sets_in o s ups ND Hin). }
    constructor; cbn [x_db x_head].
    - unfold head_of. now rewrite Ls.
    - rewrite Ls. unfold s', spec_step. cbn [snd]. unfold n. lia.
    - intros o b R. destruct (Nat.eqb_spec b n) as [->|Nb]; [apply HeadN|].
      destruct (Rh b R) as [|Wb]; [lia|]. rewrite Cl by now apply W_lt.
      now apply (li_W _ _ _ _ _ _ _ _ _ _ _ _ _ _ _ L').
    - intros o b R. destruct (Rh b R) as [->|Wb]; [apply HeadL|].
      rewrite Cl by now apply W_lt. now apply (li_Wl _ _ _ _ _ _ _ _ _ _ _ _ _ _ _ L').
    - intros o b Eb. assert (b = n) by lia. subst b. rewrite Nat.eqb_refl.
      apply (li_nodup _ _ _ _ _ _ _ _ _ _ _ _ _ _ _ L').
    - intros o o' b i Eb. assert (b = n) by lia. subst b. rewrite Nat.eqb_refl.
      apply (li_disj _ _ _ _ _ _ _ _ _ _ _ _ _ _ _ L').
    - apply (li_mnd _ _ _ _ _ _ _ _ _ _ _ _ _ _ _ L').
    - apply (li_mtab _ _ _ _ _ _ _ _ _ _ _ _ _ _ _ L').
    - intros r l i o b He Hi R Lr. destruct (Nat.eqb_spec b n) as [->|Nb].
      + intros Hc. eapply (li_mcf _ _ _ _ _ _ _ _ _ _ _ _ _ _ _ L' i o); auto.
        apply in_flat_map. exists (r, l). auto.
      + destruct (Rh b R) as [|Wb]; [lia|].
        now apply (li_mF _ _ _ _ _ _ _ _ _ _ _ _ _ _ _ L' r l i o b).
    - apply (li_mode _ _ _ _ _ _ _ _ _ _ _ _ _ _ _ L').
    - intros o e He. apply (li_roots _ _ _ _ _ _ _ _ _ _ _ _ _ _ _ L') in He.
      destruct He as [[Ee NB]|He].
      + rewrite Ee. destruct (block_sets o ups) as [|[k v] bs] eqn:Eb; [congruence|].
        exists k. apply Wn. unfold names_key. rewrite Eb. simpl. auto.
      + destruct (i_roots _ _ _ I o e He) as (k & Wk'). exists k. auto.
    - intros o k e He. apply (li_leaf3 _ _ _ _ _ _ _ _ _ _ _ _ _ _ _ L') in He.
      destruct He as [(Ee & Hk & _)|He].
      + rewrite Ee. apply Wn. exact Hk.
      + apply Wk. now apply (i_leaves _ _ _ I).
    - intros e He. rewrite Ls. apply (li_removals _ _ _ _ _ _ _ _ _ _ _ _ _ _ _ L') in He.
      destruct He as [->|He]; [lia|]. apply in_map_iff in He. destruct He as (e' & Ee & He).
      pose proof (i_removals _ _ _ I e' He) as X. simpl in X. unfold n. lia.
    - intros o b i Lb Er. rewrite Ls in Lb. destruct (Nat.eq_dec b n) as [->|Nb].
      + pose proof (HeadN o) as X. rewrite Er in X. eapply nodes_ok_some; eauto.
      + rewrite Cl by lia. eapply (li_stale _ _ _ _ _ _ _ _ _ _ _ _ _ _ _ L'); eauto. lia.
    - intros o b Lb Hh. rewrite Ls in Lb. destruct (Nat.eq_dec b n) as [->|Nb]; [apply HeadL|].
      rewrite Cl by lia. intros k Lk Nz.
      rewrite (li_leaf4 _ _ _ _ _ _ _ _ _ _ _ _ _ _ _ L') by (auto; lia).
      apply (i_plain _ _ _ I); auto. simpl. unfold n in *. lia.
  Qed.

  Lemma in_coalesced t db r l :
    In (r, l) (d_removals (purge_blocks (Some t) (coalesce t db))) ->
    exists r0, In (r0, l) (d_removals db) /\ r <= t /\ (r < t -> r0 = r).
  Proof.
    simpl. intros He. apply in_purge_above in He. destruct He as [He Lr]. simpl in Lr.
    apply in_map_iff in He. destruct He as ([r0 l0] & E & He). simpl in E.
    destruct (Nat.ltb_spec t r0); injection E as <- <-; exists r0; (split; [auto|split; [auto|lia]]).
  Qed.

  Lemma coalesced_marked t db :
    all_marked (purge_blocks (Some t) (coalesce t db)) = all_marked db.
  Proof.
    unfold all_marked. simpl. unfold purge_above.
    induction (d_removals db) as [|[r l] rs IH]; auto. cbn [map filter fst snd].
    destruct (Nat.ltb_spec t r); cbn [fst].
    - replace (t <=? t) with true by (symmetry; apply Nat.leb_le; lia).
      cbn [flat_map snd]. now rewrite IH.
    - replace (r <=? t) with true by (symmetry; apply Nat.leb_le; lia).
      cbn [flat_map snd]. now rewrite IH.
  Qed.

  Lemma step_reorg x h peak F t rev :
    Inv x (h, peak) F -> reverts HEIGHT h t rev ->
    exists x' F',
      step HEIGHT H mode hash_leaves x (OReorg t rev) =
        Ok (x', spec_out H HEIGHT (h, peak) (OReorg t rev)) /\
      Inv x' (spec_step (h, peak) (OReorg t rev)) F'.
  Proof.
    intros I (Lt & [ND V] & Rv).
    set (s' := spec_step (h, peak) (OReorg t rev)).
    assert (Es : s' = (cut h t rev, peak)) by reflexivity.
    assert (Ls : length (fst s') = S t) by (rewrite Es; apply cut_length; lia).
    assert (Cl : forall o b, b <= t -> contents_at (fst s') o b = contents_at h o b).
    { intros o b Lb. rewrite Es. apply contents_at_cut; lia. }
    set (head := length h - 1).
    assert (Hh : x_head x = Some head).
    { rewrite (i_head _ _ _ I). unfold head_of, head. simpl fst. destruct (length h); [lia|]. f_equal. lia. }
    pose proof (i_peak _ _ _ I) as Pk. simpl in Pk.
    set (W := fun b => b < t /\ readable mode s' b).
    assert (HW : forall b, W b -> b < t /\ readable mode (h, peak) b).
    { intros b [Lb [R1 R2]]. split; auto. rewrite Ls in *. rewrite Es in R2. cbn [snd fst] in R2.
      split; cbn [fst snd]; [lia|]. right. destruct R2 as [E|R2]; [lia|]. exact R2. }
    assert (W_lt : forall b, W b -> b < t) by (intros b []; auto).
    assert (W_kept : forall b kept, W b -> mode = Some kept -> t - kept <= b).
    { intros b kept [Lb [_ R2]] Md. rewrite Ls, Es, Md in R2. cbn [snd] in R2.
      destruct R2 as [E|R2]; lia. }
    pose proof (Inv_LI x h peak F hash_leaves t W I ltac:(lia) HW) as L0.
    assert (GapR : forall o, (forall b k, t < b -> ~ written_key h o k b) ->
               root_index (x_db x) o t = ri_load (x_head x) (x_db x) o).
    { intros o U. unfold ri_load, root_index. rewrite Hh. rewrite (latest_gap t head); auto.
      - unfold head. lia.
      - intros e He Le. destruct (i_roots _ _ _ I o e He) as (k & Wk). exfalso. eapply U; eauto. }
    assert (GapL : forall o k, (forall b, t < b -> ~ written_key h o k b) ->
               leaf_at (x_db x) o t k = leaf_at (x_db x) o head k).
    { intros o k U. unfold leaf_at. rewrite (latest_gap t head); auto.
      - unfold head. lia.
      - intros e He Le. exfalso. eapply U; eauto. apply (i_leaves _ _ _ I o k e He). }
    assert (Now : forall o k, (forall b, t < b -> ~ written_key h o k b) ->
               contents_now h o k = contents_at h o t k).
    { intros o k U. rewrite <- (contents_at_now h o head) by (unfold head; lia).
      apply contents_unwritten; auto. unfold head. lia. }
    assert (NamesRv : forall o, names o rev ->
       (forall k, length k = HEIGHT -> puts (contents_now h o) (block_sets o rev) k = contents_at h o t k) /\
       (forall b k, t < b -> written_key h o k b -> names_key o k rev)).
    { intros o Ho. destruct (Rv o) as [(_ & R1 & R2)|[Nn _]]; [auto|tauto]. }
    assert (NotRv : forall o, ~ names o rev ->
       (forall b k, t < b -> ~ written_key h o k b) \/ (forall b k, b <= t -> ~ written_key h o k b)).
    { intros o Ho. destruct (Rv o) as [(Hn & _)|[_ [U|U]]]; [tauto|left|right];
        intros b k Lb Wk; apply written_key_written in Wk; eapply U; eauto. }
    destruct (loop_ok HEIGHT HEIGHT_pos HEIGHT_small H mode hash_leaves hash_leaves (x_db x)
                (x_head x) t W (contents_at h) F (contents_now h) W_lt W_kept rev [] (x_db x) _ L0)
      as (db' & cf' & E & L').
    { exact ND. }
    { exact V. }
    { intros o Hin. apply GapR. intros b k Lb Wk.
      destruct (NamesRv o) as [_ R2]. { apply in_map_iff. exists (o, []). auto. }
      specialize (R2 b k Lb Wk). unfold names_key in R2.
      rewrite (block_sets_in o [] rev ND Hin) in R2. destruct R2. }
    { intros o s Hin _ Z. destruct (root_index (x_db x) o t) as [i|] eqn:Er; auto.
      exfalso. destruct (i_stale _ _ _ I o t i) as (k & Lk & Nz); auto; [simpl; lia|].
      destruct (NamesRv o) as [R1 _]. { apply in_map_iff. exists (o, s). auto. }
      apply Nz. simpl. rewrite <- R1 by auto. rewrite (block_sets_in o s rev ND Hin). auto. }
    simpl app in L'.
    set (cfT := fun o => match root_index db' o t with None => [] | Some _ => cf' o end).
    set (dbx := purge_blocks (Some t) (coalesce t db')).
    exists (mkChainDb dbx (Some t)), (fun o b => if b =? t then cfT o else F o b).
    assert (Rx : forall o b, b <= t -> root_index dbx o b = root_index db' o b).
    { intros o b Lb. unfold root_index, dbx. simpl. now rewrite latest_purge_above. }
    assert (Lx : forall o b k, b <= t -> leaf_at dbx o b k = leaf_at db' o b k).
    { intros o b k Lb. unfold leaf_at, dbx. simpl. now rewrite latest_purge_above. }
    assert (CfT : forall o i, In i (cfT o) -> In i (cf' o)).
    { intros o i. unfold cfT. destruct (root_index db' o t); auto. intros []. }
    assert (ToT : forall o m, nodes_ok HEIGHT H (d_nodes db') (root_index db' o t) m (cf' o) ->
                  nodes_ok HEIGHT H (d_nodes db') (root_index db' o t) m (cfT o)).
    { intros o m. unfold cfT. destruct (root_index db' o t) as [i|] eqn:Er; auto.
      unfold nodes_ok. tauto. }
    assert (HeadN : forall o, nodes_ok HEIGHT H (d_nodes db') (root_index db' o t)
                                (contents_at h o t) (cfT o)).
    { intros o. destruct (owner_in_dec o (map fst rev)) as [Ho|Ho].
      - apply ToT. eapply nodes_ok_ext; [now apply (li_done _ _ _ _ _ _ _ _ _ _ _ _ _ _ _ L')| |auto].
        intros k Lk. now apply (proj1 (NamesRv o Ho)).
      - destruct (li_frame _ _ _ _ _ _ _ _ _ _ _ _ _ _ _ L' o Ho) as [Fr _].
        assert (Er : root_index db' o t = root_index (x_db x) o t) by (unfold root_index; now rewrite Fr).
        destruct (NotRv o Ho) as [U|U].
        + apply ToT. rewrite Er, GapR by auto.
          destruct (li_todo _ _ _ _ _ _ _ _ _ _ _ _ _ _ _ L' o Ho) as [T1 _].
          assert (E2 : ri_load (x_head x) (x_db x) o = ri_load (x_head x) db' o).
          { unfold ri_load, root_index. now rewrite Fr. }
          rewrite E2. eapply nodes_ok_ext; [exact T1| |auto].
          intros k Lk. apply Now. intros b Lb. apply U. exact Lb.
        + assert (En : root_index db' o t = None).
          { rewrite Er. unfold root_index.
            destruct (latest t (d_roots (x_db x) o)) as [[m y]|] eqn:El; auto.
            exfalso. apply latest_some in El. destruct El as (Hi & Lm & _).
            destruct (i_roots _ _ _ I o _ Hi) as (k & Wk). eapply U; eauto. }
          unfold cfT. rewrite En. split; auto. intros k Lk.
          apply contents_never. intros c Lc. apply U. exact Lc. }
    assert (HeadL : forall o, leaf_ok HEIGHT (leaf_at db' o t) (contents_at h o t)).
    { intros o k Lk Nz.
      assert (Quiet : (forall b, t < b -> ~ written_key h o k b) -> ~ names_key o k rev ->
                leaf_at db' o t k = Some (contents_at h o t k)).
      { intros U Nk. unfold leaf_at at 1.
        rewrite (li_leaf2 _ _ _ _ _ _ _ _ _ _ _ _ _ _ _ L' o k (or_introl Nk)).
        change (leaf_at (x_db x) o t k = Some (contents_at h o t k)).
        rewrite GapL by auto. rewrite <- Now in * by auto.
        rewrite <- (contents_at_now h o head) in * by (unfold head; lia).
        apply (i_leaf _ _ _ I o head); auto. apply head_readable. unfold head. lia. }
      destruct (owner_in_dec o (map fst rev)) as [Ho|Ho].
      - destruct (NamesRv o Ho) as [R1 R2].
        destruct (in_keys_dec k (block_sets o rev)) as [Hk|Hk].
        + destruct (hash_leaves o) eqn:Hl.
          * rewrite (li_leaf1 _ _ _ _ _ _ _ _ _ _ _ _ _ _ _ L' o k Hk Hl). f_equal.
            rewrite <- R1 by auto. now apply puts_key.
          * unfold leaf_at at 1.
            rewrite (li_leaf2 _ _ _ _ _ _ _ _ _ _ _ _ _ _ _ L' o k (or_intror Hl)).
            apply (i_plain _ _ _ I o t); auto. simpl. lia.
        + apply Quiet; auto. intros b Lb Wk. apply Hk. apply (R2 b k Lb Wk).
      - destruct (NotRv o Ho) as [U|U].
        + apply Quiet; [intros b Lb; now apply U|]. intros Hk. apply Ho.
          eapply names_key_names; eauto.
        + exfalso. apply Nz. apply contents_never. intros c Lc. now apply U. }
    assert (Rh : forall b, readable mode s' b -> b = t \/ W b).
    { intros b R. destruct (Nat.eq_dec b t); auto. right. split; auto.
      destruct R as [Lb _]. rewrite Ls in Lb. lia. }
    split.
    { unfold step. rewrite Hh. rewrite <- Hh, E. cbn [obind]. f_equal. f_equal. unfold spec_out.
      apply map_ext_in. intros [o s] Hin. simpl fst. simpl snd. f_equal.
      apply spec_root_ext. intros k Lk.
      destruct (NamesRv o) as [R1 _]. { apply in_map_iff. exists (o, s). auto. }
      rewrite <- R1 by auto. now rewrite (block_sets_in o s rev ND Hin). }
    constructor; cbn [x_db x_head].
    - unfold head_of. now rewrite Ls.
    - rewrite Ls, Es. cbn [snd]. lia.
    - intros o b R. destruct (Nat.eqb_spec b t) as [->|Nb].
      + rewrite Rx, Cl by lia. apply HeadN.
      + destruct (Rh b R) as [|Wb]; [lia|]. specialize (W_lt b Wb). rewrite Rx, Cl by lia.
        now apply (li_W _ _ _ _ _ _ _ _ _ _ _ _ _ _ _ L').
    - intros o b R k Lk Nz. destruct (Rh b R) as [->|Wb].
      + rewrite Cl in * by lia. rewrite Lx by lia. now apply HeadL.
      + specialize (W_lt b Wb). rewrite Cl in * by lia. rewrite Lx by lia.
        now apply (li_Wl _ _ _ _ _ _ _ _ _ _ _ _ _ _ _ L').
    - intros o b Eb. assert (b = t) by lia. subst b. rewrite Nat.eqb_refl.
      unfold cfT. destruct (root_index db' o t); [|constructor].
      apply (li_nodup _ _ _ _ _ _ _ _ _ _ _ _ _ _ _ L').
    - intros o o' b i Eb No. assert (b = t) by lia. subst b. rewrite Nat.eqb_refl.
      intros H1 H2. apply CfT in H1. apply CfT in H2.
      eapply (li_disj _ _ _ _ _ _ _ _ _ _ _ _ _ _ _ L'); eauto.
    - unfold dbx. rewrite coalesced_marked. apply (li_mnd _ _ _ _ _ _ _ _ _ _ _ _ _ _ _ L').
    - unfold dbx. rewrite coalesced_marked. apply (li_mtab _ _ _ _ _ _ _ _ _ _ _ _ _ _ _ L').
    - intros r l i o b He Hi R Lr. unfold dbx in He. apply in_coalesced in He.
      destruct He as (r0 & He & Lrt & Er). destruct (Nat.eqb_spec b t) as [->|Nb].
      + intros Hc. apply CfT in Hc. eapply (li_mcf _ _ _ _ _ _ _ _ _ _ _ _ _ _ _ L' i o); auto.
        apply in_flat_map. exists (r0, l). auto.
      + destruct (Rh b R) as [|Wb]; [lia|]. pose proof (W_lt b Wb).
        apply (li_mF _ _ _ _ _ _ _ _ _ _ _ _ _ _ _ L' r0 l i o b); auto.
        rewrite Er by lia. exact Lr.
    - intros Md. unfold dbx. simpl. rewrite (li_mode _ _ _ _ _ _ _ _ _ _ _ _ _ _ _ L' Md). reflexivity.
    - intros o e He. unfold dbx in He. simpl in He. apply in_purge_above in He. destruct He as [He Le].
      rewrite Es. cbn [fst].
      apply (li_roots _ _ _ _ _ _ _ _ _ _ _ _ _ _ _ L') in He. destruct He as [[Ee NB]|He].
      + rewrite Ee. destruct (block_sets o rev) as [|[k v] bs] eqn:Eb; [congruence|].
        exists k. apply written_key_cut_rev; [lia|]. unfold names_key. rewrite Eb. simpl. auto.
      + destruct (i_roots _ _ _ I o e He) as (k & Wk). exists k. apply written_key_cut; auto. lia.
    - intros o k e He. unfold dbx in He. simpl in He. apply in_purge_above in He. destruct He as [He Le].
      rewrite Es. cbn [fst].
      apply (li_leaf3 _ _ _ _ _ _ _ _ _ _ _ _ _ _ _ L') in He. destruct He as [(Ee & Hk & _)|He].
      + rewrite Ee. apply written_key_cut_rev; [lia|]. exact Hk.
      + apply written_key_cut; auto; [lia|]. now apply (i_leaves _ _ _ I).
    - intros [r l] He. unfold dbx in He. apply in_coalesced in He.
      destruct He as (r0 & _ & Lr & _). rewrite Ls. simpl. lia.
    - intros o b i Lb Er. rewrite Ls in Lb. rewrite Rx in Er by lia. rewrite Cl by lia.
      destruct (Nat.eq_dec b t) as [->|Nb].
      + pose proof (HeadN o) as X. rewrite Er in X. eapply nodes_ok_some; eauto.
      + eapply (li_stale _ _ _ _ _ _ _ _ _ _ _ _ _ _ _ L'); eauto. lia.
    - intros o b Lb Hl k Lk Nz. rewrite Ls in Lb. rewrite Cl in * by lia. rewrite Lx by lia.
      destruct (Nat.eq_dec b t) as [->|Nb]; [now apply HeadL|].
      rewrite (li_leaf4 _ _ _ _ _ _ _ _ _ _ _ _ _ _ _ L') by (auto; lia).
      apply (i_plain _ _ _ I); auto. simpl. lia.
  Qed.

  Lemma step_genesis x s F :
    Inv x s F ->
    exists x', step HEIGHT H mode hash_leaves x OReorgGenesis = Ok (x', []) /\
      Inv x' ([], 0) (fun _ _ => []).
  Proof.
    intros I. exists (mkChainDb (purge_blocks None (x_db x)) None). split; [reflexivity|].
    assert (R : forall b, ~ readable mode ([], 0) b) by (intros b [Lb _]; simpl in Lb; lia).
    constructor; simpl; auto; try (intros; lia); try (intros; tauto).
    all: try (intros o b Rb; exfalso; eapply R; eassumption).
    constructor.
  Qed.

  Lemma step_prune x h peak F :
    Inv x (h, peak) F ->
    exists x', step HEIGHT H mode hash_leaves x OPrune = Ok (x', []) /\ Inv x' (h, peak) F.
  Proof.
    intros I. unfold step. rewrite (i_head _ _ _ I). unfold head_of. simpl fst.
    destruct (length h) as [|head] eqn:Eh.
    { exists x. auto. }
    destruct mode as [kept|] eqn:Md.
    2:{ exists x. auto. }
    exists (mkChainDb (prune_trie head kept (x_db x)) (x_head x)). split.
    { rewrite (i_head _ _ _ I). unfold head_of. simpl fst. now rewrite Eh. }
    pose proof (i_peak _ _ _ I) as Pk. simpl in Pk.
    unfold prune_trie. destruct (Nat.leb_spec kept head) as [Lk|]; [|destruct x; exact I].
    set (dead := flat_map snd (filter (fun e => fst e <? head - kept) (d_removals (x_db x)))).
    assert (DF : forall o b j, readable mode (h, peak) b -> In j (F o b) -> ~ In j dead).
    { intros o b j R Hj Hd. unfold dead in Hd. apply in_flat_map in Hd.
      destruct Hd as ([r l] & He & Hi). apply filter_In in He. destruct He as [He Lr].
      apply Nat.ltb_lt in Lr. simpl in *.
      eapply (i_mF _ _ _ I r l j o b); eauto. destruct R as [Lb R]. rewrite Md in R. destruct R as [E|R]; simpl in *; lia. }
    assert (Dm : NoDup (all_marked (x_db x))) by apply (i_mnd _ _ _ I).
    constructor; cbn [x_db x_head d_nodes d_removals d_roots d_leaves]; unfold all_marked;
      cbn [d_removals].
    - apply (i_head _ _ _ I).
    - exact Pk.
    - intros o b R. eapply nodes_ok_ext; [now apply (i_nodes _ _ _ I o b)|auto|].
      intros j Hj. apply al_get_filter_dead. eauto.
    - intros o b R. now apply (i_leaf _ _ _ I o b).
    - apply (i_nodup _ _ _ I).
    - apply (i_disj _ _ _ I).
    - apply NoDup_flat_map_filter. exact Dm.
    - intros i Hi. rewrite al_get_filter_dead.
      + apply (i_mtab _ _ _ I). apply in_flat_map in Hi. destruct Hi as (e & He & Hi).
        apply filter_In in He. apply in_flat_map. exists e. tauto.
      + intros Hd. unfold all_marked in Dm. unfold dead in Hd. clear - Hi Hd Dm.
        revert Hi Hd. induction (d_removals (x_db x)) as [|[r l] rs IH]; simpl; [tauto|].
        simpl in Dm. assert (NDl : NoDup (flat_map snd rs)).
        { clear - Dm. induction l; simpl in *; auto. apply NoDup_cons_iff in Dm. tauto. }
        assert (X : forall P, In i l -> In i (flat_map snd (filter P rs)) -> False).
        { intros P Hl Hf. assert (Hr : In i (flat_map snd rs)).
          { apply in_flat_map in Hf. destruct Hf as (e & He & Hy). apply filter_In in He.
            apply in_flat_map. exists e. tauto. }
          clear - Dm Hl Hr. induction l as [|y l IHl]; simpl in *; [tauto|].
          apply NoDup_cons_iff in Dm. destruct Dm as [Ny ND]. destruct Hl as [->|Hl]; auto.
          apply Ny. apply in_or_app. auto. }
        destruct (r <? head - kept); simpl; rewrite in_app_iff; intros Hi Hd;
          [destruct Hd|destruct Hi]; eauto.
    - intros r l i o b He. apply filter_In in He. apply (i_mF _ _ _ I). tauto.
    - congruence.
    - apply (i_roots _ _ _ I).
    - apply (i_leaves _ _ _ I).
    - intros e He. apply filter_In in He. apply (i_removals _ _ _ I). tauto.
    - apply (i_stale _ _ _ I).
    - apply (i_plain _ _ _ I).
  Qed.

  Lemma run_ok : forall ops x s F,
    Inv x s F -> valid_ops HEIGHT s ops ->
    exists x' F', run HEIGHT H mode hash_leaves x ops = Ok (x', spec_outs H HEIGHT s ops) /\
      Inv x' (spec_run s ops) F'.
  Proof.
    induction ops as [|o ops IH]; intros x [h peak] F I V.
    - exists x, F. split; auto.
    - destruct V as [V1 V2].
      assert (S1 : exists x1 F1, step HEIGHT H mode hash_leaves x o =
                     Ok (x1, spec_out H HEIGHT (h, peak) o) /\ Inv x1 (spec_step (h, peak) o) F1).
      { destruct o as [ups|t rev| |].
        - eapply step_block; eauto.
        - eapply step_reorg; eauto.
        - destruct (step_genesis _ _ _ I) as (x1 & E & I1). eauto.
        - destruct (step_prune _ _ _ _ I) as (x1 & E & I1). eauto. }
      destruct S1 as (x1 & F1 & E1 & I1). destruct (IH _ _ _ I1 V2) as (x2 & F2 & E2 & I2).
      exists x2, F2. split; [|exact I2]. cbn [run]. rewrite E1. cbn [obind]. rewrite E2. reflexivity.
  Qed.

  (** Every readable block of a database reached by valid operations. *)
  Lemma run_reads ops :
    valid_ops HEIGHT ([], 0) ops ->
    exists x, run HEIGHT H mode hash_leaves empty_chain_db ops = Ok (x, spec_outs H HEIGHT ([], 0) ops) /\
      let s := spec_run ([], 0) ops in
      forall o b, readable mode s b ->
        read_root (x_db x) o b = Some (spec_root H HEIGHT (contents_at (fst s) o b)) /\
        (forall k, length k = HEIGHT ->
           read_value HEIGHT (x_db x) o b k = Ok (answer (contents_at (fst s) o b) k) /\
           exists pr, read_proof HEIGHT (x_db x) o b k = Ok pr /\
             Forall (fun e => trie_node_hash H (fst e) = Ok (snd e)) pr /\
             (spec_root H HEIGHT (contents_at (fst s) o b) <> 0%N \/ root_index (x_db x) o b = None ->
              verify H (spec_root H HEIGHT (contents_at (fst s) o b)) k (map fst pr) =
                Some (contents_at (fst s) o b k))).
  Proof.
    intros V. destruct (run_ok ops _ _ _ Inv_empty V) as (x & F & E & I).
    exists x. split; auto. intros s o b R.
    pose proof (i_nodes _ _ _ I o b R) as Nk. pose proof (i_leaf _ _ _ I o b R) as Lf.
    split; [unfold read_root; eapply read_hash; eauto|].
    intros k Lk. split.
    - unfold read_value. rewrite db_load_eq, db_storage_eq. cbn [ri_load].
      destruct (read_get HEIGHT HEIGHT_pos H _ _ _ _ (leaf_load (Some b) (x_db x) o) k Nk Lf Lk) as (t' & Et).
      unfold ri_load. rewrite Et. reflexivity.
    - destruct (read_proof_ok HEIGHT HEIGHT_pos HEIGHT_small H _ _ _ _ (leaf_at (x_db x) o b) k Nk Lf Lk)
        as (pr & Ep & Vf & Fa).
      exists pr. split; [|split; auto].
      unfold read_proof. rewrite db_storage_eq. exact Ep.
  Qed.
End Inv.
