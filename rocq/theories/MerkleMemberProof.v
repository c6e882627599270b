(** Proofs about the Merkle tree model: membership proofs and what a root
    commits to. *)
From Coq Require Import List Bool Arith NArith Lia Permutation.
From Coq Require Import ZifyBool ZifyNat ZifyN.
From Verif Require Import AList ListLib MerkleModel MerkleSpec MerkleProof MerkleTreeProof.
Import ListNotations.

Lemma bits_val_acc_app p q acc :
  bits_val_acc acc (p ++ q) = bits_val_acc (bits_val_acc acc p) q.
Proof. revert acc. induction p as [|b p IH]; intros acc; simpl; auto. Qed.

Lemma bits_val_acc_eq q : forall acc,
  bits_val_acc acc q = (acc * 2 ^ N.of_nat (length q) + bits_val_acc 0 q)%N.
Proof.
  induction q as [|b q IH]; intros acc.
  - simpl. lia.
  - cbn [bits_val_acc length]. rewrite IH. rewrite (IH (2 * 0 + _)%N).
    rewrite Nat2N.inj_succ, N.pow_succ_r'. lia.
Qed.

Lemma bits_val_app p q :
  bits_val (p ++ q) = (bits_val p * 2 ^ N.of_nat (length q) + bits_val q)%N.
Proof. unfold bits_val. rewrite bits_val_acc_app. apply bits_val_acc_eq. Qed.

Lemma bits_val_bound p : (bits_val p < 2 ^ N.of_nat (length p))%N.
Proof.
  induction p as [|b p IH] using rev_ind; simpl; [reflexivity|].
  rewrite bits_val_app, app_length, Nat2N.inj_add, N.pow_add_r. simpl length.
  change (N.of_nat 1) with 1%N. rewrite N.pow_1_r.
  assert (bits_val [b] <= 1)%N by (unfold bits_val; simpl; destruct b; lia). nia.
Qed.

Lemma bits_val_inj p : forall q, length p = length q -> bits_val p = bits_val q -> p = q.
Proof.
  induction p as [|b p IH] using rev_ind; intros q L E.
  - destruct q; [auto|discriminate].
  - destruct q as [|c q _] using rev_ind; [rewrite app_length in L; simpl in L; lia|].
    rewrite !app_length in L. simpl in L.
    rewrite !bits_val_app in E. simpl length in E. change (2 ^ N.of_nat 1)%N with 2%N in E.
    assert (V : forall x, bits_val [x] = if x : bool then 1%N else 0%N)
      by (intros []; reflexivity).
    rewrite !V in E.
    assert (b = c /\ bits_val p = bits_val q) as [-> Ep] by (destruct b, c; split; auto; lia).
    f_equal. apply IH; [lia|exact Ep].
Qed.

Lemma alookup_edge_firstn p c k :
  p <> firstn (length p) k -> alookup (AEdge p c) k = None.
Proof.
  intros N. apply alookup_edge_none. intros k' ->. now rewrite firstn_app_len in N.
Qed.

Section Member.
  Variable H : felt -> felt -> felt.

  Lemma get_proof_loop_ok st p i a fp :
    sden H st p i a fp -> forall h k fuel acc,
      wfa h a -> length k = h -> length p + h <= 251 -> h <= fuel ->
      exists pr, get_proof_loop fuel st (p ++ k) i (length p) acc = Ok (acc ++ pr) /\
        check_proof H (ahash H a) k (map fst pr) = Some (acontent a k) /\
        Forall (fun e => trie_node_hash H (fst e) = Ok (snd e)) pr.
  Proof.
    induction 1 as [p i l r al ar fl fr G Hh Sl IHl Sr IHr|p i c q ac fc G Hh Sc IHc
                  |p i vl vr G Hh Ll Lr|p i q v G Hh Lv]; intros h k fuel acc W Lk L251 Hf.
    - apply wfa_bin_inv in W. destruct W as (n & -> & Wl & Wr).
      destruct k as [|b k]; [discriminate|]. injection Lk as Lk.
      destruct fuel as [|fuel]; [lia|].
      cbn [get_proof_loop]. rewrite G. cbn [or_err obind].
      rewrite nth_error_app2 by lia. rewrite Nat.sub_diag. cbn [nth_error or_err obind].
      rewrite (sden_hash _ _ _ _ _ _ Sl), (sden_hash _ _ _ _ _ _ Sr), Hh. cbn [or_err obind].
      set (e := (TBin (ahash H al) (ahash H ar), ahash H (ABin al ar))).
      replace (S (length p)) with (length (p ++ [b])) by (rewrite app_length; simpl; lia).
      replace (p ++ b :: k) with ((p ++ [b]) ++ k) by (rewrite <- app_assoc; reflexivity).
      destruct b.
      + destruct (IHr n k fuel (acc ++ [e]) Wr Lk) as (pr & E & C & F);
          [rewrite app_length; simpl; lia|lia|].
        exists (e :: pr). rewrite E, <- app_assoc. split; [reflexivity|].
        cbn [map fst check_proof e]. simpl ahash. rewrite N.eqb_refl.
        split; [exact C|]. constructor; [reflexivity|exact F].
      + destruct (IHl n k fuel (acc ++ [e]) Wl Lk) as (pr & E & C & F);
          [rewrite app_length; simpl; lia|lia|].
        exists (e :: pr). rewrite E, <- app_assoc. split; [reflexivity|].
        cbn [map fst check_proof e]. simpl ahash. rewrite N.eqb_refl.
        split; [exact C|]. constructor; [reflexivity|exact F].
    - apply wfa_edge_inv in W. destruct W as (n & -> & Hq & Wc & He).
      destruct fuel as [|fuel]; [destruct q; [congruence|simpl in Hf; lia]|].
      cbn [get_proof_loop]. rewrite G. cbn [or_err obind].
      rewrite app_length.
      replace (length p + length q <=? length p + length k) with true
        by (symmetry; apply Nat.leb_le; lia).
      rewrite (sden_hash _ _ _ _ _ _ Sc), Hh. cbn [or_err obind].
      rewrite (skipn_app_len p k).
      set (e := (TEdge (ahash H ac) q, ahash H (AEdge q ac))).
      assert (Fe : trie_node_hash H (fst e) = Ok (snd e)).
      { simpl. unfold felt_from_bits. destruct (Nat.ltb_spec 251 (length q)); [lia|].
        cbn [or_panic obind]. rewrite N.mod_small by lia. reflexivity. }
      destruct k as [|b0 k0]; [destruct q; [congruence|simpl in Lk; lia]|].
      remember (b0 :: k0) as k eqn:Ek.
      assert (Guard : (negb (length q =? 0) && (length q <=? length k) &&
        (fadd (H (ahash H ac) (bits_val q)) (N.of_nat (length q)) =? ahash H (AEdge q ac))%N)%bool = true).
      { simpl ahash. rewrite N.eqb_refl. destruct q; [congruence|]. simpl length in *.
        apply andb_true_intro. split; auto. apply andb_true_intro. split; auto.
        apply Nat.leb_le. lia. }
      destruct (bits_eqb_spec (firstn (length q) k) q) as [Ep|Np].
      + assert (Sk : k = q ++ skipn (length q) k) by (rewrite <- Ep at 1; now rewrite firstn_skipn).
        set (k' := skipn (length q) k) in *.
        destruct (IHc n k' fuel (acc ++ [e]) Wc) as (pr & E & C & F).
        * rewrite Sk, app_length in Lk. lia.
        * rewrite app_length. lia.
        * destruct q; [congruence|simpl in Hf; lia].
        * exists (e :: pr).
          replace (p ++ k) with ((p ++ q) ++ k') by (rewrite <- app_assoc; now rewrite <- Sk).
          replace (length p + length q) with (length (p ++ q)) by (rewrite app_length; lia).
          rewrite E, <- app_assoc. split; [reflexivity|]. split.
          -- rewrite Ek. cbn [map fst check_proof e]. rewrite <- Ek. rewrite Guard.
             rewrite Ep, bits_eqb_refl. fold k'. rewrite C. f_equal.
             unfold acontent. rewrite Sk. now rewrite alookup_edge_app.
          -- constructor; auto.
      + exists [e]. split; [reflexivity|]. split; [|constructor; auto].
        rewrite Ek. cbn [map fst check_proof e]. rewrite <- Ek. rewrite Guard.
        destruct (bits_eqb_spec q (firstn (length q) k)); [congruence|].
        unfold acontent. rewrite alookup_edge_firstn; [reflexivity|]. congruence.
    - apply wfa_bin_inv in W. destruct W as (n & -> & Wl & Wr).
      apply wfa_leaf_inv in Wl. destruct Wl as [-> _].
      destruct k as [|b [|b' k]]; try discriminate.
      destruct fuel as [|fuel]; [lia|].
      cbn [get_proof_loop]. rewrite G. cbn [or_err obind].
      rewrite app_length. replace (length p <=? length p + length [b]) with true
        by (symmetry; apply Nat.leb_le; lia).
      rewrite (firstn_app_len p [b]).
      rewrite Ll, Lr, Hh. cbn [or_err obind].
      exists [(TBin vl vr, ahash H (ABin (ALeaf vl) (ALeaf vr)))]. split; [reflexivity|].
      cbn [map fst check_proof]. simpl ahash. rewrite N.eqb_refl.
      split; [destruct b; reflexivity|]. constructor; auto.
    - apply wfa_edge_inv in W. destruct W as (n & -> & Hq & Wc & He).
      apply wfa_leaf_inv in Wc. destruct Wc as [-> _]. rewrite Nat.add_0_r in *.
      destruct fuel as [|fuel]; [destruct q; [congruence|simpl in Hf; lia]|].
      cbn [get_proof_loop]. rewrite G. cbn [or_err obind].
      rewrite app_length. replace (length p <=? length p + length k) with true
        by (symmetry; apply Nat.leb_le; lia).
      rewrite (firstn_app_len p k).
      rewrite Lv, Hh. cbn [or_err obind].
      exists [(TEdge v q, ahash H (AEdge q (ALeaf v)))]. split; [reflexivity|].
      destruct k as [|b0 k0]; [destruct q; [congruence|simpl in Lk; lia]|].
      remember (b0 :: k0) as k eqn:Ek.
      split.
      + rewrite Ek. cbn [map fst check_proof]. rewrite <- Ek. simpl ahash. rewrite N.eqb_refl.
        rewrite Lk, Nat.leb_refl.
        replace (negb (length q =? 0)) with true by (destruct q; [congruence|reflexivity]).
        simpl andb.
        rewrite <- Lk at 1. rewrite firstn_all. destruct (bits_eqb_spec q k) as [->|N].
        * rewrite skipn_all. cbn [check_proof]. unfold acontent.
          pose proof (alookup_edge_app k (ALeaf v) []) as E. rewrite app_nil_r in E. rewrite E. reflexivity.
        * unfold acontent. rewrite alookup_edge_firstn; [reflexivity|].
          rewrite <- Lk. rewrite firstn_all. congruence.
      + constructor; auto. simpl. unfold felt_from_bits.
        destruct (Nat.ltb_spec 251 (length q)); [lia|].
        cbn [or_panic obind]. rewrite N.mod_small by lia. reflexivity.
  Qed.

  (** ** What a root commits to *)

  Fixpoint aqueries (a : atree) : list query :=
    match a with
    | ALeaf _ => []
    | ABin l r => aqueries l ++ aqueries r ++ [(ahash H l, ahash H r, 0%N)]
    | AEdge p c => aqueries c ++ [(ahash H c, bits_val p, N.of_nat (length p))]
    end.

  Definition aq_below (a : atree) : list query :=
    match a with AEdge p c => aqueries c | a => aqueries a end.

  Lemma aqueries_below a : aqueries a = aq_below a ++
    match a with AEdge p c => [(ahash H c, bits_val p, N.of_nat (length p))] | _ => [] end.
  Proof. destruct a; simpl; auto using app_nil_r. Qed.

  Lemma top_queries_asum n a : wfa n a -> top_queries (asum H a) =
    match a with AEdge p c => [(ahash H c, bits_val p, N.of_nat (length p))] | _ => [] end.
  Proof.
    intros W. destruct a as [v|l r|p c]; try reflexivity.
    apply wfa_edge_inv in W. destruct W as (n' & _ & Hp & _).
    unfold asum, top_queries. simpl. destruct p; [congruence|reflexivity].
  Qed.

  Lemma summary_queries_wfa n a : wfa n a -> forall m : contents,
    (forall k, length k = n -> m k = acontent a k) -> incl (aq_below a) (summary_queries H n m).
  Proof.
    induction 1 as [v Hv|n l r Wl IHl Wr IHr|n p c Hp Wc IHc He]; intros m E.
    - intros x [].
    - cbn [summary_queries aq_below aqueries].
      assert (El : forall k, length k = n -> m (false :: k) = acontent l k)
        by (intros k Lk; rewrite E by (simpl; lia); reflexivity).
      assert (Er : forall k, length k = n -> m (true :: k) = acontent r k)
        by (intros k Lk; rewrite E by (simpl; lia); reflexivity).
      specialize (IHl (fun k : bits => m (false :: k)) El).
      specialize (IHr (fun k : bits => m (true :: k)) Er).
      rewrite (summary_wfa H n l (fun k : bits => m (false :: k)) Wl El).
      rewrite (summary_wfa H n r (fun k : bits => m (true :: k)) Wr Er).
      rewrite (top_queries_asum _ _ Wl), (top_queries_asum _ _ Wr).
      rewrite (top_asum H _ _ Wl), (top_asum H _ _ Wr).
      rewrite (aqueries_below l), (aqueries_below r).
      intros x Hx. rewrite !in_app_iff in *.
      destruct Hx as [[Hx|Hx]|[[Hx|Hx]|Hx]]; auto 6.
    - cbn [aq_below]. clear Hp. revert m E. induction p as [|b p IHp]; intros m E.
      + simpl in E. simpl plus. assert (Ec : forall k, length k = n -> m k = acontent c k)
          by (intros k Lk; rewrite E; auto).
        specialize (IHc m Ec). destruct c; try discriminate; exact IHc.
      + simpl length. simpl plus.
        assert (Ein : forall k, length k = length p + n -> m (b :: k) = acontent (AEdge p c) k).
        { intros k Hk. rewrite E by (simpl; lia). unfold acontent.
          simpl. rewrite eqb_reflx. reflexivity. }
        specialize (IHp (fun k : bits => m (b :: k)) Ein).
        intros x Hx. specialize (IHp x Hx). cbn [summary_queries]. rewrite !in_app_iff.
        destruct b; auto.
  Qed.

  Lemma root_queries_wfa n a : wfa n a -> forall m : contents,
    (forall k, length k = n -> m k = acontent a k) -> incl (aqueries a) (root_queries H n m).
  Proof.
    intros W m E. unfold root_queries. rewrite (summary_wfa H n a m W E).
    rewrite (top_queries_asum _ _ W). rewrite aqueries_below.
    intros x Hx. rewrite in_app_iff in *. destruct Hx as [Hx|Hx]; auto.
    left. revert Hx. now apply summary_queries_wfa.
  Qed.

  Lemma collision_free_incl qs qs' :
    incl qs' qs -> collision_free H qs -> collision_free H qs'.
  Proof. intros I [C1 C2]. split; intros; [apply C1|apply C2]; auto. Qed.

  Lemma ahash_query n a : wfa n a -> n <> 0 -> exists q, In q (aqueries a) /\ query_value H q = ahash H a.
  Proof.
    intros W Hn. destruct a as [v|l r|p c].
    - apply wfa_leaf_inv in W. tauto.
    - exists (ahash H l, ahash H r, 0%N). split; [simpl; rewrite !in_app_iff; simpl; auto|reflexivity].
    - apply wfa_edge_inv in W. destruct W as (n' & _ & Hp & _).
      exists (ahash H c, bits_val p, N.of_nat (length p)).
      split; [simpl; rewrite !in_app_iff; simpl; auto|].
      simpl. destruct p; [congruence|reflexivity].
  Qed.

  Lemma query_value_edge c p : p <> [] ->
    query_value H (c, bits_val p, N.of_nat (length p)) = fadd (H c (bits_val p)) (N.of_nat (length p)).
  Proof. intros. simpl. destruct p; [congruence|reflexivity]. Qed.

  Lemma ahash_inj n a1 : wfa n a1 -> forall a2, wfa n a2 ->
    collision_free H (aqueries a1 ++ aqueries a2) -> ahash H a1 = ahash H a2 -> a1 = a2.
  Proof.
    induction 1 as [v Hv|n l r Wl IHl Wr IHr|n p c Hp Wc IHc He]; intros a2 W2 CF E.
    - destruct a2 as [v2|l2 r2|p2 c2].
      + simpl in E. congruence.
      + apply wfa_bin_inv in W2. destruct W2 as (? & ? & _). discriminate.
      + apply wfa_edge_inv in W2. destruct W2 as (? & ? & ? & _). destruct p2; [congruence|discriminate].
    - destruct a2 as [v2|l2 r2|p2 c2].
      + apply wfa_leaf_inv in W2. destruct W2; discriminate.
      + apply wfa_bin_inv in W2. destruct W2 as (n' & En & Wl2 & Wr2). injection En as <-.
        assert (Q : (ahash H l, ahash H r, 0%N) = (ahash H l2, ahash H r2, 0%N)).
        { apply (proj1 CF); [| |exact E]; simpl; rewrite !in_app_iff; simpl; auto 8. }
        injection Q as El Er. f_equal.
        * apply IHl; auto. eapply collision_free_incl; [|exact CF].
          intros x. simpl. rewrite !in_app_iff. tauto.
        * apply IHr; auto. eapply collision_free_incl; [|exact CF].
          intros x. simpl. rewrite !in_app_iff. tauto.
      + apply wfa_edge_inv in W2. destruct W2 as (? & _ & Hp2 & _).
        assert (Q : (ahash H l, ahash H r, 0%N) = (ahash H c2, bits_val p2, N.of_nat (length p2))).
        { apply (proj1 CF); [| |rewrite query_value_edge; auto]; simpl; rewrite !in_app_iff; simpl; auto 8. }
        injection Q as _ _ Q. destruct p2; [congruence|simpl in Q; lia].
    - destruct a2 as [v2|l2 r2|p2 c2].
      + apply wfa_leaf_inv in W2. destruct W2; destruct p; [congruence|discriminate].
      + assert (Q : (ahash H c, bits_val p, N.of_nat (length p)) = (ahash H l2, ahash H r2, 0%N)).
        { apply (proj1 CF); [| |rewrite query_value_edge; auto]; simpl; rewrite !in_app_iff; simpl; auto 8. }
        injection Q as _ _ Q. destruct p; [congruence|simpl in Q; lia].
      + apply wfa_edge_inv in W2. destruct W2 as (n2 & En & Hp2 & Wc2 & He2).
        assert (Q : (ahash H c, bits_val p, N.of_nat (length p)) =
                    (ahash H c2, bits_val p2, N.of_nat (length p2))).
        { apply (proj1 CF); [| |rewrite !query_value_edge; auto]; simpl; rewrite !in_app_iff; simpl; auto 8. }
        injection Q as Ec Ev El. apply Nat2N.inj in El.
        assert (p = p2) by (apply bits_val_inj; auto). subst p2. f_equal.
        apply IHc; auto.
        * replace n with n2 by lia. exact Wc2.
        * eapply collision_free_incl; [|exact CF]. intros x. simpl. rewrite !in_app_iff. tauto.
  Qed.

  Lemma root_binds n (m1 m2 : contents) : n <> 0 ->
    collision_free H (root_queries H n m1 ++ root_queries H n m2) ->
    spec_root H n m1 = spec_root H n m2 -> forall k, length k = n -> m1 k = m2 k.
  Proof.
    intros Hn CF E.
    assert (NZ : forall a, wfa n a -> incl (aqueries a) (root_queries H n m1 ++ root_queries H n m2) ->
                           ahash H a <> 0%N).
    { intros a W I. destruct (ahash_query _ _ W Hn) as (q & Hq & <-). apply (proj2 CF). auto. }
    destruct (atree_of_contents n m1) as [Z1|(a1 & W1 & C1)];
      destruct (atree_of_contents n m2) as [Z2|(a2 & W2 & C2)].
    - intros k Lk. now rewrite Z1, Z2.
    - exfalso. rewrite (spec_root_empty H n m1 Z1), (spec_root_wfa H n a2 m2 W2 C2) in E.
      symmetry in E. revert E. apply NZ; auto. apply incl_appr. now apply root_queries_wfa.
    - exfalso. rewrite (spec_root_empty H n m2 Z2), (spec_root_wfa H n a1 m1 W1 C1) in E.
      revert E. apply NZ; auto. apply incl_appl. now apply root_queries_wfa.
    - rewrite (spec_root_wfa H n a1 m1 W1 C1), (spec_root_wfa H n a2 m2 W2 C2) in E.
      assert (a1 = a2).
      { apply (ahash_inj n); auto. eapply collision_free_incl; [|exact CF].
        apply incl_app; [apply incl_appl|apply incl_appr]; now apply root_queries_wfa. }
      subst a2. intros k Lk. now rewrite C1, C2.
  Qed.

  (** ** No proof shows anything but the contents *)

  Lemma check_proof_sound n a : wfa n a -> forall proof k v, length k = n ->
    collision_free H (aqueries a ++ proof_queries proof) ->
    check_proof H (ahash H a) k proof = Some v -> v = acontent a k.
  Proof.
    induction 1 as [v0 Hv|n l r Wl IHl Wr IHr|n p c Hp Wc IHc He]; intros proof k v Lk CF E.
    - destruct k; [|discriminate]. destruct proof as [|[] proof]; try discriminate. simpl in E.
      unfold acontent. simpl. congruence.
    - destruct k as [|b k]; [discriminate|]. injection Lk as Lk.
      destruct proof as [|[l' r'|c' p'] proof]; [discriminate| |]; cbn [check_proof] in E.
      + destruct (N.eqb_spec (H l' r') (ahash H (ABin l r))) as [Eh|]; [|discriminate].
        assert (Q : (l', r', 0%N) = (ahash H l, ahash H r, 0%N)).
        { apply (proj1 CF); [| |exact Eh]; simpl; rewrite !in_app_iff; simpl; auto 8. }
        injection Q as -> ->. unfold acontent. simpl.
        destruct b.
        * apply (IHr proof); auto. eapply collision_free_incl; [|exact CF].
          intros x. simpl. rewrite !in_app_iff. simpl. tauto.
        * apply (IHl proof); auto. eapply collision_free_incl; [|exact CF].
          intros x. simpl. rewrite !in_app_iff. simpl. tauto.
      + exfalso.
        destruct (negb (length p' =? 0) && (length p' <=? length (b :: k)) &&
           (fadd (H c' (bits_val p')) (N.of_nat (length p')) =? ahash H (ABin l r))%N)%bool eqn:G;
          [|discriminate].
        apply andb_prop in G. destruct G as [G Eh]. apply andb_prop in G. destruct G as [Gp _].
        apply N.eqb_eq in Eh.
        assert (Hp' : p' <> []) by (intros ->; discriminate).
        assert (Q : (c', bits_val p', N.of_nat (length p')) = (ahash H l, ahash H r, 0%N)).
        { apply (proj1 CF); [| |rewrite query_value_edge; auto]; simpl; rewrite !in_app_iff; simpl; auto 8. }
        injection Q as _ _ Q. destruct p'; [congruence|simpl in Q; lia].
    - destruct k as [|b0 k0]; [destruct p; [congruence|discriminate]|].
      destruct proof as [|[l' r'|c' p'] proof]; [discriminate| |]; cbn [check_proof] in E.
      + exfalso. destruct (N.eqb_spec (H l' r') (ahash H (AEdge p c))) as [Eh|]; [|discriminate].
        assert (Q : (l', r', 0%N) = (ahash H c, bits_val p, N.of_nat (length p))).
        { apply (proj1 CF); [| |rewrite query_value_edge; auto]; simpl; rewrite !in_app_iff; simpl; auto 8. }
        injection Q as _ _ Q. destruct p; [congruence|simpl in Q; lia].
      + remember (b0 :: k0) as k eqn:Ek.
        destruct (negb (length p' =? 0) && (length p' <=? length k) &&
           (fadd (H c' (bits_val p')) (N.of_nat (length p')) =? ahash H (AEdge p c))%N)%bool eqn:G;
          [|discriminate].
        apply andb_prop in G. destruct G as [G Eh]. apply andb_prop in G. destruct G as [Gp Gl].
        apply N.eqb_eq in Eh.
        assert (Hp' : p' <> []) by (intros ->; discriminate).
        assert (Q : (c', bits_val p', N.of_nat (length p')) = (ahash H c, bits_val p, N.of_nat (length p))).
        { apply (proj1 CF); [| |rewrite !query_value_edge; auto]; simpl; rewrite !in_app_iff; simpl; auto 8. }
        injection Q as -> Ev El. apply Nat2N.inj in El.
        assert (p' = p) by (apply bits_val_inj; auto). subst p'.
        destruct (bits_eqb_spec p (firstn (length p) k)) as [Ep|Np].
        * assert (Sk : k = p ++ skipn (length p) k) by (rewrite Ep at 1; now rewrite firstn_skipn).
          unfold acontent. rewrite Sk, alookup_edge_app. apply (IHc proof); auto.
          -- rewrite skipn_length. lia.
          -- eapply collision_free_incl; [|exact CF].
             intros x. simpl. rewrite !in_app_iff. simpl. tauto.
        * destruct proof; [|discriminate]. unfold acontent. rewrite alookup_edge_firstn; congruence.
  Qed.

  Lemma verify_sound n (m : contents) : n <> 0 -> forall proof k v, length k = n ->
    collision_free H (root_queries H n m ++ proof_queries proof) ->
    verify H (spec_root H n m) k proof = Some v -> v = m k.
  Proof.
    intros Hn proof k v Lk CF E. unfold verify in E.
    destruct (atree_of_contents n m) as [Z|(a & W & C)].
    - rewrite (spec_root_empty H n m Z) in E. simpl in E. destruct proof; [|discriminate].
      rewrite Z; congruence.
    - rewrite (spec_root_wfa H n a m W C) in E.
      assert (NZ : ahash H a <> 0%N).
      { destruct (ahash_query _ _ W Hn) as (q & Hq & <-). apply (proj2 CF).
        apply in_or_app. left. eapply root_queries_wfa; eauto. }
      destruct (N.eqb_spec (ahash H a) 0); [congruence|].
      rewrite C by auto. apply (check_proof_sound n a W proof); auto.
      eapply collision_free_incl; [|exact CF].
      apply incl_app; [apply incl_appl; now apply root_queries_wfa|apply incl_appr, incl_refl].
  Qed.
End Member.
