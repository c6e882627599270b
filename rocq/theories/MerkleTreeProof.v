(** Proofs about the Merkle tree model: get, set and delete act on the abstract
    trie that a tree denotes. *)
From Coq Require Import List Bool Arith NArith Lia Permutation.
From Coq Require Import ZifyBool ZifyNat ZifyN.
From Verif Require Import AList ListLib MerkleModel MerkleSpec MerkleProof.
Import ListNotations.

Lemma count_cons (i j : N) l x :
  count_occ N.eq_dec (i :: j :: l) x = count_occ N.eq_dec [i] x + count_occ N.eq_dec (j :: l) x.
Proof. simpl. destruct (N.eq_dec i x), (N.eq_dec j x); lia. Qed.

Lemma count_cons_app (i : N) l l' x :
  count_occ N.eq_dec (i :: l ++ l') x = count_occ N.eq_dec [i] x + count_occ N.eq_dec (l ++ l') x.
Proof. simpl. destruct (N.eq_dec i x); lia. Qed.

(** Permutations of concatenations, by counting. *)
Ltac perm :=
  apply (Permutation_count_occ N.eq_dec); let x := fresh "x" in intros x;
  repeat match goal with
         | P : Permutation _ _ |- _ =>
             let Q := fresh "Q" in
             pose proof (proj1 (Permutation_count_occ N.eq_dec _ _) P x) as Q; clear P
         end;
  unfold idx in *;
  rewrite ?count_cons_app, ?count_cons, ?count_occ_app in *;
  rewrite ?count_cons_app, ?count_cons, ?count_occ_app in *;
  change (count_occ N.eq_dec [] x) with 0 in *;
  lia.

Section Den.
  Variable H : felt -> felt -> felt.
  Variable st : storage.

  (** A stored subtree at position [p] that denotes [a]; [fp] lists the rows. *)
  Inductive sden : bits -> idx -> atree -> list idx -> Prop :=
  | sden_bin p i l r al ar fl fr :
      s_get st i = Some (SBin l r) ->
      s_hash st i = Some (ahash H (ABin al ar)) ->
      sden (p ++ [false]) l al fl -> sden (p ++ [true]) r ar fr ->
      sden p i (ABin al ar) (i :: fl ++ fr)
  | sden_edge p i c q ac fc :
      s_get st i = Some (SEdge c q) ->
      s_hash st i = Some (ahash H (AEdge q ac)) ->
      sden (p ++ q) c ac fc ->
      sden p i (AEdge q ac) (i :: fc)
  | sden_leafbin p i vl vr :
      s_get st i = Some SLeafBin ->
      s_hash st i = Some (ahash H (ABin (ALeaf vl) (ALeaf vr))) ->
      s_leaf st (p ++ [false]) = Some vl -> s_leaf st (p ++ [true]) = Some vr ->
      sden p i (ABin (ALeaf vl) (ALeaf vr)) [i]
  | sden_leafedge p i q v :
      s_get st i = Some (SLeafEdge q) ->
      s_hash st i = Some (ahash H (AEdge q (ALeaf v))) ->
      s_leaf st (p ++ q) = Some v ->
      sden p i (AEdge q (ALeaf v)) [i].

  Variable lv : list (bits * felt).

  Definition leafval (p : bits) : option felt :=
    match al_get bits_eqb p lv with Some v => Some v | None => s_leaf st p end.

  (** No value set in memory belongs to the subtree at [p]. *)
  Definition untouched (p : bits) (a : atree) : Prop :=
    forall k, alookup a k <> None -> al_get bits_eqb (p ++ k) lv = None.

  (** A node in memory at position [p] that denotes [a].  [fp] lists the rows
      it stands for: those still unresolved and those resolved. *)
  Inductive den : bits -> node -> atree -> list idx -> Prop :=
  | den_leaf p v : leafval p = Some v -> den p NLeaf (ALeaf v) []
  | den_unres p i a fp : sden p i a fp -> untouched p a -> den p (NUnres i) a fp
  | den_bin p si l r al ar fl fr :
      den (p ++ [false]) l al fl -> den (p ++ [true]) r ar fr ->
      den p (NBin si (length p) l r) (ABin al ar) (opt_list si ++ fl ++ fr)
  | den_edge p si q c ac fc :
      den (p ++ q) c ac fc ->
      den p (NEdge si (length p) q c) (AEdge q ac) (opt_list si ++ fc).

  Lemma sden_hash p i a fp : sden p i a fp -> s_hash st i = Some (ahash H a).
  Proof. destruct 1; auto. Qed.

  Lemma sden_not_leaf p i v fp : ~ sden p i (ALeaf v) fp.
  Proof. inversion 1. Qed.

  (** Frames and the abstract frames they denote. *)
  Inductive fden : list frame -> list aframe -> list idx -> Prop :=
  | fden_nil : fden [] [] []
  | fden_bin fs afs ff si d sib sa fsib :
      fden fs afs ff -> den (apath afs ++ [negb d]) sib sa fsib ->
      fden (FBin si (length (apath afs)) d sib :: fs) (AFBin d sa :: afs)
           (opt_list si ++ fsib ++ ff)
  | fden_edge fs afs ff si q :
      fden fs afs ff ->
      fden (FEdge si (length (apath afs)) q :: fs) (AFEdge q :: afs) (opt_list si ++ ff).

  Lemma den_plug fs afs ff :
    fden fs afs ff -> forall n a fp, den (apath afs) n a fp ->
    exists fp', den [] (plug fs n) (aplug afs a) fp' /\ Permutation fp' (ff ++ fp).
  Proof.
    induction 1 as [|fs afs ff si d sib sa fsib HF IH HS|fs afs ff si q HF IH]; intros n a fp HD.
    - exists fp. split; auto.
    - simpl in HD. destruct d.
      + destruct (IH (NBin si (length (apath afs)) sib n) (ABin sa a)
                     (opt_list si ++ fsib ++ fp)) as (fp' & D & Pm).
        { constructor; auto. }
        exists fp'. split; [exact D|]. perm.
      + destruct (IH (NBin si (length (apath afs)) n sib) (ABin a sa)
                     (opt_list si ++ fp ++ fsib)) as (fp' & D & Pm).
        { constructor; auto. }
        exists fp'. split; [exact D|]. perm.
    - simpl in HD.
      destruct (IH (NEdge si (length (apath afs)) q n) (AEdge q a) (opt_list si ++ fp)) as (fp' & D & Pm).
      { constructor; auto. }
      exists fp'. split; [exact D|]. perm.
  Qed.

  Variable HEIGHT : nat.

  Lemma untouched_bin p l r :
    untouched p (ABin l r) -> untouched (p ++ [false]) l /\ untouched (p ++ [true]) r.
  Proof.
    intros U. split; intros k Hk; rewrite <- app_assoc; apply U; exact Hk.
  Qed.

  Lemma untouched_edge p q c : untouched p (AEdge q c) -> untouched (p ++ q) c.
  Proof.
    intros U k Hk. rewrite <- app_assoc. apply U. now rewrite alookup_edge_app.
  Qed.

  Lemma untouched_leaf p v : untouched p (ALeaf v) -> al_get bits_eqb p lv = None.
  Proof. intros U. rewrite <- (app_nil_r p). apply U. simpl. discriminate. Qed.

  Lemma resolve_ok p i a fp n :
    sden p i a fp -> untouched p a -> wfa n a -> length p + n = HEIGHT ->
    exists n', resolve HEIGHT st i (length p) = Ok n' /\ den p n' a fp /\
               (match n' with NUnres _ => False | _ => True end) /\
               storage_index n' = Some i.
  Proof.
    intros S U W L. unfold resolve.
    assert (Hlt : length p <? HEIGHT = true).
    { apply Nat.ltb_lt. destruct n; [|lia].
      destruct (wfa_zero _ _ W eq_refl) as [v ->]. inversion S. }
    rewrite Hlt.
    destruct S as [p i l r al ar fl fr G Hh Sl Sr|p i c q ac fc G Hh Sc
                  |p i vl vr G Hh Ll Lr|p i q v G Hh Lv]; rewrite G.
    - destruct (untouched_bin _ _ _ U) as [Ul Ur].
      eexists; split; [reflexivity|]. split; [|split; [exact I|reflexivity]].
      change (i :: fl ++ fr) with (opt_list (Some i) ++ fl ++ fr).
      constructor; constructor; auto.
    - eexists; split; [reflexivity|]. split; [|split; [exact I|reflexivity]].
      change (i :: fc) with (opt_list (Some i) ++ fc).
      constructor; constructor; auto. now apply untouched_edge.
    - destruct (untouched_bin _ _ _ U) as [Ul Ur].
      apply untouched_leaf in Ul, Ur.
      eexists; split; [reflexivity|]. split; [|split; [exact I|reflexivity]].
      change [i] with (opt_list (Some i) ++ [] ++ []).
      constructor; constructor; unfold leafval; rewrite ?Ul, ?Ur; auto.
    - apply untouched_edge, untouched_leaf in U.
      eexists; split; [reflexivity|]. split; [|split; [exact I|reflexivity]].
      change [i] with (opt_list (Some i) ++ []).
      constructor; constructor; unfold leafval; rewrite ?U; auto.
  Qed.

  (** Result of [traverse]: the leaf of the key, or an edge leading elsewhere. *)
  Inductive found (key : bits) (afs : list aframe) : node -> atree -> Prop :=
  | found_leaf v : apath afs = key -> found key afs NLeaf (ALeaf v)
  | found_edge si h q c ac k :
      key = apath afs ++ k -> (forall k', k <> q ++ k') ->
      found key afs (NEdge si h q c) (AEdge q ac).

  Definition measure (n : node) (ht : nat) : nat :=
    2 * ht + match n with NUnres _ => 2 | _ => 1 end.

  Lemma apath_app_path_len key afs k : key = apath afs ++ k -> length key = length (apath afs) + length k.
  Proof. intros ->. apply app_length. Qed.

  Lemma traverse_ok :
    forall fuel key k n a fp fs afs ff ht,
      measure n ht <= fuel ->
      fden fs afs ff -> den (apath afs) n a fp ->
      wfctx HEIGHT afs ht -> wfa ht a -> (hd_edge afs = true -> is_edge a = false) ->
      key = apath afs ++ k -> length key = HEIGHT ->
      exists fs' afs' ff' n' a' fp' ht',
        traverse HEIGHT fuel st key (length (apath afs)) fs n = Ok (fs', n') /\
        fden fs' afs' ff' /\ den (apath afs') n' a' fp' /\
        wfctx HEIGHT afs' ht' /\ wfa ht' a' /\ (hd_edge afs' = true -> is_edge a' = false) /\
        aplug afs' a' = aplug afs a /\ Permutation (ff' ++ fp') (ff ++ fp) /\
        found key afs' n' a'.
  Proof.
    induction fuel as [|fuel IH]; intros key k n a fp fs afs ff ht Hm HF HD C W He Hk HL.
    { unfold measure in Hm. destruct n; lia. }
    pose proof (wfctx_length _ _ _ C) as CL.
    pose proof (apath_app_path_len _ _ _ Hk) as Lk.
    simpl traverse.
    remember (apath afs) as p eqn:Ep.
    destruct HD as [p v Lv|p i a fp S U|p si l r al ar fl fr Dl Dr|p si q c ac fc Dc].
    - (* leaf *)
      exists fs, afs, ff, NLeaf, (ALeaf v), [], ht. subst p.
      assert (k = []). { apply wfa_leaf_inv in W. destruct k; [auto|simpl in Lk; lia]. }
      subst k. rewrite app_nil_r in Hk.
      repeat match goal with |- _ /\ _ => split end; auto; try (now constructor); auto.
    - (* unresolved *)
      destruct (resolve_ok p i a fp ht S U W ltac:(lia)) as (n' & R & D' & NU & _).
      rewrite R. simpl obind.
      assert (M : measure n' ht <= fuel).
      { unfold measure in *. destruct n'; try contradiction; lia. }
      subst p. eapply (IH key k n' a fp fs afs ff ht); eauto.
    - (* binary *)
      apply wfa_bin_inv in W. destruct W as (n' & -> & Wl & Wr).
      destruct k as [|b k]; [simpl in Lk; lia|].
      assert (Nb : nth_error key (length p) = Some b).
      { rewrite Hk. rewrite nth_error_app2 by lia. now rewrite Nat.sub_diag. }
      rewrite Nb. simpl obind. destruct b.
      + assert (Hm' : measure r n' <= fuel) by (unfold measure in *; destruct r; lia).
        assert (HF' : fden (FBin si (length p) true l :: fs) (AFBin true al :: afs)
                           (opt_list si ++ fl ++ ff)) by (subst p; now constructor).
        destruct (IH key k r ar fr _ _ _ n' Hm' HF') as
          (fs' & afs' & ff' & nn & a' & fp' & ht' & T & R1 & R2 & R3 & R4 & R5 & R6 & R7 & R8).
        * subst p. exact Dr.
        * constructor; auto.
        * exact Wr.
        * simpl. discriminate.
        * simpl. rewrite <- Ep, <- app_assoc. exact Hk.
        * exact HL.
        * exists fs', afs', ff', nn, a', fp', ht'.
          replace (length (apath (AFBin true al :: afs))) with (S (length p)) in T
            by (simpl; rewrite app_length, <- Ep; simpl; lia).
          rewrite T. repeat match goal with |- _ /\ _ => split end; auto.
          perm.
      + assert (Hm' : measure l n' <= fuel) by (unfold measure in *; destruct l; lia).
        assert (HF' : fden (FBin si (length p) false r :: fs) (AFBin false ar :: afs)
                           (opt_list si ++ fr ++ ff)) by (subst p; now constructor).
        destruct (IH key k l al fl _ _ _ n' Hm' HF') as
          (fs' & afs' & ff' & nn & a' & fp' & ht' & T & R1 & R2 & R3 & R4 & R5 & R6 & R7 & R8).
        * subst p. exact Dl.
        * constructor; auto.
        * exact Wl.
        * simpl. discriminate.
        * simpl. rewrite <- Ep, <- app_assoc. exact Hk.
        * exact HL.
        * exists fs', afs', ff', nn, a', fp', ht'.
          replace (length (apath (AFBin false ar :: afs))) with (S (length p)) in T
            by (simpl; rewrite app_length, <- Ep; simpl; lia).
          rewrite T. repeat match goal with |- _ /\ _ => split end; auto.
          perm.
    - (* edge *)
      apply wfa_edge_inv in W. destruct W as (n' & -> & Hq & Wc & Hc).
      assert (Hp : hd_edge afs = false).
      { destruct (hd_edge afs); auto. }
      unfold path_matches.
      assert (X : length p + length q <=? length key = true) by (apply Nat.leb_le; lia).
      rewrite X. simpl obind.
      assert (Sk : skipn (length p) key = k) by (rewrite Hk; apply skipn_app_len).
      rewrite Sk.
      destruct (bits_eqb_spec q (firstn (length q) k)) as [Eq|Nq].
      + assert (Hkq : k = q ++ skipn (length q) k).
        { rewrite Eq at 1. now rewrite firstn_skipn. }
        assert (Hq' : 0 < length q) by (destruct q; [congruence|simpl; lia]).
        assert (Hm' : measure c n' <= fuel) by (unfold measure in *; destruct c; lia).
        assert (HF' : fden (FEdge si (length p) q :: fs) (AFEdge q :: afs)
                           (opt_list si ++ ff)) by (subst p; now constructor).
        destruct (IH key (skipn (length q) k) c ac fc _ _ _ n' Hm' HF') as
          (fs' & afs' & ff' & nn & a' & fp' & ht' & T & R1 & R2 & R3 & R4 & R5 & R6 & R7 & R8).
        * subst p. exact Dc.
        * constructor; auto.
        * exact Wc.
        * auto.
        * simpl. rewrite <- Ep, <- app_assoc, <- Hkq. exact Hk.
        * exact HL.
        * exists fs', afs', ff', nn, a', fp', ht'.
          replace (length (apath (AFEdge q :: afs))) with (length p + length q) in T
            by (simpl; rewrite app_length, <- Ep; simpl; lia).
          rewrite T. repeat match goal with |- _ /\ _ => split end; auto.
          perm.
      + exists fs, afs, ff, (NEdge si (length p) q c), (AEdge q ac), (opt_list si ++ fc), (length q + n').
        repeat match goal with |- _ /\ _ => split end; auto.
        * subst p. constructor; auto.
        * constructor; auto.
        * subst p. econstructor; eauto.
          intros k' ->. apply Nq. now rewrite firstn_app_len.
  Qed.
End Den.

(* ------------------------------------------------------------------ *)
(** * Changing the in-memory leaves *)

Section Ops.
  Variable H : felt -> felt -> felt.
  Variable st : storage.
  Variable HEIGHT : nat.

  Lemma not_prefix_app (key p q : bits) :
    (forall k, key <> p ++ k) -> forall k, key <> (p ++ q) ++ k.
  Proof. intros N k X. apply (N (q ++ k)). now rewrite app_assoc. Qed.

  Lemma den_set lv key v p n a fp :
    den H st lv p n a fp -> (forall k, key <> p ++ k) ->
    den H st (al_set bits_eqb key v lv) p n a fp.
  Proof.
    induction 1 as [p v0 Lv|p i a fp S U|p si l r al ar fl fr Dl IHl Dr IHr|p si q c ac fc Dc IHc]; intros Np.
    - constructor. unfold leafval in *. rewrite (al_get_set_neq _ bits_eqb_spec); auto.
      intros ->. apply (Np []). now rewrite app_nil_r.
    - constructor; auto. intros k Hk. rewrite (al_get_set_neq _ bits_eqb_spec); [auto|].
      intros X. apply (Np k). auto.
    - constructor; [apply IHl|apply IHr]; now apply not_prefix_app.
    - constructor. apply IHc. now apply not_prefix_app.
  Qed.

  Lemma fden_set lv key v fs afs ff :
    fden H st lv fs afs ff -> (exists k, key = apath afs ++ k) ->
    fden H st (al_set bits_eqb key v lv) fs afs ff.
  Proof.
    induction 1 as [|fs afs ff si d sib sa fsib HF IH HS|fs afs ff si q HF IH]; intros [k Hk].
    - constructor.
    - simpl in Hk. constructor.
      + apply IH. exists ([d] ++ k). now rewrite app_assoc.
      + apply den_set; auto. intros k' X. rewrite X in Hk. rewrite <- !app_assoc in Hk.
        apply app_inv_head in Hk. simpl in Hk. injection Hk as E _. destruct d; discriminate.
    - simpl in Hk. constructor. apply IH. exists (q ++ k). now rewrite app_assoc.
  Qed.

  (** [t] is a tree over [st] that holds [m]; [S0] are the rows of the tree it
      was loaded from. *)
  Definition tinv (t : tree) (m : contents) (S0 : list idx) : Prop :=
    match t_root t with
    | None => (forall k, length k = HEIGHT -> m k = 0%N) /\ Permutation (t_removed t) S0
    | Some n =>
        exists a fp, den H st (t_leaves t) [] n a fp /\ wfa HEIGHT a /\
          (forall k, length k = HEIGHT -> m k = acontent a k) /\
          Permutation (fp ++ t_removed t) S0 /\
          match n with NUnres _ => t_removed t = [] | _ => True end
    end.

  Lemma plug_not_unres fs n :
    (match n with NUnres _ => False | _ => True end) ->
    match plug fs n with NUnres _ => False | _ => True end.
  Proof.
    revert n. induction fs as [|f fs IH]; intros n Hn; auto.
    simpl. apply IH. destruct f as [si h [] sib|si h p]; exact I.
  Qed.

  Lemma not_unres_any n (X : Prop) :
    (match n with NUnres _ => False | _ => True end) ->
    match n with NUnres _ => X | _ => True end.
  Proof. destruct n; tauto. Qed.

  Lemma found_not_unres key afs n a :
    found key afs n a -> match n with NUnres _ => False | _ => True end.
  Proof. destruct 1; exact I. Qed.

  (** Starting point of every operation. *)
  Lemma traverse_root lv n a fp key :
    den H st lv [] n a fp -> wfa HEIGHT a -> length key = HEIGHT ->
    exists fs' afs' ff' n' a' fp' ht',
      traverse HEIGHT (traverse_fuel HEIGHT) st key 0 [] n = Ok (fs', n') /\
      fden H st lv fs' afs' ff' /\ den H st lv (apath afs') n' a' fp' /\
      wfctx HEIGHT afs' ht' /\ wfa ht' a' /\ (hd_edge afs' = true -> is_edge a' = false) /\
      aplug afs' a' = a /\ Permutation (ff' ++ fp') fp /\
      found key afs' n' a'.
  Proof.
    intros D W L.
    destruct (traverse_ok H st lv HEIGHT (traverse_fuel HEIGHT) key key n a fp [] [] [] HEIGHT)
      as (fs' & afs' & ff' & n' & a' & fp' & ht' & T & R); auto.
    - unfold measure, traverse_fuel. destruct n; lia.
    - constructor.
    - constructor.
    - intros X. discriminate X.
    - exists fs', afs', ff', n', a', fp', ht'. split; [exact T|exact R].
  Qed.

  Lemma alookup_etail p c k : alookup (etail p c) k = alookup (AEdge p c) k.
  Proof. destruct p; reflexivity. Qed.

  Lemma wfa_etail n p c : wfa n c -> is_edge c = false -> wfa (length p + n) (etail p c).
  Proof.
    intros W E. destruct p as [|b p]; [exact W|].
    apply wfa_edge; auto. discriminate.
  Qed.

  Lemma alookup_edge_branch com b q ac b' k :
    alookup (AEdge (com ++ b :: q) ac) (com ++ b' :: k) =
    if Bool.eqb b b' then alookup (AEdge q ac) k else None.
  Proof.
    rewrite alookup_edge_edge, alookup_edge_app.
    change (b :: q) with ([b] ++ q). rewrite alookup_edge_edge.
    simpl. destruct (Bool.eqb b b') eqn:E; reflexivity.
  Qed.

  (** ** get *)

  Lemma tree_get_ok t m S0 key :
    tinv t m S0 -> length key = HEIGHT ->
    exists t', tree_get HEIGHT st t key = Ok (t', answer m key) /\ tinv t' m S0.
  Proof.
    unfold tinv, tree_get. intros Inv L. destruct (t_root t) as [n|] eqn:R.
    - destruct Inv as (a & fp & D & W & C & Pm & U).
      destruct (traverse_root _ _ _ _ key D W L) as
        (fs' & afs' & ff' & n' & a' & fp' & ht' & T & HF & D' & WC & W' & He & Pl & Pm' & Fo).
      rewrite T. simpl obind.
      destruct (den_plug _ _ _ _ _ _ HF _ _ _ D') as (fp2 & D2 & Pm2).
      rewrite Pl in D2.
      assert (NU : match plug fs' n' with NUnres _ => False | _ => True end).
      { apply plug_not_unres. eapply found_not_unres; eauto. }
      eexists. split; cycle 1.
      + instantiate (1 := mkTree (Some (plug fs' n')) (t_leaves t) (t_removed t)).
        simpl. exists a, fp2. repeat match goal with |- _ /\ _ => split end; auto.
        * perm.
        * apply not_unres_any; auto.
      + unfold answer. rewrite (C key L). rewrite <- Pl. unfold acontent.
        destruct Fo as [v Ek|si h q c ac k Ek Nk].
        * assert (E0 : alookup (aplug afs' (ALeaf v)) key = Some v).
          { rewrite <- Ek, <- (app_nil_r (apath afs')). apply alookup_aplug. }
          rewrite E0. inversion D' as [p v0 Lv| | |]; subst.
          apply wfa_leaf_inv in W'. destruct W' as [_ Hv].
          destruct (N.eqb_spec v 0); [congruence|].
          unfold leafval in Lv. destruct (al_get bits_eqb (apath afs') (t_leaves t)).
          -- congruence.
          -- rewrite Lv. reflexivity.
        * assert (E0 : alookup (aplug afs' (AEdge q ac)) key = None).
          { rewrite Ek, alookup_aplug. now apply alookup_edge_none. }
          rewrite E0. reflexivity.
    - exists t. split; [|unfold tinv; now rewrite R].
      unfold answer. destruct Inv as [Z _]. rewrite (Z key L). reflexivity.
  Qed.

  (** ** set *)

  Lemma put_ext_len (m m' : contents) n key v :
    (forall k, length k = n -> m k = m' k) ->
    forall k, length k = n -> put m key v k = put m' key v k.
  Proof. intros E k Hk. unfold put. destruct (bits_eqb k key); auto. Qed.

  Lemma split_edge_ok lv p si q c ac fc n k key v :
    den H st lv p (NEdge si (length p) q c) (AEdge q ac) (opt_list si ++ fc) ->
    wfa n (AEdge q ac) -> key = p ++ k -> length k = n -> (forall k', k <> q ++ k') ->
    v <> 0%N ->
    exists n' a' fp',
      split_edge key (length p) q c = Ok n' /\
      den H st (al_set bits_eqb key v lv) p n' a' fp' /\ Permutation fp' fc /\
      wfa n a' /\ (match n' with NUnres _ => False | _ => True end) /\
      (forall k', length k' = n -> acontent a' k' = put (acontent (AEdge q ac)) k v k').
  Proof.
    intros D W Hk Lk Nk Hv.
    assert (Dc : den H st lv (p ++ q) c ac fc).
    { inversion D; subst. match goal with E : opt_list _ ++ _ = opt_list _ ++ _ |- _ => apply app_inv_head in E; subst end. auto. }
    clear D.
    apply wfa_edge_inv in W. destruct W as (n' & En & Hq & Wc & Hc).
    unfold split_edge, common_path.
    assert (Sk : skipn (length p) key = k) by (rewrite Hk; apply skipn_app_len).
    rewrite Sk.
    destruct (common_prefix q k) as (q' & k0 & Eq & Ek & Df).
    remember (common q k) as com eqn:Ecom. clear Ecom.
    assert (Lq : length q = length com + length q') by (rewrite Eq; apply app_length).
    assert (Lk0 : length k = length com + length k0) by (rewrite Ek at 1; apply app_length).
    destruct q' as [|b0 q2].
    { exfalso. rewrite app_nil_r in Eq. apply (Nk k0). now rewrite Eq. }
    simpl in Lq.
    destruct k0 as [|b1 k2]; [simpl in Lk0; lia|]. simpl in Lk0.
    assert (Lkey : length key = length p + length k) by (rewrite Hk; apply app_length).
    replace (S (length p + length com) <=? length key) with true by (symmetry; apply Nat.leb_le; lia).
    replace (S (length com) <=? length q) with true by (symmetry; apply Nat.leb_le; lia).
    cbn [andb].
    assert (Nb : nth_error key (length p + length com) = Some b1).
    { rewrite Hk, nth_error_app2 by lia. replace (length p + length com - length p) with (length com) by lia.
      rewrite Ek, nth_error_app2 by lia. now rewrite Nat.sub_diag. }
    rewrite Nb. cbn [or_panic obind].
    assert (Snew : skipn (S (length p + length com)) key = k2).
    { rewrite Hk, Ek. replace (p ++ com ++ b1 :: k2) with ((p ++ com ++ [b1]) ++ k2)
        by (rewrite <- !app_assoc; reflexivity).
      apply skipn_exact. rewrite !app_length. simpl. lia. }
    assert (Sold : skipn (S (length com)) q = q2).
    { rewrite Eq. replace (com ++ b0 :: q2) with ((com ++ [b0]) ++ q2)
        by (rewrite <- !app_assoc; reflexivity).
      apply skipn_exact. rewrite app_length. simpl. lia. }
    rewrite Snew, Sold.
    set (lv' := al_set bits_eqb key v lv).
    set (new := match k2 with [] => NLeaf | _ => NEdge None (S (length p + length com)) k2 NLeaf end).
    set (old := match q2 with [] => c | _ => NEdge None (S (length p + length com)) q2 c end).
    set (pc := p ++ com).
    assert (Lpc : length pc = length p + length com) by (unfold pc; apply app_length).
    assert (Hkey : key = pc ++ [b1] ++ k2).
    { unfold pc. rewrite Hk, Ek. rewrite <- app_assoc. reflexivity. }
    assert (Dnew : den H st lv' (pc ++ [b1]) new (etail k2 (ALeaf v)) []).
    { assert (DL : den H st lv' ((pc ++ [b1]) ++ k2) NLeaf (ALeaf v) []).
      { constructor. unfold leafval, lv'. rewrite <- app_assoc, <- Hkey.
        now rewrite (al_get_set_eq _ bits_eqb_spec). }
      unfold new. destruct k2 as [|x k2']; simpl etail.
      - rewrite app_nil_r in DL. exact DL.
      - replace (S (length p + length com)) with (length (pc ++ [b1]))
          by (rewrite app_length; simpl; lia).
        change (@nil idx) with (opt_list (@None idx) ++ @nil idx). constructor. exact DL. }
    assert (Dold : den H st lv' (pc ++ [b0]) old (etail q2 ac) fc).
    { assert (DC : den H st lv' ((pc ++ [b0]) ++ q2) c ac fc).
      { unfold lv'. apply den_set.
        - replace ((pc ++ [b0]) ++ q2) with (p ++ q); auto.
          unfold pc. rewrite Eq. rewrite <- !app_assoc. reflexivity.
        - intros k' X. rewrite Hkey in X. rewrite <- !app_assoc in X. apply app_inv_head in X.
          simpl in X. injection X as X _. auto. }
      unfold old. destruct q2 as [|x q2']; simpl etail.
      - rewrite app_nil_r in DC. exact DC.
      - replace (S (length p + length com)) with (length (pc ++ [b0]))
          by (rewrite app_length; simpl; lia).
        change fc with (opt_list (@None idx) ++ fc). constructor. exact DC. }
    assert (Wnew : wfa (length k2) (etail k2 (ALeaf v))).
    { rewrite <- (Nat.add_0_r (length k2)). apply wfa_etail; [constructor; auto|reflexivity]. }
    assert (Wold : wfa (length k2) (etail q2 ac)).
    { replace (length k2) with (length q2 + n') by lia. apply wfa_etail; auto. }
    set (branch := if b1 then NBin None (length p + length com) old new
                   else NBin None (length p + length com) new old).
    set (abranch := if b1 then ABin (etail q2 ac) (etail k2 (ALeaf v))
                    else ABin (etail k2 (ALeaf v)) (etail q2 ac)).
    assert (Dbranch : exists fb, den H st lv' pc branch abranch fb /\ Permutation fb fc).
    { unfold branch, abranch. rewrite <- Lpc.
      destruct b1; destruct b0; try congruence; eexists; (split; [constructor; eassumption|]).
      - simpl. rewrite app_nil_r. reflexivity.
      - simpl. reflexivity. }
    destruct Dbranch as (fb & Dbranch & Pb).
    assert (Wbranch : wfa (S (length k2)) abranch).
    { unfold abranch. destruct b1; constructor; auto. }
    assert (Ebranch : is_edge abranch = false) by (unfold abranch; destruct b1; reflexivity).
    exists (match com with [] => branch | _ => NEdge None (length p) com branch end),
           (etail com abranch), fb.
    repeat match goal with |- _ /\ _ => split end; auto.
    - destruct com as [|x com']; simpl etail.
      + unfold pc in Dbranch. rewrite app_nil_r in Dbranch. exact Dbranch.
      + change fb with (opt_list (@None idx) ++ fb). constructor. exact Dbranch.
    - replace n with (length com + S (length k2)) by lia. now apply wfa_etail.
    - destruct com; [|exact I]. unfold branch. destruct b1; exact I.
    - intros k' Lk'. unfold acontent at 1. rewrite alookup_etail.
      unfold put. rewrite Eq, Ek.
      destruct (bits_eqb_spec com (firstn (length com) k')) as [Ec|Nc].
      + assert (Hk' : k' = com ++ skipn (length com) k') by (rewrite Ec at 1; now rewrite firstn_skipn).
        destruct (skipn (length com) k') as [|b k4] eqn:Sk'.
        { exfalso. rewrite Hk', app_length in Lk'. simpl in Lk'. lia. }
        assert (Lk4 : length k4 = length k2) by (rewrite Hk', app_length in Lk'; simpl in Lk'; lia).
        rewrite Hk'. rewrite alookup_edge_app.
        assert (X1 : acontent (AEdge (com ++ b0 :: q2) ac) (com ++ b :: k4) =
                     if Bool.eqb b0 b then acontent (AEdge q2 ac) k4 else 0%N).
        { unfold acontent at 1. rewrite alookup_edge_branch.
          destruct (Bool.eqb b0 b); reflexivity. }
        rewrite X1.
        assert (X2 : alookup abranch (b :: k4) =
                     if Bool.eqb b0 b then alookup (AEdge q2 ac) k4
                     else alookup (AEdge k2 (ALeaf v)) k4).
        { unfold abranch. destruct b0, b1, b; try congruence; simpl alookup at 1;
            rewrite alookup_etail; reflexivity. }
        rewrite X2.
        destruct (Bool.eqb_spec b0 b) as [Eb|Nb'].
        * destruct (bits_eqb_spec (com ++ b :: k4) (com ++ b1 :: k2)) as [E|E]; [|reflexivity].
          exfalso. apply app_inv_head in E. injection E as E1 _. congruence.
        * assert (b = b1) by (destruct b0, b1, b; congruence). subst b.
          destruct (bits_eqb_spec (com ++ b1 :: k4) (com ++ b1 :: k2)) as [E|E].
          -- apply app_inv_head in E. injection E as E. subst k4.
             rewrite <- (app_nil_r k2) at 2. rewrite alookup_edge_app. reflexivity.
          -- destruct (alookup (AEdge k2 (ALeaf v)) k4) eqn:X; [|reflexivity].
             exfalso. apply alookup_edge_inv in X. destruct X as (k5 & -> & _).
             rewrite app_length in Lk4. destruct k5; [|simpl in Lk4; lia].
             rewrite app_nil_r in E. congruence.
      + assert (NN : forall x, k' <> com ++ x).
        { intros x ->. apply Nc. now rewrite firstn_app_len. }
        rewrite alookup_edge_none by auto.
        destruct (bits_eqb_spec k' (com ++ b1 :: k2)) as [E|E]; [exfalso; eapply NN; eauto|].
        unfold acontent. rewrite alookup_edge_none; auto.
        intros x X. apply (NN ((b0 :: q2) ++ x)). now rewrite app_assoc.
  Qed.

  Lemma den_edge_inv lv p si h q c a fp :
    den H st lv p (NEdge si h q c) a fp ->
    exists ac fc, h = length p /\ a = AEdge q ac /\ fp = opt_list si ++ fc /\
                  den H st lv (p ++ q) c ac fc.
  Proof. inversion 1; subst; eauto 8. Qed.

  Lemma tree_set_ok t m S0 key v :
    tinv t m S0 -> length key = HEIGHT -> v <> 0%N -> HEIGHT <> 0 ->
    exists t', tree_set HEIGHT st t key v = Ok t' /\ tinv t' (put m key v) S0.
  Proof.
    unfold tinv, tree_set. intros Inv L Hv HH.
    destruct (N.eqb_spec v 0) as [X|_]; [congruence|].
    destruct (t_root t) as [n|] eqn:R.
    - destruct Inv as (a & fp & D & W & C & Pm & U).
      destruct (traverse_root _ _ _ _ key D W L) as
        (fs' & afs' & ff' & n' & a' & fp' & ht' & T & HF & D' & WC & W' & He & Pl & Pm' & Fo).
      rewrite T. simpl obind.
      destruct Fo as [v0 Ek|si h q c ac k Ek Nk].
      + eexists. split; [reflexivity|]. cbn [t_root t_leaves t_removed].
        assert (HF2 : fden H st (al_set bits_eqb key v (t_leaves t)) fs' afs' ff').
        { apply fden_set; auto. exists []. now rewrite app_nil_r. }
        assert (D2 : den H st (al_set bits_eqb key v (t_leaves t)) (apath afs') NLeaf (ALeaf v) []).
        { constructor. unfold leafval. rewrite Ek. now rewrite (al_get_set_eq _ bits_eqb_spec). }
        destruct (den_plug _ _ _ _ _ _ HF2 _ _ _ D2) as (fp2 & D3 & Pm2).
        exists (aplug afs' (ALeaf v)), fp2.
        assert (Z : ht' = 0) by (apply wfa_leaf_inv in W'; tauto). subst ht'.
        repeat match goal with |- _ /\ _ => split end; auto.
        * eapply wfa_aplug; eauto. now constructor.
        * intros k Lk.
          rewrite (acontent_aplug_upd HEIGHT afs' 0 (ALeaf v0) (ALeaf v) [] v WC eq_refl); auto.
          -- rewrite app_nil_r, Ek, Pl. eapply put_ext_len; eauto.
          -- intros k' Lk'. destruct k'; [reflexivity|discriminate].
        * inversion D'; subst. simpl. rewrite app_nil_r. perm.
        * apply not_unres_any, plug_not_unres. exact I.
      + destruct (den_edge_inv _ _ _ _ _ _ _ _ D') as (ac' & fc & Eh & Ea & Ef & Dc).
        injection Ea as <-. subst h fp'.
        pose proof (wfctx_length _ _ _ WC) as CL.
        assert (Lk : length k = ht') by (rewrite Ek, app_length in L; lia).
        destruct (split_edge_ok (t_leaves t) (apath afs') si q c ac fc ht' k key v D' W' Ek Lk Nk Hv)
          as (n2 & a2 & fp2 & Sp & D2 & Pf & W2 & NU & C2).
        rewrite Sp. simpl obind.
        eexists. split; [reflexivity|]. cbn [t_root t_leaves t_removed storage_index].
        assert (HF2 : fden H st (al_set bits_eqb key v (t_leaves t)) fs' afs' ff').
        { apply fden_set; eauto. }
        destruct (den_plug _ _ _ _ _ _ HF2 _ _ _ D2) as (fp3 & D3 & Pm3).
        exists (aplug afs' a2), fp3.
        repeat match goal with |- _ /\ _ => split end; auto.
        * eapply wfa_aplug; eauto. intros X. specialize (He X). discriminate He.
        * intros k' Lk'.
          rewrite (acontent_aplug_upd HEIGHT afs' ht' (AEdge q ac) a2 k v WC Lk); auto.
          rewrite <- Ek, Pl. eapply put_ext_len; eauto.
        * perm.
        * apply not_unres_any, plug_not_unres. exact NU.
    - destruct Inv as [Z Pm]. eexists. split; [reflexivity|]. cbn [t_root t_leaves t_removed].
      exists (AEdge key (ALeaf v)), [].
      repeat match goal with |- _ /\ _ => split end; auto.
      + change 0 with (length (@nil bool)). change (@nil idx) with (opt_list (@None idx) ++ @nil idx).
        constructor. constructor. unfold leafval. simpl app.
        now rewrite (al_get_set_eq _ bits_eqb_spec).
      + replace HEIGHT with (length key + 0) by lia. constructor; [|now constructor|reflexivity].
        destruct key; [simpl in L; congruence|discriminate].
      + intros k Lk. unfold put. destruct (bits_eqb_spec k key) as [->|Nk].
        * unfold acontent. rewrite <- (app_nil_r key) at 2. rewrite alookup_edge_app. reflexivity.
        * rewrite (Z k Lk). unfold acontent.
          destruct (alookup (AEdge key (ALeaf v)) k) eqn:X; [|reflexivity].
          exfalso. apply alookup_edge_inv in X. destruct X as (k5 & -> & _).
          rewrite app_length in Lk. destruct k5; [|simpl in Lk; lia].
          rewrite app_nil_r in Nk. congruence.
  Qed.

  (** ** delete *)

  Lemma den_not_edge_node lv p n a fp :
    den H st lv p n a fp -> is_edge a = false ->
    match n with NEdge _ _ _ _ => False | _ => True end.
  Proof. destruct 1; simpl; auto; discriminate. Qed.

  Lemma den_edge_node lv p n q ac fp :
    den H st lv p n (AEdge q ac) fp -> (match n with NUnres _ => False | _ => True end) ->
    exists si c fc, n = NEdge si (length p) q c /\ fp = opt_list si ++ fc /\
                    den H st lv (p ++ q) c ac fc.
  Proof. inversion 1; subst; try tauto. intros _. eauto 8. Qed.

  Lemma merge_edges_ok lv p q c ca fc n :
    den H st lv (p ++ q) c ca fc -> wfa n ca -> q <> [] ->
    length p + length q + n = HEIGHT ->
    exists q' c' rem ca' fc',
      merge_edges HEIGHT st (length p) q c = Ok (q', c', rem) /\
      den H st lv (p ++ q') c' ca' fc' /\
      wfa (length q + n) (AEdge q' ca') /\
      (forall k, alookup (AEdge q' ca') k = alookup (AEdge q ca) k) /\
      Permutation (fc' ++ rem) fc.
  Proof.
    intros D W Hq L. unfold merge_edges.
    assert (R : exists rc fr, (match c with NUnres i => resolve HEIGHT st i (length p + length q)
                            | other => Ok other end) = Ok rc /\
                  den H st lv (p ++ q) rc ca fr /\ fr = fc /\
                  (match rc with NUnres _ => False | _ => True end)).
    { destruct c as [i|si h l r|si h p' c|].
      - assert (SD : sden H st (p ++ q) i ca fc /\ untouched lv (p ++ q) ca)
          by (clear - D; inversion D; subst; auto).
        destruct SD as [SD UD].
        destruct (resolve_ok H st lv HEIGHT (p ++ q) i ca fc n) as (n' & R & D' & NU & _); auto.
        + rewrite app_length; lia.
        + rewrite app_length in R. exists n', fc. auto.
      - exists (NBin si h l r), fc. auto.
      - exists (NEdge si h p' c), fc. auto.
      - exists NLeaf, fc. auto. }
    destruct R as (rc & fr & R & Dr & -> & NU). rewrite R. cbn [obind].
    destruct (is_edge ca) eqn:E.
    - destruct ca as [| |q2 cc]; try discriminate.
      destruct (den_edge_node _ _ _ _ _ _ Dr NU) as (si & c2 & fc2 & -> & -> & D2).
      exists (q ++ q2), c2, (opt_list si), cc, fc2.
      repeat match goal with |- _ /\ _ => split end; auto.
      + now rewrite app_assoc.
      + now apply wfa_edge_app.
      + intros k. apply alookup_edge_edge.
      + perm.
    - pose proof (den_not_edge_node _ _ _ _ _ Dr E) as NE.
      exists q, c, [], ca, fc.
      repeat match goal with |- _ /\ _ => split end; auto.
      + destruct rc; tauto.
      + constructor; auto.
      + rewrite app_nil_r. reflexivity.
  Qed.

  Lemma alookup_aplug1_ext f a a' :
    (forall k, alookup a k = alookup a' k) ->
    forall k, alookup (aplug1 f a) k = alookup (aplug1 f a') k.
  Proof.
    intros E k. destruct f as [[] s|p]; simpl.
    - destruct k as [|[] k]; auto.
    - destruct k as [|[] k]; auto.
    - destruct (bits_eqb p (firstn (length p) k)); auto.
  Qed.

  Lemma alookup_aplug_ext fs : forall a a',
    (forall k, alookup a k = alookup a' k) ->
    forall k, alookup (aplug fs a) k = alookup (aplug fs a') k.
  Proof.
    induction fs as [|f fs IH]; intros a a' E k; simpl; auto.
    apply IH. intros k'. now apply alookup_aplug1_ext.
  Qed.

  (** What is below the closest binary node on the way to a leaf. *)
  Lemma skip_to_binary_ok lv fs afs ff n v :
    fden H st lv fs afs ff -> wfctx HEIGHT afs n ->
    (exists below, skip_to_binary fs [] = ([], below) /\ ff = below /\
                   (forall k, alookup (aplug afs (ALeaf v)) k =
                              alookup (AEdge (apath afs) (ALeaf v)) k)) \/
    (exists si d sib sa fsib fs' afs' ff' below q n',
        skip_to_binary fs [] = (FBin si (length (apath afs')) d sib :: fs', below) /\
        fden H st lv fs' afs' ff' /\ den H st lv (apath afs' ++ [negb d]) sib sa fsib /\
        wfctx HEIGHT afs' (S n') /\ wfa n' sa /\ n' = length q + n /\
        apath afs = apath afs' ++ d :: q /\
        (forall k, alookup (aplug afs (ALeaf v)) k =
                   alookup (aplug afs' (aplug1 (AFBin d sa) (AEdge q (ALeaf v)))) k) /\
        Permutation ff (below ++ opt_list si ++ fsib ++ ff')).
  Proof.
    intros HF C.
    destruct HF as [|fs afs ff si d sib sa fsib HF HS|fs afs ff si q HF].
    - left. exists []. repeat split; auto. 
    - right. inversion C; subst.
      exists si, d, sib, sa, fsib, fs, afs, ff, [], [], n.
      repeat match goal with |- _ /\ _ => split end; auto.
      intros k. apply (alookup_aplug_ext afs). apply alookup_aplug1_ext. reflexivity.
    - inversion C; subst.
      destruct HF as [|fs afs ff si2 d sib sa fsib HF HS|fs afs ff si2 q2 HF].
      + left. exists (opt_list si). simpl. rewrite app_nil_r.
        repeat split; auto.
      + right.
        match goal with X : wfctx _ (AFBin _ _ :: _) _ |- _ => inversion X; subst end.
        exists si2, d, sib, sa, fsib, fs, afs, ff, (opt_list si), q, (length q + n).
        repeat match goal with |- _ /\ _ => split end; auto.
        simpl. rewrite <- app_assoc. reflexivity.
      + discriminate.
  Qed.

  Lemma delete_leaf_ok t m S0 key :
    tinv t m S0 -> length key = HEIGHT ->
    exists t', delete_leaf HEIGHT st t key = Ok t' /\ tinv t' (put m key 0%N) S0.
  Proof.
    unfold tinv, delete_leaf. intros Inv L.
    destruct (t_root t) as [n|] eqn:R.
    2:{ exists t. split; auto. rewrite R. destruct Inv as [Z Pm]. split; auto.
        intros k Hk. unfold put. destruct (bits_eqb k key); auto. }
    destruct Inv as (a & fp & D & W & C & Pm & U).
    destruct (traverse_root _ _ _ _ key D W L) as
      (fs' & afs' & ff' & n' & a' & fp' & ht' & T & HF & D' & WC & W' & He & Pl & Pm' & Fo).
    rewrite T. cbn [obind].
    destruct Fo as [v Ek|si h q c ac k Ek Nk].
    2:{ (* the key is not there *)
        destruct (den_plug _ _ _ _ _ _ HF _ _ _ D') as (fp2 & D2 & Pm2). rewrite Pl in D2.
        eexists. split; [reflexivity|]. cbn [t_root t_leaves t_removed].
        exists a, fp2. repeat match goal with |- _ /\ _ => split end; auto.
        - intros k' Lk'. unfold put. destruct (bits_eqb_spec k' key) as [->|]; auto.
          rewrite <- Pl, Ek. unfold acontent. rewrite alookup_aplug.
          now rewrite alookup_edge_none.
        - perm.
        - apply not_unres_any, plug_not_unres. exact I. }
    inversion D' as [p0 v0 Lv E1 E2 E3 E4| | |]; subst v0 p0 fp'.
    assert (Z : ht' = 0) by (apply wfa_leaf_inv in W'; tauto). subst ht'.
    destruct (skip_to_binary_ok _ _ _ _ _ v HF WC) as
      [(below & Sk & Eb & Lk)|
       (si & d & sib & sa & fsib & fs2 & afs2 & ff2 & below & q & n2 & Sk & HF2 & DS & WC2 & Wsa & En & Ep & Lk & PmS)].
    - (* the tree becomes empty *)
      rewrite Sk. cbn [obind]. eexists. split; [reflexivity|]. cbn [t_root t_leaves t_removed].
      split; [|subst below; rewrite app_nil_r in *; perm].
      intros k Hk. unfold put. destruct (bits_eqb_spec k key) as [|Nk]; auto.
      rewrite (C k Hk), <- Pl. unfold acontent. rewrite Lk.
      destruct (alookup (AEdge (apath afs') (ALeaf v)) k) eqn:X; auto. exfalso.
      apply alookup_edge_inv in X. destruct X as (k2 & -> & X).
      destruct k2; [|discriminate]. rewrite app_nil_r in Nk. congruence.
    - rewrite Sk. cbn [obind]. rewrite Nat.add_0_r in En. subst n2.
      pose proof (wfctx_length _ _ _ WC2) as CL2.
      destruct (merge_edges_ok (t_leaves t) (apath afs2) [negb d] sib sa fsib (length q) DS Wsa)
        as (ep & ec & rem1 & ca1 & fc1 & M1 & D1 & W1 & L1 & P1); [discriminate|simpl; lia|].
      rewrite M1. cbn [obind].
      (* contents with the new edge in place of the binary node *)
      assert (CC : forall k', length k' = HEIGHT ->
                 acontent (aplug afs2 (AEdge ep ca1)) k' = put m key 0%N k').
      { intros k' Lk'.
        rewrite (acontent_aplug_upd HEIGHT afs2 (S (length q)) (aplug1 (AFBin d sa) (AEdge q (ALeaf v)))
                   (AEdge ep ca1) (d :: q) 0%N WC2 eq_refl); auto.
        - rewrite <- Ep, Ek. eapply put_ext_len; eauto.
          intros k2 Lk2. rewrite (C k2 Lk2), <- Pl. unfold acontent. now rewrite Lk.
        - intros k2 Lk2. unfold acontent at 1. rewrite L1.
          destruct k2 as [|b k2]; [discriminate|]. simpl in Lk2.
          unfold put. destruct (Bool.bool_dec b d) as [->|Nb].
          + assert (X0 : alookup (AEdge [negb d] sa) (d :: k2) = None) by (simpl; destruct d; reflexivity).
            rewrite X0. destruct (bits_eqb_spec (d :: k2) (d :: q)) as [|Nq]; auto.
            assert (X1 : acontent (aplug1 (AFBin d sa) (AEdge q (ALeaf v))) (d :: k2)
                         = acontent (AEdge q (ALeaf v)) k2) by (destruct d; reflexivity).
            rewrite X1. unfold acontent.
            destruct (alookup (AEdge q (ALeaf v)) k2) eqn:X; auto. exfalso.
            apply alookup_edge_inv in X. destruct X as (k3 & -> & X).
            destruct k3; [|discriminate]. rewrite app_nil_r in Nq. congruence.
          + assert (b = negb d) by (destruct b, d; simpl; congruence). subst b.
            assert (X0 : alookup (AEdge [negb d] sa) (negb d :: k2) = alookup sa k2)
              by (apply (alookup_edge_app [negb d] sa k2)).
            rewrite X0. destruct (bits_eqb_spec (negb d :: k2) (d :: q)) as [E|_].
            * injection E as E _. destruct d; discriminate.
            * unfold acontent. destruct d; reflexivity. }
      assert (DE : den H st (t_leaves t) (apath afs2) (NEdge None (length (apath afs2)) ep ec)
                       (AEdge ep ca1) fc1).
      { change fc1 with (opt_list (@None idx) ++ fc1). constructor. exact D1. }
      rewrite app_nil_r in Pm'.
      destruct (hd_edge afs2) eqn:HE2.
      + (* the parent is an edge *)
        destruct HF2 as [|fs2 afs2 ff2 si2 d2 sib2 sa2 fsib2 HF2 HS2|fs2 afs2 ff2 psi pp HF2]; try discriminate.
        inversion WC2 as [| |fs0 n0 p0 WC3 Hpp Hhd]; subst fs0 n0 p0.
        pose proof (wfctx_length _ _ _ WC3) as CL3.
        simpl apath in DE. simpl in W1.
        destruct (merge_edges_ok (t_leaves t) (apath afs2) pp
                    (NEdge None (length (apath (AFEdge pp :: afs2))) ep ec) (AEdge ep ca1) fc1 (S (length q)))
          as (pp' & pc' & rem2 & ca2 & fc2 & M2 & D2 & W2 & L2 & P2); auto; [lia|].
        cbv beta iota. rewrite M2. cbn [obind]. eexists. split; [reflexivity|].
        cbn [t_root t_leaves t_removed].
        assert (DP : den H st (t_leaves t) (apath afs2) (NEdge psi (length (apath afs2)) pp' pc')
                         (AEdge pp' ca2) (opt_list psi ++ fc2)) by (constructor; exact D2).
        destruct (den_plug _ _ _ _ _ _ HF2 _ _ _ DP) as (fp3 & D3 & Pm3).
        exists (aplug afs2 (AEdge pp' ca2)), fp3.
        repeat match goal with |- _ /\ _ => split end; auto.
        * eapply wfa_aplug; eauto; try (intros X; congruence).
        * intros k' Lk'. rewrite <- (CC k' Lk'). unfold acontent.
          change (aplug (AFEdge pp :: afs2) (AEdge ep ca1)) with (aplug afs2 (AEdge pp (AEdge ep ca1))).
          rewrite (alookup_aplug_ext afs2 (AEdge pp' ca2) (AEdge pp (AEdge ep ca1)) L2). reflexivity.
        * perm.
        * apply not_unres_any, plug_not_unres. exact I.
      + destruct (den_plug _ _ _ _ _ _ HF2 _ _ _ DE) as (fp3 & D3 & Pm3).
        assert (G : tinv (mkTree (Some (plug fs2 (NEdge None (length (apath afs2)) ep ec)))
                           (t_leaves t) ((t_removed t ++ rem1 ++ opt_list si) ++ below))
                         (put m key 0%N) S0).
        { unfold tinv. cbn [t_root t_leaves t_removed].
          exists (aplug afs2 (AEdge ep ca1)), fp3.
          repeat match goal with |- _ /\ _ => split end; auto.
          * eapply wfa_aplug; eauto; try (intros X; congruence).
          * intros k' Lk'. symmetry. auto.
          * perm.
          * apply not_unres_any, plug_not_unres. exact I. }
        destruct HF2 as [|fs2 afs2 ff2 si2 d2 sib2 sa2 fsib2 HF2 HS2|fs2 afs2 ff2 psi pp HF2]; try discriminate;
          (eexists; split; [reflexivity|exact G]).
  Qed.

  Lemma tree_set_any t m S0 key v :
    tinv t m S0 -> length key = HEIGHT -> HEIGHT <> 0 ->
    exists t', tree_set HEIGHT st t key v = Ok t' /\ tinv t' (put m key v) S0.
  Proof.
    intros Inv L HH. destruct (N.eq_dec v 0) as [->|Hv].
    - unfold tree_set. rewrite N.eqb_refl. now apply delete_leaf_ok.
    - now apply tree_set_ok.
  Qed.
End Ops.
