(** Proofs about the Merkle tree model: commit, insertion of the update into the
    node table, reloading, and proofs of membership. *)
From Coq Require Import List Bool Arith NArith Lia Permutation.
From Coq Require Import ZifyBool ZifyNat ZifyN.
From Verif Require Import AList ListLib MerkleModel MerkleSpec MerkleProof MerkleTreeProof.
Import ListNotations.

Section Commit.
  Variable H : felt -> felt -> felt.
  Variable st : storage.

  (** A reference into [added] (or to a stored row) that denotes [a].  The new
      nodes below it are those at positions [s] .. [e - 1]; [keep] are the
      stored rows below it. *)
  Inductive rden (added : list (felt * pnode)) :
    bits -> noderef -> atree -> nat -> nat -> list idx -> Prop :=
  | rden_stored p i a fp s :
      sden H st p i a fp -> rden added p (RStored i) a s s fp
  | rden_bin p i l r al ar s m fl fr :
      nth_error added i = Some (ahash H (ABin al ar), PBin l r) ->
      rden added (p ++ [false]) l al s m fl ->
      rden added (p ++ [true]) r ar m i fr ->
      rden added p (RNew i) (ABin al ar) s (S i) (fl ++ fr)
  | rden_edge p i c q ac s fc :
      nth_error added i = Some (ahash H (AEdge q ac), PEdge c q) ->
      rden added (p ++ q) c ac s i fc ->
      rden added p (RNew i) (AEdge q ac) s (S i) fc
  | rden_leafbin p i vl vr :
      nth_error added i = Some (ahash H (ABin (ALeaf vl) (ALeaf vr)), PLeafBin) ->
      rden added p (RNew i) (ABin (ALeaf vl) (ALeaf vr)) i (S i) []
  | rden_leafedge p i q v :
      nth_error added i = Some (ahash H (AEdge q (ALeaf v)), PLeafEdge q) ->
      rden added p (RNew i) (AEdge q (ALeaf v)) i (S i) [].

  Lemma nth_error_app_some {A} (l l' : list A) i x :
    nth_error l i = Some x -> nth_error (l ++ l') i = Some x.
  Proof.
    intros E. rewrite nth_error_app1; auto. apply nth_error_Some. congruence.
  Qed.

  Lemma rden_app added more p r a s e keep :
    rden added p r a s e keep -> rden (added ++ more) p r a s e keep.
  Proof.
    induction 1.
    - now constructor.
    - eapply rden_bin; eauto using nth_error_app_some.
    - eapply rden_edge; eauto using nth_error_app_some.
    - eapply rden_leafbin; eauto using nth_error_app_some.
    - eapply rden_leafedge; eauto using nth_error_app_some.
  Qed.

  Lemma rden_le added p r a s e keep : rden added p r a s e keep -> s <= e.
  Proof. induction 1; lia. Qed.

  Lemma nth_error_snoc {A} (l : list A) x : nth_error (l ++ [x]) (length l) = Some x.
  Proof. rewrite nth_error_app2 by lia. now rewrite Nat.sub_diag. Qed.

  Lemma edge_hash_ok c p : length p <= 251 -> p <> [] ->
    edge_hash H c p = Ok (fadd (H c (bits_val p)) (N.of_nat (length p))).
  Proof.
    intros L Hp. unfold edge_hash, felt_from_bits.
    destruct (Nat.ltb_spec 251 (length p)); [lia|]. cbn [or_panic obind].
    rewrite N.mod_small by lia. reflexivity.
  Qed.

  Variable HEIGHT : nat.
  Hypothesis HEIGHT_small : HEIGHT <= 251.

  Lemma commit_subtree_ok lv p n a fp :
    den H st lv p n a fp -> forall h, wfa h a -> length p + h = HEIGHT ->
    forall added removed, exists ref new rem keep,
      commit_subtree H st lv n p added removed =
        Ok (ahash H a, ref, added ++ new, removed ++ rem) /\
      Permutation (keep ++ rem) fp /\
      match ref with
      | None => h = 0 /\ new = [] /\ keep = [] /\ rem = []
      | Some r => h <> 0 /\
          rden (added ++ new) p r a (length added) (length (added ++ new)) keep
      end.
  Proof using HEIGHT_small.
    induction 1 as [p v Lv|p i a fp S U|p si l r al ar fl fr Dl IHl Dr IHr|p si q c ac fc Dc IHc];
      intros h W L added removed.
    - apply wfa_leaf_inv in W. destruct W as [-> Hv].
      exists None, [], [], []. simpl. unfold leafval in Lv. rewrite !app_nil_r.
      destruct (al_get bits_eqb p lv).
      + injection Lv as ->. simpl. auto 8.
      + rewrite Lv. simpl. auto 8.
    - exists (Some (RStored i)), [], [], fp. simpl.
      rewrite (sden_hash _ _ _ _ _ _ S). simpl. rewrite !app_nil_r.
      split; [reflexivity|]. split; [reflexivity|]. split.
      + intros ->. destruct (wfa_zero _ _ W eq_refl) as [v ->]. inversion S.
      + now constructor.
    - apply wfa_bin_inv in W. destruct W as (n' & -> & Wl & Wr).
      destruct (IHl n' Wl ltac:(rewrite app_length; simpl; lia) added removed)
        as (lref & newl & reml & keepl & El & Pl & Rl).
      destruct (IHr n' Wr ltac:(rewrite app_length; simpl; lia) (added ++ newl) (removed ++ reml))
        as (rref & newr & remr & keepr & Er & Pr & Rr).
      cbn [commit_subtree]. rewrite El. cbn [obind]. rewrite Er. cbn [obind].
      unfold bin_hash.
      destruct lref as [lref|]; destruct rref as [rref|].
      + destruct Rl as [Hn Rl]. destruct Rr as [_ Rr]. cbn [obind].
        set (pn := (H (ahash H al) (ahash H ar), PBin lref rref)).
        exists (Some (RNew (length ((added ++ newl) ++ newr)))), (newl ++ newr ++ [pn]),
               (reml ++ remr ++ opt_list si), (keepl ++ keepr).
        split; [rewrite <- !app_assoc; reflexivity|]. split; [perm|]. split; [lia|].
        replace (added ++ newl ++ newr ++ [pn]) with (((added ++ newl) ++ newr) ++ [pn])
          by (rewrite <- !app_assoc; reflexivity).
        replace (length ((((added ++ newl) ++ newr) ++ [pn]))) with (S (length ((added ++ newl) ++ newr)))
          by (rewrite (app_length _ [pn]); simpl; lia).
        eapply rden_bin with (m := length (added ++ newl)).
        * rewrite nth_error_snoc. reflexivity.
        * apply rden_app, rden_app. exact Rl.
        * apply rden_app. exact Rr.
      + exfalso. tauto.
      + exfalso. tauto.
      + destruct Rl as (-> & -> & -> & ->). destruct Rr as (_ & -> & -> & ->).
        destruct (wfa_zero _ _ Wl eq_refl) as [vl ->].
        destruct (wfa_zero _ _ Wr eq_refl) as [vr ->].
        cbn [obind]. rewrite !app_nil_r. simpl ahash.
        exists (Some (RNew (length added))), [(H vl vr, PLeafBin)], (opt_list si), [].
        split; [reflexivity|]. split; [simpl in *; perm|]. split; [lia|].
        rewrite app_length. simpl length. rewrite Nat.add_1_r.
        apply rden_leafbin. rewrite nth_error_snoc. reflexivity.
    - apply wfa_edge_inv in W. destruct W as (n' & -> & Hq & Wc & Hc).
      destruct (IHc n' Wc ltac:(rewrite app_length; lia) added removed)
        as (cref & newc & remc & keepc & Ec & Pc & Rc).
      cbn [commit_subtree]. rewrite Ec. cbn [obind].
      rewrite (edge_hash_ok _ q ltac:(lia) Hq). cbn [obind].
      destruct cref as [cref|].
      + destruct Rc as [Hn Rc].
        set (pn := (fadd (H (ahash H ac) (bits_val q)) (N.of_nat (length q)), PEdge cref q)).
        exists (Some (RNew (length (added ++ newc)))), (newc ++ [pn]), (remc ++ opt_list si), keepc.
        split; [rewrite <- !app_assoc; reflexivity|]. split; [perm|]. split; [lia|].
        rewrite app_assoc. rewrite (app_length _ [pn]). simpl length. rewrite Nat.add_1_r.
        eapply rden_edge.
        * rewrite nth_error_snoc. reflexivity.
        * apply rden_app. exact Rc.
      + destruct Rc as (-> & -> & -> & ->). destruct (wfa_zero _ _ Wc eq_refl) as [v ->].
        rewrite !app_nil_r. simpl ahash.
        exists (Some (RNew (length added))), [(fadd (H v (bits_val q)) (N.of_nat (length q)), PLeafEdge q)],
               (opt_list si), [].
        split; [reflexivity|]. split; [simpl in *; perm|].
        split; [destruct q; [congruence|simpl; lia]|].
        rewrite app_length. simpl length. rewrite Nat.add_1_r.
        apply rden_leafedge. rewrite nth_error_snoc. reflexivity.
  Qed.

  (** What [commit] yields for a tree that holds [m]. *)
  Definition committed (u : trie_update) (m : contents) (S0 : list idx) (t : tree) : Prop :=
    u_root u = spec_root H HEIGHT m /\
    match t_root t with
    | None => u_added u = [] /\ Permutation (u_removed u) S0 /\
              (forall k, length k = HEIGHT -> m k = 0%N)
    | Some (NUnres i) =>
        u_added u = [] /\ u_removed u = [] /\
        exists a fp, sden H st [] i a fp /\ wfa HEIGHT a /\ Permutation fp S0 /\
                     forall k, length k = HEIGHT -> m k = acontent a k
    | Some _ =>
        exists a keep, wfa HEIGHT a /\ (forall k, length k = HEIGHT -> m k = acontent a k) /\
          u_added u <> [] /\
          rden (u_added u) [] (RNew (length (u_added u) - 1)) a 0 (length (u_added u)) keep /\
          Permutation (keep ++ u_removed u) S0
    end.

  Lemma commit_ok t m S0 :
    tinv H st HEIGHT t m S0 -> HEIGHT <> 0 ->
    exists u, commit H st t = Ok u /\ committed u m S0 t.
  Proof using HEIGHT_small.
    unfold tinv, commit, committed. intros Inv HH. destruct (t_root t) as [n|] eqn:R.
    - destruct Inv as (a & fp & D & W & C & Pm & U).
      destruct n as [i|si h l r|si h p c|].
      + assert (S : sden H st [] i a fp) by (inversion D; subst; auto).
        rewrite (sden_hash _ _ _ _ _ _ S). cbn [or_err obind].
        eexists. split; [reflexivity|]. cbn [u_root u_added u_removed].
        split; [symmetry; now apply spec_root_wfa|].
        rewrite U. split; auto. split; auto. exists a, fp. rewrite U, app_nil_r in Pm. auto.
      + destruct (commit_subtree_ok _ _ _ _ _ D HEIGHT W eq_refl [] [])
          as (ref & new & rem & keep & E & P1 & R1).
        rewrite E. cbn [obind app]. eexists. split; [reflexivity|]. cbn [u_root u_added u_removed].
        split; [symmetry; now apply spec_root_wfa|].
        destruct ref as [ref|]; [|exfalso; tauto]. destruct R1 as [_ R1]. cbn [app length] in R1.
        assert (Hr : exists k, ref = RNew k /\ S k = length new).
        { cbn [commit_subtree] in E.
          repeat match type of E with
                 | obind ?x _ = _ => destruct x as [[[[? ?] ?] ?]| | |]; cbn [obind] in E; try discriminate
                 end.
          destruct o as [?|], o0 as [?|]; cbn [obind] in E; try discriminate;
            injection E as E1 E2 E3 E4; eexists; (split; [symmetry; exact E2|]);
            subst new; rewrite app_length; simpl; lia. }
        destruct Hr as (k & -> & Hk).
        exists a, keep. repeat match goal with |- _ /\ _ => split end; auto.
        * intros ->. discriminate.
        * replace (length new - 1) with k by lia. exact R1.
        * perm.
      + destruct (commit_subtree_ok _ _ _ _ _ D HEIGHT W eq_refl [] [])
          as (ref & new & rem & keep & E & P1 & R1).
        rewrite E. cbn [obind app]. eexists. split; [reflexivity|]. cbn [u_root u_added u_removed].
        split; [symmetry; now apply spec_root_wfa|].
        destruct ref as [ref|]; [|exfalso; tauto]. destruct R1 as [_ R1]. cbn [app length] in R1.
        assert (Hr : exists k, ref = RNew k /\ S k = length new).
        { cbn [commit_subtree] in E.
          match type of E with
          | obind ?x _ = _ => destruct x as [[[[? ?] ?] ?]| | |]; cbn [obind] in E; try discriminate
          end.
          match type of E with
          | obind ?x _ = _ => destruct x; cbn [obind] in E; try discriminate
          end.
          injection E as E1 E2 E3 E4; eexists; (split; [symmetry; exact E2|]);
            subst new; rewrite app_length; simpl; lia. }
        destruct Hr as (k & -> & Hk).
        exists a, keep. repeat match goal with |- _ /\ _ => split end; auto.
        * intros ->. discriminate.
        * replace (length new - 1) with k by lia. exact R1.
        * perm.
      + exfalso. inversion D; subst. apply wfa_leaf_inv in W. tauto.
    - destruct Inv as [Z Pm]. eexists. split; [reflexivity|]. cbn [u_root u_added u_removed app].
      split; [symmetry; now apply spec_root_empty|]. auto.
  Qed.

End Commit.

Section Collect.
  Variable H : felt -> felt -> felt.
  Variable st : storage.

  (** ** The order in which insert_trie collects nodes *)

  Lemma collect_ok added p r a s e keep :
    rden H st added p r a s e keep ->
    exists cost, cost <= 2 * (e - s) + 1 /\
      forall fuel stack acc,
        collect (cost + fuel) added (r :: stack) acc =
        collect fuel added stack (acc ++ rev (seq s (e - s))).
  Proof.
    induction 1 as [p i a fp s S|p i l r al ar s m fl fr En Rl IHl Rr IHr
                   |p i c q ac s fc En Rc IHc|p i vl vr En|p i q v En].
    - exists 1. split; [lia|]. intros. simpl. rewrite Nat.sub_diag. simpl. now rewrite app_nil_r.
    - destruct IHl as (cl & Bl & El). destruct IHr as (cr & Br & Er).
      pose proof (rden_le _ _ _ _ _ _ _ _ _ Rl). pose proof (rden_le _ _ _ _ _ _ _ _ _ Rr).
      exists (S (cr + cl)). split; [lia|]. intros fuel stack acc.
      cbn [plus collect]. rewrite En. cbn [or_err obind snd].
      rewrite <- Nat.add_assoc. rewrite Er, El. f_equal.
      replace (S i - s) with ((m - s) + (i - m) + 1) by lia.
      rewrite seq_app, rev_app_distr. replace (s + (m - s + (i - m))) with i by lia.
      rewrite seq_app, rev_app_distr. replace (s + (m - s)) with m by lia.
      simpl. rewrite <- !app_assoc. reflexivity.
    - destruct IHc as (cc & Bc & Ec). pose proof (rden_le _ _ _ _ _ _ _ _ _ Rc).
      exists (S cc). split; [lia|]. intros fuel stack acc.
      cbn [plus collect]. rewrite En. cbn [or_err obind snd].
      rewrite Ec. f_equal.
      replace (S i - s) with ((i - s) + 1) by lia.
      rewrite seq_app, rev_app_distr. replace (s + (i - s)) with i by lia.
      simpl. rewrite <- !app_assoc. reflexivity.
    - exists 1. split; [lia|]. intros. cbn [plus collect]. rewrite En. cbn [or_err obind snd].
      replace (S i - i) with 1 by lia. reflexivity.
    - exists 1. split; [lia|]. intros. cbn [plus collect]. rewrite En. cbn [or_err obind snd].
      replace (S i - i) with 1 by lia. reflexivity.
  Qed.

  Lemma collect_root added p r a e keep :
    rden H st added p r a 0 e keep ->
    collect (2 * e + 1) added [r] [] = Ok (rev (seq 0 e)).
  Proof.
    intros R. destruct (collect_ok _ _ _ _ _ _ _ R) as (cost & B & E).
    replace (2 * e + 1) with (cost + (2 * e + 1 - cost)) by lia.
    rewrite E. rewrite Nat.sub_0_r. simpl app. destruct (2 * e + 1 - cost); reflexivity.
  Qed.

  (** References always point backwards. *)
  Definition ref_below (i : nat) (r : noderef) : Prop :=
    match r with RNew k => k < i | RStored _ => True end.
  Definition refs_below (i : nat) (n : pnode) : Prop :=
    match n with
    | PBin l r => ref_below i l /\ ref_below i r
    | PEdge c _ => ref_below i c
    | _ => True
    end.

  Lemma rden_ref_below added p r a s e keep i :
    rden H st added p r a s e keep -> e <= i -> ref_below i r.
  Proof. destruct 1; simpl; auto; lia. Qed.

  Lemma rden_refs added p r a s e keep :
    rden H st added p r a s e keep ->
    forall i, s <= i < e -> exists h pn, nth_error added i = Some (h, pn) /\ refs_below i pn.
  Proof.
    induction 1 as [p i a fp s S|p i l r al ar s m fl fr En Rl IHl Rr IHr
                   |p i c q ac s fc En Rc IHc|p i vl vr En|p i q v En]; intros j Hj.
    - lia.
    - pose proof (rden_le _ _ _ _ _ _ _ _ _ Rl). pose proof (rden_le _ _ _ _ _ _ _ _ _ Rr).
      destruct (lt_eq_lt_dec j i) as [[Hl| ->]|]; [|eexists _, _; split; [exact En|simpl]|lia].
      + destruct (le_lt_dec m j); [apply IHr|apply IHl]; lia.
      + split; eapply rden_ref_below; eauto.
    - destruct (lt_eq_lt_dec j i) as [[Hl| ->]|]; [|eexists _, _; split; [exact En|simpl]|lia].
      + apply IHc; lia.
      + eapply rden_ref_below; eauto.
    - assert (j = i) by lia. subst. eexists _, _; split; [exact En|exact I].
    - assert (j = i) by lia. subst. eexists _, _; split; [exact En|exact I].
  Qed.
End Collect.

(* ------------------------------------------------------------------ *)
(** * The node table *)

Lemma next_idx_fresh tb i x : In (i, x) tb -> (i < next_idx tb)%N.
Proof.
  unfold next_idx. induction tb as [|[j y] tb IH]; simpl; [tauto|].
  intros [E|E].
  - injection E as -> ->. lia.
  - specialize (IH E). lia.
Qed.

Lemma next_idx_snoc tb x : next_idx (tb ++ [(next_idx tb, x)]) = N.succ (next_idx tb).
Proof.
  unfold next_idx at 1. rewrite map_app, fold_right_app. simpl.
  assert (G : forall l b, fold_right N.max b l = N.max b (fold_right N.max 0%N l)).
  { induction l as [|y l IH]; intros b; simpl; [lia|]. rewrite IH. lia. }
  rewrite G. unfold next_idx. lia.
Qed.

Lemma al_get_app_some (tb more : table) i x :
  al_get N.eqb i tb = Some x -> al_get N.eqb i (tb ++ more) = Some x.
Proof.
  unfold al_get. induction tb as [|[j y] tb IH]; simpl; [discriminate|].
  destruct (i =? j)%N; auto.
Qed.

Lemma al_get_app_none (tb more : table) i :
  al_get N.eqb i tb = None -> al_get N.eqb i (tb ++ more) = al_get N.eqb i more.
Proof.
  unfold al_get. induction tb as [|[j y] tb IH]; simpl; [auto|].
  destruct (i =? j)%N; [discriminate|]. auto.
Qed.

Lemma al_get_none_ge (tb : table) i : (next_idx tb <= i)%N -> al_get N.eqb i tb = None.
Proof.
  intros L. destruct (al_get N.eqb i tb) eqn:E; auto.
  exfalso. apply (al_get_in _ N.eqb_spec) in E. apply next_idx_fresh in E. lia.
Qed.

Definition map_ref (base : idx) (r : noderef) : idx :=
  match r with RStored i => i | RNew k => (base + N.of_nat k)%N end.

Definition map_node (base : idx) (n : pnode) : stored :=
  match n with
  | PBin l r => SBin (map_ref base l) (map_ref base r)
  | PEdge c p => SEdge (map_ref base c) p
  | PLeafBin => SLeafBin
  | PLeafEdge p => SLeafEdge p
  end.

Lemma insert_nodes_ok added base :
  forall cnt k (tb : table) (indices : list (nat * idx)),
    (forall i, k <= i < k + cnt -> exists h pn, nth_error added i = Some (h, pn) /\ refs_below i pn) ->
    (forall i, i < k -> al_get Nat.eqb i indices = Some (base + N.of_nat i)%N) ->
    next_idx tb = (base + N.of_nat k)%N ->
    exists (more : table) (indices' : list (nat * idx)),
      insert_nodes added (seq k cnt) tb indices = Ok (tb ++ more, indices') /\
      (forall i, i < k + cnt -> al_get Nat.eqb i indices' = Some (base + N.of_nat i)%N) /\
      next_idx (tb ++ more) = (base + N.of_nat (k + cnt))%N /\
      (forall i h pn, k <= i < k + cnt -> nth_error added i = Some (h, pn) ->
         al_get N.eqb (base + N.of_nat i)%N (tb ++ more) = Some (h, map_node base pn)) /\
      map fst more = map (fun i => (base + N.of_nat i)%N) (seq k cnt).
Proof.
  induction cnt as [|cnt IH]; intros k tb indices Hn Hi Hb.
  - exists [], indices. simpl. rewrite app_nil_r, Nat.add_0_r.
    repeat match goal with |- _ /\ _ => split end; auto. intros; lia.
  - cbn [seq insert_nodes].
    destruct (Hn k ltac:(lia)) as (h & pn & En & Rb). rewrite En. cbn [or_err obind fst snd].
    assert (As : as_stored indices pn = Ok (map_node base pn)).
    { assert (Rs : forall r, ref_below k r -> ref_stored indices r = Ok (map_ref base r)).
      { intros [i|j] Hr; simpl in *; auto. rewrite Hi; auto. }
      destruct pn as [l r|c p| |p]; simpl in *; auto.
      - destruct Rb as [Bl Br]. rewrite (Rs _ Bl), (Rs _ Br). reflexivity.
      - rewrite (Rs _ Rb). reflexivity. }
    rewrite As. cbn [obind].
    destruct (IH (S k) (tb ++ [(next_idx tb, (h, map_node base pn))])
                 (al_set Nat.eqb k (next_idx tb) indices))
      as (more & indices' & E & Hi' & Hb' & Hg & Hm).
    + intros i Hik. apply Hn. lia.
    + intros i Hik. destruct (Nat.eq_dec i k) as [->|Nk].
      * rewrite (al_get_set_eq _ Nat.eqb_spec). now rewrite Hb.
      * rewrite (al_get_set_neq _ Nat.eqb_spec); auto. apply Hi. lia.
    + rewrite next_idx_snoc, Hb. lia.
    + rewrite <- app_assoc in E, Hb', Hg.
      exists ([(next_idx tb, (h, map_node base pn))] ++ more), indices'.
      rewrite E. repeat match goal with |- _ /\ _ => split end; auto.
      * intros i Hik. apply Hi'. lia.
      * rewrite Hb'. f_equal. lia.
      * intros i h' pn' Hik En'. destruct (Nat.eq_dec i k) as [->|Nk].
        -- rewrite En in En'. injection En' as <- <-.
           rewrite al_get_app_none by (apply al_get_none_ge; lia).
           rewrite Hb. unfold al_get. simpl. now rewrite N.eqb_refl.
        -- apply Hg; auto. lia.
      * simpl. rewrite Hm, Hb. reflexivity.
Qed.

Lemma alookup_edge_leaf q v : alookup (AEdge q (ALeaf v)) q = Some v.
Proof.
  pose proof (alookup_edge_app q (ALeaf v) []) as E. now rewrite app_nil_r in E.
Qed.

Section Reload.
  Variable H : felt -> felt -> felt.

  (** A stored subtree only depends on its rows and leaves. *)
  Lemma sden_ext st st' p i a fp :
    sden H st p i a fp ->
    (forall j, In j fp -> s_get st' j = s_get st j /\ s_hash st' j = s_hash st j) ->
    (forall k v, alookup a k = Some v -> s_leaf st' (p ++ k) = Some v) ->
    sden H st' p i a fp.
  Proof.
    induction 1 as [p i l r al ar fl fr G Hh Sl IHl Sr IHr|p i c q ac fc G Hh Sc IHc
                  |p i vl vr G Hh Ll Lr|p i q v G Hh Lv]; intros Ex Lf.
    - destruct (Ex i (or_introl eq_refl)) as [E1 E2].
      eapply sden_bin; try congruence.
      + rewrite E1. exact G.
      + apply IHl.
        * intros j Hj. apply Ex. right. apply in_or_app. auto.
        * intros k v L. rewrite <- app_assoc. apply Lf. exact L.
      + apply IHr.
        * intros j Hj. apply Ex. right. apply in_or_app. auto.
        * intros k v L. rewrite <- app_assoc. apply Lf. exact L.
    - destruct (Ex i (or_introl eq_refl)) as [E1 E2].
      eapply sden_edge; try congruence.
      + rewrite E1. exact G.
      + apply IHc.
        * intros j Hj. apply Ex. right. auto.
        * intros k v L. rewrite <- app_assoc. apply Lf. now rewrite alookup_edge_app.
    - destruct (Ex i (or_introl eq_refl)) as [E1 E2].
      eapply sden_leafbin; try congruence.
      + apply Lf. reflexivity.
      + apply Lf. reflexivity.
    - destruct (Ex i (or_introl eq_refl)) as [E1 E2].
      eapply sden_leafedge; try congruence.
      apply Lf. apply alookup_edge_leaf.
  Qed.

  Lemma sden_in_table tb leaf p i a fp :
    sden H (table_storage tb leaf) p i a fp -> forall j, In j fp -> al_get N.eqb j tb <> None.
  Proof.
    induction 1 as [p i l r al ar fl fr G Hh Sl IHl Sr IHr|p i c q ac fc G Hh Sc IHc
                  |p i vl vr G Hh Ll Lr|p i q v G Hh Lv]; intros j [<-|Hj];
      try (simpl in G; intros X; rewrite X in G; discriminate).
    - apply in_app_or in Hj. destruct Hj; auto.
    - auto.
    - destruct Hj.
    - destruct Hj.
  Qed.

  Lemma sden_root_in st p i a fp : sden H st p i a fp -> In i fp.
  Proof. destruct 1; simpl; auto. Qed.

  (** After insertion a reference denotes a stored subtree. *)
  Lemma rden_stored_after tb tb' leaf leaf' added base p r a s e keep :
    rden H (table_storage tb leaf) added p r a s e keep ->
    (forall i x, al_get N.eqb i tb = Some x -> al_get N.eqb i tb' = Some x) ->
    (forall i h pn, s <= i < e -> nth_error added i = Some (h, pn) ->
       al_get N.eqb (base + N.of_nat i)%N tb' = Some (h, map_node base pn)) ->
    (forall k v, alookup a k = Some v -> leaf' (p ++ k) = Some v) ->
    exists fp, sden H (table_storage tb' leaf') p (map_ref base r) a fp /\
      Permutation fp (keep ++ map (fun i => (base + N.of_nat i)%N) (seq s (e - s))).
  Proof.
    induction 1 as [p i a fp s S|p i l r al ar s m fl fr En Rl IHl Rr IHr
                   |p i c q ac s fc En Rc IHc|p i vl vr En|p i q v En]; intros Old New Lf.
    - exists fp. split.
      + eapply sden_ext; [exact S| |exact Lf].
        intros j Hj. simpl.
        destruct (al_get N.eqb j tb) as [x|] eqn:E.
        * now rewrite (Old j x E).
        * exfalso. eapply sden_in_table; eauto.
      + rewrite Nat.sub_diag. simpl. rewrite app_nil_r. reflexivity.
    - pose proof (rden_le _ _ _ _ _ _ _ _ _ Rl). pose proof (rden_le _ _ _ _ _ _ _ _ _ Rr).
      destruct IHl as (fpl & Sl & Pl); auto.
      { intros j h pn Hj. apply New. lia. }
      { intros k v L. rewrite <- app_assoc. apply Lf. exact L. }
      destruct IHr as (fpr & Sr & Pr); auto.
      { intros j h pn Hj. apply New. lia. }
      { intros k v L. rewrite <- app_assoc. apply Lf. exact L. }
      specialize (New i _ _ ltac:(lia) En).
      exists ((base + N.of_nat i)%N :: fpl ++ fpr). split.
      + eapply sden_bin; eauto; simpl; rewrite New; reflexivity.
      + replace (S i - s) with ((m - s) + (i - m) + 1) by lia.
        rewrite !seq_app, !map_app. replace (s + (m - s + (i - m))) with i by lia.
        replace (s + (m - s)) with m by lia. simpl map. perm.
    - pose proof (rden_le _ _ _ _ _ _ _ _ _ Rc).
      destruct IHc as (fpc & Sc & Pc); auto.
      { intros j h pn Hj. apply New. lia. }
      { intros k v L. rewrite <- app_assoc. apply Lf. now rewrite alookup_edge_app. }
      specialize (New i _ _ ltac:(lia) En).
      exists ((base + N.of_nat i)%N :: fpc). split.
      + eapply sden_edge; eauto; simpl; rewrite New; reflexivity.
      + replace (S i - s) with ((i - s) + 1) by lia.
        rewrite !seq_app, !map_app. replace (s + (i - s)) with i by lia. simpl map.
        change ((base + N.of_nat i)%N :: fpc) with ([(base + N.of_nat i)%N] ++ fpc). perm.
    - specialize (New i _ _ ltac:(lia) En).
      exists [(base + N.of_nat i)%N]. split.
      + simpl map_ref. eapply sden_leafbin; simpl; try rewrite New; try reflexivity.
        * apply Lf. reflexivity.
        * apply Lf. reflexivity.
      + replace (S i - i) with 1 by lia. reflexivity.
    - specialize (New i _ _ ltac:(lia) En).
      exists [(base + N.of_nat i)%N]. split.
      + simpl map_ref. eapply sden_leafedge; simpl; try rewrite New; try reflexivity.
        apply Lf. apply alookup_edge_leaf.
      + replace (S i - i) with 1 by lia. reflexivity.
  Qed.

  (** [insert_trie] of an update with new nodes. *)
  Lemma insert_trie_ok tb leaf leaf' u a keep :
    rden H (table_storage tb leaf) (u_added u) [] (RNew (length (u_added u) - 1)) a
         0 (length (u_added u)) keep ->
    u_added u <> [] ->
    (forall k v, alookup a k = Some v -> leaf' k = Some v) ->
    exists more root fp,
      insert_trie tb u = Ok (tb ++ more, RUpdated root) /\
      sden H (table_storage (tb ++ more) leaf') [] root a fp /\
      Permutation fp (keep ++ map fst more) /\
      NoDup (map fst more) /\
      (forall i, In i (map fst more) -> al_get N.eqb i tb = None).
  Proof.
    intros R NE Lf. unfold insert_trie. remember (u_added u) as added eqn:Ea.
    destruct added as [|e0 added0]; [congruence|]. rewrite Ea in *. clear Ea e0 added0.
    set (added := u_added u) in *.
    rewrite (collect_root _ _ _ _ _ _ _ _ R). cbn [obind]. rewrite rev_involutive.
    destruct (insert_nodes_ok added (next_idx tb) (length added) 0 tb [])
      as (more & indices & E & Hi & Hb & Hg & Hm).
    - intros i Hi. eapply rden_refs; eauto.
    - intros; lia.
    - lia.
    - rewrite E. cbn [obind].
      assert (Ln : 0 < length added) by (destruct added; [congruence|simpl; lia]).
      rewrite (Hi (length added - 1) ltac:(lia)). cbn [or_panic obind].
      destruct (rden_stored_after tb (tb ++ more) leaf leaf' added (next_idx tb) _ _ _ _ _ _ R)
        as (fp & S & Pm); auto.
      { intros. now apply al_get_app_some. }
      rewrite Nat.sub_0_r, <- Hm in Pm.
      exists more, (next_idx tb + N.of_nat (length added - 1))%N, fp.
      repeat match goal with |- _ /\ _ => split end; auto.
      + rewrite Hm. apply FinFun.Injective_map_NoDup; [|apply seq_NoDup].
        intros x y. lia.
      + intros i Hin. rewrite Hm in Hin. apply in_map_iff in Hin. destruct Hin as (j & <- & _).
        apply al_get_none_ge. lia.
  Qed.

  (** ** Proofs of membership *)

End Reload.
