(** Proofs about the Merkle tree model: a loaded tree always denotes a
    canonical abstract trie. *)
From Coq Require Import List Bool Arith NArith Lia Permutation.
From Coq Require Import ZifyBool ZifyNat ZifyN.
From Verif Require Import AList ListLib MerkleModel MerkleSpec.
Import ListNotations.

(* ------------------------------------------------------------------ *)
(** * Bits *)

Lemma bits_eqb_spec : forall p q, reflect (p = q) (bits_eqb p q).
Proof.
  induction p as [|a p IH]; destruct q as [|b q]; simpl; try (constructor; congruence).
  destruct (Bool.eqb_spec a b); simpl.
  - destruct (IH q); constructor; congruence.
  - constructor; congruence.
Qed.

Lemma bits_eqb_refl : forall p, bits_eqb p p = true.
Proof. intros p. destruct (bits_eqb_spec p p); congruence. Qed.

Lemma firstn_app_len {A} (a b : list A) : firstn (length a) (a ++ b) = a.
Proof. now apply firstn_exact. Qed.

Lemma skipn_app_len {A} (a b : list A) : skipn (length a) (a ++ b) = b.
Proof. now apply skipn_exact. Qed.

Lemma common_prefix : forall p q, exists p' q',
  p = common p q ++ p' /\ q = common p q ++ q' /\
  (match p', q' with a :: _, b :: _ => a <> b | _, _ => True end).
Proof.
  induction p as [|a p IH]; intros q.
  - exists [], q. simpl. auto.
  - destruct q as [|b q].
    + exists (a :: p), []. simpl. auto.
    + simpl. destruct (Bool.eqb_spec a b).
      * subst. destruct (IH q) as (p' & q' & E1 & E2 & D).
        exists p', q'. simpl. split; [congruence|]. split; [congruence|]. exact D.
      * exists (a :: p), (b :: q). simpl. auto.
Qed.

(* ------------------------------------------------------------------ *)
(** * Abstract tries *)

Inductive atree : Type :=
| ALeaf (v : felt)
| ABin (l r : atree)
| AEdge (p : bits) (c : atree).

Definition is_edge (a : atree) : bool :=
  match a with AEdge _ _ => true | _ => false end.

Inductive wfa : nat -> atree -> Prop :=
| wfa_leaf v : v <> 0%N -> wfa 0 (ALeaf v)
| wfa_bin n l r : wfa n l -> wfa n r -> wfa (S n) (ABin l r)
| wfa_edge n p c : p <> [] -> wfa n c -> is_edge c = false -> wfa (length p + n) (AEdge p c).

Fixpoint alookup (a : atree) (k : bits) : option felt :=
  match a with
  | ALeaf v => match k with [] => Some v | _ => None end
  | ABin l r => match k with
                | [] => None
                | false :: k' => alookup l k'
                | true :: k' => alookup r k'
                end
  | AEdge p c => if bits_eqb p (firstn (length p) k)
                 then alookup c (skipn (length p) k) else None
  end.

Definition acontent (a : atree) (k : bits) : felt :=
  match alookup a k with Some v => v | None => 0%N end.

Lemma alookup_edge_app p c k : alookup (AEdge p c) (p ++ k) = alookup c k.
Proof.
  simpl. rewrite firstn_app_len, skipn_app_len. now rewrite bits_eqb_refl.
Qed.

Lemma alookup_edge_none p c k :
  (forall k', k <> p ++ k') -> alookup (AEdge p c) k = None.
Proof.
  intros N. simpl. destruct (bits_eqb_spec p (firstn (length p) k)) as [E|E]; auto.
  exfalso. apply (N (skipn (length p) k)).
  rewrite E at 1. now rewrite firstn_skipn.
Qed.

Lemma alookup_edge_inv p c k v :
  alookup (AEdge p c) k = Some v -> exists k', k = p ++ k' /\ alookup c k' = Some v.
Proof.
  simpl. destruct (bits_eqb_spec p (firstn (length p) k)) as [E|E]; [|discriminate].
  intros L. exists (skipn (length p) k). split; auto.
  rewrite E at 1. now rewrite firstn_skipn.
Qed.

Lemma alookup_length n a k v : wfa n a -> alookup a k = Some v -> length k = n.
Proof.
  intros W. revert k v. induction W as [v0 Hv|n l r Wl IHl Wr IHr|n p c Hp Wc IHc He]; intros k v L.
  - simpl in L. destruct k; [reflexivity|discriminate].
  - simpl in L. destruct k as [|[] k]; [discriminate| |]; simpl; f_equal; eauto.
  - apply alookup_edge_inv in L. destruct L as (k' & -> & L).
    rewrite app_length. f_equal. eauto.
Qed.

Lemma alookup_nonzero n a k v : wfa n a -> alookup a k = Some v -> v <> 0%N.
Proof.
  intros W. revert k v. induction W as [v0 Hv|n l r Wl IHl Wr IHr|n p c Hp Wc IHc He]; intros k v L.
  - simpl in L. destruct k; congruence.
  - simpl in L. destruct k as [|[] k]; [discriminate| |]; eauto.
  - apply alookup_edge_inv in L. destruct L as (k' & -> & L). eauto.
Qed.

Lemma wfa_nonempty n a : wfa n a -> exists k v, alookup a k = Some v.
Proof.
  induction 1 as [v0 Hv|n l r Wl IHl Wr IHr|n p c Hp Wc IHc He].
  - exists [], v0. reflexivity.
  - destruct IHl as (k & v & E). exists (false :: k), v. exact E.
  - destruct IHc as (k & v & E). exists (p ++ k), v. now rewrite alookup_edge_app.
Qed.

Lemma wfa_zero n a : wfa n a -> n = 0 -> exists v, a = ALeaf v.
Proof.
  intros W E. destruct W as [v|n l r|n p c Hp]; eauto; try discriminate.
  destruct p; simpl in E; [congruence|discriminate].
Qed.

Lemma wfa_edge_inv n p c :
  wfa n (AEdge p c) -> exists n', n = length p + n' /\ p <> [] /\ wfa n' c /\ is_edge c = false.
Proof. inversion 1; subst; eauto 6. Qed.

Lemma wfa_bin_inv n l r :
  wfa n (ABin l r) -> exists n', n = S n' /\ wfa n' l /\ wfa n' r.
Proof. inversion 1; subst; eauto. Qed.

Lemma wfa_leaf_inv n v : wfa n (ALeaf v) -> n = 0 /\ v <> 0%N.
Proof. inversion 1; subst; auto. Qed.

(** Edges may be prolonged. *)
Lemma wfa_edge_app n p q c :
  wfa n (AEdge q c) -> wfa (length p + n) (AEdge (p ++ q) c).
Proof.
  intros W. apply wfa_edge_inv in W. destruct W as (n' & -> & Hq & Wc & He).
  replace (length p + (length q + n')) with (length (p ++ q) + n')
    by (rewrite app_length; lia).
  constructor; auto. destruct p; simpl; congruence.
Qed.

Lemma alookup_edge_edge p q c k : alookup (AEdge (p ++ q) c) k = alookup (AEdge p (AEdge q c)) k.
Proof.
  destruct (alookup (AEdge (p ++ q) c) k) eqn:E.
  - apply alookup_edge_inv in E. destruct E as (k' & -> & L).
    rewrite <- app_assoc, !alookup_edge_app. auto.
  - destruct (alookup (AEdge p (AEdge q c)) k) eqn:E2; auto.
    apply alookup_edge_inv in E2. destruct E2 as (k' & -> & L).
    apply alookup_edge_inv in L. destruct L as (k2 & -> & L).
    rewrite app_assoc, alookup_edge_app in E. congruence.
Qed.

(* ------------------------------------------------------------------ *)
(** * Contexts *)

Inductive aframe : Type :=
| AFBin (dir : bool) (sib : atree)
| AFEdge (p : bits).

Definition aplug1 (f : aframe) (a : atree) : atree :=
  match f with
  | AFBin false s => ABin a s
  | AFBin true s => ABin s a
  | AFEdge p => AEdge p a
  end.

Definition aplug (fs : list aframe) (a : atree) : atree :=
  fold_left (fun acc f => aplug1 f acc) fs a.

Definition fpath (f : aframe) : bits :=
  match f with AFBin d _ => [d] | AFEdge p => p end.

(** The path from the root to the hole. *)
Fixpoint apath (fs : list aframe) : bits :=
  match fs with
  | [] => []
  | f :: fs' => apath fs' ++ fpath f
  end.

Definition hd_edge (fs : list aframe) : bool :=
  match fs with AFEdge _ :: _ => true | _ => false end.

Inductive wfctx (N : nat) : list aframe -> nat -> Prop :=
| wfctx_nil : wfctx N [] N
| wfctx_bin fs n d s : wfctx N fs (S n) -> wfa n s -> wfctx N (AFBin d s :: fs) n
| wfctx_edge fs n p : wfctx N fs (length p + n) -> p <> [] -> hd_edge fs = false ->
                      wfctx N (AFEdge p :: fs) n.

Lemma wfctx_length N fs n : wfctx N fs n -> length (apath fs) + n = N.
Proof.
  induction 1; simpl; try rewrite app_length; simpl; lia.
Qed.

Lemma wfa_aplug N fs n a :
  wfctx N fs n -> wfa n a -> (hd_edge fs = true -> is_edge a = false) -> wfa N (aplug fs a).
Proof.
  intros C. revert a. induction C as [|fs n d s C IH Ws|fs n p C IH Hp Hh]; intros a W E.
  - exact W.
  - apply IH.
    + destruct d; simpl; constructor; auto.
    + intros _. destruct d; reflexivity.
  - apply IH.
    + simpl. constructor; auto.
    + intros X. congruence.
Qed.

Lemma alookup_aplug fs a k : alookup (aplug fs a) (apath fs ++ k) = alookup a k.
Proof.
  revert a k. induction fs as [|f fs IH]; intros a k; [reflexivity|].
  simpl apath. rewrite <- app_assoc. change (aplug (f :: fs) a) with (aplug fs (aplug1 f a)).
  rewrite IH. destruct f as [[]|p]; simpl fpath; try reflexivity.
  apply alookup_edge_app.
Qed.

Lemma alookup_aplug_other fs a a' k :
  (forall k', k <> apath fs ++ k') -> alookup (aplug fs a) k = alookup (aplug fs a') k.
Proof.
  revert a a' k. induction fs as [|f fs IH]; intros a a' k N.
  - exfalso. apply (N k). reflexivity.
  - simpl aplug.
    destruct (le_lt_dec (length (apath fs)) (length k)) as [Hl|Hl].
    + destruct (bits_eqb_spec (apath fs) (firstn (length (apath fs)) k)) as [E|E].
      * remember (skipn (length (apath fs)) k) as k2 eqn:E2.
        assert (Hk : k = apath fs ++ k2) by (rewrite E, E2 at 1; rewrite firstn_skipn; auto).
        rewrite Hk, !alookup_aplug.
        assert (N2 : forall k', k2 <> fpath f ++ k').
        { intros k' X. apply (N k'). simpl. rewrite <- app_assoc, <- X. exact Hk. }
        destruct f as [[]|p]; simpl fpath in N2.
        -- destruct k2 as [|[] k2]; simpl; auto. exfalso. now apply (N2 k2).
        -- destruct k2 as [|[] k2]; simpl; auto. exfalso. now apply (N2 k2).
        -- simpl aplug1. rewrite !alookup_edge_none; auto.
      * apply IH. intros k' X. apply E. rewrite X, firstn_app_len. reflexivity.
    + apply IH. intros k' X. rewrite X, app_length in Hl. lia.
Qed.

(** Replacing what is in the hole by something that has one key different. *)
Lemma acontent_aplug_upd N fs n a a' kk v :
  wfctx N fs n -> length kk = n ->
  (forall k', length k' = n -> acontent a' k' = put (acontent a) kk v k') ->
  forall k, length k = N ->
  acontent (aplug fs a') k = put (acontent (aplug fs a)) (apath fs ++ kk) v k.
Proof.
  intros C Hkk Ha k Hk. pose proof (wfctx_length _ _ _ C) as HL.
  unfold put.
  destruct (bits_eqb_spec (apath fs) (firstn (length (apath fs)) k)) as [E|E].
  - assert (Hk2 : k = apath fs ++ skipn (length (apath fs)) k).
    { rewrite E at 1. now rewrite firstn_skipn. }
    remember (skipn (length (apath fs)) k) as k2 eqn:E2. clear E E2.
    subst k. rewrite app_length in Hk.
    unfold acontent at 1 2. rewrite !alookup_aplug.
    specialize (Ha k2 ltac:(lia)). unfold acontent at 1 in Ha. rewrite Ha.
    unfold put. destruct (bits_eqb_spec k2 kk); destruct (bits_eqb_spec (apath fs ++ k2) (apath fs ++ kk)); auto.
    + subst. congruence.
    + exfalso. apply n0. now apply app_inv_head in e.
  - assert (NN : forall k', k <> apath fs ++ k').
    { intros k' ->. apply E. now rewrite firstn_app_len. }
    destruct (bits_eqb_spec k (apath fs ++ kk)) as [E2|E2]; [exfalso; now apply (NN kk)|].
    unfold acontent. now rewrite (alookup_aplug_other fs a' a k NN).
Qed.

(* ------------------------------------------------------------------ *)
(** * The root hash *)

Section Hash.
  Variable H : felt -> felt -> felt.

  Fixpoint ahash (a : atree) : felt :=
    match a with
    | ALeaf v => v
    | ABin l r => H (ahash l) (ahash r)
    | AEdge p c => fadd (H (ahash c) (bits_val p)) (N.of_nat (length p))
    end.

  Definition asum (a : atree) : bits * felt :=
    match a with
    | AEdge p c => (p, ahash c)
    | _ => ([], ahash a)
    end.

  Lemma top_asum n a : wfa n a -> top H (asum a) = ahash a.
  Proof.
    destruct 1; simpl; auto. unfold top. simpl. destruct p; [congruence|reflexivity].
  Qed.

  Lemma summary_ext n (m m' : contents) :
    (forall k, length k = n -> m k = m' k) -> summary H n m = summary H n m'.
  Proof.
    revert m m'. induction n as [|n IH]; intros m m' E.
    - simpl. now rewrite (E []).
    - simpl. rewrite (IH (fun k : bits => m (false :: k)) (fun k : bits => m' (false :: k))), (IH (fun k : bits => m (true :: k)) (fun k : bits => m' (true :: k)));
        auto; intros k Hk; apply E; simpl; lia.
  Qed.

  Lemma summary_none n (m : contents) :
    (forall k, length k = n -> m k = 0%N) -> summary H n m = None.
  Proof.
    revert m. induction n as [|n IH]; intros m E; simpl.
    - now rewrite (E []).
    - rewrite (IH (fun k : bits => m (false :: k))), (IH (fun k : bits => m (true :: k))); auto;
        intros k Hk; apply E; simpl; lia.
  Qed.

  (** An edge with one bit taken off. *)
  Definition etail (p : bits) (c : atree) : atree :=
    match p with [] => c | _ => AEdge p c end.

  Lemma asum_etail p c : is_edge c = false -> asum (etail p c) = (p, ahash c).
  Proof. destruct p, c; simpl; intros; try reflexivity; discriminate. Qed.

  Lemma summary_wfa n a (m : contents) :
    wfa n a -> (forall k, length k = n -> m k = acontent a k) -> summary H n m = Some (asum a).
  Proof.
    intros W. revert m. induction W as [v Hv|n l r Wl IHl Wr IHr|n p c Hp Wc IHc He]; intros m E.
    - simpl. rewrite (E [] eq_refl). unfold acontent. simpl.
      destruct (N.eqb_spec v 0); [congruence|reflexivity].
    - simpl. rewrite (IHl (fun k : bits => m (false :: k))), (IHr (fun k : bits => m (true :: k))).
      + pose proof (top_asum _ _ Wl) as Tl. pose proof (top_asum _ _ Wr) as Tr.
        destruct (asum l) as [pl bl], (asum r) as [pr br]. now rewrite Tl, Tr.
      + intros k Hk. rewrite E by (simpl; lia). reflexivity.
      + intros k Hk. rewrite E by (simpl; lia). reflexivity.
    - simpl asum. clear Hp. revert m E. induction p as [|b p IHp]; intros m E.
      + simpl. simpl in E. rewrite (IHc m).
        * destruct c; simpl in *; try reflexivity; discriminate.
        * intros k Hk. rewrite E; auto.
      + simpl length. simpl plus.
        assert (Ein : forall k, length k = length p + n -> m (b :: k) = acontent (AEdge p c) k).
        { intros k Hk. rewrite E by (simpl; lia). unfold acontent.
          simpl. rewrite eqb_reflx. reflexivity. }
        assert (Eout : forall k, length k = length p + n -> m (negb b :: k) = 0%N).
        { intros k Hk. rewrite E by (simpl; lia). unfold acontent.
          simpl. destruct b; reflexivity. }
        simpl summary. destruct b.
        * rewrite (summary_none _ (fun k : bits => m (false :: k)) Eout).
          rewrite (IHp (fun k : bits => m (true :: k)) Ein). reflexivity.
        * rewrite (summary_none _ (fun k : bits => m (true :: k)) Eout).
          rewrite (IHp (fun k : bits => m (false :: k)) Ein). reflexivity.
  Qed.

  Lemma spec_root_wfa n a (m : contents) :
    wfa n a -> (forall k, length k = n -> m k = acontent a k) -> spec_root H n m = ahash a.
  Proof.
    intros W E. unfold spec_root. rewrite (summary_wfa n a m W E). now rewrite (top_asum n a W).
  Qed.

  Lemma spec_root_empty n (m : contents) :
    (forall k, length k = n -> m k = 0%N) -> spec_root H n m = 0%N.
  Proof. intros E. unfold spec_root. now rewrite summary_none. Qed.

  (** Every contents is that of some abstract trie. *)
  Lemma atree_of_contents n (m : contents) :
    (forall k, length k = n -> m k = 0%N) \/
    exists a, wfa n a /\ forall k, length k = n -> m k = acontent a k.
  Proof.
    revert m. induction n as [|n IH]; intros m.
    - destruct (N.eq_dec (m []) 0) as [E|E].
      + left. intros k Hk. destruct k; [auto|discriminate].
      + right. exists (ALeaf (m [])). split; [constructor; auto|].
        intros k Hk. destruct k; [reflexivity|discriminate].
    - assert (Sib : forall b a, (forall k, length k = n -> m (negb b :: k) = 0%N) ->
                wfa n a -> (forall k, length k = n -> m (b :: k) = acontent a k) ->
                exists a', wfa (S n) a' /\ forall k, length k = S n -> m k = acontent a' k).
      { intros b a Z W E.
        assert (Ex : exists q c, wfa (S n) (AEdge (b :: q) c) /\
                       forall k, alookup (AEdge (b :: q) c) (b :: k) = alookup a k).
        { destruct (is_edge a) eqn:Ea.
          - destruct a as [| |q c]; try discriminate.
            exists q, c. split; [apply (wfa_edge_app n [b] q c W)|].
            intros k. change (b :: q) with ([b] ++ q). rewrite alookup_edge_edge.
            change (b :: k) with ([b] ++ k). apply alookup_edge_app.
          - exists [], a. split.
            + change (S n) with (length [b] + n). constructor; auto. discriminate.
            + intros k. change (b :: k) with ([b] ++ k). apply alookup_edge_app. }
        destruct Ex as (q & c & W' & L). exists (AEdge (b :: q) c). split; auto.
        intros k Hk. destruct k as [|b' k]; [discriminate|]. simpl in Hk.
        destruct (Bool.bool_dec b b') as [->|Nb].
        - unfold acontent. rewrite L. apply E. lia.
        - replace b' with (negb b) by (destruct b, b'; simpl; congruence).
          rewrite Z by lia. unfold acontent. simpl. destruct b; reflexivity. }
      destruct (IH (fun k : bits => m (false :: k))) as [Zl|(al & Wl & El)];
      destruct (IH (fun k : bits => m (true :: k))) as [Zr|(ar & Wr & Er)].
      + left. intros k Hk. destruct k as [|[] k]; [discriminate| |]; simpl in Hk.
        * apply Zr; lia.
        * apply Zl; lia.
      + right. apply (Sib true ar); auto.
      + right. apply (Sib false al); auto.
      + right. exists (ABin al ar). split; [constructor; auto|].
        intros k Hk. destruct k as [|[] k]; [discriminate| |]; simpl in Hk; unfold acontent; simpl.
        * apply Er; lia.
        * apply El; lia.
  Qed.
End Hash.
