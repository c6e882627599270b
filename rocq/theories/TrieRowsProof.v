(** Lemmas about rows with block numbers. *)
From Coq Require Import List Bool Arith NArith Lia.
From Coq Require Import ZifyBool ZifyNat ZifyN.
From Verif Require Import AList MerkleModel TrieDbModel.
Import ListNotations.

Section Rows.
  Context {A : Type}.
  Implicit Types r : rows A.

  Lemma latest_none b r : latest b r = None <-> (forall e, In e r -> b < fst e).
  Proof.
    induction r as [|[n x] r IH]; simpl.
    - split; [intros _ e []|auto].
    - destruct (latest b r) as [[n' x']|] eqn:E.
      + split.
        * destruct ((n <=? b) && (n' <=? n)); discriminate.
        * intros F. assert (X : Some (n', x') = None) by (apply IH; auto). discriminate.
      + destruct (Nat.leb_spec n b).
        * split; [discriminate|]. intros F. specialize (F (n, x) (or_introl eq_refl)). simpl in F. lia.
        * split; [|auto]. intros _ e [<-|He]; [auto|]. now apply IH.
  Qed.

  (** The newest row, the first one among equals. *)
  Definition newest b r n (x : A) : Prop :=
    exists r1 r2, r = r1 ++ (n, x) :: r2 /\ n <= b /\
      (forall e, In e r1 -> fst e <= b -> fst e < n) /\
      (forall e, In e r2 -> fst e <= b -> fst e <= n).

  Lemma latest_newest b r n x : latest b r = Some (n, x) -> newest b r n x.
  Proof.
    revert n x. induction r as [|[n0 x0] r IH]; intros n x; simpl; [discriminate|].
    destruct (latest b r) as [[n' x']|] eqn:E.
    - destruct (IH _ _ eq_refl) as (r1 & r2 & -> & L & M1 & M2).
      destruct (Nat.leb_spec n0 b); destruct (Nat.leb_spec n' n0); cbn [andb]; intros [= <- <-].
      + exists [], (r1 ++ (n', x') :: r2). split; [reflexivity|]. split; [auto|].
        split; [intros e []|]. intros e He Le. apply in_app_or in He.
        destruct He as [He|[<-|He]]; simpl; [specialize (M1 _ He Le)| |specialize (M2 _ He Le)]; lia.
      + exists ((n0, x0) :: r1), r2. split; [reflexivity|]. split; [auto|].
        split; [|auto]. intros e [<-|He] Le; simpl in *; auto.
      + exists ((n0, x0) :: r1), r2. split; [reflexivity|]. split; [auto|].
        split; [|auto]. intros e [<-|He] Le; simpl in *; auto; lia.
      + exists ((n0, x0) :: r1), r2. split; [reflexivity|]. split; [auto|].
        split; [|auto]. intros e [<-|He] Le; simpl in *; auto.
    - destruct (Nat.leb_spec n0 b); [|discriminate]. intros [= <- <-].
      exists [], r. split; [reflexivity|]. split; [auto|]. split; [intros e []|].
      intros e He Le. pose proof (proj1 (latest_none b r) E e He). lia.
  Qed.

  Lemma newest_latest b r n x : newest b r n x -> latest b r = Some (n, x).
  Proof.
    intros (r1 & r2 & -> & L & M1 & M2). induction r1 as [|[n0 x0] r1 IH]; simpl.
    - destruct (latest b r2) as [[n' x']|] eqn:E.
      + apply latest_newest in E. destruct E as (s1 & s2 & -> & L' & _ & _).
        specialize (M2 (n', x')). rewrite in_app_iff in M2. simpl in M2.
        specialize (M2 (or_intror (or_introl eq_refl)) L').
        destruct (Nat.leb_spec n b), (Nat.leb_spec n' n); try lia. reflexivity.
      + destruct (Nat.leb_spec n b); [reflexivity|lia].
    - rewrite IH by (intros; apply M1; simpl; auto).
      destruct (Nat.leb_spec n0 b); [|reflexivity].
      specialize (M1 (n0, x0) (or_introl eq_refl) H). simpl in M1.
      destruct (Nat.leb_spec n n0); [lia|reflexivity].
  Qed.

  Lemma latest_some b r n x :
    latest b r = Some (n, x) ->
    In (n, x) r /\ n <= b /\ forall e, In e r -> fst e <= b -> fst e <= n.
  Proof.
    intros E. apply latest_newest in E. destruct E as (r1 & r2 & -> & L & M1 & M2).
    split; [apply in_or_app; simpl; auto|]. split; [auto|].
    intros e He Le. apply in_app_or in He.
    destruct He as [He|[<-|He]]; simpl; [specialize (M1 _ He Le)| |specialize (M2 _ He Le)]; lia.
  Qed.

  Lemma latest_filter (P : nat * A -> bool) b r :
    (forall e, In e r -> P e = false -> fst e <= b ->
       match latest b r with Some (n, _) => fst e < n | None => True end) ->
    latest b (filter P r) = latest b r.
  Proof.
    intros F. destruct (latest b r) as [[n x]|] eqn:E.
    - apply latest_newest in E. apply newest_latest.
      destruct E as (r1 & r2 & -> & L & M1 & M2).
      exists (filter P r1), (filter P r2). rewrite filter_app. simpl.
      destruct (P (n, x)) eqn:Pn.
      + split; [reflexivity|]. split; [auto|].
        split; intros e He Le; apply filter_In in He; destruct He; auto.
      + exfalso. specialize (F (n, x)). rewrite in_app_iff in F. simpl in F.
        specialize (F (or_intror (or_introl eq_refl)) Pn L). lia.
    - apply latest_none. intros e He. apply filter_In in He. destruct He as [He _].
      now apply (proj1 (latest_none b r) E).
  Qed.

  Lemma latest_insert_eq n (x : A) r : latest n (insert_or_replace n x r) = Some (n, x).
  Proof.
    apply newest_latest. exists [], (filter (fun e => negb (fst e =? n)) r).
    split; [reflexivity|]. split; [auto|]. split; [intros e []|auto].
  Qed.

  Lemma latest_insert_lt b n (x : A) r : b < n -> latest b (insert_or_replace n x r) = latest b r.
  Proof.
    intros L. unfold insert_or_replace. cbn [latest].
    replace (n <=? b) with false by (symmetry; apply Nat.leb_gt; lia). cbn [andb].
    rewrite latest_filter.
    - destruct (latest b r) as [[]|]; reflexivity.
    - intros e He Pe Le. destruct (Nat.eqb_spec (fst e) n); [lia|discriminate].
  Qed.

  Lemma latest_delete_before b m r : m <= b -> latest b (delete_before m r) = latest b r.
  Proof.
    intros L. unfold delete_before. destruct (latest m r) as [[n x]|] eqn:E; [|reflexivity].
    apply latest_some in E. destruct E as (I & Ln & M).
    apply latest_filter. intros e He Pe Le. apply Nat.leb_gt in Pe.
    destruct (latest b r) as [[n' x']|] eqn:E'; [|auto].
    apply latest_some in E'. destruct E' as (_ & _ & M'). specialize (M' _ I). simpl in M'. lia.
  Qed.

  Lemma latest_purge_above b t r : b <= t -> latest b (purge_above t r) = latest b r.
  Proof.
    intros L. apply latest_filter. intros e He Pe Le. apply Nat.leb_gt in Pe. lia.
  Qed.

  Lemma latest_gap t b r :
    t <= b -> (forall e, In e r -> t < fst e -> b < fst e) -> latest t r = latest b r.
  Proof.
    intros L G. destruct (latest b r) as [[n x]|] eqn:E.
    - apply latest_newest in E. apply newest_latest.
      destruct E as (r1 & r2 & -> & Ln & M1 & M2). exists r1, r2.
      split; [reflexivity|].
      assert (n <= t).
      { destruct (le_lt_dec n t); auto. exfalso.
        specialize (G (n, x)). rewrite in_app_iff in G. simpl in G. specialize (G (or_intror (or_introl eq_refl)) l). lia. }
      split; [auto|]. split; intros e He Le; [apply M1|apply M2]; auto; lia.
    - apply latest_none. intros e He. pose proof (proj1 (latest_none b r) E e He). lia.
  Qed.

  Lemma in_delete_before m r e : In e (delete_before m r) -> In e r.
  Proof.
    unfold delete_before. destruct (latest m r) as [[]|]; auto. intros He.
    apply filter_In in He. tauto.
  Qed.

  Lemma in_insert_or_replace n (x : A) r e : In e (insert_or_replace n x r) -> e = (n, x) \/ In e r.
  Proof. intros [<-|He]; auto. apply filter_In in He. tauto. Qed.

  Lemma in_purge_above t r e : In e (purge_above t r) -> In e r /\ fst e <= t.
  Proof. intros He. apply filter_In in He. destruct He as [He L]. apply Nat.leb_le in L. auto. Qed.
End Rows.

Lemma mem_idx_In i l : mem_idx i l = true <-> In i l.
Proof.
  unfold mem_idx. rewrite existsb_exists. split.
  - intros (x & Hx & E). apply N.eqb_eq in E. now subst.
  - intros Hi. exists i. split; auto. apply N.eqb_refl.
Qed.

Lemma al_get_filter_dead (tb : table) dead i :
  ~ In i dead -> al_get N.eqb i (filter (fun row => negb (mem_idx (fst row) dead)) tb) = al_get N.eqb i tb.
Proof.
  intros Hi. unfold al_get. induction tb as [|[j y] tb IH]; simpl; auto.
  destruct (N.eqb_spec i j) as [<-|Nij].
  - destruct (mem_idx i dead) eqn:E; [apply mem_idx_In in E; tauto|]. simpl.
    rewrite N.eqb_refl. reflexivity.
  - destruct (mem_idx j dead); simpl; auto. destruct (N.eqb_spec i j); [congruence|auto].
Qed.
