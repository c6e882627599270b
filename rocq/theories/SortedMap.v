(* BTreeMap / BTreeSet of the standard library as sorted association lists.
   Pure library file: nothing in here models /repo code. *)
From Coq Require Import List Bool NArith Lia ZifyBool ZifyN.
From Verif Require Import AList.
Import ListNotations.

Section SortedMap.
  Context {K V : Type}.
  Variable ltb : K -> K -> bool.
  Variable eqb : K -> K -> bool.

  (* insert: replaces the value of an equal key *)
  Fixpoint bt_insert (k : K) (v : V) (m : list (K * V)) : list (K * V) :=
    match m with
    | [] => [(k, v)]
    | (k', v') :: m' =>
        if ltb k k' then (k, v) :: m
        else if ltb k' k then (k', v') :: bt_insert k v m'
        else (k, v) :: m'
    end.

  (* collect: later entries replace earlier ones *)
  Definition bt_collect (l : list (K * V)) : list (K * V) :=
    fold_left (fun m kv => bt_insert (fst kv) (snd kv) m) l [].

  Hypothesis eqb_spec : forall a b, reflect (a = b) (eqb a b).
  Hypothesis ltb_irrefl : forall a, ltb a a = false.
  Hypothesis ltb_trans : forall a b c, ltb a b = true -> ltb b c = true -> ltb a c = true.
  Hypothesis ltb_total : forall a b, ltb a b = false -> ltb b a = false -> a = b.

  Fixpoint bt_sorted (m : list (K * V)) : Prop :=
    match m with
    | [] => True
    | (k, _) :: m' => Forall (fun kv => ltb k (fst kv) = true) m' /\ bt_sorted m'
    end.

  Lemma bt_insert_keys k v m x : In x (bt_insert k v m) -> x = (k, v) \/ In x m.
  Proof.
    induction m as [|[k' v'] m IH]; simpl; [intuition congruence|].
    destruct (ltb k k'); simpl; [intuition congruence|].
    destruct (ltb k' k); simpl; intuition congruence.
  Qed.

  Lemma bt_insert_sorted k v m : bt_sorted m -> bt_sorted (bt_insert k v m).
  Proof.
    induction m as [|[k' v'] m IH]; intros SM; simpl; [repeat constructor|].
    destruct SM as [F SM]. destruct (ltb k k') eqn:E1.
    - split; [|split; auto]. constructor; auto. eapply Forall_impl; [|exact F].
      intros x X. eapply ltb_trans; eauto.
    - destruct (ltb k' k) eqn:E2.
      + split; [|auto]. apply Forall_forall. intros x I. apply bt_insert_keys in I.
        destruct I as [->|I]; [exact E2|]. rewrite Forall_forall in F. auto.
      + rewrite (ltb_total _ _ E1 E2) in *. split; auto.
  Qed.

  Lemma bt_get_lt (m : list (K * V)) k : Forall (fun kv => ltb k (fst kv) = true) m -> al_get eqb k m = None.
  Proof.
    intros F. apply (al_not_in_get_none _ eqb_spec). intros I. apply in_map_iff in I.
    destruct I as (x & <- & I). rewrite Forall_forall in F.
    specialize (F _ I). rewrite ltb_irrefl in F. discriminate.
  Qed.

  Lemma bt_get_cons k k' v' (m : list (K * V)) :
    al_get eqb k ((k', v') :: m) = if eqb k k' then Some v' else al_get eqb k m.
  Proof. reflexivity. Qed.

  Lemma bt_get_insert k v (m : list (K * V)) x :
    al_get eqb x (bt_insert k v m) = if eqb x k then Some v else al_get eqb x m.
  Proof.
    induction m as [|[k' v'] m IH]; cbn [bt_insert]; [reflexivity|].
    destruct (ltb k k') eqn:E1; [reflexivity|]. destruct (ltb k' k) eqn:E2.
    - rewrite !bt_get_cons, IH. destruct (eqb_spec x k') as [->|]; auto.
      destruct (eqb_spec k' k) as [->|]; auto. rewrite ltb_irrefl in E2. discriminate.
    - pose proof (ltb_total _ _ E1 E2) as ->. rewrite !bt_get_cons.
      destruct (eqb x k'); reflexivity.
  Qed.

  Lemma bt_collect_sorted l : bt_sorted (bt_collect l).
  Proof.
    unfold bt_collect. assert (G : forall m, bt_sorted m ->
      bt_sorted (fold_left (fun m kv => bt_insert (fst kv) (snd kv) m) l m)).
    { induction l as [|x l IH]; intros m SM; simpl; auto. apply IH, bt_insert_sorted, SM. }
    apply G. exact I.
  Qed.

  Lemma bt_get_collect (l : list (K * V)) x : al_get eqb x (bt_collect l) = al_get eqb x (rev l).
  Proof.
    induction l as [|[k v] l IH] using rev_ind; [reflexivity|].
    unfold bt_collect in *. rewrite fold_left_app, rev_app_distr. cbn [fold_left fst snd rev app].
    rewrite bt_get_insert, bt_get_cons, IH. reflexivity.
  Qed.

  Lemma bt_get_collect_nodup (l : list (K * V)) x : NoDup (map fst l) ->
    al_get eqb x (bt_collect l) = al_get eqb x l.
  Proof.
    intros ND. rewrite bt_get_collect.
    assert (NR : NoDup (map fst (rev l))) by (rewrite map_rev; apply NoDup_rev, ND).
    destruct (al_get eqb x l) as [v|] eqn:E.
    - apply (al_in_get _ eqb_spec); auto. rewrite <- in_rev. apply (al_get_in _ eqb_spec), E.
    - apply (al_not_in_get_none _ eqb_spec). rewrite map_rev, <- in_rev.
      apply (al_get_none_not_in _ eqb_spec), E.
  Qed.

  Lemma bt_ext (m1 m2 : list (K * V)) : bt_sorted m1 -> bt_sorted m2 ->
    (forall k, al_get eqb k m1 = al_get eqb k m2) -> m1 = m2.
  Proof.
    revert m2. induction m1 as [|[k1 v1] m1 IH]; intros [|[k2 v2] m2] S1 S2 E; auto.
    - specialize (E k2). rewrite bt_get_cons in E. destruct (eqb_spec k2 k2); [discriminate|congruence].
    - specialize (E k1). rewrite bt_get_cons in E. destruct (eqb_spec k1 k1); [discriminate|congruence].
    - destruct S1 as [F1 S1], S2 as [F2 S2].
      assert (KE : k1 = k2).
      { destruct (ltb k1 k2) eqn:E1; [|destruct (ltb k2 k1) eqn:E2; [|apply ltb_total; auto]].
        - exfalso. pose proof (E k1) as X. rewrite !bt_get_cons in X.
          destruct (eqb_spec k1 k1); [|congruence].
          destruct (eqb_spec k1 k2) as [->|]; [rewrite ltb_irrefl in E1; discriminate|].
          rewrite bt_get_lt in X; [discriminate|]. eapply Forall_impl; [|exact F2].
          intros y Y. eapply ltb_trans; eauto.
        - exfalso. pose proof (E k2) as X. rewrite !bt_get_cons in X.
          destruct (eqb_spec k2 k2); [|congruence].
          destruct (eqb_spec k2 k1) as [->|]; [rewrite ltb_irrefl in E2; discriminate|].
          rewrite bt_get_lt in X; [discriminate|]. eapply Forall_impl; [|exact F1].
          intros y Y. eapply ltb_trans; eauto. }
      subst k2. pose proof (E k1) as X. rewrite !bt_get_cons in X.
      destruct (eqb_spec k1 k1); [|congruence]. injection X as ->. f_equal.
      apply IH; auto. intros k. specialize (E k). rewrite !bt_get_cons in E.
      destruct (eqb_spec k k1) as [EQ|]; [rewrite EQ|exact E]. rewrite !bt_get_lt by assumption. reflexivity.
  Qed.

  Lemma bt_in_get m k v : bt_sorted m -> (In (k, v) m <-> al_get eqb k m = Some v).
  Proof.
    intros SM. split; [|apply (al_get_in _ eqb_spec)].
    intros I. apply (al_in_get _ eqb_spec); auto. clear I. induction m as [|[k' v'] m IH]; simpl; [constructor|].
    destruct SM as [F SM]. constructor; auto. intros I. apply in_map_iff in I. destruct I as (x & E & I).
    rewrite Forall_forall in F. specialize (F _ I). rewrite E, ltb_irrefl in F. discriminate.
  Qed.

  Lemma bt_ext_in (m1 m2 : list (K * V)) : bt_sorted m1 -> bt_sorted m2 ->
    (forall k v, In (k, v) m1 <-> In (k, v) m2) -> m1 = m2.
  Proof.
    intros S1 S2 E. apply bt_ext; auto. intros k.
    destruct (al_get eqb k m1) as [v|] eqn:E1.
    - apply bt_in_get in E1; auto. apply E in E1. apply bt_in_get in E1; auto.
    - destruct (al_get eqb k m2) as [v|] eqn:E2; [|reflexivity].
      apply bt_in_get in E2; auto. apply E in E2. apply bt_in_get in E2; auto. congruence.
  Qed.

  Lemma bt_in_collect (l : list (K * V)) k v : NoDup (map fst l) ->
    (In (k, v) (bt_collect l) <-> In (k, v) l).
  Proof.
    intros ND. rewrite bt_in_get by apply bt_collect_sorted. rewrite bt_get_collect_nodup by exact ND.
    split; [apply (al_get_in _ eqb_spec)|apply (al_in_get _ eqb_spec), ND].
  Qed.

  Lemma bt_sorted_nodup m : bt_sorted m -> NoDup (map fst m).
  Proof.
    induction m as [|[k v] m IH]; intros SM; simpl; [constructor|]. destruct SM as [F SM].
    constructor; auto. intros I. apply in_map_iff in I. destruct I as (x & E & I).
    rewrite Forall_forall in F. specialize (F _ I). rewrite E, ltb_irrefl in F. discriminate.
  Qed.
End SortedMap.

Section SortedSet.
  Context {K : Type}.
  Variable ltb : K -> K -> bool.
  Variable eqb : K -> K -> bool.
  Hypothesis eqb_spec : forall a b, reflect (a = b) (eqb a b).
  Hypothesis ltb_irrefl : forall a, ltb a a = false.
  Hypothesis ltb_trans : forall a b c, ltb a b = true -> ltb b c = true -> ltb a c = true.
  Hypothesis ltb_total : forall a b, ltb a b = false -> ltb b a = false -> a = b.

  Definition bt_set (l : list K) : list K := map fst (bt_collect ltb (map (fun x => (x, tt)) l)).

  Lemma bt_set_in l x : In x (bt_set l) <-> In x l.
  Proof.
    unfold bt_set. rewrite in_map_iff. split.
    - intros ([y []] & E & I). simpl in E. subst y.
      apply (bt_in_get ltb eqb eqb_spec ltb_irrefl) in I; [|apply bt_collect_sorted; auto].
      rewrite (bt_get_collect ltb eqb) in I; auto. apply (al_get_in _ eqb_spec) in I.
      apply in_rev in I. apply in_map_iff in I. destruct I as (z & E & I). congruence.
    - intros I. exists (x, tt). split; [reflexivity|].
      apply (bt_in_get ltb eqb eqb_spec ltb_irrefl); [apply bt_collect_sorted; auto|].
      rewrite (bt_get_collect ltb eqb) by auto.
      destruct (al_get eqb x (rev (map (fun x => (x, tt)) l))) as [[]|] eqn:E; [reflexivity|].
      exfalso. apply (al_get_none_not_in _ eqb_spec) in E. apply E. apply in_map_iff.
      exists (x, tt). split; [reflexivity|]. rewrite <- in_rev. apply in_map_iff. eauto.
  Qed.

  Lemma bt_set_ext l1 l2 : (forall x, In x l1 <-> In x l2) -> bt_set l1 = bt_set l2.
  Proof.
    intros E. unfold bt_set. f_equal.
    apply (bt_ext_in ltb eqb eqb_spec ltb_irrefl ltb_trans ltb_total); try (apply bt_collect_sorted; auto).
    intros x []. pose proof (bt_set_in l1 x) as A. pose proof (bt_set_in l2 x) as B. unfold bt_set in *.
    assert (G : forall l, In (x, tt) l <-> In x (map fst l)).
    { intros l. rewrite in_map_iff. split; [intros; exists (x, tt); auto|intros ([y []] & F & I)].
      simpl in F. congruence. }
    rewrite !G, A, B. apply E.
  Qed.
End SortedSet.

(* felts in numeric order *)
Lemma N_ltb_irrefl a : N.ltb a a = false.
Proof. apply N.ltb_irrefl. Qed.
Lemma N_ltb_trans a b c : N.ltb a b = true -> N.ltb b c = true -> N.ltb a c = true.
Proof. lia. Qed.
Lemma N_ltb_total a b : N.ltb a b = false -> N.ltb b a = false -> a = b.
Proof. lia. Qed.

(* pairs of felts in lexicographic order *)
Definition pair_ltb (a b : N * N) : bool :=
  (fst a <? fst b)%N || ((fst a =? fst b)%N && (snd a <? snd b)%N).
Definition pair_eqb (a b : N * N) : bool := (fst a =? fst b)%N && (snd a =? snd b)%N.
Lemma pair_eqb_spec a b : reflect (a = b) (pair_eqb a b).
Proof.
  destruct a as [a1 a2], b as [b1 b2]. unfold pair_eqb. simpl.
  destruct (N.eqb_spec a1 b1), (N.eqb_spec a2 b2); constructor; congruence.
Qed.
Lemma pair_ltb_irrefl a : pair_ltb a a = false.
Proof. unfold pair_ltb. lia. Qed.
Lemma pair_ltb_trans a b c : pair_ltb a b = true -> pair_ltb b c = true -> pair_ltb a c = true.
Proof. unfold pair_ltb. lia. Qed.
Lemma pair_ltb_total a b : pair_ltb a b = false -> pair_ltb b a = false -> a = b.
Proof. destruct a, b. unfold pair_ltb. simpl. intros. f_equal; lia. Qed.
