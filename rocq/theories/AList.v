(** Association lists used as finite maps (HashMap / BTreeMap / SQL tables keyed
    by a primary key).  Pure library file: nothing in here models /repo code. *)
From Coq Require Import List Bool Arith Lia.
Import ListNotations.

Section AList.
  Context {K V : Type}.
  Variable eqb : K -> K -> bool.

  Fixpoint al_get (k : K) (m : list (K * V)) : option V :=
    match m with
    | [] => None
    | (k', v) :: m' => if eqb k k' then Some v else al_get k m'
    end.

  Definition al_remove (k : K) (m : list (K * V)) : list (K * V) :=
    filter (fun kv => negb (eqb k (fst kv))) m.

  Definition al_set (k : K) (v : V) (m : list (K * V)) : list (K * V) :=
    (k, v) :: al_remove k m.

  Definition al_retain (p : K -> bool) (m : list (K * V)) : list (K * V) :=
    filter (fun kv => p (fst kv)) m.

  Definition al_mem (k : K) (m : list (K * V)) : bool :=
    match al_get k m with Some _ => true | None => false end.

  Hypothesis eqb_spec : forall a b, reflect (a = b) (eqb a b).

  Lemma al_get_remove_eq k m : al_get k (al_remove k m) = None.
  Proof.
    induction m as [|[k' v] m IH]; simpl; auto.
    destruct (eqb_spec k k'); simpl; auto.
    destruct (eqb_spec k k'); congruence.
  Qed.

  Lemma al_get_remove_neq k k' m : k <> k' -> al_get k (al_remove k' m) = al_get k m.
  Proof.
    intros N. induction m as [|[k1 v] m IH]; simpl; auto.
    destruct (eqb_spec k' k1); simpl.
    - subst. destruct (eqb_spec k k1); congruence.
    - destruct (eqb_spec k k1); auto.
  Qed.

  Lemma al_get_set_eq k v m : al_get k (al_set k v m) = Some v.
  Proof. unfold al_set; simpl. destruct (eqb_spec k k); congruence. Qed.

  Lemma al_get_set_neq k k' v m : k <> k' -> al_get k (al_set k' v m) = al_get k m.
  Proof.
    intros N. unfold al_set; simpl. destruct (eqb_spec k k'); [congruence|].
    now apply al_get_remove_neq.
  Qed.

  Lemma al_get_retain p k m :
    al_get k (al_retain p m) = if p k then al_get k m else None.
  Proof.
    induction m as [|[k' v] m IH]; simpl.
    - now destruct (p k).
    - destruct (p k') eqn:E; simpl.
      + destruct (eqb_spec k k'); [subst; now rewrite E|auto].
      + destruct (eqb_spec k k').
        * subst. rewrite E in *. auto.
        * auto.
  Qed.

  Lemma al_get_in k v m : al_get k m = Some v -> In (k, v) m.
  Proof.
    induction m as [|[k' v'] m IH]; simpl; [discriminate|].
    destruct (eqb_spec k k'); [intros [= <-]; subst; auto | auto].
  Qed.

  Lemma al_get_none_not_in k m : al_get k m = None -> ~ In k (map fst m).
  Proof.
    induction m as [|[k' v'] m IH]; simpl; [tauto|].
    destruct (eqb_spec k k'); [discriminate|]. intros H [E|E]; [congruence|].
    now apply IH.
  Qed.

  Lemma al_not_in_get_none k m : ~ In k (map fst m) -> al_get k m = None.
  Proof.
    induction m as [|[k' v'] m IH]; simpl; auto.
    intros H. destruct (eqb_spec k k'); [subst; tauto|]. apply IH; tauto.
  Qed.

  Lemma al_in_get k v m : NoDup (map fst m) -> In (k, v) m -> al_get k m = Some v.
  Proof.
    induction m as [|[k' v'] m IH]; simpl; [tauto|].
    intros ND [E|E].
    - injection E as -> ->. destruct (eqb_spec k k); congruence.
    - inversion ND; subst. destruct (eqb_spec k k').
      + subst. exfalso. apply H1. change k' with (fst (k', v)).
        now apply in_map.
      + auto.
  Qed.

  Lemma al_in_keys_get k m : In k (map fst m) -> exists v, al_get k m = Some v.
  Proof.
    intros H. destruct (al_get k m) eqn:E; [eauto|].
    now apply al_get_none_not_in in E.
  Qed.

  Lemma al_keys_remove k m : map fst (al_remove k m) = filter (fun k' => negb (eqb k k')) (map fst m).
  Proof.
    unfold al_remove. induction m as [|[k' v'] m IH]; simpl; auto.
    destruct (eqb k k'); simpl; congruence.
  Qed.

  Lemma al_nodup_remove k m : NoDup (map fst m) -> NoDup (map fst (al_remove k m)).
  Proof. rewrite al_keys_remove. apply NoDup_filter. Qed.

  Lemma al_nodup_set k v m : NoDup (map fst m) -> NoDup (map fst (al_set k v m)).
  Proof.
    intros H. unfold al_set; simpl. constructor.
    - rewrite al_keys_remove, filter_In. intros [_ E].
      destruct (eqb_spec k k); simpl in E; congruence.
    - now apply al_nodup_remove.
  Qed.

  Lemma al_nodup_retain p m : NoDup (map fst m) -> NoDup (map fst (al_retain p m)).
  Proof.
    unfold al_retain. induction m as [|[k v] m IH]; simpl; auto.
    intros H; inversion H; subst. destruct (p k); simpl; auto.
    constructor; auto. intros I. apply H2.
    apply in_map_iff in I as [[k1 v1] [E I]]. simpl in E; subst.
    apply filter_In in I as [I _]. change k with (fst (k, v1)). now apply in_map.
  Qed.

  Lemma al_remove_length_le k m : length (al_remove k m) <= length m.
  Proof.
    unfold al_remove. induction m as [|[k' v] m IH]; simpl; auto.
    destruct (negb (eqb k k')); simpl; lia.
  Qed.

  Lemma al_remove_length_lt k v m :
    al_get k m = Some v -> length (al_remove k m) < length m.
  Proof.
    induction m as [|[k' v'] m IH]; simpl; [discriminate|].
    destruct (eqb_spec k k'); simpl.
    - intros _. pose proof (al_remove_length_le k m). unfold al_remove in *. lia.
    - intros H. apply IH in H. unfold al_remove in *. lia.
  Qed.

  Lemma al_get_app k m1 m2 :
    al_get k (m1 ++ m2) = match al_get k m1 with Some v => Some v | None => al_get k m2 end.
  Proof.
    induction m1 as [|[k' v'] m IH]; simpl; auto. destruct (eqb k k'); auto.
  Qed.
End AList.

Arguments al_get {K V} eqb k m.
Arguments al_remove {K V} eqb k m.
Arguments al_set {K V} eqb k v m.
Arguments al_retain {K V} p m.
Arguments al_mem {K V} eqb k m.
Arguments al_remove : simpl never.
Arguments al_set : simpl never.
Arguments al_retain : simpl never.
Arguments al_get : simpl never.
