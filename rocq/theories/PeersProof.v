(* Lemmas for PeersProperties. *)
From Coq Require Import List NArith Bool Arith Lia Permutation Sorted ZifyBool ZifyN ZifyNat.
From Verif Require Import PeersModel PeersSpec.
Import ListNotations.
Local Open Scope N_scope.

(* ---- sorting ---- *)
Section Sort.
Context {A : Type} (leb : A -> A -> bool).
Hypothesis total : forall a b, leb a b = true \/ leb b a = true.
Hypothesis trans : forall a b c, leb a b = true -> leb b c = true -> leb a c = true.
Lemma insert_perm : forall x l, Permutation (x :: l) (insert_sorted leb x l).
Proof using.
  intros x. induction l as [|y l IH]; [auto|]. cbn [insert_sorted]. destruct (leb x y); [auto|].
  rewrite perm_swap. constructor. exact IH.
Qed.
Lemma sort_perm : forall l, Permutation l (sort leb l).
Proof using. induction l as [|x l IH]; [auto|]. cbn [sort]. rewrite <- insert_perm. constructor. exact IH. Qed.
Lemma insert_strong : forall x l, StronglySorted (fun a b => leb a b = true) l ->
  StronglySorted (fun a b => leb a b = true) (insert_sorted leb x l).
Proof using total trans.
  intros x. induction l as [|y l IH]; intros S; [repeat constructor|]. cbn [insert_sorted].
  inversion S as [|? ? S' F]; subst. destruct (leb x y) eqn:E.
  - constructor; [exact S|]. constructor; [exact E|]. eapply Forall_impl; [|exact F]. intros z Hz. exact (trans _ _ _ E Hz).
  - constructor; [exact (IH S')|]. rewrite Forall_forall in *. intros z Hz.
    apply (Permutation_in _ (Permutation_sym (insert_perm x l))) in Hz. destruct Hz as [<-|Hz]; [|exact (F z Hz)].
    destruct (total x y) as [T|T]; [congruence|exact T].
Qed.
Lemma sort_strong : forall l, StronglySorted (fun a b => leb a b = true) (sort leb l).
Proof using total trans. induction l as [|x l IH]; [constructor|]. cbn [sort]. apply insert_strong, IH. Qed.
Lemma strong_split : forall k l a b, StronglySorted (fun a b => leb a b = true) l ->
  In a (firstn k l) -> In b (skipn k l) -> leb a b = true.
Proof using.
  induction k as [|k IH]; intros l a b S HA HB; [destruct HA|]. destruct l as [|x l]; [destruct HA|].
  inversion S as [|? ? S' F]; subst. cbn [firstn skipn] in *. destruct HA as [<-|HA]; [|exact (IH l a b S' HA HB)].
  rewrite Forall_forall in F. apply F. rewrite <- (firstn_skipn k l). apply in_or_app. right. exact HB.
Qed.
Lemma firsts : forall k l x, In x l -> ~ In x (firstn k (sort leb l)) ->
  length (firstn k (sort leb l)) = k /\ forall y, In y (firstn k (sort leb l)) -> leb y x = true.
Proof using total trans.
  intros k l x HX N. assert (HS : In x (skipn k (sort leb l))).
  { apply (Permutation_in _ (sort_perm l)) in HX. rewrite <- (firstn_skipn k) in HX. apply in_app_or in HX. tauto. }
  split.
  - rewrite firstn_length. apply Nat.min_l. destruct (Nat.le_gt_cases k (length (sort leb l))) as [L|L]; [exact L|].
    rewrite skipn_all2 in HS by lia. destruct HS.
  - intros y HY. exact (strong_split k _ _ _ (sort_strong l) HY HS).
Qed.
Lemma head_least : forall l x l', sort leb l = x :: l' -> In x l /\ forall y, In y l -> leb x y = true.
Proof using total trans.
  intros l x l' E. split.
  - apply (Permutation_in _ (Permutation_sym (sort_perm l))). rewrite E. left. reflexivity.
  - intros y HY. apply (Permutation_in _ (sort_perm l)) in HY. pose proof (sort_strong l) as S. rewrite E in *.
    inversion S as [|? ? S' F]; subst. destruct HY as [<-|HY]; [destruct (total x x); assumption|].
    rewrite Forall_forall in F. exact (F y HY).
Qed.
End Sort.
Lemma min_by_ok : forall A (key : A -> N) l x, min_by key l = Some x -> In x l /\ forall y, In y l -> key x <= key y.
Proof.
  intros A key. induction l as [|a l IH]; intros x E; [discriminate E|]. cbn [min_by] in E.
  destruct (min_by key l) as [y|] eqn:M.
  - destruct (IH y eq_refl) as [Y1 Y2]. destruct (key a <=? key y) eqn:L; injection E as <-; apply N.leb_le in L || apply N.leb_gt in L.
    + split; [left; reflexivity|]. intros z [<-|Z]; [lia|]. specialize (Y2 z Z). lia.
    + split; [right; exact Y1|]. intros z [<-|Z]; [lia|]. exact (Y2 z Z).
  - injection E as <-. destruct l as [|b l]; [|exfalso; cbn [min_by] in M; destruct (min_by key l) as [c|]; [destruct (key b <=? key c)|]; discriminate M].
    split; [left; reflexivity|]. intros z [<-|[]]. lia.
Qed.
Lemma min_by_some : forall A (key : A -> N) l x, In x l -> exists y, min_by key l = Some y.
Proof.
  intros A key [|a l] x H; [destruct H|]. cbn [min_by]. destruct (min_by key l) as [y|]; [destruct (key a <=? key y)|]; eauto.
Qed.

(* ---- the choice ---- *)
Lemma remove_all_in : forall ids c x, In x (remove_all ids c) <-> In x c /\ ~ In (c_id x) ids.
Proof.
  intros ids c x. unfold remove_all. rewrite filter_In, negb_true_iff, <- not_true_iff_false, existsb_exists.
  split; intros [A B]; (split; [exact A|]).
  - intros H. apply B. exists (c_id x). rewrite N.eqb_refl. auto.
  - intros (y & H & E). apply N.eqb_eq in E. subst. exact (B H).
Qed.
Lemma remove_all_length : forall ids c, NoDup (map c_id c) -> (length c <= length (remove_all ids c) + length ids)%nat.
Proof.
  intros ids c ND. unfold remove_all.
  assert (L : (length (filter (fun x => existsb (N.eqb (c_id x)) ids) c) <= length ids)%nat).
  { rewrite <- (map_length c_id). apply NoDup_incl_length.
    - clear -ND. induction c as [|x c IH]; [constructor|]. inversion ND as [|? ? N ND']; subst. cbn [filter].
      destruct (existsb _ ids); [|exact (IH ND')]. cbn [map]. constructor; [|exact (IH ND')].
      intros H. apply N. apply in_map_iff in H. destruct H as (y & E & H). apply filter_In in H.
      apply in_map_iff. exists y. tauto.
    - intros i H. apply in_map_iff in H. destruct H as (y & <- & H). apply filter_In in H. destruct H as [_ H].
      apply existsb_exists in H. destruct H as (z & H & E). apply N.eqb_eq in E. subst. exact H. }
  assert (S : forall f (l : list candidate), length l = (length (filter (fun x => negb (f x)) l) + length (filter f l))%nat).
  { intros f. induction l as [|x l IH]; [reflexivity|]. cbn [filter]. destruct (f x); cbn [negb length]; lia. }
  specialize (S (fun x => existsb (N.eqb (c_id x)) ids) c). lia.
Qed.
Lemma same_id : forall (c : list candidate) x y, NoDup (map c_id c) -> In x c -> In y c -> c_id x = c_id y -> x = y.
Proof.
  induction c as [|a c IH]; intros x y ND HX HY E; [destruct HX|]. cbn [map] in ND. inversion ND as [|? ? N ND']; subst.
  destruct HX as [<-|HX], HY as [<-|HY].
  - reflexivity.
  - exfalso. apply N. rewrite E. apply in_map. assumption.
  - exfalso. apply N. rewrite <- E. apply in_map. assumption.
  - exact (IH x y ND' HX HY E).
Qed.
Lemma remove_all_nodup : forall ids c, NoDup (map c_id c) -> NoDup (map c_id (remove_all ids c)).
Proof.
  intros ids c ND. induction c as [|x c IH]; [constructor|]. inversion ND as [|? ? N ND']; subst. unfold remove_all in *. cbn [filter].
  destruct (negb _); [|exact (IH ND')]. cbn [map]. constructor; [|exact (IH ND')].
  intros H. apply N. apply in_map_iff in H. destruct H as (y & E & H). apply filter_In in H. apply in_map_iff. exists y. tauto.
Qed.
Section Choice.
Variable rank : N -> N.
Variable c : list candidate.
Hypothesis ND : NoDup (map c_id c).
Let size g := length (in_group g c).
Let c1 := remove_all (group_picks rank c) c.
Let c2 := remove_all (ping_picks c1) c1.
Let c3 := remove_all (age_picks c2) c2.
Lemma final_total : forall a b, final_leb size a b = true \/ final_leb size b a = true.
Proof using.
  intros a b. unfold final_leb. rewrite (Nat.compare_antisym (size (c_group a))), (N.compare_antisym (c_group b) (c_group a)).
  destruct (Nat.compare (size (c_group a)) (size (c_group b))); cbn [CompOpp]; auto.
  destruct (N.compare (c_group b) (c_group a)); cbn [CompOpp]; auto. rewrite !N.leb_le. lia.
Qed.
Lemma final_trans : forall a b d, final_leb size a b = true -> final_leb size b d = true -> final_leb size a d = true.
Proof using.
  intros a b d. unfold final_leb.
  destruct (Nat.compare_spec (size (c_group a)) (size (c_group b))), (Nat.compare_spec (size (c_group b)) (size (c_group d))),
    (Nat.compare_spec (size (c_group a)) (size (c_group d))); try discriminate; try reflexivity; try lia;
  destruct (N.compare_spec (c_group b) (c_group a)), (N.compare_spec (c_group d) (c_group b)),
    (N.compare_spec (c_group d) (c_group a)); try discriminate; try reflexivity; rewrite ?N.leb_le; try lia.
Qed.
Lemma chosen : forall v, choose_inbound rank c = Some v -> exists x, c_id x = v /\ In x c3 /\
  forall y, In y c3 -> final_leb size x y = true.
Proof using.
  intros v E. unfold choose_inbound in E. fold size c1 c2 c3 in E. destruct (sort (final_leb size) c3) as [|x l] eqn:S; [discriminate E|].
  injection E as <-. exists x. split; [reflexivity|]. exact (head_least _ final_total final_trans _ _ _ S).
Qed.
Lemma c3_c : forall x, In x c3 -> In x c.
Proof using. intros x H. unfold c3, c2, c1 in H. rewrite !remove_all_in in H. tauto. Qed.
Lemma group_unpicked : forall x, In x c1 -> (forall w, In w c -> w <> x -> c_group w = c_group x -> rank (c_id x) < rank (c_id w)) ->
  exists gs, NoDup gs /\ length gs = 4%nat /\ forall g, In g gs -> g < c_group x /\ exists w, In w c /\ c_group w = g.
Proof using ND.
  intros x H M. unfold c1 in H. apply remove_all_in in H. destruct H as [HX N].
  set (G := nodup N.eq_dec (map c_group c)) in *.
  assert (GX : In (c_group x) G) by (apply nodup_In, in_map, HX).
  assert (NG : ~ In (c_group x) (firstn 4 (sort N.leb G))).
  { intros H. apply N. unfold group_picks. apply in_flat_map. exists (c_group x). split; [exact H|].
    assert (IX : In x (in_group (c_group x) c)) by (apply filter_In; rewrite N.eqb_refl; auto).
    destruct (min_by_some _ (fun z => rank (c_id z)) _ _ IX) as [y EY]. rewrite EY. left.
    destruct (min_by_ok _ _ _ _ EY) as [Y1 Y2]. apply filter_In in Y1. destruct Y1 as [Y1 YG]. apply N.eqb_eq in YG.
    specialize (Y2 x IX). cbv beta in Y2. destruct (N.eq_dec (c_id y) (c_id x)) as [E|NE]; [exact E|].
    specialize (M y Y1 ltac:(intros ->; exact (NE eq_refl)) YG). lia. }
  destruct (firsts N.leb ltac:(intros; rewrite !N.leb_le; lia) ltac:(intros a b d; rewrite !N.leb_le; lia) 4 G _ GX NG) as [L F].
  exists (firstn 4 (sort N.leb G)).
  assert (NDS : NoDup (sort N.leb G)).
  { apply (Permutation_NoDup (sort_perm N.leb G)). apply NoDup_nodup. }
  split; [|split; [exact L|]].
  - rewrite <- (firstn_skipn 4 (sort N.leb G)) in NDS. clear -NDS. revert NDS. generalize (firstn 4 (sort N.leb G)) (skipn 4 (sort N.leb G)).
    intros l l' H. induction l as [|z l IH]; [constructor|]. inversion H as [|? ? N H']; subst. constructor; [|exact (IH H')].
    intros I. apply N, in_or_app. auto.
  - intros g HG. split.
    + specialize (F g HG). apply N.leb_le in F. assert (g <> c_group x); [|lia]. intros ->. exact (NG HG).
    + assert (IG : In g G).
      { apply (Permutation_in _ (Permutation_sym (sort_perm N.leb G))). rewrite <- (firstn_skipn 4). apply in_or_app. auto. }
      apply nodup_In, in_map_iff in IG. destruct IG as (w & E & HW). exists w. auto.
Qed.
Lemma ping_unpicked : forall x t, In x c2 -> c_ping x = Some t ->
  exists ws, NoDup ws /\ length ws = 8%nat /\ forall i, In i ws -> i <> c_id x /\ exists w u, In w c /\ c_id w = i /\ c_ping w = Some u /\ u <= t.
Proof using ND.
  intros x t H EP. unfold c2 in H. apply remove_all_in in H. destruct H as [HX N]. unfold ping_picks in N.
  set (P := flat_map (fun z => match c_ping z with Some t => [(c_id z, t)] | None => [] end) c1) in *.
  assert (PI : forall i u, In (i, u) P <-> exists z, In z c1 /\ c_id z = i /\ c_ping z = Some u).
  { intros i u. unfold P. rewrite in_flat_map. split.
    - intros (z & HZ & H). destruct (c_ping z) as [u'|] eqn:EZ; [|destruct H]. destruct H as [[= <- <-]|[]]. eauto.
    - intros (z & HZ & <- & EZ). exists z. rewrite EZ. split; [exact HZ|left; reflexivity]. }
  set (le2 := fun a b : BinNums.N * BinNums.N => snd a <=? snd b) in *.
  assert (PX : In (c_id x, t) P) by (apply PI; eauto).
  assert (NX : ~ In (c_id x, t) (firstn 8 (sort le2 P))).
  { intros H. apply N. apply in_map_iff. exists (c_id x, t). auto. }
  destruct (firsts le2 ltac:(intros; unfold le2; rewrite !N.leb_le; lia) ltac:(intros a b d; unfold le2; rewrite !N.leb_le; lia) 8 P _ PX NX) as [L F].
  assert (NDP : NoDup (map fst P)).
  { assert (N1 : NoDup (map c_id c1)) by (apply remove_all_nodup, ND). revert N1. unfold P. clear. induction c1 as [|z l IH]; intros H; [constructor|].
    inversion H as [|? ? N H']; subst. cbn [flat_map]. destruct (c_ping z) as [u|]; [|exact (IH H')]. cbn [app map fst]. constructor; [|exact (IH H')].
    intros I. apply N. apply in_map_iff in I. destruct I as ((i & u') & E & I). cbn [fst] in E. subst i. apply in_flat_map in I.
    destruct I as (z' & HZ & I). destruct (c_ping z'); [|destruct I]. destruct I as [[= E _]|[]]. rewrite <- E. apply in_map, HZ. }
  exists (map fst (firstn 8 (sort le2 P))). split; [|split].
  - apply (Permutation_NoDup (Permutation_map fst (sort_perm le2 P))) in NDP. rewrite <- (firstn_skipn 8 (sort le2 P)), map_app in NDP.
    revert NDP. generalize (map fst (firstn 8 (sort le2 P))) (map fst (skipn 8 (sort le2 P))). clear.
    intros l l' H. induction l as [|z l IH]; [constructor|]. inversion H as [|? ? N H']; subst. constructor; [|exact (IH H')].
    intros I. apply N, in_or_app. auto.
  - rewrite map_length. exact L.
  - intros i HI. split; [intros ->; exact (N HI)|]. apply in_map_iff in HI. destruct HI as ((i' & u) & E & HI). cbn [fst] in E. subst i'.
    pose proof (F _ HI) as FU. unfold le2 in FU. cbn [snd] in FU. apply N.leb_le in FU.
    assert (IP : In (i, u) P).
    { apply (Permutation_in _ (Permutation_sym (sort_perm le2 P))). rewrite <- (firstn_skipn 8). apply in_or_app. auto. }
    apply PI in IP. destruct IP as (z & HZ & EI & EU). apply remove_all_in in HZ. exists z, u. tauto.
Qed.
Lemma choice_order : forall v w, In v c3 -> (forall y, In y c3 -> final_leb size v y = true) -> In w c -> c_ping w = None ->
  (exists w', In w' c /\ c_group w' = c_group w /\ rank (c_id w') < rank (c_id w)) -> c_at w < c_at v ->
  (size (c_group v) < size (c_group w))%nat \/ size (c_group v) = size (c_group w) /\ c_group w < c_group v.
Proof using ND.
  intros v w HV M HW EP (w' & HW' & EG & LR) LA.
  assert (W1 : In w c1).
  { apply remove_all_in. split; [exact HW|]. intros I. unfold group_picks in I. apply in_flat_map in I. destruct I as (g & _ & I).
    destruct (min_by _ (in_group g c)) as [y|] eqn:EY; [|destruct I]. destruct I as [E|[]].
    destruct (min_by_ok _ _ _ _ EY) as [Y1 Y2]. apply filter_In in Y1. destruct Y1 as [Y1 YG]. apply N.eqb_eq in YG.
    pose proof (same_id _ _ _ ND Y1 HW E). subst y. specialize (Y2 w'). cbv beta in Y2.
    assert (I' : In w' (in_group g c)) by (apply filter_In; split; [exact HW'|]; apply N.eqb_eq; congruence). specialize (Y2 I'). lia. }
  assert (W2 : In w c2).
  { apply remove_all_in. split; [exact W1|]. intros I. unfold ping_picks in I. apply in_map_iff in I. destruct I as ((i & u) & E & I).
    cbn [fst] in E. subst i. set (le2 := fun a b : BinNums.N * BinNums.N => snd a <=? snd b) in *.
    match type of I with In _ (firstn 8 (sort le2 ?P)) => assert (IP : In (c_id w, u) P) end.
    { apply (Permutation_in _ (Permutation_sym (sort_perm le2 _))). rewrite <- (firstn_skipn 8). apply in_or_app. auto. }
    apply in_flat_map in IP. destruct IP as (z & HZ & IP). destruct (c_ping z) as [u'|] eqn:EZ; [|destruct IP]. destruct IP as [[= E _]|[]].
    apply remove_all_in in HZ. pose proof (same_id _ _ _ ND (proj1 HZ) HW E). subst z. congruence. }
  assert (W3 : In w c3).
  { apply remove_all_in. split; [exact W2|]. intros I. pose proof HV as HV'. apply remove_all_in in HV'. destruct HV' as [V2 NV].
    unfold age_picks in I, NV. set (le3 := fun a b : candidate => c_at b <=? c_at a) in *.
    apply in_map_iff in I. destruct I as (w0 & E & I).
    assert (I0 : In w0 c2).
    { apply (Permutation_in _ (Permutation_sym (sort_perm le3 c2))). rewrite <- (firstn_skipn (Nat.div (length c2) 2)). apply in_or_app. auto. }
    assert (N2 : NoDup (map c_id c2)) by (apply remove_all_nodup, remove_all_nodup, ND).
    pose proof (same_id _ _ _ N2 I0 W2 E). subst w0.
    destruct (firsts le3 ltac:(intros; unfold le3; rewrite !N.leb_le; lia) ltac:(intros a b d; unfold le3; rewrite !N.leb_le; lia)
      (Nat.div (length c2) 2) c2 v V2 ltac:(intros H; apply NV, in_map, H)) as [_ F].
    specialize (F w I). unfold le3 in F. apply N.leb_le in F. lia. }
  specialize (M w W3). unfold final_leb in M. destruct (Nat.compare_spec (size (c_group v)) (size (c_group w))) as [EQ|L|G]; [|left; exact L|discriminate M]. right. split; [exact EQ|].
  destruct (N.compare_spec (c_group w) (c_group v)) as [_|L|_]; [apply N.leb_le in M; lia|exact L|discriminate M].
Qed.
Lemma choice_exists : (12 < length c)%nat -> exists v, choose_inbound rank c = Some v.
Proof using ND.
  intros L. pose proof (remove_all_length (group_picks rank c) c ND) as L1. fold c1 in L1.
  assert (N1 : NoDup (map c_id c1)) by (apply remove_all_nodup, ND).
  pose proof (remove_all_length (ping_picks c1) c1 N1) as L2. fold c2 in L2.
  assert (N2 : NoDup (map c_id c2)) by (apply remove_all_nodup, N1).
  pose proof (remove_all_length (age_picks c2) c2 N2) as L3. fold c3 in L3.
  assert (A1 : (length (group_picks rank c) <= 4)%nat).
  { unfold group_picks. assert (K : (length (firstn 4 (sort N.leb (nodup N.eq_dec (map c_group c)))) <= 4)%nat) by apply firstn_le_length.
    revert K. generalize (firstn 4 (sort N.leb (nodup N.eq_dec (map c_group c)))). intros l. generalize 4%nat. induction l as [|g l IH]; intros n K; [apply Nat.le_0_l|].
    cbn [flat_map]. rewrite app_length. destruct n as [|n]; cbn [length] in K; [lia|]. specialize (IH n ltac:(lia)).
    destruct (min_by _ _); cbn [length]; lia. }
  assert (A2 : (length (ping_picks c1) <= 8)%nat) by (unfold ping_picks; rewrite map_length; apply firstn_le_length).
  assert (A3 : (length (age_picks c2) <= Nat.div (length c2) 2)%nat) by (unfold age_picks; rewrite map_length; apply firstn_le_length).
  assert (A4 : (Nat.div (length c2) 2 < length c2)%nat) by (apply Nat.div_lt; lia).
  unfold choose_inbound. fold size c1 c2 c3. pose proof (Permutation_length (sort_perm (final_leb size) c3)) as P.
  destruct (sort (final_leb size) c3) as [|x l]; [cbn [length] in P; lia|eauto].
Qed.
End Choice.

(* ---- the set ---- *)
Definition keys (s : peer_set) : list N := map fst s.
Lemma get_in : forall s id q, get s id = Some q -> In (id, q) s.
Proof.
  intros s id q E. unfold get in E. destruct (find _ s) as [[i q']|] eqn:F; [|discriminate E]. injection E as <-.
  apply find_some in F. destruct F as [F E]. apply N.eqb_eq in E. cbn [fst] in E. subst. exact F.
Qed.
Lemma get_of_in : forall s id q, NoDup (keys s) -> In (id, q) s -> get s id = Some q.
Proof.
  intros s id q. unfold get. induction s as [|[i q'] s IH]; intros ND H; [destruct H|]. inversion ND as [|? ? N ND']; subst. cbn [find fst].
  destruct (N.eqb_spec i id) as [->|NE].
  - destruct H as [[= ->]|H]; [reflexivity|]. exfalso. apply N. exact (in_map fst _ _ H).
  - destruct H as [[= -> ->]|H]; [congruence|]. exact (IH ND' H).
Qed.
Lemma get_none : forall s id, get s id = None -> ~ In id (keys s).
Proof.
  intros s id E H. unfold get in E. destruct (find _ s) eqn:F; [discriminate E|]. apply in_map_iff in H. destruct H as ([i q] & <- & H).
  pose proof (find_none _ _ F _ H) as K. cbn [fst] in K. rewrite N.eqb_refl in K. discriminate K.
Qed.
Lemma keys_filter : forall f s, NoDup (keys s) -> NoDup (keys (filter f s)).
Proof.
  intros f s. induction s as [|e s IH]; intros H; [constructor|]. inversion H as [|? ? N H']; subst. cbn [filter].
  destruct (f e); [|exact (IH H')]. cbn [keys map]. constructor; [|exact (IH H')].
  intros I. apply N. apply in_map_iff in I. destruct I as (x & E & I). apply filter_In in I. apply in_map_iff. exists x. tauto.
Qed.
Lemma get_split : forall s id q, NoDup (keys s) -> get s id = Some q -> exists a b, s = a ++ (id, q) :: b /\
  ~ In id (keys a) /\ ~ In id (keys b) /\ forall f, map (fun e => if fst e =? id then (fst e, f (snd e)) else e) s = a ++ (id, f q) :: b.
Proof.
  intros s id q ND E. apply get_in in E. apply in_split in E. destruct E as (a & b & ->). exists a, b. split; [reflexivity|].
  unfold keys in ND. rewrite map_app in ND. cbn [map fst] in ND. pose proof (NoDup_remove_2 _ _ _ ND) as NI.
  assert (NA : ~ In id (keys a)) by (intros H; apply NI, in_or_app; auto).
  assert (NB : ~ In id (keys b)) by (intros H; apply NI, in_or_app; auto).
  split; [exact NA|]. split; [exact NB|]. intros f.
  assert (K : forall l, ~ In id (keys l) -> map (fun e : N * peer => if fst e =? id then (fst e, f (snd e)) else e) l = l).
  { induction l as [|[i x] l IH]; intros H; [reflexivity|]. cbn [map fst]. destruct (N.eqb_spec i id) as [->|NE].
    - exfalso. apply H. left. reflexivity.
    - rewrite IH; [reflexivity|]. intros I. apply H. right. exact I. }
  rewrite map_app. cbn [map fst snd]. rewrite N.eqb_refl, (K a NA), (K b NB). reflexivity.
Qed.
Lemma upsert_cases : forall ret now s id f ins s', NoDup (keys s) -> upsert ret now s id f ins = Go s' ->
  let s1 := filter (retained ret now) s in
  (exists q a b, get s1 id = Some q /\ s1 = a ++ (id, q) :: b /\ ~ In id (keys a) /\ ~ In id (keys b) /\ s' = a ++ (id, f q) :: b) \/
  (exists q, get s1 id = None /\ ins = Go q /\ ~ In id (keys s1) /\ s' = s1 ++ [(id, q)]).
Proof.
  intros ret now s id f ins s' ND E s1. unfold upsert in E. fold s1 in E. pose proof (keys_filter (retained ret now) s ND) as ND1. fold s1 in ND1.
  destruct (get s1 id) as [q|] eqn:G.
  - left. destruct (get_split s1 id q ND1 G) as (a & b & E1 & NA & NB & F). rewrite F in E. injection E as <-. exists q, a, b. auto.
  - right. destruct ins as [q|]; [|discriminate E]. injection E as <-. exists q. split; [reflexivity|]. split; [reflexivity|].
    split; [exact (get_none _ _ G)|reflexivity].
Qed.
Lemma upsert_nodup : forall ret now s id f ins s', NoDup (keys s) -> upsert ret now s id f ins = Go s' -> NoDup (keys s').
Proof.
  intros ret now s id f ins s' ND E. pose proof (keys_filter (retained ret now) s ND) as ND1.
  destruct (upsert_cases _ _ _ _ _ _ _ ND E) as [(q & a & b & _ & E1 & NA & NB & ->)|(q & _ & _ & N & ->)]; cbv zeta in *.
  - rewrite E1 in ND1. unfold keys in *. rewrite map_app in *. exact ND1.
  - unfold keys in *. rewrite map_app. cbn [map fst].
    apply (Permutation_NoDup (Permutation_cons_append _ _)). constructor; assumption.
Qed.

(* ---- invariants ---- *)
Definition cnt (P : N * peer -> bool) (s : peer_set) : nat := length (filter P s).
Lemma cnt_app : forall P a b, cnt P (a ++ b) = (cnt P a + cnt P b)%nat.
Proof. intros P a b. unfold cnt. rewrite filter_app, app_length. reflexivity. Qed.
Lemma cnt_cons : forall P e b, cnt P (e :: b) = ((if P e then 1 else 0) + cnt P b)%nat.
Proof. intros P e b. unfold cnt. cbn [filter]. destruct (P e); reflexivity. Qed.
Lemma cnt_retained : forall P ret now s, (forall e, P e = true -> is_connected (snd e) = true) ->
  cnt P (filter (retained ret now) s) = cnt P s.
Proof.
  intros P ret now s H. induction s as [|e s IH]; [reflexivity|]. cbn [filter]. rewrite (cnt_cons P e s).
  destruct (retained ret now e) eqn:R; [rewrite cnt_cons, IH; reflexivity|]. destruct (P e) eqn:PE; [|exact IH].
  apply H in PE. unfold retained in R. unfold is_connected in PE. destruct (p_conn (snd e)); discriminate.
Qed.
Definition recorded (relayed : bool) (e : N * peer) : bool :=
  is_connected (snd e) && is_inbound (snd e) && eqb (is_relayed (snd e)) relayed.
Lemma recorded_connected : forall r e, recorded r e = true -> is_connected (snd e) = true.
Proof. intros r e H. unfold recorded in H. rewrite !andb_true_iff in H. tauto. Qed.
Lemma direct_recorded : forall cfg now s, length (inbound_direct_peers cfg now s) = cnt (recorded false) s.
Proof.
  intros cfg now s. unfold inbound_direct_peers, iter.
  rewrite <- (cnt_retained (recorded false) (eviction_timeout cfg) now s (recorded_connected false)). unfold cnt.
  apply f_equal, filter_ext. intros e. unfold recorded. destruct (is_relayed (snd e)); reflexivity.
Qed.
Lemma relayed_recorded : forall cfg now s, length (inbound_relayed_peers cfg now s) = cnt (recorded true) s.
Proof.
  intros cfg now s. unfold inbound_relayed_peers, iter.
  rewrite <- (cnt_retained (recorded true) (eviction_timeout cfg) now s (recorded_connected true)). unfold cnt.
  apply f_equal, filter_ext. intros e. unfold recorded. destruct (is_relayed (snd e)); reflexivity.
Qed.

(* who an entry may be of *)
Section Inv.
Variables IN OUT : N -> Prop.
Definition may (id : N) (d : direction) : Prop := match d with Inbound => IN id | Outbound => OUT id end.
Definition good (e : N * peer) : Prop :=
  may (fst e) (p_dir (snd e)) /\ (is_connected (snd e) = true -> p_group (snd e) <> None).
Definition inv (s : peer_set) : Prop := NoDup (keys s) /\ Forall good s.
(* an update that connects nobody *)
Definition tame (f : peer -> peer) : Prop := forall q, p_dir (f q) = p_dir q /\
  (is_connected (f q) = true -> is_connected q = true /\ p_addr (f q) = p_addr q /\ p_group (f q) = p_group q).
Lemma inv_filter : forall f s, inv s -> inv (filter f s).
Proof.
  intros f s [ND G]. split; [apply keys_filter, ND|]. rewrite Forall_forall in *. intros e H. apply filter_In in H. apply G, H.
Qed.
Lemma upsert_inv : forall ret now s id f ins s', inv s -> upsert ret now s id f ins = Go s' ->
  (forall q, In (id, q) s -> good (id, q) -> good (id, f q)) -> (forall q, ins = Go q -> good (id, q)) -> inv s'.
Proof.
  intros ret now s id f ins s' I E F IQ. split; [exact (upsert_nodup _ _ _ _ _ _ _ (proj1 I) E)|].
  pose proof (proj2 (inv_filter (retained ret now) s I)) as G.
  destruct (upsert_cases _ _ _ _ _ _ _ (proj1 I) E) as [(q & a & b & G1 & E1 & NA & NB & ->)|(q & _ & EI & NI & ->)]; cbv zeta in *.
  - apply get_in in G1. apply filter_In in G1. rewrite E1 in G. apply Forall_app in G. destruct G as [GA GB].
    inversion GB as [|? ? GQ GB']; subst. apply Forall_app. split; [exact GA|]. constructor; [exact (F q (proj1 G1) GQ)|exact GB'].
  - apply Forall_app. split; [exact G|]. constructor; [exact (IQ q EI)|constructor].
Qed.
Lemma tame_good : forall f id q, tame f -> good (id, q) -> good (id, f q).
Proof.
  intros f id q T [A B]. destruct (T q) as [T1 T2]. split; cbn [fst snd] in *; [rewrite T1; exact A|].
  intros H. destruct (T2 H) as (C & _ & ->). exact (B C).
Qed.
Lemma tame_recorded : forall f id q r, tame f -> recorded r (id, f q) = true -> recorded r (id, q) = true.
Proof.
  intros f id q r T H. unfold recorded in *. cbn [snd] in *. rewrite !andb_true_iff in *. destruct H as [[A B] C].
  destruct (T q) as [T1 T2]. destruct (T2 A) as (D & E & _). unfold is_inbound, is_relayed in *. rewrite T1 in B. rewrite E in C. auto.
Qed.
Lemma upsert_cnt : forall ret now s id f ins s' r, NoDup (keys s) -> upsert ret now s id f ins = Go s' -> tame f ->
  (forall q, ins = Go q -> is_connected q = false) -> (cnt (recorded r) s' <= cnt (recorded r) s)%nat.
Proof.
  intros ret now s id f ins s' r ND E T IQ. rewrite <- (cnt_retained (recorded r) ret now s (recorded_connected r)).
  destruct (upsert_cases _ _ _ _ _ _ _ ND E) as [(q & a & b & _ & -> & _ & _ & ->)|(q & _ & EI & _ & ->)]; cbv zeta in *.
  - rewrite !cnt_app, !cnt_cons. destruct (recorded r (id, f q)) eqn:R; [rewrite (tame_recorded f id q r T R)|]; lia.
  - rewrite cnt_app, cnt_cons. unfold recorded at 2. cbn [snd]. rewrite (IQ q EI). cbn [andb]. unfold cnt at 2. cbn [filter length]. lia.
Qed.
Lemma update_total : forall ret now s id f q, NoDup (keys s) -> In (id, q) s -> is_connected q = true ->
  exists s', update ret now s id f = Go s'.
Proof.
  intros ret now s id f q ND H C. unfold update, upsert.
  rewrite (get_of_in _ id q); [eauto|apply keys_filter, ND|]. apply filter_In. split; [exact H|].
  unfold retained, is_connected in *. cbn [snd]. destruct (p_conn q); congruence.
Qed.
Lemma evicted_tame : tame evicted.
Proof. intros q. split; [reflexivity|discriminate]. Qed.
(* evicting a connected recorded peer *)
Lemma evict_cnt : forall ret now s id q s' r, NoDup (keys s) -> In (id, q) s -> recorded r (id, q) = true ->
  update ret now s id evicted = Go s' -> (cnt (recorded r) s' < cnt (recorded r) s)%nat.
Proof.
  intros ret now s id q s' r ND H R E. rewrite <- (cnt_retained (recorded r) ret now s (recorded_connected r)).
  assert (HR : In (id, q) (filter (retained ret now) s)).
  { apply filter_In. split; [exact H|]. apply recorded_connected in R. unfold retained, is_connected in *. cbn [snd] in *.
    destruct (p_conn q); congruence. }
  destruct (upsert_cases _ _ _ _ _ _ _ ND E) as [(q' & a & b & G & E1 & _ & _ & ->)|(q' & _ & EI & _ & _)]; cbv zeta in *; [|discriminate EI].
  rewrite (get_of_in _ id q (keys_filter _ _ ND) HR) in G. injection G as <-. rewrite E1, !cnt_app, !cnt_cons, R.
  change (recorded r (id, evicted q)) with false. cbv iota. lia.
Qed.
Lemma candidates_ok : forall l, (forall e, In e l -> is_connected (snd e) = true /\ p_group (snd e) <> None) ->
  exists c, candidates l = Go c /\ map c_id c = keys l.
Proof.
  induction l as [|[id q] l IH]; intros H; [exists []; auto|]. destruct IH as (c & E & K); [intros e HE; apply H; right; exact HE|].
  destruct (H (id, q) (or_introl eq_refl)) as [C G]. cbn [snd] in *. cbn [candidates].
  destruct (p_group q) as [g|]; [|congruence]. unfold connected_at. unfold is_connected in C. destruct (p_conn q); try discriminate.
  rewrite E. eexists. split; [reflexivity|]. cbn [map c_id keys fst]. f_equal. exact K.
Qed.
Section Cfg.
Variables (rank group_of : N -> N) (resolve : N -> option N) (cfg : config).
Lemma chosen_in : forall c v, choose_inbound rank c = Some v -> In v (map c_id c).
Proof.
  intros c v E. destruct (chosen rank c v E) as (x & <- & HX & _). apply in_map. exact (c3_c rank c x HX).
Qed.
(* evict_inbound_peer on the recorded peers of a kind *)
Lemma evict_inbound_ok : forall now s l r, inv s -> (forall e, In e l -> In e s /\ recorded r e = true) ->
  exists s' ok, evict_inbound_peer rank cfg now s l = Go (s', ok) /\ inv s' /\
    (forall r', (cnt (recorded r') s' <= cnt (recorded r') s)%nat) /\
    (ok = true -> (cnt (recorded r) s' < cnt (recorded r) s)%nat) /\ (ok = false -> s' = s) /\
    forall id q, In (id, q) s -> retained (eviction_timeout cfg) now (id, q) = true ->
      In (id, q) s' \/ (recorded r (id, q) = true /\ In (id, evicted q) s').
Proof.
  intros now s l r I HL. unfold evict_inbound_peer. destruct (candidates_ok l) as (c & -> & K).
  { intros e HE. destruct (HL e HE) as [A B]. apply recorded_connected in B. split; [exact B|]. destruct I as [_ G].
    rewrite Forall_forall in G. exact (proj2 (G e A) B). }
  cbn [bind]. destruct (choose_inbound rank c) as [v|] eqn:EV.
  - apply chosen_in in EV. rewrite K in EV. apply in_map_iff in EV. destruct EV as ([v' q] & EV & HV). cbn [fst] in EV. subst v'.
    destruct (HL _ HV) as [HS R]. pose proof (recorded_connected _ _ R) as C. cbn [snd] in C.
    destruct (update_total (eviction_timeout cfg) now s v evicted q (proj1 I) HS C) as [s' E]. rewrite E. cbn [bind]. exists s', true.
    split; [reflexivity|]. split; [|split; [|split; [|split]]].
    + apply (upsert_inv _ _ _ _ _ _ _ I E); [|discriminate]. intros q0 _. apply tame_good, evicted_tame.
    + intros r'. apply (upsert_cnt _ _ _ _ _ _ _ r' (proj1 I) E evicted_tame). discriminate.
    + intros _. exact (evict_cnt _ _ _ _ _ _ _ (proj1 I) HS R E).
    + discriminate.
    + intros id q0 HQ RT. destruct (upsert_cases _ _ _ _ _ _ _ (proj1 I) E) as [(q1 & a & b & G & E1 & NA & NB & ->)|(q1 & _ & EI & _)]; cbv zeta in *; [|discriminate EI].
      assert (H1 : In (id, q0) (filter (retained (eviction_timeout cfg) now) s)) by (apply filter_In; auto).
      rewrite E1 in H1. apply in_app_or in H1. destruct H1 as [H1|[H1|H1]]; [left; apply in_or_app; left; exact H1| |left; apply in_or_app; right; right; exact H1].
      injection H1 as -> ->. right. split; [|apply in_or_app; right; left; reflexivity].
      pose proof (get_of_in _ _ _ (proj1 I) HQ) as X. rewrite (get_of_in _ _ _ (proj1 I) HS) in X. injection X as ->. exact R.
  - exists s, false. split; [reflexivity|]. split; [exact I|]. split; [auto|]. split; [discriminate|]. auto.
Qed.
Lemma limit_ok : forall now s a, inv s ->
  exists s' ok, limit_inbound rank cfg now s a = Go (s', ok) /\ inv s' /\
    (forall r', (cnt (recorded r') s' <= cnt (recorded r') s)%nat) /\
    (ok = true -> (cnt (recorded false) s <= max_inbound_direct_peers cfg)%nat -> (cnt (recorded true) s <= max_inbound_relayed_peers cfg)%nat ->
       if existsb is_circuit a then (cnt (recorded true) s' < max_inbound_relayed_peers cfg)%nat
       else (cnt (recorded false) s' < max_inbound_direct_peers cfg)%nat) /\
    forall id q, In (id, q) s -> retained (eviction_timeout cfg) now (id, q) = true ->
      In (id, q) s' \/ (recorded (existsb is_circuit a) (id, q) = true /\ In (id, evicted q) s' /\
        if existsb is_circuit a then (max_inbound_relayed_peers cfg <= cnt (recorded true) s)%nat
        else (max_inbound_direct_peers cfg <= cnt (recorded false) s)%nat).
Proof.
  intros now s a I. unfold limit_inbound. rewrite relayed_recorded, direct_recorded. destruct (existsb is_circuit a).
  - destruct (Nat.leb_spec (max_inbound_relayed_peers cfg) (cnt (recorded true) s)) as [L|L].
    + destruct (evict_inbound_ok now s (inbound_relayed_peers cfg now s) true I) as (s' & ok & E & I' & C1 & C2 & _ & K).
      { intros e H. unfold inbound_relayed_peers, iter in H. rewrite !filter_In in H. unfold recorded. destruct (is_relayed (snd e)); intuition. }
      exists s', ok. split; [exact E|]. split; [exact I'|]. split; [exact C1|]. split; [|intros id q H1 H2; destruct (K id q H1 H2) as [K1|[K1 K2]]; auto]. intros OK _ B. specialize (C2 OK). lia.
    + exists s, true. split; [reflexivity|]. split; [exact I|]. split; [auto|]. split; [intros; lia|auto].
  - destruct (Nat.leb_spec (max_inbound_direct_peers cfg) (cnt (recorded false) s)) as [L|L].
    + destruct (evict_inbound_ok now s (inbound_direct_peers cfg now s) false I) as (s' & ok & E & I' & C1 & C2 & _ & K).
      { intros e H. unfold inbound_direct_peers, iter in H. rewrite !filter_In in H. unfold recorded. destruct (is_relayed (snd e)); cbn in *; intuition. }
      exists s', ok. split; [exact E|]. split; [exact I'|]. split; [exact C1|]. split; [|intros id q H1 H2; destruct (K id q H1 H2) as [K1|[K1 K2]]; auto]. intros OK B _. specialize (C2 OK). lia.
    + exists s, true. split; [reflexivity|]. split; [exact I|]. split; [auto|]. split; [intros; lia|auto].
Qed.

(* ---- a step ---- *)
Definition allowed (o : op) : Prop :=
  match o with
  | EstablishedIn id _ _ => IN id
  | EstablishedOut id _ _ | PendingOut (Some id) _ | DialFailed (Some id) => OUT id
  | _ => True
  end.
Definition bounded (s : peer_set) : Prop :=
  (cnt (recorded false) s <= max_inbound_direct_peers cfg)%nat /\ (cnt (recorded true) s <= max_inbound_relayed_peers cfg)%nat.
Definition ok (w : world) : Prop :=
  inv (w_set w) /\ bounded (w_set w) /\ forall id, In (id, Inbound) (w_conns w) -> IN id.
Hypothesis disjoint : forall id, IN id -> OUT id -> False.
Lemma bounded_le : forall s s', bounded s -> (forall r, (cnt (recorded r) s' <= cnt (recorded r) s)%nat) -> bounded s'.
Proof. intros s s' [A B] H. pose proof (H false). pose proof (H true). split; lia. Qed.
(* a connection of a peer whose entry, if any, is of the direction d *)
Lemma on_established_ok : forall now s id d a s', inv s -> on_established group_of resolve cfg now s id d a = Go s' -> may id d ->
  inv s' /\ forall r, (cnt (recorded r) s' <= cnt (recorded r) s + (if dir_eqb d Inbound && eqb (existsb is_circuit a) r then 1 else 0))%nat.
Proof.
  intros now s id d a s' I E M. unfold on_established in E. destruct (get_ip resolve a) as [ip|].
  - split.
    + apply (upsert_inv _ _ _ _ _ _ _ I E); [intros q _ [A _]; split; [exact A|discriminate]|].
      intros q [= <-]. split; [exact M|discriminate].
    + intros r. rewrite <- (cnt_retained (recorded r) (eviction_timeout cfg) now s (recorded_connected r)).
      assert (RR : forall i g pn ev us, recorded r (i, Peer (Connected now) d (Some a) g pn ev us) =
        dir_eqb d Inbound && eqb (existsb is_circuit a) r) by (intros; destruct d; reflexivity).
      pose proof (proj2 (inv_filter (retained (eviction_timeout cfg) now) s I)) as G.
      destruct (upsert_cases _ _ _ _ _ _ _ (proj1 I) E) as [(q & l1 & l2 & _ & E1 & _ & _ & ->)|(q & _ & [= <-] & _ & ->)]; cbv zeta in *.
      * rewrite E1 in *. apply Forall_app in G. destruct G as [_ G]. inversion G as [|? ? GQ _]; subst. destruct GQ as [GQ _]. cbn [fst snd] in GQ.
        rewrite !cnt_app, !cnt_cons.
        assert (ED : p_dir q = d) by (destruct (p_dir q), d; cbn [may] in *; try reflexivity; exfalso; eauto). rewrite ED, RR.
        destruct (dir_eqb d Inbound && eqb (existsb is_circuit a) r), (recorded r (id, q)); lia.
      * rewrite cnt_app, cnt_cons, RR. change (cnt (recorded r) []) with 0%nat.
        destruct (dir_eqb d Inbound && eqb (existsb is_circuit a) r); lia.
  - split.
    + apply (upsert_inv _ _ _ _ _ _ _ I E); [intros q _ [A _]; split; [exact A|discriminate]|].
      intros q [= <-]. split; [exact M|discriminate].
    + intros r. assert (L : (cnt (recorded r) s' <= cnt (recorded r) s)%nat); [|lia].
      apply (upsert_cnt _ _ _ _ _ _ _ r (proj1 I) E); [intros q; split; [reflexivity|discriminate]|]. intros q [= <-]. reflexivity.
Qed.
Lemma tame_step : forall now s id f ins s', inv s -> upsert (eviction_timeout cfg) now s id f ins = Go s' -> tame f ->
  (forall q, ins = Go q -> is_connected q = false /\ may id (p_dir q)) -> inv s' /\ forall r, (cnt (recorded r) s' <= cnt (recorded r) s)%nat.
Proof.
  intros now s id f ins s' I E T IQ. split.
  - apply (upsert_inv _ _ _ _ _ _ _ I E); [intros q _; apply tame_good, T|]. intros q Q. destruct (IQ q Q) as [A B].
    split; [exact B|]. cbn [snd]. rewrite A. discriminate.
  - intros r. apply (upsert_cnt _ _ _ _ _ _ _ r (proj1 I) E T). intros q Q. exact (proj1 (IQ q Q)).
Qed.
Lemma upsert_go : forall now s id f q, exists s', upsert (eviction_timeout cfg) now s id f (Go q) = Go s'.
Proof. intros now s id f q. unfold upsert. destruct (get _ id); cbn [bind]; eauto. Qed.
Lemma evict_outbound_ok : forall now s, inv s -> exists s' b, evict_outbound_peer rank cfg now s = Go (s', b) /\ inv s' /\
  (forall r, (cnt (recorded r) s' <= cnt (recorded r) s)%nat) /\
  (b = false -> s' = s /\ forall id q, In (id, q) s -> is_connected q && is_outbound q = true -> p_useful q = true) /\
  (b = true -> exists v qv, In (v, qv) s /\ is_connected qv = true /\ is_outbound qv = true /\ p_useful qv = false /\
     In (v, evicted qv) s' /\ forall id q, id <> v -> In (id, q) s -> retained (eviction_timeout cfg) now (id, q) = true -> In (id, q) s') /\
  forall id q, In (id, q) s -> is_connected q = false -> retained (eviction_timeout cfg) now (id, q) = true -> In (id, q) s'.
Proof.
  intros now s I. unfold evict_outbound_peer. set (le := fun a b : N * peer => rank (fst a) <=? rank (fst b)).
  set (c := filter _ (outbound_peers cfg now s)).
  assert (HC : forall e, In e c -> In e s /\ is_connected (snd e) = true /\ is_outbound (snd e) = true /\ p_useful (snd e) = false).
  { intros e H. unfold c, outbound_peers, iter in H. rewrite !filter_In, andb_true_iff, negb_true_iff in H. tauto. }
  destruct (rev (sort le c)) as [|e l] eqn:ER.
  - exists s, false. split; [reflexivity|]. split; [exact I|]. split; [auto|]. split; [|split; [discriminate|auto]].
    intros _. split; [reflexivity|]. intros id q H CO. destruct (p_useful q) eqn:U; [reflexivity|]. exfalso.
    assert (X : In (id, q) c).
    { unfold c, outbound_peers, iter. rewrite !filter_In. cbn [snd]. rewrite U, CO. split; [|reflexivity]. split; [|reflexivity]. split; [exact H|].
      unfold retained. cbn [snd]. apply andb_true_iff in CO. unfold is_connected in CO. destruct (p_conn q); try reflexivity. destruct CO; discriminate. }
    apply (Permutation_in _ (sort_perm le c)), in_rev in X. rewrite ER in X. destruct X.
  - assert (HE : In e c).
    { apply (Permutation_in _ (Permutation_sym (sort_perm le c))), in_rev. rewrite ER. left. reflexivity. }
    destruct e as [v qv]. destruct (HC _ HE) as (HS & C & O & U). cbn [fst snd] in *.
    destruct (update_total (eviction_timeout cfg) now s v evicted qv (proj1 I) HS C) as [s' E]. rewrite E. cbn [bind]. exists s', true.
    split; [reflexivity|]. destruct (tame_step now s v evicted Panic s' I E evicted_tame) as [I' C']; [discriminate|].
    split; [exact I'|]. split; [exact C'|]. split; [discriminate|].
    destruct (upsert_cases _ _ _ _ _ _ _ (proj1 I) E) as [(q1 & a & b & G & E1 & NA & NB & E2)|(q1 & _ & EI & _)]; cbv zeta in *; [|discriminate EI].
    assert (q1 = qv).
    { apply get_in, filter_In in G. pose proof (get_of_in _ _ _ (proj1 I) (proj1 G)) as X. rewrite (get_of_in _ _ _ (proj1 I) HS) in X. congruence. }
    subst q1. split.
    + intros _. exists v, qv. split; [exact HS|]. split; [exact C|]. split; [exact O|]. split; [exact U|]. split.
      * rewrite E2. apply in_or_app. right. left. reflexivity.
      * intros id q NE H R. rewrite E2. assert (H1 : In (id, q) (filter (retained (eviction_timeout cfg) now) s)) by (apply filter_In; auto).
        rewrite E1 in H1. apply in_app_or in H1. apply in_or_app. destruct H1 as [H1|[H1|H1]]; [auto| |right; right; exact H1]. congruence.
    + intros id q H NC R. rewrite E2. assert (H1 : In (id, q) (filter (retained (eviction_timeout cfg) now) s)) by (apply filter_In; auto).
      rewrite E1 in H1. apply in_app_or in H1. apply in_or_app. destruct H1 as [H1|[H1|H1]]; [auto| |right; right; exact H1]. congruence.
Qed.
Lemma dial_tame : tame (fun q => if is_connected q then q else with_conn q Dialing).
Proof. intros q. destruct (is_connected q) eqn:C; [auto|]. split; [reflexivity|discriminate]. Qed.
Lemma fail_tame : forall now, tame (fun q => if is_connected q then q else with_conn q (Disconnected None now)).
Proof. intros now q. destruct (is_connected q) eqn:C; [auto|]. split; [reflexivity|discriminate]. Qed.
Lemma pending_outbound_ok : forall now s id d, inv s -> (forall i, id = Some i -> OUT i) ->
  exists s' b, pending_outbound rank cfg now s id d = Go (s', b) /\ inv s' /\ forall r, (cnt (recorded r) s' <= cnt (recorded r) s)%nat.
Proof.
  intros now s id d I A. unfold pending_outbound. destruct id as [id|]; [|exists s, true; auto]. destruct d; [|exists s, true; auto].
  destruct (evicted_too_recently now s id); [exists s, false; auto|].
  assert (K : exists s1 b, (if (max_outbound_peers cfg <=? length (outbound_peers cfg now s))%nat then evict_outbound_peer rank cfg now s else Go (s, true)) = Go (s1, b) /\
    inv s1 /\ forall r, (cnt (recorded r) s1 <= cnt (recorded r) s)%nat).
  { destruct (_ <=? _)%nat; [|exists s, true; auto]. destruct (evict_outbound_ok now s I) as (s1 & b & E & I1 & C1 & _). eauto. }
  destruct K as (s1 & b & -> & I1 & C1). cbn [bind]. destruct b; [|exists s1, false; auto].
  destruct (upsert_go now s1 id (fun q => if is_connected q then q else with_conn q Dialing) (Peer Dialing Outbound None None None false true)) as [s2 E2].
  rewrite E2. cbn [bind]. exists s2, true. split; [reflexivity|].
  destruct (tame_step _ _ _ _ _ _ I1 E2 dial_tame) as [I2 C2]; [intros q [= <-]; split; [reflexivity|exact (A id eq_refl)]|].
  split; [exact I2|]. intros r. exact (Nat.le_trans _ _ _ (C2 r) (C1 r)).
Qed.
Lemma pending_inbound_ok : forall now s a, inv s ->
  exists s' b, pending_inbound rank resolve cfg now s a = Go (s', b) /\ inv s' /\ (forall r, (cnt (recorded r) s' <= cnt (recorded r) s)%nat) /\
    forall id q, In (id, q) s -> is_connected q = false -> retained (eviction_timeout cfg) now (id, q) = true -> In (id, q) s'.
Proof.
  intros now s a I. unfold pending_inbound. destruct (_ <=? _)%nat; [exists s, false; auto|]. destruct (get_ip resolve a) as [ip|]; [|exists s, false; auto].
  destruct (negb _); [exists s, false; auto|]. destruct (existsb _ (iter _ now s)); [exists s, false; auto|].
  assert (K : exists s' b, limit_inbound rank cfg now s a = Go (s', b) /\ inv s' /\ (forall r, (cnt (recorded r) s' <= cnt (recorded r) s)%nat) /\
    forall id q, In (id, q) s -> is_connected q = false -> retained (eviction_timeout cfg) now (id, q) = true -> In (id, q) s').
  { destruct (limit_ok now s a I) as (s' & b & E & I' & C & _ & K). exists s', b. split; [exact E|]. split; [exact I'|]. split; [exact C|].
    intros id q H NC R. destruct (K id q H R) as [K1|[K1 _]]; [exact K1|]. apply recorded_connected in K1. cbn [snd] in K1. congruence. }
  destruct (find_map _ a) as [id|]; [|exact K]. destruct (evicted_too_recently now s id); [exists s, false; auto|exact K].
Qed.
Lemma remove_first_in : forall id l l' e, remove_first id l = Some l' -> In e l' -> In e l.
Proof.
  intros id. induction l as [|x l IH]; intros l' e E H; [discriminate E|]. cbn [remove_first] in E. destruct (fst x =? id).
  - injection E as <-. right. exact H.
  - destruct (remove_first id l) as [r|]; [|discriminate E]. injection E as <-. destruct H as [<-|H]; [left; reflexivity|right; exact (IH r e eq_refl H)].
Qed.
Lemma step_ok : forall w now o w', ok w -> allowed o -> step rank group_of resolve cfg w now o = Go w' -> ok w'.
Proof.
  intros [s conns] now o w' (I & B & CI) A E. cbn [w_set w_conns] in *. destruct o as [a|id a inner|id d|id a inner|id|id|id d|id]; cbn [step w_set w_conns] in E.
  - destruct (pending_inbound_ok now s a I) as (s' & b & E1 & I' & C & _). rewrite E1 in E. injection E as <-.
    split; [exact I'|]. split; [exact (bounded_le _ _ B C)|exact CI].
  - unfold established_inbound in E. destruct (get_ip resolve a) as [ip|] eqn:EI; [|injection E as <-; split; [exact I|split; [exact B|exact CI]]].
    destruct (duplicate s id); [injection E as <-; split; [exact I|split; [exact B|exact CI]]|].
    destruct (evicted_too_recently now s id); [injection E as <-; split; [exact I|split; [exact B|exact CI]]|].
    destruct (limit_ok now s a I) as (s' & b & E1 & I' & C & L & _). rewrite E1 in E. cbn [bind] in E.
    destruct (b && inner) eqn:EB.
    + apply andb_true_iff in EB. destruct EB as [-> _]. destruct (on_established group_of resolve cfg now s' id Inbound a) as [s2|] eqn:E2; [|discriminate E].
      injection E as <-. destruct (on_established_ok _ _ _ _ _ _ I' E2 A) as [I2 C2]. split; [exact I2|]. split.
      * specialize (L eq_refl (proj1 B) (proj2 B)). pose proof (C2 false). pose proof (C2 true). pose proof (C false). pose proof (C true). destruct B as [B1 B2].
        unfold bounded. cbn [w_set]. destruct (existsb is_circuit a); cbn [dir_eqb eqb andb] in *; lia.
      * intros i H. apply in_app_or in H. destruct H as [H|[[= <-]|[]]]; [exact (CI i H)|exact A].
    + injection E as <-. split; [exact I'|]. split; [exact (bounded_le _ _ B C)|exact CI].
  - destruct (pending_outbound_ok now s id d I) as (s' & b & E1 & I' & C); [intros i ->; exact A|]. rewrite E1 in E. injection E as <-.
    split; [exact I'|]. split; [exact (bounded_le _ _ B C)|exact CI].
  - destruct (established_outbound resolve now s id a && inner); [|injection E as <-; split; [exact I|split; [exact B|exact CI]]].
    destruct (on_established group_of resolve cfg now s id Outbound a) as [s2|] eqn:E2; [|discriminate E]. injection E as <-.
    destruct (on_established_ok _ _ _ _ _ _ I E2 A) as [I2 C2]. split; [exact I2|]. split.
    + apply (bounded_le _ _ B). intros r. specialize (C2 r). cbn [dir_eqb andb w_set] in *. lia.
    + intros i H. apply in_app_or in H. destruct H as [H|[H|[]]]; [exact (CI i H)|discriminate H].
  - unfold on_dial_failure in E. destruct id as [id|]; [|injection E as <-; split; [exact I|split; [exact B|exact CI]]].
    destruct (upsert _ now s id _ _) as [s'|] eqn:E1; [|discriminate E]. injection E as <-.
    destruct (tame_step _ _ _ _ _ _ I E1 (fail_tame now)) as [I' C]; [intros q [= <-]; split; [reflexivity|exact A]|].
    split; [exact I'|]. split; [exact (bounded_le _ _ B C)|exact CI].
  - destruct (remove_first id conns) as [cs|] eqn:ER; [|injection E as <-; split; [exact I|split; [exact B|exact CI]]].
    unfold on_closed in E. destruct (connections id cs).
    + destruct (update _ now s id _) as [s'|] eqn:E1; [|discriminate E]. injection E as <-.
      destruct (tame_step _ _ _ _ _ _ I E1 ltac:(intros q; split; [reflexivity|discriminate])) as [I' C]; [discriminate|].
      split; [exact I'|]. split; [exact (bounded_le _ _ B C)|]. intros i H. exact (CI i (remove_first_in _ _ _ _ ER H)).
    + injection E as <-. split; [exact I|]. split; [exact B|]. intros i H. exact (CI i (remove_first_in _ _ _ _ ER H)).
  - unfold pinged in E. destruct (update _ now s id _) as [s'|] eqn:E1; [|discriminate E]. injection E as <-.
    destruct (tame_step _ _ _ _ _ _ I E1 ltac:(intros q; split; [reflexivity|intros H; split; [exact H|split; reflexivity]])) as [I' C]; [discriminate|].
    split; [exact I'|]. split; [exact (bounded_le _ _ B C)|exact CI].
  - unfold not_useful in E. destruct (update _ now s id _) as [s'|] eqn:E1; [|discriminate E]. injection E as <-.
    destruct (tame_step _ _ _ _ _ _ I E1 ltac:(intros q; split; [reflexivity|intros H; split; [exact H|split; reflexivity]])) as [I' C]; [discriminate|].
    split; [exact I'|]. split; [exact (bounded_le _ _ B C)|exact CI].
Qed.
Lemma run_ok : forall ops w w', ok w -> (forall t o, In (t, o) ops -> allowed o) -> run rank group_of resolve cfg w ops = Go w' -> ok w'.
Proof.
  induction ops as [|[now o] ops IH]; intros w w' K A E; [injection E as <-; exact K|]. cbn [run] in E.
  destruct (step rank group_of resolve cfg w now o) as [w1|] eqn:E1; [|discriminate E]. cbn [bind] in E.
  apply (IH w1 w'); [|intros t o' H; apply (A t); right; exact H|exact E].
  exact (step_ok w now o w1 K (A now o (or_introl eq_refl)) E1).
Qed.
Lemma start_ok : ok start.
Proof. split; [split; constructor|]. split; [split; apply Nat.le_0_l|intros id []]. Qed.
End Cfg.
End Inv.
