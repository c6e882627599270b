(* Lemmas on reverse updates *)
From Coq Require Import List Arith NArith Bool Lia ZifyBool ZifyNat ZifyN.
From Verif Require Import ListLib Radix AList SortedMap StateUpdateModel ChainModel ChainSpec ChainProof ReverseSpec.
Import ListNotations.
Local Open Scope N_scope.

#[local] Arguments class_at : simpl never.
#[local] Arguments nonce_at : simpl never.
#[local] Arguments storage_at : simpl never.

(* ---- the keys written in a range ---- *)
Section Touched.
  Context {K V : Type}.
  Variable eqb : K -> K -> bool.
  Hypothesis eqb_spec : forall a b, reflect (a = b) (eqb a b).

  Lemma dedup_in (l : list K) x : In x (dedup eqb l) <-> In x l.
  Proof.
    revert x. induction l as [|y l IH]; intros x; cbn [dedup fold_right]; [tauto|]. fold (dedup eqb l).
    destruct (existsb (eqb y) (dedup eqb l)) eqn:E; cbn [In]; rewrite IH; [|tauto].
    apply existsb_exists in E. destruct E as (z & Z & E). destruct (eqb_spec y z) as [->|]; [|discriminate].
    apply IH in Z. split; [tauto|]. intros [->|X]; tauto.
  Qed.
  Lemma dedup_nodup (l : list K) : NoDup (dedup eqb l).
  Proof.
    induction l as [|y l IH]; cbn [dedup fold_right]; [constructor|]. fold (dedup eqb l).
    destruct (existsb (eqb y) (dedup eqb l)) eqn:E; [exact IH|]. constructor; [|exact IH].
    intros I. assert (X : existsb (eqb y) (dedup eqb l) = true).
    { apply existsb_exists. exists y. split; [exact I|]. destruct (eqb_spec y y); congruence. }
    congruence.
  Qed.
  Lemma touched_in from to (t : list (row K V)) k :
    In k (touched eqb from to t) <-> exists r, In r t /\ r_key r = k /\ to < r_block r /\ r_block r <= from.
  Proof.
    unfold touched. rewrite dedup_in, in_map_iff. split.
    - intros (r & E & I). apply filter_In in I. exists r. split; [apply I|]. split; [exact E|]. lia.
    - intros (r & I & E & L1 & L2). exists r. split; [exact E|]. apply filter_In. split; [exact I|]. lia.
  Qed.

  Variable w : l2_block -> K -> option V.
  Lemma touched_writes t low c from to k :
    tracks w t low c -> low <= to ->
    (In k (touched eqb from to t) <->
     exists i b v, to < i /\ i <= from /\ block_at c i = Some b /\ w b k = Some v).
  Proof.
    intros T L. rewrite touched_in. split.
    - intros (r & I & E & L1 & L2). apply T in I. destruct I as [(b & B & W) _].
      exists (r_block r), b, (r_val r). rewrite <- E. auto.
    - intros (i & b & v & L1 & L2 & B & W). exists (Row i k v). split; [|cbn; auto].
      apply T. cbn. split; [eauto|]. intros d x D1 D2. lia.
  Qed.
  Lemma untouched_same t low c from to k :
    tracks w t low c -> low <= to -> to <= from -> from < clen c ->
    ~ In k (touched eqb from to t) -> state_after w (up_to c from) k = state_after w (up_to c to) k.
  Proof.
    intros T L LE U NT.
    assert (Q : forall d b, to < d -> d <= from -> block_at c d = Some b -> w b k = None).
    { intros d b D1 D2 B. destruct (w b k) as [v|] eqn:W; [|reflexivity]. exfalso. apply NT.
      apply (touched_writes t low c from to k T L). exists d, b, v. auto. }
    pose proof (state_at_inv w c to k ltac:(lia)) as H. destruct (state_after w (up_to c to) k) as [v|].
    - destruct H as (m & b & M & B & W & QU). apply (state_at_some w c from k v m b); [exact U|lia|exact B|exact W|].
      intros d x D1 D2 X. destruct (N.le_gt_cases d to); [eapply QU; eauto|eapply Q; eauto].
    - apply state_at_none; [exact U|]. intros d b D B. destruct (N.le_gt_cases d to); [eapply H; eauto|eapply Q; eauto].
  Qed.
End Touched.

(* ---- update_mut ---- *)
Definition mutated (f : contract_update -> contract_update) (o : option reverse_update) : option reverse_update :=
  match o with
  | Some Deleted => Some Deleted
  | Some (Updated u) => Some (Updated (f u))
  | None => Some (Updated (f contract_default))
  end.
Lemma update_mut_get f m a a' :
  nget a' (update_mut f m a) = if a' =? a then mutated f (nget a m) else nget a' m.
Proof.
  unfold update_mut, mutated. destruct (nget a m) as [[|u]|] eqn:G.
  - destruct (N.eqb_spec a' a) as [->|]; [exact G|reflexivity].
  - destruct (N.eqb_spec a' a) as [->|NE]; [apply (al_get_set_eq _ neqb_spec)|apply (al_get_set_neq _ neqb_spec); exact NE].
  - destruct (N.eqb_spec a' a) as [->|NE]; [apply (al_get_set_eq _ neqb_spec)|apply (al_get_set_neq _ neqb_spec); exact NE].
Qed.
Lemma update_mut_fold (f : N -> contract_update -> contract_update) ks : forall m a,
  NoDup ks ->
  (In a ks -> nget a (fold_left (fun m a => update_mut (f a) m a) ks m) = mutated (f a) (nget a m)) /\
  (~ In a ks -> nget a (fold_left (fun m a => update_mut (f a) m a) ks m) = nget a m).
Proof.
  induction ks as [|k ks IH]; intros m a ND; cbn [fold_left]; [split; [intros []|reflexivity]|].
  inversion ND as [|x l NI ND']; subst. destruct (IH (update_mut (f k) m k) a ND') as [IH1 IH2].
  pose proof (update_mut_get (f k) m k a) as U. split.
  - intros [->|I].
    + rewrite IH2 by exact NI. rewrite U, N.eqb_refl. reflexivity.
    + rewrite IH1 by exact I. rewrite U. destruct (N.eqb_spec a k) as [->|]; [contradiction|reflexivity].
  - intros NA. rewrite IH2 by (intros X; apply NA; right; exact X). rewrite U.
    destruct (N.eqb_spec a k) as [->|]; [destruct NA; left; reflexivity|reflexivity].
Qed.

Lemma nget_map_keys {V} (f : N -> V) ks a :
  (In a ks -> nget a (map (fun x => (x, f x)) ks) = Some (f a)) /\
  (~ In a ks -> nget a (map (fun x => (x, f x)) ks) = None).
Proof.
  induction ks as [|k ks [IH1 IH2]]; [split; [intros []|reflexivity]|].
  cbn [map]. unfold al_get. fold (@al_get N V N.eqb).
  destruct (N.eqb_spec a k) as [->|NE].
  - split; [reflexivity|]. intros X. destruct X. left. reflexivity.
  - split.
    + intros [->|I]; [congruence|auto].
    + intros X. apply IH2. intros I. apply X. right. exact I.
Qed.

(* ---- storage tries ---- *)
Lemma tree_set_fold kvs : forall t k,
  NoDup (map fst kvs) ->
  nget k (fold_left tree_set kvs t) =
  match nget k kvs with
  | Some v => if v =? 0 then None else Some v
  | None => nget k t
  end.
Proof.
  induction kvs as [|(k', v) kvs IH]; intros t k ND; cbn [fold_left]; [reflexivity|].
  cbn [map fst] in ND. inversion ND as [|x l NI ND']; subst. rewrite IH by exact ND'.
  unfold al_get at 3. fold (@al_get N N N.eqb).
  unfold tree_set. cbn [fst snd].
  destruct (N.eqb_spec k k') as [->|NE].
  - rewrite (al_not_in_get_none _ neqb_spec) by exact NI.
    destruct (v =? 0); [apply (al_get_remove_eq _ neqb_spec)|apply (al_get_set_eq _ neqb_spec)].
  - destruct (nget k kvs); [reflexivity|].
    destruct (v =? 0); [apply (al_get_remove_neq _ neqb_spec)|apply (al_get_set_neq _ neqb_spec)]; exact NE.
Qed.
Lemma nil_all_none (t : nmap N) : is_nil t = true <-> forall k, nget k t = None.
Proof.
  destruct t as [|(k, v) t]; cbn; [split; reflexivity|]. split; [discriminate|].
  intros H. specialize (H k). unfold al_get in H. rewrite N.eqb_refl in H. discriminate.
Qed.

Section Revert.
  Variables (low : N) (d : db) (c : chain) (head to : N).
  Hypothesis I : inv low d c.
  Hypothesis LT : low <= to.
  Hypothesis TH : to <= head.
  Hypothesis HC : head < clen c.

  Let tcl := touched N.eqb head to (d_classes d).
  Let tno := touched N.eqb head to (d_nonces d).
  Let tst := touched pair_eqb head to (d_storage d).

  Lemma old_class a : latest N.eqb (fun m => m <=? to) a (d_classes d) = class_at c to a.
  Proof. apply (tracks_lookup writes_class N.eqb neqb_spec _ low); [apply I|lia|lia|reflexivity]. Qed.
  Lemma old_nonce a : latest N.eqb (fun m => m <=? to) a (d_nonces d) = nonce_at c to a.
  Proof. apply (tracks_lookup writes_nonce N.eqb neqb_spec _ low); [apply I|lia|lia|reflexivity]. Qed.
  Lemma old_storage a k : latest pair_eqb (fun m => m <=? to) (a, k) (d_storage d) = storage_at c to a k.
  Proof. apply (tracks_lookup writes_storage pair_eqb pair_eqb_spec _ low); [apply I|lia|lia|reflexivity]. Qed.

  Lemma same_class a : ~ In a tcl -> class_at c head a = class_at c to a.
  Proof. intros H. eapply (untouched_same N.eqb neqb_spec writes_class); eauto. apply I. Qed.
  Lemma same_nonce a : ~ In a tno -> nonce_at c head a = nonce_at c to a.
  Proof. intros H. eapply (untouched_same N.eqb neqb_spec writes_nonce); eauto. apply I. Qed.
  Lemma same_storage a k : ~ In (a, k) tst -> storage_at c head a k = storage_at c to a k.
  Proof. intros H. eapply (untouched_same pair_eqb pair_eqb_spec writes_storage); eauto. apply I. Qed.

  Lemma slots_spec a :
    NoDup (map fst (reverse_slots d head to a)) /\
    (forall k, In (a, k) tst -> nget k (reverse_slots d head to a) = Some (value (storage_at c to a k))) /\
    (forall k, ~ In (a, k) tst -> nget k (reverse_slots d head to a) = None).
  Proof.
    unfold reverse_slots. fold tst.
    set (f := fun ak : N * N => (snd ak, get_or 0 (latest pair_eqb (fun m => m <=? to) ak (d_storage d)))).
    assert (E : map f (filter (fun ak => fst ak =? a) tst)
                = map (fun k => (k, value (storage_at c to a k))) (map snd (filter (fun ak => fst ak =? a) tst))).
    { rewrite map_map. apply map_ext_in. intros (a', k) H. apply filter_In in H. destruct H as [_ H]. cbn in H.
      assert (a' = a) by lia. subst a'. unfold f. cbn [snd]. rewrite old_storage.
      destruct (storage_at c to a k); reflexivity. }
    assert (K : forall k, In k (map snd (filter (fun ak => fst ak =? a) tst)) <-> In (a, k) tst).
    { intros k. rewrite in_map_iff. split.
      - intros ((a', k') & <- & H). apply filter_In in H. destruct H as [H X]. cbn in X |- *.
        assert (a' = a) by lia. subst. exact H.
      - intros H. exists (a, k). split; [reflexivity|]. apply filter_In. split; [exact H|]. apply N.eqb_refl. }
    rewrite E. split; [|split].
    - rewrite map_map. cbn [fst]. rewrite map_id.
      assert (ND : NoDup tst) by (apply (dedup_nodup pair_eqb pair_eqb_spec)).
      revert ND. generalize tst. intros l. induction l as [|(a', k) l IH]; intros ND; cbn [filter map]; [constructor|].
      inversion ND as [|x y NI ND']; subst. cbn [fst]. destruct (N.eqb_spec a' a) as [->|]; [|auto].
      cbn [map snd]. constructor; [|auto]. intros H. apply NI. apply in_map_iff in H.
      destruct H as ((a', k') & E1 & H). apply filter_In in H. destruct H as [H X]. cbn in E1, X. subst k'.
      assert (a' = a) by lia. subst. exact H.
    - intros k H. apply (proj1 (nget_map_keys (fun k => value (storage_at c to a k)) _ k)). apply K. exact H.
    - intros k H. apply (proj2 (nget_map_keys (fun k => value (storage_at c to a k)) _ k)). rewrite K. exact H.
  Qed.

  (* the entry of a contract in the reverse updates *)
  Definition tsa := dedup N.eqb (map fst tst).
  Lemma tsa_in a : In a tsa <-> exists k, In (a, k) tst.
  Proof.
    unfold tsa. rewrite (dedup_in N.eqb neqb_spec), in_map_iff. split.
    - intros ((a', k) & <- & H). exists k. exact H.
    - intros (k & H). exists (a, k). auto.
  Qed.

  Lemma reverse_get a :
    nget a (reverse_contract_updates d head to) =
    (let o1 := if in_dec N.eq_dec a tcl
               then Some (match class_at c to a with
                          | None => Deleted
                          | Some x => Updated (ContractUpdate [] (Some (Replace x)) None)
                          end)
               else None in
     let o2 := if in_dec N.eq_dec a tno
               then mutated (fun u => ContractUpdate (cu_storage u) (cu_class u) (nonce_at c to a)) o1
               else o1 in
     if in_dec N.eq_dec a tsa
     then mutated (fun u => ContractUpdate (reverse_slots d head to a) (cu_class u) (cu_nonce u)) o2
     else o2).
  Proof.
    unfold reverse_contract_updates. fold tno tst. fold tsa. cbv zeta.
    pose proof (update_mut_fold (fun a u => ContractUpdate (reverse_slots d head to a) (cu_class u) (cu_nonce u)) tsa) as F3.
    pose proof (update_mut_fold (fun a u => ContractUpdate (cu_storage u) (cu_class u)
                    (latest N.eqb (fun x => x <=? to) a (d_nonces d))) tno) as F2.
    assert (N3 : NoDup tsa) by (apply (dedup_nodup N.eqb neqb_spec)).
    assert (N2 : NoDup tno) by (apply (dedup_nodup N.eqb neqb_spec)).
    assert (F1 : nget a (reverse_classes d head to) =
      if in_dec N.eq_dec a tcl
               then Some (match class_at c to a with
                          | None => Deleted
                          | Some x => Updated (ContractUpdate [] (Some (Replace x)) None)
                          end)
               else None).
    { unfold reverse_classes. fold tcl.
      destruct (nget_map_keys (fun a => match latest N.eqb (fun m => m <=? to) a (d_classes d) with
                    | None => Deleted
                    | Some c => Updated (ContractUpdate [] (Some (Replace c)) None)
                    end) tcl a) as [G1 G2].
      destruct (in_dec N.eq_dec a tcl) as [Y|Y]; [rewrite G1 by exact Y; rewrite old_class; reflexivity|apply G2; exact Y]. }
    rewrite <- F1. clear F1.
    match goal with |- context [fold_left _ tno ?x] => set (m0 := x) end.
    destruct (F2 m0 a N2) as [A1 A2].
    match goal with |- context [fold_left _ tsa ?x] => set (m1 := x) in * end.
    destruct (F3 m1 a N3) as [B1 B2].
    destruct (in_dec N.eq_dec a tsa) as [Y|Y]; [rewrite B1 by exact Y; f_equal|rewrite B2 by exact Y];
      (destruct (in_dec N.eq_dec a tno) as [Z|Z]; [rewrite A1 by exact Z; rewrite old_nonce; reflexivity|apply A2; exact Z]).
  Qed.

  (* a contract with a nonce or storage row in the range has a class *)
  Lemma written_known a :
    In a tno \/ (exists k, In (a, k) tst) -> is_system a = false ->
    class_at c to a <> None \/ In a tcl.
  Proof.
    intros H NS.
    assert (X : exists i b u, to < i /\ i <= head /\ block_at c i = Some b /\ In (a, u) (sd_contracts (lb_data b))).
    { destruct H as [H|(k & H)].
      - apply (touched_writes N.eqb neqb_spec writes_nonce _ low c) in H; [|apply I|exact LT].
        destruct H as (i & b & v & L1 & L2 & B & W). unfold writes_nonce in W.
        destruct (nget a (sd_contracts (lb_data b))) as [u|] eqn:G; [|discriminate].
        exists i, b, u. apply nget_in in G. auto.
      - apply (touched_writes pair_eqb pair_eqb_spec writes_storage _ low c) in H; [|apply I|exact LT].
        destruct H as (i & b & v & L1 & L2 & B & W). unfold writes_storage in W. rewrite NS in W.
        destruct (nget a (sd_contracts (lb_data b))) as [u|] eqn:G; [|discriminate].
        exists i, b, u. apply nget_in in G. auto. }
    destruct X as (i & b & u & L1 & L2 & B & IN).
    pose proof (i_known _ _ _ I i b a u B IN) as KN. unfold class_at in *.
    pose proof (state_at_inv writes_class c i a ltac:(lia)) as SI.
    destruct (state_after writes_class (up_to c i) a) as [v|] eqn:SA; [|congruence].
    destruct SI as (j & y & J & BY & WY & Q). destruct (N.le_gt_cases j to) as [JT|JT].
    - left. pose proof (state_at_inv writes_class c to a ltac:(lia)) as SJ.
      destruct (state_after writes_class (up_to c to) a); [discriminate|]. rewrite (SJ j y JT BY) in WY. discriminate.
    - right. apply (touched_writes N.eqb neqb_spec writes_class _ low c); [apply I|exact LT|].
      exists j, y, v. split; [exact JT|]. split; [lia|]. auto.
  Qed.

  Lemma system_no_class n a : n < clen c -> is_system a = true -> class_at c n a = None.
  Proof.
    intros L SY. unfold class_at. apply state_at_none; [exact L|]. intros i b _ B. unfold writes_class.
    destruct (nget a (sd_contracts (lb_data b))) as [u|] eqn:G; [|reflexivity].
    apply nget_in in G. destruct (i_wf _ _ _ I i b B) as (_ & _ & _ & _ & W & _).
    destruct (W a u G). congruence.
  Qed.
  Lemma unknown_no_storage n a :
    n < clen c -> is_system a = false -> class_at c n a = None -> forall k, storage_at c n a k = None.
  Proof.
    intros L NS NC k. unfold storage_at. apply state_at_none; [exact L|]. intros i b LI B.
    unfold writes_storage. rewrite NS. destruct (nget a (sd_contracts (lb_data b))) as [u|] eqn:G; [|reflexivity].
    apply nget_in in G. exfalso. pose proof (i_known _ _ _ I i b a u B G) as KN. unfold class_at in *.
    pose proof (state_at_inv writes_class c i a ltac:(lia)) as SI.
    destruct (state_after writes_class (up_to c i) a) as [v|]; [|congruence].
    destruct SI as (j & y & J & BY & WY & _).
    pose proof (state_at_inv writes_class c n a L) as SN. rewrite NC in SN. rewrite (SN j y ltac:(lia) BY) in WY.
    discriminate.
  Qed.

  Lemma reverse_untouched a :
    nget a (reverse_contract_updates d head to) = None -> same_leaf c head to a.
  Proof.
    rewrite reverse_get. cbv zeta.
    destruct (in_dec N.eq_dec a tcl) as [C|C], (in_dec N.eq_dec a tno) as [NN|NN], (in_dec N.eq_dec a tsa) as [T|T];
      cbn; try discriminate; try (destruct (class_at c to a); discriminate).
    intros _. split; [apply same_class; exact C|]. split; [apply same_nonce; exact NN|].
    intros k. apply same_storage. intros X. apply T. apply tsa_in. eauto.
  Qed.

  Lemma reverse_deleted a :
    nget a (reverse_contract_updates d head to) = Some Deleted <->
    (class_at c head a <> None /\ class_at c to a = None).
  Proof.
    rewrite reverse_get. cbv zeta.
    assert (KEY : In a tcl -> class_at c head a <> None).
    { intros H. apply (touched_writes N.eqb neqb_spec writes_class _ low c) in H; [|apply I|exact LT].
      destruct H as (i & b & v & L1 & L2 & B & W). unfold class_at.
      pose proof (state_at_inv writes_class c head a HC) as SI.
      destruct (state_after writes_class (up_to c head) a); [discriminate|]. rewrite (SI i b L2 B) in W. discriminate. }
    destruct (in_dec N.eq_dec a tcl) as [C|C].
    - specialize (KEY C). destruct (class_at c to a) as [x|].
      + split; [|intros [_ X]; discriminate].
        destruct (in_dec N.eq_dec a tno), (in_dec N.eq_dec a tsa); cbn; discriminate.
      + split; [auto|]. intros _. destruct (in_dec N.eq_dec a tno), (in_dec N.eq_dec a tsa); reflexivity.
    - split.
      + destruct (in_dec N.eq_dec a tno), (in_dec N.eq_dec a tsa); cbn; discriminate.
      + intros [X Y]. rewrite (same_class a C) in X. contradiction.
  Qed.

  Lemma reverse_leaf a r tree :
    nget a (reverse_contract_updates d head to) = Some r -> holds tree (storage_at c head a) ->
    exists o, revert_contract d to a tree r = Some o /\ leaf_is c to a o.
  Proof.
    intros G HT. pose proof (reverse_deleted a) as DEL. rewrite G in DEL.
    destruct r as [|u].
    - (* deleted *)
      cbn. exists None. split; [reflexivity|]. destruct (proj1 DEL eq_refl) as [X Y].
      split; [exact Y|]. intros k.
      destruct (is_system a) eqn:SY; [rewrite (system_no_class head a HC SY) in X; congruence|].
      rewrite (unknown_no_storage to a ltac:(lia) SY Y k). reflexivity.
    - assert (ND : ~ (class_at c head a <> None /\ class_at c to a = None)).
      { intros X. apply DEL in X. discriminate. }
      clear DEL. rewrite reverse_get in G. cbv zeta in G.
      destruct (slots_spec a) as (S1 & S2 & S3).
      (* the fields of the update *)
      assert (FC : (cu_class u = option_map Replace (class_at c to a) /\ class_at c to a <> None) \/
                   (cu_class u = None /\ ~ In a tcl)).
      { destruct (in_dec N.eq_dec a tcl) as [C|C]; [left|right].
        - destruct (class_at c to a) as [x|];
            destruct (in_dec N.eq_dec a tno), (in_dec N.eq_dec a tsa); cbn in G; try discriminate;
            injection G as <-; (split; [reflexivity|discriminate]).
        - split; [|exact C].
          destruct (in_dec N.eq_dec a tno), (in_dec N.eq_dec a tsa); cbn in G; try discriminate;
            injection G as <-; reflexivity. }
      assert (FN : cu_nonce u = nonce_at c to a \/ (cu_nonce u = None /\ ~ In a tno)).
      { destruct (in_dec N.eq_dec a tno) as [NN|NN]; [left|right; split; [|exact NN]];
          destruct (in_dec N.eq_dec a tcl), (in_dec N.eq_dec a tsa); cbn in G;
          try (destruct (class_at c to a); cbn in G; [|discriminate G]);
          try discriminate; injection G as <-; reflexivity. }
      assert (FS : cu_storage u = reverse_slots d head to a \/ (cu_storage u = [] /\ ~ In a tsa)).
      { destruct (in_dec N.eq_dec a tsa) as [T|T]; [left|right; split; [|exact T]];
          destruct (in_dec N.eq_dec a tcl), (in_dec N.eq_dec a tno); cbn in G;
          try (destruct (class_at c to a); cbn in G; [|discriminate G]);
          try discriminate; injection G as <-; reflexivity. }
      assert (SOME : In a tcl \/ In a tno \/ In a tsa).
      { destruct (in_dec N.eq_dec a tcl); [auto|]. destruct (in_dec N.eq_dec a tno); [auto|].
        destruct (in_dec N.eq_dec a tsa); [auto|]. discriminate. }
      clear G.
      assert (LC : lookup_class d (Number to) a = class_at c to a) by apply old_class.
      assert (LN : lookup_nonce d (Number to) a = nonce_at c to a) by apply old_nonce.
      assert (HS : holds (fold_left tree_set (cu_storage u) tree) (storage_at c to a)).
      { intros k. destruct FS as [-> | [-> NT]].
        - rewrite (tree_set_fold _ _ _ S1).
          destruct (in_dec (fun x y => match pair_eqb_spec x y with ReflectT _ e => left e | ReflectF _ e => right e end) (a, k) tst) as [IN|NI].
          + rewrite (S2 k IN). unfold value. destruct (storage_at c to a k) as [v|]; [|reflexivity].
            destruct (v =? 0); reflexivity.
          + rewrite (S3 k NI), HT, (same_storage a k NI). reflexivity.
        - cbn [fold_left]. rewrite HT.
          assert (NI : ~ In (a, k) tst) by (intros X; apply NT, tsa_in; eauto).
          rewrite (same_storage a k NI). reflexivity. }
      assert (NV : match cu_nonce u with Some x => x | None => get_or 0 (lookup_nonce d (Number to) a) end
                   = value (nonce_at c to a)).
      { rewrite LN. destruct FN as [-> | [-> _]]; destruct (nonce_at c to a); reflexivity. }
      unfold revert_contract. rewrite NV. set (tree' := fold_left tree_set (cu_storage u) tree) in *.
      destruct (is_system a) eqn:SY.
      + pose proof (system_no_class to a ltac:(lia) SY) as NC.
        assert (EC : match cu_class u with Some x => Some (class_hash x) | None => Some 0 end = Some 0).
        { destruct FC as [[_ X]|[-> _]]; [congruence|reflexivity]. }
        rewrite EC. cbn [andb]. destruct (is_nil tree') eqn:NIL.
        * exists None. split; [reflexivity|]. split; [exact NC|]. intros k.
          pose proof (proj1 (nil_all_none tree') NIL k) as Z. rewrite HS in Z.
          destruct (N.eqb_spec (value (storage_at c to a k)) 0) as [E|E]; [exact E|]. rewrite Z in E. destruct E. reflexivity.
        * exists (Some (Leaf 0 (value (nonce_at c to a)) tree')). split; [reflexivity|].
          split; [rewrite SY; reflexivity|]. split; [reflexivity|exact HS].
      + cbn [andb].
        assert (EC : exists x, class_at c to a = Some x /\
                 match cu_class u with Some y => Some (class_hash y) | None => lookup_class d (Number to) a end = Some x).
        { destruct FC as [[EC X]|[EC NC]].
          - rewrite EC. destruct (class_at c to a) as [x|]; [|congruence]. exists x. split; reflexivity.
          - rewrite EC, LC.
            destruct (class_at c to a) as [x|] eqn:CT; [exists x; auto|]. exfalso.
            destruct (written_known a) as [X|X]; [|exact SY|congruence|contradiction].
            destruct SOME as [X|[X|X]]; [contradiction|auto|right; apply tsa_in; exact X]. }
        destruct EC as (x & CX & ->). exists (Some (Leaf x (value (nonce_at c to a)) tree')).
        split; [reflexivity|]. split; [rewrite SY; exact CX|]. split; [reflexivity|exact HS].
  Qed.
End Revert.

(* ---- the forward update ---- *)
Lemma up_to_all c b : up_to (c ++ [b]) (clen c) = c ++ [b].
Proof. unfold up_to, clen. rewrite Nat2N.id. apply firstn_all2. rewrite app_length. cbn. lia. Qed.
Lemma up_to_last c : c <> [] -> up_to c (clen c - 1) = c.
Proof.
  intros NE. unfold up_to, clen. apply firstn_all2. destruct c as [|b c]; [congruence|]. cbn [length]. lia.
Qed.
Lemma lookup_next low d c :
  inv low d c ->
  (forall a k, lookup_storage d (Number (clen c)) a k = state_after writes_storage c (a, k)) /\
  (forall a, lookup_nonce d (Number (clen c)) a = state_after writes_nonce c a) /\
  (forall a, lookup_class d (Number (clen c)) a = state_after writes_class c a).
Proof.
  intros I. destruct c as [|b0 c'] eqn:E.
  - destruct (inv_nothing low d (Number 0) I 0) as (A1 & A2 & A3 & _). auto.
  - rewrite <- E in *. assert (NE : c <> []) by (rewrite E; discriminate).
    assert (A : answers d (Number (clen c)) c (clen c - 1)).
    { destruct (i_low _ _ _ I) as [L|[_ X]]; [|congruence].
      apply (inv_answers low); [exact I|lia|lia|]. intros m M. cbn. lia. }
    destruct A as (A1 & A2 & A3 & _). unfold storage_at, nonce_at, class_at in *.
    rewrite (up_to_last c NE) in *. auto.
Qed.

Lemma forward_leaf low d c b a u old :
  inv low d c -> wf_data (lb_data b) -> lb_number b = clen c ->
  (if is_system a
   then nget a (sd_system (lb_data b)) = Some (cu_storage u) /\ cu_class u = None /\ cu_nonce u = None
   else nget a (sd_contracts (lb_data b)) = Some u) ->
  holds old (fun k => state_after writes_storage c (a, k)) ->
  match update_contract d (lb_number b) a old u with
  | Some l => leaf_at (c ++ [b]) (lb_number b) a l
  | None => is_system a = false /\ class_at (c ++ [b]) (lb_number b) a = None
  end.
Proof.
  intros I WF E G HO. destruct (lookup_next low d c I) as (_ & A2 & A3).
  assert (NDS : NoDup (map fst (cu_storage u))).
  { destruct WF as (_ & _ & _ & _ & W1 & W2). destruct (is_system a).
    - destruct G as (G & _). apply nget_in in G. apply (W2 a _ G).
    - apply nget_in in G. apply (W1 a _ G). }
  assert (WS : forall k, writes_storage b (a, k) = nget k (cu_storage u)).
  { intros k. unfold writes_storage. destruct (is_system a).
    - destruct G as (-> & _). reflexivity.
    - rewrite G. reflexivity. }
  assert (WN : writes_nonce b a = cu_nonce u).
  { unfold writes_nonce. destruct (is_system a) eqn:SY.
    - destruct G as (_ & _ & ->). destruct (nget a (sd_contracts (lb_data b))) as [x|] eqn:X; [|reflexivity].
      apply nget_in in X. destruct WF as (_ & _ & _ & _ & W1 & _). destruct (W1 a x X). congruence.
    - rewrite G. reflexivity. }
  assert (HS : holds (fold_left tree_set (cu_storage u) old) (storage_at (c ++ [b]) (lb_number b) a)).
  { intros k. rewrite (tree_set_fold _ _ _ NDS). unfold storage_at. rewrite E, up_to_all, state_after_snoc, WS.
    destruct (nget k (cu_storage u)) as [v|]; [cbn; destruct (v =? 0); reflexivity|apply HO]. }
  assert (HN : match cu_nonce u with Some x => x | None => get_or 0 (lookup_nonce d (Number (lb_number b)) a) end
               = value (nonce_at (c ++ [b]) (lb_number b) a)).
  { unfold nonce_at. rewrite E, up_to_all, state_after_snoc, WN, A2. destruct (cu_nonce u); [reflexivity|].
    destruct (state_after writes_nonce c a); reflexivity. }
  unfold update_contract. rewrite HN. destruct (is_system a) eqn:SY.
  - split; [rewrite SY; reflexivity|]. split; [reflexivity|exact HS].
  - assert (HC : match cu_class u with Some x => Some (class_hash x) | None => lookup_class d (Number (lb_number b)) a end
                 = class_at (c ++ [b]) (lb_number b) a).
    { unfold class_at. rewrite E, up_to_all, state_after_snoc. unfold writes_class. rewrite G, A3.
      destruct (cu_class u); reflexivity. }
    rewrite HC. destruct (class_at (c ++ [b]) (lb_number b) a) as [x|] eqn:CX; [|auto].
    split; [rewrite SY; exact CX|]. split; [reflexivity|exact HS].
Qed.
