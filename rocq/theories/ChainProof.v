(* Proofs about the stored chain. *)
From Coq Require Import List Arith NArith Bool Lia ZifyBool ZifyN ZifyNat.
From Verif Require Import Radix AList SortedMap StateUpdateModel ChainModel ChainSpec.
Import ListNotations.
Local Open Scope N_scope.

(* ---- chains ---- *)
Lemma block_at_lt c n b : block_at c n = Some b -> n < clen c.
Proof.
  unfold block_at, clen. intros E. assert (nth_error c (N.to_nat n) <> None) as X by congruence.
  apply nth_error_Some in X. lia.
Qed.
Lemma block_at_ex c n : n < clen c -> exists b, block_at c n = Some b.
Proof.
  unfold block_at, clen. intros L. destruct (nth_error c (N.to_nat n)) eqn:E; [eauto|].
  apply nth_error_None in E. lia.
Qed.
Lemma clen_app c b : clen (c ++ [b]) = clen c + 1.
Proof. unfold clen. rewrite app_length. simpl. lia. Qed.
Lemma block_at_app_old c b n : n < clen c -> block_at (c ++ [b]) n = block_at c n.
Proof. unfold block_at, clen. intros L. apply nth_error_app1. lia. Qed.
Lemma block_at_app_new c b : block_at (c ++ [b]) (clen c) = Some b.
Proof.
  unfold block_at, clen. rewrite Nat2N.id, nth_error_app2, Nat.sub_diag by lia. reflexivity.
Qed.
Lemma block_at_app_inv c b n x :
  block_at (c ++ [b]) n = Some x -> (n < clen c /\ block_at c n = Some x) \/ (n = clen c /\ x = b).
Proof.
  intros E. pose proof (block_at_lt _ _ _ E) as L. rewrite clen_app in L.
  destruct (N.lt_ge_cases n (clen c)) as [L'|L'].
  - left. split; [exact L'|]. rewrite block_at_app_old in E; auto.
  - right. assert (n = clen c) by lia. subst n. rewrite block_at_app_new in E. split; congruence.
Qed.
Lemma up_to_app c b n : n < clen c -> up_to (c ++ [b]) n = up_to c n.
Proof.
  intros L. unfold up_to, clen in *. rewrite firstn_app.
  replace (S (N.to_nat n) - length c)%nat with 0%nat by lia. simpl. apply app_nil_r.
Qed.
Lemma up_to_succ c n b : block_at c n = Some b -> up_to c n = firstn (N.to_nat n) c ++ [b].
Proof.
  unfold block_at, up_to. revert c. induction (N.to_nat n) as [|k IH]; intros [|x c] E; cbn in E |- *;
    try congruence. rewrite <- (IH c E). reflexivity.
Qed.

(* ---- the state after the blocks, by the last writing block ---- *)
Section Writes.
  Context {K V : Type}.
  Variable w : l2_block -> K -> option V.

  Definition quiet (c : chain) (i j : N) (k : K) : Prop :=
    forall d b, i < d -> d <= j -> block_at c d = Some b -> w b k = None.

  Lemma state_after_snoc l b k :
    state_after w (l ++ [b]) k = match w b k with Some v => Some v | None => state_after w l k end.
  Proof. unfold state_after. rewrite fold_left_app. reflexivity. Qed.

  Lemma state_after_firstn c : forall n k, (n <= length c)%nat ->
    match state_after w (firstn n c) k with
    | Some v => exists m b, m < N.of_nat n /\ block_at c m = Some b /\ w b k = Some v /\
                            forall d x, m < d -> d < N.of_nat n -> block_at c d = Some x -> w x k = None
    | None => forall d x, d < N.of_nat n -> block_at c d = Some x -> w x k = None
    end.
  Proof.
    induction n as [|n IH]; intros k L.
    - cbn. intros d x H. lia.
    - destruct (nth_error c n) as [b|] eqn:E; [|apply nth_error_None in E; lia].
      assert (F : firstn (S n) c = firstn n c ++ [b]).
      { clear IH L. revert c E. induction n as [|n IH]; intros [|x c] E; cbn in E |- *; try congruence.
        rewrite <- (IH c E). reflexivity. }
      assert (E' : block_at c (N.of_nat n) = Some b) by (unfold block_at; rewrite Nat2N.id; exact E).
      rewrite F, state_after_snoc. destruct (w b k) as [v|] eqn:W.
      + exists (N.of_nat n), b. split; [lia|]. split; [exact E'|]. split; [exact W|].
        intros d x D1 D2. lia.
      + specialize (IH k ltac:(lia)). destruct (state_after w (firstn n c) k) as [v|].
        * destruct IH as (m & b' & M & B & W' & Q). exists m, b'.
          split; [lia|]. split; [exact B|]. split; [exact W'|].
          intros d x D1 D2 X. destruct (N.eq_dec d (N.of_nat n)) as [->|N]; [congruence|].
          apply (Q d x D1); [lia|exact X].
        * intros d x D X. destruct (N.eq_dec d (N.of_nat n)) as [->|N]; [congruence|].
          apply (IH d x); [lia|exact X].
  Qed.

  Lemma state_at_some c n k v m b :
    n < clen c -> m <= n -> block_at c m = Some b -> w b k = Some v -> quiet c m n k ->
    state_after w (up_to c n) k = Some v.
  Proof.
    intros L M B W Q. unfold up_to, clen in *.
    pose proof (state_after_firstn c (S (N.to_nat n)) k ltac:(lia)) as H.
    destruct (state_after w (firstn (S (N.to_nat n)) c) k) as [v'|].
    - destruct H as (m' & b' & M' & B' & W' & Q').
      destruct (N.lt_trichotomy m m') as [T|[T|T]].
      + rewrite (Q m' b' T ltac:(lia) B') in W'. discriminate.
      + subst m'. congruence.
      + rewrite (Q' m b T ltac:(lia) B) in W. discriminate.
    - rewrite (H m b ltac:(lia) B) in W. discriminate.
  Qed.

  Lemma state_at_none c n k :
    n < clen c -> (forall d b, d <= n -> block_at c d = Some b -> w b k = None) ->
    state_after w (up_to c n) k = None.
  Proof.
    intros L Q. unfold up_to, clen in *.
    pose proof (state_after_firstn c (S (N.to_nat n)) k ltac:(lia)) as H.
    destruct (state_after w (firstn (S (N.to_nat n)) c) k) as [v'|]; [|reflexivity].
    destruct H as (m' & b' & M' & B' & W' & Q'). rewrite (Q m' b' ltac:(lia) B') in W'. discriminate.
  Qed.

  Lemma state_at_inv c n k :
    n < clen c ->
    match state_after w (up_to c n) k with
    | Some v => exists m b, m <= n /\ block_at c m = Some b /\ w b k = Some v /\ quiet c m n k
    | None => forall d b, d <= n -> block_at c d = Some b -> w b k = None
    end.
  Proof.
    intros L. unfold up_to, clen in *.
    pose proof (state_after_firstn c (S (N.to_nat n)) k ltac:(lia)) as H.
    destruct (state_after w (firstn (S (N.to_nat n)) c) k) as [v'|].
    - destruct H as (m' & b' & M' & B' & W' & Q'). exists m', b'.
      split; [lia|]. split; [exact B'|]. split; [exact W'|].
      intros d x D1 D2. apply Q'; lia.
    - intros d b D. apply H. lia.
  Qed.

  (* ---- a table follows the chain ---- *)
  Variable eqb : K -> K -> bool.
  Hypothesis eqb_spec : forall a b, reflect (a = b) (eqb a b).

  Definition tracks (t : list (row K V)) (low : N) (c : chain) : Prop :=
    forall r, In r t <->
      (exists b, block_at c (r_block r) = Some b /\ w b (r_key r) = Some (r_val r)) /\
      quiet c (r_block r) low (r_key r).

  Lemma tracks_nil : tracks [] 0 [].
  Proof.
    intros r. split; [intros []|]. intros [(b & B & _) _]. apply block_at_lt in B.
    unfold clen in B. cbn in B. lia.
  Qed.

  Lemma newest_some (rows : list (row K V)) r : newest rows = Some r -> In r rows /\ forall x, In x rows -> r_block x <= r_block r.
  Proof.
    revert r. induction rows as [|y rows IH]; intros r E; cbn in E; [discriminate|].
    destruct (newest rows) as [z|] eqn:Z.
    - destruct (IH z eq_refl) as [I M]. destruct (N.ltb_spec (r_block y) (r_block z)) as [L|L];
        inversion E; subst; clear E.
      + split; [right; exact I|]. intros x [->|X]; [lia|apply M; exact X].
      + split; [left; reflexivity|]. intros x [->|X]; [lia|]. specialize (M x X). lia.
    - inversion E; subst; clear E. split; [left; reflexivity|]. intros x [->|X]; [lia|].
      destruct rows as [|q rows]; [destruct X|]. cbn in Z. destruct (newest rows); [destruct (_ <? _)|]; discriminate.
  Qed.
  Lemma newest_none (rows : list (row K V)) : newest rows = None -> rows = [].
  Proof.
    destruct rows as [|q rows]; [reflexivity|]. cbn. destruct (newest rows); [destruct (_ <? _)|]; discriminate.
  Qed.

  Lemma tracks_lookup t low c n bound k :
    tracks t low c -> low <= n -> n < clen c ->
    (forall m, m < clen c -> bound m = (m <=? n)) ->
    latest eqb bound k t = state_after w (up_to c n) k.
  Proof.
    intros T L N B. unfold latest.
    assert (R : forall r, In r t -> r_block r < clen c).
    { intros r I. apply T in I. destruct I as [(b & X & _) _]. eapply block_at_lt; eauto. }
    destruct (newest _) as [r|] eqn:E; cbn.
    - apply newest_some in E. destruct E as [I M]. apply filter_In in I. destruct I as [I Q].
      apply andb_true_iff in Q. destruct Q as [Q1 Q2]. destruct (eqb_spec k (r_key r)) as [->|]; [|discriminate].
      rewrite B in Q2 by auto. pose proof (proj1 (T r) I) as [(b & X & W) QU].
      symmetry. apply (state_at_some c n (r_key r) (r_val r) (r_block r) b N); [lia|exact X|exact W|].
      intros d x D1 D2 BX. destruct (w x (r_key r)) as [v|] eqn:WX; [|reflexivity]. exfalso.
      destruct (N.le_gt_cases d low) as [DL|DL].
      { rewrite (QU d x D1 DL BX) in WX. discriminate. }
      assert (IR : In (Row d (r_key r) v) t).
      { apply T. cbn. split; [eauto|]. intros d' x' D1' D2'. lia. }
      assert (IF : In (Row d (r_key r) v)
                      (filter (fun r0 => eqb (r_key r) (r_key r0) && bound (r_block r0)) t)).
      { apply filter_In. split; [exact IR|]. cbn. destruct (eqb_spec (r_key r) (r_key r)); [|congruence].
        rewrite B by (eapply block_at_lt; eauto). cbn. lia. }
      apply M in IF. cbn in IF. lia.
    - apply newest_none in E. symmetry. apply state_at_none; [exact N|].
      intros d b D BD. destruct (w b k) as [v|] eqn:W; [|reflexivity]. exfalso.
      (* the last write at or before n has a row *)
      pose proof (state_at_inv c n k N) as H. destruct (state_after w (up_to c n) k) as [v'|] eqn:SA.
      + destruct H as (m & x & M & BX & WX & QX).
        assert (IF : In (Row m k v') (filter (fun r0 => eqb k (r_key r0) && bound (r_block r0)) t)).
        { apply filter_In. split.
          - apply T. cbn. split; [eauto|]. intros d' x' D1 D2. apply QX; [exact D1|lia].
          - cbn. destruct (eqb_spec k k); [|congruence]. rewrite B by (eapply block_at_lt; eauto). cbn. lia. }
        rewrite E in IF. exact IF.
      + rewrite (H d b D BD) in W. discriminate.
  Qed.

  Lemma tracks_insert t low c b rows :
    tracks t low c -> (low < clen c \/ (low = 0 /\ c = [])) ->
    (forall r, In r rows <-> r_block r = clen c /\ w b (r_key r) = Some (r_val r)) ->
    tracks (rows ++ t) low (c ++ [b]).
  Proof.
    intros T L R r. rewrite in_app_iff, R, (T r). split.
    - intros [[E W]|[(x & X & W) Q]].
      + split; [exists b; rewrite E; split; [apply block_at_app_new|exact W]|].
        intros d y D1 D2. destruct L as [L|[-> ->]]; [|unfold clen in *; cbn in *]; lia.
      + pose proof (block_at_lt _ _ _ X) as LX. split.
        * exists x. rewrite block_at_app_old by exact LX. auto.
        * intros d y D1 D2 Y. apply block_at_app_inv in Y. destruct Y as [[_ Y]|[-> ->]]; [eauto|].
          destruct L as [L|[-> ->]]; [lia|unfold clen in *; cbn in *; lia].
    - intros [(x & X & W) Q]. apply block_at_app_inv in X. destruct X as [[LX X]|[E ->]].
      + right. split; [eauto|]. intros d y D1 D2 Y. apply (Q d y D1 D2).
        rewrite block_at_app_old; [exact Y|]. eapply block_at_lt; eauto.
      + left. auto.
  Qed.

  Lemma tracks_purge t low c b :
    tracks t low (c ++ [b]) -> (low < clen c \/ (low = 0 /\ c = [])) ->
    tracks (delete_block (clen c) t) low c.
  Proof.
    intros T L r. unfold delete_block. rewrite filter_In, (T r). split.
    - intros [[(x & X & W) Q] NE]. apply block_at_app_inv in X. destruct X as [[LX X]|[E _]]; [|lia].
      split; [eauto|]. intros d y D1 D2 Y. apply (Q d y D1 D2).
      rewrite block_at_app_old; [exact Y|]. eapply block_at_lt; eauto.
    - intros [(x & X & W) Q]. pose proof (block_at_lt _ _ _ X) as LX. split; [|lia]. split.
      + exists x. rewrite block_at_app_old by exact LX. auto.
      + intros d y D1 D2 Y. apply block_at_app_inv in Y. destruct Y as [[_ Y]|[-> ->]]; [eauto|].
        destruct L as [L|[-> ->]]; [lia|unfold clen in *; cbn in *; lia].
  Qed.

  Lemma prune_fold n ks : forall (t : list (row K V)) r,
    In r (fold_left (fun t' k => filter (fun r => negb (eqb k (r_key r) && (r_block r <? n))) t') ks t) <->
    In r t /\ (n <= r_block r \/ ~ In (r_key r) ks).
  Proof.
    induction ks as [|k ks IH]; intros t r; cbn [fold_left].
    - cbn. tauto.
    - rewrite IH, filter_In. cbn [In]. destruct (eqb_spec k (r_key r)) as [E|E]; cbn.
      + destruct (N.ltb_spec (r_block r) n) as [X|X]; cbn; intuition (try congruence; lia).
      + intuition congruence.
  Qed.

  Lemma tracks_prune t low c :
    tracks t low c -> low + 1 < clen c -> tracks (prune_table eqb (low + 1) t) (low + 1) c.
  Proof.
    intros T L r. unfold prune_table. rewrite prune_fold.
    assert (KS : In (r_key r) (map r_key (filter (fun r0 => r_block r0 =? low + 1) t)) <->
                 exists b v, block_at c (low + 1) = Some b /\ w b (r_key r) = Some v).
    { rewrite in_map_iff. split.
      - intros (x & E & I). apply filter_In in I. destruct I as [I B]. apply T in I.
        destruct I as [(b & X & W) _]. exists b, (r_val x). rewrite <- E.
        assert (EB : r_block x = low + 1) by lia. rewrite EB in X. auto.
      - intros (b & v & B & W). exists (Row (low + 1) (r_key r) v). split; [reflexivity|].
        apply filter_In. split; [|cbn; lia]. apply T. cbn. split; [eauto|].
        intros d x D1 D2. lia. }
    rewrite KS, (T r). split.
    - intros [[EX Q] NB]. split; [exact EX|]. intros d x D1 D2 X.
      destruct (N.eq_dec d (low + 1)) as [->|ND]; [|apply (Q d x D1); [lia|exact X]].
      destruct NB as [NB|NB]; [lia|]. destruct (w x (r_key r)) as [v|] eqn:W; [|reflexivity].
      exfalso. apply NB. eauto.
    - intros [EX Q]. split; [split; [exact EX|]|].
      + intros d x D1 D2. apply Q; [exact D1|lia].
      + destruct (N.le_gt_cases (low + 1) (r_block r)) as [B|B]; [left; exact B|right].
        intros (b & v & X & W). rewrite (Q (low + 1) b B ltac:(lia) X) in W. discriminate.
  Qed.
End Writes.

(* ---- rows of a block ---- *)
Lemma neqb_spec a b : reflect (a = b) (a =? b).
Proof. apply N.eqb_spec. Qed.
Lemma pair_eqb_spec a b : reflect (a = b) (pair_eqb a b).
Proof.
  destruct a as [a1 a2], b as [b1 b2]. unfold pair_eqb; cbn.
  destruct (N.eqb_spec a1 b1), (N.eqb_spec a2 b2); cbn; constructor; congruence.
Qed.
Lemma nget_in {V} k (v : V) m : nget k m = Some v -> In (k, v) m.
Proof. apply (al_get_in _ neqb_spec). Qed.
Lemma in_nget {V} k (v : V) m : NoDup (map fst m) -> In (k, v) m -> nget k m = Some v.
Proof. apply (al_in_get _ neqb_spec). Qed.

Lemma class_rows_in n b r :
  wf_data (lb_data b) ->
  In r (class_rows n (sd_contracts (lb_data b))) <-> r_block r = n /\ writes_class b (r_key r) = Some (r_val r).
Proof.
  intros (ND & _). unfold class_rows, writes_class. rewrite in_flat_map. split.
  - intros ((a & u) & I & X). cbn in X. destruct (cu_class u) as [x|] eqn:E; [|destruct X].
    destruct X as [<-|[]]. cbn. rewrite (in_nget _ _ _ ND I), E. auto.
  - intros [<- W]. destruct (nget (r_key r) _) as [u|] eqn:G; [|discriminate].
    apply nget_in in G. exists (r_key r, u). split; [exact G|]. cbn.
    destruct (cu_class u) as [x|]; [|discriminate]. cbn in W. injection W as E. left. rewrite E. destruct r; reflexivity.
Qed.
Lemma nonce_rows_in n b r :
  wf_data (lb_data b) ->
  In r (nonce_rows n (sd_contracts (lb_data b))) <-> r_block r = n /\ writes_nonce b (r_key r) = Some (r_val r).
Proof.
  intros (ND & _). unfold nonce_rows, writes_nonce. rewrite in_flat_map. split.
  - intros ((a & u) & I & X). cbn in X. destruct (cu_nonce u) as [x|] eqn:E; [|destruct X].
    destruct X as [<-|[]]. cbn. rewrite (in_nget _ _ _ ND I), E. auto.
  - intros [<- W]. destruct (nget (r_key r) _) as [u|] eqn:G; [|discriminate].
    apply nget_in in G. exists (r_key r, u). split; [exact G|]. cbn. rewrite W. left. destruct r; reflexivity.
Qed.
Lemma slot_rows_in n a m r :
  NoDup (map fst m) ->
  In r (slot_rows n a m) <-> r_block r = n /\ fst (r_key r) = a /\ nget (snd (r_key r)) m = Some (r_val r).
Proof.
  intros ND. unfold slot_rows. rewrite in_map_iff. split.
  - intros ((k & v) & <- & I). cbn. rewrite (in_nget _ _ _ ND I). auto.
  - intros (<- & <- & G). apply nget_in in G. eexists. split; [|exact G]. destruct r as [? [? ?] ?]; reflexivity.
Qed.
Lemma storage_rows_in n b r :
  wf_data (lb_data b) ->
  In r (storage_rows n (lb_data b)) <-> r_block r = n /\ writes_storage b (r_key r) = Some (r_val r).
Proof.
  intros (ND & NS & _ & _ & WC & WS). unfold storage_rows, writes_storage.
  rewrite in_app_iff, !in_flat_map. split.
  - intros [((a & u) & I & X)|((a & m) & I & X)]; cbn in X.
    + destruct (WC _ _ I) as [N1 SY]. apply slot_rows_in in X; [|exact N1]. destruct X as (<- & E & G).
      destruct (r_key r) as [a' k]; cbn in *. subst a'. rewrite SY, (in_nget _ _ _ ND I). auto.
    + destruct (WS _ _ I) as [N1 SY]. apply slot_rows_in in X; [|exact N1]. destruct X as (<- & E & G).
      destruct (r_key r) as [a' k]; cbn in *. subst a'. rewrite SY, (in_nget _ _ _ NS I). auto.
  - intros [<- W]. destruct (r_key r) as [a k] eqn:K. destruct (is_system a) eqn:SY.
    + right. destruct (nget a (sd_system _)) as [m|] eqn:G; [|discriminate]. apply nget_in in G.
      exists (a, m). split; [exact G|]. apply slot_rows_in; [apply (WS _ _ G)|]. rewrite K. auto.
    + left. destruct (nget a (sd_contracts _)) as [u|] eqn:G; [|discriminate]. apply nget_in in G.
      exists (a, u). split; [exact G|]. apply slot_rows_in; [apply (WC _ _ G)|]. rewrite K. auto.
Qed.

(* ---- class declarations ---- *)
Definition has (l : list N) (x : N) : bool := existsb (N.eqb x) l.
Lemma has_in l x : has l x = true <-> In x l.
Proof.
  unfold has. rewrite existsb_exists. split.
  - intros (y & I & E). apply N.eqb_eq in E. subst. exact I.
  - intros I. exists x. split; [exact I|apply N.eqb_refl].
Qed.

Definition declared_in (n : N) (l : list N) (x : N) (o : option (option N)) : option (option N) :=
  match o with
  | Some (Some m) => Some (Some m)
  | o => if has l x then Some (Some n) else o
  end.

Lemma upsert_get n c defs x :
  nget x (fst (upsert_declared n c defs)) = declared_in n [c] x (nget x defs).
Proof.
  unfold upsert_declared, declared_in, has. cbn [existsb]. rewrite orb_false_r.
  destruct (N.eqb_spec x c) as [->|NE].
  - destruct (nget c defs) as [[m|]|] eqn:E; cbn [fst]; [exact E| |];
      apply (al_get_set_eq _ neqb_spec).
  - destruct (nget c defs) as [[m|]|]; cbn [fst];
      rewrite ?(al_get_set_neq _ neqb_spec) by auto; destruct (nget x defs) as [[?|]|]; reflexivity.
Qed.
Lemma upsert_nodup n c defs : NoDup (map fst defs) -> NoDup (map fst (fst (upsert_declared n c defs))).
Proof.
  intros ND. unfold upsert_declared. destruct (nget c defs) as [[m|]|]; cbn; auto using (al_nodup_set _ neqb_spec).
Qed.
Lemma declared_in_cons n c l x o : declared_in n l x (declared_in n [c] x o) = declared_in n (c :: l) x o.
Proof.
  unfold declared_in, has. cbn [existsb]. rewrite orb_false_r.
  destruct o as [[m|]|]; [reflexivity| |]; destruct (x =? c); reflexivity.
Qed.

Lemma declare_fst n s c : fst (declare n s c) = fst (upsert_declared n c (fst s)).
Proof. unfold declare. destruct (upsert_declared n c (fst s)). reflexivity. Qed.

Lemma declare_all_get n l : forall s x,
  nget x (fst (fold_left (declare n) l s)) = declared_in n l x (nget x (fst s)).
Proof.
  induction l as [|c l IH]; intros s x; cbn [fold_left].
  - unfold declared_in, has. cbn. destruct (nget x (fst s)) as [[?|]|]; reflexivity.
  - rewrite IH, declare_fst, upsert_get. apply declared_in_cons.
Qed.
Lemma declare_all_nodup n l : forall s,
  NoDup (map fst (fst s)) -> NoDup (map fst (fst (fold_left (declare n) l s))).
Proof.
  induction l as [|c l IH]; intros s ND; cbn [fold_left]; [exact ND|].
  apply IH. rewrite declare_fst. apply upsert_nodup. exact ND.
Qed.
Lemma upsert_all_get n l : forall defs x,
  nget x (fold_left (fun defs c => fst (upsert_declared n c defs)) l defs) = declared_in n l x (nget x defs).
Proof.
  induction l as [|c l IH]; intros s x; cbn [fold_left].
  - unfold declared_in, has. cbn. destruct (nget x s) as [[?|]|]; reflexivity.
  - rewrite IH, upsert_get. apply declared_in_cons.
Qed.
Lemma upsert_all_nodup n l : forall defs,
  NoDup (map fst defs) -> NoDup (map fst (fold_left (fun defs c => fst (upsert_declared n c defs)) l defs)).
Proof.
  induction l as [|c l IH]; intros s ND; cbn [fold_left]; [exact ND|].
  apply IH, upsert_nodup, ND.
Qed.
Lemma declared_in_app n l1 l2 x o : declared_in n l2 x (declared_in n l1 x o) = declared_in n (l1 ++ l2) x o.
Proof.
  unfold declared_in, has. rewrite existsb_app.
  destruct o as [[m|]|]; [reflexivity| |]; destruct (existsb (N.eqb x) l1); reflexivity.
Qed.

Definition declared_list (b : l2_block) : list N :=
  (map fst (sd_sierra (lb_data b)) ++ sd_cairo (lb_data b)) ++ deployed_classes (sd_contracts (lb_data b)).
Lemma declared_list_in b x : In x (declared_list b) <-> declares b x.
Proof.
  unfold declared_list, declares. rewrite !in_app_iff.
  assert (E : In x (deployed_classes (sd_contracts (lb_data b))) <->
              exists a u, In (a, u) (sd_contracts (lb_data b)) /\ cu_class u = Some (Deploy x)).
  { unfold deployed_classes. rewrite in_flat_map. split.
    - intros ((a & u) & I & X). cbn in X. destruct (cu_class u) as [[y|y]|] eqn:E; cbn in X; try easy.
      destruct X as [->|[]]. eauto.
    - intros (a & u & I & E). exists (a, u). cbn. rewrite E. split; [exact I|left; reflexivity]. }
  rewrite E. tauto.
Qed.
Lemma insert_data_defs n b d x :
  nget x (d_defs (insert_data n (lb_data b) d)) = declared_in n (declared_list b) x (nget x (d_defs d)).
Proof.
  unfold insert_data. cbn [d_defs]. rewrite upsert_all_get, declare_all_get. cbn [fst].
  apply declared_in_app.
Qed.

Definition defs_track (defs : nmap (option N)) (c : chain) : Prop :=
  NoDup (map fst defs) /\ forall x n, nget x defs = Some (Some n) <-> first_declared c x n.

Lemma first_declared_app c b x n :
  first_declared (c ++ [b]) x n <->
  first_declared c x n \/
  (n = clen c /\ declares b x /\ forall i y, block_at c i = Some y -> ~ declares y x).
Proof.
  unfold first_declared. split.
  - intros [(y & Y & D) Q]. apply block_at_app_inv in Y. destruct Y as [[L Y]|[-> ->]].
    + left. split; [eauto|]. intros i z I Z. apply (Q i z I). rewrite block_at_app_old; [exact Z|lia].
    + right. split; [reflexivity|]. split; [exact D|]. intros i y Y.
      pose proof (block_at_lt _ _ _ Y). apply (Q i y); [assumption|]. rewrite block_at_app_old; auto.
  - intros [[(y & Y & D) Q]|(-> & D & Q)].
    + pose proof (block_at_lt _ _ _ Y). split.
      * exists y. rewrite block_at_app_old; auto.
      * intros i z I Z. rewrite block_at_app_old in Z by lia. eauto.
    + split; [exists b; split; [apply block_at_app_new|exact D]|].
      intros i z I Z. rewrite block_at_app_old in Z by exact I. eauto.
Qed.

Definition declares_dec b x : {declares b x} + {~ declares b x}.
Proof.
  destruct (has (declared_list b) x) eqn:E.
  - left. apply declared_list_in, has_in, E.
  - right. intros D. apply declared_list_in, has_in in D. congruence.
Defined.

Lemma first_declared_ex c x :
  (exists n, first_declared c x n) \/ (forall i y, block_at c i = Some y -> ~ declares y x).
Proof.
  induction c as [|b c IH] using rev_ind.
  - right. intros i y E. apply block_at_lt in E. unfold clen in E. cbn in E. lia.
  - destruct IH as [(n & F)|Q].
    + left. exists n. apply first_declared_app. left. exact F.
    + destruct (declares_dec b x) as [D|D].
      * left. exists (clen c). apply first_declared_app. right. auto.
      * right. intros i y E. apply block_at_app_inv in E. destruct E as [[_ E]|[_ ->]]; eauto.
Qed.
Lemma first_declared_fun c x n m : first_declared c x n -> first_declared c x m -> n = m.
Proof.
  intros [(y & Y & D) Q] [(z & Z & D') Q']. destruct (N.lt_trichotomy n m) as [L|[E|L]]; [|exact E|];
    exfalso; [exact (Q' n y L Y D)|exact (Q m z L Z D')].
Qed.

Lemma defs_track_insert d c b :
  defs_track (d_defs d) c -> defs_track (d_defs (insert_data (clen c) (lb_data b) d)) (c ++ [b]).
Proof.
  intros [ND T]. split.
  - unfold insert_data. cbn [d_defs]. apply upsert_all_nodup, declare_all_nodup, ND.
  - intros x n. rewrite insert_data_defs, first_declared_app, <- T. unfold declared_in.
    destruct (nget x (d_defs d)) as [[m|]|] eqn:G.
    + split; [auto|]. intros [E|(-> & D & Q)]; [exact E|]. apply T in G. destruct G as [(y & Y & DY) _].
      exfalso. exact (Q _ _ Y DY).
    + assert (NO : forall i y, block_at c i = Some y -> ~ declares y x).
      { destruct (first_declared_ex c x) as [(m & F)|Q]; [|exact Q]. apply T in F. congruence. }
      destruct (has (declared_list b) x) eqn:H.
      * apply has_in, declared_list_in in H. split.
        { intros E. injection E as <-. right. auto. }
        { intros [E|(-> & _)]; [discriminate|reflexivity]. }
      * split; [discriminate|]. intros [E|(_ & D & _)]; [discriminate|].
        apply declared_list_in, has_in in D. congruence.
    + assert (NO : forall i y, block_at c i = Some y -> ~ declares y x).
      { destruct (first_declared_ex c x) as [(m & F)|Q]; [|exact Q]. apply T in F. congruence. }
      destruct (has (declared_list b) x) eqn:H.
      * apply has_in, declared_list_in in H. split.
        { intros E. injection E as <-. right. auto. }
        { intros [E|(-> & _)]; [discriminate|reflexivity]. }
      * split; [discriminate|]. intros [E|(_ & D & _)]; [discriminate|].
        apply declared_list_in, has_in in D. congruence.
Qed.

Lemma purge_defs_get n defs x :
  nget x (map (fun x => (fst x, match snd x with
                            | Some m => if m =? n then None else Some m
                            | None => None
                            end)) defs)
  = option_map (fun o => match o with Some m => if m =? n then None else Some m | None => None end) (nget x defs).
Proof.
  induction defs as [|[y o] defs IH]; [reflexivity|]. cbn [map fst snd].
  unfold al_get; fold (@al_get N (option N) N.eqb). destruct (x =? y); [reflexivity|exact IH].
Qed.

Lemma defs_track_purge d c b :
  defs_track (d_defs d) (c ++ [b]) -> defs_track (d_defs (purge_block (clen c) d)) c.
Proof.
  intros [ND T]. split.
  - cbn [purge_block d_defs]. rewrite map_map. exact ND.
  - intros x n. cbn [purge_block d_defs]. rewrite purge_defs_get. specialize (T x).
    destruct (nget x (d_defs d)) as [[m|]|] eqn:G; cbn.
    + pose proof (proj1 (T m) eq_refl) as F. apply first_declared_app in F.
      destruct (N.eqb_spec m (clen c)) as [->|NE].
      * split; [discriminate|]. intros F'. destruct F as [F|(_ & _ & Q)].
        { destruct F as [(y & Y & _) _]. apply block_at_lt in Y. lia. }
        { destruct F' as [(y & Y & D) _]. exfalso. exact (Q _ _ Y D). }
      * destruct F as [F|(-> & _)]; [|congruence]. split.
        { intros E. injection E as <-. exact F. }
        { intros F'. rewrite (first_declared_fun _ _ _ _ F F'). reflexivity. }
    + split; [discriminate|]. intros F'. exfalso. specialize (proj2 (T n)). intros X.
      discriminate X. apply first_declared_app. left. exact F'.
    + split; [discriminate|]. intros F'. exfalso. specialize (proj2 (T n)). intros X.
      discriminate X. apply first_declared_app. left. exact F'.
Qed.

(* ---- headers ---- *)
Definition heads (hs : list header) (low : N) (c : chain) : Prop :=
  NoDup (map h_number hs) /\ NoDup (map h_hash hs) /\
  forall h, In h hs <->
    low <= h_number h /\
    exists b, block_at c (h_number h) = Some b /\ h_hash h = lb_hash b /\ h_parent h = lb_parent b /\ h_commitment h = lb_commitment b.

Definition low_ok (low : N) (c : chain) : Prop := low < clen c \/ (low = 0 /\ c = []).

Lemma heads_exists d low c n :
  heads (d_headers d) low c -> block_exists d n = true <-> low <= n /\ n < clen c.
Proof.
  intros (_ & _ & H). unfold block_exists. rewrite existsb_exists. split.
  - intros (h & I & E). apply H in I. destruct I as (L & b & B & _). apply block_at_lt in B. lia.
  - intros [L U]. destruct (block_at_ex c n U) as (b & B).
    exists (Header n (lb_hash b) (lb_parent b) (lb_commitment b)). cbn. split; [|apply N.eqb_refl].
    apply H. cbn. eauto 8.
Qed.

Lemma nodup_map_inj {A B} (f : A -> B) l x y :
  NoDup (map f l) -> In x l -> In y l -> f x = f y -> x = y.
Proof.
  induction l as [|a l IH]; intros ND IX IY E; [destruct IX|]. cbn in ND. inversion ND as [|? ? NI ND']; subst.
  destruct IX as [->|IX], IY as [->|IY]; auto.
  - exfalso. apply NI. rewrite E. apply in_map. exact IY.
  - exfalso. apply NI. rewrite <- E. apply in_map. exact IX.
Qed.

Lemma heads_at d low c n b :
  heads (d_headers d) low c -> low <= n -> block_at c n = Some b ->
  header_at d n = Some (Header n (lb_hash b) (lb_parent b) (lb_commitment b)).
Proof.
  intros (ND & _ & H) L B. unfold header_at.
  assert (I : In (Header n (lb_hash b) (lb_parent b) (lb_commitment b)) (d_headers d)) by (apply H; cbn; eauto 8).
  destruct (find _ _) as [h|] eqn:F.
  - apply find_some in F. destruct F as [F E]. f_equal.
    apply (nodup_map_inj h_number (d_headers d)); auto. cbn. lia.
  - eapply find_none in F; [|exact I]. cbn in F. rewrite N.eqb_refl in F. discriminate.
Qed.
Lemma heads_at_none d low c n :
  heads (d_headers d) low c -> n < low \/ clen c <= n -> header_at d n = None.
Proof.
  intros (_ & _ & H) L. unfold header_at. destruct (find _ _) as [h|] eqn:F; [|reflexivity].
  apply find_some in F. destruct F as [I E]. apply H in I. destruct I as (LO & b & B & _).
  apply block_at_lt in B. lia.
Qed.
Lemma heads_hash d low c n b :
  heads (d_headers d) low c -> low <= n -> block_at c n = Some b ->
  header_of_hash d (lb_hash b) = Some (Header n (lb_hash b) (lb_parent b) (lb_commitment b)).
Proof.
  intros (_ & ND & H) L B. unfold header_of_hash.
  assert (I : In (Header n (lb_hash b) (lb_parent b) (lb_commitment b)) (d_headers d)) by (apply H; cbn; eauto 8).
  destruct (find _ _) as [h|] eqn:F.
  - apply find_some in F. destruct F as [F E]. f_equal.
    apply (nodup_map_inj h_hash (d_headers d)); auto. cbn. lia.
  - eapply find_none in F; [|exact I]. cbn in F. rewrite N.eqb_refl in F. discriminate.
Qed.

Lemma top_header_some l h : top_header l = Some h -> In h l /\ forall x, In x l -> h_number x <= h_number h.
Proof.
  revert h. induction l as [|y l IH]; intros h E; cbn in E; [discriminate|].
  destruct (top_header l) as [z|] eqn:Z.
  - destruct (IH z eq_refl) as [I M]. destruct (N.ltb_spec (h_number y) (h_number z)) as [L|L];
      inversion E; subst; clear E.
    + split; [right; exact I|]. intros x [->|X]; [lia|apply M; exact X].
    + split; [left; reflexivity|]. intros x [->|X]; [lia|]. specialize (M x X). lia.
  - inversion E; subst; clear E. split; [left; reflexivity|]. intros x [->|X]; [lia|].
    destruct l as [|q l]; [destruct X|]. cbn in Z. destruct (top_header l); [destruct (_ <? _)|]; discriminate.
Qed.
Lemma top_header_none l : top_header l = None -> l = [].
Proof.
  destruct l as [|q l]; [reflexivity|]. cbn. destruct (top_header l); [destruct (_ <? _)|]; discriminate.
Qed.

Lemma heads_latest d low c :
  heads (d_headers d) low c -> low_ok low c ->
  match top_header (d_headers d) with
  | Some h => c <> [] /\ h_number h = clen c - 1 /\ In h (d_headers d)
  | None => c = []
  end.
Proof.
  intros H L. destruct (top_header (d_headers d)) as [h|] eqn:T.
  - apply top_header_some in T. destruct T as [I M]. pose proof (proj1 (proj2 (proj2 H) h) I) as (LO & b & B & _).
    pose proof (block_at_lt _ _ _ B) as LB. split.
    { intros ->. unfold clen in LB. cbn in LB. lia. }
    split; [|exact I].
    destruct (block_at_ex c (clen c - 1) ltac:(lia)) as (b' & B').
    assert (I' : In (Header (clen c - 1) (lb_hash b') (lb_parent b') (lb_commitment b')) (d_headers d)).
    { apply H. cbn. split; [|eauto]. destruct L as [L|[_ ->]]; [lia|]. unfold clen in LB. cbn in LB. lia. }
    apply M in I'. cbn in I'. lia.
  - apply top_header_none in T. destruct L as [L|[_ L]]; [|exact L]. exfalso.
    destruct (block_at_ex c low L) as (b & B).
    assert (I : In (Header low (lb_hash b) (lb_parent b) (lb_commitment b)) (d_headers d)).
    { apply H. cbn. split; [lia|eauto]. }
    rewrite T in I. destruct I.
Qed.
Lemma latest_number_spec d low c :
  heads (d_headers d) low c -> low_ok low c ->
  latest_number d = if clen c =? 0 then None else Some (clen c - 1).
Proof.
  intros H L. unfold latest_number. pose proof (heads_latest d low c H L) as T.
  destruct (top_header _) as [h|].
  - destruct T as (NE & E & _). destruct (N.eqb_spec (clen c) 0) as [Z|_]; [|cbn; congruence].
    destruct c; [congruence|]. unfold clen in Z. cbn in Z. lia.
  - subst c. reflexivity.
Qed.
Lemma next_number_spec d low c :
  heads (d_headers d) low c -> low_ok low c -> next_number d = clen c.
Proof.
  intros H L. unfold next_number. rewrite (latest_number_spec _ _ _ H L).
  destruct (N.eqb_spec (clen c) 0); lia.
Qed.

Lemma least_spec l :
  match least l with
  | Some n => In n l /\ forall x, In x l -> n <= x
  | None => l = []
  end.
Proof.
  induction l as [|n l IH]; cbn; [reflexivity|]. destruct (least l) as [m|].
  - destruct IH as [I M]. split.
    + destruct (N.min_spec n m) as [[_ ->]|[_ ->]]; auto.
    + intros x [->|X]; [lia|]. specialize (M x X). lia.
  - subst l. split; [left; reflexivity|]. intros x [->|[]]. lia.
Qed.
Lemma earliest_spec d low c :
  heads (d_headers d) low c -> c <> [] -> low_ok low c -> earliest_number d = Some low.
Proof.
  intros H NE L. destruct L as [L|[_ L]]; [|congruence]. unfold earliest_number.
  destruct (block_at_ex c low L) as (b & B).
  assert (I : In low (map h_number (d_headers d))).
  { apply in_map_iff. exists (Header low (lb_hash b) (lb_parent b) (lb_commitment b)). split; [reflexivity|].
    apply H. cbn. split; [lia|eauto]. }
  pose proof (least_spec (map h_number (d_headers d))) as S'. destruct (least _) as [n|].
  - destruct S' as [IN M]. apply M in I. apply in_map_iff in IN. destruct IN as (h & <- & IH).
    apply H in IH. f_equal. lia.
  - rewrite S' in I. destruct I.
Qed.

Lemma heads_insert d d' low c b :
  heads (d_headers d) low c -> low_ok low c ->
  insert_header (Header (clen c) (lb_hash b) (lb_parent b) (lb_commitment b)) d = Some d' ->
  heads (d_headers d') low (c ++ [b]).
Proof.
  intros (N1 & N2 & H) L E. unfold insert_header in E. destruct (existsb _ _) eqn:X; [discriminate|].
  injection E as <-. cbn [d_headers].
  assert (F : forall h, In h (d_headers d) -> h_number h <> clen c /\ h_hash h <> lb_hash b).
  { intros h I. assert (Y : existsb (fun x => (h_number x =? clen c) || (h_hash x =? lb_hash b)) (d_headers d) = false).
    { exact X. }
    split; intros EQ; enough (existsb (fun x => (h_number x =? clen c) || (h_hash x =? lb_hash b)) (d_headers d) = true)
      by congruence; apply existsb_exists; exists h; (split; [exact I|]); rewrite EQ, N.eqb_refl;
      auto using orb_true_r. }
  split; [|split].
  - cbn. constructor; [|exact N1]. intros I. apply in_map_iff in I. destruct I as (h & E & I). apply F in I. tauto.
  - cbn. constructor; [|exact N2]. intros I. apply in_map_iff in I. destruct I as (h & E & I). apply F in I. tauto.
  - intros h. cbn [In]. rewrite (H h). split.
    + intros [<-|(LO & x & B & EH)].
      * cbn. split; [destruct L as [L|[-> ->]]; lia|]. exists b. rewrite block_at_app_new. auto.
      * split; [exact LO|]. exists x. rewrite block_at_app_old by (eapply block_at_lt; eauto). auto.
    + intros (LO & x & B & EH & EC). apply block_at_app_inv in B. destruct B as [[LB B]|[EB ->]].
      * right. split; [exact LO|]. eauto.
      * left. destruct EC as [EP EC]. destruct h; cbn in *. subst. reflexivity.
Qed.

Lemma nodup_map_filter {A B} (f : A -> B) p l : NoDup (map f l) -> NoDup (map f (filter p l)).
Proof.
  induction l as [|a l IH]; cbn; [auto|]. intros ND. inversion ND as [|? ? NI ND']; subst.
  destruct (p a); [|auto]. cbn. constructor; [|auto]. intros I. apply NI.
  apply in_map_iff in I. destruct I as (x & <- & I). apply in_map. apply filter_In in I. tauto.
Qed.

Lemma heads_purge hs low c b :
  heads hs low (c ++ [b]) ->
  heads (filter (fun h => negb (h_number h =? clen c)) hs) low c.
Proof.
  intros (N1 & N2 & H). split; [|split]; [apply nodup_map_filter; auto..|].
  intros h. rewrite filter_In, (H h). split.
  - intros [(LO & x & B & EH) NE]. apply block_at_app_inv in B. destruct B as [[LB B]|[EB ->]]; [|lia]. eauto.
  - intros (LO & x & B & EH). pose proof (block_at_lt _ _ _ B) as LB. split; [|lia].
    split; [exact LO|]. exists x. rewrite block_at_app_old; auto.
Qed.
Lemma heads_prune hs low c :
  heads hs low c -> heads (filter (fun h => negb (h_number h =? low)) hs) (low + 1) c.
Proof.
  intros (N1 & N2 & H). split; [|split]; [apply nodup_map_filter; auto..|].
  intros h. rewrite filter_In, (H h). split.
  - intros [(LO & EX) NE]. split; [lia|exact EX].
  - intros (LO & EX). split; [split; [lia|exact EX]|lia].
Qed.

(* ---- the invariant ---- *)
Record inv (low : N) (d : db) (c : chain) : Prop := {
  i_low : low_ok low c;
  i_numbers : forall n b, block_at c n = Some b -> lb_number b = n;
  i_wf : forall n b, block_at c n = Some b -> wf_data (lb_data b);
  i_heads : heads (d_headers d) low c;
  i_classes : tracks writes_class (d_classes d) low c;
  i_nonces : tracks writes_nonce (d_nonces d) low c;
  i_storage : tracks writes_storage (d_storage d) low c;
  i_defs : defs_track (d_defs d) c;
  i_known : forall n b a u, block_at c n = Some b -> In (a, u) (sd_contracts (lb_data b)) ->
            class_at c n a <> None
}.

Lemma low_ok_app low c b : low_ok low c -> low_ok low (c ++ [b]).
Proof. unfold low_ok. rewrite clen_app. intros [L|[-> ->]]; left; cbn; lia. Qed.

Lemma inv_empty : inv 0 empty_db [].
Proof.
  assert (NO : forall n b, block_at [] n = Some b -> False).
  { intros n b B. apply block_at_lt in B. unfold clen in B. cbn in B. lia. }
  constructor; try (intros; exfalso; eauto; fail).
  - right. auto.
  - split; [constructor|]. split; [constructor|]. intros h. split; [intros []|].
    intros (_ & b & B & _). exact (NO _ _ B).
  - apply tracks_nil.
  - apply tracks_nil.
  - apply tracks_nil.
  - split; [constructor|]. intros x n. split; [discriminate|]. intros [(b & B & _) _]. exfalso. exact (NO _ _ B).
Qed.

(* changes of the pointer and of the L1 table leave the invariant *)
Lemma inv_ext low d d' c :
  inv low d c -> d_headers d' = d_headers d -> d_classes d' = d_classes d -> d_nonces d' = d_nonces d ->
  d_storage d' = d_storage d -> d_defs d' = d_defs d -> inv low d' c.
Proof.
  intros [A B C D E F G H I] E1 E2 E3 E4 E5.
  constructor; rewrite ?E1, ?E2, ?E3, ?E4, ?E5; auto.
Qed.

Lemma lookup_class_spec low d c n a :
  inv low d c -> low <= n -> n < clen c -> lookup_class d (Number n) a = class_at c n a.
Proof.
  intros I L U. unfold lookup_class, class_at.
  apply (tracks_lookup writes_class N.eqb neqb_spec _ low); [apply I|exact L|exact U|].
  intros m _. reflexivity.
Qed.

Lemma state_at_succ {K V} (w : l2_block -> K -> option V) c b k :
  state_after w (up_to (c ++ [b]) (clen c)) k
  = match w b k with Some v => Some v | None => state_after w c k end.
Proof.
  rewrite (up_to_succ _ _ b) by apply block_at_app_new. rewrite state_after_snoc.
  unfold clen. rewrite Nat2N.id, firstn_app, Nat.sub_diag, firstn_all. cbn. rewrite app_nil_r. reflexivity.
Qed.
Lemma up_to_all c n : n + 1 = clen c -> up_to c n = c.
Proof. unfold up_to, clen. intros E. apply firstn_all2. lia. Qed.

Lemma classes_known_spec low d c b :
  inv low d c -> lb_number b = clen c -> classes_known d b = true ->
  forall a u, In (a, u) (sd_contracts (lb_data b)) -> is_system a = false ->
              wf_data (lb_data b) -> class_at (c ++ [b]) (clen c) a <> None.
Proof.
  intros I E CK a u IN SY WF. unfold class_at. rewrite state_at_succ.
  unfold classes_known in CK. rewrite forallb_forall in CK. specialize (CK _ IN). cbn in CK.
  rewrite SY in CK. cbn in CK. unfold writes_class at 1.
  rewrite (in_nget _ _ _ (proj1 WF) IN). destruct (cu_class u) as [x|]; cbn; [discriminate|].
  cbn in CK. rewrite E in CK. destruct (i_low _ _ _ I) as [L|[-> ->]].
  - assert (X : lookup_class d (Number (clen c)) a = state_after writes_class c a).
    { unfold lookup_class. rewrite (tracks_lookup writes_class N.eqb neqb_spec _ low c (clen c - 1)).
      - rewrite up_to_all by lia. reflexivity.
      - apply I.
      - lia.
      - lia.
      - intros m M. cbn. lia. }
    rewrite X in CK. destruct (state_after writes_class c a); [discriminate|]. cbn in CK. discriminate.
  - exfalso. assert (X : d_classes d = []).
    { destruct (d_classes d) as [|r t] eqn:T; [reflexivity|]. exfalso.
      pose proof (i_classes _ _ _ I r) as TR. rewrite T in TR. destruct (proj1 TR (or_introl eq_refl)) as [(y & Y & _) _].
      apply block_at_lt in Y. unfold clen in Y. cbn in Y. lia. }
    unfold lookup_class, latest in CK. rewrite X in CK. cbn in CK. discriminate.
Qed.

Lemma insert_header_fields h d d' :
  insert_header h d = Some d' ->
  d_classes d' = d_classes d /\ d_nonces d' = d_nonces d /\ d_storage d' = d_storage d /\
  d_defs d' = d_defs d /\ d_redeclared d' = d_redeclared d /\ d_casm d' = d_casm d /\
  d_l1 d' = d_l1 d /\ d_pointer d' = d_pointer d.
Proof.
  unfold insert_header. destruct (existsb _ _); [discriminate|]. intros E. injection E as <-.
  cbn. repeat (split; [reflexivity|]). reflexivity.
Qed.

(* a stored block: the database up to the pointer *)
Definition stored (b : l2_block) (d d' : db) : Prop :=
  exists d1, insert_header (Header (lb_number b) (lb_hash b) (lb_parent b) (lb_commitment b)) d = Some d1 /\
  exists p, d' = set_pointer p (insert_data (lb_number b) (lb_data b) d1).

Lemma l2_update_stored b d d' :
  l2_update b d = Some d' -> classes_known d b = true /\ stored b d d'.
Proof.
  unfold l2_update. destruct (classes_known d b); cbn [negb]; [|discriminate].
  destruct (insert_header _ d) as [d1|] eqn:E; [|discriminate]. intros X. injection X as <-.
  split; [reflexivity|]. exists d1. split; [exact E|].
  set (d2 := insert_data _ _ d1).
  destruct (_ =? _); [destruct (nget _ _) as [x|]; [destruct (x =? _)|]|].
  1: eexists; reflexivity.
  all: exists (d_pointer d2); unfold d2; reflexivity.
Qed.

Lemma inv_store low d d' c b :
  inv low d c -> wf_data (lb_data b) -> lb_number b = clen c ->
  l2_update b d = Some d' -> inv low d' (c ++ [b]).
Proof.
  intros I WF E U. apply l2_update_stored in U. destruct U as [CK (d1 & IH & p & ->)].
  pose proof (insert_header_fields _ _ _ IH) as (F1 & F2 & F3 & F4 & F5 & F6 & F7 & F8).
  pose proof I as I'. destruct I as [A B C D EC EN ES ED EK].
  constructor.
  - apply low_ok_app. exact A.
  - intros n x X. apply block_at_app_inv in X. destruct X as [[_ X]|[-> ->]]; auto.
  - intros n x X. apply block_at_app_inv in X. destruct X as [[_ X]|[-> ->]]; [eauto|exact WF].
  - cbn [set_pointer d_headers insert_data]. rewrite E in IH. eapply heads_insert; eauto.
  - cbn [set_pointer d_classes insert_data]. rewrite F1. apply tracks_insert; auto.
    intros r. rewrite E. apply class_rows_in. exact WF.
  - cbn [set_pointer d_nonces insert_data]. rewrite F2. apply tracks_insert; auto.
    intros r. rewrite E. apply nonce_rows_in. exact WF.
  - cbn [set_pointer d_storage insert_data]. rewrite F3. apply tracks_insert; auto.
    intros r. rewrite E. apply storage_rows_in. exact WF.
  - change (d_defs (set_pointer p (insert_data (lb_number b) (lb_data b) d1)))
      with (d_defs (insert_data (lb_number b) (lb_data b) d1)).
    rewrite E. apply defs_track_insert. rewrite F4. exact ED.
  - intros n x a u X IN. apply block_at_app_inv in X. destruct X as [[L X]|[-> ->]].
    + unfold class_at. rewrite up_to_app by exact L. eapply EK; eauto.
    + eapply classes_known_spec; eauto.
      destruct WF as (_ & _ & _ & _ & WC & _). apply (WC _ _ IN).
Qed.

Lemma inv_purge low d c b :
  inv low d (c ++ [b]) -> low_ok low c -> inv low (purge_block (clen c) d) c.
Proof.
  intros [A B C D EC EN ES ED EK] L. constructor.
  - exact L.
  - intros n x X. apply B. rewrite block_at_app_old; [exact X|]. eapply block_at_lt; eauto.
  - intros n x X. apply (C n). rewrite block_at_app_old; [exact X|]. eapply block_at_lt; eauto.
  - apply heads_purge with b. exact D.
  - eapply tracks_purge; eauto.
  - eapply tracks_purge; eauto.
  - eapply tracks_purge; eauto.
  - eapply defs_track_purge; eauto.
  - intros n x a u X IN. pose proof (block_at_lt _ _ _ X) as LX. unfold class_at.
    rewrite <- (up_to_app c b) by exact LX. eapply EK; [|exact IN]. rewrite block_at_app_old; auto.
Qed.

Lemma inv_prune low d c :
  inv low d c -> low + 1 < clen c -> inv (low + 1) (prune_block low d) c.
Proof.
  intros [A B C D EC EN ES ED EK] L. constructor; auto.
  - left. exact L.
  - apply heads_prune. exact D.
  - apply tracks_prune; auto using neqb_spec.
  - apply tracks_prune; auto using neqb_spec.
  - apply tracks_prune; auto using pair_eqb_spec.
Qed.

Lemma purge_down_inv k : forall low d c,
  inv low d c -> (k <= length c)%nat -> low_ok low (firstn (length c - k) c) ->
  inv low (purge_down k (clen c - 1) d) (firstn (length c - k) c).
Proof.
  induction k as [|k IH]; intros low d c I K L; cbn [purge_down].
  - rewrite Nat.sub_0_r, firstn_all. exact I.
  - destruct c as [|b c _] using rev_ind; [cbn in K; lia|]. rewrite app_length in *. cbn [length] in *.
    assert (F : firstn (length c + 1 - S k) (c ++ [b]) = firstn (length c - k) c).
    { rewrite firstn_app. replace (length c + 1 - S k - length c)%nat with 0%nat by lia.
      rewrite app_nil_r. f_equal. lia. }
    rewrite F in *. rewrite clen_app. replace (clen c + 1 - 1) with (clen c) by lia.
    apply IH; [|lia|exact L].
    apply inv_purge with b; [exact I|].
    destruct L as [L|[-> L]].
    + left. unfold clen in *. rewrite firstn_length in L. lia.
    + destruct c; [right; auto|left]. unfold clen. cbn. lia.
Qed.

Lemma prune_up_inv k : forall low d c,
  inv low d c -> low + N.of_nat k < clen c -> inv (low + N.of_nat k) (prune_up k low d) c.
Proof.
  induction k as [|k IH]; intros low d c I L; cbn [prune_up].
  - replace (low + N.of_nat 0) with low by lia. exact I.
  - assert (X : block_exists d low = true).
    { apply (heads_exists d low c low (i_heads _ _ _ I)). lia. }
    rewrite X. replace (low + N.of_nat (S k)) with ((low + 1) + N.of_nat k) by lia.
    apply IH; [|lia]. apply inv_prune; [exact I|lia].
Qed.

(* pruning moves the lowest kept block up, but not past the pruning point *)
Lemma perform_pruning_inv m e d d' low c :
  inv low d c -> perform_pruning m e d = Some d' ->
  (match e with L1Checkpoint _ => True | L2Head h => h + 1 = clen c end) ->
  exists low', inv low' d' c /\ low <= low' /\
    d_pointer d' = d_pointer d /\ d_l1 d' = d_l1 d /\
    match m with
    | Archive => d' = d
    | Prune kept => match pruning_point e d with
                    | None => d' = d
                    | Some p => low' = N.max low (p - kept)
                    end
    end.
Proof.
  intros I P HE. unfold perform_pruning in P. destruct m as [|kept].
  { injection P as <-. exists low. repeat (split; [first [exact I|lia|reflexivity]|]). reflexivity. }
  destruct (pruning_point e d) as [p|] eqn:PP.
  2: { injection P as <-. exists low. repeat (split; [first [exact I|lia|reflexivity]|]). reflexivity. }
  assert (PU : p < clen c).
  { unfold pruning_point in PP. destruct e as [n|h].
    - rewrite (latest_number_spec d low c (i_heads _ _ _ I) (i_low _ _ _ I)) in PP.
      destruct (N.eqb_spec (clen c) 0); [discriminate|]. destruct (N.leb_spec (clen c - 1) n); [discriminate|].
      injection PP as <-. lia.
    - destruct (h =? 0); [discriminate|]. destruct (top_header _) as [x|]; [destruct (_ <? _); [discriminate|]|];
        injection PP as <-; lia. }
  destruct (N.ltb_spec p kept) as [LK|LK].
  { injection P as <-. exists low. repeat (split; [first [exact I|lia|reflexivity]|]). lia. }
  assert (NE : c <> []) by (intros ->; unfold clen in PU; cbn in PU; lia).
  rewrite (earliest_spec d low c (i_heads _ _ _ I) NE (i_low _ _ _ I)) in P. injection P as <-.
  exists (low + N.of_nat (N.to_nat (p - kept - low))).
  assert (LOW : low < clen c) by (destruct (i_low _ _ _ I) as [X|[_ X]]; [exact X|congruence]).
  split; [apply prune_up_inv; [exact I|lia]|]. split; [lia|].
  assert (PF : forall k n d0, d_pointer (prune_up k n d0) = d_pointer d0 /\ d_l1 (prune_up k n d0) = d_l1 d0).
  { induction k as [|k IH]; intros n d0; cbn [prune_up]; [auto|].
    destruct (IH (n + 1) (if block_exists d0 n then prune_block n d0 else d0)) as [-> ->].
    destruct (block_exists d0 n); auto. }
  split; [apply PF|]. split; [apply PF|]. lia.
Qed.

Lemma l1_update_fields n x d :
  d_headers (l1_update n x d) = d_headers d /\ d_classes (l1_update n x d) = d_classes d /\
  d_nonces (l1_update n x d) = d_nonces d /\ d_storage (l1_update n x d) = d_storage d /\
  d_defs (l1_update n x d) = d_defs d /\ d_redeclared (l1_update n x d) = d_redeclared d /\
  d_casm (l1_update n x d) = d_casm d /\ d_l1 (l1_update n x d) = nset n x (d_l1 d).
Proof.
  unfold l1_update. destruct (header_at _ _) as [h|]; [destruct (_ =? _)|]; cbn;
    repeat (split; [reflexivity|]); reflexivity.
Qed.

Lemma l2_reorg_inv tail d d' low c :
  inv low d c -> l2_reorg tail d = Some d' ->
  inv low d' (firstn (N.to_nat tail) c) /\ tail < clen c /\
  (tail = 0 /\ low = 0 \/ low < tail) /\ d_l1 d' = d_l1 d /\
  d_pointer d' = match d_pointer d with
                 | None => None
                 | Some p => if tail =? 0 then None else if tail <=? p then Some (tail - 1) else Some p
                 end.
Proof.
  intros I R. unfold l2_reorg in R.
  rewrite (latest_number_spec d low c (i_heads _ _ _ I) (i_low _ _ _ I)) in R.
  destruct (N.eqb_spec (clen c) 0); [discriminate|].
  destruct (block_exists d tail) eqn:X; cbn [negb] in R; [|discriminate].
  apply (heads_exists _ _ _ _ (i_heads _ _ _ I)) in X.
  assert (T : tail = 0 /\ low = 0 \/ low < tail).
  { destruct (N.eqb_spec tail 0) as [->|NZ]; [left; lia|]. right. cbn [negb andb] in R.
    destruct (block_exists d (tail - 1)) eqn:Y; cbn [negb] in R; [|discriminate].
    apply (heads_exists _ _ _ _ (i_heads _ _ _ I)) in Y. lia. }
  destruct (negb (tail =? 0) && negb (block_exists d (tail - 1))); [discriminate|].
  set (d1 := purge_down _ _ d) in R. injection R as R.
  assert (I1 : inv low d1 (firstn (N.to_nat tail) c)).
  { assert (F : firstn (N.to_nat tail) c = firstn (length c - N.to_nat (clen c - 1 + 1 - tail)) c).
    { f_equal. unfold clen in *. lia. }
    rewrite F. apply purge_down_inv; [exact I|unfold clen in *; lia|]. rewrite <- F.
    destruct T as [[-> ->]|T]; [right; auto|left]. unfold clen in *. rewrite firstn_length. lia. }
  assert (PF : forall k n d0, d_pointer (purge_down k n d0) = d_pointer d0 /\ d_l1 (purge_down k n d0) = d_l1 d0).
  { induction k as [|k IH]; intros n1 d0; cbn [purge_down]; [auto|].
    destruct (IH (n1 - 1) (purge_block n1 d0)) as [-> ->]. auto. }
  assert (P1 : d_pointer d1 = d_pointer d) by apply PF.
  assert (L1 : d_l1 d1 = d_l1 d) by apply PF. rewrite P1 in R.
  split; [|split; [lia|split; [exact T|]]].
  - subst d'. destruct (d_pointer d); [destruct (tail =? 0); [|destruct (tail <=? _)]|]; try exact I1;
      (eapply inv_ext; [exact I1|reflexivity..]).
  - subst d'. destruct (d_pointer d) as [p|]; [destruct (tail =? 0); [|destruct (tail <=? p)]|];
      cbn; rewrite ?P1, ?L1; auto.
Qed.

Lemma consume_inv m s e s' low c :
  inv low (c_db s) c -> announced s e -> consume m s e = Some s' ->
  exists low', inv low' (c_db s') (chain_step m s c e) /\
    (low <= low' \/ exists t, e = Reorg t).
Proof.
  intros I AN CO. unfold chain_step. rewrite CO. destruct e as [n x|b|b|t|x|]; cbn [consume] in CO.
  - destruct (perform_pruning _ _ _) as [d|] eqn:P; [|discriminate]. injection CO as <-. cbn [c_db].
    pose proof (l1_update_fields n x (c_db s)) as (F1 & F2 & F3 & F4 & F5 & _).
    assert (I1 : inv low (l1_update n x (c_db s)) c) by (eapply inv_ext; eauto).
    destruct (perform_pruning_inv _ _ _ _ _ _ I1 P Coq.Init.Logic.I) as (low' & I' & L & _).
    exists low'. auto.
  - destruct (N.ltb_spec (lb_number b) (c_next s)) as [LT|GE]; [injection CO as <-; exists low; split; [exact I|left; lia]|].
    destruct (l2_update b (c_db s)) as [d1|] eqn:U; [|discriminate].
    destruct (perform_pruning _ _ d1) as [d|] eqn:P; [|discriminate]. injection CO as <-. cbn [c_db].
    destruct AN as [WF [E|E]]; [|lia].
    rewrite (next_number_spec _ _ _ (i_heads _ _ _ I) (i_low _ _ _ I)) in E.
    pose proof (inv_store _ _ _ _ _ I WF E U) as I1.
    assert (HE : lb_number b + 1 = clen (c ++ [b])) by (rewrite clen_app; lia).
    destruct (perform_pruning_inv _ _ _ _ _ _ I1 P HE) as (low' & I' & L & _).
    exists low'. auto.
  - destruct (N.ltb_spec (lb_number b) (c_next s)) as [LT|GE]; [injection CO as <-; exists low; split; [exact I|left; lia]|].
    destruct (l2_update b (c_db s)) as [d1|] eqn:U; [|discriminate]. injection CO as <-. cbn [c_db].
    destruct AN as [WF [E|E]]; [|lia].
    rewrite (next_number_spec _ _ _ (i_heads _ _ _ I) (i_low _ _ _ I)) in E.
    exists low. split; [eapply inv_store; eauto|left; lia].
  - destruct (l2_reorg t (c_db s)) as [d|] eqn:R; [|discriminate]. injection CO as <-. cbn [c_db].
    destruct (l2_reorg_inv _ _ _ _ _ I R) as (I' & _). exists low. split; [exact I'|left; lia].
  - injection CO as <-. cbn [c_db]. exists low. split; [|left; lia].
    destruct I as [A B C D EC EN ES ED EK]. constructor; auto.
    destruct ED as [ND T]. split.
    + cbn. destruct (nget x _); [exact ND|]. apply (al_nodup_set _ neqb_spec). exact ND.
    + intros y k. rewrite <- T. cbn. destruct (nget x (d_defs (c_db s))) as [o|] eqn:G; [reflexivity|].
      destruct (N.eq_dec y x) as [->|NE].
      * rewrite (al_get_set_eq _ neqb_spec), G. split; discriminate.
      * rewrite (al_get_set_neq _ neqb_spec) by exact NE. reflexivity.
  - discriminate.
Qed.

Lemma step_inv m s e low c :
  inv low (c_db s) c -> announced s e ->
  exists low', inv low' (c_db (step m s e)) (chain_step m s c e) /\ low <= low'.
Proof.
  intros I AN. unfold step. destruct (consume m s e) as [s'|] eqn:CO.
  - destruct (consume_inv _ _ _ _ _ _ I AN CO) as (low' & I' & [L|(t & ->)]); [eauto|].
    cbn [consume] in CO. destruct (l2_reorg t (c_db s)) as [d|] eqn:R; [|discriminate]. injection CO as <-.
    unfold chain_step. cbn [consume]. rewrite R. cbn [c_db].
    destruct (l2_reorg_inv _ _ _ _ _ I R) as (I2 & _). exists low. split; [exact I2|lia].
  - unfold chain_step. rewrite CO. cbn. exists low. split; [exact I|lia].
Qed.

(* ---- runs ---- *)
Lemma both_fst m es : fst (both m es) = run m es.
Proof.
  unfold both, run. enough (H : forall sc, fst (fold_left (both_step m) es sc) = fold_left (step m) es (fst sc))
    by (rewrite H; reflexivity).
  induction es as [|e es IH]; intros sc; [reflexivity|]. cbn [fold_left]. rewrite IH. reflexivity.
Qed.
Lemma run_snoc m es e : run m (es ++ [e]) = step m (run m es) e.
Proof. unfold run. rewrite fold_left_app. reflexivity. Qed.
Lemma chain_after_snoc m es e : chain_after m (es ++ [e]) = chain_step m (run m es) (chain_after m es) e.
Proof.
  unfold chain_after, both. rewrite fold_left_app. cbn [fold_left]. unfold both_step at 1. cbn [snd].
  fold (both m es). rewrite both_fst. reflexivity.
Qed.
Lemma orderly_app m es1 es2 s :
  orderly m s (es1 ++ es2) <-> orderly m s es1 /\ orderly m (fold_left (step m) es1 s) es2.
Proof.
  revert s. induction es1 as [|e es1 IH]; intros s; cbn [app orderly fold_left]; [tauto|].
  rewrite IH. tauto.
Qed.
Lemma orderly_snoc m es e : orderly_run m (es ++ [e]) <-> orderly_run m es /\ announced (run m es) e.
Proof. unfold orderly_run. rewrite orderly_app. cbn [orderly]. unfold run. tauto. Qed.

Lemma run_inv m es :
  orderly_run m es -> exists low, inv low (db_after m es) (chain_after m es).
Proof.
  induction es as [|e es IH] using rev_ind; intros O.
  - exists 0. apply inv_empty.
  - apply orderly_snoc in O. destruct O as [O AN]. destruct (IH O) as (low & I).
    destruct (step_inv m (run m es) e low (chain_after m es) I AN) as (low' & I' & _).
    exists low'. unfold db_after. rewrite run_snoc, chain_after_snoc. exact I'.
Qed.

(* ---- lookups ---- *)
Lemma contract_exists_spec t c low n bound a :
  tracks writes_class t low c -> low <= n -> n < clen c -> (forall m, m < clen c -> bound m = (m <=? n)) ->
  existsb (fun r : row N N => (a =? r_key r) && bound (r_block r)) t = true <-> class_at c n a <> None.
Proof.
  intros T L U B. unfold class_at.
  rewrite <- (tracks_lookup writes_class N.eqb neqb_spec t low c n bound a T L U B). unfold latest.
  destruct (newest _) as [r|] eqn:E.
  - apply newest_some in E. destruct E as [I _]. apply filter_In in I. cbn. split; [discriminate|].
    intros _. apply existsb_exists. exists r. exact I.
  - apply newest_none in E. cbn. split; [|congruence]. intros X. apply existsb_exists in X.
    destruct X as (r & I & X). exfalso. apply (in_nil (a := r)). rewrite <- E. apply filter_In. auto.
Qed.

Lemma inv_answers low d c n bid :
  inv low d c -> low <= n -> n < clen c -> (forall m, m < clen c -> bound_of d bid m = (m <=? n)) ->
  answers d bid c n.
Proof.
  intros I L U B. split; [|split; [|split; [|split]]].
  - intros a k. apply (tracks_lookup writes_storage pair_eqb pair_eqb_spec _ low); auto; apply I.
  - intros a. apply (tracks_lookup writes_nonce N.eqb neqb_spec _ low); auto; apply I.
  - intros a. apply (tracks_lookup writes_class N.eqb neqb_spec _ low); auto; apply I.
  - intros a. apply (contract_exists_spec _ c low); auto; apply I.
  - intros x m. destruct (i_defs _ _ _ I) as [_ T]. unfold lookup_declared_at.
    destruct (nget x (d_defs d)) as [[k|]|] eqn:G.
    + pose proof (proj1 (T x k) G) as F. assert (K : k < clen c).
      { destruct F as [(y & Y & _) _]. eapply block_at_lt; eauto. }
      rewrite B by exact K. destruct (N.leb_spec k n) as [X|X].
      * split; [intros E; injection E as <-; auto|]. intros [_ F']. rewrite (first_declared_fun _ _ _ _ F F'). reflexivity.
      * split; [discriminate|]. intros [M F']. rewrite (first_declared_fun _ _ _ _ F F') in X. lia.
    + split; [discriminate|]. intros [_ F]. apply T in F. congruence.
    + split; [discriminate|]. intros [_ F]. apply T in F. congruence.
Qed.

Lemma inv_answers_number low d c n : inv low d c -> low <= n -> n < clen c -> answers d (Number n) c n.
Proof. intros I L U. eapply inv_answers; eauto. Qed.
Lemma inv_answers_latest low d c : inv low d c -> c <> [] -> answers d Latest c (clen c - 1).
Proof.
  intros I NE. destruct (i_low _ _ _ I) as [L|[_ L]]; [|congruence].
  eapply inv_answers; eauto; [lia|lia|]. intros m M. cbn. lia.
Qed.
Lemma inv_answers_hash low d c n b :
  inv low d c -> low <= n -> block_at c n = Some b -> answers d (Hash (lb_hash b)) c n.
Proof.
  intros I L B. pose proof (block_at_lt _ _ _ B) as U. eapply inv_answers; eauto.
  intros m M. cbn. rewrite (heads_hash d low c n b (i_heads _ _ _ I) L B). reflexivity.
Qed.

Lemma answers_same d b c n d' b' : answers d b c n -> answers d' b' c n -> same_state d b d' b'.
Proof.
  intros (A1 & A2 & A3 & A4 & A5) (B1 & B2 & B3 & B4 & B5).
  split; [|split; [|split; [|split]]]; intros.
  - rewrite A1, B1. reflexivity.
  - rewrite A2, B2. reflexivity.
  - rewrite A3, B3. reflexivity.
  - specialize (A4 a). specialize (B4 a).
    destruct (contract_exists d b a), (contract_exists d' b' a); try reflexivity; exfalso.
    + pose proof (proj2 B4 (proj1 A4 eq_refl)). discriminate.
    + pose proof (proj2 A4 (proj1 B4 eq_refl)). discriminate.
  - specialize (A5 x). specialize (B5 x).
    destruct (lookup_declared_at d b x) as [m|], (lookup_declared_at d' b' x) as [m'|]; try reflexivity.
    + pose proof (proj2 (B5 m) (proj1 (A5 m) eq_refl)) as X. congruence.
    + pose proof (proj2 (B5 m) (proj1 (A5 m) eq_refl)) as X. congruence.
    + pose proof (proj2 (A5 m') (proj1 (B5 m') eq_refl)) as X. congruence.
Qed.

Lemma kept_iff low d c n : inv low d c -> kept d n <-> low <= n /\ n < clen c.
Proof. intros I. apply heads_exists. apply I. Qed.

(* the state of a chain as of a block does not depend on later blocks *)
Lemma up_to_firstn c t n : n < N.of_nat t -> up_to (firstn t c) n = up_to c n.
Proof. intros L. unfold up_to. rewrite firstn_firstn. f_equal. lia. Qed.
Lemma block_at_firstn c t n : n < N.of_nat t -> block_at (firstn t c) n = block_at c n.
Proof.
  intros L. unfold block_at. assert (X : (N.to_nat n < t)%nat) by lia. revert X. clear L.
  generalize (N.to_nat n) as k. intros k. revert c t. induction k as [|k IH]; intros [|b c] [|t] X; try lia; try reflexivity.
  cbn. apply IH. lia.
Qed.
Lemma block_at_firstn_ge c t n : N.of_nat t <= n -> block_at (firstn t c) n = None.
Proof.
  intros L. unfold block_at. apply nth_error_None. rewrite firstn_length. lia.
Qed.
Lemma first_declared_firstn c t x m n :
  n < N.of_nat t -> (m <= n /\ first_declared (firstn t c) x m) <-> (m <= n /\ first_declared c x m).
Proof.
  intros L. split; intros [M [(b & B & D) Q]]; (split; [exact M|]); split.
  - exists b. rewrite block_at_firstn in B by lia. auto.
  - intros i y I Y. apply (Q i y I). rewrite block_at_firstn by lia. exact Y.
  - exists b. rewrite block_at_firstn by lia. auto.
  - intros i y I Y. apply (Q i y I). rewrite block_at_firstn in Y by lia. exact Y.
Qed.
Lemma answers_firstn d b c t n :
  n < N.of_nat t -> answers d b (firstn t c) n <-> answers d b c n.
Proof.
  intros L. unfold answers, storage_at, nonce_at, class_at. rewrite up_to_firstn by exact L.
  split; intros (A1 & A2 & A3 & A4 & A5); repeat (split; [assumption|]); intros x m;
    (rewrite A5; first [apply first_declared_firstn | symmetry; apply first_declared_firstn]; exact L).
Qed.

(* ---- the consumer's counter ---- *)
Lemma run_next m es :
  orderly_run m es -> no_finalized es -> c_next (run m es) = next_number (db_after m es).
Proof.
  induction es as [|e es IH] using rev_ind; intros O NF; [reflexivity|].
  apply orderly_snoc in O. destruct O as [O AN].
  assert (NF' : no_finalized es). { intros b X. apply (NF b). apply in_or_app. auto. }
  specialize (IH O NF'). destruct (run_inv m es O) as (low & I).
  unfold db_after in *. rewrite run_snoc. unfold step.
  destruct (consume m (run m es) e) as [s'|] eqn:CO.
  2: { reflexivity. }
  destruct (consume_inv _ _ _ _ _ _ I AN CO) as (low' & I' & _).
  rewrite (next_number_spec _ _ _ (i_heads _ _ _ I') (i_low _ _ _ I')).
  rewrite (next_number_spec _ _ _ (i_heads _ _ _ I) (i_low _ _ _ I)) in IH.
  unfold chain_step. rewrite CO. destruct e as [n x|b|b|t|x|]; cbn [consume] in CO.
  - destruct (perform_pruning _ _ _); [|discriminate]. injection CO as <-. exact IH.
  - destruct (N.ltb_spec (lb_number b) (c_next (run m es))) as [LT|GE]; [injection CO as <-; exact IH|].
    destruct (l2_update _ _); [|discriminate]. destruct (perform_pruning _ _ _); [|discriminate].
    injection CO as <-. cbn [c_next]. rewrite clen_app. lia.
  - exfalso. apply (NF b). apply in_or_app. right. left. reflexivity.
  - destruct (l2_reorg t _) as [d|] eqn:R; [|discriminate]. injection CO as <-. cbn [c_next].
    destruct (l2_reorg_inv _ _ _ _ _ I R) as (_ & L & _). unfold clen in *. rewrite firstn_length. lia.
  - injection CO as <-. exact IH.
  - discriminate.
Qed.

(* ---- L1 reports and the pointer ---- *)
Lemma consume_l1 m s e s' :
  consume m s e = Some s' ->
  d_l1 (c_db s') = match e with L1Update n x => nset n x (d_l1 (c_db s)) | _ => d_l1 (c_db s) end.
Proof.
  intros CO.
  assert (PF : forall k n d0, d_l1 (prune_up k n d0) = d_l1 d0).
  { induction k as [|k IH]; intros n d0; cbn [prune_up]; [auto|]. rewrite IH. destruct (block_exists d0 n); auto. }
  assert (PP : forall e d d', perform_pruning m e d = Some d' -> d_l1 d' = d_l1 d).
  { intros e0 d d' P. unfold perform_pruning in P. destruct m; [injection P as <-; reflexivity|].
    destruct (pruning_point e0 d); [|injection P as <-; reflexivity].
    destruct (_ <? _); [injection P as <-; reflexivity|]. destruct (earliest_number d); [|discriminate].
    injection P as <-. apply PF. }
  assert (LU : forall b d d', l2_update b d = Some d' -> d_l1 d' = d_l1 d).
  { intros b d d' U. apply l2_update_stored in U. destruct U as [_ (d1 & IH & p & ->)].
    apply insert_header_fields in IH. cbn. tauto. }
  destruct e as [n x|b|b|t|x|]; cbn [consume] in CO.
  - destruct (perform_pruning _ _ _) as [d|] eqn:P; [|discriminate]. injection CO as <-. cbn [c_db].
    rewrite (PP _ _ _ P). apply l1_update_fields.
  - destruct (_ <? _); [injection CO as <-; reflexivity|].
    destruct (l2_update b (c_db s)) as [d1|] eqn:U; [|discriminate].
    destruct (perform_pruning _ _ d1) as [d|] eqn:P; [|discriminate]. injection CO as <-. cbn [c_db].
    rewrite (PP _ _ _ P). eauto.
  - destruct (_ <? _); [injection CO as <-; reflexivity|].
    destruct (l2_update b (c_db s)) as [d1|] eqn:U; [|discriminate]. injection CO as <-. cbn [c_db]. eauto.
  - destruct (l2_reorg t (c_db s)) as [d|] eqn:R; [|discriminate]. injection CO as <-. cbn [c_db].
    unfold l2_reorg in R. destruct (latest_number _); [|discriminate].
    destruct (negb _); [discriminate|]. destruct (negb _ && _); [discriminate|].
    assert (PD : forall k n d0, d_l1 (purge_down k n d0) = d_l1 d0).
    { induction k as [|k IH]; intros n1 d0; cbn [purge_down]; [auto|]. rewrite IH. reflexivity. }
    injection R as <-. destruct (d_pointer _); [destruct (t =? 0); [|destruct (t <=? _)]|]; cbn; apply PD.
  - injection CO as <-. reflexivity.
  - discriminate.
Qed.

Lemma run_l1 m es n x : nget n (d_l1 (db_after m es)) = Some x -> l1_reported es n x.
Proof.
  revert n x. induction es as [|e es IH] using rev_ind; intros n x G.
  - cbn in G. discriminate.
  - unfold db_after in G. rewrite run_snoc in G. unfold step in G.
    assert (OLD : nget n (d_l1 (c_db (run m es))) = Some x -> l1_reported (es ++ [e]) n x).
    { intros H. apply in_or_app. left. apply IH. exact H. }
    destruct (consume m (run m es) e) as [s'|] eqn:CO; [|apply OLD; exact G].
    rewrite (consume_l1 _ _ _ _ CO) in G. destruct e as [k y|b|b|t|y|]; auto.
    destruct (N.eq_dec n k) as [->|NE].
    + rewrite (al_get_set_eq _ neqb_spec) in G. injection G as ->. apply in_or_app. right. left. reflexivity.
    + rewrite (al_get_set_neq _ neqb_spec) in G by exact NE. auto.
Qed.

Lemma latest_checkpoint_spec (l : nmap N) :
  match top_header (map (fun x => Header (fst x) 0 0 0) l) with
  | Some c => (exists x, nget (h_number c) l = Some x) /\ forall n x, nget n l = Some x -> n <= h_number c
  | None => l = []
  end.
Proof.
  destruct (top_header _) as [c|] eqn:T.
  - apply top_header_some in T. destruct T as [I M]. split.
    + apply in_map_iff in I. destruct I as ((n & x) & <- & I). cbn.
      apply (al_in_keys_get _ neqb_spec). apply (in_map fst) in I. exact I.
    + intros n x G. apply nget_in in G.
      specialize (M (Header n 0 0 0)). cbn in M. apply M. apply in_map_iff. exists (n, x). auto.
  - apply top_header_none in T. destruct l; [reflexivity|discriminate].
Qed.

(* ---- pruning, event by event ---- *)
(* [n] was deleted by the event, or never kept after it *)
Lemma step_pruned m s e low c :
  inv low (c_db s) c -> announced s e ->
  exists low', inv low' (c_db (step m s e)) (chain_step m s c e) /\
   (low' = low \/
    low < low' /\ exists k, m = Prune k /\ exists p, low' + k = p /\ p + 1 <= clen (chain_step m s c e) /\
      (d_l1 (c_db (step m s e)) = [] \/
       exists q x, nget q (d_l1 (c_db (step m s e))) = Some x /\ p <= q)).
Proof.
  intros I AN. unfold step, chain_step. destruct (consume m s e) as [s'|] eqn:CO; [|exists low; auto].
  assert (KEY : forall pe d d' cc, inv low d cc -> perform_pruning m pe d = Some d' ->
     (match pe with L1Checkpoint _ => True | L2Head h => h + 1 = clen cc end) ->
     exists low', inv low' d' cc /\ d_l1 d' = d_l1 d /\
      (low' = low \/ low < low' /\ exists k, m = Prune k /\ exists p, low' + k = p /\ p + 1 <= clen cc /\
         match pe with
         | L1Checkpoint n => p = n
         | L2Head h => d_l1 d = [] \/ exists q x, nget q (d_l1 d) = Some x /\ p <= q
         end)).
  { intros pe d d' cc ID P HE. destruct (perform_pruning_inv _ _ _ _ _ _ ID P HE) as (low' & I' & L & _ & L1 & W).
    exists low'. split; [exact I'|]. split; [exact L1|].
    destruct m as [|k].
    { left. subst d'. pose proof (kept_iff _ _ _ low ID) as K1. pose proof (kept_iff _ _ _ low I') as K2.
      destruct (i_low _ _ _ ID) as [X|[-> ->]].
      - assert (K : kept d low) by (apply K1; lia). apply K2 in K. lia.
      - destruct (i_low _ _ _ I') as [X|[-> _]]; [unfold clen in X; cbn in X; lia|reflexivity]. }
    destruct (pruning_point pe d) as [p|] eqn:PP.
    2: { left. subst d'. pose proof (kept_iff _ _ _ low ID) as K1. pose proof (kept_iff _ _ _ low I') as K2.
      destruct (i_low _ _ _ ID) as [X|[-> ->]].
      - assert (K : kept d low) by (apply K1; lia). apply K2 in K. lia.
      - destruct (i_low _ _ _ I') as [X|[-> _]]; [unfold clen in X; cbn in X; lia|reflexivity]. }
    destruct (N.le_gt_cases (p - k) low) as [X|X]; [left; lia|right]. split; [lia|].
    exists k. split; [reflexivity|]. exists p. split; [lia|].
    unfold pruning_point in PP. destruct pe as [n|h].
    - rewrite (latest_number_spec d low cc (i_heads _ _ _ ID) (i_low _ _ _ ID)) in PP.
      destruct (N.eqb_spec (clen cc) 0); [discriminate|]. destruct (N.leb_spec (clen cc - 1) n); [discriminate|].
      injection PP as <-. split; [lia|reflexivity].
    - destruct (N.eqb_spec h 0); [discriminate|].
      pose proof (latest_checkpoint_spec (d_l1 d)) as LC. destruct (top_header _) as [x|].
      + destruct (N.ltb_spec (h_number x) h); [discriminate|]. injection PP as <-. split; [lia|].
        right. destruct LC as [(y & G) _]. exists (h_number x), y. split; [exact G|lia].
      + injection PP as <-. split; [lia|]. left. exact LC. }
  destruct e as [n x|b|b|t|x|]; cbn [consume] in CO.
  - destruct (perform_pruning _ _ _) as [d|] eqn:P; [|discriminate]. injection CO as <-. cbn [c_db].
    pose proof (l1_update_fields n x (c_db s)) as (F1 & F2 & F3 & F4 & F5 & _).
    assert (I1 : inv low (l1_update n x (c_db s)) c) by (eapply inv_ext; eauto).
    destruct (KEY _ _ _ _ I1 P Coq.Init.Logic.I) as (low' & I' & L1 & W). exists low'. split; [exact I'|].
    destruct W as [W|(L & k & -> & p & E1 & E2 & ->)]; [auto|right]. split; [exact L|].
    exists k. split; [reflexivity|]. exists n. split; [exact E1|]. split; [exact E2|]. right.
    exists n, x. split; [|lia]. rewrite L1.
    destruct (l1_update_fields n x (c_db s)) as (_ & _ & _ & _ & _ & _ & _ & ->). apply (al_get_set_eq _ neqb_spec).
  - destruct (N.ltb_spec (lb_number b) (c_next s)) as [LT|GE]; [injection CO as <-; exists low; auto|].
    destruct (l2_update b (c_db s)) as [d1|] eqn:U; [|discriminate].
    destruct (perform_pruning _ _ d1) as [d|] eqn:P; [|discriminate]. injection CO as <-. cbn [c_db].
    destruct AN as [WF [E|E]]; [|lia].
    rewrite (next_number_spec _ _ _ (i_heads _ _ _ I) (i_low _ _ _ I)) in E.
    pose proof (inv_store _ _ _ _ _ I WF E U) as I1.
    assert (HE : lb_number b + 1 = clen (c ++ [b])) by (rewrite clen_app; lia).
    destruct (KEY _ _ _ _ I1 P HE) as (low' & I' & L1 & W). exists low'. split; [exact I'|].
    destruct W as [W|(L & k & -> & p & E1 & E2 & W)]; [auto|right]. split; [exact L|].
    exists k. split; [reflexivity|]. exists p. split; [exact E1|]. split; [exact E2|]. rewrite L1. exact W.
  - destruct (N.ltb_spec (lb_number b) (c_next s)) as [LT|GE]; [injection CO as <-; exists low; auto|].
    destruct (l2_update b (c_db s)) as [d1|] eqn:U; [|discriminate]. injection CO as <-. cbn [c_db].
    destruct AN as [WF [E|E]]; [|lia].
    rewrite (next_number_spec _ _ _ (i_heads _ _ _ I) (i_low _ _ _ I)) in E.
    exists low. split; [eapply inv_store; eauto|auto].
  - destruct (l2_reorg t (c_db s)) as [d|] eqn:R; [|discriminate]. injection CO as <-. cbn [c_db].
    destruct (l2_reorg_inv _ _ _ _ _ I R) as (I2 & _). exists low. auto.
  - pose proof (consume_inv m s (ClassDefinition x) s' low c I Coq.Init.Logic.I) as CI.
    cbn [consume] in CI. destruct (CI CO) as (low' & I' & _). injection CO as <-. cbn [c_db] in *.
    unfold chain_step in I'. cbn [consume] in I'. exists low'. split; [exact I'|]. left.
    pose proof (kept_iff _ _ _ low I) as K1. pose proof (kept_iff _ _ _ low I') as K2.
    pose proof (kept_iff _ _ _ low' I) as K3. pose proof (kept_iff _ _ _ low' I') as K4.
    change (kept (insert_definition x (c_db s)) low) with (kept (c_db s) low) in K2.
    change (kept (insert_definition x (c_db s)) low') with (kept (c_db s) low') in K4.
    destruct (i_low _ _ _ I) as [X|[-> ->]], (i_low _ _ _ I') as [X'|[-> Y]]; try (unfold clen in *; cbn in *; lia).
    + assert (kept (c_db s) low) by (apply K1; lia). assert (kept (c_db s) low') by (apply K4; lia).
      assert (low' <= low) by (apply K2; assumption). assert (low <= low') by (apply K3; assumption). lia.
    + subst c. unfold clen in X. cbn in X. lia.
  - discriminate.
Qed.

(* ---- the pointer ---- *)
Definition pointer_ok (m : history_mode) (es : list sync_event) (p : N) : Prop :=
  p < clen (chain_after m es) /\
  exists es1 es2 q b,
    es = es1 ++ es2 /\ p <= q /\ block_at (chain_after m es1) q = Some b /\ kept (db_after m es1) q /\
    l1_reported es1 q (lb_hash b) /\
    firstn (S (N.to_nat p)) (chain_after m es1) = firstn (S (N.to_nat p)) (chain_after m es).

Lemma pointer_ok_mono m es e p p' :
  pointer_ok m es p -> p' <= p -> p' < clen (chain_after m (es ++ [e])) ->
  firstn (S (N.to_nat p')) (chain_after m es) = firstn (S (N.to_nat p')) (chain_after m (es ++ [e])) ->
  pointer_ok m (es ++ [e]) p'.
Proof.
  intros (L & es1 & es2 & q & b & E & PQ & B & K & R & F) PP L' F'. split; [exact L'|].
  exists es1, (es2 ++ [e]), q, b. split; [subst es; rewrite app_assoc; reflexivity|].
  split; [lia|]. split; [exact B|]. split; [exact K|]. split; [exact R|].
  rewrite <- F'. apply (f_equal (firstn (S (N.to_nat p')))) in F. rewrite !firstn_firstn in F.
  rewrite !Nat.min_l in F by lia. exact F.
Qed.
Lemma pointer_ok_new m es p b :
  block_at (chain_after m es) p = Some b -> kept (db_after m es) p -> l1_reported es p (lb_hash b) ->
  pointer_ok m es p.
Proof.
  intros B K R. split; [eapply block_at_lt; eauto|]. exists es, [], p, b.
  rewrite app_nil_r. repeat (split; [first [reflexivity|lia|assumption]|]). reflexivity.
Qed.

Lemma perform_pruning_pointer m e d d' : perform_pruning m e d = Some d' -> d_pointer d' = d_pointer d.
Proof.
  assert (PF : forall k n d0, d_pointer (prune_up k n d0) = d_pointer d0).
  { induction k as [|k IH]; intros n d0; cbn [prune_up]; [auto|]. rewrite IH. destruct (block_exists d0 n); auto. }
  intros P. unfold perform_pruning in P. destruct m; [injection P as <-; reflexivity|].
  destruct (pruning_point e d); [|injection P as <-; reflexivity].
  destruct (_ <? _); [injection P as <-; reflexivity|]. destruct (earliest_number d); [|discriminate].
  injection P as <-. apply PF.
Qed.

Lemma l2_update_pointer b d d' :
  l2_update b d = Some d' ->
  d_pointer d' = d_pointer d \/
  (d_pointer d' = Some (lb_number b) /\ nget (lb_number b) (d_l1 d) = Some (lb_hash b)).
Proof.
  unfold l2_update. destruct (classes_known d b); cbn [negb]; [|discriminate].
  destruct (insert_header _ d) as [d1|] eqn:E; [|discriminate]. intros X. injection X as <-.
  apply insert_header_fields in E. destruct E as (_ & _ & _ & _ & _ & _ & EL & EP).
  destruct (_ =? _); [destruct (nget _ _) as [x|] eqn:G; [destruct (N.eqb_spec x (lb_hash b)) as [->|]|]|];
    [right; split; [reflexivity|] | left..]; cbn in *; congruence.
Qed.

Lemma run_pointer m es p :
  orderly_run m es -> d_pointer (db_after m es) = Some p -> pointer_ok m es p.
Proof.
  revert p. induction es as [|e es IH] using rev_ind; intros p O D; [cbn in D; discriminate|].
  pose proof O as O'. apply orderly_snoc in O. destruct O as [O AN]. destruct (run_inv m es O) as (low & I).
  destruct (run_inv m _ O') as (lowe & Ie).
  unfold db_after in D. rewrite run_snoc in D.
  pose proof (chain_after_snoc m es e) as CH.
  unfold step in D. unfold chain_step in CH. destruct (consume m (run m es) e) as [s'|] eqn:CO.
  2: { apply (pointer_ok_mono m es e p p); [apply IH; auto|lia| |rewrite CH; reflexivity].
       rewrite CH. apply (IH p O D). }
  assert (CDB : c_db s' = db_after m (es ++ [e])).
  { unfold db_after. rewrite run_snoc. unfold step. rewrite CO. reflexivity. }
  destruct e as [n x|b|b|t|x|]; cbn [consume] in CO.
  - destruct (perform_pruning _ _ _) as [d|] eqn:P; [|discriminate]. injection CO as <-. cbn [c_db] in D, CDB.
    pose proof (l1_update_fields n x (c_db (run m es))) as (F1 & F2 & F3 & F4 & F5 & _).
    assert (I1 : inv low (l1_update n x (c_db (run m es))) (chain_after m es)) by (eapply inv_ext; eauto).
    destruct (perform_pruning_inv _ _ _ _ _ _ I1 P Coq.Init.Logic.I) as (low' & I' & LL & EP & _ & W).
    rewrite EP in D. unfold l1_update in D.
    destruct (header_at _ n) as [h|] eqn:H.
    2: { cbn in D. apply (pointer_ok_mono m es (L1Update n x) p p); [apply IH; auto|lia| |rewrite CH; reflexivity].
         rewrite CH. apply (IH p O D). }
    destruct (N.eqb_spec (h_hash h) x) as [HX|HX].
    2: { cbn in D. apply (pointer_ok_mono m es (L1Update n x) p p); [apply IH; auto|lia| |rewrite CH; reflexivity].
         rewrite CH. apply (IH p O D). }
    cbn in D. injection D as <-.
    unfold header_at in H. apply find_some in H. destruct H as [HI HN]. cbn in HI.
    apply (i_heads _ _ _ I) in HI. destruct HI as (HL & b & B & HB & _).
    assert (EN : h_number h = n) by lia. rewrite EN in *.
    apply (pointer_ok_new m (es ++ [L1Update n x]) n b).
    + rewrite CH. exact B.
    + unfold kept. rewrite <- CDB. apply (kept_iff _ _ _ n I'). split; [|eapply block_at_lt; eauto].
      destruct m as [|k].
      * pose proof I' as I2; rewrite W in I2; match type of I1 with inv _ ?dd _ => assert (KN : kept dd n) by (apply (kept_iff _ _ _ n I1); split; [exact HL|eapply block_at_lt; eauto]) end.
        apply (kept_iff _ _ _ n I2) in KN. tauto.
      * destruct (pruning_point _ _) as [pt|] eqn:PT.
        { unfold pruning_point in PT. destruct (latest_number _); [|discriminate]. destruct (_ <=? _); [discriminate|].
          injection PT as <-. lia. }
        { pose proof I' as I2; rewrite W in I2; match type of I1 with inv _ ?dd _ => assert (KN : kept dd n) by (apply (kept_iff _ _ _ n I1); split; [exact HL|eapply block_at_lt; eauto]) end.
          apply (kept_iff _ _ _ n I2) in KN. tauto. }
    + rewrite <- HB, HX. apply in_or_app. right. left. reflexivity.
  - destruct (N.ltb_spec (lb_number b) (c_next (run m es))) as [LT|GE].
    { injection CO as <-. apply (pointer_ok_mono m es (DownloadedBlock b) p p); [apply IH; auto|lia| |rewrite CH; reflexivity].
      rewrite CH. apply (IH p O D). }
    destruct (l2_update b (c_db (run m es))) as [d1|] eqn:U; [|discriminate].
    destruct (perform_pruning _ _ d1) as [d|] eqn:P; [|discriminate]. injection CO as <-. cbn [c_db] in D, CDB.
    destruct AN as [WF [E|E]]; [|lia].
    change (c_db (run m es)) with (db_after m es) in E.
    rewrite (next_number_spec _ _ _ (i_heads _ _ _ I) (i_low _ _ _ I)) in E.
    rewrite (perform_pruning_pointer _ _ _ _ P) in D.
    destruct (l2_update_pointer _ _ _ U) as [EP|[EP EL]]; rewrite EP in D.
    + pose proof (IH p O D) as OK. assert (LP : p < clen (chain_after m es)) by apply OK.
      apply (pointer_ok_mono m es (DownloadedBlock b) p p); [exact OK|lia| |].
      * rewrite CH, clen_app. lia.
      * rewrite CH, firstn_app. replace (S (N.to_nat p) - length (chain_after m es))%nat with 0%nat by (unfold clen in LP; lia).
        cbn. rewrite app_nil_r. reflexivity.
    + injection D as <-. rewrite E in *. apply (pointer_ok_new m _ _ b).
      * rewrite CH. apply block_at_app_new.
      * unfold kept. rewrite <- CDB. rewrite CDB. apply (kept_iff _ _ _ _ Ie).
        rewrite CH. destruct (i_low _ _ _ Ie) as [X|[-> X]].
        { rewrite CH in X. rewrite clen_app in *. lia. }
        { rewrite CH in X. destruct (chain_after m es); discriminate. }
      * apply in_or_app. left. apply (run_l1 m). unfold db_after. exact EL.
  - destruct (N.ltb_spec (lb_number b) (c_next (run m es))) as [LT|GE].
    { injection CO as <-. apply (pointer_ok_mono m es (FinalizedConsensusBlock b) p p); [apply IH; auto|lia| |rewrite CH; reflexivity].
      rewrite CH. apply (IH p O D). }
    destruct (l2_update b (c_db (run m es))) as [d1|] eqn:U; [|discriminate]. injection CO as <-. cbn [c_db] in D, CDB.
    destruct AN as [WF [E|E]]; [|lia].
    change (c_db (run m es)) with (db_after m es) in E.
    rewrite (next_number_spec _ _ _ (i_heads _ _ _ I) (i_low _ _ _ I)) in E.
    destruct (l2_update_pointer _ _ _ U) as [EP|[EP EL]]; rewrite EP in D.
    + pose proof (IH p O D) as OK. assert (LP : p < clen (chain_after m es)) by apply OK.
      apply (pointer_ok_mono m es (FinalizedConsensusBlock b) p p); [exact OK|lia| |].
      * rewrite CH, clen_app. lia.
      * rewrite CH, firstn_app. replace (S (N.to_nat p) - length (chain_after m es))%nat with 0%nat by (unfold clen in LP; lia).
        cbn. rewrite app_nil_r. reflexivity.
    + injection D as <-. rewrite E in *. apply (pointer_ok_new m _ _ b).
      * rewrite CH. apply block_at_app_new.
      * unfold kept. rewrite <- CDB. rewrite CDB. apply (kept_iff _ _ _ _ Ie).
        rewrite CH. destruct (i_low _ _ _ Ie) as [X|[-> X]].
        { rewrite CH in X. rewrite clen_app in *. lia. }
        { rewrite CH in X. destruct (chain_after m es); discriminate. }
      * apply in_or_app. left. apply (run_l1 m). unfold db_after. exact EL.
  - destruct (l2_reorg t (c_db (run m es))) as [d|] eqn:R; [|discriminate]. injection CO as <-. cbn [c_db] in D, CDB.
    destruct (l2_reorg_inv _ _ _ _ _ I R) as (_ & LT & _ & _ & EP). rewrite EP in D. clear EP.
    destruct (d_pointer (db_after m es)) as [p0|] eqn:D0; [|discriminate].
    destruct (N.eqb_spec t 0) as [->|TZ]; [discriminate|].
    pose proof (IH p0 O eq_refl) as OK.
    assert (PP : p <= p0 /\ p < t).
    { destruct (N.leb_spec t p0); injection D as <-; lia. }
    apply (pointer_ok_mono m es (Reorg t) p0 p); [exact OK|lia| |].
    + rewrite CH. unfold clen in *. rewrite firstn_length. lia.
    + rewrite CH, firstn_firstn. f_equal. lia.
  - injection CO as <-. cbn in D. apply (pointer_ok_mono m es (ClassDefinition x) p p); [apply IH; auto|lia| |rewrite CH; reflexivity].
    rewrite CH. apply (IH p O D).
  - discriminate.
Qed.

(* ---- nothing is stored ---- *)
Lemma inv_nothing low d bid : inv low d [] -> forall b, answers d bid [] b.
Proof.
  intros I n.
  assert (NB : forall k b, block_at [] k = Some b -> False).
  { intros k b B. apply block_at_lt in B. unfold clen in B. cbn in B. lia. }
  assert (T : forall K V (w : l2_block -> K -> option V) t, tracks w t low [] -> t = []).
  { intros K V w [|r t] H; [reflexivity|]. destruct (proj1 (H r) (or_introl eq_refl)) as [(b & B & _) _].
    destruct (NB _ _ B). }
  pose proof (T _ _ _ _ (i_classes _ _ _ I)) as E1. pose proof (T _ _ _ _ (i_nonces _ _ _ I)) as E2.
  pose proof (T _ _ _ _ (i_storage _ _ _ I)) as E3.
  assert (UP : up_to [] n = []) by (unfold up_to; destruct (N.to_nat n); reflexivity).
  unfold answers, lookup_storage, lookup_nonce, lookup_class, contract_exists, storage_at, nonce_at, class_at.
  rewrite E1, E2, E3, UP. split; [reflexivity|]. split; [reflexivity|]. split; [reflexivity|].
  split; [intros a; cbn; split; [discriminate|intros X; destruct (X eq_refl)]|].
  intros x m. split.
  - intros L. exfalso. unfold lookup_declared_at in L. destruct (nget x (d_defs d)) as [[k|]|] eqn:G; try discriminate.
    apply (i_defs _ _ _ I) in G. destruct G as [(b & B & _) _]. eauto.
  - intros [_ [(b & B & _) _]]. destruct (NB _ _ B).
Qed.

Lemma lookup_unknown_hash d x :
  (forall h, In h (d_headers d) -> h_hash h <> x) ->
  (forall a k, lookup_storage d (Hash x) a k = None) /\ (forall a, lookup_nonce d (Hash x) a = None) /\
  (forall a, lookup_class d (Hash x) a = None) /\ (forall a, contract_exists d (Hash x) a = false) /\
  (forall y, lookup_declared_at d (Hash x) y = None).
Proof.
  intros U. assert (E : header_of_hash d x = None).
  { unfold header_of_hash. destruct (find _ _) as [h|] eqn:F; [|reflexivity]. apply find_some in F.
    destruct F as [I H]. destruct (U h I). lia. }
  unfold lookup_storage, lookup_nonce, lookup_class, contract_exists, lookup_declared_at, latest. cbn [bound_of].
  rewrite E.
  assert (Z : forall K V (f : row K V -> bool) t, filter (fun r => f r && false) t = []).
  { intros K V f t. induction t as [|r t IH]; cbn; [reflexivity|]. rewrite andb_false_r. exact IH. }
  assert (Z' : forall K V (f : row K V -> bool) t, existsb (fun r => f r && false) t = false).
  { intros K V f t. induction t as [|r t IH]; cbn; [reflexivity|]. rewrite andb_false_r. exact IH. }
  do 3 (split; [intros; rewrite (Z _ _ (fun r => _)); reflexivity|]).
  split; [intros; apply (Z' _ _ (fun r => _))|].
  intros y. destruct (nget y (d_defs d)) as [[k|]|]; reflexivity.
Qed.

(* ---- handling never panics ---- *)
Lemma perform_pruning_total m e d low c :
  inv low d c -> (match e with L1Checkpoint _ => True | L2Head h => h + 1 = clen c end) ->
  perform_pruning m e d <> None.
Proof.
  intros I HE. unfold perform_pruning. destruct m; [discriminate|].
  destruct (pruning_point e d) as [p|] eqn:P; [|discriminate]. destruct (p <? _); [discriminate|].
  rewrite (earliest_spec d low c (i_heads _ _ _ I)); [discriminate| |apply I].
  intros ->. unfold pruning_point in P. destruct e.
  - rewrite (latest_number_spec d low [] (i_heads _ _ _ I) (i_low _ _ _ I)) in P. discriminate.
  - unfold clen in HE. cbn in HE. lia.
Qed.

Lemma run_l1_kept m es n x : orderly_run m es -> In (L1Update n x) es -> nget n (d_l1 (db_after m es)) <> None.
Proof.
  induction es as [|e es IH] using rev_ind; intros O H; [destruct H|].
  apply orderly_snoc in O. destruct O as [O AN]. destruct (run_inv m es O) as (low & I).
  unfold db_after. rewrite run_snoc. unfold step.
  assert (OLD : In (L1Update n x) es -> nget n (d_l1 (c_db (run m es))) <> None) by (intros; apply IH; auto).
  destruct (consume m (run m es) e) as [s'|] eqn:CO.
  - rewrite (consume_l1 _ _ _ _ CO). apply in_app_iff in H. destruct H as [H|[->|[]]].
    + destruct e; try (apply OLD; exact H). destruct (N.eq_dec n n0) as [->|NE].
      * rewrite (al_get_set_eq _ neqb_spec). discriminate.
      * rewrite (al_get_set_neq _ neqb_spec) by exact NE. apply OLD; exact H.
    + rewrite (al_get_set_eq _ neqb_spec). discriminate.
  - apply in_app_iff in H. destruct H as [H|[->|[]]]; [apply OLD; exact H|].
    exfalso. cbn [consume] in CO.
    pose proof (l1_update_fields n x (c_db (run m es))) as (F1 & F2 & F3 & F4 & F5 & _).
    assert (I1 : inv low (l1_update n x (c_db (run m es))) (chain_after m es)) by (eapply inv_ext; eauto).
    pose proof (perform_pruning_total m (L1Checkpoint n) _ _ _ I1 Coq.Init.Logic.I) as T.
    destruct (perform_pruning _ _ _); [discriminate|]. auto.
Qed.

Lemma archive_low es : orderly_run Archive es -> inv 0 (db_after Archive es) (chain_after Archive es).
Proof.
  induction es as [|e es IH] using rev_ind; intros O; [apply inv_empty|].
  apply orderly_snoc in O. destruct O as [O AN].
  destruct (step_pruned Archive (run Archive es) e 0 (chain_after Archive es) (IH O) AN) as (low' & I' & [->|(_ & k & K & _)]);
    [|discriminate]. unfold db_after. rewrite run_snoc, chain_after_snoc. exact I'.
Qed.
