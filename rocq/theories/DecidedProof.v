From Coq Require Import List NArith Bool Arith Lia Sorted ZifyBool ZifyN ZifyNat.
From Verif Require Import AList StateUpdateModel ChainModel ChainSpec ChainProof ExecClassProof DecidedModel DecidedSpec.
Import ListNotations.
Local Open Scope N_scope.

Lemma find_map_none {A B} (f : A -> option B) l : find_map f l = None <-> forall x, In x l -> f x = None.
Proof.
  induction l as [|x l IH]; cbn; [split; [intros _ y []|reflexivity]|]. destruct (f x) eqn:E; split; try discriminate.
  - intros H. rewrite (H x (or_introl eq_refl)) in E. discriminate.
  - intros H y [<-|I]; [exact E|]. apply IH; auto.
  - intros H. apply IH. auto.
Qed.
Lemma find_map_app {A B} (f : A -> option B) l l' :
  find_map f (l ++ l') = match find_map f l with Some v => Some v | None => find_map f l' end.
Proof. induction l as [|x l IH]; cbn; [reflexivity|]. destruct (f x); [reflexivity|exact IH]. Qed.

Definition desc (p q : N * l2_block) : Prop := fst q < fst p.
(* the first hit is in the highest block that has one *)
Lemma find_map_first {V} (f : N * l2_block -> option V) l v : StronglySorted desc l -> find_map f l = Some v ->
  exists p, In p l /\ f p = Some v /\ forall q, In q l -> fst p < fst q -> f q = None.
Proof.
  induction l as [|x l IH]; cbn; [discriminate|]. intros S E. inversion S as [|? ? S' F]; subst. rewrite Forall_forall in F.
  destruct (f x) as [u|] eqn:X.
  - injection E as <-. exists x. split; [auto|]. split; [exact X|]. intros q [<-|I] L; [lia|]. specialize (F q I). unfold desc in F. lia.
  - destruct (IH S' E) as (p & I & P & Q). exists p. split; [auto|]. split; [exact P|]. intros q [<-|J] L; [exact X|]. apply Q; auto.
Qed.

Lemma numbered_in l : forall i p, In p (numbered i l) <-> i <= fst p /\ nth_error l (N.to_nat (fst p - i)) = Some (snd p).
Proof.
  induction l as [|b l IH]; intros i [j x]; cbn [numbered In fst snd].
  - split; [intros []|]. intros [_ H]. destruct (N.to_nat _); discriminate.
  - rewrite (IH (i + 1) (j, x)). cbn [fst snd]. split.
    + intros [[= <- <-]|[L E]]; [split; [lia|]; rewrite N.sub_diag; reflexivity|]. split; [lia|].
      replace (N.to_nat (j - i)) with (S (N.to_nat (j - (i + 1)))) by lia. exact E.
    + intros [L E]. destruct (N.eq_dec i j) as [->|NE]; [rewrite N.sub_diag in E; cbn in E; left; congruence|]. right. split; [lia|].
      replace (N.to_nat (j - i)) with (S (N.to_nat (j - (i + 1)))) in E by lia. exact E.
Qed.
Lemma nth_skipn {A} (l : list A) : forall k n, nth_error (skipn k l) n = nth_error l (k + n).
Proof. induction l as [|a l IH]; intros [|k] n; cbn; try reflexivity; [destruct n; reflexivity|apply IH]. Qed.
Lemma blocks_from_in c lo i b : In (i, b) (blocks_from c lo) <-> lo <= i /\ block_at c i = Some b.
Proof.
  unfold blocks_from, block_at. rewrite numbered_in, nth_skipn. cbn [fst snd]. split; intros [L E]; (split; [exact L|]).
  - rewrite <- E. f_equal. lia.
  - rewrite <- E. f_equal. lia.
Qed.
Lemma numbered_sorted l : forall i, StronglySorted (fun p q => desc q p) (numbered i l).
Proof.
  induction l as [|b l IH]; intros i; cbn; constructor; [apply IH|]. apply Forall_forall. intros p I. apply numbered_in in I.
  unfold desc. cbn. lia.
Qed.
Lemma sorted_filter {A} (R : A -> A -> Prop) f l : StronglySorted R l -> StronglySorted R (filter f l).
Proof.
  induction 1 as [|x l S IH F]; cbn; [constructor|]. destruct (f x); [|exact IH]. constructor; [exact IH|].
  rewrite Forall_forall in *. intros y I. apply filter_In in I. apply F. tauto.
Qed.
Lemma sorted_snoc {A} (R : A -> A -> Prop) l x : StronglySorted R l -> (forall y, In y l -> R y x) -> StronglySorted R (l ++ [x]).
Proof.
  induction 1 as [|y l S IH F]; intros H; cbn; [constructor; [constructor|constructor]|]. constructor; [apply IH; intros z I; apply H; cbn; auto|].
  apply Forall_forall. intros z I. apply in_app_or in I. destruct I as [I|[<-|[]]]; [rewrite Forall_forall in F; auto|apply H; cbn; auto].
Qed.
Lemma sorted_rev {A} (R : A -> A -> Prop) l : StronglySorted (fun p q => R q p) l -> StronglySorted R (rev l).
Proof.
  induction 1 as [|x l S IH F]; cbn; [constructor|]. apply sorted_snoc; [exact IH|]. intros y I. apply in_rev in I.
  rewrite Forall_forall in F. auto.
Qed.
Lemma rev_blocks_sorted c lo n : StronglySorted desc (rev_blocks_by_id (blocks_from c lo) (Number n)).
Proof. apply sorted_rev, sorted_filter, numbered_sorted. Qed.
Lemma rev_blocks_in c lo n i b : In (i, b) (rev_blocks_by_id (blocks_from c lo) (Number n)) <-> lo <= i <= n /\ block_at c i = Some b.
Proof. cbn. rewrite <- in_rev, filter_In, blocks_from_in. cbn. split; intros H; repeat split; try tauto; lia. Qed.

Lemma block_at_prefix c l i : i < clen c -> block_at (c ++ l) i = block_at c i.
Proof. unfold block_at, clen. intros L. apply nth_error_app1. lia. Qed.
Lemma up_to_clip c n : c <> [] -> clen c <= n -> up_to c n = up_to c (clen c - 1).
Proof. unfold up_to, clen. intros NE L. rewrite !firstn_all2; [reflexivity| |]; lia. Qed.

(* the database, also for blocks it does not have yet *)
Definition at_or_beyond (m : history_mode) (es : list sync_event) (n : N) : Prop := kept (db_after m es) n \/ clen (chain_after m es) <= n.
Lemma tracks_empty {K V} (w : l2_block -> K -> option V) t low : tracks w t low [] -> t = [].
Proof.
  destruct t as [|r t]; [reflexivity|]. intros T. destruct (proj1 (T r) (or_introl eq_refl)) as [(y & Y & _) _].
  apply block_at_lt in Y. unfold clen in Y. cbn in Y. lia.
Qed.
Lemma db_answers m es n : orderly_run m es -> at_or_beyond m es n ->
  let d := db_after m es in let c := chain_after m es in
  (forall a k, lookup_storage d (Number n) a k = storage_at c n a k) /\
  (forall a, lookup_nonce d (Number n) a = nonce_at c n a) /\
  (forall a, lookup_class d (Number n) a = class_at c n a) /\
  (forall x k, lookup_declared_at d (Number n) x = Some k <-> k <= n /\ first_declared c x k).
Proof.
  intros O H d c. destruct (run_inv m es O) as (low & I). fold (db_after m es) in I. fold d c in I.
  destruct H as [K|L].
  - apply (kept_iff _ _ _ _ I) in K. destruct K as [K1 K2]. destruct (inv_answers_number _ _ _ _ I K1 K2) as (A & B & C & _ & E). auto.
  - fold c in L. destruct (i_low _ _ _ I) as [LO|[_ EC]].
    + assert (NE : c <> []) by (intros X; rewrite X in LO; unfold clen in LO; cbn in LO; lia).
      destruct (inv_answers low d c (clen c - 1) (Number n) I) as (A & B & C & _ & E); [lia|lia|intros k Hk; cbn; lia|].
      unfold storage_at, nonce_at, class_at in *. rewrite (up_to_clip c n NE L). repeat split; auto.
      * apply E in H. lia.
      * apply E in H. apply H.
      * apply E in H. apply H.
      * intros [H1 H2]. apply E. split; [|exact H2]. destruct H2 as [(b & B' & _) _]. apply block_at_lt in B'. lia.
    + assert (U : up_to c n = []) by (rewrite EC; unfold up_to; apply firstn_nil).
      unfold storage_at, nonce_at, class_at. rewrite U. unfold lookup_storage, lookup_nonce, lookup_class, latest.
      pose proof (i_storage _ _ _ I) as T1. pose proof (i_nonces _ _ _ I) as T2. pose proof (i_classes _ _ _ I) as T3. rewrite EC in T1, T2, T3.
      rewrite (tracks_empty _ _ _ T1), (tracks_empty _ _ _ T2), (tracks_empty _ _ _ T3). repeat split; auto.
      * apply lookup_defs in H. destruct H as [_ H]. cbn in H. lia.
      * apply lookup_defs in H. destruct H as [H _]. apply (proj2 (i_defs _ _ _ I)) in H. apply H.
      * apply lookup_defs in H. destruct H as [H _]. apply (proj2 (i_defs _ _ _ I)) in H. apply H.
      * intros [_ [(b & B' & _) _]]. rewrite EC in B'. apply block_at_lt in B'. unfold clen in B'. cbn in B'. lia.
Qed.

Section Overlay.
Context {K V : Type} (w : l2_block -> K -> option V).
Lemma state_hit f n k i b v : n < clen f -> i <= n -> block_at f i = Some b -> w b k = Some v ->
  (forall j b', i < j <= n -> block_at f j = Some b' -> w b' k = None) -> state_after w (up_to f n) k = Some v.
Proof. intros L L' B W Q. apply (state_at_some w f n k v i b L L' B W). intros j x J1 J2. apply Q. lia. Qed.
Lemma state_miss c l lo n k : n < clen (c ++ l) -> lo <= clen c ->
  (forall j b', lo <= j <= n -> block_at (c ++ l) j = Some b' -> w b' k = None) ->
  state_after w (up_to (c ++ l) n) k = state_after w (up_to c n) k.
Proof.
  intros L LO Q. destruct (N.lt_ge_cases n (clen c)) as [X|X].
  { unfold up_to. unfold clen in X. rewrite firstn_app. replace (_ - length c)%nat with 0%nat by lia. cbn [firstn]. rewrite app_nil_r. reflexivity. }
  pose proof (state_at_inv w (c ++ l) n k L) as H. destruct (state_after w (up_to (c ++ l) n) k) as [v|].
  - destruct H as (i & b & I1 & B & W & QQ). destruct (N.lt_ge_cases i lo) as [Y|Y]; [|rewrite (Q i b) in W; [discriminate|lia|exact B]].
    assert (NE : c <> []) by (intros ->; unfold clen in LO; cbn in LO; lia). rewrite (up_to_clip c n NE X). symmetry.
    apply (state_hit c (clen c - 1) k i b v); [lia|lia|rewrite <- (block_at_prefix c l i) by lia; exact B|exact W|].
    intros j b' J B'. apply (QQ j b'); [lia|lia|]. rewrite block_at_prefix; [exact B'|]. lia.
  - destruct c as [|c0 c'] eqn:EC; [unfold up_to; rewrite firstn_nil; reflexivity|]. rewrite <- EC in *.
    assert (NE : c <> []) by (rewrite EC; discriminate). rewrite (up_to_clip c n NE X). symmetry.
    apply state_at_none; [rewrite EC; unfold clen; cbn [length]; lia|]. intros j b J B. apply (H j b); [lia|]. rewrite block_at_prefix; [exact B|]. eapply block_at_lt; eauto.
Qed.
(* the first hit among the decided blocks, else the database *)
Lemma overlay (f : N * l2_block -> option V) c l lo n k o : n < clen (c ++ l) -> lo <= clen c ->
  (forall i b, lo <= i <= n -> block_at (c ++ l) i = Some b -> f (i, b) = w b k) ->
  o = state_after w (up_to c n) k ->
  or_else (find_map f (rev_blocks_by_id (blocks_from (c ++ l) lo) (Number n))) o = state_after w (up_to (c ++ l) n) k.
Proof.
  intros L LO F ->. destruct (find_map f _) as [v|] eqn:E; cbn [or_else].
  - apply find_map_first in E; [|apply rev_blocks_sorted]. destruct E as ([i b] & I & P & Q). apply rev_blocks_in in I. destruct I as [I B].
    rewrite (F i b I B) in P. symmetry. apply (state_hit _ n k i b v L); [lia|exact B|exact P|]. intros j b' J B'.
    assert (R : lo <= j <= n) by lia. rewrite <- (F j b' R B'). apply (Q (j, b')); [apply rev_blocks_in; auto|cbn; lia].
  - rewrite find_map_none in E. symmetry. apply (state_miss c l lo n k L LO). intros j b' J B'. rewrite <- (F j b' J B'). apply E. apply rev_blocks_in. auto.
Qed.
End Overlay.

(* a block's storage write *)
Lemma nget_cons {A} x (y : A) l a : nget a ((x, y) :: l) = if a =? x then Some y else nget a l.
Proof. reflexivity. Qed.
Lemma nget_map {A B} (g : A -> B) (l : nmap A) a : nget a (map (fun e => (fst e, g (snd e))) l) = option_map g (nget a l).
Proof. induction l as [|[x y] l IH]; cbn [map fst snd]; [reflexivity|]. rewrite !nget_cons. destruct (a =? x); [reflexivity|exact IH]. Qed.
Lemma find_map_nget (l : nmap (nmap N)) a k :
  find_map (fun e : N * nmap N => if fst e =? a then Some (nget k (snd e)) else None) l = option_map (nget k) (nget a l).
Proof. induction l as [|[x y] l IH]; cbn [find_map fst snd]; [reflexivity|]. rewrite nget_cons, (N.eqb_sym a x). destruct (x =? a); [reflexivity|exact IH]. Qed.
Lemma block_storage b a k : wf_data (lb_data b) ->
  match find_map (fun e : N * nmap N => if fst e =? a then Some (nget k (snd e)) else None)
                 (map (fun e => (fst e, cu_storage (snd e))) (sd_contracts (lb_data b)) ++ sd_system (lb_data b)) with
  | Some v => v | None => None end = writes_storage b (a, k).
Proof.
  intros (_ & _ & _ & _ & WC & WS). rewrite find_map_app, !find_map_nget, nget_map. unfold writes_storage.
  destruct (nget a (sd_contracts (lb_data b))) as [u|] eqn:C; cbn [option_map].
  - apply nget_in in C. destruct (WC a u C) as [_ ->]. reflexivity.
  - destruct (nget a (sd_system (lb_data b))) as [s|] eqn:S; cbn [option_map].
    + apply nget_in in S. destruct (WS a s S) as [_ ->]. reflexivity.
    + destruct (is_system a); reflexivity.
Qed.

(* nonces and class hashes: of the newest change of the contract *)
Section Newest.
Context {V : Type} (g : contract_update -> option V).
Definition reads (b : l2_block) (a : N) : option V := match nget a (sd_contracts (lb_data b)) with Some u => g u | None => None end.
Definition newest_read (ds : decided) (n a : N) : option V :=
  match find_contract_update (rev_blocks_by_id ds (Number n)) a with Some u => g u | None => None end.
Lemma newest_some c lo n a v : newest_read (blocks_from c lo) n a = Some v ->
  exists i b, lo <= i <= n /\ block_at c i = Some b /\ reads b a = Some v /\ forall j b', i < j <= n -> block_at c j = Some b' -> ~ changes b' a.
Proof.
  unfold newest_read, find_contract_update. destruct (find_map _ _) as [u|] eqn:E; [|discriminate]. intros G.
  apply find_map_first in E; [|apply rev_blocks_sorted]. destruct E as ([i b] & I & P & Q). cbn in P. apply rev_blocks_in in I. destruct I as [I B].
  exists i, b. split; [exact I|]. split; [exact B|]. split; [unfold reads; rewrite P; exact G|]. intros j b' J B' H. apply H.
  apply (Q (j, b')); [apply rev_blocks_in; split; [lia|exact B']|cbn; lia].
Qed.
Lemma newest_none c lo n a : newest_read (blocks_from c lo) n a = None ->
  (forall i b, lo <= i <= n -> block_at c i = Some b -> ~ changes b a) \/
  exists i b, lo <= i <= n /\ block_at c i = Some b /\ changes b a /\ reads b a = None /\ forall j b', i < j <= n -> block_at c j = Some b' -> ~ changes b' a.
Proof.
  unfold newest_read, find_contract_update. destruct (find_map _ _) as [u|] eqn:E; intros G.
  - right. apply find_map_first in E; [|apply rev_blocks_sorted]. destruct E as ([i b] & I & P & Q). cbn in P. apply rev_blocks_in in I. destruct I as [I B].
    exists i, b. split; [exact I|]. split; [exact B|]. split; [unfold changes; rewrite P; discriminate|]. split; [unfold reads; rewrite P; exact G|].
    intros j b' J B' H. apply H. apply (Q (j, b')); [apply rev_blocks_in; split; [lia|exact B']|cbn; lia].
  - left. rewrite find_map_none in E. intros i b I B H. apply H. apply (E (i, b)). apply rev_blocks_in. auto.
Qed.
Lemma reads_changes b a : reads b a <> None -> changes b a.
Proof. unfold reads, changes. destruct (nget a _); [discriminate|auto]. Qed.
Lemma newest_right c l lo n a : n < clen (c ++ l) -> lo <= clen c -> none_or_last reads (c ++ l) (clen c) n a ->
  or_else (newest_read (blocks_from (c ++ l) lo) n a) (state_after reads (up_to c n) a) = state_after reads (up_to (c ++ l) n) a.
Proof.
  intros L LO H. destruct (newest_read _ n a) as [v|] eqn:E; cbn [or_else].
  - apply newest_some in E. destruct E as (i & b & I & B & W & Q). symmetry. apply (state_hit reads _ n a i b v L); [lia|exact B|exact W|].
    intros j b' J B'. specialize (Q j b' J B'). destruct (reads b' a) eqn:R; [|reflexivity]. destruct Q. apply reads_changes. congruence.
  - symmetry. apply (state_miss reads c l (clen c) n a L); [lia|]. apply newest_none in E. destruct H as [H|(i & b & I & B & W & Q)]; [exact H|].
    exfalso. destruct E as [E|(i' & b' & I' & B' & C' & W' & Q')].
    + apply (E i b); [lia|exact B|]. apply reads_changes. exact W.
    + destruct (N.lt_trichotomy i i') as [T|[T|T]].
      * apply (Q i' b'); [lia|exact B'|exact C'].
      * subst i'. congruence.
      * apply (Q' i b); [lia|exact B|apply reads_changes; exact W].
Qed.
Lemma newest_stale c lo mid n a o : lo <= mid -> ~ none_or_last reads c mid n a -> or_else (newest_read (blocks_from c lo) n a) o = o.
Proof.
  intros LM H. destruct (newest_read _ n a) as [v|] eqn:E; [|reflexivity]. apply newest_some in E. destruct E as (i & b & I & B & W & Q).
  destruct H. destruct (N.lt_ge_cases i mid) as [X|X].
  - left. intros j b' J B'. destruct (reads b' a) eqn:R; [|reflexivity]. destruct (Q j b'); [lia|exact B'|]. apply reads_changes. congruence.
  - right. exists i, b. split; [lia|]. split; [exact B|]. split; [congruence|exact Q].
Qed.
Lemma one_none_or_last c mid n a : n <= mid -> none_or_last reads c mid n a.
Proof.
  intros L. destruct (block_at c mid) as [b|] eqn:B.
  - destruct (N.eq_dec n mid) as [->|NE]; [|left; intros i x I; lia]. destruct (reads b a) eqn:R.
    + right. exists mid, b. split; [lia|]. split; [exact B|]. split; [congruence|]. intros j x J. lia.
    + left. intros i x I X. assert (i = mid) by lia. subst i. congruence.
  - left. intros i x I X. assert (i = mid) by lia. subst i. congruence.
Qed.
End Newest.

(* classes *)
Lemma find_class_block (i : N) b x : find_map (fun c : N * N => if fst c =? x then Some i else None) (sd_sierra (lb_data b)) =
  if existsb (fun c => fst c =? x) (sd_sierra (lb_data b)) then Some i else None.
Proof. induction (sd_sierra (lb_data b)) as [|c l IH]; cbn; [reflexivity|]. destruct (fst c =? x); [reflexivity|exact IH]. Qed.
Lemma sierra_in b x : existsb (fun c : N * N => fst c =? x) (sd_sierra (lb_data b)) = true <-> In x (map fst (sd_sierra (lb_data b))).
Proof.
  rewrite existsb_exists, in_map_iff. split; intros (c & A & B); exists c; [apply N.eqb_eq in B|rewrite A, N.eqb_refl]; auto.
Qed.
Lemma decided_class_some c lo n x i : decided_class_at (blocks_from c lo) (Number n) x = Some i ->
  exists b, lo <= i <= n /\ block_at c i = Some b /\ In x (map fst (sd_sierra (lb_data b))).
Proof.
  unfold decided_class_at, find_class. intros E. apply find_map_first in E; [|apply rev_blocks_sorted].
  destruct E as ([j b] & I & P & _). apply rev_blocks_in in I. cbn in P. rewrite find_class_block in P. destruct (existsb _ _) eqn:X; [|discriminate].
  injection P as <-. apply sierra_in in X. exists b. tauto.
Qed.
Lemma decided_class_none c lo n x : decided_class_at (blocks_from c lo) (Number n) x = None ->
  forall i b, lo <= i <= n -> block_at c i = Some b -> ~ In x (map fst (sd_sierra (lb_data b))).
Proof.
  unfold decided_class_at, find_class. intros E i b I B H. rewrite find_map_none in E. specialize (E (i, b) (proj2 (rev_blocks_in _ _ _ _ _) (conj I B))).
  cbn in E. rewrite find_class_block in E. apply sierra_in in H. rewrite H in E. discriminate.
Qed.

(* ---- the node keeps every block in one of the two ---- *)
Lemma acts_snoc xs x : acts (xs ++ [x]) = act (acts xs) x.
Proof. unfold acts. rewrite fold_left_app. reflexivity. Qed.
Lemma numbered_app l : forall i l', numbered i (l ++ l') = numbered i l ++ numbered (i + N.of_nat (length l)) l'.
Proof.
  induction l as [|b l IH]; intros i l'; cbn [app numbered length]; [f_equal; lia|]. rewrite IH. do 3 f_equal. lia.
Qed.
Lemma blocks_from_snoc f lo b : lo <= clen f -> blocks_from (f ++ [b]) lo = blocks_from f lo ++ [(clen f, b)].
Proof.
  unfold blocks_from, clen. intros L. rewrite skipn_app. replace (N.to_nat lo - length f)%nat with 0%nat by lia. cbn [skipn].
  rewrite numbered_app, skipn_length. cbn [numbered]. do 3 f_equal. lia.
Qed.
Lemma bt_insert_end n b ds : (forall p, In p ds -> fst p < n) -> bt_insert n b ds = ds ++ [(n, b)].
Proof.
  induction ds as [|[k v] r IH]; intros H; cbn [bt_insert app]; [reflexivity|]. pose proof (H (k, v) (or_introl eq_refl)) as L. cbn in L.
  replace (n <? k) with false by lia. replace (n =? k) with false by lia. f_equal. apply IH. intros p I. apply H. right. exact I.
Qed.
Lemma blocks_from_end f : blocks_from f (clen f) = [].
Proof. unfold blocks_from, clen. rewrite Nat2N.id, skipn_all. reflexivity. Qed.
Lemma skipn_uncons {A} (l : list A) : forall k x r, skipn k l = x :: r -> skipn (S k) l = r.
Proof. induction l as [|a l IH]; intros [|k] x r; cbn [skipn]; try discriminate; [intros [= _ ->]; reflexivity|]. intros E. apply (IH k x r E). Qed.
Lemma blocks_from_cons f lo n b r : blocks_from f lo = (n, b) :: r -> n = lo /\ r = blocks_from f (lo + 1).
Proof.
  unfold blocks_from. destruct (skipn (N.to_nat lo) f) as [|x y] eqn:E; cbn [numbered]; [discriminate|]. intros [= <- _ <-]. split; [reflexivity|].
  replace (N.to_nat (lo + 1)) with (S (N.to_nat lo)) by lia. rewrite (skipn_uncons _ _ _ _ E). reflexivity.
Qed.
Lemma filter_all {A} (f : A -> bool) l : (forall x, In x l -> f x = true) -> filter f l = l.
Proof. induction l as [|x l IH]; intros H; cbn; [reflexivity|]. rewrite (H x (or_introl eq_refl)), IH; [reflexivity|]. intros y I. apply H. right. exact I. Qed.
Lemma orderly_prefix m es e : orderly_run m (es ++ [e]) -> orderly_run m es.
Proof. unfold orderly_run. intros O. apply orderly_app in O. tauto. Qed.
Lemma chain_wf m es : orderly_run m es -> wf_from (chain_after m es) 0.
Proof. intros O. destruct (run_inv m es O) as (low & I). intros i b _ B. exact (i_wf _ _ _ I i b B). Qed.
Lemma clen_app_ c l : clen (c ++ l) = clen c + clen l.
Proof. unfold clen. rewrite app_length. lia. Qed.

Lemma disciplined_keeps m xs f : disciplined m xs f -> orderly_run m (n_events (acts xs)) ->
  wf_from f 0 /\ exists l lo, f = chain_after m (n_events (acts xs)) ++ l /\ lo <= clen (chain_after m (n_events (acts xs))) /\
  n_decided (acts xs) = blocks_from f lo.
Proof.
  induction 1 as [|xs f b D IH W|xs f e l D IH G E|xs f e D IH E|xs f n b r D IH E L|xs f n D IH E]; intros O.
  - split; [intros i b _ B; apply block_at_lt in B; unfold clen in B; cbn in B; lia|]. exists [], 0. split; [reflexivity|]. split; [cbn; lia|reflexivity].
  - rewrite acts_snoc in *. cbn [act n_events n_decided] in *. destruct (IH O) as (WF & l & lo & EF & LO & ED). split.
    + intros i x _ B. apply ChainProof.block_at_app_inv in B. destruct B as [[_ B]|[_ ->]]; [apply (WF i x); [lia|exact B]|exact W].
    + exists (l ++ [b]), lo. split; [rewrite EF at 1; rewrite <- app_assoc; reflexivity|]. split; [exact LO|]. rewrite ED.
      rewrite blocks_from_snoc by (rewrite EF, clen_app_; lia). apply bt_insert_end. intros [i x] I. apply blocks_from_in in I. destruct I as [_ I].
      apply block_at_lt in I. exact I.
  - rewrite acts_snoc in *. cbn [act n_events n_decided] in *. destruct (IH (orderly_prefix _ _ _ O)) as (WF & l' & lo & EF & LO & ED).
    split; [exact WF|]. exists l, lo. split; [exact E|]. split; [lia|exact ED].
  - rewrite acts_snoc in *. cbn [act n_events n_decided] in *. split; [apply chain_wf; exact O|].
    exists [], (clen (chain_after m (n_events (acts xs) ++ [e]))). rewrite app_nil_r. split; [reflexivity|]. split; [lia|]. rewrite blocks_from_end. exact E.
  - rewrite acts_snoc in *. cbn [act n_events n_decided] in *. destruct (IH O) as (WF & l & lo & EF & LO & ED). split; [exact WF|].
    exists l, (lo + 1). split; [exact EF|]. rewrite E in ED. symmetry in ED. destruct (blocks_from_cons _ _ _ _ _ ED) as [-> ER]. split; [lia|].
    rewrite E. cbn [filter fst]. rewrite N.eqb_refl. cbn [negb]. rewrite ER. apply filter_all. intros [i x] I. apply blocks_from_in in I. cbn. lia.
  - rewrite acts_snoc in *. cbn [act n_events n_decided] in *. destruct (IH O) as (WF & l & lo & EF & LO & ED). split; [exact WF|].
    exists l, lo. split; [exact EF|]. split; [exact LO|]. rewrite filter_all; [exact ED|]. intros [i x] I. cbn. destruct (N.eqb_spec i n) as [->|]; [|reflexivity].
    destruct (E x I).
Qed.
