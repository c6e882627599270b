From Coq Require Import List NArith Bool Arith Lia ZifyBool ZifyN ZifyNat.
From Verif Require Import AList StateUpdateModel ChainModel ChainSpec ChainProof ExecClassModel ExecClassSpec.
Import ListNotations.
Local Open Scope N_scope.

Lemma orderly_firstn m es k : orderly_run m es -> orderly_run m (firstn k es).
Proof. intros O. rewrite <- (firstn_skipn k es) in O. unfold orderly_run in *. apply orderly_app in O. tauto. Qed.
Lemma firstn_app_le {A} k (l l' : list A) : (k <= length l)%nat -> firstn k (l ++ l') = firstn k l.
Proof. intros L. rewrite firstn_app. replace (k - length l)%nat with 0%nat by lia. cbn. apply app_nil_r. Qed.

(* without reorgs the chain only grows *)
Lemma chain_grows m es k : no_reorg es -> exists l, chain_after m es = chain_after m (firstn k es) ++ l.
Proof.
  revert k. induction es as [|e es IH] using rev_ind; intros k NR.
  - exists []. rewrite firstn_nil, app_nil_r. reflexivity.
  - assert (N' : no_reorg es) by (intros t H; apply (NR t), in_or_app; auto).
    destruct (Nat.le_gt_cases k (length es)) as [L|L].
    + rewrite firstn_app_le by exact L. destruct (IH k N') as (l & E). rewrite chain_after_snoc. unfold chain_step.
      destruct (consume m (run m es) e) eqn:EC; [|eauto].
      destruct e as [n h|b|b|t|cl|]; eauto.
      * destruct (_ <? _); [eauto|]. exists (l ++ [b]). rewrite E, app_assoc. reflexivity.
      * destruct (_ <? _); [eauto|]. exists (l ++ [b]). rewrite E, app_assoc. reflexivity.
      * exfalso. apply (NR t), in_or_app. right. left. reflexivity.
    + exists []. rewrite app_nil_r, firstn_all2; [reflexivity|]. rewrite app_length. cbn. lia.
Qed.
Lemma block_at_app c l i b : block_at c i = Some b -> block_at (c ++ l) i = Some b.
Proof. unfold block_at. intros H. rewrite nth_error_app1; [exact H|]. apply nth_error_Some. congruence. Qed.
Lemma block_at_app_inv c l i b : i < clen c -> block_at (c ++ l) i = Some b -> block_at c i = Some b.
Proof. unfold block_at, clen. intros L H. rewrite nth_error_app1 in H; [exact H|]. lia. Qed.

Lemma skipn_S_in {A} (l : list A) : forall k x, In x (skipn (S k) l) -> In x (skipn k l).
Proof.
  induction l as [|a l IH]; intros k x; [rewrite !skipn_nil; auto|]. destruct k as [|k]; [cbn; auto|].
  intros H. cbn [skipn]. apply IH. exact H.
Qed.

Lemma defs_declared m es x h : orderly_run m es -> nget x (d_defs (c_db (run m es))) = Some (Some h) -> first_declared (chain_after m es) x h.
Proof. intros O E. destruct (run_inv m es O) as (low & I). apply (proj2 (i_defs _ _ _ I)). exact E. Qed.
Lemma lookup_defs d b x h : lookup_declared_at d b x = Some h -> nget x (d_defs d) = Some (Some h) /\ bound_of d b h = true.
Proof.
  unfold lookup_declared_at. destruct (nget x (d_defs d)) as [[k|]|]; try discriminate. destruct (bound_of d b k) eqn:B; [|discriminate].
  intros [= <-]. auto.
Qed.
Lemma declared_lookup m es n x : orderly_run m es -> kept (db_after m es) n ->
  (declared_by m es n x <-> exists h, lookup_declared_at (db_after m es) (Number n) x = Some h).
Proof.
  intros O K. destruct (run_inv m es O) as (low & I). pose proof K as K'. apply (kept_iff _ _ _ _ I) in K'. destruct K' as [K1 K2].
  destruct (inv_answers_number _ _ _ _ I K1 K2) as (_ & _ & _ & _ & A). split.
  - intros (i & b & L & B & F). destruct (first_declared_ex (chain_after m es) x) as [(k & E)|E]; [|destruct (E i b B F)].
    exists k. apply A. split; [|exact E]. destruct (N.le_gt_cases k i) as [Y|Y]; [lia|]. destruct (proj2 E i b Y B F).
  - intros (h & E). apply A in E. destruct E as [L [(b & B & F) _]]. exists h, b. auto.
Qed.
Lemma kept_lt m es n : orderly_run m es -> kept (db_after m es) n -> n < clen (chain_after m es).
Proof. intros O K. destruct (run_inv m es O) as (low & I). apply (kept_iff _ _ _ _ I) in K. tauto. Qed.

Section Exec.
Variable D : Type.
Variable code : N -> D.
Variable m : history_mode.

(* an entry is of a class that some block of its height declared, on the chain of some time *)
Definition once (es : list sync_event) (e : entry D) : Prop :=
  e_definition D e = code (e_hash D e) /\
  exists p, first_declared (chain_after m (firstn p es)) (e_hash D e) (e_height D e).
Definition good (w : world D) : Prop := Forall (once (w_events D w)) (w_cache D w) /\ Forall (once (w_events D w)) (w_sets D w).

Lemma once_snoc es e0 e : once es e -> once (es ++ [e0]) e.
Proof.
  intros [A (p & F)]. split; [exact A|]. exists (Nat.min p (length es)). rewrite firstn_app_le by lia.
  destruct (Nat.le_gt_cases p (length es)) as [L|L]; [rewrite Nat.min_l by lia; exact F|].
  rewrite Nat.min_r by lia. rewrite firstn_all. rewrite firstn_all2 in F by lia. exact F.
Qed.
Lemma cache_get_in x c e c' : cache_get D x c = (Some e, c') -> In e c /\ e_hash D e = x.
Proof.
  unfold cache_get. destruct (find _ c) as [e'|] eqn:F; [|discriminate]. intros [= <- _].
  destruct (find_some _ _ F) as [A B]. split; [exact A|]. apply N.eqb_eq. exact B.
Qed.
Lemma cache_get_incl x c o c' : cache_get D x c = (o, c') -> forall e, In e c' -> In e c.
Proof.
  unfold cache_get. destruct (find _ c) as [e'|] eqn:F; intros [= <- <-] e H; [|exact H].
  destruct H as [<-|H]; [exact (proj1 (find_some _ _ F))|]. apply filter_In in H. tauto.
Qed.
Lemma removelast_in {A} (l : list A) x : In x (removelast l) -> In x l.
Proof.
  induction l as [|y l IH]; [intros []|]. cbn [removelast]. destruct l as [|z l]; [intros []|].
  intros [<-|H]; [left; reflexivity|right; auto].
Qed.
Lemma cache_set_incl x d h c e : In e (cache_set D x d h c) -> e = Entry D x d h \/ In e c.
Proof.
  unfold cache_set. intros [<-|H]; [auto|]. right. apply filter_In in H. destruct H as [H _].
  destruct (Nat.leb _ _); [exact (removelast_in _ _ H)|exact H].
Qed.
(* what a look-up in the database finds *)
Lemma non_cached_ok es k r x o v : orderly_run m es ->
  non_cached D code (c_db (run m (firstn k es))) r x = Some (o, v) ->
  v = code x /\ forall h, o = Some h -> first_declared (chain_after m (firstn k es)) x h.
Proof.
  intros O. unfold non_cached. destruct (r_block r) as [n|]; [|discriminate]. pose proof (orderly_firstn m es k O) as O'.
  destruct (r_ignore r).
  - destruct (nget x _) as [h|] eqn:E; [|discriminate]. intros [= <- <-]. split; [reflexivity|]. intros h' ->. exact (defs_declared _ _ _ _ O' E).
  - destruct (lookup_declared_at _ _ x) as [h|] eqn:E; [|discriminate]. intros [= <- <-]. split; [reflexivity|]. intros h' [= <-].
    apply lookup_defs in E. exact (defs_declared _ _ _ _ O' (proj1 E)).
Qed.
Lemma exec_good w o : orderly_run m (w_events D w) -> good w -> good (exec D code m w o).
Proof.
  intros O [GC GS]. destruct o as [e|seen r x|k]; cbn [exec].
  - split; cbn [w_events w_cache w_sets]; (eapply Forall_impl; [|eassumption]); intros y; apply once_snoc.
  - unfold get_compiled_class. destruct (cache_get D x (w_cache D w)) as [hit c] eqn:EG.
    assert (GC' : Forall (once (w_events D w)) c).
    { apply Forall_forall. intros e H. rewrite Forall_forall in GC. apply GC. exact (cache_get_incl _ _ _ _ EG e H). }
    set (miss := match non_cached D code (snapshot D m w seen) r x with None => _ | Some _ => _ end).
    assert (M : good (let '(_, c, s) := miss in World D (w_events D w) c (match s with Some e => e :: w_sets D w | None => w_sets D w end))).
    { unfold miss. destruct (non_cached D code (snapshot D m w seen) r x) as [[[h|] v]|] eqn:EN; split; cbn; auto.
      destruct (non_cached_ok _ _ _ _ _ _ O EN) as [-> F]. constructor; [|exact GS]. split; [reflexivity|]. exists seen. cbn. apply F. reflexivity. }
    destruct hit as [e|]; [|exact M]. destruct (r_block r) as [n|]; [|exact M]. destruct (_ <=? _); [|exact M]. split; cbn; auto.
  - destruct (nth_error (w_sets D w) k) as [e|] eqn:EK; [|split; assumption]. rewrite Forall_forall in GC, GS.
    split; cbn [w_events w_cache w_sets]; apply Forall_forall.
    + intros e' H. apply cache_set_incl in H. destruct H as [->|H]; [|auto]. destruct e. exact (GS _ (nth_error_In _ _ EK)).
    + intros e' H. apply GS. rewrite <- (firstn_skipn k (w_sets D w)). apply in_or_app. apply in_app_or in H. destruct H as [H|H]; [auto|]. right.
      exact (skipn_S_in _ _ _ H).
Qed.
Lemma exec_events w o : exists l, w_events D (exec D code m w o) = w_events D w ++ l.
Proof.
  destruct o as [e|seen r x|k]; cbn [exec]; [exists [e]; reflexivity| |].
  - destruct (get_compiled_class _ _ _ _ _ _) as [[a c] s]. exists []. rewrite app_nil_r. reflexivity.
  - destruct (nth_error _ _); exists []; rewrite app_nil_r; reflexivity.
Qed.
Lemma execs_good ops : orderly_run m (w_events D (execs D code m ops)) -> good (execs D code m ops).
Proof.
  induction ops as [|o ops IH] using rev_ind; intros O; [split; constructor|].
  unfold execs in *. rewrite fold_left_app in *. cbn [fold_left] in *.
  assert (O' : orderly_run m (w_events D (fold_left (exec D code m) ops (world0 D)))).
  { destruct (exec_events (fold_left (exec D code m) ops (world0 D)) o) as (l & E). rewrite E in O. unfold orderly_run in O. apply orderly_app in O. tauto. }
  apply exec_good; auto.
Qed.

(* the answer: a hit or what the database has *)
Lemma answer_cases w seen r x : good w ->
  (exists e n, once (w_events D w) e /\ e_hash D e = x /\ r_block r = Some n /\ e_height D e <= n /\ answer D code m w seen r x = Some (code x)) \/
  answer D code m w seen r x = option_map snd (non_cached D code (snapshot D m w seen) r x).
Proof.
  intros [GC _]. unfold answer, get_compiled_class. destruct (cache_get D x (w_cache D w)) as [hit c] eqn:EG.
  set (miss := match non_cached D code (snapshot D m w seen) r x with None => _ | Some _ => _ end).
  assert (M : fst (fst miss) = option_map snd (non_cached D code (snapshot D m w seen) r x)).
  { unfold miss. destruct (non_cached D code (snapshot D m w seen) r x) as [[[h|] v]|]; reflexivity. }
  destruct hit as [e|]; [|auto]. destruct (r_block r) as [n|]; [|auto]. destruct (e_height D e <=? n) eqn:L; [|auto].
  left. apply cache_get_in in EG. destruct EG as [HI EH]. rewrite Forall_forall in GC. specialize (GC e HI). exists e, n.
  apply N.leb_le in L. repeat split; auto; try exact (proj2 GC); try exact (proj1 GC). cbn. rewrite (proj1 GC), EH. reflexivity.
Qed.
End Exec.

(* a class once in the table stays there, if without a block *)
Definition has_row (x : N) (d : db) : Prop := nget x (d_defs d) <> None.
Lemma pruning_defs m e d d' : perform_pruning m e d = Some d' -> d_defs d' = d_defs d.
Proof.
  assert (PF : forall k n d0, d_defs (prune_up k n d0) = d_defs d0).
  { induction k as [|k IH]; intros n d0; cbn [prune_up]; [reflexivity|]. rewrite IH. destruct (block_exists d0 n); reflexivity. }
  unfold perform_pruning. destruct m as [|kept]; [congruence|]. destruct (pruning_point e d); [|congruence].
  destruct (_ <? _); [congruence|]. destruct (earliest_number d); [|discriminate]. intros [= <-]. apply PF.
Qed.
Lemma l2_update_row b d d' x : l2_update b d = Some d' -> has_row x d -> has_row x d'.
Proof.
  unfold l2_update. destruct (negb _); [discriminate|]. destruct (insert_header _ d) as [d1|] eqn:EI; [|discriminate].
  intros E R. assert (H : d_defs d' = d_defs (insert_data (lb_number b) (lb_data b) d1)).
  { injection E as <-. destruct (_ =? _); [|reflexivity]. destruct (nget _ _); [|reflexivity]. destruct (_ =? _); reflexivity. }
  unfold has_row. rewrite H, insert_data_defs. apply insert_header_fields in EI. destruct EI as (_ & _ & _ & -> & _).
  unfold has_row in R. unfold declared_in. destruct (nget x (d_defs d)) as [[k|]|]; [discriminate| |congruence]. destruct (has _ x); discriminate.
Qed.
Lemma purge_row x k : forall n d, has_row x d -> has_row x (purge_down k n d).
Proof.
  induction k as [|k IH]; intros n d R; [exact R|]. cbn [purge_down]. apply IH. unfold has_row, purge_block. cbn [d_defs].
  rewrite purge_defs_get. unfold has_row in R. destruct (nget x (d_defs d)); [discriminate|congruence].
Qed.
Lemma step_row m s e x : has_row x (c_db s) -> has_row x (c_db (step m s e)).
Proof.
  intros R. unfold step. destruct (consume m s e) as [s'|] eqn:E; [|exact R]. destruct e as [n h|b|b|t|y|]; cbn [consume] in E.
  - destruct (perform_pruning _ _ _) as [d|] eqn:P; [|discriminate E]. injection E as <-. cbn [c_db]. unfold has_row. rewrite (pruning_defs _ _ _ _ P).
    destruct (l1_update_fields n h (c_db s)) as (_ & _ & _ & _ & -> & _). exact R.
  - destruct (_ <? _); [injection E as <-; exact R|]. destruct (l2_update b _) as [d1|] eqn:U; [|discriminate E].
    destruct (perform_pruning _ _ _) as [d|] eqn:P; [|discriminate E]. injection E as <-. cbn [c_db]. unfold has_row. rewrite (pruning_defs _ _ _ _ P).
    exact (l2_update_row _ _ _ _ U R).
  - destruct (_ <? _); [injection E as <-; exact R|]. destruct (l2_update b _) as [d1|] eqn:U; [|discriminate E].
    injection E as <-. exact (l2_update_row _ _ _ _ U R).
  - destruct (l2_reorg t (c_db s)) as [d|] eqn:U; [|discriminate E]. injection E as <-. cbn [c_db]. unfold l2_reorg in U.
    destruct (latest_number _) as [hd|]; [|discriminate U]. destruct (negb _); [discriminate U|]. destruct (_ && _); [discriminate U|].
    pose proof (purge_row x (N.to_nat (hd + 1 - t)) hd (c_db s) R) as R'. injection U as <-.
    destruct (d_pointer _); [|exact R']. destruct (t =? 0); [exact R'|]. destruct (t <=? _); exact R'.
  - injection E as <-. cbn [c_db]. unfold has_row, insert_definition. cbn [d_defs]. destruct (nget y (d_defs (c_db s))) as [o|] eqn:G; [exact R|].
    destruct (N.eq_dec x y) as [->|NE]; [rewrite (al_get_set_eq _ neqb_spec); discriminate|]. rewrite (al_get_set_neq _ neqb_spec) by auto. exact R.
  - discriminate E.
Qed.
Lemma downloaded_row m es x : In (ClassDefinition x) es -> has_row x (c_db (run m es)).
Proof.
  induction es as [|e es IH] using rev_ind; intros H; [destruct H|]. rewrite run_snoc. apply in_app_or in H. destruct H as [H|[->|[]]].
  - apply step_row. auto.
  - unfold step. cbn [consume c_db]. unfold has_row, insert_definition. cbn [d_defs]. destruct (nget x (d_defs (c_db (run m es)))) as [o|] eqn:G; [rewrite G; discriminate|].
    rewrite (al_get_set_eq _ neqb_spec). discriminate.
Qed.

(* the cache *)
Section Cache.
Variable D : Type.
Variable code : N -> D.
Lemma without_le x (c : cache D) : (length (without D x c) <= length c)%nat.
Proof. unfold without. induction c as [|e c IH]; [apply Nat.le_refl|]. cbn [filter]. destruct (negb _); cbn [length]; lia. Qed.
Lemma without_lt x (c : cache D) e : find (fun e => e_hash D e =? x) c = Some e -> (length (without D x c) < length c)%nat.
Proof.
  induction c as [|e' c IH]; [discriminate|]. cbn [find]. unfold without. cbn [filter]. destruct (e_hash D e' =? x).
  - intros _. cbn [negb length]. pose proof (without_le x c). unfold without in *. lia.
  - intros H. specialize (IH H). cbn [negb length]. unfold without in *. lia.
Qed.
Lemma removelast_length {A} (l : list A) : length (removelast l) = (length l - 1)%nat.
Proof. induction l as [|a [|b l] IH]; [reflexivity..|]. cbn [removelast length] in *. rewrite IH. lia. Qed.
Lemma exec_bounded m w o : (length (w_cache D w) <= cache_size)%nat -> (length (w_cache D (exec D code m w o)) <= cache_size)%nat.
Proof.
  intros L. destruct o as [e|seen r x|k]; cbn [exec]; [exact L| |].
  - unfold get_compiled_class. destruct (cache_get D x (w_cache D w)) as [hit c] eqn:EG.
    assert (LC : (length c <= cache_size)%nat).
    { revert EG. unfold cache_get. destruct (find _ _) as [e|] eqn:F; intros [= _ <-]; [|exact L]. apply without_lt in F. cbn [length]. lia. }
    destruct (non_cached _ _ _ _ _) as [[[h|] v]|]; destruct hit; try destruct (r_block r); try destruct (_ <=? _); exact LC.
  - destruct (nth_error _ _) as [e|]; [|exact L]. cbn [w_cache]. unfold cache_set. cbn [length].
    set (c := if (cache_size <=? length (w_cache D w))%nat then _ else _). pose proof (without_le (e_hash D e) c).
    assert (length c < cache_size)%nat.
    { unfold c. destruct (Nat.leb_spec cache_size (length (w_cache D w))); [rewrite removelast_length; unfold cache_size in *; lia|assumption]. }
    lia.
Qed.
End Cache.
