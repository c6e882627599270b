(* Proofs about stored and pending transactions. *)
From Coq Require Import List Arith NArith Bool Lia ZifyBool ZifyNat ZifyN.
From Verif Require Import AList StateUpdateModel ChainModel RpcReadModel TxLookupModel TxLookupSpec.
Import ListNotations.
Local Open Scope N_scope.

(* ---- lists ---- *)
Lemma in_enumerate {A} (l : list A) : forall i0 i x,
  In (i, x) (enumerate_from i0 l) <-> (i0 <= i)%nat /\ nth_error l (i - i0) = Some x.
Proof.
  induction l as [|y l IH]; intros i0 i x; cbn [enumerate_from].
  - split; [intros []|]. intros [_ H]. destruct (i - i0)%nat; discriminate.
  - split.
    + intros [E|I].
      * injection E as <- <-. rewrite Nat.sub_diag. split; [lia|reflexivity].
      * apply IH in I. destruct I as [L E]. split; [lia|]. replace (i - i0)%nat with (S (i - S i0)) by lia. exact E.
    + intros [L E]. destruct (Nat.eq_dec i0 i) as [->|NE].
      * rewrite Nat.sub_diag in E. injection E as ->. now left.
      * right. apply IH. split; [lia|]. replace (i - i0)%nat with (S (i - S i0)) in E by lia. exact E.
Qed.
Lemma map_enumerate {A B} (f : A -> B) (l : list A) : forall i, map (fun x => f (snd x)) (enumerate_from i l) = map f l.
Proof. induction l as [|x l IH]; intros i; [reflexivity|]. cbn. now rewrite IH. Qed.
Lemma existsb_in {A} (f : A -> N) n l : existsb (fun x => f x =? n) l = true <-> In n (map f l).
Proof.
  rewrite existsb_exists, in_map_iff. split; intros (x & H1 & H2); exists x; [apply N.eqb_eq in H2|subst n; rewrite N.eqb_refl]; auto.
Qed.
Lemma nodup_inj {A} (f : A -> N) l x y : NoDup (map f l) -> In x l -> In y l -> f x = f y -> x = y.
Proof.
  induction l as [|a l IH]; intros ND IX IY E; [destruct IX|]. cbn in ND. inversion ND as [|? ? NI ND']; subst.
  destruct IX as [->|IX], IY as [->|IY]; auto.
  - exfalso. apply NI. rewrite E. now apply in_map.
  - exfalso. apply NI. rewrite <- E. now apply in_map.
Qed.
Lemma nodup_app_l {A} (l1 l2 : list A) : NoDup (l1 ++ l2) -> NoDup l1.
Proof. induction l1 as [|x l1 IH]; intros ND; [constructor|]. cbn in ND. inversion ND as [|? ? NI ND']; subst. constructor; [|auto].
  intros I. apply NI, in_app_iff. auto. Qed.
Lemma nodup_app_r {A} (l1 l2 : list A) : NoDup (l1 ++ l2) -> NoDup l2.
Proof. induction l1 as [|x l1 IH]; intros ND; [exact ND|]. cbn in ND. inversion ND; subst. auto. Qed.
Lemma nodup_flat_filter {A} (f : A -> list N) p l : NoDup (flat_map f l) -> NoDup (flat_map f (filter p l)).
Proof.
  induction l as [|x l IH]; intros ND; [exact ND|]. cbn in *. pose proof (nodup_app_r _ _ ND) as ND2.
  destruct (p x); [|auto]. cbn. specialize (IH ND2).
  assert (D : forall y, In y (f x) -> ~ In y (flat_map f l)).
  { clear -ND. induction (f x) as [|z r IHr]; intros y I; [destruct I|]. cbn in ND. inversion ND as [|? ? NI ND']; subst.
    destruct I as [<-|I]; [intros C; apply NI, in_app_iff; auto|apply IHr; auto]. }
  assert (N1 : NoDup (f x)) by (eapply nodup_app_l; eauto).
  clear -IH D N1. induction (f x) as [|z r IHr]; [exact IH|]. cbn. inversion N1 as [|? ? NI ND']; subst. constructor.
  - rewrite in_app_iff. intros [I|I]; [auto|]. apply (D z); [now left|]. apply in_flat_map in I. destruct I as (y & I & Y).
    apply filter_In in I. apply in_flat_map. exists y. tauto.
  - apply IHr; auto. intros y I. apply D. now right.
Qed.
Lemma filter_map_key {A B} (g : A -> B) (p : B -> bool) l : filter p (map g l) = map g (filter (fun x => p (g x)) l).
Proof. induction l as [|x l IH]; [reflexivity|]. cbn. destruct (p (g x)); cbn; now rewrite IH. Qed.

Lemma distinct_iff l : distinct l = true <-> NoDup l.
Proof.
  induction l as [|x l IH]; cbn [distinct]; [split; [constructor|reflexivity]|].
  rewrite andb_true_iff, negb_true_iff, IH, NoDup_cons_iff, <- not_true_iff_false, existsb_exists.
  split; intros [H1 H2]; (split; [|exact H2]).
  - intros I. apply H1. exists x. split; [exact I|apply N.eqb_refl].
  - intros (y & I & E). apply N.eqb_eq in E. now subst.
Qed.

(* ---- the tables follow the stored blocks ---- *)
Definition hash_rows (b : sblock) : list hash_row :=
  map (fun x => HashRow (tx_hash (fst (snd x))) (sb_number b) (fst x)) (enumerate_from 0 (sb_txs b)).
Definition block_row (b : sblock) : tx_row := TxRow (sb_number b) (sb_txs b) (Some (sb_events b)).
Definition nonempty (b : sblock) : bool := negb (is_nil (sb_txs b)).
Record follows (d : tdb) (k : list sblock) : Prop := {
  f_headers : t_headers d = map (fun b => (sb_number b, sb_hash b)) k;
  f_txs : t_txs d = map block_row (filter nonempty k);
  f_hashes : t_hashes d = flat_map hash_rows k;
  f_wf : forall b, In b k -> length (sb_events b) = length (sb_txs b);
  f_numbers : NoDup (map sb_number k);
  f_block_hashes : NoDup (map sb_hash k);
  f_tx_hashes : NoDup (flat_map hashes k)
}.

Lemma hash_rows_hashes b : map hr_hash (hash_rows b) = hashes b.
Proof.
  unfold hash_rows, hashes. rewrite map_map. cbn [hr_hash]. exact (map_enumerate (fun x => tx_hash (fst x)) (sb_txs b) 0).
Qed.
Lemma flat_hash_rows k : map hr_hash (flat_map hash_rows k) = flat_map hashes k.
Proof. induction k as [|b k IH]; [reflexivity|]. cbn. now rewrite map_app, hash_rows_hashes, IH. Qed.

Lemma insert_none n l : fold_left (insert_hash n) l None = None.
Proof. induction l; [reflexivity|]. exact IHl. Qed.
Lemma insert_hashes n l : forall rows,
  NoDup (map hr_hash rows) ->
  fold_left (insert_hash n) l (Some rows) =
  if distinct (map hr_hash rows ++ map (fun x => tx_hash (fst (snd x))) l)
  then Some (rows ++ map (fun x => HashRow (tx_hash (fst (snd x))) n (fst x)) l) else None.
Proof.
  induction l as [|x l IH]; intros rows ND; cbn [map fold_left].
  - rewrite !app_nil_r. now rewrite (proj2 (distinct_iff _) ND).
  - unfold insert_hash at 2. destruct (existsb _ _) eqn:E.
    + rewrite insert_none. apply (existsb_in hr_hash) in E. destruct (distinct _) eqn:C; [|reflexivity]. apply distinct_iff in C.
      exfalso. apply NoDup_remove_2 in C. apply C, in_app_iff. auto.
    + assert (NI : ~ In (tx_hash (fst (snd x))) (map hr_hash rows)).
      { intros I. apply (existsb_in hr_hash) in I. congruence. }
      rewrite IH; [|rewrite map_app; cbn; apply NoDup_Add with (a := tx_hash (fst (snd x))) (l := map hr_hash rows);
        [rewrite <- (app_nil_r (map hr_hash rows)) at 1; apply Add_app|auto]].
      rewrite map_app, <- !app_assoc. cbn [map app hr_hash].
      reflexivity.
Qed.

Lemma follows_empty : follows tdb_empty [].
Proof. constructor; try reflexivity; try constructor. intros b []. Qed.

Lemma follows_store d k b : follows d k -> length (sb_events b) = length (sb_txs b) ->
  if allowed k b then exists d', store b d = Some d' /\ follows d' (k ++ [b]) /\ t_pointer d' = t_pointer d else store b d = None.
Proof.
  intros F W. unfold allowed, store. rewrite (f_headers _ _ F).
  assert (EX : existsb (fun x => (fst x =? sb_number b) || (snd x =? sb_hash b)) (map (fun b => (sb_number b, sb_hash b)) k) = true <->
               In (sb_number b) (map sb_number k) \/ In (sb_hash b) (map sb_hash k)).
  { rewrite existsb_exists. split.
    - intros ((x & y) & I & E). apply in_map_iff in I. destruct I as (c & C & I). injection C as <- <-. cbn in E.
      apply orb_true_iff in E. destruct E as [E|E]; apply N.eqb_eq in E; rewrite <- E; [left|right]; now apply in_map.
    - intros [I|I]; apply in_map_iff in I; destruct I as (c & C & I); exists (sb_number c, sb_hash c);
        (split; [apply in_map_iff; eauto|]); cbn; rewrite C, N.eqb_refl; [reflexivity|apply orb_true_r]. }
  destruct (in_dec N.eq_dec (sb_number b) (map sb_number k)) as [I1|N1].
  { rewrite (proj2 EX) by auto. reflexivity. }
  destruct (in_dec N.eq_dec (sb_hash b) (map sb_hash k)) as [I2|N2].
  { rewrite (proj2 EX) by auto. reflexivity. }
  assert (EX' : existsb (fun x => (fst x =? sb_number b) || (snd x =? sb_hash b)) (map (fun b => (sb_number b, sb_hash b)) k) = false).
  { destruct (existsb _ _); [|reflexivity]. destruct (proj1 EX eq_refl); contradiction. }
  rewrite EX'. unfold insert_transaction_data. cbn [t_hashes t_txs t_headers t_pointer].
  assert (ND : forall l, NoDup (map sb_number k) -> ~ In (sb_number b) (map sb_number k) -> l = map sb_number (k ++ [b]) -> NoDup l).
  { intros l D NI ->. rewrite map_app. cbn. eapply NoDup_Add; [|split; [exact D|exact NI]].
    rewrite <- (app_nil_r (map sb_number k)) at 1. apply Add_app. }
  assert (ND2 : NoDup (map sb_hash (k ++ [b]))).
  { rewrite map_app. cbn. eapply NoDup_Add; [|split; [exact (f_block_hashes _ _ F)|exact N2]].
    rewrite <- (app_nil_r (map sb_hash k)) at 1. apply Add_app. }
  destruct (is_nil (sb_txs b) && match Some (sb_events b) with Some e => is_nil e | None => true end) eqn:EM.
  - apply andb_true_iff in EM. destruct EM as [E1 E2]. destruct (sb_txs b) eqn:T; [|discriminate].
    assert (H0 : hashes b = []) by (unfold hashes; now rewrite T).
    rewrite H0, app_nil_r. pose proof (f_tx_hashes _ _ F) as D. rewrite (proj2 (distinct_iff _) D).
    eexists. split; [reflexivity|]. split; [|reflexivity]. constructor; cbn [t_headers t_txs t_hashes].
    + now rewrite map_app.
    + rewrite (f_txs _ _ F), filter_app. cbn [filter]. replace (nonempty b) with false by (unfold nonempty; now rewrite T). now rewrite app_nil_r.
    + rewrite (f_hashes _ _ F), flat_map_app. cbn [flat_map]. replace (hash_rows b) with (@nil hash_row) by (unfold hash_rows; now rewrite T). cbn. now rewrite !app_nil_r.
    + intros c I. apply in_app_iff in I. destruct I as [I|[<-|[]]]; [now apply (f_wf _ _ F)|now rewrite T].
    + eapply ND; eauto using f_numbers.
    + exact ND2.
    + rewrite flat_map_app. cbn. rewrite H0. cbn. now rewrite app_nil_r.
  - rewrite (f_hashes _ _ F), insert_hashes, flat_hash_rows by (rewrite flat_hash_rows; apply (f_tx_hashes _ _ F)).
    rewrite (map_enumerate (fun x : tx * receipt => tx_hash (fst x)) (sb_txs b) 0). fold (hashes b).
    destruct (distinct (flat_map hashes k ++ hashes b)) eqn:D; [|reflexivity]. apply distinct_iff in D.
    assert (NR : existsb (fun r => row_block r =? sb_number b) (t_txs d) = false).
    { destruct (existsb (fun r => row_block r =? sb_number b) (t_txs d)) eqn:E; [|reflexivity]. exfalso. apply (existsb_in row_block) in E. apply N1.
      rewrite (f_txs _ _ F), map_map in E. cbn [row_block block_row] in E. apply in_map_iff in E. destruct E as (c & C & I).
      apply filter_In in I. apply in_map_iff. exists c. tauto. }
    rewrite NR. eexists. split; [reflexivity|]. split; [|reflexivity].
    assert (T : nonempty b = true).
    { unfold nonempty. destruct (sb_txs b) eqn:T; [|reflexivity]. cbn in W. destruct (sb_events b); [|discriminate]. discriminate. }
    constructor; cbn [t_headers t_txs t_hashes].
    + now rewrite map_app.
    + rewrite (f_txs _ _ F), filter_app. cbn [filter]. rewrite T. now rewrite map_app.
    + rewrite flat_map_app. cbn. now rewrite app_nil_r.
    + intros c I. apply in_app_iff in I. destruct I as [I|[<-|[]]]; [now apply (f_wf _ _ F)|exact W].
    + eapply ND; eauto using f_numbers.
    + exact ND2.
    + rewrite flat_map_app. cbn. now rewrite app_nil_r.
Qed.

Lemma nodup_map_filter_n {A} (f : A -> N) p l : NoDup (map f l) -> NoDup (map f (filter p l)).
Proof.
  induction l as [|x l IH]; intros ND; [exact ND|]. cbn in *. inversion ND as [|? ? NI ND']; subst. destruct (p x); [|auto].
  cbn. constructor; [|auto]. intros I. apply NI. apply in_map_iff in I. destruct I as (y & E & I). apply filter_In in I.
  apply in_map_iff. exists y. tauto.
Qed.
Lemma filter_comm {A} (p q : A -> bool) l : filter p (filter q l) = filter q (filter p l).
Proof.
  induction l as [|x l IH]; [reflexivity|]. cbn. destruct (q x) eqn:Q, (p x) eqn:P; cbn; rewrite ?Q, ?P, IH; reflexivity.
Qed.
Lemma follows_delete d k n : follows d k -> follows (delete_block n d) (filter (fun b => negb (sb_number b =? n)) k).
Proof.
  intros F. constructor; cbn [delete_block t_headers t_txs t_hashes].
  - rewrite (f_headers _ _ F), filter_map_key. reflexivity.
  - rewrite (f_txs _ _ F), filter_map_key, filter_comm. reflexivity.
  - rewrite (f_hashes _ _ F). clear F. induction k as [|b k IH]; [reflexivity|]. cbn [flat_map filter].
    rewrite filter_app, IH. destruct (sb_number b =? n) eqn:E; cbn [negb flat_map].
    + replace (filter _ (hash_rows b)) with (@nil hash_row); [reflexivity|].
      unfold hash_rows. rewrite filter_map_key. cbn [hr_block]. rewrite E. cbn. symmetry.
      induction (enumerate_from 0 (sb_txs b)); [reflexivity|]. assumption.
    + f_equal. unfold hash_rows. rewrite filter_map_key. cbn [hr_block]. rewrite E. cbn. f_equal.
      induction (enumerate_from 0 (sb_txs b)) as [|y r IHr]; [reflexivity|]. cbn. now rewrite IHr.
  - intros b I. apply filter_In in I. apply (f_wf _ _ F). tauto.
  - apply nodup_map_filter_n, (f_numbers _ _ F).
  - apply nodup_map_filter_n, (f_block_hashes _ _ F).
  - apply nodup_flat_filter, (f_tx_hashes _ _ F).
Qed.
Lemma follows_pointer d k p : follows d k -> follows (set_l1_pointer p d) k.
Proof. intros F. destruct F. constructor; assumption. Qed.

Lemma follows_after cs : wf_changes cs ->
  follows (tdb_after cs) (kept_after cs) /\ t_pointer (tdb_after cs) = pointer_after cs.
Proof.
  unfold tdb_after, kept_after, pointer_after. induction cs as [|c cs IH] using rev_ind; intros W.
  - split; [exact follows_empty|reflexivity].
  - rewrite !fold_left_app. cbn [fold_left]. destruct IH as [F P]. { intros b I. apply W, in_app_iff. auto. }
    set (d := fold_left apply_change cs tdb_empty) in *. set (k := fold_left kept_step cs []) in *.
    destruct c as [b|n|p]; cbn [apply_change kept_step].
    + pose proof (follows_store d k b F) as S. specialize (S (W b ltac:(apply in_app_iff; right; now left))).
      destruct (allowed k b).
      * destruct S as (d' & -> & F' & P'). cbn. split; [exact F'|congruence].
      * rewrite S. cbn. auto.
    + split; [now apply follows_delete|exact P].
    + split; [now apply follows_pointer|reflexivity].
Qed.

(* ---- lookups in the tables ---- *)
Lemma find_row d k b : follows d k -> In b k -> nonempty b = true ->
  find (fun r => row_block r =? sb_number b) (t_txs d) = Some (block_row b).
Proof.
  intros F I NE. destruct (find _ _) as [r|] eqn:E.
  - apply find_some in E. destruct E as [R E]. apply N.eqb_eq in E. rewrite (f_txs _ _ F) in R.
    apply in_map_iff in R. destruct R as (c & <- & C). apply filter_In in C. destruct C as [C _]. cbn in E.
    f_equal. f_equal. eapply (nodup_inj sb_number); eauto using f_numbers.
  - exfalso. apply find_none with (x := block_row b) in E; [cbn in E; rewrite N.eqb_refl in E; discriminate E|].
    rewrite (f_txs _ _ F). apply (in_map block_row). now apply filter_In.
Qed.
Lemma no_row d k n : follows d k -> ~ In n (map sb_number k) -> find (fun r => row_block r =? n) (t_txs d) = None.
Proof.
  intros F NI. destruct (find _ _) as [r|] eqn:E; [|reflexivity]. exfalso. apply find_some in E. destruct E as [R E].
  apply N.eqb_eq in E. rewrite (f_txs _ _ F) in R. apply in_map_iff in R. destruct R as (c & <- & C). apply filter_In in C.
  apply NI, in_map_iff. exists c. cbn in E. tauto.
Qed.
Lemma empty_row d k b : follows d k -> In b k -> nonempty b = false -> find (fun r => row_block r =? sb_number b) (t_txs d) = None.
Proof.
  intros F I NE. destruct (find _ _) as [r|] eqn:E; [|reflexivity]. exfalso. apply find_some in E. destruct E as [R E].
  apply N.eqb_eq in E. rewrite (f_txs _ _ F) in R. apply in_map_iff in R. destruct R as (c & <- & C). apply filter_In in C.
  destruct C as [C NC]. cbn in E. assert (c = b) by (eapply (nodup_inj sb_number); eauto using f_numbers). congruence.
Qed.
Lemma rows_of d k b : follows d k -> In b k -> transactions_by_block d (sb_number b) = sb_txs b.
Proof.
  intros F I. unfold transactions_by_block. destruct (nonempty b) eqn:E.
  - now rewrite (find_row d k b F I E).
  - rewrite (empty_row d k b F I E). unfold nonempty in E. destruct (sb_txs b); [reflexivity|discriminate].
Qed.

Lemma join_spec d k h : follows d k ->
  match join_hash d h with
  | Some (r, i) => exists b t rc e, In b k /\ r = block_row b /\ at_index b i t rc e /\ tx_hash t = h
  | None => ~ stored_hash k h
  end.
Proof.
  intros F. unfold join_hash. destruct (find (fun r => hr_hash r =? h) (t_hashes d)) as [hr|] eqn:E.
  - apply find_some in E. destruct E as [I E]. apply N.eqb_eq in E. rewrite (f_hashes _ _ F) in I.
    apply in_flat_map in I. destruct I as (b & B & I). unfold hash_rows in I. apply in_map_iff in I.
    destruct I as ((i & t & rc) & <- & I). apply in_enumerate in I. destruct I as [_ I]. rewrite Nat.sub_0_r in I.
    cbn [fst snd hr_hash hr_block hr_idx] in *.
    assert (NE : nonempty b = true). { unfold nonempty. destruct (sb_txs b); [destruct i; discriminate|reflexivity]. }
    rewrite (find_row d k b F B NE). cbn [option_map].
    assert (L : (i < length (sb_events b))%nat). { rewrite (f_wf _ _ F b B). apply nth_error_Some. congruence. }
    apply nth_error_Some in L. destruct (nth_error (sb_events b) i) as [e|] eqn:EE; [|congruence].
    exists b, t, rc, e. split; [exact B|]. split; [reflexivity|]. split; [split; assumption|exact E].
  - intros (b & t & rc & e & (B & i & A & _) & H). apply find_none with (x := HashRow h (sb_number b) i) in E; [cbn in E; exact (eq_true_false_abs _ (N.eqb_refl h) E)|].
    rewrite (f_hashes _ _ F). apply in_flat_map. exists b. split; [exact B|]. unfold hash_rows. apply in_map_iff.
    exists (i, (t, rc)). cbn [fst snd]. split; [f_equal; exact H|]. apply in_enumerate. rewrite Nat.sub_0_r. split; [lia|exact A].
Qed.

Lemma transaction_spec d k h : follows d k ->
  match transaction d h with
  | Hit t => tx_hash t = h /\ exists b r e, stored_in k b t r e
  | Miss => ~ stored_hash k h
  | Broken => False
  end.
Proof.
  intros F. pose proof (join_spec d k h F) as J. unfold transaction. destruct (join_hash d h) as [[r i]|]; [|exact J].
  destruct J as (b & t & rc & e & B & -> & [A1 A2] & H). cbn [block_row row_txs]. rewrite A1. cbn. split; [exact H|].
  exists b, rc, e. split; [exact B|]. exists i. split; assumption.
Qed.
Lemma receipt_spec d k h : follows d k ->
  match transaction_with_receipt d h with
  | Hit (t, r, e, n) => tx_hash t = h /\ exists b, stored_in k b t r e /\ sb_number b = n
  | Miss => ~ stored_hash k h
  | Broken => False
  end.
Proof.
  intros F. pose proof (join_spec d k h F) as J. unfold transaction_with_receipt. destruct (join_hash d h) as [[r i]|]; [|exact J].
  destruct J as (b & t & rc & e & B & -> & [A1 A2] & H). cbn [block_row row_txs row_events row_block]. rewrite A1, A2. cbn.
  split; [exact H|]. exists b. split; [|reflexivity]. split; [exact B|]. exists i. split; assumption.
Qed.

(* ---- headers ---- *)
Lemma top_number_spec l : match top_number l with
  | Some n => In n (map fst l) /\ forall x, In x (map fst l) -> x <= n
  | None => l = []
  end.
Proof.
  induction l as [|x l IH]; [reflexivity|]. cbn [top_number map]. destruct (top_number l) as [m|].
  - destruct IH as [I M]. split; [|intros y [<-|Y]; [lia|specialize (M y Y); lia]].
    destruct (N.max_spec (fst x) m) as [[_ ->]|[_ ->]]; [now right|now left].
  - subst l. cbn. split; [now left|]. intros y [<-|[]]. lia.
Qed.
Lemma latest_spec d k n : follows d k -> is_latest k n -> get_or 0 (top_number (t_headers d)) = n.
Proof.
  intros F L. pose proof (top_number_spec (t_headers d)) as T. rewrite (f_headers _ _ F) in *. rewrite map_map in T. cbn [fst] in T.
  destruct (top_number _) as [m|]; cbn.
  - destruct T as [I M]. destruct L as [[-> _]|[(b & B & <-) MB]]; [destruct I|].
    apply in_map_iff in I. destruct I as (c & <- & C). specialize (MB c C).
    specialize (M (sb_number b) ltac:(now apply in_map)). lia.
  - destruct L as [[_ ->]|[(b & B & _) _]]; [reflexivity|]. destruct k; [destruct B|discriminate].
Qed.
Lemma latest_ex k : exists n, is_latest k n.
Proof.
  pose proof (top_number_spec (map (fun b => (sb_number b, sb_hash b)) k)) as T. rewrite map_map in T. cbn [fst] in T.
  destruct (top_number _) as [n|].
  - exists n. right. destruct T as [I M]. apply in_map_iff in I. destruct I as (b & E & B). split; [eauto|].
    intros c C. apply M. now apply in_map.
  - exists 0. left. destruct k; [auto|discriminate].
Qed.
Lemma block_hash_spec d k b : follows d k -> In b k -> block_hash_of d (sb_number b) = Some (sb_hash b).
Proof.
  intros F B. unfold block_hash_of. rewrite (f_headers _ _ F). destruct (find _ _) as [x|] eqn:E.
  - apply find_some in E. destruct E as [I E]. apply N.eqb_eq in E. apply in_map_iff in I. destruct I as (c & <- & C). cbn in *.
    f_equal. f_equal. eapply (nodup_inj sb_number); eauto using f_numbers.
  - exfalso. apply find_none with (x := (sb_number b, sb_hash b)) in E; [cbn in E; rewrite N.eqb_refl in E; discriminate E|].
    apply (in_map (fun b => (sb_number b, sb_hash b)) k b B).
Qed.
Lemma header_exists d k n : follows d k -> existsb (fun x => fst x =? n) (t_headers d) = true <-> In n (map sb_number k).
Proof. intros F. rewrite (existsb_in fst), (f_headers _ _ F), map_map. reflexivity. Qed.
Lemma hash_exists d k h : follows d k -> existsb (fun x => snd x =? h) (t_headers d) = true <-> In h (map sb_hash k).
Proof. intros F. rewrite (existsb_in snd), (f_headers _ _ F), map_map. reflexivity. Qed.
Lemma l1_spec d k b : follows d k -> In b k ->
  is_l1_accepted d (sb_number b) = true <-> exists p, t_pointer d = Some p /\ sb_number b <= p.
Proof.
  intros F B. unfold is_l1_accepted. destruct (t_pointer d) as [p|].
  - cbn. rewrite (proj2 (header_exists d k (sb_number b) F)) by now apply in_map. split.
    + intros E. exists p. split; [reflexivity|lia].
    + intros (q & E & L). injection E as ->. lia.
  - split; [discriminate|]. intros (p & E & _). discriminate.
Qed.

(* a block id that names a block *)
Lemma named_block d k id b : follows d k -> names k (t_pointer d) id b ->
  exists i, common_id d id = Some i /\ block_number d i = Some (sb_number b) /\ exists_block d i = true.
Proof.
  intros F [B N]. destruct id as [n|h| | |]; cbn in N |- *.
  - subst n. exists (Number (sb_number b)). cbn. rewrite (proj2 (header_exists d k _ F)) by now apply in_map. auto.
  - subst h. exists (Hash (sb_hash b)). cbn. rewrite (proj2 (hash_exists d k _ F)) by now apply in_map.
    split; [reflexivity|]. split; [|reflexivity]. rewrite (f_headers _ _ F). destruct (find _ _) as [x|] eqn:E.
    + apply find_some in E. destruct E as [I E]. apply N.eqb_eq in E. apply in_map_iff in I. destruct I as (c & <- & C). cbn in *.
      f_equal. f_equal. eapply (nodup_inj sb_hash); eauto using f_block_hashes.
    + exfalso. apply find_none with (x := (sb_number b, sb_hash b)) in E; [cbn in E; rewrite N.eqb_refl in E; discriminate E|].
      apply (in_map (fun b => (sb_number b, sb_hash b)) k b B).
  - exists (Number (sb_number b)). rewrite N. cbn. rewrite (proj2 (header_exists d k _ F)) by now apply in_map. auto.
  - exists Latest. split; [reflexivity|]. pose proof (latest_spec d k _ F N) as L. cbn.
    destruct (t_headers d) as [|x r] eqn:E. { rewrite (f_headers _ _ F) in E. destruct k; [destruct B|discriminate]. }
    split; [|reflexivity]. destruct (top_number (x :: r)) as [m|] eqn:T; [cbn in L; congruence|].
    cbn in T. destruct (top_number r); discriminate.
  - destruct N.
Qed.
Lemma unnamed_block d k id : follows d k -> id <> RPreConfirmed -> (forall b, ~ names k (t_pointer d) id b) ->
  match common_id d id with Some i => block_number d i = None /\ exists_block d i = false | None => True end.
Proof.
  intros F NP U. destruct id as [n|h| | |]; cbn [common_id].
  - cbn. destruct (existsb _ _) eqn:E; [|auto]. apply (header_exists d k n F) in E. apply in_map_iff in E. destruct E as (b & E & B).
    elim (U b). split; assumption.
  - cbn. destruct (existsb _ _) eqn:E.
    + apply (hash_exists d k h F) in E. apply in_map_iff in E. destruct E as (b & E & B). elim (U b). split; assumption.
    + split; [|reflexivity]. destruct (find _ _) as [x|] eqn:FN; [|reflexivity]. apply find_some in FN. destruct FN as [I X].
      exfalso. rewrite <- not_true_iff_false in E. apply E, existsb_exists. eauto.
  - destruct (t_pointer d) as [p|] eqn:P; cbn; [|auto]. destruct (existsb _ _) eqn:E; [|auto].
    apply (header_exists d k p F) in E. apply in_map_iff in E. destruct E as (b & E & B). elim (U b). split; [exact B|].
    cbn. congruence.
  - cbn. destruct (t_headers d) as [|x r] eqn:E; [auto|]. exfalso. destruct (latest_ex k) as (n & L).
    destruct L as [[-> _]|[(b & B & <-) M]]. { rewrite (f_headers _ _ F) in E. discriminate. }
    apply (U b). split; [exact B|]. cbn. right. eauto.
  - now elim NP.
Qed.

(* ---- pending data ---- *)
Definition receipts_of (b : gw_block) : list (receipt * list event) :=
  flat_map (fun r => match r with Some x => [x] | None => [] end) (gw_receipts b).
Lemma in_receipts b x : In x (receipts_of b) <-> In (Some x) (gw_receipts b).
Proof.
  unfold receipts_of. rewrite in_flat_map. split.
  - intros ([y|] & I & X); [|destruct X]. destruct X as [->|[]]. exact I.
  - intros I. exists (Some x). split; [exact I|now left].
Qed.
Lemma has_receipt_spec rs t : has_receipt rs t = true <-> exists r e, In (r, e) rs /\ rc_hash r = tx_hash t.
Proof.
  unfold has_receipt. rewrite existsb_exists. split.
  - intros ((r & e) & I & E). apply N.eqb_eq in E. eauto.
  - intros (r & e & I & E). exists (r, e). split; [exact I|]. cbn. now apply N.eqb_eq.
Qed.
Definition confirmed_of (b : gw_block) : list tx := filter (has_receipt (receipts_of b)) (gw_txs b).
Definition candidates_of (b : gw_block) : list tx := filter (fun t => negb (has_receipt (receipts_of b) t)) (gw_txs b).
Lemma in_confirmed b t : In t (confirmed_of b) <-> exists r e, executed b t r e.
Proof.
  unfold confirmed_of. rewrite filter_In, has_receipt_spec. split.
  - intros [I (r & e & R & E)]. exists r, e. split; [exact I|]. split; [now apply in_receipts|exact E].
  - intros (r & e & I & R & E). split; [exact I|]. exists r, e. split; [now apply in_receipts|exact E].
Qed.
Lemma in_candidates b t : In t (candidates_of b) <-> is_candidate b t.
Proof.
  unfold candidates_of. rewrite filter_In. split.
  - intros [I N]. split; [exact I|]. intros r e R E. apply negb_true_iff in N. rewrite <- not_true_iff_false in N. apply N.
    apply has_receipt_spec. exists r, e. split; [now apply in_receipts|exact E].
  - intros [I N]. split; [exact I|]. apply negb_true_iff, not_true_iff_false. intros H. apply has_receipt_spec in H.
    destruct H as (r & e & R & E). apply (N r e); [now apply in_receipts|exact E].
Qed.
Lemma confirmed_or_candidate b t : In t (gw_txs b) <-> In t (confirmed_of b) \/ In t (candidates_of b).
Proof.
  unfold confirmed_of, candidates_of. rewrite !filter_In. destruct (has_receipt (receipts_of b) t); cbn; intuition discriminate.
Qed.

(* what is seen of the pending data *)
Lemma seen d k v09 b number pl w n : follows d k -> is_latest k n -> convert b number pl = Converted w ->
  exists p, ptx_get d v09 w = Some p /\
    ((pre_confirmed_seen n v09 number pl /\ pt_number p = number /\ pt_txs p = confirmed_of b /\ pt_receipts p = receipts_of b /\
        pt_candidates p = candidates_of b) \/
     (~ pre_confirmed_seen n v09 number pl /\ p = ptx_empty n)) /\
    match pt_pre_latest p with
    | Some (m, x) => pre_latest_seen n v09 pl x /\ m = n + 1
    | None => forall x, ~ pre_latest_seen n v09 pl x
    end.
Proof.
  intros F L C. unfold ptx_get. rewrite (latest_spec d k n F L). unfold convert in C. fold (receipts_of b) in C.
  fold (confirmed_of b) in C. fold (candidates_of b) in C.
  destruct (negb _); [discriminate|]. unfold pre_confirmed_seen, pre_latest_seen.
  destruct v09; [|eexists; split; [reflexivity|]; split; [right; split; [intros [H _]; discriminate|reflexivity]|intros x [H _]; discriminate]].
  destruct pl as [[q x]|].
  - destruct (N.eqb_spec (q + 1) number) as [E|]; [|discriminate]. injection C as <-. cbn [pt_pre_latest pt_number]. subst number.
    rewrite N.eqb_refl. destruct (N.eqb_spec q (n + 1)) as [->|N1]; [|destruct (N.eqb_spec q n) as [->|N2]];
      (eexists; split; [reflexivity|]); cbn [pt_number pt_txs pt_receipts pt_candidates pt_pre_latest ptx_empty].
    + split; [left; repeat split; now left|]. repeat split.
    + split; [left; repeat split; now right|]. intros y [_ Y]. injection Y as Y _. lia.
    + split; [right; split; [|reflexivity]; intros [_ [H|H]]; contradiction|]. intros y [_ Y]. injection Y as Y _. contradiction.
  - injection C as <-. cbn [pt_pre_latest pt_number]. destruct (N.eqb_spec number (n + 1)) as [E|NE];
      (eexists; split; [reflexivity|]); cbn [pt_number pt_txs pt_receipts pt_candidates pt_pre_latest ptx_empty].
    + split; [left; repeat split; exact E|]. intros y [_ Y]. discriminate.
    + split; [right; split; [|reflexivity]; intros [_ H]; contradiction|]. intros y [_ Y]. discriminate.
Qed.

Lemma find_tx_spec h l : match find_tx h l with
  | Some t => In t l /\ tx_hash t = h
  | None => forall t, In t l -> tx_hash t <> h
  end.
Proof.
  unfold find_tx. destruct (find _ _) as [t|] eqn:E.
  - apply find_some in E. destruct E as [I E]. apply N.eqb_eq in E. auto.
  - intros t I H. eapply find_none in E; [|exact I]. cbn in E. apply N.eqb_neq in E. contradiction.
Qed.
Lemma find_receipt_spec h l : match find_receipt h l with
  | Some (r, e) => In (r, e) l /\ rc_hash r = h
  | None => forall r e, In (r, e) l -> rc_hash r <> h
  end.
Proof.
  unfold find_receipt. destruct (find _ _) as [[r e]|] eqn:E.
  - apply find_some in E. destruct E as [I E]. apply N.eqb_eq in E. auto.
  - intros r e I H. eapply find_none in E; [|exact I]. cbn in E. apply N.eqb_neq in E. contradiction.
Qed.

Section Seen.
  Variables (d : tdb) (k : list sblock) (v09 : bool) (b : gw_block) (number : N) (pl : option (N * pl_block)) (w : ptx) (n : N) (p : ptx).
  Hypothesis SEEN :
    ((pre_confirmed_seen n v09 number pl /\ pt_number p = number /\ pt_txs p = confirmed_of b /\ pt_receipts p = receipts_of b /\
        pt_candidates p = candidates_of b) \/
     (~ pre_confirmed_seen n v09 number pl /\ p = ptx_empty n)) /\
    match pt_pre_latest p with
    | Some (m, x) => pre_latest_seen n v09 pl x /\ m = n + 1
    | None => forall x, ~ pre_latest_seen n v09 pl x
    end.

  Lemma in_pre_confirmed t : In t (pt_txs p) -> pre_confirmed_seen n v09 number pl /\ pt_number p = number /\
    pt_receipts p = receipts_of b /\ In t (confirmed_of b).
  Proof. destruct SEEN as [[(S & E1 & E2 & E3 & E4)|[_ ->]] _]; [rewrite E2; auto|intros []]. Qed.
  Lemma candidate_iff t : In t (pt_candidates p) <-> pending_candidate n v09 b number pl t.
  Proof.
    unfold pending_candidate. rewrite <- in_candidates. destruct SEEN as [[(S & E1 & E2 & E3 & E4)|[S ->]] _]; [rewrite E4; tauto|].
    cbn. tauto.
  Qed.
  Lemma find_transaction_spec h :
    match find_transaction p h with
    | Some t => tx_hash t = h /\ pending_tx n v09 b number pl t
    | None => forall t, pending_tx n v09 b number pl t -> tx_hash t <> h
    end.
  Proof.
    unfold find_transaction. pose proof (find_tx_spec h (pt_txs p)) as F1. destruct (find_tx h (pt_txs p)) as [t|].
    { destruct F1 as [I H]. split; [exact H|]. left. apply in_pre_confirmed in I. destruct I as (S & _ & _ & I).
      split; [exact S|]. apply confirmed_or_candidate. auto. }
    pose proof (find_tx_spec h (pt_candidates p)) as F2. destruct (find_tx h (pt_candidates p)) as [t|].
    { destruct F2 as [I H]. split; [exact H|]. left. apply candidate_iff in I. destruct I as [S [I _]]. split; assumption. }
    assert (NC : forall t, pre_confirmed_seen n v09 number pl -> In t (gw_txs b) -> tx_hash t <> h).
    { intros t S I. destruct SEEN as [[(_ & E1 & E2 & E3 & E4)|[S' _]] _]; [|contradiction].
      apply confirmed_or_candidate in I. destruct I as [I|I]; [apply F1; now rewrite E2|apply F2; now rewrite E4]. }
    destruct SEEN as [_ PL]. destruct (pt_pre_latest p) as [[m x]|].
    - destruct PL as [PL _]. pose proof (find_tx_spec h (pl_txs x)) as F3. destruct (find_tx h (pl_txs x)) as [t|].
      + destruct F3 as [I H]. split; [exact H|]. right. eauto.
      + intros t [[S I]|(y & Y & I)]; [now apply NC|]. destruct PL as [_ PL], Y as [_ Y]. rewrite PL in Y. injection Y as <-. now apply F3.
    - intros t [[S I]|(y & Y & I)]; [now apply NC|]. now elim (PL y).
  Qed.
  Hypothesis WP : wf_pre_latest pl.
  Lemma find_finalized_spec h :
    match find_finalized p h with
    | Hit (m, t, r, e) => tx_hash t = h /\ rc_hash r = h /\ pending_executed n v09 b number pl m t r e
    | Miss => forall m t r e, pending_executed n v09 b number pl m t r e -> tx_hash t <> h
    | Broken => False
    end.
  Proof.
    unfold find_finalized. pose proof (find_tx_spec h (pt_txs p)) as F1. destruct (find_tx h (pt_txs p)) as [t|].
    { destruct F1 as [I H]. apply in_pre_confirmed in I. destruct I as (S & EN & ER & I). rewrite ER.
      pose proof (find_receipt_spec h (receipts_of b)) as R. destruct (find_receipt h (receipts_of b)) as [[r e]|].
      - destruct R as [R RH]. split; [exact H|]. split; [exact RH|]. left. split; [exact S|]. split; [|exact EN].
        split; [apply confirmed_or_candidate; auto|]. split; [now apply in_receipts|congruence].
      - apply in_confirmed in I. destruct I as (r & e & _ & X & Y). apply (R r e); [now apply in_receipts|congruence]. }
    assert (NC : forall t r e, pre_confirmed_seen n v09 number pl -> executed b t r e -> tx_hash t <> h).
    { intros t r e S I. destruct SEEN as [[(_ & E1 & E2 & E3 & E4)|[S' _]] _]; [|contradiction].
      apply F1. rewrite E2. apply in_confirmed. eauto. }
    destruct SEEN as [_ PL]. destruct (pt_pre_latest p) as [[m x]|].
    - destruct PL as [PL ->]. pose proof (find_tx_spec h (pl_txs x)) as F3. destruct (find_tx h (pl_txs x)) as [t|].
      + destruct F3 as [I H]. pose proof (find_receipt_spec h (pl_receipts x)) as R. destruct (find_receipt h (pl_receipts x)) as [[r e]|].
        * destruct R as [R RH]. split; [exact H|]. split; [exact RH|]. right. exists x. split; [exact PL|]. split; [|reflexivity].
          split; [exact I|]. split; [exact R|congruence].
        * destruct PL as [_ PL]. destruct (WP _ _ t PL I) as (r & e & X & Y). apply (R r e X). congruence.
      + intros m t r e [(S & I & _)|(y & Y & (I & _) & _)]; [now apply (NC t r e)|].
        destruct PL as [_ PL], Y as [_ Y]. rewrite PL in Y. injection Y as <-. now apply F3.
    - intros m t r e [(S & I & _)|(y & Y & _)]; [now apply (NC t r e)|]. now elim (PL y).
  Qed.
End Seen.
