(* C65: nonces, storage values and class hashes read over the RPC are those of the state after the
   blocks up to the one that is named, pending ones included. *)
From Coq Require Import List Arith NArith Bool Lia ZifyBool ZifyNat ZifyN.
From Verif Require Import AList StateUpdateModel StateUpdateSpec StateUpdateProof ChainModel ChainSpec ChainProof ChainProperties
  RpcReadModel RpcReadSpec RpcReadProof.
Import ListNotations.
Local Open Scope N_scope.

(* A block id that names a stored block gives the state as of that block, whatever the pending data. *)
Theorem C65_stored m es v09 w id n :
  orderly_run m es ->
  let d := db_after m es in let c := chain_after m es in
  designates d c id n -> kept d n ->
  (forall a, get_nonce d v09 w id a = expected_nonce (stored_layers c n) a) /\
  (forall a, get_class_hash_at d v09 w id a = expected_class (stored_layers c n) a) /\
  (forall a k, value (get_storage_at d v09 w id a k) = expected_storage (stored_layers c n) a k).
Proof.
  intros O d c D K. destruct (run_inv m es O) as (low & I). fold d c in I.
  destruct (named _ _ _ _ _ I D K) as (b & T & X & A & _).
  assert (NP : id <> RPreConfirmed) by (intros ->; exact D).
  split; [|split]; intros; unfold get_nonce, get_class_hash_at, get_storage_at;
    rewrite (read_stored d v09 w id _ _ b NP T X).
  - now apply nonce_stored.
  - now apply class_stored.
  - now apply storage_stored.
Qed.
Print Assumptions C65_stored.

(* The block reported with a storage value is the last one up to the named block that wrote it. *)
Theorem C65_last_update_block m es v09 w id n a k v b :
  orderly_run m es ->
  let d := db_after m es in let c := chain_after m es in
  designates d c id n -> kept d n ->
  get_storage_at d v09 w id a k = Found (v, b) ->
  match storage_in (stored_layers c n) a k with
  | Some x => v = x /\ last_write c n a k b
  | None => v = 0 /\ b = 0
  end.
Proof.
  intros O d c D K. destruct (run_inv m es O) as (low & I). fold d c in I.
  pose proof (proj1 (kept_iff _ _ _ _ I) K) as [L U].
  destruct (named _ _ _ _ _ I D K) as (i & T & X & A & B).
  assert (NP : id <> RPreConfirmed) by (intros ->; exact D).
  unfold get_storage_at. rewrite (read_stored d v09 w id _ _ i NP T X).
  rewrite stored_storage, <- (proj1 A), <- storage_block_fst.
  destruct (lookup_storage_block d i a k) as [[x y]|] eqn:E; cbn [option_map fst].
  - intros H. injection H as -> ->. split; [reflexivity|]. eapply lookup_last_write; eauto.
  - destruct (contract_exists d i a); [|discriminate]. intros H. injection H as <- <-. auto.
Qed.
Print Assumptions C65_last_update_block.

(* A block id that names no stored block is answered with BlockNotFound. *)
Theorem C65_block_not_found m es v09 w id :
  orderly_run m es ->
  let d := db_after m es in let c := chain_after m es in
  id <> RPreConfirmed -> (forall n, designates d c id n -> ~ kept d n) ->
  (forall a, get_nonce d v09 w id a = BlockNotFound) /\
  (forall a, get_class_hash_at d v09 w id a = BlockNotFound) /\
  (forall a k, get_storage_at d v09 w id a k = BlockNotFound).
Proof.
  intros O d c NP U. destruct (run_inv m es O) as (low & I). fold d c in I.
  pose proof (unnamed _ _ _ _ I NP U) as E.
  split; [|split]; intros; unfold get_nonce, get_class_hash_at, get_storage_at; now apply read_missing.
Qed.
Print Assumptions C65_block_not_found.

(* ---- the pre-confirmed block ---- *)
Section PreConfirmed.
  Variables (m : history_mode) (es : list sync_event) (v09 : bool) (w : pending).
  Variables (diffs : list (option gdiff)) (number : N) (pre_latest : option (N * state_update)) (n : N).
  Hypothesis O : orderly_run m es.
  Let d := db_after m es.
  Let c := chain_after m es.
  (* n is the number of the latest stored block *)
  Hypothesis LATEST : n + 1 = clen c.
  Hypothesis WD : wf_diffs diffs.
  Hypothesis WP : match pre_latest with Some (_, u) => wf_data (to_data u) | None => True end.
  Hypothesis MK : make_pending diffs number pre_latest = Some w.
  Let above := pending_layers n v09 diffs number pre_latest.
  Hypothesis POSSIBLE : possible (stored_layers c n) above.

  (* The class of a contract is the one after the stored and the pending blocks above them. *)
  Theorem C65_class a :
    get_class_hash_at d v09 w RPreConfirmed a = expected_class (stored_layers c n ++ above) a.
  Proof.
    destruct (run_inv m es O) as (low & I). fold d c in I. destruct (named_latest _ _ _ _ I LATEST) as (X & A & LN & _).
    destruct (pending_seen d v09 diffs number pre_latest w n LN WD WP MK) as (p & G & S & _).
    unfold get_class_hash_at. rewrite (read_pending d v09 w _ _ p G X), (class_stored d Latest c n a A).
    now apply above_class.
  Qed.

  (* The block reported with a storage value that a pending block wrote is the pre-confirmed block
     (even if it was the pre-latest block that wrote it, C65_last_update_refuted); otherwise it is
     the last stored block that wrote it. *)
  Theorem C65_last_update_partial a k v b :
    get_storage_at d v09 w RPreConfirmed a k = Found (v, b) ->
    match storage_in above a k with
    | Some x => v = x /\ b = number
    | None =>
        match storage_in (stored_layers c n) a k with
        | Some x => v = x /\ last_write c n a k b
        | None => v = 0 /\ b = 0
        end
    end.
  Proof.
    destruct (run_inv m es O) as (low & I). fold d c in I.
    destruct (named_latest _ _ _ _ I LATEST) as (X & A & LN & B).
    assert (K : low <= n /\ n < clen c) by (destruct (i_low _ _ _ I) as [L|[_ L]]; [lia|rewrite L in LATEST; cbn in LATEST; lia]).
    destruct (pending_seen d v09 diffs number pre_latest w n LN WD WP MK) as (p & G & S & NU). fold above in S, NU.
    unfold get_storage_at. rewrite (read_pending d v09 w _ _ p G X).
    pose proof (provenance_of _ _ a k S) as P. destruct (storage_provenance (p_aggregated p) a k) as [[|x]|]; cbn [option_map].
    - destruct P as (-> & l & IL & D). destruct (possible_fresh _ _ _ _ POSSIBLE IL D) as (_ & _ & F). rewrite F.
      intros H. injection H as <- <-. auto.
    - rewrite P. intros H. injection H as <- <-. split; [reflexivity|]. apply NU. intros E. rewrite E in P. discriminate.
    - rewrite P, stored_storage, <- (proj1 A), <- storage_block_fst.
      destruct (lookup_storage_block d Latest a k) as [[x y]|] eqn:E; cbn [option_map fst].
      + intros H. injection H as -> ->. split; [reflexivity|]. eapply lookup_last_write; eauto; tauto.
      + destruct (contract_exists d Latest a); [|discriminate]. intros H. injection H as <- <-. auto.
  Qed.

  (* So are nonces and storage values, unless a contract is both deployed and replaced in them. *)
  Hypothesis UNREPLACED : unreplaced above.
  Theorem C65_nonce_partial a :
    get_nonce d v09 w RPreConfirmed a = expected_nonce (stored_layers c n ++ above) a.
  Proof.
    destruct (run_inv m es O) as (low & I). fold d c in I. destruct (named_latest _ _ _ _ I LATEST) as (X & A & LN & _).
    destruct (pending_seen d v09 diffs number pre_latest w n LN WD WP MK) as (p & G & S & _).
    unfold get_nonce. rewrite (read_pending d v09 w _ _ p G X), (nonce_stored d Latest c n a A).
    now apply above_nonce.
  Qed.
  Theorem C65_storage_partial a k :
    value (get_storage_at d v09 w RPreConfirmed a k) = expected_storage (stored_layers c n ++ above) a k.
  Proof.
    destruct (run_inv m es O) as (low & I). fold d c in I. destruct (named_latest _ _ _ _ I LATEST) as (X & A & LN & _).
    destruct (pending_seen d v09 diffs number pre_latest w n LN WD WP MK) as (p & G & S & _).
    unfold get_storage_at. rewrite (read_pending d v09 w _ _ p G X).
    apply above_storage; auto. now apply storage_stored.
  Qed.
End PreConfirmed.
Print Assumptions C65_class.
Print Assumptions C65_last_update_partial.
Print Assumptions C65_nonce_partial.
Print Assumptions C65_storage_partial.

(* The pending data never make a read fail: the assertions hold of whatever was built from a
   pre-confirmed block and the pre-latest block it follows. *)
Theorem C65_no_panic d v09 w diffs number pre_latest :
  make_pending diffs number pre_latest = Some w ->
  (forall a, get_nonce d v09 w RPreConfirmed a <> Panics) /\
  (forall a, get_class_hash_at d v09 w RPreConfirmed a <> Panics) /\
  (forall a k, get_storage_at d v09 w RPreConfirmed a k <> Panics).
Proof.
  intros MK. assert (G : exists p, pending_get d v09 w = Some p).
  { unfold pending_get. destruct (match top_header (d_headers d) with Some h => _ | None => _ end) as [nu co].
    destruct v09; [|eauto]. unfold make_pending in MK. destruct pre_latest as [[x u]|].
    - destruct (N.eqb_spec (x + 1) number) as [E|]; [|discriminate]. injection MK as <-. cbn [p_pre_latest p_number]. subst number.
      rewrite N.eqb_refl. destruct (x =? nu + 1); [eauto|]. destruct (x =? nu); eauto.
    - injection MK as <-. cbn. destruct (number =? nu + 1); eauto. }
  destruct G as (p & G).
  split; [|split]; intros; unfold get_nonce, get_class_hash_at, get_storage_at, read; rewrite G; cbn [to_common_coerced].
  - destruct (contract_nonce _ _); [discriminate|]. destruct (id_exists _ _); [|discriminate].
    destruct (lookup_nonce _ _ _); [discriminate|]. destruct (contract_exists _ _ _); discriminate.
  - destruct (contract_class _ _); [discriminate|]. destruct (id_exists _ _); [|discriminate].
    destruct (lookup_class _ _ _); discriminate.
  - destruct (storage_provenance _ _ _); [discriminate|]. destruct (id_exists _ _); [|discriminate].
    destruct (lookup_storage_block _ _ _ _); [discriminate|]. destruct (contract_exists _ _ _); discriminate.
Qed.
Print Assumptions C65_no_panic.

(* ---- concrete cases ---- *)
(* blocks 0, 1 and 2; the pre-latest block 3 changes a slot of contract 11, and the pre-confirmed
   block 4 has two transactions, one deploying contract 12, and a candidate *)
Definition ex_es := [DownloadedBlock ex0; DownloadedBlock ex1; DownloadedBlock ex2].
Definition ex_d1 : gdiff := Gdiff [(12, [(0, 5)])] [(12, 7)] [] [] [(12, 3)] [] [].
Definition ex_d2 : gdiff := Gdiff [(11, [(4, 8); (4, 9)]); (2, [(0, 44)])] [] [] [] [(10, 2)] [(10, 9)] [].
Definition ex_pre_latest : state_update := StateUpdate 103 0 1003 [(11, ContractUpdate [(3, 5)] None None)] [] [] [] [].
Definition ex_diffs := [Some ex_d1; Some ex_d2; None].
Definition ex_w : pending := get_or (pending_empty 0 0) (make_pending ex_diffs 4 (Some (3, ex_pre_latest))).

Example C65_ex_orderly : orderly_run Archive ex_es.
Proof. orderly_tac. Qed.
Example C65_ex_make : make_pending ex_diffs 4 (Some (3, ex_pre_latest)) = Some ex_w.
Proof. reflexivity. Qed.
Example C65_ex_chain : chain_after Archive ex_es = [ex0; ex1; ex2].
Proof. vm_compute. reflexivity. Qed.
Example C65_ex_wf : wf_diffs ex_diffs /\ wf_data (to_data ex_pre_latest).
Proof.
  split; [|wf_tac]. intros d [E|[E|[E|[]]]]; try discriminate; injection E as <-;
    (split; [nodup_tac|]); (split; [nodup_tac|]); intros a S; unfold is_system in S;
    destruct (N.eqb_spec a 1), (N.eqb_spec a 2); subst; try discriminate; vm_compute; auto.
Qed.
Lemma only_entry a k v : last_entry a [(k, v)] <> None -> a = k.
Proof. unfold last_entry. cbn [rev app]. rewrite nget_cons. destruct (N.eqb_spec a k); [auto|]. intros H. now elim H. Qed.
Example C65_ex_possible :
  possible (stored_layers [ex0; ex1; ex2] 2) (pending_layers 2 true ex_diffs 4 (Some (3, ex_pre_latest))) /\
  unreplaced (pending_layers 2 true ex_diffs 4 (Some (3, ex_pre_latest))).
Proof.
  assert (D1 : forall a, ly_deploys (diff_layer ex_d1) a <> None -> a = 12).
  { intros a. apply only_entry. }
  assert (R2 : forall a, ly_replaces (diff_layer ex_d2) a <> None -> a = 10).
  { intros a. apply only_entry. }
  assert (D0 : forall a, ly_deploys (data_layer (to_data ex_pre_latest)) a = None).
  { intros a. cbn. rewrite nget_cons. cbn. destruct (a =? 11); reflexivity. }
  assert (R0 : forall a, ly_replaces (data_layer (to_data ex_pre_latest)) a = None).
  { intros a. cbn. rewrite nget_cons. cbn. destruct (a =? 11); reflexivity. }
  assert (R1 : forall a, ly_replaces (diff_layer ex_d1) a = None) by reflexivity.
  assert (D2 : forall a, ly_deploys (diff_layer ex_d2) a = None) by reflexivity.
  cbn [pending_layers ex_diffs flat_map app N.eqb N.add Pos.add Pos.eqb]. split.
  - split; [intros a H; now elim H|]. split; [intros a H; now elim H|].
    split. { intros a H. apply D1 in H. subst a. repeat split. }
    split. { intros a H. now elim H. }
    split. { intros a H. now elim H. }
    split; [|exact Coq.Init.Logic.I]. intros a H _. apply R2 in H. subst a. vm_compute. discriminate.
  - intros l l' a I I' H. destruct I as [<-|[<-|[<-|[]]]]; [now elim H| |now elim H].
    apply D1 in H. subst a. destruct I' as [<-|[<-|[<-|[]]]]; reflexivity.
Qed.
Example C65_ex_reads :
  let d := db_after Archive ex_es in
  get_storage_at d true ex_w (RNumber 1) 10 1 = Found (6, 1) /\
  get_storage_at d true ex_w RLatest 10 2 = Found (9, 1) /\
  get_storage_at d true ex_w RPreConfirmed 11 4 = Found (9, 4) /\
  get_storage_at d true ex_w RPreConfirmed 2 0 = Found (44, 4) /\
  get_storage_at d true ex_w RPreConfirmed 12 7 = Found (0, 0) /\
  get_nonce d true ex_w RPreConfirmed 10 = Found 2 /\
  get_nonce d true ex_w RPreConfirmed 11 = Found 0 /\
  get_class_hash_at d true ex_w RPreConfirmed 10 = Found 9 /\
  get_class_hash_at d true ex_w (RHash 101) 10 = Found 7 /\
  get_class_hash_at d true ex_w (RHash 101) 11 = ContractNotFound /\
  get_nonce d true ex_w (RNumber 3) 10 = BlockNotFound /\
  get_nonce d true ex_w RL1Accepted 10 = BlockNotFound.
Proof. vm_compute. repeat split. Qed.

(* ---- refutations ---- *)
(* A contract that a pending transaction deploys and a later one gives another class is answered
   with ContractNotFound, as if it did not exist, although its class is answered. *)
Definition ex_replaced := [Some (Gdiff [] [(12, 7)] [] [] [] [] []); Some (Gdiff [] [] [] [] [] [(12, 8)] [])].
Theorem C65_replaced_refuted :
  exists w,
    make_pending ex_replaced 3 None = Some w /\
    orderly_run Archive ex_es /\ wf_diffs ex_replaced /\
    let d := db_after Archive ex_es in
    let ls := stored_layers (chain_after Archive ex_es) 2 ++ pending_layers 2 true ex_replaced 3 None in
    possible (stored_layers (chain_after Archive ex_es) 2) (pending_layers 2 true ex_replaced 3 None) /\
    get_class_hash_at d true w RPreConfirmed 12 = Found 8 /\
    expected_nonce ls 12 = Found 0 /\ get_nonce d true w RPreConfirmed 12 = ContractNotFound /\
    expected_storage ls 12 1 = Found 0 /\ get_storage_at d true w RPreConfirmed 12 1 = ContractNotFound.
Proof.
  eexists. split; [reflexivity|]. split; [exact C65_ex_orderly|].
  split.
  { intros d [E|[E|[]]]; injection E as <-; (split; [constructor|]); (split; [constructor|]);
      intros a S; unfold is_system in S;
      destruct (N.eqb_spec a 1), (N.eqb_spec a 2); subst; try discriminate; vm_compute; auto. }
  cbv zeta. split; [|vm_compute; repeat split].
  rewrite C65_ex_chain. cbn [pending_layers ex_replaced flat_map app N.eqb N.add Pos.add Pos.eqb].
  split. { intros a H. apply only_entry in H. subst a. repeat split. }
  split. { intros a H. now elim H. }
  split. { intros a H. now elim H. }
  split; [|exact Coq.Init.Logic.I].
  intros a H _. apply only_entry in H. subst a. vm_compute. discriminate.
Qed.
Print Assumptions C65_replaced_refuted.

(* A slot that only the pre-latest block 3 wrote is reported as last updated in block 4. *)
Theorem C65_last_update_refuted :
  make_pending ex_diffs 4 (Some (3, ex_pre_latest)) = Some ex_w /\
  ly_storage (data_layer (to_data ex_pre_latest)) 11 3 = Some 5 /\
  (forall x, In (Some x) ex_diffs -> ly_storage (diff_layer x) 11 3 = None) /\
  get_storage_at (db_after Archive ex_es) true ex_w RPreConfirmed 11 3 = Found (5, 4).
Proof.
  split; [reflexivity|]. split; [reflexivity|]. split; [|vm_compute; reflexivity].
  intros x [E|[E|[E|[]]]]; try discriminate; injection E as <-; reflexivity.
Qed.
Print Assumptions C65_last_update_refuted.

(* The pending data are matched to the stored chain by number only: when the latest block is
   replaced by another of the same number, the pending state built on the old one is still used. *)
Definition ex_reorg := ex_es ++ [Reorg 1; DownloadedBlock ex1'; DownloadedBlock ex2'].
Theorem C65_other_parent_refuted :
  exists w,
    make_pending [Some (Gdiff [(11, [(3, 6)])] [] [] [] [] [] [])] 3 None = Some w /\
    orderly_run Archive ex_reorg /\
    let d := db_after Archive ex_reorg in
    get_class_hash_at d true w RPreConfirmed 11 = ContractNotFound /\
    get_storage_at d true w RPreConfirmed 11 3 = Found (6, 3).
Proof.
  eexists. split; [reflexivity|]. split; [orderly_tac|]. vm_compute. split; reflexivity.
Qed.
Print Assumptions C65_other_parent_refuted.

(* Migrated classes of pending transactions are lost when their state diffs are merged. *)
Theorem C65_migrated_refuted :
  exists d, g_migrated d <> [] /\ su_migrated (pre_confirmed_update [Some d]) = [].
Proof. exists (Gdiff [] [] [] [] [] [] [(7, 70)]). split; [discriminate|reflexivity]. Qed.
Print Assumptions C65_migrated_refuted.
