(** C77: the transactions, receipts and events of a block read back as they were stored, by block
    and by transaction hash, whatever was inserted, updated and removed; blobs written by older
    versions of the node still read as what they say. *)
From Coq Require Import List Bool Arith NArith Lia ZifyBool ZifyNat ZifyN.
From Verif Require Import MerkleModel CommitModel TxHashModel CodecModel BlobModel BlobSpec BlobProof.
Import ListNotations.
Local Open Scope N_scope.

(** Every history leads to one store (in the sense of BlobSpec: a list of blocks with what was
    stored of them), ... *)
Theorem C77_defined os : exists s, reached os s.
Proof.
  induction os as [|o os [s R]] using rev_ind; [exists []; constructor|].
  destruct (step_exists c_felt (Zstd (fun bs => bs) (fun _ => Some))
              (Zstd (fun bs => bs) (fun _ => Some)) s o) as [s' S]. exists s'. econstructor; eassumption.
Qed.
Print Assumptions C77_defined.

Section Properties.
(** an Ethereum address in a blob of the first version is written by the ethereum-types crate, and
    the blobs are compressed by zstd: what they wrote they read back *)
Variable c_eth : codec felt.
Hypothesis eth_reads : forall x rest, is_eth x -> dec c_eth (enc c_eth x ++ rest) = Some (x, rest).
Variables zt ze : zstd.
Hypothesis zt_reads : faithful zt.
Hypothesis ze_reads : faithful ze.

(** ... in which a block is refused exactly if its number or one of its transactions is there
    already, or it has a transaction twice. *)
Theorem C77_refused os s n txs es :
  reached os s -> nothing (txs, es) = false ->
  (insert_transaction_data c_eth zt ze (run c_eth zt ze os) n txs es = None <->
   ~ addable s n (txs, es)).
Proof.
  intros R E. rewrite (reached_image c_eth zt ze os s R).
  pose proof (insert_image c_eth zt ze s n (txs, es) E) as I. cbn [fst snd] in I.
  destruct (insert_transaction_data c_eth zt ze (image c_eth zt ze s) n txs es).
  - destruct I as [A _]. split; [discriminate|contradiction].
  - split; auto.
Qed.

(** The transactions and receipts of a stored block are given as stored, and the hashes of its
    transactions in their order. *)
Theorem C77_transactions os s n txs es :
  Forall (within c_eth) os -> reached os s -> In (n, (txs, es)) s ->
  transactions_with_receipts_for_block c_eth zt (run c_eth zt ze os) n = Some txs /\
  transaction_hashes_for_block (run c_eth zt ze os) n = map (fun x => s_hash (fst x)) txs.
Proof.
  intros W R I. rewrite (reached_image c_eth zt ze os s R).
  pose proof (reached_inv c_eth os s W R) as V. split.
  - exact (query_txs c_eth eth_reads zt ze zt_reads s n _ V I).
  - exact (query_hashes c_eth zt ze s n _ V I).
Qed.

(** So are its events, if they are stored and there is a list of them for each transaction. *)
Theorem C77_events os s n txs es :
  Forall (within c_eth) os -> reached os s -> In (n, (txs, Some es)) s ->
  length es = length txs ->
  transaction_data_for_block c_eth zt ze (run c_eth zt ze os) n = Some (combine txs es) /\
  events_for_block ze (run c_eth zt ze os) n = Some (combine (numbered (txs, Some es)) es).
Proof.
  intros W R I L. rewrite (reached_image c_eth zt ze os s R).
  pose proof (reached_inv c_eth os s W R) as V. split.
  - exact (query_data c_eth eth_reads zt ze zt_reads ze_reads s n _ es V I eq_refl).
  - exact (query_events_for c_eth zt ze ze_reads s n _ es V I eq_refl L).
Qed.

(** Nothing is given of a block that is not stored. *)
Theorem C77_absent os s n :
  reached os s -> ~ In n (map fst s) ->
  transactions_with_receipts_for_block c_eth zt (run c_eth zt ze os) n = Some [] /\
  transaction_hashes_for_block (run c_eth zt ze os) n = [] /\
  transaction_data_for_block c_eth zt ze (run c_eth zt ze os) n = Some [] /\
  events_for_block ze (run c_eth zt ze os) n = Some [].
Proof.
  intros R A. rewrite (reached_image c_eth zt ze os s R).
  destruct (absent c_eth zt ze s n A) as [F Q].
  unfold transactions_with_receipts_for_block, query_transactions_by_block,
    transaction_hashes_for_block, transaction_data_for_block,
    query_transactions_and_events_by_block, events_for_block, query_events_by_block.
  rewrite F, Q. auto.
Qed.

(** A transaction is found by its hash, with its receipt, its events and its block ... *)
Theorem C77_by_hash os s n txs es i t r :
  Forall (within c_eth) os -> reached os s -> In (n, (txs, es)) s ->
  nth_error txs i = Some (t, r) ->
  transaction c_eth zt (run c_eth zt ze os) (s_hash t) = Some (Some t) /\
  (forall es' e, es = Some es' -> nth_error es' i = Some e ->
     transaction_with_receipt c_eth zt ze (run c_eth zt ze os) (s_hash t) =
       Some (Some (t, r, e, n))).
Proof.
  intros W R I E. rewrite (reached_image c_eth zt ze os s R).
  pose proof (reached_inv c_eth os s W R) as V. split.
  - exact (query_transaction c_eth eth_reads zt ze zt_reads s n _ i t r V I E).
  - intros es' e -> X.
    exact (query_receipt c_eth eth_reads zt ze zt_reads ze_reads s n _ es' i t r e V I eq_refl E X).
Qed.

(** ... and by no other. *)
Theorem C77_unknown os s h :
  reached os s -> (forall n b x, In (n, b) s -> In x (fst b) -> s_hash (fst x) <> h) ->
  transaction c_eth zt (run c_eth zt ze os) h = Some None /\
  transaction_with_receipt c_eth zt ze (run c_eth zt ze os) h = Some None.
Proof.
  intros R A. rewrite (reached_image c_eth zt ze os s R). apply query_unknown.
  intros I. unfold all_hashes, tx_hashes in I. apply in_flat_map in I.
  destruct I as ([n b] & J & K). cbn in K. apply in_map_iff in K. destruct K as (x & E & K).
  exact (A n b x J K E).
Qed.

(** A blob of any of the five versions, made of values of their types, reads as what it says
    (but for the total gas of the third version, see below). *)
Theorem C77_old_blobs_partial d n b events :
  is_blob b -> len (enc (c_blob c_eth) b) <= 2 ^ 27 ->
  find_row n (rows d) = Some (compress zt (enc (c_blob c_eth) b), events) ->
  exists txs,
    transactions_with_receipts_for_block c_eth zt d n = Some txs /\ says_blob b txs.
Proof. exact (query_blob c_eth eth_reads zt zt_reads d n b events). Qed.

(** A block whose events are not stored yet: its transactions can be read (as above), but asked for
    its data the node says that it has none, and asked for a receipt it fails. *)
Theorem C77_no_events os s n txs :
  Forall (within c_eth) os -> reached os s -> In (n, (txs, None)) s ->
  transaction_data_for_block c_eth zt ze (run c_eth zt ze os) n = Some [] /\
  (txs <> [] -> events_for_block ze (run c_eth zt ze os) n = None) /\
  (forall x, In x txs ->
     transaction_with_receipt c_eth zt ze (run c_eth zt ze os) (s_hash (fst x)) = None).
Proof.
  intros W R I. rewrite (reached_image c_eth zt ze os s R).
  pose proof (reached_inv c_eth os s W R) as V. repeat split.
  - exact (query_data_pending c_eth eth_reads zt ze zt_reads s n _ V I eq_refl).
  - intros NE. unfold events_for_block, query_events_by_block.
    rewrite (find_row_image c_eth zt ze s n _ V I). unfold row_of. cbn [snd option_map].
    rewrite (query_infos c_eth zt ze s n _ V I), numbered_length.
    destruct txs; [contradiction|reflexivity].
  - intros [t r] J. apply In_nth_error in J. destruct J as [i J].
    exact (query_receipt_pending c_eth eth_reads zt ze zt_reads s n _ i t r V I eq_refl J).
Qed.

(** A block whose encoding is more than 128 MiB is stored like any other and cannot be read. *)
Theorem C77_too_large os s n txs es :
  reached os s -> In (n, (txs, es)) s -> 2 ^ 27 < len (txs_blob c_eth txs) ->
  transactions_with_receipts_for_block c_eth zt (run c_eth zt ze os) n = None.
Proof.
  intros R I L. rewrite (reached_image c_eth zt ze os s R).
  exact (query_too_large c_eth zt ze zt_reads s n _ (reached_nodup os s R) I L).
Qed.
End Properties.
Print Assumptions C77_refused.
Print Assumptions C77_transactions.
Print Assumptions C77_events.
Print Assumptions C77_absent.
Print Assumptions C77_by_hash.
Print Assumptions C77_unknown.
Print Assumptions C77_old_blobs_partial.
Print Assumptions C77_no_events.
Print Assumptions C77_too_large.

(** a zstd and a codec of addresses that are as the hypotheses say *)
Definition demo_zstd : zstd :=
  Zstd (fun bs => bs) (fun limit bs => if len bs <=? limit then Some bs else None).
Lemma demo_zstd_faithful : faithful demo_zstd.
Proof. intros limit bs. reflexivity. Qed.
Lemma demo_eth_reads x rest : is_eth x -> dec c_felt (enc c_felt x ++ rest) = Some (x, rest).
Proof.
  intros H. apply good_felt. unfold is_eth, is_felt in *. eapply N.lt_trans; [exact H|].
  reflexivity.
Qed.

(** two transactions, one of them reverted; both with their receipts *)
Definition demo_resources (g : l1_gas) : resources :=
  Resources (Builtins 0 7 300 0 0 0 0 0 1 0 0 2) 1000 3 (L1Gas 0 128) g 77.
Definition demo_invoke (h calldata : N) : stx :=
  Stx h (VInvokeV3 (InvokeTx3 [11; 12] 5 DaL1 DaL2
    (Bounds (Bound 100 3) (Bound 0 0) (Some (Bound 64 1))) 9 [] [] [calldata; 0] 4660 [8])).
Definition demo_rcpt (h i : N) (st : status) : rcpt :=
  Rcpt 4242 (demo_resources (L1Gas 10 20)) [Message 4660 [1; 2] 99] st h i.
Definition demo_txs : list (stx * rcpt) :=
  [(demo_invoke 501 1, demo_rcpt 501 0 Succeeded);
   (demo_invoke 502 70000, demo_rcpt 502 1 (Reverted [111; 111; 103]))].
Definition demo_events : list (list event) := [[Event [3; 4] 4660 [300]]; []].
Definition demo_os : list op :=
  [Insert 7 (demo_txs, None); Insert 7 (demo_txs, None); Insert 8 ([], None);
   Insert 9 ([(demo_invoke 503 0, demo_rcpt 503 0 Succeeded)], Some [[]]);
   Update 7 demo_events; Remove 9].
Definition demo_run := run c_felt demo_zstd demo_zstd demo_os.

Lemma demo_within : Forall (within c_felt) demo_os.
Proof.
  repeat constructor; vm_compute; try discriminate; auto.
Qed.
Lemma demo_reached : reached demo_os [(7, (demo_txs, Some demo_events))].
Proof.
  pose (b := (demo_txs, None : option (list (list event)))).
  pose (c := ([(demo_invoke 503 0, demo_rcpt 503 0 Succeeded)], Some [[] : list event])).
  change demo_os with
    (((((([] ++ [Insert 7 b]) ++ [Insert 7 b]) ++ [Insert 8 ([], None)]) ++ [Insert 9 c])
        ++ [Update 7 demo_events]) ++ [Remove 9]).
  eapply reached_step; [|apply (remove_one [(7, (demo_txs, Some demo_events)); (9, c)] 9)].
  eapply reached_step; [|apply (update_events_of [(7, b); (9, c)] 7 demo_events)].
  change [(7, b); (9, c)] with (([] ++ [(7, b)]) ++ [(9, c)]).
  eapply reached_step; [|apply insert_new; [reflexivity|]].
  eapply reached_step; [|apply insert_nothing; reflexivity].
  eapply reached_step; [|apply insert_refused; [reflexivity|]].
  eapply reached_step; [constructor|apply insert_new; [reflexivity|]].
  - repeat split; cbn; [tauto| |tauto]. repeat constructor; cbn; intuition discriminate.
  - intros (A & _). apply A. left. reflexivity.
  - repeat split; cbn; [intuition discriminate|repeat constructor; tauto|].
    intros h [<-|[]]. intuition discriminate.
Qed.
Example C77_example :
  transaction_data_for_block c_felt demo_zstd demo_zstd demo_run 7 =
    Some [((demo_invoke 501 1, demo_rcpt 501 0 Succeeded), [Event [3; 4] 4660 [300]]);
          ((demo_invoke 502 70000, demo_rcpt 502 1 (Reverted [111; 111; 103])), [])] /\
  transaction c_felt demo_zstd demo_run 502 = Some (Some (demo_invoke 502 70000)) /\
  transaction c_felt demo_zstd demo_run 503 = Some None.
Proof.
  split; [|split].
  - apply (C77_events c_felt demo_eth_reads demo_zstd demo_zstd demo_zstd_faithful
             demo_zstd_faithful demo_os _ 7 demo_txs demo_events demo_within demo_reached);
      [left; reflexivity|reflexivity].
  - apply (C77_by_hash c_felt demo_eth_reads demo_zstd demo_zstd demo_zstd_faithful
             demo_zstd_faithful demo_os _ 7 demo_txs (Some demo_events) 1
             (demo_invoke 502 70000)
             (demo_rcpt 502 1 (Reverted [111; 111; 103])) demo_within demo_reached);
      [left; reflexivity|reflexivity].
  - apply (C77_unknown c_felt demo_zstd demo_zstd demo_os _ 503 demo_reached).
    intros n b x [E|[]] I. injection E as <- <-. cbn in I.
    destruct I as [<-|[<-|[]]]; discriminate.
Qed.

(** a blob of the third version, with a deployment *)
Definition demo_blob (total : s_l1_gas) : block_blob :=
  BlobV2 [((601, V1DeployV1 (SDeploy 31 32 33 [34; 35])),
           SReceipt 0 (Some (SResources1 (Builtins 0 1 2 0 0 0 0 0 0 0 0 0) 55 6
                                         (SL1Gas (Some 3) (Some 4)) total))
                    [SMessage 31 [9] 1000] 601 0 Succeeded)].
Definition demo_old (total : s_l1_gas) : db :=
  Db [(4, (compress demo_zstd (enc (c_blob c_felt) (demo_blob total)), None))] [(601, (4, 0))].
Lemma demo_is_blob a b : is_u128 a -> is_u128 b -> is_blob (demo_blob (SL1Gas (Some a) (Some b))).
Proof.
  intros A B. split; [reflexivity|]. constructor; [|constructor].
  split; [reflexivity|]. split.
  - exists (VDeployV1 (DeployTx 33 31 32 [34; 35])). split; [repeat constructor|].
    repeat split; try reflexivity. repeat constructor; reflexivity.
  - repeat split; try reflexivity; cbn; try assumption; repeat constructor.
Qed.

(** The total gas in a blob of the third version is lost: the node wrote it (10 and 20 here, next to
    the gas for data availability) and reads zero. *)
Theorem C77_total_gas_refuted :
  exists d b x r,
    is_blob b /\ b = BlobV2 [x] /\
    option_map sx1_total (sr_resources (snd x)) = Some (SL1Gas (Some 10) (Some 20)) /\
    find_row 4 (rows d) = Some (compress demo_zstd (enc (c_blob c_felt) b), None) /\
    option_map (map snd) (transactions_with_receipts_for_block c_felt demo_zstd d 4) = Some [r] /\
    x_total_gas (r_resources r) = L1Gas 0 0 /\ x_data_availability (r_resources r) = L1Gas 3 4.
Proof.
  exists (demo_old (SL1Gas (Some 10) (Some 20))), (demo_blob (SL1Gas (Some 10) (Some 20))).
  eexists. eexists. split; [apply demo_is_blob; reflexivity|].
  split; [reflexivity|]. split; [reflexivity|]. split; [reflexivity|].
  split; [vm_compute; reflexivity|]. split; reflexivity.
Qed.
Print Assumptions C77_total_gas_refuted.

(** A block with transactions is stored, and its data reads as that of an empty block. *)
Theorem C77_no_events_refuted :
  exists os s n txs, Forall (within c_felt) os /\ reached os s /\ In (n, (txs, None)) s /\
    txs <> [] /\
    transaction_data_for_block c_felt demo_zstd demo_zstd (run c_felt demo_zstd demo_zstd os) n =
      Some [] /\
    (forall x, In x txs ->
       transaction_with_receipt c_felt demo_zstd demo_zstd (run c_felt demo_zstd demo_zstd os)
         (s_hash (fst x)) = None).
Proof.
  exists [Insert 7 (demo_txs, None)], [(7, (demo_txs, None))], 7, demo_txs.
  assert (W : Forall (within c_felt) [Insert 7 (demo_txs, None)]).
  { constructor; [|constructor]. pose proof demo_within as D. inversion D; subst. assumption. }
  assert (R : reached [Insert 7 (demo_txs, None)] [(7, (demo_txs, None))]).
  { apply (reached_step [] _ [] _); [constructor|]. apply (insert_new [] 7); [reflexivity|].
    repeat split; cbn; [tauto| |tauto]. repeat constructor; cbn; intuition discriminate. }
  destruct (C77_no_events c_felt demo_eth_reads demo_zstd demo_zstd demo_zstd_faithful _ _ 7
              demo_txs W R (or_introl eq_refl)) as (A & _ & B).
  repeat split; auto; [left; reflexivity|discriminate].
Qed.
Print Assumptions C77_no_events_refuted.

(** A block with a transaction that was reverted for a reason of 2^27 bytes. *)
Theorem C77_too_large_refuted :
  exists os s n txs, reached os s /\ In (n, (txs, Some [[]])) s /\ is_list is_tx txs /\
    transactions_with_receipts_for_block c_felt demo_zstd (run c_felt demo_zstd demo_zstd os) n =
      None.
Proof.
  pose (size := N.to_nat (2 ^ 27 + 1)).
  assert (SZ : N.of_nat size = 2 ^ 27 + 1) by (unfold size; apply Nnat.N2Nat.id).
  clearbody size.
  set (txs := [(demo_invoke 501 1, demo_rcpt 501 0 (Reverted (repeat 0 size)))]).
  exists [Insert 7 (txs, Some [[]])], [(7, (txs, Some [[]]))], 7, txs.
  assert (R : reached [Insert 7 (txs, Some [[]])] [(7, (txs, Some [[]]))]).
  { apply (reached_step [] _ [] _); [constructor|]. apply (insert_new [] 7); [reflexivity|].
    repeat split; cbn; [tauto| |tauto]. repeat constructor; cbn; tauto. }
  split; [exact R|]. split; [left; reflexivity|]. split.
  - split; [reflexivity|]. constructor; [|constructor]. pose proof demo_within as D.
    inversion D as [|? ? W _]; subst. destruct W as ((_ & W) & _).
    inversion W as [|? ? (W1 & W2 & W3 & W4 & W5 & W6 & W7 & W8) _]; subst.
    split; [exact W1|]. split; [exact W2|]. split; [exact W3|]. split; [exact W4|].
    split; [exact W5|]. split; [|split; [exact W7|exact W8]].
    split; [unfold len; rewrite repeat_length, SZ; reflexivity|].
    apply Forall_forall. intros x I. apply repeat_spec in I. subst x. reflexivity.
  - apply (C77_too_large c_felt demo_zstd demo_zstd demo_zstd_faithful _ _ 7 txs (Some [[]]) R
             (or_introl eq_refl)).
    eapply N.lt_le_trans; [|apply reason_in_blob; reflexivity].
    unfold len. rewrite repeat_length, SZ. reflexivity.
Qed.
Print Assumptions C77_too_large_refuted.
