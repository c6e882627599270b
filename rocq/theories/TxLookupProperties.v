(* C66: what the RPC answers about a transaction. *)
From Coq Require Import List Arith NArith Bool Lia ZifyBool ZifyNat ZifyN.
From Verif Require Import AList StateUpdateModel ChainModel RpcReadModel TxLookupModel TxLookupSpec TxLookupProof.
Import ListNotations.
Local Open Scope N_scope.

(* The transaction answered for a hash has that hash and is in a pending block that is seen or in a
   stored block; it is not found only if it is in none of them. *)
Theorem C66_by_hash cs b number pl w v09 n h :
  wf_changes cs -> convert b number pl = Converted w -> is_latest (kept_after cs) n ->
  match get_transaction_by_hash (tdb_after cs) v09 w h with
  | Hit t => tx_hash t = h /\
      (pending_tx n v09 b number pl t \/ exists blk r e, stored_in (kept_after cs) blk t r e)
  | Miss => ~ stored_hash (kept_after cs) h /\ forall t, pending_tx n v09 b number pl t -> tx_hash t <> h
  | Broken => False
  end.
Proof.
  intros W C L. destruct (follows_after cs W) as [F _]. destruct (seen _ _ v09 b number pl w n F L C) as (p & G & S).
  unfold get_transaction_by_hash. rewrite G. pose proof (find_transaction_spec v09 b number pl n p S h) as T.
  destruct (find_transaction p h) as [t|]; [tauto|]. pose proof (transaction_spec _ _ h F) as T2.
  destruct (transaction _ h) as [t| |]; [|auto|exact T2]. destruct T2 as [H T2]. auto.
Qed.
Print Assumptions C66_by_hash.

(* The receipt answered for a hash is the receipt of that transaction, with its events and the block
   they are in: a pending one that is seen, or else the stored one, whose hash is given and which is
   accepted on L1 if it is not above the block the L1 pointer is at.  No answer only if the
   transaction has been executed in none of them. *)
Theorem C66_receipt cs b number pl w v09 n h :
  wf_changes cs -> convert b number pl = Converted w -> wf_pre_latest pl -> is_latest (kept_after cs) n ->
  match get_transaction_receipt (tdb_after cs) v09 w h with
  | Hit a =>
      tx_hash (ra_tx a) = h /\
      match ra_finality a with
      | PreConfirmed =>
          rc_hash (ra_receipt a) = h /\ ra_block_hash a = None /\
          pending_executed n v09 b number pl (ra_block a) (ra_tx a) (ra_receipt a) (ra_events a)
      | f =>
          (forall m t r e, pending_executed n v09 b number pl m t r e -> tx_hash t <> h) /\
          exists blk, stored_in (kept_after cs) blk (ra_tx a) (ra_receipt a) (ra_events a) /\
            ra_block a = sb_number blk /\ ra_block_hash a = Some (sb_hash blk) /\
            (f = AcceptedOnL1 <-> exists p, pointer_after cs = Some p /\ sb_number blk <= p)
      end
  | Miss =>
      ~ stored_hash (kept_after cs) h /\
      forall m t r e, pending_executed n v09 b number pl m t r e -> tx_hash t <> h
  | Broken => False
  end.
Proof.
  intros W C WP L. destruct (follows_after cs W) as [F P]. destruct (seen _ _ v09 b number pl w n F L C) as (p & G & S).
  unfold get_transaction_receipt. rewrite G. pose proof (find_finalized_spec v09 b number pl n p S WP h) as T.
  destruct (find_finalized p h) as [[[[m t] r] e]| |]; [cbn; tauto| |exact T].
  pose proof (receipt_spec _ _ h F) as T2.
  destruct (transaction_with_receipt _ h) as [[[[t r] e] m]| |]; [|auto|exact T2].
  destruct T2 as (H & blk & I & <-). rewrite (block_hash_spec _ _ blk F (proj1 I)). cbn [ra_tx ra_finality ra_receipt ra_block_hash ra_block ra_events].
  split; [exact H|]. pose proof (l1_spec _ _ blk F (proj1 I)) as A. rewrite P in A.
  destruct (is_l1_accepted _ _); (split; [exact T|]); exists blk; repeat (split; [first [exact I|reflexivity]|]).
  - split; [intros _; now apply A|reflexivity].
  - split; [discriminate|]. intros X. apply A in X. discriminate.
Qed.
Print Assumptions C66_receipt.

(* The status of a transaction is that of its receipt, except that one that is among the
   candidates of the pre-confirmed block and is not executed in a pending block is a candidate.
   If there is neither, the gateway decides. *)
Theorem C66_status cs b number pl w v09 n h gateway submitted :
  wf_changes cs -> convert b number pl = Converted w -> wf_pre_latest pl -> is_latest (kept_after cs) n ->
  let candidate := exists t, pending_candidate n v09 b number pl t /\ tx_hash t = h in
  let answer := get_transaction_status (tdb_after cs) v09 w h gateway submitted in
  match get_transaction_receipt (tdb_after cs) v09 w h with
  | Hit a =>
      (candidate -> ra_finality a <> PreConfirmed -> answer = Hit Candidate) /\
      (ra_finality a = PreConfirmed \/ ~ candidate -> answer = Hit (Executed (ra_finality a) (rc_status (ra_receipt a))))
  | Miss =>
      (candidate -> answer = Hit Candidate) /\
      (~ candidate ->
       answer = match gateway with
                | None => Broken
                | Some (NotReceived, _) => if submitted then Hit Received else Miss
                | Some (_, true) => if v09 then Miss else Hit Rejected
                | Some (_, false) => Hit Received
                end)
  | Broken => False
  end.
Proof.
  intros W C WP L candidate answer. pose proof (C66_receipt cs b number pl w v09 n h W C WP L) as NB.
  destruct (follows_after cs W) as [F P]. destruct (seen _ _ v09 b number pl w n F L C) as (p & G & S).
  subst answer. unfold get_transaction_receipt, get_transaction_status in *. rewrite G in *.
  assert (CA : existsb (fun t => tx_hash t =? h) (pt_candidates p) = true <-> candidate).
  { rewrite existsb_exists. unfold candidate. split; intros (t & I & H); exists t.
    - apply (candidate_iff v09 b number pl n p S) in I. apply N.eqb_eq in H. auto.
    - apply (candidate_iff v09 b number pl n p S) in I. split; [exact I|]. now apply N.eqb_eq. }
  destruct (find_finalized p h) as [[[[m t] r] e]| |]; [cbn; intuition congruence| |exact NB].
  destruct (existsb _ (pt_candidates p)).
  - assert (candidate) by now apply CA.
    destruct (transaction_with_receipt _ h) as [[[[t r] e] m]| |]; [|split; [reflexivity|contradiction]|exact NB].
    destruct (block_hash_of _ m); [|exact NB]. split; [reflexivity|]. intros [X|X]; [|contradiction].
    cbn in X. destruct (is_l1_accepted _ m); discriminate.
  - assert (~ candidate) by (intros X; apply CA in X; discriminate).
    destruct (transaction_with_receipt _ h) as [[[[t r] e] m]| |]; [|split; [contradiction|reflexivity]|exact NB].
    destruct (block_hash_of _ m); [|exact NB]. split; [contradiction|reflexivity].
Qed.
Print Assumptions C66_status.

(* A transaction with a receipt is found by its hash, and is the same transaction if no two of
   those that are stored or pending share a hash. *)
Theorem C66_receipt_by_hash cs b number pl w v09 n h a :
  wf_changes cs -> convert b number pl = Converted w -> wf_pre_latest pl -> is_latest (kept_after cs) n ->
  let known t := pending_tx n v09 b number pl t \/ exists blk r e, stored_in (kept_after cs) blk t r e in
  (forall t t', known t -> known t' -> tx_hash t = tx_hash t' -> t = t') ->
  get_transaction_receipt (tdb_after cs) v09 w h = Hit a ->
  get_transaction_by_hash (tdb_after cs) v09 w h = Hit (ra_tx a).
Proof.
  intros W C WP L known U R. pose proof (C66_receipt cs b number pl w v09 n h W C WP L) as A. rewrite R in A.
  pose proof (C66_by_hash cs b number pl w v09 n h W C L) as B. destruct A as [HA A].
  assert (K : known (ra_tx a)).
  { destruct (ra_finality a).
    - left. destruct A as (_ & _ & [(S & (I & _) & _)|(x & S & (I & _) & _)]); [left|right]; eauto.
    - right. destruct A as (_ & blk & I & _). eauto.
    - right. destruct A as (_ & blk & I & _). eauto. }
  destruct (get_transaction_by_hash _ v09 w h) as [t| |]; [|exfalso|destruct B].
  - destruct B as [HB B]. f_equal. apply U; [exact B|exact K|congruence].
  - destruct B as [B1 B2]. destruct K as [K|(blk & r & e & K)]; [now apply (B2 _ K)|]. apply B1. exists blk, (ra_tx a), r, e. auto.
Qed.
Print Assumptions C66_receipt_by_hash.

(* Storing the block that follows the latest one, with the transactions of the pre-latest block if
   there is one, loses no receipt: whoever got one before gets one after. *)
Theorem C66_no_gap cs blk b number pl w v09 n h a :
  wf_changes (cs ++ [Store blk]) -> convert b number pl = Converted w -> wf_pre_latest pl ->
  is_latest (kept_after cs) n -> kept_after cs <> [] ->
  allowed (kept_after cs) blk = true -> sb_number blk = n + 1 ->
  match pl with
  | Some (p, x) => p = n + 1 -> forall t, In t (pl_txs x) -> In (tx_hash t) (hashes blk)
  | None => number = n + 1 -> forall t, In t (gw_txs b) -> In (tx_hash t) (hashes blk)
  end ->
  (forall x, pl = Some (n, x) -> forall t, In t (gw_txs b) -> In (tx_hash t) (hashes blk)) ->
  get_transaction_receipt (tdb_after cs) v09 w h = Hit a ->
  exists a', get_transaction_receipt (tdb_after (cs ++ [Store blk])) v09 w h = Hit a'.
Proof.
  intros W C WP L NE AL NB SUB SUB2 R.
  assert (K : kept_after (cs ++ [Store blk]) = kept_after cs ++ [blk]).
  { unfold kept_after. rewrite fold_left_app. cbn [fold_left kept_step]. fold (kept_after cs). now rewrite AL. }
  assert (L' : is_latest (kept_after (cs ++ [Store blk])) (n + 1)).
  { rewrite K. right. split; [exists blk; split; [apply in_app_iff; right; now left|exact NB]|].
    intros c I. apply in_app_iff in I. destruct I as [I|[<-|[]]]; [|lia]. destruct L as [[E _]|[_ M]]; [contradiction|].
    specialize (M c I). lia. }
  assert (W0 : wf_changes cs) by (intros c I; apply W, in_app_iff; auto).
  pose proof (C66_receipt cs b number pl w v09 n h W0 C WP L) as A. rewrite R in A.
  pose proof (C66_receipt _ b number pl w v09 _ h W C WP L') as B.
  destruct (get_transaction_receipt (tdb_after (cs ++ [Store blk])) v09 w h) as [a'| |]; [eauto|exfalso|destruct B].
  destruct B as [B1 B2]. destruct A as [HA A].
  assert (ST : In h (hashes blk) -> False).
  { intros I. apply B1. unfold hashes in I. apply in_map_iff in I. destruct I as ((t & r) & H & I). apply In_nth_error in I.
    destruct I as (i & I). assert (LE : (i < length (sb_events blk))%nat).
    { rewrite (W blk) by (apply in_app_iff; right; now left). apply nth_error_Some. congruence. }
    apply nth_error_Some in LE. destruct (nth_error (sb_events blk) i) as [e|] eqn:E; [|congruence].
    exists blk, t, r, e. split; [|exact H]. split; [rewrite K; apply in_app_iff; right; now left|]. exists i. split; assumption. }
  assert (OLD : forall c, stored_in (kept_after cs) c (ra_tx a) (ra_receipt a) (ra_events a) -> False).
  { intros c [I J]. apply B1. exists c, (ra_tx a), (ra_receipt a), (ra_events a). split; [|exact HA]. split; [|exact J].
    rewrite K. apply in_app_iff. auto. }
  destruct (ra_finality a).
  - destruct A as (HR & _ & [([V S] & X & _)|(x & [V S] & (I & _) & _)]).
    + destruct pl as [[q x]|].
      * destruct S as [->| ->].
        { apply (B2 number (ra_tx a) (ra_receipt a) (ra_events a)); [|exact HA]. left. split; [|auto]. split; [exact V|]. now right. }
        { apply ST. rewrite <- HA. apply (SUB2 x eq_refl). exact (proj1 X). }
      * apply ST. rewrite <- HA. apply (SUB S). exact (proj1 X).
    + subst pl. apply ST. rewrite <- HA. now apply SUB.
  - destruct A as (_ & c & I & _). exact (OLD c I).
  - destruct A as (_ & c & I & _). exact (OLD c I).
Qed.
Print Assumptions C66_no_gap.

(* Transactions by index and their count are those of the block that is named. *)
Theorem C66_by_index cs w v09 id blk i :
  wf_changes cs -> names (kept_after cs) (pointer_after cs) id blk ->
  get_transaction_by_index (tdb_after cs) v09 w id i =
    match nth_error (sb_txs blk) i with Some (t, _) => At t | None => InvalidIndex end /\
  get_transaction_count (tdb_after cs) v09 w id = Some (length (sb_txs blk)).
Proof.
  intros W N. destruct (follows_after cs W) as [F P]. rewrite <- P in N.
  destruct (named_block _ _ id blk F N) as (b & E & BN & X).
  assert (NP : id <> RPreConfirmed) by (intros ->; exact (proj2 N)).
  assert (TA : transaction_at_block (tdb_after cs) b i = option_map fst (nth_error (sb_txs blk) i)).
  { unfold transaction_at_block. rewrite BN. now rewrite (rows_of _ _ blk F (proj1 N)). }
  assert (TC : transaction_count (tdb_after cs) b = length (sb_txs blk)).
  { unfold transaction_count. rewrite BN. now rewrite (rows_of _ _ blk F (proj1 N)). }
  unfold get_transaction_by_index, get_transaction_count. rewrite E, TA, TC, X.
  destruct id; try contradiction; destruct (nth_error (sb_txs blk) i) as [[t r]|]; cbn; auto.
Qed.
Print Assumptions C66_by_index.

Theorem C66_no_block cs w v09 id i :
  wf_changes cs -> id <> RPreConfirmed -> (forall blk, ~ names (kept_after cs) (pointer_after cs) id blk) ->
  get_transaction_by_index (tdb_after cs) v09 w id i = NoBlock /\ get_transaction_count (tdb_after cs) v09 w id = None.
Proof.
  intros W NP U. destruct (follows_after cs W) as [F P]. rewrite <- P in U.
  pose proof (unnamed_block _ _ id F NP U) as X.
  unfold get_transaction_by_index, get_transaction_count. destruct (common_id (tdb_after cs) id) as [b|] eqn:E.
  - destruct X as [X1 X2]. unfold transaction_at_block. rewrite X1, X2. destruct id; try contradiction; auto.
  - destruct id; try contradiction; auto.
Qed.
Print Assumptions C66_no_block.

(* In the pre-confirmed block, those that have been executed are counted, in order. *)
Theorem C66_pre_confirmed cs b number pl w v09 n i :
  wf_changes cs -> convert b number pl = Converted w -> is_latest (kept_after cs) n ->
  exists l,
    (pre_confirmed_seen n v09 number pl ->
       l = filter (fun t => existsb (fun r => match r with Some (r, _) => rc_hash r =? tx_hash t | None => false end) (gw_receipts b)) (gw_txs b)) /\
    (~ pre_confirmed_seen n v09 number pl -> l = []) /\
    get_transaction_by_index (tdb_after cs) v09 w RPreConfirmed i = match nth_error l i with Some t => At t | None => InvalidIndex end /\
    get_transaction_count (tdb_after cs) v09 w RPreConfirmed = Some (length l).
Proof.
  intros W C L. destruct (follows_after cs W) as [F P]. destruct (seen _ _ v09 b number pl w n F L C) as (p & G & S).
  exists (pt_txs p). unfold get_transaction_by_index, get_transaction_count. rewrite G. split; [|split; [|auto]].
  - intros X. destruct S as [[(_ & _ & E & _)|[Y _]] _]; [|contradiction]. rewrite E. unfold confirmed_of. apply filter_ext.
    intros t. unfold has_receipt, receipts_of. induction (gw_receipts b) as [|[[r e]|] l IH]; cbn; [reflexivity| |exact IH]. now rewrite IH.
  - intros X. destruct S as [[(Y & _)|[_ ->]] _]; [contradiction|reflexivity].
Qed.
Print Assumptions C66_pre_confirmed.

(* ---- what does not hold ---- *)

(* A pre-latest block with a transaction without a receipt makes the receipt method panic; and the
   gateway's blocks are not checked for it. *)
Theorem C66_no_receipt_refuted :
  exists cs b number pl w h, wf_changes cs /\ convert b number pl = Converted w /\
    get_transaction_receipt (tdb_after cs) true w h = Broken.
Proof.
  exists [], (GwBlock [] []), 2, (Some (1, PlBlock 0 [Tx 7 0] [])).
  eexists. exists 7. split; [intros ? []|]. split; reflexivity.
Qed.
Print Assumptions C66_no_receipt_refuted.

(* A transaction whose receipt says it is accepted has the status of a candidate as long as it also
   is among the candidates of the pre-confirmed block. *)
Theorem C66_candidate_refuted :
  exists cs b number pl w h a, wf_changes cs /\ convert b number pl = Converted w /\
    get_transaction_receipt (tdb_after cs) true w h = Hit a /\ ra_finality a = AcceptedOnL1 /\
    get_transaction_status (tdb_after cs) true w h None false = Hit Candidate.
Proof.
  exists [Store (SBlock 0 100 [(Tx 7 0, Receipt 7 0 0)] [[]]); Pointer (Some 0)], (GwBlock [Tx 7 0] [None]), 1, None.
  eexists. exists 7. eexists. split; [|split; [reflexivity|]].
  - intros b [E|[E|[]]]; [injection E as <-; reflexivity|discriminate].
  - repeat split; vm_compute; reflexivity.
Qed.
Print Assumptions C66_candidate_refuted.

(* ---- a case: two stored blocks, a pre-latest and a pre-confirmed one ---- *)
Definition ex_cs : list change :=
  [Store (SBlock 0 100 [(Tx 1 0, Receipt 1 0 0)] [[5]]);
   Store (SBlock 1 101 [(Tx 2 0, Receipt 2 0 0); (Tx 3 0, Receipt 3 1 0)] [[]; [6; 7]]); Pointer (Some 0)].
Definition ex_pl : option (N * pl_block) := Some (2, PlBlock 101 [Tx 4 0] [(Receipt 4 0 0, [8])]).
Definition ex_gw : gw_block := GwBlock [Tx 5 0; Tx 6 0] [Some (Receipt 5 0 0, [9]); None].
Definition ex_w : ptx := Ptx 3 [Tx 5 0] [(Receipt 5 0 0, [9])] [Tx 6 0] ex_pl.
Lemma ex_wf : wf_changes ex_cs.
Proof. intros b [E|[E|[E|[]]]]; [injection E as <-; reflexivity|injection E as <-; reflexivity|discriminate]. Qed.
Lemma ex_kept : kept_after ex_cs =
  [SBlock 0 100 [(Tx 1 0, Receipt 1 0 0)] [[5]]; SBlock 1 101 [(Tx 2 0, Receipt 2 0 0); (Tx 3 0, Receipt 3 1 0)] [[]; [6; 7]]].
Proof. vm_compute. reflexivity. Qed.
Example C66_case :
  wf_changes ex_cs /\ convert ex_gw 3 ex_pl = Converted ex_w /\ wf_pre_latest ex_pl /\ is_latest (kept_after ex_cs) 1 /\
  pre_confirmed_seen 1 true 3 ex_pl /\ pre_latest_seen 1 true ex_pl (PlBlock 101 [Tx 4 0] [(Receipt 4 0 0, [8])]) /\
  names (kept_after ex_cs) (pointer_after ex_cs) RL1Accepted (SBlock 0 100 [(Tx 1 0, Receipt 1 0 0)] [[5]]) /\
  allowed (kept_after ex_cs) (SBlock 2 102 [(Tx 4 0, Receipt 4 0 0)] [[8]]) = true /\
  get_transaction_receipt (tdb_after ex_cs) true ex_w 3 = Hit (ReceiptAnswer (Some 101) 1 (Tx 3 0) (Receipt 3 1 0) [6; 7] AcceptedOnL2) /\
  get_transaction_receipt (tdb_after ex_cs) true ex_w 1 = Hit (ReceiptAnswer (Some 100) 0 (Tx 1 0) (Receipt 1 0 0) [5] AcceptedOnL1) /\
  get_transaction_receipt (tdb_after ex_cs) true ex_w 4 = Hit (ReceiptAnswer None 2 (Tx 4 0) (Receipt 4 0 0) [8] PreConfirmed) /\
  get_transaction_receipt (tdb_after ex_cs) true ex_w 5 = Hit (ReceiptAnswer None 3 (Tx 5 0) (Receipt 5 0 0) [9] PreConfirmed) /\
  get_transaction_by_hash (tdb_after ex_cs) true ex_w 6 = Hit (Tx 6 0) /\
  get_transaction_status (tdb_after ex_cs) true ex_w 6 None false = Hit Candidate /\
  get_transaction_by_hash (tdb_after ex_cs) true ex_w 9 = Miss.
Proof.
  split; [exact ex_wf|]. split; [reflexivity|]. split.
  { intros p x t E. injection E as <- <-. intros [<-|[]]. exists (Receipt 4 0 0), [8]. split; [now left|reflexivity]. }
  split. { rewrite ex_kept. right. split; [eexists; split; [right; left; reflexivity|reflexivity]|].
    intros b [<-|[<-|[]]]; cbn; lia. }
  split; [split; [reflexivity|now left]|]. split; [split; reflexivity|].
  split; [split; [rewrite ex_kept; now left|reflexivity]|].
  repeat split; vm_compute; reflexivity.
Qed.
