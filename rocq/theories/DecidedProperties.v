From Coq Require Import List NArith Bool Lia ZifyBool ZifyN ZifyNat.
From Verif Require Import AList StateUpdateModel ChainModel ChainSpec ChainProof ChainProperties DecidedModel DecidedSpec DecidedProof.
Import ListNotations.
Local Open Scope N_scope.

(* In all statements: the chain is c ++ l, its blocks c are in the database, those from lo on are decided and
   held in memory; lo <= clen c, so that every block is in one of the two or in both. The execution is on top
   of block n, a decided one or one the database has. *)

(* ---- C85_storage: storage is read as of block n. ---- *)
Theorem C85_storage : forall m es l lo n a k, orderly_run m es ->
  let c := chain_after m es in lo <= clen c -> wf_from (c ++ l) lo -> n < clen (c ++ l) ->
  kept (db_after m es) n \/ clen c <= n ->
  storage_value (db_after m es) (blocks_from (c ++ l) lo) (Number n) a k = storage_at (c ++ l) n a k.
Proof.
  intros m es l lo n a k O c LO WF L H. destruct (db_answers m es n O H) as (A & _). unfold storage_value, decided_storage, storage_at.
  apply overlay; [exact L|exact LO| |apply A]. intros i b I B. cbn [snd]. apply block_storage. apply (WF i b); [lia|exact B].
Qed.
Print Assumptions C85_storage.

(* ---- C85_nonce_partial, C85_class_hash_partial: so are the nonce and the class of a contract, if none of the
   blocks up to n that are only decided sets it or the last of them that changes the contract in any way does. Missing: the
   other cases, for which it is false: C85_stale, C85_nonce_refuted, C85_class_hash_refuted. ---- *)
Theorem C85_nonce_partial : forall m es l lo n a, orderly_run m es ->
  let c := chain_after m es in lo <= clen c -> n < clen (c ++ l) -> kept (db_after m es) n \/ clen c <= n ->
  none_or_last writes_nonce (c ++ l) (clen c) n a ->
  contract_nonce (db_after m es) (blocks_from (c ++ l) lo) a (Number n) = nonce_at (c ++ l) n a.
Proof.
  intros m es l lo n a O c LO L H Q. destruct (db_answers m es n O H) as (_ & A & _). unfold contract_nonce. rewrite A.
  exact (newest_right cu_nonce c l lo n a L LO Q).
Qed.
Print Assumptions C85_nonce_partial.
Theorem C85_class_hash_partial : forall m es l lo n a, orderly_run m es ->
  let c := chain_after m es in lo <= clen c -> n < clen (c ++ l) -> kept (db_after m es) n \/ clen c <= n ->
  none_or_last writes_class (c ++ l) (clen c) n a ->
  contract_class_hash (db_after m es) (blocks_from (c ++ l) lo) (Number n) a = class_at (c ++ l) n a.
Proof.
  intros m es l lo n a O c LO L H Q. destruct (db_answers m es n O H) as (_ & _ & A & _). unfold contract_class_hash. rewrite A.
  exact (newest_right (fun u => option_map class_hash (cu_class u)) c l lo n a L LO Q).
Qed.
Print Assumptions C85_class_hash_partial.

(* ---- C85_stale: in all other cases they are read as if no block had been decided. ---- *)
Theorem C85_stale : forall m es l lo n a, orderly_run m es ->
  let c := chain_after m es in lo <= clen c -> kept (db_after m es) n \/ clen c <= n ->
  (~ none_or_last writes_nonce (c ++ l) (clen c) n a ->
   contract_nonce (db_after m es) (blocks_from (c ++ l) lo) a (Number n) = nonce_at c n a) /\
  (~ none_or_last writes_class (c ++ l) (clen c) n a ->
   contract_class_hash (db_after m es) (blocks_from (c ++ l) lo) (Number n) a = class_at c n a).
Proof.
  intros m es l lo n a O c LO H. destruct (db_answers m es n O H) as (_ & A & B & _). split; intros Q.
  - unfold contract_nonce. rewrite A. exact (newest_stale cu_nonce (c ++ l) lo (clen c) n a _ LO Q).
  - unfold contract_class_hash. rewrite B. exact (newest_stale (fun u => option_map class_hash (cu_class u)) (c ++ l) lo (clen c) n a _ LO Q).
Qed.
Print Assumptions C85_stale.

(* ---- C85_one_ahead: so they are always right on top of the first block that is not stored yet. ---- *)
Theorem C85_one_ahead : forall m es l lo n a, orderly_run m es ->
  let c := chain_after m es in lo <= clen c -> n < clen (c ++ l) -> kept (db_after m es) n \/ n = clen c ->
  contract_nonce (db_after m es) (blocks_from (c ++ l) lo) a (Number n) = nonce_at (c ++ l) n a /\
  contract_class_hash (db_after m es) (blocks_from (c ++ l) lo) (Number n) a = class_at (c ++ l) n a.
Proof.
  intros m es l lo n a O c LO L H. assert (X : kept (db_after m es) n \/ clen c <= n) by (destruct H; [auto|right; lia]).
  assert (Y : n <= clen c) by (destruct H as [K|H]; [|lia]; pose proof (ExecClassProof.kept_lt m es n O K) as Z; fold c in Z; lia). split.
  - apply C85_nonce_partial; auto. apply (one_none_or_last cu_nonce). exact Y.
  - apply C85_class_hash_partial; auto. apply (one_none_or_last (fun u => option_map class_hash (cu_class u))). exact Y.
Qed.
Print Assumptions C85_one_ahead.

(* block 0 is in the database, blocks 1 to 3 are decided *)
Definition stored0 : list sync_event := [ClassDefinition 7; DownloadedBlock ex0].
Definition full : chain := [ex0; ex1; ex2; ex3].
Lemma stored0_orderly : orderly_run Archive stored0. Proof. orderly_tac. Qed.
Lemma full_wf : wf_from full 1.
Proof.
  intros i b L B. assert (X : N.to_nat i = 1%nat \/ N.to_nat i = 2%nat \/ N.to_nat i = 3%nat).
  { pose proof (block_at_lt _ _ _ B) as U. change (clen full) with 4 in U. lia. }
  unfold block_at in B. destruct X as [X|[X|X]]; rewrite X in B; injection B as <-; [exact wf1|exact wf2|exact wf3].
Qed.
Example C85_example :
  orderly_run Archive stored0 /\ chain_after Archive stored0 = [ex0] /\ wf_from full 1 /\
  n_decided (acts [Decide 1 ex1; Decide 3 ex3; Decide 2 ex2]) = blocks_from full 1 /\
  let d := db_after Archive stored0 in let ds := blocks_from full 1 in
  map (fun n => storage_value d ds (Number n) 10 1) [0; 1; 2] = [Some 5; Some 6; Some 6] /\
  storage_value d ds (Number 3) 11 3 = Some 5 /\ storage_value d ds (Number 3) 1 0 = Some 100 /\
  contract_nonce d ds 10 (Number 1) = Some 1 /\ contract_class_hash d ds (Number 2) 11 = Some 7 /\
  class_definition_at d ds (Number 2) 8 = Some 1 /\ class_definition_at d ds (Number 2) 7 = Some 0.
Proof. split; [exact stored0_orderly|]. split; [reflexivity|]. split; [exact full_wf|]. vm_compute. repeat split. Qed.
Example C85_partial_example : none_or_last writes_nonce full 1 1 10 /\ none_or_last writes_class full 1 2 11 /\
  ~ none_or_last writes_nonce full 1 2 10.
Proof.
  split; [|split].
  - right. exists 1, ex1. split; [lia|]. split; [reflexivity|]. split; [discriminate|]. intros j b' J. lia.
  - right. exists 2, ex2. split; [lia|]. split; [reflexivity|]. split; [discriminate|]. intros j b' J. lia.
  - intros [H|(i & b & I & B & W & Q)].
    + specialize (H 1 ex1 ltac:(lia) eq_refl). discriminate.
    + assert (X : i = 1 \/ i = 2) by lia. destruct X as [-> | ->].
      * apply (Q 2 ex2); [lia|reflexivity|]. discriminate.
      * injection B as <-. apply W. reflexivity.
Qed.

(* ---- C85_nonce_refuted: the nonce is not always the one as of block n: a decided block sets it, a later one
   changes something else of the contract, and the one read is from before both. ---- *)
Theorem C85_nonce_refuted : exists m es l lo n a, orderly_run m es /\
  let c := chain_after m es in lo <= clen c /\ wf_from (c ++ l) lo /\ n < clen (c ++ l) /\ clen c <= n /\
  nonce_at (c ++ l) n a = Some 1 /\ contract_nonce (db_after m es) (blocks_from (c ++ l) lo) a (Number n) = Some 0.
Proof.
  exists Archive, stored0, [ex1; ex2; ex3], 1, 2, 10. split; [exact stored0_orderly|]. change (chain_after Archive stored0 ++ [ex1; ex2; ex3]) with full.
  cbv zeta. split; [vm_compute; discriminate|]. split; [exact full_wf|]. vm_compute. repeat split; discriminate.
Qed.
Print Assumptions C85_nonce_refuted.
(* ---- C85_class_hash_refuted: a contract that a decided block deploys and a later one writes to is read as not deployed. ---- *)
Theorem C85_class_hash_refuted : exists m es l lo n a, orderly_run m es /\
  let c := chain_after m es in lo <= clen c /\ wf_from (c ++ l) lo /\ n < clen (c ++ l) /\ clen c <= n /\
  class_at (c ++ l) n a = Some 7 /\ contract_class_hash (db_after m es) (blocks_from (c ++ l) lo) (Number n) a = None.
Proof.
  exists Archive, stored0, [ex1; ex2; ex3], 1, 3, 11. split; [exact stored0_orderly|]. change (chain_after Archive stored0 ++ [ex1; ex2; ex3]) with full.
  cbv zeta. split; [vm_compute; discriminate|]. split; [exact full_wf|]. vm_compute. repeat split; discriminate.
Qed.
Print Assumptions C85_class_hash_refuted.

(* ---- C85_classes: a class is found exactly if a stored block up to n declares it or a decided one up to n
   does explicitly, and the block it is said to be from is such a block. ---- *)
Theorem C85_classes : forall m es l lo n x, orderly_run m es ->
  let c := chain_after m es in lo <= clen c -> kept (db_after m es) n \/ clen c <= n ->
  let found := class_definition_at (db_after m es) (blocks_from (c ++ l) lo) (Number n) x in
  let from := fun i => i <= n /\ ((exists b, block_at c i = Some b /\ declares b x) \/
                        exists b, lo <= i /\ block_at (c ++ l) i = Some b /\ In x (map fst (sd_sierra (lb_data b)))) in
  (forall i, found = Some i -> from i) /\ (forall i, from i -> found <> None).
Proof.
  intros m es l lo n x O c LO H found from. destruct (db_answers m es n O H) as (_ & _ & _ & A). fold c in A. unfold found, class_definition_at.
  destruct (decided_class_at _ (Number n) x) as [j|] eqn:E; cbn [or_else].
  - split; [|discriminate]. intros i [= <-]. apply decided_class_some in E. destruct E as (b & I & B & J). split; [lia|]. right. exists b. split; [lia|auto].
  - split.
    + intros i F. apply A in F. destruct F as [F1 [(b & B & D) _]]. split; [exact F1|]. left. eauto.
    + intros i (I & [(b & B & D)|(b & LB & B & D)]).
      * destruct (first_declared_ex c x) as [(k & K)|N']; [|destruct (N' i b B D)]. intros F.
        assert (X : lookup_declared_at (db_after m es) (Number n) x = Some k); [|congruence]. apply A. split; [|exact K].
        destruct (N.le_gt_cases k i) as [Y|Y]; [lia|]. destruct (proj2 K i b Y B D).
      * destruct (decided_class_none _ _ _ _ E i b (conj LB I) B D).
Qed.
Print Assumptions C85_classes.

(* ---- C85_snapshot_refuted: an execution keeps the database as of its first read, but looks at the decided
   blocks of the moment. If the block below is committed and forgotten meanwhile, it is seen in neither: the
   same read on top of the same block first gives the value as of it, later the one before it. ---- *)
Theorem C85_snapshot_refuted : exists m xs ys n a k v v',
  let before := acts xs in let after := acts (xs ++ ys) in
  orderly_run m (n_events after) /\ kept (db_after m (n_events after)) n /\
  storage_at (chain_after m (n_events after)) n a k = Some v /\ v <> v' /\
  storage_value (db_after m (n_events before)) (n_decided before) (Number n) a k = Some v /\
  storage_value (db_after m (n_events before)) (n_decided after) (Number n) a k = Some v'.
Proof.
  exists Archive, [Synced (ClassDefinition 7); Synced (DownloadedBlock ex0); Decide 1 ex1],
    [Synced (ClassDefinition 8); Synced (FinalizedConsensusBlock ex1); Remove 1], 1, 10, 1, 6, 5. cbv zeta. split.
  - change (n_events _) with [ClassDefinition 7; DownloadedBlock ex0; ClassDefinition 8; FinalizedConsensusBlock ex1]. orderly_tac.
  - vm_compute. repeat split; discriminate.
Qed.
Print Assumptions C85_snapshot_refuted.

(* ---- C85_steady: if proposals are executed on top of the last known block, what is committed is what was
   decided, and committed blocks are forgotten oldest first, then every block is always in the database or
   among the decided ones, and an execution that begins at any time reads the storage as of the block it is on
   top of, and on top of the first that is not stored also nonces and class hashes. ---- *)
Theorem C85_steady : forall m xs f, disciplined m xs f -> orderly_run m (n_events (acts xs)) ->
  let c := chain_after m (n_events (acts xs)) in let d := db_after m (n_events (acts xs)) in
  (exists l, f = c ++ l) /\
  (forall i b, block_at f i = Some b -> i < clen c \/ In (i, b) (n_decided (acts xs))) /\
  (forall n a k, n < clen f -> kept d n \/ clen c <= n ->
     storage_value d (n_decided (acts xs)) (Number n) a k = storage_at f n a k) /\
  (forall n a, n < clen f -> kept d n \/ n = clen c ->
     contract_nonce d (n_decided (acts xs)) a (Number n) = nonce_at f n a /\
     contract_class_hash d (n_decided (acts xs)) (Number n) a = class_at f n a).
Proof.
  intros m xs f D O c d. destruct (disciplined_keeps m xs f D O) as (WF & l & lo & EF & LO & ED). fold c in EF, LO. split; [eauto|]. split; [|split].
  - intros i b B. destruct (N.lt_ge_cases i (clen c)) as [X|X]; [auto|]. right. rewrite ED. apply blocks_from_in. split; [lia|exact B].
  - intros n a k L H. rewrite ED, EF. rewrite EF in L, WF. apply (C85_storage m _ l lo n a k O LO); [|exact L|exact H].
    intros i b _ B. apply (WF i b); [lia|exact B].
  - intros n a L H. rewrite ED, EF. rewrite EF in L. apply (C85_one_ahead m _ l lo n a O LO L H).
Qed.
Print Assumptions C85_steady.
Definition steps : list step_ :=
  [Synced (ClassDefinition 7); Synced (DownloadedBlock ex0); Decide 1 ex1; Decide 2 ex2; Synced (ClassDefinition 8);
   Synced (FinalizedConsensusBlock ex1); Remove 1].
Example C85_steady_example : disciplined Archive steps [ex0; ex1; ex2] /\ orderly_run Archive (n_events (acts steps)) /\
  chain_after Archive (n_events (acts steps)) = [ex0; ex1] /\ n_decided (acts steps) = [(2, ex2)] /\
  storage_value (db_after Archive (n_events (acts steps))) (n_decided (acts steps)) (Number 2) 10 1 = Some 6 /\
  contract_nonce (db_after Archive (n_events (acts steps))) (n_decided (acts steps)) 10 (Number 2) = Some 1 /\
  contract_class_hash (db_after Archive (n_events (acts steps))) (n_decided (acts steps)) (Number 2) 10 = Some 8.
Proof.
  split; [|split].
  - apply (forgets Archive [Synced (ClassDefinition 7); Synced (DownloadedBlock ex0); Decide 1 ex1; Decide 2 ex2; Synced (ClassDefinition 8);
      Synced (FinalizedConsensusBlock ex1)] _ 1 ex1 [(2, ex2)]); [|reflexivity|vm_compute; reflexivity].
    apply (commits Archive [Synced (ClassDefinition 7); Synced (DownloadedBlock ex0); Decide 1 ex1; Decide 2 ex2; Synced (ClassDefinition 8)] _ (FinalizedConsensusBlock ex1) [ex2]);
      [|vm_compute; discriminate|reflexivity].
    apply (commits Archive [Synced (ClassDefinition 7); Synced (DownloadedBlock ex0); Decide 1 ex1; Decide 2 ex2] _ (ClassDefinition 8) [ex1; ex2]);
      [|vm_compute; discriminate|reflexivity].
    apply (decides Archive [Synced (ClassDefinition 7); Synced (DownloadedBlock ex0); Decide 1 ex1] [ex0; ex1] ex2); [|exact wf2].
    apply (decides Archive [Synced (ClassDefinition 7); Synced (DownloadedBlock ex0)] [ex0] ex1); [|exact wf1].
    apply (syncs Archive [Synced (ClassDefinition 7)] [] (DownloadedBlock ex0)); [|reflexivity].
    apply (syncs Archive [] [] (ClassDefinition 7)); [|reflexivity]. constructor.
  - change (n_events _) with [ClassDefinition 7; DownloadedBlock ex0; ClassDefinition 8; FinalizedConsensusBlock ex1]. orderly_tac.
  - vm_compute. repeat split.
Qed.
