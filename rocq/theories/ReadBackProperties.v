(* C22: a stored state update reads back unchanged *)
From Coq Require Import List Arith NArith Bool Lia ZifyBool ZifyNat ZifyN.
From Verif Require Import ListLib Radix AList SortedMap StateUpdateModel ChainModel ChainSpec ChainProof
  ReadBackSpec ReadBackProof ChainProperties.
Import ListNotations.
Local Open Scope N_scope.

(* A stored block whose parent is stored too, asked for by number, by hash or as the latest.
   Missing for the full statement: the lowest block that pruning has left, see
   C22_lowest_refuted. *)
Theorem C22_reads_back_partial m es n b id :
  orderly_run m es -> kept (db_after m es) n -> (n = 0 \/ kept (db_after m es) (n - 1)) ->
  block_at (chain_after m es) n = Some b -> proper_classes (chain_after m es) n b ->
  (id = Number n \/ id = Hash (lb_hash b) \/ (id = Latest /\ n + 1 = clen (chain_after m es))) ->
  exists u, read_state_update (db_after m es) id = ReadUpdate u /\
            rpc_state_update (db_after m es) id = Some (ReadUpdate u) /\
            reads_back b u /\ su_parent_commitment u = parent_commitment (chain_after m es) n.
Proof.
  intros O K P B PC ID. destruct (run_inv m es O) as (low & I).
  apply (kept_iff _ _ _ _ I) in K. rewrite (kept_iff _ _ _ _ I) in P.
  assert (F : find_header (db_after m es) id = Some (Header n (lb_hash b) (lb_parent b) (lb_commitment b))).
  { destruct ID as [->|[->|[-> E]]].
    - eapply find_header_number; eauto. lia.
    - eapply find_header_hash; eauto. lia.
    - replace n with (clen (chain_after m es) - 1) in B |- * by lia. eapply find_header_latest; eauto. }
  pose proof (read_at low _ _ n b id I ltac:(lia) B F) as R.
  replace ((n =? 0) || (low <=? n - 1)) with true in R by lia. destruct R as [R1 R2].
  eexists. split; [exact R1|]. split; [exact R2|]. split; [|reflexivity].
  apply (read_rows_back low _ (chain_after m es)); auto; lia.
Qed.
Print Assumptions C22_reads_back_partial.

(* on an archive node: every stored block *)
Theorem C22_archive es n b :
  orderly_run Archive es -> block_at (chain_after Archive es) n = Some b ->
  proper_classes (chain_after Archive es) n b ->
  exists u, read_state_update (db_after Archive es) (Number n) = ReadUpdate u /\
            rpc_state_update (db_after Archive es) (Number n) = Some (ReadUpdate u) /\
            reads_back b u /\ su_parent_commitment u = parent_commitment (chain_after Archive es) n.
Proof.
  intros O B PC. pose proof (block_at_lt _ _ _ B) as U.
  apply (C22_reads_back_partial Archive es n b (Number n)); auto.
  - apply C53_archive; auto.
  - right. apply C53_archive; [exact O|lia].
Qed.
Print Assumptions C22_archive.

(* Nothing but the stored block is reported: a block that is not stored gives nothing *)
Theorem C22_not_stored m es n :
  orderly_run m es -> ~ kept (db_after m es) n ->
  read_state_update (db_after m es) (Number n) = ReadNothing /\
  rpc_state_update (db_after m es) (Number n) = None.
Proof.
  intros O NK. destruct (run_inv m es O) as (low & I).
  assert (F : find_header (db_after m es) (Number n) = None).
  { cbn. apply (heads_at_none _ low (chain_after m es)); [apply I|].
    destruct (N.lt_ge_cases n low); [auto|]. right. destruct (N.lt_ge_cases n (clen (chain_after m es))); [|auto].
    exfalso. apply NK, (kept_iff _ _ _ _ I). lia. }
  unfold rpc_state_update, read_state_update. rewrite F. auto.
Qed.
Print Assumptions C22_not_stored.

Example C22_example :
  orderly_run Archive history /\ proper_classes (chain_after Archive history) 2 ex2 /\
  match read_state_update (db_after Archive history) (Number 2) with
  | ReadUpdate u => su_block_hash u = 102 /\ su_parent_commitment u = 1001 /\
                    cu_class (contract_of (su_contracts u) 10) = Some (Replace 8) /\
                    cu_class (contract_of (su_contracts u) 11) = Some (Deploy 7) /\
                    cu_storage (contract_of (su_contracts u) 11) = [(3, 4)]
  | _ => False
  end.
Proof.
  split; [orderly_tac|]. split; [|vm_compute; repeat split].
  intros a x G. apply nget_in in G. cbn in G. destruct G as [G|[G|[]]]; injection G as <- <-; vm_compute; reflexivity.
Qed.

(* The lowest block left by pruning, which is stored, cannot be read: storage panics, RPC says
   that there is no such block. *)
Theorem C22_lowest m es n :
  orderly_run m es -> kept (db_after m es) n -> n <> 0 -> ~ kept (db_after m es) (n - 1) ->
  read_state_update (db_after m es) (Number n) = ReadPanic /\
  rpc_state_update (db_after m es) (Number n) = None.
Proof.
  intros O K NZ NK. destruct (run_inv m es O) as (low & I).
  apply (kept_iff _ _ _ _ I) in K. rewrite (kept_iff _ _ _ _ I) in NK.
  destruct (block_at (chain_after m es) n) as [b|] eqn:B.
  2: { unfold block_at in B. apply nth_error_None in B. unfold clen in K. lia. }
  assert (L : low <= n) by lia.
  pose proof (read_at low _ _ n b (Number n) I L B (find_header_number _ _ _ _ _ I L B)) as R.
  replace ((n =? 0) || (low <=? n - 1)) with false in R by lia. exact R.
Qed.
Print Assumptions C22_lowest.

Theorem C22_lowest_refuted :
  exists k es n, orderly_run (Prune k) es /\ kept (db_after (Prune k) es) n /\
    read_state_update (db_after (Prune k) es) (Number n) = ReadPanic.
Proof.
  exists 1, history, 1. split; [orderly_tac|]. split; vm_compute; reflexivity.
Qed.
Print Assumptions C22_lowest_refuted.

(* Declared classes are outside the property: they do not read back.  The class of a deployed
   contract is reported as declared in the block though the block does not declare it, and a
   class declared again after a reorg comes back as migrated as well. *)
Definition plain : l2_block := L2Block 0 100 0 1000
  (StateUpdateData [(10, ContractUpdate [] (Some (Deploy 7)) None)] [] [] [] []).
Theorem C22_declared_refuted :
  exists es b u, orderly_run Archive es /\ block_at (chain_after Archive es) 0 = Some b /\
    sd_cairo (lb_data b) = [] /\ read_state_update (db_after Archive es) (Number 0) = ReadUpdate u /\ su_cairo u = [7].
Proof.
  exists [DownloadedBlock plain], plain. eexists. split.
  { unfold orderly_run. split; [split; [wf_tac|left; vm_compute; reflexivity]|exact Coq.Init.Logic.I]. }
  split; [vm_compute; reflexivity|]. split; [reflexivity|]. split; vm_compute; reflexivity.
Qed.
Print Assumptions C22_declared_refuted.

Theorem C22_migrated_refuted :
  exists es b u, orderly_run Archive es /\ block_at (chain_after Archive es) 2 = Some b /\
    sd_migrated (lb_data b) = [] /\ read_state_update (db_after Archive es) (Number 2) = ReadUpdate u /\
    su_migrated u = [(8, 81)].
Proof.
  exists [DownloadedBlock ex0; DownloadedBlock ex1; Reorg 1; DownloadedBlock ex1'; DownloadedBlock ex2'], ex2'.
  eexists. split; [orderly_tac|]. split; [vm_compute; reflexivity|]. split; [reflexivity|]. split; vm_compute; reflexivity.
Qed.
Print Assumptions C22_migrated_refuted.
