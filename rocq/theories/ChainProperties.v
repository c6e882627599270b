(* Properties of the stored chain: historical lookups (C18), pruning (C19, C53), reorgs (C20),
   the L1 pointer (C23), contiguity (C24) and class definitions (C55). *)
From Coq Require Import List Arith NArith Bool Lia ZifyBool ZifyNat ZifyN.
From Verif Require Import ListLib Radix AList SortedMap StateUpdateModel ChainModel ChainSpec ChainProof.
Import ListNotations.
Local Open Scope N_scope.

(* ---- blocks for the examples ---- *)
(* block 0 deploys contract 10 of class 7, which it declares *)
Definition ex0 : l2_block := L2Block 0 100 0 1000
  (StateUpdateData [(10, ContractUpdate [(1, 5)] (Some (Deploy 7)) (Some 0))] [] [7] [] []).
(* block 1 changes slot 1, sets slot 2, and declares class 8 *)
Definition ex1 : l2_block := L2Block 1 101 100 1001
  (StateUpdateData [(10, ContractUpdate [(1, 6); (2, 9)] None (Some 1))] [(1, [(0, 100)])] [] [(8, 80)] []).
(* block 2 replaces the class of contract 10 and deploys contract 11 *)
Definition ex2 : l2_block := L2Block 2 102 101 1002
  (StateUpdateData [(10, ContractUpdate [] (Some (Replace 8)) None);
                    (11, ContractUpdate [(3, 4)] (Some (Deploy 7)) None)] [] [] [] []).
(* another block 1 and block 2 *)
Definition ex1' : l2_block := L2Block 1 111 100 1011
  (StateUpdateData [(10, ContractUpdate [(2, 3)] None (Some 2))] [] [] [] []).
Definition ex2' : l2_block := L2Block 2 112 111 1012
  (StateUpdateData [(10, ContractUpdate [(1, 0)] None None)] [] [] [(8, 81)] []).
Definition ex3 : l2_block := L2Block 3 103 102 1003
  (StateUpdateData [(11, ContractUpdate [(3, 5)] None None)] [] [] [] []).

Ltac nodup_tac :=
  cbn; repeat (apply NoDup_cons; [cbn; intros H; repeat (destruct H as [H|H]; [discriminate H|]); exact H|]);
  apply NoDup_nil.
Ltac wf_tac :=
  unfold wf_data; do 4 (split; [nodup_tac|]); cbn [lb_data sd_contracts sd_system];
  split; intros ? ? H; cbn in H; repeat (destruct H as [H|H]; [injection H as <- <-; split; [nodup_tac|reflexivity]|]);
  destruct H.
Lemma wf0 : wf_data (lb_data ex0). Proof. wf_tac. Qed.
Lemma wf1 : wf_data (lb_data ex1). Proof. wf_tac. Qed.
Lemma wf2 : wf_data (lb_data ex2). Proof. wf_tac. Qed.
Lemma wf1' : wf_data (lb_data ex1'). Proof. wf_tac. Qed.
Lemma wf2' : wf_data (lb_data ex2'). Proof. wf_tac. Qed.
Lemma wf3 : wf_data (lb_data ex3). Proof. wf_tac. Qed.
Ltac orderly_tac :=
  unfold orderly_run;
  repeat (split; [first [exact Coq.Init.Logic.I
                        |split; [first [exact wf0|exact wf1|exact wf2|exact wf1'|exact wf2'|exact wf3]
                                |first [left; vm_compute; reflexivity|right; vm_compute; reflexivity]]]|]);
  exact Coq.Init.Logic.I.

(* ---- C18 ---- *)
(* In the database left behind by any sequence of events, a lookup at a kept block, by number
   or hash, gives the state obtained by applying the updates of blocks 0..n in order, and a
   lookup at the latest block the state after the whole chain. *)
Theorem C18_lookup_by_number m es n :
  orderly_run m es -> kept (db_after m es) n ->
  answers (db_after m es) (Number n) (chain_after m es) n.
Proof.
  intros O K. destruct (run_inv m es O) as (low & I). apply (kept_iff _ _ _ _ I) in K.
  destruct K. eapply inv_answers_number; eauto.
Qed.
Print Assumptions C18_lookup_by_number.

Theorem C18_lookup_by_hash m es n b :
  orderly_run m es -> kept (db_after m es) n -> block_at (chain_after m es) n = Some b ->
  answers (db_after m es) (Hash (lb_hash b)) (chain_after m es) n.
Proof.
  intros O K B. destruct (run_inv m es O) as (low & I). apply (kept_iff _ _ _ _ I) in K.
  destruct K. eapply inv_answers_hash; eauto.
Qed.
Print Assumptions C18_lookup_by_hash.

Theorem C18_lookup_latest m es :
  orderly_run m es -> chain_after m es <> [] ->
  answers (db_after m es) Latest (chain_after m es) (clen (chain_after m es) - 1).
Proof. intros O NE. destruct (run_inv m es O) as (low & I). eapply inv_answers_latest; eauto. Qed.
Print Assumptions C18_lookup_latest.

(* a hash that belongs to no kept block finds nothing *)
Theorem C18_unknown_hash m es x :
  orderly_run m es ->
  (forall n b, kept (db_after m es) n -> block_at (chain_after m es) n = Some b -> lb_hash b <> x) ->
  (forall a k, lookup_storage (db_after m es) (Hash x) a k = None) /\
  (forall a, lookup_nonce (db_after m es) (Hash x) a = None) /\
  (forall a, lookup_class (db_after m es) (Hash x) a = None) /\
  (forall a, contract_exists (db_after m es) (Hash x) a = false) /\
  (forall c, lookup_declared_at (db_after m es) (Hash x) c = None).
Proof.
  intros O U. destruct (run_inv m es O) as (low & I). apply lookup_unknown_hash.
  intros h H E. apply (i_heads _ _ _ I) in H. destruct H as (L & b & B & HB & _).
  apply (U (h_number h) b); [|exact B|congruence].
  apply (kept_iff _ _ _ _ I). split; [exact L|]. eapply block_at_lt; eauto.
Qed.
Print Assumptions C18_unknown_hash.

Definition history : list sync_event :=
  [ClassDefinition 7; DownloadedBlock ex0; ClassDefinition 8; DownloadedBlock ex1; DownloadedBlock ex1;
   Failure; DownloadedBlock ex2].
Example C18_example :
  orderly_run Archive history /\ chain_after Archive history = [ex0; ex1; ex2] /\
  map (fun n => lookup_storage (db_after Archive history) (Number n) 10 1) [0; 1; 2] = [Some 5; Some 6; Some 6] /\
  map (fun n => lookup_class (db_after Archive history) (Number n) 10) [0; 1; 2] = [Some 7; Some 7; Some 8] /\
  map (fun n => lookup_nonce (db_after Archive history) (Number n) 11) [0; 1; 2] = [None; None; None] /\
  lookup_storage (db_after Archive history) Latest 1 0 = Some 100.
Proof. split; [orderly_tac|]. vm_compute. repeat split. Qed.

(* ---- C19 ---- *)
(* whatever the configured number of blocks, and whenever the pruning happens, the answers at
   the blocks that are still kept are those from before the pruning *)
Theorem C19_pruning_preserves_lookups m es k e d' :
  orderly_run m es ->
  (match e with L1Checkpoint _ => True | L2Head h => h + 1 = clen (chain_after m es) end) ->
  perform_pruning (Prune k) e (db_after m es) = Some d' ->
  (forall n, kept d' n ->
     kept (db_after m es) n /\
     same_state (db_after m es) (Number n) d' (Number n) /\
     (forall b, block_at (chain_after m es) n = Some b ->
        same_state (db_after m es) (Hash (lb_hash b)) d' (Hash (lb_hash b)))) /\
  same_state (db_after m es) Latest d' Latest.
Proof.
  intros O HE P. destruct (run_inv m es O) as (low & I).
  destruct (perform_pruning_inv _ _ _ _ _ _ I P HE) as (low' & I' & L & _). split.
  - intros n K. apply (kept_iff _ _ _ _ I') in K. destruct K as [K1 K2].
    split; [apply (kept_iff _ _ _ _ I); split; [lia|exact K2]|]. split.
    + apply (answers_same _ _ (chain_after m es) n).
      * apply (inv_answers_number low _ _ _ I); [lia|exact K2].
      * apply (inv_answers_number low' _ _ _ I'); [exact K1|exact K2].
    + intros b B. apply (answers_same _ _ (chain_after m es) n).
      * apply (inv_answers_hash low _ _ _ _ I); [lia|exact B].
      * apply (inv_answers_hash low' _ _ _ _ I'); [exact K1|exact B].
  - destruct (chain_after m es) as [|b0 c] eqn:E.
    + eapply answers_same; eapply inv_nothing with (b := 0); eauto.
    + eapply answers_same; eapply inv_answers_latest; eauto; discriminate.
Qed.
Print Assumptions C19_pruning_preserves_lookups.

Example C19_example :
  match perform_pruning (Prune 0) (L1Checkpoint 1) (db_after Archive history) with
  | Some d => block_exists d 0 = false /\ block_exists d 1 = true /\
              (length (d_storage d) < length (d_storage (db_after Archive history)))%nat /\
              lookup_nonce d (Number 1) 10 = Some 1 /\ lookup_class d (Number 1) 10 = Some 7
  | None => False
  end.
Proof. vm_compute. repeat split; auto. Qed.

(* ---- C20 ---- *)
(* A reorg whose tail is the first orphaned block t: every lookup at a block below t is as
   before, and the latest state is that of block t-1. *)
Theorem C20_reorg_restores_partial m es t :
  orderly_run m es -> committed m es (Reorg t) ->
  let before := db_after m es in
  let after := db_after m (es ++ [Reorg t]) in
  t < clen (chain_after m es) /\
  chain_after m (es ++ [Reorg t]) = firstn (N.to_nat t) (chain_after m es) /\
  (forall n, kept after n <-> kept before n /\ n < t) /\
  (forall n, kept after n -> same_state before (Number n) after (Number n)) /\
  (forall n b, kept after n -> block_at (chain_after m es) n = Some b ->
     same_state before (Hash (lb_hash b)) after (Hash (lb_hash b))) /\
  (t <> 0 -> same_state before (Number (t - 1)) after Latest) /\
  (t = 0 -> same_state empty_db Latest after Latest).
Proof.
  intros O C before after. destruct (run_inv m es O) as (low & I).
  unfold committed in C. cbn [consume] in C.
  destruct (l2_reorg t (c_db (run m es))) as [d|] eqn:R; [|congruence].
  destruct (l2_reorg_inv _ _ _ _ _ I R) as (I' & L & T & _).
  assert (EA : after = d).
  { unfold after, db_after. rewrite run_snoc. unfold step. cbn [consume]. rewrite R. reflexivity. }
  assert (EC : chain_after m (es ++ [Reorg t]) = firstn (N.to_nat t) (chain_after m es)).
  { rewrite chain_after_snoc. unfold chain_step. cbn [consume]. rewrite R. reflexivity. }
  assert (CL : clen (firstn (N.to_nat t) (chain_after m es)) = t) by (unfold clen in *; rewrite firstn_length; lia).
  assert (KI : forall n, kept after n <-> kept before n /\ n < t).
  { intros n. rewrite EA. rewrite (kept_iff _ _ _ n I'), CL. unfold before. rewrite (kept_iff _ _ _ n I). lia. }
  assert (AN : forall n, kept after n -> answers after (Number n) (chain_after m es) n).
  { intros n K. pose proof (proj1 (KI n) K) as [_ LT].
    apply (answers_firstn _ _ _ (N.to_nat t)); [lia|]. rewrite EA in *.
    apply (kept_iff _ _ _ n I') in K. eapply inv_answers_number; eauto; lia. }
  split; [exact L|]. split; [exact EC|]. split; [exact KI|]. split; [|split; [|split]].
  - intros n K. eapply answers_same; [|apply AN; exact K]. apply C18_lookup_by_number; [exact O|].
    apply KI; exact K.
  - intros n b K B. pose proof (proj1 (KI n) K) as [KB LT]. eapply answers_same.
    + eapply C18_lookup_by_hash; eauto.
    + apply (answers_firstn _ _ _ (N.to_nat t)); [lia|]. rewrite EA in *.
      apply (kept_iff _ _ _ n I') in K. eapply inv_answers_hash; eauto; [lia|].
      rewrite block_at_firstn by lia. exact B.
  - intros NZ. assert (K : kept before (t - 1)). { unfold before. apply (kept_iff _ _ _ _ I). lia. }
    eapply answers_same; [apply C18_lookup_by_number; [exact O|exact K]|].
    apply (answers_firstn _ _ _ (N.to_nat t)); [lia|]. rewrite EA.
    replace (t - 1) with (clen (firstn (N.to_nat t) (chain_after m es)) - 1) by lia.
    eapply inv_answers_latest; eauto. intros E. rewrite E in CL. unfold clen in CL. cbn in CL. lia.
  - intros ->. cbn [N.to_nat firstn] in I'. rewrite EA.
    eapply answers_same; [apply (inv_nothing _ _ _ inv_empty 0)|eapply inv_nothing; eauto].
Qed.
Print Assumptions C20_reorg_restores_partial.

(* Blocks that were orphaned on the way leave no trace in the answers: two runs, with whatever
   detours, failures and pruning, that end up with the same chain answer alike. *)
Theorem C20_no_trace_partial m m' es es' :
  orderly_run m es -> orderly_run m' es' -> chain_after m es = chain_after m' es' ->
  let d := db_after m es in
  let d' := db_after m' es' in
  same_state d Latest d' Latest /\
  (forall n, kept d n -> kept d' n ->
     same_state d (Number n) d' (Number n) /\
     forall b, block_at (chain_after m es) n = Some b ->
       same_state d (Hash (lb_hash b)) d' (Hash (lb_hash b))).
Proof.
  intros O O' E d d'. split.
  - destruct (list_eq_dec N.eq_dec (map lb_number (chain_after m es)) []) as [Z|NZ].
    + apply map_eq_nil in Z. destruct (run_inv m es O) as (low & I). destruct (run_inv m' es' O') as (low' & I').
      rewrite <- E in I'. rewrite Z in *.
      eapply answers_same; [eapply inv_nothing with (b := 0); exact I|eapply inv_nothing; exact I'].
    + assert (NE : chain_after m es <> []) by (intros Z; rewrite Z in NZ; auto).
      eapply answers_same; [apply C18_lookup_latest; auto|]. rewrite E in NE |- *. apply C18_lookup_latest; auto.
  - intros n K K'. split.
    + eapply answers_same; [apply C18_lookup_by_number; auto|]. rewrite E. apply C18_lookup_by_number; auto.
    + intros b B. eapply answers_same; [eapply C18_lookup_by_hash; eauto|].
      rewrite E in B |- *. apply C18_lookup_by_hash; auto.
Qed.
Print Assumptions C20_no_trace_partial.

(* block 1 and 2 are replaced by other blocks *)
Definition detour : list sync_event :=
  [DownloadedBlock ex0; DownloadedBlock ex1; DownloadedBlock ex2; Reorg 1; DownloadedBlock ex1'].
Definition direct : list sync_event := [DownloadedBlock ex0; DownloadedBlock ex1'].
Example C20_example :
  orderly_run Archive detour /\ orderly_run Archive direct /\
  chain_after Archive detour = chain_after Archive direct /\ chain_after Archive direct = [ex0; ex1'] /\
  committed Archive [DownloadedBlock ex0; DownloadedBlock ex1; DownloadedBlock ex2] (Reorg 1) /\
  lookup_storage (db_after Archive detour) Latest 10 1 = Some 5 /\
  contract_exists (db_after Archive detour) Latest 11 = false /\
  lookup_declared_at (db_after Archive detour) Latest 8 = None.
Proof.
  split; [orderly_tac|]. split; [orderly_tac|]. split; [vm_compute; reflexivity|].
  split; [vm_compute; reflexivity|]. split; [vm_compute; discriminate|]. vm_compute. repeat split.
Qed.

(* What is missing: the compiled class hash.  The rows of casm_class_hashes survive the purge
   of their block, so a class declared only in an orphaned block keeps a compiled class hash,
   and one declared again in another block of the same number keeps the orphaned one. *)
Theorem C20_casm_refuted :
  exists es es' x,
    orderly_run Archive es /\ orderly_run Archive es' /\ chain_after Archive es = chain_after Archive es' /\
    lookup_casm (db_after Archive es) Latest x <> lookup_casm (db_after Archive es') Latest x.
Proof.
  exists detour, direct, 8. destruct C20_example as (O & O' & E & _).
  split; [exact O|]. split; [exact O'|]. split; [exact E|]. vm_compute. discriminate.
Qed.
Print Assumptions C20_casm_refuted.

Theorem C20_casm_redeclared_refuted :
  exists es es' x v v',
    orderly_run Archive es /\ orderly_run Archive es' /\ chain_after Archive es = chain_after Archive es' /\
    lookup_casm (db_after Archive es) Latest x = Some v /\ lookup_casm (db_after Archive es') Latest x = Some v' /\
    v <> v'.
Proof.
  exists [DownloadedBlock ex0; DownloadedBlock ex1'; DownloadedBlock (L2Block 2 222 111 3 (StateUpdateData [] [] [] [(8, 99)] []));
          Reorg 2; DownloadedBlock ex2'],
         [DownloadedBlock ex0; DownloadedBlock ex1'; DownloadedBlock ex2'], 8, 99, 81.
  assert (W : wf_data (StateUpdateData [] [] [] [(8, 99)] [])) by wf_tac.
  split. { unfold orderly_run. do 2 (split; [first [split; [first [exact wf0|exact wf1'|exact wf2']|left; vm_compute; reflexivity]]|]).
           split; [split; [exact W|left; vm_compute; reflexivity]|]. split; [exact Coq.Init.Logic.I|].
           split; [split; [exact wf2'|left; vm_compute; reflexivity]|]. exact Coq.Init.Logic.I. }
  split; [orderly_tac|]. split; [vm_compute; reflexivity|]. split; [vm_compute; reflexivity|].
  split; [vm_compute; reflexivity|]. discriminate.
Qed.
Print Assumptions C20_casm_redeclared_refuted.

(* ---- C55 ---- *)
(* A class is visible at a kept block exactly if a block up to it declares the class or
   deploys the first contract of it, and the block number reported is the first such block. *)
Theorem C55_class_visible m es n x :
  orderly_run m es -> kept (db_after m es) n ->
  (forall k, lookup_declared_at (db_after m es) (Number n) x = Some k <->
             k <= n /\ first_declared (chain_after m es) x k) /\
  (lookup_declared_at (db_after m es) (Number n) x <> None <->
   exists i b, i <= n /\ block_at (chain_after m es) i = Some b /\ declares b x).
Proof.
  intros O K. destruct (C18_lookup_by_number m es n O K) as (_ & _ & _ & _ & A). split; [apply A|]. split.
  - destruct (lookup_declared_at _ _ x) as [k|] eqn:E; [|congruence]. intros _.
    apply A in E. destruct E as [L [(b & B & D) _]]. eauto.
  - intros (i & b & L & B & D). destruct (first_declared_ex (chain_after m es) x) as [(k & F)|F]; [|destruct (F i b B D)].
    assert (KL : k <= i). { destruct (N.le_gt_cases k i) as [Y|Y]; [exact Y|]. destruct (proj2 F i b Y B D). }
    assert (E : lookup_declared_at (db_after m es) (Number n) x = Some k) by (apply A; split; [lia|exact F]).
    rewrite E. discriminate.
Qed.
Print Assumptions C55_class_visible.

Example C55_example :
  orderly_run (Prune 1) (history ++ [L1Update 1 101]) /\
  kept (db_after (Prune 1) (history ++ [L1Update 1 101])) 1 /\
  lookup_declared_at (db_after (Prune 1) (history ++ [L1Update 1 101])) (Number 1) 7 = Some 0 /\
  lookup_declared_at (db_after (Prune 1) (history ++ [L1Update 1 101])) (Number 1) 8 = Some 1 /\
  lookup_declared_at (db_after Archive history) (Number 0) 8 = None.
Proof. split; [orderly_tac|]. vm_compute. repeat split. Qed.

(* ---- C23 ---- *)
(* If the pointer is at block p, then p is a block of the present chain, and at some earlier
   time the chain, which was the same up to p, had a stored block q at or above p which L1 had
   reported by that time with its number and hash. *)
Theorem C23_pointer_ancestor m es p :
  orderly_run m es -> d_pointer (db_after m es) = Some p ->
  p < clen (chain_after m es) /\
  exists es1 es2 q b,
    es = es1 ++ es2 /\ p <= q /\ block_at (chain_after m es1) q = Some b /\ kept (db_after m es1) q /\
    l1_reported es1 q (lb_hash b) /\
    up_to (chain_after m es1) p = up_to (chain_after m es) p.
Proof. intros O D. exact (run_pointer m es p O D). Qed.
Print Assumptions C23_pointer_ancestor.

(* without pruning the block is stored *)
Theorem C23_pointer_stored es p :
  orderly_run Archive es -> d_pointer (db_after Archive es) = Some p -> kept (db_after Archive es) p.
Proof.
  intros O D. apply (kept_iff _ _ _ _ (archive_low es O)). split; [lia|]. apply (run_pointer _ _ _ O D).
Qed.
Print Assumptions C23_pointer_stored.

Example C23_example :
  orderly_run Archive (history ++ [L1Update 2 102; Reorg 1; L1Update 5 99; DownloadedBlock ex1']) /\
  d_pointer (db_after Archive (history ++ [L1Update 2 102])) = Some 2 /\
  d_pointer (db_after Archive (history ++ [L1Update 2 102; Reorg 1; L1Update 5 99; DownloadedBlock ex1'])) = Some 0.
Proof. split; [orderly_tac|]. vm_compute. repeat split. Qed.

(* With pruning the pointer can be left behind at a block that has been pruned: L1 is ahead of
   the chain when block 2 arrives, and the pointer moves only one block at a time. *)
Theorem C23_pruned_refuted :
  exists k es p, orderly_run (Prune k) es /\ d_pointer (db_after (Prune k) es) = Some p /\
                 ~ kept (db_after (Prune k) es) p.
Proof.
  exists 0, [DownloadedBlock ex0; L1Update 0 100; L1Update 2 102; DownloadedBlock ex1; DownloadedBlock ex2], 0.
  split; [orderly_tac|]. split; [vm_compute; reflexivity|]. vm_compute. discriminate.
Qed.
Print Assumptions C23_pruned_refuted.

(* ---- C24 ---- *)
(* The stored numbers are an unbroken range without duplicates up to the head of the chain,
   and each stored header is that of its block of the chain. *)
Theorem C24_contiguous m es :
  orderly_run m es ->
  NoDup (map h_number (d_headers (db_after m es))) /\
  NoDup (map h_hash (d_headers (db_after m es))) /\
  (exists low, forall n, kept (db_after m es) n <-> low <= n /\ n < clen (chain_after m es)) /\
  (chain_after m es <> [] -> kept (db_after m es) (clen (chain_after m es) - 1)) /\
  (forall n b, block_at (chain_after m es) n = Some b -> lb_number b = n) /\
  (forall h, In h (d_headers (db_after m es)) ->
     exists b, block_at (chain_after m es) (h_number h) = Some b /\
               h_hash h = lb_hash b /\ h_parent h = lb_parent b /\ h_commitment h = lb_commitment b).
Proof.
  intros O. destruct (run_inv m es O) as (low & I). destruct (i_heads _ _ _ I) as (N1 & N2 & H).
  split; [exact N1|]. split; [exact N2|]. split; [exists low; intros n; apply (kept_iff _ _ _ n I)|].
  split. { intros NE. apply (kept_iff _ _ _ _ I). destruct (i_low _ _ _ I) as [L|[_ L]]; [lia|congruence]. }
  split; [apply I|]. intros h IH. apply H in IH. destruct IH as [_ X]. exact X.
Qed.
Print Assumptions C24_contiguous.

(* Stale duplicates change nothing.  Downloaded blocks of any number up to head + 1 may come
   in any order: such a sequence is orderly. *)
Theorem C24_duplicates_ignored m es b :
  orderly_run m es -> no_finalized es -> lb_number b < next_number (db_after m es) ->
  run m (es ++ [DownloadedBlock b]) = run m es /\
  chain_after m (es ++ [DownloadedBlock b]) = chain_after m es.
Proof.
  intros O NF L. pose proof (run_next m es O NF) as E. rewrite run_snoc, chain_after_snoc.
  unfold step, chain_step. cbn [consume].
  destruct (N.ltb_spec (lb_number b) (c_next (run m es))); [split; reflexivity|lia].
Qed.
Print Assumptions C24_duplicates_ignored.

Theorem C24_announced m es b :
  orderly_run m es -> no_finalized es -> wf_data (lb_data b) ->
  (orderly_run m (es ++ [DownloadedBlock b]) <-> lb_number b <= next_number (db_after m es)).
Proof.
  intros O NF W. pose proof (run_next m es O NF) as E. rewrite orderly_snoc. unfold announced.
  fold (db_after m es). rewrite E. split.
  - intros [_ [_ [X|X]]]; lia.
  - intros L. split; [exact O|]. split; [exact W|]. lia.
Qed.
Print Assumptions C24_announced.

Example C24_example :
  orderly_run (Prune 1) (history ++ [L1Update 2 102; DownloadedBlock ex3; L1Update 2 102; DownloadedBlock ex1]) /\
  no_finalized history /\
  map h_number (d_headers (db_after (Prune 1)
     (history ++ [L1Update 2 102; DownloadedBlock ex3; L1Update 2 102; DownloadedBlock ex1]))) = [3; 2; 1].
Proof.
  split; [orderly_tac|]. split; [|vm_compute; reflexivity].
  intros b H. cbn in H. repeat (destruct H as [H|H]; [discriminate H|]). exact H.
Qed.

(* A block that came from consensus is not counted: the same block downloaded afterwards is
   not recognised as a duplicate.  It ends the consumer, although its number is below the
   head's successor, *)
Theorem C24_finalized_duplicate_refuted :
  exists es b, orderly_run Archive es /\ wf_data (lb_data b) /\ lb_number b < next_number (db_after Archive es) /\
               consume Archive (run Archive es) (DownloadedBlock b) = None.
Proof.
  exists [FinalizedConsensusBlock ex0], ex0. split; [orderly_tac|]. split; [exact wf0|].
  split; vm_compute; reflexivity.
Qed.
Print Assumptions C24_finalized_duplicate_refuted.

(* or, when the stored copy has been pruned meanwhile, leaves a gap *)
Theorem C24_finalized_gap_refuted :
  exists es b, orderly_run (Prune 0) es /\ wf_data (lb_data b) /\ lb_number b < next_number (db_after (Prune 0) es) /\
    let d := db_after (Prune 0) (es ++ [DownloadedBlock b]) in
    kept d 0 /\ ~ kept d 1 /\ kept d 2.
Proof.
  exists [FinalizedConsensusBlock ex0; FinalizedConsensusBlock ex1; FinalizedConsensusBlock ex2;
          FinalizedConsensusBlock ex3; L1Update 2 102], ex0.
  split; [orderly_tac|]. split; [exact wf0|]. split; [vm_compute; reflexivity|]. cbv zeta.
  split; [vm_compute; reflexivity|]. split; [vm_compute; discriminate|vm_compute; reflexivity].
Qed.
Print Assumptions C24_finalized_gap_refuted.

(* ---- C53 ---- *)
(* A block n of the chain that an event deletes lies more than k below some point p which is
   at most the head and, if L1 has reported anything, at most a number reported by L1. *)
Theorem C53_window m es e n :
  orderly_run m (es ++ [e]) ->
  n < clen (chain_after m (es ++ [e])) -> kept (db_after m es) n -> ~ kept (db_after m (es ++ [e])) n ->
  exists k p, m = Prune k /\ n + k < p /\ p < clen (chain_after m (es ++ [e])) /\
    ((forall q x, ~ l1_reported (es ++ [e]) q x) \/ exists q x, l1_reported (es ++ [e]) q x /\ p <= q).
Proof.
  intros O' LN K NK. pose proof O' as O. apply orderly_snoc in O. destruct O as [O AN].
  destruct (run_inv m es O) as (low & I).
  destruct (step_pruned m (run m es) e low (chain_after m es) I AN) as (low' & I' & W).
  rewrite <- chain_after_snoc in I', W. rewrite <- run_snoc in I', W.
  fold (db_after m (es ++ [e])) in I', W.
  apply (kept_iff _ _ _ _ I) in K. pose proof (kept_iff _ _ _ n I') as KI.
  destruct W as [->|(L & k & E & p & EP & PL & W)]; [exfalso; apply NK, KI; lia|].
  assert (NL : n < low'). { destruct (N.lt_ge_cases n low') as [X|X]; [exact X|]. exfalso. apply NK, KI. lia. }
  exists k, p. split; [exact E|]. split; [lia|]. split; [lia|]. destruct W as [W|(q & x & G & QL)].
  - left. intros q x H. apply (run_l1_kept m (es ++ [e]) q x O' H). rewrite W. reflexivity.
  - right. exists q, x. split; [apply (run_l1 m); exact G|exact QL].
Qed.
Print Assumptions C53_window.

(* the deleted blocks are an initial segment; the head is never deleted *)
Theorem C53_initial_segment m es n n' :
  orderly_run m es -> kept (db_after m es) n -> n <= n' -> n' < clen (chain_after m es) ->
  kept (db_after m es) n'.
Proof.
  intros O K L U. destruct (run_inv m es O) as (low & I). apply (kept_iff _ _ _ _ I) in K.
  apply (kept_iff _ _ _ _ I). lia.
Qed.
Print Assumptions C53_initial_segment.

(* an archive node deletes nothing *)
Theorem C53_archive es n :
  orderly_run Archive es -> (kept (db_after Archive es) n <-> n < clen (chain_after Archive es)).
Proof. intros O. rewrite (kept_iff _ _ _ n (archive_low es O)). lia. Qed.
Print Assumptions C53_archive.

(* after an L1 checkpoint n below the head nothing below n - k is left *)
Theorem C53_pruned_by_checkpoint k es n x i :
  orderly_run (Prune k) es -> n + 1 < clen (chain_after (Prune k) es) ->
  kept (db_after (Prune k) (es ++ [L1Update n x])) i -> n <= i + k.
Proof.
  intros O L K. set (m := Prune k) in *. destruct (run_inv m es O) as (low & I).
  unfold db_after in K. rewrite run_snoc in K. unfold step in K. cbn [consume] in K.
  pose proof (l1_update_fields n x (c_db (run m es))) as (F1 & F2 & F3 & F4 & F5 & _).
  assert (I1 : inv low (l1_update n x (c_db (run m es))) (chain_after m es)) by (eapply inv_ext; eauto).
  pose proof (perform_pruning_total m (L1Checkpoint n) _ _ _ I1 Coq.Init.Logic.I) as T.
  destruct (perform_pruning m (L1Checkpoint n) _) as [d|] eqn:P; [|congruence].
  destruct (perform_pruning_inv _ _ _ _ _ _ I1 P Coq.Init.Logic.I) as (low' & I' & _ & _ & _ & W).
  unfold m in W at 1. unfold pruning_point in W.
  rewrite (latest_number_spec _ _ _ (i_heads _ _ _ I1) (i_low _ _ _ I1)) in W.
  destruct (N.eqb_spec (clen (chain_after m es)) 0); [lia|].
  destruct (N.leb_spec (clen (chain_after m es) - 1) n); [lia|].
  cbn [c_db] in K. apply (kept_iff _ _ _ _ I') in K. lia.
Qed.
Print Assumptions C53_pruned_by_checkpoint.

(* after a new block n that L1 has reached already nothing below n - k is left *)
Theorem C53_pruned_by_head k es b q x i :
  orderly_run (Prune k) (es ++ [DownloadedBlock b]) ->
  chain_after (Prune k) (es ++ [DownloadedBlock b]) = chain_after (Prune k) es ++ [b] ->
  l1_reported es q x -> lb_number b <= q ->
  kept (db_after (Prune k) (es ++ [DownloadedBlock b])) i -> lb_number b <= i + k.
Proof.
  intros O C R Q K. set (m := Prune k) in *. apply orderly_snoc in O. destruct O as [O AN].
  destruct (run_inv m es O) as (low & I).
  rewrite chain_after_snoc in C. unfold db_after in K. rewrite run_snoc in K.
  unfold chain_step in C. unfold step in K.
  assert (NE : chain_after m es <> chain_after m es ++ [b]).
  { intros X. apply (f_equal (@length _)) in X. rewrite app_length in X. cbn in X. lia. }
  destruct (consume m (run m es) (DownloadedBlock b)) as [s'|] eqn:CO; [|destruct (NE C)].
  destruct (N.ltb_spec (lb_number b) (c_next (run m es))) as [|GE]; [destruct (NE C)|].
  cbn [consume] in CO. destruct (N.ltb_spec (lb_number b) (c_next (run m es))); [lia|].
  destruct AN as [WF [E|E]]; [|lia].
  change (c_db (run m es)) with (db_after m es) in E, CO.
  rewrite (next_number_spec _ _ _ (i_heads _ _ _ I) (i_low _ _ _ I)) in E.
  destruct (l2_update b (db_after m es)) as [d1|] eqn:U; [|discriminate].
  destruct (perform_pruning m (L2Head (lb_number b)) d1) as [d|] eqn:P; [|discriminate].
  injection CO as <-. cbn [c_db] in K.
  pose proof (inv_store _ _ _ _ _ I WF E U) as I1.
  assert (HE : lb_number b + 1 = clen (chain_after m es ++ [b])) by (rewrite clen_app; lia).
  destruct (perform_pruning_inv _ _ _ _ _ _ I1 P HE) as (low' & I' & _ & _ & _ & W).
  unfold m in W. unfold pruning_point in W. fold m in W.
  apply (kept_iff _ _ _ _ I') in K.
  destruct (N.eqb_spec (lb_number b) 0); [lia|].
  assert (EL : d_l1 d1 = d_l1 (db_after m es)).
  { apply l2_update_stored in U. destruct U as [_ (d0 & IH & p & ->)]. apply insert_header_fields in IH. cbn. tauto. }
  pose proof (latest_checkpoint_spec (d_l1 d1)) as LC. destruct (top_header _) as [c|].
  - pose proof (run_l1_kept m es q x O R) as G. rewrite <- EL in G.
    destruct (nget q (d_l1 d1)) as [y|] eqn:GQ; [|congruence].
    destruct LC as [_ LC]. specialize (LC _ _ GQ). destruct (N.ltb_spec (h_number c) (lb_number b)); lia.
  - lia.
Qed.
Print Assumptions C53_pruned_by_head.

Definition lagging : list sync_event :=
  [DownloadedBlock ex0; L1Update 0 100; DownloadedBlock ex1; DownloadedBlock ex2; DownloadedBlock ex3].
Example C53_example :
  orderly_run (Prune 1) (lagging ++ [L1Update 2 102]) /\
  kept (db_after (Prune 1) lagging) 0 /\
  ~ kept (db_after (Prune 1) (lagging ++ [L1Update 2 102])) 0 /\
  kept (db_after (Prune 1) (lagging ++ [L1Update 2 102])) 1 /\
  chain_after (Prune 0) ([L1Update 9 9; DownloadedBlock ex0] ++ [DownloadedBlock ex1]) = [ex0; ex1] /\
  ~ kept (db_after (Prune 0) ([L1Update 9 9; DownloadedBlock ex0] ++ [DownloadedBlock ex1])) 0.
Proof.
  split; [orderly_tac|]. split; [vm_compute; reflexivity|]. split; [vm_compute; discriminate|].
  split; [vm_compute; reflexivity|]. split; [vm_compute; reflexivity|vm_compute; discriminate].
Qed.
