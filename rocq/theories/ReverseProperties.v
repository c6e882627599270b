(* C21: reverse updates restore the earlier state *)
From Coq Require Import List Arith NArith Bool Lia ZifyBool ZifyNat ZifyN.
From Verif Require Import ListLib Radix AList SortedMap StateUpdateModel ChainModel ChainSpec ChainProof
  ReverseSpec ReverseProof ChainProperties.
Import ListNotations.
Local Open Scope N_scope.

(* The contracts the specification treats apart are the addresses 0x1 and 0x2. *)
Theorem C21_system_contracts a : is_system a = true <-> a = 1 \/ a = 2.
Proof. unfold is_system. rewrite orb_true_iff, !N.eqb_eq. reflexivity. Qed.
Print Assumptions C21_system_contracts.

(* Reverting from the head to a kept block [to]: for every contract the reverse updates
   mention, applying its update to its storage at the head gives, without panic, its leaf as of
   block [to]; every other contract has the same leaf at both blocks. *)
Theorem C21_reverse_restores m es to a :
  orderly_run m es -> kept (db_after m es) to ->
  let d := db_after m es in
  let c := chain_after m es in
  let head := clen c - 1 in
  match nget a (reverse_contract_updates d head to) with
  | Some r => forall tree, holds tree (storage_at c head a) ->
                exists o, revert_contract d to a tree r = Some o /\ leaf_is c to a o
  | None => same_leaf c head to a
  end.
Proof.
  intros O K d c head. destruct (run_inv m es O) as (low & I).
  apply (kept_iff _ _ _ _ I) in K. fold c in K, I. fold d in I.
  destruct (nget a (reverse_contract_updates d head to)) as [r|] eqn:G.
  - intros tree HT. apply (reverse_leaf low d c head to I ltac:(lia) ltac:(unfold head; lia) ltac:(unfold head; lia) a r tree G HT).
  - apply (reverse_untouched low d c head to I ltac:(lia) ltac:(unfold head; lia) ltac:(unfold head; lia) a G).
Qed.
Print Assumptions C21_reverse_restores.

(* A contract is reported deleted exactly if it was deployed after [to]. *)
Theorem C21_deleted m es to a :
  orderly_run m es -> kept (db_after m es) to ->
  let c := chain_after m es in
  let head := clen c - 1 in
  nget a (reverse_contract_updates (db_after m es) head to) = Some Deleted <->
  class_at c head a <> None /\ class_at c to a = None.
Proof.
  intros O K c head. destruct (run_inv m es O) as (low & I).
  apply (kept_iff _ _ _ _ I) in K. fold c in K, I.
  apply (reverse_deleted low (db_after m es) c head to I ltac:(lia) ltac:(unfold head; lia) ltac:(unfold head; lia)).
Qed.
Print Assumptions C21_deleted.

(* The leaves are those of the forward direction: when block n is stored, the leaf computed
   for a contract of its update from the contract's storage before is its leaf as of block n. *)
Theorem C21_forward m es b a u old :
  orderly_run m (es ++ [DownloadedBlock b]) -> lb_number b = next_number (db_after m es) ->
  (if is_system a
   then nget a (sd_system (lb_data b)) = Some (cu_storage u) /\ cu_class u = None /\ cu_nonce u = None
   else nget a (sd_contracts (lb_data b)) = Some u) ->
  let c := chain_after m es in
  holds old (fun k => state_after writes_storage c (a, k)) ->
  match update_contract (db_after m es) (lb_number b) a old u with
  | Some l => leaf_at (c ++ [b]) (lb_number b) a l
  | None => is_system a = false /\ class_at (c ++ [b]) (lb_number b) a = None
  end.
Proof.
  intros O E G c H. apply orderly_snoc in O. destruct O as [O [WF _]]. destruct (run_inv m es O) as (low & I).
  rewrite (next_number_spec _ _ _ (i_heads _ _ _ I) (i_low _ _ _ I)) in E.
  apply (forward_leaf low); auto.
Qed.
Print Assumptions C21_forward.

Example C21_example :
  orderly_run Archive history /\ kept (db_after Archive history) 0 /\
  let d := db_after Archive history in
  holds [(1, 6); (2, 9)] (storage_at (chain_after Archive history) 2 10) /\
  nget 11 (reverse_contract_updates d 2 0) = Some Deleted /\
  nget 10 (reverse_contract_updates d 2 0) = Some (Updated (ContractUpdate [(1, 5); (2, 0)] (Some (Replace 7)) (Some 0))) /\
  revert_contract d 0 10 [(1, 6); (2, 9)] (Updated (ContractUpdate [(1, 5); (2, 0)] (Some (Replace 7)) (Some 0)))
  = Some (Some (Leaf 7 0 [(1, 5)])) /\
  update_contract (db_after Archive [DownloadedBlock ex0]) 1 10 [(1, 5)] (ContractUpdate [(1, 6); (2, 9)] None (Some 1))
  = Some (Leaf 7 1 [(2, 9); (1, 6)]).
Proof.
  split; [orderly_tac|]. split; [vm_compute; reflexivity|]. cbv zeta. split.
  - intros k. replace (chain_after Archive history) with [ex0; ex1; ex2] by (vm_compute; reflexivity).
    cbv -[N.eqb]. change (10 =? 10) with true. change (10 =? 1) with false. change (10 =? 2) with false.
    change (11 =? 10) with false. change (10 =? 11) with false.
    destruct (k =? 1) eqn:K1; cbn; rewrite ?K1; [reflexivity|]. destruct (k =? 2) eqn:K2; cbn; rewrite ?K1, ?K2; reflexivity.
  - vm_compute. repeat split.
Qed.

(* ---- where the forward and the reverse direction differ ---- *)
(* A system contract whose storage becomes empty: the forward direction keeps a leaf with
   class, nonce and storage zero, reverting to the same state removes the leaf, so that the
   commitments differ. *)
Definition sys0 : l2_block := L2Block 0 100 0 1000 (StateUpdateData [] [(1, [(0, 7)])] [] [] []).
Definition sys1 : l2_block := L2Block 1 101 100 1001 (StateUpdateData [] [(1, [(0, 0)])] [] [] []).
Definition sys2 : l2_block := L2Block 2 102 101 1002 (StateUpdateData [] [(1, [(0, 9)])] [] [] []).
Theorem C21_system_leaf_refuted :
  exists es es' a, let d := db_after Archive es in let d' := db_after Archive es' in
    orderly_run Archive es /\ es' = firstn 1 es /\ length es = 3%nat /\
    update_contract d' 1 a [(0, 7)] (ContractUpdate [(0, 0)] None None) = Some (Leaf 0 0 []) /\
    match nget a (reverse_contract_updates d 2 1) with
    | Some r => revert_contract d 1 a [(0, 9)] r = Some None
    | None => False
    end.
Proof.
  exists (map DownloadedBlock [sys0; sys1; sys2]), [DownloadedBlock sys0], 1. cbv zeta.
  split.
  { unfold orderly_run. repeat (split; [split; [wf_tac|left; vm_compute; reflexivity]|]). exact Coq.Init.Logic.I. }
  vm_compute. repeat split.
Qed.
Print Assumptions C21_system_leaf_refuted.

(* For classes the reverse update may be wrong.  The rows of orphaned blocks stay in
   casm_class_hashes: a class declared in an orphaned block 1 and declared again in block 2 is
   not removed when block 2 is reverted, *)
Definition bump : l2_block := L2Block 1 131 100 1 (StateUpdateData [] [] [] [] []).
Definition redeclare : l2_block := L2Block 2 132 131 1 (StateUpdateData [] [] [] [(8, 82)] []).
Theorem C21_class_removal_refuted :
  exists es x l,
    orderly_run Archive es /\ latest_number (db_after Archive es) = Some 2 /\
    reverse_sierra_ok (db_after Archive es) 2 1 l /\ In (x, Some 80) l /\
    (forall n b, n <= 1 -> block_at (chain_after Archive es) n = Some b -> ~ declares b x) /\
    (forall l', reverse_sierra_ok (db_after Archive es) 2 1 l' -> ~ In (x, None) l').
Proof.
  exists [DownloadedBlock ex0; DownloadedBlock ex1; Reorg 1; DownloadedBlock bump; DownloadedBlock redeclare], 8, [(8, Some 80)].
  set (es := [DownloadedBlock ex0; DownloadedBlock ex1; Reorg 1; DownloadedBlock bump; DownloadedBlock redeclare]).
  assert (CA : d_casm (db_after Archive es) = [Row 2 8 82; Row 1 8 80]) by (vm_compute; reflexivity).
  split. { unfold orderly_run. repeat (split; [first [exact Coq.Init.Logic.I|split; [wf_tac|left; vm_compute; reflexivity]]|]).
           exact Coq.Init.Logic.I. }
  split; [vm_compute; reflexivity|]. split.
  { unfold reverse_sierra_ok. rewrite CA. split; [reflexivity|]. constructor; [|constructor].
    cbn. exists (Row 1 8 80). cbn. repeat split; [right; left; reflexivity|lia]. }
  split; [left; reflexivity|]. split.
  - intros n b L B. replace (chain_after Archive es) with [ex0; bump; redeclare] in B by (vm_compute; reflexivity).
    assert (N01 : n = 0 \/ n = 1) by lia. destruct N01 as [-> | ->]; cbn in B; injection B as <-;
      intros [H|[H|(a & u & H & HD)]]; cbn in H;
      repeat (destruct H as [H|H]; [first [discriminate H|injection H as <- <-; discriminate HD]|]); exact H.
  - intros l' [_ H] IN. rewrite Forall_forall in H. specialize (H _ IN). cbn in H. rewrite CA in H.
    specialize (H (Row 1 8 80) (or_intror (or_introl eq_refl)) eq_refl). cbn in H. lia.
Qed.
Print Assumptions C21_class_removal_refuted.

(* and the subquery for the older compiled class hash has no order: of two older ones it may
   return the one that had been replaced. *)
Definition migrate (n v : N) : l2_block := L2Block n (200 + n) (199 + n) 1 (StateUpdateData [] [] [] [] [(8, v)]).
Theorem C21_class_order_refuted :
  exists es x v v' l,
    orderly_run Archive es /\ latest_number (db_after Archive es) = Some 3 /\
    lookup_casm (db_after Archive es) (Number 2) x = Some v /\ v <> v' /\
    reverse_sierra_ok (db_after Archive es) 3 2 l /\ In (x, Some v') l.
Proof.
  exists [DownloadedBlock ex0; DownloadedBlock ex1; DownloadedBlock (migrate 2 81); DownloadedBlock (migrate 3 82)], 8, 81, 80, [(8, Some 80)].
  set (es := [DownloadedBlock ex0; DownloadedBlock ex1; DownloadedBlock (migrate 2 81); DownloadedBlock (migrate 3 82)]).
  assert (CA : d_casm (db_after Archive es) = [Row 3 8 82; Row 2 8 81; Row 1 8 80]) by (vm_compute; reflexivity).
  split. { unfold orderly_run. repeat (split; [first [exact Coq.Init.Logic.I|split; [wf_tac|left; vm_compute; reflexivity]]|]).
           exact Coq.Init.Logic.I. }
  split; [vm_compute; reflexivity|]. split; [vm_compute; reflexivity|]. split; [discriminate|]. split.
  - unfold reverse_sierra_ok. rewrite CA. split; [reflexivity|]. constructor; [|constructor].
    cbn. exists (Row 1 8 80). cbn. repeat split; [right; right; left; reflexivity|lia].
  - left. reflexivity.
Qed.
Print Assumptions C21_class_order_refuted.
