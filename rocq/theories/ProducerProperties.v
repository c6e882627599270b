(* C58, C59: synchronising blocks from a gateway *)
From Coq Require Import List Arith NArith Bool Lia ZifyBool ZifyNat ZifyN.
From Verif Require Import AList StateUpdateModel ChainModel ChainSpec ChainProof ProducerModel ProducerSpec ProducerProof.
Import ListNotations.
Local Open Scope N_scope.

(* ---- examples: two chains that fork after their first block ---- *)
Definition bare (n h p : N) : l2_block := L2Block n h p (1000 + h) (StateUpdateData [] [] [] [] []).
Definition ours : chain := [bare 0 100 0; bare 1 101 100; bare 2 102 101].
Definition fork : chain := [bare 0 100 0; bare 1 201 100; bare 2 202 201; bare 3 203 202].
Definition serving (c : chain) : gateway := chain_gateway c (fun _ => []) (fun _ => false).
Definition node_config : config := Config Archive Strict 10.

Lemma bare_wf n h p : wf_data (lb_data (bare n h p)).
Proof. cbv [bare lb_data wf_data sd_contracts sd_system sd_sierra sd_migrated map]. do 4 (split; [constructor|]). split; intros a x []. Qed.
Lemma chain_valid c :
  (forall i b, nth_error c i = Some b -> exists h p, b = bare (N.of_nat i) h p) ->
  linked c -> valid_chain c.
Proof.
  intros H L. split; [|exact L]. intros n b B. apply H in B. destruct B as (h & p & ->).
  split; [cbn; lia|apply bare_wf].
Qed.
Lemma ours_valid : valid_chain ours.
Proof.
  apply chain_valid.
  - intros [|[|[|[|i]]]] b B; try discriminate; injection B as <-; eexists _, _; reflexivity.
  - intros n b b' B B'. unfold block_at in *. replace (N.to_nat (n + 1)) with (S (N.to_nat n)) in B' by lia.
    destruct (N.to_nat n) as [|[|[|[|i]]]]; try discriminate; injection B as <-; injection B' as <-; reflexivity.
Qed.
Lemma fork_valid : valid_chain fork.
Proof.
  apply chain_valid.
  - intros [|[|[|[|[|i]]]]] b B; try discriminate; injection B as <-; eexists _, _; reflexivity.
  - intros n b b' B B'. unfold block_at in *. replace (N.to_nat (n + 1)) with (S (N.to_nat n)) in B' by lia.
    destruct (N.to_nat n) as [|[|[|[|[|i]]]]]; try discriminate; injection B as <-; injection B' as <-; reflexivity.
Qed.
Lemma serving_ok c : valid_chain c -> numbered (serving c) /\ well_formed (serving c).
Proof. intros V. split; [apply (gw_numbered c V)|apply (gw_wf c V)]. Qed.
Lemma permits_cons c s a l : permitted s a -> permits c (act c s a) l -> permits c s (a :: l).
Proof. intros A B. split; assumption. Qed.
Ltac permits_tac :=
  repeat (apply permits_cons;
    [first [exact I | apply (serving_ok ours ours_valid) | apply (serving_ok fork fork_valid) | reflexivity]|]);
  exact I.

(* in bulk the answers come out of order; then the gateway moves to the other chain *)
Definition bulk_then_reorg : list action :=
  [BulkResult 1 (serving ours); BulkResult 0 (serving ours); Consume; BulkResult 2 (serving ours);
   Consume; Consume; BulkDone; Track (serving ours);
   Track (serving fork); L1Sends 0 100; Track (serving fork); Consume; Consume; ProducerEnds; Consume; ProducerRestarts;
   BulkChunk; BulkDone; Track (serving fork); Track (serving fork); Consume; Consume].

(* ---- C58 ---- *)
(* whatever the gateway serves, a stored block names the stored block before it as its parent *)
Theorem C58_linked_partial c s : reachable c s -> linked_headers (node_db c s).
Proof.
  intros R. destruct (reachable_ok c s R) as [O NF [_ L] _ _]. apply (proper_linked_headers _ _ O L).
Qed.
Print Assumptions C58_linked_partial.

(* the consumer only ever sees the successor of its head or a block it can ignore, which is what
   the claims on the stored chain (C20 to C26, C53) start from *)
Theorem C58_orderly_partial c s : reachable c s -> orderly_run (f_history c) (n_taken s) /\ no_finalized (n_taken s).
Proof. intros R. destruct (reachable_ok c s R) as [O NF _ _ _]. auto. Qed.
Print Assumptions C58_orderly_partial.

(* in particular the stored block numbers have no gap and reach up to the last block *)
Theorem C58_contiguous_partial c s n n' n'' :
  reachable c s -> kept (node_db c s) n -> kept (node_db c s) n'' -> n <= n' -> n' <= n'' ->
  kept (node_db c s) n'.
Proof.
  intros R K K' L L'. destruct (C58_orderly_partial c s R) as [O _]. destruct (run_inv _ _ O) as (low & I).
  unfold node_db in *. apply (kept_iff _ _ _ _ I) in K. apply (kept_iff _ _ _ _ I) in K'.
  apply (kept_iff _ _ _ _ I). lia.
Qed.
Print Assumptions C58_contiguous_partial.

(* the block a running producer builds on is the last one of the chain that it has announced,
   and that chain is linked *)
Theorem C58_head_partial c s :
  reachable c s -> alive s ->
  p_head (n_producer s) = tip_of (announced_chain c s) /\ linked (announced_chain c s) /\
  (forall n b, block_at (announced_chain c s) n = Some b -> lb_number b = n).
Proof.
  intros R A. pose proof (reachable_ok c s R) as OK. destruct (o_producer _ _ OK A) as [H _].
  destruct (node_announced c s OK) as [NU L]. auto.
Qed.
Print Assumptions C58_head_partial.

(* its assertion never fails *)
Theorem C58_no_panic_partial c s g :
  reachable c s -> p_phase (n_producer s) = Tracking ->
  (forall next prev,
     next = match p_head (n_producer s) with Some (n, _, _) => n + 1 | None => 0 end ->
     prev = match p_head (n_producer s) with Some (_, h, _) => Some h | None => None end ->
     download_block (f_mode c) g next prev (p_blocks (n_producer s)) <> DownloadPanics) /\
  (forall k, find_new_head (f_mode c) g (p_blocks (n_producer s)) k <> SearchPanics).
Proof.
  intros R PH. pose proof (reachable_ok c s R) as OK.
  exact (track_never_panics _ g _ _ (node_announced c s OK) PH (o_producer _ _ OK)).
Qed.
Print Assumptions C58_no_panic_partial.

Example C58_example :
  reachable node_config (acts node_config bulk_then_reorg) /\
  map h_hash (d_headers (node_db node_config (acts node_config bulk_then_reorg))) = [203; 202; 201; 100] /\
  map h_parent (d_headers (node_db node_config (acts node_config bulk_then_reorg))) = [202; 201; 100; 0].
Proof.
  split; [apply reachable_acts; [constructor|permits_tac]|]. split; vm_compute; reflexivity.
Qed.

(* It does not hold when the producer is restarted while blocks are still in the channel: it then
   starts from a database that lacks them.  If the gateway replaces such a block before the
   producer asks for it again, the consumer takes the new block for a duplicate, and stores its
   successor on top of the old one. *)
Definition restart_too_early : list action :=
  [BulkDone; Track (serving ours); Consume; Track (serving ours); ProducerEnds; ProducerRestarts;
   Consume; BulkDone; Track (serving fork); Consume; Track (serving fork); Consume].
Theorem C58_early_restart_refuted :
  exists c l,
    (forall a, In a l -> match a with
                         | Track g => numbered g /\ well_formed g
                         | BulkResult _ g => well_formed g
                         | _ => True
                         end) /\
    ~ linked_headers (node_db c (acts c l)).
Proof.
  exists node_config, restart_too_early. split.
  - intros a I. cbn in I.
    repeat (destruct I as [<-|I];
      [first [exact Coq.Init.Logic.I | apply (serving_ok ours ours_valid) | apply (serving_ok fork fork_valid)]|]).
    destruct I.
  - intros L.
    specialize (L (Header 1 101 100 1101) (Header 2 202 201 1202)).
    vm_compute in L. specialize (L (or_intror (or_introl eq_refl)) (or_introl eq_refl) eq_refl). discriminate.
Qed.
Print Assumptions C58_early_restart_refuted.

(* nor when the gateway answers with a block of another number: this is not checked *)
Definition misnumbered : gateway :=
  Gateway (fun _ => Served (bare 5 105 0) true true HashMatch) (fun _ => NoHead)
          (fun _ => Some []) (fun _ => Some 105) (fun _ => false).
Theorem C58_number_refuted :
  exists c l, (forall a, In a l -> match a with Track g => well_formed g | _ => True end) /\
    kept (node_db c (acts c l)) 5 /\ ~ kept (node_db c (acts c l)) 0.
Proof.
  exists node_config, [BulkDone; Track misnumbered; Consume]. split; [|split].
  - intros a I. cbn in I. destruct I as [<-|[<-|[<-|[]]]]; try exact Coq.Init.Logic.I.
    intros n b t a v E. injection E as <- _ _ _. apply bare_wf.
  - vm_compute. reflexivity.
  - vm_compute. discriminate.
Qed.
Print Assumptions C58_number_refuted.

(* ---- C59 ---- *)
(* a roll-back goes to a block that the gateway serves, and drops below the head only blocks that
   it does not *)
Theorem C59_roll_back c s g t :
  reachable c s -> p_phase (n_producer s) = Tracking ->
  In (Reorg t) (snd (track (f_mode c) g (n_producer s))) ->
  t < clen (announced_chain c s) /\
  (t <> 0 -> exists b, block_at (announced_chain c s) (t - 1) = Some b /\ serves (f_mode c) g (t - 1) (lb_hash b)) /\
  (forall n b, t <= n -> n + 1 < clen (announced_chain c s) ->
     block_at (announced_chain c s) n = Some b -> ~ serves (f_mode c) g n (lb_hash b)).
Proof.
  intros R PH I. pose proof (reachable_ok c s R) as OK.
  exact (track_reorg _ g _ _ t (node_announced c s OK) PH (o_producer _ _ OK) I).
Qed.
Print Assumptions C59_roll_back.

(* when the gateway stays at one chain and nothing fails, the node announces exactly that chain
   after at most one turn per block and one more, unless it is ahead of the gateway already *)
Theorem C59_converges c s theirs l :
  reachable c s -> p_phase (n_producer s) = Tracking -> valid_chain theirs ->
  no_collision (announced_chain c s) theirs ->
  remembers_fork (announced_chain c s) theirs (p_blocks (n_producer s)) ->
  calm c theirs s l -> (length theirs < turns l)%nat ->
  announced_chain c (fold_left (act c) l s) = theirs \/
  (theirs = firstn (length theirs) (announced_chain c s) /\
   announced_chain c (fold_left (act c) l s) = announced_chain c s).
Proof. intros R. apply calm_converges. apply reachable_ok. exact R. Qed.
Print Assumptions C59_converges.

(* and stores it when the consumer has caught up *)
Theorem C59_stores c s theirs l :
  reachable c s -> p_phase (n_producer s) = Tracking -> valid_chain theirs ->
  no_collision (announced_chain c s) theirs ->
  remembers_fork (announced_chain c s) theirs (p_blocks (n_producer s)) ->
  calm c theirs s l -> (length theirs < turns l)%nat ->
  (length (announced_chain c s) <= length theirs)%nat ->
  n_queue (fold_left (act c) l s) = [] ->
  stored c (fold_left (act c) l s) = theirs.
Proof.
  intros R PH V NC RF C T LE Q.
  assert (A : announced_chain c (fold_left (act c) l s) = theirs).
  { destruct (C59_converges c s theirs l R PH V NC RF C T) as [A|[PRE A]]; [exact A|]. rewrite A.
    assert (E : length theirs = length (announced_chain c s)).
    { pose proof (f_equal (@length _) PRE) as E. rewrite firstn_length in E. lia. }
    rewrite PRE, E, firstn_all. reflexivity. }
  unfold announced_chain in A. rewrite Q in A. exact A.
Qed.
Print Assumptions C59_stores.

Definition three_blocks : list action :=
  [BulkDone; Track (serving ours); Track (serving ours); Consume; Track (serving ours)].
Definition calm_stretch : list action :=
  [Track (serving fork); Consume; Track (serving fork); Consume; Consume; L1Sends 1 201; Track (serving fork);
   Track (serving fork); Consume; Consume; Track (serving fork); Consume; Consume].
Example C59_example :
  let s := acts node_config three_blocks in
  reachable node_config s /\ p_phase (n_producer s) = Tracking /\ valid_chain fork /\
  no_collision (announced_chain node_config s) fork /\
  remembers_fork (announced_chain node_config s) fork (p_blocks (n_producer s)) /\
  announced_chain node_config s = ours /\
  In (Reorg 1) (snd (track Strict (serving fork) (n_producer s))) /\
  calm node_config fork s calm_stretch /\ (length fork < turns calm_stretch)%nat /\
  n_queue (fold_left (act node_config) calm_stretch s) = [].
Proof.
  cbv zeta. set (s := acts node_config three_blocks).
  assert (A : announced_chain node_config s = ours) by (vm_compute; reflexivity).
  split; [apply reachable_acts; [constructor|permits_tac]|].
  split; [vm_compute; reflexivity|]. split; [exact fork_valid|]. rewrite A.
  split.
  { intros b b' I I' E. cbn in I, I'.
    repeat (destruct I as [<-|I]); try destruct I;
      repeat (destruct I' as [<-|I']); try destruct I'; first [reflexivity | discriminate E]. }
  split.
  { exists 1%nat. split; [cbn; lia|]. split; [reflexivity|]. intros n L U. unfold clen in U. cbn in U.
    assert (n = 0 \/ n = 1) as [->| ->] by lia; vm_compute; discriminate. }
  split; [reflexivity|]. split; [vm_compute; auto|]. split; [|split; [cbn; lia|vm_compute; reflexivity]].
  assert (T : forall x l, calm node_config fork (act node_config x (Track (serving fork))) l ->
              calm node_config fork x (Track (serving fork) :: l)).
  { intros x l H. split; [exists (fun _ => []), (fun _ => false); reflexivity|exact H]. }
  assert (U : forall x l, match n_queue x with
                          | [] => True
                          | e :: _ => consume Archive (run Archive (n_taken x)) e <> None
                          end -> calm node_config fork (act node_config x Consume) l ->
              calm node_config fork x (Consume :: l)).
  { intros x l Q H. split; [exact Q|exact H]. }
  assert (V : forall x l, calm node_config fork (act node_config x (L1Sends 1 201)) l ->
              calm node_config fork x (L1Sends 1 201 :: l)).
  { intros x l H. split; [exact I|exact H]. }
  unfold calm_stretch.
  apply T. apply U; [vm_compute; discriminate|]. apply T. apply U; [vm_compute; discriminate|].
  apply U; [vm_compute; discriminate|]. apply V. apply T. apply T. do 2 (apply U; [vm_compute; discriminate|]).
  apply T. apply U; [vm_compute; discriminate|]. apply U; [vm_compute; first [exact I|discriminate]|]. exact I.
Qed.

(* ---- C62 ---- *)
(* whatever happens, a stored header is the one of a block that the gateway served, and whose
   transactions, status and block hash passed verification *)
Theorem C62_verified c l h :
  In h (d_headers (node_db c (acts c l))) ->
  exists b, served_verified c l b /\
    h = Header (lb_number b) (lb_hash b) (lb_parent b) (lb_commitment b).
Proof. intros I. apply (run_origin _ _ _ (f_taken _ _ (acts_from c l)) h I). Qed.
Print Assumptions C62_verified.

(* with the strict setting a block with a wrong hash is refused, with the other one it is not *)
Definition dishonest : gateway :=
  Gateway (fun _ => Served (bare 0 666 0) true true HashMismatch) (fun _ => NoHead)
          (fun _ => Some []) (fun _ => Some 666) (fun _ => false).
Example C62_example :
  d_headers (node_db node_config (acts node_config [BulkDone; Track dishonest; Consume])) = [] /\
  map h_hash (d_headers (node_db (Config Archive AllowMismatch 10)
    (acts (Config Archive AllowMismatch 10) [BulkDone; Track dishonest; Consume]))) = [666] /\
  map h_hash (d_headers (node_db node_config (acts node_config bulk_then_reorg))) = [203; 202; 201; 100].
Proof. repeat split; vm_compute; reflexivity. Qed.
