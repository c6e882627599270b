(* C84: the state and the classes that executions work with. *)
From Coq Require Import List NArith Bool Arith Lia ZifyBool ZifyN ZifyNat.
From Verif Require Import AList StateUpdateModel ChainModel ChainSpec ChainProof ChainProperties ExecClassModel ExecClassSpec ExecClassProof.
Import ListNotations.
Local Open Scope N_scope.

(* ---- C84_state: an execution on top of a stored block reads the state of the chain as of that block, and
   zero for what was never set; one on top of nothing reads zeros. ---- *)
Theorem C84_state : forall m es r, orderly_run m es ->
  match r_block r with
  | None => (forall a k, get_storage_at (db_after m es) r a k = 0) /\
            (forall a, get_nonce_at (db_after m es) r a = 0) /\ (forall a, get_class_hash_at (db_after m es) r a = 0)
  | Some n => kept (db_after m es) n ->
      let or0 := fun o => match o with Some v => v | None => 0 end in
      (forall a k, get_storage_at (db_after m es) r a k = or0 (storage_at (chain_after m es) n a k)) /\
      (forall a, get_nonce_at (db_after m es) r a = or0 (nonce_at (chain_after m es) n a)) /\
      (forall a, get_class_hash_at (db_after m es) r a = or0 (class_at (chain_after m es) n a))
  end.
Proof.
  intros m es r O. unfold get_storage_at, get_nonce_at, get_class_hash_at. destruct (r_block r) as [n|]; [|auto].
  intros K. destruct (C18_lookup_by_number m es n O K) as (A & B & C & _). cbn. repeat split; intros; [rewrite A|rewrite B|rewrite C]; reflexivity.
Qed.
Print Assumptions C84_state.
Example C84_state_example : orderly_run Archive history /\ kept (db_after Archive history) 1 /\
  get_storage_at (db_after Archive history) (Reader (Some 1) false) 10 1 = 6 /\
  get_storage_at (db_after Archive history) (Reader (Some 0) false) 10 2 = 0 /\
  get_class_hash_at (db_after Archive history) (Reader (Some 2) false) 10 = 8.
Proof. split; [orderly_tac|]. vm_compute. repeat split. Qed.

(* ---- C84_found: whatever other executions and the sync task do, reorgs included, an execution on top of a
   stored block is given every class declared up to it. ---- *)
Theorem C84_found : forall D (code : N -> D) m ops seen r n x,
  let w := execs D code m ops in let es := firstn seen (w_events D w) in
  orderly_run m (w_events D w) -> r_block r = Some n -> kept (db_after m es) n -> declared_by m es n x ->
  answer D code m w seen r x = Some (code x).
Proof.
  intros D code m ops seen r n x w es O R K H. pose proof (execs_good D code m ops O) as G.
  destruct (answer_cases D code m w seen r x G) as [(e & n' & _ & _ & _ & _ & A)|A]; [exact A|]. fold w in A. rewrite A.
  pose proof (orderly_firstn m _ seen O) as O'. fold w in O'. fold es in O'.
  apply (declared_lookup m es n x O' K) in H. destruct H as (h & E). unfold non_cached, snapshot. rewrite R.
  fold es. change (c_db (run m es)) with (db_after m es). destruct (r_ignore r); [|rewrite E; reflexivity].
  apply lookup_defs in E. destruct E as [E _]. rewrite E. reflexivity.
Qed.
Print Assumptions C84_found.
(* ---- C84_pending: an execution on top of a pending block also those only downloaded. ---- *)
Theorem C84_pending : forall D (code : N -> D) m ops seen n x,
  let w := execs D code m ops in
  orderly_run m (w_events D w) -> In (ClassDefinition x) (firstn seen (w_events D w)) ->
  answer D code m w seen (Reader (Some n) true) x = Some (code x).
Proof.
  intros D code m ops seen n x w O H. pose proof (execs_good D code m ops O) as G.
  destruct (answer_cases D code m w seen (Reader (Some n) true) x G) as [(e & n' & _ & _ & _ & _ & A)|A]; [exact A|]. fold w in A. rewrite A.
  unfold non_cached, snapshot. cbn [r_block r_ignore]. pose proof (downloaded_row m _ x H) as R. unfold has_row in R. fold w.
  destruct (nget x (d_defs (c_db (run m (firstn seen (w_events D w)))))); [reflexivity|congruence].
Qed.
Print Assumptions C84_pending.

(* ---- C84_only_declared_partial: without reorgs, it is given no others; which classes are in the cache does
   not show. ---- *)
Theorem C84_only_declared_partial : forall D (code : N -> D) m ops seen n x,
  let w := execs D code m ops in let es := firstn seen (w_events D w) in
  orderly_run m (w_events D w) -> no_reorg (w_events D w) -> kept (db_after m es) n ->
  (answer D code m w seen (Reader (Some n) false) x = Some (code x) <-> declared_by m es n x) /\
  (answer D code m w seen (Reader (Some n) false) x = None <-> ~ declared_by m es n x).
Proof.
  intros D code m ops seen n x w es O NR K. pose proof (execs_good D code m ops O) as G. fold w in G.
  pose proof (orderly_firstn m _ seen O) as O'. fold w in O'. fold es in O'.
  assert (S : answer D code m w seen (Reader (Some n) false) x <> None -> declared_by m es n x).
  { destruct (answer_cases D code m w seen (Reader (Some n) false) x G) as [(e & n' & ON & EX & [= <-] & L & A)|A].
    - intros _. destruct ON as [_ (p & [(b & B & F) _])]. rewrite EX in F. exists (e_height D e), b. split; [exact L|]. split; [|exact F].
      destruct (chain_grows m (w_events D w) p NR) as (l1 & E1). destruct (chain_grows m (w_events D w) seen NR) as (l2 & E2).
      apply (block_at_app_inv _ l2). { pose proof (kept_lt m es n O' K). unfold es in *. lia. }
      unfold es. rewrite <- E2, E1. apply block_at_app. exact B.
    - rewrite A. unfold non_cached, snapshot. cbn [r_block r_ignore]. fold es. intros H. apply (declared_lookup m es n x O' K). unfold db_after.
      destruct (lookup_declared_at _ _ x) as [h|]; [eauto|]. exfalso. apply H. reflexivity. }
  assert (C : declared_by m es n x -> answer D code m w seen (Reader (Some n) false) x = Some (code x)).
  { intros H. exact (C84_found D code m ops seen (Reader (Some n) false) n x O eq_refl K H). }
  split; split.
  - intros E. apply S. congruence.
  - exact C.
  - intros E H. apply C in H. congruence.
  - intros H. destruct (answer D code m w seen (Reader (Some n) false) x); [|reflexivity]. exfalso. apply H, S. discriminate.
Qed.
Print Assumptions C84_only_declared_partial.
Definition id_code (x : N) : N := x.
Definition ex_ops : list op := map Sync history ++ [Read 7 (Reader (Some 1) false) 8; Set_ 0; Read 7 (Reader (Some 2) false) 7].
Example C84_example : orderly_run Archive (w_events N (execs N id_code Archive ex_ops)) /\ no_reorg (w_events N (execs N id_code Archive ex_ops)) /\
  map (e_hash N) (w_cache N (execs N id_code Archive ex_ops)) = [8] /\ map (e_hash N) (w_sets N (execs N id_code Archive ex_ops)) = [7] /\
  map (fun n => answer N id_code Archive (execs N id_code Archive ex_ops) 7 (Reader (Some n) false) 8) [0; 1; 2] = [None; Some 8; Some 8] /\
  answer N id_code Archive (execs N id_code Archive ex_ops) 3 (Reader (Some 0) true) 8 = Some 8.
Proof.
  assert (E : w_events N (execs N id_code Archive ex_ops) = history) by (vm_compute; reflexivity). rewrite E.
  split; [orderly_tac|]. split; [intros t H; cbn in H; intuition discriminate|]. vm_compute. repeat split.
Qed.
(* ---- C84_once_partial: with reorgs, it is given only classes that were, some time, declared up to a block of
   its number, ... ---- *)
Theorem C84_once_partial : forall D (code : N -> D) m ops seen n x d,
  let w := execs D code m ops in
  orderly_run m (w_events D w) -> kept (db_after m (firstn seen (w_events D w))) n ->
  answer D code m w seen (Reader (Some n) false) x = Some d -> d = code x /\ exists p, declared_by m (firstn p (w_events D w)) n x.
Proof.
  intros D code m ops seen n x d w O K E. pose proof (execs_good D code m ops O) as G. fold w in G.
  pose proof (orderly_firstn m _ seen O) as O'. fold w in O'.
  destruct (answer_cases D code m w seen (Reader (Some n) false) x G) as [(e & n' & ON & EX & [= <-] & L & A)|A].
  - split; [congruence|]. destruct ON as [_ (p & [(b & B & F) _])]. rewrite EX in F. exists p, (e_height D e), b. auto.
  - rewrite A in E. unfold non_cached, snapshot in E. cbn [r_block r_ignore] in E.
    destruct (lookup_declared_at _ _ x) as [h|] eqn:EL; [|discriminate E]. injection E as <-. split; [reflexivity|].
    exists seen. apply (declared_lookup m _ n x O' K). exists h. exact EL.
Qed.
Print Assumptions C84_once_partial.
(* ... but the cache is not told of reorgs: an execution on top of a block gets a class that is only declared
   by a later one. *)
Definition ex_reorg : list op :=
  map Sync [ClassDefinition 7; DownloadedBlock ex0; ClassDefinition 8; DownloadedBlock ex1] ++ [Read 4 (Reader (Some 1) false) 8; Set_ 0] ++
  map Sync [Reorg 1; DownloadedBlock ex1'; DownloadedBlock ex2'].
Theorem C84_only_declared_refuted : exists D (code : N -> D) m ops seen n x,
  let w := execs D code m ops in let es := firstn seen (w_events D w) in
  orderly_run m (w_events D w) /\ kept (db_after m es) n /\ ~ declared_by m es n x /\ declared_by m es (n + 1) x /\
  answer D code m w seen (Reader (Some n) false) x = Some (code x).
Proof.
  exists N, id_code, Archive, ex_reorg, 7%nat, 1, 8. cbv zeta.
  assert (E : w_events N (execs N id_code Archive ex_reorg) = [ClassDefinition 7; DownloadedBlock ex0; ClassDefinition 8; DownloadedBlock ex1; Reorg 1; DownloadedBlock ex1'; DownloadedBlock ex2'])
    by (vm_compute; reflexivity).
  rewrite E. cbn [firstn].
  assert (O : orderly_run Archive [ClassDefinition 7; DownloadedBlock ex0; ClassDefinition 8; DownloadedBlock ex1; Reorg 1; DownloadedBlock ex1'; DownloadedBlock ex2']) by orderly_tac.
  assert (K1 : kept (db_after Archive [ClassDefinition 7; DownloadedBlock ex0; ClassDefinition 8; DownloadedBlock ex1; Reorg 1; DownloadedBlock ex1'; DownloadedBlock ex2']) 1) by (vm_compute; reflexivity).
  assert (K2 : kept (db_after Archive [ClassDefinition 7; DownloadedBlock ex0; ClassDefinition 8; DownloadedBlock ex1; Reorg 1; DownloadedBlock ex1'; DownloadedBlock ex2']) (1 + 1)) by (vm_compute; reflexivity).
  split; [exact O|]. split; [exact K1|]. split; [|split].
  - intros H. apply (declared_lookup _ _ _ _ O K1) in H. destruct H as (h & H). vm_compute in H. discriminate H.
  - apply (declared_lookup _ _ _ _ O K2). exists 2. vm_compute. reflexivity.
  - vm_compute. reflexivity.
Qed.
Print Assumptions C84_only_declared_refuted.

(* ---- C84_bounded: the cache never has more than 128 classes. ---- *)
Theorem C84_bounded : forall D (code : N -> D) m ops, (length (w_cache D (execs D code m ops)) <= 128)%nat.
Proof.
  intros D code m ops. induction ops as [|o ops IH] using rev_ind; [cbn; lia|]. unfold execs in *. rewrite fold_left_app. cbn [fold_left].
  exact (exec_bounded D code m _ o IH).
Qed.
Print Assumptions C84_bounded.
