(** Theorems for C08 to C15 (Merkle trees and their storage). *)
From Coq Require Import List Bool Arith NArith Lia.
From Verif Require Import AList MerkleModel MerkleSpec MerkleProof MerkleTreeProof MerkleCommitProof
  MerkleMemberProof TrieDbModel TrieDbSpec TrieRowsProof TrieDbProof TrieLoopProof TrieInvProof
  TrieFinalProof.
Import ListNotations.

(** A toy hash for the examples. *)
Definition toy_hash (a b : felt) : felt := ((a * 31 + b * 17 + 7) mod P)%N.

(** C08.  On the empty tree every script of writes and reads succeeds and the
    reads answer as a map does; the backing storage is never needed. *)
Theorem C08_tree_is_a_map :
  forall HEIGHT (st : storage) (ops : list tree_op),
    HEIGHT <> 0 -> HEIGHT <= 251 ->
    Forall (fun o => length (op_key o) = HEIGHT) ops ->
    exists t, run_script HEIGHT st tree_empty ops = Ok (t, snd (map_script no_contents ops)).
Proof.
  intros HEIGHT st ops P1 P2 V.
  destruct (script_from_empty HEIGHT P1 P2 toy_hash st ops V) as (t & u & E & _). eauto.
Qed.
Print Assumptions C08_tree_is_a_map.

Example C08_example :
  let k b1 b2 b3 := [b1; b2; b3] in
  let ops := [TSet (k true false true) 5; TSet (k true false false) 6; TGet (k true false true);
              TSet (k true false true) 0; TGet (k true false true); TGet (k true false false);
              TGet (k false false false)]%N in
  Forall (fun o => length (op_key o) = 3) ops /\
  map_script no_contents ops = (fst (map_script no_contents ops), [Some 5; None; Some 6; None]%N) /\
  exists t, run_script 3 (table_storage [] (fun _ => None)) tree_empty ops =
            Ok (t, [Some 5; None; Some 6; None]%N).
Proof.
  split; [repeat constructor|]. split; [reflexivity|]. vm_compute. eexists. reflexivity.
Qed.

(** C08, C11.  The same for a tree loaded from storage at any readable block of
    any database reached by blocks, prunings and reorgs: nothing can be told
    from a map that holds what the trie held at that block; and committing
    gives the root of the resulting contents. *)
Theorem C08_stored_tree_is_a_map :
  forall HEIGHT (H : felt -> felt -> felt) mode hash_leaves (ops : list op),
    HEIGHT <> 0 -> HEIGHT <= 251 ->
    valid_ops HEIGHT ([], 0) ops ->
    exists x outs, run HEIGHT H mode hash_leaves empty_chain_db ops = Ok (x, outs) /\
      forall o b script,
        readable mode (spec_run ([], 0) ops) b ->
        Forall (fun q => length (op_key q) = HEIGHT) script ->
        let m := contents_at (fst (spec_run ([], 0) ops)) o b in
        let st := db_storage (x_db x) o (Some b) in
        exists t u,
          run_script HEIGHT st (db_load (x_db x) o (Some b)) script = Ok (t, snd (map_script m script)) /\
          commit H st t = Ok u /\
          u_root u = spec_root H HEIGHT (fst (map_script m script)).
Proof.
  intros HEIGHT H mode hl ops P1 P2 V.
  destruct (script_from_stored HEIGHT P1 P2 H mode hl ops V) as (x & E & R). eauto.
Qed.
Print Assumptions C08_stored_tree_is_a_map.

(** C09.  Two scripts that leave the same contents commit to the same root;
    if the contents are empty the root is zero.  (Also: the root is the one of
    the Starknet definition.) *)
Theorem C09_root_depends_on_contents :
  forall HEIGHT (H : felt -> felt -> felt) (st1 st2 : storage) (ops1 ops2 : list tree_op),
    HEIGHT <> 0 -> HEIGHT <= 251 ->
    Forall (fun o => length (op_key o) = HEIGHT) ops1 ->
    Forall (fun o => length (op_key o) = HEIGHT) ops2 ->
    (forall k, length k = HEIGHT ->
       fst (map_script no_contents ops1) k = fst (map_script no_contents ops2) k) ->
    exists t1 out1 u1 t2 out2 u2,
      run_script HEIGHT st1 tree_empty ops1 = Ok (t1, out1) /\ commit H st1 t1 = Ok u1 /\
      run_script HEIGHT st2 tree_empty ops2 = Ok (t2, out2) /\ commit H st2 t2 = Ok u2 /\
      u_root u1 = u_root u2 /\
      u_root u1 = spec_root H HEIGHT (fst (map_script no_contents ops1)) /\
      ((forall k, length k = HEIGHT -> fst (map_script no_contents ops1) k = 0%N) -> u_root u1 = 0%N).
Proof.
  intros HEIGHT H st1 st2 ops1 ops2 P1 P2 V1 V2 Eq.
  destruct (script_from_empty HEIGHT P1 P2 H st1 ops1 V1) as (t1 & u1 & E1 & C1 & R1).
  destruct (script_from_empty HEIGHT P1 P2 H st2 ops2 V2) as (t2 & u2 & E2 & C2 & R2).
  do 6 eexists. repeat match goal with |- _ /\ _ => split end; eauto.
  - rewrite R1, R2. now apply spec_root_ext.
  - intros Z. rewrite R1. now apply spec_root_empty.
Qed.
Print Assumptions C09_root_depends_on_contents.

(** C09 for stored tries: the root recorded for a readable block is the root of
    the contents, however the writes were split into blocks, pruned and reorged. *)
Theorem C09_stored_root :
  forall HEIGHT (H : felt -> felt -> felt) mode hash_leaves (ops : list op),
    HEIGHT <> 0 -> HEIGHT <= 251 ->
    valid_ops HEIGHT ([], 0) ops ->
    exists x, run HEIGHT H mode hash_leaves empty_chain_db ops =
                Ok (x, spec_outs H HEIGHT ([], 0) ops) /\
      forall o b, readable mode (spec_run ([], 0) ops) b ->
        read_root (x_db x) o b =
          Some (spec_root H HEIGHT (contents_at (fst (spec_run ([], 0) ops)) o b)).
Proof.
  intros HEIGHT H mode hl ops P1 P2 V.
  destruct (run_reads HEIGHT P1 P2 H mode hl ops V) as (x & E & R).
  exists x. split; auto. intros o b Rb. now apply R.
Qed.
Print Assumptions C09_stored_root.

Example C09_example :
  let a := [true; false; true] in let b := [false; true; true] in
  let ops1 := [TSet a 5; TSet b 7]%N in
  let ops2 := [TSet b 9; TSet [true; true; true] 3; TSet a 1; TSet b 7; TSet a 5;
               TSet [true; true; true] 0]%N in
  let st := table_storage [] (fun _ => None) in
  (exists t1 u1 t2 u2,
    run_script 3 st tree_empty ops1 = Ok (t1, []) /\ commit toy_hash st t1 = Ok u1 /\
    run_script 3 st tree_empty ops2 = Ok (t2, []) /\ commit toy_hash st t2 = Ok u2 /\
    u_root u1 = u_root u2 /\ u_root u1 <> 0%N).
Proof.
  vm_compute. do 4 eexists. repeat (split; [reflexivity|]). discriminate.
Qed.

(** C10.  Equal roots, equal contents: unless the hash computations that make
    up the two roots (all of them can be written down) collide or give zero. *)
Theorem C10_root_binds_contents :
  forall HEIGHT (H : felt -> felt -> felt) (st1 st2 : storage) (ops1 ops2 : list tree_op)
         t1 out1 u1 t2 out2 u2,
    HEIGHT <> 0 -> HEIGHT <= 251 ->
    Forall (fun o => length (op_key o) = HEIGHT) ops1 ->
    Forall (fun o => length (op_key o) = HEIGHT) ops2 ->
    run_script HEIGHT st1 tree_empty ops1 = Ok (t1, out1) -> commit H st1 t1 = Ok u1 ->
    run_script HEIGHT st2 tree_empty ops2 = Ok (t2, out2) -> commit H st2 t2 = Ok u2 ->
    let m1 := fst (map_script no_contents ops1) in
    let m2 := fst (map_script no_contents ops2) in
    u_root u1 = u_root u2 ->
    collision_free H (root_queries H HEIGHT m1 ++ root_queries H HEIGHT m2) ->
    forall k, length k = HEIGHT -> m1 k = m2 k.
Proof.
  intros HEIGHT H st1 st2 ops1 ops2 t1 o1 u1 t2 o2 u2 P1 P2 V1 V2 E1 C1 E2 C2 m1 m2 Er CF.
  destruct (script_from_empty HEIGHT P1 P2 H st1 ops1 V1) as (t1' & u1' & E1' & C1' & R1).
  destruct (script_from_empty HEIGHT P1 P2 H st2 ops2 V2) as (t2' & u2' & E2' & C2' & R2).
  rewrite E1 in E1'. injection E1' as <- _. rewrite C1 in C1'. injection C1' as <-.
  rewrite E2 in E2'. injection E2' as <- _. rewrite C2 in C2'. injection C2' as <-.
  apply (root_binds H HEIGHT m1 m2 P1 CF). unfold m1, m2. congruence.
Qed.
Print Assumptions C10_root_binds_contents.

(** The hypotheses can be met: two different contents, no collisions. *)
Example C10_example :
  let a := [true; false; true] in let b := [false; true; true] in
  let m1 := fst (map_script no_contents [TSet a 5; TSet b 7]%N) in
  let m2 := fst (map_script no_contents [TSet a 5; TSet b 8]%N) in
  collision_free toy_hash (root_queries toy_hash 3 m1 ++ root_queries toy_hash 3 m2) /\
  length (root_queries toy_hash 3 m1 ++ root_queries toy_hash 3 m2) = 6.
Proof.
  split; [|reflexivity].
  split.
  - intros q1 q2 H1 H2. vm_compute in H1, H2.
    repeat destruct H1 as [<-|H1]; try destruct H1;
      repeat destruct H2 as [<-|H2]; try destruct H2; vm_compute; congruence.
  - intros q H1. vm_compute in H1. repeat destruct H1 as [<-|H1]; try destruct H1; vm_compute; congruence.
Qed.

(** C11.  A chain that only grows, archive mode: after any blocks, each with
    any writes to any tries, the trie of every block can be loaded from storage
    and holds exactly the writes up to that block; the stored root is its root. *)
Theorem C11_reload :
  forall HEIGHT (H : felt -> felt -> felt) hash_leaves (blocks : list updates),
    HEIGHT <> 0 -> HEIGHT <= 251 ->
    Forall (valid_updates HEIGHT) blocks ->
    exists x outs, run HEIGHT H None hash_leaves empty_chain_db (map OBlock blocks) = Ok (x, outs) /\
      forall o b, b < length blocks ->
        read_root (x_db x) o b = Some (spec_root H HEIGHT (after_block blocks o b)) /\
        forall k, length k = HEIGHT ->
          read_value HEIGHT (x_db x) o b k = Ok (answer (after_block blocks o b) k).
Proof.
  intros HEIGHT H hl blocks P1 P2 V.
  assert (G : grows HEIGHT (map OBlock blocks)) by (apply Forall_map; exact V).
  assert (Eb : blocks_of (map OBlock blocks) = blocks).
  { clear. induction blocks; simpl; auto. f_equal. exact IHblocks. }
  destruct (grows_reads HEIGHT P1 P2 H None hl _ G) as (x & outs & E & R).
  rewrite Eb in R. exists x, outs. split; auto. intros o b Lb.
  destruct (R o b Lb (or_introl I)) as [R1 R2]. split; auto. intros k Lk. now apply R2.
Qed.
Print Assumptions C11_reload.

(** C11.  The root returned while a block is processed is the root of the
    contents after that block. *)
Theorem C11_committed_roots :
  forall HEIGHT (H : felt -> felt -> felt) mode hash_leaves (ops : list op) x outs,
    HEIGHT <> 0 -> HEIGHT <= 251 -> grows HEIGHT ops ->
    run HEIGHT H mode hash_leaves empty_chain_db ops = Ok (x, outs) ->
    forall o ups ops1 ops2, ops = ops1 ++ OBlock ups :: ops2 -> names o ups ->
    exists rs, nth_error outs (length ops1) = Some rs /\
      In (o, spec_root H HEIGHT (after_block (blocks_of ops) o (length (blocks_of ops1)))) rs.
Proof.
  intros HEIGHT H mode hl ops x outs P1 P2 G E. eapply grows_roots; eauto.
Qed.
Print Assumptions C11_committed_roots.

Example C11_example :
  let a := [true; false; true] in let b := [false; true; true] in
  let blocks := [ [(0, [(a, 5); (b, 6)]); (1, [(a, 9)])]; []; [(0, [(a, 0); (b, 7)])] ]%N in
  Forall (valid_updates 3) blocks /\
  match run 3 toy_hash None (fun _ => false) empty_chain_db (map OBlock blocks) with
  | Ok (x, _) =>
      (map (fun n => read_value 3 (x_db x) 0%N n a) [0; 1; 2]%nat = [Ok (Some 5); Ok (Some 5); Ok None]) /\
      (map (fun n => read_value 3 (x_db x) 0%N n b) [0; 1; 2]%nat = [Ok (Some 6); Ok (Some 6); Ok (Some 7)])
  | _ => False
  end%N.
Proof.
  split; [|vm_compute; auto].
  repeat constructor; simpl; try tauto; intros; repeat match goal with
    | X : _ \/ _ |- _ => destruct X | X : (_, _) = (_, _) |- _ => inversion X; clear X; subst
    | X : False |- _ => destruct X | X : In _ _ |- _ => simpl in X end; auto; try discriminate.
  intros [X|[]]; discriminate.
Qed.

(** C12.  Storage proofs for any key of any trie at any readable block are
    accepted, with the stored value (zero for an absent key).  (A trie whose
    root hash happens to be zero although it is not empty is excluded: nobody
    knows such a trie.) *)
Theorem C12_proofs_complete :
  forall HEIGHT (H : felt -> felt -> felt) mode hash_leaves (ops : list op),
    HEIGHT <> 0 -> HEIGHT <= 251 ->
    valid_ops HEIGHT ([], 0) ops ->
    exists x outs, run HEIGHT H mode hash_leaves empty_chain_db ops = Ok (x, outs) /\
      forall o b k, readable mode (spec_run ([], 0) ops) b -> length k = HEIGHT ->
        let m := contents_at (fst (spec_run ([], 0) ops)) o b in
        exists pr, read_proof HEIGHT (x_db x) o b k = Ok pr /\
          Forall (fun e => trie_node_hash H (fst e) = Ok (snd e)) pr /\
          (spec_root H HEIGHT m <> 0%N \/ root_index (x_db x) o b = None ->
           verify H (spec_root H HEIGHT m) k (map fst pr) = Some (m k)).
Proof.
  intros HEIGHT H mode hl ops P1 P2 V.
  destruct (run_reads HEIGHT P1 P2 H mode hl ops V) as (x & E & R).
  exists x, (spec_outs H HEIGHT ([], 0) ops). split; auto. intros o b k Rb Lk m.
  destruct (R o b Rb) as [_ R2]. destruct (R2 k Lk) as (_ & pr & ? & ? & ?). exists pr. auto.
Qed.
Print Assumptions C12_proofs_complete.

Example C12_example :
  let a := [true; false; true] in let b := [false; true; true] in let c := [false; true; false] in
  match run 3 toy_hash None (fun _ => false) empty_chain_db [OBlock [(0, [(a, 5); (b, 6)])]]%N with
  | Ok (x, _) =>
      let m := puts no_contents [(a, 5); (b, 6)]%N in
      match read_proof 3 (x_db x) 0%N 0 a, read_proof 3 (x_db x) 0%N 0 c with
      | Ok pa, Ok pc =>
          length pa = 2 /\ length pc = 2 /\
          verify toy_hash (spec_root toy_hash 3 m) a (map fst pa) = Some 5%N /\
          verify toy_hash (spec_root toy_hash 3 m) c (map fst pc) = Some 0%N
      | _, _ => False
      end
  | _ => False
  end.
Proof. vm_compute. auto. Qed.

(** C13.  Whatever nodes somebody presents: if they verify against the root of
    a trie they prove what the trie holds, unless the hash computations of the
    trie and of the presented nodes collide. *)
Theorem C13_proofs_sound :
  forall HEIGHT (H : felt -> felt -> felt) (m : contents) (proof : list trie_node) k v,
    HEIGHT <> 0 -> length k = HEIGHT ->
    collision_free H (root_queries H HEIGHT m ++ proof_queries proof) ->
    verify H (spec_root H HEIGHT m) k proof = Some v ->
    v = m k.
Proof. intros HEIGHT H m proof k v P1 Lk CF V. eapply verify_sound; eauto. Qed.
Print Assumptions C13_proofs_sound.

Example C13_example :
  let a := [true; false; true] in let b := [false; true; true] in
  let m := puts no_contents [(a, 5); (b, 6)]%N in
  let good := [TBin (fadd (toy_hash 6 3) 2) (fadd (toy_hash 5 1) 2); TEdge 5 [false; true]]%N in
  let forged := [TBin (fadd (toy_hash 6 3) 2) (fadd (toy_hash 5 1) 2); TEdge 4 [false; true]]%N in
  verify toy_hash (spec_root toy_hash 3 m) a good = Some 5%N /\
  verify toy_hash (spec_root toy_hash 3 m) a forged = None /\
  collision_free toy_hash (root_queries toy_hash 3 m ++ proof_queries good).
Proof.
  split; [vm_compute; reflexivity|]. split; [vm_compute; reflexivity|]. split.
  - intros q1 q2 H1 H2. vm_compute in H1, H2.
    repeat destruct H1 as [<-|H1]; try destruct H1;
      repeat destruct H2 as [<-|H2]; try destruct H2; vm_compute; congruence.
  - intros q H1. vm_compute in H1. repeat destruct H1 as [<-|H1]; try destruct H1; vm_compute; congruence.
Qed.

(** C14.  Updating the trie of the head: the nodes reported as removed are
    exactly the stored nodes of the old version that the new version does not
    reach; the new version otherwise only reaches rows that did not exist. *)
Theorem C14_removed_nodes :
  forall HEIGHT (H : felt -> felt -> felt) mode hash_leaves (ops : list op) b,
    HEIGHT <> 0 -> HEIGHT <= 251 ->
    valid_ops HEIGHT ([], 0) ops ->
    S b = length (fst (spec_run ([], 0) ops)) ->
    exists x outs, run HEIGHT H mode hash_leaves empty_chain_db ops = Ok (x, outs) /\
      forall o s, (forall k v, In (k, v) s -> length k = HEIGHT) ->
        let tb := d_nodes (x_db x) in
        let st := db_storage (x_db x) o (Some b) in
        let old := root_index (x_db x) o b in
        exists t u tb' ru,
          apply_sets HEIGHT st (db_load (x_db x) o (Some b)) s = Ok t /\
          commit H st t = Ok u /\
          insert_trie tb u = Ok (tb', ru) /\
          let new := match ru with RUnchanged => old | RUpdated i => Some i | REmpty => None end in
          (forall i, In i (u_removed u) -> reaches_opt tb old i /\ ~ reaches_opt tb' new i) /\
          (forall i, reaches_opt tb old i -> In i (u_removed u) \/ reaches_opt tb' new i) /\
          (forall i, reaches_opt tb' new i -> reaches_opt tb old i \/ al_get N.eqb i tb = None).
Proof.
  intros HEIGHT H mode hl ops b P1 P2 V Eb.
  destruct (removed_ok HEIGHT P1 P2 H mode hl ops b V Eb) as (x & E & R).
  exists x, (spec_outs H HEIGHT ([], 0) ops). split; auto.
Qed.
Print Assumptions C14_removed_nodes.

Example C14_example :
  let a := [true; false; true] in let b := [false; true; true] in let c := [true; true; true] in
  match run 3 toy_hash None (fun _ => false) empty_chain_db [OBlock [(0, [(a, 5); (b, 6); (c, 7)])]]%N with
  | Ok (x, _) =>
      match (do t <- apply_sets 3 (db_storage (x_db x) 0%N (Some 0)) (db_load (x_db x) 0%N (Some 0)) [(a, 0%N)];
             commit toy_hash (db_storage (x_db x) 0%N (Some 0)) t) with
      | Ok u => map fst (d_nodes (x_db x)) = [1; 2; 3; 4; 5]%N /\ length (u_removed u) = 4
      | _ => False
      end
  | _ => False
  end.
Proof. vm_compute. auto. Qed.

(** C15.  Blocks and prunings in any order, keeping [kept] blocks: each of the
    last [kept] + 1 blocks can be read completely, and holds exactly the writes
    up to it; so can its storage proofs. *)
Theorem C15_window_readable :
  forall HEIGHT (H : felt -> felt -> felt) kept hash_leaves (ops : list op),
    HEIGHT <> 0 -> HEIGHT <= 251 -> grows HEIGHT ops ->
    exists x outs, run HEIGHT H (Some kept) hash_leaves empty_chain_db ops = Ok (x, outs) /\
      let blocks := blocks_of ops in
      forall o b, b < length blocks -> length blocks <= S b + kept ->
        read_root (x_db x) o b = Some (spec_root H HEIGHT (after_block blocks o b)) /\
        (forall k, length k = HEIGHT ->
           read_value HEIGHT (x_db x) o b k = Ok (answer (after_block blocks o b) k) /\
           exists pr, read_proof HEIGHT (x_db x) o b k = Ok pr /\
             (spec_root H HEIGHT (after_block blocks o b) <> 0%N ->
              verify H (spec_root H HEIGHT (after_block blocks o b)) k (map fst pr) =
                Some (after_block blocks o b k))).
Proof.
  intros HEIGHT H kept hl ops P1 P2 G.
  destruct (grows_reads HEIGHT P1 P2 H (Some kept) hl ops G) as (x & outs & E & R).
  exists x, outs. split; [exact E|]. intros blocks o b Lb Kb. apply R; auto.
Qed.
Print Assumptions C15_window_readable.

(** C15 with reorgs.  Full statement wanted: the same for every sequence that
    also contains reorgs.  Proved here: for reorgs whose reverse updates also
    name every trie and key that an earlier, cut-off reorg wrote again
    ([reverts]).  Missing: the code computes reverse updates from the state
    diffs only; for these the statement is false, see
    [C15_repeated_reorg_refuted]. *)
Theorem C15_reorg_partial :
  forall HEIGHT (H : felt -> felt -> felt) mode hash_leaves (ops : list op),
    HEIGHT <> 0 -> HEIGHT <= 251 ->
    valid_ops HEIGHT ([], 0) ops ->
    exists x, run HEIGHT H mode hash_leaves empty_chain_db ops =
                Ok (x, spec_outs H HEIGHT ([], 0) ops) /\
      let s := spec_run ([], 0) ops in
      forall o b, readable mode s b ->
        read_root (x_db x) o b = Some (spec_root H HEIGHT (contents_at (fst s) o b)) /\
        forall k, length k = HEIGHT ->
          read_value HEIGHT (x_db x) o b k = Ok (answer (contents_at (fst s) o b) k).
Proof.
  intros HEIGHT H mode hl ops P1 P2 V.
  destruct (run_reads HEIGHT P1 P2 H mode hl ops V) as (x & E & R).
  exists x. split; auto. intros s o b Rb. destruct (R o b Rb) as [R1 R2].
  split; auto. intros k Lk. now apply R2.
Qed.
Print Assumptions C15_reorg_partial.

(** The finding: two reorgs in a row, both within the window, whose reverse
    updates are exactly what the state diffs say; some blocks later the trie of
    the head cannot be read any more, although its contents are known. *)
Definition kx : bits := repeat false 251.
Definition twice_reorged : list op :=
  [OBlock [(0, [(kx, 1)])]; OBlock []; OBlock []; OBlock [(0, [(kx, 2)])];
   OReorg 2 [(0, [(kx, 1)])]; OReorg 1 [];
   OBlock [(1, [(kx, 5)])]; OBlock [(1, [(kx, 6)])]; OBlock [(1, [(kx, 7)])]]%N.

Theorem C15_repeated_reorg_refuted :
  exists (ops : list op) (kept : nat) (b : nat) (k : bits) x outs,
    valid_ops_diff 251 ([], 0) ops /\
    run 251 toy_hash (Some kept) (fun _ => false) empty_chain_db ops = Ok (x, outs) /\
    x_head x = Some b /\
    contents_at (fst (spec_run ([], 0) ops)) 0%N b k = 1%N /\
    read_value 251 (x_db x) 0%N b k = Err.
Proof.
  exists twice_reorged, 2, 4, kx.
  do 2 eexists. split; [|split; [vm_compute; reflexivity|]].
  - assert (V1 : forall o v, valid_updates 251 [(o, [(kx, v)])]).
    { intros o v. split; [repeat constructor; auto|]. intros o' s k v' [X|[]] Y. injection X as <- <-.
      destruct Y as [Y|[]]. injection Y as <- _. reflexivity. }
    assert (V0 : valid_updates 251 []) by (split; [constructor|intros ? ? ? ? []]).
    unfold twice_reorged. cbn [valid_ops_diff valid_op spec_step fst snd app firstn skipn map length].
    repeat match goal with |- _ /\ _ => split end; auto.
    + split; [simpl; lia|]. split; [apply V1|]. intros o. destruct (N.eqb_spec o 0) as [->|No].
      * left. split; [left; reflexivity|]. split.
        -- intros k Lk. unfold contents_now, contents_at, puts, put. simpl.
           destruct (bits_eqb k kx); reflexivity.
        -- intros b k Lb (e & En & Hk). destruct b as [|[|[|[|b]]]]; try lia.
           ++ simpl in En. injection En as <-. exact Hk.
           ++ simpl in En. destruct b; discriminate.
      * right. split; [intros [X|[]]; simpl in X; congruence|]. left.
        intros b Lb (e & En & Hk). destruct b as [|[|[|[|b]]]]; try lia.
        -- simpl in En. injection En as <-. destruct Hk as [X|[]]; simpl in X; congruence.
        -- simpl in En. destruct b; discriminate.
    + split; [simpl; lia|]. split; [apply V0|]. intros o. right. split; [intros []|]. left.
      intros b Lb (e & En & Hk). destruct b as [|[|[|b]]]; try lia.
      * simpl in En. injection En as <-. simpl in Hk. destruct Hk.
      * simpl in En. destruct b; discriminate.
  - split; [reflexivity|]. split; [vm_compute; reflexivity|]. vm_compute. reflexivity.
Qed.
Print Assumptions C15_repeated_reorg_refuted.

(** Hypotheses of the theorems above can be met: blocks, pruning and a reorg. *)
Example C15_example :
  let a := [true; false; true] in let b := [false; true; true] in
  let ops := [OBlock [(0, [(a, 5)])]; OBlock [(0, [(a, 6); (b, 1)])]; OPrune; OBlock [(0, [(b, 0)])];
              OReorg 1 [(0, [(b, 1)])]; OBlock [(0, [(a, 8)])]; OBlock [(0, [(a, 9)])]]%N in
  valid_ops 3 ([], 0) ops /\
  match run 3 toy_hash (Some 1) (fun _ => false) empty_chain_db ops with
  | Ok (x, _) =>
      map (fun n => (read_value 3 (x_db x) 0%N n a, read_value 3 (x_db x) 0%N n b)) [2; 3] =
        [(Ok (Some 8), Ok (Some 1)); (Ok (Some 9), Ok (Some 1))]%N /\
      read_value 3 (x_db x) 0%N 0 a = Ok None
  | _ => False
  end.
Proof.
  split; [|vm_compute; auto].
  assert (V : forall o s, (forall k v, In (k, v) s -> length k = 3) -> valid_updates 3 [(o, s)]).
  { intros o s Hs. split; [repeat constructor; auto|]. intros o' s' k v [X|[]] Y. injection X as <- <-. eauto. }
  assert (V3 : forall s, Forall (fun kv : bits * felt => length (fst kv) = 3) s ->
               forall k v, In (k, v) s -> length k = 3).
  { intros s Hs k v Hin. rewrite Forall_forall in Hs. apply (Hs (k, v) Hin). }
  cbn [valid_ops valid_op spec_step fst snd app firstn skipn map length].
  repeat match goal with |- _ /\ _ => split end; auto;
    try (apply V, V3; repeat constructor; fail).
  split; [simpl; lia|]. split; [apply V, V3; repeat constructor|].
  intros o. destruct (N.eqb_spec o 0) as [->|No].
  - left. split; [left; reflexivity|]. split.
    + intros k Lk. unfold contents_now, contents_at, puts, put. simpl.
      destruct (bits_eqb k [false; true; true]); reflexivity.
    + intros b k Lb (e & En & Hk). destruct b as [|[|[|b]]]; try lia.
      * simpl in En. injection En as <-. destruct Hk as [Hk|Hk]; [exact Hk|destruct Hk].
      * simpl in En. destruct b; discriminate.
  - right. split; [intros [X|[]]; simpl in X; congruence|]. left.
    intros b Lb (e & En & Hk). destruct b as [|[|[|b]]]; try lia.
    + simpl in En. injection En as <-. destruct Hk as [[X|[]]|[]]; simpl in X; congruence.
    + simpl in En. destruct b; discriminate.
Qed.
