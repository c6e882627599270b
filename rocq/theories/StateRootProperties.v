(** * The state commitment is that of the state, and determines it (C73) *)
From Coq Require Import List Bool Arith NArith Lia.
From Verif Require Import AList MerkleModel MerkleSpec VersionModel CommitModel
  StateRootModel StateRootSpec StateRootProof StateRootRun StateRootBind.
Import ListNotations.

(** The contracts treated apart in the specification are the addresses 0x1 and 0x2. *)
Theorem C73_system_contracts : forall a,
  is_system a = true <-> bits_val a = 1%N \/ bits_val a = 2%N.
Proof. intros a. unfold is_system. rewrite orb_true_iff, !N.eqb_eq. reflexivity. Qed.

(** Blocks that arrive one at a time, over the gateway, from consensus or over p2p
    in any mix: a history is stored exactly if every contract an update names has a
    class and every header has the commitment of the state after it; the
    commitments computed on the way are those of the states. *)
Theorem C73_commitment : forall HEIGHT hs (l : list arrival),
  Forall (well_formed HEIGHT) (all_blocks l) -> (forall s, In s l -> is_batch s = false) ->
  (node HEIGHT hs empty_db 0 l <> None <-> all_acceptable HEIGHT hs genesis l) /\
  forall d cs, node HEIGHT hs empty_db 0 l = Some (d, cs) -> cs = commitments HEIGHT hs genesis l.
Proof.
  intros HEIGHT hs l F NB.
  assert (P : forall s, In s l -> plain_batch s).
  { intros s Hs. specialize (NB s Hs). destruct s; cbn in *; auto. discriminate. }
  destruct (node_spec HEIGHT hs l empty_db 0 genesis (inv_empty HEIGHT hs)) as [A B]; auto.
  { intros a _. reflexivity. }
  split; [split; auto|].
  - intros Ac. destruct (A Ac) as (d & -> & _). discriminate.
  - intros d cs E. destruct (A (B ltac:(congruence))) as (d' & E' & _). congruence.
Qed.

(** The same with batches of blocks.  Missing: batches with blocks that migrate
    classes, for which it is false ([C73_migrated_refuted]). *)
Theorem C73_batch_partial : forall HEIGHT hs (l : list arrival),
  Forall (well_formed HEIGHT) (all_blocks l) -> (forall s, In s l -> plain_batch s) ->
  (node HEIGHT hs empty_db 0 l <> None <-> all_acceptable HEIGHT hs genesis l) /\
  forall d cs, node HEIGHT hs empty_db 0 l = Some (d, cs) -> cs = commitments HEIGHT hs genesis l.
Proof.
  intros HEIGHT hs l F P.
  destruct (node_spec HEIGHT hs l empty_db 0 genesis (inv_empty HEIGHT hs)) as [A B]; auto.
  { intros a _. reflexivity. }
  split; [split; auto|].
  - intros Ac. destruct (A Ac) as (d & -> & _). discriminate.
  - intros d cs E. destruct (A (B ltac:(congruence))) as (d' & E' & _). congruence.
Qed.

(** Two nodes that took different histories (other blocks, other ways, other
    batches) and arrived at the same state commitment have the same contracts with
    the same classes, nonces and storage and the same classes, unless two of the
    hash computations involved collide. *)
Theorem C73_binds : forall HEIGHT hs (l1 l2 : list arrival) d1 cs1 d2 cs2 c,
  HEIGHT <> 0 ->
  Forall (well_formed HEIGHT) (all_blocks l1) -> (forall s, In s l1 -> plain_batch s) ->
  Forall (well_formed HEIGHT) (all_blocks l2) -> (forall s, In s l2 -> plain_batch s) ->
  node HEIGHT hs empty_db 0 l1 = Some (d1, cs1 ++ [c]) ->
  node HEIGHT hs empty_db 0 l2 = Some (d2, cs2 ++ [c]) ->
  no_collision hs (fun x => computed HEIGHT hs (state_after l1) x \/ computed HEIGHT hs (state_after l2) x) ->
  same_state HEIGHT (state_after l1) (state_after l2).
Proof.
  intros HEIGHT hs l1 l2 d1 cs1 d2 cs2 c HP F1 P1 F2 P2 E1 E2 NC.
  assert (Last : forall l w cs, commitments HEIGHT hs w l = cs ++ [c] ->
    exists v, c = state_commitment HEIGHT hs (apply_updates w (all_blocks l)) v).
  { induction l as [|s l IH]; intros w cs E; cbn in E; [destruct cs; discriminate|].
    cbn [all_blocks flat_map]. change (flat_map blocks_of l) with (all_blocks l). rewrite apply_updates_app.
    destruct cs as [|x cs]; cbn in E; injection E as E0 E'.
    - destruct l; [|discriminate]. exists (version_of s). now rewrite <- E0.
    - eapply IH; eauto. }
  assert (Z : no_system_nonce genesis) by (intros a _; reflexivity).
  destruct (node_spec HEIGHT hs l1 empty_db 0 genesis (inv_empty HEIGHT hs) Z F1 P1) as [A1 B1].
  destruct (node_spec HEIGHT hs l2 empty_db 0 genesis (inv_empty HEIGHT hs) Z F2 P2) as [A2 B2].
  destruct (A1 (B1 ltac:(congruence))) as (d1' & G1 & T1).
  destruct (A2 (B2 ltac:(congruence))) as (d2' & G2 & T2).
  assert (C1 : commitments HEIGHT hs genesis l1 = cs1 ++ [c]) by congruence.
  assert (C2 : commitments HEIGHT hs genesis l2 = cs2 ++ [c]) by congruence.
  destruct (Last _ _ _ C1) as (v1 & V1). destruct (Last _ _ _ C2) as (v2 & V2).
  eapply (binds HEIGHT hs HP _ _ v1 v2 T1 T2); [exact NC|congruence].
Qed.

(** ** Cases *)

(** A toy hash; trees of height 2: addresses 0, 3 and the system contracts 1, 2. *)
Definition toy : hashes :=
  mkHashes (fun a b => (17 + a * 1009 + b * 31) mod P)%N (fun a b => (23 + a * 2003 + b * 37) mod P)%N
           (fun l => fold_left (fun h x => (h * 4001 + x + 5) mod P)%N l 3%N).

Definition k0 := [false; false]. Definition k1 := [false; true].
Definition k2 := [true; false]. Definition k3 := [true; true].
Definition v13 := Version 0 13 2 0.
Definition v14 := Version 0 14 0 0.

(** Deploys contract 3, declares a class, and writes to a system contract. *)
Definition up0 : update :=
  mkUpdate [(k3, mkContractUpdate [(k1, 5%N); (k2, 7%N)] (Some 11%N) (Some 1%N))]
           [(k1, [(k0, 8%N)])] [(k2, 99%N)] [].
(** Changes storage and nonce of contract 3. *)
Definition up1 : update :=
  mkUpdate [(k3, mkContractUpdate [(k1, 0%N); (k0, 2%N)] None (Some 2%N))] [] [] [].
(** Both at once. *)
Definition up01 : update :=
  mkUpdate [(k3, mkContractUpdate [(k2, 7%N); (k0, 2%N)] (Some 11%N) (Some 2%N))]
           [(k1, [(k0, 8%N)])] [(k2, 99%N)] [].

Ltac wf := repeat match goal with
  | |- _ /\ _ => split
  | |- NoDup _ => constructor
  | |- ~ In _ _ => cbn; intuition congruence
  | |- lengths _ _ => let k := fresh in let H := fresh in intros k H; cbn in H; intuition (subst; reflexivity)
  | |- forall a c, In (a, c) _ -> _ => let a := fresh "a" in let c := fresh "c" in let H := fresh in
      intros a c H; cbn in H; destruct H as [H|H]; [injection H as <- <-; split; [reflexivity|]|try contradiction]
  | |- _ = _ => reflexivity
  end.

Lemma wf0 : well_formed 2 up0. Proof. unfold well_formed. wf; cbn in *; contradiction. Qed.
Lemma wf1 : well_formed 2 up1. Proof. unfold well_formed. wf; cbn in *; contradiction. Qed.
Lemma wf01 : well_formed 2 up01. Proof. unfold well_formed. wf; cbn in *; contradiction. Qed.

Definition c0 := state_commitment 2 toy (apply_updates genesis [up0]) v13.
Definition c1 := state_commitment 2 toy (apply_updates genesis [up0; up1]) v14.

(** The first block over the gateway, the second over p2p. *)
Definition two_blocks := [Gateway up0 v13 (Some c0); Track up1 v14 c1].

Example C73_commitment_case :
  Forall (well_formed 2) (all_blocks two_blocks) /\ (forall s, In s two_blocks -> is_batch s = false) /\
  all_acceptable 2 toy genesis two_blocks /\
  (exists d, node 2 toy empty_db 0 two_blocks = Some (d, [c0; c1])) /\ c0 <> c1 /\
  node 2 toy empty_db 0 [Gateway up0 v13 (Some c1)] = None /\
  node 2 toy empty_db 0 [Gateway up1 v13 None] = None.
Proof.
  split; [|split; [|split; [|split; [|split; [|split]]]]].
  - constructor; [exact wf0|constructor; [exact wf1|constructor]].
  - intros s [<-|[<-|[]]]; reflexivity.
  - split; [|split; [|exact Coq.Init.Logic.I]]; (split; [|reflexivity]);
      intros u a [<-|[]] [<-|[]]; cbn; discriminate.
  - eexists. vm_compute. reflexivity.
  - vm_compute. discriminate.
  - vm_compute. reflexivity.
  - vm_compute. reflexivity.
Qed.

(** The same two blocks as one batch. *)
Definition one_batch := [Batch [up0; up1] v14 c1].

Example C73_batch_partial_case :
  Forall (well_formed 2) (all_blocks one_batch) /\ (forall s, In s one_batch -> plain_batch s) /\
  exists d, node 2 toy empty_db 0 one_batch = Some (d, [c1]).
Proof.
  split; [|split].
  - constructor; [exact wf0|constructor; [exact wf1|constructor]].
  - intros s [<-|[]]. split; [discriminate|]. intros u [<-|[<-|[]]]; reflexivity.
  - eexists. vm_compute. reflexivity.
Qed.

(** Everything there is to compute for a state of a small tree, to check that
    nothing collides. *)
Fixpoint all_keys (n : nat) : list bits :=
  match n with
  | 0 => [[]]
  | S n => map (cons false) (all_keys n) ++ map (cons true) (all_keys n)
  end.
Lemma all_keys_in k : In k (all_keys (length k)).
Proof.
  induction k as [|[|] k IH]; simpl; auto; apply in_app_iff; [right|left]; now apply in_map.
Qed.
Definition presentb (w : world) (a : bits) : bool :=
  if is_system a then w_system w a else match w_class w a with Some _ => true | None => false end.
Definition listing (n : nat) (hs : hashes) (w : world) : list computation :=
  map Ped (root_queries (pedersen hs) n (state_contents n hs w)) ++
  map Pos (root_queries (poseidon hs) n (class_contents hs w)) ++
  flat_map (fun a => if presentb w a then
     map Ped (root_queries (pedersen hs) n (w_storage w a) ++
              [(class_in_leaf w a, storage_root n hs w a, 0%N);
               (pedersen hs (class_in_leaf w a) (storage_root n hs w a), w_nonce w a, 0%N);
               (pedersen hs (pedersen hs (class_in_leaf w a) (storage_root n hs w a)) (w_nonce w a), 0%N, 0%N)])
     else []) (all_keys n) ++
  flat_map (fun k => match w_casm w k with Some h => [Pos (CLASS_LEAF_V0, h, 0%N)] | None => [] end) (all_keys n) ++
  [Many [STATE_V0; storage_commitment n hs w; class_commitment n hs w]].

Lemma listing_all n hs w c : computed n hs w c -> In c (listing n hs w).
Proof.
  intros C. unfold listing. rewrite !in_app_iff, !in_flat_map.
  assert (PB : forall a, present n w a -> In a (all_keys n) /\ presentb w a = true).
  { intros a [La P]. split; [rewrite <- La; apply all_keys_in|]. unfold presentb.
    destruct (is_system a); auto. destruct (w_class w a); congruence. }
  destruct C as [q Hq|q Hq|a q P Hq|a P|a P|a P|k h Lk Hk|].
  - left. now apply in_map.
  - right. left. now apply in_map.
  - destruct (PB a P) as [I E]. right. right. left. exists a. split; auto. rewrite E. apply in_map. apply in_app_iff. auto.
  - destruct (PB a P) as [I E]. right. right. left. exists a. split; auto. rewrite E. apply in_map. apply in_app_iff. cbn. auto.
  - destruct (PB a P) as [I E]. right. right. left. exists a. split; auto. rewrite E. apply in_map. apply in_app_iff. cbn. auto.
  - destruct (PB a P) as [I E]. right. right. left. exists a. split; auto. rewrite E. apply in_map. apply in_app_iff. cbn. auto.
  - right. right. right. left. exists k. split; [rewrite <- Lk; apply all_keys_in|]. rewrite Hk. now left.
  - right. right. right. right. now left.
Qed.

Definition comp_eq_dec (a b : computation) : {a = b} + {a <> b}.
Proof. repeat decide equality. Defined.

Definition no_collision_in (hs : hashes) (l : list computation) : bool :=
  forallb (fun a => negb (value hs a =? 0)%N &&
    forallb (fun b => if (value hs a =? value hs b)%N then
      if comp_eq_dec a b then true else false else true) l) l.

Lemma no_collision_check hs l (Q : computation -> Prop) : (forall c, Q c -> In c l) ->
  no_collision_in hs l = true -> no_collision hs Q.
Proof.
  intros I E. unfold no_collision_in in E. rewrite forallb_forall in E. split.
  - intros a b Qa Qb V. specialize (E a (I a Qa)). apply andb_prop in E. destruct E as [_ E].
    rewrite forallb_forall in E. specialize (E b (I b Qb)). rewrite (proj2 (N.eqb_eq _ _) V) in E.
    destruct (comp_eq_dec a b); auto. discriminate.
  - intros c Qc V. specialize (E c (I c Qc)). apply andb_prop in E. destruct E as [E _]. rewrite V in E. discriminate.
Qed.

(** Two blocks in one node, one block that does both in another. *)
Example C73_binds_case :
  2 <> 0 /\
  Forall (well_formed 2) (all_blocks [Gateway up01 v14 None]) /\
  (exists d1 d2, node 2 toy empty_db 0 two_blocks = Some (d1, [c0] ++ [c1]) /\
                 node 2 toy empty_db 0 [Gateway up01 v14 None] = Some (d2, [] ++ [c1])) /\
  no_collision toy (fun x => computed 2 toy (state_after two_blocks) x \/
                             computed 2 toy (state_after [Gateway up01 v14 None]) x) /\
  w_storage (state_after two_blocks) k3 k2 = 7%N.
Proof.
  split; [discriminate|]. split; [constructor; [exact wf01|constructor]|]. split; [|split].
  - eexists. eexists. split; vm_compute; reflexivity.
  - apply (no_collision_check toy (listing 2 toy (state_after two_blocks) ++
                                   listing 2 toy (state_after [Gateway up01 v14 None]))).
    + intros c [H|H]; apply in_app_iff; [left|right]; now apply listing_all.
    + vm_compute. reflexivity.
  - reflexivity.
Qed.

(** ** What is false *)

(** A batch with a block that migrates a class is refused although every header
    has the commitment of its state (the blocks one by one are accepted). *)
Definition migrate : update := mkUpdate [] [] [] [(k2, 100%N)].

Theorem C73_migrated_refuted : exists HEIGHT hs us v c,
  Forall (well_formed HEIGHT) us /\
  acceptable HEIGHT hs genesis (Batch us v c) /\
  node HEIGHT hs empty_db 0 [Batch us v c] = None /\
  node HEIGHT hs empty_db 0 (map (fun u => Gateway u v None) us) <> None.
Proof.
  exists 2, toy, [up0; migrate], v14, (state_commitment 2 toy (apply_updates genesis [up0; migrate]) v14).
  split; [|split; [|split]].
  - constructor; [exact wf0|constructor; [|constructor]]. unfold well_formed. wf; cbn in *; contradiction.
  - split; [|reflexivity]. intros u a [<-|[<-|[]]]; [|intros []]. intros [<-|[]]. cbn. discriminate.
  - vm_compute. reflexivity.
  - vm_compute. discriminate.
Qed.

Print Assumptions C73_system_contracts.
Print Assumptions C73_commitment.
Print Assumptions C73_batch_partial.
Print Assumptions C73_binds.
Print Assumptions C73_migrated_refuted.
