(* C25-C27: merging, measuring and committing to state updates. *)
From Coq Require Import List Arith NArith Bool Lia Permutation.
From Verif Require Import AList SortedMap StateUpdateModel StateUpdateSpec StateUpdateProof.
Import ListNotations.
Local Open Scope N_scope.

Ltac nodups := repeat constructor; simpl; intuition (discriminate || congruence).

(* ---- C25 ---- *)

(* The later update's class if it has one, else the earlier one's: every pair, every contract. *)
Theorem C25_class : forall earlier later a, valid_update earlier -> valid_update later ->
  contract_class (apply earlier later) a
  = or_else (contract_class later a) (contract_class earlier a).
Proof. exact apply_class. Qed.
Print Assumptions C25_class.

(* Nonces, for a later update which deploys no contract that already has a nonce and
   replaces the class of no contract deployed by the earlier update.
   Missing: the last condition (C25_nonce_refuted). *)
Theorem C25_nonce_partial : forall earlier later a, valid_update earlier -> valid_update later ->
  (deploys later a -> contract_nonce earlier a = None) ->
  (replaces later a -> ~ deploys earlier a) ->
  contract_nonce (apply earlier later) a
  = or_else (contract_nonce later a) (contract_nonce earlier a).
Proof. exact apply_nonce. Qed.
Print Assumptions C25_nonce_partial.

(* Storage, under the same conditions and with system contracts never updated as ordinary
   ones.  Missing: the same condition (C25_storage_refuted). *)
Theorem C25_storage_partial : forall earlier later a k, valid_update earlier -> valid_update later ->
  (deploys later a -> storage_value earlier a k = None) ->
  (replaces later a -> ~ deploys earlier a) ->
  (mentions_contract earlier a \/ mentions_contract later a ->
     ~ mentions_system earlier a /\ ~ mentions_system later a) ->
  storage_value (apply earlier later) a k
  = or_else (storage_value later a k) (storage_value earlier a k).
Proof. exact apply_storage. Qed.
Print Assumptions C25_storage_partial.

(* No declared class is lost, and none invented. *)
Theorem C25_declared : forall earlier later h, valid_update earlier -> valid_update later ->
  class_is_declared (apply earlier later) h
  = class_is_declared earlier h || class_is_declared later h.
Proof.
  intros u w h U W. apply Bool.eq_true_iff_eq. rewrite orb_true_iff, !declared_spec.
  unfold apply. cbn [su_cairo su_sierra]. rewrite in_extend_set, nget_extend by (destruct W; auto).
  destruct (nget h (su_sierra w)) as [c|]; cbn [or_else].
  - split; [intros _; right; eauto|]. intros _. right. eauto.
  - split.
    + intros [[H|H]|H]; auto.
    + intros [[H|H]|[H|[c H]]]; auto; discriminate.
Qed.
Print Assumptions C25_declared.

(* The compiled class hash of a declared class is the later one's if it has one. *)
Theorem C25_casm : forall earlier later h, valid_update later ->
  nget h (su_sierra (apply earlier later)) = or_else (nget h (su_sierra later)) (nget h (su_sierra earlier)).
Proof.
  intros u w h W. unfold apply. cbn [su_sierra]. apply nget_extend. destruct W; auto.
Qed.
Print Assumptions C25_casm.

(* The merge is a state update again, carries the later block, and merging is repeatable. *)
Theorem C25_wellformed : forall earlier later, valid_update earlier -> valid_update later ->
  valid_update (apply earlier later) /\
  su_block_hash (apply earlier later) = su_block_hash later /\
  su_commitment (apply earlier later) = su_commitment later.
Proof. intros u w U W. split; [apply apply_valid; auto|]. split; reflexivity. Qed.
Print Assumptions C25_wellformed.

Definition ex_empty : state_update := StateUpdate 0 0 0 [] [] [] [] [].
(* deploys contract 7 with class 70 *)
Definition ex_deploy : state_update :=
  StateUpdate 1 0 11 [(7, ContractUpdate [(5, 50)] (Some (Deploy 70)) None)] [(1, [(9, 90)])] [3] [(4, 40)] [].
(* replaces its class with 71 *)
Definition ex_replace : state_update :=
  StateUpdate 2 11 12 [(7, ContractUpdate [(6, 60)] (Some (Replace 71)) None)] [(1, [(9, 91)])] [] [(8, 80)] [].
(* updates its nonce *)
Definition ex_nonce : state_update :=
  StateUpdate 2 11 12 [(7, ContractUpdate [(6, 60)] None (Some 2))] [(1, [(9, 91)])] [] [(8, 80)] [].
(* migrates a class *)
Definition ex_migrate : state_update := StateUpdate 2 11 12 [] [] [] [] [(4, 41)].

Lemma ex_valid : valid_update ex_deploy /\ valid_update ex_replace /\ valid_update ex_nonce /\ valid_update ex_migrate.
Proof.
  repeat match goal with |- _ /\ _ => split end; constructor; simpl;
    try (nodups; fail); intros a c H; repeat (destruct H as [H|H]; [injection H as _ <-; simpl; nodups|]); destruct H.
Qed.

Example C25_example :
  contract_class (apply ex_deploy ex_nonce) 7 = Some 70 /\
  contract_nonce (apply ex_deploy ex_nonce) 7 = Some 2 /\
  storage_value (apply ex_deploy ex_nonce) 7 5 = Some 50 /\
  storage_value (apply ex_deploy ex_nonce) 7 6 = Some 60 /\
  storage_value (apply ex_deploy ex_nonce) 7 8 = Some 0 /\
  storage_value (apply ex_deploy ex_nonce) 1 9 = Some 91 /\
  (deploys ex_nonce 7 -> contract_nonce ex_deploy 7 = None) /\ ~ replaces ex_nonce 7.
Proof.
  repeat match goal with |- _ /\ _ => split end; try (vm_compute; reflexivity).
  - intros (h & H). inversion H as [| | |a c h' I E| | | |]; subst. destruct I as [I|[]].
    injection I as <-. discriminate.
  - intros (h & H). inversion H as [| | | |a c h' I E| | |]; subst. destruct I as [I|[]].
    injection I as <-. discriminate.
Qed.

(* A contract deployed by the earlier update whose class the later update replaces loses its
   zero nonce and zero storage. *)
Theorem C25_nonce_refuted : exists earlier later a,
  valid_update earlier /\ valid_update later /\ deploys earlier a /\ replaces later a /\
  contract_nonce earlier a = Some 0 /\ contract_nonce later a = None /\
  contract_nonce (apply earlier later) a = None.
Proof.
  exists ex_deploy, ex_replace, 7. destruct ex_valid as (A & B & _).
  split; [exact A|]. split; [exact B|]. split; [|split; [|split; [|split]]]; try (vm_compute; reflexivity).
  - exists 70. eapply has_deploy; [left; reflexivity|reflexivity].
  - exists 71. eapply has_replace; [left; reflexivity|reflexivity].
Qed.
Print Assumptions C25_nonce_refuted.

Theorem C25_storage_refuted : exists earlier later a k,
  valid_update earlier /\ valid_update later /\ deploys earlier a /\ replaces later a /\
  storage_value earlier a k = Some 0 /\ storage_value later a k = None /\
  storage_value (apply earlier later) a k = None.
Proof.
  exists ex_deploy, ex_replace, 7, 8. destruct ex_valid as (A & B & _).
  split; [exact A|]. split; [exact B|]. split; [|split; [|split; [|split]]]; try (vm_compute; reflexivity).
  - exists 70. eapply has_deploy; [left; reflexivity|reflexivity].
  - exists 71. eapply has_replace; [left; reflexivity|reflexivity].
Qed.
Print Assumptions C25_storage_refuted.

(* Migrated classes of the later update are dropped. *)
Theorem C25_migrated_refuted : exists earlier later h c,
  valid_update earlier /\ valid_update later /\
  has_change (to_data later) (Migration h c) /\
  ~ exists c', has_change (to_data (apply earlier later)) (Migration h c').
Proof.
  exists ex_deploy, ex_migrate, 4, 41. destruct ex_valid as (A & _ & _ & B).
  split; [exact A|]. split; [exact B|]. split.
  - apply has_migration. left. reflexivity.
  - intros (c' & H). inversion H as [| | | | | | |h c I]; subst. destruct I.
Qed.
Print Assumptions C25_migrated_refuted.

(* ---- C26 ---- *)

(* The length is the number of changes: every kind counted, each once. *)
Theorem C26_length : forall u, valid_update u ->
  counts (has_change (to_data u)) (state_diff_length u) /\
  exists l, NoDup l /\ forall c, In c l <-> has_change (to_data u) c.
Proof. intros u V. split; [apply length_counts, V|apply changes_exist, V]. Qed.
Print Assumptions C26_length.

(* So it does not depend on how the maps are ordered. *)
Theorem C26_representation_independent : forall u w, valid_update u -> valid_update w ->
  (forall c, has_change (to_data u) c <-> has_change (to_data w) c) ->
  state_diff_length u = state_diff_length w.
Proof.
  intros u w U W E. destruct (changes_exist _ W) as (l & ND & M).
  rewrite <- (length_counts w W l ND M). symmetry. apply (length_counts u U l ND).
  intros c. rewrite M. symmetry. apply E.
Qed.
Print Assumptions C26_representation_independent.

(* The second representation counts the same changes, except migrations.
   Missing: equality when there are migrations (C26_data_length_refuted). *)
Theorem C26_data_length_partial : forall u, valid_update u ->
  counts (fun c => has_change (to_data u) c /\ ~ is_migration c) (data_state_diff_length (to_data u)) /\
  ((forall h c, ~ has_change (to_data u) (Migration h c)) ->
   data_state_diff_length (to_data u) = state_diff_length u).
Proof.
  intros u V. split; [apply data_length_counts, V|]. intros NM.
  destruct (su_migrated u) as [|[h c] m] eqn:E.
  - unfold data_state_diff_length, state_diff_length, to_data. simpl. rewrite E. simpl. lia.
  - exfalso. apply (NM h c). apply has_migration. simpl. rewrite E. left. reflexivity.
Qed.
Print Assumptions C26_data_length_partial.

Theorem C26_data_length_refuted : exists u, valid_update u /\
  state_diff_length u = 1%nat /\ data_state_diff_length (to_data u) = 0%nat /\
  change_count u = 0%nat /\ data_is_empty (to_data u) = true.
Proof. exists ex_migrate. destruct ex_valid as (_ & _ & _ & V). split; [exact V|]. repeat split. Qed.
Print Assumptions C26_data_length_refuted.

(* An update reported empty has no changes except migrations. *)
Theorem C26_empty_partial : forall d c, data_is_empty d = true -> has_change d c -> is_migration c.
Proof.
  intros d c E H. unfold data_is_empty in E.
  destruct (sd_contracts d) eqn:E1; [|discriminate]. destruct (sd_system d) eqn:E2; [|discriminate].
  destruct (sd_cairo d) eqn:E3; [|discriminate]. destruct (sd_sierra d) eqn:E4; [|discriminate].
  inversion H as [? ? ? ? I|? ? ? ? I|? ? ? I|? ? ? I|? ? ? I|? I|? ? I|? ? I]; subst;
    try (rewrite ?E1, ?E2, ?E3, ?E4 in I; destruct I; fail). do 2 eexists. reflexivity.
Qed.
Print Assumptions C26_empty_partial.

Example C26_example : state_diff_length ex_deploy = 5%nat /\ data_state_diff_length (to_data ex_deploy) = 5%nat.
Proof. split; reflexivity. Qed.

(* ---- C27 ---- *)

(* The hashed sequence is the same exactly when the content is: independent of the order of
   the maps, and determining the content. *)
Theorem C27_canonical_and_injective : forall d e,
  valid_data d -> valid_data e -> separate d -> separate e ->
  (sdc_sequence d = sdc_sequence e <-> same_content d e).
Proof. exact sequence_same_content. Qed.
Print Assumptions C27_canonical_and_injective.

(* Equal commitments mean equal content, or a collision of the hash on these sequences. *)
Theorem C27_binding : forall poseidon d e,
  valid_data d -> valid_data e -> separate d -> separate e ->
  (same_content d e -> state_diff_commitment poseidon d = state_diff_commitment poseidon e) /\
  (state_diff_commitment poseidon d = state_diff_commitment poseidon e ->
   same_content d e \/ exists l m, l <> m /\ poseidon l = poseidon m).
Proof.
  intros poseidon d e V W SD SE. unfold state_diff_commitment. split.
  - intros SC. f_equal. apply sequence_same_content; auto.
  - intros E. destruct (list_eq_dec N.eq_dec (sdc_sequence d) (sdc_sequence e)) as [X|X].
    + left. apply sequence_same_content; auto.
    + right. eauto.
Qed.
Print Assumptions C27_binding.

Definition ex_reordered : state_update_data :=
  StateUpdateData
    [(8, ContractUpdate [(2, 20); (1, 10)] None (Some 4)); (7, ContractUpdate [(5, 50)] (Some (Replace 70)) None)]
    [(1, [(9, 90)])] [3; 2] [(4, 40)] [].
Definition ex_ordered : state_update_data :=
  StateUpdateData
    [(7, ContractUpdate [(5, 50)] (Some (Deploy 70)) None); (8, ContractUpdate [(1, 10); (2, 20)] None (Some 4))]
    [(1, [(9, 90)])] [2; 3] [] [(4, 40)].
Example C27_example : sdc_sequence ex_reordered = sdc_sequence ex_ordered /\
  tl (sdc_sequence ex_ordered) =
    [1; 7; 70; 1; 4; 40; 2; 2; 3; 1; 0; 3; 1; 1; 9; 90; 7; 1; 5; 50; 8; 2; 1; 10; 2; 20; 1; 8; 4].
Proof. split; vm_compute; reflexivity. Qed.
Example C27_example_valid : valid_data ex_ordered /\ valid_data ex_reordered /\ separate ex_ordered.
Proof.
  split; [|split].
  1, 2: constructor; simpl;
    try (nodups; fail); intros a c H; repeat (destruct H as [H|H]; [injection H as _ <-; simpl; nodups|]); destruct H.
  intros a c st I J. simpl in I, J. destruct J as [J|[]]. injection J as <- <-.
  destruct I as [I|[I|[]]]; discriminate I.
Qed.
