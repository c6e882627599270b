(** Proofs for C57, C60 and C61. *)
From Coq Require Import List Bool Arith NArith ZArith Lia ZifyBool ZifyNat ZifyN.
From Verif Require Import Radix MerkleModel HashModel VersionModel CommitModel CommitSpec CommitProof TxHashModel TxHashSpec.
From Verif Require FeltModel FeltSpec FeltProof.
Import ListNotations.
Local Open Scope N_scope.

(* ---- the packed words ---- *)
Lemma version_word_ok v q : v < 4 -> TxHashModel.version_word v q = Ok (version v q).
Proof.
  intros L. assert (v = 0 \/ v = 1 \/ v = 2 \/ v = 3) as [->|[->|[->| ->]]] by lia;
    destruct q; vm_compute; reflexivity.
Qed.

Lemma gas_word_ok name b :
  (length name <= 7)%nat -> digits_lt 256 name -> bound_ok b ->
  pack_gas_bound name b = Ok (gas_word name b).
Proof.
  intros L D [A B]. unfold pack_gas_bound, gas_word, word.
  set (buf := repeat 0 (8 - length name) ++ name ++ rdigits 256 8 (rb_amount b) ++ rdigits 256 16 (rb_price b)).
  assert (V : rval 256 buf = rval 256 name * 2 ^ 192 + rb_amount b * 2 ^ 128 + rb_price b).
  { unfold buf. rewrite rval_zeros, rval_app, rval_app, !rval_rdigits by (assumption || lia).
    rewrite app_length, !rdigits_length.
    change (256 ^ N.of_nat (8 + 16)) with (2 ^ 192). change (256 ^ N.of_nat 16) with (2 ^ 128).
    lia. }
  assert (LB : length buf = 32%nat).
  { unfold buf. rewrite !app_length, repeat_length, !rdigits_length. lia. }
  assert (DB : digits_lt 256 buf).
  { unfold buf, digits_lt. rewrite !Forall_app. repeat split; try apply rdigits_lt; auto; try lia.
    apply Forall_forall. intros x I. apply repeat_spec in I. lia. }
  rewrite FeltProof.from_be_bytes_spec by assumption.
  assert (R : rval 256 name < 2 ^ 56).
  { pose proof (rval_bound 256 name D) as R. 
    eapply N.lt_le_trans; [exact R|]. change (2 ^ 56) with (256 ^ 7). apply N.pow_le_mono_r; lia. }
  replace (rval 256 buf <? FeltSpec.P) with true; [rewrite V; reflexivity|].
  symmetry. apply N.ltb_lt. rewrite V.
  apply N.lt_trans with (2 ^ 249); [|reflexivity].
  change (2 ^ 249) with (2 ^ 57 * 2 ^ 192). change (2 ^ 57) with (2 ^ 56 + 2 ^ 56).
  assert (rb_amount b * 2 ^ 128 + rb_price b < 2 ^ 192).
  { change (2 ^ 192) with (2 ^ 64 * 2 ^ 128). nia. }
  nia.
Qed.

Lemma gas_word_inj name b1 b2 : bound_ok b1 -> bound_ok b2 ->
  gas_word name b1 = gas_word name b2 -> b1 = b2.
Proof.
  unfold gas_word. destruct b1 as [a1 p1], b2 as [a2 p2]. unfold bound_ok. cbn [rb_amount rb_price].
  intros [A1 P1] [A2 P2] E.
  assert (E' : a1 * 2 ^ 128 + p1 = a2 * 2 ^ 128 + p2) by lia.
  assert (a1 = a2) by (clear - P1 P2 E'; generalize dependent (2 ^ 128); intros; nia).
  subst. f_equal. lia.
Qed.

Lemma fee_words_inj tip1 tip2 b1 b2 : bounds_ok b1 -> bounds_ok b2 ->
  fee_words tip1 b1 = fee_words tip2 b2 -> tip1 = tip2 /\ b1 = b2.
Proof.
  unfold fee_words, bounds_ok. destruct b1 as [l1 l2 d], b2 as [m1 m2 e].
  cbn [rb_l1_gas rb_l2_gas rb_l1_data_gas app]. intros (B1 & B2 & B3) (C1 & C2 & C3) E.
  injection E as T E1 E2 E3.
  apply gas_word_inj in E1; auto. apply gas_word_inj in E2; auto.
  assert (d = e).
  { destruct d, e; try discriminate; auto. injection E3 as E3. apply gas_word_inj in E3; auto. congruence. }
  split; congruence.
Qed.

Lemma mode_word_inj n1 f1 n2 f2 : mode_word n1 f1 = mode_word n2 f2 -> n1 = n2 /\ f1 = f2.
Proof. destruct n1, f1, n2, f2; vm_compute; intros; try discriminate; auto. Qed.
Lemma mode_word_ok n f : pack_data_availability n f = mode_word n f.
Proof. destruct n, f; reflexivity. Qed.

Lemma version_inj v1 q1 v2 q2 : v1 < 4 -> v2 < 4 -> version v1 q1 = version v2 q2 -> v1 = v2 /\ q1 = q2.
Proof.
  unfold version. intros L1 L2.
  assert (B : 4 < 2 ^ 128) by reflexivity. revert B. generalize (2 ^ 128). intros K B E.
  destruct q1, q2; split; auto; lia.
Qed.

Section Hashes.
  Variable pedersen : felt -> felt -> felt.
  Variable poseidon2 : felt -> felt -> felt.
  Variable poseidon : list felt -> felt.
  Variable keccak : list N -> list N.
  Notation value := (call_value pedersen poseidon2 poseidon keccak).
  Notation clean := (clean pedersen poseidon2 poseidon keccak).
  Notation chain_value := (chain_value pedersen).
  Notation chain_calls := (chain_calls pedersen).
  Notation tx_words := (tx_words pedersen poseidon).
  Notation hash_value := (hash_value pedersen poseidon).
  Notation hash_calls := (hash_calls pedersen poseidon).

  Lemma short (l : list felt) : len l < 2 ^ 60 + 16 -> len l <= USIZE_MAX.
  Proof. unfold USIZE_MAX. change (2 ^ 60) with 1152921504606846976. lia. Qed.
  Lemma chain_ok l : len l < 2 ^ 60 + 16 -> chain_hash pedersen l = Ok (chain_value l).
  Proof. intros L. apply chain_hash_short. now apply short. Qed.
  Lemma chain_literal l : (length l <= 16)%nat -> chain_hash pedersen l = Ok (chain_value l).
  Proof. intros L. apply chain_ok. unfold len. change (2 ^ 60) with 1152921504606846976. lia. Qed.
  Lemma single_ok x : or_panic (chain_single pedersen x) = Ok (chain_value [x]).
  Proof. reflexivity. Qed.

  Lemma fee_ok tip b : bounds_ok b -> hash_fee_fields poseidon tip b = Ok (poseidon (fee_words tip b)).
  Proof.
    intros (B1 & B2 & B3). unfold hash_fee_fields, fee_words.
    rewrite (gas_word_ok (text "L1_GAS")) by (auto; vm_compute; repeat constructor).
    rewrite (gas_word_ok (text "L2_GAS")) by (auto; vm_compute; repeat constructor). cbn [obind].
    destruct (rb_l1_data_gas b) as [d|].
    - rewrite (gas_word_ok (text "L1_DATA")) by (auto; vm_compute; repeat constructor). reflexivity.
    - reflexivity.
  Qed.

  Lemma v3_ok prefix sender nonce data tip paymaster nm fm b q pf id : bounds_ok b ->
    v3_hasher poseidon (felt_bytes prefix) sender nonce data tip paymaster nm fm b q pf id =
    Ok (poseidon (v3_words poseidon prefix sender nonce nm fm b tip paymaster id q ++ data ++
                  match pf with [] => [] | l => [poseidon l] end)).
  Proof.
    intros B. unfold v3_hasher. rewrite version_word_ok by lia. cbn [obind].
    rewrite fee_ok by exact B. cbn [obind]. rewrite mode_word_ok. destruct pf; reflexivity.
  Qed.

  (* each formula computes the value of the specification *)
  Lemma current_ok t id q : typed t -> fits t ->
    calculate_hash pedersen poseidon t id q = Ok (hash_value Current t id q).
  Proof.
    intros T F. unfold TxHashSpec.hash_value. destruct t as [t|t|t|t|t|t|t|t|t|t|t|t];
      cbn [calculate_hash is_v3 TxHashSpec.tx_words typed fits] in *.
    - unfold declare_v0_hash. rewrite version_word_ok by lia. cbn [obind].
      rewrite chain_literal by (cbn [length]; lia). cbn [obind]. unfold pre_v3_hasher. cbn [app].
      apply chain_literal. cbn [length]; lia.
    - unfold declare_v1_hash. rewrite version_word_ok by lia. cbn [obind].
      rewrite single_ok. cbn [obind]. unfold pre_v3_hasher. cbn [app]. apply chain_literal. cbn [length]; lia.
    - unfold declare_v2_hash. rewrite version_word_ok by lia. cbn [obind].
      rewrite single_ok. cbn [obind]. unfold pre_v3_hasher. cbn [app]. apply chain_literal. cbn [length]; lia.
    - unfold declare_v3_hash. rewrite v3_ok by exact T. reflexivity.
    - unfold deploy_hash. rewrite version_word_ok by lia. cbn [obind]. rewrite chain_ok by lia. cbn [obind].
      unfold pre_v3_hasher. cbn [app]. apply chain_literal. cbn [length]; lia.
    - unfold deploy_hash. rewrite version_word_ok by lia. cbn [obind]. rewrite chain_ok by lia. cbn [obind].
      unfold pre_v3_hasher. cbn [app]. apply chain_literal. cbn [length]; lia.
    - unfold deploy_account_v1_hash. rewrite chain_ok by (unfold len in *; cbn [length]; lia). cbn [obind].
      rewrite version_word_ok by lia. cbn [obind].
      unfold pre_v3_hasher. cbn [app]. apply chain_literal. cbn [length]; lia.
    - unfold deploy_account_v3_hash. rewrite v3_ok by exact T. reflexivity.
    - unfold invoke_v0_hash. rewrite version_word_ok by lia. cbn [obind]. rewrite chain_ok by lia. cbn [obind].
      unfold pre_v3_hasher. cbn [app]. apply chain_literal. cbn [length]; lia.
    - unfold invoke_v1_hash. rewrite chain_ok by lia. cbn [obind]. rewrite version_word_ok by lia. cbn [obind].
      unfold pre_v3_hasher. cbn [app]. apply chain_literal. cbn [length]; lia.
    - unfold invoke_v3_hash. rewrite v3_ok by exact T. destruct (i3_proof_facts t); reflexivity.
    - unfold l1_handler_hash. rewrite version_word_ok by lia. cbn [obind]. rewrite chain_ok by lia. cbn [obind].
      unfold pre_v3_hasher. cbn [app]. apply chain_literal. cbn [length]; lia.
  Qed.

  Lemma ancient_ok t id q : fits t ->
    calculate_legacy_hash pedersen t id =
    Ok (if has_form Ancient t then Some (hash_value Ancient t id q) else None).
  Proof.
    intros F. unfold TxHashSpec.hash_value. destruct t as [t|t|t|t|t|t|t|t|t|t|t|t]; try reflexivity;
      cbn [calculate_legacy_hash is_v3 TxHashSpec.tx_words fits has_form] in *;
      unfold deploy_legacy_hash, invoke_v0_legacy_hash, l1_handler_legacy_hash;
      rewrite chain_ok by lia; cbn [obind]; unfold legacy_hasher; cbn [app];
      rewrite chain_literal by (cbn [length]; lia); reflexivity.
  Qed.

  Lemma v07_ok t id q : fits (VL1Handler t) ->
    l1_handler_v07_hash pedersen t id = Ok (hash_value Starknet07 (VL1Handler t) id q).
  Proof.
    intros F. unfold TxHashSpec.hash_value. cbn [is_v3 TxHashSpec.tx_words fits] in *.
    unfold l1_handler_v07_hash. rewrite chain_ok by lia. cbn [obind]. unfold legacy_hasher. cbn [app].
    apply chain_literal. cbn [length]; lia.
  Qed.

  Lemma verify_ok t id h : typed t -> fits t ->
    verify_hash pedersen poseidon t id h =
    Ok (existsb (fun f => has_form f t && (h =? hash_value f t id false)) [Current; Ancient; Starknet07]).
  Proof.
    intros T F. unfold verify_hash. rewrite current_ok by assumption. cbn [obind existsb].
    change (has_form Current t) with true. rewrite andb_true_l.
    destruct (h =? hash_value Current t id false); [reflexivity|]. rewrite orb_false_l.
    rewrite (ancient_ok t id false F). cbn [obind]. rewrite orb_false_r.
    destruct (has_form Ancient t); rewrite ?andb_true_l, ?andb_false_l, ?orb_false_l;
      [destruct (h =? hash_value Ancient t id false); [reflexivity|]|]; rewrite ?orb_false_l;
      destruct t as [t|t|t|t|t|t|t|t|t|t|t|t]; try reflexivity;
      rewrite (v07_ok t id false F); reflexivity.
  Qed.

  (* ---- binding ---- *)
  Definition top_call (f : form) (t : variant) (id : felt) (q : bool) : call :=
    if is_v3 t then PoseidonList (tx_words f t id q)
    else PedersenCall (fold_left pedersen (tx_words f t id q) 0, len (tx_words f t id q), 0).
  Lemma top_in f t id q : In (top_call f t id q) (hash_calls f t id q).
  Proof.
    unfold top_call, TxHashSpec.hash_calls. apply in_app_iff. right.
    destruct (is_v3 t); [left; reflexivity|apply chain_in].
  Qed.
  Lemma top_value f t id q : value (top_call f t id q) = hash_value f t id q.
  Proof. unfold top_call, TxHashSpec.hash_value. destruct (is_v3 t); reflexivity. Qed.

  Lemma top_binds f1 t1 id1 q1 f2 t2 id2 q2 :
    clean (hash_calls f1 t1 id1 q1 ++ hash_calls f2 t2 id2 q2) ->
    hash_value f1 t1 id1 q1 = hash_value f2 t2 id2 q2 ->
    is_v3 t1 = is_v3 t2 /\ tx_words f1 t1 id1 q1 = tx_words f2 t2 id2 q2.
  Proof.
    intros C E.
    assert (Q : top_call f1 t1 id1 q1 = top_call f2 t2 id2 q2).
    { apply (proj1 C); [apply in_app_iff; left; apply top_in|apply in_app_iff; right; apply top_in|].
      rewrite !top_value. exact E. }
    unfold top_call in Q. unfold TxHashSpec.hash_value in E. unfold TxHashSpec.hash_calls in C.
    destruct (is_v3 t1), (is_v3 t2); try discriminate.
    - injection Q as Q. auto.
    - split; [reflexivity|]. apply (chain_binds pedersen poseidon2 poseidon keccak); [|exact E].
      eapply (clean_incl pedersen poseidon2 poseidon keccak); [|exact C].
      intros c. rewrite !in_app_iff. tauto.
  Qed.

  Lemma list_binds cs (l1 l2 : list felt) : clean cs -> In (PoseidonList l1) cs -> In (PoseidonList l2) cs ->
    poseidon l1 = poseidon l2 -> l1 = l2.
  Proof.
    intros C I1 I2 E. assert (Q : PoseidonList l1 = PoseidonList l2) by (apply (proj1 C); auto).
    injection Q as Q. exact Q.
  Qed.
  Lemma part_chain_binds t1 t2 l1 l2 :
    clean (part_calls pedersen t1 ++ part_calls pedersen t2) ->
    part_calls pedersen t1 = chain_calls l1 -> part_calls pedersen t2 = chain_calls l2 ->
    chain_value l1 = chain_value l2 -> l1 = l2.
  Proof. intros C P1 P2 E. rewrite P1, P2 in C. exact (chain_binds pedersen poseidon2 poseidon keccak _ _ C E). Qed.

  Definition same_query (t : variant) (f : form) (q1 q2 : bool) : Prop :=
    match f, t with
    | Current, VL1Handler _ => True
    | Current, _ => q1 = q2
    | _, _ => True
    end.

  #[local] Opaque version word CONSTRUCTOR mode_word CommitSpec.chain_value.
  Ltac version_tac :=
    match goal with
    | H : version ?a ?q1 = version ?b ?q2 |- _ =>
        apply version_inj in H; [|reflexivity|reflexivity];
        let H1 := fresh in let H2 := fresh in destruct H as [H1 H2]; try discriminate H1; clear H1
    end.
  Lemma words_bind f1 t1 id1 q1 f2 t2 id2 q2 :
    has_form f1 t1 = true -> has_form f2 t2 = true -> typed t1 -> typed t2 ->
    clean (part_calls pedersen t1 ++ part_calls pedersen t2) ->
    is_v3 t1 = is_v3 t2 -> tx_words f1 t1 id1 q1 = tx_words f2 t2 id2 q2 ->
    f1 = f2 /\ id1 = id2 /\ covered f1 t1 = covered f2 t2 /\ same_query t1 f1 q1 q2.
  Proof.
    intros F1 F2 T1 T2 C V E.
    destruct t1 as [t1|t1|t1|t1|t1|t1|t1|t1|t1|t1|t1|t1], f1; try discriminate F1; clear F1;
      destruct t2 as [t2|t2|t2|t2|t2|t2|t2|t2|t2|t2|t2|t2]; try discriminate V; destruct f2; try discriminate F2;
      clear F2 V; cbn [TxHashSpec.tx_words v3_words app] in E; try discriminate E.
    all: pose proof (f_equal (fun l => nth 0 l 0) E) as E0; cbn [nth] in E0; try (vm_compute in E0; discriminate E0); clear E0.
    all: try (pose proof (f_equal (fun l => nth 1 l 0) E) as E1; cbn [nth] in E1; version_tac).
    all: cbn [part_calls map] in C.
    all: try match type of C with
         | CommitSpec.clean _ _ _ _ (CommitSpec.chain_calls _ ?l1 ++ CommitSpec.chain_calls _ ?l2) =>
             let CB := fresh "CB" in
             assert (CB : chain_value l1 = chain_value l2 -> l1 = l2)
               by (apply (chain_binds pedersen poseidon2 poseidon keccak); exact C)
         end.
    (* formulas with a single list *)
    all: try (injection E; intros; cbn [covered same_query];
              match goal with
              | H : _ -> ?l1 = ?l2, H' : _ = _ |- _ => specialize (H H'); try (injection H; intros)
              | _ => idtac
              end;
              split; [reflexivity|split; [congruence|split; [congruence|auto]]]; fail).
    - (* declare v3 *)
      cbn [typed] in T1, T2. injection E; intros A1 A2 A3 A4 A5 A6 A7 A8 A9.
      apply (list_binds _ _ _ C) in A3; [|cbn; tauto|cbn; tauto].
      apply (list_binds _ _ _ C) in A7; [|cbn; tauto|cbn; tauto].
      apply (list_binds _ _ _ C) in A8; [|cbn; tauto|cbn; tauto].
      apply fee_words_inj in A8; auto. destruct A8. apply mode_word_inj in A4. destruct A4.
      cbn [covered same_query]. repeat split; auto; congruence.
    - (* deploy account v3 *)
      cbn [typed] in T1, T2. injection E; intros A1 A2 A3 A4 A5 A6 A7 A8 A9.
      apply (list_binds _ _ _ C) in A3; [|cbn; tauto|cbn; tauto].
      apply (list_binds _ _ _ C) in A7; [|cbn; tauto|cbn; tauto].
      apply (list_binds _ _ _ C) in A8; [|cbn; tauto|cbn; tauto].
      apply fee_words_inj in A8; auto. destruct A8. apply mode_word_inj in A4. destruct A4.
      cbn [covered same_query]. repeat split; auto; congruence.
    - (* invoke v3 *)
      cbn [typed] in T1, T2. injection E; intros A1 A2 A3 A4 A5 A6 A7 A8 A9.
      apply (list_binds _ _ _ C) in A2; [|cbn; tauto|cbn; tauto].
      apply (list_binds _ _ _ C) in A3; [|cbn; tauto|cbn; tauto].
      apply (list_binds _ _ _ C) in A7; [|cbn; tauto|cbn; tauto].
      apply (list_binds _ _ _ C) in A8; [|cbn; tauto|cbn; tauto].
      apply fee_words_inj in A8; auto. destruct A8. apply mode_word_inj in A4. destruct A4.
      assert (PF : i3_proof_facts t1 = i3_proof_facts t2).
      { destruct (i3_proof_facts t1) eqn:P1, (i3_proof_facts t2) eqn:P2; try discriminate; auto.
        injection A1 as A1. apply (list_binds _ _ _ C) in A1; [exact A1|cbn; tauto|cbn; tauto]. }
      cbn [covered same_query]. repeat split; auto; congruence.
    - destruct t1 as [ta tb tc td], t2 as [ua ub uc ud]. injection E; intros; cbn [l1_address l1_nonce l1_selector l1_calldata covered same_query] in *.
      repeat split; auto. f_equal. f_equal; auto.
    - destruct t1 as [ta tb tc td], t2 as [ua ub uc ud]. injection E; intros; cbn [l1_address l1_nonce l1_selector l1_calldata covered same_query] in *.
      repeat split; auto. f_equal. f_equal; auto.
  Qed.

  Lemma hash_binds f1 t1 id1 q1 f2 t2 id2 q2 :
    has_form f1 t1 = true -> has_form f2 t2 = true -> typed t1 -> typed t2 ->
    clean (hash_calls f1 t1 id1 q1 ++ hash_calls f2 t2 id2 q2) ->
    hash_value f1 t1 id1 q1 = hash_value f2 t2 id2 q2 ->
    f1 = f2 /\ id1 = id2 /\ covered f1 t1 = covered f2 t2 /\ same_query t1 f1 q1 q2.
  Proof.
    intros F1 F2 T1 T2 C E. destruct (top_binds _ _ _ _ _ _ _ _ C E) as [V W].
    apply words_bind; auto. eapply (clean_incl pedersen poseidon2 poseidon keccak); [|exact C].
    unfold TxHashSpec.hash_calls. intros c. rewrite !in_app_iff. tauto.
  Qed.

  Lemma form_calls f t id : has_form f t = true -> incl (hash_calls f t id false) (verify_calls pedersen poseidon t id).
  Proof.
    intros F c I. unfold verify_calls. apply in_flat_map. exists f. rewrite F. split; [|exact I].
    destruct f; cbn; auto.
  Qed.

  Lemma verified t id h : typed t -> fits t -> verify_hash pedersen poseidon t id h = Ok true ->
    exists f, has_form f t = true /\ h = hash_value f t id false.
  Proof.
    intros T F E. rewrite verify_ok in E by assumption.
    assert (X : forall b : bool, Ok b = Ok true -> b = true) by (intros b X; now injection X).
    apply X, existsb_exists in E.
    destruct E as (f & _ & E). apply andb_true_iff in E. destruct E as [E1 E2]. apply N.eqb_eq in E2. eauto.
  Qed.

  Lemma covered_words t1 t2 f id q : covered f t1 = covered f t2 -> has_form f t1 = true -> has_form f t2 = true ->
    is_v3 t1 = is_v3 t2 /\ tx_words f t1 id q = tx_words f t2 id q.
  Proof.
    intros E F1 F2.
    destruct t1 as [t1|t1|t1|t1|t1|t1|t1|t1|t1|t1|t1|t1], f; try discriminate F1; clear F1;
      destruct t2 as [t2|t2|t2|t2|t2|t2|t2|t2|t2|t2|t2|t2]; try discriminate F2; cbn [covered] in E; try discriminate E.
    all: injection E; intros; split; [reflexivity|].
    all: try (cbn [TxHashSpec.tx_words]; unfold v3_words; congruence).
    all: cbn [TxHashSpec.tx_words]; unfold v3_words; repeat match goal with H : _ = _ |- _ => rewrite H; clear H end; reflexivity.
  Qed.

  (* ---- contract addresses ---- *)
  Definition address_words (calldata : list felt) (salt class : felt) : list felt :=
    [word (text "STARKNET_CONTRACT_ADDRESS"); 0; salt; class; chain_value calldata].
  #[local] Transparent CommitSpec.chain_value.
  Lemma chain_value_small l : (forall a b, pedersen a b < P) -> chain_value l < P.
  Proof. intros B. apply B. Qed.
  #[local] Opaque CommitSpec.chain_value.
  Lemma address_ok calldata salt class :
    (forall a b, pedersen a b < P) -> len calldata < 2 ^ 60 ->
    deployed_contract_address pedersen calldata salt class =
    Ok (chain_value (address_words calldata salt class) mod (2 ^ 251 - 256)).
  Proof.
    intros B F. unfold deployed_contract_address. rewrite chain_ok by lia. cbn [obind].
    rewrite chain_literal by (cbn [length]; lia). cbn [obind].
    change [felt_bytes (text "STARKNET_CONTRACT_ADDRESS"); 0; salt; class; chain_value calldata]
      with (address_words calldata salt class).
    assert (L : chain_value (address_words calldata salt class) < P) by now apply chain_value_small.
    revert L. generalize (chain_value (address_words calldata salt class)). intros a L.
    change MAX_CONTRACT_ADDRESS with (2 ^ 251 - 256).
    assert (PB : P < (2 ^ 251 - 256) + (2 ^ 251 - 256)) by reflexivity.
    assert (MB : 2 ^ 251 - 256 < 2 ^ 251) by reflexivity.
    assert (M0 : 0 < 2 ^ 251 - 256) by reflexivity.
    revert PB MB M0. generalize (2 ^ 251 - 256). generalize (2 ^ 251). intros k m PB MB M0.
    destruct (m <=? a) eqn:C.
    - replace (a mod m) with (a - m).
      + assert (X : a - m < k) by lia. apply N.ltb_lt in X. rewrite X. reflexivity.
      + rewrite <- (N.mod_small (a - m) m) by lia.
        replace a with ((a - m) + 1 * m) at 2 by lia. rewrite N.mod_add by lia. reflexivity.
    - rewrite N.mod_small by lia. assert (X : a < k) by lia. apply N.ltb_lt in X. rewrite X. reflexivity.
  Qed.
End Hashes.

(* ---- messages ---- *)
Lemma rdigits_small k j n : n < 256 ^ N.of_nat k -> rdigits 256 (j + k) n = repeat 0 j ++ rdigits 256 k n.
Proof.
  intros L. apply (rval_inj 256).
  - lia.
  - apply rdigits_lt. lia.
  - apply Forall_app. split; [|apply rdigits_lt; lia]. apply Forall_forall. intros x I. apply repeat_spec in I. lia.
  - rewrite app_length, repeat_length, !rdigits_length. reflexivity.
  - rewrite rval_zeros, !rval_rdigits; auto; try lia.
    eapply N.lt_le_trans; [exact L|]. apply N.pow_le_mono_r; lia.
Qed.
Lemma rdigits_inj k m n : m < 256 ^ N.of_nat k -> n < 256 ^ N.of_nat k -> rdigits 256 k m = rdigits 256 k n -> m = n.
Proof.
  intros L1 L2 E. rewrite <- (rval_rdigits 256 k m), <- (rval_rdigits 256 k n) by (auto; lia). now rewrite E.
Qed.
Lemma app_split_len {A} (a1 a2 b1 b2 : list A) : length a1 = length a2 -> a1 ++ b1 = a2 ++ b2 -> a1 = a2 /\ b1 = b2.
Proof.
  revert a2. induction a1 as [|x a1 IH]; intros [|y a2] L E; try discriminate; auto.
  injection E as -> E. apply IH in E; [|cbn [length] in L; lia]. destruct E as [-> ->]. auto.
Qed.
Lemma words_bytes_inj l1 : forall l2, Forall (fun x => x < 2 ^ 256) l1 -> Forall (fun x => x < 2 ^ 256) l2 ->
  flat_map word_bytes l1 = flat_map word_bytes l2 -> l1 = l2.
Proof.
  assert (W : forall x r, length (word_bytes x ++ r) = (32 + length r)%nat).
  { intros. unfold word_bytes. rewrite app_length, rdigits_length. reflexivity. }
  induction l1 as [|x l1 IH]; intros [|y l2] F1 F2 E; auto; cbn [flat_map] in E.
  - apply (f_equal (@length _)) in E. rewrite W in E. discriminate.
  - apply (f_equal (@length _)) in E. rewrite W in E. discriminate.
  - inversion F1; inversion F2; subst.
    apply app_split_len in E; [|unfold word_bytes; rewrite !rdigits_length; reflexivity].
    destruct E as [E1 E2]. f_equal; [|now apply IH].
    apply (rdigits_inj 32); auto.
Qed.
