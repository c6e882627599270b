(** C57, C60, C61: hashes of transactions, addresses of contracts and hashes of messages from L1.
    Definitions are in TxHashModel.v, the vocabulary of the statements in TxHashSpec.v. *)
From Coq Require Import List Bool Arith NArith ZArith Lia ZifyBool ZifyNat ZifyN.
From Verif Require Import Radix MerkleModel HashModel CommitModel CommitSpec CommitProof BlockHashProof
  TxHashModel TxHashSpec TxHashProof.
Import ListNotations.
Local Open Scope N_scope.

Section Hashes.
  Variable pedersen : felt -> felt -> felt.
  Variable poseidon2 : felt -> felt -> felt.
  Variable poseidon : list felt -> felt.
  Variable keccak : list N -> list N.
  Notation clean := (clean pedersen poseidon2 poseidon keccak).
  Notation hash_value := (hash_value pedersen poseidon).
  Notation verify_calls := (verify_calls pedersen poseidon).
  Notation verify_hash := (verify_hash pedersen poseidon).

  (** ================ C57 ================ *)

  (* verification always gives an answer: yes exactly when the hash follows one of the formulas *)
  Theorem C57_verify t id h : typed t -> fits t ->
    exists b, verify_hash t id h = Ok b /\
      (b = true <-> exists f, has_form f t = true /\ h = hash_value f t id false).
  Proof.
    intros T F. rewrite verify_ok by assumption. eexists. split; [reflexivity|].
    rewrite existsb_exists. split.
    - intros (f & _ & E). apply andb_true_iff in E. destruct E as [E1 E2]. apply N.eqb_eq in E2. eauto.
    - intros (f & E1 & ->). exists f. split; [destruct f; cbn; auto|]. rewrite E1, N.eqb_refl. reflexivity.
  Qed.

  (* two transactions with one verified hash follow the same formula, are for the same chain and
     agree on everything that the formula covers *)
  Theorem C57_binds t1 t2 id1 id2 h :
    typed t1 -> typed t2 -> fits t1 -> fits t2 ->
    clean (verify_calls t1 id1 ++ verify_calls t2 id2) ->
    verify_hash t1 id1 h = Ok true -> verify_hash t2 id2 h = Ok true ->
    id1 = id2 /\ exists f, has_form f t1 = true /\ has_form f t2 = true /\ covered f t1 = covered f t2.
  Proof.
    intros T1 T2 F1 F2 C V1 V2.
    apply verified in V1; auto. apply verified in V2; auto.
    destruct V1 as (f1 & H1 & ->), V2 as (f2 & H2 & E).
    destruct (hash_binds pedersen poseidon2 poseidon keccak f1 t1 id1 false f2 t2 id2 false) as (-> & -> & CV & _); auto.
    - eapply clean_incl; [|exact C].
      apply incl_app; [apply incl_appl|apply incl_appr]; now apply form_calls.
    - eauto 8.
  Qed.

  (* for the transactions of accounts that is everything but the signature *)
  Theorem C57_account t1 t2 id1 id2 h :
    by_account t1 = true -> typed t1 -> typed t2 -> fits t1 -> fits t2 ->
    clean (verify_calls t1 id1 ++ verify_calls t2 id2) ->
    verify_hash t1 id1 h = Ok true -> verify_hash t2 id2 h = Ok true ->
    id1 = id2 /\ unsigned t1 = unsigned t2.
  Proof.
    intros A T1 T2 F1 F2 C V1 V2.
    destruct (C57_binds t1 t2 id1 id2 h T1 T2 F1 F2 C V1 V2) as (E & f & H1 & H2 & CV). split; [exact E|].
    destruct t1, f; try discriminate A; try discriminate H1;
      destruct t2; try discriminate CV; exact CV.
  Qed.

  (* the hash depends on nothing else *)
  Theorem C57_function t1 t2 id q :
    typed t1 -> typed t2 -> fits t1 -> fits t2 -> covered Current t1 = covered Current t2 ->
    calculate_hash pedersen poseidon t1 id q = calculate_hash pedersen poseidon t2 id q.
  Proof.
    intros T1 T2 F1 F2 E. rewrite !current_ok by assumption. f_equal. unfold TxHashSpec.hash_value.
    destruct (covered_words pedersen poseidon t1 t2 Current id q E eq_refl eq_refl) as [-> ->]. reflexivity.
  Qed.

  (* the hash of a simulated transaction is not the hash of any transaction, on any chain *)
  Theorem C57_query t1 t2 id1 id2 h :
    typed t1 -> typed t2 -> fits t1 -> fits t2 -> (forall t, t1 <> VL1Handler t) ->
    clean (hash_calls pedersen poseidon Current t1 id1 true ++ verify_calls t2 id2) ->
    calculate_hash pedersen poseidon t1 id1 true = Ok h -> verify_hash t2 id2 h = Ok false.
  Proof.
    intros T1 T2 F1 F2 NL C E. rewrite current_ok in E by assumption. injection E as <-.
    destruct (C57_verify t2 id2 (hash_value Current t1 id1 true) T2 F2) as (b & V & I).
    destruct b; [|exact V]. exfalso. destruct (proj1 I eq_refl) as (f & H & E).
    destruct (hash_binds pedersen poseidon2 poseidon keccak Current t1 id1 true f t2 id2 false) as (_ & _ & _ & Q); auto.
    - eapply clean_incl; [|exact C]. apply incl_app; [apply incl_appl, incl_refl|].
      apply incl_appr. now apply form_calls.
    - destruct t1; cbn in Q; try discriminate Q. eapply NL. reflexivity.
  Qed.

  (** ================ C60 ================ *)

  (* the address of a deployed contract: a hash chain modulo 2^251 - 256 *)
  Theorem C60_address calldata salt class :
    (forall a b, pedersen a b < P) -> len calldata < 2 ^ 60 ->
    deployed_contract_address pedersen calldata salt class =
    Ok (chain_value pedersen [word (text "STARKNET_CONTRACT_ADDRESS"); 0; salt; class; chain_value pedersen calldata]
        mod (2 ^ 251 - 256)).
  Proof. apply (address_ok pedersen poseidon2 poseidon keccak). Qed.

  (* contracts with one address have the same class, salt and constructor calldata, unless the
     hashes collide modulo 2^251 - 256 *)
  Theorem C60_binds calldata1 salt1 class1 calldata2 salt2 class2 a :
    (forall a b, pedersen a b < P) -> len calldata1 < 2 ^ 60 -> len calldata2 < 2 ^ 60 ->
    let ws1 := [word (text "STARKNET_CONTRACT_ADDRESS"); 0; salt1; class1; chain_value pedersen calldata1] in
    let ws2 := [word (text "STARKNET_CONTRACT_ADDRESS"); 0; salt2; class2; chain_value pedersen calldata2] in
    clean ((chain_calls pedersen calldata1 ++ chain_calls pedersen ws1) ++
           (chain_calls pedersen calldata2 ++ chain_calls pedersen ws2)) ->
    deployed_contract_address pedersen calldata1 salt1 class1 = Ok a ->
    deployed_contract_address pedersen calldata2 salt2 class2 = Ok a ->
    (calldata1 = calldata2 /\ salt1 = salt2 /\ class1 = class2) \/
    (chain_value pedersen ws1 <> chain_value pedersen ws2 /\
     chain_value pedersen ws1 mod (2 ^ 251 - 256) = chain_value pedersen ws2 mod (2 ^ 251 - 256)).
  Proof.
    intros B L1 L2 ws1 ws2 C E1 E2. rewrite C60_address in E1, E2 by assumption.
    fold ws1 in E1. fold ws2 in E2.
    assert (X : forall x y : felt, Ok x = Ok y -> x = y) by (intros x y Q; now injection Q).
    apply X in E1, E2.
    destruct (N.eq_dec (chain_value pedersen ws1) (chain_value pedersen ws2)) as [E|NE].
    - left. apply (chain_binds pedersen poseidon2 poseidon keccak) in E.
      + injection E as ES EC EH. apply (chain_binds pedersen poseidon2 poseidon keccak) in EH; auto.
        eapply clean_incl; [|exact C]. intros c. rewrite !in_app_iff. tauto.
      + eapply clean_incl; [|exact C]. intros c. rewrite !in_app_iff. tauto.
    - right. split; [exact NE|]. now rewrite E1, E2.
  Qed.

  (* addresses that are filled in are those of the class, the salt and the calldata, and nothing
     else changes *)
  Theorem C60_filled_in t t' :
    calculate_contract_address pedersen t = Ok t' ->
    (forall d, t = VDeployV0 d \/ t = VDeployV1 d -> exists a,
       deployed_contract_address pedersen (dp_calldata d) (dp_salt d) (dp_class d) = Ok a /\
       let d' := DeployTx (dp_class d) a (dp_salt d) (dp_calldata d) in
       (t = VDeployV0 d -> t' = VDeployV0 d') /\ (t = VDeployV1 d -> t' = VDeployV1 d')) /\
    (forall d, t = VDeployAccountV1 d -> exists a,
       deployed_contract_address pedersen (a1_calldata d) (a1_salt d) (a1_class d) = Ok a /\
       t' = VDeployAccountV1 (DeployAccountTx1 a (a1_max_fee d) (a1_signature d) (a1_nonce d) (a1_salt d)
                                (a1_calldata d) (a1_class d))) /\
    (forall d, t = VDeployAccountV3 d -> exists a,
       deployed_contract_address pedersen (a3_calldata d) (a3_salt d) (a3_class d) = Ok a /\
       t' = VDeployAccountV3 (DeployAccountTx3 a (a3_signature d) (a3_nonce d) (a3_nonce_mode d) (a3_fee_mode d)
                                (a3_bounds d) (a3_tip d) (a3_paymaster d) (a3_salt d) (a3_calldata d) (a3_class d))) /\
    ((forall d, t <> VDeployV0 d) -> (forall d, t <> VDeployV1 d) -> (forall d, t <> VDeployAccountV1 d) ->
     (forall d, t <> VDeployAccountV3 d) -> t' = t).
  Proof.
    intros E. split; [|split; [|split]].
    - intros d [->| ->]; cbn in E; destruct (deployed_contract_address _ _ _ _) as [a| | |]; try discriminate;
        injection E as <-; exists a; (split; [reflexivity|split; intros X; try discriminate; reflexivity]).
    - intros d ->. cbn in E. destruct (deployed_contract_address _ _ _ _) as [a| | |]; try discriminate.
      injection E as <-. eauto.
    - intros d ->. cbn in E. destruct (deployed_contract_address _ _ _ _) as [a| | |]; try discriminate.
      injection E as <-. eauto.
    - intros N1 N2 N3 N4. destruct t; cbn in E; try (injection E as <-; reflexivity); exfalso;
        [eapply N1 | eapply N2 | eapply N3 | eapply N4]; reflexivity.
  Qed.

  (** ================ C61 ================ *)

  (* the hash of a message from L1: Keccak of the words of the message *)
  Theorem C61_preimage t from payload :
    l1_calldata t = from :: payload -> len payload < 2 ^ 64 ->
    message_hash keccak t =
    keccak (message_bytes from (l1_address t) (l1_nonce t) (l1_selector t) payload).
  Proof.
    intros E L. unfold message_hash, message_bytes. rewrite E. f_equal.
    cbn [flat_map app]. unfold word_bytes. do 4 f_equal.
    rewrite app_assoc. f_equal. symmetry. apply (rdigits_small 8 24). exact L.
  Qed.

  (* two messages with one hash are the same, unless Keccak collides on them *)
  Theorem C61_binds t1 t2 :
    let felts t := Forall (fun x => x < 2 ^ 256)
                     ([l1_address t; l1_nonce t; l1_selector t] ++ l1_calldata t) in
    felts t1 -> felts t2 -> l1_calldata t1 <> [] -> l1_calldata t2 <> [] ->
    len (l1_calldata t1) <= 2 ^ 64 -> len (l1_calldata t2) <= 2 ^ 64 ->
    message_hash keccak t1 = message_hash keccak t2 ->
    t1 = t2 \/ exists x y, x <> y /\ keccak x = keccak y.
  Proof.
    intros felts W1 W2 NE1 NE2 L1 L2 E. destruct t1 as [a1 s1 n1 c1], t2 as [a2 s2 n2 c2].
    unfold felts in W1, W2. cbn [l1_address l1_nonce l1_selector l1_calldata] in *. clear felts.
    destruct c1 as [|f1 p1]; [now elim NE1|]. destruct c2 as [|f2 p2]; [now elim NE2|]. clear NE1 NE2.
    assert (B1 : len p1 < 2 ^ 64) by (unfold len in *; cbn [length] in L1; lia).
    assert (B2 : len p2 < 2 ^ 64) by (unfold len in *; cbn [length] in L2; lia).
    rewrite (C61_preimage _ f1 p1), (C61_preimage _ f2 p2) in E by (auto; reflexivity).
    cbn [l1_address l1_nonce l1_selector] in E.
    destruct (list_eq_dec N.eq_dec (message_bytes f1 a1 n1 s1 p1) (message_bytes f2 a2 n2 s2 p2)) as [Q|Q];
      [left|right; eauto].
    assert (LB : forall p : list felt, len p < 2 ^ 64 -> len p < 2 ^ 256).
    { intros p L. eapply N.lt_trans; [exact L|reflexivity]. }
    unfold message_bytes in Q. cbn [app] in W1, W2. rewrite !Forall_cons_iff in W1, W2.
    destruct W1 as (Wa1 & Wn1 & Ws1 & Wf1 & Wp1), W2 as (Wa2 & Wn2 & Ws2 & Wf2 & Wp2).
    apply words_bytes_inj in Q.
    - cbn [app] in Q. injection Q as -> -> -> -> _ ->. reflexivity.
    - cbn [app]. repeat (constructor; auto).
    - cbn [app]. repeat (constructor; auto).
  Qed.
End Hashes.
Print Assumptions C57_verify.
Print Assumptions C57_binds.
Print Assumptions C57_account.
Print Assumptions C57_function.
Print Assumptions C57_query.
Print Assumptions C60_address.
Print Assumptions C60_binds.
Print Assumptions C60_filled_in.
Print Assumptions C61_preimage.
Print Assumptions C61_binds.

(** ---- examples ---- *)
Definition ex_ped (a b : felt) : felt := (a * 31 + b * 1009 + 7) mod P.
Definition ex_ped2 (a b : felt) : felt := (a * 37 + b * 2003 + 11) mod P.
Definition ex_pos (l : list felt) : felt := fold_left (fun acc x => (acc * 4099 + x + 13) mod P) l 5.
Definition ex_kec (l : list N) : list N := l.

Definition ex_bounds : resource_bounds := Bounds (Bound 10 20) (Bound 30 40) (Some (Bound 50 60)).
Definition ex_invoke3 (signature : list felt) : variant :=
  VInvokeV3 (InvokeTx3 signature 7 DaL1 DaL2 ex_bounds 3 [] [1; 2] [8; 9] 1000 [4]).
Definition ex_invoke0 (fee : felt) : variant :=
  VInvokeV0 (InvokeTx0 [5; 6] 1001 77 (Some External) fee [1; 2]).
Definition ex_l1 (nonce : felt) : variant := VL1Handler (L1HandlerTx 1001 77 nonce [5; 6]).

Example C57_example :
  let h := hash_value ex_ped ex_pos Current (ex_invoke3 [11; 12]) 99 false in
  by_account (ex_invoke3 [11; 12]) = true /\ typed (ex_invoke3 [11; 12]) /\ fits (ex_invoke3 [11; 12]) /\
  clean ex_ped ex_ped2 ex_pos ex_kec
    (verify_calls ex_ped ex_pos (ex_invoke3 [11; 12]) 99 ++ verify_calls ex_ped ex_pos (ex_invoke3 []) 99) /\
  verify_hash ex_ped ex_pos (ex_invoke3 [11; 12]) 99 h = Ok true /\
  verify_hash ex_ped ex_pos (ex_invoke3 []) 99 h = Ok true /\
  verify_hash ex_ped ex_pos (ex_invoke3 []) 98 h = Ok false.
Proof.
  split; [reflexivity|]. split; [repeat split|]. split; [exact I|].
  split; [apply clean_check; vm_compute; reflexivity|]. repeat split; vm_compute; reflexivity.
Qed.

Example C57_query_example :
  typed (ex_invoke0 5) /\ fits (ex_invoke0 5) /\
  clean ex_ped ex_ped2 ex_pos ex_kec
    (hash_calls ex_ped ex_pos Current (ex_invoke0 5) 99 true ++ verify_calls ex_ped ex_pos (ex_invoke0 5) 99).
Proof. split; [exact I|]. split; [reflexivity|]. apply clean_check; vm_compute; reflexivity. Qed.

Example C60_example :
  (forall a b, ex_ped a b < P) /\
  (exists a, deployed_contract_address ex_ped [1; 2; 3] 5 6 = Ok a) /\
  clean ex_ped ex_ped2 ex_pos ex_kec
    (chain_calls ex_ped [1; 2; 3] ++
     chain_calls ex_ped [word (text "STARKNET_CONTRACT_ADDRESS"); 0; 5; 6; chain_value ex_ped [1; 2; 3]]).
Proof.
  split; [intros; apply N.mod_upper_bound; discriminate|].
  split; [eexists; vm_compute; reflexivity|]. apply clean_check; vm_compute; reflexivity.
Qed.

Example C61_example :
  message_hash ex_kec (L1HandlerTx 2 3 4 [1; 5]) =
  message_bytes 1 2 4 3 [5] /\ length (message_bytes 1 2 4 3 [5]) = 192%nat.
Proof. split; vm_compute; reflexivity. Qed.

(** ---- what older transactions do not bind ---- *)
Section Refuted.
  Variable pedersen : felt -> felt -> felt.
  Variable poseidon : list felt -> felt.
  Notation hash t := (calculate_hash pedersen poseidon t 99 false).

  (* fee and nonce of a declare transaction of version 0 *)
  Theorem C57_declare_v0_refuted :
    exists t1 t2, unsigned t1 <> unsigned t2 /\ hash t1 = hash t2.
  Proof.
    exists (VDeclareV0 (DeclareTx01 1 2 3 [] 4)), (VDeclareV0 (DeclareTx01 1 5 6 [] 4)).
    split; [discriminate|reflexivity].
  Qed.

  (* class and salt of a deploy transaction *)
  Theorem C57_deploy_refuted :
    exists t1 t2, unsigned t1 <> unsigned t2 /\ hash t1 = hash t2.
  Proof.
    exists (VDeployV1 (DeployTx 1 10 2 [3])), (VDeployV1 (DeployTx 4 10 5 [3])).
    split; [discriminate|reflexivity].
  Qed.

  (* the fee of an invoke transaction of version 0, even though the formula of today covers it *)
  Theorem C57_invoke_v0_refuted :
    exists t1 t2 h, covered Current t1 <> covered Current t2 /\
      verify_hash pedersen poseidon t1 99 h = Ok true /\ verify_hash pedersen poseidon t2 99 h = Ok true.
  Proof.
    exists (ex_invoke0 5), (ex_invoke0 6), (hash_value pedersen poseidon Ancient (ex_invoke0 5) 99 false).
    split; [discriminate|].
    split; (rewrite (verify_ok pedersen pedersen poseidon (fun l => l)) by (exact I || reflexivity)); f_equal; apply existsb_exists; exists Ancient;
      (split; [cbn; auto|]); apply andb_true_iff; (split; [reflexivity|]); apply N.eqb_refl.
  Qed.

  (* the nonce of an L1 handler, and the kind of the transaction: a hash may verify for L1 handlers
     with any nonce and for an invoke transaction of version 0 *)
  Theorem C57_l1_handler_refuted :
    exists t1 t2 t3 h, covered Current t1 <> covered Current t2 /\
      (forall d, t3 <> VL1Handler d) /\ t1 = ex_l1 1 /\
      verify_hash pedersen poseidon t1 99 h = Ok true /\ verify_hash pedersen poseidon t2 99 h = Ok true /\
      verify_hash pedersen poseidon t3 99 h = Ok true.
  Proof.
    exists (ex_l1 1), (ex_l1 2), (ex_invoke0 5), (hash_value pedersen poseidon Ancient (ex_l1 1) 99 false).
    split; [discriminate|]. split; [discriminate|]. split; [reflexivity|].
    split; [|split]; (rewrite (verify_ok pedersen pedersen poseidon (fun l => l)) by (exact I || reflexivity)); f_equal; apply existsb_exists; exists Ancient;
      (split; [cbn; auto|]); apply andb_true_iff; (split; [reflexivity|]); apply N.eqb_refl.
  Qed.
End Refuted.
Print Assumptions C57_declare_v0_refuted.
Print Assumptions C57_deploy_refuted.
Print Assumptions C57_invoke_v0_refuted.
Print Assumptions C57_l1_handler_refuted.
