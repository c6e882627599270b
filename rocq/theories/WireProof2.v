(** Proofs for C79: receipts, whole blocks, events and headers. *)
From Coq Require Import List Bool Arith NArith ZArith Lia ZifyBool ZifyNat ZifyN.
From Verif Require Import Radix FeltModel FeltSpec FeltProof MerkleModel VersionModel VersionSpec VersionProof CommitModel TxHashModel CodecModel BlobModel BlobSpec WireModel WireSpec WireProof.
Import ListNotations.
Local Open Scope N_scope.

#[local] Opaque rdigits rval read_felt write_felt read_address.

Lemma tx_round : forall t, is_sendable t ->
  receive_tx (send_tx t) = Some (Stx (s_hash t) (received (s_variant t))).
Proof.
  intros [h v] (H & T & S). cbn [s_hash s_variant] in *.
  destruct (variant_round v T S) as (d & E & F). unfold receive_tx, send_tx. cbn [fst snd s_hash s_variant].
  rewrite E, read_write_felt, F by exact H. reflexivity.
Qed.

(** ---- receipts ---- *)

Lemma low_bytes : forall x, is_felt x ->
  length (skipn 12 (rdigits 256 32 x)) = 20%nat /\ is_bytes (skipn 12 (rdigits 256 32 x)) /\
  rval 256 (skipn 12 (rdigits 256 32 x)) = x mod 2 ^ 160.
Proof.
  intros x H. pose proof (rdigits_length 256 32 x) as L.
  assert (D : is_bytes (rdigits 256 32 x)) by (apply rdigits_lt; lia).
  pose proof (digits_value x H) as V. rewrite be_value_rval in V.
  set (d := rdigits 256 32 x) in *. clearbody d.
  assert (A : d = firstn 12 d ++ skipn 12 d) by (symmetry; apply firstn_skipn).
  assert (Lw : length (skipn 12 d) = 20%nat) by (rewrite skipn_length; lia).
  split; [exact Lw|].
  assert (Dw : is_bytes (skipn 12 d)).
  { rewrite A in D. apply Forall_app in D. apply D. }
  split; [exact Dw|].
  rewrite A, rval_app, Lw in V. change (256 ^ N.of_nat 20) with (2 ^ 160) in V.
  pose proof (rval_bound 256 _ Dw) as B. rewrite Lw in B. change (256 ^ N.of_nat 20) with (2 ^ 160) in B.
  rewrite <- V, N.add_comm, N.mod_add by discriminate. symmetry. apply N.mod_small, B.
Qed.

(** 20 bytes are an address. *)
Lemma eth_address : forall b, is_bytes b -> length b = 20%nat ->
  match FeltModel.from_be_slice b with
  | FeltModel.Ok f => if has_more_than_251_bits f then Panic else MerkleModel.Ok (rval 256 f)
  | FeltModel.Err _ => Panic
  end = MerkleModel.Ok (rval 256 b).
Proof.
  intros b D L. rewrite from_be_slice_spec by exact D. rewrite L. cbn [Nat.leb andb].
  pose proof (rval_bound 256 b D) as B. rewrite L in B. change (256 ^ N.of_nat 20) with (2 ^ 160) in B.
  assert (S : 2 ^ 160 < 2 ^ 251) by reflexivity.
  assert (V : (rval 256 b <? FeltSpec.P) = true).
  { apply N.ltb_lt. pose proof FeltProof.P_gt_2_251 as G. eapply N.lt_trans; [exact B|].
    eapply N.lt_trans; [exact S|exact G]. }
  rewrite V. rewrite has_more_spec.
  - rewrite be_value_rval, rval_zeros.
    destruct (N.leb_spec (2 ^ 251) (rval 256 b)) as [Q|Q]; [|reflexivity]. exfalso.
    apply (N.lt_irrefl (rval 256 b)). eapply N.lt_le_trans; [|exact Q]. eapply N.lt_trans; [exact B|exact S].
  - rewrite app_length, repeat_length, L. reflexivity.
  - apply Forall_app. split; [apply repeat_bytes|exact D].
Qed.

Lemma message_round : forall m, is_message m ->
  message_from_proto (message_to_proto (message_to_dto m)) = Some (message_to_dto m) /\
  message_from_dto (message_to_dto m) = MerkleModel.Ok (kept_message m).
Proof.
  intros [from payload to] (A & B & C). cbn [m_from m_payload m_to] in *.
  destruct (low_bytes to (is_251_felt to C)) as (L & D & V). split.
  - unfold message_from_proto, message_to_proto, message_to_dto. cbn [m_from m_payload m_to].
    rewrite read_write_felt by (apply is_251_felt, A). rewrite read_write_felts by exact B.
    unfold read_bytes.
    match goal with |- context [Nat.eqb ?n 20] => replace n with 20%nat by (symmetry; exact L) end. reflexivity.
  - unfold message_from_dto, message_to_dto, kept_message. cbn [m_from m_payload m_to pm_to pm_from pm_payload].
    rewrite eth_address by assumption. rewrite V. reflexivity.
Qed.

Lemma messages_round : forall l, Forall is_message l ->
  try_map message_from_proto (map message_to_proto (map message_to_dto l)) = Some (map message_to_dto l) /\
  messages_from_dto (map message_to_dto l) = MerkleModel.Ok (map kept_message l).
Proof.
  induction l as [|m l IH]; intros F; [split; reflexivity|]. inversion F as [|? ? Fm Fl]; subst.
  destruct (message_round m Fm) as [A B]. destruct (IH Fl) as [C D].
  cbn [map try_map messages_from_dto]. rewrite A, B, C, D. split; reflexivity.
Qed.

Lemma gas_round : forall x, is_u128 x -> to_gas_price x = Some x.
Proof.
  intros x H. rewrite to_gas_price_spec by (apply u128_felt, H). apply N.ltb_lt in H. rewrite H. reflexivity.
Qed.

Lemma resources_round : forall x, is_resources x -> is_small x ->
  exists d, resources_to_dto x = MerkleModel.Ok d /\
    resources_from_proto (resources_to_proto d) = Some d /\
    resources_from_dto d = MerkleModel.Ok (kept_resources x).
Proof.
  intros [[a b c d e f g h i j k l] steps holes [da1 da2] [t1 t2] l2] (_ & _ & _ & [A1 A2] & [T1 _] & L2) S.
  cbn [x_builtins x_steps x_holes x_data_availability x_total_gas x_l2_gas g_l1 g_l1_data] in *.
  unfold is_small in S.
  cbn [x_builtins x_steps x_holes b_output b_pedersen b_range_check b_ecdsa b_bitwise b_ec_op b_keccak b_poseidon
       b_add_mod b_mul_mod b_range_check96] in S.
  assert (U : forall n, n < 2 ^ 32 -> u32_or_panic n = MerkleModel.Ok n).
  { intros n Hn. unfold u32_or_panic. apply N.ltb_lt in Hn. rewrite Hn. reflexivity. }
  repeat match goal with H : Forall _ (_ :: _) |- _ => 
     let X := fresh "X" in pose proof (Forall_inv H) as X; cbv beta in X; apply Forall_inv_tail in H end.
  unfold resources_to_dto.
  cbn [x_builtins x_steps x_holes b_output b_pedersen b_range_check b_ecdsa b_bitwise b_ec_op b_keccak b_poseidon
       b_add_mod b_mul_mod b_range_check96 x_data_availability x_total_gas x_l2_gas g_l1 g_l1_data].
  rewrite !U by assumption. cbn [obind]. eexists. split; [reflexivity|]. split.
  - unfold resources_from_proto, resources_to_proto. cbn [option_map try_opt].
    rewrite !read_write_felt by (apply u128_felt; assumption). reflexivity.
  - unfold resources_from_dto. cbn [px_l1 px_l1_data px_total_l1 px_l2 px_builtins px_steps px_holes or_zero].
    rewrite !gas_round by assumption. reflexivity.
Qed.

Definition receipt_of (r : rcpt) (index : N) : c_rcpt :=
  CRcpt (r_fee r) (kept_resources (r_resources r)) (map kept_message (r_messages r)) (r_status r) index.

Lemma receipt_round : forall keccak v r index, (forall l, length (keccak l) = 32%nat) ->
  is_variant v -> is_receipt r -> is_small (r_resources r) ->
  exists m, send_receipt keccak v r = MerkleModel.Ok m /\
    receive_receipt m index = MerkleModel.Ok (receipt_of r index).
Proof.
  intros keccak v r index K T (Fee & Res & [_ Msg] & _) S.
  destruct (resources_round _ Res S) as (x & A & B & C). destruct (messages_round _ Msg) as [D E].
  unfold send_receipt, receipt_to_dto. rewrite A. cbn [obind].
  set (com := @PCommon N price_unit (r_fee r) Wei (map message_to_dto (r_messages r)) x
    match r_status r with Succeeded => None | Reverted reason => Some reason end).
  change (@PCommon MerkleModel.felt price_unit) with (@PCommon N price_unit).
  fold com. assert (Q : common_from_proto (common_to_proto com) = Some com).
  { unfold com, common_from_proto, common_to_proto. rewrite read_write_felt by exact Fee.
    cbn [write_unit read_unit]. rewrite D, B. reflexivity. }
  assert (Z : forall d : p_receipt N price_unit, common_of d = com -> receipt_from_dto d index = MerkleModel.Ok (receipt_of r index)).
  { intros d Hd. unfold receipt_from_dto. cbv zeta. rewrite Hd. unfold com. cbn [pc_resources pc_messages pc_fee pc_revert].
    rewrite C, E. cbn [obind]. unfold receipt_of. destruct (r_status r); reflexivity. }
  eexists. split; [reflexivity|]. unfold receive_receipt.
  destruct v as [[]|[]|[]|[]|[]|[]|[]|[]|[]|[]|[]|ll];
    cbn [receipt_to_proto receipt_from_proto TxHashModel.dp_address TxHashModel.a1_address TxHashModel.a3_address]; rewrite Q;
    cbn [is_variant] in T;
    try (rewrite read_write_felt by (apply is_251_felt; tauto));
    try (cbn [or_err obind]; apply Z; reflexivity).
  assert (M : length (message_hash keccak ll) = 32%nat).
  { unfold message_hash. destruct (l1_calldata ll); [reflexivity|apply K]. }
  unfold read_bytes.
  match goal with |- context [Nat.eqb ?n 32] => replace n with 32%nat by (symmetry; exact M) end.
  cbn [Nat.eqb or_err obind]. apply Z. reflexivity.
Qed.

(** ---- blocks ---- *)

Lemma block_round : forall keccak, (forall l, length (keccak l) = 32%nat) ->
  forall l k, Forall (fun x => is_sendable (fst x) /\ is_receipt (snd x) /\ is_small (r_resources (snd x))) l ->
  exists ms, send_block keccak l = MerkleModel.Ok ms /\ length ms = length l /\
    exists l', receive_block k ms = MerkleModel.Ok l' /\
    length l' = length l /\
    forall i t r, nth_error l i = Some (t, r) ->
      nth_error l' i = Some (Stx (s_hash t) (received (s_variant t)), receipt_of r (k + N.of_nat i)).
Proof.
  intros keccak K. induction l as [|[t r] l IH]; intros k F.
  - exists []. split; [reflexivity|]. split; [reflexivity|]. exists []. split; [reflexivity|].
    split; [reflexivity|]. intros [|i]; discriminate.
  - inversion F as [|? ? (S & R & Q) Fl]; subst. cbn [fst snd] in *.
    destruct S as (Sh & Sv & Sa) eqn:ES. clear ES.
    destruct (receipt_round keccak (s_variant t) r k K Sv R Q) as (m & A & B).
    destruct (IH (k + 1) Fl) as (ms & C & Lc & l' & D & Ld & E).
    cbn [send_block]. rewrite A, C. cbn [obind]. eexists. split; [reflexivity|]. split; [cbn; lia|].
    cbn [receive_block]. rewrite (tx_round t (conj Sh (conj Sv Sa))). cbn [or_err obind]. rewrite B, D. cbn [obind].
    eexists. split; [reflexivity|]. split; [cbn; lia|].
    intros [|i] t' r' H; cbn [nth_error] in *.
    + injection H as <- <-. rewrite N.add_0_r. reflexivity.
    + rewrite (E i t' r' H). do 3 f_equal. lia.
Qed.

Section Stage.
  Variable pedersen : MerkleModel.felt -> MerkleModel.felt -> MerkleModel.felt.
  Variable poseidon : list MerkleModel.felt -> MerkleModel.felt.

  (** Addresses are computed from what arrives, so they come back. *)
  Lemma address_again : forall v, calculate_contract_address pedersen v = MerkleModel.Ok v ->
    calculate_contract_address pedersen (received v) = MerkleModel.Ok (kept v).
  Proof.
    intros [[]|[]|[]|[]|[]|[]|[]|[]|[]|[]|[]|[]] H; try reflexivity;
      cbn [received kept calculate_contract_address TxHashModel.dp_calldata TxHashModel.dp_salt TxHashModel.dp_class TxHashModel.a1_calldata TxHashModel.a1_salt TxHashModel.a1_class
           TxHashModel.a1_max_fee TxHashModel.a1_signature TxHashModel.a1_nonce TxHashModel.a3_calldata TxHashModel.a3_salt TxHashModel.a3_class TxHashModel.a3_signature TxHashModel.a3_nonce TxHashModel.a3_nonce_mode
           TxHashModel.a3_fee_mode TxHashModel.a3_bounds TxHashModel.a3_tip TxHashModel.a3_paymaster] in *; exact H.
  Qed.

  Lemma same_hash : forall v chain q,
    calculate_hash pedersen poseidon (kept v) chain q = calculate_hash pedersen poseidon v chain q.
  Proof. intros [[]|[]|[]|[]|[]|[]|[]|[]|[]|[]|[]|[]] chain q; reflexivity. Qed.

  Lemma stage_round : forall chain l l' k,
    Forall (fun x => calculate_contract_address pedersen (s_variant (fst x)) = MerkleModel.Ok (s_variant (fst x)) /\
              calculate_hash pedersen poseidon (s_variant (fst x)) chain false = MerkleModel.Ok (s_hash (fst x)) /\
              r_tx_hash (snd x) = s_hash (fst x)) l ->
    length l' = length l ->
    (forall i t r, nth_error l i = Some (t, r) -> r_index r = k + N.of_nat i) ->
    (forall i t r, nth_error l i = Some (t, r) ->
      nth_error l' i = Some (Stx (s_hash t) (received (s_variant t)), receipt_of r (k + N.of_nat i))) ->
    calculate_hashes pedersen poseidon chain l' =
      MerkleModel.Ok (map (fun x => (Stx (s_hash (fst x)) (kept (s_variant (fst x))), kept_receipt (snd x))) l).
  Proof.
    intros chain. induction l as [|[t r] l IH]; intros [|[t' r'] l'] k F L I H; try discriminate; [reflexivity|].
    inversion F as [|? ? (A & B & C) Fl]; subst. cbn [fst snd] in *.
    pose proof (H 0%nat t r eq_refl) as H0. cbn [nth_error] in H0. injection H0 as -> ->.
    pose proof (I 0%nat t r eq_refl) as I0.
    cbn [calculate_hashes s_variant s_hash]. rewrite (address_again _ A). cbn [obind].
    rewrite same_hash, B. cbn [obind]. rewrite N.eqb_refl.
    rewrite (IH l' (k + 1) Fl).
    - cbn [obind map fst snd]. f_equal. f_equal. f_equal. unfold receipt_of, kept_receipt.
      cbn [cr_fee cr_resources cr_messages cr_status cr_index]. rewrite C, I0. reflexivity.
    - cbn in L. lia.
    - intros i t1 r1 E. rewrite (I (S i) t1 r1 E). lia.
    - intros i t1 r1 E. pose proof (H (S i) t1 r1 E) as Q. cbn [nth_error] in Q. rewrite Q.
      do 3 f_equal. lia.
  Qed.

  (** Whatever arrives: what the stage lets through has the hash and the address that its content gives. *)
  Lemma calculate_address_idem : forall v v', calculate_contract_address pedersen v = MerkleModel.Ok v' ->
    calculate_contract_address pedersen v' = MerkleModel.Ok v'.
  Proof.
    intros [[]|[]|[]|[]|[]|[]|[]|[]|[]|[]|[]|[]] v' H;
      cbn [calculate_contract_address TxHashModel.dp_calldata TxHashModel.dp_salt TxHashModel.dp_class TxHashModel.a1_calldata TxHashModel.a1_salt TxHashModel.a1_class
           TxHashModel.a1_max_fee TxHashModel.a1_signature TxHashModel.a1_nonce TxHashModel.a3_calldata TxHashModel.a3_salt TxHashModel.a3_class TxHashModel.a3_signature TxHashModel.a3_nonce TxHashModel.a3_nonce_mode
           TxHashModel.a3_fee_mode TxHashModel.a3_bounds TxHashModel.a3_tip TxHashModel.a3_paymaster] in H;
      try (injection H as <-; reflexivity);
      match type of H with obind ?e _ = _ => destruct e eqn:E; cbn [obind] in H; try discriminate H end;
      injection H as <-;
      cbn [calculate_contract_address TxHashModel.dp_calldata TxHashModel.dp_salt TxHashModel.dp_class TxHashModel.a1_calldata TxHashModel.a1_salt TxHashModel.a1_class
           TxHashModel.a1_max_fee TxHashModel.a1_signature TxHashModel.a1_nonce TxHashModel.a3_calldata TxHashModel.a3_salt TxHashModel.a3_class TxHashModel.a3_signature TxHashModel.a3_nonce TxHashModel.a3_nonce_mode
           TxHashModel.a3_fee_mode TxHashModel.a3_bounds TxHashModel.a3_tip TxHashModel.a3_paymaster]; rewrite E; reflexivity.
  Qed.

  Lemma stage_sound : forall chain l l', calculate_hashes pedersen poseidon chain l = MerkleModel.Ok l' ->
    Forall2 (fun x y =>
      s_hash (fst y) = s_hash (fst x) /\ r_tx_hash (snd y) = s_hash (fst x) /\
      calculate_contract_address pedersen (s_variant (fst x)) = MerkleModel.Ok (s_variant (fst y)) /\
      calculate_contract_address pedersen (s_variant (fst y)) = MerkleModel.Ok (s_variant (fst y)) /\
      calculate_hash pedersen poseidon (s_variant (fst y)) chain false = MerkleModel.Ok (s_hash (fst y)) /\
      snd x = CRcpt (r_fee (snd y)) (r_resources (snd y)) (r_messages (snd y)) (r_status (snd y)) (r_index (snd y)))
      l l'.
  Proof.
    intros chain. induction l as [|[t r] l IH]; intros l' H; cbn [calculate_hashes] in H.
    - injection H as <-. constructor.
    - destruct (calculate_contract_address pedersen (s_variant t)) as [v| | |] eqn:A; cbn [obind] in H; try discriminate.
      destruct (calculate_hash pedersen poseidon v chain false) as [h| | |] eqn:B; cbn [obind] in H; try discriminate.
      destruct (N.eqb_spec (s_hash t) h) as [E|E]; [|discriminate].
      destruct (calculate_hashes pedersen poseidon chain l) as [l''| | |] eqn:C; cbn [obind] in H; try discriminate.
      injection H as <-. subst h. constructor; [|apply IH; reflexivity].
      cbn [fst snd s_hash s_variant r_tx_hash r_fee r_resources r_messages r_status r_index].
      repeat split; try assumption; try reflexivity.
      + exact (calculate_address_idem _ _ A).
      + destruct r; reflexivity.
  Qed.
End Stage.

Lemma nothing_lost_kept : forall t r, nothing_lost (t, r) ->
  Stx (s_hash t) (kept (s_variant t)) = t /\ kept_receipt r = r.
Proof.
  intros [h v] [fee [[a b c d e f g hh i j k l] st ho da [t1 t2] l2] ms status th ix] (A & B & C & D).
  cbn [fst snd s_variant s_hash r_resources r_messages x_builtins b_segment_arena x_total_gas g_l1_data] in *.
  subst i t2. split.
  - destruct v as [[]|[]|[]|[]|[]|[]|[]|[]|[]|[]|[]|[]]; cbn in *; subst; reflexivity.
  - unfold kept_receipt. cbn. f_equal. induction ms as [|[mf mp mt] ms IH]; [reflexivity|].
    pose proof (Forall_inv D) as D1. apply Forall_inv_tail in D. cbn [m_to] in D1. cbn [map]. rewrite (IH D).
    f_equal. unfold kept_message. cbn [m_from m_payload m_to]. f_equal. apply N.mod_small, D1.
Qed.
