(** Proofs for C79: events, headers, and messages of any peer. *)
From Coq Require Import List Bool Arith NArith ZArith Lia ZifyBool ZifyNat ZifyN.
From Verif Require Import Radix FeltModel FeltSpec FeltProof MerkleModel VersionModel VersionSpec VersionProof VersionProperties CommitModel TxHashModel CodecModel BlobModel BlobSpec WireModel WireSpec WireProof WireProof2.
Import ListNotations.
Local Open Scope N_scope.

#[local] Opaque rdigits rval read_felt write_felt read_address read_mode write_mode read_u128 write_u128.

Lemma event_round : forall h e, is_felt h -> is_event e -> receive_event (send_event h e) = Some (h, e).
Proof.
  intros h [data from keys] H (A & B & C). cbn [ev_data ev_from ev_keys] in *.
  unfold receive_event, send_event. cbn [ev_data ev_from ev_keys].
  rewrite (read_write_felt h H), (read_write_felt from (is_251_felt _ B)), (read_write_felts keys C),
    (read_write_felts data A). reflexivity.
Qed.

Lemma event_any : forall m h e,
  all_bytes (pe_tx _ m) -> all_bytes (pe_from _ m) -> Forall all_bytes (pe_keys _ m) ->
  Forall all_bytes (pe_data _ m) -> receive_event m = Some (h, e) ->
  is_felt h /\ is_felt (ev_from e) /\ Forall is_felt (ev_keys e) /\ Forall is_felt (ev_data e).
Proof.
  intros [tx from keys data] h e A B C D H. cbn [pe_tx pe_from pe_keys pe_data] in *. unfold receive_event in H.
  destruct (read_felt tx) as [x|] eqn:E1; [|discriminate]. destruct (read_felt from) as [y|] eqn:E2; [|discriminate].
  destruct (try_map read_felt keys) as [z|] eqn:E3; [|discriminate].
  destruct (try_map read_felt data) as [w|] eqn:E4; [|discriminate]. injection H as <- <-.
  cbn [ev_from ev_keys ev_data].
  exact (conj (read_felt_ok _ _ A E1) (conj (read_felt_ok _ _ B E2)
           (conj (read_felts_ok _ _ C E3) (read_felts_ok _ _ D E4)))).
Qed.

Lemma header_round : forall h sig, is_header h -> is_felt (fst sig) -> is_felt (snd sig) ->
  receive_header (send_header h sig) = Some (h, sig).
Proof.
  intros [a b c d e f g h i j k l m n o p q r s t u] [sr ss] H Hr Hs. unfold is_header in H.
  cbn [hd_hash hd_parent hd_number hd_timestamp hd_eth_l1_gas hd_strk_l1_gas hd_eth_l1_data_gas
       hd_strk_l1_data_gas hd_eth_l2_gas hd_strk_l2_gas hd_sequencer hd_version hd_event_commitment
       hd_state_commitment hd_tx_commitment hd_tx_count hd_event_count hd_blob hd_receipt_commitment
       hd_sd_commitment hd_sd_length fst snd] in *.
  destruct H as (H1 & H2 & H3 & H4 & _ & H6 & H7 & H8 & _).
  repeat match goal with H : Forall is_felt (_ :: _) |- _ => 
     let X := fresh "X" in pose proof (Forall_inv H) as X; apply Forall_inv_tail in H end.
  unfold receive_header, send_header, header_to_dto, header_to_proto, header_from_proto.
  cbn [hd_hash hd_parent hd_number hd_timestamp hd_eth_l1_gas hd_strk_l1_gas hd_eth_l1_data_gas
       hd_strk_l1_data_gas hd_eth_l2_gas hd_strk_l2_gas hd_sequencer hd_version hd_event_commitment
       hd_state_commitment hd_tx_commitment hd_tx_count hd_event_count hd_blob hd_receipt_commitment
       hd_sd_commitment hd_sd_length fst snd map option_map].
  rewrite !read_write_felt, read_write_address, read_write_blob by assumption.
  cbn [try_map]. unfold read_signature at 1. cbn [fst snd]. rewrite !read_write_felt by assumption.
  rewrite !u128_round. unfold header_from_dto. cbn [or_zero fst snd].
  assert (N1 : (c <=? 9223372036854775807) = true).
  { apply N.leb_le. change (2 ^ 63) with 9223372036854775808 in H3. lia. }
  assert (N2 : (d <=? 9223372036854775807) = true).
  { apply N.leb_le. change (2 ^ 63) with 9223372036854775808 in H4. lia. }
  rewrite N1, N2. cbn [andb]. rewrite (proj2 (C50_text_roundtrip l H7)). reflexivity.
Qed.

Ltac step H := match type of H with
  | match ?e with Some _ => _ | None => _ end = Some _ => let E := fresh "E" in destruct e eqn:E; [|discriminate H]
  end.

Lemma header_any : forall m h sig, header_bytes m -> receive_header m = Some (h, sig) ->
  is_header h /\ is_felt (fst sig) /\ is_felt (snd sig) /\ length (ph_signatures _ _ _ m) = 1%nat.
Proof.
  intros [hash parent number time seq root [sdn sd] [txn txs] [evn evs] rcs version a b c d e f mode sigs]
    h sig B H. unfold header_bytes in B. cbn [fst snd] in B. destruct B as (B & U & A & Be & Bf & S).
  repeat match goal with H : Forall all_bytes (_ :: _) |- _ => 
     let X := fresh "X" in pose proof (Forall_inv H) as X; apply Forall_inv_tail in H end.
  repeat match goal with H : Forall is_u64 (_ :: _) |- _ => 
     let X := fresh "U" in pose proof (Forall_inv H) as X; apply Forall_inv_tail in H end.
  repeat match goal with H : Forall u128_parts (_ :: _) |- _ => 
     let X := fresh "V" in pose proof (Forall_inv H) as X; apply Forall_inv_tail in H end.
  unfold receive_header, header_from_proto in H. cbn [fst snd ph_signatures] in *.
  destruct (read_felt hash) eqn:E1; [|discriminate]. destruct (read_felt parent) eqn:E2; [|discriminate].
  destruct (read_address seq) eqn:E3; [|discriminate]. destruct (read_felt root) eqn:E4; [|discriminate].
  destruct (read_felt sd) eqn:E5; [|discriminate]. destruct (read_felt txs) eqn:E6; [|discriminate].
  destruct (read_felt evs) eqn:E7; [|discriminate]. destruct (read_felt rcs) eqn:E8; [|discriminate].
  destruct (read_blob mode) eqn:E9; [|discriminate]. destruct (try_map read_signature sigs) as [gs|] eqn:E10; [|discriminate].
  unfold header_from_dto in H. cbn [fst snd] in H. destruct gs as [|[gr gss] [|]]; try discriminate.
  destruct (N.leb_spec number 9223372036854775807) as [L1|L1]; [|discriminate].
  destruct (N.leb_spec time 9223372036854775807) as [L2|L2]; [|discriminate]. cbn [andb] in H.
  destruct (version_from_str version) as [vv|] eqn:E11; [|discriminate].
  apply (f_equal (fun o => match o with Some x => x | None => (h, sig) end)) in H.
  apply pair_equal_spec in H. destruct H as [<- <-].
  destruct sigs as [|[sa sb] sigs]; [discriminate E10|]. cbn [try_map] in E10.
  unfold read_signature at 1 in E10. cbn [fst snd] in E10.
  destruct (read_felt sa) as [ra|] eqn:F1; [|discriminate]. destruct (read_felt sb) as [rb|] eqn:F2; [|discriminate].
  destruct (try_map read_signature sigs) as [gs'|] eqn:F3; [|discriminate].
  injection E10 as -> -> ->.
  destruct sigs as [|s2 sigs]; [|exfalso; cbn [try_map] in F3; destruct (read_signature s2); [|discriminate];
    destruct (try_map read_signature sigs); discriminate].
  pose proof (Forall_inv S) as [S1 S2]. cbn [fst snd] in S1, S2.
  assert (O : forall o, is_option u128_parts o -> is_u128 (or_zero (option_map read_u128 o))).
  { intros [o|] Ho; cbn [option_map or_zero]; [apply read_u128_bound, Ho|reflexivity]. }
  split; [|split; [exact (read_felt_ok _ _ S1 F1)|split; [exact (read_felt_ok _ _ S2 F2)|reflexivity]]].
  unfold is_header.
  cbn [hd_hash hd_parent hd_number hd_timestamp hd_eth_l1_gas hd_strk_l1_gas hd_eth_l1_data_gas
       hd_strk_l1_data_gas hd_eth_l2_gas hd_strk_l2_gas hd_sequencer hd_version hd_event_commitment
       hd_state_commitment hd_tx_commitment hd_tx_count hd_event_count hd_blob hd_receipt_commitment
       hd_sd_commitment hd_sd_length].
  change (2 ^ 63) with 9223372036854775808.
  split; [eapply read_felt_ok; [|exact E1]; assumption|].
  split; [eapply read_felt_ok; [|exact E2]; assumption|].
  split; [lia|]. split; [lia|].
  split; [repeat (apply Forall_cons; [first [apply read_u128_bound; assumption|apply O; assumption]|]); constructor|].
  split; [eapply read_address_ok; [|exact E3]; assumption|].
  split; [eapply C50_parse_valid, E11|].
  split; [|repeat split; assumption].
  repeat (apply Forall_cons; [eapply read_felt_ok; [|eassumption]; assumption|]). constructor.
Qed.

(** ---- transactions of any peer ---- *)

Lemma limits_any : forall l d b, limits_bytes l -> read_limits l = Some d -> bound_from_dto d = Some b -> is_bound b.
Proof.
  intros [a p] d b [A B] H K. unfold read_limits in H. cbn [li_amount li_price] in *.
  destruct (read_felt a) as [x|] eqn:E1; [|discriminate]. destruct (read_felt p) as [y|] eqn:E2; [|discriminate].
  injection H as <-. unfold bound_from_dto in K. cbn [li_amount li_price] in K.
  rewrite to_u64_spec in K by (exact (read_felt_ok _ _ A E1)).
  rewrite to_u128_spec in K by (exact (read_felt_ok _ _ B E2)).
  destruct (N.ltb_spec x (2 ^ 64)) as [V|V]; [|discriminate]. destruct (N.ltb_spec y (2 ^ 128)) as [W|W]; [|discriminate].
  injection K as <-. split; assumption.
Qed.

Lemma bounds_any : forall l d b, bounds_bytes l -> read_bounds l = Some d -> bounds_from_dto d = Some b -> is_bounds b.
Proof.
  intros [x y z] d b (A & B & C) H K. cbn [pb_l1 pb_l2 pb_data] in *. unfold read_bounds in H.
  destruct (read_limits x) as [x'|] eqn:E1; [|discriminate]. destruct (read_limits y) as [y'|] eqn:E2; [|discriminate].
  destruct (try_opt read_limits z) as [z'|] eqn:E3; [|discriminate]. injection H as <-.
  unfold bounds_from_dto in K.
  destruct (bound_from_dto x') as [x2|] eqn:F1; [|discriminate]. destruct (bound_from_dto y') as [y2|] eqn:F2; [|discriminate].
  destruct (try_opt bound_from_dto z') as [z2|] eqn:F3; [|discriminate]. injection K as <-.
  split; [exact (limits_any _ _ _ A E1 F1)|]. split; [exact (limits_any _ _ _ B E2 F2)|]. cbn [rb_l1_data_gas].
  destruct z as [z|]; cbn [try_opt] in E3.
  - destruct (read_limits z) as [z1|] eqn:G; [|discriminate]. injection E3 as <-. cbn [try_opt] in F3.
    destruct (bound_from_dto z1) as [z3|] eqn:G2; [|discriminate]. injection F3 as <-. exact (limits_any _ _ _ C G G2).
  - injection E3 as <-. cbn in F3. injection F3 as <-. exact Coq.Init.Logic.I.
Qed.

#[local] Opaque read_bounds bounds_from_dto.

Lemma zero_felt : is_felt 0. Proof. reflexivity. Qed.
Lemma zero_251 : is_251 0. Proof. reflexivity. Qed.

Lemma variant_any : forall m d v, variant_bytes m -> variant_from_proto m = Some d -> from_dto d = Some v ->
  Forall is_felt (felts_of v) /\ is_251 (address_of v) /\ is_option is_bounds (bounds_of v).
Proof.
  intros m d v B H K.
  destruct m as [[]|[]|[]|[]|[]|[]|[]|[]|[]|[]|[]]; cbn [variant_bytes] in B;
    repeat match goal with H : _ /\ _ |- _ => destruct H end;
    cbn [variant_from_proto] in H; repeat step H;
    apply (f_equal (fun o => match o with Some x => x | None => d end)) in H; subst d;
    cbn [from_dto] in K;
    repeat match goal with
      | E : read_felt ?b = Some ?x, D : all_bytes ?b |- _ => pose proof (read_felt_ok b x D E); clear E
      | E : read_address ?b = Some ?x, D : all_bytes ?b |- _ => pose proof (read_address_ok b x D E); clear E
      | E : try_map read_felt ?b = Some ?x, D : Forall all_bytes ?b |- _ =>
          pose proof (read_felts_ok b x D E); clear E
      end;
    repeat match type of K with
      | match ?e with Some _ => _ | None => _ end = Some _ => let E := fresh "E" in destruct e eqn:E; [|discriminate K]
      | (if ?e then _ else _) = Some _ => destruct e
      end; try discriminate K;
    repeat match goal with
      | E : read_bounds ?b = Some ?x, F : bounds_from_dto ?x = Some ?y, D : bounds_bytes ?b |- _ =>
          pose proof (bounds_any b x y D E F); clear E
      end;
    apply (f_equal (fun o => match o with Some x => x | None => v end)) in K; subst v;
    (split; [cbn [felts_of]; rewrite ?Forall_cons_iff, ?Forall_app; repeat split; try assumption; try exact zero_felt
            |split; [cbn [address_of d1_sender d2_sender d3_sender dp_address a1_address a3_address i0_sender i1_sender
                i3_sender l1_address]; first [assumption|exact zero_251]
            |cbn [bounds_of d3_bounds a3_bounds i3_bounds]; first [exact Coq.Init.Logic.I|cbn [is_option]; assumption]]]).
Qed.

Lemma tx_any : forall m t, all_bytes (fst m) -> variant_bytes (snd m) -> receive_tx m = Some t ->
  is_felt (s_hash t) /\ Forall is_felt (felts_of (s_variant t)) /\ is_251 (address_of (s_variant t)) /\
  is_option is_bounds (bounds_of (s_variant t)).
Proof.
  intros [h w] t A B H. cbn [fst snd] in A, B. unfold receive_tx in H. cbn [fst snd] in H.
  destruct (variant_from_proto w) as [d|] eqn:E; [|discriminate].
  destruct (read_felt h) as [x|] eqn:F; [|discriminate].
  destruct (from_dto d) as [v|] eqn:G; [|discriminate]. injection H as <-. cbn [s_hash s_variant].
  split; [exact (read_felt_ok _ _ A F)|]. exact (variant_any w d v B E G).
Qed.

(** ---- receipts of any peer ---- *)

Lemma message_any : forall m d, message_bytes m -> message_from_proto m = Some d ->
  exists m', message_from_dto d = MerkleModel.Ok m' /\ is_felt (m_from m') /\ Forall is_felt (m_payload m') /\ m_to m' < 2 ^ 160.
Proof.
  intros [from payload to] d (A & B & C) H. cbn [pm_from pm_payload pm_to] in *. unfold message_from_proto in H.
  destruct (read_felt from) as [x|] eqn:E1; [|discriminate].
  destruct (try_map read_felt payload) as [y|] eqn:E2; [|discriminate].
  unfold read_bytes in H. destruct (Nat.eqb_spec (length to) 20) as [L|]; [|discriminate]. injection H as <-.
  unfold message_from_dto. cbn [pm_from pm_payload pm_to]. rewrite (eth_address to C L). cbn [obind].
  eexists. split; [reflexivity|]. cbn [m_from m_payload m_to].
  split; [exact (read_felt_ok _ _ A E1)|]. split; [exact (read_felts_ok _ _ B E2)|].
  eapply N.lt_le_trans; [exact (rval_bound 256 to C)|]. match goal with |- context [N.of_nat ?n] => replace n with 20%nat by (symmetry; exact L) end. apply N.leb_le. reflexivity.
Qed.

Lemma messages_any : forall l d, Forall message_bytes l -> try_map message_from_proto l = Some d ->
  exists m', messages_from_dto d = MerkleModel.Ok m' /\ length m' = length l /\
    Forall (fun m => is_felt (m_from m) /\ Forall is_felt (m_payload m) /\ m_to m < 2 ^ 160) m'.
Proof.
  induction l as [|x l IH]; intros d F H; cbn [try_map] in H.
  - injection H as <-. exists []. repeat split. constructor.
  - inversion F as [|? ? Fx Fl]; subst. destruct (message_from_proto x) as [y|] eqn:E; [|discriminate].
    destruct (try_map message_from_proto l) as [ys|] eqn:E2; [|discriminate]. injection H as <-.
    destruct (message_any x y Fx E) as (m & A & B). destruct (IH ys Fl eq_refl) as (ms & C & D & G).
    cbn [messages_from_dto]. rewrite A, C. cbn [obind]. eexists. split; [reflexivity|]. split; [cbn; lia|].
    constructor; assumption.
Qed.

Lemma gas_any : forall o x y, is_option all_bytes o -> try_opt read_felt o = Some x -> to_gas_price (or_zero x) = Some y ->
  is_u128 y.
Proof.
  intros o x y B H K. assert (F : is_felt (or_zero x)).
  { destruct o as [o|]; cbn [try_opt] in H.
    - destruct (read_felt o) as [z|] eqn:E; [|discriminate]. injection H as <-. exact (read_felt_ok _ _ B E).
    - injection H as <-. reflexivity. }
  rewrite to_gas_price_spec in K by exact F.
  destruct (N.ltb_spec (or_zero x) (2 ^ 128)) as [V|V]; [|discriminate]. injection K as <-. exact V.
Qed.

Lemma common_any : forall r index d, receipt_bytes r -> common_from_proto (common_of r) = Some (common_of d) ->
  match receipt_from_dto d index with
  | MerkleModel.Ok r' => receipt_values r' /\ cr_index r' = index
  | MerkleModel.Err => True
  | _ => False
  end.
Proof.
  intros r index d B H. unfold receipt_bytes in B. unfold receipt_from_dto. cbv zeta in *.
  set (c := common_of r) in *. set (e := common_of d) in *. clearbody c e. destruct B as (Fee & Msg & G1 & G2 & G3 & G4 & _).
  destruct c as [fee unit ms [b st ho l1 l1d tot l2] rev].
  cbn [pc_fee pc_messages pc_resources px_l1 px_l1_data px_total_l1 px_l2] in *. unfold common_from_proto in H.
  destruct (read_felt fee) as [fee'|] eqn:E1; [|discriminate]. destruct (read_unit unit) as [u'|] eqn:E2; [|discriminate].
  destruct (try_map message_from_proto ms) as [ms'|] eqn:E3; [|discriminate].
  destruct (resources_from_proto _) as [x|] eqn:E4; [|discriminate].
  apply (f_equal (fun o => match o with Some x => x | None => e end)) in H. subst e.
  cbn [pc_fee pc_messages pc_resources pc_revert].
  destruct (messages_any ms ms' Msg E3) as (mm & A & _ & Q). rewrite A.
  unfold resources_from_proto in E4.
  destruct (try_opt read_felt l1) as [y1|] eqn:F1; [|discriminate].
  destruct (try_opt read_felt l1d) as [y2|] eqn:F2; [|discriminate].
  destruct (try_opt read_felt tot) as [y3|] eqn:F3; [|discriminate].
  destruct (try_opt read_felt l2) as [y4|] eqn:F4; [|discriminate]. injection E4 as <-.
  unfold resources_from_dto. cbn [px_l1 px_l1_data px_total_l1 px_l2 px_builtins px_steps px_holes].
  destruct (to_gas_price (or_zero y1)) as [z1|] eqn:K1; cbn [or_err obind]; [|exact Coq.Init.Logic.I].
  destruct (to_gas_price (or_zero y2)) as [z2|] eqn:K2; cbn [or_err obind]; [|exact Coq.Init.Logic.I].
  destruct (to_gas_price (or_zero y3)) as [z3|] eqn:K3; cbn [or_err obind]; [|exact Coq.Init.Logic.I].
  destruct (to_gas_price (or_zero y4)) as [z4|] eqn:K4; cbn [or_err obind]; [|exact Coq.Init.Logic.I].
  split; [|reflexivity]. unfold receipt_values.
  cbn [cr_fee cr_resources cr_messages x_data_availability x_total_gas x_l2_gas g_l1 g_l1_data].
  split; [exact (read_felt_ok _ _ Fee E1)|].
  split; [exact (gas_any _ _ _ G1 F1 K1)|]. split; [exact (gas_any _ _ _ G2 F2 K2)|].
  split; [exact (gas_any _ _ _ G3 F3 K3)|]. split; [exact (gas_any _ _ _ G4 F4 K4)|]. exact Q.
Qed.

Lemma receipt_any : forall m index, receipt_bytes m ->
  match receive_receipt m index with
  | MerkleModel.Ok r => receipt_values r /\ cr_index r = index
  | MerkleModel.Err => True
  | _ => False
  end.
Proof.
  intros m index B. unfold receive_receipt. destruct (receipt_from_proto m) as [d|] eqn:E; cbn [or_err obind];
    [|exact Coq.Init.Logic.I].
  apply (common_any m index d B).
  destruct m as [c|c|c a|c a|c a]; cbn [receipt_from_proto common_of] in *;
    destruct (common_from_proto c) as [c'|] eqn:F; try discriminate; 
    try (injection E as <-; reflexivity);
    try (destruct (read_felt a); [|discriminate]; injection E as <-; reflexivity).
  destruct (read_bytes 32 a); [|discriminate]; injection E as <-; reflexivity.
Qed.
