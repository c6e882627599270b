(** Proofs for C52 and C56: block hashes. *)
From Coq Require Import List Bool Arith NArith ZArith Lia ZifyBool ZifyNat ZifyN.
From Verif Require Import Radix MerkleModel MerkleSpec HashModel VersionModel CommitModel CommitSpec CommitProof.
From Verif Require FeltModel FeltSpec FeltProof VersionSpec VersionProof VersionProperties.
Import ListNotations.
Local Open Scope N_scope.

Lemma app4 {T} (a1 a2 a3 a4 b1 b2 b3 b4 : list T) :
  let w := (a1 ++ a2 ++ a3 ++ a4) ++ (b1 ++ b2 ++ b3 ++ b4) in
  incl (a1 ++ b1) w /\ incl (a2 ++ b2) w /\ incl (a3 ++ b3) w /\ incl (a4 ++ b4) w.
Proof. unfold incl. repeat split; intros k; rewrite !in_app_iff; tauto. Qed.

(** ---- packed counts ---- *)
Lemma counts_eq h : header_ok h -> concatenate_counts h = packed_counts h.
Proof.
  intros (L1 & L2 & L3 & _). unfold concatenate_counts, packed_counts. f_equal.
  rewrite !rval_app. rewrite !app_length, !rdigits_length. cbn [length].
  rewrite !rval_rdigits by (auto; lia).
  change (rval 256 (repeat 0 7)) with 0. rewrite rval_one.
  rewrite repeat_length.
  change (256 ^ N.of_nat (8 + (8 + (1 + 7)))) with (2 ^ 192).
  change (256 ^ N.of_nat (8 + (1 + 7))) with (2 ^ 128).
  change (256 ^ N.of_nat (1 + 7)) with (2 ^ 64).
  change (256 ^ N.of_nat 7) with (2 ^ 56).
  destruct (hd_blob h).
  - change (128 * 2 ^ 56) with (2 ^ 63). lia.
  - lia.
Qed.

Lemma mod_P_cancel y1 y2 : y1 < 2 ^ 193 -> y2 < 2 ^ 193 ->
  (y1 * 2 ^ 63) mod P = (y2 * 2 ^ 63) mod P -> y1 = y2.
Proof.
  intros B1 B2 E.
  pose proof (N.div_mod (y1 * 2 ^ 63) P ltac:(discriminate)) as D1.
  pose proof (N.div_mod (y2 * 2 ^ 63) P ltac:(discriminate)) as D2.
  rewrite E in D1. revert D1 D2. generalize ((y2 * 2 ^ 63) mod P). intros r.
  assert (Q1 : y1 * 2 ^ 63 / P < 64).
  { apply N.div_lt_upper_bound; [discriminate|]. apply N.lt_le_trans with (2 ^ 193 * 2 ^ 63); [|vm_compute; discriminate].
    apply N.mul_lt_mono_pos_r; [reflexivity|exact B1]. }
  assert (Q2 : y2 * 2 ^ 63 / P < 64).
  { apply N.div_lt_upper_bound; [discriminate|]. apply N.lt_le_trans with (2 ^ 193 * 2 ^ 63); [|vm_compute; discriminate].
    apply N.mul_lt_mono_pos_r; [reflexivity|exact B2]. }
  revert Q1 Q2. generalize (y1 * 2 ^ 63 / P) (y2 * 2 ^ 63 / P). intros q1 q2 Q1 Q2 D1 D2.
  unfold P in D1, D2.
  change (2 ^ 251 + 17 * 2 ^ 192 + 1) with (2 ^ 63 * (2 ^ 188 + 17 * 2 ^ 129) + 1) in D1, D2.
  assert (q1 = q2 /\ y1 = y2) as [_ R]; [|exact R].
  revert D1 D2. generalize (2 ^ 188 + 17 * 2 ^ 129). intros K D1 D2.
  change (2 ^ 63) with 9223372036854775808 in D1, D2.
  assert (Q : q1 = q2); [|subst; split; [reflexivity|lia]].
  assert (X : (Z.of_N q1 - Z.of_N q2 = 9223372036854775808 *
          (Z.of_N y1 - Z.of_N y2 - Z.of_N K * Z.of_N q1 + Z.of_N K * Z.of_N q2))%Z) by nia.
  revert X. generalize (Z.of_N y1 - Z.of_N y2 - Z.of_N K * Z.of_N q1 + Z.of_N K * Z.of_N q2)%Z.
  intros z X. lia.
Qed.

Lemma b2n_le b : N.b2n b <= 1.
Proof. destruct b; simpl; lia. Qed.

Lemma horner_bound W a b c d : a < W -> b < W -> c < W -> d <= 1 ->
  ((a * W + b) * W + c) * 2 + d < W * W * W * 2.
Proof.
  intros A B C D.
  assert (H1 : a * W + b < W * W) by nia.
  revert H1. generalize (a * W + b), (W * W). intros x y H1. nia.
Qed.
Lemma horner_inj W a b c d a' b' c' d' :
  b < W -> c < W -> d <= 1 -> b' < W -> c' < W -> d' <= 1 ->
  ((a * W + b) * W + c) * 2 + d = ((a' * W + b') * W + c') * 2 + d' ->
  a = a' /\ b = b' /\ c = c' /\ d = d'.
Proof.
  intros B C D B' C' D' E.
  assert (d = d' /\ (a * W + b) * W + c = (a' * W + b') * W + c') as [-> E1].
  { revert E. generalize ((a * W + b) * W + c), ((a' * W + b') * W + c'). intros x y E. lia. }
  destruct (N.div_mod_unique W (a * W + b) (a' * W + b') c c') as [E2 ->]; [auto|auto|lia|].
  destruct (N.div_mod_unique W a a' b b') as [-> ->]; [auto|auto|lia|]. auto.
Qed.
Lemma packed_horner h :
  packed_counts h = ((((hd_tx_count h * 2 ^ 64 + hd_event_count h) * 2 ^ 64 + hd_sd_length h) * 2 +
                      N.b2n (hd_blob h)) * 2 ^ 63) mod P.
Proof.
  unfold packed_counts. rewrite !N.mul_add_distr_r, <- !N.mul_assoc. f_equal.
  change (2 ^ 64 * (2 ^ 64 * (2 * 2 ^ 63))) with (2 ^ 192).
  change (2 ^ 64 * (2 * 2 ^ 63)) with (2 ^ 128). change (2 * 2 ^ 63) with (2 ^ 64).
  destruct (hd_blob h); reflexivity.
Qed.

Lemma packed_inj h1 h2 : header_ok h1 -> header_ok h2 -> packed_counts h1 = packed_counts h2 ->
  hd_tx_count h1 = hd_tx_count h2 /\ hd_event_count h1 = hd_event_count h2 /\
  hd_sd_length h1 = hd_sd_length h2 /\ hd_blob h1 = hd_blob h2.
Proof.
  intros (A1 & A2 & A3 & _) (B1 & B2 & B3 & _) E. rewrite !packed_horner in E.
  apply mod_P_cancel in E;
    [|change (2 ^ 193) with (2 ^ 64 * 2 ^ 64 * 2 ^ 64 * 2); apply horner_bound; auto; apply b2n_le ..].
  apply horner_inj in E; auto; try apply b2n_le. destruct E as (X1 & X2 & X3 & X4).
  do 3 (split; [assumption|]). destruct (hd_blob h1), (hd_blob h2); auto; discriminate.
Qed.

(** ---- version text as a number ---- *)
Lemma show_u8_facts n : n < 256 ->
  (length (show_u8 n) <= 3)%nat /\ Forall (fun c => 46 <= c /\ c <= 57) (show_u8 n).
Proof.
  intros L.
  assert (A : forallb (fun i => Nat.leb (length (show_u8 (N.of_nat i))) 3 &&
                forallb (fun c => (46 <=? c) && (c <=? 57)) (show_u8 (N.of_nat i))) (seq 0 256) = true)
    by (vm_compute; reflexivity).
  rewrite forallb_forall in A. specialize (A (N.to_nat n)). rewrite N2Nat.id in A.
  rewrite andb_true_iff in A. destruct A as [A1 A2]; [apply in_seq; lia|].
  split; [now apply Nat.leb_le|]. rewrite forallb_forall in A2. apply Forall_forall.
  intros c I. specialize (A2 c I). lia.
Qed.

Lemma version_text_facts v : Forall (fun x => x < 256) [v0 v; v1 v; v2 v; v3 v] ->
  (length (version_to_string v) <= 15)%nat /\
  Forall (fun c => 46 <= c /\ c <= 57) (version_to_string v).
Proof.
  destruct v as [a b c d]. cbn [v0 v1 v2 v3]. intros V.
  repeat match goal with H : Forall _ (_ :: _) |- _ => apply Forall_cons_iff in H; destruct H as [? H] end.
  destruct (show_u8_facts a) as [La Fa]; auto. destruct (show_u8_facts b) as [Lb Fb]; auto.
  destruct (show_u8_facts c) as [Lc Fc]; auto. destruct (show_u8_facts d) as [Ld Fd]; auto.
  unfold version_to_string. cbn [v0 v1 v2 v3].
  assert (Dot : Forall (fun c => 46 <= c /\ c <= 57) [46]) by (constructor; [lia|constructor]).
  destruct ((a =? 0) && (b =? 0) && (c =? 0) && (d =? 0)); [split; [simpl; lia|constructor]|].
  destruct (d =? 0); rewrite !app_length, !Forall_app; cbn [length]; split; try lia; tauto.
Qed.

Lemma rval_nz_inj l1 : forall l2,
  Forall (fun c => 0 < c /\ c < 256) l1 -> Forall (fun c => 0 < c /\ c < 256) l2 ->
  rval 256 l1 = rval 256 l2 -> l1 = l2.
Proof.
  induction l1 as [|x l1 IH] using rev_ind; intros l2 F1 F2 E.
  - destruct l2 as [|y l2 _] using rev_ind; [reflexivity|]. apply Forall_app in F2. destruct F2 as [_ F2].
    inversion F2; subst. rewrite rval_snoc, rval_nil in E. lia.
  - apply Forall_app in F1. destruct F1 as [F1 X]. inversion X as [|? ? Bx _]; subst.
    destruct l2 as [|y l2 _] using rev_ind; [rewrite rval_snoc, rval_nil in E; lia|].
    apply Forall_app in F2. destruct F2 as [F2 Y]. inversion Y as [|? ? By _]; subst.
    rewrite !rval_snoc in E. assert (rval 256 l1 = rval 256 l2 /\ x = y) as [E1 ->] by lia.
    f_equal. apply IH; auto.
Qed.

Lemma version_word_inj h1 h2 : header_ok h1 -> header_ok h2 ->
  version_word h1 = version_word h2 -> hd_version h1 = hd_version h2.
Proof.
  intros (_ & _ & _ & V1) (_ & _ & _ & V2) E. unfold version_word in E.
  apply VersionProperties.C50_text_injective; [exact V1|exact V2|].
  destruct (version_text_facts _ V1) as [_ F1]. destruct (version_text_facts _ V2) as [_ F2].
  apply rval_nz_inj; auto; eapply Forall_impl; [|exact F1| |exact F2]; cbv beta; lia.
Qed.

Lemma version_felt_ok h : header_ok h -> version_felt (version_to_string (hd_version h)) = Ok (version_word h).
Proof.
  intros (_ & _ & _ & V). destruct (version_text_facts _ V) as [L F].
  unfold version_felt, version_word.
  rewrite FeltProof.from_be_slice_spec.
  2:{ eapply Forall_impl; [|exact F]. cbv beta. intros c. change (46 <= c <= 57 -> c < 256). lia. }
  destruct (Nat.leb_spec (length (version_to_string (hd_version h))) 32) as [_|X]; [|lia].
  assert (B : rval 256 (version_to_string (hd_version h)) < 256 ^ N.of_nat 15).
  { eapply N.lt_le_trans; [apply rval_bound|].
    - eapply Forall_impl; [|exact F]. cbv beta. lia.
    - apply N.pow_le_mono_r; lia. }
  destruct (N.ltb_spec (rval 256 (version_to_string (hd_version h))) FeltSpec.P) as [_|X].
  - cbn [andb]. rewrite rval_zeros. reflexivity.
  - exfalso. assert (256 ^ N.of_nat 15 <= FeltSpec.P) by (vm_compute; discriminate). lia.
Qed.

(** ---- verification ---- *)
#[local] Opaque spec_root root_queries items.
#[local] Arguments version_word : simpl never.
#[local] Arguments packed_counts : simpl never.
#[local] Arguments concatenate_counts : simpl never.

Lemma with_sequencer_ok h s : header_ok h -> header_ok (with_sequencer h s).
Proof. intros H. exact H. Qed.

Section Hashes.
  Variable pedersen : felt -> felt -> felt.
  Variable poseidon2 : felt -> felt -> felt.
  Variable poseidon : list felt -> felt.
  Variable keccak : list N -> list N.
  Notation value := (call_value pedersen poseidon2 poseidon keccak).
  Notation clean := (clean pedersen poseidon2 poseidon keccak).
  Notation scheme_hash := (scheme_hash pedersen poseidon).
  Notation scheme_calls := (scheme_calls pedersen poseidon).
  Notation verify_block_hash := (verify_block_hash pedersen poseidon).

  Lemma pre_0_7_ok h id : final_hash_pre_0_7 pedersen h id = Ok (scheme_hash Pre07 id h).
  Proof. unfold final_hash_pre_0_7. rewrite chain_hash_short; [reflexivity|]. vm_compute. discriminate. Qed.
  Lemma pre_0_13_2_ok h id : final_hash_pre_0_13_2 pedersen h = Ok (scheme_hash Pre0132 id h).
  Proof. unfold final_hash_pre_0_13_2. rewrite chain_hash_short; [reflexivity|]. vm_compute. discriminate. Qed.
  Lemma final_hash_ok h id : header_ok h ->
    final_hash poseidon h = Ok (scheme_hash (if before (hd_version h) 0 13 4 then Hash0 else Hash1) id h).
  Proof.
    intros O. unfold final_hash, final_hash_v0, final_hash_v1.
    change (version_lt (hd_version h) V_0_13_4) with (before (hd_version h) 0 13 4).
    rewrite (version_felt_ok h O), (counts_eq h O). cbn [obind].
    destruct (before (hd_version h) 0 13 4); reflexivity.
  Qed.

  Lemma verify_ok h c id : header_ok h ->
    verify_block_hash h c id =
    Ok (if existsb (fun h' => scheme_hash (scheme_of c h) id h' =? hd_hash h) (tried c (scheme_of c h) h)
        then Match else Mismatch).
  Proof.
    intros O. unfold CommitModel.verify_block_hash.
    change (version_lt (hd_version h) V_0_13_2) with (before (hd_version h) 0 13 2).
    rewrite (final_hash_ok h id O).
    destruct c; unfold first_0_7_block, fallback_sequencer, scheme_of.
    - destruct (hd_number h <? 833).
      + rewrite (pre_0_7_ok h id). cbn [obind tried existsb]. now rewrite orb_false_r.
      + destruct (before (hd_version h) 0 13 2).
        * rewrite (pre_0_13_2_ok h id), (pre_0_13_2_ok (with_sequencer h MAINNET_FALLBACK) id).
          cbn [obind tried existsb].
          destruct (scheme_hash Pre0132 id h =? hd_hash h); [reflexivity|]. cbn [obind orb].
          now rewrite orb_false_r.
        * cbn [obind]. destruct (before (hd_version h) 0 13 4); cbn [tried existsb]; now rewrite orb_false_r.
    - destruct (N.ltb_spec (hd_number h) 0) as [X|_]; [exfalso; lia|].
      destruct (before (hd_version h) 0 13 2).
      + rewrite (pre_0_13_2_ok h id). cbn [obind tried existsb]. rewrite orb_false_r.
        destruct (scheme_hash Pre0132 id h =? hd_hash h); reflexivity.
      + cbn [obind]. destruct (before (hd_version h) 0 13 4); cbn [tried existsb]; now rewrite orb_false_r.
    - destruct (N.ltb_spec (hd_number h) 0) as [X|_]; [exfalso; lia|].
      destruct (before (hd_version h) 0 13 2).
      + rewrite (pre_0_13_2_ok h id). cbn [obind tried existsb]. rewrite orb_false_r.
        destruct (scheme_hash Pre0132 id h =? hd_hash h); reflexivity.
      + cbn [obind]. destruct (before (hd_version h) 0 13 4); cbn [tried existsb]; now rewrite orb_false_r.
    - destruct (N.ltb_spec (hd_number h) 0) as [X|_]; [exfalso; lia|].
      destruct (before (hd_version h) 0 13 2).
      + rewrite (pre_0_13_2_ok h id). cbn [obind tried existsb]. rewrite orb_false_r.
        destruct (scheme_hash Pre0132 id h =? hd_hash h); reflexivity.
      + cbn [obind]. destruct (before (hd_version h) 0 13 4); cbn [tried existsb]; now rewrite orb_false_r.
  Qed.

  Lemma verify_match h c id : header_ok h ->
    (verify_block_hash h c id = Ok Match <->
     exists h', In h' (tried c (scheme_of c h) h) /\ scheme_hash (scheme_of c h) id h' = hd_hash h).
  Proof.
    intros O. rewrite verify_ok by exact O.
    destruct (existsb _ _) eqn:E.
    - split; [intros _|reflexivity]. apply existsb_exists in E. destruct E as (h' & I & E).
      exists h'. split; [exact I|]. now apply N.eqb_eq.
    - split; [discriminate|]. intros (h' & I & Eh). exfalso.
      apply Bool.not_true_iff_false in E. apply E. apply existsb_exists. exists h'.
      split; [exact I|]. now apply N.eqb_eq.
  Qed.

  (** ---- binding ---- *)
  Lemma last_call s id h : exists k, In k (scheme_calls s id h) /\ value k = scheme_hash s id h.
  Proof.
    destruct s; cbn [CommitSpec.scheme_calls].
    - eexists. split; [apply chain_in|]. reflexivity.
    - eexists. split; [apply chain_in|]. reflexivity.
    - eexists. split; [left; reflexivity|]. reflexivity.
    - eexists. split; [right; left; reflexivity|]. reflexivity.
  Qed.

  Lemma words_bind s1 s2 id1 id2 h1 h2 :
    clean (scheme_calls s1 id1 h1 ++ scheme_calls s2 id2 h2) ->
    scheme_hash s1 id1 h1 = scheme_hash s2 id2 h2 ->
    s1 = s2 /\ words poseidon s1 id1 h1 = words poseidon s2 id2 h2.
  Proof.
    intros C E.
    assert (Ped : forall s s' id id' h h', chain_value pedersen (words poseidon s id h) = poseidon (words poseidon s' id' h') ->
      (s = Pre07 \/ s = Pre0132) -> (s' = Hash0 \/ s' = Hash1) ->
      ~ (forall x y, In x (scheme_calls s id h) -> In y (scheme_calls s' id' h') -> value x = value y -> x = y)).
    { intros s s' id id' h h' Ev S S' Inj.
      assert (Q : PedersenCall (fold_left pedersen (words poseidon s id h) 0, len (words poseidon s id h), 0) =
                  PoseidonList (words poseidon s' id' h')); [|discriminate].
      apply Inj; [| |exact Ev].
      - destruct S as [->| ->]; apply chain_in.
      - destruct S' as [->| ->]; [left|right; left]; reflexivity. }
    assert (Inj : forall x y, In x (scheme_calls s1 id1 h1) -> In y (scheme_calls s2 id2 h2) -> value x = value y -> x = y).
    { intros x y Ix Iy Ev. apply (proj1 C); auto; apply in_or_app; auto. }
    assert (Inj' : forall x y, In x (scheme_calls s2 id2 h2) -> In y (scheme_calls s1 id1 h1) -> value x = value y -> x = y).
    { intros x y Ix Iy Ev. apply (proj1 C); auto; apply in_or_app; auto. }
    assert (Pos : forall l1 l2, In (PoseidonList l1) (scheme_calls s1 id1 h1) ->
      In (PoseidonList l2) (scheme_calls s2 id2 h2) -> poseidon l1 = poseidon l2 -> l1 = l2).
    { intros l1 l2 I1 I2 Ev. pose proof (Inj _ _ I1 I2 Ev) as Q. congruence. }
    assert (Cross : (s1 = Pre07 \/ s1 = Pre0132) -> (s2 = Hash0 \/ s2 = Hash1) -> False).
    { intros S1 S2. apply (Ped s1 s2 id1 id2 h1 h2); auto.
      destruct S1 as [->| ->], S2 as [->| ->]; exact E. }
    assert (Cross' : (s2 = Pre07 \/ s2 = Pre0132) -> (s1 = Hash0 \/ s1 = Hash1) -> False).
    { intros S1 S2. apply (Ped s2 s1 id2 id1 h2 h1); auto.
      destruct S1 as [->| ->], S2 as [->| ->]; symmetry; exact E. }
    destruct s1, s2; try (exfalso; now auto);
      try (pose proof (chain_binds pedersen poseidon2 poseidon keccak _ _ C E) as L;
           first [discriminate L|split; [reflexivity|exact L]]).
    - assert (W : words poseidon Hash0 id1 h1 = words poseidon Hash0 id2 h2).
      { apply Pos; [left; reflexivity|left; reflexivity|exact E]. }
      split; [reflexivity|exact W].
    - assert (W : words poseidon Hash0 id1 h1 = words poseidon Hash1 id2 h2).
      { apply Pos; [left; reflexivity|right; left; reflexivity|exact E]. }
      discriminate W.
    - assert (W : words poseidon Hash1 id1 h1 = words poseidon Hash0 id2 h2).
      { apply Pos; [right; left; reflexivity|left; reflexivity|exact E]. }
      discriminate W.
    - assert (W : words poseidon Hash1 id1 h1 = words poseidon Hash1 id2 h2).
      { apply Pos; [right; left; reflexivity|right; left; reflexivity|exact E]. }
      split; [reflexivity|exact W].
  Qed.

  Lemma words_fields s id1 id2 h1 h2 :
    header_ok h1 -> header_ok h2 ->
    (s = Hash1 -> poseidon (gas_words h1) = poseidon (gas_words h2) -> gas_words h1 = gas_words h2) ->
    words poseidon s id1 h1 = words poseidon s id2 h2 ->
    same_fields s h1 h2 /\ (s <> Pre07 -> hd_sequencer h1 = hd_sequencer h2) /\ (s = Pre07 -> id1 = id2).
  Proof.
    intros O1 O2 G W. unfold same_fields. destruct s; cbn [words] in W.
    - injection W. intros. repeat match goal with |- _ /\ _ => split end; auto; try congruence;
        intros X; destruct X; discriminate.
    - injection W. intros. repeat match goal with |- _ /\ _ => split end; auto; try congruence;
        intros X; try discriminate; try (destruct X; discriminate); auto.
    - injection W. intros.
      destruct (packed_inj h1 h2 O1 O2) as (? & ? & ? & ?); [assumption|].
      assert (hd_version h1 = hd_version h2) by (apply version_word_inj; assumption).
      repeat match goal with |- _ /\ _ => split end; auto; try congruence; intros X; try discriminate X;
        repeat match goal with |- _ /\ _ => split end; auto.
    - injection W. intros.
      destruct (packed_inj h1 h2 O1 O2) as (? & ? & ? & ?); [assumption|].
      assert (hd_version h1 = hd_version h2) by (apply version_word_inj; assumption).
      assert (GW : gas_words h1 = gas_words h2) by (apply G; auto).
      injection GW. intros.
      repeat match goal with |- _ /\ _ => split end; auto; try congruence; intros X; try discriminate X;
        repeat match goal with |- _ /\ _ => split end; auto.
  Qed.

  Lemma same_fields_seq s h1 h2 a b :
    same_fields s (with_sequencer h1 a) (with_sequencer h2 b) -> same_fields s h1 h2.
  Proof. intros H. exact H. Qed.

  Lemma with_own_sequencer h : with_sequencer h (hd_sequencer h) = h.
  Proof. destruct h; reflexivity. Qed.

  Lemma tried_seq c s h h' : In h' (tried c s h) ->
    exists a, h' = with_sequencer h a /\ ((c <> Mainnet \/ s <> Pre0132) -> a = hd_sequencer h).
  Proof.
    intros I. destruct c; destruct s; cbn [tried In] in I;
      try (destruct I as [<-|[]]; exists (hd_sequencer h); split; [symmetry; apply with_own_sequencer|auto]).
    destruct I as [<-|[<-|[]]].
    - exists (hd_sequencer h). split; [symmetry; apply with_own_sequencer|auto].
    - exists MAINNET_FALLBACK. split; [reflexivity|]. intros [X|X]; congruence.
  Qed.

  Notation header_calls := (header_calls pedersen poseidon).

  Lemma headers_bind h1 h2 c id1 id2 :
    header_ok h1 -> header_ok h2 ->
    verify_block_hash h1 c id1 = Ok Match -> verify_block_hash h2 c id2 = Ok Match ->
    hd_hash h1 = hd_hash h2 ->
    clean (header_calls c id1 h1 ++ header_calls c id2 h2) ->
    scheme_of c h1 = scheme_of c h2 /\ same_fields (scheme_of c h1) h1 h2 /\
    (scheme_of c h1 = Pre07 -> id1 = id2) /\
    (scheme_of c h1 <> Pre07 -> c <> Mainnet \/ scheme_of c h1 <> Pre0132 ->
     hd_sequencer h1 = hd_sequencer h2).
  Proof.
    intros O1 O2 V1 V2 E C.
    apply verify_match in V1; [|exact O1]. apply verify_match in V2; [|exact O2].
    destruct V1 as (h1' & I1 & E1), V2 as (h2' & I2 & E2).
    assert (C' : clean (scheme_calls (scheme_of c h1) id1 h1' ++ scheme_calls (scheme_of c h2) id2 h2')).
    { eapply clean_incl; [|exact C]. intros k. unfold CommitSpec.header_calls. rewrite !in_app_iff, !in_flat_map.
      intros [K|K]; [left|right]; eauto. }
    destruct (words_bind _ _ _ _ _ _ C' ltac:(congruence)) as [S W].
    destruct (tried_seq _ _ _ _ I1) as (a & -> & Sa). destruct (tried_seq _ _ _ _ I2) as (b & -> & Sb).
    rewrite <- S in W, Sb. rewrite <- S in C'.
    destruct (words_fields (scheme_of c h1) id1 id2 (with_sequencer h1 a) (with_sequencer h2 b)) as (F & Q & Pi);
      [now apply with_sequencer_ok|now apply with_sequencer_ok| |exact W|].
    - intros H1 Ev. rewrite H1 in C'.
      assert (X : PoseidonList (gas_words (with_sequencer h1 a)) = PoseidonList (gas_words (with_sequencer h2 b))).
      { apply (proj1 C'); [left; reflexivity|apply in_or_app; right; left; reflexivity|exact Ev]. }
      congruence.
    - split; [exact S|]. split; [exact F|]. split; [exact Pi|].
      intros N0 N1. rewrite <- (Sa N1), <- (Sb N1). exact (Q N0).
  Qed.

  (** ---- gateway blocks ---- *)
  Notation verify_gateway_block := (verify_gateway_block pedersen poseidon2 poseidon keccak).
  Notation checked_header := (checked_header pedersen poseidon2 poseidon keccak).
  Notation block_calls := (block_calls pedersen poseidon2 poseidon keccak).

  Lemma receipt_commitment_ok rs x : receipt_commitment poseidon2 poseidon keccak rs = Ok x ->
    x = spec_root poseidon2 64 (items (map (fun r => poseidon (receipt_words pedersen poseidon2 poseidon keccak r)) rs)).
  Proof.
    unfold receipt_commitment. intros E.
    rewrite (map_ext _ _ (receipt_item_value pedersen poseidon2 poseidon keccak)) in E.
    apply commitment_root_eq in E. apply E.
  Qed.

  Lemma gateway_match b sdc sdl c id : verify_gateway_block b sdc sdl c id = Ok Match ->
    verify_block_hash (checked_header b sdc sdl) c id = Ok Match /\
    transaction_commitment pedersen poseidon2 poseidon (gb_transactions b) (gb_version b) =
      Ok (tx_root pedersen poseidon2 poseidon b) /\
    event_commitment pedersen poseidon2 poseidon (block_events b) (gb_version b) =
      Ok (event_root pedersen poseidon2 poseidon b) /\
    receipt_commitment poseidon2 poseidon keccak (map fst (gb_receipts b)) =
      Ok (receipt_root pedersen poseidon2 poseidon keccak b).
  Proof.
    unfold CommitModel.verify_gateway_block. intros V.
    destruct (transaction_commitment pedersen poseidon2 poseidon (gb_transactions b) (gb_version b))
      as [txc| | |] eqn:T; try discriminate. cbn [obind] in V.
    pose proof (transaction_commitment_ok _ _ _ _ _ _ T) as [Tx _].
    change (map (fun re => (rc_tx_hash (fst re), snd re)) (gb_receipts b)) with (block_events b) in V.
    match type of V with context [obind (receipt_commitment ?a ?b ?c ?d) _] =>
      destruct (receipt_commitment a b c d) as [rcc| | |] eqn:R end;
      try (destruct (gb_tx_commitment b =? 0); [discriminate|]; destruct (negb _); discriminate).
    cbn [obind] in V.
    pose proof (receipt_commitment_ok _ _ R) as Rx.
    destruct (event_commitment pedersen poseidon2 poseidon (block_events b) (gb_version b))
      as [evc| | |] eqn:Ev;
      try (destruct (gb_tx_commitment b =? 0); [|destruct (negb _); [discriminate|]];
           (destruct (gb_receipt_commitment b); [destruct (negb _); discriminate|discriminate])).
    cbn [obind] in V.
    pose proof (event_commitment_ok _ _ _ _ _ _ Ev) as [Ex _].
    change (txc = tx_root pedersen poseidon2 poseidon b) in Tx.
    change (rcc = receipt_root pedersen poseidon2 poseidon keccak b) in Rx.
    change (evc = event_root pedersen poseidon2 poseidon b) in Ex.
    unfold CommitSpec.checked_header. rewrite <- Tx, <- Rx, <- Ex.
    split; [|repeat split; reflexivity].
    assert (Fin : forall h, (if gb_event_commitment b =? 0 then
         verify_block_hash (with_commitments h (hd_tx_commitment h) (hd_receipt_commitment h) evc) c id
       else if negb (evc =? gb_event_commitment b) then Ok Mismatch else verify_block_hash h c id) = Ok Match ->
       hd_event_commitment h = gb_event_commitment b ->
       verify_block_hash (with_commitments h (hd_tx_commitment h) (hd_receipt_commitment h) evc) c id = Ok Match).
    { intros h Vh Eh. destruct (gb_event_commitment b =? 0); [exact Vh|].
      destruct (N.eqb_spec evc (gb_event_commitment b)) as [X|]; [|discriminate].
      cbn [negb] in Vh. rewrite X, <- Eh.
      destruct h; exact Vh. }
    assert (Mid : forall h, hd_event_commitment h = gb_event_commitment b ->
      hd_receipt_commitment h = match gb_receipt_commitment b with Some r => r | None => 0 end ->
      (match gb_receipt_commitment b with
       | Some given => if negb (rcc =? given) then Ok Mismatch else
           if gb_event_commitment b =? 0 then
             verify_block_hash (with_commitments h (hd_tx_commitment h) (hd_receipt_commitment h) evc) c id
           else if negb (evc =? gb_event_commitment b) then Ok Mismatch else verify_block_hash h c id
       | None =>
           let h := with_commitments h (hd_tx_commitment h) rcc (hd_event_commitment h) in
           if gb_event_commitment b =? 0 then
             verify_block_hash (with_commitments h (hd_tx_commitment h) (hd_receipt_commitment h) evc) c id
           else if negb (evc =? gb_event_commitment b) then Ok Mismatch else verify_block_hash h c id
       end) = Ok Match ->
      verify_block_hash (with_commitments h (hd_tx_commitment h) rcc evc) c id = Ok Match).
    { intros h Eh Rh Vh. destruct (gb_receipt_commitment b) as [given|].
      - destruct (N.eqb_spec rcc given) as [X|]; [|discriminate]. cbn [negb] in Vh.
        apply Fin in Vh; [|exact Eh]. rewrite X, <- Rh. exact Vh.
      - apply Fin in Vh; [|exact Eh]. exact Vh. }
    destruct (gb_tx_commitment b =? 0).
    - apply Mid in V; [exact V|reflexivity|reflexivity].
    - destruct (N.eqb_spec txc (gb_tx_commitment b)) as [X|X].
      + change (hd_tx_commitment (header_from_gateway_block b sdc sdl)) with (gb_tx_commitment b) in V.
        rewrite X, N.eqb_refl in V. cbn [negb] in V.
        apply Mid in V; [|reflexivity|reflexivity]. rewrite X. exact V.
      + exfalso. revert V. cbn [hd_tx_commitment header_from_gateway_block].
        rewrite (proj2 (N.eqb_neq _ _) X). discriminate.
  Qed.

  Lemma blocks_bind b1 b2 sdc1 sdc2 sdl1 sdl2 c id1 id2 :
    block_ok b1 sdl1 -> block_ok b2 sdl2 ->
    verify_gateway_block b1 sdc1 sdl1 c id1 = Ok Match ->
    verify_gateway_block b2 sdc2 sdl2 c id2 = Ok Match ->
    gb_hash b1 = gb_hash b2 ->
    clean (block_calls c id1 b1 sdc1 sdl1 ++ block_calls c id2 b2 sdc2 sdl2) ->
    let s := scheme_of c (checked_header b1 sdc1 sdl1) in
    s = scheme_of c (checked_header b2 sdc2 sdl2) /\
    same_block s b1 b2 sdc1 sdc2 sdl1 sdl2 /\
    (s <> Pre07 -> c <> Mainnet \/ s <> Pre0132 ->
     match gb_sequencer b1 with Some a => a | None => 0 end = match gb_sequencer b2 with Some a => a | None => 0 end).
  Proof.
    intros O1 O2 V1 V2 E C s.
    destruct (gateway_match _ _ _ _ _ V1) as (H1 & T1 & E1 & R1).
    destruct (gateway_match _ _ _ _ _ V2) as (H2 & T2 & E2 & R2).
    unfold CommitSpec.block_calls in C.
    match type of C with CommitSpec.clean _ _ _ _ ((?a ++ ?b ++ ?c ++ ?d) ++ (?e ++ ?f ++ ?g ++ ?h)) =>
      pose proof (app4 a b c d e f g h) as I4 end.
    cbv zeta in I4.
    destruct (headers_bind (checked_header b1 sdc1 sdl1) (checked_header b2 sdc2 sdl2) c id1 id2)
      as (S & F & _ & Sq); [exact O1|exact O2|exact H1|exact H2|exact E| |].
    { exact (clean_incl _ _ _ _ _ _ (proj2 (proj2 (proj2 I4))) C). }
    split; [exact S|]. fold s in S, F, Sq. split; [|exact Sq].
    destruct F as (F1 & F2 & F3 & F4 & F5 & F6 & F7 & F8).
    unfold CommitSpec.checked_header, block_header in F1, F2, F3, F4, F5, F6, F7, F8.
    cbn [hd_number hd_state_commitment hd_tx_count hd_tx_commitment hd_parent hd_timestamp hd_event_count
         hd_event_commitment hd_version hd_blob hd_receipt_commitment hd_sd_commitment hd_sd_length
         hd_eth_l1_gas hd_strk_l1_gas hd_eth_l1_data_gas hd_strk_l1_data_gas hd_eth_l2_gas hd_strk_l2_gas]
      in F1, F2, F3, F4, F5, F6, F7, F8.
    unfold same_block. do 3 (split; [assumption|]). split.
    { rewrite F4 in T1. apply (transactions_bind pedersen poseidon2 poseidon keccak _ _ _ _ _ T1 T2).
      exact (clean_incl _ _ _ _ _ _ (proj1 I4) C). }
    split; [|split].
    - intros N0. destruct (F6 N0) as (G1 & _ & G3). split; [exact G1|].
      rewrite G3 in E1. apply (events_bind pedersen poseidon2 poseidon keccak _ _ _ _ _ E1 E2).
      exact (clean_incl _ _ _ _ _ _ (proj1 (proj2 I4)) C).
    - intros Y. destruct (F7 Y) as (G1 & G2 & G3 & G4 & G5 & G6 & G7 & G8 & G9).
      do 2 (split; [assumption|]). split.
      { rewrite G3 in R1. apply (receipts_bind pedersen poseidon2 poseidon keccak _ _ _ R1 R2).
        exact (clean_incl _ _ _ _ _ _ (proj1 (proj2 (proj2 I4))) C). }
      do 2 (split; [assumption|]). split; apply injective_projections; assumption.
    - intros Y. destruct (F8 Y) as (G1 & G2). apply injective_projections; assumption.
  Qed.
End Hashes.

(** ---- evaluating the specification on small inputs (for the examples) ---- *)
#[local] Transparent spec_root root_queries items.

Fixpoint lookup (kvs : list (bits * felt)) (k : bits) : felt :=
  match kvs with [] => 0 | (k', v) :: r => if bits_eqb k k' then v else lookup r k end.
Definition below (b : bool) (kvs : list (bits * felt)) : list (bits * felt) :=
  flat_map (fun kv => match fst kv with
                      | b' :: k' => if Bool.eqb b b' then [(k', snd kv)] else []
                      | [] => []
                      end) kvs.
Lemma lookup_below b k kvs : lookup (below b kvs) k = lookup kvs (b :: k).
Proof.
  induction kvs as [|[k' v] kvs IH]; [reflexivity|]. cbn [below flat_map fst snd lookup].
  change (flat_map _ kvs) with (below b kvs). destruct k' as [|b' k']; cbn [app bits_eqb]; [exact IH|].
  destruct (Bool.eqb b b'); cbn [app lookup andb]; [|exact IH]. rewrite IH. reflexivity.
Qed.

Section Eval.
  Variable H : felt -> felt -> felt.
  Fixpoint fsum (n : nat) (kvs : list (bits * felt)) : option (bits * felt) * list query :=
    match kvs with
    | [] => (None, [])
    | _ =>
        match n with
        | O => (if lookup kvs [] =? 0 then None else Some ([], lookup kvs []), [])
        | S n' =>
            let '(sl, ql) := fsum n' (below false kvs) in
            let '(sr, qr) := fsum n' (below true kvs) in
            (match sl, sr with
             | None, None => None
             | Some (p, b), None => Some (false :: p, b)
             | None, Some (p, b) => Some (true :: p, b)
             | Some l, Some r => Some ([], H (top H l) (top H r))
             end,
             ql ++ qr ++ match sl, sr with
                         | Some l, Some r => top_queries l ++ top_queries r ++ [(top H l, top H r, 0)]
                         | _, _ => []
                         end)
        end
    end.
  Definition fqueries (n : nat) (kvs : list (bits * felt)) : list query :=
    let '(s, q) := fsum n kvs in q ++ match s with Some s => top_queries s | None => [] end.

  Lemma summary_zero n : forall m, (forall k, length k = n -> m k = 0) ->
    summary H n m = None /\ summary_queries H n m = [].
  Proof.
    induction n as [|n IH]; intros m Z; cbn [summary summary_queries].
    - rewrite Z by reflexivity. auto.
    - destruct (IH (fun k : bits => m (false :: k))) as [-> ->]; [intros; apply Z; cbn [length]; congruence|].
      destruct (IH (fun k : bits => m (true :: k))) as [-> ->]; [intros; apply Z; cbn [length]; congruence|].
      auto.
  Qed.

  Lemma fsum_ok n : forall kvs m, (forall k, length k = n -> m k = lookup kvs k) ->
    fsum n kvs = (summary H n m, summary_queries H n m).
  Proof.
    induction n as [|n IH]; intros kvs m E.
    - destruct kvs as [|kv kvs].
      + destruct (summary_zero 0 m) as [-> ->]; [exact E|reflexivity].
      + cbn [fsum summary summary_queries]. rewrite E by reflexivity. reflexivity.
    - destruct kvs as [|kv kvs].
      + destruct (summary_zero (S n) m) as [-> ->]; [exact E|reflexivity].
      + remember (kv :: kvs) as l. cbn [fsum]. rewrite Heql at 1. 
        rewrite (IH (below false l) (fun k : bits => m (false :: k)));
          [|intros k L; rewrite lookup_below; apply E; cbn [length]; congruence].
        rewrite (IH (below true l) (fun k : bits => m (true :: k)));
          [|intros k L; rewrite lookup_below; apply E; cbn [length]; congruence].
        reflexivity.
  Qed.

  Lemma fqueries_ok n kvs m : (forall k, length k = n -> m k = lookup kvs k) ->
    root_queries H n m = fqueries n kvs.
  Proof. intros E. unfold fqueries, root_queries. rewrite (fsum_ok n kvs m E). reflexivity. Qed.

  Definition froot (n : nat) (kvs : list (bits * felt)) : felt :=
    match fst (fsum n kvs) with None => 0 | Some s => top H s end.
  Lemma froot_ok n kvs m : (forall k, length k = n -> m k = lookup kvs k) ->
    spec_root H n m = froot n kvs.
  Proof. intros E. unfold froot, spec_root. rewrite (fsum_ok n kvs m E). reflexivity. Qed.
End Eval.

Fixpoint item_keys (i : N) (hs : list felt) : list (bits * felt) :=
  match hs with [] => [] | h :: hs' => (be_bits 64 i, h) :: item_keys (i + 1) hs' end.
Lemma lookup_items hs k : length k = 64%nat -> forall i, i + len hs <= 2 ^ 64 -> i <= bits_val k ->
  lookup (item_keys i hs) k = item hs (bits_val k - i).
Proof.
  intros L. induction hs as [|h hs IH]; intros i B Le; [reflexivity|]. rewrite len_cons in B.
  cbn [item_keys lookup]. rewrite key_eqb by (auto; lia).
  destruct (N.eqb_spec (bits_val k) i) as [E|E].
  - rewrite E, N.sub_diag. reflexivity.
  - rewrite item_S by lia. rewrite IH by lia. f_equal. lia.
Qed.

Lemma items_queries H hs : len hs <= 2 ^ 64 ->
  root_queries H 64 (items hs) = fqueries H 64 (item_keys 0 hs).
Proof.
  intros L. apply fqueries_ok. intros k Lk. rewrite lookup_items by (auto; lia).
  rewrite N.sub_0_r. reflexivity.
Qed.

Lemma items_root H hs : len hs <= 2 ^ 64 ->
  spec_root H 64 (items hs) = froot H 64 (item_keys 0 hs).
Proof.
  intros L. apply froot_ok. intros k Lk. rewrite lookup_items by (auto; lia).
  rewrite N.sub_0_r. reflexivity.
Qed.

Definition list_N_dec : forall a b : list N, {a = b} + {a <> b} := list_eq_dec N.eq_dec.
Definition query_dec : forall a b : query, {a = b} + {a <> b}.
Proof. intros [[a b] c] [[a' b'] c']. decide equality; [apply N.eq_dec|]. decide equality; apply N.eq_dec. Defined.
Definition call_dec : forall a b : call, {a = b} + {a <> b}.
Proof. intros a b. decide equality; first [apply query_dec|apply list_N_dec]. Defined.

Fixpoint distinct (vs : list N) : bool :=
  match vs with [] => true | v :: vs' => forallb (fun w => negb (v =? w)) vs' && distinct vs' end.

Lemma distinct_inj {A} (f : A -> N) l : distinct (map f l) = true ->
  forall a b, In a l -> In b l -> f a = f b -> a = b.
Proof.
  induction l as [|x l IH]; intros D a b Ia Ib E; [destruct Ia|]. cbn [map distinct] in D.
  apply andb_true_iff in D. destruct D as [D1 D2]. rewrite forallb_forall in D1.
  destruct Ia as [<-|Ia], Ib as [<-|Ib]; auto.
  - specialize (D1 (f b) (in_map f l b Ib)). rewrite E, N.eqb_refl in D1. discriminate.
  - specialize (D1 (f a) (in_map f l a Ia)). rewrite <- E, N.eqb_refl in D1. discriminate.
Qed.

Lemma clean_check pedersen poseidon2 poseidon keccak cs :
  let ds := nodup call_dec cs in
  let value := call_value pedersen poseidon2 poseidon keccak in
  distinct (map value ds) = true -> forallb (fun c => negb (value c =? 0)) ds = true ->
  clean pedersen poseidon2 poseidon keccak cs.
Proof.
  intros ds value D Z. split.
  - intros c1 c2 I1 I2 E. apply (distinct_inj value ds D); auto; apply nodup_In; assumption.
  - intros c I. rewrite forallb_forall in Z. specialize (Z c). 
    intros E. fold value in E. rewrite E in Z. cbn in Z. 
    assert (X : false = true); [|discriminate]. apply Z. apply nodup_In. exact I.
Qed.
