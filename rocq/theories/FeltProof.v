(* Proofs about felt encodings. *)
From Coq Require Import List Arith NArith Lia ZifyBool ZifyNat ZifyN Bool.
From Verif Require Import Radix FeltModel FeltSpec.
Import ListNotations.
Local Open Scope N_scope.

(* checking a decidable fact for all small numbers *)
Lemma below_all : forall (p : N -> bool) (n : nat),
  forallb p (map N.of_nat (seq 0 n)) = true -> forall x, x < N.of_nat n -> p x = true.
Proof.
  intros p n H x L. rewrite forallb_forall in H. apply H.
  apply in_map_iff. exists (N.to_nat x). split; [lia|]. apply in_seq. lia.
Qed.

Lemma be_value_rval : forall b, be_value b = rval 256 b.
Proof.
  induction b as [|x b IH]; [reflexivity|]. simpl. rewrite rval_cons, IH. reflexivity.
Qed.

Lemma bits_value_rval : forall bs, bits_value bs = rval 2 (map bit bs).
Proof.
  induction bs as [|x b IH]; [reflexivity|]. cbn [bits_value map]. rewrite rval_cons, IH, map_length.
  destruct x; unfold bit at 2; lia.
Qed.

Lemma P_lt_256_32 : P < 256 ^ N.of_nat 32.
Proof. vm_compute. reflexivity. Qed.

Lemma set_nth_mid : forall (a b : bytes) x y i, i = length a ->
  set_nth i x (a ++ y :: b) = a ++ x :: b.
Proof.
  induction a as [|z a IH]; intros b x y i H; subst i; simpl; auto.
  rewrite (IH b x y (length a) eq_refl). reflexivity.
Qed.

Lemma set_nth_length : forall b i x, length (set_nth i x b) = length b.
Proof. induction b as [|y b IH]; intros [|i] x; simpl; auto. Qed.

(* ---- range check ---- *)

Lemma below_modulus_spec : forall B ls ms, 0 < B -> digits_lt B ls -> digits_lt B ms ->
  length ls = length ms -> (below_modulus ls ms = true <-> rval B ls < rval B ms).
Proof.
  intros B. induction ls as [|l ls IH]; intros [|m ms] BP D1 D2 L; try discriminate.
  - simpl. rewrite rval_nil. split; [discriminate|lia].
  - inversion D1 as [|? ? Dl Dls]; subst. inversion D2 as [|? ? Dm Dms]; subst.
    simpl in L. injection L as L. simpl. rewrite !rval_cons, L.
    pose proof (rval_bound B ls Dls) as U1. pose proof (rval_bound B ms Dms) as U2. rewrite L in U1.
    specialize (IH ms BP Dls Dms L).
    set (W := B ^ N.of_nat (length ms)) in *. clearbody W.
    destruct (N.ltb_spec l m); [split; [nia|auto]|].
    destruct (N.ltb_spec m l); [split; [discriminate|nia]|].
    assert (l = m) by lia. subst. rewrite IH. split; lia.
Qed.

Lemma firstn_skipn_lt : forall A (Q : A -> Prop) n m (l : list A),
  Forall Q l -> Forall Q (firstn n (skipn m l)).
Proof.
  intros A Q n m l H. rewrite Forall_forall in *. intros x X. apply H.
  rewrite <- (firstn_skipn m l). apply in_or_app. right.
  rewrite <- (firstn_skipn n (skipn m l)). apply in_or_app. left. exact X.
Qed.

Lemma limb_lt : forall i b, length b = 32%nat -> is_bytes b -> (i < 4)%nat -> limb i b < 2 ^ 64.
Proof.
  intros i b L D I. unfold limb.
  assert (D2 : digits_lt 256 (firstn 8 (skipn (8 * i) b))) by (apply firstn_skipn_lt, D).
  pose proof (rval_bound 256 _ D2) as B.
  rewrite firstn_length, skipn_length in B.
  replace (Nat.min 8 (length b - 8 * i)) with 8%nat in B by lia. exact B.
Qed.

Lemma limbs_value : forall b, length b = 32%nat -> rval (2 ^ 64) (limbs b) = rval 256 b.
Proof.
  intros b L.
  assert (E : b = firstn 8 (skipn 0 b) ++ firstn 8 (skipn 8 b) ++ firstn 8 (skipn 16 b)
                  ++ firstn 8 (skipn 24 b)).
  { do 32 (destruct b as [|? b]; [discriminate L|]). destruct b; [|discriminate L]. reflexivity. }
  rewrite E at 2. rewrite !rval_app. rewrite !app_length, !firstn_length, !skipn_length, L.
  unfold limbs, limb. cbn [map Nat.mul Nat.add].
  set (v0 := rval 256 (firstn 8 (skipn 0 b))). set (v1 := rval 256 (firstn 8 (skipn 8 b))).
  set (v2 := rval 256 (firstn 8 (skipn 16 b))). set (v3 := rval 256 (firstn 8 (skipn 24 b))).
  rewrite !rval_cons, rval_nil. cbn [length].
  change (N.of_nat (Nat.min 8 (32 - 8) + (Nat.min 8 (32 - 16) + Nat.min 8 (32 - 24)))) with 24.
  change (N.of_nat (Nat.min 8 (32 - 16) + Nat.min 8 (32 - 24))) with 16.
  change (N.of_nat (Nat.min 8 (32 - 24))) with 8.
  change ((2 ^ 64) ^ N.of_nat 3) with (256 ^ 24).
  change ((2 ^ 64) ^ N.of_nat 2) with (256 ^ 16).
  change ((2 ^ 64) ^ N.of_nat 1) with (256 ^ 8).
  change ((2 ^ 64) ^ N.of_nat 0) with 1. lia.
Qed.

Lemma modulus_value : rval (2 ^ 64) MODULUS_U64 = P.
Proof. vm_compute. reflexivity. Qed.

Lemma from_be_bytes_spec : forall b, length b = 32%nat -> is_bytes b ->
  from_be_bytes b = if rval 256 b <? P then Ok b else Err OverflowError.
Proof.
  intros b L D. unfold from_be_bytes.
  assert (X : below_modulus (limbs b) MODULUS_U64 = true <-> rval 256 b < P).
  { rewrite <- limbs_value, <- modulus_value by auto. apply below_modulus_spec.
    - vm_compute. reflexivity.
    - unfold limbs. cbn [map]. repeat constructor; apply limb_lt; auto; lia.
    - repeat constructor.
    - reflexivity. }
  destruct (below_modulus _ _); destruct (N.ltb_spec (rval 256 b) P); auto.
  - destruct X as [X _]. specialize (X eq_refl). lia.
  - destruct X as [_ X]. specialize (X ltac:(auto)). discriminate.
Qed.

Lemma from_be_bytes_ok : forall b f, length b = 32%nat -> is_bytes b ->
  (from_be_bytes b = Ok f <-> f = b /\ be_value b < P).
Proof.
  intros b f L D. rewrite from_be_bytes_spec, be_value_rval by auto.
  destruct (N.ltb_spec (rval 256 b) P); split; try discriminate.
  - intros H0. injection H0 as <-. auto.
  - intros [-> _]. reflexivity.
  - intros [_ H0]. lia.
Qed.

Lemma denotes_inj : forall f g n, denotes f n -> denotes g n -> f = g.
Proof.
  intros f g n ((L1 & D1 & _) & E1) ((L2 & D2 & _) & E2). rewrite be_value_rval in *.
  apply (rval_inj 256); auto; lia.
Qed.

(* ---- slices ---- *)

Lemma copy_loop_spec : forall n idx src,
  (length src <= 32)%nat -> (n + idx = length src)%nat ->
  copy_loop n idx src (repeat 0 (32 - length src) ++ firstn idx src ++ repeat 0 n)
  = repeat 0 (32 - length src) ++ src.
Proof.
  induction n as [|n IH]; intros idx src L E.
  - simpl. rewrite firstn_all2 by lia. rewrite app_nil_r. reflexivity.
  - simpl repeat. simpl copy_loop.
    rewrite app_assoc, set_nth_mid.
    2:{ rewrite app_length, repeat_length, firstn_length. lia. }
    rewrite <- app_assoc.
    replace (firstn idx src ++ nth idx src 0 :: repeat 0 n)
      with (firstn (S idx) src ++ repeat 0 n).
    + apply IH; lia.
    + change (nth idx src 0 :: repeat 0 n) with ([nth idx src 0] ++ repeat 0 n).
      rewrite app_assoc. f_equal.
      assert (I : (idx < length src)%nat) by lia. clear - I. revert idx I.
      induction src as [|x src IHs]; intros idx I; simpl in I; [lia|].
      destruct idx as [|idx]; [reflexivity|].
      change (firstn (S (S idx)) (x :: src)) with (x :: firstn (S idx) src).
      rewrite IHs by lia. reflexivity.
Qed.

Lemma copy_whole : forall src, (length src <= 32)%nat ->
  copy_loop (length src) 0 src ZERO = repeat 0 (32 - length src) ++ src.
Proof.
  intros src L. rewrite <- copy_loop_spec with (n := length src) (idx := O) by lia.
  f_equal. unfold ZERO. cbn [firstn app].
  rewrite <- repeat_app. f_equal. lia.
Qed.

Lemma repeat_bytes : forall n, is_bytes (repeat 0 n).
Proof. induction n; simpl; constructor; auto. lia. Qed.

Lemma padded_canonical : forall b, is_bytes b -> (length b <= 32)%nat -> rval 256 b < P ->
  denotes (repeat 0 (32 - length b) ++ b) (rval 256 b).
Proof.
  intros b D L V. unfold denotes, canonical. rewrite be_value_rval, rval_zeros, app_length, repeat_length.
  repeat split; auto; try lia. apply Forall_app. split; auto. apply repeat_bytes.
Qed.

Lemma from_be_slice_spec : forall b, is_bytes b ->
  from_be_slice b =
  if Nat.leb (length b) 32 && (rval 256 b <? P)
  then Ok (repeat 0 (32 - length b) ++ b) else Err OverflowError.
Proof.
  intros b D. unfold from_be_slice.
  destruct (Nat.ltb_spec 32 (length b)); destruct (Nat.leb_spec (length b) 32); try lia; auto.
  rewrite copy_whole by auto. rewrite from_be_bytes_spec.
  - rewrite rval_zeros. reflexivity.
  - rewrite app_length, repeat_length. lia.
  - apply Forall_app. split; auto. apply repeat_bytes.
Qed.

Lemma from_be_slice_ok : forall b f, is_bytes b ->
  (from_be_slice b = Ok f <-> (length b <= 32)%nat /\ denotes f (be_value b)).
Proof.
  intros b f D. rewrite from_be_slice_spec, be_value_rval by auto.
  destruct (Nat.leb_spec (length b) 32) as [L|L]; simpl.
  - destruct (N.ltb_spec (rval 256 b) P) as [V|V].
    + pose proof (padded_canonical b D L V) as C. split.
      * intros H. injection H as <-. auto.
      * intros [_ H]. f_equal. eapply denotes_inj; eauto.
    + split; [discriminate|]. intros [_ ((_ & _ & B) & E)]. lia.
  - split; [discriminate|lia].
Qed.

Lemma from_uint_spec : forall width n, (width <= 16)%nat -> n < 256 ^ N.of_nat width ->
  exists f, from_uint width n = Some f /\ denotes f n.
Proof.
  intros width n W B. unfold from_uint, int_be_bytes.
  assert (D : is_bytes (rdigits 256 width n)) by (apply rdigits_lt; lia).
  rewrite from_be_slice_spec by auto. rewrite rdigits_length, rval_rdigits by (auto; lia).
  destruct (Nat.leb_spec width 32); [|lia]. simpl.
  assert (V : n < P).
  { eapply N.lt_trans; [exact B|]. eapply N.le_lt_trans; [apply N.pow_le_mono_r with (c := 16); lia|].
    vm_compute. reflexivity. }
  destruct (N.ltb_spec n P); [|lia]. eexists. split; [reflexivity|].
  pose proof (padded_canonical _ D) as C. rewrite rdigits_length, rval_rdigits in C by (auto; lia).
  apply C; auto.
Qed.

Lemma leading_zeros_split : forall b,
  exists r, b = repeat 0 (leading_zeros b) ++ r /\ (r = [] \/ hd 0 r <> 0).
Proof.
  induction b as [|x b (r & E & H)]; [exists []; auto|]. simpl.
  destruct (N.eqb_spec x 0) as [->|NE].
  - exists r. simpl. split; [f_equal; exact E|exact H].
  - exists (x :: b). split; auto.
Qed.

Lemma try_into_spec : forall width f, (width <= 32)%nat -> length f = 32%nat -> is_bytes f ->
  try_into width f = if be_value f <? 256 ^ N.of_nat width then Ok (be_value f) else Err OverflowError.
Proof.
  intros width f W L D. unfold try_into. rewrite be_value_rval.
  destruct (leading_zeros_split f) as (r & E & H).
  set (z := leading_zeros f) in *. clearbody z.
  assert (Lr : (z + length r = 32)%nat) by (rewrite <- L, E, app_length, repeat_length; reflexivity).
  assert (Dr : digits_lt 256 r).
  { unfold is_bytes in D. rewrite E in D. apply Forall_app in D. tauto. }
  assert (V : rval 256 f = rval 256 r) by (rewrite E; apply rval_zeros).
  destruct (Nat.ltb_spec z (32 - width)) as [Z|Z].
  - destruct (N.ltb_spec (rval 256 f) (256 ^ N.of_nat width)) as [B|B]; auto.
    exfalso. destruct r as [|x r]; [simpl in Lr; lia|].
    destruct H as [H|H]; [discriminate|]. simpl in H.
    pose proof (rval_ge_head 256 x r ltac:(lia) H) as G. simpl in Lr.
    assert (256 ^ N.of_nat width <= 256 ^ N.of_nat (length r)) by (apply N.pow_le_mono_r; lia). lia.
  - assert (SK : skipn (32 - width) f = repeat 0 (z - (32 - width)) ++ r).
    { rewrite E, skipn_app, repeat_length.
      replace (32 - width - z)%nat with O by lia. simpl skipn at 2. f_equal.
      replace z with ((32 - width) + (z - (32 - width)))%nat at 1 by lia.
      rewrite repeat_app, skipn_app, repeat_length, Nat.sub_diag. simpl.
      rewrite skipn_all2 by (rewrite repeat_length; lia). reflexivity. }
    rewrite SK, rval_zeros, V.
    pose proof (rval_bound 256 r Dr) as B.
    assert (256 ^ N.of_nat (length r) <= 256 ^ N.of_nat width) by (apply N.pow_le_mono_r; lia).
    destruct (N.ltb_spec (rval 256 r) (256 ^ N.of_nat width)); [reflexivity|lia].
Qed.

(* ---- bits ---- *)

Lemma byte_bits_value : forall x, x < 256 -> rval 2 (map bit (byte_bits x)) = x.
Proof.
  intros x L. apply N.eqb_eq.
  apply (below_all (fun x => rval 2 (map bit (byte_bits x)) =? x) 256); [vm_compute; reflexivity|exact L].
Qed.

Lemma flat_bits_value : forall b, is_bytes b ->
  rval 2 (map bit (flat_map byte_bits b)) = rval 256 b.
Proof.
  induction b as [|x b IH] using rev_ind; intros D; [reflexivity|].
  apply Forall_app in D. destruct D as [D1 D2]. inversion D2; subst.
  rewrite flat_map_app, map_app, rval_app, rval_snoc, IH by auto.
  replace (flat_map byte_bits [x]) with (byte_bits x) by (simpl; rewrite ?app_nil_r; reflexivity).
  rewrite byte_bits_value by auto. rewrite map_length. reflexivity.
Qed.

Lemma flat_bits_length : forall b, length (flat_map byte_bits b) = (8 * length b)%nat.
Proof. induction b as [|x b IH]; auto. cbn [flat_map]. rewrite app_length, IH. simpl. lia. Qed.

Lemma bit_lt : forall bs, digits_lt 2 (map bit bs).
Proof. induction bs as [|[] bs IH]; simpl; constructor; auto; simpl; lia. Qed.

Lemma bits_eq_of_value : forall a b, length a = length b ->
  rval 2 (map bit a) = rval 2 (map bit b) -> a = b.
Proof.
  intros a b L E.
  assert (M : map bit a = map bit b).
  { apply (rval_inj 2); auto using bit_lt; [lia|]. rewrite !map_length. exact L. }
  clear E. revert b L M. induction a as [|x a IH]; intros [|y b] L M; try discriminate; auto.
  simpl in M. injection M as X M. f_equal.
  - destruct x, y; simpl in X; congruence.
  - apply IH; auto.
Qed.

Lemma pack_bits_spec : forall n bs, length bs = (8 * n)%nat ->
  length (pack_bits n bs) = n /\ is_bytes (pack_bits n bs) /\
  rval 256 (pack_bits n bs) = rval 2 (map bit bs).
Proof.
  induction n as [|n IH]; intros bs L.
  - destruct bs; [|discriminate]. repeat split. constructor.
  - cbn [pack_bits].
    destruct (IH (skipn 8 bs)) as (L2 & D2 & V2); [rewrite skipn_length; lia|].
    assert (LF : length (firstn 8 bs) = 8%nat) by (rewrite firstn_length; lia).
    split; [cbn [length]; lia|]. split.
    + constructor; auto. pose proof (rval_bound 2 (map bit (firstn 8 bs)) (bit_lt _)) as B.
      rewrite map_length, LF in B. exact B.
    + rewrite rval_cons, L2, V2. rewrite <- (firstn_skipn 8 bs) at 3.
      rewrite map_app, rval_app. f_equal. rewrite map_length, skipn_length, L.
      replace (8 * S n - 8)%nat with (8 * n)%nat by lia.
      f_equal. rewrite Nat2N.inj_mul, N.pow_mul_r. reflexivity.
Qed.

Lemma bits_zeros : forall k bs, rval 2 (map bit (repeat false k ++ bs)) = rval 2 (map bit bs).
Proof.
  intros k bs. rewrite map_app. replace (map bit (repeat false k)) with (repeat 0 k).
  - apply rval_zeros.
  - induction k; simpl; congruence.
Qed.

Lemma P_gt_2_251 : 2 ^ 251 < P.
Proof. vm_compute. reflexivity. Qed.

Lemma from_bits_ok : forall bs f,
  from_bits bs = Ok f <-> (length bs <= 251)%nat /\ denotes f (bits_value bs).
Proof.
  intros bs f. unfold from_bits. rewrite bits_value_rval.
  destruct (Nat.ltb_spec 251 (length bs)) as [L|L]; [split; [discriminate|lia]|].
  assert (LL : length (repeat false (256 - length bs) ++ bs) = (8 * 32)%nat).
  { rewrite app_length, repeat_length. lia. }
  destruct (pack_bits_spec 32 _ LL) as (PL & PD & PV). rewrite bits_zeros in PV.
  pose proof (rval_bound 2 (map bit bs) (bit_lt bs)) as B. rewrite map_length in B.
  assert (C : denotes (pack_bits 32 (repeat false (256 - length bs) ++ bs)) (rval 2 (map bit bs))).
  { split; [|rewrite be_value_rval; exact PV]. split; [exact PL|]. split; [exact PD|].
    rewrite be_value_rval, PV. eapply N.lt_trans; [exact B|].
    eapply N.le_lt_trans; [apply N.pow_le_mono_r with (c := 251); lia|]. exact P_gt_2_251. }
  split.
  - intros H. injection H as <-. auto.
  - intros [_ H]. f_equal. eapply denotes_inj; eauto.
Qed.

Lemma view_bits_spec : forall f, length f = 32%nat -> is_bytes f ->
  length (view_bits f) = 251%nat /\ bits_value (view_bits f) = be_value f mod 2 ^ 251.
Proof.
  intros f L D. unfold view_bits. rewrite bits_value_rval, be_value_rval.
  rewrite skipn_length, flat_bits_length, L. split; [reflexivity|].
  rewrite <- flat_bits_value by auto.
  rewrite <- (firstn_skipn 5 (flat_map byte_bits f)) at 2.
  rewrite map_app, rval_app, map_length, skipn_length, flat_bits_length, L.
  change (2 ^ N.of_nat (8 * 32 - 5)) with (2 ^ 251).
  rewrite N.add_comm, N.mod_add by (vm_compute; discriminate).
  symmetry. apply N.mod_small.
  pose proof (rval_bound 2 _ (bit_lt (skipn 5 (flat_map byte_bits f)))) as B.
  rewrite map_length, skipn_length, flat_bits_length, L in B. exact B.
Qed.

Lemma bits_roundtrip_felt : forall f, canonical f -> be_value f < 2 ^ 251 ->
  from_bits (view_bits f) = Ok f.
Proof.
  intros f C B. pose proof C as (L & D & V). apply from_bits_ok.
  destruct (view_bits_spec f L D) as [LV VV]. rewrite LV. split; [lia|].
  rewrite VV, N.mod_small by auto. split; auto.
Qed.

Lemma bits_roundtrip_bits : forall bs f, from_bits bs = Ok f ->
  view_bits f = repeat false (251 - length bs) ++ bs.
Proof.
  intros bs f H. apply from_bits_ok in H. destruct H as [L ((LF & D & _) & V)].
  destruct (view_bits_spec f LF D) as [LV VV].
  apply bits_eq_of_value; [rewrite LV, app_length, repeat_length; lia|].
  rewrite bits_zeros, <- !bits_value_rval, VV, V. apply N.mod_small.
  rewrite bits_value_rval.
  pose proof (rval_bound 2 (map bit bs) (bit_lt bs)) as B. rewrite map_length in B.
  eapply N.lt_le_trans; [exact B|]. apply N.pow_le_mono_r; lia.
Qed.

Lemma has_more_spec : forall f, length f = 32%nat -> is_bytes f ->
  has_more_than_251_bits f = (2 ^ 251 <=? be_value f).
Proof.
  intros f L D. destruct f as [|x f]; [discriminate|]. inversion D as [|? ? Dx Df]; subst.
  unfold has_more_than_251_bits. rewrite be_value_rval, rval_cons. simpl in L. injection L as L.
  simpl nth. pose proof (rval_bound 256 f Df) as B. rewrite L in *.
  change (2 ^ 251) with (8 * 256 ^ N.of_nat 31).
  assert (X : (0 <? N.land x 248) = (8 <=? x)).
  { apply eqb_prop.
    apply (below_all (fun x => Bool.eqb (0 <? N.land x 248) (8 <=? x)) 256);
      [vm_compute; reflexivity|exact Dx]. }
  rewrite X. set (W := 256 ^ N.of_nat 31) in *. clearbody W.
  destruct (N.leb_spec 8 x); destruct (N.leb_spec (8 * W) (x * W + rval 256 f)); auto; nia.
Qed.

(* ---- hexadecimal ---- *)

Lemma parse_hex_digit_spec : forall c d, parse_hex_digit c = Some d <-> hex_digit c d.
Proof.
  intros c d. unfold parse_hex_digit. split.
  - destruct ((48 <=? c) && (c <=? 57)) eqn:E1.
    { intros H. injection H as <-. replace c with (48 + (c - 48)) at 1 by lia. constructor. lia. }
    destruct ((65 <=? c) && (c <=? 70)) eqn:E2.
    { intros H. injection H as <-.
      replace c with (65 + ((c - 65 + 10) - 10)) at 1 by lia. apply hex_AF. lia. }
    destruct ((97 <=? c) && (c <=? 102)) eqn:E3; [|discriminate].
    intros H. injection H as <-.
    replace c with (97 + ((c - 97 + 10) - 10)) at 1 by lia. apply hex_af. lia.
  - intros H. destruct H.
    + replace ((48 <=? 48 + d) && (48 + d <=? 57)) with true by lia. f_equal. lia.
    + replace ((48 <=? 97 + (d - 10)) && (97 + (d - 10) <=? 57)) with false by lia.
      replace ((65 <=? 97 + (d - 10)) && (97 + (d - 10) <=? 70)) with false by lia.
      replace ((97 <=? 97 + (d - 10)) && (97 + (d - 10) <=? 102)) with true by lia. f_equal. lia.
    + replace ((48 <=? 65 + (d - 10)) && (65 + (d - 10) <=? 57)) with false by lia.
      replace ((65 <=? 65 + (d - 10)) && (65 + (d - 10) <=? 70)) with true by lia. f_equal. lia.
Qed.

Lemma parse_hex_digit_lt : forall c d, parse_hex_digit c = Some d -> d < 16.
Proof. intros c d H. apply parse_hex_digit_spec in H. destruct H; lia. Qed.

Fixpoint parse_all (s : bytes) : option (list N) :=
  match s with
  | [] => Some []
  | c :: s' =>
      match parse_hex_digit c, parse_all s' with
      | Some d, Some ds => Some (d :: ds)
      | _, _ => None
      end
  end.

Lemma parse_all_app : forall a b,
  parse_all (a ++ b) =
  match parse_all a, parse_all b with Some x, Some y => Some (x ++ y) | _, _ => None end.
Proof.
  induction a as [|c a IH]; intros b; simpl.
  - destruct (parse_all b); reflexivity.
  - rewrite IH. destruct (parse_hex_digit c); auto.
    destruct (parse_all a); auto. destruct (parse_all b); auto.
Qed.

Lemma parse_all_spec : forall s ds, parse_all s = Some ds ->
  length ds = length s /\ digits_lt 16 ds.
Proof.
  induction s as [|c s IH]; intros ds H; simpl in H.
  - injection H as <-. split; constructor.
  - destruct (parse_hex_digit c) as [d|] eqn:E; [|discriminate].
    destruct (parse_all s) as [ds'|]; [|discriminate]. injection H as <-.
    destruct (IH ds' eq_refl). split; [simpl; lia|]. constructor; auto.
    eapply parse_hex_digit_lt; eauto.
Qed.

Lemma hex_spells_parse : forall s n,
  hex_spells s n <-> exists ds, parse_all s = Some ds /\ n = rval 16 ds.
Proof.
  intros s n. split.
  - intros H. induction H as [|s n c d H (ds & E & ->) D].
    + exists []. auto.
    + exists (ds ++ [d]). apply parse_hex_digit_spec in D.
      rewrite parse_all_app, E. cbn [parse_all]. rewrite D, rval_snoc. split; [reflexivity|lia].
  - revert n. induction s as [|c s IH] using rev_ind; intros n (ds & E & ->).
    + injection E as <-. constructor.
    + rewrite parse_all_app in E. destruct (parse_all s) as [x|]; [|discriminate].
      simpl in E. destruct (parse_hex_digit c) as [d|] eqn:D; [|discriminate].
      injection E as <-. rewrite rval_snoc, N.mul_comm. constructor.
      * apply IH. eauto.
      * apply parse_hex_digit_spec, D.
Qed.

Lemma nibbles : forall u l, u < 16 -> l < 16 -> N.lor (N.shiftl u 4) l = u * 16 + l.
Proof.
  intros u l U L. apply N.eqb_eq.
  apply (below_all (fun l => N.lor (N.shiftl u 4) l =? u * 16 + l) 16); [|exact L].
  apply (below_all (fun u => forallb (fun l => N.lor (N.shiftl u 4) l =? u * 16 + l)
    (map N.of_nat (seq 0 16))) 16); [vm_compute; reflexivity|exact U].
Qed.

Lemma nth_mid : forall (a b : bytes) x i, i = length a -> nth i (a ++ x :: b) 0 = x.
Proof. intros a b x i ->. rewrite app_nth2, Nat.sub_diag by lia. reflexivity. Qed.

Lemma last_two : forall (q : bytes) n, length q = (2 * S n)%nat ->
  exists q' u l, q = q' ++ [u; l] /\ length q' = (2 * n)%nat.
Proof.
  intros q n L. exists (firstn (2 * n) q).
  pose proof (firstn_skipn (2 * n) q) as E.
  assert (LS : length (skipn (2 * n) q) = 2%nat) by (rewrite skipn_length; lia).
  destruct (skipn (2 * n) q) as [|u [|l [|? ?]]]; try discriminate.
  exists u, l. split; [auto|]. rewrite firstn_length. lia.
Qed.

Lemma hex_loop_spec : forall n chunk front q done pre acc,
  length q = (2 * n)%nat -> length done = (2 * chunk)%nat ->
  length acc = chunk -> (length pre + n + chunk = 32)%nat ->
  (forall ds, parse_all q = Some ds ->
     exists B, hex_loop n chunk (front ++ q ++ done) (pre ++ repeat 0 n ++ acc) = Ok (pre ++ B ++ acc)
       /\ length B = n /\ is_bytes B /\ flat_map (split_digit 16) B = ds) /\
  (parse_all q = None ->
     exists e, hex_loop n chunk (front ++ q ++ done) (pre ++ repeat 0 n ++ acc) = Err e).
Proof.
  induction n as [|n IH]; intros chunk front q done pre acc Lq Ld La Lp.
  - destruct q; [|discriminate]. simpl. split.
    + intros ds H. injection H as <-. exists []. repeat split; constructor.
    + discriminate.
  - destruct (last_two q n Lq) as (q' & u & l & -> & Lq').
    assert (I1 : nth (length (front ++ (q' ++ [u; l]) ++ done) - chunk * 2 - 1)
                   (front ++ (q' ++ [u; l]) ++ done) 0 = l).
    { replace (front ++ (q' ++ [u; l]) ++ done) with ((front ++ q' ++ [u]) ++ l :: done)
        by (rewrite <- !app_assoc; reflexivity).
      apply nth_mid. rewrite !app_length. simpl length. lia. }
    assert (I2 : nth (length (front ++ (q' ++ [u; l]) ++ done) - chunk * 2 - 2)
                   (front ++ (q' ++ [u; l]) ++ done) 0 = u).
    { replace (front ++ (q' ++ [u; l]) ++ done) with ((front ++ q') ++ u :: (l :: done))
        by (rewrite <- !app_assoc; reflexivity).
      apply nth_mid. rewrite !app_length. simpl length. lia. }
    rewrite parse_all_app. cbn [hex_loop]. rewrite I1, I2. clear I1 I2. simpl parse_all.
    destruct (parse_hex_digit l) as [dl|] eqn:El.
    2:{ split; [|intros _; eauto]. intros ds H.
        destruct (parse_all q'); [|discriminate]. destruct (parse_hex_digit u); discriminate. }
    destruct (parse_hex_digit u) as [du|] eqn:Eu.
    2:{ split; [|intros _; eauto]. intros ds H. destruct (parse_all q'); discriminate. }
    pose proof (parse_hex_digit_lt _ _ El). pose proof (parse_hex_digit_lt _ _ Eu).
    rewrite nibbles by auto.
    replace (pre ++ repeat 0 (S n) ++ acc) with ((pre ++ repeat 0 n) ++ 0 :: acc).
    2:{ rewrite <- app_assoc. f_equal.
        replace (S n) with (n + 1)%nat by lia. rewrite repeat_app. simpl repeat.
        rewrite <- app_assoc. reflexivity. }
    rewrite set_nth_mid by (rewrite app_length, repeat_length; lia).
    rewrite <- (app_assoc pre).
    replace (front ++ (q' ++ [u; l]) ++ done) with (front ++ q' ++ (u :: l :: done))
      by (rewrite <- !app_assoc; reflexivity).
    destruct (IH (S chunk) front q' (u :: l :: done) pre (du * 16 + dl :: acc) Lq') as [I1 I2];
      [simpl; lia|simpl; lia|lia|].
    destruct (parse_all q') as [x|] eqn:Eq.
    + split; [|discriminate]. intros ds HH. injection HH as <-.
      destruct (I1 x eq_refl) as (B & E & LB & DB & FB).
      exists (B ++ [du * 16 + dl]). rewrite E, <- !app_assoc. split; [reflexivity|].
      rewrite app_length. simpl length. split; [lia|]. split.
      * apply Forall_app. split; auto. constructor; [lia|constructor].
      * rewrite flat_map_app, FB. f_equal. simpl. unfold split_digit.
        rewrite N.div_add_l, N.div_small, N.add_0_r by lia.
        rewrite N.add_comm, N.mod_add, N.mod_small by lia. reflexivity.
    + split; [discriminate|]. intros _. apply I2. reflexivity.
Qed.

Lemma rest_shape : forall rest : bytes,
  (Nat.odd (length rest) = false /\ length rest = (2 * Nat.div2 (length rest))%nat) \/
  (Nat.odd (length rest) = true /\ exists c q, rest = c :: q /\
     length q = (2 * Nat.div2 (length rest))%nat).
Proof.
  intros rest. pose proof (Nat.div2_odd (length rest)) as E.
  destruct (Nat.odd (length rest)); simpl Nat.b2n in E.
  - right. split; auto. destruct rest as [|c q]; [discriminate|].
    exists c, q. split; auto. simpl length in E at 1. lia.
  - left. split; auto. lia.
Qed.

(* everything from_hex_str does after the prefix and length checks *)
Lemma from_hex_str_spec : forall rest,
  (length rest <= 64)%nat ->
  match parse_all rest with
  | Some ds =>
      if rval 16 ds <? P
      then exists f, from_hex_str (48 :: 120 :: rest) = Ok f /\ denotes f (rval 16 ds)
      else from_hex_str (48 :: 120 :: rest) = Err HexOverflow
  | None => exists e, from_hex_str (48 :: 120 :: rest) = Err e
  end.
Proof.
  intros rest L.
  assert (FIN : forall (pre B : bytes) ds, (length pre + length B)%nat = 32%nat -> is_bytes pre -> is_bytes B ->
    rval 256 (pre ++ B) = rval 16 ds ->
    forall r, r = (match from_be_bytes (pre ++ B) with Ok f => Ok f | Err _ => Err HexOverflow end) ->
    if rval 16 ds <? P then exists f, r = Ok f /\ denotes f (rval 16 ds)
    else r = @Err felt hex_error HexOverflow).
  { intros pre B ds LB DP DB V r ->.
    assert (LL : length (pre ++ B) = 32%nat) by (rewrite app_length; auto).
    assert (DD : is_bytes (pre ++ B)) by (apply Forall_app; auto).
    rewrite from_be_bytes_spec, V by auto.
    destruct (N.ltb_spec (rval 16 ds) P); [|reflexivity].
    eexists. split; [reflexivity|]. unfold denotes, canonical. rewrite be_value_rval, V. auto. }
  unfold from_hex_str. cbv zeta.
  destruct (Nat.ltb_spec 64 (length rest)); [lia|].
  set (chunks := Nat.div2 (length rest)).
  destruct (rest_shape rest) as [[O E]|[O (c & q & R & E)]]; rewrite O.
  - assert (Lc : (chunks <= 32)%nat) by (unfold chunks; lia).
    destruct (hex_loop_spec chunks 0 [48; 120] rest [] (repeat 0 (32 - chunks)) [] E eq_refl eq_refl)
      as [I1 I2]; [rewrite repeat_length; lia|].
    rewrite !app_nil_r in I1, I2. rewrite <- repeat_app in I1, I2.
    replace (32 - chunks + chunks)%nat with 32%nat in I1, I2 by lia. fold ZERO in I1, I2.
    change ([48; 120] ++ rest) with (48 :: 120 :: rest) in I1, I2.
    destruct (parse_all rest) as [ds|] eqn:PA.
    + destruct (I1 ds eq_refl) as (B & -> & LB & DB & FB). rewrite app_nil_r.
      apply (FIN (repeat 0 (32 - chunks)) B ds); auto.
      * rewrite repeat_length. lia.
      * apply repeat_bytes.
      * rewrite rval_zeros, <- FB. symmetry. apply rval_split. lia.
    + destruct (I2 eq_refl) as (e & ->). eauto.
  - assert (Lc : (chunks <= 31)%nat) by (assert (length rest = S (length q)) by (rewrite R; reflexivity); unfold chunks; lia).
    change (nth 2 (48 :: 120 :: rest) 0) with (nth 0 rest 0).
    replace (nth 0 rest 0) with c by (rewrite R; reflexivity).
    replace (parse_all rest) with (parse_all (c :: q)) by (rewrite R; reflexivity).
    simpl parse_all. destruct (parse_hex_digit c) as [d|] eqn:D; [|eauto].
    pose proof (parse_hex_digit_lt _ _ D).
    assert (Z : ZERO = repeat 0 (31 - chunks) ++ 0 :: repeat 0 chunks).
    { unfold ZERO. change (0 :: repeat 0 chunks) with (repeat 0 (S chunks)).
      rewrite <- repeat_app. f_equal. lia. }
    rewrite Z, set_nth_mid by (rewrite repeat_length; reflexivity).
    destruct (hex_loop_spec chunks 0 [48; 120; c] q [] (repeat 0 (31 - chunks) ++ [d]) [] E eq_refl eq_refl)
      as [I1 I2]; [rewrite app_length, repeat_length; simpl length; lia|].
    rewrite !app_nil_r in I1, I2. rewrite <- !app_assoc in I1, I2. cbn [app] in I1, I2.
    replace (48 :: 120 :: rest) with (48 :: 120 :: c :: q) by (rewrite R; reflexivity).
    destruct (parse_all q) as [ds|] eqn:PA.
    + destruct (I1 ds eq_refl) as (B & E1 & LB & DB & FB). rewrite app_nil_r in E1. rewrite E1.
      replace (repeat 0 (31 - chunks) ++ [d] ++ B) with ((repeat 0 (31 - chunks) ++ [d]) ++ B)
        by (rewrite <- app_assoc; reflexivity).
      apply (FIN (repeat 0 (31 - chunks) ++ [d]) B (d :: ds)); auto.
      * rewrite app_length, repeat_length. simpl length. lia.
      * apply Forall_app. split; [apply repeat_bytes|]. constructor; [lia|constructor].
      * rewrite <- app_assoc, rval_zeros. simpl app. rewrite !rval_cons.
        rewrite <- FB at 2. rewrite rval_split by lia. change (16 * 16) with 256.
        f_equal. f_equal. rewrite <- FB, split_length.
        rewrite Nat2N.inj_mul, N.pow_mul_r. reflexivity.
    + destruct (I2 eq_refl) as (e & ->). eauto.
Qed.

Lemma from_hex_ok : forall s f,
  from_hex_str s = Ok f <->
  exists ds n, s = text "0x" ++ ds /\ (length ds <= 64)%nat /\ hex_spells ds n /\ denotes f n.
Proof.
  intros s f. split.
  - intros H.
    assert (S : exists rest, s = 48 :: 120 :: rest /\ (length rest <= 64)%nat).
    { unfold from_hex_str in H.
      repeat (match type of H with
      | context [match ?x with _ => _ end] => is_var x; destruct x; try discriminate
      end).
      match type of H with (if Nat.ltb 64 ?n then _ else _) = _ =>
        destruct (Nat.ltb_spec 64 n); [discriminate|] end. eauto. }
    destruct S as (rest & -> & L).
    pose proof (from_hex_str_spec rest L) as X.
    destruct (parse_all rest) as [ds|] eqn:E.
    + destruct (N.ltb_spec (rval 16 ds) P).
      * destruct X as (f' & E' & D). rewrite E' in H. injection H as <-.
        exists rest, (rval 16 ds). repeat split; auto; try apply D.
        apply hex_spells_parse. eauto.
      * congruence.
    + destruct X as [e X]. congruence.
  - intros (ds & n & -> & L & SP & D).
    apply hex_spells_parse in SP. destruct SP as (l & E & ->).
    pose proof (from_hex_str_spec ds L) as X. rewrite E in X.
    pose proof D as ((_ & _ & B) & V).
    destruct (N.ltb_spec (rval 16 l) P); [|lia].
    destruct X as (f' & E' & D'). change (text "0x" ++ ds) with (48 :: 120 :: ds). rewrite E'.
    f_equal. eapply denotes_inj; eauto.
Qed.

(* ---- printing hexadecimal ---- *)

Definition lut (d : N) : N := nth (N.to_nat d) LUT 0.

Lemma nibble_of_byte : forall b, b < 256 ->
  N.shiftr (N.land b 240) 4 = b / 16 /\ N.land b 15 = b mod 16.
Proof.
  intros b L.
  assert (X : ((N.shiftr (N.land b 240) 4 =? b / 16) && (N.land b 15 =? b mod 16)) = true).
  { apply (below_all (fun b => (N.shiftr (N.land b 240) 4 =? b / 16) && (N.land b 15 =? b mod 16)) 256);
      [vm_compute; reflexivity|exact L]. }
  apply andb_prop in X. split; apply N.eqb_eq; tauto.
Qed.

Lemma lut_digit : forall d, d < 16 -> hex_digit (lut d) d.
Proof.
  intros d L. apply parse_hex_digit_spec.
  assert (X : (match parse_hex_digit (lut d) with Some e => e =? d | None => false end) = true).
  { apply (below_all (fun d => match parse_hex_digit (lut d) with Some e => e =? d | None => false end) 16);
      [vm_compute; reflexivity|exact L]. }
  destruct (parse_hex_digit (lut d)); [|discriminate]. apply N.eqb_eq in X. congruence.
Qed.

Lemma hex_write_spec : forall it pos A X B, is_bytes it -> length A = pos ->
  length X = (2 * length it)%nat ->
  hex_write it pos (A ++ X ++ B) = A ++ map lut (flat_map (split_digit 16) it) ++ B.
Proof.
  induction it as [|b it IH]; intros pos A X B D LA LX.
  - destruct X; [|discriminate]. reflexivity.
  - inversion D as [|? ? Db Di]; subst. simpl length in LX.
    destruct X as [|x0 [|x1 X]]; simpl length in LX; try lia.
    cbn [hex_write]. destruct (nibble_of_byte b Db) as [-> ->].
    change ((x0 :: x1 :: X) ++ B) with (x0 :: x1 :: (X ++ B)).
    rewrite (set_nth_mid A _ _ x0 (length A) eq_refl).
    replace (A ++ nth (N.to_nat (b / 16)) LUT 0 :: x1 :: X ++ B)
      with ((A ++ [lut (b / 16)]) ++ x1 :: (X ++ B)) by (rewrite <- app_assoc; reflexivity).
    rewrite set_nth_mid by (rewrite app_length; simpl length; lia).
    replace ((A ++ [lut (b / 16)]) ++ nth (N.to_nat (b mod 16)) LUT 0 :: X ++ B)
      with ((A ++ [lut (b / 16); lut (b mod 16)]) ++ X ++ B) by (rewrite <- !app_assoc; reflexivity).
    rewrite IH; auto; try lia.
    + rewrite <- app_assoc. reflexivity.
    + rewrite app_length. simpl length. lia.
Qed.

Lemma skip_zero_bytes_spec : forall f,
  f = repeat 0 (length f - length (skip_zero_bytes f)) ++ skip_zero_bytes f /\
  (length (skip_zero_bytes f) <= length f)%nat /\
  (skip_zero_bytes f = [] \/ hd 0 (skip_zero_bytes f) <> 0).
Proof.
  induction f as [|x f (E & L & H)]; [simpl; auto|]. cbn [skip_zero_bytes length].
  destruct (N.eqb_spec x 0) as [->|NE].
  - split; [|split; [lia|exact H]].
    replace (S (length f) - length (skip_zero_bytes f))%nat
      with (S (length f - length (skip_zero_bytes f))) by lia.
    cbn [repeat app]. f_equal. exact E.
  - cbn [length]. rewrite Nat.sub_diag. simpl. auto.
Qed.

Lemma any_nonzero : forall f, negb (existsb (fun b : N => negb (b =? 0)) f) = true -> f = repeat 0 (length f).
Proof.
  induction f as [|x f IH]; simpl; auto. intros H.
  destruct (N.eqb_spec x 0) as [->|]; simpl in H; [|discriminate]. f_equal. auto.
Qed.

(* the digits printed for a value *)
Definition hex_text (f : felt) : bytes := map lut (min_digits 16 (be_value f)).

Lemma spells_lut : forall ds, digits_lt 16 ds -> hex_spells (map lut ds) (rval 16 ds).
Proof.
  induction ds as [|d ds IH] using rev_ind; intros D; [constructor|].
  apply Forall_app in D. destruct D as [D1 D2]. inversion D2; subst.
  rewrite map_app, rval_snoc, N.mul_comm. constructor; auto. apply lut_digit. auto.
Qed.

Lemma it_to_hex_spec : forall f buf, length f = 32%nat -> is_bytes f ->
  existsb (fun b : N => negb (b =? 0)) f = true ->
  let '(it, start, len) := skip_zeros f in
  (len <= length buf)%nat ->
  it_to_hex_str it start len buf = text "0x" ++ hex_text f.
Proof.
  intros f buf L D NZ. unfold skip_zeros.
  destruct (skip_zero_bytes_spec f) as (E & LE & H).
  set (it := skip_zero_bytes f) in *. cbv zeta.
  assert (NE : it <> []).
  { intros X. rewrite X in E. simpl length in E. rewrite app_nil_r in E.
    rewrite E in NZ. clear - NZ. induction (length f - 0)%nat; simpl in NZ; [discriminate|auto]. }
  assert (NTH : nth (length f - length it) f 0 = hd 0 it).
  { rewrite E at 2. rewrite app_nth2 by (rewrite repeat_length; lia).
    rewrite repeat_length, Nat.sub_diag. destruct it; reflexivity. }
  rewrite NTH.
  assert (DI : is_bytes it). { unfold is_bytes in D. rewrite E in D. apply Forall_app in D. tauto. }
  assert (V : be_value f = rval 256 it). { rewrite be_value_rval. rewrite E at 1. apply rval_zeros. }
  destruct it as [|b it0] eqn:EI; [easy|]. destruct H as [H|H]; [discriminate|]. simpl hd in *.
  inversion DI as [|? ? Db D0]; subst x l.
  assert (SD : digits_lt 16 (flat_map (split_digit 16) (b :: it0))).
  { apply split_digit_lt; [lia|]. exact DI. }
  destruct (N.ltb_spec b 16) as [B16|B16]; intros LB; unfold it_to_hex_str.
  - simpl length in LB.
    destruct buf as [|x0 buf]; [simpl in LB; lia|]. simpl length in LB.
    cbn [set_nth].
    pose proof (firstn_skipn (2 * S (length it0)) buf) as SP.
    assert (LX : length (firstn (2 * S (length it0)) buf) = (2 * S (length it0))%nat)
      by (rewrite firstn_length; lia).
    rewrite <- SP. set (X := firstn (2 * S (length it0)) buf) in *.
    set (Y := skipn (2 * S (length it0)) buf) in *.
    change (48 :: X ++ Y) with ([48] ++ X ++ Y).
    rewrite (hex_write_spec (b :: it0) 1 [48] X Y DI eq_refl LX).
    cbn [flat_map app map]. unfold split_digit at 1. cbn [app map set_nth].
    replace (1 + length (b :: it0) * 2)%nat with (S (S (S (2 * length it0)))) by (simpl length; lia).
    cbn [firstn]. change (text "0x") with [48; 120]. cbn [app]. f_equal. f_equal.
    assert (BM : b mod 16 = b) by (apply N.mod_small; lia).
    assert (V2 : be_value f = rval 16 (b mod 16 :: flat_map (split_digit 16) it0)).
    { rewrite V. change 256 with (16 * 16). rewrite <- rval_split by lia.
      change (flat_map (split_digit 16) (b :: it0))
        with (b / 16 :: b mod 16 :: flat_map (split_digit 16) it0).
      rewrite (N.div_small b 16) by lia. rewrite rval_cons, N.mul_0_l, N.add_0_l. reflexivity. }
    unfold hex_text. rewrite V2.
    rewrite min_digits_canonical; try lia.
    + cbn [map]. f_equal. rewrite firstn_app, map_length, split_length, Nat.sub_diag.
      simpl firstn at 2. rewrite app_nil_r. apply firstn_all2.
      rewrite map_length, split_length. lia.
    + cbn [flat_map] in SD. unfold split_digit at 1 in SD. cbn [app] in SD.
      apply Forall_cons_iff in SD. tauto.
    + simpl hd. rewrite BM. exact H.
  - simpl length in LB.
    destruct buf as [|x0 [|x1 buf]]; simpl length in LB; try lia.
    cbn [set_nth].
    pose proof (firstn_skipn (2 * S (length it0)) buf) as SP.
    assert (LX : length (firstn (2 * S (length it0)) buf) = (2 * S (length it0))%nat)
      by (rewrite firstn_length; lia).
    rewrite <- SP. set (X := firstn (2 * S (length it0)) buf) in *.
    set (Y := skipn (2 * S (length it0)) buf) in *.
    change (48 :: x1 :: X ++ Y) with ([48; x1] ++ X ++ Y).
    rewrite (hex_write_spec (b :: it0) 2 [48; x1] X Y DI eq_refl LX).
    cbn [app set_nth].
    replace (2 + length (b :: it0) * 2)%nat with (S (S (2 * length (b :: it0)))) by lia.
    cbn [firstn]. change (text "0x") with [48; 120]. cbn [app]. f_equal. f_equal.
    rewrite firstn_app, map_length, split_length, Nat.sub_diag.
    simpl firstn at 2. rewrite app_nil_r. rewrite firstn_all2 by (rewrite map_length, split_length; lia).
    unfold hex_text. f_equal. symmetry. rewrite V.
    change 256 with (16 * 16). rewrite <- rval_split with (b := 16) by lia.
    apply min_digits_canonical; auto; try lia.
    simpl hd. assert (1 <= b / 16) by (apply N.div_le_lower_bound; lia). lia.
Qed.

Lemma zero_text : forall f, length f = 32%nat ->
  existsb (fun b : N => negb (b =? 0)) f = false -> text "0x0" = text "0x" ++ hex_text f.
Proof.
  intros f L H. unfold hex_text.
  assert (E : f = repeat 0 (length f)) by (apply any_nonzero; rewrite H; reflexivity).
  rewrite E, L. reflexivity.
Qed.

Lemma to_hex_str_spec : forall f, length f = 32%nat -> is_bytes f ->
  to_hex_str f = text "0x" ++ hex_text f.
Proof.
  intros f L D. unfold to_hex_str.
  destruct (existsb _ f) eqn:E; simpl negb; cbv iota.
  - pose proof (fun len => it_to_hex_spec f (repeat 0 len) L D E) as S.
    destruct (skip_zeros f) as [[it start] len]. apply (S len). rewrite repeat_length. lia.
  - apply zero_text; auto.
Qed.

Lemma skip_zeros_len : forall f, length f = 32%nat ->
  let '(_, _, len) := skip_zeros f in (len <= 66)%nat.
Proof.
  intros f L. unfold skip_zeros. destruct (skip_zero_bytes_spec f) as (_ & LE & _).
  destruct (_ <? 16); lia.
Qed.

Lemma as_hex_str_spec : forall f buf, length f = 32%nat -> is_bytes f -> (66 <= length buf)%nat ->
  as_hex_str f buf = Some (text "0x" ++ hex_text f).
Proof.
  intros f buf L D LB. unfold as_hex_str.
  destruct (Nat.ltb_spec (length buf) (length f * 2 + 2)); [lia|].
  destruct (existsb _ f) eqn:E; simpl negb; cbv iota.
  - pose proof (it_to_hex_spec f buf L D E) as S. pose proof (skip_zeros_len f L) as Z.
    destruct (skip_zeros f) as [[it start] len]. rewrite S by lia. reflexivity.
  - f_equal. apply zero_text; auto.
Qed.

Lemma min_digits_length : forall b n k, 2 <= b -> n < b ^ N.of_nat (S k) ->
  (length (min_digits b n) <= S k)%nat.
Proof.
  intros b n k B H. destruct (N.eq_dec n 0) as [->|NZ]; [simpl; lia|].
  destruct (min_digits_spec b n B) as (V & D & NE & HD). specialize (HD NZ).
  destruct (min_digits b n) as [|d l]; [easy|]. simpl in HD |- *.
  pose proof (rval_ge_head b d l ltac:(lia) HD) as G. rewrite V in G.
  destruct (Nat.le_gt_cases (length l) k); [lia|].
  assert (b ^ N.of_nat (S k) <= b ^ N.of_nat (length l)) by (apply N.pow_le_mono_r; lia). lia.
Qed.

Lemma hex_text_spells : forall f, hex_spells (hex_text f) (be_value f).
Proof.
  intros f. unfold hex_text. destruct (min_digits_spec 16 (be_value f)) as (V & D & _); [lia|].
  rewrite <- V at 2. apply spells_lut, D.
Qed.

Lemma hex_text_length : forall f, canonical f -> (length (hex_text f) <= 64)%nat.
Proof.
  intros f (_ & _ & V). unfold hex_text. rewrite map_length. apply min_digits_length; [lia|].
  eapply N.lt_trans; [exact V|]. vm_compute. reflexivity.
Qed.

Lemma hex_roundtrip : forall f, canonical f -> from_hex_str (text "0x" ++ hex_text f) = Ok f.
Proof.
  intros f C. apply from_hex_ok. exists (hex_text f), (be_value f).
  split; [reflexivity|]. split; [apply hex_text_length, C|]. split; [apply hex_text_spells|].
  split; auto.
Qed.

Lemma upper_digit : forall d, d < 16 -> hex_digit (nth (N.to_nat d) UPPER 0) d.
Proof.
  intros d L. apply parse_hex_digit_spec.
  assert (X : (match parse_hex_digit (nth (N.to_nat d) UPPER 0) with Some e => e =? d | None => false end) = true).
  { apply (below_all (fun d => match parse_hex_digit (nth (N.to_nat d) UPPER 0) with Some e => e =? d | None => false end) 16);
      [vm_compute; reflexivity|exact L]. }
  destruct (parse_hex_digit _); [|discriminate]. apply N.eqb_eq in X. congruence.
Qed.

Lemma display_roundtrip : forall f, canonical f -> from_hex_str (display f) = Ok f.
Proof.
  intros f C. pose proof C as (L & D & V). apply from_hex_ok.
  exists (map (fun d => nth (N.to_nat d) UPPER 0) (flat_map (split_digit 16) f)), (be_value f).
  split.
  { unfold display. f_equal. rewrite !flat_map_concat_map, concat_map, map_map. reflexivity. }
  split; [rewrite map_length, split_length; lia|]. split; [|split; auto].
  rewrite be_value_rval. change 256 with (16 * 16). rewrite <- rval_split by lia.
  assert (SD : digits_lt 16 (flat_map (split_digit 16) f)) by (apply split_digit_lt; [lia|exact D]).
  revert SD. generalize (flat_map (split_digit 16) f). intros ds.
  induction ds as [|d ds IH] using rev_ind; intros SD; [constructor|].
  apply Forall_app in SD. destruct SD as [D1 D2]. inversion D2; subst.
  rewrite map_app, rval_snoc, N.mul_comm. constructor; auto. apply upper_digit. auto.
Qed.

(* ---- decimal ---- *)

Lemma big_digits_app : forall a b,
  big_digits (a ++ b) =
  match big_digits a, big_digits b with Some x, Some y => Some (x ++ y) | _, _ => None end.
Proof.
  induction a as [|c a IH]; intros b; simpl.
  - destruct (big_digits b); reflexivity.
  - rewrite IH. destruct (c =? 95); auto. destruct (_ && _); auto.
    destruct (big_digits a); auto. destruct (big_digits b); auto.
Qed.

Definition dec_ok (s : bytes) : Prop := match s with [] => False | c :: _ => c <> 95 end.

Lemma big_one : forall d, d < 10 -> big_digits [48 + d] = Some [d].
Proof.
  intros d L. unfold big_digits. destruct (N.eqb_spec (48 + d) 95); [lia|].
  replace ((48 <=? 48 + d) && (48 + d <=? 57)) with true by lia. f_equal. f_equal. lia.
Qed.

Lemma dec_spells_big : forall s n,
  dec_spells s n <-> dec_ok s /\ exists l, big_digits s = Some l /\ n = rval 10 l.
Proof.
  intros s n. split.
  - intros H. induction H as [d D|s n d H (O & l & E & ->) D|s n H (O & l & E & ->)].
    + split; [change (48 + d <> 95); lia|]. exists [d]. rewrite big_one by auto. auto.
    + split; [destruct s; [easy|exact O]|]. exists (l ++ [d]).
      rewrite big_digits_app, E, big_one, rval_snoc by auto. split; [reflexivity|lia].
    + split; [destruct s; [easy|exact O]|]. exists l.
      rewrite big_digits_app, E. change (big_digits [95]) with (Some (@nil N)). cbv iota beta. rewrite app_nil_r. auto.
  - revert n. induction s as [|c s IH] using rev_ind; intros n (O & l & E & ->); [easy|].
    rewrite big_digits_app in E. destruct (big_digits s) as [x|] eqn:ES; [|discriminate].
    assert (C : (c = 95 /\ l = x) \/ (exists d, d < 10 /\ c = 48 + d /\ l = x ++ [d])).
    { simpl in E. destruct (N.eqb_spec c 95) as [->|NE].
      - left. injection E as <-. rewrite app_nil_r. auto.
      - destruct ((48 <=? c) && (c <=? 57)) eqn:R; [|discriminate]. injection E as <-.
        right. exists (c - 48). repeat split; lia. }
    destruct s as [|c0 s0].
    + simpl in ES. injection ES as <-. simpl in O.
      destruct C as [[-> ->]|(d & Ld & -> & ->)]; [easy|]. simpl. rewrite rval_one. constructor. exact Ld.
    + assert (O' : dec_ok (c0 :: s0)) by exact O.
      assert (IHx : dec_spells (c0 :: s0) (rval 10 x)) by (apply IH; split; eauto).
      destruct C as [[-> ->]|(d & Ld & -> & ->)].
      * apply dec_sep. exact IHx.
      * rewrite rval_snoc, N.mul_comm. apply dec_snoc; auto.
Qed.

Lemma dec_first_digit : forall s n, dec_spells s n -> exists c r, s = c :: r /\ 48 <= c <= 57.
Proof.
  intros s n H. induction H as [d D|s n d H (c & r & -> & B) D|s n H (c & r & -> & B)].
  - exists (48 + d), []. split; auto. lia.
  - exists c, (r ++ [48 + d]). auto.
  - exists c, (r ++ [95]). auto.
Qed.

Lemma biguint_cases : forall s,
  (exists t, s = 43 :: t /\ (forall t', t <> 43 :: t') /\ strip_plus s = t) \/
  ((exists t', s = 43 :: 43 :: t') /\ strip_plus s = s) \/
  ((forall t, s <> 43 :: t) /\ strip_plus s = s).
Proof.
  intros s. destruct s as [|c s].
  - right. right. split; [discriminate|reflexivity].
  - unfold strip_plus. destruct (N.eqb_spec c 43) as [->|NE]; cbn [andb].
    + destruct s as [|c1 s].
      * left. exists []. split; [reflexivity|]. split; [discriminate|reflexivity].
      * destruct (N.eqb_spec c1 43) as [->|NE1]; cbn [negb].
        -- right. left. split; eauto.
        -- left. exists (c1 :: s). split; [reflexivity|]. split; [congruence|reflexivity].
    + right. right. split; [congruence|reflexivity].
Qed.

Lemma biguint_body : forall s n,
  (match s with
   | [] => None
   | c :: t => if c =? 95 then None
      else match big_digits (c :: t) with Some l => Some (rval 10 l) | None => None end
   end) = Some n
  <-> dec_spells s n.
Proof.
  intros s n. rewrite dec_spells_big.
  destruct s as [|c s]; [split; [discriminate|simpl; tauto]|].
  destruct (N.eqb_spec c 95) as [->|NE].
  - split; [discriminate|]. intros [O _]. simpl in O. congruence.
  - split.
    + intros H. split; [exact NE|].
      destruct (big_digits (c :: s)) as [l|]; [|discriminate].
      injection H as <-. eauto.
    + intros [_ (l & -> & ->)]. reflexivity.
Qed.

Lemma biguint_from_str_spec : forall s n,
  biguint_from_str s = Some n <->
  dec_spells s n \/ exists t, s = 43 :: t /\ dec_spells t n.
Proof.
  intros s n. unfold biguint_from_str. rewrite biguint_body.
  destruct (biguint_cases s) as [(t & -> & NP & ->)|[[(t' & ->) ->]|[NP ->]]].
  - split; [eauto|]. intros [H|(t' & E & H)].
    + apply dec_first_digit in H. destruct H as (c & r & E & B). injection E as E _. lia.
    + injection E as <-. exact H.
  - split; [auto|]. intros [H|(t & E & H)]; auto.
    injection E as <-. apply dec_first_digit in H. destruct H as (c & r & E & B). injection E as E _. lia.
  - split; [auto|]. intros [H|(t & -> & H)]; auto. exfalso. eapply NP. reflexivity.
Qed.

Lemma from_biguint_ok : forall n f, from_biguint n = Ok f <-> denotes f n.
Proof.
  intros n f. unfold from_biguint, biguint_to_bytes_be.
  destruct (min_digits_spec 256 n) as (V & D & NE & HD); [lia|].
  rewrite from_be_slice_ok by exact D. rewrite be_value_rval, V.
  split; [tauto|]. intros H. split; auto. pose proof H as ((_ & _ & B) & E). subst n.
  apply min_digits_length; [lia|]. eapply N.lt_trans; [exact B|]. apply P_lt_256_32.
Qed.

Lemma from_dec_ok : forall s f,
  from_dec_str s = Ok f <->
  (exists ds n, s = text "0x" ++ ds /\ (length ds <= 64)%nat /\ hex_spells ds n /\ denotes f n) \/
  (exists n, (dec_spells s n \/ exists t, s = text "+" ++ t /\ dec_spells t n) /\ denotes f n).
Proof.
  intros s f. rewrite <- from_hex_ok. unfold from_dec_str.
  assert (DEC : forall g n, from_hex_str s = Ok g ->
    (dec_spells s n \/ exists t, s = text "+" ++ t /\ dec_spells t n) -> False).
  { intros g n H X. apply from_hex_ok in H. destruct H as (ds & m & -> & _).
    destruct X as [X|(t & E & _)]; [|discriminate].
    apply dec_spells_big in X. destruct X as (_ & l & E & _). discriminate. }
  destruct (from_hex_str s) as [h|e] eqn:E.
  - split; [intros H; left; congruence|]. intros [H|(n & H & _)]; [congruence|].
    exfalso. eapply DEC; eauto.
  - split.
    + intros H. right. destruct (biguint_from_str s) as [b|] eqn:B; [|discriminate].
      destruct (from_biguint b) as [g|] eqn:G; [|discriminate]. injection H as <-.
      apply biguint_from_str_spec in B. apply from_biguint_ok in G. exists b. split; [exact B|exact G].
    + intros [H|(n & H & G)]; [discriminate|].
      apply biguint_from_str_spec in H. rewrite H. apply from_biguint_ok in G. rewrite G. reflexivity.
Qed.

Lemma dec_text_spells : forall f, dec_spells (to_dec_str f) (be_value f).
Proof.
  intros f. unfold to_dec_str. rewrite be_value_rval.
  destruct (min_digits_spec 10 (rval 256 f)) as (V & D & NE & _); [lia|].
  rewrite <- V at 2. revert NE D. generalize (min_digits 10 (rval 256 f)). intros l.
  induction l as [|d l IH] using rev_ind; intros NE D; [easy|].
  apply Forall_app in D. destruct D as [D1 D2]. inversion D2; subst.
  rewrite map_app, rval_snoc. cbn [map]. rewrite (N.add_comm d 48), N.mul_comm.
  destruct l as [|d0 l].
  - simpl app. rewrite rval_nil, N.mul_0_r, N.add_0_l. constructor. auto.
  - apply dec_snoc; auto. apply IH; auto. discriminate.
Qed.

Lemma dec_roundtrip : forall f, canonical f -> from_dec_str (to_dec_str f) = Ok f.
Proof.
  intros f C. apply from_dec_ok. right. exists (be_value f). split; [left; apply dec_text_spells|].
  split; auto.
Qed.
