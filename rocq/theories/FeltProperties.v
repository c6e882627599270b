(* C01-C03: textual, byte, bit and integer views of field elements. *)
From Coq Require Import List Arith NArith Lia ZifyBool ZifyNat ZifyN Bool.
From Verif Require Import Radix FeltModel FeltSpec FeltProof.
Import ListNotations.
Local Open Scope N_scope.

(* ---- C01 ---- *)

(* Accepted exactly: "0x" and at most 64 hex digits spelling a number below the
   modulus; the result is the felt of that number. *)
Theorem C01_hex_accepts : forall s f,
  from_hex_str s = Ok f <->
  exists ds n, s = text "0x" ++ ds /\ (length ds <= 64)%nat /\ hex_spells ds n /\ denotes f n.
Proof. exact from_hex_ok. Qed.
Print Assumptions C01_hex_accepts.

(* The number denoted is below the modulus, and only one felt denotes it. *)
Theorem C01_denotation : forall f n, denotes f n ->
  n < P /\ forall g, denotes g n -> g = f.
Proof.
  intros f n D. split; [destruct D as ((_ & _ & B) & <-); exact B|].
  intros g G. eapply denotes_inj; eauto.
Qed.
Print Assumptions C01_denotation.

(* Rejections, one by one. *)
Theorem C01_hex_rejects : forall s,
  ((forall ds, s <> text "0x" ++ ds) -> is_err (from_hex_str s)) /\
  (forall ds, s = text "0x" ++ ds ->
    ((64 < length ds)%nat -> is_err (from_hex_str s)) /\
    ((exists c, In c ds /\ forall d, ~ hex_digit c d) -> is_err (from_hex_str s)) /\
    (forall n, hex_spells ds n -> P <= n -> is_err (from_hex_str s))).
Proof.
  assert (R : forall s, (forall f, from_hex_str s <> Ok f) -> is_err (from_hex_str s)).
  { intros s H. destruct (from_hex_str s) as [f|e]; [destruct (H f eq_refl)|]. exists e. reflexivity. }
  assert (FUN : forall ds n m, hex_spells ds n -> hex_spells ds m -> n = m).
  { intros ds n m H1 H2. apply hex_spells_parse in H1. apply hex_spells_parse in H2.
    destruct H1 as (l1 & E1 & ->). destruct H2 as (l2 & E2 & ->). congruence. }
  intros s. split.
  - intros H. apply R. intros f X. apply from_hex_ok in X. destruct X as (ds & n & E & _).
    exact (H ds E).
  - intros ds ->. split; [|split].
    + intros L. apply R. intros f X. apply from_hex_ok in X. destruct X as (ds' & n & E & L' & _).
      apply app_inv_head in E. subst. lia.
    + intros (c & I & N). apply R. intros f X. apply from_hex_ok in X.
      destruct X as (ds' & n & E & _ & SP & _). apply app_inv_head in E. subst ds'.
      induction SP as [|s n c' d SP IH D]; [easy|].
      apply in_app_or in I. destruct I as [I|[->|[]]]; [auto|]. exact (N d D).
    + intros n SP B. apply R. intros f X. apply from_hex_ok in X.
      destruct X as (ds' & m & E & _ & SP' & D). apply app_inv_head in E. subst ds'.
      rewrite (FUN _ _ _ SP SP') in B. destruct D as ((_ & _ & V) & E). lia.
Qed.
Print Assumptions C01_hex_rejects.

(* Both printers give "0x" and the canonical digits of the value (lower case, no
   leading zero), whatever the scratch buffer contained. *)
Theorem C01_hex_prints : forall f, canonical f ->
  exists ds, to_hex_str f = text "0x" ++ ds /\
    (forall buf, (66 <= length buf)%nat -> as_hex_str f buf = Some (text "0x" ++ ds)) /\
    hex_spells ds (be_value f) /\
    (ds = text "0" \/ hd 0 ds <> hd 0 (text "0")) /\
    Forall (fun c => 48 <= c <= 57 \/ 97 <= c <= 102) ds.
Proof.
  intros f (L & D & V). exists (hex_text f).
  split; [apply to_hex_str_spec; auto|]. split; [intros; apply as_hex_str_spec; auto|].
  split; [apply hex_text_spells|].
  unfold hex_text. destruct (min_digits_spec 16 (be_value f)) as (_ & DG & NE & HD); [lia|].
  assert (LC : forall d, d < 16 -> (48 <= lut d <= 57 \/ 97 <= lut d <= 102) /\ (lut d = 48 -> d = 0)).
  { intros d B.
    assert (X : (((48 <=? lut d) && (lut d <=? 57) || (97 <=? lut d) && (lut d <=? 102))
                 && (negb (lut d =? 48) || (d =? 0))) = true).
    { apply (below_all (fun d => ((48 <=? lut d) && (lut d <=? 57) || (97 <=? lut d) && (lut d <=? 102))
                 && (negb (lut d =? 48) || (d =? 0))) 16); [vm_compute; reflexivity|exact B]. }
    lia. }
  split.
  - destruct (N.eq_dec (be_value f) 0) as [->|NZ]; [left; reflexivity|]. right.
    specialize (HD NZ). destruct (min_digits 16 (be_value f)) as [|d l]; [easy|].
    simpl in HD |- *. inversion DG as [|? ? B _]; subst. destruct (LC d B) as [_ X].
    change (hd 0 (text "0")) with 48. intros E. apply HD, X, E.
  - apply Forall_forall. intros c I. apply in_map_iff in I. destruct I as (d & <- & I).
    apply LC. unfold digits_lt in DG. rewrite Forall_forall in DG. auto.
Qed.
Print Assumptions C01_hex_prints.

Theorem C01_hex_roundtrip : forall f, canonical f ->
  from_hex_str (to_hex_str f) = Ok f /\
  from_hex_str (display f) = Ok f /\
  forall buf, (66 <= length buf)%nat ->
    exists s, as_hex_str f buf = Some s /\ from_hex_str s = Ok f.
Proof.
  intros f C. pose proof C as (L & D & V). rewrite to_hex_str_spec by auto.
  split; [apply hex_roundtrip, C|]. split; [apply display_roundtrip, C|].
  intros buf LB. eexists. split; [apply as_hex_str_spec; auto|]. apply hex_roundtrip, C.
Qed.
Print Assumptions C01_hex_roundtrip.

Definition ex_felt : felt := repeat 0 29 ++ [10; 188; 222].
Example C01_example_canonical : canonical ex_felt.
Proof.
  split; [reflexivity|]. split; [|vm_compute; reflexivity].
  unfold ex_felt, is_bytes. simpl. repeat constructor; vm_compute; reflexivity.
Qed.
Example C01_example :
  to_hex_str ex_felt = text "0xabcde" /\ from_hex_str (text "0xAbCdE") = Ok ex_felt /\
  from_hex_str (text "0x800000000000011000000000000000000000000000000000000000000000001")
    = Err HexOverflow /\
  is_ok (from_hex_str (text "0x800000000000011000000000000000000000000000000000000000000000000")) /\
  from_hex_str (text "abc") = Err MissingPrefix /\
  from_hex_str (text "0x1g") = Err (InvalidNibble 103).
Proof.
  repeat match goal with |- _ /\ _ => split end;
    try (eexists; vm_compute; reflexivity); vm_compute; reflexivity.
Qed.

(* ---- C02 ---- *)

(* Accepted exactly: hexadecimal text, or decimal digits (optionally after '+',
   with '_' separators) spelling a number below the modulus. *)
Theorem C02_dec_accepts : forall s f,
  from_dec_str s = Ok f <->
  (exists ds n, s = text "0x" ++ ds /\ (length ds <= 64)%nat /\ hex_spells ds n /\ denotes f n) \/
  (exists n, (dec_spells s n \/ exists t, s = text "+" ++ t /\ dec_spells t n) /\ denotes f n).
Proof. exact from_dec_ok. Qed.
Print Assumptions C02_dec_accepts.

Theorem C02_dec_roundtrip : forall f, canonical f ->
  from_dec_str (to_dec_str f) = Ok f /\ dec_spells (to_dec_str f) (be_value f).
Proof. intros f C. split; [apply dec_roundtrip, C|apply dec_text_spells]. Qed.
Print Assumptions C02_dec_roundtrip.

(* A decimal string at or above the modulus is rejected, however long. *)
Theorem C02_dec_overflow : forall s n, dec_spells s n -> P <= n -> is_err (from_dec_str s).
Proof.
  intros s n SP B.
  destruct (from_dec_str s) as [f|e] eqn:E; [|exists e; reflexivity].
  apply from_dec_ok in E. exfalso.
  assert (FUN : forall t a b, dec_spells t a -> dec_spells t b -> a = b).
  { intros t a b H1 H2. apply dec_spells_big in H1. apply dec_spells_big in H2.
    destruct H1 as (_ & l1 & E1 & ->). destruct H2 as (_ & l2 & E2 & ->). congruence. }
  destruct E as [(ds & m & -> & _)|(m & [H|(t & -> & H)] & ((_ & _ & V) & EV))].
  - apply dec_spells_big in SP. destruct SP as (_ & l & X & _). discriminate.
  - rewrite (FUN _ _ _ SP H) in B. lia.
  - apply dec_first_digit in SP. destruct SP as (c & r & X & R). injection X as X _. lia.
Qed.
Print Assumptions C02_dec_overflow.

Example C02_example :
  to_dec_str ex_felt = text "703710" /\ from_dec_str (text "703710") = Ok ex_felt /\
  from_dec_str (text "0xabcde") = Ok ex_felt /\
  from_dec_str (text "+7_03_710") = Ok ex_felt /\
  from_dec_str (text "12a") = Err ParseBigInt /\
  from_dec_str (text "3618502788666131213697322783095070105623107215331596699973092056135872020481")
   = Err DecOverflow.
Proof. repeat match goal with |- _ /\ _ => split end; vm_compute; reflexivity. Qed.

(* ---- C03 ---- *)

Theorem C03_slice : forall b f, is_bytes b ->
  (from_be_slice b = Ok f <-> (length b <= 32)%nat /\ denotes f (be_value b)).
Proof. exact from_be_slice_ok. Qed.
Print Assumptions C03_slice.

Theorem C03_bytes : forall b f, length b = 32%nat -> is_bytes b ->
  (from_be_bytes b = Ok f <-> f = b /\ be_value b < P).
Proof. exact from_be_bytes_ok. Qed.
Print Assumptions C03_bytes.

(* A slice is rejected exactly when it is too long or denotes too large a number. *)
Theorem C03_slice_rejects : forall b, is_bytes b ->
  (is_err (from_be_slice b) <-> (32 < length b)%nat \/ P <= be_value b).
Proof.
  intros b D. split.
  - intros [e H]. rewrite from_be_slice_spec in H by auto. rewrite be_value_rval.
    destruct (Nat.leb_spec (length b) 32); [|lia].
    destruct (N.ltb_spec (rval 256 b) P); [discriminate|]. right. lia.
  - intros H. destruct (from_be_slice b) as [f|e] eqn:E; [|exists e; reflexivity].
    apply from_be_slice_ok in E; auto. destruct E as (L & (_ & _ & V) & E). lia.
Qed.
Print Assumptions C03_slice_rejects.

Theorem C03_bits : forall bs f,
  from_bits bs = Ok f <-> (length bs <= 251)%nat /\ denotes f (bits_value bs).
Proof. exact from_bits_ok. Qed.
Print Assumptions C03_bits.

Theorem C03_path : forall f, canonical f ->
  length (view_bits f) = 251%nat /\
  bits_value (view_bits f) = be_value f mod 2 ^ 251 /\
  (be_value f < 2 ^ 251 -> from_bits (view_bits f) = Ok f).
Proof.
  intros f C. pose proof C as (L & D & V). destruct (view_bits_spec f L D) as [A B].
  split; [exact A|]. split; [exact B|]. apply bits_roundtrip_felt, C.
Qed.
Print Assumptions C03_path.

Theorem C03_path_of_bits : forall bs f, from_bits bs = Ok f ->
  view_bits f = repeat false (251 - length bs) ++ bs.
Proof. exact bits_roundtrip_bits. Qed.
Print Assumptions C03_path_of_bits.

Theorem C03_more_than_251_bits : forall f, canonical f ->
  (has_more_than_251_bits f = true <-> 2 ^ 251 <= be_value f).
Proof. intros f (L & D & _). rewrite has_more_spec by auto. apply N.leb_le. Qed.
Print Assumptions C03_more_than_251_bits.

(* From integers: never panics and preserves the value. *)
Theorem C03_from_integers : forall n,
  (n < 2 ^ 64 -> exists f, from_u64 n = Some f /\ denotes f n) /\
  (n < 2 ^ 128 -> exists f, from_u128 n = Some f /\ denotes f n).
Proof. intros n. split; intros H; apply from_uint_spec; auto; lia. Qed.
Print Assumptions C03_from_integers.

(* To integers: succeeds exactly when the value fits, and preserves it. *)
Theorem C03_to_integers : forall f n, canonical f ->
  (try_into_u64 f = Ok n <-> be_value f = n /\ n < 2 ^ 64) /\
  (try_into_u128 f = Ok n <-> be_value f = n /\ n < 2 ^ 128).
Proof.
  intros f n (L & D & _). unfold try_into_u64, try_into_u128. rewrite !try_into_spec by (auto; lia).
  change (256 ^ N.of_nat 8) with (2 ^ 64). change (256 ^ N.of_nat 16) with (2 ^ 128).
  split; [destruct (N.ltb_spec (be_value f) (2 ^ 64))|destruct (N.ltb_spec (be_value f) (2 ^ 128))];
    (split; [intros X; try discriminate; injection X as <-; auto|
             intros [X Y]; try congruence; lia]).
Qed.
Print Assumptions C03_to_integers.

Theorem C03_le_bytes : forall f, be_value (rev (to_le_bytes f)) = be_value f.
Proof. intros f. unfold to_le_bytes. rewrite rev_involutive. reflexivity. Qed.
Print Assumptions C03_le_bytes.

Example C03_example :
  from_be_slice [1; 0] = Ok (repeat 0 30 ++ [1; 0]) /\
  try_into_u64 (repeat 0 24 ++ [1] ++ repeat 0 7) = Ok 72057594037927936 /\
  try_into_u64 (repeat 0 23 ++ [1] ++ repeat 0 8) = Err OverflowError /\
  from_bits [true; false; true] = Ok (repeat 0 31 ++ [5]) /\
  has_more_than_251_bits ([8] ++ repeat 0 31) = true.
Proof. repeat match goal with |- _ /\ _ => split end; vm_compute; reflexivity. Qed.
