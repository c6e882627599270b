From Coq Require Import List ZArith NArith Bool Lia Znumtheory.
From Verif Require Import Radix FeltModel FeltSpec FeltProof.
From Verif Require Import MontModel MontSpec MontProof MontOpsProof.
Import ListNotations.
Local Open Scope Z_scope.

Lemma of_bytes_limbs : forall bs, length bs = 32%nat -> is_bytes bs ->
  wf (limbs_of_be_bytes bs) /\ val (limbs_of_be_bytes bs) = Z.of_N (be_value bs).
Proof.
  intros bs L HB. rewrite be_value_rval, <- limbs_value by exact L.
  pose proof (limb_lt 0 bs L HB ltac:(lia)) as L0. pose proof (limb_lt 1 bs L HB ltac:(lia)) as L1.
  pose proof (limb_lt 2 bs L HB ltac:(lia)) as L2. pose proof (limb_lt 3 bs L HB ltac:(lia)) as L3.
  unfold limbs_of_be_bytes, u64_be.
  change (rval 256 (firstn 8 (skipn 24 bs))) with (limb 3 bs).
  change (rval 256 (firstn 8 (skipn 16 bs))) with (limb 2 bs).
  change (rval 256 (firstn 8 (skipn 8 bs))) with (limb 1 bs).
  change (rval 256 (firstn 8 bs)) with (limb 0 bs).
  unfold FeltModel.limbs. cbn [map].
  set (a0 := limb 0 bs) in *. set (a1 := limb 1 bs) in *. set (a2 := limb 2 bs) in *. set (a3 := limb 3 bs) in *.
  clearbody a0 a1 a2 a3. split.
  - unfold wf, inB. cbn [l0 l1 l2 l3]. rewrite B_eq. change (2 ^ 64) with (Z.of_N (2 ^ 64)%N). lia.
  - unfold val. cbn [l0 l1 l2 l3]. rewrite !rval_cons, rval_nil. cbn [length].
    rewrite B_eq. change (2 ^ 64) with (Z.of_N (2 ^ 64)%N).
    rewrite !N2Z.inj_add, !N2Z.inj_mul, !N2Z.inj_pow.
    change (Z.of_N (N.of_nat 3)) with 3. change (Z.of_N (N.of_nat 2)) with 2.
    change (Z.of_N (N.of_nat 1)) with 1. change (Z.of_N (N.of_nat 0)) with 0. change (Z.of_N 0) with 0.
    change (Z.of_N 2) with 2. change (Z.of_N 64) with 64.
    ring.
Qed.

Lemma be_u64_spec : forall x, inB x ->
  length (be_u64 x) = 8%nat /\ is_bytes (be_u64 x) /\ Z.of_N (rval 256 (be_u64 x)) = x.
Proof.
  intros x H. unfold be_u64. split; [apply rdigits_length|]. split; [apply rdigits_lt; reflexivity|].
  unfold inB in H. rewrite B_eq in H.
  rewrite rval_rdigits; [lia|reflexivity|]. change (256 ^ N.of_nat 8)%N with (2 ^ 64)%N.
  apply N2Z.inj_lt. rewrite Z2N.id by lia. change (Z.of_N (2 ^ 64)%N) with (2 ^ 64). lia.
Qed.

Lemma to_bytes_limbs : forall s, wf s ->
  let bs := be_u64 (l3 s) ++ be_u64 (l2 s) ++ be_u64 (l1 s) ++ be_u64 (l0 s) in
  length bs = 32%nat /\ is_bytes bs /\ Z.of_N (be_value bs) = val s.
Proof.
  intros s (H0 & H1 & H2 & H3). cbv zeta.
  destruct (be_u64_spec _ H0) as (L0 & B0 & V0). destruct (be_u64_spec _ H1) as (L1 & B1 & V1).
  destruct (be_u64_spec _ H2) as (L2 & B2 & V2). destruct (be_u64_spec _ H3) as (L3 & B3 & V3).
  split; [rewrite !app_length, L0, L1, L2, L3; reflexivity|].
  split; [unfold is_bytes in *; rewrite !Forall_app; auto|].
  rewrite be_value_rval, !rval_app, !app_length, L0, L1, L2.
  rewrite !N2Z.inj_add, !N2Z.inj_mul, V0, V1, V2, V3.
  change (Z.of_N (256 ^ N.of_nat (8 + (8 + 8)))) with (2 ^ 64 * 2 ^ 64 * 2 ^ 64).
  change (Z.of_N (256 ^ N.of_nat (8 + 8))) with (2 ^ 64 * 2 ^ 64).
  change (Z.of_N (256 ^ N.of_nat 8)) with (2 ^ 64).
  unfold val. rewrite B_eq. ring.
Qed.

Lemma from_bytes_rep : forall F p, is_field F p -> forall bs, length bs = 32%nat -> is_bytes bs ->
  represents p (mont_from_be_bytes F bs) (Z.of_N (be_value bs) mod p).
Proof.
  intros F p IF bs L HB. pose proof (is_field_facts F p IF) as FF.
  destruct (of_bytes_limbs bs L HB) as [W V]. unfold mont_from_be_bytes. rewrite <- V.
  apply (from_native_both F p FF). exact W.
Qed.

Lemma to_bytes_rep : forall F p, is_field F p -> forall a n, represents p a n ->
  length (mont_to_be_bytes F a) = 32%nat /\ is_bytes (mont_to_be_bytes F a) /\
  Z.of_N (be_value (mont_to_be_bytes F a)) = n.
Proof.
  intros F p IF a n H. pose proof (is_field_facts F p IF) as FF.
  destruct (to_native_both F p FF a n H) as [_ [W V]]. unfold mont_to_be_bytes.
  destruct (to_bytes_limbs _ W) as (L & HB & E). split; [exact L|]. split; [exact HB|].
  rewrite <- V. exact E.
Qed.

Lemma P_base : Z.of_N P = base_prime. Proof. vm_compute. reflexivity. Qed.

Lemma mont_of_felt_rep : forall f n, denotes f n -> represents base_prime (mont_of_felt f) (Z.of_N n).
Proof.
  intros f n ((L & HB & LT) & <-). unfold mont_of_felt.
  pose proof (from_bytes_rep base_field base_prime is_base f L HB) as H.
  rewrite Z.mod_small in H; [exact H|]. rewrite <- P_base. lia.
Qed.

Lemma felt_of_mont_rep : forall a n, represents base_prime a n ->
  exists f, felt_of_mont a = Some f /\ denotes f (Z.to_N n).
Proof.
  intros a n H. destruct (to_bytes_rep base_field base_prime is_base a n H) as (L & HB & E).
  assert (NR : 0 <= n < base_prime) by apply H.
  assert (D : denotes (mont_to_be_bytes base_field a) (Z.to_N n)).
  { split; [split; [exact L|split; [exact HB|]]|].
    - apply N2Z.inj_lt. rewrite E, P_base. lia.
    - rewrite <- E, N2Z.id. reflexivity. }
  exists (mont_to_be_bytes base_field a). split; [|exact D].
  unfold felt_of_mont.
  assert (O : from_be_bytes (mont_to_be_bytes base_field a) = Ok (mont_to_be_bytes base_field a)).
  { apply from_be_bytes_ok; auto. split; [reflexivity|]. apply D. }
  rewrite O. reflexivity.
Qed.
