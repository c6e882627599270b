(* C82: the Poseidon permutation and hashes. *)
From Coq Require Import List ZArith NArith Lia Bool.
From Verif Require Import MontModel MontSpec MontProof MontOpsProof MontPrimes MontProperties.
From Verif Require Import CurveModel CurveField CurvePoints CurveProof.
From Verif Require Import HashModel HashProperties PoseidonModel PoseidonSpec PoseidonProof.
Import ListNotations.
Local Open Scope Z_scope.

(* ---- what the theorems below are of: numbers that elements of the code stand for ---- *)
Example C82_example_states :
  represents3 (ZERO, ONE, TWO) (0, 1, 2) /\ residues (0, 1, 2) /\
  represents base_prime ONE 1 /\ Forall2 (represents base_prime) [ONE; TWO; ZERO] [1; 2; 0].
Proof.
  assert (A : represents base_prime ZERO 0) by (apply check_limbs_ok; reflexivity).
  assert (B : represents base_prime ONE 1) by (apply check_limbs_ok; reflexivity).
  assert (C : represents base_prime TWO 2) by (apply check_limbs_ok; reflexivity).
  split; [exact (conj A (conj B C))|]. split; [|split; [exact B|]].
  - cbn [residues]. assert (2 < base_prime) by reflexivity. lia.
  - do 3 (constructor; [assumption|]). constructor.
Qed.

(* the permutation of the all-zero state has the words permutation.rs:84-88 tests for *)
Example C82_example_zero :
  hades (0, 0, 0) =
    (0x79E8D1E78258000A28FC9D49E233BC6852357968577B1E386550ED6A9086133,
     0x3840D003D0F3F96DBB796FF6AA6A63BE5B5404B91CCAABCA256154CBB6FB984,
     0x1EB39DA3F7D3B04142D0AC83D9DA00C9325A61FB2EF326E50B70EAA8A3C7CC7).
Proof. vm_cast_no_check (eq_refl (hades (0, 0, 0))). Qed.
#[local] Opaque base_prime.

(* ---- C82_permutation: the round constants the code has, 107 where the published permutation
   has 273, never run out, and it gives the published permutation of every state. ---- *)
Theorem C82_permutation : forall t s, represents3 t s ->
  exists t', permute t = Ret t' /\ represents3 t' (hades s).
Proof. exact permute_represents. Qed.
Print Assumptions C82_permutation.

(* ---- C82_bijective: every state is what one state, and no other, is permuted to ---- *)
Theorem C82_bijective : forall s, residues s ->
  exists s0, residues s0 /\ hades s0 = s /\ forall s1, residues s1 -> hades s1 = s -> s1 = s0.
Proof.
  intros s R. destruct hades_bij as [g G]. exists (V (g (E s))). split; [apply V_residues|]. split.
  - rewrite <- (V_E (hades _) (hades_residues _)), E_hades, E_V, (proj2 (G _)). exact (V_E _ R).
  - intros s1 R1 <-. rewrite E_hades, (proj1 (G _)). symmetry. exact (V_E _ R1).
Qed.
Print Assumptions C82_bijective.

(* so two states the code permutes to one state stood for the same numbers *)
Theorem C82_no_merging : forall t1 t2 s1 s2 t', represents3 t1 s1 -> represents3 t2 s2 ->
  permute t1 = Ret t' -> permute t2 = Ret t' -> s1 = s2.
Proof.
  intros t1 t2 s1 s2 t' R1 R2 E1 E2.
  destruct (permute_represents _ _ R1) as (u1 & F1 & U1). destruct (permute_represents _ _ R2) as (u2 & F2 & U2).
  rewrite E1 in F1. rewrite E2 in F2. injection F1 as <-. injection F2 as <-.
  apply represents3_rep3 in R1, R2, U1, U2. destruct U1 as [Q1 U1], U2 as [Q2 U2].
  assert (EH : hades s1 = hades s2).
  { destruct t' as [[x y] z]. destruct (hades s1) as [[a1 b1] c1], (hades s2) as [[a2 b2] c2].
    destruct U1 as (A1 & B1 & C1), U2 as (A2 & B2 & C2), Q1 as (QA1 & QB1 & QC1), Q2 as (QA2 & QB2 & QC2).
    assert (K : forall x a b, 0 <= a < base_prime -> 0 <= b < base_prime -> rep x (el a) -> rep x (el b) -> a = b).
    { intros x0 a b HA HB HC HD. pose proof (rep_fun _ _ _ HC HD) as EQ. apply el_eq in EQ.
      rewrite !Z.mod_small in EQ by assumption. exact EQ. }
    rewrite (K _ _ _ QA1 QA2 A1 A2), (K _ _ _ QB1 QB2 B1 B2), (K _ _ _ QC1 QC2 C1 C2). reflexivity. }
  destruct (C82_bijective (hades s1) (hades_residues _)) as (s0 & _ & _ & U).
  rewrite (U s1 (proj1 R1) eq_refl). symmetry. apply U; [exact (proj1 R2)|]. symmetry. exact EH.
Qed.
Print Assumptions C82_no_merging.

(* ---- the hashes ---- *)
Lemma total_ok : forall t s, represents3 t s -> represents3 (permute_total t) (hades s).
Proof. intros t s R. destruct (permute_represents _ _ R) as (t' & E & R'). unfold permute_total. rewrite E. exact R'. Qed.
Lemma two_ok : represents base_prime TWO 2. Proof. exact (proj2 (proj2 (proj1 C82_example_states))). Qed.
Lemma one_ok : represents base_prime ONE 1. Proof. exact (proj1 (proj2 (proj1 C82_example_states))). Qed.
Lemma zero_ok : represents base_prime ZERO 0. Proof. exact (proj1 (proj1 C82_example_states)). Qed.
Lemma first_ok : forall t s, represents3 t s -> represents base_prime (HashModel.out limbs t) (first s).
Proof. intros [[x y] z] [[a b] c] R. exact (proj1 R). Qed.
Lemma add_ok : forall x y a b, represents base_prime x a -> represents base_prime y b ->
  represents base_prime (add base_field x y) ((a + b) mod base_prime).
Proof.
  intros x y a b A B. pose proof (rep_add _ _ _ _ (rep_val _ _ A) (rep_val _ _ B)) as R. rewrite <- el_add in R.
  unfold rep in R. rewrite val_el in R. exact R.
Qed.
Theorem C82_hash_two : forall x y a b, represents base_prime x a -> represents base_prime y b ->
  represents base_prime (mont_poseidon_hash x y) (hash_two a b).
Proof.
  intros x y a b A B. unfold mont_poseidon_hash, HashModel.poseidon_hash, hash_two.
  apply first_ok, total_ok. exact (conj A (conj B two_ok)).
Qed.
Print Assumptions C82_hash_two.

Lemma add_pair_ok : forall t s x y a b, represents3 t s -> represents base_prime x a -> represents base_prime y b ->
  represents3 (HashModel.add1 limbs (add base_field) (HashModel.add0 limbs (add base_field) t x) y) (add_pair s a b).
Proof.
  intros [[t0 t1] t2] [[s0 s1] s2] x y a b (R0 & R1 & R2) A B. cbn [HashModel.add1 HashModel.add0 add_pair represents3].
  split; [exact (add_ok _ _ _ _ R0 A)|]. split; [exact (add_ok _ _ _ _ R1 B)|exact R2].
Qed.
Lemma many_ok : forall msgs ns t s, Forall2 (represents base_prime) msgs ns -> represents3 t s ->
  represents base_prime
    (let '(s, r) := HashModel.absorb_chunks limbs (add base_field) permute_total t msgs in
     let s := match r with x :: _ => HashModel.add0 limbs (add base_field) s x | [] => s end in
     let s := match length r with O => HashModel.add0 limbs (add base_field) s ONE | _ => HashModel.add1 limbs (add base_field) s ONE end in
     HashModel.out limbs (permute_total s))
    (first (absorb hades s (ns ++ 1 :: if Nat.even (length ns) then [0] else []))).
Proof.
  intros msgs. induction msgs as [|x|x y l IH] using pair_induction; intros ns t s F R.
  - inversion F; subst. cbn [HashModel.absorb_chunks length app Nat.even absorb]. apply first_ok, total_ok.
    destruct t as [[t0 t1] t2], s as [[s0 s1] s2]. destruct R as (R0 & R1 & R2). cbn [HashModel.add0 add_pair represents3].
    split; [exact (add_ok _ _ _ _ R0 one_ok)|]. split; [|exact R2]. rewrite Z.add_0_r, Z.mod_small; [exact R1|].
    exact (proj1 (proj2 R1)).
  - inversion F as [|? a ? ? A F']; subst. inversion F'; subst. cbn [HashModel.absorb_chunks length app Nat.even absorb].
    apply first_ok, total_ok, add_pair_ok; [exact R|exact A|exact one_ok].
  - inversion F as [|? a ? ns' A F']; subst. inversion F' as [|? b ? ns'' B F'']; subst.
    rewrite absorb_chunks_step. cbn [length Nat.even app absorb]. apply IH; [exact F''|].
    apply total_ok, add_pair_ok; assumption.
Qed.
Theorem C82_hash_many : forall msgs ns, Forall2 (represents base_prime) msgs ns ->
  represents base_prime (mont_poseidon_hash_many msgs) (hash_list ns) /\
  represents base_prime (mont_poseidon_hasher msgs) (hash_list ns).
Proof.
  intros msgs ns F.
  assert (H : represents base_prime (mont_poseidon_hash_many msgs) (hash_list ns)).
  { unfold mont_poseidon_hash_many, HashModel.poseidon_hash_many, hash_list. apply many_ok; [exact F|].
    exact (conj zero_ok (conj zero_ok zero_ok)). }
  split; [exact H|].
  unfold mont_poseidon_hasher. rewrite (C06_incremental_is_one_shot limbs ZERO ONE (add base_field) permute_total). exact H.
Qed.
Print Assumptions C82_hash_many.
