(* The order of the curve is prime, by a chain of Pocklington certificates. *)
From Coq Require Import ZArith Znumtheory Lia.
From Verif Require Import MontModel MontSpec MontProof MontOpsProof NumTheory MontRootProof.
Local Open Scope Z_scope.

Lemma prime_67 : prime 67. Proof. apply (trial_division 67 10); vm_compute; reflexivity. Qed.
Lemma prime_2887 : prime 2887. Proof. apply (trial_division 2887 60); vm_compute; reflexivity. Qed.
Lemma prime_565787 : prime 565787. Proof. apply (trial_division 565787 800); vm_compute; reflexivity. Qed.
Lemma prime_a : prime 11753132899.
Proof.
  apply (pocklington2 _ 2887 67 2 2); [vm_compute; reflexivity|vm_compute; reflexivity|exact prime_2887|exact prime_67|discriminate|reflexivity].
Qed.
Lemma prime_b : prime 12904939923103.
Proof. apply (pocklington1 _ 11753132899 2); [vm_compute; reflexivity|exact prime_a|reflexivity]. Qed.
Lemma prime_c : prime 1803099112058626586861.
Proof. apply (pocklington1 _ 12904939923103 2); [vm_compute; reflexivity|exact prime_b|reflexivity]. Qed.
Lemma prime_d : prime 28547348873.
Proof. apply (pocklington1 _ 565787 3); [vm_compute; reflexivity|exact prime_565787|reflexivity]. Qed.
Lemma prime_e : prime 5470365079085120887157193270902448565659295524958143968059153.
Proof.
  apply (pocklington2 _ 1803099112058626586861 28547348873 2 2);
    [vm_compute; reflexivity|vm_compute; reflexivity|exact prime_c|exact prime_d|discriminate|reflexivity].
Qed.
Theorem curve_order_prime : prime curve_order.
Proof.
  apply (pocklington1 _ 5470365079085120887157193270902448565659295524958143968059153 2);
    [vm_compute; reflexivity|exact prime_e|reflexivity].
Qed.

Lemma field_prime : forall F p, is_field F p -> prime p.
Proof. intros F p []; [exact base_prime_prime|exact curve_order_prime]. Qed.

Lemma field_inverse : forall F p, is_field F p -> forall fuel a n, (600 <= fuel)%nat ->
  represents p a n ->
  match inverse F fuel a with
  | Some (Some y) => n <> 0 /\ exists m, represents p y m /\ (n * m) mod p = 1
  | Some None => n = 0
  | None => False
  end.
Proof.
  intros F p IF fuel a n FU H. pose proof (is_field_facts F p IF) as FF.
  destruct (Z.eq_dec n 0) as [->|NZ].
  - unfold inverse. rewrite (is_zero_rep F p FF a 0 H). reflexivity.
  - destruct (inverse_spec F p IF fuel a n FU H) as (y & m & E & R & M).
    + apply Zgcd_1_rel_prime. apply rel_prime_le_prime; [exact (field_prime F p IF)|].
      assert (0 <= n < p) by apply H. lia.
    + rewrite E. split; [exact NZ|]. exists m. auto.
Qed.

Lemma curve_order_rep : represents base_prime CURVE_ORDER curve_order.
Proof.
  unfold represents, u64s, u64.
  repeat match goal with |- _ /\ _ => split end; vm_compute; try reflexivity; discriminate.
Qed.
