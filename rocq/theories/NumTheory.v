(* Fermat's little theorem and Proth's primality criterion, over Z. *)
From Coq Require Import List ZArith Bool Lia Znumtheory Permutation Zpow_facts.
From Verif Require Import MontOpsProof.
Import ListNotations.
Local Open Scope Z_scope.

Lemma eqm_pow : forall p a b n, 0 <= n -> eqm p a b -> eqm p (a ^ n) (b ^ n).
Proof.
  intros p a b n Hn E. pattern n. apply natlike_ind; [apply eqm_refl| |exact Hn].
  intros x Hx IH. rewrite !Z.pow_succ_r by exact Hx. apply eqm_mul; assumption.
Qed.

Definition zprod (l : list Z) : Z := fold_right Z.mul 1 l.

Lemma zprod_perm : forall l l', Permutation l l' -> zprod l = zprod l'.
Proof. induction 1; simpl; try lia; congruence. Qed.

Lemma zprod_scale : forall q a l,
  eqm q (zprod (map (fun i => (a * i) mod q) l)) (a ^ Z.of_nat (length l) * zprod l) \/ q = 0.
Proof.
  intros q a l. destruct (Z.eq_dec q 0) as [|NZ]; [right; assumption|left].
  induction l as [|x l IH]; [exists 0; reflexivity|].
  cbn [map length zprod fold_right]. fold (zprod l).
  fold (zprod (map (fun i : Z => (a * i) mod q) l)).
  rewrite Nat2Z.inj_succ, Z.pow_succ_r by lia.
  eapply eqm_trans; [apply eqm_mul; [apply eqm_mod; exact NZ|exact IH]|].
  exists 0. ring.
Qed.

Lemma zprod_rel_prime : forall q l, Forall (fun i => rel_prime q i) l -> rel_prime q (zprod l).
Proof.
  induction 1; simpl; [apply rel_prime_sym, rel_prime_1|]. apply rel_prime_mult; assumption.
Qed.

Definition residues (q : Z) : list Z := map (fun i => Z.of_nat i) (seq 1 (Z.to_nat (q - 1))).

Lemma in_residues : forall q x, 1 < q -> (In x (residues q) <-> 1 <= x < q).
Proof.
  intros q x Hq. unfold residues. rewrite in_map_iff. split.
  - intros (i & <- & Hi). apply in_seq in Hi. lia.
  - intro H. exists (Z.to_nat x). split; [lia|]. apply in_seq. lia.
Qed.

Lemma nodup_map_inj : forall (f : Z -> Z) l, (forall x y, In x l -> In y l -> f x = f y -> x = y) ->
  NoDup l -> NoDup (map f l).
Proof.
  intros f l INJ. induction 1 as [|x l NI ND IH]; simpl; constructor.
  - intro H. apply in_map_iff in H. destruct H as (y & E & Hy). apply NI.
    rewrite (INJ x y); simpl; auto.
  - apply IH. intros a b Ha Hb. apply INJ; simpl; auto.
Qed.

Theorem fermat_little : forall q a, prime q -> ~ (q | a) -> eqm q (a ^ (q - 1)) 1.
Proof.
  intros q a PR ND. assert (Hq : 1 < q) by apply PR.
  assert (RA : rel_prime q a) by (apply prime_rel_prime; assumption).
  assert (PM : Permutation (map (fun i => (a * i) mod q) (residues q)) (residues q)).
  { assert (N1 : NoDup (residues q)).
    { unfold residues. apply FinFun.Injective_map_NoDup; [intros x y; lia|apply seq_NoDup]. }
    assert (N2 : NoDup (map (fun i => (a * i) mod q) (residues q))).
    { apply nodup_map_inj; [|exact N1]. intros x y Hx Hy E.
      apply in_residues in Hx; [|exact Hq]. apply in_residues in Hy; [|exact Hq].
      apply (eqm_small q); [lia|lia|]. apply (eqm_cancel q a); [exact RA|].
      rewrite (Z.mul_comm x), (Z.mul_comm y). apply eqm_iff; [lia|exact E]. }
    apply NoDup_Permutation_bis; [exact N2| |].
    - rewrite map_length. apply le_n.
    - intros y Hy. apply in_map_iff in Hy. destruct Hy as (x & <- & Hx).
      apply in_residues in Hx; [|exact Hq]. apply in_residues; [exact Hq|].
      pose proof (Z.mod_pos_bound (a * x) q ltac:(lia)).
      assert ((a * x) mod q <> 0); [|lia]. intro Z0. apply Z.mod_divide in Z0; [|lia].
      apply (Gauss q a x) in Z0; [|exact RA]. apply Z.divide_pos_le in Z0; lia. }
  assert (RP : rel_prime q (zprod (residues q))).
  { apply zprod_rel_prime. apply Forall_forall. intros x Hx. apply in_residues in Hx; [|exact Hq].
    apply rel_prime_sym. apply rel_prime_le_prime; [exact PR|lia]. }
  destruct (zprod_scale q a (residues q)) as [E|]; [|lia].
  rewrite (zprod_perm _ _ PM) in E.
  assert (LN : Z.of_nat (length (residues q)) = q - 1).
  { unfold residues. rewrite map_length, seq_length. lia. }
  rewrite LN in E. apply (eqm_cancel q (zprod (residues q))); [exact RP|].
  apply eqm_sym. rewrite Z.mul_1_l. exact E.
Qed.

Lemma prime_divisor : forall n, 1 < n -> exists q, prime q /\ (q | n).
Proof.
  assert (H : forall n, 0 <= n -> 1 < n -> exists q, prime q /\ (q | n)).
  { intros n N0. pattern n. apply Z_lt_induction; [|exact N0]. clear n N0.
    intros n IH Hn. destruct (prime_dec n) as [P|NP].
    - exists n. split; [exact P|apply Z.divide_refl].
    - destruct (not_prime_divide n Hn NP) as (m & Hm & D).
      destruct (IH m ltac:(lia) ltac:(lia)) as (q & PQ & DQ).
      exists q. split; [exact PQ|]. apply Z.divide_trans with m; assumption. }
  intros n Hn. apply H; lia.
Qed.

(* the powers of two dividing a number *)
Lemma two_adic : forall n, 0 < n -> exists j m, 0 <= j /\ n = 2 ^ j * m /\ Z.odd m = true /\ 0 < m.
Proof.
  assert (H : forall n, 0 <= n -> 0 < n -> exists j m, 0 <= j /\ n = 2 ^ j * m /\ Z.odd m = true /\ 0 < m).
  { intros n N0. pattern n. apply Z_lt_induction; [|exact N0]. clear n N0.
    intros n IH Hn. destruct (Z.odd n) eqn:O.
    - exists 0, n. rewrite Z.pow_0_r. split; [lia|]. split; [lia|]. split; [exact O|lia].
    - assert (E : n = 2 * (n / 2)).
      { apply Z.div_exact; [lia|]. rewrite Zmod_odd, O. reflexivity. }
      destruct (IH (n / 2) ltac:(lia) ltac:(lia)) as (j & m & Hj & Em & Om & Hm).
      exists (Z.succ j), m. rewrite Z.pow_succ_r by exact Hj. split; [lia|]. split; [lia|]. split; assumption. }
  intros n Hn. apply H; lia.
Qed.

Lemma eqm_divides : forall p q x y, (q | p) -> eqm p x y -> eqm q x y.
Proof. intros p q x y [k ->] [j ->]. exists (j * k). ring. Qed.

Lemma opp1_pow_odd : forall m, 0 <= m -> Z.odd m = true -> (-1) ^ m = -1.
Proof.
  intros m H O.
  destruct (Zodd_ex m) as [k E]. { apply Zodd_bool_iff. exact O. }
  rewrite E. rewrite Z.pow_add_r, Z.pow_mul_r by lia. change ((-1) ^ 2) with 1.
  rewrite Z.pow_1_l by lia. reflexivity.
Qed.

(* Proth: p = t 2^s + 1 with 2^s large and a^((p-1)/2) = -1 *)
Theorem proth : forall p t s a, 0 < s -> 0 < t -> p = t * 2 ^ s + 1 -> p < 2 ^ s * 2 ^ s ->
  eqm p (a ^ (t * 2 ^ (s - 1))) (-1) -> prime p.
Proof.
  intros p t s a Hs Ht Ep LT E.
  assert (P2 : 0 < 2 ^ s) by (apply Z.pow_pos_nonneg; lia).
  assert (P2' : 2 ^ s = 2 * 2 ^ (s - 1)).
  { replace s with (Z.succ (s - 1)) at 1 by lia. apply Z.pow_succ_r. lia. }
  assert (P3 : 0 < 2 ^ (s - 1)) by lia.
  assert (Hp : 1 < p) by nia.
  (* every prime divisor is larger than 2^s *)
  assert (BIG : forall q, prime q -> (q | p) -> 2 ^ s < q).
  { intros q PQ D. assert (Hq : 1 < q) by apply PQ.
    assert (Eq : eqm q (a ^ (t * 2 ^ (s - 1))) (-1)) by (apply (eqm_divides p); assumption).
    rewrite Z.pow_mul_r in Eq by lia. set (c := a ^ t) in *.
    assert (Q2 : q <> 2).
    { intros ->. destruct D as [k D]. assert (p mod 2 = 1).
      { rewrite Ep, P2'. replace (t * (2 * 2 ^ (s - 1)) + 1) with (1 + (t * 2 ^ (s - 1)) * 2) by ring.
        rewrite Z.mod_add by lia. reflexivity. }
      rewrite D, Z.mod_mul in H by lia. lia. }
    assert (NE : ~ eqm q 1 (-1)).
    { intros [k K]. assert (q | 2) by (exists k; lia). apply Z.divide_pos_le in H; lia. }
    assert (ND : ~ (q | c)).
    { intro DC. apply NE.
      assert (Z0 : eqm q (c ^ 2 ^ (s - 1)) 0).
      { apply eqm_divide. rewrite Z.sub_0_r. replace (2 ^ (s - 1)) with (Z.succ (2 ^ (s - 1) - 1)) by lia.
        rewrite Z.pow_succ_r by lia. apply Z.divide_mul_l. exact DC. }
      assert (M : eqm q 0 (-1)) by (eapply eqm_trans; [apply eqm_sym; exact Z0|exact Eq]).
      exfalso. destruct M as [k M]. assert (q | 1) by (exists k; lia). apply Z.divide_pos_le in H; lia. }
    pose proof (fermat_little q c PQ ND) as FL.
    destruct (two_adic (q - 1) ltac:(lia)) as (j & m & Hj & Em & Om & Hm).
    destruct (Z_lt_ge_dec j s) as [LJ|GE].
    - exfalso. apply NE.
      assert (A1 : eqm q (c ^ (2 ^ (s - 1) * m)) (-1)).
      { rewrite Z.pow_mul_r by lia. rewrite <- (opp1_pow_odd m) by (lia || assumption).
        apply eqm_pow; [lia|exact Eq]. }
      assert (A2 : eqm q (c ^ (2 ^ (s - 1) * m)) 1).
      { replace (2 ^ (s - 1) * m) with ((q - 1) * 2 ^ (s - 1 - j)).
        - rewrite Z.pow_mul_r by (try apply Z.pow_nonneg; lia).
          assert (K : 0 <= 2 ^ (s - 1 - j)) by (apply Z.pow_nonneg; lia).
          pose proof (eqm_pow q _ _ (2 ^ (s - 1 - j)) K FL) as EP.
          rewrite Z.pow_1_l in EP by exact K. exact EP.
        - rewrite Em. replace (2 ^ (s - 1)) with (2 ^ j * 2 ^ (s - 1 - j)); [ring|].
          rewrite <- Z.pow_add_r by lia. f_equal. lia. }
      eapply eqm_trans; [apply eqm_sym; exact A2|exact A1].
    - assert (2 ^ s <= 2 ^ j) by (apply Z.pow_le_mono_r; lia). nia. }
  destruct (prime_dec p) as [|NP]; [assumption|exfalso].
  destruct (not_prime_divide p Hp NP) as (n & Hn & [m D]).
  assert (1 < m) by nia.
  destruct (prime_divisor n ltac:(lia)) as (q1 & PQ1 & D1).
  destruct (prime_divisor m ltac:(lia)) as (q2 & PQ2 & D2).
  assert (L1 : 2 ^ s < q1) by (apply BIG; [exact PQ1|]; rewrite D; apply Z.divide_mul_r; exact D1).
  assert (L2 : 2 ^ s < q2) by (apply BIG; [exact PQ2|]; rewrite D; apply Z.divide_mul_l; exact D2).
  apply Z.divide_pos_le in D1; [|lia]. apply Z.divide_pos_le in D2; [|lia]. nia.
Qed.

(* square roots of one *)
Lemma sqrt_one : forall p x, prime p -> eqm p (x * x) 1 -> eqm p x 1 \/ eqm p x (-1).
Proof.
  intros p x PR E. apply eqm_divide in E. replace (x * x - 1) with ((x - 1) * (x - -1)) in E by ring.
  apply prime_mult in E; [|exact PR]. destruct E as [E|E]; [left|right]; apply eqm_divide; exact E.
Qed.

(* ---- Pocklington's criterion ---- *)

(* every prime divisor of N is 1 modulo r *)
Lemma pocklington_divisor : forall N r k a l, 1 < N -> prime r -> N - 1 = r * k -> 0 <= k ->
  eqm N (a ^ (N - 1)) 1 -> Z.gcd (a ^ k mod N - 1) N = 1 -> prime l -> (l | N) -> (r | l - 1).
Proof.
  intros N r k a l HN PR EN HK E1 GC PL DL. assert (HR : 1 < r) by apply PR. assert (HL : 1 < l) by apply PL.
  set (c := a ^ k) in *.
  assert (CR : eqm l (c ^ r) 1).
  { apply (eqm_divides N); [exact DL|]. unfold c. rewrite <- Z.pow_mul_r by lia.
    rewrite (Z.mul_comm k r), <- EN. exact E1. }
  assert (NC : ~ eqm l c 1).
  { intro C. assert (D : (l | Z.gcd (c mod N - 1) N)).
    { apply Z.gcd_greatest; [|exact DL]. apply eqm_divide.
      eapply eqm_trans; [|exact C]. apply (eqm_divides N); [exact DL|]. apply eqm_mod. lia. }
    rewrite GC in D. apply Z.divide_pos_le in D; lia. }
  assert (ND : ~ (l | c)).
  { intro D. assert (Z0 : eqm l (c ^ r) 0).
    { apply eqm_divide. rewrite Z.sub_0_r. replace r with (Z.succ (r - 1)) by lia.
      rewrite Z.pow_succ_r by lia. apply Z.divide_mul_l. exact D. }
    assert (M : eqm l 1 0) by (eapply eqm_trans; [apply eqm_sym; exact CR|exact Z0]).
    apply eqm_divide in M. apply Z.divide_pos_le in M; lia. }
  pose proof (fermat_little l c PL ND) as FL.
  destruct (Zdivide_dec r (l - 1)) as [D|D]; [exact D|exfalso]. apply NC.
  (* u r + v (l - 1) = 1 with natural exponents *)
  assert (RP : rel_prime r (l - 1)) by (apply prime_rel_prime; assumption).
  apply rel_prime_bezout in RP. destruct RP as [u v EB].
  (* c^(1 + m r (l-1) ...) : shift to non-negative exponents *)
  set (m := Z.abs u + Z.abs v).
  assert (M0 : 0 <= m) by (unfold m; clear; lia).
  set (x := u + m * (l - 1)). set (y := m * r - v).
  assert (MU : Z.abs u <= m) by (unfold m; clear; lia). assert (MV : Z.abs v <= m) by (unfold m; clear; lia).
  clearbody m.
  assert (ML : m <= m * (l - 1)) by (clear - M0 HL; nia).
  assert (MR : m <= m * r) by (clear - M0 HR; nia).
  assert (X0 : 0 <= x) by (unfold x; clear - ML MU; lia).
  assert (Y0 : 0 <= y) by (unfold y; clear - MR MV; lia).
  assert (EE : r * x = 1 + (l - 1) * y).
  { unfold x, y. transitivity ((u * r + v * (l - 1)) + (l - 1) * (m * r - v)); [ring|]. rewrite EB. reflexivity. }
  clearbody x y.
  assert (P1 : eqm l (c ^ (r * x)) 1).
  { rewrite Z.pow_mul_r by lia. pose proof (eqm_pow l _ _ x X0 CR) as H. rewrite Z.pow_1_l in H by exact X0. exact H. }
  assert (P2 : eqm l (c ^ ((l - 1) * y)) 1).
  { rewrite Z.pow_mul_r by lia. pose proof (eqm_pow l _ _ y Y0 FL) as H. rewrite Z.pow_1_l in H by exact Y0. exact H. }
  assert (LY : 0 <= (l - 1) * y) by (apply Z.mul_nonneg_nonneg; lia).
  rewrite EE, Z.pow_add_r, Z.pow_1_r in P1 by lia.
  eapply eqm_trans; [|exact P1]. rewrite <- (Z.mul_1_r c) at 1.
  apply eqm_mul; [apply eqm_refl|apply eqm_sym; exact P2].
Qed.

Lemma prime_by_divisors : forall N M, 1 < N -> N < M * M -> 0 < M ->
  (forall l, prime l -> (l | N) -> M < l) -> prime N.
Proof.
  intros N M HN LT HM BIG.
  destruct (prime_dec N) as [|NP]; [assumption|exfalso].
  destruct (not_prime_divide N HN NP) as (n & Hn & [m D]).
  assert (1 < m) by nia.
  destruct (prime_divisor n ltac:(lia)) as (q1 & PQ1 & D1).
  destruct (prime_divisor m ltac:(lia)) as (q2 & PQ2 & D2).
  assert (L1 : M < q1) by (apply BIG; [exact PQ1|]; rewrite D; apply Z.divide_mul_r; exact D1).
  assert (L2 : M < q2) by (apply BIG; [exact PQ2|]; rewrite D; apply Z.divide_mul_l; exact D2).
  apply Z.divide_pos_le in D1; [|lia]. apply Z.divide_pos_le in D2; [|lia]. nia.
Qed.

(* the computations the criterion needs *)
Definition pock_ok (N r a : Z) : bool :=
  (1 <? N) && (1 <? r) && ((N - 1) mod r =? 0) && (Zpow_mod a (N - 1) N =? 1)
  && (Z.gcd (Zpow_mod a ((N - 1) / r) N - 1) N =? 1).

Lemma pock_ok_divisor : forall N r a l, pock_ok N r a = true -> prime r -> prime l -> (l | N) -> (r | l - 1).
Proof.
  intros N r a l OK PR PL DL. unfold pock_ok in OK.
  rewrite !andb_true_iff, !Z.eqb_eq, !Z.ltb_lt in OK. destruct OK as ((((HN & HR) & DV) & E1) & GC).
  assert (EN : N - 1 = r * ((N - 1) / r)) by (apply Z.div_exact; lia).
  apply (pocklington_divisor N r ((N - 1) / r) a l); auto.
  - apply Z.div_pos; lia.
  - rewrite Zpow_mod_correct in E1 by lia. apply eqm_iff; [lia|]. rewrite E1. symmetry. apply Z.mod_small. lia.
  - rewrite Zpow_mod_correct in GC by lia. exact GC.
Qed.

Theorem pocklington1 : forall N r a, pock_ok N r a = true -> prime r -> N < r * r -> prime N.
Proof.
  intros N r a OK PR LT. assert (HR : 1 < r) by apply PR.
  assert (HN : 1 < N). { unfold pock_ok in OK. rewrite !andb_true_iff, !Z.ltb_lt in OK. tauto. }
  apply (prime_by_divisors N r); auto; [lia|].
  intros l PL DL. pose proof (pock_ok_divisor N r a l OK PR PL DL) as D.
  assert (1 < l) by apply PL. apply Z.divide_pos_le in D; lia.
Qed.

Theorem pocklington2 : forall N r s a b, pock_ok N r a = true -> pock_ok N s b = true ->
  prime r -> prime s -> r <> s -> N < (r * s) * (r * s) -> prime N.
Proof.
  intros N r s a b OK1 OK2 PR PS NE LT. assert (HR : 1 < r) by apply PR. assert (HS : 1 < s) by apply PS.
  assert (HN : 1 < N). { unfold pock_ok in OK1. rewrite !andb_true_iff, !Z.ltb_lt in OK1. tauto. }
  apply (prime_by_divisors N (r * s)); auto; [nia|].
  intros l PL DL. pose proof (pock_ok_divisor N r a l OK1 PR PL DL) as D1.
  pose proof (pock_ok_divisor N s b l OK2 PS PL DL) as D2.
  assert (1 < l) by apply PL.
  assert (D : (r * s | l - 1)).
  { destruct D1 as [x D1]. rewrite D1 in *.
    assert (DX : (s | x)).
    { rewrite Z.mul_comm in D2. apply (Gauss s r); [exact D2|].
      apply prime_rel_prime; [exact PS|]. intro DR. apply prime_div_prime in DR; auto. }
    destruct DX as [y ->]. exists y. ring. }
  apply Z.divide_pos_le in D; lia.
Qed.

(* trial division *)
Fixpoint no_divisor (n : Z) (fuel : nat) (d : Z) : bool :=
  match fuel with O => true | S f => negb (n mod d =? 0) && no_divisor n f (d + 1) end.

Lemma no_divisor_spec : forall n fuel d, 0 < d -> no_divisor n fuel d = true ->
  forall e, d <= e < d + Z.of_nat fuel -> ~ (e | n).
Proof.
  intros n. induction fuel as [|f IH]; intros d Hd H e He; [lia|]. cbn [no_divisor] in H.
  apply andb_true_iff in H. destruct H as [H1 H2]. destruct (Z.eq_dec e d) as [->|NE].
  - intro D. apply Z.mod_divide in D; [|lia]. rewrite D in H1. discriminate.
  - apply (IH (d + 1)); auto; lia.
Qed.

Theorem trial_division : forall n fuel, 1 < n -> no_divisor n fuel 2 = true ->
  n < (1 + Z.of_nat fuel) * (1 + Z.of_nat fuel) -> prime n.
Proof.
  intros n fuel Hn H LT. apply (prime_by_divisors n (1 + Z.of_nat fuel)); auto; [lia|].
  intros l PL DL. assert (1 < l) by apply PL.
  destruct (Z_lt_ge_dec (1 + Z.of_nat fuel) l); [assumption|exfalso].
  apply (no_divisor_spec n fuel 2 ltac:(lia) H l); [lia|exact DL].
Qed.
