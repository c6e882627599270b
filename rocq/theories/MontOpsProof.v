From Coq Require Import List ZArith NArith Bool Lia Znumtheory.
From Verif Require Import MontModel MontSpec MontProof.
Local Open Scope Z_scope.

(* ---- congruence ---- *)
Definition eqm (p x y : Z) : Prop := exists k, x = y + k * p.

Lemma eqm_refl : forall p x, eqm p x x. Proof. intros. exists 0. ring. Qed.
Lemma eqm_sym : forall p x y, eqm p x y -> eqm p y x. Proof. intros p x y [k ->]. exists (- k). ring. Qed.
Lemma eqm_trans : forall p x y z, eqm p x y -> eqm p y z -> eqm p x z.
Proof. intros p x y z [k ->] [j ->]. exists (k + j). ring. Qed.
Lemma eqm_add : forall p a b c d, eqm p a b -> eqm p c d -> eqm p (a + c) (b + d).
Proof. intros p a b c d [k ->] [j ->]. exists (k + j). ring. Qed.
Lemma eqm_sub : forall p a b c d, eqm p a b -> eqm p c d -> eqm p (a - c) (b - d).
Proof. intros p a b c d [k ->] [j ->]. exists (k - j). ring. Qed.
Lemma eqm_mul : forall p a b c d, eqm p a b -> eqm p c d -> eqm p (a * c) (b * d).
Proof. intros p a b c d [k ->] [j ->]. exists (b * j + k * d + k * p * j). ring. Qed.
Lemma eqm_opp : forall p a b, eqm p a b -> eqm p (- a) (- b).
Proof. intros p a b [k ->]. exists (- k). ring. Qed.
Lemma eqm_mod : forall p x, p <> 0 -> eqm p (x mod p) x.
Proof. intros p x H. exists (- (x / p)). pose proof (Z.div_mod x p H). lia. Qed.
Lemma eqm_iff : forall p x y, p <> 0 -> (eqm p x y <-> x mod p = y mod p).
Proof.
  intros p x y H. split.
  - intros [k ->]. apply Z.mod_add. exact H.
  - intro E. eapply eqm_trans; [apply eqm_sym, eqm_mod; exact H|]. rewrite E. apply eqm_mod. exact H.
Qed.
Lemma eqm_divide : forall p x y, eqm p x y <-> (p | x - y).
Proof. intros p x y. split; intros [k E]; exists k; lia. Qed.
Lemma eqm_small : forall p x y, 0 <= x < p -> 0 <= y < p -> eqm p x y -> x = y.
Proof.
  intros p x y Hx Hy E. apply eqm_iff in E; [|lia].
  rewrite !Z.mod_small in E by assumption. exact E.
Qed.
Lemma eqm_cancel : forall p c x y, rel_prime p c -> eqm p (x * c) (y * c) -> eqm p x y.
Proof.
  intros p c x y R E. apply eqm_divide in E. apply eqm_divide.
  apply (Gauss p c); [|exact R]. replace (c * (x - y)) with (x * c - y * c) by ring. exact E.
Qed.

Lemma one_form : forall b, 1 * b * b = b * b. Proof. intros. ring. Qed.
Lemma mul_form : forall n m b, n * m * b * b = n * b * (m * b). Proof. intros. ring. Qed.

(* ---- the two fields ---- *)

Transparent B.
Lemma base_good : good base_field.
Proof. unfold good, wf, inB, B4. repeat split; vm_compute; congruence. Qed.
Lemma scalar_good : good scalar_field.
Proof. unfold good, wf, inB, B4. repeat split; vm_compute; congruence. Qed.
Lemma base_val : val (f_P base_field) = base_prime. Proof. vm_compute. reflexivity. Qed.
Lemma scalar_val : val (f_P scalar_field) = curve_order. Proof. vm_compute. reflexivity. Qed.
Lemma base_B4 : rel_prime base_prime B4. Proof. apply Zgcd_1_rel_prime. vm_compute. reflexivity. Qed.
Lemma scalar_B4 : rel_prime curve_order B4. Proof. apply Zgcd_1_rel_prime. vm_compute. reflexivity. Qed.
Lemma ONE_LIMBS_wf : wf ONE_LIMBS. Proof. unfold wf, inB. repeat split; vm_compute; congruence. Qed.
Lemma ZERO_wf : wf ZERO. Proof. unfold wf, inB. repeat split; vm_compute; congruence. Qed.
Lemma base_odd : Z.odd base_prime = true. Proof. vm_compute. reflexivity. Qed.
Lemma scalar_odd : Z.odd curve_order = true. Proof. vm_compute. reflexivity. Qed.
Lemma base_pos : 2 < base_prime. Proof. vm_compute. reflexivity. Qed.
Lemma scalar_pos : 2 < curve_order. Proof. vm_compute. reflexivity. Qed.
Opaque B.
Lemma ONE_LIMBS_val : val ONE_LIMBS = 1. Proof. unfold val. cbn [l0 l1 l2 l3 ONE_LIMBS]. ring. Qed.
Lemma ZERO_val : val ZERO = 0. Proof. unfold val. cbn [l0 l1 l2 l3 ZERO]. ring. Qed.

Record field_facts (F : field) (p : Z) : Prop := {
  ff_good : good F;
  ff_val : val (f_P F) = p;
  ff_B4 : rel_prime p B4;
  ff_odd : Z.odd p = true;
  ff_pos : 2 < p }.

Lemma is_field_facts : forall F p, is_field F p -> field_facts F p.
Proof.
  intros F p [].
  - exact (Build_field_facts _ _ base_good base_val base_B4 base_odd base_pos).
  - exact (Build_field_facts _ _ scalar_good scalar_val scalar_B4 scalar_odd scalar_pos).
Qed.

Section Ops.
Variable F : field.
Variable p : Z.
Hypothesis FF : field_facts F p.

Lemma represents_iff : forall a n,
  represents p a n <-> wf a /\ 0 <= n < p /\ 0 <= val a < p /\ eqm p (val a) (n * B4).
Proof.
  intros a n. pose proof (ff_pos _ _ FF). unfold represents. rewrite val_eq, wf_iff, <- B4_eq. split.
  - intros (W & N & E). split; [exact W|]. split; [exact N|]. rewrite E.
    split; [apply Z.mod_pos_bound; lia|apply eqm_mod; lia].
  - intros (W & N & V & E). split; [exact W|]. split; [exact N|].
    apply eqm_iff in E; [|lia]. rewrite Z.mod_small in E by exact V. exact E.
Qed.

Lemma represents_fun : forall a n m, represents p a n -> represents p a m -> n = m.
Proof.
  intros a n m H1 H2. apply represents_iff in H1. apply represents_iff in H2.
  destruct H1 as (_ & N1 & _ & E1). destruct H2 as (_ & N2 & _ & E2).
  apply (eqm_small p); auto. apply (eqm_cancel p B4); [exact (ff_B4 _ _ FF)|].
  eapply eqm_trans; [apply eqm_sym; exact E1|exact E2].
Qed.

Lemma represents_inj : forall a b n, represents p a n -> represents p b n -> a = b.
Proof.
  intros a b n (W1 & _ & E1) (W2 & _ & E2). apply wf_iff in W1. apply wf_iff in W2.
  apply val_inj; auto. rewrite <- (val_eq a), <- (val_eq b). rewrite E1. symmetry. exact E2.
Qed.

Lemma represents_redc : forall T v n, redc F T v -> eqm p T (n * B4 * B4) ->
  represents p v (n mod p).
Proof.
  intros T v n (W & V & E) ET. pose proof (ff_val _ _ FF) as FV. pose proof (ff_pos _ _ FF).
  rewrite FV in *. apply represents_iff. split; [exact W|].
  split; [apply Z.mod_pos_bound; lia|]. split; [exact V|].
  apply (eqm_cancel p B4); [exact (ff_B4 _ _ FF)|].
  apply eqm_trans with T; [apply eqm_iff; [lia|exact E]|].
  eapply eqm_trans; [exact ET|].
  apply eqm_mul; [|apply eqm_refl]. apply eqm_mul; [|apply eqm_refl]. apply eqm_sym, eqm_mod. lia.
Qed.

Lemma represents_val : forall v n x, wf v -> val v = x mod p -> eqm p x (n * B4) -> represents p v (n mod p).
Proof.
  intros v n x W V E. pose proof (ff_pos _ _ FF). apply represents_iff. split; [exact W|].
  split; [apply Z.mod_pos_bound; lia|]. rewrite V. split; [apply Z.mod_pos_bound; lia|].
  eapply eqm_trans; [apply eqm_mod; lia|]. eapply eqm_trans; [exact E|].
  apply eqm_mul; [|apply eqm_refl]. apply eqm_sym, eqm_mod. lia.
Qed.

Lemma add_rep : forall a b n m, represents p a n -> represents p b m ->
  represents p (add F a b) ((n + m) mod p) /\ represents p (const_add F a b) ((n + m) mod p).
Proof.
  intros a b n m Ha Hb. apply represents_iff in Ha. apply represents_iff in Hb.
  destruct Ha as (Wa & Na & Va & Ea). destruct Hb as (Wb & Nb & Vb & Eb).
  pose proof (ff_val _ _ FF) as FV.
  destruct (add_both F (ff_good _ _ FF) a b Wa Wb ltac:(lia) ltac:(lia)) as [[W1 E1] [W2 E2]]. rewrite FV in *.
  assert (X : eqm p (val a + val b) ((n + m) * B4)).
  { rewrite Z.mul_add_distr_r. apply eqm_add; assumption. }
  split; [exact (represents_val _ _ _ W1 E1 X)|exact (represents_val _ _ _ W2 E2 X)].
Qed.

Lemma sub_rep : forall a b n m, represents p a n -> represents p b m ->
  represents p (sub F a b) ((n - m) mod p) /\ represents p (const_sub F a b) ((n - m) mod p).
Proof.
  intros a b n m Ha Hb. apply represents_iff in Ha. apply represents_iff in Hb.
  destruct Ha as (Wa & Na & Va & Ea). destruct Hb as (Wb & Nb & Vb & Eb).
  pose proof (ff_val _ _ FF) as FV.
  destruct (sub_both F (ff_good _ _ FF) a b Wa Wb ltac:(lia) ltac:(lia)) as [[W1 E1] [W2 E2]]. rewrite FV in *.
  assert (X : eqm p (val a - val b) ((n - m) * B4)).
  { rewrite Z.mul_sub_distr_r. apply eqm_sub; assumption. }
  split; [exact (represents_val _ _ _ W1 E1 X)|exact (represents_val _ _ _ W2 E2 X)].
Qed.

Lemma neg_rep : forall a n, represents p a n ->
  represents p (neg F a) ((- n) mod p) /\ represents p (const_neg F a) ((- n) mod p).
Proof.
  intros a n Ha. apply represents_iff in Ha.
  destruct Ha as (Wa & Na & Va & Ea). pose proof (ff_val _ _ FF) as FV.
  destruct (neg_both F (ff_good _ _ FF) a Wa ltac:(lia)) as [[W1 E1] [W2 E2]]. rewrite FV in *.
  assert (X : eqm p (- val a) ((- n) * B4)).
  { rewrite Z.mul_opp_l. apply eqm_opp; assumption. }
  split; [exact (represents_val _ _ _ W1 E1 X)|exact (represents_val _ _ _ W2 E2 X)].
Qed.

Lemma mul_rep : forall a b n m, represents p a n -> represents p b m ->
  represents p (mul F a b) ((n * m) mod p) /\ represents p (const_mul F a b) ((n * m) mod p).
Proof.
  intros a b n m Ha Hb. apply represents_iff in Ha. apply represents_iff in Hb.
  destruct Ha as (Wa & Na & Va & Ea). destruct Hb as (Wb & Nb & Vb & Eb).
  pose proof (ff_val _ _ FF) as FV.
  destruct (mul_both F (ff_good _ _ FF) a b Wa Wb ltac:(left; lia)) as [R1 R2].
  assert (X : eqm p (val a * val b) (n * m * B4 * B4)).
  { rewrite (mul_form n m B4). apply eqm_mul; assumption. }
  split; [exact (represents_redc _ _ _ R1 X)|exact (represents_redc _ _ _ R2 X)].
Qed.

Lemma square_rep : forall a n, represents p a n ->
  represents p (square F a) ((n * n) mod p) /\ represents p (const_square F a) ((n * n) mod p).
Proof.
  intros a n Ha. apply represents_iff in Ha.
  destruct Ha as (Wa & Na & Va & Ea). pose proof (ff_val _ _ FF) as FV.
  destruct (square_both F (ff_good _ _ FF) a Wa ltac:(lia)) as [R1 R2].
  assert (X : eqm p (val a * val a) (n * n * B4 * B4)).
  { rewrite (mul_form n n B4). apply eqm_mul; assumption. }
  split; [exact (represents_redc _ _ _ R1 X)|exact (represents_redc _ _ _ R2 X)].
Qed.

(* ---- conversion to and from the plain number ---- *)

Lemma from_native_both : forall a, wf a ->
  represents p (mul F a (f_R2 F)) (val a mod p) /\ represents p (const_mul F a (f_R2 F)) (val a mod p).
Proof.
  intros a W. pose proof (ff_val _ _ FF) as FV. pose proof (ff_pos _ _ FF).
  destruct (ff_good _ _ FF) as (_ & _ & W2 & _ & _ & _ & R2 & _). rewrite FV in R2.
  assert (L : val (f_R2 F) < val (f_P F)) by (rewrite FV, R2; apply Z.mod_pos_bound; lia).
  destruct (mul_both F (ff_good _ _ FF) a (f_R2 F) W W2 (or_introl L)) as [X1 X2].
  assert (X : eqm p (val a * val (f_R2 F)) (val a * B4 * B4)).
  { rewrite R2, <- Z.mul_assoc. apply eqm_mul; [apply eqm_refl|apply eqm_mod; lia]. }
  split; [exact (represents_redc _ _ _ X1 X)|exact (represents_redc _ _ _ X2 X)].
Qed.

Lemma to_native_both : forall a n, represents p a n ->
  (wf (reduce_full F a) /\ val (reduce_full F a) = n) /\
  (wf (const_reduce_full F a) /\ val (const_reduce_full F a) = n).
Proof.
  intros a n Ha. apply represents_iff in Ha. destruct Ha as (Wa & Na & Va & Ea).
  pose proof (ff_val _ _ FF) as FV.
  destruct (reduce_full_both F (ff_good _ _ FF) a Wa) as [(W1 & V1 & E1) (W2 & V2 & E2)].
  rewrite FV in *.
  assert (X : forall v, 0 <= val v < p -> (val v * B4) mod p = val a mod p -> val v = n).
  { intros v V E. apply (eqm_small p); auto. apply (eqm_cancel p B4); [exact (ff_B4 _ _ FF)|].
    eapply eqm_trans; [|exact Ea]. apply eqm_iff; [lia|exact E]. }
  split; split; auto.
Qed.

Lemma represents_one : represents p (f_R F) 1.
Proof.
  destruct (ff_good _ _ FF) as (_ & W & _ & _ & _ & R & _). rewrite (ff_val _ _ FF) in R.
  pose proof (ff_pos _ _ FF). unfold represents.
  rewrite wf_iff, val_eq, R, <- B4_eq, Z.mul_1_l. split; [exact W|]. split; [lia|reflexivity].
Qed.

Lemma represents_zero : represents p ZERO 0.
Proof.
  pose proof (ff_pos _ _ FF). unfold represents. rewrite wf_iff, val_eq, ZERO_val.
  split; [exact ZERO_wf|]. split; [lia|]. rewrite Z.mul_0_l. symmetry. apply Z.mod_0_l. lia.
Qed.

Lemma is_zero_rep : forall a n, represents p a n -> is_zero a = (n =? 0).
Proof.
  intros a n H. destruct (is_zero a) eqn:E; symmetry.
  - apply Z.eqb_eq. apply (represents_fun a n 0 H).
    assert (a = ZERO) as ->; [|apply represents_zero].
    destruct H as (W & _ & _). apply wf_iff in W. rewrite is_zero_spec in E by exact W.
    apply Z.eqb_eq in E. apply val_inj; [exact W|exact ZERO_wf|]. rewrite ZERO_val. exact E.
  - apply Z.eqb_neq. intros ->. rewrite (represents_inj _ _ _ H represents_zero) in E. discriminate.
Qed.

Lemma is_one_rep : forall a n, represents p a n -> is_one F a = (n =? 1).
Proof.
  intros a n H. unfold is_one. destruct (limbs_eqb a (f_R F)) eqn:E; symmetry.
  - apply limbs_eqb_spec in E. subst a. apply Z.eqb_eq. exact (represents_fun _ _ _ H represents_one).
  - apply Z.eqb_neq. intros ->. rewrite (represents_inj _ _ _ H represents_one) in E.
    assert (limbs_eqb (f_R F) (f_R F) = true) by (apply limbs_eqb_spec; reflexivity). congruence.
Qed.

Lemma cmp_native_rep : forall a b n m, represents p a n -> represents p b m -> cmp_native F a b = (n ?= m).
Proof.
  intros a b n m Ha Hb. unfold cmp_native.
  destruct (to_native_both a n Ha) as [_ [W1 E1]]. destruct (to_native_both b m Hb) as [_ [W2 E2]].
  rewrite const_cmp_spec by assumption. rewrite E1, E2. reflexivity.
Qed.

(* ---- halving ---- *)

Lemma half_limb : forall x y, inB x -> inB y ->
  inB (Z.lor (shr x 1) (shl y 63)) /\ 2 * Z.lor (shr x 1) (shl y 63) = x - x mod 2 + B * (y mod 2).
Proof.
  unfold inB, shr, shl. intros x y Hx Hy.
  rewrite Z.shiftr_div_pow2, Z.shiftl_mul_pow2 by lia. change (2 ^ 1) with 2.
  assert (QB : B = 2 * 2 ^ 63) by (rewrite B_eq; reflexivity).
  pose proof (mod_div_spec x 2 ltac:(lia)) as [X1 X2]. pose proof (mod_div_spec y 2 ltac:(lia)) as [Y1 Y2].
  set (x2 := x / 2) in *. set (xm := x mod 2) in *. set (y2 := y / 2) in *. set (ym := y mod 2) in *.
  assert (M : (y * 2 ^ 63) mod B = 2 ^ 63 * ym).
  { destruct (mod_of_range (y * 2 ^ 63) y2) as [M _]; [rewrite QB; lia|]. rewrite M, QB. lia. }
  rewrite M.
  assert (D : Z.land x2 (2 ^ 63 * ym) = 0).
  { apply Z.bits_inj'. intros n Hn. rewrite Z.land_spec, Z.bits_0.
    destruct (Z_lt_ge_dec n 63).
    - rewrite (Z.mul_comm (2 ^ 63)), Z.mul_pow2_bits_low by lia. apply andb_false_r.
    - assert (Z.testbit x2 n = false) as ->; [|reflexivity].
      destruct (Z.eq_dec x2 0) as [->|NZ]; [apply Z.bits_0|].
      apply Z.bits_above_log2; [lia|]. apply Z.log2_lt_pow2; [lia|].
      assert (2 ^ 63 <= 2 ^ n) by (apply Z.pow_le_mono_r; lia). lia. }
  rewrite <- Z.lxor_lor by exact D. rewrite <- Z.add_nocarry_lxor by exact D.
  rewrite QB in *. lia.
Qed.

Lemma top_limb : forall x, inB x -> inB (shr x 1) /\ 2 * shr x 1 = x - x mod 2.
Proof.
  unfold inB, shr. intros x Hx. rewrite Z.shiftr_div_pow2 by lia. change (2 ^ 1) with 2.
  pose proof (mod_div_spec x 2 ltac:(lia)) as [X1 X2]. lia.
Qed.

Lemma val_mod2 : forall a, val a mod 2 = l0 a mod 2.
Proof.
  intro a. unfold val. assert (QB : B = 2 * 2 ^ 63) by (rewrite B_eq; reflexivity).
  replace (l0 a + B * l1 a + B * B * l2 a + B * B * B * l3 a)
    with (l0 a + (2 ^ 63 * l1 a + 2 ^ 63 * B * l2 a + 2 ^ 63 * B * B * l3 a) * 2)
    by (rewrite QB; ring).
  apply Z.mod_add. lia.
Qed.

Lemma div2_spec : forall a, wf a -> wf (div2 a) /\ 2 * val (div2 a) = val a - val a mod 2.
Proof.
  intros a (A0 & A1 & A2 & A3). unfold div2.
  destruct (half_limb _ _ A0 A1) as [I0 E0]. destruct (half_limb _ _ A1 A2) as [I1 E1].
  destruct (half_limb _ _ A2 A3) as [I2 E2]. destruct (top_limb _ A3) as [I3 E3].
  split; [unfold wf; cbn [l0 l1 l2 l3]; auto|].
  rewrite val_mod2. unfold val. cbn [l0 l1 l2 l3].
  match goal with |- 2 * (?x0 + B * ?x1 + B * B * ?x2 + B * B * B * ?x3) = _ =>
    transitivity (2 * x0 + B * (2 * x1) + B * B * (2 * x2) + B * B * B * (2 * x3)); [ring|] end.
  rewrite E0, E1, E2, E3. ring.
Qed.

Lemma is_even_spec : forall a, wf a -> is_even a = (val a mod 2 =? 0).
Proof.
  intros a _. unfold is_even. rewrite val_mod2. change 1 with (Z.ones 1). rewrite Z.land_ones by lia.
  reflexivity.
Qed.

(* ---- the inverse ---- *)

Lemma add_noreduce_spec : forall a, wf a -> val a < p ->
  wf (add_noreduce a (f_P F)) /\ val (add_noreduce a (f_P F)) = val a + p.
Proof.
  intros a W L. destruct (ff_good _ _ FF) as (WP & _ & _ & _ & P2 & _). rewrite (ff_val _ _ FF) in P2.
  unfold add_noreduce. rewrite <- (ff_val _ _ FF).
  apply (add_loop _ adc_adder); auto. rewrite (ff_val _ _ FF). lia.
Qed.

Lemma p_mod2 : p mod 2 = 1.
Proof. pose proof (ff_odd _ _ FF) as O. rewrite Zmod_odd, O. reflexivity. Qed.

(* one halving of the coefficient: b' with 2b' = b modulo p *)
Lemma halve_coeff : forall b, wf b -> val b < p ->
  let b' := if is_even b then div2 b else div2 (add_noreduce b (f_P F)) in
  wf b' /\ 0 <= val b' < p /\ eqm p (2 * val b') (val b).
Proof.
  intros b W L. cbv zeta. rewrite is_even_spec by exact W. pose proof (val_range _ W).
  destruct (Z.eqb_spec (val b mod 2) 0) as [E|E].
  - destruct (div2_spec b W) as [W' V]. split; [exact W'|]. rewrite E in V.
    split; [lia|]. exists 0. lia.
  - destruct (add_noreduce_spec b W L) as [W1 V1]. destruct (div2_spec _ W1) as [W' V].
    split; [exact W'|]. rewrite V1 in V.
    assert (M : (val b + p) mod 2 = 0).
    { rewrite Z.add_mod, p_mod2 by lia. pose proof (Z.mod_pos_bound (val b) 2 ltac:(lia)).
      assert (val b mod 2 = 1) as -> by lia. reflexivity. }
    rewrite M in V. split; [lia|]. exists 1. lia.
Qed.

Variable X : Z. (* the number being inverted *)
Variable R2 : Z. (* the initial coefficient *)

(* x * b = u * R2 modulo p *)
Definition tracks (u b : limbs) : Prop :=
  wf u /\ wf b /\ 0 < val u /\ 0 <= val b < p /\ eqm p (X * val b) (val u * R2).

Lemma rel_prime_2 : rel_prime p 2.
Proof.
  apply rel_prime_sym.
  apply bezout_rel_prime. exists (- (p / 2)) 1. pose proof (mod_div_spec p 2 ltac:(lia)) as [_ H].
  rewrite p_mod2 in H. lia.
Qed.

Lemma tracks_halve : forall u b, tracks u b -> val u mod 2 = 0 ->
  let b' := if is_even b then div2 b else div2 (add_noreduce b (f_P F)) in
  tracks (div2 u) b' /\ 2 * val (div2 u) = val u.
Proof.
  intros u b (Wu & Wb & U & V & E) M. cbv zeta.
  destruct (div2_spec u Wu) as [Wu' Vu]. rewrite M in Vu.
  destruct (halve_coeff b Wb ltac:(lia)) as (Wb' & Vb' & Eb').
  split; [|lia]. unfold tracks. split; [exact Wu'|]. split; [exact Wb'|]. split; [lia|]. split; [exact Vb'|].
  apply (eqm_cancel p 2); [exact rel_prime_2|].
  replace (val (div2 u) * R2 * 2) with (val u * R2) by (rewrite <- (Z.sub_0_r (val u)), <- Vu; ring).
  eapply eqm_trans; [|exact E].
  match goal with |- eqm p (X * ?b' * 2) _ => replace (X * b' * 2) with (X * (2 * b')) by ring end.
  apply eqm_mul; [apply eqm_refl|exact Eb'].
Qed.

Lemma log2_halve : forall x, 0 < x -> Z.log2 (2 * x) = Z.log2 x + 1.
Proof. intros x H. rewrite Z.log2_double by exact H. lia. Qed.

Lemma gcd_halve : forall x y, Z.gcd y (2 * x) = 1 -> Z.gcd y x = 1.
Proof.
  intros x y H. apply Zgcd_1_rel_prime in H. apply Zgcd_1_rel_prime.
  apply rel_prime_sym. apply rel_prime_sym in H. apply (rel_prime_div (2 * x)); [exact H|].
  exists 2. ring.
Qed.

Lemma halve_loop_spec : forall fuel u b, tracks u b -> Z.log2 (val u) < Z.of_nat fuel ->
  exists u' b', halve_loop F fuel u b = Some (u', b') /\ tracks u' b' /\ val u' mod 2 = 1 /\
    Z.log2 (val u') + (if val u mod 2 =? 0 then 1 else 0) <= Z.log2 (val u) /\
    (forall y, Z.gcd y (val u) = 1 -> Z.gcd y (val u') = 1).
Proof.
  induction fuel as [|fuel IH]; intros u b T LT.
  { exfalso. pose proof (Z.log2_nonneg (val u)). lia. }
  cbn [halve_loop]. rewrite is_even_spec by apply T.
  destruct (Z.eqb_spec (val u mod 2) 0) as [M|M].
  - destruct (tracks_halve u b T M) as [T' V]. assert (U : 0 < val u) by apply T.
    assert (LG : Z.log2 (val u) = Z.log2 (val (div2 u)) + 1) by (rewrite <- V; apply log2_halve; lia).
    destruct (IH _ _ T') as (u' & b' & E & T'' & O & LE & GC); [lia|].
    exists u', b'. split; [exact E|]. split; [exact T''|]. split; [exact O|]. split.
    + destruct (val (div2 u) mod 2 =? 0); lia.
    + intros y Hy. apply GC. apply gcd_halve. rewrite V. exact Hy.
  - exists u, b. split; [reflexivity|]. split; [exact T|].
    pose proof (Z.mod_pos_bound (val u) 2 ltac:(lia)). split; [lia|]. split; [lia|auto].
Qed.

Lemma tracks_sub : forall u b v c, tracks u b -> tracks v c -> val v < val u ->
  tracks (sub_noreduce u v) (const_sub F b c) /\ val (sub_noreduce u v) = val u - val v.
Proof.
  intros u b v c (Wu & Wb & U & Vb & E) (Wv & Wc & V & Vc & E') LT.
  destruct (sub_loop _ sbb_subber u v Wu Wv ltac:(lia)) as [W S].
  fold (sub_noreduce u v) in W, S. split; [|exact S].
  destruct (sub_both F (ff_good _ _ FF) b c Wb Wc) as [_ [W2 E2]];
    [rewrite (ff_val _ _ FF); lia|rewrite (ff_val _ _ FF); lia|]. rewrite (ff_val _ _ FF) in E2.
  pose proof (ff_pos _ _ FF).
  unfold tracks. split; [exact W|]. split; [exact W2|]. split; [lia|]. rewrite E2.
  split; [apply Z.mod_pos_bound; lia|].
  eapply eqm_trans; [apply eqm_mul; [apply eqm_refl|apply eqm_mod; lia]|].
  rewrite S, Z.mul_sub_distr_l, Z.mul_sub_distr_r. apply eqm_sub; assumption.
Qed.

Lemma gcd_sub : forall x y, Z.gcd x y = 1 -> Z.gcd (x - y) y = 1.
Proof. intros x y H. rewrite Z.gcd_comm, Z.gcd_sub_diag_r, Z.gcd_comm. exact H. Qed.

Lemma log2_sub_le : forall x y, 0 < y -> y < x -> Z.log2 (x - y) <= Z.log2 x.
Proof. intros. apply Z.log2_le_mono. lia. Qed.

Lemma limbs_eqb_one : forall u, wf u -> limbs_eqb u ONE_LIMBS = (val u =? 1).
Proof.
  intros u W. destruct (limbs_eqb u ONE_LIMBS) eqn:E; symmetry.
  - apply limbs_eqb_spec in E. subst u. rewrite ONE_LIMBS_val. reflexivity.
  - apply Z.eqb_neq. intro V. rewrite <- ONE_LIMBS_val in V. apply val_inj in V; [|exact W|exact ONE_LIMBS_wf].
    subst u. assert (limbs_eqb ONE_LIMBS ONE_LIMBS = true) by (apply limbs_eqb_spec; reflexivity). congruence.
Qed.

Lemma inverse_loop_spec : forall fuel u v b c, tracks u b -> tracks v c -> Z.gcd (val u) (val v) = 1 ->
  Z.log2 (val u) + Z.log2 (val v)
    + (if (val u mod 2 =? 0) || (val v mod 2 =? 0) then 0 else 1) < Z.of_nat fuel - 1 ->
  exists y, inverse_loop F fuel u v b c = Some y /\ wf y /\ 0 <= val y < p /\ eqm p (X * val y) R2.
Proof.
  induction fuel as [|fuel IH]; intros u v b c Tu Tv GC LT.
  { exfalso. pose proof (Z.log2_nonneg (val u)). pose proof (Z.log2_nonneg (val v)).
    destruct (_ || _); lia. }
  cbn [inverse_loop]. rewrite !limbs_eqb_one by (apply Tu || apply Tv).
  destruct (Z.eqb_spec (val u) 1) as [U1|U1]; cbn [negb andb].
  { exists b. destruct Tu as (Wu & Wb & _ & V & E). rewrite U1, Z.mul_1_l in E. auto. }
  destruct (Z.eqb_spec (val v) 1) as [V1|V1]; cbn [negb andb].
  { exists c. destruct Tv as (Wv & Wc & _ & V & E). rewrite V1, Z.mul_1_l in E. auto. }
  pose proof (Z.log2_nonneg (val u)) as LU. pose proof (Z.log2_nonneg (val v)) as LV.
  destruct (halve_loop_spec fuel u b Tu) as (u' & b' & E1 & Tu' & Ou & LEu & Gu); [destruct (_ || _); lia|].
  destruct (halve_loop_spec fuel v c Tv) as (v' & c' & E2 & Tv' & Ov & LEv & Gv); [destruct (_ || _); lia|].
  rewrite E1, E2. rewrite const_lt_spec by (apply Tu' || apply Tv').
  assert (GC' : Z.gcd (val u') (val v') = 1).
  { apply Gv. rewrite Z.gcd_comm. apply Gu. rewrite Z.gcd_comm. exact GC. }
  assert (PU : 0 < val u') by apply Tu'. assert (PV : 0 < val v') by apply Tv'.
  assert (DEC : Z.log2 (val u') + Z.log2 (val v') < Z.of_nat fuel - 1).
  { destruct (Z.eqb_spec (val u mod 2) 0), (Z.eqb_spec (val v mod 2) 0); cbn [orb] in LT; lia. }
  assert (EVEN : forall x y, x mod 2 = 1 -> y mod 2 = 1 -> (x - y) mod 2 = 0).
  { intros x y Hx Hy. rewrite Zminus_mod, Hx, Hy. reflexivity. }
  destruct (Z.ltb_spec (val v') (val u')) as [C|C].
  - destruct (tracks_sub u' b' v' c' Tu' Tv' C) as [T S].
    apply IH; auto.
    + rewrite S. apply gcd_sub. exact GC'.
    + rewrite S, EVEN by assumption. cbn [Z.eqb orb].
      pose proof (log2_sub_le (val u') (val v') PV C). lia.
  - destruct (Z.eq_dec (val u') (val v')) as [EQ|NE].
    + (* both are one: the loop ends in the next round *)
      rewrite <- EQ in GC'. rewrite Z.gcd_diag, Z.abs_eq in GC' by lia.
      destruct fuel as [|fuel]; [exfalso; pose proof (Z.log2_nonneg (val u')); pose proof (Z.log2_nonneg (val v')); lia|].
      cbn [inverse_loop]. rewrite (limbs_eqb_one u') by apply Tu'. rewrite GC'. cbn [Z.eqb negb andb].
      exists b'. destruct Tu' as (Wu & Wb & _ & V & E). rewrite GC', Z.mul_1_l in E. auto.
    + destruct (tracks_sub v' c' u' b' Tv' Tu' ltac:(lia)) as [T S].
      apply IH; auto.
      * rewrite S, Z.gcd_comm. apply gcd_sub. rewrite Z.gcd_comm. exact GC'.
      * rewrite S, (EVEN (val v') (val u')) by assumption. rewrite orb_true_r.
        pose proof (log2_sub_le (val v') (val u') PU ltac:(lia)). lia.
Qed.
End Ops.

Lemma inverse_spec : forall F p, is_field F p -> forall fuel a n, (600 <= fuel)%nat ->
  represents p a n -> Z.gcd n p = 1 ->
  exists y m, inverse F fuel a = Some (Some y) /\ represents p y m /\ (n * m) mod p = 1.
Proof.
  intros F p IF fuel a n FU H GC. pose proof (is_field_facts F p IF) as FF.
  pose proof (ff_pos _ _ FF) as PP.
  assert (NZ : n <> 0).
  { intros ->. simpl in GC. rewrite Z.abs_eq in GC by lia. lia. }
  unfold inverse. rewrite (is_zero_rep F p FF a n H).
  destruct (Z.eqb_spec n 0); [contradiction|].
  pose proof H as H'. apply (represents_iff F p FF) in H'. destruct H' as (Wa & Na & Va & Ea).
  destruct (ff_good _ _ FF) as (WP & _ & W2 & _ & P2 & _ & R2 & _). pose proof (ff_val _ _ FF) as FV.
  rewrite FV in *.
  assert (VNZ : val a <> 0).
  { intro E. apply NZ. apply (eqm_small p); [lia|lia|]. apply (eqm_cancel p B4); [exact (ff_B4 _ _ FF)|].
    rewrite E in Ea. apply eqm_sym. exact Ea. }
  assert (GA : Z.gcd (val a) p = 1).
  { apply Zgcd_1_rel_prime. destruct Ea as [k Ea]. rewrite Ea.
    apply rel_prime_sym. apply Zgcd_1_rel_prime. rewrite Z.gcd_add_mult_diag_r.
    apply Zgcd_1_rel_prime. apply rel_prime_mult.
    - apply rel_prime_sym, Zgcd_1_rel_prime. exact GC.
    - exact (ff_B4 _ _ FF). }
  destruct (inverse_loop_spec F p FF (val a) (val (f_R2 F)) fuel a (f_P F) (f_R2 F) ZERO) as (y & E & Wy & Vy & Ey).
  - unfold tracks. split; [exact Wa|]. split; [exact W2|]. split; [lia|].
    split; [rewrite R2; apply Z.mod_pos_bound; lia|]. apply eqm_refl.
  - unfold tracks. split; [exact WP|]. split; [exact ZERO_wf|]. split; [rewrite FV; lia|].
    rewrite ZERO_val. split; [lia|]. rewrite FV. exists (- val (f_R2 F)). ring.
  - rewrite FV. exact GA.
  - rewrite FV. assert (L1 : Z.log2 (val a) <= Z.log2 p) by (apply Z.log2_le_mono; lia).
    assert (L2 : Z.log2 p < 256). { apply Z.log2_lt_pow2; [lia|]. rewrite <- B4_eq. lia. }
    destruct (_ || _); lia.
  - rewrite E. cbn [option_map].
    (* y is the Montgomery form of m with m * B4 = y *)
    destruct (reduce_full_both F (ff_good _ _ FF) y Wy) as [(Wr & Vr & Er) _]. rewrite FV in *.
    set (m := val (reduce_full F y)) in *. clearbody m.
    assert (RY : represents p y m).
    { apply (represents_iff F p FF). split; [exact Wy|]. split; [exact Vr|]. split; [exact Vy|].
      apply eqm_sym. apply eqm_iff; [lia|exact Er]. }
    exists y, m. split; [reflexivity|]. split; [exact RY|].
    assert (Q : eqm p (n * m) 1).
    { apply (eqm_cancel p B4); [exact (ff_B4 _ _ FF)|]. apply (eqm_cancel p B4); [exact (ff_B4 _ _ FF)|].
      apply eqm_trans with (val a * val y).
      - rewrite (mul_form n m B4).
        apply eqm_mul; apply eqm_sym; [exact Ea|]. apply eqm_sym. apply eqm_iff; [lia|exact Er].
      - eapply eqm_trans; [exact Ey|]. rewrite R2, (one_form B4). apply eqm_mod. lia. }
    apply eqm_iff in Q; [|lia]. rewrite Q. apply Z.mod_small. lia.
Qed.
