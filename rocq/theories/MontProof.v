From Coq Require Import List ZArith NArith Bool Lia Znumtheory Zpow_facts.
From Verif Require Import MontModel MontSpec.
Local Open Scope Z_scope.

Lemma B_eq : B = 2 ^ 64. Proof. reflexivity. Qed.
Lemma B_pos : 0 < B. Proof. reflexivity. Qed.

(* ranges in terms of B, with B kept folded *)
Definition inB (x : Z) := 0 <= x < B.
Definition wf (a : limbs) := inB (l0 a) /\ inB (l1 a) /\ inB (l2 a) /\ inB (l3 a).
Definition val (a : limbs) := l0 a + B * l1 a + B * B * l2 a + B * B * B * l3 a.

Lemma wf_iff : forall a, u64s a <-> wf a. Proof. intros a. reflexivity. Qed.
Lemma val_eq : forall a, value a = val a. Proof. intros a. reflexivity. Qed.

Global Opaque B.

Lemma mac_spec : forall a b c carry lo hi, inB a -> inB b -> inB c -> inB carry ->
  mac a b c carry = (lo, hi) -> inB lo /\ inB hi /\ lo = a * b + c + carry - B * hi.
Proof.
  unfold mac, inB. intros a b c k lo hi Ha Hb Hc Hk E. inversion E; subst; clear E.
  pose proof B_pos as HB.
  pose proof (Z.mod_pos_bound (a * b + c + k) B HB).
  pose proof (Z.div_mod (a * b + c + k) B ltac:(lia)).
  assert (0 <= a * b + c + k < B * B) by nia.
  pose proof (Z.div_pos (a * b + c + k) B ltac:(lia) HB).
  pose proof (Z.div_lt_upper_bound (a * b + c + k) B B HB ltac:(lia)).
  lia.
Qed.

Lemma mod_div_spec : forall x m, 0 < m -> 0 <= x mod m < m /\ x = m * (x / m) + x mod m.
Proof. intros. split; [apply Z.mod_pos_bound; lia | apply Z.div_mod; lia]. Qed.

Lemma mod_of_range : forall x q, 0 <= x - B * q < B -> x mod B = x - B * q /\ x / B = q.
Proof.
  intros x q H. pose proof B_pos.
  assert (Q : x / B = q) by (symmetry; apply Z.div_unique with (r := x - B * q); lia).
  split; [|exact Q]. pose proof (Z.div_mod x B ltac:(lia)). rewrite Q in *. lia.
Qed.

(* a carry of one bit, or a carry word added to a sum that is at most 2B - 1 *)
Lemma const_adc_spec : forall a b c lo hi, inB a -> inB b -> inB c -> a + b + c < 2 * B ->
  const_adc a b c = (lo, hi) -> inB lo /\ 0 <= hi <= 1 /\ lo = a + b + c - B * hi.
Proof.
  unfold const_adc, inB. intros a b c lo hi Ha Hb Hc Hs E. inversion E; subst; clear E.
  pose proof B_pos.
  destruct (Z.leb_spec B (a + b)) as [H1|H1].
  - destruct (mod_of_range (a + b) 1 ltac:(lia)) as [M _]. rewrite M.
    destruct (mod_of_range (a + b - B * 1 + c) 0 ltac:(lia)) as [M2 _]. rewrite M2. simpl. lia.
  - destruct (mod_of_range (a + b) 0 ltac:(lia)) as [M _]. rewrite M.
    destruct (Z.leb_spec B (a + b - B * 0 + c)) as [H2|H2]; cbn [orb].
    + destruct (mod_of_range (a + b - B * 0 + c) 1 ltac:(lia)) as [M2 _]. rewrite M2. lia.
    + destruct (mod_of_range (a + b - B * 0 + c) 0 ltac:(lia)) as [M2 _]. rewrite M2. lia.
Qed.

Lemma adc_spec : forall a b c lo hi, inB a -> inB b -> 0 <= c <= 1 ->
  adc a b c = (lo, hi) -> inB lo /\ 0 <= hi <= 1 /\ lo = a + b + c - B * hi.
Proof.
  unfold adc, inB. intros a b c lo hi Ha Hb Hc E. inversion E; subst; clear E.
  pose proof B_pos. destruct (Z_lt_ge_dec (a + b + c) B).
  - destruct (mod_of_range (a + b + c) 0 ltac:(lia)) as [-> ->]. lia.
  - destruct (mod_of_range (a + b + c) 1 ltac:(lia)) as [-> ->]. lia.
Qed.

Lemma acc_spec : forall a c lo hi, inB a -> inB c ->
  acc a c = (lo, hi) -> inB lo /\ 0 <= hi <= 1 /\ lo = a + c - B * hi.
Proof.
  unfold acc, inB. intros a c lo hi Ha Hc E. inversion E; subst; clear E.
  pose proof B_pos. destruct (Z_lt_ge_dec (a + c) B).
  - destruct (mod_of_range (a + c) 0 ltac:(lia)) as [-> ->]. lia.
  - destruct (mod_of_range (a + c) 1 ltac:(lia)) as [-> ->]. lia.
Qed.

Lemma B_ge_2 : 2 <= B. Proof. rewrite B_eq. discriminate. Qed.

Lemma const_sbb_spec : forall a b c lo hi, inB a -> inB b -> 0 <= c <= 1 ->
  const_sbb a b c = (lo, hi) -> inB lo /\ 0 <= hi <= 1 /\ lo = a - b - c + B * hi.
Proof.
  unfold const_sbb, inB. intros a b c lo hi Ha Hb Hc E. inversion E; subst; clear E.
  pose proof B_ge_2.
  destruct (Z.ltb_spec a b) as [H1|H1].
  - destruct (mod_of_range (a - b) (-1) ltac:(lia)) as [M _]. rewrite M. cbn [orb].
    destruct (mod_of_range (a - b - B * -1 - c) 0 ltac:(lia)) as [M2 _]. rewrite M2. lia.
  - destruct (mod_of_range (a - b) 0 ltac:(lia)) as [M _]. rewrite M.
    destruct (Z.ltb_spec (a - b - B * 0) c) as [H2|H2]; cbn [orb].
    + destruct (mod_of_range (a - b - B * 0 - c) (-1) ltac:(lia)) as [M2 _]. rewrite M2. lia.
    + destruct (mod_of_range (a - b - B * 0 - c) 0 ltac:(lia)) as [M2 _]. rewrite M2. lia.
Qed.

Lemma sbb_spec : forall a b c lo hi, inB a -> inB b -> 0 <= c <= 1 ->
  sbb a b c = (lo, hi) -> inB lo /\ 0 <= hi <= 1 /\ lo = a - b - c + B * hi.
Proof.
  unfold sbb, inB. intros a b c lo hi Ha Hb Hc E. inversion E; subst; clear E.
  pose proof B_ge_2. destruct (Z_lt_ge_dec (B + a - b - c) B).
  - destruct (mod_of_range (B + a - b - c) 0 ltac:(lia)) as [-> ->]. simpl. lia.
  - destruct (mod_of_range (B + a - b - c) 1 ltac:(lia)) as [-> ->]. simpl. lia.
Qed.

(* ---- whole numbers ---- *)

Definition B4 := B * B * B * B.
Lemma B4_eq : B4 = 2 ^ 256. Proof. unfold B4. rewrite B_eq. reflexivity. Qed.
Lemma B4_pos : 0 < B4. Proof. unfold B4. pose proof B_pos. nia. Qed.

Lemma val_range : forall a, wf a -> 0 <= val a < B4.
Proof.
  unfold wf, inB, val, B4. intros a (H0 & H1 & H2 & H3). pose proof B_pos.
  assert (0 < B * B) by nia. assert (0 < B * B * B) by nia. nia.
Qed.

Definition adder (step : Z -> Z -> Z -> Z * Z) := forall a b c lo hi, inB a -> inB b -> 0 <= c <= 1 ->
  step a b c = (lo, hi) -> inB lo /\ 0 <= hi <= 1 /\ lo = a + b + c - B * hi.
Definition subber (step : Z -> Z -> Z -> Z * Z) := forall a b c lo hi, inB a -> inB b -> 0 <= c <= 1 ->
  step a b c = (lo, hi) -> inB lo /\ 0 <= hi <= 1 /\ lo = a - b - c + B * hi.

Lemma const_adc_adder : adder const_adc.
Proof.
  intros a b c lo hi Ha Hb Hc E. pose proof B_ge_2.
  apply const_adc_spec in E; try assumption; unfold inB in *; lia.
Qed.
Lemma adc_adder : adder adc. Proof. exact adc_spec. Qed.
Lemma const_sbb_subber : subber const_sbb. Proof. exact const_sbb_spec. Qed.
Lemma sbb_subber : subber sbb. Proof. exact sbb_spec. Qed.

Lemma bit_inv : forall c v, 0 <= c <= 1 -> 0 <= v < B4 -> forall x, v = x - B4 * c -> 0 <= x < B4 -> v = x.
Proof. intros. pose proof B4_pos. assert (c = 0) by nia. subst c. lia. Qed.
Lemma bit_inv' : forall c v, 0 <= c <= 1 -> 0 <= v < B4 -> forall x, v = x + B4 * c -> 0 <= x < B4 -> v = x.
Proof. intros. pose proof B4_pos. assert (c = 0) by nia. subst c. lia. Qed.

Lemma add_loop : forall step, adder step -> forall a b, wf a -> wf b -> val a + val b < B4 ->
  wf (carry_loop step a b) /\ val (carry_loop step a b) = val a + val b.
Proof.
  intros step ST a b Wa Wb LT. unfold carry_loop.
  pose proof (val_range _ Wa). pose proof (val_range _ Wb).
  destruct Wa as (A0 & A1 & A2 & A3). destruct Wb as (B0 & B1 & B2 & B3').
  destruct (step (l0 a) (l0 b) 0) as [r0 c0] eqn:E0. apply ST in E0; auto; [|lia]. destruct E0 as (R0 & C0 & E0).
  destruct (step (l1 a) (l1 b) c0) as [r1 c1] eqn:E1. apply ST in E1; auto. destruct E1 as (R1 & C1 & E1).
  destruct (step (l2 a) (l2 b) c1) as [r2 c2] eqn:E2. apply ST in E2; auto. destruct E2 as (R2 & C2 & E2).
  destruct (step (l3 a) (l3 b) c2) as [r3 c3] eqn:E3. apply ST in E3; auto. destruct E3 as (R3 & C3 & E3).
  assert (W : wf (Limbs r0 r1 r2 r3)) by (unfold wf; simpl; auto).
  split; [exact W|].
  apply (bit_inv c3); auto; [apply val_range; exact W| |lia].
  unfold val, B4. cbn [l0 l1 l2 l3]. rewrite E0, E1, E2, E3. ring.
Qed.

Lemma sub_loop : forall step, subber step -> forall a b, wf a -> wf b -> val b <= val a ->
  wf (carry_loop step a b) /\ val (carry_loop step a b) = val a - val b.
Proof.
  intros step ST a b Wa Wb LT. unfold carry_loop.
  pose proof (val_range _ Wa). pose proof (val_range _ Wb).
  destruct Wa as (A0 & A1 & A2 & A3). destruct Wb as (B0 & B1 & B2 & B3').
  destruct (step (l0 a) (l0 b) 0) as [r0 c0] eqn:E0. apply ST in E0; auto; [|lia]. destruct E0 as (R0 & C0 & E0).
  destruct (step (l1 a) (l1 b) c0) as [r1 c1] eqn:E1. apply ST in E1; auto. destruct E1 as (R1 & C1 & E1).
  destruct (step (l2 a) (l2 b) c1) as [r2 c2] eqn:E2. apply ST in E2; auto. destruct E2 as (R2 & C2 & E2).
  destruct (step (l3 a) (l3 b) c2) as [r3 c3] eqn:E3. apply ST in E3; auto. destruct E3 as (R3 & C3 & E3).
  assert (W : wf (Limbs r0 r1 r2 r3)) by (unfold wf; simpl; auto).
  split; [exact W|].
  apply (bit_inv' c3); auto; [apply val_range; exact W| |lia].
  unfold val, B4. cbn [l0 l1 l2 l3]. rewrite E0, E1, E2, E3. ring.
Qed.

Lemma const_cmp_spec : forall a x, wf a -> wf x -> const_cmp a x = (val a ?= val x).
Proof.
  unfold wf, inB. intros a x (A0 & A1 & A2 & A3) (X0 & X1 & X2 & X3). unfold const_cmp, val.
  pose proof B_pos as HB.
  assert (H2 : 0 < B * B) by nia. assert (H3 : 0 < B * B * B) by nia.
  symmetry.
  assert (L2 : forall u v w y, 0 <= u < B -> 0 <= v < B -> w < y -> u + B * w < v + B * y) by (intros; nia).
  assert (EV : forall c : limbs, l0 c + B * l1 c + B * B * l2 c + B * B * B * l3 c
             = l0 c + B * (l1 c + B * (l2 c + B * l3 c))) by (intros; ring).
  rewrite !EV.
  destruct (Z.ltb_spec (l3 a) (l3 x)); [apply Z.compare_lt_iff; repeat (apply L2; [lia|lia|]); assumption|].
  destruct (Z.ltb_spec (l3 x) (l3 a)); [apply Z.compare_gt_iff; repeat (apply L2; [lia|lia|]); assumption|].
  assert (E3 : l3 a = l3 x) by lia. rewrite E3.
  destruct (Z.ltb_spec (l2 a) (l2 x)); [apply Z.compare_lt_iff; do 2 (apply L2; [lia|lia|]); lia|].
  destruct (Z.ltb_spec (l2 x) (l2 a)); [apply Z.compare_gt_iff; do 2 (apply L2; [lia|lia|]); lia|].
  assert (E2 : l2 a = l2 x) by lia. rewrite E2.
  destruct (Z.ltb_spec (l1 a) (l1 x)); [apply Z.compare_lt_iff; do 1 (apply L2; [lia|lia|]); lia|].
  destruct (Z.ltb_spec (l1 x) (l1 a)); [apply Z.compare_gt_iff; do 1 (apply L2; [lia|lia|]); lia|].
  assert (E1 : l1 a = l1 x) by lia. rewrite E1.
  destruct (Z.ltb_spec (l0 a) (l0 x)); [apply Z.compare_lt_iff; lia|].
  destruct (Z.ltb_spec (l0 x) (l0 a)); [apply Z.compare_gt_iff; lia|].
  apply Z.compare_eq_iff. lia.
Qed.

Lemma const_geq_spec : forall a x, wf a -> wf x -> const_geq a x = (val x <=? val a).
Proof.
  intros. unfold const_geq. rewrite const_cmp_spec by assumption.
  destruct (Z.compare_spec (val a) (val x)); symmetry; [apply Z.leb_le|apply Z.leb_gt|apply Z.leb_le]; lia.
Qed.
Lemma const_gt_spec : forall a x, wf a -> wf x -> const_gt a x = (val x <? val a).
Proof.
  intros. unfold const_gt. rewrite const_cmp_spec by assumption.
  destruct (Z.compare_spec (val a) (val x)); symmetry; [apply Z.ltb_ge|apply Z.ltb_ge|apply Z.ltb_lt]; lia.
Qed.
Lemma const_lt_spec : forall a x, wf a -> wf x -> const_lt a x = (val a <? val x).
Proof.
  intros. unfold const_lt. rewrite const_cmp_spec by assumption.
  destruct (Z.compare_spec (val a) (val x)); symmetry; [apply Z.ltb_ge|apply Z.ltb_lt|apply Z.ltb_ge]; lia.
Qed.

Lemma val_inj : forall a x, wf a -> wf x -> val a = val x -> a = x.
Proof.
  intros a x Wa Wx E. pose proof (const_cmp_spec _ _ Wa Wx) as C.
  rewrite E, Z.compare_refl in C. unfold const_cmp in C.
  destruct a as [a0 a1 a2 a3], x as [x0 x1 x2 x3]. cbn [l0 l1 l2 l3] in C.
  destruct (Z.ltb_spec a3 x3); [discriminate|]. destruct (Z.ltb_spec x3 a3); [discriminate|].
  destruct (Z.ltb_spec a2 x2); [discriminate|]. destruct (Z.ltb_spec x2 a2); [discriminate|].
  destruct (Z.ltb_spec a1 x1); [discriminate|]. destruct (Z.ltb_spec x1 a1); [discriminate|].
  destruct (Z.ltb_spec a0 x0); [discriminate|]. destruct (Z.ltb_spec x0 a0); [discriminate|].
  f_equal; lia.
Qed.

Lemma is_zero_spec : forall a, wf a -> is_zero a = (val a =? 0).
Proof.
  intros a W. destruct (Z.eqb_spec (val a) 0) as [E|E].
  - assert (a = ZERO) as ->.
    { apply val_inj; [exact W| |rewrite E; unfold val, ZERO; simpl; ring].
      pose proof B_pos. unfold wf, inB, ZERO; simpl. lia. }
    reflexivity.
  - apply not_true_is_false. intro C. apply E. unfold is_zero in C.
    rewrite !andb_true_iff, !Z.eqb_eq in C. destruct C as (((C0 & C1) & C2) & C3).
    unfold val. rewrite C0, C1, C2, C3. ring.
Qed.

Lemma limbs_eqb_spec : forall a x, limbs_eqb a x = true <-> a = x.
Proof.
  intros [a0 a1 a2 a3] [x0 x1 x2 x3]. unfold limbs_eqb. cbn [l0 l1 l2 l3].
  rewrite !andb_true_iff, !Z.eqb_eq. split.
  - intros (((-> & ->) & ->) & ->). reflexivity.
  - injection 1 as -> -> -> ->. auto.
Qed.

(* ---- multiplication ---- *)

Lemma inB0 : inB 0. Proof. pose proof B_pos. unfold inB. lia. Qed.

Lemma mul_row_spec : forall a x r0 r1 r2 r3 s0 s1 s2 s3 s4,
  inB a -> wf x -> inB r0 -> inB r1 -> inB r2 -> inB r3 ->
  mul_row a x r0 r1 r2 r3 = (s0, s1, s2, s3, s4) ->
  inB s0 /\ inB s1 /\ inB s2 /\ inB s3 /\ inB s4 /\
  s0 + B * s1 + B * B * s2 + B * B * B * s3 + B * B * B * B * s4
  = a * val x + (r0 + B * r1 + B * B * r2 + B * B * B * r3).
Proof.
  intros a x r0 r1 r2 r3 s0 s1 s2 s3 s4 Ha (X0 & X1 & X2 & X3) H0 H1 H2 H3 E.
  unfold mul_row in E. pose proof inB0.
  destruct (mac a (l0 x) r0 0) as [u0 h0] eqn:E0. apply mac_spec in E0; auto. destruct E0 as (? & ? & E0).
  destruct (mac a (l1 x) r1 h0) as [u1 h1] eqn:E1. apply mac_spec in E1; auto. destruct E1 as (? & ? & E1).
  destruct (mac a (l2 x) r2 h1) as [u2 h2] eqn:E2. apply mac_spec in E2; auto. destruct E2 as (? & ? & E2).
  destruct (mac a (l3 x) r3 h2) as [u3 h3] eqn:E3. apply mac_spec in E3; auto. destruct E3 as (? & ? & E3).
  assert (Q : (s0, s1, s2, s3, s4) = (u0, u1, u2, u3, h3)) by congruence.
  injection Q as -> -> -> -> ->.
  repeat (split; [assumption|]). unfold val. rewrite E0, E1, E2, E3. ring.
Qed.

Definition wide r0 r1 r2 r3 r4 r5 r6 r7 :=
  r0 + B * r1 + B * B * r2 + B * B * B * r3
  + B4 * (r4 + B * r5 + B * B * r6 + B * B * B * r7).

Lemma mul_wide_spec : forall a x r0 r1 r2 r3 r4 r5 r6 r7, wf a -> wf x ->
  mul_wide a x = (r0, r1, r2, r3, r4, r5, r6, r7) ->
  inB r0 /\ inB r1 /\ inB r2 /\ inB r3 /\ inB r4 /\ inB r5 /\ inB r6 /\ inB r7 /\
  wide r0 r1 r2 r3 r4 r5 r6 r7 = val a * val x.
Proof.
  intros a x r0 r1 r2 r3 r4 r5 r6 r7 (A0 & A1 & A2 & A3) Wx E. unfold mul_wide in E. pose proof inB0 as Z0.
  destruct (mul_row (l0 a) x 0 0 0 0) as [[[[p0 p1] p2] p3] p4] eqn:E0.
  apply mul_row_spec in E0; auto. destruct E0 as (? & ? & ? & ? & ? & E0).
  destruct (mul_row (l1 a) x p1 p2 p3 p4) as [[[[q1 q2] q3] q4] q5] eqn:E1.
  apply mul_row_spec in E1; auto. destruct E1 as (? & ? & ? & ? & ? & E1).
  destruct (mul_row (l2 a) x q2 q3 q4 q5) as [[[[s2 s3] s4] s5] s6] eqn:E2.
  apply mul_row_spec in E2; auto. destruct E2 as (? & ? & ? & ? & ? & E2).
  destruct (mul_row (l3 a) x s3 s4 s5 s6) as [[[[t3 t4] t5] t6] t7] eqn:E3.
  apply mul_row_spec in E3; auto. destruct E3 as (? & ? & ? & ? & ? & E3).
  assert (Q : (r0, r1, r2, r3, r4, r5, r6, r7) = (p0, q1, s2, t3, t4, t5, t6, t7)) by congruence.
  injection Q as -> -> -> -> -> -> -> ->.
  repeat (split; [assumption|]).
  unfold wide, B4.
  transitivity (l0 a * val x + B * (l1 a * val x) + B * B * (l2 a * val x) + B * B * B * (l3 a * val x));
    [|unfold val at 5; ring].
  assert (F0 : l0 a * val x = p0 + B * p1 + B * B * p2 + B * B * B * p3 + B * B * B * B * p4) by (rewrite E0; ring).
  assert (F1 : l1 a * val x = q1 + B * q2 + B * B * q3 + B * B * B * q4 + B * B * B * B * q5 - (p1 + B * p2 + B * B * p3 + B * B * B * p4)) by (rewrite E1; ring).
  assert (F2 : l2 a * val x = s2 + B * s3 + B * B * s4 + B * B * B * s5 + B * B * B * B * s6 - (q2 + B * q3 + B * B * q4 + B * B * B * q5)) by (rewrite E2; ring).
  assert (F3 : l3 a * val x = t3 + B * t4 + B * B * t5 + B * B * B * t6 + B * B * B * B * t7 - (s3 + B * s4 + B * B * s5 + B * B * B * s6)) by (rewrite E3; ring).
  rewrite F0, F1, F2, F3. ring.
Qed.

(* ---- shifting ---- *)

Lemma shr_lt : forall a, inB a -> inB (shr a 63) /\ shr a 63 <= 1.
Proof.
  unfold inB, shr. intros a H. rewrite B_eq in *. rewrite Z.shiftr_div_pow2 by lia.
  pose proof (Z.div_pos a (2 ^ 63) ltac:(lia) ltac:(reflexivity)).
  assert (a / 2 ^ 63 < 2) by (apply Z.div_lt_upper_bound; [reflexivity|lia]). lia.
Qed.

Lemma shl_or : forall a c, inB a -> 0 <= c <= 1 ->
  inB (Z.lor (shl a 1) c) /\ Z.lor (shl a 1) c = 2 * a + c - B * shr a 63.
Proof.
  unfold inB, shl, shr. intros a c H Hc.
  assert (E : Z.lor (Z.shiftl a 1 mod B) c = Z.shiftl a 1 mod B + c).
  { assert (D : Z.land (Z.shiftl a 1 mod B) c = 0).
    { apply Z.bits_inj'. intros n Hn. rewrite Z.land_spec, Z.bits_0.
      destruct (Z.eq_dec n 0) as [->|Hn0].
      - rewrite B_eq, Z.mod_pow2_bits_low by lia. rewrite Z.shiftl_spec_low by lia. reflexivity.
      - assert (Z.testbit c n = false) as ->; [|apply andb_false_r].
        destruct (Z.eq_dec c 0) as [->|]; [apply Z.bits_0|].
        assert (c = 1) as -> by lia. apply (Z.bits_above_log2 1); [lia|]. simpl. lia. }
    rewrite <- Z.lxor_lor by exact D. symmetry. apply Z.add_nocarry_lxor. exact D. }
  rewrite E. rewrite Z.shiftl_mul_pow2 by lia. change (2 ^ 1) with 2.
  rewrite Z.shiftr_div_pow2 by lia.
  pose proof (mod_div_spec a (2 ^ 63) ltac:(reflexivity)) as [Q1 Q2].
  assert (QB : B = 2 * 2 ^ 63) by (rewrite B_eq; reflexivity).
  set (q := a / 2 ^ 63) in *.
  destruct (mod_of_range (a * 2) q) as [M _].
  - rewrite QB. lia.
  - rewrite M. rewrite QB in *. lia.
Qed.

Lemma shl_spec : forall a, inB a -> inB (shl a 1) /\ shl a 1 = 2 * a - B * shr a 63.
Proof.
  intros a H. destruct (shl_or a 0 H ltac:(lia)) as [I E]. rewrite Z.lor_0_r in *.
  split; [exact I|]. lia.
Qed.

(* ---- squaring ---- *)

Lemma square_cross_spec : forall a r1 r2 r3 r4 r5 r6, wf a ->
  square_cross a = (r1, r2, r3, r4, r5, r6) ->
  inB r1 /\ inB r2 /\ inB r3 /\ inB r4 /\ inB r5 /\ inB r6 /\
  B * r1 + B * B * r2 + B * B * B * r3 + B4 * (r4 + B * r5 + B * B * r6)
  = B * (l0 a * l1 a) + B * B * (l0 a * l2 a) + B * B * B * (l0 a * l3 a)
    + B * B * B * (l1 a * l2 a) + B4 * (l1 a * l3 a) + B4 * B * (l2 a * l3 a).
Proof.
  intros a r1 r2 r3 r4 r5 r6 (A0 & A1 & A2 & A3) E. unfold square_cross in E. pose proof inB0.
  destruct (mac (l0 a) (l1 a) 0 0) as [u1 c1] eqn:E1. apply mac_spec in E1; auto. destruct E1 as (? & ? & E1).
  destruct (mac (l0 a) (l2 a) 0 c1) as [u2 c2] eqn:E2. apply mac_spec in E2; auto. destruct E2 as (? & ? & E2).
  destruct (mac (l0 a) (l3 a) 0 c2) as [u3 c3] eqn:E3. apply mac_spec in E3; auto. destruct E3 as (? & ? & E3).
  cbv zeta in E.
  destruct (mac (l1 a) (l2 a) u3 0) as [v3 d3] eqn:E4. apply mac_spec in E4; auto. destruct E4 as (? & ? & E4).
  destruct (mac (l1 a) (l3 a) c3 d3) as [v4 d4] eqn:E5. apply mac_spec in E5; auto. destruct E5 as (? & ? & E5).
  destruct (mac (l2 a) (l3 a) d4 0) as [v5 d5] eqn:E6. apply mac_spec in E6; auto. destruct E6 as (? & ? & E6).
  assert (Q : (r1, r2, r3, r4, r5, r6) = (u1, u2, v3, v4, v5, d5)) by congruence.
  injection Q as -> -> -> -> -> ->.
  repeat (split; [assumption|]). unfold B4. rewrite E6, E5, E4, E3, E2, E1. ring.
Qed.

Lemma square_double_spec : forall r1 r2 r3 r4 r5 r6 s1 s2 s3 s4 s5 s6 s7,
  inB r1 -> inB r2 -> inB r3 -> inB r4 -> inB r5 -> inB r6 ->
  square_double r1 r2 r3 r4 r5 r6 = (s1, s2, s3, s4, s5, s6, s7) ->
  inB s1 /\ inB s2 /\ inB s3 /\ inB s4 /\ inB s5 /\ inB s6 /\ inB s7 /\
  B * s1 + B * B * s2 + B * B * B * s3 + B4 * (s4 + B * s5 + B * B * s6 + B * B * B * s7)
  = 2 * (B * r1 + B * B * r2 + B * B * B * r3 + B4 * (r4 + B * r5 + B * B * r6)).
Proof.
  intros r1 r2 r3 r4 r5 r6 s1 s2 s3 s4 s5 s6 s7 H1 H2 H3 H4 H5 H6 E. unfold square_double in E.
  destruct (shl_spec r1 H1) as [I1 E1].
  destruct (shr_lt r1 H1) as [J1 K1]. destruct (shr_lt r2 H2) as [J2 K2]. destruct (shr_lt r3 H3) as [J3 K3].
  destruct (shr_lt r4 H4) as [J4 K4]. destruct (shr_lt r5 H5) as [J5 K5]. destruct (shr_lt r6 H6) as [J6 K6].
  assert (Z1 : forall x, inB x -> x <= 1 -> 0 <= x <= 1) by (unfold inB; intros; lia).
  destruct (shl_or r2 _ H2 (Z1 _ J1 K1)) as [I2 E2].
  destruct (shl_or r3 _ H3 (Z1 _ J2 K2)) as [I3 E3].
  destruct (shl_or r4 _ H4 (Z1 _ J3 K3)) as [I4 E4].
  destruct (shl_or r5 _ H5 (Z1 _ J4 K4)) as [I5 E5].
  destruct (shl_or r6 _ H6 (Z1 _ J5 K5)) as [I6 E6].
  injection E as <- <- <- <- <- <- <-.
  repeat (split; [assumption|]). unfold B4. rewrite E1, E2, E3, E4, E5, E6. ring.
Qed.

Lemma square_diag_spec : forall ac, (forall r c lo hi, inB r -> inB c -> ac r c = (lo, hi) ->
    inB lo /\ 0 <= hi <= 1 /\ lo = r + c - B * hi) ->
  forall a r1 r2 r3 r4 r5 r6 r7 s0 s1 s2 s3 s4 s5 s6 s7, wf a ->
  inB r1 -> inB r2 -> inB r3 -> inB r4 -> inB r5 -> inB r6 -> inB r7 ->
  square_diag ac a r1 r2 r3 r4 r5 r6 r7 = (s0, s1, s2, s3, s4, s5, s6, s7) ->
  inB s0 /\ inB s1 /\ inB s2 /\ inB s3 /\ inB s4 /\ inB s5 /\ inB s6 /\ inB s7 /\
  exists c, 0 <= c <= 1 /\
  wide s0 s1 s2 s3 s4 s5 s6 s7 = wide 0 r1 r2 r3 r4 r5 r6 r7
    + l0 a * l0 a + B * B * (l1 a * l1 a) + B4 * (l2 a * l2 a) + B4 * (B * B) * (l3 a * l3 a)
    - B4 * B4 * c.
Proof.
  intros ac AC a r1 r2 r3 r4 r5 r6 r7 s0 s1 s2 s3 s4 s5 s6 s7 (A0 & A1 & A2 & A3) H1 H2 H3 H4 H5 H6 H7 E.
  unfold square_diag in E. pose proof inB0. pose proof B_ge_2.
  assert (Z1 : forall x, 0 <= x <= 1 -> inB x) by (unfold inB; intros; lia).
  destruct (mac (l0 a) (l0 a) 0 0) as [u0 c0] eqn:E0. apply mac_spec in E0; auto. destruct E0 as (? & ? & E0).
  destruct (ac r1 c0) as [u1 c1] eqn:E1. apply AC in E1; auto. destruct E1 as (? & ? & E1).
  destruct (mac (l1 a) (l1 a) r2 c1) as [u2 c2] eqn:E2. apply mac_spec in E2; auto. destruct E2 as (? & ? & E2).
  destruct (ac r3 c2) as [u3 c3] eqn:E3. apply AC in E3; auto. destruct E3 as (? & ? & E3).
  destruct (mac (l2 a) (l2 a) r4 c3) as [u4 c4] eqn:E4. apply mac_spec in E4; auto. destruct E4 as (? & ? & E4).
  destruct (ac r5 c4) as [u5 c5] eqn:E5. apply AC in E5; auto. destruct E5 as (? & ? & E5).
  destruct (mac (l3 a) (l3 a) r6 c5) as [u6 c6] eqn:E6. apply mac_spec in E6; auto. destruct E6 as (? & ? & E6).
  destruct (ac r7 c6) as [u7 c7] eqn:E7. apply AC in E7; auto. destruct E7 as (? & ? & E7).
  assert (Q : (s0, s1, s2, s3, s4, s5, s6, s7) = (u0, u1, u2, u3, u4, u5, u6, u7)) by congruence.
  injection Q as -> -> -> -> -> -> -> ->.
  repeat (split; [assumption|]). exists c7. split; [assumption|].
  unfold wide, B4. rewrite E7, E6, E5, E4, E3, E2, E1, E0. ring.
Qed.

Lemma square_wide_spec : forall ac, (forall r c lo hi, inB r -> inB c -> ac r c = (lo, hi) ->
    inB lo /\ 0 <= hi <= 1 /\ lo = r + c - B * hi) ->
  forall a s0 s1 s2 s3 s4 s5 s6 s7, wf a ->
  square_wide ac a = (s0, s1, s2, s3, s4, s5, s6, s7) ->
  inB s0 /\ inB s1 /\ inB s2 /\ inB s3 /\ inB s4 /\ inB s5 /\ inB s6 /\ inB s7 /\
  wide s0 s1 s2 s3 s4 s5 s6 s7 = val a * val a.
Proof.
  intros ac AC a s0 s1 s2 s3 s4 s5 s6 s7 W E. unfold square_wide in E.
  destruct (square_cross a) as [[[[[r1 r2] r3] r4] r5] r6] eqn:E1.
  apply square_cross_spec in E1; auto. destruct E1 as (? & ? & ? & ? & ? & ? & E1).
  destruct (square_double r1 r2 r3 r4 r5 r6) as [[[[[[t1 t2] t3] t4] t5] t6] t7] eqn:E2.
  apply square_double_spec in E2; auto. destruct E2 as (? & ? & ? & ? & ? & ? & ? & E2).
  apply (square_diag_spec ac AC) in E; auto.
  destruct E as (S0 & S1 & S2 & S3 & S4 & S5 & S6 & S7 & c & C & E).
  repeat (split; [assumption|]).
  assert (F : wide 0 t1 t2 t3 t4 t5 t6 t7
    + l0 a * l0 a + B * B * (l1 a * l1 a) + B4 * (l2 a * l2 a) + B4 * (B * B) * (l3 a * l3 a) = val a * val a).
  { transitivity (2 * (B * r1 + B * B * r2 + B * B * B * r3 + B4 * (r4 + B * r5 + B * B * r6))
      + l0 a * l0 a + B * B * (l1 a * l1 a) + B4 * (l2 a * l2 a) + B4 * (B * B) * (l3 a * l3 a)).
    - rewrite <- E2. unfold wide. ring.
    - rewrite E1. unfold val, B4. ring. }
  rewrite F in E.
  assert (V : val a * val a < B4 * B4) by (pose proof (val_range a W); nia).
  assert (G : 0 <= wide s0 s1 s2 s3 s4 s5 s6 s7).
  { pose proof (val_range (Limbs s0 s1 s2 s3)) as X. pose proof (val_range (Limbs s4 s5 s6 s7)) as Y.
    unfold wf, val in X, Y. cbn [l0 l1 l2 l3] in X, Y. specialize (X ltac:(auto)). specialize (Y ltac:(auto)).
    unfold wide. pose proof B4_pos. nia. }
  assert (c = 0) by (pose proof B4_pos; nia). subst c. lia.
Qed.

(* ---- reduction ---- *)

(* what the constants must satisfy *)
Definition good (F : field) : Prop :=
  wf (f_P F) /\ wf (f_R F) /\ wf (f_R2 F) /\ 1 < val (f_P F) /\ 2 * val (f_P F) < B4 /\
  val (f_R F) = B4 mod val (f_P F) /\ val (f_R2 F) = (B4 * B4) mod val (f_P F) /\
  (1 + l0 (f_P F) * f_M0 F) mod B = 0.

Section Reduce.
Variable F : field.
Hypothesis G : good F.
Let p := val (f_P F).

Lemma mont_round_spec : forall r0 r1 r2 r3 r4 c s1 s2 s3 s4 c',
  inB r0 -> inB r1 -> inB r2 -> inB r3 -> inB r4 -> 0 <= c <= 1 ->
  mont_round F r0 r1 r2 r3 r4 c = (s1, s2, s3, s4, c') ->
  inB s1 /\ inB s2 /\ inB s3 /\ inB s4 /\ 0 <= c' <= 1 /\
  exists k, inB k /\
  r0 + B * r1 + B * B * r2 + B * B * B * r3 + B4 * (r4 + c) + k * p
  = B * (s1 + B * s2 + B * B * s3 + B * B * B * s4 + B4 * c').
Proof.
  intros r0 r1 r2 r3 r4 c s1 s2 s3 s4 c' H0 H1 H2 H3 H4 Hc E.
  destruct G as ((P0 & P1 & P2 & P3) & _ & _ & _ & _ & _ & _ & M).
  unfold mont_round in E. pose proof inB0 as Z0. pose proof B_pos as HB. pose proof B_ge_2.
  set (k := (r0 * f_M0 F) mod B) in *.
  assert (Hk : inB k) by (apply Z.mod_pos_bound; exact HB).
  destruct (mac k (l0 (f_P F)) r0 0) as [u0 d0] eqn:E0. apply mac_spec in E0; auto. destruct E0 as (U0 & ? & E0).
  destruct (mac k (l1 (f_P F)) r1 d0) as [u1 d1] eqn:E1. apply mac_spec in E1; auto. destruct E1 as (? & ? & E1).
  destruct (mac k (l2 (f_P F)) r2 d1) as [u2 d2] eqn:E2. apply mac_spec in E2; auto. destruct E2 as (? & ? & E2).
  destruct (mac k (l3 (f_P F)) r3 d2) as [u3 d3] eqn:E3. apply mac_spec in E3; auto. destruct E3 as (? & ? & E3).
  destruct (const_adc r4 c d3) as [u4 d4] eqn:E4.
  apply const_adc_spec in E4; auto; [|unfold inB; lia|unfold inB in *; lia].
  destruct E4 as (? & ? & E4).
  assert (Q : (s1, s2, s3, s4, c') = (u1, u2, u3, u4, d4)) by congruence.
  injection Q as -> -> -> -> ->.
  repeat (split; [assumption|]). exists k. split; [exact Hk|].
  assert (U : u0 = 0).
  { assert (D : (B | u0)).
    { apply Z.mod_divide; [lia|]. rewrite E0.
      replace (k * l0 (f_P F) + r0 + 0 - B * d0) with (k * l0 (f_P F) + r0 + (- d0) * B) by ring.
      rewrite Z.mod_add by lia. unfold k.
      rewrite <- Z.add_mod_idemp_l, Z.mul_mod_idemp_l, Z.add_mod_idemp_l by lia.
      replace (r0 * f_M0 F * l0 (f_P F) + r0) with (r0 * (1 + l0 (f_P F) * f_M0 F)) by ring.
      rewrite <- Z.mul_mod_idemp_r, M, Z.mul_0_r by lia. apply Z.mod_0_l. lia. }
    destruct D as [q D]. unfold inB in U0. clear - D U0 HB.
    assert (q = 0) by nia. subst q. lia. }
  rewrite U in E0.
  assert (K0 : k * l0 (f_P F) = B * d0 - r0) by lia.
  unfold p, val, B4. rewrite E4, E3, E2, E1.
  transitivity (r0 + k * l0 (f_P F) + B * (r1 + k * l1 (f_P F)) + B * B * (r2 + k * l2 (f_P F))
    + B * B * B * (r3 + k * l3 (f_P F)) + B * B * B * B * (r4 + c)); [ring|].
  rewrite K0. ring.
Qed.

Lemma mont_rounds_spec : forall r0 r1 r2 r3 r4 r5 r6 r7,
  inB r0 -> inB r1 -> inB r2 -> inB r3 -> inB r4 -> inB r5 -> inB r6 -> inB r7 ->
  wide r0 r1 r2 r3 r4 r5 r6 r7 < p * B4 ->
  let v := mont_rounds F r0 r1 r2 r3 r4 r5 r6 r7 in
  wf v /\ val v < 2 * p /\
  exists m, val v * B4 = wide r0 r1 r2 r3 r4 r5 r6 r7 + m * p.
Proof.
  intros r0 r1 r2 r3 r4 r5 r6 r7 H0 H1 H2 H3 H4 H5 H6 H7 LT. unfold mont_rounds.
  destruct (mont_round F r0 r1 r2 r3 r4 0) as [[[[a1 a2] a3] a4] ca] eqn:E1.
  apply mont_round_spec in E1; auto; [|lia]. destruct E1 as (? & ? & ? & ? & ? & k1 & K1 & E1).
  destruct (mont_round F a1 a2 a3 a4 r5 ca) as [[[[b2 b3] b4] b5] cb] eqn:E2.
  apply mont_round_spec in E2; auto. destruct E2 as (? & ? & ? & ? & ? & k2 & K2 & E2).
  destruct (mont_round F b2 b3 b4 b5 r6 cb) as [[[[c3 c4] c5] c6] cc] eqn:E3.
  apply mont_round_spec in E3; auto. destruct E3 as (? & ? & ? & ? & ? & k3 & K3 & E3).
  destruct (mont_round F c3 c4 c5 c6 r7 cc) as [[[[d4 d5] d6] d7] cd] eqn:E4.
  apply mont_round_spec in E4; auto. destruct E4 as (? & ? & ? & ? & ? & k4 & K4 & E4).
  cbv zeta.
  assert (W : wf (Limbs d4 d5 d6 d7)) by (unfold wf; cbn [l0 l1 l2 l3]; auto).
  pose proof (val_range _ W) as VR.
  set (m := k1 + B * k2 + B * B * k3 + B * B * B * k4).
  assert (EQ : wide r0 r1 r2 r3 r4 r5 r6 r7 + m * p = B4 * (val (Limbs d4 d5 d6 d7) + B4 * cd)).
  { unfold val. cbn [l0 l1 l2 l3].
    transitivity (r0 + B * r1 + B * B * r2 + B * B * B * r3 + B4 * (r4 + 0) + k1 * p
      + B * (k2 * p + B4 * r5) + B * B * (k3 * p + B4 * r6) + B * B * B * (k4 * p + B4 * r7)).
    { unfold wide, m. ring. }
    rewrite E1.
    transitivity (B * ((a1 + B * a2 + B * B * a3 + B * B * B * a4 + B4 * (r5 + ca) + k2 * p)
        + B * (k3 * p + B4 * r6) + B * B * (k4 * p + B4 * r7))); [ring|].
    rewrite E2.
    transitivity (B * (B * ((b2 + B * b3 + B * B * b4 + B * B * B * b5 + B4 * (r6 + cb) + k3 * p)
        + B * (k4 * p + B4 * r7)))); [ring|].
    rewrite E3.
    transitivity (B * (B * (B * (c3 + B * c4 + B * B * c5 + B * B * B * c6 + B4 * (r7 + cc) + k4 * p)))); [ring|].
    rewrite E4. unfold B4. ring. }
  assert (MR : 0 <= m < B4).
  { pose proof (val_range (Limbs k1 k2 k3 k4)) as X. unfold wf, val in X. cbn [l0 l1 l2 l3] in X.
    apply X. auto. }
  destruct G as (_ & _ & _ & P1 & P2 & _). fold p in P1, P2. pose proof B4_pos as HB4.
  assert (UP : B4 * (val (Limbs d4 d5 d6 d7) + B4 * cd) < B4 * (2 * p)).
  { rewrite <- EQ. assert (m * p <= B4 * p) by (apply Z.mul_le_mono_nonneg_r; lia). lia. }
  apply Z.mul_lt_mono_pos_l in UP; [|exact HB4].
  assert (cd = 0) by nia. subst cd.
  split; [exact W|]. split; [lia|]. exists m. rewrite EQ. ring.
Qed.

Lemma const_reduce_partial_spec : forall a, wf a -> val a < 2 * p ->
  wf (const_reduce_partial F a) /\ val (const_reduce_partial F a) = val a mod p.
Proof.
  intros a W LT. destruct G as (WP & _ & _ & P1 & P2 & _). fold p in P1, P2.
  unfold const_reduce_partial. rewrite const_geq_spec by assumption. fold p.
  pose proof (val_range _ W).
  destruct (Z.leb_spec p (val a)).
  - destruct (sub_loop _ const_sbb_subber a (f_P F) W WP) as [W' E]; [fold p; lia|].
    split; [exact W'|]. unfold const_sub_noreduce. rewrite E. fold p.
    symmetry. replace (val a) with (val a - p + 1 * p) at 1 by ring.
    rewrite Z.mod_add by lia. apply Z.mod_small. lia.
  - split; [exact W|]. symmetry. apply Z.mod_small. lia.
Qed.

Lemma reduce_partial_spec : forall a, wf a -> val a < 2 * p ->
  wf (reduce_partial F a) /\ val (reduce_partial F a) = val a mod p.
Proof.
  intros a W LT. destruct G as (WP & _ & _ & P1 & P2 & _). fold p in P1, P2.
  unfold reduce_partial. rewrite const_geq_spec by assumption. fold p.
  pose proof (val_range _ W).
  destruct (Z.leb_spec p (val a)).
  - destruct (sub_loop _ sbb_subber a (f_P F) W WP) as [W' E]; [fold p; lia|].
    split; [exact W'|]. unfold sub_noreduce. rewrite E. fold p.
    symmetry. replace (val a) with (val a - p + 1 * p) at 1 by ring.
    rewrite Z.mod_add by lia. apply Z.mod_small. lia.
  - split; [exact W|]. symmetry. apply Z.mod_small. lia.
Qed.

(* a reduced number v with v * 2^256 = T modulo p *)
Definition redc (T : Z) (v : limbs) : Prop :=
  wf v /\ 0 <= val v < p /\ (val v * B4) mod p = T mod p.

Lemma mont_reduce_both : forall r0 r1 r2 r3 r4 r5 r6 r7,
  inB r0 -> inB r1 -> inB r2 -> inB r3 -> inB r4 -> inB r5 -> inB r6 -> inB r7 ->
  wide r0 r1 r2 r3 r4 r5 r6 r7 < p * B4 ->
  redc (wide r0 r1 r2 r3 r4 r5 r6 r7) (mont_reduce F r0 r1 r2 r3 r4 r5 r6 r7) /\
  redc (wide r0 r1 r2 r3 r4 r5 r6 r7) (const_mont_reduce F r0 r1 r2 r3 r4 r5 r6 r7).
Proof.
  intros r0 r1 r2 r3 r4 r5 r6 r7 H0 H1 H2 H3 H4 H5 H6 H7 LT.
  destruct (mont_rounds_spec r0 r1 r2 r3 r4 r5 r6 r7) as (W & V & m & E); auto.
  assert (1 < p) by apply G.
  assert (R : forall v, wf v -> val v = val (mont_rounds F r0 r1 r2 r3 r4 r5 r6 r7) mod p ->
              redc (wide r0 r1 r2 r3 r4 r5 r6 r7) v).
  { intros v Wv Ev. unfold redc. split; [exact Wv|]. rewrite Ev.
    split; [apply Z.mod_pos_bound; lia|]. rewrite Z.mul_mod_idemp_l by lia. rewrite E.
    apply Z.mod_add. lia. }
  split; apply R.
  - apply reduce_partial_spec; assumption.
  - apply reduce_partial_spec; assumption.
  - apply const_reduce_partial_spec; assumption.
  - apply const_reduce_partial_spec; assumption.
Qed.

Lemma reduce_full_both : forall a, wf a -> redc (val a) (reduce_full F a) /\ redc (val a) (const_reduce_full F a).
Proof.
  intros a W. pose proof (val_range _ W). assert (1 < p) by apply G. pose proof inB0. pose proof B4_pos.
  assert (E : val a = wide (l0 a) (l1 a) (l2 a) (l3 a) 0 0 0 0) by (unfold val, wide; ring).
  rewrite E. destruct W as (? & ? & ? & ?).
  apply mont_reduce_both; auto. rewrite <- E. nia.
Qed.

Lemma mul_both : forall a x, wf a -> wf x -> val x < p \/ val a < p ->
  redc (val a * val x) (mul F a x) /\ redc (val a * val x) (const_mul F a x).
Proof.
  intros a x Wa Wx LT. unfold mul, const_mul.
  destruct (mul_wide a x) as [[[[[[[r0 r1] r2] r3] r4] r5] r6] r7] eqn:E.
  apply mul_wide_spec in E; auto. destruct E as (? & ? & ? & ? & ? & ? & ? & ? & E).
  rewrite <- E. pose proof (val_range _ Wa). pose proof (val_range _ Wx).
  apply mont_reduce_both; auto. rewrite E. nia.
Qed.

Lemma square_both : forall a, wf a -> val a < p ->
  redc (val a * val a) (square F a) /\ redc (val a * val a) (const_square F a).
Proof.
  intros a W LT. unfold square, const_square. pose proof (val_range _ W). pose proof B4_pos.
  assert (1 < p) by apply G. assert (2 * p < B4) by apply G.
  split.
  - destruct (square_wide acc a) as [[[[[[[r0 r1] r2] r3] r4] r5] r6] r7] eqn:E.
    apply square_wide_spec in E; auto; [|intros r c lo hi; apply acc_spec].
    destruct E as (? & ? & ? & ? & ? & ? & ? & ? & E).
    rewrite <- E. apply mont_reduce_both; auto. rewrite E. nia.
  - destruct (square_wide (fun r c => const_adc r 0 c) a) as [[[[[[[r0 r1] r2] r3] r4] r5] r6] r7] eqn:E.
    apply square_wide_spec in E; auto.
    + destruct E as (? & ? & ? & ? & ? & ? & ? & ? & E).
      rewrite <- E. apply mont_reduce_both; auto. rewrite E. nia.
    + intros r c lo hi Hr Hc Q. apply const_adc_spec in Q; auto; [|apply inB0|unfold inB in *; lia].
      destruct Q as (? & ? & Q). split; [assumption|]. split; [assumption|]. lia.
Qed.

Lemma add_both : forall a x, wf a -> wf x -> val a < p -> val x < p ->
  (wf (add F a x) /\ val (add F a x) = (val a + val x) mod p) /\
  (wf (const_add F a x) /\ val (const_add F a x) = (val a + val x) mod p).
Proof.
  intros a x Wa Wx La Lx. assert (2 * p < B4) by apply G. split.
  - unfold add, add_noreduce. destruct (add_loop _ adc_adder a x Wa Wx) as [W E]; [lia|].
    rewrite <- E. apply reduce_partial_spec; [exact W|lia].
  - unfold const_add, const_add_noreduce. destruct (add_loop _ const_adc_adder a x Wa Wx) as [W E]; [lia|].
    rewrite <- E. apply const_reduce_partial_spec; [exact W|lia].
Qed.

Lemma mod_between : forall x k, 0 <= x + k * p < p -> x mod p = x + k * p.
Proof.
  intros x k H. assert (1 < p) by apply G.
  rewrite <- (Z.mod_add x k p) by lia. apply Z.mod_small. exact H.
Qed.

Lemma sub_both : forall a x, wf a -> wf x -> val a < p -> val x < p ->
  (wf (sub F a x) /\ val (sub F a x) = (val a - val x) mod p) /\
  (wf (const_sub F a x) /\ val (const_sub F a x) = (val a - val x) mod p).
Proof.
  intros a x Wa Wx La Lx. destruct G as (WP & _ & _ & P1 & P2 & _). fold p in P1, P2.
  pose proof (val_range _ Wa). pose proof (val_range _ Wx).
  unfold sub, const_sub. rewrite const_gt_spec by assumption.
  destruct (Z.ltb_spec (val a) (val x)) as [C|C].
  - rewrite (mod_between _ 1) by lia. split.
    + destruct (add_loop _ adc_adder a (f_P F) Wa WP) as [W E]; [fold p; lia|]. fold p in E.
      destruct (sub_loop _ sbb_subber _ x W Wx) as [W' E']; [lia|].
      unfold sub_noreduce, add_noreduce. split; [exact W'|]. rewrite E'. lia.
    + destruct (add_loop _ const_adc_adder a (f_P F) Wa WP) as [W E]; [fold p; lia|]. fold p in E.
      destruct (sub_loop _ const_sbb_subber _ x W Wx) as [W' E']; [lia|].
      unfold const_sub_noreduce, const_add_noreduce. split; [exact W'|]. rewrite E'. lia.
  - rewrite (mod_between _ 0) by lia. split.
    + destruct (sub_loop _ sbb_subber a x Wa Wx) as [W' E']; [lia|].
      unfold sub_noreduce. split; [exact W'|]. lia.
    + destruct (sub_loop _ const_sbb_subber a x Wa Wx) as [W' E']; [lia|].
      unfold const_sub_noreduce. split; [exact W'|]. lia.
Qed.

Lemma neg_both : forall a, wf a -> val a < p ->
  (wf (neg F a) /\ val (neg F a) = (- val a) mod p) /\
  (wf (const_neg F a) /\ val (const_neg F a) = (- val a) mod p).
Proof.
  intros a Wa La. destruct G as (WP & _ & _ & P1 & P2 & _). fold p in P1, P2.
  pose proof (val_range _ Wa). unfold neg, const_neg. rewrite is_zero_spec by assumption.
  destruct (Z.eqb_spec (val a) 0) as [Z0|NZ].
  - rewrite Z0. change (- 0) with 0. rewrite Z.mod_0_l by lia. auto.
  - rewrite (mod_between _ 1) by lia. split.
    + destruct (sub_loop _ sbb_subber (f_P F) a WP Wa) as [W' E']; [fold p; lia|]. fold p in E'.
      unfold sub_noreduce. split; [exact W'|]. lia.
    + destruct (sub_loop _ const_sbb_subber (f_P F) a WP Wa) as [W' E']; [fold p; lia|]. fold p in E'.
      unfold const_sub_noreduce. split; [exact W'|]. lia.
Qed.

End Reduce.
