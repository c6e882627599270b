(* The statements of C80, from the lemmas of CurveProof and CurveTables. *)
From Coq Require Import List ZArith NArith Lia Bool Znumtheory Ring ZifyBool ZifyNat ZifyN.
From Verif Require Import Radix FeltModel FeltSpec FeltProof MontModel MontSpec MontProof MontOpsProof
  MontRootProof MontBytesProof MontPrimes MontProperties.
From Verif Require Import CurveModel CurveSpec CurveMeanSpec CurveField CurveGroup CurveRoot CurvePoints CurveOrder CurveProof CurveTables.
Import ListNotations.
Local Open Scope Z_scope.
Local Notation p := base_prime.
Add Field elt_field5 : F_field.

(* constants *)
Ltac rep_lit := unfold represents, u64s, u64;
  repeat match goal with |- _ /\ _ => split end; vm_compute; try reflexivity; discriminate.
Lemma curve_b_rep : represents p CURVE_B curve_b. Proof. rep_lit. Qed.
Lemma gx_rep : represents p (p_x CURVE_G) gx. Proof. rep_lit. Qed.
Lemma gy_rep : represents p (p_y CURVE_G) gy. Proof. rep_lit. Qed.
Definition sx : Z := match shift_point with At x _ => x | Infinity => 0 end.
Definition sy : Z := match shift_point with At _ y => y | Infinity => 0 end.
Lemma sx_rep : represents p (p_x PEDERSEN_P0) sx. Proof. rep_lit. Qed.
Lemma sy_rep : represents p (p_y PEDERSEN_P0) sy. Proof. rep_lit. Qed.
Definition check_on (P : cpoint) : bool :=
  match P with Infinity => true
  | At x y => (0 <=? x) && (x <? p) && (0 <=? y) && (y <? p) && ((y * y - (x * x * x + x + curve_b)) mod p =? 0) end.
Lemma check_on_ok : forall P, check_on P = true -> on_stark P.
Proof.
  intros [|x y] H; [exact Coq.Init.Logic.I|]. unfold check_on in H. rewrite !andb_true_iff in H.
  destruct H as ((((A & B) & C) & D) & E). apply Z.leb_le in A, C. apply Z.ltb_lt in B, D. apply Z.eqb_eq in E.
  cbn [on_stark]. split; [lia|]. split; [lia|]. apply Z.mod_divide in E; [|pose proof p_big; lia]. destruct E as [c E].
  replace (y * y) with (x * x * x + x + curve_b + c * p) by lia. apply Z_mod_plus_full.
Qed.
Lemma on_shift : on_stark shift_point. Proof. apply check_on_ok. vm_cast_no_check (eq_refl true). Qed.
Lemma on_1 : on_stark pedersen_1. Proof. apply check_on_ok. vm_cast_no_check (eq_refl true). Qed.
Lemma on_2 : on_stark pedersen_2. Proof. apply check_on_ok. vm_cast_no_check (eq_refl true). Qed.
Lemma on_3 : on_stark pedersen_3. Proof. apply check_on_ok. vm_cast_no_check (eq_refl true). Qed.
Lemma on_4 : on_stark pedersen_4. Proof. apply check_on_ok. vm_cast_no_check (eq_refl true). Qed.
Lemma emb_gen : emb generator = G. Proof. reflexivity. Qed.
Lemma on_gen : on_stark generator. Proof. apply check_on_ok. vm_cast_no_check (eq_refl true). Qed.
#[local] Opaque base_prime.
Lemma lit_projective : forall a x y, p_z a = ONE -> p_inf a = false ->
  represents p (p_x a) x -> represents p (p_y a) y -> mP a (PT (el x) (el y)).
Proof.
  intros a x y Z I X Y. exists (el x), (el y), (el 1). rewrite Z, I. split; [apply rep_val, X|]. split; [apply rep_val, Y|].
  split; [exact rep_one|]. split; [exact one_nz|]. exists (el x), (el y). split; [reflexivity|]. split; ring.
Qed.
Lemma curve_g_ok : mP CURVE_G G.
Proof. exact (lit_projective CURVE_G gx gy eq_refl eq_refl gx_rep gy_rep). Qed.
Lemma p0_ok : mP PEDERSEN_P0 (emb shift_point).
Proof. exact (lit_projective PEDERSEN_P0 sx sy eq_refl eq_refl sx_rep sy_rep). Qed.

(* the group *)
Lemma times_ex : forall k P, on_stark P -> exists R, on_stark R /\ times k P R /\ emb R = gmul k (emb P).
Proof.
  intros k P O. pose proof (gmul_on k _ (on_emb _ O)) as OR. exists (unemb (gmul k (emb P))).
  split; [apply on_unemb, OR|]. rewrite emb_unemb. split; [|reflexivity].
  apply (times_gmul _ _ _ O). split; [apply on_unemb, OR|]. symmetry. apply emb_unemb.
Qed.
Lemma times_det : forall k P R R', on_stark P -> times k P R -> times k P R' -> R = R'.
Proof.
  intros k P R R' O A B. apply (times_gmul _ _ _ O) in A, B. destruct A as [OA A]. destruct B as [OB B].
  apply emb_inj; try assumption. congruence.
Qed.
Lemma times_on : forall k P R, on_stark P -> times k P R -> on_stark R /\ emb R = gmul k (emb P).
Proof. intros k P R O A. apply (times_gmul _ _ _ O) in A. destruct A. split; congruence. Qed.
Lemma sum_ex : forall P Q, on_stark P -> on_stark Q -> exists R, on_stark R /\ sum P Q R /\ emb R = gadd (emb P) (emb Q).
Proof.
  intros P Q OP OQ. exists (unemb (gadd (emb P) (emb Q))). split; [apply on_unemb, gadd_on; apply on_emb; assumption|].
  split; [apply gadd_sum; assumption|apply emb_unemb].
Qed.
Lemma sum_det : forall P Q R R', on_stark P -> on_stark Q -> sum P Q R -> sum P Q R' -> R = R'.
Proof.
  intros P Q R R' OP OQ A B. apply emb_inj; try (eapply sum_on; [| |eassumption]; assumption).
  rewrite <- (sum_gadd P Q R OP OQ A). apply sum_gadd; assumption.
Qed.
Lemma G_nonzero : G <> Oh. Proof. discriminate. Qed.
Lemma order_nz : order <> 0%N. Proof. discriminate. Qed.
Lemma order_Z : Z.of_N order = curve_order. Proof. reflexivity. Qed.
#[local] Opaque curve_order order.
Lemma gmul_G_zero : forall k, gmul k G = Oh <-> (curve_order | Z.of_N k).
Proof.
  intros k. assert (PR : prime curve_order) by exact curve_order_prime. pose proof order_Z as OZ. pose proof order_nz as ONZ.
  assert (OP : 1 < curve_order) by (destruct PR; assumption). split.
  - intros H. destruct (Zdivide_dec curve_order (Z.of_N k)) as [D|ND]; [exact D|exfalso].
    assert (RP : rel_prime curve_order (Z.of_N k)) by (apply prime_rel_prime; assumption).
    apply rel_prime_bezout in RP. destruct RP as [a b B].
    apply G_nonzero. pose proof (Z.mod_pos_bound b curve_order ltac:(lia)) as BR.
    set (c := Z.to_N (b mod curve_order)). assert (CZ : Z.of_N c = b mod curve_order) by (unfold c; lia).
    assert (E : ((c * k) mod order = 1)%N).
    { apply N2Z.inj. rewrite N2Z.inj_mod, N2Z.inj_mul, CZ, OZ, Zmult_mod_idemp_l.
      change (Z.of_N 1) with 1. rewrite <- (Z.mod_small 1 curve_order) by lia.
      replace (b * Z.of_N k) with (1 + (- a) * curve_order) by lia. apply Z_mod_plus_full. }
    rewrite <- (gmul_1 G), <- E, (gmul_mod order (c * k) G G_on ONZ order_G), (gmul_mul c k G G_on), H. apply gmul_inf.
  - intros [c D]. rewrite <- (gmul_mod order k G G_on ONZ order_G).
    replace (k mod order)%N with 0%N; [reflexivity|]. symmetry. apply N2Z.inj. rewrite N2Z.inj_mod, OZ, D. apply Z_mod_mult.
Qed.

(* scalar multiplications *)
Lemma bits_N : forall F q a n, is_field F q -> represents q a n -> load_le (into_le_bits F a) = Z.to_N n.
Proof. intros F q a n IF R. rewrite <- (into_le_bits_value F q a n IF R). symmetry. apply N2Z.id. Qed.
Lemma multiples_mA : forall w n P prep, on_stark P -> multiples w n P prep ->
  forall i d, (i < n)%N -> (0 < d < 2 ^ w)%N ->
  exists e, nth_error prep (N.to_nat (i * (2 ^ w - 1) + d - 1)) = Some e /\ mA e (gmul (d * 2 ^ (w * i)) (emb P)).
Proof.
  intros w n P prep O M i d I D. destruct (M i d I D) as (e & E & NE & TE & ME). exists e. split; [exact NE|].
  destruct (times_on _ _ _ O TE) as [OE EE]. rewrite <- EE. apply means_affine_iff; assumption.
Qed.
Lemma index_small : forall w i d n, (0 < d)%N -> (d * 2 ^ (w * i) < 2 ^ (w * n))%N -> (i < n)%N.
Proof.
  intros w i d n D H. destruct (N.lt_ge_cases i n) as [L|L]; [exact L|exfalso].
  assert (2 ^ (w * n) <= 2 ^ (w * i))%N by (apply N.pow_le_mono_r; [lia|apply N.mul_le_mono_l, L]).
  assert (1 * 2 ^ (w * i) <= d * 2 ^ (w * i))%N by (apply N.mul_le_mono_r; lia). lia.
Qed.
(* slices read with a table made for their own width or a smaller number of entries *)
Lemma add_points_table : forall w n P prep bits acc A, (0 < w)%nat -> on_stark P ->
  multiples (N.of_nat w) n P prep -> (load_le bits < 2 ^ (N.of_nat w * n))%N -> mP acc A -> on A ->
  exists r, add_points w acc bits prep = Ret r /\ mP r (gadd A (gmul (load_le bits) (emb P))).
Proof.
  intros w n P prep bits acc A W O M L MA OA.
  apply (add_points_ok w (emb P) prep (load_le bits) W (on_emb _ O)); [|exact MA|exact OA|reflexivity].
  intros i d D B. apply (multiples_mA _ n P prep O M); [|exact D].
  apply (index_small (N.of_nat w) i d n); [lia|]. eapply N.le_lt_trans; [exact B|exact L].
Qed.
Lemma add_points_small : forall P prep bits acc A, on_stark P ->
  multiples 4 1 P prep -> (load_le bits < 16)%N -> mP acc A -> on A ->
  exists r, add_points 8 acc bits prep = Ret r /\ mP r (gadd A (gmul (load_le bits) (emb P))).
Proof.
  intros P prep bits acc A O M L MA OA.
  apply (add_points_ok 8 (emb P) prep (load_le bits) ltac:(lia) (on_emb _ O)); [|exact MA|exact OA|reflexivity].
  intros i d D B. assert (I : (i < 1)%N).
  { apply (index_small 8 i d 1); [lia|]. change (2 ^ (8 * 1))%N with 256%N. change (N.of_nat 8) with 8%N in B. lia. }
  assert (i = 0)%N as -> by lia. rewrite N.mul_0_r in *. change (2 ^ 0)%N with 1%N in *.
  assert (D16 : (0 < d < 2 ^ 4)%N) by (change (2 ^ 4)%N with 16%N; lia).
  destruct (multiples_mA _ 1 P prep O M 0%N d I D16) as (e & NE & ME). exists e.
  rewrite N.mul_0_r in ME. change (2 ^ 0)%N with 1%N in ME. split; [|exact ME].
  rewrite <- NE. f_equal; lia.
Qed.
Lemma gen_multiply_ok : forall prep a k, multiples 4 63 generator prep -> represents curve_order a k ->
  exists r, gen_multiply_elm prep a = Ret r /\ mP r (gmul (Z.to_N k) G).
Proof.
  intros prep a k M R. pose proof (bits_N scalar_field curve_order a k is_scalar R) as BV. unfold gen_multiply_elm.
  destruct (add_points_table 4 63 generator prep (into_le_bits scalar_field a) projective_identity Oh ltac:(lia) on_gen M) as (r & -> & MR).
  - rewrite BV. assert (KR : 0 <= k < curve_order) by apply R.
    assert (CB : curve_order < 2 ^ 252) by reflexivity. change (2 ^ (N.of_nat 4 * 63))%N with (Z.to_N (2 ^ 252)).
    apply Z2N.inj_lt; lia.
  - exact identity_ok.
  - exact Coq.Init.Logic.I.
  - exists r. split; [reflexivity|]. rewrite BV in MR. exact MR.
Qed.

(* the hash *)
Lemma pedersen_ok : forall fuel t a b n m, (600 <= fuel)%nat -> right_tables t -> denotes a n -> denotes b m ->
  exists R h, pedersen_point n m R /\ on_stark R /\ pedersen_hash fuel t a b = Ret h /\
    forall x y, R = At x y -> denotes h (Z.to_N x).
Proof.
  intros fuel t a b n m FU (T1 & T2 & T3 & T4) Da Db.
  destruct Da as ((La & Ba & Na) & <-). destruct Db as ((Lb & Bb & Nb) & <-).
  destruct (felt_le_bits_value a Ba) as [Va LLa]. destruct (felt_le_bits_value b Bb) as [Vb LLb].
  unfold pedersen_hash. cbn zeta.
  assert (SMALL : forall f, (be_value f < P)%N -> (be_value f / 2 ^ 248 < 16)%N).
  { intros f H. apply N.div_lt_upper_bound; [discriminate|]. eapply N.lt_trans; [exact H|]. reflexivity. }
  assert (LO : forall bits v, load_le bits = v -> load_le (firstn 248 bits) = (v mod 2 ^ 248)%N).
  { intros bits v <-. apply (load_le_firstn 248 bits). }
  assert (HI : forall bits v, load_le bits = v -> (v / 2 ^ 248 < 16)%N -> load_le (firstn 4 (skipn 248 bits)) = (v / 2 ^ 248)%N).
  { intros bits v <- S. rewrite load_le_firstn, (load_le_skipn 248 bits). apply N.mod_small. exact S. }
  pose proof (LO _ _ Va) as LOa. pose proof (LO _ _ Vb) as LOb.
  pose proof (HI _ _ Va (SMALL a Na)) as HIa. pose proof (HI _ _ Vb (SMALL b Nb)) as HIb.
  pose proof (on_emb _ on_shift) as O0.
  assert (MB : forall v, (v mod 2 ^ 248 < 2 ^ (N.of_nat 8 * 31))%N).
  { intros v. apply N.mod_lt. discriminate. }
  destruct (times_ex (be_value a mod 2 ^ 248) pedersen_1 on_1) as (A1 & OA1 & TA1 & EA1).
  destruct (times_ex (be_value a / 2 ^ 248) pedersen_2 on_2) as (A2 & OA2 & TA2 & EA2).
  destruct (times_ex (be_value b mod 2 ^ 248) pedersen_3 on_3) as (B1 & OB1 & TB1 & EB1).
  destruct (times_ex (be_value b / 2 ^ 248) pedersen_4 on_4) as (B2 & OB2 & TB2 & EB2).
  destruct (sum_ex shift_point A1 on_shift OA1) as (S1 & OS1 & SS1 & ES1).
  destruct (sum_ex S1 A2 OS1 OA2) as (S2 & OS2 & SS2 & ES2).
  destruct (sum_ex S2 B1 OS2 OB1) as (S3 & OS3 & SS3 & ES3).
  destruct (sum_ex S3 B2 OS3 OB2) as (R & OR & SR & ER).
  destruct (add_points_table 8 31 pedersen_1 _ _ _ _ ltac:(lia) on_1 T1 ltac:(rewrite LOa; apply MB) p0_ok O0) as (r1 & -> & M1).
  rewrite LOa, <- EA1, <- ES1 in M1. cbn [bind].
  destruct (add_points_small pedersen_2 _ _ _ _ on_2 T2 ltac:(rewrite HIa; apply SMALL, Na) M1 (on_emb _ OS1)) as (r2 & -> & M2).
  rewrite HIa, <- EA2, <- ES2 in M2. cbn [bind].
  destruct (add_points_table 8 31 pedersen_3 _ _ _ _ ltac:(lia) on_3 T3 ltac:(rewrite LOb; apply MB) M2 (on_emb _ OS2)) as (r3 & -> & M3).
  rewrite LOb, <- EB1, <- ES3 in M3. cbn [bind].
  destruct (add_points_small pedersen_4 _ _ _ _ on_4 T4 ltac:(rewrite HIb; apply SMALL, Nb) M3 (on_emb _ OS3)) as (r4 & -> & M4).
  rewrite HIb, <- EB2, <- ER in M4. cbn [bind].
  destruct (affine_of_projective_ok fuel r4 _ FU M4) as (r & -> & MA & x & y & X & Y). cbn [bind].
  destruct (felt_of_mont_rep _ _ X) as (h & -> & D). exists R, h.
  split; [exists A1, A2, B1, B2, S1, S2, S3; repeat split; assumption|]. split; [exact OR|]. split; [reflexivity|].
  intros px py ->. assert (MR : mA r (emb (At px py))) by (apply MA; discriminate).
  apply (means_affine_iff _ _ OR) in MR. destruct MR as (x' & y' & X' & Y' & E).
  destruct (a_inf r); [discriminate E|]. injection E as <- <-.
  apply rep_val in X'. rewrite (rep_fun _ _ _ X X') in D. rewrite el_small in D by apply OR. exact D.
Qed.

(* tables that hold the multiples exist *)
Lemma rep_ex : forall u, exists a, rep a u.
Proof.
  intros u. pose proof (val_range u) as R. set (v := val u) in *.
  assert (PB : p < 2 ^ 256) by reflexivity.
  set (a := Limbs (v mod 2 ^ 64) (v / 2 ^ 64 mod 2 ^ 64) (v / 2 ^ 128 mod 2 ^ 64) (v / 2 ^ 192)).
  exists (from_native base_field a). unfold rep. fold v.
  assert (W : u64s a).
  { unfold u64s, u64, a. cbn [l0 l1 l2 l3]. repeat match goal with |- _ /\ _ => split end;
    try (apply Z.mod_pos_bound; reflexivity).
    - apply Z.div_pos; [lia|reflexivity].
    - apply Z.div_lt_upper_bound; [reflexivity|]. change (2 ^ 192 * 2 ^ 64) with (2 ^ 256). lia. }
  pose proof (C05_from_native _ _ is_base a W) as H. replace (value a mod p) with v in H; [exact H|].
  assert (E : value a = v).
  { unfold value, a. cbn [l0 l1 l2 l3]. change (2 ^ 128) with (2 ^ 64 * 2 ^ 64). change (2 ^ 192) with (2 ^ 64 * 2 ^ 64 * 2 ^ 64).
    rewrite <- !Z.div_div by (reflexivity || discriminate). set (q := v / 2 ^ 64). set (q2 := q / 2 ^ 64). set (q3 := q2 / 2 ^ 64).
    pose proof (Z.div_mod v (2 ^ 64) ltac:(discriminate)) as E1. fold q in E1.
    pose proof (Z.div_mod q (2 ^ 64) ltac:(discriminate)) as E2. fold q2 in E2.
    pose proof (Z.div_mod q2 (2 ^ 64) ltac:(discriminate)) as E3. fold q3 in E3.
    rewrite E1 at 2. rewrite E2 at 2. rewrite E3 at 2. ring. }
  rewrite E. symmetry. apply Z.mod_small. exact R.
Qed.
Lemma mA_ex : forall P, exists a, mA a P.
Proof.
  intros [|u v].
  - exists affine_identity, (el 0), (el 0). split; [exact rep_zero|]. split; [exact rep_zero|reflexivity].
  - destruct (rep_ex u) as [a A]. destruct (rep_ex v) as [b B]. exists (Affine a b false), u, v. auto.
Qed.
Lemma list_ex : forall (R : nat -> affine -> Prop), (forall j, exists a, R j a) ->
  forall len, exists l, length l = len /\ forall j, (j < len)%nat -> exists a, nth_error l j = Some a /\ R j a.
Proof.
  intros R H. induction len as [|len (l & L & IH)].
  - exists []. split; [reflexivity|]. intros j J. lia.
  - destruct (H len) as [a A]. exists (l ++ [a]). split; [rewrite app_length, L; cbn; lia|].
    intros j J. destruct (Nat.eq_dec j len) as [->|NE].
    + exists a. split; [|exact A]. rewrite nth_error_app2 by lia. rewrite L, Nat.sub_diag. reflexivity.
    + destruct (IH j ltac:(lia)) as (x & NX & X). exists x. split; [|exact X]. rewrite nth_error_app1 by lia. exact NX.
Qed.
Lemma multiples_ex : forall w n P, on_stark P -> (0 < w)%N -> exists prep, multiples w n P prep.
Proof.
  intros w n P O W. set (ts := (2 ^ w - 1)%N).
  assert (TS : (0 < ts)%N). { unfold ts. assert (2 ^ 1 <= 2 ^ w)%N by (apply N.pow_le_mono_r; lia). change (2 ^ 1)%N with 2%N in H. lia. }
  set (K := fun j : nat => ((N.of_nat j mod ts + 1) * 2 ^ (w * (N.of_nat j / ts)))%N).
  destruct (list_ex (fun j a => mA a (gmul (K j) (emb P))) ltac:(intros j; apply mA_ex) (N.to_nat (n * ts))) as (prep & _ & H).
  exists prep. intros i d I D. fold ts. set (j := N.to_nat (i * ts + d - 1)).
  assert (J : N.of_nat j = (i * ts + (d - 1))%N) by (unfold j; lia).
  assert (DT : (d - 1 < ts)%N) by (unfold ts in *; lia).
  destruct (H j) as (e & NE & ME).
  { assert ((i + 1) * ts <= n * ts)%N by (apply N.mul_le_mono_r; lia). unfold j. lia. }
  assert (KJ : K j = (d * 2 ^ (w * i))%N).
  { unfold K. rewrite J. rewrite (N.add_comm (i * ts)), N.div_add, N.mod_add by lia.
    rewrite (N.div_small _ _ DT), (N.mod_small _ _ DT), N.add_0_l. f_equal. lia. }
  rewrite KJ in ME. destruct (times_ex (d * 2 ^ (w * i)) P O) as (E & OE & TE & EE).
  exists e, E. split; [exact NE|]. split; [exact TE|]. apply means_affine_iff; [exact OE|]. rewrite EE. exact ME.
Qed.
