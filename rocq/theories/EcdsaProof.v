(* What signing and verifying come to. *)
From Coq Require Import List ZArith NArith Lia Bool Znumtheory Ring ZifyBool ZifyNat ZifyN.
From Verif Require Import Radix FeltModel FeltSpec FeltProof MontModel MontSpec MontProof MontOpsProof
  MontRootProof MontBytesProof MontPrimes MontProperties.
From Verif Require Import CurveModel CurveSpec CurveMeanSpec CurveField CurveGroup CurveRoot CurvePoints CurveOrder CurveProof CurveTables CurveMain CurveProperties.
From Verif Require Import EcdsaModel EcdsaSpec.
Import ListNotations.
Local Open Scope Z_scope.
Local Notation p := base_prime.
Local Notation q := curve_order.
Local Notation val := CurveField.val.
Add Field elt_field7 : F_field.

Lemma upper_bound_rep : represents p UPPER_BOUND bound. Proof. rep_lit. Qed.
Lemma q_big : 1000 < q. Proof. reflexivity. Qed.
Lemma q_lt_p : q < p. Proof. reflexivity. Qed.
Lemma bound_lt_q : bound < q. Proof. reflexivity. Qed.
Lemma bound_big : 1000 < bound. Proof. reflexivity. Qed.
#[local] Opaque base_prime curve_order bound order.

Lemma geb_spec : forall a b n m, represents p a n -> represents p b m -> geb a b = (m <=? n).
Proof.
  intros a b n m A B. unfold geb. destruct (C04_tests _ _ is_base a b n m A B) as (_ & _ & ->).
  destruct (Z.compare_spec n m); symmetry; [apply Z.leb_le|apply Z.leb_gt|apply Z.leb_le]; lia.
Qed.
Lemma zero_rep : forall F r, is_field F r -> represents r ZERO 0.
Proof. intros F r IF. exact (represents_zero F r (is_field_facts F r IF)). Qed.
Lemma eqb_zero : forall F r, is_field F r -> forall a n, represents r a n -> limbs_eqb a ZERO = (n =? 0).
Proof.
  intros F r IF a n R. pose proof (C04_one_representation F r IF a ZERO n 0 R (zero_rep F r IF)) as H.
  destruct (limbs_eqb a ZERO) eqn:E; symmetry.
  - apply limbs_eqb_spec in E. apply Z.eqb_eq, H, E.
  - apply Z.eqb_neq. intros N. apply H in N. subst a. apply not_true_iff_false in E. apply E. apply limbs_eqb_spec. reflexivity.
Qed.
Lemma felt_of_scalar_rep : forall a n, represents q a n -> exists f, felt_of_scalar a = Ret f /\ denotes f (Z.to_N n).
Proof.
  intros a n H. destruct (to_bytes_rep scalar_field q is_scalar a n H) as (L & HB & E).
  assert (NR : 0 <= n < q) by apply H. pose proof q_lt_p as QP.
  assert (D : denotes (mont_to_be_bytes scalar_field a) (Z.to_N n)).
  { split; [split; [exact L|split; [exact HB|]]|].
    - apply N2Z.inj_lt. rewrite E, P_base. lia.
    - rewrite <- E, N2Z.id. reflexivity. }
  exists (mont_to_be_bytes scalar_field a). split; [|exact D]. unfold felt_of_scalar.
  assert (O : from_be_bytes (mont_to_be_bytes scalar_field a) = Ok (mont_to_be_bytes scalar_field a)).
  { apply from_be_bytes_ok; auto. split; [reflexivity|]. apply D. }
  rewrite O. reflexivity.
Qed.
Lemma felt_of_base_rep : forall a n, represents p a n -> exists f, felt_of_base a = Ret f /\ denotes f (Z.to_N n).
Proof. intros a n H. destruct (felt_of_mont_rep a n H) as (f & E & D). exists f. unfold felt_of_base. rewrite E. auto. Qed.
Lemma unwrap_scalar_rep : forall a n, represents p a n ->
  match unwrap_scalar a with Ret s => n < q /\ represents q s n | Panics => q <= n | Diverges => False end.
Proof.
  intros a n R. pose proof (C05_scalar_of_mont a n R) as H. unfold unwrap_scalar.
  destruct (scalar_of_mont a); exact H.
Qed.
Lemma scalar_inverse : forall fuel a n, (600 <= fuel)%nat -> represents q a n -> n <> 0 ->
  exists y m, unwrap_inverse scalar_field fuel a = Ret y /\ represents q y m /\ (n * m) mod q = 1.
Proof.
  intros fuel a n FU R NZ. pose proof (C04_inverse _ _ is_scalar fuel a n FU R) as H. unfold unwrap_inverse.
  destruct (inverse scalar_field fuel a) as [[y|]|]; [|contradiction|contradiction].
  destruct H as (_ & m & RM & M). exists y, m. auto.
Qed.
Lemma scalar_mul : forall a b n m, represents q a n -> represents q b m -> represents q (mul scalar_field a b) ((n * m) mod q).
Proof. intros a b n m A B. exact (proj1 (C04_mul _ _ is_scalar _ _ _ _ A B)). Qed.
Lemma scalar_add : forall a b n m, represents q a n -> represents q b m -> represents q (add scalar_field a b) ((n + m) mod q).
Proof. intros a b n m A B. exact (proj1 (C04_add _ _ is_scalar _ _ _ _ A B)). Qed.

(* inverses modulo the order *)
Lemma inverse_unique : forall s m w, (s * m) mod q = 1 -> (s * w) mod q = 1 -> forall z, (z * m) mod q = (z * w) mod q.
Proof.
  intros s m w M W z. pose proof q_big as QB.
  transitivity ((z * m * (s * w)) mod q).
  - rewrite (Z.mul_mod (z * m) (s * w)), W, Z.mul_1_r, Z.mod_mod by lia. reflexivity.
  - replace (z * m * (s * w)) with ((z * w) * (s * m)) by ring.
    rewrite (Z.mul_mod (z * w) (s * m)), M, Z.mul_1_r, Z.mod_mod by lia. reflexivity.
Qed.
Lemma order_q : Z.to_N q = order. Proof. reflexivity. Qed.
Lemma q_order : Z.of_N order = q. Proof. exact order_Z. Qed.
Lemma mod_N : forall a b, ((a * b) mod Z.to_N q)%N = Z.to_N ((Z.of_N a * Z.of_N b) mod q).
Proof.
  intros a b. rewrite order_q. apply N2Z.inj. rewrite N2Z.inj_mod, N2Z.inj_mul, q_order.
  rewrite Z2N.id; [reflexivity|]. pose proof q_big. apply Z.mod_pos_bound. lia.
Qed.

(* converting a sum *)
Lemma multiply_zero : forall a bits, load_le bits = 0%N -> projective_multiply a bits = projective_identity.
Proof.
  intros a. unfold projective_multiply. induction bits as [|b bits IH]; intros H; [reflexivity|].
  rewrite load_le_cons in H. cbn [rev]. rewrite fold_left_app. cbn [fold_left].
  destruct b; cbn [N.b2n] in H; [lia|]. rewrite IH by lia. reflexivity.
Qed.
Definition x_of_sum (A B : pt) : elt :=
  match gadd A B with
  | Pt _ s _ => s
  | Inf _ => match A with Pt _ s _ => s | Inf _ => el 0 end
  end.
Lemma sum_to_affine : forall fuel a b A B, (600 <= fuel)%nat -> mP a A -> mP b B -> on A -> on B ->
  (A = Oh -> a = projective_identity) ->
  exists r, affine_of_projective fuel (projective_add a b) = Ret r /\ rep (a_x r) (x_of_sum A B).
Proof.
  intros fuel a b A B FU MA MB OA OB IA. pose proof (projective_add_ok a b A B MA MB OA OB) as MS. unfold x_of_sum.
  destruct (gadd A B) as [|s t] eqn:EG.
  - destruct A as [|s1 t1].
    + specialize (IA eq_refl). subst a. change (gadd Oh B) with B in EG. subst B.
      destruct MB as (x2 & y2 & w2 & X2 & Y2 & W2 & N2 & E2).
      assert (IB : p_inf b = true). { destruct (p_inf b); [reflexivity|]. destruct E2 as (? & ? & H & _). discriminate H. }
      unfold projective_add. rewrite IB.
      destruct (to_affine fuel projective_identity (el 0) (el 1) FU rep_zero rep_one one_nz) as (r & E & _ & X & _).
      exists r. split; [exact E|]. replace (el 0) with (fmul (el 0) (finv (el 1))) by ring. exact X.
    + destruct MA as (x1 & y1 & w1 & X1 & Y1 & W1 & N1 & E1). destruct MB as (x2 & y2 & w2 & X2 & Y2 & W2 & N2 & E2).
      destruct (p_inf a) eqn:IAf; [discriminate E1|]. destruct E1 as (s & t & H & Ex1 & Ey1). injection H as <- <-.
      destruct (p_inf b) eqn:IBf.
      { subst B. rewrite gadd_inf in EG. discriminate EG. }
      destruct E2 as (s2 & t2 & -> & Ex2 & Ey2). unfold projective_add. rewrite IAf, IBf. cbn zeta.
      pose proof (rep_mul _ _ _ _ X1 W2) as U0. pose proof (rep_mul _ _ _ _ X2 W1) as U1.
      pose proof (rep_mul _ _ _ _ Y1 W2) as T0. pose proof (rep_mul _ _ _ _ Y2 W1) as T1.
      pose proof (nz_mul _ _ N1 N2) as N12.
      assert (ES : s1 = s2).
      { destruct (feqb s1 s2) eqn:F; [apply feqb_spec, F|exfalso].
        assert (NE : s1 <> s2) by (intros H; apply feqb_spec in H; congruence).
        destruct (chord_slope s1 t1 s2 t2 NE) as (l & _ & S & _). rewrite (gadd_chord _ _ _ _ l NE S) in EG. discriminate EG. }
      subst s2. assert (NT : t1 <> t2).
      { intros <-. destruct (tangent_slope s1 t1 OA) as (l & _ & S & _). rewrite (gadd_tangent _ _ l OA S) in EG. discriminate EG. }
      rewrite (proj2 (rep_eqb _ _ _ _ U0 U1)) by (rewrite Ex1, Ex2; ring).
      assert (NTT : fmul y1 w2 <> fmul y2 w1).
      { rewrite Ey1, Ey2. intros H. apply NT. apply (fmul_cancel _ _ _ N12). transitivity (fmul (fmul t1 w1) w2); [ring|]. rewrite H. ring. }
      rewrite (proj2 (rep_eqb_false _ _ _ _ T0 T1) NTT). cbn [negb].
      destruct (to_affine fuel (Projective (p_x a) (p_y a) (p_z a) true) x1 w1 FU X1 W1 N1) as (r & E & _ & X & _).
      exists r. split; [exact E|]. rewrite Ex1, (mul_div _ _ N1) in X. exact X.
  - destruct (affine_of_projective_ok fuel _ _ FU MS) as (r & E & M & _). exists r. split; [exact E|].
    destruct (M ltac:(discriminate)) as (u & v & U & V & EQ). destruct (a_inf r); [discriminate EQ|]. injection EQ as -> ->. exact U.
Qed.

(* what verifying accepts, on points *)
Definition accepts (A B : pt) (r : Z) : Prop :=
  (exists t, gadd A B = PT (el r) t) \/ (exists t, gadd A (gopp B) = PT (el r) t) \/
  ((gadd A B = Oh \/ gadd A (gopp B) = Oh) /\ exists t, A = PT (el r) t).
Lemma accepts_x : forall A B r, el r <> el 0 ->
  (x_of_sum A B = el r \/ x_of_sum A (gopp B) = el r) <-> accepts A B r.
Proof.
  intros A B r NZ. unfold accepts, x_of_sum.
  split.
  - destruct (gadd A B) as [|s t] eqn:E1; destruct (gadd A (gopp B)) as [|s' t'] eqn:E2; destruct A as [|sa ta];
    intros [H|H]; try congruence; subst; eauto 8.
  - destruct (gadd A B) as [|s t] eqn:E1; destruct (gadd A (gopp B)) as [|s' t'] eqn:E2; destruct A as [|sa ta];
    intros [[t0 H]|[[t0 H]|[[K|K] [t0 H]]]]; try discriminate K; try discriminate H; injection H; intros; subst; auto.
Qed.
Lemma inner_ok : forall fuel pk Q z r s nz nr ns, (600 <= fuel)%nat -> mP pk Q -> on Q ->
  denotes z nz -> denotes r nr -> denotes s ns ->
  match ecdsa_verify_inner fuel pk z r s with
  | Panics => q <= Z.of_N nz \/ q <= Z.of_N nr \/ q <= Z.of_N ns
  | Diverges => False
  | Ret o => Z.of_N nz < q /\ Z.of_N nr < q /\ Z.of_N ns < q /\
      match o with
      | inr E_Message => bound <= Z.of_N nz
      | inl tt => in_bounds nz nr ns /\ exists m, (Z.of_N ns * m) mod q = 1 /\
          accepts (gmul (Z.to_N ((Z.of_N nz * m) mod q)) G) (gmul (Z.to_N ((Z.of_N nr * m) mod q)) Q) (Z.of_N nr)
      | inr E_Signature => Z.of_N nz < bound /\ (in_bounds nz nr ns -> exists m, (Z.of_N ns * m) mod q = 1 /\
          ~ accepts (gmul (Z.to_N ((Z.of_N nz * m) mod q)) G) (gmul (Z.to_N ((Z.of_N nr * m) mod q)) Q) (Z.of_N nr))
      | inr _ => False
      end
  end.
Proof.
  intros fuel pk Q z r s nz nr ns FU MQ OQ Dz Dr Ds.
  pose proof (mont_of_felt_rep z nz Dz) as Rz. pose proof (mont_of_felt_rep r nr Dr) as Rr. pose proof (mont_of_felt_rep s ns Ds) as Rs.
  unfold ecdsa_verify_inner. cbn zeta.
  pose proof (unwrap_scalar_rep _ _ Rz) as Sz. destruct (unwrap_scalar (mont_of_felt z)) as [cz| |]; [|left; exact Sz|destruct Sz]. destruct Sz as [Lz Sz].
  pose proof (unwrap_scalar_rep _ _ Rr) as Sr. cbn [bind]. destruct (unwrap_scalar (mont_of_felt r)) as [cr| |]; [|right; left; exact Sr|destruct Sr]. destruct Sr as [Lr Sr].
  pose proof (unwrap_scalar_rep _ _ Rs) as Ss. cbn [bind]. destruct (unwrap_scalar (mont_of_felt s)) as [cs| |]; [|right; right; exact Ss|destruct Ss]. destruct Ss as [Ls Ss].
  cbn [bind]. rewrite (geb_spec _ _ _ _ Rz upper_bound_rep). destruct (bound <=? Z.of_N nz) eqn:BZ.
  { apply Z.leb_le in BZ. unfold err. auto. }
  apply Z.leb_gt in BZ. rewrite (geb_spec _ _ _ _ Rr upper_bound_rep), (eqb_zero _ _ is_base _ _ Rr).
  destruct ((Z.of_N nr =? 0) || (bound <=? Z.of_N nr)) eqn:BR.
  { unfold err. split; [exact Lz|]. split; [exact Lr|]. split; [exact Ls|]. split; [exact BZ|]. intros (_ & IR & _). lia. }
  rewrite (geb_spec _ _ _ _ Rs upper_bound_rep), (eqb_zero _ _ is_base _ _ Rs).
  destruct ((Z.of_N ns =? 0) || (bound <=? Z.of_N ns)) eqn:BS.
  { unfold err. split; [exact Lz|]. split; [exact Lr|]. split; [exact Ls|]. split; [exact BZ|]. intros (_ & _ & IS). lia. }
  assert (IB : in_bounds nz nr ns) by (unfold in_bounds; lia).
  destruct (scalar_inverse fuel cs _ FU Ss ltac:(lia)) as (y & m & -> & RM & M). cbn [bind].
  pose proof (scalar_mul _ _ _ _ Sz RM) as U1. pose proof (scalar_mul _ _ _ _ Sr RM) as U2.
  unfold projective_multiply_elm.
  set (b1 := into_le_bits scalar_field (mul scalar_field cz y)). set (b2 := into_le_bits scalar_field (mul scalar_field cr y)).
  pose proof (bits_N _ _ _ _ is_scalar U1) as V1. pose proof (bits_N _ _ _ _ is_scalar U2) as V2. fold b1 in V1. fold b2 in V2.
  pose proof (projective_multiply_ok CURVE_G G b1 curve_g_ok G_on) as M1. pose proof (projective_multiply_ok pk Q b2 MQ OQ) as M2.
  rewrite V1 in M1. rewrite V2 in M2.
  set (A := gmul (Z.to_N ((Z.of_N nz * m) mod q)) G) in *. set (B := gmul (Z.to_N ((Z.of_N nr * m) mod q)) Q) in *.
  assert (OA : on A) by (apply gmul_on, G_on). assert (OB : on B) by (apply gmul_on, OQ).
  assert (IA : A = Oh -> projective_multiply CURVE_G b1 = projective_identity).
  { intros H. apply multiply_zero. rewrite V1. unfold A in H. apply gmul_G_zero in H. pose proof q_big as QB.
    pose proof (Z.mod_pos_bound (Z.of_N nz * m) q ltac:(lia)) as R0. rewrite Z2N.id in H by lia.
    destruct H as [c H]. assert (c = 0) by nia. subst c. rewrite H. reflexivity. }
  destruct (sum_to_affine fuel _ _ A B FU M1 M2 OA OB IA) as (r1 & -> & X1). cbn [bind].
  destruct (sum_to_affine fuel _ _ A (gopp B) FU M1 (projective_negate_ok _ _ M2) OA (gopp_on _ OB) IA) as (r2 & -> & X2). cbn [bind].
  assert (NZ : el (Z.of_N nr) <> el 0).
  { intros H. apply (f_equal val) in H. rewrite !el_small in H by (pose proof p_big; pose proof q_lt_p; lia). lia. }
  pose proof (accepts_x A B (Z.of_N nr) NZ) as AX. apply rep_val in Rr.
  destruct (limbs_eqb (a_x r1) (mont_of_felt r) || limbs_eqb (a_x r2) (mont_of_felt r)) eqn:EQ; unfold ok, err.
  - split; [exact Lz|]. split; [exact Lr|]. split; [exact Ls|]. split; [exact IB|]. exists m. split; [exact M|].
    apply AX. apply orb_true_iff in EQ. destruct EQ as [E|E]; [left; exact (proj1 (rep_eqb _ _ _ _ X1 Rr) E)|right; exact (proj1 (rep_eqb _ _ _ _ X2 Rr) E)].
  - split; [exact Lz|]. split; [exact Lr|]. split; [exact Ls|]. split; [exact BZ|]. intros _. exists m. split; [exact M|].
    intros H. apply AX in H. apply orb_false_iff in EQ. destruct EQ as [E1 E2].
    apply (rep_eqb_false _ _ _ _ X1 Rr) in E1. apply (rep_eqb_false _ _ _ _ X2 Rr) in E2. tauto.
Qed.
