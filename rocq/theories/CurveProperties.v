(* C80: the Stark curve is a group of points on which the code adds, doubles and multiplies
   correctly, and the Pedersen hash is the x coordinate of the point it is defined by. *)
From Coq Require Import List ZArith NArith Lia Bool Znumtheory Ring.
From Verif Require Import Radix FeltModel FeltSpec MontModel MontSpec MontProperties.
From Verif Require Import CurveModel CurveSpec CurveMeanSpec CurveField CurveGroup CurvePoints CurveOrder CurveProof CurveTables CurveMain.
Import ListNotations.
Local Open Scope Z_scope.
#[local] Opaque base_prime curve_order.
Add Field elt_field6 : F_field.

(* Any two points of the curve have exactly one sum, which is on the curve. *)
Theorem C80_sum : forall P Q, on_stark P -> on_stark Q ->
  exists R, sum P Q R /\ on_stark R /\ forall R', sum P Q R' -> R' = R.
Proof.
  intros P Q OP OQ. destruct (sum_ex P Q OP OQ) as (R & OR & S & _). exists R.
  split; [exact S|]. split; [exact OR|]. intros R' S'. exact (sum_det P Q R' R OP OQ S' S).
Qed.
Print Assumptions C80_sum.

(* The order of adding, and the grouping, make no difference, and a point and its opposite
   cancel: the points of the curve are a commutative group. *)
Theorem C80_group :
  (forall P Q R, on_stark P -> on_stark Q -> sum P Q R -> sum Q P R) /\
  (forall P Q R PQ QR S T, on_stark P -> on_stark Q -> on_stark R ->
     sum P Q PQ -> sum PQ R S -> sum Q R QR -> sum P QR T -> S = T) /\
  (forall P, on_stark P -> on_stark (opposite P) /\ sum P (opposite P) Infinity).
Proof.
  split; [|split].
  - intros P Q R OP OQ S. pose proof (sum_on P Q R OP OQ S) as OR. apply (sum_iff Q P R OQ OP OR).
    rewrite gadd_comm by (apply on_emb; assumption). exact (sum_gadd P Q R OP OQ S).
  - intros P Q R PQ QR S T OP OQ OR H1 H2 H3 H4.
    pose proof (sum_on _ _ _ OP OQ H1) as O1. pose proof (sum_on _ _ _ O1 OR H2) as O2.
    pose proof (sum_on _ _ _ OQ OR H3) as O3. pose proof (sum_on _ _ _ OP O3 H4) as O4.
    apply emb_inj; try assumption.
    rewrite <- (sum_gadd _ _ _ O1 OR H2), <- (sum_gadd _ _ _ OP OQ H1), <- (sum_gadd _ _ _ OP O3 H4), <- (sum_gadd _ _ _ OQ OR H3).
    apply gadd_assoc; apply on_emb; assumption.
  - intros P OP. assert (OO : on_stark (opposite P)).
    { destruct P as [|x y]; [exact OP|].
      pose proof (gopp_on _ (on_emb _ OP)) as H. rewrite <- emb_opposite in H. cbn [opposite emb] in H.
      cbn [opposite on_stark]. destruct OP as (X & _). split; [exact X|].
      split; [apply Z.mod_pos_bound; pose proof p_big; lia|]. apply on_cubic. exact H. }
    split; [exact OO|]. apply (sum_iff _ _ Infinity OP OO Coq.Init.Logic.I). rewrite emb_opposite. apply gadd_opp.
Qed.
Print Assumptions C80_group.

(* No point is its own opposite, so doubling never divides by zero. *)
Theorem C80_no_point_of_order_two : forall x y, on_stark (At x y) -> y <> 0.
Proof. intros x y O E. subst y. apply (no_two_torsion _ _ (on_emb _ O)). reflexivity. Qed.
Print Assumptions C80_no_point_of_order_two.

(* The generator is on the curve and its multiples come back to the neutral point exactly at
   the multiples of the curve order. *)
Theorem C80_generator_order : on_stark generator /\
  forall k, times k generator Infinity <-> (curve_order | Z.of_N k).
Proof.
  split; [exact on_gen|]. intros k. rewrite (times_gmul k generator Infinity on_gen).
  change (emb generator) with G. change (emb Infinity) with (Inf elt). rewrite <- gmul_G_zero. cbn [on_stark]. tauto.
Qed.
Print Assumptions C80_generator_order.

(* AffinePoint: add, double and negate give the sum and the opposite, without panicking. *)
Theorem C80_affine : forall fuel a b P Q R, (600 <= fuel)%nat -> on_stark P -> on_stark Q ->
  means_affine a P -> means_affine b Q -> sum P Q R ->
  (exists r, affine_add fuel a b = Ret r /\ means_affine r R) /\
  (forall D, sum P P D -> exists r, affine_double fuel a = Ret r /\ means_affine r D) /\
  means_affine (affine_negate a) (opposite P).
Proof.
  intros fuel a b P Q R FU OP OQ MA MB S. pose proof (sum_on _ _ _ OP OQ S) as OR.
  apply (means_affine_iff _ _ OP) in MA. apply (means_affine_iff _ _ OQ) in MB. split; [|split].
  - destruct (affine_add_ok fuel a b _ _ FU MA MB (on_emb _ OP) (on_emb _ OQ)) as (r & E & M).
    exists r. split; [exact E|]. apply (means_affine_iff _ _ OR). rewrite <- (sum_gadd _ _ _ OP OQ S). exact M.
  - intros D SD. pose proof (sum_on _ _ _ OP OP SD) as OD.
    destruct (affine_double_ok fuel a _ FU MA (on_emb _ OP)) as (r & E & M).
    exists r. split; [exact E|]. apply (means_affine_iff _ _ OD). rewrite <- (sum_gadd _ _ _ OP OP SD). exact M.
  - apply means_affine_iff; [apply C80_group, OP|]. rewrite emb_opposite. apply affine_negate_ok, MA.
Qed.
Print Assumptions C80_affine.

(* ProjectivePoint: add, double, negate, and add_affine of an affine point. *)
Theorem C80_projective : forall a b c P Q R, on_stark P -> on_stark Q ->
  means_projective a P -> means_projective b Q -> means_affine c Q -> sum P Q R ->
  means_projective (projective_add a b) R /\
  means_projective (projective_add_affine a c) R /\
  (forall D, sum P P D -> means_projective (projective_double a) D) /\
  means_projective (projective_negate a) (opposite P).
Proof.
  intros a b c P Q R OP OQ MA MB MC S. pose proof (sum_on _ _ _ OP OQ S) as OR.
  apply (means_projective_iff _ _ OP) in MA. apply (means_projective_iff _ _ OQ) in MB. apply (means_affine_iff _ _ OQ) in MC.
  split; [|split; [|split]].
  - apply (means_projective_iff _ _ OR). rewrite <- (sum_gadd _ _ _ OP OQ S). apply projective_add_ok; try assumption; apply on_emb; assumption.
  - apply (means_projective_iff _ _ OR). rewrite <- (sum_gadd _ _ _ OP OQ S). apply projective_add_affine_ok; try assumption; apply on_emb; assumption.
  - intros D SD. pose proof (sum_on _ _ _ OP OP SD) as OD. apply (means_projective_iff _ _ OD).
    rewrite <- (sum_gadd _ _ _ OP OP SD). apply projective_double_ok; [assumption|apply on_emb; assumption].
  - apply means_projective_iff; [apply C80_group, OP|]. rewrite emb_opposite. apply projective_negate_ok, MA.
Qed.
Print Assumptions C80_projective.

(* multiply_elm of either kind of point gives the multiple by the number the element stands for. *)
Theorem C80_multiply : forall fuel P a b m n k l, (600 <= fuel)%nat -> on_stark P ->
  means_affine a P -> means_projective b P -> represents base_prime m k -> represents curve_order n l ->
  (exists r R, affine_multiply_elm fuel a m = Ret r /\ times (Z.to_N k) P R /\ means_affine r R) /\
  (exists R, times (Z.to_N l) P R /\ means_projective (projective_multiply_elm b n) R).
Proof.
  intros fuel P a b m n k l FU OP MA MB RM RN.
  apply (means_affine_iff _ _ OP) in MA. apply (means_projective_iff _ _ OP) in MB. split.
  - destruct (affine_multiply_ok fuel a _ (into_le_bits base_field m) FU MA (on_emb _ OP)) as (r & E & M).
    rewrite (bits_N base_field base_prime m k is_base RM) in M.
    destruct (times_ex (Z.to_N k) P OP) as (R & OR & T & ER). exists r, R. split; [exact E|]. split; [exact T|].
    apply (means_affine_iff _ _ OR). rewrite ER. exact M.
  - destruct (times_ex (Z.to_N l) P OP) as (R & OR & T & ER). exists R. split; [exact T|].
    apply (means_projective_iff _ _ OR). rewrite ER, <- (bits_N scalar_field curve_order n l is_scalar RN).
    apply projective_multiply_ok; [exact MB|apply on_emb, OP].
Qed.
Print Assumptions C80_multiply.

(* gen_multiply_elm gives the multiple of the generator, never looking outside its table, which
   only has entries for 63 of the 64 chunks. *)
Theorem C80_gen_multiply : forall g_consts a k, multiples 4 63 generator g_consts -> represents curve_order a k ->
  exists r R, gen_multiply_elm g_consts a = Ret r /\ times (Z.to_N k) generator R /\ means_projective r R.
Proof.
  intros g_consts a k M R. destruct (gen_multiply_ok g_consts a k M R) as (r & E & MR).
  destruct (times_ex (Z.to_N k) generator on_gen) as (S & OS & T & ES). exists r, S.
  split; [exact E|]. split; [exact T|]. apply (means_projective_iff _ _ OS). rewrite ES. exact MR.
Qed.
Print Assumptions C80_gen_multiply.

(* from_x finds a point of the curve with that x coordinate if there is one. *)
Theorem C80_from_x : forall fuel a x, (600 <= fuel)%nat -> represents base_prime a x ->
  match from_x fuel a with
  | Ret (Some q) => exists y, on_stark (At x y) /\ means_affine q (At x y)
  | Ret None => forall y, ~ on_stark (At x y)
  | Panics | Diverges => False
  end.
Proof.
  intros fuel a x FU R. pose proof p_big as PB. unfold from_x. pose proof (rep_val _ _ R) as X.
  pose proof (rep_add _ _ _ _ (rep_add _ _ _ _ (rep_mul _ _ _ _ (rep_square _ _ X) X) (rep_mul _ _ _ _ rep_one X)) (rep_val _ _ curve_b_rep)) as Y2.
  rewrite <- !el_mul, <- !el_add in Y2. unfold rep in Y2. rewrite val_el in Y2.
  assert (FU5 : (500 <= fuel)%nat) by lia. pose proof (C54_sqrt fuel _ _ FU5 Y2) as S.
  change CURVE_A with ONE. destruct (sqrt base_field fuel _) as [y| | |]; try contradiction.
  - destruct S as (r & RY & E). exists r. replace (1 * x) with x in E by lia. split.
    + cbn [on_stark]. split; [apply R|]. split; [apply RY|exact E].
    + exists x, r. auto.
  - intros y (_ & YR & E). apply (S y). replace (1 * x) with x by lia. exact E.
Qed.
Print Assumptions C80_from_x.

(* The hash of two felts is the x coordinate of the shift point plus the four multiples, and
   computing it never panics. *)
Theorem C80_pedersen : forall fuel t a b n m, (600 <= fuel)%nat -> right_tables t -> denotes a n -> denotes b m ->
  exists R h, pedersen_point n m R /\ on_stark R /\ pedersen_hash fuel t a b = Ret h /\
    forall x y, R = At x y -> denotes h (Z.to_N x).
Proof. exact pedersen_ok. Qed.
Print Assumptions C80_pedersen.

(* Converting between the two kinds of point keeps the point, unless it is the neutral one:
   full statement, for every point; proved for the points with coordinates; false for the
   neutral one, below. *)
Theorem C80_convert_partial : forall fuel a b x y, (600 <= fuel)%nat -> on_stark (At x y) ->
  means_affine a (At x y) -> means_projective b (At x y) ->
  means_projective (projective_of_affine a) (At x y) /\
  exists r, affine_of_projective fuel b = Ret r /\ means_affine r (At x y).
Proof.
  intros fuel a b x y FU O MA MB. assert (I : a_inf a = false).
  { destruct MA as (? & ? & _ & _ & E). destruct (a_inf a); [discriminate E|reflexivity]. }
  apply (means_affine_iff _ _ O) in MA. apply (means_projective_iff _ _ O) in MB. split.
  - apply (means_projective_iff _ _ O). apply mA_mP; assumption.
  - destruct (affine_of_projective_ok fuel b _ FU MB) as (r & E & M & _). exists r. split; [exact E|].
    apply (means_affine_iff _ _ O), M. discriminate.
Qed.
Print Assumptions C80_convert_partial.
(* Both conversions lose the neutral point: what comes out has coordinates, and they are not
   even those of a point of the curve. *)
Theorem C80_convert_refuted : forall fuel, (600 <= fuel)%nat ->
  means_projective projective_identity Infinity /\ means_affine affine_identity Infinity /\
  (exists r x y, affine_of_projective fuel projective_identity = Ret r /\ means_affine r (At x y) /\ ~ on_stark (At x y)) /\
  (exists x y, means_projective (projective_of_affine affine_identity) (At x y) /\ ~ on_stark (At x y)).
Proof.
  intros fuel FU. pose proof p_big as PB.
  assert (Z0 : represents base_prime ZERO 0) by (pose proof rep_zero as H; unfold rep in H; rewrite el_small in H by lia; exact H).
  assert (NO : ~ on_stark (At 0 0)). { intros H. apply (C80_no_point_of_order_two _ _ H). reflexivity. }
  split; [apply (means_projective_iff _ Infinity Coq.Init.Logic.I); exact identity_ok|].
  split; [exists 0, 0; auto|]. split.
  - destruct (to_affine fuel projective_identity (el 0) (el 1) FU rep_zero rep_one one_nz) as (r & E & I & X & Y).
    specialize (Y _ rep_zero). assert (ZZ : fmul (el 0) (finv (el 1)) = el 0) by ring.
    rewrite ZZ in X, Y. unfold rep in X, Y. rewrite el_small in X, Y by lia.
    exists r, 0, 0. split; [exact E|]. split; [|exact NO]. exists 0, 0. rewrite I. auto.
  - exists 0, 0. split; [|exact NO]. assert (O1 : represents base_prime ONE 1).
    { pose proof rep_one as H. unfold rep in H. rewrite el_small in H by lia. exact H. }
    exists 0, 0, 1. cbn [projective_of_affine p_x p_y p_z p_inf affine_identity a_x a_y].
    split; [exact Z0|]. split; [exact Z0|]. split; [exact O1|]. split; [discriminate|]. split; [reflexivity|].
    split; [lia|]. split; [lia|]. rewrite Z.mul_0_l, Z.mod_0_l by lia. auto.
Qed.
Print Assumptions C80_convert_refuted.

(* ---- cases ---- *)

(* the generator, as the code has it *)
Example C80_curve_g : means_projective CURVE_G generator.
Proof. apply (means_projective_iff _ _ on_gen). exact curve_g_ok. Qed.
(* twice the generator, from the slope of its tangent *)
Example C80_twice :
  sum generator generator (At
    3324833730090626974525872402899302150520188025637965566623476530814354734325
    3147007486456030910661996439995670279305852583596209647900952752170983517249).
Proof.
  pose proof (sum_tangent 874739451078007766457464989774322083649278607533249481151382481072868806602
    152666792071518830868575557812948353041420400780739481342941381225525861407
    1644912686482877511055657113108787980633360754587022214691994702617817720336) as H.
  apply H; vm_compute; [discriminate|reflexivity].
Qed.
Example C80_twice_code : means_projective (projective_double CURVE_G) (At
    3324833730090626974525872402899302150520188025637965566623476530814354734325
    3147007486456030910661996439995670279305852583596209647900952752170983517249).
Proof.
  destruct (mA_ex G) as [c MC].
  exact (proj1 (proj2 (proj2 (C80_projective _ _ c _ _ _ on_gen on_gen C80_curve_g C80_curve_g
    (proj2 (means_affine_iff c generator on_gen) MC) C80_twice))) _ C80_twice).
Qed.
(* tables of the multiples exist *)
Example C80_some_tables : (exists t, right_tables t) /\ exists g, multiples 4 63 generator g.
Proof.
  split; [|exact (multiples_ex 4 63 generator on_gen eq_refl)].
  destruct (multiples_ex 8 31 _ on_1 eq_refl) as [t1 T1]. destruct (multiples_ex 4 1 _ on_2 eq_refl) as [t2 T2].
  destruct (multiples_ex 8 31 _ on_3 eq_refl) as [t3 T3]. destruct (multiples_ex 4 1 _ on_4 eq_refl) as [t4 T4].
  exists (Tables t1 t2 t3 t4). split; [exact T1|]. split; [exact T2|]. split; [exact T3|exact T4].
Qed.
(* the hash of two zeros is the x coordinate of the shift point *)
Example C80_pedersen_zeros : forall t, right_tables t -> exists h,
  pedersen_hash 600 t (repeat 0%N 32) (repeat 0%N 32) = Ret h /\
  denotes h 2089986280348253421170679821480865132823066470938446095505822317253594081284.
Proof.
  intros t T. assert (D : denotes (repeat 0%N 32) 0).
  { split; [split; [reflexivity|split; [repeat constructor|reflexivity]]|reflexivity]. }
  destruct (C80_pedersen 600 t _ _ 0 0 (le_n _) T D D) as (R & h & PP & OR & E & H). exists h. split; [exact E|].
  assert (ER : R = shift_point).
  { destruct PP as (A1 & A2 & B1 & B2 & S1 & S2 & S3 & TA1 & TA2 & TB1 & TB2 & H1 & H2 & H3 & H4).
    change (0 mod 2 ^ 248)%N with 0%N in *. change (0 / 2 ^ 248)%N with 0%N in *.
    pose proof (times_det _ _ _ _ on_1 TA1 (times_none _)) as ->. pose proof (times_det _ _ _ _ on_2 TA2 (times_none _)) as ->.
    pose proof (times_det _ _ _ _ on_3 TB1 (times_none _)) as ->. pose proof (times_det _ _ _ _ on_4 TB2 (times_none _)) as ->.
    pose proof (sum_det _ Infinity _ _ on_shift Coq.Init.Logic.I H1 (sum_right _)) as ->.
    pose proof (sum_det _ Infinity _ _ on_shift Coq.Init.Logic.I H2 (sum_right _)) as ->.
    pose proof (sum_det _ Infinity _ _ on_shift Coq.Init.Logic.I H3 (sum_right _)) as ->.
    exact (sum_det _ Infinity _ _ on_shift Coq.Init.Logic.I H4 (sum_right _)). }
  exact (H _ _ ER).
Qed.
