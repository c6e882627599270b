(* The operations of CurveModel compute the sums and multiples of CurveSpec. *)
From Coq Require Import List ZArith NArith Lia Bool Znumtheory Ring Field ZifyBool ZifyNat ZifyN.
From Verif Require Import Radix FeltModel FeltSpec FeltProof MontModel MontSpec MontProof MontOpsProof
  MontRootProof MontBytesProof MontPrimes MontProperties.
From Verif Require Import CurveModel CurveSpec CurveMeanSpec CurveField CurveGroup CurveRoot CurvePoints CurveOrder.
Import ListNotations.
Local Open Scope Z_scope.
Local Notation p := base_prime.
Add Field elt_field3 : F_field.
Notation val := CurveField.val.
#[local] Opaque base_prime.

Definition rep (a : limbs) (u : elt) : Prop := represents p a (val u).
Lemma rep_add : forall a b u v, rep a u -> rep b v -> rep (add base_field a b) (fadd u v).
Proof. intros a b u v A B. exact (proj1 (C04_add _ _ is_base _ _ _ _ A B)). Qed.
Lemma rep_sub : forall a b u v, rep a u -> rep b v -> rep (sub base_field a b) (fsub u v).
Proof. intros a b u v A B. exact (proj1 (C04_sub _ _ is_base _ _ _ _ A B)). Qed.
Lemma rep_mul : forall a b u v, rep a u -> rep b v -> rep (mul base_field a b) (fmul u v).
Proof. intros a b u v A B. exact (proj1 (C04_mul _ _ is_base _ _ _ _ A B)). Qed.
Lemma rep_neg : forall a u, rep a u -> rep (neg base_field a) (fopp u).
Proof. intros a u A. exact (proj1 (C04_neg _ _ is_base _ _ A)). Qed.
Lemma rep_square : forall a u, rep a u -> rep (square base_field a) (fmul u u).
Proof. intros a u A. exact (proj1 (C04_square _ _ is_base _ _ A)). Qed.
Lemma rep_double : forall a u, rep a u -> rep (double a) (fadd u u).
Proof. intros a u A. apply rep_add; assumption. Qed.
Lemma rep_val : forall a n, represents p a n -> rep a (el n).
Proof. intros a n A. unfold rep. rewrite el_small; [exact A|apply A]. Qed.
Lemma rep_fun : forall a u v, rep a u -> rep a v -> u = v.
Proof. intros a u v A B. apply val_inj. exact (represents_fun _ _ (is_field_facts _ _ is_base) _ _ _ A B). Qed.
Lemma rep_eqb : forall a b u v, rep a u -> rep b v -> limbs_eqb a b = true <-> u = v.
Proof.
  intros a b u v A B. split.
  - intros E. apply limbs_eqb_spec in E. subst b. exact (rep_fun _ _ _ A B).
  - intros ->. apply limbs_eqb_spec. exact (represents_inj p _ _ _ A B).
Qed.
Lemma rep_eqb_false : forall a b u v, rep a u -> rep b v -> limbs_eqb a b = false <-> u <> v.
Proof.
  intros a b u v A B. rewrite <- (rep_eqb a b u v A B). destruct (limbs_eqb a b); split; congruence.
Qed.
Lemma rep_zero : rep ZERO (el 0).
Proof. apply rep_val. exact (represents_zero _ _ (is_field_facts _ _ is_base)). Qed.
Lemma rep_one : rep ONE (el 1).
Proof. apply rep_val. exact (represents_one _ _ (is_field_facts _ _ is_base)). Qed.
Lemma rep_two : rep TWO (fadd (el 1) (el 1)).
Proof. exact (proj2 (C04_add _ _ is_base _ _ _ _ rep_one rep_one)). Qed.
Lemma rep_three : rep THREE (fadd (fadd (el 1) (el 1)) (el 1)).
Proof. exact (proj2 (C04_add _ _ is_base _ _ _ _ rep_two rep_one)). Qed.
Lemma one_nz : el 1 <> el 0.
Proof. destruct F_field as [_ N _ _]. exact N. Qed.
Lemma inverse_ok : forall fuel a u, (600 <= fuel)%nat -> rep a u -> u <> el 0 ->
  exists y, unwrap_inverse base_field fuel a = Ret y /\ rep y (finv u).
Proof.
  intros fuel a u FU R NZ. pose proof (C04_inverse _ _ is_base fuel a _ FU R) as H. unfold unwrap_inverse.
  destruct (inverse base_field fuel a) as [[y|]|].
  - destruct H as (_ & m & RM & M). exists y. split; [reflexivity|].
    apply rep_val in RM. replace (finv u) with (el m); [exact RM|].
    apply (fmul_cancel _ _ u NZ). transitivity (el 1).
    + rewrite <- (el_val u) at 1. rewrite <- el_mul. apply el_eq. rewrite Z.mul_comm, M.
      pose proof p_big. symmetry. apply Z.mod_small. lia.
    + destruct F_field as [_ _ _ FI]. symmetry. apply FI, NZ.
  - exfalso. apply NZ. rewrite <- (el_val u), H. reflexivity.
  - destruct H.
Qed.

Lemma inv_mul : forall u, u <> el 0 -> fmul (finv u) u = el 1.
Proof. destruct F_field as [_ _ _ FI]. exact FI. Qed.
Lemma div_mul : forall u v, v <> el 0 -> fmul (fmul u (finv v)) v = u.
Proof. intros u v N. transitivity (fmul u (fmul (finv v) v)); [ring|]. rewrite (inv_mul v N). ring. Qed.
Lemma mul_div : forall u v, v <> el 0 -> fmul (fmul u v) (finv v) = u.
Proof. intros u v N. transitivity (fmul u (fmul (finv v) v)); [ring|]. rewrite (inv_mul v N). ring. Qed.

Definition mA (a : affine) (P : pt) : Prop :=
  exists u v, rep (a_x a) u /\ rep (a_y a) v /\ P = (if a_inf a then Oh else PT u v).
Definition mP (a : projective) (P : pt) : Prop :=
  exists u v w, rep (p_x a) u /\ rep (p_y a) v /\ rep (p_z a) w /\ w <> el 0 /\
    if p_inf a then P = Oh else exists s t, P = PT s t /\ u = fmul s w /\ v = fmul t w.

Lemma tangent_slope : forall s t, on (PT s t) -> exists l,
  l = fmul (fadd (fmul (fadd (fadd (el 1) (el 1)) (el 1)) (fmul s s)) (el 1)) (finv (fmul (fadd (el 1) (el 1)) t)) /\
  fmul l (fadd t t) = fadd (fadd (fadd (fmul s s) (fmul s s)) (fmul s s)) (el 1) /\
  fmul (fadd (el 1) (el 1)) t <> el 0.
Proof.
  intros s t C. pose proof (fdouble_nz t (no_two_torsion s t C)) as D.
  eexists. split; [reflexivity|]. assert (D2 : fmul (fadd (el 1) (el 1)) t <> el 0).
  { intros E. apply D. rewrite <- E. ring. }
  split; [|exact D2]. replace (fadd t t) with (fmul (fadd (el 1) (el 1)) t) by ring.
  rewrite (div_mul _ _ D2). ring.
Qed.
Lemma third_eq : forall l x y x2, gthird l x y x2 = PT (fsub (fsub (fmul l l) x) x2)
  (fsub (fmul l (fsub x (fsub (fsub (fmul l l) x) x2))) y).
Proof. reflexivity. Qed.

Lemma affine_double_ok : forall fuel a P, (600 <= fuel)%nat -> mA a P -> on P ->
  exists r, affine_double fuel a = Ret r /\ mA r (gadd P P).
Proof.
  intros fuel a P FU (u & v & U & V & E) C. unfold affine_double. destruct (a_inf a) eqn:I.
  - exists a. split; [reflexivity|]. subst P. exists u, v. rewrite I. auto.
  - subst P. destruct (tangent_slope u v C) as (l & L & S & NZ).
    destruct (inverse_ok fuel _ _ FU (rep_mul _ _ _ _ rep_two V) NZ) as (y & -> & Y). cbn [bind].
    eexists. split; [reflexivity|]. rewrite (gadd_tangent u v l C S), third_eq.
    pose proof (rep_mul _ _ _ _ (rep_add _ _ _ _ (rep_mul _ _ _ _ rep_three (rep_mul _ _ _ _ U U)) rep_one) Y) as LR.
    rewrite <- L in LR.
    pose proof (rep_sub _ _ _ _ (rep_sub _ _ _ _ (rep_mul _ _ _ _ LR LR) U) U) as XR.
    eexists _, _. cbn [a_x a_y a_inf]. split; [exact XR|]. split; [|reflexivity].
    exact (rep_sub _ _ _ _ (rep_mul _ _ _ _ LR (rep_sub _ _ _ _ U XR)) V).
Qed.
Lemma chord_slope : forall s1 t1 s2 t2, s1 <> s2 -> exists l,
  l = fmul (fsub t2 t1) (finv (fsub s2 s1)) /\ fmul l (fsub s2 s1) = fsub t2 t1 /\ fsub s2 s1 <> el 0.
Proof.
  intros s1 t1 s2 t2 N. assert (D : fsub s2 s1 <> el 0) by (apply fsub_nz; congruence).
  eexists. split; [reflexivity|]. split; [exact (div_mul _ _ D)|exact D].
Qed.
Lemma affine_add_ok : forall fuel a b P Q, (600 <= fuel)%nat -> mA a P -> mA b Q -> on P -> on Q ->
  exists r, affine_add fuel a b = Ret r /\ mA r (gadd P Q).
Proof.
  intros fuel a b P Q FU A B OP OQ. pose proof A as A0. destruct A as (u & v & U & V & E). destruct B as (u' & v' & U' & V' & E').
  unfold affine_add. destruct (a_inf b) eqn:IB.
  - subst Q. rewrite gadd_inf. exists a. split; [reflexivity|exact A0].
  - destruct (a_inf a) eqn:IA.
    + subst P. eexists. split; [reflexivity|]. subst Q. exists u', v'. cbn. auto.
    + subst P Q. destruct (limbs_eqb (a_x a) (a_x b)) eqn:EX.
      * apply (rep_eqb _ _ _ _ U U') in EX. subst u'. destruct (limbs_eqb (a_y a) (a_y b)) eqn:EY; cbn [negb].
        -- apply (rep_eqb _ _ _ _ V V') in EY. subst v'. apply affine_double_ok; assumption.
        -- apply (rep_eqb_false _ _ _ _ V V') in EY. eexists. split; [reflexivity|].
           destruct (gadd_same_x _ _ _ OP OQ) as [|Y]; [contradiction|]. subst v'. rewrite gadd_opposite.
           exists u, v. cbn. auto.
      * apply (rep_eqb_false _ _ _ _ U U') in EX. destruct (chord_slope u v u' v' EX) as (l & L & S & NZ).
        destruct (inverse_ok fuel _ _ FU (rep_sub _ _ _ _ U' U) NZ) as (y & -> & Y). cbn [bind].
        eexists. split; [reflexivity|]. rewrite (gadd_chord u v u' v' l EX S), third_eq.
        pose proof (rep_mul _ _ _ _ (rep_sub _ _ _ _ V' V) Y) as LR. rewrite <- L in LR.
        pose proof (rep_sub _ _ _ _ (rep_sub _ _ _ _ (rep_mul _ _ _ _ LR LR) U) U') as XR.
        eexists _, _. cbn [a_x a_y a_inf]. split; [exact XR|]. split; [|reflexivity].
        exact (rep_sub _ _ _ _ (rep_mul _ _ _ _ LR (rep_sub _ _ _ _ U XR)) V).
Qed.
Lemma affine_negate_ok : forall a P, mA a P -> mA (affine_negate a) (gopp P).
Proof.
  intros a P (u & v & U & V & E). exists u, (fopp v). cbn [affine_negate a_x a_y a_inf].
  split; [exact U|]. split; [apply rep_neg, V|]. subst P. destruct (a_inf a); reflexivity.
Qed.
Lemma load_le_cons : forall b bits, load_le (b :: bits) = (N.b2n b + 2 * load_le bits)%N.
Proof. reflexivity. Qed.
Lemma gmul_double_add : forall (b : bool) k P, on P ->
  gmul (N.b2n b + 2 * k) P = if b then gadd (gadd (gmul k P) (gmul k P)) P else gadd (gmul k P) (gmul k P).
Proof.
  intros b k P C. replace (N.b2n b + 2 * k)%N with ((k + k) + N.b2n b)%N by lia.
  rewrite !gmul_add by exact C. destruct b; cbn [N.b2n].
  - rewrite gmul_1. reflexivity.
  - rewrite gmul_0, gadd_inf. reflexivity.
Qed.
Lemma affine_multiply_ok : forall fuel a P bits, (600 <= fuel)%nat -> mA a P -> on P ->
  exists r, affine_multiply fuel a bits = Ret r /\ mA r (gmul (load_le bits) P).
Proof.
  intros fuel a P bits FU A C. unfold affine_multiply. induction bits as [|b bits IH].
  - exists affine_identity. split; [reflexivity|]. exists (el 0), (el 0). split; [exact rep_zero|]. split; [exact rep_zero|reflexivity].
  - cbn [rev]. rewrite fold_left_app. destruct IH as (r & -> & M). cbn [fold_left bind].
    destruct (affine_double_ok fuel r _ FU M (gmul_on _ _ C)) as (r2 & -> & M2). cbn [bind].
    rewrite load_le_cons, gmul_double_add by exact C. destruct b.
    + apply affine_add_ok; try assumption. apply gadd_on; apply gmul_on, C.
    + exists r2. auto.
Qed.

(* ---- projective ---- *)
Lemma nz_mul : forall u v, u <> el 0 -> v <> el 0 -> fmul u v <> el 0.
Proof. intros u v A B E. apply fmul_zero in E. tauto. Qed.
Lemma projective_double_ok : forall a P, mP a P -> on P -> mP (projective_double a) (gadd P P).
Proof.
  intros a P M C. pose proof M as M0. destruct M as (u & v & w & U & V & W & NZ & E).
  unfold projective_double. destruct (p_inf a) eqn:I.
  - subst P. exact M0.
  - destruct E as (s & t & -> & Eu & Ev). destruct (tangent_slope s t C) as (l & _ & S & _).
    rewrite (gadd_tangent s t l C S), third_eq.
    pose proof (rep_square _ _ U) as X2.
    pose proof (rep_add _ _ _ _ (rep_add _ _ _ _ X2 (rep_double _ _ X2)) (rep_square _ _ W)) as T.
    pose proof (rep_double _ _ (rep_mul _ _ _ _ V W)) as UU.
    set (uu := fadd (fmul v w) (fmul v w)) in *.
    replace (fadd (fadd (fmul u u) (fadd (fmul u u) (fmul u u))) (fmul w w)) with (fmul l uu) in T.
    2: { unfold uu. rewrite Eu, Ev. transitivity (fmul (fmul w w) (fmul l (fadd t t))); [ring|]. rewrite S. ring. }
    pose proof (rep_double _ _ (rep_mul _ _ _ _ (rep_mul _ _ _ _ UU U) V)) as VV.
    pose proof (rep_sub _ _ _ _ (rep_square _ _ T) (rep_double _ _ VV)) as WW.
    pose proof (rep_mul _ _ _ _ UU V) as UY.
    eexists _, _, _. cbn [p_x p_y p_z p_inf].
    split; [exact (rep_mul _ _ _ _ UU WW)|].
    split; [exact (rep_sub _ _ _ _ (rep_mul _ _ _ _ T (rep_sub _ _ _ _ VV WW)) (rep_double _ _ (rep_mul _ _ _ _ UY UY)))|].
    split; [exact (rep_mul _ _ _ _ (rep_mul _ _ _ _ UU UU) UU)|].
    assert (UNZ : uu <> el 0).
    { unfold uu. apply fdouble_nz, nz_mul; [|exact NZ]. rewrite Ev. apply nz_mul; [|exact NZ]. exact (no_two_torsion s t C). }
    split; [apply nz_mul; [apply nz_mul|]; exact UNZ|]. eexists _, _. split; [reflexivity|].
    unfold uu. rewrite Eu, Ev. split; ring.
Qed.
Lemma projective_add_ok : forall a b P Q, mP a P -> mP b Q -> on P -> on Q -> mP (projective_add a b) (gadd P Q).
Proof.
  intros a b P Q MA MB OP OQ. pose proof MA as MA0. pose proof MB as MB0.
  destruct MA as (x1 & y1 & w1 & X1 & Y1 & W1 & N1 & E1). destruct MB as (x2 & y2 & w2 & X2 & Y2 & W2 & N2 & E2).
  unfold projective_add. destruct (p_inf b) eqn:IB.
  - subst Q. rewrite gadd_inf. exact MA0.
  - destruct (p_inf a) eqn:IA.
    + subst P. change (gadd Oh Q) with Q. exists x2, y2, w2. cbn [p_x p_y p_z p_inf]. auto.
    + destruct E1 as (s1 & t1 & -> & Ex1 & Ey1). destruct E2 as (s2 & t2 & -> & Ex2 & Ey2).
      pose proof (rep_mul _ _ _ _ X1 W2) as U0. pose proof (rep_mul _ _ _ _ X2 W1) as U1.
      pose proof (rep_mul _ _ _ _ Y1 W2) as T0. pose proof (rep_mul _ _ _ _ Y2 W1) as T1.
      pose proof (nz_mul _ _ N1 N2) as N12. set (k := fmul w1 w2) in *.
      replace (fmul x1 w2) with (fmul s1 k) in U0 by (unfold k; rewrite Ex1; ring).
      replace (fmul x2 w1) with (fmul s2 k) in U1 by (unfold k; rewrite Ex2; ring).
      replace (fmul y1 w2) with (fmul t1 k) in T0 by (unfold k; rewrite Ey1; ring).
      replace (fmul y2 w1) with (fmul t2 k) in T1 by (unfold k; rewrite Ey2; ring).
      cbn zeta. match goal with |- context [if limbs_eqb ?a ?b then _ else _] => destruct (limbs_eqb a b) eqn:EX end.
      * apply (rep_eqb _ _ _ _ U0 U1) in EX. apply (fmul_cancel _ _ _ N12) in EX. subst s2.
        match goal with |- context [limbs_eqb ?a ?b] => destruct (limbs_eqb a b) eqn:EY end; cbn [negb].
        -- apply (rep_eqb _ _ _ _ T0 T1) in EY. apply (fmul_cancel _ _ _ N12) in EY. subst t2.
           apply projective_double_ok; assumption.
        -- apply (rep_eqb_false _ _ _ _ T0 T1) in EY. destruct (gadd_same_x _ _ _ OP OQ) as [->|Y]; [contradiction|].
           subst t2. rewrite gadd_opposite. exists x1, y1, w1. cbn [p_x p_y p_z p_inf]. auto.
      * apply (rep_eqb_false _ _ _ _ U0 U1) in EX. assert (NE : s1 <> s2) by congruence.
        destruct (chord_slope s1 t1 s2 t2 NE) as (l & _ & S & _). rewrite (gadd_chord s1 t1 s2 t2 l NE S), third_eq.
        pose proof (rep_sub _ _ _ _ U0 U1) as U. pose proof (rep_sub _ _ _ _ T0 T1) as T.
        set (u := fsub (fmul s1 k) (fmul s2 k)) in *.
        replace (fsub (fmul t1 k) (fmul t2 k)) with (fmul l u) in T.
        2: { transitivity (fopp (fmul k (fmul l (fsub s2 s1)))); [unfold u; ring|rewrite S; ring]. }
        pose proof (rep_square _ _ U) as UQ. pose proof (rep_mul _ _ _ _ W1 W2) as V. fold k in V.
        pose proof (rep_sub _ _ _ _ (rep_mul _ _ _ _ (rep_square _ _ T) V) (rep_mul _ _ _ _ UQ (rep_add _ _ _ _ U0 U1))) as W.
        pose proof (rep_mul _ _ _ _ U UQ) as U3.
        eexists _, _, _. cbn [p_x p_y p_z p_inf].
        split; [exact (rep_mul _ _ _ _ U W)|].
        split; [exact (rep_sub _ _ _ _ (rep_mul _ _ _ _ T (rep_sub _ _ _ _ (rep_mul _ _ _ _ U0 UQ) W)) (rep_mul _ _ _ _ T0 U3))|].
        split; [exact (rep_mul _ _ _ _ U3 V)|].
        assert (UNZ : u <> el 0) by (apply fsub_nz; exact EX).
        split; [apply nz_mul; [apply nz_mul; [|apply nz_mul]|]; assumption|].
        eexists _, _. split; [reflexivity|]. clearbody u k. split; ring.
Qed.
Lemma mA_mP : forall a P, mA a P -> a_inf a = false -> mP (projective_of_affine a) P.
Proof.
  intros a P (u & v & U & V & E) I. rewrite I in E. subst P.
  exists u, v, (el 1). cbn [projective_of_affine p_x p_y p_z p_inf]. split; [exact U|]. split; [exact V|].
  split; [exact rep_one|]. split; [exact one_nz|]. exists u, v. split; [reflexivity|]. split; ring.
Qed.
Lemma projective_add_affine_ok : forall a b P Q, mP a P -> mA b Q -> on P -> on Q -> mP (projective_add_affine a b) (gadd P Q).
Proof.
  intros a b P Q MA MB OP OQ. pose proof MA as MA0.
  destruct MA as (x1 & y1 & w1 & X1 & Y1 & W1 & N1 & E1). destruct MB as (s2 & t2 & X2 & Y2 & E2).
  unfold projective_add_affine. destruct (a_inf b) eqn:IB.
  - subst Q. rewrite gadd_inf. exact MA0.
  - subst Q. destruct (p_inf a) eqn:IA.
    + subst P. change (gadd Oh (PT s2 t2)) with (PT s2 t2). exists s2, t2, (el 1). cbn [p_x p_y p_z p_inf].
      split; [exact X2|]. split; [exact Y2|]. split; [exact rep_one|]. split; [exact one_nz|].
      exists s2, t2. split; [reflexivity|]. split; ring.
    + destruct E1 as (s1 & t1 & -> & Ex1 & Ey1).
      pose proof (rep_mul _ _ _ _ X2 W1) as U1. pose proof (rep_mul _ _ _ _ Y2 W1) as T1.
      pose proof X1 as U0. pose proof Y1 as T0. rewrite Ex1 in U0. rewrite Ey1 in T0.
      cbn zeta. match goal with |- context [if limbs_eqb ?a ?b then _ else _] => destruct (limbs_eqb a b) eqn:EX end.
      * apply (rep_eqb _ _ _ _ U0 U1) in EX. apply (fmul_cancel _ _ _ N1) in EX. subst s2.
        match goal with |- context [limbs_eqb ?a ?b] => destruct (limbs_eqb a b) eqn:EY end; cbn [negb].
        -- apply (rep_eqb _ _ _ _ T0 T1) in EY. apply (fmul_cancel _ _ _ N1) in EY. subst t2.
           apply projective_double_ok; assumption.
        -- apply (rep_eqb_false _ _ _ _ T0 T1) in EY. destruct (gadd_same_x _ _ _ OP OQ) as [->|Y]; [contradiction|].
           subst t2. rewrite gadd_opposite. exists x1, y1, w1. cbn [p_x p_y p_z p_inf]. auto.
      * apply (rep_eqb_false _ _ _ _ U0 U1) in EX. assert (NE : s1 <> s2) by congruence.
        destruct (chord_slope s1 t1 s2 t2 NE) as (l & _ & S & _). rewrite (gadd_chord s1 t1 s2 t2 l NE S), third_eq.
        pose proof (rep_sub _ _ _ _ U0 U1) as U. pose proof (rep_sub _ _ _ _ T0 T1) as T.
        set (u := fsub (fmul s1 w1) (fmul s2 w1)) in *.
        replace (fsub (fmul t1 w1) (fmul t2 w1)) with (fmul l u) in T.
        2: { transitivity (fopp (fmul w1 (fmul l (fsub s2 s1)))); [unfold u; ring|rewrite S; ring]. }
        pose proof (rep_mul _ _ _ _ U U) as UQ. pose proof W1 as V.
        pose proof (rep_sub _ _ _ _ (rep_mul _ _ _ _ (rep_mul _ _ _ _ T T) V) (rep_mul _ _ _ _ UQ (rep_add _ _ _ _ U0 U1))) as W.
        pose proof (rep_mul _ _ _ _ U UQ) as U3.
        eexists _, _, _. cbn [p_x p_y p_z p_inf].
        split; [exact (rep_mul _ _ _ _ U W)|].
        split; [exact (rep_sub _ _ _ _ (rep_mul _ _ _ _ T (rep_sub _ _ _ _ (rep_mul _ _ _ _ U0 UQ) W)) (rep_mul _ _ _ _ T0 U3))|].
        split; [exact (rep_mul _ _ _ _ U3 V)|].
        assert (UNZ : u <> el 0) by (apply fsub_nz; exact EX).
        split; [apply nz_mul; [apply nz_mul; [|apply nz_mul]|]; assumption|].
        eexists _, _. split; [reflexivity|]. clearbody u. split; ring.
Qed.
Lemma projective_negate_ok : forall a P, mP a P -> mP (projective_negate a) (gopp P).
Proof.
  intros a P (u & v & w & U & V & W & N & E). exists u, (fopp v), w. cbn [projective_negate p_x p_y p_z p_inf].
  split; [exact U|]. split; [apply rep_neg, V|]. split; [exact W|]. split; [exact N|].
  destruct (p_inf a); [subst P; reflexivity|]. destruct E as (s & t & -> & Eu & Ev).
  exists s, (fopp t). split; [reflexivity|]. split; [exact Eu|]. rewrite Ev. ring.
Qed.
Lemma identity_ok : mP projective_identity Oh.
Proof.
  exists (el 0), (el 0), (el 1). split; [exact rep_zero|]. split; [exact rep_zero|]. split; [exact rep_one|].
  split; [exact one_nz|reflexivity].
Qed.
Lemma projective_multiply_ok : forall a P bits, mP a P -> on P -> mP (projective_multiply a bits) (gmul (load_le bits) P).
Proof.
  intros a P bits A C. unfold projective_multiply. induction bits as [|b bits IH].
  - exact identity_ok.
  - cbn [rev]. rewrite fold_left_app. cbn [fold_left].
    pose proof (projective_double_ok _ _ IH (gmul_on _ _ C)) as M2.
    rewrite load_le_cons, gmul_double_add by exact C. destruct b; [|exact M2].
    apply projective_add_ok; try assumption. apply gadd_on; apply gmul_on, C.
Qed.
(* converting keeps the point; a flagged point keeps only its coordinates *)
Lemma to_affine : forall fuel a u w, (600 <= fuel)%nat -> rep (p_x a) u -> rep (p_z a) w -> w <> el 0 ->
  exists r, affine_of_projective fuel a = Ret r /\ a_inf r = false /\ rep (a_x r) (fmul u (finv w)) /\
    forall v, rep (p_y a) v -> rep (a_y r) (fmul v (finv w)).
Proof.
  intros fuel a u w FU U W N. unfold affine_of_projective.
  destruct (inverse_ok fuel _ _ FU W N) as (y & -> & Y). cbn [bind]. eexists. split; [reflexivity|].
  cbn [a_x a_y a_inf]. split; [reflexivity|]. split; [apply rep_mul; assumption|]. intros v V. apply rep_mul; assumption.
Qed.
Lemma affine_of_projective_ok : forall fuel a P, (600 <= fuel)%nat -> mP a P ->
  exists r, affine_of_projective fuel a = Ret r /\ (P <> Oh -> mA r P) /\ exists x y, rep (a_x r) x /\ rep (a_y r) y.
Proof.
  intros fuel a P FU (u & v & w & U & V & W & N & E).
  destruct (to_affine fuel a u w FU U W N) as (r & -> & I & X & Y). specialize (Y v V). exists r.
  split; [reflexivity|]. split; [|eauto]. intros NI. destruct (p_inf a); [contradiction|].
  destruct E as (s & t & -> & Eu & Ev). exists s, t.
  replace (fmul u (finv w)) with s in X by (rewrite Eu; symmetry; exact (mul_div _ _ N)).
  replace (fmul v (finv w)) with t in Y by (rewrite Ev; symmetry; exact (mul_div _ _ N)).
  rewrite I. auto.
Qed.
