(* The cubic x^3 + x + b of the Stark curve has no root modulo the field prime, so the curve
   has no point with y = 0.  x^p is computed modulo the cubic; were r a root, that
   polynomial would take the value r at r, yet x^p - x is a unit modulo the cubic. *)
From Coq Require Import ZArith Lia Znumtheory.
From Verif Require Import NumTheory MontOpsProof MontModel MontSpec MontPrimes CurveField CurveSpec.
Local Open Scope Z_scope.

Local Notation p := base_prime.

(** cheap reduction modulo p = 2^251 + c *)
Definition c_low : Z := Eval vm_compute in 17 * 2 ^ 192 + 1.
Fixpoint split (k : nat) (n : positive) : Z * Z :=
  match k, n with
  | O, _ => (0, Zpos n)
  | _, xH => (1, 0)
  | S k, xO n => let '(l, h) := split k n in (Z.double l, h)
  | S k, xI n => let '(l, h) := split k n in (Z.succ_double l, h)
  end.
Definition red1 (n : Z) : Z :=
  match n with
  | Z0 => 0
  | Zpos n => let '(l, h) := split 251 n in l - c_low * h
  | Zneg n => let '(l, h) := split 251 n in c_low * h - l
  end.
Definition red (n : Z) : Z := red1 (red1 (red1 (red1 (red1 (red1 n))))).
Lemma split_spec : forall k n, let '(l, h) := split k n in Zpos n = l + 2 ^ Z.of_nat k * h.
Proof.
  induction k as [|k IH]; intros n; [cbn; lia|]. rewrite Nat2Z.inj_succ, Z.pow_succ_r by lia.
  destruct n as [n|n|]; cbn [split].
  - specialize (IH n). destruct (split k n) as [l h]. rewrite Z.succ_double_spec. lia.
  - specialize (IH n). destruct (split k n) as [l h]. rewrite Z.double_spec. lia.
  - lia.
Qed.
Lemma p_split : p = 2 ^ 251 + c_low.
Proof. reflexivity. Qed.
Lemma el_shift : forall x k, el (x + k * p) = el x.
Proof. intros x k. apply el_eq, Z_mod_plus_full. Qed.
#[local] Opaque base_prime.
Lemma el_red1 : forall n, el (red1 n) = el n.
Proof.
  intros [|n|n]; [reflexivity| |]; cbn [red1]; pose proof (split_spec 251 n) as H; destruct (split 251 n) as [l h];
  change (Z.of_nat 251) with 251 in H; pose proof p_split as P.
  - rewrite H. replace (l - c_low * h) with (l + 2 ^ 251 * h + (- h) * p) by (rewrite P; ring). apply el_shift.
  - replace (Zneg n) with (- Zpos n) by reflexivity. rewrite H.
    replace (c_low * h - l) with (- (l + 2 ^ 251 * h) + h * p) by (rewrite P; ring). apply el_shift.
Qed.
Lemma el_red : forall n, el (red n) = el n.
Proof. intros n. unfold red. rewrite !el_red1. reflexivity. Qed.
#[local] Opaque red.

(** polynomials of degree below three, modulo x^3 + x + b *)
Record poly := Poly { c0 : Z; c1 : Z; c2 : Z }.
Definition pmulf (u v : poly) : poly :=
  let t3 := red (c1 u * c2 v + c2 u * c1 v) in
  let t4 := red (c2 u * c2 v) in
  Poly (red (c0 u * c0 v - curve_b * t3))
       (red (c0 u * c1 v + c1 u * c0 v - t3 - curve_b * t4))
       (red (c0 u * c2 v + c1 u * c1 v + c2 u * c0 v - t4)).
Definition psqf (u : poly) : poly :=
  let t3 := red (2 * (c1 u * c2 u)) in
  let t4 := red (c2 u * c2 u) in
  Poly (red (c0 u * c0 u - curve_b * t3))
       (red (2 * (c0 u * c1 u) - t3 - curve_b * t4))
       (red (2 * (c0 u * c2 u) + c1 u * c1 u - t4)).
Fixpoint psq_n (n : nat) (u : poly) : poly := match n with O => u | S n => psq_n n (psqf u) end.
Definition X : poly := Poly 0 1 0.
Definition x_to_p : poly :=
  pmulf (psq_n 192 (pmulf (psq_n 59 X) (pmulf (psq_n 4 X) X))) X.
Definition unit_inverse : poly := Poly
  2043544184193508790506046486867995574328972747364632442021244577644613083411
  2935106962080035537842611299988581372091173088494006736581926048054027181133
  376400296575036714941695555522612899315471197531070009220369179516623567761.
Definition less_x (h : poly) : poly := Poly (c0 h) (c1 h - 1) (c2 h).
Definition is_unit (h : poly) : bool :=
  let one := pmulf unit_inverse (less_x h) in
  (c0 one mod p =? 1) && (c1 one mod p =? 0) && (c2 one mod p =? 0).
Lemma is_unit_parts : forall h, is_unit h = true -> let one := pmulf unit_inverse (less_x h) in
  c0 one mod p = 1 /\ c1 one mod p = 0 /\ c2 one mod p = 0.
Proof.
  intros h U. unfold is_unit in U. cbv zeta in *. apply Bool.andb_true_iff in U. destruct U as [U U3].
  apply Bool.andb_true_iff in U. destruct U as [U1 U2]. apply Z.eqb_eq in U1, U2, U3. auto.
Qed.
Lemma is_unit_true : is_unit x_to_p = true.
Proof. vm_cast_no_check (eq_refl true). Qed.

(** the value of a polynomial *)
Definition ev (r : Z) (u : poly) : elt := fadd (fadd (el (c0 u)) (fmul (el (c1 u)) (el r))) (fmul (fmul (el (c2 u)) (el r)) (el r)).
Add Field elt_field : F_field.
Section Root.
Variable r : Z.
Hypothesis root : el (r * r * r + r + curve_b) = el 0.
Lemma root' : fmul (fmul (el r) (el r)) (el r) = fsub (fopp (el r)) (el curve_b).
Proof.
  rewrite !el_add, !el_mul in root. generalize root. generalize (el r) (el curve_b). intros x b H.
  transitivity (fsub (fadd (fadd (fmul (fmul x x) x) x) b) (fadd x b)); [ring|]. rewrite H. ring.
Qed.
Lemma ev_mul : forall u v, ev r (pmulf u v) = fmul (ev r u) (ev r v).
Proof.
  intros [a0 a1 a2] [d0 d1 d2]. unfold ev, pmulf. cbn [c0 c1 c2].
  rewrite !el_red. rewrite ?el_sub, ?el_add, ?el_mul, ?el_sub, ?el_add, ?el_red, ?el_mul, ?el_add, ?el_mul.
  pose proof root' as R. revert R. generalize (el r) (el curve_b) (el a0) (el a1) (el a2) (el d0) (el d1) (el d2).
  intros x b e0 e1 e2 f0 f1 f2 R. ring [R].
Qed.
Lemma ev_sq : forall u, ev r (psqf u) = fmul (ev r u) (ev r u).
Proof.
  intros [a0 a1 a2]. unfold ev, psqf. cbn [c0 c1 c2].
  rewrite !el_red. rewrite ?el_sub, ?el_add, ?el_mul, ?el_sub, ?el_add, ?el_red, ?el_mul, ?el_add, ?el_mul.
  change 2 with (1 + 1). rewrite (el_add 1 1).
  pose proof root' as R. revert R. generalize (el r) (el curve_b) (el a0) (el a1) (el a2).
  intros x b e0 e1 e2 R. ring [R].
Qed.
Lemma ev_pow : forall n u y, ev r u = el y -> ev r (psq_n n u) = el (y ^ 2 ^ Z.of_nat n).
Proof.
  induction n as [|n IH]; intros u y E.
  - cbn [psq_n]. change (2 ^ Z.of_nat 0) with 1. rewrite Z.pow_1_r. exact E.
  - cbn [psq_n]. rewrite (IH _ (y * y)) by (rewrite ev_sq, E, el_mul; reflexivity).
    rewrite Nat2Z.inj_succ, Z.pow_succ_r, Z.pow_mul_r by lia. do 2 f_equal. lia.
Qed.
Lemma ev_x : ev r X = el r.
Proof. unfold ev, X. cbn [c0 c1 c2]. ring. Qed.
Lemma pow_59_17 : r ^ (2 ^ 59 + 17) = r ^ 2 ^ 59 * (r ^ 2 ^ 4 * r).
Proof.
  assert (G : forall n m, 0 <= n -> 0 <= m -> r ^ (n + (m + 1)) = r ^ n * (r ^ m * r)).
  { intros n m N M. rewrite Z.pow_add_r, Z.pow_add_r, Z.pow_1_r by lia. reflexivity. }
  assert (N1 : 0 <= 2 ^ 59) by (vm_compute; discriminate). assert (N2 : 0 <= 2 ^ 4) by (vm_compute; discriminate).
  assert (Q : 2 ^ 59 + 17 = 2 ^ 59 + (2 ^ 4 + 1)) by (vm_compute; reflexivity).
  pose proof (G _ _ N1 N2) as H. rewrite <- Q in H. exact H.
Qed.
#[local] Opaque psq_n pmulf psqf Z.pow.
Lemma ev_x_to_p : ev r x_to_p = el (r ^ p).
Proof.
  unfold x_to_p.
  pose proof (ev_pow 59 X r ev_x) as A. change (Z.of_nat 59) with 59 in A.
  pose proof (ev_pow 4 X r ev_x) as B. change (Z.of_nat 4) with 4 in B.
  assert (C : ev r (pmulf (psq_n 59 X) (pmulf (psq_n 4 X) X)) = el (r ^ (2 ^ 59 + 17))).
  { rewrite !ev_mul, A, B, ev_x, <- !el_mul. rewrite pow_59_17. reflexivity. }
  rewrite ev_mul, (ev_pow 192 _ _ C), ev_x, <- el_mul. f_equal.
  assert (Q : p = (2 ^ 59 + 17) * 2 ^ Z.of_nat 192 + 1) by (rewrite p_split; vm_compute; reflexivity).
  rewrite Q. assert (G : forall n m, 0 <= n -> 0 <= m -> (r ^ n) ^ m * r = r ^ (n * m + 1)).
  { clear. intros n m N M. pose proof (Z.mul_nonneg_nonneg n m N M) as K.
    rewrite (Z.pow_add_r r (n * m) 1) by (exact K || discriminate). rewrite Z.pow_1_r, Z.pow_mul_r by assumption. reflexivity. }
  assert (N1 : 0 <= 2 ^ 59 + 17) by (vm_compute; discriminate).
  assert (N2 : 0 <= 2 ^ Z.of_nat 192) by (vm_compute; discriminate). exact (G _ _ N1 N2).
Qed.
Lemma pow_p : forall y, y ^ p = y * y ^ (p - 1).
Proof.
  intros y. pose proof p_big as PB. assert (H : p = Z.succ (p - 1)) by lia. rewrite H at 1.
  apply Z.pow_succ_r. lia.
Qed.
Lemma fermat : el (r ^ p) = el r.
Proof.
  rewrite pow_p. destruct (Zdivide_dec p r) as [[q E]|ND].
  - rewrite el_mul. replace (el r) with (el 0) by (rewrite E; symmetry; apply (el_shift 0 q)). ring.
  - destruct (fermat_little p r p_prime ND) as [q E]. rewrite E.
    replace (r * (1 + q * p)) with (r + (r * q) * p) by ring. apply el_shift.
Qed.
Lemma no_unit : forall h, is_unit h = true -> ev r h = el r -> False.
Proof.
  intros h U E. destruct (is_unit_parts h U) as (U1 & U2 & U3). clear U.
  assert (H : ev r (less_x h) = el 0).
  { transitivity (fsub (ev r h) (el r)); [|rewrite E; ring]. unfold ev, less_x. cbn [c0 c1 c2]. rewrite el_sub. ring. }
  pose proof (ev_mul unit_inverse (less_x h)) as M. rewrite H in M.
  revert U1 U2 U3 M. generalize (pmulf unit_inverse (less_x h)). intros one U1 U2 U3 M.
  pose proof p_big as PB.
  assert (E0 : el (c0 one) = el 1) by (apply el_eq; rewrite U1, Z.mod_small; lia).
  assert (E1 : el (c1 one) = el 0) by (apply el_eq; rewrite U2, Z.mod_small; lia).
  assert (E2 : el (c2 one) = el 0) by (apply el_eq; rewrite U3, Z.mod_small; lia).
  assert (Z0 : el 1 = el 0).
  { transitivity (ev r one).
    - unfold ev. rewrite E0, E1, E2. ring.
    - rewrite M. ring. }
  apply el_eq in Z0. rewrite Z.mod_0_l, Z.mod_small in Z0 by lia. discriminate.
Qed.
Lemma no_root : False.
Proof. exact (no_unit x_to_p is_unit_true (eq_trans ev_x_to_p fermat)). Qed.
End Root.
