(* The group of points of an elliptic curve y^2 = x^3 + ax + b over any field where
   1 + 1 is not 0 and no point has y = 0: the chord-and-tangent sum is closed, commutative
   and associative, with inverses.  Used for C80 and C81. *)
From Coq Require Import Ring Field Field_theory Bool NArith.
Section Group.
Variable F : Type.
Variables (o i : F) (add mul sub : F -> F -> F) (opp : F -> F) (div : F -> F -> F) (inv : F -> F).
Variable Fth : field_theory o i add mul sub opp div inv (@eq F).
Variable eqb : F -> F -> bool.
Variable eqb_spec : forall x y, eqb x y = true <-> x = y.
Add Field Ff : Fth.
Declare Scope F_scope.
Local Open Scope F_scope.
Notation "x + y" := (add x y) : F_scope. Notation "x * y" := (mul x y) : F_scope.
Notation "x - y" := (sub x y) : F_scope. Notation "x / y" := (div x y) : F_scope.
Notation "- x" := (opp x) : F_scope.
Variables a b : F.

Inductive point : Type := Inf | Pt (x y : F).
Definition on_curve (p : point) : Prop :=
  match p with Inf => True | Pt x y => y * y = x * x * x + a * x + b end.
Definition third (l x1 y1 x2 : F) : point :=
  let x := l * l - x1 - x2 in Pt x (l * (x1 - x) - y1).
Definition padd (p q : point) : point :=
  match p, q with
  | Inf, _ => q
  | _, Inf => p
  | Pt x1 y1, Pt x2 y2 =>
      if eqb x1 x2 then
        if eqb (y1 + y2) o then Inf
        else third ((x1 * x1 + x1 * x1 + x1 * x1 + a) / (y1 + y1)) x1 y1 x2
      else third ((y2 - y1) / (x2 - x1)) x1 y1 x2
  end.
Definition popp (p : point) : point := match p with Inf => Inf | Pt x y => Pt x (- y) end.

Hypothesis two : i + i <> o.
Hypothesis no_two : forall x y, on_curve (Pt x y) -> y <> o.

Lemma sub_zero : forall x y, x - y = o -> x = y.
Proof. intros x y H. replace x with ((x - y) + y) by ring. rewrite H. ring. Qed.
Lemma sub_neq : forall x y, x <> y -> x - y <> o.
Proof. intros x y H E. apply H, sub_zero, E. Qed.
Lemma mul_zero : forall x y, x * y = o -> x = o \/ y = o.
Proof.
  intros x y H. destruct (eqb x o) eqn:E; [left; apply eqb_spec, E|right].
  assert (N : x <> o) by (intros ->; rewrite (proj2 (eqb_spec o o) eq_refl) in E; discriminate).
  replace y with (x * y / x) by (field; exact N). rewrite H. field. exact N.
Qed.
Lemma mul_neq : forall x y, x <> o -> y <> o -> x * y <> o.
Proof. intros x y A B H. destruct (mul_zero _ _ H); contradiction. Qed.
Lemma double_neq : forall y, y <> o -> y + y <> o.
Proof. intros y H E. replace (y + y) with ((i + i) * y) in E by ring. destruct (mul_zero _ _ E); contradiction. Qed.
Lemma eq_dec : forall x y : F, {x = y} + {x <> y}.
Proof.
  intros x y. destruct (eqb x y) eqn:E; [left; apply eqb_spec, E|right].
  intros H. apply eqb_spec in H. congruence.
Qed.
Lemma eqb_neq : forall x y, x <> y -> eqb x y = false.
Proof. intros x y H. destruct (eqb x y) eqn:E; [|reflexivity]. apply eqb_spec in E. contradiction. Qed.
Lemma eqb_eq : forall x, eqb x x = true.
Proof. intros x. apply eqb_spec. reflexivity. Qed.
Lemma opp_zero : forall x y, x + y = o -> y = - x.
Proof. intros x y H. replace y with ((x + y) - x) by ring. rewrite H. ring. Qed.

(** what the sum of two points is, case by case *)
Lemma same_x : forall x y1 y2, on_curve (Pt x y1) -> on_curve (Pt x y2) -> y1 = y2 \/ y2 = - y1.
Proof.
  intros x y1 y2 A B. cbn in A, B. assert (H : (y1 - y2) * (y1 + y2) = o).
  { replace ((y1 - y2) * (y1 + y2)) with (y1 * y1 - y2 * y2) by ring. rewrite A, B. ring. }
  destruct (mul_zero _ _ H) as [E|E]; [left; apply sub_zero, E|right; apply opp_zero, E].
Qed.
Lemma add_opp : forall x y, padd (Pt x y) (Pt x (- y)) = Inf.
Proof. intros x y. cbn. rewrite eqb_eq. replace (y + - y) with o by ring. rewrite eqb_eq. reflexivity. Qed.
Lemma add_opp_l : forall x y, padd (Pt x (- y)) (Pt x y) = Inf.
Proof. intros x y. cbn. rewrite eqb_eq. replace (- y + y) with o by ring. rewrite eqb_eq. reflexivity. Qed.
Lemma add_tangent : forall x y, on_curve (Pt x y) ->
  padd (Pt x y) (Pt x y) = third ((x * x + x * x + x * x + a) / (y + y)) x y x.
Proof.
  intros x y C. cbn [padd]. rewrite eqb_eq. rewrite eqb_neq; [reflexivity|]. apply double_neq, (no_two x y C).
Qed.
Lemma add_chord : forall x1 y1 x2 y2, x1 <> x2 ->
  padd (Pt x1 y1) (Pt x2 y2) = third ((y2 - y1) / (x2 - x1)) x1 y1 x2.
Proof. intros x1 y1 x2 y2 H. cbn [padd]. rewrite eqb_neq by exact H. reflexivity. Qed.
Inductive how (x1 y1 x2 y2 : F) : Prop :=
| is_opp : x2 = x1 -> y2 = - y1 -> how x1 y1 x2 y2
| is_same : x2 = x1 -> y2 = y1 -> how x1 y1 x2 y2
| is_chord : x1 <> x2 -> how x1 y1 x2 y2.
Lemma how_added : forall x1 y1 x2 y2, on_curve (Pt x1 y1) -> on_curve (Pt x2 y2) -> how x1 y1 x2 y2.
Proof.
  intros x1 y1 x2 y2 A B. destruct (eq_dec x1 x2) as [E|E]; [|apply is_chord, E]. subst x2.
  destruct (same_x _ _ _ A B) as [->| ->]; [apply is_same|apply is_opp]; reflexivity.
Qed.

Lemma padd_comm : forall p q, on_curve p -> on_curve q -> padd p q = padd q p.
Proof.
  intros [|x1 y1] [|x2 y2] A B; try reflexivity. destruct (how_added _ _ _ _ A B) as [-> ->| -> ->|E].
  - rewrite add_opp, add_opp_l. reflexivity.
  - reflexivity.
  - rewrite !add_chord by congruence. pose proof (sub_neq _ _ E) as D.
    assert (D2 : x2 - x1 <> o) by (apply sub_neq; congruence).
    unfold third. cbv zeta. f_equal; field; auto.
Qed.
Lemma padd_inf : forall p, padd p Inf = p.
Proof. intros []; reflexivity. Qed.
Lemma opp_curve : forall p, on_curve p -> on_curve (popp p).
Proof. intros [|x y] A; [exact A|]. cbn in *. rewrite <- A. ring. Qed.
Lemma opp_opp : forall p, popp (popp p) = p.
Proof. intros [|x y]; [reflexivity|]. cbn. f_equal. ring. Qed.
Lemma third_curve_chord : forall x1 y1 x2 y2, on_curve (Pt x1 y1) -> on_curve (Pt x2 y2) -> x1 <> x2 ->
  on_curve (third ((y2 - y1) / (x2 - x1)) x1 y1 x2).
Proof.
  intros x1 y1 x2 y2 A B E. assert (D : x2 - x1 <> o) by (apply sub_neq; congruence).
  cbn in *. field [A B]. exact D.
Qed.
Lemma third_curve_tangent : forall x y, on_curve (Pt x y) ->
  on_curve (third ((x * x + x * x + x * x + a) / (y + y)) x y x).
Proof.
  intros x y A. pose proof (double_neq y (no_two _ _ A)) as D. cbn in *. field [A]. exact D.
Qed.
Lemma add_curve : forall p q, on_curve p -> on_curve q -> on_curve (padd p q).
Proof.
  intros [|x1 y1] [|x2 y2] A B; try assumption. destruct (how_added _ _ _ _ A B) as [-> ->| -> ->|E].
  - rewrite add_opp. exact Coq.Init.Logic.I.
  - rewrite add_tangent by exact A. apply third_curve_tangent, A.
  - rewrite add_chord by exact E. apply third_curve_chord; assumption.
Qed.
Lemma opp_add : forall p q, on_curve p -> on_curve q -> popp (padd p q) = padd (popp p) (popp q).
Proof.
  intros [|x1 y1] [|x2 y2] A B; try reflexivity. pose proof (opp_curve _ A) as A'. pose proof (opp_curve _ B) as B'.
  cbn [popp] in *.
  destruct (how_added _ _ _ _ A B) as [-> ->| -> ->|E].
  - rewrite !add_opp. reflexivity.
  - rewrite !add_tangent by assumption. pose proof (double_neq y1 (no_two _ _ A)) as D.
    assert (D2 : - y1 + - y1 <> o) by (apply double_neq, (no_two _ _ A')).
    unfold third, popp. cbv zeta. f_equal; field; auto.
  - rewrite !add_chord by assumption. assert (D : x2 - x1 <> o) by (apply sub_neq; congruence).
    unfold third, popp. cbv zeta. f_equal; field; auto.
Qed.
Lemma opp_self : forall p, on_curve p -> popp p = p -> p = Inf.
Proof.
  intros [|x y] A H; [reflexivity|]. exfalso. injection H as H. apply (double_neq y (no_two _ _ A)).
  rewrite <- H at 1. ring.
Qed.
Lemma add_popp : forall p, padd p (popp p) = Inf.
Proof. intros [|x y]; [reflexivity|apply add_opp]. Qed.

(** -A + (A + C) = C *)
Lemma cancel : forall p q, on_curve p -> on_curve q -> padd (popp p) (padd p q) = q.
Proof.
  intros [|x1 y1] [|x2 y2] A B; try reflexivity.
  { rewrite padd_inf, padd_comm; [apply add_popp|apply opp_curve, A|exact A]. }
  pose proof (opp_curve _ A) as A'. cbn [popp] in *.
  destruct (how_added _ _ _ _ A B) as [-> ->| -> ->|E].
  - rewrite add_opp, padd_inf. reflexivity.
  - rewrite add_tangent by exact A. pose proof (double_neq y1 (no_two _ _ A)) as D.
    pose proof (third_curve_tangent _ _ A) as T.
    set (l := (x1 * x1 + x1 * x1 + x1 * x1 + a) / (y1 + y1)) in *. unfold third in *. cbv zeta in *.
    destruct (eq_dec x1 (l * l - x1 - x1)) as [X|X].
    + assert (l * (x1 - (l * l - x1 - x1)) - y1 = - y1) as Y by (rewrite <- X; ring).
      rewrite Y, <- X. rewrite add_tangent by exact A'.
      assert (L : (x1 * x1 + x1 * x1 + x1 * x1 + a) / (- y1 + - y1) = - l).
      { unfold l. field. split; [exact D|]. apply double_neq, (no_two _ _ A'). }
      rewrite L. unfold third. cbv zeta.
      assert (Q : - l * - l - x1 - x1 = x1) by (transitivity (l * l - x1 - x1); [ring|symmetry; exact X]). rewrite Q. f_equal. ring.
    + rewrite add_chord by exact X. assert (D2 : (l * l - x1 - x1) - x1 <> o) by (apply sub_neq; congruence).
      assert (L : (l * (x1 - (l * l - x1 - x1)) - y1 - - y1) / (l * l - x1 - x1 - x1) = - l) by (field; exact D2).
      rewrite L. unfold third. cbv zeta.
      assert (Q : - l * - l - x1 - (l * l - x1 - x1) = x1) by ring. rewrite Q. f_equal; ring.
  - rewrite add_chord by exact E. assert (D : x2 - x1 <> o) by (apply sub_neq; congruence).
    set (l := (y2 - y1) / (x2 - x1)) in *.
    assert (Hl : l * (x2 - x1) = y2 - y1) by (unfold l; field; exact D).
    assert (Y2 : y2 = y1 + l * (x2 - x1)) by (rewrite Hl; ring). clearbody l.
    unfold third. cbv zeta.
    destruct (eq_dec x1 (l * l - x1 - x2)) as [X|X].
    + assert (Y : l * (x1 - (l * l - x1 - x2)) - y1 = - y1) by (rewrite <- X; ring).
      rewrite Y, <- X. rewrite add_tangent by exact A'.
      pose proof (double_neq y1 (no_two _ _ A)) as D1.
      pose proof (double_neq (- y1) (no_two _ _ A')) as D2.
      assert (X2 : x2 = l * l - x1 - x1) by (transitivity (l * l - x1 - (l * l - x1 - x2)); [ring|rewrite <- X; reflexivity]).
      assert (T : l * (y1 + y1) = x1 * x1 + x1 * x1 + x1 * x1 + a).
      { assert (Z : (x2 - x1) * (l * (y1 + y1) - (x1 * x1 + x1 * x1 + x1 * x1 + a)) = o).
        { cbn in A, B. clear - A B Y2 X2 Fth. subst y2.
          assert (W : (y1 + l * (x2 - x1)) * (y1 + l * (x2 - x1)) - y1 * y1 = x2 * x2 * x2 + a * x2 - x1 * x1 * x1 - a * x1).
          { rewrite A, B. ring. }
          transitivity ((y1 + l * (x2 - x1)) * (y1 + l * (x2 - x1)) - y1 * y1 - l * l * (x2 - x1) * (x2 - x1) - (x2 - x1) * (x1 * x1 + x1 * x1 + x1 * x1 + a)); [ring|].
          rewrite W. replace (l * l) with (x2 + x1 + x1) by (rewrite X2; ring). ring. }
        destruct (mul_zero _ _ Z) as [Q|Q]; [contradiction|]. apply sub_zero, Q. }
      rewrite <- T. assert (L : l * (y1 + y1) / (- y1 + - y1) = - l) by (field; exact D2).
      rewrite L. unfold third. cbv zeta.
      assert (Q : - l * - l - x1 - x1 = x2) by (rewrite X2; ring). rewrite Q. f_equal. rewrite Y2. ring.
    + rewrite add_chord by exact X. assert (D2 : (l * l - x1 - x2) - x1 <> o) by (apply sub_neq; congruence).
      assert (L : (l * (x1 - (l * l - x1 - x2)) - y1 - - y1) / (l * l - x1 - x2 - x1) = - l) by (field; exact D2).
      rewrite L. unfold third. cbv zeta.
      assert (Q : - l * - l - x1 - (l * l - x1 - x2) = x2) by ring. rewrite Q. f_equal. rewrite Y2. ring.
Qed.


(** the slope of the line through two points, or of the tangent where they are the same *)
Definition slope (x1 y1 x2 y2 l : F) : Prop :=
  y1 = y2 + l * (x1 - x2) /\ l * (y1 + y2) = x1 * x1 + x1 * x2 + x2 * x2 + a.
Lemma slope_ex : forall x1 y1 x2 y2, on_curve (Pt x1 y1) -> on_curve (Pt x2 y2) -> Pt x2 y2 <> popp (Pt x1 y1) ->
  exists l, slope x1 y1 x2 y2 l.
Proof.
  intros x1 y1 x2 y2 A B N. destruct (how_added _ _ _ _ A B) as [-> ->| -> ->|E]; [exfalso; apply N; reflexivity| |].
  - pose proof (double_neq y1 (no_two _ _ A)) as D.
    exists ((x1 * x1 + x1 * x1 + x1 * x1 + a) / (y1 + y1)). split; [ring|]. field. exact D.
  - assert (D : x2 - x1 <> o) by (apply sub_neq; congruence).
    exists ((y2 - y1) / (x2 - x1)). split; [field; exact D|]. cbn in A, B.
    transitivity ((y2 * y2 - y1 * y1) / (x2 - x1)); [field; exact D|]. rewrite A, B. field. exact D.
Qed.
Lemma mul_cancel : forall x y z, z <> o -> x * z = y * z -> x = y.
Proof.
  intros x y z N H. apply sub_zero. assert (Z : (x - y) * z = o) by (replace ((x - y) * z) with (x * z - y * z) by ring; rewrite H; ring).
  destruct (mul_zero _ _ Z); [assumption|contradiction].
Qed.
Lemma slope_add : forall x1 y1 x2 y2 l, on_curve (Pt x1 y1) -> on_curve (Pt x2 y2) -> Pt x2 y2 <> popp (Pt x1 y1) ->
  slope x1 y1 x2 y2 l -> padd (Pt x1 y1) (Pt x2 y2) = third l x1 y1 x2.
Proof.
  intros x1 y1 x2 y2 l A B N [S1 S2]. destruct (how_added _ _ _ _ A B) as [-> ->| -> ->|E]; [exfalso; apply N; reflexivity| |].
  - rewrite add_tangent by exact A. pose proof (double_neq y1 (no_two _ _ A)) as D. f_equal.
    apply (mul_cancel _ _ (y1 + y1)); [exact D|]. rewrite S2. field. exact D.
  - rewrite add_chord by exact E. assert (D : x2 - x1 <> o) by (apply sub_neq; congruence). f_equal.
    apply (mul_cancel _ _ (x2 - x1)); [exact D|]. rewrite S1. field. exact D.
Qed.
Lemma core : forall x1 y1 x2 y2 x3 y3 l m, l <> m -> slope x1 y1 x2 y2 l -> slope x2 y2 x3 y3 m ->
  let x4 := l * l - x1 - x2 in let y4 := l * (x1 - x4) - y1 in
  let x5 := m * m - x2 - x3 in let y5 := m * (x2 - x5) - y2 in
  exists k n, slope x4 y4 x3 y3 k /\ slope x1 y1 x5 y5 n /\ third k x4 y4 x3 = third n x1 y1 x5.
Proof.
  intros x1 y1 x2 y2 x3 y3 l m LM [S1 S2] [S3 S4]. cbv zeta. apply sub_neq in LM.
  set (e := (x1 - x3) / (l - m)). assert (X : x1 = x3 + e * (l - m)) by (unfold e; field; exact LM). clearbody e.
  assert (Y3 : y3 = y2 + m * (x3 - x2)) by (rewrite S3; ring).
  assert (Y2 : y2 = (e * (x1 + x2 + x3 - m * m) - (x1 - x2) * (l + m)) / (i + i)).
  { apply (mul_cancel _ _ (i + i)); [exact two|]. apply (mul_cancel _ _ (l - m)); [exact LM|].
    transitivity (l * (y1 + y2) - m * (y2 + y3) - l * l * (x1 - x2) + m * m * (x3 - x2)); [rewrite S1, Y3; ring|].
    rewrite S2, S4. rewrite X. field. exact two. }
  assert (A : a = l * (y1 + y2) - (x1 * x1 + x1 * x2 + x2 * x2)) by (rewrite S2; ring).
  clear S2 S3 S4. subst y1. subst y3. subst x1.
  exists (e - l), (e - m). unfold slope, third. cbv zeta.
  rewrite A, Y2. clear A Y2.
  split; [split; field; exact two|split; [split; field; exact two|f_equal; field; exact two]].
Qed.
Lemma rel : forall p q, on_curve p -> on_curve q -> p <> Inf -> q <> Inf -> q = popp p \/ q <> popp p.
Proof.
  intros [|x1 y1] [|x2 y2] A B N M; try congruence. cbn [popp].
  destruct (eq_dec x2 x1) as [->|X]; [|right; congruence]. destruct (eq_dec y2 (- y1)) as [->|Y]; [left; reflexivity|right; congruence].
Qed.
Lemma same_third : forall x y z w, on_curve (Pt x y) -> on_curve (Pt z w) -> Pt z w <> popp (Pt x y) -> x = z -> Pt x y = Pt z w.
Proof.
  intros x y z w A B N <-. destruct (same_x _ _ _ A B) as [->| ->]; [reflexivity|]. exfalso. apply N. reflexivity.
Qed.
Lemma inf_dec : forall p, p = Inf \/ p <> Inf.
Proof. intros [|]; [left; reflexivity|right; discriminate]. Qed.
Lemma add_inf_opp : forall p q, on_curve p -> on_curve q -> padd p q = Inf -> q = popp p.
Proof. intros p q A B H. rewrite <- (cancel p q A B), H, padd_inf. reflexivity. Qed.

Lemma padd_assoc : forall p q r, on_curve p -> on_curve q -> on_curve r ->
  padd (padd p q) r = padd p (padd q r).
Proof.
  intros p q r A B C.
  destruct (inf_dec p) as [->|P]; [reflexivity|]. destruct (inf_dec q) as [->|Q]; [rewrite padd_inf; reflexivity|].
  destruct (inf_dec r) as [->|R]; [rewrite !padd_inf; reflexivity|].
  pose proof (opp_curve _ A) as A'. pose proof (opp_curve _ B) as B'. pose proof (opp_curve _ C) as C'.
  pose proof (add_curve _ _ A B) as AB. pose proof (add_curve _ _ B C) as BC.
  assert (K1 : q = popp p -> padd (padd p q) r = padd p (padd q r)).
  { intros ->. rewrite add_popp. rewrite <- (opp_opp p) at 1. rewrite cancel by assumption. reflexivity. }
  assert (K2 : r = popp q -> padd (padd p q) r = padd p (padd q r)).
  { intros ->. rewrite add_popp, padd_inf. rewrite (padd_comm p q A B), padd_comm by (assumption || (apply add_curve; assumption)).
    apply cancel; assumption. }
  destruct (inf_dec (padd p q)) as [E|PQ]; [apply K1, add_inf_opp; assumption|].
  destruct (inf_dec (padd q r)) as [E|QR]; [apply K2, add_inf_opp; assumption|].
  destruct (rel p q A B P Q) as [E|X1]; [apply K1, E|].
  destruct (rel q r B C Q R) as [E|X2]; [apply K2, E|]. clear K1 K2.
  destruct (rel _ _ AB C PQ R) as [E|X3].
  { rewrite E at 1. rewrite add_popp, E, opp_add, (padd_comm (popp p) (popp q)) by assumption.
    rewrite <- (opp_opp q) at 1. rewrite cancel by assumption. rewrite add_popp. reflexivity. }
  destruct (rel _ _ A BC P QR) as [E|X4].
  { rewrite E, add_popp. assert (p = popp (padd q r)) as -> by (rewrite E, opp_opp; reflexivity).
    rewrite opp_add by assumption. rewrite (padd_comm _ q) by (try apply add_curve; assumption).
    rewrite <- (opp_opp q) at 1. rewrite cancel by assumption. rewrite padd_comm by assumption. apply add_popp. }
  destruct p as [|x1 y1]; [contradiction|]. destruct q as [|x2 y2]; [contradiction|]. destruct r as [|x3 y3]; [contradiction|].
  destruct (slope_ex _ _ _ _ A B X1) as [l L]. destruct (slope_ex _ _ _ _ B C X2) as [m M].
  rewrite (slope_add _ _ _ _ l A B X1 L) in *. rewrite (slope_add _ _ _ _ m B C X2 M) in *.
  destruct (eq_dec l m) as [<-|LM].
  2:{ destruct (core _ _ _ _ _ _ _ _ LM L M) as (k & n & K1 & K2 & K3). unfold third in *. cbv zeta in *.
      rewrite (slope_add _ _ _ _ k AB C X3 K1), (slope_add _ _ _ _ n A BC X4 K2). exact K3. }
  assert (H : (x1 - x3) * (x1 + x2 + x3 - l * l) = o).
  { destruct L as [L1 L2], M as [M1 M2].
    transitivity ((x1 * x1 + x1 * x2 + x2 * x2 + a) - (x2 * x2 + x2 * x3 + x3 * x3 + a) - l * (l * (x1 - x2)) - l * (l * (x2 - x3))); [ring|].
    rewrite <- L2, <- M2.
    replace (l * (x1 - x2)) with (y1 - y2) by (rewrite L1 at 1; ring). replace (l * (x2 - x3)) with (y2 - y3) by (rewrite M1 at 1; ring).
    ring. }
  destruct (mul_zero _ _ H) as [Z|Z].
  - apply sub_zero in Z. subst x3. assert (y3 = y1) as ->.
    { destruct L as [L1 L2], M as [M1 M2]. rewrite L1, M1. ring. }
    rewrite <- (slope_add _ _ _ _ l A B X1 L) in *. rewrite <- (slope_add _ _ _ _ l B C X2 M).
    rewrite (padd_comm (Pt x2 y2) (Pt x1 y1)) by assumption. apply padd_comm; assumption.
  - exfalso. apply Q, opp_self; [exact B|].
    assert (E3 : padd (Pt x1 y1) (Pt x2 y2) = Pt x3 y3).
    { rewrite (slope_add _ _ _ _ l A B X1 L). unfold third in *. cbv zeta in *. apply same_third; [exact AB|exact C|exact X3|].
      apply sub_zero. replace (l * l - x1 - x2 - x3) with (- (x1 + x2 + x3 - l * l)) by ring. rewrite Z. ring. }
    assert (E4 : padd (Pt x2 y2) (Pt x3 y3) = Pt x1 y1).
    { rewrite (slope_add _ _ _ _ l B C X2 M). unfold third in *. cbv zeta in *. symmetry. apply same_third; [exact A|exact BC|exact X4|].
      apply sub_zero. replace (x1 - (l * l - x2 - x3)) with (x1 + x2 + x3 - l * l) by ring. exact Z. }
    assert (Q1 : padd (popp (Pt x1 y1)) (Pt x3 y3) = Pt x2 y2) by (rewrite <- E3; apply cancel; assumption).
    assert (Q2 : padd (popp (Pt x3 y3)) (Pt x1 y1) = Pt x2 y2) by (rewrite <- E4, (padd_comm (Pt x2 y2) (Pt x3 y3) B C); apply cancel; assumption).
    rewrite <- Q1 at 1. rewrite opp_add, opp_opp, padd_comm by assumption. exact Q2.
Qed.

(** multiples of a point *)
Definition pmul (k : N) (p : point) : point := N.iter k (padd p) Inf.
Lemma pmul_0 : forall p, pmul 0 p = Inf.
Proof. reflexivity. Qed.
Lemma pmul_succ : forall k p, pmul (N.succ k) p = padd p (pmul k p).
Proof. intros k p. unfold pmul. rewrite N.iter_succ. reflexivity. Qed.
Lemma pmul_1 : forall p, pmul 1 p = p.
Proof. intros p. change 1%N with (N.succ 0). rewrite pmul_succ, pmul_0. apply padd_inf. Qed.
Lemma pmul_curve : forall k p, on_curve p -> on_curve (pmul k p).
Proof.
  intros k p C. induction k using N.peano_ind; [exact Coq.Init.Logic.I|]. rewrite pmul_succ. apply add_curve; assumption.
Qed.
Lemma pmul_add : forall j k p, on_curve p -> pmul (j + k) p = padd (pmul j p) (pmul k p).
Proof.
  intros j k p C. induction j as [|j IH] using N.peano_ind; [reflexivity|].
  rewrite N.add_succ_l, !pmul_succ, IH. symmetry. apply padd_assoc; [exact C|apply pmul_curve, C|apply pmul_curve, C].
Qed.
Lemma pmul_inf : forall k, pmul k Inf = Inf.
Proof. intros k. induction k using N.peano_ind; [reflexivity|]. rewrite pmul_succ, IHk. reflexivity. Qed.
Lemma pmul_mul : forall j k p, on_curve p -> pmul (j * k) p = pmul j (pmul k p).
Proof.
  intros j k p C. induction j as [|j IH] using N.peano_ind; [reflexivity|].
  rewrite N.mul_succ_l, N.add_comm, pmul_add, pmul_succ, IH by exact C. reflexivity.
Qed.
Lemma pmul_padd : forall k p q, on_curve p -> on_curve q -> pmul k (padd p q) = padd (pmul k p) (pmul k q).
Proof.
  intros k p q A B. induction k as [|k IH] using N.peano_ind; [reflexivity|].
  rewrite !pmul_succ, IH. pose proof (pmul_curve k p A) as P. pose proof (pmul_curve k q B) as Q.
  rewrite !padd_assoc by (try apply add_curve; assumption). f_equal.
  rewrite <- !padd_assoc by (try apply add_curve; assumption). f_equal. apply padd_comm; assumption.
Qed.
Lemma pmul_popp : forall k p, on_curve p -> pmul k (popp p) = popp (pmul k p).
Proof.
  intros k p A. induction k as [|k IH] using N.peano_ind; [reflexivity|].
  rewrite !pmul_succ, IH, opp_add; [reflexivity|exact A|apply pmul_curve, A].
Qed.
Lemma pmul_mod : forall n k p, on_curve p -> n <> 0%N -> pmul n p = Inf -> pmul (k mod n) p = pmul k p.
Proof.
  intros n k p C N Z. rewrite (N.div_mod k n N) at 2.
  rewrite pmul_add, N.mul_comm, pmul_mul, Z, pmul_inf by exact C. reflexivity.
Qed.
End Group.
