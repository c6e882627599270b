(* The integers modulo the field prime as a field, for CurveGroup. *)
From Coq Require Import ZArith Lia Znumtheory Bool Eqdep_dec Ring Field Field_theory.
From Verif Require Import NumTheory MontModel MontSpec MontPrimes.
Local Open Scope Z_scope.

Local Notation p := base_prime.
Lemma p_prime : prime p.
Proof. exact (field_prime _ _ is_base). Qed.
Lemma p_big : 1000 < p.
Proof. reflexivity. Qed.
#[local] Opaque base_prime.

Definition in_range (z : Z) : bool := (0 <=? z) && (z <? p).
Definition elt : Type := {z : Z | in_range z = true}.
Definition val (u : elt) : Z := proj1_sig u.
Lemma mod_range : forall z, in_range (z mod p) = true.
Proof.
  intros z. unfold in_range. pose proof p_big. pose proof (Z.mod_pos_bound z p ltac:(lia)).
  apply andb_true_iff. split; [apply Z.leb_le|apply Z.ltb_lt]; lia.
Qed.
Definition el (z : Z) : elt := exist _ (z mod p) (mod_range z).
Lemma val_range : forall u, 0 <= val u < p.
Proof.
  intros [z H]. cbn. unfold in_range in H. apply andb_true_iff in H. destruct H as [A B].
  apply Z.leb_le in A. apply Z.ltb_lt in B. lia.
Qed.
Lemma val_inj : forall u v, val u = val v -> u = v.
Proof.
  intros [z H] [w K] E. cbn in E. subst w. f_equal. apply UIP_dec, bool_dec.
Qed.
Lemma val_el : forall z, val (el z) = z mod p.
Proof. reflexivity. Qed.
Lemma el_val : forall u, el (val u) = u.
Proof. intros u. apply val_inj. rewrite val_el. apply Z.mod_small, val_range. Qed.
Lemma el_eq : forall z w, el z = el w <-> z mod p = w mod p.
Proof.
  intros z w. split; intros H; [apply (f_equal val) in H; exact H|apply val_inj; exact H].
Qed.

Definition fadd (u v : elt) := el (val u + val v).
Definition fsub (u v : elt) := el (val u - val v).
Definition fmul (u v : elt) := el (val u * val v).
Definition fopp (u : elt) := el (- val u).
Definition finv (u : elt) := el (val u ^ (p - 2)).
Definition fdiv (u v : elt) := fmul u (finv v).
Definition feqb (u v : elt) : bool := val u =? val v.
Lemma feqb_spec : forall u v, feqb u v = true <-> u = v.
Proof.
  intros u v. unfold feqb. rewrite Z.eqb_eq. split; [apply val_inj|intros ->; reflexivity].
Qed.
Ltac up := apply val_inj; unfold fadd, fsub, fmul, fopp; rewrite ?val_el.
Lemma el_add : forall x y, el (x + y) = fadd (el x) (el y).
Proof. intros x y. up. rewrite <- Z.add_mod by (pose proof p_big; lia). reflexivity. Qed.
Lemma el_sub : forall x y, el (x - y) = fsub (el x) (el y).
Proof. intros x y. up. apply Zminus_mod. Qed.
Lemma el_mul : forall x y, el (x * y) = fmul (el x) (el y).
Proof. intros x y. up. apply Zmult_mod. Qed.
Lemma el_opp : forall x, el (- x) = fopp (el x).
Proof.
  intros x. up. replace (- x) with (0 - x) by lia. replace (- (x mod p)) with (0 - x mod p) by lia.
  rewrite Zminus_mod, (Zminus_mod 0 (x mod p)), Z.mod_mod by (pose proof p_big; lia). reflexivity.
Qed.
Lemma el_ind : forall Q : elt -> Prop, (forall z, Q (el z)) -> forall u, Q u.
Proof. intros Q H u. rewrite <- (el_val u). apply H. Qed.

Lemma F_field : field_theory (el 0) (el 1) fadd fmul fsub fopp fdiv finv (@eq elt).
Proof.
  constructor.
  - constructor.
    + intros x. induction x using el_ind. rewrite <- el_add. f_equal.
    + intros x y. induction x using el_ind. induction y using el_ind. rewrite <- !el_add. f_equal. lia.
    + intros x y w. induction x using el_ind. induction y using el_ind. induction w using el_ind. rewrite <- !el_add. f_equal. lia.
    + intros x. induction x using el_ind. rewrite <- el_mul. f_equal. lia.
    + intros x y. induction x using el_ind. induction y using el_ind. rewrite <- !el_mul. f_equal. lia.
    + intros x y w. induction x using el_ind. induction y using el_ind. induction w using el_ind. rewrite <- !el_mul. f_equal. lia.
    + intros x y w. induction x using el_ind. induction y using el_ind. induction w using el_ind.
      rewrite <- !el_add, <- !el_mul, <- el_add. f_equal. lia.
    + intros x y. induction x using el_ind. induction y using el_ind. rewrite <- el_opp, <- el_sub, <- el_add. f_equal.
    + intros x. induction x using el_ind. rewrite <- el_opp, <- el_add. f_equal. lia.
  - intros H. apply (f_equal val) in H. rewrite !val_el, Z.mod_0_l, Z.mod_small in H by (pose proof p_big; lia). discriminate.
  - reflexivity.
  - intros x N. assert (V : val x <> 0).
    { intros E. apply N. apply val_inj. rewrite E, val_el, Z.mod_0_l by (pose proof p_big; lia). reflexivity. }
    pose proof (val_range x) as R. assert (ND : ~ (p | val x)).
    { intros [c E]. assert (c = 0 \/ c <= -1 \/ 1 <= c) as [C|[C|C]] by lia; nia. }
    pose proof (fermat_little p (val x) p_prime ND) as FL. destruct FL as [c FL].
    unfold finv. rewrite <- (el_val x) at 2. rewrite <- el_mul. apply el_eq.
    replace (val x ^ (p - 2) * val x) with (val x ^ (p - 1)).
    + rewrite FL. apply Z_mod_plus_full.
    + rewrite Z.mul_comm, <- Z.pow_succ_r by (pose proof p_big; lia). f_equal; lia.
Qed.
#[global] Opaque finv.
Lemma two_nz : fadd (el 1) (el 1) <> el 0.
Proof.
  rewrite <- el_add. intros H. apply (f_equal val) in H.
  rewrite !val_el, Z.mod_0_l, Z.mod_small in H by (pose proof p_big; lia). discriminate.
Qed.
