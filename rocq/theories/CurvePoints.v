(* The Stark curve as an instance of CurveGroup, and the plain-integer sum of CurveSpec as
   the sum there. *)
From Coq Require Import ZArith NArith Lia Bool Ring Field.
From Verif Require Import MontModel MontSpec CurveField CurveGroup CurveSpec CurveRoot.
Local Open Scope Z_scope.
Local Notation p := base_prime.
#[local] Opaque base_prime.
Add Field elt_field2 : F_field.

Definition pt := point elt.
Definition on (P : pt) : Prop := on_curve elt fadd fmul (el 1) (el curve_b) P.
Definition gadd : pt -> pt -> pt := padd elt (el 0) fadd fmul fsub fdiv feqb (el 1).
Definition gopp : pt -> pt := popp elt fopp.
Definition gmul : N -> pt -> pt := pmul elt (el 0) fadd fmul fsub fdiv feqb (el 1).
Definition gthird : elt -> elt -> elt -> elt -> pt := third elt fmul fsub.
Notation Oh := (Inf elt).
Notation PT := (Pt elt).

Lemma no_two_torsion : forall x y, on (PT x y) -> y <> el 0.
Proof.
  intros x y C E. subst y. rewrite <- (el_val x) in C. unfold on, on_curve in C.
  apply (no_root (val x)). rewrite !el_add, !el_mul.
  transitivity (fadd (fadd (fmul (fmul (el (val x)) (el (val x))) (el (val x))) (fmul (el 1) (el (val x)))) (el curve_b)); [ring|].
  rewrite <- C. ring.
Qed.
Lemma gadd_on : forall P Q, on P -> on Q -> on (gadd P Q).
Proof. exact (add_curve _ _ _ _ _ _ _ _ _ F_field _ feqb_spec _ _ two_nz no_two_torsion). Qed.
Lemma gopp_on : forall P, on P -> on (gopp P).
Proof. exact (opp_curve _ _ _ _ _ _ _ _ _ F_field _ _). Qed.
Lemma gadd_comm : forall P Q, on P -> on Q -> gadd P Q = gadd Q P.
Proof. exact (padd_comm _ _ _ _ _ _ _ _ _ F_field _ feqb_spec _ _). Qed.
Lemma gadd_assoc : forall P Q R, on P -> on Q -> on R -> gadd (gadd P Q) R = gadd P (gadd Q R).
Proof. exact (padd_assoc _ _ _ _ _ _ _ _ _ F_field _ feqb_spec _ _ two_nz no_two_torsion). Qed.
Lemma gcancel : forall P Q, on P -> on Q -> gadd (gopp P) (gadd P Q) = Q.
Proof. exact (cancel _ _ _ _ _ _ _ _ _ F_field _ feqb_spec _ _ two_nz no_two_torsion). Qed.
Lemma gadd_inf : forall P, gadd P Oh = P.
Proof. intros [|]; reflexivity. Qed.
Lemma gadd_opp : forall P, gadd P (gopp P) = Oh.
Proof. exact (add_popp _ _ _ _ _ _ _ _ _ F_field _ feqb_spec _). Qed.
Lemma gopp_opp : forall P, gopp (gopp P) = P.
Proof. exact (opp_opp _ _ _ _ _ _ _ _ _ F_field). Qed.
Lemma gopp_add : forall P Q, on P -> on Q -> gopp (gadd P Q) = gadd (gopp P) (gopp Q).
Proof. exact (opp_add _ _ _ _ _ _ _ _ _ F_field _ feqb_spec _ _ two_nz no_two_torsion). Qed.
Lemma gmul_0 : forall P, gmul 0 P = Oh.
Proof. reflexivity. Qed.
Lemma gmul_1 : forall P, gmul 1 P = P.
Proof. exact (pmul_1 _ _ _ _ _ _ _ _). Qed.
Lemma gmul_succ : forall k P, gmul (N.succ k) P = gadd P (gmul k P).
Proof. exact (pmul_succ _ _ _ _ _ _ _ _). Qed.
Lemma gmul_on : forall k P, on P -> on (gmul k P).
Proof. exact (pmul_curve _ _ _ _ _ _ _ _ _ F_field _ feqb_spec _ _ two_nz no_two_torsion). Qed.
Lemma gmul_add : forall j k P, on P -> gmul (j + k) P = gadd (gmul j P) (gmul k P).
Proof. exact (pmul_add _ _ _ _ _ _ _ _ _ F_field _ feqb_spec _ _ two_nz no_two_torsion). Qed.
Lemma gmul_mul : forall j k P, on P -> gmul (j * k) P = gmul j (gmul k P).
Proof. exact (pmul_mul _ _ _ _ _ _ _ _ _ F_field _ feqb_spec _ _ two_nz no_two_torsion). Qed.
Lemma gmul_inf : forall k, gmul k Oh = Oh.
Proof. exact (pmul_inf _ _ _ _ _ _ _ _). Qed.
Lemma gmul_gadd : forall k P Q, on P -> on Q -> gmul k (gadd P Q) = gadd (gmul k P) (gmul k Q).
Proof. exact (pmul_padd _ _ _ _ _ _ _ _ _ F_field _ feqb_spec _ _ two_nz no_two_torsion). Qed.
Lemma gmul_opp : forall k P, on P -> gmul k (gopp P) = gopp (gmul k P).
Proof. exact (pmul_popp _ _ _ _ _ _ _ _ _ F_field _ feqb_spec _ _ two_nz no_two_torsion). Qed.
Lemma gmul_mod : forall n k P, on P -> n <> 0%N -> gmul n P = Oh -> gmul (k mod n) P = gmul k P.
Proof. exact (pmul_mod _ _ _ _ _ _ _ _ _ F_field _ feqb_spec _ _ two_nz no_two_torsion). Qed.
Lemma fmul_cancel : forall x y z, z <> el 0 -> fmul x z = fmul y z -> x = y.
Proof. exact (mul_cancel _ _ _ _ _ _ _ _ _ F_field _ feqb_spec). Qed.
Lemma fmul_zero : forall x y, fmul x y = el 0 -> x = el 0 \/ y = el 0.
Proof. exact (mul_zero _ _ _ _ _ _ _ _ _ F_field _ feqb_spec). Qed.
Lemma fdouble_nz : forall y, y <> el 0 -> fadd y y <> el 0.
Proof. exact (double_neq _ _ _ _ _ _ _ _ _ F_field _ feqb_spec two_nz). Qed.
Lemma fsub_nz : forall x y, x <> y -> fsub x y <> el 0.
Proof. exact (sub_neq _ _ _ _ _ _ _ _ _ F_field). Qed.
Lemma fsub_z : forall x y, fsub x y = el 0 -> x = y.
Proof. exact (sub_zero _ _ _ _ _ _ _ _ _ F_field). Qed.
Lemma gadd_same_x : forall x y z, on (PT x y) -> on (PT x z) -> y = z \/ z = fopp y.
Proof. exact (same_x _ _ _ _ _ _ _ _ _ F_field _ feqb_spec _ _). Qed.
Lemma gadd_opposite : forall x y, gadd (PT x y) (PT x (fopp y)) = Oh.
Proof. intros x y. exact (gadd_opp (PT x y)). Qed.

(** the sum by any slope *)
Lemma gadd_chord : forall x1 y1 x2 y2 l, x1 <> x2 -> fmul l (fsub x2 x1) = fsub y2 y1 ->
  gadd (PT x1 y1) (PT x2 y2) = gthird l x1 y1 x2.
Proof.
  intros x1 y1 x2 y2 l N E. unfold gadd. rewrite (add_chord _ _ _ _ _ _ _ feqb_spec _ _ _ _ _ N).
  unfold gthird. f_equal. assert (D : fsub x2 x1 <> el 0) by (apply fsub_nz; congruence).
  apply (fmul_cancel _ _ _ D). rewrite E. field. exact D.
Qed.
Lemma gadd_tangent : forall x y l, on (PT x y) ->
  fmul l (fadd y y) = fadd (fadd (fadd (fmul x x) (fmul x x)) (fmul x x)) (el 1) ->
  gadd (PT x y) (PT x y) = gthird l x y x.
Proof.
  intros x y l C E. unfold gadd.
  rewrite (add_tangent _ _ _ _ _ _ _ _ _ F_field _ feqb_spec _ _ two_nz no_two_torsion _ _ C).
  unfold gthird. f_equal. assert (D : fadd y y <> el 0) by (apply fdouble_nz, (no_two_torsion _ _ C)).
  apply (fmul_cancel _ _ _ D). rewrite E. field. exact D.
Qed.

(** points of the specification *)
Definition emb (P : cpoint) : pt := match P with Infinity => Oh | At x y => PT (el x) (el y) end.
Definition unemb (P : pt) : cpoint := match P with Inf _ => Infinity | Pt _ x y => At (val x) (val y) end.
Lemma el_small : forall x, 0 <= x < p -> val (el x) = x.
Proof. intros x H. rewrite val_el. apply Z.mod_small, H. Qed.
Lemma unemb_emb : forall P, on_stark P -> unemb (emb P) = P.
Proof. intros [|x y] H; [reflexivity|]. destruct H as (X & Y & _). cbn [emb unemb]. rewrite !el_small by assumption. reflexivity. Qed.
Lemma emb_unemb : forall P, emb (unemb P) = P.
Proof. intros [|x y]; [reflexivity|]. cbn [emb unemb]. rewrite !el_val. reflexivity. Qed.
Lemma on_cubic : forall x y, on (PT (el x) (el y)) <-> (y * y) mod p = (x * x * x + x + curve_b) mod p.
Proof.
  intros x y. rewrite <- el_eq, !el_add, !el_mul. unfold on, on_curve.
  replace (fmul (el 1) (el x)) with (el x) by ring. reflexivity.
Qed.
Lemma on_emb : forall P, on_stark P -> on (emb P).
Proof. intros [|x y] H; [exact Coq.Init.Logic.I|]. apply on_cubic, H. Qed.
Lemma on_unemb : forall P, on P -> on_stark (unemb P).
Proof.
  intros [|x y] H; [exact Coq.Init.Logic.I|]. cbn [unemb on_stark].
  split; [apply val_range|]. split; [apply val_range|]. apply on_cubic. rewrite !el_val. exact H.
Qed.
Lemma emb_inj : forall P Q, on_stark P -> on_stark Q -> emb P = emb Q -> P = Q.
Proof. intros P Q A B E. rewrite <- (unemb_emb P A), <- (unemb_emb Q B), E. reflexivity. Qed.
Lemma el_mod : forall z, el (z mod p) = el z.
Proof. intros z. apply el_eq, Z.mod_mod. pose proof p_big. lia. Qed.
Lemma emb_mirrored : forall l x1 y1 x2, emb (mirrored l x1 y1 x2) = gthird (el l) (el x1) (el y1) (el x2).
Proof.
  intros l x1 y1 x2. unfold mirrored, gthird, third. cbn [emb]. rewrite !el_mod, !el_sub, !el_mul, !el_sub, el_mod, !el_sub, !el_mul. reflexivity.
Qed.
Lemma emb_opposite : forall P, emb (opposite P) = gopp (emb P).
Proof. intros [|x y]; [reflexivity|]. cbn [opposite emb gopp popp]. rewrite el_mod, el_opp. reflexivity. Qed.

Lemma sum_gadd : forall P Q R, on_stark P -> on_stark Q -> sum P Q R -> gadd (emb P) (emb Q) = emb R.
Proof.
  intros P Q R A B S. pose proof p_big as PB. destruct S as [Q|P|x y y' H|x1 y1 x2 y2 l N H|x y l N H].
  - reflexivity.
  - apply gadd_inf.
  - cbn [emb]. replace (el y') with (fopp (el y)); [apply gadd_opposite|].
    rewrite <- el_opp. apply el_eq. replace y' with ((y + y') - y) by ring. rewrite Zminus_mod, H.
    replace (- y) with (0 - y) by ring. rewrite Zminus_mod, Z.mod_0_l by lia. reflexivity.
  - rewrite emb_mirrored. cbn [emb]. apply gadd_chord.
    + intros E. apply (f_equal val) in E. rewrite !el_small in E by (apply A || apply B). contradiction.
    + rewrite <- !el_sub, <- el_mul. apply el_eq. exact H.
  - rewrite emb_mirrored. cbn [emb]. apply gadd_tangent; [exact (on_emb _ A)|].
    rewrite <- !el_mul, <- !el_add, <- !el_mul. apply el_eq. rewrite H. f_equal. ring.
Qed.
Lemma gadd_sum : forall P Q, on_stark P -> on_stark Q -> sum P Q (unemb (gadd (emb P) (emb Q))).
Proof.
  intros [|x1 y1] [|x2 y2] A B.
  - apply sum_left.
  - cbn [emb]. change (gadd Oh (PT (el x2) (el y2))) with (emb (At x2 y2)). rewrite (unemb_emb _ B). apply sum_left.
  - rewrite gadd_inf, (unemb_emb _ A). apply sum_right.
  - pose proof p_big as PB. destruct (Z.eq_dec x1 x2) as [<-|N].
    + destruct (gadd_same_x _ _ _ (on_emb _ A) (on_emb _ B)) as [E|E].
      * assert (y1 = y2) as <-.
        { apply (f_equal val) in E. rewrite !el_small in E by (apply A || apply B). exact E. }
        pose proof (no_two_torsion _ _ (on_emb _ A)) as D. apply fdouble_nz in D.
        set (l := fdiv (fadd (fadd (fadd (fmul (el x1) (el x1)) (fmul (el x1) (el x1))) (fmul (el x1) (el x1))) (el 1)) (fadd (el y1) (el y1))).
        assert (L : fmul l (fadd (el y1) (el y1)) = fadd (fadd (fadd (fmul (el x1) (el x1)) (fmul (el x1) (el x1))) (fmul (el x1) (el x1))) (el 1))
          by (unfold l; field; exact D).
        clearbody l. cbn [emb]. rewrite (gadd_tangent _ _ l (on_emb _ A) L).
        rewrite <- (el_val l), <- emb_mirrored. rewrite unemb_emb; [apply sum_tangent|].
        -- intros Z. apply D. rewrite <- el_add. apply el_eq. rewrite Z, Z.mod_0_l by lia. reflexivity.
        -- apply el_eq. rewrite el_mul, el_add, el_val, L, <- !el_mul, <- !el_add. f_equal. ring.
        -- unfold mirrored. cbn [on_stark].
           split; [apply Z.mod_pos_bound; lia|]. split; [apply Z.mod_pos_bound; lia|].
           apply on_cubic. pose proof (gadd_on _ _ (on_emb _ A) (on_emb _ A)) as O. cbn [emb] in O.
           rewrite (gadd_tangent _ _ l (on_emb _ A) L), <- (el_val l), <- emb_mirrored in O. exact O.
      * cbn [emb]. rewrite E, gadd_opposite. apply sum_opposite.
        rewrite <- (Z.mod_0_l p) by lia. apply el_eq. rewrite el_add, E. ring.
    + assert (N' : el x1 <> el x2).
      { intros E. apply (f_equal val) in E. rewrite !el_small in E by (apply A || apply B). contradiction. }
      assert (D : fsub (el x2) (el x1) <> el 0) by (apply fsub_nz; congruence).
      set (l := fdiv (fsub (el y2) (el y1)) (fsub (el x2) (el x1))).
      assert (L : fmul l (fsub (el x2) (el x1)) = fsub (el y2) (el y1)) by (unfold l; field; exact D).
      clearbody l. cbn [emb]. rewrite (gadd_chord _ _ _ _ l N' L).
      rewrite <- (el_val l), <- emb_mirrored. rewrite unemb_emb; [apply sum_chord; [exact N|]|].
      * apply el_eq. rewrite el_mul, !el_sub, el_val, L. reflexivity.
      * unfold mirrored. cbn [on_stark].
        split; [apply Z.mod_pos_bound; lia|]. split; [apply Z.mod_pos_bound; lia|].
        apply on_cubic. pose proof (gadd_on _ _ (on_emb _ A) (on_emb _ B)) as O. cbn [emb] in O.
        rewrite (gadd_chord _ _ _ _ l N' L), <- (el_val l), <- emb_mirrored in O. exact O.
Qed.
Lemma sum_iff : forall P Q R, on_stark P -> on_stark Q -> on_stark R -> (sum P Q R <-> gadd (emb P) (emb Q) = emb R).
Proof.
  intros P Q R A B C. split; [apply sum_gadd; assumption|]. intros E.
  rewrite <- (unemb_emb R C), <- E. apply gadd_sum; assumption.
Qed.
Lemma sum_on : forall P Q R, on_stark P -> on_stark Q -> sum P Q R -> on_stark R.
Proof.
  intros P Q R A B S. pose proof (sum_gadd P Q R A B S) as E. pose proof (gadd_on _ _ (on_emb _ A) (on_emb _ B)) as O.
  pose proof p_big as PB. destruct S as [Q|P|x y y' H|x1 y1 x2 y2 l N H|x y l N H]; try assumption; try exact Coq.Init.Logic.I;
  rewrite E in O; unfold mirrored in *; cbn [on_stark];
  (split; [apply Z.mod_pos_bound; lia|]; split; [apply Z.mod_pos_bound; lia|]; apply on_cubic; exact O).
Qed.
Lemma times_gmul : forall k P R, on_stark P -> (times k P R <-> on_stark R /\ gmul k (emb P) = emb R).
Proof.
  intros k P R A. revert R. induction k as [|k IH] using N.peano_ind; intros R.
  - split.
    + intros T. inversion T as [|k' P' Q R' T' S E]; subst; [split; [exact Coq.Init.Logic.I|reflexivity]|].
      exfalso. exact (N.neq_succ_0 _ E).
    + intros [O E]. rewrite gmul_0 in E. destruct R; [apply times_none|discriminate].
  - split.
    + intros T. inversion T as [P' E|k' P' Q R' T' S E]; subst; [exfalso; apply (N.neq_succ_0 k); congruence|].
      apply N.succ_inj in E. subst k'. apply IH in T'. destruct T' as [O E]. split; [exact (sum_on _ _ _ A O S)|].
      rewrite gmul_succ, E. apply sum_gadd; assumption.
    + intros [O E]. rewrite gmul_succ in E.
      pose proof (on_unemb _ (gmul_on k _ (on_emb _ A))) as O2.
      apply (times_more k P (unemb (gmul k (emb P)))).
      * apply IH. split; [exact O2|]. rewrite emb_unemb. reflexivity.
      * apply sum_iff; [exact A|exact O2|exact O|]. rewrite emb_unemb. exact E.
Qed.
