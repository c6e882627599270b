From Coq Require Import List ZArith NArith Bool Lia Znumtheory Zpow_facts.
From Verif Require Import MontModel MontSpec MontProof MontOpsProof NumTheory.
Import ListNotations.
Local Open Scope Z_scope.

Definition base_t : Z := 2 ^ 59 + 17.

Lemma base_form : base_prime = base_t * 2 ^ 192 + 1.
Proof. vm_compute. reflexivity. Qed.

Lemma three_nonresidue : eqm base_prime (3 ^ (base_t * 2 ^ (192 - 1))) (-1).
Proof.
  apply eqm_iff; [discriminate|].
  rewrite <- (Zpow_mod_correct 3 _ base_prime) by (vm_compute; discriminate).
  vm_compute. reflexivity.
Qed.

Theorem base_prime_prime : prime base_prime.
Proof.
  apply (proth base_prime base_t 192 3); [lia|reflexivity|exact base_form|vm_compute; reflexivity|exact three_nonresidue].
Qed.

(* ---- bits of an exponent ---- *)

Definition bitz (b : bool) : Z := if b then 1 else 0.
Fixpoint bval (bs : list bool) : Z :=
  match bs with [] => 0 | b :: bs' => bitz b * 2 ^ Z.of_nat (length bs') + bval bs' end.

Lemma bval_app : forall a b, bval (a ++ b) = bval a * 2 ^ Z.of_nat (length b) + bval b.
Proof.
  induction a as [|x a IH]; intro b; cbn [app bval]; [lia|].
  rewrite IH, app_length, Nat2Z.inj_add, Z.pow_add_r by lia. ring.
Qed.

Lemma bval_nonneg : forall bs, 0 <= bval bs.
Proof.
  induction bs as [|b bs IH]; cbn [bval]; [lia|].
  assert (0 <= 2 ^ Z.of_nat (length bs)) by (apply Z.pow_nonneg; lia).
  destruct b; cbn [bitz]; lia.
Qed.

Lemma bval_skip : forall bs, bval (skip_zeros bs) = bval bs.
Proof. induction bs as [|[] bs IH]; cbn [skip_zeros]; auto. Qed.

Lemma bits_below : forall k x, 0 <= x ->
  bval (map (fun i => Z.testbit x (Z.of_nat i)) (rev (seq 0 k))) = x mod 2 ^ Z.of_nat k.
Proof.
  induction k as [|k IH]; intros x H; [simpl; rewrite Z.mod_1_r; reflexivity|].
  rewrite seq_S, rev_app_distr. cbn [rev app map bval plus]. rewrite IH by exact H.
  rewrite map_length, rev_length, seq_length.
  rewrite Nat2Z.inj_succ, Z.pow_succ_r by lia.
  set (q := 2 ^ Z.of_nat k). assert (0 < q) by (apply Z.pow_pos_nonneg; lia).
  rewrite (Z.mul_comm 2 q), Z.rem_mul_r by lia.
  assert (E : bitz (Z.testbit x (Z.of_nat k)) = (x / q) mod 2).
  { pose proof (Z.testbit_spec' x (Z.of_nat k) ltac:(lia)) as T. unfold q. rewrite <- T.
    destruct (Z.testbit x (Z.of_nat k)); reflexivity. }
  rewrite E. ring.
Qed.

Lemma limb_bits_val : forall x, inB x -> bval (limb_bits_be x) = x.
Proof.
  intros x H. unfold limb_bits_be. rewrite bits_below by (unfold inB in H; lia).
  change (2 ^ Z.of_nat 64) with (2 ^ 64). rewrite <- B_eq. apply Z.mod_small. exact H.
Qed.

Lemma limb_bits_length : forall x, length (limb_bits_be x) = 64%nat.
Proof. intro. unfold limb_bits_be. rewrite map_length, rev_length, seq_length. reflexivity. Qed.

Lemma bits_be_val : forall e, wf e -> bval (bits_be e) = val e.
Proof.
  intros e (H0 & H1 & H2 & H3). unfold bits_be.
  rewrite !bval_app, !app_length, !limb_bits_length, !limb_bits_val by assumption.
  change (Z.of_nat (64 + (64 + 64))) with 192. change (Z.of_nat (64 + 64)) with 128.
  change (Z.of_nat 64) with 64.
  unfold val. rewrite B_eq. change (2 ^ 192) with (2 ^ 64 * 2 ^ 64 * 2 ^ 64). change (2 ^ 128) with (2 ^ 64 * 2 ^ 64).
  ring.
Qed.

Section Roots.
Variable F : field.
Variable p : Z.
Hypothesis FF : field_facts F p.

(* a represents the residue class of n *)
Definition rq (a : limbs) (n : Z) : Prop := represents p a (n mod p).

Lemma p_ne : p <> 0. Proof. pose proof (ff_pos _ _ FF). lia. Qed.

Lemma rq_of : forall a n, represents p a n -> rq a n.
Proof.
  intros a n H. unfold rq. rewrite Z.mod_small; [exact H|]. apply H.
Qed.

Lemma rq_eqm : forall a n m, eqm p n m -> rq a n -> rq a m.
Proof. intros a n m E H. unfold rq in *. apply eqm_iff in E; [|exact p_ne]. rewrite <- E. exact H. Qed.

Lemma rq_mul : forall a b n m, rq a n -> rq b m -> rq (mul F a b) (n * m).
Proof.
  intros a b n m Ha Hb. unfold rq in *. destruct (mul_rep F p FF _ _ _ _ Ha Hb) as [M _].
  rewrite <- Z.mul_mod in M by exact p_ne. exact M.
Qed.

Lemma rq_square : forall a n, rq a n -> rq (square F a) (n * n).
Proof.
  intros a n Ha. unfold rq in *. destruct (square_rep F p FF _ _ Ha) as [M _].
  rewrite <- Z.mul_mod in M by exact p_ne. exact M.
Qed.

Lemma rq_one : rq (f_R F) 1. Proof. apply rq_of, (represents_one F p FF). Qed.

Lemma rq_is_one : forall a n, rq a n -> (is_one F a = true <-> eqm p n 1).
Proof.
  intros a n H. rewrite (is_one_rep F p FF _ _ H). rewrite Z.eqb_eq.
  rewrite eqm_iff by exact p_ne. rewrite (Z.mod_small 1 p) by (pose proof (ff_pos _ _ FF); lia). reflexivity.
Qed.

Lemma rq_fun : forall a n m, rq a n -> rq a m -> eqm p n m.
Proof. intros a n m H1 H2. apply eqm_iff; [exact p_ne|]. exact (represents_fun F p FF _ _ _ H1 H2). Qed.

Lemma pow_fold : forall bits a n r e, rq a n -> 0 <= e -> rq r (n ^ e) ->
  rq (fold_left (fun res (i : bool) => if i then mul F (square F res) a else square F res) bits r)
     (n ^ (e * 2 ^ Z.of_nat (length bits) + bval bits)).
Proof.
  induction bits as [|b bits IH]; intros a n r e Ha He Hr; cbn [fold_left bval length].
  - change (Z.of_nat 0) with 0. rewrite Z.pow_0_r, Z.mul_1_r, Z.add_0_r. exact Hr.
  - replace (e * 2 ^ Z.of_nat (S (length bits)) + (bitz b * 2 ^ Z.of_nat (length bits) + bval bits))
      with ((2 * e + bitz b) * 2 ^ Z.of_nat (length bits) + bval bits).
    2:{ rewrite Nat2Z.inj_succ, Z.pow_succ_r by lia. ring. }
    assert (S2 : rq (square F r) (n ^ (2 * e))).
    { replace (2 * e) with (e + e) by ring. rewrite Z.pow_add_r by lia. apply rq_square. exact Hr. }
    destruct b; cbn [bitz]; apply IH; auto; try lia.
    + rewrite Z.pow_add_r, Z.pow_1_r by lia. apply rq_mul; assumption.
    + rewrite Z.add_0_r. exact S2.
Qed.

Lemma pow_rq : forall a n e, rq a n -> wf e -> rq (pow F a e) (n ^ val e).
Proof.
  intros a n e Ha We. unfold pow. cbv zeta. rewrite <- (bits_be_val e We), <- bval_skip.
  pose proof (pow_fold (skip_zeros (bits_be e)) a n (f_R F) 0 Ha ltac:(lia)) as H.
  rewrite Z.mul_0_l, Z.add_0_l in H. apply H. rewrite Z.pow_0_r. exact rq_one.
Qed.
End Roots.

Global Opaque square mul.
Section Tonelli.
Variable F : field.
Variables p t h : Z.
Notation bq := (rq p).
Hypothesis FF : field_facts F p.
Hypothesis PR : prime p.

Lemma pow2_succ : forall x k, x ^ 2 ^ Z.of_nat (S k) = x ^ 2 ^ Z.of_nat k * x ^ 2 ^ Z.of_nat k.
Proof.
  intros x k. rewrite Nat2Z.inj_succ, Z.pow_succ_r by lia.
  assert (0 <= 2 ^ Z.of_nat k) by (apply Z.pow_nonneg; lia).
  rewrite (Z.mul_comm 2), Z.pow_mul_r by lia. rewrite Z.pow_2_r. reflexivity.
Qed.

Lemma pow2_add : forall x j k, x ^ 2 ^ Z.of_nat (j + k) = (x ^ 2 ^ Z.of_nat j) ^ 2 ^ Z.of_nat k.
Proof.
  intros x j k. rewrite Nat2Z.inj_add, Z.pow_add_r by lia.
  rewrite Z.pow_mul_r by (apply Z.pow_nonneg; lia). reflexivity.
Qed.

Lemma eqm_one_pow : forall x j k, (j <= k)%nat -> eqm p (x ^ 2 ^ Z.of_nat j) 1 ->
  eqm p (x ^ 2 ^ Z.of_nat k) 1.
Proof.
  intros x j k L E. replace k with (j + (k - j))%nat by lia. rewrite pow2_add.
  assert (K : 0 <= 2 ^ Z.of_nat (k - j)) by (apply Z.pow_nonneg; lia).
  pose proof (eqm_pow p _ _ _ K E) as H. rewrite Z.pow_1_l in H by exact K. exact H.
Qed.

Lemma one_ne_opp1 : ~ eqm p 1 (-1).
Proof.
  intro H. pose proof (ff_pos _ _ FF). destruct H as [k H]. assert (D : (p | 2)) by (exists k; lia).
  apply Z.divide_pos_le in D; lia.
Qed.

Lemma order_loop_spec : forall fuel b2k k0 beta, bq b2k beta ->
  (exists K, (K < fuel)%nat /\ eqm p (beta ^ 2 ^ Z.of_nat K) 1) ->
  exists k, order_loop F fuel b2k k0 = Some (k0 + k)%nat /\
    eqm p (beta ^ 2 ^ Z.of_nat k) 1 /\
    (forall j, (j < k)%nat -> ~ eqm p (beta ^ 2 ^ Z.of_nat j) 1).
Proof.
  induction fuel as [|fuel IH]; intros b2k k0 beta Hb (K & LK & EK); [lia|].
  cbn [order_loop]. pose proof (rq_is_one F p FF _ _ Hb) as I1.
  destruct (is_one F b2k).
  - exists 0%nat. split; [f_equal; lia|]. split; [|intros j Hj; lia].
    change (2 ^ Z.of_nat 0) with 1. rewrite Z.pow_1_r. apply I1. reflexivity.
  - assert (N1 : ~ eqm p beta 1) by (intro H; apply I1 in H; discriminate).
    destruct K as [|K].
    { exfalso. apply N1. change (2 ^ Z.of_nat 0) with 1 in EK. rewrite Z.pow_1_r in EK. exact EK. }
    assert (SH : forall i, (beta * beta) ^ 2 ^ Z.of_nat i = beta ^ 2 ^ Z.of_nat (S i)).
    { intro i. rewrite pow2_succ. apply Z.pow_mul_l. }
    destruct (IH (square F b2k) (S k0) (beta * beta)) as (k & E & E1 & MIN).
    + apply (rq_square F p FF). exact Hb.
    + exists K. split; [lia|]. rewrite SH. exact EK.
    + exists (S k). split; [rewrite E; f_equal; lia|]. split; [rewrite <- SH; exact E1|].
      intros [|j] Hj.
      * change (2 ^ Z.of_nat 0) with 1. rewrite Z.pow_1_r. exact N1.
      * rewrite <- SH. apply MIN. lia.
Qed.

Lemma repeat_rq : forall f, (forall a n, bq a n -> bq (f a) (n * n)) ->
  forall n w z, bq w z -> bq (repeat_times f n w) (z ^ 2 ^ Z.of_nat n).
Proof.
  intros f Hf. induction n as [|n IH]; intros w z H; cbn [repeat_times].
  - change (2 ^ Z.of_nat 0) with 1. rewrite Z.pow_1_r. exact H.
  - replace (z ^ 2 ^ Z.of_nat (S n)) with ((z * z) ^ 2 ^ Z.of_nat n).
    + apply IH. apply Hf. exact H.
    + rewrite pow2_succ. apply Z.pow_mul_l.
Qed.
Lemma square_times_rq : forall n w z, bq w z -> bq (square_times F n w) (z ^ 2 ^ Z.of_nat n).
Proof. exact (repeat_rq (square F) (rq_square F p FF)). Qed.

Lemma sqrt_loop_spec : forall fuel v z x b zeta xi beta n, (193 + v < fuel)%nat -> (v < 192)%nat ->
  bq z zeta -> bq x xi -> bq b beta -> eqm p (xi * xi) (n * beta) ->
  eqm p (zeta ^ 2 ^ Z.of_nat v) (-1) -> eqm p (beta ^ 2 ^ Z.of_nat v) 1 ->
  exists y r, sqrt_loop F fuel z x b (S v) = SqrtSome y /\ bq y r /\ eqm p (r * r) n.
Proof.
  induction fuel as [|fuel IH]; intros v z x b zeta xi beta n FU V Hz Hx Hb EX EZ EB; [lia|].
  cbn [sqrt_loop]. pose proof (rq_is_one F p FF _ _ Hb) as I1.
  destruct (is_one F b).
  - exists x, xi. split; [reflexivity|]. split; [exact Hx|].
    eapply eqm_trans; [exact EX|]. rewrite <- (Z.mul_1_r n) at 2.
    apply eqm_mul; [apply eqm_refl|]. apply I1. reflexivity.
  - assert (N1 : ~ eqm p beta 1) by (intro H; apply I1 in H; discriminate).
    destruct (order_loop_spec fuel b 0 beta Hb) as (k & E & EK & MIN).
    { exists v. split; [lia|exact EB]. }
    rewrite E. cbn [plus].
    assert (K1 : (k <> 0)%nat).
    { intros ->. apply N1. change (2 ^ Z.of_nat 0) with 1 in EK. rewrite Z.pow_1_r in EK. exact EK. }
    assert (KV : (k <= v)%nat).
    { destruct (le_lt_dec k v) as [|C]; [assumption|]. exfalso. exact (MIN v C EB). }
    unfold SQRT_S.
    destruct (Nat.eqb_spec k 192) as [|_]; [lia|].
    destruct (Nat.ltb_spec (S v) k) as [|_]; [lia|].
    destruct k as [|k']; [contradiction|].
    replace (S v - S k' - 1)%nat with (v - S k')%nat by (clear - KV; lia).
    cbv zeta. set (w := square_times F (v - S k') z). set (om := zeta ^ 2 ^ Z.of_nat (v - S k')).
    assert (Hw : bq w om) by (apply square_times_rq; exact Hz).
    assert (Hz' : bq (square F w) (om * om)) by (apply (rq_square F p FF); exact Hw).
    assert (EZ' : eqm p ((om * om) ^ 2 ^ Z.of_nat k') (-1)).
    { replace ((om * om) ^ 2 ^ Z.of_nat k') with (zeta ^ 2 ^ Z.of_nat v); [exact EZ|].
      unfold om. rewrite <- pow2_succ, <- pow2_add.
      replace (S (v - S k') + k')%nat with v by (clear - KV; lia). reflexivity. }
    refine (IH k' (square F w) (mul F x w) (mul F b (square F w))
              (om * om) (xi * om) (beta * (om * om)) n _ _ Hz' _ _ _ EZ' _).
    + clear - FU KV. lia.
    + clear - V KV. lia.
    + exact (rq_mul F p FF _ _ _ _ Hx Hw).
    + exact (rq_mul F p FF _ _ _ _ Hb Hz').
    + replace (xi * om * (xi * om)) with (xi * xi * (om * om)) by ring.
      replace (n * (beta * (om * om))) with (n * beta * (om * om)) by ring.
      apply eqm_mul; [exact EX|apply eqm_refl].
    + rewrite Z.pow_mul_l.
      assert (EM : eqm p (beta ^ 2 ^ Z.of_nat k') (-1)).
      { destruct (sqrt_one p (beta ^ 2 ^ Z.of_nat k') PR) as [C|C]; [|exfalso|exact C].
        - rewrite <- pow2_succ. exact EK.
        - apply (MIN k'); [lia|exact C]. }
      change 1 with (-1 * -1). apply eqm_mul; assumption.
Qed.

Hypothesis H0 : 0 <= h.
Hypothesis HT : t = Z.succ (h + h).
Hypothesis HP : p - 1 = t * 2 ^ 192.
Hypothesis HV : val SQRT_T_MINUS_ONE_DIV2 = h.
Hypothesis WH : wf SQRT_T_MINUS_ONE_DIV2.
Hypothesis ZR : rq p SQRT_Z (3 ^ t).
Hypothesis E3 : eqm p (3 ^ (t * 2 ^ Z.of_nat 191)) (-1).

Lemma t_split : forall n, n * (n ^ h * n ^ h) = n ^ t.
Proof.
  intro n. rewrite HT, Z.pow_succ_r, Z.pow_add_r by lia. reflexivity.
Qed.
Lemma half_form : t * 2 ^ Z.of_nat 191 = (p - 1) / 2.
Proof.
  rewrite HP. apply Z.div_unique with 0; [lia|].
  change (2 ^ 192) with (2 * 2 ^ Z.of_nat 191). ring.
Qed.
Lemma HALF0 : 0 <= (p - 1) / 2.
Proof. pose proof (ff_pos _ _ FF). apply Z.div_pos; lia. Qed.
Lemma HALF2 : 2 * ((p - 1) / 2) = p - 1.
Proof.
  rewrite <- half_form, HP. change (2 ^ 192) with (2 * 2 ^ Z.of_nat 191). ring.
Qed.
Lemma base_half : forall n, (n ^ t) ^ 2 ^ Z.of_nat 191 = n ^ ((p - 1) / 2).
Proof.
  intro n. rewrite <- Z.pow_mul_r by (try apply Z.pow_nonneg; lia). rewrite half_form. reflexivity.
Qed.
Lemma base_full : forall n, (n ^ t) ^ 2 ^ Z.of_nat 192 = n ^ (p - 1).
Proof.
  intro n. rewrite <- Z.pow_mul_r by (try apply Z.pow_nonneg; lia). rewrite HP. reflexivity.
Qed.

Lemma sqrt_generic : forall fuel a n, (500 <= fuel)%nat -> represents p a n ->
  match sqrt F fuel a with
  | SqrtSome x => exists r, represents p x r /\ (r * r) mod p = n
  | SqrtNone => forall r, (r * r) mod p <> n
  | SqrtPanic | SqrtDiverges => False
  end.
Proof.
  intros fuel a n FU H. unfold sqrt. rewrite (is_zero_rep _ _ FF a n H).
  assert (NR : 0 <= n < p) by apply H.
  destruct (Z.eqb_spec n 0) as [->|NZ].
  { exists 0. split; [exact (represents_zero _ _ FF)|apply Z.mod_0_l; exact (p_ne _ _ FF)]. }
  pose proof (rq_of p _ _ H) as Ha.
  set (w := pow F a SQRT_T_MINUS_ONE_DIV2).
  set (om := n ^ (h)).
  assert (Hw : bq w om).
  { unfold om. rewrite <- HV. apply (pow_rq F p FF); [exact Ha|exact WH]. }
  set (x := mul F w a). assert (Hx : bq x (om * n)) by (apply (rq_mul F p FF); assumption).
  set (b := mul F x w).
  assert (Hb : bq b (n ^ t)).
  { rewrite <- t_split. fold om. replace (n * (om * om)) with (om * n * om) by ring.
    apply (rq_mul F p FF); assumption. }
  assert (EX : om * n * (om * n) = n * n ^ t).
  { rewrite <- t_split. fold om. ring. }
  assert (ND : ~ (p | n)).
  { intro D. apply Z.divide_pos_le in D; lia. }
  pose proof (fermat_little p n PR ND) as FL. rewrite <- base_full in FL.
  clearbody w x b.
  destruct (sqrt_one p ((n ^ t) ^ 2 ^ Z.of_nat 191) PR) as [QR|QNR].
  { rewrite <- pow2_succ. exact FL. }
  - destruct (sqrt_loop_spec fuel 191 SQRT_Z x b (3 ^ t) (om * n) (n ^ t) n) as (y & r & E & Hy & Er).
    + clear - FU. lia.
    + clear. lia.
    + exact ZR.
    + exact Hx.
    + exact Hb.
    + rewrite EX. apply eqm_refl.
    + rewrite <- Z.pow_mul_r by (try apply Z.pow_nonneg; lia). exact E3.
    + exact QR.
    + unfold SQRT_S. rewrite E. exists (r mod p). split; [exact Hy|].
      rewrite <- Z.mul_mod by exact (p_ne _ _ FF). apply eqm_iff in Er; [|exact (p_ne _ _ FF)].
      rewrite Er. apply Z.mod_small. exact NR.
  - destruct fuel as [|fuel]; [lia|]. cbn [sqrt_loop].
    pose proof (rq_is_one F p FF _ _ Hb) as I1.
    destruct (is_one F b).
    { exfalso. apply one_ne_opp1. eapply eqm_trans; [|exact QNR]. apply eqm_sym.
      apply (eqm_one_pow (n ^ t) 0 191); [lia|].
      change (2 ^ Z.of_nat 0) with 1. rewrite Z.pow_1_r. apply I1. reflexivity. }
    destruct (order_loop_spec fuel b 0 (n ^ t) Hb) as (k & E & EK & MIN).
    { exists 192%nat. split; [lia|exact FL]. }
    rewrite E. cbn [plus].
    assert (k = 192%nat) as ->.
    { destruct (lt_eq_lt_dec k 192) as [[C|C]|C]; [|exact C|].
      - exfalso. apply one_ne_opp1. eapply eqm_trans; [|exact QNR]. apply eqm_sym.
        apply (eqm_one_pow (n ^ t) k 191); [lia|exact EK].
      - exfalso. exact (MIN _ C FL). }
    unfold SQRT_S. rewrite Nat.eqb_refl.
    intros r Er. apply one_ne_opp1. eapply eqm_trans; [|exact QNR]. apply eqm_sym. rewrite base_half.
    assert (EN : eqm p n (r * r)).
    { apply eqm_iff; [exact (p_ne _ _ FF)|]. rewrite Er. apply Z.mod_small. exact NR. }
    eapply eqm_trans; [apply eqm_pow; [exact HALF0|exact EN]|].
    rewrite <- Z.pow_2_r, <- Z.pow_mul_r by (exact HALF0 || lia). rewrite HALF2.
    apply (fermat_little p r PR).
    intros [q D]. apply NZ. apply (eqm_small p); [exact NR|clear - NR; lia|].
    eapply eqm_trans; [exact EN|]. rewrite D. exists (q * p * q). ring.
Qed.
End Tonelli.

Transparent B.
Lemma SQRT_Z_rep : represents base_prime SQRT_Z (Zpow_mod 3 base_t base_prime).
Proof.
  unfold represents, u64s, u64.
  repeat match goal with |- _ /\ _ => split | |- _ <= _ < _ => split end; vm_compute;
  first [reflexivity | discriminate].
Qed.
Lemma T_half_wf : wf SQRT_T_MINUS_ONE_DIV2.
Proof. unfold wf, inB. repeat split; vm_compute; congruence. Qed.
Lemma T_half_val : val SQRT_T_MINUS_ONE_DIV2 = (base_t - 1) / 2.
Proof. vm_compute. reflexivity. Qed.
Opaque B.

Lemma SQRT_Z_rq : rq base_prime SQRT_Z (3 ^ base_t).
Proof.
  unfold rq. rewrite <- Zpow_mod_correct by (vm_compute; discriminate). exact SQRT_Z_rep.
Qed.

Lemma sqrt_spec : forall fuel a n, (500 <= fuel)%nat -> represents base_prime a n ->
  match sqrt base_field fuel a with
  | SqrtSome x => exists r, represents base_prime x r /\ (r * r) mod base_prime = n
  | SqrtNone => forall r, (r * r) mod base_prime <> n
  | SqrtPanic | SqrtDiverges => False
  end.
Proof.
  apply (sqrt_generic base_field base_prime base_t ((base_t - 1) / 2) (is_field_facts _ _ is_base) base_prime_prime).
  - vm_compute. discriminate.
  - vm_compute. reflexivity.
  - vm_compute. reflexivity.
  - exact T_half_val.
  - exact T_half_wf.
  - exact SQRT_Z_rq.
  - exact three_nonresidue.
Qed.
