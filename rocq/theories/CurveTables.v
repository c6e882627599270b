(* Bits, chunks and tables of CurveModel; the meanings of CurveMeanSpec as those of CurveProof. *)
From Coq Require Import List ZArith NArith Lia Bool Znumtheory Ring Field ZifyBool ZifyNat ZifyN.
From Verif Require Import Radix FeltModel FeltSpec FeltProof MontModel MontSpec MontProof MontOpsProof
  MontRootProof MontBytesProof MontPrimes MontProperties.
From Verif Require Import CurveModel CurveSpec CurveMeanSpec CurveField CurveGroup CurveRoot CurvePoints CurveOrder CurveProof.
Import ListNotations.
Local Open Scope Z_scope.
Local Notation p := base_prime.
Add Field elt_field4 : F_field.
#[local] Opaque base_prime.

(* ---- bits ---- *)
Lemma word_bits_length : forall w x, length (word_bits w x) = w.
Proof. intros w x. unfold word_bits. rewrite map_length, seq_length. reflexivity. Qed.
Lemma word_bits_from : forall w k x, 0 <= x ->
  Z.of_N (load_le (map (fun i => Z.testbit x (Z.of_nat i)) (seq k w))) = (x / 2 ^ Z.of_nat k) mod 2 ^ Z.of_nat w.
Proof.
  induction w as [|w IH]; intros k x H; cbn [seq map].
  - cbn [load_le]. change (2 ^ Z.of_nat 0) with 1. rewrite Z.mod_1_r. reflexivity.
  - rewrite load_le_cons, N2Z.inj_add, N2Z.inj_mul, IH by exact H.
    rewrite !Nat2Z.inj_succ. unfold Z.succ. rewrite !Z.pow_add_r by lia. change (2 ^ 1) with 2.
    rewrite <- Z.div_div by (try apply Z.pow_nonzero; try apply Z.pow_pos_nonneg; lia).
    set (q := x / 2 ^ Z.of_nat k). assert (E : Z.of_N (N.b2n (Z.testbit x (Z.of_nat k))) = q mod 2).
    { rewrite <- Z.bit0_mod. unfold q. rewrite Z.div_pow2_bits by lia. rewrite Z.add_0_l.
      destruct (Z.testbit x (Z.of_nat k)); reflexivity. }
    rewrite E. rewrite (Z.mul_comm (2 ^ _) 2), Z.rem_mul_r by (try apply Z.pow_pos_nonneg; lia). reflexivity.
Qed.
Lemma word_bits_value : forall w x, 0 <= x < 2 ^ Z.of_nat w -> Z.of_N (load_le (word_bits w x)) = x.
Proof.
  intros w x H. unfold word_bits. rewrite word_bits_from by lia. change (2 ^ Z.of_nat 0) with 1.
  rewrite Z.div_1_r. apply Z.mod_small, H.
Qed.
Lemma load_le_app : forall a b, load_le (a ++ b) = (load_le a + 2 ^ N.of_nat (length a) * load_le b)%N.
Proof.
  induction a as [|x a IH]; intros b; cbn [app length].
  - change (load_le []) with 0%N. change (2 ^ N.of_nat 0)%N with 1%N. lia.
  - rewrite !load_le_cons, IH, Nat2N.inj_succ, N.pow_succ_r'. lia.
Qed.
Lemma load_le_lt : forall a, (load_le a < 2 ^ N.of_nat (length a))%N.
Proof.
  induction a as [|x a IH]; cbn [length]; [reflexivity|].
  rewrite load_le_cons, Nat2N.inj_succ, N.pow_succ_r'. destruct x; cbn [N.b2n]; lia.
Qed.
Lemma into_le_bits_value : forall F q a n, is_field F q -> represents q a n ->
  Z.of_N (load_le (into_le_bits F a)) = n.
Proof.
  intros F q a n IF R. destruct (to_native_both F q (is_field_facts F q IF) a n R) as [[W V] _].
  unfold into_le_bits. cbn zeta. set (s := reduce_full F a) in *. clearbody s.
  rewrite !load_le_app, !word_bits_length. destruct W as (W0 & W1 & W2 & W3).
  unfold inB in W0, W1, W2, W3. rewrite B_eq in W0, W1, W2, W3.
  rewrite !N2Z.inj_add, !N2Z.inj_mul, !N2Z.inj_add, !N2Z.inj_mul, !N2Z.inj_add, !N2Z.inj_mul.
  rewrite !word_bits_value by (change (Z.of_nat 64) with 64; assumption).
  rewrite <- V. unfold MontProof.val. rewrite B_eq, N2Z.inj_pow. change (Z.of_N 2) with 2. change (Z.of_N (N.of_nat 64)) with 64. ring.
Qed.
Lemma felt_le_bits_value : forall f, is_bytes f -> load_le (felt_le_bits f) = be_value f /\ length (felt_le_bits f) = (8 * length f)%nat.
Proof.
  intros f H. unfold felt_le_bits. induction f as [|x f IH]; [split; reflexivity|].
  inversion H as [|? ? HX HF]; subst. destruct (IH HF) as [V L]. cbn [rev]. rewrite flat_map_app. cbn [flat_map].
  rewrite app_nil_r, load_le_app, app_length, V, L. cbn [be_value length]. split.
  - assert (E : load_le (word_bits 8 (Z.of_N x)) = x).
    { apply N2Z.inj. apply word_bits_value. change (2 ^ Z.of_nat 8) with 256. lia. }
    rewrite E. replace (2 ^ N.of_nat (8 * length f))%N with (256 ^ N.of_nat (length f))%N; [lia|].
    change 256%N with (2 ^ 8)%N. rewrite <- N.pow_mul_r. f_equal; lia.
  - rewrite word_bits_length. lia.
Qed.
Lemma load_le_firstn : forall k bits, load_le (firstn k bits) = (load_le bits mod 2 ^ N.of_nat k)%N.
Proof.
  intros k bits. destruct (Nat.le_gt_cases (length bits) k) as [L|L].
  - rewrite firstn_all2 by exact L. symmetry. apply N.mod_small. pose proof (load_le_lt bits).
    assert (2 ^ N.of_nat (length bits) <= 2 ^ N.of_nat k)%N by (apply N.pow_le_mono_r; lia). lia.
  - rewrite <- (firstn_skipn k bits) at 2. rewrite load_le_app, firstn_length_le by lia.
    rewrite N.mul_comm, N.mod_add by (apply N.pow_nonzero; lia). symmetry. apply N.mod_small.
    pose proof (load_le_lt (firstn k bits)) as H. rewrite firstn_length_le in H by lia. exact H.
Qed.
Lemma load_le_skipn : forall k bits, load_le (skipn k bits) = (load_le bits / 2 ^ N.of_nat k)%N.
Proof.
  intros k bits. destruct (Nat.le_gt_cases (length bits) k) as [L|L].
  - rewrite skipn_all2 by exact L. symmetry. apply N.div_small. pose proof (load_le_lt bits).
    assert (2 ^ N.of_nat (length bits) <= 2 ^ N.of_nat k)%N by (apply N.pow_le_mono_r; lia). lia.
  - rewrite <- (firstn_skipn k bits) at 2. rewrite load_le_app, firstn_length_le by lia.
    rewrite N.mul_comm, N.div_add by (apply N.pow_nonzero; lia).
    pose proof (load_le_lt (firstn k bits)) as H. rewrite firstn_length_le in H by lia.
    rewrite (N.div_small _ _ H). reflexivity.
Qed.

(* ---- tables ---- *)
Section Table.
Variables (w : nat) (P : pt) (prep : list affine) (M : N).
Hypothesis W : (0 < w)%nat.
Hypothesis C : on P.
Hypothesis T : forall i d, (0 < d < 2 ^ N.of_nat w)%N -> (d * 2 ^ (N.of_nat w * i) <= M)%N ->
  exists e, nth_error prep (N.to_nat (i * (2 ^ N.of_nat w - 1) + d - 1)) = Some e /\ mA e (gmul (d * 2 ^ (N.of_nat w * i)) P).
Lemma add_points_loop_ok : forall fuel bits i acc A, (length bits <= fuel)%nat -> mP acc A -> on A ->
  (load_le bits * 2 ^ (N.of_nat w * i) <= M)%N ->
  exists r, add_points_loop (2 ^ N.of_nat w - 1) acc i (chunks_loop fuel w bits) prep = Ret r /\
    mP r (gadd A (gmul (load_le bits * 2 ^ (N.of_nat w * i)) P)).
Proof.
  induction fuel as [|fuel IH]; intros bits i acc A L MA OA B.
  - destruct bits; [|cbn in L; lia]. exists acc. split; [reflexivity|]. rewrite gadd_inf. exact MA.
  - destruct bits as [|b bits0].
    { exists acc. split; [reflexivity|]. rewrite gadd_inf. exact MA. }
    set (bits := b :: bits0) in *. assert (U : chunks_loop (S fuel) w bits = firstn w bits :: chunks_loop fuel w (skipn w bits)) by reflexivity.
    rewrite U. cbn [add_points_loop]. cbn zeta.
    assert (SPLIT : load_le bits = (load_le (firstn w bits) + 2 ^ N.of_nat w * load_le (skipn w bits))%N).
    { rewrite load_le_firstn, load_le_skipn. rewrite N.add_comm. apply N.div_mod. apply N.pow_nonzero. lia. }
    assert (DL : (load_le (firstn w bits) < 2 ^ N.of_nat w)%N).
    { rewrite load_le_firstn. apply N.mod_lt. apply N.pow_nonzero. lia. }
    assert (SL : (length (skipn w bits) <= fuel)%nat).
    { rewrite skipn_length. unfold bits in *. cbn [length] in *. lia. }
    set (d := load_le (firstn w bits)) in *. set (h := load_le (skipn w bits)) in *.
    assert (PW : (2 ^ (N.of_nat w * (i + 1)) = 2 ^ N.of_nat w * 2 ^ (N.of_nat w * i))%N).
    { rewrite N.mul_add_distr_l, N.mul_1_r, N.pow_add_r. apply N.mul_comm. }
    assert (HB : (h * 2 ^ (N.of_nat w * (i + 1)) = 2 ^ N.of_nat w * h * 2 ^ (N.of_nat w * i))%N) by (rewrite PW; ring).
    assert (VAL : (load_le bits * 2 ^ (N.of_nat w * i) = d * 2 ^ (N.of_nat w * i) + h * 2 ^ (N.of_nat w * (i + 1)))%N).
    { rewrite SPLIT, N.mul_add_distr_r, HB. reflexivity. }
    rewrite VAL in *. rewrite gmul_add by exact C. rewrite <- gadd_assoc by (try exact OA; apply gmul_on, C).
    destruct (0 <? d)%N eqn:D0.
    + apply N.ltb_lt in D0. destruct (T i d (conj D0 DL)) as (e & -> & ME).
      { eapply N.le_trans; [|exact B]. apply N.le_add_r. }
      apply IH; [exact SL| |apply gadd_on; [exact OA|apply gmul_on, C]|].
      * apply projective_add_affine_ok; try assumption. apply gmul_on, C.
      * eapply N.le_trans; [|exact B]. apply N.le_add_l.
    + apply N.ltb_ge in D0. assert (d = 0)%N as -> by lia. rewrite N.mul_0_l, gmul_0, gadd_inf.
      apply IH; [exact SL|exact MA|exact OA|]. eapply N.le_trans; [|exact B]. apply N.le_add_l.
Qed.
Lemma add_points_ok : forall bits acc A, mP acc A -> on A -> (load_le bits <= M)%N ->
  exists r, add_points w acc bits prep = Ret r /\ mP r (gadd A (gmul (load_le bits) P)).
Proof.
  intros bits acc A MA OA B. unfold add_points, chunks.
  pose proof (add_points_loop_ok (length bits) bits 0 acc A (Nat.le_refl _) MA OA) as H.
  rewrite N.mul_0_r, N.pow_0_r, N.mul_1_r in H. exact (H B).
Qed.
End Table.

(* ---- the meanings ---- *)
Lemma means_affine_iff : forall a Q, on_stark Q -> (means_affine a Q <-> mA a (emb Q)).
Proof.
  intros a Q O. split.
  - intros (x & y & X & Y & E). exists (el x), (el y). split; [apply rep_val, X|]. split; [apply rep_val, Y|].
    subst Q. destruct (a_inf a); reflexivity.
  - intros (u & v & U & V & E). exists (val u), (val v). split; [exact U|]. split; [exact V|].
    rewrite <- (unemb_emb Q O), E. destruct (a_inf a); reflexivity.
Qed.
Lemma means_projective_iff : forall a Q, on_stark Q -> (means_projective a Q <-> mP a (emb Q)).
Proof.
  intros a Q O. split.
  - intros (x & y & z & X & Y & Z & N & E). exists (el x), (el y), (el z).
    split; [apply rep_val, X|]. split; [apply rep_val, Y|]. split; [apply rep_val, Z|].
    split. { intros H. apply N. apply (f_equal val) in H. rewrite !el_small in H; [exact H|pose proof p_big; lia|apply Z]. }
    destruct Q as [|px py]; [rewrite E; reflexivity|]. destruct E as (I & PX & PY & EX & EY). rewrite I.
    exists (el px), (el py). split; [reflexivity|]. rewrite EX, EY, !el_mod, !el_mul. auto.
  - intros (u & v & w & U & V & Wr & N & E). exists (val u), (val v), (val w).
    split; [exact U|]. split; [exact V|]. split; [exact Wr|].
    split. { intros H. apply N. rewrite <- (el_val w), H. reflexivity. }
    destruct Q as [|px py].
    + destruct (p_inf a); [reflexivity|]. destruct E as (s & t & H & _). discriminate H.
    + destruct (p_inf a); [discriminate E|]. destruct E as (s & t & H & -> & ->). cbn [emb] in H. injection H as HX HY.
      subst s t. destruct O as (PX & PY & _). split; [reflexivity|]. split; [exact PX|]. split; [exact PY|].
      rewrite <- !val_el, !el_mul, !el_val. auto.
Qed.
