(* The permutation of PoseidonModel is that of PoseidonSpec, and has an inverse. *)
From Coq Require Import List ZArith NArith Lia Bool Znumtheory Zpow_facts Ring.
From Verif Require Import NumTheory MontModel MontSpec MontProof MontOpsProof MontPrimes MontProperties.
From Verif Require Import CurveModel CurveGroup CurveField CurvePoints CurveProof.
From Verif Require Import HashModel PoseidonModel PoseidonSpec.
Import ListNotations.
Local Open Scope Z_scope.
Local Notation p := base_prime.
Local Notation val := CurveField.val.
Add Field elt_field9 : F_field.

(* the keys the code should have, from the published ones *)
Fixpoint zcompress (keys : list (Z * Z * Z)) (d : Z * Z * Z) : list Z * (Z * Z * Z) :=
  match keys with
  | [] => ([], d)
  | k :: keys' =>
      let '(a, b, c) := add_key d k in
      let '(r, e) := zcompress keys' (mds (a, b, 0)) in (c :: r, e)
  end.
Definition flat (ks : list (Z * Z * Z)) : list Z := flat_map (fun '(a, b, c) => [a; b; c]) ks.
Definition zkeys (f1 pa f2 : list (Z * Z * Z)) : list Z :=
  let '(r, d) := zcompress pa (0, 0, 0) in
  match f2 with
  | k :: f2' => flat f1 ++ r ++ flat (add_key d k :: f2')
  | [] => []
  end.
Definition check_limbs (a : limbs) (n : Z) : bool :=
  (0 <=? l0 a) && (l0 a <? 2 ^ 64) && (0 <=? l1 a) && (l1 a <? 2 ^ 64) &&
  (0 <=? l2 a) && (l2 a <? 2 ^ 64) && (0 <=? l3 a) && (l3 a <? 2 ^ 64) &&
  (0 <=? n) && (n <? p) && (value a =? (n * 2 ^ 256) mod p).
Fixpoint check_all (l : list limbs) (ns : list Z) : bool :=
  match l, ns with
  | [], [] => true
  | a :: l', n :: ns' => check_limbs a n && check_all l' ns'
  | _, _ => false
  end.
Lemma check_limbs_ok : forall a n, check_limbs a n = true -> represents p a n.
Proof.
  intros a n H. unfold check_limbs in H. rewrite !andb_true_iff, !Z.leb_le, !Z.ltb_lt, Z.eqb_eq in H.
  unfold represents, u64s, u64. tauto.
Qed.
Lemma check_all_ok : forall l ns, check_all l ns = true -> Forall2 (represents p) l ns.
Proof.
  induction l as [|a l IH]; intros [|n ns] H; try discriminate H; [constructor|].
  cbn [check_all] in H. apply andb_true_iff in H. destruct H as [A B]. constructor; [exact (check_limbs_ok _ _ A)|exact (IH _ B)].
Qed.
Definition first_keys : list (Z * Z * Z) := firstn 4 round_keys.
Definition middle_keys : list (Z * Z * Z) := firstn 83 (skipn 4 round_keys).
Definition last_keys : list (Z * Z * Z) := skipn 87 round_keys.
Lemma consts_ok : Forall2 (represents p) POSEIDON_COMP_CONSTS (zkeys first_keys middle_keys last_keys).
Proof. apply check_all_ok. vm_cast_no_check (eq_refl true). Qed.
Lemma keys_length : length first_keys = 4%nat /\ length middle_keys = 83%nat /\ exists k ks, last_keys = k :: ks /\ length ks = 3%nat.
Proof.
  split; [reflexivity|]. split; [reflexivity|]. unfold last_keys, round_keys. cbn [skipn]. eexists _, _. split; reflexivity.
Qed.
Lemma third_p : exists e, 0 <= e /\ 3 * e = 1 + (p - 1) * 2.
Proof. exists ((2 * p - 1) / 3). split; [discriminate|reflexivity]. Qed.
#[local] Opaque base_prime POSEIDON_COMP_CONSTS round_keys first_keys middle_keys last_keys.

(* ---- in the field ---- *)
Definition st : Type := elt * elt * elt.
Definition E (s : Z * Z * Z) : st := let '(a, b, c) := s in (el a, el b, el c).
Definition eadd (s k : st) : st := let '(a, b, c) := s in let '(k0, k1, k2) := k in (fadd a k0, fadd b k1, fadd c k2).
Definition emix (s : st) : st :=
  let '(a, b, c) := s in let t := fadd (fadd a b) c in
  (fadd t (fadd a a), fsub t (fadd b b), fsub t (fadd (fadd c c) c)).
Definition ecube (x : elt) : elt := fmul (fmul x x) x.
Definition efull (s k : st) : st := let '(a, b, c) := eadd s k in emix (ecube a, ecube b, ecube c).
Definition epartial (s k : st) : st := let '(a, b, c) := eadd s k in emix (a, b, ecube c).
Definition ecomp (s : st) (k : elt) : st := let '(a, b, c) := s in emix (a, b, ecube (fadd c k)).
Lemma E_add_key : forall s k, E (add_key s k) = eadd (E s) (E k).
Proof. intros [[a b] c] [[k0 k1] k2]. cbn [add_key E eadd]. rewrite !el_mod, !el_add. reflexivity. Qed.
Lemma E_mds : forall s, E (mds s) = emix (E s).
Proof.
  intros [[a b] c]. cbn [mds E emix]. rewrite !el_mod.
  replace (3 * a + b + c) with (a + b + c + (a + a)) by ring.
  replace (a - b + c) with (a + b + c - (b + b)) by ring.
  replace (a + b - 2 * c) with (a + b + c - (c + c + c)) by ring.
  rewrite !el_sub, !el_add. reflexivity.
Qed.
Lemma E_cube : forall x, el (cube x) = ecube (el x).
Proof. intros x. unfold cube, ecube. rewrite el_mod, !el_mul. reflexivity. Qed.
Lemma E_full : forall s k, E (round_full s k) = efull (E s) (E k).
Proof.
  intros s k. unfold round_full, efull. rewrite <- E_add_key. destruct (add_key s k) as [[a b] c].
  rewrite E_mds. cbn [E]. rewrite !E_cube. reflexivity.
Qed.
Lemma E_partial : forall s k, E (round_partial s k) = epartial (E s) (E k).
Proof.
  intros s k. unfold round_partial, epartial. rewrite <- E_add_key. destruct (add_key s k) as [[a b] c].
  rewrite E_mds. cbn [E]. rewrite !E_cube. reflexivity.
Qed.
Lemma E_fold : forall f g, (forall s k, E (f s k) = g (E s) (E k)) -> forall ks s,
  E (fold_left f ks s) = fold_left g (map E ks) (E s).
Proof. intros f g H. induction ks as [|k ks IH]; intros s; [reflexivity|]. cbn [fold_left map]. rewrite IH, H. reflexivity. Qed.

(* ---- moving keys through partial rounds ---- *)
Fixpoint ecompress (keys : list st) (d : st) : list elt * st :=
  match keys with
  | [] => ([], d)
  | k :: keys' =>
      let '(a, b, c) := eadd d k in
      let '(r, e) := ecompress keys' (emix (a, b, el 0)) in (c :: r, e)
  end.
Lemma E_compress : forall ks d,
  ecompress (map E ks) (E d) = (map el (fst (zcompress ks d)), E (snd (zcompress ks d))).
Proof.
  induction ks as [|k ks IH]; intros d; [reflexivity|]. cbn [map ecompress zcompress]. rewrite <- E_add_key.
  destruct (add_key d k) as [[a b] c]. cbn [E]. change (emix (el a, el b, el 0)) with (emix (E (a, b, 0))).
  rewrite <- E_mds, IH. destruct (zcompress ks (mds (a, b, 0))) as [r e]. reflexivity.
Qed.
Lemma compress_step : forall s d k,
  epartial (eadd s d) k = eadd (ecomp s (let '(_, _, c) := eadd d k in c)) (let '(a, b, _) := eadd d k in emix (a, b, el 0)).
Proof.
  intros [[a b] c] [[d0 d1] d2] [[k0 k1] k2]. cbn [eadd epartial ecomp emix].
  assert (EC : fadd (fadd c d2) k2 = fadd c (fadd d2 k2)) by ring. rewrite EC.
  set (x := ecube (fadd c (fadd d2 k2))). apply f_equal2; [apply f_equal2|]; ring.
Qed.
Lemma partial_run : forall ks d s,
  fold_left epartial ks (eadd s d) = eadd (fold_left ecomp (fst (ecompress ks d)) s) (snd (ecompress ks d)).
Proof.
  induction ks as [|k ks IH]; intros d s; [reflexivity|]. cbn [fold_left ecompress]. rewrite compress_step.
  destruct (eadd d k) as [[a b] c]. rewrite IH. destruct (ecompress ks (emix (a, b, el 0))) as [r e]. reflexivity.
Qed.
Lemma eadd_zero : forall s, eadd s (E (0, 0, 0)) = s.
Proof. intros [[a b] c]. cbn [eadd E]. apply f_equal2; [apply f_equal2|]; ring. Qed.
Lemma full_shift : forall s d k, efull (eadd s d) k = efull s (eadd d k).
Proof.
  intros s d k. unfold efull. assert (H : eadd (eadd s d) k = eadd s (eadd d k)); [|rewrite H; reflexivity].
  destruct s as [[a b] c], d as [[d0 d1] d2], k as [[k0 k1] k2]. cbn [eadd]. apply f_equal2; [apply f_equal2|]; ring.
Qed.

(* ---- the code ---- *)
Definition rep3 (t : poseidon_state) (s : st) : Prop :=
  let '(x, y, z) := t in let '(a, b, c) := s in rep x a /\ rep y b /\ rep z c.
Lemma mix_ok : forall t s, rep3 t s -> rep3 (mix t) (emix s).
Proof.
  intros [[x y] z] [[a b] c] (A & B & C). cbn [mix emix rep3].
  pose proof (rep_add _ _ _ _ (rep_add _ _ _ _ A B) C) as T.
  split; [exact (rep_add _ _ _ _ T (rep_double _ _ A))|]. split; [exact (rep_sub _ _ _ _ T (rep_double _ _ B))|].
  exact (rep_sub _ _ _ _ T (rep_add _ _ _ _ (rep_double _ _ C) C)).
Qed.
Lemma cubed_ok : forall x a, rep x a -> rep (cubed x) (ecube a).
Proof. intros x a A. exact (rep_mul _ _ _ _ (rep_square _ _ A) A). Qed.
Lemma Forall2_len : forall A B (R : A -> B -> Prop) l l', Forall2 R l l' -> length l = length l'.
Proof. induction 1; cbn [length]; congruence. Qed.
Definition table (K : list Z) : Prop := Forall2 (represents p) POSEIDON_COMP_CONSTS K.
Lemma const_at_ok : forall pre k post, table (pre ++ k :: post) -> exists x, const_at (length pre) = Ret x /\ rep x (el k).
Proof.
  intros pre k post T. unfold table in T. unfold const_at. apply Forall2_app_inv_r in T. destruct T as (l1 & l2 & F1 & F2 & ->).
  inversion F2 as [|x ? l2' ? R F2']; subst. rewrite <- (Forall2_len _ _ _ _ _ F1).
  rewrite nth_error_app2, Nat.sub_diag by lia. exists x. split; [reflexivity|]. exact (rep_val _ _ R).
Qed.
Lemma full_rounds_ok : forall ks pre post t s, table (pre ++ flat ks ++ post) -> rep3 t s ->
  exists t', rounds (length ks) full_round 3 t (length pre) = Ret (t', length (pre ++ flat ks)) /\
    rep3 t' (fold_left efull (map E ks) s).
Proof.
  induction ks as [|[[k0 k1] k2] ks IH]; intros pre post t s T R.
  - exists t. cbn [rounds length flat flat_map fold_left map]. rewrite app_nil_r. auto.
  - cbn [length rounds fold_left map]. change (flat ((k0, k1, k2) :: ks)) with ([k0; k1; k2] ++ flat ks) in *.
    rewrite <- app_assoc in T.
    destruct t as [[x y] z], s as [[a b] c]. destruct R as (A & B & C). cbn [full_round].
    destruct (const_at_ok pre k0 (k1 :: k2 :: flat ks ++ post) T) as (c0 & E0 & R0).
    destruct (const_at_ok (pre ++ [k0]) k1 (k2 :: flat ks ++ post)) as (c1 & E1 & R1); [rewrite <- app_assoc; exact T|].
    destruct (const_at_ok (pre ++ [k0; k1]) k2 (flat ks ++ post)) as (c2 & E2 & R2); [rewrite <- app_assoc; exact T|].
    rewrite app_length in E1, E2. cbn [length] in E1, E2. rewrite E0, E1, E2. cbn [bind].
    assert (T' : table ((pre ++ [k0; k1; k2]) ++ flat ks ++ post)) by (rewrite <- app_assoc; exact T).
    assert (R' : rep3 (mix (cubed (add base_field x c0), cubed (add base_field y c1), cubed (add base_field z c2)))
      (efull (a, b, c) (E (k0, k1, k2)))).
    { apply mix_ok. cbn [rep3]. split; [|split]; apply cubed_ok, rep_add; assumption. }
    destruct (IH _ _ _ _ T' R') as (t' & ER & RT). rewrite !app_length in ER. cbn [length] in ER. exists t'.
    rewrite ER. split; [|exact RT]. do 2 f_equal. rewrite !app_length. cbn [length]. lia.
Qed.
Lemma partial_rounds_ok : forall ks pre post t s, table (pre ++ ks ++ post) -> rep3 t s ->
  exists t', rounds (length ks) partial_round 1 t (length pre) = Ret (t', length (pre ++ ks)) /\
    rep3 t' (fold_left ecomp (map el ks) s).
Proof.
  induction ks as [|k ks IH]; intros pre post t s T R.
  - exists t. cbn [rounds length fold_left map]. rewrite app_nil_r. auto.
  - cbn [length rounds fold_left map]. destruct t as [[x y] z], s as [[a b] c]. destruct R as (A & B & C). cbn [partial_round].
    destruct (const_at_ok pre k (ks ++ post) T) as (c0 & E0 & R0). rewrite E0. cbn [bind].
    assert (T' : table ((pre ++ [k]) ++ ks ++ post)) by (rewrite <- app_assoc; exact T).
    assert (R' : rep3 (mix (x, y, cubed (add base_field z c0))) (ecomp (a, b, c) (el k))).
    { apply mix_ok. cbn [rep3]. split; [exact A|]. split; [exact B|]. apply cubed_ok, rep_add; assumption. }
    destruct (IH _ _ _ _ T' R') as (t' & ER & RT). rewrite !app_length in ER. cbn [length] in ER. exists t'.
    rewrite ER. split; [|exact RT]. do 2 f_equal. rewrite !app_length. cbn [length]. lia.
Qed.
Lemma zcompress_length : forall ks d, length (fst (zcompress ks d)) = length ks.
Proof.
  induction ks as [|k ks IH]; intros d; [reflexivity|]. cbn [zcompress]. destruct (add_key d k) as [[a b] c].
  specialize (IH (mds (a, b, 0))). destruct (zcompress ks (mds (a, b, 0))) as [r e]. cbn [fst length] in *. congruence.
Qed.
Definition ehades (s : st) : st :=
  fold_left efull (map E last_keys) (fold_left epartial (map E middle_keys) (fold_left efull (map E first_keys) s)).
Lemma E_hades : forall s, E (hades s) = ehades (E s).
Proof.
  intros s. unfold hades, ehades. change (skipn 87 round_keys) with last_keys.
  change (firstn 83 (skipn 4 round_keys)) with middle_keys. change (firstn 4 round_keys) with first_keys.
  rewrite (E_fold _ _ E_full), (E_fold _ _ E_partial), (E_fold _ _ E_full). reflexivity.
Qed.
Lemma permute_ok : forall t s, rep3 t s -> exists t', permute t = Ret t' /\ rep3 t' (ehades s).
Proof.
  intros t s R. destruct keys_length as (L1 & L2 & k & ks & EL & L3).
  pose proof consts_ok as T. unfold zkeys in T. rewrite EL in T.
  pose proof (E_compress middle_keys (0, 0, 0)) as EC. pose proof (zcompress_length middle_keys (0, 0, 0)) as LC.
  destruct (zcompress middle_keys (0, 0, 0)) as [r d]. cbn [fst snd] in *.
  unfold permute. change (Nat.div FULL_ROUNDS 2) with 4%nat. change PARTIAL_ROUNDS with 83%nat.
  destruct (full_rounds_ok first_keys [] (r ++ flat (add_key d k :: ks)) t s T R) as (t1 & E1 & R1).
  rewrite L1 in E1. cbn [length] in E1. rewrite E1. cbn [bind app].
  destruct (partial_rounds_ok r (flat first_keys) (flat (add_key d k :: ks)) _ _ T R1) as (t2 & E2 & R2).
  rewrite LC, L2 in E2. rewrite E2. cbn [bind].
  destruct (full_rounds_ok (add_key d k :: ks) (flat first_keys ++ r) [] t2 _ ltac:(rewrite app_nil_r, <- app_assoc; exact T) R2) as (t3 & E3 & R3).
  cbn [length] in E3. rewrite L3 in E3. rewrite E3. cbn [bind]. exists t3. split; [reflexivity|].
  unfold ehades. rewrite EL. cbn [map fold_left] in *. set (s1 := fold_left efull (map E first_keys) s) in *.
  rewrite <- (eadd_zero s1) at 1. rewrite partial_run, EC. cbn [fst snd]. rewrite full_shift, <- E_add_key. exact R3.
Qed.

(* ---- the inverse ---- *)
Definition bij {A} (f : A -> A) : Prop := exists g, forall x, g (f x) = x /\ f (g x) = x.
Lemma bij_comp : forall A (f g : A -> A), bij f -> bij g -> bij (fun x => f (g x)).
Proof.
  intros A f g [f' F] [g' G]. exists (fun x => g' (f' x)). intros x. split.
  - rewrite (proj1 (F _)). apply G.
  - rewrite (proj2 (G _)). apply F.
Qed.
Lemma bij_fold : forall A K (f : A -> K -> A), (forall k, bij (fun x => f x k)) -> forall ks, bij (fun x => fold_left f ks x).
Proof.
  intros A K f H. induction ks as [|k ks IH]; [exists (fun x => x); auto|]. cbn [fold_left].
  exact (bij_comp _ (fun x => fold_left f ks x) (fun x => f x k) IH (H k)).
Qed.
Lemma el_pow_mod : forall x e, 0 <= e -> el ((x mod p) ^ e) = el (x ^ e).
Proof. intros x e L. apply el_eq. symmetry. apply Zpower_mod. pose proof p_big. lia. Qed.
Lemma fermat_el : forall x e, 0 <= e -> 3 * e = 1 + (p - 1) * 2 -> el (x ^ (3 * e)) = el x.
Proof.
  intros x e L EE. pose proof p_big as PB. rewrite EE, Z.pow_add_r, Z.pow_1_r, Z.pow_mul_r by lia.
  destruct (Zdivide_dec p x) as [D|ND].
  - apply el_eq. rewrite Zmult_mod. apply Z.mod_divide in D; [|lia]. rewrite D. rewrite Z.mul_0_l. reflexivity.
  - pose proof (fermat_little p x p_prime ND) as FL. destruct FL as [c FL]. rewrite FL. apply el_eq.
    replace (x * (1 + c * p) ^ 2) with (x + (x * (2 * c + c * c * p)) * p) by ring. apply Z_mod_plus_full.
Qed.
Lemma cube_bij : bij ecube.
Proof.
  destruct third_p as (e & L & EE). exists (fun u => el (val u ^ e)). intros x.
  assert (C : forall z, ecube (el z) = el (z ^ 3)).
  { intros z. unfold ecube. rewrite <- !el_mul. f_equal. ring. }
  rewrite <- (el_val x). set (z := val x). clearbody z. split.
  - rewrite C, val_el, el_pow_mod, <- Z.pow_mul_r by lia. apply fermat_el; assumption.
  - rewrite val_el, el_pow_mod, C, <- Z.pow_mul_r by lia. rewrite Z.mul_comm. apply fermat_el; assumption.
Qed.
Local Notation two := (fadd (el 1) (el 1)).
Local Notation eight := (fmul (fmul two two) two).
Lemma eight_inv : exists h, fmul h eight = el 1.
Proof.
  exists (finv eight). destruct F_field as [_ _ _ FI]. apply FI. intros H.
  apply fmul_zero in H. destruct H as [H|H]; [apply fmul_zero in H; destruct H as [H|H]|]; exact (two_nz H).
Qed.
Lemma mix_bij : bij emix.
Proof.
  destruct eight_inv as [h H].
  assert (K : forall x, fmul h (fmul eight x) = x).
  { intros x. transitivity (fmul (fmul h eight) x); [ring|]. rewrite H. ring. }
  set (three := fadd two (el 1)). set (seven := fadd (fmul two three) (el 1)).
  exists (fun '(a, b, c) =>
    (fmul h (fadd (fadd a (fmul three b)) (fmul two c)),
     fmul h (fsub (fsub (fmul three a) (fmul seven b)) (fmul two c)),
     fmul h (fsub (fsub (fmul two a) (fmul two b)) (fmul (fmul two two) c)))).
  intros [[a b] c]. split.
  - cbn [emix]. apply f_equal2; [apply f_equal2|].
    + etransitivity; [|apply (K a)]. f_equal. unfold seven, three. ring.
    + etransitivity; [|apply (K b)]. f_equal. unfold seven, three. ring.
    + etransitivity; [|apply (K c)]. f_equal. unfold seven, three. ring.
  - cbn [emix]. apply f_equal2; [apply f_equal2|].
    + etransitivity; [|apply (K a)]. unfold seven, three. ring.
    + etransitivity; [|apply (K b)]. unfold seven, three. ring.
    + etransitivity; [|apply (K c)]. unfold seven, three. ring.
Qed.
Lemma add_bij : forall k, bij (fun s => eadd s k).
Proof.
  intros [[k0 k1] k2]. exists (fun '(a, b, c) => (fsub a k0, fsub b k1, fsub c k2)). intros [[a b] c].
  split; cbn [eadd]; (apply f_equal2; [apply f_equal2|]; ring).
Qed.
Lemma full_bij : forall k, bij (fun s => efull s k).
Proof.
  intros k. destruct cube_bij as [r R].
  assert (C : bij (fun s : st => let '(a, b, c) := s in (ecube a, ecube b, ecube c))).
  { exists (fun '(a, b, c) => (r a, r b, r c)). intros [[a b] c]. rewrite !(proj1 (R _)), !(proj2 (R _)). auto. }
  destruct (bij_comp _ _ _ mix_bij (bij_comp _ _ _ C (add_bij k))) as [g H]. exists g. intros x. specialize (H x).
  unfold efull. split.
  - etransitivity; [|exact (proj1 H)]. clear H. cbv beta. destruct (eadd x k) as [[a b] c]. reflexivity.
  - etransitivity; [|exact (proj2 H)]. clear H. cbv beta. destruct (eadd (g x) k) as [[a b] c]. reflexivity.
Qed.
Lemma partial_bij : forall k, bij (fun s => epartial s k).
Proof.
  intros k. destruct cube_bij as [r R].
  assert (C : bij (fun s : st => let '(a, b, c) := s in (a, b, ecube c))).
  { exists (fun '(a, b, c) => (a, b, r c)). intros [[a b] c]. rewrite !(proj1 (R _)), !(proj2 (R _)). auto. }
  destruct (bij_comp _ _ _ mix_bij (bij_comp _ _ _ C (add_bij k))) as [g H]. exists g. intros x. specialize (H x).
  unfold epartial. split.
  - etransitivity; [|exact (proj1 H)]. clear H. cbv beta. destruct (eadd x k) as [[a b] c]. reflexivity.
  - etransitivity; [|exact (proj2 H)]. clear H. cbv beta. destruct (eadd (g x) k) as [[a b] c]. reflexivity.
Qed.
Lemma hades_bij : bij ehades.
Proof.
  exact (bij_comp _ _ _ (bij_fold _ _ _ full_bij (map E last_keys))
    (bij_comp _ _ _ (bij_fold _ _ _ partial_bij (map E middle_keys)) (bij_fold _ _ _ full_bij (map E first_keys)))).
Qed.

(* ---- between the two ---- *)
Definition V (s : st) : Z * Z * Z := let '(a, b, c) := s in (val a, val b, val c).
Lemma V_residues : forall s, residues (V s).
Proof. intros [[a b] c]. cbn [V residues]. auto using val_range. Qed.
Lemma E_V : forall s, E (V s) = s.
Proof. intros [[a b] c]. cbn [V E]. rewrite !el_val. reflexivity. Qed.
Lemma V_E : forall s, residues s -> V (E s) = s.
Proof. intros [[a b] c] (A & B & C). cbn [V E]. rewrite !el_small by assumption. reflexivity. Qed.
Lemma mds_residues : forall s, residues (mds s).
Proof. intros [[a b] c]. pose proof p_big. cbn [mds residues]. split; [|split]; apply Z.mod_pos_bound; lia. Qed.
Lemma hades_residues : forall s, residues (hades s).
Proof.
  intros s. unfold hades. change (skipn 87 round_keys) with last_keys. destruct keys_length as (_ & _ & k & ks & -> & _).
  cbn [fold_left]. generalize (fold_left round_partial (firstn 83 (skipn 4 round_keys)) (fold_left round_full (firstn 4 round_keys) s)).
  intros s1. assert (H : forall s k, residues (round_full s k)).
  { intros s0 k0. unfold round_full. destruct (add_key s0 k0) as [[a b] c]. apply mds_residues. }
  pose proof (H s1 k) as H1. clear s. revert s1 H1. revert k. induction ks as [|k' ks IH]; intros k s1 H1; [exact H1|].
  cbn [fold_left]. apply (IH k'). apply H.
Qed.
Lemma represents3_rep3 : forall t s, represents3 t s <-> residues s /\ rep3 t (E s).
Proof.
  intros [[x y] z] [[a b] c]. cbn [represents3 residues E rep3]. unfold rep. split.
  - intros (A & B & C). pose proof (proj1 (proj2 A)). pose proof (proj1 (proj2 B)). pose proof (proj1 (proj2 C)).
    rewrite !el_small by assumption. auto.
  - intros ((A & B & C) & X & Y & Z). rewrite el_small in X, Y, Z by assumption. auto.
Qed.
Lemma permute_represents : forall t s, represents3 t s -> exists t', permute t = Ret t' /\ represents3 t' (hades s).
Proof.
  intros t s R. apply represents3_rep3 in R. destruct R as [_ R]. destruct (permute_ok t _ R) as (t' & EQ & R').
  exists t'. split; [exact EQ|]. apply represents3_rep3. split; [apply hades_residues|]. rewrite E_hades. exact R'.
Qed.
