(* The statements of C81, from the lemmas of EcdsaProof. *)
From Coq Require Import List ZArith NArith Lia Bool Znumtheory Ring ZifyBool ZifyNat ZifyN.
From Verif Require Import Radix FeltModel FeltSpec FeltProof MontModel MontSpec MontProof MontOpsProof
  MontRootProof MontBytesProof MontPrimes MontProperties.
From Verif Require Import CurveModel CurveSpec CurveMeanSpec CurveField CurveGroup CurveRoot CurvePoints CurveOrder CurveProof CurveTables CurveMain CurveProperties.
From Verif Require Import EcdsaModel EcdsaSpec EcdsaProof.
Import ListNotations.
Local Open Scope Z_scope.
Local Notation p := base_prime.
Local Notation q := curve_order.
Local Notation val := CurveField.val.
#[local] Opaque base_prime curve_order bound order.
Add Field elt_field8 : F_field.

Section Parts.
Variables (z r s : N) (m : Z).
Hypothesis M : (Z.of_N s * m) mod q = 1.
Local Notation u1 := (Z.to_N ((Z.of_N z * m) mod q)).
Local Notation u2 := (Z.to_N ((Z.of_N r * m) mod q)).
Lemma parts_fwd : forall Q A B, on_stark Q -> parts Q z r s A B ->
  on_stark A /\ on_stark B /\ emb A = gmul u1 G /\ emb B = gmul u2 (emb Q).
Proof.
  intros Q A B OQ (w & W & TA & TB). rewrite mod_N in W, TA, TB.
  assert (W1 : (Z.of_N s * Z.of_N w) mod q = 1).
  { pose proof (Z.mod_pos_bound (Z.of_N s * Z.of_N w) q ltac:(pose proof q_big; lia)). lia. }
  rewrite <- (inverse_unique _ _ _ M W1) in TA, TB.
  destruct (times_on _ _ _ on_gen TA) as [OA EA]. destruct (times_on _ _ _ OQ TB) as [OB EB]. auto.
Qed.
Lemma parts_bwd : forall Q, on_stark Q -> exists A B, parts Q z r s A B /\
  on_stark A /\ on_stark B /\ emb A = gmul u1 G /\ emb B = gmul u2 (emb Q).
Proof.
  intros Q OQ. pose proof q_big as QB. destruct (times_ex u1 generator on_gen) as (A & OA & TA & EA).
  destruct (times_ex u2 Q OQ) as (B & OB & TB & EB). exists A, B. split; [|auto].
  pose proof (Z.mod_pos_bound m q ltac:(lia)) as MR. exists (Z.to_N (m mod q)). rewrite !mod_N, Z2N.id by lia.
  rewrite !Zmult_mod_idemp_r, M. auto.
Qed.
Lemma emb_at : forall P x t, on_stark P -> 0 <= x < p -> emb P = PT (el x) t -> P = At x (val t).
Proof.
  intros P x t O X E. rewrite <- (unemb_emb P O), E. cbn [unemb]. rewrite (el_small _ X). reflexivity.
Qed.
Lemma emb_inf : forall P, emb P = Oh -> P = Infinity.
Proof. intros [|x y] E; [reflexivity|discriminate E]. Qed.
Lemma bridge : forall pk y, on_stark (At (Z.of_N pk) y) -> Z.of_N r < p ->
  (accepts (gmul u1 G) (gmul u2 (emb (At (Z.of_N pk) y))) (Z.of_N r) <-> valid pk z r s \/ cancels pk z r s).
Proof.
  intros pk y O RP. assert (RR : 0 <= Z.of_N r < p) by lia. set (Q := At (Z.of_N pk) y) in *.
  destruct (proj2 (proj2 C80_group) Q O) as [OO _].
  assert (EO : gmul u2 (emb (opposite Q)) = gopp (gmul u2 (emb Q))) by (rewrite emb_opposite; apply gmul_opp, on_emb, O).
  split.
  - assert (K : forall y' t, let Q' := At (Z.of_N pk) y' in on_stark Q' ->
      (gadd (gmul u1 G) (gmul u2 (emb Q')) = PT (el (Z.of_N r)) t -> valid pk z r s) /\
      (gadd (gmul u1 G) (gmul u2 (emb Q')) = Oh -> gmul u1 G = PT (el (Z.of_N r)) t -> cancels pk z r s)).
    { intros y' t Q' O'. destruct (parts_bwd Q' O') as (A & B & PA & OA & OB & EA & EB).
      destruct (sum_ex A B OA OB) as (R & OR & SR & ER). rewrite EA, EB in ER. split.
      - intros H. rewrite H in ER. apply emb_at in ER; [|exact OR|exact RR]. subst R. exists y', A, B, (val t). auto.
      - intros H HA. rewrite H in ER. apply emb_inf in ER. subst R. rewrite <- EA in HA. apply emb_at in HA; [|exact OA|exact RR].
        exists y', A, B, (val t). auto. }
    intros [[t H]|[[t H]|[[H|H] [t HA]]]].
    + left. exact (proj1 (K y t O) H).
    + left. rewrite <- EO in H. exact (proj1 (K _ t OO) H).
    + right. exact (proj2 (K y t O) H HA).
    + right. rewrite <- EO in H. exact (proj2 (K _ t OO) H HA).
  - assert (K : forall y' A B, on_stark (At (Z.of_N pk) y') -> parts (At (Z.of_N pk) y') z r s A B ->
      on_stark A /\ on_stark B /\ emb A = gmul u1 G /\ (emb B = gmul u2 (emb Q) \/ emb B = gopp (gmul u2 (emb Q)))).
    { intros y' A B O' PA. destruct (parts_fwd _ _ _ O' PA) as (OA & OB & EA & EB). split; [exact OA|]. split; [exact OB|].
      split; [exact EA|]. destruct (gadd_same_x _ _ _ (on_emb _ O) (on_emb _ O')) as [H|H].
      - left. rewrite EB. cbn [emb]. rewrite <- H. reflexivity.
      - right. rewrite EB, <- EO, emb_opposite. cbn [emb]. rewrite H. reflexivity. }
    intros [(y' & A & B & t & O' & PA & S)|(y' & A & B & t & O' & PA & HA & S)];
    destruct (K _ _ _ O' PA) as (OA & OB & EA & EB); pose proof (sum_gadd _ _ _ OA OB S) as SG; rewrite EA in SG.
    + cbn [emb] in SG. destruct EB as [EB|EB]; rewrite EB in SG; [left|right; left]; eauto.
    + cbn [emb] in SG. right. right. split; [|subst A; cbn [emb] in EA; eauto].
      destruct EB as [EB|EB]; rewrite EB in SG; auto.
Qed.
End Parts.

Lemma get_pk_point_ok : forall fuel a x, (600 <= fuel)%nat -> represents p a x ->
  match get_pk_point fuel a with
  | Ret (Some q) => exists y, on_stark (At x y) /\ means_affine q (At x y) /\ a_inf q = false
  | Ret None => forall y, ~ on_stark (At x y)
  | Panics | Diverges => False
  end.
Proof.
  intros fuel a x FU R. pose proof (C80_from_x fuel a x FU R) as H. unfold get_pk_point.
  destruct (from_x fuel a) as [[k|]| |]; cbn [bind]; try exact H.
  destruct H as (y & O & MA). assert (I : a_inf k = false).
  { destruct MA as (? & ? & _ & _ & E). destruct (a_inf k); [discriminate E|reflexivity]. }
  rewrite I. cbn [negb]. exists y. auto.
Qed.

(* the outcome of checking a signature against a point *)
Definition verdict (o : outcome unit) (pk z r s : N) : Prop :=
  match o with
  | Ret (inl tt) => in_bounds z r s /\ (valid pk z r s \/ cancels pk z r s)
  | Ret (inr E_Message) => bound <= Z.of_N z < q /\ Z.of_N r < q /\ Z.of_N s < q
  | Ret (inr E_Signature) => Z.of_N z < bound /\ Z.of_N r < q /\ Z.of_N s < q /\
      ~ (in_bounds z r s /\ (valid pk z r s \/ cancels pk z r s))
  | Panics => q <= Z.of_N z \/ q <= Z.of_N r \/ q <= Z.of_N s
  | _ => False
  end.
Lemma inner_verdict : forall fuel point x y z r s nx nz nr ns, (600 <= fuel)%nat ->
  x = Z.of_N nx -> on_stark (At x y) -> means_affine point (At x y) -> a_inf point = false ->
  denotes z nz -> denotes r nr -> denotes s ns ->
  verdict (ecdsa_verify_inner fuel (projective_of_affine point) z r s) nx nz nr ns.
Proof.
  intros fuel point x y z r s nx nz nr ns FU -> O MA I Dz Dr Ds. apply (means_affine_iff _ _ O) in MA.
  pose proof (inner_ok fuel _ _ z r s nz nr ns FU (mA_mP _ _ MA I) (on_emb _ O) Dz Dr Ds) as H. unfold verdict.
  pose proof q_lt_p as QP.
  destruct (ecdsa_verify_inner fuel (projective_of_affine point) z r s) as [[[]|e]| |]; [| |exact H|exact H].
  - destruct H as (Lz & Lr & Ls & IB & m & M & AC). split; [exact IB|].
    apply (bridge nz nr ns m M nx y O ltac:(lia)). exact AC.
  - destruct H as (Lz & Lr & Ls & H). destruct e; try contradiction.
    + destruct H as [BZ H]. split; [exact BZ|]. split; [exact Lr|]. split; [exact Ls|]. intros [IB V].
      destruct (H IB) as (m & M & NA). apply NA. apply (bridge nz nr ns m M nx y O ltac:(lia)). exact V.
    + lia.
Qed.
Lemma verify_partial_ok : forall fuel pk z r s npk nz nr ns, (600 <= fuel)%nat ->
  denotes pk npk -> denotes z nz -> denotes r nr -> denotes s ns ->
  match ecdsa_verify_partial fuel pk z r s with
  | Ret (inr E_PublicKey) => forall y, ~ on_stark (At (Z.of_N npk) y)
  | o => (exists y, on_stark (At (Z.of_N npk) y)) /\ verdict o npk nz nr ns
  end.
Proof.
  intros fuel pk z r s npk nz nr ns FU Dp Dz Dr Ds. unfold ecdsa_verify_partial.
  pose proof (get_pk_point_ok fuel _ _ FU (mont_of_felt_rep pk npk Dp)) as H.
  destruct (get_pk_point fuel (mont_of_felt pk)) as [[k|]| |]; cbn [bind]; try contradiction.
  - destruct H as (y & O & MA & I).
    pose proof (inner_verdict fuel k _ y z r s npk nz nr ns FU eq_refl O MA I Dz Dr Ds) as V.
    destruct (ecdsa_verify_inner fuel (projective_of_affine k) z r s) as [[[]|[]]| |]; eauto; contradiction.
  - exact H.
Qed.

(* keys and signing *)
Lemma times_pos : forall k, (0 < k)%N -> Z.of_N k < q -> exists x y, on_stark (At x y) /\ times k generator (At x y) /\ gmul k G = PT (el x) (el y).
Proof.
  intros k K L. destruct (times_ex k generator on_gen) as (R & OR & T & E). destruct R as [|x y].
  - exfalso. apply (proj2 C80_generator_order) in T. destruct T as [c T]. assert (c = 0 \/ c < 0 \/ 0 < c) as [C|[C|C]] by lia; nia.
  - exists x, y. split; [exact OR|]. split; [exact T|]. symmetry. exact E.
Qed.
Lemma gen_affine : forall fuel g a k, (600 <= fuel)%nat -> multiples 4 63 generator g -> represents q a k -> 0 < k ->
  exists r pt x y, gen_multiply_elm g a = Ret pt /\ affine_of_projective fuel pt = Ret r /\
    on_stark (At x y) /\ times (Z.to_N k) generator (At x y) /\ represents p (a_x r) x.
Proof.
  intros fuel g a k FU M R K. destruct (gen_multiply_ok g a k M R) as (pt & E & MP). assert (KR : 0 <= k < q) by apply R.
  destruct (times_pos (Z.to_N k) ltac:(lia) ltac:(lia)) as (x & y & O & T & EG). rewrite EG in MP.
  destruct (affine_of_projective_ok fuel pt _ FU MP) as (r & EA & MA & _). exists r, pt, x, y.
  split; [exact E|]. split; [exact EA|]. split; [exact O|]. split; [exact T|].
  destruct (MA ltac:(discriminate)) as (u & v & U & V & EQ). destruct (a_inf r); [discriminate EQ|]. injection EQ as <- <-.
  unfold rep in U. rewrite (el_small x) in U by apply O. exact U.
Qed.
Lemma get_pk_ok : forall fuel g sk n, (600 <= fuel)%nat -> multiples 4 63 generator g -> denotes sk n ->
  match get_pk fuel g sk with
  | Ret (Some f) => Z.of_N n < q /\ (n <> 0%N -> exists pk, denotes f pk /\ key_pair n pk)
  | Ret None => q <= Z.of_N n
  | _ => False
  end.
Proof.
  intros fuel g sk n FU M D. unfold get_pk. pose proof (C05_scalar_of_felt sk n D) as S.
  destruct (scalar_of_felt sk) as [a|]; [|exact S]. destruct S as [L R]. destruct (Z.eq_dec (Z.of_N n) 0) as [E0|NZ].
  - destruct (gen_multiply_ok g a _ M R) as (pt & -> & MP). cbn [bind].
    destruct (affine_of_projective_ok fuel pt _ FU MP) as (r & -> & _ & x & y & X & _). cbn [bind].
    destruct (felt_of_base_rep _ _ X) as (f & -> & _). cbn [bind]. split; [exact L|]. intros NZ. lia.
  - destruct (gen_affine fuel g a _ FU M R ltac:(lia)) as (r & pt & x & y & -> & EA & O & T & X). cbn [bind]. rewrite EA. cbn [bind].
    destruct (felt_of_base_rep _ _ X) as (f & -> & DF). cbn [bind]. split; [exact L|]. intros _. exists (Z.to_N x). split; [exact DF|].
    exists y. rewrite N2Z.id in T. rewrite Z2N.id by apply O. exact T.
Qed.
Lemma sign_k_ok : forall fuel g sk z k nsk nz nk, (600 <= fuel)%nat -> multiples 4 63 generator g ->
  denotes sk nsk -> denotes z nz -> denotes k nk ->
  match ecdsa_sign_k fuel g sk z k with
  | Ret (inl (r, s)) => Z.of_N nsk < q /\ Z.of_N nz < q /\ 0 < Z.of_N nk < q /\
      exists nr ns, denotes r nr /\ denotes s ns /\ key_pair nk nr /\ Z.of_N nr < bound /\ Z.of_N ns < q /\
        (Z.of_N ns * Z.of_N nk) mod q = (Z.of_N nz + Z.of_N nr * Z.of_N nsk) mod q
  | Ret (inr E_SecretKey) => q <= Z.of_N nsk
  | Ret (inr E_Message) => Z.of_N nsk < q /\ q <= Z.of_N nz
  | Ret (inr E_Randomness) => Z.of_N nsk < q /\ Z.of_N nz < q /\
      (q <= Z.of_N nk \/ nk = 0%N \/ exists x, key_pair nk x /\ bound <= Z.of_N x)
  | _ => False
  end.
Proof.
  intros fuel g sk z k nsk nz nk FU M Dsk Dz Dk. unfold ecdsa_sign_k.
  pose proof (C05_scalar_of_felt sk nsk Dsk) as S1. destruct (scalar_of_felt sk) as [a|]; [|exact S1]. destruct S1 as [L1 R1].
  pose proof (C05_scalar_of_felt z nz Dz) as S2. destruct (scalar_of_felt z) as [b|]; [|exact (conj L1 S2)]. destruct S2 as [L2 R2].
  pose proof (C05_scalar_of_felt k nk Dk) as S3. destruct (scalar_of_felt k) as [c|]; [|exact (conj L1 (conj L2 (or_introl S3)))]. destruct S3 as [L3 R3].
  rewrite (eqb_zero _ _ is_scalar _ _ R3). destruct (Z.of_N nk =? 0) eqn:K0; unfold err.
  { apply Z.eqb_eq in K0. split; [exact L1|]. split; [exact L2|]. right. left. lia. }
  apply Z.eqb_neq in K0. unfold affine_gen_multiply_elm.
  destruct (gen_affine fuel g c _ FU M R3 ltac:(lia)) as (r & pt & x & y & -> & EA & O & T & X). rewrite N2Z.id in T.
  cbn [bind]. rewrite EA. cbn [bind]. cbn zeta. assert (XR : 0 <= x < p) by apply O.
  assert (KP : key_pair nk (Z.to_N x)) by (exists y; rewrite Z2N.id by lia; exact T).
  rewrite (geb_spec _ _ _ _ X upper_bound_rep). destruct (bound <=? x) eqn:BX.
  { apply Z.leb_le in BX. split; [exact L1|]. split; [exact L2|]. right. right. exists (Z.to_N x). split; [exact KP|lia]. }
  apply Z.leb_gt in BX. pose proof (unwrap_scalar_rep _ _ X) as UX. pose proof bound_lt_q as BQ.
  destruct (unwrap_scalar (a_x r)) as [d| |]; [|lia|destruct UX]. destruct UX as [_ RD]. cbn [bind].
  destruct (scalar_inverse fuel c _ FU R3 K0) as (kinv & mi & -> & RI & MI). cbn [bind].
  pose proof (scalar_mul _ _ _ _ RI (scalar_add _ _ _ _ R2 (scalar_mul _ _ _ _ RD R1))) as RS.
  destruct (felt_of_scalar_rep _ _ RD) as (fr & -> & DR). cbn [bind].
  destruct (felt_of_scalar_rep _ _ RS) as (fs & -> & DS). cbn [bind]. unfold ok.
  pose proof q_big as QB. set (sv := (mi * ((Z.of_N nz + (x * Z.of_N nsk) mod q) mod q)) mod q) in *.
  assert (SR : 0 <= sv < q) by (apply Z.mod_pos_bound; lia).
  split; [exact L1|]. split; [exact L2|]. split; [lia|]. exists (Z.to_N x), (Z.to_N sv).
  split; [exact DR|]. split; [exact DS|]. split; [exact KP|]. rewrite !Z2N.id by lia. split; [exact BX|]. split; [lia|].
  unfold sv. rewrite Zplus_mod_idemp_r, Zmult_mod_idemp_r, Zmult_mod_idemp_l.
  replace (mi * (Z.of_N nz + x * Z.of_N nsk) * Z.of_N nk) with ((Z.of_N nz + x * Z.of_N nsk) * (Z.of_N nk * mi)) by ring.
  rewrite Z.mul_mod, MI, Z.mul_1_r, Z.mod_mod by lia. reflexivity.
Qed.
(* a signature made with the key is valid *)
Lemma signed_valid : forall nsk nz nk nr ns pk, 0 < Z.of_N nk < q -> 0 < Z.of_N ns < q ->
  key_pair nsk pk -> key_pair nk nr ->
  (Z.of_N ns * Z.of_N nk) mod q = (Z.of_N nz + Z.of_N nr * Z.of_N nsk) mod q -> valid pk nz nr ns.
Proof.
  intros nsk nz nk nr ns pk K S (y & TP) (y' & TK) E. pose proof q_big as QB.
  destruct (times_on _ _ _ on_gen TP) as [OP EP]. destruct (times_on _ _ _ on_gen TK) as [OK EK].
  assert (PR : prime q) by exact curve_order_prime.
  assert (exists m, (Z.of_N ns * m) mod q = 1) as [m M].
  { assert (RP : rel_prime (Z.of_N ns) q) by (apply rel_prime_le_prime; [exact PR|lia]).
    apply rel_prime_bezout in RP. destruct RP as [a b B]. exists a.
    replace (Z.of_N ns * a) with (1 + (- b) * q) by lia. rewrite Z_mod_plus_full. apply Z.mod_small. lia. }
  destruct (parts_bwd nz nr ns m M _ OP) as (A & B & PA & OA & OB & EA & EB).
  exists y, A, B, y'. split; [exact OP|]. split; [exact PA|]. apply (sum_iff _ _ _ OA OB OK).
  rewrite EA, EB, EK, EP. change (emb generator) with G.
  rewrite <- gmul_mul by exact G_on. rewrite <- gmul_add by exact G_on.
  rewrite <- (gmul_mod order _ G G_on order_nz order_G), <- (gmul_mod order nk G G_on order_nz order_G). f_equal.
  apply N2Z.inj. rewrite !N2Z.inj_mod, N2Z.inj_add, N2Z.inj_mul, q_order.
  rewrite !Z2N.id by (apply Z.mod_pos_bound; lia).
  rewrite <- Zplus_mod_idemp_r, Zmult_mod_idemp_l, <- Zplus_mod.
  replace (Z.of_N nz * m + Z.of_N nr * m * Z.of_N nsk) with ((Z.of_N nz + Z.of_N nr * Z.of_N nsk) * m) by ring.
  rewrite <- Zmult_mod_idemp_l, <- E, Zmult_mod_idemp_l.
  replace (Z.of_N ns * Z.of_N nk * m) with (Z.of_N nk * (Z.of_N ns * m)) by ring.
  rewrite <- Zmult_mod_idemp_r, M, Z.mul_1_r. reflexivity.
Qed.
Lemma felt_ex : forall n, Z.of_N n < p -> exists f, denotes f n.
Proof.
  intros n L. destruct (rep_ex (el (Z.of_N n))) as [a R]. unfold rep in R. rewrite el_small in R by lia.
  destruct (felt_of_base_rep _ _ R) as (f & _ & D). exists f. rewrite N2Z.id in D. exact D.
Qed.
(* multiples of a point of that order by numbers modulo it *)
Lemma gmul_modZ : forall k P, on P -> gmul order P = Oh -> gmul (Z.to_N (k mod q)) P = gmul (Z.to_N ((k mod q) mod q)) P.
Proof. intros k P O T. rewrite Z.mod_mod by (pose proof q_big; lia). reflexivity. Qed.
Lemma gmul_neg : forall k P, on P -> gmul order P = Oh -> gmul (Z.to_N ((- k) mod q)) P = gopp (gmul (Z.to_N (k mod q)) P).
Proof.
  intros k P O T. pose proof q_big as QB. set (a := Z.to_N (k mod q)). set (b := Z.to_N ((- k) mod q)).
  assert (S : gadd (gmul a P) (gmul b P) = Oh).
  { rewrite <- gmul_add by exact O. rewrite <- (gmul_mod order _ P O order_nz T).
    replace ((a + b) mod order)%N with 0%N; [apply gmul_0|]. apply N2Z.inj. rewrite N2Z.inj_mod, N2Z.inj_add, q_order.
    unfold a, b. rewrite !Z2N.id by (apply Z.mod_pos_bound; lia). rewrite <- Zplus_mod.
    replace (k + - k) with 0 by lia. symmetry. apply Z.mod_0_l. lia. }
  pose proof (gcancel (gmul a P) (gmul b P) (gmul_on _ _ O) (gmul_on _ _ O)) as C. rewrite S, gadd_inf in C. symmetry. exact C.
Qed.
Lemma key_order : forall sk pk y, on_stark (At (Z.of_N pk) y) -> key_pair sk pk ->
  (emb (At (Z.of_N pk) y) = gmul sk G \/ emb (At (Z.of_N pk) y) = gopp (gmul sk G)) /\ gmul order (emb (At (Z.of_N pk) y)) = Oh.
Proof.
  intros sk pk y O (y' & T). destruct (times_on _ _ _ on_gen T) as [O' E]. change (emb generator) with G in E.
  assert (Z0 : gmul order (gmul sk G) = Oh).
  { rewrite <- gmul_mul by exact G_on. rewrite N.mul_comm, gmul_mul by exact G_on. rewrite order_G. apply gmul_inf. }
  destruct (gadd_same_x _ _ _ (on_emb _ O') (on_emb _ O)) as [H|H].
  - assert (EQ : emb (At (Z.of_N pk) y) = gmul sk G) by (rewrite <- E; cbn [emb]; rewrite H; reflexivity).
    split; [auto|]. rewrite EQ. exact Z0.
  - assert (EQ : emb (At (Z.of_N pk) y) = gopp (gmul sk G)) by (rewrite <- E; cbn [emb gopp popp]; rewrite H; reflexivity).
    split; [auto|]. rewrite EQ, gmul_opp, Z0 by (apply gmul_on, G_on). reflexivity.
Qed.
Lemma parts_inverse : forall Q z r s A B, parts Q z r s A B -> exists m, (Z.of_N s * m) mod q = 1.
Proof.
  intros Q z r s A B (w & W & _ & _). rewrite mod_N in W. exists (Z.of_N w).
  pose proof q_big as QB. pose proof (Z.mod_pos_bound (Z.of_N s * Z.of_N w) q ltac:(lia)). lia.
Qed.
Lemma malleable : forall sk pk z r s, 0 < Z.of_N s < q -> key_pair sk pk -> valid pk z r s ->
  valid pk z r (Z.to_N (q - Z.of_N s)).
Proof.
  intros sk pk z r s SB KP (y & A & B & y' & O & PA & S). pose proof q_big as QB.
  assert (SD : 0 <= q - Z.of_N s) by lia. assert (QP : 0 < q) by lia. assert (QN : q <> 0) by lia.
  destruct (key_order sk pk y O KP) as [_ OQ].
  destruct (parts_inverse _ _ _ _ _ _ PA) as [m M].
  destruct (parts_fwd z r s m M _ _ _ O PA) as (OA & OB & EA & EB).
  assert (M' : (Z.of_N (Z.to_N (q - Z.of_N s)) * - m) mod q = 1).
  { rewrite (Z2N.id _ SD). replace ((q - Z.of_N s) * - m) with (Z.of_N s * m + (- m) * q) by ring. rewrite Z_mod_plus_full. exact M. }
  destruct (parts_bwd z r _ _ M' _ O) as (A' & B' & PA' & OA' & OB' & EA' & EB').
  rewrite Z.mul_opp_r in EA', EB'. rewrite gmul_neg in EA' by (exact G_on || exact order_G).
  rewrite gmul_neg in EB' by (apply on_emb, O || exact OQ).
  pose proof (sum_on _ _ _ OA OB S) as OR. destruct (proj2 (proj2 C80_group) _ OR) as [OO _].
  exists y, A', B', ((- y') mod p). split; [exact O|]. split; [exact PA'|]. apply (sum_iff _ _ _ OA' OB' OO).
  change (At (Z.of_N r) ((- y') mod p)) with (opposite (At (Z.of_N r) y')). rewrite emb_opposite, <- (sum_gadd _ _ _ OA OB S).
  rewrite EA', EB', EA, EB. symmetry. apply gopp_add; apply gmul_on; [exact G_on|apply on_emb, O].
Qed.
(* what cancels tells the key *)
Lemma reveals : forall sk pk z r s, key_pair sk pk -> cancels pk z r s ->
  (q | Z.of_N z + Z.of_N r * Z.of_N sk) \/ (q | Z.of_N z - Z.of_N r * Z.of_N sk).
Proof.
  intros sk pk z r s KP (y & A & B & y' & O & PA & HA & S). pose proof q_big as QB. assert (QP : 0 < q) by lia. assert (QN : q <> 0) by lia.
  destruct (parts_inverse _ _ _ _ _ _ PA) as [m M].
  destruct (parts_fwd z r s m M _ _ _ O PA) as (OA & OB & EA & EB).
  pose proof (sum_gadd _ _ _ OA OB S) as SG. rewrite EA, EB in SG. cbn [emb] in SG.
  set (u1 := Z.to_N ((Z.of_N z * m) mod q)) in *. set (u2 := Z.to_N ((Z.of_N r * m) mod q)) in *.
  assert (U1 : Z.of_N u1 = (Z.of_N z * m) mod q) by (apply Z2N.id, Z.mod_pos_bound; exact QP).
  assert (U2 : Z.of_N u2 = (Z.of_N r * m) mod q) by (apply Z2N.id, Z.mod_pos_bound; exact QP).
  assert (BACK : forall e, (q | (Z.of_N z + e * Z.of_N r * Z.of_N sk) * m) -> (q | Z.of_N z + e * Z.of_N r * Z.of_N sk)).
  { intros e D. apply prime_mult in D; [|exact curve_order_prime]. destruct D as [D|D]; [exact D|]. exfalso.
    destruct D as [c D]. rewrite D in M. replace (Z.of_N s * (c * q)) with (Z.of_N s * c * q) in M by ring.
    rewrite Z_mod_mult in M. discriminate M. }
  assert (CV : forall e, ((Z.of_N u1 + e * (Z.of_N u2 * Z.of_N sk)) mod q = ((Z.of_N z + e * Z.of_N r * Z.of_N sk) * m) mod q)).
  { intros e. rewrite U1, U2. rewrite Zplus_mod_idemp_l. rewrite <- Zplus_mod_idemp_r, <- (Zmult_mod_idemp_r (_ * _) e), Zmult_mod_idemp_l.
    rewrite Zmult_mod_idemp_r, Zplus_mod_idemp_r. f_equal. ring. }
  destruct (key_order sk pk y O KP) as [[E|E] _]; cbn [emb] in E; rewrite E in SG.
  - left. rewrite <- gmul_mul in SG by exact G_on. rewrite <- gmul_add in SG by exact G_on. apply gmul_G_zero in SG.
    rewrite N2Z.inj_add, N2Z.inj_mul in SG. replace (Z.of_N z + Z.of_N r * Z.of_N sk) with (Z.of_N z + 1 * Z.of_N r * Z.of_N sk) by ring.
    apply BACK. apply Z.mod_divide; [exact QN|]. rewrite <- CV. apply Z.mod_divide; [exact QN|]. rewrite Z.mul_1_l. exact SG.
  - right. rewrite gmul_opp in SG by (apply gmul_on, G_on). rewrite <- gmul_mul in SG by exact G_on.
    assert (EQ : gmul u1 G = gmul (u2 * sk) G).
    { pose proof (gcancel (gopp (gmul (u2 * sk) G)) (gmul u1 G)) as C.
      rewrite gopp_opp in C. rewrite gadd_comm in SG by (try apply gopp_on; apply gmul_on, G_on).
      rewrite SG, gadd_inf in C. symmetry. apply C; [apply gopp_on|]; apply gmul_on, G_on. }
    replace (Z.of_N z - Z.of_N r * Z.of_N sk) with (Z.of_N z + (-1) * Z.of_N r * Z.of_N sk) by ring.
    apply BACK. apply Z.mod_divide; [exact QN|]. rewrite <- CV.
    assert (K : forall a b, gmul a G = gmul b G -> (b <= a)%N -> (q | Z.of_N a - Z.of_N b)).
    { intros a b AB L. replace (Z.of_N a - Z.of_N b) with (Z.of_N (a - b)) by (apply N2Z.inj_sub, L). apply gmul_G_zero.
      replace a with (b + (a - b))%N in AB by (rewrite N.add_comm; apply N.sub_add, L). rewrite gmul_add in AB by exact G_on.
      pose proof (gcancel (gmul b G) (gmul (a - b) G) (gmul_on _ _ G_on) (gmul_on _ _ G_on)) as C. rewrite AB in C.
      rewrite gadd_comm in C by (try apply gopp_on; apply gmul_on, G_on). rewrite gadd_opp in C. symmetry. exact C. }
    apply Z.mod_divide; [exact QN|]. replace (Z.of_N u1 + -1 * (Z.of_N u2 * Z.of_N sk)) with (Z.of_N u1 - Z.of_N (u2 * sk)) by (rewrite N2Z.inj_mul; ring).
    destruct (N.le_ge_cases (u2 * sk) u1) as [L|L].
    + exact (K _ _ EQ L).
    + replace (Z.of_N u1 - Z.of_N (u2 * sk)) with (- (Z.of_N (u2 * sk) - Z.of_N u1)) by ring.
      apply Z.divide_opp_r. apply K; [symmetry; exact EQ|exact L].
Qed.
