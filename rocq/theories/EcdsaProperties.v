(* C81: signatures on the Stark curve. What signing makes, verifying accepts; what verifying
   accepts is a signature, or gives the key away; and every other answer is told apart. *)
From Coq Require Import List ZArith NArith Lia Bool Znumtheory.
From Verif Require Import Radix FeltModel FeltSpec MontModel MontSpec MontProof MontOpsProof MontPrimes MontProperties.
From Verif Require Import CurveModel CurveSpec CurveMeanSpec CurveField CurveGroup CurvePoints CurveOrder CurveProof CurveTables CurveMain CurveProperties.
From Verif Require Import EcdsaModel EcdsaSpec EcdsaProof EcdsaMain.
Import ListNotations.
Local Open Scope Z_scope.
Local Notation q := curve_order.
Lemma prime_odd : forall c, base_prime <> c + c.
Proof. intros c E. assert (H : Z.odd base_prime = true) by reflexivity. rewrite E, Z.odd_add, xorb_nilpotent in H. discriminate H. Qed.
Lemma order_odd : forall c, curve_order <> c + c.
Proof. intros c E. assert (H : Z.odd curve_order = true) by reflexivity. rewrite E, Z.odd_add, xorb_nilpotent in H. discriminate H. Qed.
#[local] Opaque base_prime curve_order bound order.

(* Verifying a signature, in full: which answer comes when. It always ends. *)
Theorem C81_verify : forall fuel pk z r s npk nz nr ns, (600 <= fuel)%nat ->
  denotes pk npk -> denotes z nz -> denotes r nr -> denotes s ns ->
  match ecdsa_verify_partial fuel pk z r s with
  | Ret (inr E_PublicKey) => forall y, ~ on_stark (At (Z.of_N npk) y)
  | o => (exists y, on_stark (At (Z.of_N npk) y)) /\
      match o with
      | Ret (inl tt) => in_bounds nz nr ns /\ (valid npk nz nr ns \/ cancels npk nz nr ns)
      | Ret (inr E_Message) => bound <= Z.of_N nz < q /\ Z.of_N nr < q /\ Z.of_N ns < q
      | Ret (inr E_Signature) => Z.of_N nz < bound /\ Z.of_N nr < q /\ Z.of_N ns < q /\
          ~ (in_bounds nz nr ns /\ (valid npk nz nr ns \/ cancels npk nz nr ns))
      | Panics => q <= Z.of_N nz \/ q <= Z.of_N nr \/ q <= Z.of_N ns
      | _ => False
      end
  end.
Proof. exact verify_partial_ok. Qed.
Print Assumptions C81_verify.

(* A signature in bounds is accepted. *)
Theorem C81_complete : forall fuel pk z r s npk nz nr ns, (600 <= fuel)%nat ->
  denotes pk npk -> denotes z nz -> denotes r nr -> denotes s ns ->
  in_bounds nz nr ns -> valid npk nz nr ns -> ecdsa_verify_partial fuel pk z r s = Ret (inl tt).
Proof.
  intros fuel pk z r s npk nz nr ns FU Dp Dz Dr Ds IB V.
  pose proof (C81_verify fuel pk z r s npk nz nr ns FU Dp Dz Dr Ds) as H. pose proof bound_lt_q as BQ.
  assert (O : exists y, on_stark (At (Z.of_N npk) y)) by (destruct V as (y & _ & _ & _ & O & _); eauto).
  pose proof IB as (BZ & BR & BS).
  destruct (ecdsa_verify_partial fuel pk z r s) as [[[]|[]]| |].
  - reflexivity.
  - exfalso. apply H. split; [exact IB|left; exact V].
  - destruct H as [_ []].
  - exfalso. destruct H as [_ [H _]]. lia.
  - destruct H as [_ []].
  - exfalso. destruct O as [y O]. exact (H y O).
  - exfalso. destruct H as [_ H]. lia.
  - destruct H as [_ []].
Qed.
Print Assumptions C81_complete.

(* The full statement: what is accepted is a signature in bounds, under the key with that x
   coordinate. It is false, below. Proved: what else is accepted has its key equal to z / r or
   - z / r modulo the order, so that whoever made the pair has given the key away. *)
Theorem C81_sound_partial : forall fuel pk z r s npk nz nr ns, (600 <= fuel)%nat ->
  denotes pk npk -> denotes z nz -> denotes r nr -> denotes s ns ->
  ecdsa_verify_partial fuel pk z r s = Ret (inl tt) ->
  in_bounds nz nr ns /\
  (valid npk nz nr ns \/
   forall sk, key_pair sk npk -> (q | Z.of_N nz + Z.of_N nr * Z.of_N sk) \/ (q | Z.of_N nz - Z.of_N nr * Z.of_N sk)).
Proof.
  intros fuel pk z r s npk nz nr ns FU Dp Dz Dr Ds E.
  pose proof (C81_verify fuel pk z r s npk nz nr ns FU Dp Dz Dr Ds) as H. rewrite E in H.
  destruct H as (_ & IB & [V|C]); (split; [exact IB|]); [left; exact V|]. right. intros sk KP. exact (reveals _ _ _ _ _ KP C).
Qed.
Print Assumptions C81_sound_partial.

Lemma accepted_iff : forall fuel r s pk hash nr ns npk nhash, (600 <= fuel)%nat ->
  denotes pk npk -> denotes hash nhash -> denotes r nr -> denotes s ns ->
  ecdsa_verify_partial fuel pk hash r s = Ret (inl tt) <->
  in_bounds nhash nr ns /\ (valid npk nhash nr ns \/ cancels npk nhash nr ns).
Proof.
  intros fuel r s pk z nr ns npk nz FU Dp Dz Dr Ds.
  pose proof (C81_verify fuel pk z r s npk nz nr ns FU Dp Dz Dr Ds) as H. split.
  - intros E. rewrite E in H. apply H.
  - intros [IB V]. pose proof bound_lt_q as BQ. pose proof IB as (BZ & BR & BS).
    assert (O : exists y, on_stark (At (Z.of_N npk) y)) by (destruct V as [(y & ? & ? & ? & O & _)|(y & ? & ? & ? & O & _)]; eauto).
    destruct (ecdsa_verify_partial fuel pk z r s) as [[[]|[]]| |].
    + reflexivity.
    + exfalso. apply H. split; [exact IB|exact V].
    + destruct H as [_ []].
    + exfalso. destruct H as [_ [H _]]. lia.
    + destruct H as [_ []].
    + exfalso. destruct O as [y O]. exact (H y O).
    + exfalso. destruct H as [_ H]. lia.
    + destruct H as [_ []].
Qed.
(* The signature of a block is one of its hash. *)
Theorem C81_block : forall fuel r s pk hash nr ns npk nhash, (600 <= fuel)%nat ->
  denotes pk npk -> denotes hash nhash -> denotes r nr -> denotes s ns ->
  verify_block_signature fuel r s pk hash = Ret (inl tt) <->
  in_bounds nhash nr ns /\ (valid npk nhash nr ns \/ cancels npk nhash nr ns).
Proof. exact accepted_iff. Qed.
Print Assumptions C81_block.

(* The public key is the x coordinate of the secret times the generator; there is none exactly
   when the secret is not below the curve order. *)
Theorem C81_get_pk : forall fuel g_consts sk n, (600 <= fuel)%nat -> multiples 4 63 generator g_consts -> denotes sk n ->
  match get_pk fuel g_consts sk with
  | Ret (Some f) => Z.of_N n < q /\ (n <> 0%N -> exists pk, denotes f pk /\ key_pair n pk)
  | Ret None => q <= Z.of_N n
  | Panics | Diverges => False
  end.
Proof. intros fuel g sk n FU M D. pose proof (get_pk_ok fuel g sk n FU M D) as H. destruct (get_pk fuel g sk) as [[]| |]; exact H. Qed.
Print Assumptions C81_get_pk.

(* Signing with a given k, in full: r is the x coordinate of k times the generator and
   s * k = z + r * sk modulo the order; the errors come in that order; it never panics. *)
Theorem C81_sign_k : forall fuel g_consts sk z k nsk nz nk, (600 <= fuel)%nat -> multiples 4 63 generator g_consts ->
  denotes sk nsk -> denotes z nz -> denotes k nk ->
  match ecdsa_sign_k fuel g_consts sk z k with
  | Ret (inl (r, s)) => Z.of_N nsk < q /\ Z.of_N nz < q /\ 0 < Z.of_N nk < q /\
      exists nr ns, denotes r nr /\ denotes s ns /\ key_pair nk nr /\ Z.of_N nr < bound /\ Z.of_N ns < q /\
        (Z.of_N ns * Z.of_N nk) mod q = (Z.of_N nz + Z.of_N nr * Z.of_N nsk) mod q
  | Ret (inr E_SecretKey) => q <= Z.of_N nsk
  | Ret (inr E_Message) => Z.of_N nsk < q /\ q <= Z.of_N nz
  | Ret (inr E_Randomness) => Z.of_N nsk < q /\ Z.of_N nz < q /\
      (q <= Z.of_N nk \/ nk = 0%N \/ exists x, key_pair nk x /\ bound <= Z.of_N x)
  | _ => False
  end.
Proof. exact sign_k_ok. Qed.
Print Assumptions C81_sign_k.

(* What is signed verifies. The full statement: whatever signing makes, verifying with the key
   that get_pk gives accepts. It is false of messages from 2^251 on, of s = 0 and of the zero
   key, below; proved for the rest. *)
Theorem C81_signed_verifies_partial : forall fuel g_consts sk z k nsk nz nk pk r s nr ns, (600 <= fuel)%nat ->
  multiples 4 63 generator g_consts -> denotes sk nsk -> denotes z nz -> denotes k nk ->
  get_pk fuel g_consts sk = Ret (Some pk) -> ecdsa_sign_k fuel g_consts sk z k = Ret (inl (r, s)) ->
  denotes r nr -> denotes s ns ->
  nsk <> 0%N -> Z.of_N nz < bound -> nr <> 0%N -> 0 < Z.of_N ns < bound ->
  ecdsa_verify_partial fuel pk z r s = Ret (inl tt).
Proof.
  intros fuel g sk z k nsk nz nk pk r s nr ns FU M Dsk Dz Dk GP SG Dr Ds NSK BZ NR BS.
  pose proof (C81_get_pk fuel g sk nsk FU M Dsk) as H1. rewrite GP in H1. destruct H1 as [_ H1].
  destruct (H1 NSK) as (npk & Dpk & KP).
  pose proof (C81_sign_k fuel g sk z k nsk nz nk FU M Dsk Dz Dk) as H2. rewrite SG in H2.
  destruct H2 as (_ & _ & NK & nr' & ns' & Dr' & Ds' & KN & BR & _ & E).
  assert (nr' = nr) by (destruct Dr as [_ <-]; destruct Dr' as [_ <-]; reflexivity). subst nr'.
  assert (ns' = ns) by (destruct Ds as [_ <-]; destruct Ds' as [_ <-]; reflexivity). subst ns'.
  pose proof bound_lt_q as BQ.
  apply (C81_complete fuel pk z r s npk nz nr ns FU Dpk Dz Dr Ds).
  - unfold in_bounds. lia.
  - apply (signed_valid nsk nz nk nr ns npk NK ltac:(lia) KP KN E).
Qed.
Print Assumptions C81_signed_verifies_partial.

(* Signing with random draws gives what signing with one of them gives; all before it were no
   good. Only a key or message that is no number below the order makes it fail. *)
Theorem C81_sign : forall fuel g_consts sk z nsk nz draws, (600 <= fuel)%nat -> multiples 4 63 generator g_consts ->
  denotes sk nsk -> denotes z nz -> Forall (fun k => exists n, denotes k n) draws ->
  match ecdsa_sign fuel g_consts draws sk z with
  | Ret (inl sig) => exists before k after, draws = before ++ k :: after /\
      ecdsa_sign_k fuel g_consts sk z k = Ret (inl sig) /\
      Forall (fun k' => ecdsa_sign_k fuel g_consts sk z k' = Ret (inr E_Randomness)) before
  | Ret (inr E_SecretKey) => q <= Z.of_N nsk
  | Ret (inr E_Message) => Z.of_N nsk < q /\ q <= Z.of_N nz
  | Ret (inr _) | Panics => False
  | Diverges => Forall (fun k' => ecdsa_sign_k fuel g_consts sk z k' = Ret (inr E_Randomness)) draws
  end.
Proof.
  intros fuel g sk z nsk nz draws FU M Dsk Dz. induction draws as [|k draws IH]; intros F; cbn [ecdsa_sign]; [constructor|].
  inversion F as [|? ? [nk Dk] F']; subst. specialize (IH F').
  pose proof (C81_sign_k fuel g sk z k nsk nz nk FU M Dsk Dz Dk) as H.
  destruct (ecdsa_sign_k fuel g sk z k) as [[[r s]|[]]| |] eqn:E; cbn [ok err] in *; try exact H; try contradiction.
  - exists [], k, draws. auto.
  - destruct (ecdsa_sign fuel g draws sk z) as [[sig|[]]| |]; try exact IH.
    + destruct IH as (bef & k' & aft & -> & E' & FB). exists (k :: bef), k', aft. auto.
    + constructor; [exact E|exact IH].
Qed.
Print Assumptions C81_sign.

(* Verifying with both coordinates either refuses the key or answers as with the one. *)
Theorem C81_full_key : forall fuel a f x y z r s, (600 <= fuel)%nat ->
  on_stark (At x y) -> means_affine a (At x y) -> denotes f (Z.to_N x) ->
  ecdsa_verify fuel a z r s = Ret (inr E_PublicKey) \/
  ecdsa_verify fuel a z r s = ecdsa_verify_partial fuel f z r s.
Proof.
  intros fuel a f x y z r s FU O (x' & y' & X & Y & EQ) D. destruct (a_inf a); [discriminate EQ|].
  injection EQ as -> ->. unfold ecdsa_verify, ecdsa_verify_partial.
  pose proof (MontBytesProof.mont_of_felt_rep f _ D) as R. rewrite Z2N.id in R by apply O.
  rewrite (proj2 (C04_one_representation _ _ is_base _ _ _ _ R X) eq_refl).
  destruct (get_pk_point fuel (a_x a)) as [[pt|]| |]; cbn [bind]; auto.
  destruct (limbs_eqb (a_y pt) (a_y a)); cbn [negb]; auto.
Qed.
Print Assumptions C81_full_key.

(* ---- what is not so ---- *)
Local Notation gx := 874739451078007766457464989774322083649278607533249481151382481072868806602%N.
Lemma gx_key : forall x, key_pair 1 x -> x = gx.
Proof.
  intros x [y T]. assert (T1 : times 1 generator generator).
  { change 1%N with (N.succ 0). apply (times_more 0 generator Infinity); [constructor|apply sum_right]. }
  pose proof (times_det _ _ _ _ on_gen T T1) as E. unfold generator in E. injection E. intros _ EX.
  apply N2Z.inj. rewrite EX. reflexivity.
Qed.
Lemma gx_on : exists y, on_stark (At (Z.of_N gx) y).
Proof. exists 152666792071518830868575557812948353041420400780739481342941381225525861407. exact on_gen. Qed.
Lemma gx_bounds : 0 < Z.of_N gx < bound. Proof. vm_compute. split; reflexivity. Qed.

(* Verifying panics on numbers from the curve order on, which felts can be, instead of refusing. *)
Theorem C81_no_panic_refuted : forall fuel, (600 <= fuel)%nat ->
  exists pk z r s, ecdsa_verify_partial fuel pk z r s = Panics /\ denotes r (Z.to_N curve_order).
Proof.
  intros fuel FU. pose proof q_lt_p as QP. pose proof q_big as QB. pose proof gx_bounds as GB. pose proof bound_lt_q as BQ.
  destruct (felt_ex gx ltac:(lia)) as [f F]. destruct (felt_ex (Z.to_N q) ltac:(lia)) as [r R].
  exists f, f, r, f. split; [|exact R].
  pose proof (C81_verify fuel f f r f gx gx _ gx FU F F R F) as H. destruct gx_on as [y O].
  unfold in_bounds in H. rewrite !Z2N.id in H by lia.
  destruct (ecdsa_verify_partial fuel f f r f) as [[[]|[]]| |]; try reflexivity; exfalso.
  - lia.
  - lia.
  - apply H.
  - lia.
  - apply H.
  - exact (H y O).
  - apply H.
Qed.
Print Assumptions C81_no_panic_refuted.

Lemma twice_x : forall y t, on_stark (At (Z.of_N gx) y) -> gadd G (emb (At (Z.of_N gx) y)) = PT (el (Z.of_N gx)) t -> False.
Proof.
  intros y t O E. pose proof q_big as QB.
  assert (NZ : forall k, (0 < k < 1000)%N -> gmul k G <> Oh).
  { intros k K E0. apply gmul_G_zero in E0. destruct E0 as [c E0]. assert (c = 0 \/ c < 0 \/ 0 < c) as [C|[C|C]] by lia; nia. }
  pose proof (gadd_on _ _ G_on (on_emb _ O)) as OS. rewrite E in OS.
  assert (NG : G <> Oh) by (rewrite <- (gmul_1 G); apply NZ; lia).
  assert (SAME : forall v, on (PT (el (Z.of_N gx)) v) -> PT (el (Z.of_N gx)) v = G \/ PT (el (Z.of_N gx)) v = gopp G).
  { intros v OV. destruct (gadd_same_x _ _ _ (on_emb _ on_gen) OV) as [H|H].
    - left. rewrite <- H. reflexivity.
    - right. rewrite H. reflexivity. }
  assert (TWO : gadd G G = gmul 2 G) by (change 2%N with (1 + 1)%N; rewrite gmul_add, gmul_1 by exact G_on; reflexivity).
  destruct (SAME _ (on_emb _ O)) as [H1|H1]; cbn [emb] in E; rewrite H1 in E; [|rewrite gadd_opp in E; discriminate E].
  destruct (SAME _ OS) as [H2|H2]; rewrite H2 in E.
  - pose proof (gcancel G G G_on G_on) as C. rewrite E, gadd_comm, gadd_opp in C by (try apply gopp_on; exact G_on). apply NG. symmetry. exact C.
  - apply (NZ 3%N); [lia|]. change 3%N with (1 + 2)%N. rewrite gmul_add, gmul_1, <- TWO, E by exact G_on. apply gadd_opp.
Qed.
(* The x coordinate of the generator is accepted as a signature of itself under itself, though it is none:
   the two parts cancel, and the code takes the coordinates left in the neutral point for its own. *)
Theorem C81_sound_refuted : forall fuel, (600 <= fuel)%nat ->
  exists f, denotes f gx /\ ecdsa_verify_partial fuel f f f f = Ret (inl tt) /\ ~ valid gx gx gx gx.
Proof.
  intros fuel FU. pose proof q_lt_p as QP. pose proof q_big as QB. pose proof gx_bounds as GB. pose proof bound_lt_q as BQ.
  destruct (felt_ex gx ltac:(lia)) as [f F]. exists f. split; [exact F|].
  assert (IV : exists m, (Z.of_N gx * m) mod q = 1).
  { assert (RP : rel_prime (Z.of_N gx) q) by (apply rel_prime_le_prime; [exact curve_order_prime|lia]).
    apply rel_prime_bezout in RP. destruct RP as [a b B]. exists a.
    replace (Z.of_N gx * a) with (1 + (- b) * q) by (rewrite <- B; ring). rewrite Z_mod_plus_full. apply Z.mod_small. lia. }
  destruct IV as [m M]. destruct (proj2 (proj2 C80_group) generator on_gen) as [OO SO].
  assert (U : forall P, gmul (Z.to_N ((Z.of_N gx * m) mod q)) P = P) by (intros P; rewrite M; apply gmul_1).
  split.
  - apply (proj2 (accepted_iff fuel f f f f gx gx gx gx FU F F F F)). split; [unfold in_bounds; lia|]. right.
    destruct (parts_bwd gx gx gx m M (opposite generator) OO) as (A & B & PA & OA & OB & EA & EB).
    rewrite U in EA, EB. change G with (emb generator) in EA. apply (emb_inj _ _ OA on_gen) in EA. apply (emb_inj _ _ OB OO) in EB. subst A B.
    eexists _, _, _, _. split; [exact OO|]. split; [exact PA|]. split; [reflexivity|exact SO].
  - intros (y & A & B & y' & O & PA & S).
    destruct (parts_fwd gx gx gx m M _ _ _ O PA) as (OA & OB & EA & EB). rewrite U in EA, EB.
    pose proof (sum_gadd _ _ _ OA OB S) as SG. rewrite EA, EB in SG. exact (twice_x y _ O SG).
Qed.
Print Assumptions C81_sound_refuted.

Lemma table : exists g, multiples 4 63 generator g.
Proof. exact (multiples_ex 4 63 generator on_gen eq_refl). Qed.
Lemma signs_with_one : forall fuel g sk z k nsk nz, (600 <= fuel)%nat -> multiples 4 63 generator g ->
  denotes sk nsk -> denotes z nz -> denotes k 1 -> Z.of_N nsk < q -> Z.of_N nz < q ->
  exists r s, ecdsa_sign_k fuel g sk z k = Ret (inl (r, s)) /\ denotes r gx /\
    denotes s (Z.to_N ((Z.of_N nz + Z.of_N gx * Z.of_N nsk) mod q)).
Proof.
  intros fuel g sk z k nsk nz FU M Dsk Dz Dk LS LZ. pose proof q_big as QB. pose proof gx_bounds as GB.
  pose proof (C81_sign_k fuel g sk z k nsk nz 1 FU M Dsk Dz Dk) as H.
  destruct (ecdsa_sign_k fuel g sk z k) as [[[r s]|[]]| |]; try contradiction; try (exfalso; lia).
  - destruct H as (_ & _ & _ & nr & ns & Dr & Ds & KN & BR & SQ & E). apply gx_key in KN. subst nr.
    exists r, s. split; [reflexivity|]. split; [exact Dr|]. rewrite Z.mul_1_r, Z.mod_small in E by lia. rewrite <- E, N2Z.id. exact Ds.
  - exfalso. destruct H as (_ & _ & [H|[H|(x & KX & H)]]); [lia|lia|]. apply gx_key in KX. subst x. lia.
Qed.

(* A message of 2^251 is signed, but the signature is then refused for the message. *)
Theorem C81_sign_message_refuted : forall fuel, (600 <= fuel)%nat ->
  exists g sk z k r s, multiples 4 63 generator g /\ denotes sk 1 /\ denotes z (Z.to_N bound) /\
    ecdsa_sign_k fuel g sk z k = Ret (inl (r, s)) /\
    forall pk npk, denotes pk npk -> key_pair 1 npk -> ecdsa_verify_partial fuel pk z r s = Ret (inr E_Message).
Proof.
  intros fuel FU. pose proof q_lt_p as QP. pose proof q_big as QB. pose proof gx_bounds as GB. pose proof bound_lt_q as BQ.
  pose proof bound_big as BB. destruct table as [g M].
  destruct (felt_ex 1 ltac:(lia)) as [o D1]. destruct (felt_ex (Z.to_N bound) ltac:(lia)) as [z Dz].
  destruct (signs_with_one fuel g o z o 1 _ FU M D1 Dz D1 ltac:(lia) ltac:(lia)) as (r & s & E & Dr & Ds).
  exists g, o, z, o, r, s. split; [exact M|]. split; [exact D1|]. split; [exact Dz|]. split; [exact E|].
  intros pk npk Dpk [y T]. apply (times_on _ _ _ on_gen) in T. destruct T as [O _].
  pose proof (C81_verify fuel pk z r s npk _ _ _ FU Dpk Dz Dr Ds) as H. clear E Dpk Dz Dr Ds D1 M.
  set (n := (Z.of_N (Z.to_N bound) + Z.of_N gx * Z.of_N 1) mod q) in *.
  assert (NR : 0 <= n < q) by (apply Z.mod_pos_bound; lia). clearbody n. unfold in_bounds in H. rewrite !Z2N.id in H by lia.
  destruct (ecdsa_verify_partial fuel pk z r s) as [[[]|[]]| |]; try reflexivity; exfalso.
  - lia.
  - lia.
  - apply H.
  - apply H.
  - exact (H y O).
  - lia.
  - apply H.
Qed.
Print Assumptions C81_sign_message_refuted.

(* Nothing keeps signing from making s = 0, which is then refused. *)
Theorem C81_sign_zero_refuted : forall fuel, (600 <= fuel)%nat ->
  exists g sk z k r s, multiples 4 63 generator g /\ denotes sk (Z.to_N (curve_order - 1)) /\ denotes z gx /\
    ecdsa_sign_k fuel g sk z k = Ret (inl (r, s)) /\
    forall pk npk, denotes pk npk -> key_pair (Z.to_N (curve_order - 1)) npk ->
      ecdsa_verify_partial fuel pk z r s = Ret (inr E_Signature).
Proof.
  intros fuel FU. pose proof q_lt_p as QP. pose proof q_big as QB. pose proof gx_bounds as GB. pose proof bound_lt_q as BQ.
  destruct table as [g M]. destruct (felt_ex 1 ltac:(lia)) as [o D1]. destruct (felt_ex (Z.to_N (q - 1)) ltac:(lia)) as [sk Dsk].
  destruct (felt_ex gx ltac:(lia)) as [z Dz].
  destruct (signs_with_one fuel g sk z o _ _ FU M Dsk Dz D1 ltac:(lia) ltac:(lia)) as (r & s & E & Dr & Ds).
  exists g, sk, z, o, r, s. split; [exact M|]. split; [exact Dsk|]. split; [exact Dz|]. split; [exact E|].
  intros pk npk Dpk [y T]. apply (times_on _ _ _ on_gen) in T. destruct T as [O _].
  assert (S0 : (Z.of_N gx + Z.of_N gx * Z.of_N (Z.to_N (q - 1))) mod q = 0).
  { rewrite Z2N.id by lia. replace (Z.of_N gx + Z.of_N gx * (q - 1)) with (Z.of_N gx * q) by ring. apply Z_mod_mult. }
  rewrite S0 in Ds.
  pose proof (C81_verify fuel pk z r s npk _ _ _ FU Dpk Dz Dr Ds) as H. clear E Dpk Dz Dr Ds D1 M Dsk S0.
  unfold in_bounds in H.
  destruct (ecdsa_verify_partial fuel pk z r s) as [[[]|[]]| |]; try reflexivity; exfalso.
  - lia.
  - apply H.
  - lia.
  - apply H.
  - exact (H y O).
  - lia.
  - apply H.
Qed.
Print Assumptions C81_sign_zero_refuted.

(* The secret zero is given a public key, though zero times the generator has no coordinates. *)
Theorem C81_zero_key_refuted : forall fuel, (600 <= fuel)%nat ->
  exists g sk pk, multiples 4 63 generator g /\ denotes sk 0 /\ get_pk fuel g sk = Ret (Some pk) /\ forall n, ~ key_pair 0 n.
Proof.
  intros fuel FU. pose proof q_lt_p as QP. pose proof q_big as QB. destruct table as [g M]. destruct (felt_ex 0 ltac:(lia)) as [sk D].
  pose proof (C81_get_pk fuel g sk 0 FU M D) as H. destruct (get_pk fuel g sk) as [[pk|]| |] eqn:E; [|exfalso; lia|contradiction|contradiction].
  exists g, sk, pk. split; [exact M|]. split; [exact D|]. split; [exact E|]. intros n [y T].
  pose proof (times_det _ _ _ _ on_gen T (times_none _)) as X. discriminate X.
Qed.
Print Assumptions C81_zero_key_refuted.

(* Of every point and its opposite, one is refused as a full key: the code compares y with the
   square root it happens to find. *)
Theorem C81_full_key_refuted : forall fuel a b x y z r s, (600 <= fuel)%nat -> on_stark (At x y) ->
  means_affine a (At x y) -> means_affine b (opposite (At x y)) ->
  ecdsa_verify fuel a z r s = Ret (inr E_PublicKey) \/ ecdsa_verify fuel b z r s = Ret (inr E_PublicKey).
Proof.
  intros fuel a b x y z r s FU O (x1 & y1 & X1 & Y1 & E1) (x2 & y2 & X2 & Y2 & E2).
  destruct (a_inf a); [discriminate E1|]. destruct (a_inf b); [discriminate E2|]. injection E1 as -> ->. injection E2 as -> EY. subst y2.
  unfold ecdsa_verify. rewrite (proj2 (C04_one_representation _ _ is_base _ _ _ _ X2 X1) eq_refl).
  destruct (get_pk_point fuel (a_x a)) as [[pt|]| |] eqn:GP; cbn [bind]; auto.
  - destruct (limbs_eqb (a_y pt) (a_y a)) eqn:A; cbn [negb]; auto.
    destruct (limbs_eqb (a_y pt) (a_y b)) eqn:B; cbn [negb]; auto. exfalso.
    apply limbs_eqb_spec in A. apply limbs_eqb_spec in B. rewrite A in B.
    pose proof (proj1 (C04_one_representation _ _ is_base _ _ _ _ Y1 Y2) B) as EY.
    pose proof (C80_no_point_of_order_two _ _ O) as NZ. pose proof (p_big) as PB.
    assert (YR : 0 <= y1 < base_prime) by apply Y1. rewrite Z_mod_nz_opp_full in EY by (rewrite Z.mod_small; lia).
    rewrite Z.mod_small in EY by lia. apply (prime_odd y1). lia.
  - exfalso. pose proof (get_pk_point_ok fuel _ _ FU X1) as H. rewrite GP in H. exact H.
  - exfalso. pose proof (get_pk_point_ok fuel _ _ FU X1) as H. rewrite GP in H. exact H.
Qed.
Print Assumptions C81_full_key_refuted.

(* A block has more than one accepted signature: negating s makes another out of any. *)
Theorem C81_one_signature_refuted : forall fuel sk pk z r s s' npk nz nr ns, (600 <= fuel)%nat ->
  denotes pk npk -> denotes z nz -> denotes r nr -> denotes s ns -> denotes s' (Z.to_N (q - Z.of_N ns)) ->
  key_pair sk npk -> valid npk nz nr ns -> in_bounds nz nr ns -> q - bound < Z.of_N ns ->
  ecdsa_verify_partial fuel pk z r s = Ret (inl tt) /\ ecdsa_verify_partial fuel pk z r s' = Ret (inl tt) /\ s <> s'.
Proof.
  intros fuel sk pk z r s s' npk nz nr ns FU Dp Dz Dr Ds Ds' KP V IB L. pose proof bound_lt_q as BQ.
  pose proof IB as (BZ & BR & BS). split; [exact (C81_complete _ _ _ _ _ _ _ _ _ FU Dp Dz Dr Ds IB V)|]. split.
  - apply (C81_complete _ _ _ _ _ _ _ _ _ FU Dp Dz Dr Ds'); [unfold in_bounds; lia|]. apply (malleable sk); [lia|exact KP|exact V].
  - intros <-. destruct Ds as [_ E]. destruct Ds' as [_ E']. rewrite E in E'.
    apply (order_odd (Z.of_N ns)). lia.
Qed.
Print Assumptions C81_one_signature_refuted.

(* ---- cases ---- *)
Local Notation gx1 := 874739451078007766457464989774322083649278607533249481151382481072868806603%N.

(* the key 1 signs the message 1 with k = 1: (r, s) = (x, x + 1), x that of the generator *)
Example C81_a_signature : exists f one r s, denotes f gx /\ denotes one 1 /\ denotes r gx /\ denotes s gx1 /\
  key_pair 1 gx /\ in_bounds 1 gx gx1 /\ valid gx 1 gx gx1 /\
  ecdsa_verify_partial 600 f one r s = Ret (inl tt).
Proof.
  pose proof q_lt_p as QP. pose proof q_big as QB. pose proof gx_bounds as GB. pose proof bound_lt_q as BQ. pose proof bound_big as BB.
  assert (S1 : Z.of_N gx1 = Z.of_N gx + 1) by reflexivity. assert (SB : Z.of_N gx1 < bound) by (vm_compute; reflexivity).
  destruct (felt_ex gx ltac:(lia)) as [f F]. destruct (felt_ex 1 ltac:(lia)) as [o D1]. destruct (felt_ex gx1 ltac:(lia)) as [s Ds].
  exists f, o, f, s. assert (KP : key_pair 1 gx).
  { exists 152666792071518830868575557812948353041420400780739481342941381225525861407.
    change 1%N with (N.succ 0). apply (times_more 0 generator Infinity); [constructor|apply sum_right]. }
  assert (IB : in_bounds 1 gx gx1) by (unfold in_bounds; lia).
  assert (V : valid gx 1 gx gx1).
  { apply (signed_valid 1 1 1 gx gx1 gx); [lia|lia|exact KP|exact KP|]. rewrite S1. f_equal; lia. }
  split; [exact F|]. split; [exact D1|]. split; [exact F|]. split; [exact Ds|]. split; [exact KP|]. split; [exact IB|]. split; [exact V|].
  exact (C81_complete 600 _ _ _ _ _ _ _ _ (le_n _) F D1 F Ds IB V).
Qed.
(* signing it gives that, and the public key is that x *)
Example C81_signing_it : exists g one r s pk, multiples 4 63 generator g /\ denotes one 1 /\
  ecdsa_sign_k 600 g one one one = Ret (inl (r, s)) /\ denotes r gx /\ denotes s gx1 /\
  get_pk 600 g one = Ret (Some pk) /\ denotes pk gx /\ ecdsa_verify_partial 600 pk one r s = Ret (inl tt).
Proof.
  pose proof q_lt_p as QP. pose proof q_big as QB. pose proof gx_bounds as GB. pose proof bound_lt_q as BQ. pose proof bound_big as BB.
  assert (S1 : Z.of_N gx1 = Z.of_N gx + 1) by reflexivity. assert (SB : Z.of_N gx1 < bound) by (vm_compute; reflexivity).
  destruct table as [g M]. destruct (felt_ex 1 ltac:(lia)) as [o D1].
  destruct (signs_with_one 600 g o o o 1 1 (le_n _) M D1 D1 D1 ltac:(lia) ltac:(lia)) as (r & s & E & Dr & Ds).
  assert (EV : Z.to_N ((Z.of_N 1 + Z.of_N gx * Z.of_N 1) mod q) = gx1).
  { replace (Z.of_N 1 + Z.of_N gx * Z.of_N 1) with (Z.of_N gx1) by lia. rewrite Z.mod_small by lia. apply N2Z.id. }
  rewrite EV in Ds. pose proof (C81_get_pk 600 g o 1 (le_n _) M D1) as H.
  destruct (get_pk 600 g o) as [[pk|]| |] eqn:EP; [|exfalso; lia|contradiction|contradiction].
  destruct H as [_ H]. destruct (H ltac:(discriminate)) as (n & Dn & KN). apply gx_key in KN. subst n.
  exists g, o, r, s, pk. split; [exact M|]. split; [exact D1|]. split; [exact E|]. split; [exact Dr|]. split; [exact Ds|].
  split; [exact EP|]. split; [exact Dn|].
  apply (C81_signed_verifies_partial 600 g o o o 1 1 1 pk r s gx gx1 (le_n _) M D1 D1 D1 EP E Dr Ds); lia || discriminate.
Qed.
