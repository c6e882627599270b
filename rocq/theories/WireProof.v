(** Proofs for C79. *)
From Coq Require Import List Bool Arith NArith ZArith Lia ZifyBool ZifyNat ZifyN.
From Verif Require Import Radix FeltModel FeltSpec FeltProof MerkleModel VersionModel VersionSpec VersionProof CommitModel TxHashModel CodecModel BlobModel BlobSpec WireModel WireSpec.
Import ListNotations.
Local Open Scope N_scope.

#[local] Opaque rdigits rval.

(** ---- leaves ---- *)

Lemma is_felt_P : forall x, is_felt x <-> x < FeltSpec.P.
Proof. reflexivity. Qed.

Lemma is_251_felt : forall x, is_251 x -> is_felt x.
Proof. unfold is_251, is_felt. intros x H. eapply N.lt_trans; [exact H|reflexivity]. Qed.

Lemma felt_256 : forall x, is_felt x -> x < 256 ^ N.of_nat 32.
Proof. intros x H. eapply N.lt_trans; [exact H|reflexivity]. Qed.

Lemma write_bytes : forall x, is_bytes (write_felt x).
Proof. intros. apply rdigits_lt. lia. Qed.

Lemma read_felt_spec : forall b, is_bytes b ->
  read_felt b = if Nat.leb (length b) 32 && (rval 256 b <? FeltSpec.P) then Some (rval 256 b) else None.
Proof.
  intros b D. unfold read_felt. rewrite from_be_slice_spec by exact D.
  destruct (Nat.leb (length b) 32 && (rval 256 b <? FeltSpec.P)); [|reflexivity].
  rewrite rval_zeros. reflexivity.
Qed.

Lemma read_address_spec : forall b, is_bytes b ->
  read_address b =
  if Nat.leb (length b) 32 && (rval 256 b <? 2 ^ 251) then Some (rval 256 b) else None.
Proof.
  intros b D. unfold read_address. rewrite from_be_slice_spec by exact D.
  destruct (Nat.leb_spec (length b) 32) as [L|L]; cbn [andb]; [|reflexivity].
  pose proof FeltProof.P_gt_2_251 as G.
  destruct (N.ltb_spec (rval 256 b) FeltSpec.P) as [V|V].
  - rewrite has_more_spec.
    + rewrite be_value_rval, rval_zeros.
      destruct (N.leb_spec (2 ^ 251) (rval 256 b)); destruct (N.ltb_spec (rval 256 b) (2 ^ 251));
        reflexivity || lia.
    + rewrite app_length, repeat_length. lia.
    + apply Forall_app. split; [apply repeat_bytes|exact D].
  - destruct (N.ltb_spec (rval 256 b) (2 ^ 251)); [lia|reflexivity].
Qed.

Lemma read_write_felt : forall x, is_felt x -> read_felt (write_felt x) = Some x.
Proof.
  intros x H. rewrite read_felt_spec by apply write_bytes. unfold write_felt.
  rewrite rdigits_length, rval_rdigits by (lia || apply felt_256, H).
  assert (V : (x <? FeltSpec.P) = true) by (apply N.ltb_lt; exact H). rewrite V. reflexivity.
Qed.

Lemma read_write_address : forall x, is_251 x -> read_address (write_felt x) = Some x.
Proof.
  intros x H. rewrite read_address_spec by apply write_bytes. unfold write_felt.
  rewrite rdigits_length, rval_rdigits by (lia || apply felt_256, is_251_felt, H).
  apply N.ltb_lt in H. rewrite H. reflexivity.
Qed.

Lemma read_felt_ok : forall b x, is_bytes b -> read_felt b = Some x -> is_felt x.
Proof.
  intros b x D H. rewrite read_felt_spec in H by exact D.
  destruct (Nat.leb (length b) 32); [|discriminate]. cbn [andb] in H.
  destruct (N.ltb_spec (rval 256 b) FeltSpec.P) as [V|V]; [|discriminate]. injection H as <-.
  apply is_felt_P, V.
Qed.

Lemma read_address_ok : forall b x, is_bytes b -> read_address b = Some x -> is_251 x.
Proof.
  intros b x D H. rewrite read_address_spec in H by exact D.
  destruct (Nat.leb (length b) 32); [|discriminate]. cbn [andb] in H.
  destruct (N.ltb_spec (rval 256 b) (2 ^ 251)) as [V|V]; [|discriminate]. injection H as <-. exact V.
Qed.

Lemma try_map_map : forall A B (f : A -> option B) (g : B -> A) l,
  Forall (fun x => f (g x) = Some x) l -> try_map f (map g l) = Some l.
Proof.
  induction l as [|x l IH]; intros F; [reflexivity|]. inversion F as [|? ? E F']; subst.
  cbn [map try_map]. rewrite E, (IH F'). reflexivity.
Qed.

Lemma try_map_ok : forall A B (f : A -> option B) (ok : B -> Prop) (okA : A -> Prop) l m,
  (forall x y, okA x -> f x = Some y -> ok y) -> Forall okA l -> try_map f l = Some m -> Forall ok m.
Proof.
  intros A B f ok okA. induction l as [|x l IH]; intros m S F H; cbn [try_map] in H.
  - injection H as <-. constructor.
  - inversion F as [|? ? a b]; subst. destruct (f x) as [y|] eqn:E; [|discriminate].
    destruct (try_map f l) as [m'|] eqn:E'; [|discriminate]. injection H as <-.
    constructor; [exact (S x y a E)|]. exact (IH m' S b eq_refl).
Qed.

Lemma read_write_felts : forall l, is_felts l -> try_map read_felt (map write_felt l) = Some l.
Proof.
  intros l [_ F]. apply try_map_map. eapply Forall_impl; [|exact F]. exact read_write_felt.
Qed.

Lemma read_felts_ok : forall l m, Forall all_bytes l -> try_map read_felt l = Some m -> Forall is_felt m.
Proof. intros l m F. apply (try_map_ok _ _ _ _ all_bytes); [|exact F]. exact read_felt_ok. Qed.

Lemma read_write_mode : forall m, read_mode (write_mode m) = Some m.
Proof. destruct m; reflexivity. Qed.
Lemma read_write_blob : forall m, read_blob (write_blob m) = Some m.
Proof. destruct m; reflexivity. Qed.

(** numbers that a felt may be too large for *)
Lemma digits_value : forall x, is_felt x -> be_value (rdigits 256 32 x) = x.
Proof. intros. rewrite be_value_rval. apply rval_rdigits; [lia|]. apply felt_256, H. Qed.

Lemma to_u64_spec : forall x, is_felt x -> to_u64 x = if x <? 2 ^ 64 then Some x else None.
Proof.
  intros x H. unfold to_u64, try_into_u64. rewrite try_into_spec;
    [|lia|apply rdigits_length|apply rdigits_lt; lia].
  rewrite digits_value by exact H. change (256 ^ N.of_nat 8) with (2 ^ 64).
  destruct (x <? 2 ^ 64); reflexivity.
Qed.

Lemma to_u128_spec : forall x, is_felt x -> to_u128 x = if x <? 2 ^ 128 then Some x else None.
Proof.
  intros x H. unfold to_u128, try_into_u128. rewrite try_into_spec;
    [|lia|apply rdigits_length|apply rdigits_lt; lia].
  rewrite digits_value by exact H. change (256 ^ N.of_nat 16) with (2 ^ 128).
  destruct (x <? 2 ^ 128); reflexivity.
Qed.

Lemma all_zero_rval : forall l, forallb (fun b => b =? 0) l = true <-> l = repeat 0 (length l).
Proof.
  induction l as [|x l IH]; cbn; [tauto|]. rewrite andb_true_iff, N.eqb_eq, IH. split.
  - intros [-> E]. rewrite E at 1. reflexivity.
  - intros E. injection E as -> E. split; [reflexivity|exact E].
Qed.

Lemma rval_zero_iff : forall l, rval 256 l = 0 -> is_bytes l -> l = repeat 0 (length l).
Proof.
  induction l as [|x l IH]; intros E D; [reflexivity|]. rewrite rval_cons in E.
  inversion D as [|? ? Dx Dl]; subst.
  assert (Z : 0 < 256 ^ N.of_nat (length l)) by (apply N.neq_0_lt_0, N.pow_nonzero; lia).
  assert (x = 0) by nia. subst x. cbn [length repeat]. f_equal. apply IH; [lia|exact Dl].
Qed.

Lemma to_gas_price_spec : forall x, is_felt x -> to_gas_price x = if x <? 2 ^ 128 then Some x else None.
Proof.
  intros x H. unfold to_gas_price.
  pose proof (rdigits_length 256 32 x) as L.
  assert (D : is_bytes (rdigits 256 32 x)) by (apply rdigits_lt; lia).
  pose proof (digits_value x H) as V. rewrite be_value_rval in V.
  set (d := rdigits 256 32 x) in *. clearbody d.
  assert (A : d = firstn 16 d ++ skipn 16 d) by (symmetry; apply firstn_skipn).
  set (u := firstn 16 d) in *. set (w := skipn 16 d) in *.
  assert (Lu : length u = 16%nat) by (unfold u; rewrite firstn_length; lia).
  assert (Lw : length w = 16%nat) by (unfold w; rewrite skipn_length; lia).
  clearbody u w. rewrite A in D. apply Forall_app in D. destruct D as [Du Dw].
  rewrite A, rval_app, Lw in V. change (256 ^ N.of_nat 16) with (2 ^ 128) in V.
  pose proof (rval_bound 256 w Dw) as B. rewrite Lw in B. change (256 ^ N.of_nat 16) with (2 ^ 128) in B.
  destruct (forallb (fun b => b =? 0) u) eqn:E.
  - apply all_zero_rval in E. rewrite E, Lu in V.
    assert (Z : rval 256 (repeat 0 16) = 0) by reflexivity. rewrite Z in V.
    assert (X : x = rval 256 w) by lia. rewrite X. apply N.ltb_lt in B. rewrite B. reflexivity.
  - destruct (N.ltb_spec x (2 ^ 128)) as [S|S]; [|reflexivity]. exfalso.
    assert (Z : rval 256 u = 0) by nia. apply rval_zero_iff in Z; [|exact Du].
    apply all_zero_rval in Z. congruence.
Qed.

Lemma u64_felt : forall x, is_u64 x -> is_felt x.
Proof. unfold is_u64, is_felt. intros. assert (2 ^ 64 < 2 ^ 251) by reflexivity. lia. Qed.
Lemma u128_felt : forall x, is_u128 x -> is_felt x.
Proof. unfold is_u128, is_felt. intros. assert (2 ^ 128 < 2 ^ 251) by reflexivity. lia. Qed.

Lemma u128_round : forall n, read_u128 (write_u128 n) = n.
Proof.
  intros n. unfold read_u128, write_u128. cbn [fst snd].
  change 0xFFFFFFFFFFFFFFFF with (N.ones 64).
  apply N.bits_inj. intros i. rewrite N.lor_spec.
  destruct (N.lt_ge_cases i 64) as [L|G].
  - rewrite N.shiftl_spec_low by exact L. rewrite N.land_spec, N.ones_spec_low by exact L.
    rewrite andb_true_r. reflexivity.
  - rewrite N.shiftl_spec_high' by exact G. rewrite N.land_spec, N.ones_spec_high by exact G.
    rewrite andb_false_r, orb_false_r, N.shiftr_spec'. f_equal. lia.
Qed.

Lemma log2_lt : forall x k, 0 < k -> x < 2 ^ k -> N.log2 x < k.
Proof.
  intros x k K L. destruct (N.eq_dec x 0) as [->|NZ]; [exact K|]. apply N.log2_lt_pow2; [lia|exact L].
Qed.

Lemma read_u128_bound : forall u, u128_parts u -> is_u128 (read_u128 u).
Proof.
  intros [l h] [A B]. unfold is_u64 in *. cbn [fst snd] in A, B. unfold is_u128, read_u128. cbn [fst snd].
  destruct (N.eq_dec (N.lor (N.shiftl h 64) l) 0) as [->|NZ]; [reflexivity|].
  apply N.log2_lt_pow2; [lia|]. rewrite N.log2_lor. apply N.max_lub_lt.
  - apply log2_lt; [reflexivity|]. rewrite N.shiftl_mul_pow2. change (2 ^ 128) with (2 ^ 64 * 2 ^ 64).
    apply N.mul_lt_mono_pos_r; [reflexivity|exact B].
  - pose proof (log2_lt l 64 eq_refl A). lia.
Qed.

(** ---- transactions ---- *)

Lemma bound_round : forall b, is_bound b ->
  read_limits (write_limits (bound_to_dto b)) = Some (bound_to_dto b) /\
  bound_from_dto (bound_to_dto b) = Some b.
Proof.
  intros [a p] [A B]. cbn [rb_amount rb_price] in A, B. split.
  - unfold read_limits, write_limits, bound_to_dto. cbn [li_amount li_price rb_amount rb_price].
    rewrite !read_write_felt by auto using u64_felt, u128_felt. reflexivity.
  - unfold bound_from_dto, bound_to_dto. cbn [li_amount li_price rb_amount rb_price].
    rewrite to_u64_spec, to_u128_spec by auto using u64_felt, u128_felt.
    apply N.ltb_lt in A. apply N.ltb_lt in B. rewrite A, B. reflexivity.
Qed.

Lemma bounds_round : forall b, is_bounds b ->
  read_bounds (write_bounds (bounds_to_dto b)) = Some (bounds_to_dto b) /\
  bounds_from_dto (bounds_to_dto b) = Some b.
Proof.
  intros [a b c] (A & B & C). cbn [rb_l1_gas rb_l2_gas rb_l1_data_gas] in A, B, C.
  destruct (bound_round a A) as [A1 A2]. destruct (bound_round b B) as [B1 B2].
  unfold bounds_to_dto. cbn [rb_l1_gas rb_l2_gas rb_l1_data_gas].
  split.
  - unfold write_bounds, read_bounds. rewrite A1, B1.
    destruct c as [c|]; cbn [option_map try_opt]; [|reflexivity].
    destruct (bound_round c C) as [C1 _]. rewrite C1. reflexivity.
  - unfold bounds_from_dto. rewrite A2, B2.
    destruct c as [c|]; cbn [option_map try_opt]; [|reflexivity].
    destruct (bound_round c C) as [_ C2]. rewrite C2. reflexivity.
Qed.

#[local] Opaque read_felt write_felt read_address read_bounds write_bounds bounds_from_dto
  bounds_to_dto read_mode write_mode.

Lemma variant_round : forall v, is_variant v ->
  match v with
  | VDeclareV1 v => is_251 (d1_sender v) | VDeclareV2 v => is_251 (d2_sender v) | _ => True
  end ->
  exists d, variant_from_proto (variant_to_proto (to_dto v)) = Some d /\ from_dto d = Some (received v).
Proof.
  intros v T S.
  destruct v as [[]|[]|[]|[]|[]|[]|[]|[]|[]|[]|[]|[]]; cbn in T, S;
    repeat match goal with H : _ /\ _ |- _ => destruct H end;
    cbn -[try_map map];
    repeat match goal with H : is_251 ?x |- _ => pose proof (is_251_felt x H);
      pose proof (read_write_address x H); clear H end;
    repeat match goal with H : is_felt ?x |- _ => pose proof (read_write_felt x H); clear H end;
    repeat match goal with H : is_felts ?x |- _ => pose proof (read_write_felts x H); clear H end;
    repeat match goal with H : is_bounds ?x |- _ => destruct (bounds_round x H); clear H end;
    repeat match goal with H : _ = Some _ |- _ => rewrite H; clear H end;
    rewrite ?read_write_mode;
    eexists; split; try reflexivity; cbn -[try_map map];
    repeat match goal with H : _ = Some _ |- _ => rewrite H; clear H end; try reflexivity.
Qed.
