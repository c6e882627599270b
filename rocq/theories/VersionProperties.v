(* C50-C51: Starknet versions and the query flag of transaction versions. *)
From Coq Require Import List Arith NArith Lia ZifyBool ZifyNat ZifyN Bool.
From Verif Require Import Radix FeltModel FeltSpec FeltProof VersionModel VersionSpec VersionProof.
Import ListNotations.
Local Open Scope N_scope.

(* ---- C50 ---- *)

(* The parser accepts exactly the version strings, with the version they say. *)
Theorem C50_parse : forall s v, version_from_str s = Some v <-> version_text s v.
Proof. exact version_from_str_spec. Qed.
Print Assumptions C50_parse.

(* The printed text is a version string for the version, so parsing returns it. *)
Theorem C50_text_roundtrip : forall v, valid v ->
  version_text (version_to_string v) v /\ version_from_str (version_to_string v) = Some v.
Proof.
  intros v V. pose proof (to_string_spec v V) as H. split; [exact H|]. apply version_from_str_spec, H.
Qed.
Print Assumptions C50_text_roundtrip.

(* Distinct versions have distinct texts. *)
Theorem C50_text_injective : forall v w, valid v -> valid w ->
  version_to_string v = version_to_string w -> v = w.
Proof.
  intros v w V W E. apply (version_text_fun (version_to_string v)).
  - apply to_string_spec, V.
  - rewrite E. apply to_string_spec, W.
Qed.
Print Assumptions C50_text_injective.

(* What is parsed is always a valid version. *)
Theorem C50_parse_valid : forall s v, version_from_str s = Some v -> valid v.
Proof.
  intros s [a b c d] H. apply version_from_str_spec in H.
  unfold valid, components. cbn [v0 v1 v2 v3].
  assert (Z : 0 < 256) by reflexivity.
  destruct H as [[_ E]|(ta & tb & tc & [A _] & [B _] & [C _] & X)].
  - injection E as -> -> -> ->. repeat (apply Forall_cons; [exact Z|]). constructor.
  - cbn [v0 v1 v2 v3] in *. destruct X as [[_ ->]|(td & [D _] & _)];
      repeat (apply Forall_cons; [assumption|]); constructor.
Qed.
Print Assumptions C50_parse_valid.

Theorem C50_packing : (forall v, valid v -> as_u32 v < 2 ^ 32 /\ from_u32 (as_u32 v) = v) /\
  (forall x, x < 2 ^ 32 -> valid (from_u32 x) /\ as_u32 (from_u32 x) = x).
Proof.
  split.
  - intros v V. split; [|apply u32_roundtrip, V]. destruct v as [a b c d].
    unfold as_u32. cbn [v0 v1 v2 v3].
    apply (rval_bound 256 (rev [a; b; c; d])). apply Forall_rev, V.
  - intros x L. destruct (u32_roundtrip' x L). auto.
Qed.
Print Assumptions C50_packing.

(* Comparison is the lexicographic order of the four components, a total order. *)
Theorem C50_comparison : forall v w,
  (version_cmp v w = Lt <-> lex_lt (components v) (components w)) /\
  (version_cmp v w = Eq <-> v = w) /\
  (version_cmp v w = Gt <-> lex_lt (components w) (components v)).
Proof.
  intros v w. split; [apply cmp_lt|]. split; [apply cmp_eq|].
  rewrite <- cmp_lt, (cmp_antisym v w). destruct (version_cmp v w); simpl; split; congruence.
Qed.
Print Assumptions C50_comparison.

(* The packed integer must not be used for ordering: it inverts versions. *)
Theorem C50_packed_order_refuted : exists v w, valid v /\ valid w /\
  version_cmp v w = Lt /\ as_u32 w < as_u32 v.
Proof.
  exists (Version 0 13 2 0), (Version 0 14 0 0).
  repeat match goal with |- _ /\ _ => split end; try (vm_compute; reflexivity);
  unfold valid, components; cbn [v0 v1 v2 v3]; repeat (apply Forall_cons; [reflexivity|]); constructor.
Qed.
Print Assumptions C50_packed_order_refuted.

Example C50_example :
  version_to_string (Version 0 13 2 0) = text "0.13.2" /\
  version_to_string (Version 0 13 1 1) = text "0.13.1.1" /\
  version_to_string (Version 0 0 0 0) = [] /\
  version_from_str (text "0.13.1.1") = Some (Version 0 13 1 1) /\
  version_from_str (text "0.13") = None /\ version_from_str (text "0.256.1") = None /\
  version_from_str (text "0..1") = None /\
  version_from_str (text "+0.013.2") = Some (Version 0 13 2 0) /\
  version_cmp (Version 0 13 1 1) (Version 0 13 2 0) = Lt.
Proof. repeat match goal with |- _ /\ _ => split end; vm_compute; reflexivity. Qed.

(* ---- C51 ---- *)

(* For versions below 2^128 the flag is lossless, observable and idempotent. *)
Theorem C51_lossless : forall f n, denotes f n -> n < 2 ^ 128 ->
  without_query_version f = n /\ has_query_version f = false /\
  exists g, with_query_version f = Some g /\ denotes g (n + 2 ^ 128) /\
    without_query_version g = n /\ has_query_version g = true /\
    with_query_version g = Some g /\
    with_query_only g false = Some f /\ with_query_only f false = Some f.
Proof.
  intros f n (C & E) L. pose proof C as (LF & DF & VF).
  assert (TB : forall m, m < 2 ^ 128 -> N.testbit m 128 = false).
  { intros m B. rewrite N.testbit_odd, N.shiftr_div_pow2, N.div_small by exact B. reflexivity. }
  assert (TB' : forall m, m < 2 ^ 128 -> N.testbit (m + 2 ^ 128) 128 = true).
  { intros m B. rewrite N.testbit_odd, N.shiftr_div_pow2.
    replace (m + 2 ^ 128) with (m + 1 * 2 ^ 128) by lia.
    rewrite N.div_add by (vm_compute; discriminate). rewrite N.div_small by exact B. reflexivity. }
  split; [rewrite without_value by auto; rewrite E; apply N.mod_small, L|].
  split; [rewrite has_query_value by auto; rewrite E; apply TB, L|].
  pose proof (with_query_value f C) as W. cbv zeta in W. rewrite E, TB in W by exact L.
  assert (PB : n + QUERY_BASE < P).
  { unfold QUERY_BASE. assert (2 ^ 128 + 2 ^ 128 < P) by (vm_compute; reflexivity). lia. }
  destruct (with_query_version f) as [g|] eqn:EW; [|lia].
  exists g. split; [reflexivity|]. split; [exact W|].
  destruct W as (CG & EG). pose proof CG as (LG & DG & VG). unfold QUERY_BASE in EG.
  assert (WG : without_query_version g = n).
  { rewrite without_value by auto. rewrite EG. replace (n + 2 ^ 128) with (n + 1 * 2 ^ 128) by lia.
    rewrite N.mod_add by (vm_compute; discriminate). apply N.mod_small, L. }
  split; [exact WG|]. split; [rewrite has_query_value by auto; rewrite EG; apply TB', L|].
  assert (BACK : from_u128 n = Some f).
  { destruct (from_uint_spec 16 n ltac:(lia) L) as (h & EH & DH). unfold from_u128. rewrite EH.
    f_equal. eapply denotes_inj; [exact DH|split; auto]. }
  split; [|split].
  - pose proof (with_query_value g CG) as W. cbv zeta in W. rewrite EG, TB' in W by exact L.
    destruct (with_query_version g) as [h|].
    + f_equal. eapply denotes_inj; [exact W|split; auto].
    + unfold QUERY_BASE in PB. lia.
  - unfold with_query_only. rewrite WG. exact BACK.
  - unfold with_query_only. rewrite without_value by auto. rewrite E, N.mod_small by exact L. exact BACK.
Qed.
Print Assumptions C51_lossless.

(* For every felt: setting the flag sets bit 128 of the number and nothing else,
   unless that number is not a felt, which happens for the largest felt only. *)
Theorem C51_every_felt : forall f n, denotes f n ->
  has_query_version f = N.testbit n 128 /\ without_query_version f = n mod 2 ^ 128 /\
  (n <> P - 1 -> exists g, with_query_version f = Some g /\ denotes g (N.setbit n 128)) /\
  (n = P - 1 -> with_query_version f = None).
Proof.
  intros f n (C & E). pose proof C as (LF & DF & VF).
  split; [rewrite has_query_value by auto; rewrite E; reflexivity|].
  split; [rewrite without_value by auto; rewrite E; reflexivity|].
  pose proof (with_query_value f C) as W. cbv zeta in W. rewrite E in W.
  assert (SB : (if N.testbit n 128 then n else n + QUERY_BASE) = N.setbit n 128).
  { rewrite N.setbit_spec'. unfold QUERY_BASE. destruct (N.testbit n 128) eqn:T.
    - apply N.bits_inj. intros i. rewrite N.lor_spec, N.pow2_bits_eqb.
      destruct (N.eqb_spec 128 i) as [<-|]; [rewrite T; reflexivity|rewrite orb_false_r; reflexivity].
    - rewrite <- N.lxor_lor, <- N.add_nocarry_lxor; [reflexivity| |];
        apply N.bits_inj; intros i; rewrite N.land_spec, N.pow2_bits_eqb, N.bits_0;
        destruct (N.eqb_spec 128 i) as [<-|]; [rewrite T; reflexivity|apply andb_false_r|
          rewrite T; reflexivity|apply andb_false_r]. }
  split.
  - intros NE. destruct (with_query_version f) as [g|].
    + exists g. split; [reflexivity|]. rewrite <- SB. exact W.
    + exfalso. destruct (N.testbit n 128) eqn:T; [lia|]. apply NE.
      apply (query_overflow n); auto. lia.
  - intros ->. destruct (with_query_version f) as [g|]; [|reflexivity]. exfalso.
    destruct W as ((_ & _ & V) & EV).
    change (N.testbit (P - 1) 128) with false in EV. cbn iota in EV. rewrite EV in V.
    vm_compute in V. discriminate.
Qed.
Print Assumptions C51_every_felt.

Theorem C51_is_zero : forall f n, denotes f n -> (tv_is_zero f = true <-> n mod 2 ^ 128 = 0).
Proof.
  intros f n ((L & D & V) & E). unfold tv_is_zero. rewrite without_value by auto. rewrite E.
  apply N.eqb_eq.
Qed.
Print Assumptions C51_is_zero.

(* Setting the flag is not total: the felt p - 1 panics. *)
Theorem C51_total_refuted : exists f, canonical f /\ with_query_version f = None.
Proof.
  exists (rdigits 256 32 (P - 1)). split; [|vm_compute; reflexivity].
  split; [reflexivity|]. split; [apply rdigits_lt; lia|].
  rewrite be_value_rval, rval_rdigits; [vm_compute; reflexivity|lia|vm_compute; reflexivity].
Qed.
Print Assumptions C51_total_refuted.

Example C51_example :
  with_query_version (repeat 0 31 ++ [3]) = Some (repeat 0 15 ++ [1] ++ repeat 0 15 ++ [3]) /\
  has_query_version (repeat 0 15 ++ [1] ++ repeat 0 15 ++ [3]) = true /\
  without_query_version (repeat 0 15 ++ [1] ++ repeat 0 15 ++ [3]) = 3 /\
  with_query_only (repeat 0 15 ++ [1] ++ repeat 0 15 ++ [3]) false = Some (repeat 0 31 ++ [3]).
Proof. repeat match goal with |- _ /\ _ => split end; vm_compute; reflexivity. Qed.
