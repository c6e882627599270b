(* Proofs about versions. *)
From Coq Require Import List Arith NArith Lia ZifyBool ZifyNat ZifyN Bool.
From Verif Require Import Radix FeltModel FeltSpec FeltProof VersionModel VersionSpec.
Import ListNotations.
Local Open Scope N_scope.

(* ---- packing ---- *)

Lemma u32_roundtrip : forall v, valid v -> from_u32 (as_u32 v) = v.
Proof.
  intros [a b c d] V. unfold valid, components in V. cbn [v0 v1 v2 v3] in V.
  unfold from_u32, as_u32. cbn [v0 v1 v2 v3].
  assert (E : rdigits 256 4 (rval 256 (rev [a; b; c; d])) = rev [a; b; c; d]).
  { apply (rdigits_rval 256 (rev [a; b; c; d])); [lia|]. apply Forall_rev, V. }
  rewrite E, rev_involutive. reflexivity.
Qed.

Lemma u32_roundtrip' : forall x, x < 2 ^ 32 -> as_u32 (from_u32 x) = x /\ valid (from_u32 x).
Proof.
  intros x L. pose proof (rdigits_length 256 4 x) as LL.
  pose proof (rval_rdigits 256 4 x ltac:(lia) L) as V.
  pose proof (rdigits_lt 256 4 x ltac:(lia)) as D.
  unfold from_u32. destruct (rdigits 256 4 x) as [|d [|c [|b [|a [|? ?]]]]]; try discriminate.
  cbn [rev app]. unfold as_u32, valid, components. cbn [v0 v1 v2 v3 rev app]. split; [exact V|].
  inversion D as [|? ? D1 D']; subst. inversion D' as [|? ? D2 D'']; subst.
  inversion D'' as [|? ? D3 D3']; subst. inversion D3' as [|? ? D4 D4']; subst.
  repeat constructor; assumption.
Qed.

(* ---- comparison ---- *)

Lemma cmp_lt : forall v w, version_cmp v w = Lt <-> lex_lt (components v) (components w).
Proof.
  intros [a b c d] [a' b' c' d']. unfold version_cmp, components. cbn [v0 v1 v2 v3].
  split.
  - destruct (N.compare_spec a a') as [->|L|L]; cbn [then_cmp]; intros H; try discriminate;
      [apply lex_next|apply lex_here; auto].
    destruct (N.compare_spec b b') as [->|L|L]; cbn [then_cmp] in H; try discriminate;
      [apply lex_next|apply lex_here; auto].
    destruct (N.compare_spec c c') as [->|L|L]; cbn [then_cmp] in H; try discriminate;
      [apply lex_next|apply lex_here; auto].
    destruct (N.compare_spec d d') as [->|L|L]; try discriminate. apply lex_here. auto.
  - intros H.
    assert (STEP : forall x y a b, lex_lt (x :: a) (y :: b) -> x < y \/ x = y /\ lex_lt a b).
    { intros x y l m X. inversion X; subst; auto. }
    assert (NIL : ~ lex_lt [] []) by (intros X; inversion X).
    apply STEP in H. destruct H as [L|[-> H]].
    { rewrite (proj2 (N.compare_lt_iff _ _) L). reflexivity. }
    rewrite N.compare_refl. cbn [then_cmp].
    apply STEP in H. destruct H as [L|[-> H]].
    { rewrite (proj2 (N.compare_lt_iff _ _) L). reflexivity. }
    rewrite N.compare_refl. cbn [then_cmp].
    apply STEP in H. destruct H as [L|[-> H]].
    { rewrite (proj2 (N.compare_lt_iff _ _) L). reflexivity. }
    rewrite N.compare_refl. cbn [then_cmp].
    apply STEP in H. destruct H as [L|[-> H]]; [|easy].
    apply N.compare_lt_iff, L.
Qed.

Lemma cmp_eq : forall v w, version_cmp v w = Eq <-> v = w.
Proof.
  intros [a b c d] [a' b' c' d']. unfold version_cmp. cbn [v0 v1 v2 v3]. split.
  - destruct (N.compare_spec a a') as [->|L|L]; cbn [then_cmp]; try discriminate.
    destruct (N.compare_spec b b') as [->|L|L]; cbn [then_cmp]; try discriminate.
    destruct (N.compare_spec c c') as [->|L|L]; cbn [then_cmp]; try discriminate.
    destruct (N.compare_spec d d') as [->|L|L]; try discriminate. reflexivity.
  - intros H. injection H as -> -> -> ->. rewrite !N.compare_refl. reflexivity.
Qed.

Lemma cmp_antisym : forall v w, version_cmp w v = CompOpp (version_cmp v w).
Proof.
  intros [a b c d] [a' b' c' d']. unfold version_cmp. cbn [v0 v1 v2 v3].
  rewrite (N.compare_antisym a a'), (N.compare_antisym b b'), (N.compare_antisym c c'),
    (N.compare_antisym d d').
  destruct (a ?= a'), (b ?= b'), (c ?= c'), (d ?= d'); reflexivity.
Qed.

(* ---- text ---- *)

Lemma split_dots_cons : forall s cur,
  exists p ps, split_dots s cur = p :: ps.
Proof.
  induction s as [|c s IH]; intros cur; simpl; eauto.
  destruct (c =? 46); eauto.
Qed.

Lemma split_dots_app : forall a s cur, ~ In 46 a ->
  split_dots (a ++ s) cur = split_dots s (cur ++ a).
Proof.
  induction a as [|c a IH]; intros s cur NI; simpl.
  - rewrite app_nil_r. reflexivity.
  - destruct (N.eqb_spec c 46) as [->|NE]; [destruct NI; left; reflexivity|].
    rewrite IH by (intros X; apply NI; right; exact X). rewrite <- app_assoc. reflexivity.
Qed.

Lemma split_dots_dot : forall s cur, split_dots (46 :: s) cur = cur :: split_dots s [].
Proof. reflexivity. Qed.

(* joining the parts gives the string back, and no part contains a dot *)
Fixpoint join (ps : list bytes) : bytes :=
  match ps with
  | [] => []
  | [p] => p
  | p :: ps' => p ++ 46 :: join ps'
  end.

Lemma split_dots_join : forall s cur, join (split_dots s cur) = cur ++ s.
Proof.
  induction s as [|c s IH]; intros cur; simpl.
  - rewrite app_nil_r. reflexivity.
  - destruct (N.eqb_spec c 46) as [->|NE].
    + specialize (IH []). destruct (split_dots_cons s []) as (p & ps & E). rewrite E in *.
      change (cur ++ 46 :: join (p :: ps) = cur ++ 46 :: s). rewrite IH. reflexivity.
    + rewrite IH, <- app_assoc. reflexivity.
Qed.

(* values *)
Lemma u8_digits_ok : forall s acc n, acc <= 255 ->
  (u8_digits s acc = Some n <->
   exists ds, map (fun d => 48 + d) ds = s /\ digits_lt 10 ds /\
     n = acc * 10 ^ N.of_nat (length ds) + rval 10 ds /\ n <= 255).
Proof.
  induction s as [|c s IH]; intros acc n A; cbn [u8_digits].
  - split.
    + intros H. injection H as <-. exists []. simpl. rewrite N.mul_1_r, rval_nil, N.add_0_r.
      repeat split; auto. constructor.
    + intros (ds & M & _ & -> & _). destruct ds; [|discriminate]. f_equal. simpl length.
      change (10 ^ N.of_nat 0) with 1. rewrite rval_nil. lia.
  - split.
    + destruct ((48 <=? c) && (c <=? 57)) eqn:R; [|discriminate].
      destruct (N.leb_spec (acc * 10 + (c - 48)) 255) as [B|B]; [|discriminate].
      intros H. apply IH in H; auto. destruct H as (ds & <- & D & -> & L).
      exists (c - 48 :: ds). cbn [map length]. split; [f_equal; lia|].
      split; [constructor; [lia|auto]|]. split; [|exact L].
      rewrite rval_cons. replace (N.of_nat (S (length ds))) with (N.succ (N.of_nat (length ds))) by lia.
      rewrite N.pow_succ_r'. lia.
    + intros (ds & M & D & E & L). destruct ds as [|d ds]; [discriminate|].
      cbn [map] in M.
      assert (EC : 48 + d = c) by exact (f_equal (hd 0) M).
      assert (ET : map (fun d : N => 48 + d) ds = s) by exact (f_equal (@tl N) M). clear M. subst c.
      apply Forall_cons_iff in D; destruct D as [Dd Ds].
      replace ((48 <=? 48 + d) && (48 + d <=? 57)) with true by lia.
      replace (48 + d - 48) with d by lia.
      cbn [length] in E. rewrite rval_cons in E.
      replace (N.of_nat (S (length ds))) with (N.succ (N.of_nat (length ds))) in E by lia.
      rewrite N.pow_succ_r' in E.
      assert (PW : 10 ^ N.of_nat (length ds) <> 0) by (apply N.pow_nonzero; lia).
      destruct (N.leb_spec (acc * 10 + d) 255) as [B|B].
      * apply IH; auto. exists ds. split; [exact ET|]. split; [exact Ds|]. split; [|exact L]. lia.
      * exfalso. set (W := 10 ^ N.of_nat (length ds)) in *. nia.
Qed.

Lemma plain_dec_digits : forall s n,
  plain_dec s n <-> s <> [] /\ exists ds, map (fun d => 48 + d) ds = s /\ digits_lt 10 ds /\ n = rval 10 ds.
Proof.
  intros s n. split.
  - intros H. induction H as [d D|s n d H (NE & ds & <- & DL & ->) D].
    + split; [discriminate|]. exists [d]. rewrite rval_one. repeat split. constructor; [exact D|constructor].
    + split; [destruct (map (fun d => 48 + d) ds); discriminate|].
      exists (ds ++ [d]). rewrite map_app, rval_snoc. split; [reflexivity|]. split; [|lia].
      apply Forall_app. split; auto.
  - intros (NE & ds & <- & D & ->). revert NE D.
    induction ds as [|d ds IH] using rev_ind; intros NE D; [easy|].
    apply Forall_app in D. destruct D as [D1 D2]. inversion D2; subst.
    rewrite map_app, rval_snoc. cbn [map]. rewrite N.mul_comm.
    destruct ds as [|d0 ds].
    + simpl app. rewrite rval_nil, N.mul_0_r, N.add_0_l. constructor. auto.
    + apply plain_snoc; auto. apply IH; auto. discriminate.
Qed.

Lemma u8_digits_plain : forall s n, s <> [] ->
  (u8_digits s 0 = Some n <-> n < 256 /\ plain_dec s n).
Proof.
  intros s n NE. rewrite u8_digits_ok by lia. rewrite plain_dec_digits. split.
  - intros (ds & M & D & E & L). rewrite N.mul_0_l, N.add_0_l in E. split; [lia|]. split; auto.
    exists ds. auto.
  - intros (L & _ & ds & M & D & E). exists ds. rewrite N.mul_0_l, N.add_0_l.
    repeat split; auto. lia.
Qed.

Lemma plain_dec_chars : forall s n, plain_dec s n -> forall c, In c s -> 48 <= c <= 57.
Proof.
  intros s n H. induction H as [d D|s n d H IH D]; intros c I.
  - destruct I as [<-|[]]. lia.
  - apply in_app_or in I. destruct I as [I|[<-|[]]]; [auto|lia].
Qed.

Lemma plain_dec_nonempty : forall s n, plain_dec s n -> s <> [].
Proof. intros s n H. destruct H; [discriminate|]. destruct s; discriminate. Qed.

Lemma parse_u8_spec : forall s n, parse_u8 s = Some n <-> component_text s n.
Proof.
  intros s n. unfold parse_u8, component_text. destruct s as [|c t].
  - split; [discriminate|]. intros [_ [H|(t & E & _)]]; [|discriminate].
    apply plain_dec_nonempty in H. congruence.
  - destruct (N.eqb_spec c 43) as [->|NE].
    + destruct t as [|c1 t].
      * split; [discriminate|]. intros [_ [H|(t & E & H)]].
        -- pose proof (plain_dec_chars _ _ H 43 ltac:(left; reflexivity)). lia.
        -- injection E as <-. apply plain_dec_nonempty in H. congruence.
      * rewrite u8_digits_plain by discriminate. split.
        -- intros [L H]. split; auto. right. exists (c1 :: t). auto.
        -- intros [L [H|(t' & E & H)]].
           ++ pose proof (plain_dec_chars _ _ H 43 ltac:(left; reflexivity)). lia.
           ++ injection E as <-. auto.
    + rewrite u8_digits_plain by discriminate. split; [tauto|].
      intros [L [H|(t' & E & H)]]; auto. injection E as E _. congruence.
Qed.

Lemma component_no_dot : forall s n, component_text s n -> ~ In 46 s.
Proof.
  intros s n [_ [H|(t & -> & H)]] I.
  - pose proof (plain_dec_chars _ _ H _ I). lia.
  - change (text "+" ++ t) with (43 :: t) in I. destruct I as [I|I]; [lia|].
    pose proof (plain_dec_chars _ _ H _ I). lia.
Qed.

Lemma component_nonempty : forall s n, component_text s n -> s <> [].
Proof.
  intros s n [_ [H|(t & -> & H)]]; [apply plain_dec_nonempty in H; auto|discriminate].
Qed.

Lemma version_from_str_spec : forall s v, version_from_str s = Some v <-> version_text s v.
Proof.
  intros s v. unfold version_text. destruct s as [|c0 s0] eqn:ES.
  - cbn [version_from_str]. split.
    + intros H. injection H as <-. auto.
    + intros [[_ ->]|(a & b & c & A & _ & _ & [[X _]|(d & _ & X)])]; auto;
        apply component_nonempty in A; destruct a; easy.
  - assert (EQ : version_from_str s =
      match split_dots s [] with
      | [pa; pb; pc] =>
          match parse_u8 pa, parse_u8 pb, parse_u8 pc with
          | Some a, Some b, Some c => Some (Version a b c 0)
          | _, _, _ => None
          end
      | [pa; pb; pc; pd] =>
          match parse_u8 pa, parse_u8 pb, parse_u8 pc, parse_u8 pd with
          | Some a, Some b, Some c, Some d => Some (Version a b c d)
          | _, _, _, _ => None
          end
      | _ => None
      end) by (rewrite ES; reflexivity).
    rewrite <- ES, EQ. clear EQ.
    pose proof (split_dots_join s []) as J. cbn [app] in J.
    split.
    + intros H. right.
      destruct (split_dots s []) as [|pa [|pb [|pc [|pd [|? ?]]]]]; try discriminate.
      * destruct (parse_u8 pa) as [a|] eqn:EA; [|discriminate].
        destruct (parse_u8 pb) as [b|] eqn:EB; [|discriminate].
        destruct (parse_u8 pc) as [c|] eqn:EC; [|discriminate]. injection H as <-.
        exists pa, pb, pc. cbn [v0 v1 v2 v3].
        rewrite <- !parse_u8_spec. repeat split; auto.
      * destruct (parse_u8 pa) as [a|] eqn:EA; [|discriminate].
        destruct (parse_u8 pb) as [b|] eqn:EB; [|discriminate].
        destruct (parse_u8 pc) as [c|] eqn:EC; [|discriminate].
        destruct (parse_u8 pd) as [d|] eqn:ED; [|discriminate]. injection H as <-.
        exists pa, pb, pc. cbn [v0 v1 v2 v3].
        split; [apply parse_u8_spec, EA|]. split; [apply parse_u8_spec, EB|].
        split; [apply parse_u8_spec, EC|]. right.
        exists pd. split; [apply parse_u8_spec, ED|]. symmetry. exact J.
    + intros [[X _]|(a & b & c & A & B & C & X)]; [congruence|].
      destruct v as [x0 x1 x2 x3]. cbn [v0 v1 v2 v3] in *.
      pose proof (component_no_dot _ _ A). pose proof (component_no_dot _ _ B).
      pose proof (component_no_dot _ _ C).
      destruct X as [[-> ->]|(d & D & ->)].
      * rewrite split_dots_app by auto. change (text "." ++ b ++ text "." ++ c) with (46 :: b ++ text "." ++ c).
        rewrite split_dots_dot, split_dots_app by auto.
        change (text "." ++ c) with (46 :: c). rewrite split_dots_dot.
        rewrite <- (app_nil_r c), split_dots_app by auto. cbn [app split_dots].
        apply parse_u8_spec in A. apply parse_u8_spec in B. apply parse_u8_spec in C.
        rewrite A, B, C. reflexivity.
      * pose proof (component_no_dot _ _ D).
        rewrite split_dots_app by auto.
        change (text "." ++ b ++ text "." ++ c ++ text "." ++ d) with (46 :: b ++ text "." ++ c ++ text "." ++ d).
        rewrite split_dots_dot, split_dots_app by auto.
        change (text "." ++ c ++ text "." ++ d) with (46 :: c ++ text "." ++ d).
        rewrite split_dots_dot, split_dots_app by auto.
        change (text "." ++ d) with (46 :: d). rewrite split_dots_dot.
        rewrite <- (app_nil_r d), split_dots_app by auto. cbn [app split_dots].
        apply parse_u8_spec in A. apply parse_u8_spec in B. apply parse_u8_spec in C.
        apply parse_u8_spec in D. rewrite A, B, C, D. reflexivity.
Qed.

Lemma show_u8_spec : forall n, n < 256 -> component_text (show_u8 n) n.
Proof.
  intros n L. split; auto. left. apply plain_dec_digits. unfold show_u8.
  destruct (min_digits_spec 10 n) as (V & D & NE & _); [lia|].
  split; [destruct (min_digits 10 n); easy|]. exists (min_digits 10 n). auto.
Qed.

Lemma to_string_spec : forall v, valid v -> version_text (version_to_string v) v.
Proof.
  intros [a b c d] V. unfold valid, components in V. cbn [v0 v1 v2 v3] in V.
  repeat match goal with H : Forall _ (_ :: _) |- _ => apply Forall_cons_iff in H; destruct H as [? H] end.
  unfold version_to_string. cbn [v0 v1 v2 v3].
  destruct ((a =? 0) && (b =? 0) && (c =? 0) && (d =? 0)) eqn:Z.
  - left. split; auto. f_equal; lia.
  - right. exists (show_u8 a), (show_u8 b), (show_u8 c). cbn [v0 v1 v2 v3].
    do 3 (split; [apply show_u8_spec; auto|]).
    destruct (N.eqb_spec d 0) as [->|NE]; [left; auto|].
    right. exists (show_u8 d). split; [apply show_u8_spec; auto|reflexivity].
Qed.

Lemma version_text_fun : forall s v w, version_text s v -> version_text s w -> v = w.
Proof.
  intros s v w H1 H2. apply version_from_str_spec in H1. apply version_from_str_spec in H2. congruence.
Qed.

(* ---- query flag ---- *)

Lemma split16 : forall f : felt, length f = 32%nat ->
  exists hi x lo, f = hi ++ x :: lo /\ length hi = 15%nat /\ length lo = 16%nat.
Proof.
  intros f L. exists (firstn 15 f), (nth 15 f 0), (skipn 16 f).
  split; [|rewrite firstn_length, skipn_length; lia].
  do 32 (destruct f as [|? f]; [discriminate L|]). destruct f; [|discriminate L]. reflexivity.
Qed.

Lemma value_split : forall (hi lo : bytes) x, length lo = 16%nat ->
  rval 256 (hi ++ x :: lo) = (rval 256 hi * 256 + x) * 2 ^ 128 + rval 256 lo.
Proof.
  intros hi lo x L. rewrite rval_app, rval_cons. cbn [length]. rewrite L.
  change (256 ^ N.of_nat 17) with (256 * 2 ^ 128). change (256 ^ N.of_nat 16) with (2 ^ 128). lia.
Qed.

Lemma lor_1 : forall x, x < 256 -> N.lor x 1 = x + (1 - x mod 2) /\ N.lor x 1 < 256.
Proof.
  intros x L.
  assert (X : ((N.lor x 1 =? x + (1 - x mod 2)) && (N.lor x 1 <? 256)) = true).
  { apply (below_all (fun x => (N.lor x 1 =? x + (1 - x mod 2)) && (N.lor x 1 <? 256)) 256);
      [vm_compute; reflexivity|exact L]. }
  lia.
Qed.

Lemma bit128 : forall h x l, l < 2 ^ 128 ->
  N.testbit ((h * 256 + x) * 2 ^ 128 + l) 128 = N.odd x.
Proof.
  intros h x l L. rewrite N.testbit_odd, N.shiftr_div_pow2.
  rewrite N.div_add_l by (vm_compute; discriminate). rewrite N.div_small, N.add_0_r by exact L.
  rewrite N.odd_add, N.odd_mul. simpl N.odd at 2. rewrite andb_false_r. apply xorb_false_l.
Qed.

Lemma with_query_value : forall f, canonical f ->
  let n := be_value f in
  let m := if N.testbit n 128 then n else n + QUERY_BASE in
  match with_query_version f with
  | Some g => denotes g m
  | None => P <= m
  end.
Proof.
  intros f (L & D & V) n m. destruct (split16 f L) as (hi & x & lo & E & LH & LL).
  assert (DS : is_bytes hi /\ x < 256 /\ is_bytes lo).
  { unfold is_bytes in *. rewrite E in D. apply Forall_app in D. destruct D as [D1 D2].
    apply Forall_cons_iff in D2. tauto. }
  destruct DS as (DH & DX & DL).
  destruct (lor_1 x DX) as [LX BX].
  unfold with_query_version.
  assert (E15 : nth 15 f 0 = x) by (rewrite E; apply nth_mid; auto).
  rewrite E15, E, set_nth_mid by auto.
  assert (LLO : rval 256 lo < 2 ^ 128).
  { pose proof (rval_bound 256 lo DL) as B. rewrite LL in B. exact B. }
  assert (M : rval 256 (hi ++ N.lor x 1 :: lo) = m).
  { unfold m, n. rewrite be_value_rval, E, !value_split, bit128 by auto. rewrite LX.
    unfold QUERY_BASE. pose proof (N.div_mod x 2 ltac:(lia)) as DM.
    assert (O : N.odd x = (x mod 2 =? 1)).
    { rewrite <- N.bit0_mod. destruct (N.odd x) eqn:OX; rewrite N.bit0_odd, OX; reflexivity. }
    rewrite O. assert (x mod 2 < 2) by (apply N.mod_lt; lia).
    destruct (N.eqb_spec (x mod 2) 1) as [X|X]; [rewrite X; lia|].
    replace (x mod 2) with 0 by lia. lia. }
  assert (LN : length (hi ++ N.lor x 1 :: lo) = 32%nat) by (rewrite app_length; cbn [length]; lia).
  assert (DN : is_bytes (hi ++ N.lor x 1 :: lo)).
  { apply Forall_app. split; [auto|]. apply Forall_cons_iff. auto. }
  rewrite from_be_bytes_spec, M by auto.
  destruct (N.ltb_spec m P); [|lia].
  unfold denotes, canonical. rewrite be_value_rval, M. auto.
Qed.

Lemma without_value : forall f, length f = 32%nat -> is_bytes f ->
  without_query_version f = be_value f mod 2 ^ 128.
Proof.
  intros f L D. destruct (split16 f L) as (hi & x & lo & E & LH & LL).
  unfold without_query_version. rewrite be_value_rval, E, value_split by auto.
  rewrite N.add_comm, N.mod_add by (vm_compute; discriminate).
  rewrite skipn_app, LH. rewrite skipn_all2 by lia.
  change (skipn (16 - 15) (x :: lo)) with lo. cbn [app]. symmetry. apply N.mod_small.
  assert (DL : digits_lt 256 lo).
  { unfold is_bytes in D. rewrite E in D. apply Forall_app in D. destruct D as [_ D2].
    apply Forall_cons_iff in D2. tauto. }
  pose proof (rval_bound 256 lo DL) as B. rewrite LL in B. exact B.
Qed.

Lemma has_query_value : forall f, length f = 32%nat -> is_bytes f ->
  has_query_version f = N.testbit (be_value f) 128.
Proof.
  intros f L D. destruct (split16 f L) as (hi & x & lo & E & LH & LL).
  assert (DL : digits_lt 256 lo).
  { unfold is_bytes in D. rewrite E in D. apply Forall_app in D. destruct D as [_ D2].
    apply Forall_cons_iff in D2. tauto. }
  pose proof (rval_bound 256 lo DL) as B. rewrite LL in B.
  rewrite be_value_rval, E, value_split, bit128 by auto. unfold has_query_version.
  rewrite (nth_mid hi lo x 15) by auto.
  change 1 with (N.ones 1). rewrite N.land_ones. change (2 ^ 1) with 2.
  rewrite <- N.bit0_mod, N.bit0_odd. destruct (N.odd x); reflexivity.
Qed.

(* the largest felt is the only one that cannot carry the flag *)
Lemma query_overflow : forall n, n < P -> N.testbit n 128 = false -> P <= n + QUERY_BASE -> n = P - 1.
Proof.
  intros n L T G. unfold QUERY_BASE in G.
  assert (B : P = 2 ^ 251 + 17 * 2 ^ 192 + 1) by reflexivity.
  destruct (N.lt_ge_cases n (2 ^ 251 + 17 * 2 ^ 192)) as [H|H]; [|lia]. exfalso.
  (* n / 2^128 = 2^123 + 17*2^64 - 1, which is odd *)
  assert (Q : n / 2 ^ 128 = 2 ^ 123 + 17 * 2 ^ 64 - 1).
  { symmetry. apply (N.div_unique n (2 ^ 128) _ (n - 2 ^ 128 * (2 ^ 123 + 17 * 2 ^ 64 - 1))).
    - change (2 ^ 128 * (2 ^ 123 + 17 * 2 ^ 64 - 1)) with (2 ^ 251 + 17 * 2 ^ 192 - 2 ^ 128).
      change (2 ^ 251 + 17 * 2 ^ 192) with (2 ^ 251 + 17 * 2 ^ 192) in *.
      assert (2 ^ 128 < 2 ^ 192) by (vm_compute; reflexivity). lia.
    - change (2 ^ 128 * (2 ^ 123 + 17 * 2 ^ 64 - 1)) with (2 ^ 251 + 17 * 2 ^ 192 - 2 ^ 128). lia. }
  rewrite N.testbit_odd, N.shiftr_div_pow2, Q in T. vm_compute in T. discriminate.
Qed.
