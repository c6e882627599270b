(* Positional notation: big-endian digit lists in base b and their values.
   Used by the felt, version and token codecs; models nothing by itself. *)
From Coq Require Import List Arith NArith Lia ZifyBool ZifyNat ZifyN.
From Coq Require String Ascii.
Export Coq.Strings.String.StringSyntax.
Import ListNotations.
Local Open Scope N_scope.

(* Value of a big-endian digit list. *)
Definition rval (b : N) (l : list N) : N := fold_left (fun acc d => acc * b + d) l 0.

(* [len] big-endian digits of n. *)
Fixpoint rdigits (b : N) (len : nat) (n : N) : list N :=
  match len with
  | O => []
  | S k => rdigits b k (n / b) ++ [n mod b]
  end.

(* Digits of n without leading zeros ([0] for zero). *)
Fixpoint min_digits_fuel (b : N) (fuel : nat) (n : N) (acc : list N) : list N :=
  match fuel with
  | O => n :: acc
  | S f => if n <? b then n :: acc else min_digits_fuel b f (n / b) (n mod b :: acc)
  end.
Definition min_digits (b n : N) : list N := min_digits_fuel b (N.size_nat n) n [].

(* ASCII text as a list of byte values, for readable literals. *)
Definition text (s : String.string) : list N :=
  map Ascii.N_of_ascii (String.list_ascii_of_string s).
Arguments text s%string_scope.

Definition digits_lt (b : N) (l : list N) : Prop := Forall (fun d => d < b) l.

(* ---- lemmas ---- *)

Lemma rval_nil : forall b, rval b [] = 0.
Proof. reflexivity. Qed.

Lemma rval_snoc : forall b l d, rval b (l ++ [d]) = rval b l * b + d.
Proof. intros. unfold rval. rewrite fold_left_app. reflexivity. Qed.

Lemma rval_app : forall b l2 l1,
  rval b (l1 ++ l2) = rval b l1 * b ^ N.of_nat (length l2) + rval b l2.
Proof.
  intros b l2. induction l2 as [|d l2 IH] using rev_ind; intros l1.
  - rewrite app_nil_r. rewrite rval_nil. simpl length. rewrite N.pow_0_r. lia.
  - rewrite app_assoc, !rval_snoc, IH. rewrite app_length. simpl length.
    replace (N.of_nat (length l2 + 1)) with (N.succ (N.of_nat (length l2))) by lia.
    rewrite N.pow_succ_r'. lia.
Qed.

Lemma rval_cons : forall b d l, rval b (d :: l) = d * b ^ N.of_nat (length l) + rval b l.
Proof.
  intros. change (d :: l) with ([d] ++ l). rewrite rval_app. reflexivity.
Qed.

Lemma rval_one : forall b d, rval b [d] = d.
Proof. intros. unfold rval. simpl. reflexivity. Qed.

Lemma rval_zeros : forall b k l, rval b (repeat 0 k ++ l) = rval b l.
Proof.
  intros b k l. induction k as [|k IH]; [reflexivity|exact IH].
Qed.

Lemma rval_bound : forall b l, digits_lt b l -> rval b l < b ^ N.of_nat (length l).
Proof.
  intros b l. induction l as [|d l IH] using rev_ind; intros H.
  - rewrite rval_nil. reflexivity.
  - apply Forall_app in H. destruct H as [H1 H2]. inversion H2; subst.
    specialize (IH H1). rewrite rval_snoc, app_length. simpl length.
    replace (N.of_nat (length l + 1)) with (N.succ (N.of_nat (length l))) by lia.
    rewrite N.pow_succ_r'. nia.
Qed.

Lemma rdigits_length : forall b len n, length (rdigits b len n) = len.
Proof.
  intros b. induction len as [|k IH]; intros n; auto.
  simpl. rewrite app_length, IH. simpl. lia.
Qed.

Lemma rdigits_lt : forall b len n, 0 < b -> digits_lt b (rdigits b len n).
Proof.
  intros b len n B. revert n. induction len as [|k IH]; intros n; [constructor|].
  simpl. apply Forall_app. split; [apply IH|]. constructor; [|constructor].
  apply N.mod_lt. lia.
Qed.

Lemma rval_rdigits : forall b len n, 0 < b ->
  n < b ^ N.of_nat len -> rval b (rdigits b len n) = n.
Proof.
  intros b len n B. revert n. induction len as [|k IH]; intros n H.
  - change (b ^ N.of_nat 0) with 1 in H. simpl. rewrite rval_nil. lia.
  - simpl. rewrite rval_snoc, IH.
    + rewrite (N.div_mod n b) at 3 by lia. lia.
    + replace (N.of_nat (S k)) with (N.succ (N.of_nat k)) in H by lia.
      rewrite N.pow_succ_r' in H. apply N.div_lt_upper_bound; lia.
Qed.

Lemma rdigits_rval : forall b l, 0 < b -> digits_lt b l -> rdigits b (length l) (rval b l) = l.
Proof.
  intros b l B. induction l as [|d l IH] using rev_ind; intros H; auto.
  apply Forall_app in H. destruct H as [H1 H2]. inversion H2; subst.
  rewrite app_length, Nat.add_1_r. simpl. rewrite rval_snoc.
  rewrite N.div_add_l, N.div_small, N.add_0_r by lia.
  rewrite IH by auto. f_equal. f_equal.
  rewrite N.add_comm, N.mod_add by lia. apply N.mod_small. lia.
Qed.

Lemma rval_inj : forall b l1 l2, 0 < b -> digits_lt b l1 -> digits_lt b l2 ->
  length l1 = length l2 -> rval b l1 = rval b l2 -> l1 = l2.
Proof.
  intros b l1 l2 B H1 H2 L E.
  rewrite <- (rdigits_rval b l1), <- (rdigits_rval b l2), L, E by auto. reflexivity.
Qed.

Lemma rval_le_digits : forall b l, 1 <= b -> forall x, rval b (x :: l) < b ^ N.of_nat (length l) -> x = 0.
Proof.
  intros b l B x H. rewrite rval_cons in H.
  assert (b ^ N.of_nat (length l) <> 0) by (apply N.pow_nonzero; lia).
  destruct (N.eq_dec x 0); auto. nia.
Qed.

(* leading zeros from a value bound *)
Lemma rval_small_split : forall b k l, 0 < b -> digits_lt b l -> (k <= length l)%nat ->
  rval b l < b ^ N.of_nat k -> exists l', l = repeat 0 (length l - k) ++ l' /\ length l' = k.
Proof.
  intros b k l B. induction l as [|x l IH]; intros D K H.
  - exists []. simpl in *. split; auto. lia.
  - destruct (Nat.eq_dec k (S (length l))) as [->|NE].
    + exists (x :: l). simpl length. rewrite Nat.sub_diag. auto.
    + simpl in K. inversion D as [|? ? Dx Dl]; subst.
      assert (x = 0).
      { apply (rval_le_digits b l); [lia|].
        eapply N.lt_le_trans; [exact H|]. apply N.pow_le_mono_r; lia. }
      subst x. rewrite rval_cons in H.
      destruct (IH Dl ltac:(lia) ltac:(lia)) as (l' & E & L).
      exists l'. split; auto. simpl length.
      replace (S (length l) - k)%nat with (S (length l - k)) by lia. simpl. f_equal. exact E.
Qed.

(* regrouping digits *)
Definition split_digit (b d : N) : list N := [d / b; d mod b].

Lemma rval_split : forall b l, 0 < b ->
  rval b (flat_map (split_digit b) l) = rval (b * b) l.
Proof.
  intros b l B. induction l as [|d l IH] using rev_ind; auto.
  rewrite flat_map_app.
  change (flat_map (split_digit b) [d]) with ([d / b] ++ [d mod b]).
  rewrite app_assoc, !rval_snoc, IH.
  rewrite (N.div_mod d b) at 3 by lia. lia.
Qed.

Lemma split_digit_lt : forall b l, 0 < b -> digits_lt (b * b) l ->
  digits_lt b (flat_map (split_digit b) l).
Proof.
  intros b l B H. induction H as [|d l Hd H IH]; simpl; [constructor|].
  constructor; [apply N.div_lt_upper_bound; lia|]. constructor; auto. apply N.mod_lt. lia.
Qed.

Lemma split_length : forall b l, length (flat_map (split_digit b) l) = (2 * length l)%nat.
Proof. intros b l. induction l as [|d l IH]; auto. simpl. rewrite IH. lia. Qed.

(* canonical digits *)
Lemma min_digits_fuel_app : forall b f n acc,
  min_digits_fuel b f n acc = min_digits_fuel b f n [] ++ acc.
Proof.
  intros b. induction f as [|f IH]; intros n acc; simpl; auto.
  destruct (n <? b); auto. rewrite IH, (IH _ [_]), <- app_assoc. reflexivity.
Qed.

Lemma size_div_lt : forall b n, 2 <= b -> b <= n -> (N.size_nat (n / b) < N.size_nat n)%nat.
Proof.
  intros b n B H.
  assert (L : forall x y, x <= y -> (N.size_nat x <= N.size_nat y)%nat).
  { intros x y XY. destruct (N.eq_dec x 0) as [->|NX]; [simpl; lia|].
    assert (S1 : forall z, z <> 0 -> N.of_nat (N.size_nat z) = N.succ (N.log2 z)).
    { intros z NZ. rewrite <- N.size_log2 by auto. destruct z as [|p]; [easy|]. simpl.
      clear. induction p; simpl; try rewrite Pos.add_1_r in *; lia. }
    pose proof (S1 x NX). pose proof (S1 y ltac:(lia)). pose proof (N.log2_le_mono x y XY). lia. }
  assert (Q : n / b <= n / 2) by (apply N.div_le_compat_l; lia).
  specialize (L _ _ Q).
  assert (D : (N.size_nat (n / 2) < N.size_nat n)%nat).
  { rewrite <- N.div2_div. destruct n as [|p]; [lia|]. destruct p; simpl; lia. }
  lia.
Qed.

Lemma min_digits_fuel_spec : forall b f n, 2 <= b -> (N.size_nat n <= f)%nat ->
  let l := min_digits_fuel b f n [] in
  rval b l = n /\ digits_lt b l /\ l <> [] /\ (n <> 0 -> hd 0 l <> 0).
Proof.
  intros b. induction f as [|f IH]; intros n B S; simpl.
  - assert (n = 0) by (destruct n as [|p]; [auto|]; destruct p; simpl in S; lia). subst.
    rewrite rval_one. repeat split; try easy. constructor; [lia|constructor].
  - destruct (N.ltb_spec n b) as [L|L].
    + simpl. rewrite rval_one. repeat split; try easy. constructor; [lia|constructor].
    + rewrite min_digits_fuel_app.
      pose proof (size_div_lt b n B L).
      assert (0 < n / b) by (apply N.div_str_pos; lia).
      destruct (IH (n / b) B ltac:(lia)) as (V & D & NE & HD).
      rewrite rval_snoc, V. split; [|split; [|split]].
      * rewrite (N.div_mod n b) at 3 by lia. lia.
      * apply Forall_app. split; auto. constructor; [apply N.mod_lt; lia|constructor].
      * destruct (min_digits_fuel b f (n / b) []); easy.
      * intros _. destruct (min_digits_fuel b f (n / b) []); [easy|]. simpl in *. apply HD. lia.
Qed.

Lemma min_digits_spec : forall b n, 2 <= b ->
  rval b (min_digits b n) = n /\ digits_lt b (min_digits b n) /\ min_digits b n <> [] /\
  (n <> 0 -> hd 0 (min_digits b n) <> 0).
Proof. intros. apply min_digits_fuel_spec; auto. Qed.

Lemma min_digits_zero : forall b, 0 < b -> min_digits b 0 = [0].
Proof. intros b B. reflexivity. Qed.

Lemma rval_ge_head : forall b d l, 0 < b -> d <> 0 -> b ^ N.of_nat (length l) <= rval b (d :: l).
Proof.
  intros b d l B D. rewrite rval_cons.
  assert (b ^ N.of_nat (length l) <> 0) by (apply N.pow_nonzero; lia). nia.
Qed.

(* digit lists without leading zero are determined by their value *)
Lemma canonical_digits_inj : forall b l1 l2, 2 <= b -> digits_lt b l1 -> digits_lt b l2 ->
  hd 0 l1 <> 0 -> hd 0 l2 <> 0 -> rval b l1 = rval b l2 -> l1 = l2.
Proof.
  intros b l1 l2 B D1 D2 H1 H2 E.
  destruct l1 as [|d1 l1]; [easy|]. destruct l2 as [|d2 l2]; [easy|]. simpl in H1, H2.
  apply (rval_inj b); auto; [lia|]. simpl. f_equal.
  pose proof (rval_ge_head b d1 l1 ltac:(lia) H1) as G1.
  pose proof (rval_ge_head b d2 l2 ltac:(lia) H2) as G2.
  pose proof (rval_bound b _ D1) as U1. pose proof (rval_bound b _ D2) as U2.
  simpl length in U1, U2.
  destruct (Nat.lt_trichotomy (length l1) (length l2)) as [L|[L|L]]; auto; exfalso.
  - assert (b ^ N.of_nat (S (length l1)) <= b ^ N.of_nat (length l2)) by (apply N.pow_le_mono_r; lia). lia.
  - assert (b ^ N.of_nat (S (length l2)) <= b ^ N.of_nat (length l1)) by (apply N.pow_le_mono_r; lia). lia.
Qed.

Lemma min_digits_canonical : forall b l, 2 <= b -> digits_lt b l -> hd 0 l <> 0 ->
  min_digits b (rval b l) = l.
Proof.
  intros b l B D H. destruct (min_digits_spec b (rval b l) B) as (V & D2 & NE & HD).
  apply (canonical_digits_inj b); auto. apply HD.
  destruct l as [|d l]; [easy|]. simpl in H.
  pose proof (rval_ge_head b d l ltac:(lia) H).
  assert (b ^ N.of_nat (length l) <> 0) by (apply N.pow_nonzero; lia). lia.
Qed.
