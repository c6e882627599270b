From Coq Require Import List NArith Bool Lia ZifyBool ZifyN ZifyNat Permutation Sorted.
From Verif Require Import AList SortedMap ValidatorModel ValidatorSpec.
Import ListNotations.
Local Open Scope N_scope.

Local Notation keyed := (map (fun v : validator => (v_addr v, v))).

Lemma keyed_get_last l a v : al_get N.eqb a (rev (keyed l)) = Some v ->
  v_addr v = a /\ last_with_address l v.
Proof.
  induction l as [|x l IH] using rev_ind; [discriminate|].
  rewrite map_app, rev_app_distr. cbn [map rev app].
  rewrite bt_get_cons. destruct (N.eqb_spec a (v_addr x)) as [EQ|NE].
  - intros E. injection E as <-. split; [auto|]. exists l, []. simpl. tauto.
  - intros E. destruct (IH E) as (AV & b & t & -> & NI). split; [exact AV|].
    exists b, (t ++ [x]). rewrite <- app_assoc. split; [reflexivity|].
    rewrite map_app, in_app_iff. simpl. intros [I|[I|[]]]; [tauto|congruence].
Qed.

Lemma keyed_get_none l a : al_get N.eqb a (rev (keyed l)) = None -> ~ In a (map v_addr l).
Proof.
  intros E. apply (al_get_none_not_in _ N.eqb_spec) in E. intros I. apply E.
  rewrite map_rev, <- in_rev, map_map. cbn [fst]. exact I.
Qed.

Lemma keyed_last_get l v : last_with_address l v -> al_get N.eqb (v_addr v) (rev (keyed l)) = Some v.
Proof.
  intros (b & t & -> & NI). rewrite map_app. cbn [map]. rewrite rev_app_distr. cbn [rev].
  rewrite <- app_assoc. induction t as [|x t IH] using rev_ind.
  - cbn [map rev app]. rewrite bt_get_cons, N.eqb_refl. reflexivity.
  - rewrite map_app, rev_app_distr. cbn [map rev app]. rewrite bt_get_cons.
    rewrite map_app, in_app_iff in NI. simpl in NI.
    destruct (N.eqb_spec (v_addr v) (v_addr x)) as [EQ|NE]; [rewrite EQ in NI; tauto|]. apply IH. tauto.
Qed.

Lemma collect_in l a v : In (a, v) (bt_collect N.ltb (keyed l)) <-> v_addr v = a /\ last_with_address l v.
Proof.
  rewrite (bt_in_get N.ltb N.eqb N.eqb_spec N_ltb_irrefl);
    [|apply (bt_collect_sorted N.ltb N_ltb_trans N_ltb_total)].
  rewrite (bt_get_collect N.ltb N.eqb N.eqb_spec N_ltb_irrefl N_ltb_total). split.
  - apply keyed_get_last.
  - intros [<- L]. apply keyed_last_get, L.
Qed.

Lemma vs_new_some l vs : vs_new l = Some vs ->
  vs = map snd (bt_collect N.ltb (keyed l)) /\ vs <> [].
Proof.
  unfold vs_new. destruct (bt_collect N.ltb (keyed l)); [discriminate|].
  intros E. injection E as <-. split; [reflexivity|discriminate].
Qed.

Lemma collect_fst l : map fst (bt_collect N.ltb (keyed l)) = map v_addr (map snd (bt_collect N.ltb (keyed l))).
Proof.
  rewrite map_map. apply map_ext_in. intros [a v] I. apply collect_in in I. simpl. symmetry. tauto.
Qed.

Lemma bt_sorted_fst {V} (m : list (N * V)) : bt_sorted N.ltb m -> StronglySorted N.lt (map fst m).
Proof.
  induction m as [|[k v] m IH]; intros SM; [constructor|]. destruct SM as [F SM]. cbn [map fst].
  constructor; [auto|]. rewrite Forall_forall in *. intros x I. apply in_map_iff in I.
  destruct I as (y & <- & I). specialize (F _ I). cbv beta in F. apply N.ltb_lt, F.
Qed.

Lemma sorted_nodup l : StronglySorted N.lt l -> NoDup l.
Proof.
  induction 1 as [|x l S IH F]; constructor; auto. intros I. rewrite Forall_forall in F.
  specialize (F _ I). lia.
Qed.

Lemma vs_new_sorted l vs : vs_new l = Some vs -> StronglySorted N.lt (map v_addr vs).
Proof.
  intros E. destruct (vs_new_some _ _ E) as [-> _]. rewrite <- collect_fst.
  apply bt_sorted_fst, (bt_collect_sorted N.ltb N_ltb_trans N_ltb_total).
Qed.

Lemma vs_new_in l vs v : vs_new l = Some vs -> (In v vs <-> last_with_address l v).
Proof.
  intros E. destruct (vs_new_some _ _ E) as [-> _]. rewrite in_map_iff. split.
  - intros ([a w] & <- & I). apply collect_in in I. simpl. tauto.
  - intros L. exists (v_addr v, v). split; [reflexivity|]. apply collect_in. auto.
Qed.

Lemma vs_new_none l : vs_new l = None <-> l = [].
Proof.
  unfold vs_new. split; [|intros ->; reflexivity].
  destruct (bt_collect N.ltb (keyed l)) eqn:E; [|discriminate]. intros _.
  destruct l as [|x l'] using rev_ind; [reflexivity|]. exfalso.
  assert (I : In (v_addr x, x) (bt_collect N.ltb (keyed (l' ++ [x])))).
  { apply collect_in. split; [reflexivity|]. exists l', []. simpl. tauto. }
  rewrite E in I. exact I.
Qed.

Lemma total_power_fold vs : forall a, a < 2 ^ 64 ->
  fold_left (fun acc v => match acc with Some a => u64_add a (v_power v) | None => None end) vs (Some a)
  = if a + power_sum vs <? 2 ^ 64 then Some (a + power_sum vs) else None.
Proof.
  induction vs as [|v vs IH]; intros a L; cbn [fold_left power_sum].
  - rewrite N.add_0_r. apply N.ltb_lt in L. rewrite L. reflexivity.
  - unfold u64_add at 2. destruct (N.ltb_spec (a + v_power v) (2 ^ 64)) as [H|H].
    + rewrite IH by exact H. rewrite N.add_assoc. reflexivity.
    + assert (FN : fold_left (fun acc v => match acc with Some a => u64_add a (v_power v) | None => None end) vs None = None).
      { clear. induction vs; auto. }
      rewrite FN. destruct (N.ltb_spec (a + (v_power v + power_sum vs)) (2 ^ 64)); [lia|reflexivity].
Qed.

Lemma vs_get_in vs v : NoDup (map v_addr vs) -> In v vs -> vs_get vs (v_addr v) = Some v.
Proof.
  unfold vs_get. induction vs as [|w vs IH]; intros ND I; [destruct I|]. cbn [find map] in *.
  apply NoDup_cons_iff in ND. destruct ND as [NI ND].
  destruct (N.eqb_spec (v_addr w) (v_addr v)) as [EQ|NE].
  - destruct I as [->|I]; [reflexivity|]. exfalso. apply NI. rewrite EQ. apply in_map, I.
  - destruct I as [->|I]; [congruence|]. apply IH; auto.
Qed.

Lemma round_robin_some vs r : vs <> [] -> exists v, round_robin vs r = Some v /\ In v vs /\
  nth_error vs (N.to_nat (r mod vs_count vs)) = Some v.
Proof.
  intros NE. unfold round_robin, vs_count. destruct vs as [|w vs]; [congruence|].
  set (n := N.of_nat (length (w :: vs))). assert (NP : n <> 0) by (unfold n; simpl; lia).
  destruct (N.eqb_spec n 0) as [|_]; [contradiction|].
  destruct (nth_error (w :: vs) (N.to_nat (r mod n))) as [v|] eqn:E.
  - exists v. split; [reflexivity|]. split; [eapply nth_error_In; eauto|auto].
  - exfalso. apply nth_error_None in E. pose proof (N.mod_lt r n NP). unfold n in *. lia.
Qed.

Lemma ctx_round_robin vs r : vs <> [] -> NoDup (map v_addr vs) ->
  ctx_select round_robin vs r = round_robin vs r.
Proof.
  intros NE ND. destruct (round_robin_some vs r NE) as (v & E & I & _). unfold ctx_select. rewrite E.
  apply vs_get_in; auto.
Qed.

Lemma rounds_from_app r a b : rounds_from r (a + b) = rounds_from r a ++ rounds_from (r + N.of_nat a) b.
Proof.
  revert r. induction a as [|a IH]; intros r; cbn [Nat.add rounds_from app].
  - rewrite N.add_0_r. reflexivity.
  - rewrite IH. replace (r + N.of_nat (S a)) with (r + 1 + N.of_nat a) by lia. reflexivity.
Qed.

Lemma rounds_from_snoc r k : rounds_from r (S k) = rounds_from r k ++ [r + N.of_nat k].
Proof. replace (S k) with (k + 1)%nat by lia. rewrite rounds_from_app. reflexivity. Qed.

Lemma turns_app sel v a b : turns sel v (a ++ b) = (turns sel v a + turns sel v b)%nat.
Proof. unfold turns. rewrite filter_app, app_length. reflexivity. Qed.

Lemma rr_period vs r : round_robin vs (r + vs_count vs) = round_robin vs r.
Proof.
  unfold round_robin. destruct (N.eqb_spec (vs_count vs) 0) as [|NZ]; [reflexivity|].
  replace (r + vs_count vs) with (r + 1 * vs_count vs) by lia. rewrite N.mod_add by exact NZ. reflexivity.
Qed.

(* The number of turns in a window of a full period does not depend on where it starts. *)
Lemma turns_shift vs v r :
  turns (round_robin vs) v (rounds_from r (length vs)) =
  turns (round_robin vs) v (rounds_from (r + 1) (length vs)).
Proof.
  assert (A : rounds_from r (S (length vs)) = r :: rounds_from (r + 1) (length vs)) by reflexivity.
  rewrite rounds_from_snoc in A. apply (f_equal (turns (round_robin vs) v)) in A.
  rewrite turns_app in A. change (r :: rounds_from (r + 1) (length vs)) with ([r] ++ rounds_from (r + 1) (length vs)) in A.
  rewrite turns_app in A.
  assert (B : turns (round_robin vs) v [r + N.of_nat (length vs)] = turns (round_robin vs) v [r]).
  { unfold turns. cbn [filter]. fold (vs_count vs). rewrite rr_period.
    destruct (match round_robin vs r with Some p => _ | None => _ end); reflexivity. }
  lia.
Qed.

Lemma turns_zero vs v r :
  turns (round_robin vs) v (rounds_from r (length vs)) =
  turns (round_robin vs) v (rounds_from 0 (length vs)).
Proof.
  induction r as [|r IH] using N.peano_ind; [reflexivity|].
  rewrite <- IH, (turns_shift vs v r), N.add_1_r. reflexivity.
Qed.

Lemma turns_first vs v k : NoDup (map v_addr vs) -> In v vs -> (k <= length vs)%nat ->
  turns (round_robin vs) v (rounds_from 0 k) =
  length (filter (fun w => v_addr w =? v_addr v) (firstn k vs)).
Proof.
  intros ND I. induction k as [|k IH]; intros LE; [reflexivity|].
  rewrite rounds_from_snoc, turns_app, IH by lia.
  destruct (nth_error vs k) as [w|] eqn:E; [|apply nth_error_None in E; lia].
  assert (FS : firstn (S k) vs = firstn k vs ++ [w]).
  { clear - E. revert k E. induction vs as [|x vs IH]; intros [|k] E; try discriminate E.
    - injection E as ->. reflexivity.
    - change (x :: firstn (S k) vs = x :: (firstn k vs ++ [w])). f_equal. apply IH, E. }
  rewrite FS, filter_app, app_length. f_equal.
  unfold turns. cbn [filter]. unfold round_robin, vs_count.
  destruct (N.eqb_spec (N.of_nat (length vs)) 0) as [Z|_]; [lia|].
  rewrite N.add_0_l, N.mod_small by lia. rewrite Nnat.Nat2N.id, E.
  destruct (v_addr w =? v_addr v); reflexivity.
Qed.

Lemma filter_addr_one vs v : NoDup (map v_addr vs) -> In v vs ->
  length (filter (fun w => v_addr w =? v_addr v) vs) = 1%nat.
Proof.
  induction vs as [|w vs IH]; intros ND I; [destruct I|]. cbn [filter map] in *.
  apply NoDup_cons_iff in ND. destruct ND as [NI ND].
  destruct (N.eqb_spec (v_addr w) (v_addr v)) as [EQ|NE].
  - assert (Z : filter (fun w => v_addr w =? v_addr v) vs = []).
    { clear - NI EQ. induction vs as [|x vs IH]; [reflexivity|]. simpl in *.
      destruct (N.eqb_spec (v_addr x) (v_addr v)); [exfalso; apply NI; left; congruence|]. apply IH. tauto. }
    rewrite Z. reflexivity.
  - destruct I as [->|I]; [congruence|]. apply IH; auto.
Qed.

Lemma turns_window vs v r : NoDup (map v_addr vs) -> In v vs ->
  turns (round_robin vs) v (rounds_from r (length vs)) = 1%nat.
Proof.
  intros ND I. rewrite turns_zero, turns_first, firstn_all by auto. apply filter_addr_one; auto.
Qed.
