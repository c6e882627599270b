(* Proofs about the gas price model. *)
From Coq Require Import List Arith NArith Lia ZifyBool ZifyNat ZifyN Bool.
From Verif Require Import GasPriceModel GasPriceSpec.
Import ListNotations.
Local Open Scope N_scope.

(* ---- lists ---- *)

Lemma back_app : forall w s, back (w ++ [s]) = Some s.
Proof.
  induction w as [|a w IH]; intros s; simpl; auto.
  rewrite IH. destruct (w ++ [s]) eqn:E; auto.
  destruct w; discriminate.
Qed.

Lemma back_none : forall w, back w = None -> w = [].
Proof.
  intros w H. destruct w as [|a w] using rev_ind; auto.
  rewrite back_app in H. discriminate.
Qed.

Lemma back_some : forall w s, back w = Some s -> exists init, w = init ++ [s].
Proof.
  intros w s H. destruct w as [|a w _] using rev_ind; [discriminate|].
  rewrite back_app in H. injection H as ->. eauto.
Qed.

Lemma lastn_length : forall A (l : list A) n, length (lastn n l) = Nat.min n (length l).
Proof. intros A l n. unfold lastn. rewrite skipn_length. lia. Qed.

Lemma lastn_app_one : forall A (l : list A) n s,
  (1 <= n)%nat -> lastn n (l ++ [s]) = lastn (n - 1) l ++ [s].
Proof.
  intros A l n s H. unfold lastn. rewrite app_length. simpl length.
  replace (length l + 1 - n)%nat with (length l - (n - 1))%nat by lia.
  rewrite skipn_app.
  replace (length l - (n - 1) - length l)%nat with O by lia. reflexivity.
Qed.

Lemma lastn_all : forall A (l : list A) n, (length l <= n)%nat -> lastn n l = l.
Proof. intros A l n H. unfold lastn. replace (length l - n)%nat with O by lia. reflexivity. Qed.

Lemma skipn_S_tail : forall A n (l : list A),
  skipn (S n) l = match skipn n l with [] => [] | _ :: t => t end.
Proof.
  induction n as [|n IH]; intros l; destruct l as [|a l]; auto.
  change (skipn (S (S n)) (a :: l)) with (skipn (S n) l). rewrite IH. reflexivity.
Qed.

Lemma back_lastn : forall log n, (1 <= n)%nat -> back (lastn n log) = back log.
Proof.
  intros log n H. destruct log as [|a log _] using rev_ind; auto.
  rewrite lastn_app_one by lia. rewrite !back_app. reflexivity.
Qed.

Lemma push_lastn : forall c log s, (1 <= storage_limit c)%nat ->
  push c (lastn (storage_limit c) log) s = lastn (storage_limit c) (log ++ [s]).
Proof.
  intros c log s H. rewrite lastn_app_one by lia. unfold push. f_equal.
  rewrite lastn_length.
  destruct (Nat.leb_spec (storage_limit c) (Nat.min (storage_limit c) (length log))) as [L|L].
  - unfold lastn.
    replace (length log - (storage_limit c - 1))%nat
      with (S (length log - storage_limit c)) by lia.
    rewrite skipn_S_tail. unfold pop_front. reflexivity.
  - rewrite !lastn_all by lia. reflexivity.
Qed.

(* ---- C47 ---- *)

Lemma follows_back : forall log s,
  follows log s <->
  match back log with
  | None => True
  | Some p => block_number s = block_number p + 1 /\ parent_hash s = block_hash p
  end.
Proof.
  intros log s. split.
  - intros [->|(init & p & -> & A & B)]; [exact I|]. rewrite back_app. auto.
  - destruct (back log) as [p|] eqn:E; intros H.
    + destruct (back_some _ _ E) as [init ->]. right. exists init, p. tauto.
    + left. apply back_none, E.
Qed.

Lemma add_sample_refines : forall c log s w' r,
  (1 <= storage_limit c)%nat ->
  add_sample c (lastn (storage_limit c) log) s = Returns (w', r) ->
  (follows log s /\ r = Added /\ w' = lastn (storage_limit c) (log ++ [s])) \/
  (~ follows log s /\ accepted r = false /\ w' = lastn (storage_limit c) log).
Proof.
  intros c log s w' r L H. unfold add_sample in H.
  rewrite back_lastn in H by lia. rewrite follows_back.
  destruct (back log) as [p|] eqn:E.
  - destruct (I64_MAX <? block_number p + 1); [discriminate|].
    destruct (N.eqb_spec (block_number s) (block_number p + 1)) as [A|A]; cbn [negb] in H.
    + destruct (N.eqb_spec (parent_hash s) (block_hash p)) as [B|B]; cbn [negb] in H;
        injection H as <- <-.
      * left. rewrite push_lastn by lia. auto.
      * right. repeat split; tauto.
    + injection H as <- <-. right. repeat split; tauto.
  - injection H as <- <-. left. rewrite push_lastn by lia. auto.
Qed.

Lemma add_samples_refines : forall c ss log w' r,
  (1 <= storage_limit c)%nat ->
  add_samples c (lastn (storage_limit c) log) ss = Returns (w', r) ->
  exists log', offers log ss log' (accepted r) /\ w' = lastn (storage_limit c) log'.
Proof.
  intros c. induction ss as [|s ss IH]; intros log w' r L H; simpl in H.
  - injection H as <- <-. exists log. split; constructor.
  - destruct (add_sample c (lastn (storage_limit c) log) s) as [[w1 r1]|] eqn:E; [|discriminate].
    destruct (add_sample_refines _ _ _ _ _ L E) as [(F & -> & ->)|(F & R & ->)].
    + destruct (IH _ _ _ L H) as (log' & O & ->).
      exists log'. split; [constructor|]; auto.
    + destruct r1 as [|e]; [discriminate|]. injection H as <- <-.
      exists log. split; [apply offers_stop, F|reflexivity].
Qed.

Lemma provider_step_refines : forall c x log w' r,
  (1 <= storage_limit c)%nat ->
  provider_step c (lastn (storage_limit c) log) x = Returns (w', r) ->
  exists log', log_call log x log' (accepted r) /\ w' = lastn (storage_limit c) log'.
Proof.
  intros c x log w' r L H. destruct x as [s|ss|]; simpl in H.
  - destruct (add_sample_refines _ _ _ _ _ L H) as [(F & -> & ->)|(F & R & ->)].
    + exists (log ++ [s]). split; auto. constructor. constructor; auto. constructor.
    + exists log. split; auto. rewrite R. constructor. apply offers_stop, F.
  - destruct (add_samples_refines _ _ _ _ _ L H) as (log' & O & ->).
    exists log'. split; auto. constructor. exact O.
  - injection H as <- <-. exists []. split; [constructor|reflexivity].
Qed.

Lemma provider_run_refines : forall c xs log w' rs,
  (1 <= storage_limit c)%nat ->
  provider_run c (lastn (storage_limit c) log) xs = Returns (w', rs) ->
  exists log', log_run log xs log' (map accepted rs) /\ w' = lastn (storage_limit c) log'.
Proof.
  intros c. induction xs as [|x xs IH]; intros log w' rs L H; simpl in H.
  - injection H as <- <-. exists log. split; [constructor|reflexivity].
  - destruct (provider_step c _ x) as [[w1 r1]|] eqn:E; [|discriminate].
    destruct (provider_step_refines _ _ _ _ _ L E) as (log1 & C1 & ->).
    destruct (provider_run c _ xs) as [[w2 rs2]|] eqn:E2; [|discriminate].
    injection H as <- <-.
    destruct (IH _ _ _ L E2) as (log2 & C2 & ->).
    exists log2. split; auto. simpl. econstructor; eauto.
Qed.

Lemma contiguous_snoc : forall log s, contiguous log -> follows log s -> contiguous (log ++ [s]).
Proof.
  intros log s C F. rewrite follows_back in F. revert F.
  induction C as [|a|a b w A B C IH]; intros F.
  - constructor.
  - simpl in F. simpl. constructor; try tauto. constructor.
  - simpl in *. constructor; auto.
Qed.

Lemma contiguous_skipn : forall n log, contiguous log -> contiguous (skipn n log).
Proof.
  induction n as [|n IH]; intros log C; auto.
  destruct C as [|a|a b w A B C]; simpl; try constructor.
  - destruct n; constructor.
  - apply IH, C.
Qed.

Lemma offers_contiguous : forall log ss log' ok,
  offers log ss log' ok -> contiguous log -> contiguous log'.
Proof.
  intros log ss log' ok O. induction O; auto. intros C. apply IHO, contiguous_snoc; auto.
Qed.

Lemma log_run_contiguous : forall log xs log' oks,
  log_run log xs log' oks -> contiguous log -> contiguous log'.
Proof.
  intros log xs log' oks R. induction R; auto. intros C. apply IHR.
  destruct H; try (eapply offers_contiguous; eassumption). constructor.
Qed.

Lemma window_refines : forall c xs w rs,
  (1 <= storage_limit c)%nat ->
  provider_run c [] xs = Returns (w, rs) ->
  exists log,
    log_run [] xs log (map accepted rs) /\
    w = lastn (storage_limit c) log /\
    contiguous w /\ (length w <= storage_limit c)%nat.
Proof.
  intros c xs w rs L H.
  destruct (provider_run_refines c xs [] w rs L H) as (log & R & ->).
  exists log. split; [exact R|]. split; [reflexivity|]. split.
  - apply contiguous_skipn. eapply log_run_contiguous; eauto. constructor.
  - rewrite lastn_length. lia.
Qed.

(* no panics while block numbers have successors *)

Definition bounded (w : list sample) : Prop := forall s, In s w -> block_number s < I64_MAX.

Lemma push_in : forall c w s x, In x (push c w s) -> In x w \/ x = s.
Proof.
  intros c w s x H. unfold push in H. apply in_app_or in H. destruct H as [H|[->|[]]]; auto.
  left. destruct (Nat.leb _ _); auto. destruct w; simpl in *; auto.
Qed.

Lemma add_sample_returns : forall c w s, bounded w -> block_number s < I64_MAX ->
  exists w' r, add_sample c w s = Returns (w', r) /\ bounded w'.
Proof.
  intros c w s B L. unfold add_sample.
  assert (P : bounded (push c w s)).
  { intros x H. apply push_in in H. destruct H as [H| ->]; auto. }
  destruct (back w) as [p|] eqn:E; [|eauto].
  destruct (back_some _ _ E) as [init ->].
  assert (block_number p < I64_MAX) by (apply B, in_or_app; right; left; reflexivity).
  destruct (N.ltb_spec I64_MAX (block_number p + 1)); [lia|].
  destruct (negb _); [eauto|]. destruct (negb _); eauto.
Qed.

Lemma add_samples_returns : forall c ss w, bounded w ->
  (forall s, In s ss -> block_number s < I64_MAX) ->
  exists w' r, add_samples c w ss = Returns (w', r) /\ bounded w'.
Proof.
  intros c. induction ss as [|s ss IH]; intros w B L; simpl; [eauto|].
  destruct (add_sample_returns c w s B) as (w1 & r1 & E & B1); [apply L; left; reflexivity|].
  rewrite E. destruct r1; [|eauto]. apply IH; auto. intros x X. apply L. right. exact X.
Qed.

Lemma provider_run_returns : forall c xs w, bounded w -> numbers_ok xs ->
  exists w' rs, provider_run c w xs = Returns (w', rs).
Proof.
  intros c. induction xs as [|x xs IH]; intros w B L; simpl; [eauto|].
  assert (S1 : exists w1 r1, provider_step c w x = Returns (w1, r1) /\ bounded w1).
  { destruct x as [s|ss|]; simpl.
    - apply add_sample_returns; auto. apply (L (Offer s)); left; reflexivity.
    - apply add_samples_returns; auto. intros s X. apply (L (OfferAll ss)); auto. left; reflexivity.
    - do 2 eexists. split; [reflexivity|]. intros s []. }
  destruct S1 as (w1 & r1 & -> & B1).
  destruct (IH w1 B1) as (w2 & rs & ->); [|eauto].
  intros y s Y. apply L. right. exact Y.
Qed.

(* ---- C48 ---- *)

Lemma rposition_some : forall t w i, rposition t w = Some i ->
  exists before s after, w = before ++ s :: after /\ length before = i /\
    timestamp s <= t /\ forall x, In x after -> t < timestamp x.
Proof.
  intros t. induction w as [|a w IH]; intros i H; simpl in H; [discriminate|].
  destruct (rposition t w) as [j|] eqn:E.
  - injection H as <-. destruct (IH j eq_refl) as (b & s & af & -> & L & T & A).
    exists (a :: b), s, af. simpl. repeat split; auto.
  - destruct (N.leb_spec (timestamp a) t) as [T|T]; [|discriminate]. injection H as <-.
    exists [], a, w. repeat split; auto. intros x X.
    clear IH. revert E X. induction w as [|b w IHw]; simpl; intros E X; [easy|].
    destruct (rposition t w); [discriminate|].
    destruct (N.leb_spec (timestamp b) t); [discriminate|].
    destruct X as [->|X]; auto.
Qed.

Lemma rposition_none : forall t w, rposition t w = None ->
  forall x, In x w -> t < timestamp x.
Proof.
  intros t. induction w as [|a w IH]; intros H x X; simpl in *; [easy|].
  destruct (rposition t w); [discriminate|].
  destruct (N.leb_spec (timestamp a) t); [discriminate|].
  destruct X as [->|X]; auto.
Qed.

Lemma sum_loop_total : forall ss b d, b <= U128_MAX -> d <= U128_MAX ->
  sum_loop ss (b, d) =
  (N.min (b + total base_fee ss) U128_MAX, N.min (d + total blob_fee ss) U128_MAX).
Proof.
  induction ss as [|s ss IH]; intros b d B D; simpl.
  - f_equal; lia.
  - cbn [fst snd]. unfold saturating_add. rewrite IH by lia.
    f_equal; lia.
Qed.

Lemma range_lastn : forall (before : list sample) s after n,
  range (S (length before) - n) (S (length before)) (before ++ s :: after)
  = lastn n (before ++ [s]).
Proof.
  intros before s after n. unfold range, lastn.
  rewrite app_length. simpl length.
  replace (length before + 1)%nat with (S (length before)) by lia.
  replace (before ++ s :: after) with ((before ++ [s]) ++ after) by (rewrite <- app_assoc; auto).
  rewrite skipn_app, app_length. simpl length.
  replace (S (length before) - n - (length before + 1))%nat with O by lia.
  simpl skipn at 2. rewrite firstn_app, skipn_length, app_length. simpl length.
  replace (S (length before) - (S (length before) - n) - (length before + 1 - (S (length before) - n)))%nat
    with O by lia.
  simpl firstn at 2. rewrite app_nil_r. apply firstn_all2.
  rewrite skipn_length, app_length. simpl length. lia.
Qed.

Lemma average_correct : forall c w t,
  (forall s, In s w -> timestamp s + max_time_gap c <= U64_MAX) ->
  (w = [] /\ get_average_prices c w t = Returns (PriceError NoDataAvailable)) \/
  (stale c w t /\ get_average_prices c w t = Returns (PriceError StaleData)) \/
  (w <> [] /\ ~ stale c w t /\
    ((exists sel, averaged c w t sel /\ sel <> [] /\
       get_average_prices c w t =
         Returns (Average (N.min (total base_fee sel) U128_MAX / N.of_nat (length sel))
                          (N.min (total blob_fee sel) U128_MAX / N.of_nat (length sel)))) \/
     (((forall s, In s w -> t - lag_margin c < timestamp s) \/ blocks_for_mean c = O) /\
       get_average_prices c w t = Returns (PriceError NoDataAvailable)))).
Proof.
  intros c w t G. unfold get_average_prices.
  destruct (back w) as [latest|] eqn:E.
  2:{ left. split; auto. apply back_none, E. }
  right. destruct (back_some _ _ E) as [init W].
  destruct (N.ltb_spec U64_MAX (timestamp latest + max_time_gap c)) as [O|O].
  { specialize (G latest). rewrite W in G.
    specialize (G ltac:(apply in_or_app; right; left; reflexivity)). lia. }
  destruct (N.ltb_spec (timestamp latest + max_time_gap c) t) as [T|T].
  { left. split; auto. exists init, latest. auto. }
  right. split; [rewrite W; destruct init; discriminate|]. split.
  { intros (i & l & W2 & X). rewrite W in W2. apply app_inj_tail in W2. destruct W2 as [_ ->]. lia. }
  destruct (rposition (t - lag_margin c) w) as [idx|] eqn:R.
  - destruct (rposition_some _ _ _ R) as (before & s & after & W2 & L & TS & AF).
    subst idx.
    destruct (S (length before) - (S (length before) - blocks_for_mean c))%nat eqn:C.
    + right. split; auto. right. lia.
    + left. exists (lastn (blocks_for_mean c) (before ++ [s])).
      assert (LL : length (lastn (blocks_for_mean c) (before ++ [s])) = S n).
      { rewrite lastn_length, app_length. simpl length. lia. }
      split; [exists before, s, after; auto|]. split.
      { intros X. rewrite X in LL. discriminate. }
      rewrite W2, range_lastn. unfold U128_MAX at 1 2.
      rewrite sum_loop_total by (vm_compute; discriminate).
      rewrite LL. rewrite !N.add_0_l. reflexivity.
  - right. split; auto. left. apply rposition_none, R.
Qed.

(* ---- C49 ---- *)

Lemma abs_diff_spec : forall a b, abs_diff a b = if a <? b then b - a else a - b.
Proof. reflexivity. Qed.

Lemma change_bound : forall price delta target den, 0 < target -> 0 < den -> delta <= target ->
  price * delta / (target * den) <= price / den.
Proof.
  intros price delta target den T D L.
  rewrite <- N.div_div by lia.
  apply N.div_le_mono; [lia|].
  apply N.div_le_upper_bound; [lia|]. nia.
Qed.

Lemma div_le_self : forall a b, a / b <= a.
Proof.
  intros a b. destruct (N.eq_dec b 0) as [->|H]; [destruct a; simpl; lia|].
  apply N.div_le_upper_bound; [lia|]. nia.
Qed.

(* lia does not know that an N quotient is non-negative: name quotients first *)
Ltac dlia :=
  repeat match goal with
  | H : context [?a / ?b] |- _ => let q := fresh "q" in set (q := a / b) in *; clearbody q
  | |- context [?a / ?b] => let q := fresh "q" in set (q := a / b) in *; clearbody q
  end; lia.

Section L2.
Variables (price used minp : N) (k : l2_constants).
Hypothesis K : l2_sane k.


Lemma next_price_not_below_min : forall r, price <= U128_MAX ->
  minp <= price -> next_base_gas_price price used minp k = Returns r -> minp <= r.
Proof.
  intros r U P H. unfold next_base_gas_price in H.
  destruct (N.ltb_spec price minp); [dlia|].
  destruct (_ <? price * _).
  - destruct (_ <? used); injection H as <-; [unfold saturating_add|dlia].
    pose proof (N.le_0_l (price / change_denominator k)). dlia.
  - destruct (_ <? _ * _); [discriminate|].
    destruct (gas_target k <? used); (destruct (_ <? _); [discriminate|]); injection H as <-; apply N.le_max_r.
Qed.

Lemma next_price_up : price <= U128_MAX -> minp <= price -> gas_target k < used ->
  forall r, next_base_gas_price price used minp k = Returns r ->
  price <= r /\ (used <= 2 * gas_target k -> r <= price + price / change_denominator k).
Proof.
  destruct K as (D & T & KD). intros U P A r H. unfold next_base_gas_price in H.
  destruct (N.ltb_spec price minp); [dlia|].
  rewrite abs_diff_spec in H. destruct (N.ltb_spec used (gas_target k)); [dlia|].
  destruct (N.ltb_spec U128_MAX (price * (used - gas_target k))) as [O|O].
  - destruct (N.ltb_spec (gas_target k) used); [|dlia]. injection H as <-.
    unfold saturating_add.
    pose proof (N.le_0_l (price / change_denominator k)). dlia.
  - destruct (_ <? _ * _); [discriminate|].
    destruct (N.ltb_spec (gas_target k) used); [|dlia].
    destruct (_ <? _); [discriminate|]. injection H as <-. split; [dlia|].
    intros L. pose proof (change_bound price (used - gas_target k) (gas_target k)
      (change_denominator k) T D ltac:(dlia)). dlia.
Qed.

Lemma next_price_down : price <= U128_MAX -> minp <= price -> used <= gas_target k ->
  exists r, next_base_gas_price price used minp k = Returns r /\
  r <= price /\ N.max minp (price - price / change_denominator k) <= r.
Proof.
  destruct K as (D & T & KD). intros U P A. unfold next_base_gas_price.
  destruct (N.ltb_spec price minp); [dlia|].
  set (delta := abs_diff used (gas_target k)).
  assert (DL : delta <= gas_target k).
  { unfold delta. rewrite abs_diff_spec. destruct (N.ltb_spec used (gas_target k)); dlia. }
  pose proof (change_bound price delta (gas_target k) (change_denominator k) T D DL) as C.
  pose proof (div_le_self price (change_denominator k)).
  destruct (N.ltb_spec (gas_target k) used); [dlia|].
  destruct (N.ltb_spec U128_MAX (price * delta)) as [O|O].
  - eexists. split; [reflexivity|]. dlia.
  - destruct (N.ltb_spec U128_MAX (gas_target k * change_denominator k)); [dlia|].
    destruct (N.ltb_spec price (price * delta / (gas_target k * change_denominator k))); [dlia|].
    eexists. split; [reflexivity|]. dlia.
Qed.

Lemma next_price_at_target : price <= U128_MAX -> minp <= price -> used = gas_target k ->
  next_base_gas_price price used minp k = Returns price.
Proof.
  destruct K as (D & T & KD). intros U P A. unfold next_base_gas_price. subst used.
  destruct (N.ltb_spec price minp); [dlia|].
  rewrite abs_diff_spec. rewrite N.ltb_irrefl. rewrite N.sub_diag, N.mul_0_r.
  destruct (N.ltb_spec U128_MAX 0); [dlia|].
  destruct (N.ltb_spec U128_MAX (gas_target k * change_denominator k)); [dlia|].
  rewrite N.div_0_l by dlia.
  destruct (N.ltb_spec price 0); [dlia|]. f_equal. dlia.
Qed.

Lemma next_price_recovers : price <= U128_MAX -> minp <= U128_MAX -> price < minp ->
  forall r, next_base_gas_price price used minp k = Returns r ->
  price <= r <= minp /\ r <= price + price / 333 /\ (333 <= price -> price < r).
Proof.
  intros U M P r H. unfold next_base_gas_price in H.
  destruct (N.ltb_spec price minp); [|dlia].
  destruct (_ <? _); [discriminate|]. injection H as <-.
  unfold MIN_GAS_PRICE_INCREASE_DENOMINATOR. split; [dlia|]. split; [dlia|]. intros L.
  assert (1 <= price / 333) by (apply N.div_le_lower_bound; dlia). dlia.
Qed.

Lemma next_price_returns : minp <= U128_MAX ->
  price + price / change_denominator k <= U128_MAX -> price + price / 333 <= U128_MAX ->
  used <= 2 * gas_target k ->
  exists r, next_base_gas_price price used minp k = Returns r.
Proof.
  destruct K as (D & T & KD). intros M U1 U2 A. unfold next_base_gas_price.
  destruct (N.ltb_spec price minp).
  { destruct (N.ltb_spec U128_MAX (price + price / MIN_GAS_PRICE_INCREASE_DENOMINATOR)) as [X|X]; eauto.
    unfold MIN_GAS_PRICE_INCREASE_DENOMINATOR in X. dlia. }
  set (delta := abs_diff used (gas_target k)).
  assert (DL : delta <= gas_target k).
  { unfold delta. rewrite abs_diff_spec. destruct (N.ltb_spec used (gas_target k)); dlia. }
  pose proof (change_bound price delta (gas_target k) (change_denominator k) T D DL) as C.
  pose proof (div_le_self price (change_denominator k)).
  destruct (_ <? price * delta).
  { destruct (_ <? used); eauto. }
  destruct (N.ltb_spec U128_MAX (gas_target k * change_denominator k)); [dlia|].
  destruct (gas_target k <? used).
  - match goal with |- context [?a <? ?b] => destruct (N.ltb_spec a b) end; [dlia|eauto].
  - match goal with |- context [?a <? ?b] => destruct (N.ltb_spec a b) end; [dlia|eauto].
Qed.
End L2.

(* more usage never lowers the next price *)
Lemma next_price_monotone : forall price minp k u1 u2 r1 r2,
  l2_sane k -> price <= U128_MAX -> minp <= price ->
  u1 <= u2 -> u2 <= 2 * gas_target k ->
  next_base_gas_price price u1 minp k = Returns r1 ->
  next_base_gas_price price u2 minp k = Returns r2 ->
  r1 <= r2.
Proof.
  intros price minp k u1 u2 r1 r2 K U P L A H1 H2.
  destruct (N.le_gt_cases u1 (gas_target k)) as [C1|C1];
  destruct (N.le_gt_cases u2 (gas_target k)) as [C2|C2].
  - (* both down *)
    destruct K as (D & T & KD).
    unfold next_base_gas_price in H1, H2.
    destruct (N.ltb_spec price minp); [dlia|].
    destruct (N.ltb_spec (gas_target k) u1); [dlia|].
    destruct (N.ltb_spec (gas_target k) u2); [dlia|].
    assert (E1 : abs_diff u1 (gas_target k) = gas_target k - u1).
    { unfold abs_diff. destruct (N.ltb_spec u1 (gas_target k)); dlia. }
    assert (E2 : abs_diff u2 (gas_target k) = gas_target k - u2).
    { unfold abs_diff. destruct (N.ltb_spec u2 (gas_target k)); dlia. }
    rewrite E1 in H1. rewrite E2 in H2.
    assert (DM : price * (gas_target k - u2) / (gas_target k * change_denominator k)
                 <= price * (gas_target k - u1) / (gas_target k * change_denominator k)).
    { apply N.div_le_mono; nia. }
    pose proof (change_bound price (gas_target k - u2) (gas_target k) (change_denominator k) T D ltac:(dlia)).
    destruct (N.ltb_spec U128_MAX (price * (gas_target k - u1))) as [O1|O1];
    destruct (N.ltb_spec U128_MAX (price * (gas_target k - u2))) as [O2|O2].
    + injection H1 as <-. injection H2 as <-. dlia.
    + destruct (_ <? _ * _); [discriminate|]. destruct (_ <? _); [discriminate|].
      injection H1 as <-. injection H2 as <-. dlia.
    + nia.
    + destruct (_ <? _ * _); [discriminate|].
      destruct (price <? _); [discriminate|]. destruct (price <? _); [discriminate|].
      injection H1 as <-. injection H2 as <-. dlia.
  - destruct (next_price_down price u1 minp k K U P C1) as (r & E & X & _).
    rewrite H1 in E. injection E as <-.
    destruct (next_price_up price u2 minp k K U P C2 r2 H2) as [Y _]. dlia.
  - dlia.
  - destruct K as (D & T & KD).
    unfold next_base_gas_price in H1, H2.
    destruct (N.ltb_spec price minp); [dlia|].
    destruct (N.ltb_spec (gas_target k) u1); [|dlia].
    destruct (N.ltb_spec (gas_target k) u2); [|dlia].
    assert (E1 : abs_diff u1 (gas_target k) = u1 - gas_target k).
    { unfold abs_diff. destruct (N.ltb_spec u1 (gas_target k)); dlia. }
    assert (E2 : abs_diff u2 (gas_target k) = u2 - gas_target k).
    { unfold abs_diff. destruct (N.ltb_spec u2 (gas_target k)); dlia. }
    rewrite E1 in H1. rewrite E2 in H2.
    assert (DM : price * (u1 - gas_target k) / (gas_target k * change_denominator k)
                 <= price * (u2 - gas_target k) / (gas_target k * change_denominator k)).
    { apply N.div_le_mono; nia. }
    pose proof (change_bound price (u1 - gas_target k) (gas_target k) (change_denominator k) T D ltac:(dlia)).
    unfold saturating_add in *.
    destruct (N.ltb_spec U128_MAX (price * (u1 - gas_target k))) as [O1|O1];
    destruct (N.ltb_spec U128_MAX (price * (u2 - gas_target k))) as [O2|O2].
    + injection H1 as <-. injection H2 as <-. dlia.
    + nia.
    + destruct (_ <? _ * _); [discriminate|].
      match type of H1 with context [?a <? ?b] => destruct (N.ltb_spec a b) end; [discriminate|].
      injection H1 as <-. injection H2 as <-. dlia.
    + destruct (_ <? _ * _); [discriminate|].
      match type of H1 with context [?a <? ?b] => destruct (N.ltb_spec a b) end; [discriminate|].
      match type of H2 with context [?a <? ?b] => destruct (N.ltb_spec a b) end; [discriminate|].
      injection H1 as <-. injection H2 as <-. dlia.
Qed.

(* a price below the minimum but at least 333 reaches the minimum, whatever the
   usage, in a number of blocks that depends only on price and minimum *)
Lemma recovery_reaches_min : forall n price minp k used,
  minp + minp / 333 <= U128_MAX -> 333 <= price -> price <= minp ->
  (N.to_nat (minp - price) <= n)%nat -> (n <= length used)%nat ->
  exists m, (m <= n)%nat /\ price_after price minp k (firstn m used) = Returns minp.
Proof.
  induction n as [|n IH]; intros price minp k used M L P D U.
  - exists O. split; auto. simpl. f_equal. dlia.
  - destruct (N.eq_dec price minp) as [->|NE].
    { exists O. split; [dlia|]. reflexivity. }
    destruct used as [|u us]; [simpl in U; dlia|].
    assert (Q : price / 333 <= minp / 333) by (apply N.div_le_mono; dlia).
    assert (R : exists r, next_base_gas_price price u minp k = Returns r /\ r <= minp /\ price < r).
    { unfold next_base_gas_price. destruct (N.ltb_spec price minp); [|dlia].
      unfold MIN_GAS_PRICE_INCREASE_DENOMINATOR.
      assert (1 <= price / 333) by (apply N.div_le_lower_bound; dlia).
      destruct (N.ltb_spec U128_MAX (price + price / 333)); [dlia|].
      eexists. split; [reflexivity|]. dlia. }
    destruct R as (r & E & R1 & R2).
    destruct (IH r minp k us M ltac:(dlia) R1) as (m & Lm & X); [dlia|simpl in U; dlia|].
    exists (S m). split; [dlia|]. simpl. rewrite E. exact X.
Qed.
