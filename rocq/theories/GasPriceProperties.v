(* C47-C49: gas prices. *)
From Coq Require Import List Arith NArith Lia ZifyBool ZifyNat ZifyN.
From Verif Require Import GasPriceModel GasPriceSpec GasPriceProof.
Import ListNotations.
Local Open Scope N_scope.

(* ---- C47 ---- *)

(* After any sequence of calls the window is the newest [storage_limit] samples
   of the log of accepted samples; every answer is the one the log gives. *)
Theorem C47_window_is_recent_log_partial : forall c xs w rs,
  (1 <= storage_limit c)%nat ->
  provider_run c [] xs = Returns (w, rs) ->
  exists log,
    log_run [] xs log (map accepted rs) /\
    w = lastn (storage_limit c) log /\
    contiguous w /\ (length w <= storage_limit c)%nat.
Proof. exact window_refines. Qed.
Print Assumptions C47_window_is_recent_log_partial.

(* The calls do return, as long as block numbers have successors. *)
Theorem C47_calls_return : forall c xs, numbers_ok xs ->
  exists w rs, provider_run c [] xs = Returns (w, rs).
Proof. intros c xs H. apply provider_run_returns; auto. intros s []. Qed.
Print Assumptions C47_calls_return.

(* A sample that does not follow the newest one is refused and changes nothing;
   one that does is accepted. *)
Theorem C47_refusal : forall c w s,
  (forall p, In p w -> block_number p < I64_MAX) ->
  (~ follows w s -> exists e, add_sample c w s = Returns (w, Refused e)) /\
  (follows w s -> exists w', add_sample c w s = Returns (w', Added)).
Proof.
  intros c w s B. rewrite follows_back. unfold add_sample.
  destruct (back w) as [p|] eqn:E; [|split; [tauto|eauto]].
  destruct (back_some _ _ E) as [init ->].
  assert (block_number p < I64_MAX) by (apply B, in_or_app; right; left; reflexivity).
  destruct (N.ltb_spec I64_MAX (block_number p + 1)); [lia|].
  destruct (N.eqb_spec (block_number s) (block_number p + 1)); cbn [negb].
  - destruct (N.eqb_spec (parent_hash s) (block_hash p)); cbn [negb]; split; try tauto; eauto.
  - split; try tauto; eauto.
Qed.
Print Assumptions C47_refusal.

(* A configured limit of zero is not respected: one sample is kept. *)
Theorem C47_zero_limit_refuted : exists c xs w rs,
  provider_run c [] xs = Returns (w, rs) /\ (storage_limit c < length w)%nat.
Proof.
  exists (mkConfig 0 1 0 0), [Offer (mkSample 1 1 0 0 0 0)]. do 2 eexists.
  split; [vm_compute; reflexivity|]. simpl. lia.
Qed.
Print Assumptions C47_zero_limit_refuted.

Definition ex_sample (n : N) : sample := mkSample n (100 + n) (99 + n) (12 * n) (10 * n) n.

Example C47_example :
  provider_run (mkConfig 2 2 0 100) []
    [OfferAll [ex_sample 5; ex_sample 6; ex_sample 7]; Offer (ex_sample 9);
     Offer (mkSample 8 0 0 0 0 0); Offer (ex_sample 8)]
  = Returns ([ex_sample 7; ex_sample 8],
             [Added; Refused (Gap 8 9); Refused (Reorg 8 107 0); Added]).
Proof. vm_compute. reflexivity. Qed.

(* ---- C48 ---- *)

(* The complete behaviour of the average: an error when there is no data, when
   the data is stale or when nothing is old enough, and otherwise the integer mean
   of exactly the selected samples (their sum saturating at 2^128-1). *)
Theorem C48_average_partial : forall c w t,
  (forall s, In s w -> timestamp s + max_time_gap c <= U64_MAX) ->
  (w = [] /\ get_average_prices c w t = Returns (PriceError NoDataAvailable)) \/
  (stale c w t /\ get_average_prices c w t = Returns (PriceError StaleData)) \/
  (w <> [] /\ ~ stale c w t /\
    ((exists sel, averaged c w t sel /\ sel <> [] /\
       get_average_prices c w t =
         Returns (Average (N.min (total base_fee sel) U128_MAX / N.of_nat (length sel))
                          (N.min (total blob_fee sel) U128_MAX / N.of_nat (length sel)))) \/
     (((forall s, In s w -> t - lag_margin c < timestamp s) \/ blocks_for_mean c = O) /\
       get_average_prices c w t = Returns (PriceError NoDataAvailable)))).
Proof. exact average_correct. Qed.
Print Assumptions C48_average_partial.

(* In one direction only, with exact sums: a reported average is the mean of the
   selected samples. *)
Theorem C48_reported_average : forall c w t b d,
  (forall s, In s w -> timestamp s + max_time_gap c <= U64_MAX) ->
  total base_fee w <= U128_MAX -> total blob_fee w <= U128_MAX ->
  get_average_prices c w t = Returns (Average b d) ->
  exists sel, averaged c w t sel /\ sel <> [] /\
    b = total base_fee sel / N.of_nat (length sel) /\
    d = total blob_fee sel / N.of_nat (length sel).
Proof.
  intros c w t b d G TB TD H.
  assert (SUB : forall f sel, averaged c w t sel -> total f sel <= total f w).
  { intros f sel (bef & s & aft & -> & _ & _ & ->).
    assert (APP : forall l1 l2, total f (l1 ++ l2) = total f l1 + total f l2).
    { induction l1 as [|x l1 IH]; intros l2; simpl; [reflexivity|]. rewrite IH. lia. }
    assert (SK : forall n l, total f (skipn n l) <= total f l).
    { induction n as [|n IH]; intros l; [simpl; lia|]. destruct l as [|x l]; simpl; [lia|].
      specialize (IH l). lia. }
    unfold lastn. etransitivity; [apply SK|]. rewrite !APP. simpl. lia. }
  destruct (average_correct c w t G) as [[_ E]|[[_ E]|(_ & _ & [(sel & A & NE & E)|[_ E]])]];
    rewrite E in H; try discriminate.
  injection H as <- <-. exists sel. split; [exact A|]. split; [exact NE|].
  pose proof (SUB base_fee sel A). pose proof (SUB blob_fee sel A).
  rewrite !N.min_l by lia. auto.
Qed.
Print Assumptions C48_reported_average.

(* With large enough fees the saturated sum is not the mean. *)
Theorem C48_saturated_mean_refuted : exists c w t b d,
  get_average_prices c w t = Returns (Average b d) /\
  b <> total base_fee w / N.of_nat (length w) /\
  averaged c w t w /\ (forall s, In s w -> base_fee s <= U128_MAX).
Proof.
  exists (mkConfig 5 5 0 100), [mkSample 1 1 0 0 U128_MAX 0; mkSample 2 2 1 0 U128_MAX 0], 0.
  do 2 eexists. split; [vm_compute; reflexivity|]. split; [vm_compute; discriminate|]. split.
  - exists [mkSample 1 1 0 0 U128_MAX 0], (mkSample 2 2 1 0 U128_MAX 0), [].
    split; [reflexivity|]. split; [vm_compute; discriminate|]. split; [intros x []|reflexivity].
  - intros s [<-|[<-|[]]]; vm_compute; discriminate.
Qed.
Print Assumptions C48_saturated_mean_refuted.

(* A newest timestamp near 2^64 makes the query panic. *)
Theorem C48_overflow_refuted : exists c w t,
  t <= U64_MAX /\ max_time_gap c <= U64_MAX /\
  (forall s, In s w -> timestamp s <= U64_MAX) /\
  get_average_prices c w t = Panics.
Proof.
  exists (mkConfig 5 5 0 1), [mkSample 1 1 0 U64_MAX 0 0], 0.
  split; [vm_compute; discriminate|]. split; [vm_compute; discriminate|]. split.
  - intros s [<-|[]]. vm_compute. discriminate.
  - vm_compute. reflexivity.
Qed.
Print Assumptions C48_overflow_refuted.

(* Samples 1..4 at 12s intervals, lag 12s, mean of 2: at time 48 the cut-off is
   36, so samples 2 and 3 are averaged. *)
Example C48_example :
  get_average_prices (mkConfig 10 2 12 100) (map ex_sample [1; 2; 3; 4]) 48
  = Returns (Average 25 2) /\
  get_average_prices (mkConfig 10 2 12 100) (map ex_sample [1; 2; 3; 4]) 149
  = Returns (PriceError StaleData) /\
  get_average_prices (mkConfig 10 2 12 100) (map ex_sample [1; 2; 3; 4]) 23
  = Returns (PriceError NoDataAvailable).
Proof. repeat match goal with |- _ /\ _ => split end; vm_compute; reflexivity. Qed.

(* ---- C49 ---- *)

(* Both protocol constant sets are sane, and a full block never exceeds twice the
   target. *)
Theorem C49_constants : forall k, k = PRE_0_14_1 \/ k = POST_0_14_1 ->
  l2_sane k /\ max_block_size k <= 2 * gas_target k /\ change_denominator k = 48.
Proof. 
  intros k [->| ->]; unfold l2_sane;
    repeat match goal with |- _ /\ _ => split end; vm_compute; congruence. Qed.
Print Assumptions C49_constants.

Theorem C49_never_below_minimum : forall price used minp k r,
  price <= U128_MAX -> minp <= price ->
  next_base_gas_price price used minp k = Returns r -> minp <= r.
Proof. intros. eapply next_price_not_below_min; eauto. Qed.
Print Assumptions C49_never_below_minimum.

(* Above target: not down, and up by at most 1/48th (for usage up to twice the
   target, which includes every block the protocol allows). *)
Theorem C49_up_partial : forall price used minp k r,
  l2_sane k -> price <= U128_MAX -> minp <= price -> gas_target k < used ->
  next_base_gas_price price used minp k = Returns r ->
  price <= r /\ (used <= 2 * gas_target k -> r <= price + price / change_denominator k).
Proof. intros. eapply next_price_up; eauto. Qed.
Print Assumptions C49_up_partial.

(* At or below target: always answers, not up, and down by at most 1/48th. *)
Theorem C49_down : forall price used minp k,
  l2_sane k -> price <= U128_MAX -> minp <= price -> used <= gas_target k ->
  exists r, next_base_gas_price price used minp k = Returns r /\
    r <= price /\ N.max minp (price - price / change_denominator k) <= r.
Proof. intros. eapply next_price_down; eauto. Qed.
Print Assumptions C49_down.

Theorem C49_at_target : forall price minp k,
  l2_sane k -> price <= U128_MAX -> minp <= price ->
  next_base_gas_price price (gas_target k) minp k = Returns price.
Proof. intros. apply next_price_at_target; auto. Qed.
Print Assumptions C49_at_target.

(* More usage never gives a lower next price. *)
Theorem C49_monotone : forall price minp k u1 u2 r1 r2,
  l2_sane k -> price <= U128_MAX -> minp <= price ->
  u1 <= u2 -> u2 <= 2 * gas_target k ->
  next_base_gas_price price u1 minp k = Returns r1 ->
  next_base_gas_price price u2 minp k = Returns r2 ->
  r1 <= r2.
Proof. exact next_price_monotone. Qed.
Print Assumptions C49_monotone.

(* The exact amount, when price * |used - target| fits in 128 bits. *)
Theorem C49_exact : forall price used minp k r,
  minp <= price -> price * abs_diff used (gas_target k) <= U128_MAX ->
  next_base_gas_price price used minp k = Returns r ->
  let change := price * abs_diff used (gas_target k) / (gas_target k * change_denominator k) in
  r = N.max minp (if gas_target k <? used then price + change else price - change).
Proof.
  intros price used minp k r P O H change. unfold next_base_gas_price in H.
  destruct (N.ltb_spec price minp); [lia|].
  destruct (N.ltb_spec U128_MAX (price * abs_diff used (gas_target k))); [lia|].
  destruct (_ <? _ * _); [discriminate|]. fold change in H.
  destruct (gas_target k <? used).
  - destruct (_ <? _); [discriminate|]. injection H as <-. apply N.max_comm.
  - destruct (_ <? _); [discriminate|]. injection H as <-. apply N.max_comm.
Qed.
Print Assumptions C49_exact.

(* Below the minimum: towards it, not past it, by at most 1/333rd; strictly up
   from 333 on. *)
Theorem C49_recovery_partial : forall price used minp k r,
  price <= U128_MAX -> minp <= U128_MAX -> price < minp ->
  next_base_gas_price price used minp k = Returns r ->
  price <= r <= minp /\ r <= price + price / 333 /\ (333 <= price -> price < r).
Proof. intros. eapply next_price_recovers; eauto. Qed.
Print Assumptions C49_recovery_partial.

(* A price of at least 333 below the minimum reaches exactly the minimum within
   minp - price blocks, whatever those blocks use. *)
Theorem C49_recovery_completes : forall price minp k used,
  minp + minp / 333 <= U128_MAX -> 333 <= price -> price <= minp ->
  (N.to_nat (minp - price) <= length used)%nat ->
  exists m, price_after price minp k (firstn m used) = Returns minp.
Proof.
  intros price minp k used M L P U.
  destruct (recovery_reaches_min _ price minp k used M L P (le_n _) U) as (m & _ & E). eauto.
Qed.
Print Assumptions C49_recovery_completes.

(* No panic for realistic values. *)
Theorem C49_returns : forall price used minp k,
  l2_sane k -> minp <= U128_MAX ->
  price + price / change_denominator k <= U128_MAX -> price + price / 333 <= U128_MAX ->
  used <= 2 * gas_target k ->
  exists r, next_base_gas_price price used minp k = Returns r.
Proof. intros. apply next_price_returns; auto. Qed.
Print Assumptions C49_returns.

(* A proposed price is accepted exactly when it is the price computed from the
   last block; before any block nothing is judged. *)
Theorem C49_validation : forall k price consumed st proposed,
  l2_update price consumed k = Returns st ->
  (l2_validate st proposed = L2Valid <->
   next_base_gas_price price consumed (l2_min_gas_price k) k = Returns proposed).
Proof.
  intros k price consumed st proposed H. unfold l2_update in H.
  destruct (next_base_gas_price _ _ _ _) as [p|]; [|discriminate]. injection H as <-.
  simpl. destruct (N.eqb_spec proposed p) as [->|NE]; split; congruence.
Qed.
Print Assumptions C49_validation.

(* Full claim refuted (1): usage above twice the target moves the price by more
   than 1/48th. *)
Theorem C49_bounded_step_refuted : exists price used r,
  price <= U128_MAX /\ used <= U128_MAX /\ l2_min_gas_price POST_0_14_1 <= price /\
  next_base_gas_price price used (l2_min_gas_price POST_0_14_1) POST_0_14_1 = Returns r /\
  price + price / 48 < r.
Proof.
  exists 8000000000, 12000000000. eexists.
  split; [vm_compute; discriminate|]. split; [vm_compute; discriminate|].
  split; [vm_compute; discriminate|]. split; vm_compute; reflexivity.
Qed.
Print Assumptions C49_bounded_step_refuted.

(* Full claim refuted (2): a price below 333 never recovers, whatever happens. *)
Theorem C49_recovery_refuted : exists price, price < l2_min_gas_price POST_0_14_1 /\
  forall used, price_after price (l2_min_gas_price POST_0_14_1) POST_0_14_1 used = Returns price.
Proof.
  exists 332. split; [vm_compute; reflexivity|].
  induction used as [|u us IH]; [reflexivity|].
  change (price_after 332 (l2_min_gas_price POST_0_14_1) POST_0_14_1 (u :: us))
    with (price_after 332 (l2_min_gas_price POST_0_14_1) POST_0_14_1 us). exact IH.
Qed.
Print Assumptions C49_recovery_refuted.

(* Full claim refuted (3): some 128-bit inputs panic. *)
Theorem C49_overflow_refuted : exists price used,
  price <= U128_MAX /\ used <= U128_MAX /\
  next_base_gas_price price used (l2_min_gas_price POST_0_14_1) POST_0_14_1 = Panics.
Proof.
  exists U128_MAX, 4000000001.
  split; [vm_compute; discriminate|]. split; [vm_compute; discriminate|].
  vm_compute. reflexivity.
Qed.
Print Assumptions C49_overflow_refuted.

Example C49_example :
  next_base_gas_price 10000000000 5000000000 8000000000 POST_0_14_1 = Returns 10052083333 /\
  next_base_gas_price 10000000000 0 8000000000 POST_0_14_1 = Returns 9791666667 /\
  next_base_gas_price 8000000000 0 8000000000 POST_0_14_1 = Returns 8000000000 /\
  next_base_gas_price 4000000000 0 8000000000 POST_0_14_1 = Returns 4012012012.
Proof. repeat match goal with |- _ /\ _ => split end; vm_compute; reflexivity. Qed.
