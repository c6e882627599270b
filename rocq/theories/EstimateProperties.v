(** C63: estimating the L2 gas limit of a transaction. *)
From Coq Require Import List Bool Arith NArith Lia ZifyBool ZifyNat ZifyN.
From Verif Require Import EstimateModel EstimateSpec EstimateProof.
Import ListNotations.
Local Open Scope N_scope.

(* the limit that is reported lets the transaction run, and the state afterwards is that of one
   execution: with this limit, or with the limit of the transaction if fees are charged and that
   one is lower *)
Theorem C63_sufficient State execute fuel charge_fee fail_on_revert epsilon initial max s o limit s' :
  find_l2_gas_limit State execute fuel charge_fee fail_on_revert epsilon initial max s = Estimated o limit s' ->
  exists o1 s1,
    runs State execute fail_on_revert (gv_l2 limit) s o1 s1 /\
    (if charge_fee && (initial <? gv_l2 limit)
     then execute initial s = (Executed o, s')
     else o = o1 /\ s' = s1).
Proof.
  unfold find_l2_gas_limit. intros E.
  destruct (simulate_transaction State execute fail_on_revert max s) as [r1 x] eqn:S1.
  destruct r1 as [o1 sv1|sv1|r t]; try discriminate. apply simulate_ok in S1. destruct S1 as [-> R1].
  set (consumed := gv_l2 (o_gas o1)) in *. set (adjusted := saturating_add _ _) in *.
  assert (F : forall l o2 s2, runs State execute fail_on_revert (gv_l2 l) s o2 s2 ->
              finish State execute charge_fee fail_on_revert initial consumed l o2 s2 s = Estimated o limit s' ->
              exists o1 s1, runs State execute fail_on_revert (gv_l2 limit) s o1 s1 /\
                (if charge_fee && (initial <? gv_l2 limit) then execute initial s = (Executed o, s') else o = o1 /\ s' = s1)).
  { clear E. intros l o2 s2 R. unfold finish. destruct (gv_l2 l <? consumed); [discriminate|].
    destruct (charge_fee && (initial <? gv_l2 l)) eqn:C.
    - unfold execute_transaction. destruct (execute initial s) as [[x2|[|t]] s3] eqn:X; try discriminate.
      destruct (o_revert x2) as [[|t]|]; [destruct fail_on_revert; [discriminate|]|destruct fail_on_revert; [discriminate|]|];
        intros E; injection E as <- <- <-; exists o2, s2; rewrite C; auto.
    - intros E. injection E as <- <- <-. exists o2, s2. rewrite C. auto. }
  destruct (simulate_transaction State execute fail_on_revert adjusted s) as [r2 s2] eqn:S2.
  destruct r2 as [o2 sv2|sv2|r t]; [| |discriminate].
  - apply simulate_ok in S2. destruct S2 as [-> R2]. cbn [fst snd] in E. eapply F; [|exact E]. exact R2.
  - apply simulate_starved in S2. destruct S2 as [-> _].
    destruct (midpoint consumed max) as [m|] eqn:M; [|discriminate].
    destruct (search State execute fuel fail_on_revert consumed max m s) as [l o3 s3 sv3|r t| |] eqn:SE; try discriminate.
    assert (L : consumed <= m) by (unfold midpoint in M; destruct (max <? consumed) eqn:Q; [discriminate|injection M as <-; lia]).
    eapply (search_found State execute fail_on_revert s consumed) in SE; auto; [|lia].
    destruct SE as (-> & R3 & _). eapply F; [|exact E]. exact R3.
Qed.
Print Assumptions C63_sufficient.

(* it always ends, after at most 65 turns of the loop, and does not panic, if a transaction never
   consumes more than its limit *)
Theorem C63_ends State execute charge_fee fail_on_revert epsilon initial max s :
  max <= U64_MAX ->
  (forall o s', runs State execute fail_on_revert max s o s' -> consumes o <= max) ->
  find_l2_gas_limit State execute 65 charge_fee fail_on_revert epsilon initial max s <> OutOfFuel /\
  find_l2_gas_limit State execute 65 charge_fee fail_on_revert epsilon initial max s <> Panics.
Proof.
  intros MX CO. unfold find_l2_gas_limit.
  destruct (simulate_transaction State execute fail_on_revert max s) as [r1 x] eqn:S1.
  destruct r1 as [o1 sv1|sv1|r t]; [|split; discriminate|split; discriminate].
  apply simulate_ok in S1. destruct S1 as [-> R1]. specialize (CO _ _ R1). unfold consumes in CO.
  set (consumed := gv_l2 (o_gas o1)) in *. set (adjusted := saturating_add _ _) in *.
  assert (F : forall l o2 s2 sv, consumed <= gv_l2 l -> finish State execute charge_fee fail_on_revert initial consumed l o2 s2 sv <> OutOfFuel /\ finish State execute charge_fee fail_on_revert initial consumed l o2 s2 sv <> Panics).
  { intros l o2 s2 sv L. unfold finish. destruct (gv_l2 l <? consumed) eqn:Q; [lia|].
    destruct (charge_fee && _); [|split; discriminate].
    destruct (execute_transaction _ _ _ _ _) as [[o'|[r t]] s3]; split; discriminate. }
  destruct (simulate_transaction State execute fail_on_revert adjusted s) as [r2 s2] eqn:S2.
  destruct r2 as [o2 sv2|sv2|r t]; [| |split; discriminate].
  - apply F. apply adjusted_ge. lia.
  - apply simulate_starved in S2. destruct S2 as [-> _].
    destruct (midpoint_some consumed max CO) as (m & M & A1 & A2 & _). rewrite M.
    destruct (search_ends State execute fail_on_revert s 65 consumed max m 64) as [E1 E2]; eauto.
    + assert (U : 2 ^ 64 = U64_MAX + 1) by reflexivity. rewrite U. lia.
    + destruct (search State execute 65 fail_on_revert consumed max m s) as [l o3 s3 sv3|r t| |] eqn:SE;
        [|split; discriminate|now elim E1|now elim E2].
      apply F. cbn [gv_l2]. eapply (search_found State execute fail_on_revert s consumed) in SE; auto; lia.
Qed.
Print Assumptions C63_ends.

(* if there is a least limit with which the transaction runs, the reported one is above it by at
   most half a million units of gas, or is what was consumed without a limit plus the margin *)
Theorem C63_tight State execute fuel charge_fee fail_on_revert epsilon initial max s o limit s' o1 s1 least :
  (forall l, starves State execute l s <-> l < least) ->
  runs State execute fail_on_revert max s o1 s1 -> consumes o1 <= least ->
  find_l2_gas_limit State execute fuel charge_fee fail_on_revert epsilon initial max s = Estimated o limit s' ->
  least <= gv_l2 limit /\
  gv_l2 limit <= N.max (least + 500000) (consumes o1 + consumes o1 * epsilon / 100).
Proof.
  intros ST R1 CL E. split.
  { destruct (C63_sufficient _ _ _ _ _ _ _ _ _ _ _ _ E) as (o2 & s2 & R & _).
    destruct (N.le_gt_cases least (gv_l2 limit)) as [|L]; [assumption|].
    elim (runs_not_starves _ _ _ _ _ _ _ R). apply ST. exact L. }
  unfold find_l2_gas_limit in E. rewrite (runs_simulate _ _ _ _ _ _ _ R1) in E.
  unfold consumes in *. set (consumed := gv_l2 (o_gas o1)) in *. set (adjusted := saturating_add _ _) in *.
  assert (F : forall l o2 s2 sv, finish State execute charge_fee fail_on_revert initial consumed l o2 s2 sv = Estimated o limit s' -> l = limit).
  { clear E. intros l o2 s2 sv. unfold finish. destruct (gv_l2 l <? consumed); [discriminate|].
    destruct (charge_fee && _).
    - destruct (execute_transaction _ _ _ _ _) as [[o'|[r t]] s3]; [|discriminate]. intros E. now injection E.
    - intros E. now injection E. }
  destruct (simulate_transaction State execute fail_on_revert adjusted s) as [r2 s2] eqn:S2.
  destruct r2 as [o2 sv2|sv2|r t]; [| |discriminate].
  - apply F in E. subst limit. cbn [gv_l2]. unfold adjusted, saturating_add, percentage_of. lia.
  - apply simulate_starved in S2. destruct S2 as [-> _].
    destruct (midpoint consumed max) as [m|] eqn:M; [|discriminate].
    destruct (search State execute fuel fail_on_revert consumed max m s) as [l o3 s3 sv3|r t| |] eqn:SE; try discriminate.
    assert (L : consumed <= m) by (unfold midpoint in M; destruct (max <? consumed) eqn:Q; [discriminate|injection M as <-; lia]).
    eapply (search_found State execute fail_on_revert s consumed) in SE; auto; [|lia].
    destruct SE as (-> & R3 & L3 & lo & A & B & C). apply F in E. subst limit. cbn [gv_l2].
    assert (lo <= least); [|lia]. destruct C as [->|C]; [exact CL|]. apply ST in C. lia.
Qed.
Print Assumptions C63_tight.

(* if every limit either lets the transaction run or starves it, there is an answer *)
Theorem C63_answers State execute fail_on_revert epsilon initial max s o1 s1 :
  max <= U64_MAX ->
  (forall l, starves State execute l s \/ exists o s', runs State execute fail_on_revert l s o s') ->
  runs State execute fail_on_revert max s o1 s1 -> consumes o1 <= max ->
  exists o limit s', find_l2_gas_limit State execute 65 false fail_on_revert epsilon initial max s = Estimated o limit s'.
Proof.
  intros MX T R1 CO.
  destruct (C63_ends State execute false fail_on_revert epsilon initial max s MX) as [E1 E2].
  { intros o s' R. destruct R as [R _], R1 as [R1 _]. rewrite R in R1. injection R1 as -> _. exact CO. }
  destruct (find_l2_gas_limit State execute 65 false fail_on_revert epsilon initial max s) as [o l s'|r t| | |] eqn:E;
    [eauto| | |now elim E2|now elim E1]; exfalso; clear E1 E2;
    unfold find_l2_gas_limit in E; rewrite (runs_simulate _ _ _ _ _ _ _ R1) in E; try discriminate;
    set (consumed := gv_l2 (o_gas o1)) in *; set (adjusted := saturating_add _ _) in *;
    (destruct (T adjusted) as [S|(o2 & s2 & R2)];
      [apply (starves_simulate _ _ fail_on_revert) in S; destruct S as (s2 & SS); rewrite SS in E;
       destruct (midpoint consumed max) as [m|]; [|discriminate];
       destruct (search State execute 65 fail_on_revert consumed max m s) as [l o3 s3 sv3|r' t'| |] eqn:SE; try discriminate
      |rewrite (runs_simulate _ _ _ _ _ _ _ R2) in E]);
    try (unfold finish in E; cbn [andb] in E; destruct (_ <? _); discriminate).
  apply (search_not_refused State execute fail_on_revert s T) in SE. exact SE.
Qed.
Print Assumptions C63_answers.

(* The maximum is reported as exceeded exactly when the transaction starves with it, and what it
   fails with otherwise is passed on. *)
Theorem C63_failures State execute fuel charge_fee fail_on_revert epsilon initial max s :
  let answer := find_l2_gas_limit State execute fuel charge_fee fail_on_revert epsilon initial max s in
  (answer = MaximumExceeded <-> starves State execute max s) /\
  (forall t s', execute max s = (Failed (ErrorOther t), s') -> answer = Refused false t) /\
  (forall o t s', execute max s = (Executed o, s') -> o_revert o = Some (RevertOther t) -> fail_on_revert = true ->
     answer = Refused true t).
Proof.
  cbv zeta. split; [|split].
  - split.
    + assert (F : forall c l o s1 sv, finish State execute charge_fee fail_on_revert initial c l o s1 sv <> MaximumExceeded).
      { intros c l o s1 sv. unfold finish. destruct (_ <? _); [discriminate|]. destruct (_ && _); [|discriminate].
        destruct (execute_transaction _ _ _ _ _) as [[?|[? ?]] ?]; discriminate. }
      unfold find_l2_gas_limit. destruct (simulate_transaction State execute fail_on_revert max s) as [r1 s1] eqn:E1.
      destruct r1 as [o1 sv1|sv1|r t]; intros H; [exfalso| |discriminate H].
      * destruct (simulate_transaction State execute fail_on_revert _ sv1) as [r2 s2].
        destruct r2 as [o2 sv2|sv2|r t]; [exact (F _ _ _ _ _ H)| |discriminate H].
        destruct (midpoint _ _); [|discriminate H]. destruct (search _ _ _ _ _ _ _ _); try discriminate H. exact (F _ _ _ _ _ H).
      * apply simulate_starved in E1. apply E1.
    + intros S. apply (starves_simulate _ _ fail_on_revert) in S. destruct S as (s2 & E).
      unfold find_l2_gas_limit. rewrite E. reflexivity.
  - intros t s' E. unfold find_l2_gas_limit, simulate_transaction at 1. rewrite E. reflexivity.
  - intros o t s' E R ->. unfold find_l2_gas_limit, simulate_transaction at 1. rewrite E, R. reflexivity.
Qed.
Print Assumptions C63_failures.

(* the limit that the balance covers: the largest amount that can be paid for *)
Theorem C63_covered low high fee max_price tip :
  let balance := high * 2 ^ 128 + low in
  let price := N.max (N.min U128_MAX (max_price + tip)) 1 in
  let amount := covered_by_balance low high fee max_price tip in
  amount <= U64_MAX /\
  (amount <> 0 -> fee + amount * price <= balance) /\
  (amount < U64_MAX -> balance < fee + (amount + 1) * price \/ balance <= fee).
Proof.
  intros balance price amount.
  assert (A : amount = if fee <? balance then
                         if (balance - fee) / price <=? U64_MAX then (balance - fee) / price else U64_MAX
                       else 0).
  { unfold amount, covered_by_balance, balance_from_felt_pair. rewrite N.shiftl_mul_pow2. reflexivity. }
  clearbody amount. subst amount.
  assert (P0 : price <> 0) by (unfold price; lia).
  destruct (fee <? balance) eqn:C.
  - assert (D := N.div_mod (balance - fee) price P0).
    assert (U := N.mod_upper_bound (balance - fee) price P0).
    set (q := (balance - fee) / price) in *. set (r := (balance - fee) mod price) in *.
    clearbody balance price q r. generalize dependent U64_MAX. intros M.
    destruct (q <=? M) eqn:Q.
    + split; [lia|]. split; [|left; rewrite N.mul_add_distr_r; lia]. intros _. lia.
    + split; [lia|]. split; [|lia]. intros _.
      assert (M * price <= q * price) by (apply N.mul_le_mono_r; lia). lia.
  - split; [unfold U64_MAX; lia|]. split; [lia|]. intros _. right. lia.
Qed.
Print Assumptions C63_covered.

(* a transaction that consumes 600 but needs a limit of 2 000 000 to get there, and one that does
   not run with less than it consumes *)
Definition sample (need used : N) (l : N) (s : N) : execution * N :=
  if l <? need then (Executed (Output (GasVector 1 2 l) (Some RevertOutOfGas) 0), s + 7)
  else (Executed (Output (GasVector 1 2 used) None 0), s + 1).
Example C63_search_example :
  find_l2_gas_limit N (sample 2000000 600) 65 false true 10 0 (10 ^ 9) 5 =
  Estimated (Output (GasVector 1 2 600) None 0) (GasVector 1 2 2442005) 6.
Proof. vm_compute. reflexivity. Qed.
Example C63_example :
  (forall l, starves N (sample 2000000 600) l 5 <-> l < 2000000) /\
  (forall l, starves N (sample 2000000 600) l 5 \/ exists o s', runs N (sample 2000000 600) true l 5 o s') /\
  runs N (sample 2000000 600) true (10 ^ 9) 5 (Output (GasVector 1 2 600) None 0) 6.
Proof.
  unfold starves, runs, sample. split; [|split].
  - intros l. destruct (l <? 2000000) eqn:C; cbn [fst]; split; intros H; try lia.
    + right. eexists. split; reflexivity.
    + destruct H as [H|(o & H & R)]; [discriminate|]. injection H as <-. discriminate.
  - intros l. destruct (l <? 2000000) eqn:C; cbn [fst].
    + left. right. eexists. split; reflexivity.
    + right. eexists _, _. split; [reflexivity|]. cbn. split; [discriminate|reflexivity].
  - vm_compute. repeat split. discriminate.
Qed.
Example C63_direct_example :
  find_l2_gas_limit N (sample 600 600) 65 true true 10 630 (10 ^ 9) 5 =
  Estimated (Output (GasVector 1 2 600) None 0) (GasVector 1 2 660) 6.
Proof. vm_compute. reflexivity. Qed.
Example C63_covered_example : covered_by_balance 1000 0 100 6 1 = 128.
Proof. vm_compute. reflexivity. Qed.

(* If fees are charged, what was consumed plus the margin may be more than the balance covers; the
   transaction is then rejected and there is no estimate, although it runs with a limit that the
   balance covers. *)
Definition paying (balance_covers : N) (l : N) (s : N) : execution * N :=
  if balance_covers <? l then (Failed (ErrorOther 1), s) else sample 600 600 l s.
Theorem C63_balance_refuted :
  exists execute max l s o s',
    l <= max /\ runs N execute true l s o s' /\ runs N execute true max s o s' /\ consumes o <= max /\
    find_l2_gas_limit N execute 65 true true 10 max max s = Refused false 1.
Proof.
  exists (paying 630), 630, 600, 5, (Output (GasVector 1 2 600) None 0), 6.
  unfold runs. split; [lia|]. split; [vm_compute; repeat split; discriminate|].
  split; [vm_compute; repeat split; discriminate|]. split; [vm_compute; discriminate|]. vm_compute. reflexivity.
Qed.
Print Assumptions C63_balance_refuted.
