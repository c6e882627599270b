(** Lemmas about the search for an L2 gas limit. *)
From Coq Require Import List Bool NArith Lia ZifyBool ZifyNat ZifyN.
From Verif Require Import EstimateModel EstimateSpec.
Import ListNotations.
Local Open Scope N_scope.

Lemma midpoint_some a b : a <= b -> exists m, midpoint a b = Some m /\ a <= m /\ m <= b /\
  m - a <= (b - a + 1) / 2 /\ b - m <= (b - a) / 2 /\ (a < b -> a < m).
Proof.
  intros L. unfold midpoint. destruct (b <? a) eqn:E; [lia|].
  assert (Q1 := N.div_mod (b - a + 1) 2 ltac:(lia)). assert (Q2 := N.mod_upper_bound (b - a + 1) 2 ltac:(lia)).
  assert (Q3 := N.div_mod (b - a) 2 ltac:(lia)). assert (Q4 := N.mod_upper_bound (b - a) 2 ltac:(lia)).
  eexists. split; [reflexivity|]. repeat split; lia.
Qed.

Lemma adjusted_ge eps c : c <= U64_MAX -> c <= saturating_add c (percentage_of eps c).
Proof. intros L. unfold saturating_add. lia. Qed.

Section Search.
  Variable State : Type.
  Variable execute : N -> State -> execution * State.
  Notation runs := (runs State execute).
  Notation starves := (starves State execute).
  Notation simulate := (simulate_transaction State execute).
  Notation search := (search State execute).

  Lemma simulate_ok f l s o saved s' :
    simulate f l s = (SimOk o saved, s') -> saved = s /\ runs f l s o s'.
  Proof.
    unfold simulate_transaction, EstimateSpec.runs. destruct (execute l s) as [[x|[|t]] s1]; try discriminate.
    destruct (o_revert x) as [[|t]|] eqn:R; [discriminate| |].
    - destruct f; [discriminate|]. intros E. injection E as <- <- <-. rewrite R. repeat split; try discriminate.
    - intros E. injection E as <- <- <-. rewrite R. repeat split. discriminate.
  Qed.
  Lemma simulate_starved f l s saved s' :
    simulate f l s = (SimOutOfGas saved, s') -> saved = s /\ starves l s.
  Proof.
    unfold simulate_transaction, EstimateSpec.starves. destruct (execute l s) as [[x|[|t]] s1]; try discriminate.
    - destruct (o_revert x) as [[|t]|] eqn:R; [|destruct f; discriminate|discriminate].
      intros E. injection E as <- <-. cbn. eauto.
    - intros E. injection E as <- <-. cbn. auto.
  Qed.
  Lemma runs_simulate f l s o s' : runs f l s o s' -> simulate f l s = (SimOk o s, s').
  Proof.
    intros (E & N1 & N2). unfold simulate_transaction. rewrite E.
    destruct (o_revert o) as [[|t]|]; [now elim N1| |reflexivity].
    destruct f; [|reflexivity]. discriminate (N2 eq_refl).
  Qed.
  Lemma starves_simulate f l s : starves l s -> exists s', simulate f l s = (SimOutOfGas s, s').
  Proof.
    unfold EstimateSpec.starves, simulate_transaction. destruct (execute l s) as [x s']. cbn [fst].
    intros [->|(o & -> & R)]; [eauto|]. rewrite R. eauto.
  Qed.
  Lemma runs_not_starves f l s o s' : runs f l s o s' -> ~ starves l s.
  Proof.
    intros R S. apply runs_simulate in R. apply (starves_simulate f) in S. destruct S as (s'' & S). congruence.
  Qed.

  (* what the loop finds *)
  Lemma search_found f s lower0 : forall fuel lower upper current limit o s' saved,
    lower0 <= lower -> lower <= current -> midpoint lower upper = Some current ->
    (lower = lower0 \/ starves lower s) ->
    search fuel f lower upper current s = Found limit o s' saved ->
    saved = s /\ runs f limit s o s' /\ lower0 <= limit /\
    exists lo, lo <= limit /\ limit - lo <= 500000 /\ (lo = lower0 \/ starves lo s).
  Proof.
    induction fuel as [|fuel IH]; intros lower upper current limit o s' saved L0 LC M LO E; [discriminate|].
    cbn [EstimateModel.search] in E.
    destruct (simulate f current s) as [r s1] eqn:SIM. destruct r as [o1 sv|sv|r t]; [| |discriminate].
    - apply simulate_ok in SIM. destruct SIM as [-> R].
      unfold search_done in E. destruct (upper <? lower) eqn:C; [discriminate|].
      destruct (upper - lower <=? L2_GAS_SEARCH_MARGIN) eqn:D.
      + injection E as <- <- <- <-. split; [reflexivity|]. split; [exact R|]. split; [lia|].
        exists lower. split; [exact LC|]. split; [|exact LO].
        destruct (midpoint_some lower upper ltac:(lia)) as (m & M' & _ & _ & B & _). rewrite M in M'. injection M' as <-.
        unfold L2_GAS_SEARCH_MARGIN in D.
        assert (Q := N.div_le_mono (upper - lower + 1) 1000001 2 ltac:(lia) ltac:(lia)).
        change (1000001 / 2) with 500000 in Q. lia.
      + destruct (midpoint_some lower current LC) as (m & M' & A1 & A2 & _). rewrite M' in E.
        eapply IH; [| | | |exact E]; auto.
    - apply simulate_starved in SIM. destruct SIM as [-> S].
      destruct (midpoint current upper) as [m|] eqn:M'; [|discriminate].
      eapply IH; [| | | |exact E]; auto; [lia|].
      unfold midpoint in M'. destruct (upper <? current) eqn:C; [discriminate|]. injection M' as <-. lia.
  Qed.

  (* it ends, without panic *)
  Lemma search_ends f s : forall fuel lower upper current k,
    lower <= upper -> midpoint lower upper = Some current ->
    (exists o s', runs f upper s o s') ->
    upper - lower <= 2 ^ k -> (N.to_nat k < fuel)%nat ->
    search fuel f lower upper current s <> SearchPanics /\
    search fuel f lower upper current s <> SearchOutOfFuel.
  Proof.
    induction fuel as [|fuel IH]; intros lower upper current k L M (o & s1 & R) D F; [lia|].
    cbn [EstimateModel.search].
    destruct (midpoint_some lower upper L) as (m & M' & A1 & A2 & A3 & A4 & A5). rewrite M in M'. injection M' as <-.
    destruct (simulate f current s) as [r s2] eqn:SIM. destruct r as [o2 sv|sv|r t]; [| |split; discriminate].
    - apply simulate_ok in SIM. destruct SIM as [-> R'].
      unfold search_done. destruct (upper <? lower) eqn:C; [lia|].
      destruct (upper - lower <=? L2_GAS_SEARCH_MARGIN) eqn:D'; [split; discriminate|].
      destruct (midpoint_some lower current A1) as (m & M2 & _). rewrite M2.
      unfold L2_GAS_SEARCH_MARGIN in D'.
      assert (K : k <> 0). { intros ->. change (2 ^ 0) with 1 in D. lia. }
      apply (IH lower current m (k - 1)); eauto; [|lia].
      replace k with (N.succ (k - 1)) in D by lia. rewrite N.pow_succ_r' in D.
      assert (Q := N.div_mod (upper - lower + 1) 2 ltac:(lia)). 
      assert (Q2 := N.mod_upper_bound (upper - lower + 1) 2 ltac:(lia)). lia.
    - apply simulate_starved in SIM. destruct SIM as [-> S].
      destruct (midpoint_some current upper A2) as (m & M2 & _). rewrite M2.
      destruct (N.eq_dec current upper) as [->|NE]; [now elim (runs_not_starves _ _ _ _ _ R)|].
      assert (K : k <> 0).
      { intros ->. change (2 ^ 0) with 1 in D.
        assert (Q := N.div_mod (upper - lower) 2 ltac:(lia)).
        destruct (N.eq_dec lower upper) as [->|NE2]; [lia|].
        specialize (A5 ltac:(lia)). lia. }
      apply (IH current upper m (k - 1)); eauto; [|lia].
      replace k with (N.succ (k - 1)) in D by lia. rewrite N.pow_succ_r' in D.
      assert (Q := N.div_mod (upper - lower) 2 ltac:(lia)). lia.
  Qed.

  (* nothing is refused if no limit is *)
  Lemma search_not_refused f s : (forall l, starves l s \/ exists o s', runs f l s o s') ->
    forall fuel lower upper current r t, search fuel f lower upper current s <> SearchRefused r t.
  Proof.
    intros T. induction fuel as [|fuel IH]; intros lower upper current r t; [discriminate|].
    cbn [EstimateModel.search]. destruct (T current) as [S|(o & s' & R)].
    - apply (starves_simulate f) in S. destruct S as (s' & ->). destruct (midpoint current upper); [apply IH|discriminate].
    - apply runs_simulate in R. rewrite R. destruct (search_done _ _ _) as [[|]|]; try discriminate.
      destruct (midpoint _ _); [apply IH|discriminate].
  Qed.

End Search.
