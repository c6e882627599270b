From Coq Require Import List NArith Bool Lia Sorted.
From Verif Require Import ValidatorModel ValidatorSpec ValidatorProof.
Import ListNotations.
Local Open Scope N_scope.

(* C46: building a validator set fails only for the empty list, and otherwise yields every
   address that was given exactly once, with the data given last for it, in address order;
   looking an address up returns that member. *)
Theorem C46_validator_set_is_a_map : forall l,
  (vs_new l = None <-> l = []) /\
  forall vs, vs_new l = Some vs ->
    NoDup (map v_addr vs) /\
    StronglySorted N.lt (map v_addr vs) /\
    (forall v, In v vs <-> last_with_address l v) /\
    (forall v, In v vs -> vs_get vs (v_addr v) = Some v) /\
    (forall a, In a (map v_addr l) <-> In a (map v_addr vs)).
Proof.
  intros l. split; [apply vs_new_none|]. intros vs E.
  pose proof (vs_new_sorted _ _ E) as SS. pose proof (sorted_nodup _ SS) as ND.
  pose proof (fun v => vs_new_in l vs v E) as IN.
  split; [exact ND|]. split; [exact SS|]. split; [exact IN|].
  split; [intros v I; apply vs_get_in; auto|]. intros a. split.
  - intros I. assert (X : exists v, v_addr v = a /\ last_with_address l v).
    { clear - I. induction l as [|x l IH] using rev_ind; [destruct I|].
      destruct (N.eq_dec (v_addr x) a) as [<-|NE].
      - exists x. split; [reflexivity|]. exists l, []. simpl. tauto.
      - rewrite map_app, in_app_iff in I. destruct I as [I|[I|[]]]; [|simpl in I; congruence].
        destruct (IH I) as (v & AV & b & t & -> & NI). exists v. split; [exact AV|].
        exists b, (t ++ [x]). rewrite <- app_assoc. split; [reflexivity|].
        rewrite map_app, in_app_iff. simpl. intros [J|[J|[]]]; [tauto|congruence]. }
    destruct X as (v & <- & L). apply in_map, IN, L.
  - intros I. apply in_map_iff in I. destruct I as (v & <- & I). apply IN in I.
    destruct I as (b & t & -> & _). rewrite map_app, in_app_iff. right. left. reflexivity.
Qed.
Print Assumptions C46_validator_set_is_a_map.

(* C46: the total voting power is the sum over the members whenever it fits in 64 bits;
   otherwise the computation panics. *)
Theorem C46_total_power : forall vs,
  vs_total_power vs = if power_sum vs <? 2 ^ 64 then Some (power_sum vs) else None.
Proof. intros vs. apply (total_power_fold vs 0). reflexivity. Qed.
Print Assumptions C46_total_power.

(* C46: with the round-robin selector, over as many consecutive rounds as there are
   validators, starting at any round, every member is proposer exactly once, and every
   round has a member as proposer. *)
Theorem C46_round_robin_is_fair_partial : forall l vs, vs_new l = Some vs ->
  forall r,
    (exists p, ctx_select round_robin vs r = Some p /\ In p vs) /\
    forall v, In v vs ->
      turns (ctx_select round_robin vs) v (rounds_from r (length vs)) = 1%nat.
Proof.
  intros l vs E r. pose proof (sorted_nodup _ (vs_new_sorted _ _ E)) as ND.
  destruct (vs_new_some _ _ E) as [_ NE]. split.
  - destruct (round_robin_some vs r NE) as (v & EV & I & _). exists v.
    rewrite ctx_round_robin by auto. auto.
  - intros v I. rewrite <- (turns_window vs v r ND I). unfold turns. f_equal. apply filter_ext.
    intros x. rewrite ctx_round_robin by auto. reflexivity.
Qed.
Print Assumptions C46_round_robin_is_fair_partial.

(* The selector the node actually runs with ignores the round: with three validators that
   are all proposers, one of them is proposer in each of any number of rounds and another
   one in none. *)
Theorem C46_node_selector_rotates_refuted :
  exists vs, vs_new vs = Some vs /\ length vs = 3%nat /\
    exists v w, In v vs /\ In w vs /\ forall r k,
      turns (ctx_select (l2_select vs) vs) v (rounds_from r k) = k /\
      turns (ctx_select (l2_select vs) vs) w (rounds_from r k) = 0%nat.
Proof.
  exists [mkValidator 1 10 1; mkValidator 2 20 1; mkValidator 3 30 1].
  split; [reflexivity|]. split; [reflexivity|].
  exists (mkValidator 1 10 1), (mkValidator 2 20 1).
  split; [left; reflexivity|]. split; [right; left; reflexivity|].
  intros r k. revert r. induction k as [|k IH]; intros r; [split; reflexivity|].
  cbn [rounds_from]. destruct (IH (r + 1)) as [I1 I2].
  split.
  - unfold turns in *. cbn [filter].
    change (ctx_select (l2_select [mkValidator 1 10 1; mkValidator 2 20 1; mkValidator 3 30 1])
              [mkValidator 1 10 1; mkValidator 2 20 1; mkValidator 3 30 1] r) with (Some (mkValidator 1 10 1)).
    cbn [v_addr]. rewrite N.eqb_refl. cbn [length]. f_equal. exact I1.
  - unfold turns in *. cbn [filter].
    change (ctx_select (l2_select [mkValidator 1 10 1; mkValidator 2 20 1; mkValidator 3 30 1])
              [mkValidator 1 10 1; mkValidator 2 20 1; mkValidator 3 30 1] r) with (Some (mkValidator 1 10 1)).
    cbn [v_addr]. change (1 =? 2) with false. exact I2.
Qed.
Print Assumptions C46_node_selector_rotates_refuted.

Module ValidatorExamples.
  (* address 7 is given twice: its last data win *)
  Definition given := [mkValidator 9 1 5; mkValidator 7 1 1; mkValidator 8 2 3; mkValidator 7 4 2].
  Example set_built : vs_new given = Some [mkValidator 7 4 2; mkValidator 8 2 3; mkValidator 9 1 5].
  Proof. reflexivity. Qed.
  Example power : vs_total_power [mkValidator 7 4 2; mkValidator 8 2 3; mkValidator 9 1 5] = Some 10.
  Proof. reflexivity. Qed.
  Example overflow : vs_total_power [mkValidator 7 4 (2 ^ 63); mkValidator 8 2 (2 ^ 63)] = None.
  Proof. reflexivity. Qed.
  Example proposers :
    map (ctx_select round_robin [mkValidator 7 4 2; mkValidator 8 2 3; mkValidator 9 1 5]) (rounds_from 4 3)
    = [Some (mkValidator 8 2 3); Some (mkValidator 9 1 5); Some (mkValidator 7 4 2)].
  Proof. reflexivity. Qed.
End ValidatorExamples.
