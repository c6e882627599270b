(* What holds of every history of connections. *)
From Coq Require Import List NArith Bool Arith Lia ZifyBool ZifyN ZifyNat.
From Verif Require Import PeersModel PeersSpec PeersProof.
Import ListNotations.
Local Open Scope N_scope.
Local Notation any := (fun _ : N => True).
Lemma upsert_self : forall ret now s id f ins s' q, NoDup (keys s) -> upsert ret now s id f ins = Go s' ->
  In (id, q) s -> retained ret now (id, q) = true -> In (id, f q) s'.
Proof.
  intros ret now s id f ins s' q ND E H R. assert (H1 : In (id, q) (filter (retained ret now) s)) by (apply filter_In; auto).
  pose proof (get_of_in _ _ _ (keys_filter _ _ ND) H1) as G.
  destruct (upsert_cases _ _ _ _ _ _ _ ND E) as [(q1 & a & b & G1 & E1 & NA & NB & ->)|(q1 & G1 & _)]; cbv zeta in *; rewrite G in G1; [|discriminate G1].
  injection G1 as <-. apply in_or_app. right. left. reflexivity.
Qed.
Lemma upsert_other : forall ret now s id f ins s' i q, NoDup (keys s) -> upsert ret now s id f ins = Go s' ->
  In (i, q) s -> retained ret now (i, q) = true -> i <> id -> In (i, q) s'.
Proof.
  intros ret now s id f ins s' i q ND E H R NE. assert (H1 : In (i, q) (filter (retained ret now) s)) by (apply filter_In; auto).
  destruct (upsert_cases _ _ _ _ _ _ _ ND E) as [(q1 & a & b & G1 & E1 & NA & NB & ->)|(q1 & _ & _ & _ & ->)]; cbv zeta in *.
  - rewrite E1 in H1. apply in_app_or in H1. apply in_or_app. destruct H1 as [H1|[H1|H1]]; [auto|congruence|right; right; exact H1].
  - apply in_or_app. auto.
Qed.
Section Run.
Variables (rank group_of : N -> N) (resolve : N -> option N) (cfg : config).
Local Notation step := (step rank group_of resolve cfg).
Local Notation run := (run rank group_of resolve cfg).
Lemma any_good : forall id q, (is_connected q = true -> p_group q <> None) -> good any any (id, q).
Proof. intros id q H. split; [unfold may; cbn [snd]; destruct (p_dir q); exact Logic.I|exact H]. Qed.
Lemma on_established_inv : forall now s id d a, inv any any s -> exists s', on_established group_of resolve cfg now s id d a = Go s' /\ inv any any s'.
Proof.
  intros now s id d a I. unfold on_established. destruct (get_ip resolve a) as [ip|].
  - match goal with |- exists s', upsert _ _ _ _ ?f (Go ?q) = _ /\ _ => destruct (upsert_go cfg now s id f q) as [s' E] end.
    exists s'. split; [exact E|]. apply (upsert_inv any any _ _ _ _ _ _ _ I E); intros; apply any_good; [discriminate|].
    match goal with H : Go _ = Go _ |- _ => injection H as <- end. discriminate.
  - match goal with |- exists s', upsert _ _ _ _ ?f (Go ?q) = _ /\ _ => destruct (upsert_go cfg now s id f q) as [s' E] end.
    exists s'. split; [exact E|]. apply (upsert_inv any any _ _ _ _ _ _ _ I E); intros; apply any_good; [discriminate|].
    match goal with H : Go _ = Go _ |- _ => injection H as <- end. discriminate.
Qed.
Definition told (o : op) : Prop := match o with Closed _ | Pinged _ _ | NotUseful _ => False | _ => True end.
Lemma established_inbound_inv : forall now s id a, inv any any s ->
  exists s' b, established_inbound rank resolve cfg now s id a = Go (s', b) /\ inv any any s'.
Proof.
  intros now s id a I. unfold established_inbound. destruct (get_ip resolve a); [|exists s, false; auto]. destruct (duplicate s id); [exists s, false; auto|].
  destruct (evicted_too_recently now s id); [exists s, false; auto|].
  destruct (limit_ok any any rank group_of resolve cfg now s a I) as (s' & b & E & I' & _). eauto.
Qed.
Lemma step_told : forall w now o, inv any any (w_set w) -> told o -> exists w', step w now o = Go w' /\ inv any any (w_set w').
Proof.
  intros [s conns] now o I TO. cbn [w_set] in I. destruct o as [a|id a inner|id d|id a inner|id|id|id d|id]; try destruct TO; cbn [PeersModel.step w_set w_conns].
  - destruct (pending_inbound_ok any any rank group_of resolve cfg now s a I) as (s' & b & -> & I' & _). cbn [bind]. eauto.
  - destruct (established_inbound_inv now s id a I) as (s' & b & -> & I'). cbn [bind]. destruct (b && inner); [|eauto].
    destruct (on_established_inv now s' id Inbound a I') as (s2 & -> & I2). cbn [bind]. eauto.
  - destruct (pending_outbound_ok any any rank group_of resolve cfg now s id d I) as (s' & b & -> & I' & _); [auto|]. cbn [bind]. eauto.
  - destruct (established_outbound resolve now s id a && inner); [|eauto].
    destruct (on_established_inv now s id Outbound a I) as (s2 & -> & I2). cbn [bind]. eauto.
  - unfold on_dial_failure. destruct id as [id|]; [|cbn [bind]; eauto].
    match goal with |- context [upsert _ _ _ _ ?f (Go ?q)] => destruct (upsert_go cfg now s id f q) as [s' E] end. rewrite E. cbn [bind].
    eexists. split; [reflexivity|]. cbn [w_set].
    apply (tame_step any any cfg _ _ _ _ _ _ I E (fail_tame now)). intros q [= <-]. split; [reflexivity|exact Logic.I].
Qed.
Lemma step_inv : forall w now o w', inv any any (w_set w) -> step w now o = Go w' -> inv any any (w_set w').
Proof.
  intros w now o w' I E.
  assert (D : told o \/ ~ told o) by (destruct o; cbn [told]; auto). destruct D as [D|D].
  - destruct (step_told w now o I D) as (w1 & E1 & I1). rewrite E in E1. injection E1 as ->. exact I1.
  - destruct w as [s conns]. destruct o as [a|id a inner|id d|id a inner|id|id|id d|id]; try (exfalso; apply D; exact Logic.I); cbn [PeersModel.step w_set w_conns] in *.
    + destruct (remove_first id conns) as [cs|]; [|injection E as <-; exact I]. unfold on_closed in E. destruct (connections id cs); [|injection E as <-; exact I].
      destruct (update _ now s id _) as [s'|] eqn:E1; [|discriminate E]. injection E as <-.
      apply (tame_step any any cfg _ _ _ _ _ _ I E1); [intros q; split; [reflexivity|discriminate]|discriminate].
    + unfold pinged in E. destruct (update _ now s id _) as [s'|] eqn:E1; [|discriminate E]. injection E as <-.
      apply (tame_step any any cfg _ _ _ _ _ _ I E1); [intros q; split; [reflexivity|intros H; split; [exact H|split; reflexivity]]|discriminate].
    + unfold not_useful in E. destruct (update _ now s id _) as [s'|] eqn:E1; [|discriminate E]. injection E as <-.
      apply (tame_step any any cfg _ _ _ _ _ _ I E1); [intros q; split; [reflexivity|intros H; split; [exact H|split; reflexivity]]|discriminate].
Qed.
Lemma run_inv : forall ops w w', inv any any (w_set w) -> run w ops = Go w' -> inv any any (w_set w').
Proof.
  induction ops as [|[now o] ops IH]; intros w w' I E; [injection E as <-; exact I|]. cbn [PeersModel.run] in E.
  destruct (step w now o) as [w1|] eqn:E1; [|discriminate E]. exact (IH w1 w' (step_inv _ _ _ _ I E1) E).
Qed.
Lemma start_inv : inv any any (w_set start).
Proof. split; constructor. Qed.

(* ---- evicted peers wait ---- *)
Definition waits (w : world) (id t : N) : Prop := exists q t', In (id, q) (w_set w) /\ evicted_at q t' /\ t <= t'.
Lemma evicted_not_connected : forall q t, evicted_at q t -> is_connected q = false.
Proof. intros q t (_ & c & E). unfold is_connected. rewrite E. reflexivity. Qed.
Lemma step_waits : forall w now o w' id t, inv any any (w_set w) -> waits w id t -> t <= now -> now < t + 30000 -> now < t + eviction_timeout cfg ->
  step w now o = Go w' -> waits w' id t /\ forall d, In (id, d) (w_conns w') -> In (id, d) (w_conns w).
Proof.
  intros [s conns] now o w' id t I (q & t' & HQ & EV & LT) L1 L2 L3 E. cbn [w_set w_conns] in *.
  pose proof (evicted_not_connected _ _ EV) as NC.
  assert (R : retained (eviction_timeout cfg) now (id, q) = true).
  { unfold retained. cbn [snd]. destruct EV as (_ & c & ->). unfold within. apply N.ltb_lt. lia. }
  assert (TR : evicted_too_recently now s id = true).
  { unfold evicted_too_recently. rewrite (get_of_in _ _ _ (proj1 I) HQ). destruct EV as (EV & c & ->). rewrite EV. unfold within. apply N.ltb_lt. lia. }
  assert (W : forall s' cs, In (id, q) s' -> waits (World s' cs) id t) by (intros s' cs H; exists q, t'; auto).
  destruct o as [a|i a inner|i d|i a inner|i|i|i d|i]; cbn [PeersModel.step w_set w_conns] in E.
  - destruct (pending_inbound_ok any any rank group_of resolve cfg now s a I) as (s' & b & E1 & _ & _ & K). rewrite E1 in E. injection E as <-. auto.
  - unfold established_inbound in E. destruct (get_ip resolve a) as [ip|]; [|injection E as <-; auto].
    destruct (duplicate s i) eqn:DU; [injection E as <-; auto|]. destruct (N.eq_dec i id) as [->|NE].
    + rewrite TR in E. injection E as <-. auto.
    + destruct (evicted_too_recently now s i); [injection E as <-; auto|].
      destruct (limit_ok any any rank group_of resolve cfg now s a I) as (s' & b & E1 & I' & _ & _ & K). rewrite E1 in E. cbn [bind] in E.
      assert (HQ' : In (id, q) s').
      { destruct (K id q HQ R) as [K1|[K1 _]]; [exact K1|]. apply recorded_connected in K1. cbn [snd] in K1. congruence. }
      destruct (b && inner); [|injection E as <-; auto].
      destruct (on_established group_of resolve cfg now s' i Inbound a) as [s2|] eqn:E2; [|discriminate E]. injection E as <-. split.
      * apply W. unfold on_established in E2. destruct (get_ip resolve a); exact (upsert_other _ _ _ _ _ _ _ _ _ (proj1 I') E2 HQ' R (not_eq_sym NE)).
      * intros d H. apply in_app_or in H. destruct H as [H|[[= X _]|[]]]; [exact H|congruence].
  - unfold pending_outbound in E. destruct i as [i|]; [|injection E as <-; auto]. destruct d; [|injection E as <-; auto].
    destruct (N.eq_dec i id) as [->|NE]; [rewrite TR in E; injection E as <-; auto|].
    destruct (evicted_too_recently now s i); [injection E as <-; auto|].
    assert (K : exists s1 b, (if (max_outbound_peers cfg <=? length (outbound_peers cfg now s))%nat then evict_outbound_peer rank cfg now s else Go (s, true)) = Go (s1, b) /\
      inv any any s1 /\ In (id, q) s1).
    { destruct (_ <=? _)%nat; [|exists s, true; auto].
      destruct (evict_outbound_ok any any rank group_of resolve cfg now s I) as (s1 & b & E1 & I1 & _ & _ & _ & K). exists s1, b. auto. }
    destruct K as (s1 & b & E1 & I1 & H1). rewrite E1 in E. cbn [bind] in E. destruct b; [|injection E as <-; auto].
    destruct (upsert _ now s1 i _ _) as [s2|] eqn:E2; [|discriminate E]. injection E as <-. split; [|auto].
    apply W. exact (upsert_other _ _ _ _ _ _ _ _ _ (proj1 I1) E2 H1 R (not_eq_sym NE)).
  - destruct (established_outbound resolve now s i a && inner) eqn:EO; [|injection E as <-; auto].
    destruct (N.eq_dec i id) as [->|NE].
    { unfold established_outbound in EO. destruct (get_ip resolve a); [|discriminate EO]. rewrite TR, andb_false_r in EO. discriminate EO. }
    destruct (on_established group_of resolve cfg now s i Outbound a) as [s2|] eqn:E2; [|discriminate E]. injection E as <-. split.
    + apply W. unfold on_established in E2. destruct (get_ip resolve a); exact (upsert_other _ _ _ _ _ _ _ _ _ (proj1 I) E2 HQ R (not_eq_sym NE)).
    + intros d H. apply in_app_or in H. destruct H as [H|[[= X]|[]]]; [exact H|congruence].
  - unfold on_dial_failure in E. destruct i as [i|]; [|injection E as <-; auto].
    destruct (upsert _ now s i _ _) as [s'|] eqn:E1; [|discriminate E]. injection E as <-. split; [|auto]. destruct (N.eq_dec i id) as [->|NE].
    + exists (with_conn q (Disconnected None now)), now. split; [|split; [split; [exact (proj1 EV)|exists None; reflexivity]|exact L1]].
      pose proof (upsert_self _ _ _ _ _ _ _ _ (proj1 I) E1 HQ R) as X. cbv beta in X. rewrite NC in X. exact X.
    + apply W. exact (upsert_other _ _ _ _ _ _ _ _ _ (proj1 I) E1 HQ R (not_eq_sym NE)).
  - destruct (remove_first i conns) as [cs|] eqn:ER; [|injection E as <-; auto].
    assert (S : forall d, In (id, d) cs -> In (id, d) conns) by (intros d; exact (remove_first_in _ _ _ _ ER)).
    unfold on_closed in E. destruct (connections i cs); [|injection E as <-; auto].
    destruct (update _ now s i _) as [s'|] eqn:E1; [|discriminate E]. injection E as <-. split; [|exact S]. destruct (N.eq_dec i id) as [->|NE].
    + exists (with_conn q (Disconnected (connected_at q) now)), now. split; [|split; [split; [exact (proj1 EV)|eexists; reflexivity]|exact L1]].
      exact (upsert_self _ _ _ _ _ _ _ _ (proj1 I) E1 HQ R).
    + apply W. exact (upsert_other _ _ _ _ _ _ _ _ _ (proj1 I) E1 HQ R (not_eq_sym NE)).
  - unfold pinged in E. destruct (update _ now s i _) as [s'|] eqn:E1; [|discriminate E]. injection E as <-. split; [|auto]. destruct (N.eq_dec i id) as [->|NE].
    + eexists _, t'. split; [exact (upsert_self _ _ _ _ _ _ _ _ (proj1 I) E1 HQ R)|]. split; [exact EV|exact LT].
    + apply W. exact (upsert_other _ _ _ _ _ _ _ _ _ (proj1 I) E1 HQ R (not_eq_sym NE)).
  - unfold not_useful in E. destruct (update _ now s i _) as [s'|] eqn:E1; [|discriminate E]. injection E as <-. split; [|auto]. destruct (N.eq_dec i id) as [->|NE].
    + eexists _, t'. split; [exact (upsert_self _ _ _ _ _ _ _ _ (proj1 I) E1 HQ R)|]. split; [exact EV|exact LT].
    + apply W. exact (upsert_other _ _ _ _ _ _ _ _ _ (proj1 I) E1 HQ R (not_eq_sym NE)).
Qed.
Lemma run_waits : forall ops w w' id t, inv any any (w_set w) -> waits w id t ->
  (forall now o, In (now, o) ops -> t <= now /\ now < t + 30000 /\ now < t + eviction_timeout cfg) ->
  run w ops = Go w' -> waits w' id t /\ forall d, In (id, d) (w_conns w') -> In (id, d) (w_conns w).
Proof.
  induction ops as [|[now o] ops IH]; intros w w' id t I W H E; [injection E as <-; auto|]. cbn [PeersModel.run] in E.
  destruct (step w now o) as [w1|] eqn:E1; [|discriminate E]. cbn [bind] in E.
  destruct (H now o (or_introl eq_refl)) as (A & B & C).
  destruct (step_waits w now o w1 id t I W A B C E1) as [W1 C1].
  destruct (IH w1 w' id t (step_inv _ _ _ _ I E1) W1 ltac:(intros n o' HI; apply (H n o'); right; exact HI) E) as [W2 C2].
  split; [exact W2|]. intros d HD. exact (C1 d (C2 d HD)).
Qed.

(* ---- who is disconnected ---- *)
Lemma connected_retained : forall ret now id q, is_connected q = true -> retained ret now (id, q) = true.
Proof. intros ret now id q C. unfold retained, is_connected in *. cbn [snd]. destruct (p_conn q); congruence. Qed.
Lemma dial_spares : forall now s i d s' b id q, inv any any s -> pending_outbound rank cfg now s i d = Go (s', b) ->
  In (id, q) s -> is_connected q = true ->
  In (id, q) s' \/ (In (id, evicted q) s' /\ is_outbound q = true /\ p_useful q = false /\ (max_outbound_peers cfg <= length (outbound_peers cfg now s))%nat) \/
  (exists q', In (id, q') s' /\ i = Some id /\ p_conn q' = Dialing /\ is_outbound q = true /\ p_useful q = false /\ (max_outbound_peers cfg <= length (outbound_peers cfg now s))%nat).
Proof.
  intros now s i d s' b id q I E HQ C. unfold pending_outbound in E. destruct i as [i|]; [|injection E as <- _; auto]. destruct d; [|injection E as <- _; auto].
  destruct (evicted_too_recently now s i); [injection E as <- _; auto|].
  assert (K : exists s1 b, (if (max_outbound_peers cfg <=? length (outbound_peers cfg now s))%nat then evict_outbound_peer rank cfg now s else Go (s, true)) = Go (s1, b) /\
    inv any any s1 /\ (In (id, q) s1 \/ (In (id, evicted q) s1 /\ is_outbound q = true /\ p_useful q = false /\ (max_outbound_peers cfg <= length (outbound_peers cfg now s))%nat))).
  { destruct (Nat.leb_spec (max_outbound_peers cfg) (length (outbound_peers cfg now s))) as [L|L]; [|exists s, true; auto].
    destruct (evict_outbound_ok any any rank group_of resolve cfg now s I) as (s1 & b1 & E1 & I1 & _ & F & T & _). exists s1, b1.
    split; [exact E1|]. split; [exact I1|]. destruct b1; [|destruct (F eq_refl) as [-> _]; auto].
    destruct (T eq_refl) as (v & qv & HV & CV & OV & UV & HE & O). destruct (N.eq_dec id v) as [->|NE].
    - right. pose proof (get_of_in _ _ _ (proj1 I) HV) as X. rewrite (get_of_in _ _ _ (proj1 I) HQ) in X. injection X as ->. auto.
    - left. exact (O id q NE HQ (connected_retained _ _ _ _ C)). }
  destruct K as (s1 & b1 & E1 & I1 & H1). rewrite E1 in E. cbn [bind] in E. destruct b1; [|injection E as <- _; tauto].
  destruct (upsert _ now s1 i _ _) as [s2|] eqn:E2; [|discriminate E]. injection E as <- _.
  destruct (N.eq_dec id i) as [->|NE].
  - destruct H1 as [H1|(H1 & A1 & A2 & A3)].
    + left. pose proof (upsert_self _ _ _ _ _ _ _ _ (proj1 I1) E2 H1 (connected_retained _ _ _ _ C)) as X. cbv beta in X. rewrite C in X. exact X.
    + right. right. eexists. split; [exact (upsert_self _ _ _ _ _ _ _ _ (proj1 I1) E2 H1 eq_refl)|]. auto.
  - destruct H1 as [H1|(H1 & A1 & A2 & A3)].
    + left. exact (upsert_other _ _ _ _ _ _ _ _ _ (proj1 I1) E2 H1 (connected_retained _ _ _ _ C) NE).
    + right. left. split; [exact (upsert_other _ _ _ _ _ _ _ _ _ (proj1 I1) E2 H1 eq_refl NE)|auto].
Qed.
End Run.
