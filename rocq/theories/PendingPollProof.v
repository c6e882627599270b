(* Proofs about the polling of pending data. *)
From Coq Require Import List Arith NArith Bool Lia ZifyBool ZifyNat ZifyN Sorted.
From Verif Require Import AList StateUpdateModel TxLookupModel PendingPollModel PendingPollSpec.
Import ListNotations.
Local Open Scope N_scope.

Lemma newer_trans a b c : newer a b -> newer b c -> newer a c.
Proof. unfold newer. destruct a as [n1 c1 p1], b as [n2 c2 p2], c as [n3 c3 p3]. cbn. intuition (try lia); subst; try discriminate; try (left; lia); right; split; try congruence; left; lia. Qed.
Lemma newer_irrefl a : ~ newer a a.
Proof. unfold newer. intros [H|[_ [H|(_ & H1 & H2)]]]; [lia|lia|congruence]. Qed.

Definition pkey (s : pstate) : key := Key (ps_number s) (ps_count s) (ps_pre_latest s).
Definition ekey (e : event) : key := data_key (e_number e) (e_block e) (e_pre_latest e).
Definition at_most (a b : key) : Prop := a = b \/ newer a b.
Lemma should_update_iff s new : should_update s new = true <-> newer (pkey s) (pkey new).
Proof.
  unfold should_update, newer, pkey. cbn. destruct (N.compare_spec (ps_number new) (ps_number s)) as [E|E|E].
  - destruct (Nat.compare_spec (ps_count new) (ps_count s)) as [F|F|F].
    + rewrite andb_true_iff, negb_true_iff. intuition lia.
    + intuition lia.
    + intuition lia.
  - intuition (try lia); discriminate.
  - intuition lia.
Qed.

Lemma has_iff q number b pl : gateway_has q number b pl <->
  (IN_SYNC_THRESHOLD <? abs_diff (q_latest q) (q_current q)) = false /\ fetch_pre_latest q = Some pl /\
  number = match pl with Some _ => q_latest q + 2 | None => q_latest q + 1 end /\ q_pre_confirmed q number = Some b.
Proof.
  unfold gateway_has, fetch_pre_latest, abs_diff, IN_SYNC_THRESHOLD. split.
  - intros (L1 & L2 & Q & x & -> & [(E & -> & ->)|(E & -> & ->)]).
    + split; [destruct (q_latest q <? q_current q) eqn:X; lia|]. rewrite E, N.eqb_refl. auto.
    + split; [destruct (q_latest q <? q_current q) eqn:X; lia|]. apply N.eqb_neq in E. rewrite E. auto.
  - intros (T & F & -> & Q). destruct (q_pending q) as [x|]; [|discriminate]. injection F as F.
    split; [destruct (q_latest q <? q_current q) eqn:X; lia|]. split; [destruct (q_latest q <? q_current q) eqn:X; lia|].
    split; [exact Q|]. exists x. split; [reflexivity|]. destruct (N.eqb_spec (pl_parent x) (q_hash q)); subst pl; auto.
Qed.

(* one iteration *)
Lemma poll_step_spec s q :
  match poll_step s q with
  | (s', Some e) => gateway_has q (e_number e) (e_block e) (e_pre_latest e) /\ pkey s' = ekey e /\ newer (pkey s) (ekey e)
  | (s', None) => s' = s /\ forall number b pl, gateway_has q number b pl -> ~ newer (pkey s) (data_key number b pl)
  end.
Proof.
  unfold poll_step. destruct (IN_SYNC_THRESHOLD <? _) eqn:T.
  { split; [reflexivity|]. intros number b pl H. apply has_iff in H. destruct H as (H & _). congruence. }
  destruct (fetch_pre_latest q) as [pl|] eqn:F.
  2:{ split; [reflexivity|]. intros number b pl H. apply has_iff in H. destruct H as (_ & H & _). congruence. }
  set (number := match pl with Some _ => _ | None => _ end). destruct (q_pre_confirmed q number) as [b|] eqn:Q.
  2:{ split; [reflexivity|]. intros m b pl' H. apply has_iff in H. destruct H as (_ & H & E & H'). rewrite F in H. injection H as <-.
      fold number in E. congruence. }
  assert (K : forall m b' pl', gateway_has q m b' pl' -> m = number /\ b' = b /\ pl' = pl).
  { intros m b' pl' H. apply has_iff in H. destruct H as (_ & H & E & H'). rewrite F in H. injection H as <-.
    fold number in E. subst m. rewrite Q in H'. injection H' as <-. auto. }
  destruct (should_update s _) eqn:U.
  - apply should_update_iff in U. cbn. split; [apply has_iff; auto|]. split; [reflexivity|exact U].
  - split; [reflexivity|]. intros m b' pl' H. apply K in H. destruct H as (-> & -> & ->). intros N.
    rewrite <- not_true_iff_false in U. apply U, should_update_iff. exact N.
Qed.

Lemma partition_length {A} (p : A -> bool) l : (length (filter p l) + length (filter (fun x => negb (p x)) l))%nat = length l.
Proof. induction l as [|x l IH]; [reflexivity|]. cbn. destruct (p x); cbn; lia. Qed.
Lemma convert_key b number pl w : convert b number pl = Converted w -> shown_key w = data_key number b pl.
Proof.
  unfold convert. destruct (negb _); [discriminate|]. unfold shown_key, data_key.
  destruct pl as [[n x]|]; [destruct (n + 1 =? number); [|discriminate]|]; intros E; injection E as <-;
    cbn [pt_number pt_txs pt_candidates pt_pre_latest present]; now rewrite partition_length.
Qed.
Lemma has_consistent q number b pl : gateway_has q number b pl -> convert b number pl <> AssertionFails.
Proof.
  intros (_ & _ & _ & x & _ & H). unfold convert. destruct (negb _); [discriminate|].
  destruct H as [(_ & -> & ->)|(_ & -> & ->)]; [|discriminate]. replace (q_latest q + 1 + 1) with (q_latest q + 2) by lia.
  rewrite N.eqb_refl. discriminate.
Qed.
Lemma has_base q number b pl : gateway_has q number b pl ->
  match pl with Some (n, _) => n | None => number end = base number pl + 1.
Proof. intros (_ & _ & _ & x & _ & [(_ & -> & ->)|(_ & -> & ->)]); cbn; lia. Qed.

(* ---- the invariant ---- *)
Definition polled (acts : list action) (e : event) : Prop :=
  exists q, In (DoPoll q) acts /\ gateway_has q (e_number e) (e_block e) (e_pre_latest e).
Record inv (acts : list action) (s : sys) : Prop := {
  v_sorted : StronglySorted newer (shown_key (s_watch s) :: map ekey (s_queue s));
  v_bound : Forall (fun k => at_most k (pkey (s_poller s))) (shown_key (s_watch s) :: map ekey (s_queue s));
  v_polled : Forall (polled acts) (s_queue s);
  v_seen : pkey (s_poller s) = Key 0 0 false \/ exists e, polled acts e /\ pkey (s_poller s) = ekey e;
  v_alive : s_panicked s = false
}.
Lemma polled_mono acts a e : polled acts e -> polled (acts ++ [a]) e.
Proof. intros (q & I & H). exists q. split; [apply in_app_iff; auto|exact H]. Qed.
Lemma sorted_snoc l k x : StronglySorted newer l -> Forall (fun y => at_most y k) l -> newer k x -> StronglySorted newer (l ++ [x]).
Proof.
  induction l as [|y l IH]; intros S B N; cbn; [repeat constructor|].
  apply StronglySorted_inv in S. destruct S as [S F]. inversion B as [|? ? B1 B2]; subst.
  constructor; [auto|]. apply Forall_app. split; [exact F|]. constructor; [|constructor].
  destruct B1 as [->|B1]; [exact N|]. eapply newer_trans; eauto.
Qed.
Lemma at_most_newer l a b : newer a b -> Forall (fun y => at_most y a) l -> Forall (fun y => at_most y b) l.
Proof. intros N. apply Forall_impl. intros y [->|H]; right; [exact N|eapply newer_trans; eauto]. Qed.

Lemma inv_step acts s a : inv acts s -> inv (acts ++ [a]) (step s a).
Proof.
  intros V. destruct a as [q| |l]; cbn [step].
  - pose proof (poll_step_spec (s_poller s) q) as P. destruct (poll_step (s_poller s) q) as [p [e|]].
    + destruct P as (H & K & N). constructor; cbn [s_watch s_queue s_poller s_panicked].
      * rewrite map_app. exact (sorted_snoc _ _ _ (v_sorted _ _ V) (v_bound _ _ V) N).
      * rewrite map_app, K. change (Forall (fun k => at_most k (ekey e)) ((shown_key (s_watch s) :: map ekey (s_queue s)) ++ [ekey e])).
        apply Forall_app. split; [exact (at_most_newer _ _ _ N (v_bound _ _ V))|]. repeat constructor.
      * apply Forall_app. split; [eapply Forall_impl; [|exact (v_polled _ _ V)]; intros; now apply polled_mono|].
        constructor; [|constructor]. exists q. split; [apply in_app_iff; right; now left|exact H].
      * right. exists e. split; [|exact K]. exists q. split; [apply in_app_iff; right; now left|exact H].
      * exact (v_alive _ _ V).
    + destruct P as [-> _]. rewrite app_nil_r. destruct V as [V1 V2 V3 V4 V5]. constructor; auto.
      * eapply Forall_impl; [|exact V3]. intros; now apply polled_mono.
      * destruct V4 as [V4|(e & P & K)]; [auto|]. right. exists e. split; [now apply polled_mono|exact K].
  - destruct V as [V1 V2 V3 V4 V5].
    assert (V4' : pkey (s_poller s) = Key 0 0 false \/ exists e, polled (acts ++ [Deliver]) e /\ pkey (s_poller s) = ekey e).
    { destruct V4 as [V4|(e & P & K)]; [auto|]. right. exists e. split; [now apply polled_mono|exact K]. }
    destruct (s_queue s) as [|e r] eqn:Q.
    + constructor; rewrite ?Q; auto.
    + inversion V3 as [|? ? P V3']; subst. cbn [map] in V1, V2.
      apply StronglySorted_inv in V1. destruct V1 as [S F]. apply StronglySorted_inv in S as S'. destruct S' as [S' F'].
      inversion F as [|? ? F1 F2]; subst. inversion V2 as [|? ? B1 B2]; subst. inversion B2 as [|? ? B3 B4]; subst.
      assert (PM : Forall (polled (acts ++ [Deliver])) r). { eapply Forall_impl; [|exact V3']. intros; now apply polled_mono. }
      unfold consume. cbn [s_latest s_poller s_queue s_watch s_panicked].
      assert (IGN : inv (acts ++ [Deliver]) (Sys (s_poller s) r (s_latest s) (s_watch s) (s_panicked s))).
      { constructor; cbn; auto. constructor; auto. }
      destruct (_ =? _); [|exact IGN]. destruct P as (q & I & H). pose proof (has_consistent _ _ _ _ H) as C.
      destruct (convert _ _ _) as [w| |] eqn:CV; [|exact IGN|congruence].
      apply convert_key in CV. fold (ekey e) in CV. constructor; cbn; rewrite ?CV; auto.
  - destruct V as [V1 V2 V3 V4 V5]. constructor; auto.
    + eapply Forall_impl; [|exact V3]. intros; now apply polled_mono.
    + destruct V4 as [V4|(e & P & K)]; [auto|]. right. exists e. split; [now apply polled_mono|exact K].
Qed.
Lemma inv_run acts : inv acts (run acts).
Proof.
  unfold run. induction acts as [|a acts IH] using rev_ind.
  - constructor; cbn; auto; [repeat constructor|]. repeat constructor.
  - rewrite fold_left_app. cbn. now apply inv_step.
Qed.
Lemma run_snoc acts a : run (acts ++ [a]) = step (run acts) a.
Proof. unfold run. now rewrite fold_left_app. Qed.

(* what a delivery does to the data shown *)
Lemma deliver_watch acts :
  let s := run acts in let s' := step s Deliver in
  s_watch s' = s_watch s \/
  exists q number b pl, In (DoPoll q) acts /\ gateway_has q number b pl /\ base number pl = latest_number s /\
    convert b number pl = Converted (s_watch s') /\ newer (shown_key (s_watch s)) (shown_key (s_watch s')).
Proof.
  cbn. pose proof (inv_run acts) as V. set (s := run acts) in *. destruct (s_queue s) as [|e r] eqn:Q; [auto|].
  destruct V as [V1 _ V3 _ _]. rewrite Q in *. inversion V3 as [|? ? P _]; subst. destruct P as (q & I & H).
  apply StronglySorted_inv in V1. destruct V1 as [_ F]. inversion F as [|? ? F1 _]; subst.
  unfold consume. cbn [s_latest s_poller s_queue s_watch s_panicked].
  destruct (_ =? _) eqn:E; [|auto]. rewrite (has_base _ _ _ _ H) in E. apply N.eqb_eq in E.
  destruct (convert _ _ _) as [w| |] eqn:CV; [|auto|auto]. right.
  exists q, (e_number e), (e_block e), (e_pre_latest e). cbn [s_watch].
  split; [exact I|]. split; [exact H|]. split; [|split; [exact CV|]].
  - unfold latest_number. unfold get_or in E. destruct (s_latest s); lia.
  - apply convert_key in CV. rewrite CV. exact F1.
Qed.

(* delivering all events while the latest block does not change *)
Lemma deliver_all l : forall s e w,
  s_queue s = l ++ [e] ->
  match e_pre_latest e with Some (n, _) => n | None => e_number e end = latest_number s + 1 ->
  convert (e_block e) (e_number e) (e_pre_latest e) = Converted w ->
  s_watch (fold_left step (repeat Deliver (length (l ++ [e]))) s) = w.
Proof.
  induction l as [|x l IH]; intros s e w Q B C.
  - cbn. rewrite Q. cbn. unfold consume. cbn [s_latest]. unfold latest_number in B.
    assert (X : (match e_pre_latest e with Some (n, _) => n | None => e_number e end =? get_or 0 (s_latest s) + 1) = true).
    { apply N.eqb_eq. rewrite B. unfold get_or. now destruct (s_latest s). }
    rewrite X, C. reflexivity.
  - cbn [app length repeat fold_left].
    assert (K : s_queue (step s Deliver) = l ++ [e] /\ s_latest (step s Deliver) = s_latest s).
    { cbn [step]. rewrite Q. cbn [app]. unfold consume. cbn [s_queue s_latest]. destruct (_ =? _); [|auto].
      destruct (convert (e_block x) _ _); split; reflexivity. }
    destruct K as [K1 K2]. apply IH; [exact K1| |exact C]. rewrite B. unfold latest_number. now rewrite K2.
Qed.
