(* C83: connections to peers. *)
From Coq Require Import List NArith Bool Arith Lia ZifyBool ZifyN ZifyNat.
From Verif Require Import PeersModel PeersSpec PeersProof PeersRun.
Import ListNotations.
Local Open Scope N_scope.

(* ---- a small network, for the examples ---- *)
Definition ex_cfg (direct outbound : nat) : config :=
  Config 0 0 direct 1 outbound 900000 (fun _ => true) 100 1000.
Definition ex_run (direct outbound : nat) := run (fun id => id) (fun ip => ip / 65536) (fun _ => None) (ex_cfg direct outbound) start.
Definition addr (ip : N) : multiaddr := [Ip ip; Other].
Definition relay (ip : N) : multiaddr := [Ip ip; P2p 77; Circuit].

(* ---- C83_inbound_limit_partial: as long as no peer both connects to us and is dialed by us, there are
   never more inbound connections than configured, of either kind. ---- *)
Theorem C83_inbound_limit_partial : forall rank group_of resolve cfg ops w, one_way ops ->
  run rank group_of resolve cfg start ops = Go w ->
  (length (inbound_open false w) <= max_inbound_direct_peers cfg)%nat /\
  (length (inbound_open true w) <= max_inbound_relayed_peers cfg)%nat.
Proof.
  intros rank group_of resolve cfg ops w OW E.
  assert (A : forall t o, In (t, o) ops -> allowed (inward ops) (outward ops) o).
  { intros t o H. destruct o as [a|id a i|[id|] d|id a i|[id|]|id|id d|id]; cbn [allowed]; try exact Logic.I.
    - exists t, a, i. exact H.
    - exists t. left. eauto.
    - exists t. right. left. eauto.
    - exists t. right. right. exact H. }
  pose proof (run_ok _ _ rank group_of resolve cfg OW ops start w (start_ok _ _ cfg) A E) as (I & [B1 B2] & CI).
  assert (K : forall r, (length (inbound_open r w) <= cnt (recorded r) (w_set w))%nat).
  { intros r. unfold inbound_open, cnt. destruct I as [_ G]. clear B1 B2. induction (w_set w) as [|e s IH]; [apply Nat.le_refl|].
    inversion G as [|? ? GE G']; subst. specialize (IH G'). cbn [filter].
    destruct (is_connected (snd e) && eqb (is_relayed (snd e)) r && existsb (fun c => (fst c =? fst e) && dir_eqb (snd c) Inbound) (w_conns w)) eqn:P.
    - rewrite !andb_true_iff in P. destruct P as [[P1 P2] P3]. apply existsb_exists in P3. destruct P3 as ([i d] & HC & P3). cbn [fst snd] in P3.
      apply andb_true_iff in P3. destruct P3 as [P3 P4]. apply N.eqb_eq in P3. destruct d; [|discriminate P4]. subst i. apply CI in HC.
      assert (D : is_inbound (snd e) = true).
      { destruct GE as [GE _]. unfold is_inbound. destruct (p_dir (snd e)); [reflexivity|]. exfalso. exact (OW _ HC GE). }
      assert (RE : recorded r e = true) by (unfold recorded; rewrite P1, P2, D; reflexivity). rewrite RE. exact (le_n_S _ _ IH).
    - destruct (recorded r e); [exact (le_S _ _ IH)|exact IH]. }
  pose proof (K false). pose proof (K true). lia.
Qed.
Print Assumptions C83_inbound_limit_partial.
(* With a limit of two direct and one relayed peers, two of one network and one relayed connect, and then
   two more: for one of them an earlier one has to go, and for the relayed one nobody can. *)
Definition ex_in : list (N * op) :=
  [(1, EstablishedIn 1 (addr 65537) true); (2, EstablishedIn 2 (addr 65538) true); (3, EstablishedIn 3 (relay 1) true);
   (4, EstablishedIn 4 (addr 131072) true); (5, EstablishedIn 5 (relay 2) true); (6, Closed 2)].
Example C83_inbound_example : one_way ex_in /\
  exists w, ex_run 2 1 ex_in = Go w /\ map fst (inbound_open false w) = [1; 4] /\ map fst (inbound_open true w) = [3].
Proof.
  split.
  - intros id _ (t & [(d & H)|[(a & i & H)|H]]); cbn in H; intuition discriminate.
  - eexists. split; [vm_compute; reflexivity|]. vm_compute. auto.
Qed.
(* But the direction of a peer once seen is not updated: one that was dialed before, in vain, is not
   counted when it connects. *)
Theorem C83_inbound_limit_refuted : exists rank group_of resolve cfg ops w,
  run rank group_of resolve cfg start ops = Go w /\ (max_inbound_direct_peers cfg < length (inbound_open false w))%nat.
Proof.
  exists (fun id => id), (fun ip => ip / 65536), (fun _ => None), (ex_cfg 1 1).
  exists [(1, PendingOut (Some 1) true); (2, DialFailed (Some 1)); (3, EstablishedIn 1 (addr 1) true); (4, EstablishedIn 2 (addr 2) true)].
  eexists. split; [vm_compute; reflexivity|]. vm_compute. lia.
Qed.
Print Assumptions C83_inbound_limit_refuted.

(* ---- C83_room: a peer connecting to us disconnects another only if its kind is at the limit, only one
   of its kind, ... ---- *)
Theorem C83_room : forall rank group_of resolve cfg ops w now o w' a id q,
  run rank group_of resolve cfg start ops = Go w -> (o = PendingIn a \/ exists i b, o = EstablishedIn i a b) ->
  step rank group_of resolve cfg w now o = Go w' -> entry w id q -> connected q ->
  entry w' id q \/
  (exists q', entry w' id q' /\ being_disconnected q' /\ is_inbound q = true /\ is_relayed q = existsb is_circuit a /\
    ((if is_relayed q then max_inbound_relayed_peers cfg else max_inbound_direct_peers cfg) <=
     length (filter (fun e => is_connected (snd e) && is_inbound (snd e) && eqb (is_relayed (snd e)) (is_relayed q)) (w_set w)))%nat).
Proof.
  intros rank group_of resolve cfg ops w now o w' a id q ER O E HQ [tc C].
  assert (CQ : is_connected q = true) by (unfold is_connected; rewrite C; reflexivity).
  pose proof (run_inv rank group_of resolve cfg ops start w start_inv ER) as I.
  assert (L : forall s' b, limit_inbound rank cfg now (w_set w) a = Go (s', b) -> In (id, q) s' \/
    (In (id, evicted q) s' /\ is_inbound q = true /\ is_relayed q = existsb is_circuit a /\
    ((if is_relayed q then max_inbound_relayed_peers cfg else max_inbound_direct_peers cfg) <=
     length (filter (fun e => is_connected (snd e) && is_inbound (snd e) && eqb (is_relayed (snd e)) (is_relayed q)) (w_set w)))%nat)).
  { intros s' b EL. destruct (limit_ok _ _ rank group_of resolve cfg now (w_set w) a I) as (s1 & b1 & E1 & _ & _ & _ & K).
    rewrite EL in E1. injection E1 as <- <-. destruct (K id q HQ (connected_retained _ _ _ _ CQ)) as [K1|(K1 & K2 & K3)]; [auto|]. right.
    unfold recorded in K1. cbn [snd] in K1. rewrite !andb_true_iff, eqb_true_iff in K1. destruct K1 as [[_ K1] K4].
    split; [exact K2|]. split; [exact K1|]. split; [exact K4|]. rewrite K4. destruct (existsb is_circuit a); exact K3. }
  assert (D : forall q0, being_disconnected (evicted q0)) by (intros q0; eexists; reflexivity).
  unfold entry in *. destruct O as [->|(i & b & ->)]; cbn [step] in E.
  - destruct (pending_inbound rank resolve cfg now (w_set w) a) as [[s' b]|] eqn:EP; [|discriminate E]. injection E as <-. cbn [w_set].
    assert (G : limit_inbound rank cfg now (w_set w) a = Go (s', b) \/ s' = w_set w).
    { revert EP. unfold pending_inbound. destruct (_ <=? _)%nat; [intros [= <- _]; auto|]. destruct (get_ip resolve a); [|intros [= <- _]; auto].
      destruct (negb _); [intros [= <- _]; auto|]. destruct (existsb _ (iter _ _ _)); [intros [= <- _]; auto|].
      destruct (find_map _ a); [|auto]. destruct (evicted_too_recently _ _ _); [intros [= <- _]; auto|auto]. }
    destruct G as [G| ->]; [|auto]. destruct (L s' b G) as [H|(H1 & H2)]; [auto|]. right. exists (evicted q). auto.
  - destruct (established_inbound rank resolve cfg now (w_set w) i a) as [[s' ok]|] eqn:EP; [|discriminate E]. cbn [bind] in E.
    unfold established_inbound in EP. destruct (get_ip resolve a) as [ip|] eqn:EI; [|injection EP as <- <-; injection E as <-; auto].
    destruct (duplicate (w_set w) i) eqn:DU; [injection EP as <- <-; injection E as <-; auto|].
    destruct (evicted_too_recently now (w_set w) i); [injection EP as <- <-; injection E as <-; auto|].
    assert (NE : id <> i).
    { intros ->. unfold duplicate in DU. rewrite (get_of_in _ _ _ (proj1 I) HQ) in DU. congruence. }
    destruct (limit_ok _ _ rank group_of resolve cfg now (w_set w) a I) as (s1 & b1 & E1 & I1 & _). rewrite EP in E1. injection E1 as <- <-.
    assert (M : exists s2, w_set w' = s2 /\ forall x, In (id, x) s' -> is_connected x = true \/ being_disconnected x -> In (id, x) s2).
    { destruct (ok && b); [|injection E as <-; eauto].
      destruct (on_established group_of resolve cfg now s' i Inbound a) as [s2|] eqn:E2; [|discriminate E]. injection E as <-. exists s2. split; [reflexivity|].
      intros x HX CX. assert (R : retained (eviction_timeout cfg) now (id, x) = true).
      { destruct CX as [CX|[c CX]]; [exact (connected_retained _ _ _ _ CX)|]. unfold retained. cbn [snd]. rewrite CX. reflexivity. }
      unfold on_established in E2. rewrite EI in E2. exact (upsert_other _ _ _ _ _ _ _ _ _ (proj1 I1) E2 HX R NE). }
    destruct M as (s2 & -> & M). destruct (L s' ok EP) as [H|(H1 & H2)]; [left; apply M; auto|]. right. exists (evicted q).
    split; [apply M; auto|]. auto.
Qed.
Print Assumptions C83_room.

(* ---- C83_protected: ... and not the peer of its network group that the secret favours, if the group is one
   of the four the secret favours, nor, if eight others have not answered faster, one that answers pings. ---- *)
Theorem C83_protected : forall rank c v, NoDup (map c_id c) -> choose_inbound rank c = Some v ->
  exists x, In x c /\ c_id x = v /\
    ((forall w, In w c -> w <> x -> c_group w = c_group x -> rank (c_id x) < rank (c_id w)) ->
      exists gs, NoDup gs /\ length gs = 4%nat /\ forall g, In g gs -> g < c_group x /\ exists w, In w c /\ c_group w = g) /\
    (forall t, c_ping x = Some t ->
      exists ids, NoDup ids /\ length ids = 8%nat /\
        forall i, In i ids -> i <> v /\ exists w u, In w c /\ c_id w = i /\ c_ping w = Some u /\ u <= t).
Proof.
  intros rank c v ND E. destruct (chosen rank c v E) as (x & <- & HX & _). exists x. split; [exact (c3_c rank c x HX)|].
  split; [reflexivity|]. apply remove_all_in in HX. destruct HX as [H2 _]. split.
  - apply (group_unpicked rank c ND). apply remove_all_in in H2. exact (proj1 H2).
  - intros t ET. exact (ping_unpicked rank c ND x t H2 ET).
Qed.
Print Assumptions C83_protected.
(* If there are more than twelve, one has to go. *)
Theorem C83_someone_goes : forall rank c, NoDup (map c_id c) -> (12 < length c)%nat -> exists v, choose_inbound rank c = Some v.
Proof. exact choice_exists. Qed.
Print Assumptions C83_someone_goes.
(* Of the others, the code's comments promise to protect the half connected for longest, and to evict the
   youngest of the most populous group. It is the other way round on each count: among the unprotected, nobody
   connected for longer than the victim is in a smaller group than it, nor in its own. *)
Theorem C83_choice_partial : forall rank c v, NoDup (map c_id c) -> choose_inbound rank c = Some v ->
  exists x, In x c /\ c_id x = v /\ forall y, In y c -> c_ping y = None ->
    (exists z, In z c /\ c_group z = c_group y /\ rank (c_id z) < rank (c_id y)) -> c_at y < c_at x ->
    (population c (c_group x) < population c (c_group y))%nat \/
    population c (c_group x) = population c (c_group y) /\ c_group y < c_group x.
Proof.
  intros rank c v ND E. destruct (chosen rank c v E) as (x & <- & HX & M). exists x. split; [exact (c3_c rank c x HX)|]. split; [reflexivity|].
  intros y HY EP Z L. exact (choice_order rank c ND x y HX M HY EP Z L).
Qed.
Print Assumptions C83_choice_partial.
(* Whatever the secret, an attacker with twelve peers of one network, just connected, and four others
   gets the one peer disconnected that is of another network and was there before any of them. *)
Definition ex_attack : list candidate :=
  [Candidate 100 9 None 0] ++ map (fun i => Candidate i i None 10) [1; 2; 3; 4] ++
  map (fun i => Candidate (20 + i) 5 None (100 + i)) [1; 2; 3; 4; 5; 6; 7; 8; 9; 10; 11; 12].
Theorem C83_choice_refuted : exists c x, NoDup (map c_id c) /\ In x c /\
  (forall y, In y c -> y <> x -> c_at x < c_at y) /\ population c (c_group x) = 1%nat /\
  (exists g, population c g = 12%nat) /\ forall rank, choose_inbound rank c = Some (c_id x).
Proof.
  exists ex_attack, (Candidate 100 9 None 0). split; [|split; [|split; [|split; [|split]]]].
  - unfold ex_attack. cbn. repeat constructor; cbn; intuition discriminate.
  - left. reflexivity.
  - intros y H NE. destruct H as [<-|H]; [congruence|]. apply in_app_or in H. destruct H as [[]|H]. apply in_app_or in H.
    destruct H as [H|H]; apply in_map_iff in H; destruct H as (i & <- & H); cbn [c_at]; lia.
  - reflexivity.
  - exists 5. reflexivity.
  - intros rank. vm_compute. reflexivity.
Qed.
Print Assumptions C83_choice_refuted.
Example C83_choice_example : NoDup (map c_id ex_attack) /\ (12 < length ex_attack)%nat /\
  choose_inbound (fun id => id) (Candidate 101 5 (Some 3) 1 :: ex_attack) <> None.
Proof. split; [destruct C83_choice_refuted; unfold ex_attack; cbn; repeat constructor; cbn; intuition discriminate|]. vm_compute. split; [lia|discriminate]. Qed.

(* What counts for that is the fastest of all answers of the peer. *)
Theorem C83_fastest : forall rank group_of resolve cfg ops w now id d w' q,
  run rank group_of resolve cfg start ops = Go w -> entry w id q -> connected q ->
  step rank group_of resolve cfg w now (Pinged id d) = Go w' ->
  exists q' t, entry w' id q' /\ connected q' /\ p_ping q' = Some t /\ t <= d /\
    (forall u, p_ping q = Some u -> t <= u) /\ (t = d \/ p_ping q = Some t).
Proof.
  intros rank group_of resolve cfg ops w now id d w' q ER HQ [tc C] E.
  pose proof (run_inv rank group_of resolve cfg ops start w start_inv ER) as I. cbn [step] in E. unfold pinged, update, upsert in E.
  assert (R : In (id, q) (filter (retained (eviction_timeout cfg) now) (w_set w))).
  { apply filter_In. split; [exact HQ|]. unfold retained. cbn [snd]. rewrite C. reflexivity. }
  destruct (get _ id) as [q0|]; [|discriminate E]. injection E as <-. unfold entry. cbn [w_set].
  eexists _, _. split; [apply in_map_iff; exists (id, q); split; [cbn [fst snd]; rewrite N.eqb_refl; reflexivity|exact R]|].
  split; [exists tc; exact C|]. split; [reflexivity|]. destruct (p_ping q) as [u|].
  - split; [lia|]. split; [intros u' [= <-]; lia|]. destruct (N.min_spec u d) as [[_ ->]|[_ ->]]; auto.
  - split; [lia|]. split; [discriminate|auto].
Qed.
Print Assumptions C83_fastest.
Example C83_fastest_example : exists w, ex_run 2 1 (firstn 2 ex_in ++ [(3, Pinged 1 40); (4, Pinged 1 30); (5, Pinged 1 50)]) = Go w /\
  map (fun e => (fst e, p_ping (snd e))) (w_set w) = [(1, Some 30); (2, None)].
Proof. eexists. split; vm_compute; reflexivity. Qed.

(* ---- C83_dial: dialing disconnects another peer only if the limit is reached, and only one that we
   dialed and that was flagged as not useful. ---- *)
Theorem C83_dial : forall rank group_of resolve cfg ops w now i d w' id q,
  run rank group_of resolve cfg start ops = Go w -> step rank group_of resolve cfg w now (PendingOut i d) = Go w' ->
  entry w id q -> connected q ->
  entry w' id q \/
  (is_outbound q = true /\ p_useful q = false /\ (exists q', entry w' id q' /\ (being_disconnected q' \/ i = Some id)) /\
   (max_outbound_peers cfg <= length (filter (fun e => is_connected (snd e) && is_outbound (snd e)) (w_set w)))%nat).
Proof.
  intros rank group_of resolve cfg ops w now i d w' id q ER E HQ [tc C].
  assert (CQ : is_connected q = true) by (unfold is_connected; rewrite C; reflexivity).
  pose proof (run_inv rank group_of resolve cfg ops start w start_inv ER) as I. cbn [step] in E.
  destruct (pending_outbound rank cfg now (w_set w) i d) as [[s' b]|] eqn:EP; [|discriminate E]. injection E as <-. unfold entry in *. cbn [w_set].
  assert (L : length (outbound_peers cfg now (w_set w)) = length (filter (fun e => is_connected (snd e) && is_outbound (snd e)) (w_set w))).
  { exact (cnt_retained (fun e => is_connected (snd e) && is_outbound (snd e)) (eviction_timeout cfg) now (w_set w) ltac:(intros e H; apply andb_true_iff in H; tauto)). }
  rewrite <- L.
  destruct (dial_spares rank group_of resolve cfg now (w_set w) i d s' b id q I EP HQ CQ) as [H|[(H & A & B & D)|(q' & H & A & _ & B & D & F)]]; [auto| |].
  - right. split; [exact A|]. split; [exact B|]. split; [|exact D]. exists (evicted q). split; [exact H|]. left. eexists. reflexivity.
  - right. split; [exact B|]. split; [exact D|]. split; [|exact F]. exists q'. auto.
Qed.
Print Assumptions C83_dial.
(* But the limit is on dialing only, and counts connected peers: peers dialed at the same time all get in. *)
Theorem C83_outbound_limit_refuted : exists rank group_of resolve cfg ops w,
  run rank group_of resolve cfg start ops = Go w /\ (max_outbound_peers cfg < length (outbound_open w))%nat.
Proof.
  exists (fun id => id), (fun ip => ip / 65536), (fun _ => None), (ex_cfg 1 1).
  exists [(1, PendingOut (Some 1) true); (1, PendingOut (Some 2) true); (2, EstablishedOut 1 (addr 1) true); (3, EstablishedOut 2 (addr 2) true)].
  eexists. split; [vm_compute; reflexivity|]. vm_compute. lia.
Qed.
Print Assumptions C83_outbound_limit_refuted.
Example C83_dial_example : exists w, ex_run 1 1
  [(1, PendingOut (Some 1) true); (2, EstablishedOut 1 (addr 1) true); (3, PendingOut (Some 2) true); (4, NotUseful 1); (5, PendingOut (Some 3) true)] = Go w /\
  map (fun e => (fst e, p_conn (snd e))) (w_set w) = [(1, Disconnecting (Some 2)); (3, Dialing)].
Proof. eexists. split; vm_compute; reflexivity. Qed.

(* ---- C83_wait_partial: from when the connections of an evicted peer are closed, no connection with it is
   opened for 30 seconds, or for the eviction timeout if that is less. ---- *)
Theorem C83_wait_partial : forall rank group_of resolve cfg ops w id q t ops' w',
  run rank group_of resolve cfg start ops = Go w -> entry w id q -> evicted_at q t ->
  (forall now o, In (now, o) ops' -> t <= now /\ now < t + 30000 /\ now < t + eviction_timeout cfg) ->
  run rank group_of resolve cfg w ops' = Go w' -> forall d, In (id, d) (w_conns w') -> In (id, d) (w_conns w).
Proof.
  intros rank group_of resolve cfg ops w id q t ops' w' ER HQ EV T E.
  apply (run_waits rank group_of resolve cfg ops' w w' id t (run_inv rank group_of resolve cfg ops start w start_inv ER)); [|exact T|exact E].
  exists q, t. split; [exact HQ|]. split; [exact EV|apply N.le_refl].
Qed.
Print Assumptions C83_wait_partial.
Example C83_wait_example : exists w q, ex_run 2 1 ex_in = Go w /\ entry w 2 q /\ evicted_at q 6 /\
  exists w', run (fun id => id) (fun ip => ip / 65536) (fun _ => None) (ex_cfg 2 1) w [(30005, EstablishedIn 2 (relay 3) true); (30005, PendingOut (Some 2) true)] = Go w'.
Proof.
  eexists _, _. split; [vm_compute; reflexivity|]. split; [|split].
  - unfold entry. cbn [w_set]. right. left. reflexivity.
  - split; [reflexivity|]. eexists. reflexivity.
  - eexists. vm_compute. reflexivity.
Qed.
(* The configured eviction timeout, documented as the time that evicted peers are kept out for, is not that. *)
Theorem C83_wait_refuted : exists rank group_of resolve cfg ops w id q t now o w',
  run rank group_of resolve cfg start ops = Go w /\ entry w id q /\ evicted_at q t /\ t <= now /\ now < t + eviction_timeout cfg /\
  step rank group_of resolve cfg w now o = Go w' /\ w_conns w' = w_conns w ++ [(id, Inbound)] /\ exists q', entry w' id q' /\ connected q'.
Proof.
  assert (X : exists w q w', ex_run 2 1 (ex_in ++ [(7, Closed 4)]) = Go w /\ entry w 2 q /\ evicted_at q 6 /\
    step (fun id => id) (fun ip => ip / 65536) (fun _ => None) (ex_cfg 2 1) w 30006 (EstablishedIn 2 (addr 65538) true) = Go w' /\
    w_conns w' = w_conns w ++ [(2, Inbound)] /\ exists q', entry w' 2 q' /\ connected q').
  { eexists _, _, _. split; [vm_compute; reflexivity|]. split; [unfold entry; cbn [w_set]; right; left; reflexivity|].
    split; [split; [reflexivity|eexists; reflexivity]|]. split; [vm_compute; reflexivity|]. split; [reflexivity|].
    eexists. split; [unfold entry; cbn [w_set]; right; left; reflexivity|]. eexists. reflexivity. }
  destruct X as (w & q & w' & X1 & X2 & X3 & X). exists (fun id => id), (fun ip => ip / 65536), (fun _ => None), (ex_cfg 2 1), (ex_in ++ [(7, Closed 4)]), w, 2, q, 6, 30006,
    (EstablishedIn 2 (addr 65538) true), w'. split; [exact X1|]. split; [exact X2|]. split; [exact X3|]. split; [lia|]. split; [reflexivity|exact X].
Qed.
Print Assumptions C83_wait_refuted.
(* And while its connections are being closed an evicted peer is not kept out at all. *)
Theorem C83_wait_closing_refuted : exists rank group_of resolve cfg ops w id q now o w',
  run rank group_of resolve cfg start ops = Go w /\ entry w id q /\ p_evicted q = true /\ being_disconnected q /\
  step rank group_of resolve cfg w now o = Go w' /\ w_conns w' = w_conns w ++ [(id, Inbound)] /\ exists q', entry w' id q' /\ connected q'.
Proof.
  assert (X : exists w q w', ex_run 2 1 (firstn 4 ex_in ++ [(5, Closed 4)]) = Go w /\ entry w 2 q /\ p_evicted q = true /\ being_disconnected q /\
    step (fun id => id) (fun ip => ip / 65536) (fun _ => None) (ex_cfg 2 1) w 6 (EstablishedIn 2 (addr 65538) true) = Go w' /\
    w_conns w' = w_conns w ++ [(2, Inbound)] /\ exists q', entry w' 2 q' /\ connected q').
  { eexists _, _, _. split; [vm_compute; reflexivity|]. split; [unfold entry; cbn [w_set]; right; left; reflexivity|]. split; [reflexivity|].
    split; [eexists; reflexivity|]. split; [vm_compute; reflexivity|]. split; [reflexivity|].
    eexists. split; [unfold entry; cbn [w_set]; right; left; reflexivity|]. eexists. reflexivity. }
  destruct X as (w & q & w' & X). exists (fun id => id), (fun ip => ip / 65536), (fun _ => None), (ex_cfg 2 1), (firstn 4 ex_in ++ [(5, Closed 4)]), w, 2, q, 6,
    (EstablishedIn 2 (addr 65538) true), w'. exact X.
Qed.
Print Assumptions C83_wait_closing_refuted.

(* ---- C83_pending: of the peers that ask to connect, those are let on that have an address in the whitelist
   and have not connected from it within the timeout of their kind, while fewer than the configured number
   connected within the interval. ---- *)
Theorem C83_pending : forall rank resolve cfg now s a s',
  pending_inbound rank resolve cfg now s a = Go (s', true) ->
  exists ip, get_ip resolve a = Some ip /\ ip_whitelist cfg ip = true /\
    (forall id q t, In (id, q) s -> (forall c u, p_conn q = Disconnected c u -> u <= now < u + eviction_timeout cfg) ->
       is_inbound q = true -> connected_at q = Some t -> t <= now -> ip_addr q = Some ip -> is_relayed q = existsb is_circuit a ->
       t + (if is_relayed q then relay_connection_timeout cfg else direct_connection_timeout cfg) <= now) /\
    forall ids, NoDup ids ->
      (forall e, In e ids -> In e s /\ is_connected (snd e) = true /\ is_inbound (snd e) = true /\
         exists t, connected_at (snd e) = Some t /\ now - rate_limit_interval cfg <= t /\ t < now) ->
      (length ids < rate_limit_max cfg)%nat.
Proof.
  intros rank resolve cfg now s a s' E. unfold pending_inbound in E.
  destruct (Nat.leb_spec (rate_limit_max cfg) (length (filter (fun e => is_inbound (snd e) &&
    match connected_at (snd e) with Some t => (now - rate_limit_interval cfg <=? t) && (t <? now) | None => false end) (iter (eviction_timeout cfg) now s)))) as [L|L]; [discriminate E|].
  destruct (get_ip resolve a) as [ip|]; [|discriminate E]. exists ip. split; [reflexivity|].
  destruct (ip_whitelist cfg ip); [|discriminate E]. split; [reflexivity|]. cbn [negb] in E.
  match type of E with (if ?b then _ else _) = _ => destruct b eqn:RE; [discriminate E|] end. split.
  - intros id q t H U B C TN IP R. rewrite R.
    match goal with |- _ + ?x <= now => destruct (N.le_gt_cases (t + x) now) as [G|G]; [exact G|] end.
    exfalso. rewrite <- not_true_iff_false in RE. apply RE. apply existsb_exists. exists (id, q). split.
    + apply filter_In. split; [exact H|]. unfold retained. cbn [snd]. destruct (p_conn q) eqn:EC; try reflexivity. specialize (U _ _ eq_refl).
      unfold within. apply N.ltb_lt. lia.
    + cbn [snd]. rewrite B, C, IP, R, N.eqb_refl. unfold within. destruct (existsb is_circuit a); cbn [negb andb]; rewrite andb_true_r; apply N.ltb_lt; lia.
  - intros ids ND H. eapply Nat.le_lt_trans; [|exact L]. apply NoDup_incl_length; [exact ND|]. intros e HE. destruct (H e HE) as (A & C & B & t & T & T1 & T2).
    apply filter_In. split; [|rewrite B, T; cbn [andb]; apply andb_true_iff; split; [apply N.leb_le|apply N.ltb_lt]; assumption].
    apply filter_In. split; [exact A|]. destruct e as [i q]. exact (connected_retained _ _ _ _ C).
Qed.
Print Assumptions C83_pending.
Example C83_pending_example : exists w s', ex_run 2 1 ex_in = Go w /\
  pending_inbound (fun id => id) (fun _ => None) (ex_cfg 2 1) 7 (w_set w) (addr 65539) = Go (s', false) /\
  pending_inbound (fun id => id) (fun _ => None) (ex_cfg 3 1) 7 (w_set w) (addr 65539) = Go (w_set w, true).
Proof. eexists _, _. split; [vm_compute; reflexivity|]. split; vm_compute; reflexivity. Qed.

(* ---- C83_no_panic: asking for connections, opening them and failing to never panics. ---- *)
Theorem C83_no_panic : forall rank group_of resolve cfg ops w now o,
  run rank group_of resolve cfg start ops = Go w ->
  match o with Closed _ | Pinged _ _ | NotUseful _ => False | _ => True end ->
  exists w', step rank group_of resolve cfg w now o = Go w'.
Proof.
  intros rank group_of resolve cfg ops w now o E T.
  destruct (step_told rank group_of resolve cfg w now o (run_inv rank group_of resolve cfg ops start w start_inv E) T) as (w' & X & _). eauto.
Qed.
Print Assumptions C83_no_panic.
(* Flagging a peer that is not known as not useful does, and so does the closing of the last connection of an
   evicted peer that was dialed in vain meanwhile, if it takes longer than the eviction timeout. *)
Theorem C83_no_panic_refuted :
  (exists rank group_of resolve cfg now id, step rank group_of resolve cfg start now (NotUseful id) = Panic) /\
  (exists rank group_of resolve cfg ops w now id, run rank group_of resolve cfg start ops = Go w /\ In (id, Inbound) (w_conns w) /\
     step rank group_of resolve cfg w now (Closed id) = Panic).
Proof.
  split.
  - exists (fun id => id), (fun ip => ip), (fun _ => None), (ex_cfg 2 1), 1, 1. reflexivity.
  - exists (fun id => id), (fun ip => ip / 65536), (fun _ => None), (ex_cfg 2 1), (firstn 4 ex_in ++ [(6, DialFailed (Some 2))]).
    eexists _, 900006, 2. split; [vm_compute; reflexivity|]. split; [cbn [w_conns]; right; left; reflexivity|]. vm_compute. reflexivity.
Qed.
Print Assumptions C83_no_panic_refuted.
