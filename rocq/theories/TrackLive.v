From Coq Require Import List Arith NArith Bool Lia.
From Verif Require Import TrackModel TrackSpec TrackChecks TrackProof.
Import ListNotations.
#[local] Arguments Nat.ltb : simpl never.

Section Live.
Variables (e : env) (first : N) (cap : cid -> nat).
Notation inv := (inv e first).
Notation linv := (linv e first).

(* ---- the headers that arrived ---- *)
Lemma arrived_app a b : arrived (a ++ b) = arrived a ++ arrived b.
Proof. induction a as [|x a IH]; cbn; [reflexivity|]. destruct x as [[]| | |]; cbn; now rewrite ?IH. Qed.
Definition src_ok (s : state) (pre : list act) : Prop :=
  exists hs tl, s_sent s Src = map (fun x => IHeader (fst x) (fst (snd x)) (snd (snd x))) hs ++ tl /\
    map snd hs = arrived pre /\ (tl = [] \/ exists x, tl = [IErr x] /\ s_loc s PSource = Halt).
Lemma source_stops s : inv s -> prog e (s_loc s PSource) = Stop.
Proof.
  intros V. pose proof (v_loc _ _ _ V PSource) as L. unfold TrackProof.linv in L.
  destruct (s_loc s PSource); cbn in L; try contradiction; reflexivity.
Qed.
Lemma send_not_src l c x ok failed : prog e l = Send c x ok failed -> c <> Src.
Proof. destruct l; cbn; try destruct then_drain; intros H; try discriminate; injection H as <- <- <- <-; discriminate. Qed.
Lemma work_src s a s' : inv s -> match a with Run _ | Answer _ _ => True | _ => False end ->
  step e cap s a = Some s' -> s_sent s' Src = s_sent s Src /\ s_loc s' PSource = s_loc s PSource.
Proof.
  intros V A H. pose proof (source_stops s V) as St. destruct a as [x| |p|p a]; try contradiction; cbn in H.
  - assert (Hp : prog e (s_loc s p) <> Stop -> p <> PSource) by (intros X ->; contradiction).
    destruct (prog e (s_loc s p)) eqn:P; try discriminate;
      (assert (Np : PSource <> p) by (intros <-; apply Hp; [congruence|reflexivity])).
    + destruct (nth_error _ _); [|destruct (mute _); [|discriminate]]; injection H as <-; cbn -[pid_eq_dec];
        (split; [reflexivity|destruct (pid_eq_dec PSource p); [contradiction|reflexivity]]).
    + pose proof (send_not_src _ _ _ _ _ P) as Nc.
      destruct (deaf _); [|destruct (_ <? _); [|discriminate]]; injection H as <-; cbn -[pid_eq_dec cid_eq_dec].
      * split; [reflexivity|destruct (pid_eq_dec PSource p); [contradiction|reflexivity]].
      * split; [destruct (cid_eq_dec Src c); [congruence|reflexivity]|destruct (pid_eq_dec PSource p); [contradiction|reflexivity]].
    + destruct (N.eqb _ _); injection H as <-; cbn -[pid_eq_dec];
        (split; [reflexivity|destruct (pid_eq_dec PSource p); [contradiction|reflexivity]]).
  - destruct (prog e (s_loc s p)) eqn:P; try discriminate. destruct (k a); [|discriminate]. injection H as <-. cbn -[pid_eq_dec].
    split; [reflexivity|]. destruct (pid_eq_dec PSource p) as [<-|]; [congruence|reflexivity].
Qed.
Lemma src_step s pre a s' : inv s -> src_ok s pre -> step e cap s a = Some s' -> src_ok s' (pre ++ [a]).
Proof.
  intros V (hs & tl & E1 & E2 & E3) H. rewrite <- (app_nil_r (arrived (pre ++ [a]))) at 1 || idtac.
  destruct a as [x| |p|p a].
  - cbn in H. destruct (s_loc s PSource) eqn:El; try discriminate. destruct (_ <? _); [|discriminate].
    assert (tl = []) by (destruct E3 as [E3|(y & _ & E3)]; [exact E3|congruence]). subst tl. rewrite app_nil_r in E1.
    destruct x; try discriminate; injection H as <-; unfold src_ok; cbn; rewrite arrived_app, E1; cbn.
    + exists hs, [IErr e0]. split; [reflexivity|]. split; [now rewrite app_nil_r|]. right. exists e0. split; [reflexivity|reflexivity].
    + exists (hs ++ [(p, (h, signature))]), []. split; [now rewrite map_app, app_nil_r|]. split; [now rewrite map_app, E2|now left].
  - cbn in H. destruct (s_loc s PSource) eqn:El; try discriminate. injection H as <-.
    assert (tl = []) by (destruct E3 as [E3|(y & _ & E3)]; [exact E3|congruence]). subst tl.
    exists hs, []. split; [exact E1|]. split; [rewrite arrived_app; cbn; now rewrite app_nil_r|now left].
  - destruct (work_src s (Run p) s' V Coq.Init.Logic.I H) as [W1 W2]. exists hs, tl. rewrite W1, W2, arrived_app. cbn. rewrite app_nil_r. auto.
  - destruct (work_src s (Answer p a) s' V Coq.Init.Logic.I H) as [W1 W2]. exists hs, tl. rewrite W1, W2, arrived_app. cbn. rewrite app_nil_r. auto.
Qed.
Lemma src_run acts : forall s pre s', inv s -> src_ok s pre -> run_from e cap s acts = Some s' -> src_ok s' (pre ++ acts).
Proof.
  induction acts as [|a l IH]; cbn; intros s pre s' V S H; [injection H as <-; now rewrite app_nil_r|].
  destruct (step e cap s a) as [s1|] eqn:E; [|discriminate].
  replace (pre ++ a :: l) with ((pre ++ [a]) ++ l) by now rewrite <- app_assoc.
  apply (IH s1 (pre ++ [a]) s'); [exact (inv_step _ _ _ _ _ _ V E)|exact (src_step _ _ _ _ V S E)|exact H].
Qed.
Lemma src_init : src_ok (init first) [].
Proof. exists [], []. cbn. auto. Qed.
Lemma src_arrived s acts i p h sig : src_ok s acts -> at_ s Src i (IHeader p h sig) -> nth_error (arrived acts) i = Some (h, sig).
Proof.
  intros (hs & tl & E1 & E2 & E3) H. unfold at_ in H. rewrite E1 in H. rewrite <- E2.
  destruct (Nat.lt_ge_cases i (length hs)) as [L|L].
  - rewrite nth_error_app1 in H by now rewrite map_length. rewrite nth_error_map in H |- *.
    destruct (nth_error hs i) as [[p0 [h0 s0]]|]; [|discriminate]. cbn in *. congruence.
  - rewrite nth_error_app2 in H by now rewrite map_length. destruct E3 as [->|(x & -> & _)].
    + destruct (i - _); discriminate.
    + destruct (i - _) as [|k]; [discriminate|destruct k; discriminate].
Qed.
Lemma src_length s acts : src_ok s acts -> length (arrived acts) <= length (s_sent s Src) <= S (length (arrived acts)).
Proof.
  intros (hs & tl & E1 & E2 & E3). rewrite E1, <- E2, app_length, !map_length. destruct E3 as [->|(x & -> & _)]; cbn; lia.
Qed.

(* ---- blocks belong to their headers ---- *)
Lemma stored_belongs s i b : inv s -> nth_error (s_stored s) i = Some b ->
  exists p, at_ s Src i (IHeader p (b_header b) (b_signature b)) /\ belongs e (b_header b) b /\
    e_root e (map b_diff (firstn (S i) (s_stored s))) (hd_version (b_header b)) = hd_root (b_header b).
Proof.
  intros V H. destruct (v_stored _ _ _ V i b H) as (p & h & sg & m & d & l & c & B & -> & Rt).
  exists p. cbn [b_header b_signature].
  pose proof (v_good _ _ _ V _ _ _ B) as G. cbn in G. destruct G as (G1 & G2 & G3 & G4 & q & G5).
  pose proof (v_good _ _ _ V _ _ _ G1) as S1. cbn in S1.
  pose proof (v_good _ _ _ V _ _ _ G4) as T1. cbn in T1. pose proof (v_good _ _ _ V _ _ _ T1) as T2. cbn in T2.
  pose proof (v_good _ _ _ V _ _ _ G2) as E1. cbn in E1. destruct E1 as (h2 & l2 & (p2 & s2 & A2) & T3 & E1).
  pose proof (v_good _ _ _ V _ _ _ G3) as D1. cbn in D1. pose proof (v_good _ _ _ V _ _ _ D1) as D2. cbn in D2.
  pose proof (v_good _ _ _ V _ _ _ G5) as C1. cbn in C1. destruct C1 as (C1 & d2 & D3 & C2).
  pose proof (v_good _ _ _ V _ _ _ C1) as C3. cbn in C3.
  unfold at_ in *.
  assert (h2 = h) by congruence. subst h2. assert (l2 = l) by congruence. subst l2. assert (d2 = d) by congruence. subst d2.
  destruct T2 as (h3 & (p3 & s3 & A3) & raw & l' & T4 & T5). unfold at_ in A3. assert (h3 = h) by congruence. subst h3.
  destruct D2 as (h4 & (p4 & s4 & A4) & D4). unfold at_ in A4. assert (h4 = h) by congruence. subst h4.
  destruct E1 as (raw2 & E1). destruct C3 as (raw3 & l3 & C3 & C4).
  destruct (txs_checked e h raw l' l T4 T5) as (X1 & X2 & X3).
  destruct (declared_checked c (d_cairo d) (d_sierra d) C2) as (Y1 & Y2 & Y3).
  split; [exact S1|]. split; [|exact Rt].
  split; cbn [b_header b_txs b_events b_diff b_classes].
  - reflexivity.
  - exact X1.
  - exact X2.
  - intros t r Ht. apply In_nth_error in Ht. destruct Ht as (j & Hj). apply (X3 j t r Hj).
  - intros j t r Hj. apply (X3 j t r Hj).
  - rewrite take_events_length. unfold ids. now rewrite map_length.
  - intros ND. apply (events_checked e h _ raw2 m E1 ND).
  - intros ND. apply (events_checked e h _ raw2 m E1 ND).
  - exact D4.
  - exact Y1.
  - exact Y2.
  - replace (map _ c) with (map (fun x : class => key (fst x)) c); [exact Y3|].
    apply map_ext. intros [[c0 [d0|d0]] m0]; reflexivity.
  - exact (classes_checked e raw3 l3 c C3 C4).
Qed.

(* ---- no deadlock ---- *)
Definition topo (p : pid) : nat :=
  match p with
  | PSource => 0 | PHeaders => 1 | PTxs => 2 | PTxFan => 3 | PEvents => 4 | PDiff => 5 | PDiffFan => 6 | PClasses => 7
  | PDeclared => 8 | PJoin => 9 | PStore => 10
  end.
Lemma topo_channel c : topo (sender c) < topo (receiver c).
Proof. destruct c; cbn; lia. Qed.
Lemma topo_small p : topo p < 11.
Proof. destruct p; cbn; lia. Qed.
Lemma plan_recv p l c k x : prog e l = Recv c k -> plan p l = Some x -> In (R c) (snd x).
Proof.
  destruct p; destruct l; cbn; try destruct then_drain; intros P H; try discriminate; injection P as <- _; injection H as <-; cbn; auto.
Qed.
Lemma plan_send p l c y ok failed x : prog e l = Send c y ok failed -> plan p l = Some x -> In (W c) (snd x).
Proof.
  destruct p; destruct l; cbn; try destruct then_drain; intros P H; try discriminate; injection P as <- _ _ _;
    try (destruct x0); injection H as <-; cbn; auto.
Qed.
Lemma plan_sends c l x : c <> Src -> mute l = false -> plan (sender c) l = Some x -> In (W c) (fst (fst x) ++ snd x).
Proof.
  intros Nc M H. destruct c; try contradiction; destruct l; cbn in *; try discriminate; try destruct x0; injection H as <-; cbn; tauto.
Qed.
Lemma plan_receives c l x : plan (receiver c) l = Some x -> In (R c) (fst (fst x) ++ snd (fst x) ++ snd x).
Proof.
  intros H. destruct c; destruct l; cbn in *; try discriminate; try destruct x0; injection H as <-; cbn; tauto.
Qed.
Lemma paced_at_least s i x o : paced s i x -> In o (fst (fst x) ++ snd (fst x) ++ snd x) -> i <= cnt s o.
Proof.
  destruct x as [[d m] t]. cbn. intros (H1 & H2 & H3) Ho. rewrite Forall_forall in *.
  apply in_app_or in Ho. destruct Ho as [Ho|Ho]; [rewrite (H1 o Ho); lia|]. apply in_app_or in Ho.
  destruct Ho as [Ho|Ho]; [apply (H2 o Ho)|rewrite (H3 o Ho); lia].
Qed.
Lemma paced_cases s i x o : paced s i x -> In o (fst (fst x) ++ snd x) -> cnt s o = i \/ cnt s o = S i.
Proof.
  destruct x as [[d m] t]. cbn. intros (H1 & H2 & H3) Ho. rewrite Forall_forall in *.
  apply in_app_or in Ho. destruct Ho as [Ho|Ho]; [right; apply (H1 o Ho)|left; apply (H3 o Ho)].
Qed.
Lemma paced_todo s i x o : paced s i x -> In o (snd x) -> cnt s o = i.
Proof. destruct x as [[d m] t]. cbn. intros (H1 & H2 & H3) Ho. rewrite Forall_forall in H3. now apply H3. Qed.

Lemma dead_mute p l : dead p l -> mute l = true.
Proof. destruct p, l; cbn; intros; try contradiction; reflexivity. Qed.
Lemma dead_deaf p l : dead p l -> deaf l = true.
Proof. destruct p, l; cbn; intros; try contradiction; reflexivity. Qed.
Lemma dead_stop p l : dead p l -> prog e l = Stop.
Proof. destruct p, l; cbn; intros; try contradiction; reflexivity. Qed.
Lemma alive_op p l x : p <> PSource -> plan p l = Some x -> prog e l <> Stop.
Proof. destruct p, l; cbn; try destruct then_drain; intros; try contradiction; discriminate. Qed.
Hypothesis capacity : forall c, 1 <= cap c.
Lemma rest_rounds s : inv s -> at_rest e cap s ->
  forall k p i x, i * 11 + topo p <= k -> p <> PSource -> plan p (s_loc s p) = Some x -> paced s i x -> length (s_sent s Src) <= i.
Proof.
  intros V Q. induction k as [k IH] using lt_wf_ind. intros p i x Hk Np Hp Hx.
  destruct (Q p) as [Q1 Q2]. cbn in Q1. destruct (prog e (s_loc s p)) eqn:P.
  - destruct (nth_error (s_sent s c) (s_taken s c)) eqn:X; [discriminate|].
    destruct (mute (s_loc s (sender c))) eqn:M; [discriminate|]. apply nth_error_None in X.
    pose proof (v_taken _ _ _ V c) as T. pose proof (paced_todo s i x _ Hx (plan_recv p _ c k0 x P Hp)) as Ti. cbn in Ti.
    destruct (cid_eq_dec c Src) as [->|Nc]; [lia|].
    assert (Rc : receiver c = p) by (apply (plan_owner p (s_loc s p) (fst (fst x)) (snd (fst x)) (snd x) (R c));
      [destruct x as [[? ?] ?]; exact Hp|apply in_or_app; right; apply in_or_app; right; exact (plan_recv p _ c k0 x P Hp)]).
    pose proof (v_loc _ _ _ V (sender c)) as L. unfold TrackProof.linv in L.
    destruct (plan (sender c) (s_loc s (sender c))) as [y|] eqn:Ey;
      [|rewrite (dead_mute _ _ L) in M; discriminate].
    destruct L as (j & Hy & _). pose proof (paced_cases s j y _ Hy (plan_sends c _ y Nc M Ey)) as C. cbn in C.
    pose proof (topo_channel c) as Tc. rewrite Rc in Tc. pose proof (topo_small (sender c)).
    assert (Nq : sender c <> PSource) by (destruct c; cbn; congruence).
    assert (length (s_sent s Src) <= j); [|lia].
    apply (IH (j * 11 + topo (sender c))) with (p := sender c) (x := y); auto; lia.
  - destruct (deaf (s_loc s (receiver c))) eqn:M; [discriminate|].
    destruct (length (s_sent s c) - s_taken s c <? cap c) eqn:X; [discriminate|]. apply Nat.ltb_ge in X.
    pose proof (capacity c) as Cc. pose proof (paced_todo s i x _ Hx (plan_send p _ c _ _ _ x P Hp)) as Ti. cbn in Ti.
    pose proof (v_loc _ _ _ V (receiver c)) as L. unfold TrackProof.linv in L.
    destruct (plan (receiver c) (s_loc s (receiver c))) as [y|] eqn:Ey;
      [|rewrite (dead_deaf _ _ L) in M; discriminate].
    destruct L as (j & Hy & _). pose proof (paced_at_least s j y _ Hy (plan_receives c _ y Ey)) as C. cbn in C.
    pose proof (topo_small (receiver c)). pose proof (topo_small p).
    assert (Nq : receiver c <> PSource) by (destruct c; cbn; congruence).
    assert (length (s_sent s Src) <= j); [|lia].
    apply (IH (j * 11 + topo (receiver c))) with (p := receiver c) (x := y); auto; lia.
  - now destruct (Q2 r k0).
  - destruct (N.eqb _ _); discriminate.
  - now destruct (alive_op p _ x Np Hp).
Qed.
Lemma rest_stored s acts : inv s -> src_ok s acts -> at_rest e cap s ->
  (exists r, s_loc s PStore = Done r) \/ length (s_stored s) = length (arrived acts).
Proof.
  intros V S Q. pose proof (v_loc _ _ _ V PStore) as L. unfold TrackProof.linv in L.
  destruct (plan PStore (s_loc s PStore)) as [x|] eqn:Ep.
  - right. destruct L as (i & Hx & _).
    assert (length (s_sent s Src) <= i) as Hi.
    { apply (rest_rounds s V Q (i * 11 + topo PStore) PStore i x); auto. discriminate. }
    assert (Hs : length (s_stored s) = i).
    { destruct (s_loc s PStore); try discriminate; cbn in Ep; injection Ep as <-; cbn in Hx; destruct Hx as (_ & _ & Hx);
        rewrite Forall_forall in Hx; apply (Hx D); cbn; auto. }
    pose proof (src_length s acts S).
    destruct (Nat.eq_dec i 0) as [->|Ni]; [lia|].
    destruct (nth_error (s_stored s) (i - 1)) as [b|] eqn:Eb.
    + destruct (stored_belongs s (i - 1) b V Eb) as (p & A & _). apply (src_arrived s acts) in A; [|exact S].
      assert (i - 1 < length (arrived acts)) by (apply nth_error_Some; congruence). lia.
    + apply nth_error_None in Eb. lia.
  - left. destruct (s_loc s PStore) eqn:El; cbn in L; try contradiction. eauto.
Qed.

(* ---- bounded work ---- *)
Definition all_cids : list cid :=
  [Src; HJoin; HEvents; HDiff; HTxs; Txs; TJoin; THashes; EJoin; Diffs; DJoin; Declared1; Declared2; Classes; CJoin; Blocks].
Definition all_pids : list pid := [PSource; PHeaders; PTxs; PTxFan; PEvents; PDiff; PDiffFan; PClasses; PDeclared; PJoin; PStore].
Definition stage (l : loc) : nat :=
  match l with
  | Halt | Done _ => 3
  | Tx_drain => 2
  | Tx_ask _ | Ev_ask _ _ | Sd_ask _ | Cl_ask _ _ _ | Vc_declared _ _ | St_store _ _ _ _ _ _ _ => 0
  | _ => 1
  end.
Definition phi (s : state) : nat :=
  sum (map (fun c => 2 * (s_taken s c + length (s_sent s c))) all_cids) + sum (map (fun p => stage (s_loc s p)) all_pids).
Lemma phi_set s p l : phi (set_loc s p l) + stage (s_loc s p) = phi s + stage l.
Proof. unfold phi, sum. destruct p; cbn -[Nat.mul]; lia. Qed.
Lemma phi_push s c x : phi (push s c x) = phi s + 2.
Proof. unfold phi, sum. destruct c; cbn -[Nat.mul]; rewrite app_length; cbn -[Nat.mul]; lia. Qed.
Lemma phi_pop s c : phi (pop s c) = phi s + 2.
Proof. unfold phi, sum. destruct c; cbn -[Nat.mul]; lia. Qed.
Lemma phi_store s b : phi (store s b) = phi s.
Proof. reflexivity. Qed.
Lemma stage_recv l c k x : prog e l = Recv c k -> stage l <= S (stage (k (Some x))).
Proof. destruct l; cbn; try destruct then_drain; intros H; try discriminate; injection H as <- <-; try destruct x; cbn; try lia; destruct (all_declared _ _ _); cbn; lia. Qed.
Lemma stage_none l c k : prog e l = Recv c k -> stage l < stage (k None).
Proof. destruct l; cbn; try destruct then_drain; intros H; try discriminate; injection H as <- <-; cbn; lia. Qed.
Lemma stage_send l c x ok failed : prog e l = Send c x ok failed -> stage l <= S (stage ok) /\ stage l < stage failed.
Proof. destruct l; cbn; try destruct then_drain; intros H; try discriminate; injection H as <- <- <- <-; try destruct x; cbn; lia. Qed.
Lemma stage_ask l r k a l' : prog e l = Ask r k -> k a = Some l' -> stage l < stage l'.
Proof.
  destruct l; cbn; try destruct then_drain; intros H; try discriminate; injection H as <- <-; destruct a; cbn; try discriminate.
  - destruct (fetched_txs h l); [destruct (verified_txs e h l0)|]; intros H; injection H as <-; cbn; lia.
  - intros H; injection H as <-; cbn; lia.
  - intros H; injection H as <-; cbn; lia.
  - destruct l; intros H; injection H as <-; cbn; lia.
Qed.
Lemma phi_step s a s' : step e cap s a = Some s' -> phi s + (match a with Run _ | Answer _ _ => 1 | _ => 0 end) <= phi s'.
Proof.
  intros H. destruct a as [x| |p|p a]; cbn in H.
  - destruct (s_loc s PSource) eqn:El; try discriminate. destruct (_ <? _); [|discriminate].
    destruct x; try discriminate; injection H as <-.
    + pose proof (phi_set (push s Src (IErr e0)) PSource Halt) as X. rewrite phi_push in X. cbn [s_loc push] in X. rewrite El in X. cbn [stage] in X. lia.
    + rewrite phi_push. lia.
  - destruct (s_loc s PSource) eqn:El; try discriminate. injection H as <-.
    pose proof (phi_set s PSource Halt) as X. rewrite El in X. cbn [stage] in X. lia.
  - destruct (prog e (s_loc s p)) eqn:P; try discriminate.
    + destruct (nth_error _ _) as [x|].
      * injection H as <-. pose proof (phi_set (pop s c) p (k (Some x))) as X. rewrite phi_pop in X. cbn [s_loc pop] in X.
        pose proof (stage_recv _ c k x P). lia.
      * destruct (mute _); [|discriminate]. injection H as <-. pose proof (phi_set s p (k None)) as X.
        pose proof (stage_none _ c k P). lia.
    + destruct (stage_send _ _ _ _ _ P) as [S1 S2]. destruct (deaf _).
      * injection H as <-. pose proof (phi_set s p failed). lia.
      * destruct (_ <? _); [|discriminate]. injection H as <-. pose proof (phi_set (push s c x) p ok) as X.
        rewrite phi_push in X. cbn [s_loc push] in X. lia.
    + assert (X : stage (s_loc s p) = 0 /\ 1 <= stage ok /\ 1 <= stage failed).
      { destruct (s_loc s p); cbn in P; try discriminate; try (destruct then_drain; discriminate). injection P as <- <- <-. cbn. lia. }
      destruct X as (X0 & X1 & X2). destruct (N.eqb _ _); injection H as <-.
      * pose proof (phi_set (store s b) p ok) as X. rewrite phi_store in X. cbn [s_loc store] in X. lia.
      * pose proof (phi_set s p failed). lia.
  - destruct (prog e (s_loc s p)) eqn:P; try discriminate. destruct (k a) as [l|] eqn:K; [|discriminate].
    injection H as <-. pose proof (stage_ask _ _ _ _ _ P K). pose proof (phi_set s p l). lia.
Qed.
Lemma phi_run acts : forall s s', run_from e cap s acts = Some s' -> phi s + worked acts <= phi s'.
Proof.
  induction acts as [|a l IH]; cbn [run_from]; intros s s' H; [injection H as <-; unfold worked; cbn [filter length]; lia|].
  destruct (step e cap s a) as [s1|] eqn:E; [|discriminate]. specialize (IH s1 s' H). pose proof (phi_step s a s1 E).
  unfold worked in *. cbn [filter]. destruct a; cbv beta iota in *; cbn [length]; lia.
Qed.

(* nothing gets ahead of the headers *)
Definition behind (s : state) : Prop := forall c, length (s_sent s c) <= length (s_sent s Src).
Lemma behind_step s a s' : inv s -> behind s -> step e cap s a = Some s' -> behind s'.
Proof.
  intros V B H. destruct a as [x| |p|p a].
  - cbn in H. destruct (s_loc s PSource) eqn:El; try discriminate. destruct (_ <? _); [|discriminate].
    assert (X : forall y, behind (push s Src y)).
    { intros y c. cbn -[cid_eq_dec]. pose proof (B c). destruct (cid_eq_dec c Src) as [->|]; destruct (cid_eq_dec Src Src); try congruence;
        rewrite ?app_length; cbn; lia. }
    destruct x; try discriminate; injection H as <-; apply X.
  - cbn in H. destruct (s_loc s PSource); try discriminate. injection H as <-. exact B.
  - cbn in H. destruct (prog e (s_loc s p)) eqn:P; try discriminate.
    + destruct (nth_error _ _); [|destruct (mute _); [|discriminate]]; injection H as <-; exact B.
    + destruct (deaf _); [injection H as <-; exact B|]. destruct (_ <? _); [|discriminate]. injection H as <-.
      pose proof (send_not_src _ _ _ _ _ P) as Nc.
      assert (X : S (length (s_sent s c)) <= length (s_sent s Src)).
      { pose proof (v_loc _ _ _ V p) as L. unfold TrackProof.linv in L.
        destruct (plan p (s_loc s p)) as [pl|] eqn:Ep;
          [|rewrite (dead_stop _ _ L) in P; discriminate].
        destruct L as (i & Lp & _). pose proof (paced_todo s i pl _ Lp (plan_send p _ c _ _ _ pl P Ep)) as Ti. cbn in Ti.
        assert (exists c', s_taken s c' = S i) as (c' & Hc').
        { destruct p; destruct (s_loc s _); cbn in P, Ep; try discriminate; try (destruct then_drain; discriminate);
            try destruct x0; injection Ep as <-; cbn in Lp; destruct Lp as (Lp & _ & _);
            (inversion Lp as [|o r Ho Hr]; subst; cbn in Ho; eexists; exact Ho). }
        pose proof (v_taken _ _ _ V c'). pose proof (B c'). lia. }
      intros d. cbn -[cid_eq_dec]. pose proof (B d). destruct (cid_eq_dec Src c); [congruence|].
      destruct (cid_eq_dec d c) as [->|]; [rewrite app_length; cbn|]; lia.
    + destruct (N.eqb _ _); injection H as <-; exact B.
  - cbn in H. destruct (prog e (s_loc s p)); try discriminate. destruct (k a); [|discriminate]. injection H as <-. exact B.
Qed.
Lemma behind_run acts : forall s s', inv s -> behind s -> run_from e cap s acts = Some s' -> behind s'.
Proof.
  induction acts as [|a l IH]; cbn; intros s s' V B H; [injection H as <-; exact B|].
  destruct (step e cap s a) as [s1|] eqn:E; [|discriminate].
  exact (IH s1 s' (inv_step _ _ _ _ _ _ V E) (behind_step _ _ _ V B E) H).
Qed.
Lemma phi_bound s : inv s -> behind s -> phi s <= 64 * length (s_sent s Src) + 33.
Proof.
  intros V B. set (n := length (s_sent s Src)).
  assert (X : forall c, 2 * (s_taken s c + length (s_sent s c)) <= 4 * n).
  { intros c. pose proof (v_taken _ _ _ V c). pose proof (B c). unfold n. lia. }
  assert (Y : forall p, stage (s_loc s p) <= 3) by (intros p; destruct (s_loc s p); cbn; lia).
  assert (S1 : forall l, sum (map (fun c => 2 * (s_taken s c + length (s_sent s c))) l) <= length l * (4 * n)).
  { unfold sum. induction l as [|c l IH]; cbn -[Nat.mul]; [lia|]. pose proof (X c). lia. }
  assert (S2 : forall l, sum (map (fun p => stage (s_loc s p)) l) <= length l * 3).
  { unfold sum. induction l as [|c l IH]; cbn -[Nat.mul]; [lia|]. pose proof (Y c). lia. }
  unfold phi. pose proof (S1 all_cids). pose proof (S2 all_pids). cbn [length all_cids all_pids] in *. lia.
Qed.
End Live.
