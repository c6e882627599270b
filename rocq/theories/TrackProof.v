From Coq Require Import List Arith NArith Bool Lia.
From Verif Require Import TrackModel TrackSpec.
Import ListNotations.

#[local] Arguments Nat.ltb : simpl never.
(* ---- the ends of channels, and where a task is in its round ---- *)
Inductive ep := R (c : cid) | W (c : cid) | D.
Definition ep_owner (o : ep) : pid := match o with R c => receiver c | W c => sender c | D => PStore end.
Definition cnt (s : state) (o : ep) : nat :=
  match o with R c => s_taken s c | W c => length (s_sent s c) | D => length (s_stored s) end.

(* the ends used already in this round; those that may have been; those not used yet *)
Definition plan (p : pid) (l : loc) : option (list ep * list ep * list ep) :=
  match p, l with
  | PSource, Source_open => Some ([], [], [])
  | PHeaders, HF_recv => Some ([], [], [R Src; W HJoin; W HEvents; W HDiff; W HTxs])
  | PHeaders, HF_join _ => Some ([R Src], [], [W HJoin; W HEvents; W HDiff; W HTxs])
  | PHeaders, HF_events _ _ _ => Some ([R Src; W HJoin], [], [W HEvents; W HDiff; W HTxs])
  | PHeaders, HF_diff _ _ _ => Some ([R Src; W HJoin; W HEvents], [], [W HDiff; W HTxs])
  | PHeaders, HF_txs _ _ _ => Some ([R Src; W HJoin; W HEvents; W HDiff], [], [W HTxs])
  | PTxs, Tx_recv => Some ([], [], [R HTxs; W Txs])
  | PTxs, Tx_ask _ | PTxs, Tx_send _ | PTxs, Tx_fail _ _ => Some ([R HTxs], [], [W Txs])
  | PTxs, Tx_drain => Some ([], [], [R HTxs])
  | PTxFan, TF_recv => Some ([], [], [R Txs; W TJoin; W THashes])
  | PTxFan, TF_join _ => Some ([R Txs], [], [W TJoin; W THashes])
  | PTxFan, TF_hashes _ => Some ([R Txs; W TJoin], [], [W THashes])
  | PEvents, Ev_recv => Some ([], [], [R HEvents; R THashes; W EJoin])
  | PEvents, Ev_hashes _ => Some ([R HEvents], [], [R THashes; W EJoin])
  | PEvents, Ev_ask _ _ | PEvents, Ev_send _ => Some ([R HEvents; R THashes], [], [W EJoin])
  | PDiff, Sd_recv => Some ([], [], [R HDiff; W Diffs])
  | PDiff, Sd_ask _ | PDiff, Sd_send _ => Some ([R HDiff], [], [W Diffs])
  | PDiffFan, SF_recv => Some ([], [], [R Diffs; W DJoin; W Declared1; W Declared2])
  | PDiffFan, SF_join _ => Some ([R Diffs], [], [W DJoin; W Declared1; W Declared2])
  | PDiffFan, SF_1 _ _ => Some ([R Diffs; W DJoin], [], [W Declared1; W Declared2])
  | PDiffFan, SF_2 _ _ => Some ([R Diffs; W DJoin; W Declared1], [], [W Declared2])
  | PClasses, Cl_recv _ => Some ([], [], [R Declared1; W Classes])
  | PClasses, Cl_ask _ _ _ | PClasses, Cl_send _ _ => Some ([R Declared1], [], [W Classes])
  | PDeclared, Vc_recv => Some ([], [], [R Classes; R Declared2; W CJoin])
  | PDeclared, Vc_declared _ _ => Some ([R Classes], [], [R Declared2; W CJoin])
  | PDeclared, Vc_send (IErr _) => Some ([R Classes], [R Declared2], [W CJoin])
  | PDeclared, Vc_send _ => Some ([R Classes; R Declared2], [], [W CJoin])
  | PJoin, J_header => Some ([], [], [R HJoin; R EJoin; R DJoin; R TJoin; R CJoin; W Blocks])
  | PJoin, J_events _ _ _ => Some ([R HJoin], [], [R EJoin; R DJoin; R TJoin; R CJoin; W Blocks])
  | PJoin, J_diff _ _ _ _ => Some ([R HJoin; R EJoin], [], [R DJoin; R TJoin; R CJoin; W Blocks])
  | PJoin, J_txs _ _ _ _ _ => Some ([R HJoin; R EJoin; R DJoin], [], [R TJoin; R CJoin; W Blocks])
  | PJoin, J_classes _ _ _ _ _ _ => Some ([R HJoin; R EJoin; R DJoin; R TJoin], [], [R CJoin; W Blocks])
  | PJoin, J_send (IErr _) => Some ([R HJoin], [R EJoin; R DJoin; R TJoin; R CJoin], [W Blocks])
  | PJoin, J_send _ => Some ([R HJoin; R EJoin; R DJoin; R TJoin; R CJoin], [], [W Blocks])
  | PStore, St_recv => Some ([], [], [R Blocks; D])
  | PStore, St_store _ _ _ _ _ _ _ => Some ([R Blocks], [], [D])
  | _, _ => None
  end.
Definition paced (s : state) (i : nat) (x : list ep * list ep * list ep) : Prop :=
  let '(d, m, t) := x in
  Forall (fun o => cnt s o = S i) d /\ Forall (fun o => i <= cnt s o <= S i) m /\ Forall (fun o => cnt s o = i) t.
Lemma plan_owner p l d m t o : plan p l = Some (d, m, t) -> In o (d ++ m ++ t) -> ep_owner o = p.
Proof.
  destruct p; destruct l; cbn; try discriminate; try (destruct x; cbn); intros H; injection H as <- <- <-; cbn; intros X;
    repeat (destruct X as [<-|X]; [reflexivity|]); contradiction.
Qed.

(* ---- what the items on the channels are ---- *)
Definition at_ (s : state) (c : cid) (i : nat) (x : item) : Prop := nth_error (s_sent s c) i = Some x.
Definition hdr_at (s : state) (i : nat) (h : hdr) : Prop := exists p sig, at_ s Src i (IHeader p h sig).
Definition ids (l : list (tx * receipt)) : list N := map (fun y => t_hash (fst y)) l.

Section Facts.
Variables (e : env) (first : N).
(* what was checked *)
Definition txs_ok (h : hdr) (l : list (tx * receipt)) : Prop :=
  exists raw l', fetched_txs h raw = Some l' /\ verified_txs e h l' = Some l.
Definition events_ok (h : hdr) (txs : list N) (m : list (N * list event)) : Prop :=
  exists raw, verified_events e h txs raw = Some m.
Definition classes_ok (l : list class) : Prop :=
  exists raw l', all (verify_class e) raw = Some l' /\ all (compile e) l' = Some l.

Definition good (s : state) (c : cid) (i : nat) (x : item) : Prop :=
  match c with
  | Src => match x with IHeader _ _ _ | IErr _ => True | _ => False end
  | HJoin => at_ s Src i x
  | HEvents | HDiff | HTxs => at_ s Src i x /\ exists p h sig, x = IHeader p h sig
  | Txs => match x with ITxs l => exists h, hdr_at s i h /\ txs_ok h l | IErr _ => True | _ => False end
  | TJoin => at_ s Txs i x
  | THashes => exists l, at_ s Txs i (ITxs l) /\ x = IHashes (ids l)
  | EJoin =>
      match x with
      | IEvents m => exists h l, hdr_at s i h /\ at_ s Txs i (ITxs l) /\ events_ok h (ids l) m
      | IErr _ => True | _ => False
      end
  | Diffs => match x with IDiff d => exists h, hdr_at s i h /\ e_diff_commitment e d = hd_diff_commitment h | IErr _ => True | _ => False end
  | DJoin => at_ s Diffs i x
  | Declared1 | Declared2 => exists d, at_ s Diffs i (IDiff d) /\ x = IDeclared (d_cairo d) (d_sierra d)
  | Classes => match x with IClasses _ l => classes_ok l | IErr _ => True | _ => False end
  | CJoin =>
      match x with
      | IClasses _ l => at_ s Classes i x /\ exists d, at_ s Diffs i (IDiff d) /\ all_declared (d_cairo d) (d_sierra d) l = true
      | IErr _ => True | _ => False
      end
  | Blocks =>
      match x with
      | IBlock p h sig m d l c =>
          at_ s HJoin i (IHeader p h sig) /\ at_ s EJoin i (IEvents m) /\ at_ s DJoin i (IDiff d) /\
          at_ s TJoin i (ITxs l) /\ exists q, at_ s CJoin i (IClasses q c)
      | IErr _ => True | _ => False
      end
  end.
(* what the tasks hold *)
Definition data (s : state) (i : nat) (l : loc) : Prop :=
  match l with
  | HF_join x => at_ s Src i x
  | HF_events p h sig | HF_diff p h sig | HF_txs p h sig => at_ s Src i (IHeader p h sig)
  | Tx_ask h => hdr_at s i h
  | Tx_send l => good s Txs i (ITxs l)
  | TF_join x => at_ s Txs i x
  | TF_hashes l => exists t, at_ s Txs i (ITxs t) /\ l = ids t
  | Ev_hashes h => hdr_at s i h
  | Ev_ask h txs => hdr_at s i h /\ exists t, at_ s Txs i (ITxs t) /\ txs = ids t
  | Ev_send x => good s EJoin i x
  | Sd_ask h => hdr_at s i h
  | Sd_send x => good s Diffs i x
  | SF_join x => at_ s Diffs i x
  | SF_1 cairo sierra | SF_2 cairo sierra => exists d, at_ s Diffs i (IDiff d) /\ cairo = d_cairo d /\ sierra = d_sierra d
  | Cl_recv n => n = (first + N.of_nat i)%N
  | Cl_ask n cairo sierra => n = (first + N.of_nat i)%N /\ exists d, at_ s Diffs i (IDiff d) /\ cairo = d_cairo d /\ sierra = d_sierra d
  | Cl_send n x => n = (first + N.of_nat i)%N /\ good s Classes i x
  | Vc_declared p l => at_ s Classes i (IClasses p l)
  | Vc_send x => good s CJoin i x
  | J_events p h sig => at_ s HJoin i (IHeader p h sig)
  | J_diff p h sig m => at_ s HJoin i (IHeader p h sig) /\ at_ s EJoin i (IEvents m)
  | J_txs p h sig m d => at_ s HJoin i (IHeader p h sig) /\ at_ s EJoin i (IEvents m) /\ at_ s DJoin i (IDiff d)
  | J_classes p h sig m d l =>
      at_ s HJoin i (IHeader p h sig) /\ at_ s EJoin i (IEvents m) /\ at_ s DJoin i (IDiff d) /\ at_ s TJoin i (ITxs l)
  | J_send x => good s Blocks i x
  | St_store p h sig m d l c => at_ s Blocks i (IBlock p h sig m d l c)
  | _ => True
  end.
Definition dead (p : pid) (l : loc) : Prop :=
  match p, l with PStore, Done _ => True | PStore, _ => False | _, Halt => True | _, _ => False end.
Definition linv (s : state) (p : pid) : Prop :=
  match plan p (s_loc s p) with
  | Some x => exists i, paced s i x /\ data s i (s_loc s p)
  | None => dead p (s_loc s p)
  end.
Record inv (s : state) : Prop := {
  v_good : forall c i x, at_ s c i x -> good s c i x;
  v_taken : forall c, s_taken s c <= length (s_sent s c);
  v_loc : forall p, linv s p;
  v_stored : forall i b, nth_error (s_stored s) i = Some b ->
    exists p h sig m d l c, at_ s Blocks i (IBlock p h sig m d l c) /\
      b = Block h sig l (take_events m (ids l)) d c /\
      e_root e (map b_diff (firstn (S i) (s_stored s))) (hd_version h) = hd_root h
}.

(* ---- growth ---- *)
Definition grows (s s' : state) : Prop := forall c i x, at_ s c i x -> at_ s' c i x.
Lemma good_grows s s' c i x : grows s s' -> good s c i x -> good s' c i x.
Proof.
  intros G. unfold good, hdr_at.
  destruct c; try (destruct x); try tauto; try (now intros H; apply G);
    try (intros [H1 H2]; split; [now apply G|exact H2]);
    try (intros (h0 & (p0 & sg & H1) & H2); exists h0; split; [exists p0, sg; now apply G|exact H2]);
    try (intros (h0 & H1 & H2); exists h0; split; [now apply G|exact H2]).
  - intros (h & t & (p & sg & H1) & H2 & H3). exists h, t. split; [exists p, sg; now apply G|]. split; [now apply G|exact H3].
  - intros (H1 & d & H2 & H3). split; [now apply G|]. exists d. split; [now apply G|exact H3].
  - intros (H1 & H2 & H3 & H4 & q & H5). repeat (split; [now apply G|]). exists q. now apply G.
Qed.
Lemma hdr_grows s s' i h : grows s s' -> hdr_at s i h -> hdr_at s' i h.
Proof. intros G (p & sg & H). exists p, sg. now apply G. Qed.
Lemma data_grows s s' i l : grows s s' -> data s i l -> data s' i l.
Proof.
  intros G. unfold data.
  destruct l; intros H; repeat match goal with H : _ /\ _ |- _ => destruct H | H : exists _, _ |- _ => destruct H end;
    repeat match goal with |- _ /\ _ => split end; try assumption; try (now apply G); try (now apply (hdr_grows s));
    try (now apply (good_grows s)); try (eexists; split; [apply G; eassumption|now auto]).
Qed.
Lemma grows_push s c x : grows s (push s c x).
Proof.
  intros d i y H. unfold at_, push in *. cbn. destruct (cid_eq_dec d c); [|exact H].
  rewrite nth_error_app1; [exact H|]. apply nth_error_Some. congruence.
Qed.

(* ---- a step of one task leaves the others alone ---- *)
Definition others (p : pid) (s s' : state) : Prop :=
  (forall q, q <> p -> s_loc s' q = s_loc s q) /\ forall o, ep_owner o <> p -> cnt s' o = cnt s o.
Lemma paced_same s s' i x : (forall o, In o (fst (fst x) ++ snd (fst x) ++ snd x) -> cnt s' o = cnt s o) -> paced s i x -> paced s' i x.
Proof.
  destruct x as [[d m] t]. cbn. intros E (H1 & H2 & H3).
  split; [|split]; rewrite Forall_forall in *; intros o Ho; rewrite E; auto using in_or_app.
Qed.
Lemma linv_others p s s' q : grows s s' -> others p s s' -> q <> p -> linv s q -> linv s' q.
Proof.
  intros G [O1 O2] Hq. unfold linv. rewrite (O1 q Hq). destruct (plan q (s_loc s q)) as [[[d m] t]|] eqn:Ep; [|trivial].
  intros (i & H1 & H2). exists i. split; [|now apply (data_grows s)].
  apply (paced_same s); [|exact H1]. cbn. intros o Ho. apply O2. rewrite (plan_owner q _ d m t o Ep Ho). exact Hq.
Qed.
Lemma others_set s p l : others p s (set_loc s p l).
Proof. split; [|reflexivity]. intros q Hq. cbn. destruct (pid_eq_dec q p); [contradiction|reflexivity]. Qed.
Lemma others_trans p a b c : others p a b -> others p b c -> others p a c.
Proof. intros [A1 A2] [B1 B2]. split; [intros q Hq; rewrite B1, A1; auto|intros o Ho; rewrite B2, A2; auto]. Qed.
Lemma others_push s c x : others (sender c) s (push s c x).
Proof.
  split; [reflexivity|]. intros [d|d|] Ho; cbn in *; try reflexivity.
  destruct (cid_eq_dec d c); [subst; contradiction|reflexivity].
Qed.
Lemma others_pop s c : others (receiver c) s (pop s c).
Proof.
  split; [reflexivity|]. intros [d|d|] Ho; cbn in *; try reflexivity.
  destruct (cid_eq_dec d c); [subst; contradiction|reflexivity].
Qed.
Lemma others_store s b : others PStore s (store s b).
Proof. split; [reflexivity|]. intros [d|d|] Ho; cbn in *; try reflexivity. contradiction. Qed.

(* ---- one step ---- *)
Lemma at_last s c i x : at_ s c i x -> i < length (s_sent s c).
Proof. intros H. apply nth_error_Some. unfold at_ in H. congruence. Qed.
Lemma at_push s c x d i y : at_ (push s c x) d i y -> at_ s d i y \/ (d = c /\ i = length (s_sent s c) /\ y = x).
Proof.
  unfold at_, push. cbn. destruct (cid_eq_dec d c) as [->|]; [|auto]. intros H.
  destruct (Nat.lt_ge_cases i (length (s_sent s c))) as [L|L].
  - rewrite nth_error_app1 in H by exact L. auto.
  - rewrite nth_error_app2 in H by exact L. destruct (i - length (s_sent s c)) as [|k] eqn:E; cbn in H.
    + injection H as <-. right. repeat split; lia.
    + destruct k; discriminate.
Qed.
Lemma at_pushed s c x : at_ (push s c x) c (length (s_sent s c)) x.
Proof. unfold at_, push. cbn. destruct (cid_eq_dec c c); [|congruence]. rewrite nth_error_app2, Nat.sub_diag by lia. reflexivity. Qed.
Lemma stored_grows s s' : grows s s' -> s_stored s' = s_stored s -> inv s ->
  forall i b, nth_error (s_stored s') i = Some b ->
    exists p h sig m d l c, at_ s' Blocks i (IBlock p h sig m d l c) /\
      b = Block h sig l (take_events m (ids l)) d c /\
      e_root e (map b_diff (firstn (S i) (s_stored s'))) (hd_version h) = hd_root h.
Proof.
  intros G E V i b H. rewrite E in *. destruct (v_stored s V i b H) as (p & h & sg & m & d & l & c & H1 & H2 & H3).
  exists p, h, sg, m, d, l, c. auto.
Qed.

Ltac pace := cbn [paced]; split; [|split]; repeat (apply Forall_cons; [cbn; try rewrite app_length; cbn; lia|]); try apply Forall_nil.
Ltac unpace H := cbn [paced] in H; destruct H as (H & ?Hm & ?Ht);
  repeat match goal with X : Forall _ (_ :: _) |- _ => inversion X; clear X; subst end;
  repeat match goal with X : Forall _ [] |- _ => clear X end; cbn [cnt] in *.
Ltac here i := exists i; split; [pace|].

Lemma loc_set s p l : s_loc (set_loc s p l) p = l.
Proof. cbn. destruct (pid_eq_dec p p); congruence. Qed.

Lemma inv_recv s p c k x : inv s -> prog e (s_loc s p) = Recv c k -> nth_error (s_sent s c) (s_taken s c) = Some x ->
  inv (set_loc (pop s c) p (k (Some x))).
Proof.
  intros V P X. pose proof (v_good s V c (s_taken s c) x X) as Gx.
  assert (G : grows s (set_loc (pop s c) p (k (Some x)))) by (intros d i y H; exact H).
  pose proof (at_last s c _ x X) as L. pose proof (v_loc s V p) as Lp.
  assert (Rp : receiver c = p /\ linv (set_loc (pop s c) p (k (Some x))) p).
  { unfold linv in Lp |- *. rewrite loc_set. destruct (plan p (s_loc s p)) as [pl|] eqn:Ep;
      [|destruct p; destruct (s_loc s _); cbn in Lp, P; try contradiction; discriminate].
    destruct Lp as (i & Lp & Ld).
    destruct p; destruct (s_loc s _); try discriminate Ep; try discriminate P; try (destruct then_drain; discriminate P);
      cbn in P; injection P as <- <-; injection Ep as <-; (split; [reflexivity|]);
      unpace Lp; subst; cbn [good data] in Gx, Ld.
    - (* HF_recv *) cbn [plan]. here (s_taken s Src). exact X.
    - (* Tx_recv *) destruct Gx as [Gx (p0 & h0 & sig0 & ->)]. cbn [plan]. here (s_taken s HTxs). exists p0, sig0. exact Gx.
    - (* Tx_drain *) destruct Gx as [Gx (p0 & h0 & sig0 & ->)]. cbn [plan]. here (S (s_taken s HTxs)). exact Coq.Init.Logic.I.
    - (* TF_recv *) cbn [plan]. here (s_taken s Txs). exact X.
    - (* Ev_recv *) destruct Gx as [Gx (p0 & h0 & sig0 & ->)]. cbn [plan]. here (s_taken s HEvents). exists p0, sig0. exact Gx.
    - (* Ev_hashes *) destruct Gx as (t & Gx & ->). cbn [plan]. here (s_taken s THashes). split; [exact Ld|]. exists t. auto.
    - (* Sd_recv *) destruct Gx as [Gx (p0 & h0 & sig0 & ->)]. cbn [plan]. here (s_taken s HDiff). exists p0, sig0. exact Gx.
    - (* SF_recv *) cbn [plan]. here (s_taken s Diffs). exact X.
    - (* Cl_recv *) destruct Gx as (d & Gx & ->). cbn [plan]. here (s_taken s Declared1). split; [exact Ld|]. exists d. auto.
    - (* Vc_recv *) destruct x; try contradiction; cbn [plan]; here (s_taken s Classes); [exact Coq.Init.Logic.I|exact X].
    - (* Vc_declared *) destruct Gx as (d & Gx & ->).
      destruct (all_declared (d_cairo d) (d_sierra d) l) eqn:Ea; cbn [plan]; here (s_taken s Declared2); [|exact Coq.Init.Logic.I].
      cbn [data good]. split; [exact Ld|]. exists d. auto.
    - (* J_header *) pose proof (v_good s V Src _ _ Gx) as Gs. cbn in Gs.
      destruct x; try contradiction; cbn [plan]; here (s_taken s HJoin); [exact Coq.Init.Logic.I|exact X].
    - (* J_events *) destruct x; try contradiction; cbn [plan]; here (s_taken s EJoin); [exact Coq.Init.Logic.I|]. split; [exact Ld|exact X].
    - (* J_diff *) pose proof (v_good s V Diffs _ _ Gx) as Gs. cbn in Gs.
      destruct x; try contradiction; cbn [plan]; here (s_taken s DJoin); [exact Coq.Init.Logic.I|].
      destruct Ld as [? ?]. split; [assumption|]. split; [assumption|exact X].
    - (* J_txs *) pose proof (v_good s V Txs _ _ Gx) as Gs. cbn in Gs.
      destruct x; try contradiction; cbn [plan]; here (s_taken s TJoin); [exact Coq.Init.Logic.I|].
      destruct Ld as (? & ? & ?). split; [assumption|]. split; [assumption|]. split; [assumption|exact X].
    - (* J_classes *) destruct x; try contradiction; cbn [plan]; here (s_taken s CJoin); [exact Coq.Init.Logic.I|].
      destruct Ld as (? & ? & ? & ?). cbn [data good]. repeat (split; [assumption|]). eexists. exact X.
    - (* St_recv *) destruct x; try contradiction; cbn [plan]; [exact Coq.Init.Logic.I|]. here (s_taken s Blocks). exact X. }
  destruct Rp as [Rp Lp']. split.
  - intros d i y H. apply (good_grows s); [exact G|]. exact (v_good s V d i y H).
  - intros d. cbn. destruct (cid_eq_dec d c) as [->|]; [lia|apply (v_taken s V)].
  - intros q. destruct (pid_eq_dec q p) as [->|Hq]; [exact Lp'|].
    apply (linv_others p s); [exact G| |exact Hq|apply (v_loc s V)].
    apply (others_trans p s (pop s c)); [rewrite <- Rp; apply others_pop|apply others_set].
  - apply (stored_grows s); [exact G|reflexivity|exact V].
Qed.

(* a task that halts, or goes on with nothing sent or received *)
Lemma inv_silent s p l : inv s -> linv (set_loc s p l) p -> inv (set_loc s p l).
Proof.
  intros V L. assert (G : grows s (set_loc s p l)) by (intros d i y H; exact H). split.
  - intros d i y H. apply (good_grows s); [exact G|]. exact (v_good s V d i y H).
  - intros d. apply (v_taken s V).
  - intros q. destruct (pid_eq_dec q p) as [->|Hq]; [exact L|].
    apply (linv_others p s); [exact G|apply others_set|exact Hq|apply (v_loc s V)].
  - apply (stored_grows s); [exact G|reflexivity|exact V].
Qed.
Lemma linv_dead s p l : dead p l -> linv (set_loc s p l) p.
Proof.
  intros Hl. unfold linv. rewrite loc_set. destruct p; destruct l; try contradiction Hl; exact Coq.Init.Logic.I.
Qed.
Lemma inv_none s p c k : inv s -> prog e (s_loc s p) = Recv c k -> inv (set_loc s p (k None)).
Proof.
  intros V P. apply inv_silent; [exact V|]. pose proof (v_loc s V p) as Lp.
  unfold linv in Lp. destruct (plan p (s_loc s p)) as [pl|] eqn:Ep;
    [|destruct p; destruct (s_loc s _); cbn in Lp, P; try contradiction; discriminate].
  destruct Lp as (i & Lp & Ld).
  destruct p; destruct (s_loc s _); try discriminate Ep; try discriminate P; try (destruct then_drain; discriminate P);
    cbn in P; injection P as <- <-; injection Ep as <-; try (apply linv_dead; exact Coq.Init.Logic.I).
  unpace Lp. unfold linv. rewrite loc_set. cbn [plan]. here (s_taken s Declared2). exact Coq.Init.Logic.I.
Qed.
Lemma inv_failed s p c x ok failed : inv s -> prog e (s_loc s p) = Send c x ok failed -> inv (set_loc s p failed).
Proof.
  intros V P. apply inv_silent; [exact V|]. pose proof (v_loc s V p) as Lp.
  unfold linv in Lp. destruct (plan p (s_loc s p)) as [pl|] eqn:Ep;
    [|destruct p; destruct (s_loc s _); cbn in Lp, P; try contradiction; discriminate].
  destruct Lp as (i & Lp & Ld).
  destruct p; destruct (s_loc s _); try discriminate Ep; try discriminate P; try (destruct then_drain);
    cbn in P; try discriminate P; injection P as <- <- <- <-; try (apply linv_dead; exact Coq.Init.Logic.I);
    unfold linv; rewrite loc_set; cbn [plan]; here (s_taken s HTxs); exact Coq.Init.Logic.I.
Qed.
Lemma inv_answer s p r k a l : inv s -> prog e (s_loc s p) = Ask r k -> k a = Some l -> inv (set_loc s p l).
Proof.
  intros V P K. apply inv_silent; [exact V|]. pose proof (v_loc s V p) as Lp.
  unfold linv in Lp. destruct (plan p (s_loc s p)) as [pl|] eqn:Ep;
    [|destruct p; destruct (s_loc s _); cbn in Lp, P; try contradiction; discriminate].
  destruct Lp as (i & Lp & Ld).
  unfold linv. rewrite loc_set.
  destruct p; destruct (s_loc s _); try discriminate Ep; try discriminate P; try (destruct then_drain; discriminate P);
    cbn in P; injection P as <- <-; injection Ep as <-; unpace Lp; destruct a; try discriminate K; cbn [data] in Ld.
  - destruct (fetched_txs h l0) as [l1|] eqn:E1.
    + destruct (verified_txs e h l1) as [l2|] eqn:E2; injection K as <-; cbn [plan]; here (length (s_sent s Txs));
        [|exact Coq.Init.Logic.I]. exists h. split; [exact Ld|]. exists l0, l1. auto.
    + injection K as <-. cbn [plan]. here (length (s_sent s Txs)). exact Coq.Init.Logic.I.
  - injection K as <-. cbn [plan]. here (length (s_sent s EJoin)). destruct Ld as [Ld (t & Lt & ->)].
    destruct (verified_events e h (ids t) l0) as [m|] eqn:E1; cbn; [|exact Coq.Init.Logic.I].
    exists h, t. split; [exact Ld|]. split; [exact Lt|]. exists l0. exact E1.
  - injection K as <-. cbn [plan]. here (length (s_sent s Diffs)).
    destruct d as [d|]; cbn; [|exact Coq.Init.Logic.I].
    destruct (N.eqb (e_diff_commitment e d) (hd_diff_commitment h)) eqn:E1; cbn; [|exact Coq.Init.Logic.I].
    exists h. split; [exact Ld|]. now apply N.eqb_eq.
  - destruct Ld as [Ln (d & Ld & -> & ->)].
    destruct l0 as [raw|]; injection K as <-; cbn [plan]; here (length (s_sent s Classes)); (split; [exact Ln|]); [|exact Coq.Init.Logic.I].
    destruct (all (verify_class e) raw) as [l1|] eqn:E1; [|exact Coq.Init.Logic.I].
    destruct (all (compile e) l1) as [l2|] eqn:E2; [|exact Coq.Init.Logic.I]. cbn. exists raw, l1. auto.
Qed.

Lemma inv_send s p c x ok failed : inv s -> prog e (s_loc s p) = Send c x ok failed -> inv (set_loc (push s c x) p ok).
Proof.
  intros V P. pose proof (v_loc s V p) as Lp.
  assert (G : grows s (set_loc (push s c x) p ok)) by (intros d i y H; apply (grows_push s c x d i y H)).
  assert (Rp : sender c = p /\ good s c (length (s_sent s c)) x /\ linv (set_loc (push s c x) p ok) p).
  { unfold linv in Lp |- *. rewrite loc_set. destruct (plan p (s_loc s p)) as [pl|] eqn:Ep;
      [|destruct p; destruct (s_loc s _); cbn in Lp, P; try contradiction; discriminate].
    destruct Lp as (i & Lp & Ld).
    assert (At : forall c i y, at_ s c i y -> at_ (set_loc (push s c x) p ok) c i y) by (intros; apply grows_push; assumption).
    destruct p; destruct (s_loc s _); try discriminate Ep; try discriminate P; try (destruct then_drain);
      cbn in P; try discriminate P; injection P as <- <- <- <-; (split; [reflexivity|]);
      cbn [plan] in Ep.
    - (* HF_join *) injection Ep as <-. unpace Lp. subst. cbn [good data] in *. split; [exact Ld|].
      pose proof (v_good s V Src _ _ Ld) as Gs. cbn in Gs. destruct x0; try contradiction; cbn [plan]; [exact Coq.Init.Logic.I|].
      here (length (s_sent s HJoin)). exact Ld.
    - injection Ep as <-. unpace Lp. subst. cbn [good data] in *. split; [split; [exact Ld|eauto]|].
      cbn [plan]. here (length (s_sent s HEvents)). exact Ld.
    - injection Ep as <-. unpace Lp. subst. cbn [good data] in *. split; [split; [exact Ld|eauto]|].
      cbn [plan]. here (length (s_sent s HDiff)). exact Ld.
    - injection Ep as <-. unpace Lp. subst. cbn [good data] in *. split; [split; [exact Ld|eauto]|].
      cbn [plan]. here (S (length (s_sent s HTxs))). exact Coq.Init.Logic.I.
    - (* Tx_send *) injection Ep as <-. unpace Lp. subst. split; [exact Ld|].
      cbn [plan]. here (S (length (s_sent s Txs))). exact Coq.Init.Logic.I.
    - injection Ep as <-. unpace Lp. subst. split; [exact Coq.Init.Logic.I|].
      cbn [plan]. here (s_taken s HTxs). exact Coq.Init.Logic.I.
    - injection Ep as <-. unpace Lp. subst. split; [exact Coq.Init.Logic.I|]. exact Coq.Init.Logic.I.
    - (* TF_join *) injection Ep as <-. unpace Lp. subst. cbn [good data] in *. split; [exact Ld|].
      pose proof (v_good s V Txs _ _ Ld) as Gs. cbn in Gs. destruct x0; try contradiction; cbn [plan]; [exact Coq.Init.Logic.I|].
      here (length (s_sent s TJoin)). exists l. split; [exact Ld|reflexivity].
    - injection Ep as <-. unpace Lp. subst. cbn [good data] in *. destruct Ld as (t & Ld & ->). split; [eauto|].
      cbn [plan]. here (S (length (s_sent s THashes))). exact Coq.Init.Logic.I.
    - (* Ev_send *) injection Ep as <-. unpace Lp. subst. cbn [data] in Ld. split; [exact Ld|].
      destruct x0; cbn [is_err plan]; try contradiction Ld; [exact Coq.Init.Logic.I|].
      here (S (length (s_sent s EJoin))). exact Coq.Init.Logic.I.
    - (* Sd_send *) injection Ep as <-. unpace Lp. subst. cbn [data] in Ld. split; [exact Ld|].
      destruct x0; cbn [is_err plan]; try contradiction Ld; [exact Coq.Init.Logic.I|].
      here (S (length (s_sent s Diffs))). exact Coq.Init.Logic.I.
    - (* SF_join *) injection Ep as <-. unpace Lp. subst. cbn [good data] in *. split; [exact Ld|].
      pose proof (v_good s V Diffs _ _ Ld) as Gs. cbn in Gs. destruct x0; try contradiction; cbn [plan]; [exact Coq.Init.Logic.I|].
      here (length (s_sent s DJoin)). exists d. split; [exact Ld|split; reflexivity].
    - injection Ep as <-. unpace Lp. subst. cbn [good data] in *. destruct Ld as (d & Ld & -> & ->). split; [eauto|].
      cbn [plan]. here (length (s_sent s Declared1)). exists d. split; [exact Ld|split; reflexivity].
    - injection Ep as <-. unpace Lp. subst. cbn [good data] in *. destruct Ld as (d & Ld & -> & ->). split; [eauto|].
      cbn [plan]. here (S (length (s_sent s Declared2))). exact Coq.Init.Logic.I.
    - (* Cl_send *) injection Ep as <-. unpace Lp. subst. cbn [data] in Ld. destruct Ld as [Ln Ld]. split; [exact Ld|].
      destruct x0; cbn [is_err plan]; try contradiction Ld; [exact Coq.Init.Logic.I|].
      here (S (length (s_sent s Classes))). cbn [data]. subst n. lia.
    - (* Vc_send *) cbn [data] in Ld.
      assert (Ei : i = length (s_sent s CJoin)) by (destruct x0; injection Ep as <-; unpace Lp; auto). subst i. split; [exact Ld|].
      destruct x0; cbn [is_err plan]; try contradiction Ld; [exact Coq.Init.Logic.I|].
      injection Ep as <-. unpace Lp. here (S (length (s_sent s CJoin))). exact Coq.Init.Logic.I.
    - (* J_send *) cbn [data] in Ld.
      assert (Ei : i = length (s_sent s Blocks)) by (destruct x0; injection Ep as <-; unpace Lp; auto). subst i. split; [exact Ld|].
      destruct x0; cbn [is_err plan]; try contradiction Ld; [exact Coq.Init.Logic.I|].
      injection Ep as <-. unpace Lp. here (S (length (s_sent s Blocks))). exact Coq.Init.Logic.I. }
  destruct Rp as (Rp & Gx & Lp'). split.
  - intros d i y H. apply (good_grows s); [exact G|].
    apply (at_push s c x d i y) in H. destruct H as [H|(-> & -> & ->)]; [exact (v_good s V d i y H)|exact Gx].
  - intros d. cbn. pose proof (v_taken s V d). destruct (cid_eq_dec d c); [rewrite app_length; cbn|]; lia.
  - intros q. destruct (pid_eq_dec q p) as [->|Hq]; [exact Lp'|].
    apply (linv_others p s); [exact G| |exact Hq|apply (v_loc s V)].
    apply (others_trans p s (push s c x)); [rewrite <- Rp; apply others_push|apply others_set].
  - apply (stored_grows s); [exact G|reflexivity|exact V].
Qed.

Lemma inv_store s p b ok failed : inv s -> prog e (s_loc s p) = Store b ok failed ->
  (if N.eqb (e_root e (map b_diff (s_stored s) ++ [b_diff b]) (hd_version (b_header b))) (hd_root (b_header b))
   then inv (set_loc (store s b) p ok) else inv (set_loc s p failed)).
Proof.
  intros V P. pose proof (v_loc s V p) as Lp.
  unfold linv in Lp. destruct (plan p (s_loc s p)) as [pl|] eqn:Ep;
    [|destruct p; destruct (s_loc s _); cbn in Lp, P; try contradiction; discriminate].
  destruct Lp as (i & Lp & Ld).
  destruct p; destruct (s_loc s _) eqn:El; try discriminate Ep; try discriminate P; try (destruct then_drain; discriminate P).
  cbn in P. injection P as <- <- <-. cbn in Ep. injection Ep as <-. unpace Lp. subst. cbn [data] in Ld.
  destruct (N.eqb _ _) eqn:Er; [|apply inv_silent; [exact V|apply linv_dead; exact Coq.Init.Logic.I]].
  apply N.eqb_eq in Er. cbn [b_header b_diff] in Er.
  assert (G : forall x, grows s (set_loc (store s x) PStore St_recv)) by (intros x d' i y H; exact H). split.
  - intros d' i y H. apply (good_grows s); [apply G|]. exact (v_good s V d' i y H).
  - intros d'. apply (v_taken s V).
  - intros q. destruct (pid_eq_dec q PStore) as [->|Hq].
    + unfold linv. rewrite loc_set. cbn [plan]. here (S (length (s_stored s))). exact Coq.Init.Logic.I.
    + apply (linv_others PStore s); [apply G| |exact Hq|apply (v_loc s V)].
      eapply (others_trans PStore s); [apply others_store|apply others_set].
  - intros i b. cbn [s_stored set_loc store]. intros H.
    destruct (Nat.lt_ge_cases i (length (s_stored s))) as [L|L].
    + rewrite nth_error_app1 in H by exact L.
      destruct (v_stored s V i b H) as (p' & h' & sg & m' & d' & l' & c' & K1 & K3 & K4).
      exists p', h', sg, m', d', l', c'. split; [exact K1|]. split; [exact K3|].
      rewrite firstn_app. replace (S i - length (s_stored s)) with 0 by lia. rewrite app_nil_r. exact K4.
    + rewrite nth_error_app2 in H by exact L. destruct (i - length (s_stored s)) as [|k] eqn:E; cbn in H; [|destruct k; discriminate].
      injection H as <-. replace i with (length (s_stored s)) by lia.
      exists p, h, sig, m, d, l, c. split; [exact Ld|]. split; [reflexivity|].
      rewrite firstn_all2 by (rewrite app_length; cbn; lia). rewrite map_app. exact Er.
Qed.
Lemma linv_source s l : dead PSource l \/ l = Source_open -> linv (set_loc s PSource l) PSource.
Proof.
  intros [H| ->]; [now apply linv_dead|]. unfold linv. rewrite loc_set. exists 0. split; [pace|exact Coq.Init.Logic.I].
Qed.
Lemma inv_arrive s x l : inv s -> s_loc s PSource = Source_open -> good s Src 0 x -> dead PSource l \/ l = Source_open ->
  inv (set_loc (push s Src x) PSource l).
Proof.
  intros V P Gx Hl.
  assert (G : grows s (set_loc (push s Src x) PSource l)) by (intros d i y H; apply (grows_push s Src x d i y H)).
  split.
  - intros d i y H. apply (good_grows s); [exact G|].
    apply (at_push s Src x d i y) in H. destruct H as [H|(-> & -> & ->)]; [exact (v_good s V d i y H)|exact Gx].
  - intros d. cbn. pose proof (v_taken s V d). destruct (cid_eq_dec d Src); [rewrite app_length; cbn|]; lia.
  - intros q. destruct (pid_eq_dec q PSource) as [->|Hq]; [now apply linv_source|].
    apply (linv_others PSource s); [exact G| |exact Hq|apply (v_loc s V)].
    apply (others_trans PSource s (push s Src x)); [apply (others_push s Src)|apply others_set].
  - apply (stored_grows s); [exact G|reflexivity|exact V].
Qed.
Lemma inv_ext s s' : s_sent s' = s_sent s -> s_taken s' = s_taken s -> s_stored s' = s_stored s ->
  (forall p, s_loc s' p = s_loc s p) -> inv s -> inv s'.
Proof.
  destruct s as [a b c d], s' as [a' b' c' d']. cbn. intros -> -> -> E V.
  assert (G : grows (State a b c d) (State a' b c d)) by (intros z i y H; exact H). split.
  - intros z i y H. apply (good_grows _ _ _ _ _ G). exact (v_good _ V z i y H).
  - exact (v_taken _ V).
  - intros p. pose proof (v_loc _ V p) as L. unfold linv in *. cbn in *. rewrite E.
    destruct (plan p (a p)) as [[[x1 x2] x3]|]; [|exact L]. destruct L as (i & L1 & L2). exists i. split; [exact L1|].
    now apply (data_grows (State a b c d)).
  - exact (v_stored _ V).
Qed.
Variable cap : cid -> nat.
Lemma inv_step s a s' : inv s -> step e cap s a = Some s' -> inv s'.
Proof.
  intros V H. destruct a as [x| |p|p a]; cbn in H.
  - destruct (s_loc s PSource) eqn:El; try discriminate. destruct (_ <? _); [|discriminate].
    destruct x; try discriminate; injection H as <-.
    + apply inv_arrive; auto; try exact Coq.Init.Logic.I. left. exact Coq.Init.Logic.I.
    + apply (inv_ext (set_loc (push s Src (IHeader p h signature)) PSource Source_open)); try reflexivity.
      * intros q. cbn. destruct (pid_eq_dec q PSource) as [->|]; [exact El|reflexivity].
      * apply inv_arrive; auto. exact Coq.Init.Logic.I.
  - destruct (s_loc s PSource) eqn:El; try discriminate. injection H as <-.
    apply inv_silent; [exact V|apply linv_dead; exact Coq.Init.Logic.I].
  - destruct (prog e (s_loc s p)) eqn:P; try discriminate.
    + destruct (nth_error (s_sent s c) (s_taken s c)) eqn:X.
      * injection H as <-. now apply inv_recv.
      * destruct (mute _); [|discriminate]. injection H as <-. now apply (inv_none s p c).
    + destruct (deaf _); [injection H as <-; now apply (inv_failed s p c x ok)|].
      destruct (_ <? _); [|discriminate]. injection H as <-. now apply (inv_send s p c x ok failed).
    + pose proof (inv_store s p b ok failed V P) as X. destruct (N.eqb _ _); injection H as <-; exact X.
  - destruct (prog e (s_loc s p)) eqn:P; try discriminate. destruct (k a) as [l|] eqn:K; [|discriminate].
    injection H as <-. exact (inv_answer s p r k a l V P K).
Qed.
Lemma inv_init : inv (init first).
Proof.
  split.
  - intros c i x H. unfold at_ in H. cbn in H. destruct i; discriminate.
  - intros c. cbn. lia.
  - intros p. destruct p; unfold linv; cbn [init s_loc plan]; exists 0; (split; [pace|cbn; auto]). lia.
  - intros i b H. cbn in H. destruct i; discriminate.
Qed.
Lemma inv_run_from acts : forall s s', inv s -> run_from e cap s acts = Some s' -> inv s'.
Proof.
  induction acts as [|a l IH]; cbn; intros s s' V H; [injection H as <-; exact V|].
  destruct (step e cap s a) as [s1|] eqn:E; [|discriminate]. exact (IH s1 s' (inv_step s a s1 V E) H).
Qed.
End Facts.
