From Coq Require Import List Arith NArith Bool Lia.
From Verif Require Import TrackModel TrackSpec TrackChecks TrackProof TrackLive.
Import ListNotations.
#[local] Arguments Nat.ltb : simpl never.

Ltac unpace H := cbn [paced] in H; destruct H as (H & ?Hm & ?Ht);
  repeat match goal with X : Forall _ (_ :: _) |- _ => inversion X; clear X; subst end;
  repeat match goal with X : Forall _ [] |- _ => clear X end; cbn [cnt] in *.

Section Honest.
Variables (e : env) (first : N) (cap : cid -> nat) (w : world).
Notation inv := (inv e first).
Notation at_num i := (first + N.of_nat i)%N.

(* what is sent when peers are honest *)
Definition fine (c : cid) (i : nat) (x : item) : Prop :=
  match x with
  | IErr _ => False
  | ITxs l => c = Txs -> ids l = map (fun y => t_hash (fst y)) (w_txs w (at_num i))
  | IDiff d => c = Diffs -> d = w_diff w (at_num i)
  | IClasses _ l => c = Classes -> all (compile e) (w_classes w (at_num i)) = Some l
  | _ => True
  end.
Definition clean (s : state) (q : pid) (l : loc) : Prop :=
  match l with
  | Halt | Done _ | Tx_drain | Tx_fail _ _ => False
  | HF_join x | TF_join x | Ev_send x | SF_join x | Vc_send x | J_send x => is_err x = false
  | Tx_send l => q = PTxs /\ fine Txs (length (s_sent s Txs)) (ITxs l)
  | Sd_send x => q = PDiff /\ fine Diffs (length (s_sent s Diffs)) x
  | Cl_send _ x => q = PClasses /\ fine Classes (length (s_sent s Classes)) x
  | _ => True
  end.
Record healthy (s : state) : Prop := {
  y_item : forall c i x, at_ s c i x -> fine c i x;
  y_loc : forall p, clean s p (s_loc s p)
}.
Definition told (s : state) : Prop :=
  forall i h, hdr_at s i h -> hd_number h = at_num i /\ describes e w h /\
    e_root e (map (fun j => w_diff w (at_num j)) (seq 0 (S i))) (hd_version h) = hd_root h.

Lemma clean_others p s s' q : others p s s' -> q <> p -> clean s q (s_loc s q) -> clean s' q (s_loc s' q).
Proof.
  intros [O1 O2] Hq. rewrite (O1 q Hq). destruct (s_loc s q); cbn [clean]; auto; intros [-> F]; (split; [reflexivity|]).
  - pose proof (O2 (W Txs) Hq) as X. cbn in X. now rewrite X.
  - pose proof (O2 (W Diffs) Hq) as X. cbn in X. now rewrite X.
  - pose proof (O2 (W Classes) Hq) as X. cbn in X. now rewrite X.
Qed.
Lemma clean_mute s p l : clean s p l -> mute l = false /\ deaf l = false.
Proof. destruct l; cbn; intros H; try contradiction; auto. Qed.

Lemma healthy_set s p l : inv s -> healthy s -> clean s p l -> healthy (set_loc s p l).
Proof.
  intros V Y C. split.
  - intros c i x A. apply (y_item s Y _ _ _ A).
  - intros q. destruct (pid_eq_dec q p) as [->|Hq].
    + rewrite loc_set. destruct l; exact C.
    + apply (clean_others p s); [apply others_set|exact Hq|apply (y_loc s Y)].
Qed.
Lemma healthy_pop s p c l : receiver c = p -> healthy s -> clean s p l -> healthy (set_loc (pop s c) p l).
Proof.
  intros Rc Y C. split.
  - intros d i x A. apply (y_item s Y _ _ _ A).
  - intros q. destruct (pid_eq_dec q p) as [->|Hq].
    + rewrite loc_set. destruct l; exact C.
    + apply (clean_others p s); [|exact Hq|apply (y_loc s Y)].
      apply (others_trans p s (pop s c)); [rewrite <- Rc; apply others_pop|apply others_set].
Qed.
Lemma healthy_push s p c x l : sender c = p -> healthy s -> fine c (length (s_sent s c)) x -> clean (push s c x) p l ->
  healthy (set_loc (push s c x) p l).
Proof.
  intros Sc Y F C. split.
  - intros d i y A. apply (at_push s c x) in A. destruct A as [A|(-> & -> & ->)]; [apply (y_item s Y _ _ _ A)|exact F].
  - intros q. destruct (pid_eq_dec q p) as [->|Hq].
    + rewrite loc_set. destruct l; exact C.
    + apply (clean_others p s); [|exact Hq|apply (y_loc s Y)].
      apply (others_trans p s (push s c x)); [rewrite <- Sc; apply others_push|apply others_set].
Qed.

Lemma recv_owner s p c k : inv s -> prog e (s_loc s p) = Recv c k -> receiver c = p.
Proof.
  intros V P. pose proof (v_loc _ _ _ V p) as L. unfold linv in L.
  destruct (plan p (s_loc s p)) as [[[d m] t]|] eqn:Ep; [|rewrite (dead_stop e _ _ L) in P; discriminate].
  apply (plan_owner p _ d m t (R c) Ep). apply in_or_app. right. apply in_or_app. right.
  exact (plan_recv e p _ c k (d, m, t) P Ep).
Qed.
Lemma send_owner s p c x ok failed : inv s -> prog e (s_loc s p) = Send c x ok failed -> sender c = p.
Proof.
  intros V P. pose proof (v_loc _ _ _ V p) as L. unfold linv in L.
  destruct (plan p (s_loc s p)) as [[[d m] t]|] eqn:Ep; [|rewrite (dead_stop e _ _ L) in P; discriminate].
  apply (plan_owner p _ d m t (W c) Ep). apply in_or_app. right. apply in_or_app. right.
  exact (plan_send e p _ c _ _ _ (d, m, t) P Ep).
Qed.
Lemma same s c i x y : at_ s c i x -> at_ s c i y -> x = y.
Proof. unfold at_. congruence. Qed.
Lemma is_header s i x : inv s -> healthy s -> at_ s Src i x -> exists p h sig, x = IHeader p h sig.
Proof.
  intros V Y A. pose proof (v_good _ _ _ V _ _ _ A) as G. pose proof (y_item s Y _ _ _ A) as F. cbn in G.
  destruct x; try contradiction. eauto.
Qed.

Lemma recv_clean s p c k x : inv s -> healthy s -> told s -> prog e (s_loc s p) = Recv c k ->
  nth_error (s_sent s c) (s_taken s c) = Some x -> clean s p (k (Some x)).
Proof.
  intros V Y T P X. pose proof (v_good _ _ _ V c _ x X) as G. pose proof (y_item s Y _ _ _ X) as F.
  pose proof (v_loc _ _ _ V p) as L. unfold linv in L. pose proof (y_loc s Y p) as C.
  destruct (plan p (s_loc s p)) as [pl|] eqn:Ep; [|rewrite (dead_stop e _ _ L) in P; discriminate].
  destruct L as (i & Lp & Ld).
  destruct p; destruct (s_loc s _); try discriminate Ep; try discriminate P; try (destruct then_drain; discriminate P); try contradiction;
    cbn in P; injection P as <- <-; injection Ep as <-; unpace Lp; subst; cbn [good data] in G, Ld.
  - destruct x; try contradiction; reflexivity.
  - destruct G as [G (p0 & h0 & sig0 & ->)]. exact Coq.Init.Logic.I.
  - destruct x; try contradiction; reflexivity.
  - destruct G as [G (p0 & h0 & sig0 & ->)]. exact Coq.Init.Logic.I.
  - destruct G as (t & G & ->). exact Coq.Init.Logic.I.
  - destruct G as [G (p0 & h0 & sig0 & ->)]. exact Coq.Init.Logic.I.
  - destruct x; try contradiction; reflexivity.
  - destruct G as (d & G & ->). exact Coq.Init.Logic.I.
  - destruct x; try contradiction; exact Coq.Init.Logic.I.
  - (* Vc_declared *) destruct G as (d & G & ->). cbn [clean].
    pose proof (y_item s Y _ _ _ G) as Fd. cbn in Fd. specialize (Fd eq_refl).
    pose proof (y_item s Y _ _ _ Ld) as Fc. cbn in Fc. specialize (Fc eq_refl).
    pose proof (v_good _ _ _ V _ _ _ G) as Gd. cbn in Gd. destruct Gd as (h & Hh & _).
    destruct (T _ h Hh) as (T1 & T2 & _). destruct (classes_pass e h w T2) as (l' & K1 & K2 & K3).
    rewrite T1 in K2, K3.
    match goal with K : s_taken s Declared2 = _ |- _ => rewrite K in * | K : _ = s_taken s Declared2 |- _ => rewrite <- K in * end.
    rewrite <- Fd in K3. assert (l' = l) by congruence. subst l'. rewrite K3. reflexivity.
  - destruct (is_header s _ x V Y G) as (p0 & h0 & sig0 & ->). exact Coq.Init.Logic.I.
  - destruct x; try contradiction; exact Coq.Init.Logic.I.
  - pose proof (v_good _ _ _ V _ _ _ G) as G2. cbn in G2. destruct x; try contradiction; exact Coq.Init.Logic.I.
  - pose proof (v_good _ _ _ V _ _ _ G) as G2. cbn in G2. destruct x; try contradiction; exact Coq.Init.Logic.I.
  - destruct x; try contradiction; reflexivity.
  - destruct x; try contradiction; exact Coq.Init.Logic.I.
Qed.
Lemma send_clean s p c x ok failed : inv s -> healthy s -> prog e (s_loc s p) = Send c x ok failed ->
  fine c (length (s_sent s c)) x /\ clean (push s c x) p ok.
Proof.
  intros V Y P. pose proof (v_loc _ _ _ V p) as L. unfold linv in L. pose proof (y_loc s Y p) as C.
  destruct (plan p (s_loc s p)) as [pl|] eqn:Ep; [|rewrite (dead_stop e _ _ L) in P; discriminate].
  destruct L as (i & Lp & Ld).
  destruct p; destruct (s_loc s _); try discriminate Ep; try discriminate P; try (destruct then_drain; discriminate P); try contradiction;
    cbn in P; injection P as <- <- <- <-; cbn [data clean] in Ld, C.
  - destruct (is_header s _ _ V Y Ld) as (p0 & h0 & sig0 & ->). split; exact Coq.Init.Logic.I.
  - split; exact Coq.Init.Logic.I.
  - split; exact Coq.Init.Logic.I.
  - split; exact Coq.Init.Logic.I.
  - split; [apply C|exact Coq.Init.Logic.I].
  - pose proof (v_good _ _ _ V _ _ _ Ld) as G. cbn in G. destruct x0; try contradiction; [discriminate|]. split; [discriminate|exact Coq.Init.Logic.I].
  - split; exact Coq.Init.Logic.I.
  - cbn [good] in Ld. destruct x0; try contradiction; [discriminate|]. split; exact Coq.Init.Logic.I.
  - destruct C as [_ C]. cbn [good] in Ld. destruct x0; try contradiction. split; [exact C|exact Coq.Init.Logic.I].
  - pose proof (v_good _ _ _ V _ _ _ Ld) as G. cbn in G. destruct x0; try contradiction; [discriminate|]. split; [discriminate|exact Coq.Init.Logic.I].
  - split; exact Coq.Init.Logic.I.
  - split; exact Coq.Init.Logic.I.
  - destruct C as [_ C]. destruct Ld as [_ Ld]. cbn [good] in Ld. destruct x0; try contradiction. split; [exact C|exact Coq.Init.Logic.I].
  - cbn [good] in Ld. destruct x0; try contradiction; [discriminate|]. split; [discriminate|exact Coq.Init.Logic.I].
  - cbn [good] in Ld. destruct x0; try contradiction; [discriminate|]. split; exact Coq.Init.Logic.I.
Qed.
Lemma ask_clean s p r k a l : inv s -> healthy s -> told s -> prog e (s_loc s p) = Ask r k -> honest w (snd r) a -> k a = Some l -> clean s p l.
Proof.
  intros V Y T P H K. pose proof (v_loc _ _ _ V p) as L. unfold linv in L.
  destruct (plan p (s_loc s p)) as [pl|] eqn:Ep; [|rewrite (dead_stop e _ _ L) in P; discriminate].
  destruct L as (i & Lp & Ld).
  destruct p; destruct (s_loc s _); try discriminate Ep; try discriminate P; try (destruct then_drain; discriminate P);
    cbn in P; injection P as <- <-; injection Ep as <-; unpace Lp; subst; cbn [data] in Ld; destruct a; try discriminate K; cbn in H; subst.
  - destruct (T _ h Ld) as (T1 & T2 & _). destruct (txs_pass e h w T2) as (l1 & l2 & K1 & K2 & K3).
    rewrite K1, K2 in K. injection K as <-. split; [reflexivity|]. intros _. unfold ids. now rewrite K3, T1.
  - destruct Ld as (Ld & t & Lt & ->). destruct (T _ h Ld) as (T1 & T2 & _). destruct (events_pass e h w T2) as (m & K1).
    pose proof (y_item s Y _ _ _ Lt) as Ft. cbn in Ft. specialize (Ft eq_refl). rewrite Ft, <- T1, K1 in K. injection K as <-. reflexivity.
  - destruct (T _ h Ld) as (T1 & T2 & _). pose proof T2 as (_ & _ & _ & _ & _ & _ & _ & T3 & _).
    unfold verified_diff in K. rewrite T3, N.eqb_refl in K. injection K as <-. split; [reflexivity|]. intros _. now rewrite T1.
  - destruct Ld as (-> & d & Ld & _). pose proof (v_good _ _ _ V _ _ _ Ld) as Gd. cbn in Gd. destruct Gd as (h & Hh & _).
    destruct (T _ h Hh) as (T1 & T2 & _). destruct (classes_pass e h w T2) as (l' & K1 & K2 & K3). rewrite T1 in K1, K2.
    rewrite K1, K2 in K. injection K as <-. split; [reflexivity|]. intros _. exact K2.
Qed.
Lemma diffs_stored s : inv s -> healthy s -> map b_diff (s_stored s) = map (fun j => w_diff w (at_num j)) (seq 0 (length (s_stored s))).
Proof.
  intros V Y.
  assert (X : forall i b, nth_error (s_stored s) i = Some b -> b_diff b = w_diff w (at_num i)).
  { intros i b H. destruct (v_stored _ _ _ V i b H) as (p & h & sg & m & d & l & c & B & -> & _).
    pose proof (v_good _ _ _ V _ _ _ B) as G. cbn in G. destruct G as (_ & _ & G & _).
    pose proof (v_good _ _ _ V _ _ _ G) as G2. cbn in G2. apply (y_item s Y _ _ _ G2). reflexivity. }
  revert X. generalize (s_stored s). intros l. induction l as [|b l IH] using rev_ind; intros X; [reflexivity|].
  rewrite app_length, map_app, seq_app, map_app. cbn [length]. rewrite IH.
  - cbn [map seq plus]. f_equal. f_equal. apply X. rewrite nth_error_app2, Nat.sub_diag by lia. reflexivity.
  - intros i b' H. apply X. rewrite nth_error_app1; [exact H|]. apply nth_error_Some. congruence.
Qed.
Lemma healthy_step s a s' : inv s -> healthy s -> told s ->
  match a with
  | Answer p x => forall r k, prog e (s_loc s p) = Ask r k -> honest w (snd r) x
  | Arrive (IErr _) | NoMore => False
  | _ => True
  end -> step e cap s a = Some s' -> healthy s'.
Proof.
  intros V Y T A H. destruct a as [x| |p|p a]; [| contradiction | |]; cbn in H.
  - destruct (s_loc s PSource) eqn:El; try discriminate. destruct (_ <? _); [|discriminate].
    destruct x; try discriminate; [contradiction|]. injection H as <-. split.
    + intros d i y B. apply (at_push s Src) in B. destruct B as [B|(-> & -> & ->)]; [apply (y_item s Y _ _ _ B)|exact Coq.Init.Logic.I].
    + intros q. destruct (pid_eq_dec q PSource) as [->|Hq]; [cbn; rewrite El; exact Coq.Init.Logic.I|].
      apply (clean_others PSource s); [apply (others_push s Src)|exact Hq|apply (y_loc s Y)].
  - destruct (prog e (s_loc s p)) eqn:P; try discriminate.
    + destruct (nth_error (s_sent s c) (s_taken s c)) as [x|] eqn:X.
      * injection H as <-. apply healthy_pop; [exact (recv_owner s p c k V P)|exact Y|exact (recv_clean s p c k x V Y T P X)].
      * rewrite (proj1 (clean_mute s _ _ (y_loc s Y (sender c)))) in H. discriminate.
    + rewrite (proj2 (clean_mute s _ _ (y_loc s Y (receiver c)))) in H. destruct (_ <? _); [|discriminate]. injection H as <-.
      destruct (send_clean s p c x ok failed V Y P). apply healthy_push; auto. exact (send_owner s p c x ok failed V P).
    + assert (Ok : N.eqb (e_root e (map b_diff (s_stored s) ++ [b_diff b]) (hd_version (b_header b))) (hd_root (b_header b)) = true /\ clean s p ok).
      { pose proof (v_loc _ _ _ V p) as L. unfold linv in L.
        destruct (plan p (s_loc s p)) as [pl|] eqn:Ep; [|rewrite (dead_stop e _ _ L) in P; discriminate].
        destruct L as (i & Lp & Ld).
        destruct p; destruct (s_loc s _); try discriminate Ep; try discriminate P; try (destruct then_drain; discriminate P).
        cbn in P. injection P as <- <- <-. injection Ep as <-. unpace Lp. subst. cbn [data] in Ld. split; [|exact Coq.Init.Logic.I].
        pose proof (v_good _ _ _ V _ _ _ Ld) as G. cbn in G. destruct G as (G0 & _ & G & _).
        pose proof (v_good _ _ _ V _ _ _ G) as G2. cbn in G2. pose proof (y_item s Y _ _ _ G2) as Fd. cbn in Fd. specialize (Fd eq_refl).
        pose proof (v_good _ _ _ V _ _ _ G0) as G1. cbn in G1.
        assert (Hh : hdr_at s (length (s_stored s)) h) by (exists p, sig; exact G1). destruct (T _ h Hh) as (_ & _ & T3).
        cbn [b_diff b_header]. rewrite (diffs_stored s V Y). rewrite seq_S, map_app in T3. cbn [map plus] in T3.
        rewrite <- Fd in T3. apply N.eqb_eq. exact T3. }
      destruct Ok as [Ok1 Ok2]. rewrite Ok1 in H. injection H as <-. split.
      * intros c i x B. apply (y_item s Y _ _ _ B).
      * intros q. destruct (pid_eq_dec q p) as [->|Hq]; [rewrite loc_set; destruct ok; exact Ok2|].
        cbn -[pid_eq_dec]. destruct (pid_eq_dec q p); [contradiction|]. apply (y_loc s Y).
  - destruct (prog e (s_loc s p)) eqn:P; try discriminate. destruct (k a) as [l|] eqn:K; [|discriminate]. injection H as <-.
    apply healthy_set; auto. exact (ask_clean s p r k a l V Y T P (A _ _ eq_refl) K).
Qed.
Lemma told_src s acts rest : src_ok s acts -> true_headers e w first (arrived (acts ++ rest)) -> told s.
Proof.
  intros S T i h (p & sg & A). apply (src_arrived s acts i p h sg S) in A.
  apply (T i h sg). rewrite arrived_app, nth_error_app1; [exact A|]. apply nth_error_Some. congruence.
Qed.
Lemma healthy_run acts : forall s pre s', inv s -> src_ok s pre -> healthy s -> true_headers e w first (arrived (pre ++ acts)) ->
  honestly e cap w s acts -> run_from e cap s acts = Some s' -> healthy s'.
Proof.
  induction acts as [|a l IH]; intros s pre s' V S Y T A H; [injection H as <-; exact Y|].
  cbn [honestly run_from] in A, H. destruct A as [A1 A2]. destruct (step e cap s a) as [s1|] eqn:E; [|discriminate].
  pose proof (told_src s pre (a :: l) S T) as Ts. replace (pre ++ a :: l) with ((pre ++ [a]) ++ l) in T by now rewrite <- app_assoc.
  apply (IH s1 (pre ++ [a]) s'); auto.
  - exact (inv_step _ _ _ _ _ _ V E).
  - exact (src_step _ _ _ _ _ _ _ V S E).
  - exact (healthy_step s a s1 V Y Ts A1 E).
Qed.
Lemma healthy_init : healthy (init first).
Proof.
  split.
  - intros c i x A. unfold at_ in A. cbn in A. destruct i; discriminate.
  - intros p. destruct p; exact Coq.Init.Logic.I.
Qed.
End Honest.
