(* Proofs about the following of L1.  No statement here is a property. *)
From Coq Require Import List Arith NArith Bool Lia ZifyBool ZifyNat Sorted.
From Verif Require Import L1LogModel L1LogSpec.
Import ListNotations.

#[local] Arguments Nat.ltb : simpl never.
#[local] Arguments Nat.leb : simpl never.

(* ---- what the client has been told ---- *)
Definition told := nat -> list N.
Definition tell (B : told) (e : event) : told :=
  match e with
  | Added n u => fun m => if m =? n then B m ++ [u] else B m
  | Removed n _ => fun m => if m =? n then [] else B m
  end.
Definition replay (q : list event) (B : told) : told := fold_left tell q B.
Lemma replay_app q1 q2 B : replay (q1 ++ q2) B = replay q2 (replay q1 B).
Proof. apply fold_left_app. Qed.
Lemma replay_other q : forall B n, (forall e, In e q -> block_of e <> n) -> replay q B n = B n.
Proof.
  induction q as [|e q IH]; intros B n H; [reflexivity|]. cbn. rewrite IH by (intros; apply H; now right).
  specialize (H e (or_introl eq_refl)). destruct e as [m u|m u]; cbn in *; destruct (n =? m) eqn:E; try reflexivity; lia.
Qed.
Lemma replay_ext q : forall B B' n, B n = B' n -> replay q B n = replay q B' n.
Proof.
  induction q as [|e q IH]; intros B B' n H; [exact H|]. cbn. apply IH.
  destruct e; cbn; destruct (n =? n0); now rewrite ?H.
Qed.
Lemma replay_keeps q : forall B n, (forall u, ~ In (Removed n u) q) -> exists l, replay q B n = B n ++ l.
Proof.
  induction q as [|e q IH]; intros B n H; [exists []; now rewrite app_nil_r|]. cbn.
  destruct (IH (tell B e) n) as (l & E); [intros u X; apply (H u); now right|].
  change (fold_left tell q (tell B e)) with (replay q (tell B e)). rewrite E. clear E.
  destruct e as [m u|m u]; cbn.
  - destruct (n =? m) eqn:En; [|eauto]. exists (u :: l). now rewrite <- app_assoc.
  - destruct (n =? m) eqn:En; [|eauto]. apply Nat.eqb_eq in En. subst m. destruct (H u). now left.
Qed.
Lemma replay_adds n logs : forall B, replay (map (Added n) logs) B n = B n ++ logs.
Proof.
  induction logs as [|u logs IH]; intros B; cbn; [now rewrite app_nil_r|].
  rewrite IH. cbn. rewrite Nat.eqb_refl, <- app_assoc. reflexivity.
Qed.
Lemma in_events kind (Hk : forall n u, block_of (kind n u) = n) : forall blocks n e, In e (events kind n blocks) ->
  exists m u, e = kind m u /\ n <= m < n + length blocks /\ In u (nth (m - n) blocks []).
Proof.
  induction blocks as [|b blocks IH]; intros n e H; [destruct H|]. cbn in H. apply in_app_iff in H.
  destruct H as [H|H].
  - apply in_map_iff in H. destruct H as (u & <- & Hu). exists n, u. rewrite Nat.sub_diag. cbn. auto with arith. 
    repeat split; auto; lia.
  - destruct (IH _ _ H) as (m & u & E & L & Hu). exists m, u. split; [exact E|]. split; [cbn; lia|].
    replace (m - n) with (S (m - S n)) by lia. exact Hu.
Qed.
Lemma replay_removed : forall blocks n B m, n <= m < n + length blocks -> nth (m - n) blocks [] <> [] ->
  replay (events Removed n blocks) B m = [].
Proof.
  induction blocks as [|b blocks IH]; intros n B m L H; [cbn in L; lia|]. cbn [events]. rewrite replay_app.
  destruct (Nat.eq_dec m n) as [->|Hn].
  - rewrite Nat.sub_diag in H. cbn in H. rewrite replay_other.
    + clear - H. revert B. induction b as [|u b IH]; intros B; [contradiction|]. cbn.
      destruct b as [|v b]; [cbn; now rewrite Nat.eqb_refl|]. apply IH. discriminate.
    + intros e He. destruct (in_events Removed ltac:(reflexivity) _ _ _ He) as (k & u & -> & L1 & _). cbn. lia.
  - replace (m - n) with (S (m - S n)) in H by lia. apply IH; [cbn in L; lia|exact H].
Qed.

(* ---- the pending updates ---- *)
Definition keyed (p : pending) : Prop := StronglySorted (fun a b => fst a < fst b) p.
Lemma in_ins n u p : forall m v, In (m, v) (ins n u p) -> (m = n /\ v = u) \/ In (m, v) p.
Proof.
  induction p as [|[k w] p IH]; intros m v H; cbn in H.
  - destruct H as [H|[]]. injection H as <- <-. auto.
  - destruct (n <? k); [|destruct (n =? k)]; cbn in H.
    + destruct H as [H|H]; [injection H as <- <-; auto|right; exact H].
    + destruct H as [H|H]; [injection H as <- <-; auto|right; now right].
    + destruct H as [H|H]; [right; now left|]. destruct (IH _ _ H) as [X|X]; [now left|right; now right].
Qed.
Lemma ins_same n u p : keyed p -> forall v, In (n, v) (ins n u p) -> v = u.
Proof.
  unfold keyed. induction p as [|[k w] p IH]; intros H v X; cbn in X.
  - destruct X as [X|[]]. congruence.
  - apply StronglySorted_inv in H. destruct H as [H1 H2]. rewrite Forall_forall in H2.
    destruct (n <? k) eqn:E1; [|destruct (n =? k) eqn:E2]; cbn in X.
    + destruct X as [X|[X|X]]; [congruence|injection X as -> _; lia|]. specialize (H2 _ X). cbn in H2. lia.
    + destruct X as [X|X]; [congruence|]. specialize (H2 _ X). cbn in H2. lia.
    + destruct X as [X|X]; [injection X as -> _; lia|auto].
Qed.
Lemma ins_in n u p : In (n, u) (ins n u p).
Proof.
  induction p as [|[k w] p IH]; cbn; [now left|].
  destruct (n <? k); [now left|]. destruct (n =? k); [now left|]. now right.
Qed.
Lemma ins_keeps n u p : forall m v, m <> n -> In (m, v) p -> In (m, v) (ins n u p).
Proof.
  induction p as [|[k w] p IH]; intros m v Hm H; [destruct H|]. cbn.
  destruct (n <? k); [now right|]. destruct (n =? k) eqn:E.
  - destruct H as [H|H]; [injection H as -> ->; lia|now right].
  - destruct H as [H|H]; [now left|right; now apply IH].
Qed.
Lemma ins_keyed n u p : keyed p -> keyed (ins n u p).
Proof.
  unfold keyed. induction p as [|[k w] p IH]; intros H; cbn; [repeat constructor|].
  apply StronglySorted_inv in H. destruct H as [H1 H2]. rewrite Forall_forall in H2.
  destruct (n <? k) eqn:E1; [|destruct (n =? k) eqn:E2].
  - constructor; [constructor; [exact H1|now apply Forall_forall]|]. apply Forall_forall. intros x [<-|X]; cbn; [lia|].
    specialize (H2 x X). cbn in H2. lia.
  - constructor; [exact H1|]. apply Forall_forall. intros x X. specialize (H2 x X). cbn in *. lia.
  - constructor; [auto|]. apply Forall_forall. intros [m v] X. apply in_ins in X. destruct X as [[-> ->]|X]; cbn; [lia|].
    now apply (H2 (m, v)).
Qed.
Lemma filter_keyed f p : keyed p -> keyed (filter f p).
Proof.
  unfold keyed. induction p as [|x p IH]; intros H; [constructor|]. cbn. apply StronglySorted_inv in H. destruct H as [H1 H2].
  destruct (f x); [|auto]. constructor; [auto|]. apply Forall_forall. intros y Y. apply filter_In in Y.
  rewrite Forall_forall in H2. now apply H2.
Qed.

(* ---- the invariant ---- *)
Definition ordered (ps : list (nat * nat)) : Prop := StronglySorted before ps.
Lemma increasing_ordered ps : ordered ps -> increasing ps.
Proof.
  unfold ordered. induction ps as [|p ps IH]; intros H; [exact I|].
  apply StronglySorted_inv in H. destruct H as [H1 H2]. destruct ps as [|q ps]; [exact I|].
  split; [|auto]. rewrite Forall_forall in H2. apply H2. now left.
Qed.

Record inv (u0 : N) (w : world) (B : told) (d : nat) (ps : list (nat * nat)) : Prop := {
  i_sub : w_sub w = true;
  i_final : w_final w < length (w_chain w);
  i_d : d <= length (w_chain w);
  i_replay : forall n, replay (w_queue w) B n = if d <=? n then nth n (w_chain w) [] else [];
  i_keyed : keyed (w_pending w);
  i_pending : forall n u, In (n, u) (w_pending w) -> exists l, B n = l ++ [u];
  i_told : forall n, B n <> [] -> exists l u, B n = l ++ [u] /\ (In (n, u) (w_pending w) \/ In (n, length l) ps);
  i_emitted : exists es, w_emitted w = u0 :: es /\ map Some es = map (log_at (w_chain w)) ps;
  i_ordered : ordered ps;
  i_ps : forall m j, In (m, j) ps -> m <= w_final w /\ j < length (B m) /\
           (forall u, ~ In (Removed m u) (w_queue w)) /\ (forall n u, In (Added n u) (w_queue w) -> m <= n) /\
           (forall f, In f (w_polled w) -> m <= f);
  i_after : forall n u m j, In (n, u) (w_pending w) -> In (m, j) ps -> before (m, j) (n, length (B n) - 1);
  i_order : forall q1 n u q2, w_queue w = q1 ++ Added n u :: q2 -> forall m, n < m -> replay q1 B m = [];
  i_polled : forall f, In f (w_polled w) -> f <= w_final w;
  i_sorted : StronglySorted le (w_polled w)
}.

Lemma sorted_app {A} (R : A -> A -> Prop) l1 l2 :
  StronglySorted R l1 -> StronglySorted R l2 -> (forall x y, In x l1 -> In y l2 -> R x y) -> StronglySorted R (l1 ++ l2).
Proof.
  induction l1 as [|x l1 IH]; intros H1 H2 H; [exact H2|]. cbn. apply StronglySorted_inv in H1. destruct H1 as [H1 H3].
  constructor; [apply IH; auto; intros; apply H; auto; now right|].
  apply Forall_forall. intros y Y. apply in_app_iff in Y. rewrite Forall_forall in H3. destruct Y as [Y|Y]; [auto|].
  apply H; [now left|exact Y].
Qed.

Definition next_from (d : nat) (a : act) : nat := match a with Reorg k => Nat.min d k | _ => d end.
Definition next_told (w : world) (B : told) (a : act) : told :=
  match a, w_queue w with OnEvent, e :: _ => tell B e | _, _ => B end.
Definition next_ps (w : world) (B : told) (ps : list (nat * nat)) (a : act) : list (nat * nat) :=
  match a, w_polled w with
  | OnFinal, f :: _ => ps ++ map (fun e => (fst e, length (B (fst e)) - 1)) (filter (fun e => fst e <=? f) (w_pending w))
  | _, _ => ps
  end.

Lemma nth_firstn {A} (l : list A) k n x : n < k -> nth n (firstn k l) x = nth n l x.
Proof.
  revert k n. induction l as [|y l IH]; intros k n H; [now rewrite firstn_nil|].
  destruct k; [lia|]. destruct n; [reflexivity|]. cbn. apply IH. lia.
Qed.
Lemma nth_skipn' {A} (l : list A) k n x : nth n (skipn k l) x = nth (k + n) l x.
Proof.
  revert l. induction k as [|k IH]; intros l; [reflexivity|]. destruct l; [cbn; now destruct n|]. cbn. apply IH.
Qed.

Lemma split_app_mid {A} (q q' q1 q2 : list A) x : q ++ q' = q1 ++ x :: q2 ->
  (exists r, q = q1 ++ x :: r) \/ (exists r, q1 = q ++ r /\ q' = r ++ x :: q2).
Proof.
  revert q1. induction q as [|y q IH]; intros q1 H; [right; now exists q1|].
  destruct q1 as [|z q1]; cbn in H; injection H as -> H.
  - left. now exists q.
  - destruct (IH q1 H) as [(r & ->)|(r & -> & ->)]; [left; now exists r|right; now exists r].
Qed.

Lemma inv_step u0 w B d ps a w' :
  inv u0 w B d ps -> step w a = Some w' -> a <> Lose ->
  (a = OnFinal -> forall f polled n u, w_polled w = f :: polled -> In (Removed n u) (w_queue w) -> f < n) ->
  inv u0 w' (next_told w B a) (next_from d a) (next_ps w B ps a).
Proof.
  intros V H Hl Ht. destruct w as [chain final sub queue polled pend emitted].
  pose proof (i_sub _ _ _ _ _ V) as Esub. cbn in Esub. subst sub.
  destruct a; cbn [step] in H; try contradiction.
  - (* Mine *) injection H as <-. destruct V as [V0 V1 V2 V3 V4 V5 V6 V7 V8 V9 V10 V11 V12 V13]; cbn in *.
    assert (Hnil : replay queue B (length chain) = []).
    { rewrite V3. destruct (d <=? length chain); [|reflexivity]. now apply nth_overflow. }
    split; cbn; auto.
    + rewrite app_length. cbn. lia.
    + rewrite app_length. cbn. lia.
    + intros n. rewrite replay_app. destruct (Nat.eq_dec n (length chain)) as [->|Hn].
      * rewrite replay_adds, Hnil. destruct (d <=? length chain) eqn:E; [|lia].
        rewrite app_nth2 by lia. now rewrite Nat.sub_diag.
      * rewrite replay_other, V3.
        -- destruct (d <=? n); [|reflexivity]. destruct (Nat.lt_ge_cases n (length chain)) as [X|X].
           ++ now rewrite app_nth1.
           ++ rewrite !nth_overflow; [reflexivity|rewrite app_length; cbn; lia|exact X].
        -- intros e He. apply in_map_iff in He. destruct He as (u & <- & _). cbn. lia.
    + destruct V7 as (es & E1 & E2). exists es. split; [exact E1|]. rewrite E2. apply map_ext_in. intros [m j] Hm.
      unfold log_at. cbn. rewrite app_nth1; [reflexivity|]. destruct (V9 m j Hm). lia.
    + intros m j Hm. destruct (V9 m j Hm) as (A1 & A2 & A3 & A4 & A5). repeat split; auto.
      * intros u X. apply in_app_iff in X. destruct X as [X|X]; [now apply (A3 u)|].
        apply in_map_iff in X. destruct X as (v & X & _). discriminate.
      * intros n u X. apply in_app_iff in X. destruct X as [X|X]; [now apply (A4 n u)|].
        apply in_map_iff in X. destruct X as (v & X & _). assert (n = length chain) by congruence. lia.
    + intros q1 n u q2 E m Hm. destruct (split_app_mid _ _ _ _ _ E) as [(r & Er)|(r & -> & Er)].
      * now apply (V11 _ _ _ _ Er).
      * assert (Hr : forall e, In e (map (Added (length chain)) logs) -> block_of e = length chain).
        { intros e He. apply in_map_iff in He. destruct He as (v & <- & _). reflexivity. }
        assert (n = length chain) as ->.
        { apply (Hr (Added n u)). rewrite Er. apply in_app_iff. right. now left. }
        rewrite replay_app, replay_other.
        -- rewrite V3. destruct (d <=? m); [|reflexivity]. apply nth_overflow. lia.
        -- intros e He. rewrite (Hr e); [lia|]. rewrite Er. apply in_app_iff. now left.
  - (* Reorg *) destruct (final <? k) eqn:Ek; [|discriminate]. injection H as <-.
    destruct V as [V0 V1 V2 V3 V4 V5 V6 V7 V8 V9 V10 V11 V12 V13]; cbn in *.
    split; cbn; auto.
    + rewrite firstn_length. lia.
    + rewrite firstn_length. lia.
    + intros n. rewrite replay_app.
      assert (He : forall e, In e (events Removed k (skipn k chain)) -> k <= block_of e).
      { intros e X. destruct (in_events Removed ltac:(reflexivity) _ _ _ X) as (m & u & -> & L & _). cbn. lia. }
      destruct (Nat.lt_ge_cases n k) as [Hn|Hn].
      * rewrite replay_other by (intros e X; specialize (He e X); lia). rewrite V3.
        destruct (d <=? n) eqn:E1, (Nat.min d k <=? n) eqn:E2; try lia; [|reflexivity]. now rewrite nth_firstn.
      * assert (E2 : (Nat.min d k <=? n) = true) by lia. rewrite E2.
        rewrite (nth_overflow (firstn k chain)) by (rewrite firstn_length; lia).
        destruct (nth (n - k) (skipn k chain) []) as [|v l] eqn:E.
        -- rewrite replay_other.
           ++ rewrite V3. destruct (d <=? n); [|reflexivity]. rewrite nth_skipn' in E.
              replace (k + (n - k)) with n in E by lia. exact E.
           ++ intros e X. destruct (in_events Removed ltac:(reflexivity) _ _ _ X) as (m & u & -> & L & Hu). cbn.
              intros ->. rewrite E in Hu. destruct Hu.
        -- apply replay_removed; [|congruence].
           destruct (Nat.lt_ge_cases (n - k) (length (skipn k chain))) as [X|X]; [lia|].
           rewrite nth_overflow in E by exact X. discriminate.
    + destruct V7 as (es & E1 & E2). exists es. split; [exact E1|]. rewrite E2. apply map_ext_in. intros [m j] Hm.
      unfold log_at. cbn. rewrite nth_firstn; [reflexivity|]. destruct (V9 m j Hm). lia.
    + intros m j Hm. destruct (V9 m j Hm) as (A1 & A2 & A3 & A4 & A5). repeat split; auto.
      * intros u X. apply in_app_iff in X. destruct X as [X|X]; [now apply (A3 u)|].
        destruct (in_events Removed ltac:(reflexivity) _ _ _ X) as (m' & u' & E & L & _). assert (m = m') by congruence. lia.
      * intros n u X. apply in_app_iff in X. destruct X as [X|X]; [now apply (A4 n u)|].
        destruct (in_events Removed ltac:(reflexivity) _ _ _ X) as (m' & u' & E & L & _). discriminate.
    + intros q1 n u q2 E m Hm. destruct (split_app_mid _ _ _ _ _ E) as [(r & Er)|(r & -> & Er)].
      * now apply (V11 _ _ _ _ Er).
      * exfalso. assert (X : In (Added n u) (events Removed k (skipn k chain))) by (rewrite Er; apply in_app_iff; right; now left).
        destruct (in_events Removed ltac:(reflexivity) _ _ _ X) as (m' & u' & E' & _). discriminate.
  - (* Finalize *) destruct ((final <=? n) && (n <? length chain)) eqn:E; [|discriminate]. injection H as <-.
    apply andb_true_iff in E. destruct E as [E1 E2].
    destruct V as [V0 V1 V2 V3 V4 V5 V6 V7 V8 V9 V10 V11 V12 V13]; cbn in *. split; cbn; auto.
    + lia.
    + intros m j Hm. destruct (V9 m j Hm) as (A1 & A2). split; [lia|exact A2].
    + intros f Hf. specialize (V12 f Hf). lia.
  - (* Begin *) destruct emitted; discriminate.
  - (* Subscribe *) destruct emitted; discriminate.
  - (* Poll *) injection H as <-. destruct V as [V0 V1 V2 V3 V4 V5 V6 V7 V8 V9 V10 V11 V12 V13]; cbn in *. split; cbn; auto.
    + intros m j Hm. destruct (V9 m j Hm) as (A1 & A2 & A3 & A4 & A5). repeat split; auto.
      intros f X. apply in_app_iff in X. destruct X as [X|[<-|[]]]; auto.
    + intros f X. apply in_app_iff in X. destruct X as [X|[<-|[]]]; auto.
    + apply sorted_app; auto; [repeat constructor|]. intros x y X [<-|[]]. auto.
  - (* DropPolls *) injection H as <-. destruct V as [V0 V1 V2 V3 V4 V5 V6 V7 V8 V9 V10 V11 V12 V13]; cbn in *. split; cbn; auto.
    + intros m j Hm. destruct (V9 m j Hm) as (A1 & A2 & A3 & A4 & A5). repeat split; auto. intros f [].
    + intros f [].
    + constructor.
  - (* OnEvent *) destruct queue as [|e queue]; [discriminate|]. injection H as <-.
    destruct V as [V0 V1 V2 V3 V4 V5 V6 V7 V8 V9 V10 V11 V12 V13]; cbn in *.
    assert (Hord : forall q1 n u q2, queue = q1 ++ Added n u :: q2 -> forall m, n < m -> replay q1 (tell B e) m = []).
    { intros q1 n u q2 E m Hm. rewrite E in V11. apply (V11 (e :: q1) n u q2 eq_refl m Hm). }
    destruct e as [n u|n u].
    + (* Added *)
      assert (Hother : forall m, m <> n -> tell B (Added n u) m = B m).
      { intros m Hm. cbn. destruct (m =? n) eqn:E; [lia|reflexivity]. }
      assert (Hself : tell B (Added n u) n = B n ++ [u]) by (cbn; now rewrite Nat.eqb_refl).
      split; cbn [w_queue w_pending w_chain w_final w_emitted w_polled w_sub handle_event]; auto.
      * now apply ins_keyed.
      * intros m v X. destruct (Nat.eq_dec m n) as [->|Hm].
        -- apply ins_same in X; [|exact V4]. subst v. rewrite Hself. eauto.
        -- rewrite (Hother m Hm). apply in_ins in X. destruct X as [[X _]|X]; [contradiction|]. now apply V5.
      * intros m X. destruct (Nat.eq_dec m n) as [->|Hm].
        -- exists (B n), u. split; [exact Hself|]. left. apply ins_in.
        -- rewrite (Hother m Hm) in *. destruct (V6 m X) as (l & v & E & [Y|Y]); exists l, v; split; auto.
           left. now apply ins_keeps.
      * intros m j X. destruct (V9 m j X) as (A1 & A2 & A3 & A4 & A5). repeat split; auto.
        -- destruct (Nat.eq_dec m n) as [->|Hm]; [rewrite Hself, app_length; lia|now rewrite (Hother m Hm)].
        -- intros v Y. apply (A3 v). now right.
        -- intros k v Y. apply (A4 k v). now right.
      * intros k v m j X Y. destruct (Nat.eq_dec k n) as [->|Hk].
        -- rewrite Hself, app_length. cbn [length]. destruct (V9 m j Y) as (A1 & A2 & A3 & A4 & A5).
           specialize (A4 n u (or_introl eq_refl)). unfold before. cbn.
           destruct (Nat.eq_dec m n) as [->|Hm]; [right; lia|left; lia].
        -- rewrite (Hother k Hk). apply in_ins in X. destruct X as [[X _]|X]; [contradiction|]. now apply V10 with (u := v).
    + (* Removed *)
      assert (Hother : forall m, m <> n -> tell B (Removed n u) m = B m).
      { intros m Hm. cbn. destruct (m =? n) eqn:E; [lia|reflexivity]. }
      assert (Hself : tell B (Removed n u) n = []) by (cbn; now rewrite Nat.eqb_refl).
      assert (Hdel : forall m v, In (m, v) (del n pend) <-> In (m, v) pend /\ m <> n).
      { intros m v. unfold del. rewrite filter_In. cbn. rewrite negb_true_iff, Nat.eqb_neq. reflexivity. }
      split; cbn [w_queue w_pending w_chain w_final w_emitted w_polled w_sub handle_event]; auto.
      * now apply filter_keyed.
      * intros m v X. apply Hdel in X. destruct X as [X Hm]. rewrite (Hother m Hm). now apply V5.
      * intros m X. destruct (Nat.eq_dec m n) as [->|Hm]; [rewrite Hself in X; contradiction|].
        rewrite (Hother m Hm) in *. destruct (V6 m X) as (l & v & E & [Y|Y]); exists l, v; split; auto.
        left. now apply Hdel.
      * intros m j X. destruct (V9 m j X) as (A1 & A2 & A3 & A4 & A5).
        assert (Hm : m <> n) by (intros ->; apply (A3 u); now left). repeat split; auto.
        -- now rewrite (Hother m Hm).
        -- intros v Y. apply (A3 v). now right.
        -- intros k v Y. apply (A4 k v). now right.
      * intros k v m j X Y. apply Hdel in X. destruct X as [X Hk]. rewrite (Hother k Hk). now apply V10 with (u := v).
  - (* OnFinal *) destruct polled as [|f polled]; [discriminate|]. cbn [handle_final] in H.
    specialize (Ht eq_refl f polled). cbn [w_polled w_queue] in Ht.
    assert (Hrem : forall n u, In (Removed n u) queue -> f < n) by (intros n u; now apply Ht). clear Ht.
    injection H as <-. destruct V as [V0 V1 V2 V3 V4 V5 V6 V7 V8 V9 V10 V11 V12 V13].
    cbn [w_queue w_pending w_chain w_final w_emitted w_polled w_sub] in *.
    assert (Hf : f <= final) by (apply V12; now left).
    apply StronglySorted_inv in V13. destruct V13 as [V13 V14]. rewrite Forall_forall in V14.
    (* what the client was told of finalized blocks *)
    assert (Htold : forall n, n <= f -> B n <> [] -> d <= n /\ exists l, nth n chain [] = B n ++ l).
    { intros n Hn Hb. destruct (replay_keeps queue B n) as (l & E).
      { intros u X. specialize (Hrem _ _ X). lia. }
      rewrite V3 in E. destruct (d <=? n) eqn:Ed; [split; [lia|eauto]|]. destruct (B n); [contradiction|discriminate]. }
    set (due := filter (fun e => fst e <=? f) pend).
    assert (Hdue : forall n u, In (n, u) due <-> In (n, u) pend /\ n <= f).
    { intros n u. unfold due. rewrite filter_In. cbn. rewrite Nat.leb_le. reflexivity. }
    set (new := map (fun e => (fst e, length (B (fst e)) - 1)) due).
    assert (Hnew : forall m j, In (m, j) new -> exists u, In (m, u) pend /\ m <= f /\ j = length (B m) - 1).
    { intros m j X. apply in_map_iff in X. destruct X as ([n u] & E & X). cbn in E. injection E as <- <-.
      apply Hdue in X. exists u. tauto. }
    unfold next_ps, next_told, next_from. cbn [w_queue w_polled w_pending]. fold due. fold new.
    split; cbn [w_queue w_pending w_chain w_final w_emitted w_polled w_sub]; auto.
    + now apply filter_keyed.
    + intros n u X. apply filter_In in X. now apply V5.
    + intros n X. destruct (V6 n X) as (l & u & E & [Y|Y]); exists l, u; split; auto.
      * destruct (f <? n) eqn:En; [left; now apply filter_In|]. right. apply in_app_iff. right. apply in_map_iff.
        exists (n, u). cbn. rewrite E, app_length. cbn. split; [f_equal; lia|]. apply Hdue. split; [exact Y|lia].
      * right. apply in_app_iff. now left.
    + destruct V7 as (es & E1 & E2). exists (es ++ map snd due). split; [rewrite E1; reflexivity|].
      rewrite !map_app, E2. f_equal. unfold new. rewrite !map_map. apply map_ext_in. intros [n u] X. cbn.
      apply Hdue in X. destruct X as [X Hn]. destruct (V5 n u X) as (l & E).
      destruct (Htold n Hn) as (_ & l2 & E3); [rewrite E; now destruct l|].
      unfold log_at. cbn. rewrite E3, E, app_length, <- app_assoc. cbn.
      rewrite nth_error_app2 by lia. replace (length l + 1 - 1 - length l) with 0 by lia. reflexivity.
    + apply sorted_app; [exact V8| |].
      * assert (K : keyed due) by now apply filter_keyed. clear - K. unfold new, keyed in *.
        induction due as [|x l IH]; [constructor|]. cbn. apply StronglySorted_inv in K. destruct K as [K1 K2].
        constructor; [auto|]. apply Forall_forall. intros y Y. apply in_map_iff in Y. destruct Y as (z & <- & Z).
        rewrite Forall_forall in K2. left. cbn. now apply K2.
      * intros [m j] [n i] X Y. destruct (Hnew _ _ Y) as (u & Y1 & Y2 & ->). now apply V10 with (u := u).
    + intros m j X. apply in_app_iff in X. destruct X as [X|X].
      * destruct (V9 m j X) as (A1 & A2 & A3 & A4 & A5). repeat split; auto. intros g Hg. apply A5. now right.
      * destruct (Hnew _ _ X) as (u & Y1 & Y2 & ->). destruct (V5 m u Y1) as (l & E).
        assert (Hb : B m <> []) by (rewrite E; now destruct l).
        repeat split.
        -- lia.
        -- rewrite E, app_length. cbn. lia.
        -- intros v Z. specialize (Hrem _ _ Z). lia.
        -- intros n v Z. destruct (Nat.le_gt_cases m n) as [L|L]; [exact L|]. exfalso.
           apply in_split in Z. destruct Z as (q1 & q2 & Z). pose proof (V11 _ _ _ _ Z m L) as R.
           destruct (replay_keeps q1 B m) as (l2 & E2).
           { intros x W. assert (f < m) by (apply (Hrem m x); rewrite Z; apply in_app_iff; now left). lia. }
           rewrite R in E2. destruct (B m); [contradiction|discriminate].
        -- intros g Hg. specialize (V14 g Hg). lia.
    + intros n u m j X Y. apply filter_In in X. destruct X as [X L]. cbn in L. apply in_app_iff in Y.
      destruct Y as [Y|Y]; [now apply V10 with (u := u)|]. destruct (Hnew _ _ Y) as (v & _ & Y2 & _). left. cbn. lia.
    + intros g Hg. apply V12. now right.
Qed.

Lemma run_from_app a : forall b w, run_from w (a ++ b) = match run_from w a with Some w' => run_from w' b | None => None end.
Proof. induction a as [|x a IH]; intros b w; [reflexivity|]. cbn. destruct (step w x); [apply IH|reflexivity]. Qed.

(* ---- before subscribing ---- *)
Definition idle (w : world) : Prop :=
  w_sub w = false /\ w_queue w = [] /\ w_polled w = [] /\ w_pending w = [] /\ w_final w < length (w_chain w) /\
  (w_emitted w = [] \/ exists u, w_emitted w = [u]).
Lemma idle_step w a w' : idle w -> step w a = Some w' -> a <> Subscribe -> idle w'.
Proof.
  intros (H1 & H2 & H3 & H4 & H5 & H6) H Hs. destruct w as [chain final sub queue polled pend emitted]. cbn in *. subst.
  destruct a; cbn in H; try discriminate; try contradiction.
  - injection H as <-. unfold idle. cbn. rewrite app_length. cbn. repeat split; auto. lia.
  - destruct (final <? k) eqn:E; [|discriminate]. injection H as <-. unfold idle. cbn. rewrite firstn_length. repeat split; auto. lia.
  - destruct ((final <=? n) && (n <? length chain)) eqn:E; [|discriminate]. injection H as <-. unfold idle. cbn. repeat split; auto. lia.
  - destruct emitted; [|discriminate]. destruct (state_at chain final) as [u|]; [|discriminate]. injection H as <-.
    unfold idle. cbn. repeat split; eauto.
  - injection H as <-. unfold idle. cbn. repeat split; auto.
Qed.
Lemma idle_run acts : forall w w', idle w -> run_from w acts = Some w' -> ~ In Subscribe acts -> idle w'.
Proof.
  induction acts as [|a acts IH]; intros w w' H R Hs; cbn in R; [injection R as <-; exact H|].
  destruct (step w a) as [w1|] eqn:E; [|discriminate]. apply (IH w1); auto.
  - eapply idle_step; eauto. intros ->. apply Hs. now left.
  - intros X. apply Hs. now right.
Qed.
Lemma idle_init chain final : final < length chain -> idle (init chain final).
Proof. intros H. unfold idle, init. cbn. auto 10. Qed.
Lemma inv_subscribe w w' : idle w -> step w Subscribe = Some w' ->
  exists u0, w_emitted w = [u0] /\ inv u0 w' (fun _ => []) (length (w_chain w)) [].
Proof.
  intros (H1 & H2 & H3 & H4 & H5 & H6) H. destruct w as [chain final sub queue polled pend emitted]. cbn in *. subst.
  destruct H6 as [->|(u & ->)]; [discriminate|]. injection H as <-. exists u. split; [reflexivity|].
  split; cbn; auto; try solve [intros; contradiction | constructor].
  - intros n. destruct (length chain <=? n) eqn:E; [|reflexivity]. rewrite nth_overflow; [reflexivity|lia].
  - exists []. split; reflexivity.
  - intros q1 n u' q2 E. destruct q1; discriminate.
Qed.

(* ---- under the subscription ---- *)
Lemma inv_run chain final u0 : forall post dn w B d ps w',
  run chain final dn = Some w -> inv u0 w B d ps -> run_from w post = Some w' -> unbroken post ->
  timely chain final (dn ++ post) ->
  exists B' ps', inv u0 w' B' (seen_from d post) ps'.
Proof.
  induction post as [|a post IH]; intros dn w B d ps w' R V H Hu Ht; cbn in H.
  - injection H as <-. exists B, ps. exact V.
  - destruct (step w a) as [w1|] eqn:E; [|discriminate].
    assert (V1 : inv u0 w1 (next_told w B a) (next_from d a) (next_ps w B ps a)).
    { apply (inv_step _ _ _ _ _ _ _ V E).
      - intros ->. apply Hu. now left.
      - intros -> f polled n u Hp Hin. eapply (Ht dn post); eauto. }
    apply (IH (dn ++ [a]) w1 _ _ _ w') in V1.
    + exact V1.
    + unfold run in *. destruct (final <? length chain); [|discriminate]. rewrite run_from_app, R. cbn. now rewrite E.
    + exact H.
    + intros X. apply Hu. now right.
    + now rewrite <- app_assoc.
Qed.

Lemma timely_prefix chain final a b : timely chain final (a ++ b) -> timely chain final a.
Proof.
  intros H pre post w f polled n u -> R Hp Hin. apply (H pre (post ++ b) w f polled n u); auto.
  rewrite <- app_assoc. reflexivity.
Qed.

Lemma inv_reach chain final pre post w :
  run chain final (pre ++ Subscribe :: post) = Some w -> ~ In Subscribe pre -> unbroken post ->
  timely chain final (pre ++ Subscribe :: post) ->
  exists w0 u0 B ps, run chain final pre = Some w0 /\ w_emitted w0 = [u0] /\
    inv u0 w B (seen_from (length (w_chain w0)) post) ps.
Proof.
  intros R Hs Hu Ht. unfold run in R. destruct (final <? length chain) eqn:El; [|discriminate].
  rewrite run_from_app in R. destruct (run_from (init chain final) pre) as [w0|] eqn:E0; [|discriminate].
  assert (I0 : idle w0) by (eapply idle_run; [apply idle_init|exact E0|exact Hs]; lia).
  cbn [run_from] in R. destruct (step w0 Subscribe) as [w1|] eqn:E1; [|discriminate].
  destruct (inv_subscribe w0 w1 I0 E1) as (u0 & Hu0 & V).
  assert (R0 : run chain final pre = Some w0) by (unfold run; now rewrite El, E0).
  assert (R1 : run chain final (pre ++ [Subscribe]) = Some w1).
  { unfold run. rewrite El, run_from_app, E0. cbn [run_from]. now rewrite E1. }
  destruct (inv_run chain final u0 post (pre ++ [Subscribe]) w1 _ _ _ w R1 V R Hu) as (B & ps & V').
  { now rewrite <- app_assoc. }
  exists w0, u0, B, ps. auto.
Qed.

(* ---- the newest update ---- *)
Lemma firstn_snoc {A} (l : list A) n x : n < length l -> firstn (S n) l = firstn n l ++ [nth n l x].
Proof.
  revert n. induction l as [|y l IH]; intros n H; cbn in H; [lia|]. destruct n; [reflexivity|].
  cbn [firstn nth app]. f_equal. apply IH. lia.
Qed.
Lemma snoc_cases {A} (l : list A) : l = [] \/ exists l' x, l = l' ++ [x].
Proof. induction l using rev_ind; [now left|right; eauto]. Qed.
Lemma newest chain d : forall f n, f < length chain -> d <= n <= f -> nth n chain [] <> [] ->
  exists n l u, d <= n <= f /\ nth n chain [] = l ++ [u] /\ state_at chain f = Some u /\
    forall m, n < m <= f -> nth m chain [] = [].
Proof.
  induction f as [|f IH]; intros n Hf Hn Hb.
  - destruct (snoc_cases (nth n chain [])) as [E|(l & u & E)]; [contradiction|]. assert (n = 0) by lia. subst n.
    exists 0, l, u. split; [lia|]. split; [exact E|]. split; [|intros; lia].
    unfold state_at. rewrite (firstn_snoc chain 0 []) by lia. cbn. rewrite E, app_nil_r, rev_app_distr. reflexivity.
  - destruct (snoc_cases (nth (S f) chain [])) as [E|(l & u & E)].
    + destruct (Nat.eq_dec n (S f)) as [->|Hne]; [contradiction|].
      destruct (IH n) as (m & l & u & L & E1 & E2 & E3); [lia|lia|exact Hb|].
      exists m, l, u. split; [lia|]. split; [exact E1|]. split.
      * rewrite <- E2. unfold state_at. rewrite (firstn_snoc chain (S f) []) by lia.
        rewrite concat_app, E. cbn [concat app]. now rewrite !app_nil_r.
      * intros k Hk. destruct (Nat.eq_dec k (S f)) as [->|]; [exact E|apply E3; lia].
    + exists (S f), l, u. split; [lia|]. split; [exact E|]. split; [|intros; lia].
      unfold state_at. rewrite (firstn_snoc chain (S f) []) by lia.
      rewrite concat_app, E. cbn [concat]. rewrite app_nil_r, app_assoc, rev_app_distr. reflexivity.
Qed.

Lemma ordered_last ps p : ordered ps -> In p ps -> (forall q, In q ps -> ~ before p q) -> exists ps', ps = ps' ++ [p].
Proof.
  unfold ordered. induction ps as [|q ps IH]; intros H X Hm; [destruct X|].
  apply StronglySorted_inv in H. destruct H as [H1 H2]. rewrite Forall_forall in H2. destruct X as [->|X].
  - destruct ps as [|r ps]; [now exists []|]. destruct (Hm r); [right; now left|]. apply H2. now left.
  - destruct IH as (ps' & ->); auto; [intros r Hr; apply Hm; now right|]. now exists (q :: ps').
Qed.
Lemma last_opt_snoc l x : last_opt (l ++ [x]) = Some x.
Proof. unfold last_opt. now rewrite rev_app_distr. Qed.

Lemma seen_from_app d a b : seen_from d (a ++ b) = seen_from (seen_from d a) b.
Proof. apply fold_left_app. Qed.

Section Handled.
Variables (u0 : N) (w : world) (B : told) (d : nat) (ps : list (nat * nat)) (f : nat) (polled : list nat) (w' : world).
Hypothesis (V : inv u0 w B d ps).
Hypothesis (Hp : w_polled w = f :: polled).
Hypothesis (Hq : forall e, In e (w_queue w) -> f < block_of e).
Hypothesis (H : step w OnFinal = Some w').

Lemma handled_inv : inv u0 w' B d (next_ps w B ps OnFinal).
Proof.
  apply (inv_step _ _ _ _ _ _ _ V H); [discriminate|]. intros _ f' p' n u Hp' X.
  rewrite Hp in Hp'. injection Hp' as <- _. apply (Hq _ X).
Qed.
Lemma handled_chain : w_chain w' = w_chain w /\ w_queue w' = w_queue w.
Proof.
  destruct w. cbn in *. subst. injection H as <-. split; reflexivity.
Qed.
Lemma handled_pending n u : In (n, u) (w_pending w') -> f < n.
Proof.
  destruct w. cbn in *. subst. injection H as <-. cbn. intros X. apply filter_In in X. cbn in X. lia.
Qed.
Lemma handled_in n l u : d <= n <= f -> nth n (w_chain w) [] = l ++ [u] -> In (n, length l) (next_ps w B ps OnFinal).
Proof.
  intros Hn E. pose proof handled_inv as V'.
  assert (EB : B n = l ++ [u]).
  { rewrite <- E. pose proof (i_replay _ _ _ _ _ V n) as R. rewrite replay_other in R by (intros e X; specialize (Hq e X); lia).
    rewrite R. destruct (d <=? n) eqn:Ed; [reflexivity|lia]. }
  destruct (i_told _ _ _ _ _ V' n) as (l' & u' & E' & [X|X]); [rewrite EB; now destruct l| |].
  - apply handled_pending in X. lia.
  - rewrite EB in E'. apply app_inj_tail in E'. destruct E' as [-> _]. exact X.
Qed.
Lemma handled_bound m j : In (m, j) (next_ps w B ps OnFinal) -> m <= f.
Proof.
  unfold next_ps. rewrite Hp. intros X. apply in_app_iff in X. destruct X as [X|X].
  - destruct (i_ps _ _ _ _ _ V m j X) as (_ & _ & _ & _ & A). apply A. rewrite Hp. now left.
  - apply in_map_iff in X. destruct X as ([n u] & E & X). injection E as <- _. apply filter_In in X. cbn in *. lia.
Qed.

Lemma handled_complete n l u : d <= n <= f -> nth n (w_chain w') [] = l ++ [u] -> In u (w_emitted w').
Proof.
  intros Hn E. pose proof handled_inv as V'. destruct handled_chain as [Ec _]. pose proof E as E1. rewrite Ec in E1.
  pose proof (handled_in n l u Hn E1) as X. destruct (i_emitted _ _ _ _ _ V') as (es & Ee & Em). rewrite Ee. right.
  apply (in_map (log_at (w_chain w'))) in X. rewrite <- Em in X. unfold log_at in X. cbn in X.
  rewrite E, nth_error_app2, Nat.sub_diag in X by lia. cbn in X. apply in_map_iff in X. destruct X as (v & Ev & X). congruence.
Qed.

Lemma handled_newest n : d <= n <= f -> nth n (w_chain w') [] <> [] -> last_opt (w_emitted w') = state_at (w_chain w') f.
Proof.
  intros Hn Hb. pose proof handled_inv as V'. destruct handled_chain as [Ec _].
  assert (Hf : f < length (w_chain w')).
  { rewrite Ec. pose proof (i_polled _ _ _ _ _ V f) as P. rewrite Hp in P. specialize (P (or_introl eq_refl)).
    pose proof (i_final _ _ _ _ _ V). lia. }
  destruct (newest (w_chain w') d f n Hf Hn Hb) as (m & l & u & L & E1 & E2 & E3). rewrite E2.
  pose proof E1 as E4. rewrite Ec in E4. pose proof (handled_in m l u L E4) as X.
  destruct (i_emitted _ _ _ _ _ V') as (es & Ee & Em).
  destruct (ordered_last _ _ (i_ordered _ _ _ _ _ V') X) as (ps' & Eps).
  - intros [k j] Y Hbef. pose proof (handled_bound _ _ Y) as Hk.
    apply (in_map (log_at (w_chain w'))) in Y. rewrite <- Em in Y. apply in_map_iff in Y. destruct Y as (v & Ev & _).
    unfold log_at, before in *. cbn in *. assert (Hv : nth_error (nth k (w_chain w') []) j <> None) by (rewrite <- Ev; discriminate).
    apply nth_error_Some in Hv. destruct Hbef as [Hbef|[<- Hbef]].
    + rewrite (E3 k) in Hv by lia. cbn in Hv. lia.
    + rewrite E1, app_length in Hv. cbn in Hv. lia.
  - rewrite Eps, map_app in Em. cbn [map] in Em.
    assert (El : log_at (w_chain w') (m, length l) = Some u).
    { unfold log_at. cbn. rewrite E1, nth_error_app2, Nat.sub_diag by lia. reflexivity. }
    rewrite El in Em.
    destruct (snoc_cases es) as [->|(es' & x & ->)]; [destruct (map (log_at (w_chain w')) ps'); discriminate|].
    rewrite map_app in Em. cbn in Em. apply app_inj_tail in Em. destruct Em as [_ Em]. injection Em as ->.
    rewrite Ee. change (u0 :: es' ++ [u]) with ((u0 :: es') ++ [u]). apply last_opt_snoc.
Qed.
End Handled.
