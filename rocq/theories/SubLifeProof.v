(* Proofs about the life of subscriptions.  No statement here is a property. *)
From Coq Require Import List Arith NArith Bool Lia ZifyN ZifyNat ZifyBool Permutation.
From Verif Require Import SubLifeModel SubLifeSpec.
Import ListNotations.
Local Open Scope N_scope.

#[local] Arguments Nat.ltb : simpl never.
#[local] Arguments N.ltb : simpl never.
#[local] Arguments items : simpl never.
#[local] Arguments errors : simpl never.
#[local] Arguments given_ids : simpl never.
#[local] Arguments ended_ids : simpl never.

(* ---- lists ---- *)
Lemma set_nth_split l : forall i r, nth_error l i = Some r ->
  exists l1 l2, l = l1 ++ r :: l2 /\ forall r', set_nth i r' l = l1 ++ r' :: l2.
Proof.
  induction l as [|x l IH]; intros [|i] r H; cbn in H; try discriminate.
  - injection H as ->. exists [], l. split; reflexivity.
  - destruct (IH i r H) as (l1 & l2 & E & S). exists (x :: l1), l2. subst l. split; [reflexivity|].
    intros r'. cbn [set_nth]. rewrite S. reflexivity.
Qed.
Lemma in_mid {A} (x y : A) l1 l2 : In x (l1 ++ y :: l2) <-> x = y \/ In x (l1 ++ l2).
Proof. rewrite !in_app_iff; cbn; intuition congruence. Qed.

Lemma upd_eq {A} (f : N -> A) k v : upd f k v k = v.
Proof. unfold upd. now rewrite N.eqb_refl. Qed.
Lemma upd_ne {A} (f : N -> A) k v x : x <> k -> upd f k v x = f x.
Proof. intros H. unfold upd. apply N.eqb_neq in H. now rewrite H. Qed.

Lemma split_snoc {A} (l1 : list A) o l2 l os :
  l ++ os = l1 ++ o :: l2 ->
  (exists l3, l = l1 ++ o :: l3 /\ l2 = l3 ++ os) \/ (In o os /\ exists l3, l1 = l ++ l3 /\ os = l3 ++ o :: l2).
Proof.
  revert l1. induction l as [|x l IH]; intros l1 H.
  - right. cbn in H. subst os. split; [apply in_app_iff; right; now left|exists l1; split; reflexivity].
  - destruct l1 as [|y l1]; cbn in H; injection H as -> H.
    + left. exists l. split; [reflexivity|]. now subst.
    + destruct (IH l1 H) as [(l3 & E1 & E2)|(Hi & l3 & E1 & E2)]; [left|right].
      * exists l3. subst. split; reflexivity.
      * split; [exact Hi|]. exists l3. subst. split; reflexivity.
Qed.

Lemma given_ids_app l l' : given_ids (l ++ l') = given_ids l ++ given_ids l'.
Proof. apply flat_map_app. Qed.
Lemma ended_ids_app l l' : ended_ids (l ++ l') = ended_ids l ++ ended_ids l'.
Proof. apply flat_map_app. Qed.
Lemma items_app id l l' : items id (l ++ l') = items id l ++ items id l'.
Proof. apply flat_map_app. Qed.
Lemma errors_app id l l' : errors id (l ++ l') = (errors id l + errors id l')%nat.
Proof. unfold errors. rewrite flat_map_app, app_length. reflexivity. Qed.

(* ids of subscriptions that requests are about to answer; ids whose end they are about to answer *)
Definition flying (r : req_state) : list N :=
  match r with RInvoking id | RSpawned id | RDone (Some (ASub id)) => [id] | _ => [] end.
Definition ending (r : req_state) : list N :=
  match r with RRemoved id | RDone (Some (AUnsub id)) => [id] | _ => [] end.
Definition flight (l : list req_state) : list N := flat_map flying l.
Definition endings (l : list req_state) : list N := flat_map ending l.

Lemma answers_done l r : answers l = Some r ->
  flight l = flat_map given_by r /\ endings l = flat_map ended_by r /\
  (forall x, In x l -> exists a, x = RDone a).
Proof.
  revert r. induction l as [|x l IH]; intros r H; cbn in H.
  - injection H as <-. repeat split; auto. intros x [].
  - destruct x; try discriminate. destruct (answers l) as [r0|] eqn:E; try discriminate.
    destruct (IH _ eq_refl) as (I1 & I2 & I3).
    assert (X : forall y, In y (RDone a :: l) -> exists b, y = RDone b).
    { intros y [<-|Hy]; eauto. }
    destruct a as [a|]; injection H as <-; cbn; rewrite I1, I2 || idtac;
      unfold flight, endings in *; cbn; rewrite ?I1, ?I2; repeat split; auto;
      destruct a; reflexivity.
Qed.

#[local] Arguments flight : simpl never.
#[local] Arguments endings : simpl never.

(* ---- the invariant ---- *)
Definition gone (c : conn) (id : N) : Prop :=
  id < c_next c /\ c_subs c id = false /\ ~ In (RInvoking id) (c_reqs c) /\ ~ In (RSpawned id) (c_reqs c).

Definition chk (t : task) : nat := match t_phase t with PChecked => 1 | _ => 0 end.
Definition owes (t : task) : nat :=
  (match t_phase t with PChecked | PCheckedErr => 1 | _ => 0 end +
   match t_inner t with IChecked => 1 | _ => 0 end)%nat.
Definition ochk (o : option task) : nat := match o with Some t => chk t | None => 0 end.
Definition oowes (o : option task) : nat := match o with Some t => owes t | None => 0 end.

Record inv (q : list N) (c : conn) : Prop := {
  v_nodup : NoDup (given_ids (c_out c) ++ flight (c_reqs c));
  v_lt : forall id, In id (given_ids (c_out c) ++ flight (c_reqs c)) -> id < c_next c;
  v_task_lt : forall id t, c_tasks c id = Some t -> id < c_next c;
  v_idle : c_loop c <> LBusy -> c_reqs c = [];
  v_invoking : forall id, In (RInvoking id) (c_reqs c) -> c_tasks c id = None;
  v_spawned : forall id, In (RSpawned id) (c_reqs c) -> c_subs c id = false /\
    exists t, c_tasks c id = Some t /\ t_gen t = c_gen c /\ t_phase t = PWait /\ t_aborted t = false;
  v_gen_le : forall id t, c_tasks c id = Some t -> (t_gen t <= c_gen c)%nat;
  v_started : forall id t, c_tasks c id = Some t ->
    (t_phase t <> PWait /\ t_phase t <> PEnd) \/ t_inner t <> INone -> (t_gen t < c_gen c)%nat;
  v_gen : forall id t, c_tasks c id = Some t -> (t_gen t < c_gen c)%nat ->
    In id (given_ids (c_out c)) \/ (c_closed c = true /\ c_loop c = LDead);
  v_cur : forall id t, c_tasks c id = Some t -> t_gen t = c_gen c ->
    In (RSpawned id) (c_reqs c) \/ In (RDone (Some (ASub id))) (c_reqs c) \/
    (c_loop c = LReplied /\ In id (given_ids (c_out c)));
  v_subs : forall id, c_subs c id = true -> exists t, c_tasks c id = Some t /\ t_phase t <> PEnd;
  v_gone_req : forall id, In id (endings (c_reqs c)) -> gone c id;
  v_gone_out : forall id, In id (ended_ids (c_out c)) -> gone c id;
  v_aborted : forall id t, c_tasks c id = Some t -> t_aborted t = true -> gone c id;
  v_after : forall id l1 o l2, c_out c = l1 ++ o :: l2 -> In id (ended o) ->
    (length (items id l2) + ochk (c_tasks c id) <= 1)%nat /\
    (length (items id l2) + errors id l2 + oowes (c_tasks c id) <= 2)%nat;
  v_items : forall id, exists k, items id (c_out c) = seq 0 k /\ (c_tasks c id = None -> k = O) /\
    forall t, c_tasks c id = Some t -> t_phase t = PChecked \/ ~ gone c id -> t_pos t = k;
  v_asked : forall id, In (RNew (QUnsub id)) (c_reqs c) -> In id q;
  v_alive : forall id t, c_tasks c id = Some t -> t_phase t <> PEnd -> ~ In id q -> ~ gone c id;
  v_unsub : forall id t, c_tasks c id = Some t -> t_phase t <> PEnd -> gone c id ->
    In id (ended_ids (c_out c)) \/ In id (endings (c_reqs c)) \/ c_loop c = LDead;
  v_once : NoDup (ended_ids (c_out c) ++ endings (c_reqs c));
  v_ended_given : forall id, In id (endings (c_reqs c)) -> In id (given_ids (c_out c) ++ flight (c_reqs c));
  v_first : forall id l1 o l2, c_out c = l1 ++ o :: l2 -> about id o -> In id (given_ids l1);
  v_ended_out : forall id, In id (ended_ids (c_out c)) -> In id (given_ids (c_out c));
  v_has : forall id, In id (given_ids (c_out c)) \/ In (RDone (Some (ASub id))) (c_reqs c) -> c_tasks c id <> None
}.

Lemma gone_dec c id : gone c id \/ ~ gone c id.
Proof.
  assert (D : forall r : req_state, In r (c_reqs c) \/ ~ In r (c_reqs c)).
  { intros r. destruct (in_dec (fun x y : req_state => ltac:(repeat decide equality)) r (c_reqs c)); auto. }
  unfold gone. destruct (N.lt_decidable id (c_next c)) as [H|H]; [|tauto].
  destruct (c_subs c id); [right; intuition congruence|].
  destruct (D (RInvoking id)), (D (RSpawned id)); tauto.
Qed.

Lemma inv_start : inv [] start.
Proof.
  split; cbn; try solve [intros; discriminate | intros ? [] | constructor | reflexivity | intros; contradiction | intros k l1 o l2 H; destruct l1; discriminate H].
  - intros k. exists O. split; [reflexivity|]. split; [reflexivity|]. intros t H; discriminate H.
  - intros k [[]|[]].
Qed.

Lemma inv_more q q' c : inv q c -> inv (q ++ q') c.
Proof.
  intros [V1 V2 V3 V4 V5 V6 V7 V8 V9 V10 V11 V12 V13 V14 V15 V16 V17 V18 V19 V20 V21 V22 V23 V24].
  split; auto.
  - intros id H. apply in_app_iff. left. auto.
  - intros id t H1 H2 H3. apply (V18 id t H1 H2). intros X. apply H3. apply in_app_iff. auto.
Qed.

(* a step of one of the tasks of a subscription *)
Lemma inv_task q c id t t' (b : bool) os :
  inv q c -> c_tasks c id = Some t ->
  t_gen t' = t_gen t -> t_aborted t' = t_aborted t ->
  (forall o, In o os -> about id o) ->
  (os <> [] -> c_closed c = false) ->
  (b = true -> t_phase t' = PEnd) -> (t_phase t = PEnd -> t_phase t' = PEnd) -> (t_phase t' = PEnd -> t_phase t = PEnd \/ b = true) ->
  ((t_gen t < c_gen c)%nat \/ (t_aborted t = true /\ t_phase t' = PEnd /\ t_inner t' = t_inner t /\ os = [])) ->
  (gone c id -> (length (items id os) + chk t' <= chk t)%nat /\ (length (items id os) + errors id os + owes t' <= owes t)%nat) ->
  ((items id os = [] /\ (t_pos t' = t_pos t \/ (gone c id /\ t_phase t' <> PChecked))) \/
   (items id os = [t_pos t] /\ t_phase t = PChecked /\ t_pos t' = S (t_pos t) /\ t_phase t' <> PChecked)) ->
  (t_phase t' = PChecked -> t_phase t = PChecked \/ c_subs c id = true) ->
  inv q (Conn (if b then upd (c_subs c) id false else c_subs c) (c_next c) (upd (c_tasks c) id (Some t'))
              (c_reqs c) (c_loop c) (c_gen c) (c_closed c) (c_out c ++ os)).
Proof.
  intros V Ht Hg Ha Ho Hcl Hb1 Hb0 Hb2 Hst Hgone Hpos Hchk.
  assert (Hgn : forall l, (forall o, In o l -> about id o) -> given_ids l = []).
  { induction l as [|o l IH]; intros H; [reflexivity|]. unfold given_ids. cbn.
    destruct (H o (or_introl eq_refl)) as [[n ->]| ->]; cbn; apply IH; intros; apply H; now right. }
  assert (Hen : forall l, (forall o, In o l -> about id o) -> ended_ids l = []).
  { induction l as [|o l IH]; intros H; [reflexivity|]. unfold ended_ids. cbn.
    destruct (H o (or_introl eq_refl)) as [[n ->]| ->]; cbn; apply IH; intros; apply H; now right. }
  assert (Hit : forall k l, k <> id -> (forall o, In o l -> about id o) -> items k l = [] /\ errors k l = O).
  { intros k l Hk. apply not_eq_sym, N.eqb_neq in Hk. induction l as [|o l IH]; intros H; [split; reflexivity|].
    destruct IH as [I1 I2]; [intros; apply H; now right|].
    unfold items, errors in *. cbn. destruct (H o (or_introl eq_refl)) as [[n ->]| ->]; cbn; rewrite Hk; split; auto. }
  specialize (Hgn os Ho). specialize (Hen os Ho).
  set (c' := Conn _ _ _ _ _ _ _ _).
  assert (Hsubs : forall k, k <> id -> c_subs c' k = c_subs c k).
  { intros k Hk. unfold c'. cbn. destruct b; [|reflexivity]. now apply upd_ne. }
  assert (Hsub1 : c_subs c' id = true -> c_subs c id = true /\ b = false).
  { unfold c'. cbn. destruct b; [rewrite upd_eq; discriminate|auto]. }
  assert (Hgk : forall k, k <> id -> (gone c' k <-> gone c k)).
  { intros k Hk. unfold gone. rewrite (Hsubs k Hk). unfold c'; cbn. tauto. }
  assert (Hgi : gone c id -> gone c' id).
  { intros (G1 & G2 & G3 & G4). unfold gone, c'; cbn. repeat split; auto.
    destruct b; [apply upd_eq|exact G2]. }
  assert (Hgi' : b = false -> gone c' id -> gone c id).
  { intros -> G. exact G. }
  assert (Hnsp : ~ In (RSpawned id) (c_reqs c)).
  { intros X. destruct (v_spawned _ _ V _ X) as (_ & t0 & E & E1 & _ & E3).
    rewrite Ht in E. injection E as <-. destruct Hst as [Hst|(X1 & _)]; [lia|congruence]. }
  assert (Htk : forall k, k <> id -> c_tasks c' k = c_tasks c k) by (intros; now apply upd_ne).
  assert (Hti : c_tasks c' id = Some t') by apply upd_eq.
  assert (Hend : t_phase t = PEnd -> t_phase t' <> PEnd -> (t_gen t < c_gen c)%nat).
  { intros _ X. destruct Hst as [|(_ & X1 & _)]; [assumption|contradiction]. }
  assert (Hni : ~ In (RInvoking id) (c_reqs c)).
  { intros X. rewrite (v_invoking _ _ V _ X) in Ht. discriminate. }
  split.
  - unfold c'; cbn. rewrite given_ids_app, Hgn, app_nil_r. apply V.
  - unfold c'; cbn. rewrite given_ids_app, Hgn, app_nil_r. apply V.
  - intros k u. destruct (N.eq_dec k id) as [->|Hk].
    + intros _. apply (v_task_lt _ _ V id t Ht).
    + rewrite (Htk k Hk). apply V.
  - apply V.
  - intros k X. destruct (N.eq_dec k id) as [->|Hk]; [now destruct Hni|].
    rewrite (Htk k Hk). now apply V.
  - intros k X. destruct (N.eq_dec k id) as [->|Hk]; [now destruct Hnsp|].
    rewrite (Htk k Hk), (Hsubs k Hk). now apply V.
  - intros k u. destruct (N.eq_dec k id) as [->|Hk].
    + rewrite Hti. intros E. injection E as <-. rewrite Hg. now apply (v_gen_le _ _ V id).
    + rewrite (Htk k Hk). apply (v_gen_le _ _ V k).
  - intros k u. destruct (N.eq_dec k id) as [->|Hk].
    + rewrite Hti. intros E. injection E as <-. rewrite Hg. intros X.
      destruct Hst as [Hst|(X1 & X2 & X3 & X4)]; [exact Hst|].
      apply (v_started _ _ V id t Ht). right. destruct X as [[_ X]|X]; [contradiction|congruence].
    + rewrite (Htk k Hk). apply (v_started _ _ V k).
  - unfold c'; cbn. rewrite given_ids_app, Hgn, app_nil_r. intros k u. fold c'.
    destruct (N.eq_dec k id) as [->|Hk].
    + rewrite upd_eq. intros E. injection E as <-. rewrite Hg. now apply (v_gen _ _ V id).
    + rewrite (upd_ne _ _ _ _ Hk). apply (v_gen _ _ V k).
  - unfold c'; cbn. rewrite given_ids_app, Hgn, app_nil_r. intros k u.
    destruct (N.eq_dec k id) as [->|Hk].
    + rewrite upd_eq. intros E. injection E as <-. rewrite Hg. now apply (v_cur _ _ V id t).
    + rewrite (upd_ne _ _ _ _ Hk). apply (v_cur _ _ V k).
  - intros k. destruct (N.eq_dec k id) as [->|Hk].
    + intros X. destruct (Hsub1 X) as [X1 X2]. exists t'. split; [exact Hti|].
      intros Y. destruct (Hb2 Y) as [Z|Z]; [|congruence].
      destruct (v_subs _ _ V _ X1) as (u & U1 & U2). congruence.
    + rewrite (Hsubs k Hk), (Htk k Hk). apply V.
  - intros k X. unfold c' in X; cbn in X. pose proof (v_gone_req _ _ V k X) as G.
    destruct (N.eq_dec k id) as [->|Hk]; [now apply Hgi|now apply Hgk].
  - change (c_out c') with (c_out c ++ os). rewrite ended_ids_app, Hen, app_nil_r. intros k X.
    pose proof (v_gone_out _ _ V k X) as G.
    destruct (N.eq_dec k id) as [->|Hk]; [now apply Hgi|now apply Hgk].
  - intros k u. destruct (N.eq_dec k id) as [->|Hk].
    + rewrite Hti. intros E. injection E as <-. rewrite Ha. intros X. apply Hgi. now apply (v_aborted _ _ V id t).
    + rewrite (Htk k Hk). intros E X. apply (Hgk k Hk). now apply (v_aborted _ _ V k u).
  - intros k l1 o l2 E Hk0. unfold c' in E; cbn in E.
    destruct (split_snoc _ _ _ _ _ E) as [(l3 & E1 & ->)|(Hi & _)].
    + destruct (v_after _ _ V k l1 o l3 E1 Hk0) as [A1 A2].
      destruct (N.eq_dec k id) as [->|Hk].
      * rewrite Hti, items_app, errors_app, app_length. cbn.
        rewrite Ht in A1, A2. cbn in A1, A2.
        destruct Hgone as [B1 B2].
        { apply (v_gone_out _ _ V). rewrite E1, ended_ids_app. apply in_app_iff. right.
          unfold ended_ids. cbn. apply in_app_iff. now left. }
        lia.
      * rewrite (Htk k Hk), items_app, errors_app, app_length. destruct (Hit k os Hk Ho) as [-> ->]. cbn. lia.
    + destruct (Ho o Hi) as [[n ->]| ->]; destruct Hk0.
  - intros k. destruct (v_items _ _ V k) as (m & M1 & M2 & M3).
    change (c_out c') with (c_out c ++ os). change (c_tasks c') with (upd (c_tasks c) id (Some t')). rewrite items_app, M1.
    destruct (N.eq_dec k id) as [->|Hk].
    + rewrite upd_eq. destruct Hpos as [(P1 & P2)|(P1 & P2 & P3 & P4)].
      * exists m. rewrite P1, app_nil_r. split; [reflexivity|]. split; [discriminate|].
        intros u U. injection U as <-. intros X.
        assert (Hg0 : t_phase t = PChecked \/ ~ gone c id).
        { destruct X as [X|X].
          - destruct (Hchk X) as [Y|Y]; [now left|]. right. intros (_ & G & _). congruence.
          - right. intros G. apply X. now apply Hgi. }
        destruct P2 as [P2|[P2 P3]].
        -- rewrite P2. now apply M3.
        -- destruct X as [X|X]; [contradiction|]. destruct X. now apply Hgi.
      * exists (S m). pose proof (M3 t Ht (or_introl P2)) as Em. rewrite P1, Em.
        rewrite seq_S. split; [reflexivity|]. split; [discriminate|].
        intros u U. injection U as <-. intros _. lia.
    + destruct (Hit k os Hk Ho) as [-> _]. rewrite app_nil_r, (upd_ne _ _ _ _ Hk). exists m.
      split; [reflexivity|]. split; [exact M2|]. intros u U X. apply (M3 u U).
      destruct X as [X|X]; [now left|]. right. intros G. apply X. now apply (Hgk k Hk).
  - apply V.
  - intros k u. destruct (N.eq_dec k id) as [->|Hk].
    + rewrite Hti. intros E. injection E as <-. intros X Y G.
      destruct b; [now destruct (X (Hb1 eq_refl))|].
      apply (Hgi' eq_refl) in G. revert G. apply (v_alive _ _ V id t Ht); [|exact Y].
      intros Z. apply X. now apply Hb0.
    + rewrite (Htk k Hk). intros E X Y G. apply (Hgk k Hk) in G. now apply (v_alive _ _ V k u E X Y).
  - change (c_out c') with (c_out c ++ os). change (c_reqs c') with (c_reqs c). change (c_loop c') with (c_loop c). rewrite ended_ids_app, Hen, app_nil_r. intros k u. destruct (N.eq_dec k id) as [->|Hk].
    + rewrite Hti. intros E. injection E as <-. intros X G.
      destruct b; [now destruct (X (Hb1 eq_refl))|].
      apply (Hgi' eq_refl) in G. apply (v_unsub _ _ V id t Ht); [|exact G].
      intros Z. apply X. now apply Hb0.
    + rewrite (Htk k Hk). intros E X G. apply (Hgk k Hk) in G. now apply (v_unsub _ _ V k u E X).
  - unfold c'; cbn. rewrite ended_ids_app, Hen, app_nil_r. apply V.
  - unfold c'; cbn. rewrite given_ids_app, Hgn, app_nil_r. apply V.
  - unfold c'; cbn. intros k l1 o l2 E A.
    destruct (split_snoc _ _ _ _ _ E) as [(l3 & E1 & ->)|(Hi & l3 & E1 & E2)].
    + apply (v_first _ _ V k l1 o l3 E1 A).
    + assert (k = id) as ->.
      { destruct (Ho o Hi) as [[n ->]| ->], A as [[m A]|A]; congruence. }
      rewrite E1, given_ids_app. apply in_app_iff. left.
      assert (Hos : os <> []) by (rewrite E2; intros X; symmetry in X; now apply app_cons_not_nil in X).
      destruct Hst as [Hst|(_ & _ & _ & X)]; [|contradiction].
      destruct (v_gen _ _ V id t Ht Hst) as [X|[X _]]; [exact X|]. rewrite (Hcl Hos) in X. discriminate.
  - change (c_out c') with (c_out c ++ os). rewrite ended_ids_app, Hen, app_nil_r, given_ids_app, Hgn, app_nil_r. apply V.
  - change (c_out c') with (c_out c ++ os). rewrite given_ids_app, Hgn, app_nil_r. intros k X.
    destruct (N.eq_dec k id) as [->|Hk]; [rewrite Hti; discriminate|]. rewrite (Htk k Hk). now apply V.
Qed.

Lemma inv_task_step q c id t a c' : inv q c -> c_tasks c id = Some t -> task_step c id t a = Some c' -> inv q c'.
Proof.
  intros V Ht H.
  assert (Hs : t_phase t <> PWait -> t_phase t <> PEnd -> (t_gen t < c_gen c)%nat).
  { intros X Y. apply (v_started _ _ V id t Ht). now left. }
  assert (Hi : t_inner t <> INone -> (t_gen t < c_gen c)%nat).
  { intros X. apply (v_started _ _ V id t Ht). now right. }
  assert (Hself : forall n, items id [ONote id n] = [n] /\ errors id [ONote id n] = O).
  { intros n. unfold items, errors. cbn. rewrite N.eqb_refl. split; reflexivity. }
  assert (Hselfe : items id [OErr id] = [] /\ errors id [OErr id] = 1%nat).
  { unfold items, errors. cbn. rewrite N.eqb_refl. split; reflexivity. }
  assert (Hns : gone c id -> c_subs c id = true -> False) by (intros (_ & G & _); congruence).
  assert (Hgone : t_phase t <> PWait -> t_phase t <> PEnd -> c_subs c id = false -> gone c id).
  { intros X Y Z. split; [now apply (v_task_lt _ _ V id t)|]. split; [exact Z|]. split.
    - intros W. rewrite (v_invoking _ _ V _ W) in Ht. discriminate.
    - intros W. destruct (v_spawned _ _ V _ W) as (_ & t0 & E & _ & E2 & _). congruence. }
  Ltac nil0 := repeat match goal with
    | |- context[items ?i []] => change (items i []) with (@nil nat)
    | |- context[errors ?i []] => change (errors i []) with O end.
  Ltac gl := intros; unfold owes, chk; nil0; cbn;
    repeat match goal with H : t_phase _ = _ |- _ => rewrite H | H : t_inner _ = _ |- _ => rewrite H end; cbn; lia.
  Ltac fin := cbn; nil0; try solve [easy | congruence | auto | intros; congruence | intros; left; congruence
    | left; match goal with H : _ -> _ -> (_ < _)%nat |- _ => apply H; congruence end | left; lia ].
  Ltac tk b t' os :=
    match goal with
    | V : inv ?q ?c, Ht : c_tasks ?c ?id = Some ?t |- inv ?q ?c' =>
        replace c' with (Conn (if b then upd (c_subs c) id false else c_subs c) (c_next c) (upd (c_tasks c) id (Some t'))
              (c_reqs c) (c_loop c) (c_gen c) (c_closed c) (c_out c ++ os)) by (cbn; rewrite ?app_nil_r; reflexivity);
        apply (inv_task q c id t t' b os V Ht)
    end.
  destruct a; cbn in H; try discriminate; try solve [destruct (t_phase t) eqn:Ep; discriminate].
  - (* TStart *) destruct (t_phase t) eqn:Ep; try discriminate. destruct (t_gen t <? c_gen c)%nat eqn:El; try discriminate.
    injection H as <-. tk false (with_phase t PRun) (@nil out); fin.
    gl.
  - (* TCheck *) destruct (t_phase t) eqn:Ep; try discriminate. injection H as <-.
    destruct (c_subs c id) eqn:Es.
    + tk false (with_phase t PChecked) (@nil out); fin.
      intros G. now destruct (Hns G).
    + tk false (next_item t) (@nil out); fin.
      * gl.
      * left. split; [reflexivity|]. right. split; [|discriminate]. apply Hgone; congruence.
  - (* TSend *) destruct (t_phase t) eqn:Ep; try discriminate. destruct (c_closed c) eqn:Ec; try discriminate.
    injection H as <-. tk false (next_item t) [ONote id (t_pos t)]; fin.
    + intros o [<-|[]]. left. eauto.
    + intros _. destruct (Hself (t_pos t)) as [-> ->]. gl.
    + right. destruct (Hself (t_pos t)) as [-> _]. repeat split; congruence.
  - (* TFail *) assert (E : c' = ends c id t /\ t_phase t <> PWait /\ t_phase t <> PEnd).
    { destruct (t_phase t) eqn:Ep; try discriminate; destruct (c_closed c); try discriminate; injection H as <-; repeat split; discriminate. }
    destruct E as (-> & E1 & E2).
    tk true (with_phase t PEnd) (@nil out); fin.
    gl.
  - (* TFinish *) destruct (t_phase t) eqn:Ep; try discriminate. injection H as <-.
    tk true (with_phase t PEnd) (@nil out); fin.
    gl.
  - (* TKill *) assert (E : c' = ends c id t /\ t_aborted t = true).
    { destruct (t_phase t) eqn:Ep; try discriminate; destruct (t_aborted t); try discriminate; injection H as <-; split; reflexivity. }
    destruct E as (-> & E1).
    tk true (with_phase t PEnd) (@nil out); fin.
    gl.
  - (* TCheckErr *) destruct (t_phase t) eqn:Ep; try discriminate. injection H as <-.
    destruct (c_subs c id) eqn:Es.
    + tk false (with_phase t PCheckedErr) (@nil out); fin.
      intros G. now destruct (Hns G).
    + tk true (with_phase t PEnd) (@nil out); fin.
      gl.
  - (* TSendErr *) destruct (t_phase t) eqn:Ep; try discriminate. destruct (c_closed c) eqn:Ec; try discriminate.
    injection H as <-. tk true (with_phase t PEnd) [OErr id]; fin.
    + intros o [<-|[]]. now right.
    + intros _. destruct Hselfe as [-> ->]. gl.
  - (* TSpawn *) destruct (t_phase t) eqn:Ep; try discriminate. destruct (t_inner t) eqn:Ein; try discriminate. injection H as <-.
    tk false (with_inner t IRun) (@nil out); fin.
    gl.
  - (* ICheck *) destruct (t_inner t) eqn:Ein; try (destruct (t_phase t); discriminate).
    assert (E : c' = with_task c id (with_inner t (if c_subs c id then IChecked else IEnd))).
    { destruct (t_phase t); now injection H as <-. }
    subst c'. assert (Hl : (t_gen t < c_gen c)%nat) by (apply Hi; congruence).
    tk false (with_inner t (if c_subs c id then IChecked else IEnd)) (@nil out); fin.
    intros (_ & -> & _). gl.
  - (* ISend *) destruct (t_inner t) eqn:Ein; try (destruct (t_phase t); discriminate).
    assert (E : c_closed c = false /\ c' = emit (with_task c id (with_inner t IEnd)) (OErr id)).
    { destruct (c_closed c); [destruct (t_phase t); discriminate|]. destruct (t_phase t); now injection H as <-. }
    destruct E as [Ec ->]. assert (Hl : (t_gen t < c_gen c)%nat) by (apply Hi; congruence).
    tk false (with_inner t IEnd) [OErr id]; fin.
    + intros o [<-|[]]. now right.
    + intros _. destruct Hselfe as [-> ->]. gl.
  - (* IFail *) destruct (t_inner t) eqn:Ein; try (destruct (t_phase t); discriminate).
    assert (E : c' = with_task c id (with_inner t IEnd)).
    { destruct (c_closed c); [|destruct (t_phase t); discriminate]. destruct (t_phase t); now injection H as <-. }
    subst c'. assert (Hl : (t_gen t < c_gen c)%nat) by (apply Hi; congruence).
    tk false (with_inner t IEnd) (@nil out); fin.
    gl.
  - (* IFinish *) destruct (t_inner t) eqn:Ein; try (destruct (t_phase t); discriminate).
    assert (E : c' = with_task c id (with_inner t IEnd)).
    { destruct (t_phase t); now injection H as <-. }
    subst c'. assert (Hl : (t_gen t < c_gen c)%nat) by (apply Hi; congruence).
    tk false (with_inner t IEnd) (@nil out); fin.
    gl.
Qed.

(* ---- steps of requests ---- *)
Lemma nodup_mid {A} (l1 l2 : list A) x : NoDup (l1 ++ x :: l2) <-> ~ In x (l1 ++ l2) /\ NoDup (l1 ++ l2).
Proof.
  split.
  - intros H. split; [now apply NoDup_remove_2|now apply NoDup_remove_1 in H].
  - intros [H1 H2]. apply (Permutation_NoDup (Permutation_middle l1 l2 x)). now constructor.
Qed.
Lemma nodup_left {A} (l1 l2 : list A) : NoDup (l1 ++ l2) -> NoDup l1.
Proof.
  induction l1 as [|x l1 IH]; intros H; [constructor|]. inversion H as [|? ? H1 H2]. constructor; [|auto].
  intros X. apply H1. apply in_app_iff. now left.
Qed.
Lemma flight_mid l1 r l2 : flight (l1 ++ r :: l2) = flight l1 ++ flying r ++ flight l2.
Proof. unfold flight. rewrite flat_map_app. reflexivity. Qed.
Lemma endings_mid l1 r l2 : endings (l1 ++ r :: l2) = endings l1 ++ ending r ++ endings l2.
Proof. unfold endings. rewrite flat_map_app. reflexivity. Qed.
Lemma in_flight id l : In id (flight l) <->
  In (RInvoking id) l \/ In (RSpawned id) l \/ In (RDone (Some (ASub id))) l.
Proof.
  unfold flight. rewrite in_flat_map. split.
  - intros (x & Hx & Hi). destruct x as [| | | |[[]|]]; cbn in Hi; try contradiction; destruct Hi as [->|[]]; auto.
  - intros [H|[H|H]]; eexists; split; try exact H; now left.
Qed.
Lemma in_endings id l : In id (endings l) <-> In (RRemoved id) l \/ In (RDone (Some (AUnsub id))) l.
Proof.
  unfold endings. rewrite in_flat_map. split.
  - intros (x & Hx & Hi). destruct x as [| | | |[[]|]]; cbn in Hi; try contradiction; destruct Hi as [->|[]]; auto.
  - intros [H|H]; eexists; split; try exact H; now left.
Qed.

(* a request that is replaced by one with the same id, or none *)
Lemma inv_neutral q c l1 r r' l2 : inv q c -> c_reqs c = l1 ++ r :: l2 -> c_loop c = LBusy ->
  (exists x, r = RNew x) -> (r' = RDone (Some ARefused) \/ r' = RDone (Some AOther) \/ r' = RDone None) ->
  inv q (with_reqs c (l1 ++ r' :: l2)).
Proof.
  intros V Er Hl (x & ->) Hr'.
  assert (Hin : forall y, (match y with RInvoking _ | RSpawned _ | RRemoved _ | RDone (Some (ASub _)) | RDone (Some (AUnsub _)) => True | _ => False end) ->
    (In y (l1 ++ r' :: l2) <-> In y (c_reqs c))).
  { intros y Hy. rewrite Er, !in_mid. destruct Hr' as [->|[->| ->]]; split; intros [E|E]; auto; subst y; try contradiction. }
  assert (Hf : flight (l1 ++ r' :: l2) = flight (c_reqs c)).
  { rewrite Er, !flight_mid. destruct Hr' as [->|[->| ->]]; reflexivity. }
  assert (He : endings (l1 ++ r' :: l2) = endings (c_reqs c)).
  { rewrite Er, !endings_mid. destruct Hr' as [->|[->| ->]]; reflexivity. }
  assert (Hg : forall k, gone (with_reqs c (l1 ++ r' :: l2)) k <-> gone c k).
  { intros k. unfold gone. cbn. rewrite !Hin by easy. tauto. }
  destruct V as [V1 V2 V3 V4 V5 V6 V7 V8 V9 V10 V11 V12 V13 V14 V15 V16 V17 V18 V19 V20 V21 V22 V23 V24].
  split; cbn; rewrite ?Hf, ?He; auto.
  - intros X. congruence.
  - intros k. rewrite Hin by easy. auto.
  - intros k. rewrite Hin by easy. auto.
  - intros k t X Y. rewrite !Hin by easy. eauto.
  - intros k. rewrite Hg. auto.
  - intros k. rewrite Hg. auto.
  - intros k t. rewrite Hg. eauto.
  - intros k. destruct (V16 k) as (m & M1 & M2 & M3). exists m. repeat split; auto. intros t. rewrite Hg. auto.
  - intros k Hk. apply V17. rewrite Er, in_mid. rewrite in_mid in Hk.
    destruct Hk as [Hk|Hk]; [|now right]. destruct Hr' as [->|[->| ->]]; discriminate.
  - intros k t. rewrite Hg. eauto.
  - intros k t. rewrite Hg. eauto.
  - intros k. rewrite Hin by easy. auto.
Qed.

Ltac dn := first [solve [auto] | solve [eauto] | match goal with H : _ |- _ => solve [eapply H; eauto] end].
Ltac vdestruct V :=
  destruct V as [V1 V2 V3 V4 V5 V6 V7 V8 V9 V10 V11 V12 V13 V14 V15 V16 V17 V18 V19 V20 V21 V22 V23 V24].

Lemma inv_startsub q c l1 l2 : inv q c -> c_reqs c = l1 ++ RNew QSub :: l2 -> c_loop c = LBusy ->
  inv q (Conn (c_subs c) (c_next c + 1) (c_tasks c) (l1 ++ RInvoking (c_next c) :: l2) (c_loop c) (c_gen c) (c_closed c) (c_out c)).
Proof.
  intros V Er Hl. set (c' := Conn _ _ _ _ _ _ _ _).
  assert (Hin : forall y, In y (c_reqs c') <-> y = RInvoking (c_next c) \/ In y (l1 ++ l2)) by (intros; apply in_mid).
  assert (Hold : forall y, In y (c_reqs c) <-> y = RNew QSub \/ In y (l1 ++ l2)) by (intros; rewrite Er; apply in_mid).
  assert (Hsame : forall y, y <> RNew QSub -> y <> RInvoking (c_next c) -> (In y (c_reqs c') <-> In y (c_reqs c))).
  { intros y Y1 Y2. rewrite Hin, Hold. tauto. }
  assert (He : endings (c_reqs c') = endings (c_reqs c)) by (rewrite Er; cbn; rewrite !endings_mid; reflexivity).
  assert (Hf : Permutation (flight (c_reqs c')) (c_next c :: flight (c_reqs c))).
  { rewrite Er; cbn; rewrite !flight_mid. cbn. symmetry. apply Permutation_middle. }
  assert (Ht : c_tasks c (c_next c) = None).
  { destruct (c_tasks c (c_next c)) eqn:E; [|reflexivity]. apply (v_task_lt _ _ V) in E. lia. }
  assert (Hs : c_subs c (c_next c) = false).
  { destruct (c_subs c (c_next c)) eqn:E; [|reflexivity]. destruct (v_subs _ _ V _ E) as (t & E1 & _). congruence. }
  assert (Hnf : ~ In (c_next c) (given_ids (c_out c) ++ flight (c_reqs c))).
  { intros X. apply (v_lt _ _ V) in X. lia. }
  assert (Hg : forall k, gone c' k <-> gone c k).
  { intros k. unfold gone. destruct (N.eq_dec k (c_next c)) as [->|Hk].
    - split; intros (G1 & G2 & G3 & G4); [|lia]. destruct G3. apply Hin. now left.
    - rewrite !Hsame by congruence. cbn. assert (k < c_next c + 1 <-> k < c_next c) as -> by lia. tauto. }
  vdestruct V. split; rewrite ?He; auto.
  - apply (Permutation_NoDup (l := c_next c :: (given_ids (c_out c) ++ flight (c_reqs c)))).
    + cbn [c_out c']. rewrite Hf. apply Permutation_middle.
    + now constructor.
  - intros k X. cbn [c_out c_next c'] in *. rewrite Hf in X. rewrite in_mid in X. destruct X as [->|X]; [lia|].
    specialize (V2 k X). lia.
  - intros k t X. specialize (V3 k t X). cbn. lia.
  - intros X. now destruct X.
  - intros k X. apply Hin in X. destruct X as [X|X]; [injection X as ->; exact Ht|]. apply V5. apply Hold. dn.
  - intros k X. apply Hsame in X; [|discriminate|discriminate]. dn.
  - intros k t X Y. rewrite !Hsame by discriminate. now apply (V10 k t).
  - intros k. rewrite Hg. dn.
  - intros k. rewrite Hg. dn.
  - intros k t. rewrite Hg. dn.
  - intros k. destruct (V16 k) as (m & M1 & M2 & M3). exists m. repeat split; auto. intros t. rewrite Hg. dn.
  - intros k X. apply Hsame in X; [|discriminate|discriminate]. dn.
  - intros k t. rewrite Hg. dn.
  - intros k t. rewrite Hg. dn.
  - intros k X. apply V21 in X. cbn [c_out c']. rewrite Hf. apply in_app_iff in X. apply in_app_iff. cbn. tauto.
  - intros k. rewrite Hsame by discriminate. dn.
Qed.

Lemma inv_invoke_ok q c l1 l2 id : inv q c -> c_reqs c = l1 ++ RInvoking id :: l2 -> c_loop c = LBusy ->
  inv q (with_task (with_reqs c (l1 ++ RSpawned id :: l2)) id (Task (c_gen c) PWait 0 false INone)).
Proof.
  intros V Er Hl. set (c' := with_task _ _ _).
  assert (Hin : forall y, In y (c_reqs c') <-> y = RSpawned id \/ In y (l1 ++ l2)) by (intros; apply in_mid).
  assert (Hold : forall y, In y (c_reqs c) <-> y = RInvoking id \/ In y (l1 ++ l2)) by (intros; rewrite Er; apply in_mid).
  assert (Hsame : forall y, y <> RInvoking id -> y <> RSpawned id -> (In y (c_reqs c') <-> In y (c_reqs c))).
  { intros y Y1 Y2. rewrite Hin, Hold. tauto. }
  assert (He : endings (c_reqs c') = endings (c_reqs c)) by (rewrite Er; cbn; rewrite !endings_mid; reflexivity).
  assert (Hf : flight (c_reqs c') = flight (c_reqs c)) by (rewrite Er; cbn; rewrite !flight_mid; reflexivity).
  assert (Ht : c_tasks c id = None) by (apply (v_invoking _ _ V); rewrite Er; apply in_mid; now left).
  assert (Hs : c_subs c id = false).
  { destruct (c_subs c id) eqn:E; [|reflexivity]. destruct (v_subs _ _ V _ E) as (t & E1 & _). congruence. }
  assert (Hfl : In id (flight (c_reqs c))) by (apply in_flight; left; apply Hold; now left).
  assert (Hlt : id < c_next c) by (apply (v_lt _ _ V); apply in_app_iff; now right).
  assert (Hnd : ~ In (RInvoking id) (l1 ++ l2)).
  { pose proof (v_nodup _ _ V) as ND. rewrite Er, flight_mid, app_assoc in ND. cbn in ND. apply nodup_mid in ND.
    intros X. apply (proj1 ND). rewrite <- app_assoc. apply in_app_iff. right.
    unfold flight. rewrite <- flat_map_app. apply in_flight. now left. }
  assert (Hg : forall k, gone c' k <-> gone c k).
  { intros k. unfold gone. destruct (N.eq_dec k id) as [->|Hk].
    - split; intros (G1 & G2 & G3 & G4); exfalso; [apply G4; apply Hin; now left|apply G3; apply Hold; now left].
    - rewrite !Hsame by congruence. cbn. tauto. }
  assert (Hgi : ~ gone c id) by (intros (_ & _ & G & _); apply G; apply Hold; now left).
  assert (Htk : forall k, k <> id -> c_tasks c' k = c_tasks c k) by (intros; now apply upd_ne).
  assert (Hti : c_tasks c' id = Some (Task (c_gen c) PWait 0 false INone)) by apply upd_eq.
  vdestruct V. split; rewrite ?He, ?Hf; auto.
  - intros k t. destruct (N.eq_dec k id) as [->|Hk]; [intros _; exact Hlt|]. rewrite (Htk k Hk). apply V3.
  - intros X. now destruct X.
  - intros k X. destruct (N.eq_dec k id) as [->|Hk].
    + apply Hin in X. destruct X as [X|X]; [discriminate|contradiction].
    + rewrite (Htk k Hk). apply V5. apply Hsame in X; congruence.
  - intros k X. destruct (N.eq_dec k id) as [->|Hk].
    + split; [exact Hs|]. rewrite Hti. eexists. repeat split.
    + rewrite (Htk k Hk). apply V6. apply Hsame in X; congruence.
  - intros k t. destruct (N.eq_dec k id) as [->|Hk]; [rewrite Hti; intros E; injection E as <-; cbn; lia|].
    rewrite (Htk k Hk). apply V7.
  - intros k t. destruct (N.eq_dec k id) as [->|Hk].
    + rewrite Hti. intros E. injection E as <-. cbn. intros [[X _]|X]; now destruct X.
    + rewrite (Htk k Hk). apply V8.
  - intros k t. destruct (N.eq_dec k id) as [->|Hk].
    + rewrite Hti. intros E. injection E as <-. cbn. lia.
    + rewrite (Htk k Hk). apply V9.
  - intros k t. destruct (N.eq_dec k id) as [->|Hk].
    + rewrite Hti. intros E. injection E as <-. intros _. left. apply Hin. now left.
    + rewrite (Htk k Hk), !Hsame by congruence. apply V10.
  - intros k X. destruct (N.eq_dec k id) as [->|Hk].
    + change (c_subs c' id) with (c_subs c id) in X. congruence.
    + rewrite (Htk k Hk). now apply V11.
  - intros k. rewrite Hg. dn.
  - intros k. rewrite Hg. dn.
  - intros k t. rewrite Hg. destruct (N.eq_dec k id) as [->|Hk].
    + rewrite Hti. intros E. injection E as <-. cbn. discriminate.
    + rewrite (Htk k Hk). apply V14.
  - intros k m1 o m2 E X. specialize (V15 k m1 o m2 E X). destruct (N.eq_dec k id) as [->|Hk].
    + rewrite Hti. rewrite Ht in V15. exact V15.
    + now rewrite (Htk k Hk).
  - intros k. destruct (V16 k) as (m & M1 & M2 & M3). exists m. split; [exact M1|]. destruct (N.eq_dec k id) as [->|Hk].
    + rewrite Hti. split; [discriminate|]. intros t E. injection E as <-. intros _. rewrite (M2 Ht). reflexivity.
    + rewrite (Htk k Hk). split; [exact M2|]. intros t. rewrite Hg. apply M3.
  - intros k X. apply Hsame in X; [|discriminate|discriminate]. dn.
  - intros k t. rewrite Hg. destruct (N.eq_dec k id) as [->|Hk]; [auto|]. rewrite (Htk k Hk). apply V18.
  - intros k t. rewrite Hg. destruct (N.eq_dec k id) as [->|Hk]; [intros _ _ X; contradiction|]. rewrite (Htk k Hk). apply V19.
  - intros k X. rewrite Hsame in X by discriminate. destruct (N.eq_dec k id) as [->|Hk]; [rewrite Hti; discriminate|]. rewrite (Htk k Hk). dn.
Qed.

Lemma inv_invoke_err q c l1 l2 id : inv q c -> c_reqs c = l1 ++ RInvoking id :: l2 -> c_loop c = LBusy ->
  inv q (with_reqs c (l1 ++ RDone (Some ARefused) :: l2)).
Proof.
  intros V Er Hl. set (c' := with_reqs _ _).
  assert (Hin : forall y, In y (c_reqs c') <-> y = RDone (Some ARefused) \/ In y (l1 ++ l2)) by (intros; apply in_mid).
  assert (Hold : forall y, In y (c_reqs c) <-> y = RInvoking id \/ In y (l1 ++ l2)) by (intros; rewrite Er; apply in_mid).
  assert (Hsame : forall y, y <> RInvoking id -> y <> RDone (Some ARefused) -> (In y (c_reqs c') <-> In y (c_reqs c))).
  { intros y Y1 Y2. rewrite Hin, Hold. tauto. }
  assert (He : endings (c_reqs c') = endings (c_reqs c)) by (rewrite Er; cbn; rewrite !endings_mid; reflexivity).
  assert (Hf : Permutation (id :: flight (c_reqs c')) (flight (c_reqs c))).
  { rewrite Er; cbn; rewrite !flight_mid. cbn. apply Permutation_middle. }
  assert (Ht : c_tasks c id = None) by (apply (v_invoking _ _ V); rewrite Er; apply in_mid; now left).
  assert (Hgk : forall k, k <> id -> (gone c' k <-> gone c k)).
  { intros k Hk. unfold gone. rewrite !Hsame by congruence. cbn. tauto. }
  assert (Hg : forall k, gone c k -> gone c' k).
  { intros k G. destruct (N.eq_dec k id) as [->|Hk]; [|now apply Hgk].
    destruct G as (_ & _ & G & _). destruct G. apply Hold. now left. }
  assert (Hne : forall k t, c_tasks c k = Some t -> k <> id) by (intros; congruence).
  assert (Hfi : forall k, In k (given_ids (c_out c) ++ flight (c_reqs c')) -> In k (given_ids (c_out c) ++ flight (c_reqs c))).
  { intros k. rewrite !in_app_iff, <- Hf. cbn. tauto. }
  vdestruct V. split; rewrite ?He; auto.
  - change (c_out c') with (c_out c). apply (Permutation_NoDup (l' := id :: (given_ids (c_out c) ++ flight (c_reqs c')))) in V1.
    + now inversion V1.
    + rewrite <- Hf. symmetry. apply Permutation_middle.
  - intros X. now destruct X.
  - intros k X. apply Hin in X. destruct X as [X|X]; [discriminate|]. apply V5, Hold. now right.
  - intros k X. apply V6. apply Hsame in X; congruence.
  - intros k t X Y. rewrite !Hsame by congruence. now apply (V10 k t).
  - intros k t X Y. apply Hg. dn.
  - intros k. destruct (V16 k) as (m & M1 & M2 & M3). exists m. repeat split; auto. intros t X. rewrite Hgk by eauto. dn.
  - intros k X. apply Hsame in X; [|discriminate|discriminate]. dn.
  - intros k t X. rewrite Hgk by eauto. dn.
  - intros k t X. rewrite Hgk by eauto. dn.
  - intros k X. specialize (V21 k X). change (c_out c') with (c_out c). apply in_app_iff in V21. apply in_app_iff.
    destruct V21 as [Y|Y]; [now left|]. right. rewrite <- Hf in Y. destruct Y as [->|Y]; [|exact Y].
    exfalso. assert (G : gone c k).
    { auto. }
    destruct G as (_ & _ & G & _). apply G, Hold. now left.
  - intros k. rewrite Hsame by discriminate. dn.
Qed.

Lemma inv_insert q c l1 l2 id : inv q c -> c_reqs c = l1 ++ RSpawned id :: l2 -> c_loop c = LBusy ->
  inv q (with_sub (with_reqs c (l1 ++ RDone (Some (ASub id)) :: l2)) id true).
Proof.
  intros V Er Hl. set (c' := with_sub _ _ _).
  assert (Hin : forall y, In y (c_reqs c') <-> y = RDone (Some (ASub id)) \/ In y (l1 ++ l2)) by (intros; apply in_mid).
  assert (Hold : forall y, In y (c_reqs c) <-> y = RSpawned id \/ In y (l1 ++ l2)) by (intros; rewrite Er; apply in_mid).
  assert (Hsame : forall y, y <> RSpawned id -> y <> RDone (Some (ASub id)) -> (In y (c_reqs c') <-> In y (c_reqs c))).
  { intros y Y1 Y2. rewrite Hin, Hold. tauto. }
  assert (He : endings (c_reqs c') = endings (c_reqs c)) by (rewrite Er; cbn; rewrite !endings_mid; reflexivity).
  assert (Hf : flight (c_reqs c') = flight (c_reqs c)) by (rewrite Er; cbn; rewrite !flight_mid; reflexivity).
  assert (Hsp : In (RSpawned id) (c_reqs c)) by (apply Hold; now left).
  destruct (v_spawned _ _ V _ Hsp) as (Hs & t0 & T1 & T2 & T3 & T4).
  assert (Hnd : ~ In (RSpawned id) (l1 ++ l2)).
  { pose proof (v_nodup _ _ V) as ND. rewrite Er, flight_mid, app_assoc in ND. cbn in ND. apply nodup_mid in ND.
    intros X. apply (proj1 ND). rewrite <- app_assoc. apply in_app_iff. right.
    unfold flight. rewrite <- flat_map_app. apply in_flight. now right; left. }
  assert (Hsk : forall k, k <> id -> c_subs c' k = c_subs c k) by (intros; now apply upd_ne).
  assert (Hsi : c_subs c' id = true) by apply upd_eq.
  assert (Hg : forall k, gone c' k <-> gone c k).
  { intros k. unfold gone. destruct (N.eq_dec k id) as [->|Hk].
    - split; intros (G1 & G2 & G3 & G4); exfalso; [congruence|now apply G4].
    - rewrite !Hsame, (Hsk k Hk) by congruence. cbn. tauto. }
  vdestruct V. split; rewrite ?He, ?Hf; auto.
  - intros X. now destruct X.
  - intros k X. apply Hsame in X; [|discriminate|discriminate]. dn.
  - intros k X. destruct (N.eq_dec k id) as [->|Hk].
    + apply Hin in X. destruct X as [X|X]; [discriminate|contradiction].
    + rewrite (Hsk k Hk). apply V6. apply Hsame in X; congruence.
  - intros k t X Y. destruct (N.eq_dec k id) as [->|Hk].
    + right; left. apply Hin. now left.
    + rewrite !Hsame by congruence. now apply (V10 k t).
  - intros k X. destruct (N.eq_dec k id) as [->|Hk].
    + exists t0. split; [exact T1|congruence].
    + rewrite (Hsk k Hk) in X. now apply V11.
  - intros k. rewrite Hg. dn.
  - intros k. rewrite Hg. dn.
  - intros k t. rewrite Hg. dn.
  - intros k. destruct (V16 k) as (m & M1 & M2 & M3). exists m. repeat split; auto. intros t. rewrite Hg. dn.
  - intros k X. apply Hsame in X; [|discriminate|discriminate]. dn.
  - intros k t. rewrite Hg. dn.
  - intros k t. rewrite Hg. dn.
  - intros k X. destruct (N.eq_dec k id) as [->|Hk]; [cbn; rewrite T1; discriminate|]. rewrite Hsame in X by congruence. dn.
Qed.

Lemma inv_remove q c l1 l2 id : inv q c -> c_reqs c = l1 ++ RNew (QUnsub id) :: l2 -> c_loop c = LBusy -> c_subs c id = true ->
  inv q (with_sub (with_reqs c (l1 ++ RRemoved id :: l2)) id false).
Proof.
  intros V Er Hl Hs. set (c' := with_sub _ _ _).
  assert (Hin : forall y, In y (c_reqs c') <-> y = RRemoved id \/ In y (l1 ++ l2)) by (intros; apply in_mid).
  assert (Hold : forall y, In y (c_reqs c) <-> y = RNew (QUnsub id) \/ In y (l1 ++ l2)) by (intros; rewrite Er; apply in_mid).
  assert (Hsame : forall y, y <> RNew (QUnsub id) -> y <> RRemoved id -> (In y (c_reqs c') <-> In y (c_reqs c))).
  { intros y Y1 Y2. rewrite Hin, Hold. tauto. }
  assert (He : Permutation (endings (c_reqs c')) (id :: endings (c_reqs c))).
  { rewrite Er; cbn; rewrite !endings_mid. cbn. symmetry. apply Permutation_middle. }
  assert (Hf : flight (c_reqs c') = flight (c_reqs c)) by (rewrite Er; cbn; rewrite !flight_mid; reflexivity).
  destruct (v_subs _ _ V _ Hs) as (t0 & T1 & T2).
  assert (Hsk : forall k, k <> id -> c_subs c' k = c_subs c k) by (intros; now apply upd_ne).
  assert (Hsi : c_subs c' id = false) by apply upd_eq.
  assert (Hng : ~ gone c id) by (intros (_ & G & _); congruence).
  assert (Hgi : gone c' id).
  { split; [now apply (v_task_lt _ _ V id t0)|]. split; [exact Hsi|]. rewrite !Hsame by discriminate. split; intros X.
    - rewrite (v_invoking _ _ V _ X) in T1. discriminate.
    - destruct (v_spawned _ _ V _ X). congruence. }
  assert (Hgk : forall k, k <> id -> (gone c' k <-> gone c k)).
  { intros k Hk. unfold gone. rewrite !Hsame, (Hsk k Hk) by congruence. cbn. tauto. }
  assert (Hg : forall k, gone c k -> gone c' k).
  { intros k G. destruct (N.eq_dec k id) as [->|Hk]; [exact Hgi|now apply Hgk]. }
  assert (Hq : In id q) by (apply (v_asked _ _ V), Hold; now left).
  assert (Hgf : In id (given_ids (c_out c) ++ flight (c_reqs c))).
  { apply in_app_iff. destruct (Nat.eq_dec (t_gen t0) (c_gen c)) as [E|E].
    - destruct (v_cur _ _ V id t0 T1 E) as [X|[X|[X _]]]; [right|right|congruence]; apply in_flight; auto.
    - pose proof (v_gen_le _ _ V id t0 T1). destruct (v_gen _ _ V id t0 T1) as [X|[_ X]]; [lia|now left|congruence]. }
  assert (Hno : ~ In id (ended_ids (c_out c) ++ endings (c_reqs c))).
  { intros X. apply Hng. apply in_app_iff in X. destruct X as [X|X]; [now apply (v_gone_out _ _ V)|now apply (v_gone_req _ _ V)]. }
  vdestruct V. split; rewrite ?Hf; auto.
  - intros X. now destruct X.
  - intros k X. apply Hsame in X; [|discriminate|discriminate]. dn.
  - intros k X. apply Hsame in X; [|discriminate|discriminate]. destruct (N.eq_dec k id) as [->|Hk].
    + split; [exact Hsi|]. now apply V6.
    + rewrite (Hsk k Hk). dn.
  - intros k t X Y. rewrite !Hsame by congruence. now apply (V10 k t).
  - intros k X. destruct (N.eq_dec k id) as [->|Hk]; [congruence|]. rewrite (Hsk k Hk) in X. now apply V11.
  - intros k X. rewrite He in X. destruct X as [<-|X]; [exact Hgi|]. apply Hg. dn.
  - intros k t X Y. apply Hg. dn.
  - intros k. destruct (V16 k) as (m & M1 & M2 & M3). exists m. repeat split; auto. intros t X Y.
    apply (M3 t X). destruct Y as [Y|Y]; [now left|]. right. intros G. apply Y. now apply Hg.
  - intros k X. apply Hin in X. destruct X as [X|X]; [discriminate|]. apply V17, Hold. now right.
  - intros k t X Y Z. destruct (N.eq_dec k id) as [->|Hk]; [contradiction|]. rewrite (Hgk k Hk). dn.
  - intros k t X Y Z. rewrite He. destruct (N.eq_dec k id) as [->|Hk]; [right; left; now left|].
    apply (Hgk k Hk) in Z. destruct (V19 k t X Y Z) as [W|[W|W]]; auto. right; left. now right.
  - change (c_out c') with (c_out c). apply (Permutation_NoDup (l := id :: (ended_ids (c_out c) ++ endings (c_reqs c)))).
    + rewrite He. apply Permutation_middle.
    + now constructor.
  - intros k X. rewrite He in X. destruct X as [<-|X]; dn.
  - intros k. rewrite Hsame by discriminate. dn.
Qed.

Lemma inv_abort q c l1 l2 id : inv q c -> c_reqs c = l1 ++ RRemoved id :: l2 -> c_loop c = LBusy ->
  inv q (with_reqs c (l1 ++ RDone (Some (AUnsub id)) :: l2)).
Proof.
  intros V Er Hl. set (c' := with_reqs _ _).
  assert (Hin : forall y, In y (c_reqs c') <-> y = RDone (Some (AUnsub id)) \/ In y (l1 ++ l2)) by (intros; apply in_mid).
  assert (Hold : forall y, In y (c_reqs c) <-> y = RRemoved id \/ In y (l1 ++ l2)) by (intros; rewrite Er; apply in_mid).
  assert (Hsame : forall y, y <> RRemoved id -> y <> RDone (Some (AUnsub id)) -> (In y (c_reqs c') <-> In y (c_reqs c))).
  { intros y Y1 Y2. rewrite Hin, Hold. tauto. }
  assert (He : endings (c_reqs c') = endings (c_reqs c)) by (rewrite Er; cbn; rewrite !endings_mid; reflexivity).
  assert (Hf : flight (c_reqs c') = flight (c_reqs c)) by (rewrite Er; cbn; rewrite !flight_mid; reflexivity).
  assert (Hg : forall k, gone c' k <-> gone c k).
  { intros k. unfold gone. rewrite !Hsame by discriminate. cbn. tauto. }
  vdestruct V. split; rewrite ?He, ?Hf; auto.
  - intros X. now destruct X.
  - intros k X. apply Hsame in X; [|discriminate|discriminate]. dn.
  - intros k X. apply Hsame in X; [|discriminate|discriminate]. dn.
  - intros k t X Y. rewrite !Hsame by congruence. now apply (V10 k t).
  - intros k. rewrite Hg. dn.
  - intros k. rewrite Hg. dn.
  - intros k t. rewrite Hg. dn.
  - intros k. destruct (V16 k) as (m & M1 & M2 & M3). exists m. repeat split; auto. intros t. rewrite Hg. dn.
  - intros k X. apply Hsame in X; [|discriminate|discriminate]. dn.
  - intros k t. rewrite Hg. dn.
  - intros k t. rewrite Hg. dn.
  - intros k. rewrite Hsame by discriminate. dn.
Qed.

Lemma inv_aborted q c id t : inv q c -> c_tasks c id = Some t -> gone c id -> inv q (with_task c id (with_abort t)).
Proof.
  intros V Ht G. set (c' := with_task _ _ _).
  assert (Htk : forall k, k <> id -> c_tasks c' k = c_tasks c k) by (intros; now apply upd_ne).
  assert (Hti : c_tasks c' id = Some (with_abort t)) by apply upd_eq.
  assert (Hg : forall k, gone c' k <-> gone c k) by (intros; reflexivity).
  assert (Hx : forall k u, c_tasks c' k = Some u -> exists u0, c_tasks c k = Some u0 /\ t_gen u = t_gen u0 /\
    t_phase u = t_phase u0 /\ t_pos u = t_pos u0 /\ t_inner u = t_inner u0 /\ (t_aborted u = true -> t_aborted u0 = true \/ k = id)).
  { intros k u. destruct (N.eq_dec k id) as [->|Hk].
    - rewrite Hti. intros E. injection E as <-. exists t. cbn. auto 10.
    - rewrite (Htk k Hk). intros E. exists u. auto 10. }
  vdestruct V. split; auto.
  - intros k u X. destruct (Hx k u X) as (u0 & U & _). dn.
  - intros k X. destruct (N.eq_dec k id) as [->|Hk]; [|rewrite (Htk k Hk); auto].
    specialize (V5 _ X). congruence.
  - intros k X. destruct (N.eq_dec k id) as [->|Hk]; [destruct G as (_ & _ & _ & G); now destruct G|]. rewrite (Htk k Hk). now apply V6.
  - intros k u X. destruct (Hx k u X) as (u0 & U & -> & _). dn.
  - intros k u X. destruct (Hx k u X) as (u0 & U & -> & -> & _ & -> & _). dn.
  - intros k u X. destruct (Hx k u X) as (u0 & U & -> & _). dn.
  - intros k u X. destruct (Hx k u X) as (u0 & U & -> & _). dn.
  - intros k X. destruct (N.eq_dec k id) as [->|Hk].
    + exists (with_abort t). split; [exact Hti|]. destruct (V11 _ X) as (w & W1 & W2). cbn. congruence.
    + rewrite (Htk k Hk). now apply V11.
  - intros k u X Y. destruct (Hx k u X) as (u0 & U & _ & _ & _ & _ & Z). destruct (Z Y) as [W| ->]; [eauto|exact G].
  - intros k m1 o m2 E X. specialize (V15 k m1 o m2 E X). destruct (N.eq_dec k id) as [->|Hk].
    + rewrite Hti. rewrite Ht in V15. exact V15.
    + now rewrite (Htk k Hk).
  - intros k. destruct (V16 k) as (m & M1 & M2 & M3). exists m. split; [exact M1|]. split.
    + destruct (N.eq_dec k id) as [->|Hk]; [rewrite Hti; discriminate|]. now rewrite (Htk k Hk).
    + intros u X. destruct (Hx k u X) as (u0 & U & _ & -> & -> & _). apply (M3 u0 U).
  - intros k u X. destruct (Hx k u X) as (u0 & U & _ & -> & _). dn.
  - intros k u X. destruct (Hx k u X) as (u0 & U & _ & -> & _). dn.
  - intros k X. destruct (N.eq_dec k id) as [->|Hk]; [rewrite Hti; discriminate|]. rewrite (Htk k Hk). dn.
Qed.

Lemma inv_request_step q c i r a c' : inv q c -> nth_error (c_reqs c) i = Some r -> request_step c i r a = Some c' -> inv q c'.
Proof.
  intros V Hn H. destruct (set_nth_split _ _ _ Hn) as (l1 & l2 & Er & Es).
  assert (Hl : c_loop c = LBusy).
  { destruct (c_loop c) eqn:El; try reflexivity; exfalso; assert (X : c_reqs c = []) by (apply (v_idle _ _ V); congruence);
      rewrite X in Hn; destruct i; discriminate. }
  destruct a; cbn in H; try discriminate; destruct r as [x|id|id|id|x]; try discriminate; try (destruct x; discriminate).
  - destruct x; try discriminate. match type of H with (if ?b then _ else _) = _ => destruct b end; try discriminate. injection H as <-. rewrite Es. exact (inv_startsub q c l1 l2 V Er Hl).
  - destruct ok; injection H as <-; rewrite Es; [now apply inv_invoke_ok|now apply inv_invoke_err with (id := id)].
  - injection H as <-. rewrite Es. now apply inv_insert.
  - destruct x as [|id| |]; try discriminate. destruct (c_subs c id) eqn:Ec; injection H as <-; rewrite Es.
    + now apply inv_remove.
    + apply (inv_neutral q c l1 _ _ l2 V Er Hl); eauto.
  - rewrite Es in H. pose proof (inv_abort _ _ _ _ _ V Er Hl) as V'.
    destruct (c_tasks c id) as [t|] eqn:Et; injection H as <-; [|exact V'].
    apply inv_aborted; [exact V'|exact Et|]. apply (v_gone_req _ _ V'). apply in_endings. right. cbn. apply in_mid. now left.
  - destruct x; try discriminate; injection H as <-; rewrite Es; apply (inv_neutral q c l1 _ _ l2 V Er Hl); eauto.
Qed.

(* ---- steps of the loop ---- *)
Lemma inv_loop_step q c a c' : inv q c -> loop_step c a = Some c' -> inv (q ++ asked [a]) c'.
Proof.
  intros V H. destruct a; cbn in H; try (destruct (c_loop c); discriminate).
  - (* Receive *) destruct (c_loop c) eqn:El; try discriminate. injection H as <-. cbn. rewrite app_nil_r.
    set (qs' := flat_map _ qs).
    assert (Er : c_reqs c = []) by (apply (v_idle _ _ V); congruence).
    assert (Hn : forall y, In y (map RNew qs) -> exists x, y = RNew x /\ In x qs).
    { intros y Hy. apply in_map_iff in Hy. destruct Hy as (x & <- & Hx). eauto. }
    assert (Hf : flight (map RNew qs) = []).
    { unfold flight. clear. induction qs as [|x qs IH]; [reflexivity|]. exact IH. }
    assert (He : endings (map RNew qs) = []).
    { unfold endings. clear. induction qs as [|x qs IH]; [reflexivity|]. exact IH. }
    set (c' := with_loop _ _ _).
    assert (Hno : forall y, (forall x, y <> RNew x) -> ~ In y (map RNew qs)).
    { intros y Hy X. destruct (Hn y X) as (x & E & _). now apply (Hy x). }
    assert (Hg : forall k, gone c' k <-> gone c k).
    { intros k. unfold gone. cbn. rewrite Er. cbn. pose proof (Hno (RInvoking k)). pose proof (Hno (RSpawned k)).
      split; intros (G1 & G2 & G3 & G4); repeat split; auto; apply Hno; discriminate. }
    apply (inv_more _ qs') in V. vdestruct V. rewrite Er in *. change (flight []) with (@nil N) in *. change (endings []) with (@nil N) in *.
    split; change (c_reqs c') with (map RNew qs); rewrite ?Hf, ?He; auto; try solve [intros k []].
    + intros X. now destruct X.
    + intros k X. exfalso; revert X; apply Hno; discriminate.
    + intros k X. exfalso; revert X; apply Hno; discriminate.
    + intros k t X Y. destruct (V9 k t X Y) as [Z|[_ Z]]; [now left|congruence].
    + intros k t X Y. destruct (V10 k t X Y) as [[]|[[]|[Z _]]]. congruence.
    + intros k. rewrite Hg. dn.
    + intros k t. rewrite Hg. dn.
    + intros k. destruct (V16 k) as (m & M1 & M2 & M3). exists m. repeat split; auto. intros t. rewrite Hg. auto.
    + intros k X. apply in_app_iff. right. unfold qs'. destruct (Hn _ X) as (x & E & Hx). injection E as <-.
      apply in_flat_map. exists (QUnsub k). split; [exact Hx|now left].
    + intros k t. rewrite Hg. dn.
    + intros k t X Y. rewrite Hg. intros G. destruct (V19 k t X Y G) as [Z|[Z|Z]]; auto. congruence.
    + intros k [X|X]; [dn|]. exfalso; revert X; apply Hno; discriminate.
  - (* Reply *) destruct (c_loop c) eqn:El; try discriminate. cbn. rewrite app_nil_r.
    destruct (answers (c_reqs c)) as [l|] eqn:Ea; [|discriminate].
    destruct (answers_done _ _ Ea) as (Hf & He & Hd).
    assert (Hsub : forall k, In (RDone (Some (ASub k))) (c_reqs c) -> In k (flat_map given_by l)).
    { intros k X. rewrite <- Hf. apply in_flight. auto. }
    assert (Hni : forall k, ~ In (RInvoking k) (c_reqs c)).
    { intros k X. destruct (Hd _ X). discriminate. }
    assert (Hns : forall k, ~ In (RSpawned k) (c_reqs c)).
    { intros k X. destruct (Hd _ X). discriminate. }
    assert (Hcur : forall k t, c_tasks c k = Some t -> t_gen t = c_gen c -> In k (flat_map given_by l)).
    { intros k t X Y. destruct (v_cur _ _ V k t X Y) as [Z|[Z|[Z _]]]; [now destruct (Hns k)|auto|congruence]. }
    assert (Hend : forall k, In k (flat_map ended_by l) -> gone c k).
    { intros k X. apply (v_gone_req _ _ V). now rewrite He. }
    assert (Hlen : NoDup (given_ids (c_out c) ++ flat_map given_by l)) by (rewrite <- Hf; apply V).
    destruct l as [|x l].
    + (* no answer *) injection H as <-. set (c' := with_loop _ _ _).
      assert (Hg : forall k, gone c' k <-> gone c k).
      { intros k. unfold gone. cbn. specialize (Hni k). specialize (Hns k). tauto. }
      vdestruct V. rewrite Hf, He in *. cbn [flat_map] in *. split; change (c_reqs c') with (@nil req_state);
        change (flight []) with (@nil N); change (endings []) with (@nil N); auto; try solve [intros k []].
      * intros k t X Y. destruct (V9 k t X Y) as [Z|[_ Z]]; [now left|congruence].
      * intros k t X Y. destruct (Hcur k t X Y).
      * intros k. rewrite Hg. dn.
      * intros k t. rewrite Hg. dn.
      * intros k. destruct (V16 k) as (m & M1 & M2 & M3). exists m. repeat split; auto. intros t. rewrite Hg. auto.
      * intros k t. rewrite Hg. dn.
      * intros k t X Y. rewrite Hg. intros G. destruct (V19 k t X Y G) as [Z|[Z|Z]]; auto. congruence.
      * intros k [X|[]]. dn.
    + destruct (c_closed c) eqn:Ec; injection H as <-.
      * (* sending fails *) set (c' := with_loop _ _ _).
        assert (Hg : forall k, gone c' k <-> gone c k).
        { intros k. unfold gone. cbn. specialize (Hni k). specialize (Hns k). tauto. }
        vdestruct V. split; change (c_reqs c') with (@nil req_state);
          change (flight []) with (@nil N); change (endings []) with (@nil N); rewrite ?app_nil_r; auto; try solve [intros k []].
        -- change (c_out c') with (c_out c). now apply nodup_left in V1.
        -- intros k X. apply V2. apply in_app_iff. now left.
        -- intros k t X. specialize (V7 k t X). cbn. lia.
        -- intros k t X Y. specialize (V8 k t X Y). cbn. lia.
        -- intros k t X Y. cbn in X, Y. specialize (V7 k t X). lia.
        -- intros k. rewrite Hg. dn.
        -- intros k t. rewrite Hg. dn.
        -- intros k. destruct (V16 k) as (m & M1 & M2 & M3). exists m. repeat split; auto. intros t. rewrite Hg. auto.
        -- intros k t. rewrite Hg. dn.
        -- change (c_out c') with (c_out c). now apply nodup_left in V20.
        -- intros k [X|[]]. dn.
      * (* sent *) set (ans := x :: l) in *. set (c' := emit _ _).
        assert (Hg : forall k, gone c' k <-> gone c k).
        { intros k. unfold gone. cbn. specialize (Hni k). specialize (Hns k). tauto. }
        assert (Go : given_ids (c_out c') = given_ids (c_out c) ++ flat_map given_by ans).
        { cbn. rewrite given_ids_app. unfold given_ids at 2. cbn. now rewrite app_nil_r. }
        assert (Eo : ended_ids (c_out c') = ended_ids (c_out c) ++ flat_map ended_by ans).
        { cbn. rewrite ended_ids_app. unfold ended_ids at 2. cbn. now rewrite app_nil_r. }
        assert (Io : forall k, items k (c_out c') = items k (c_out c)).
        { intros k. cbn. rewrite items_app. unfold items at 2. cbn. now rewrite app_nil_r. }
        vdestruct V. rewrite Hf, He in *. split; change (c_reqs c') with (@nil req_state);
          change (flight []) with (@nil N); change (endings []) with (@nil N); rewrite ?Go, ?Eo, ?app_nil_r; auto; try solve [intros k []].
        -- intros k t X Y. destruct (V9 k t X Y) as [Z|[_ Z]]; [left; apply in_app_iff; now left|congruence].
        -- intros k t X Y. right; right. split; [reflexivity|]. apply in_app_iff. right. now apply (Hcur k t).
        -- intros k X. rewrite Hg. apply in_app_iff in X. destruct X; dn.
        -- intros k t. rewrite Hg. dn.
        -- intros k l1 o l2 E X. cbn in E. destruct (split_snoc _ _ _ _ _ E) as [(l3 & E1 & ->)|(_ & l3 & E1 & E2)].
           ++ destruct (V15 k l1 o l3 E1 X) as [A1 A2]. rewrite items_app, errors_app. unfold items at 2 4, errors at 2. cbn.
              rewrite app_nil_r. cbn in *. lia.
           ++ destruct l3 as [|y l3]; [|destruct l3; discriminate]. injection E2 as <- <-.
              unfold items, errors. cbn. destruct (c_tasks c k) as [t|]; cbn; [|lia].
              unfold chk, owes. destruct (t_phase t), (t_inner t); lia.
        -- intros k. destruct (V16 k) as (m & M1 & M2 & M3). exists m. rewrite Io. repeat split; auto. intros t. rewrite Hg. auto.
        -- intros k t. rewrite Hg. dn.
        -- intros k t X Y. rewrite Hg. intros G. rewrite in_app_iff. destruct (V19 k t X Y G) as [Z|[Z|Z]]; auto. congruence.
        -- intros k l1 o l2 E X. cbn in E. destruct (split_snoc _ _ _ _ _ E) as [(l3 & E1 & ->)|(Hi & _)].
           ++ dn.
           ++ destruct Hi as [<-|[]]. destruct X as [[n X]|X]; discriminate.
        -- intros k X. apply in_app_iff in X. destruct X as [X|X]; [|dn]. apply in_app_iff. left. dn.
        -- intros k [X|[]]. apply in_app_iff in X. destruct X as [X|X]; [dn|]. rewrite <- Hf in X. apply in_flight in X.
           destruct X as [X|[X|X]]; [now destruct (Hni k)|now destruct (Hns k)|dn].
  - (* Release *) destruct (c_loop c) eqn:El; try discriminate. injection H as <-. cbn. rewrite app_nil_r.
    assert (Er : c_reqs c = []) by (apply (v_idle _ _ V); congruence).
    vdestruct V. rewrite Er in *. split; cbn; rewrite ?Er; auto; try solve [intros k []].
    + intros k t X. specialize (V7 k t X). lia.
    + intros k t X Y. specialize (V8 k t X Y). lia.
    + intros k t X Y. left. destruct (Nat.eq_dec (t_gen t) (c_gen c)) as [E|E].
      * destruct (V10 k t X E) as [[]|[[]|[_ Z]]]. exact Z.
      * destruct (V9 k t X) as [Z|[_ Z]]; [lia|exact Z|congruence].
    + intros k t X Y. specialize (V7 k t X). lia.
    + intros k t X Y G. destruct (V19 k t X Y G) as [Z|[Z|Z]]; auto. congruence.
  - (* Leave *) destruct (c_loop c) eqn:El; try discriminate. injection H as <-. cbn. rewrite app_nil_r.
    assert (Er : c_reqs c = []) by (apply (v_idle _ _ V); congruence).
    vdestruct V. rewrite Er in *. split; cbn; rewrite ?Er; auto; try solve [intros k []].
    + intros k t X Y. destruct (V9 k t X Y) as [Z|[_ Z]]; [now left|congruence].
    + intros k t X Y. destruct (V10 k t X Y) as [[]|[[]|[Z _]]]. congruence.
  - (* Close *) assert (E : c' = Conn (c_subs c) (c_next c) (c_tasks c) (c_reqs c) (c_loop c) (c_gen c) true (c_out c))
      by (destruct (c_loop c); injection H as <-; reflexivity).
    subst c'. cbn. rewrite app_nil_r. vdestruct V. split; cbn; auto.
    intros k t X Y. destruct (V9 k t X Y) as [Z|[_ Z]]; auto.
Qed.

Lemma inv_step q c a c' : inv q c -> step c a = Some c' -> inv (q ++ asked [a]) c'.
Proof.
  intros V H. unfold step in H.
  destruct (act_request a) as [i|] eqn:Ea.
  - destruct (nth_error (c_reqs c) i) as [r|] eqn:Er; [|discriminate].
    apply inv_more. now apply (inv_request_step q c i r a).
  - destruct (act_task a) as [id|] eqn:Et.
    + destruct (c_tasks c id) as [t|] eqn:Ek; [|discriminate].
      apply inv_more. now apply (inv_task_step q c id t a).
    + now apply (inv_loop_step q c a).
Qed.

Lemma run_inv acts c : run acts = Some c -> inv (asked acts) c.
Proof.
  unfold run.
  assert (G : forall q c0, inv q c0 -> forall c, run_from c0 acts = Some c -> inv (q ++ asked acts) c).
  { clear c. induction acts as [|a acts IH]; intros q c0 V c H; cbn in H.
    - injection H as <-. rewrite app_nil_r. exact V.
    - destruct (step c0 a) as [c1|] eqn:Es; [|discriminate].
      pose proof (inv_step _ _ _ _ V Es) as V1. specialize (IH _ _ V1 _ H).
      replace (q ++ asked (a :: acts)) with ((q ++ asked [a]) ++ asked acts); [exact IH|].
      rewrite <- app_assoc. f_equal. unfold asked. cbn. now rewrite app_nil_r. }
  intros H. apply (G [] start inv_start c H).
Qed.
