(* Subscriptions over a websocket: C69. *)
From Coq Require Import List Arith NArith Bool Lia.
From Verif Require Import SubLifeModel SubLifeSpec SubLifeProof.
Import ListNotations.
Local Open Scope N_scope.

(* C69. In every execution, the first item or error of a subscription is sent after the answer that
   tells the client its id. *)
Theorem C69_response_first acts c id before o after :
  run acts = Some c -> c_out c = before ++ o :: after -> about id o -> In id (given_ids before).
Proof. intros H. apply (v_first _ _ (run_inv _ _ H)). Qed.

(* C69. No two subscriptions of a connection are given the same id. *)
Theorem C69_ids_distinct acts c : run acts = Some c -> NoDup (given_ids (c_out c)).
Proof. intros H. apply run_inv in H. apply (nodup_left _ _ (v_nodup _ _ H)). Qed.

(* C69. What is sent of a subscription are its first items, in order, none left out or sent twice,
   whatever else happens on the connection. *)
Theorem C69_in_order acts c id : run acts = Some c -> first_items (items id (c_out c)).
Proof.
  intros H. apply run_inv in H. destruct (v_items _ _ H id) as (k & E & _). unfold first_items.
  rewrite E, seq_length. reflexivity.
Qed.

(* C69. A subscription the client has not asked to end goes on: until its stream has ended every item
   it has come to has been sent, whatever other subscriptions do. *)
Theorem C69_nothing_lost acts c id t :
  run acts = Some c -> c_tasks c id = Some t -> ~ In id (asked acts) -> t_phase t <> PEnd ->
  items id (c_out c) = seq 0 (t_pos t).
Proof.
  intros H Ht Ha Hp. apply run_inv in H. destruct (v_items _ _ H id) as (k & E & _ & M).
  rewrite E, (M t Ht); [reflexivity|]. right. now apply (v_alive _ _ H id t).
Qed.

(* C69. Ending a subscription works once, for ids that were given. *)
Theorem C69_ended_once acts c : run acts = Some c ->
  NoDup (ended_ids (c_out c)) /\ incl (ended_ids (c_out c)) (given_ids (c_out c)).
Proof.
  intros H. apply run_inv in H. split; [apply (nodup_left _ _ (v_once _ _ H))|].
  intros id. apply (v_ended_out _ _ H).
Qed.

(* C69. Ending a subscription that was given and whose stream goes on is refused only if it has been
   ended already, by an earlier message or by another request of the same one. *)
Theorem C69_end_succeeds acts c i id c' :
  run acts = Some c -> nth_error (c_reqs c) i = Some (RNew (QUnsub id)) -> In id (given_ids (c_out c)) ->
  step c (Remove i) = Some c' ->
  exists t, c_tasks c id = Some t /\
    (nth_error (c_reqs c') i = Some (RRemoved id) \/ t_phase t = PEnd \/ In id (ended_ids (c_out c)) \/
     In (RRemoved id) (c_reqs c) \/ In (RDone (Some (AUnsub id))) (c_reqs c)).
Proof.
  intros H Hi Hg Hs. pose proof (run_inv _ _ H) as V.
  destruct (c_tasks c id) as [t|] eqn:Et; [|destruct (v_has _ _ V id (or_introl Hg) Et)].
  exists t. split; [reflexivity|]. unfold step in Hs. cbn in Hs. rewrite Hi in Hs.
  destruct (c_subs c id) eqn:Es.
  - left. injection Hs as <-. cbn. revert i Hi. induction (c_reqs c) as [|x l IH]; intros [|i] Hi; cbn in *; try discriminate; auto.
  - right. destruct (t_phase t) eqn:Ep; try (now left); right;
    (assert (X : In id (ended_ids (c_out c)) \/ In id (endings (c_reqs c)) \/ c_loop c = LDead);
     [ apply (v_unsub _ _ V id t Et); [congruence|];
       split; [apply (v_task_lt _ _ V id t Et)|]; split; [exact Es|]; split; intros X;
       [ rewrite (v_invoking _ _ V _ X) in Et; discriminate
       | pose proof (v_nodup _ _ V) as ND; apply in_split in Hg; destruct Hg as (g1 & g2 & E); rewrite E in ND;
         rewrite <- app_assoc in ND; cbn in ND; apply NoDup_remove_2 in ND; apply ND; rewrite !in_app_iff; right; right;
         apply in_flight; auto ]
     | destruct X as [X|[X|X]]; [now left|apply in_endings in X; tauto|];
       exfalso; assert (Y : c_reqs c = []) by (apply (v_idle _ _ V); congruence); rewrite Y in Hi; destruct i; discriminate ]).
Qed.

(* C69. After the answer that a subscription has ended, at most one more of its items is sent, and at
   most two items and errors together. *)
Theorem C69_ended acts c id before o after :
  run acts = Some c -> c_out c = before ++ o :: after -> In id (ended o) ->
  (length (items id after) <= 1)%nat /\ (length (items id after) + errors id after <= 2)%nat.
Proof. intros H E Hi. apply run_inv in H. destruct (v_after _ _ H id before o after E Hi). lia. Qed.

Lemma runs acts (P : conn -> Prop) : match run acts with Some c => P c | None => False end -> exists c, run acts = Some c /\ P c.
Proof. destruct (run acts) as [c|]; [intros H; now exists c|intros []]. Qed.

(* ---- a case: two subscriptions in one batch, items of both, one is ended ---- *)
Definition case : list act :=
  [Receive [QSub; QOther; QSub]; StartSub 2; StartSub 0; Invoke 0 true; Insert 0; Answer 1; Invoke 2 true; Insert 2;
   Reply; Release; TStart 1; TCheck 1; TStart 0; TCheck 0; TSend 0; TSend 1; TSpawn 0; TSpawn 1; TCheck 0;
   Receive [QUnsub 0]; TSend 0; TCheck 1; Remove 0; TCheck 0; Abort 0; TSend 1; TKill 0; Reply; Release].
Example C69_case :
  match run case with
  | Some c => c_out c = [OReply [ASub 1; AOther; ASub 0]; ONote 0 0; ONote 1 0; ONote 0 1; ONote 1 1; OReply [AUnsub 0]]
  | None => False
  end.
Proof. vm_compute. reflexivity. Qed.

(* FINDING: an item of a subscription may be sent after the answer that it has ended: its task has
   looked up that the subscription is there, and sends the item after it has been removed. *)
Theorem C69_late_refuted :
  exists acts c id n, run acts = Some c /\ c_out c = [OReply [ASub id]; OReply [AUnsub id]; ONote id n].
Proof.
  set (acts := [Receive [QSub]; StartSub 0; Invoke 0 true; Insert 0; Reply; Release; TStart 0; TCheck 0;
                Receive [QUnsub 0]; Remove 0; Abort 0; Reply; Release; TSend 0]).
  destruct (runs acts (fun c => c_out c = [OReply [ASub 0]; OReply [AUnsub 0]; ONote 0 0])) as (c & H1 & H2).
  - vm_compute. reflexivity.
  - exists acts, c, 0, O. auto.
Qed.

(* FINDING: an error of a subscription may get lost, without the client having asked for its end: the
   error ends the stream of the items, and if its task ends first, which removes the subscription, the
   error is not sent.  The client is not told that the subscription has ended. *)
Theorem C69_error_lost_refuted :
  exists acts c id t, run acts = Some c /\ asked acts = [] /\ c_closed c = false /\ In (ICheck id) acts /\
    c_tasks c id = Some t /\ t_phase t = PEnd /\ t_inner t = IEnd /\ c_out c = [OReply [ASub id]; ONote id 0].
Proof.
  set (acts := [Receive [QSub]; StartSub 0; Invoke 0 true; Insert 0; Reply; Release; TStart 0; TSpawn 0; TCheck 0; TSend 0;
                TFinish 0; ICheck 0]).
  destruct (runs acts (fun c => c_closed c = false /\ c_out c = [OReply [ASub 0]; ONote 0 0] /\
    match c_tasks c 0 with Some t => t_phase t = PEnd /\ t_inner t = IEnd | None => False end)) as (c & H1 & H2 & H3 & H4).
  - vm_compute. auto.
  - destruct (c_tasks c 0) as [t|] eqn:Et; [|destruct H4]. destruct H4.
    exists acts, c, 0, t. repeat (split; [auto; cbn; tauto|]). auto.
Qed.

Print Assumptions C69_response_first.
Print Assumptions C69_ids_distinct.
Print Assumptions C69_in_order.
Print Assumptions C69_nothing_lost.
Print Assumptions C69_ended_once.
Print Assumptions C69_end_succeeds.
Print Assumptions C69_ended.
Print Assumptions C69_late_refuted.
Print Assumptions C69_error_lost_refuted.
