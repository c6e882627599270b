(* C68: every JSON-RPC request gets its answer, however batches are scheduled. *)
From Coq Require Import List Arith NArith ZArith Bool Lia ZifyBool ZifyNat ZifyN.
From Verif Require Import StateUpdateModel TxLookupModel JsonRpcModel JsonRpcSpec JsonRpcProof.
Import ListNotations.
Local Open Scope N_scope.

(* One request over HTTP. *)
Theorem C68_single methods limit disabled r o acts :
  handle_body methods limit disabled (Single r) o acts =
  match answer methods r o with Some p => One p | None => Nothing end.
Proof. cbn. now rewrite run_request_answer. Qed.
Print Assumptions C68_single.

(* A batch over HTTP: whatever the schedule, there is one answer for every request that has an id or
   is not valid, in the order of the requests, with the id of the request and what its method
   answered; a panic of a method spoils its own answer only. *)
Theorem C68_batch methods limit l o acts :
  completes (run_request methods) limit l acts ->
  handle_body methods limit false (Batch l) o acts =
  match answers methods l acts with [] => Nothing | rs => Many rs end.
Proof.
  intros C. destruct (completes_collect _ _ _ _ C) as (c & c' & S & R & D & E). cbn. rewrite S, R, D, E.
  rewrite (flatten_answers methods) by apply run_request_answer. now destruct (answers methods l acts).
Qed.
Print Assumptions C68_batch.

(* Batches that are empty or not allowed, and texts that are not JSON, are refused. *)
Theorem C68_refused methods limit disabled o acts :
  handle_body methods limit disabled BadText o acts = One (Response IdNull ParseError) /\
  handle_body methods limit disabled (Batch []) o acts = One (Response IdNull InvalidRequest) /\
  forall l, handle_body methods limit true (Batch l) o acts = One (Response IdNull InvalidRequest).
Proof. split; [reflexivity|]. split; [|reflexivity]. now destruct disabled. Qed.
Print Assumptions C68_refused.

(* A batch is never stuck: as long as it is not done a request can be started, or all that are
   running can end in any way; it takes two steps per request; and never are there more than [limit]
   running. *)
Theorem C68_progress work limit l c acts c' :
  (0 < limit)%nat -> conc_start l = Some c -> conc_run work limit (length l) c acts = Some c' ->
  (length (c_running c') <= limit)%nat /\
  (length acts <= 2 * length l)%nat /\
  (conc_done c' = true <-> length acts = (2 * length l)%nat) /\
  (conc_done c' = false ->
   (exists c'', conc_step work limit (length l) c' Begin = Some c'') \/
   (c_running c' <> [] /\ forall i q o, In (i, q) (c_running c') -> exists c'', conc_step work limit (length l) c' (Finish i o) = Some c'')).
Proof.
  intros L S R. unfold conc_start in S. destruct (is_nil l); [discriminate|]. injection S as <-.
  pose proof (run_measure work limit _ _ _ _ R) as M. cbn [c_waiting c_running length] in M. rewrite enumerate_length in M.
  split; [eapply run_limit; [exact R|cbn; lia]|]. split; [lia|]. split.
  - unfold conc_done. destruct (c_waiting c'), (c_running c'); cbn in *; split; intros; try discriminate; try reflexivity; lia.
  - intros D. eapply run_progress; eauto.
Qed.
Print Assumptions C68_progress.

(* Over a websocket without empty batches every message is answered, in order, until the connection
   is closed. *)
Theorem C68_websocket methods subscriptions limit l sent s :
  (forall o acts, ~ In (WsRequest (Batch []), o, acts) l) ->
  ws_run methods subscriptions limit l = Some (sent, s) ->
  s <> Panicked /\
  sent = flat_map (fun x => ws_answer (methods ++ subscriptions) (fst (fst x)) (snd (fst x)) (snd x)) (until_closed l).
Proof.
  revert sent s. induction l as [|[[m o] acts] l IH]; intros sent s NE R; cbn in R; [injection R as <- <-; split; [discriminate|reflexivity]|].
  destruct (ws_step methods subscriptions limit m o acts) as [[sent1 s1]|] eqn:S; [|discriminate].
  assert (A : m <> WsClose -> m <> WsFailure -> s1 = Running /\ sent1 = ws_answer (methods ++ subscriptions) m o acts).
  { intros N1 N2. destruct m as [b| | |]; cbn in S; try contradiction; [|injection S as <- <-; auto].
    destruct b as [|r|b]; cbn in S.
    - injection S as <- <-. auto.
    - injection S as <- <-. rewrite handle_request_answer. auto.
    - unfold conc_start in S. destruct b as [|r b]; [elim (NE o acts); now left|]. cbn [is_nil] in S.
      destruct (conc_run _ _ _ _ acts) as [c'|] eqn:R'; [|discriminate]. destruct (conc_done c') eqn:D; [|discriminate].
      injection S as <- <-. split; [reflexivity|].
      destruct (completes_collect (handle_request methods subscriptions) limit (r :: b) acts) as (c & c2 & S2 & R2 & D2 & E2).
      { exists (Conc (enumerate_from 0 (r :: b)) [] []), c'. auto. }
      unfold conc_start in S2. cbn [is_nil] in S2.
      assert (EC : c = Conc (enumerate_from 0 (r :: b)) [] []) by congruence. rewrite EC, R' in R2. injection R2 as <-. rewrite E2.
      rewrite (flatten_answers (methods ++ subscriptions)) by apply handle_request_answer.
      unfold ws_answer. now destruct (answers _ _ acts). }
  assert (NE' : forall o acts, ~ In (WsRequest (Batch []), o, acts) l) by (intros o' a' I; apply (NE o' a'); now right).
  assert (CL : m = WsClose \/ m = WsFailure -> s1 = Returned /\ sent1 = []).
  { intros [->| ->]; cbn in S; injection S as <- <-; auto. }
  assert (CASE : (m = WsClose \/ m = WsFailure) \/ (m <> WsClose /\ m <> WsFailure)).
  { destruct m; [right; split; discriminate|right; split; discriminate|auto|auto]. }
  destruct CASE as [C|[C1 C2]].
  - destruct (CL C) as [-> ->]. injection R as <- <-. split; [discriminate|]. destruct C as [->| ->]; reflexivity.
  - destruct (A C1 C2) as [-> ->]. destruct (ws_run _ _ _ l) as [[sent' s']|]; [|discriminate]. injection R as <- <-.
    destruct (IH sent' s' NE' eq_refl) as [P ->]. split; [exact P|].
    destruct m; cbn [until_closed flat_map fst snd]; try reflexivity; contradiction.
Qed.
Print Assumptions C68_websocket.

(* ---- what does not hold ---- *)

(* After an empty batch a websocket connection answers nothing any more: the task panics. *)
Theorem C68_empty_batch_refuted :
  forall methods subscriptions limit o acts l,
    ws_run methods subscriptions limit ((WsRequest (Batch []), o, acts) :: l) =
    Some ([SentOne (Response IdNull InvalidRequest)], Panicked).
Proof. reflexivity. Qed.
Print Assumptions C68_empty_batch_refuted.

(* Batches that are disabled are carried out over a websocket. *)
Theorem C68_disabled_refuted :
  exists methods r acts,
    handle_body methods 1 true (Batch [r]) Panics acts = One (Response IdNull InvalidRequest) /\
    ws_step methods [] 1 (WsRequest (Batch [r])) Panics acts = Some ([SentMany [Response (IdNumber 1) (Output 5)]], Running).
Proof.
  exists [7], (Object (Some true) (JNumber 1) (Some 7) 0), [Begin; Finish 0 (Returns (Output 5))]. split; reflexivity.
Qed.
Print Assumptions C68_disabled_refuted.

(* ---- a case: a batch of five, ended out of order ---- *)
Definition ex_batch : list raw :=
  [Object (Some true) (JNumber 1) (Some 7) 0; NoObject; Object (Some true) Absent (Some 7) 0;
   Object (Some true) (JString 9) (Some 8) 0; Object (Some true) JNull (Some 7) 1].
Definition ex_acts : list conc_action :=
  [Begin; Begin; Finish 1 Panics; Begin; Finish 2 Panics; Begin; Finish 3 Panics; Begin; Finish 4 (Returns (Output 6)); Finish 0 Panics].
Example C68_case :
  completes (run_request [7]) 2 ex_batch ex_acts /\
  handle_body [7] 2 false (Batch ex_batch) Panics ex_acts =
  Many [Response (IdNumber 1) InternalError; Response IdNull InvalidRequest; Response (IdString 9) MethodNotFound;
        Response IdNull (Output 6)].
Proof.
  split; [|reflexivity]. exists (Conc (enumerate_from 0 ex_batch) [] []). eexists. split; [reflexivity|]. split; reflexivity.
Qed.
