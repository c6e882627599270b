(** C64: calls that trace the same block share one execution and its result. *)
From Coq Require Import List Bool NArith Lia.
From Verif Require Import TraceCacheModel TraceCacheSpec TraceCacheProof.
Import ListNotations.
Local Open Scope N_scope.

(* Whatever calls are interleaved, and whatever fails or is dropped from the cache: a result that
   is answered is the result of an execution of the same block with the same flag. *)
Theorem C64_answers l i k r :
  s_call (run l) i = Some (k, Returned (Answer r)) -> computed l k r.
Proof. apply (g_answer _ _ (run_good l)). Qed.
Print Assumptions C64_answers.

(* A call waits only while the execution it waits for goes on: otherwise it returns as soon as it
   looks, with the result of that execution unless the execution failed without one. *)
Theorem C64_waits l i k c late :
  s_call (run l) i = Some (k, Waiting c late) ->
  s_call (run l) c = Some (k, Executing) \/
  exists a, s_call (run (l ++ [Receive i])) i = Some (k, Returned a) /\
    match s_chan (run l) c with Sent r => a = Answer r | _ => a = Internal end.
Proof.
  intros S. destruct (g_wait _ _ (run_good l) _ _ _ _ S) as (-> & x & C & O).
  rewrite run_snoc. cbn [step]. rewrite S. destruct (s_chan (run l) c) as [|r|] eqn:SC.
  - left. now rewrite (O eq_refl) in C.
  - right. exists (Answer r). cbn. rewrite N.eqb_refl. auto.
  - right. exists Internal. cbn. rewrite N.eqb_refl. auto.
Qed.
Print Assumptions C64_waits.

(* While nothing fails silently and nothing is dropped, a block is executed once. *)
Theorem C64_once l i j k : undisturbed l -> executed l i k -> executed l j k -> i = j.
Proof. intros U. apply (proj2 (undisturbed_once l U)). Qed.
Print Assumptions C64_once.

(* While no execution fails silently, every call that returns has a result, even if entries are
   dropped from the cache while calls wait for them. *)
Theorem C64_results l i k a :
  unfailing l -> s_call (run l) i = Some (k, Returned a) -> exists r, a = Answer r /\ computed l k r.
Proof.
  intros U S. destruct a as [r|].
  - exists r. split; [reflexivity|]. now apply (C64_answers l i).
  - now elim (proj2 (unfailing_open l U) _ _ _ S).
Qed.
Print Assumptions C64_results.

(* three calls for one block and one for the same block with the other flag; the entry is dropped
   while two calls wait *)
Example C64_history :
  let k := (7, false) in
  let l := [Call 1 k; Call 2 k; Call 3 k; Call 4 (7, true); Evict k; Finish 1 (Traces 50);
            Receive 2; Receive 3; Finish 4 (TraceFails 9); Call 5 k] in
  let s := run l in
  unfailing l /\ s_call s 2 = Some (k, Returned (Answer (Traces 50))) /\
  s_call s 3 = Some (k, Returned (Answer (Traces 50))) /\
  s_call s 4 = Some ((7, true), Returned (Answer (TraceFails 9))) /\
  s_call s 5 = Some (k, Returned (Answer (Traces 50))) /\
  undisturbed [Call 1 k; Call 2 k; Finish 1 (Traces 50)] /\
  executed [Call 1 k; Call 2 k; Finish 1 (Traces 50)] 1 k /\
  s_call (run [Call 1 k; Call 2 k]) 2 = Some (k, Waiting 1 false).
Proof.
  cbv zeta. split; [|split; [|split; [|split; [|split; [|split; [|split]]]]]]; try reflexivity.
  - intros a I. cbn in I. repeat (destruct I as [<-|I]; [exact Coq.Init.Logic.I|]). destruct I.
  - intros a I. cbn in I. repeat (destruct I as [<-|I]; [exact Coq.Init.Logic.I|]). destruct I.
  - exists [Call 1 (7, false)], [Call 2 (7, false); Finish 1 (Traces 50)]. split; reflexivity.
Qed.

(* Finding: when an execution ends without a result and leaves its entry behind (reading the
   initial reads fails, or the execution panics), no later call for that block executes: each of
   them fails, until the entry happens to be dropped from the cache. *)
Theorem C64_stuck_refuted :
  exists k i, forall l, (forall a, In a l -> a <> Evict k) ->
  forall j x, s_call (run (Call i k :: Abandon i :: l)) j = Some (k, x) ->
  x = Returned Internal \/ x = Waiting i false.
Proof.
  exists (7, true), 1. intros l NE.
  assert (D : dead (7, true) 1 (run (Call 1 (7, true) :: Abandon 1 :: l))).
  { unfold run. change (Call 1 (7, true) :: Abandon 1 :: l) with ([Call 1 (7, true); Abandon 1] ++ l).
    rewrite fold_left_app. apply dead_run; [exact NE|]. apply (dead_start (7, true) 1). }
  apply D.
Qed.
Print Assumptions C64_stuck_refuted.
Example C64_stuck :
  let s := run [Call 1 (7, true); Abandon 1; Call 2 (7, true); Receive 2; Call 3 (7, true); Receive 3] in
  s_call s 2 = Some ((7, true), Returned Internal) /\ s_call s 3 = Some ((7, true), Returned Internal).
Proof. split; reflexivity. Qed.

(* Finding: an execution error that does not come from the block itself (a failed database read,
   say) is remembered: later calls do not execute but repeat it. *)
Theorem C64_error_remembered_refuted :
  exists k e, let l := [Call 1 k; Finish 1 (TraceFails e)] in
  forall j, j <> 1 -> s_call (run (l ++ [Call j k])) j = Some (k, Returned (Answer (TraceFails e))).
Proof.
  exists (7, false), 3. cbv zeta. intros j N. rewrite run_snoc.
  set (s := run _). assert (SJ : s_call s j = None).
  { change (s_call s j) with (if 1 =? j then Some ((7, false), Returned (Answer (TraceFails 3)))
      else if 1 =? j then Some ((7, false), Executing) else None).
    destruct (N.eqb_spec 1 j) as [<-|_]; [now elim N|reflexivity]. }
  cbn [step]. rewrite SJ. change (s_cache s (7, false)) with (Some (Cached (TraceFails 3))).
  cbn [set_call s_call]. rewrite N.eqb_refl. reflexivity.
Qed.
Print Assumptions C64_error_remembered_refuted.
