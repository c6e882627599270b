(* C67: the pending data the RPC is given follow the gateway and never go back. *)
From Coq Require Import List Arith NArith Bool Lia ZifyBool ZifyNat ZifyN Sorted.
From Verif Require Import AList StateUpdateModel TxLookupModel PendingPollModel PendingPollSpec PendingPollProof.
Import ListNotations.
Local Open Scope N_scope.

(* The data shown never go back: whatever happens, later they are the same or newer. *)
Theorem C67_never_back acts more :
  s_watch (run (acts ++ more)) = s_watch (run acts) \/
  newer (shown_key (s_watch (run acts))) (shown_key (s_watch (run (acts ++ more)))).
Proof.
  induction more as [|a more IH] using rev_ind; [rewrite app_nil_r; auto|]. rewrite app_assoc, run_snoc.
  assert (S : s_watch (step (run (acts ++ more)) a) = s_watch (run (acts ++ more)) \/
              newer (shown_key (s_watch (run (acts ++ more)))) (shown_key (s_watch (step (run (acts ++ more)) a)))).
  { destruct a as [q| |l].
    - left. cbn [step]. now destruct (poll_step _ q).
    - destruct (deliver_watch (acts ++ more)) as [E|(q & m & b & pl & _ & _ & _ & _ & N)]; auto.
    - now left. }
  destruct S as [->|S]; [exact IH|]. right. destruct IH as [E|IH]; [now rewrite <- E|]. eapply newer_trans; eauto.
Qed.
Print Assumptions C67_never_back.

(* No assertion ever fails. *)
Theorem C67_no_panic acts : s_panicked (run acts) = false.
Proof. exact (v_alive _ _ (inv_run acts)). Qed.
Print Assumptions C67_no_panic.

(* The data shown, once there are any, are what the gateway had at some poll, and were put there
   when the latest stored block was the one they are on top of. *)
Theorem C67_origin acts :
  s_watch (run acts) = s_watch sys_start \/
  exists before after q number b pl,
    acts = before ++ Deliver :: after /\ In (DoPoll q) before /\ gateway_has q number b pl /\
    base number pl = latest_number (run before) /\ convert b number pl = Converted (s_watch (run acts)).
Proof.
  induction acts as [|a acts IH] using rev_ind; [now left|]. rewrite run_snoc.
  assert (SAME : s_watch (step (run acts) a) = s_watch (run acts) ->
    s_watch (step (run acts) a) = s_watch sys_start \/
    exists before after q number b pl,
      acts ++ [a] = before ++ Deliver :: after /\ In (DoPoll q) before /\ gateway_has q number b pl /\
      base number pl = latest_number (run before) /\ convert b number pl = Converted (s_watch (step (run acts) a))).
  { intros ->. destruct IH as [E|(before & after & q & m & b & pl & -> & R)]; [auto|]. right.
    exists before, (after ++ [a]), q, m, b, pl. split; [now rewrite <- app_assoc|exact R]. }
  destruct a as [q| |l].
  - apply SAME. cbn [step]. now destruct (poll_step _ q).
  - destruct (deliver_watch acts) as [E|(q & m & b & pl & I & H & B & C & _)]; [now apply SAME|]. right.
    exists acts, [], q, m, b, pl. auto.
  - now apply SAME.
Qed.
Print Assumptions C67_origin.

(* Data newer than all that earlier polls found are shown when the events that are on their way have
   been delivered, if the latest block is the one they are on top of. *)
Theorem C67_newest_shown acts q number b pl w :
  gateway_has q number b pl -> convert b number pl = Converted w ->
  (forall q' number' b' pl', In (DoPoll q') acts -> gateway_has q' number' b' pl' ->
     newer (data_key number' b' pl') (data_key number b pl)) ->
  base number pl = latest_number (run acts) ->
  s_watch (run (acts ++ DoPoll q :: repeat Deliver (S (length (s_queue (run acts)))))) = w.
Proof.
  intros H C N B. change (DoPoll q :: ?l) with ([DoPoll q] ++ l). rewrite app_assoc. unfold run. rewrite fold_left_app.
  fold (run (acts ++ [DoPoll q])). rewrite run_snoc. fold (run acts). set (s := run acts) in *.
  assert (NP : newer (pkey (s_poller s)) (data_key number b pl)).
  { destruct (v_seen _ _ (inv_run acts)) as [E|(e & (q' & I & H') & E)]; fold s in E; rewrite E.
    - left. cbn. destruct H as (_ & _ & _ & x & _ & [(_ & _ & ->)|(_ & _ & ->)]); lia.
    - eapply N; eauto. }
  pose proof (poll_step_spec (s_poller s) q) as P. cbn [step]. destruct (poll_step (s_poller s) q) as [p [e|]].
  - destruct P as (H' & _ & _).
    assert (U : e_number e = number /\ e_block e = b /\ e_pre_latest e = pl).
    { apply has_iff in H, H'. destruct H as (_ & F & E & Q), H' as (_ & F' & E' & Q').
      assert (e_pre_latest e = pl) by congruence. subst pl. assert (e_number e = number) by congruence. split; [assumption|].
      split; [congruence|reflexivity]. }
    destruct U as (E1 & E2 & E3).
    replace (S (length (s_queue s))) with (length (s_queue s ++ [e])) by (rewrite app_length; cbn; lia).
    apply deliver_all with (e := e); [reflexivity| |now rewrite E1, E2, E3].
    rewrite E1, E3. rewrite (has_base _ _ _ _ H), B. reflexivity.
  - destruct P as [_ P]. elim (P _ _ _ H NP).
Qed.
Print Assumptions C67_newest_shown.

(* ---- what does not hold ---- *)

Lemma run_repeat acts l : run (acts ++ l) = run acts -> forall k, run (acts ++ concat (repeat l k)) = run acts.
Proof.
  intros E. induction k as [|k IH]; cbn [repeat concat]; [now rewrite app_nil_r|].
  rewrite app_assoc. unfold run in *. rewrite fold_left_app, E, <- fold_left_app. exact IH.
Qed.

(* a gateway with latest block n of hash h, whose pending block does not follow it, and whose
   pre-confirmed block is b *)
Definition gw (n h current : N) (b : gw_block) : poll := Poll n h current (Some (PlBlock (h + 1) [] [])) (fun _ => Some b).
Definition ex_tx : tx := Tx 7 0.
Definition ex_waiting : gw_block := GwBlock [ex_tx] [None].
Definition ex_executed : gw_block := GwBlock [ex_tx] [Some (Receipt 7 0 0, [])].

(* A transaction first seen as a candidate is still shown as one when it has been executed, however
   often the gateway is asked, until the number of transactions changes. *)
Theorem C67_executed_refuted :
  exists acts q b, gateway_has q 6 b None /\ gw_txs b = [ex_tx] /\ gw_receipts b = [Some (Receipt 7 0 0, [])] /\
    forall k, let w := s_watch (run (acts ++ concat (repeat [DoPoll q; Deliver] k))) in
      pt_number w = 6 /\ pt_txs w = [] /\ pt_candidates w = [ex_tx].
Proof.
  exists [SetLatest (Some 5); DoPoll (gw 5 105 5 ex_waiting); Deliver], (gw 5 105 5 ex_executed), ex_executed.
  split; [|split; [reflexivity|split; [reflexivity|]]].
  - split; [cbn; lia|]. split; [cbn; lia|]. split; [reflexivity|]. eexists. split; [reflexivity|]. right. cbn. repeat split; lia.
  - intros k. cbv zeta. rewrite run_repeat by (vm_compute; reflexivity). repeat split; vm_compute; reflexivity.
Qed.
Print Assumptions C67_executed_refuted.

(* Data polled before the block they are on top of is stored are dropped, and are not shown when it
   is stored, however often the gateway is asked, until something changes in them. *)
Theorem C67_too_early_refuted :
  exists acts q b w, gateway_has q 6 b None /\ latest_number (run acts) = 5 /\ convert b 6 None = Converted w /\
    forall k, s_watch (run (acts ++ concat (repeat [DoPoll q; Deliver] k))) = s_watch sys_start /\ w <> s_watch sys_start.
Proof.
  exists [SetLatest (Some 4); DoPoll (gw 5 105 4 ex_executed); Deliver; SetLatest (Some 5)], (gw 5 105 5 ex_executed), ex_executed.
  eexists. split; [|split; [reflexivity|split; [reflexivity|]]].
  - split; [cbn; lia|]. split; [cbn; lia|]. split; [reflexivity|]. eexists. split; [reflexivity|]. right. cbn. repeat split; lia.
  - intros k. rewrite run_repeat by (vm_compute; reflexivity). split; [vm_compute; reflexivity|discriminate].
Qed.
Print Assumptions C67_too_early_refuted.

(* After a reorg to a lower block the pre-confirmed block of the new chain is not shown, however
   often the gateway is asked. *)
Theorem C67_reorg_refuted :
  exists acts q b w, gateway_has q 5 b None /\ latest_number (run acts) = 4 /\ convert b 5 None = Converted w /\
    forall k, s_watch (run (acts ++ concat (repeat [DoPoll q; Deliver] k))) <> w.
Proof.
  exists [SetLatest (Some 5); DoPoll (gw 5 105 5 ex_waiting); Deliver; SetLatest (Some 4)], (gw 4 204 4 ex_executed), ex_executed.
  eexists. split; [|split; [reflexivity|split; [reflexivity|]]].
  - split; [cbn; lia|]. split; [cbn; lia|]. split; [reflexivity|]. eexists. split; [reflexivity|]. right. cbn. repeat split; lia.
  - intros k. rewrite run_repeat by (vm_compute; reflexivity). discriminate.
Qed.
Print Assumptions C67_reorg_refuted.

(* ---- a case: a pre-latest block appears, and is stored ---- *)
Definition ex_pl : pl_block := PlBlock 105 [Tx 1 0] [(Receipt 1 0 0, [])].
Definition ex_q1 : poll := gw 5 105 5 ex_waiting.
Definition ex_q2 : poll := Poll 5 105 5 (Some ex_pl) (fun n => if n =? 7 then Some ex_executed else None).
Definition ex_acts : list action := [SetLatest (Some 5); DoPoll ex_q1; Deliver].
Example C67_case :
  gateway_has ex_q2 7 ex_executed (Some (6, ex_pl)) /\
  convert ex_executed 7 (Some (6, ex_pl)) = Converted (Ptx 7 [ex_tx] [(Receipt 7 0 0, [])] [] (Some (6, ex_pl))) /\
  (forall q' number' b' pl', In (DoPoll q') ex_acts -> gateway_has q' number' b' pl' ->
     newer (data_key number' b' pl') (data_key 7 ex_executed (Some (6, ex_pl)))) /\
  base 7 (Some (6, ex_pl)) = latest_number (run ex_acts) /\
  s_watch (run ex_acts) = Ptx 6 [] [] [ex_tx] None /\
  s_watch (run (ex_acts ++ [DoPoll ex_q2; Deliver])) = Ptx 7 [ex_tx] [(Receipt 7 0 0, [])] [] (Some (6, ex_pl)).
Proof.
  split; [|split; [reflexivity|split; [|split; [reflexivity|split; reflexivity]]]].
  - split; [cbn; lia|]. split; [cbn; lia|]. split; [reflexivity|]. exists ex_pl. split; [reflexivity|]. left. repeat split.
  - intros q' m b' pl' [E|[E|[E|[]]]] (_ & _ & _ & x & X & H); try discriminate. injection E as <-.
    left. cbn in *. injection X as <-. destruct H as [(X & _)|(_ & _ & ->)]; [discriminate|lia].
Qed.
