(** C75: what a client following one transaction is told. *)
From Coq Require Import List Bool Arith NArith Lia.
From Verif Require Import TxStatusModel TxStatusSpec TxStatusProof.
Import ListNotations.

(** *** The statuses sent go forward between two reorgs, and nothing is sent after a
    rejection.  For every interleaving of the task with the node. *)
Theorem C75_order tx w ls :
  in_order (s_sent (after tx w ls)) /\
  forall pre b r e post, s_sent (after tx w ls) = pre ++ Status b (Rejected r) e :: post -> post = [].
Proof.
  assert (O : Ord (after tx w ls)) by apply ord_run, ord_start. split; [apply O|].
  intros pre b r e post H. now apply (o_end _ O) in H.
Qed.
Print Assumptions C75_order.

(** *** A message is true of the node at a moment after the last reorg reported before it;
    for acceptance on L1 only if the message before it is not a pre-confirmation. *)
Theorem C75_true_partial tx w ls pre m post : consistent w ->
  s_sent (after tx w ls) = pre ++ m :: post ->
  (forall n e p b e', m = Status n AcceptedOnL1 e -> pre <> p ++ [Status b PreConfirmed e']) ->
  true_message tx w ls pre m.
Proof.
  intros W E L. assert (I := inv_all tx w W ls). apply (i_ok _ _ _ _ I) in E.
  destruct m as [n f e|n]; [|exact E]. destruct f; try exact E.
  destruct E as (A & x & b & B & C & [D|[_ (p & e' & D)]]); [split; eauto 6|].
  elim (L n e p b e'); auto.
Qed.
Print Assumptions C75_true_partial.

(** If it is one, the transaction was pre-confirmed in a block L1 has reached. *)
Theorem C75_l1_partial tx w ls pre n e post : consistent w ->
  s_sent (after tx w ls) = pre ++ Status n AcceptedOnL1 e :: post ->
  at_some_moment tx w ls pre (fun w => w_l1 w = Some n) /\
  exists x b, e = Some x /\ b <= n /\
    (at_some_moment tx w ls pre (fun w => stored tx w b x) \/
     at_some_moment tx w ls pre (fun w => pre_confirmed tx w b x)).
Proof.
  intros W E. assert (I := inv_all tx w W ls). apply (i_ok _ _ _ _ I) in E.
  destruct E as (A & x & b & B & C & D). split; auto. exists x, b. split; auto. split; auto.
  destruct D as [D|[D _]]; auto.
Qed.
Print Assumptions C75_l1_partial.

(** *** A block with the transaction that is stored before the task reads the database, or
    once it has subscribed to the blocks, is reported by the time the task is idle, if it is not
    reorged away and the channel does not overflow. *)
Theorem C75_complete tx w ls1 rs e ls2 :
  w_todo (s_world (after tx w ls1)) = None -> In (tx, e) rs ->
  s_phase (after tx w ls1) <> AtPending -> s_phase (after tx w ls1) <> AtSubscribeBlocks ->
  (forall n, ~ In (Reorg n) ls2) -> (forall k, ~ In (LagBlocks k) ls2) ->
  quiet (after tx w (ls1 ++ Commit rs :: ls2)) ->
  now_said (s_sent (after tx w (ls1 ++ Commit rs :: ls2))) (fun f => 3 <= progress f).
Proof.
  intros Td I P1 P2 R L Q.
  assert (O : Obl tx (after tx w (ls1 ++ Commit rs :: ls2))).
  { unfold after, run in *. rewrite fold_left_app. cbn [fold_left]. apply obl_run.
    - apply Forall_forall. intros l Hl. destruct l; cbn; auto; [now apply (R n)|now apply (L k)].
    - set (s := fold_left (step tx) ls1 (start w)) in *. cbn [step]. rewrite Td. split.
      + apply (in_chain_some tx _ (length (w_chain (s_world s))) rs e); auto. cbn.
        rewrite nth_error_app2, Nat.sub_diag by lia. reflexivity.
      + right. cbn. destruct (s_phase s); try congruence; auto; right; right; (split; auto); left;
          exists (length (w_chain (s_world s))), rs; (split; auto); now apply find_receipt_some with e. }
  destruct (obl_quiet _ _ O Q) as (f & F & G).
  destruct (o_some _ (ord_run tx (ls1 ++ Commit rs :: ls2) _ (ord_start w)) _ F) as (p & b & e' & E).
  exists p, b, f, e', []. split; auto. split; auto. apply no_reorg_nil.
Qed.
Print Assumptions C75_complete.

(** The same for a transaction that is stored when the subscription starts. *)
Theorem C75_complete_stored tx w n e ls : stored tx w n e ->
  (forall n, ~ In (Reorg n) ls) -> (forall k, ~ In (LagBlocks k) ls) ->
  quiet (after tx w ls) ->
  now_said (s_sent (after tx w ls)) (fun f => 3 <= progress f).
Proof.
  intros (rs & C & I) R L Q.
  assert (O : Obl tx (after tx w ls)).
  { apply obl_run.
    - apply Forall_forall. intros l Hl. destruct l; cbn; auto; [now apply (R n0)|now apply (L k)].
    - split; [exact (in_chain_some tx _ n rs e C I)|right; left; reflexivity]. }
  destruct (obl_quiet _ _ O Q) as (f & F & G).
  destruct (o_some _ (ord_run tx ls _ (ord_start w)) _ F) as (p & b & e' & E).
  exists p, b, f, e', []. split; auto. split; auto. apply no_reorg_nil.
Qed.
Print Assumptions C75_complete_stored.

(** ** Findings *)

Definition no_pending (n : nat) : pending_data := mkPending None n [] [].
(** A node with one empty block and the transaction 7 submitted or not. *)
Definition fresh (t : option nat) : world := mkWorld [[]] None None (no_pending 1) t.

(** *** A block that is stored and announced between the read of the database and the
    subscription is not reported, not even when more blocks come. *)
Theorem C75_gap_refuted : exists tx w ls n e,
  consistent w /\ stored tx (s_world (after tx w ls)) n e /\ quiet (after tx w ls) /\
  (forall n, ~ In (Reorg n) ls) /\ (forall k, ~ In (LagBlocks k) ls) /\
  s_sent (after tx w ls) = [Status 0 Received None].
Proof.
  exists 7%N, (fresh (Some 0)).
  exists [ReadDb; ReadPending; Commit [(7%N, Succeeded)]; Announce; Track None;
          SubscribeBlocks; SubscribeReorgs; Commit []; Announce; L1Update 2; Poll; TakeBlock; ReadL1].
  exists 1, Succeeded. split; [discriminate|].
  split; [exists [(7%N, Succeeded)]; split; [reflexivity|now left]|].
  split; [vm_compute; auto|].
  split; [intros n H; repeat (destruct H as [H|H]; [discriminate|]); destruct H|].
  split; [intros n H; repeat (destruct H as [H|H]; [discriminate|]); destruct H|reflexivity].
Qed.
Print Assumptions C75_gap_refuted.

(** *** A transaction that was pre-confirmed and did not make it into the block is reported as
    accepted on L1 when L1 reaches the number of that block: it was never in any block. *)
Theorem C75_l1_refuted : exists tx w ls pre n e post,
  consistent w /\ s_sent (after tx w ls) = pre ++ Status n AcceptedOnL1 (Some e) :: post /\
  (forall ls1 ls2, ls = ls1 ++ ls2 -> forall b x, ~ stored tx (s_world (after tx w ls1)) b x) /\
  ~ true_message tx w ls pre (Status n AcceptedOnL1 (Some e)).
Proof.
  set (w := mkWorld [[]] None None (mkPending None 1 [] [(7%N, Succeeded)]) None).
  set (ls := [ReadDb; ReadPending; SubscribeBlocks; SubscribeReorgs; NewPending (no_pending 2);
          Commit [(8%N, Succeeded)]; L1Update 1; Announce; Poll; TakeBlock; ReadL1]).
  assert (N : forall ls1 ls2, ls = ls1 ++ ls2 -> forall b x, ~ stored 7%N (s_world (after 7%N w ls1)) b x).
  { intros ls1 ls2 E b x (rs & C & I). assert (F : ls1 = firstn (length ls1) ls).
    { rewrite E, firstn_app, firstn_all, Nat.sub_diag. cbn. now rewrite app_nil_r. }
    assert (L : length ls1 <= 11).
    { apply (f_equal (@length _)) in E. rewrite app_length in E. change (length ls) with 11 in E. lia. }
    assert (X : in_chain 7%N (w_chain (s_world (after 7%N w ls1))) = None).
    { rewrite F. clear - L. generalize dependent (length ls1). intros k L.
      do 12 (destruct k as [|k]; [reflexivity|]). lia. }
    exact (in_chain_some 7%N _ b rs x C I X). }
  exists 7%N, w, ls, [Status 1 PreConfirmed (Some Succeeded)], 1, Succeeded, [].
  split; [discriminate|]. split; [reflexivity|]. split; [exact N|].
  intros (_ & x & b & _ & _ & (l1 & l2 & r & E & _ & _ & H)). exact (N l1 l2 E b x H).
Qed.
Print Assumptions C75_l1_refuted.

(** *** A reorg between the read of the database and the subscription is not reported: the
    client is left with the acceptance of a transaction that is in no block any more. *)
Theorem C75_reorg_lost_refuted : exists tx w ls n e,
  consistent w /\ quiet (after tx w ls) /\
  s_sent (after tx w ls) = [Status n AcceptedOnL2 (Some e)] /\
  forall b x, ~ stored tx (s_world (after tx w ls)) b x.
Proof.
  exists 7%N, (mkWorld [[]; [(7%N, Succeeded)]] None None (no_pending 2) None).
  exists [ReadDb; Reorg 1; Announce; SubscribeBlocks; SubscribeReorgs; Commit []; Announce; Poll; TakeBlock; ReadL1].
  exists 1, Succeeded. split; [discriminate|]. split; [vm_compute; auto|]. split; [reflexivity|].
  intros b x (rs & C & I). exact (in_chain_some 7%N _ b rs x C I eq_refl).
Qed.
Print Assumptions C75_reorg_lost_refuted.

(** ** Examples *)

(** A whole life: submitted, pre-confirmed, in a block, reorged away, in another block, on L1. *)
Definition life : list label :=
  [ReadDb; ReadPending; SubscribeBlocks; SubscribeReorgs;
   NewPending (mkPending None 1 [7%N] []); Poll; TakePending;
   NewPending (mkPending None 1 [] [(7%N, Reverted 5%N)]); Poll; TakePending;
   Commit [(7%N, Reverted 5%N)]; Announce; Poll; TakeBlock; ReadL1;
   Reorg 1; Announce; TakeReorg; ReadDb; ReadPending; SubscribeBlocks; SubscribeReorgs;
   Commit [(8%N, Succeeded); (7%N, Succeeded)]; Announce; L1Update 1; Poll; TakeBlock; ReadL1].

Example life_sent : s_sent (after 7%N (fresh (Some 0)) life) =
  [Status 0 Received None; Status 1 Candidate None; Status 1 PreConfirmed (Some (Reverted 5%N));
   Status 1 AcceptedOnL2 (Some (Reverted 5%N)); ReorgSeen 1; Status 1 PreConfirmed (Some (Reverted 5%N));
   Status 1 AcceptedOnL2 (Some Succeeded); Status 1 AcceptedOnL1 (Some Succeeded)].
Proof. reflexivity. Qed.

(** The hypotheses of the theorems hold of it. *)
Example life_true : consistent (fresh (Some 0)) /\
  true_message 7%N (fresh (Some 0)) life (firstn 7 (s_sent (after 7%N (fresh (Some 0)) life)))
    (Status 1 AcceptedOnL1 (Some Succeeded)).
Proof.
  assert (C : consistent (fresh (Some 0))) by discriminate. split; auto.
  apply (C75_true_partial _ _ _ _ _ []); auto.
  intros n e p b e' _ E. apply (f_equal (@rev _)) in E. rewrite rev_app_distr in E. vm_compute in E. discriminate.
Qed.

Example life_complete :
  let ls1 := firstn 22 life in let ls2 := skipn 23 life in
  life = ls1 ++ Commit [(8%N, Succeeded); (7%N, Succeeded)] :: ls2 /\
  w_todo (s_world (after 7%N (fresh (Some 0)) ls1)) = None /\
  s_phase (after 7%N (fresh (Some 0)) ls1) = AtLoop /\ quiet (after 7%N (fresh (Some 0)) life).
Proof. vm_compute. auto 8. Qed.

(** Rejection ends it. *)
Example rejected :
  s_sent (after 7%N (fresh (Some 0)) [ReadDb; ReadPending; SubscribeBlocks; SubscribeReorgs;
    Tick None; Tick (Some (Some 3%N)); Commit [(7%N, Succeeded)]; Announce; Poll; TakeBlock]) =
  [Status 0 Received None; Status 0 (Rejected (Some 3%N)) None].
Proof. reflexivity. Qed.

(** Stored before the subscription, and already on L1. *)
Example already :
  s_sent (after 7%N (mkWorld [[]; [(7%N, Succeeded)]; []] None (Some 2) (no_pending 3) None)
    [ReadDb; SubscribeBlocks; SubscribeReorgs]) = [Status 2 AcceptedOnL1 (Some Succeeded)] /\
  quiet (after 7%N (mkWorld [[]; [(7%N, Succeeded)]; []] None (Some 2) (no_pending 3) None)
    [ReadDb; SubscribeBlocks; SubscribeReorgs]).
Proof. vm_compute. auto 6. Qed.
