(* C70: the Starknet states taken from L1 are those of the finalized chain, in its order, up to the newest.

   The L1 node may mine, replace and finalize blocks at any time, and the events and finalized block
   numbers it sends may be handled in any order.  [pre] is what happens before the client subscribes,
   [post] what happens after. *)
From Coq Require Import List Arith NArith Bool Lia.
From Verif Require Import L1LogModel L1LogSpec L1LogProof.
Import ListNotations.

(* The first state reported is that of the contract at the finalized block. *)
Theorem C70_first chain final pre w :
  run chain final (pre ++ [Begin]) = Some w ->
  exists u, w_emitted w = [u] /\ state_at (w_chain w) (w_final w) = Some u.
Proof.
  unfold run. destruct (final <? length chain); [|discriminate]. rewrite run_from_app.
  destruct (run_from (init chain final) pre) as [[c fi sub q po pe em]|]; [|discriminate]. cbn [run_from step].
  destruct em; [|discriminate]. destruct sub; [discriminate|]. destruct (state_at c fi) as [u|] eqn:E; [|discriminate].
  intros H. injection H as <-. exists u. cbn. auto.
Qed.

(* All later ones were logged by finalized blocks of the chain, and come in the order of the chain, each
   log at most once. *)
Theorem C70_sound chain final pre post w :
  run chain final (pre ++ Subscribe :: post) = Some w ->
  ~ In Subscribe pre -> unbroken post -> timely chain final (pre ++ Subscribe :: post) ->
  exists u es ps,
    w_emitted w = u :: es /\ map Some es = map (log_at (w_chain w)) ps /\ increasing ps /\
    Forall (fun p => fst p <= w_final w) ps.
Proof.
  intros R Hs Hu Ht. destruct (inv_reach _ _ _ _ _ R Hs Hu Ht) as (w0 & u0 & B & ps & _ & _ & V).
  destruct (i_emitted _ _ _ _ _ V) as (es & E1 & E2). exists u0, es, ps.
  split; [exact E1|]. split; [exact E2|]. split; [apply increasing_ordered, (i_ordered _ _ _ _ _ V)|].
  apply Forall_forall. intros [m j] X. now destruct (i_ps _ _ _ _ _ V m j X).
Qed.

(* A client told that block [f] is finalized, and told all there was about the blocks up to it: *)
Section Handled.
Variables (chain : list (list N)) (final : nat) (pre post : list act) (w0 w w' : world) (f : nat) (polled : list nat).
Hypothesis before_subscribing : run chain final pre = Some w0.
Hypothesis reached : run chain final (pre ++ Subscribe :: post) = Some w.
Hypothesis finalized : w_polled w = f :: polled.
Hypothesis up_to_date : forall e, In e (w_queue w) -> f < block_of e.
Hypothesis handles : step w OnFinal = Some w'.
Hypothesis once : ~ In Subscribe pre.
Hypothesis not_lost : unbroken post.
Hypothesis in_time : timely chain final (pre ++ Subscribe :: post).

(* it has reported the last state logged by each block up to [f] that was mined under the
   subscription, *)
Theorem C70_complete n l u :
  seen_from (length (w_chain w0)) post <= n <= f -> nth n (w_chain w') [] = l ++ [u] -> In u (w_emitted w').
Proof.
  destruct (inv_reach _ _ _ _ _ reached once not_lost in_time) as (w1 & u0 & B & ps & R & _ & V).
  rewrite before_subscribing in R. injection R as <-.
  exact (handled_complete u0 w B _ ps f polled w' V finalized up_to_date handles n l u).
Qed.

(* and if there is one that logs a state, the last state it reported is the state at [f]. *)
Theorem C70_newest n :
  seen_from (length (w_chain w0)) post <= n <= f -> nth n (w_chain w') [] <> [] ->
  last_opt (w_emitted w') = state_at (w_chain w') f.
Proof.
  destruct (inv_reach _ _ _ _ _ reached once not_lost in_time) as (w1 & u0 & B & ps & R & _ & V).
  rewrite before_subscribing in R. injection R as <-.
  exact (handled_newest u0 w B _ ps f polled w' V finalized up_to_date handles n).
Qed.
End Handled.

(* ---- a case: a block with a log is replaced by two others before it is finalized ---- *)
Definition start : list (list N) := [[5]; []]%N.
Definition ex_pre : list act := [Begin].
Definition ex_post : list act :=
  [Mine [6]%N; OnEvent; Poll; OnFinal; Reorg 2; Mine [7; 8]%N; Mine [9]%N; OnEvent; OnEvent; OnEvent; OnEvent; Finalize 3; Poll].
Lemma runs (P : world -> Prop) chain final acts :
  match run chain final acts with Some w => P w | None => False end -> exists w, run chain final acts = Some w /\ P w.
Proof. destruct (run chain final acts) as [w|]; [intros H; now exists w|intros []]. Qed.
Example ex_run :
  exists w, run start 0 (ex_pre ++ Subscribe :: ex_post ++ [OnFinal]) = Some w /\
    w_emitted w = [5; 8; 9]%N /\ w_chain w = [[5]; []; [7; 8]; [9]]%N.
Proof. apply runs. vm_compute. auto. Qed.
(* executable form of [timely], for the examples *)
Fixpoint in_timeb (w : world) (acts : list act) : bool :=
  match acts with
  | [] => true
  | a :: acts' =>
      (match a, w_polled w with
       | OnFinal, f :: _ => forallb (fun e => match e with Removed n _ => f <? n | _ => true end) (w_queue w)
       | _, _ => true
       end) && match step w a with Some w' => in_timeb w' acts' | None => true end
  end.
Lemma in_timeb_ok acts : forall w, in_timeb w acts = true -> forall pre post w' f polled n u,
  acts = pre ++ OnFinal :: post -> run_from w pre = Some w' -> w_polled w' = f :: polled ->
  In (Removed n u) (w_queue w') -> f < n.
Proof.
  induction acts as [|a acts IH]; intros w H pre post w' f polled n u E R Hp Hin; [destruct pre; discriminate|].
  cbn [in_timeb] in H. apply andb_true_iff in H. destruct H as [H1 H2]. destruct pre as [|b pre].
  - injection E as -> _. injection R as <-. rewrite Hp in H1. rewrite forallb_forall in H1.
    specialize (H1 _ Hin). cbn in H1. now apply Nat.ltb_lt.
  - injection E as <- E. cbn [run_from] in R. destruct (step w a) as [w1|]; [|discriminate]. eapply IH; eauto.
Qed.
Lemma timely_ok chain final acts : in_timeb (init chain final) acts = true -> timely chain final acts.
Proof.
  intros H pre post w f polled n u E R. unfold run in R. destruct (final <? length chain); [|discriminate].
  eapply in_timeb_ok; eauto.
Qed.
Example ex_hypotheses :
  ~ In Subscribe ex_pre /\ unbroken ex_post /\ timely start 0 (ex_pre ++ Subscribe :: ex_post) /\
  seen_from 2 ex_post = 2.
Proof.
  split; [intros [X|[]]; discriminate|]. split; [unfold unbroken; cbn; intuition discriminate|].
  split; [apply timely_ok; reflexivity|reflexivity].
Qed.

(* ---- what does not hold ---- *)
(* A subscription lost while blocks are replaced: a state is reported that no block of the chain ever
   logs again. *)
Theorem C70_stale_refuted :
  exists chain final acts w,
    run chain final acts = Some w /\ timely chain final acts /\
    last_opt (w_emitted w) = Some 6%N /\ ~ In 6%N (concat (w_chain w)) /\ w_queue w = [].
Proof.
  set (acts := [Begin; Subscribe; Mine [6]%N; OnEvent; Lose; Reorg 2; Subscribe; Mine []; Finalize 2; Poll; OnFinal]).
  destruct (runs (fun w => last_opt (w_emitted w) = Some 6%N /\ (~ In 6%N (concat (w_chain w))) /\ w_queue w = []) start 0 acts)
    as (w & R & P).
  - vm_compute. split; [reflexivity|]. split; [|reflexivity]. intuition discriminate.
  - exists start, 0, acts, w. split; [exact R|]. split; [apply timely_ok; reflexivity|exact P].
Qed.

(* A state logged before subscribing, by a block not finalized by then, is never reported. *)
Theorem C70_missed_refuted :
  exists chain final post w,
    run chain final ([Begin] ++ Subscribe :: post) = Some w /\ unbroken post /\
    timely chain final ([Begin] ++ Subscribe :: post) /\
    w_queue w = [] /\ w_polled w = [] /\ w_final w = length (w_chain w) - 1 /\
    last_opt (w_emitted w) = Some 5%N /\ state_at (w_chain w) (w_final w) = Some 6%N.
Proof.
  set (post := [Finalize 1; Poll; OnFinal]).
  destruct (runs (fun w => w_queue w = [] /\ w_polled w = [] /\ w_final w = length (w_chain w) - 1 /\
                           last_opt (w_emitted w) = Some 5%N /\ state_at (w_chain w) (w_final w) = Some 6%N)
                 [[5]; [6]]%N 0 ([Begin] ++ Subscribe :: post)) as (w & R & P).
  - vm_compute. auto 10.
  - exists [[5]; [6]]%N, 0, post, w. split; [exact R|]. split; [unfold unbroken; cbn; intuition discriminate|].
    split; [apply timely_ok; reflexivity|exact P].
Qed.

(* The removal handled after the finalized block: a state is reported that the finalized chain does not
   have. *)
Theorem C70_untimely_refuted :
  exists chain final post w,
    run chain final ([Begin] ++ Subscribe :: post) = Some w /\ unbroken post /\
    last_opt (w_emitted w) = Some 6%N /\ ~ In 6%N (concat (w_chain w)).
Proof.
  set (post := [Mine [6]%N; OnEvent; Reorg 2; Mine []; Finalize 2; Poll; OnFinal; OnEvent]).
  destruct (runs (fun w => last_opt (w_emitted w) = Some 6%N /\ ~ In 6%N (concat (w_chain w)))
                 start 0 ([Begin] ++ Subscribe :: post)) as (w & R & P).
  - vm_compute. split; [reflexivity|]. intuition discriminate.
  - exists start, 0, post, w. split; [exact R|]. split; [unfold unbroken; cbn; intuition discriminate|exact P].
Qed.

Print Assumptions C70_first.
Print Assumptions C70_sound.
Print Assumptions C70_complete.
Print Assumptions C70_newest.
Print Assumptions C70_stale_refuted.
Print Assumptions C70_missed_refuted.
Print Assumptions C70_untimely_refuted.
