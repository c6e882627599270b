(* C71: headers synced from peers down from an L1 checkpoint are those of the chain L1 vouches for.

   [T] is that chain; peers may send anything, and the node may stop at any point. *)
From Coq Require Import List Arith NArith Bool Lia.
From Verif Require Import HeaderSyncModel HeaderSyncSpec HeaderSyncProof.
Import ListNotations.

Section Synced.
Variables (e : env) (T : nat -> header) (acts : list act) (s : state).
Hypothesis hash_binds : binding e.
Hypothesis on_l1 : chain e T.
Hypothesis l1_consistent : truthful T acts.
Hypothesis reached : run e acts = Some s.

Let V : inv e T s := inv_run e T hash_binds on_l1 acts init s (init_inv e T) l1_consistent reached.

(* No header that is not of the chain is ever stored at or below the anchor. *)
Theorem C71_anchored a ah n h :
  s_anchor s = Some (a, ah) -> n <= a -> row (s_table s) n = Some h -> h = T n.
Proof.
  intros A Hn H. apply row_some in H. destruct H as [H <-]. destruct (i_anchor _ _ _ V a ah A) as (_ & O & _). now apply O.
Qed.

(* When the headers are done, all of them up to the checkpoint are stored, and they stay so while newer
   blocks are tracked. *)
Theorem C71_complete c : s_proc s = Done c -> synced T (s_table s) (fst c).
Proof.
  intros P. pose proof (i_proc _ _ _ V) as X. rewrite P in X. destruct X as [_ X].
  exact (full_synced e T on_l1 _ _ (i_unique _ _ _ V) X).
Qed.
Theorem C71_kept next parent a ah :
  s_proc s = Tracking next parent -> s_anchor s = Some (a, ah) -> synced T (s_table s) a.
Proof.
  intros P A. pose proof (i_proc _ _ _ V) as X. rewrite P in X. destruct X as (a' & ah' & h & E & X & _).
  rewrite A in E. injection E as <- _. exact (full_synced e T on_l1 _ _ (i_unique _ _ _ V) X).
Qed.

(* A block is tracked only on top of the stored block that is its parent. *)
Theorem C71_tracked x s' :
  step e s (Track x) = Some s' -> s_proc s' <> Stopped ->
  row (s_table s') (h_number (fst x)) = Some (fst x) /\
  exists g, row (s_table s) (h_number (fst x) - 1) = Some g /\ h_parent (fst x) = h_hash g.
Proof.
  intros H Hs. assert (V' : inv e T s').
  { apply (inv_step e T hash_binds on_l1 s (Track x)); [exact V|exact H|discriminate]. }
  pose proof V as V0. destruct s as [t anchor pr]. cbn [step s_table s_anchor s_proc] in H.
  destruct pr as [| | | | |next parent|]; try discriminate.
  pose proof (i_proc _ _ _ V0) as P. cbn in P. destruct P as (a & ah & h & E & _ & Hh & -> & -> & _).
  unfold forward in H. cbn [fst snd] in H.
  destruct ((h_number (fst x) =? S (h_number h)) && hash_eqb (h_parent (fst x)) (h_hash h)) eqn:Ex; [|discriminate].
  apply andb_true_iff in Ex. destruct Ex as [E1 E2]. apply Nat.eqb_eq in E1. rewrite hash_eqb_true in E2.
  destruct (verify e tt x); [|discriminate]. destruct (insert t (fst x)) as [t'|] eqn:Ei; [|injection H as <-; contradiction].
  injection H as <-. apply insert_some in Ei. destruct Ei as [-> _]. split.
  - apply row_unique; [apply (i_unique _ _ _ V')|now left].
  - exists h. cbn [s_table]. split; [|exact E2]. rewrite E1. replace (S (h_number h) - 1) with (h_number h) by lia.
    apply row_unique; [exact (i_unique _ _ _ V0)|exact Hh].
Qed.

(* Peers that send the headers asked for fill the gap. *)
Theorem C71_served c g received :
  (forall n, e_db e n = None) -> s_proc s = Headers c -> next_gap (s_table s) (fst c) (snd c) = Some g ->
  map fst received = asked T g -> Forall (fun x => e_signed e (h_hash (fst x)) (snd x) = true) received ->
  exists k s', run_from e s (FindGap received :: repeat Advance k) = Some s' /\ s_proc s' = Headers c /\
    forall n, g_tail g <= n <= g_head g -> row (s_table s') n = Some (T n).
Proof. intros D. exact (served e T hash_binds on_l1 D s c g received V). Qed.
End Synced.

(* ---- a case ---- *)
(* a hash that is its preimage *)
Definition ex_hash (n : nat) (parent : hash) (body : N) : hash := N.of_nat n :: body :: parent.
Definition ex_env : env :=
  Env (fun h => ex_hash (h_number h) (h_parent h) (h_body h)) (fun _ => None) (fun _ sig => N.eqb sig 1) 2.
Definition mk (n : nat) (parent : hash) (body : N) : header := Header n (ex_hash n parent body) parent body.
Fixpoint ex_chain (n : nat) : header :=
  match n with O => mk 0 [] 7%N | S m => mk n (h_hash (ex_chain m)) 7%N end.
Example ex_binding : binding ex_env.
Proof.
  intros g h H. cbn in H. unfold ex_hash in H. injection H as H1 H2 H3. repeat split; auto. now apply Nnat.Nat2N.inj.
Qed.
Example ex_is_chain : chain ex_env ex_chain.
Proof.
  split; intros n; [now destruct n|reflexivity|]. unfold verify_hash. apply hash_eqb_true. destruct n; reflexivity.
Qed.
Definition true_headers (l : list nat) : list signed_header := map (fun n => (ex_chain n, 1%N)) l.
Definition c4 : checkpoint := (4, h_hash (ex_chain 4)).
(* a wrong header in the middle of the gap, a crash, the rest of the gap *)
Definition ex_acts : list act :=
  [Start c4; SaveAnchor;
   FindGap (true_headers [4; 3] ++ [(mk 2 [] 8%N, 1%N)] ++ true_headers [1; 0]); Advance; Advance;
   Start c4; SaveAnchor; FindGap (true_headers [2; 1; 0]); Advance; Crash;
   Start c4; SaveAnchor; FindGap (true_headers [0]); Advance; Advance; FindGap []].
Lemma runs (P : state -> Prop) e acts :
  match run e acts with Some s => P s | None => False end -> exists s, run e acts = Some s /\ P s.
Proof. destruct (run e acts) as [s|]; [intros H; now exists s|intros []]. Qed.
Example ex_run : exists s, run ex_env ex_acts = Some s /\ s_proc s = Done c4 /\ length (s_table s) = 5.
Proof. apply runs. vm_compute. auto. Qed.
Example ex_truthful : truthful ex_chain ex_acts.
Proof. intros c H. cbn in H. repeat (destruct H as [H|H]; [try discriminate; injection H as <-; reflexivity|]). destruct H. Qed.

(* ---- what does not hold ---- *)
(* A checkpoint that contradicts the local chain removes the local blocks only up to its own number.  The
   blocks above stay, do not link to the chain, and tracking continues on top of them: no block of the
   chain can follow. *)
Definition f1 : header := mk 1 (h_hash (ex_chain 0)) 9%N.
Definition f2 : header := mk 2 (h_hash f1) 9%N.
Definition c_at (n : nat) : checkpoint := (n, h_hash (ex_chain n)).
Definition stale_acts : list act :=
  [Start (c_at 0); SaveAnchor; FindGap (true_headers [0]); Advance; Advance; FindGap []; Finish;
   Track (f1, 1%N); Track (f2, 1%N); Crash;
   Start (c_at 1); SaveAnchor; FindGap (true_headers [1]); Advance; Advance; FindGap []; Finish].
Theorem C71_stale_refuted :
  exists e T acts s next parent g h,
    binding e /\ chain e T /\ truthful T acts /\ run e acts = Some s /\ s_proc s = Tracking next parent /\
    row (s_table s) 1 = Some g /\ row (s_table s) 2 = Some h /\ h_parent h <> h_hash g /\
    forall sig, step e s (Track (T next, sig)) = None.
Proof.
  destruct (runs (fun s => s_proc s = Tracking 3 (h_hash f2) /\ row (s_table s) 1 = Some (ex_chain 1) /\ row (s_table s) 2 = Some f2)
                 ex_env stale_acts) as (s & R & P1 & P2 & P3).
  - vm_compute. auto.
  - exists ex_env, ex_chain, stale_acts, s, 3, (h_hash f2), (ex_chain 1), f2.
    split; [exact ex_binding|]. split; [exact ex_is_chain|]. split.
    { intros c H. cbn in H. repeat (destruct H as [H|H]; [try discriminate; injection H as <-; reflexivity|]). destruct H. }
    split; [exact R|]. split; [exact P1|]. split; [exact P2|]. split; [exact P3|]. split; [vm_compute; discriminate|].
    intros sig. destruct s as [t an pr]. cbn in P1. subst pr. cbn [step s_proc]. unfold forward. cbn [fst snd].
    replace (hash_eqb (h_parent (ex_chain 3)) (h_hash f2)) with false by (vm_compute; reflexivity). now rewrite andb_false_r.
Qed.

Print Assumptions C71_anchored.
Print Assumptions C71_complete.
Print Assumptions C71_kept.
Print Assumptions C71_tracked.
Print Assumptions C71_served.
Print Assumptions C71_stale_refuted.
