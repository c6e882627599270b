(* C72: tracking the head over p2p stores the blocks whose headers arrive, and only their data. *)
From Coq Require Import List Arith NArith Bool Lia.
From Verif Require Import TrackModel TrackSpec TrackChecks TrackProof TrackLive TrackHonest.
Import ListNotations.

Lemma reached e cap first acts s : run e cap first acts = Some s -> inv e first s /\ src_ok s acts.
Proof.
  intros H. split.
  - exact (inv_run_from e first cap acts (init first) s (inv_init e first) H).
  - exact (src_run e first cap acts (init first) [] s (inv_init e first) (src_init first) H).
Qed.

(* However peers answer and tasks are scheduled: the i-th block stored is that of the i-th header, with its
   signature; its contents are those the header commits to, and give its state commitment. *)
Theorem C72_stored : forall e cap first acts s i b,
  run e cap first acts = Some s -> nth_error (s_stored s) i = Some b ->
  nth_error (arrived acts) i = Some (b_header b, b_signature b) /\
  belongs e (b_header b) b /\ rooted e (s_stored s) i (b_header b).
Proof.
  intros e cap first acts s i b H Hb. destruct (reached _ _ _ _ _ H) as [V S].
  destruct (stored_belongs e first s i b V Hb) as (p & A & B & R). split; [exact (src_arrived s acts i p _ _ S A)|]. split; assumption.
Qed.

(* The tasks never wait for each other in a circle: when none can go on and none waits for a peer, either
   tracking has ended or all blocks whose headers arrived are stored. *)
Theorem C72_no_deadlock : forall e cap first acts s,
  (forall c, 1 <= cap c) -> run e cap first acts = Some s -> at_rest e cap s ->
  (exists r, s_loc s PStore = Done r) \/ length (s_stored s) = length (arrived acts).
Proof.
  intros e cap first acts s C H Q. destruct (reached _ _ _ _ _ H) as [V S]. exact (rest_stored e first cap C s acts V S Q).
Qed.

(* Nor do they work without end: *)
Theorem C72_bounded : forall e cap first acts s,
  run e cap first acts = Some s -> worked acts <= 64 * length (arrived acts) + 86.
Proof.
  intros e cap first acts s H. destruct (reached _ _ _ _ _ H) as [V S].
  pose proof (phi_run e cap acts (init first) s H) as P.
  assert (B : behind s).
  { apply (behind_run e first cap acts (init first) s); [apply inv_init| |exact H]. intros c. cbn. lia. }
  pose proof (phi_bound e first s V B). pose proof (src_length s acts S).
  assert (phi (init first) = 11) by reflexivity. lia.
Qed.

(* If the headers are those of a chain, and peers answer with its data, tracking does not end, and all
   blocks are stored once the tasks have done what they can. *)
Theorem C72_complete : forall e cap first w acts s,
  (forall c, 1 <= cap c) -> true_headers e w first (arrived acts) -> honestly e cap w (init first) acts ->
  run e cap first acts = Some s ->
  (forall r, s_loc s PStore <> Done r) /\
  (at_rest e cap s -> map (fun b => (b_header b, b_signature b)) (s_stored s) = arrived acts /\
     forall i b, nth_error (s_stored s) i = Some b -> b_diff b = w_diff w (first + N.of_nat i)%N).
Proof.
  intros e cap first w acts s C T A H. destruct (reached _ _ _ _ _ H) as [V S].
  assert (Y : healthy e first w s).
  { apply (healthy_run e first cap w acts (init first) [] s); auto; [apply inv_init|apply src_init|apply healthy_init]. }
  assert (N : forall r, s_loc s PStore <> Done r).
  { intros r El. pose proof (y_loc _ _ _ _ Y PStore) as X. rewrite El in X. exact X. }
  split; [exact N|]. intros Q. split.
  - destruct (rest_stored e first cap C s acts V S Q) as [[r El]|L]; [now destruct (N r)|].
    assert (P : forall i b, nth_error (s_stored s) i = Some b -> nth_error (arrived acts) i = Some (b_header b, b_signature b)).
    { intros i b Hb. apply (C72_stored e cap first acts s i b H Hb). }
    revert P L. generalize (arrived acts). generalize (s_stored s). clear. intros l.
    induction l as [|b l IH]; intros [|x a] P L; try discriminate; [reflexivity|]. cbn. f_equal.
    + specialize (P 0 b eq_refl). cbn in P. congruence.
    + apply IH; [|now injection L]. intros i b' Hb. apply (P (S i) b' Hb).
  - intros i b Hb. pose proof (diffs_stored e first w s V Y) as D.
    assert (K : nth_error (map b_diff (s_stored s)) i = Some (b_diff b)) by (rewrite nth_error_map, Hb; reflexivity).
    rewrite D, nth_error_map in K. assert (Li : i < length (s_stored s)) by (apply nth_error_Some; congruence).
    assert (Ks : nth_error (seq 0 (length (s_stored s))) i = Some i).
    { rewrite (nth_error_nth' _ 0) by now rewrite seq_length. now rewrite seq_nth. }
    rewrite Ks in K. cbn in K. congruence.
Qed.

(* ---- a run ---- *)
Definition ex_env (casm : N) : env :=
  {| e_address := fun b => b; e_tx_hash := fun b => (b + 100)%N;
     e_tx_commitment := fun l v => fold_right (fun t a => (t_hash t + 2 * a)%N) v l;
     e_event_commitment := fun l v => fold_right (fun x a => (fst x + fold_right N.add 0%N (snd x) + 2 * a)%N) v l;
     e_diff_commitment := fun d => (d_rest d + 5)%N;
     e_class_hash := fun d => match d with Cairo x => Some (x + 1)%N | Sierra x => Some (x + 2)%N end;
     e_casm := fun c d => Some casm;
     e_root := fun l v => fold_right (fun d a => (d_rest d + a)%N) 0%N l |}.
Definition ex_tx : tx := Tx 107 7.
Definition ex_diff : diff := Diff 4 [] [(32, 555)]%N.
Definition ex_hdr (n root : N) : hdr :=
  {| hd_number := n; hd_hash := 1000 + n; hd_version := 1; hd_root := root; hd_tx_count := 1; hd_tx_commitment := 109;
     hd_receipt_commitment := 66; hd_event_count := 2; hd_event_commitment := 112; hd_diff_commitment := 9 |}%N.
(* [r]: the contents of the receipt *)
Definition ex_world (r : N) : world :=
  {| w_txs := fun _ => [(ex_tx, r)]; w_events := fun _ => [(107, 1); (107, 2)]%N;
     w_diff := fun _ => ex_diff; w_classes := fun _ => [(32, Sierra 30)]%N |}.
Definition ex_cap (c : cid) : nat := 1.
(* a step, or the answer of an honest peer [q] for block [n] *)
Inductive plan_act := Just (a : act) | World (p : pid) (q : peer) (n : N).
Definition world_answer (w : world) (p : pid) (q : peer) (n : N) : answer :=
  match p with
  | PTxs => ATxs q (map Some (w_txs w n))
  | PEvents => AEvents q (map Some (w_events w n))
  | PDiff => ADiff q (Some (w_diff w n))
  | _ => AClasses q (Some (w_classes w n))
  end.
Definition acts_of (w : world) (l : list plan_act) : list act :=
  map (fun x => match x with Just a => a | World p q n => Answer p (world_answer w p q n) end) l.
Fixpoint honest_plan (e : env) (cap : cid -> nat) (w : world) (s : state) (l : list plan_act) : bool :=
  match l with
  | [] => true
  | x :: l' =>
      match x with
      | Just (Arrive (IErr _)) | Just NoMore | Just (Answer _ _) => false
      | Just _ => true
      | World p q n => match prog e (s_loc s p) with Ask r _ => N.eqb (snd r) n | _ => false end
      end &&
      match step e cap s (match x with Just a => a | World p q n => Answer p (world_answer w p q n) end) with
      | Some s' => honest_plan e cap w s' l'
      | None => false
      end
  end.
Lemma honest_planned e cap w l : forall s, honest_plan e cap w s l = true -> honestly e cap w s (acts_of w l).
Proof.
  induction l as [|x l IH]; intros s H; [exact Coq.Init.Logic.I|]. cbn [honest_plan] in H. apply andb_prop in H. destruct H as [H1 H2].
  cbn [acts_of map honestly]. split.
  - destruct x as [a|p q n].
    + destruct a as [[]| | |]; try discriminate; exact Coq.Init.Logic.I.
    + intros r k E. rewrite E in H1. apply N.eqb_eq in H1. rewrite H1. destruct p; reflexivity.
  - destruct (step e cap s _) as [s'|]; [|exact Coq.Init.Logic.I]. exact (IH s' H2).
Qed.
Definition resting (e : env) (cap : cid -> nat) (s : state) : bool :=
  forallb (fun p =>
    match step e cap s (Run p) with Some _ => false | None => match prog e (s_loc s p) with Ask _ _ => false | _ => true end end)
    all_pids.
Lemma resting_rest e cap s : resting e cap s = true -> at_rest e cap s.
Proof.
  unfold resting. intros H p. rewrite forallb_forall in H. assert (Hp : In p all_pids) by (destruct p; cbn; tauto).
  specialize (H p Hp). destruct (step e cap s (Run p)); [discriminate|]. split; [reflexivity|].
  intros r k E. rewrite E in H. discriminate.
Qed.
Definition ex_fetch (n : N) : list plan_act :=
  repeat (Just (Run PHeaders)) 5 ++
  [Just (Run PTxs); World PTxs 1%N n; Just (Run PTxs)] ++ repeat (Just (Run PTxFan)) 3 ++
  [Just (Run PEvents); Just (Run PEvents); World PEvents 2%N n; Just (Run PEvents)] ++
  [Just (Run PDiff); World PDiff 3%N n; Just (Run PDiff)] ++ repeat (Just (Run PDiffFan)) 4 ++
  [Just (Run PClasses); World PClasses 4%N n; Just (Run PClasses)] ++ repeat (Just (Run PDeclared)) 3 ++
  repeat (Just (Run PJoin)) 6 ++ [Just (Run PStore); Just (Run PStore)].
Definition ex_plan : list plan_act :=
  Just (Arrive (IHeader 9%N (ex_hdr 3 4) 77%N)) :: ex_fetch 3 ++ Just (Arrive (IHeader 9%N (ex_hdr 4 8) 78%N)) :: ex_fetch 4.
Definition ex_acts (r : N) : list act := acts_of (ex_world r) ex_plan.
Lemma runs (P : state -> Prop) e cap first acts :
  match run e cap first acts with Some s => P s | None => False end -> exists s, run e cap first acts = Some s /\ P s.
Proof. destruct (run e cap first acts) as [s|]; [eauto|contradiction]. Qed.

Example ex_stored : exists s, run (ex_env 1) ex_cap 3 (ex_acts 50) = Some s /\
  map (fun b => hd_number (b_header b)) (s_stored s) = [3; 4]%N /\
  map b_events (s_stored s) = [[[1; 2]]; [[1; 2]]]%N /\
  map b_classes (s_stored s) = [[(32, Sierra 30, Some 1)]; [(32, Sierra 30, Some 1)]]%N /\
  at_rest (ex_env 1) ex_cap s.
Proof.
  destruct (runs (fun s => (map (fun b => hd_number (b_header b)) (s_stored s), map b_events (s_stored s), map b_classes (s_stored s),
      resting (ex_env 1) ex_cap s) =
    ([3; 4]%N, [[[1; 2]]; [[1; 2]]]%N, [[(32, Sierra 30, Some 1)]; [(32, Sierra 30, Some 1)]]%N, true)) (ex_env 1) ex_cap 3 (ex_acts 50))
    as (s & E & X); [vm_compute; reflexivity|].
  injection X as X1 X2 X3 X4. exists s. repeat (split; [assumption|]). exact (resting_rest _ _ _ X4).
Qed.
Example ex_true : true_headers (ex_env 1) (ex_world 50) 3 (arrived (ex_acts 50)) /\ honestly (ex_env 1) ex_cap (ex_world 50) (init 3) (ex_acts 50).
Proof.
  split.
  - intros i h sig H.
    assert (X : (i = 0 /\ h = ex_hdr 3 4) \/ (i = 1 /\ h = ex_hdr 4 8)).
    { vm_compute in H. destruct i as [|[|[|i]]]; injection H as <- <- || discriminate; [left|right]; split; reflexivity. }
    assert (Y : forall n r, describes (ex_env 1) (ex_world 50) (ex_hdr n r)).
    { intros n r. unfold describes. cbn -[N.add].
      split; [reflexivity|]. split; [intros t [<-|[]]; reflexivity|]. split; [reflexivity|]. split; [reflexivity|].
      split; [repeat constructor; intros []|]. split; [intros x [<-|[<-|[]]]; left; reflexivity|].
      split; [reflexivity|]. split; [reflexivity|]. split; [repeat constructor; intros []|].
      split; [intros c; split; [intros []|intros (d & [X0|[]]); discriminate]|].
      split; [intros c; split; [intros [<-|[]]; eauto|intros (d & [X0|[]]); injection X0 as <- <-; now left]|].
      split; [intros c d [X0|[]]; injection X0 as <- <-; reflexivity|]. intros c d _. discriminate. }
    destruct X as [[-> ->]|[-> ->]]; (split; [reflexivity|split; [apply Y|reflexivity]]).
  - apply honest_planned. vm_compute. reflexivity.
Qed.

(* Expected, but not so: when a peer answers with bad data, tracking ends with an error that says so.  If the
   transactions are bad, it may end with no error: the source of events stops for want of the hashes of
   transactions, and its end is noticed before the error. *)
Theorem C72_error_lost_refuted : exists e cap first acts s,
  (forall c, 1 <= cap c) /\ run e cap first acts = Some s /\
  In (Answer PTxs (ATxs 13%N [])) acts /\ ~ In NoMore acts /\
  length (arrived acts) = 1 /\ s_stored s = [] /\ s_loc s PStore = Done None.
Proof.
  exists (ex_env 1), ex_cap, 3%N,
    (Arrive (IHeader 9%N (ex_hdr 3 4) 77%N) :: repeat (Run PHeaders) 5 ++ [Run PTxs; Answer PTxs (ATxs 13%N []); Run PTxs] ++
     repeat (Run PTxFan) 2 ++ repeat (Run PEvents) 2 ++ [Run PJoin; Run PJoin; Run PStore]).
  destruct (runs (fun s => s_stored s = [] /\ s_loc s PStore = Done None) (ex_env 1) ex_cap 3
    (Arrive (IHeader 9%N (ex_hdr 3 4) 77%N) :: repeat (Run PHeaders) 5 ++ [Run PTxs; Answer PTxs (ATxs 13%N []); Run PTxs] ++
     repeat (Run PTxFan) 2 ++ repeat (Run PEvents) 2 ++ [Run PJoin; Run PJoin; Run PStore])) as (s & E & S1 & S2).
  { vm_compute. split; reflexivity. }
  exists s. split; [intros c; unfold ex_cap; lia|]. split; [exact E|].
  split; [cbn; intuition|]. split; [cbn; intros X; repeat (destruct X as [X|X]; [discriminate|]); exact X|].
  split; [reflexivity|]. split; assumption.
Qed.
(* Nor are receipts compared to the commitment of the header: for the same headers and the same
   transactions two peers may have different ones stored. *)
Theorem C72_receipts_refuted : exists e cap first acts1 acts2 s1 s2 b1 b2,
  run e cap first acts1 = Some s1 /\ run e cap first acts2 = Some s2 /\ arrived acts1 = arrived acts2 /\
  nth_error (s_stored s1) 0 = Some b1 /\ nth_error (s_stored s2) 0 = Some b2 /\
  map fst (b_txs b1) = map fst (b_txs b2) /\ b_events b1 = b_events b2 /\
  map (fun x => r_body (snd x)) (b_txs b1) <> map (fun x => r_body (snd x)) (b_txs b2).
Proof.
  set (at0 := fun r (s : state) => exists b, nth_error (s_stored s) 0 = Some b /\ map fst (b_txs b) = [ex_tx] /\ b_events b = [[1; 2]]%N /\
    map (fun x => r_body (snd x)) (b_txs b) = [r]).
  destruct (runs (at0 50%N) (ex_env 1) ex_cap 3 (ex_acts 50)) as (s1 & E1 & b1 & B1 & B2 & B3 & B4).
  { vm_compute. eexists. repeat split. }
  destruct (runs (at0 51%N) (ex_env 1) ex_cap 3 (ex_acts 51)) as (s2 & E2 & b2 & C1 & C2 & C3 & C4).
  { vm_compute. eexists. repeat split. }
  exists (ex_env 1), ex_cap, 3%N, (ex_acts 50), (ex_acts 51), s1, s2, b1, b2.
  repeat (split; [assumption || reflexivity|]). split; [congruence|]. split; [congruence|]. rewrite B4, C4. discriminate.
Qed.
(* Nor is the compiled class that is stored compared to the hash it is declared with: any will do. *)
Theorem C72_casm_refuted : exists h sig, forall casm, exists e cap first acts s b,
  run e cap first acts = Some s /\ nth_error (arrived acts) 0 = Some (h, sig) /\ nth_error (s_stored s) 0 = Some b /\
  d_sierra (b_diff b) = [(32, 555)]%N /\ b_classes b = [(32, Sierra 30, Some casm)]%N.
Proof.
  exists (ex_hdr 3 4), 77%N. intros casm.
  destruct (runs (fun s => exists b, nth_error (s_stored s) 0 = Some b /\ d_sierra (b_diff b) = [(32, 555)]%N /\
    b_classes b = [(32, Sierra 30, Some casm)]%N) (ex_env casm) ex_cap 3 (ex_acts 50)) as (s & E & b & B1 & B2 & B3).
  { vm_compute. eexists. repeat split. }
  exists (ex_env casm), ex_cap, 3%N, (ex_acts 50), s, b. repeat (split; [assumption || reflexivity|]). assumption.
Qed.

Print Assumptions C72_stored.
Print Assumptions C72_no_deadlock.
Print Assumptions C72_bounded.
Print Assumptions C72_complete.
Print Assumptions C72_error_lost_refuted.
Print Assumptions C72_receipts_refuted.
Print Assumptions C72_casm_refuted.
