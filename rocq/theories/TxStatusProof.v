(** Proofs about transaction status subscriptions. *)
From Coq Require Import List Bool Arith NArith Lia.
From Verif Require Import TxStatusModel TxStatusSpec.
Import ListNotations.

Lemma progress_num f : as_num f = progress f.
Proof. now destruct f. Qed.

Lemma no_reorg_nil : no_reorg [].
Proof. intros n []. Qed.
Lemma no_reorg_app a b : no_reorg a -> no_reorg b -> no_reorg (a ++ b).
Proof. intros A B n H. apply in_app_iff in H. destruct H; [eapply A|eapply B]; eauto. Qed.
Lemma no_reorg_one b f e : no_reorg [Status b f e].
Proof. intros n [H|[]]. discriminate. Qed.
Lemma no_reorg_app_l a b : no_reorg (a ++ b) -> no_reorg a.
Proof. intros H n I. apply (H n). apply in_app_iff. auto. Qed.

Lemma snoc_split {A} (l : list A) x pre m post : l ++ [x] = pre ++ m :: post ->
  (post = [] /\ pre = l /\ m = x) \/ exists post', post = post' ++ [x] /\ l = pre ++ m :: post'.
Proof.
  intros E. destruct (@exists_last A (m :: post) ltac:(discriminate)) as (q & y & Eq).
  rewrite Eq, app_assoc in E. apply app_inj_tail in E. destruct E as [-> ->].
  destruct q as [|m' q]; cbn in Eq; injection Eq as -> ->.
  - left. now rewrite app_nil_r.
  - right. eauto.
Qed.

Lemma find_receipt_in tx rs e : find_receipt tx rs = Some e -> In (tx, e) rs.
Proof.
  induction rs as [|[h x] rs IH]; cbn; [discriminate|]. destruct (N.eqb_spec h tx) as [->|_].
  - intros [= ->]. now left.
  - auto.
Qed.
Lemma find_receipt_some tx rs e : In (tx, e) rs -> find_receipt tx rs <> None.
Proof.
  induction rs as [|[h x] rs IH]; cbn; [intros []|]. intros [H|H]; destruct (N.eqb_spec h tx); try discriminate; auto.
  congruence.
Qed.
Lemma in_chain_stored tx : forall chain n e, in_chain tx chain = Some (n, e) ->
  exists rs, nth_error chain n = Some rs /\ In (tx, e) rs.
Proof.
  induction chain as [|rs chain IH]; intros n e; cbn; [discriminate|].
  destruct (find_receipt tx rs) as [x|] eqn:F.
  - intros [= <- <-]. exists rs. split; auto. now apply find_receipt_in.
  - destruct (in_chain tx chain) as [[m x]|]; [|discriminate]. intros [= <- <-]. cbn. auto.
Qed.
Lemma in_chain_some tx : forall chain n rs e, nth_error chain n = Some rs -> In (tx, e) rs ->
  in_chain tx chain <> None.
Proof.
  induction chain as [|rs' chain IH]; intros n rs e; [destruct n; discriminate|]. intros E I. cbn.
  destruct (find_receipt tx rs') eqn:F; [discriminate|]. destruct n as [|n]; cbn in E.
  - injection E as ->. apply find_receipt_some in I. congruence.
  - destruct (in_chain tx chain) as [[m x]|] eqn:G; [discriminate|]. exfalso. eapply IH; eauto.
Qed.
Lemma in_chain_app tx a b : in_chain tx a <> None -> in_chain tx (a ++ b) <> None.
Proof.
  induction a as [|rs a IH]; cbn; [congruence|]. destruct (find_receipt tx rs); [discriminate|].
  destruct (in_chain tx a) as [[m x]|]; [|congruence]. intros _.
  destruct (in_chain tx (a ++ b)) as [[m' x']|]; [discriminate|]. intros _. apply IH; [discriminate|reflexivity].
Qed.

Section Inv.
  Variable tx : N.
  Variable w0 : world.
  Hypothesis W0 : consistent w0.

  Local Notation after := (after tx w0).
  Local Notation moment := (at_some_moment tx w0).

  Lemma after_snoc ls l : after (ls ++ [l]) = step tx (after ls) l.
  Proof. unfold TxStatusSpec.after, run. now rewrite fold_left_app. Qed.

  Lemma moment_more ls l pre rest (P : world -> Prop) : moment ls pre P -> no_reorg rest -> moment (ls ++ [l]) (pre ++ rest) P.
  Proof.
    intros (l1 & l2 & r & -> & -> & N & H) R. exists l1, (l2 ++ [l]), (r ++ rest).
    rewrite <- !app_assoc. split; auto. split; auto. split; auto. now apply no_reorg_app.
  Qed.
  Lemma moment_here ls l rest (P : world -> Prop) : P (s_world (after ls)) -> no_reorg rest ->
    moment (ls ++ [l]) (s_sent (after ls) ++ rest) P.
  Proof. intros H N. exists ls, [l], rest. auto. Qed.
  Lemma moment_pre ls pre rest (P : world -> Prop) : moment ls pre P -> no_reorg rest -> moment ls (pre ++ rest) P.
  Proof.
    intros (l1 & l2 & r & -> & -> & N & H) R. exists l1, l2, (r ++ rest).
    rewrite <- !app_assoc. split; auto. split; auto. split; auto. now apply no_reorg_app.
  Qed.
  Lemma moment_imp ls pre (P Q : world -> Prop) : (forall w, P w -> Q w) -> moment ls pre P -> moment ls pre Q.
  Proof. intros I (l1 & l2 & r & E1 & E2 & N & H). exists l1, l2, r. auto. Qed.

  (** What is proved of a message: for acceptance on L1, that the transaction was in a block
      or pre-confirmed, the latter only if the message before says so. *)
  Definition ok (ls : list label) (pre : list message) (m : message) : Prop :=
    match m with
    | Status n AcceptedOnL1 e =>
        moment ls pre (fun w => w_l1 w = Some n) /\
        exists x b, e = Some x /\ b <= n /\
          (moment ls pre (fun w => stored tx w b x) \/
           moment ls pre (fun w => pre_confirmed tx w b x) /\
           exists p e', pre = p ++ [Status b PreConfirmed e'])
    | _ => true_message tx w0 ls pre m
    end.

  Definition reorg_real (ls : list label) : Prop := (exists n, In (Reorg n) ls) \/ w_todo w0 = Some NewReorg.

  Record Inv (ls : list label) (s : state) : Prop := mkInv {
    i_todo : consistent (s_world s);
    i_todo_reorg : w_todo (s_world s) = Some NewReorg -> reorg_real ls;
    i_reorgs : s_reorgs s <> 0 -> reorg_real ls;
    i_queue : forall n rs, In (n, rs) (s_blocks s) ->
                moment ls (s_sent s) (fun w => nth_error (w_chain w) n = Some rs);
    i_sender : match last_finality (s_sender s) with
               | Some f => exists p, s_sent s = p ++ [Status (last_block (s_sender s)) f (last_exec (s_sender s))]
               | None => last_exec (s_sender s) = None /\
                         (s_sent s = [] \/ exists p n, s_sent s = p ++ [ReorgSeen n])
               end;
    i_ok : forall pre m post, s_sent s = pre ++ m :: post -> ok ls pre m
  }.

  Lemma reorg_real_more ls l : reorg_real ls -> reorg_real (ls ++ [l]).
  Proof. intros [[n H]|H]; [left; exists n; apply in_app_iff; auto|now right]. Qed.
  Lemma ok_more ls l pre m : ok ls pre m -> ok (ls ++ [l]) pre m.
  Proof.
    assert (M : forall P, moment ls pre P -> moment (ls ++ [l]) pre P).
    { intros P H. rewrite <- (app_nil_r pre). apply moment_more; auto. apply no_reorg_nil. }
    destruct m as [n [| | | | |reason] e|n]; cbn.
    - intros [A B]. auto.
    - intros [A B]. auto.
    - intros (x & A & B). eauto.
    - intros (x & A & B). eauto.
    - intros (A & x & b & B & C & D). split; auto. exists x, b. split; auto. split; auto.
      destruct D as [D|[D E]]; [left|right]; auto.
    - intros [A B]. split; auto. apply in_app_iff. auto.
    - apply reorg_real_more.
  Qed.
  Lemma inv_more ls l s : Inv ls s -> Inv (ls ++ [l]) s.
  Proof.
    intros [A B C D E F]. constructor; auto.
    - intros H. now apply reorg_real_more, B.
    - intros H. now apply reorg_real_more, C.
    - intros n rs H. rewrite <- (app_nil_r (s_sent s)). apply moment_more; [auto|apply no_reorg_nil].
    - intros pre m post H. apply ok_more. eauto.
  Qed.

  Lemma inv_to ls s p : Inv ls s -> Inv ls (to s p).
  Proof. intros [A B C D E F]. constructor; auto. Qed.
  Lemma inv_queues ls s bs r : Inv ls s ->
    (forall n rs, In (n, rs) bs -> moment ls (s_sent s) (fun w => nth_error (w_chain w) n = Some rs)) ->
    (r <> 0 -> reorg_real ls) -> Inv ls (with_queues s bs r).
  Proof. intros [A B C D E F] Q R. constructor; auto. Qed.
  Lemma inv_world ls s w : Inv ls s -> consistent w -> (w_todo w = Some NewReorg -> reorg_real ls) ->
    Inv ls (with_world s w).
  Proof. intros [A B C D E F] Q R. constructor; auto. Qed.

  Lemma ok_append ls s m : (forall pre m post, s_sent s = pre ++ m :: post -> ok ls pre m) ->
    ok ls (s_sent s) m -> forall pre m' post, s_sent s ++ [m] = pre ++ m' :: post -> ok ls pre m'.
  Proof.
    intros F O pre m' post H. apply snoc_split in H. destruct H as [(-> & -> & ->)|(q & -> & H)]; eauto.
  Qed.

  Lemma inv_send ls s n f e : Inv ls s -> ok ls (s_sent s) (Status n f e) -> Inv ls (send s n f e).
  Proof.
    intros I O. unfold send. destruct (match last_finality (s_sender s) with
      | Some l => negb (as_num f <=? as_num l) | None => true end); [|exact I].
    destruct I as [A B C D E F]. constructor; cbn; auto.
    - intros k rs H. apply moment_pre; auto. apply no_reorg_one.
    - eauto.
    - now apply ok_append.
  Qed.
  Lemma send_sent s n f e : exists rest, s_sent (send s n f e) = s_sent s ++ rest /\ no_reorg rest.
  Proof.
    unfold send. destruct (match last_finality (s_sender s) with
      | Some l => negb (as_num f <=? as_num l) | None => true end).
    - exists [Status n f e]. split; auto. apply no_reorg_one.
    - exists []. rewrite app_nil_r. split; auto. apply no_reorg_nil.
  Qed.

  Lemma pending_ok ls l rest n f e : pending_data_tx_status tx (w_pending (s_world (after ls))) = Some (n, f, e) ->
    no_reorg rest -> ok (ls ++ [l]) (s_sent (after ls) ++ rest) (Status n f e).
  Proof.
    intros H N. unfold pending_data_tx_status in H. set (p := w_pending (s_world (after ls))) in *.
    assert (Now : (if existsb (fun h => (h =? tx)%N) (p_candidates p) then Some (p_number p, Candidate, None)
      else match find_receipt tx (p_receipts p) with
           | Some e => Some (p_number p, PreConfirmed, Some e) | None => None end) = Some (n, f, e) ->
      ok (ls ++ [l]) (s_sent (after ls) ++ rest) (Status n f e)).
    { destruct (existsb _ (p_candidates p)) eqn:X.
      - intros [= <- <- <-]. cbn. split; auto. apply moment_here; auto. split; auto.
        apply existsb_exists in X. destruct X as (h & I & Eh). apply N.eqb_eq in Eh. now subst.
      - destruct (find_receipt tx (p_receipts p)) as [x|] eqn:G; [|discriminate]. intros [= <- <- <-]. cbn.
        exists x. split; auto. apply moment_here; auto. right. split; auto. now apply find_receipt_in. }
    destruct (p_pre_latest p) as [[m rs]|] eqn:L; auto.
    destruct (find_receipt tx rs) as [x|] eqn:G; auto. injection H as <- <- <-. cbn.
    exists x. split; auto. apply moment_here; auto. left. exists rs. split; auto. now apply find_receipt_in.
  Qed.

  Lemma db_ok ls l n f e : db_status tx (s_world (after ls)) = Some (n, f, e) ->
    ok (ls ++ [l]) (s_sent (after ls)) (Status n f e).
  Proof.
    intros H. unfold db_status in H. destruct (in_chain tx _) as [[b x]|] eqn:G; [|discriminate].
    apply in_chain_stored in G. rewrite <- (app_nil_r (s_sent (after ls))).
    assert (St : moment (ls ++ [l]) (s_sent (after ls) ++ []) (fun w => stored tx w b x))
      by (apply moment_here; [exact G|apply no_reorg_nil]).
    destruct (w_l1 (s_world (after ls))) as [l1|] eqn:L1; [destruct (Nat.leb_spec b l1)|]; injection H as <- <- <-.
    - split; [apply moment_here; [exact L1|apply no_reorg_nil]|]. exists x, b. auto.
    - cbn. eauto.
    - cbn. eauto.
  Qed.

  Lemma inv_step ls l : Inv ls (after ls) -> Inv (ls ++ [l]) (after (ls ++ [l])).
  Proof.
    intros I0. rewrite after_snoc. assert (I := inv_more ls l _ I0). set (s := after ls) in *.
    assert (T : consistent (s_world s)) by apply I.
    assert (TR : w_todo (s_world s) = Some NewReorg -> reorg_real (ls ++ [l])) by apply I.
    assert (Q : forall n rs, In (n, rs) (s_blocks s) ->
       moment (ls ++ [l]) (s_sent s) (fun w => nth_error (w_chain w) n = Some rs)) by apply I.
    assert (RR : s_reorgs s <> 0 -> reorg_real (ls ++ [l])) by apply I.
    destruct l; cbn [step].
    - destruct (w_todo (s_world s)); auto. apply inv_world; auto; cbn; [|discriminate].
      intros n rs' [= <- <-]. cbn. rewrite nth_error_app2, Nat.sub_diag by lia. reflexivity.
    - destruct (w_todo (s_world s)); auto. apply inv_world; auto; cbn.
      + intros m rs. discriminate.
      + intros _. left. exists n. apply in_app_iff. right. now left.
    - assert (I' : Inv (ls ++ [Announce]) (with_world s (mkWorld (w_chain (s_world s)) None (w_l1 (s_world s))
          (w_pending (s_world s)) (w_tracker (s_world s))))).
      { apply inv_world; auto; [intros m rs|]; discriminate. }
      destruct (w_todo (s_world s)) as [[n rs|]|] eqn:E; auto.
      + destruct (has_blocks (s_phase s)); auto. apply inv_queues; auto. intros m rs' H. apply in_app_iff in H.
        destruct H as [H|[H|[]]]; auto. injection H as <- <-. cbn [with_world s_sent].
        rewrite <- (app_nil_r (s_sent s)). apply moment_here; [|apply no_reorg_nil]. now apply T.
      + destruct (has_reorgs (s_phase s)); auto. apply inv_queues; auto.
    - apply inv_world; auto.
    - apply inv_world; auto.
    - apply inv_world; auto.
    - apply inv_queues; auto. intros n rs H. apply Q. rewrite <- (firstn_skipn k (s_blocks s)). apply in_app_iff. auto.
    - apply inv_queues; auto. intros H. apply RR. lia.
    - destruct (s_phase s); auto. destruct (db_status tx (s_world s)) as [[[n f] e]|] eqn:E.
      + apply inv_to, inv_send; auto. now apply db_ok.
      + now apply inv_to.
    - destruct (s_phase s); auto. apply inv_to.
      destruct (pending_data_tx_status tx (w_pending (s_world s))) as [[[n f] e]|] eqn:E; cbn [send_opt].
      + apply inv_send; auto. rewrite <- (app_nil_r (s_sent s)). apply pending_ok; auto. apply no_reorg_nil.
      + destruct (w_tracker (s_world s)) as [n|] eqn:Tr; cbn [send_opt]; auto.
        apply inv_send; auto. cbn. split; auto. rewrite <- (app_nil_r (s_sent s)).
        apply moment_here; [exact Tr|apply no_reorg_nil].
    - destruct (s_phase s); auto. apply inv_queues; [now apply inv_to|intros n rs []|exact RR].
    - destruct (s_phase s); auto. apply inv_queues; [now apply inv_to|exact Q|congruence].
    - destruct (s_phase s); auto. destruct rejected as [reason|]; auto.
      apply inv_to, inv_send; auto. cbn. split; auto. apply in_app_iff. right. now left.
    - destruct (s_phase s); auto. destruct (s_reorgs s) as [|k] eqn:R; auto.
      destruct I as [A B C D E F]. constructor; cbn; auto.
      + intros n rs [].
      + split; auto. right. eauto.
      + apply ok_append; auto. cbn. apply RR. discriminate.
    - destruct (s_phase s); auto. destruct (s_reorgs s); auto. now apply inv_to.
    - destruct (s_phase s); auto. apply inv_to.
      destruct (pending_data_tx_status tx (w_pending (s_world s))) as [[[n f] e]|] eqn:E; cbn [send_opt]; auto.
      apply inv_send; auto. rewrite <- (app_nil_r (s_sent s)). apply pending_ok; auto. apply no_reorg_nil.
    - destruct (s_phase s); auto. destruct (s_blocks s) as [|[n rs] bs] eqn:Bs; [now apply inv_to|].
      set (s1 := match w_tracker (s_world s) with Some m => send s m Received None | None => s end).
      assert (I1 : Inv (ls ++ [TakeBlock]) s1).
      { unfold s1. destruct (w_tracker (s_world s)) as [m|] eqn:Tr; auto. apply inv_send; auto. cbn. split; auto.
        rewrite <- (app_nil_r (s_sent s)). apply moment_here; [exact Tr|apply no_reorg_nil]. }
      assert (E1 : exists rest, s_sent s1 = s_sent s ++ rest /\ no_reorg rest).
      { unfold s1. destruct (w_tracker (s_world s)) as [m|]; [apply send_sent|].
        exists []. rewrite app_nil_r. split; auto. apply no_reorg_nil. }
      set (s2 := match find_receipt tx rs with Some e => send s1 n AcceptedOnL2 (Some e) | None => s1 end).
      assert (I2 : Inv (ls ++ [TakeBlock]) s2).
      { unfold s2. destruct (find_receipt tx rs) as [e|] eqn:F; auto. apply inv_send; auto. cbn.
        exists e. split; auto. destruct E1 as (rest & -> & N). apply moment_pre; auto.
        apply (moment_imp _ _ (fun w => nth_error (w_chain w) n = Some rs)); [|apply Q; now left].
        intros w H. exists rs. split; auto. now apply find_receipt_in. }
      assert (E2 : exists rest, s_sent s2 = s_sent s ++ rest /\ no_reorg rest).
      { destruct E1 as (r1 & E1 & N1). unfold s2. destruct (find_receipt tx rs) as [e|]; eauto.
        destruct (send_sent s1 n AcceptedOnL2 (Some e)) as (r2 & -> & N2). exists (r1 ++ r2).
        rewrite E1, app_assoc. split; auto. now apply no_reorg_app. }
      apply inv_queues; [now apply inv_to| |exact RR]. intros k rs' H. cbn [to s_sent].
      destruct E2 as (r2 & -> & N2). apply moment_pre; auto. apply Q. now right.
    - destruct (s_phase s); auto. apply inv_to.
      destruct (w_l1 (s_world s)) as [l1|] eqn:L1; auto. destruct (last_exec (s_sender s)) as [e|] eqn:E; auto.
      destruct (Nat.leb_spec (last_block (s_sender s)) l1) as [Le|]; auto.
      assert (Sd := i_sender _ _ I). assert (Ok := i_ok _ _ I). rewrite E in Sd.
      unfold send. destruct (last_finality (s_sender s)) as [f|] eqn:Lf; [|destruct Sd; discriminate].
      destruct (as_num AcceptedOnL1 <=? as_num f) eqn:Cmp; [exact I|].
      assert (X := inv_send (ls ++ [ReadL1]) s l1 AcceptedOnL1 (Some e) I).
      unfold send in X. rewrite Lf, Cmp in X. apply X. clear X.
      destruct Sd as (p & Es). specialize (Ok _ _ _ Es).
      split; [rewrite <- (app_nil_r (s_sent s)); apply moment_here; [exact L1|apply no_reorg_nil]|].
      exists e, (last_block (s_sender s)). split; auto. split; auto. rewrite Es.
      destruct f as [| | | | |reason]; cbn in Ok, Cmp; try discriminate.
      + destruct Ok; discriminate.
      + destruct Ok; discriminate.
      + destruct Ok as (x & [= <-] & M). right. split; [apply moment_pre; auto; apply no_reorg_one|eauto].
      + destruct Ok as (x & [= <-] & M). left. apply moment_pre; auto. apply no_reorg_one.
    - now apply inv_to.
  Qed.

  Lemma inv_start : Inv [] (after []).
  Proof.
    constructor; cbn; auto.
    - intros H. now right.
    - congruence.
    - intros n rs [].
    - intros pre m post H. destruct pre; discriminate.
  Qed.

  Lemma inv_all ls : Inv ls (after ls).
  Proof. induction ls as [|l ls IH] using rev_ind; [apply inv_start|now apply inv_step]. Qed.
End Inv.

(** ** Order *)
Section Order.
  Variable tx : N.

  Record Ord (s : state) : Prop := mkOrd {
    o_order : in_order (s_sent s);
    o_none : last_finality (s_sender s) = None -> s_sent s = [] \/ exists p n, s_sent s = p ++ [ReorgSeen n];
    o_some : forall f, last_finality (s_sender s) = Some f -> exists p b e, s_sent s = p ++ [Status b f e];
    o_end : forall pre b r e post, s_sent s = pre ++ Status b (Rejected r) e :: post ->
              s_phase s = Returned /\ post = []
  }.

  Lemma segment_le s b f e pre mid f' : Ord s -> last_finality (s_sender s) = Some f' ->
    s_sent s = pre ++ Status b f e :: mid -> no_reorg mid -> progress f <= progress f'.
  Proof.
    intros [O _ S _] L E N. destruct (S _ L) as (p & b' & e' & E').
    rewrite E in E'. symmetry in E'. apply snoc_split in E'.
    destruct E' as [(-> & -> & E')|(q & -> & E')]; [injection E' as -> -> ->; lia|].
    assert (progress f < progress f'); [|lia].
    apply (O pre b f e q b' f' e' []); auto. now apply no_reorg_app_l in N.
  Qed.

  (** Sending, other than of a rejection, by a task that has not returned. *)
  Lemma ord_append s n f e p : Ord s -> s_phase s <> Returned ->
    match last_finality (s_sender s) with Some l => progress l < progress f | None => True end ->
    (forall r, f = Rejected r -> p = Returned) ->
    Ord (mkState (s_world s) p (mkSender (Some f) e n) (s_blocks s) (s_reorgs s) (s_sent s ++ [Status n f e])).
  Proof.
    intros O P G R. constructor; cbn.
    - intros pre b1 f1 e1 mid b2 f2 e2 post E N.
      change (pre ++ Status b1 f1 e1 :: mid ++ Status b2 f2 e2 :: post) with
        (pre ++ (Status b1 f1 e1 :: mid) ++ Status b2 f2 e2 :: post) in E. rewrite app_assoc in E.
      apply snoc_split in E. destruct E as [(-> & E & E')|(q & -> & E)].
      + injection E' as -> -> ->. destruct (last_finality (s_sender s)) as [l|] eqn:L.
        * assert (progress f1 <= progress l) by (eapply segment_le; eauto). lia.
        * exfalso. destruct (o_none _ O L) as [Z|(p' & m & Z)]; rewrite Z in E.
          { destruct pre; discriminate. }
          symmetry in E. apply snoc_split in E. destruct E as [(_ & _ & ?)|(q & -> & _)]; [discriminate|].
          apply (N m). apply in_app_iff. right. now left.
      + apply (o_order _ O pre b1 f1 e1 mid b2 f2 e2 q); auto. rewrite E, <- app_assoc. reflexivity.
    - discriminate.
    - intros f' [= <-]. eauto.
    - intros pre b r e' post E. apply snoc_split in E. destruct E as [(-> & -> & E)|(q & -> & E)].
      + injection E as -> <- ->. split; auto. eapply R; eauto.
      + destruct (o_end _ O _ _ _ _ _ E). congruence.
  Qed.
  Lemma ord_send s n f e : Ord s -> s_phase s <> Returned -> (forall r, f <> Rejected r) -> Ord (send s n f e).
  Proof.
    intros O P R. unfold send. destruct (last_finality (s_sender s)) as [l|] eqn:L.
    - destruct (Nat.leb_spec (as_num f) (as_num l)); cbn [negb]; auto.
      apply ord_append; auto; [rewrite L; cbv beta iota; rewrite <- (progress_num l), <- (progress_num f); lia|intros r ->; now elim (R r)].
    - apply ord_append; auto; [now rewrite L|intros r ->; now elim (R r)].
  Qed.
  Lemma ord_reject s n r : Ord s -> s_phase s <> Returned -> Ord (to (send s n (Rejected r) None) Returned).
  Proof.
    intros O P. unfold send. destruct (last_finality (s_sender s)) as [l|] eqn:L.
    - destruct (Nat.leb_spec (as_num (Rejected r)) (as_num l)) as [H|H]; cbn [negb].
      + destruct O as [A B C D]. constructor; auto. intros pre b r' e post E. destruct (D _ _ _ _ _ E); auto.
      + apply (ord_append s n (Rejected r) None Returned); auto. rewrite L. cbv beta iota. rewrite <- (progress_num l), <- (progress_num (Rejected r)). lia.
    - apply (ord_append s n (Rejected r) None Returned); auto. now rewrite L.
  Qed.
  Lemma ord_to s p : Ord s -> s_phase s <> Returned -> Ord (to s p).
  Proof.
    intros [A B C D] P. constructor; auto. intros pre b r e post E. destruct (D _ _ _ _ _ E). congruence.
  Qed.
  Lemma ord_world s w : Ord s -> Ord (with_world s w).
  Proof. intros [A B C D]. constructor; auto. Qed.
  Lemma ord_queues s bs r : Ord s -> Ord (with_queues s bs r).
  Proof. intros [A B C D]. constructor; auto. Qed.
  Lemma send_phase s n f e : s_phase (send s n f e) = s_phase s.
  Proof. unfold send. now destruct (match last_finality (s_sender s) with
      | Some l => negb (as_num f <=? as_num l) | None => true end). Qed.
  Lemma pending_not_rejected p n f e : pending_data_tx_status tx p = Some (n, f, e) -> forall r, f <> Rejected r.
  Proof.
    unfold pending_data_tx_status. intros H r ->.
    destruct (p_pre_latest p) as [[m rs]|]; [destruct (find_receipt tx rs); [discriminate|]|];
      (destruct (existsb _ _); [discriminate|destruct (find_receipt tx (p_receipts p)); discriminate]).
  Qed.

  Lemma ord_step s l : Ord s -> Ord (step tx s l).
  Proof.
    intros O. destruct l; cbn [step];
      try (destruct (w_todo (s_world s)); auto; now apply ord_world);
      try (now apply ord_world); try (now apply ord_queues).
    - destruct (w_todo (s_world s)) as [[n rs|]|]; auto;
        [destruct (has_blocks (s_phase s))|destruct (has_reorgs (s_phase s))];
        repeat first [apply ord_queues|apply ord_world]; auto.
    - destruct (s_phase s) eqn:P; auto. destruct (db_status tx (s_world s)) as [[[n f] e]|] eqn:E.
      + apply ord_to; [|rewrite send_phase; congruence]. apply ord_send; auto; [congruence|].
        unfold db_status in E. intros r ->. destruct (in_chain tx _) as [[b x]|]; [|discriminate].
        destruct (w_l1 (s_world s)) as [l|]; [destruct (b <=? l)|]; discriminate.
      + apply ord_to; auto. congruence.
    - destruct (s_phase s) eqn:P; auto.
      destruct (pending_data_tx_status tx (w_pending (s_world s))) as [[[n f] e]|] eqn:E; cbn [send_opt].
      + apply ord_to; [|rewrite send_phase; congruence]. apply ord_send; auto; [congruence|].
        eapply pending_not_rejected; eauto.
      + destruct (w_tracker (s_world s)); cbn [send_opt].
        * apply ord_to; [|rewrite send_phase; congruence]. apply ord_send; auto; [congruence|discriminate].
        * apply ord_to; auto; congruence.
    - destruct (s_phase s) eqn:P; auto. apply ord_queues, ord_to; auto; congruence.
    - destruct (s_phase s) eqn:P; auto. apply ord_queues, ord_to; auto; congruence.
    - destruct (s_phase s) eqn:P; auto. destruct rejected; auto. apply ord_reject; auto; congruence.
    - destruct (s_phase s) eqn:P; auto. destruct (s_reorgs s); auto.
      destruct O as [A B C D]. constructor; cbn.
      + intros pre b1 f1 e1 mid b2 f2 e2 post E N.
        change (pre ++ Status b1 f1 e1 :: mid ++ Status b2 f2 e2 :: post) with
          (pre ++ (Status b1 f1 e1 :: mid) ++ Status b2 f2 e2 :: post) in E. rewrite app_assoc in E.
        apply snoc_split in E. destruct E as [(_ & _ & E)|(q & -> & E)]; [discriminate|].
        apply (A pre b1 f1 e1 mid b2 f2 e2 q); auto. rewrite E, <- app_assoc. reflexivity.
      + eauto.
      + discriminate.
      + intros pre b r e post E. apply snoc_split in E. destruct E as [(_ & _ & E)|(q & -> & E)]; [discriminate|].
        destruct (D _ _ _ _ _ E). congruence.
    - destruct (s_phase s) eqn:P; auto. destruct (s_reorgs s); auto. apply ord_to; auto; congruence.
    - destruct (s_phase s) eqn:P; auto.
      destruct (pending_data_tx_status tx (w_pending (s_world s))) as [[[n f] e]|] eqn:E; cbn [send_opt].
      + apply ord_to; [|rewrite send_phase; congruence]. apply ord_send; auto; [congruence|].
        eapply pending_not_rejected; eauto.
      + apply ord_to; auto; congruence.
    - destruct (s_phase s) eqn:P; auto. destruct (s_blocks s) as [|[n rs] bs]; [apply ord_to; auto; congruence|].
      apply ord_queues.
      set (s1 := match w_tracker (s_world s) with Some m => send s m Received None | None => s end).
      assert (O1 : Ord s1 /\ s_phase s1 <> Returned).
      { unfold s1. destruct (w_tracker (s_world s)); [|split; auto; congruence].
        split; [apply ord_send; auto; [congruence|discriminate]|rewrite send_phase; congruence]. }
      destruct O1 as [O1 P1]. destruct (find_receipt tx rs).
      + apply ord_to; [|now rewrite send_phase]. apply ord_send; auto. discriminate.
      + now apply ord_to.
    - destruct (s_phase s) eqn:P; auto.
      destruct (w_l1 (s_world s)) as [l1|]; [destruct (last_exec (s_sender s)) as [e|];
        [destruct (last_block (s_sender s) <=? l1)|]|];
      (apply ord_to; [try (apply ord_send; auto; [congruence|discriminate])|rewrite ?send_phase; congruence]); auto.
    - destruct O as [A B C D]. constructor; auto. intros pre b r e post E. destruct (D _ _ _ _ _ E); auto.
  Qed.

  Lemma ord_run ls s : Ord s -> Ord (run tx s ls).
  Proof. revert s. induction ls as [|l ls IH]; intros s O; cbn; auto. apply IH. now apply ord_step. Qed.

  Lemma ord_start w : Ord (start w).
  Proof.
    constructor; cbn; auto; try discriminate.
    - intros pre b1 f1 e1 mid b2 f2 e2 post E. destruct pre; discriminate.
    - intros pre b r e post E. destruct pre; discriminate.
  Qed.
End Order.

(** ** Nothing lost *)
Section Complete.
  Variable tx : N.

  Definition told (s : state) : Prop :=
    exists f, last_finality (s_sender s) = Some f /\ 3 <= progress f.
  Definition has_tx (rs : receipts) : Prop := find_receipt tx rs <> None.

  (** The transaction is stored, and the task knows or will know. *)
  Definition Obl (s : state) : Prop :=
    in_chain tx (w_chain (s_world s)) <> None /\
    (told s \/ s_phase s = AtDb \/ s_phase s = Returned \/
     has_blocks (s_phase s) = true /\
     ((exists n rs, w_todo (s_world s) = Some (NewBlock n rs) /\ has_tx rs) \/
      exists n rs, In (n, rs) (s_blocks s) /\ has_tx rs)).

  Definition harmless (l : label) : Prop :=
    match l with Reorg _ | LagBlocks _ => False | _ => True end.

  Lemma told_send s n f e : told s \/ 3 <= progress f -> told (send s n f e).
  Proof.
    intros T. unfold send, told in *. destruct (last_finality (s_sender s)) as [l|] eqn:L.
    - destruct (Nat.leb_spec (as_num f) (as_num l)) as [H|H]; cbn [negb]; rewrite (progress_num f), (progress_num l) in H; cbn.
      + exists l. split; auto. destruct T as [(f' & [= <-] & T)|T]; lia.
      + exists f. split; auto. destruct T as [(f' & [= <-] & T)|T]; lia.
    - cbn. exists f. split; auto. destruct T as [(f' & T' & _)|T]; [discriminate|auto].
  Qed.
  Lemma send_world s n f e : s_world (send s n f e) = s_world s.
  Proof. unfold send. now destruct (match last_finality (s_sender s) with
      | Some l => negb (as_num f <=? as_num l) | None => true end). Qed.
  Lemma send_blocks s n f e : s_blocks (send s n f e) = s_blocks s.
  Proof. unfold send. now destruct (match last_finality (s_sender s) with
      | Some l => negb (as_num f <=? as_num l) | None => true end). Qed.
  Lemma told_to s p : told (to s p) = told s. Proof. reflexivity. Qed.

  Lemma obl_step s l : harmless l -> Obl s -> Obl (step tx s l).
  Proof.
    intros H [Ch O]. destruct l; try contradiction; cbn [step].
    - destruct (w_todo (s_world s)) as [td|] eqn:Td; [split; auto; rewrite Td; auto|].
      split; [now apply in_chain_app|]. cbn. destruct O as [O|[O|[O|[P O]]]]; auto.
      right. right. right. split; auto. right. destruct O as [(n & rs' & O & _)|O]; [congruence|auto].
    - destruct (w_todo (s_world s)) as [[n rs|]|] eqn:Td; [| |split; auto; rewrite Td; auto].
      + destruct (has_blocks (s_phase s)) eqn:P.
        * split; auto. cbn. destruct O as [O|[O|[O|[_ O]]]]; auto. right. right. right. split; auto. right.
          destruct O as [(m & rs' & [= <- <-] & T)|(m & rs' & I & T)].
          { exists n, rs. split; auto. apply in_app_iff. right. now left. }
          { exists m, rs'. split; auto. apply in_app_iff. auto. }
        * split; auto. cbn. destruct O as [O|[O|[O|[O _]]]]; auto. congruence.
      + destruct (has_reorgs (s_phase s)); (split; auto; cbn; destruct O as [O|[O|[O|[P O]]]]; auto;
          right; right; right; split; auto; right; destruct O as [(n & rs' & O & _)|O]; [congruence|auto]).
    - split; auto.
    - split; auto.
    - split; auto.
    - split; auto.
    - destruct (s_phase s) eqn:P; try (split; auto; rewrite P; auto).
      unfold db_status. destruct (in_chain tx (w_chain (s_world s))) as [[n e]|] eqn:G; [|congruence].
      split; [|left].
      + destruct (w_l1 (s_world s)) as [l|]; [destruct (n <=? l)|]; cbn [to s_world]; rewrite send_world, G; discriminate.
      + destruct (w_l1 (s_world s)) as [l|]; [destruct (n <=? l)|]; rewrite told_to; apply told_send; right; cbn; lia.
    - destruct (s_phase s) eqn:P; try (split; auto; rewrite P; auto).
      destruct O as [O|[O|[O|[O _]]]]; try discriminate.
      destruct (match pending_data_tx_status tx (w_pending (s_world s)) with
                | Some x => Some x | None => match w_tracker (s_world s) with Some n => Some (n, Received, None) | None => None end end)
        as [[[n f] e]|]; cbn [send_opt].
      + split; [cbn [to s_world]; now rewrite send_world|]. left. rewrite told_to. apply told_send. auto.
      + split; auto.
    - destruct (s_phase s) eqn:P; try (split; auto; rewrite P; auto).
      destruct O as [O|[O|[O|[O _]]]]; try discriminate. split; auto.
    - destruct (s_phase s) eqn:P; try (split; auto; rewrite P; auto).
      split; auto. destruct O as [O|[O|[O|[_ O]]]]; try discriminate; auto.
    - destruct (s_phase s) eqn:P; try (split; auto; rewrite P; auto).
      destruct rejected; [|split; auto; rewrite P; auto].
      split; [cbn [to s_world]; now rewrite send_world|]. right. right. left. reflexivity.
    - destruct (s_phase s) eqn:P; try (split; auto; rewrite P; auto).
      destruct (s_reorgs s); [split; auto; rewrite P; auto|]. split; auto.
    - destruct (s_phase s) eqn:P; try (split; auto; rewrite P; auto).
      destruct (s_reorgs s); [|split; auto; rewrite P; auto]. split; auto.
      destruct O as [O|[O|[O|[_ O]]]]; try discriminate; auto.
    - destruct (s_phase s) eqn:P; try (split; auto; rewrite P; auto).
      destruct (pending_data_tx_status tx (w_pending (s_world s))) as [[[n f] e]|]; cbn [send_opt].
      + split; [cbn [to s_world]; now rewrite send_world|].
        destruct O as [O|[O|[O|[_ O]]]]; try discriminate.
        * left. rewrite told_to. apply told_send. auto.
        * right. right. right. split; auto. cbn [to s_world s_blocks]. now rewrite send_world, send_blocks.
      + split; auto. destruct O as [O|[O|[O|[_ O]]]]; try discriminate; auto.
    - destruct (s_phase s) eqn:P; try (split; auto; rewrite P; auto).
      destruct (s_blocks s) as [|[n rs] bs] eqn:Bs.
      { split; auto. destruct O as [O|[O|[O|[_ O]]]]; try discriminate; auto. right. right. right. split; auto.
        cbn [to s_world s_blocks]. rewrite Bs. auto. }
      set (s1 := match w_tracker (s_world s) with Some m => send s m Received None | None => s end).
      assert (E1 : s_world s1 = s_world s /\ (told s -> told s1)).
      { unfold s1. destruct (w_tracker (s_world s)); [|auto]. rewrite send_world. split; auto.
        intros T. apply told_send. auto. }
      set (s2 := match find_receipt tx rs with Some e => send s1 n AcceptedOnL2 (Some e) | None => s1 end).
      assert (E2 : s_world s2 = s_world s /\ (told s \/ has_tx rs -> told s2)).
      { unfold s2, has_tx. destruct E1 as [E1 T1]. destruct (find_receipt tx rs).
        - rewrite send_world. split; auto. intros _. apply told_send. right. cbn. lia.
        - split; auto. intros [T|T]; [auto|congruence]. }
      destruct E2 as [E2 T2]. split; [cbn [with_queues to s_world]; now rewrite E2|].
      destruct O as [O|[O|[O|[_ O]]]]; try discriminate.
      + left. apply T2. auto.
      + destruct O as [O|(m & rs' & [I|I] & T)].
        * right. right. right. split; auto. left. cbn [with_queues to s_world]. now rewrite E2.
        * injection I as <- <-. left. apply T2. auto.
        * right. right. right. split; auto. right. exists m, rs'. auto.
    - destruct (s_phase s) eqn:P; try (split; auto; rewrite P; auto).
      set (s1 := match w_l1 (s_world s), last_exec (s_sender s) with
                 | Some l, Some e => if last_block (s_sender s) <=? l then send s l AcceptedOnL1 (Some e) else s
                 | _, _ => s end).
      assert (E : s_world s1 = s_world s /\ s_blocks s1 = s_blocks s /\ (told s -> told s1)).
      { unfold s1. destruct (w_l1 (s_world s)); auto. destruct (last_exec (s_sender s)); auto.
        destruct (last_block (s_sender s) <=? n); auto. rewrite send_world, send_blocks. split; auto. split; auto.
        intros T. apply told_send. auto. }
      destruct E as (E & B & T). split; [cbn [to s_world]; now rewrite E|].
      destruct O as [O|[O|[O|[_ O]]]]; try discriminate; [left; auto|].
      right. right. right. split; auto. cbn [to s_world s_blocks]. now rewrite E, B.
    - split; auto.
  Qed.

  Lemma obl_run ls s : Forall harmless ls -> Obl s -> Obl (run tx s ls).
  Proof.
    intros F. revert s. induction F as [|l ls H F IH]; intros s O; cbn; auto. apply IH. now apply obl_step.
  Qed.

  Lemma obl_quiet s : Obl s -> quiet s -> told s.
  Proof.
    intros [_ O] (Q1 & Q2 & Q3 & _). rewrite Q1, Q2, Q3 in O.
    destruct O as [O|[O|[O|[_ [(n & rs & O & _)|(n & rs & [] & _)]]]]]; auto; discriminate.
  Qed.
End Complete.
