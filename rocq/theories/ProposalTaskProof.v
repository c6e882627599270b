(** Proofs about the proposal task: what is executed does not depend on deferral. *)
From Coq Require Import List Bool Arith NArith Lia ZifyBool ZifyNat ZifyN.
From Verif Require Import AList P2PStreamModel P2PStreamProof ProposalModel ProposalSpec ProposalProof.
Import ListNotations.
Local Open Scope N_scope.

Lemma hget_set_eq {V} k (x : V) m : hget k (hset k x m) = Some x.
Proof. apply (al_get_set_eq _ sid_eqb_spec). Qed.
Lemma hget_set_neq {V} k k' (x : V) m : k <> k' -> hget k (hset k' x m) = hget k m.
Proof. intros H. apply (al_get_set_neq _ sid_eqb_spec). exact H. Qed.
Lemma hget_remove_eq {V} k (m : list (hr * V)) : hget k (hremove k m) = None.
Proof. apply (al_get_remove_eq _ sid_eqb_spec). Qed.
Lemma hget_remove_neq {V} k k' (m : list (hr * V)) : k <> k' -> hget k (hremove k' m) = hget k m.
Proof. intros H. apply (al_get_remove_neq _ sid_eqb_spec). exact H. Qed.

Lemma mem_set (k k' : N) m : al_mem N.eqb k (al_set N.eqb k' tt m) = ((k =? k') || al_mem N.eqb k m)%bool.
Proof.
  unfold al_mem. destruct (N.eqb_spec k k') as [EQ|NE].
  - rewrite EQ, (al_get_set_eq _ N.eqb_spec). reflexivity.
  - rewrite (al_get_set_neq _ N.eqb_spec) by exact NE. reflexivity.
Qed.
Lemma mem_remove (k k' : N) (m : list (N * unit)) :
  al_mem N.eqb k (al_remove N.eqb k' m) = (negb (k =? k') && al_mem N.eqb k m)%bool.
Proof.
  unfold al_mem. destruct (N.eqb_spec k k') as [EQ|NE].
  - rewrite EQ, (al_get_remove_eq _ N.eqb_spec). reflexivity.
  - rewrite (al_get_remove_neq _ N.eqb_spec) by exact NE. reflexivity.
Qed.

Lemma last_round_in ks k : last_round ks = Some k -> In k ks.
Proof.
  revert k; induction ks as [|a ks IH]; intros k E; cbn [last_round] in E; [discriminate|].
  destruct (last_round ks) as [k'|].
  - destruct (snd a <? snd k'); inversion E; subst; [right; apply IH; reflexivity|left; reflexivity].
  - inversion E; subst. left; reflexivity.
Qed.

Lemma last_round_none ks : last_round ks = None -> ks = [].
Proof.
  destruct ks as [|a ks]; [reflexivity|]. cbn [last_round].
  destruct (last_round ks) as [k'|]; [destruct (snd a <? snd k')|]; discriminate.
Qed.


Section Task.
  Variable ok_tx : N -> bool.
  Variable tx_class : N -> option N.
  Variable exec : init -> list N -> N -> option output.
  Variable state_update : init -> list N -> N.
  Variable diff_commitment : N -> N.
  Variable valid_info : init -> bool.

  Local Notation handle_init := (ProposalModel.handle_init valid_info).
  Local Notation handle_batch := (ProposalModel.handle_batch ok_tx tx_class exec valid_info).
  Local Notation handle_fin := (ProposalModel.handle_fin ok_tx tx_class exec state_update diff_commitment valid_info).
  Local Notation handle_part := (ProposalModel.handle_part ok_tx tx_class exec state_update diff_commitment valid_info).
  Local Notation exec_deferred := (ProposalModel.exec_deferred ok_tx tx_class exec state_update diff_commitment valid_info).
  Local Notation handle_decided := (ProposalModel.handle_decided ok_tx tx_class exec state_update diff_commitment valid_info).
  Local Notation step := (ProposalModel.step ok_tx tx_class exec state_update diff_commitment valid_info).
  Local Notation run := (ProposalModel.run ok_tx tx_class exec state_update diff_commitment valid_info).
  Local Notation ran := (ProposalProof.ran tx_class exec).
  Local Notation cut := (ProposalProof.cut tx_class exec).

  Variable key : hr.

  (** what the task knows about [key] *)
  Definition view (s : task) :=
    (hget key (t_incoming s), hget key (t_cache s), hget key (t_deferred s),
     hget key (t_finalized s), parent_known s (fst key)).

  Definition same_chain (s s' : task) : Prop :=
    t_decided s' = t_decided s /\ t_committed s' = t_committed s.

  Ltac frame k NE :=
    repeat first [rewrite (hget_set_neq key k) by exact NE | rewrite (hget_remove_neq key k) by exact NE].

  Ltac splitall :=
    repeat match goal with
           | |- context [match ?x with _ => _ end] =>
               match x with
               | context [match _ with _ => _ end] => fail 1
               | _ => destruct x eqn:?
               end
           end.

  Lemma frame_init s k i : key <> k -> view (fst (handle_init s k i)) = view s.
  Proof.
    intros NE. unfold ProposalModel.handle_init, view, parent_known.
    splitall; cbn; frame k NE; reflexivity.
  Qed.

  Lemma frame_batch s k txs : key <> k -> view (fst (handle_batch s k txs)) = view s.
  Proof.
    intros NE. unfold ProposalModel.handle_batch, view, parent_known.
    destruct (hget k (t_cache s)); [|reflexivity]. cbv zeta.
    destruct (should_defer (set_cache s (hremove k (t_cache s))) (fst k)) as [[]|];
      [| |cbn; frame k NE; reflexivity].
    - cbn. frame k NE. reflexivity.
    - match goal with |- context [match ?x with None => _ | Some v => match execute_batch _ _ _ v _ with _ => _ end end] => destruct x end;
        [|cbn; frame k NE; reflexivity].
      match goal with |- context [execute_batch ?a ?b ?c ?d ?e] => destruct (execute_batch a b c d e) end;
        [|cbn; frame k NE; reflexivity].
      match goal with |- context [match ?x with None => (_, Fatal) | Some _ => _ end] => destruct x end;
        cbn; frame k NE; reflexivity.
  Qed.

  Lemma frame_fin s k g n : key <> k -> view (fst (handle_fin s k g n)) = view s.
  Proof.
    intros NE. unfold ProposalModel.handle_fin, view, parent_known, manager_execute.
    splitall; repeat match goal with H : (_, _) = (_, _) |- _ => inversion H; clear H; subst end;
      cbn; frame k NE; reflexivity.
  Qed.

  Lemma frame_part s k p : key <> k -> view (fst (step s (EPart k p))) = view s.
  Proof.
    intros NE.
    assert (P : view (fst (handle_part s k p)) = view s).
    { unfold ProposalModel.handle_part.
      set (v := match hget k (t_incoming s) with Some v => v | None => pv_new end). clearbody v.
      assert (A : forall x, view (set_incoming s (hset k x (t_incoming s))) = view s).
      { intros x. unfold view, parent_known. cbn. frame k NE. reflexivity. }
      destruct (accept_part v p) as [[v' r]|]; [|cbn [fst]; apply A].
      cbv zeta. destruct p.
      - rewrite frame_init by exact NE. apply A.
      - rewrite frame_batch by exact NE. apply A.
      - destruct (pv_proposer v'); [|apply A].
        destruct r; [rewrite frame_fin by exact NE; apply A| |rewrite frame_fin by exact NE; apply A].
        cbn [fst]. rewrite <- (A v'). unfold view, parent_known. cbn. frame k NE. reflexivity. }
    cbn [ProposalModel.step]. destruct (handle_part s k p) as [s' e]. cbn [fst] in P.
    destruct e; cbn [fst]; try exact P.
    rewrite <- P. unfold view, parent_known. cbn. frame k NE. reflexivity.
  Qed.

  (* -------------------------------------------------------------- *)
  (** The invariant for a well-formed proposal delivered on [key] *)
  Variable i : init.
  Variable bs : list (list N).
  Variable c n : N.

  Definition the_origin : origin := mkOrigin c (i_proposer i) (i_valid_round i).

  (** number of batches among the first [m] parts *)
  Definition received (m : nat) : nat := Nat.min (m - 1) (length bs).

  Definition good_block (b : block) : Prop :=
    bs <> [] /\ block_of exec state_update i (firstn (N.to_nat n) (concat bs)) b /\
    diff_commitment (b_update b) = c.

  Definition live (m : nat) (v : pv) : Prop :=
    (1 <= m)%nat /\ pv_parts v = firstn m (proposal i bs c n) /\ pv_has_init v = true /\
    pv_has_fin v = Nat.ltb (S (length bs)) m /\
    pv_proposer v = Some (i_proposer i) /\ pv_valid_round v = i_valid_round i.

  Definition inv_deferred (m : nat) (alive : Prop) (d : deferred) : Prop :=
    exists j, d_txs d = concat (firstn j bs) /\ (alive -> j = received m) /\
      match d_commitment d with
      | None => d_count d = None
      | Some g => (length bs <= j)%nat /\ bs <> [] /\ g = the_origin /\ d_count d = Some n
      end.

  Definition Inv (m : nat) (w : option pv * option stage * option deferred * option final * bool) : Prop :=
    let '(inc, st, de, fi, known) := w in
    (inc = None \/ exists v, inc = Some v /\ live m v) /\
    (m = 0%nat -> st = None /\ de = None) /\
    match st with
    | None => True
    | Some (SInfo i') =>
        i' = i /\
        match de with
        | None => known = true \/ (inc <> None -> received m = 0%nat)
        | Some d => inv_deferred m (inc <> None) d
        end
    | Some (SBatch v) =>
        known = true /\ de = None /\
        exists j, ran i (concat (firstn j bs)) v /\ (inc <> None -> j = received m)
    end /\
    match fi with
    | None => True
    | Some (Executed b) => good_block b
    | Some (Empty x) => bs = [] /\ x = fst key
    end.

  Lemma should_defer_known s x :
    should_defer s (fst key) = Some x -> parent_known s (fst key) = negb x.
  Proof.
    unfold should_defer, parent_known. destruct (fst key =? 0); [intros E; inversion E; reflexivity|].
    cbv zeta. destruct (I64_MAX <? fst key - 1); [discriminate|]. intros E. inversion E.
    rewrite negb_involutive. reflexivity.
  Qed.

  Lemma concat_next j b : nth_error bs j = Some b -> concat (firstn j bs) ++ b = concat (firstn (S j) bs).
  Proof.
    revert j. induction bs as [|a l IH]; intros [|j] E; try discriminate.
    - cbn in *. inversion E; subst. rewrite !app_nil_r. reflexivity.
    - cbn [firstn concat]. rewrite <- app_assoc. f_equal. apply IH. exact E.
  Qed.

  (** finalizing a stage that ran everything *)
  Lemma process_finalize s v v' b txs :
    bs <> [] -> txs = concat bs ->
    ran i txs v -> process_count s key n v = Some v' ->
    finalize state_update diff_commitment v' c = Some b ->
    good_block b.
  Proof.
    intros NB -> R P F. unfold process_count in P.
    destruct (al_mem sid_eqb key (t_executing s)); [|discriminate].
    assert (C : cut i (concat bs) (N.to_nat n) v').
    { assert (LV : length (vs_txs v) = length (concat bs)).
      { destruct R as (os & _ & E). rewrite E. reflexivity. }
      destruct (N.ltb_spec n (N.of_nat (length (vs_txs v)))).
      - exact (proj2 (cut_rollback ok_tx tx_class exec state_update diff_commitment valid_info _ _ _ _ _ R P)).
      - inversion P; subst. apply (ran_cut ok_tx tx_class exec state_update diff_commitment valid_info _ _ _ _ R). lia. }
    unfold finalize in F.
    destruct (finalize0 state_update v') as [b'|] eqn:F0; [|discriminate].
    destruct (N.eqb_spec (diff_commitment (b_update b')) c); [|discriminate].
    inversion F; subst. split; [exact NB|]. split; [|assumption].
    exact (cut_finalize ok_tx tx_class exec state_update diff_commitment valid_info _ _ _ _ _ C F0).
  Qed.

  Definition done_ok (e : ending) : Prop := forall g, e = Done key g -> g = the_origin.

  Lemma nothing_ok : done_ok Nothing. Proof. intros g E; discriminate. Qed.
  Lemma recoverable_ok : done_ok Recoverable. Proof. intros g E; discriminate. Qed.

  (** the parts of the proposal *)
  Lemma nth_part m p :
    nth_error (proposal i bs c n) m = Some p ->
    (m = 0%nat /\ p = Init i) \/
    (exists j b, m = S j /\ nth_error bs j = Some b /\ p = Batch b) \/
    (m = S (length bs) /\ p = PFin c n).
  Proof.
    destruct m as [|m]; cbn; intros E; [left; inversion E; auto|right].
    destruct (Nat.ltb_spec m (length bs)).
    - rewrite nth_error_app1 in E by (rewrite map_length; lia). left.
      rewrite nth_error_map in E. destruct (nth_error bs m) as [b|] eqn:B; [|discriminate].
      inversion E; subst. exists m, b. auto.
    - rewrite nth_error_app2 in E by (rewrite map_length; lia). rewrite map_length in E.
      destruct (m - length bs)%nat as [|q] eqn:Q; cbn in E; [|destruct q; discriminate].
      inversion E; subst. right. split; [f_equal; lia|reflexivity].
  Qed.

  Lemma firstn_next {A} (l : list A) m x : nth_error l m = Some x -> firstn (S m) l = firstn m l ++ [x].
  Proof.
    revert m. induction l as [|a l IH]; intros [|m] E; try discriminate.
    - cbn in *. inversion E; reflexivity.
    - cbn [firstn app]. f_equal. apply IH. exact E.
  Qed.

  Lemma skipn_next {A} (l : list A) m x r : skipn m l = x :: r -> skipn (S m) l = r.
  Proof.
    revert m. induction l as [|a l IH]; intros [|m] E; try discriminate.
    - cbn in *. inversion E; reflexivity.
    - cbn [skipn] in E. exact (IH m E).
  Qed.

  (** accepting the next part of a live proposal *)
  Lemma live_next m v p v' r :
    live m v -> nth_error (proposal i bs c n) m = Some p -> accept_part v p = Some (v', r) -> live (S m) v'.
  Proof.
    intros (M1 & PP & HI & HF & PR & VR) NP A.
    pose proof (firstn_next _ _ _ NP) as FN.
    destruct (nth_part _ _ NP) as [(M & ->)|[(j & b & M & B & ->)|(M & ->)]]; [lia| |].
    - unfold accept_part in A. destruct (pv_parts v) as [|x l] eqn:PV; [discriminate|].
      destruct b as [|t b]; [discriminate|]. inversion A; subst v'; clear A.
      assert (j < length bs)%nat by (apply nth_error_Some; congruence).
      unfold live; repeat match goal with |- _ /\ _ => split end; cbn [pv_parts pv_has_init pv_has_fin pv_proposer pv_valid_round]; try assumption; try lia.
      + rewrite FN, <- PP. reflexivity.
    - unfold accept_part in A. rewrite HF, HI in A.
      destruct (S (length bs) <? m)%nat; [discriminate|].
      assert (E : v' = mkPv (pv_parts v ++ [PFin c n]) true true (pv_batches v) (pv_proposer v) (pv_valid_round v)).
      { cbn [andb] in A. rewrite ?andb_true_r in A.
        destruct (Nat.eqb (length (pv_parts v)) 1); [inversion A; reflexivity|].
        destruct (Nat.leb 2 (length (pv_parts v))); [inversion A; reflexivity|discriminate]. }
      subst v'. unfold live; repeat match goal with |- _ /\ _ => split end; cbn [pv_parts pv_has_init pv_has_fin pv_proposer pv_valid_round]; try assumption; try reflexivity; try lia.
      + rewrite FN, <- PP. reflexivity.
  Qed.

  Ltac own := repeat first [rewrite hget_set_eq | rewrite hget_remove_eq].

  Definition Post (m : nat) (se : task * ending) : Prop :=
    snd se <> Fatal ->
    done_ok (snd se) /\
    (let s' := match snd se with
               | Recoverable => set_incoming (fst se) (hremove key (t_incoming (fst se)))
               | _ => fst se
               end in Inv m (view s')).

  Lemma view_purge s :
    view (set_incoming s (hremove key (t_incoming s))) =
    (None, hget key (t_cache s), hget key (t_deferred s), hget key (t_finalized s), parent_known s (fst key)).
  Proof. unfold view, parent_known. cbn [t_incoming t_cache t_deferred t_finalized t_decided t_committed set_incoming]. own. reflexivity. Qed.

  Lemma view_eq s a b d f k :
    hget key (t_incoming s) = a -> hget key (t_cache s) = b -> hget key (t_deferred s) = d ->
    hget key (t_finalized s) = f -> parent_known s (fst key) = k -> view s = (a, b, d, f, k).
  Proof. intros <- <- <- <- <-. reflexivity. Qed.

  Ltac fields := cbn [t_incoming t_cache t_deferred t_finalized t_executing t_decided t_committed
                      set_incoming set_cache set_deferred set_executing set_finalized fst snd].

  Lemma post_recoverable m s : 
    Inv m (None, hget key (t_cache s), hget key (t_deferred s), hget key (t_finalized s), parent_known s (fst key)) ->
    Post m (s, Recoverable).
  Proof.
    intros I _. split; [apply recoverable_ok|]. cbn [snd fst]. rewrite view_purge. exact I.
  Qed.

  Lemma inv_no_stage m inc de fi known :
    (inc = None \/ exists v, inc = Some v /\ live m v) ->
    match fi with
    | None => True
    | Some (Executed b) => good_block b
    | Some (Empty x) => bs = [] /\ x = fst key
    end ->
    (m <> 0%nat) ->
    Inv m (inc, None, de, fi, known).
  Proof. intros A B C. cbn. repeat match goal with |- _ /\ _ => split end; auto; intros; contradiction. Qed.

  Lemma known_set_cache s x h : parent_known (set_cache s x) h = parent_known s h.
  Proof. reflexivity. Qed.
  Lemma known_set_incoming s x h : parent_known (set_incoming s x) h = parent_known s h.
  Proof. reflexivity. Qed.

  Lemma post_init s v :
    i_height i = fst key ->
    hget key (t_incoming s) = Some v -> live 1 v ->
    hget key (t_cache s) = None -> hget key (t_deferred s) = None ->
    match hget key (t_finalized s) with
    | None => True
    | Some (Executed b) => good_block b
    | Some (Empty x) => bs = [] /\ x = fst key
    end ->
    Post 1 (handle_init s key i).
  Proof.
    intros HH HI LV HC HD HF. unfold ProposalModel.handle_init. rewrite HH.
    assert (R : Post 1 (s, Recoverable)).
    { apply post_recoverable. rewrite HC. apply inv_no_stage; auto. }
    destruct (I64_MAX <? fst key); [exact R|].
    destruct (should_defer s (fst key)) as [[]|] eqn:SD; [| |intros F; contradiction].
    - intros _. split; [apply nothing_ok|]. cbn [snd fst]. unfold view. fields. own.
      rewrite HI, HD. cbn. repeat match goal with |- _ /\ _ => split end; auto; try discriminate; eauto.
    - destruct (valid_info i); [|exact R].
      intros _. split; [apply nothing_ok|]. cbn [snd fst]. unfold view. fields. own.
      rewrite HI, HD, known_set_cache, (should_defer_known _ _ SD). cbn.
      repeat match goal with |- _ /\ _ => split end; auto; try discriminate; eauto.
      exists 0%nat. split; [apply ran_new|reflexivity].
  Qed.

  Lemma received_S j : (j < length bs)%nat -> received (S j) = j /\ received (S (S j)) = S j.
  Proof. unfold received. intros. lia. Qed.

  Lemma post_batch s v j b :
    nth_error bs j = Some b ->
    hget key (t_incoming s) = Some v -> live (S (S j)) v ->
    match hget key (t_cache s) with
    | None => True
    | Some (SInfo i') =>
        i' = i /\
        match hget key (t_deferred s) with
        | None => parent_known s (fst key) = true \/ j = 0%nat
        | Some d => inv_deferred (S j) True d
        end
    | Some (SBatch v) =>
        parent_known s (fst key) = true /\ hget key (t_deferred s) = None /\
        ran i (concat (firstn j bs)) v
    end ->
    match hget key (t_finalized s) with
    | None => True
    | Some (Executed b) => good_block b
    | Some (Empty x) => bs = [] /\ x = fst key
    end ->
    Post (S (S j)) (handle_batch s key b).
  Proof.
    intros NB HI LV HS HF.
    assert (JL : (j < length bs)%nat) by (apply nth_error_Some; congruence).
    destruct (received_S _ JL) as (R1 & R2).
    unfold ProposalModel.handle_batch.
    destruct (hget key (t_cache s)) as [st|] eqn:HC.
    2: { apply post_recoverable. rewrite HC. apply inv_no_stage; auto. }
    cbv zeta. change (hget key (t_deferred (set_cache s (hremove key (t_cache s))))) with (hget key (t_deferred s)).
    destruct (should_defer (set_cache s (hremove key (t_cache s))) (fst key)) as [[]|] eqn:SD;
      [| |intros F; contradiction].
    - (* deferred *)
      apply should_defer_known in SD. rewrite known_set_cache in SD. cbn in SD.
      intros _. split; [apply nothing_ok|]. cbn [snd fst]. unfold view. fields. own.
      destruct st as [i'|w]; [|destruct HS; congruence].
      destruct HS as (-> & HS). rewrite HI.
      set (d' := mkDeferred _ _ _).
      assert (D : inv_deferred (S (S j)) (Some v <> None) d').
      { unfold d'. destruct (hget key (t_deferred s)) as [d|].
        - destruct HS as (k & E1 & E2 & E3). rewrite (R1) in E2. specialize (E2 I). subst k.
          exists (S j). cbn [d_txs d_commitment d_count]. split; [|split].
          + rewrite E1. apply concat_next. exact NB.
          + rewrite R2. reflexivity.
          + destruct (d_commitment d); [lia|exact E3].
        - destruct HS as [HS|HS]; [congruence|]. subst j.
          exists 1%nat. cbn [d_txs d_commitment d_count no_deferred]. split; [|split].
          + rewrite <- (concat_next 0 b NB). reflexivity.
          + intros _. symmetry. exact R2.
          + reflexivity. }
      clearbody d'. cbn [Inv]. repeat match goal with |- _ /\ _ => split end; auto; try discriminate; eauto.
    - (* executed now *)
      apply should_defer_known in SD. rewrite known_set_cache in SD. cbn in SD.
      assert (R : Post (S (S j))
                (set_deferred (set_cache s (hremove key (t_cache s))) (hremove key (t_deferred s)), Recoverable)).
      { apply post_recoverable. fields. own. apply inv_no_stage; auto. }
      match goal with |- context [match ?x with None => _ | Some v => match execute_batch _ _ _ v _ with _ => _ end end] => destruct x as [w|] eqn:W end;
        [|exact R].
      match goal with |- context [execute_batch ?a ?b ?c ?d ?e] => destruct (execute_batch a b c d e) as [w'|] eqn:X end;
        [|exact R].
      assert (RW : ran i (concat (firstn (S j) bs)) w' /\
                   match hget key (t_deferred s) with Some d => d_count d | None => None end = None).
      { destruct (hget key (t_deferred s)) as [d|].
        - destruct st as [i'|z]; [|destruct HS as (_ & HS & _); discriminate].
          destruct HS as (-> & k & E1 & E2 & E3). rewrite R1 in E2. specialize (E2 I). subst k.
          unfold to_batch_stage in W. destruct (valid_info i); [|discriminate]. inversion W; subst w.
          split.
          + rewrite E1, (concat_next _ _ NB) in X.
            exact (ran_batch ok_tx tx_class exec state_update diff_commitment _ _ _ _ _ (ran_new _ _ i) X).
          + destruct (d_commitment d); [lia|exact E3].
        - destruct st as [i'|z]; [discriminate|]. inversion W; subst z.
          destruct HS as (_ & _ & HR). split; [|reflexivity].
          rewrite <- (concat_next _ _ NB).
          exact (ran_batch ok_tx tx_class exec state_update diff_commitment _ _ _ _ _ HR X). }
      destruct RW as (RW & CN). rewrite CN.
      intros _. split; [apply nothing_ok|]. cbn [snd fst]. unfold view. fields. own. rewrite HI.
      cbn [Inv]. repeat match goal with |- _ /\ _ => split end; auto; try discriminate; eauto.
  Qed.

  Lemma received_all : received (S (length bs)) = length bs /\ received (S (S (length bs))) = length bs.
  Proof. unfold received. lia. Qed.

  Lemma concat_all j : (length bs <= j)%nat -> concat (firstn j bs) = concat bs.
  Proof. intros. rewrite firstn_all2 by assumption. reflexivity. Qed.

  Lemma post_fin s v :
    bs <> [] ->
    hget key (t_incoming s) = Some v -> live (S (S (length bs))) v ->
    match hget key (t_cache s) with
    | None => True
    | Some (SInfo i') =>
        i' = i /\
        match hget key (t_deferred s) with
        | None => parent_known s (fst key) = true
        | Some d => inv_deferred (S (length bs)) True d
        end
    | Some (SBatch v) =>
        parent_known s (fst key) = true /\ hget key (t_deferred s) = None /\
        ran i (concat bs) v
    end ->
    match hget key (t_finalized s) with
    | None => True
    | Some (Executed b) => good_block b
    | Some (Empty x) => bs = [] /\ x = fst key
    end ->
    Post (S (S (length bs))) (handle_fin s key the_origin n).
  Proof.
    intros NB HI LV HS HF. destruct received_all as (R1 & R2).
    unfold ProposalModel.handle_fin.
    destruct (should_defer s (fst key)) as [[]|] eqn:SD.
    - apply should_defer_known in SD. cbn in SD.
      intros _. split; [apply nothing_ok|]. cbn [snd fst]. unfold view. fields. own. rewrite HI.
      destruct (hget key (t_cache s)) as [[i'|w]|] eqn:HC.
      + destruct HS as (-> & HS). 
        destruct (hget key (t_deferred s)) as [d|]; [|congruence].
        destruct HS as (k & E1 & E2 & E3). rewrite R1 in E2. specialize (E2 I). subst k.
        cbn [Inv]. repeat match goal with |- _ /\ _ => split end; auto; try discriminate; eauto.
        exists (length bs). cbn [d_txs d_commitment d_count].
        repeat match goal with |- _ /\ _ => split end; auto.
      + destruct HS; congruence.
      + apply inv_no_stage; eauto.
    - apply should_defer_known in SD. cbn in SD. cbv zeta. fields.
      destruct (hget key (t_cache s)) as [st|] eqn:HC.
      2: { apply post_recoverable. fields. rewrite HC. apply inv_no_stage; auto. }
      set (s1 := set_cache _ _).
      assert (S1 : forall s2, (t_cache s2 = t_cache s1 /\ t_finalized s2 = t_finalized s1) ->
                   Post (S (S (length bs))) (s2, Recoverable)).
      { intros s2 (E1 & E2). apply post_recoverable. rewrite E1, E2. unfold s1. fields. own. apply inv_no_stage; auto. }
      assert (S2 : forall s2 b, t_incoming s2 = t_incoming s -> t_cache s2 = t_cache s1 -> good_block b ->
                   Post (S (S (length bs)))
                        (set_finalized s2 (hset key (Executed b) (t_finalized s2)), Done key the_origin)).
      { intros s2 b E1 E2 G _. split; [intros g E; inversion E; reflexivity|]. cbn [fst snd].
        unfold view. fields. own. rewrite E1, E2, HI. unfold s1. fields. own. apply inv_no_stage; eauto. }
      destruct (hget key (t_deferred s)) as [d|] eqn:HD.
      + destruct st as [i'|w]; [|destruct HS as (_ & HS & _); discriminate].
        destruct HS as (-> & k & E1 & E2 & E3). rewrite R1 in E2. specialize (E2 I). subst k.
        rewrite firstn_all in E1.
        unfold to_batch_stage. destruct (valid_info i); [|apply S1; split; reflexivity].
        assert (G : d_commitment d = None \/ d_commitment d = Some the_origin).
        { destruct (d_commitment d); [right|left; reflexivity]. f_equal. apply E3. }
        assert (OR : match d_commitment d with Some c' => c' | None => the_origin end = the_origin)
          by (destruct G as [->| ->]; reflexivity).
        rewrite OR. cbn [g_commitment the_origin].
        match goal with |- context [match ?x with _ => _ end] =>
          match x with match d_txs d with _ => _ end => destruct x as [s2 ov] eqn:M end end.
        assert (MM : t_cache s2 = t_cache s1 /\ t_finalized s2 = t_finalized s1 /\ t_incoming s2 = t_incoming s /\
                     forall w, ov = Some w -> ran i (concat bs) w).
        { destruct (d_txs d) as [|t l] eqn:DT.
          - inversion M; subst. repeat match goal with |- _ /\ _ => split end; auto.
            intros w E. inversion E; subst. rewrite <- E1. apply ran_new.
          - pose proof (f_equal fst M) as M1. pose proof (f_equal snd M) as M2. clear M.
            cbn [fst snd manager_execute] in M1, M2. subst s2.
            repeat match goal with |- _ /\ _ => split end; auto.
            intros w E. rewrite E, E1 in M2.
            exact (ran_batch ok_tx tx_class exec state_update diff_commitment _ _ _ _ _ (ran_new _ _ i) M2). }
        destruct MM as (M1 & M2 & M3 & M4).
        destruct ov as [w|]; [|apply S1; auto].
        destruct (process_count s2 key n w) as [w'|] eqn:PC; [|apply S1; auto].
        destruct (finalize state_update diff_commitment w' c) as [b|] eqn:FI; [|apply S1; auto].
        apply S2; auto. exact (process_finalize _ _ _ _ _ NB eq_refl (M4 _ eq_refl) PC FI).
      + destruct st as [i'|w]; [apply S1; auto|].
        destruct HS as (_ & _ & HR).
        destruct (process_count s1 key n w) as [w'|] eqn:PC; [|apply S1; auto].
        cbn [g_commitment the_origin].
        destruct (finalize state_update diff_commitment w' c) as [b|] eqn:FI; [|apply S1; auto].
        exact (S2 s1 b eq_refl eq_refl (process_finalize _ _ _ _ _ NB eq_refl HR PC FI)).
    - apply post_recoverable.
      unfold should_defer in SD. unfold parent_known.
      destruct (hget key (t_cache s)) as [[i'|w]|] eqn:HC; [| |apply inv_no_stage; auto].
      + destruct HS as (-> & HS). cbn. repeat match goal with |- _ /\ _ => split end; auto; try discriminate.
        destruct (hget key (t_deferred s)) as [d|]; [|right; congruence].
        destruct HS as (k & E1 & E2 & E3). exists k. repeat match goal with |- _ /\ _ => split end; auto; congruence.
      + destruct HS as (HK & HD & HR). cbn. fold (parent_known s (fst key)).
        repeat match goal with |- _ /\ _ => split end; auto; try discriminate.
        exists (length bs). rewrite firstn_all. split; [exact HR|congruence].
  Qed.

  Lemma step_part s e : 
    step s (EPart key e) = 
    (match snd (handle_part s key e) with
     | Recoverable => set_incoming (fst (handle_part s key e)) (hremove key (t_incoming (fst (handle_part s key e))))
     | _ => fst (handle_part s key e)
     end, snd (handle_part s key e)).
  Proof. cbn [ProposalModel.step]. destruct (handle_part s key e) as [s' []]; reflexivity. Qed.

  Lemma post_step m s p :
    Post m (handle_part s key p) -> snd (step s (EPart key p)) <> Fatal ->
    done_ok (snd (step s (EPart key p))) /\ Inv m (view (fst (step s (EPart key p)))).
  Proof.
    intros P. rewrite step_part. cbn [fst snd]. intros NF. destruct (P NF) as (A & B). split; [exact A|].
    exact B.
  Qed.

  Lemma inv_own m s p :
    Forall (fun b => b <> []) bs -> i_height i = fst key ->
    Inv m (view s) -> nth_error (proposal i bs c n) m = Some p ->
    Post (S m) (handle_part s key p).
  Proof.
    intros FB HH IV NP. unfold view in IV. destruct IV as (I1 & I2 & I3 & I4).
    assert (DEAD : m <> 0%nat -> hget key (t_incoming s) = None -> 
      (forall i0, p <> Init i0) -> Post (S m) (handle_part s key p)).
    { intros M0 HN NI. unfold ProposalModel.handle_part. rewrite HN.
      assert (A : accept_part pv_new p = None).
      { destruct p as [i0|b|c0 n0]; [destruct (NI i0); reflexivity|reflexivity|reflexivity]. }
      rewrite A. apply post_recoverable. fields. rewrite known_set_incoming.
      rewrite HN in I3. cbn [Inv]. split; [auto|]. split; [intros; lia|]. split; [|exact I4].
      destruct (hget key (t_cache s)) as [[i'|w]|]; [| |exact I].
      - destruct I3 as (E & I3). split; [exact E|].
        destruct (hget key (t_deferred s)) as [d|].
        + destruct I3 as (j & E1 & E2 & E3). exists j. repeat match goal with |- _ /\ _ => split end; auto; congruence.
        + right; congruence.
      - destruct I3 as (E1 & E2 & j & E3 & E4). split; [exact E1|]. split; [exact E2|].
        exists j. split; [exact E3|congruence]. }
    destruct (nth_part _ _ NP) as [(M & ->)|[(j & b & M & B & ->)|(M & ->)]].
    - subst m. destruct (I2 eq_refl) as (C0 & D0).
      assert (IN : hget key (t_incoming s) = None).
      { destruct I1 as [I1|(v & _ & L & _)]; [exact I1|lia]. }
      unfold ProposalModel.handle_part. rewrite IN. cbn [accept_part pv_new pv_parts pv_has_fin pv_batches].
      cbv zeta.
      apply (post_init _ (mkPv [Init i] true false 0 (Some (i_proposer i)) (i_valid_round i))); auto.
      + fields. own. reflexivity.
      + unfold live. repeat match goal with |- _ /\ _ => split end; auto.
    - destruct I1 as [I1|(v & I1 & LV)]; [apply DEAD; [lia|exact I1|discriminate]|].
      unfold ProposalModel.handle_part. rewrite I1.
      assert (A : exists v', accept_part v (Batch b) = Some (v', Accepted)).
      { destruct LV as (L1 & L2 & _). unfold accept_part. subst m. cbn [proposal firstn] in L2. rewrite L2.
        rewrite Forall_forall in FB. pose proof (FB b (nth_error_In _ _ B)).
        destruct b; [congruence|]. eexists; reflexivity. }
      destruct A as (v' & A). rewrite A. cbv zeta. subst m.
      assert (JL : (j < length bs)%nat) by (apply nth_error_Some; congruence).
      destruct (received_S _ JL) as (R1 & R2).
      apply (post_batch _ v'); fields; auto.
      + own. reflexivity.
      + exact (live_next _ _ _ _ _ LV NP A).
      + rewrite known_set_incoming. rewrite I1 in I3.
        destruct (hget key (t_cache s)) as [[i'|w]|]; [| |exact I].
        * destruct I3 as (E & I3). split; [exact E|]. destruct (hget key (t_deferred s)) as [d|].
          -- destruct I3 as (k & E1 & E2 & E3). exists k. split; [exact E1|]. split; [|exact E3].
             intros _. apply E2. discriminate.
          -- destruct I3 as [I3|I3]; [left; exact I3|right]. rewrite <- R1. apply I3. discriminate.
        * destruct I3 as (E1 & E2 & k & E3 & E4). rewrite R1 in E4. rewrite E4 in E3 by discriminate. auto.
    - destruct I1 as [I1|(v & I1 & LV)]; [apply DEAD; [lia|exact I1|discriminate]|].
      subst m. destruct received_all as (R1 & R2).
      unfold ProposalModel.handle_part. rewrite I1.
      assert (A : exists v', accept_part v (PFin c n) =
                   Some (v', match bs with [] => EmptyProposal | _ => NonEmptyProposal end)).
      { destruct LV as (L1 & L2 & L3 & L4 & _). unfold accept_part. rewrite L3, L4.
        destruct (Nat.ltb_spec (S (length bs)) (S (length bs))); [lia|].
        assert (LP : length (pv_parts v) = S (length bs)).
        { rewrite L2. unfold proposal. rewrite firstn_length. cbn [length]. rewrite app_length, map_length. cbn [length]. lia. }
        rewrite LP, !andb_true_r. destruct bs as [|b0 l]; cbn; eexists; reflexivity. }
      destruct A as (v' & A). rewrite A. cbv zeta.
      pose proof (live_next _ _ _ _ _ LV NP A) as LV'.
      assert (PP : pv_proposer v' = Some (i_proposer i) /\ pv_valid_round v' = i_valid_round i)
        by (destruct LV' as (_ & _ & _ & _ & X & Y); auto).
      destruct PP as (PP & PV). rewrite PP, PV. fold the_origin.
      destruct (list_eq_dec (list_eq_dec N.eq_dec) bs []) as [BE|NB].
      + assert (VE : match bs with [] => EmptyProposal | _ => NonEmptyProposal end = EmptyProposal)
          by (rewrite BE; reflexivity).
        rewrite VE. intros _. split; [intros g E; inversion E; reflexivity|]. cbn [fst snd].
        unfold view. fields. own. cbn [Inv].
        rewrite I1 in I3.
        split; [right; eauto|]. split; [discriminate|]. split; [|auto].
        rewrite R1 in I3. rewrite R2.
        destruct (hget key (t_cache s)) as [[i'|w]|]; [| |exact I].
        * destruct I3 as (E & I3). split; [exact E|]. destruct (hget key (t_deferred s)) as [d|].
          -- destruct I3 as (k & E1 & E2 & E3). exists k. split; [exact E1|]. split; [|exact E3].
             intros _. rewrite R2. rewrite R1 in E2. apply E2. discriminate.
          -- right. intros _. rewrite BE. reflexivity.
        * destruct I3 as (E1 & E2 & k & E3 & E4). split; [exact E1|]. split; [exact E2|].
          exists k. split; [exact E3|]. intros _. apply E4. discriminate.
      + assert (VE : match bs with [] => EmptyProposal | _ => NonEmptyProposal end = NonEmptyProposal)
          by (destruct bs; [congruence|reflexivity]).
        rewrite VE.
        apply (post_fin _ v'); fields; auto.
        * own. reflexivity.
        * rewrite known_set_incoming. rewrite I1 in I3.
          destruct (hget key (t_cache s)) as [[i'|w]|]; [| |exact I].
          -- destruct I3 as (E & I3). split; [exact E|]. destruct (hget key (t_deferred s)) as [d|].
             ++ destruct I3 as (k & E1 & E2 & E3). exists k. split; [exact E1|]. split; [|exact E3].
                intros _. apply E2. discriminate.
             ++ destruct I3 as [I3|I3]; [exact I3|]. rewrite R1 in I3.
                specialize (I3 ltac:(discriminate)). destruct bs; [congruence|discriminate].
          -- destruct I3 as (E1 & E2 & k & E3 & E4). rewrite R1 in E4. rewrite E4 in E3 by discriminate.
             rewrite firstn_all in E3. auto.
  Qed.

  Lemma exec_chain s h : same_chain s (fst (exec_deferred s h)).
  Proof.
    unfold ProposalModel.exec_deferred, same_chain, manager_execute.
    splitall; repeat match goal with H : (_, _) = (_, _) |- _ => inversion H; clear H; subst end;
      split; reflexivity.
  Qed.

  Lemma key_eqb k : {key = k} + {key <> k}.
  Proof. destruct (sid_eqb_spec key k); [left|right]; assumption. Qed.

  (** another proposal is executed, or none *)
  Lemma exec_other s h k :
    last_round (filter (fun k => fst k =? h + 1) (map fst (t_deferred s))) = Some k -> key <> k ->
    view (fst (exec_deferred s h)) =
    (hget key (t_incoming s), hget key (t_cache s),
     (if fst key =? h + 1 then None else hget key (t_deferred s)),
     hget key (t_finalized s), parent_known s (fst key)) /\
    (forall g, snd (exec_deferred s h) <> Done key g).
  Proof.
    intros LR NE. unfold ProposalModel.exec_deferred. cbv zeta. rewrite LR.
    assert (RT : hget key (al_retain (fun k : N * N => negb (fst k =? h + 1)) (t_deferred s)) =
                 if fst key =? h + 1 then None else hget key (t_deferred s)).
    { rewrite (al_get_retain _ sid_eqb_spec). destruct (fst key =? h + 1); reflexivity. }
    set (rt := al_retain _ _) in *. clearbody rt.
    unfold manager_execute, view, parent_known.
    assert (DN : forall g g', Done k g' <> Done key g) by congruence.
    splitall; repeat match goal with H : (_, _) = (_, _) |- _ => inversion H; clear H; subst end;
      (split; [fields; frame k NE; rewrite ?RT; try reflexivity|intros g; first [discriminate|apply DN]]).
  Qed.

  Lemma inv_exec m s h :
    Inv m (view s) -> (fst key = h + 1 -> parent_known s (fst key) = true) ->
    snd (exec_deferred s h) <> Fatal ->
    done_ok (snd (exec_deferred s h)) /\ Inv m (view (fst (exec_deferred s h))).
  Proof.
    intros IV KN NF.
    (* dropping the deferred entry when the parent is known *)
    assert (DROP : Inv m (hget key (t_incoming s), hget key (t_cache s),
                          (if fst key =? h + 1 then None else hget key (t_deferred s)),
                          hget key (t_finalized s), parent_known s (fst key))).
    { destruct (N.eqb_spec (fst key) (h + 1)) as [EQ|]; [|exact IV].
      unfold view in IV. destruct IV as (I1 & I2 & I3 & I4). cbn.
      split; [exact I1|]. split; [intros M; destruct (I2 M); auto|]. split; [|exact I4].
      destruct (hget key (t_cache s)) as [[i'|w]|]; [| |exact I].
      - split; [apply I3|]. left. apply KN. exact EQ.
      - destruct I3 as (A & _ & B). auto. }
    destruct (last_round (filter (fun k => fst k =? h + 1) (map fst (t_deferred s)))) as [k|] eqn:LR.
    2: { unfold ProposalModel.exec_deferred. cbv zeta. rewrite LR. cbn [fst snd].
         split; [apply nothing_ok|]. unfold view. fields.
         rewrite (al_get_retain _ sid_eqb_spec).
         replace (if negb (fst key =? h + 1) then hget key (t_deferred s) else None)
           with (if fst key =? h + 1 then None else hget key (t_deferred s))
           by (destruct (fst key =? h + 1); reflexivity).
         exact DROP. }
    destruct (key_eqb k) as [EQ|NE].
    2: { destruct (exec_other _ _ _ LR NE) as (V & ND). rewrite V. split; [|exact DROP].
         intros g E. destruct (ND g E). }
    subst k. pose proof (last_round_in _ _ LR) as IN. apply filter_In in IN. destruct IN as (IN & HK).
    apply N.eqb_eq in HK. clear DROP. specialize (KN HK).
    destruct (al_in_keys_get _ sid_eqb_spec _ _ IN) as (d & HD).
    unfold view in IV. destruct IV as (I1 & I2 & I3 & I4).
    assert (M0 : m <> 0%nat) by (intros M; destruct (I2 M); congruence).
    revert NF. unfold ProposalModel.exec_deferred. cbv zeta. rewrite LR, HD. fields.
    destruct (hget key (t_cache s)) as [[i'|w]|] eqn:HC; [|contradiction|contradiction].
    destruct I3 as (-> & I3). rewrite HD in I3. destruct I3 as (j & E1 & E2 & E3).
    destruct (valid_info i); [|contradiction].
    match goal with |- context [match ?x with _ => _ end] =>
      match x with match d_txs d with _ => _ end => destruct x as [s2 ov] eqn:M end end.
    assert (RT : hget key (al_retain (fun k : N * N => negb (fst k =? h + 1)) (t_deferred s)) = None).
    { rewrite (al_get_retain _ sid_eqb_spec). rewrite HK, N.eqb_refl. reflexivity. }
    set (s1 := set_cache _ _) in *.
    assert (MM : t_cache s2 = t_cache s1 /\ t_finalized s2 = t_finalized s1 /\
                 t_incoming s2 = t_incoming s1 /\ t_deferred s2 = t_deferred s1 /\ same_chain s1 s2 /\
                 forall w, ov = Some w -> ran i (concat (firstn j bs)) w).
    { destruct (d_txs d) as [|t l] eqn:DT.
      - inversion M; subst. unfold same_chain; repeat match goal with |- _ /\ _ => split end; auto.
        intros w E. inversion E; subst. rewrite <- E1. apply ran_new.
      - pose proof (f_equal fst M) as M1. pose proof (f_equal snd M) as M2. clear M.
        cbn [fst snd manager_execute] in M1, M2. subst s2.
        unfold same_chain. repeat match goal with |- _ /\ _ => split end; auto.
        intros w E. rewrite E, E1 in M2.
        exact (ran_batch ok_tx tx_class exec state_update diff_commitment _ _ _ _ _ (ran_new _ _ i) M2). }
    destruct MM as (M1 & M2 & M3 & M4 & (M5 & M6) & M7). clear M.
    assert (PK : parent_known s2 (fst key) = true).
    { unfold parent_known. rewrite M5, M6. exact KN. }
    destruct ov as [w|]; [|contradiction].
    specialize (M7 _ eq_refl).
    destruct (d_commitment d) as [g|] eqn:DC.
    - destruct E3 as (L & NB & EG & DN). rewrite DN, EG. clear EG.
      destruct (process_count s2 key n w) as [w'|] eqn:PC; [|contradiction].
      cbn [g_commitment the_origin].
      destruct (finalize state_update diff_commitment w' c) as [b|] eqn:FI; [|contradiction].
      rewrite (concat_all _ L) in M7. intros _. cbn [fst snd].
      split; [intros g' E; inversion E; reflexivity|].
      unfold view. fields. own. rewrite M1, M3, M4. unfold s1. fields. own.
      apply inv_no_stage; [exact I1| |exact M0].
      exact (process_finalize _ _ _ _ _ NB eq_refl M7 PC FI).
    - rewrite E3. intros _. cbn [fst snd]. split; [apply nothing_ok|].
      unfold view. fields. own. rewrite M2, M3, M4.
      change (parent_known _ (fst key)) with (parent_known s2 (fst key)). rewrite PK.
      unfold s1. fields. rewrite RT. cbn [Inv].
      repeat match goal with |- _ /\ _ => split end; auto; [intros M; contradiction|].
      exists j. auto.
  Qed.

  (** forgetting parts, finalized blocks, or learning about the parent, is harmless *)
  Lemma inv_weaken m inc st de fi known inc' fi' known' :
    Inv m (inc, st, de, fi, known) ->
    inc' = None \/ inc' = inc -> fi' = None \/ fi' = fi -> (known = true -> known' = true) ->
    Inv m (inc', st, de, fi', known').
  Proof.
    intros (I1 & I2 & I3 & I4) HI HF HK. cbn.
    assert (NI : inc' <> None -> inc <> None) by (destruct HI; congruence).
    split; [destruct HI as [->| ->]; auto|]. split; [exact I2|]. split.
    - destruct st as [[i'|w]|]; [| |exact I].
      + split; [apply I3|]. destruct I3 as (_ & I3). destruct de as [d|].
        * destruct I3 as (j & E1 & E2 & E3). exists j. auto.
        * destruct I3 as [I3|I3]; auto.
      + destruct I3 as (A & B & j & C & D). split; [auto|]. split; [exact B|]. exists j. auto.
    - destruct HF as [->| ->]; [exact I|exact I4].
  Qed.

  Lemma inv_decided m s k :
    Inv m (view s) -> snd (handle_decided s k) <> Fatal ->
    done_ok (snd (handle_decided s k)) /\ Inv m (view (fst (handle_decided s k))).
  Proof.
    intros IV. unfold ProposalModel.handle_decided. destruct (I64_MAX <? fst k); [contradiction|]. cbv zeta.
    set (present := al_mem sid_eqb k (t_finalized s)).
    set (s1 := if present then _ else s).
    set (s2 := set_incoming _ _).
    assert (C2 : t_committed s2 = t_committed s) by (unfold s2, s1; destruct present; reflexivity).
    assert (D2 : t_decided s2 = if present then al_set N.eqb (fst k) tt (t_decided s) else t_decided s)
      by (unfold s2, s1; destruct present; reflexivity).
    assert (IV2 : Inv m (view s2)).
    { unfold view.
      replace (t_cache s2) with (t_cache s) by (unfold s2, s1; destruct present; reflexivity).
      replace (t_deferred s2) with (t_deferred s) by (unfold s2, s1; destruct present; reflexivity).
      unfold view in IV. refine (inv_weaken _ _ _ _ _ _ _ _ _ IV _ _ _).
      - replace (hget key (t_incoming s2)) with
          (hget key (al_retain (fun k0 : N * N => negb (fst k0 =? fst k)) (t_incoming s)))
          by (unfold s2, s1; destruct present; reflexivity).
        rewrite (al_get_retain _ sid_eqb_spec). destruct (negb (fst key =? fst k)); auto.
      - replace (hget key (t_finalized s2)) with
          (hget key (al_retain (fun k0 : N * N => negb (fst k0 =? fst k)) (t_finalized s)))
          by (unfold s2, s1; destruct present; reflexivity).
        rewrite (al_get_retain _ sid_eqb_spec). destruct (negb (fst key =? fst k)); auto.
      - unfold parent_known. rewrite C2, D2. destruct present; [|auto]. rewrite mem_set.
        destruct (fst key =? 0), (fst key - 1 =? fst k), (al_mem N.eqb (fst key - 1) (t_decided s)); cbn; auto. }
    assert (V2 : Inv m (hget key (t_incoming s2), hget key (t_cache s2), hget key (t_deferred s2), hget key (t_finalized s2), parent_known s2 (fst key))) by exact IV2.
    rewrite C2.
    set (committed := al_mem N.eqb (fst k) (t_committed s)).
    assert (E : forall se, se = (if present || committed then exec_deferred s2 (fst k) else (s2, Nothing)) ->
              snd se <> Fatal -> done_ok (snd se) /\ Inv m (view (fst se)) /\ t_committed (fst se) = t_committed s).
    { intros se ->. destruct (present || committed)%bool eqn:PC.
      - intros NF. destruct (inv_exec m s2 (fst k) IV2) as (A & B).
        + intros HK. unfold parent_known. rewrite D2, C2, HK, N.add_sub.
          replace (fst k + 1 =? 0) with false by lia. cbn [orb]. fold committed.
          destruct present; [rewrite mem_set, N.eqb_refl; reflexivity|].
          cbn in PC. rewrite PC. apply orb_true_r.
        + exact NF.
        + split; [exact A|]. split; [exact B|]. destruct (exec_chain s2 (fst k)) as (_ & X). rewrite X. exact C2.
      - intros _. cbn [fst snd]. split; [apply nothing_ok|]. auto. }
    destruct (if present || committed then exec_deferred s2 (fst k) else (s2, Nothing)) as [s3 e] eqn:SE.
    cbn [snd fst]. intros NF. destruct (E (s3, e) eq_refl NF) as (A & B & C3). cbn [fst snd] in *.
    split; [exact A|]. destruct committed eqn:CM; [|exact B].
    unfold view in B |- *. fields. refine (inv_weaken _ _ _ _ _ _ _ _ _ B _ _ _); auto.
    unfold parent_known. cbn [t_decided t_committed set_decided]. rewrite mem_remove, C3.
    destruct (N.eqb_spec (fst key - 1) (fst k)) as [EK|]; cbn [negb andb].
    - rewrite EK. fold committed. rewrite CM. intros _. apply orb_true_r.
    - auto.
  Qed.

  Lemma inv_step_other m s e :
    Inv m (view s) -> (forall p, e <> EPart key p) -> snd (step s e) <> Fatal ->
    (forall k p g, e = EPart k p -> snd (step s e) = Done key g -> False) /\
    done_ok (snd (step s e)) /\ Inv m (view (fst (step s e))).
  Proof.
    intros IV NK NF. destruct e as [k p|k|h|h].
    - assert (NE : key <> k) by (intros E; subst k; exact (NK p eq_refl)).
      assert (ND : forall g, snd (step s (EPart k p)) <> Done key g).
      { intros g. cbn [ProposalModel.step].
        assert (P : forall g, snd (handle_part s k p) <> Done key g).
        { intros g'. unfold ProposalModel.handle_part, ProposalModel.handle_init, ProposalModel.handle_batch,
            ProposalModel.handle_fin, manager_execute. 
          splitall; cbn [snd]; repeat match goal with H : (_, _) = (_, _) |- _ => inversion H; clear H; subst end;
            congruence. }
        destruct (handle_part s k p) as [s' e]. cbn [snd] in P. destruct e; cbn [snd]; try discriminate; apply P. }
      split; [intros k' p' g E; inversion E; subst; apply ND|].
      split; [intros g E; destruct (ND g E)|]. rewrite frame_part by exact NE. exact IV.
    - split; [discriminate|]. exact (inv_decided m s k IV NF).
    - split; [discriminate|]. split; [apply nothing_ok|]. cbn [ProposalModel.step fst].
      unfold view in *. fields. refine (inv_weaken _ _ _ _ _ _ _ _ _ IV _ _ _); auto.
      unfold parent_known. cbn [t_decided t_committed set_committed]. rewrite mem_set.
      destruct (fst key =? 0), (al_mem N.eqb (fst key - 1) (t_decided s)), (fst key - 1 =? h); cbn; auto.
    - split; [discriminate|]. revert NF. cbn [ProposalModel.step].
      destruct (al_mem N.eqb h (t_committed s)) eqn:CM.
      + intros NF. apply inv_exec; [|intros HK|exact NF].
        * unfold view in *. fields. refine (inv_weaken _ _ _ _ _ _ _ _ _ IV _ _ _); auto.
          unfold parent_known. cbn [t_decided t_committed set_decided]. rewrite mem_remove.
          destruct (N.eqb_spec (fst key - 1) h) as [EK|]; cbn [negb andb]; [|auto].
          rewrite EK, CM. intros _. apply orb_true_r.
        * unfold parent_known. cbn [t_decided t_committed set_decided]. rewrite HK, N.add_sub, CM. apply orb_true_r.
      + intros _. split; [apply nothing_ok|exact IV].
  Qed.

  (** a whole run *)
  Lemma inv_run es : forall m s s' rs,
    Forall (fun b => b <> []) bs -> i_height i = fst key ->
    Inv m (view s) ->
    (exists rest, skipn m (proposal i bs c n) = parts_of key es ++ rest) ->
    run s es = Some (s', rs) ->
    Inv (m + length (parts_of key es)) (view s') /\ Forall done_ok rs.
  Proof.
    induction es as [|e es IH]; intros m s s' rs FB HH IV (rest & PR) R; cbn [ProposalModel.run] in R.
    - inversion R; subst. cbn. rewrite Nat.add_0_r. auto.
    - destruct (step s e) as [s1 r] eqn:ST.
      assert (NF : r <> Fatal) by (intros E; subst r; discriminate).
      assert (R1 : exists rs1, run s1 es = Some (s', rs1) /\ rs = r :: rs1).
      { destruct r; try discriminate; try contradiction;
          (destruct (run s1 es) as [[s2 rs2]|]; [|discriminate]; inversion R; subst; eauto). }
      destruct R1 as (rs1 & R1 & ->). clear R.
      assert (CASE : (exists p, e = EPart key p) \/ (forall p, e <> EPart key p)).
      { destruct e as [k p| | |]; [|right; discriminate|right; discriminate|right; discriminate].
        destruct (key_eqb k) as [EQ|NE]; [left; rewrite EQ; eauto|right; congruence]. }
      destruct CASE as [(p & ->)|NK].
      + cbn [parts_of] in PR |- *. destruct (sid_eqb_spec key key) as [_|X]; [|congruence].
        cbn [app] in PR.
        assert (NP : nth_error (proposal i bs c n) m = Some p).
        { rewrite <- (firstn_skipn m (proposal i bs c n)), PR.
          assert (LM : (m < length (proposal i bs c n))%nat).
          { destruct (Nat.ltb_spec m (length (proposal i bs c n))); [assumption|].
            rewrite skipn_all2 in PR by assumption. discriminate. }
          rewrite nth_error_app2 by (rewrite firstn_length; lia).
          rewrite firstn_length, Nat.min_l by lia. rewrite Nat.sub_diag. reflexivity. }
        pose proof (inv_own m s p FB HH IV NP) as PO.
        assert (SN : snd (step s (EPart key p)) <> Fatal) by (rewrite ST; exact NF).
        destruct (post_step _ _ _ PO SN) as (DO & IV1). rewrite ST in DO, IV1. cbn [fst snd] in DO, IV1.
        destruct (IH (S m) s1 s' rs1 FB HH IV1) as (A & B).
        * exists rest. apply (skipn_next _ _ _ _ PR).
        * exact R1.
        * cbn [length]. rewrite Nat.add_succ_r. split; [exact A|]. apply Forall_cons; assumption.
      + assert (SN : snd (step s e) <> Fatal) by (rewrite ST; exact NF).
        destruct (inv_step_other _ _ _ IV NK SN) as (_ & DO & IV1). rewrite ST in DO, IV1. cbn [fst snd] in DO, IV1.
        assert (PE : parts_of key (e :: es) = parts_of key es).
        { destruct e as [k p| | |]; try reflexivity. cbn [parts_of].
          destruct (sid_eqb_spec key k) as [EQ|]; [destruct (NK p); rewrite EQ; reflexivity|reflexivity]. }
        rewrite PE in *. destruct (IH m s1 s' rs1 FB HH IV1 (ex_intro _ rest PR) R1) as (A & B).
        split; [exact A|]. apply Forall_cons; assumption.
  Qed.

  Lemma inv_new committed : Inv 0 (view (task_new committed)).
  Proof. split; [left; reflexivity|]. split; [intros _; split; reflexivity|]. split; exact I. Qed.
End Task.
