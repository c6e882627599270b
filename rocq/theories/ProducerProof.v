(* Proofs for ProducerProperties. *)
From Coq Require Import List Arith NArith Bool Lia ZifyBool ZifyNat ZifyN.
From Verif Require Import AList StateUpdateModel ChainModel ChainSpec ChainProof ProducerModel ProducerSpec.
Import ListNotations.
Local Open Scope N_scope.
#[local] Arguments al_get : simpl never.
#[local] Arguments al_set : simpl never.
#[local] Arguments al_remove : simpl never.
#[local] Arguments al_retain : simpl never.

Definition proper (c : chain) : Prop :=
  (forall n b, block_at c n = Some b -> lb_number b = n) /\ linked c.

Definition good_event (c : chain) (e : sync_event) : Prop :=
  match e with
  | DownloadedBlock b =>
      lb_number b = clen c /\ wf_data (lb_data b) /\
      forall n h x, tip_of c = Some (n, h, x) -> lb_parent b = h
  | FinalizedConsensusBlock _ | Failure => False
  | _ => True
  end.
Fixpoint good_events (c : chain) (es : list sync_event) : Prop :=
  match es with
  | [] => True
  | e :: r => good_event c e /\ good_events (announce c e) r
  end.

Lemma good_events_app c es1 es2 :
  good_events c (es1 ++ es2) <-> good_events c es1 /\ good_events (fold_left announce es1 c) es2.
Proof. revert c. induction es1 as [|e es1 IH]; intros c; cbn [app good_events fold_left]; [tauto|]. rewrite IH. tauto. Qed.

Lemma tip_of_some c n h x :
  proper c -> tip_of c = Some (n, h, x) ->
  clen c = n + 1 /\ exists b, block_at c n = Some b /\ lb_hash b = h /\ lb_commitment b = x.
Proof.
  intros [NU _] T. unfold tip_of in T. destruct (block_at c (clen c - 1)) as [b|] eqn:B; [|discriminate].
  injection T as <- <- <-. pose proof (block_at_lt _ _ _ B). rewrite (NU _ _ B).
  split; [lia|]. eauto.
Qed.
Lemma tip_of_none c : tip_of c = None -> c = [].
Proof.
  unfold tip_of. destruct (block_at c (clen c - 1)) as [b|] eqn:B; [discriminate|]. intros _.
  destruct c as [|b c]; [reflexivity|]. unfold block_at in B. apply nth_error_None in B. unfold clen in B. cbn [length] in B. lia.
Qed.
Lemma tip_of_app c b : tip_of (c ++ [b]) = Some (lb_number b, lb_hash b, lb_commitment b).
Proof.
  unfold tip_of. rewrite clen_app. replace (clen c + 1 - 1) with (clen c) by lia.
  rewrite block_at_app_new. reflexivity.
Qed.

Lemma linked_firstn t c : linked c -> linked (firstn t c).
Proof.
  intros L n b b' B B'. pose proof (block_at_lt _ _ _ B') as LT. unfold clen in LT. rewrite firstn_length in LT.
  rewrite block_at_firstn in B by lia. rewrite block_at_firstn in B' by lia. eauto.
Qed.
Lemma proper_firstn t c : proper c -> proper (firstn t c).
Proof.
  intros [NU L]. split; [|apply linked_firstn; exact L].
  intros n b B. pose proof (block_at_lt _ _ _ B) as LT. unfold clen in LT. rewrite firstn_length in LT.
  rewrite block_at_firstn in B by lia. eauto.
Qed.
Lemma announce_proper c e : proper c -> good_event c e -> proper (announce c e).
Proof.
  intros P G. destruct e as [n x|b|b|t|x|]; cbn in *; try exact P; try contradiction.
  - destruct G as (E & _ & PA). destruct P as [NU L]. split.
    + intros n y B. apply block_at_app_inv in B. destruct B as [[_ B]|[-> ->]]; eauto.
    + intros n y y' B B'. pose proof (block_at_lt _ _ _ B') as LT. rewrite clen_app in LT.
      apply block_at_app_inv in B'. destruct B' as [[L' B']|[EQ ->]].
      * rewrite block_at_app_old in B by lia. eauto.
      * rewrite block_at_app_old in B by lia. eapply PA. unfold tip_of.
        replace (clen c - 1) with n by lia. rewrite B. reflexivity.
  - apply proper_firstn. exact P.
Qed.
Lemma announces_proper es : forall c, proper c -> good_events c es -> proper (fold_left announce es c).
Proof.
  induction es as [|e es IH]; intros c P G; cbn in *; [exact P|]. destruct G as [G Gs].
  apply IH; [apply announce_proper; assumption|exact Gs].
Qed.

(* ---- the cache ---- *)
Definition cache_ok (c : chain) (k : cache) : Prop :=
  forall n h x, nget n (k_map k) = Some (h, x) ->
    n <= k_head k /\ exists b, block_at c n = Some b /\ lb_hash b = h /\ lb_commitment b = x.

Lemma cache_reset c : cache_ok c reset_to_genesis.
Proof. intros n h x G. discriminate. Qed.

Lemma push_get full n h c k i v :
  (forall j w, nget j (k_map k) = Some w -> j <= k_head k) ->
  nget i (k_map (push full n h c k)) = Some v ->
  (i = n /\ v = (h, c)) \/ (i < n /\ nget i (k_map k) = Some v).
Proof.
  intros B G. cbn [push k_map] in G. destruct (N.eq_dec i n) as [->|NE].
  - rewrite (al_get_set_eq _ neqb_spec) in G. left. split; congruence.
  - rewrite (al_get_set_neq _ neqb_spec) in G by exact NE. right.
    assert (G' : nget i (al_retain (fun i => negb ((n <=? i) && (i <=? k_head k))) (k_map k)) = Some v).
    { destruct full; [|exact G]. destruct (N.eq_dec i (k_tail k)) as [->|NT].
      - rewrite (al_get_remove_eq _ neqb_spec) in G. discriminate.
      - rewrite (al_get_remove_neq _ neqb_spec) in G by exact NT. exact G. }
    rewrite (al_get_retain _ neqb_spec) in G'. destruct (negb _) eqn:T; [|discriminate].
    split; [|exact G']. apply B in G'. lia.
Qed.

Lemma push_ok full c c' k n b :
  cache_ok c k -> (forall i, i < n -> block_at c' i = block_at c i) -> block_at c' n = Some b ->
  cache_ok c' (push full n (lb_hash b) (lb_commitment b) k).
Proof.
  intros K SAME B i h x G. cbn [push k_head].
  assert (KB : forall j w, nget j (k_map k) = Some w -> j <= k_head k).
  { intros j [h' x'] G'. apply K in G'. tauto. }
  destruct (push_get _ _ _ _ _ _ _ KB G) as [[-> E]|[L G']].
  - split; [lia|]. exists b. split; [exact B|]. split; congruence.
  - split; [lia|]. apply K in G'. destruct G' as (_ & y & Y & E). exists y. rewrite SAME by exact L. auto.
Qed.

Lemma latest_blocks_ok d low c : heads (d_headers d) low c -> forall k n i h x,
  In (i, h, x) (latest_blocks k d n) ->
  i <= n /\ exists b, block_at c i = Some b /\ lb_hash b = h /\ lb_commitment b = x.
Proof.
  intros H. induction k as [|k IH]; intros n i h x I; [destruct I|]. cbn [latest_blocks] in I.
  destruct (header_at d n) as [y|] eqn:E; [|destruct I]. apply in_app_or in I. destruct I as [I|[I|[]]].
  - destruct (N.eqb_spec n 0); [destruct I|]. apply IH in I. destruct I as [L I]. split; [lia|exact I].
  - injection I as <- <- <-. split; [lia|]. unfold header_at in E. apply find_some in E. destruct E as [I E].
    apply H in I. destruct I as (_ & b & B & EH & _ & EC). apply N.eqb_eq in E. rewrite E in B. eauto.
Qed.
Lemma latest_blocks_last k d n : forall r t, rev (latest_blocks k d n) = t :: r -> fst (fst t) = n.
Proof.
  intros r t E. destruct k as [|k]; [discriminate|]. cbn [latest_blocks] in E. destruct (header_at d n); [|discriminate].
  rewrite rev_app_distr in E. cbn in E. injection E as <- _. reflexivity.
Qed.
Lemma in_skipn {A} n (l : list A) x : In x (skipn n l) -> In x l.
Proof. intros I. rewrite <- (firstn_skipn n l). apply in_or_app. auto. Qed.
Lemma rev_skipn_head {A} n (l : list A) x r : rev (skipn n l) = x :: r -> exists r', rev l = x :: r'.
Proof.
  intros E. rewrite <- (firstn_skipn n l), rev_app_distr, E. cbn. eauto.
Qed.
Lemma with_capacity_ok c cap (l : list tip) :
  (forall i h x, In (i, h, x) l -> (forall t r, rev l = t :: r -> i <= fst (fst t)) /\
     exists b, block_at c i = Some b /\ lb_hash b = h /\ lb_commitment b = x) ->
  cache_ok c (with_capacity cap l).
Proof.
  intros H n h x G. cbn [with_capacity k_map k_head] in *. apply al_get_in in G; [|exact neqb_spec].
  apply in_map_iff in G. destruct G as ([[n' h'] x'] & E & I). injection E as -> -> ->.
  pose proof (H n h x (in_skipn _ _ _ I)) as [LE B]. split; [|exact B].
  destruct (rev (skipn (length l - cap) l)) as [|[[n' h'] x'] r] eqn:R.
  - exfalso. apply -> in_rev in I. unfold tip in *. rewrite R in I. destruct I.
  - destruct (rev_skipn_head _ _ _ _ R) as (r' & R'). apply (LE _ _ R').
Qed.

(* ---- the producer ---- *)
Definition waiting_ok (m : list (N * (l2_block * list N))) : Prop :=
  forall k b cs, In (k, (b, cs)) m -> lb_number b = k /\ wf_data (lb_data b).
Definition phase_ok (c : chain) (ph : phase) : Prop :=
  match ph with Bulk start m => start = clen c /\ waiting_ok m | _ => True end.
Definition producer_ok (c : chain) (p : producer) : Prop :=
  p_phase p <> Ended -> p_head p = tip_of c /\ cache_ok c (p_blocks p) /\ phase_ok c (p_phase p).

Lemma start_producer_ok size cap d low c :
  heads (d_headers d) low c -> low_ok low c -> proper c -> producer_ok c (start_producer size cap d).
Proof.
  intros H L [NU _] _. unfold start_producer. pose proof (heads_latest d low c H L) as T.
  destruct (top_header (d_headers d)) as [h|]; cbn [p_head p_blocks p_phase phase_ok].
  - destruct T as (NE & E & I). apply H in I. destruct I as (_ & b & B & EH & _ & EC).
    split; [|split].
    + unfold tip_of. rewrite <- E, B, (NU _ _ B). congruence.
    + apply with_capacity_ok. intros i y x I. split.
      * intros t r R. rewrite (latest_blocks_last _ _ _ _ _ R). apply (latest_blocks_ok _ _ _ H _ _ _ _ _ I).
      * apply (latest_blocks_ok _ _ _ H _ _ _ _ _ I).
    + split; [|intros k z cs []]. apply block_at_lt in B. lia.
  - subst c. split; [reflexivity|]. split; [|split; [reflexivity|intros k z cs []]].
    apply with_capacity_ok. intros i y x [].
Qed.

Lemma announce_classes cs c : fold_left announce (map ClassDefinition cs) c = c.
Proof. induction cs as [|x cs IH]; cbn; auto. Qed.
Lemma good_classes cs c : good_events c (map ClassDefinition cs).
Proof. induction cs as [|x cs IH]; cbn; auto. Qed.

(* download_block never trips its assertion *)
Lemma download_no_panic mode g n prev k :
  (n = 0 \/ prev <> None) -> download_block mode g n prev k <> DownloadPanics.
Proof.
  intros H. unfold download_block. destruct (g_block g n); try discriminate.
  - destruct (negb txs_ok); [discriminate|]. destruct (admits _ _ _); discriminate.
  - destruct (g_head g n) as [m h| |]; try discriminate. destruct (N.leb_spec n m); [discriminate|].
    destruct (N.eqb_spec (m + 1) n) as [E|E]; cbn [andb].
    + destruct prev; cbn [is_some negb]; [|destruct H; [lia|congruence]]. destruct (_ =? h); discriminate.
    + destruct (option_map _ _); [|discriminate]. destruct (_ =? h); discriminate.
Qed.
Lemma download_got mode g n prev k b :
  download_block mode g n prev k = GotBlock b ->
  exists a v, g_block g n = Served b true a v /\ admits mode a v = true.
Proof.
  unfold download_block. destruct (g_block g n) as [y t a v| |]; try discriminate.
  - destruct t; cbn [negb]; [|discriminate]. destruct (admits mode a v) eqn:A; [|discriminate].
    intros E. injection E as ->. eauto.
  - destruct (g_head g n) as [m h| |]; try discriminate. destruct (n <=? m); [discriminate|].
    destruct (_ && _); [discriminate|]. destruct (if _ : bool then _ else _); [|discriminate].
    destruct (_ =? h); discriminate.
Qed.

(* the search for the fork point *)
Lemma find_new_head_ok mode g c blocks : cache_ok c blocks -> forall k,
  match find_new_head mode g blocks k with
  | NewHead None =>
      forall i b, i < N.of_nat k -> block_at c i = Some b -> ~ serves mode g i (lb_hash b)
  | NewHead (Some (n, h, x)) =>
      n < N.of_nat k /\ serves mode g n h /\
      (exists b, block_at c n = Some b /\ lb_hash b = h /\ lb_commitment b = x) /\
      forall i b, n < i -> i < N.of_nat k -> block_at c i = Some b -> ~ serves mode g i (lb_hash b)
  | SearchFails => True
  | SearchPanics => False
  end.
Proof.
  intros K. induction k as [|k IH]; cbn [find_new_head].
  - intros i b L. lia.
  - destruct (nget (N.of_nat k) (k_map blocks)) as [[h x]|] eqn:G; [|exact I].
    destruct (K _ _ _ G) as (_ & b & B & EH & EC).
    assert (REC : (~ serves mode g (N.of_nat k) h) ->
      match find_new_head mode g blocks k with
      | NewHead None =>
          forall i b, i < N.of_nat (S k) -> block_at c i = Some b -> ~ serves mode g i (lb_hash b)
      | NewHead (Some (n, h, x)) =>
          n < N.of_nat (S k) /\ serves mode g n h /\
          (exists b, block_at c n = Some b /\ lb_hash b = h /\ lb_commitment b = x) /\
          forall i b, n < i -> i < N.of_nat (S k) -> block_at c i = Some b -> ~ serves mode g i (lb_hash b)
      | SearchFails => True
      | SearchPanics => False
      end).
    { intros NS. destruct (find_new_head mode g blocks k) as [[[[n h'] x']|]| |]; try assumption.
      - destruct IH as (L & S1 & EX & Q). split; [lia|]. split; [exact S1|]. split; [exact EX|].
        intros i y Li Lk Y. destruct (N.eq_dec i (N.of_nat k)) as [->|NE]; [|apply (Q i y Li); [lia|exact Y]].
        rewrite B in Y. injection Y as <-. rewrite EH. exact NS.
      - intros i y Li Y. destruct (N.eq_dec i (N.of_nat k)) as [->|NE]; [|apply (IH i y); [lia|exact Y]].
        rewrite B in Y. injection Y as <-. rewrite EH. exact NS. }
    assert (NOT : forall d, download_block mode g (N.of_nat k) (Some h) blocks = d ->
                  (forall y, d = GotBlock y -> lb_hash y <> h) -> ~ serves mode g (N.of_nat k) h).
    { intros d D Q (y & a & v & E & A & EY). unfold download_block in D. rewrite E, A in D. cbn in D.
      exact (Q y (eq_sym D) EY). }
    pose proof (download_no_panic mode g (N.of_nat k) (Some h) blocks ltac:(right; discriminate)) as NP.
    destruct (download_block mode g (N.of_nat k) (Some h) blocks) as [y| | | | |] eqn:D; try exact I; try congruence.
    + destruct (N.eqb_spec (lb_hash y) h) as [EY|NE].
      * split; [lia|]. split; [|split; [eauto|intros i z; lia]].
        destruct (download_got _ _ _ _ _ _ D) as (a & v & S1 & A). exists y, a, v. auto.
      * apply REC. apply (NOT _ eq_refl). intros z Z. injection Z as <-. exact NE.
    + apply REC. apply (NOT _ eq_refl). discriminate.
    + apply REC. apply (NOT _ eq_refl). discriminate.
    + apply REC. apply (NOT _ eq_refl). discriminate.
Qed.

Lemma tip_firstn c n b : proper c -> block_at c n = Some b ->
  tip_of (firstn (N.to_nat (n + 1)) c) = Some (n, lb_hash b, lb_commitment b).
Proof.
  intros P B. pose proof (block_at_lt _ _ _ B) as L. unfold tip_of.
  assert (E : clen (firstn (N.to_nat (n + 1)) c) = n + 1) by (unfold clen in *; rewrite firstn_length; lia).
  rewrite E. replace (n + 1 - 1) with n by lia. rewrite block_at_firstn by lia. rewrite B.
  rewrite (proj1 P _ _ B). reflexivity.
Qed.

Lemma roll_back_ok mode g c p p' es :
  proper c -> p_phase p <> Ended -> producer_ok c p -> roll_back mode g p = (p', es) ->
  good_events c es /\ producer_ok (fold_left announce es c) p'.
Proof.
  intros P A OK R. destruct (OK A) as (H & K & _). unfold roll_back in R. rewrite H in R.
  destruct (tip_of c) as [[[n h] x]|] eqn:T.
  - pose proof (find_new_head_ok mode g c (p_blocks p) K (N.to_nat n)) as F.
    destruct (find_new_head _ _ _ _) as [[[[n' h'] x']|]| |].
    + injection R as <- <-. destruct F as (L & _ & (b & B & EH & EC) & _). cbn [good_events good_event]. split; [auto|].
      cbn [fold_left announce tail_of]. intros _. cbn [p_head p_blocks p_phase phase_ok]. split; [|split; [|exact I]].
      * rewrite (tip_firstn c n' b P B). rewrite EH, EC; reflexivity.
      * subst h' x'. apply (push_ok _ c); [exact K| |].
        -- intros i Li. apply block_at_firstn. lia.
        -- rewrite block_at_firstn by lia. exact B.
    + injection R as <- <-. cbn. split; [auto|]. intros _. split; [reflexivity|]. split; [apply cache_reset|exact I].
    + injection R as <- <-. split; [exact I|]. intros E. exfalso. apply E. reflexivity.
    + destruct F.
  - apply tip_of_none in T. subst c. injection R as <- <-. split; [exact I|]. intros _. cbn.
    split; [reflexivity|]. split; [apply cache_reset|exact I].
Qed.

Lemma next_of_tip c : proper c -> match tip_of c with Some (n, _, _) => n + 1 | None => 0 end = clen c.
Proof.
  intros P. destruct (tip_of c) as [[[n h] x]|] eqn:T.
  - apply (tip_of_some _ _ _ _ P) in T. lia.
  - apply tip_of_none in T. subst c. reflexivity.
Qed.

Lemma track_ok mode g c p p' es :
  proper c -> p_phase p = Tracking -> producer_ok c p -> numbered g -> well_formed g ->
  track mode g p = (p', es) ->
  good_events c es /\ producer_ok (fold_left announce es c) p'.
Proof.
  intros P PH OK NU WF T. assert (A : p_phase p <> Ended) by congruence. destruct (OK A) as (H & K & _).
  assert (STOP : producer_ok c (ended p)) by (intros E; exfalso; apply E; reflexivity).
  unfold track in T. rewrite H in T.
  rewrite (next_of_tip c P) in T.
  set (prev := match tip_of c with Some (_, h, _) => Some h | None => None end) in T.
  destruct (download_block mode g (clen c) prev (p_blocks p)) as [b| | | | |] eqn:D.
  - destruct (download_got _ _ _ _ _ _ D) as (a & v & SV & _).
    destruct (match prev with Some h => negb (h =? lb_parent b) | None => false end) eqn:PB;
      [eapply roll_back_ok; eauto|].
    destruct (g_classes g (clen c)) as [cs|]; [|injection T as <- <-; split; [exact I|exact STOP]].
    assert (STOP' : good_events c (map ClassDefinition cs) /\
                    producer_ok (fold_left announce (map ClassDefinition cs) c) (ended p)).
    { rewrite announce_classes. split; [apply good_classes|exact STOP]. }
    destruct (g_signature g (clen c)) as [sh|]; [|injection T as <- <-; exact STOP'].
    destruct (negb (lb_hash b =? sh)); [injection T as <- <-; exact STOP'|].
    injection T as <- <-. rewrite good_events_app, fold_left_app, announce_classes.
    cbn [good_events good_event announce fold_left]. split.
    + split; [apply good_classes|]. split; [|exact I]. split; [eapply NU; eauto|]. split; [eapply WF; eauto|].
      intros n h x TI. subst prev. rewrite TI in PB. lia.
    + intros _. cbn [p_head p_blocks p_phase phase_ok]. split; [|split; [|exact I]].
      * rewrite tip_of_app, (NU _ _ _ _ _ SV). reflexivity.
      * apply (push_ok _ c); [exact K| |].
        -- intros i Li. rewrite block_at_app_old by exact Li. reflexivity.
        -- apply block_at_app_new.
  - injection T as <- <-. split; [exact I|exact OK].
  - injection T as <- <-. split; [exact I|exact OK].
  - eapply roll_back_ok; eauto.
  - injection T as <- <-. split; [exact I|exact STOP].
  - injection T as <- <-. split; [exact I|exact STOP].
Qed.

(* ---- bulk sync ---- *)
Lemma ordered_insert_in {V} k (v : V) m x : In x (ordered_insert k v m) -> x = (k, v) \/ In x m.
Proof.
  induction m as [|[k' v'] m IH]; cbn [ordered_insert]; [intros [<-|[]]; auto|].
  destruct (k <? k'); [intros [<-|I]; auto|]. destruct (k =? k').
  - intros [<-|I]; [auto|]. right. right. exact I.
  - intros [<-|I]; [right; left; reflexivity|]. destruct (IH I) as [->|J]; [auto|]. right. right. exact J.
Qed.
Fixpoint run_from {V} (start : N) (m : list (N * V)) : Prop :=
  match m with [] => True | (k, _) :: r => k = start /\ run_from (start + 1) r end.
Lemma take_run_ok {V} (m : list (N * V)) : forall start run rest s,
  take_run start m = (run, rest, s) ->
  m = run ++ rest /\ run_from start run /\ s = start + N.of_nat (length run).
Proof.
  induction m as [|[k v] m IH]; intros start run rest s E; cbn [take_run] in E.
  - injection E as <- <- <-. cbn. split; [reflexivity|]. split; [exact I|lia].
  - destruct (N.eqb_spec k start) as [->|NE].
    + destruct (take_run (start + 1) m) as [[r1 r2] s'] eqn:T. injection E as <- <- <-.
      destruct (IH _ _ _ _ T) as (-> & R & ->). cbn. split; [reflexivity|]. split; [auto|lia].
    + injection E as <- <- <-. cbn. split; [reflexivity|]. split; [exact I|lia].
Qed.

Lemma emit_run_ok full run : forall c blocks head' blocks' es stop,
  proper c -> cache_ok c blocks -> waiting_ok run -> run_from (clen c) run ->
  emit_run full run (tip_of c) blocks = (head', blocks', es, stop) ->
  good_events c es /\ head' = tip_of (fold_left announce es c) /\
  cache_ok (fold_left announce es c) blocks' /\
  (stop = false -> clen (fold_left announce es c) = clen c + N.of_nat (length run)).
Proof.
  induction run as [|[k [b cs]] run IH]; intros c blocks head' blocks' es stop P K W R E; cbn [emit_run] in E.
  - injection E as <- <- <- <-. cbn. split; [exact I|]. split; [reflexivity|]. split; [exact K|intros _; lia].
  - destruct (W k b cs (or_introl eq_refl)) as [NB WD]. destruct R as [-> R].
    destruct (match tip_of c with Some (_, h, _) => negb (h =? lb_parent b) | None => false end) eqn:PB.
    + injection E as <- <- <- <-. cbn. split; [exact I|]. split; [reflexivity|]. split; [exact K|discriminate].
    + assert (G : good_event c (DownloadedBlock b)).
      { split; [exact NB|]. split; [exact WD|]. intros n h x T. rewrite T in PB. lia. }
      pose proof (announce_proper c _ P G) as P'. cbn [announce] in P'.
      rewrite <- (tip_of_app c b) in E.
      destruct (emit_run full run (tip_of (c ++ [b])) _) as [[[h2 k2] es2] s2] eqn:E2.
      injection E as <- <- <- <-.
      edestruct (IH (c ++ [b])) as (G2 & H2 & K2 & L2); [exact P'| | | |exact E2|].
      * rewrite NB. apply (push_ok _ c); [exact K| |apply block_at_app_new].
        intros i Li. apply block_at_app_old. exact Li.
      * intros k' b' cs' I'. apply (W k' b' cs'). right. exact I'.
      * rewrite clen_app. exact R.
      * rewrite good_events_app, fold_left_app, announce_classes. cbn [fold_left announce good_events].
        split; [split; [apply good_classes|]; split; [exact G|exact G2]|]. split; [exact H2|]. split; [exact K2|].
        intros S2. rewrite (L2 S2), clen_app. cbn. lia.
Qed.

Lemma fetch_some mode g n b cs :
  fetch mode g n = Some (b, cs) -> exists a v, g_block g n = Served b true a v /\ admits mode a v = true.
Proof.
  unfold fetch. destruct (g_block g n) as [y t a v| |]; try discriminate.
  destruct (admits mode a v) eqn:A; cbn [andb]; [|discriminate]. destruct t; [|discriminate].
  destruct (g_signature g n); [|discriminate]. destruct (g_classes g n); [|discriminate].
  intros E. injection E as -> ->. eauto.
Qed.

Lemma bulk_result_ok mode g n c p p' es :
  proper c -> producer_ok c p -> well_formed g -> bulk_result mode g n p = (p', es) ->
  good_events c es /\ producer_ok (fold_left announce es c) p'.
Proof.
  intros P OK WF E. unfold bulk_result in E.
  destruct (p_phase p) as [start m| |] eqn:PH; try (injection E as <- <-; split; [exact I|exact OK]).
  destruct (OK ltac:(congruence)) as (H & K & PO). rewrite PH in PO. cbn [phase_ok] in PO. destruct PO as [-> W].
  destruct (fetch mode g n) as [[b cs]|] eqn:F.
  - destruct (take_run _ _) as [[run rest] s'] eqn:T. rewrite H in E.
    destruct (emit_run _ _ _ _) as [[[h2 k2] es2] s2] eqn:E2. injection E as <- <-.
    destruct (take_run_ok _ _ _ _ _ T) as (EM & RF & ES).
    destruct (fetch_some _ _ _ _ _ F) as (a & v & SV & _).
    assert (W' : waiting_ok (ordered_insert (lb_number b) (b, cs) m)).
    { intros k y ys I. apply ordered_insert_in in I. destruct I as [I|I]; [|eauto].
      injection I as -> -> ->. split; [reflexivity|]. eapply WF; eauto. }
    rewrite EM in W'.
    edestruct emit_run_ok as (G & H2 & K2 & L2); [exact P|exact K| | |exact E2|].
    + intros k y ys I. apply (W' k y ys). apply in_or_app. auto.
    + exact RF.
    + split; [exact G|]. intros _. cbn [p_head p_blocks p_phase]. split; [exact H2|]. split; [exact K2|].
      destruct s2; [exact I|]. cbn [phase_ok]. split; [rewrite (L2 eq_refl); exact ES|].
      intros k y ys I. apply (W' k y ys). apply in_or_app. auto.
  - injection E as <- <-. split; [exact I|]. intros _. cbn. auto.
Qed.

(* ---- the node ---- *)
Record node_ok (c : config) (s : node) : Prop := {
  o_orderly : orderly_run (f_history c) (n_taken s);
  o_gateway : no_finalized (n_taken s);
  o_proper : proper (stored c s);
  o_queue : good_events (stored c s) (n_queue s);
  o_producer : producer_ok (announced_chain c s) (n_producer s)
}.

Lemma node_announced c s : node_ok c s -> proper (announced_chain c s).
Proof. intros O. apply announces_proper; apply O. Qed.

Lemma reboot_ok c es :
  orderly_run (f_history c) es -> no_finalized es -> proper (chain_after (f_history c) es) ->
  node_ok c (reboot c es).
Proof.
  intros O NF P. destruct (run_inv _ _ O) as (low & I). constructor; cbn [reboot n_taken n_queue n_producer]; auto.
  - exact Coq.Init.Logic.I.
  - unfold announced_chain. cbn [reboot n_taken n_queue fold_left].
    eapply start_producer_ok; [apply (i_heads _ _ _ I)|apply I|exact P].
Qed.

Lemma no_finalized_snoc es e : no_finalized es -> (forall b, e <> FinalizedConsensusBlock b) -> no_finalized (es ++ [e]).
Proof. intros NF NE b I. apply in_app_or in I. destruct I as [I|[I|[]]]; [exact (NF b I)|exact (NE b I)]. Qed.

Lemma with_producer_ok c s r :
  node_ok c s ->
  good_events (announced_chain c s) (snd r) ->
  producer_ok (fold_left announce (snd r) (announced_chain c s)) (fst r) ->
  node_ok c (with_producer s r).
Proof.
  intros [O NF P Q PR] G OK. constructor; cbn [with_producer n_taken n_queue n_producer]; auto.
  - unfold stored in *. cbn. apply good_events_app. split; [exact Q|exact G].
  - unfold announced_chain, stored in *. cbn [with_producer n_taken n_queue]. rewrite fold_left_app. exact OK.
Qed.

Lemma consume_next c s e q s' :
  node_ok c s -> n_queue s = e :: q ->
  announced (run (f_history c) (n_taken s)) e /\ (forall b, e <> FinalizedConsensusBlock b) /\
  (consume (f_history c) (run (f_history c) (n_taken s)) e = Some s' ->
   chain_after (f_history c) (n_taken s ++ [e]) = announce (stored c s) e).
Proof.
  intros [O NF P Q PR] E. rewrite E in Q. cbn [good_events] in Q. destruct Q as [G Q].
  destruct (run_inv _ _ O) as (low & I).
  pose proof (run_next _ _ O NF) as RN.
  pose proof (next_number_spec _ _ _ (i_heads _ _ _ I) (i_low _ _ _ I)) as NN.
  fold (db_after (f_history c) (n_taken s)) in *.
  change (chain_after (f_history c) (n_taken s)) with (stored c s) in *.
  split; [|split].
  - destruct e; cbn [announced good_event] in *; auto; [|destruct G].
    destruct G as (EN & WD & _). split; [exact WD|]. left. change (c_db _) with (db_after (f_history c) (n_taken s)). lia.
  - intros b ->. destruct G.
  - intros CO. rewrite chain_after_snoc. fold (stored c s). unfold chain_step. rewrite CO.
    destruct e as [n x|b|b|t|x|]; cbn [announce good_event] in *; auto; [|destruct G].
    destruct (N.ltb_spec (lb_number b) (c_next (run (f_history c) (n_taken s)))); [lia|reflexivity].
Qed.

Lemma act_ok c s a : node_ok c s -> permitted s a -> node_ok c (act c s a).
Proof.
  intros OK PE. pose proof OK as [O NF P Q PR]. pose proof (node_announced c s OK) as PA.
  assert (FAIL : node_ok c (reboot c (n_taken s ++ [Failure]))).
  { apply reboot_ok.
    - apply orderly_snoc. split; [exact O|exact I].
    - apply no_finalized_snoc; [exact NF|discriminate].
    - rewrite chain_after_snoc. exact P. }
  destruct a as [| |g|n g| | |n x| | |]; cbn [act].
  - destruct (n_queue s) as [|e q] eqn:EQ; [exact OK|].
    destruct (consume _ _ e) as [s'|] eqn:CO.
    + destruct (consume_next c s e q s' OK EQ) as (AN & NFE & CH). specialize (CH CO).
      cbn [good_events] in Q. destruct Q as [G Q].
      constructor; cbn [n_taken n_queue n_producer].
      * apply orderly_snoc. auto.
      * apply no_finalized_snoc; auto.
      * unfold stored. cbn [n_taken]. rewrite CH. apply announce_proper; assumption.
      * unfold stored. cbn [n_taken]. rewrite CH. exact Q.
      * unfold announced_chain, stored in *. cbn [n_taken n_queue]. rewrite CH. rewrite EQ in PR. exact PR.
    + destruct (consume_next c s e q (start empty_db) OK EQ) as (AN & NFE & _). apply reboot_ok.
      * apply orderly_snoc. auto.
      * apply no_finalized_snoc; auto.
      * rewrite chain_after_snoc. unfold chain_step. rewrite CO. exact P.
  - destruct (n_queue s); [exact OK|exact FAIL].
  - destruct PE as [NU WF]. destruct (p_phase (n_producer s)) eqn:PH; try exact OK.
    destruct (track (f_mode c) g (n_producer s)) as [p' es] eqn:T.
    destruct (track_ok _ _ _ _ _ _ PA PH PR NU WF T) as [G R].
    apply with_producer_ok; assumption.
  - destruct (bulk_result (f_mode c) g n (n_producer s)) as [p' es] eqn:T.
    destruct (bulk_result_ok _ _ _ _ _ _ _ PA PR PE T) as [G R].
    apply with_producer_ok; assumption.
  - destruct (p_phase (n_producer s)) as [start m| |] eqn:PH; try exact OK.
    apply with_producer_ok; [exact OK|exact I|]. cbn [fst snd fold_left]. intros _. cbn.
    destruct (PR ltac:(congruence)) as (H & K & PO). rewrite PH in PO. cbn in PO.
    split; [exact H|]. split; [exact K|]. split; [tauto|intros k b cs []].
  - destruct (p_phase (n_producer s)) as [start m| |] eqn:PH; try exact OK.
    apply with_producer_ok; [exact OK|exact I|]. cbn [fst snd fold_left]. intros _. cbn.
    destruct (PR ltac:(congruence)) as (H & K & PO). auto.
  - constructor; cbn [n_taken n_queue n_producer]; auto.
    + apply good_events_app. split; [exact Q|]. cbn. auto.
    + unfold announced_chain, stored in *. cbn [n_taken n_queue]. rewrite fold_left_app. exact PR.
  - apply with_producer_ok; [exact OK|exact I|]. intros E. exfalso. apply E. reflexivity.
  - destruct (p_phase (n_producer s)) as [start m| |] eqn:PH; try exact OK.
    cbn [permitted] in PE. constructor; cbn [n_taken n_queue n_producer]; auto.
    unfold announced_chain, stored in *. cbn [n_taken n_queue]. rewrite PE. cbn [fold_left].
    destruct (run_inv _ _ O) as (low & IV).
    eapply start_producer_ok; [apply (i_heads _ _ _ IV)|apply IV|exact P].
  - exact FAIL.
Qed.

Lemma empty_proper : proper [].
Proof.
  split; intros n b B.
  - unfold block_at in B. destruct (N.to_nat n); discriminate.
  - intros B'. unfold block_at in *. destruct (N.to_nat n); discriminate.
Qed.
Lemma reachable_ok c s : reachable c s -> node_ok c s.
Proof.
  induction 1 as [|s a R IH PE]; [|apply act_ok; assumption].
  apply reboot_ok; [exact I| |apply empty_proper]. intros b [].
Qed.

Lemma proper_linked_headers m es :
  orderly_run m es -> linked (chain_after m es) -> linked_headers (db_after m es).
Proof.
  intros O L h h' I I' E. destruct (run_inv _ _ O) as (low & IV).
  apply (i_heads _ _ _ IV) in I. apply (i_heads _ _ _ IV) in I'.
  destruct I as (_ & b & B & EH & _), I' as (_ & b' & B' & _ & EP & _).
  rewrite E in B'. rewrite EP, EH. eapply L; eauto.
Qed.

(* ---- convergence ---- *)
Lemma valid_proper c : valid_chain c -> proper c.
Proof. intros [V L]. split; [|exact L]. intros n b B. apply V in B. tauto. Qed.

Lemma firstn_snoc (c : chain) n b :
  block_at c n = Some b -> firstn (S (N.to_nat n)) c = firstn (N.to_nat n) c ++ [b].
Proof.
  unfold block_at. generalize (N.to_nat n) as k. clear n. intros k. revert c.
  induction k as [|k IH]; intros [|y c] B; try discriminate; cbn in *.
  - injection B as ->. reflexivity.
  - rewrite (IH c B) at 1. reflexivity.
Qed.
Lemma block_in c n b : block_at c n = Some b -> In b c.
Proof. intros B. eapply nth_error_In. exact B. Qed.

Lemma common_prefix v g n b b' :
  proper v -> proper g -> no_collision v g ->
  block_at v n = Some b -> block_at g n = Some b' -> lb_hash b = lb_hash b' ->
  firstn (S (N.to_nat n)) v = firstn (S (N.to_nat n)) g.
Proof.
  intros [_ LV] [_ LG] NC. revert b b'. induction n as [|n IH] using N.peano_ind; intros b b' B B' E.
  - assert (b = b') as <- by (apply NC; eauto using block_in).
    rewrite (firstn_snoc _ _ _ B), (firstn_snoc _ _ _ B'). reflexivity.
  - assert (b = b') as <- by (apply NC; eauto using block_in).
    pose proof (block_at_lt _ _ _ B) as L1. pose proof (block_at_lt _ _ _ B') as L2.
    destruct (block_at_ex v n ltac:(lia)) as (y & Y). destruct (block_at_ex g n ltac:(lia)) as (y' & Y').
    rewrite <- N.add_1_r in B, B'.
    pose proof (LV _ _ _ Y B) as P1. pose proof (LG _ _ _ Y' B') as P2.
    rewrite N.add_1_r in B, B'.
    rewrite (firstn_snoc _ _ _ B), (firstn_snoc _ _ _ B'). f_equal.
    rewrite N2Nat.inj_succ. eapply IH; eauto. congruence.
Qed.

Section Converge.
  Variable mode : validation.
  Variable theirs : chain.
  Hypothesis VG : valid_chain theirs.

  Let gw classes full := chain_gateway theirs classes full.

  Lemma gw_numbered cl fu : numbered (gw cl fu).
  Proof.
    intros n b t a v E. cbn in E. destruct (block_at theirs n) as [y|] eqn:B; [|discriminate].
    injection E as <- _ _ _. apply VG in B. tauto.
  Qed.
  Lemma gw_wf cl fu : well_formed (gw cl fu).
  Proof.
    intros n b t a v E. cbn in E. destruct (block_at theirs n) as [y|] eqn:B; [|discriminate].
    injection E as <- _ _ _. apply VG in B. tauto.
  Qed.

  Lemma gw_served cl fu n b prev k :
    block_at theirs n = Some b -> download_block mode (gw cl fu) n prev k = GotBlock b.
  Proof. intros B. unfold download_block. cbn. rewrite B. cbn. reflexivity. Qed.
  Lemma gw_missing cl fu n h k :
    block_at theirs n = None ->
    download_block mode (gw cl fu) n (Some h) k = Wait \/ download_block mode (gw cl fu) n (Some h) k = ReorgSeen.
  Proof.
    intros B. unfold download_block. cbn. rewrite B.
    destruct (tip_of theirs) as [[[m x] y]|] eqn:T; [|auto].
    apply (tip_of_some _ _ _ _ (valid_proper _ VG)) in T. destruct T as [T _].
    assert (L : m < n). { unfold block_at in B. apply nth_error_None in B. unfold clen in T. lia. }
    destruct (N.leb_spec n m); [lia|]. destruct (_ && _) eqn:Q; [cbn in Q; lia|].
    destruct (if _ : bool then _ else _); [|auto]. destruct (_ =? x); auto.
  Qed.

  Lemma search_chain cl fu mine k f : forall j,
    proper mine -> no_collision mine theirs -> cache_ok mine k ->
    (f <= j)%nat -> (j < length mine)%nat -> firstn f mine = firstn f theirs ->
    (forall n, N.of_nat f <= n + 1 -> n + 1 < clen mine -> nget n (k_map k) <> None) ->
    exists i, (i <= j)%nat /\ firstn i mine = firstn i theirs /\
              find_new_head mode (gw cl fu) k j = NewHead (tip_of (firstn i mine)).
  Proof.
    induction j as [|j IH]; intros P NC K LF LJ SAME IN; cbn [find_new_head].
    - exists 0%nat. split; [lia|]. split; reflexivity.
    - destruct (nget (N.of_nat j) (k_map k)) as [[h x]|] eqn:G.
      2: { exfalso. apply (IN (N.of_nat j)); [lia|unfold clen; lia|exact G]. }
      destruct (K _ _ _ G) as (_ & b & B & EH & EC).
      assert (REC : (forall y, block_at theirs (N.of_nat j) = Some y -> lb_hash y <> h) ->
        exists i, (i <= S j)%nat /\ firstn i mine = firstn i theirs /\
                  find_new_head mode (gw cl fu) k j = NewHead (tip_of (firstn i mine))).
      { intros NE. assert (LF' : (f <= j)%nat).
        { destruct (Nat.eq_dec f (S j)) as [->|]; [|lia]. exfalso.
          assert (B' : block_at theirs (N.of_nat j) = Some b).
          { rewrite <- B. rewrite <- (block_at_firstn theirs (S j)) by lia. rewrite <- SAME.
            apply block_at_firstn. lia. }
          exact (NE _ B' EH). }
        destruct (IH P NC K LF' ltac:(lia) SAME IN) as (i & LI & S1 & F). exists i. split; [lia|]. auto. }
      destruct (block_at theirs (N.of_nat j)) as [y|] eqn:Y.
      + rewrite (gw_served _ _ _ _ _ _ Y). destruct (N.eqb_spec (lb_hash y) h) as [E|NE].
        * exists (S j). split; [lia|]. split.
          -- pose proof (common_prefix mine theirs (N.of_nat j) b y P (valid_proper _ VG) NC B Y ltac:(congruence)) as CP.
             rewrite Nat2N.id in CP. exact CP.
          -- pose proof (tip_firstn mine _ _ P B) as T. replace (N.to_nat (N.of_nat j + 1)) with (S j) in T by lia.
             rewrite T, EH, EC. reflexivity.
        * apply REC. intros z Z. injection Z as <-. exact NE.
      + destruct (gw_missing cl fu _ h k Y) as [->| ->]; apply REC; discriminate.
  Qed.

  (* our chain is an initial part of theirs: the next block is taken, or there is none *)
  Lemma track_prefix cl fu mine p :
    proper mine -> p_phase p = Tracking -> producer_ok mine p ->
    mine = firstn (length mine) theirs ->
    exists p' es, track mode (gw cl fu) p = (p', es) /\ p_phase p' = Tracking /\
      fold_left announce es mine = firstn (S (length mine)) theirs.
  Proof.
    intros P PH OK PRE. destruct (OK ltac:(congruence)) as (H & K & _).
    unfold track. rewrite H, (next_of_tip mine P).
    set (prev := match tip_of mine with Some (_, h, _) => Some h | None => None end).
    destruct (block_at theirs (clen mine)) as [b|] eqn:B.
    - rewrite (gw_served _ _ _ _ _ _ B).
      assert (PB : match prev with Some h => negb (h =? lb_parent b) | None => false end = false).
      { subst prev. destruct (tip_of mine) as [[[n h] x]|] eqn:T; [|reflexivity].
        apply (tip_of_some _ _ _ _ P) in T. destruct T as (E & y & Y & EH & _).
        assert (Y' : block_at theirs n = Some y).
        { rewrite <- Y. rewrite PRE. symmetry. apply block_at_firstn. unfold clen in E. lia. }
        rewrite E in B. rewrite (proj2 VG _ _ _ Y' B). rewrite EH, N.eqb_refl. reflexivity. }
      rewrite PB. cbn [g_classes g_signature gw chain_gateway]. rewrite B. cbn [option_map].
      rewrite N.eqb_refl. cbn [negb]. eexists _, _. split; [reflexivity|]. split; [reflexivity|].
      rewrite fold_left_app, announce_classes. cbn [fold_left announce].
      pose proof (firstn_snoc theirs _ _ B) as FS. unfold clen in FS. rewrite Nat2N.id in FS.
      rewrite FS, <- PRE. reflexivity.
    - assert (E : mine = theirs).
      { rewrite PRE. apply firstn_all2. unfold block_at in B. apply nth_error_None in B. unfold clen in B. lia. }
      exists p, []. cbn [fold_left]. split; [|split; [exact PH|]].
      + unfold download_block. cbn [gw chain_gateway g_block g_head]. rewrite B. subst prev. rewrite <- E.
        destruct (tip_of mine) as [[[n h] x]|] eqn:T; [|reflexivity].
        apply (tip_of_some _ _ _ _ P) in T. destruct T as (E' & _).
        destruct (N.leb_spec (clen mine) n); [lia|].
        destruct (N.eqb_spec (n + 1) (clen mine)); [|lia]. cbn [andb is_some negb].
        rewrite N.eqb_refl. reflexivity.
      + rewrite E. symmetry. apply firstn_all2. lia.
  Qed.

  (* in every other case it waits, or goes back to an initial part of theirs *)
  Lemma track_fork cl fu mine p :
    proper mine -> p_phase p = Tracking -> producer_ok mine p -> no_collision mine theirs ->
    remembers_fork mine theirs (p_blocks p) -> mine <> firstn (length mine) theirs ->
    exists p' es, track mode (gw cl fu) p = (p', es) /\ p_phase p' = Tracking /\
      ((theirs = firstn (length theirs) mine /\ p' = p /\ es = []) \/
       exists i, fold_left announce es mine = firstn i theirs /\ (i <= length mine)%nat).
  Proof.
    intros P PH OK NC (f & LF & SAME & IN) NPRE. destruct (OK ltac:(congruence)) as (H & K & _).
    assert (NE : mine <> []) by (intros ->; apply NPRE; reflexivity).
    assert (LFs : (f <= length mine - 1)%nat).
    { destruct (Nat.eq_dec f (length mine)) as [->|]; [|lia]. exfalso. apply NPRE.
      rewrite firstn_all in SAME. exact SAME. }
    assert (LM : (length mine <> 0)%nat) by (destruct mine; [congruence|cbn; lia]).
    destruct (search_chain cl fu mine (p_blocks p) f (length mine - 1) P NC K LFs ltac:(lia) SAME IN)
      as (i & LI & SI & FN).
    destruct (tip_of mine) as [[[n h] x]|] eqn:T; [|apply tip_of_none in T; congruence].
    destruct (tip_of_some _ _ _ _ P T) as (EN & b & B & EH & EC).
    assert (EK : N.to_nat n = (length mine - 1)%nat) by (unfold clen in EN; lia).
    assert (RB : exists p' es, roll_back mode (gw cl fu) p = (p', es) /\ p_phase p' = Tracking /\
                 exists i, fold_left announce es mine = firstn i theirs /\ (i <= length mine)%nat).
    { unfold roll_back. rewrite H, EK, FN. eexists _, _. split; [reflexivity|]. split; [reflexivity|].
      exists i. split; [|lia]. cbn [fold_left announce]. rewrite <- SI. f_equal.
      pose proof (next_of_tip (firstn i mine) (proper_firstn i _ P)) as NT.
      unfold tail_of. rewrite NT. unfold clen. rewrite firstn_length. lia. }
    destruct RB as (p' & es & RB & PH' & EX).
    unfold track. rewrite H. cbv beta iota zeta.
    destruct (block_at theirs (n + 1)) as [y|] eqn:Y.
    - rewrite (gw_served _ _ _ _ _ _ Y).
      assert (PB : negb (h =? lb_parent y) = true).
      { destruct (N.eqb_spec h (lb_parent y)) as [E|]; [|reflexivity]. exfalso. apply NPRE.
        pose proof (block_at_lt _ _ _ Y) as LY.
        destruct (block_at_ex theirs n ltac:(lia)) as (z & Z).
        pose proof (proj2 VG _ _ _ Z Y) as PZ.
        pose proof (common_prefix mine theirs n b z P (valid_proper _ VG) NC B Z ltac:(congruence)) as CP.
        replace (S (N.to_nat n)) with (length mine) in CP by lia. rewrite firstn_all in CP. exact CP. }
      rewrite PB. exists p', es. auto.
    - unfold download_block. cbn [gw chain_gateway g_block g_head]. rewrite Y.
      destruct (tip_of theirs) as [[[n' h'] x']|] eqn:T'.
      2: { apply tip_of_none in T'. exists p, []. split; [reflexivity|]. split; [exact PH|]. left.
           rewrite T'. auto. }
      destruct (tip_of_some _ _ _ _ (valid_proper _ VG) T') as (EN' & b' & B' & EH' & EC').
      assert (L : n' <= n). { unfold block_at in Y. apply nth_error_None in Y. unfold clen in EN'. lia. }
      destruct (N.leb_spec (n + 1) n'); [lia|]. cbn [is_some negb]. rewrite andb_false_r.
      assert (G : (if n' + 1 =? n + 1 then Some h else option_map fst (nget n' (k_map (p_blocks p)))) = None \/
                  exists y, block_at mine n' = Some y /\
                  (if n' + 1 =? n + 1 then Some h else option_map fst (nget n' (k_map (p_blocks p)))) = Some (lb_hash y)).
      { destruct (N.eqb_spec (n' + 1) (n + 1)) as [E|NEQ].
        - right. exists b. replace n' with n by lia. split; [exact B|congruence].
        - destruct (nget n' (k_map (p_blocks p))) as [[u w]|] eqn:GG; [|left; reflexivity].
          right. destruct (K _ _ _ GG) as (_ & z & Z & EZ & _). exists z. cbn. split; [exact Z|congruence]. }
      destruct G as [->|(z & Z & ->)]; [exists p', es; auto|].
      destruct (N.eqb_spec (lb_hash z) h') as [E|NEQ]; [|exists p', es; auto].
      exists p, []. split; [reflexivity|]. split; [exact PH|]. left. split; [|auto].
      pose proof (common_prefix mine theirs n' z b' P (valid_proper _ VG) NC Z B' ltac:(congruence)) as CP.
      replace (S (N.to_nat n')) with (length theirs) in CP by (unfold clen in EN'; lia).
      rewrite firstn_all in CP. congruence.
  Qed.

  (* they are behind us: it waits *)
  Lemma track_longer cl fu mine p :
    proper mine -> p_phase p = Tracking -> producer_ok mine p ->
    remembers_fork mine theirs (p_blocks p) -> theirs = firstn (length theirs) mine ->
    mine <> firstn (length mine) theirs -> track mode (gw cl fu) p = (p, []).
  Proof.
    intros P PH OK (f & LF & SAME & IN) PRE NPRE. destruct (OK ltac:(congruence)) as (H & K & _).
    assert (LT : (length theirs < length mine)%nat).
    { assert (L : (length theirs <= length mine)%nat) by (rewrite PRE, firstn_length; lia).
      destruct (Nat.eq_dec (length theirs) (length mine)) as [E|]; [|lia]. exfalso. apply NPRE.
      rewrite <- E, firstn_all. rewrite PRE, E, firstn_all. reflexivity. }
    assert (FL : (f <= length theirs)%nat).
    { assert (E : length (firstn f mine) = length (firstn f theirs)) by (rewrite SAME; reflexivity).
      rewrite !firstn_length in E. lia. }
    unfold track. rewrite H, (next_of_tip mine P).
    destruct (tip_of mine) as [[[n h] x]|] eqn:T; [|apply tip_of_none in T; subst mine; cbn in LT; lia].
    destruct (tip_of_some _ _ _ _ P T) as (EN & b & B & EH & EC).
    unfold download_block. cbn [gw chain_gateway g_block g_head].
    replace (block_at theirs (clen mine)) with (@None l2_block)
      by (symmetry; apply nth_error_None; unfold clen; lia).
    destruct (tip_of theirs) as [[[n' h'] x']|] eqn:T'; [|reflexivity].
    destruct (tip_of_some _ _ _ _ (valid_proper _ VG) T') as (EN' & b' & B' & EH' & EC').
    unfold clen in EN, EN'.
    destruct (N.leb_spec (clen mine) n'); [unfold clen in *; lia|].
    destruct (N.eqb_spec (n' + 1) (clen mine)); [unfold clen in *; lia|]. cbn [andb].
    destruct (nget n' (k_map (p_blocks p))) as [[u w]|] eqn:G.
    - destruct (K _ _ _ G) as (_ & z & Z & EZ & _). cbn [option_map fst].
      rewrite PRE, block_at_firstn in B' by lia. rewrite Z in B'. injection B' as <-.
      rewrite <- EZ, EH', N.eqb_refl. reflexivity.
    - exfalso. apply (IN n'); [lia|unfold clen; lia|exact G].
  Qed.

End Converge.

(* several turns *)
Fixpoint tracks_of (mode : validation) (gs : list gateway) (p : producer) : producer * list sync_event :=
  match gs with
  | [] => (p, [])
  | g :: r => let '(p1, es1) := track mode g p in
              let '(p2, es2) := tracks_of mode r p1 in (p2, es1 ++ es2)
  end.

Lemma tracks_prefix mode theirs gs : valid_chain theirs -> forall mine p,
  (forall g, In g gs -> exists cl fu, g = chain_gateway theirs cl fu) ->
  proper mine -> p_phase p = Tracking -> producer_ok mine p -> mine = firstn (length mine) theirs ->
  exists p' es, tracks_of mode gs p = (p', es) /\ p_phase p' = Tracking /\
    fold_left announce es mine = firstn (length mine + length gs) theirs.
Proof.
  intros VG. induction gs as [|g gs IH]; intros mine p GS P PH OK PRE.
  - exists p, []. cbn [tracks_of fold_left length]. rewrite Nat.add_0_r. auto.
  - destruct (GS g (or_introl eq_refl)) as (cl & fu & ->).
    destruct (track_prefix mode theirs VG cl fu mine p P PH OK PRE) as (p1 & es1 & T & PH1 & E1).
    destruct (track_ok _ _ _ _ _ _ P PH OK (gw_numbered theirs VG cl fu) (gw_wf theirs VG cl fu) T) as [G1 OK1].
    pose proof (announces_proper _ _ P G1) as P1.
    assert (PRE1 : fold_left announce es1 mine = firstn (length (fold_left announce es1 mine)) theirs).
    { rewrite E1 at 1 2. rewrite firstn_length.
      destruct (Nat.le_gt_cases (S (length mine)) (length theirs)) as [LE|GT].
      - rewrite Nat.min_l by exact LE. reflexivity.
      - rewrite Nat.min_r by lia. rewrite firstn_all, firstn_all2 by lia. reflexivity. }
    destruct (IH (fold_left announce es1 mine) p1) as (p2 & es2 & T2 & PH2 & E2); auto.
    { intros g' I'. apply GS. right. exact I'. }
    exists p2, (es1 ++ es2). cbn [tracks_of]. rewrite T, T2. split; [reflexivity|]. split; [exact PH2|].
    rewrite fold_left_app, E2. rewrite E1, firstn_length.
    destruct (Nat.le_gt_cases (S (length mine)) (length theirs)) as [LE|GT].
    + rewrite Nat.min_l by exact LE. cbn [length]. f_equal. lia.
    + rewrite !firstn_all2; [reflexivity|cbn [length]; lia|lia].
Qed.

Lemma prefix_dec mine theirs :
  proper mine -> proper theirs -> no_collision mine theirs ->
  mine = firstn (length mine) theirs \/ mine <> firstn (length mine) theirs.
Proof.
  intros P PT NC. destruct (tip_of mine) as [[[n h] x]|] eqn:T.
  2: { apply tip_of_none in T. subst mine. left. reflexivity. }
  destruct (tip_of_some _ _ _ _ P T) as (EN & b & B & EH & _).
  assert (EL : S (N.to_nat n) = length mine) by (unfold clen in EN; lia).
  destruct (block_at theirs n) as [z|] eqn:Z.
  - destruct (N.eq_dec (lb_hash b) (lb_hash z)) as [E|NE].
    + left. pose proof (common_prefix mine theirs n b z P PT NC B Z E) as CP.
      rewrite EL, firstn_all in CP. exact CP.
    + right. intros Q. apply NE. rewrite Q in B. rewrite block_at_firstn in B by lia. congruence.
  - right. intros Q. rewrite Q in B. rewrite block_at_firstn in B by lia. congruence.
Qed.
Lemma firstn_prefix (c : chain) i : firstn i c = firstn (length (firstn i c)) c.
Proof.
  rewrite firstn_length. destruct (Nat.le_gt_cases i (length c)) as [L|L].
  - rewrite Nat.min_l by exact L. reflexivity.
  - rewrite Nat.min_r by lia. rewrite firstn_all, firstn_all2 by lia. reflexivity.
Qed.

Lemma tracks_longer mode theirs gs p mine :
  valid_chain theirs -> (forall g, In g gs -> exists cl fu, g = chain_gateway theirs cl fu) ->
  proper mine -> p_phase p = Tracking -> producer_ok mine p ->
  remembers_fork mine theirs (p_blocks p) -> theirs = firstn (length theirs) mine ->
  mine <> firstn (length mine) theirs -> tracks_of mode gs p = (p, []).
Proof.
  intros VG GS P PH OK RF PRE NPRE. induction gs as [|g gs IH]; [reflexivity|]. cbn [tracks_of].
  destruct (GS g (or_introl eq_refl)) as (cl & fu & ->).
  rewrite (track_longer mode theirs VG cl fu mine p P PH OK RF PRE NPRE).
  rewrite IH by (intros g' I'; apply GS; right; exact I'). reflexivity.
Qed.

Lemma tracks_converge mode theirs gs mine p :
  valid_chain theirs -> (forall g, In g gs -> exists cl fu, g = chain_gateway theirs cl fu) ->
  proper mine -> p_phase p = Tracking -> producer_ok mine p -> no_collision mine theirs ->
  remembers_fork mine theirs (p_blocks p) ->
  exists p' es, tracks_of mode gs p = (p', es) /\ p_phase p' = Tracking /\
    ((theirs = firstn (length theirs) mine /\ fold_left announce es mine = mine) \/
     ((length theirs < length gs)%nat -> fold_left announce es mine = theirs)).
Proof.
  intros VG GS P PH OK NC RF.
  destruct (prefix_dec mine theirs P (valid_proper _ VG) NC) as [PRE|NPRE].
  { destruct (tracks_prefix mode theirs gs VG mine p GS P PH OK PRE) as (p' & es & T & PH' & E).
    exists p', es. split; [exact T|]. split; [exact PH'|]. right. intros L. rewrite E. apply firstn_all2. lia. }
  assert (NC' : no_collision theirs mine).
  { intros b b' I I' E. symmetry. apply NC; auto. }
  destruct (prefix_dec theirs mine (valid_proper _ VG) P NC') as [PT|NPT].
  { rewrite (tracks_longer mode theirs gs p mine VG GS P PH OK RF PT NPRE).
    exists p, []. split; [reflexivity|]. split; [exact PH|]. left. auto. }
  destruct gs as [|g gs].
  - exists p, []. split; [reflexivity|]. split; [exact PH|]. right. cbn [length]. lia.
  - destruct (GS g (or_introl eq_refl)) as (cl & fu & ->).
    assert (GS' : forall g', In g' gs -> exists cl fu, g' = chain_gateway theirs cl fu)
      by (intros g' I'; apply GS; right; exact I').
    destruct (track_fork mode theirs VG cl fu mine p P PH OK NC RF NPRE) as (p1 & es1 & T & PH1 & D).
    destruct (track_ok _ _ _ _ _ _ P PH OK (gw_numbered theirs VG cl fu) (gw_wf theirs VG cl fu) T) as [G1 OK1].
    pose proof (announces_proper _ _ P G1) as P1.
    cbn [tracks_of]. rewrite T. destruct D as [(PT & _)|(i & E1 & LI)]; [contradiction|].
    destruct (tracks_prefix mode theirs gs VG (fold_left announce es1 mine) p1) as (p2 & es2 & T2 & PH2 & E2); auto.
    { rewrite E1 at 1 2. apply firstn_prefix. }
    rewrite T2. exists p2, (es1 ++ es2). split; [reflexivity|]. split; [exact PH2|]. right. intros L.
    rewrite fold_left_app, E2. apply firstn_all2. cbn [length] in L. lia.
Qed.

Fixpoint gateways (l : list action) : list gateway :=
  match l with [] => [] | Track g :: r => g :: gateways r | _ :: r => gateways r end.
Lemma gateways_length l : length (gateways l) = turns l.
Proof. unfold turns. induction l as [|a l IH]; [reflexivity|]. destruct a; cbn; auto. Qed.
Lemma calm_gateways c theirs l : forall s, calm c theirs s l ->
  forall g, In g (gateways l) -> exists cl fu, g = chain_gateway theirs cl fu.
Proof.
  induction l as [|a l IH]; intros s C g I; [destruct I|]. cbn [calm] in C. destruct C as [A C].
  destruct a; try contradiction; cbn [gateways] in I; [eauto| |eauto].
  destruct I as [<-|I]; [exact A|eauto].
Qed.

Lemma calm_runs c theirs : valid_chain theirs -> forall l s,
  node_ok c s -> calm c theirs s l ->
  (forall gs, (forall g, In g gs -> exists cl fu, g = chain_gateway theirs cl fu) ->
     p_phase (fst (tracks_of (f_mode c) gs (n_producer s))) = Tracking) ->
  node_ok c (fold_left (act c) l s) /\
  n_producer (fold_left (act c) l s) = fst (tracks_of (f_mode c) (gateways l) (n_producer s)) /\
  announced_chain c (fold_left (act c) l s) =
    fold_left announce (snd (tracks_of (f_mode c) (gateways l) (n_producer s))) (announced_chain c s).
Proof.
  intros VG. induction l as [|a l IH]; intros s OK C TR; [cbn; auto|].
  cbn [calm] in C. destruct C as [A C].
  assert (PE : permitted s a).
  { destruct a; try contradiction; try exact I. destruct A as (cl & fu & ->).
    split; [apply gw_numbered|apply gw_wf]; exact VG. }
  pose proof (act_ok c s a OK PE) as OK'.
  destruct a as [| |g|n g| | |n x| | |]; try contradiction; cbn [fold_left gateways].
  - assert (SAME : n_producer (act c s Consume) = n_producer s /\
                   announced_chain c (act c s Consume) = announced_chain c s).
    { cbn [act] in *. destruct (n_queue s) as [|e q] eqn:EQ; [auto|].
      destruct (consume _ _ e) as [s'|] eqn:CO; [|congruence]. split; [reflexivity|].
      destruct (consume_next c s e q s' OK EQ) as (_ & _ & CH). specialize (CH CO).
      unfold announced_chain, stored in *. cbn [n_taken n_queue]. rewrite CH, EQ. reflexivity. }
    destruct SAME as [E1 E2]. rewrite <- E1, <- E2. apply IH; auto. rewrite E1. exact TR.
  - destruct A as (cl & fu & ->).
    assert (PH : p_phase (n_producer s) = Tracking) by (apply (TR []); intros g []).
    set (g := chain_gateway theirs cl fu) in *.
    assert (STEP : act c s (Track g) = with_producer s (track (f_mode c) g (n_producer s)))
      by (cbn [act]; rewrite PH; reflexivity).
    destruct (track (f_mode c) g (n_producer s)) as [p1 es1] eqn:T.
    assert (E2 : announced_chain c (act c s (Track g)) = fold_left announce es1 (announced_chain c s)).
    { rewrite STEP. unfold announced_chain, stored. cbn [with_producer n_taken n_queue snd fst].
      rewrite fold_left_app. reflexivity. }
    assert (E1 : n_producer (act c s (Track g)) = p1) by (rewrite STEP; reflexivity).
    destruct (IH (act c s (Track g)) OK' C) as (O2 & P2 & A2).
    { intros gs GS. rewrite E1. specialize (TR (g :: gs)). cbn [tracks_of] in TR. rewrite T in TR.
      destruct (tracks_of (f_mode c) gs p1). cbn [fst] in *. apply TR.
      intros g' [<-|I']; [eexists _, _; reflexivity|auto]. }
    split; [exact O2|]. rewrite P2, A2, E1, E2. cbn [tracks_of]. rewrite T.
    destruct (tracks_of (f_mode c) (gateways l) p1). cbn [fst snd]. rewrite fold_left_app. auto.
  - assert (E2 : announced_chain c (act c s (L1Sends n x)) = announced_chain c s).
    { unfold announced_chain, stored. cbn [act n_taken n_queue]. rewrite fold_left_app. reflexivity. }
    rewrite <- E2. exact (IH (act c s (L1Sends n x)) OK' C TR).
Qed.

Lemma calm_converges c s theirs l :
  node_ok c s -> p_phase (n_producer s) = Tracking -> valid_chain theirs ->
  no_collision (announced_chain c s) theirs ->
  remembers_fork (announced_chain c s) theirs (p_blocks (n_producer s)) ->
  calm c theirs s l -> (length theirs < turns l)%nat ->
  announced_chain c (fold_left (act c) l s) = theirs \/
  (theirs = firstn (length theirs) (announced_chain c s) /\
   announced_chain c (fold_left (act c) l s) = announced_chain c s).
Proof.
  intros OK PH VG NC RF C L.
  assert (ALL : forall gs, (forall g, In g gs -> exists cl fu, g = chain_gateway theirs cl fu) -> _)
    by (intros gs GS; exact (tracks_converge (f_mode c) theirs gs _ _ VG GS (node_announced c s OK) PH (o_producer _ _ OK) NC RF)).
  destruct (calm_runs c theirs VG l s OK C) as (_ & _ & A).
  { intros gs GS. destruct (ALL gs GS) as (p' & es & T & PH' & _). rewrite T. exact PH'. }
  destruct (ALL (gateways l) (calm_gateways c theirs l s C)) as (p' & es & T & _ & D).
  rewrite T in A. cbn [snd] in A. rewrite A. destruct D as [D|D]; [right; exact D|].
  left. apply D. rewrite gateways_length. exact L.
Qed.

Lemma reachable_acts c l : forall s, reachable c s -> permits c s l -> reachable c (fold_left (act c) l s).
Proof.
  induction l as [|a l IH]; intros s R P; [exact R|]. destruct P as [P Q]. cbn [fold_left].
  apply IH; [|exact Q]. constructor; assumption.
Qed.

Lemma track_reorg mode g mine p t :
  proper mine -> p_phase p = Tracking -> producer_ok mine p ->
  In (Reorg t) (snd (track mode g p)) ->
  t < clen mine /\
  (t <> 0 -> exists b, block_at mine (t - 1) = Some b /\ serves mode g (t - 1) (lb_hash b)) /\
  (forall n b, t <= n -> n + 1 < clen mine -> block_at mine n = Some b -> ~ serves mode g n (lb_hash b)).
Proof.
  intros P PH OK I. destruct (OK ltac:(congruence)) as (H & K & _).
  assert (RB : In (Reorg t) (snd (roll_back mode g p))).
  { unfold track in I. destruct (download_block _ _ _ _ _) as [b| | | | |]; try exact I; try destruct I.
    destruct (match _ with Some _ => _ | None => _ end); [exact I|].
    assert (NC : forall cs : list N, ~ In (Reorg t) (map ClassDefinition cs)).
    { intros cs J. apply in_map_iff in J. destruct J as (y & E & _). discriminate. }
    destruct (g_classes g _) as [cs|]; [|destruct I].
    destruct (g_signature g _) as [sh|]; [|destruct (NC _ I)].
    destruct (negb _); [destruct (NC _ I)|]. cbn [snd] in I. apply in_app_or in I.
    destruct I as [I|[I|[]]]; [destruct (NC _ I)|discriminate]. }
  unfold roll_back in RB. rewrite H in RB.
  destruct (tip_of mine) as [[[n h] x]|] eqn:T; [|destruct RB].
  destruct (tip_of_some _ _ _ _ P T) as (EN & _).
  pose proof (find_new_head_ok mode g mine (p_blocks p) K (N.to_nat n)) as F.
  destruct (find_new_head _ _ _ _) as [[[[n' h'] x']|]| |]; try (destruct RB; fail).
  - destruct RB as [RB|[]]. injection RB as <-. cbn [tail_of]. destruct F as (L & S1 & (b & B & EH & _) & Q).
    split; [lia|]. split.
    + intros _. exists b. replace (n' + 1 - 1) with n' by lia. rewrite EH. auto.
    + intros i y LI LN Y. apply Q; [lia|lia|exact Y].
  - destruct RB as [RB|[]]. injection RB as <-. cbn [tail_of]. split; [lia|]. split; [lia|].
    intros i y LI LN Y. apply F; [lia|exact Y].
Qed.

Lemma track_never_panics mode g mine p :
  proper mine -> p_phase p = Tracking -> producer_ok mine p ->
  (forall next prev, next = match p_head p with Some (n, _, _) => n + 1 | None => 0 end ->
     prev = match p_head p with Some (_, h, _) => Some h | None => None end ->
     download_block mode g next prev (p_blocks p) <> DownloadPanics) /\
  (forall k, find_new_head mode g (p_blocks p) k <> SearchPanics).
Proof.
  intros P PH OK. destruct (OK ltac:(congruence)) as (H & K & _). split.
  - intros next prev -> ->. apply download_no_panic. destruct (p_head p) as [[[n h] x]|]; [right; discriminate|auto].
  - intros k E. pose proof (find_new_head_ok mode g mine (p_blocks p) K k) as F. rewrite E in F. exact F.
Qed.

(* ---- where stored blocks come from ---- *)
Section Origin.
  Variable ok : l2_block -> Prop.
  Definition from_ok (h : header) : Prop :=
    exists b, ok b /\ h = Header (lb_number b) (lb_hash b) (lb_parent b) (lb_commitment b).
  Definition db_from (d : db) : Prop := forall h, In h (d_headers d) -> from_ok h.
  Definition event_from (e : sync_event) : Prop :=
    match e with DownloadedBlock b | FinalizedConsensusBlock b => ok b | _ => True end.

  Lemma purge_down_from k : forall n d, db_from d -> db_from (purge_down k n d).
  Proof.
    induction k as [|k IH]; intros n d F; [exact F|]. apply IH. intros h I. cbn [purge_block d_headers] in I.
    apply filter_In in I. apply F, I.
  Qed.
  Lemma prune_up_from k : forall n d, db_from d -> db_from (prune_up k n d).
  Proof.
    induction k as [|k IH]; intros n d F; [exact F|]. apply IH. destruct (block_exists d n); [|exact F].
    intros h I. cbn [prune_block d_headers] in I. apply filter_In in I. apply F, I.
  Qed.
  Lemma pruning_from m e d d' : db_from d -> perform_pruning m e d = Some d' -> db_from d'.
  Proof.
    intros F. unfold perform_pruning. destruct m as [|kept]; [intros E; injection E as <-; exact F|].
    destruct (pruning_point e d) as [p|]; [|intros E; injection E as <-; exact F].
    destruct (p <? kept); [intros E; injection E as <-; exact F|].
    destruct (earliest_number d) as [x|]; [|discriminate]. intros E. injection E as <-. now apply prune_up_from.
  Qed.
  Lemma update_from b d d' : ok b -> db_from d -> l2_update b d = Some d' -> db_from d'.
  Proof.
    intros O F. unfold l2_update. destruct (negb _); [discriminate|]. unfold insert_header.
    destruct (existsb _ _); [discriminate|].
    cbn [d_pointer d_l1 insert_data]. intros E. injection E as <-. intros h I.
    assert (J : In h (Header (lb_number b) (lb_hash b) (lb_parent b) (lb_commitment b) :: d_headers d)).
    { destruct (_ =? lb_number b); [|exact I]. destruct (nget _ _) as [x|]; [|exact I]. destruct (x =? _); exact I. }
    destruct J as [<-|J]; [exists b; auto|apply F, J].
  Qed.
  Lemma consume_from m s e s' : event_from e -> db_from (c_db s) -> consume m s e = Some s' -> db_from (c_db s').
  Proof.
    intros EV F. destruct e as [n x|b|b|t|x|]; cbn [consume event_from] in *; try discriminate.
    - destruct (perform_pruning _ _ _) as [d|] eqn:P; [|discriminate]. intros E. injection E as <-.
      eapply pruning_from; [|exact P]. unfold l1_update. intros h. destruct (header_at _ n) as [y|].
      + destruct (h_hash y =? x); apply F.
      + apply F.
    - destruct (_ <? _); [intros E; injection E as <-; exact F|].
      destruct (l2_update b (c_db s)) as [d|] eqn:U; [|discriminate].
      destruct (perform_pruning _ _ _) as [d'|] eqn:P; [|discriminate]. intros E. injection E as <-.
      eapply pruning_from; [|exact P]. eapply update_from; eauto.
    - destruct (_ <? _); [intros E; injection E as <-; exact F|].
      destruct (l2_update b (c_db s)) as [d|] eqn:U; [|discriminate]. intros E. injection E as <-.
      eapply update_from; eauto.
    - unfold l2_reorg. destruct (latest_number _) as [hd|]; [|discriminate].
      destruct (negb _); [discriminate|]. destruct (_ && _); [discriminate|].
      set (d := purge_down _ _ _). assert (D : db_from d) by now apply purge_down_from.
      intros E. injection E as <-. cbn [c_db]. destruct (d_pointer d) as [p|]; [|exact D].
      destruct (t =? 0); [exact D|]. destruct (t <=? p); exact D.
    - intros E. injection E as <-. exact F.
  Qed.
  Lemma run_origin m es : Forall event_from es -> db_from (c_db (run m es)).
  Proof.
    intros F. unfold run. 
    assert (G : forall es s, Forall event_from es -> db_from (c_db s) -> db_from (c_db (fold_left (step m) es s))).
    { clear. intros es. induction es as [|e es IH]; intros s F D; [exact D|]. inversion F; subst.
      cbn [fold_left]. apply IH; auto. unfold step. destruct (consume m s e) as [s'|] eqn:C; [|exact D].
      eapply consume_from; eauto. }
    apply G; auto. intros h [].
  Qed.

  (* a gateway all of whose admitted blocks are ok *)
  Definition gateway_from (mode : validation) (g : gateway) : Prop :=
    forall n b a v, g_block g n = Served b true a v -> admits mode a v = true -> ok b.
  Definition waiting_from (ph : phase) : Prop :=
    match ph with Bulk _ m => forall k b cs, In (k, (b, cs)) m -> ok b | _ => True end.
  Lemma classes_from cs : Forall event_from (map ClassDefinition cs).
  Proof. induction cs; constructor; auto. exact I. Qed.
  Lemma roll_back_from mode g p p' es :
    roll_back mode g p = (p', es) -> Forall event_from es /\ waiting_from (p_phase p').
  Proof.
    unfold roll_back. destruct (p_head p) as [[[n x] y]|].
    - destruct (find_new_head _ _ _ _) as [nh| |]; intros E; injection E as <- <-; cbn; repeat constructor.
    - intros E; injection E as <- <-; cbn; repeat constructor.
  Qed.
  Lemma track_from mode g p p' es :
    gateway_from mode g -> waiting_from (p_phase p) ->
    track mode g p = (p', es) -> Forall event_from es /\ waiting_from (p_phase p').
  Proof.
    intros G W. unfold track. destruct (download_block _ _ _ _ _) as [b| | | | |] eqn:D.
    2,3,5,6: intros E; injection E as <- <-; split; [constructor|exact W || exact I].
    2: apply roll_back_from.
    apply download_got in D. destruct D as (a & v & S & A).
    destruct (match p_head p with Some (_, h, _) => Some h | None => None end) as [x|];
      [destruct (negb (x =? lb_parent b)); [apply roll_back_from|]|];
      (destruct (g_classes g _) as [cs|]; [|intros E; injection E as <- <-; split; [constructor|exact I]]);
      (destruct (g_signature g _) as [sg|]; [|intros E; injection E as <- <-; split; [apply classes_from|exact I]]);
      (destruct (negb _); intros E; injection E as <- <-; (split; [|exact I]);
       [apply classes_from|apply Forall_app; split; [apply classes_from|constructor; [exact (G _ _ _ _ S A)|constructor]]]).
  Qed.
  Lemma emit_run_from full run : forall hd blocks hd' blocks' es stop,
    (forall k b cs, In (k, (b, cs)) run -> ok b) ->
    emit_run full run hd blocks = (hd', blocks', es, stop) -> Forall event_from es.
  Proof.
    induction run as [|[k [b cs]] r IH]; intros hd blocks hd' blocks' es stop O E; cbn [emit_run] in E.
    - injection E as <- <- <- <-. constructor.
    - destruct (match hd with Some (_, h, _) => negb (h =? lb_parent b) | None => false end).
      + injection E as <- <- <- <-. constructor.
      + destruct (emit_run full r _ _) as [[[h2 b2] e2] s2] eqn:R. injection E as <- <- <- <-.
        apply Forall_app. split; [apply classes_from|]. constructor; [eapply O; left; reflexivity|].
        eapply IH; [|exact R]. intros k' b' cs' I. eapply O. right. exact I.
  Qed.
  Lemma take_run_in {V} (m : list (N * V)) : forall start run rest s x,
    take_run start m = (run, rest, s) -> In x run \/ In x rest -> In x m.
  Proof.
    induction m as [|[k v] m IH]; intros start run rest s x E I; cbn [take_run] in E.
    - injection E as <- <- <-. destruct I as [[]|[]].
    - destruct (k =? start).
      + destruct (take_run (start + 1) m) as [[r1 r2] s1] eqn:T. injection E as <- <- <-.
        destruct I as [[<-|I]|I]; [left; reflexivity|right; eapply IH; eauto|right; eapply IH; eauto].
      + injection E as <- <- <-. destruct I as [[]|I]; exact I.
  Qed.
  Lemma bulk_from mode g n p p' es :
    gateway_from mode g -> waiting_from (p_phase p) ->
    bulk_result mode g n p = (p', es) -> Forall event_from es /\ waiting_from (p_phase p').
  Proof.
    intros G W. unfold bulk_result. destruct (p_phase p) as [st m| |] eqn:PH.
    2,3: intros E; injection E as <- <-; rewrite PH; repeat constructor.
    destruct (fetch mode g n) as [[b cs]|] eqn:FE.
    2: intros E; injection E as <- <-; repeat constructor.
    apply fetch_some in FE. destruct FE as (a & v & S & A).
    destruct (take_run _ _) as [[r1 r2] s1] eqn:T.
    assert (O : forall k b' cs', In (k, (b', cs')) r1 \/ In (k, (b', cs')) r2 -> ok b').
    { intros k b' cs' I. eapply take_run_in in I; [|exact T]. apply ordered_insert_in in I.
      destruct I as [I|I]; [injection I as -> -> ->; eapply G; eauto|eapply W; exact I]. }
    destruct (emit_run _ _ _ _) as [[[h2 b2] e2] stop] eqn:R. intros E. injection E as <- <-.
    split.
    - eapply emit_run_from; [|exact R]. eauto.
    - cbn [p_phase]. destruct stop; [exact I|]. intros k b' cs' I. eauto.
  Qed.
  Record node_from (s : node) : Prop := {
    f_taken : Forall event_from (n_taken s);
    f_queue : Forall event_from (n_queue s);
    f_waiting : waiting_from (p_phase (n_producer s)) }.
  Lemma start_from size cap d : waiting_from (p_phase (start_producer size cap d)).
  Proof. unfold start_producer. destruct (top_header _); intros k b cs []. Qed.
  Lemma act_from c s a :
    match a with Track g | BulkResult _ g => gateway_from (f_mode c) g | _ => True end ->
    node_from s -> node_from (act c s a).
  Proof.
    intros G [T Q W]. destruct a as [| |g|n g| | |n x| | |]; cbn [act].
    - destruct (n_queue s) as [|e q] eqn:E; [constructor; rewrite ?E; auto|]. inversion Q; subst.
      assert (T' : Forall event_from (n_taken s ++ [e])) by (apply Forall_app; auto).
      destruct (consume _ _ e); constructor; cbn; auto; apply start_from.
    - destruct (n_queue s) as [|e q] eqn:E; [constructor; rewrite ?E; auto|].
      constructor; cbn; auto; try apply start_from. apply Forall_app. split; auto.
    - destruct (p_phase (n_producer s)) eqn:PH; [constructor; auto; rewrite PH; auto| |constructor; auto; rewrite PH; auto].
      destruct (track (f_mode c) g (n_producer s)) as [p' es] eqn:TR. apply track_from in TR; auto; [|rewrite PH; exact W].
      constructor; cbn; try tauto. apply Forall_app. tauto.
    - destruct (bulk_result (f_mode c) g n (n_producer s)) as [p' es] eqn:TR. apply bulk_from in TR; auto.
      constructor; cbn; try tauto. apply Forall_app. tauto.
    - destruct (p_phase (n_producer s)) eqn:PH; constructor; cbn; auto; try (rewrite PH; auto);
        try (rewrite app_nil_r; auto). intros k b cs [].
    - destruct (p_phase (n_producer s)) eqn:PH; constructor; cbn; auto; try (rewrite PH; auto);
        try (rewrite app_nil_r; auto).
    - constructor; cbn; auto. apply Forall_app. split; auto.
    - constructor; cbn; auto. rewrite app_nil_r. auto.
    - destruct (p_phase (n_producer s)) eqn:PH; constructor; cbn; auto; try (rewrite PH; auto); apply start_from.
    - constructor; cbn; auto; try apply start_from. apply Forall_app. split; auto.
  Qed.
End Origin.

Lemma admits_verdict mode a v : admits mode a v = true ->
  a = true /\ (v = HashMatch \/ (v = HashMismatch /\ mode = AllowMismatch)).
Proof. destruct a, v, mode; intros E; try discriminate E; auto. Qed.
Lemma acts_from c l : node_from (served_verified c l) (acts c l).
Proof.
  unfold acts.
  assert (G : forall l' s, incl l' l -> node_from (served_verified c l) s ->
                           node_from (served_verified c l) (fold_left (act c) l' s)).
  { induction l' as [|a l' IH]; intros s J F; [exact F|]. cbn [fold_left]. apply IH.
    - intros x I. apply J. right. exact I.
    - apply act_from; [|exact F]. assert (A : In a l) by (apply J; left; reflexivity).
      destruct a as [| |g|n g| | |n x| | |]; auto; intros k b a' v S AD; apply admits_verdict in AD;
        destruct AD as [-> V]; exists k, g, v; eauto 8. }
  apply G; [apply incl_refl|]. constructor; [constructor|constructor|apply start_from].
Qed.
