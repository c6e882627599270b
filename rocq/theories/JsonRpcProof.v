(* Proofs about JSON-RPC batches. *)
From Coq Require Import List Arith NArith ZArith Bool Lia ZifyBool ZifyNat ZifyN Sorted Permutation.
From Verif Require Import StateUpdateModel TxLookupModel JsonRpcModel JsonRpcSpec.
Import ListNotations.
Local Open Scope N_scope.

Lemma existsb_in_dec m l : existsb (N.eqb m) l = if in_dec N.eq_dec m l then true else false.
Proof.
  destruct (in_dec N.eq_dec m l) as [I|I].
  - apply existsb_exists. exists m. split; [exact I|apply N.eqb_refl].
  - apply not_true_iff_false. intros E. apply existsb_exists in E. destruct E as (x & X & E). apply N.eqb_eq in E. now subst.
Qed.
Lemma run_request_answer methods r o : run_request methods r o = answer methods r o.
Proof.
  unfold run_request, answer, parse_request, id_ok, I64_MIN, I64_MAX. destruct r as [|[[]|] f [m|] p]; try reflexivity.
  destruct f; cbn [r_id is_notification]; try reflexivity.
  - cbn [r_method]. rewrite existsb_in_dec. destruct (in_dec _ _ _); reflexivity.
  - destruct (_ && _); [|reflexivity]. cbn [r_id r_method is_notification answer_id option_map]. rewrite existsb_in_dec.
    destruct (in_dec _ _ _); reflexivity.
  - cbn [r_method]. rewrite existsb_in_dec. destruct (in_dec _ _ _); reflexivity.
Qed.
Lemma handle_request_answer methods subs r o : handle_request methods subs r o = answer (methods ++ subs) r o.
Proof.
  unfold handle_request. rewrite run_request_answer. unfold answer, parse_request, id_ok, I64_MIN, I64_MAX.
  assert (E : forall m : N, (if in_dec N.eq_dec m (methods ++ subs) then true else false) = existsb (N.eqb m) methods || existsb (N.eqb m) subs).
  { intros m. rewrite <- existsb_in_dec. apply existsb_app. }
  destruct r as [|[[]|] f [m|] p]; try reflexivity. specialize (E m). rewrite !existsb_in_dec in E.
  destruct f; cbn [r_id is_notification]; try reflexivity.
  - cbn [r_method answer_id option_map]. rewrite !existsb_in_dec.
    destruct (in_dec N.eq_dec m methods), (in_dec N.eq_dec m subs), (in_dec N.eq_dec m (methods ++ subs)); try discriminate; reflexivity.
  - destruct (_ && _) eqn:X; [|reflexivity]. cbn [r_id r_method is_notification answer_id option_map]. rewrite !existsb_in_dec.
    destruct (in_dec N.eq_dec m methods), (in_dec N.eq_dec m subs), (in_dec N.eq_dec m (methods ++ subs)); try discriminate; reflexivity.
  - cbn [r_method answer_id option_map]. rewrite !existsb_in_dec.
    destruct (in_dec N.eq_dec m methods), (in_dec N.eq_dec m subs), (in_dec N.eq_dec m (methods ++ subs)); try discriminate; reflexivity.
Qed.

(* ---- sorting ---- *)
Definition by_index (x y : nat * option response) : Prop := (fst x < fst y)%nat.
Lemma insert_perm x l : Permutation (insert_by x l) (x :: l).
Proof. induction l as [|y l IH]; cbn; [reflexivity|]. destruct (_ <=? _)%nat; [reflexivity|]. rewrite IH. apply perm_swap. Qed.
Lemma sort_perm l : Permutation (sort_by l) l.
Proof. induction l as [|x l IH]; cbn; [reflexivity|]. rewrite insert_perm. now constructor. Qed.
Lemma insert_sorted x l : StronglySorted by_index l -> ~ In (fst x) (map fst l) -> StronglySorted by_index (insert_by x l).
Proof.
  induction l as [|y l IH]; intros S N; cbn; [repeat constructor|]. apply StronglySorted_inv in S. destruct S as [S F].
  destruct (Nat.leb_spec (fst x) (fst y)) as [L|L].
  - cbn in N. assert (XY : (fst x < fst y)%nat) by (assert (fst x <> fst y) by (intros E; apply N; left; congruence); lia).
    constructor; [constructor; assumption|]. constructor; [exact XY|]. eapply Forall_impl; [|exact F]. unfold by_index. intros; lia.
  - constructor; [apply IH; [exact S|intros I; apply N; now right]|].
    rewrite insert_perm. constructor; [exact L|exact F].
Qed.
Lemma sort_sorted l : NoDup (map fst l) -> StronglySorted by_index (sort_by l).
Proof.
  induction l as [|x l IH]; intros ND; cbn; [constructor|]. inversion ND as [|? ? NI ND']; subst. apply insert_sorted; [now apply IH|].
  intros I. apply NI. rewrite <- (sort_perm l). exact I.
Qed.
Lemma sorted_unique l : forall l', StronglySorted by_index l -> StronglySorted by_index l' -> Permutation l l' -> l = l'.
Proof.
  induction l as [|x l IH]; intros l' S S' P.
  - apply Permutation_nil in P. now subst.
  - destruct l' as [|y l']; [apply Permutation_sym, Permutation_nil in P; discriminate|].
    apply StronglySorted_inv in S, S'. destruct S as [S F], S' as [S' F'].
    assert (E : x = y).
    { assert (IX : In x (y :: l')) by (rewrite <- P; now left). assert (IY : In y (x :: l)) by (rewrite P; now left).
      destruct IX as [->|IX]; [reflexivity|]. destruct IY as [->|IY]; [reflexivity|].
      rewrite Forall_forall in F, F'. specialize (F y IY). specialize (F' x IX). unfold by_index in *. lia. }
    subst y. f_equal. apply IH; auto. now apply Permutation_cons_inv in P.
Qed.
Lemma sort_unique l l' : StronglySorted by_index l' -> Permutation l l' -> sort_by l = l'.
Proof.
  intros S P. apply sorted_unique; [|exact S|now rewrite sort_perm].
  apply sort_sorted. assert (ND : NoDup (map fst l')).
  { clear -S. induction l' as [|x l IH]; [constructor|]. apply StronglySorted_inv in S. destruct S as [S F]. cbn. constructor; [|auto].
    intros I. apply in_map_iff in I. destruct I as (y & E & I). rewrite Forall_forall in F. specialize (F y I). unfold by_index in F. lia. }
  eapply Permutation_NoDup; [|exact ND]. apply Permutation_map, Permutation_sym, P.
Qed.

(* ---- running a batch ---- *)
Lemma enumerate_combine {A} (l : list A) : forall i, enumerate_from i l = combine (seq i (length l)) l.
Proof. induction l as [|x l IH]; intros i; [reflexivity|]. cbn. now rewrite IH. Qed.
Lemma enumerate_length {A} (l : list A) i : length (enumerate_from i l) = length l.
Proof. rewrite enumerate_combine, combine_length, seq_length. lia. Qed.
Lemma enumerate_fst {A} (l : list A) : forall i, map fst (enumerate_from i l) = seq i (length l).
Proof. induction l as [|x l IH]; intros i; [reflexivity|]. cbn. now rewrite IH. Qed.
Lemma take_out_spec i l : match take_out i l with
  | Some (q, r) => Permutation l ((i, q) :: r)
  | None => ~ In i (map fst l)
  end.
Proof.
  induction l as [|[j x] l IH]; cbn; [auto|]. destruct (Nat.eqb_spec j i) as [->|NE]; cbn; [reflexivity|].
  destruct (take_out i l) as [[q r]|]; cbn.
  - rewrite IH. apply perm_swap.
  - intros [E|I]; contradiction.
Qed.

#[local] Arguments Nat.ltb : simpl never.
Section Work.
  Variable (work : raw -> outcome -> option response).
  Record finished := Finished { f_index : nat; f_raw : raw; f_outcome : outcome }.
  Definition f_sent (f : finished) := (f_index f, work (f_raw f) (f_outcome f)).
  Definition f_item (f : finished) := (f_index f, f_raw f).
  Fixpoint finishes (acts : list conc_action) : list (nat * outcome) :=
    match acts with [] => [] | Finish i o :: r => (i, o) :: finishes r | Begin :: r => finishes r end.

  Record inv (items : list raw) (acts : list conc_action) (c : conc) (d : list finished) : Prop := {
    v_sent : c_sent c = map f_sent d;
    v_perm : Permutation (c_waiting c ++ c_running c ++ map f_item d) (enumerate_from 0 items);
    v_acts : finishes acts = map (fun f => (f_index f, f_outcome f)) d
  }.
  Lemma finishes_app a b : finishes (a ++ b) = finishes a ++ finishes b.
  Proof. induction a as [|[|i o] a IH]; cbn; [reflexivity|exact IH|now rewrite IH]. Qed.

  Lemma inv_step items acts limit cap c d a c' : inv items acts c d -> conc_step work limit cap c a = Some c' ->
    exists d', inv items (acts ++ [a]) c' d'.
  Proof.
    intros V E. destruct a as [|i o]; cbn in E.
    - destruct (c_waiting c) as [|x r] eqn:W; [discriminate|]. destruct (_ <? _)%nat; [|discriminate]. injection E as <-.
      exists d. constructor; cbn.
      + apply (v_sent _ _ _ _ V).
      + rewrite <- (v_perm _ _ _ _ V), W. cbn. rewrite <- !app_assoc. cbn. rewrite app_assoc.
        symmetry. rewrite <- (Permutation_middle (r ++ c_running c)). now rewrite <- app_assoc.
      + rewrite finishes_app, app_nil_r. apply (v_acts _ _ _ _ V).
    - pose proof (take_out_spec i (c_running c)) as T. destruct (take_out i (c_running c)) as [[q r]|]; [|discriminate].
      destruct (_ <? _)%nat; [|discriminate]. injection E as <-. exists (d ++ [Finished i q o]). constructor; cbn.
      + rewrite map_app, (v_sent _ _ _ _ V). reflexivity.
      + rewrite <- (v_perm _ _ _ _ V), T, map_app. apply Permutation_app_head. cbn.
        rewrite app_assoc, <- Permutation_cons_append. reflexivity.
      + rewrite finishes_app, map_app, (v_acts _ _ _ _ V). reflexivity.
  Qed.
  Lemma conc_run_app limit cap a : forall c b, conc_run work limit cap c (a ++ b) =
    match conc_run work limit cap c a with Some c' => conc_run work limit cap c' b | None => None end.
  Proof. induction a as [|x a IH]; intros c b; cbn; [reflexivity|]. destruct (conc_step _ _ _ c x); [apply IH|reflexivity]. Qed.
  Lemma inv_run items limit cap acts : forall c, conc_run work limit cap (Conc (enumerate_from 0 items) [] []) acts = Some c ->
    exists d, inv items acts c d.
  Proof.
    induction acts as [|a acts IH] using rev_ind; intros c E.
    - injection E as <-. exists []. constructor; cbn; try reflexivity. now rewrite !app_nil_r.
    - rewrite conc_run_app in E. destruct (conc_run _ _ _ _ acts) as [c1|]; [|discriminate]. cbn in E.
      destruct (conc_step work limit cap c1 a) as [c2|] eqn:S; [|discriminate]. injection E as <-.
      destruct (IH c1 eq_refl) as (d & V). eapply inv_step; eauto.
  Qed.

  Lemma outcome_finishes acts i o : In (i, o) (finishes acts) -> NoDup (map fst (finishes acts)) -> outcome_of acts i = o.
  Proof.
    induction acts as [|[|j p] acts IH]; cbn; [intros []|exact IH|]. intros [E|I] ND; inversion ND as [|? ? NI ND']; subst.
    - injection E as -> ->. now rewrite Nat.eqb_refl.
    - destruct (Nat.eqb_spec j i) as [->|]; [|auto]. exfalso. apply NI. apply in_map_iff. now exists (i, o).
  Qed.
  Lemma collect_done items limit cap acts c :
    conc_run work limit cap (Conc (enumerate_from 0 items) [] []) acts = Some c -> conc_done c = true ->
    collect c = map (fun x => work (snd x) (outcome_of acts (fst x))) (enumerate_from 0 items).
  Proof.
    intros R D. destruct (inv_run _ _ _ _ _ R) as (d & [V1 V2 V3]). unfold conc_done in D. apply andb_true_iff in D.
    destruct D as [D1 D2]. destruct (c_waiting c); [|discriminate]. destruct (c_running c); [|discriminate]. cbn in V2.
    assert (ND : NoDup (map f_index d)).
    { replace (map f_index d) with (map fst (map f_item d)) by (rewrite map_map; reflexivity).
      eapply Permutation_NoDup; [apply Permutation_map, Permutation_sym, V2|]. rewrite enumerate_fst. apply seq_NoDup. }
    assert (O : forall f, In f d -> outcome_of acts (f_index f) = f_outcome f).
    { intros f I. apply outcome_finishes.
      - rewrite V3. apply in_map_iff. now exists f.
      - rewrite V3, map_map. exact ND. }
    assert (ES : map f_sent d = map (fun x => (fst x, work (snd x) (outcome_of acts (fst x)))) (map f_item d)).
    { rewrite map_map. apply map_ext_in. intros f I. unfold f_sent, f_item. cbn. now rewrite O. }
    unfold collect. rewrite V1, ES.
    rewrite sort_unique with (l' := map (fun x => (fst x, work (snd x) (outcome_of acts (fst x)))) (enumerate_from 0 items)).
    - now rewrite map_map.
    - clear. generalize 0%nat. induction items as [|x items IH]; intros i; cbn; [constructor|]. constructor; [apply IH|].
      apply Forall_forall. intros y I. apply in_map_iff in I. destruct I as ((j & z) & <- & I). unfold by_index. cbn.
      assert (J : In j (seq (S i) (length items))) by (rewrite <- enumerate_fst; apply in_map_iff; exists (j, z); auto).
      apply in_seq in J. lia.
    - apply Permutation_map. exact V2.
  Qed.

  (* measure *)
  Lemma step_measure limit cap c a c' : conc_step work limit cap c a = Some c' ->
    (2 * length (c_waiting c) + length (c_running c) = S (2 * length (c_waiting c') + length (c_running c')))%nat.
  Proof.
    destruct a as [|i o]; cbn; intros E.
    - destruct (c_waiting c) as [|x r]; [discriminate|]. destruct (_ <? _)%nat; [|discriminate]. injection E as <-. cbn.
      rewrite app_length. cbn. lia.
    - pose proof (take_out_spec i (c_running c)) as T. destruct (take_out i (c_running c)) as [[q r]|]; [|discriminate].
      destruct (_ <? _)%nat; [|discriminate]. injection E as <-. cbn. rewrite (Permutation_length T). cbn. lia.
  Qed.
  Lemma run_measure limit cap acts : forall c c', conc_run work limit cap c acts = Some c' ->
    (2 * length (c_waiting c) + length (c_running c) = length acts + (2 * length (c_waiting c') + length (c_running c')))%nat.
  Proof.
    induction acts as [|a acts IH]; intros c c' E; cbn in E; [injection E as <-; cbn [length]; lia|].
    destruct (conc_step work limit cap c a) as [c1|] eqn:S; [|discriminate]. apply step_measure in S. apply IH in E. cbn [length]. lia.
  Qed.
  Lemma run_limit limit cap acts : forall c c', conc_run work limit cap c acts = Some c' ->
    (length (c_running c) <= limit)%nat -> (length (c_running c') <= limit)%nat.
  Proof.
    induction acts as [|a acts IH]; intros c c' E L; cbn in E; [injection E as <-; exact L|].
    destruct (conc_step work limit cap c a) as [c1|] eqn:S; [|discriminate]. eapply IH; [exact E|].
    destruct a as [|i o]; cbn in S.
    - destruct (c_waiting c) as [|x r]; [discriminate|]. destruct (_ <? _)%nat eqn:X; [|discriminate]. injection S as <-. cbn.
      rewrite app_length. cbn. lia.
    - pose proof (take_out_spec i (c_running c)) as T. destruct (take_out i (c_running c)) as [[q r]|]; [|discriminate].
      destruct (_ <? _)%nat; [|discriminate]. injection S as <-. cbn. apply Permutation_length in T. cbn in T. lia.
  Qed.
  (* something can always be done, whatever the outcome of the methods *)
  Lemma run_progress items limit acts c : (0 < limit)%nat ->
    conc_run work limit (length items) (Conc (enumerate_from 0 items) [] []) acts = Some c -> conc_done c = false ->
    (exists c', conc_step work limit (length items) c Begin = Some c') \/
    (c_running c <> [] /\ forall i q o, In (i, q) (c_running c) -> exists c', conc_step work limit (length items) c (Finish i o) = Some c').
  Proof.
    intros L R D. destruct (inv_run _ _ _ _ _ R) as (d & [V1 V2 V3]).
    assert (LEN : (length (c_waiting c) + (length (c_running c) + length (c_sent c)) = length items)%nat).
    { apply Permutation_length in V2. rewrite !app_length, enumerate_length, map_length in V2. rewrite V1, map_length. lia. }
    assert (FIN : forall i q o, In (i, q) (c_running c) -> exists c', conc_step work limit (length items) c (Finish i o) = Some c').
    { intros i q o I. cbn. pose proof (take_out_spec i (c_running c)) as T. destruct (take_out i (c_running c)) as [[q' r]|].
      - assert (X : (length (c_sent c) <? length items)%nat = true).
        { apply Nat.ltb_lt. destruct (c_running c); [destruct I|]. cbn in LEN. lia. }
        rewrite X. eauto.
      - exfalso. apply T. apply in_map_iff. now exists (i, q). }
    destruct (c_running c) as [|x r] eqn:RU.
    - left. cbn. destruct (c_waiting c) as [|y w] eqn:W.
      + unfold conc_done in D. rewrite RU, W in D. discriminate.
      + rewrite RU. cbn [length]. assert (X : (0 <? limit)%nat = true) by (apply Nat.ltb_lt; exact L). rewrite X. eauto.
    - right. split; [discriminate|exact FIN].
  Qed.
End Work.

Lemma completes_collect work limit l acts :
  completes work limit l acts ->
  exists c c', conc_start l = Some c /\ conc_run work limit (length l) c acts = Some c' /\ conc_done c' = true /\
    collect c' = map (fun x => work (snd x) (outcome_of acts (fst x))) (enumerate_from 0 l).
Proof.
  intros (c & c' & S & R & D). exists c, c'. split; [exact S|]. split; [exact R|]. split; [exact D|].
  unfold conc_start in S. destruct (is_nil l); [discriminate|]. injection S as <-. eapply collect_done; eauto.
Qed.
Lemma flatten_answers known work l acts : (forall r o, work r o = answer known r o) ->
  flatten (map (fun x => work (snd x) (outcome_of acts (fst x))) (enumerate_from 0 l)) = answers known l acts.
Proof.
  intros W. unfold flatten, answers. rewrite enumerate_combine. induction (combine _ l) as [|x r IH]; [reflexivity|].
  cbn [map flat_map]. now rewrite W, IH.
Qed.
