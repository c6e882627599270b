(** Proofs about proposals: the parts validator and the transaction batch stage. *)
From Coq Require Import List Bool Arith NArith Lia ZifyBool ZifyNat ZifyN.
From Verif Require Import AList P2PStreamModel P2PStreamProof ProposalModel ProposalSpec.
Import ListNotations.
Local Open Scope N_scope.

(* ---------------------------------------------------------------- *)
(** The parts validator *)

(** shape of the parts taken so far *)
Definition pv_shape (v : pv) : Prop :=
  (v = pv_new) \/
  (exists i bs,
      pv_parts v = Init i :: map Batch bs /\ Forall (fun b => b <> []) bs /\
      pv_has_init v = true /\ pv_has_fin v = false /\
      pv_proposer v = Some (i_proposer i) /\ pv_valid_round v = i_valid_round i) \/
  (exists i rest,
      pv_parts v = Init i :: rest /\ (exists c n, In (PFin c n) rest) /\
      pv_has_init v = true /\ pv_has_fin v = true).

Lemma pv_step v p v' r :
  pv_shape v -> accept_part v p = Some (v', r) ->
  pv_shape v' /\ pv_parts v' = pv_parts v ++ [p] /\
  (r <> Accepted -> complete_as r (pv_parts v') /\ pv_has_fin v = false /\ pv_has_fin v' = true) /\
  (pv_has_fin v = true -> pv_has_fin v' = true /\ r = Accepted /\ exists txs, p = Batch txs).
Proof.
  intros SH A.
  destruct SH as [E | [(i & bs & E1 & FB & E2 & E3 & E4 & E5) | (i & rest & E1 & E2 & E3 & E4)]].
  - subst v. destruct p as [i | txs | c n]; cbn in A; [|discriminate|discriminate].
    inversion A; subst; clear A. split; [|split; [reflexivity|]].
    + right; left. exists i, []. cbn. auto 10.
    + split; [congruence|]. cbn; discriminate.
  - destruct p as [j | txs | c n]; unfold accept_part in A; rewrite ?E1 in A; [discriminate| |].
    + destruct txs as [|t txs]; [discriminate|]. inversion A; subst; clear A.
      split; [|split; [cbn; rewrite ?E1; reflexivity|split; [congruence|cbn; congruence]]].
      right; left. exists i, (bs ++ [t :: txs]). cbn. rewrite map_app; cbn.
      repeat match goal with |- _ /\ _ => split end; auto.
      apply Forall_app. split; [auto|]. apply Forall_cons; [discriminate|auto].
    + rewrite E2, E3 in A. cbn [length] in A.
      destruct bs as [|b bs]; cbn in A; inversion A; subst; clear A.
      * split; [|split; [cbn; rewrite ?E1; reflexivity|split]].
        -- right; right. exists i, [PFin c n]. cbn. eauto 10.
        -- intros _. cbn. repeat split; eauto.
        -- congruence.
      * split; [|split; [cbn; rewrite ?E1; reflexivity|split]].
        -- right; right. exists i, (map Batch (b :: bs) ++ [PFin c n]). cbn.
           split; [reflexivity|]. split; [|auto]. exists c, n. right. apply in_or_app. right; left; reflexivity.
        -- intros _. split; [|auto]. exists i, (b :: bs), c, n. cbn. repeat split; auto; discriminate.
        -- congruence.
  - destruct p as [j | txs | c n]; unfold accept_part in A; rewrite ?E1, ?E3, ?E4 in A; [discriminate| |discriminate].
    destruct txs as [|t txs]; [discriminate|]. inversion A; subst; clear A.
    split; [|split; [cbn; rewrite ?E1; reflexivity|split; [congruence|cbn; eauto]]].
    right; right. exists i, (rest ++ [Batch (t :: txs)]). cbn. repeat match goal with |- _ /\ _ => split end; auto.
    destruct E2 as (c & n & I). exists c, n. apply in_or_app; auto.
Qed.

Lemma answers_fin v ps pre p r post :
  pv_shape v -> pv_has_fin v = true -> answers v ps = pre ++ (p, Some r) :: post ->
  r = Accepted /\ exists txs, p = Batch txs.
Proof.
  revert v pre. induction ps as [|q ps IH]; intros v pre SH F A.
  - destruct pre; discriminate.
  - cbn [answers] in A. destruct (accept_part v q) as [[v' r']|] eqn:AQ.
    + destruct (pv_step _ _ _ _ SH AQ) as (SH' & _ & _ & FF). destruct (FF F) as (F' & R & B).
      destruct pre as [|x pre]; cbn in A; injection A as A1 A2.
      * inversion A1; subst. auto.
      * apply (IH v' pre SH' F' A2).
    + destruct pre as [|x pre]; cbn in A; injection A as A1 A2; [discriminate|].
      apply (IH v pre SH F A2).
Qed.

Lemma answers_complete v ps pre p r post :
  pv_shape v -> answers v ps = pre ++ (p, Some r) :: post -> r <> Accepted ->
  complete_as r (pv_parts v ++ taken pre ++ [p]) /\
  (forall q r', In (q, Some r') post -> r' = Accepted /\ exists txs, q = Batch txs).
Proof.
  revert v pre. induction ps as [|q ps IH]; intros v pre SH A NR.
  - destruct pre; discriminate.
  - cbn [answers] in A. destruct (accept_part v q) as [[v' r']|] eqn:AQ.
    + destruct (pv_step _ _ _ _ SH AQ) as (SH' & EP & FF & _).
      destruct pre as [|x pre]; cbn in A; injection A as A1 A2.
      * inversion A1; subst. destruct (FF NR) as (C & _ & F'). cbn. rewrite <- EP. split; [exact C|].
        intros q r' I. apply in_split in I. destruct I as (l1 & l2 & I).
        rewrite I in *. apply (answers_fin v' ps l1 q r' l2 SH' F' I).
      * subst x. unfold taken. cbn [filter snd map fst app].
        destruct (IH v' pre SH' A2 NR) as (C & P).
        rewrite EP, <- app_assoc in C. split; [exact C|exact P].
    + destruct pre as [|x pre]; cbn in A; injection A as A1 A2; [discriminate|].
      subst x. unfold taken. cbn [filter snd map fst app]. apply (IH v pre SH A2 NR).
Qed.

Lemma answers_batches v (i : init) bs bs0 ps :
  pv_parts v = Init i :: map Batch bs0 ->
  Forall (fun b => b <> []) bs ->
  exists v',
    answers v (map Batch bs ++ ps) = map (fun b => (Batch b, Some Accepted)) bs ++ answers v' ps /\
    pv_parts v' = Init i :: map Batch (bs0 ++ bs) /\
    pv_has_init v' = pv_has_init v /\ pv_has_fin v' = pv_has_fin v.
Proof.
  revert v bs0. induction bs as [|b bs IH]; intros v bs0 E F.
  - exists v. rewrite app_nil_r. cbn. auto.
  - apply Forall_cons_iff in F. destruct F as (NB & F). destruct b as [|t b]; [congruence|].
    cbn [map app answers accept_part]. rewrite E.
    destruct (IH (mkPv ((Init i :: map Batch bs0) ++ [Batch (t :: b)]) (pv_has_init v) (pv_has_fin v) (pv_batches v + 1)
                       (pv_proposer v) (pv_valid_round v)) (bs0 ++ [t :: b])) as (v' & A & B & C & D).
    + cbn. rewrite map_app. reflexivity.
    + exact F.
    + exists v'. rewrite A. split; [reflexivity|]. rewrite <- app_assoc in B. cbn in *. auto.
Qed.

Lemma answers_proposal i bs c n :
  Forall (fun b => b <> []) bs ->
  answers pv_new (proposal i bs c n) =
  (Init i, Some Accepted) :: map (fun b => (Batch b, Some Accepted)) bs ++
  [(PFin c n, Some match bs with [] => EmptyProposal | _ => NonEmptyProposal end)].
Proof.
  intros F. unfold proposal. cbn [answers accept_part pv_new pv_parts].
  f_equal.
  destruct (answers_batches (mkPv [Init i] true false 0 (Some (i_proposer i)) (i_valid_round i)) i bs [] [PFin c n])
    as (v' & A & B & C & D); [reflexivity|exact F|].
  cbn [pv_has_fin pv_new pv_batches] in *. rewrite A. f_equal.
  cbn [answers accept_part]. rewrite B, C, D. cbn [length app map].
  destruct bs; reflexivity.
Qed.

(* ---------------------------------------------------------------- *)
(** Execution *)


Section Exec.
  Variable ok_tx : N -> bool.
  Variable tx_class : N -> option N.
  Variable exec : init -> list N -> N -> option output.
  Variable state_update : init -> list N -> N.
  Variable diff_commitment : N -> N.
  Variable valid_info : init -> bool.

  Lemma run_txs_app i log a b :
    run_txs exec i log (a ++ b) =
    match run_txs exec i log a with
    | None => None
    | Some os => match run_txs exec i (log ++ a) b with None => None | Some os' => Some (os ++ os') end
    end.
  Proof.
    revert log. induction a as [|t a IH]; intros log; cbn [app run_txs].
    - rewrite app_nil_r. destruct (run_txs exec i log b); reflexivity.
    - destruct (exec i log t) as [o|]; [|reflexivity]. rewrite IH, <- app_assoc.
      destruct (run_txs exec i (log ++ [t]) a); [|reflexivity].
      cbn [app]. destruct (run_txs exec i (log ++ t :: a) b); reflexivity.
  Qed.

  Lemma run_txs_outputs i log txs os :
    run_txs exec i log txs = Some os ->
    length os = length txs /\
    forall k t, nth_error txs k = Some t -> nth_error os k = exec i (log ++ firstn k txs) t.
  Proof.
    revert log os. induction txs as [|t txs IH]; intros log os R; cbn [run_txs] in R.
    - inversion R; subst. split; [reflexivity|]. intros [|k] t E; discriminate.
    - destruct (exec i log t) as [o|] eqn:EX; [|discriminate].
      destruct (run_txs exec i (log ++ [t]) txs) as [os'|] eqn:R'; [|discriminate].
      inversion R; subst. destruct (IH _ _ R') as (L & P). split; [cbn; congruence|].
      intros [|k] u E; cbn in E.
      + inversion E; subst. cbn. rewrite app_nil_r. auto.
      + cbn [nth_error firstn]. rewrite (P _ _ E), <- app_assoc. reflexivity.
  Qed.

  Lemma outputs_run i log txs os :
    length os = length txs ->
    (forall k t, nth_error txs k = Some t -> nth_error os k = exec i (log ++ firstn k txs) t) ->
    run_txs exec i log txs = Some os.
  Proof.
    revert log os. induction txs as [|t txs IH]; intros log os L P; destruct os as [|o os]; try discriminate; cbn [run_txs].
    - reflexivity.
    - pose proof (P 0%nat t eq_refl) as P0. cbn in P0. rewrite app_nil_r in P0. rewrite <- P0.
      rewrite (IH (log ++ [t]) os); [reflexivity| cbn in L; congruence |].
      intros k u E. rewrite <- app_assoc. exact (P (S k) u E).
  Qed.

  Lemma outputs_of_run i txs os : outputs_of exec i txs os <-> run_txs exec i [] txs = Some os.
  Proof.
    split.
    - intros (L & P). apply outputs_run; auto.
    - intros R. apply run_txs_outputs in R. exact R.
  Qed.

  Lemma outputs_of_firstn i txs os n :
    outputs_of exec i txs os -> outputs_of exec i (firstn n txs) (firstn n os).
  Proof.
    rewrite !outputs_of_run. intros R. pose proof R as R0. rewrite <- (firstn_skipn n txs), run_txs_app in R.
    destruct (run_txs exec i [] (firstn n txs)) as [o1|] eqn:E1; [|discriminate].
    destruct (run_txs exec i ([] ++ firstn n txs) (skipn n txs)) as [o2|]; [|discriminate].
    inversion R; subst. f_equal.
    apply run_txs_outputs in E1. destruct E1 as (L & _).
    assert (LL : length o1 = length (firstn n txs)) by exact L.
    rewrite firstn_app.
    destruct (Nat.leb_spec n (length txs)).
    - rewrite firstn_length_le in LL by lia. rewrite LL, Nat.sub_diag. cbn [firstn].
      rewrite app_nil_r. symmetry. apply firstn_all2. lia.
    - rewrite firstn_all2 in LL by lia. rewrite firstn_all2 by lia.
      apply run_txs_outputs in R0. destruct R0 as (L2 & _). rewrite app_length in L2.
      rewrite LL in L2. destruct o2; [|cbn in L2; lia]. rewrite firstn_nil, app_nil_r. reflexivity.
  Qed.

  Lemma make_receipts_app k a b os os' :
    length os = length a ->
    make_receipts k (a ++ b) (os ++ os') =
    make_receipts k a os ++ make_receipts (k + N.of_nat (length a)) b os'.
  Proof.
    revert k os. induction a as [|t a IH]; intros k os L; destruct os as [|o os]; try discriminate.
    - cbn [app length make_receipts]. f_equal. cbn. lia.
    - cbn [app length make_receipts]. rewrite IH by (cbn in L; congruence).
      do 3 f_equal. lia.
  Qed.

  Lemma make_receipts_spec k txs os :
    length os = length txs ->
    length (make_receipts k txs os) = length txs /\
    forall j t o, nth_error txs j = Some t -> nth_error os j = Some o ->
      nth_error (make_receipts k txs os) j = Some (mkReceipt t (o_body o) (o_reverted o) (k + N.of_nat j)).
  Proof.
    revert k os. induction txs as [|t txs IH]; intros k os L; destruct os as [|o os]; try discriminate.
    - split; [reflexivity|]. intros [|j] ? ? E; discriminate.
    - assert (L' : length os = length txs) by (cbn in L; congruence).
      destruct (IH (k + 1) os L') as (A & B). split; [cbn; congruence|].
      intros [|j] u q E1 E2; cbn in E1, E2 |- *.
      + inversion E1; inversion E2; subst. do 2 f_equal. lia.
      + rewrite (B _ _ _ E1 E2). do 2 f_equal. lia.
  Qed.

  Lemma make_receipts_firstn k n txs os :
    length os = length txs ->
    firstn n (make_receipts k txs os) = make_receipts k (firstn n txs) (firstn n os).
  Proof.
    revert k n os. induction txs as [|t txs IH]; intros k n os L; destruct os as [|o os]; try discriminate.
    - rewrite !firstn_nil. reflexivity.
    - destruct n; [reflexivity|]. cbn [make_receipts firstn]. rewrite IH by (cbn in L; congruence). reflexivity.
  Qed.

  Lemma new_classes_spec k txs os :
    length os = length txs ->
    new_classes tx_class (make_receipts k txs os) txs = classes_of tx_class txs os.
  Proof.
    revert k os. induction txs as [|t txs IH]; intros k os L; destruct os as [|o os]; try discriminate.
    - reflexivity.
    - cbn [make_receipts new_classes]. unfold classes_of. cbn [combine flat_map fst snd r_reverted].
      fold (classes_of tx_class txs os). rewrite (IH (k + 1) os) by (cbn in L; congruence).
      destruct (tx_class t), (o_reverted o); reflexivity.
  Qed.

  Lemma classes_of_app a b os os' :
    length os = length a ->
    classes_of tx_class (a ++ b) (os ++ os') = classes_of tx_class a os ++ classes_of tx_class b os'.
  Proof.
    revert os. induction a as [|t a IH]; intros os L; destruct os as [|o os]; try discriminate.
    - reflexivity.
    - cbn [app]. unfold classes_of. cbn [combine flat_map]. fold (classes_of tx_class a os).
      fold (classes_of tx_class (a ++ b) (os ++ os')). rewrite IH by (cbn in L; congruence).
      rewrite app_assoc. reflexivity.
  Qed.

  (** a stage that has run exactly [txs] *)
  Definition ran (i : init) (txs : list N) (v : vstage) : Prop :=
    exists os,
      run_txs exec i [] txs = Some os /\
      v = mkVs i txs (make_receipts 0 txs os) (map o_events os)
               (match txs with [] => None | _ => Some txs end) (classes_of tx_class txs os).

  Lemma ran_new i : ran i [] (vs_new i).
  Proof. exists []. split; reflexivity. Qed.

  Lemma ran_batch i txs v b v' :
    ran i txs v -> execute_batch ok_tx tx_class exec v b = Some v' -> ran i (txs ++ b) v'.
  Proof.
    intros (os & R & E) X. subst v.
    assert (L := proj1 (run_txs_outputs _ _ _ _ R)).
    unfold execute_batch in X. destruct b as [|t b].
    - inversion X; subst. rewrite app_nil_r. exists os. auto.
    - destruct (forallb ok_tx (t :: b)); [|discriminate].
      cbn [vs_executor vs_init vs_txs vs_receipts vs_events vs_declared] in X.
      assert (LOG : match match txs with [] => None | _ :: _ => Some txs end with Some l => l | None => [] end = txs)
        by (destruct txs; reflexivity).
      rewrite LOG in X.
      destruct (run_txs exec i txs (t :: b)) as [os'|] eqn:R'; [|discriminate].
      inversion X; subst; clear X.
      exists (os ++ os'). split.
      + rewrite run_txs_app, R. cbn [app]. rewrite R'. reflexivity.
      + assert (L' := proj1 (run_txs_outputs _ _ _ _ R')).
        f_equal.
        * rewrite make_receipts_app by exact L. f_equal.
        * rewrite map_app. reflexivity.
        * destruct txs; reflexivity.
        * rewrite classes_of_app by exact L. f_equal. exact (new_classes_spec (N.of_nat (length txs)) (t :: b) os' L').
  Qed.

  (** a stage cut back to the first [n] of [txs]; the classes are not cut *)
  Definition cut (i : init) (txs : list N) (n : nat) (v : vstage) : Prop :=
    exists os,
      run_txs exec i [] txs = Some os /\
      v = mkVs i (firstn n txs) (firstn n (make_receipts 0 txs os)) (firstn n (map o_events os))
               (match txs with [] => None | _ => Some txs end) (classes_of tx_class txs os).

  Lemma cut_rollback i txs v n v' :
    ran i txs v -> rollback_to v n = Some v' ->
    (N.to_nat n <= length txs)%nat /\ cut i txs (N.to_nat n) v'.
  Proof.
    intros (os & R & E) X. subst v. unfold rollback_to in X. cbn [vs_txs] in X.
    destruct (Nat.ltb_spec (length txs) (N.to_nat n)); [discriminate|].
    split; [assumption|]. exists os. split; [exact R|].
    assert (L := proj1 (run_txs_outputs _ _ _ _ R)).
    destruct (Nat.eqb_spec (N.to_nat n) (length txs)) as [EQ|]; inversion X; subst; [|reflexivity].
    rewrite EQ, firstn_all.
    rewrite (firstn_all2 (make_receipts 0 txs os)) by (rewrite (proj1 (make_receipts_spec 0 txs os L)); lia).
    rewrite (firstn_all2 (map o_events os)) by (rewrite map_length; lia). reflexivity.
  Qed.

  Lemma ran_cut i txs v n : ran i txs v -> (length txs <= n)%nat -> cut i txs n v.
  Proof.
    intros (os & R & E) H. exists os. split; [exact R|].
    assert (L := proj1 (run_txs_outputs _ _ _ _ R)). subst v.
    rewrite (firstn_all2 txs) by lia.
    rewrite (firstn_all2 (make_receipts 0 txs os)) by (rewrite (proj1 (make_receipts_spec 0 txs os L)); lia).
    rewrite (firstn_all2 (map o_events os)) by (rewrite map_length; lia). reflexivity.
  Qed.

  Lemma combine_fst {A B} (l : list A) (l' : list B) : length l = length l' -> map fst (combine l l') = l.
  Proof.
    revert l'; induction l as [|a l IH]; intros [|b l'] L; try discriminate; [reflexivity|].
    cbn. f_equal. apply IH. cbn in L; congruence.
  Qed.
  Lemma combine_snd {A B} (l : list A) (l' : list B) : length l = length l' -> map snd (combine l l') = l'.
  Proof.
    revert l'; induction l as [|a l IH]; intros [|b l'] L; try discriminate; [reflexivity|].
    cbn. f_equal. apply IH. cbn in L; congruence.
  Qed.

  Lemma cut_finalize i txs n v b :
    cut i txs n v -> finalize0 state_update v = Some b ->
    block_of exec state_update i (firstn n txs) b.
  Proof.
    intros (os & R & E) X. subst v. unfold finalize0 in X.
    cbn [vs_txs vs_executor vs_init vs_receipts vs_events vs_declared] in X.
    assert (L := proj1 (run_txs_outputs _ _ _ _ R)).
    assert (O := proj2 (outputs_of_run _ _ _) R).
    assert (OF := outputs_of_firstn _ _ _ n O).
    assert (LF : length (firstn n os) = length (firstn n txs)) by exact (proj1 OF).
    exists (firstn n os).
    assert (RC : receipts_of (firstn n txs) (firstn n os) (firstn n (make_receipts 0 txs os))).
    { rewrite make_receipts_firstn by exact L.
      destruct (make_receipts_spec 0 _ _ LF) as (A & B). split; [exact A|].
      intros k t o E1 E2. rewrite (B _ _ _ E1 E2). do 2 f_equal. }
    destruct txs as [|t txs].
    - rewrite firstn_nil in *. inversion X; subst.
      destruct os; [|discriminate]. rewrite firstn_nil in *. cbn. repeat split; auto.
      all: try (intros [|k] ? ?; discriminate).
      all: try (intros [|k] ? ? ?; discriminate). apply firstn_nil.
    - inversion X; subst; clear X. cbn [b_init b_txs b_receipts b_events b_update].
      assert (LL : length (firstn n (t :: txs)) = length (firstn n (make_receipts 0 (t :: txs) os)))
        by (symmetry; exact (proj1 RC)).
      rewrite combine_fst, combine_snd by exact LL.
      repeat match goal with |- _ /\ _ => split end; auto; try apply OF; try apply RC.
      + apply firstn_map.
      + rewrite firstn_length.
        destruct (Nat.leb_spec n (length (t :: txs))).
        * rewrite Nat.min_l by assumption. reflexivity.
        * rewrite Nat.min_r by lia. rewrite (firstn_all2 (n := n)) by lia.
          rewrite firstn_all2 by lia. reflexivity.
  Qed.

  Lemma cut_finalizes i txs n v : cut i txs n v -> exists b, finalize0 state_update v = Some b.
  Proof.
    intros (os & R & E). subst v. unfold finalize0. cbn [vs_txs vs_executor].
    destruct txs as [|t txs]; [rewrite firstn_nil|]; eexists; reflexivity.
  Qed.

  (** executing batches in a row *)
  Fixpoint execute_batches (v : vstage) (bs : list (list N)) : option vstage :=
    match bs with
    | [] => Some v
    | b :: bs' =>
        match execute_batch ok_tx tx_class exec v b with
        | Some v' => execute_batches v' bs'
        | None => None
        end
    end.

  Lemma ran_batches i txs v bs v' :
    ran i txs v -> execute_batches v bs = Some v' -> ran i (txs ++ concat bs) v'.
  Proof.
    revert txs v. induction bs as [|b bs IH]; intros txs v R X; cbn [execute_batches] in X.
    - inversion X; subst. cbn. rewrite app_nil_r. exact R.
    - destruct (execute_batch ok_tx tx_class exec v b) as [v1|] eqn:E; [|discriminate].
      cbn [concat]. rewrite app_assoc. exact (IH _ _ (ran_batch _ _ _ _ _ R E) X).
  Qed.

  (** and conversely: nothing but a bad transaction makes a batch fail *)
  Lemma batch_ok i txs v b os :
    ran i txs v -> forallb ok_tx b = true -> run_txs exec i [] (txs ++ b) = Some os ->
    exists v', execute_batch ok_tx tx_class exec v b = Some v'.
  Proof.
    intros (os0 & R & E) OK X. subst v. unfold execute_batch.
    destruct b as [|t b]; [eexists; reflexivity|]. rewrite OK.
    cbn [vs_executor vs_init vs_txs vs_receipts vs_events vs_declared].
    assert (LOG : match match txs with [] => None | _ :: _ => Some txs end with Some l => l | None => [] end = txs)
      by (destruct txs; reflexivity).
    rewrite LOG. rewrite run_txs_app, R in X. cbn [app] in X.
    destruct (run_txs exec i txs (t :: b)) as [os'|]; [|discriminate]. eexists; reflexivity.
  Qed.
End Exec.
