From Coq Require Import List NArith Bool Lia ZifyBool ZifyN ZifyNat Permutation Sorted.
From Verif Require Import AList Radix WalModel WalSpec WalProof.
Import ListNotations.
Local Open Scope N_scope.

(* A small encoding with the properties asked of JSON: {D111,11} and {O1111}. *)
Module ToyJson.
  Definition ones (n : N) : bytes := repeat 49 (N.to_nat n).
  Definition ser (e : wal_entry) : bytes :=
    match e with
    | Decision h v => 123 :: 68 :: ones h ++ 44 :: ones v ++ [125]
    | Other b => 123 :: 79 :: ones b ++ [125]
    end.
  Fixpoint count (l : bytes) : N * bytes :=
    match l with
    | c :: r => if c =? 49 then (N.succ (fst (count r)), snd (count r)) else (0, l)
    | [] => (0, [])
    end.
  Definition de (l : bytes) : option wal_entry :=
    match l with
    | o :: t :: r =>
        let (n, r1) := count r in
        if negb (o =? 123) then None
        else if t =? 79 then
          match r1 with [c] => if c =? 125 then Some (Other n) else None | _ => None end
        else if t =? 68 then
          match r1 with
          | c :: r2 =>
              let (m, r3) := count r2 in
              if negb (c =? 44) then None
              else match r3 with [c'] => if c' =? 125 then Some (Decision n m) else None | _ => None end
          | [] => None
          end
        else None
    | _ => None
    end.

  Lemma count_ones n c r : c <> 49 -> count (ones n ++ c :: r) = (n, c :: r).
  Proof.
    intros NE. unfold ones. rewrite <- (Nnat.N2Nat.id n) at 2. induction (N.to_nat n) as [|k IH].
    - cbn [repeat app count]. destruct (N.eqb_spec c 49); [contradiction|reflexivity].
    - cbn [repeat app count]. rewrite N.eqb_refl, IH. cbn [fst snd]. f_equal. lia.
  Qed.

  Lemma count_app l : exists n, l = ones n ++ snd (count l) /\ fst (count l) = n.
  Proof.
    induction l as [|c l (n & IH & E)]; [exists 0; split; reflexivity|]. cbn [count].
    destruct (N.eqb_spec c 49) as [->|NE].
    - exists (N.succ n). cbn [fst snd]. split; [|congruence]. unfold ones in *. rewrite Nnat.N2Nat.inj_succ.
      cbn [repeat app]. f_equal. exact IH.
    - exists 0. split; reflexivity.
  Qed.

  Lemma de_ser e : de (ser e) = Some e.
  Proof.
    destruct e as [h v|b]; cbn [ser de].
    - rewrite count_ones by discriminate. cbn. rewrite count_ones by discriminate. reflexivity.
    - rewrite count_ones by discriminate. reflexivity.
  Qed.

  Lemma de_inv l e : de l = Some e -> l = ser e.
  Proof.
    destruct l as [|o [|t r]]; try discriminate. cbn [de].
    destruct (count_app r) as (n & ER & EN). destruct (count r) as [n' r1]. cbn [fst snd] in ER, EN. subst n'.
    destruct (N.eqb_spec o 123) as [->|]; [|discriminate]. cbn [negb].
    destruct (N.eqb_spec t 79) as [->|].
    - destruct r1 as [|c [|? ?]]; try discriminate. destruct (N.eqb_spec c 125) as [->|]; [|discriminate].
      intros E. injection E as <-. subst r. reflexivity.
    - destruct (N.eqb_spec t 68) as [->|]; [|discriminate]. destruct r1 as [|c r2]; [discriminate|].
      destruct (count_app r2) as (m & ER2 & EM). destruct (count r2) as [m' r3]. cbn [fst snd] in ER2, EM. subst m'.
      destruct (N.eqb_spec c 44) as [->|]; [|discriminate]. cbn [negb].
      destruct r3 as [|c' [|? ?]]; try discriminate. destruct (N.eqb_spec c' 125) as [->|]; [|discriminate].
      intros E. injection E as <-. subst r r2. reflexivity.
  Qed.

  (* the closing brace is the last byte and nowhere else *)
  Lemma ser_shape e : exists b, ser e = b ++ [125] /\ ~ In 125 b /\ ~ In 10 b /\ ~ In 13 b.
  Proof.
    assert (O : forall n c, In c (ones n) -> c = 49) by (intros n c I; eapply repeat_spec, I).
    destruct e as [h v|b].
    - exists (123 :: 68 :: ones h ++ 44 :: ones v). cbn [ser]. split; [cbn [app]; rewrite <- app_assoc; reflexivity|].
      repeat split; intros [X|[X|X]]; try discriminate; apply in_app_or in X;
        destruct X as [X|[X|X]]; try discriminate; apply O in X; discriminate.
    - exists (123 :: 79 :: ones b). cbn [ser]. split; [reflexivity|].
      repeat split; intros [X|[X|X]]; try discriminate; apply O in X; discriminate.
  Qed.

  Lemma json : json_like ser de.
  Proof.
    constructor.
    - exact de_ser.
    - intros e. destruct (ser_shape e) as (b & -> & _ & A & B). split; intros I; apply in_app_or in I;
        destruct I as [I|[I|[]]]; try discriminate; contradiction.
    - intros e k L. destruct k as [|k]; [lia|]. destruct e; reflexivity.
    - intros []; discriminate.
    - intros e k L. destruct (de (firstn k (ser e))) as [e'|] eqn:E; [|reflexivity]. exfalso.
      apply de_inv in E. destruct (ser_shape e) as (b & EB & NB & _), (ser_shape e') as (b' & EB' & _).
      rewrite EB, app_length in L. simpl in L.
      assert (I : In 125 (firstn k (ser e))) by (rewrite E, EB'; apply in_or_app; right; left; reflexivity).
      rewrite EB, firstn_app in I. replace (k - length b)%nat with O in I by lia. cbn [firstn] in I.
      rewrite app_nil_r in I. apply NB. rewrite <- (firstn_skipn k b). apply in_or_app. left. exact I.
    - intros e e'. destruct (de (ser e ++ ser e')) as [f|] eqn:E; [|reflexivity]. exfalso. apply de_inv in E.
      destruct (ser_shape e) as (b & EB & NB & _), (ser_shape f) as (g & EG & NG & _).
      rewrite EB, EG in E. rewrite <- app_assoc in E. cbn [app] in E.
      assert (X : b ++ 125 :: ser e' = g ++ [125]) by exact E.
      assert (Y : removelast (b ++ 125 :: ser e') = g) by (rewrite X; apply removelast_last).
      apply NG. rewrite <- Y. destruct e'; (rewrite removelast_app by discriminate; apply in_or_app; right; left; reflexivity).
  Qed.
End ToyJson.

(* C43, crashes between appends: after any history of opened, appended to and deleted logs,
   over any number of restarts, and whatever the order in which the directory is listed,
   recovery returns every logged height once, in order, with exactly the entries appended
   for it, and the highest decision.  Missing from the property: a height without a decision
   counts as finalized by being committed only if something was logged for it. *)
Theorem C43_recovery_returns_what_was_logged_partial : forall ser de address tr hc listing,
  json_like ser de -> ~ In 45 address -> heights_ok tr ->
  Permutation listing (wal_run ser address tr) ->
  exists r, recover_incomplete_heights de listing hc = Some r /\ faithful (done_if_logged hc) tr r.
Proof.
  intros ser de address tr hc listing J ND OK P.
  pose proof (dir_is_perm address _ _ _ P (run_dir ser address tr ND OK)) as DI.
  destruct (recover_dir de address _ listing hc (logged tr) ND DI) as (hes & SS & IN & E).
  - intros h L. destruct (logged tr h); [apply (read_file ser de J)|exact I].
  - exists (mkRecovered
        (filter (fun he => negb (is_finalized hc (fst he) (snd he))) hes)
        (filter (fun he => is_finalized hc (fst he) (snd he)) hes)
        (max_decision None (concat (map snd hes)))).
    split; [exact E|]. apply faithful_of; assumption.
Qed.
Print Assumptions C43_recovery_returns_what_was_logged_partial.

(* C43, crashes inside an append, at every byte: nothing written behaves as no append, the
   whole entry behaves as the append even without its newline, and anything in between makes
   recovery of all heights fail. *)
Theorem C43_crash_inside_append : forall ser de address tr hc h e k listing,
  json_like ser de -> ~ In 45 address -> heights_ok tr -> h < 2 ^ 64 -> (k <= length (ser e) + 1)%nat ->
  Permutation listing (wal_write address (wal_run ser address tr) h (firstn k (wal_line ser e))) ->
  (k = O -> exists r, recover_incomplete_heights de listing hc = Some r /\
                      faithful (done_if_logged hc) (tr ++ [WOpen h]) r) /\
  ((0 < k < length (ser e))%nat -> recover_incomplete_heights de listing hc = None) /\
  ((length (ser e) <= k)%nat -> exists r, recover_incomplete_heights de listing hc = Some r /\
                      faithful (done_if_logged hc) (tr ++ [WAppend h e]) r).
Proof.
  intros ser de address tr hc h e k listing J ND OK LH LK P.
  pose proof (run_dir ser address tr ND OK) as DR.
  unfold wal_write in P. rewrite (dir_is_get address ND _ _ _ DR LH) in P.
  set (es := match logged tr h with Some es => es | None => [] end).
  assert (EO : match (match logged tr h with Some es => Some (file_of ser es) | None => None end) with Some c => c | None => [] end
               = file_of ser es) by (unfold es; destruct (logged tr h); reflexivity).
  rewrite EO in P.
  pose proof (dir_is_perm address _ _ _ P
    (dir_is_set address ND _ _ h (file_of ser es ++ firstn k (wal_line ser e)) DR LH)) as DI.
  assert (OKA : heights_ok (tr ++ [WAppend h e])) by (apply Forall_app; split; [exact OK|repeat constructor; exact LH]).
  assert (OKO : heights_ok (tr ++ [WOpen h])) by (apply Forall_app; split; [exact OK|repeat constructor; exact LH]).
  split; [|split].
  - intros ->. cbn [firstn] in DI. rewrite app_nil_r in DI.
    destruct (recover_dir de address _ listing hc (logged (tr ++ [WOpen h])) ND DI) as (hes & SS & IN & E).
    + intros x L. cbv beta. rewrite logged_snoc. cbn [log_step]. destruct (N.eqb_spec h x) as [<-|NE].
      * unfold es. apply (read_file ser de J).
      * destruct (logged tr x); [apply (read_file ser de J)|exact I].
    + eexists. split; [exact E|]. apply faithful_of; assumption.
  - intros LK'. eapply (recover_dir_fails de address _ listing hc h _ ND DI LH).
    + rewrite N.eqb_refl. reflexivity.
    + unfold wal_line. rewrite firstn_app. replace (k - length (ser e))%nat with O by lia. cbn [firstn].
      rewrite app_nil_r. apply (read_torn ser de J). exact LK'.
  - intros LK'. assert (RE : read_entries de (file_of ser es ++ firstn k (wal_line ser e)) = Some (es ++ [e])).
    { destruct (PeanoNat.Nat.eq_dec k (length (ser e))) as [->|NE].
      - unfold wal_line. rewrite firstn_app, firstn_all, PeanoNat.Nat.sub_diag. cbn [firstn]. rewrite app_nil_r.
        apply (read_unterminated ser de J).
      - rewrite firstn_all2 by (unfold wal_line; rewrite app_length; simpl; lia).
        rewrite <- file_of_snoc. apply (read_file ser de J). }
    destruct (recover_dir de address _ listing hc (logged (tr ++ [WAppend h e])) ND DI) as (hes & SS & IN & E).
    + intros x L. cbv beta. rewrite logged_snoc. cbn [log_step]. destruct (N.eqb_spec h x) as [<-|NE].
      * exact RE.
      * destruct (logged tr x); [apply (read_file ser de J)|exact I].
    + eexists. split; [exact E|]. apply faithful_of; assumption.
Qed.
Print Assumptions C43_crash_inside_append.

(* The property fails for a crash inside an append: here height 5 is decided and logged, the
   validator dies while it logs a vote for height 6, and recovery returns nothing at all. *)
Theorem C43_torn_line_refuted :
  exists ser de address tr h e k, json_like ser de /\ ~ In 45 address /\ heights_ok tr /\
    logged tr 5 = Some [Other 1; Decision 5 9] /\ h = 6 /\ (0 < k < length (ser e))%nat /\
    forall hc, recover_incomplete_heights de
      (wal_write address (wal_run ser address tr) h (firstn k (wal_line ser e))) hc = None.
Proof.
  exists ToyJson.ser, ToyJson.de, (text "0x1"), [WOpen 5; WAppend 5 (Other 1); WAppend 5 (Decision 5 9); WOpen 6], 6, (Other 2), 3%nat.
  split; [exact ToyJson.json|]. split; [vm_compute; intuition discriminate|].
  assert (OK : heights_ok [WOpen 5; WAppend 5 (Other 1); WAppend 5 (Decision 5 9); WOpen 6])
    by (repeat constructor; vm_compute; reflexivity).
  split; [exact OK|]. split; [reflexivity|]. split; [reflexivity|]. split; [vm_compute; lia|].
  intros hc. assert (ND : ~ In 45 (text "0x1")) by (vm_compute; intuition discriminate).
  destruct (C43_crash_inside_append ToyJson.ser ToyJson.de (text "0x1") _ hc 6 (Other 2) 3 _ ToyJson.json ND OK
              ltac:(lia) ltac:(vm_compute; lia) (Permutation_refl _)) as (_ & T & _).
  apply T. vm_compute. lia.
Qed.
Print Assumptions C43_torn_line_refuted.

(* The property fails for a crash between an entry and its newline, which are two writes.
   The recovery right after the crash succeeds (C43_crash_inside_append), but the next entry
   logged for the height makes every later recovery fail. *)
Theorem C43_unterminated_line_refuted : forall ser de address tr hc h e e' listing,
  json_like ser de -> ~ In 45 address -> heights_ok tr -> h < 2 ^ 64 ->
  Permutation listing (wal_append ser address (wal_write address (wal_run ser address tr) h (ser e)) h e') ->
  recover_incomplete_heights de listing hc = None.
Proof.
  intros ser de address tr hc h e e' listing J ND OK LH P.
  pose proof (run_dir ser address tr ND OK) as DR.
  unfold wal_append, wal_write at 1 in P. unfold wal_write in P.
  rewrite (al_get_set_eq _ bytes_eqb_spec), (dir_is_get address ND _ _ _ DR LH) in P.
  set (es := match logged tr h with Some es => es | None => [] end).
  assert (EO : match (match logged tr h with Some es => Some (file_of ser es) | None => None end) with Some c => c | None => [] end
               = file_of ser es) by (unfold es; destruct (logged tr h); reflexivity).
  rewrite EO in P.
  pose proof (dir_is_perm address _ _ _ P
    (dir_is_set address ND _ _ h ((file_of ser es ++ ser e) ++ wal_line ser e')
      (dir_is_set address ND _ _ h (file_of ser es ++ ser e) DR LH) LH)) as DI.
  eapply (recover_dir_fails de address _ listing hc h _ ND DI LH).
  - rewrite N.eqb_refl. reflexivity.
  - rewrite <- app_assoc. rewrite <- (app_nil_r (wal_line ser e')).
    change [] with (file_of ser []). apply (read_glued ser de J).
Qed.
Print Assumptions C43_unterminated_line_refuted.

(* The stated classification fails for a committed height whose log is still empty. *)
Theorem C43_empty_committed_refuted : forall ser de address hc h, json_like ser de -> ~ In 45 address ->
  h < 2 ^ 64 -> committed_by hc h ->
  exists r, recover_incomplete_heights de (wal_run ser address [WOpen h]) hc = Some r /\
    incomplete r = [(h, [])] /\ finalized r = [] /\ ~ faithful (done_as_stated hc) [WOpen h] r.
Proof.
  intros ser de address hc h J ND L C.
  assert (OK : heights_ok [WOpen h]) by (repeat constructor; exact L).
  destruct (C43_recovery_returns_what_was_logged_partial ser de address [WOpen h] hc _ J ND OK (Permutation_refl _)) as (r & E & F).
  assert (LG : forall x, logged [WOpen h] x = if h =? x then Some [] else None) by (intros x; reflexivity).
  exists r. split; [exact E|].
  assert (NDn : forall x, ~ done_if_logged hc x []).
  { intros x [(d & v & [])|(NE & _)]. congruence. }
  assert (INC : forall x es, In (x, es) (incomplete r) <-> x = h /\ es = []).
  { intros x es. rewrite (f_incomplete _ _ _ F), LG. destruct (N.eqb_spec h x) as [<-|NE].
    - split; [intros [X _]; injection X as <-; auto|]. intros [_ ->]. split; [reflexivity|apply NDn].
    - split; [intros [X _]; discriminate|]. intros [-> _]. congruence. }
  assert (FIN : finalized r = []).
  { destruct (finalized r) as [|[x es] l] eqn:EF; [reflexivity|]. exfalso.
    assert (I : In (x, es) (finalized r)) by (rewrite EF; left; reflexivity).
    apply (f_finalized _ _ _ F) in I. destruct I as [I D]. rewrite LG in I. destruct (h =? x); [|discriminate].
    injection I as <-. apply (NDn x D). }
  split; [|split; [exact FIN|]].
  - pose proof (f_sorted_incomplete _ _ _ F) as SS.
    destruct (incomplete r) as [|[x es] [|[y es'] l]] eqn:EI.
    + exfalso. apply (INC h []). auto.
    + destruct (proj1 (INC x es) (or_introl eq_refl)) as [-> ->]. reflexivity.
    + exfalso. destruct (proj1 (INC x es) (or_introl eq_refl)) as [-> _].
      destruct (proj1 (INC y es') (or_intror (or_introl eq_refl))) as [-> _].
      cbn [map fst] in SS. inversion SS as [|? ? _ FA]; subst. apply Forall_cons_iff in FA. destruct FA as [X _]. lia.
  - intros F'. assert (I : In (h, []) (finalized r)).
    { apply (f_finalized _ _ _ F'). rewrite LG, N.eqb_refl. split; [reflexivity|]. right. exact C. }
    rewrite FIN in I. exact I.
Qed.
Print Assumptions C43_empty_committed_refuted.

(* An address whose text has a dash is misread: the log of height 7 of validator "node-1"
   is recovered as that of height 1. *)
Theorem C43_dashed_address_refuted :
  exists tr r, heights_ok tr /\ logged tr 7 = Some [Other 1] /\
    recover_incomplete_heights ToyJson.de (wal_run ToyJson.ser (text "node-1") tr) None = Some r /\
    incomplete r = [(1, [Other 1])].
Proof.
  exists [WOpen 7; WAppend 7 (Other 1)], (mkRecovered [(1, [Other 1])] [] None).
  split; [repeat constructor; vm_compute; reflexivity|]. split; [reflexivity|].
  split; vm_compute; reflexivity.
Qed.
Print Assumptions C43_dashed_address_refuted.

Module WalExamples.
  Definition addr := text "0xabc".
  (* height 10 sorts after 9; 8 is pruned; 9 has a decision; 10 is committed; 11 goes on *)
  Definition tr : list wal_op :=
    [WOpen 8; WAppend 8 (Decision 8 1); WOpen 9; WAppend 9 (Other 4); WOpen 10; WAppend 10 (Other 5);
     WAppend 9 (Decision 9 2); WDelete 8; WOpen 11; WAppend 11 (Other 6); WOpen 11; WAppend 11 (Other 7)].
  Example recovered_now :
    recover_incomplete_heights ToyJson.de (wal_run ToyJson.ser addr tr) (Some 10) =
    Some (mkRecovered [(11, [Other 6; Other 7])] [(9, [Other 4; Decision 9 2]); (10, [Other 5])] (Some 9)).
  Proof. vm_compute. reflexivity. Qed.
  Example hypotheses : ~ In 45 addr /\ heights_ok tr.
  Proof. split; [vm_compute; intuition discriminate|]. repeat constructor; vm_compute; reflexivity. Qed.
End WalExamples.
