From Coq Require Import List NArith Bool Lia ZifyBool ZifyN ZifyNat Permutation Sorted.
From Verif Require Import AList ListLib Radix WalModel WalSpec.
Import ListNotations.
Local Open Scope N_scope.

Lemma bytes_eqb_spec a b : reflect (a = b) (bytes_eqb a b).
Proof.
  revert b. induction a as [|x a IH]; intros [|y b]; cbn [bytes_eqb]; try (constructor; congruence).
  destruct (N.eqb_spec x y) as [->|NE]; simpl; [|constructor; congruence].
  destruct (IH b) as [->|NE]; constructor; congruence.
Qed.

(* ---- file names ---- *)

Lemma strip_prefix_app p s : strip_prefix p (p ++ s) = Some s.
Proof. induction p as [|x p IH]; simpl; auto. rewrite N.eqb_refl. exact IH. Qed.

Lemma strip_suffix_app p s : strip_suffix p (s ++ p) = Some s.
Proof. unfold strip_suffix. rewrite rev_app_distr, strip_prefix_app, rev_involutive. reflexivity. Qed.

Lemma split_cons c a b : ~ In c a -> split c (a ++ c :: b) = a :: split c b.
Proof.
  induction a as [|x a IH]; intros NI; cbn [app split].
  - rewrite N.eqb_refl. reflexivity.
  - destruct (N.eqb_spec x c) as [->|NE]; [exfalso; apply NI; left; reflexivity|].
    rewrite IH by (intros I; apply NI; right; exact I). reflexivity.
Qed.

Lemma split_none c a : ~ In c a -> split c a = [a].
Proof.
  induction a as [|x a IH]; intros NI; cbn [split]; [reflexivity|].
  destruct (N.eqb_spec x c) as [->|NE]; [exfalso; apply NI; left; reflexivity|].
  rewrite IH by (intros I; apply NI; right; exact I). reflexivity.
Qed.

Lemma parse_digits_val ds : digits_lt 10 ds -> forall acc,
  acc * 10 ^ N.of_nat (length ds) + rval 10 ds < 2 ^ 64 ->
  parse_digits acc (map (fun d => 48 + d) ds) = Some (acc * 10 ^ N.of_nat (length ds) + rval 10 ds).
Proof.
  induction ds as [|d ds IH]; intros F acc L.
  - cbn [map parse_digits]. rewrite rval_nil. change (N.of_nat (length (@nil N))) with 0.
    rewrite N.pow_0_r. f_equal. lia.
  - apply Forall_cons_iff in F. destruct F as [D F]. cbn [map parse_digits].
    unfold digit_value. destruct (N.leb_spec 48 (48 + d)); [|lia]. destruct (N.leb_spec (48 + d) 57); [|lia].
    cbn [andb]. replace (48 + d - 48) with d by lia. rewrite rval_cons in L |- *.
    assert (PE : 10 ^ N.of_nat (length (d :: ds)) = 10 * 10 ^ N.of_nat (length ds)).
    { cbn [length]. rewrite Nnat.Nat2N.inj_succ, N.pow_succ_r'. reflexivity. }
    rewrite PE in L |- *. set (P := 10 ^ N.of_nat (length ds)) in *.
    assert (PP : 1 <= P) by (unfold P; pose proof (N.pow_nonzero 10 (N.of_nat (length ds))); lia).
    assert (EE : (acc * 10 + d) * P + rval 10 ds = acc * (10 * P) + (d * P + rval 10 ds)) by lia.
    destruct (N.ltb_spec (acc * 10 + d) (2 ^ 64)) as [_|G].
    + rewrite IH; [|exact F|rewrite EE; exact L]. rewrite EE. reflexivity.
    + exfalso. assert ((acc * 10 + d) * 1 <= (acc * 10 + d) * P) by (apply N.mul_le_mono_l; exact PP).
      rewrite <- EE in L. lia.
Qed.

Lemma dec_chars h c : In c (dec h) -> 48 <= c <= 57.
Proof.
  unfold dec. intros I. apply in_map_iff in I. destruct I as (d & <- & I).
  destruct (min_digits_spec 10 h) as (_ & F & _); [lia|]. unfold digits_lt in F. rewrite Forall_forall in F.
  specialize (F _ I). lia.
Qed.

Lemma parse_u64_dec h : h < 2 ^ 64 -> parse_u64 (dec h) = Some h.
Proof.
  intros L. destruct (min_digits_spec 10 h) as (V & F & NE & _); [lia|]. unfold parse_u64.
  pose proof (dec_chars h) as C. destruct (dec h) as [|c r] eqn:E.
  - unfold dec in E. apply map_eq_nil in E. contradiction.
  - assert (c <> 43) by (specialize (C c (or_introl eq_refl)); lia).
    destruct (N.eqb_spec c 43) as [|_]; [contradiction|]. rewrite <- E. unfold dec.
    rewrite parse_digits_val; [|exact F|rewrite V; lia]. rewrite V. f_equal; lia.
Qed.

Section Names.
  Variable address : bytes.
  Hypothesis nodash : ~ In 45 address.

  Lemma extract_filename h : h < 2 ^ 64 -> extract_height (filename address h) = h.
  Proof.
    intros L. unfold extract_height, filename. rewrite strip_prefix_app.
    replace (address ++ [45] ++ dec h ++ wal_suffix) with ((address ++ 45 :: dec h) ++ wal_suffix)
      by (rewrite <- app_assoc; reflexivity).
    rewrite strip_suffix_app, (split_cons 45 address (dec h) nodash).
    rewrite split_none by (intros I; apply dec_chars in I; lia). cbn [nth].
    rewrite parse_u64_dec by exact L. reflexivity.
  Qed.

  Lemma filename_inj h h' : h < 2 ^ 64 -> h' < 2 ^ 64 -> filename address h = filename address h' -> h = h'.
  Proof. intros L L' E. rewrite <- (extract_filename h L), <- (extract_filename h' L'), E. reflexivity. Qed.

  Lemma filename_is_wal h : is_wal_file (filename address h) = true.
  Proof.
    unfold is_wal_file, filename. rewrite strip_prefix_app.
    replace (wal_prefix ++ address ++ [45] ++ dec h ++ wal_suffix)
      with ((wal_prefix ++ address ++ [45] ++ dec h) ++ wal_suffix) by (rewrite <- !app_assoc; reflexivity).
    rewrite strip_suffix_app. reflexivity.
  Qed.
End Names.

(* ---- sorting ---- *)

Lemma insert_perm {X} (x : N * X) l : Permutation (insert_by_height x l) (x :: l).
Proof.
  induction l as [|y l IH]; cbn [insert_by_height]; auto. destruct (fst x <=? fst y); auto.
  eapply perm_trans; [apply perm_skip, IH|apply perm_swap].
Qed.

Lemma sort_perm {X} (l : list (N * X)) : Permutation (sort_by_height l) l.
Proof.
  induction l as [|x l IH]; cbn [sort_by_height fold_right]; auto.
  eapply perm_trans; [apply insert_perm|]. apply perm_skip, IH.
Qed.

Lemma insert_sorted {X} (x : N * X) l : ~ In (fst x) (map fst l) ->
  StronglySorted N.lt (map fst l) -> StronglySorted N.lt (map fst (insert_by_height x l)).
Proof.
  induction l as [|y l IH]; intros NI SS; cbn [insert_by_height map]; [repeat constructor|].
  cbn [map] in *. inversion SS as [|? ? SS' F]; subst. destruct (N.leb_spec (fst x) (fst y)) as [L|L].
  - cbn [map]. constructor; [exact SS|]. assert (fst x <> fst y) by (intros E; apply NI; left; auto).
    apply Forall_cons; [lia|]. eapply Forall_impl; [|exact F]. intros z Z. cbv beta in Z. lia.
  - cbn [map]. constructor; [apply IH; auto; intros I; apply NI; right; exact I|].
    apply Forall_forall. intros z Z.
    assert (PZ : In z (map fst (x :: l))).
    { eapply Permutation_in; [apply Permutation_map, insert_perm|exact Z]. }
    cbn [map] in PZ. destruct PZ as [<-|PZ]; [exact L|]. rewrite Forall_forall in F. apply F, PZ.
Qed.

Lemma sort_sorted {X} (l : list (N * X)) : NoDup (map fst l) -> StronglySorted N.lt (map fst (sort_by_height l)).
Proof.
  induction l as [|x l IH]; intros ND; [constructor|]. cbn [map] in ND. apply NoDup_cons_iff in ND.
  destruct ND as [NI ND]. cbn [sort_by_height fold_right]. apply insert_sorted; [|apply IH, ND].
  intros I. apply NI. eapply Permutation_in; [apply Permutation_map, sort_perm|exact I].
Qed.

(* ---- the directory ---- *)

Section Dir.
  Variable address : bytes.
  Hypothesis nodash : ~ In 45 address.

  (* d holds exactly the files given by rep. *)
  Definition dir_is (rep : N -> option bytes) (d : dir) : Prop :=
    NoDup (map fst d) /\
    forall name c, In (name, c) d <-> exists h, h < 2 ^ 64 /\ name = filename address h /\ rep h = Some c.

  Lemma dir_is_get rep d h : dir_is rep d -> h < 2 ^ 64 -> al_get bytes_eqb (filename address h) d = rep h.
  Proof.
    intros [ND I] L. destruct (rep h) as [c|] eqn:E.
    - apply (al_in_get _ bytes_eqb_spec); auto. apply I. eauto.
    - apply (al_not_in_get_none _ bytes_eqb_spec). intros J. apply in_map_iff in J.
      destruct J as ([n c] & EF & J). apply I in J. destruct J as (h' & L' & EN & R). cbn [fst] in EF.
      assert (EN' : filename address h = filename address h') by congruence.
      apply (filename_inj address nodash) in EN'; auto. congruence.
  Qed.

  Lemma dir_is_perm rep d d' : Permutation d' d -> dir_is rep d -> dir_is rep d'.
  Proof.
    intros P [ND I]. split.
    - eapply Permutation_NoDup; [apply Permutation_map, Permutation_sym, P|exact ND].
    - intros n c. rewrite <- I. split; apply Permutation_in; [|apply Permutation_sym]; exact P.
  Qed.

  Lemma dir_is_set rep d h c : dir_is rep d -> h < 2 ^ 64 ->
    dir_is (fun x => if h =? x then Some c else rep x) (al_set bytes_eqb (filename address h) c d).
  Proof.
    intros [ND I] L. pose proof (al_nodup_set _ bytes_eqb_spec (filename address h) c d ND) as ND'.
    split; [exact ND'|]. intros n c'.
    assert (G : In (n, c') (al_set bytes_eqb (filename address h) c d) <->
                al_get bytes_eqb n (al_set bytes_eqb (filename address h) c d) = Some c').
    { split; [apply (al_in_get _ bytes_eqb_spec), ND'|apply (al_get_in _ bytes_eqb_spec)]. }
    rewrite G. destruct (bytes_eqb_spec n (filename address h)) as [->|NE].
    - rewrite (al_get_set_eq _ bytes_eqb_spec). split.
      + intros E. injection E as <-. exists h. rewrite N.eqb_refl. auto.
      + intros (h' & L' & EN & R). apply (filename_inj address nodash) in EN; auto. subst h'.
        rewrite N.eqb_refl in R. exact R.
    - rewrite (al_get_set_neq _ bytes_eqb_spec) by exact NE. split.
      + intros E. apply (al_get_in _ bytes_eqb_spec) in E. apply I in E. destruct E as (h' & L' & -> & R).
        exists h'. destruct (N.eqb_spec h h') as [->|]; [congruence|]. auto.
      + intros (h' & L' & -> & R). destruct (N.eqb_spec h h') as [->|]; [congruence|].
        apply (al_in_get _ bytes_eqb_spec); auto. apply I. eauto.
  Qed.

  Lemma dir_is_remove rep d h : dir_is rep d -> h < 2 ^ 64 ->
    dir_is (fun x => if h =? x then None else rep x) (al_remove bytes_eqb (filename address h) d).
  Proof.
    intros [ND I] L. pose proof (al_nodup_remove bytes_eqb (filename address h) d ND) as ND'.
    split; [exact ND'|]. intros n c'.
    assert (G : In (n, c') (al_remove bytes_eqb (filename address h) d) <->
                al_get bytes_eqb n (al_remove bytes_eqb (filename address h) d) = Some c').
    { split; [apply (al_in_get _ bytes_eqb_spec), ND'|apply (al_get_in _ bytes_eqb_spec)]. }
    rewrite G. destruct (bytes_eqb_spec n (filename address h)) as [->|NE].
    - rewrite (al_get_remove_eq _ bytes_eqb_spec). split; [discriminate|].
      intros (h' & L' & EN & R). apply (filename_inj address nodash) in EN; auto. subst h'.
      rewrite N.eqb_refl in R. exact R.
    - rewrite (al_get_remove_neq _ bytes_eqb_spec) by exact NE. split.
      + intros E. apply (al_get_in _ bytes_eqb_spec) in E. apply I in E. destruct E as (h' & L' & -> & R).
        exists h'. destruct (N.eqb_spec h h') as [->|]; [congruence|]. auto.
      + intros (h' & L' & -> & R). destruct (N.eqb_spec h h') as [->|]; [discriminate|].
        apply (al_in_get _ bytes_eqb_spec); auto. apply I. eauto.
  Qed.

  Lemma dir_is_ext rep rep' d : (forall h, h < 2 ^ 64 -> rep h = rep' h) -> dir_is rep d -> dir_is rep' d.
  Proof.
    intros E [ND I]. split; [exact ND|]. intros n c. rewrite I. split; intros (h & L & EN & R); exists h;
      (split; [exact L|split; [exact EN|]]); [rewrite <- E by exact L|rewrite E by exact L]; exact R.
  Qed.

  Lemma collect_spec rep d : dir_is rep d ->
    StronglySorted N.lt (map fst (collect_wal_files d)) /\
    forall h c, In (h, c) (collect_wal_files d) <-> h < 2 ^ 64 /\ rep h = Some c.
  Proof.
    intros [ND I]. unfold collect_wal_files.
    assert (FA : filter (fun f => is_wal_file (fst f)) d = d).
    { apply filter_all_true. intros [n c] J. apply I in J. destruct J as (h & _ & -> & _).
      apply filename_is_wal. }
    rewrite FA.
    assert (INM : forall h c, In (h, c) (map (fun f : bytes * bytes => (extract_height (fst f), snd f)) d) <-> h < 2 ^ 64 /\ rep h = Some c).
    { intros h c. rewrite in_map_iff. split.
      - intros ([n c'] & E & J). cbn [fst snd] in E. injection E as <- <-. apply I in J.
        destruct J as (h' & L & -> & R). rewrite (extract_filename address nodash) by exact L. auto.
      - intros [L R]. exists (filename address h, c). cbn [fst snd].
        rewrite (extract_filename address nodash) by exact L. split; [reflexivity|]. apply I. eauto. }
    split.
    - apply sort_sorted. rewrite map_map. cbn [fst].
      assert (G : forall l : dir, (forall n c, In (n, c) l -> exists h, h < 2 ^ 64 /\ n = filename address h) ->
        NoDup (map fst l) -> NoDup (map (fun x => extract_height (fst x)) l)).
      { clear - nodash. induction l as [|[n c] l IH]; intros H ND; [constructor|]. cbn [map fst] in *.
        apply NoDup_cons_iff in ND. destruct ND as [NI ND]. constructor; [|apply IH; auto; intros; apply (H _ c0); right; assumption].
        intros J. apply in_map_iff in J. destruct J as ([n' c'] & E & J). cbn [fst] in E. apply NI.
        destruct (H n c (or_introl eq_refl)) as (h & L & ->). destruct (H n' c' (or_intror J)) as (h' & L' & ->).
        rewrite !(extract_filename address nodash) in E by assumption. subst h'.
        apply (in_map fst) in J. exact J. }
      apply G; [|exact ND]. intros n c J. apply I in J. destruct J as (h & L & EN & _). eauto.
    - intros h c. rewrite <- INM. split; apply Permutation_in; [|apply Permutation_sym]; apply sort_perm.
  Qed.
End Dir.

(* ---- reading files ---- *)

Section Codec.
  Variable ser : wal_entry -> bytes.
  Variable de : bytes -> option wal_entry.
  Hypothesis J : json_like ser de.

  Definition file_of (es : list wal_entry) : bytes := concat (map (wal_line ser) es).

  Lemma file_of_snoc es e : file_of (es ++ [e]) = file_of es ++ wal_line ser e.
  Proof. unfold file_of. rewrite map_app, concat_app. simpl. rewrite app_nil_r. reflexivity. Qed.

  Lemma split_file es tail : ~ In 10 tail -> split 10 (file_of es ++ tail) = map ser es ++ [tail].
  Proof.
    intros NT. induction es as [|e es IH]; cbn [file_of map concat app].
    - apply split_none, NT.
    - unfold wal_line at 1. rewrite <- !app_assoc. cbn [app].
      rewrite split_cons by apply (json_one_line _ _ J). f_equal. exact IH.
  Qed.

  Lemma chomp_ser e : chomp (ser e) = ser e.
  Proof.
    unfold chomp. destruct (rev (ser e)) as [|c r] eqn:E; [reflexivity|].
    destruct (N.eq_dec c 13) as [->|NE].
    - exfalso. apply (proj2 (json_one_line _ _ J e)). apply in_rev. rewrite E. left. reflexivity.
    - destruct c as [|p]; [reflexivity|]. do 4 (destruct p as [p|p|]; try reflexivity). congruence.
  Qed.

  Lemma lines_file es tail : ~ In 10 tail ->
    lines (file_of es ++ tail) = map ser es ++ match tail with [] => [] | _ => [tail] end.
  Proof.
    intros NT. unfold lines. rewrite split_file by exact NT. rewrite removelast_last, last_last.
    rewrite map_map. rewrite (map_ext _ ser) by (intros; apply chomp_ser).
    destruct tail; [rewrite app_nil_r|]; reflexivity.
  Qed.

  Lemma ser_visible e : is_blank (ser e) = false.
  Proof.
    pose proof (json_nonempty _ _ J e) as NE.
    rewrite <- (firstn_all (ser e)). apply (json_visible _ _ J). destruct (ser e); [congruence|simpl; lia].
  Qed.

  Lemma parse_lines_app es ls : parse_lines de (map ser es ++ ls) =
    match parse_lines de ls with Some es' => Some (es ++ es') | None => None end.
  Proof.
    induction es as [|e es IH]; cbn [map app parse_lines].
    - destruct (parse_lines de ls); reflexivity.
    - rewrite ser_visible, (json_reads_back _ _ J), IH. destruct (parse_lines de ls); reflexivity.
  Qed.

  Lemma read_file es : read_entries de (file_of es) = Some es.
  Proof.
    unfold read_entries. rewrite <- (app_nil_r (file_of es)), lines_file by (intros []).
    rewrite parse_lines_app. cbn [parse_lines]. rewrite app_nil_r. reflexivity.
  Qed.

  Lemma read_unterminated es e : read_entries de (file_of es ++ ser e) = Some (es ++ [e]).
  Proof.
    unfold read_entries. rewrite lines_file by apply (json_one_line _ _ J). rewrite parse_lines_app.
    pose proof (json_nonempty _ _ J e). destruct (ser e) as [|x l] eqn:E; [congruence|]. rewrite <- E.
    cbn [parse_lines]. rewrite ser_visible, (json_reads_back _ _ J). reflexivity.
  Qed.

  Lemma read_torn es e k : (0 < k < length (ser e))%nat -> read_entries de (file_of es ++ firstn k (ser e)) = None.
  Proof.
    intros L. unfold read_entries. rewrite lines_file.
    - rewrite parse_lines_app. destruct (firstn k (ser e)) as [|x l] eqn:E.
      + exfalso. apply (f_equal (@length N)) in E. rewrite firstn_length in E. simpl in E. lia.
      + rewrite <- E. cbn [parse_lines]. rewrite (json_visible _ _ J) by lia.
        rewrite (json_no_part _ _ J) by lia. reflexivity.
    - intros I. apply (proj1 (json_one_line _ _ J e)). rewrite <- (firstn_skipn k (ser e)). apply in_or_app. left. exact I.
  Qed.

  (* A line glued to an unterminated one *)
  Lemma read_glued es e es' e' : read_entries de (file_of es ++ ser e ++ wal_line ser e' ++ file_of es') = None.
  Proof.
    unfold read_entries, lines.
    assert (SP : split 10 (file_of es ++ ser e ++ wal_line ser e' ++ file_of es') =
                 (map ser es ++ (ser e ++ ser e') :: map ser es') ++ [[]]).
    { induction es as [|a es IH]; cbn [file_of map concat app].
      - unfold wal_line at 1. replace (ser e ++ (ser e' ++ [10]) ++ file_of es')
          with ((ser e ++ ser e') ++ 10 :: file_of es') by (rewrite <- !app_assoc; reflexivity).
        rewrite split_cons; [|intros I; apply in_app_or in I; destruct I as [I|I]; revert I; apply (json_one_line _ _ J)].
        f_equal. rewrite <- (app_nil_r (file_of es')), split_file by (intros []). reflexivity.
      - unfold wal_line at 1. rewrite <- !app_assoc. cbn [app].
        rewrite split_cons by apply (json_one_line _ _ J). f_equal. rewrite <- app_assoc in IH. exact IH. }
    rewrite SP, removelast_last, last_last. rewrite map_app. cbn [map].
    rewrite map_map, (map_ext _ ser) by (intros; apply chomp_ser).
    assert (CH : chomp (ser e ++ ser e') = ser e ++ ser e').
    { unfold chomp. pose proof (chomp_ser e') as CE. unfold chomp in CE. rewrite rev_app_distr.
      pose proof (json_nonempty _ _ J e') as NE. destruct (rev (ser e')) as [|c r] eqn:E.
      - exfalso. apply NE. rewrite <- (rev_involutive (ser e')), E. reflexivity.
      - cbn [app]. destruct (N.eq_dec c 13) as [->|NEC].
        + exfalso. apply (proj2 (json_one_line _ _ J e')). apply in_rev. rewrite E. left. reflexivity.
        + destruct c as [|p]; [reflexivity|]. do 4 (destruct p as [p|p|]; try reflexivity). congruence. }
    rewrite CH, parse_lines_app. cbn [parse_lines].
    assert (BL : is_blank (ser e ++ ser e') = false).
    { unfold is_blank. rewrite forallb_app. pose proof (ser_visible e) as B. unfold is_blank in B.
      rewrite B. reflexivity. }
    rewrite BL, (json_no_more _ _ J). reflexivity.
  Qed.

  (* ---- the recovery loop ---- *)

  Lemma recover_loop_spec hc files hes : forall acc,
    Forall2 (fun f he => fst f = fst he /\ read_entries de (snd f) = Some (snd he)) files hes ->
    recover_loop de hc files acc =
    Some (mkRecovered
      (incomplete acc ++ filter (fun he => negb (is_finalized hc (fst he) (snd he))) hes)
      (finalized acc ++ filter (fun he => is_finalized hc (fst he) (snd he)) hes)
      (max_decision (highest_decision acc) (concat (map snd hes)))).
  Proof.
    revert hes. induction files as [|[h c] files IH]; intros hes acc F; inversion F as [|? [h' es] ? hes' [E1 E2] F']; subst.
    - cbn [recover_loop filter map concat]. rewrite !app_nil_r. destruct acc; reflexivity.
    - cbn [fst snd] in E1, E2. subst h'. cbn [recover_loop]. rewrite E2, (IH _ _ F'). cbv zeta. f_equal.
      cbn [map concat filter fst snd].
      assert (MD : max_decision (highest_decision acc) (es ++ concat (map snd hes')) =
                   max_decision (max_decision (highest_decision acc) es) (concat (map snd hes'))).
      { unfold max_decision. apply fold_left_app. }
      destruct (is_finalized hc h es); cbn [negb incomplete finalized highest_decision];
        rewrite <- ?app_assoc; cbn [app]; rewrite MD; reflexivity.
  Qed.

  Lemma recover_loop_fails hc files : forall acc,
    Exists (fun f => read_entries de (snd f) = None) files -> recover_loop de hc files acc = None.
  Proof.
    induction files as [|[h c] files IH]; intros acc E; [inversion E|]. cbn [recover_loop].
    destruct (read_entries de c) as [es|] eqn:EC; [|reflexivity]. apply IH.
    inversion E as [? ? E'|? ? E']; subst; [cbn [snd] in E'; congruence|exact E'].
  Qed.

  Lemma max_decision_spec es : forall m,
    match max_decision m es with
    | None => m = None /\ forall d v, ~ In (Decision d v) es
    | Some d => (m = Some d \/ exists v, In (Decision d v) es) /\
                (forall d', m = Some d' -> d' <= d) /\ forall d' v, In (Decision d' v) es -> d' <= d
    end.
  Proof.
    induction es as [|e es IH]; intros m.
    - cbn. destruct m as [d|]; [|split; [reflexivity|intros ? ? []]].
      split; [left; reflexivity|]. split; [intros d' E; injection E as <-; lia|intros ? ? []].
    - unfold max_decision in *. cbn [fold_left].
      destruct e as [h v|b].
      + set (m' := match m with Some c => Some (N.max c h) | None => Some h end). specialize (IH m').
        destruct (fold_left _ es m') as [d|] eqn:E.
        * destruct IH as (A & B & C). split; [|split].
          -- destruct A as [A|(w & A)]; [|right; exists w; right; exact A].
             unfold m' in A. destruct m as [c|]; injection A as A.
             ++ destruct (N.max_spec c h) as [[_ X]|[_ X]]; rewrite X in A; subst d; [right; exists v; left|left]; reflexivity.
             ++ subst d. right. exists v. left. reflexivity.
          -- intros d' ->. unfold m' in B. specialize (B _ eq_refl). lia.
          -- intros d' w [X|I]; [|eapply C, I]. injection X as -> ->. unfold m' in B.
             destruct m as [c|]; specialize (B _ eq_refl); lia.
        * destruct IH as [X _]. unfold m' in X. destruct m; discriminate.
      + specialize (IH m). destruct (fold_left _ es m) as [d|] eqn:E.
        * destruct IH as (A & B & C). split; [|split; [exact B|]].
          -- destruct A as [A|(w & A)]; [left; exact A|right; exists w; right; exact A].
          -- intros d' w [X|I]; [discriminate|eapply C, I].
        * destruct IH as [X Y]. split; [exact X|]. intros d w [Z|I]; [discriminate|exact (Y _ _ I)].
  Qed.

  Lemma is_finalized_spec hc h es : is_finalized hc h es = true <-> done_if_logged hc h es.
  Proof.
    unfold is_finalized, done_if_logged, has_decision, committed_by. rewrite existsb_exists. split.
    - intros (e & I & E). apply orb_true_iff in E. destruct E as [E|E].
      + destruct e as [d v|]; [|discriminate]. left. eauto.
      + right. split; [intros ->; destruct I|]. destruct hc as [c|]; [|discriminate]. exists c. split; [reflexivity|lia].
    - intros [(d & v & I)|(NE & c & -> & L)].
      + exists (Decision d v). split; [exact I|reflexivity].
      + destruct es as [|e es]; [congruence|]. exists e. split; [left; reflexivity|].
        apply orb_true_iff. right. lia.
  Qed.

  (* Recovery from a directory whose files hold the entries given by lg. *)
  Lemma recover_dir address rep d hc (lg : N -> option (list wal_entry)) :
    ~ In 45 address -> dir_is address rep d ->
    (forall h, h < 2 ^ 64 -> match rep h, lg h with
                             | Some c, Some es => read_entries de c = Some es
                             | None, None => True
                             | _, _ => False end) ->
    exists hes,
      StronglySorted N.lt (map fst hes) /\
      (forall h es, In (h, es) hes <-> h < 2 ^ 64 /\ lg h = Some es) /\
      recover_incomplete_heights de d hc = Some (mkRecovered
        (filter (fun he => negb (is_finalized hc (fst he) (snd he))) hes)
        (filter (fun he => is_finalized hc (fst he) (snd he)) hes)
        (max_decision None (concat (map snd hes)))).
  Proof.
    intros nodash DI R. destruct (collect_spec address nodash rep d DI) as [SS IN].
    unfold recover_incomplete_heights. set (files := collect_wal_files d) in *.
    set (hes := map (fun f : N * bytes => (fst f, match lg (fst f) with Some es => es | None => [] end)) files).
    exists hes. split; [unfold hes; rewrite map_map; exact SS|]. split.
    - intros h es. unfold hes. rewrite in_map_iff. split.
      + intros ([h' c] & E & I). apply IN in I. destruct I as [L RH]. cbn [fst] in E. injection E as <- <-.
        split; [exact L|]. specialize (R _ L). rewrite RH in R. destruct (lg h'); [reflexivity|contradiction].
      + intros [L E]. specialize (R _ L). rewrite E in R. destruct (rep h) as [c|] eqn:RH; [|contradiction].
        exists (h, c). cbn [fst]. rewrite E. split; [reflexivity|]. apply IN. auto.
    - rewrite (recover_loop_spec hc files hes); [reflexivity|]. unfold hes.
      assert (G : forall l : list (N * bytes), (forall h c, In (h, c) l -> h < 2 ^ 64 /\ rep h = Some c) ->
        Forall2 (fun f he => fst f = fst he /\ read_entries de (snd f) = Some (snd he)) l
          (map (fun f : N * bytes => (fst f, match lg (fst f) with Some es => es | None => [] end)) l)).
      { induction l as [|[h c] l IH]; intros HL; constructor; [|apply IH; intros; apply HL; right; assumption].
        cbn [fst snd]. split; [reflexivity|]. destruct (HL h c (or_introl eq_refl)) as [L RH].
        specialize (R _ L). rewrite RH in R. destruct (lg h); [exact R|contradiction]. }
      apply G. intros h c I. apply IN, I.
  Qed.

  Lemma recover_dir_fails address rep d hc h c :
    ~ In 45 address -> dir_is address rep d -> h < 2 ^ 64 -> rep h = Some c -> read_entries de c = None ->
    recover_incomplete_heights de d hc = None.
  Proof.
    intros nodash DI L RH RE. destruct (collect_spec address nodash rep d DI) as [_ IN].
    apply recover_loop_fails. apply Exists_exists. exists (h, c). split; [apply IN; auto|exact RE].
  Qed.

  Lemma sorted_filter {X} (f : N * X -> bool) l : StronglySorted N.lt (map fst l) -> StronglySorted N.lt (map fst (filter f l)).
  Proof.
    induction l as [|x l IH]; intros SS; [constructor|]. cbn [map] in SS. inversion SS as [|? ? SS' F]; subst.
    cbn [filter]. destruct (f x); cbn [map]; [|apply IH, SS']. constructor; [apply IH, SS'|].
    apply Forall_forall. intros y I. rewrite Forall_forall in F. apply F. apply in_map_iff in I.
    destruct I as (z & <- & I). apply filter_In in I. apply in_map. tauto.
  Qed.

  Lemma logged_bound tr h es : heights_ok tr -> logged tr h = Some es -> h < 2 ^ 64.
  Proof.
    unfold logged, heights_ok. induction tr as [|o tr IH] using rev_ind; intros OK E; [discriminate|].
    apply Forall_app in OK. destruct OK as [OK OO]. apply Forall_cons_iff in OO. destruct OO as [OO _].
    rewrite fold_left_app in E. cbn [fold_left] in E. unfold log_step in E at 1.
    destruct o as [h'|h' e|h']; cbn [op_height] in OO; destruct (N.eqb_spec h' h) as [EQ|NE]; try (rewrite <- EQ; exact OO);
      try (apply IH; assumption).
  Qed.

  Lemma logged_snoc tr o h : logged (tr ++ [o]) h = log_step h (logged tr h) o.
  Proof. unfold logged. rewrite fold_left_app. reflexivity. Qed.

  (* The directory after a history holds the logged entries. *)
  Lemma run_dir address tr : ~ In 45 address -> heights_ok tr ->
    dir_is address (fun h => match logged tr h with Some es => Some (file_of es) | None => None end) (wal_run ser address tr).
  Proof.
    intros nodash. induction tr as [|o tr IH] using rev_ind; intros OK.
    - split; [constructor|]. intros n c. split; [intros []|]. intros (h & _ & _ & E). discriminate.
    - apply Forall_app in OK. destruct OK as [OK OO]. apply Forall_cons_iff in OO. destruct OO as [OO _].
      specialize (IH OK). unfold wal_run in *. rewrite fold_left_app. cbn [fold_left].
      set (d := fold_left (wal_step ser address) tr []) in *.
      destruct o as [h|h e|h]; cbn [op_height wal_step] in *.
      + unfold wal_open. rewrite (dir_is_get address nodash _ _ _ IH OO).
        destruct (logged tr h) as [es|] eqn:E.
        * eapply dir_is_ext; [|exact IH]. intros x L. cbv beta. rewrite logged_snoc. cbn [log_step].
          destruct (N.eqb_spec h x) as [<-|]; [rewrite E|]; reflexivity.
        * eapply dir_is_ext; [|apply (dir_is_set address nodash _ _ h [] IH OO)]. intros x L. cbv beta.
          rewrite logged_snoc. cbn [log_step]. destruct (N.eqb_spec h x) as [<-|]; [rewrite E|]; reflexivity.
      + unfold wal_append, wal_write. rewrite (dir_is_get address nodash _ _ _ IH OO).
        eapply dir_is_ext; [|apply (dir_is_set address nodash _ _ h _ IH OO)]. intros x L. cbv beta.
        rewrite logged_snoc. cbn [log_step]. destruct (N.eqb_spec h x) as [<-|]; [|reflexivity].
        rewrite file_of_snoc. destruct (logged tr h); reflexivity.
      + unfold wal_delete. eapply dir_is_ext; [|apply (dir_is_remove address nodash _ _ h IH OO)]. intros x L.
        cbv beta. rewrite logged_snoc. cbn [log_step]. destruct (N.eqb_spec h x); reflexivity.
  Qed.

  (* From the list of recovered files to the statement. *)
  Lemma faithful_of tr hc hes : heights_ok tr ->
    StronglySorted N.lt (map fst hes) ->
    (forall h es, In (h, es) hes <-> h < 2 ^ 64 /\ logged tr h = Some es) ->
    faithful (done_if_logged hc) tr (mkRecovered
        (filter (fun he => negb (is_finalized hc (fst he) (snd he))) hes)
        (filter (fun he => is_finalized hc (fst he) (snd he)) hes)
        (max_decision None (concat (map snd hes)))).
  Proof.
    intros OK SS IN.
    assert (IN' : forall h es, In (h, es) hes <-> logged tr h = Some es).
    { intros h es. rewrite IN. split; [tauto|]. intros E. split; [eapply logged_bound; eauto|exact E]. }
    assert (IC : forall d v, In (Decision d v) (concat (map snd hes)) <-> exists h es, logged tr h = Some es /\ In (Decision d v) es).
    { intros d v. rewrite in_concat. split.
      - intros (es & I1 & I2). apply in_map_iff in I1. destruct I1 as ([h es'] & <- & I1). apply IN' in I1. eauto.
      - intros (h & es & E & I). exists es. split; [|exact I]. apply IN' in E. apply (in_map snd) in E. exact E. }
    pose proof (max_decision_spec (concat (map snd hes)) None) as MD.
    constructor; cbn [incomplete finalized highest_decision].
    - intros h es. rewrite filter_In, IN'. cbn [fst snd]. rewrite negb_true_iff, <- not_true_iff_false, is_finalized_spec. reflexivity.
    - intros h es. rewrite filter_In, IN'. cbn [fst snd]. rewrite is_finalized_spec. reflexivity.
    - apply sorted_filter, SS.
    - apply sorted_filter, SS.
    - intros E h es d v EL I. rewrite E in MD. destruct MD as [_ MD]. apply (MD d v). apply IC. eauto.
    - intros d E. rewrite E in MD. destruct MD as ([X|(v & X)] & _ & MD); [discriminate|]. split.
      + apply IC in X. destruct X as (h & es & A & B). eauto.
      + intros h es d' w EL I. apply (MD d' w). apply IC. eauto.
  Qed.
End Codec.
