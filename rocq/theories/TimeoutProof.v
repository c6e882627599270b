From Coq Require Import List NArith Bool Lia ZifyBool ZifyN ZifyNat Permutation.
From Verif Require Import TimeoutModel TimeoutSpec.
Import ListNotations.
Local Open Scope N_scope.

Lemma timeout_eqb_spec a b : reflect (a = b) (timeout_eqb a b).
Proof.
  destruct a as [ka ra], b as [kb rb]. unfold timeout_eqb. cbn [t_kind t_round].
  destruct (N.eqb_spec ra rb) as [->|NE]; [|rewrite andb_false_r; constructor; congruence].
  rewrite andb_true_r. destruct ka, kb; constructor; congruence.
Qed.

Section Proof.
  Variable values : timeout_values.
  Notation due := (due values).
  Definition inst : Type := nat * timeout * N.
  Definition as_scheduled (h : list op) (x : inst) : scheduled :=
    let '(i, t, s) := x in mkScheduled t (due h i t s).

  Lemma skipn_snoc {A} (h : list A) o i : (i < length h)%nat -> skipn (S i) (h ++ [o]) = skipn (S i) h ++ [o].
  Proof. intros L. rewrite skipn_app. replace (S i - length h)%nat with O by lia. reflexivity. Qed.

  Lemma due_snoc h o i t s : (i < length h)%nat ->
    due (h ++ [o]) i t s = match o with Reset now => now + value_of values (t_kind t) | _ => due h i t s end.
  Proof. intros L. unfold TimeoutSpec.due. rewrite skipn_snoc by exact L. rewrite fold_left_app. reflexivity. Qed.

  Lemma due_new h i t s : (length h <= S i)%nat -> due h i t s = s + value_of values (t_kind t).
  Proof. intros L. unfold TimeoutSpec.due. rewrite skipn_all2 by exact L. reflexivity. Qed.

  Lemma cancelled_snoc h o i t : (i < length h)%nat ->
    (cancelled (h ++ [o]) i t <-> cancelled h i t \/ o = Cancel t \/ o = CancelAll).
  Proof.
    intros L. unfold cancelled. rewrite skipn_snoc by exact L. rewrite !in_app_iff. simpl. intuition auto.
  Qed.

  Lemma nth_snoc_lt {A} (h : list A) o i : (i < length h)%nat -> nth_error (h ++ [o]) i = nth_error h i.
  Proof. intros L. apply nth_error_app1, L. Qed.

  Lemma nth_snoc_eq {A} (h : list A) o : nth_error (h ++ [o]) (length h) = Some o.
  Proof. rewrite nth_error_app2 by lia. rewrite PeanoNat.Nat.sub_diag. reflexivity. Qed.

  Lemma nth_snoc_inv {A} (h : list A) o i x : nth_error (h ++ [o]) i = Some x ->
    (i < length h)%nat /\ nth_error h i = Some x \/ i = length h /\ x = o.
  Proof.
    intros E. assert (L : (i < length (h ++ [o]))%nat) by (apply nth_error_Some; congruence).
    rewrite app_length in L. simpl in L. destruct (PeanoNat.Nat.eq_dec i (length h)) as [->|NE].
    - right. rewrite nth_snoc_eq in E. split; congruence.
    - left. assert (L' : (i < length h)%nat) by lia. rewrite nth_snoc_lt in E by exact L'. auto.
  Qed.

  Lemma waiting_lt h who i t s : waiting h who i t s -> (i < length h)%nat.
  Proof. intros (E & _). apply nth_error_Some. congruence. Qed.

  (* The matching restricted to the reports of h answers only earlier schedules. *)
  Definition matched_ok (h : list op) (who : nat -> nat) : Prop :=
    forall j t now, nth_error h j = Some (Report t now) -> (who j < j)%nat.

  Lemma reported_snoc h o who i :
    reported (h ++ [o]) who i <-> reported h who i \/ (exists t now, o = Report t now) /\ who (length h) = i.
  Proof.
    split.
    - intros (j & t & now & E & W). apply nth_snoc_inv in E. destruct E as [(L & E)|(-> & <-)].
      + left. exists j, t, now. auto.
      + right. split; [exists t, now; reflexivity|auto].
    - intros [(j & t & now & E & W)|((t & now & ->) & W)].
      + exists j, t, now. split; [|exact W]. rewrite nth_snoc_lt; [exact E|]. apply nth_error_Some. congruence.
      + exists (length h), t, now. split; [apply nth_snoc_eq|exact W].
  Qed.

  Lemma waiting_snoc h o who i t s : matched_ok h who ->
    (waiting (h ++ [o]) who i t s <->
     waiting h who i t s /\ o <> Cancel t /\ o <> CancelAll /\ ~ ((exists t now, o = Report t now) /\ who (length h) = i)
     \/ i = length h /\ o = Schedule t s).
  Proof.
    intros OK. unfold waiting. rewrite reported_snoc. split.
    - intros (E & NC & NR). apply nth_snoc_inv in E. destruct E as [(L & E)|(-> & <-)]; [|right; auto].
      left. rewrite cancelled_snoc in NC by exact L. tauto.
    - intros [((E & NC & NR) & C1 & C2 & C3)|(-> & ->)].
      + assert (L : (i < length h)%nat) by (apply nth_error_Some; congruence).
        rewrite nth_snoc_lt, cancelled_snoc by exact L. tauto.
      + split; [apply nth_snoc_eq|]. split.
        * unfold cancelled. rewrite skipn_all2 by (rewrite app_length; simpl; lia). simpl. tauto.
        * intros [(j & t' & now & E & W)|((t' & now & E) & _)]; [|discriminate].
          specialize (OK _ _ _ E). assert (j < length h)%nat by (apply nth_error_Some; congruence). lia.
  Qed.

  Lemma waiting_agree h w1 w2 i t s : (forall j, (j < length h)%nat -> w1 j = w2 j) ->
    waiting h w1 i t s -> waiting h w2 i t s.
  Proof.
    intros A (E & NC & NR). split; [exact E|]. split; [exact NC|]. intros (j & t' & now & EJ & W).
    apply NR. exists j, t', now. split; [exact EJ|]. rewrite A; [exact W|]. apply nth_error_Some. congruence.
  Qed.

  Definition inv (h : list op) (who : nat -> nat) (l : list scheduled) : Prop :=
    exists g : list inst,
      NoDup (map (fun x => fst (fst x)) g) /\
      Permutation l (map (as_scheduled h) g) /\
      forall i t s, In (i, t, s) g <-> waiting h who i t s.

  (* What the property says about position j of the trace tr. *)
  Definition position_ok (tr : list op) (who : nat -> nat) (j : nat) : Prop :=
    (forall t now, nth_error tr j = Some (Report t now) ->
      exists s, waiting (firstn j tr) who (who j) t s /\
        due (firstn j tr) (who j) t s <= now /\
        forall i t' s', waiting (firstn j tr) who i t' s' ->
          due (firstn j tr) (who j) t s <= due (firstn j tr) i t' s') /\
    (forall now, nth_error tr j = Some (Idle now) ->
      forall i t s, waiting (firstn j tr) who i t s -> now < due (firstn j tr) i t s).

  Lemma position_matched tr who : (forall j, position_ok tr who j) -> matched_ok tr who.
  Proof.
    intros P j t now E. destruct (P j) as [R _]. destruct (R _ _ E) as (s & W & _).
    apply waiting_lt in W. rewrite firstn_length in W. lia.
  Qed.

  Lemma as_scheduled_keep h o (g : list inst) : (forall now, o <> Reset now) ->
    (forall i t s, In (i, t, s) g -> (i < length h)%nat) ->
    map (as_scheduled (h ++ [o])) g = map (as_scheduled h) g.
  Proof.
    intros NR L. apply map_ext_in. intros [[i t] s] I. unfold as_scheduled. rewrite due_snoc by eauto.
    destruct o; try reflexivity. exfalso. eapply NR. reflexivity.
  Qed.

  Lemma filter_permutation {A} (f : A -> bool) l l' : Permutation l l' -> Permutation (filter f l) (filter f l').
  Proof.
    induction 1; simpl; auto.
    - destruct (f x); auto.
    - destruct (f x), (f y); auto. apply perm_swap.
    - eapply perm_trans; eauto.
  Qed.

  Lemma filter_map_comm {A B} (f : B -> bool) (g : A -> B) l : filter f (map g l) = map g (filter (fun x => f (g x)) l).
  Proof. induction l as [|x l IH]; simpl; auto. rewrite IH. destruct (f (g x)); reflexivity. Qed.

  Lemma nodup_filter_fst {A B} (p : A -> B) (f : A -> bool) l : NoDup (map p l) -> NoDup (map p (filter f l)).
  Proof.
    induction l as [|x l IH]; simpl; intros ND; [constructor|]. apply NoDup_cons_iff in ND. destruct ND as [NI ND].
    destruct (f x); simpl; auto. constructor; auto. intros I. apply NI. apply in_map_iff in I.
    destruct I as (y & E & I). apply filter_In in I. rewrite <- E. apply in_map. tauto.
  Qed.

  Lemma greatest_le l x y : heap_greatest l x -> In y l -> s_due x <= s_due y.
  Proof.
    intros [_ G] I. specialize (G _ I). unfold scheduled_cmp in G.
    destruct (N.compare_spec (s_due y) (s_due x)); try lia; congruence.
  Qed.

  Lemma in_as_scheduled h (g : list inst) i t s l : Permutation l (map (as_scheduled h) g) ->
    In (i, t, s) g -> In (mkScheduled t (due h i t s)) l.
  Proof.
    intros P I. eapply Permutation_in; [apply Permutation_sym, P|].
    apply (in_map (as_scheduled h)) in I. exact I.
  Qed.

  Definition set_who (who : nat -> nat) (j i : nat) : nat -> nat := fun k => if Nat.eqb k j then i else who k.

  Lemma position_prefix tr o who who' j :
    (forall k, (k < length tr)%nat -> who k = who' k) -> (j < length tr)%nat ->
    position_ok tr who j -> position_ok (tr ++ [o]) who' j.
  Proof.
    intros A L [R I]. unfold position_ok. rewrite nth_snoc_lt by exact L.
    assert (F : firstn j (tr ++ [o]) = firstn j tr).
    { rewrite firstn_app. replace (j - length tr)%nat with O by lia. simpl. apply app_nil_r. }
    rewrite F. assert (LF : (length (firstn j tr) <= j)%nat) by (rewrite firstn_length; lia).
    assert (W : forall i t s, waiting (firstn j tr) who i t s <-> waiting (firstn j tr) who' i t s).
    { intros i t s. split; apply waiting_agree; intros k LK; [|symmetry]; apply A; lia. }
    rewrite <- (A j L). split.
    - intros t now E. destruct (R _ _ E) as (s & WW & D & O). exists s. split; [apply W, WW|].
      split; [exact D|]. intros i t' s' W'. apply O, W, W'.
    - intros now E i t s WW. eapply I; [exact E|apply W, WW].
  Qed.

  Lemma position_last tr o who :
    (forall t now, o = Report t now ->
      exists s, waiting tr who (who (length tr)) t s /\
        due tr (who (length tr)) t s <= now /\
        forall i t' s', waiting tr who i t' s' -> due tr (who (length tr)) t s <= due tr i t' s') ->
    (forall now, o = Idle now -> forall i t s, waiting tr who i t s -> now < due tr i t s) ->
    position_ok (tr ++ [o]) who (length tr).
  Proof.
    intros R I. unfold position_ok. rewrite nth_snoc_eq.
    assert (F : firstn (length tr) (tr ++ [o]) = tr).
    { rewrite firstn_app, PeanoNat.Nat.sub_diag, firstn_all. simpl. apply app_nil_r. }
    rewrite F. split; intros; [apply R; congruence|eapply I; eauto; congruence].
  Qed.

  Lemma position_beyond tr o who j : (length tr < j)%nat -> position_ok (tr ++ [o]) who j.
  Proof.
    intros L. assert (E : nth_error (tr ++ [o]) j = None) by (apply nth_error_None; rewrite app_length; simpl; lia).
    unfold position_ok. rewrite E. split; intros; discriminate.
  Qed.

  (* Extend the positions of a trace by its new last one. *)
  Lemma positions_snoc tr o who who' :
    (forall k, (k < length tr)%nat -> who k = who' k) ->
    (forall j, position_ok tr who j) ->
    position_ok (tr ++ [o]) who' (length tr) ->
    forall j, position_ok (tr ++ [o]) who' j.
  Proof.
    intros A P PL j. destruct (Compare_dec.lt_eq_lt_dec j (length tr)) as [[L| ->]|L]; auto.
    - eapply position_prefix; eauto.
    - apply position_beyond, L.
  Qed.

  Lemma run_inv tr l : tm_run values tr l -> exists who, (forall j, position_ok tr who j) /\ inv tr who l.
  Proof.
    induction 1 as [|tr l o l' R IH ST].
    { exists (fun _ => O). split.
      - intros j. unfold position_ok. destruct j; split; intros; discriminate.
      - exists []. split; [constructor|]. split; [constructor|]. intros i t s. split; [intros []|].
        intros (E & _). destruct i; discriminate. }
    destruct IH as (who & P & g & ND & PM & IW).
    pose proof (position_matched _ _ P) as OK.
    assert (GL : forall i t s, In (i, t, s) g -> (i < length tr)%nat) by (intros i t s I; apply IW in I; eapply waiting_lt, I).
    destruct o as [t now|t| |now|t now|now].
    - (* Schedule *)
      exists who. split.
      { apply positions_snoc with (who := who); auto. apply position_last; intros; discriminate. }
      inversion ST; subst. exists ((length tr, t, now) :: g). split; [|split].
      + cbn [map fst]. constructor; auto. intros I. apply in_map_iff in I. destruct I as ([[i t'] s'] & E & I).
        cbn [fst] in E. apply GL in I. lia.
      + eapply perm_trans; [eassumption|]. cbn [map]. rewrite as_scheduled_keep by (auto; discriminate).
        unfold as_scheduled at 1. rewrite due_new by (rewrite app_length; simpl; lia). apply perm_skip, PM.
      + intros i t' s'. rewrite waiting_snoc by exact OK. simpl. rewrite IW. split.
        * intros [E|W]; [injection E as <- <- <-; auto|]. left.
          split; [exact W|]. repeat split; try discriminate. intros [(? & ? & ?) _]; discriminate.
        * intros [(W & _)|(-> & E)]; [auto|]. injection E as <- <-. auto.
    - (* Cancel *)
      exists who. split.
      { apply positions_snoc with (who := who); auto. apply position_last; intros; discriminate. }
      inversion ST; subst. exists (filter (fun x => negb (timeout_eqb (snd (fst x)) t)) g). split; [|split].
      + apply nodup_filter_fst, ND.
      + eapply perm_trans; [eassumption|]. rewrite as_scheduled_keep.
        * eapply perm_trans; [apply filter_permutation, PM|]. rewrite filter_map_comm.
          apply Permutation_refl'. f_equal. apply filter_ext. intros [[i t'] s']. reflexivity.
        * discriminate.
        * intros i t' s' I. apply filter_In in I. eapply GL, I.
      + intros i t' s'. rewrite waiting_snoc by exact OK. rewrite filter_In, IW. cbn [fst snd].
        destruct (timeout_eqb_spec t' t) as [EQ|NE]; simpl.
        * subst. split; [intros [_ E]; discriminate|]. intros [(_ & C & _)|(_ & E)]; [congruence|discriminate].
        * split.
          -- intros [W _]. left. repeat split; try apply W; try congruence; try discriminate. intros [(? & ? & ?) _]; discriminate.
          -- intros [(W & _)|(_ & E)]; [auto|discriminate].
    - (* CancelAll *)
      exists who. split.
      { apply positions_snoc with (who := who); auto. apply position_last; intros; discriminate. }
      inversion ST; subst. exists []. split; [constructor|]. split; [constructor|].
      intros i t s. rewrite waiting_snoc by exact OK. simpl. split; [intros []|].
      intros [(_ & _ & C & _)|(_ & E)]; [congruence|discriminate].
    - (* Reset *)
      exists who. split.
      { apply positions_snoc with (who := who); auto. apply position_last; intros; discriminate. }
      inversion ST; subst. exists g. split; [exact ND|]. split.
      + eapply perm_trans; [eassumption|]. eapply perm_trans; [apply Permutation_map, PM|].
        rewrite map_map. apply Permutation_refl'. apply map_ext_in. intros [[i t] s] I.
        unfold as_scheduled. cbn [s_timeout]. rewrite due_snoc by eauto. reflexivity.
      + intros i t s. rewrite waiting_snoc by exact OK. rewrite IW. split.
        * intros W. left. split; [exact W|]. repeat split; try discriminate. intros [(? & ? & ?) _]; discriminate.
        * intros [(W & _)|(_ & E)]; [exact W|discriminate].
    - (* Report *)
      inversion ST as [| | | |l0 x now0 l0' HG ND0 PP| |]; subst.
      assert (PX : Permutation (map (as_scheduled tr) g) (x :: l')) by (eapply perm_trans; [apply Permutation_sym, PM|exact PP]).
      assert (IX : In x (map (as_scheduled tr) g)) by (eapply Permutation_in; [apply Permutation_sym, PX|left; reflexivity]).
      apply in_map_iff in IX. destruct IX as ([[i t] s] & EX & IG).
      apply in_split in IG. destruct IG as (g1 & g2 & EG).
      set (who' := set_who who (length tr) i).
      assert (AG : forall k, (k < length tr)%nat -> who k = who' k).
      { intros k L. unfold who', set_who. destruct (PeanoNat.Nat.eqb_spec k (length tr)); [lia|reflexivity]. }
      assert (WL : who' (length tr) = i) by (unfold who', set_who; rewrite PeanoNat.Nat.eqb_refl; reflexivity).
      assert (WA : forall i t s, waiting tr who i t s <-> waiting tr who' i t s).
      { intros. split; apply waiting_agree; intros k L; [|symmetry]; apply AG, L. }
      assert (WI : waiting tr who i t s) by (apply IW; rewrite EG, in_app_iff; simpl; auto).
      assert (DX : s_due x = due tr i t s) by (rewrite <- EX; reflexivity).
      assert (TX : s_timeout x = t) by (rewrite <- EX; reflexivity).
      exists who'. split.
      { apply positions_snoc with (who := who); auto. apply position_last; [|intros; discriminate].
        intros t0 now0 E. injection E as <- <-. rewrite WL, TX. exists s. split; [apply WA, WI|].
        rewrite <- DX. split; [lia|]. intros i' t' s' W'. apply WA, IW in W'.
        apply (in_as_scheduled tr g) with (l := l) in W'; [|exact PM].
        apply (greatest_le _ _ _ HG W'). }
      exists (g1 ++ g2).
      assert (OK' : matched_ok tr who').
      { intros j t' now' E. rewrite <- AG; [eapply OK, E|]. apply nth_error_Some. congruence. }
      assert (PG : Permutation g ((i, t, s) :: g1 ++ g2)) by (rewrite EG; apply Permutation_sym, Permutation_middle).
      assert (ND' : NoDup (map (fun x => fst (fst x)) ((i, t, s) :: g1 ++ g2))).
      { eapply Permutation_NoDup; [apply Permutation_map, PG|exact ND]. }
      cbn [map fst] in ND'. apply NoDup_cons_iff in ND'. destruct ND' as [NI ND'].
      split; [exact ND'|]. split.
      + rewrite as_scheduled_keep.
        * apply Permutation_cons_inv with (a := x). rewrite <- EX at 2.
          change (Permutation (x :: l') (map (as_scheduled tr) ((i, t, s) :: g1 ++ g2))).
          eapply perm_trans; [apply Permutation_sym, PX|]. apply Permutation_map, PG.
        * discriminate.
        * intros i' t' s' I. apply (GL i' t' s'). rewrite EG. apply in_app_iff in I. apply in_app_iff. simpl. tauto.
      + intros i' t' s'. rewrite waiting_snoc by exact OK'. rewrite <- WA, WL. split.
        * intros I. left.
          assert (NE : i' <> i). { intros ->. apply NI. apply (in_map (fun x => fst (fst x))) in I. exact I. }
          split; [apply IW; rewrite EG; apply in_app_iff in I; apply in_app_iff; simpl; tauto|].
          repeat split; try discriminate. intros [_ ->]. congruence.
        * intros [(W & _ & _ & NR)|(_ & E)]; [|discriminate].
          apply IW in W. rewrite EG in W. apply in_app_iff in W. apply in_app_iff. simpl in W.
          destruct W as [W|[W|W]]; auto. exfalso. apply NR. split; [eauto|]. congruence.
    - (* Idle *)
      exists who. split.
      { apply positions_snoc with (who := who); auto. apply position_last; [intros; discriminate|].
        intros n E i t s W. injection E as <-. apply IW in W.
        apply (in_as_scheduled tr g) with (l := l) in W; [|exact PM].
        inversion ST as [| | | | |n0 E1|l0 x n0 HG ND0]; subst; [destruct W|].
        pose proof (greatest_le _ _ _ HG W) as LE. cbn [s_due] in LE. lia. }
      assert (l' = l) as -> by (inversion ST; reflexivity).
      exists g. split; [exact ND|]. split; [rewrite as_scheduled_keep by (auto; discriminate); exact PM|].
      intros i t s. rewrite waiting_snoc by exact OK. rewrite IW. split.
      * intros W. left. split; [exact W|]. repeat split; try discriminate. intros [(? & ? & ?) _]; discriminate.
      * intros [(W & _)|(_ & E)]; [exact W|discriminate].
  Qed.
End Proof.
