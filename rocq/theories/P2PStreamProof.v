(** Proofs about the proposal stream model. *)
From Coq Require Import List Bool NArith Arith Lia ZifyBool ZifyNat ZifyN.
From Verif Require Import AList ListLib P2PStreamModel P2PStreamSpec.
Import ListNotations.
Local Open Scope N_scope.

Lemma sid_eqb_spec a b : reflect (a = b) (sid_eqb a b).
Proof.
  destruct a as [a1 a2], b as [b1 b2]. unfold sid_eqb; simpl.
  destruct (N.eqb_spec a1 b1), (N.eqb_spec a2 b2); simpl; constructor; congruence.
Qed.

(** ** Stream id codec *)
Lemma be_bytes_length k n : length (be_bytes k n) = k.
Proof.
  revert n; induction k; intros; simpl; auto. rewrite app_length, IHk; simpl; lia.
Qed.

Lemma be_value_app_single bs b : be_value (bs ++ [b]) = be_value bs * 256 + b.
Proof. unfold be_value. now rewrite fold_left_app. Qed.

Lemma be_value_bytes k n : n < 256 ^ N.of_nat k -> be_value (be_bytes k n) = n.
Proof.
  revert n; induction k; intros n H.
  - simpl in *. change (256 ^ 0) with 1 in H. unfold be_value; simpl. lia.
  - change (be_bytes (S k) n) with (be_bytes k (n / 256) ++ [n mod 256]).
    rewrite be_value_app_single, IHk.
    + pose proof (N.div_mod n 256). lia.
    + rewrite Nat2N.inj_succ, N.pow_succ_r' in H.
      apply N.div_lt_upper_bound; lia.
Qed.

Lemma be_bytes_value k : forall bs, length bs = k -> Forall (fun b => b < 256) bs ->
  be_bytes k (be_value bs) = bs /\ be_value bs < 256 ^ N.of_nat k.
Proof.
  induction k; intros bs L F.
  - destruct bs; [|discriminate]. split; [reflexivity|]. unfold be_value; simpl. lia.
  - destruct (@exists_last _ bs) as [bs' [b E]]. { intros ->; discriminate. }
    subst bs. rewrite app_length in L; simpl in L.
    apply Forall_app in F as [F1 F2]. inversion F2; subst.
    destruct (IHk bs') as [IH1 IH2]; [lia|auto|].
    rewrite be_value_app_single.
    change (be_bytes (S k) (be_value bs' * 256 + b))
      with (be_bytes k ((be_value bs' * 256 + b) / 256) ++ [(be_value bs' * 256 + b) mod 256]).
    assert (E1 : (be_value bs' * 256 + b) / 256 = be_value bs').
    { symmetry. apply (N.div_unique _ 256 _ b); lia. }
    assert (E2 : (be_value bs' * 256 + b) mod 256 = b).
    { symmetry. apply (N.mod_unique _ 256 (be_value bs') b); lia. }
    rewrite E1, E2, IH1. split; auto.
    rewrite Nat2N.inj_succ, N.pow_succ_r'. lia.
Qed.

Lemma hr_roundtrip h r : h < 2 ^ 64 -> r < 2 ^ 32 ->
  hr_decode (hr_encode (h, r)) = Some (h, r).
Proof.
  intros Hh Hr. unfold hr_decode, hr_encode. cbn [fst snd].
  rewrite app_length, !be_bytes_length. cbn [Nat.add Nat.eqb negb].
  rewrite firstn_exact, skipn_exact by apply be_bytes_length.
  rewrite <- (app_nil_r (be_bytes 4 r)).
  rewrite firstn_exact by apply be_bytes_length.
  rewrite !be_value_bytes; auto.
Qed.

Lemma hr_decode_inv bs s : Forall (fun b => b < 256) bs ->
  hr_decode bs = Some s ->
  hr_encode s = bs /\ length bs = 12%nat /\ fst s < 2 ^ 64 /\ snd s < 2 ^ 32.
Proof.
  intros F. unfold hr_decode. destruct (Nat.eqb_spec (length bs) 12) as [L|L]; [|discriminate].
  cbn [negb].
  assert (F1 : Forall (fun b => b < 256) (firstn 8 bs)) by (now apply Forall_firstn).
  assert (F2 : Forall (fun b => b < 256) (firstn 4 (skipn 8 bs)))
    by (now apply Forall_firstn, Forall_skipn).
  destruct (be_bytes_value 8 (firstn 8 bs)) as [A1 A2]; [rewrite firstn_length; lia|auto|].
  destruct (be_bytes_value 4 (firstn 4 (skipn 8 bs))) as [B1 B2];
    [rewrite firstn_length, skipn_length; lia|auto|].
  intros H. apply (f_equal (fun o => match o with Some x => x | None => s end)) in H.
  rewrite <- H. unfold hr_encode. cbn [fst snd].
  rewrite A1, B1. repeat split; auto.
  rewrite (firstn_all2 (skipn 8 bs)) by (rewrite skipn_length; lia).
  apply firstn_skipn.
Qed.

Section Proof.
  Context {Part Peer : Type}.
  Notation msg := (@msg Part).
  Notation incoming := (@incoming Part).
  Notation state := (@state Part).
  Notation event := (@event Part Peer).

  (** ** One stream *)
  Fixpoint inc_run (st : incoming) (ms : list (msg * Peer)) : incoming * list event :=
    match ms with
    | [] => (st, [])
    | (m, src) :: ms' =>
        let (st1, e1) := inc_handle st m src in
        let (st2, e2) := inc_run st1 ms' in
        (st2, e1 ++ e2)
    end.

  Lemma inc_run_app st ms1 ms2 :
    inc_run st (ms1 ++ ms2) =
    let (st1, e1) := inc_run st ms1 in
    let (st2, e2) := inc_run st1 ms2 in (st2, e1 ++ e2).
  Proof.
    revert st; induction ms1 as [|[m src] ms1 IH]; intros st; simpl.
    - now destruct (inc_run st ms2).
    - destruct (inc_handle st m src) as [st1 e1]. rewrite IH.
      destruct (inc_run st1 ms1) as [st2 e2]. destruct (inc_run st2 ms2) as [st3 e3].
      now rewrite app_assoc.
  Qed.

  Definition buf_ok (st : incoming) (A : list msg) : Prop :=
    forall id m, al_get N.eqb id (received st) = Some m ->
      m_id m = id /\ (exists c, m_body m = Content c) /\ In m A.

  Record Inv (A : list msg) (st : incoming) (D : list Part) : Prop := {
    inv_next : next_id st = N.of_nat (length D);
    inv_deliv : forall i p, nth_error D i = Some p ->
      exists m, In m A /\ m_id m = N.of_nat i /\ m_body m = Content p;
    inv_buf : buf_ok st A;
    inv_bufbound : forall id m f, al_get N.eqb id (received st) = Some m ->
      fin_id st = Some f -> id < f;
    inv_fin1 : forall f, fin_id st = Some f -> exists m, In m A /\ m_id m = f /\ m_body m = Fin;
    inv_fin2 : forall m, In m A -> m_body m = Fin ->
      exists f, fin_id st = Some f /\ f <= m_id m;
    inv_compl : forall m c, In m A -> m_body m = Content c ->
      m_id m < next_id st \/ (exists f, fin_id st = Some f /\ f <= m_id m) \/
      (exists m', al_get N.eqb (m_id m) (received st) = Some m');
    inv_drained : al_get N.eqb (next_id st) (received st) = None }.

  (** What the drain loop does, for enough fuel. *)
  Lemma drain_spec fuel : forall (st : incoming) (src : Peer) s (st' : incoming) (evs : list event) A,
    (length (received st) <= fuel)%nat -> buf_ok st A ->
    (forall id m f, al_get N.eqb id (received st) = Some m -> fin_id st = Some f -> id < f) ->
    drain fuel st src s = (st', evs : list event) ->
    fin_id st' = fin_id st /\
    next_id st' = next_id st + N.of_nat (length evs) /\
    al_get N.eqb (next_id st') (received st') = None /\
    buf_ok st' A /\
    (forall id m f, al_get N.eqb id (received st') = Some m -> fin_id st' = Some f -> id < f) /\
    (forall i e, nth_error evs i = Some e ->
       ev_source e = src /\ ev_stream e = s /\
       exists m, In m A /\ m_id m = next_id st + N.of_nat i /\ m_body m = Content (ev_part e)) /\
    (forall f, fin_id st = Some f -> evs <> [] -> next_id st' <= f) /\
    (forall id m, al_get N.eqb id (received st) = Some m ->
       id < next_id st \/ id < next_id st' \/ al_get N.eqb id (received st') = Some m).
  Proof.
    induction fuel as [|fuel IH]; intros st src s st' evs A L B BB H; simpl in H.
    - injection H as <- <-. destruct st as [n r f]; simpl in *.
      destruct r; [|simpl in L; lia]. simpl in *.
      repeat match goal with |- _ /\ _ => split end; auto; try lia; try congruence.
      intros [|i] e He; discriminate.
    - destruct (al_get N.eqb (next_id st) (received st)) as [m|] eqn:G.
      2:{ injection H as <- <-.
          repeat match goal with |- _ /\ _ => split end; simpl; auto; try lia; try congruence.
          intros [|i] e He; discriminate. }
      pose proof (B _ _ G) as [Em [[c Ec] Im]]. rewrite Ec in H.
      destruct (drain fuel
          (Incoming_ (next_id st + 1) (al_remove N.eqb (next_id st) (received st)) (fin_id st)) src s)
        as [st1 evs1] eqn:D.
      injection H as <- <-.
      apply IH with (A := A) in D.
      + destruct D as (D1 & D2 & D3 & D4 & D5 & D6 & D7 & D8). simpl in *.
        split; [auto|]. split; [lia|]. split; [auto|]. split; [auto|]. split; [auto|].
        split; [|split].
        * intros i e H. destruct i as [|i]; simpl in H.
          -- injection H as <-. simpl. repeat split; auto. exists m. repeat split; auto; lia.
          -- destruct (D6 _ _ H) as (? & ? & m' & ? & ? & ?).
             repeat split; auto. exists m'. repeat split; auto; lia.
        * intros f Hf _. destruct evs1 as [|e1 evs1].
          -- simpl in D2. specialize (BB _ _ _ G Hf). lia.
          -- apply D7; congruence.
        * intros id m' G'. destruct (N.eq_dec id (next_id st)).
          -- subst. right; left. lia.
          -- rewrite <- (al_get_remove_neq N.eqb N.eqb_spec id (next_id st)) in G' by auto.
             destruct (D8 _ _ G') as [|[|]]; auto; lia.
      + simpl. pose proof (al_remove_length_lt N.eqb N.eqb_spec _ _ _ G). lia.
      + intros id m' G'. simpl in G'. destruct (N.eq_dec id (next_id st)).
        * subst. rewrite (al_get_remove_eq N.eqb N.eqb_spec) in G'. discriminate.
        * rewrite (al_get_remove_neq N.eqb N.eqb_spec) in G' by auto. now apply B.
      + simpl. intros id m' f G'. destruct (N.eq_dec id (next_id st)).
        * subst. rewrite (al_get_remove_eq N.eqb N.eqb_spec) in G'. discriminate.
        * rewrite (al_get_remove_neq N.eqb N.eqb_spec) in G' by auto. intros Hf; eapply BB; eauto.
  Qed.

  Lemma buf_ok_more st A m : buf_ok st A -> buf_ok st (A ++ [m]).
  Proof.
    intros B id m' G. destruct (B _ _ G) as (? & ? & ?). repeat split; auto.
    apply in_or_app; auto.
  Qed.

  Lemma inc_handle_inv A st D m (src : Peer) (st' : incoming) (evs : list event) :
    Inv A st D -> inc_handle st m src = (st', evs) ->
    Inv (A ++ [m]) st' (D ++ map ev_part evs) /\
    (forall e, In e evs -> ev_stream e = m_stream m /\ ev_source e = src) /\
    (forall f, fin_id st = Some f -> evs <> [] -> next_id st' <= f).
  Proof.
    intros I H. unfold inc_handle in H.
    destruct I as [In1 Ide Ibu Ibb If1 If2 Ico Idr].
    destruct (match fin_id st with Some f => f <=? m_id m | None => false end) eqn:E1.
    { injection H as <- <-. simpl. rewrite app_nil_r.
      split; [|split; [intros ? []|congruence]].
      destruct (fin_id st) as [f|] eqn:Ef; [|discriminate].
      apply N.leb_le in E1.
      constructor; auto.
      - intros i p Hn. destruct (Ide _ _ Hn) as (m' & ? & ? & ?).
        exists m'; repeat split; auto. apply in_or_app; auto.
      - now apply buf_ok_more.
      - now rewrite Ef.
      - intros f0 Hf. rewrite Ef in Hf. destruct (If1 _ Hf) as (m' & ? & ? & ?).
        exists m'; repeat split; auto. apply in_or_app; auto.
      - intros m' Hm' Hb. apply in_app_or in Hm' as [Hm'|[->|[]]].
        + rewrite Ef. now apply If2.
        + exists f; rewrite Ef; split; auto.
      - intros m' c Hm' Hb. apply in_app_or in Hm' as [Hm'|[->|[]]].
        + rewrite Ef. now apply (Ico _ c).
        + right; left. exists f; rewrite Ef; split; auto. }
    destruct (m_body m) as [c|] eqn:Eb.
    - destruct (negb (m_id m =? next_id st)) eqn:E2.
      + (* buffered *)
        injection H as <- <-. simpl. rewrite app_nil_r.
        split; [|split; [intros ? []|congruence]].
        apply negb_true_iff, N.eqb_neq in E2.
        constructor; simpl; auto.
        * intros i p Hn. destruct (Ide _ _ Hn) as (m' & ? & ? & ?).
          exists m'; repeat split; auto. apply in_or_app; auto.
        * intros id m' G. simpl in G. destruct (N.eq_dec id (m_id m)) as [->|Hne].
          -- rewrite (al_get_set_eq N.eqb N.eqb_spec) in G. injection G as <-.
             repeat split; eauto. apply in_or_app; simpl; auto.
          -- rewrite (al_get_set_neq N.eqb N.eqb_spec) in G by auto.
             destruct (Ibu _ _ G) as (? & ? & ?). repeat split; auto. apply in_or_app; auto.
        * intros id m' f G Hf. destruct (N.eq_dec id (m_id m)) as [->|Hne].
          -- rewrite Hf in E1. lia.
          -- rewrite (al_get_set_neq N.eqb N.eqb_spec) in G by auto. eauto.
        * intros f Hf. destruct (If1 _ Hf) as (m' & ? & ? & ?).
          exists m'; repeat split; auto. apply in_or_app; auto.
        * intros m' Hm' Hb. apply in_app_or in Hm' as [Hm'|[->|[]]]; [now apply If2|congruence].
        * intros m' c' Hm' Hb. apply in_app_or in Hm' as [Hm'|[->|[]]].
          -- destruct (Ico _ _ Hm' Hb) as [?|[?|[m'' G]]]; auto.
             right; right. destruct (N.eq_dec (m_id m') (m_id m)) as [->|Hne].
             ++ rewrite (al_get_set_eq N.eqb N.eqb_spec); eauto.
             ++ rewrite (al_get_set_neq N.eqb N.eqb_spec) by auto; eauto.
          -- right; right. rewrite (al_get_set_eq N.eqb N.eqb_spec); eauto.
        * rewrite (al_get_set_neq N.eqb N.eqb_spec) by auto. auto.
      + (* in order *)
        apply negb_false_iff, N.eqb_eq in E2.
        destruct (drain (length (received (Incoming_ (next_id st + 1) (received st) (fin_id st))))
                        (Incoming_ (next_id st + 1) (received st) (fin_id st)) src (m_stream m))
          as [st2 evs2] eqn:Dr.
        injection H as <- <-.
        apply drain_spec with (A := A ++ [m]) in Dr; auto;
          [|simpl; now apply buf_ok_more].
        destruct Dr as (D1 & D2 & D3 & D4 & D5 & D6 & D7 & D8). simpl in *.
        split; [|split].
        * constructor; auto.
          -- rewrite D2, In1, app_length. simpl. rewrite map_length. lia.
          -- intros i p Hn.
             destruct (Nat.lt_ge_cases i (length D)) as [Hl|Hl].
             ++ rewrite nth_error_app1 in Hn by auto.
                destruct (Ide _ _ Hn) as (m' & ? & ? & ?).
                exists m'; repeat split; auto. apply in_or_app; auto.
             ++ rewrite nth_error_app2 in Hn by auto.
                destruct (i - length D)%nat as [|j] eqn:Ej; simpl in Hn.
                ** injection Hn as <-. exists m. repeat split; auto.
                   { apply in_or_app; simpl; auto. } lia.
                ** rewrite nth_error_map in Hn.
                   destruct (nth_error evs2 j) as [e|] eqn:Ee; [|discriminate].
                   injection Hn as <-. destruct (D6 _ _ Ee) as (? & ? & m' & ? & ? & ?).
                   exists m'; repeat split; auto. lia.
          -- intros f Hf. rewrite D1 in Hf. destruct (If1 _ Hf) as (m' & ? & ? & ?).
             exists m'; repeat split; auto. apply in_or_app; auto.
          -- intros m' Hm' Hb. rewrite D1. apply in_app_or in Hm' as [Hm'|[->|[]]];
               [now apply If2|congruence].
          -- intros m' c' Hm' Hb. rewrite D1.
             apply in_app_or in Hm' as [Hm'|[->|[]]].
             ++ destruct (Ico _ _ Hm' Hb) as [?|[?|[m'' G]]]; auto.
                ** left; lia.
                ** destruct (D8 _ _ G) as [?|[?|?]]; [left; lia|left; lia|right; right; eauto].
             ++ left. lia.
        * intros e [<-|He]; simpl; auto.
          destruct (In_nth_error _ _ He) as [i Hi]. destruct (D6 _ _ Hi) as (? & ? & _). auto.
        * intros f Hf _. destruct evs2 as [|e evs2].
          -- simpl in D2. rewrite Hf in E1. lia.
          -- apply D7; congruence.
    - (* Fin *)
      injection H as <- <-. simpl. rewrite app_nil_r.
      split; [|split; [intros ? []|congruence]].
      constructor; simpl; auto.
      + intros i p Hn. destruct (Ide _ _ Hn) as (m' & ? & ? & ?).
        exists m'; repeat split; auto. apply in_or_app; auto.
      + intros id m' G. simpl in G. rewrite (al_get_retain N.eqb N.eqb_spec) in G.
        destruct (id <? m_id m); [|discriminate].
        destruct (Ibu _ _ G) as (? & ? & ?). repeat split; auto. apply in_or_app; auto.
      + intros id m' f G [= <-]. rewrite (al_get_retain N.eqb N.eqb_spec) in G.
        destruct (id <? m_id m) eqn:E; [lia|discriminate].
      + intros f [= <-]. exists m. repeat split; auto. apply in_or_app; simpl; auto.
      + intros m' Hm' Hb. eexists; split; [reflexivity|].
        apply in_app_or in Hm' as [Hm'|[->|[]]]; [|lia].
        destruct (If2 _ Hm' Hb) as (f & Hf & Hle). rewrite Hf in E1. lia.
      + intros m' c Hm' Hb. apply in_app_or in Hm' as [Hm'|[->|[]]]; [|congruence].
        destruct (Ico _ _ Hm' Hb) as [?|[(f & Hf & Hle)|[m'' G]]]; auto.
        * right; left. eexists; split; [reflexivity|]. rewrite Hf in E1. lia.
        * destruct (m_id m' <? m_id m) eqn:E.
          -- right; right. rewrite (al_get_retain N.eqb N.eqb_spec), E. eauto.
          -- right; left. eexists; split; [reflexivity|]. lia.
      + rewrite (al_get_retain N.eqb N.eqb_spec), Idr. now destruct (_ <? _).
  Qed.

  Lemma inv_init : Inv [] new_incoming [].
  Proof.
    constructor; simpl; auto; try discriminate; try tauto.
    intros i p H; destruct i; discriminate.
  Qed.

  Lemma inc_run_inv ms : forall A st D st' (evs : list event),
    Inv A st D -> inc_run st ms = (st', evs) ->
    Inv (A ++ map fst ms) st' (D ++ map ev_part evs).
  Proof.
    induction ms as [|[m src] ms IH]; intros A st D st' evs I H; simpl in H.
    - injection H as <- <-. simpl. now rewrite !app_nil_r.
    - destruct (inc_handle st m src) as [st1 e1] eqn:E1.
      destruct (inc_run st1 ms) as [st2 e2] eqn:E2. injection H as <- <-.
      apply (inc_handle_inv _ _ _ _ _ _ _ I) in E1 as [I1 _].
      specialize (IH _ _ _ _ _ I1 E2). simpl.
      rewrite <- app_assoc in IH. simpl in IH. now rewrite map_app, app_assoc.
  Qed.

  (** Once an end marker [f] is known, no part with id >= f is delivered. *)
  Lemma inc_run_fin ms : forall A st D st' (evs : list event) f,
    Inv A st D -> fin_id st = Some f -> inc_run st ms = (st', evs) ->
    evs <> [] -> next_id st' <= f.
  Proof.
    induction ms as [|[m src] ms IH]; intros A st D st' evs f I Hf H Hne; simpl in H.
    - injection H as <- <-. congruence.
    - destruct (inc_handle st m src) as [st1 e1] eqn:E1.
      destruct (inc_run st1 ms) as [st2 e2] eqn:E2. injection H as <- <-.
      pose proof (inc_handle_inv _ _ _ _ _ _ _ I E1) as (I1 & _ & B).
      (* the end marker only moves down *)
      assert (Hf1 : exists f1, fin_id st1 = Some f1 /\ f1 <= f).
      { destruct (inv_fin1 _ _ _ I _ Hf) as (mf & Im & Eid & Ebd).
        destruct (inv_fin2 _ _ _ I1 mf) as (f1 & ? & ?).
        - apply in_or_app; auto.
        - auto.
        - exists f1; split; auto; lia. }
      destruct Hf1 as (f1 & Hf1 & Hle).
      destruct e2 as [|e e2].
      + assert (next_id st2 = next_id st1) as ->.
        { pose proof (inc_run_inv ms _ _ _ _ _ I1 E2) as I2.
          rewrite (inv_next _ _ _ I2), (inv_next _ _ _ I1). simpl. now rewrite app_nil_r. }
        apply (B _ Hf). destruct e1; [exfalso; now apply Hne|discriminate].
      + specialize (IH _ _ _ _ _ _ I1 Hf1 E2 ltac:(discriminate)). lia.
  Qed.

  (** ** Many streams *)
  Definition all_incoming (st : state) : Prop :=
    forall s o, al_get sid_eqb s st <> Some (Outgoing o).

  Definition inc_of (st : state) (s : stream_id) : incoming :=
    match al_get sid_eqb s st with Some (Incoming i) => i | _ => new_incoming end.

  Lemma inc_handle_streams (st : incoming) m (src : Peer) st' (evs : list event) :
    inc_handle st m src = (st', evs) -> forall e, In e evs -> ev_stream e = m_stream m.
  Proof.
    unfold inc_handle. intros H e He.
    destruct (match fin_id st with Some f => f <=? m_id m | None => false end);
      [injection H as <- <-; destruct He|].
    destruct (m_body m); [|injection H as <- <-; destruct He].
    destruct (negb _); [injection H as <- <-; destruct He|].
    destruct (drain _ _ src (m_stream m)) as [st2 e2] eqn:D. injection H as <- <-.
    destruct He as [<-|He]; auto.
    revert D He. generalize (length (received (Incoming_ (next_id st + 1) (received st) (fin_id st)))).
    intros fuel. generalize (Incoming_ (next_id st + 1) (received st) (fin_id st)).
    revert st2 e2. induction fuel as [|fuel IH]; intros st2 e2 i D He; simpl in D.
    - injection D as <- <-. destruct He.
    - destruct (al_get N.eqb (next_id i) (received i)) as [m'|]; [|injection D as <- <-; destruct He].
      destruct (m_body m').
      + destruct (drain fuel _ src (m_stream m)) as [st3 e3] eqn:D3. injection D as <- <-.
        destruct He as [<-|He]; auto. eapply IH; eauto.
      + eapply IH; eauto.
  Qed.

  Lemma run_incoming_project ms : forall st,
    all_incoming st ->
    exists st' (evs : list event), run_incoming st ms = Ok (st', evs) /\ all_incoming st' /\
      forall s, inc_run (inc_of st s) (of_stream s ms) =
                (inc_of st' s, filter (fun e => sid_eqb s (ev_stream e)) evs).
  Proof.
    induction ms as [|[m src] ms IH]; intros st AI; simpl.
    - exists st, []. repeat split; auto.
    - unfold handle_incoming.
      assert (exists i, (match al_get sid_eqb (m_stream m) st with
           | Some ss => ss | None => Incoming new_incoming end) = Incoming i /\
           i = inc_of st (m_stream m)) as (i & Ei & Ei').
      { unfold inc_of. destruct (al_get sid_eqb (m_stream m) st) as [[i|o]|] eqn:G; eauto.
        exfalso. now apply (AI (m_stream m) o). }
      rewrite Ei. destruct (inc_handle i m src) as [i' e1] eqn:H1.
      set (st1 := al_set sid_eqb (m_stream m) (Incoming i') st).
      assert (AI1 : all_incoming st1).
      { intros s o. unfold st1. destruct (sid_eqb_spec s (m_stream m)) as [->|Hne].
        - rewrite (al_get_set_eq sid_eqb sid_eqb_spec). discriminate.
        - rewrite (al_get_set_neq sid_eqb sid_eqb_spec) by auto. apply AI. }
      destruct (IH st1 AI1) as (st2 & e2 & R & AI2 & P). rewrite R.
      exists st2, (e1 ++ e2). repeat split; auto.
      intros s. rewrite filter_app. specialize (P s).
      destruct (sid_eqb_spec s (m_stream m)) as [->|Hne]; simpl.
      + unfold inc_of in P at 1. unfold st1 in P at 1.
        rewrite (al_get_set_eq sid_eqb sid_eqb_spec) in P.
        rewrite <- Ei', H1, P. f_equal. f_equal.
        symmetry. apply filter_all_true. intros e He.
        rewrite (inc_handle_streams _ _ _ _ _ H1 e He). now destruct (sid_eqb_spec (m_stream m) (m_stream m)).
      + assert (F0 : filter (fun e => sid_eqb s (ev_stream e)) e1 = []).
        { clear - H1 Hne. pose proof (inc_handle_streams _ _ _ _ _ H1) as HS. clear H1.
          induction e1 as [|e e1 IH]; simpl; auto.
          rewrite (HS e) by (simpl; auto).
          destruct (sid_eqb_spec s (m_stream m)); [congruence|].
          apply IH. intros e' He'. apply HS. simpl; auto. }
        rewrite F0. simpl. rewrite <- P. f_equal.
        unfold inc_of, st1. now rewrite (al_get_set_neq sid_eqb sid_eqb_spec) by auto.
  Qed.
End Proof.

Section Theorems.
  Context {Part Peer : Type}.
  Notation msg := (@msg Part).
  Notation state := (@state Part).
  Notation event := (@event Part Peer).

  Lemma of_stream_in s ms (m : msg) (p : Peer) :
    In (m, p) (of_stream s ms) <-> In (m, p) ms /\ m_stream m = s.
  Proof.
    unfold of_stream. rewrite filter_In. simpl.
    destruct (sid_eqb_spec s (m_stream m)); split; intros [? ?]; split; auto; congruence.
  Qed.

  Lemma run_delivers ms s :
    exists st (evs : list event) i, run_incoming [] ms = Ok (st, evs) /\
      inc_run new_incoming (of_stream s ms) =
        (i, filter (fun e => sid_eqb s (ev_stream e)) evs) /\
      Inv (map fst (of_stream s ms)) i (parts_of s evs).
  Proof.
    destruct (run_incoming_project ms []) as (st & evs & R & _ & P).
    { intros ? ? H; discriminate. }
    specialize (P s). exists st, evs, (inc_of st s). split; auto.
    unfold inc_of at 1 in P. simpl in P. split; [exact P|].
    apply (inc_run_inv _ _ _ _ _ _ inv_init) in P. exact P.
  Qed.

  Lemma in_stream_msg s ms (m : msg) :
    In m (map fst (of_stream s ms)) <-> exists src : Peer, In (m, src) ms /\ m_stream m = s.
  Proof.
    rewrite in_map_iff. split.
    - intros ([m' src] & <- & H). apply of_stream_in in H. eauto.
    - intros (src & H). exists (m, src). split; auto. now apply of_stream_in.
  Qed.

  Lemma incoming_prefix_lemma (ms : list (msg * Peer)) :
    exists st evs, run_incoming [] ms = Ok (st, evs) /\
    forall s,
      (forall i p, nth_error (parts_of s evs) i = Some p ->
         exists src, In (Msg s (N.of_nat i) (Content p), src) ms) /\
      (forall c src, In (Msg s (N.of_nat (length (parts_of s evs))) (Content c), src) ms ->
         exists f src', In (Msg s f Fin, src') ms /\ f <= N.of_nat (length (parts_of s evs))).
  Proof.
    destruct (run_incoming_project ms []) as (st & evs & R & _ & _).
    { intros ? ? H; discriminate. }
    exists st, evs. split; auto. intros s.
    destruct (run_delivers ms s) as (st' & evs' & i & R' & _ & I).
    rewrite R in R'. injection R' as <- <-. split.
    - intros k p Hk. destruct (inv_deliv _ _ _ I _ _ Hk) as ([s' id b] & Hm & Hid & Hb).
      simpl in *. subst. apply in_stream_msg in Hm as (src & Hm & Hs). simpl in Hs. subst. eauto.
    - intros c src Hc.
      destruct (inv_compl _ _ _ I (Msg s (N.of_nat (length (parts_of s evs))) (Content c)) c)
        as [H|[(f & Hf & Hle)|(m' & G)]]; simpl in *; auto.
      + apply in_stream_msg. eauto.
      + rewrite (inv_next _ _ _ I) in H. lia.
      + destruct (inv_fin1 _ _ _ I _ Hf) as ([s' id b] & Hm & Hid & Hb). simpl in *. subst.
        apply in_stream_msg in Hm as (src' & Hm & Hs). simpl in Hs. subst. eauto.
      + pose proof (inv_drained _ _ _ I) as Dr. rewrite (inv_next _ _ _ I) in Dr. congruence.
  Qed.

  Lemma no_delivery_after_fin_lemma (ms1 ms2 : list (msg * Peer)) s f src st1 evs1 st2 evs2 :
    In (Msg s f Fin, src) ms1 ->
    run_incoming [] ms1 = Ok (st1, evs1) ->
    run_incoming [] (ms1 ++ ms2) = Ok (st2, evs2) ->
    exists new, parts_of s evs2 = parts_of s evs1 ++ new /\
      (new <> [] -> N.of_nat (length (parts_of s evs2)) <= f).
  Proof.
    intros Hf R1 R2.
    destruct (run_delivers ms1 s) as (st' & evs' & i1 & R1' & P1 & I1).
    rewrite R1 in R1'. injection R1' as <- <-.
    destruct (run_delivers (ms1 ++ ms2) s) as (st' & evs' & i2 & R2' & P2 & I2).
    rewrite R2 in R2'. injection R2' as <- <-.
    unfold of_stream in P2. rewrite filter_app in P2. rewrite inc_run_app in P2.
    fold (of_stream s ms1) in P2. fold (of_stream s ms2) in P2. rewrite P1 in P2.
    destruct (inc_run i1 (of_stream s ms2)) as [i3 e3] eqn:E3.
    injection P2 as -> E.
    exists (map ev_part e3). split.
    - unfold parts_of. rewrite <- E, map_app. reflexivity.
    - intros Hne.
      destruct (inv_fin2 _ _ _ I1 (Msg s f Fin)) as (f' & Hf' & Hle); simpl in *; auto.
      { apply in_stream_msg. eauto. }
      pose proof (inc_run_fin _ _ _ _ _ _ _ I1 Hf' E3) as B.
      rewrite <- (inv_next _ _ _ I2).
      assert (e3 <> []) by (intros ->; now apply Hne). specialize (B H). lia.
  Qed.

  Lemma stream_isolation_lemma (ms : list (msg * Peer)) s st evs st' evs' :
    run_incoming [] ms = Ok (st, evs) ->
    run_incoming [] (of_stream s ms) = Ok (st', evs') ->
    parts_of s evs = parts_of s evs'.
  Proof.
    intros R R'.
    destruct (run_delivers ms s) as (? & ? & i1 & R1 & P1 & _).
    rewrite R in R1. injection R1 as <- <-.
    destruct (run_delivers (of_stream s ms) s) as (? & ? & i2 & R2 & P2 & _).
    rewrite R' in R2. injection R2 as <- <-.
    assert (E : of_stream s (of_stream s ms) = of_stream s ms).
    { apply filter_all_true. intros [m p] H. apply of_stream_in in H as [_ <-].
      simpl. now destruct (sid_eqb_spec (m_stream m) (m_stream m)). }
    rewrite E, P1 in P2. injection P2 as _ E2. unfold parts_of. now rewrite E2.
  Qed.

  (** ** Sending *)
  Variable is_fin_part : Part -> bool.

  Fixpoint number (s : stream_id) (i : N) (ps : list Part) : list msg :=
    match ps with
    | [] => []
    | p :: ps' => Msg s i (Content p) :: number s (i + 1) ps'
    end.

  Lemma in_number s ps : forall i (m : msg),
    In m (number s i ps) <->
    exists k p, nth_error ps k = Some p /\ m = Msg s (i + N.of_nat k) (Content p).
  Proof.
    induction ps as [|p ps IH]; intros i m; simpl.
    - split; [tauto|]. intros ([|k] & p & H & _); discriminate.
    - rewrite IH. split.
      + intros [<-|(k & q & H & ->)].
        * exists 0%nat, p. split; auto. f_equal. lia.
        * exists (S k), q. split; auto. f_equal. lia.
      + intros ([|k] & q & H & ->); simpl in H.
        * injection H as <-. left. f_equal. lia.
        * right. exists k, q. split; auto. f_equal. lia.
  Qed.

  Definition next_out (st : state) (s : stream_id) : option N :=
    match al_get sid_eqb s st with
    | None => Some 0
    | Some (Outgoing o) => Some (match last_sent o with Some id => id + 1 | None => 0 end)
    | Some (Incoming _) => None
    end.

  Lemma create_outgoing_spec st s p n :
    next_out st s = Some n ->
    exists st', create_outgoing is_fin_part st s p =
      Ok (st', Msg s n (Content p) :: (if is_fin_part p then [Msg s (n + 1) Fin] else [])) /\
      next_out st' s = Some (n + 1).
  Proof.
    unfold next_out, create_outgoing. intros H.
    assert (Hx : exists o, (match al_get sid_eqb s st with
                  | Some ss => ss | None => Outgoing new_outgoing end) = Outgoing o /\
              (match last_sent o with Some id => id + 1 | None => 0 end) = n).
    { destruct (al_get sid_eqb s st) as [[i|o]|]; [discriminate| |].
      - injection H as <-. eauto.
      - injection H as <-. exists new_outgoing. auto. }
    destruct Hx as (o & -> & Hn). unfold out_create. rewrite Hn.
    destruct (is_fin_part p); eexists; (split; [reflexivity|]);
      rewrite (al_get_set_eq sid_eqb sid_eqb_spec); reflexivity.
  Qed.

  Lemma run_outgoing_spec s qs : forall st n fin,
    next_out st s = Some n ->
    (forall q, In q qs -> is_fin_part q = false) -> is_fin_part fin = true ->
    exists st', run_outgoing is_fin_part st s (qs ++ [fin]) =
      Ok (st', number s n (qs ++ [fin]) ++ [Msg s (n + N.of_nat (length qs) + 1) Fin]).
  Proof.
    induction qs as [|q qs IH]; intros st n fin Hn Hq Hf; simpl.
    - destruct (create_outgoing_spec st s fin n Hn) as (st' & -> & Hn'). rewrite Hf. simpl.
      eexists. repeat f_equal. lia.
    - destruct (create_outgoing_spec st s q n Hn) as (st' & -> & Hn').
      rewrite (Hq q) by (simpl; auto).
      destruct (IH st' (n + 1) fin Hn') as (st'' & ->); auto.
      { intros; apply Hq; simpl; auto. }
      replace (n + 1 + N.of_nat (length qs) + 1)
        with (n + N.of_nat (length (q :: qs)) + 1) by (cbn [length]; lia).
      eexists. reflexivity.
  Qed.

  Lemma sent_arrives_lemma s (qs : list Part) fin st msgs (arrivals : list (msg * Peer)) :
    (forall q, In q qs -> is_fin_part q = false) -> is_fin_part fin = true ->
    run_outgoing is_fin_part [] s (qs ++ [fin]) = Ok (st, msgs) ->
    (forall m, In m msgs -> exists src, In (m, src) arrivals) ->
    (forall m src, In (m, src) arrivals -> m_stream m = s -> In m msgs) ->
    exists st' evs, run_incoming [] arrivals = Ok (st', evs) /\ parts_of s evs = qs ++ [fin].
  Proof.
    intros Hq Hf R All Only.
    destruct (run_outgoing_spec s qs [] 0 fin eq_refl Hq Hf) as (st0 & R0).
    rewrite R in R0. injection R0 as <- ->.
    destruct (incoming_prefix_lemma arrivals) as (st' & evs & Ri & P).
    exists st', evs. split; auto. specialize (P s) as (P1 & P2).
    set (ps := qs ++ [fin]) in *. set (D := parts_of s evs) in *.
    assert (Pre : D = firstn (length D) ps).
    { apply prefix_firstn. intros i p Hi. destruct (P1 _ _ Hi) as (src & Hin).
      apply Only in Hin; auto. apply in_app_or in Hin as [Hin|[Hin|[]]]; [|discriminate].
      apply in_number in Hin as (k & p' & Hk & E). injection E as E ->.
      replace i with k by lia. auto. }
    destruct (Nat.lt_ge_cases (length D) (length ps)) as [Hl|Hl].
    - exfalso. destruct (nth_error ps (length D)) as [p|] eqn:Ep.
      2:{ apply nth_error_None in Ep. lia. }
      assert (Hin : In (Msg s (N.of_nat (length D)) (Content p))
                (number s 0 ps ++ [Msg s (0 + N.of_nat (length qs) + 1) Fin])).
      { apply in_or_app. left. apply in_number. exists (length D), p. split; auto. }
      destruct (All _ Hin) as (src & Ha). destruct (P2 _ _ Ha) as (f & src' & Hfin & Hle).
      apply Only in Hfin; auto. apply in_app_or in Hfin as [Hfin|[Hfin|[]]].
      + apply in_number in Hfin as (k & p' & _ & E). discriminate.
      + injection Hfin as <-. unfold ps in Hl. rewrite app_length in Hl. simpl in Hl. lia.
    - rewrite Pre. apply firstn_all2. exact Hl.
  Qed.
End Theorems.
