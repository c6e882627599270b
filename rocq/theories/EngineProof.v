From Coq Require Import List NArith Bool Lia ZifyBool ZifyN ZifyNat Permutation Sorted.
From Verif Require Import AList ListLib Radix WalModel WalSpec WalProof WalProperties EngineModel.
Import ListNotations.
Local Open Scope N_scope.

(* ---- maxima ---- *)

Lemma max_height_acc hs : forall m,
  match fold_left (fun m h => match m with Some c => Some (N.max c h) | None => Some h end) hs m with
  | None => m = None /\ hs = []
  | Some t => (m = Some t \/ In t hs) /\ (forall c, m = Some c -> c <= t) /\ forall h, In h hs -> h <= t
  end.
Proof.
  induction hs as [|x hs IH]; intros m; cbn [fold_left].
  - destruct m as [c|]; [|auto]. split; [auto|]. split; [intros c' E; injection E as <-; lia|intros ? []].
  - specialize (IH (match m with Some c => Some (N.max c x) | None => Some x end)).
    destruct (fold_left _ hs _) as [t|].
    + destruct IH as (A & B & C). split; [|split].
      * destruct A as [A|A]; [|right; right; exact A]. destruct m as [c|]; injection A as A.
        -- destruct (N.max_spec c x) as [[_ X]|[_ X]]; rewrite X in A; subst t; [right; left|left]; reflexivity.
        -- subst t. right. left. reflexivity.
      * intros c ->. specialize (B _ eq_refl). lia.
      * intros h [<-|I]; [|apply C, I]. destruct m as [c|]; specialize (B _ eq_refl); lia.
    + destruct IH as [X _]. destruct m; discriminate.
Qed.

Lemma max_height_none hs : max_height hs = None -> hs = [].
Proof. intros E. pose proof (max_height_acc hs None) as A. unfold max_height in E. rewrite E in A. tauto. Qed.

Lemma max_height_some hs t : max_height hs = Some t -> In t hs /\ forall h, In h hs -> h <= t.
Proof.
  intros E. pose proof (max_height_acc hs None) as A. unfold max_height in E. rewrite E in A.
  destruct A as ([A|A] & _ & B); [discriminate|]. auto.
Qed.

Lemma checked_sub_some a b c : checked_sub a b = Some c <-> c + b = a.
Proof.
  unfold checked_sub. destruct (N.leb_spec b a) as [L|L].
  - split; [intros E; injection E as <-; lia|intros <-; f_equal; lia].
  - split; [discriminate|lia].
Qed.

Lemma checked_sub_none a b : checked_sub a b = None <-> a < b.
Proof. unfold checked_sub. destruct (N.leb_spec b a); split; try discriminate; try lia; auto. Qed.

Lemma key_get {V} (l : list (N * V)) h : In h (map fst l) <-> al_get N.eqb h l <> None.
Proof.
  split.
  - intros I. destruct (al_in_keys_get _ N.eqb_spec _ _ I) as (v & ->). discriminate.
  - intros NE. destruct (al_get N.eqb h l) as [v|] eqn:E; [|congruence].
    apply (al_get_in _ N.eqb_spec) in E. apply (in_map fst) in E. exact E.
Qed.

Lemma NoDup_app_intro {A} (a b : list A) : NoDup a -> NoDup b -> (forall x, In x a -> In x b -> False) -> NoDup (a ++ b).
Proof.
  induction a as [|x a IH]; intros NA NB D; [exact NB|]. apply NoDup_cons_iff in NA. destruct NA as [NI NA].
  simpl. constructor.
  - intros I. apply in_app_or in I. destruct I as [I|I]; [contradiction|]. eapply D; [left; reflexivity|exact I].
  - apply IH; auto. intros y Y1 Y2. eapply D; [right; exact Y1|exact Y2].
Qed.

(* ---- effects ---- *)

Definition is_append_to (h : N) (o : wal_op) : Prop := exists x, o = WAppend h x.

Lemma run_effects_acc h fxs : forall e ws,
  exists e' ws', fold_left (handle_effect h) fxs (e, ws) = (e', ws ++ ws') /\
    Forall (is_append_to h) ws' /\
    (decided e = true -> decided e' = true) /\
    (decided e' = true -> decided e = true \/ exists ch v, In (WAppend h (Decision ch v)) ws') /\
    (forall ch v, In (FxDecide ch v) fxs -> decided e' = true).
Proof.
  induction fxs as [|fx fxs IH]; intros e ws; cbn [fold_left].
  - exists e, []. rewrite app_nil_r. split; [reflexivity|]. split; [constructor|]. split; [auto|]. split; [auto|]. intros ? ? [].
  - destruct fx as [ch v|b|b]; cbn [handle_effect].
    + destruct (IH (mkEngine true (out e ++ [EvDecision ch v])) (ws ++ [WAppend h (Decision ch v)]))
        as (e' & ws' & E & F & A & B & C).
      exists e', (WAppend h (Decision ch v) :: ws'). rewrite E, <- app_assoc. split; [reflexivity|].
      cbn [decided] in *. split; [constructor; [eexists; reflexivity|exact F]|]. split; [auto|].
      split; [intros _; right; exists ch, v; left; reflexivity|]. intros; auto.
    + destruct (IH e (ws ++ [WAppend h (Other b)])) as (e' & ws' & E & F & A & B & C).
      exists e', (WAppend h (Other b) :: ws'). rewrite E, <- app_assoc. split; [reflexivity|].
      split; [constructor; [eexists; reflexivity|exact F]|]. split; [auto|]. split.
      * intros D. destruct (B D) as [X|(ch & v & X)]; [auto|]. right. exists ch, v. right. exact X.
      * intros ch v [X|X]; [discriminate|eapply C, X].
    + destruct (IH (mkEngine (decided e) (out e ++ [EvOther b])) ws) as (e' & ws' & E & F & A & B & C).
      exists e', ws'. rewrite E. cbn [decided] in *. split; [reflexivity|]. split; [exact F|]. split; [auto|].
      split; [auto|]. intros ch v [X|X]; [discriminate|eapply C, X].
Qed.

Lemma run_effects_spec h e fxs :
  Forall (is_append_to h) (snd (run_effects h e fxs)) /\
  (decided e = true -> decided (fst (run_effects h e fxs)) = true) /\
  (decided (fst (run_effects h e fxs)) = true ->
     decided e = true \/ exists ch v, In (WAppend h (Decision ch v)) (snd (run_effects h e fxs))) /\
  (forall ch v, In (FxDecide ch v) fxs -> decided (fst (run_effects h e fxs)) = true).
Proof.
  unfold run_effects. destruct (run_effects_acc h fxs e []) as (e' & ws' & E & F & A & B & C).
  rewrite E. cbn [fst snd app]. auto.
Qed.

Lemma poll_internal_spec h e fxs :
  fst (fst (poll_internal h e fxs)) = mkEngine (decided (fst (run_effects h e fxs)))
                                       (tl (out (fst (run_effects h e fxs)))) /\
  snd (fst (poll_internal h e fxs)) = snd (run_effects h e fxs) /\
  snd (poll_internal h e fxs) = hd_error (out (fst (run_effects h e fxs))).
Proof.
  unfold poll_internal. destruct (run_effects h e fxs) as [e' ws]. cbn [fst snd].
  destruct e' as [d o]. cbn [out decided]. destruct o; auto.
Qed.

(* ---- logs ---- *)

(* Opening and appending only. *)
Definition grows (o : wal_op) : Prop := match o with WDelete _ => False | _ => True end.

Lemma logged_grow ops : forall w h, Forall grows ops ->
  match logged (w ++ ops) h with
  | None => logged w h = None /\ forall o, In o ops -> op_height o <> h
  | Some es => (logged w h <> None \/ exists o, In o ops /\ op_height o = h) /\
      (forall es0, logged w h = Some es0 -> forall x, In x es0 -> In x es) /\
      (forall x, In (WAppend h x) ops -> In x es)
  end.
Proof.
  induction ops as [|o ops IH]; intros w h F.
  - rewrite app_nil_r. destruct (logged w h) as [es|].
    + split; [left; discriminate|]. split; [intros ? E; injection E as <-; auto|intros ? []].
    + split; [reflexivity|]. intros ? [].
  - apply Forall_cons_iff in F. destruct F as [G F].
    replace (w ++ o :: ops) with ((w ++ [o]) ++ ops) by (rewrite <- app_assoc; reflexivity).
    specialize (IH (w ++ [o]) h F). rewrite logged_snoc in IH.
    destruct (logged ((w ++ [o]) ++ ops) h) as [es|].
    + destruct IH as (A & B & C). destruct o as [h'|h' x|h']; cbn [log_step] in *; [| |destruct G].
      * destruct (N.eqb_spec h' h) as [EQ|NE].
        -- subst h'. split; [right; exists (WOpen h); split; [left|]; reflexivity|]. split.
           ++ intros es0 E. rewrite E in B. apply B. reflexivity.
           ++ intros y [X|X]; [discriminate|apply C, X].
        -- split; [|split; [exact B|intros y [X|X]; [discriminate|apply C, X]]].
           destruct A as [A|(o & I & E)]; [left; exact A|right; exists o; split; [right; exact I|exact E]].
      * destruct (N.eqb_spec h' h) as [EQ|NE].
        -- subst h'. split; [right; exists (WAppend h x); split; [left|]; reflexivity|]. split.
           ++ intros es0 E. rewrite E in B. intros y I. apply (B _ eq_refl), in_or_app. left. exact I.
           ++ intros y [X|X]; [|apply C, X]. injection X as <-. eapply B; [reflexivity|]. apply in_or_app. right. left. reflexivity.
        -- split; [|split; [exact B|]].
           ++ destruct A as [A|(o & I & E)]; [left; exact A|right; exists o; split; [right; exact I|exact E]].
           ++ intros y [X|X]; [injection X as -> _; congruence|apply C, X].
    + destruct IH as (A & B). destruct o as [h'|h' x|h']; cbn [log_step op_height] in *; [| |destruct G];
        (destruct (N.eqb_spec h' h) as [EQ|NE]; [discriminate|]; split; [exact A|];
         intros o [<-|I]; [exact NE|apply B, I]).
Qed.

Lemma logged_other ops : forall w h, (forall o, In o ops -> op_height o <> h) -> logged (w ++ ops) h = logged w h.
Proof.
  induction ops as [|o ops IH]; intros w h NE; [rewrite app_nil_r; reflexivity|].
  replace (w ++ o :: ops) with ((w ++ [o]) ++ ops) by (rewrite <- app_assoc; reflexivity).
  rewrite IH by (intros; apply NE; right; assumption). rewrite logged_snoc.
  pose proof (NE o (or_introl eq_refl)) as X.
  destruct o as [h'|h' x|h']; cbn [log_step op_height] in *; (destruct (N.eqb_spec h' h); [contradiction|reflexivity]).
Qed.

Lemma logged_deleted hs : forall w h, In h hs -> logged (w ++ map WDelete hs) h = None.
Proof.
  intros w h. induction hs as [|x hs IH] using rev_ind; [intros []|]. intros I.
  rewrite map_app, app_assoc. cbn [map]. rewrite logged_snoc. cbn [log_step].
  destruct (N.eqb_spec x h) as [EQ|NE]; [reflexivity|]. apply in_app_or in I.
  destruct I as [I|[I|[]]]; [apply IH, I|congruence].
Qed.

Lemma existsb_decision es : existsb is_decision es = true <-> has_decision es.
Proof.
  unfold has_decision. rewrite existsb_exists. split.
  - intros (e & I & E). destruct e as [h v|]; [|discriminate]. eauto.
  - intros (h & v & I). exists (Decision h v). auto.
Qed.

Section Proof.
  Variable ser : wal_entry -> bytes.
  Variable de : bytes -> option wal_entry.
  Variable address : bytes.
  Variable depth : N.

  (* Holds of every node reached from a fresh one by operations that started the heights in S. *)
  Record inv (S : N -> Prop) (n : node) : Prop := {
    i_ok : heights_ok (wal n);
    i_nodup : NoDup (map fst (engines n));
    i_min : forall m, min_kept n = Some m -> exists t, In t (map fst (engines n)) /\ m + depth <= t;
    i_file : forall h e, active n h = Some e ->
      exists es, logged (wal n) h = Some es /\ (decided e = true -> has_decision es);
    i_gone : forall h, S h -> active n h = None -> exists m, min_kept n = Some m /\ h < m;
    i_known : forall h es, logged (wal n) h = Some es -> S h;
    i_started : forall h e, active n h = Some e -> S h }.

  (* A decided height as long as it is not started again. *)
  Definition settled (n : node) (h : N) : Prop :=
    (exists e, active n h = Some e /\ decided e = true) \/
    (active n h = None /\ (exists m, min_kept n = Some m /\ h < m) /\
     forall es, logged (wal n) h = Some es -> has_decision es).

  Lemma settled_finalized n h : settled n h -> is_height_finalized n h = true.
  Proof.
    unfold is_height_finalized. intros [(e & E & D)|(E & (m & M & L) & _)]; rewrite E; [exact D|].
    rewrite M. lia.
  Qed.

  Lemma inv_new : inv (fun _ => False) (new_node []).
  Proof. constructor; try discriminate; try constructor; try (intros ? []). Qed.

  (* -- start -- *)

  Lemma inv_start S n h : inv S n -> h < 2 ^ 64 -> inv (fun x => S x \/ x = h) (start_height n h).
  Proof.
    intros [OK ND MIN FILE GONE KNOWN STARTED] L. unfold start_height, active in *.
    assert (GET : forall x, al_get N.eqb x (al_set N.eqb h new_engine (engines n)) =
                            if x =? h then Some new_engine else al_get N.eqb x (engines n)).
    { intros x. destruct (N.eqb_spec x h) as [->|NE]; [apply (al_get_set_eq _ N.eqb_spec)|apply (al_get_set_neq _ N.eqb_spec), NE]. }
    constructor; unfold active; cbn [engines wal min_kept].
    - apply Forall_app. split; [exact OK|]. apply Forall_cons; [exact L|constructor].
    - apply (al_nodup_set _ N.eqb_spec), ND.
    - intros m E. destruct (MIN m E) as (t & I & LE). exists t. split; [|exact LE].
      apply key_get. rewrite GET. apply key_get in I. destruct (t =? h); [discriminate|exact I].
    - intros x e E. rewrite GET in E. rewrite logged_snoc. cbn [log_step]. rewrite N.eqb_sym.
      destruct (N.eqb_spec x h) as [->|NE].
      + injection E as <-. eexists. split; [reflexivity|]. discriminate.
      + apply FILE, E.
    - intros x SX E. rewrite GET in E. destruct (N.eqb_spec x h) as [->|NE]; [discriminate|].
      destruct SX as [SX|SX]; [apply GONE; assumption|contradiction].
    - intros x es E. rewrite logged_snoc in E. cbn [log_step] in E.
      destruct (N.eqb_spec h x) as [->|NE]; [auto|left; eapply KNOWN, E].
    - intros x e E. rewrite GET in E. destruct (N.eqb_spec x h) as [->|NE]; [auto|left; eapply STARTED, E].
  Qed.

  Lemma settled_start n h h' : h' <> h -> settled n h -> settled (start_height n h') h.
  Proof.
    intros NE. unfold settled, start_height, active. cbn [engines wal min_kept].
    rewrite (al_get_set_neq _ N.eqb_spec) by congruence. rewrite logged_snoc. cbn [log_step].
    destruct (N.eqb_spec h' h); [contradiction|]. auto.
  Qed.

  (* -- poll -- *)

  Definition polled (h : N) (fxs : list effect) (e : engine) : engine := fst (fst (poll_internal h e fxs)).

  Lemma poll_all_spec es polls :
    let r := poll_all es polls in
    map fst (fst (fst r)) = map fst es /\
    (forall h, al_get N.eqb h (fst (fst r)) = option_map (polled h (polls h)) (al_get N.eqb h es)) /\
    (forall o, In o (snd (fst r)) <-> exists h e, In (h, e) es /\ In o (snd (run_effects h e (polls h)))) /\
    (forall ev, In ev (snd r) <-> exists h e, In (h, e) es /\ snd (poll_internal h e (polls h)) = Some ev).
  Proof.
    cbv zeta. induction es as [|[h e] es (K & G & W & V)].
    - cbn. repeat split; auto; intros; try (destruct H; fail); destruct H as (? & ? & [] & _).
    - cbn [poll_all fold_right]. fold (poll_all es polls).
      destruct (poll_all es polls) as [[es' ws] evs]. cbn [fst snd] in *.
      destruct (poll_internal_spec h e (polls h)) as (P1 & P2 & P3).
      destruct (poll_internal h e (polls h)) as [[e' w] ev] eqn:EP. cbn [fst snd] in P1, P2, P3 |- *.
      split; [cbn [map fst]; f_equal; exact K|]. split; [|split].
      + intros x. unfold al_get. cbn [find fst snd].
        change (match (if x =? h then Some e' else al_get N.eqb x es') with
                | r => r end = option_map (polled x (polls x)) (if x =? h then Some e else al_get N.eqb x es)).
        destruct (N.eqb_spec x h) as [->|NE]; [|apply G]. cbn [option_map]. unfold polled. rewrite EP. reflexivity.
      + intros o. rewrite in_app_iff, W. split.
        * intros [I|(x & ex & I & J)]; [exists h, e; split; [left; reflexivity|rewrite <- P2; exact I]|].
          exists x, ex. split; [right; exact I|exact J].
        * intros (x & ex & [E|I] & J); [injection E as <- <-; left; rewrite P2; exact J|right; eauto].
      + intros v. split.
        * intros I. assert (X : ev = Some v \/ In v evs) by (destruct ev; [destruct I as [->|I]; auto|auto]).
          destruct X as [->|X]; [exists h, e; split; [left; reflexivity|rewrite EP; reflexivity]|].
          apply V in X. destruct X as (x & ex & X & Y). exists x, ex. split; [right; exact X|exact Y].
        * intros (x & ex & [E|I] & J).
          -- injection E as <- <-. rewrite EP in J. cbn [snd] in J. rewrite J. change (In v (v :: evs)). left. reflexivity.
          -- assert (X : In v evs) by (apply V; eauto). destruct ev; [right|]; exact X.
  Qed.

  (* The node in the middle of next_event, before pruning. *)
  Definition mid (n : node) (polls : N -> list effect) : node :=
    let '(es, ws, evs) := poll_all (engines n) polls in
    mkNode es (event_queue n ++ evs) (min_kept n) (fold_left note_decision evs (last_decided n)) (wal n ++ ws).

  Definition popped_decision (n : node) (polls : N -> list effect) : bool :=
    existsb is_decision_event (snd (poll_all (engines n) polls)).

  Lemma next_event_node n polls :
    let n' := fst (next_event depth n polls) in
    let p := if popped_decision n polls then prune_old_engines depth (mid n polls) else mid n polls in
    engines n' = engines p /\ min_kept n' = min_kept p /\ wal n' = wal p /\ last_decided n' = last_decided p.
  Proof.
    cbv zeta. unfold next_event, mid, popped_decision. destruct (poll_all (engines n) polls) as [[es ws] evs]. cbn [snd].
    set (q := if existsb is_decision_event evs then _ else _).
    destruct (event_queue q); cbn [fst engines min_kept wal last_decided]; auto.
  Qed.

  Lemma inv_same S n n' : engines n' = engines n -> min_kept n' = min_kept n -> wal n' = wal n -> inv S n -> inv S n'.
  Proof. intros E1 E2 E3 [A B C D E F G]. constructor; unfold active in *; rewrite ?E1, ?E2, ?E3; assumption. Qed.

  Lemma settled_same n n' h : engines n' = engines n -> min_kept n' = min_kept n -> wal n' = wal n -> settled n h -> settled n' h.
  Proof. intros E1 E2 E3. unfold settled, active. rewrite E1, E2, E3. auto. Qed.

  Lemma mid_spec n polls :
    map fst (engines (mid n polls)) = map fst (engines n) /\
    (forall h, active (mid n polls) h = option_map (polled h (polls h)) (active n h)) /\
    min_kept (mid n polls) = min_kept n /\
    exists ws, wal (mid n polls) = wal n ++ ws /\
      (forall o, In o ws <-> exists h e, In (h, e) (engines n) /\ In o (snd (run_effects h e (polls h)))).
  Proof.
    unfold mid, active. destruct (poll_all_spec (engines n) polls) as (K & G & W & _).
    destruct (poll_all (engines n) polls) as [[es ws] evs]. cbn [fst snd engines min_kept wal] in *.
    split; [exact K|]. split; [exact G|]. split; [reflexivity|]. exists ws. split; [reflexivity|exact W].
  Qed.

  Lemma polled_decided h fxs e :
    (decided e = true -> decided (polled h fxs e) = true) /\
    (decided (polled h fxs e) = true -> decided e = true \/ exists ch v, In (WAppend h (Decision ch v)) (snd (run_effects h e fxs))) /\
    (forall ch v, In (FxDecide ch v) fxs -> decided (polled h fxs e) = true).
  Proof.
    unfold polled. destruct (poll_internal_spec h e fxs) as (P & _). rewrite P. cbn [decided].
    destruct (run_effects_spec h e fxs) as (_ & A & B & C). auto.
  Qed.

  Lemma inv_mid S n polls : inv S n -> inv S (mid n polls).
  Proof.
    intros [OK ND MIN FILE GONE KNOWN STARTED].
    destruct (mid_spec n polls) as (K & G & M & ws & EW & W).
    assert (WS : forall o, In o ws -> exists h e, active n h = Some e /\ is_append_to h o).
    { intros o I. apply W in I. destruct I as (h & e & I & J). exists h, e.
      split; [apply (al_in_get _ N.eqb_spec); assumption|].
      destruct (run_effects_spec h e (polls h)) as (F & _). rewrite Forall_forall in F. apply F, J. }
    assert (GR : Forall grows ws).
    { apply Forall_forall. intros o I. destruct (WS o I) as (h & e & _ & x & ->). exact Logic.I. }
    constructor.
    - rewrite EW. apply Forall_app. split; [exact OK|]. apply Forall_forall. intros o I.
      destruct (WS o I) as (h & e & A & x & ->). cbn [op_height]. destruct (FILE h e A) as (es & E & _).
      eapply logged_bound; eassumption.
    - rewrite K. exact ND.
    - rewrite M, K. exact MIN.
    - intros h e E. rewrite G in E. destruct (active n h) as [e0|] eqn:E0; [|discriminate].
      cbn [option_map] in E. injection E as <-. destruct (FILE h e0 E0) as (es0 & L0 & D0).
      pose proof (logged_grow ws (wal n) h GR) as LG. rewrite <- EW in LG.
      destruct (logged (wal (mid n polls)) h) as [es|]; [|destruct LG; congruence].
      exists es. split; [reflexivity|]. destruct LG as (_ & B & C). intros D.
      destruct (polled_decided h (polls h) e0) as (_ & PD & _). destruct (PD D) as [X|(ch & v & X)].
      + destruct (D0 X) as (ch & v & I). exists ch, v. eapply B; eauto.
      + exists ch, v. apply C. apply W. exists h, e0. split; [apply (al_get_in _ N.eqb_spec), E0|exact X].
    - intros h SH E. rewrite G in E. rewrite M. apply GONE; [exact SH|]. destruct (active n h); [discriminate|reflexivity].
    - intros h es E. pose proof (logged_grow ws (wal n) h GR) as LG. rewrite <- EW, E in LG.
      destruct LG as ([LG|(o & I & EO)] & _).
      + destruct (logged (wal n) h) as [es0|] eqn:E0; [eapply KNOWN, E0|congruence].
      + destruct (WS o I) as (h' & e & A & x & ->). cbn [op_height] in EO. subst h'. eapply STARTED, A.
    - intros h e E. rewrite G in E. destruct (active n h) as [e0|] eqn:E0; [|discriminate]. eapply STARTED, E0.
  Qed.

  Lemma settled_mid S n polls h : inv S n -> settled n h -> settled (mid n polls) h.
  Proof.
    intros IV. destruct (mid_spec n polls) as (K & G & M & ws & EW & W). unfold settled. rewrite G, M, EW.
    intros [(e & E & D)|(E & MM & D)].
    - left. rewrite E. eexists. split; [reflexivity|]. apply (proj1 (polled_decided h (polls h) e)), D.
    - right. rewrite E. split; [reflexivity|]. split; [exact MM|].
      rewrite logged_other; [exact D|]. intros o I EO. apply W in I. destruct I as (h' & e & I & J).
      destruct (run_effects_spec h' e (polls h')) as (F & _). rewrite Forall_forall in F.
      destruct (F _ J) as (x & ->). cbn [op_height] in EO. subst h'.
      unfold active in E. rewrite (al_in_get _ N.eqb_spec _ _ _ (i_nodup _ _ IV) I) in E. discriminate.
  Qed.

  (* -- prune -- *)

  Lemma prune_spec n :
    prune_old_engines depth n = n /\ (forall t, max_active_height n = Some t -> t < depth) \/
    exists m t, max_active_height n = Some t /\ m + depth = t /\
      min_kept (prune_old_engines depth n) = Some m /\
      engines (prune_old_engines depth n) = al_retain (fun h => m <=? h) (engines n) /\
      wal (prune_old_engines depth n) = wal n ++ map WDelete (filter (fun h => h <? m) (map fst (engines n))).
  Proof.
    unfold prune_old_engines. destruct (max_active_height n) as [t|]; [|left; split; [reflexivity|discriminate]].
    destruct (checked_sub t depth) as [m|] eqn:E.
    - right. exists m, t. apply checked_sub_some in E. cbn [min_kept engines wal]. auto.
    - left. split; [reflexivity|]. intros t' X. injection X as <-. apply checked_sub_none, E.
  Qed.

  Lemma prune_top S n m t : inv S n -> max_active_height n = Some t -> m + depth = t ->
    forall m0, min_kept n = Some m0 -> m0 <= m.
  Proof.
    intros IV MX EM m0 E. destruct (i_min _ _ IV m0 E) as (t' & I & LE).
    apply max_height_some in MX. destruct MX as [_ MX]. specialize (MX _ I). lia.
  Qed.

  Lemma inv_prune S n : inv S n -> inv S (prune_old_engines depth n).
  Proof.
    intros IV. destruct (prune_spec n) as [[-> _]|(m & t & MX & EM & E1 & E2 & E3)]; [exact IV|].
    pose proof (prune_top S n m t IV MX EM) as TOP. apply max_height_some in MX. destruct MX as [IT MX].
    destruct IV as [OK ND MIN FILE GONE KNOWN STARTED].
    assert (GET : forall h, active (prune_old_engines depth n) h = if m <=? h then active n h else None).
    { intros h. unfold active. rewrite E2. apply (al_get_retain _ N.eqb_spec). }
    assert (LG : forall h, logged (wal (prune_old_engines depth n)) h =
                           if (h <? m) && is_height_active n h then None else logged (wal n) h).
    { intros h. rewrite E3. unfold is_height_active. destruct (N.ltb_spec h m) as [L|L]; cbn [andb].
      - destruct (active n h) as [e|] eqn:E.
        + apply logged_deleted. apply filter_In. split; [|lia]. apply key_get. unfold active in E. congruence.
        + apply logged_other. intros o I. apply in_map_iff in I. destruct I as (x & <- & I). cbn [op_height].
          apply filter_In in I. destruct I as [I _]. apply key_get in I. intros ->. apply I. exact E.
      - apply logged_other. intros o I. apply in_map_iff in I. destruct I as (x & <- & I). cbn [op_height].
        apply filter_In in I. destruct I as [_ I]. lia. }
    constructor.
    - rewrite E3. apply Forall_app. split; [exact OK|]. apply Forall_forall. intros o I.
      apply in_map_iff in I. destruct I as (x & <- & I). cbn [op_height]. apply filter_In in I. destruct I as [I _].
      apply key_get in I. destruct (al_get N.eqb x (engines n)) as [e|] eqn:EX; [|congruence].
      destruct (FILE x e EX) as (es & E & _). eapply logged_bound; eassumption.
    - rewrite E2. apply al_nodup_retain, ND.
    - intros m' E. rewrite E1 in E. injection E as <-. exists t. split; [|lia].
      apply key_get. fold (active (prune_old_engines depth n) t). rewrite GET.
      destruct (N.leb_spec m t) as [_|X]; [|lia]. apply key_get in IT. exact IT.
    - intros h e E. rewrite GET in E. destruct (N.leb_spec m h) as [L|L]; [|discriminate].
      rewrite LG. destruct (N.ltb_spec h m); [lia|]. cbn [andb]. apply FILE, E.
    - intros h SH E. rewrite E1. rewrite GET in E. exists m. split; [reflexivity|].
      destruct (N.leb_spec m h) as [L|L]; [|exact L]. destruct (GONE h SH E) as (m0 & E0 & L0).
      specialize (TOP _ E0). lia.
    - intros h es E. rewrite LG in E. destruct ((h <? m) && is_height_active n h); [discriminate|]. eapply KNOWN, E.
    - intros h e E. rewrite GET in E. destruct (m <=? h); [|discriminate]. eapply STARTED, E.
  Qed.

  Lemma settled_prune S n h : inv S n -> settled n h -> settled (prune_old_engines depth n) h.
  Proof.
    intros IV ST. destruct (prune_spec n) as [[-> _]|(m & t & MX & EM & E1 & E2 & E3)]; [exact ST|].
    pose proof (prune_top S n m t IV MX EM) as TOP.
    unfold settled, active in *. rewrite E1, E2, E3, !(al_get_retain _ N.eqb_spec).
    destruct ST as [(e & E & D)|(E & (m0 & M0 & L0) & D)].
    - destruct (N.leb_spec m h) as [L|L]; [left; eauto|]. right. split; [reflexivity|]. split; [eauto|].
      intros es X. rewrite logged_deleted in X; [discriminate|]. apply filter_In. split; [|lia].
      apply key_get. congruence.
    - right. split; [destruct (m <=? h); [exact E|reflexivity]|]. specialize (TOP _ M0).
      split; [exists m; split; [reflexivity|lia]|]. rewrite logged_other; [exact D|].
      intros o I. apply in_map_iff in I. destruct I as (x & <- & I). cbn [op_height].
      apply filter_In in I. destruct I as [I _]. apply key_get in I. intros ->. contradiction.
  Qed.

  Lemma inv_next S n polls : inv S n -> inv S (fst (next_event depth n polls)).
  Proof.
    intros IV. destruct (next_event_node n polls) as (A & B & C & _).
    eapply inv_same; [exact A|exact B|exact C|]. destruct (popped_decision n polls); [apply inv_prune|]; apply inv_mid, IV.
  Qed.

  Lemma settled_next S n polls h : inv S n -> settled n h -> settled (fst (next_event depth n polls)) h.
  Proof.
    intros IV ST. destruct (next_event_node n polls) as (A & B & C & _).
    eapply settled_same; [exact A|exact B|exact C|]. pose proof (settled_mid S n polls h IV ST) as SM.
    destruct (popped_decision n polls); [|exact SM]. eapply settled_prune; [apply inv_mid, IV|exact SM].
  Qed.

  Lemma decides_next S n polls h e ch v : inv S n -> active n h = Some e -> In (FxDecide ch v) (polls h) ->
    settled (fst (next_event depth n polls)) h.
  Proof.
    intros IV E I. destruct (next_event_node n polls) as (A & B & C & _).
    eapply settled_same; [exact A|exact B|exact C|].
    assert (SM : settled (mid n polls) h).
    { left. destruct (mid_spec n polls) as (_ & G & _). rewrite G, E. eexists. split; [reflexivity|].
      eapply (proj2 (proj2 (polled_decided h (polls h) e))), I. }
    destruct (popped_decision n polls); [|exact SM]. eapply settled_prune; [apply inv_mid, IV|exact SM].
  Qed.

  (* -- restart -- *)

  Definition restored_engine (replay : N -> list effect) (h : N) (es : list wal_entry) : engine :=
    fst (run_effects h (mkEngine (existsb is_decision es) []) (replay h)).

  Lemma restore_all replay l : forall n, NoDup (map fst l) -> NoDup (map fst (engines n)) ->
    let n' := fold_left (restore replay) l n in
    NoDup (map fst (engines n')) /\
    (forall h es, In (h, es) l -> active n' h = Some (restored_engine replay h es)) /\
    (forall h, ~ In h (map fst l) -> active n' h = active n h) /\
    exists ws, wal n' = wal n ++ ws /\ Forall grows ws /\
      (forall o, In o ws -> In (op_height o) (map fst l)) /\
      (forall h, In h (map fst l) -> In (WOpen h) ws) /\
      (forall h es o, In (h, es) l ->
         In o (snd (run_effects h (mkEngine (existsb is_decision es) []) (replay h))) -> In o ws).
  Proof.
    cbv zeta. induction l as [|[h es] l IH]; intros n NDL NDE.
    - cbn [fold_left map]. split; [exact NDE|]. split; [intros ? ? []|]. split; [auto|].
      exists []. rewrite app_nil_r. split; [reflexivity|]. split; [constructor|]. split; [intros ? []|]. split; [intros ? []|intros ? ? ? []].
    - cbn [map fst] in NDL. apply NoDup_cons_iff in NDL. destruct NDL as [NI NDL]. cbn [fold_left].
      set (n1 := restore replay n (h, es)).
      assert (E1 : engines n1 = al_set N.eqb h (restored_engine replay h es) (engines n) /\
                   wal n1 = wal n ++ WOpen h :: snd (run_effects h (mkEngine (existsb is_decision es) []) (replay h))).
      { unfold n1, restore, restored_engine. destruct (run_effects h _ (replay h)). split; reflexivity. }
      destruct E1 as [E1 W1].
      destruct (IH n1 NDL) as (ND' & A & B & ws & EW & G & OH & OO & OX).
      { rewrite E1. apply (al_nodup_set _ N.eqb_spec), NDE. }
      split; [exact ND'|]. split; [|split].
      + intros x ex [E|I]; [|apply A, I]. injection E as <- <-. rewrite B by exact NI. unfold active. rewrite E1.
        apply (al_get_set_eq _ N.eqb_spec).
      + intros x NX. cbn [map fst] in NX. rewrite B by (intros I; apply NX; right; exact I).
        unfold active. rewrite E1. apply (al_get_set_neq _ N.eqb_spec). intros ->. apply NX. left. reflexivity.
      + set (w1 := snd (run_effects h (mkEngine (existsb is_decision es) []) (replay h))) in *.
        assert (AW : Forall (is_append_to h) w1).
        { unfold w1. destruct (run_effects_spec h (mkEngine (existsb is_decision es) []) (replay h)) as (F & _). exact F. }
        exists ((WOpen h :: w1) ++ ws). rewrite EW, W1, <- app_assoc. split; [reflexivity|].
        rewrite Forall_forall in AW. split; [|split; [|split]].
        * apply Forall_app. split; [|exact G]. apply Forall_cons; [exact Logic.I|].
          apply Forall_forall. intros o I. destruct (AW o I) as (x & ->). exact Logic.I.
        * intros o I. apply in_app_or in I. cbn [map fst]. destruct I as [[<-|I]|I]; [left; reflexivity| |right; apply OH, I].
          destruct (AW o I) as (x & ->). left. reflexivity.
        * intros x [<-|I]; [left; reflexivity|]. apply in_or_app. right. apply OO, I.
        * intros x ex o [E|I] X; [injection E as <- <-; apply in_or_app; left; right; exact X|].
          apply in_or_app. right. eapply OX; eauto.
  Qed.

  Hypothesis J : json_like ser de.
  Hypothesis nodash : ~ In 45 address.

  (* What a restart does, in terms of the log. *)
  Lemma recover_spec n listing hc replay : heights_ok (wal n) ->
    Permutation listing (wal_run ser address (wal n)) ->
    let n' := recover de depth listing (wal n) hc replay in
    exists m,
      min_kept n' = m /\
      (forall x, m = Some x -> exists t, logged (wal n) t <> None /\ x + depth = t) /\
      (forall x h, m = Some x -> logged (wal n) h <> None -> h <= x + depth) /\
      (forall h, m = None -> logged (wal n) h <> None -> h < depth) /\
      NoDup (map fst (engines n')) /\
      (forall h, match logged (wal n) h with
                 | None => active n' h = None
                 | Some es =>
                     if is_finalized hc h es && match m with Some x => h <? x | None => false end
                     then active n' h = None
                     else active n' h = Some (restored_engine replay h es)
                 end) /\
      exists ws, wal n' = wal n ++ ws /\ Forall grows ws /\
        (forall o, In o ws -> active n' (op_height o) <> None) /\
        (forall h es o, logged (wal n) h = Some es -> active n' h <> None ->
           In o (snd (run_effects h (mkEngine (existsb is_decision es) []) (replay h))) -> In o ws).
  Proof.
    intros OK P. cbv zeta.
    destruct (C43_recovery_returns_what_was_logged_partial ser de address (wal n) hc listing J nodash OK P) as (r & ER & F).
    unfold recover. rewrite ER. cbv zeta.
    set (top := match max_height (map fst (incomplete r ++ finalized r)) with Some m => Some m | None => highest_decision r end).
    set (m := match top with Some t => checked_sub t depth | None => None end).
    set (restored := filter (fun he => match m with Some m => m <=? fst he | None => true end) (finalized r)).
    set (n1 := fold_left (restore replay) (restored ++ incomplete r) (new_node (wal n))).
    assert (KEYS : forall h, In h (map fst (incomplete r ++ finalized r)) <-> logged (wal n) h <> None).
    { intros h. rewrite in_map_iff. split.
      - intros ([x es] & <- & I). cbn [fst]. apply in_app_or in I.
        destruct I as [I|I]; [apply (f_incomplete _ _ _ F) in I|apply (f_finalized _ _ _ F) in I]; destruct I; congruence.
      - intros NE. destruct (logged (wal n) h) as [es|] eqn:E; [|congruence]. exists (h, es). split; [reflexivity|].
        apply in_or_app. destruct (is_finalized hc h es) eqn:EF.
        + right. apply (f_finalized _ _ _ F). split; [exact E|]. apply is_finalized_spec, EF.
        + left. apply (f_incomplete _ _ _ F). split; [exact E|]. rewrite <- is_finalized_spec. congruence. }
    assert (MAXH : forall t, top = Some t ->
              (forall h, logged (wal n) h <> None -> h <= t) /\ logged (wal n) t <> None).
    { intros t ET. unfold top in ET. destruct (max_height _) as [t'|] eqn:EM.
      - injection ET as ->. apply max_height_some in EM. destruct EM as [I L].
        split; [intros h H; apply L, KEYS, H|apply KEYS, I].
      - apply max_height_none in EM. exfalso.
        destruct (proj1 (f_decision _ _ _ F t ET)) as (h & es & v & E & _).
        assert (X : In h (map fst (incomplete r ++ finalized r))) by (apply KEYS; congruence). rewrite EM in X. exact X. }
    assert (TOPN : top = None -> forall h, logged (wal n) h = None).
    { intros ET h. destruct (logged (wal n) h) as [es|] eqn:E; [|reflexivity]. exfalso.
      assert (X : In h (map fst (incomplete r ++ finalized r))) by (apply KEYS; congruence).
      unfold top in ET. destruct (max_height _) eqn:EM; [discriminate|]. apply max_height_none in EM. rewrite EM in X. exact X. }
    assert (INR : forall h es, In (h, es) (restored ++ incomplete r) <->
              logged (wal n) h = Some es /\ (is_finalized hc h es && match m with Some x => h <? x | None => false end) = false).
    { intros h es. rewrite in_app_iff. unfold restored. rewrite filter_In, (f_finalized _ _ _ F), (f_incomplete _ _ _ F).
      rewrite <- is_finalized_spec. cbn [fst]. split.
      - intros [[[A B] C]|[A B]]; split; auto.
        + rewrite B. cbn [andb]. destruct m as [x|]; [lia|reflexivity].
        + apply not_true_is_false in B. rewrite B. reflexivity.
      - intros [A B]. destruct (is_finalized hc h es) eqn:EF; cbn [andb] in B.
        + left. split; [auto|]. destruct m as [x|]; [lia|reflexivity].
        + right. split; [exact A|congruence]. }
    assert (NDL : NoDup (map fst (restored ++ incomplete r))).
    { rewrite map_app. apply NoDup_app_intro.
      - assert (SS : StronglySorted N.lt (map fst restored)) by (apply sorted_filter, (f_sorted_finalized _ _ _ F)).
        clear - SS. induction SS as [|a l SS IH FA]; constructor; [|exact IH]. intros I. rewrite Forall_forall in FA.
        specialize (FA _ I). lia.
      - pose proof (f_sorted_incomplete _ _ _ F) as SS. clear - SS.
        induction SS as [|a l SS IH FA]; constructor; [|exact IH]. intros I. rewrite Forall_forall in FA.
        specialize (FA _ I). lia.
      - intros x I1 I2. apply in_map_iff in I1. destruct I1 as ([h es] & <- & I1). cbn [fst] in I2.
        apply in_map_iff in I2. destruct I2 as ([h' es'] & E & I2). cbn [fst] in E. subst h'.
        unfold restored in I1. apply filter_In in I1. destruct I1 as [I1 _].
        apply (f_finalized _ _ _ F) in I1. apply (f_incomplete _ _ _ F) in I2. destruct I1 as [A B], I2 as [A' B'].
        rewrite A in A'. injection A' as ->. contradiction. }
    destruct (restore_all replay (restored ++ incomplete r) (new_node (wal n)) NDL (NoDup_nil _)) as (ND & A & B & ws & EW & G & OH & _ & OX).
    fold n1 in ND, A, B, EW.
    exists m. cbn [min_kept engines wal]. split; [reflexivity|]. split; [|split; [|split; [|split; [exact ND|split]]]].
    - intros x EX. unfold m in EX. destruct top as [t|] eqn:ET; [|discriminate]. apply checked_sub_some in EX.
      exists t. split; [apply (MAXH t eq_refl)|exact EX].
    - intros x h EX H. unfold m in EX. destruct top as [t|] eqn:ET; [|discriminate]. apply checked_sub_some in EX.
      rewrite EX. apply (MAXH t eq_refl), H.
    - intros h EX H. unfold m in EX. destruct top as [t|] eqn:ET; [|rewrite (TOPN eq_refl) in H; congruence].
      apply checked_sub_none in EX. destruct (MAXH t eq_refl) as [X _]. specialize (X _ H). lia.
    - intros h. change (active (mkNode (engines n1) (event_queue n1) m (highest_decision r) (wal n1)) h) with (active n1 h).
      assert (NOT : (forall es, ~ In (h, es) (restored ++ incomplete r)) -> active n1 h = None).
      { intros X. rewrite B; [reflexivity|]. intros I. apply in_map_iff in I. destruct I as ([h' es] & EH & I).
        cbn [fst] in EH. subst h'. apply (X es), I. }
      destruct (logged (wal n) h) as [es|] eqn:E.
      + destruct (is_finalized hc h es && match m with Some x => h <? x | None => false end) eqn:EC.
        * apply NOT. intros es' I. apply INR in I. destruct I as [X Y]. rewrite E in X. injection X as <-. congruence.
        * apply A. apply INR. auto.
      + apply NOT. intros es' I. apply INR in I. destruct I. congruence.
    - exists ws. split; [exact EW|]. split; [exact G|]. split.
      + intros o I. apply OH in I. apply in_map_iff in I. destruct I as ([h es] & EH & I). cbn [fst] in EH.
        rewrite <- EH. change (active n1 h <> None). rewrite (A _ _ I). discriminate.
      + intros h es o E AC I. apply (OX h es o); [|exact I].
        change (active n1 h <> None) in AC. destruct (in_dec N.eq_dec h (map fst (restored ++ incomplete r))) as [X|X].
        * apply in_map_iff in X. destruct X as ([h' es'] & EH & X). cbn [fst] in EH. subst h'.
          pose proof X as X'. apply INR in X'. destruct X' as [EL _]. rewrite E in EL. injection EL as <-. exact X.
        * exfalso. apply AC. rewrite (B h X). reflexivity.
  Qed.

  Lemma restart_min S n listing hc replay : inv S n -> Permutation listing (wal_run ser address (wal n)) ->
    forall m0, min_kept n = Some m0 -> exists m, min_kept (recover de depth listing (wal n) hc replay) = Some m /\ m0 <= m.
  Proof.
    intros IV P m0 E0. destruct (recover_spec n listing hc replay (i_ok _ _ IV) P) as (m & EM & M1 & M2 & M3 & _).
    destruct (i_min _ _ IV m0 E0) as (t & IT & LE).
    assert (LT : logged (wal n) t <> None).
    { apply key_get in IT. destruct (al_get N.eqb t (engines n)) as [e|] eqn:E; [|congruence].
      destruct (i_file _ _ IV t e E) as (es & X & _). congruence. }
    destruct m as [x|].
    - exists x. split; [exact EM|]. specialize (M2 x t eq_refl LT). lia.
    - specialize (M3 t eq_refl LT). lia.
  Qed.

  Lemma inv_restart S n listing hc replay : inv S n -> Permutation listing (wal_run ser address (wal n)) ->
    inv S (recover de depth listing (wal n) hc replay).
  Proof.
    intros IV P. pose proof (restart_min S n listing hc replay IV P) as RM.
    destruct (recover_spec n listing hc replay (i_ok _ _ IV) P) as (m & EM & M1 & M2 & M3 & ND & ACT & ws & EW & G & OH & OX).
    destruct IV as [OK ND0 MIN FILE GONE KNOWN STARTED].
    set (n' := recover de depth listing (wal n) hc replay) in *.
    assert (LA : forall h e, active n' h = Some e -> exists es, logged (wal n) h = Some es /\ e = restored_engine replay h es).
    { intros h e E. specialize (ACT h). destruct (logged (wal n) h) as [es|]; [|congruence].
      destruct (is_finalized hc h es && _); [congruence|]. exists es. split; [reflexivity|congruence]. }
    constructor.
    - rewrite EW. apply Forall_app. split; [exact OK|]. apply Forall_forall. intros o I.
      specialize (OH o I). destruct (active n' (op_height o)) as [e|] eqn:E; [|congruence].
      destruct (LA _ _ E) as (es & L & _). eapply logged_bound; eassumption.
    - exact ND.
    - intros x EX. rewrite EM in EX. destruct (M1 x EX) as (t & LT & E). exists t. split; [|lia].
      apply key_get. specialize (ACT t). destruct (logged (wal n) t) as [es|]; [|congruence].
      rewrite EX in ACT. destruct (N.ltb_spec t x) as [X|X]; [lia|]. rewrite andb_false_r in ACT. fold (active n' t). congruence.
    - intros h e E. destruct (LA h e E) as (es & L & ->).
      pose proof (logged_grow ws (wal n) h G) as LG. rewrite <- EW in LG.
      destruct (logged (wal n') h) as [es'|]; [|destruct LG; congruence]. destruct LG as (_ & B & C).
      exists es'. split; [reflexivity|]. intros D. unfold restored_engine in D.
      destruct (run_effects_spec h (mkEngine (existsb is_decision es) []) (replay h)) as (_ & _ & X & _).
      destruct (X D) as [Y|(ch & v & Y)].
      + cbn [decided] in Y. apply existsb_decision in Y. destruct Y as (ch & v & I). exists ch, v. eapply B; eauto.
      + exists ch, v. apply C. eapply OX; [exact L|congruence|exact Y].
    - intros h SH E. destruct (active n h) as [e0|] eqn:E0.
      + destruct (FILE h e0 E0) as (es & L & _). specialize (ACT h). rewrite L in ACT.
        destruct (is_finalized hc h es && match m with Some x => h <? x | None => false end) eqn:EC; [|congruence].
        apply andb_true_iff in EC. destruct EC as [_ EC]. destruct m as [x|]; [|discriminate].
        exists x. split; [exact EM|lia].
      + destruct (GONE h SH E0) as (m0 & EM0 & L0). destruct (RM m0 EM0) as (x & EX & LE). exists x. split; [exact EX|lia].
    - intros h es E. pose proof (logged_grow ws (wal n) h G) as LG. rewrite <- EW, E in LG.
      destruct LG as ([LG|(o & I & EO)] & _).
      + destruct (logged (wal n) h) as [es0|] eqn:E0; [eapply KNOWN, E0|congruence].
      + specialize (OH o I). rewrite EO in OH. destruct (active n' h) as [e|] eqn:EA; [|congruence].
        destruct (LA h e EA) as (es0 & L & _). eapply KNOWN, L.
    - intros h e E. destruct (LA h e E) as (es & L & _). eapply KNOWN, L.
  Qed.

  Lemma settled_restart S n listing hc replay h : inv S n -> Permutation listing (wal_run ser address (wal n)) ->
    settled n h -> settled (recover de depth listing (wal n) hc replay) h.
  Proof.
    intros IV P ST. pose proof (restart_min S n listing hc replay IV P) as RM.
    destruct (recover_spec n listing hc replay (i_ok _ _ IV) P) as (m & EM & M1 & M2 & M3 & ND & ACT & ws & EW & G & OH & OX).
    set (n' := recover de depth listing (wal n) hc replay) in *.
    assert (HD : forall es, logged (wal n) h = Some es -> has_decision es).
    { destruct ST as [(e & E & D)|(_ & _ & X)]; [|exact X]. destruct (i_file _ _ IV h e E) as (es0 & L & Y).
      intros es X. rewrite L in X. injection X as <-. auto. }
    specialize (ACT h). unfold settled.
    destruct (logged (wal n) h) as [es|] eqn:EL.
    - assert (FI : is_finalized hc h es = true) by (apply is_finalized_spec; left; apply HD; reflexivity).
      rewrite FI in ACT. cbn [andb] in ACT.
      destruct (match m with Some x => h <? x | None => false end) eqn:EC.
      + right. split; [exact ACT|]. destruct m as [x|]; [|discriminate]. split; [exists x; split; [exact EM|lia]|].
        intros es' E. rewrite EW, logged_other in E.
        * rewrite EL in E. injection E as <-. apply HD. reflexivity.
        * intros o I EO. apply (OH o I). rewrite EO. exact ACT.
      + left. eexists. split; [exact ACT|]. unfold restored_engine.
        destruct (run_effects_spec h (mkEngine (existsb is_decision es) []) (replay h)) as (_ & X & _).
        apply X. cbn [decided]. apply existsb_decision, HD. reflexivity.
    - right. split; [exact ACT|]. destruct ST as [(e & E & D)|(_ & (m0 & E0 & L0) & _)].
      + destruct (i_file _ _ IV h e E) as (es & L & _). congruence.
      + destruct (RM m0 E0) as (x & EX & LE). split; [exists x; split; [exact EX|lia]|].
        intros es E. rewrite EW, logged_other in E; [congruence|]. intros o I EO. apply (OH o I). rewrite EO. exact ACT.
  Qed.

  Lemma decides_restart S n listing hc replay h e ch v : inv S n -> Permutation listing (wal_run ser address (wal n)) ->
    active (recover de depth listing (wal n) hc replay) h = Some e -> In (FxDecide ch v) (replay h) ->
    settled (recover de depth listing (wal n) hc replay) h.
  Proof.
    intros IV P E I. left. exists e. split; [exact E|].
    destruct (recover_spec n listing hc replay (i_ok _ _ IV) P) as (m & EM & M1 & M2 & M3 & ND & ACT & _).
    specialize (ACT h). destruct (logged (wal n) h) as [es|]; [|congruence].
    destruct (is_finalized hc h es && _); [congruence|]. rewrite E in ACT. injection ACT as ->.
    unfold restored_engine. destruct (run_effects_spec h (mkEngine (existsb is_decision es) []) (replay h)) as (_ & _ & _ & X).
    eapply X, I.
  Qed.

  (* -- runs -- *)

  Lemma inv_step S n o n' : inv S n -> node_step ser de address depth n o n' ->
    inv (fun x => S x \/ o = OStart x) n'.
  Proof.
    intros IV ST. inversion ST; subst.
    - destruct (inv_start S n h IV H) as [A B C D E F G]. constructor; auto.
      + intros x [X|X]; [auto|injection X as ->; auto].
      + intros x es X. destruct (F x es X) as [Y| ->]; auto.
      + intros x e X. destruct (G x e X) as [Y| ->]; auto.
    - destruct IV as [A B C D E F G]. constructor; auto; intros x y; try (left; eauto; fail).
      intros X. destruct y as [y|y]; [auto|discriminate].
    - destruct (inv_next S n polls IV) as [A B C D E F G]. constructor; auto.
      + intros x [X|X]; [auto|discriminate].
      + intros x es X. left. eapply F, X.
      + intros x e X. left. eapply G, X.
    - destruct (inv_restart S n listing hc replay IV H) as [A B C D E F G]. constructor; auto.
      + intros x [X|X]; [auto|discriminate].
      + intros x es X. left. eapply F, X.
      + intros x e X. left. eapply G, X.
  Qed.

  Lemma inv_ext S S' n : (forall x, S x <-> S' x) -> inv S n -> inv S' n.
  Proof.
    intros E [A B C D F G H]. constructor; auto.
    - intros h X. apply F, E, X.
    - intros h es X. apply E. eapply G, X.
    - intros h e X. apply E. eapply H, X.
  Qed.

  Lemma inv_run S n tr n' : node_run ser de address depth n tr n' -> inv S n ->
    inv (fun x => S x \/ In (OStart x) tr) n'.
  Proof.
    intros R. revert S. induction R as [n|n o n1 tr n2 ST R IH]; intros S IV.
    - eapply inv_ext; [|exact IV]. intros x. simpl. tauto.
    - eapply inv_ext; [|apply IH, (inv_step _ _ _ _ IV ST)]. intros x. simpl. tauto.
  Qed.

  Lemma settled_run S n tr n' h : node_run ser de address depth n tr n' -> inv S n ->
    settled n h -> ~ In (OStart h) tr -> settled n' h.
  Proof.
    intros R. revert S. induction R as [n|n o n1 tr n2 ST R IH]; intros S IV SE NI; [exact SE|].
    eapply IH; [eapply inv_step; eassumption| |intros I; apply NI; right; exact I].
    inversion ST; subst.
    - apply settled_start; [|exact SE]. intros ->. apply NI. left. reflexivity.
    - exact SE.
    - eapply settled_next; eassumption.
    - eapply settled_restart; eassumption.
  Qed.

  Lemma run_app n tr1 n1 tr2 n2 : node_run ser de address depth n tr1 n1 -> node_run ser de address depth n1 tr2 n2 ->
    node_run ser de address depth n (tr1 ++ tr2) n2.
  Proof. induction 1; intros R; [exact R|]. simpl. econstructor; eauto. Qed.
End Proof.
