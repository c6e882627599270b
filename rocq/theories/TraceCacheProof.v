(** Invariants of the cache of block traces. *)
From Coq Require Import List Bool NArith Lia ZifyBool ZifyN.
From Verif Require Import TraceCacheModel TraceCacheSpec.
Import ListNotations.
Local Open Scope N_scope.

Lemma key_eqb_spec a b : reflect (a = b) (key_eqb a b).
Proof.
  destruct a as [h1 f1], b as [h2 f2]. unfold key_eqb. cbn.
  destruct (N.eqb_spec h1 h2), (Bool.eqb_spec f1 f2); cbn; constructor; congruence.
Qed.
Lemma run_snoc l a : run (l ++ [a]) = step (run l) a.
Proof. unfold run. rewrite fold_left_app. reflexivity. Qed.
Lemma computed_snoc l a k r : computed l k r -> computed (l ++ [a]) k r.
Proof. intros (l1 & j & l2 & -> & C). exists l1, j, (l2 ++ [a]). rewrite <- app_assoc. auto. Qed.
Lemma computed_now l k r j : s_call (run l) j = Some (k, Executing) -> computed (l ++ [Finish j r]) k r.
Proof. intros C. exists l, j, []. auto. Qed.

Record good (P : key -> result -> Prop) (s : state) : Prop := {
  g_cached : forall k r, s_cache s k = Some (Cached r) -> P k r;
  g_inflight : forall k c, s_cache s k = Some (Inflight c) ->
    exists x, s_call s c = Some (k, x) /\ (x = Executing \/ s_chan s c = Closed);
  g_exec : forall i k, s_call s i = Some (k, Executing) -> s_chan s i = Open;
  g_none : forall i, s_call s i = None -> s_chan s i = Open;
  g_sent : forall i r, s_chan s i = Sent r -> exists k x, s_call s i = Some (k, x) /\ P k r;
  g_wait : forall i k c late, s_call s i = Some (k, Waiting c late) ->
    late = false /\ exists x, s_call s c = Some (k, x) /\ (s_chan s c = Open -> x = Executing);
  g_answer : forall i k r, s_call s i = Some (k, Returned (Answer r)) -> P k r }.

Lemma good_mono (P Q : key -> result -> Prop) s : (forall k r, P k r -> Q k r) -> good P s -> good Q s.
Proof.
  intros H [A B C D E F G]. constructor; auto; eauto.
  intros i r S. destruct (E i r S) as (k & x & ? & ?). eauto 6.
Qed.

Ltac keys := repeat match goal with
  | |- context [key_eqb ?a ?b] => destruct (key_eqb_spec a b)
  | H : context [key_eqb ?a ?b] |- _ => destruct (key_eqb_spec a b)
  | |- context [?a =? ?b] => destruct (N.eqb_spec a b)
  | H : context [?a =? ?b] |- _ => destruct (N.eqb_spec a b)
  end; subst.

(* a call changes its status and, if it was executing, its channel *)
Lemma good_end P s i k c v :
  good P s -> s_call s i = Some (k, Executing) ->
  (c = Closed \/ exists r, c = Sent r /\ P k r) ->
  (v = None \/ (c = Closed /\ v = s_cache s k) \/ exists r, v = Some (Cached r) /\ P k r) ->
  good P (set_cache k v (set_chan i c (set_call i k
            (Returned (match c with Sent r => Answer r | _ => Internal end)) s))).
Proof.
  intros [A B C D E F G] X HC HV.
  assert (CO : c <> Open) by (destruct HC as [->|(r & -> & _)]; discriminate).
  constructor; cbn [set_cache set_chan set_call s_cache s_chan s_call].
  - intros k' r. keys; [|apply A]. intros ->. destruct HV as [HV|[[_ HV]|(r' & HV & P')]]; try discriminate.
    + apply A. congruence.
    + congruence.
  - intros k' c'. destruct (key_eqb_spec k k') as [<-|NE].
    + intros ->. destruct HV as [HV|[[-> HV]|(r' & HV & P')]]; try discriminate. symmetry in HV.
      destruct (B _ _ HV) as (x & S & O). destruct (N.eqb_spec i c') as [<-|].
      * eexists. split; [reflexivity|]. auto.
      * eauto.
    + intros S. destruct (B _ _ S) as (x & S' & O). destruct (N.eqb_spec i c') as [<-|]; [congruence|eauto].
  - intros j k'. destruct (N.eqb_spec i j) as [<-|]; [discriminate|apply C].
  - intros j. destruct (N.eqb_spec i j) as [<-|]; [discriminate|apply D].
  - intros j r. destruct (N.eqb_spec i j) as [<-|]; [|apply E]. intros ->.
    destruct HC as [HC|(r' & HC & P')]; [discriminate|]. injection HC as <-. eauto.
  - intros j k' ch late. destruct (N.eqb_spec i j) as [<-|]; [discriminate|]. intros S.
    destruct (F _ _ _ _ S) as (L & x & S' & O). split; [exact L|].
    destruct (N.eqb_spec i ch) as [<-|]; [|eauto].
    rewrite X in S'. injection S' as <- <-. eexists. split; [reflexivity|]. intros ->. now elim CO.
  - intros j k' r. destruct (N.eqb_spec i j) as [<-|]; [|apply G]. intros S.
    destruct c as [|r'|]; try discriminate. injection S as <- <-.
    destruct HC as [HC|(r'' & HC & P')]; [discriminate|]. congruence.
Qed.

(* a call starts, or a waiting call returns; channels and executing calls stay *)
Lemma good_status P s i k x :
  good P s ->
  (s_call s i = None \/ exists c late, s_call s i = Some (k, Waiting c late)) ->
  match x with
  | Executing => False
  | Waiting c late => late = false /\ c <> i /\ exists y, s_call s c = Some (k, y) /\ (s_chan s c = Open -> y = Executing)
  | Returned (Answer r) => P k r
  | Returned Internal => True
  end ->
  (s_call s i = None -> x <> Returned Internal) ->
  (match s_call s i with None => forall c k' y, s_call s c = Some (k', Waiting i y) -> False | _ => True end) ->
  good P (set_call i k x s).
Proof.
  intros [A B C D E F G] O X NI NW. 
  assert (NE : s_call s i <> Some (k, Executing)) by (destruct O as [->|(c & late & ->)]; discriminate).
  assert (NS : forall j, j <> i -> (if i =? j then Some (k, x) else s_call s j) = s_call s j).
  { intros j N. destruct (N.eqb_spec i j); [now elim N|reflexivity]. }
  constructor; cbn [set_call s_cache s_chan s_call].
  - exact A.
  - intros k' c S. destruct (B _ _ S) as (y & S' & O'). destruct (N.eqb_spec i c) as [<-|]; [|eauto].
    destruct O as [O|(c' & late & O)]; [congruence|]. rewrite O in S'. injection S' as <- <-.
    destruct O' as [O'|O']; [discriminate|]. eauto.
  - intros j k'. destruct (N.eqb_spec i j) as [<-|]; [|apply C]. intros S. injection S as _ ->. destruct X.
  - intros j. destruct (N.eqb_spec i j) as [<-|]; [discriminate|apply D].
  - intros j r S. destruct (E _ _ S) as (k' & y & S' & P'). destruct (N.eqb_spec i j) as [<-|]; [|eauto].
    destruct O as [O|(c' & late & O)]; [congruence|]. rewrite O in S'. injection S' as <- <-. eauto.
  - intros j k' ch late. destruct (N.eqb_spec i j) as [<-|].
    + intros S. injection S as <- ->. destruct X as (L & NI' & y & S' & O'). split; [exact L|].
      rewrite NS by auto. eauto.
    + intros S. destruct (F _ _ _ _ S) as (L & y & S' & O'). split; [exact L|].
      destruct (N.eqb_spec i ch) as [<-|]; [|eauto].
      destruct O as [O|(c' & l' & O)].
      * rewrite O in S'. discriminate.
      * rewrite O in S'. injection S' as <- <-. eexists. split; [reflexivity|]. intros OP. discriminate (O' OP).
  - intros j k' r. destruct (N.eqb_spec i j) as [<-|]; [|apply G]. intros S. injection S as <- ->. exact X.
Qed.

Lemma good_step P s a :
  good P s ->
  (forall i r k, a = Finish i r -> s_call s i = Some (k, Executing) -> P k r) ->
  good P (step s a).
Proof.
  intros G H. assert (GG := G). destruct G as [A B C D E F An]. destruct a as [i k|i r|i|i|i|k]; cbn [step].
  - destruct (s_call s i) as [x|] eqn:SI; [exact GG|].
    assert (NW : forall j k' y, s_call s j = Some (k', Waiting i y) -> False).
    { intros j k' y S. destruct (F _ _ _ _ S) as (_ & z & S' & _). congruence. }
    destruct (s_cache s k) as [[c|r]|] eqn:SC.
    + destruct (B _ _ SC) as (x & S & O).
      assert (NS : match s_chan s c with Sent _ => true | _ => false end = false).
      { destruct O as [->|O]; [rewrite (C _ _ S)|rewrite O]; reflexivity. }
      rewrite NS. apply good_status; auto; try discriminate; try now rewrite SI.
      split; [reflexivity|]. split; [congruence|]. exists x. split; [exact S|].
      intros OP. destruct O as [O|O]; [exact O|congruence].
    + apply good_status; auto; try discriminate; now rewrite SI.
    + constructor; cbn [set_cache set_call s_cache s_chan s_call].
      * intros k' r. destruct (key_eqb_spec k k'); [discriminate|apply A].
      * intros k' c. destruct (key_eqb_spec k k') as [<-|].
        -- intros S. injection S as <-. rewrite N.eqb_refl. eauto.
        -- intros S. destruct (B _ _ S) as (x & S' & O). destruct (N.eqb_spec i c) as [<-|]; [congruence|eauto].
      * intros j k'. destruct (N.eqb_spec i j) as [<-|]; [intros _; apply D; exact SI|apply C].
      * intros j. destruct (N.eqb_spec i j) as [<-|]; [discriminate|apply D].
      * intros j r S. destruct (E _ _ S) as (k' & x & S' & P'). destruct (N.eqb_spec i j) as [<-|]; [congruence|eauto].
      * intros j k' c late. destruct (N.eqb_spec i j) as [<-|]; [discriminate|]. intros S.
        destruct (F _ _ _ _ S) as (L & x & S' & O). split; [exact L|].
        destruct (N.eqb_spec i c) as [<-|]; [congruence|eauto].
      * intros j k' r. destruct (N.eqb_spec i j) as [<-|]; [discriminate|apply An].
  - destruct (s_call s i) as [[k [|c l|x]]|] eqn:SI; try exact GG.
    assert (PR := H i r k eq_refl SI).
    apply (good_end P s i k (Sent r) (Some (Cached r)) GG SI); eauto.
  - destruct (s_call s i) as [[k [|c l|x]]|] eqn:SI; try exact GG.
    apply (good_end P s i k Closed None GG SI); auto.
  - destruct (s_call s i) as [[k [|c l|x]]|] eqn:SI; try exact GG.
    pose proof (good_end P s i k Closed (s_cache s k) GG SI (or_introl eq_refl) (or_intror (or_introl (conj eq_refl eq_refl)))) as Q.
    destruct Q as [A' B' C' D' E' F' G'].
    cbn [set_cache set_chan set_call s_cache s_chan s_call] in *.
    assert (KK : forall k', (if key_eqb k k' then s_cache s k else s_cache s k') = s_cache s k').
    { intros k'. destruct (key_eqb_spec k k') as [<-|]; reflexivity. }
    constructor; cbn [set_cache set_chan set_call s_cache s_chan s_call]; try assumption.
    intros k' r S. apply B'. rewrite KK. exact S.
  - destruct (s_call s i) as [[k [|c l|x]]|] eqn:SI; try exact GG.
    destruct (F _ _ _ _ SI) as (-> & x & S' & O).
    destruct (s_chan s c) as [|r|] eqn:SC; [exact GG| |].
    + apply good_status; eauto; try congruence; try now rewrite SI.
      destruct (E _ _ SC) as (k' & y & S'' & P'). rewrite S' in S''. injection S'' as <- <-. exact P'.
    + apply good_status; eauto; try congruence; now rewrite SI.
  - constructor; cbn [set_cache s_cache s_chan s_call]; auto.
    + intros k' r. destruct (key_eqb_spec k k'); [discriminate|apply A].
    + intros k' r. destruct (key_eqb_spec k k'); [discriminate|apply B].
Qed.

Lemma good_initial P : good P initial.
Proof. constructor; cbn; intros; discriminate || reflexivity. Qed.

Lemma run_good l : good (computed l) (run l).
Proof.
  induction l as [|a l IH] using rev_ind; [apply good_initial|]. rewrite run_snoc.
  apply good_step.
  - eapply good_mono; [|exact IH]. intros k r. apply computed_snoc.
  - intros i r k -> S. now apply computed_now.
Qed.

(* ---- nothing fails ---- *)
Lemma unfailing_snoc l a : unfailing (l ++ [a]) -> unfailing l /\ unfailing [a].
Proof. intros U. split; intros x I; apply U; apply in_app_iff; auto. Qed.
Lemma unfailing_open l : unfailing l ->
  (forall i, s_chan (run l) i <> Closed) /\
  (forall i k x, s_call (run l) i = Some (k, x) -> x <> Returned Internal).
Proof.
  induction l as [|a l IH] using rev_ind; intros U; [split; cbn; intros; discriminate|].
  apply unfailing_snoc in U. destruct U as [U UA]. destruct (IH U) as [O N]. clear IH.
  assert (GD := run_good l). specialize (UA a (or_introl eq_refl)).
  rewrite run_snoc. destruct a as [i k|i r|i|i|i|k]; cbn [step] in *; try contradiction.
  - destruct (s_call (run l) i) as [x|] eqn:SI; [auto|].
    destruct (s_cache (run l) k) as [[c|r]|]; cbn [set_cache set_call s_chan s_call]; split; auto; intros j k' y;
      (destruct (N.eqb_spec i j) as [<-|]; [|apply N]; intros S; injection S as <- <-; discriminate).
  - destruct (s_call (run l) i) as [[k [|c late|x]]|] eqn:SI; auto.
    cbn [set_cache set_call set_chan s_chan s_call]. split.
    + intros j. destruct (N.eqb_spec i j) as [<-|]; [discriminate|apply O].
    + intros j k' y. destruct (N.eqb_spec i j) as [<-|]; [|apply N]. intros S; injection S as <- <-; discriminate.
  - destruct (s_call (run l) i) as [[k [|c late|x]]|] eqn:SI; auto.
    destruct (g_wait _ _ GD _ _ _ _ SI) as (-> & _).
    destruct (s_chan (run l) c) as [|r|] eqn:SC; [auto| |now elim (O c)].
    cbn [set_call s_chan s_call]. split; [exact O|].
    intros j k' y. destruct (N.eqb_spec i j) as [<-|]; [|apply N]. intros S; injection S as <- <-; discriminate.
  - auto.
Qed.

(* ---- one execution ---- *)
Lemma executed_snoc l a i k : executed (l ++ [a]) i k ->
  executed l i k \/ s_call (run (l ++ [a])) i = Some (k, Executing).
Proof.
  intros (l1 & l2 & E & S). destruct l2 as [|b l2] using rev_ind.
  - rewrite app_nil_r in E. subst l1. auto.
  - rewrite app_assoc in E. apply app_inj_tail in E. destruct E as [-> _]. left. exists l1, l2. auto.
Qed.
Lemma executed_now l i k : s_call (run l) i = Some (k, Executing) -> executed l i k.
Proof. intros S. exists l, []. rewrite app_nil_r. auto. Qed.
Lemma undisturbed_once l : undisturbed l ->
  (forall i k, executed l i k -> s_cache (run l) k <> None) /\
  (forall i j k, executed l i k -> executed l j k -> i = j).
Proof.
  induction l as [|a l IH] using rev_ind; intros U.
  - split.
    + intros i k (l1 & l2 & E & S). destruct l1; [discriminate|discriminate].
    + intros i j k (l1 & l2 & E & S). destruct l1; [discriminate|discriminate].
  - destruct IH as [H1 H2]. { intros x I. apply U. apply in_app_iff. auto. }
    specialize (U a ltac:(apply in_app_iff; right; left; reflexivity)).
    assert (K : forall k, s_cache (run l) k <> None -> s_cache (run (l ++ [a])) k <> None).
    { intros k N. rewrite run_snoc. destruct a as [i k'|i r|i|i|i|k']; cbn [step]; try contradiction.
      - destruct (s_call (run l) i); [exact N|]. destruct (s_cache (run l) k') as [[c|r]|]; cbn; auto.
        destruct (key_eqb_spec k' k); [discriminate|exact N].
      - destruct (s_call (run l) i) as [[k' [|c late|x]]|]; auto. cbn. destruct (key_eqb_spec k' k); [discriminate|exact N].
      - destruct (s_call (run l) i) as [[k' [|c late|x]]|]; auto. destruct (s_chan (run l) c); auto. }
    assert (X : forall i k, s_call (run (l ++ [a])) i = Some (k, Executing) ->
                executed l i k \/ (a = Call i k /\ s_cache (run l) k = None)).
    { intros i k. rewrite run_snoc. intros S.
      destruct a as [j k'|j r|j|j|j|k']; cbn [step] in S; try contradiction.
      - destruct (s_call (run l) j) eqn:SJ; [left; now apply executed_now|].
        destruct (s_cache (run l) k') as [[c|r]|] eqn:SC; cbn in S; destruct (N.eqb_spec j i) as [<-|];
          try discriminate; try (left; now apply executed_now). injection S as <-. auto.
      - destruct (s_call (run l) j) as [[k' [|c late|x]]|] eqn:SJ; try (left; now apply executed_now).
        cbn in S. destruct (N.eqb_spec j i); [discriminate|left; now apply executed_now].
      - destruct (s_call (run l) j) as [[k' [|c late|x]]|] eqn:SJ; try (left; now apply executed_now).
        destruct (s_chan (run l) c); cbn in S; try (left; now apply executed_now);
        destruct (N.eqb_spec j i); try discriminate; left; now apply executed_now. }
    assert (Y : forall i k, executed (l ++ [a]) i k -> executed l i k \/ (a = Call i k /\ s_cache (run l) k = None)).
    { intros i k E. apply executed_snoc in E. destruct E as [E|E]; [auto|now apply X]. }
    split.
    + intros i k E. assert (E' := E). apply Y in E. destruct E as [E|[-> E]]; [apply K; eapply H1; eauto|].
      apply executed_snoc in E'. destruct E' as [E'|E']; [apply K; eapply H1; eauto|].
      rewrite run_snoc in *. cbn [step] in *. destruct (s_call (run l) i) eqn:SI; [eapply H1; eapply executed_now; eauto|].
      rewrite E. cbn. destruct (key_eqb_spec k k) as [_|NE]; [discriminate|now elim NE].
    + intros i j k E1 E2. apply Y in E1. apply Y in E2.
      destruct E1 as [E1|[-> E1]], E2 as [E2|[Q2 E2]]; eauto.
      * subst. now elim (H1 _ _ E1).
      * now elim (H1 _ _ E2).
      * congruence.
Qed.

(* ---- a call that was abandoned ---- *)
Definition dead (k : key) (c : N) (s : state) : Prop :=
  s_cache s k = Some (Inflight c) /\ s_chan s c = Closed /\
  s_call s c = Some (k, Returned Internal) /\
  (forall i x, s_call s i = Some (k, x) -> x = Returned Internal \/ x = Waiting c false).

Lemma dead_step k c s a : a <> Evict k -> dead k c s -> dead k c (step s a).
Proof.
  intros NE D. assert (DD := D). destruct D as (A & B & C & D).
  destruct a as [i k'|i r|i|i|i|k']; cbn [step].
  - destruct (s_call s i) eqn:SI; [exact DD|].
    assert (NI : i <> c) by congruence.
    destruct (key_eqb_spec k k') as [<-|NK].
    + rewrite A, B. unfold dead. cbn [set_call s_cache s_chan s_call].
      destruct (N.eqb_spec i c) as [|_]; [contradiction|]. split; [exact A|]. split; [exact B|]. split; [exact C|].
      intros j x. destruct (N.eqb_spec i j); [intros S; injection S as <-; auto|apply D].
    + assert (Q : forall y, dead k c (set_call i k' y s)).
      { intros y. unfold dead. cbn [set_call s_cache s_chan s_call].
        destruct (N.eqb_spec i c) as [|_]; [contradiction|]. split; [exact A|]. split; [exact B|]. split; [exact C|].
        intros j x. destruct (N.eqb_spec i j); [intros S; injection S as S _; congruence|apply D]. }
      destruct (s_cache s k') as [[d|r]|]; try apply Q.
      destruct (Q Executing) as (A' & B' & C' & D'). unfold dead.
      cbn [set_cache s_cache s_chan s_call]. destruct (key_eqb_spec k' k); [congruence|]. auto.
  - destruct (s_call s i) as [[k' [|d late|x]]|] eqn:SI; try exact DD.
    assert (NI : i <> c) by congruence. assert (NK : k' <> k) by (intros ->; destruct (D _ _ SI); discriminate).
    unfold dead. cbn [set_cache set_chan set_call s_cache s_chan s_call].
    destruct (key_eqb_spec k' k) as [|_]; [contradiction|]. destruct (N.eqb_spec i c) as [|_]; [contradiction|].
    split; [exact A|]. split; [exact B|]. split; [exact C|].
    intros j x. destruct (N.eqb_spec i j); [intros S; injection S as S _; contradiction|apply D].
  - destruct (s_call s i) as [[k' [|d late|x]]|] eqn:SI; try exact DD.
    assert (NI : i <> c) by congruence. assert (NK : k' <> k) by (intros ->; destruct (D _ _ SI); discriminate).
    unfold dead. cbn [set_cache set_chan set_call s_cache s_chan s_call].
    destruct (key_eqb_spec k' k) as [|_]; [contradiction|]. destruct (N.eqb_spec i c) as [|_]; [contradiction|].
    split; [exact A|]. split; [exact B|]. split; [exact C|].
    intros j x. destruct (N.eqb_spec i j); [intros S; injection S as S _; contradiction|apply D].
  - destruct (s_call s i) as [[k' [|d late|x]]|] eqn:SI; try exact DD.
    assert (NI : i <> c) by congruence. assert (NK : k' <> k) by (intros ->; destruct (D _ _ SI); discriminate).
    unfold dead. cbn [set_cache set_chan set_call s_cache s_chan s_call].
    destruct (N.eqb_spec i c) as [|_]; [contradiction|].
    split; [exact A|]. split; [exact B|]. split; [exact C|].
    intros j x. destruct (N.eqb_spec i j); [intros S; injection S as S _; contradiction|apply D].
  - destruct (s_call s i) as [[k' [|d late|x]]|] eqn:SI; try exact DD.
    assert (NI : i <> c) by congruence.
    assert (Q : forall y, (k' = k -> y = Returned Internal) -> dead k c (set_call i k' y s)).
    { intros y Y. unfold dead. cbn [set_call s_cache s_chan s_call].
      destruct (N.eqb_spec i c) as [|_]; [contradiction|]. split; [exact A|]. split; [exact B|]. split; [exact C|].
      intros j x. destruct (N.eqb_spec i j); [intros S; injection S as -> <-; left; now apply Y|apply D]. }
    destruct (s_chan s d) as [|r|] eqn:SD; [exact DD| |]; apply Q; intros ->; auto.
    destruct (D _ _ SI) as [Z|Z]; [discriminate|]. injection Z as -> ->. congruence.
  - unfold dead. cbn [set_cache s_cache s_chan s_call]. destruct (key_eqb_spec k' k) as [->|]; [now elim NE|exact DD].
Qed.
Lemma dead_run k c l s : (forall a, In a l -> a <> Evict k) -> dead k c s -> dead k c (fold_left step l s).
Proof.
  revert s. induction l as [|a l IH]; intros s NE D; [exact D|]. cbn [fold_left]. apply IH.
  - intros b I. apply NE. now right.
  - apply dead_step; [apply NE; now left|exact D].
Qed.
Lemma dead_start k i : dead k i (run [Call i k; Abandon i]).
Proof.
  unfold run. cbn. rewrite N.eqb_refl. unfold dead. cbn. rewrite N.eqb_refl.
  destruct (key_eqb_spec k k) as [_|NE]; [|now elim NE]. repeat split.
  intros j x. destruct (N.eqb_spec i j); [intros S; injection S as <-; auto|discriminate].
Qed.
