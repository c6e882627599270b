(* Proofs about header sync.  No statement here is a property. *)
From Coq Require Import List Arith NArith Bool Lia ZifyBool ZifyNat.
From Verif Require Import HeaderSyncModel HeaderSyncSpec.
Import ListNotations.

#[local] Arguments Nat.ltb : simpl never.
#[local] Arguments Nat.leb : simpl never.
#[local] Arguments Nat.eqb : simpl never.

Lemma hash_eqb_true a b : hash_eqb a b = true <-> a = b.
Proof. unfold hash_eqb. destruct (list_eq_dec N.eq_dec a b); split; congruence. Qed.
Lemma hash_eqb_false a b : hash_eqb a b = false <-> a <> b.
Proof. unfold hash_eqb. destruct (list_eq_dec N.eq_dec a b); split; congruence. Qed.

(* ---- the table ---- *)
Definition stored (t : table) (n : nat) : Prop := exists h, In h t /\ h_number h = n.
Definition unique (t : table) : Prop := forall g h, In g t -> In h t -> h_number g = h_number h -> g = h.

Lemma has_stored t n : has t n = true <-> stored t n.
Proof.
  unfold has, stored. rewrite existsb_exists. split; intros (h & H1 & H2); exists h; split; auto; lia.
Qed.
Lemma has_missing t n : has t n = false <-> ~ stored t n.
Proof. rewrite <- has_stored. destruct (has t n); split; congruence. Qed.
Lemma row_some t n h : row t n = Some h -> In h t /\ h_number h = n.
Proof. intros H. apply find_some in H. destruct H as [H1 H2]. split; [exact H1|lia]. Qed.
Lemma row_none t n : row t n = None -> ~ stored t n.
Proof. intros H (h & H1 & H2). apply (find_none _ _ H) in H1. cbn in H1. lia. Qed.
Lemma row_unique t h : unique t -> In h t -> row t (h_number h) = Some h.
Proof.
  intros U H. destruct (row t (h_number h)) as [g|] eqn:E.
  - apply row_some in E. destruct E as [E1 E2]. f_equal. now apply U.
  - exfalso. apply (row_none _ _ E). now exists h.
Qed.
Lemma top_some p t : forall h, top p t = Some h -> In h t /\ p h = true /\ forall g, In g t -> p g = true -> h_number g <= h_number h.
Proof.
  induction t as [|x t IH]; intros h H; [discriminate|]. cbn in H. destruct (p x) eqn:Ep.
  - destruct (top p t) as [y|] eqn:Et.
    + destruct (IH y eq_refl) as (H1 & H2 & H3). destruct (h_number y <? h_number x) eqn:E; injection H as <-.
      * split; [now left|]. split; [exact Ep|]. intros g [<-|Hg] Pg; [lia|]. specialize (H3 g Hg Pg). lia.
      * split; [now right|]. split; [exact H2|]. intros g [<-|Hg] Pg; [lia|]. now apply H3.
    + injection H as <-. split; [now left|]. split; [exact Ep|]. intros g [<-|Hg] Pg; [lia|]. exfalso.
      clear - Et Hg Pg. induction t as [|z t IH2]; [destruct Hg|]. cbn in Et. destruct (p z) eqn:Ez.
      * destruct (top p t); [|discriminate]. destruct (h_number h <? h_number z); discriminate.
      * destruct Hg as [->|Hg]; [congruence|auto].
  - destruct (IH h H) as (H1 & H2 & H3). split; [now right|]. split; [exact H2|].
    intros g [<-|Hg] Pg; [congruence|auto].
Qed.
Lemma top_none p t : top p t = None -> forall h, In h t -> p h = false.
Proof.
  induction t as [|x t IH]; intros H h Hh; [destruct Hh|]. cbn in H. destruct (p x) eqn:Ep.
  - destruct (top p t); [|discriminate]. destruct (h_number h0 <? h_number x); discriminate.
  - destruct Hh as [<-|Hh]; auto.
Qed.
Lemma insert_some t h t' : insert t h = Some t' ->
  t' = h :: t /\ (forall g, In g t -> h_number g <> h_number h /\ h_hash g <> h_hash h).
Proof.
  unfold insert. destruct (existsb _ t) eqn:E; [discriminate|]. intros H. injection H as <-. split; [reflexivity|].
  intros g Hg. split; intros X.
  - assert (existsb (fun g => (h_number g =? h_number h) || hash_eqb (h_hash g) (h_hash h)) t = true); [|congruence].
    apply existsb_exists. exists g. split; [exact Hg|]. apply orb_true_iff. left. lia.
  - assert (existsb (fun g => (h_number g =? h_number h) || hash_eqb (h_hash g) (h_hash h)) t = true); [|congruence].
    apply existsb_exists. exists g. split; [exact Hg|]. apply orb_true_iff. right. now apply hash_eqb_true.
Qed.
Lemma insert_ok t h : (forall g, In g t -> h_number g <> h_number h /\ h_hash g <> h_hash h) -> insert t h = Some (h :: t).
Proof.
  intros H. unfold insert. destruct (existsb _ t) eqn:E; [|reflexivity]. apply existsb_exists in E. destruct E as (g & Hg & X).
  destruct (H g Hg) as [H1 H2]. apply orb_true_iff in X. destruct X as [X|X]; [lia|]. apply hash_eqb_true in X. contradiction.
Qed.
Lemma in_purge lo hi t h : In h (purge lo hi t) <-> In h t /\ (h_number h < lo \/ hi < h_number h).
Proof. unfold purge. rewrite filter_In, negb_true_iff, andb_false_iff, !Nat.leb_gt. tauto. Qed.

(* ---- pipelines ---- *)
(* the elements passed on before an error *)
Definition passed {A} (l : list (option A)) : list A := flat_map (fun x => match x with Some a => [a] | None => [] end) l.
Lemma chunks_passed {A} cap : forall (l : list (option A)) acc l0,
  In (Some l0) (try_chunks cap acc l) -> forall a, In a l0 -> In a acc \/ In (Some a) l.
Proof.
  induction l as [|[x|] l IH]; intros acc l0 H a Ha; cbn [try_chunks] in H.
  - destruct acc; [destruct H|]. destruct H as [H|[]]. injection H as <-. now left.
  - destruct (length (acc ++ [x]) =? cap).
    + destruct H as [H|H].
      * injection H as <-. apply in_app_iff in Ha. destruct Ha as [Ha|[<-|[]]]; [now left|right; now left].
      * destruct (IH _ _ H a Ha) as [[]|X]. right. now right.
    + destruct (IH _ _ H a Ha) as [X|X]; [|right; now right].
      apply in_app_iff in X. destruct X as [X|[<-|[]]]; [now left|right; now left].
  - apply in_app_iff in H. destruct H as [H|[H|[]]]; [|discriminate]. destruct acc; [destruct H|].
    destruct H as [H|[]]. injection H as <-. now left.
Qed.
Lemma chunks_ok {A} cap : forall (l : list A) acc, exists ls,
  try_chunks cap acc (map Some l) = map Some ls /\ concat ls = acc ++ l.
Proof.
  induction l as [|x l IH]; intros acc; cbn [map try_chunks].
  - destruct acc as [|y acc]; [exists []; auto|]. exists [y :: acc]. cbn. now rewrite !app_nil_r.
  - destruct (length (acc ++ [x]) =? cap).
    + destruct (IH []) as (ls & E1 & E2). exists ((acc ++ [x]) :: ls). cbn. rewrite E1, E2. split; [reflexivity|].
      cbn. now rewrite <- app_assoc.
    + destruct (IH (acc ++ [x])) as (ls & E1 & E2). exists ls. split; [exact E1|]. rewrite E2. now rewrite <- app_assoc.
Qed.

Section Chain.
Variables (e : env) (T : nat -> header).
Hypothesis Hb : binding e.
Hypothesis HT : chain e T.

Lemma same_as_chain h n : h_number h = n -> h_hash h = h_hash (T n) -> verify_hash e h = true -> h = T n.
Proof.
  intros Hn Hh V. pose proof (c_valid _ _ HT n) as VT. unfold verify_hash in *. rewrite hash_eqb_true in *.
  rewrite (c_number _ _ HT n) in VT. rewrite Hn in V.
  assert (E : e_computed e h = e_computed e (T n)) by (rewrite V, VT; destruct (e_db e n); congruence).
  apply Hb in E. destruct E as (E1 & E2 & E3). destruct h, (T n). cbn in *. congruence.
Qed.

(* what passes both stages, started on the chain, is the chain *)
Lemma verify_in s l x : In (Some x) (pipe (verify e) s l) -> In (Some x) l /\ verify_hash e (fst x) = true.
Proof.
  revert s. induction l as [|[y|] l IH]; intros s H; cbn in H; [destruct H| |destruct H as [H|[]]; discriminate].
  unfold verify in H at 1. destruct (verify_hash e (fst y) && e_signed e (h_hash (fst y)) (snd y)) eqn:E.
  - destruct H as [H|H]; [injection H as ->; apply andb_true_iff in E; split; [now left|tauto]|].
    destruct (IH _ H). split; [now right|assumption].
  - destruct H as [H|[]]. discriminate.
Qed.
(* prefix form: both stages are interleaved here *)
Lemma stages_chain : forall l n x,
  In (Some x) (pipe (verify e) tt (pipe backward (Some n, h_hash (T n)) (map Some l))) ->
  fst x = T (h_number (fst x)) /\ h_number (fst x) <= n.
Proof.
  induction l as [|y l IH]; intros n x H; [destruct H|]. cbn [map pipe] in H. unfold backward in H at 1.
  destruct ((h_number (fst y) =? n) && hash_eqb (h_hash (fst y)) (h_hash (T n))) eqn:E; [|cbn in H; destruct H as [H|[]]; discriminate].
  apply andb_true_iff in E. destruct E as [E1 E2]. rewrite hash_eqb_true in E2. cbn [pipe] in H.
  unfold verify in H at 1. destruct (verify_hash e (fst y) && e_signed e (h_hash (fst y)) (snd y)) eqn:E; [|destruct H as [H|[]]; discriminate].
  apply andb_true_iff in E. destruct E as [E3 E4].
  assert (Ey : fst y = T n) by (apply same_as_chain; auto; lia).
  destruct H as [H|H].
  - injection H as <-. rewrite Ey. rewrite (c_number _ _ HT). auto.
  - destruct n as [|n].
    + exfalso. destruct l as [|z l]; [destruct H|]. cbn in H. destruct H as [H|[]]. discriminate.
    + rewrite Ey, (c_linked _ _ HT) in H. destruct (IH n x H). split; [assumption|lia].
Qed.
Lemma header_chunks_chain g received l h :
  g_head_hash g = h_hash (T (g_head g)) -> In (Some l) (header_chunks e g received) -> In h l ->
  h = T (h_number h) /\ h_number h <= g_head g.
Proof.
  intros Hg H Hh. unfold header_chunks in H. apply in_map_iff in H. destruct H as ([l0|] & H1 & H2); [|discriminate].
  injection H1 as <-. apply in_map_iff in Hh. destruct Hh as (x & <- & Hx).
  destruct (chunks_passed _ _ _ _ H2 x Hx) as [[]|H]. rewrite Hg in H. now apply stages_chain in H.
Qed.

(* ---- invariant ---- *)
Definition on_chain (t : table) (a : nat) : Prop := forall h, In h t -> h_number h <= a -> h = T (h_number h).
Definition down (t : table) (a : nat) : Prop :=
  (forall n, S a < n -> In (T n) t -> In (T (n - 1)) t) /\
  (forall n, S a < n -> (exists h, In h t /\ n <= h_number h) -> ~ stored t n -> ~ stored t (n - 1)).
Definition full (t : table) (a : nat) : Prop := forall n, n <= a -> In (T n) t.

Record inv (s : state) : Prop := {
  i_unique : unique (s_table s);
  i_valid : forall h, In h (s_table s) -> verify_hash e h = true;
  i_none : s_anchor s = None -> s_table s = [];
  i_anchor : forall a ah, s_anchor s = Some (a, ah) -> ah = h_hash (T a) /\ on_chain (s_table s) a /\ down (s_table s) a;
  i_proc : match s_proc s with
           | Idle | Stopped => True
           | Analysed c => snd c = h_hash (T (fst c)) /\ on_chain (s_table s) (fst c) /\ down (s_table s) (fst c)
           | Headers c => s_anchor s = Some c
           | Filling c l => s_anchor s = Some c /\
               forall hs h, In (Some hs) l -> In h hs -> h = T (h_number h) /\ h_number h <= fst c
           | Done c => s_anchor s = Some c /\ full (s_table s) (fst c)
           | Tracking next parent => exists a ah h, s_anchor s = Some (a, ah) /\ full (s_table s) a /\
               In h (s_table s) /\ next = S (h_number h) /\ parent = h_hash h /\
               forall g, In g (s_table s) -> h_number g <= h_number h
           end
}.

Lemma init_inv : inv init.
Proof. split; cbn; auto; try discriminate; solve [intros g h [] | intros h []]. Qed.

Lemma purge_unique lo hi t : unique t -> unique (purge lo hi t).
Proof. intros U g h Hg Hh. rewrite in_purge in *. apply U; tauto. Qed.
Lemma stored_T t n : In (T n) t -> stored t n.
Proof. intros H. exists (T n). split; [exact H|apply (c_number _ _ HT)]. Qed.

Lemma down_chain t a c : down t a -> a < c -> In (T c) t -> forall k, a < c - k -> In (T (c - k)) t.
Proof.
  intros [D _] Hc H. induction k as [|k IH]; intros Hk; [now rewrite Nat.sub_0_r|].
  replace (c - S k) with (c - k - 1) by lia. apply D; [lia|apply IH; lia].
Qed.
Lemma down_missing t a c h : down t a -> In h t -> c <= h_number h -> ~ stored t c -> forall k, a < c - k -> ~ stored t (c - k).
Proof.
  intros [_ D] Hh Hc H. induction k as [|k IH]; intros Hk; [now rewrite Nat.sub_0_r|].
  replace (c - S k) with (c - k - 1) by lia. apply D; [lia|exists h; split; [exact Hh|lia]|apply IH; lia].
Qed.
Lemma down_weaken t a c : down t a -> a <= c -> down t c.
Proof. intros [D1 D2] H. split; intros n Hn; [apply D1; lia|apply D2; lia]. Qed.

Lemma start_inv s c s' : inv s -> snd c = h_hash (T (fst c)) -> step e s (Start c) = Some s' -> inv s'.
Proof.
  intros V Hc H. destruct s as [t anchor pr]. cbn [step s_table s_anchor s_proc] in H.
  destruct pr; try discriminate. destruct V as [V1 V2 V3 V4 _]. cbn [s_table s_anchor s_proc] in *.
  destruct c as [c ch]. cbn [fst snd] in *.
  assert (Hstop : inv (State t anchor Stopped)) by (split; cbn; auto).
  unfold analyse in H. cbn [fst snd] in H.
  destruct anchor as [[a ah]|].
  - destruct (V4 a ah eq_refl) as (A1 & A2 & A3).
    destruct ((c <? a) || ((c =? a) && negb (hash_eqb ch ah))) eqn:Ec; [injection H as <-; exact Hstop|].
    assert (Hac : a <= c) by lia. clear Ec.
    destruct (top (fun _ => true) t) as [latest|] eqn:El.
    + apply top_some in El. destruct El as (L1 & _ & L2). cbn [first_unanchored] in H.
      destruct (h_number latest <? c) eqn:Elc.
      * (* beyond the local chain: all above the anchor goes *)
        injection H as <-.
        assert (Hle : forall h, In h (purge (S a) (h_number latest) t) -> In h t /\ h_number h <= a).
        { intros h Hh. rewrite in_purge in Hh. destruct Hh as [Hh X]. specialize (L2 h Hh eq_refl). split; [exact Hh|lia]. }
        assert (Ho : on_chain (purge (S a) (h_number latest) t) c).
        { intros h Hh _. apply Hle in Hh. now apply A2. }
        assert (Hd : down (purge (S a) (h_number latest) t) a).
        { split.
          - intros n Hn Hh. apply Hle in Hh. rewrite (c_number _ _ HT) in Hh. lia.
          - intros n Hn (h & Hh & X). apply Hle in Hh. lia. }
        split; cbn [s_table s_anchor s_proc fst snd].
        -- now apply purge_unique.
        -- intros h Hh. apply Hle in Hh. now apply V2.
        -- discriminate.
        -- intros a' ah' X. injection X as <- <-. split; [exact A1|]. split; [|exact Hd].
           intros h Hh Hn. apply Ho; [exact Hh|lia].
        -- split; [exact Hc|]. split; [exact Ho|]. now apply (down_weaken _ a).
      * destruct (row t c) as [h0|] eqn:Er.
        -- apply row_some in Er. destruct Er as [R1 R2].
           destruct (hash_eqb (h_hash h0) ch) eqn:Eh.
           ++ (* the local block is the checkpoint *)
              injection H as <-. rewrite hash_eqb_true in Eh.
              assert (E0 : h0 = T c) by (apply same_as_chain; [exact R2|congruence|now apply V2]). subst h0.
              assert (Ho : on_chain t c).
              { intros h Hh Hn. destruct (Nat.le_gt_cases (h_number h) a) as [X|X]; [now apply A2|].
                apply V1; [exact Hh| |now rewrite (c_number _ _ HT)].
                destruct (Nat.eq_dec a c) as [->|Hne]; [lia|].
                pose proof (down_chain t a c A3 ltac:(lia) R1 (c - h_number h)) as D.
                replace (c - (c - h_number h)) with (h_number h) in D by lia. now apply D. }
              split; cbn [s_table s_anchor s_proc fst snd]; auto.
              split; [exact Hc|]. split; [exact Ho|]. now apply (down_weaken _ a).
           ++ (* it is not *)
              injection H as <-. rewrite hash_eqb_false in Eh.
              assert (Hbad : ~ In (T c) t).
              { intros X. apply Eh. rewrite Hc. f_equal. apply V1; auto. now rewrite (c_number _ _ HT). }
              assert (Hle : forall h, In h (purge (S a) c t) <-> In h t /\ (h_number h <= a \/ c < h_number h)).
              { intros h. rewrite in_purge. assert (h_number h < S a <-> h_number h <= a) by lia. tauto. }
              assert (Hst : forall n, stored (purge (S a) c t) n <-> stored t n /\ (n <= a \/ c < n)).
              { intros n. split.
                - intros (h & Hh & <-). apply Hle in Hh. split; [exists h; tauto|tauto].
                - intros [(h & Hh & <-) X]. exists h. split; [apply Hle; auto|reflexivity]. }
              assert (Ho : on_chain (purge (S a) c t) c).
              { intros h Hh Hn. apply Hle in Hh. apply A2; [tauto|lia]. }
              destruct A3 as [D1 D2].
              assert (Hd : down (purge (S a) c t) a).
              { split.
                - intros n Hn Hh. apply Hle in Hh. rewrite (c_number _ _ HT) in Hh. destruct Hh as [Hh X].
                  pose proof (D1 n Hn Hh) as Y. apply Hle. split; [exact Y|]. rewrite (c_number _ _ HT).
                  destruct (Nat.eq_dec (n - 1) c) as [E|E]; [rewrite E in Y; contradiction|lia].
                - intros n Hn (h & Hh & X) Hm Hs. apply Hst in Hs. destruct Hs as [Hs Y]. apply Hle in Hh.
                  apply (D2 n Hn); [exists h; tauto| |exact Hs]. intros Z. apply Hm. apply Hst. split; [exact Z|lia]. }
              split; cbn [s_table s_anchor s_proc fst snd].
              ** now apply purge_unique.
              ** intros h Hh. apply Hle in Hh. now apply V2.
              ** discriminate.
              ** intros a' ah' X. injection X as <- <-. split; [exact A1|]. split; [|exact Hd].
                 intros h Hh Hn. apply Ho; [exact Hh|lia].
              ** split; [exact Hc|]. split; [exact Ho|]. now apply (down_weaken _ a).
        -- (* the local block is missing *)
           injection H as <-. apply row_none in Er.
           assert (Ho : on_chain t c).
           { intros h Hh Hn. destruct (Nat.le_gt_cases (h_number h) a) as [X|X]; [now apply A2|]. exfalso.
             pose proof (down_missing t a c latest A3 L1 ltac:(lia) Er (c - h_number h)) as D.
             replace (c - (c - h_number h)) with (h_number h) in D by lia. apply D; [lia|]. now exists h. }
           split; cbn [s_table s_anchor s_proc fst snd]; auto.
           split; [exact Hc|]. split; [exact Ho|]. now apply (down_weaken _ a).
    + injection H as <-. split; cbn [s_table s_anchor s_proc fst snd]; auto.
      split; [exact Hc|]. split; [|now apply (down_weaken _ a)].
      intros h Hh. pose proof (top_none _ _ El h Hh). discriminate.
  - rewrite (V3 eq_refl) in *. cbn in H. injection H as <-.
    split; cbn [s_table s_anchor s_proc fst snd]; auto. split; [exact Hc|]. split; [intros h []|].
    split; [intros n _ []|intros n _ (h & [] & _)].
Qed.

Lemma insert_all_inv l : forall t c t',
  insert_all t l = Some t' -> (forall h, In h l -> h = T (h_number h) /\ h_number h <= c) ->
  unique t -> (forall h, In h t -> verify_hash e h = true) -> on_chain t c -> down t c ->
  unique t' /\ (forall h, In h t' -> verify_hash e h = true) /\ on_chain t' c /\ down t' c /\
  (forall h, In h t' <-> In h l \/ In h t).
Proof.
  induction l as [|h l IH]; intros t c t' H Hl U V O D; cbn in H.
  - injection H as <-. split; [exact U|]. split; [exact V|]. split; [exact O|]. split; [exact D|]. intros h. cbn. tauto.
  - destruct (insert t h) as [t1|] eqn:E; [|discriminate]. apply insert_some in E. destruct E as [-> E].
    destruct (Hl h (or_introl eq_refl)) as [Eh Hn].
    destruct (IH (h :: t) c t' H) as (I1 & I2 & I3 & I4 & I5).
    + intros x Hx. apply Hl. now right.
    + intros x y [<-|Hx] [<-|Hy] X; auto; [destruct (E y Hy)|destruct (E x Hx)]; congruence.
    + intros x [<-|Hx]; [rewrite Eh; apply (c_valid _ _ HT)|auto].
    + intros x [<-|Hx]; [auto|now apply O].
    + destruct D as [D1 D2]. split.
      * intros n X [Y|Y]; [exfalso; rewrite Y, (c_number _ _ HT) in Hn; lia|]. right. now apply D1.
      * intros n X (x & [<-|Hx] & Y) Hm Hs; [lia|]. destruct Hs as (y & [<-|Hy] & Z); [lia|].
        apply (D2 n X); [now exists x| |now exists y]. intros (w & Hw & W). apply Hm. exists w. split; [now right|exact W].
    + split; [exact I1|]. split; [exact I2|]. split; [exact I3|]. split; [exact I4|]. intros x. rewrite I5. cbn. tauto.
Qed.

Lemma next_gap_head t c g : on_chain t (fst c) -> snd c = h_hash (T (fst c)) -> next_gap t (fst c) (snd c) = Some g ->
  g_head_hash g = h_hash (T (g_head g)) /\ g_tail g <= g_head g <= fst c /\ forall n, g_tail g <= n <= g_head g -> ~ stored t n.
Proof.
  intros O Hc H.
  assert (Htail : forall n, match next_ancestor t n with Some h => S (h_number h) | None => 0 end <= n /\
            forall m, match next_ancestor t n with Some h => S (h_number h) | None => 0 end <= m < n -> ~ stored t m).
  { intros n. destruct (next_ancestor t n) as [x|] eqn:E.
    - apply top_some in E. destruct E as (E1 & E2 & E3). split; [lia|]. intros m Hm (y & Hy & Y).
      assert (h_number y <= h_number x); [|lia]. apply E3; [exact Hy|lia].
    - split; [lia|]. intros m Hm (y & Hy & Y). pose proof (top_none _ _ E y Hy) as Z. cbn in Z. lia. }
  unfold next_gap in H. destruct (has t (fst c)) eqn:E.
  - destruct (next_ancestor_without_parent t (fst c)) as [h|] eqn:Eh; [|discriminate]. injection H as <-.
    apply top_some in Eh. destruct Eh as (E1 & E2 & _). apply andb_true_iff in E2. destruct E2 as [E2 E3].
    apply negb_true_iff in E3. apply has_missing in E3. cbn [g_head g_tail g_head_hash].
    destruct (Htail (h_number h - 1)) as [T1 T2]. split; [|split; [lia|]].
    + rewrite (O h E1) at 1 by lia. rewrite <- (c_linked _ _ HT). do 2 f_equal. lia.
    + intros n Hn. destruct (Nat.eq_dec n (h_number h - 1)) as [->|X]; [exact E3|]. apply T2. lia.
  - apply has_missing in E. injection H as <-. cbn [g_head g_tail g_head_hash]. destruct (Htail (fst c)) as [T1 T2].
    split; [exact Hc|]. split; [lia|]. intros n Hn. destruct (Nat.eq_dec n (fst c)) as [->|X]; [exact E|]. apply T2. lia.
Qed.
Lemma no_gap t c ch : on_chain t c -> next_gap t c ch = None -> full t c.
Proof.
  intros O H. unfold next_gap in H. destruct (has t c) eqn:E; [|discriminate].
  destruct (next_ancestor_without_parent t c) as [h|] eqn:En; [discriminate|].
  assert (K : forall k, k <= c -> In (T (c - k)) t).
  { induction k as [|k IH]; intros Hk.
    - rewrite Nat.sub_0_r. apply has_stored in E. destruct E as (h & Hh & X). rewrite (O h Hh) in Hh by lia. now rewrite X in Hh.
    - pose proof (top_none _ _ En _ (IH ltac:(lia))) as X. cbn beta in X. rewrite (c_number _ _ HT) in X.
      assert (Y : has t (c - k - 1) = true) by (destruct (has t (c - k - 1)); [reflexivity|lia]).
      apply has_stored in Y. destruct Y as (h & Hh & Y). replace (c - S k) with (c - k - 1) by lia.
      rewrite (O h Hh) in Hh by lia. now rewrite Y in Hh. }
  intros n Hn. replace n with (c - (c - n)) by lia. apply K. lia.
Qed.

Lemma inv_step s a s' : inv s -> step e s a = Some s' ->
  (forall c, a = Start c -> snd c = h_hash (T (fst c))) -> inv s'.
Proof.
  intros V H Hc. destruct a as [c| |received| | |x|].
  - apply (start_inv s c); auto.
  - destruct s as [t anchor pr]. cbn in H. destruct pr; try discriminate. injection H as <-.
    destruct V as [V1 V2 V3 V4 V5]; cbn in *. split; cbn; auto; [discriminate|].
    intros a ah X. injection X as ->. exact V5.
  - destruct s as [t anchor pr]. cbn in H. destruct pr; try discriminate.
    destruct V as [V1 V2 V3 V4 V5]; cbn in *. subst anchor. destruct c as [c ch]. destruct (V4 c ch eq_refl) as (A1 & A2 & A3).
    cbn [fst snd] in H. destruct (next_gap t c ch) as [g|] eqn:Eg.
    + match type of H with (if ?b then _ else _) = _ => destruct b; [|discriminate] end. injection H as <-.
      destruct (next_gap_head t (c, ch) g A2 A1 Eg) as (G1 & G2 & _). split; cbn; auto.
      split; [reflexivity|]. intros hs h Hl Hh. destruct (header_chunks_chain g received hs h G1 Hl Hh). cbn in G2. split; [assumption|lia].
    + injection H as <-. split; cbn; auto. split; [reflexivity|]. now apply no_gap with ch.
  - destruct s as [t anchor pr]. cbn in H. destruct pr as [| | |c l| | |]; try discriminate.
    destruct V as [V1 V2 V3 V4 V5]; cbn in *. destruct V5 as [-> V5]. destruct c as [c ch].
    destruct (V4 c ch eq_refl) as (A1 & A2 & A3).
    destruct l as [|[l|] rest].
    + injection H as <-. split; cbn; auto.
    + destruct (insert_all t l) as [t'|] eqn:E.
      * injection H as <-.
        destruct (insert_all_inv l t c t' E) as (I1 & I2 & I3 & I4 & I5); auto.
        { intros h Hh. apply (V5 l h); [now left|exact Hh]. }
        split; cbn; auto; [discriminate| |].
        -- intros a ah X. injection X as <- <-. auto.
        -- split; [reflexivity|]. intros hs h X. apply V5. now right.
      * injection H as <-. split; cbn; auto.
    + injection H as <-. split; cbn; auto.
  - destruct s as [t anchor pr]. cbn in H. destruct pr as [| | | |c| |]; try discriminate. injection H as <-.
    destruct V as [V1 V2 V3 V4 V5]; cbn in *. destruct V5 as [-> V5]. split; cbn; auto.
    destruct (top (fun _ => true) t) as [h|] eqn:E.
    + apply top_some in E. destruct E as (E1 & _ & E3). destruct c as [c ch]. exists c, ch, h. cbn in V5. repeat split; auto.
    + exfalso. pose proof (top_none _ _ E _ (V5 0 ltac:(lia))). discriminate.
  - destruct s as [t anchor pr]. cbn [step s_table s_anchor s_proc] in H. destruct pr as [| | | | |next parent|]; try discriminate.
    destruct V as [V1 V2 V3 V4 V5]; cbn [s_table s_anchor s_proc] in *. destruct V5 as (a & ah & h & -> & F & Hh & -> & -> & L).
    destruct (V4 a ah eq_refl) as (A1 & A2 & A3). unfold forward in H. cbn [fst snd] in H.
    destruct ((h_number (fst x) =? S (h_number h)) && hash_eqb (h_parent (fst x)) (h_hash h)) eqn:E; [|discriminate].
    apply andb_true_iff in E. destruct E as [E1 E2]. rewrite hash_eqb_true in E2. apply Nat.eqb_eq in E1.
    unfold verify in H. destruct (verify_hash e (fst x) && e_signed e (h_hash (fst x)) (snd x)) eqn:Ev; [|discriminate].
    apply andb_true_iff in Ev. destruct Ev as [Ev _].
    destruct (insert t (fst x)) as [t'|] eqn:Ei; [|injection H as <-; split; cbn; auto]. injection H as <-.
    apply insert_some in Ei. destruct Ei as [-> Ei]. set (g := fst x) in *.
    assert (La : a <= h_number h) by (specialize (L _ (F a (le_n a))); now rewrite (c_number _ _ HT) in L).
    split; cbn [s_table s_anchor s_proc].
    + intros y z [<-|Hy] [<-|Hz] X; auto; [destruct (Ei z Hz)|destruct (Ei y Hy)]; congruence.
    + intros y [<-|Hy]; auto.
    + discriminate.
    + intros a' ah' X. injection X as <- <-. split; [exact A1|]. split.
      * intros y [<-|Hy] Y; [lia|now apply A2].
      * destruct A3 as [D1 D2]. split.
        -- intros n Hn [Y|Y]; [|right; now apply D1]. right.
           assert (En : n = S (h_number h)) by (rewrite <- E1, Y; now rewrite (c_number _ _ HT)). subst n.
           replace (S (h_number h) - 1) with (h_number h) by lia.
           rewrite Y, (c_linked _ _ HT) in E2. rewrite <- (same_as_chain h (h_number h)); auto.
        -- intros n Hn (y & Hy & Y) Hm Hs.
           assert (Hne : n <> S (h_number h)) by (intros ->; apply Hm; exists g; split; [now left|exact E1]).
           assert (Hle : n <= h_number h).
           { destruct Hy as [<-|Hy]; [lia|]. specialize (L y Hy). lia. }
           destruct Hs as (z & [<-|Hz] & Z); [lia|].
           apply (D2 n Hn); [now exists h| |now exists z]. intros (w & Hw & W). apply Hm. exists w. split; [now right|exact W].
    + exists a, ah, g. split; [reflexivity|]. split; [intros n Hn; right; now apply F|]. split; [now left|].
      split; [now rewrite E1|]. split; [reflexivity|].
      intros y [<-|Hy]; [lia|]. specialize (L y Hy). lia.
  - injection H as <-. destruct V as [V1 V2 V3 V4 V5]. split; cbn; auto.
Qed.

Lemma inv_run acts : forall s s', inv s -> truthful T acts -> run_from e s acts = Some s' -> inv s'.
Proof.
  induction acts as [|a acts IH]; intros s s' V Ht H; cbn in H; [injection H as <-; exact V|].
  destruct (step e s a) as [s1|] eqn:E; [|discriminate]. apply (IH s1); auto.
  - apply (inv_step s a); auto. intros c ->. apply Ht. now left.
  - intros c X. apply Ht. now right.
Qed.
Lemma full_synced t a : unique t -> full t a -> synced T t a.
Proof. intros U F m Hm. rewrite <- (c_number _ _ HT m) at 1. apply row_unique; auto. Qed.

(* ---- an honest peer ---- *)
Hypothesis no_db : forall n, e_db e n = None.

Lemma fresh t h n : (forall g, In g t -> verify_hash e g = true) -> h = T n -> ~ stored t n ->
  forall g, In g t -> h_number g <> h_number h /\ h_hash g <> h_hash h.
Proof.
  intros V -> Hm g Hg. rewrite (c_number _ _ HT). split.
  - intros X. apply Hm. now exists g.
  - intros X. apply Hm. exists g. split; [exact Hg|]. pose proof (V g Hg) as Y. pose proof (c_valid _ _ HT n) as Z.
    unfold verify_hash in *. rewrite no_db, hash_eqb_true in *. assert (E : e_computed e g = e_computed e (T n)) by congruence.
    apply Hb in E. destruct E as [E _]. now rewrite (c_number _ _ HT) in E.
Qed.
Lemma rev_seq_S a k : rev (seq a (S k)) = (a + k) :: rev (seq a k).
Proof. rewrite seq_S, rev_app_distr. reflexivity. Qed.
Lemma pipe_honest a : forall (l : list signed_header) k, map fst l = map T (rev (seq a k)) ->
  Forall (fun x => e_signed e (h_hash (fst x)) (snd x) = true) l ->
  forall s0, s0 = (match k with 0 => match a with 0 => None | S m => Some m end | S k' => Some (a + k') end,
                   match k with 0 => h_parent (T a) | S k' => h_hash (T (a + k')) end) ->
  pipe (verify e) tt (pipe backward s0 (map Some l)) = map Some l.
Proof.
  induction l as [|x l IH]; intros k Hk Hs s0 ->; [reflexivity|].
  destruct k as [|k]; [discriminate|]. rewrite rev_seq_S in Hk. cbn [map] in Hk. injection Hk as Hx Hk.
  apply Forall_cons_iff in Hs. destruct Hs as [Hs1 Hs2].
  cbn [map pipe]. unfold backward at 1. rewrite Hx.
  rewrite (c_number _ _ HT), Nat.eqb_refl. assert (Eh : forall x, hash_eqb x x = true) by (intros; now apply hash_eqb_true).
  rewrite Eh. cbn [andb pipe]. unfold verify at 1. rewrite Hs1, Hx, (c_valid _ _ HT). cbn [andb]. f_equal.
  apply (IH k Hk Hs2). destruct k as [|k].
  - rewrite Nat.add_0_r. now destruct a.
  - replace (a + S k) with (S (a + k)) by lia. now rewrite (c_linked _ _ HT).
Qed.
Lemma insert_all_honest l : forall t, (forall g, In g t -> verify_hash e g = true) ->
  (forall h, In h l -> h = T (h_number h) /\ ~ stored t (h_number h)) -> NoDup (map h_number l) ->
  exists t', insert_all t l = Some t' /\ (forall g, In g t' <-> In g l \/ In g t).
Proof.
  induction l as [|h l IH]; intros t V H N; [exists t; cbn; split; [reflexivity|tauto]|].
  cbn. destruct (H h (or_introl eq_refl)) as [E M]. rewrite insert_ok by (apply (fresh t h (h_number h)); auto).
  cbn in N. apply NoDup_cons_iff in N. destruct N as [N1 N2].
  destruct (IH (h :: t)) as (t' & E1 & E2).
  - intros g [<-|Hg]; [rewrite E; apply (c_valid _ _ HT)|auto].
  - intros x Hx. destruct (H x (or_intror Hx)) as [X1 X2]. split; [exact X1|]. intros (y & [<-|Hy] & Y).
    + apply N1. rewrite Y. now apply in_map.
    + apply X2. now exists y.
  - exact N2.
  - exists t'. split; [exact E1|]. intros g. rewrite E2. cbn. tauto.
Qed.
Lemma run_from_app a : forall b s, run_from e s (a ++ b) = match run_from e s a with Some s' => run_from e s' b | None => None end.
Proof. induction a as [|x a IH]; intros b s; [reflexivity|]. cbn. destruct (step e s x); [apply IH|reflexivity]. Qed.
Lemma nodup_app_parts {A} (a b : list A) : NoDup (a ++ b) -> NoDup a /\ NoDup b /\ forall x, In x a -> ~ In x b.
Proof.
  induction a as [|x a IH]; intros H; cbn in H.
  - repeat split; auto; constructor.
  - apply NoDup_cons_iff in H. destruct H as [H1 H2]. destruct (IH H2) as (I1 & I2 & I3). rewrite in_app_iff in H1.
    repeat split; auto; [constructor; tauto|]. intros y [<-|Hy]; [tauto|auto].
Qed.
Lemma advance_honest anchor c : forall ls t,
  (forall g, In g t -> verify_hash e g = true) -> (forall h, In h (concat ls) -> h = T (h_number h) /\ ~ stored t (h_number h)) ->
  NoDup (map h_number (concat ls)) ->
  exists t', run_from e (State t anchor (Filling c (map Some ls))) (repeat Advance (S (length ls))) = Some (State t' anchor (Headers c)) /\
    forall g, In g t' <-> In g (concat ls) \/ In g t.
Proof.
  induction ls as [|l ls IH]; intros t V H N.
  - exists t. cbn. split; [reflexivity|tauto].
  - cbn [concat] in *. rewrite map_app in N. apply nodup_app_parts in N. destruct N as (N1 & N2 & N3).
    destruct (insert_all_honest l t V) as (t1 & E1 & E2); [intros h Hh; apply H; apply in_app_iff; now left|exact N1|].
    destruct (IH t1) as (t' & E3 & E4).
    + intros g Hg. apply E2 in Hg. destruct Hg as [Hg|Hg]; [|auto]. rewrite (proj1 (H g (proj2 (in_app_iff _ _ _) (or_introl Hg)))). apply (c_valid _ _ HT).
    + intros h Hh. destruct (H h) as [X1 X2]; [apply in_app_iff; now right|]. split; [exact X1|].
      intros (y & Hy & Y). apply E2 in Hy. destruct Hy as [Hy|Hy].
      * apply (N3 (h_number y)); [now apply in_map|rewrite Y; now apply in_map].
      * apply X2. now exists y.
    + exact N2.
    + exists t'. split.
      * cbn [length repeat]. cbn [run_from]. cbn [step s_proc map s_table s_anchor]. rewrite E1. exact E3.
      * intros g. rewrite E4, E2, in_app_iff. tauto.
Qed.

Lemma served s c g (received : list signed_header) : inv s -> s_proc s = Headers c -> next_gap (s_table s) (fst c) (snd c) = Some g ->
  map fst received = asked T g -> Forall (fun x => e_signed e (h_hash (fst x)) (snd x) = true) received ->
  exists k s', run_from e s (FindGap received :: repeat Advance k) = Some s' /\ s_proc s' = Headers c /\
    forall n, g_tail g <= n <= g_head g -> row (s_table s') n = Some (T n).
Proof.
  intros V Hp Hg Hr Hs. destruct s as [t anchor pr]. cbn in Hp, Hg. subst pr.
  pose proof V as [V1 V2 V3 V4 V5]. cbn in *. subst anchor. destruct c as [c ch]. destruct (V4 c ch eq_refl) as (A1 & A2 & A3).
  destruct (next_gap_head t (c, ch) g A2 A1 Hg) as (G1 & G2 & G3). cbn [fst snd] in *.
  assert (Hlen : length received = S (g_head g) - g_tail g).
  { transitivity (length (map fst received)); [symmetry; apply map_length|]. rewrite Hr. unfold asked. now rewrite map_length, rev_length, seq_length. }
  assert (Hk : S (g_head g) - g_tail g = S (g_head g - g_tail g)) by lia.
  assert (Hpipe : pipe (verify e) tt (pipe backward (Some (g_head g), g_head_hash g) (map Some received)) = map Some received).
  { apply (pipe_honest (g_tail g) received (S (g_head g) - g_tail g)); auto. rewrite Hk, G1.
    replace (g_tail g + (g_head g - g_tail g)) with (g_head g) by lia. reflexivity. }
  destruct (chunks_ok (e_chunk e) received []) as (ls & E1 & E2). cbn [app] in E2.
  assert (Hch : header_chunks e g received = map Some (map (map fst) ls)).
  { unfold header_chunks. rewrite Hpipe, E1, !map_map. reflexivity. }
  assert (Hcc : concat (map (map fst) ls) = asked T g) by (rewrite <- concat_map; etransitivity; [apply f_equal; exact E2|exact Hr]).
  assert (Hask : forall h, In h (asked T g) <-> exists n, h = T n /\ g_tail g <= n <= g_head g).
  { intros h. unfold asked. rewrite in_map_iff. split.
    - intros (n & <- & X). apply in_rev, in_seq in X. exists n. split; [reflexivity|lia].
    - intros (n & -> & X). exists n. split; [reflexivity|]. apply in_rev. rewrite rev_involutive. apply in_seq. lia. }
  destruct (advance_honest (Some (c, ch)) (c, ch) (map (map fst) ls) t V2) as (t' & R1 & R2).
  - rewrite Hcc. intros h Hh. apply Hask in Hh. destruct Hh as (n & -> & X). rewrite (c_number _ _ HT). split; [reflexivity|now apply G3].
  - rewrite Hcc. unfold asked. rewrite map_map. rewrite (map_ext _ (fun n => n)) by (intros; apply (c_number _ _ HT)).
    rewrite map_id. apply NoDup_rev, seq_NoDup.
  - exists (S (length (map (map fst) ls))), (State t' (Some (c, ch)) (Headers (c, ch))).
    assert (R : run_from e (State t (Some (c, ch)) (Headers (c, ch))) (FindGap received :: repeat Advance (S (length (map (map fst) ls)))) =
                Some (State t' (Some (c, ch)) (Headers (c, ch)))).
    { change (run_from e ?s (?a :: ?l)) with (match step e s a with Some s' => run_from e s' l | None => None end).
      cbn [step s_proc s_table s_anchor fst snd]. rewrite Hg, Hlen, Nat.eqb_refl, Hch. exact R1. }
    split; [exact R|]. split; [reflexivity|]. intros n Hn. cbn [s_table].
    assert (V' : inv (State t' (Some (c, ch)) (Headers (c, ch)))).
    { apply (inv_run (FindGap received :: repeat Advance (S (length (map (map fst) ls)))) _ _ V); [|exact R].
      intros x [X|X]; [discriminate|]. apply repeat_spec in X. discriminate. }
    rewrite <- (c_number _ _ HT n) at 1. apply row_unique; [apply V'|]. apply R2. left. rewrite Hcc. apply Hask. now exists n.
Qed.
End Chain.
