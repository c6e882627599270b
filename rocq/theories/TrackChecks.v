(* The checks of single blocks: what passes them, and that what an honest peer sends does. *)
From Coq Require Import List Arith NArith Bool Lia Permutation.
From Verif Require Import TrackModel TrackSpec.
Import ListNotations.

Lemma take_exact_some {A} n : forall (l : list (option A)) r, take_exact n l = Some r -> length r = n /\ l = map Some r.
Proof.
  induction n as [|n IH]; intros [|[a|] l] r H; cbn in H; try discriminate.
  - injection H as <-. auto.
  - destruct (take_exact n l) as [r'|] eqn:E; [|discriminate]. injection H as <-.
    destruct (IH l r' E) as [<- ->]. auto.
Qed.
Lemma take_exact_all {A} (l : list A) : take_exact (length l) (map Some l) = Some l.
Proof. induction l as [|a l IH]; [reflexivity|]. cbn. now rewrite IH. Qed.
Lemma all_some {A B} (f : A -> option B) l : forall r, all f l = Some r -> Forall2 (fun a b => f a = Some b) l r.
Proof.
  induction l as [|a l IH]; intros r H; cbn in H.
  - injection H as <-. constructor.
  - destruct (f a) eqn:Ea; [|discriminate]. destruct (all f l) eqn:El; [|discriminate]. injection H as <-.
    constructor; [exact Ea|now apply IH].
Qed.
Lemma all_map {A B} (f : A -> option B) (g : A -> B) l : (forall a, In a l -> f a = Some (g a)) -> all f l = Some (map g l).
Proof.
  induction l as [|a l IH]; intros H; cbn; [reflexivity|]. rewrite (H a) by now left. rewrite IH; [reflexivity|].
  intros b Hb. apply H. now right.
Qed.
Lemma enumerate_nth {A} (l : list A) : forall k i x, nth_error (enumerate k l) i = Some x <-> fst x = k + i /\ nth_error l i = Some (snd x).
Proof.
  induction l as [|a l IH]; intros k i x; cbn.
  - destruct i; cbn; (split; [discriminate|intros [_ H]; discriminate]).
  - destruct i as [|i]; cbn.
    + split; [intros H; injection H as <-; cbn; split; [lia|reflexivity]|].
      intros [H1 H2]. injection H2 as ->. destruct x. cbn in *. f_equal. f_equal. lia.
    + rewrite IH. split; intros [H1 H2]; split; auto; lia.
Qed.
Lemma enumerate_length {A} (l : list A) : forall k, length (enumerate k l) = length l.
Proof. induction l as [|a l IH]; intros k; cbn; [reflexivity|]. now rewrite IH. Qed.
Lemma forall2_nth {A B} (P : A -> B -> Prop) l r : Forall2 P l r -> forall i b, nth_error r i = Some b -> exists a, nth_error l i = Some a /\ P a b.
Proof.
  induction 1 as [|a b l r H F IH]; intros i y Hy; [destruct i; discriminate|].
  destruct i as [|i]; cbn in *; [injection Hy as <-; exists a; auto|]. exact (IH i y Hy).
Qed.

Section Checks.
Variable e : env.

(* ---- transactions ---- *)
Lemma txs_checked h raw l' l : fetched_txs h raw = Some l' -> verified_txs e h l' = Some l ->
  length l = hd_tx_count h /\ e_tx_commitment e (map fst l) (hd_version h) = hd_tx_commitment h /\
  (forall i t r, nth_error l i = Some (t, r) -> t_hash t = e_tx_hash e (t_body t) /\ r_hash r = t_hash t /\ r_index r = i).
Proof.
  unfold fetched_txs, verified_txs. intros F H.
  destruct (take_exact (hd_tx_count h) raw) as [l0|] eqn:E0; [|discriminate]. cbn in F. injection F as <-.
  destruct (take_exact_some _ _ _ E0) as [<- _].
  destruct (all (calculate_hash e) (enumerate 0 l0)) as [txs|] eqn:E1; [|discriminate].
  destruct (N.eqb _ _) eqn:E2; [|discriminate]. injection H as <-. apply N.eqb_eq in E2. apply all_some in E1.
  split; [|split; [exact E2|]].
  - rewrite <- (enumerate_length l0 0). clear -E1. induction E1; cbn; auto.
  - intros i t r Hi. destruct (forall2_nth _ _ _ E1 i _ Hi) as ([j [t0 r0]] & Hj & Hc).
    apply enumerate_nth in Hj. cbn in Hj. destruct Hj as [-> _]. cbn in Hc.
    destruct (N.eqb _ _) eqn:E; [|discriminate]. injection Hc as <- <-. cbn. apply N.eqb_eq in E. auto.
Qed.

(* ---- events ---- *)
Definition of_tx (l : list (N * event)) (t : N) : list event := map snd (filter (fun x => N.eqb (fst x) t) l).
Definition default (o : option (list event)) : list event := match o with Some l => l | None => [] end.
Definition nonempty (x : N * list event) : bool := match snd x with [] => false | _ => true end.

Lemma push_get k x m t : get_events (push_event k x m) t =
  if N.eqb k t then Some (default (get_events m t) ++ [x]) else get_events m t.
Proof.
  induction m as [|[k' l] m IH]; cbn.
  - unfold get_events. cbn. destruct (N.eqb k t); reflexivity.
  - unfold get_events in *. destruct (N.eqb k k') eqn:E; cbn.
    + apply N.eqb_eq in E. subst k'. destruct (N.eqb k t); reflexivity.
    + destruct (N.eqb k' t) eqn:E2; cbn; [|exact IH]. destruct (N.eqb k t) eqn:E3; [|reflexivity].
      apply N.eqb_eq in E2, E3. subst. rewrite N.eqb_refl in E. discriminate.
Qed.
Lemma push_keys k x m : NoDup (map fst m) -> NoDup (map fst (push_event k x m)) /\
  forall t, In t (map fst (push_event k x m)) <-> t = k \/ In t (map fst m).
Proof.
  induction m as [|[k' l] m IH]; cbn; intros H.
  - split; [repeat constructor; auto|]. intros t. split; [intros [->|[]]; auto|intros [->|[]]; auto].
  - destruct (N.eqb k k') eqn:E; cbn.
    + apply N.eqb_eq in E. subst k'. split; [exact H|]. intros t. split; [tauto|]. intros [->|[|]]; auto.
    + inversion H as [|? ? H1 H2]. subst. destruct (IH H2) as [I1 I2]. split.
      * constructor; [|exact I1]. rewrite I2. intros [->|X]; [rewrite N.eqb_refl in E; discriminate|contradiction].
      * intros t. rewrite I2. tauto.
Qed.
Lemma push_sum k x m : sum (map (fun y => length (snd y)) (push_event k x m)) = S (sum (map (fun y => length (snd y)) m)).
Proof.
  unfold sum. induction m as [|[k' l] m IH]; cbn; [reflexivity|]. destruct (N.eqb k k'); cbn.
  - rewrite app_length. cbn. lia.
  - rewrite IH. lia.
Qed.
Lemma push_nonempty k x m : Forall (fun y => nonempty y = true) m -> Forall (fun y => nonempty y = true) (push_event k x m).
Proof.
  induction m as [|[k' l] m IH]; cbn; intros H; [repeat constructor|]. inversion H as [|? ? H1 H2]. subst.
  destruct (N.eqb k k'); constructor; auto. unfold nonempty. cbn. destruct l; reflexivity.
Qed.
Definition grouped (l : list (N * event)) (m : list (N * list event)) : Prop :=
  (forall t, get_events m t = match of_tx l t with [] => None | x => Some x end) /\
  NoDup (map fst m) /\ sum (map (fun y => length (snd y)) m) = length l /\ Forall (fun y => nonempty y = true) m.
Lemma group_grouped l : grouped l (group l).
Proof.
  induction l as [|[k x] r IH] using rev_ind.
  - split; [reflexivity|]. repeat split; constructor.
  - assert (E : group (r ++ [(k, x)]) = push_event k x (group r)) by (unfold group; now rewrite fold_left_app). rewrite E.
    destruct IH as (I1 & I2 & I3 & I4). split; [|split; [|split]].
    + intros t. rewrite push_get, I1. unfold of_tx. rewrite filter_app, map_app. cbn.
      destruct (N.eqb k t); cbn; [|now rewrite app_nil_r].
      destruct (map snd (filter (fun y => N.eqb (fst y) t) r)) as [|y z]; reflexivity.
    + now apply push_keys.
    + rewrite push_sum, app_length. cbn. rewrite I3. lia.
    + now apply push_nonempty.
Qed.

Lemma get_in m t l : get_events m t = Some l -> In (t, l) m.
Proof.
  unfold get_events. destruct (find (fun x => N.eqb (fst x) t) m) as [[k y]|] eqn:E; [|discriminate]. cbn. intros H. injection H as <-.
  apply find_some in E. cbn in E. destruct E as [E1 E2]. apply N.eqb_eq in E2. subst k. exact E1.
Qed.
Lemma ordered_spec m : Forall (fun y => nonempty y = true) m -> forall txs,
  ordered m txs = filter nonempty (combine txs (map (fun t => default (get_events m t)) txs)).
Proof.
  intros F. induction txs as [|t txs IH]; cbn; [reflexivity|]. destruct (get_events m t) as [l|] eqn:E; cbn.
  - apply get_in in E. rewrite Forall_forall in F. specialize (F _ E). unfold nonempty in F at 1. cbn in F.
    unfold nonempty at 1. cbn. destruct l; [discriminate|]. now rewrite IH.
  - exact IH.
Qed.
Lemma remove_get t m u : u <> t -> get_events (remove_events t m) u = get_events m u.
Proof.
  intros H. unfold get_events. induction m as [|[k l] m IH]; cbn; [reflexivity|].
  destruct (N.eqb k t) eqn:E; cbn.
  - apply N.eqb_eq in E. subst k. destruct (N.eqb t u) eqn:E2; [apply N.eqb_eq in E2; congruence|reflexivity].
  - destruct (N.eqb k u); [reflexivity|exact IH].
Qed.
Lemma take_events_spec txs : forall m, NoDup txs -> take_events m txs = map (fun t => default (get_events m t)) txs.
Proof.
  induction txs as [|t txs IH]; intros m H; cbn; [reflexivity|]. inversion H as [|? ? H1 H2]. subst. f_equal.
  rewrite IH by exact H2. apply map_ext_in. intros u Hu. rewrite remove_get; [reflexivity|]. intros ->. contradiction.
Qed.
Lemma take_events_length txs : forall m, length (take_events m txs) = length txs.
Proof. induction txs as [|t txs IH]; intros m; cbn; [reflexivity|]. now rewrite IH. Qed.
Lemma ordered_keys m txs : forall x, In x (ordered m txs) -> In (fst x) txs /\ In x m.
Proof.
  induction txs as [|t txs IH]; cbn; [tauto|]. intros x. destruct (get_events m t) as [l|] eqn:E; cbn.
  - intros [<-|H]; [split; [now left|now apply get_in]|]. destruct (IH x H). auto.
  - intros H. destruct (IH x H). auto.
Qed.
Lemma ordered_nodup m txs : NoDup txs -> NoDup (ordered m txs).
Proof.
  induction txs as [|t txs IH]; cbn; [constructor|]. intros H. inversion H as [|? ? H1 H2]. subst.
  destruct (get_events m t) as [l|]; [|now apply IH]. constructor; [|now apply IH].
  intros X. apply ordered_keys in X. cbn in X. tauto.
Qed.
Lemma sum_perm l l' : Permutation l l' -> sum l = sum l'.
Proof. unfold sum. induction 1; cbn; lia. Qed.
Lemma sum_filter l : sum (map (fun y : N * list event => length (snd y)) (filter nonempty l)) = sum (map (fun y => length (snd y)) l).
Proof.
  unfold sum. induction l as [|[k [|x y]] l IH]; cbn; [reflexivity|exact IH|]. now rewrite IH.
Qed.
Lemma combine_snd {A B} (f : A -> B) l : map snd (combine l (map f l)) = map f l.
Proof. induction l as [|a l IH]; cbn; [reflexivity|]. now rewrite IH. Qed.

Lemma events_checked h txs raw m : verified_events e h txs raw = Some m ->
  NoDup txs ->
  sum (map (@length event) (take_events m txs)) = hd_event_count h /\
  e_event_commitment e (filter nonempty (combine txs (take_events m txs))) (hd_version h) = hd_event_commitment h.
Proof.
  unfold verified_events. intros H N. destruct (take_exact (hd_event_count h) raw) as [l|] eqn:E0; [|discriminate].
  destruct (take_exact_some _ _ _ E0) as [<- _].
  destruct (_ && _) eqn:E1; [|discriminate]. injection H as <-. apply andb_true_iff in E1. destruct E1 as [E1 E2].
  apply Nat.eqb_eq in E1. apply N.eqb_eq in E2. destruct (group_grouped l) as (_ & G2 & G3 & G4).
  rewrite take_events_spec by exact N. rewrite <- ordered_spec by exact G4. split; [|exact E2].
  set (f := fun t => default (get_events (group l) t)) in *.
  assert (E : map (@length event) (map f txs) = map (fun y => length (snd y)) (combine txs (map f txs))).
  { rewrite <- (combine_snd f) at 1. now rewrite map_map. }
  rewrite E, <- sum_filter. unfold f. rewrite <- ordered_spec by exact G4. rewrite <- G3.
  apply sum_perm, Permutation_map. apply NoDup_Permutation_bis.
  - now apply ordered_nodup.
  - lia.
  - intros x Hx. now apply ordered_keys in Hx.
Qed.

(* ---- classes ---- *)
Definition key (x : N * def) : N * bool := match x with (c, Cairo _) => (c, true) | (c, Sierra _) => (c, false) end.
Lemma remove_cairo_spec c l l' : remove_cairo c l = Some l' -> In c l /\ forall x, In x l' <-> In x l /\ x <> c.
Proof.
  unfold remove_cairo. destruct (existsb (N.eqb c) l) eqn:E; [|discriminate]. intros H. injection H as <-.
  apply existsb_exists in E. destruct E as (y & Hy & Ey). apply N.eqb_eq in Ey. subst y. split; [exact Hy|].
  intros x. rewrite filter_In, negb_true_iff, N.eqb_neq. intuition congruence.
Qed.
Lemma remove_sierra_spec c l l' : remove_sierra c l = Some l' -> In c (map fst l) /\ forall x, In x (map fst l') <-> In x (map fst l) /\ x <> c.
Proof.
  unfold remove_sierra. destruct (existsb _ l) eqn:E; [|discriminate]. intros H. injection H as <-.
  apply existsb_exists in E. destruct E as (y & Hy & Ey). apply N.eqb_eq in Ey. subst c. split; [now apply in_map|].
  intros x. rewrite !in_map_iff. split.
  - intros (z & <- & Hz). apply filter_In in Hz. rewrite negb_true_iff, N.eqb_neq in Hz. destruct Hz as [Hz Nz].
    split; [exists z; auto|congruence].
  - intros [(z & <- & Hz) Nz]. exists z. split; [reflexivity|]. apply filter_In. rewrite negb_true_iff, N.eqb_neq. auto.
Qed.
Lemma declared_checked l : forall cairo sierra, all_declared cairo sierra l = true ->
  (forall c, In c cairo <-> exists d m, In (c, Cairo d, m) l) /\
  (forall c, In c (map fst sierra) <-> exists d m, In (c, Sierra d, m) l) /\
  NoDup (map (fun x => key (fst x)) l).
Proof.
  induction l as [|[[c [d|d]] m] l IH]; intros cairo sierra H; cbn in H.
  - destruct cairo; [|discriminate]. destruct sierra; [|discriminate]. split; [|split; [|constructor]].
    + intros c. split; [intros []|intros (? & ? & [])].
    + intros c. split; [intros []|intros (? & ? & [])].
  - destruct (remove_cairo c cairo) as [cairo'|] eqn:E; [|discriminate]. destruct (remove_cairo_spec _ _ _ E) as [R1 R2].
    destruct (IH _ _ H) as (I1 & I2 & I3). split; [|split].
    + intros x. split.
      * intros Hx. destruct (N.eq_dec x c) as [->|Nx]; [exists d, m; now left|].
        destruct (proj1 (I1 x)) as (d' & m' & Hd); [apply R2; auto|]. exists d', m'. now right.
      * intros (d' & m' & [Hd|Hd]); [injection Hd as <- _ _; exact R1|]. apply R2, I1. eauto.
    + intros x. rewrite I2. split; intros (d' & m' & Hd); exists d', m'; [now right|]. destruct Hd as [Hd|Hd]; [discriminate|exact Hd].
    + cbn. constructor; [|exact I3]. intros X. apply in_map_iff in X. destruct X as ([[c' [d'|d']] m'] & E1 & E2); [|discriminate].
      cbn in E1. injection E1 as ->. assert (X : In c cairo') by (apply I1; eauto). apply R2 in X. tauto.
  - destruct (remove_sierra c sierra) as [sierra'|] eqn:E; [|discriminate]. destruct (remove_sierra_spec _ _ _ E) as [R1 R2].
    destruct (IH _ _ H) as (I1 & I2 & I3). split; [|split].
    + intros x. rewrite I1. split; intros (d' & m' & Hd); exists d', m'; [now right|]. destruct Hd as [Hd|Hd]; [discriminate|exact Hd].
    + intros x. split.
      * intros Hx. destruct (N.eq_dec x c) as [->|Nx]; [exists d, m; now left|].
        destruct (proj1 (I2 x)) as (d' & m' & Hd); [apply R2; auto|]. exists d', m'. now right.
      * intros (d' & m' & [Hd|Hd]); [injection Hd as <- _ _; exact R1|]. apply R2, I2. eauto.
    + cbn. constructor; [|exact I3]. intros X. apply in_map_iff in X. destruct X as ([[c' [d'|d']] m'] & E1 & E2); [discriminate|].
      cbn in E1. injection E1 as ->. assert (X : In c (map fst sierra')) by (apply I2; eauto). apply R2 in X. tauto.
Qed.
Lemma classes_checked raw l' l : all (verify_class e) raw = Some l' -> all (compile e) l' = Some l ->
  forall c d m, In (c, d, m) l -> e_class_hash e d = Some c.
Proof.
  intros H1 H2 c d m Hx. apply all_some in H1, H2. apply In_nth_error in Hx. destruct Hx as (i & Hi).
  destruct (forall2_nth _ _ _ H2 i _ Hi) as ((c2 & d2) & Hj & Hc). unfold compile in Hc. cbn in Hc.
  assert ((c2, d2) = (c, d)).
  { destruct d2; [injection Hc as <- <- _; reflexivity|]. destruct (e_casm e c2 d0); [|discriminate]. injection Hc as <- <- _. reflexivity. }
  injection H as -> ->.
  destruct (forall2_nth _ _ _ H1 i _ Hj) as ((c3 & d3) & _ & Hv). unfold verify_class in Hv. cbn in Hv.
  destruct (e_class_hash e d3) as [x|] eqn:E; [|discriminate]. destruct (N.eqb x c3) eqn:E2; [|discriminate].
  injection Hv as -> ->. apply N.eqb_eq in E2. subst. exact E.
Qed.

(* ---- honest answers pass ---- *)
Lemma txs_pass h w : describes e w h ->
  exists l l', fetched_txs h (map Some (w_txs w (hd_number h))) = Some l /\ verified_txs e h l = Some l' /\
    map (fun y => t_hash (fst y)) l' = map (fun x => t_hash (fst x)) (w_txs w (hd_number h)).
Proof.
  intros (D1 & D2 & D3 & _). set (raw := w_txs w (hd_number h)) in *. unfold fetched_txs. rewrite <- D1, take_exact_all. cbn [option_map].
  eexists. eexists. split; [reflexivity|]. unfold verified_txs.
  set (g := fun x : nat * (tx * N) => (Tx (t_hash (fst (snd x))) (e_address e (t_body (fst (snd x)))),
              Receipt (e_tx_hash e (e_address e (t_body (fst (snd x))))) (fst x) (snd (snd x)))).
  rewrite (all_map _ g).
  - replace (map fst (map g (enumerate 0 raw))) with (map (fun x => Tx (t_hash (fst x)) (e_address e (t_body (fst x)))) raw).
    + rewrite D3, N.eqb_refl. split; [reflexivity|]. rewrite map_map. cbn. clear.
      generalize 0. induction raw as [|a l IH]; intros n; cbn; [reflexivity|]. now rewrite IH.
    + clear. generalize 0. induction raw as [|a l IH]; intros n; cbn; [reflexivity|]. now rewrite <- IH.
  - intros [i [t r]] H. unfold calculate_hash, g. cbn. apply In_nth_error in H. destruct H as (j & H). apply enumerate_nth in H.
    destruct H as [_ H]. cbn in H. apply nth_error_In in H.
    specialize (D2 (Tx (t_hash t) (e_address e (t_body t)))). cbn in D2. rewrite D2; [now rewrite N.eqb_refl|].
    apply in_map_iff. exists (t, r). auto.
Qed.
Lemma ordered_by_tx l txs : ordered (group l) txs = by_tx l txs.
Proof.
  destruct (group_grouped l) as (G1 & _). unfold by_tx. induction txs as [|t txs IH]; cbn; [reflexivity|].
  rewrite G1. fold (of_tx l t). rewrite IH. destruct (of_tx l t); reflexivity.
Qed.
Lemma ordered_all m txs : NoDup (map fst m) -> NoDup txs -> (forall x, In x m -> In (fst x) txs) -> length (ordered m txs) = length m.
Proof.
  intros N1 N2 H. apply Permutation_length. apply NoDup_Permutation.
  - now apply ordered_nodup.
  - exact (NoDup_map_inv _ _ N1).
  - intros x. split; [intros X; now apply ordered_keys in X|]. intros Hx.
    assert (Hg : get_events m (fst x) = Some (snd x)).
    { clear -N1 Hx. unfold get_events. induction m as [|y m IH]; [destruct Hx|]. cbn. inversion N1 as [|? ? H1 H2]. subst.
      destruct Hx as [->|Hx]; [now rewrite N.eqb_refl|]. destruct (N.eqb (fst y) (fst x)) eqn:E; [|now apply IH].
      apply N.eqb_eq in E. destruct H1. rewrite E. now apply in_map. }
    specialize (H x Hx). clear -Hg H. induction txs as [|t txs IH]; [destruct H|]. cbn.
    destruct H as [->|H]; [rewrite Hg; left; now destruct x|]. destruct (get_events m t); [right|]; now apply IH.
Qed.
Lemma events_pass h w : describes e w h ->
  exists m, verified_events e h (map (fun x => t_hash (fst x)) (w_txs w (hd_number h))) (map Some (w_events w (hd_number h))) = Some m.
Proof.
  intros (D1 & D2 & D3 & D4 & D5 & D6 & D7 & _). rewrite map_map in D5, D6, D7. cbn in D5, D6, D7.
  unfold verified_events. rewrite <- D4, take_exact_all. eexists.
  destruct (group_grouped (w_events w (hd_number h))) as (G1 & G2 & _).
  rewrite ordered_all; [|exact G2|exact D5|].
  - rewrite Nat.eqb_refl, ordered_by_tx, D7, N.eqb_refl. reflexivity.
  - intros x Hx. assert (Hg : In (fst x) (map fst (group (w_events w (hd_number h))))) by now apply in_map.
    assert (X : get_events (group (w_events w (hd_number h))) (fst x) <> None).
    { unfold get_events. destruct (find _ _) eqn:E; [discriminate|]. intros _.
      apply (find_none _ _ E) in Hx. rewrite N.eqb_refl in Hx. discriminate. }
    rewrite G1 in X. unfold of_tx in X.
    destruct (filter (fun y => N.eqb (fst y) (fst x)) (w_events w (hd_number h))) as [|y z] eqn:E; [now destruct X|].
    assert (Hy : In y (y :: z)) by now left. rewrite <- E in Hy. apply filter_In in Hy. destruct Hy as [Hy E2].
    apply N.eqb_eq in E2. rewrite <- E2. now apply D6.
Qed.
Lemma all_declared_pass l : forall cairo sierra,
  NoDup (map (fun x : class => key (fst x)) l) ->
  (forall c, In c cairo <-> exists d m, In (c, Cairo d, m) l) ->
  (forall c, In c (map fst sierra) <-> exists d m, In (c, Sierra d, m) l) ->
  all_declared cairo sierra l = true.
Proof.
  induction l as [|[[c [d|d]] m] l IH]; intros cairo sierra N H1 H2; cbn.
  - destruct cairo as [|x cairo]; [|destruct (proj1 (H1 x) (or_introl eq_refl)) as (? & ? & [])].
    destruct sierra as [|[x y] sierra]; [reflexivity|destruct (proj1 (H2 x) (or_introl eq_refl)) as (? & ? & [])].
  - inversion N as [|? ? N1 N2]. subst. cbn in N1. destruct (remove_cairo c cairo) as [cairo'|] eqn:E.
    + destruct (remove_cairo_spec _ _ _ E) as [R1 R2]. apply IH; [exact N2| |].
      * intros x. rewrite R2, H1. split.
        -- intros [(d' & m' & [X|X]) Nx]; [injection X as -> _ _; congruence|eauto].
        -- intros (d' & m' & X). split; [exists d', m'; now right|]. intros ->. apply N1. apply in_map_iff. exists (c, Cairo d', m'). auto.
      * intros x. rewrite H2. split; intros (d' & m' & X); exists d', m'; [destruct X as [X|X]; [discriminate|exact X]|now right].
    + unfold remove_cairo in E. destruct (existsb (N.eqb c) cairo) eqn:E2; [discriminate|].
      assert (X : In c cairo) by (apply H1; exists d, m; now left).
      assert (existsb (N.eqb c) cairo = true) by (apply existsb_exists; exists c; split; [exact X|apply N.eqb_refl]). congruence.
  - inversion N as [|? ? N1 N2]. subst. cbn in N1. destruct (remove_sierra c sierra) as [sierra'|] eqn:E.
    + destruct (remove_sierra_spec _ _ _ E) as [R1 R2]. apply IH; [exact N2| |].
      * intros x. rewrite H1. split; intros (d' & m' & X); exists d', m'; [destruct X as [X|X]; [discriminate|exact X]|now right].
      * intros x. rewrite R2, H2. split.
        -- intros [(d' & m' & [X|X]) Nx]; [injection X as -> _ _; congruence|eauto].
        -- intros (d' & m' & X). split; [exists d', m'; now right|]. intros ->. apply N1. apply in_map_iff. exists (c, Sierra d', m'). auto.
    + unfold remove_sierra in E. destruct (existsb (fun x => N.eqb c (fst x)) sierra) eqn:E2; [discriminate|].
      assert (X : In c (map fst sierra)) by (apply H2; exists d, m; now left). apply in_map_iff in X. destruct X as (y & <- & X).
      assert (existsb (fun x => N.eqb (fst y) (fst x)) sierra = true) by (apply existsb_exists; exists y; split; [exact X|apply N.eqb_refl]).
      congruence.
Qed.
Lemma classes_pass h w : describes e w h ->
  exists l, all (verify_class e) (w_classes w (hd_number h)) = Some (w_classes w (hd_number h)) /\
    all (compile e) (w_classes w (hd_number h)) = Some l /\
    all_declared (d_cairo (w_diff w (hd_number h))) (d_sierra (w_diff w (hd_number h))) l = true.
Proof.
  intros (_ & _ & _ & _ & _ & _ & _ & _ & D9 & D10 & D11 & D12 & D13). set (raw := w_classes w (hd_number h)) in *.
  set (g := fun x : N * def => (x, match snd x with Cairo _ => None | Sierra d => e_casm e (fst x) d end)).
  exists (map g raw). split; [|split].
  - rewrite (all_map _ (fun x => x)); [now rewrite map_id|]. intros [c d] Hx. unfold verify_class. cbn.
    rewrite (D12 c d Hx), N.eqb_refl. reflexivity.
  - apply all_map. intros [c [d|d]] Hx; unfold compile, g; cbn; [reflexivity|].
    specialize (D13 c d Hx). destruct (e_casm e c d); [reflexivity|contradiction].
  - apply all_declared_pass.
    + rewrite map_map. cbn. exact D9.
    + intros c. rewrite D10. split.
      * intros (d & Hd). exists d, None. apply in_map_iff. exists (c, Cairo d). auto.
      * intros (d & m & Hd). apply in_map_iff in Hd. destruct Hd as ([c' d'] & E & Hd). injection E as -> -> _. eauto.
    + intros c. rewrite D11. split.
      * intros (d & Hd). exists d, (e_casm e c d). apply in_map_iff. exists (c, Sierra d). auto.
      * intros (d & m & Hd). apply in_map_iff in Hd. destruct Hd as ([c' d'] & E & Hd). injection E as -> -> _. eauto.
Qed.
End Checks.
