(* Proofs about state updates. *)
From Coq Require Import List Arith NArith Bool Lia Permutation ZifyBool ZifyNat ZifyN.
From Verif Require Import AList SortedMap StateUpdateModel StateUpdateSpec.
Import ListNotations.
Local Open Scope N_scope.

(* ---- maps ---- *)

Lemma nget_in : forall {V} (m : nmap V) k v, NoDup (map fst m) -> (nget k m = Some v <-> In (k, v) m).
Proof.
  intros V m k v ND. split; [apply (al_get_in _ N.eqb_spec)|apply (al_in_get _ N.eqb_spec), ND].
Qed.

Lemma nget_cons : forall {V} k k' (v : V) m,
  nget k ((k', v) :: m) = if k =? k' then Some v else nget k m.
Proof. reflexivity. Qed.

Lemma nget_nset : forall {V} k k' (v : V) m,
  nget k (nset k' v m) = if k =? k' then Some v else nget k m.
Proof.
  intros V k k' v m. destruct (N.eqb_spec k k') as [->|NE].
  - apply (al_get_set_eq _ N.eqb_spec).
  - apply (al_get_set_neq _ N.eqb_spec), NE.
Qed.

Definition merge_with {V W} (f : option V -> W -> V) (m : nmap V) (other : nmap W) : nmap V :=
  fold_left (fun m kv => nset (fst kv) (f (nget (fst kv) m) (snd kv)) m) other m.

Lemma nget_merge_with : forall {V W} (f : option V -> W -> V) (other : nmap W) m k,
  NoDup (map fst other) ->
  nget k (merge_with f m other) =
  match nget k other with Some o => Some (f (nget k m) o) | None => nget k m end.
Proof.
  intros V W f other. induction other as [|[a b] other IH]; intros m k ND; [reflexivity|].
  inversion ND as [|? ? NI ND']; subst. unfold merge_with in *. cbn [fold_left fst snd].
  rewrite IH by exact ND'. rewrite nget_cons, nget_nset. destruct (N.eqb_spec k a) as [->|NE].
  - rewrite (al_not_in_get_none _ N.eqb_spec a other NI). reflexivity.
  - reflexivity.
Qed.

Lemma nodup_merge_with : forall {V W} (f : option V -> W -> V) (other : nmap W) m,
  NoDup (map fst m) -> NoDup (map fst (merge_with f m other)).
Proof.
  intros V W f other. induction other as [|[a b] other IH]; intros m ND; [exact ND|].
  unfold merge_with in *. cbn [fold_left fst snd]. apply IH.
  apply (al_nodup_set _ N.eqb_spec), ND.
Qed.

Lemma extend_map_merge : forall {V} (m other : nmap V), extend_map m other = merge_with (fun _ o => o) m other.
Proof. reflexivity. Qed.

Lemma nget_extend : forall {V} (m other : nmap V) k, NoDup (map fst other) ->
  nget k (extend_map m other) = or_else (nget k other) (nget k m).
Proof. intros. rewrite extend_map_merge, nget_merge_with by assumption. reflexivity. Qed.

Lemma in_extend_set : forall other s x, In x (extend_set s other) <-> In x s \/ In x other.
Proof.
  unfold extend_set. induction other as [|y other IH]; intros s x; simpl; [tauto|].
  rewrite IH. destruct (existsb (N.eqb y) s) eqn:E.
  - apply existsb_exists in E. destruct E as (z & I & Z). apply N.eqb_eq in Z. subst z.
    split; [tauto|]. intros [H|[<-|H]]; auto.
  - simpl. split; [intros [[H|H]|H]; auto|intros [H|[H|H]]; auto].
Qed.

Lemma nodup_extend_set : forall other s, NoDup s -> NoDup (extend_set s other).
Proof.
  unfold extend_set. induction other as [|y other IH]; intros s ND; simpl; auto. apply IH.
  destruct (existsb (N.eqb y) s) eqn:E; auto. constructor; auto. intros I.
  assert (X : existsb (N.eqb y) s = true) by (apply existsb_exists; exists y; split; [auto|apply N.eqb_refl]).
  congruence.
Qed.

(* ---- C25 ---- *)

Lemma apply_contracts : forall u w, su_contracts (apply u w) =
  merge_with (fun o c => merge_contract (get_or contract_default o) c) (su_contracts u) (su_contracts w).
Proof. reflexivity. Qed.
Lemma apply_system : forall u w, su_system (apply u w) =
  merge_with (fun o st => extend_map (get_or [] o) st) (su_system u) (su_system w).
Proof. reflexivity. Qed.

Lemma apply_valid : forall u w, valid_update u -> valid_update w -> valid_update (apply u w).
Proof.
  intros u w U W. destruct U, W. unfold valid_update, to_data in *. simpl in *.
  assert (NDC := nodup_merge_with (fun o c => merge_contract (get_or contract_default o) c)
    (su_contracts w) (su_contracts u) vd_contracts).
  assert (NDS := nodup_merge_with (fun o st => extend_map (get_or [] o) st)
    (su_system w) (su_system u) vd_system).
  constructor; simpl.
  - exact NDC.
  - exact NDS.
  - apply nodup_extend_set; auto.
  - rewrite extend_map_merge. apply nodup_merge_with; auto.
  - auto.
  - intros a c I.
    change (In (a, c) (merge_with (fun o c => merge_contract (get_or contract_default o) c)
       (su_contracts u) (su_contracts w))) in I.
    apply (nget_in _ _ _ NDC) in I. rewrite nget_merge_with in I by auto.
    destruct (nget a (su_contracts w)) as [o|] eqn:EO.
    + injection I as <-. simpl. rewrite extend_map_merge. apply nodup_merge_with.
      destruct (nget a (su_contracts u)) as [c|] eqn:EC; simpl; [|constructor].
      apply nget_in in EC; auto. eauto.
    + apply nget_in in I; eauto.
  - intros a st I.
    change (In (a, st) (merge_with (fun o st => extend_map (get_or [] o) st)
       (su_system u) (su_system w))) in I.
    apply (nget_in _ _ _ NDS) in I. rewrite nget_merge_with in I by auto.
    destruct (nget a (su_system w)) as [o|] eqn:EO.
    + injection I as <-. rewrite extend_map_merge. apply nodup_merge_with.
      destruct (nget a (su_system u)) as [c|] eqn:EC; simpl; [|constructor].
      apply nget_in in EC; auto. eauto.
    + apply nget_in in I; eauto.
Qed.

Lemma deploys_get : forall u a, valid_update u ->
  (deploys u a <-> exists c h, nget a (su_contracts u) = Some c /\ cu_class c = Some (Deploy h)).
Proof.
  intros u a V. destruct V. simpl in *. unfold deploys. split.
  - intros (h & H). inversion H; subst. exists c, h. split; auto. apply nget_in; auto.
  - intros (c & h & G & E). exists h. apply has_deploy with c; auto. apply nget_in; auto.
Qed.
Lemma replaces_get : forall u a, valid_update u ->
  (replaces u a <-> exists c h, nget a (su_contracts u) = Some c /\ cu_class c = Some (Replace h)).
Proof.
  intros u a V. destruct V. simpl in *. unfold replaces. split.
  - intros (h & H). inversion H; subst. exists c, h. split; auto. apply nget_in; auto.
  - intros (c & h & G & E). exists h. apply has_replace with c; auto. apply nget_in; auto.
Qed.

Lemma apply_class : forall u w a, valid_update u -> valid_update w ->
  contract_class (apply u w) a = or_else (contract_class w a) (contract_class u a).
Proof.
  intros u w a U W. destruct W. simpl in *. unfold contract_class. rewrite apply_contracts, nget_merge_with by auto.
  destruct (nget a (su_contracts w)) as [o|]; [|reflexivity]. simpl.
  destruct (cu_class o); [reflexivity|]. simpl. destruct (nget a (su_contracts u)); reflexivity.
Qed.

Lemma apply_nonce : forall u w a, valid_update u -> valid_update w ->
  (deploys w a -> contract_nonce u a = None) ->
  (replaces w a -> ~ deploys u a) ->
  contract_nonce (apply u w) a = or_else (contract_nonce w a) (contract_nonce u a).
Proof.
  intros u w a U W D R. rewrite (deploys_get w a W) in D. rewrite (replaces_get w a W), (deploys_get u a U) in R.
  destruct W. simpl in *. unfold contract_nonce in *. rewrite apply_contracts, nget_merge_with by auto.
  destruct (nget a (su_contracts w)) as [o|]; [|reflexivity]. simpl.
  destruct (cu_nonce o) as [n|]; [reflexivity|]. simpl.
  destruct (cu_class o) as [[h|h]|] eqn:EC; simpl.
  - assert (D' := D ltac:(eauto)).
    destruct (nget a (su_contracts u)) as [c|]; simpl; [|reflexivity].
    destruct (cu_nonce c); [discriminate|reflexivity].
  - assert (R' := R ltac:(eauto)).
    destruct (nget a (su_contracts u)) as [c|]; simpl; [|reflexivity].
    destruct (cu_nonce c); [reflexivity|]. destruct (cu_class c) as [[h'|h']|] eqn:EC'; try reflexivity.
    destruct R'. eauto.
  - destruct (nget a (su_contracts u)) as [c|]; reflexivity.
Qed.

Lemma apply_storage : forall u w a k, valid_update u -> valid_update w ->
  (deploys w a -> storage_value u a k = None) ->
  (replaces w a -> ~ deploys u a) ->
  (mentions_contract u a \/ mentions_contract w a -> ~ mentions_system u a /\ ~ mentions_system w a) ->
  storage_value (apply u w) a k = or_else (storage_value w a k) (storage_value u a k).
Proof.
  intros u w a k U W D R S. rewrite (deploys_get w a W) in D. rewrite (replaces_get w a W), (deploys_get u a U) in R.
  assert (SW : nget a (su_contracts u) <> None \/ nget a (su_contracts w) <> None ->
               nget a (su_system u) = None /\ nget a (su_system w) = None).
  { intros H. destruct S as [S1 S2].
    - destruct H as [H|H]; [left|right].
      + destruct (nget a (su_contracts u)) eqn:E; [|easy]. apply (al_get_in _ N.eqb_spec) in E. eexists. eauto.
      + destruct (nget a (su_contracts w)) eqn:E; [|easy]. apply (al_get_in _ N.eqb_spec) in E. eexists. eauto.
    - split.
      + destruct (nget a (su_system u)) eqn:E; [|easy]. apply (al_get_in _ N.eqb_spec) in E. destruct S1. eexists. eauto.
      + destruct (nget a (su_system w)) eqn:E; [|easy]. apply (al_get_in _ N.eqb_spec) in E. destruct S2. eexists. eauto. }
  clear S. destruct W. simpl in *. unfold storage_value, storage_provenance in *.
  rewrite apply_contracts, apply_system, !nget_merge_with by auto.
  destruct (nget a (su_contracts w)) as [o|] eqn:EO.
  - destruct SW as [-> ->]; [right; congruence|].
    assert (NDO : NoDup (map fst (cu_storage o))).
    { eapply vd_storage. eapply (al_get_in _ N.eqb_spec). exact EO. }
    cbn [merge_contract cu_storage cu_class]. rewrite nget_extend by exact NDO.
    destruct (nget k (cu_storage o)) as [v|]; [reflexivity|]. cbn [or_else].
    destruct (nget a (su_contracts u)) as [c|] eqn:EC; cbn [get_or contract_default cu_storage cu_class].
    + destruct (nget k (cu_storage c)) as [v|] eqn:EV.
      * destruct (cu_class o) as [[h|h]|] eqn:ECO; try reflexivity.
        assert (D' := D ltac:(eauto)). discriminate D'.
      * destruct (cu_class o) as [[h|h]|] eqn:ECO; try reflexivity.
        assert (R' := R ltac:(eauto)).
        destruct (cu_class c) as [[h'|h']|] eqn:EC'; try reflexivity. destruct R'. eauto.
    + destruct (cu_class o) as [[h|h]|]; reflexivity.
  - destruct (nget a (su_contracts u)) as [c|] eqn:EC.
    + destruct SW as [-> ->]; [left; congruence|]. reflexivity.
    + destruct (nget a (su_system w)) as [st|] eqn:ES; [|reflexivity].
      assert (NDS : NoDup (map fst st)).
      { eapply vd_system_storage. eapply (al_get_in _ N.eqb_spec). exact ES. }
      rewrite nget_extend by exact NDS. destruct (nget k st); [reflexivity|]. cbn [or_else option_map].
      destruct (nget a (su_system u)); reflexivity.
Qed.

Lemma existsb_In : forall l x, existsb (N.eqb x) l = true <-> In x l.
Proof.
  intros l x. rewrite existsb_exists. split.
  - intros (y & I & E). apply N.eqb_eq in E. congruence.
  - intros I. exists x. split; [exact I|apply N.eqb_refl].
Qed.

Lemma declared_spec : forall u h, class_is_declared u h = true <->
  In h (su_cairo u) \/ exists c, nget h (su_sierra u) = Some c.
Proof.
  intros u h. unfold class_is_declared. rewrite orb_true_iff, existsb_In. unfold al_mem.
  destruct (nget h (su_sierra u)) as [c|]; split; intros [H|H]; auto; try discriminate; eauto.
  destruct H as [c H]. discriminate.
Qed.

(* ---- C26 ---- *)

Lemma counts_intro : forall {A} (Q : A -> Prop) l,
  NoDup l -> (forall x, In x l <-> Q x) -> counts Q (length l).
Proof.
  intros A Q l ND M l' ND' M'. apply Permutation_length, NoDup_Permutation; auto.
  intros x. rewrite M, M'. reflexivity.
Qed.

Lemma NoDup_app' : forall {A} (l1 l2 : list A), NoDup l1 -> NoDup l2 ->
  (forall x, In x l1 -> ~ In x l2) -> NoDup (l1 ++ l2).
Proof.
  intros A l1 l2 N1 N2 D. induction N1 as [|x l NI N1 IH]; simpl; auto. constructor.
  - intros I. apply in_app_or in I. destruct I as [I|I]; [auto|]. apply (D x); [left; auto|exact I].
  - apply IH. intros y I. apply D. right. exact I.
Qed.

Lemma NoDup_map_inj : forall {A B} (f : A -> B) l,
  (forall x y, In x l -> In y l -> f x = f y -> x = y) -> NoDup l -> NoDup (map f l).
Proof.
  intros A B f l INJ ND. induction ND as [|x l NI ND IH]; simpl; [constructor|]. constructor.
  - intros I. apply in_map_iff in I. destruct I as (y & E & I). apply NI.
    rewrite (INJ x y); auto; [left; auto|right; auto].
  - apply IH. intros y z Y Z. apply INJ; right; auto.
Qed.

Lemma NoDup_flat_map_key : forall {A B K} (key : B -> K) (k : A -> K) (f : A -> list B) l,
  NoDup (map k l) -> (forall x, In x l -> NoDup (f x)) ->
  (forall x y, In x l -> In y (f x) -> key y = k x) -> NoDup (flat_map f l).
Proof.
  intros A B K key k f l ND F T. induction l as [|x l IH]; simpl; [constructor|].
  inversion ND as [|? ? NI ND']; subst. apply NoDup_app'.
  - apply F. left. auto.
  - apply IH; auto; intros; [apply F|apply T]; simpl; auto.
  - intros y Y I. apply in_flat_map in I. destruct I as (z & Z & I). apply NI.
    rewrite <- (T x y), (T z y); simpl; auto. apply in_map. exact Z.
Qed.

Lemma NoDup_of_map : forall {A B} (f : A -> B) l, NoDup (map f l) -> NoDup l.
Proof. intros A B f l. apply NoDup_map_inv. Qed.

Definition change_key (c : change) : N :=
  match c with
  | StorageWrite a _ _ | SystemStorageWrite a _ _ | NonceChange a _ | Deployment a _ | Replacement a _
  | CairoDeclaration a | SierraDeclaration a _ | Migration a _ => a
  end.

Definition opt_list {A} (o : option A) : list A := match o with Some x => [x] | None => [] end.
Definition contract_changes (x : N * contract_update) : list change :=
  map (fun kv => StorageWrite (fst x) (fst kv) (snd kv)) (cu_storage (snd x))
  ++ map (NonceChange (fst x)) (opt_list (cu_nonce (snd x)))
  ++ map (fun c => match c with Deploy h => Deployment (fst x) h | Replace h => Replacement (fst x) h end)
         (opt_list (cu_class (snd x))).
Definition system_changes (x : N * nmap N) : list change :=
  map (fun kv => SystemStorageWrite (fst x) (fst kv) (snd kv)) (snd x).
Definition nonmigrations (d : state_update_data) : list change :=
  flat_map contract_changes (sd_contracts d) ++ flat_map system_changes (sd_system d)
  ++ map CairoDeclaration (sd_cairo d)
  ++ map (fun kv => SierraDeclaration (fst kv) (snd kv)) (sd_sierra d).
Definition migrations (d : state_update_data) : list change :=
  map (fun kv => Migration (fst kv) (snd kv)) (sd_migrated d).

Lemma in_contract_changes : forall x c, In c (contract_changes x) <->
  (exists k v, In (k, v) (cu_storage (snd x)) /\ c = StorageWrite (fst x) k v) \/
  (exists n, cu_nonce (snd x) = Some n /\ c = NonceChange (fst x) n) \/
  (exists h, cu_class (snd x) = Some (Deploy h) /\ c = Deployment (fst x) h) \/
  (exists h, cu_class (snd x) = Some (Replace h) /\ c = Replacement (fst x) h).
Proof.
  intros [a u] c. unfold contract_changes. cbn [fst snd]. rewrite !in_app_iff, !in_map_iff. split.
  - intros [([k v] & <- & I)|[(n & <- & I)|(h & <- & I)]].
    + left. eauto.
    + right. left. destruct (cu_nonce u); [|easy]. destruct I as [->|[]]. eauto.
    + right. right. destruct (cu_class u) as [[x|x]|]; [| |easy]; destruct I as [<-|[]]; eauto.
  - intros [(k & v & I & ->)|[(n & E & ->)|[(h & E & ->)|(h & E & ->)]]].
    + left. exists (k, v). auto.
    + right. left. exists n. rewrite E. split; auto. left. auto.
    + right. right. exists (Deploy h). rewrite E. split; auto. left. auto.
    + right. right. exists (Replace h). rewrite E. split; auto. left. auto.
Qed.

Lemma in_nonmigrations : forall d c, In c (nonmigrations d) <-> has_change d c /\ ~ is_migration c.
Proof.
  intros d c. unfold nonmigrations. rewrite !in_app_iff, !in_flat_map, !in_map_iff. split.
  - intros [(x & I & C)|[(x & I & C)|[(h & <- & I)|([h k] & <- & I)]]].
    + destruct x as [a u]. apply in_contract_changes in C. cbn [fst snd] in C.
      destruct C as [(k & v & J & ->)|[(n & E & ->)|[(h & E & ->)|(h & E & ->)]]];
        (split; [econstructor; eauto|intros (? & ? & X); discriminate]).
    + destruct x as [a st]. unfold system_changes in C. apply in_map_iff in C.
      destruct C as ([k v] & <- & J). split; [econstructor; eauto|intros (? & ? & X); discriminate].
    + split; [econstructor; eauto|intros (? & ? & X); discriminate].
    + split; [econstructor; eauto|intros (? & ? & X); discriminate].
  - intros [H NM]. inversion H; subst.
    + left. exists (a, c0). split; auto. apply in_contract_changes. left. eauto.
    + right. left. exists (a, st). split; auto. apply in_map_iff. exists (k, v). auto.
    + left. exists (a, c0). split; auto. apply in_contract_changes. right. left. eauto.
    + left. exists (a, c0). split; auto. apply in_contract_changes. right. right. left. eauto.
    + left. exists (a, c0). split; auto. apply in_contract_changes. right. right. right. eauto.
    + right. right. left. eauto.
    + right. right. right. exists (h, c0). auto.
    + destruct NM. do 2 eexists. reflexivity.
Qed.

Lemma in_migrations : forall d c, In c (migrations d) <-> has_change d c /\ is_migration c.
Proof.
  intros d c. unfold migrations. rewrite in_map_iff. split.
  - intros ([h k] & <- & I). split; [econstructor; eauto|do 2 eexists; reflexivity].
  - intros [H (h & k & ->)]. inversion H; subst. exists (h, k). auto.
Qed.

Lemma nodup_contract_changes : forall x, NoDup (map fst (cu_storage (snd x))) -> NoDup (contract_changes x).
Proof.
  intros [a u] ND. unfold contract_changes. cbn [fst snd] in *. apply NoDup_app'.
  - apply NoDup_map_inj; [|eapply NoDup_of_map; exact ND].
    intros [k v] [k' v'] _ _ E. injection E as -> ->. reflexivity.
  - destruct (cu_nonce u), (cu_class u) as [[h|h]|]; simpl; repeat constructor; simpl; intuition discriminate.
  - intros c I J. apply in_map_iff in I. destruct I as (kv & <- & I).
    apply in_app_or in J. destruct J as [J|J]; apply in_map_iff in J; destruct J as (y & E & _); [discriminate|].
    destruct y; discriminate.
Qed.

Lemma nodup_nonmigrations : forall d, valid_data d -> NoDup (nonmigrations d).
Proof.
  intros d V. destruct V. unfold nonmigrations. apply NoDup_app'; [|apply NoDup_app'; [|apply NoDup_app'|]|].
  - apply (NoDup_flat_map_key change_key fst); auto.
    + intros [a c] I. apply nodup_contract_changes. eauto.
    + intros [a c] y I J. apply in_contract_changes in J. cbn [fst snd] in J.
      destruct J as [(k & v & _ & ->)|[(n & _ & ->)|[(h & _ & ->)|(h & _ & ->)]]]; reflexivity.
  - apply (NoDup_flat_map_key change_key fst); auto.
    + intros [a st] I. unfold system_changes. apply NoDup_map_inj; [|eapply NoDup_of_map; eauto].
      intros [k v] [k' v'] _ _ E. injection E as -> ->. reflexivity.
    + intros [a st] y I J. unfold system_changes in J. apply in_map_iff in J. destruct J as (z & <- & _). reflexivity.
  - apply NoDup_map_inj; auto. intros x y _ _ E. injection E as ->. reflexivity.
  - apply NoDup_map_inj; [|eapply NoDup_of_map; eauto].
    intros [k v] [k' v'] _ _ E. injection E as -> ->. reflexivity.
  - intros x I J. apply in_map_iff in I. destruct I as (? & <- & _). apply in_map_iff in J.
    destruct J as (? & E & _). discriminate.
  - intros x I J. apply in_flat_map in I. destruct I as (y & _ & I). unfold system_changes in I.
    apply in_map_iff in I. destruct I as (? & <- & _).
    apply in_app_or in J. destruct J as [J|J]; apply in_map_iff in J; destruct J as (? & E & _); discriminate.
  - intros x I J. apply in_flat_map in I. destruct I as (y & _ & I). apply in_contract_changes in I.
    apply in_app_or in J. destruct J as [J|J].
    + apply in_flat_map in J. destruct J as (z & _ & J). unfold system_changes in J. apply in_map_iff in J.
      destruct J as (? & <- & _).
      destruct I as [(k & v & _ & X)|[(n & _ & X)|[(h & _ & X)|(h & _ & X)]]]; discriminate.
    + apply in_app_or in J. destruct J as [J|J]; apply in_map_iff in J; destruct J as (? & <- & _);
        destruct I as [(k & v & _ & X)|[(n & _ & X)|[(h & _ & X)|(h & _ & X)]]]; discriminate.
Qed.

Lemma nodup_changes : forall d, valid_data d -> NoDup (nonmigrations d ++ migrations d).
Proof.
  intros d V. apply NoDup_app'; [apply nodup_nonmigrations, V| |].
  - destruct V. unfold migrations. apply NoDup_map_inj; [|eapply NoDup_of_map; eauto].
    intros [k v] [k' v'] _ _ E. injection E as -> ->. reflexivity.
  - intros c I J. apply in_nonmigrations in I. apply in_migrations in J. tauto.
Qed.

Lemma length_flat_map : forall {A B} (f : A -> list B) l,
  length (flat_map f l) = sum (map (fun x => length (f x)) l).
Proof. induction l as [|x l IH]; simpl; auto. rewrite app_length, IH. reflexivity. Qed.

Lemma length_nonmigrations : forall d, length (nonmigrations d) = data_state_diff_length d.
Proof.
  intros d. unfold nonmigrations, data_state_diff_length, contracts_length, system_length.
  rewrite !app_length, !map_length, !length_flat_map.
  assert (E1 : map (fun x => length (contract_changes x)) (sd_contracts d) =
    map (fun x => length (cu_storage (snd x)) + opt_count (cu_nonce (snd x)) + opt_count (cu_class (snd x)))%nat
      (sd_contracts d)).
  { apply map_ext. intros [a c]. unfold contract_changes. cbn [fst snd]. rewrite !app_length, !map_length.
    destruct (cu_nonce c), (cu_class c); simpl; lia. }
  assert (E2 : map (fun x => length (system_changes x)) (sd_system d) = map (fun x => length (snd x)) (sd_system d)).
  { apply map_ext. intros [a c]. unfold system_changes. rewrite map_length. reflexivity. }
  rewrite E1, E2. lia.
Qed.

Lemma data_length_counts : forall d, valid_data d ->
  counts (fun c => has_change d c /\ ~ is_migration c) (data_state_diff_length d).
Proof.
  intros d V. rewrite <- length_nonmigrations. apply counts_intro.
  - apply nodup_nonmigrations, V.
  - intros c. apply in_nonmigrations.
Qed.

Lemma length_counts : forall u, valid_update u ->
  counts (has_change (to_data u)) (state_diff_length u).
Proof.
  intros u V.
  assert (E : state_diff_length u = length (nonmigrations (to_data u) ++ migrations (to_data u))).
  { rewrite app_length, length_nonmigrations. unfold migrations. rewrite map_length.
    unfold state_diff_length, data_state_diff_length, to_data. simpl. lia. }
  rewrite E. apply counts_intro; [apply nodup_changes, V|].
  intros c. rewrite in_app_iff, in_nonmigrations, in_migrations.
  assert (D : is_migration c \/ ~ is_migration c).
  { destruct c; try (right; intros (? & ? & X); discriminate). left. do 2 eexists. reflexivity. }
  tauto.
Qed.

Lemma changes_exist : forall d, valid_data d -> exists l, NoDup l /\ forall c, In c l <-> has_change d c.
Proof.
  intros d V. exists (nonmigrations d ++ migrations d). split; [apply nodup_changes, V|].
  intros c. rewrite in_app_iff, in_nonmigrations, in_migrations.
  assert (D : is_migration c \/ ~ is_migration c).
  { destruct c; try (right; intros (? & ? & X); discriminate). left. do 2 eexists. reflexivity. }
  tauto.
Qed.

(* ---- C27 ---- *)

Lemma bt_map_sorted : forall {V} (l : nmap V), bt_sorted N.ltb (bt_map l).
Proof. intros V l. apply bt_collect_sorted; [exact N_ltb_trans|exact N_ltb_total]. Qed.
Lemma in_bt_map : forall {V} (l : nmap V) k v, NoDup (map fst l) -> (In (k, v) (bt_map l) <-> In (k, v) l).
Proof.
  intros V l k v ND. apply (bt_in_collect N.ltb N.eqb); auto;
    [exact N.eqb_spec|exact N_ltb_irrefl|exact N_ltb_trans|exact N_ltb_total].
Qed.
Lemma sorted_ext : forall {V} (m1 m2 : nmap V), bt_sorted N.ltb m1 -> bt_sorted N.ltb m2 ->
  (forall k v, In (k, v) m1 <-> In (k, v) m2) -> m1 = m2.
Proof.
  intros V. apply (bt_ext_in N.ltb N.eqb);
    [exact N.eqb_spec|exact N_ltb_irrefl|exact N_ltb_trans|exact N_ltb_total].
Qed.

Lemma in_filter_map : forall {A B} (f : A -> option B) l y,
  In y (filter_map f l) <-> exists x, In x l /\ f x = Some y.
Proof.
  intros A B f l y. unfold filter_map. rewrite in_flat_map. split; intros (x & I & E); exists x; split; auto.
  - destruct (f x); [|easy]. destruct E as [->|[]]. reflexivity.
  - rewrite E. left. reflexivity.
Qed.

Lemma nodup_filter_map : forall {A B} (f : N * A -> option (N * B)) l,
  (forall x y, f x = Some y -> fst y = fst x) -> NoDup (map fst l) -> NoDup (map fst (filter_map f l)).
Proof.
  intros A B f l T. induction l as [|x l IH]; intros ND; [constructor|].
  inversion ND as [|? ? NI ND']; subst. unfold filter_map in *. cbn [flat_map]. rewrite map_app.
  destruct (f x) as [y|] eqn:E; [|apply IH, ND']. simpl. constructor; [|apply IH, ND'].
  intros I. apply NI. rewrite <- (T _ _ E). apply in_map_iff in I. destruct I as (z & EZ & I).
  rewrite <- EZ. apply in_filter_map in I. destruct I as (w & W & EW). rewrite (T _ _ EW).
  apply in_map, W.
Qed.

Lemma in_deployed : forall d a h, valid_data d ->
  (In (a, h) (sdc_deployed (sd_contracts d)) <-> class_change d a h).
Proof.
  intros d a h V. unfold sdc_deployed. rewrite in_bt_map.
  - rewrite in_filter_map. unfold class_change. split.
    + intros ([a' c] & I & E). cbn [fst snd] in E. destruct (cu_class c) as [cu|] eqn:EC; [|discriminate].
      injection E as -> <-. destruct cu; [left|right]; econstructor; eauto.
    + intros [H|H]; inversion H; subst; exists (a, c); split; auto; cbn [fst snd];
        [rewrite H3|rewrite H3]; reflexivity.
  - apply nodup_filter_map; [|destruct V; auto]. intros [a' c] y E. cbn [fst snd] in E.
    destruct (cu_class c); [|discriminate]. injection E as <-. reflexivity.
Qed.

Lemma in_nonces : forall d a n, valid_data d ->
  (In (a, n) (sdc_nonces (sd_contracts d)) <-> has_change d (NonceChange a n)).
Proof.
  intros d a n V. unfold sdc_nonces. rewrite in_bt_map.
  - rewrite in_filter_map. split.
    + intros ([a' c] & I & E). cbn [fst snd] in E. destruct (cu_nonce c) as [m|] eqn:EC; [|discriminate].
      injection E as -> <-. econstructor; eauto.
    + intros H; inversion H; subst; exists (a, c); split; auto; cbn [fst snd]. rewrite H3. reflexivity.
  - apply nodup_filter_map; [|destruct V; auto]. intros [a' c] y E. cbn [fst snd] in E.
    destruct (cu_nonce c); [|discriminate]. injection E as <-. reflexivity.
Qed.

Lemma in_declared : forall d s c,
  In (s, c) (sdc_declared (sd_sierra d) (sd_migrated d)) <-> compiled_class d s c.
Proof.
  intros d s c. unfold sdc_declared.
  rewrite (bt_set_in pair_ltb pair_eqb pair_eqb_spec pair_ltb_irrefl pair_ltb_trans pair_ltb_total).
  rewrite in_app_iff. unfold compiled_class. split.
  - intros [I|I]; [left|right]; constructor; auto.
  - intros [I|I]; inversion I; subst; auto.
Qed.

Lemma in_cairo : forall d h, In h (sdc_cairo (sd_cairo d)) <-> has_change d (CairoDeclaration h).
Proof.
  intros d h. unfold sdc_cairo.
  rewrite (bt_set_in N.ltb N.eqb N.eqb_spec N_ltb_irrefl N_ltb_trans N_ltb_total). split.
  - intros I. constructor. auto.
  - intros I. inversion I; auto.
Qed.

Lemma storage_keys_nodup : forall d, valid_data d -> separate d ->
  NoDup (map fst (filter_map (fun x : N * nmap N => if is_nil (snd x) then None else Some (fst x, bt_map (snd x)))
    (map (fun x => (fst x, cu_storage (snd x))) (sd_contracts d) ++ sd_system d))).
Proof.
  intros d V SP. unfold filter_map. rewrite flat_map_app, map_app.
  set (f := fun x : N * nmap N => if is_nil (snd x) then None else Some (fst x, bt_map (snd x))).
  assert (T : forall x y, f x = Some y -> fst y = fst x).
  { intros x y E. unfold f in E. destruct (is_nil (snd x)); [discriminate|]. injection E as <-. reflexivity. }
  apply NoDup_app'.
  - apply (nodup_filter_map f); auto. rewrite map_map. destruct V; auto.
  - apply (nodup_filter_map f); auto. destruct V; auto.
  - intros k I J. apply in_map_iff in I. destruct I as (y & <- & I).
    apply in_map_iff in J. destruct J as (z & EZ & J).
    apply (in_filter_map f) in I. destruct I as (x & IX & EX).
    apply (in_filter_map f) in J. destruct J as (w & IW & EW).
    apply in_map_iff in IX. destruct IX as ([a c] & <- & IX). destruct w as [b st].
    pose proof (T _ _ EX) as TX. pose proof (T _ _ EW) as TW. cbn [fst snd] in *.
    assert (EB : b = a) by congruence. rewrite EB in IW, EW.
    unfold f in EX, EW. cbn [fst snd] in EX, EW. destruct (SP _ _ _ IX IW) as [X|X]; rewrite X in *; discriminate.
Qed.

Lemma in_storage : forall d a m, valid_data d -> separate d ->
  (In (a, m) (sdc_storage (sd_contracts d) (sd_system d)) <->
   m <> [] /\ bt_sorted N.ltb m /\ forall k v, In (k, v) m <-> storage_write d a k v).
Proof.
  intros d a m V SP. unfold sdc_storage. rewrite in_bt_map by (apply storage_keys_nodup; auto).
  rewrite in_filter_map.
  assert (MEM : forall st, In (a, st) (map (fun x => (fst x, cu_storage (snd x))) (sd_contracts d) ++ sd_system d) ->
    st <> [] -> NoDup (map fst st) /\ forall k v, In (k, v) st <-> storage_write d a k v).
  { intros st I NE. destruct V. apply in_app_or in I. destruct I as [I|I].
    - apply in_map_iff in I. destruct I as ([a' c] & E & I). cbn [fst snd] in E. injection E as -> <-.
      split; [eauto|]. intros k v. unfold storage_write. split.
      + intros J. left. econstructor; eauto.
      + intros [H|H]; inversion H; subst.
        * assert (c0 = c).
          { apply (nget_in _ _ _ vd_contracts) in I. apply (nget_in _ _ _ vd_contracts) in H2. congruence. }
          subst. auto.
        * destruct (SP _ _ _ I H2) as [X| ->]; [congruence|easy].
    - split; [eauto|]. intros k v. unfold storage_write. split.
      + intros J. right. econstructor; eauto.
      + intros [H|H]; inversion H; subst.
        * destruct (SP _ _ _ H2 I) as [X|X]; [rewrite X in *; easy|congruence].
        * assert (st0 = st).
          { apply (nget_in _ _ _ vd_system) in I. apply (nget_in _ _ _ vd_system) in H2. congruence. }
          subst. auto. }
  split.
  - intros ([a' st] & I & E). cbn [fst snd] in E. destruct (is_nil st) eqn:EN; [discriminate|].
    injection E as -> <-. assert (NE : st <> []) by (intros ->; discriminate).
    destruct (MEM st I NE) as [ND M]. split; [|split].
    + intros X. destruct st as [|[k v] st]; [easy|].
      assert (J : In (k, v) (bt_map ((k, v) :: st))) by (apply in_bt_map; [exact ND|left; auto]).
      rewrite X in J. destruct J.
    + apply bt_map_sorted.
    + intros k v. rewrite in_bt_map by exact ND. apply M.
  - intros (NE & SM & M). destruct m as [|[k0 v0] m'] eqn:EM; [easy|]. rewrite <- EM in *.
    assert (W : storage_write d a k0 v0) by (apply M; rewrite EM; left; auto).
    assert (EX : exists st, In (a, st) (map (fun x => (fst x, cu_storage (snd x))) (sd_contracts d) ++ sd_system d)
       /\ In (k0, v0) st).
    { destruct W as [W|W]; inversion W; subst.
      - exists (cu_storage c). split; auto. apply in_or_app. left. apply in_map_iff. exists (a, c). auto.
      - exists st. split; auto. apply in_or_app. right. auto. }
    destruct EX as (st & I & J). assert (NEst : st <> []) by (intros ->; easy).
    destruct (MEM st I NEst) as [ND MS]. exists (a, st). split; [exact I|]. cbn [fst snd].
    destruct (is_nil st) eqn:EN; [destruct st; easy|]. do 2 f_equal.
    apply sorted_ext; [apply bt_map_sorted|exact SM|]. intros k v. rewrite in_bt_map by exact ND.
    rewrite MS, M. reflexivity.
Qed.

Lemma storage_write_in : forall d a k v, valid_data d -> separate d ->
  (storage_write d a k v <->
   exists m, In (a, m) (sdc_storage (sd_contracts d) (sd_system d)) /\ In (k, v) m).
Proof.
  intros d a k v V SP. split.
  - intros W.
    assert (EX : exists st, In (a, st) (map (fun x => (fst x, cu_storage (snd x))) (sd_contracts d) ++ sd_system d)
       /\ In (k, v) st).
    { destruct W as [W|W]; inversion W; subst.
      - exists (cu_storage c). split; auto. apply in_or_app. left. apply in_map_iff. exists (a, c). auto.
      - exists st. split; auto. apply in_or_app. right. auto. }
    destruct EX as (st & I & J).
    assert (IN : In (a, bt_map st) (sdc_storage (sd_contracts d) (sd_system d))).
    { unfold sdc_storage. rewrite in_bt_map by (apply storage_keys_nodup; auto).
      apply in_filter_map. exists (a, st). split; [exact I|]. cbn [fst snd].
      destruct st; [easy|]. reflexivity. }
    exists (bt_map st). split; [exact IN|]. apply in_storage in IN; auto. apply IN. exact W.
  - intros (m & I & J). apply in_storage in I; auto. apply I. exact J.
Qed.

(* the encoding of each part, followed by anything, determines the part *)
Lemma write_pairs_inj : forall m1 m2 r1 r2,
  write_pairs m1 ++ r1 = write_pairs m2 ++ r2 -> m1 = m2 /\ r1 = r2.
Proof.
  intros m1 m2 r1 r2 E. unfold write_pairs in E. cbn [app] in E. injection E as L E.
  assert (LN : length m1 = length m2) by lia. clear L. revert m2 LN E.
  induction m1 as [|[a b] m1 IH]; intros [|[c d] m2] LN E; try discriminate; [auto|].
  simpl in E. injection E as -> -> E. apply IH in E; [|simpl in LN; lia]. destruct E as [-> ->]. auto.
Qed.

Lemma cairo_inj : forall (c1 c2 : list N) r1 r2,
  (N.of_nat (length c1) :: c1) ++ r1 = (N.of_nat (length c2) :: c2) ++ r2 -> c1 = c2 /\ r1 = r2.
Proof.
  intros c1 c2 r1 r2 E. cbn [app] in E. injection E as L E.
  assert (LN : length c1 = length c2) by lia. clear L. revert c2 LN E.
  induction c1 as [|a c1 IH]; intros [|c c2] LN E; try discriminate; [auto|].
  simpl in E. injection E as -> E. apply IH in E; [|simpl in LN; lia]. destruct E as [-> ->]. auto.
Qed.

Lemma storage_inj : forall (s1 s2 : list (N * list (N * N))) r1 r2,
  (N.of_nat (length s1) :: flat_map (fun x => fst x :: write_pairs (snd x)) s1) ++ r1 =
  (N.of_nat (length s2) :: flat_map (fun x => fst x :: write_pairs (snd x)) s2) ++ r2 ->
  s1 = s2 /\ r1 = r2.
Proof.
  intros s1 s2 r1 r2 E. cbn [app] in E. injection E as L E.
  assert (LN : length s1 = length s2) by lia. clear L. revert s2 LN E.
  induction s1 as [|[a b] s1 IH]; intros [|[c d] s2] LN E; try discriminate; [auto|].
  cbn [flat_map fst snd] in E. rewrite <- !app_assoc in E. cbn [app] in E. injection E as -> L E.
  assert (E' : write_pairs b ++ flat_map (fun x => fst x :: write_pairs (snd x)) s1 ++ r1 =
               write_pairs d ++ flat_map (fun x => fst x :: write_pairs (snd x)) s2 ++ r2).
  { unfold write_pairs at 1 3. cbn [app]. rewrite L. f_equal. exact E. }
  apply write_pairs_inj in E'. destruct E' as [-> E']. apply IH in E'; [|simpl in LN; lia].
  destruct E' as [-> ->]. auto.
Qed.

Lemma sequence_inj : forall d e, sdc_sequence d = sdc_sequence e ->
  sdc_deployed (sd_contracts d) = sdc_deployed (sd_contracts e) /\
  sdc_declared (sd_sierra d) (sd_migrated d) = sdc_declared (sd_sierra e) (sd_migrated e) /\
  sdc_cairo (sd_cairo d) = sdc_cairo (sd_cairo e) /\
  sdc_storage (sd_contracts d) (sd_system d) = sdc_storage (sd_contracts e) (sd_system e) /\
  sdc_nonces (sd_contracts d) = sdc_nonces (sd_contracts e).
Proof.
  intros d e E. unfold sdc_sequence in E. apply (f_equal (@tl N)) in E. cbn [tl] in E.
  cbv zeta in E.
  apply write_pairs_inj in E. destruct E as [E1 E].
  apply write_pairs_inj in E. destruct E as [E2 E].
  apply cairo_inj in E. destruct E as [E3 E].
  apply app_inv_head in E.
  apply storage_inj in E. destruct E as [E4 E].
  rewrite <- (app_nil_r (write_pairs _)) in E. rewrite <- (app_nil_r (write_pairs (sdc_nonces (sd_contracts e)))) in E.
  apply write_pairs_inj in E. destruct E as [E5 _]. auto.
Qed.

Lemma sequence_same_content : forall d e, valid_data d -> valid_data e -> separate d -> separate e ->
  (sdc_sequence d = sdc_sequence e <-> same_content d e).
Proof.
  intros d e V W SD SE. split.
  - intros E. apply sequence_inj in E. destruct E as (E1 & E2 & E3 & E4 & E5). constructor.
    + intros a h. rewrite <- !in_deployed by auto. rewrite E1. reflexivity.
    + intros s c. rewrite <- !in_declared. rewrite E2. reflexivity.
    + intros h. rewrite <- !in_cairo. rewrite E3. reflexivity.
    + intros a k v. rewrite !storage_write_in by auto. rewrite E4. reflexivity.
    + intros a n. rewrite <- !in_nonces by auto. rewrite E5. reflexivity.
  - intros [C1 C2 C3 C4 C5]. unfold sdc_sequence.
    assert (E1 : sdc_deployed (sd_contracts d) = sdc_deployed (sd_contracts e)).
    { apply sorted_ext; try apply bt_map_sorted. intros k v. rewrite !in_deployed by auto. apply C1. }
    assert (E2 : sdc_declared (sd_sierra d) (sd_migrated d) = sdc_declared (sd_sierra e) (sd_migrated e)).
    { apply (bt_set_ext pair_ltb pair_eqb pair_eqb_spec pair_ltb_irrefl pair_ltb_trans pair_ltb_total).
      intros [s c]. rewrite !in_app_iff. specialize (C2 s c). unfold compiled_class in C2. split; intros H.
      - assert (X : has_change e (SierraDeclaration s c) \/ has_change e (Migration s c)).
        { apply C2. destruct H; [left|right]; constructor; auto. }
        destruct X as [X|X]; inversion X; subst; auto.
      - assert (X : has_change d (SierraDeclaration s c) \/ has_change d (Migration s c)).
        { apply C2. destruct H; [left|right]; constructor; auto. }
        destruct X as [X|X]; inversion X; subst; auto. }
    assert (E3 : sdc_cairo (sd_cairo d) = sdc_cairo (sd_cairo e)).
    { apply (bt_set_ext N.ltb N.eqb N.eqb_spec N_ltb_irrefl N_ltb_trans N_ltb_total).
      intros h. specialize (C3 h). split; intros H.
      - assert (X : has_change e (CairoDeclaration h)) by (apply C3; constructor; auto). inversion X; auto.
      - assert (X : has_change d (CairoDeclaration h)) by (apply C3; constructor; auto). inversion X; auto. }
    assert (E4 : sdc_storage (sd_contracts d) (sd_system d) = sdc_storage (sd_contracts e) (sd_system e)).
    { apply sorted_ext; try apply bt_map_sorted. intros a m. rewrite !in_storage by auto.
      split; intros (NE & SM & M); repeat split; auto; try (intros H); try (apply C4, M, H); apply M, C4, H. }
    assert (E5 : sdc_nonces (sd_contracts d) = sdc_nonces (sd_contracts e)).
    { apply sorted_ext; try apply bt_map_sorted. intros k v. rewrite !in_nonces by auto. apply C5. }
    rewrite E1, E2, E3, E4, E5. reflexivity.
Qed.
