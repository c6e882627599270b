(* Proofs about reading contract state over the RPC. *)
From Coq Require Import List Arith NArith Bool Lia ZifyBool ZifyNat ZifyN.
From Verif Require Import AList StateUpdateModel StateUpdateSpec StateUpdateProof ChainModel ChainSpec ChainProof
  RpcReadModel RpcReadSpec.
Import ListNotations.
Local Open Scope N_scope.

(* ---- the last entry ---- *)
Lemma or_else_assoc {A} (x y z : option A) : or_else x (or_else y z) = or_else (or_else x y) z.
Proof. destruct x; reflexivity. Qed.
Lemma or_else_none {A} (x : option A) : or_else x None = x.
Proof. destruct x; reflexivity. Qed.
Lemma nget_app {V} k (m1 m2 : nmap V) : nget k (m1 ++ m2) = or_else (nget k m1) (nget k m2).
Proof.
  induction m1 as [|[a b] m1 IH]; [reflexivity|]. cbn [app]. rewrite !nget_cons, IH.
  destruct (k =? a); reflexivity.
Qed.
Lemma last_entry_app k l1 l2 : last_entry k (l1 ++ l2) = or_else (last_entry k l2) (last_entry k l1).
Proof. unfold last_entry. rewrite rev_app_distr. apply nget_app. Qed.
Lemma last_entry_cons k x l : last_entry k (x :: l) = or_else (last_entry k l) (if k =? fst x then Some (snd x) else None).
Proof. change (x :: l) with ([x] ++ l). rewrite last_entry_app. destruct x as [a b]. reflexivity. Qed.
Lemma nget_extend_last k l : forall m, nget k (extend_map m l) = or_else (last_entry k l) (nget k m).
Proof.
  unfold extend_map. induction l as [|[a b] l IH]; intros m; [reflexivity|]. cbn [fold_left fst snd].
  rewrite IH, last_entry_cons, nget_nset. cbn [fst snd]. destruct (last_entry k l); [reflexivity|].
  destruct (k =? a); reflexivity.
Qed.
Lemma nget_extend_nil k l : nget k (extend_map [] l) = last_entry k l.
Proof. rewrite nget_extend_last. apply or_else_none. Qed.
Lemma nodup_extend {V} (l : nmap V) m : NoDup (map fst m) -> NoDup (map fst (extend_map m l)).
Proof. rewrite extend_map_merge. apply nodup_merge_with. Qed.
Lemma last_entry_nodup k l : NoDup (map fst l) -> last_entry k l = nget k l.
Proof.
  induction l as [|[a b] l IH]; intros ND; [reflexivity|]. cbn in ND. inversion ND as [|? ? NI ND']; subst.
  rewrite last_entry_cons, IH, nget_cons by assumption. cbn [fst snd]. destruct (N.eqb_spec k a) as [->|].
  - now rewrite (al_not_in_get_none _ N.eqb_spec a l NI).
  - apply or_else_none.
Qed.

(* ---- after ---- *)
Lemma after_from {V} (w : layer -> option V) ls : forall o,
  fold_left (fun old l => or_else (w l) old) ls o = or_else (after w ls) o.
Proof.
  unfold after. induction ls as [|l ls IH]; intros o; [reflexivity|]. cbn [fold_left].
  rewrite (IH (or_else (w l) o)), (IH (or_else (w l) None)). rewrite or_else_none. apply or_else_assoc.
Qed.
Lemma after_app {V} (w : layer -> option V) l1 l2 : after w (l1 ++ l2) = or_else (after w l2) (after w l1).
Proof. unfold after at 1. rewrite fold_left_app, after_from. reflexivity. Qed.
Lemma after_cons {V} (w : layer -> option V) l ls : after w (l :: ls) = or_else (after w ls) (w l).
Proof. change (l :: ls) with ([l] ++ ls). rewrite after_app. cbn. destruct (w l); reflexivity. Qed.
Lemma after_none {V} (w : layer -> option V) ls : after w ls = None <-> forall l, In l ls -> w l = None.
Proof.
  induction ls as [|l ls IH]; [cbn; split; [intros _ x []|reflexivity]|]. rewrite after_cons. split.
  - intros E x [<-|I]; destruct (after w ls); try discriminate; [exact E|]. now apply IH.
  - intros H. rewrite (proj2 IH) by (intros x I; apply H; now right). apply H. now left.
Qed.
Lemma after_some {V} (w : layer -> option V) ls v : after w ls = Some v -> exists l, In l ls /\ w l = Some v.
Proof.
  induction ls as [|l ls IH]; [discriminate|]. rewrite after_cons. destruct (after w ls) as [v'|].
  - cbn. intros E. destruct (IH E) as (x & I & X). exists x. split; [now right|exact X].
  - cbn. intros E. exists l. split; [now left|exact E].
Qed.
Lemma after_one {V} (w : layer -> option V) l : after w [l] = w l.
Proof. unfold after. cbn. apply or_else_none. Qed.
Lemma class_in_app l1 l2 a : class_in (l1 ++ l2) a = or_else (class_in l2 a) (class_in l1 a).
Proof. apply after_app. Qed.
Lemma nonce_in_app l1 l2 a : nonce_in (l1 ++ l2) a = or_else (nonce_in l2 a) (nonce_in l1 a).
Proof. apply after_app. Qed.
Lemma storage_in_app l1 l2 a k : storage_in (l1 ++ l2) a k = or_else (storage_in l2 a k) (storage_in l1 a k).
Proof. apply after_app. Qed.

(* ---- possible layers ---- *)
Lemma possible_fresh ls : forall below l a, possible below ls -> In l ls -> ly_deploys l a <> None ->
  class_in below a = None /\ nonce_in below a = None /\ forall k, storage_in below a k = None.
Proof.
  induction ls as [|x ls IH]; intros below l a PP I D; [destruct I|]. destruct PP as (H1 & _ & P). destruct I as [<-|I]; [now apply H1|].
  destruct (IH _ _ _ P I D) as (A & B & C). rewrite class_in_app in A. rewrite nonce_in_app in B.
  destruct (class_in [x] a); [discriminate|]. destruct (nonce_in [x] a); [discriminate|].
  split; [exact A|]. split; [exact B|]. intros k. specialize (C k). rewrite storage_in_app in C.
  destruct (storage_in [x] a k); [discriminate|exact C].
Qed.
Lemma possible_replaced ls : forall below l a, possible below ls -> In l ls -> ly_replaces l a <> None ->
  class_in below a <> None \/ exists l', In l' ls /\ ly_deploys l' a <> None.
Proof.
  induction ls as [|x ls IH]; intros below l a PP I D; [destruct I|]. destruct PP as (H1 & H2 & P). destruct I as [<-|I].
  - destruct (ly_deploys x a) as [h|] eqn:E; [right; exists x; split; [now left|congruence]|].
    left. now apply H2.
  - destruct (IH _ _ _ P I D) as [A|(l' & I' & D')]; [|right; exists l'; split; [now right|exact D']].
    rewrite class_in_app in A. destruct (class_in [x] a) as [c|] eqn:E; [|left; exact A].
    unfold class_in in E. rewrite after_cons in E. cbn in E. unfold ly_class in E.
    destruct (ly_deploys x a) as [h|] eqn:DX; [right; exists x; split; [now left|congruence]|].
    rewrite or_else_none in E. left. apply H2; [congruence|exact DX].
Qed.
Lemma possible_app ls1 : forall below ls2, possible below (ls1 ++ ls2) -> possible below ls1 /\ possible (below ++ ls1) ls2.
Proof.
  induction ls1 as [|x ls1 IH]; intros below ls2 P; [cbn; rewrite app_nil_r; auto|].
  destruct P as (A & B & P). apply IH in P. destruct P as [P1 P2]. rewrite <- app_assoc in P2.
  split; [|exact P2]. cbn. auto.
Qed.
(* replacements win over deployments, which come before them *)
Lemma class_in_split ls a : forall below, possible below ls ->
  class_in ls a = or_else (after (fun l => ly_replaces l a) ls) (after (fun l => ly_deploys l a) ls).
Proof.
  induction ls as [|l ls IH] using rev_ind; intros below P; [reflexivity|].
  apply possible_app in P. destruct P as [P PL]. specialize (IH _ P). destruct PL as (A & _).
  rewrite class_in_app, !after_app, IH. unfold class_in. rewrite !after_one. unfold ly_class.
  destruct (ly_replaces l a) as [r|]; [reflexivity|]. cbn [or_else].
  destruct (ly_deploys l a) as [h|] eqn:D; [|reflexivity]. cbn [or_else].
  destruct (A a ltac:(congruence)) as (C & _). rewrite class_in_app, IH in C.
  destruct (after (fun l0 => ly_replaces l0 a) ls); [discriminate|]. reflexivity.
Qed.

(* ---- the entries of an update ---- *)
Definition entry (u : state_update) (a : N) : contract_update := get_or contract_default (nget a (su_contracts u)).
Definition sentry (u : state_update) (a : N) : nmap N := get_or [] (nget a (su_system u)).

Lemma contract_nonce_entry u a : contract_nonce u a =
  match cu_nonce (entry u a) with
  | Some n => Some n
  | None => match cu_class (entry u a) with Some (Deploy _) => Some 0 | _ => None end
  end.
Proof. unfold contract_nonce, entry. destruct (nget a (su_contracts u)); reflexivity. Qed.
Lemma contract_class_entry u a : contract_class u a = option_map class_hash (cu_class (entry u a)).
Proof. unfold contract_class, entry. destruct (nget a (su_contracts u)); reflexivity. Qed.
Lemma storage_entry u a k : storage_provenance u a k =
  match nget k (cu_storage (entry u a)) with
  | Some v => Some (FoundSet v)
  | None => match cu_class (entry u a) with
            | Some (Deploy _) => Some FoundZero
            | _ => option_map FoundSet (nget k (sentry u a))
            end
  end.
Proof.
  unfold storage_provenance, entry, sentry. destruct (nget a (su_contracts u)) as [x|]; cbn [get_or].
  - destruct (nget k (cu_storage x)); [reflexivity|].
    destruct (cu_class x) as [[h|h]|]; [reflexivity| |]; destruct (nget a (su_system u)); reflexivity.
  - cbn. destruct (nget a (su_system u)); reflexivity.
Qed.

Lemma entry_apply u w a : NoDup (map fst (su_contracts w)) -> entry (apply u w) a = merge_contract (entry u a) (entry w a).
Proof.
  intros ND. unfold entry. rewrite apply_contracts, nget_merge_with by exact ND.
  destruct (nget a (su_contracts w)) as [x|]; [reflexivity|]. cbn [get_or].
  destruct (get_or contract_default (nget a (su_contracts u))) as [s c n]. reflexivity.
Qed.
Lemma sentry_apply u w a : NoDup (map fst (su_system w)) -> sentry (apply u w) a = extend_map (sentry u a) (sentry w a).
Proof.
  intros ND. unfold sentry. rewrite apply_system, nget_merge_with by exact ND.
  destruct (nget a (su_system w)) as [x|]; reflexivity.
Qed.

(* a fold of changes of entries *)
Lemma entry_fold {X} (key : X -> N) (f : X -> contract_update -> contract_update) (l : list X) a : forall m,
  get_or contract_default (nget a (fold_left (fun m x => with_entry (key x) (f x) m) l m)) =
  fold_left (fun u x => if a =? key x then f x u else u) l (get_or contract_default (nget a m)).
Proof.
  induction l as [|x l IH]; intros m; [reflexivity|]. cbn [fold_left]. rewrite IH. f_equal.
  unfold with_entry. rewrite nget_nset. destruct (N.eqb_spec a (key x)) as [->|]; reflexivity.
Qed.
Lemma nodup_fold {X} (key : X -> N) (f : X -> contract_update -> contract_update) (l : list X) : forall m,
  NoDup (map fst m) -> NoDup (map fst (fold_left (fun m x => with_entry (key x) (f x) m) l m)).
Proof.
  induction l as [|x l IH]; intros m ND; [exact ND|]. cbn [fold_left]. apply IH. apply (al_nodup_set _ N.eqb_spec), ND.
Qed.

Definition put_class (mk : N -> class_update) a (u : contract_update) (x : N * N) :=
  if a =? fst x then set_class (mk (snd x)) u else u.
Lemma fold_class mk a l : forall u, fold_left (put_class mk a) l u =
  ContractUpdate (cu_storage u) (or_else (option_map mk (last_entry a l)) (cu_class u)) (cu_nonce u).
Proof.
  induction l as [|x l IH]; intros u; [destruct u; reflexivity|]. cbn [fold_left]. rewrite IH, last_entry_cons.
  unfold put_class. destruct (a =? fst x); [|rewrite or_else_none; reflexivity]. cbn.
  destruct (last_entry a l); reflexivity.
Qed.
Lemma fold_nonce a l : forall u, fold_left (fun u (x : N * N) => if a =? fst x then set_nonce (snd x) u else u) l u =
  ContractUpdate (cu_storage u) (cu_class u) (or_else (last_entry a l) (cu_nonce u)).
Proof.
  induction l as [|x l IH]; intros u; [destruct u; reflexivity|]. cbn [fold_left]. rewrite IH, last_entry_cons.
  destruct (a =? fst x); [|rewrite or_else_none; reflexivity]. cbn. destruct (last_entry a l); reflexivity.
Qed.

(* the storage of ordinary contracts *)
Definition put_slots (m : nmap contract_update) (x : N * list (N * N)) :=
  fold_left (fun m kv => with_entry (fst x) (set_slot (fst kv) (snd kv)) m) (snd x) m.
Lemma slots_entry x a m : get_or contract_default (nget a (put_slots m x)) =
  let u := get_or contract_default (nget a m) in
  if a =? fst x then ContractUpdate (extend_map (cu_storage u) (snd x)) (cu_class u) (cu_nonce u) else u.
Proof.
  destruct x as [b l]. unfold put_slots. cbn [fst snd].
  rewrite (entry_fold (fun _ => b) (fun kv => set_slot (fst kv) (snd kv))).
  generalize (get_or contract_default (nget a m)) as u. cbv zeta.
  induction l as [|[k v] l IH]; intros u; [destruct (a =? b); destruct u; reflexivity|]. cbn [fold_left fst snd].
  rewrite IH. destruct (a =? b); [|reflexivity]. reflexivity.
Qed.
Lemma nodup_slots l : forall m, NoDup (map fst m) -> NoDup (map fst (fold_left put_slots l m)).
Proof.
  induction l as [|x l IH]; intros m ND; [exact ND|]. cbn [fold_left]. apply IH.
  apply (nodup_fold (fun _ => fst x) (fun kv => set_slot (fst kv) (snd kv))), ND.
Qed.
Lemma slots_fold a l : NoDup (map fst l) -> forall m,
  get_or contract_default (nget a (fold_left put_slots l m)) =
  let u := get_or contract_default (nget a m) in
  ContractUpdate (extend_map (cu_storage u) (get_or [] (nget a l))) (cu_class u) (cu_nonce u).
Proof.
  intros ND. induction l as [|[b s] l IH]; intros m.
  { cbn. destruct (get_or contract_default (nget a m)); reflexivity. }
  cbn in ND. inversion ND as [|? ? NI ND']; subst.
  cbn [fold_left]. rewrite IH, slots_entry, nget_cons by assumption. cbn [fst snd]. cbv zeta.
  destruct (N.eqb_spec a b) as [->|]; [|reflexivity].
  rewrite (al_not_in_get_none _ N.eqb_spec b l NI). reflexivity.
Qed.

(* the system contracts *)
Lemma system_fold s a l : forall m,
  get_or [] (nget a (fold_left (set_system_slot s) l m)) =
  if a =? s then extend_map (get_or [] (nget s m)) l else get_or [] (nget a m).
Proof.
  induction l as [|x l IH]; intros m; [cbn; destruct (N.eqb_spec a s) as [->|]; reflexivity|]. cbn [fold_left].
  rewrite IH. unfold set_system_slot. rewrite !nget_nset, N.eqb_refl. cbn [get_or].
  destruct (a =? s); reflexivity.
Qed.
Lemma nodup_system s l : forall m, NoDup (map fst m) -> NoDup (map fst (fold_left (set_system_slot s) l m)).
Proof.
  induction l as [|x l IH]; intros m ND; [exact ND|]. cbn [fold_left]. apply IH.
  apply (al_nodup_set _ N.eqb_spec), ND.
Qed.

Lemma nget_filter_system {V} (l : nmap V) a :
  nget a (filter (fun x => negb (is_system (fst x))) l) = if is_system a then None else nget a l.
Proof.
  induction l as [|[b v] l IH]; [cbn; destruct (is_system a); reflexivity|]. cbn [filter fst]. destruct (is_system b) eqn:B; cbn [negb].
  - rewrite IH, nget_cons. destruct (N.eqb_spec a b) as [->|]; [now rewrite B|reflexivity].
  - rewrite !nget_cons, IH. destruct (N.eqb_spec a b) as [->|]; [now rewrite B|reflexivity].
Qed.
Lemma nodup_filter_keys {V} p (l : nmap V) : NoDup (map fst l) -> NoDup (map fst (filter p l)).
Proof. apply nodup_map_filter. Qed.

Lemma of_gateway_entry h p c d a : NoDup (map fst (g_storage d)) -> NoDup (map fst (g_nonces d)) ->
  entry (of_gateway h p c d) a =
  ContractUpdate (extend_map [] (if is_system a then [] else get_or [] (nget a (g_storage d))))
    (or_else (option_map Replace (last_entry a (g_replaced d))) (option_map Deploy (last_entry a (g_deployed d))))
    (nget a (g_nonces d)).
Proof.
  intros NS NN. unfold entry, of_gateway. cbn [su_contracts].
  rewrite (entry_fold fst (fun x => set_class (Replace (snd x)))).
  rewrite (entry_fold fst (fun x => set_nonce (snd x))).
  rewrite (entry_fold fst (fun x => set_class (Deploy (snd x)))).
  fold (put_slots). change (fun (m : nmap contract_update) (x : N * list (N * N)) =>
     fold_left (fun m0 kv => with_entry (fst x) (set_slot (fst kv) (snd kv)) m0) (snd x) m) with put_slots.
  rewrite slots_fold by (apply nodup_filter_keys; exact NS). cbn [nget get_or al_get contract_default cu_storage cu_class cu_nonce]. cbv zeta.
  change (fun (u : contract_update) (x : N * N) => if a =? fst x then set_class (Replace (snd x)) u else u) with (put_class Replace a).
  change (fun (u : contract_update) (x : N * N) => if a =? fst x then set_class (Deploy (snd x)) u else u) with (put_class Deploy a).
  rewrite !fold_class, fold_nonce. cbn [cu_storage cu_class cu_nonce].
  rewrite nget_filter_system, (last_entry_nodup a (g_nonces d) NN).
  change (cu_storage (get_or contract_default (nget a []))) with (@nil (N * N)).
  change (cu_class (get_or contract_default (nget a []))) with (@None class_update).
  change (cu_nonce (get_or contract_default (nget a []))) with (@None N).
  rewrite !or_else_none. destruct (is_system a); reflexivity.
Qed.
Lemma of_gateway_sentry h p c d a :
  sentry (of_gateway h p c d) a = if is_system a then extend_map [] (get_or [] (nget a (g_storage d))) else [].
Proof.
  unfold sentry, of_gateway. cbn [su_system fold_left]. rewrite !system_fold. unfold is_system.
  cbn [nget al_get get_or].
  destruct (N.eqb_spec a 1), (N.eqb_spec a 2); subst; cbn [orb]; try discriminate; reflexivity.
Qed.
Lemma of_gateway_nodup h p c d : NoDup (map fst (su_contracts (of_gateway h p c d))) /\ NoDup (map fst (su_system (of_gateway h p c d))).
Proof.
  unfold of_gateway. cbn [su_contracts su_system]. split.
  - apply (nodup_fold fst (fun x => set_class (Replace (snd x)))).
    apply (nodup_fold fst (fun x => set_nonce (snd x))).
    apply (nodup_fold fst (fun x => set_class (Deploy (snd x)))).
    apply nodup_slots. constructor.
  - cbn [fold_left]. apply nodup_system, nodup_system. constructor.
Qed.

(* ---- merging the diffs of the transactions ---- *)
Definition gmerge (ds : list gdiff) : gdiff := fold_left gextend ds gdiff_default.
Lemma gextend_storage d1 d2 a : NoDup (map fst (g_storage d2)) ->
  get_or [] (nget a (g_storage (gextend d1 d2))) = get_or [] (nget a (g_storage d1)) ++ get_or [] (nget a (g_storage d2)).
Proof.
  intros ND. cbn [gextend g_storage].
  change (fold_left (fun m kv => nset (fst kv) (get_or [] (nget (fst kv) m) ++ snd kv) m) (g_storage d2) (g_storage d1))
    with (merge_with (fun o l => get_or [] o ++ l) (g_storage d1) (g_storage d2)).
  rewrite nget_merge_with by exact ND. destruct (nget a (g_storage d2)); cbn [get_or]; [reflexivity|now rewrite app_nil_r].
Qed.
Lemma gmerge_ok ds : (forall d, In d ds -> wf_diff d) ->
  NoDup (map fst (g_storage (gmerge ds))) /\ NoDup (map fst (g_nonces (gmerge ds))) /\
  forall a,
    nget a (g_nonces (gmerge ds)) = nonce_in (map diff_layer ds) a /\
    last_entry a (g_deployed (gmerge ds)) = after (fun l => ly_deploys l a) (map diff_layer ds) /\
    last_entry a (g_replaced (gmerge ds)) = after (fun l => ly_replaces l a) (map diff_layer ds) /\
    forall k, last_entry k (get_or [] (nget a (g_storage (gmerge ds)))) = storage_in (map diff_layer ds) a k.
Proof.
  induction ds as [|d ds IH] using rev_ind; intros W.
  { split; [constructor|]. split; [constructor|]. intros a. repeat split. }
  destruct IH as (NS & NN & IH). { intros x I. apply W, in_app_iff. auto. }
  destruct (W d) as (WS & WN & _). { apply in_app_iff. right. now left. }
  unfold gmerge in *. rewrite fold_left_app. cbn [fold_left]. set (m := fold_left gextend ds gdiff_default) in *.
  split; [|split].
  - cbn [gextend g_storage]. apply (nodup_merge_with (fun o l => get_or [] o ++ l)). exact NS.
  - cbn [gextend g_nonces]. now apply nodup_extend.
  - intros a. destruct (IH a) as (A & B & C & D). rewrite map_app.
    split; [|split; [|split]].
    + rewrite nonce_in_app, <- A. cbn [gextend g_nonces]. rewrite nget_extend by exact WN.
      unfold nonce_in. cbn [map]. rewrite after_one. reflexivity.
    + cbn [gextend g_deployed]. rewrite last_entry_app, after_app, B. cbn [map]. rewrite after_one. reflexivity.
    + cbn [gextend g_replaced]. rewrite last_entry_app, after_app, C. cbn [map]. rewrite after_one. reflexivity.
    + intros k. rewrite gextend_storage, last_entry_app, storage_in_app, D by exact WS.
      unfold storage_in at 2. cbn [map]. rewrite after_one. cbn. destruct (nget a (g_storage d)); reflexivity.
Qed.
Lemma nget_map_snd {V W} (f : V -> W) a (m : nmap V) : nget a (map (fun x => (fst x, f (snd x))) m) = option_map f (nget a m).
Proof. induction m as [|[b v] m IH]; [reflexivity|]. cbn [map fst snd]. rewrite !nget_cons, IH. destruct (a =? b); reflexivity. Qed.

(* an update stands for the layers *)
Record stands (u : state_update) (ls : list layer) : Prop := {
  st_nonce : forall a, cu_nonce (entry u a) = nonce_in ls a;
  st_storage : forall a k, is_system a = false -> nget k (cu_storage (entry u a)) = storage_in ls a k /\ sentry u a = [];
  st_system : forall a, is_system a = true -> entry u a = contract_default /\ forall k, nget k (sentry u a) = storage_in ls a k;
  st_deploy : forall a h, cu_class (entry u a) = Some (Deploy h) -> exists l, In l ls /\ ly_deploys l a <> None;
  st_replace : forall a h, cu_class (entry u a) = Some (Replace h) -> exists l, In l ls /\ ly_replaces l a <> None;
  st_class : forall below a, possible below ls -> option_map class_hash (cu_class (entry u a)) = class_in ls a
}.

Lemma stands_nil u : (forall a, entry u a = contract_default) -> (forall a, sentry u a = []) -> stands u [].
Proof.
  intros E S. constructor; intros; rewrite ?E, ?S in *; auto; try discriminate.
Qed.

Lemma stands_diffs ds : (forall d, In d ds -> wf_diff d) ->
  stands (of_gateway 0 0 0 (gdedup (gmerge ds))) (map diff_layer ds) /\
  forall a, NoDup (map fst (cu_storage (entry (of_gateway 0 0 0 (gdedup (gmerge ds))) a))) /\
            NoDup (map fst (sentry (of_gateway 0 0 0 (gdedup (gmerge ds))) a)).
Proof.
  intros W. destruct (gmerge_ok ds W) as (NS & NN & G).
  assert (NS' : NoDup (map fst (g_storage (gdedup (gmerge ds))))).
  { cbn [gdedup g_storage]. rewrite map_map. cbn [fst]. exact NS. }
  assert (ST : forall a k, nget k (extend_map [] (get_or [] (nget a (g_storage (gdedup (gmerge ds)))))) = storage_in (map diff_layer ds) a k).
  { intros a k. cbn [gdedup g_storage]. rewrite nget_map_snd, nget_extend_nil.
    destruct (G a) as (_ & _ & _ & D). rewrite <- D. destruct (nget a (g_storage (gmerge ds))) as [l|]; [|reflexivity].
    cbn [option_map get_or]. rewrite last_entry_nodup by (apply nodup_extend; constructor).
    apply nget_extend_nil. }
  assert (EN : forall a, entry (of_gateway 0 0 0 (gdedup (gmerge ds))) a = ContractUpdate
      (extend_map [] (if is_system a then [] else get_or [] (nget a (g_storage (gdedup (gmerge ds))))))
      (or_else (option_map Replace (after (fun l => ly_replaces l a) (map diff_layer ds)))
               (option_map Deploy (after (fun l => ly_deploys l a) (map diff_layer ds))))
      (nonce_in (map diff_layer ds) a)).
  { intros a. rewrite of_gateway_entry by assumption. destruct (G a) as (A & B & C & _).
    rewrite <- A, <- B, <- C. reflexivity. }
  assert (SY : forall a, is_system a = true -> after (fun l => ly_replaces l a) (map diff_layer ds) = None /\
     after (fun l => ly_deploys l a) (map diff_layer ds) = None /\ nonce_in (map diff_layer ds) a = None).
  { intros a S. repeat split; apply after_none; intros l I; apply in_map_iff in I; destruct I as (d & <- & I);
      destruct (W d I) as (_ & _ & X); destruct (X a S) as (X1 & X2 & X3); cbn; assumption. }
  split.
  - constructor.
    + intros a. rewrite EN. reflexivity.
    + intros a k S. rewrite EN, of_gateway_sentry, S. cbn [cu_storage]. rewrite ST. auto.
    + intros a S. destruct (SY a S) as (X1 & X2 & X3). split.
      * rewrite EN, S, X1, X2, X3. reflexivity.
      * intros k. rewrite of_gateway_sentry, S. apply ST.
    + intros a h. rewrite EN. cbn [cu_class]. destruct (after (fun l => ly_replaces l a) _); [discriminate|]. cbn.
      destruct (after (fun l => ly_deploys l a) (map diff_layer ds)) as [x|] eqn:E; [|discriminate]. intros _.
      apply after_some in E. destruct E as (l & I & D). exists l. split; [exact I|congruence].
    + intros a h. rewrite EN. cbn [cu_class]. destruct (after (fun l => ly_replaces l a) _) as [x|] eqn:E.
      * intros _. apply after_some in E. destruct E as (l & I & D). exists l. split; [exact I|congruence].
      * cbn. destruct (after (fun l => ly_deploys l a) _); discriminate.
    + intros below a P. rewrite EN, (class_in_split _ _ _ P). cbn [cu_class].
      destruct (after (fun l => ly_replaces l a) _); [reflexivity|]. destruct (after (fun l => ly_deploys l a) _); reflexivity.
  - intros a. rewrite EN, of_gateway_sentry. cbn [cu_storage]. split; [apply nodup_extend; constructor|].
    destruct (is_system a); [apply nodup_extend|]; constructor.
Qed.

Lemma stands_data u : wf_data (to_data u) -> stands u [data_layer (to_data u)].
Proof.
  intros (A & B & _ & _ & C & D). cbn in A, B, C, D.
  assert (ON : forall V (w : layer -> option V) l, after w [l] = w l).
  { intros V w l. unfold after. cbn. apply or_else_none. }
  constructor.
  - intros a. unfold nonce_in. rewrite ON. cbn. unfold entry. destruct (nget a (su_contracts u)); reflexivity.
  - intros a k S. unfold storage_in. rewrite ON. cbn. rewrite S. unfold entry, sentry. split.
    + destruct (nget a (su_contracts u)); reflexivity.
    + destruct (nget a (su_system u)) as [x|] eqn:E; [|reflexivity]. apply ChainProof.nget_in in E.
      destruct (D _ _ E) as [_ X]. congruence.
  - intros a S. unfold storage_in. unfold entry, sentry. split.
    + destruct (nget a (su_contracts u)) as [x|] eqn:E; [|reflexivity]. apply ChainProof.nget_in in E.
      destruct (C _ _ E) as [_ X]. congruence.
    + intros k. rewrite ON. cbn. rewrite S. destruct (nget a (su_system u)); reflexivity.
  - intros a h E. eexists. split; [left; reflexivity|]. cbn. unfold entry in E.
    destruct (nget a (su_contracts u)) as [x|]; [|discriminate]. cbn in E. rewrite E. discriminate.
  - intros a h E. eexists. split; [left; reflexivity|]. cbn. unfold entry in E.
    destruct (nget a (su_contracts u)) as [x|]; [|discriminate]. cbn in E. rewrite E. discriminate.
  - intros below a _. unfold class_in. rewrite ON. unfold ly_class. cbn. unfold entry.
    destruct (nget a (su_contracts u)) as [x|]; [|reflexivity]. cbn. destruct (cu_class x) as [[h|h]|]; reflexivity.
Qed.

Lemma stands_apply u w l1 l2 :
  stands u l1 -> stands w l2 -> NoDup (map fst (su_contracts w)) -> NoDup (map fst (su_system w)) ->
  (forall a, NoDup (map fst (cu_storage (entry w a))) /\ NoDup (map fst (sentry w a))) ->
  stands (apply u w) (l1 ++ l2).
Proof.
  intros U W NC NS NE. constructor.
  - intros a. rewrite entry_apply, nonce_in_app, <- (st_nonce _ _ U), <- (st_nonce _ _ W) by exact NC. reflexivity.
  - intros a k S. destruct (st_storage _ _ U a k S) as [U1 U2], (st_storage _ _ W a k S) as [W1 W2].
    rewrite entry_apply, sentry_apply, storage_in_app, <- U1, <- W1, U2, W2 by assumption. split; [|reflexivity].
    cbn [merge_contract cu_storage]. apply nget_extend, NE.
  - intros a S. destruct (st_system _ _ U a S) as [U1 U2], (st_system _ _ W a S) as [W1 W2]. split.
    + rewrite entry_apply, U1, W1 by exact NC. reflexivity.
    + intros k. rewrite sentry_apply, storage_in_app, <- U2, <- W2 by exact NS. apply nget_extend, NE.
  - intros a h. rewrite entry_apply by exact NC. cbn [merge_contract cu_class].
    destruct (cu_class (entry w a)) as [c|] eqn:E; intros H.
    + injection H as ->. destruct (st_deploy _ _ W _ _ E) as (l & I & D). exists l. split; [apply in_app_iff; auto|exact D].
    + destruct (st_deploy _ _ U _ _ H) as (l & I & D). exists l. split; [apply in_app_iff; auto|exact D].
  - intros a h. rewrite entry_apply by exact NC. cbn [merge_contract cu_class].
    destruct (cu_class (entry w a)) as [c|] eqn:E; intros H.
    + injection H as ->. destruct (st_replace _ _ W _ _ E) as (l & I & D). exists l. split; [apply in_app_iff; auto|exact D].
    + destruct (st_replace _ _ U _ _ H) as (l & I & D). exists l. split; [apply in_app_iff; auto|exact D].
  - intros below a P. apply possible_app in P. destruct P as [P1 P2].
    rewrite entry_apply, class_in_app, <- (st_class _ _ U below a P1), <- (st_class _ _ W _ a P2) by exact NC.
    cbn [merge_contract cu_class]. destruct (cu_class (entry w a)); reflexivity.
Qed.

Lemma stands_ext u u' ls : su_contracts u = su_contracts u' -> su_system u = su_system u' -> stands u ls -> stands u' ls.
Proof.
  intros E1 E2 S. assert (X : forall a, entry u a = entry u' a) by (intros a; unfold entry; now rewrite E1).
  assert (Y : forall a, sentry u a = sentry u' a) by (intros a; unfold sentry; now rewrite E2).
  destruct S. constructor; intros; rewrite <- ?X, <- ?Y in *; eauto.
Qed.

(* ---- the pending data that is seen ---- *)
Definition txs (diffs : list (option gdiff)) : list layer :=
  flat_map (fun x => match x with Some d => [diff_layer d] | None => [] end) diffs.
Lemma txs_map diffs : txs diffs = map diff_layer (filter_map (fun x => x) diffs).
Proof. unfold txs, filter_map. induction diffs as [|[d|] diffs IH]; cbn; [reflexivity| |exact IH]. f_equal. exact IH. Qed.
Lemma in_diffs (diffs : list (option gdiff)) d : In d (filter_map (fun x => x) diffs) -> In (Some d) diffs.
Proof. unfold filter_map. rewrite in_flat_map. intros (x & I & X). destruct x as [y|]; [|destruct X]. destruct X as [<-|[]]. exact I. Qed.

Lemma pre_confirmed_stands diffs : wf_diffs diffs -> stands (pre_confirmed_update diffs) (txs diffs) /\
  forall a, NoDup (map fst (cu_storage (entry (pre_confirmed_update diffs) a))) /\ NoDup (map fst (sentry (pre_confirmed_update diffs) a)).
Proof. intros W. rewrite txs_map. apply stands_diffs. intros d I. apply W, in_diffs, I. Qed.

Lemma pending_seen d v09 diffs number pre_latest w n :
  latest_number d = Some n -> wf_diffs diffs ->
  match pre_latest with Some (_, u) => wf_data (to_data u) | None => True end ->
  make_pending diffs number pre_latest = Some w ->
  exists p, pending_get d v09 w = Some p /\ stands (p_aggregated p) (pending_layers n v09 diffs number pre_latest) /\
    (pending_layers n v09 diffs number pre_latest <> [] -> p_number p = number).
Proof.
  intros LN WD WP MK. unfold latest_number in LN. destruct (top_header (d_headers d)) as [h|] eqn:TH; [|discriminate].
  cbn in LN. injection LN as <-. unfold pending_get. rewrite TH. unfold pending_layers. fold (txs diffs).
  assert (E0 : forall c, stands (p_aggregated (pending_empty (h_number h) c)) []) by (intros c; apply stands_nil; reflexivity).
  destruct (pre_confirmed_stands diffs WD) as [SU ND]. pose proof (of_gateway_nodup 0 0 0 (gdedup (gmerge (filter_map (fun x => x) diffs)))) as [N1 N2].
  destruct v09; [|eexists; split; [reflexivity|split; [apply E0|congruence]]].
  unfold make_pending in MK. destruct pre_latest as [[p u]|].
  - destruct (N.eqb_spec (p + 1) number) as [E|]; [|discriminate]. injection MK as <-.
    cbn [p_pre_latest p_number p_update p_aggregated]. subst number. rewrite N.eqb_refl.
    destruct (p =? h_number h + 1); [|destruct (p =? h_number h)]; eexists; (split; [reflexivity|]); cbn [p_aggregated p_number]; (split; [|intros; try reflexivity; try congruence]).
    + change (data_layer (to_data u) :: txs diffs) with ([data_layer (to_data u)] ++ txs diffs).
      apply stands_apply; auto. now apply stands_data.
    + eapply stands_ext; [| |exact SU]; reflexivity.
    + apply E0.
  - injection MK as <-. cbn [p_pre_latest p_number p_update p_aggregated].
    destruct (number =? h_number h + 1); eexists; (split; [reflexivity|]); cbn [p_aggregated p_number]; (split; [|intros; try reflexivity; try congruence]).
    + eapply stands_ext; [| |exact SU]; reflexivity.
    + apply E0.
Qed.

(* ---- the stored chain ---- *)
Lemma stored_class c n a : class_in (stored_layers c n) a = class_at c n a.
Proof.
  unfold class_in, after, stored_layers, class_at, state_after. generalize (up_to c n) as l.
  intros l. generalize (@None N) as o. induction l as [|b l IH]; intros o; [reflexivity|]. cbn [map fold_left]. rewrite IH. f_equal.
  unfold ly_class, writes_class. cbn. destruct (nget a (sd_contracts (lb_data b))) as [x|]; [|reflexivity].
  destruct (cu_class x) as [[h|h]|]; reflexivity.
Qed.
Lemma stored_nonce c n a : nonce_in (stored_layers c n) a = nonce_at c n a.
Proof.
  unfold nonce_in, after, stored_layers, nonce_at, state_after. generalize (up_to c n) as l.
  intros l. generalize (@None N) as o. induction l as [|b l IH]; intros o; [reflexivity|]. cbn [map fold_left]. rewrite IH. reflexivity.
Qed.
Lemma stored_storage c n a k : storage_in (stored_layers c n) a k = storage_at c n a k.
Proof.
  unfold storage_in, after, stored_layers, storage_at, state_after. generalize (up_to c n) as l.
  intros l. generalize (@None N) as o. induction l as [|b l IH]; intros o; [reflexivity|]. cbn [map fold_left]. rewrite IH. reflexivity.
Qed.

Lemma storage_block_fst d b a k : option_map fst (lookup_storage_block d b a k) = lookup_storage d b a k.
Proof. unfold lookup_storage_block, lookup_storage, latest. destruct (newest _); reflexivity. Qed.

(* the methods on a stored block *)
Lemma nonce_stored d b c n a : answers d b c n ->
  match lookup_nonce d b a with
  | Some x => Found x
  | None => if contract_exists d b a then Found 0 else ContractNotFound
  end = expected_nonce (stored_layers c n) a.
Proof.
  intros (_ & A & _ & E & _). unfold expected_nonce. rewrite stored_nonce, stored_class, A.
  destruct (nonce_at c n a); [reflexivity|]. specialize (E a).
  destruct (contract_exists d b a), (class_at c n a); try reflexivity.
  - now elim (proj1 E eq_refl).
  - assert (false = true) by (apply E; discriminate). discriminate.
Qed.
Lemma storage_stored d b c n a k : answers d b c n ->
  value (match lookup_storage_block d b a k with
  | Some x => Found x
  | None => if contract_exists d b a then Found (0, 0) else ContractNotFound
  end) = expected_storage (stored_layers c n) a k.
Proof.
  intros (A & _ & _ & E & _). unfold expected_storage. rewrite stored_storage, stored_class, <- A, <- storage_block_fst.
  destruct (lookup_storage_block d b a k) as [[v m]|]; [reflexivity|]. cbn [option_map]. specialize (E a).
  destruct (contract_exists d b a), (class_at c n a); try reflexivity.
  - now elim (proj1 E eq_refl).
  - assert (false = true) by (apply E; discriminate). discriminate.
Qed.
Lemma class_stored d b c n a : answers d b c n ->
  match lookup_class d b a with Some x => Found x | None => ContractNotFound end = expected_class (stored_layers c n) a.
Proof. intros (_ & _ & A & _). unfold expected_class. now rewrite stored_class, A. Qed.

(* the methods above a stored block *)
Section Above.
  Variables (d : db) (c : chain) (n : N) (u : state_update) (ls : list layer).
  Hypothesis S : stands u ls.
  Hypothesis P : possible (stored_layers c n) ls.

  Lemma above_class a :
    match contract_class u a with Some x => Found x | None => expected_class (stored_layers c n) a end =
    expected_class (stored_layers c n ++ ls) a.
  Proof.
    unfold expected_class. rewrite contract_class_entry, (st_class _ _ S _ a P), class_in_app.
    destruct (class_in ls a); reflexivity.
  Qed.

  Hypothesis UR : unreplaced ls.
  (* a contract that is neither stored nor deployed has no class *)
  Lemma no_class a : class_in (stored_layers c n) a = None ->
    (forall h, cu_class (entry u a) <> Some (Deploy h)) -> class_in ls a = None.
  Proof.
    intros C D. rewrite <- (st_class _ _ S _ a P). destruct (cu_class (entry u a)) as [[h|h]|] eqn:E; [now elim (D h)| |reflexivity].
    destruct (st_replace _ _ S _ _ E) as (l & I & R).
    destruct (possible_replaced _ _ _ _ P I R) as [X|(l' & I' & X)]; [now elim X|].
    now elim R; apply (UR l' l).
  Qed.

  Lemma above_nonce a :
    match contract_nonce u a with Some x => Found x | None => expected_nonce (stored_layers c n) a end =
    expected_nonce (stored_layers c n ++ ls) a.
  Proof.
    unfold expected_nonce. rewrite contract_nonce_entry, (st_nonce _ _ S), nonce_in_app, class_in_app.
    destruct (nonce_in ls a) as [x|]; [reflexivity|]. cbn [or_else].
    assert (ND : (forall h, cu_class (entry u a) <> Some (Deploy h)) ->
      match nonce_in (stored_layers c n) a with
      | Some x => Found x | None => if class_in (stored_layers c n) a then Found 0 else ContractNotFound end =
      match nonce_in (stored_layers c n) a with
      | Some x => Found x | None => if or_else (class_in ls a) (class_in (stored_layers c n) a) then Found 0 else ContractNotFound end).
    { intros D. destruct (nonce_in _ a); [reflexivity|]. destruct (class_in (stored_layers c n) a) eqn:C.
      - destruct (class_in ls a); reflexivity.
      - now rewrite (no_class a C D). }
    destruct (cu_class (entry u a)) as [[h|h]|] eqn:E; [|apply ND; discriminate|apply ND; discriminate].
    destruct (st_deploy _ _ S _ _ E) as (l & I & D). destruct (possible_fresh _ _ _ _ P I D) as (_ & -> & _).
    rewrite <- (st_class _ _ S _ a P), E. reflexivity.
  Qed.

  Lemma above_storage a k m r : value r = expected_storage (stored_layers c n) a k ->
    value (match option_map (fun f => match f with FoundZero => (0, 0) | FoundSet v => (v, m) end) (storage_provenance u a k) with
           | Some x => Found x | None => r end) =
    expected_storage (stored_layers c n ++ ls) a k.
  Proof.
    intros VE. unfold expected_storage in VE.
    unfold expected_storage. rewrite storage_entry, storage_in_app, class_in_app.
    assert (ND : (forall h, cu_class (entry u a) <> Some (Deploy h)) -> storage_in ls a k = None ->
      match storage_in (stored_layers c n) a k with
      | Some x => Found x | None => if class_in (stored_layers c n) a then Found 0 else ContractNotFound end =
      match or_else (storage_in ls a k) (storage_in (stored_layers c n) a k) with
      | Some x => Found x | None => if or_else (class_in ls a) (class_in (stored_layers c n) a) then Found 0 else ContractNotFound end).
    { intros D E. rewrite E. cbn [or_else]. destruct (storage_in (stored_layers c n) a k); [reflexivity|]. destruct (class_in (stored_layers c n) a) eqn:C.
      - destruct (class_in ls a); reflexivity.
      - now rewrite (no_class a C D). }
    destruct (is_system a) eqn:SY.
    - destruct (st_system _ _ S a SY) as [EE SS]. rewrite EE in *. cbn [contract_default cu_storage cu_class]. change (nget k (@nil (N * N))) with (@None N). cbv iota. rewrite SS.
      destruct (storage_in ls a k) as [v|] eqn:E; [reflexivity|]. cbn [option_map]. rewrite VE. apply ND; [discriminate|reflexivity].
    - destruct (st_storage _ _ S a k SY) as [E1 E2]. rewrite E1, E2. change (nget k (@nil (N * N))) with (@None N). cbn [option_map].
      destruct (storage_in ls a k) as [v|] eqn:E; [reflexivity|].
      destruct (cu_class (entry u a)) as [[h|h]|] eqn:EC; cbn [option_map].
      + destruct (st_deploy _ _ S _ _ EC) as (l & I & D). destruct (possible_fresh _ _ _ _ P I D) as (_ & _ & F).
        rewrite F, <- (st_class _ _ S _ a P), EC. reflexivity.
      + rewrite VE. apply ND; [discriminate|reflexivity].
      + rewrite VE. apply ND; [discriminate|reflexivity].
  Qed.
End Above.

(* where a slot of the pending data comes from *)
Lemma provenance_of u ls a k : stands u ls ->
  match storage_provenance u a k with
  | Some (FoundSet v) => storage_in ls a k = Some v
  | Some FoundZero => storage_in ls a k = None /\ exists l, In l ls /\ ly_deploys l a <> None
  | None => storage_in ls a k = None
  end.
Proof.
  intros S. rewrite storage_entry. destruct (is_system a) eqn:SY.
  - destruct (st_system _ _ S a SY) as [-> SS]. cbn [contract_default cu_storage cu_class].
    change (nget k (@nil (N * N))) with (@None N). cbv iota. rewrite SS. destruct (storage_in ls a k); reflexivity.
  - destruct (st_storage _ _ S a k SY) as [E1 E2]. rewrite E1, E2. change (nget k (@nil (N * N))) with (@None N). cbn [option_map].
    destruct (storage_in ls a k) as [v|] eqn:E; [reflexivity|].
    destruct (cu_class (entry u a)) as [[h|h]|] eqn:EC; [|reflexivity|reflexivity].
    split; [reflexivity|]. apply (st_deploy _ _ S a h EC).
Qed.

(* ---- block ids ---- *)
Lemma named low d c id n : inv low d c -> designates d c id n -> kept d n ->
  exists b, to_common_coerced d id = Some b /\ id_exists d b = true /\ answers d b c n /\
    forall m, m < clen c -> bound_of d b m = (m <=? n).
Proof.
  intros I D K. pose proof (proj1 (kept_iff _ _ _ _ I) K) as [L U]. destruct id as [m|h| | |]; cbn in D.
  - destruct D as [-> _]. exists (Number n). cbn. repeat split; auto; eapply inv_answers_number; eauto.
  - destruct D as (b & B & <-). exists (Hash (lb_hash b)). split; [reflexivity|].
    pose proof (heads_hash _ _ _ _ _ (i_heads _ _ _ I) L B) as H. split; [|split].
    + cbn. unfold header_of_hash in H. apply find_some in H. destruct H as [H1 H2].
      apply existsb_exists. eexists. split; [exact H1|exact H2].
    + eapply inv_answers_hash; eauto.
    + intros m M. cbn. rewrite H. reflexivity.
  - destruct D as [E _]. exists (Number n). cbn. rewrite E. cbn. repeat split; auto; eapply inv_answers_number; eauto.
  - exists Latest. split; [reflexivity|]. assert (NE : c <> []) by (intros ->; cbn in D; lia).
    split; [|split].
    + cbn. unfold kept, block_exists in K. destruct (d_headers d); [discriminate|reflexivity].
    + replace n with (clen c - 1) by lia. eapply inv_answers_latest; eauto.
    + intros m M. cbn. lia.
  - destruct D.
Qed.
Lemma unnamed low d c id : inv low d c -> id <> RPreConfirmed -> (forall n, designates d c id n -> ~ kept d n) ->
  match to_common_coerced d id with Some b => id_exists d b | None => false end = false.
Proof.
  intros I NP U. destruct id as [m|h| | |]; cbn in *.
  - destruct (block_exists d m) eqn:E; [|reflexivity]. elim (U m); [|exact E]. split; [reflexivity|].
    apply (kept_iff _ _ _ _ I) in E. tauto.
  - destruct (existsb _ _) eqn:E; [|reflexivity]. apply existsb_exists in E. destruct E as (x & X & E).
    apply N.eqb_eq in E. subst h. apply (proj2 (proj2 (i_heads _ _ _ I))) in X. destruct X as (L & b & B & E & _).
    elim (U (h_number x)); [eauto|]. apply (kept_iff _ _ _ _ I). split; [exact L|]. eapply block_at_lt; eauto.
  - destruct (d_pointer d) as [p|]; [|reflexivity]. cbn. destruct (block_exists d p) eqn:E; [|reflexivity].
    elim (U p); [|exact E]. split; [reflexivity|]. apply (kept_iff _ _ _ _ I) in E. tauto.
  - destruct (d_headers d) as [|x r] eqn:E; [reflexivity|]. exfalso.
    assert (X : In x (d_headers d)) by (rewrite E; now left).
    apply (proj2 (proj2 (i_heads _ _ _ I))) in X. destruct X as (L & b & B & _). apply block_at_lt in B.
    apply (U (clen c - 1)); [lia|]. apply (kept_iff _ _ _ _ I). lia.
  - now elim NP.
Qed.

Lemma named_latest low d c n : inv low d c -> n + 1 = clen c ->
  id_exists d Latest = true /\ answers d Latest c n /\ latest_number d = Some n /\
  forall m, m < clen c -> bound_of d Latest m = (m <=? n).
Proof.
  intros I E. assert (NE : c <> []) by (intros ->; cbn in E; lia).
  pose proof (heads_latest d low c (i_heads _ _ _ I) (i_low _ _ _ I)) as H. unfold latest_number.
  destruct (top_header (d_headers d)) as [h|] eqn:T; [|congruence]. destruct H as (_ & H & IN).
  split; [|split; [|split]].
  - cbn. destruct (d_headers d); [destruct IN|reflexivity].
  - replace n with (clen c - 1) by lia. eapply inv_answers_latest; eauto.
  - cbn. f_equal. lia.
  - intros m M. cbn. lia.
Qed.

(* the block of the last write *)
Lemma pair_eqb_spec : forall a b : N * N, reflect (a = b) (pair_eqb a b).
Proof.
  intros [a b] [x y]. unfold pair_eqb. cbn. destruct (N.eqb_spec a x), (N.eqb_spec b y); cbn; constructor; congruence.
Qed.
Lemma layer_writes b a k : ly_storage (data_layer (lb_data b)) a k = writes_storage b (a, k).
Proof. reflexivity. Qed.
Lemma lookup_last_write low d c b n a k v m : inv low d c -> low <= n -> n < clen c ->
  (forall m, m < clen c -> bound_of d b m = (m <=? n)) ->
  lookup_storage_block d b a k = Some (v, m) -> last_write c n a k m.
Proof.
  intros I L U B. unfold lookup_storage_block. destruct (newest _) as [r|] eqn:E; [|discriminate].
  cbn. intros X. injection X as <- <-. apply newest_some in E. destruct E as [F M]. apply filter_In in F. destruct F as [F Q].
  apply andb_true_iff in Q. destruct Q as [Q1 Q2]. destruct (pair_eqb_spec (a, k) (r_key r)) as [EK|]; [|discriminate].
  pose proof (i_storage _ _ _ I) as T. pose proof (proj1 (T r) F) as [(x & BX & W) QU]. rewrite <- EK in *.
  rewrite B in Q2 by (eapply block_at_lt; eauto). split.
  - exists x, (r_val r). rewrite layer_writes. split; [lia|]. split; assumption.
  - intros i y I1 I2 BY. rewrite layer_writes. destruct (writes_storage y (a, k)) as [v'|] eqn:WY; [|reflexivity]. exfalso.
    destruct (N.le_gt_cases i low) as [DL|DL].
    { rewrite (QU i y I1 DL BY) in WY. discriminate. }
    assert (IR : In (Row i (a, k) v') (d_storage d)).
    { apply T. cbn. split; [eauto|]. intros ? ? ? ?. lia. }
    assert (IF : In (Row i (a, k) v') (filter (fun r0 => pair_eqb (a, k) (r_key r0) && bound_of d b (r_block r0)) (d_storage d))).
    { apply filter_In. split; [exact IR|]. cbn. destruct (pair_eqb_spec (a, k) (a, k)); [|congruence].
      rewrite B by (eapply block_at_lt; eauto). cbn. lia. }
    apply M in IF. cbn in IF. lia.
Qed.

Lemma read_stored {A} d v09 w id (fp : pending -> option A) fd b :
  id <> RPreConfirmed -> to_common_coerced d id = Some b -> id_exists d b = true -> read d v09 w id fp fd = fd b.
Proof. intros N E X. unfold read. rewrite E, X. destruct id; try reflexivity. now elim N. Qed.
Lemma read_missing {A} d v09 w id (fp : pending -> option A) fd :
  id <> RPreConfirmed -> match to_common_coerced d id with Some b => id_exists d b | None => false end = false ->
  read d v09 w id fp fd = BlockNotFound.
Proof.
  intros N E. unfold read. destruct (to_common_coerced d id) as [b|]; [rewrite E|]; destruct id; try reflexivity; now elim N.
Qed.
Lemma read_pending {A} d v09 w (fp : pending -> option A) fd p :
  pending_get d v09 w = Some p -> id_exists d Latest = true ->
  read d v09 w RPreConfirmed fp fd = match fp p with Some x => Found x | None => fd Latest end.
Proof. intros E X. unfold read. rewrite E. cbn [to_common_coerced]. rewrite X. reflexivity. Qed.
