(** Proofs about stored transactions, receipts and events. *)
From Coq Require Import List Bool Arith NArith Lia ZifyBool ZifyNat ZifyN.
From Verif Require Import Radix MerkleModel CommitModel TxHashModel CodecModel CodecProof BlobModel
  BlobSpec.
Import ListNotations.
Local Open Scope N_scope.

(** ---- codecs ---- *)

Definition good {A} (c : codec A) (ok : A -> Prop) : Prop :=
  forall x r, ok x -> dec c (enc c x ++ r) = Some (x, r).

Lemma good_weaken {A} (c : codec A) (ok ok' : A -> Prop) :
  good c ok -> (forall x, ok' x -> ok x) -> good c ok'.
Proof. intros G W x r O. apply G, W, O. Qed.

Lemma good_u64 : good c_u64 is_u64.
Proof. intros x r O. apply u64_round, O. Qed.

Lemma good_index : good c_index (fun n => n < 2 ^ 63).
Proof.
  intros x r O. unfold c_index. cbn [dec enc]. rewrite u64_round.
  - replace (x <=? I64_MAX) with true; [reflexivity|]. symmetry. apply N.leb_le. unfold I64_MAX.
    change (2 ^ 63) with 9223372036854775808 in O. lia.
  - change (2 ^ 64) with 18446744073709551616. change (2 ^ 63) with 9223372036854775808 in O. lia.
Qed.

Lemma u64_not_254 n r : n < 2 ^ 64 ->
  exists b bs, encode_uint n ++ r = b :: bs /\ b <> 254.
Proof.
  intros B. unfold encode_uint.
  destruct (n <=? 250) eqn:E; [exists n, r; split; [reflexivity|lia]|].
  destruct (n <=? 65535); [eexists 251, _; split; [reflexivity|lia]|].
  destruct (n <=? 4294967295); [eexists 252, _; split; [reflexivity|lia]|].
  eexists 253, _; split; [reflexivity|lia].
Qed.

Lemma good_u128 : good c_u128 is_u128.
Proof.
  intros x r O. unfold is_u128 in O. cbn [dec enc c_u128]. unfold encode_u128.
  destruct (x <=? 18446744073709551615) eqn:E.
  - assert (B : x < 2 ^ 64) by (change (2 ^ 64) with 18446744073709551616; lia).
    pose proof (u64_round x r B) as U.
    destruct (u64_not_254 x r B) as (b & bs & Q & D). rewrite Q in *. unfold decode_u128.
    destruct (N.eqb_spec b 254); [contradiction|exact U].
  - cbn [app]. unfold decode_u128. rewrite N.eqb_refl.
    rewrite (take_le 16); [reflexivity|]. change (256 ^ N.of_nat 16) with (2 ^ 128). exact O.
Qed.

Lemma good_pair {A B} (ca : codec A) (cb : codec B) oka okb :
  good ca oka -> good cb okb -> good (ca ** cb) (fun p => oka (fst p) /\ okb (snd p)).
Proof.
  intros GA GB [a b] r [OA OB]. cbn [dec enc c_pair fst snd] in *.
  rewrite <- app_assoc, (GA _ _ OA), (GB _ _ OB). reflexivity.
Qed.

Lemma good_map {A B} (f : A -> B) (g : B -> A) (c : codec B) (okb : B -> Prop) (oka : A -> Prop) :
  good c okb -> (forall x, oka x -> okb (f x)) -> (forall x, g (f x) = x) ->
  good (c_map f g c) oka.
Proof.
  intros G O E x r OX. cbn [dec enc c_map]. rewrite (G _ _ (O _ OX)), E. reflexivity.
Qed.

Lemma good_opt {A} (c : codec A) ok : good c ok -> good (c_opt c) (is_option ok).
Proof.
  intros G [x|] r O; cbn [dec enc c_opt app]; [|reflexivity].
  rewrite (G _ _ O). reflexivity.
Qed.

Lemma dec_n_round {A} (c : codec A) ok : good c ok -> forall xs r, Forall ok xs ->
  dec_n c (length xs) (flat_map (enc c) xs ++ r) = Some (xs, r).
Proof.
  intros G xs r F. revert r. induction F as [|x xs O _ IH]; intros r; [reflexivity|].
  cbn [length dec_n flat_map]. rewrite <- app_assoc, (G _ _ O), IH. reflexivity.
Qed.

Lemma good_vec {A} (c : codec A) ok : good c ok -> good (c_vec c) (is_list ok).
Proof.
  intros G xs r [L F]. cbn [dec enc c_vec]. rewrite <- app_assoc, (u64_round _ _ L).
  unfold len. rewrite Nnat.Nat2N.id. apply (dec_n_round c ok G); exact F.
Qed.

Lemma good_string : good c_string (is_list (fun b => b < 256)).
Proof. intros x r [L _]. apply bytes_round, L. Qed.

Lemma good_two {A} (is_first : A -> bool) first second :
  (forall x, x = if is_first x then first else second) ->
  good (c_two is_first first second) (fun _ => True).
Proof.
  intros E x r _. cbn [dec enc c_two]. rewrite tag_round by (destruct (is_first x); lia).
  pose proof (E x) as Q. destruct (is_first x); cbn; rewrite <- Q; reflexivity.
Qed.

(** minimal felts *)
Lemma drop_zeros_facts bs :
  rval 256 (drop_zeros bs) = rval 256 bs /\ (length (drop_zeros bs) <= length bs)%nat.
Proof.
  induction bs as [|b bs [V L]]; [split; [reflexivity|cbn; lia]|].
  destruct b; cbn [drop_zeros length]; [|split; [reflexivity|lia]].
  split; [|lia]. rewrite V, rval_cons. lia.
Qed.

Lemma good_felt : good c_felt is_felt.
Proof.
  intros x r O. cbn [dec enc c_felt]. unfold encode_felt, decode_felt, encode_bytes.
  destruct (drop_zeros_facts (rdigits 256 32 x)) as [V L].
  set (bs := drop_zeros (rdigits 256 32 x)) in *.
  rewrite rdigits_length in L.
  assert (L64 : len bs < 2 ^ 64).
  { unfold len. change (2 ^ 64) with 18446744073709551616. lia. }
  rewrite <- app_assoc, (u64_round _ _ L64).
  destruct (N.ltb_spec 32 (len bs)); [unfold len in *; lia|].
  unfold len. rewrite Nnat.Nat2N.id, (take_app _ bs r eq_refl), V.
  rewrite rval_rdigits; [|lia|].
  - unfold is_felt in O. fold P in O. apply N.ltb_lt in O. rewrite O. reflexivity.
  - eapply N.lt_trans; [exact O|]. apply N.ltb_lt. reflexivity.
Qed.

Lemma felt_251 x : is_251 x -> is_felt x.
Proof. unfold is_251, is_felt. lia. Qed.

Lemma felt_eth x : is_eth x -> is_251 x.
Proof.
  intros E. unfold is_251. eapply N.lt_trans; [exact E|]. apply N.ltb_lt. reflexivity.
Qed.

Lemma good_felts : good c_felts is_felts.
Proof. apply good_vec, good_felt. Qed.

Lemma good_mode : good c_mode (fun _ => True).
Proof. apply good_two. intros []; reflexivity. Qed.

Lemma good_entry_type : good c_entry (fun _ => True).
Proof. apply good_two. intros []; reflexivity. Qed.

#[local] Arguments is_u64 : simpl never.
#[local] Arguments is_u128 : simpl never.
#[local] Arguments is_felt : simpl never.
#[local] Arguments is_251 : simpl never.
#[local] Arguments is_felts : simpl never.
Create HintDb codecs.
#[local] Hint Resolve good_u64 good_u128 good_felt good_felts good_mode good_entry_type good_index
  : codecs.

(** a struct: its fields one after another *)
Ltac fields := repeat (first [apply good_pair|apply good_opt|solve [eauto with codecs]]).
Ltac struct :=
  eapply good_map; [fields|intros [];  cbn [fst snd]; intuition|intros []; reflexivity].

Lemma good_l1_gas : good c_l1_gas is_sgas.
Proof. unfold is_sgas. struct. Qed.
#[local] Hint Resolve good_l1_gas : codecs.

Lemma good_builtins0 : good c_builtins0 is_builtins0.
Proof.
  eapply good_map; [fields| |intros []; reflexivity].
  intros [] F. cbn in *.
  repeat match goal with H : Forall _ (_ :: _) |- _ => inversion H; clear H; subst end. intuition.
Qed.

Lemma good_builtins : good c_builtins is_builtins.
Proof.
  eapply good_map; [fields| |intros []; reflexivity].
  intros [] F. cbn in *.
  repeat match goal with H : Forall _ (_ :: _) |- _ => inversion H; clear H; subst end. intuition.
Qed.
#[local] Hint Resolve good_builtins0 good_builtins : codecs.

Lemma good_resources0 : good c_resources0 is_resources0.
Proof. unfold is_resources0. struct. Qed.
Lemma good_resources1 : good c_resources1 is_resources1.
Proof. unfold is_resources1. struct. Qed.
Lemma good_resources2 : good c_resources2 is_resources2.
Proof. unfold is_resources2. struct. Qed.

Lemma good_status : good c_status is_status.
Proof.
  intros [|reason] r O; cbn [dec enc c_status].
  - rewrite tag_round by lia. reflexivity.
  - rewrite <- app_assoc, tag_round by lia. unfold arm. rewrite (good_string _ _ O). reflexivity.
Qed.
#[local] Hint Resolve good_status : codecs.

Lemma good_message c_to is_to : good c_to is_to -> good (c_message c_to) (is_smessage is_to).
Proof.
  intros G. unfold is_smessage. eapply good_map; [fields; exact G| |intros []; reflexivity].
  intros [] (A & B & C). cbn in *. auto using felt_251.
Qed.

Lemma good_receipt {X} (c_x : codec X) is_x c_to is_to :
  good c_x is_x -> good c_to is_to -> good (c_receipt c_x c_to) (is_sreceipt is_x is_to).
Proof.
  intros GX GT. unfold is_sreceipt.
  eapply good_map; [|  |intros []; reflexivity].
  - apply good_pair; [exact good_felt|]. apply good_pair; [exact (good_opt _ _ GX)|].
    apply good_pair; [exact (good_vec _ _ (good_message _ _ GT))|]. fields.
  - intros [] O. cbn [fst snd] in *. intuition.
Qed.

Lemma good_event : good c_event is_event.
Proof.
  unfold is_event. eapply good_map; [fields| |intros []; reflexivity].
  intros [] (A & B & C). cbn in *. auto using felt_251.
Qed.

Lemma good_events : good c_events is_events.
Proof.
  intros es r O. cbn [dec enc c_events]. rewrite <- app_assoc, tag_round by lia.
  apply (good_vec _ _ (good_vec _ _ good_event) es r O).
Qed.

Lemma good_bound : good c_bound is_bound.
Proof. unfold is_bound. struct. Qed.
#[local] Hint Resolve good_bound : codecs.
Lemma good_bounds0 : good c_bounds0 is_bounds0.
Proof. unfold is_bounds0. struct. Qed.
Lemma good_bounds1 : good c_bounds1 is_bounds.
Proof. unfold is_bounds. struct. Qed.
#[local] Hint Resolve good_bounds0 good_bounds1 : codecs.

(** the structs of transactions *)
Lemma good_declare01 : good c_declare01
  (fun t => is_felt (sd1_class t) /\ is_felt (sd1_fee t) /\ is_felt (sd1_nonce t) /\
            is_felts (sd1_signature t) /\ is_felt (sd1_sender t)).
Proof. struct. Qed.
Lemma good_declare2 : good c_declare2
  (fun t => is_felt (sd2_class t) /\ is_felt (sd2_fee t) /\ is_felt (sd2_nonce t) /\
            is_felts (sd2_signature t) /\ is_felt (sd2_sender t) /\ is_felt (sd2_casm t)).
Proof. struct. Qed.
Lemma good_declare3 {B} (c_b : codec B) is_b : good c_b is_b -> good (c_declare3 c_b)
  (fun t => is_felt (sd3_class t) /\ is_felt (sd3_nonce t) /\ is_b (sd3_bounds t) /\
            is_u64 (sd3_tip t) /\ is_felts (sd3_paymaster t) /\ is_felts (sd3_signature t) /\
            is_felts (sd3_deployment t) /\ is_felt (sd3_sender t) /\ is_felt (sd3_casm t)).
Proof. intros G. struct. Qed.
Lemma good_deploy_any : good c_deploy_any
  (fun t => is_felt (sp_address t) /\ is_felt (sp_version t) /\ is_felt (sp_salt t) /\
            is_felt (sp_class t) /\ is_felts (sp_calldata t)).
Proof. struct. Qed.
Lemma good_deploy : good c_deploy
  (fun t => is_felt (sy_address t) /\ is_felt (sy_salt t) /\ is_felt (sy_class t) /\
            is_felts (sy_calldata t)).
Proof. struct. Qed.
Lemma good_account1 : good c_account1
  (fun t => is_felt (sa1_address t) /\ is_felt (sa1_fee t) /\ is_felts (sa1_signature t) /\
            is_felt (sa1_nonce t) /\ is_felt (sa1_salt t) /\ is_felts (sa1_calldata t) /\
            is_felt (sa1_class t)).
Proof. struct. Qed.
Lemma good_account3 {B} (c_b : codec B) is_b : good c_b is_b -> good (c_account3 c_b)
  (fun t => is_felt (sa3_sender t) /\ is_felts (sa3_signature t) /\ is_felt (sa3_nonce t) /\
            is_b (sa3_bounds t) /\ is_u64 (sa3_tip t) /\ is_felts (sa3_paymaster t) /\
            is_felt (sa3_salt t) /\ is_felts (sa3_calldata t) /\ is_felt (sa3_class t)).
Proof. intros G. struct. Qed.
Lemma good_invoke0 : good c_invoke0
  (fun t => is_felts (si0_calldata t) /\ is_felt (si0_sender t) /\ is_felt (si0_selector t) /\
            is_felt (si0_fee t) /\ is_felts (si0_signature t)).
Proof.
  eapply good_map; [fields| |intros []; reflexivity].
  intros [? ? ? e ? ?] O. cbn in *. intuition. destruct e; cbn; auto.
Qed.
Lemma good_invoke1 : good c_invoke1
  (fun t => is_felts (si1_calldata t) /\ is_felt (si1_sender t) /\ is_felt (si1_fee t) /\
            is_felts (si1_signature t) /\ is_felt (si1_nonce t)).
Proof. struct. Qed.
Definition is_invoke3 {B} (is_b : B -> Prop) (t : s_invoke3 B) : Prop :=
  is_felts (si3_signature t) /\ is_felt (si3_nonce t) /\ is_b (si3_bounds t) /\
  is_u64 (si3_tip t) /\ is_felts (si3_paymaster t) /\ is_felts (si3_deployment t) /\
  is_felts (si3_calldata t) /\ is_felt (si3_sender t).
Lemma good_invoke3 {B} (c_b : codec B) is_b : good c_b is_b ->
  good (c_invoke3 c_b) (is_invoke3 is_b).
Proof. intros G. unfold is_invoke3. struct. Qed.
Lemma good_invoke5 : good c_invoke5
  (fun t => is_invoke3 is_bounds (si5_base t) /\ is_felts (si5_proof t)).
Proof.
  eapply good_map; [|  |intros []; reflexivity].
  - apply good_pair; [apply good_invoke3, good_bounds1|apply good_felts].
  - intros [] O. exact O.
Qed.
Lemma good_l1_handler : good c_l1_handler
  (fun t => is_felt (sl_address t) /\ is_felt (sl_selector t) /\ is_felt (sl_nonce t) /\
            is_felts (sl_calldata t)).
Proof. struct. Qed.

Lemma felt_0 : is_felt 0.
Proof. apply N.ltb_lt. reflexivity. Qed.
Lemma felt_1 : is_felt 1.
Proof. apply N.ltb_lt. reflexivity. Qed.

(** the enums of transactions *)
Ltac arm_of L :=
  rewrite <- app_assoc, tag_round by lia; unfold arm; rewrite L; [reflexivity|];
  cbn in *; unfold is_invoke3, is_bounds0, is_bounds in *; cbn in *; solve [intuition auto using felt_251, felt_0, felt_1].
Ltac any_arm :=
  first [arm_of good_declare01|arm_of good_declare2|arm_of (good_declare3 _ _ good_bounds0)
        |arm_of (good_declare3 _ _ good_bounds1)|arm_of good_deploy_any|arm_of good_deploy
        |arm_of good_account1|arm_of (good_account3 _ _ good_bounds0)
        |arm_of (good_account3 _ _ good_bounds1)|arm_of good_invoke0|arm_of good_invoke1
        |arm_of (good_invoke3 _ _ good_bounds0)|arm_of (good_invoke3 _ _ good_bounds1)
        |arm_of good_invoke5|arm_of good_l1_handler].

Lemma good_variant3 : good c_variant3 (fun v => exists w, says v w /\ is_variant w).
Proof.
  intros v r (w & S & O). destruct S; cbn [dec enc c_variant3]; any_arm.
Qed.

Lemma good_variant0 : good c_variant0 (fun v => exists w, says0 v w /\ is_variant w).
Proof.
  intros v r (w & S & O).
  destruct S; try match goal with H : says _ _ |- _ => inversion H; subst; clear H end;
    cbn [dec enc c_variant0]; any_arm.
Qed.

Lemma good_variant1 : good c_variant1 (fun v => exists w, says1 v w /\ is_variant w).
Proof.
  intros v r (w & S & O).
  destruct S; match goal with H : says _ _ |- _ => inversion H; subst; clear H end;
    cbn [dec enc c_variant1]; any_arm.
Qed.

Lemma good_variant2 : good c_variant2 (fun v => exists w, says2 v w /\ is_variant w).
Proof.
  intros v r (w & S & O).
  destruct S; match goal with H : says _ _ |- _ => inversion H; subst; clear H end;
    cbn [dec enc c_variant2]; any_arm.
Qed.

Lemma good_entry {V X} (c_v : codec V) (c_x : codec X) c_to says_v is_x is_to :
  good c_v (fun v => exists w, says_v v w /\ is_variant w) -> good c_x is_x -> good c_to is_to ->
  good (c_entry_of c_v c_x c_to) (is_entry says_v is_x is_to).
Proof.
  intros GV GX GT. unfold c_entry_of.
  eapply good_weaken.
  - apply good_pair; [apply good_pair; [exact good_felt|exact GV]|].
    exact (good_receipt _ _ _ _ GX GT).
  - intros [[h v] rc] (A & B & C). cbn [fst snd] in *. auto.
Qed.

Section Blob.
Variable c_eth : codec felt.
Hypothesis eth : good c_eth is_eth.

Lemma good_blob : good (c_blob c_eth) is_blob.
Proof.
  assert (G251 : good c_felt is_251) by exact (good_weaken _ _ _ good_felt felt_251).
  intros b r O. destruct b; cbn [dec enc c_blob is_blob] in *;
    rewrite <- app_assoc, tag_round by lia; unfold arm.
  - rewrite (good_vec _ _ (good_entry _ _ _ _ _ _ good_variant0 good_resources0 eth) _ _ O).
    reflexivity.
  - rewrite (good_vec _ _ (good_entry _ _ _ _ _ _ good_variant1 good_resources0 G251) _ _ O).
    reflexivity.
  - rewrite (good_vec _ _ (good_entry _ _ _ _ _ _ good_variant1 good_resources1 G251) _ _ O).
    reflexivity.
  - rewrite (good_vec _ _ (good_entry _ _ _ _ _ _ good_variant2 good_resources2 G251) _ _ O).
    reflexivity.
  - rewrite (good_vec _ _ (good_entry _ _ _ _ _ _ good_variant3 good_resources2 G251) _ _ O).
    reflexivity.
Qed.
End Blob.

(** ---- what is read ---- *)

Lemma in251_some x : is_251 x -> in251 x = Some x.
Proof. intros O. unfold in251. apply N.ltb_lt in O. fold LIMIT251 in O. rewrite O. reflexivity. Qed.

Lemma read_says v w : says v w -> is_variant w -> read_variant v = Some w.
Proof.
  intros S O. destruct S; cbn in O; cbn; unfold read_declare3, read_account3, read_invoke3; cbn;
    rewrite ?in251_some by intuition; reflexivity.
Qed.

Lemma says_write v : says (write_variant v) v.
Proof. destruct v as [[]|[]|[]|[]|[]|[]|[]|[]|[]|[]|[]|[]]; constructor. Qed.

Lemma upgrade_says0 v w : says0 v w -> exists v3, upgrade_variant0 v = Some v3 /\ says v3 w.
Proof. intros S. destruct S; eexists; (split; [reflexivity|]); try constructor; assumption. Qed.
Lemma upgrade_says1 v w : says1 v w -> says (upgrade_variant1 v) w.
Proof. intros S. destruct S; assumption. Qed.
Lemma upgrade_says2 v w : says2 v w -> says (upgrade_variant2 v) w.
Proof. intros S. destruct S; assumption. Qed.

Lemma map_opt_all {A B} (f : A -> option B) (R : A -> B -> Prop) l :
  Forall (fun x => exists y, f x = Some y /\ R x y) l ->
  exists l', map_opt f l = Some l' /\ Forall2 R l l'.
Proof.
  induction 1 as [|x l (y & E & Y) _ (l' & M & F)]; [exists []; split; [reflexivity|constructor]|].
  exists (y :: l'). cbn. rewrite E, M. split; [reflexivity|constructor; assumption].
Qed.

Lemma map_opt_map {A B} (f : B -> option A) (g : A -> B) l :
  (forall x, In x l -> f (g x) = Some x) -> map_opt f (map g l) = Some l.
Proof.
  induction l as [|x l IH]; intros E; [reflexivity|]. cbn.
  rewrite (E x (or_introl eq_refl)), IH; [reflexivity|]. intros y I. apply E. right; exact I.
Qed.

Lemma says_read_gas g : says_gas g (read_gas g).
Proof.
  split.
  - intros a b ->. reflexivity.
  - intros ->. reflexivity.
Qed.

Lemma read_message_says m (is_to : N -> Prop) : (forall x, is_to x -> is_251 x) -> is_smessage is_to m ->
  exists m', read_message m = Some m' /\ says_message m m'.
Proof.
  intros W (A & B & C). unfold read_message. rewrite (in251_some _ A), (in251_some _ (W _ C)).
  eexists; split; [reflexivity|]. split; [reflexivity|split; reflexivity].
Qed.

(** a receipt of any version reads as what it says *)
Lemma read_receipt_says {X} (g : X -> s_resources2) (says_x : X -> resources -> Prop) (is_x : X -> Prop) (is_to : N -> Prop) (r : s_receipt X) :
  (forall x, is_to x -> is_251 x) ->
  (forall x, says_x x (read_resources (g x))) ->
  is_sreceipt is_x is_to r ->
  exists r', read_receipt (upgrade_receipt g r) = Some r' /\ says_receipt says_x r r'.
Proof.
  intros W G (A & B & [_ C] & D & E & F). unfold read_receipt. cbn [upgrade_receipt sr_messages].
  destruct (map_opt_all read_message says_message (sr_messages r)) as (ms & M & S).
  { eapply Forall_impl; [|exact C]. intros m O. exact (read_message_says m is_to W O). }
  rewrite M. eexists; split; [reflexivity|]. unfold says_receipt. cbn.
  repeat split; auto. destruct (sr_resources r) as [x|]; cbn; [apply G|reflexivity].
Qed.

Definition reads_as {V X} (f : V -> option variant3) (g : X -> s_resources2)
  (e : entry V X) (x : stx * rcpt) : Prop :=
  exists e', upgrade_entry f g e = Some e' /\ read_entry e' = Some x.

Lemma read_entry_says {V X} (f : V -> option variant3) (g : X -> s_resources2)
  (says_v : V -> variant -> Prop) (says_x : X -> resources -> Prop)
  (is_x : X -> Prop) (is_to : N -> Prop) (e : entry V X) :
  (forall v w, says_v v w -> exists v3, f v = Some v3 /\ says v3 w) ->
  (forall x, is_to x -> is_251 x) ->
  (forall x, says_x x (read_resources (g x))) ->
  is_entry says_v is_x is_to e ->
  exists x, reads_as f g e x /\ says_entry says_v says_x e x.
Proof.
  intros U W G (A & (w & S & O) & R). destruct (U _ _ S) as (v3 & F & S3).
  destruct (read_receipt_says g says_x is_x is_to _ W G R) as (r' & RR & SR).
  exists (Stx (fst (fst e)) w, r'). split.
  - unfold reads_as, upgrade_entry. rewrite F. eexists; split; [reflexivity|].
    unfold read_entry. cbn [fst snd]. rewrite (read_says _ _ S3 O), RR. reflexivity.
  - unfold says_entry. cbn. auto.
Qed.

Lemma read_entries_says {V X} (f : V -> option variant3) (g : X -> s_resources2)
  (says_v : V -> variant -> Prop) (says_x : X -> resources -> Prop)
  (is_x : X -> Prop) (is_to : N -> Prop) (l : list (entry V X)) :
  (forall v w, says_v v w -> exists v3, f v = Some v3 /\ says v3 w) ->
  (forall x, is_to x -> is_251 x) ->
  (forall x, says_x x (read_resources (g x))) ->
  Forall (is_entry says_v is_x is_to) l ->
  exists l' txs, map_opt (upgrade_entry f g) l = Some l' /\ map_opt read_entry l' = Some txs /\
                 Forall2 (says_entry says_v says_x) l txs.
Proof.
  intros U W G. induction 1 as [|e l O _ (l' & txs & M & R & S)].
  - exists [], []. repeat split; constructor.
  - destruct (read_entry_says f g says_v says_x is_x is_to e U W G O) as (x & (e' & UE & RE) & SE).
    exists (e' :: l'), (x :: txs). cbn. rewrite UE, M, RE, R. repeat split. constructor; assumption.
Qed.

Lemma map_opt_id {A} (f : A -> option A) l : (forall x, f x = Some x) -> map_opt f l = Some l.
Proof. intros E. induction l as [|x l IH]; [reflexivity|]. cbn. rewrite E, IH. reflexivity. Qed.

Lemma upgrade_id e : upgrade_entry (fun v => Some v) (fun x => x) e = Some e.
Proof. destruct e as [[h v] [a [x|] c d f g]]; reflexivity. Qed.

Lemma read_blob_says b : is_blob b ->
  exists l txs, upgrade_blob b = Some l /\ map_opt read_entry l = Some txs /\ says_blob b txs.
Proof.
  assert (U1 : forall v w, says1 v w -> exists v3, Some (upgrade_variant1 v) = Some v3 /\ says v3 w)
    by (intros v w S; eexists; split; [reflexivity|apply upgrade_says1, S]).
  assert (U2 : forall v w, says2 v w -> exists v3, Some (upgrade_variant2 v) = Some v3 /\ says v3 w)
    by (intros v w S; eexists; split; [reflexivity|apply upgrade_says2, S]).
  assert (U3 : forall v w, says v w -> exists v3, Some v = Some v3 /\ says v3 w)
    by (intros v w S; eexists; split; [reflexivity|exact S]).
  assert (G0 : forall x, says_resources0 x (read_resources (upgrade_resources0 x)))
    by (intros x; unfold says_resources0, says_builtins0; cbn; intuition; apply says_read_gas).
  assert (G1 : forall x, says_resources1 x (read_resources (upgrade_resources1 x)))
    by (intros x; unfold says_resources1; cbn; intuition; apply says_read_gas).
  assert (G2 : forall x, says_resources2 x (read_resources x))
    by (intros x; unfold says_resources2; cbn; intuition; apply says_read_gas).
  intros O. destruct b as [l|l|l|l|l]; destruct O as [_ O]; cbn [upgrade_blob says_blob].
  - exact (read_entries_says _ _ _ _ _ _ l upgrade_says0 felt_eth G0 O).
  - exact (read_entries_says _ _ _ _ _ _ l U1 (fun _ H => H) G0 O).
  - exact (read_entries_says _ _ _ _ _ _ l U1 (fun _ H => H) G1 O).
  - exact (read_entries_says _ _ _ _ _ _ l U2 (fun _ H => H) G2 O).
  - destruct (read_entries_says (fun v => Some v) (fun x => x) _ _ _ _ l U3 (fun _ H => H) G2 O)
      as (l' & txs & M & R & S).
    rewrite (map_opt_id _ l upgrade_id) in M. injection M as <-. exists l, txs. auto.
Qed.

(** ---- what is written reads back ---- *)

Lemma is_write_receipt r : is_receipt r -> is_sreceipt is_resources2 is_251 (write_receipt r).
Proof.
  intros (A & (B1 & B2 & B3 & (B4 & B5) & (B6 & B7) & B8) & [CL C] & D & E & F).
  unfold is_sreceipt. cbn. repeat split; auto.
  - unfold len in *. rewrite map_length. exact CL.
  - apply Forall_map. eapply Forall_impl; [|exact C]. intros m (M1 & M2 & M3). split; auto.
Qed.

Lemma is_write_entry x : is_tx x -> is_entry says is_resources2 is_251 (write_entry x).
Proof.
  intros (A & B & C). split; [exact A|]. split; [|apply is_write_receipt, C].
  exists (s_variant (fst x)). split; [apply says_write|exact B].
Qed.

Lemma read_write_receipt r : is_receipt r -> read_receipt (write_receipt r) = Some r.
Proof.
  intros (A & B & [_ C] & D & E & F). unfold read_receipt. cbn [write_receipt sr_messages].
  rewrite map_opt_map.
  - destruct r as [fee [b s h [d1 d2] [t1 t2] l2] ms st th i]. reflexivity.
  - intros m I. rewrite Forall_forall in C. destruct (C m I) as (M1 & M2 & M3).
    unfold read_message. cbn. rewrite (in251_some _ M1), (in251_some _ M3). destruct m; reflexivity.
Qed.

Lemma read_write_entry x : is_tx x -> read_entry (write_entry x) = Some x.
Proof.
  intros (A & B & C). unfold read_entry. cbn [write_entry fst snd].
  rewrite (read_says _ _ (says_write _) B), (read_write_receipt _ C). destruct x as [[]]; reflexivity.
Qed.

Lemma read_event_is e : is_event e -> read_event e = Some e.
Proof.
  intros (_ & B & _). unfold read_event. rewrite (in251_some _ B). destruct e; reflexivity.
Qed.

Lemma read_events_is es : Forall (is_list is_event) es -> map_opt (map_opt read_event) es = Some es.
Proof.
  intros F. rewrite <- (map_id es) at 1. apply map_opt_map. intros e I.
  rewrite Forall_forall in F. destruct (F e I) as [_ G]. cbn.
  rewrite <- (map_id e) at 1. apply map_opt_map. intros x J. rewrite Forall_forall in G.
  apply read_event_is, G, J.
Qed.

(** ---- the tables ---- *)

Lemma find_row_none n l : find_row n l = None <-> ~ In n (map fst l).
Proof.
  induction l as [|[m r] l IH]; cbn; [split; auto|].
  destruct (N.eqb_spec m n) as [->|D]; [split; [discriminate|intros H; exfalso; auto]|].
  rewrite IH. split; [intros H [E|I]; auto|auto].
Qed.

Lemma find_row_in n r l : NoDup (map fst l) -> In (n, r) l -> find_row n l = Some r.
Proof.
  induction l as [|[m r'] l IH]; cbn; intros ND I; [contradiction|]. inversion ND; subst.
  destruct I as [E|I].
  - injection E as -> ->. rewrite N.eqb_refl. reflexivity.
  - destruct (N.eqb_spec m n) as [->|D]; [|apply IH; assumption].
    exfalso. apply H1. apply (in_map fst) in I. exact I.
Qed.

Lemma find_hash_none h l : find_hash h l = None <-> ~ In h (map fst l).
Proof.
  induction l as [|[m r] l IH]; cbn; [split; auto|].
  destruct (N.eqb_spec m h) as [->|D]; [split; [discriminate|intros H; exfalso; auto]|].
  rewrite IH. split; [intros H [E|I]; auto|auto].
Qed.

Lemma find_hash_in h p l : NoDup (map fst l) -> In (h, p) l -> find_hash h l = Some p.
Proof.
  induction l as [|[m r'] l IH]; cbn; intros ND I; [contradiction|]. inversion ND; subst.
  destruct I as [E|I].
  - injection E as -> ->. rewrite N.eqb_refl. reflexivity.
  - destruct (N.eqb_spec m h) as [->|D]; [|apply IH; assumption].
    exfalso. apply H1. apply (in_map fst) in I. exact I.
Qed.

(** the rows of transaction_hashes of a block *)
Fixpoint hash_rows (n idx : N) (txs : list (stx * rcpt)) : list (felt * (N * N)) :=
  match txs with
  | [] => []
  | (t, _) :: txs' => (s_hash t, (n, idx)) :: hash_rows n (idx + 1) txs'
  end.
Notation hs := (map (fun x : stx * rcpt => s_hash (fst x))).

Lemma hash_rows_keys n idx txs : map fst (hash_rows n idx txs) = hs txs.
Proof.
  revert idx. induction txs as [|[t r] txs IH]; intros idx; [reflexivity|]. cbn. f_equal. apply IH.
Qed.

Lemma hash_rows_block n idx txs x : In x (hash_rows n idx txs) -> fst (snd x) = n.
Proof.
  revert idx. induction txs as [|[t r] txs IH]; intros idx; cbn; [tauto|].
  intros [<-|I]; [reflexivity|eapply IH; exact I].
Qed.

Lemma hash_rows_nth n txs : forall idx i t r, nth_error txs i = Some (t, r) ->
  In (s_hash t, (n, idx + N.of_nat i)) (hash_rows n idx txs).
Proof.
  induction txs as [|[t' r'] txs IH]; intros idx i t r E; destruct i as [|i]; cbn in *;
    try discriminate.
  - injection E as -> ->. left. f_equal. f_equal. lia.
  - right. replace (idx + N.pos (Pos.of_succ_nat i)) with (idx + 1 + N.of_nat i) by lia.
    eapply IH; exact E.
Qed.

Lemma hash_rows_infos n txs : forall k,
  map (fun h => (fst h, snd (snd h))) (hash_rows n (N.of_nat k) txs) =
  combine (hs txs) (map N.of_nat (seq k (length txs))).
Proof.
  induction txs as [|[t r] txs IH]; intros k; [reflexivity|]. cbn. f_equal.
  replace (N.of_nat k + 1) with (N.of_nat (S k)) by lia. apply IH.
Qed.

Lemma insert_hashes_spec n txs : forall idx l,
  match insert_hashes n idx txs l with
  | Some l' => l' = l ++ hash_rows n idx txs /\ NoDup (hs txs) /\
               (forall h, In h (hs txs) -> ~ In h (map fst l))
  | None => ~ (NoDup (hs txs) /\ (forall h, In h (hs txs) -> ~ In h (map fst l)))
  end.
Proof.
  induction txs as [|[t r] txs IH]; intros idx l; cbn [insert_hashes hash_rows map fst].
  - rewrite app_nil_r. repeat split; [constructor|intros h []].
  - destruct (find_hash (s_hash t) l) eqn:F.
    + intros [_ A]. apply (A (s_hash t) (or_introl eq_refl)).
      destruct (in_dec N.eq_dec (s_hash t) (map fst l)) as [I|I]; [exact I|].
      apply find_hash_none in I. congruence.
    + apply find_hash_none in F. specialize (IH (idx + 1) (l ++ [(s_hash t, (n, idx))])).
      destruct (insert_hashes n (idx + 1) txs (l ++ [(s_hash t, (n, idx))])) as [l'|].
      * destruct IH as (-> & ND & A). split; [rewrite <- app_assoc; reflexivity|]. split.
        -- constructor; [|exact ND]. intros I. apply (A _ I). rewrite map_app, in_app_iff.
           right. left. reflexivity.
        -- intros h [<-|I]; [exact F|]. intros J. apply (A _ I). rewrite map_app, in_app_iff.
           left. exact J.
      * intros [ND A]. apply IH. inversion ND; subst. split; [assumption|].
        intros h I. rewrite map_app, in_app_iff. intros [J|[J|[]]].
        -- exact (A h (or_intror I) J).
        -- cbn in J. subst. contradiction.
Qed.

Section Store.
Variable c_eth : codec felt.
Hypothesis eth : good c_eth is_eth.
Variables zt ze : zstd.
Hypothesis faithful_txs : faithful zt.
Hypothesis faithful_events : faithful ze.

#[local] Opaque txs_blob events_blob.
Definition row_of (b : block) : list byte * option (list byte) :=
  (compress zt (txs_blob c_eth (fst b)),
   option_map (fun es => compress ze (events_blob es)) (snd b)).
Definition image (s : store) : db :=
  Db (map (fun x => (fst x, row_of (snd x))) s)
     (flat_map (fun x => hash_rows (fst x) 0 (fst (snd x))) s).

Definition fine (b : block) : Prop :=
  is_list is_tx (fst b) /\ len (txs_blob c_eth (fst b)) <= 2 ^ 27 /\
  is_option (fun es => is_events es /\ len (events_blob es) <= 2 ^ 27) (snd b).
Definition inv (s : store) : Prop :=
  NoDup (map fst s) /\ NoDup (all_hashes s) /\ Forall (fun x => fine (snd x)) s.

Lemma image_keys s : map fst (rows (image s)) = map fst s.
Proof. cbn. rewrite map_map. reflexivity. Qed.

Lemma image_hashes s : map fst (hashes (image s)) = all_hashes s.
Proof.
  cbn. unfold all_hashes, tx_hashes. induction s as [|[n b] s IH]; [reflexivity|].
  cbn. rewrite map_app, hash_rows_keys. f_equal. exact IH.
Qed.

Lemma insert_spec s n txs es :
  insert_transaction_data c_eth zt ze (image s) n txs es =
  if nothing (txs, es) then Some (image s)
  else match insert_hashes n 0 txs (hashes (image s)) with
       | None => None
       | Some hs =>
           match find_row n (rows (image s)) with
           | Some _ => None
           | None => Some (Db (rows (image s) ++ [(n, row_of (txs, es))]) hs)
           end
       end.
Proof. unfold insert_transaction_data. destruct txs as [|x txs], es as [[|e es]|]; reflexivity. Qed.

(** an insertion that is neither empty nor refused adds the block *)
Lemma insert_image s n b : nothing b = false ->
  match insert_transaction_data c_eth zt ze (image s) n (fst b) (snd b) with
  | Some d => addable s n b /\ d = image (s ++ [(n, b)])
  | None => ~ addable s n b
  end.
Proof.
  intros E. destruct b as [txs es]. cbn [fst snd]. rewrite insert_spec, E.
  pose proof (insert_hashes_spec n txs 0 (hashes (image s))) as I.
  rewrite image_hashes in I. unfold addable, tx_hashes. cbn [fst].
  destruct (insert_hashes n 0 txs (hashes (image s))) as [l'|].
  - destruct I as (-> & ND & A). destruct (find_row n (rows (image s))) eqn:F.
    + intros (N1 & _). rewrite <- image_keys in N1. apply find_row_none in N1. congruence.
    + apply find_row_none in F. rewrite image_keys in F. split; [repeat split; auto|].
      unfold image. rewrite map_app, flat_map_app. cbn. rewrite app_nil_r. reflexivity.
  - tauto.
Qed.

Lemma filter_app_all {A} (f : A -> bool) l : Forall (fun x => f x = true) l -> filter f l = l.
Proof. induction 1 as [|x l E _ IH]; [reflexivity|]. cbn. rewrite E, IH. reflexivity. Qed.
Lemma filter_app_none {A} (f : A -> bool) l : Forall (fun x => f x = false) l -> filter f l = [].
Proof. induction 1 as [|x l E _ IH]; [reflexivity|]. cbn. rewrite E. exact IH. Qed.

Lemma remove_image s n : remove_block (image s) n = image (filter (fun x => negb (fst x =? n)) s).
Proof.
  unfold remove_block, image. cbn. f_equal.
  - induction s as [|[m b] s IH]; [reflexivity|]. cbn. destruct (m =? n); cbn; [exact IH|].
    f_equal. exact IH.
  - induction s as [|[m b] s IH]; [reflexivity|]. cbn. rewrite filter_app, IH. clear IH.
    destruct (N.eqb_spec m n) as [->|D]; cbn.
    + rewrite filter_app_none; [reflexivity|]. apply Forall_forall. intros x I.
      rewrite (hash_rows_block _ _ _ _ I), N.eqb_refl. reflexivity.
    + rewrite filter_app_all; [reflexivity|]. apply Forall_forall. intros x I.
      rewrite (hash_rows_block _ _ _ _ I). destruct (N.eqb_spec m n); [contradiction|reflexivity].
Qed.

Definition with_events (n : N) (es : list (list event)) (s : store) : store :=
  map (fun x => if fst x =? n then (fst x, (fst (snd x), Some es)) else x) s.

Lemma update_image s n es : update_events ze (image s) n es = image (with_events n es s).
Proof.
  unfold update_events, image, with_events. cbn. f_equal.
  - rewrite !map_map. apply map_ext. intros [m [txs e]]. cbn [fst snd].
    destruct (m =? n); [|reflexivity]. cbn [fst snd]. unfold row_of. cbn [fst snd option_map].
    reflexivity.
  - induction s as [|[m [txs e]] s IH]; [reflexivity|]. cbn. rewrite IH.
    destruct (m =? n); reflexivity.
Qed.

Lemma step_image s o s' : store_step s o s' -> apply c_eth zt ze (image s) o = image s'.
Proof.
  intros S. destruct S as [n [txs es] E|n [txs es] E A|n [txs es] E A|n es|n]; cbn [apply].
  - rewrite insert_spec, E. reflexivity.
  - pose proof (insert_image s n (txs, es) E) as I. cbn [fst snd] in I.
    destruct (insert_transaction_data c_eth zt ze (image s) n txs es); [|contradiction].
    destruct I as [_ ->]. reflexivity.
  - pose proof (insert_image s n (txs, es) E) as I. cbn [fst snd] in I.
    destruct (insert_transaction_data c_eth zt ze (image s) n txs es); [|reflexivity].
    destruct I as [B _]. contradiction.
  - apply update_image.
  - apply remove_image.
Qed.

(** every operation has a result *)
Lemma step_exists s o : exists s', store_step s o s'.
Proof.
  destruct o as [n b|n es|n]; [|eexists; constructor..].
  destruct (nothing b) eqn:E; [exists s; apply insert_nothing, E|].
  pose proof (insert_image s n b E) as I.
  destruct (insert_transaction_data c_eth zt ze (image s) n (fst b) (snd b)).
  - exists (s ++ [(n, b)]). apply insert_new; [exact E|apply I].
  - exists s. apply insert_refused; assumption.
Qed.

Lemma reached_image os s : reached os s -> run c_eth zt ze os = image s.
Proof.
  induction 1 as [|os o s s' R IH S]; [reflexivity|].
  unfold run in *. rewrite fold_left_app, IH. cbn. apply step_image, S.
Qed.

Lemma with_events_keys n es s : map fst (with_events n es s) = map fst s.
Proof.
  unfold with_events. rewrite map_map. apply map_ext. intros [m b].
  cbn [fst]. destruct (m =? n); reflexivity.
Qed.
Lemma with_events_hashes n es s : all_hashes (with_events n es s) = all_hashes s.
Proof.
  unfold all_hashes, with_events. induction s as [|[m [txs e]] s IH]; [reflexivity|]. cbn.
  rewrite IH. destruct (m =? n); reflexivity.
Qed.

Lemma nodup_filter_map {A B} (f : A -> B) p l : NoDup (map f l) -> NoDup (map f (filter p l)).
Proof.
  induction l as [|x l IH]; cbn; intros ND; [constructor|]. inversion ND; subst.
  destruct (p x); [|apply IH; assumption]. cbn. constructor; [|apply IH; assumption].
  intros I. apply H1. rewrite in_map_iff in *. destruct I as (y & E & I). exists y.
  apply filter_In in I. tauto.
Qed.

Lemma nodup_app_parts {A} (l m : list A) : NoDup (l ++ m) ->
  NoDup l /\ NoDup m /\ (forall x, In x l -> ~ In x m).
Proof.
  induction l as [|x l IH]; cbn; intros ND; [repeat split; [constructor|exact ND|tauto]|].
  inversion ND; subst. destruct (IH H2) as (A1 & A2 & A3). rewrite in_app_iff in H1.
  repeat split; auto; [constructor; tauto|]. intros y [<-|I]; [tauto|auto].
Qed.

Lemma nodup_app_join {A} (l m : list A) :
  NoDup l -> NoDup m -> (forall x, In x m -> ~ In x l) -> NoDup (l ++ m).
Proof.
  intros NL NM D. induction l as [|x l IH]; cbn; [exact NM|]. inversion NL; subst. constructor.
  - rewrite in_app_iff. intros [I|I]; [contradiction|]. exact (D x I (or_introl eq_refl)).
  - apply IH; [assumption|]. intros y I J. exact (D y I (or_intror J)).
Qed.

Lemma nodup_hashes_filter p s : NoDup (all_hashes s) -> NoDup (all_hashes (filter p s)).
Proof.
  induction s as [|x s IH]; intros ND; [exact ND|]. unfold all_hashes in *. cbn [flat_map] in ND.
  destruct (nodup_app_parts _ _ ND) as (A1 & A2 & A3). specialize (IH A2).
  cbn [filter]. destruct (p x); [|exact IH]. cbn [flat_map]. apply nodup_app_join; auto.
  intros h I J. apply (A3 h J). rewrite in_flat_map in *. destruct I as (y & IY & K).
  exists y. apply filter_In in IY. tauto.
Qed.

Lemma step_inv s o s' : inv s -> within c_eth o -> store_step s o s' -> inv s'.
Proof.
  intros (N1 & N2 & F) W S. destruct S as [n b E|n [txs es] E (A1 & A2 & A3)|n b E A|n es|n];
    try (split; [|split]; assumption).
  - split; [|split].
    + rewrite map_app. apply nodup_app_join; [exact N1|repeat constructor; tauto|].
      intros x [<-|[]]. exact A1.
    + unfold all_hashes in *. rewrite flat_map_app. cbn [flat_map]. rewrite app_nil_r.
      apply nodup_app_join; assumption.
    + apply Forall_app. split; [exact F|]. constructor; [exact W|constructor].
  - fold (with_events n es s). split; [|split].
    + rewrite with_events_keys. exact N1.
    + rewrite with_events_hashes. exact N2.
    + unfold with_events. apply Forall_map. eapply Forall_impl; [|exact F].
      intros [m [txs e]] (B1 & B2 & B3). cbn in *. destruct (m =? n); (split; [|split]); assumption.
  - split; [|split].
    + apply nodup_filter_map, N1.
    + apply nodup_hashes_filter, N2.
    + apply Forall_forall. intros x I. apply filter_In in I. rewrite Forall_forall in F.
      apply F, I.
Qed.

Lemma reached_inv os s : Forall (within c_eth) os -> reached os s -> inv s.
Proof.
  intros W R. induction R as [|os o s s' R IH S]; [repeat split; constructor|].
  apply Forall_app in W. destruct W as [W1 W2]. inversion W2; subst.
  eapply step_inv; [apply IH, W1|eassumption|exact S].
Qed.

(** ---- reading ---- *)

Lemma read_txs_of b : fine b ->
  read_txs c_eth zt (compress zt (txs_blob c_eth (fst b))) = Some (map write_entry (fst b)).
Proof.
  intros ([L F] & S & _). unfold read_txs. rewrite faithful_txs.
  apply N.leb_le in S. change MAX_TXS with (2 ^ 27). rewrite S.
  Transparent txs_blob. unfold txs_blob.
  rewrite <- (app_nil_r (enc _ _)), (good_blob c_eth eth); [reflexivity|].
  split; [unfold len in *; rewrite map_length; exact L|]. apply Forall_map.
  eapply Forall_impl; [|exact F]. apply is_write_entry.
Qed.

Lemma decode_events_of es : is_events es -> len (events_blob es) <= 2 ^ 27 ->
  decode_events ze (compress ze (events_blob es)) = Some es.
Proof.
  intros O S. unfold decode_events. rewrite faithful_events. apply N.leb_le in S.
  change MAX_EVENTS with (2 ^ 27). rewrite S.
  Transparent events_blob. unfold events_blob.
  rewrite <- (app_nil_r (enc _ _)), (good_events es [] O). reflexivity.
Qed.

#[local] Opaque txs_blob events_blob.
Lemma find_row_image s n b : inv s -> In (n, b) s -> find_row n (rows (image s)) = Some (row_of b).
Proof.
  intros (N1 & _) I. apply find_row_in; [rewrite image_keys; exact N1|].
  cbn. apply (in_map (fun x => (fst x, row_of (snd x)))) in I. exact I.
Qed.

Lemma fine_in s n b : inv s -> In (n, b) s -> fine b.
Proof. intros (_ & _ & F) I. rewrite Forall_forall in F. exact (F _ I). Qed.

Lemma query_txs s n b : inv s -> In (n, b) s ->
  query_transactions_by_block c_eth zt (image s) n = Some (fst b).
Proof.
  intros V I. unfold query_transactions_by_block. rewrite (find_row_image s n b V I).
  cbn [row_of]. rewrite (read_txs_of b (fine_in s n b V I)). apply map_opt_map.
  intros x J. apply read_write_entry. destruct (fine_in s n b V I) as ([_ F] & _).
  rewrite Forall_forall in F. apply F, J.
Qed.

Lemma filter_image s n b : inv s -> In (n, b) s ->
  filter (fun h => fst (snd h) =? n) (hashes (image s)) = hash_rows n 0 (fst b).
Proof.
  intros (N1 & _) I. cbn. induction s as [|[m c] s IH]; [contradiction|].
  cbn in *. inversion N1; subst. rewrite filter_app. destruct I as [E|I].
  - injection E as -> ->. rewrite filter_app_all.
    + rewrite filter_app_none; [apply app_nil_r|]. apply Forall_forall. intros x J.
      apply in_flat_map in J. destruct J as ([k e] & J & K).
      rewrite (hash_rows_block _ _ _ _ K). apply N.eqb_neq. cbn. intros ->. apply H1.
      apply (in_map fst) in J. exact J.
    + apply Forall_forall. intros x J. rewrite (hash_rows_block _ _ _ _ J). apply N.eqb_refl.
  - rewrite filter_app_none; [apply IH; assumption|]. apply Forall_forall. intros x J.
    rewrite (hash_rows_block _ _ _ _ J). apply N.eqb_neq. intros ->. apply H1.
    apply (in_map fst) in I. exact I.
Qed.

Lemma query_infos s n b : inv s -> In (n, b) s ->
  query_transaction_infos_by_block (image s) n = numbered b.
Proof.
  intros V I. unfold query_transaction_infos_by_block. rewrite (filter_image s n b V I).
  apply (hash_rows_infos n (fst b) 0).
Qed.

Lemma combine_fst {A B} (l : list A) (m : list B) : length l = length m ->
  map fst (combine l m) = l.
Proof.
  revert m. induction l as [|x l IH]; intros [|y m] E; cbn in *; try discriminate; [reflexivity|].
  f_equal. apply IH. lia.
Qed.

Lemma query_hashes s n b : inv s -> In (n, b) s ->
  transaction_hashes_for_block (image s) n = tx_hashes b.
Proof.
  intros V I. unfold transaction_hashes_for_block. rewrite (query_infos s n b V I).
  apply combine_fst. unfold tx_hashes. rewrite !map_length, seq_length. reflexivity.
Qed.

Lemma read_events_of b es : fine b -> snd b = Some es ->
  snd (row_of b) = Some (compress ze (events_blob es)) /\
  decode_events ze (compress ze (events_blob es)) = Some es /\
  read_events ze (compress ze (events_blob es)) = Some es.
Proof.
  intros (_ & _ & O) E. rewrite E in O. cbn [row_of snd]. rewrite E. destruct O as [O S].
  split; [reflexivity|]. split; [apply decode_events_of; assumption|].
  unfold read_events. rewrite (decode_events_of es O S). apply read_events_is, O.
Qed.

Lemma query_events s n b es : inv s -> In (n, b) s -> snd b = Some es ->
  query_events_by_block ze (image s) n = Some (Some es).
Proof.
  intros V I E. unfold query_events_by_block. rewrite (find_row_image s n b V I).
  destruct (read_events_of b es (fine_in s n b V I) E) as (R1 & _ & R2).
  destruct (row_of b) as [t e]. cbn [snd] in R1. subst. rewrite R2. reflexivity.
Qed.

Lemma numbered_length b : length (numbered b) = length (fst b).
Proof.
  unfold numbered, tx_hashes. rewrite combine_length, !map_length, seq_length. lia.
Qed.

Lemma query_events_for s n b es : inv s -> In (n, b) s -> snd b = Some es ->
  length es = length (fst b) ->
  events_for_block ze (image s) n = Some (combine (numbered b) es).
Proof.
  intros V I E L. unfold events_for_block. rewrite (query_events s n b es V I E).
  rewrite (query_infos s n b V I), numbered_length, L, Nat.eqb_refl. reflexivity.
Qed.

Lemma query_data s n b es : inv s -> In (n, b) s -> snd b = Some es ->
  transaction_data_for_block c_eth zt ze (image s) n = Some (combine (fst b) es).
Proof.
  intros V I E. unfold transaction_data_for_block, query_transactions_and_events_by_block.
  rewrite (query_txs s n b V I), (find_row_image s n b V I).
  destruct (read_events_of b es (fine_in s n b V I) E) as (R1 & _ & R2).
  destruct (row_of b) as [t e]. cbn [snd] in R1. subst. rewrite R2. reflexivity.
Qed.

Lemma query_data_pending s n b : inv s -> In (n, b) s -> snd b = None ->
  transaction_data_for_block c_eth zt ze (image s) n = Some [].
Proof.
  intros V I E. unfold transaction_data_for_block, query_transactions_and_events_by_block.
  rewrite (query_txs s n b V I), (find_row_image s n b V I). cbn [row_of]. rewrite E. cbn.
  destruct (fst b); reflexivity.
Qed.

Lemma absent s n : ~ In n (map fst s) ->
  find_row n (rows (image s)) = None /\
  query_transaction_infos_by_block (image s) n = [].
Proof.
  intros A. split; [apply find_row_none; rewrite image_keys; exact A|].
  unfold query_transaction_infos_by_block. rewrite filter_app_none; [reflexivity|].
  apply Forall_forall. intros x J. cbn in J. apply in_flat_map in J.
  destruct J as ([k e] & J & K). rewrite (hash_rows_block _ _ _ _ K). apply N.eqb_neq. cbn.
  intros ->. apply A. apply (in_map fst) in J. exact J.
Qed.

Lemma find_hash_image s n b i t r : inv s -> In (n, b) s -> nth_error (fst b) i = Some (t, r) ->
  find_hash (s_hash t) (hashes (image s)) = Some (n, N.of_nat i).
Proof.
  intros (N1 & N2 & _) I E. apply find_hash_in; [rewrite image_hashes; exact N2|].
  cbn. apply in_flat_map. exists (n, b). split; [exact I|]. cbn.
  pose proof (hash_rows_nth n (fst b) 0 i t r E) as H. rewrite N.add_0_l in H. exact H.
Qed.

Lemma write_nth (b : block) i (t : stx) (r : rcpt) : nth_error (fst b) i = Some (t, r) ->
  nth_error (map write_entry (fst b)) (N.to_nat (N.of_nat i)) = Some (write_entry (t, r)).
Proof. intros E. rewrite Nnat.Nat2N.id. apply map_nth_error, E. Qed.

Lemma tx_in (b : block) i (x : stx * rcpt) : fine b -> nth_error (fst b) i = Some x -> is_tx x.
Proof.
  intros ([_ F] & _) E. rewrite Forall_forall in F. apply F. eapply nth_error_In, E.
Qed.

Lemma query_transaction s n b i t r : inv s -> In (n, b) s ->
  nth_error (fst b) i = Some (t, r) ->
  transaction c_eth zt (image s) (s_hash t) = Some (Some t).
Proof.
  intros V I E. unfold transaction. rewrite (find_hash_image s n b i t r V I E).
  rewrite (find_row_image s n b V I). cbn [row_of].
  rewrite (read_txs_of b (fine_in s n b V I)), (write_nth b i t r E).
  rewrite (read_write_entry _ (tx_in b i _ (fine_in s n b V I) E)). reflexivity.
Qed.

Lemma query_receipt s n b es i t r e : inv s -> In (n, b) s -> snd b = Some es ->
  nth_error (fst b) i = Some (t, r) -> nth_error es i = Some e ->
  transaction_with_receipt c_eth zt ze (image s) (s_hash t) = Some (Some (t, r, e, n)).
Proof.
  intros V I X E EE. unfold transaction_with_receipt, query_transaction_and_events_by_hash.
  rewrite (find_hash_image s n b i t r V I E), (find_row_image s n b V I).
  pose proof (fine_in s n b V I) as FB.
  destruct (read_events_of b es FB X) as (R1 & R2 & R3).
  unfold row_of. rewrite X. cbn [option_map].
  rewrite (read_txs_of b FB), R2. cbn [option_map]. rewrite (write_nth b i t r E).
  rewrite Nnat.Nat2N.id, EE, (read_write_entry _ (tx_in b i _ FB E)).
  destruct FB as (_ & _ & O). rewrite X in O. destruct O as ((_ & O) & _).
  rewrite Forall_forall in O. destruct (O e (nth_error_In _ _ EE)) as [_ OE].
  rewrite <- (map_id e) at 1. rewrite map_opt_map; [reflexivity|].
  intros y J. rewrite Forall_forall in OE. apply read_event_is, OE, J.
Qed.

Lemma query_receipt_pending s n b i t r : inv s -> In (n, b) s -> snd b = None ->
  nth_error (fst b) i = Some (t, r) ->
  transaction_with_receipt c_eth zt ze (image s) (s_hash t) = None.
Proof.
  intros V I X E. unfold transaction_with_receipt, query_transaction_and_events_by_hash.
  rewrite (find_hash_image s n b i t r V I E), (find_row_image s n b V I).
  cbn [row_of]. rewrite X. cbn [option_map].
  pose proof (fine_in s n b V I) as FB.
  rewrite (read_txs_of b FB), (write_nth b i t r E), (read_write_entry _ (tx_in b i _ FB E)).
  reflexivity.
Qed.

Lemma query_unknown s h : ~ In h (all_hashes s) ->
  transaction c_eth zt (image s) h = Some None /\
  transaction_with_receipt c_eth zt ze (image s) h = Some None.
Proof.
  intros A. rewrite <- image_hashes in A. apply find_hash_none in A.
  unfold transaction, transaction_with_receipt, query_transaction_and_events_by_hash.
  rewrite A. split; reflexivity.
Qed.

(** blobs of any version *)
Lemma query_blob (d : db) n b (e : option (list byte)) : is_blob b -> len (enc (c_blob c_eth) b) <= 2 ^ 27 ->
  find_row n (rows d) = Some (compress zt (enc (c_blob c_eth) b), e) ->
  exists txs, query_transactions_by_block c_eth zt d n = Some txs /\ says_blob b txs.
Proof.
  intros O S F. unfold query_transactions_by_block, read_txs. rewrite F, faithful_txs.
  apply N.leb_le in S. change MAX_TXS with (2 ^ 27). rewrite S.
  rewrite <- (app_nil_r (enc _ _)), (good_blob c_eth eth b [] O).
  destruct (read_blob_says b O) as (l & txs & U & R & Y). rewrite U. exists txs. auto.
Qed.
End Store.

(** a blob is at least as long as a reason in it *)
Lemma len_app {A} (l m : list A) : len (l ++ m) = len l + len m.
Proof. unfold len. rewrite app_length. lia. Qed.
Lemma reason_in_blob c_eth t r reason : r_status r = Reverted reason ->
  len reason <= len (txs_blob c_eth [(t, r)]).
Proof.
  intros E. unfold txs_blob. cbn [map c_blob enc].
  unfold c_vec. cbn [enc flat_map]. unfold c_entry_of at 1, c_receipt. cbn [enc c_pair c_map snd].
  unfold write_entry, write_receipt. cbn [fst snd sr_status]. rewrite E.
  unfold c_status. cbn [enc]. unfold c_string. cbn [enc]. unfold encode_bytes.
  rewrite !len_app. lia.
Qed.

Lemma query_too_large c_eth zt ze (FT : faithful zt) s n b : NoDup (map fst s) ->
  In (n, b) s -> 2 ^ 27 < len (txs_blob c_eth (fst b)) ->
  query_transactions_by_block c_eth zt (image c_eth zt ze s) n = None.
Proof.
  intros N1 I L. unfold query_transactions_by_block.
  rewrite (find_row_in n (row_of c_eth zt ze b)).
  - unfold row_of, read_txs. rewrite FT. change MAX_TXS with (2 ^ 27).
    apply N.leb_gt in L. rewrite L. reflexivity.
  - rewrite image_keys. exact N1.
  - apply (in_map (fun x => (fst x, row_of c_eth zt ze (snd x)))) in I. exact I.
Qed.

(** the numbers of a store are distinct, whatever was inserted *)
Lemma reached_nodup os s : reached os s -> NoDup (map fst s).
Proof.
  induction 1 as [|os o s s' R IH S]; [constructor|].
  destruct S as [n b E|n b E (A & _)|n b E A|n es|n]; try exact IH.
  - rewrite map_app. apply nodup_app_join; [exact IH|repeat constructor; tauto|].
    intros x [<-|[]]. exact A.
  - fold (with_events n es s). rewrite with_events_keys. exact IH.
  - apply nodup_filter_map, IH.
Qed.
