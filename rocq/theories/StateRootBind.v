(** Proofs about the state commitment: it determines the state. *)
From Coq Require Import List Bool Arith NArith Lia.
From Verif Require Import AList MerkleModel MerkleSpec MerkleProof MerkleMemberProof VersionModel
  CommitModel StateRootModel StateRootSpec StateRootProof StateRootRun.
Import ListNotations.

Section Bind.
  Variable HEIGHT : nat.
  Variable hs : hashes.
  Hypothesis HEIGHT_pos : HEIGHT <> 0.

  Lemma root_query F m : spec_root F HEIGHT m <> 0%N ->
    exists q, In q (root_queries F HEIGHT m) /\ query_value F q = spec_root F HEIGHT m.
  Proof.
    intros N. destruct (atree_of_contents HEIGHT m) as [Z|(a & W & C)].
    - exfalso. apply N. now apply spec_root_empty.
    - destruct (ahash_query F _ _ W HEIGHT_pos) as (q & Hq & E). exists q. split.
      + now apply (root_queries_wfa F HEIGHT a W m C).
      + rewrite E. symmetry. now apply spec_root_wfa.
  Qed.

  Definition either (w1 w2 : world) (c : computation) : Prop :=
    computed HEIGHT hs w1 c \/ computed HEIGHT hs w2 c.

  (** The three forms of a state commitment. *)
  Lemma forms w v :
    (storage_commitment HEIGHT hs w = 0%N /\ class_commitment HEIGHT hs w = 0%N /\
     state_commitment HEIGHT hs w v = 0%N) \/
    (class_commitment HEIGHT hs w = 0%N /\
     exists q, computed HEIGHT hs w (Ped q) /\ value hs (Ped q) = storage_commitment HEIGHT hs w /\
               state_commitment HEIGHT hs w v = value hs (Ped q)) \/
    state_commitment HEIGHT hs w v =
      value hs (Many [STATE_V0; storage_commitment HEIGHT hs w; class_commitment HEIGHT hs w]).
  Proof.
    unfold state_commitment.
    destruct (class_commitment HEIGHT hs w) as [|cc] eqn:Ec.
    - destruct (storage_commitment HEIGHT hs w) as [|sc] eqn:Es; auto.
      destruct (version_lt v (Version 0 14 0 0)); [|right; right; reflexivity].
      right. left. split; auto.
      destruct (root_query (pedersen hs) (state_contents HEIGHT hs w)) as (q & Hq & Eq).
      { unfold storage_commitment in Es. rewrite Es. discriminate. }
      unfold storage_commitment in Es. exists q. split; [now apply cp_state|].
      cbn [value]. split; congruence.
    - right. right. destruct (storage_commitment HEIGHT hs w); reflexivity.
  Qed.

  Lemma top_binds w1 w2 v1 v2 : no_collision hs (either w1 w2) ->
    state_commitment HEIGHT hs w1 v1 = state_commitment HEIGHT hs w2 v2 ->
    storage_commitment HEIGHT hs w1 = storage_commitment HEIGHT hs w2 /\
    class_commitment HEIGHT hs w1 = class_commitment HEIGHT hs w2.
  Proof.
    intros [Inj NZ] E.
    assert (M1 : either w1 w2 (Many [STATE_V0; storage_commitment HEIGHT hs w1; class_commitment HEIGHT hs w1]))
      by (left; constructor).
    assert (M2 : either w1 w2 (Many [STATE_V0; storage_commitment HEIGHT hs w2; class_commitment HEIGHT hs w2]))
      by (right; constructor).
    destruct (forms w1 v1) as [(S1 & C1 & V1)|[(C1 & q1 & Q1 & S1 & V1)|V1]];
    destruct (forms w2 v2) as [(S2 & C2 & V2)|[(C2 & q2 & Q2 & S2 & V2)|V2]]; rewrite V1, V2 in E.
    - split; congruence.
    - exfalso. apply (NZ (Ped q2)); [now right|]. congruence.
    - exfalso. apply (NZ _ M2). congruence.
    - exfalso. apply (NZ (Ped q1)); [now left|]. congruence.
    - split; congruence.
    - exfalso. apply Inj in E; [discriminate|now left|exact M2].
    - exfalso. apply (NZ _ M1). congruence.
    - exfalso. apply Inj in E; [discriminate|exact M1|now right].
    - apply Inj in E; [|exact M1|exact M2]. split; congruence.
  Qed.

  Lemma ped_free w1 w2 qs : no_collision hs (either w1 w2) ->
    (forall q, In q qs -> either w1 w2 (Ped q)) -> collision_free (pedersen hs) qs.
  Proof.
    intros [Inj NZ] I. split.
    - intros q1 q2 H1 H2 E. assert (X : Ped q1 = Ped q2) by (apply Inj; auto). now injection X.
    - intros q Hq. apply (NZ (Ped q)). auto.
  Qed.
  Lemma pos_free w1 w2 qs : no_collision hs (either w1 w2) ->
    (forall q, In q qs -> either w1 w2 (Pos q)) -> collision_free (poseidon hs) qs.
  Proof.
    intros [Inj NZ] I. split.
    - intros q1 q2 H1 H2 E. assert (X : Pos q1 = Pos q2) by (apply Inj; auto). now injection X.
    - intros q Hq. apply (NZ (Pos q)). auto.
  Qed.

  Lemma leaf_inj w1 w2 a : no_collision hs (either w1 w2) -> present HEIGHT w1 a -> present HEIGHT w2 a ->
    leaf hs (class_in_leaf w1 a) (storage_root HEIGHT hs w1 a) (w_nonce w1 a) =
    leaf hs (class_in_leaf w2 a) (storage_root HEIGHT hs w2 a) (w_nonce w2 a) ->
    class_in_leaf w1 a = class_in_leaf w2 a /\ storage_root HEIGHT hs w1 a = storage_root HEIGHT hs w2 a /\
    w_nonce w1 a = w_nonce w2 a.
  Proof.
    intros [Inj NZ] P1 P2 E. unfold leaf in E.
    assert (X := Inj _ _ (or_introl (cp_leaf3 HEIGHT hs w1 a P1)) (or_intror (cp_leaf3 HEIGHT hs w2 a P2)) E).
    injection X as X3.
    assert (Y := Inj _ _ (or_introl (cp_leaf2 HEIGHT hs w1 a P1)) (or_intror (cp_leaf2 HEIGHT hs w2 a P2)) X3).
    injection Y as Y1 Y2.
    assert (Z := Inj _ _ (or_introl (cp_leaf1 HEIGHT hs w1 a P1)) (or_intror (cp_leaf1 HEIGHT hs w2 a P2)) Y1).
    injection Z as Z1 Z2. auto.
  Qed.

  Lemma leaf_nonzero w1 w2 w a : (w = w1 \/ w = w2) -> no_collision hs (either w1 w2) -> present HEIGHT w a ->
    leaf hs (class_in_leaf w a) (storage_root HEIGHT hs w a) (w_nonce w a) <> 0%N.
  Proof.
    intros W [Inj NZ] P. assert (X := cp_leaf3 HEIGHT hs w a P).
    apply (NZ _ (match W with or_introl E => or_introl (eq_ind w (fun w => computed HEIGHT hs w _) X w1 E)
                            | or_intror E => or_intror (eq_ind w (fun w => computed HEIGHT hs w _) X w2 E) end)).
  Qed.

  (** What the tree holds for an address. *)
  Lemma contents_cases w a : tidy HEIGHT w -> length a = HEIGHT ->
    (present HEIGHT w a /\ state_contents HEIGHT hs w a =
       leaf hs (class_in_leaf w a) (storage_root HEIGHT hs w a) (w_nonce w a)) \/
    (~ present HEIGHT w a /\ state_contents HEIGHT hs w a = 0%N).
  Proof.
    intros T La. destruct (T a La) as (T1 & T2 & T3). unfold present, state_contents, class_in_leaf.
    destruct (is_system a).
    - destruct (w_system w a).
      + left. destruct (T1 eq_refl) as [-> ->]. auto.
      + right. split; auto. intros [_ X]. discriminate.
    - destruct (w_class w a).
      + left. repeat split; auto. discriminate.
      + right. split; auto. intros [_ X]. congruence.
  Qed.

  Lemma binds w1 w2 v1 v2 : tidy HEIGHT w1 -> tidy HEIGHT w2 ->
    no_collision hs (either w1 w2) ->
    state_commitment HEIGHT hs w1 v1 = state_commitment HEIGHT hs w2 v2 -> same_state HEIGHT w1 w2.
  Proof.
    intros T1 T2 NC E. destruct (top_binds _ _ _ _ NC E) as [ES EC].
    assert (SC : forall a, length a = HEIGHT -> state_contents HEIGHT hs w1 a = state_contents HEIGHT hs w2 a).
    { apply (root_binds (pedersen hs) HEIGHT); auto. apply (ped_free w1 w2 _ NC).
      intros q Hq. apply in_app_iff in Hq. destruct Hq; [left|right]; now apply cp_state. }
    assert (CC : forall a, length a = HEIGHT -> class_contents hs w1 a = class_contents hs w2 a).
    { apply (root_binds (poseidon hs) HEIGHT); auto. apply (pos_free w1 w2 _ NC).
      intros q Hq. apply in_app_iff in Hq. destruct Hq; [left|right]; now apply cp_class. }
    split.
    - intros a La. specialize (SC a La).
      destruct (contents_cases w1 a T1 La) as [[P1 L1]|[P1 L1]];
      destruct (contents_cases w2 a T2 La) as [[P2 L2]|[P2 L2]]; rewrite L1, L2 in SC.
      + destruct (leaf_inj w1 w2 a NC P1 P2 SC) as (I1 & I2 & I3).
        assert (St : forall k, length k = HEIGHT -> w_storage w1 a k = w_storage w2 a k).
        { apply (root_binds (pedersen hs) HEIGHT); auto. apply (ped_free w1 w2 _ NC).
          intros q Hq. apply in_app_iff in Hq. destruct Hq; [left|right]; eapply cp_storage; eauto. }
        destruct (T1 a La) as (A1 & A2 & _). destruct (T2 a La) as (B1 & B2 & _).
        unfold present, class_in_leaf in *. destruct P1 as [_ P1], P2 as [_ P2].
        destruct (is_system a).
        * destruct (A1 eq_refl) as [-> _], (B1 eq_refl) as [-> _]. repeat split; auto. congruence.
        * rewrite (A2 eq_refl), (B2 eq_refl).
          destruct (w_class w1 a), (w_class w2 a); try congruence. repeat split; auto. congruence.
      + exfalso. now apply (leaf_nonzero w1 w2 w1 a (or_introl eq_refl) NC P1).
      + exfalso. now apply (leaf_nonzero w1 w2 w2 a (or_intror eq_refl) NC P2).
      + destruct (T1 a La) as (A1 & A2 & A3). destruct (T2 a La) as (B1 & B2 & B3).
        unfold present in *. destruct (is_system a).
        * destruct (A1 eq_refl) as [-> _], (B1 eq_refl) as [-> _].
          assert (N1 : w_system w1 a = false) by (destruct (w_system w1 a); auto; exfalso; auto).
          assert (N2 : w_system w2 a = false) by (destruct (w_system w2 a); auto; exfalso; auto).
          destruct (A3 N1) as [-> Sa], (B3 N2) as [-> Sb]. rewrite N1, N2. repeat split; auto.
          intros k Lk. now rewrite Sa, Sb.
        * rewrite (A2 eq_refl), (B2 eq_refl).
          assert (N1 : w_class w1 a = None).
          { destruct (w_class w1 a); auto. exfalso. apply P1. split; auto. discriminate. }
          assert (N2 : w_class w2 a = None).
          { destruct (w_class w2 a); auto. exfalso. apply P2. split; auto. discriminate. }
          destruct (A3 N1) as [-> Sa], (B3 N2) as [-> Sb]. rewrite N1, N2. repeat split; auto.
          intros k Lk. now rewrite Sa, Sb.
    - intros k Lk. specialize (CC k Lk). unfold class_contents in CC. destruct NC as [Inj NZ].
      destruct (w_casm w1 k) as [h1|] eqn:G1; destruct (w_casm w2 k) as [h2|] eqn:G2; auto.
      + assert (X := Inj _ _ (or_introl (cp_casm HEIGHT hs w1 k h1 Lk G1)) (or_intror (cp_casm HEIGHT hs w2 k h2 Lk G2)) CC).
        injection X as ->. reflexivity.
      + exfalso. exact (NZ _ (or_introl (cp_casm HEIGHT hs w1 k h1 Lk G1)) CC).
      + exfalso. exact (NZ _ (or_intror (cp_casm HEIGHT hs w2 k h2 Lk G2)) (eq_sym CC)).
  Qed.
End Bind.
