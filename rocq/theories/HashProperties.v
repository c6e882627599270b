(* C06 and C07: incremental hashing. *)
From Coq Require Import List Arith NArith Lia Bool ZifyBool ZifyNat ZifyN.
From Verif Require Import HashModel.
Import ListNotations.

(* ---- C06 ---- *)
Section C06.
Variable F : Type.
Variables zero one : F.
Variable add : F -> F -> F.
Variable permute : F * F * F -> F * F * F.
Let hash_many := poseidon_hash_many F zero one add permute.
Let incremental (l : list F) : F :=
  finish F one add permute (fold_left (write F add permute) l (hasher_new F zero)).

(* The published definition: pad with a one, then with a zero to an even length;
   add each pair of elements to the first two cells and permute; return cell 0. *)
Definition pad (l : list F) : list F :=
  l ++ one :: (if Nat.even (length l) then [zero] else []).
Inductive sponge : F * F * F -> list F -> F * F * F -> Prop :=
| sponge_done : forall s, sponge s [] s
| sponge_pair : forall a b c x y l s,
    sponge (permute (add a x, add b y, c)) l s -> sponge (a, b, c) (x :: y :: l) s.

Lemma pair_induction : forall (Q : list F -> Prop),
  Q [] -> (forall x, Q [x]) -> (forall x y l, Q l -> Q (x :: y :: l)) -> forall l, Q l.
Proof.
  intros Q Q0 Q1 Q2. fix IH 1. intros [|x [|y l]]; [exact Q0|apply Q1|apply Q2, IH].
Qed.

Lemma absorb_chunks_step : forall l s x y,
  absorb_chunks F add permute s (x :: y :: l) =
  absorb_chunks F add permute (permute (add1 F add (add0 F add s x) y)) l.
Proof. reflexivity. Qed.

Lemma hasher_chunks : forall l s,
  fold_left (write F add permute) l (Hasher F s None) =
  let '(s', r) := absorb_chunks F add permute s l in
  Hasher F s' (match r with x :: _ => Some x | [] => None end).
Proof.
  intros l. induction l as [| |x y l IH] using pair_induction; intros s; [reflexivity..|].
  rewrite absorb_chunks_step, <- IH. reflexivity.
Qed.

Lemma remainder_short : forall l s,
  let '(_, r) := absorb_chunks F add permute s l in r = [] \/ exists x, r = [x].
Proof.
  intros l. induction l as [| |x y l IH] using pair_induction; intros s; simpl; eauto.
  apply IH.
Qed.

Theorem C06_incremental_is_one_shot : forall l, incremental l = hash_many l.
Proof using.
  intros l. unfold incremental, hash_many, poseidon_hash_many, hasher_new. rewrite hasher_chunks.
  pose proof (remainder_short l (zero, zero, zero)) as R.
  destruct (absorb_chunks F add permute (zero, zero, zero) l) as [s r].
  destruct R as [->|[x ->]]; reflexivity.
Qed.

Lemma even_SS : forall (x y : F) l, Nat.even (length (x :: y :: l)) = Nat.even (length l).
Proof. reflexivity. Qed.

Hypothesis add_zero : forall x, add x zero = x.

Lemma hash_many_sponge : forall l a b c,
  exists s, sponge (a, b, c) (pad l) s /\
  (let '(s0, r) := absorb_chunks F add permute (a, b, c) l in
   let s0 := match r with x :: _ => add0 F add s0 x | [] => s0 end in
   let s0 := match length r with 0 => add0 F add s0 one | _ => add1 F add s0 one end in
   permute s0) = s.
Proof using add_zero.
  intros l. induction l as [|x|x y l IH] using pair_induction; intros a b c.
  - simpl. eexists. split; [|reflexivity]. unfold pad. simpl. apply sponge_pair.
    rewrite add_zero. apply sponge_done.
  - simpl. eexists. split; [|reflexivity]. unfold pad. simpl. apply sponge_pair. apply sponge_done.
  - unfold pad. rewrite even_SS. rewrite absorb_chunks_step. simpl add0. simpl add1.
    destruct (permute (add a x, add b y, c)) as [[a' b'] c'] eqn:E.
    destruct (IH a' b' c') as (s & S1 & S2). exists s. split; [|exact S2].
    simpl app. apply sponge_pair. rewrite E. exact S1.
Qed.

(* Both hashers compute the published sponge, for every length. *)
Theorem C06_sponge : forall l,
  exists s, sponge (zero, zero, zero) (pad l) s /\ hash_many l = out F s /\ incremental l = out F s.
Proof using add_zero.
  intros l. destruct (hash_many_sponge l zero zero zero) as (s & S1 & S2).
  exists s. split; [exact S1|]. rewrite C06_incremental_is_one_shot.
  assert (hash_many l = out F s); [|auto].
  unfold hash_many, poseidon_hash_many. rewrite <- S2.
  destruct (absorb_chunks F add permute (zero, zero, zero) l) as [s0 r]. reflexivity.
Qed.

(* The padding is injective: different sequences are absorbed as different blocks. *)
Theorem C06_padding_injective : zero <> one -> forall l1 l2, pad l1 = pad l2 -> l1 = l2.
Proof using.
  intros Z l1 l2 E. unfold pad in E.
  destruct (Nat.even (length l1)) eqn:E1, (Nat.even (length l2)) eqn:E2.
  - change (l1 ++ [one] ++ [zero] = l2 ++ [one] ++ [zero]) in E.
    rewrite !app_assoc in E. apply app_inj_tail in E. destruct E as [E _].
    apply app_inj_tail in E. exact (proj1 E).
  - exfalso. change (l1 ++ [one] ++ [zero] = l2 ++ [one]) in E. rewrite app_assoc in E.
    apply app_inj_tail in E. destruct E as [_ E]. exact (Z E).
  - exfalso. change (l1 ++ [one] = l2 ++ [one] ++ [zero]) in E. rewrite app_assoc in E.
    apply app_inj_tail in E. destruct E as [_ E]. exact (Z (eq_sym E)).
  - apply app_inj_tail in E. exact (proj1 E).
Qed.

(* and always gives whole blocks *)
Theorem C06_padding_even : forall l, Nat.even (length (pad l)) = true.
Proof using.
  intros l. unfold pad. rewrite app_length. cbn [length].
  destruct (Nat.even (length l)) eqn:E.
  - cbn [length]. rewrite Nat.even_add, E. reflexivity.
  - cbn [length]. rewrite Nat.even_add, E. reflexivity.
Qed.
End C06.
Print Assumptions C06_incremental_is_one_shot.
Print Assumptions C06_sponge.
Print Assumptions C06_padding_injective.
Print Assumptions C06_padding_even.

Example C06_example :
  let perm := fun s : nat * nat * nat => let '(a, b, c) := s in (a + 2 * b + c, a, b + 1) in
  let inc := fun l => finish nat 1 Nat.add perm (fold_left (write nat Nat.add perm) l (hasher_new nat 0)) in
  inc [4; 5; 6] = poseidon_hash_many nat 0 1 Nat.add perm [4; 5; 6] /\
  inc [4; 5; 6; 1] <> inc [4; 5; 6] /\ pad nat 0 1 [4; 5] = [4; 5; 1; 0].
Proof. simpl. split; [reflexivity|]. split; [discriminate|reflexivity]. Qed.

(* ---- C07 ---- *)
Section C07.
Local Open Scope N_scope.
Variable H : N -> N -> N.

Definition collision : Prop := exists a b c d, (a, b) <> (c, d) /\ H a b = H c d.

Lemma chain_updates_spec : forall l c,
  (c_count c + N.of_nat (length l) <= USIZE_MAX)%N ->
  chain_updates H c l = Some (Chain (fold_left H l (c_hash c)) (c_count c + N.of_nat (length l))).
Proof.
  induction l as [|x l IH]; intros c L.
  - simpl. rewrite N.add_0_r. destruct c; reflexivity.
  - cbn [chain_updates length fold_left] in *. unfold chain_update.
    destruct (N.leb_spec (c_count c + 1) USIZE_MAX) as [B|B]; [|lia].
    rewrite IH; cbn [c_count c_hash]; [|lia]. do 2 f_equal. lia.
Qed.

Lemma chain_updates_overflow : forall l c,
  (c_count c <= USIZE_MAX)%N -> (USIZE_MAX < c_count c + N.of_nat (length l))%N ->
  chain_updates H c l = None.
Proof.
  induction l as [|x l IH]; intros c B L.
  - cbn [length] in L. lia.
  - cbn [chain_updates length] in *. unfold chain_update.
    destruct (N.leb_spec (c_count c + 1) USIZE_MAX); [|reflexivity].
    apply IH; cbn [c_count]; lia.
Qed.

(* The left fold from zero, sealed with the number of inputs. *)
Theorem C07_fold : forall l, (N.of_nat (length l) <= USIZE_MAX)%N ->
  hash_chain H l = Some (H (fold_left H l 0) (N.of_nat (length l))).
Proof using.
  intros l L. unfold hash_chain. rewrite chain_updates_spec by exact L. reflexivity.
Qed.

Theorem C07_single : forall x, chain_single H x = Some (H (H 0 x) 1).
Proof using. reflexivity. Qed.

(* Longer sequences panic. *)
Theorem C07_overflow : forall l, (USIZE_MAX < N.of_nat (length l))%N -> hash_chain H l = None.
Proof using.
  intros l L. unfold hash_chain. rewrite chain_updates_overflow; auto. vm_compute. discriminate.
Qed.

Lemma fold_collision : forall l1 l2 a b, length l1 = length l2 ->
  fold_left H l1 a = fold_left H l2 b -> (a = b /\ l1 = l2) \/ collision.
Proof.
  induction l1 as [|x l1 IH]; intros [|y l2] a b L E; try discriminate; [left; auto|].
  simpl in E, L. apply IH in E; [|lia]. destruct E as [[E ->]|C]; [|auto].
  destruct (N.eq_dec a b) as [->|NE].
  - destruct (N.eq_dec x y) as [->|NE]; [auto|]. right. exists b, x, b, y. split; congruence.
  - right. exists a, x, b, y. split; congruence.
Qed.

(* Different sequences have different hashes, or the two-to-one hash collides. *)
Theorem C07_binding : forall l1 l2 h,
  hash_chain H l1 = Some h -> hash_chain H l2 = Some h -> l1 = l2 \/ collision.
Proof using.
  intros l1 l2 h E1 E2.
  assert (B : forall l, hash_chain H l = Some h -> (N.of_nat (length l) <= USIZE_MAX)%N).
  { intros l E. destruct (N.le_gt_cases (N.of_nat (length l)) USIZE_MAX) as [X|X]; auto.
    apply C07_overflow in X. congruence. }
  pose proof (B _ E1) as B1. pose proof (B _ E2) as B2.
  rewrite C07_fold in E1 by exact B1. rewrite C07_fold in E2 by exact B2.
  injection E1 as E1. injection E2 as E2. rewrite <- E2 in E1.
  destruct (N.eq_dec (N.of_nat (length l1)) (N.of_nat (length l2))) as [L|L].
  - destruct (N.eq_dec (fold_left H l1 0) (fold_left H l2 0)) as [E|E].
    + destruct (fold_collision l1 l2 0 0) as [[_ X]|X]; auto. lia.
    + right. do 4 eexists. split; [|exact E1]. congruence.
  - right. do 4 eexists. split; [|exact E1]. congruence.
Qed.
End C07.
Print Assumptions C07_fold.
Print Assumptions C07_single.
Print Assumptions C07_overflow.
Print Assumptions C07_binding.

Example C07_example :
  let h := fun a b => (a * 10 + b)%N in
  hash_chain h [4; 5; 6]%N = Some 4563%N /\ hash_chain h [] = Some 0%N /\
  hash_chain h [4; 5]%N <> hash_chain h [4; 5; 0]%N.
Proof. vm_compute. repeat split; discriminate. Qed.
