(** Proofs about serving and fetching blocks. *)
From Coq Require Import List Bool Arith NArith Lia ZifyBool ZifyNat ZifyN.
From Verif Require Import ServeModel ServeSpec.
Import ListNotations.
Local Open Scope N_scope.

#[local] Arguments N.add : simpl never.
#[local] Arguments N.sub : simpl never.
#[local] Arguments N.mul : simpl never.

(** ** The server *)
Section Server.
  Context {R : Type}.
  Variable db : N -> found R.

  (** [k] turns from [n] on send the blocks [n], [n + step], ... *)
  Lemma turns_spec q : forall k n, n <= MAX_NUMBER -> (forall m, db m <> DbError) ->
    exists items, (length items <= k)%nat /\
      (forall i l, nth_error items i = Some l -> exists m, asked q n i = Some m /\ db m = Block l) /\
      turns db k n (q_step q) (q_dir q) = map Item (concat items) ++ [Fin] /\
      (length items = k \/ asked q n (length items) = None \/
       exists m, asked q n (length items) = Some m /\ db m = NoBlock).
  Proof.
    induction k as [|k IH]; intros n Hn E.
    - exists []. cbn. repeat split; auto. intros [|i] l; discriminate.
    - cbn [turns]. assert (A0 : asked q n 0 = Some n).
      { unfold asked. rewrite N.mul_0_l. destruct (q_dir q).
        - rewrite N.add_0_r. now replace (n <=? MAX_NUMBER) with true by lia.
        - replace (0 <=? n) with true by lia. now rewrite N.sub_0_r. }
      destruct (db n) as [| |l] eqn:D.
      + elim (E n D).
      + exists []. cbn [length concat map app]. split; [lia|]. split; [intros [|i] l; discriminate|]. split; auto.
        right. right. exists n. auto.
      + assert (Last : forall T, T = [Fin] -> (S k = 1%nat \/ asked q n 1 = None) ->
          exists items, (length items <= S k)%nat /\
            (forall i x, nth_error items i = Some x -> exists m, asked q n i = Some m /\ db m = Block x) /\
            map Item l ++ T = map Item (concat items) ++ [Fin] /\
            (length items = S k \/ asked q n (length items) = None \/
             exists m, asked q n (length items) = Some m /\ db m = NoBlock)).
        { intros T -> B. exists [l]. cbn [length concat]. rewrite app_nil_r. split; [lia|]. split.
          - intros [|[|i]] x Hx; try discriminate. injection Hx as <-. eauto.
          - split; auto. destruct B; [left; lia|auto]. }
        destruct k as [|k']; [apply Last; auto|].
        set (k := S k') in *. clearbody k. clear k'.
        destruct (get_next_block_number n (q_step q) (q_dir q)) as [n'|] eqn:G.
        * assert (Nx : n' <= MAX_NUMBER /\ forall i, asked q n' i = asked q n (S i)).
          { unfold get_next_block_number, block_number in G. unfold asked. destruct (q_dir q).
            - destruct (N.leb_spec (n + q_step q) MAX_NUMBER); [|discriminate]. injection G as <-. split; auto.
              intros i. replace (N.of_nat (S i) * q_step q) with (q_step q + N.of_nat i * q_step q) by lia.
              now rewrite N.add_assoc.
            - destruct (N.leb_spec (q_step q) n); [|discriminate]. injection G as <-. split; [lia|].
              intros i. replace (N.of_nat (S i) * q_step q) with (q_step q + N.of_nat i * q_step q) by lia.
              set (x := N.of_nat i * q_step q). destruct (N.leb_spec x (n - q_step q)).
              + replace (q_step q + x <=? n) with true by lia. f_equal. lia.
              + now replace (q_step q + x <=? n) with false by lia. }
          destruct Nx as [Hn' Nx]. destruct (IH n' Hn' E) as (items & L & I & T & F).
          exists (l :: items). cbn [length concat]. split; [lia|]. split.
          { intros [|i] x Hx; [injection Hx as <-; eauto|]. cbn in Hx. rewrite <- Nx. eauto. }
          split; [rewrite T, map_app, app_assoc; reflexivity|].
          rewrite <- Nx. destruct F as [F|F]; [left; lia|auto].
        * apply Last; auto. right. unfold get_next_block_number, block_number in G. unfold asked.
          change (N.of_nat 1) with 1. rewrite N.mul_1_l. destruct (q_dir q).
          { destruct (N.leb_spec (n + q_step q) MAX_NUMBER); [discriminate|].
            now replace (n + q_step q <=? MAX_NUMBER) with false by lia. }
          { destruct (N.leb_spec (q_step q) n); [discriminate|].
            now replace (q_step q <=? n) with false by lia. }
  Qed.
End Server.

(** ** Lists of blocks *)
Lemma upfrom_length : forall l n, length (upfrom n l) = l.
Proof. induction l as [|l IH]; intros n; cbn; auto. Qed.
Lemma upfrom_app : forall a b n, upfrom n (a + b) = upfrom n a ++ upfrom (n + N.of_nat a) b.
Proof.
  induction a as [|a IH]; intros b n; cbn [upfrom Nat.add app].
  - f_equal. lia.
  - rewrite IH. do 2 f_equal. f_equal. lia.
Qed.
Lemma upfrom_firstn : forall j l n, firstn j (upfrom n l) = upfrom n (Nat.min j l).
Proof.
  induction j as [|j IH]; intros l n; [reflexivity|]. destruct l as [|l]; [reflexivity|]. cbn [upfrom firstn Nat.min].
  now rewrite IH.
Qed.
Lemma upfrom_snoc l n : upfrom n (S l) = upfrom n l ++ [n + N.of_nat l].
Proof. replace (S l) with (l + 1)%nat by lia. rewrite upfrom_app. reflexivity. Qed.

(** ** What follows an honest answer *)
Section Fetch.
  Context {R C A : Type}.
  Variable handle : C -> A -> R -> handled C A.
  Variable no_carry : C.
  Variable empty : A.

  (** The items of a block, taken one by one: each counts for at least one. *)
  Fixpoint fold_items (c : C) (a : A) (l : list R) : option (C * A * nat) :=
    match l with
    | [] => Some (c, a, 0%nat)
    | r :: l' => match handle c a r with
                 | Got c' a' (S w) => match fold_items c' a' l' with
                                      | Some (c2, a2, w2) => Some (c2, a2, (S w + w2)%nat)
                                      | None => None
                                      end
                 | _ => None
                 end
    end.

  Lemma fold_items_app : forall l1 l2 c a, fold_items c a (l1 ++ l2) =
    match fold_items c a l1 with
    | Some (c1, a1, w1) => match fold_items c1 a1 l2 with
                           | Some (c2, a2, w2) => Some (c2, a2, (w1 + w2)%nat)
                           | None => None
                           end
    | None => None
    end.
  Proof.
    induction l1 as [|r l1 IH]; intros l2 c a; cbn [app fold_items].
    - now destruct (fold_items c a l2) as [[[c2 a2] w2]|].
    - destruct (handle c a r) as [c' a' [|w]| |]; auto. rewrite IH.
      destruct (fold_items c' a' l1) as [[[c1 a1] w1]|]; auto.
      destruct (fold_items c1 a1 l2) as [[[c2 a2] w2]|]; auto. do 2 f_equal. lia.
  Qed.

  Definition follows (p t : list (response R)) : Prop :=
    exists q, prefix q t /\ (p = q \/ p = q ++ [Failed]).

  Lemma follows_cons p x t : follows p (x :: t) ->
    p = [] \/ p = [Failed] \/ exists p', p = x :: p' /\ follows p' t.
  Proof.
    intros (q & (c & E) & P). destruct q as [|y q].
    - destruct P as [->| ->]; auto.
    - cbn in E. injection E as <- E. right. right. destruct P as [->| ->]; cbn; eexists; (split; [reflexivity|]);
        exists q; split; auto; exists c; auto.
  Qed.
  Lemma follows_nil p : follows p [] -> p = [] \/ p = [Failed].
  Proof.
    intros (q & (c & E) & P). symmetry in E. apply app_eq_nil in E. destruct E as [-> _]. destruct P as [->| ->]; auto.
  Qed.

  Lemma take_zero c a p : take handle c a 0 p = Whole c a p.
  Proof. now destruct p. Qed.

  (** Taking a block from an answer that has its items first. *)
  Lemma take_items : forall l c a c' a' w p t, fold_items c a l = Some (c', a', w) ->
    follows p (map Item l ++ t) ->
    take handle c a w p = GiveUp \/
    exists p', take handle c a w p = Whole c' a' p' /\ follows p' t.
  Proof.
    induction l as [|r l IH]; intros c a c' a' w p t F P; cbn [fold_items map app] in *.
    - injection F as <- <- <-. right. exists p. rewrite take_zero. auto.
    - destruct (handle c a r) as [c1 a1 [|w1]| |] eqn:H; try discriminate.
      destruct (fold_items c1 a1 l) as [[[c2 a2] w2]|] eqn:F'; [|discriminate]. injection F as <- <- <-.
      apply follows_cons in P. destruct P as [->|[->|(p' & -> & P)]].
      + left. reflexivity.
      + left. reflexivity.
      + cbn [Nat.add take]. rewrite H. replace (S w1 <=? S (w1 + w2))%nat with true by lia.
        replace (S (w1 + w2) - S w1)%nat with w2 by lia. eapply IH; eauto.
  Qed.
  (** From the whole answer it is taken. *)
  Lemma take_whole : forall l c a c' a' w t, fold_items c a l = Some (c', a', w) ->
    take handle c a w (map Item l ++ t) = Whole c' a' t.
  Proof.
    induction l as [|r l IH]; intros c a c' a' w t F; cbn [fold_items map app] in *.
    - injection F as <- <- <-. apply take_zero.
    - destruct (handle c a r) as [c1 a1 [|w1]| |] eqn:H; try discriminate.
      destruct (fold_items c1 a1 l) as [[[c2 a2] w2]|] eqn:F'; [|discriminate]. injection F as <- <- <-.
      cbn [Nat.add take]. rewrite H. replace (S w1 <=? S (w1 + w2))%nat with true by lia.
      replace (S (w1 + w2) - S w1)%nat with w2 by lia. eapply IH; eauto.
  Qed.

  Variable truth : N -> list R.
  Variable count : N -> nat.
  Variable view : N -> A.
  Variable carry_ok : N -> C -> Prop.
  Variables start stop : N.
  Hypothesis Reads : forall n c, start <= n <= stop -> carry_ok n c ->
    exists c', fold_items c empty (truth n) = Some (c', view n, count n) /\ carry_ok (n + 1) c'.
  Hypothesis Carry : forall n, carry_ok n no_carry.

  Lemma carry_empty n c : start <= n <= stop -> carry_ok n c -> count n = 0%nat -> view n = empty /\ carry_ok (n + 1) c.
  Proof.
    intros B K Z. destruct (Reads n c B K) as (c' & F & K'). destruct (truth n) as [|r l]; cbn in F.
    - injection F as E1 E2 _. subst c'. auto.
    - exfalso. destruct (handle c empty r) as [c1 a1 [|w1]| |]; try discriminate.
      destruct (fold_items c1 a1 l) as [[[c2 a2] w2]|]; [|discriminate]. injection F as _ _ F. lia.
  Qed.

  (** What a server still sends when it is at block [n]. *)
  Definition tail_at (db : N -> found R) (n : N) (t : list (response R)) : Prop :=
    t = [] \/ exists k, t = turns db k n 1 Forward.

  Lemma tail_fin db n : tail_at db n [Fin].
  Proof. right. exists 0%nat. reflexivity. Qed.

  Lemma turns_missing (db : N -> found R) have : (forall n, have <= n -> db n = DbError \/ db n = NoBlock \/ db n = Block []) ->
    forall k n, have <= n -> turns db k n 1 Forward = [] \/ turns db k n 1 Forward = [Fin].
  Proof.
    intros H. induction k as [|k IH]; intros n L; [auto|]. cbn [turns].
    destruct (H n L) as [->|[->| ->]]; auto. cbn [map app]. destruct k; auto.
    unfold get_next_block_number, block_number. destruct (n + 1 <=? MAX_NUMBER); auto. apply IH. lia.
  Qed.

  Lemma tail_step db n t : honest truth db -> tail_at db n t ->
    t = [] \/ t = [Fin] \/ exists t', t = map Item (truth n) ++ t' /\ tail_at db (n + 1) t'.
  Proof.
    intros (have & H) [->|(k & ->)]; auto. destruct k as [|k]; auto.
    destruct (N.lt_ge_cases n have) as [L|L].
    - cbn [turns]. destruct (H n) as [E|[E|[[_ E]|[E _]]]]; [rewrite E; auto|rewrite E; auto| |lia].
      rewrite E. right. right. eexists. split; [reflexivity|]. destruct k as [|k]; [apply tail_fin|].
      unfold get_next_block_number, block_number. destruct (n + 1 <=? MAX_NUMBER); [|apply tail_fin].
      right. eauto.
    - destruct (turns_missing db have) with (k := S k) (n := n) as [->| ->]; auto.
      intros m M. destruct (H m) as [E|[E|[[E' _]|[_ E]]]]; auto. lia.
  Qed.

  Definition shape (n : N) (todo j : nat) (st : status) : Prop :=
    (j = S todo /\ st = Ended) \/
    ((j <= todo)%nat /\ st = Running (n + N.of_nat j) (count (n + N.of_nat j))
                        (map (fun m => Some (count m)) (upfrom (n + N.of_nat j + 1) (todo - j)))).

  Definition outs (n : N) (j : nat) : list (N * A) := map (fun m => (m, view m)) (upfrom n j).

  Lemma blocks_honest db : honest truth db -> forall todo n c p t out,
    tail_at db n t -> follows p t -> carry_ok n c -> start <= n -> n + N.of_nat todo = stop ->
    exists j,
      let k := blocks handle empty stop (map (fun m => Some (count m)) (upfrom (n + 1) todo)) c n (count n) p out in
      k_out k = out ++ outs n j /\ shape n todo j (k_status k).
  Proof.
    intros Hdb. induction todo as [|todo IH]; intros n c p t out T P K B E.
    - cbn [upfrom map blocks]. destruct (Reads n c ltac:(lia) K) as (c' & F & K').
      assert (Q : take handle c empty (count n) p = GiveUp \/ exists cc p', take handle c empty (count n) p = Whole cc (view n) p').
      { destruct (tail_step db n t Hdb T) as [->|[->|(t' & -> & T')]].
        - apply follows_nil in P. destruct (count n) eqn:Z; [|destruct P as [->| ->]; auto].
          destruct (carry_empty n c ltac:(lia) K Z) as [-> _]. right. rewrite take_zero. eauto.
        - destruct (count n) eqn:Z.
          + destruct (carry_empty n c ltac:(lia) K Z) as [-> _]. right. rewrite take_zero. eauto.
          + apply follows_cons in P. destruct P as [->|[->|(p' & -> & P)]]; auto.
        - destruct (take_items _ _ _ _ _ _ p t' F P) as [->|(p' & -> & _)]; eauto. }
      destruct Q as [-> | (cc & p' & ->)].
      + exists 0%nat. cbn. rewrite app_nil_r. split; auto. right. split; [lia|]. now rewrite N.add_0_r.
      + replace (n =? stop) with true by lia. exists 1%nat. cbn. split; auto. left. auto.
    - assert (Next : forall cc p' t', tail_at db (n + 1) t' -> follows p' t' -> carry_ok (n + 1) cc ->
        exists j, let k := blocks handle empty stop (map (fun m => Some (count m)) (upfrom (n + 1 + 1) todo)) cc
                             (n + 1) (count (n + 1)) p' (out ++ [(n, view n)]) in
          k_out k = out ++ outs n j /\ shape n (S todo) j (k_status k)).
      { intros cc p' t' T' P' K'. destruct (IH (n + 1) cc p' t' (out ++ [(n, view n)]) T' P' K' ltac:(lia) ltac:(lia)) as (j & O & St).
        exists (S j). cbn zeta in *. rewrite O. split; [unfold outs; cbn [upfrom map]; now rewrite <- app_assoc|].
        destruct St as [[-> St]|[L St]]; [left; auto|right]. split; [lia|]. rewrite St.
        replace (n + N.of_nat (S j)) with (n + 1 + N.of_nat j) by lia. reflexivity. }
      assert (Stay : exists j, let k := Client out (Running n (count n) (map (fun m => Some (count m)) (upfrom (n + 1) (S todo)))) in
          k_out k = out ++ outs n j /\ shape n (S todo) j (k_status k)).
      { exists 0%nat. cbn. rewrite app_nil_r. split; auto. right. split; [lia|]. now rewrite !N.add_0_r. }
      cbn zeta in Stay. cbn [upfrom map blocks] in *.
      destruct (Reads n c ltac:(lia) K) as (c' & F & K').
      destruct (tail_step db n t Hdb T) as [->|[->|(t' & -> & T')]].
      + destruct (count n) eqn:Z.
        * destruct (carry_empty n c ltac:(lia) K Z) as [Ve Ke]. rewrite take_zero.
          replace (n =? stop) with false by lia. rewrite Ve in Next. apply (Next c p []); auto. left. reflexivity.
        * apply follows_nil in P. destruct P as [->| ->]; cbn [take]; exact Stay.
      + destruct (count n) eqn:Z.
        * destruct (carry_empty n c ltac:(lia) K Z) as [Ve Ke]. rewrite take_zero.
          replace (n =? stop) with false by lia. rewrite Ve in Next. apply (Next c p [Fin]); auto. apply tail_fin.
        * apply follows_cons in P. destruct P as [->|[->|(p' & -> & P)]]; cbn [take]; exact Stay.
      + destruct (take_items _ _ _ _ _ _ p t' F P) as [->|(p' & -> & P')]; [exact Stay|].
        replace (n =? stop) with false by lia. eapply Next; eauto.
  Qed.

  (** A complete answer with [k] blocks gives [k] blocks, as far as wanted. *)
  Lemma blocks_full db : forall k todo n c out,
    (forall m, n <= m < n + N.of_nat k -> m <= stop -> db m = Block (truth m)) ->
    carry_ok n c -> start <= n -> n + N.of_nat todo = stop -> stop <= MAX_NUMBER ->
    exists j, (Nat.min k (S todo) <= j)%nat /\
      k_out (blocks handle empty stop (map (fun m => Some (count m)) (upfrom (n + 1) todo)) c n (count n)
               (turns db k n 1 Forward) out) = out ++ outs n j /\
      True.
  Proof.
    induction k as [|k IH]; intros todo n c out D K B E M.
    - assert (X : exists j, k_out (blocks handle empty stop (map (fun m => Some (count m)) (upfrom (n + 1) todo)) c n (count n) [Fin] out) = out ++ outs n j).
      { destruct (blocks_honest (fun _ => NoBlock)) with (todo := todo) (n := n) (c := c) (p := @nil (response R) ++ [Fin]) (t := [@Fin R]) (out := out) as (j & O & _); auto.
        - exists 0. auto.
        - apply tail_fin.
        - exists [Fin]. split; auto. exists []. reflexivity.
        - eauto. }
      destruct X as (j & X). exists j. split; [lia|]. auto.
    - cbn [turns]. rewrite (D n) by lia. destruct (Reads n c ltac:(lia) K) as (c' & F & K').
      set (t' := match k with O => [Fin] | S _ => match get_next_block_number n 1 Forward with
                   | Some n' => turns db k n' 1 Forward | None => [Fin] end end).
      assert (T' : todo <> 0%nat -> t' = turns db k (n + 1) 1 Forward).
      { intros Z. unfold t'. destruct k; auto. unfold get_next_block_number, block_number.
        now replace (n + 1 <=? MAX_NUMBER) with true by lia. }
      clearbody t'. destruct todo as [|todo]; cbn [upfrom map blocks].
      + rewrite (take_whole _ _ _ _ _ _ t' F). replace (n =? stop) with true by lia.
        exists 1%nat. split; [lia|]. split; auto.
      + rewrite (take_whole _ _ _ _ _ _ t' F). replace (n =? stop) with false by lia. rewrite T' by lia.
        destruct (IH todo (n + 1) c' (out ++ [(n, view n)])) as (j & L & O & _); auto; try lia.
        { intros m Hm. apply D. lia. }
        exists (S j). split; [lia|]. rewrite O. split; auto. unfold outs. cbn [upfrom map]. now rewrite <- app_assoc.
  Qed.

  Definition counts_of : list (option nat) := map (fun m => Some (count m)) (wanted start stop).

  Definition total : nat := N.to_nat (stop + 1 - start).

  (** The client's state after [j] blocks. *)
  Definition at_block (j : nat) (k : @client A) : Prop :=
    k_out k = outs start j /\
    ((j = total /\ k_status k = Ended) \/
     ((j < total)%nat /\ k_status k = Running (start + N.of_nat j) (count (start + N.of_nat j))
                        (map (fun m => Some (count m)) (upfrom (start + N.of_nat j + 1) (total - j - 1))))).

  Lemma at_begin : start <= stop -> at_block 0 (begin start counts_of).
  Proof.
    intros L. unfold begin, counts_of, wanted. fold total. assert (total <> 0%nat) by (unfold total; lia).
    destruct total as [|t] eqn:E; [congruence|]. cbn [upfrom map]. split; [reflexivity|]. right. split; [lia|]. rewrite E.
    cbn [k_status]. rewrite N.add_0_r. do 3 f_equal. lia.
  Qed.

  Lemma session_honest j k db by_hash rs next cnt cs : start <= stop -> stop <= MAX_NUMBER ->
    at_block j k -> k_status k = Running next cnt cs -> honest truth db ->
    received db by_hash (make_request next stop) rs ->
    exists j', (j <= j')%nat /\ at_block j' (session handle no_carry empty stop k (Some rs)).
  Proof.
    intros L M [O [[_ S]|[J S]]] E H (p & Pp & P); [congruence|]. rewrite S in E. injection E as <- _ _.
    unfold session. rewrite S, O. set (n := start + N.of_nat j) in *.
    assert (n <= stop) by (unfold n, total in *; lia). replace (stop <? n) with false by lia.
    assert (I : iterate db by_hash (make_request n stop) =
      turns db (N.to_nat (N.min (N.min (stop - n + 1) CLIENT_MAX) SERVER_MAX)) n 1 Forward).
    { unfold iterate, make_request. cbn [q_limit q_start q_step q_dir get_start_block_number]. unfold block_number.
      assert (N.min (stop - n + 1) CLIENT_MAX <> 0) by (unfold CLIENT_MAX; lia).
      replace (N.min (stop - n + 1) CLIENT_MAX =? 0) with false by lia.
      now replace (n <=? MAX_NUMBER) with true by lia. }
    rewrite I in Pp.
    destruct (blocks_honest db H (total - j - 1) n no_carry rs _ (outs start j)
                (or_intror (ex_intro _ _ eq_refl)) (ex_intro _ p (conj Pp P)) (Carry n)) as (i & O' & S').
    { unfold n. lia. }
    { unfold n, total in *. lia. }
    exists (j + i)%nat. split; [lia|]. split.
    - rewrite O'. unfold outs. now rewrite upfrom_app, map_app.
    - destruct S' as [[Ei S']|[Li S']]; [left; split; auto; unfold total in *; lia|].
      right. split; [unfold total in *; lia|]. rewrite S'. unfold n.
      replace (start + N.of_nat j + N.of_nat i) with (start + N.of_nat (j + i)) by lia.
      do 3 f_equal. lia.
  Qed.

  Lemma fetched_at m k : start <= stop -> stop <= MAX_NUMBER ->
    fetched truth handle no_carry empty stop (begin start counts_of) m k ->
    exists j, at_block j k /\ (Nat.min (100 * m) total <= j)%nat.
  Proof.
    intros L M H. induction H as [|m k H (j & IH & W)|m k next cnt cs db by_hash rs H (j & IH & W) S Hdb Rc
                                 |m k next cnt cs db by_hash H (j & IH & W) S Hdb Full].
    - exists 0%nat. split; [now apply at_begin|lia].
    - exists j. split; auto. unfold session. now destruct (k_status k).
    - destruct (session_honest j k db by_hash rs next cnt cs L M IH S Hdb Rc) as (j' & Lj & A'). exists j'. split; auto. lia.
    - destruct (session_honest j k db by_hash (iterate db by_hash (make_request next stop)) next cnt cs L M IH S Hdb) as (j' & Lj & A').
      { exists (iterate db by_hash (make_request next stop)). split; auto. exists []. now rewrite app_nil_r. }
      exists j'. split; auto.
      destruct IH as [O [[_ S0]|[J S0]]]; [congruence|]. rewrite S0 in S. injection S as <- <- <-.
      destruct A' as [O' _]. unfold session in O'. rewrite S0, O in O'. set (n := start + N.of_nat j) in *.
      assert (n <= stop) by (unfold n, total in *; lia). replace (stop <? n) with false in O' by lia.
      assert (I : iterate db by_hash (make_request n stop) =
        turns db (N.to_nat (N.min (N.min (stop - n + 1) CLIENT_MAX) SERVER_MAX)) n 1 Forward).
      { unfold iterate, make_request. cbn [q_limit q_start q_step q_dir get_start_block_number]. unfold block_number.
        assert (N.min (stop - n + 1) CLIENT_MAX <> 0) by (unfold CLIENT_MAX; lia).
        replace (N.min (stop - n + 1) CLIENT_MAX =? 0) with false by lia.
        now replace (n <=? MAX_NUMBER) with true by lia. }
      rewrite I in O'.
      destruct (blocks_full db (N.to_nat (N.min (N.min (stop - n + 1) CLIENT_MAX) SERVER_MAX)) (total - j - 1) n no_carry (outs start j))
        as (i & Li & Oi & _); auto.
      { intros x Hx Hs. apply Full; auto. lia. }
      { unfold n. lia. }
      { unfold n, total in *. lia. }
      rewrite Oi in O'. assert (j' = j + i)%nat.
      { apply (f_equal (@length _)) in O'. unfold outs in O'. rewrite app_length, !map_length, !upfrom_length in O'. lia. }
      unfold CLIENT_MAX, SERVER_MAX, total, n in *. lia.
  Qed.

  Lemma fetched_gives m k : start <= stop -> stop <= MAX_NUMBER ->
    fetched truth handle no_carry empty stop (begin start counts_of) m k -> gives view start stop m k.
  Proof.
    intros L M H. destruct (fetched_at m k L M H) as (j & [O S] & W). exists j.
    unfold wanted. fold total. rewrite upfrom_firstn, upfrom_length. split.
    - rewrite O. unfold outs. f_equal. f_equal. destruct S as [[-> _]|[? _]]; lia.
    - split; auto. destruct S as [[-> S]|[J S]]; [left; auto|right; eauto].
  Qed.
End Fetch.

(** ** Any peers *)
Section Any.
  Context {R C A : Type}.
  Variable handle : C -> A -> R -> handled C A.
  Variable no_carry : C.
  Variable empty : A.
  (** [P a w]: [a] may be collected from items that count [w]. *)
  Variable P : A -> nat -> Prop.
  Hypothesis P_empty : P empty 0.
  Hypothesis P_step : forall c a r c' a' w w', P a w -> handle c a r = Got c' a' w' -> P a' (w + w')%nat.

  Lemma take_size : forall rs c a left w c' a' rest, P a w ->
    take handle c a left rs = Whole c' a' rest -> P a' (w + left)%nat.
  Proof.
    induction rs as [|r rs IH]; intros c a left w c' a' rest H T.
    - destruct left; [|discriminate]. injection T as <- <- <-. now rewrite Nat.add_0_r.
    - destruct left as [|left]; [injection T as <- <- <-; now rewrite Nat.add_0_r|]. cbn [take] in T.
      destruct r as [r| |]; try discriminate. destruct (handle c a r) as [c1 a1 w1| |] eqn:G; try discriminate.
      destruct (Nat.leb_spec w1 (S left)); [|discriminate].
      apply (IH _ _ _ (w + w1)%nat) in T; [|eapply P_step; eauto].
      now replace (w + S left)%nat with (w + w1 + (S left - w1))%nat by lia.
  Qed.

  Variables start stop : N.
  Variable all_counts : list (option nat).

  (** The blocks given are the first wanted ones, with their numbers of items. *)
  Definition sized (k : @client A) : Prop :=
    exists j, map fst (k_out k) = firstn j (wanted start stop) /\ length (k_out k) = j /\
      (forall i n a, nth_error (k_out k) i = Some (n, a) ->
         exists c, nth_error all_counts i = Some (Some c) /\ P a c) /\
      match k_status k with
      | Running next cnt cs => next = start + N.of_nat j /\ skipn j all_counts = Some cnt :: cs /\ (start <= stop -> next <= stop)
      | Ended => (length (wanted start stop) <= j)%nat
      | Stopped | Crashed => True
      end.

  Lemma skipn_nth {X} : forall j (l : list X) x r, skipn j l = x :: r -> nth_error l j = Some x /\ skipn (S j) l = r.
  Proof.
    induction j as [|j IH]; intros l x r H; destruct l as [|y l]; try discriminate.
    - cbn in H. injection H as <- <-. auto.
    - cbn [skipn nth_error] in *. now apply IH.
  Qed.

  Lemma wanted_snoc j : start + N.of_nat j <= stop -> start <= stop ->
    firstn (S j) (wanted start stop) = firstn j (wanted start stop) ++ [start + N.of_nat j].
  Proof.
    intros L S. unfold wanted. rewrite !upfrom_firstn. rewrite !Nat.min_l by lia. apply upfrom_snoc.
  Qed.

  Lemma blocks_sized : start <= stop -> forall cs c j cnt rs out,
    map fst out = firstn j (wanted start stop) -> length out = j ->
    (forall i n a, nth_error out i = Some (n, a) -> exists c, nth_error all_counts i = Some (Some c) /\ P a c) ->
    skipn j all_counts = Some cnt :: cs -> start + N.of_nat j <= stop ->
    sized (blocks handle empty stop cs c (start + N.of_nat j) cnt rs out).
  Proof.
    intros LS. induction cs as [|x cs IH]; intros c j cnt rs out O L N Sk B.
    all: cbn [blocks]; destruct (take handle c empty cnt rs) as [c' a rs'| |] eqn:T;
      [|exists j; cbn [k_out k_status]; auto 10|exists j; cbn [k_out k_status]; auto 10].
    all: apply (take_size _ _ _ _ 0%nat) in T; auto; cbn [Nat.add] in T;
      destruct (skipn_nth _ _ _ _ Sk) as [Nj Sk'];
      assert (O' : map fst (out ++ [(start + N.of_nat j, a)]) = firstn (S j) (wanted start stop))
        by (rewrite map_app, O, wanted_snoc; auto);
      assert (L' : length (out ++ [(start + N.of_nat j, a)]) = S j) by (rewrite app_length; cbn; lia);
      assert (N' : forall i n x, nth_error (out ++ [(start + N.of_nat j, a)]) i = Some (n, x) ->
                     exists c, nth_error all_counts i = Some (Some c) /\ P x c)
        by (intros i n y H; destruct (Nat.lt_ge_cases i (length out)) as [Li|Li];
            [rewrite nth_error_app1 in H by auto; eauto|];
            rewrite nth_error_app2 in H by auto;
            assert (i = j) by (apply nth_error_Some_lt_1 with (1 := H) || (destruct (i - length out)%nat as [|z] eqn:Ez; [lia|destruct z; discriminate]));
            subst i; replace (j - length out)%nat with 0%nat in H by lia; injection H as <- <-; eauto);
      destruct (N.eqb_spec (start + N.of_nat j) stop) as [E|E];
      [exists (S j); cbn [k_out k_status]; unfold wanted; rewrite upfrom_length; repeat (split; auto); lia|].
    - exists (S j). cbn [k_out k_status]. auto.
    - destruct x as [x|]; [|exists (S j); cbn [k_out k_status]; auto].
      replace (start + N.of_nat j + 1) with (start + N.of_nat (S j)) by lia.
      apply IH; auto. lia.
  Qed.

  Lemma stream_sized answers : start <= stop -> sized (stream handle no_carry empty start stop all_counts answers).
  Proof.
    intros L. unfold stream.
    assert (B : sized (begin start all_counts)).
    { unfold begin. exists 0%nat. destruct all_counts as [|[x|] cs]; cbn; repeat split; auto; try (intros [|i]; discriminate); lia. }
    revert B. generalize (@begin A start all_counts). induction answers as [|r answers IH]; intros k B; [auto|].
    cbn [fold_left]. apply IH. clear IH. destruct B as (j & O & Lj & N & St). unfold session.
    destruct (k_status k) as [next cnt cs| | |] eqn:E; try (exists j; rewrite E; auto).
    destruct r as [rs|]; [|exists j; rewrite E; auto]. destruct St as (-> & Sk & Le).
    destruct (N.ltb_spec stop (start + N.of_nat j)); [lia|].
    apply blocks_sized; auto.
  Qed.
End Any.

(** ** The handlers *)
Lemma fold_tx {X D T} (parse : D -> nat -> option T) (dto : X -> D) (seen : X -> nat -> T) : forall l a,
  (forall i x, nth_error l i = Some x -> parse (dto x) (length a + i)%nat = Some (seen x (length a + i)%nat)) ->
  fold_items (handle_tx parse) tt a (map dto l) = Some (tt, a ++ indexed seen (length a) l, length l).
Proof.
  induction l as [|x l IH]; intros a H; cbn [map fold_items indexed length].
  - now rewrite app_nil_r.
  - unfold handle_tx at 1. pose proof (H 0%nat x eq_refl) as H0. rewrite Nat.add_0_r in H0. rewrite H0.
    rewrite IH.
    + rewrite app_length. cbn [length]. rewrite Nat.add_1_r, <- app_assoc. reflexivity.
    + intros i y Hy. rewrite app_length. cbn [length]. replace (length a + 1 + i)%nat with (length a + S i)%nat by lia.
      apply H. exact Hy.
Qed.

Lemma fold_class {X D T} (parse : D -> option T) (dto : X -> D) (seen : X -> T) : forall l a,
  (forall x, In x l -> parse (dto x) = Some (seen x)) ->
  fold_items (handle_class parse) tt a (map dto l) = Some (tt, a ++ map seen l, length l).
Proof.
  induction l as [|x l IH]; intros a H; cbn [map fold_items length].
  - now rewrite app_nil_r.
  - unfold handle_class at 1. rewrite (H x) by (left; auto). rewrite IH by (intros y Hy; apply H; right; auto).
    now rewrite <- app_assoc.
Qed.

Lemma push_last_snoc {E} (a : list (N * list E)) h es e :
  push_last (a ++ [(h, es)]) e = Some (a ++ [(h, es ++ [e])]).
Proof.
  induction a as [|x a IH]; [reflexivity|]. cbn [app push_last]. rewrite IH.
  destruct a; cbn [app]; destruct x; reflexivity.
Qed.

Lemma fold_same {E} h : forall es (a : list (N * list E)) e0,
  fold_items handle_event (Some h) (a ++ [(h, e0)]) (map (pair h) es) = Some (Some h, a ++ [(h, e0 ++ es)], length es).
Proof.
  induction es as [|e es IH]; intros a e0; cbn [map fold_items length].
  - now rewrite app_nil_r.
  - unfold handle_event at 1. rewrite N.eqb_refl, push_last_snoc. rewrite IH. now rewrite <- app_assoc.
Qed.

(** the hash of the last transaction with events, else what there was *)
Definition last_hash {E} (c : option N) (l : list (N * list E)) : option N :=
  fold_left (fun c x => match snd x with [] => c | _ => Some (fst x) end) l c.

Lemma fold_events {E} : forall (l : list (N * list E)) c a,
  NoDup (map fst l) -> (forall h, c = Some h -> ~ In h (map fst l)) ->
  fold_items handle_event c a (event_items l) = Some (last_hash c l, a ++ with_events l, length (event_items l)).
Proof.
  induction l as [|[h es] l IH]; intros c a ND H.
  - cbn. now rewrite app_nil_r.
  - cbn [map fst] in ND. inversion ND as [|? ? Nh ND']; subst.
    change (event_items ((h, es) :: l)) with (map (pair h) es ++ event_items l).
    rewrite fold_items_app, app_length, map_length.
    destruct es as [|e es].
    + cbn [map fold_items app]. change (with_events ((h, []) :: l)) with (with_events l).
      change (last_hash c ((h, []) :: l)) with (last_hash c l). rewrite IH; auto.
      intros x Hx K. apply (H x Hx). now right.
    + change (with_events ((h, e :: es) :: l)) with ((h, e :: es) :: with_events l).
      change (last_hash c ((h, e :: es) :: l)) with (last_hash (Some h) l).
      assert (F : fold_items handle_event c a (map (pair h) (e :: es)) = Some (Some h, a ++ [(h, e :: es)], length (e :: es))).
      { cbn [map fold_items]. unfold handle_event at 1.
        assert (G : match c with Some x => if x =? h then match push_last a e with Some a' => Got c a' 1 | None => Panicked end
                    else Got (Some h) (a ++ [(h, [e])]) 1 | None => Got (Some h) (a ++ [(h, [e])]) 1 end
                    = Got (Some h) (a ++ [(h, [e])]) 1).
        { destruct c as [x|]; auto. destruct (N.eqb_spec x h) as [->|]; auto. elim (H h eq_refl). now left. }
        rewrite G, fold_same. reflexivity. }
      rewrite F, IH; auto.
      * now rewrite <- app_assoc.
      * intros x Hx. injection Hx as <-. exact Nh.
Qed.

Lemma last_hash_in {E} : forall (l : list (N * list E)) c h, last_hash c l = Some h -> c = Some h \/ In h (map fst l).
Proof.
  induction l as [|[h0 es] l IH]; intros c h H; [auto|]. change (last_hash c ((h0, es) :: l)) with
    (last_hash (match es with [] => c | _ => Some h0 end) l) in H. apply IH in H. destruct H as [H|H]; [|right; right; auto].
  destruct es; [auto|]. injection H as <-. right. left. reflexivity.
Qed.

(** *** State diffs *)
Lemma upsert_new {V} k (f : option V -> V) : forall m, ~ In k (map fst m) -> upsert k f m = m ++ [(k, f None)].
Proof.
  induction m as [|[k' v] m IH]; intros H; [reflexivity|]. cbn [upsert]. cbn [map fst] in H.
  destruct (N.eqb_spec k k') as [->|]; [elim H; now left|]. cbn [app]. rewrite IH; auto. intros K. apply H. now right.
Qed.

Lemma insert_all_new : forall vs m, NoDup (map fst (m ++ vs)) -> insert_all vs m = m ++ vs.
Proof.
  induction vs as [|[k v] vs IH]; intros m H; [now rewrite app_nil_r|].
  change (insert_all ((k, v) :: vs) m) with (insert_all vs (insert k v m)).
  unfold insert. rewrite upsert_new.
  - rewrite IH; rewrite <- app_assoc; auto.
  - rewrite map_app in H. cbn [map fst] in H. apply NoDup_remove_2 in H. intros K. apply H, in_or_app. auto.
Qed.

Definition deployed_contract (c : contract) : contract :=
  Contract (c_storage c) (c_nonce c) (option_map (fun x => Deploy (class_hash x)) (c_class c)).

Lemma fold_contracts : forall cs done sy ca si mi,
  NoDup (map fst (done ++ cs)) ->
  (forall a c, In (a, c) cs -> a <> 1 /\ a <> 2 /\ NoDup (map fst (c_storage c)) /\ c <> Contract [] None None) ->
  fold_items handle_diff tt (Diff done sy ca si mi)
    (map (fun x => ContractDiff (fst x) (c_nonce (snd x)) (option_map class_hash (c_class (snd x))) (c_storage (snd x))) cs)
  = Some (tt, Diff (done ++ map (fun x => (fst x, deployed_contract (snd x))) cs) sy ca si mi,
          list_sum (map (fun x => contract_length (snd x)) cs)).
Proof.
  induction cs as [|[a c] cs IH]; intros done sy ca si mi ND H.
  - cbn. now rewrite app_nil_r.
  - cbn [map fold_items fst snd]. unfold handle_diff at 1.
    destruct (H a c (or_introl eq_refl)) as (A1 & A2 & Ns & Ne).
    replace (is_system a) with false by (unfold is_system; lia).
    cbn [d_contracts d_system d_cairo d_sierra d_migrated].
    rewrite map_app in ND. cbn [map fst] in ND.
    rewrite upsert_new.
    2: { apply NoDup_remove_2 in ND. intros K. apply ND, in_or_app. auto. }
    cbn [c_storage c_nonce c_class]. rewrite insert_all_new by exact Ns. cbn [app].
    assert (W : (length (c_storage c) + opt (c_nonce c) + opt (option_map class_hash (c_class c)))%nat = contract_length c).
    { unfold contract_length. destruct (c_class c); reflexivity. }
    assert (P : contract_length c <> 0%nat).
    { unfold contract_length. destruct c as [[|] [|] [|]]; cbn; try lia. now elim Ne. }
    rewrite W. destruct (contract_length c) as [|w] eqn:L; [congruence|].
    assert (D : Contract (c_storage c) (match c_nonce c with Some n => Some n | None => None end)
                  (match option_map class_hash (c_class c) with Some h => Some (Deploy h) | None => None end) = deployed_contract c).
    { destruct c as [s [n|] [k|]]; reflexivity. }
    rewrite D. rewrite IH.
    + rewrite <- app_assoc. cbn [app list_sum fold_right]. try rewrite L. reflexivity.
    + rewrite <- app_assoc, map_app. cbn [app map fst]. exact ND.
    + intros b x K. apply H. now right.
Qed.

Lemma fold_system : forall ss co done ca si mi,
  NoDup (map fst (done ++ ss)) ->
  (forall a s, In (a, s) ss -> (a = 1 \/ a = 2) /\ NoDup (map fst s) /\ s <> []) ->
  fold_items handle_diff tt (Diff co done ca si mi) (map (fun x => ContractDiff (fst x) None None (snd x)) ss)
  = Some (tt, Diff co (done ++ ss) ca si mi, list_sum (map (fun x => length (snd x)) ss)).
Proof.
  induction ss as [|[a s] ss IH]; intros co done ca si mi ND H.
  - cbn. now rewrite app_nil_r.
  - cbn [map fold_items fst snd]. unfold handle_diff at 1.
    destruct (H a s (or_introl eq_refl)) as (A & Ns & Ne).
    replace (is_system a) with true by (unfold is_system; lia).
    cbn [d_contracts d_system d_cairo d_sierra d_migrated].
    rewrite map_app in ND. cbn [map fst] in ND.
    rewrite upsert_new.
    2: { apply NoDup_remove_2 in ND. intros K. apply ND, in_or_app. auto. }
    rewrite insert_all_new by exact Ns. cbn [app].
    destruct (length s) as [|w] eqn:L; [destruct s; [now elim Ne|discriminate]|].
    rewrite IH.
    + rewrite <- app_assoc. cbn [app list_sum fold_right]. try rewrite L. reflexivity.
    + rewrite <- app_assoc, map_app. cbn [app map fst]. exact ND.
    + intros b x K. apply H. now right.
Qed.

Lemma fold_cairo : forall hs co sy done si mi, NoDup (done ++ hs) ->
  fold_items handle_diff tt (Diff co sy done si mi) (map (fun h => DeclaredClass h None) hs)
  = Some (tt, Diff co sy (done ++ hs) si mi, length hs).
Proof.
  induction hs as [|h hs IH]; intros co sy done si mi ND.
  - cbn. now rewrite app_nil_r.
  - cbn [map fold_items]. unfold handle_diff at 1. cbn [d_contracts d_system d_cairo d_sierra d_migrated].
    assert (F : add h done = done ++ [h]).
    { unfold add. replace (existsb (N.eqb h) done) with false; auto. symmetry. apply not_true_is_false.
      intros K. apply existsb_exists in K. destruct K as (y & K & E). apply N.eqb_eq in E. subst y.
      apply NoDup_remove_2 in ND. apply ND, in_or_app. auto. }
    rewrite F, IH; rewrite <- app_assoc; auto.
Qed.

Lemma fold_sierra : forall hs co sy ca done mi, NoDup (map fst (done ++ hs)) ->
  fold_items handle_diff tt (Diff co sy ca done mi) (map (fun x => DeclaredClass (fst x) (Some (snd x))) hs)
  = Some (tt, Diff co sy ca (done ++ hs) mi, length hs).
Proof.
  induction hs as [|[h x] hs IH]; intros co sy ca done mi ND.
  - cbn. now rewrite app_nil_r.
  - cbn [map fold_items fst snd]. unfold handle_diff at 1. cbn [d_contracts d_system d_cairo d_sierra d_migrated].
    unfold insert. rewrite upsert_new.
    2: { rewrite map_app in ND. cbn [map fst] in ND. apply NoDup_remove_2 in ND. intros K. apply ND, in_or_app. auto. }
    rewrite IH; rewrite <- app_assoc; auto.
Qed.

(** What arrives for a diff, and how many of the expected items it makes up. *)
Lemma fold_diff d : well_formed d ->
  fold_items handle_diff tt no_diff (diff_items d) =
  Some (tt, Diff (d_contracts (as_deployed d)) (d_system d) (d_cairo d) (d_sierra d) [],
        (state_diff_length d - length (d_migrated d))%nat).
Proof.
  intros (N1 & N2 & N3 & N4 & H1 & H2). unfold diff_items, no_diff.
  rewrite fold_items_app, fold_contracts by auto. rewrite fold_items_app, fold_system by auto.
  rewrite fold_items_app, fold_cairo by auto. rewrite fold_sierra by auto. cbn [app].
  unfold as_deployed. cbn [d_contracts]. do 2 f_equal. unfold state_diff_length. lia.
Qed.

Lemma upsert_length {V} (size : V -> nat) k f w : size (f None) = w \/ (size (f None) <= w)%nat ->
  (forall v, (size (f (Some v)) <= size v + w)%nat) -> forall m,
  (list_sum (map (fun x => size (snd x)) (upsert k f m)) <= list_sum (map (fun x => size (snd x)) m) + w)%nat.
Proof.
  intros H1 H2. induction m as [|[k' v] m IH]; cbn [upsert map list_sum fold_right snd].
  - destruct H1; lia.
  - unfold list_sum in *. destruct (k =? k'); cbn [map fold_right snd]; [pose proof (H2 v); lia|lia].
Qed.

Lemma insert_length {V} k (v : V) m : (length (insert k v m) <= length m + 1)%nat.
Proof. unfold insert. induction m as [|[k' x] m IH]; cbn [upsert length]; [lia|]. destruct (k =? k'); cbn [length]; lia. Qed.

Lemma insert_all_length : forall vs m, (length (insert_all vs m) <= length m + length vs)%nat.
Proof.
  induction vs as [|[k v] vs IH]; intros m; [cbn; lia|].
  change (insert_all ((k, v) :: vs) m) with (insert_all vs (insert k v m)).
  pose proof (IH (insert k v m)). pose proof (insert_length k v m). cbn [length]. lia.
Qed.

Lemma diff_step c d i c' d' w w' : (state_diff_length d <= w)%nat -> handle_diff c d i = Got c' d' w' ->
  (state_diff_length d' <= w + w')%nat.
Proof.
  intros H G. unfold state_diff_length in *. destruct i as [a nonce class values|h [casm|]]; cbn [handle_diff] in G.
  - destruct (is_system a); injection G as _ <- <-; cbn [d_contracts d_system d_cairo d_sierra d_migrated].
    + match goal with |- context [upsert a ?f _] =>
        pose proof (upsert_length (@length (N * N)) a f (length values)) as U end.
      specialize (U (or_intror (insert_all_length values []))).
      specialize (U (fun v => insert_all_length values v) (d_system d)). lia.
    + match goal with |- context [upsert a ?f _] =>
        pose proof (upsert_length contract_length a f (length values + opt nonce + opt class)) as U end.
      assert (X : forall o : option contract, (contract_length
         (let c0 := match o with Some c => c | None => Contract [] None None end in
          Contract (insert_all values (c_storage c0)) (match nonce with Some n => Some n | None => c_nonce c0 end)
            (match class with Some h => Some (Deploy h) | None => c_class c0 end))
          <= match o with Some v => contract_length v | None => 0 end + (length values + opt nonce + opt class))%nat).
      { intros o. cbn zeta. unfold contract_length. destruct o as [[s n k]|]; cbn [c_storage c_nonce c_class].
        - pose proof (insert_all_length values s). destruct nonce, class, n, k; cbn; lia.
        - pose proof (insert_all_length values []). destruct nonce, class; cbn in *; lia. }
      specialize (U (or_intror (X None)) (fun v => X (Some v)) (d_contracts d)). lia.
  - injection G as _ <- <-. cbn [d_contracts d_system d_cairo d_sierra d_migrated].
    pose proof (insert_length h casm (d_sierra d)). lia.
  - injection G as _ <- <-. cbn [d_contracts d_system d_cairo d_sierra d_migrated]. unfold add.
    destruct (existsb (N.eqb h) (d_cairo d)); [|rewrite app_length; cbn [length]]; lia.
Qed.

Definition events_of {E} (l : list (N * list E)) : nat := length (event_items l).

Lemma event_items_app {E} (l1 l2 : list (N * list E)) : event_items (l1 ++ l2) = event_items l1 ++ event_items l2.
Proof. unfold event_items. now rewrite flat_map_app. Qed.

Lemma push_last_length {E} : forall (l : list (N * list E)) e l', push_last l e = Some l' ->
  length (event_items l') = (length (event_items l) + 1)%nat.
Proof.
  induction l as [|[h es] l IH]; intros e l' H; [discriminate|]. destruct l as [|y l].
  - injection H as <-. cbn [event_items flat_map fst snd]. rewrite !app_nil_r, !map_length, app_length. reflexivity.
  - cbn [push_last] in H. change (option_map (cons (h, es)) (push_last (y :: l) e) = Some l') in H.
    destruct (push_last (y :: l) e) as [l2|] eqn:P; [|discriminate]. injection H as <-. apply IH in P.
    change (event_items ((h, es) :: l2)) with (map (pair h) es ++ event_items l2).
    change (event_items ((h, es) :: y :: l)) with (map (pair h) es ++ event_items (y :: l)).
    rewrite !app_length. lia.
Qed.

Lemma event_step {E} c (a : list (N * list E)) r c' a' w w' : length (event_items a) = w ->
  handle_event c a r = Got c' a' w' -> length (event_items a') = (w + w')%nat.
Proof.
  intros H G. destruct r as [h e]. unfold handle_event in G.
  assert (X : length (event_items (a ++ [(h, [e])])) = (w + 1)%nat).
  { rewrite event_items_app, app_length, H. reflexivity. }
  destruct c as [x|].
  - destruct (x =? h).
    + destruct (push_last a e) as [a2|] eqn:P; [|discriminate]. injection G as <- <- <-.
      apply push_last_length in P. lia.
    + injection G as <- <- <-. exact X.
  - injection G as <- <- <-. exact X.
Qed.

(** *** One block *)
Lemma for_block : forall l d d' w left rs, fold_items handle_diff tt d l = Some (tt, d', w) ->
  state_diff_for_block d left (map Item l ++ rs) =
  if (w <=? left)%nat then state_diff_for_block d' (left - w) rs else None.
Proof.
  induction l as [|i l IH]; intros d d' w left rs F; cbn [fold_items map app state_diff_for_block] in *.
  - injection F as <- <-. cbn [Nat.leb]. now rewrite Nat.sub_0_r.
  - destruct (handle_diff tt d i) as [[] d1 [|w1]| |]; try discriminate.
    destruct (fold_items handle_diff tt d1 l) as [[[[] d2] w2]|] eqn:G; [|discriminate]. injection F as <- <-.
    destruct (Nat.leb_spec (S w1) left).
    + rewrite (IH _ _ _ _ rs G). replace (left - S w1 - w2)%nat with (left - S (w1 + w2))%nat by lia.
      destruct (Nat.leb_spec w2 (left - S w1)), (Nat.leb_spec (S (w1 + w2)) left); try lia; auto.
    + destruct (Nat.leb_spec (S (w1 + w2)) left); auto; lia.
Qed.

(** ** A block with migrated classes *)
Lemma take_short {R C A} (handle : C -> A -> R -> handled C A) : forall l c a c' a' w left p,
  fold_items handle c a l = Some (c', a', w) -> (w < left)%nat -> follows p (map Item l ++ [Fin]) ->
  take handle c a left p = GiveUp.
Proof.
  induction l as [|r l IH]; intros c a c' a' w left p F L P; cbn [fold_items map app] in *.
  - injection F as <- <- <-. destruct left as [|left]; [lia|]. apply follows_cons in P.
    destruct P as [->|[->|(p' & -> & P)]]; reflexivity.
  - destruct (handle c a r) as [c1 a1 [|w1]| |] eqn:H; try discriminate.
    destruct (fold_items handle c1 a1 l) as [[[c2 a2] w2]|] eqn:F'; [|discriminate]. injection F as <- <- <-.
    destruct left as [|left]; [lia|].
    apply follows_cons in P. destruct P as [->|[->|(p' & -> & P)]]; auto.
    cbn [take]. rewrite H. replace (S w1 <=? S left)%nat with true by lia. eapply IH; eauto. lia.
Qed.

Lemma migrated_stuck (truth : N -> diff) n : n <= MAX_NUMBER -> well_formed (truth n) -> d_migrated (truth n) <> [] ->
  forall m k, fetched (fun b => diff_items (truth b)) handle_diff tt no_diff n
                (begin n [Some (state_diff_length (truth n))]) m k ->
    k_out k = [] /\ k_status k = Running n (state_diff_length (truth n)) [].
Proof.
  intros Mx W M. set (len := state_diff_length (truth n)).
  assert (L : (len - length (d_migrated (truth n)) < len)%nat).
  { unfold len, state_diff_length. destruct (d_migrated (truth n)) as [|x l]; [congruence|]. cbn [length]. lia. }
  assert (Z : len <> 0%nat) by lia.
  assert (S1 : forall k db by_hash rs, k_out k = [] -> k_status k = Running n len [] ->
     honest (fun b => diff_items (truth b)) db -> received db by_hash (make_request n n) rs ->
     session handle_diff tt no_diff n k (Some rs) = Client [] (Running n len [])).
  { intros k db by_hash rs O St H (p & P & Q). unfold session. rewrite St, O. rewrite N.ltb_irrefl.
    assert (I : iterate db by_hash (make_request n n) = turns db 1 n 1 Forward).
    { unfold iterate, make_request. cbn [q_limit q_start q_step q_dir get_start_block_number]. unfold block_number.
      rewrite N.sub_diag. replace (n <=? MAX_NUMBER) with true by lia. reflexivity. }
    rewrite I in P. assert (T : exists l, follows rs l /\ (l = [] \/ l = [Fin] \/ l = map Item (diff_items (truth n)) ++ [Fin])).
    { eexists. split; [exists p; split; eauto|]. destruct H as (have & H). cbn [turns].
      destruct (H n) as [E|[E|[[_ E]|[_ E]]]]; rewrite E; auto. }
    destruct T as (l & F & D).
    assert (G : take handle_diff tt no_diff len rs = GiveUp).
    { destruct len as [|x] eqn:El; [congruence|]. destruct D as [->|[->| ->]].
      - apply follows_nil in F. destruct F as [->| ->]; reflexivity.
      - apply follows_cons in F. destruct F as [->|[->|(p' & -> & _)]]; reflexivity.
      - eapply take_short; [apply fold_diff, W| |exact F]. fold len. lia. }
    cbn [blocks]. now rewrite G. }
  intros m k H. induction H as [|m k H [O St]|m k next cnt cs db by_hash rs H [O St] R Hdb Rc
                                 |m k next cnt cs db by_hash H [O St] R Hdb Full].
  - auto.
  - unfold session. rewrite St. auto.
  - rewrite St in R. injection R as <- <- <-. erewrite S1; eauto.
  - rewrite St in R. injection R as <- <- <-. erewrite S1; eauto.
    exists (iterate db by_hash (make_request n n)). split; auto. exists []. now rewrite app_nil_r.
Qed.

Lemma sized_orderly {A} (P : A -> nat -> Prop) start stop counts k :
  sized P start stop counts k -> orderly P start stop counts k.
Proof.
  intros (j & O & _ & N & S). exists j. split; auto. split; auto. intros E. now rewrite E in S.
Qed.

(** Nothing crashes if the handler does not. *)
Section NoCrash.
  Context {R C A : Type}.
  Variable handle : C -> A -> R -> handled C A.
  Variable no_carry : C.
  Variable empty : A.
  Hypothesis NoPanic : forall c a r, handle c a r <> Panicked.

  Lemma take_no_crash : forall rs c a left, take handle c a left rs <> Crash.
  Proof.
    induction rs as [|[r| |] rs IH]; intros c a [|left]; cbn [take]; try discriminate.
    destruct (handle c a r) as [c' a' w| |] eqn:H; try discriminate.
    - destruct (w <=? S left)%nat; [apply IH|discriminate].
    - elim (NoPanic c a r H).
  Qed.

  Lemma blocks_no_crash stop : forall cs c next cnt rs out, k_status (blocks handle empty stop cs c next cnt rs out) <> Crashed.
  Proof.
    induction cs as [|x cs IH]; intros c next cnt rs out; cbn [blocks];
      destruct (take handle c empty cnt rs) as [c' a rs'| |] eqn:T; try (elim (take_no_crash _ _ _ _ T)); try discriminate;
      destruct (next =? stop); try discriminate.
    destruct x as [x|]; [apply IH|discriminate].
  Qed.

  Lemma stream_no_crash start stop counts answers : k_status (stream handle no_carry empty start stop counts answers) <> Crashed.
  Proof.
    unfold stream. assert (B : k_status (@begin A start counts) <> Crashed) by (destruct counts as [|[x|] cs]; discriminate).
    revert B. generalize (@begin A start counts). induction answers as [|r answers IH]; intros k B; auto.
    cbn [fold_left]. apply IH. unfold session. destruct (k_status k) as [next cnt cs| | |] eqn:E; try (rewrite E; auto; discriminate).
    destruct r as [rs|]; [|rewrite E; discriminate]. destruct (stop <? next); [discriminate|apply blocks_no_crash].
  Qed.
End NoCrash.

(** ** What items say *)
Lemma lookup_upsert {V} k f k' : forall m : list (N * V),
  lookup k' (upsert k f m) = if k =? k' then Some (f (lookup k m)) else lookup k' m.
Proof.
  induction m as [|[j v] m IH]; cbn [upsert lookup].
  - rewrite N.eqb_sym. now destruct (k =? k').
  - destruct (N.eqb_spec k j) as [->|Nk]; cbn [lookup].
    + rewrite (N.eqb_sym k' j). now destruct (j =? k').
    + rewrite IH. destruct (N.eqb_spec k' j) as [->|]; [|reflexivity]. now replace (k =? j) with false by lia.
Qed.

Lemma lookup_insert_all k : forall vs m,
  lookup k (insert_all vs m) = match lookup k (rev vs) with Some v => Some v | None => lookup k m end.
Proof.
  induction vs as [|[j v] vs IH] using rev_ind; intros m; [reflexivity|].
  unfold insert_all in *. rewrite fold_left_app, rev_app_distr. cbn [fold_left fst snd rev app lookup].
  unfold insert at 1. rewrite lookup_upsert. rewrite (N.eqb_sym k j). destruct (j =? k); auto.
Qed.

Lemma latest_snoc {I V} (said : I -> option V) items i :
  latest said (items ++ [i]) = match said i with Some v => Some v | None => latest said items end.
Proof. unfold latest. now rewrite fold_left_app. Qed.

Lemma made_of_nothing : made_of [] no_diff.
Proof.
  unfold made_of, no_diff. cbn. split; [|split; [|split; [|split]]]; auto; try tauto.
  intros a k. unfold storage_in. cbn. now destruct ((a =? 1) || (a =? 2)).
Qed.

Lemma made_of_step items c d i c' d' w : made_of items d -> handle_diff c d i = Got c' d' w ->
  made_of (items ++ [i]) d' /\ w = entries i.
Proof.
  intros (S & NC & Ca & Si & Mi) G. destruct i as [a nonce class values|h [casm|]]; cbn [handle_diff] in G.
  - unfold entries. fold (is_system a). destruct (is_system a) eqn:Sy; injection G as _ <- <-.
    + split; auto. split; [|split; [|split; [|split]]].
      * intros b k. rewrite latest_snoc, <- S. unfold storage_in. cbn [d_system d_contracts said_storage].
        fold (is_system b). rewrite lookup_upsert. destruct (N.eqb_spec a b) as [->|Ne].
        { rewrite Sy, lookup_insert_all. destruct (lookup k (rev values)); auto. now destruct (lookup b (d_system d)). }
        { reflexivity. }
      * intros b B1 B2. rewrite !latest_snoc. cbn [said_nonce said_class].
        replace (a =? b) with false by (unfold is_system in Sy; lia). now apply NC.
      * intros h. cbn [d_cairo]. rewrite Ca, in_app_iff. cbn. intuition discriminate.
      * intros h. rewrite latest_snoc. apply Si.
      * exact Mi.
    + split; auto. split; [|split; [|split; [|split]]].
      * intros b k. rewrite latest_snoc, <- S. unfold storage_in. cbn [d_system d_contracts said_storage].
        fold (is_system b). rewrite lookup_upsert. destruct (N.eqb_spec a b) as [->|Ne].
        { rewrite Sy. cbn [c_storage]. rewrite lookup_insert_all. destruct (lookup k (rev values)); auto.
          now destruct (lookup b (d_contracts d)). }
        { reflexivity. }
      * intros b B1 B2. destruct (NC b B1 B2) as [Nn Nc]. rewrite !latest_snoc. unfold nonce_in, class_in in *.
        cbn [d_contracts said_nonce said_class]. rewrite lookup_upsert.
        destruct (N.eqb_spec a b) as [->|Ne]; [|now rewrite Nn, Nc]. cbn [c_nonce c_class]. split.
        { destruct nonce; auto. rewrite <- Nn. now destruct (lookup b (d_contracts d)). }
        { destruct class; auto. rewrite <- Nc. now destruct (lookup b (d_contracts d)). }
      * intros h. cbn [d_cairo]. rewrite Ca, in_app_iff. cbn. intuition discriminate.
      * intros h. rewrite latest_snoc. apply Si.
      * exact Mi.
  - injection G as _ <- <-. split; auto. split; [|split; [|split; [|split]]].
    + intros b k. rewrite latest_snoc. apply S.
    + intros b B1 B2. rewrite !latest_snoc. now apply NC.
    + intros x. cbn [d_cairo]. rewrite Ca, in_app_iff. cbn. intuition discriminate.
    + intros x. rewrite latest_snoc. cbn [d_sierra said_casm]. unfold insert. rewrite lookup_upsert.
      destruct (h =? x); auto.
    + exact Mi.
  - injection G as _ <- <-. split; auto. split; [|split; [|split; [|split]]].
    + intros b k. rewrite latest_snoc. apply S.
    + intros b B1 B2. rewrite !latest_snoc. now apply NC.
    + intros x. cbn [d_cairo]. rewrite in_app_iff. cbn [In]. unfold add.
      destruct (existsb (N.eqb h) (d_cairo d)) eqn:Ex.
      * rewrite Ca. split; [auto|]. intros [H|[H|[]]]; auto. injection H as ->. apply existsb_exists in Ex.
        destruct Ex as (y & Hy & E). apply N.eqb_eq in E. subst y. now apply Ca.
      * rewrite in_app_iff, Ca. cbn [In]. intuition congruence.
    + intros x. rewrite latest_snoc. apply Si.
    + exact Mi.
Qed.

Lemma list_sum_snoc l x : list_sum (l ++ [x]) = (list_sum l + x)%nat.
Proof. rewrite list_sum_app. cbn. lia. Qed.

Definition diff_ok (d : diff) (c : nat) : Prop :=
  (state_diff_length d <= c)%nat /\ exists items, list_sum (map entries items) = c /\ made_of items d.

Lemma diff_ok_step c d i c' d' w w' : diff_ok d w -> handle_diff c d i = Got c' d' w' -> diff_ok d' (w + w').
Proof.
  intros (L & items & E & H) G. split; [eapply diff_step; eauto|]. exists (items ++ [i]).
  destruct (made_of_step _ _ _ _ _ _ _ H G) as [H' ->]. split; auto. rewrite map_app. cbn [map]. now rewrite list_sum_snoc, E.
Qed.

Lemma for_block_any : forall rs d left d' items, made_of items d ->
  state_diff_for_block d left rs = Some d' ->
  exists new rest, rs = map Item new ++ Fin :: rest /\ list_sum (map entries new) = left /\ made_of (items ++ new) d'.
Proof.
  induction rs as [|[i| |] rs IH]; intros d left d' items H E; cbn [state_diff_for_block] in E; try discriminate.
  - destruct (handle_diff tt d i) as [[] d1 w| |] eqn:G; try discriminate.
    destruct (Nat.leb_spec w left); [|discriminate]. destruct (made_of_step _ _ _ _ _ _ _ H G) as [H1 ->].
    destruct (IH _ _ _ _ H1 E) as (new & rest & -> & L & M). exists (i :: new), rest. split; auto.
    rewrite <- app_assoc in M. split; auto. cbn [map list_sum fold_right]. unfold list_sum in L. rewrite L. lia.
  - destruct left; [|discriminate]. injection E as <-. exists [], rs. rewrite app_nil_r. auto.
Qed.
