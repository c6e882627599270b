From Coq Require Import List NArith PeanoNat Bool Lia ZifyBool ZifyN ZifyNat.
From Verif Require Import BloomModel EventModel EventSpec EventProof GetEventsModel SubscribeModel SubscribeSpec.
Import ListNotations.
Local Open Scope nat_scope.

#[local] Arguments seen {note V} : simpl never.
#[local] Arguments news {block V} : simpl never.

Section News.
  Context {block V : Type}.
  Variable live : nat -> block -> list V.
  Notation news := (news live).

  Lemma news_nil chain from to : to <= from -> news chain from to = [].
  Proof. intros H. unfold SubscribeSpec.news. replace (to - from) with 0 by lia. reflexivity. Qed.
  Lemma news_split chain from m to : from <= m -> m <= to -> news chain from to = news chain from m ++ news chain m to.
  Proof.
    intros A B. unfold SubscribeSpec.news. replace (to - from) with ((m - from) + (to - m)) by lia.
    rewrite seq_app, flat_map_app. replace (from + (m - from)) with m by lia. reflexivity.
  Qed.
  Lemma news_one chain n b : nth_error chain n = Some b -> news chain n (n + 1) = map (pair n) (live n b).
  Proof. intros E. unfold SubscribeSpec.news. replace (n + 1 - n) with 1 by lia. cbn [seq flat_map]. rewrite E. apply app_nil_r. Qed.
  Lemma news_grow chain b from to : to <= length chain -> news (chain ++ [b]) from to = news chain from to.
  Proof.
    intros H. unfold SubscribeSpec.news. rewrite !flat_map_concat_map. f_equal. apply map_ext_in. intros n I. apply in_seq in I.
    rewrite nth_error_app1 by lia. reflexivity.
  Qed.
  Lemma news_head chain m q to : forall k from, k = to - from -> news chain from to = m :: q ->
    from <= fst m < to /\ news chain from (fst m) = [] /\ news chain (fst m) to = m :: q.
  Proof.
    induction k as [|k IH]; intros from EK E; [rewrite news_nil in E by lia; discriminate|].
    rewrite (news_split chain from (from + 1) to) in E by lia.
    destruct (news chain from (from + 1)) as [|x l] eqn:EN.
    - cbn [app] in E. destruct (IH (from + 1) ltac:(lia) E) as (R & E1 & E2). split; [lia|]. split; [|exact E2].
      rewrite (news_split chain from (from + 1) (fst m)) by lia. rewrite EN, E1. reflexivity.
    - cbn [app] in E. assert (X : fst m = from).
      { injection E as EM _. subst x. destruct (nth_error chain from) as [b|] eqn:EB.
        - rewrite (news_one chain from b EB) in EN. destruct (live from b); [discriminate|]. cbn [map] in EN. injection EN as EN _. subst m. reflexivity.
        - unfold SubscribeSpec.news in EN. replace (from + 1 - from) with 1 in EN by lia. cbn [seq flat_map] in EN. rewrite EB in EN. discriminate. }
      rewrite X. split; [lia|]. split; [apply news_nil; lia|]. rewrite (news_split chain from (from + 1) to) by lia. rewrite EN. exact E.
  Qed.
End News.

Lemma seen_app {note V} (view : note -> V) a b : seen view (a ++ b) = seen view a ++ seen view b.
Proof. apply map_app. Qed.

Section Run.
  Context {block pending memory note V : Type}.
  Variable F : flow block pending memory note.
  Variable view : note -> V.
  Variable live : nat -> block -> list V.
  Variable good : memory -> Prop.
  Hypothesis batch : 1 <= f_batch F.
  Hypothesis catch_up : forall chain from to, from < length chain -> from <= to -> exists messages,
    f_catch_up F chain 0 from to = Some (messages, Some (Nat.min to (length chain - 1))) /\
    seen view messages = news live chain from (Nat.min to (length chain - 1) + 1).
  Hypothesis nothing : forall chain from to, length chain <= from -> f_catch_up F chain 0 from to = Some ([], None).
  Hypothesis good_start : good (f_start F).
  Hypothesis good_pending : forall m p, good m -> good (fst (f_on_pending F m p)) /\ snd (f_on_pending F m p) = [].
  Hypothesis good_block : forall m n b, good m -> good (fst (f_on_block F m n b)) /\
       seen view (snd (f_on_block F m n b)) = map (pair n) (live n b).
  Variable start : nat.
  Notation news := (news live).
  Notation seen := (seen view).

  (* what the task has pushed: the announced blocks from first on *)
  Definition task_ok (s : sub block memory note) (first : nat) (pushed : list (nat * V)) : Prop :=
    match s_task s with
    | NotSpawned => False
    | Spawned => pushed = []
    | Running m next => good m /\ first <= next <= s_announced s /\ pushed = news (s_chain s) first next
    | Returned => exists next, first <= next <= s_announced s /\ pushed = news (s_chain s) first next
    end.

  Definition task_good (s : sub block memory note) : Prop := match s_task s with Running m _ => good m | _ => True end.

  Definition phase_ok (s : sub block memory note) : Prop :=
    match s_phase s with
    | CatchingUp c | Subscribing c =>
        start <= c <= length (s_chain s) /\ seen (s_sent s) = news (s_chain s) start c /\ s_task s = NotSpawned /\ s_queue s = []
    | AwaitingFirst c =>
        start <= c <= length (s_chain s) /\ seen (s_sent s) = news (s_chain s) start c /\
        exists first, (s_task s <> Spawned -> c <= first + 1) /\ task_ok s first (seen (s_queue s))
    | CatchingUpToFirst c m =>
        start <= c <= length (s_chain s) /\ seen (s_sent s) = news (s_chain s) start c /\
        exists first, c <= first + 1 /\ s_task s <> Spawned /\ task_ok s first (seen (m :: s_queue s))
    | Forwarding =>
        exists a b pushed, start <= a <= length (s_chain s) /\ (b = a \/ b + 1 = a) /\ s_task s <> Spawned /\
          task_ok s b pushed /\ seen (s_sent s ++ s_queue s) = news (s_chain s) start a ++ pushed
    | Closed =>
        exists a b c rest, start <= a <= length (s_chain s) /\ (b = a \/ b + 1 = a) /\ b <= c <= length (s_chain s) /\
          seen (s_sent s) ++ rest = news (s_chain s) start a ++ news (s_chain s) b c /\ task_good s
    end.

  Record ok (s : sub block memory note) : Prop := {
    ok_announced : s_announced s <= length (s_chain s) <= s_announced s + 1;
    ok_earliest : s_earliest s = 0;
    ok_phase : phase_ok s
  }.

  Definition summary (s : sub block memory note) : Prop :=
    exists a b c rest, start <= a <= length (s_chain s) /\ (b = a \/ b + 1 = a) /\ b <= c <= length (s_chain s) /\
      seen (s_sent s) ++ rest = news (s_chain s) start a ++ news (s_chain s) b c.

  Lemma task_range s first pushed : s_announced s <= length (s_chain s) -> task_ok s first pushed -> s_task s <> Spawned ->
    exists next, first <= next <= length (s_chain s) /\ pushed = news (s_chain s) first next.
  Proof.
    intros A T NS. unfold task_ok in T. destruct (s_task s) as [| |m next|]; [contradiction|congruence| |].
    - destruct T as (_ & R & E). exists next. split; [lia|exact E].
    - destruct T as (next & R & E). exists next. split; [lia|exact E].
  Qed.

  Lemma task_head s f m q : task_ok s f (m :: q) ->
    f <= fst m < s_announced s /\ news (s_chain s) f (fst m) = [] /\ task_ok s (fst m) (m :: q).
  Proof.
    intros T. unfold task_ok in *. destruct (s_task s) as [| |m' next|]; [contradiction|discriminate| |].
    - destruct T as (G & R & E). symmetry in E. destruct (news_head live (s_chain s) m q next _ f eq_refl E) as (RM & E1 & E2).
      split; [lia|]. split; [exact E1|]. split; [exact G|]. split; [lia|]. symmetry. exact E2.
    - destruct T as (next & R & E). symmetry in E. destruct (news_head live (s_chain s) m q next _ f eq_refl E) as (RM & E1 & E2).
      split; [lia|]. split; [exact E1|]. exists next. split; [lia|]. symmetry. exact E2.
  Qed.

  Lemma ok_summary s : ok s -> summary s.
  Proof.
    intros [A E P]. unfold phase_ok in P. unfold summary.
    destruct (s_phase s) as [c|c|c|c m| |].
    - destruct P as (R & EQ & _). exists c, c, c, []. rewrite EQ, (news_nil live _ c c) by lia. do 3 (split; [lia|]). reflexivity.
    - destruct P as (R & EQ & _). exists c, c, c, []. rewrite EQ, (news_nil live _ c c) by lia. do 3 (split; [lia|]). reflexivity.
    - destruct P as (R & EQ & _). exists c, c, c, []. rewrite EQ, (news_nil live _ c c) by lia. do 3 (split; [lia|]). reflexivity.
    - destruct P as (R & EQ & _). exists c, c, c, []. rewrite EQ, (news_nil live _ c c) by lia. do 3 (split; [lia|]). reflexivity.
    - destruct P as (a & b & pushed & R & AB & NS & T & EQ).
      destruct (task_range s b pushed ltac:(lia) T NS) as (next & RN & ->).
      exists a, b, next, (seen (s_queue s)). do 3 (split; [lia|]). rewrite <- seen_app. exact EQ.
    - destruct P as (a & b & c & rest & R & AB & BC & EQ & _). exists a, b, c, rest. auto.
  Qed.

  Lemma task_ok_good s f pushed : task_ok s f pushed -> task_good s.
  Proof. unfold task_ok, task_good. destruct (s_task s); tauto. Qed.
  Lemma ok_good s : ok s -> task_good s.
  Proof.
    intros [A E P]. unfold phase_ok in P. destruct (s_phase s) as [c|c|c|c m| |].
    - destruct P as (_ & _ & X & _). unfold task_good. rewrite X. exact I.
    - destruct P as (_ & _ & X & _). unfold task_good. rewrite X. exact I.
    - destruct P as (_ & _ & f & _ & TO). exact (task_ok_good _ _ _ TO).
    - destruct P as (_ & _ & f & _ & _ & TO). exact (task_ok_good _ _ _ TO).
    - destruct P as (a & b & pushed & _ & _ & _ & TO & _). exact (task_ok_good _ _ _ TO).
    - destruct P as (a & b & c & rest & _ & _ & _ & _ & G). exact G.
  Qed.

  Lemma ok_closed s : ok s -> ok (set_phase s Closed).
  Proof.
    intros K. pose proof (ok_summary s K) as (a & b & c & rest & S1 & S2 & S3 & S4). pose proof (ok_good s K) as G. destruct K as [A E P].
    constructor; [exact A|exact E|]. unfold phase_ok. cbn. exists a, b, c, rest. do 4 (split; [assumption|]). exact G.
  Qed.

  Lemma ok_commit s b : ok s -> s_announced s = length (s_chain s) ->
    ok (mkSub (s_chain s ++ [b]) (s_earliest s) (s_announced s) (s_task s) (s_queue s) (s_phase s) (s_sent s)).
  Proof.
    intros [A E P] EA. constructor; cbn; [rewrite app_length; cbn [length]; lia|exact E|].
    assert (T : forall f pushed, task_ok s f pushed ->
                task_ok (mkSub (s_chain s ++ [b]) (s_earliest s) (s_announced s) (s_task s) (s_queue s) (s_phase s) (s_sent s)) f pushed).
    { intros f pushed T. unfold task_ok in *. cbn. destruct (s_task s) as [| |m next|]; [exact T|exact T| |].
      - destruct T as (G & R & EQ). split; [exact G|]. split; [exact R|]. rewrite news_grow by lia. exact EQ.
      - destruct T as (next & R & EQ). exists next. split; [exact R|]. rewrite news_grow by lia. exact EQ. }
    unfold phase_ok in *. cbn [s_phase s_chain s_sent s_queue s_task] in *. rewrite app_length; cbn [length].
    destruct (s_phase s) as [c|c|c|c m| |].
    - destruct P as (R & EQ & R2). split; [lia|]. split; [rewrite news_grow by lia; exact EQ|exact R2].
    - destruct P as (R & EQ & R2). split; [lia|]. split; [rewrite news_grow by lia; exact EQ|exact R2].
    - destruct P as (R & EQ & f & NS & TO). split; [lia|]. split; [rewrite news_grow by lia; exact EQ|]. exists f. split; [exact NS|apply T; exact TO].
    - destruct P as (R & EQ & f & NS & NS2 & TO). split; [lia|]. split; [rewrite news_grow by lia; exact EQ|]. exists f. do 2 (split; [assumption|]). apply T; exact TO.
    - destruct P as (a & b' & pushed & R & AB & NS & TO & EQ). exists a, b', pushed. split; [lia|]. do 2 (split; [assumption|]). split; [apply T; exact TO|].
      rewrite news_grow by lia. exact EQ.
    - destruct P as (a & b' & c & rest & R & AB & BC & EQ & G). exists a, b', c, rest. do 3 (split; [lia|]). rewrite !news_grow by lia. split; [exact EQ|exact G].
  Qed.

  Lemma ok_announce s : ok s -> s_announced s < length (s_chain s) ->
    ok (mkSub (s_chain s) (s_earliest s) (s_announced s + 1) (s_task s) (s_queue s) (s_phase s) (s_sent s)).
  Proof.
    intros [A E P] EA. constructor; cbn; [lia|exact E|].
    assert (T : forall f pushed, task_ok s f pushed ->
                task_ok (mkSub (s_chain s) (s_earliest s) (s_announced s + 1) (s_task s) (s_queue s) (s_phase s) (s_sent s)) f pushed).
    { intros f pushed T. unfold task_ok in *. cbn. destruct (s_task s) as [| |m next|]; [exact T|exact T| |].
      - destruct T as (G & R & EQ). split; [exact G|]. split; [lia|exact EQ].
      - destruct T as (next & R & EQ). exists next. split; [lia|exact EQ]. }
    unfold phase_ok in *. cbn [s_phase s_chain s_sent s_queue s_task] in *.
    destruct (s_phase s) as [c|c|c|c m| |]; try exact P.
    - destruct P as (R & EQ & f & NS & TO). split; [lia|]. split; [exact EQ|]. exists f. split; [exact NS|apply T; exact TO].
    - destruct P as (R & EQ & f & NS & NS2 & TO). split; [lia|]. split; [exact EQ|]. exists f. do 2 (split; [assumption|]). apply T; exact TO.
    - destruct P as (a & b' & pushed & R & AB & NS & TO & EQ). exists a, b', pushed. split; [lia|]. do 2 (split; [assumption|]). split; [apply T; exact TO|]. exact EQ.
  Qed.

  (* the task pushes new messages *)
  Lemma ok_push s t new :
    (s_task s <> NotSpawned) -> (s_task s <> Spawned) -> t <> Spawned ->
    (task_good s -> task_good (set_task s t new)) ->
    (forall f pushed, task_ok s f pushed -> task_ok (set_task s t new) f (pushed ++ seen new)) ->
    ok s -> ok (set_task s t new).
  Proof.
    intros NN NS NT TG T [A E P]. constructor; [exact A|exact E|].
    unfold phase_ok in *. cbn [s_phase s_chain s_sent s_queue s_task set_task] in *.
    destruct (s_phase s) as [c|c|c|c m| |].
    - destruct P as (_ & _ & X & _). congruence.
    - destruct P as (_ & _ & X & _). congruence.
    - destruct P as (R & EQ & f & NS' & TO). split; [lia|]. split; [exact EQ|]. exists f. split; [intros _; apply NS'; exact NS|].
      rewrite seen_app. apply T. exact TO.
    - destruct P as (R & EQ & f & CF & NS2 & TO). split; [lia|]. split; [exact EQ|]. exists f. split; [exact CF|]. split; [exact NT|].
      rewrite app_comm_cons. unfold SubscribeSpec.seen at 1. rewrite map_app. apply T. exact TO.
    - destruct P as (a & b' & pushed & R & AB & NS2 & TO & EQ). exists a, b', (pushed ++ seen new). split; [lia|]. split; [exact AB|]. split; [exact NT|].
      split; [apply T; exact TO|]. rewrite app_assoc, seen_app, EQ, app_assoc. reflexivity.
    - destruct P as (a & b' & c & rest & R & AB & BC & EQ & G). exists a, b', c, rest. do 4 (split; [assumption|]). apply TG. exact G.
  Qed.

  Lemma ok_step s l : no_pruning l -> ok s -> ok (step F s l).
  Proof.
    intros NP K. destruct l; cbn [step].
    - destruct (s_announced s =? length (s_chain s)) eqn:EA; [|exact K]. apply ok_commit; [exact K|lia].
    - destruct (s_announced s <? length (s_chain s)) eqn:EA; [|exact K]. apply ok_announce; [exact K|lia].
    - contradiction.
    - destruct (s_phase s) as [c|c|c|c m| |] eqn:EP; try exact K.
      destruct K as [A E P]. unfold phase_ok in P. rewrite EP in P. destruct P as (R & EQ & T & Q).
      unfold catch_up_batch. rewrite E. destruct (Nat.lt_ge_cases c (length (s_chain s))) as [L|L].
      + destruct (catch_up (s_chain s) c (c + f_batch F - 1) L ltac:(lia)) as (messages & -> & EM).
        set (last := Nat.min (c + f_batch F - 1) (length (s_chain s) - 1)) in *.
        assert (RL : c <= last < length (s_chain s)) by (unfold last; lia).
        assert (X : phase_ok (set_phase (send s messages) (CatchingUp (last + 1)))).
        { unfold phase_ok. cbn. split; [lia|]. split; [|split; assumption]. rewrite seen_app, EQ, EM. symmetry. apply news_split; lia. }
        destruct (last <? c + f_batch F - 1); (constructor; [exact A|exact E|exact X]).
      + rewrite nothing by lia. constructor; [exact A|exact E|]. unfold phase_ok. cbn. split; [lia|]. split; [exact EQ|split; assumption].
    - destruct (s_phase s) as [c|c|c|c m| |] eqn:EP; try exact K.
      destruct K as [A E P]. unfold phase_ok in P. rewrite EP in P. destruct P as (R & EQ & T & Q).
      constructor; [exact A|exact E|]. unfold phase_ok. cbn. split; [exact R|]. split; [exact EQ|]. exists 0. split; [congruence|].
      unfold task_ok. cbn. rewrite Q. reflexivity.
    - destruct (s_task s) as [| |m next|] eqn:ET; try exact K.
      destruct K as [A E P]. constructor; [exact A|exact E|]. unfold phase_ok in *. cbn [s_phase s_chain s_sent s_queue s_task set_task] in *. rewrite ET in P.
      destruct (s_phase s) as [c|c|c|c m| |].
      + destruct P as (_ & _ & X & _). discriminate.
      + destruct P as (_ & _ & X & _). discriminate.
      + destruct P as (R & EQ & f & NS & TO). split; [exact R|]. split; [exact EQ|]. exists (s_announced s). split; [intros _; lia|].
        unfold task_ok in *. cbn. rewrite ET in TO. rewrite app_nil_r. split; [exact good_start|]. split; [lia|]. rewrite news_nil by lia. exact TO.
      + destruct P as (_ & _ & f & _ & X & _). congruence.
      + destruct P as (a & b' & pushed & _ & _ & X & _). congruence.
      + destruct P as (a & b' & c & rest & R & AB & BC & EQ & G). exists a, b', c, rest. do 4 (split; [assumption|]). exact good_start.
    - destruct (s_task s) as [| |m next|] eqn:ET; try exact K. destruct (next <? s_announced s) eqn:EL; [|exact K].
      destruct (nth_error (s_chain s) next) as [b|] eqn:EB; [|exact K].
      destruct (f_on_block F m next b) as [m' new] eqn:EF.
      apply ok_push; rewrite ?ET; try congruence.
      { unfold task_good. rewrite ET. cbn. intros G. pose proof (proj1 (good_block m next b G)) as X. rewrite EF in X. exact X. }
      intros f pushed TO. unfold task_ok in *. rewrite ET in TO. cbn. destruct TO as (G & R & EQ).
      destruct (good_block m next b G) as [G' EN]. rewrite EF in G', EN. cbn [fst snd] in G', EN. split; [exact G'|]. split; [lia|].
      rewrite (news_split live _ f next (next + 1)) by lia. rewrite (news_one live _ next b EB), EQ, EN. reflexivity.
    - destruct (s_task s) as [| |m next|] eqn:ET; try exact K.
      destruct (f_on_pending F m p) as [m' new] eqn:EF.
      apply ok_push; rewrite ?ET; try congruence.
      { unfold task_good. rewrite ET. cbn. intros G. pose proof (proj1 (good_pending m p G)) as X. rewrite EF in X. exact X. }
      intros f pushed TO. unfold task_ok in *. rewrite ET in TO. cbn. destruct TO as (G & R & EQ).
      destruct (good_pending m p G) as [G' EN]. rewrite EF in G', EN. cbn [fst snd] in G', EN. split; [exact G'|]. split; [lia|]. rewrite EN. cbn. rewrite app_nil_r. exact EQ.
    - destruct (s_task s) as [| |m next|] eqn:ET; try exact K.
      apply ok_push; rewrite ?ET; try congruence; [intros _; exact I|].
      intros f pushed TO. unfold task_ok in *. rewrite ET in TO. cbn. destruct TO as (G & R & EQ).
      exists next. split; [lia|]. rewrite app_nil_r. exact EQ.
    - destruct (s_phase s) as [c|c|c|c m| |] eqn:EP; try exact K.
      destruct (s_queue s) as [|m q] eqn:EQU.
      + destruct (s_task s) eqn:ET; try exact K. apply ok_closed. exact K.
      + destruct K as [A E P]. unfold phase_ok in P. rewrite EP in P. destruct P as (R & EQ & f & NS & TO).
        constructor; [exact A|exact E|]. unfold phase_ok. cbn. split; [exact R|]. split; [exact EQ|]. exists f.
        assert (ND : s_task s <> Spawned). { intros ET. unfold task_ok in TO. rewrite ET, EQU in TO. discriminate. }
        split; [apply NS; exact ND|]. split; [exact ND|]. rewrite EQU in TO. exact TO.
    - destruct (s_phase s) as [c|c|c|c m| |] eqn:EP; try exact K. pose proof (ok_closed s K) as KC.
      destruct K as [A E P]. unfold phase_ok in P. rewrite EP in P. destruct P as (R & EQ & f & CF & NS & TO).
      unfold SubscribeSpec.seen; cbn [map] in TO. destruct (task_head s f _ _ TO) as (RM & E1 & T2). cbn [fst] in RM, E1, T2.
      assert (X : forall extra, seen extra = news (s_chain s) c (fst m) -> start <= fst m -> c <= fst m ->
                ok (set_phase (send (send s extra) [m]) Forwarding)).
      { intros extra EX SM CM. constructor; [exact A|exact E|]. unfold phase_ok. cbn. exists (fst m), (fst m), ((fst m, view (snd m)) :: seen (s_queue s)).
        split; [lia|]. split; [left; reflexivity|]. split; [exact NS|]. split; [exact T2|].
        rewrite !seen_app, EQ, EX. unfold SubscribeSpec.seen; cbn [map]. rewrite <- (news_split live _ start c (fst m)) by lia. rewrite <- app_assoc. reflexivity. }
      assert (Y : fst m < c -> ok (set_phase (send s [m]) Forwarding)).
      { intros L. constructor; [exact A|exact E|]. unfold phase_ok. cbn. exists c, (fst m), ((fst m, view (snd m)) :: seen (s_queue s)).
        split; [lia|]. split; [right; lia|]. split; [exact NS|]. split; [exact T2|].
        rewrite !seen_app, EQ. unfold SubscribeSpec.seen; cbn [map]. rewrite <- app_assoc. reflexivity. }
      assert (Z : c = fst m -> ok (set_phase (send s [m]) Forwarding)).
      { intros L. specialize (X [] ltac:(rewrite news_nil by lia; reflexivity) ltac:(lia) ltac:(lia)).
        replace (send s [m]) with (send (send s []) [m]); [exact X|]. unfold send. cbn. rewrite app_nil_r. reflexivity. }
      unfold catch_up_to_first. destruct (fst m) as [|last] eqn:EM.
      + destruct (Nat.eq_dec c 0) as [->|N0]; [apply Z; reflexivity|apply Y; lia].
      + destruct (c <=? last) eqn:CL.
        * rewrite E. destruct (catch_up (s_chain s) c last ltac:(lia) ltac:(lia)) as (messages & -> & EMS).
          apply X; [|lia|lia]. rewrite EMS. f_equal. lia.
        * destruct (Nat.eq_dec c (S last)) as [->|N0]; [apply Z; reflexivity|apply Y; lia].
    - destruct (s_phase s) as [c|c|c|c m| |] eqn:EP; try exact K.
      destruct (s_queue s) as [|m q] eqn:EQU.
      + destruct (s_task s) eqn:ET; try exact K. apply ok_closed. exact K.
      + destruct K as [A E P]. unfold phase_ok in P. rewrite EP in P. destruct P as (a & b' & pushed & R & AB & NS & TO & EQ).
        constructor; [exact A|exact E|]. unfold phase_ok. cbn. rewrite EP. exists a, b', pushed. do 3 (split; [assumption|]). split; [exact TO|].
        rewrite <- app_assoc. cbn [app]. rewrite <- EQU. exact EQ.
    - apply ok_closed. exact K.
  Qed.

  Lemma ok_run s ls : Forall no_pruning ls -> ok s -> ok (run F s ls).
  Proof.
    revert s. induction ls as [|l ls IH]; intros s NP K; [exact K|]. inversion NP; subst. cbn [run fold_left]. apply IH; [assumption|]. apply ok_step; assumption.
  Qed.

  Lemma ok_start chain announced : start <= length chain -> announced <= length chain <= announced + 1 -> ok (subscribed chain announced start).
  Proof.
    intros L A. constructor; [exact A|reflexivity|]. unfold phase_ok. cbn. split; [lia|]. split; [rewrite news_nil by lia; reflexivity|]. split; reflexivity.
  Qed.

  Lemma idle_state s : ok s -> open s -> idle F s ->
    (exists c first, s_phase s = AwaitingFirst c /\ seen (s_sent s) = news (s_chain s) start c /\ c <= first + 1 /\ first <= s_announced s /\ news (s_chain s) first (s_announced s) = []) \/
    (exists a b, start <= a <= length (s_chain s) /\ (b = a \/ b + 1 = a) /\ b <= s_announced s /\ seen (s_sent s) = news (s_chain s) start a ++ news (s_chain s) b (s_announced s)).
  Proof.
    intros [A E P] [O1 O2] I. unfold phase_ok in P.
    assert (TR : forall f pushed, s_phase s <> Closed -> task_ok s f pushed -> s_task s <> Spawned /\ f <= s_announced s /\ pushed = news (s_chain s) f (s_announced s)).
    { intros f pushed _ TO. unfold task_ok in TO. destruct (s_task s) as [| |m next|] eqn:ET; [contradiction| | |contradiction].
      - exfalso. specialize (I TaskSubscribe Coq.Init.Logic.I). cbn [step] in I. rewrite ET in I. apply (f_equal s_task) in I. cbn in I. congruence.
      - split; [congruence|]. destruct TO as (G & R & EQ). destruct (Nat.eq_dec next (s_announced s)) as [->|NE]; [split; [lia|exact EQ]|].
        exfalso. specialize (I TaskBlock Coq.Init.Logic.I). cbn [step] in I. rewrite ET in I.
        destruct (next <? s_announced s) eqn:EL; [|lia]. destruct (nth_error (s_chain s) next) as [b|] eqn:EB.
        + destruct (f_on_block F m next b) as [m' new]. apply (f_equal s_task) in I. cbn in I. rewrite ET in I. injection I as _ I. lia.
        + apply nth_error_None in EB. lia. }
    destruct (s_phase s) as [c|c|c|c m| |] eqn:EP.
    - exfalso. specialize (I CatchUpBatch Coq.Init.Logic.I). cbn [step] in I. rewrite EP in I. unfold catch_up_batch in I. rewrite E in I.
      destruct P as (R & EQ & T & Q). destruct (Nat.lt_ge_cases c (length (s_chain s))) as [L|L].
      + destruct (catch_up (s_chain s) c (c + f_batch F - 1) L ltac:(lia)) as (messages & EC & EM). rewrite EC in I.
        destruct (Nat.min (c + f_batch F - 1) (length (s_chain s) - 1) <? c + f_batch F - 1); apply (f_equal s_phase) in I; cbn in I; rewrite EP in I; [discriminate|].
        injection I as I. lia.
      + rewrite nothing in I by lia. apply (f_equal s_phase) in I. cbn in I. congruence.
    - exfalso. specialize (I Spawn Coq.Init.Logic.I). cbn [step] in I. rewrite EP in I. apply (f_equal s_phase) in I. cbn in I. congruence.
    - destruct P as (R & EQ & f & NS & TO).
      assert (Q : s_queue s = []).
      { destruct (s_queue s) as [|m q] eqn:EQU; [reflexivity|]. exfalso. specialize (I FirstMessage Coq.Init.Logic.I). cbn [step] in I. rewrite EP, EQU in I.
        apply (f_equal s_phase) in I. cbn in I. congruence. }
      destruct (TR f _ ltac:(discriminate) TO) as (ND & FA & EN). left. exists c, f. split; [reflexivity|]. split; [exact EQ|]. split; [apply NS; exact ND|].
      split; [exact FA|]. rewrite <- EN, Q. reflexivity.
    - exfalso. specialize (I CatchUpToFirst Coq.Init.Logic.I). cbn [step] in I. rewrite EP in I. apply (f_equal s_phase) in I. rewrite EP in I. revert I.
      unfold catch_up_to_first. rewrite E. destruct (fst m) as [|last]; [cbn; discriminate|]. destruct (c <=? last); [|cbn; discriminate].
      destruct (f_catch_up F (s_chain s) 0 c last) as [[ms o]|]; cbn; discriminate.
    - destruct P as (a & b & pushed & R & AB & NS & TO & EQ). destruct (TR b _ ltac:(discriminate) TO) as (_ & BA & ->).
      assert (Q : s_queue s = []).
      { destruct (s_queue s) as [|m q] eqn:EQU; [reflexivity|]. exfalso. specialize (I Forward Coq.Init.Logic.I). cbn [step] in I. rewrite EP, EQU in I.
        apply (f_equal s_queue) in I. cbn in I. rewrite EQU in I. apply (f_equal (@length _)) in I. cbn in I. lia. }
      right. exists a, b. split; [lia|]. split; [exact AB|]. split; [exact BA|]. rewrite Q, app_nil_r in EQ. exact EQ.
    - congruence.
  Qed.

  (* progress *)
  Definition work (s : sub block memory note) : nat :=
    match s_phase s with
    | CatchingUp c => 8 + (length (s_chain s) - c)
    | Subscribing c => 7
    | AwaitingFirst _ => 2
    | CatchingUpToFirst _ _ => 2
    | Forwarding => 1
    | Closed => 0
    end +
    match s_task s with
    | NotSpawned => 2
    | Spawned => 1
    | Running _ next => (s_announced s - next) + length (news (s_chain s) next (s_announced s))
    | Returned => 0
    end + length (s_queue s).

  Lemma work_step s l : ok s -> own_step l -> step F s l <> s -> work (step F s l) < work s.
  Proof.
    intros K OW NE. pose proof K as K0. destruct K as [A E P]. unfold phase_ok in P. destruct l; try contradiction; cbn [step] in *.
    - destruct (s_phase s) as [c|c|c|c m| |] eqn:EP; try congruence. unfold catch_up_batch in *. rewrite E in *.
      destruct (Nat.lt_ge_cases c (length (s_chain s))) as [L|L].
      + destruct (catch_up (s_chain s) c (c + f_batch F - 1) L ltac:(lia)) as (messages & EC & EM). rewrite EC in *.
        destruct (Nat.min (c + f_batch F - 1) (length (s_chain s) - 1) <? c + f_batch F - 1); unfold work; cbn; rewrite EP; lia.
      + rewrite nothing by lia. unfold work. cbn. rewrite EP. lia.
    - destruct (s_phase s) as [c|c|c|c m| |] eqn:EP; try congruence. destruct P as (_ & _ & ET & EQ). unfold work. cbn. rewrite EP, ET, EQ. cbn. lia.
    - destruct (s_task s) as [| |m next|] eqn:ET; try congruence. unfold work. cbn. rewrite ET, news_nil, app_nil_r by lia. cbn. lia.
    - destruct (s_task s) as [| |m next|] eqn:ET; try congruence. destruct (next <? s_announced s) eqn:EL; [|congruence].
      destruct (nth_error (s_chain s) next) as [b|] eqn:EB; [|congruence].
      assert (G : good m).
      { pose proof (ok_good s K0) as G. unfold task_good in G. rewrite ET in G. exact G. }
      destruct (good_block m next b G) as [_ EN]. destruct (f_on_block F m next b) as [m' new] eqn:EF. cbn [snd] in EN.
      apply (f_equal (@length _)) in EN. unfold SubscribeSpec.seen in EN. rewrite !map_length in EN.
      unfold work. cbn. rewrite ET. rewrite (news_split live _ next (next + 1) (s_announced s)) by lia. rewrite (news_one live _ next b EB).
      rewrite !app_length, map_length. unfold message in *. lia.
    - destruct (s_phase s) as [c|c|c|c m| |] eqn:EP; try congruence. destruct (s_queue s) as [|m q] eqn:EQU.
      + destruct (s_task s) eqn:ET; try congruence. unfold work. cbn. rewrite EP, ET, EQU. cbn. lia.
      + unfold work. cbn. rewrite EP, EQU. cbn [length]. lia.
    - destruct (s_phase s) as [c|c|c|c m| |] eqn:EP; try congruence. unfold catch_up_to_first. rewrite E.
      assert (X : forall ms p, p = Forwarding \/ p = Closed -> work (set_phase (send s ms) p) < work s).
      { intros ms p [-> | ->]; unfold work; cbn; rewrite EP; lia. }
      assert (X2 : work (set_phase s Closed) < work s) by (unfold work; cbn; rewrite EP; lia).
      destruct (fst m) as [|last]; [apply X; auto|]. destruct (c <=? last); [|apply X; auto].
      destruct (f_catch_up F (s_chain s) 0 c last) as [[ms o]|]; [|exact X2].
      replace (send (send s ms) [m]) with (send s (ms ++ [m])) by (unfold send; cbn; rewrite app_assoc; reflexivity). apply X. auto.
    - destruct (s_phase s) as [c|c|c|c m| |] eqn:EP; try congruence. destruct (s_queue s) as [|m q] eqn:EQU.
      + destruct (s_task s) eqn:ET; try congruence. unfold work. cbn. rewrite EP, ET, EQU. cbn. lia.
      + unfold work. cbn. rewrite EP, EQU. cbn [length]. lia.
  Qed.
End Run.

(* ---- block headers ---- *)

Lemma flat_map_none {X Y} (f : X -> list Y) l : (forall x, In x l -> f x = []) -> flat_map f l = [].
Proof. induction l as [|x l IH]; intros H; [reflexivity|]. cbn [flat_map]. rewrite (H x (or_introl eq_refl)), IH; [reflexivity|]. intros y I. apply H. right. exact I. Qed.

Lemma combine_seq {X} (l : list X) : forall k, combine (seq k (length l)) l =
  flat_map (fun n => match nth_error l (n - k) with Some b => [(n, b)] | None => [] end) (seq k (length l)).
Proof.
  induction l as [|x l IH]; intros k; [reflexivity|]. cbn [length seq combine flat_map]. replace (k - k) with 0 by lia. cbn [nth_error app]. f_equal.
  rewrite IH, !flat_map_concat_map. f_equal. apply map_ext_in. intros n I. apply in_seq in I. replace (n - k) with (S (n - S k)) by lia. reflexivity.
Qed.

Lemma block_range_news {block} (chain : list block) from to :
  block_range chain 0 from to = news (fun _ b => [b]) chain from (Nat.min (to + 1) (length chain)).
Proof.
  unfold block_range. rewrite combine_seq, filter_flat_map.
  set (g := fun n : nat => filter _ _).
  assert (G : forall n, n < from \/ to < n -> g n = []).
  { intros n H. unfold g. destruct (nth_error chain (n - 0)); [|reflexivity]. cbn [filter fst]. destruct ((0 <=? n) && (from <=? n) && (n <=? to)) eqn:EC; [lia|reflexivity]. }
  assert (G2 : forall n, from <= n <= to -> g n = match nth_error chain n with Some b => map (pair n) [b] | None => [] end).
  { intros n H. unfold g. replace (n - 0) with n by lia. destruct (nth_error chain n); [|reflexivity]. cbn [filter fst]. replace ((0 <=? n) && (from <=? n) && (n <=? to)) with true by lia. reflexivity. }
  unfold news. destruct (Nat.le_gt_cases (Nat.min (to + 1) (length chain)) from) as [L|L].
  - replace (Nat.min (to + 1) (length chain) - from) with 0 by lia. cbn [seq flat_map]. apply flat_map_none. intros n I. apply in_seq in I. apply G. lia.
  - set (m := Nat.min (to + 1) (length chain)) in *.
    replace (length chain) with (from + ((m - from) + (length chain - m))) by lia. rewrite !seq_app, !flat_map_app.
    rewrite (flat_map_none g (seq 0 from)) by (intros n I; apply in_seq in I; apply G; lia). cbn [app].
    rewrite (flat_map_none g (seq (0 + from + (m - from)) _)) by (intros n I; apply in_seq in I; apply G; lia). rewrite app_nil_r. cbn [plus].
    rewrite !flat_map_concat_map. f_equal. apply map_ext_in. intros n I. apply in_seq in I. apply G2. lia.
Qed.

Lemma new_heads_shows block : shows (new_heads block) (fun b => b) (fun _ b => [b]).
Proof.
  assert (SI : forall l : list (nat * block), seen (fun b : block => b) l = l).
  { intros l. unfold seen. rewrite <- (map_id l) at 2. apply map_ext. intros []. reflexivity. }
  constructor.
  - cbn. lia.
  - intros chain from to L LE. cbn [f_catch_up new_heads]. rewrite block_range_news.
    replace (Nat.min (to + 1) (length chain)) with (Nat.min to (length chain - 1) + 1) by lia. set (last := Nat.min to (length chain - 1)).
    assert (EL : exists b, nth_error chain last = Some b). { destruct (nth_error chain last) as [b|] eqn:E; [eauto|]. apply nth_error_None in E. lia. }
    destruct EL as [b EL]. eexists. split; [|apply SI].
    rewrite (news_split _ chain from last (last + 1)) at 2 by lia. rewrite (news_one _ chain last b EL). cbn [map]. rewrite rev_app_distr. reflexivity.
  - intros chain from to L. cbn [f_catch_up new_heads]. rewrite block_range_news, news_nil by lia. reflexivity.
  - exists (fun _ => True). cbn. auto.
Qed.

(* ---- events ---- *)

Definition unsent (m : memory) : Prop := forall n tx, sent_before (memory_get m n) tx AcceptedOnL2 = false.
Lemma unsent_nil : unsent [].
Proof. intros n tx. reflexivity. Qed.
Lemma memory_get_remove m n k : memory_get (memory_remove m n) k = if k =? n then [] else memory_get m k.
Proof.
  induction m as [|[j u] m IH]; [cbn; destruct (k =? n); reflexivity|]. cbn [memory_remove filter fst memory_get].
  destruct (j =? n) eqn:E; cbn [negb].
  - fold (memory_remove m n). rewrite IH. destruct (k =? n) eqn:E2; [reflexivity|]. destruct (j =? k) eqn:E3; [lia|reflexivity].
  - cbn [memory_get]. fold (memory_remove m n). rewrite IH. destruct (j =? k) eqn:E3; [|reflexivity]. destruct (k =? n) eqn:E2; [lia|reflexivity].
Qed.
Lemma unsent_remove m n : unsent m -> unsent (memory_remove m n).
Proof. intros U k tx. rewrite memory_get_remove. destruct (k =? n); [reflexivity|apply U]. Qed.
Lemma unsent_set m n u : unsent m -> (forall tx, sent_before u tx AcceptedOnL2 = false) -> unsent (memory_set m n u).
Proof. intros U H k tx. unfold memory_set. cbn [memory_get]. destruct (n =? k); [apply H|apply unsent_remove; exact U]. Qed.
Lemma send_event_updates_unsent p n txs : forall sent, (forall tx, sent_before sent tx AcceptedOnL2 = false) ->
  forall tx, sent_before (fst (send_event_updates p n AtPreConfirmed txs sent)) tx AcceptedOnL2 = false.
Proof.
  induction txs as [|x txs IH]; intros sent H tx; [apply H|]. cbn [send_event_updates]. destruct (sent_before sent (fst (fst x)) AtPreConfirmed); [apply IH; exact H|].
  specialize (IH ((fst (fst x), AtPreConfirmed) :: sent)). destruct (send_event_updates p n AtPreConfirmed txs _) as [s' r]. cbn [fst] in *. apply IH.
  intros t. unfold sent_before. cbn [existsb fst snd finality_eqb]. rewrite andb_false_r. cbn [orb]. apply H.
Qed.
Lemma on_pending_unsent p m d : unsent m -> unsent (fst (on_pending p m d)).
Proof.
  intros U. unfold on_pending. destruct (negb (pre_confirmed_too p)); [exact U|].
  pose proof (send_event_updates_unsent p (N.to_nat (pb_number (pd_pre_confirmed d))) (pb_txs (pd_pre_confirmed d)) (memory_get m (N.to_nat (pb_number (pd_pre_confirmed d)))) (U _)) as X.
  destruct (send_event_updates p _ AtPreConfirmed _ _) as [sent ms]. cbn [fst] in X.
  pose proof (unsent_set m (N.to_nat (pb_number (pd_pre_confirmed d))) sent U X) as U1. set (m1 := memory_set m _ sent) in *.
  destruct (pd_pre_latest d) as [l|]; [|exact U1]. destruct (negb (is_nil (memory_get m1 (N.to_nat (pb_number l))))).
  - cbn [fst]. apply unsent_set; [exact U1|apply U1].
  - pose proof (send_event_updates_unsent p (N.to_nat (pb_number l)) (pb_txs l) (memory_get m1 (N.to_nat (pb_number l))) (U1 _)) as X2.
    destruct (send_event_updates p (N.to_nat (pb_number l)) AtPreConfirmed _ _) as [sent2 ms2]. cbn [fst] in *. apply unsent_set; [exact U1|exact X2].
Qed.

Definition keys_of (p : params) : list (list N) := match p_keys p with Some keys => keys | None => [] end.

Lemma matches_wants p e : matches p e = wants (from_addresses p) (keys_of p) e.
Proof.
  unfold matches, wants, keys_of, address_match, keys_match.
  destruct (is_nil (from_addresses p)); cbn [negb andb orb].
  - destruct (p_keys p); reflexivity.
  - destruct (felt_mem (ev_from e) (from_addresses p)); cbn [negb andb]; [|reflexivity]. destruct (p_keys p); reflexivity.
Qed.
Lemma keys_of_truncate p : keys_of (truncate_params p) = truncate_keys (keys_of p).
Proof. unfold keys_of, truncate_params. cbn. destruct (p_keys p); reflexivity. Qed.

Lemma on_block_messages p m n b : unsent m ->
  snd (on_block p m n b) = map (fun e => (n, (of_stored e, AcceptedOnL2))) (block_matches (from_addresses p) (keys_of p) (N.of_nat n) b).
Proof.
  intros U. unfold on_block, block_matches. cbn [snd]. rewrite !flat_map_concat_map, concat_map, map_map. f_equal. apply map_ext. intros tx.
  rewrite U. unfold tx_messages. rewrite map_map, filter_filter. cbn [of_stored e_event e_block_hash e_block_number e_tx e_index].
  erewrite filter_ext; [reflexivity|]. intros ie. apply matches_wants.
Qed.

Section EventsFlow.
  Variables bloom_bytes range_bytes : nat.
  Variables sip0 sip1 : N -> N.
  Hypothesis bloom_pos : 0 < bloom_bytes.
  Hypothesis range_pos : 0 < range_bytes.

  Lemma inserts_chain l : forall chain, fold_left chain_step (map Insert l) chain = chain ++ l.
  Proof.
    induction l as [|b l IH]; intros chain; cbn [map fold_left chain_step]; [rewrite app_nil_r; reflexivity|]. rewrite IH, <- app_assoc. reflexivity.
  Qed.
  Lemma inserts_orderly l : forall chain, orderly chain false (map Insert l).
  Proof. induction l as [|b l IH]; intros chain; cbn [map orderly]; [exact I|]. split; [discriminate|apply IH]. Qed.

  Lemma emitted_news f chain from to :
    map (fun e => (N.to_nat (e_block_number e), of_stored e)) (filter (fun e => f (e_event e)) (emitted_in chain from (to - from))) =
    news (matching_events f) chain from to.
  Proof.
    unfold emitted_in, news. rewrite filter_flat_map, !flat_map_concat_map, concat_map, map_map. f_equal. apply map_ext. intros n.
    destruct (nth_error chain n) as [b|]; [|reflexivity]. unfold matching_events. rewrite map_map. apply map_ext_in. intros e I.
    apply filter_In in I. destruct I as [I _]. apply emitted_at_block in I. destruct I as [-> _]. rewrite Nat2N.id. reflexivity.
  Qed.

  Lemma catch_up_shows p l1 K s f from to :
    synced bloom_bytes range_bytes sip0 sip1 K s -> length (keys_of p) <= 16 ->
    (forall e, f e = wants (from_addresses p) (truncate_keys (keys_of p)) e) ->
    let chain := d_blocks (s_db s) in
    let last := Nat.min to (length chain - 1) in
    from < length chain -> from <= to ->
    seen fst (fst (catch_up_events bloom_bytes range_bytes sip0 sip1 p l1 s from to)) = news (matching_events f) chain from (last + 1) /\
    snd (catch_up_events bloom_bytes range_bytes sip0 sip1 p l1 s from to) = Some last.
  Proof.
    intros SY LK HF chain last L LE. unfold catch_up_events.
    change (match p_keys p with Some keys => keys | None => [] end) with (keys_of p).
    rewrite (events_in_range_ok bloom_bytes range_bytes sip0 sip1 bloom_pos range_pos K s (N.of_nat from) (N.of_nat to) (from_addresses p) (keys_of p) SY LK)
      by (unfold height; fold chain; lia).
    rewrite M_expected. cbn [fst snd]. unfold height. fold chain. split; [|f_equal; unfold last; lia].
    unfold seen. rewrite map_map. cbn [fst snd]. unfold emitted_between.
    replace (N.to_nat (N.min (N.of_nat to) (N.of_nat (length chain) - 1) + 1)) with (last + 1) by (unfold last; lia). rewrite Nat2N.id.
    rewrite <- emitted_news. f_equal. apply filter_ext. intros e. rewrite HF. reflexivity.
  Qed.

  Lemma catch_up_none p l1 s from to : length (d_blocks (s_db s)) <= from ->
    catch_up_events bloom_bytes range_bytes sip0 sip1 p l1 s from to = ([], None).
  Proof.
    intros L. unfold catch_up_events, events_in_range, height. destruct (N.of_nat (length (d_blocks (s_db s))) =? 0)%N eqn:E; [reflexivity|].
    destruct (N.of_nat (length (d_blocks (s_db s))) - 1 <? N.of_nat from)%N eqn:E2; [reflexivity|]. lia.
  Qed.

  Lemma on_block_shows p f m n b : unsent m -> (forall e, f e = wants (from_addresses p) (truncate_keys (keys_of p)) e) ->
    snd (on_block (truncate_params p) m n b) = map (fun a => (n, (a, AcceptedOnL2))) (matching_events f n b).
  Proof.
    intros U HF. rewrite on_block_messages by exact U. rewrite keys_of_truncate, block_matches_spec. unfold matching_events. rewrite map_map.
    cbn [truncate_params from_addresses]. f_equal. apply filter_ext. intros e. rewrite HF. reflexivity.
  Qed.

  Definition storage (chain : list block) : option state := node bloom_bytes range_bytes sip0 sip1 (map Insert chain).

  Lemma events_shows p f l1 : length (keys_of p) <= 16 -> pre_confirmed_too p = false ->
    (forall e, f e = wants (from_addresses p) (truncate_keys (keys_of p)) e) ->
    shows (events_flow bloom_bytes range_bytes sip0 sip1 p storage l1) fst (matching_events f).
  Proof.
    intros LK PC HF.
    assert (ST : forall chain, exists K s, storage chain = Some s /\ synced bloom_bytes range_bytes sip0 sip1 K s /\ d_blocks (s_db s) = chain).
    { intros chain. destruct (node_ok bloom_bytes range_bytes sip0 sip1 bloom_pos range_pos (map Insert chain) (inserts_orderly chain [])) as (s & K & E & SY & EB).
      exists K, s. split; [exact E|]. split; [exact SY|]. rewrite EB. unfold chain_of. rewrite inserts_chain. reflexivity. }
    constructor.
    - cbn. unfold range_len. lia.
    - intros chain from to L LE. destruct (ST chain) as (K & s & ES & SY & EB). cbn [f_catch_up events_flow].
      replace (from <? 0) with false by lia. rewrite ES.
      pose proof (catch_up_shows p (l1 chain) K s f from to SY LK HF) as X. cbv zeta in X. rewrite EB in X. destruct (X L LE) as [E1 E2].
      destruct (catch_up_events bloom_bytes range_bytes sip0 sip1 p (l1 chain) s from to) as [ms o]. cbn [fst snd] in E1, E2. subst o.
      exists ms. split; [reflexivity|exact E1].
    - intros chain from to L. destruct (ST chain) as (K & s & ES & SY & EB). cbn [f_catch_up events_flow].
      replace (from <? 0) with false by lia. rewrite ES, catch_up_none by (rewrite EB; exact L). reflexivity.
    - exists unsent. split; [exact unsent_nil|]. split.
      + intros m d U. split; [apply on_pending_unsent; exact U|]. cbn. unfold on_pending. cbn [truncate_params pre_confirmed_too]. rewrite PC. reflexivity.
      + intros m n b U. cbn [f_on_block events_flow]. split; [apply unsent_remove; exact U|].
        rewrite (on_block_shows p f m n b U HF). unfold seen. rewrite map_map. reflexivity.
  Qed.
End EventsFlow.

Lemma unsent_reorg m n : unsent m -> unsent (on_reorg m n).
Proof.
  intros U k tx. unfold on_reorg.
  assert (X : memory_get (filter (fun ku : nat * updates => fst ku <? n) m) k = if k <? n then memory_get m k else []).
  { clear U. induction m as [|[j u] m IH]; [cbn [filter memory_get]; destruct (k <? n); reflexivity|]. cbn [filter fst memory_get]. destruct (j <? n) eqn:E; cbn [memory_get].
    - rewrite IH. destruct (j =? k) eqn:E2; [|reflexivity]. destruct (k <? n) eqn:E3; [reflexivity|lia].
    - rewrite IH. destruct (j =? k) eqn:E2; [|reflexivity]. destruct (k <? n) eqn:E3; [lia|reflexivity]. }
  rewrite X. destruct (k <? n); [apply U|reflexivity].
Qed.
Lemma remembers_unsent p m : remembers p m -> unsent m.
Proof.
  induction 1; [exact unsent_nil|apply on_pending_unsent; assumption|apply unsent_remove; assumption|apply unsent_reorg; assumption].
Qed.
