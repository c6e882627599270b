From Coq Require Import List NArith PeanoNat Bool Lia ZifyBool ZifyN ZifyNat.
From Verif Require Import Radix VersionSpec VersionProof BloomModel EventModel EventSpec EventProof GetEventsModel GetEventsSpec.
Import ListNotations.
Local Open Scope N_scope.

(* ---- tokens as text ---- *)

Lemma uint_digits_ok : forall s acc n, acc < 2 ^ 64 ->
  (uint_digits s acc = Some n <->
   exists ds, map (fun d => 48 + d) ds = s /\ digits_lt 10 ds /\
     n = acc * 10 ^ N.of_nat (length ds) + rval 10 ds /\ n < 2 ^ 64).
Proof.
  induction s as [|c s IH]; intros acc n A; cbn [uint_digits].
  - split.
    + intros H. injection H as <-. exists []. cbn [map length N.of_nat]. rewrite N.pow_0_r, N.mul_1_r, rval_nil, N.add_0_r.
      repeat split; auto. constructor.
    + intros (ds & M & _ & -> & _). destruct ds; [|discriminate]. f_equal. cbn [length N.of_nat].
      rewrite N.pow_0_r, rval_nil. lia.
  - split.
    + destruct ((48 <=? c) && (c <=? 57)) eqn:R; [|discriminate].
      destruct (N.ltb_spec (acc * 10 + (c - 48)) (2 ^ 64)) as [B|B]; [|discriminate].
      intros H. apply IH in H; auto. destruct H as (ds & <- & D & -> & L).
      exists (c - 48 :: ds). cbn [map length]. split; [f_equal; lia|].
      split; [constructor; [lia|auto]|]. split; [|exact L].
      rewrite rval_cons. replace (N.of_nat (S (length ds))) with (N.succ (N.of_nat (length ds))) by lia.
      rewrite N.pow_succ_r'. lia.
    + intros (ds & M & D & E & L). destruct ds as [|d ds]; [discriminate|].
      cbn [map] in M.
      assert (EC : 48 + d = c) by exact (f_equal (hd 0) M).
      assert (ET : map (fun d : N => 48 + d) ds = s) by exact (f_equal (@tl N) M). clear M. subst c.
      apply Forall_cons_iff in D; destruct D as [Dd Ds].
      replace ((48 <=? 48 + d) && (48 + d <=? 57)) with true by lia.
      replace (48 + d - 48) with d by lia.
      cbn [length] in E. rewrite rval_cons in E.
      replace (N.of_nat (S (length ds))) with (N.succ (N.of_nat (length ds))) in E by lia.
      rewrite N.pow_succ_r' in E.
      assert (PW : 10 ^ N.of_nat (length ds) <> 0) by (apply N.pow_nonzero; lia).
      destruct (N.ltb_spec (acc * 10 + d) (2 ^ 64)) as [B|B].
      * apply IH; auto. exists ds. split; [exact ET|]. split; [exact Ds|]. split; [|exact L]. lia.
      * exfalso. set (W := 10 ^ N.of_nat (length ds)) in *. nia.
Qed.

Lemma uint_digits_plain : forall s n, s <> [] -> (uint_digits s 0 = Some n <-> n < 2 ^ 64 /\ plain_dec s n).
Proof.
  intros s n NE. rewrite uint_digits_ok by reflexivity. rewrite plain_dec_digits. split.
  - intros (ds & M & D & E & L). rewrite N.mul_0_l, N.add_0_l in E. split; [exact L|]. split; auto. exists ds. auto.
  - intros (L & _ & ds & M & D & E). exists ds. rewrite N.mul_0_l, N.add_0_l. repeat split; auto.
Qed.

Lemma parse_uint_spec : forall s n, parse_uint s = Some n <-> uint_text s n.
Proof.
  intros s n. unfold parse_uint, uint_text. change (text "+") with [43]. destruct s as [|c t].
  - split; [discriminate|]. intros [_ [H|(t & E & _)]]; [|discriminate]. apply plain_dec_nonempty in H. congruence.
  - destruct (N.eqb_spec c 43) as [->|NE].
    + destruct t as [|c1 t].
      * split; [discriminate|]. intros [_ [H|(t & E & H)]].
        -- pose proof (plain_dec_chars _ _ H 43 ltac:(left; reflexivity)). lia.
        -- injection E as <-. apply plain_dec_nonempty in H. congruence.
      * rewrite uint_digits_plain by discriminate. split.
        -- intros [L H]. split; [exact L|]. right. exists (c1 :: t). split; [reflexivity|exact H].
        -- intros [L [H|(t' & E & H)]]; [pose proof (plain_dec_chars _ _ H 43 ltac:(left; reflexivity)); lia|].
           injection E as <-. auto.
    + rewrite uint_digits_plain by discriminate. split; [intros [L H]; auto|]. intros [L [H|(t' & E & H)]]; [auto|].
      injection E as -> _. congruence.
Qed.

Lemma uint_text_chars s n c : uint_text s n -> In c s -> c <> 45.
Proof.
  intros [_ [H|(t & -> & H)]] I.
  - pose proof (plain_dec_chars _ _ H c I). lia.
  - change (text "+") with [43] in I. destruct I as [<-|I]; [lia|]. pose proof (plain_dec_chars _ _ H c I). lia.
Qed.

Lemma split_once_spec sep s a b : split_once sep s = Some (a, b) <-> s = a ++ sep :: b /\ ~ In sep a.
Proof.
  revert a. induction s as [|c s IH]; intros a; cbn [split_once].
  - split; [discriminate|]. intros [E _]. destruct a; discriminate.
  - destruct (N.eqb_spec c sep) as [->|NE].
    + split; [intros E; injection E as <- <-; split; [reflexivity|intros []]|]. intros [E NI]. destruct a as [|x a].
      * injection E as <-. reflexivity.
      * injection E as -> _. exfalso. apply NI. left. reflexivity.
    + destruct (split_once sep s) as [[a' b']|] eqn:E.
      * split.
        -- intros J. injection J as <- <-. destruct (proj1 (IH a') eq_refl) as [-> NI]. split; [reflexivity|].
           intros [H|H]; [congruence|apply NI, H].
        -- intros [J NI]. destruct a as [|x a]; injection J as -> J; [congruence|].
           assert (H : Some (a', b') = Some (a, b)) by (apply IH; split; [exact J|intros H; apply NI; right; exact H]). congruence.
      * split; [discriminate|]. intros [J NI]. destruct a as [|x a]; injection J as -> J; [congruence|].
        assert (H : None = Some (a, b)) by (apply IH; split; [exact J|intros H; apply NI; right; exact H]). discriminate.
Qed.

Lemma parse_token_spec s t : parse_token s = Some t <-> token_text s t.
Proof.
  unfold parse_token, token_text. change (text "-") with [45]. split.
  - destruct (split_once 45 s) as [[a b]|] eqn:E; [|discriminate]. apply split_once_spec in E. destruct E as [-> NI].
    destruct (parse_uint a) as [n|] eqn:EA; [|discriminate]. destruct (parse_uint b) as [o|] eqn:EB; [|discriminate].
    unfold block_number_new. destruct (N.leb_spec n (2 ^ 63 - 1)) as [L|]; [|discriminate]. intros H. injection H as <-.
    exists a, b. cbn [t_block t_offset]. rewrite N2Nat.id. split; [reflexivity|]. split; [apply parse_uint_spec, EA|]. split; [apply parse_uint_spec, EB|lia].
  - intros (a & b & -> & EA & EB & L).
    assert (E : split_once 45 (a ++ [45] ++ b) = Some (a, b)).
    { apply split_once_spec. split; [reflexivity|]. intros I. apply (uint_text_chars _ _ _ EA I). reflexivity. }
    rewrite E. apply parse_uint_spec in EA, EB. rewrite EA, EB. unfold block_number_new. replace (t_block t <=? 2 ^ 63 - 1) with true by lia.
    rewrite Nat2N.id. destruct t; reflexivity.
Qed.

Lemma show_uint_spec n : n < 2 ^ 64 -> uint_text (show_uint n) n.
Proof.
  intros L. split; [exact L|]. left. apply plain_dec_digits. destruct (min_digits_spec 10 n ltac:(lia)) as (V & D & NE & _). unfold show_uint. split.
  - destruct (min_digits 10 n); [congruence|discriminate].
  - exists (min_digits 10 n). auto.
Qed.

Definition printable (t : token) : Prop := t_block t < 2 ^ 63 /\ N.of_nat (t_offset t) < 2 ^ 64.

Lemma parse_show t : printable t -> parse_token (show_token t) = Some t.
Proof.
  intros [A B]. apply parse_token_spec. exists (show_uint (t_block t)), (show_uint (N.of_nat (t_offset t))).
  split; [reflexivity|]. split; [apply show_uint_spec; lia|]. split; [apply show_uint_spec, B|exact A].
Qed.

Lemma plain_dec_fun s n m : plain_dec s n -> plain_dec s m -> n = m.
Proof.
  rewrite !plain_dec_digits. intros (_ & d1 & E1 & _ & ->) (_ & d2 & E2 & _ & ->). f_equal. subst s. revert d2 E2.
  induction d1 as [|x d1 IH]; intros [|y d2] E; try discriminate; [reflexivity|]. cbn [map] in E.
  assert (E1 : 48 + y = 48 + x) by exact (f_equal (hd 0) E). assert (E2 : map (fun d => 48 + d) d2 = map (fun d => 48 + d) d1) by exact (f_equal (@tl N) E).
  f_equal; [lia|apply IH, E2].
Qed.

(* ---- following tokens ---- *)

Lemma followed_unique {T} (g : option T -> reply T) ct p1 : followed g ct p1 -> forall p2, followed g ct p2 -> p1 = p2.
Proof.
  induction 1 as [ct evs E|ct evs t rest E P IH]; intros p2 Q; inversion Q as [? evs' E' |? evs' t' rest' E' P']; subst; rewrite E in E'.
  - congruence.
  - discriminate.
  - discriminate.
  - injection E' as <- <-. f_equal. apply IH, P'.
Qed.

(* The same, with tokens that survive printing and parsing. *)
Inductive followed_text (g : option token -> reply token) : option token -> list (list answer) -> Prop :=
| ft_last ct evs : g ct = Page evs None -> followed_text g ct [evs]
| ft_more ct evs t rest :
    g ct = Page evs (Some t) -> printable t -> followed_text g (Some t) rest -> followed_text g ct (evs :: rest).

Definition as_text (r : reply token) : reply (list N) :=
  match r with
  | Page evs t => Page evs (match t with Some t => Some (show_token t) | None => None end)
  | BlockNotFound => BlockNotFound | PageSizeTooBig => PageSizeTooBig | InvalidContinuationToken => InvalidContinuationToken
  | TooManyKeysInFilter => TooManyKeysInFilter | PageSizeTooSmall => PageSizeTooSmall | Panicked => Panicked
  end.

Lemma text_followed (g : option token -> reply token) (h : option (list N) -> reply (list N)) :
  h None = as_text (g None) -> (forall t, printable t -> h (Some (show_token t)) = as_text (g (Some t))) ->
  forall ct pages, followed_text g ct pages -> (forall t, ct = Some t -> printable t) ->
  followed h (match ct with Some t => Some (show_token t) | None => None end) pages.
Proof.
  intros H0 H1 ct pages F. induction F as [ct evs E|ct evs t rest E PT F IH]; intros P.
  - apply followed_last. destruct ct as [t|]; [rewrite H1 by (apply P; reflexivity)|rewrite H0]; rewrite E; reflexivity.
  - apply followed_more with (t := show_token t).
    + destruct ct as [t'|]; [rewrite H1 by (apply P; reflexivity)|rewrite H0]; rewrite E; reflexivity.
    + apply IH. intros t' E'. injection E' as <-. exact PT.
Qed.

(* ---- pending events ---- *)

Lemma match_and_fill_spec addresses keys b skip max :
  let rest := skipn skip (matching addresses keys b) in
  match_and_fill addresses keys b skip max = (firstn max rest, (length rest <=? max)%nat).
Proof.
  intros rest. unfold match_and_fill. fold rest. rewrite firstn_length.
  destruct (Nat.leb_spec (length rest) max) as [L|L].
  - replace (max <? Nat.min (max + 1) (length rest))%nat with false by lia. rewrite !firstn_all2 by lia. reflexivity.
  - replace (max <? Nat.min (max + 1) (length rest))%nat with true by lia. f_equal.
    replace (max + 1)%nat with (S max) by lia. rewrite removelast_firstn by exact L. reflexivity.
Qed.

(* What a token at a pending block stands for. *)
Section Pending.
  Variables (p : pending) (keys : list (list N)) (addresses : list N).
  Hypothesis distinct : forall b, pd_pre_latest p = Some b -> pb_number b < pb_number (pd_pre_confirmed p).
  Definition from_latest : list answer := match pd_pre_latest p with Some b => matching addresses keys b | None => [] end.
  Definition from_confirmed : list answer := matching addresses keys (pd_pre_confirmed p).
  Definition pending_left (t : token) : list answer :=
    if t_block t =? pb_number (pd_pre_confirmed p) then skipn (t_offset t) from_confirmed
    else skipn (t_offset t) from_latest ++ from_confirmed.
  Definition start_token : token :=
    mkToken (match pd_pre_latest p with Some b => pb_number b | None => pb_number (pd_pre_confirmed p) end) 0.
  (* a token some page has returned *)
  Definition pending_token (t : token) : Prop :=
    is_pending p (t_block t) = true /\ (t_offset t <= length from_latest + length from_confirmed)%nat.

  Lemma start_token_ok : pending_token start_token /\ pending_left start_token = from_latest ++ from_confirmed.
  Proof.
    unfold pending_token, start_token, pending_left, is_pending, from_latest. cbn [t_block t_offset].
    destruct (pd_pre_latest p) as [b|] eqn:E.
    - pose proof (distinct b eq_refl). rewrite N.eqb_refl. replace (pb_number b =? pb_number (pd_pre_confirmed p)) with false by lia.
      split; [split; [reflexivity|lia]|reflexivity].
    - rewrite N.eqb_refl. split; [split; [reflexivity|lia]|reflexivity].
  Qed.

  Lemma get_pending_step max ct t : (0 < max)%nat ->
    (ct = Some t /\ pending_token t \/ t = start_token /\ (forall t', ct = Some t' -> is_pending p (t_block t') = false /\ t_block t' <= pb_number (pd_pre_confirmed p))) ->
    (get_pending_events p max keys addresses ct = Some (pending_left t, None) /\ (length (pending_left t) <= max)%nat) \/
    exists evs t', get_pending_events p max keys addresses ct = Some (evs, Some t') /\ (length evs <= max)%nat /\
      pending_left t = evs ++ pending_left t' /\ pending_token t' /\ (length (pending_left t') < length (pending_left t))%nat.
  Proof.
    intros MP H.
    set (default := (match pd_pre_latest p with Some b => pb_number b | None => pb_number (pd_pre_confirmed p) end, O)).
    assert (S : (match ct with
      | Some ct => if pb_number (pd_pre_confirmed p) <? t_block ct then None
                   else if is_pending p (t_block ct) then Some (t_block ct, t_offset ct) else Some default
      | None => Some default end) = Some (t_block t, t_offset t)).
    { destruct H as [[-> [PT _]]|[-> H]].
      - rewrite PT. assert (t_block t <= pb_number (pd_pre_confirmed p)).
        { unfold is_pending in PT. destruct (pd_pre_latest p) as [b|] eqn:E; [specialize (distinct b eq_refl)|]; lia. }
        replace (pb_number (pd_pre_confirmed p) <? t_block t) with false by lia. reflexivity.
      - destruct ct as [t'|]; [|reflexivity]. destruct (H t' eq_refl) as [A B]. rewrite A.
        replace (pb_number (pd_pre_confirmed p) <? t_block t') with false by lia. reflexivity. }
    assert (PT : pending_token t) by (destruct H as [[_ PT]|[-> _]]; [exact PT|apply start_token_ok]). clear H.
    unfold get_pending_events. cbv zeta. fold default. rewrite S. clear S default.
    set (pc := pd_pre_confirmed p) in *. destruct PT as [IP LO].
    assert (ONLY : t_block t = pb_number pc ->
      let r := (let (evs, exhausted) := match_and_fill addresses keys pc (t_offset t) max in
        Some (evs, if exhausted then None else Some (mkToken (pb_number pc) (t_offset t + length evs)))) in
      (r = Some (pending_left t, None) /\ (length (pending_left t) <= max)%nat) \/
      exists evs t', r = Some (evs, Some t') /\ (length evs <= max)%nat /\
        pending_left t = evs ++ pending_left t' /\ pending_token t' /\ (length (pending_left t') < length (pending_left t))%nat).
    { intros EB. rewrite match_and_fill_spec. cbv zeta. unfold pending_left. fold pc. rewrite EB, N.eqb_refl.
      fold from_confirmed. fold pc. change (matching addresses keys pc) with from_confirmed.
      set (rest := skipn (t_offset t) from_confirmed).
      destruct (Nat.leb_spec (length rest) max) as [L|L].
      - left. rewrite firstn_all2 by exact L. split; [reflexivity|exact L].
      - right. exists (firstn max rest), (mkToken (pb_number pc) (t_offset t + length (firstn max rest))). split; [reflexivity|]. cbn [t_block t_offset].
        rewrite N.eqb_refl. rewrite firstn_length. replace (Nat.min max (length rest)) with max by lia.
        assert (ER : skipn (t_offset t + max) from_confirmed = skipn max rest) by (unfold rest; rewrite skipn_skipn_add; reflexivity).
        assert (LR : length rest = (length from_confirmed - t_offset t)%nat) by (unfold rest; apply skipn_length).
        rewrite ER. split; [lia|]. split; [symmetry; apply firstn_skipn|]. split.
        + split; cbn [t_block t_offset]; [unfold is_pending; fold pc; rewrite N.eqb_refl; apply orb_true_r|lia].
        + rewrite skipn_length. lia. }
    destruct (pd_pre_latest p) as [pl|] eqn:EPL.
    - pose proof (distinct pl eq_refl) as DL. fold pc in DL. destruct (N.eqb_spec (pb_number pl) (t_block t)) as [EB|NB].
      + assert (FL : from_latest = matching addresses keys pl) by (unfold from_latest; rewrite EPL; reflexivity).
        rewrite match_and_fill_spec. cbv zeta. rewrite <- FL. set (rest := skipn (t_offset t) from_latest).
        assert (EL : pending_left t = rest ++ from_confirmed).
        { unfold pending_left. fold pc. replace (t_block t =? pb_number pc) with false by lia. reflexivity. }
        rewrite EL. assert (LR : length rest = (length from_latest - t_offset t)%nat) by (unfold rest; apply skipn_length).
        destruct (Nat.eqb_spec (length (firstn max rest)) max) as [LE|LE]; rewrite firstn_length in LE.
        * right. destruct (Nat.leb_spec (length rest) max) as [L|L].
          -- exists (firstn max rest), (mkToken (pb_number pc) 0). split; [reflexivity|]. split; [rewrite firstn_length; lia|].
             assert (E0 : pending_left (mkToken (pb_number pc) 0) = from_confirmed) by (unfold pending_left; cbn [t_block t_offset]; fold pc; rewrite N.eqb_refl; reflexivity).
             rewrite E0, firstn_all2 by exact L. split; [reflexivity|]. split.
             ++ split; cbn [t_block t_offset]; [unfold is_pending; fold pc; rewrite N.eqb_refl; apply orb_true_r|lia].
             ++ rewrite app_length. lia.
          -- exists (firstn max rest), (mkToken (pb_number pl) (t_offset t + max)). split; [reflexivity|]. split; [rewrite firstn_length; lia|].
             assert (E0 : pending_left (mkToken (pb_number pl) (t_offset t + max)) = skipn max rest ++ from_confirmed).
             { unfold pending_left; cbn [t_block t_offset]; fold pc. replace (pb_number pl =? pb_number pc) with false by lia. unfold rest. rewrite skipn_skipn_add. reflexivity. }
             rewrite E0, app_assoc, firstn_skipn. split; [reflexivity|]. split.
             ++ split; cbn [t_block t_offset]; [unfold is_pending; rewrite EPL, N.eqb_refl; reflexivity|lia].
             ++ rewrite !app_length, skipn_length. lia.
        * assert (LT : (length rest < max)%nat) by lia. rewrite (firstn_all2 (n := max) rest) by lia.
          rewrite match_and_fill_spec. cbv zeta. cbn [skipn]. change (matching addresses keys pc) with from_confirmed.
          destruct (Nat.leb_spec (length from_confirmed) (max - length rest)) as [L|L].
          -- left. rewrite firstn_all2 by exact L. split; [reflexivity|rewrite app_length; lia].
          -- right. set (k := (max - length rest)%nat) in *. exists (rest ++ firstn k from_confirmed), (mkToken (pb_number pc) (length (firstn k from_confirmed))).
             split; [reflexivity|]. rewrite app_length, firstn_length. replace (Nat.min k (length from_confirmed)) with k by lia. split; [lia|].
             assert (E0 : pending_left (mkToken (pb_number pc) k) = skipn k from_confirmed) by (unfold pending_left; cbn [t_block t_offset]; fold pc; rewrite N.eqb_refl; reflexivity).
             rewrite E0, <- app_assoc, firstn_skipn. split; [reflexivity|]. split.
             ++ split; cbn [t_block t_offset]; [unfold is_pending; fold pc; rewrite N.eqb_refl; apply orb_true_r|lia].
             ++ rewrite app_length, skipn_length. lia.
      + apply ONLY. unfold is_pending in IP. rewrite EPL in IP. fold pc in IP. lia.
    - apply ONLY. unfold is_pending in IP. rewrite EPL in IP. fold pc in IP. lia.
  Qed.

  (* Following pending tokens. *)
  Lemma pending_followed (g : option token -> reply token) chunk : (0 < chunk)%nat ->
    (forall t, pending_token t -> printable t) ->
    (forall t, pending_token t -> g (Some t) = match get_pending_events p chunk keys addresses (Some t) with
       | Some (evs, ct) => Page evs ct | None => InvalidContinuationToken end) ->
    forall m t, (length (pending_left t) < m)%nat -> pending_token t ->
    exists pages, followed_text g (Some t) pages /\ concat pages = pending_left t /\ Forall (fun l => (length l <= chunk)%nat) pages.
  Proof.
    intros CP PR HG. induction m as [|m IH]; intros t L PT; [lia|].
    destruct (get_pending_step chunk (Some t) t CP (or_introl (conj eq_refl PT))) as [[E LE]|(evs & t' & E & LE & EQ & PT' & LT)].
    - exists [pending_left t]. split; [apply ft_last; rewrite (HG t PT), E; reflexivity|]. split; [apply app_nil_r|repeat constructor; exact LE].
    - destruct (IH t' ltac:(lia) PT') as (pages & F & EC & FA). exists (evs :: pages). split.
      + apply ft_more with (t := t'); [rewrite (HG t PT), E; reflexivity|apply PR, PT'|exact F].
      + cbn [concat]. rewrite EC, EQ. split; [reflexivity|constructor; assumption].
  Qed.
End Pending.

(* ---- what is asked for ---- *)

Lemma filter_map_comm {X Y} (f : Y -> bool) (g : X -> Y) l : filter f (map g l) = map g (filter (fun x => f (g x)) l).
Proof. induction l as [|x l IH]; cbn [map filter]; [reflexivity|]. destruct (f (g x)); cbn [map]; rewrite IH; reflexivity. Qed.

Lemma matching_spec addresses keys b : matching addresses keys b = filter (fun a => wants addresses keys (a_event a)) (pending_events b).
Proof.
  unfold matching, pending_events. rewrite filter_filter.
  rewrite !filter_flat_map, flat_map_concat_map, concat_map, map_map, <- flat_map_concat_map. apply flat_map_ext. intros [tx evs]. cbn [fst snd].
  rewrite (enumerate_spec evs (mkEvent 0 [] [])), !filter_map_comm, !map_map. cbn [fst snd].
  cbn [fst snd a_event]. reflexivity.
Qed.

Lemma emitted_number chain a n e : In e (emitted_in chain a n) -> exists i, (a <= i < a + n)%nat /\ e_block_number e = N.of_nat i.
Proof.
  unfold emitted_in. rewrite in_flat_map. intros (i & I & J). apply in_seq in I. exists i. split; [exact I|].
  destruct (nth_error chain i) as [b|]; [|destruct J]. apply (emitted_at_block _ b), J.
Qed.

Lemma filter_all {X} (f : X -> bool) l : (forall x, In x l -> f x = true) -> filter f l = l.
Proof.
  induction l as [|x l IH]; intros H; cbn [filter]; [reflexivity|]. rewrite (H x (or_introl eq_refl)). f_equal. apply IH. intros y I. apply H. right. exact I.
Qed.
Lemma filter_none {X} (f : X -> bool) l : (forall x, In x l -> f x = false) -> filter f l = [].
Proof.
  induction l as [|x l IH]; intros H; cbn [filter]; [reflexivity|]. rewrite (H x (or_introl eq_refl)). apply IH. intros y I. apply H. right. exact I.
Qed.

(* The events from block a up to block z - 1, out of all. *)
Lemma emitted_range chain a z n (f : emitted -> bool) : (z <= n)%nat ->
  (forall e, e_block_number e < N.of_nat n -> (f e = true <-> N.of_nat a <= e_block_number e < N.of_nat z)) ->
  filter f (emitted_in chain 0 n) = emitted_in chain a (z - a).
Proof.
  intros LZ HF. destruct (Nat.le_gt_cases z a) as [L|L].
  - replace (z - a)%nat with 0%nat by lia. apply filter_none. intros e I. apply emitted_number in I. destruct I as (i & LI & EN). destruct (f e) eqn:E; [|reflexivity]. apply HF in E; lia.
  - assert (E : emitted_in chain 0 n = emitted_in chain 0 a ++ emitted_in chain a (z - a) ++ emitted_in chain z (n - z)).
    { unfold emitted_in. replace n with (a + ((z - a) + (n - z)))%nat at 1 by lia. rewrite !seq_app, !flat_map_app.
      replace (0 + a)%nat with a by lia. replace (a + (z - a))%nat with z by lia. reflexivity. }
    rewrite E, !filter_app, (filter_none f (emitted_in chain 0 a)), (filter_all f (emitted_in chain a (z - a))), (filter_none f (emitted_in chain z (n - z))).
    + apply app_nil_r.
    + intros e I. apply emitted_number in I. destruct I as (i & LI & EN). destruct (f e) eqn:EF; [apply HF in EF; lia|reflexivity].
    + intros e I. apply emitted_number in I. destruct I as (i & LI & EN). apply HF; lia.
    + intros e I. apply emitted_number in I. destruct I as (i & LI & EN). destruct (f e) eqn:EF; [apply HF in EF; lia|reflexivity].
Qed.

Lemma emitted_in_short chain a n m : (a + n <= m)%nat -> (length (emitted_in chain a n) <= length (emitted_in chain 0 m))%nat.
Proof.
  intros L. unfold emitted_in. replace m with (a + (n + (m - a - n)))%nat by lia. rewrite !seq_app, !flat_map_app, !app_length.
  replace (0 + a)%nat with a by lia. lia.
Qed.

Lemma filter_short {X} (f : X -> bool) l : (length (filter f l) <= length l)%nat.
Proof. induction l as [|x l IH]; cbn [filter length]; [lia|]. destruct (f x); cbn [length]; lia. Qed.

Lemma find_hash_spec blocks h : forall n0 n, find_hash blocks h n0 = Some n ->
  n0 <= n /\ exists b, nth_error blocks (N.to_nat (n - n0)) = Some b /\ b_hash b = h.
Proof.
  induction blocks as [|b blocks IH]; intros n0 n; cbn [find_hash]; [discriminate|].
  destruct (N.eqb_spec (b_hash b) h) as [E|NE].
  - intros J. injection J as <-. split; [lia|]. exists b. replace (N.to_nat (n0 - n0)) with 0%nat by lia. auto.
  - intros J. apply IH in J. destruct J as (L & b' & E & EH). split; [lia|]. exists b'. split; [|exact EH].
    replace (N.to_nat (n - n0)) with (S (N.to_nat (n - (n0 + 1)))) by lia. exact E.
Qed.
Lemma find_hash_some blocks h : forall n0 i b, nth_error blocks i = Some b -> b_hash b = h -> find_hash blocks h n0 <> None.
Proof.
  induction blocks as [|c blocks IH]; intros n0 [|i] b E EH; cbn [nth_error find_hash] in *; try discriminate.
  - injection E as ->. replace (b_hash b =? h) with true by lia. discriminate.
  - destruct (b_hash c =? h); [discriminate|]. apply (IH _ i b E EH).
Qed.
Lemma find_hash_unique blocks h n b : NoDup (map b_hash blocks) -> nth_error blocks (N.to_nat n) = Some b -> b_hash b = h ->
  find_hash blocks h 0 = Some n.
Proof.
  intros ND E EH. destruct (find_hash blocks h 0) as [m|] eqn:F; [|exfalso; apply (find_hash_some blocks h 0 _ b E EH), F].
  apply find_hash_spec in F. destruct F as (_ & b' & E' & EH'). rewrite N.sub_0_r in E'. f_equal.
  assert (N.to_nat m = N.to_nat n); [|lia].
  apply (proj1 (NoDup_nth_error (map b_hash blocks)) ND).
  - rewrite map_length. apply nth_error_Some. congruence.
  - rewrite !nth_error_map, E, E'. cbn [option_map]. congruence.
Qed.

Lemma last_le (to : option N) h : match to with Some t => N.min t h | None => h end <= h.
Proof. destruct to; lia. Qed.

Section Node.
  Variables (bloom_bytes range_bytes : nat) (sip0 sip1 : N -> N).
  Hypothesis bloom_pos : (0 < bloom_bytes)%nat.
  Hypothesis range_pos : (0 < range_bytes)%nat.
  Variables (K : nat) (s : state) (limit : N) (addresses : list N) (keys : list (list N)) (chunk : nat).
  Hypothesis SY : synced bloom_bytes range_bytes sip0 sip1 K s.
  Hypothesis limit_pos : 0 < limit.
  Hypothesis chunk_pos : (0 < chunk)%nat.
  Hypothesis few_keys : (length keys <= 16)%nat.
  Hypothesis nonempty : height (s_db s) <> 0.
  Variable p : pending.
  Let latest := height (s_db s) - 1.
  Hypothesis distinct : forall b, pd_pre_latest p = Some b -> pb_number b < pb_number (pd_pre_confirmed p).
  Hypothesis newer : forall n, is_pending p n = true -> latest < n.
  Hypothesis small_numbers : pb_number (pd_pre_confirmed p) < 2 ^ 63.
  Hypothesis few_stored : forall f w, (w <= S (N.to_nat latest))%nat ->
    N.of_nat (length (flat_map (M (d_blocks (s_db s)) addresses keys) (seq f (w - f)))) < 2 ^ 64.
  Hypothesis few_pending : N.of_nat (length (from_latest p keys addresses) + length (from_confirmed p keys addresses)) < 2 ^ 64.
  Variables (from to : option N) (to_pending : bool).
  Let query := ask bloom_bytes range_bytes sip0 sip1 false limit s to addresses keys chunk.

  (* The part of get_events_from after the special cases. *)
  Definition core (ct : option token) : reply token :=
    if match ct, from with Some t, Some f => t_block t <? f | _, _ => false end
    then InvalidContinuationToken
    else
      let (from, offset) := match ct with
                            | Some t => (Some (t_block t), t_offset t)
                            | None => (from, O)
                            end in
      match query from offset with
      | RTooSmall => PageSizeTooSmall
      | RPanic => Panicked
      | ROk page =>
          let evs := map of_stored (p_events page) in
          match p_token page with
          | Some t => Page evs (Some t)
          | None =>
              if to_pending then
                if (length evs <? chunk)%nat then
                  match get_pending_events p (chunk - length evs) keys addresses ct with
                  | None => InvalidContinuationToken
                  | Some (pending_events, pending_ct) => Page (evs ++ pending_events) pending_ct
                  end
                else
                  Page evs (Some (mkToken (match pd_pre_latest p with
                                           | Some b => pb_number b
                                           | None => pb_number (pd_pre_confirmed p)
                                           end) 0))
              else Page evs None
          end
      end.

  Lemma query_beyond n o : latest < n -> query (Some n) o = ROk (mkPage [] None).
  Proof.
    intros L. unfold query, ask, events. cbn [c_page_size c_from c_to c_addresses c_keys c_offset].
    replace (chunk <? 1)%nat with false by lia. replace (height (s_db s) =? 0) with false by lia.
    set (last := match to with Some t => N.min t (height (s_db s) - 1) | None => height (s_db s) - 1 end).
    assert (LA : last <= latest) by apply last_le.
    assert (LL : last < height (s_db s)) by (unfold latest in LA; lia).
    replace (N.min last (n + limit - 1)) with last by lia.
    destruct (load_range_ok bloom_bytes range_bytes sip0 sip1 bloom_pos range_pos K s n last SY LL) as (_ & _ & _ & (lf & EL & TL) & _).
    cbv zeta in EL, TL. rewrite EL. replace (N.min last (to_block lf)) with last by lia. rewrite N.ltb_irrefl.
    rewrite filter_none; [reflexivity|]. intros x _. lia.
  Qed.

  Lemma pending_printable t : pending_token p keys addresses t -> printable t.
  Proof.
    intros [IP LO]. split; [|lia]. unfold is_pending in IP. destruct (pd_pre_latest p) as [b|] eqn:E; [specialize (distinct b eq_refl)|]; lia.
  Qed.

  Lemma core_pending t : to_pending = true -> (forall f, from = Some f -> f <= latest + 1) -> pending_token p keys addresses t ->
    core (Some t) = match get_pending_events p chunk keys addresses (Some t) with Some (evs, ct) => Page evs ct | None => InvalidContinuationToken end.
  Proof.
    intros TP FR [IP LO]. pose proof (newer _ IP) as NL. unfold core.
    assert (E : match from with Some f => t_block t <? f | None => false end = false) by (destruct from as [f|]; [specialize (FR f eq_refl); lia|reflexivity]).
    rewrite E, (query_beyond _ _ NL). cbn [p_events p_token map length]. rewrite TP. replace (0 <? chunk)%nat with true by lia. rewrite Nat.sub_0_r.
    destruct (get_pending_events p chunk keys addresses (Some t)) as [[evs ct]|]; reflexivity.
  Qed.

  Lemma core_followed : (forall f, from = Some f -> f <= latest + 1) ->
    forall m ct, (forall t, ct = Some t -> t_block t <= latest /\ (forall f, from = Some f -> f <= t_block t)) ->
    let fr := match ct with Some t => Some (t_block t) | None => from end in
    let o := match ct with Some t => t_offset t | None => O end in
    (measure s to addresses keys (default_from fr) o < m)%nat -> token_valid s limit to addresses keys (default_from fr) o ->
    exists pages, followed_text core ct pages /\
      concat pages = map of_stored (remaining s to addresses keys (default_from fr) o) ++
        (if to_pending then from_latest p keys addresses ++ from_confirmed p keys addresses else []) /\
      Forall (fun l => (length l <= chunk)%nat) pages.
  Proof.
    intros FR. induction m as [|m IH]; intros ct HC fr o LM V; [lia|].
    assert (E1 : match ct, from with Some t, Some f => t_block t <? f | _, _ => false end = false).
    { destruct ct as [t|]; [|reflexivity]. destruct from as [f|]; [|reflexivity]. destruct (HC t eq_refl) as [_ H]. specialize (H f eq_refl). lia. }
    assert (E2 : match ct with Some t => (Some (t_block t), t_offset t) | None => (from, 0%nat) end = (fr, o)) by (unfold fr, o; destruct ct; reflexivity).
    destruct (page_step bloom_bytes range_bytes sip0 sip1 bloom_pos range_pos K s limit to addresses keys chunk SY limit_pos chunk_pos few_keys nonempty fr o V)
      as [[E L]|(evs & t & E & L & ER & V' & LT & BT)]; cbv zeta in *.
    - set (R := remaining s to addresses keys (default_from fr) o) in *.
      destruct to_pending eqn:TP.
      + destruct (Nat.ltb_spec (length (map of_stored R)) chunk) as [LR|LR]; rewrite map_length in LR.
        * destruct (start_token_ok p keys addresses distinct) as [ST SL].
          assert (CT : forall t', ct = Some t' -> is_pending p (t_block t') = false /\ t_block t' <= pb_number (pd_pre_confirmed p)).
          { intros t' ET. destruct (HC t' ET) as [LB _]. assert (PC : is_pending p (pb_number (pd_pre_confirmed p)) = true) by (unfold is_pending; rewrite N.eqb_refl; apply orb_true_r).
            pose proof (newer _ PC). split; [|lia]. destruct (is_pending p (t_block t')) eqn:IP; [|reflexivity]. apply newer in IP. lia. }
          assert (CORE : core ct = match get_pending_events p (chunk - length (map of_stored R)) keys addresses ct with
              | None => InvalidContinuationToken | Some (pe, pct) => Page (map of_stored R ++ pe) pct end).
          { unfold core. rewrite E1, E2. unfold query. rewrite E. cbn [p_events p_token]. rewrite TP. fold R.
            replace (length (map of_stored R) <? chunk)%nat with true by (rewrite map_length; lia). reflexivity. }
          rewrite map_length in CORE.
          destruct (get_pending_step p keys addresses distinct (chunk - length R) ct (start_token p) ltac:(lia) (or_intror (conj eq_refl CT)))
            as [[EP LE]|(pe & t' & EP & LE & EQ & PT & LT)]; rewrite SL in *.
          -- rewrite EP in CORE. eexists. split; [apply ft_last; exact CORE|]. split; [cbn [concat]; apply app_nil_r|].
             repeat constructor. rewrite app_length, map_length. lia.
          -- rewrite EP in CORE.
             destruct (pending_followed p keys addresses distinct core chunk chunk_pos pending_printable (fun t PT => core_pending t TP FR PT)
               (S (length (pending_left p keys addresses t'))) t' (Nat.lt_succ_diag_r _) PT) as (pages & F & EC & FA).
             eexists. split; [eapply ft_more; [exact CORE|apply pending_printable, PT|exact F]|]. cbn [concat].
             rewrite EC, EQ, app_assoc. split; [reflexivity|]. constructor; [rewrite app_length, map_length; lia|exact FA].
        * destruct (start_token_ok p keys addresses distinct) as [ST SL].
          assert (CORE : core ct = Page (map of_stored R) (Some (start_token p))).
          { unfold core. rewrite E1, E2. unfold query. rewrite E. cbn [p_events p_token]. rewrite TP. fold R.
            replace (length (map of_stored R) <? chunk)%nat with false by (rewrite map_length; lia). reflexivity. }
          destruct (pending_followed p keys addresses distinct core chunk chunk_pos pending_printable (fun t PT => core_pending t TP FR PT)
               (S (length (pending_left p keys addresses (start_token p)))) (start_token p) (Nat.lt_succ_diag_r _) ST) as (pages & F & EC & FA).
          eexists. split; [eapply ft_more; [exact CORE|apply pending_printable, ST|exact F]|]. cbn [concat].
          rewrite EC, SL. split; [reflexivity|]. constructor; [rewrite map_length; lia|exact FA].
      + assert (CORE : core ct = Page (map of_stored R) None).
        { unfold core. rewrite E1, E2. unfold query. rewrite E. cbn [p_events p_token]. rewrite TP. reflexivity. }
        eexists. split; [apply ft_last; exact CORE|]. split; [reflexivity|]. repeat constructor. rewrite map_length. exact L.
    - assert (CORE : core ct = Page (map of_stored evs) (Some t)) by (unfold core; rewrite E1, E2; unfold query; rewrite E; reflexivity).
      set (last := match to with Some t0 => N.min t0 (height (s_db s) - 1) | None => height (s_db s) - 1 end) in *.
      assert (LL : last <= latest) by apply last_le.
      assert (BL : t_block t <= latest) by lia.
      assert (PT : printable t).
      { split.
        - assert (PC : is_pending p (pb_number (pd_pre_confirmed p)) = true) by (unfold is_pending; rewrite N.eqb_refl; apply orb_true_r).
          pose proof (newer _ PC). lia.
        - destruct V' as [->|V']; [reflexivity|]. fold last in V'.
          set (w := Nat.min (S (N.to_nat last)) (N.to_nat (t_block t) + N.to_nat limit)) in *.
          pose proof (few_stored (N.to_nat (t_block t)) w ltac:(lia)). lia. }
      assert (FB : forall f, from = Some f -> f <= t_block t).
      { intros f EF. unfold fr, default_from in BT. destruct ct as [t0|]; [destruct (HC t0 eq_refl) as [_ H]; specialize (H f EF); lia|]. rewrite EF in BT. lia. }
      destruct (IH (Some t)) as (pages & F & EC & FA).
      + intros t' ET. injection ET as <-. split; [exact BL|exact FB].
      + cbn [default_from]. lia.
      + exact V'.
      + eexists. split; [eapply ft_more; [exact CORE|exact PT|exact F]|]. cbn [concat default_from] in *.
        rewrite EC, ER, map_app, app_assoc. split; [reflexivity|]. constructor; [rewrite map_length; exact L|exact FA].
  Qed.
End Node.

Lemma followed_text_ext g g' : (forall ct, g ct = g' ct) -> forall ct pages, followed_text g ct pages -> followed_text g' ct pages.
Proof.
  intros E ct pages F. induction F as [ct evs H|ct evs t rest H PT F IH].
  - apply ft_last. rewrite <- E. exact H.
  - apply ft_more with (t := t); [rewrite <- E; exact H|exact PT|exact IH].
Qed.

Lemma pending_facts watched latest v09 :
  (forall b, pd_pre_latest watched = Some b -> pb_number b + 1 = pb_number (pd_pre_confirmed watched)) ->
  let pend := if v09 : bool then pending_on latest watched else [] in
  exists p : pending, pending_get watched latest v09 = Some p /\
    ((exists b, pd_pre_latest p = Some b /\ pb_number b = latest + 1 /\ pb_number (pd_pre_confirmed p) = latest + 2 /\ pend = [b; pd_pre_confirmed p]) \/
     (pd_pre_latest p = None /\ pb_number (pd_pre_confirmed p) = latest + 1 /\
      (pend = [pd_pre_confirmed p] \/ pend = [] /\ pb_txs (pd_pre_confirmed p) = []))).
Proof.
  intros H pend. unfold pending_get, pend, pending_on. destruct v09.
  - destruct (pd_pre_latest watched) as [b|] eqn:EB.
    + specialize (H b eq_refl). cbn [app filter].
      destruct (N.eqb_spec (pb_number b) (latest + 1)) as [E|N1].
      * replace (pb_number b + 1 =? pb_number (pd_pre_confirmed watched)) with true by lia. eexists. split; [reflexivity|]. left. exists b. cbn [pd_pre_latest pd_pre_confirmed].
        replace (latest <? pb_number b) with true by lia. replace (latest <? pb_number (pd_pre_confirmed watched)) with true by lia.
        replace (pb_number b =? latest + 1) with true by lia. do 3 (split; [first [reflexivity|lia]|]). reflexivity.
      * destruct (N.eqb_spec (pb_number b) latest) as [E|N2].
        -- replace (pb_number b + 1 =? pb_number (pd_pre_confirmed watched)) with true by lia. eexists. split; [reflexivity|]. right. cbn [pd_pre_latest pd_pre_confirmed].
           replace (latest <? pb_number b) with false by lia. replace (latest <? pb_number (pd_pre_confirmed watched)) with true by lia.
           replace (pb_number (pd_pre_confirmed watched) =? latest + 1) with true by lia. split; [reflexivity|]. split; [lia|]. left. reflexivity.
        -- eexists. split; [reflexivity|]. right. unfold pending_empty. cbn [pd_pre_latest pd_pre_confirmed pb_number pb_txs].
           split; [reflexivity|]. split; [reflexivity|]. right. split; [|reflexivity].
           destruct (N.ltb_spec latest (pb_number b)) as [L|L].
           ++ replace (pb_number b =? latest + 1) with false by lia. reflexivity.
           ++ replace (latest <? pb_number (pd_pre_confirmed watched)) with false by lia. reflexivity.
    + cbn [app filter]. destruct (N.eqb_spec (pb_number (pd_pre_confirmed watched)) (latest + 1)) as [E|N1].
      * eexists. split; [reflexivity|]. right. rewrite EB. replace (latest <? pb_number (pd_pre_confirmed watched)) with true by lia.
        replace (pb_number (pd_pre_confirmed watched) =? latest + 1) with true by lia. split; [reflexivity|]. split; [exact E|]. left. reflexivity.
      * eexists. split; [reflexivity|]. right. unfold pending_empty. cbn [pd_pre_latest pd_pre_confirmed pb_number pb_txs].
        split; [reflexivity|]. split; [reflexivity|]. right. split; [|reflexivity].
        destruct (N.ltb_spec latest (pb_number (pd_pre_confirmed watched))) as [L|L]; [|reflexivity].
        replace (pb_number (pd_pre_confirmed watched) =? latest + 1) with false by lia. reflexivity.
  - eexists. split; [reflexivity|]. right. split; [reflexivity|]. split; [reflexivity|]. right. split; reflexivity.
Qed.

Lemma pending_events_number b e : In e (pending_events b) -> a_block_number e = pb_number b.
Proof.
  unfold pending_events. rewrite in_flat_map. intros (tx & _ & I). apply in_map_iff in I. destruct I as (i & <- & _). reflexivity.
Qed.

Lemma expected_answers chain pend first last z (tp : bool) f :
  (z <= length chain)%nat -> first <= N.of_nat (length chain) ->
  (forall b, In b pend -> N.of_nat (length chain) <= pb_number b) ->
  (match last with
   | Some l => z = S (N.to_nat l) /\ tp = false \/ z = length chain /\ tp = true /\ N.of_nat z <= l + 1 /\ (forall b, In b pend -> pb_number b <= l)
   | None => z = length chain /\ tp = true
   end) ->
  filter (fun e => between first last e && f (a_event e)) (all_events chain pend) =
  map of_stored (filter (fun e => f (e_event e)) (emitted_in chain (N.to_nat first) (z - N.to_nat first))) ++
  (if tp then filter (fun e => f (a_event e)) (flat_map pending_events pend) else []).
Proof.
  intros LZ LF HP HL. rewrite <- (filter_filter (fun e => f (a_event e)) (between first last)). unfold all_events. rewrite !filter_app. f_equal.
  - rewrite !filter_map_comm. cbn [of_stored a_event]. f_equal. f_equal. apply emitted_range; [exact LZ|].
    intros e LE. unfold between, of_stored. cbn [a_block_number].
    destruct last as [l|].
    + rewrite andb_true_iff, !N.leb_le. destruct HL as [[-> ->]|(-> & -> & HB & _)]; lia.
    + destruct HL as [-> ->]. rewrite andb_true_r, N.leb_le. lia.
  - destruct tp.
    + f_equal. apply filter_all. intros e I. apply in_flat_map in I. destruct I as (b & IB & I). apply pending_events_number in I.
      unfold between. rewrite I. specialize (HP b IB). destruct last as [l|]; [|lia].
      destruct HL as [[_ H]|(_ & _ & _ & HB)]; [discriminate|]. specialize (HB b IB). lia.
    + rewrite (filter_none (between first last)); [reflexivity|]. intros e I. apply in_flat_map in I. destruct I as (b & IB & I). apply pending_events_number in I.
      unfold between. rewrite I. specialize (HP b IB). destruct last as [l|]; [|destruct HL as [_ H]; discriminate].
      destruct HL as [[-> _]|(_ & H & _)]; [|discriminate]. lia.
Qed.

Lemma wanted_pending p keys addresses pend :
  (exists b, pd_pre_latest p = Some b /\ pend = [b; pd_pre_confirmed p]) \/
  pd_pre_latest p = None /\ (pend = [pd_pre_confirmed p] \/ pend = [] /\ pb_txs (pd_pre_confirmed p) = []) ->
  from_latest p keys addresses ++ from_confirmed p keys addresses =
  filter (fun e => wants addresses keys (a_event e)) (flat_map pending_events pend).
Proof.
  unfold from_latest, from_confirmed. intros [(b & -> & ->)|[-> [->|[-> E]]]].
  - cbn [flat_map]. rewrite app_nil_r, filter_app, !matching_spec. reflexivity.
  - cbn [flat_map app]. rewrite app_nil_r, matching_spec. reflexivity.
  - rewrite matching_spec. unfold pending_events at 1. rewrite E. reflexivity.
Qed.

Lemma get_events_pages bloom_bytes range_bytes sip0 sip1 K s limit l1 watched v09 q first last :
  (0 < bloom_bytes)%nat -> (0 < range_bytes)%nat -> synced bloom_bytes range_bytes sip0 sip1 K s ->
  let chain := d_blocks (s_db s) in
  let latest := height (s_db s) - 1 in
  let pend := if v09 : bool then pending_on latest watched else [] in
  height (s_db s) <> 0 -> 0 < limit ->
  (forall b, pd_pre_latest watched = Some b -> pb_number b + 1 = pb_number (pd_pre_confirmed watched)) ->
  NoDup (map b_hash chain) ->
  (1 <= q_chunk_size q)%nat -> N.of_nat (q_chunk_size q) <= 1024 -> (length (q_keys q) <= 16)%nat ->
  first_block chain l1 (q_from q) first -> last_block chain l1 (q_to q) last ->
  first <= latest + 1 ->
  (forall l, last = Some l -> l <= latest \/ q_to q = Some (Number l) /\ l = latest + N.of_nat (length pend)) ->
  latest + 2 < 2 ^ 63 -> N.of_nat (length (all_events chain pend)) < 2 ^ 64 ->
  exists pages, followed_text (get_events_from bloom_bytes range_bytes sip0 sip1 false limit s l1 watched v09 q) None pages /\
    concat pages = filter (fun e => between first last e && wants (q_addresses q) (truncate_keys (q_keys q)) (a_event e)) (all_events chain pend) /\
    Forall (fun l => (length l <= q_chunk_size q)%nat) pages.
Proof.
  intros P PR SY chain latest pend NE LP HW ND C1 C2 LK HF HT LF HL SM FE.
  set (addresses := q_addresses q). set (keys := truncate_keys (q_keys q)). set (chunk := q_chunk_size q).
  assert (LK' : (length keys <= 16)%nat) by (pose proof (truncate_length bloom_bytes range_bytes P PR (q_keys q)); unfold keys; lia).
  assert (LC : N.of_nat (length chain) = latest + 1) by (unfold latest, chain, height in *; lia).
  destruct (pending_facts watched latest v09 HW) as (p & EP & PF). fold pend in PF.
  assert (distinct : forall b, pd_pre_latest p = Some b -> pb_number b < pb_number (pd_pre_confirmed p)).
  { intros b EB. destruct PF as [(b' & EB' & N1 & N2 & _)|[EB' _]]; [|congruence]. assert (b' = b) by congruence. subst b'. lia. }
  assert (IPS : forall n, is_pending p n = true <-> n = latest + 1 \/ n = pb_number (pd_pre_confirmed p)).
  { intros n. unfold is_pending. destruct PF as [(b & -> & N1 & N2 & _)|[-> [N1 _]]]; rewrite orb_true_iff, ?N.eqb_eq; [lia|]. split; [intros [H|H]; [discriminate|lia]|lia]. }
  assert (PCN : latest + 1 <= pb_number (pd_pre_confirmed p) <= latest + 2) by (destruct PF as [(b & _ & N1 & N2 & _)|[_ [N1 _]]]; lia).
  assert (newer : forall n, is_pending p n = true -> height (s_db s) - 1 < n) by (intros n IP; apply IPS in IP; fold latest; lia).
  assert (PE : from_latest p keys addresses ++ from_confirmed p keys addresses = filter (fun e => wants addresses keys (a_event e)) (flat_map pending_events pend)).
  { apply wanted_pending. destruct PF as [(b & EB & _ & _ & E)|(EB & _ & E)]; [left; exists b; auto|right; auto]. }
  assert (PB : forall b, In b pend -> N.of_nat (length chain) <= pb_number b <= pb_number (pd_pre_confirmed p)).
  { intros b I. destruct PF as [(b' & _ & N1 & N2 & E)|(_ & N1 & [E|[E _]])]; rewrite E in I; cbn [In] in I; [destruct I as [<-|[<-|[]]]|destruct I as [<-|[]]|destruct I]; lia. }
  assert (LPN : latest + N.of_nat (length pend) = pb_number (pd_pre_confirmed p) \/ pend = []).
  { destruct PF as [(b & _ & N1 & N2 & E)|(_ & N1 & [E|[E _]])]; rewrite E; cbn [length]; [left; lia|left; lia|right; reflexivity]. }
  assert (few_stored : forall f w, (w <= S (N.to_nat (height (s_db s) - 1)))%nat ->
    N.of_nat (length (flat_map (M (d_blocks (s_db s)) addresses keys) (seq f (w - f)))) < 2 ^ 64).
  { intros f w LW. rewrite M_expected. fold chain. fold latest in LW.
    pose proof (filter_short (fun e => wants addresses keys (e_event e)) (emitted_in chain f (w - f))).
    assert (length (emitted_in chain f (w - f)) <= length (emitted_in chain 0 (length chain)))%nat.
    { destruct (Nat.le_gt_cases f w) as [L|L]; [apply emitted_in_short; lia|]. replace (w - f)%nat with 0%nat by lia. cbn [emitted_in seq flat_map length]. lia. }
    unfold all_events in FE. rewrite app_length, map_length in FE. lia. }
  assert (few_pending : N.of_nat (length (from_latest p keys addresses) + length (from_confirmed p keys addresses)) < 2 ^ 64).
  { rewrite <- app_length, PE. pose proof (filter_short (fun e => wants addresses keys (a_event e)) (flat_map pending_events pend)).
    unfold all_events in FE. rewrite app_length in FE. lia. }
  assert (SMP : pb_number (pd_pre_confirmed p) < 2 ^ 63) by lia.
  (* the last block *)
  set (to_id := replace_pending p (q_to q)). set (tp := is_pre_confirmed_or_none to_id).
  assert (HTO : exists to, map_to (s_db s) l1 to_id = Some to /\
    let z := S (N.to_nat (match to with Some t => N.min t latest | None => latest end)) in
    (z <= length chain)%nat /\
    (match last with
     | Some l => z = S (N.to_nat l) /\ tp = false \/ z = length chain /\ tp = true /\ N.of_nat z <= l + 1 /\ (forall b, In b pend -> pb_number b <= l)
     | None => z = length chain /\ tp = true
     end) /\ (forall t, to = Some t -> last = Some t /\ tp = false)).
  { unfold tp, to_id. destruct (q_to q) as [[n|h| | |]|] eqn:ET; cbn [last_block replace_pending first_block] in *.
    - destruct HT as (l & -> & <-). destruct (is_pending p l) eqn:IP; cbn [map_to is_pre_confirmed_or_none].
      + exists None. split; [reflexivity|]. cbv zeta. split; [lia|]. split; [right|intros t Z; discriminate]. split; [lia|]. split; [reflexivity|].
        destruct (HL l eq_refl) as [H|[_ H]]; [apply newer in IP; fold latest in IP; lia|]. split; [lia|]. intros b I. specialize (PB b I).
        destruct LPN as [E|E]; [lia|rewrite E in I; destruct I].
      + exists (Some l). split; [reflexivity|]. cbv zeta. destruct (HL l eq_refl) as [H|[_ H]].
        * split; [lia|]. split; [left; split; [lia|reflexivity]|]. intros t Z. injection Z as <-. auto.
        * destruct LPN as [E|E]; [assert (is_pending p l = true) by (apply IPS; lia); congruence|]. rewrite E in H. cbn [length] in H.
          split; [lia|]. split; [left; split; [lia|reflexivity]|]. intros t Z. injection Z as <-. auto.
    - destruct HT as (l & -> & b & EN & EH). cbn [map_to is_pre_confirmed_or_none]. exists (Some l).
      fold chain. rewrite (find_hash_unique chain h l b ND EN EH). split; [reflexivity|]. cbv zeta.
      assert (N.to_nat l < length chain)%nat by (apply nth_error_Some; congruence).
      split; [lia|]. split; [left; split; [lia|reflexivity]|]. intros t Z. injection Z as <-. auto.
    - destruct HT as (l & -> & EL). cbn [map_to is_pre_confirmed_or_none]. rewrite EL. exists (Some l). split; [reflexivity|]. cbv zeta.
      destruct (HL l eq_refl) as [H|[H _]]; [|discriminate]. split; [lia|]. split; [left; split; [lia|reflexivity]|]. intros t Z. injection Z as <-. auto.
    - destruct HT as (l & -> & EL). cbn [map_to is_pre_confirmed_or_none]. exists None. split; [reflexivity|]. cbv zeta. split; [lia|].
      split; [left; split; [lia|reflexivity]|intros t Z; discriminate].
    - subst last. cbn [map_to is_pre_confirmed_or_none]. exists None. split; [reflexivity|]. cbv zeta. split; [lia|]. split; [split; [lia|reflexivity]|intros t Z; discriminate].
    - subst last. cbn [map_to is_pre_confirmed_or_none]. exists None. split; [reflexivity|]. cbv zeta. split; [lia|]. split; [split; [lia|reflexivity]|intros t Z; discriminate]. }
  destruct HTO as (to & EMT & LZ & HLT & HTL). set (z := S (N.to_nat (match to with Some t => N.min t latest | None => latest end))) in *.
  rewrite (expected_answers chain pend first last z tp (wants addresses keys) LZ ltac:(lia) ltac:(intros b I; apply PB, I) HLT).
  rewrite <- PE.
  set (g := get_events_from bloom_bytes range_bytes sip0 sip1 false limit s l1 watched v09 q).
  set (from_id := replace_pending p (q_from q)).
  assert (HFR : from_id = Some PreConfirmed /\ first = latest + 1 \/
    (from_id <> Some PreConfirmed /\ (forall n, from_id = Some (Number n) -> n = first) /\
     exists from, map_from (s_db s) l1 from_id = Some from /\ match from with Some f => f | None => 0 end = first)).
  { unfold from_id. destruct (q_from q) as [[n|h| | |]|] eqn:EF; cbn [first_block replace_pending] in *.
    - subst n. destruct (is_pending p first) eqn:IP.
      + left. split; [reflexivity|]. apply newer in IP. fold latest in IP. lia.
      + right. split; [discriminate|]. split; [intros n E; injection E as <-; reflexivity|]. exists (Some first). split; reflexivity.
    - right. split; [discriminate|]. split; [discriminate|]. destruct HF as (b & EN & EH). exists (Some first). cbn [map_from]. fold chain.
      rewrite (find_hash_unique chain h first b ND EN EH). split; reflexivity.
    - right. split; [discriminate|]. split; [discriminate|]. exists (Some first). cbn [map_from]. rewrite HF. split; reflexivity.
    - right. split; [discriminate|]. split; [discriminate|]. exists (Some latest). cbn [map_from]. replace (height (s_db s) =? 0) with false by lia. split; [reflexivity|]. lia.
    - left. split; [reflexivity|]. lia.
    - right. split; [discriminate|]. split; [discriminate|]. exists None. split; [reflexivity|]. symmetry. exact HF. }
  assert (GU : forall ct, g ct =
    match from_id, to_id with
    | Some PreConfirmed, _ =>
        if tp then
          match get_pending_events p chunk keys addresses ct with
          | None => InvalidContinuationToken
          | Some (pending_events, pending_ct) => Page pending_events pending_ct
          end
        else Page [] None
    | Some (Number from), Some PreConfirmed =>
        if pb_number (pd_pre_confirmed p) <? from then Page [] None else
          match map_from (s_db s) l1 from_id with
          | None => BlockNotFound
          | Some from =>
              if match from, to with Some f, Some t => t <? f | _, _ => false end then Page [] None
              else core bloom_bytes range_bytes sip0 sip1 s limit addresses keys chunk p from to tp ct
          end
    | _, _ =>
          match map_from (s_db s) l1 from_id with
          | None => BlockNotFound
          | Some from =>
              if match from, to with Some f, Some t => t <? f | _, _ => false end then Page [] None
              else core bloom_bytes range_bytes sip0 sip1 s limit addresses keys chunk p from to tp ct
          end
    end).
  { intros ct. unfold g, get_events_from, core, ask. cbv zeta. replace (16 <? length (q_keys q))%nat with false by lia.
    unfold page_size_limit. replace (1024 <? N.of_nat (q_chunk_size q)) with false by lia. fold latest. rewrite EP. fold from_id. fold to_id. fold tp.
    fold addresses. fold keys. fold chunk. rewrite EMT. reflexivity. }
  clearbody g.
  destruct HFR as [[EF EFI]|(NF & NUM & from & EMF & EFR)].
  - rewrite EF in GU. assert (Z0 : (z - N.to_nat first)%nat = 0%nat) by lia. rewrite Z0. cbn [emitted_in seq flat_map filter map app].
    destruct tp.
    + destruct (start_token_ok p keys addresses distinct) as [ST SL].
      assert (PT : forall t, pending_token p keys addresses t -> printable t).
      { intros t [IP LO]. apply IPS in IP. split; lia. }
      assert (GP : forall t, pending_token p keys addresses t -> g (Some t) = match get_pending_events p chunk keys addresses (Some t) with
         | Some (evs, ct) => Page evs ct | None => InvalidContinuationToken end).
      { intros t _. rewrite GU. destruct (get_pending_events p chunk keys addresses (Some t)) as [[? ?]|]; reflexivity. }
      destruct (get_pending_step p keys addresses distinct chunk None (start_token p) ltac:(unfold chunk; lia)) as [[E LE]|(evs & t & E & LE & EQ & PTT & LT)].
      { right. split; [reflexivity|]. intros t' Z. discriminate. }
      * rewrite SL in *. eexists. split; [apply ft_last; rewrite GU, E; reflexivity|]. split; [apply app_nil_r|]. repeat constructor. exact LE.
      * rewrite SL in *.
        destruct (pending_followed p keys addresses distinct g chunk ltac:(unfold chunk; lia) PT GP _ t (Nat.lt_succ_diag_r _) PTT) as (pages & F & EC & FA).
        eexists. split; [eapply ft_more; [rewrite GU, E; reflexivity|apply PT, PTT|exact F]|]. cbn [concat]. rewrite EC, EQ. split; [reflexivity|]. constructor; assumption.
    + eexists. split; [apply ft_last; rewrite GU; reflexivity|]. split; [reflexivity|]. repeat constructor. cbn [length]. lia.
  - assert (GC : forall ct, g ct = if match from, to with Some f, Some t => t <? f | _, _ => false end then Page [] None
              else core bloom_bytes range_bytes sip0 sip1 s limit addresses keys chunk p from to tp ct).
    { intros ct. rewrite GU, EMF. destruct from_id as [[n|h| | |]|] eqn:EFI; try reflexivity; [|congruence].
      specialize (NUM n eq_refl). subst n. replace (pb_number (pd_pre_confirmed p) <? first) with false by lia. destruct to_id as [[| | | |]|]; reflexivity. }
    destruct (match from, to with Some f, Some t => t <? f | _, _ => false end) eqn:CMP.
    + destruct from as [f|]; [|discriminate]. destruct to as [t|]; [|discriminate]. destruct (HTL t eq_refl) as [EL TPF]. subst f.
      eexists. split; [apply ft_last; apply GC|]. rewrite TPF, app_nil_r.
      replace (z - N.to_nat first)%nat with 0%nat by lia. split; [reflexivity|]. repeat constructor. cbn [length]. lia.
    + assert (FR : forall f, from = Some f -> f <= height (s_db s) - 1 + 1) by (intros f ->; fold latest; lia).
      destruct (core_followed bloom_bytes range_bytes sip0 sip1 P PR K s limit addresses keys chunk SY LP ltac:(unfold chunk; lia) LK' NE p distinct newer SMP
        few_stored few_pending from to tp FR (S (measure s to addresses keys (default_from from) 0)) None) as (pages & F & EC & FA).
      * intros t Z. discriminate.
      * cbv beta iota. lia.
      * left. reflexivity.
      * exists pages. split; [apply (followed_text_ext _ g (fun ct => eq_sym (GC ct)) _ _ F)|]. split; [|exact FA].
        rewrite EC. f_equal. f_equal. unfold remaining. cbn [skipn]. rewrite M_expected. fold chain. fold latest. fold z.
        assert (ED : default_from from = N.to_nat first) by (unfold default_from; destruct from; lia). rewrite ED. reflexivity.
Qed.
