(** Lemmas for ClassHashProperties.v. *)
From Coq Require Import List Bool Arith NArith ZArith Lia ZifyBool ZifyNat ZifyN.
From Verif Require Import Radix MerkleModel HashModel CommitModel CommitSpec CommitProof
  ClassHashModel ClassHashSpec.
From Verif Require FeltModel FeltSpec FeltProof TxHashProof.
Import ListNotations.
Local Open Scope N_scope.
Ltac Zify.zify_post_hook ::= Z.to_euclidean_division_equations.

(** ---- UTF-8 ---- *)

Lemma cons_eq {A} (x y : A) l m : x :: l = y :: m -> x = y /\ l = m.
Proof. intros E. injection E. auto. Qed.
Ltac conses E := repeat (apply cons_eq in E; let H := fresh "H" in destruct E as [H E]).
Lemma utf8_char_prefix c c' r r' : scalar c -> scalar c' ->
  utf8_char c ++ r = utf8_char c' ++ r' -> c = c' /\ r = r'.
Proof.
  unfold scalar, utf8_char. intros S S' E.
  destruct (N.ltb_spec c 128), (N.ltb_spec c' 128),
    (N.ltb_spec c 2048), (N.ltb_spec c' 2048),
    (N.ltb_spec c 65536), (N.ltb_spec c' 65536); try lia; cbn [app] in E;
    conses E; (split; [lia|try exact E; exfalso; lia]).
Qed.
Lemma utf8_char_ne c : utf8_char c <> [].
Proof.
  unfold utf8_char. destruct (c <? 128); [discriminate|]. destruct (c <? 2048); [discriminate|].
  destruct (c <? 65536); discriminate.
Qed.
Lemma utf8_inj s : forall s', Forall scalar s -> Forall scalar s' -> utf8 s = utf8 s' -> s = s'.
Proof.
  unfold utf8. induction s as [|c s IH]; intros [|c' s'] F F' E; cbn [flat_map] in E; auto.
  - destruct (utf8_char c') eqn:Q; [destruct (utf8_char_ne c' Q)|discriminate].
  - destruct (utf8_char c) eqn:Q; [destruct (utf8_char_ne c Q)|discriminate].
  - inversion F; inversion F'; subst. apply utf8_char_prefix in E; auto. destruct E as [-> E].
    f_equal. apply IH; auto.
Qed.
Lemma utf8_bytes s : Forall scalar s -> Forall (fun b => b < 256) (utf8 s).
Proof.
  unfold utf8. induction 1 as [|c s S _ IH]; cbn [flat_map]; [constructor|].
  apply Forall_app. split; [|exact IH]. unfold utf8_char, scalar in *.
  destruct (N.ltb_spec c 128); [repeat constructor; lia|].
  destruct (N.ltb_spec c 2048); [repeat constructor; lia|].
  destruct (N.ltb_spec c 65536); repeat constructor; lia.
Qed.
Lemma utf8_ascii s : Forall (fun c => c < 128) s -> utf8 s = s.
Proof.
  unfold utf8. induction 1 as [|c s L _ IH]; cbn [flat_map]; auto. rewrite IH. unfold utf8_char.
  apply N.ltb_lt in L. rewrite L. reflexivity.
Qed.

(** ---- characters ---- *)

Definition unhex (c : N) : N := if c =? 32 then 0 else if c <? 58 then c - 48 else c - 87.
Definition ununit (bs : list N) : option (N * list N) :=
  match bs with
  | a :: b :: c :: d :: r => Some (unhex a * 4096 + unhex b * 256 + unhex c * 16 + unhex d, r)
  | _ => None
  end.
Definition unletter (y : N) : N :=
  if y =? 98 then 8 else if y =? 102 then 12 else if y =? 110 then 10 else if y =? 114 then 13
  else if y =? 116 then 9 else y.
Definition unchar (bs : list N) : option (N * list N) :=
  match bs with
  | [] => None
  | x :: r =>
      if x =? 92 then
        match r with
        | [] => None
        | y :: r =>
            if y =? 117 then
              match ununit r with
              | None => None
              | Some (u, r) =>
                  if (55296 <=? u) && (u <? 56320) then
                    match r with
                    | _ :: _ :: r =>
                        match ununit r with
                        | Some (w, r) => Some (65536 + (u - 55296) * 1024 + (w - 56320), r)
                        | None => None
                        end
                    | _ => None
                    end
                  else Some (u, r)
              end
            else Some (unletter y, r)
        end
      else Some (x, r)
  end.

Lemma unhex_digit d : d < 16 -> unhex (hex_digit d) = d.
Proof.
  intros L. unfold unhex, hex_digit. destruct (N.ltb_spec d 10).
  - destruct (N.eqb_spec (48 + d) 32); [lia|]. destruct (N.ltb_spec (48 + d) 58); lia.
  - destruct (N.eqb_spec (87 + d) 32); [lia|]. destruct (N.ltb_spec (87 + d) 58); lia.
Qed.
Lemma ununit_hex4 u r : u < 65536 -> ununit (hex4 u ++ r) = Some (u, r).
Proof.
  intros L. unfold hex4. cbn [app ununit]. rewrite (unhex_digit (u mod 16)) by lia.
  replace (unhex (if u <? 4096 then 32 else hex_digit (u / 4096))) with (u / 4096)
    by (destruct (N.ltb_spec u 4096); [change (unhex 32) with 0|rewrite unhex_digit]; lia).
  replace (unhex (if u <? 256 then 32 else hex_digit (u / 256 mod 16))) with (u / 256 mod 16)
    by (destruct (N.ltb_spec u 256); [change (unhex 32) with 0|rewrite unhex_digit]; lia).
  replace (unhex (if u <? 16 then 32 else hex_digit (u / 16 mod 16))) with (u / 16 mod 16)
    by (destruct (N.ltb_spec u 16); [change (unhex 32) with 0|rewrite unhex_digit]; lia).
  f_equal. f_equal. lia.
Qed.

Lemma ascii_all (Q : N -> Prop) : Forall Q (map N.of_nat (seq 0 128)) -> forall c, c < 128 -> Q c.
Proof.
  intros F c L. rewrite Forall_forall in F. apply F. apply in_map_iff. exists (N.to_nat c).
  split; [apply Nnat.N2Nat.id|]. apply in_seq. lia.
Qed.

Lemma write_char_big c : 128 <= c ->
  write_char c = flat_map (fun u => [92; 117] ++ hex4 u) (utf16 c).
Proof.
  intros B. unfold write_char.
  repeat match goal with
         | |- context [if c =? ?k then _ else _] => destruct (N.eqb_spec c k); [lia|]
         | |- context [if c <? ?k then _ else _] => destruct (N.ltb_spec c k); [lia|]
         end.
  reflexivity.
Qed.

Lemma unchar_write c r : scalar c -> unchar (write_char c ++ r) = Some (c, r).
Proof.
  intros S. destruct (N.ltb_spec c 128) as [L|B].
  - revert c L S. apply (ascii_all (fun c => scalar c -> unchar (write_char c ++ r) = Some (c, r))).
    cbn [seq map]. repeat (constructor; [intros _; reflexivity|]). constructor.
  - rewrite write_char_big by lia. unfold utf16, scalar in *. destruct (N.ltb_spec c 65536).
    + cbn [flat_map]. rewrite app_nil_r, <- app_assoc. cbn [app]. unfold unchar.
      change (92 =? 92) with true. change (117 =? 117) with true. cbv iota.
      rewrite ununit_hex4 by lia. cbv iota.
      destruct (N.leb_spec 55296 c), (N.ltb_spec c 56320); try lia; reflexivity.
    + cbn [flat_map]. rewrite app_nil_r, <- !app_assoc. cbn [app]. unfold unchar.
      change (92 =? 92) with true. change (117 =? 117) with true. cbv iota.
      rewrite ununit_hex4 by lia. cbv iota.
      destruct (N.leb_spec 55296 (55296 + (c - 65536) / 1024)); [|lia].
      destruct (N.ltb_spec (55296 + (c - 65536) / 1024) 56320); [|lia]. cbn [andb].
      rewrite ununit_hex4 by lia. cbv iota. f_equal. f_equal. lia.
Qed.
Lemma write_char_head c : exists x l, write_char c = x :: l /\ x <> 34.
Proof.
  destruct (N.ltb_spec c 128) as [L|B].
  - revert c L. apply ascii_all. cbn [seq map].
    repeat (constructor; [eexists; eexists; split; [reflexivity|discriminate]|]). constructor.
  - rewrite write_char_big by lia. unfold utf16. destruct (c <? 65536); cbn [flat_map app];
      eexists; eexists; (split; [reflexivity|discriminate]).
Qed.

Lemma chars_prefix s : forall s' r r', Forall scalar s -> Forall scalar s' ->
  flat_map write_char s ++ 34 :: r = flat_map write_char s' ++ 34 :: r' -> s = s' /\ r = r'.
Proof.
  induction s as [|c s IH]; intros [|c' s'] r r' F F' E; cbn [flat_map app] in E.
  - injection E as ->. auto.
  - destruct (write_char_head c') as (x & l & Q & D). rewrite Q in E. cbn in E. injection E as E _.
    congruence.
  - destruct (write_char_head c) as (x & l & Q & D). rewrite Q in E. cbn in E. injection E as E _.
    congruence.
  - inversion F; inversion F'; subst. rewrite <- !app_assoc in E.
    assert (U := f_equal unchar E). rewrite !unchar_write in U by assumption.
    injection U as -> U. apply IH in U; auto. destruct U as [-> ->]. auto.
Qed.
Lemma string_prefix s s' r r' : Forall scalar s -> Forall scalar s' ->
  write_string s ++ r = write_string s' ++ r' -> s = s' /\ r = r'.
Proof.
  unfold write_string. intros F F' E. rewrite <- !app_assoc in E. cbn [app] in E.
  injection E as E. apply chars_prefix in E; auto.
Qed.

(** ---- values ---- *)

Section Ind.
  Variable Q : json -> Prop.
  Hypothesis Hnull : Q JNull.
  Hypothesis Hbool : forall b, Q (JBool b).
  Hypothesis Hnumber : forall t, Q (JNumber t).
  Hypothesis Hstring : forall s, Q (JString s).
  Hypothesis Harray : forall l, Forall Q l -> Q (JArray l).
  Hypothesis Hobject : forall l, Forall (fun e => Q (snd e)) l -> Q (JObject l).
  Fixpoint json_ind' (v : json) : Q v :=
    match v with
    | JNull => Hnull
    | JBool b => Hbool b
    | JNumber t => Hnumber t
    | JString s => Hstring s
    | JArray l =>
        Harray l ((fix go (l : list json) : Forall Q l :=
                     match l with
                     | [] => Forall_nil _
                     | x :: l' => Forall_cons x (json_ind' x) (go l')
                     end) l)
    | JObject l =>
        Hobject l ((fix go (l : list (str * json)) : Forall (fun e => Q (snd e)) l :=
                      match l with
                      | [] => Forall_nil _
                      | e :: l' => Forall_cons e (json_ind' (snd e)) (go l')
                      end) l)
    end.
End Ind.

Lemma json_all_array num q l : json_all num q (JArray l) <-> Forall (json_all num q) l.
Proof.
  cbn [json_all]. induction l as [|x l IH]; [split; auto|]. rewrite IH. split.
  - intros [A B]. constructor; auto.
  - intros F. inversion F; auto.
Qed.
Lemma json_all_object num q l :
  json_all num q (JObject l) <-> Forall (fun e => q (fst e) /\ json_all num q (snd e)) l.
Proof.
  cbn [json_all]. induction l as [|[k x] l IH]; [split; auto|]. rewrite IH. split.
  - intros (A & B & C). constructor; auto.
  - intros F. inversion F; subst. cbn in *. tauto.
Qed.

Definition entry_text (e : str * json) : list N :=
  write_string (fst e) ++ text ": " ++ write (snd e).
Lemma write_array l : write (JArray l) = 91 :: joined (map write l) ++ [93].
Proof.
  cbn [write]. change (text "[") with [91]. change (text "]") with [93]. cbn [app]. f_equal. f_equal.
  destruct l as [|x l]; [reflexivity|]. cbn [map joined app]. f_equal.
  induction l as [|y l IH]; [reflexivity|]. cbn [map flat_map]. rewrite IH, <- app_assoc. reflexivity.
Qed.
Lemma write_object l : write (JObject l) = 123 :: joined (map entry_text l) ++ [125].
Proof.
  cbn [write]. change (text "{") with [123]. change (text "}") with [125]. cbn [app]. f_equal. f_equal.
  destruct l as [|[k x] l]; [reflexivity|]. cbn [map joined app]. unfold entry_text at 1. cbn [fst snd].
  rewrite <- !app_assoc. f_equal. f_equal. f_equal.
  induction l as [|[k' y] l IH]; [reflexivity|]. cbn [map flat_map]. rewrite IH. unfold entry_text at 2.
  cbn [fst snd]. rewrite <- !app_assoc. reflexivity.
Qed.

Definition stops (r : list N) : Prop := match r with [] => True | c :: _ => ~ number_char c end.
(** [f x] can be told from any other [f y] by what follows *)
Definition codes {A} (ok : A -> Prop) (f : A -> list N) (x : A) : Prop :=
  forall y r r', ok x -> ok y -> stops r -> stops r' -> f x ++ r = f y ++ r' -> x = y /\ r = r'.
Definition starts_fine (l : list N) : Prop :=
  exists x l', l = x :: l' /\ x <> 44 /\ x <> 93 /\ x <> 125.

Lemma not_number c : ~ In c (text "0123456789+-.eE") -> ~ number_char c.
Proof. auto. Qed.
Ltac nonum := intros X; unfold number_char in X; vm_compute in X; intuition discriminate.

Lemma tail_prefix {A} (ok : A -> Prop) (f : A -> list N) e :
  (e = 93 \/ e = 125) ->
  forall l l' r r', Forall (codes ok f) l -> Forall ok l -> Forall ok l' ->
  flat_map (fun y => text ", " ++ y) (map f l) ++ e :: r =
  flat_map (fun y => text ", " ++ y) (map f l') ++ e :: r' -> l = l' /\ r = r'.
Proof.
  intros He. assert (NE : e <> 44) by (destruct He as [->| ->]; discriminate).
  induction l as [|x l IH]; intros [|y l'] r r' C F F' E; cbn [map flat_map] in E.
  - cbn [app] in E. injection E as ->. auto.
  - change (text ", ") with [44; 32] in E. cbn in E. injection E as E _. contradiction.
  - change (text ", ") with [44; 32] in E. cbn in E. injection E as E _. congruence.
  - inversion C; inversion F; inversion F'; subst.
    change (text ", ") with [44; 32] in E. rewrite <- !app_assoc in E. cbn [app] in E.
    injection E as E.
    assert (ST : forall (m : list (list N)) s,
               stops (flat_map (fun y => [44; 32] ++ y) m ++ e :: s)).
    { intros [|z m] s; cbn.
      - destruct He as [->| ->]; nonum.
      - nonum. }
    specialize (H1 y _ _ H5 H9 (ST _ _) (ST _ _) E). destruct H1 as [-> E'].
    change (fun y => [44; 32] ++ y) with (fun y => text ", " ++ y) in E'.
    destruct (IH l' r r' H2 H6 H10 E') as [-> ->]. auto.
Qed.
Lemma joined_prefix {A} (ok : A -> Prop) (f : A -> list N) e :
  (e = 93 \/ e = 125) -> (forall x, ok x -> starts_fine (f x)) ->
  forall l l' r r', Forall (codes ok f) l -> Forall ok l -> Forall ok l' ->
  joined (map f l) ++ e :: r = joined (map f l') ++ e :: r' -> l = l' /\ r = r'.
Proof.
  intros He SF [|x l] [|y l'] r r' C F F' E; cbn [map joined] in E.
  - cbn in E. injection E as ->. auto.
  - inversion F'; subst. destruct (SF y H1) as (z & m & Q & D1 & D2 & D3). rewrite Q in E. cbn in E.
    injection E as E _. destruct He; congruence.
  - inversion F; subst. destruct (SF x H1) as (z & m & Q & D1 & D2 & D3). rewrite Q in E. cbn in E.
    injection E as E _. destruct He; congruence.
  - inversion C; inversion F; inversion F'; subst. rewrite <- !app_assoc in E.
    assert (ST : forall (m : list (list N)) s,
               stops (flat_map (fun y => text ", " ++ y) m ++ e :: s)).
    { intros [|z m] s; cbn.
      - destruct He as [->| ->]; nonum.
      - nonum. }
    specialize (H1 y _ _ H5 H9 (ST _ _) (ST _ _) E). destruct H1 as [-> E'].
    destruct (tail_prefix ok f e He l l' r r' H2 H6 H10 E') as [-> ->]. auto.
Qed.

Lemma number_prefix t : forall t' r r', Forall number_char t -> Forall number_char t' ->
  stops r -> stops r' -> t ++ r = t' ++ r' -> t = t' /\ r = r'.
Proof.
  induction t as [|c t IH]; intros [|c' t'] r r' F F' S S' E; cbn [app] in E.
  - auto.
  - subst r. inversion F'; subst. cbn in S. contradiction.
  - subst r'. inversion F; subst. cbn in S'. contradiction.
  - injection E as -> E. inversion F; inversion F'; subst. apply IH in E; auto.
    destruct E as [-> ->]. auto.
Qed.

Notation json_ok := (json_all number_text (Forall scalar)).

(** the first character of a value, by its kind *)
Definition first_ok (v : json) (c : N) : Prop :=
  match v with
  | JNull => c = 110
  | JBool b => c = if b then 116 else 102
  | JNumber _ => number_char c
  | JString _ => c = 34
  | JArray _ => c = 91
  | JObject _ => c = 123
  end.
Lemma write_first v : json_ok v -> exists c l, write v = c :: l /\ first_ok v c.
Proof.
  destruct v as [|[] |t|s|l|l]; intros K.
  - do 2 eexists. split; [reflexivity|reflexivity].
  - do 2 eexists. split; [reflexivity|reflexivity].
  - do 2 eexists. split; [reflexivity|reflexivity].
  - destruct K as [NE F]. destruct t as [|c t]; [contradiction|]. inversion F; subst.
    do 2 eexists. split; [reflexivity|assumption].
  - do 2 eexists. split; [reflexivity|reflexivity].
  - rewrite write_array. do 2 eexists. split; [reflexivity|reflexivity].
  - rewrite write_object. do 2 eexists. split; [reflexivity|reflexivity].
Qed.
Lemma write_starts v : json_ok v -> starts_fine (write v).
Proof.
  intros K. destruct (write_first v K) as (c & l & E & F). exists c, l. split; [exact E|].
  destruct v as [|[] |t|s|m|m]; cbn in F; try (subst c; repeat split; discriminate).
  repeat split; intros ->; revert F; nonum.
Qed.

Lemma write_codes v : codes json_ok write v.
Proof.
  induction v as [|b|t|s|l IH|l IH] using json_ind'; intros v' r r' K K' S S' E;
    assert (E0 := E);
    destruct (write_first _ K) as (c & m & W & F), (write_first _ K') as (c' & m' & W' & F');
    rewrite W, W' in E; cbn [app] in E; injection E as EC _; subst c'; clear W W' m m'.
  - destruct v' as [|[] |t'|s'|l'|l']; cbn in F, F'; subst; try discriminate;
      try (revert F'; nonum).
    apply app_inv_head in E0. auto.
  - destruct v' as [|b'|t'|s'|l'|l']; cbn in F, F'; destruct b; try destruct b'; subst; try discriminate;
      try (revert F'; nonum).
    + apply app_inv_head in E0. auto.
    + apply app_inv_head in E0. auto.
  - destruct v' as [|[] |t'|s'|l'|l']; cbn in F, F'; subst; try (revert F; nonum).
    destruct K as [_ K], K' as [_ K']. cbn [write] in E0.
    apply number_prefix in E0; auto. destruct E0 as [-> ->]. auto.
  - destruct v' as [|[] |t'|s'|l'|l']; cbn in F, F'; subst; try discriminate; try (revert F'; nonum).
    cbn [write] in E0. apply string_prefix in E0; auto. destruct E0 as [-> ->]. auto.
  - destruct v' as [|[] |t'|s'|l'|l']; cbn in F, F'; subst; try discriminate; try (revert F'; nonum).
    rewrite !write_array in E0. cbn [app] in E0. injection E0 as E0. rewrite <- !app_assoc in E0.
    apply json_all_array in K, K'.
    apply (joined_prefix json_ok write 93) in E0; auto; [|apply write_starts].
    destruct E0 as [-> ->]. auto.
  - destruct v' as [|[] |t'|s'|l'|l']; cbn in F, F'; subst; try discriminate; try (revert F'; nonum).
    rewrite !write_object in E0. cbn [app] in E0. injection E0 as E0. rewrite <- !app_assoc in E0.
    apply json_all_object in K, K'.
    apply (joined_prefix (fun e => Forall scalar (fst e) /\ json_ok (snd e)) entry_text 125) in E0; auto.
    + destruct E0 as [-> ->]. auto.
    + intros e _. unfold entry_text, write_string. do 2 eexists. split; [reflexivity|].
      repeat split; discriminate.
    + clear E0 K K'. induction IH as [|e l Q _ IH]; constructor; auto.
      intros e' u u' [K1 K2] [K1' K2'] T T' E. unfold entry_text in E. rewrite <- !app_assoc in E.
      apply string_prefix in E; auto. destruct E as [E1 E]. apply app_inv_head in E.
      destruct e as [k x], e' as [k' x']. cbn [fst snd] in *.
      destruct (Q x' u u' K2 K2' T T' E) as [-> ->]. subst. auto.
Qed.
Lemma write_inj v v' : json_ok v -> json_ok v' -> write v = write v' -> v = v'.
Proof.
  intros K K' E. apply (write_codes v v' [] []); cbn; auto. rewrite E. reflexivity.
Qed.

(** ---- Python ---- *)

Lemma hex4_py u : 4096 <= u -> u < 65536 -> text "\u" ++ hex4 u = py_unit u.
Proof.
  intros B L. unfold py_unit, hex4. f_equal.
  destruct (N.ltb_spec u 4096), (N.ltb_spec u 256), (N.ltb_spec u 16); try lia.
  unfold rdigits. cbn [app map]. unfold hex_digit.
  replace (u / 16 / 16 / 16 mod 16) with (u / 4096) by lia.
  replace (u / 16 / 16 mod 16) with (u / 256 mod 16) by lia. reflexivity.
Qed.
Lemma write_char_py c : scalar c -> plain_char c -> write_char c = py_char c.
Proof.
  intros S PC. destruct (N.ltb_spec c 128) as [L|B].
  - revert c L S PC. apply (ascii_all (fun c => scalar c -> plain_char c -> write_char c = py_char c)).
    cbn [seq map]. repeat (constructor; [intros _ PC; try reflexivity|]); [|constructor].
    exfalso. destruct PC as [PC|PC]; vm_compute in PC; [discriminate|]. apply PC. reflexivity.
  - rewrite write_char_big by lia. unfold plain_char, scalar in *. unfold py_char.
    repeat match goal with
           | |- context [if c =? ?k then _ else _] => destruct (N.eqb_spec c k); [lia|]
           end.
    destruct (N.leb_spec 32 c); [|lia]. destruct (N.leb_spec c 126); [lia|]. cbn [andb].
    unfold utf16. destruct (N.ltb_spec c 65536); cbn [flat_map]; rewrite app_nil_r.
    + apply hex4_py; lia.
    + f_equal; apply hex4_py; lia.
Qed.
Lemma write_string_py s : Forall scalar s -> Forall plain_char s -> write_string s = py_string s.
Proof.
  intros F G. unfold write_string, py_string. f_equal. f_equal.
  induction s as [|c s IH]; [reflexivity|]. inversion F; inversion G; subst. cbn [flat_map].
  rewrite write_char_py, IH by assumption. reflexivity.
Qed.
Lemma write_py v : json_ok v -> json_all (fun _ => True) (Forall plain_char) v ->
  write v = py_dumps v.
Proof.
  induction v as [|b|t|s|l IH|l IH] using json_ind'; intros K PL.
  - reflexivity.
  - destruct b; reflexivity.
  - reflexivity.
  - apply write_string_py; assumption.
  - rewrite write_array. cbn [py_dumps]. change (text "[") with [91]. change (text "]") with [93].
    cbn [app]. f_equal. f_equal. f_equal. apply json_all_array in K, PL.
    induction IH as [|x l Q _ IH]; [reflexivity|]. inversion K; inversion PL; subst. cbn [map].
    rewrite Q, IH by assumption. reflexivity.
  - rewrite write_object. cbn [py_dumps]. change (text "{") with [123]. change (text "}") with [125].
    cbn [app]. f_equal. f_equal. f_equal. apply json_all_object in K, PL.
    induction IH as [|[k x] l Q _ IH]; [reflexivity|].
    inversion K as [|? ? [K1 K2] K3]; inversion PL as [|? ? [P1 P2] P3]; subst. cbn [map].
    rewrite IH by assumption. unfold entry_text. cbn [fst snd] in *.
    rewrite Q, write_string_py by assumption. reflexivity.
Qed.

(** ---- numbers as text ---- *)

Lemma decimal_chars n : Forall (fun c => 32 <= c < 127) (decimal n).
Proof.
  unfold decimal. destruct (min_digits_spec 10 n ltac:(lia)) as (_ & D & _). revert D.
  generalize (min_digits 10 n). induction l as [|d l IH]; intros D; [constructor|].
  inversion D; subst. constructor; [lia|auto].
Qed.
Lemma map_plus l : forall l', map (fun d => d + 48) l = map (fun d => d + 48) l' -> l = l'.
Proof.
  induction l as [|a l IH]; intros [|b l'] E; try discriminate; auto. cbn [map] in E.
  apply cons_eq in E. destruct E as [E1 E]. f_equal; [lia|auto].
Qed.
Lemma decimal_inj n m : decimal n = decimal m -> n = m.
Proof.
  unfold decimal. intros E. apply map_plus in E.
  destruct (min_digits_spec 10 n ltac:(lia)) as (V & _), (min_digits_spec 10 m ltac:(lia)) as (V' & _).
  rewrite <- V, <- V', E. reflexivity.
Qed.

(** ---- types in the old form ---- *)

Fixpoint spaced (s : str) : str :=
  match s with
  | [] => []
  | c :: s' =>
      (if (c =? 58) && match s' with d :: _ => d =? 32 | [] => false end then [32; 58] else [c]) ++
      spaced s'
  end.
Lemma replace_spaced s : replace (text ": ") (text " : ") s = spaced s.
Proof.
  unfold replace. change (text ": ") with [58; 32]. change (text " : ") with [32; 58; 32].
  induction s as [|c s IH]; [reflexivity|]. cbn [replace_from spaced starts].
  rewrite (N.eqb_sym 58 c). destruct (N.eqb_spec c 58); cbn [andb].
  - destruct s as [|d s]; [subst; cbn; reflexivity|]. rewrite (N.eqb_sym 32 d).
    destruct (N.eqb_spec d 32) as [->|D]; cbn [andb].
    + change (length [58; 32] - 1)%nat with 1%nat. cbn [replace_from app].
      cbn [replace_from starts] in IH. change (58 =? 32) with false in IH. cbn [andb] in IH.
      rewrite <- IH. reflexivity.
    + rewrite IH. reflexivity.
  - rewrite IH. reflexivity.
Qed.

Fixpoint pended (k : nat) (s : str) : str :=
  match s with
  | [] => repeat 32 k
  | c :: s' =>
      if c =? 32 then pended (S k) s'
      else if c =? 58 then repeat 32 (if (2 <=? k)%nat then k - 1 else k) ++ 58 :: pended 0 s'
      else repeat 32 k ++ c :: pended 0 s'
  end.
Notation rep2 := (replace_from [32; 32; 58] [32; 58]).
Lemma rep2_nil k : rep2 0 (repeat 32 k) = repeat 32 k.
Proof.
  induction k as [|[|[|k]] IH]; try reflexivity.
  change (repeat 32 (S (S (S k)))) with (32 :: 32 :: 32 :: repeat 32 k) in *.
  change (repeat 32 (S (S k))) with (32 :: 32 :: repeat 32 k) in *.
  cbn [replace_from starts]. cbn [andb N.eqb Pos.eqb]. cbn [replace_from] in IH. f_equal. exact IH.
Qed.
Lemma starts_spaces k c s : c <> 58 \/ k <> 2%nat -> c <> 32 ->
  starts [32; 32; 58] (repeat 32 k ++ c :: s) = false.
Proof.
  intros D D'. destruct k as [|[|[|k]]]; cbn [repeat app starts].
  - destruct (N.eqb_spec 32 c); [congruence|reflexivity].
  - change (32 =? 32) with true. destruct (N.eqb_spec 32 c); [congruence|reflexivity].
  - change (32 =? 32) with true. destruct (N.eqb_spec 58 c); [|reflexivity]. destruct D; congruence.
  - reflexivity.
Qed.
Lemma rep2_step c s : starts [32; 32; 58] (c :: s) = false -> rep2 0 (c :: s) = c :: rep2 0 s.
Proof. intros E. cbn [replace_from]. rewrite E. reflexivity. Qed.
Lemma rep2_other k c s : c <> 58 -> c <> 32 -> rep2 0 (repeat 32 k ++ c :: s) = repeat 32 k ++ c :: rep2 0 s.
Proof.
  intros D D'. induction k as [|k IH].
  - cbn [repeat app]. apply rep2_step. apply (starts_spaces 0); auto.
  - change (repeat 32 (S k)) with (32 :: repeat 32 k). cbn [app].
    rewrite rep2_step, IH; [reflexivity|]. apply (starts_spaces (S k)); auto.
Qed.
Lemma rep2_colon k s : rep2 0 (repeat 32 k ++ 58 :: s) =
  repeat 32 (if (2 <=? k)%nat then k - 1 else k) ++ 58 :: rep2 0 s.
Proof.
  induction k as [|[|[|k]] IH].
  - reflexivity.
  - reflexivity.
  - reflexivity.
  - change (repeat 32 (S (S (S k)))) with (32 :: repeat 32 (S (S k))). cbn [app].
    rewrite rep2_step, IH.
    + change (2 <=? S (S k))%nat with true. change (2 <=? S (S (S k)))%nat with true. cbv iota.
      replace (S (S (S k)) - 1)%nat with (S (S (S k) - 1)) by lia. reflexivity.
    + apply (starts_spaces (S (S (S k)))); [right; discriminate|discriminate].
Qed.
Lemma rep2_pended s : forall k, rep2 0 (repeat 32 k ++ s) = pended k s.
Proof.
  induction s as [|c s IH]; intros k; cbn [pended].
  - rewrite app_nil_r. apply rep2_nil.
  - destruct (N.eqb_spec c 32) as [->|D].
    + rewrite <- IH. f_equal. clear. induction k as [|k IH]; [reflexivity|]. cbn [repeat app]. now rewrite IH.
    + destruct (N.eqb_spec c 58) as [->|D'].
      * rewrite rep2_colon. do 2 f_equal. apply (IH 0%nat).
      * rewrite rep2_other by auto. do 2 f_equal. apply (IH 0%nat).
Qed.
Lemma pended_spaced s : forall k, pended k (spaced s) = old_type k s.
Proof.
  induction s as [|c s IH]; intros k; [reflexivity|]. cbn [spaced old_type].
  destruct (N.eqb_spec c 58) as [->|D]; cbn [andb].
  - change (58 =? 32) with false. cbv iota. destruct s as [|d s].
    + cbn [app spaced pended]. change (58 =? 32) with false. change (58 =? 58) with true. reflexivity.
    + destruct (N.eqb_spec d 32) as [->|D].
      * cbn [app]. cbn [pended]. change (32 =? 32) with true. change (58 =? 32) with false.
        change (58 =? 58) with true. cbv iota.
        replace (if (2 <=? S k)%nat then S k - 1 else S k)%nat with (Nat.max 1 k)
          by (destruct (Nat.leb_spec 2 (S k)); lia).
        do 2 f_equal. apply (IH 0%nat).
      * cbn [app]. cbn [pended]. change (58 =? 32) with false. change (58 =? 58) with true. cbv iota.
        f_equal; [|f_equal; apply (IH 0%nat)]. f_equal.
        destruct d as [|p]; [reflexivity|]. repeat (destruct p as [p|p|]; try reflexivity). congruence.
  - cbn [app pended]. destruct (N.eqb_spec c 32); [apply IH|]. destruct (N.eqb_spec c 58); [congruence|].
    do 2 f_equal. apply (IH 0%nat).
Qed.
Lemma add_space_old s : add_extra_space_before_colon s = old_type 0 s.
Proof.
  unfold add_extra_space_before_colon. rewrite replace_spaced. unfold replace.
  change (text "  :") with [32; 32; 58]. change (text " :") with [32; 58].
  rewrite <- (pended_spaced s 0), <- rep2_pended. reflexivity.
Qed.
Lemma add_extra_old v : add_extra_space v = old_types v.
Proof.
  induction v as [|b|t|s|l IH|l IH] using json_ind'; try reflexivity.
  - cbn [add_extra_space old_types]. f_equal. induction IH as [|x l Q _ IH]; [reflexivity|].
    cbn [map]. now rewrite Q, IH.
  - cbn [add_extra_space old_types]. f_equal. induction IH as [|[k x] l Q _ IH]; [reflexivity|].
    cbn [map]. rewrite IH. f_equal. cbn [snd] in Q.
    destruct x; try rewrite Q; try reflexivity. unfold spaced_entry. rewrite add_space_old.
    destruct (str_eqb k (text "cairo_type") || str_eqb k (text "value")); reflexivity.
Qed.

(** ---- preparation ---- *)

Lemma str_eqb_spec a b : reflect (a = b) (str_eqb a b).
Proof. unfold str_eqb. destruct (list_eq_dec N.eq_dec a b); constructor; auto. Qed.
Lemma find_in k l v : NoDup (map fst l) -> (find k l = Some v <-> In (k, v) l).
Proof.
  induction l as [|[k' x] l IH]; intros ND; cbn [find In]; [split; [discriminate|tauto]|].
  cbn [map fst] in ND. inversion ND; subst. destruct (str_eqb_spec k' k) as [->|D].
  - split; [intros E; injection E as ->; auto|]. intros [E|E]; [congruence|].
    exfalso. apply H1. apply in_map_iff. exists (k, v). auto.
  - rewrite IH by assumption. split; [auto|]. intros [E|E]; [congruence|exact E].
Qed.
Lemma removal k (p : json -> bool) l : NoDup (map fst l) ->
  (if match find k l with Some v => p v | None => false end then remove k l else l) =
  filter (fun e => negb (str_eqb (fst e) k && p (snd e))) l.
Proof.
  induction l as [|[k' x] l IH]; intros ND; [reflexivity|]. cbn [map fst] in ND. inversion ND; subst.
  specialize (IH H2). unfold remove in *. cbn [find filter fst snd].
  destruct (str_eqb_spec k' k) as [->|D]; cbn [negb andb].
  - assert (N1 : forall m : list (str * json), ~ In k (map fst m) ->
                 filter (fun e => negb (str_eqb (fst e) k)) m = m).
    { clear. induction m as [|[k' x] m IH]; intros NI; [reflexivity|]. cbn [map fst In filter] in *.
      destruct (str_eqb_spec k' k); [tauto|]. cbn [negb]. rewrite IH; tauto. }
    assert (N2 : forall m : list (str * json), ~ In k (map fst m) ->
                 filter (fun e => negb (str_eqb (fst e) k && p (snd e))) m = m).
    { clear. induction m as [|[k' x] m IH]; intros NI; [reflexivity|]. cbn [map fst In filter] in *.
      destruct (str_eqb_spec k' k); [tauto|]. cbn [negb andb]. rewrite IH; tauto. }
    destruct (p x); cbn [negb]; rewrite ?N1, ?N2; auto.
  - destruct (match find k l with Some v => p v | None => false end); rewrite <- IH; reflexivity.
Qed.
Lemma nodup_filter (f : str * json -> bool) l : NoDup (map fst l) -> NoDup (map fst (filter f l)).
Proof.
  induction l as [|e l IH]; intros ND; [constructor|]. cbn [map filter] in *. inversion ND; subst.
  destruct (f e); [|auto]. cbn [map]. constructor; [|auto]. intros I. apply H1.
  apply in_map_iff in I. destruct I as (e' & E & I). apply filter_In in I. rewrite <- E.
  apply in_map. tauto.
Qed.
Lemma filter_twice {A} (f g : A -> bool) l : filter f (filter g l) = filter (fun x => g x && f x) l.
Proof.
  induction l as [|x l IH]; [reflexivity|]. cbn [filter]. destruct (g x); cbn [filter andb]; rewrite IH; auto.
Qed.

Definition is_nil (v : json) : bool := match v with JArray [] => true | _ => false end.
Definition is_null (v : json) : bool := match v with JNull => true | _ => false end.
Lemma second_removal vals : NoDup (map fst vals) ->
  match find (text "flow_tracking_data") vals with
  | Some JNull => Ok (JObject (remove (text "flow_tracking_data") vals))
  | _ => Ok (JObject vals)
  end = Ok (JObject (filter (fun e => negb (str_eqb (fst e) (text "flow_tracking_data") &&
                                            is_null (snd e))) vals)).
Proof.
  intros ND. rewrite <- removal by exact ND.
  destruct (find (text "flow_tracking_data") vals) as [[]|]; reflexivity.
Qed.
Lemma prepare_attribute_spec a : (forall l, a = JObject l -> NoDup (map fst l)) ->
  prepare_attribute a = Ok (covered_attribute a) /\ attribute_ok a \/
  prepare_attribute a = Err /\ ~ attribute_ok a.
Proof.
  intros ND.
  destruct a as [|b|t|s|l|l];
    try (right; split; [reflexivity|]; intros (m & E & _); discriminate).
  specialize (ND l eq_refl). cbn [prepare_attribute covered_attribute].
  assert (GO : (do vals <- Ok (filter (fun e => negb (str_eqb (fst e) (text "accessible_scopes") &&
                                                      is_nil (snd e))) l);
                match find (text "flow_tracking_data") vals with
                | Some JNull => Ok (JObject (remove (text "flow_tracking_data") vals))
                | _ => Ok (JObject vals)
                end) = Ok (JObject (filter (fun e => negb (old_entry e)) l))).
  { cbn [obind]. rewrite second_removal by (apply nodup_filter; exact ND). rewrite filter_twice.
    do 2 f_equal. apply filter_ext. intros [k x]. cbn [fst snd old_entry].
    destruct x as [|b|t|s|[|y m]|m]; cbn [is_nil is_null];
      rewrite ?andb_false_r, ?andb_true_r; cbn [negb andb]; auto. }
  assert (IN : forall v, find (text "accessible_scopes") l = Some v <->
                         In (text "accessible_scopes", v) l) by (intros v; apply find_in; exact ND).
  rewrite <- removal in GO by exact ND.
  destruct (find (text "accessible_scopes") l) as [x|] eqn:Q.
  - assert (OK : attribute_ok (JObject l) <-> exists m, x = JArray m).
    { split.
      - intros (m & E & A). injection E as <-. apply A. apply IN. reflexivity.
      - intros (m & ->). exists l. split; [reflexivity|]. intros v I. apply IN in I.
        injection I as <-. eauto. }
    destruct x as [|b|t|s|[|y m]|m];
      try (right; split; [reflexivity|]; rewrite OK; intros (? & ?); discriminate);
      left; (split; [exact GO|]); apply OK; eauto.
  - left. split; [exact GO|]. exists l. split; [reflexivity|]. intros v I. apply IN in I. discriminate.
Qed.
Lemma prepare_attributes_spec l :
  Forall (fun a => forall l, a = JObject l -> NoDup (map fst l)) l ->
  prepare_attributes l = Ok (map covered_attribute l) /\ Forall attribute_ok l \/
  prepare_attributes l = Err /\ ~ Forall attribute_ok l.
Proof.
  induction 1 as [|a l ND _ IH]; [left; auto|]. cbn [prepare_attributes map].
  destruct (prepare_attribute_spec a ND) as [[-> A]|[-> A]]; cbn [obind].
  - destruct IH as [[-> F]|[-> F]]; cbn [obind]; [left|right]; (split; [reflexivity|]).
    + constructor; auto.
    + intros G. inversion G; auto.
  - right. split; [reflexivity|]. intros G. inversion G; auto.
Qed.

(** the document is made of the covered parts *)
Lemma document_prepared d :
  prepare d = (do a <- prepare_attributes (p_attributes (ca_program d));
               Ok (let c := covered d in
                   Cairo (ca_abi d)
                     (Program a (p_builtins (ca_program d)) (p_compiler (ca_program d))
                        (p_data (ca_program d)) None (p_hints (ca_program d))
                        (p_identifiers (ca_program c)) (p_main_scope (ca_program d))
                        (p_prime (ca_program d)) (p_references (ca_program c)))
                     (ca_entries d))).
Proof.
  unfold prepare, covered. cbn [ca_program p_identifiers p_references]. cbv zeta.
  destruct (p_compiler (ca_program d)); [reflexivity|]. rewrite !add_extra_old. reflexivity.
Qed.
Lemma prepared_json d :
  cairo_json
    (Cairo (ca_abi d)
       (Program (map covered_attribute (p_attributes (ca_program d))) (p_builtins (ca_program d))
          (p_compiler (ca_program d)) (p_data (ca_program d)) None (p_hints (ca_program d))
          (p_identifiers (ca_program (covered d))) (p_main_scope (ca_program d))
          (p_prime (ca_program d)) (p_references (ca_program (covered d))))
       (ca_entries d)) = document (covered d).
Proof.
  unfold cairo_json, document, program_json.
  destruct d as [abi [at_ bu co da de hi id ms pr re] en].
  unfold covered at 3 4 5 6 7 8 9 10 11.
  cbn [ca_abi ca_program ca_entries p_attributes p_builtins p_compiler p_data p_debug p_hints
       p_identifiers p_main_scope p_prime p_references]. cbv zeta.
  destruct at_; reflexivity.
Qed.

(** ---- what holds of all strings ---- *)

Section Chars.
  Variable num : list N -> Prop.
  Variable qc : N -> Prop.
  Hypothesis Hqc : forall c, 32 <= c < 127 -> qc c.
  Notation q := (Forall qc).
  Notation all := (json_all num q).

  Lemma literal s : Forall (fun c => 32 <= c < 127) s -> q s.
  Proof. apply Forall_impl. exact Hqc. Qed.
  Lemma spaces k : q (repeat 32 k).
  Proof. induction k; cbn [repeat]; constructor; auto. apply Hqc. lia. Qed.
  Lemma old_type_all s : forall k, q s -> q (old_type k s).
  Proof.
    induction s as [|c s IH]; intros k F; cbn [old_type]; [apply spaces|]. inversion F; subst.
    destruct (c =? 32); [auto|]. destruct (c =? 58).
    - apply Forall_app. split; [apply spaces|]. constructor; [apply Hqc; lia|auto].
    - apply Forall_app. split; [apply spaces|]. constructor; auto.
  Qed.
  Lemma old_types_all v : all v -> all (old_types v).
  Proof.
    induction v as [|b|t|s|l IH|l IH] using json_ind'; intros K; try exact K.
    - cbn [old_types]. apply json_all_array in K. apply json_all_array.
      induction IH as [|x l Q _ IH]; cbn [map]; [constructor|]. inversion K; subst. constructor; auto.
    - cbn [old_types]. apply json_all_object in K. apply json_all_object.
      induction IH as [|[k x] l Q _ IH]; cbn [map]; [constructor|].
      inversion K as [|? ? [K1 K2] K3]; subst. constructor; auto. cbn [fst snd] in *. split; [exact K1|].
      destruct x; auto. cbn [json_all] in *.
      destruct (str_eqb k (text "cairo_type") || str_eqb k (text "value")); cbn [json_all]; auto.
      apply old_type_all. exact K2.
  Qed.
  Lemma attribute_all a : all a -> all (covered_attribute a).
  Proof.
    destruct a as [|b|t|s|l|l]; auto. cbn [covered_attribute]. intros K. apply json_all_object in K.
    apply json_all_object. rewrite Forall_forall in *. intros e I. apply filter_In in I. apply K. tauto.
  Qed.
  Ltac lit := apply literal; repeat (constructor; [vm_compute; split; [discriminate|reflexivity]|]); constructor.
  Lemma strings_all l : Forall q l -> all (JArray (map JString l)).
  Proof.
    intros F. apply json_all_array. induction F; cbn [map]; constructor; auto.
  Qed.
  Lemma document_all d : cairo_all num q d -> all (document (covered d)).
  Proof.
    destruct d as [abi [at_ bu co da de hi id ms pr re] en].
    unfold cairo_all, document, covered.
    cbn [ca_abi ca_program ca_entries p_attributes p_builtins p_compiler p_data p_debug p_hints
         p_identifiers p_main_scope p_prime p_references]. cbv zeta.
    intros (A1 & A2 & A3 & A4 & A5 & A6 & A7 & A8 & A9 & A10).
    assert (ID : all match co with Some _ => id | None => old_types id end)
      by (destruct co; [auto|apply old_types_all; auto]).
    assert (RE : all match co with Some _ => re | None => old_types re end)
      by (destruct co; [auto|apply old_types_all; auto]).
    apply json_all_object. constructor; [cbn [fst snd]; split; [lit|exact A1]|].
    constructor; [|constructor]. cbn [fst snd]. split; [lit|]. apply json_all_object.
    apply Forall_app. split.
    { destruct (negb (length (map covered_attribute at_) =? 0)%nat); constructor; [|constructor].
      cbn [fst snd]. split; [lit|]. apply json_all_array. clear - A2 Hqc.
      induction A2; cbn [map]; constructor; auto. apply attribute_all. assumption. }
    apply Forall_app. split.
    { constructor; [|constructor]. cbn [fst snd]. split; [lit|]. apply strings_all. exact A3. }
    apply Forall_app. split.
    { destruct co; constructor; [|constructor]. cbn [fst snd]. split; [lit|exact A4]. }
    constructor; [cbn [fst snd]; split; [lit|apply strings_all; exact A5]|].
    constructor; [cbn [fst snd]; split; [lit|exact Coq.Init.Logic.I]|].
    constructor.
    { cbn [fst snd]. split; [lit|]. apply json_all_object. clear - A6 Hqc.
      induction A6 as [|h l H _ IH]; cbn [map]; constructor; auto. cbn [fst snd].
      split; [apply literal, decimal_chars|]. apply json_all_array. exact H. }
    constructor; [cbn [fst snd]; split; [lit|exact ID]|].
    constructor; [cbn [fst snd]; split; [lit|exact A8]|].
    constructor; [cbn [fst snd]; split; [lit|exact A9]|].
    constructor; [cbn [fst snd]; split; [lit|exact RE]|]. constructor.
  Qed.
End Chars.

Lemma document_ok d : cairo_all number_text (Forall scalar) d -> json_ok (document (covered d)).
Proof. apply document_all. unfold scalar. lia. Qed.
Lemma document_plain d : plain d -> json_all (fun _ => True) (Forall plain_char) (document (covered d)).
Proof. apply document_all. unfold plain_char. lia. Qed.

(** ---- a document tells its definition, but for the entry points ---- *)

Lemma obj_eq l m : JObject l = JObject m -> l = m.
Proof. congruence. Qed.
Lemma strings_inj l : forall l', map JString l = map JString l' -> l = l'.
Proof.
  induction l as [|x l IH]; intros [|y l'] E; try discriminate; auto. cbn [map] in E.
  injection E as -> E. f_equal. auto.
Qed.
Lemma hints_inj (l : list (N * list json)) : forall l',
  map (fun h => (decimal (fst h), JArray (snd h))) l =
  map (fun h => (decimal (fst h), JArray (snd h))) l' -> l = l'.
Proof.
  induction l as [|[n x] l IH]; intros [|[m y] l'] E; try discriminate; auto. cbn [map fst snd] in E.
  apply cons_eq in E. destruct E as [E1 E]. apply pair_equal_spec in E1. destruct E1 as [E1 E2].
  apply decimal_inj in E1. injection E2 as ->. subst. f_equal. auto.
Qed.
Lemma document_inj d d' : document d = document d' ->
  p_debug (ca_program d) = None -> p_debug (ca_program d') = None ->
  ca_abi d = ca_abi d' /\ ca_program d = ca_program d'.
Proof.
  destruct d as [abi [at_ bu co da de hi id ms pr re] en],
    d' as [abi' [at' bu' co' da' de' hi' id' ms' pr' re'] en'].
  unfold document.
  cbn [ca_abi ca_program ca_entries p_attributes p_builtins p_compiler p_data p_debug p_hints
       p_identifiers p_main_scope p_prime p_references]. cbv zeta. intros E -> ->.
  assert (R : forall h1 h2 : list (str * json),
    [(text "data", JArray (map JString da)); (text "debug_info", JNull);
     (text "hints", JObject (map (fun h => (decimal (fst h), JArray (snd h))) hi));
     (text "identifiers", id); (text "main_scope", JString ms); (text "prime", JString pr);
     (text "reference_manager", re)] =
    [(text "data", JArray (map JString da')); (text "debug_info", JNull);
     (text "hints", JObject (map (fun h => (decimal (fst h), JArray (snd h))) hi'));
     (text "identifiers", id'); (text "main_scope", JString ms'); (text "prime", JString pr');
     (text "reference_manager", re')] ->
    da = da' /\ hi = hi' /\ id = id' /\ ms = ms' /\ pr = pr' /\ re = re').
  { intros _ _ X. apply cons_eq in X. destruct X as [X1 X]. apply cons_eq in X. destruct X as [_ X].
    apply cons_eq in X. destruct X as [X3 X]. apply cons_eq in X. destruct X as [X4 X].
    apply cons_eq in X. destruct X as [X5 X]. apply cons_eq in X. destruct X as [X6 X].
    apply cons_eq in X. destruct X as [X7 X].
    apply pair_equal_spec in X1. destruct X1 as [_ X1]. assert (Y1 : map JString da = map JString da') by congruence.
    apply pair_equal_spec in X3. destruct X3 as [_ X3]. assert (Y3 : map (fun h => (decimal (fst h), JArray (snd h))) hi = map (fun h => (decimal (fst h), JArray (snd h))) hi') by congruence.
    apply pair_equal_spec in X4. apply pair_equal_spec in X5. apply pair_equal_spec in X6. apply pair_equal_spec in X7.
    apply strings_inj in Y1. apply hints_inj in Y3.
    repeat split; try tauto; try congruence; destruct X5 as [_ X5], X6 as [_ X6]; congruence. }
  specialize (R [] []).
  remember [(text "data", JArray (map JString da)); (text "debug_info", JNull);
     (text "hints", JObject (map (fun h => (decimal (fst h), JArray (snd h))) hi));
     (text "identifiers", id); (text "main_scope", JString ms); (text "prime", JString pr);
     (text "reference_manager", re)] as T eqn:ET.
  remember [(text "data", JArray (map JString da')); (text "debug_info", JNull);
     (text "hints", JObject (map (fun h => (decimal (fst h), JArray (snd h))) hi'));
     (text "identifiers", id'); (text "main_scope", JString ms'); (text "prime", JString pr');
     (text "reference_manager", re')] as T' eqn:ET'.
  assert (HT : exists u, T = (text "data", u) :: tl T) by (subst T; eexists; reflexivity).
  assert (HT' : exists u, T' = (text "data", u) :: tl T') by (subst T'; eexists; reflexivity).
  clear ET ET'. destruct HT as [u HT], HT' as [u' HT'].
  assert (E1 := obj_eq _ _ E).
  clear E. apply cons_eq in E1. destruct E1 as [E1 E2]. apply pair_equal_spec in E1. destruct E1 as [_ ->].
  apply cons_eq in E2. destruct E2 as [E2 _]. apply pair_equal_spec in E2. destruct E2 as [_ E2].
  assert (E := obj_eq _ _ E2).
  clear E2.
  assert (E2 : at_ = at' /\
      [(text "builtins", JArray (map JString bu))] ++
      match co with Some s => [(text "compiler_version", JString s)] | None => [] end ++ T =
      [(text "builtins", JArray (map JString bu'))] ++
      match co' with Some s => [(text "compiler_version", JString s)] | None => [] end ++ T').
  { destruct at_ as [|a0 at_], at' as [|a0' at']; cbn [length Nat.eqb negb app] in E.
    - split; [reflexivity|exact E].
    - apply cons_eq in E. destruct E as [E _]. apply pair_equal_spec in E. destruct E as [E _]. discriminate.
    - apply cons_eq in E. destruct E as [E _]. apply pair_equal_spec in E. destruct E as [E _]. discriminate.
    - apply cons_eq in E. destruct E as [E1 E]. apply pair_equal_spec in E1. destruct E1 as [_ E1].
      split; [congruence|exact E]. }
  destruct E2 as [-> E2]. cbn [app] in E2. apply cons_eq in E2. destruct E2 as [E3 E2].
  apply pair_equal_spec in E3. destruct E3 as [_ E3].
  assert (E4 : map JString bu = map JString bu') by congruence. apply strings_inj in E4. subst bu'.
  assert (E5 : co = co' /\ T = T').
  { rewrite HT, HT' in E2. destruct co as [s|], co' as [s'|]; cbn [app] in E2.
    - apply cons_eq in E2. destruct E2 as [E4 E2]. apply pair_equal_spec in E4. destruct E4 as [_ E4].
      rewrite HT, HT'. split; [congruence|exact E2].
    - apply cons_eq in E2. destruct E2 as [E2 _]. apply pair_equal_spec in E2. destruct E2 as [E2 _]. discriminate.
    - apply cons_eq in E2. destruct E2 as [E2 _]. apply pair_equal_spec in E2. destruct E2 as [E2 _]. discriminate.
    - rewrite HT, HT'. auto. }
  destruct E5 as [-> E5]. destruct (R E5) as (-> & -> & -> & -> & -> & ->). auto.
Qed.

Lemma flat_inj (l : list entry_point) : forall l',
  flat_map (fun e => [fst e; snd e]) l = flat_map (fun e => [fst e; snd e]) l' -> l = l'.
Proof.
  induction l as [|[a b] l IH]; intros [|[a' b'] l'] E; try discriminate; auto.
  cbn [flat_map app fst snd] in E. injection E as -> -> E. f_equal. auto.
Qed.

(** ---- numbers of builtins and bytecodes ---- *)

Lemma rval_of f n : FeltSpec.denotes f n -> rval 256 f = n.
Proof. intros [_ <-]. symmetry. apply FeltProof.be_value_rval. Qed.
Lemma builtins_spec l : Forall (Forall scalar) l ->
  felts_of builtin_felt l = Ok (map builtin_number l) /\ Forall builtin_ok l \/
  felts_of builtin_felt l = Err /\ ~ Forall builtin_ok l.
Proof.
  induction 1 as [|s l S _ IH]; [left; auto|]. cbn [felts_of map].
  assert (X : builtin_felt (utf8 s) = Some (builtin_number s) /\ builtin_ok s \/
              builtin_felt (utf8 s) = None /\ ~ builtin_ok s).
  { unfold builtin_felt, builtin_ok, builtin_number.
    rewrite FeltProof.from_be_slice_spec by (apply utf8_bytes; exact S).
    change FeltSpec.P with P.
    destruct (Nat.leb_spec (length (utf8 s)) 32); [|right; split; [reflexivity|lia]]. cbn [andb].
    destruct (N.ltb_spec (rval 256 (utf8 s)) P); [|right; split; [reflexivity|lia]].
    left. rewrite rval_zeros. auto. }
  destruct X as [[-> O]|[-> O]]; cbn [or_err obind].
  - destruct IH as [[-> F]|[-> F]]; cbn [obind]; [left|right]; (split; [reflexivity|]).
    + constructor; auto.
    + intros G. inversion G; auto.
  - right. split; [reflexivity|]. intros G. inversion G; auto.
Qed.

Lemma utf8_back s : Forall scalar s -> Forall (fun c => c < 128) (utf8 s) -> utf8 s = s.
Proof.
  unfold utf8. induction s as [|c s IH]; intros S F; [reflexivity|]. cbn [flat_map] in *.
  inversion S; subst. apply Forall_app in F. destruct F as [F1 F2]. rewrite IH by assumption.
  unfold utf8_char in *. destruct (N.ltb_spec c 128); [reflexivity|].
  destruct (c <? 2048); [apply Forall_inv in F1; cbv beta in F1; lia|].
  destruct (c <? 65536); apply Forall_inv in F1; cbv beta in F1; lia.
Qed.
Lemma spells_chars ds n : FeltSpec.hex_spells ds n ->
  Forall (fun c => c < 128) ds /\ rval 16 (map digit_value ds) = n.
Proof.
  induction 1 as [|s n c d H [IH1 IH2] D]; [split; [constructor|reflexivity]|].
  assert (X : c < 128 /\ digit_value c = d).
  { destruct D; unfold digit_value.
    - destruct (N.ltb_spec (48 + d) 58); lia.
    - destruct (N.ltb_spec (97 + (d - 10)) 58), (N.ltb_spec (97 + (d - 10)) 71); lia.
    - destruct (N.ltb_spec (65 + (d - 10)) 58), (N.ltb_spec (65 + (d - 10)) 71); lia. }
  destruct X as [X1 X2]. split.
  - apply Forall_app. auto.
  - rewrite map_app. cbn [map]. rewrite rval_snoc, IH2, X2. lia.
Qed.
Lemma bytecode_spec s : Forall scalar s ->
  bytecode_felt (utf8 s) = Some (bytecode_number s) /\ bytecode_ok s \/
  bytecode_felt (utf8 s) = None /\ ~ bytecode_ok s.
Proof.
  intros S. unfold bytecode_felt.
  assert (A : forall ds, Forall (fun c => c < 128) ds -> utf8 s = text "0x" ++ ds -> s = text "0x" ++ ds).
  { intros ds F E. rewrite <- E. symmetry. apply utf8_back; [exact S|]. rewrite E. apply Forall_app.
    split; [|exact F]. repeat (constructor; [reflexivity|]). constructor. }
  destruct (FeltModel.from_hex_str (utf8 s)) as [f|e] eqn:Q.
  - left. apply FeltProof.from_hex_ok in Q. destruct Q as (ds & n & E & L & H & D).
    destruct (spells_chars ds n H) as [F V]. specialize (A ds F E).
    assert (N1 : n < P) by (destruct D as [(_ & _ & B) <-]; exact B).
    split.
    + f_equal. rewrite (rval_of f n D). unfold bytecode_number. rewrite A. symmetry. exact V.
    + exists ds, n. auto.
  - right. split; [reflexivity|]. intros (ds & n & E & L & H & B).
    assert (X : exists f, FeltSpec.denotes f n).
    { exists (rdigits 256 32 n). split; [split; [|split]|].
      - apply rdigits_length.
      - apply rdigits_lt. lia.
      - rewrite FeltProof.be_value_rval, rval_rdigits; [exact B|lia|].
        eapply N.lt_trans; [exact B|]. vm_compute. reflexivity.
      - rewrite FeltProof.be_value_rval, rval_rdigits; [reflexivity|lia|].
        eapply N.lt_trans; [exact B|]. vm_compute. reflexivity. }
    destruct X as [f D]. destruct (spells_chars ds n H) as [F _].
    assert (Y : FeltModel.from_hex_str (utf8 s) = FeltModel.Ok f).
    { apply FeltProof.from_hex_ok. exists ds, n. split; [|auto].
      rewrite E. apply utf8_ascii. apply Forall_app.
      split; [|exact F]. repeat (constructor; [reflexivity|]). constructor. }
    congruence.
Qed.
Lemma bytecodes_spec l : Forall (Forall scalar) l ->
  felts_of bytecode_felt l = Ok (map bytecode_number l) /\ Forall bytecode_ok l \/
  felts_of bytecode_felt l = Err /\ ~ Forall bytecode_ok l.
Proof.
  induction 1 as [|s l S _ IH]; [left; auto|]. cbn [felts_of map].
  destruct (bytecode_spec s S) as [[-> O]|[-> O]]; cbn [or_err obind].
  - destruct IH as [[-> F]|[-> F]]; cbn [obind]; [left|right]; (split; [reflexivity|]).
    + constructor; auto.
    + intros G. inversion G; auto.
  - right. split; [reflexivity|]. intros G. inversion G; auto.
Qed.

(** ---- the hashes ---- *)

Section Hashes.
  Variable pedersen : felt -> felt -> felt.
  Variable poseidon2 : felt -> felt -> felt.
  Variable poseidon : list felt -> felt.
  Variable keccak : list N -> list N.
  (** Keccak-256 gives 32 bytes *)
  Hypothesis Hkeccak : forall l, length (keccak l) = 32%nat /\ Forall (fun b => b < 256) (keccak l).
  Notation chain := (chain_value pedersen).
  Notation clean := (clean pedersen poseidon2 poseidon keccak).

  Lemma truncated_value b bs : length bs = 31%nat -> b < 256 -> Forall (fun b => b < 256) bs ->
    rval 256 (N.land b 3 :: bs) = rval 256 (b :: bs) mod 2 ^ 250 /\
    rval 256 (b :: bs) mod 2 ^ 250 < P.
  Proof.
    intros L B F.
    assert (V : rval 256 bs < 2 ^ 248).
    { replace (2 ^ 248) with (256 ^ N.of_nat (length bs)) by (rewrite L; reflexivity).
      apply rval_bound. exact F. }
    rewrite !rval_cons, L. change (N.of_nat 31) with 31.
    replace (256 ^ 31) with (2 ^ 248) by reflexivity.
    change (N.land b 3) with (N.land b (N.ones 2)). rewrite N.land_ones. change (2 ^ 2) with 4.
    set (W := 2 ^ 248) in *. replace (2 ^ 250) with (4 * W) by (unfold W; reflexivity).
    assert (E : b mod 4 * W + rval 256 bs = (b * W + rval 256 bs) mod (4 * W)).
    { apply (N.mod_unique _ _ (b / 4)).
      - assert (b mod 4 < 4) by (apply N.mod_lt; lia). nia.
      - rewrite (N.div_mod b 4) at 1 by lia. nia. }
    split; [exact E|]. rewrite <- E.
    assert (b mod 4 < 4) by (apply N.mod_lt; lia).
    assert (4 * W < P) by (unfold W; vm_compute; reflexivity). nia.
  Qed.
  Lemma keccak_felt_ok l : keccak_felt keccak l = Ok (keccak_value keccak l).
  Proof.
    unfold keccak_felt, truncated_keccak, keccak_value. destruct (Hkeccak l) as [L F].
    destruct (keccak l) as [|b bs]; [discriminate|]. inversion F; subst. cbn [length] in L.
    injection L as L. destruct (truncated_value b bs L H1 H2) as [E V].
    rewrite FeltProof.from_be_bytes_spec.
    - change FeltSpec.P with P. destruct (N.ltb_spec (rval 256 (N.land b 3 :: bs)) P); [|lia].
      cbn [or_panic]. now rewrite E.
    - cbn [length]. lia.
    - constructor; [|exact H2]. change 3 with (N.ones 2). rewrite N.land_ones. change (2 ^ 2) with 4.
      assert (b mod 4 < 4) by (apply N.mod_lt; lia). lia.
  Qed.
  Lemma keccak_call l : call_value pedersen poseidon2 poseidon keccak (KeccakCall l) = keccak_value keccak l.
  Proof.
    unfold keccak_value. cbn [call_value revert_reason]. destruct (Hkeccak l) as [L F].
    destruct (keccak l) as [|b bs]; [discriminate|]. inversion F; subst. cbn [length] in L.
    injection L as L. destruct (truncated_value b bs L H1 H2) as [E V]. rewrite E.
    apply N.mod_small. exact V.
  Qed.

  Lemma chain_of_ok l : len l < 2 ^ 60 + 16 -> chain_of pedersen l = Ok (chain l).
  Proof. apply TxHashProof.chain_ok; assumption. Qed.
  Lemma chain_of_literal l : (length l <= 16)%nat -> chain_of pedersen l = Ok (chain l).
  Proof. apply TxHashProof.chain_literal; assumption. Qed.
  Lemma selectors_len (l : option (list entry_point)) : len (flattened l) = 2 * len (listed l).
  Proof.
    change (flattened l) with (flat_map (fun e : entry_point => [fst e; snd e]) (listed l)). unfold len.
    induction (listed l) as [|e m IH]; [reflexivity|]. cbn [flat_map app length]. lia.
  Qed.
  Lemma flattened_ok l : len (listed l) < 2 ^ 59 -> chain_of pedersen (flattened l) = Ok (chain (selectors l)).
  Proof.
    intros B. change (selectors l) with (flattened l). apply chain_of_ok. rewrite selectors_len.
    change (2 ^ 60) with (2 * 2 ^ 59). lia.
  Qed.

  (** the document as this program writes it *)
  Definition doc (d : cairo) : list N := write (document (covered d)).
  Lemma cairo_hash d : cairo_ok d -> cairo_fits d ->
    accepted d /\ compute_cairo_class_hash pedersen keccak d = Ok (chain (cairo_words pedersen keccak (doc d) d)) \/
    ~ accepted d /\ compute_cairo_class_hash pedersen keccak d = Err.
  Proof.
    intros [A ND] ((F1 & F2 & F3) & F4 & F5). unfold compute_cairo_class_hash, accepted.
    rewrite document_prepared.
    destruct (prepare_attributes_spec _ ND) as [[-> A1]|[-> A1]]; cbn [obind]; [|right; tauto].
    cbv zeta. unfold cairo_hinted_hash. rewrite prepared_json. rewrite keccak_felt_ok. cbn [obind].
    cbn [ca_entries ca_program p_builtins p_data].
    rewrite !flattened_ok by assumption. cbn [obind].
    assert (S1 : Forall (Forall scalar) (p_builtins (ca_program d))) by apply A.
    assert (S2 : Forall (Forall scalar) (p_data (ca_program d))) by apply A.
    destruct (builtins_spec _ S1) as [[-> A2]|[-> A2]]; cbn [obind]; [|right; tauto].
    rewrite chain_of_ok; [|unfold len in *; rewrite map_length; lia]. cbn [obind].
    destruct (bytecodes_spec _ S2) as [[-> A3]|[-> A3]]; cbn [obind]; [|right; tauto].
    rewrite chain_of_ok; [|unfold len in *; rewrite map_length; lia]. cbn [obind].
    left. split; [tauto|]. rewrite chain_of_literal by (cbn [length]; lia). reflexivity.
  Qed.

  Lemma covered_same d1 d2 : cairo_all number_text (Forall scalar) d1 ->
    cairo_all number_text (Forall scalar) d2 ->
    clean (cairo_calls pedersen keccak d1 ++ cairo_calls pedersen keccak d2) ->
    chain (cairo_words pedersen keccak (doc d1) d1) = chain (cairo_words pedersen keccak (doc d2) d2) ->
    covered d1 = covered d2.
  Proof.
    intros A1 A2 C E. unfold cairo_calls in C. fold (doc d1) in C. fold (doc d2) in C. cbv zeta in C.
    assert (SUB : forall l1 l2, incl (chain_calls pedersen l1) (cairo_calls pedersen keccak d1) ->
              incl (chain_calls pedersen l2) (cairo_calls pedersen keccak d2) ->
              chain l1 = chain l2 -> l1 = l2).
    { intros l1 l2 I1 I2. apply (chain_binds pedersen poseidon2 poseidon keccak).
      eapply clean_incl; [|exact C]. apply incl_app.
      - apply incl_appl. exact I1.
      - apply incl_appr. exact I2. }
    assert (W : cairo_words pedersen keccak (doc d1) d1 = cairo_words pedersen keccak (doc d2) d2).
    { apply SUB; auto; unfold cairo_calls; cbv zeta; intros c I; rewrite !in_app_iff; tauto. }
    unfold cairo_words in W. apply cons_eq in W. destruct W as [_ W].
    apply cons_eq in W. destruct W as [W1 W]. apply cons_eq in W. destruct W as [W2 W].
    apply cons_eq in W. destruct W as [W3 W]. apply cons_eq in W. destruct W as [_ W].
    apply cons_eq in W. destruct W as [W4 _].
    assert (E1 : selectors (bt_external (ca_entries d1)) = selectors (bt_external (ca_entries d2))).
    { apply SUB; auto; unfold cairo_calls; cbv zeta; intros c I; rewrite !in_app_iff; tauto. }
    assert (E2 : selectors (bt_l1_handler (ca_entries d1)) = selectors (bt_l1_handler (ca_entries d2))).
    { apply SUB; auto; unfold cairo_calls; cbv zeta; intros c I; rewrite !in_app_iff; tauto. }
    assert (E3 : selectors (bt_constructor (ca_entries d1)) = selectors (bt_constructor (ca_entries d2))).
    { apply SUB; auto; unfold cairo_calls; cbv zeta; intros c I; rewrite !in_app_iff; tauto. }
    apply flat_inj in E1, E2, E3.
    assert (E4 : KeccakCall (doc d1) = KeccakCall (doc d2)).
    { apply (proj1 C).
      - rewrite !in_app_iff. left. right. right. right. left. left. reflexivity.
      - rewrite !in_app_iff. right. right. right. right. left. left. reflexivity.
      - rewrite !keccak_call. exact W4. }
    assert (E5 : doc d1 = doc d2) by congruence. unfold doc in E5.
    apply write_inj in E5; [|apply document_ok; assumption|apply document_ok; assumption].
    apply document_inj in E5; [|reflexivity|reflexivity]. destruct E5 as [E5 E6].
    unfold covered in *. cbn [ca_abi ca_program] in E5, E6. cbv zeta in *.
    rewrite E5, E6, E1, E2, E3. reflexivity.
  Qed.

  Lemma sierra_hash d :
    compute_sierra_class_hash poseidon keccak d =
    if str_eqb (si_version d) (text "0.1.0") then Ok (poseidon (sierra_words poseidon keccak d)) else Err.
  Proof.
    unfold compute_sierra_class_hash. destruct (str_eqb (si_version d) (text "0.1.0")); [|reflexivity].
    cbn [negb]. rewrite keccak_felt_ok. reflexivity.
  Qed.
  Lemma sierra_same d1 d2 : Forall scalar (si_abi d1) -> Forall scalar (si_abi d2) ->
    clean (sierra_calls poseidon keccak d1 ++ sierra_calls poseidon keccak d2) ->
    poseidon (sierra_words poseidon keccak d1) = poseidon (sierra_words poseidon keccak d2) ->
    listed (bt_external (si_entries d1)) = listed (bt_external (si_entries d2)) /\
    listed (bt_l1_handler (si_entries d1)) = listed (bt_l1_handler (si_entries d2)) /\
    listed (bt_constructor (si_entries d1)) = listed (bt_constructor (si_entries d2)) /\
    si_abi d1 = si_abi d2 /\ si_program d1 = si_program d2.
  Proof.
    intros A1 A2 C E.
    assert (SUB : forall l1 l2, In (PoseidonList l1) (sierra_calls poseidon keccak d1) ->
              In (PoseidonList l2) (sierra_calls poseidon keccak d2) ->
              poseidon l1 = poseidon l2 -> l1 = l2).
    { intros l1 l2 I1 I2 Q. assert (PoseidonList l1 = PoseidonList l2); [|congruence].
      apply (proj1 C); [apply in_app_iff; auto|apply in_app_iff; auto|exact Q]. }
    assert (W : sierra_words poseidon keccak d1 = sierra_words poseidon keccak d2).
    { apply SUB; auto; unfold sierra_calls; cbn [In]; tauto. }
    unfold sierra_words in W. apply cons_eq in W. destruct W as [_ W].
    apply cons_eq in W. destruct W as [W1 W]. apply cons_eq in W. destruct W as [W2 W].
    apply cons_eq in W. destruct W as [W3 W]. apply cons_eq in W. destruct W as [W4 W].
    apply cons_eq in W. destruct W as [W5 _].
    apply SUB in W1, W2, W3, W5; try (unfold sierra_calls; cbn [In]; tauto).
    apply flat_inj in W1, W2, W3.
    assert (E4 : KeccakCall (utf8 (si_abi d1)) = KeccakCall (utf8 (si_abi d2))).
    { apply (proj1 C).
      - apply in_app_iff. left. unfold sierra_calls. cbn [In]. tauto.
      - apply in_app_iff. right. unfold sierra_calls. cbn [In]. tauto.
      - rewrite !keccak_call. exact W4. }
    assert (E5 : utf8 (si_abi d1) = utf8 (si_abi d2)) by congruence. apply utf8_inj in E5; auto.
  Qed.
  Lemma kinds_differ d1 d2 :
    clean (sierra_calls poseidon keccak d1 ++ cairo_calls pedersen keccak d2) ->
    poseidon (sierra_words poseidon keccak d1) <> chain (cairo_words pedersen keccak (doc d2) d2).
  Proof.
    intros C E.
    assert (X : PoseidonList (sierra_words poseidon keccak d1) =
                PedersenCall (fold_left pedersen (cairo_words pedersen keccak (doc d2) d2) 0,
                              len (cairo_words pedersen keccak (doc d2) d2), 0)); [|discriminate].
    apply (proj1 C).
    - apply in_app_iff. left. unfold sierra_calls. cbn [In]. tauto.
    - apply in_app_iff. right. unfold cairo_calls. cbv zeta. fold (doc d2). rewrite !in_app_iff.
      do 4 right. apply chain_in.
    - exact E.
  Qed.
End Hashes.

(** ---- the covered parts decide ---- *)

Lemma attribute_ok_covered a : attribute_ok a <-> attribute_ok (covered_attribute a).
Proof.
  destruct a as [|b|t|s|l|l]; try tauto. cbn [covered_attribute]. split.
  - intros (m & E & A). apply obj_eq in E. subst m. eexists. split; [reflexivity|]. intros v I.
    apply filter_In in I. apply A. tauto.
  - intros (m & E & A). apply obj_eq in E. subst m. exists l. split; [reflexivity|]. intros v I.
    destruct (old_entry (text "accessible_scopes", v)) eqn:O.
    + cbn [old_entry] in O. destruct v as [|b|t|s|m|m]; try discriminate; eauto.
    + apply A. apply filter_In. rewrite O. auto.
Qed.
Lemma attributes_ok_covered l : Forall attribute_ok l <-> Forall attribute_ok (map covered_attribute l).
Proof.
  induction l as [|a l IH]; cbn [map]; [tauto|]. rewrite !Forall_cons_iff, IH, <- attribute_ok_covered.
  tauto.
Qed.
Lemma covered_parts d1 d2 : covered d1 = covered d2 ->
  map covered_attribute (p_attributes (ca_program d1)) = map covered_attribute (p_attributes (ca_program d2)) /\
  p_builtins (ca_program d1) = p_builtins (ca_program d2) /\
  p_data (ca_program d1) = p_data (ca_program d2) /\
  listed (bt_external (ca_entries d1)) = listed (bt_external (ca_entries d2)) /\
  listed (bt_l1_handler (ca_entries d1)) = listed (bt_l1_handler (ca_entries d2)) /\
  listed (bt_constructor (ca_entries d1)) = listed (bt_constructor (ca_entries d2)).
Proof.
  unfold covered. cbv zeta. intros E. injection E. intros. auto 10.
Qed.
Lemma covered_accepted d1 d2 : covered d1 = covered d2 -> (accepted d1 <-> accepted d2).
Proof.
  intros E. destruct (covered_parts d1 d2 E) as (E1 & E2 & E3 & _). unfold accepted.
  rewrite (attributes_ok_covered (p_attributes (ca_program d1))),
    (attributes_ok_covered (p_attributes (ca_program d2))), E1, E2, E3. tauto.
Qed.
Lemma covered_words pedersen keccak d1 d2 : covered d1 = covered d2 ->
  cairo_words pedersen keccak (doc d1) d1 = cairo_words pedersen keccak (doc d2) d2.
Proof.
  intros E. destruct (covered_parts d1 d2 E) as (_ & E2 & E3 & E4 & E5 & E6).
  unfold cairo_words, selectors, doc. rewrite E, E2, E3, E4, E5, E6. reflexivity.
Qed.

Lemma words_doc pedersen poseidon2 poseidon keccak
  (Hkeccak : forall l, length (keccak l) = 32%nat /\ Forall (fun b => b < 256) (keccak l)) d other :
  clean pedersen poseidon2 poseidon keccak
    (cairo_calls pedersen keccak d ++ [KeccakCall other] ++
     chain_calls pedersen (cairo_words pedersen keccak other d)) ->
  chain_value pedersen (cairo_words pedersen keccak (doc d) d) =
  chain_value pedersen (cairo_words pedersen keccak other d) -> doc d = other.
Proof.
  intros C E. apply (chain_binds pedersen poseidon2 poseidon keccak) in E.
  - unfold cairo_words in E. do 5 (apply cons_eq in E; destruct E as [_ E]).
    apply cons_eq in E. destruct E as [E _].
    assert (X : KeccakCall (doc d) = KeccakCall other); [|congruence].
    apply (proj1 C).
    + unfold cairo_calls. cbv zeta. fold (doc d). rewrite !in_app_iff. left. right. right. right. left. left.
      reflexivity.
    + rewrite !in_app_iff. right. left. left. reflexivity.
    + rewrite !keccak_call by exact Hkeccak. exact E.
  - eapply clean_incl; [|exact C]. unfold cairo_calls. cbv zeta. fold (doc d).
    intros c I. rewrite !in_app_iff in *. tauto.
Qed.

(** a class with nothing but a main scope *)
Definition scoped (s : str) : cairo :=
  Cairo (JArray []) (Program [] [] None [] None [] (JObject []) s [] (JObject [])) (ByType None None None).
Lemma scoped_ok s : Forall scalar s -> cairo_ok (scoped s).
Proof.
  intros F. split; [|constructor]. unfold cairo_all, scoped. cbn. repeat split; auto.
Qed.
Lemma scoped_fits s : cairo_fits (scoped s).
Proof. unfold cairo_fits, entries_fit, scoped. cbn. repeat split; reflexivity. Qed.
Lemma scoped_accepted s : accepted (scoped s).
Proof. unfold accepted, scoped. cbn. repeat split; constructor. Qed.

Lemma escapes c : scalar c -> write_string [c] = py_string [c] -> plain_char c.
Proof.
  intros S E. unfold plain_char. destruct (N.lt_ge_cases c 127); [auto|].
  destruct (N.le_gt_cases 4096 c); [auto|]. exfalso.
  destruct (N.eq_dec c 127) as [->|D]; [revert E; vm_compute; discriminate|].
  unfold write_string, py_string in E. cbn [flat_map] in E. rewrite !app_nil_r in E.
  rewrite write_char_big in E by lia. unfold utf16 in E.
  destruct (N.ltb_spec c 65536); [|lia]. cbn [flat_map] in E. rewrite app_nil_r in E.
  unfold py_char in E.
  repeat match type of E with
         | context [if c =? ?k then _ else _] => destruct (N.eqb_spec c k); [lia|]
         end.
  destruct (N.leb_spec 32 c); [|lia]. destruct (N.leb_spec c 126); [lia|]. cbn [andb] in E.
  destruct (N.ltb_spec c 65536); [|lia].
  unfold py_unit, hex4, rdigits in E. destruct (N.ltb_spec c 4096); [|lia].
  replace (c / 16 / 16 / 16 mod 16) with 0 in E by lia. discriminate.
Qed.

Lemma tuple_forms a b : forall k, (a = [] -> k = 0%nat) -> (forall a', a <> a' ++ [32] /\ a <> a' ++ [58]) ->
  old_type k (a ++ 58 :: 32 :: b) = old_type k (a ++ 32 :: 58 :: 32 :: b).
Proof.
  induction a as [|c a IH]; intros k K T.
  - rewrite K by reflexivity. cbn [app]. reflexivity.
  - cbn [app old_type].
    assert (T' : forall a', a <> a' ++ [32] /\ a <> a' ++ [58]).
    { intros a'. split; intros ->; destruct (T (c :: a')) as [X Y]; [apply X|apply Y]; reflexivity. }
    assert (Z : (a = [] -> 0%nat = 0%nat)) by auto.
    destruct (N.eqb_spec c 32) as [->|D].
    + apply IH; [|exact T']. intros ->. destruct (T []) as [X _]. destruct X. reflexivity.
    + destruct (N.eqb_spec c 58) as [->|D'].
      * rewrite (IH 0%nat Z T'). f_equal. f_equal. destruct a as [|d a]; [|reflexivity].
        destruct (T []) as [_ X]. destruct X. reflexivity.
      * rewrite (IH 0%nat Z T'). reflexivity.
Qed.
