(** C78: what a class hash is of. *)
From Coq Require Import List Bool Arith NArith Lia ZifyBool ZifyNat ZifyN.
From Verif Require Import Radix MerkleModel HashModel CommitModel CommitSpec CommitProof
  BlockHashProof ClassHashModel ClassHashSpec ClassHashProof.
Import ListNotations.
Local Open Scope N_scope.

(** Strings are written as Python does exactly when they are of plain characters. *)
Theorem C78_escapes : forall c, scalar c -> (write_string [c] = py_string [c] <-> plain_char c).
Proof.
  intros c S. split; [apply escapes; exact S|]. intros PC. apply write_string_py; auto.
Qed.
Print Assumptions C78_escapes.

(** JSON values are told apart by what is written of them. *)
Theorem C78_writing_binds : forall v1 v2, json_all number_text (Forall scalar) v1 ->
  json_all number_text (Forall scalar) v2 -> write v1 = write v2 -> v1 = v2.
Proof. apply write_inj. Qed.
Print Assumptions C78_writing_binds.

(** A named tuple type is taken alike with and without a space before a colon. *)
Theorem C78_named_tuples : forall a b, (forall a', a <> a' ++ text " " /\ a <> a' ++ text ":") ->
  add_extra_space_before_colon (a ++ text ": " ++ b) =
  add_extra_space_before_colon (a ++ text " : " ++ b).
Proof. intros a b T. rewrite !add_space_old. apply (tuple_forms a b 0); auto. Qed.
Print Assumptions C78_named_tuples.
Example C78_named_tuples_example :
  (forall a', text "(x" <> a' ++ text " " /\ text "(x" <> a' ++ text ":") /\
  add_extra_space_before_colon (text "(x: felt, y : felt)") = text "(x : felt, y : felt)".
Proof.
  split; [|reflexivity]. intros a'. change (text "(x") with ([40] ++ [120]).
  split; intros E; apply app_inj_tail in E; destruct E; discriminate.
Qed.

Section Hashes.
  Variable pedersen : felt -> felt -> felt.
  Variable poseidon2 : felt -> felt -> felt.
  Variable poseidon : list felt -> felt.
  Variable keccak : list N -> list N.
  (** Keccak-256 gives 32 bytes *)
  Hypothesis Hkeccak : forall l, length (keccak l) = 32%nat /\ Forall (fun b => b < 256) (keccak l).
  Notation chain := (chain_value pedersen).
  Notation clean := (clean pedersen poseidon2 poseidon keccak).
  Notation cairo_class_hash := (compute_cairo_class_hash pedersen keccak).
  Notation sierra_class_hash := (compute_sierra_class_hash poseidon keccak).

  (** The hash of a Cairo 0 class is the hash chain of its entry points, its builtins, what Python
      writes of the covered parts, and its bytecode.  Missing for the full statement: characters
      from U+007F to U+0FFF, of which it is false ([C78_python_refuted]). *)
  Theorem C78_cairo_value_partial : forall d h, cairo_ok d -> cairo_fits d -> plain d ->
    (cairo_class_hash d = Ok h <->
     accepted d /\ h = chain (cairo_words pedersen keccak (py_dumps (document (covered d))) d)).
  Proof.
    intros d h K F PL. rewrite <- write_py; [|apply document_ok, K|apply document_plain, PL].
    fold (doc d). destruct (cairo_hash pedersen poseidon2 poseidon keccak Hkeccak d K F) as [[A ->]|[A ->]].
    - split; [intros E; injection E as <-; auto|]. intros [_ ->]. reflexivity.
    - split; [discriminate|]. intros [A' _]. contradiction.
  Qed.

  (** Nothing panics: what has no class hash is an error. *)
  Theorem C78_cairo_refused : forall d, cairo_ok d -> cairo_fits d ->
    (cairo_class_hash d = Err <-> ~ accepted d) /\ cairo_class_hash d <> Panic.
  Proof.
    intros d K F. destruct (cairo_hash pedersen poseidon2 poseidon keccak Hkeccak d K F) as [[A ->]|[A ->]].
    - repeat split; try discriminate. contradiction.
    - repeat split; try discriminate. auto.
  Qed.

  (** What is not covered does not matter. *)
  Theorem C78_cairo_function : forall d1 d2, cairo_ok d1 -> cairo_fits d1 -> cairo_ok d2 ->
    cairo_fits d2 -> covered d1 = covered d2 -> cairo_class_hash d1 = cairo_class_hash d2.
  Proof.
    intros d1 d2 K1 F1 K2 F2 E.
    assert (X := covered_accepted d1 d2 E).
    assert (W := covered_words pedersen keccak d1 d2 E).
    destruct (cairo_hash pedersen poseidon2 poseidon keccak Hkeccak d1 K1 F1) as [[A1 ->]|[A1 ->]],
      (cairo_hash pedersen poseidon2 poseidon keccak Hkeccak d2 K2 F2) as [[A2 ->]|[A2 ->]]; try tauto.
    now rewrite W.
  Qed.

  (** What is covered does: without a collision, classes of one hash agree in it. *)
  Theorem C78_cairo_binds : forall d1 d2 h, cairo_ok d1 -> cairo_fits d1 -> cairo_ok d2 ->
    cairo_fits d2 -> clean (cairo_calls pedersen keccak d1 ++ cairo_calls pedersen keccak d2) ->
    cairo_class_hash d1 = Ok h -> cairo_class_hash d2 = Ok h -> covered d1 = covered d2.
  Proof.
    intros d1 d2 h K1 F1 K2 F2 C E1 E2.
    destruct (cairo_hash pedersen poseidon2 poseidon keccak Hkeccak d1 K1 F1) as [[_ Q1]|[_ Q1]]; [|congruence].
    destruct (cairo_hash pedersen poseidon2 poseidon keccak Hkeccak d2 K2 F2) as [[_ Q2]|[_ Q2]]; [|congruence].
    apply (covered_same pedersen poseidon2 poseidon keccak Hkeccak); auto; [apply K1|apply K2|congruence].
  Qed.

  Theorem C78_sierra_value : forall d h,
    sierra_class_hash d = Ok h <->
    si_version d = text "0.1.0" /\ h = poseidon (sierra_words poseidon keccak d).
  Proof.
    intros d h. rewrite (sierra_hash pedersen poseidon2 poseidon keccak Hkeccak).
    destruct (str_eqb_spec (si_version d) (text "0.1.0")); split.
    - intros E. injection E as <-. auto.
    - intros [_ ->]. reflexivity.
    - discriminate.
    - intros [E _]. contradiction.
  Qed.
  Theorem C78_sierra_binds : forall d1 d2 h, Forall scalar (si_abi d1) -> Forall scalar (si_abi d2) ->
    clean (sierra_calls poseidon keccak d1 ++ sierra_calls poseidon keccak d2) ->
    sierra_class_hash d1 = Ok h -> sierra_class_hash d2 = Ok h ->
    listed (bt_external (si_entries d1)) = listed (bt_external (si_entries d2)) /\
    listed (bt_l1_handler (si_entries d1)) = listed (bt_l1_handler (si_entries d2)) /\
    listed (bt_constructor (si_entries d1)) = listed (bt_constructor (si_entries d2)) /\
    si_abi d1 = si_abi d2 /\ si_program d1 = si_program d2.
  Proof.
    intros d1 d2 h A1 A2 C E1 E2. apply C78_sierra_value in E1, E2.
    destruct E1 as [_ ->], E2 as [_ E2].
    apply (sierra_same pedersen poseidon2 poseidon keccak Hkeccak); auto.
  Qed.

  (** A Sierra class and a Cairo 0 class have different hashes. *)
  Theorem C78_kinds : forall s d h, cairo_ok d -> cairo_fits d ->
    clean (sierra_calls poseidon keccak s ++ cairo_calls pedersen keccak d) ->
    sierra_class_hash s = Ok h -> cairo_class_hash d <> Ok h.
  Proof.
    intros s d h K F C E1 E2. apply C78_sierra_value in E1. destruct E1 as [_ ->].
    destruct (cairo_hash pedersen poseidon2 poseidon keccak Hkeccak d K F) as [[_ Q]|[_ Q]]; [|congruence].
    apply (kinds_differ pedersen poseidon2 poseidon keccak s d C). congruence.
  Qed.

  (** Of bytes, the hash is that of the Sierra class they are, or else of the Cairo 0 class they
      are; the bytes are kept as they are. *)
  Theorem C78_class_hash : forall parse_sierra parse_cairo bytes k h kept,
    compute_class_hash pedersen poseidon keccak parse_sierra parse_cairo bytes = Ok (k, h, kept) <->
    kept = bytes /\
    ((exists s, parse_sierra bytes = Some s /\ k = IsSierra /\ sierra_class_hash s = Ok h) \/
     (parse_sierra bytes = None /\
      exists d, parse_cairo bytes = Some d /\ k = IsCairo /\ cairo_class_hash d = Ok h)).
  Proof.
    intros ps pc bytes k h kept. unfold compute_class_hash.
    destruct (ps bytes) as [s|].
    - split.
      + destruct (sierra_class_hash s) eqn:Q; try discriminate. cbn [obind]. intros E.
        injection E as <- <- <-. split; [reflexivity|]. left. eauto.
      + intros [-> [(s' & E & -> & Q)|[E _]]]; [|discriminate]. injection E as <-. rewrite Q. reflexivity.
    - destruct (pc bytes) as [d|].
      + split.
        * destruct (cairo_class_hash d) eqn:Q; try discriminate. cbn [obind]. intros E.
          injection E as <- <- <-. split; [reflexivity|]. right. eauto.
        * intros [-> [(s' & E & _)|[_ (d' & E & -> & Q)]]]; [discriminate|]. injection E as <-.
          rewrite Q. reflexivity.
      + split; [discriminate|]. intros [_ [(s' & E & _)|[_ (d' & E & _)]]]; discriminate.
  Qed.

  (** A character from U+0080 to U+0FFF is written with spaces for the leading zeros of its escape,
      and DEL as it is; Python writes four digits for both.  So the hash is not that of the
      document Python writes, unless hashes collide. *)
  Theorem C78_python_refuted : exists d, cairo_ok d /\ cairo_fits d /\ accepted d /\
    (clean (cairo_calls pedersen keccak d ++ [KeccakCall (py_dumps (document (covered d)))] ++
            chain_calls pedersen (cairo_words pedersen keccak (py_dumps (document (covered d))) d)) ->
     cairo_class_hash d <>
     Ok (chain (cairo_words pedersen keccak (py_dumps (document (covered d))) d))).
  Proof.
    exists (scoped [233]). split; [apply scoped_ok; constructor; [unfold scalar; lia|constructor]|].
    split; [apply scoped_fits|]. split; [apply scoped_accepted|]. intros C E.
    assert (K : cairo_ok (scoped [233])) by (apply scoped_ok; constructor; [unfold scalar; lia|constructor]).
    destruct (cairo_hash pedersen poseidon2 poseidon keccak Hkeccak (scoped [233]) K (scoped_fits [233])) as [[_ Q]|[A _]];
      [|apply A, scoped_accepted].
    rewrite Q in E. injection E as E.
    apply (words_doc pedersen poseidon2 poseidon keccak Hkeccak) in E; [|exact C].
    revert E. vm_compute. discriminate.
  Qed.
End Hashes.
Print Assumptions C78_cairo_value_partial.
Print Assumptions C78_cairo_refused.
Print Assumptions C78_cairo_function.
Print Assumptions C78_cairo_binds.
Print Assumptions C78_sierra_value.
Print Assumptions C78_sierra_binds.
Print Assumptions C78_kinds.
Print Assumptions C78_class_hash.
Print Assumptions C78_python_refuted.

(** ---- a case ---- *)

Definition ex_pedersen (a b : felt) : felt := (a * 31 + b * 1009 + 7) mod P.
Definition ex_poseidon (l : list felt) : felt := fold_left (fun acc x => (acc * 4099 + x + 13) mod P) l 5.
Definition ex_keccak (l : list N) : list N := repeat 9 30 ++ [len l mod 256; fold_left N.add l 0 mod 256].
Lemma ex_keccak_ok : forall l, length (ex_keccak l) = 32%nat /\ Forall (fun b => b < 256) (ex_keccak l).
Proof.
  intros l. unfold ex_keccak. split; [reflexivity|]. apply Forall_app. split.
  - repeat (constructor; [lia|]). constructor.
  - constructor; [apply N.mod_lt; lia|]. constructor; [apply N.mod_lt; lia|constructor].
Qed.

(** the same class from a newer and an older compiler, neither of which gives its version *)
Definition ex_identifiers (ty : str) : json :=
  JObject [(text "f", JObject [(text "cairo_type", JString ty); (text "size", JNumber (text "2"))])].
Definition ex_class (attributes : list json) (debug : option (list N)) (ty : str)
  (handlers : option (list entry_point)) : cairo :=
  Cairo (JArray [])
    (Program attributes [text "range_check"] None [text "0x1A"; text "0xff"] debug
       [(3, [JString (text "hint")])] (ex_identifiers ty) (text "__main__") (text "0x800")
       (JObject [(text "references", JArray [])]))
    (ByType (Some [(17, 0); (19, 4)]) handlers None).
Definition ex_new : cairo :=
  ex_class [JObject [(text "accessible_scopes", JArray []); (text "flow_tracking_data", JNull);
                     (text "name", JString (text "error_message"))]]
    (Some (text "{}")) (text "(x: felt, y: felt)") None.
Definition ex_old : cairo :=
  ex_class [JObject [(text "name", JString (text "error_message"))]]
    None (text "(x : felt, y : felt)") (Some []).

Lemma ex_class_facts a debug ty handlers :
  Forall (json_all number_text (Forall scalar)) a -> Forall (json_all (fun _ => True) (Forall plain_char)) a ->
  Forall attribute_ok a ->
  Forall (fun a => forall l, a = JObject l -> NoDup (map fst l)) a ->
  Forall (fun c => c < 127) ty -> len (listed handlers) < 2 ->
  let d := ex_class a debug ty handlers in
  cairo_ok d /\ cairo_fits d /\ plain d /\ accepted d.
Proof.
  intros A1 A2 A3 A4 A5 A6.
  assert (lit : forall (Q : N -> Prop) s, (forall c, c < 127 -> Q c) ->
                forallb (fun c => c <? 127) s = true -> Forall Q s).
  { intros Q s H F. rewrite forallb_forall in F. apply Forall_forall. intros c I. apply H.
    specialize (F c I). lia. }
  assert (SC : forall c, c < 127 -> scalar c) by (unfold scalar; lia).
  assert (PC : forall c, c < 127 -> plain_char c) by (unfold plain_char; lia).
  assert (num : forall t, t = text "2" -> number_text t).
  { intros t ->. split; [discriminate|]. constructor; [|constructor]. vm_compute. tauto. }
  assert (TY : forall Q : N -> Prop, (forall c, c < 127 -> Q c) -> Forall Q ty).
  { intros Q H. eapply Forall_impl; [|exact A5]. exact H. }
  assert (ALL : forall (num' : list N -> Prop) (Q : N -> Prop), num' (text "2") -> (forall c, c < 127 -> Q c) ->
            Forall (json_all num' (Forall Q)) a ->
            cairo_all num' (Forall Q) (ex_class a debug ty handlers)).
  { intros num' Q Hn H FA. unfold cairo_all, ex_class, ex_identifiers.
    cbn [ca_abi ca_program p_attributes p_builtins p_compiler p_data p_hints p_identifiers
         p_main_scope p_prime p_references json_all snd].
    assert (L : forall s, forallb (fun c => c <? 127) s = true -> Forall Q s) by (intros; apply lit; auto).
    split; [exact Coq.Init.Logic.I|]. split; [exact FA|].
    split; [constructor; [apply L; reflexivity|constructor]|]. split; [exact Coq.Init.Logic.I|].
    split; [constructor; [apply L; reflexivity|constructor; [apply L; reflexivity|constructor]]|].
    split; [constructor; [cbn [snd]; constructor; [apply L; reflexivity|constructor]|constructor]|].
    split.
    { split; [apply L; reflexivity|]. split; [|exact Coq.Init.Logic.I].
      split; [apply L; reflexivity|]. split; [apply TY; exact H|].
      split; [apply L; reflexivity|]. split; [exact Hn|exact Coq.Init.Logic.I]. }
    split; [apply L; reflexivity|]. split; [apply L; reflexivity|].
    split; [apply L; reflexivity|]. split; exact Coq.Init.Logic.I. }
  cbv zeta. split; [split; [apply ALL; auto|exact A4]|]. split; [|split; [apply ALL; auto|]].
  - split; [|split; reflexivity]. split; [reflexivity|]. split; [|reflexivity].
    cbn [ca_entries ex_class bt_l1_handler]. eapply N.lt_trans; [exact A6|reflexivity].
  - split; [exact A3|]. split.
    + constructor; [|constructor]. split; [vm_compute; lia|vm_compute; reflexivity].
    + constructor; [|constructor; [|constructor]].
      * exists (text "1A"), 26. split; [reflexivity|]. split; [vm_compute; lia|]. split; [|reflexivity].
        change (text "1A") with (([] ++ [48 + 1]) ++ [65 + (10 - 10)]).
        change 26 with (16 * (16 * 0 + 1) + 10). repeat constructor; lia.
      * exists (text "ff"), 255. split; [reflexivity|]. split; [vm_compute; lia|]. split; [|reflexivity].
        change (text "ff") with (([] ++ [97 + (15 - 10)]) ++ [97 + (15 - 10)]).
        change 255 with (16 * (16 * 0 + 15) + 15). repeat constructor; lia.
Qed.

Example C78_cairo_example :
  (cairo_ok ex_new /\ cairo_fits ex_new /\ plain ex_new /\ accepted ex_new) /\
  (cairo_ok ex_old /\ cairo_fits ex_old /\ plain ex_old /\ accepted ex_old) /\
  covered ex_new = covered ex_old /\ ex_new <> ex_old /\
  py_dumps (document (covered ex_new)) = text
"{""abi"": [], ""program"": {""attributes"": [{""name"": ""error_message""}], ""builtins"": [""range_check""], ""data"": [""0x1A"", ""0xff""], ""debug_info"": null, ""hints"": {""3"": [""hint""]}, ""identifiers"": {""f"": {""cairo_type"": ""(x : felt, y : felt)"", ""size"": 2}}, ""main_scope"": ""__main__"", ""prime"": ""0x800"", ""reference_manager"": {""references"": []}}}" /\
  map bytecode_number (p_data (ca_program ex_new)) = [26; 255] /\
  clean ex_pedersen ex_pedersen ex_poseidon ex_keccak
    (cairo_calls ex_pedersen ex_keccak ex_new ++ cairo_calls ex_pedersen ex_keccak ex_old) /\
  exists h, compute_cairo_class_hash ex_pedersen ex_keccak ex_new = Ok h.
Proof.
  assert (lit : forall (Q : N -> Prop) s, (forall c, c < 127 -> Q c) ->
                forallb (fun c => c <? 127) s = true -> Forall Q s).
  { intros Q s H F. rewrite forallb_forall in F. apply Forall_forall. intros c I. apply H.
    specialize (F c I). lia. }
  assert (SC : forall c, c < 127 -> scalar c) by (unfold scalar; lia).
  assert (PC : forall c, c < 127 -> plain_char c) by (unfold plain_char; lia).
  assert (NEW : cairo_ok ex_new /\ cairo_fits ex_new /\ plain ex_new /\ accepted ex_new).
  { apply ex_class_facts.
    - constructor; [|constructor]. cbn. repeat split; apply lit; auto.
    - constructor; [|constructor]. cbn. repeat split; apply lit; auto.
    - constructor; [|constructor]. eexists. split; [reflexivity|].
      intros v [E|[E|[E|[]]]]; [injection E as <-; eauto|discriminate|discriminate].
    - constructor; [|constructor]. intros l E. apply obj_eq in E. subst l. cbn [map fst].
      repeat constructor; cbn [In]; intros X; repeat destruct X as [X|X]; try discriminate; exact X.
    - apply lit; auto.
    - reflexivity. }
  assert (OLD : cairo_ok ex_old /\ cairo_fits ex_old /\ plain ex_old /\ accepted ex_old).
  { apply ex_class_facts.
    - constructor; [|constructor]. cbn. repeat split; apply lit; auto.
    - constructor; [|constructor]. cbn. repeat split; apply lit; auto.
    - constructor; [|constructor]. eexists. split; [reflexivity|].
      intros v [E|[]]; discriminate.
    - constructor; [|constructor]. intros l E. apply obj_eq in E. subst l. cbn [map fst].
      repeat constructor; cbn [In]; intros X; repeat destruct X as [X|X]; try discriminate; exact X.
    - apply lit; auto.
    - reflexivity. }
  split; [exact NEW|]. split; [exact OLD|]. split; [vm_compute; reflexivity|].
  split; [discriminate|]. split; [vm_compute; reflexivity|]. split; [vm_compute; reflexivity|]. split.
  - apply clean_check; vm_compute; reflexivity.
  - eexists. apply (C78_cairo_value_partial ex_pedersen ex_pedersen ex_poseidon ex_keccak ex_keccak_ok);
      [apply NEW|apply NEW|apply NEW|]. split; [apply NEW|reflexivity].
Qed.

Definition ex_sierra (abi : str) : sierra :=
  Sierra abi [1; 2; 3] (text "0.1.0") (ByType (Some [(17, 0)]) None (Some [])).
Example C78_sierra_example :
  clean ex_pedersen ex_pedersen ex_poseidon ex_keccak
    (sierra_calls ex_poseidon ex_keccak (ex_sierra [233]) ++ cairo_calls ex_pedersen ex_keccak ex_new) /\
  Forall scalar [233] /\
  exists h, compute_sierra_class_hash ex_poseidon ex_keccak (ex_sierra [233]) = Ok h.
Proof.
  split; [apply clean_check; vm_compute; reflexivity|]. split.
  - constructor; [unfold scalar; lia|constructor].
  - eexists. apply (C78_sierra_value ex_pedersen ex_pedersen ex_poseidon ex_keccak ex_keccak_ok).
    split; reflexivity.
Qed.
