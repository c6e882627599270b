(* Vocabulary for the statements about the write-ahead log. *)
From Coq Require Import List NArith Bool Sorted.
From Verif Require Import WalModel.
Import ListNotations.
Local Open Scope N_scope.

(* What the statements need of the JSON encoding of an entry: it is one line of text that
   reads back; a part of it does not parse, nor does it with something more after it. *)
Record json_like (ser : wal_entry -> bytes) (de : bytes -> option wal_entry) : Prop := {
  json_reads_back : forall e, de (ser e) = Some e;
  json_one_line : forall e, ~ In 10 (ser e) /\ ~ In 13 (ser e);
  json_visible : forall e k, (0 < k)%nat -> is_blank (firstn k (ser e)) = false;
  json_nonempty : forall e, ser e <> [];
  json_no_part : forall e k, (k < length (ser e))%nat -> de (firstn k (ser e)) = None;
  json_no_more : forall e e', de (ser e ++ ser e') = None }.

(* The entries logged for height h: None if there is no log for h, that is, it was never
   opened or it was deleted since. *)
Definition log_step (h : N) (l : option (list wal_entry)) (o : wal_op) : option (list wal_entry) :=
  let known := match l with Some es => es | None => [] end in
  match o with
  | WOpen h' => if h' =? h then Some known else l
  | WAppend h' e => if h' =? h then Some (known ++ [e]) else l
  | WDelete h' => if h' =? h then None else l
  end.
Definition logged (tr : list wal_op) (h : N) : option (list wal_entry) :=
  fold_left (log_step h) tr None.

Definition op_height (o : wal_op) : N :=
  match o with WOpen h => h | WAppend h _ => h | WDelete h => h end.

(* Heights are u64 values. *)
Definition heights_ok (tr : list wal_op) : Prop := Forall (fun o => op_height o < 2 ^ 64) tr.

Definition has_decision (es : list wal_entry) : Prop := exists h v, In (Decision h v) es.
Definition committed_by (highest_committed : option N) (h : N) : Prop :=
  exists c, highest_committed = Some c /\ h <= c.

(* r lists every logged height once, in ascending order, with exactly the entries logged for
   it, as finalized if done says so and as incomplete otherwise; and its highest decision is
   the greatest height of all logged decisions. *)
Record faithful (done : N -> list wal_entry -> Prop) (tr : list wal_op) (r : recovered) : Prop := {
  f_incomplete : forall h es, In (h, es) (incomplete r) <-> logged tr h = Some es /\ ~ done h es;
  f_finalized : forall h es, In (h, es) (finalized r) <-> logged tr h = Some es /\ done h es;
  f_sorted_incomplete : StronglySorted N.lt (map fst (incomplete r));
  f_sorted_finalized : StronglySorted N.lt (map fst (finalized r));
  f_no_decision : highest_decision r = None ->
    forall h es d v, logged tr h = Some es -> ~ In (Decision d v) es;
  f_decision : forall d, highest_decision r = Some d ->
    (exists h es v, logged tr h = Some es /\ In (Decision d v) es) /\
    forall h es d' v, logged tr h = Some es -> In (Decision d' v) es -> d' <= d }.

(* Finalized: a decision was logged, or the height is committed -- provided that anything
   was logged for it. *)
Definition done_if_logged (highest_committed : option N) (h : N) (es : list wal_entry) : Prop :=
  has_decision es \/ es <> [] /\ committed_by highest_committed h.

(* Finalized as the property states it. *)
Definition done_as_stated (highest_committed : option N) (h : N) (es : list wal_entry) : Prop :=
  has_decision es \/ committed_by highest_committed h.
