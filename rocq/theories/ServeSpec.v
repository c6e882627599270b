(** Vocabulary of the statements about serving and fetching blocks. *)
From Coq Require Import List Bool Arith NArith.
From Verif Require Import ServeModel.
Import ListNotations.
Local Open Scope N_scope.

(** ** The server *)

(** The [i]-th block a request asks for, counted from where it starts. *)
Definition asked (q : iteration) (first : N) (i : nat) : option N :=
  let far := N.of_nat i * q_step q in
  match q_dir q with
  | Forward => if first + far <=? MAX_NUMBER then Some (first + far) else None
  | Backward => if far <=? first then Some (first - far) else None
  end.

(** ** Honest peers *)
Definition prefix {X} (a b : list X) : Prop := exists c, b = a ++ c.

Section Honest.
  Context {R C A : Type}.
  (** what is to be sent for each block of the chain *)
  Variable truth : N -> list R.

  (** A node with the chain.  It may lack blocks; it may have headers whose data it has not synced
      yet, from [have] on; reads may fail. *)
  Definition honest (db : N -> found R) : Prop :=
    exists have, forall n,
      db n = DbError \/ db n = NoBlock \/
      (n < have /\ db n = Block (truth n)) \/ (have <= n /\ db n = Block []).

  (** What comes from it: all or the first part of its answer, or a failure after it. *)
  Definition received (db : N -> found R) (by_hash : N -> option N) (q : iteration)
      (rs : list (response R)) : Prop :=
    exists p, prefix p (iterate db by_hash q) /\ (rs = p \/ rs = p ++ [Failed]).

  Variable handle : C -> A -> R -> handled C A.
  Variable no_carry : C.
  Variable empty : A.
  Variable stop : N.

  (** A client with honest peers only, from the state [k0]: [fetched k0 m k] if [m] of the answers were
      complete and from nodes that have the next 100 blocks, as far as wanted. *)
  Inductive fetched (k0 : client) : nat -> client -> Prop :=
  | fetched_start : fetched k0 0 k0
  | fetched_nothing m k : fetched k0 m k -> fetched k0 m (session handle no_carry empty stop k None)
  | fetched_some m k next count counts db by_hash rs :
      fetched k0 m k -> k_status k = Running next count counts ->
      honest db -> received db by_hash (make_request next stop) rs ->
      fetched k0 m (session handle no_carry empty stop k (Some rs))
  | fetched_all m k next count counts db by_hash :
      fetched k0 m k -> k_status k = Running next count counts ->
      honest db -> (forall n, next <= n < next + SERVER_MAX -> n <= stop -> db n = Block (truth n)) ->
      fetched k0 (S m) (session handle no_carry empty stop k (Some (iterate db by_hash (make_request next stop)))).
End Honest.

(** The blocks [n], [n + 1], ..., [len] of them. *)
Fixpoint upfrom (n : N) (len : nat) : list N :=
  match len with O => [] | S l => n :: upfrom (n + 1) l end.

(** All the blocks of a stream: from [start] to [stop]. *)
Definition wanted (start stop : N) : list N := upfrom start (N.to_nat (stop + 1 - start)).

(** What a stream that fetched the chain's blocks looks like: it has given some of the wanted blocks
    from the first on, each with [view]; it has ended exactly if it has given all; and [m] complete
    answers gave at least 100 blocks each, as far as wanted. *)
Definition gives {A} (view : N -> A) (start stop : N) (m : nat) (k : @client A) : Prop :=
  exists j, k_out k = map (fun n => (n, view n)) (firstn j (wanted start stop)) /\
    (k_status k = Ended /\ (length (wanted start stop) <= j)%nat \/
     exists count counts, k_status k = Running (start + N.of_nat j) count counts /\
       (j < length (wanted start stop))%nat) /\
    (Nat.min (100 * m) (length (wanted start stop)) <= j)%nat.

(** ** The four kinds of data *)

(** elements with their position *)
Fixpoint indexed {X Y} (f : X -> nat -> Y) (i : nat) (l : list X) : list Y :=
  match l with [] => [] | x :: l' => f x i :: indexed f (S i) l' end.

(** Events as stored: for every transaction, in order.  As served: one by one with the hash. *)
Definition event_items {E} (l : list (N * list E)) : list (N * E) :=
  flat_map (fun x => map (pair (fst x)) (snd x)) l.
(** Transactions without events are not seen. *)
Definition with_events {E} (l : list (N * list E)) : list (N * list E) :=
  filter (fun x => match snd x with [] => false | _ => true end) l.

(** A well-formed diff: maps have one entry per key, no entry of a contract is empty, the system
    contracts are those with addresses 1 and 2. *)
Definition well_formed (d : diff) : Prop :=
  NoDup (map fst (d_contracts d)) /\ NoDup (map fst (d_system d)) /\
  NoDup (d_cairo d) /\ NoDup (map fst (d_sierra d)) /\
  (forall a c, In (a, c) (d_contracts d) ->
     a <> 1 /\ a <> 2 /\ NoDup (map fst (c_storage c)) /\ c <> Contract [] None None) /\
  (forall a s, In (a, s) (d_system d) -> (a = 1 \/ a = 2) /\ NoDup (map fst s) /\ s <> []).

(** What arrives: it is not said whether a class was deployed or replaced. *)
Definition as_deployed (d : diff) : diff :=
  Diff (map (fun x => (fst x, Contract (c_storage (snd x)) (c_nonce (snd x))
                                 (option_map (fun c => Deploy (class_hash c)) (c_class (snd x)))))
            (d_contracts d))
       (d_system d) (d_cairo d) (d_sierra d) (d_migrated d).

(** What a stream looks like whatever the peers sent: it has given some of the wanted blocks from the
    first on; the data of each is [ok] for the number of items it has; it has ended only if it has
    given all. *)
Definition orderly {A} (ok : A -> nat -> Prop) (start stop : N) (counts : list (option nat))
    (k : @client A) : Prop :=
  exists j, map fst (k_out k) = firstn j (wanted start stop) /\
    (forall i n a, nth_error (k_out k) i = Some (n, a) ->
       exists c, nth_error counts i = Some (Some c) /\ ok a c) /\
    (k_status k = Ended -> (length (wanted start stop) <= j)%nat).

(** ** What items say *)

(** the number of entries in an item: for the system contracts (1 and 2) only storage counts *)
Definition entries (i : diff_item) : nat :=
  match i with
  | ContractDiff a nonce class values =>
      if (a =? 1) || (a =? 2) then length values else length values + opt nonce + opt class
  | DeclaredClass _ _ => 1
  end.

(** the value of a key in a map *)
Fixpoint lookup {V} (k : N) (m : list (N * V)) : option V :=
  match m with [] => None | (k', v) :: m' => if k =? k' then Some v else lookup k m' end.

(** the last item that says something says what holds *)
Definition latest {I V} (said : I -> option V) (items : list I) : option V :=
  fold_left (fun o i => match said i with Some v => Some v | None => o end) items None.

Definition said_storage (a k : N) (i : diff_item) : option N :=
  match i with ContractDiff a' _ _ values => if a' =? a then lookup k (rev values) else None | _ => None end.
Definition said_nonce (a : N) (i : diff_item) : option N :=
  match i with ContractDiff a' nonce _ _ => if a' =? a then nonce else None | _ => None end.
Definition said_class (a : N) (i : diff_item) : option N :=
  match i with ContractDiff a' _ class _ => if a' =? a then class else None | _ => None end.
Definition said_casm (h : N) (i : diff_item) : option N :=
  match i with DeclaredClass h' (Some casm) => if h' =? h then Some casm else None | _ => None end.

(** what a diff says of the storage of a contract, of the nonce and the class of another contract than 1
    and 2 *)
Definition storage_in (d : diff) (a k : N) : option N :=
  if (a =? 1) || (a =? 2) then match lookup a (d_system d) with Some s => lookup k s | None => None end
  else match lookup a (d_contracts d) with Some c => lookup k (c_storage c) | None => None end.
Definition nonce_in (d : diff) (a : N) : option N :=
  match lookup a (d_contracts d) with Some c => c_nonce c | None => None end.
Definition class_in (d : diff) (a : N) : option class_update :=
  match lookup a (d_contracts d) with Some c => c_class c | None => None end.

(** The diff is what these items say. *)
Definition made_of (items : list diff_item) (d : diff) : Prop :=
  (forall a k, storage_in d a k = latest (said_storage a k) items) /\
  (forall a, a <> 1 -> a <> 2 ->
     nonce_in d a = latest (said_nonce a) items /\
     class_in d a = option_map Deploy (latest (said_class a) items)) /\
  (forall h, In h (d_cairo d) <-> In (DeclaredClass h None) items) /\
  (forall h, lookup h (d_sierra d) = latest (said_casm h) items) /\
  d_migrated d = [].
