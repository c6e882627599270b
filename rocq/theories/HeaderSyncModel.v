(* Header sync over p2p: from an L1 checkpoint back to genesis, then tracking the head.
   crates/pathfinder/src/sync/{headers,stream,checkpoint,track}.rs, crates/pathfinder/src/sync.rs,
   crates/storage/src/connection/block.rs, crates/p2p/src/sync/client/peer_agnostic.rs (header_stream).

   Only headers are modelled; the other data are synced after them and leave them alone.  Hashes are
   lists of numbers. *)
From Coq Require Import List Arith NArith Bool.
Import ListNotations.

Definition hash := list N.
Definition hash_eqb (a b : hash) : bool := if list_eq_dec N.eq_dec a b then true else false.
(* [h_body]: all other fields *)
Record header := Header { h_number : nat; h_hash : hash; h_parent : hash; h_body : N }.

(* compute_final_hash; BlockHashDb; the verification of a signature of a hash under the public key of
   the sequencer; the size of chunks (1000, checkpoint.rs:322) *)
Record env := Env {
  e_computed : header -> hash;
  e_db : nat -> option hash;
  e_signed : hash -> N -> bool;
  e_chunk : nat
}.

(* ---- pipelines, stream.rs.  None is an error.  The tasks of a pipeline run concurrently, but each
   works off its input in order, so a pipeline is a function of what is received. ---- *)
(* pipe_impl, stream.rs:74-130 *)
Fixpoint pipe {S A B} (stage : S -> A -> option (S * B)) (s : S) (l : list (option A)) : list (option B) :=
  match l with
  | [] => []
  | None :: _ => [None]
  | Some a :: l' =>
      match stage s a with
      | None => [None]
      | Some (s', b) => Some b :: pipe stage s' l'
      end
  end.
(* try_chunks, stream.rs:137-190; [chunk]: what has been collected *)
Fixpoint try_chunks {A} (capacity : nat) (chunk : list A) (l : list (option A)) : list (option (list A)) :=
  let rest := match chunk with [] => [] | _ => [Some chunk] end in
  match l with
  | [] => rest
  | None :: _ => rest ++ [None]
  | Some a :: l' =>
      if length (chunk ++ [a]) =? capacity
      then Some (chunk ++ [a]) :: try_chunks capacity [] l'
      else try_chunks capacity (chunk ++ [a]) l'
  end.

(* ---- stages, headers.rs; the second component is the signature ---- *)
Definition signed_header := (header * N)%type.
(* BackwardContinuity::map, headers.rs:182-200 *)
Definition backward (s : option nat * hash) (x : signed_header) : option ((option nat * hash) * signed_header) :=
  let (number, hash) := s in
  match number with
  | None => None
  | Some n =>
      if (h_number (fst x) =? n) && hash_eqb (h_hash (fst x)) hash
      then Some ((match n with O => None | S m => Some m end, h_parent (fst x)), x)
      else None
  end.
(* ForwardContinuity::map, headers.rs:150-163 *)
Definition forward (s : nat * hash) (x : signed_header) : option ((nat * hash) * signed_header) :=
  if (h_number (fst x) =? fst s) && hash_eqb (h_parent (fst x)) (snd s)
  then Some ((S (fst s), h_hash (fst x)), x)
  else None.
(* VerifyHashAndSignature, headers.rs:203-256 *)
Definition verify_hash (e : env) (h : header) : bool :=
  hash_eqb (e_computed e h) (match e_db e (h_number h) with Some x => x | None => h_hash h end).
Definition verify (e : env) (s : unit) (x : signed_header) : option (unit * signed_header) :=
  if verify_hash e (fst x) && e_signed e (h_hash (fst x)) (snd x) then Some (tt, x) else None.

(* ---- the table block_headers: hash is its primary key, number has a unique index ---- *)
Definition table := list header.
Definition has (t : table) (n : nat) : bool := existsb (fun h => h_number h =? n) t.
Definition row (t : table) (n : nat) : option header := find (fun h => h_number h =? n) t.
(* ORDER BY number DESC LIMIT 1 among the rows with [p] *)
Fixpoint top (p : header -> bool) (t : table) : option header :=
  match t with
  | [] => None
  | h :: t' =>
      if p h
      then match top p t' with
           | Some x => if h_number x <? h_number h then Some h else Some x
           | None => Some h
           end
      else top p t'
  end.
(* insert_block_header, block.rs:11-43; None: refused *)
Definition insert (t : table) (h : header) : option table :=
  if existsb (fun g => (h_number g =? h_number h) || hash_eqb (h_hash g) (h_hash h)) t then None else Some (h :: t).
Fixpoint insert_all (t : table) (l : list header) : option table :=
  match l with
  | [] => Some t
  | h :: l' => match insert t h with Some t' => insert_all t' l' | None => None end
  end.
(* next_ancestor, block.rs:48-66 *)
Definition next_ancestor (t : table) (n : nat) : option header := top (fun h => h_number h <? n) t.
(* next_ancestor_without_parent, block.rs:72-91 *)
Definition next_ancestor_without_parent (t : table) (n : nat) : option header :=
  top (fun h => (h_number h <=? n) && (0 <? h_number h) && negb (has t (h_number h - 1))) t.

(* ---- gaps, headers.rs:18-107.  [tail_parent_hash] is not used by anything. ---- *)
Record gap := Gap { g_head : nat; g_head_hash : hash; g_tail : nat }.
Definition next_gap (t : table) (head : nat) (head_hash : hash) : option gap :=
  let from n x :=
    Some (Gap n x (match next_ancestor t n with Some h => S (h_number h) | None => 0 end)) in
  if has t head then
    match next_ancestor_without_parent t head with
    | None => None
    | Some h => from (h_number h - 1) (h_parent h)
    end
  else from head head_hash.

(* handle_header_stream up to the persisting stage, checkpoint.rs:310-322 *)
Definition header_chunks (e : env) (g : gap) (received : list signed_header) : list (option (list header)) :=
  map (option_map (map fst))
      (try_chunks (e_chunk e) []
         (pipe (verify e) tt (pipe backward (Some (g_head g), g_head_hash g) (map Some received)))).

(* ---- the checkpoint against the local data, checkpoint.rs:480-597 ---- *)
Definition checkpoint := (nat * hash)%type.
Inductive analysis := Inconsistent | RollBack (lo hi : nat) | Consistent.
Definition first_unanchored (anchor : option checkpoint) : nat :=
  match anchor with Some (a, _) => S a | None => 0 end.
Definition analyse (t : table) (anchor : option checkpoint) (c : checkpoint) : analysis :=
  let contradicts :=
    match anchor with
    | Some (a, ah) => (fst c <? a) || ((fst c =? a) && negb (hash_eqb (snd c) ah))
    | None => false
    end in
  if contradicts then Inconsistent
  else
    match top (fun _ => true) t with
    | None => Consistent
    | Some latest =>
        if h_number latest <? fst c then RollBack (first_unanchored anchor) (h_number latest)
        else
          match row t (fst c) with
          | Some h => if hash_eqb (h_hash h) (snd c) then Consistent else RollBack (first_unanchored anchor) (fst c)
          | None => Consistent
          end
    end.
(* rollback_to_anchor with purge_block, checkpoint.rs:644-685: the blocks from [lo] to [hi] go *)
Definition purge (lo hi : nat) (t : table) : table :=
  filter (fun h => negb ((lo <=? h_number h) && (h_number h <=? hi))) t.

(* ---- the process: not running; past the analysis; looking for gaps; persisting what was received for
   one; done with the headers; tracking (the next number and parent); failed for good ---- *)
Inductive proc :=
| Idle | Analysed (c : checkpoint) | Headers (c : checkpoint) | Filling (c : checkpoint) (l : list (option (list header)))
| Done (c : checkpoint) | Tracking (next : nat) (parent : hash) | Stopped.
(* [s_anchor]: latest_l1_state *)
Record state := State { s_table : table; s_anchor : option checkpoint; s_proc : proc }.
Definition init : state := State [] None Idle.

Inductive act :=
(* run of checkpoint.rs:103-150, one action for each database transaction *)
| Start (c : checkpoint) | SaveAnchor
(* the search for a gap, with what is received for it: as many headers as it has, unless the pipeline
   fails before (header_stream::make, peer_agnostic.rs:606-743).  Peers may send anything. *)
| FindGap (received : list signed_header)
(* the next chunk, or the end of the stream or its error (then checkpoint sync is restarted, sync.rs) *)
| Advance
(* checkpoint.rs:141-150, sync.rs: the start of tracking *)
| Finish
(* a block is stored, track.rs:66-163, 749-870 *)
| Track (x : signed_header)
(* the node stops and is started again; also the restart of checkpoint sync with a newer checkpoint,
   sync.rs *)
| Crash.

Definition step (e : env) (s : state) (a : act) : option state :=
  let t := s_table s in
  match a, s_proc s with
  | Start c, Idle =>
      match analyse t (s_anchor s) c with
      | Inconsistent => Some (State t (s_anchor s) Stopped)
      | RollBack lo hi => Some (State (purge lo hi t) (s_anchor s) (Analysed c))
      | Consistent => Some (State t (s_anchor s) (Analysed c))
      end
  | SaveAnchor, Analysed c => Some (State t (Some c) (Headers c))
  | FindGap received, Headers c =>
      match next_gap t (fst c) (snd c) with
      | None => Some (State t (s_anchor s) (Done c))
      | Some g =>
          if length received =? S (g_head g) - g_tail g
          then Some (State t (s_anchor s) (Filling c (header_chunks e g received)))
          else None
      end
  | Advance, Filling c (Some l :: rest) =>
      match insert_all t l with
      | Some t' => Some (State t' (s_anchor s) (Filling c rest))
      | None => Some (State t (s_anchor s) Stopped)
      end
  | Advance, Filling c (None :: _) => Some (State t (s_anchor s) Idle)
  | Advance, Filling c [] => Some (State t (s_anchor s) (Headers c))
  | Finish, Done c =>
      Some (State t (s_anchor s)
        (match top (fun _ => true) t with
         | Some h => Tracking (S (h_number h)) (h_hash h)
         | None => Tracking 0 []
         end))
  | Track x, Tracking next parent =>
      match forward (next, parent) x with
      | None => None
      | Some ((next', parent'), _) =>
          match verify e tt x with
          | None => None
          | Some _ =>
              match insert t (fst x) with
              | Some t' => Some (State t' (s_anchor s) (Tracking next' parent'))
              | None => Some (State t (s_anchor s) Stopped)
              end
          end
      end
  | Crash, _ => Some (State t (s_anchor s) Idle)
  | _, _ => None
  end.
Fixpoint run_from (e : env) (s : state) (l : list act) : option state :=
  match l with
  | [] => Some s
  | a :: l' => match step e s a with Some s' => run_from e s' l' | None => None end
  end.
Definition run (e : env) (l : list act) : option state := run_from e init l.
