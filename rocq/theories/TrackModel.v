(* Tracking the head of the chain over p2p: the pipeline that fetches the data of each block from peers,
   checks them against its header, joins them again and stores the block.
   crates/pathfinder/src/sync/{track,stream,transactions,events,state_updates,class_definitions}.rs.

   The tasks of the pipeline run concurrently and talk over bounded channels.  Each is an automaton here;
   a run is any interleaving of their steps.  The stages piped behind a source (stream.rs:74-130) work off
   its output in order, and are part of its automaton: between two channels of the model there may be
   several of the code.  Numbers stand for hashes, commitments and all contents that are not looked at. *)
From Coq Require Import List Arith NArith Bool.
Import ListNotations.

(* ---- data ---- *)
Definition peer := N.
Record hdr := Hdr {
  hd_number : N; hd_hash : N; hd_version : N; hd_root : N;
  hd_tx_count : nat; hd_tx_commitment : N; hd_receipt_commitment : N;
  hd_event_count : nat; hd_event_commitment : N; hd_diff_commitment : N
}.
(* [t_body]: all of a transaction but its hash *)
Record tx := Tx { t_hash : N; t_body : N }.
(* [r_body]: fee, resources, messages, status *)
Record receipt := Receipt { r_hash : N; r_index : nat; r_body : N }.
Definition event := N.
(* StateUpdateData, crates/common/src/state_update.rs; [d_rest]: all but the declared classes *)
Record diff := Diff { d_rest : N; d_cairo : list N; d_sierra : list (N * N) }.
Inductive def := Cairo (d : N) | Sierra (d : N).
(* CompiledClass, class_definitions.rs:54-69; the third component is the CASM of a Sierra class *)
Definition class := (N * def * option N)%type.
Record block := Block {
  b_header : hdr; b_signature : N; b_txs : list (tx * receipt); b_events : list (list event);
  b_diff : diff; b_classes : list class
}.
(* SyncError: a peer is to blame, nobody is, or the node cannot go on *)
Inductive err := Blame (p : peer) | NoBlame | Fatal.

Record env := Env {
  (* calculate_contract_address, calculate_hash *)
  e_address : N -> N;
  e_tx_hash : N -> N;
  (* the commitments, with the version of the block; calculate_transaction_commitment,
     calculate_event_commitment, compute_state_diff_commitment *)
  e_tx_commitment : list tx -> N -> N;
  e_event_commitment : list (N * list event) -> N -> N;
  e_diff_commitment : diff -> N;
  (* verify_layout_impl and the computation of a class hash *)
  e_class_hash : def -> option N;
  (* compile_or_fetch_impl, class_definitions.rs:493-551: the compiler, else the feeder gateway *)
  e_casm : N -> N -> option N;
  (* the state commitment after the state updates stored so far, oldest first, for the version *)
  e_root : list diff -> N -> N
}.

(* ---- what peers answer: for each request the peer that was asked and what it sent.  None is a stream
   that fails.  The clients of state diffs and classes also count (peer_agnostic.rs:333-549): a wrong
   count is a failure here. ---- *)
Inductive answer :=
| ATxs (p : peer) (l : list (option (tx * N)))
| AEvents (p : peer) (l : list (option (N * event)))
| ADiff (p : peer) (d : option diff)
| AClasses (p : peer) (l : option (list (N * def))).

(* ---- what goes over the channels ---- *)
Inductive item :=
| IErr (e : err)
| IHeader (p : peer) (h : hdr) (signature : N)
| ITxs (l : list (tx * receipt))
| IHashes (l : list N)
| IEvents (m : list (N * list event))
| IDiff (d : diff)
| IDeclared (cairo : list N) (sierra : list (N * N))
| IClasses (p : peer) (l : list class)
| IBlock (p : peer) (h : hdr) (signature : N) (m : list (N * list event)) (d : diff) (l : list (tx * receipt)) (c : list class).

(* ---- the checks ---- *)
(* the exact number of elements of a stream, track.rs:387-408 and 479-502 *)
Fixpoint take_exact {A} (n : nat) (l : list (option A)) : option (list A) :=
  match n, l with
  | O, [] => Some []
  | O, _ :: _ => None
  | S m, Some a :: l' => option_map (cons a) (take_exact m l')
  | S _, _ => None
  end.
Fixpoint all {A B} (f : A -> option B) (l : list A) : option (list B) :=
  match l with
  | [] => Some []
  | a :: l' => match f a, all f l' with Some b, Some r => Some (b :: r) | _, _ => None end
  end.
(* transactions_for_block numbers what arrives, peer_agnostic.rs:304-325 *)
Fixpoint enumerate {A} (i : nat) (l : list A) : list (nat * A) :=
  match l with [] => [] | a :: l' => (i, a) :: enumerate (S i) l' end.
(* CalculateHashes, transactions.rs:76-123 *)
Definition calculate_hash (e : env) (x : nat * (tx * N)) : option (tx * receipt) :=
  let '(i, (t, r)) := x in
  let body := e_address e (t_body t) in
  if N.eqb (t_hash t) (e_tx_hash e body)
  then Some (Tx (t_hash t) body, Receipt (e_tx_hash e body) i r)
  else None.
(* TransactionSource, track.rs:353-426; None: the source itself gives up *)
Definition fetched_txs (h : hdr) (l : list (option (tx * N))) : option (list (nat * (tx * N))) :=
  option_map (enumerate 0) (take_exact (hd_tx_count h) l).
(* CalculateHashes and VerifyCommitment, transactions.rs:168-194 *)
Definition verified_txs (e : env) (h : hdr) (l : list (nat * (tx * N))) : option (list (tx * receipt)) :=
  match all (calculate_hash e) l with
  | Some txs => if N.eqb (e_tx_commitment e (map fst txs) (hd_version h)) (hd_tx_commitment h) then Some txs else None
  | None => None
  end.

(* block_events.entry(tx_hash).or_default().push(event), track.rs:482-484 *)
Fixpoint push_event (k : N) (x : event) (m : list (N * list event)) : list (N * list event) :=
  match m with
  | [] => [(k, [x])]
  | (k', l) :: m' => if N.eqb k k' then (k', l ++ [x]) :: m' else (k', l) :: push_event k x m'
  end.
Definition group (l : list (N * event)) : list (N * list event) :=
  fold_left (fun m x => push_event (fst x) (snd x) m) l [].
Definition get_events (m : list (N * list event)) (k : N) : option (list event) :=
  option_map snd (find (fun x => N.eqb (fst x) k) m).
(* ordered_events, events.rs:145-151 *)
Fixpoint ordered (m : list (N * list event)) (txs : list N) : list (N * list event) :=
  match txs with
  | [] => []
  | t :: txs' => match get_events m t with Some l => (t, l) :: ordered m txs' | None => ordered m txs' end
  end.
(* EventSource and VerifyCommitment, track.rs:428-518, events.rs:128-164 *)
Definition verified_events (e : env) (h : hdr) (txs : list N) (l : list (option (N * event))) : option (list (N * list event)) :=
  match take_exact (hd_event_count h) l with
  | Some l =>
      let m := group l in
      if Nat.eqb (length (ordered m txs)) (length m)
         && N.eqb (e_event_commitment e (ordered m txs) (hd_version h)) (hd_event_commitment h)
      then Some m else None
  | None => None
  end.

(* StateDiffSource and VerifyCommitment, track.rs:520-574, state_updates.rs:105-125 *)
Definition verified_diff (e : env) (h : hdr) (d : option diff) : option diff :=
  match d with
  | Some d => if N.eqb (e_diff_commitment e d) (hd_diff_commitment h) then Some d else None
  | None => None
  end.

(* VerifyLayout, VerifyHash, class_definitions.rs:121-256 *)
Definition verify_class (e : env) (x : N * def) : option (N * def) :=
  match e_class_hash e (snd x) with
  | Some c => if N.eqb c (fst x) then Some x else None
  | None => None
  end.
(* compile_or_fetch_impl *)
Definition compile (e : env) (x : N * def) : option class :=
  match snd x with
  | Cairo _ => Some (x, None)
  | Sierra d => match e_casm e (fst x) d with Some c => Some (x, Some c) | None => None end
  end.
(* VerifyClassHashes, class_definitions.rs:641-692 *)
Definition remove_cairo (c : N) (l : list N) : option (list N) :=
  if existsb (N.eqb c) l then Some (filter (fun x => negb (N.eqb c x)) l) else None.
Definition remove_sierra (c : N) (l : list (N * N)) : option (list (N * N)) :=
  if existsb (fun x => N.eqb c (fst x)) l then Some (filter (fun x => negb (N.eqb c (fst x))) l) else None.
Fixpoint all_declared (cairo : list N) (sierra : list (N * N)) (l : list class) : bool :=
  match l with
  | [] => match cairo, sierra with [], [] => true | _, _ => false end
  | (c, Cairo _, _) :: l' =>
      match remove_cairo c cairo with Some cairo' => all_declared cairo' sierra l' | None => false end
  | (c, Sierra _, _) :: l' =>
      match remove_sierra c sierra with Some sierra' => all_declared cairo sierra' l' | None => false end
  end.

(* events.remove(&t.hash).unwrap_or_default() for each transaction, track.rs:798-802 *)
Fixpoint remove_events (k : N) (m : list (N * list event)) : list (N * list event) :=
  match m with
  | [] => []
  | (k', l) :: m' => if N.eqb k' k then m' else (k', l) :: remove_events k m'
  end.
Fixpoint take_events (m : list (N * list event)) (txs : list N) : list (list event) :=
  match txs with
  | [] => []
  | t :: txs' =>
      match get_events m t with Some l => l | None => [] end :: take_events (remove_events t m) txs'
  end.

(* ---- channels, and the tasks at their ends ---- *)
Inductive pid := PSource | PHeaders | PTxs | PTxFan | PEvents | PDiff | PDiffFan | PClasses | PDeclared | PJoin | PStore.
Inductive cid :=
| Src                                   (* verified headers *)
| HJoin | HEvents | HDiff | HTxs        (* HeaderFanout, track.rs:305-351 *)
| Txs | TJoin | THashes                 (* TransactionsFanout, track.rs:268-303 *)
| EJoin
| Diffs | DJoin | Declared1 | Declared2 (* StateDiffFanout, track.rs:216-266 *)
| Classes | CJoin | Blocks.
Definition sender (c : cid) : pid :=
  match c with
  | Src => PSource
  | HJoin | HEvents | HDiff | HTxs => PHeaders
  | Txs => PTxs
  | TJoin | THashes => PTxFan
  | EJoin => PEvents
  | Diffs => PDiff
  | DJoin | Declared1 | Declared2 => PDiffFan
  | Classes => PClasses
  | CJoin => PDeclared
  | Blocks => PJoin
  end.
Definition receiver (c : cid) : pid :=
  match c with
  | Src => PHeaders
  | HJoin | EJoin | DJoin | TJoin | CJoin => PJoin
  | HEvents | THashes => PEvents
  | HDiff => PDiff
  | HTxs => PTxs
  | Txs => PTxFan
  | Diffs => PDiffFan
  | Declared1 => PClasses
  | Declared2 | Classes => PDeclared
  | Blocks => PStore
  end.

(* ---- the tasks: where each of them is ---- *)
Inductive loc :=
| Halt                                  (* returned; its ends of channels are dropped *)
| Source_open                           (* HeaderSource with the stages of headers.rs, see HeaderSyncModel *)
(* HeaderFanout::from_source *)
| HF_recv | HF_join (x : item) | HF_events (p : peer) (h : hdr) (sig : N) | HF_diff (p : peer) (h : hdr) (sig : N)
| HF_txs (p : peer) (h : hdr) (sig : N)
(* TransactionSource::spawn; Tx_drain: its stages have returned, but it goes on taking headers, as it does
   not look at whether sending failed (track.rs:410-420) *)
| Tx_recv | Tx_ask (h : hdr) | Tx_send (l : list (tx * receipt)) | Tx_fail (e : err) (then_drain : bool) | Tx_drain
(* TransactionsFanout::from_source *)
| TF_recv | TF_join (x : item) | TF_hashes (l : list N)
(* EventSource::spawn *)
| Ev_recv | Ev_hashes (h : hdr) | Ev_ask (h : hdr) (txs : list N) | Ev_send (x : item)
(* StateDiffSource::spawn *)
| Sd_recv | Sd_ask (h : hdr) | Sd_send (x : item)
(* StateDiffFanout::from_source *)
| SF_recv | SF_join (x : item) | SF_1 (cairo : list N) (sierra : list (N * N)) | SF_2 (cairo : list N) (sierra : list (N * N))
(* ClassSource::spawn; [n]: block_number *)
| Cl_recv (n : N) | Cl_ask (n : N) (cairo : list N) (sierra : list (N * N)) | Cl_send (n : N) (x : item)
(* VerifyClassHashes *)
| Vc_recv | Vc_declared (p : peer) (l : list class) | Vc_send (x : item)
(* BlockStream::spawn, next *)
| J_header | J_events (p : peer) (h : hdr) (sig : N) | J_diff (p : peer) (h : hdr) (sig : N) (m : list (N * list event))
| J_txs (p : peer) (h : hdr) (sig : N) (m : list (N * list event)) (d : diff)
| J_classes (p : peer) (h : hdr) (sig : N) (m : list (N * list event)) (d : diff) (l : list (tx * receipt))
| J_send (x : item)
(* StoreBlock and the rest of Sync::run; Done: what it returns *)
| St_recv
| St_store (p : peer) (h : hdr) (sig : N) (m : list (N * list event)) (d : diff) (l : list (tx * receipt)) (c : list class)
| Done (result : option err).

Definition request := (pid * N)%type.
Inductive op :=
| Recv (c : cid) (k : option item -> loc)     (* None: closed and empty *)
| Send (c : cid) (x : item) (ok failed : loc) (* failed: the receiver is dropped *)
| Ask (r : request) (k : answer -> option loc) (* again and again until a peer answers; None: not an answer to this *)
| Store (b : block) (ok failed : loc)
| Stop.

Definition blamed {A} (p : peer) (o : option A) (f : A -> item) : item :=
  match o with Some a => f a | None => IErr (Blame p) end.
Definition is_err (x : item) : bool := match x with IErr _ => true | _ => false end.

Definition prog (e : env) (l : loc) : op :=
  match l with
  | Halt | Done _ | Source_open => Stop

  (* track.rs:319-344 *)
  | HF_recv => Recv Src (fun o => match o with Some x => HF_join x | None => Halt end)
  | HF_join x => Send HJoin x (match x with IHeader p h sig => HF_events p h sig | _ => Halt end) Halt
  | HF_events p h sig => Send HEvents (IHeader p h sig) (HF_diff p h sig) Halt
  | HF_diff p h sig => Send HDiff (IHeader p h sig) (HF_txs p h sig) Halt
  | HF_txs p h sig => Send HTxs (IHeader p h sig) HF_recv Halt

  (* track.rs:372-422 *)
  | Tx_recv => Recv HTxs (fun o => match o with Some (IHeader _ h _) => Tx_ask h | _ => Halt end)
  | Tx_ask h => Ask (PTxs, hd_number h) (fun a =>
      match a with
      | ATxs p l =>
          match fetched_txs h l with
          | None => Some (Tx_fail (Blame p) false)
          | Some l => Some (match verified_txs e h l with Some txs => Tx_send txs | None => Tx_fail (Blame p) true end)
          end
      | _ => None
      end)
  | Tx_send l => Send Txs (ITxs l) Tx_recv Tx_drain
  | Tx_fail x true => Send Txs (IErr x) Tx_drain Tx_drain
  | Tx_fail x false => Send Txs (IErr x) Halt Halt
  | Tx_drain => Recv HTxs (fun o => match o with Some _ => Tx_drain | None => Halt end)

  (* track.rs:278-296 *)
  | TF_recv => Recv Txs (fun o => match o with Some x => TF_join x | None => Halt end)
  | TF_join x => Send TJoin x (match x with ITxs l => TF_hashes (map (fun y => t_hash (fst y)) l) | _ => Halt end) Halt
  | TF_hashes l => Send THashes (IHashes l) TF_recv Halt

  (* track.rs:448-514 *)
  | Ev_recv => Recv HEvents (fun o => match o with Some (IHeader _ h _) => Ev_hashes h | _ => Halt end)
  | Ev_hashes h => Recv THashes (fun o => match o with Some (IHashes l) => Ev_ask h l | _ => Halt end)
  | Ev_ask h txs => Ask (PEvents, hd_number h) (fun a =>
      match a with AEvents p l => Some (Ev_send (blamed p (verified_events e h txs l) IEvents)) | _ => None end)
  | Ev_send x => Send EJoin x (if is_err x then Halt else Ev_recv) Halt

  (* track.rs:532-570 *)
  | Sd_recv => Recv HDiff (fun o => match o with Some (IHeader _ h _) => Sd_ask h | _ => Halt end)
  | Sd_ask h => Ask (PDiff, hd_number h) (fun a =>
      match a with ADiff p d => Some (Sd_send (blamed p (verified_diff e h d) IDiff)) | _ => None end)
  | Sd_send x => Send Diffs x (if is_err x then Halt else Sd_recv) Halt

  (* track.rs:231-258 *)
  | SF_recv => Recv Diffs (fun o => match o with Some x => SF_join x | None => Halt end)
  | SF_join x => Send DJoin x (match x with IDiff d => SF_1 (d_cairo d) (d_sierra d) | _ => Halt end) Halt
  | SF_1 cairo sierra => Send Declared1 (IDeclared cairo sierra) (SF_2 cairo sierra) Halt
  | SF_2 cairo sierra => Send Declared2 (IDeclared cairo sierra) SF_recv Halt

  (* track.rs:589-641 *)
  | Cl_recv n => Recv Declared1 (fun o => match o with Some (IDeclared cairo sierra) => Cl_ask n cairo sierra | _ => Halt end)
  | Cl_ask n cairo sierra => Ask (PClasses, n) (fun a =>
      match a with
      | AClasses p None => Some (Cl_send n (IErr (Blame p)))
      | AClasses p (Some l) =>
          Some (Cl_send n
            (match all (verify_class e) l with
             | None => IErr (Blame p)
             | Some l => match all (compile e) l with None => IErr NoBlame | Some l => IClasses p l end
             end))
      | _ => None
      end)
  | Cl_send n x => Send Classes x (if is_err x then Halt else Cl_recv (N.succ n)) Halt

  (* class_definitions.rs:652-692 *)
  | Vc_recv => Recv Classes (fun o =>
      match o with Some (IClasses p l) => Vc_declared p l | Some x => Vc_send x | None => Halt end)
  | Vc_declared p l => Recv Declared2 (fun o =>
      match o with
      | Some (IDeclared cairo sierra) => Vc_send (if all_declared cairo sierra l then IClasses p l else IErr (Blame p))
      | _ => Vc_send (IErr Fatal)
      end)
  | Vc_send x => Send CJoin x (if is_err x then Halt else Vc_recv) Halt

  (* track.rs:655-712 *)
  | J_header => Recv HJoin (fun o =>
      match o with Some (IHeader p h sig) => J_events p h sig | Some x => J_send x | None => Halt end)
  | J_events p h sig => Recv EJoin (fun o =>
      match o with Some (IEvents m) => J_diff p h sig m | Some x => J_send x | None => Halt end)
  | J_diff p h sig m => Recv DJoin (fun o =>
      match o with Some (IDiff d) => J_txs p h sig m d | Some x => J_send x | None => Halt end)
  | J_txs p h sig m d => Recv TJoin (fun o =>
      match o with Some (ITxs l) => J_classes p h sig m d l | Some x => J_send x | None => Halt end)
  | J_classes p h sig m d l => Recv CJoin (fun o =>
      match o with Some (IClasses _ c) => J_send (IBlock p h sig m d l c) | Some x => J_send x | None => Halt end)
  | J_send x => Send Blocks x (if is_err x then Halt else J_header) Halt

  (* track.rs:749-870, 142-162 *)
  | St_recv => Recv Blocks (fun o =>
      match o with
      | Some (IBlock p h sig m d l c) => St_store p h sig m d l c
      | Some (IErr x) => Done (Some x)
      | Some _ => Done (Some Fatal)
      | None => Done None
      end)
  | St_store p h sig m d l c =>
      Store (Block h sig l (take_events m (map (fun y => t_hash (fst y)) l)) d c) St_recv (Done (Some (Blame p)))
  end.

(* ---- the pipeline.  A channel is all that was sent over it, and how much of that was taken. ---- *)
Record state := State {
  s_loc : pid -> loc;
  s_sent : cid -> list item;
  s_taken : cid -> nat;
  s_stored : list block                 (* oldest first *)
}.
Definition pid_eq_dec (a b : pid) : {a = b} + {a <> b}.
Proof. decide equality. Defined.
Definition cid_eq_dec (a b : cid) : {a = b} + {a <> b}.
Proof. decide equality. Defined.
Definition set_loc (s : state) (p : pid) (l : loc) : state :=
  State (fun q => if pid_eq_dec q p then l else s_loc s q) (s_sent s) (s_taken s) (s_stored s).
Definition push (s : state) (c : cid) (x : item) : state :=
  State (s_loc s) (fun d => if cid_eq_dec d c then s_sent s d ++ [x] else s_sent s d) (s_taken s) (s_stored s).
Definition pop (s : state) (c : cid) : state :=
  State (s_loc s) (s_sent s) (fun d => if cid_eq_dec d c then S (s_taken s d) else s_taken s d) (s_stored s).
Definition store (s : state) (b : block) : state :=
  State (s_loc s) (s_sent s) (s_taken s) (s_stored s ++ [b]).

(* the senders, the receivers of a task are dropped *)
Definition mute (l : loc) : bool := match l with Halt | Done _ | Tx_drain => true | _ => false end.
Definition deaf (l : loc) : bool := match l with Halt | Done _ => true | _ => false end.

Inductive act :=
| Arrive (x : item)                     (* a verified header, or the error that ends them *)
| NoMore                                (* the end of the headers *)
| Run (p : pid)                         (* one step of a task *)
| Answer (p : pid) (a : answer).        (* a peer answers the request of a task *)

(* [cap]: the capacities of the channels, track.rs:66-140 and 218-616 *)
Definition step (e : env) (cap : cid -> nat) (s : state) (a : act) : option state :=
  match a with
  | Arrive x =>
      match s_loc s PSource with
      | Source_open =>
          if length (s_sent s Src) - s_taken s Src <? cap Src then
            match x with
            | IHeader _ _ _ => Some (push s Src x)
            | IErr _ => Some (set_loc (push s Src x) PSource Halt)
            | _ => None
            end
          else None
      | _ => None
      end
  | NoMore => match s_loc s PSource with Source_open => Some (set_loc s PSource Halt) | _ => None end
  | Run p =>
      match prog e (s_loc s p) with
      | Recv c k =>
          match nth_error (s_sent s c) (s_taken s c) with
          | Some x => Some (set_loc (pop s c) p (k (Some x)))
          | None => if mute (s_loc s (sender c)) then Some (set_loc s p (k None)) else None
          end
      | Send c x ok failed =>
          if deaf (s_loc s (receiver c)) then Some (set_loc s p failed)
          else if length (s_sent s c) - s_taken s c <? cap c then Some (set_loc (push s c x) p ok)
          else None
      | Store b ok failed =>
          if N.eqb (e_root e (map b_diff (s_stored s) ++ [b_diff b]) (hd_version (b_header b))) (hd_root (b_header b))
          then Some (set_loc (store s b) p ok)
          else Some (set_loc s p failed)
      | _ => None
      end
  | Answer p a =>
      match prog e (s_loc s p) with
      | Ask _ k => option_map (set_loc s p) (k a)
      | _ => None
      end
  end.

(* [first]: the number of the first block that is tracked *)
Definition init (first : N) : state :=
  State (fun p =>
           match p with
           | PSource => Source_open | PHeaders => HF_recv | PTxs => Tx_recv | PTxFan => TF_recv | PEvents => Ev_recv
           | PDiff => Sd_recv | PDiffFan => SF_recv | PClasses => Cl_recv first | PDeclared => Vc_recv
           | PJoin => J_header | PStore => St_recv
           end) (fun _ => []) (fun _ => 0) [].
Fixpoint run_from (e : env) (cap : cid -> nat) (s : state) (l : list act) : option state :=
  match l with
  | [] => Some s
  | a :: l' => match step e cap s a with Some s' => run_from e cap s' l' | None => None end
  end.
Definition run (e : env) (cap : cid -> nat) (first : N) (l : list act) : option state :=
  run_from e cap (init first) l.
