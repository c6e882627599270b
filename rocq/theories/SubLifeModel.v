(* The life of subscriptions on one websocket connection:
   crates/rpc/src/jsonrpc/router/subscription.rs.  The message loop, the requests of the message being
   handled, the task of each subscription and the task each of these spawns run concurrently; an
   execution is a list of atomic actions in any order.

   What a subscription streams is left open: its items are numbered 0, 1, 2, ... in the order in which
   its task gets to send them.  Ids are the numbers of an AtomicU32; a connection that starts more than
   2^32 subscriptions (then ids are used again) is outside the model. *)
From Coq Require Import List Arith NArith Bool.
Import ListNotations.
Local Open Scope N_scope.

(* the requests of a message, by what they do: subscribe, unsubscribe, another method or an error, a
   request without an id (which is ignored) *)
Inductive request := QSub | QUnsub (id : N) | QOther | QIgnored.
(* what is answered to a request: the id of the subscription, true, an error, something else *)
Inductive answer := ASub (id : N) | AUnsub (id : N) | ARefused | AOther.
(* how far a request has got in handle_request, subscription.rs:666-768: an id has been taken and
   invoke is running; invoke has spawned the task and returned its handle; the handle has been removed
   and is about to be aborted; done *)
Inductive req_state :=
| RNew (q : request) | RInvoking (id : N) | RSpawned (id : N) | RRemoved (id : N) | RDone (a : option answer).

(* the task of a subscription, subscription.rs:268-400: waiting for the lock; between two items; past
   contains_key with a notification or with an error, about to send it; ended *)
Inductive phase := PWait | PRun | PChecked | PCheckedErr | PEnd.
(* the task running subscribe, subscription.rs:322-334: not spawned; running; past contains_key with an
   error; ended *)
Inductive inner := INone | IRun | IChecked | IEnd.
(* [t_gen]: the message whose lock the task waits for; [t_pos]: the number of the next item *)
Record task := Task { t_gen : nat; t_phase : phase; t_pos : nat; t_aborted : bool; t_inner : inner }.

(* the loop of handle_json_rpc_socket, subscription.rs:481-661: waiting for a message; handling one; its
   answer has been sent but the lock is still held; ended *)
Inductive loop := LIdle | LBusy | LReplied | LDead.
(* what is sent to the client, in this order: the answers to a message; an item of a subscription; an
   error of a subscription *)
Inductive out := OReply (l : list answer) | ONote (id : N) (item : nat) | OErr (id : N).

(* [c_subs], [c_next]: Subscriptions, subscription.rs:38-42.  [c_gen]: how many locks have been
   released.  [c_closed]: the receiver of the channel to the websocket is gone, sending fails. *)
Record conn := Conn {
  c_subs : N -> bool;
  c_next : N;
  c_tasks : N -> option task;
  c_reqs : list req_state;
  c_loop : loop;
  c_gen : nat;
  c_closed : bool;
  c_out : list out
}.
Definition start : conn := Conn (fun _ => false) 0 (fun _ => None) [] LIdle 0 false [].

Definition upd {A} (f : N -> A) (k : N) (v : A) : N -> A := fun x => if N.eqb x k then v else f x.
Fixpoint set_nth (i : nat) (r : req_state) (l : list req_state) : list req_state :=
  match l with
  | [] => []
  | x :: l' => match i with O => r :: l' | S i' => x :: set_nth i' r l' end
  end.

Inductive act :=
(* the loop *)
| Receive (qs : list request) | Reply | Release | Leave
(* request number i of the message *)
| StartSub (i : nat) | Invoke (i : nat) (ok : bool) | Insert (i : nat)
| Remove (i : nat) | Abort (i : nat) | Answer (i : nat)
(* the task of subscription id *)
| TStart (id : N) | TCheck (id : N) | TSend (id : N) | TFail (id : N) | TFinish (id : N) | TKill (id : N)
| TCheckErr (id : N) | TSendErr (id : N) | TSpawn (id : N)
(* the task running subscribe *)
| ICheck (id : N) | ISend (id : N) | IFail (id : N) | IFinish (id : N)
(* the websocket *)
| Close.

Definition with_reqs (c : conn) (l : list req_state) : conn :=
  Conn (c_subs c) (c_next c) (c_tasks c) l (c_loop c) (c_gen c) (c_closed c) (c_out c).
Definition with_task (c : conn) (id : N) (t : task) : conn :=
  Conn (c_subs c) (c_next c) (upd (c_tasks c) id (Some t)) (c_reqs c) (c_loop c) (c_gen c) (c_closed c) (c_out c).
Definition with_sub (c : conn) (id : N) (b : bool) : conn :=
  Conn (upd (c_subs c) id b) (c_next c) (c_tasks c) (c_reqs c) (c_loop c) (c_gen c) (c_closed c) (c_out c).
Definition with_loop (c : conn) (s : loop) (g : nat) : conn :=
  Conn (c_subs c) (c_next c) (c_tasks c) (c_reqs c) s g (c_closed c) (c_out c).
Definition emit (c : conn) (o : out) : conn :=
  Conn (c_subs c) (c_next c) (c_tasks c) (c_reqs c) (c_loop c) (c_gen c) (c_closed c) (c_out c ++ [o]).
Definition with_phase (t : task) (p : phase) : task := Task (t_gen t) p (t_pos t) (t_aborted t) (t_inner t).
Definition with_inner (t : task) (i : inner) : task := Task (t_gen t) (t_phase t) (t_pos t) (t_aborted t) i.
Definition next_item (t : task) : task := Task (t_gen t) PRun (S (t_pos t)) (t_aborted t) (t_inner t).
Definition with_abort (t : task) : task := Task (t_gen t) (t_phase t) (t_pos t) true (t_inner t).

(* the answers of a message all of whose requests are done; requests without an id have none,
   subscription.rs:571-574, 635-638 *)
Fixpoint answers (l : list req_state) : option (list answer) :=
  match l with
  | [] => Some []
  | RDone a :: l' =>
      match answers l' with
      | Some r => Some (match a with Some x => x :: r | None => r end)
      | None => None
      end
  | _ :: _ => None
  end.

(* the end of the task of a subscription: dropping its guard removes the subscription,
   subscription.rs:403-415 *)
Definition ends (c : conn) (id : N) (t : task) : conn := with_sub (with_task c id (with_phase t PEnd)) id false.

(* one request, handle_request, subscription.rs:666-768 *)
Definition request_step (c : conn) (i : nat) (r : req_state) (a : act) : option conn :=
  match a, r with
  (* next_id, 735: fetch_add *)
  | StartSub _, RNew QSub =>
      if c_next c <? 2 ^ 32
      then Some (with_reqs (Conn (c_subs c) (c_next c + 1) (c_tasks c) (c_reqs c) (c_loop c) (c_gen c) (c_closed c) (c_out c))
                           (set_nth i (RInvoking (c_next c)) (c_reqs c)))
      else None
  (* invoke, 737-746, 175-401: an error or the spawned task *)
  | Invoke _ ok, RInvoking id =>
      if ok
      then Some (with_task (with_reqs c (set_nth i (RSpawned id) (c_reqs c))) id (Task (c_gen c) PWait 0 false INone))
      else Some (with_reqs c (set_nth i (RDone (Some ARefused)) (c_reqs c)))
  (* 748-759 *)
  | Insert _, RSpawned id =>
      Some (with_sub (with_reqs c (set_nth i (RDone (Some (ASub id))) (c_reqs c))) id true)
  (* 706-714: an unknown id is refused *)
  | Remove _, RNew (QUnsub id) =>
      if c_subs c id
      then Some (with_sub (with_reqs c (set_nth i (RRemoved id) (c_reqs c))) id false)
      else Some (with_reqs c (set_nth i (RDone (Some ARefused)) (c_reqs c)))
  (* 715-721 *)
  | Abort _, RRemoved id =>
      let c' := with_reqs c (set_nth i (RDone (Some (AUnsub id))) (c_reqs c)) in
      Some (match c_tasks c id with Some t => with_task c' id (with_abort t) | None => c' end)
  (* other requests, 673-690, 724-733 *)
  | Answer _, RNew QOther => Some (with_reqs c (set_nth i (RDone (Some AOther)) (c_reqs c)))
  | Answer _, RNew QIgnored => Some (with_reqs c (set_nth i (RDone None) (c_reqs c)))
  | _, _ => None
  end.

(* the two tasks of a subscription, subscription.rs:268-401, 804-857.  A task that has been aborted ends
   at some later point where it awaits something; until then it goes on. *)
Definition task_step (c : conn) (id : N) (t : task) (a : act) : option conn :=
  match a, t_phase t with
  (* the read lock, 275: given once the write guard has been dropped *)
  | TStart _, PWait => if (t_gen t <? c_gen c)%nat then Some (with_task c id (with_phase t PRun)) else None
  (* send, 805-829: nothing is sent if the subscription is gone *)
  | TCheck _, PRun => Some (with_task c id (if c_subs c id then with_phase t PChecked else next_item t))
  | TSend _, PChecked =>
      if c_closed c then None else Some (emit (with_task c id (next_item t)) (ONote id (t_pos t)))
  | TFail _, PChecked => if c_closed c then Some (ends c id t) else None
  | TFail _, PCheckedErr => if c_closed c then Some (ends c id t) else None
  (* the stream has ended, 335-341, 386-400 *)
  | TFinish _, PRun => Some (ends c id t)
  (* aborted *)
  | TKill _, PEnd => None
  | TKill _, _ => if t_aborted t then Some (ends c id t) else None
  (* send_err after a failed catch_up, 285-294, 352-361, 831-855 *)
  | TCheckErr _, PRun => Some (if c_subs c id then with_task c id (with_phase t PCheckedErr) else ends c id t)
  | TSendErr _, PCheckedErr => if c_closed c then None else Some (emit (ends c id t) (OErr id))
  (* 321-334 *)
  | TSpawn _, PRun =>
      match t_inner t with INone => Some (with_task c id (with_inner t IRun)) | _ => None end
  | ICheck _, _ =>
      match t_inner t with
      | IRun => Some (with_task c id (with_inner t (if c_subs c id then IChecked else IEnd)))
      | _ => None
      end
  | ISend _, _ =>
      match t_inner t with
      | IChecked => if c_closed c then None else Some (emit (with_task c id (with_inner t IEnd)) (OErr id))
      | _ => None
      end
  | IFail _, _ =>
      match t_inner t with
      | IChecked => if c_closed c then Some (with_task c id (with_inner t IEnd)) else None
      | _ => None
      end
  | IFinish _, _ =>
      match t_inner t with IRun => Some (with_task c id (with_inner t IEnd)) | _ => None end
  | _, _ => None
  end.

Definition act_request (a : act) : option nat :=
  match a with
  | StartSub i | Invoke i _ | Insert i | Remove i | Abort i | Answer i => Some i
  | _ => None
  end.
Definition act_task (a : act) : option N :=
  match a with
  | TStart id | TCheck id | TSend id | TFail id | TFinish id | TKill id | TCheckErr id | TSendErr id | TSpawn id
  | ICheck id | ISend id | IFail id | IFinish id => Some id
  | _ => None
  end.

(* the loop, subscription.rs:481-661.  One lock per message is taken before it is handled (523-524)
   and released at the end of the iteration, when its answer has been sent.  If that fails the loop
   ends, which releases the lock as well.  Messages that are not handled at all (pings, texts that do
   not parse) are left out. *)
Definition loop_step (c : conn) (a : act) : option conn :=
  match a, c_loop c with
  | Receive qs, LIdle => Some (with_loop (with_reqs c (map RNew qs)) LBusy (c_gen c))
  | Reply, LBusy =>
      match answers (c_reqs c) with
      | None => None
      | Some [] => Some (with_loop (with_reqs c []) LReplied (c_gen c))
      | Some l =>
          if c_closed c then Some (with_loop (with_reqs c []) LDead (S (c_gen c)))
          else Some (emit (with_loop (with_reqs c []) LReplied (c_gen c)) (OReply l))
      end
  | Release, LReplied => Some (with_loop c LIdle (S (c_gen c)))
  | Leave, LIdle => Some (with_loop c LDead (c_gen c))
  | Close, _ => Some (Conn (c_subs c) (c_next c) (c_tasks c) (c_reqs c) (c_loop c) (c_gen c) true (c_out c))
  | _, _ => None
  end.

Definition step (c : conn) (a : act) : option conn :=
  match act_request a with
  | Some i => match nth_error (c_reqs c) i with Some r => request_step c i r a | None => None end
  | None =>
      match act_task a with
      | Some id => match c_tasks c id with Some t => task_step c id t a | None => None end
      | None => loop_step c a
      end
  end.
Fixpoint run_from (c : conn) (acts : list act) : option conn :=
  match acts with
  | [] => Some c
  | a :: acts' => match step c a with Some c' => run_from c' acts' | None => None end
  end.
Definition run (acts : list act) : option conn := run_from start acts.
