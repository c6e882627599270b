(* JSON-RPC requests, batches and the websocket loop: crates/rpc/src/jsonrpc/{request,response}.rs,
   crates/rpc/src/jsonrpc/router.rs, router/method.rs, and the message loop of
   router/subscription.rs.

   Texts are numbers.  What a method answers is given from outside, when it ends. *)
From Coq Require Import List Arith NArith ZArith Bool.
From Verif Require Import StateUpdateModel TxLookupModel.
Import ListNotations.
Local Open Scope N_scope.

(* ---- requests, request.rs ---- *)
(* RequestId, jsonrpc.rs:25-31 *)
Inductive req_id := IdNumber (z : Z) | IdString (s : N) | IdNull | IdNotification.
(* is_notification, jsonrpc.rs:33-37 *)
Definition is_notification (i : req_id) : bool := match i with IdNotification => true | _ => false end.

(* the field "id" of a JSON object: JOther stands for everything that is neither null, an integer nor
   a string *)
Inductive id_field := Absent | JNull | JNumber (z : Z) | JString (s : N) | JOther.
(* a JSON value: one that is no object, or the fields of an object; [o_version]: whether "jsonrpc"
   is there and is "2.0".  Anything may be in "params".  An array of the fields, in the order of the
   struct Helper, is taken for an object by serde; an object with a field given twice is not, and
   counts as NoObject. *)
Inductive raw :=
| NoObject
| Object (o_version : option bool) (o_id : id_field) (o_method : option N) (o_params : N).
Record request := Request { r_id : req_id; r_method : N; r_params : N }.

Definition I64_MIN : Z := (- 2 ^ 63)%Z.
Definition I64_MAX : Z := (2 ^ 63 - 1)%Z.
(* Deserialize for RpcRequest, request.rs:65-125 *)
Definition parse_request (r : raw) : option request :=
  match r with
  | NoObject => None
  | Object version id method params =>
      match version, method with
      | Some true, Some m =>
          match id with
          | JOther => None
          | JNumber z => if (I64_MIN <=? z)%Z && (z <=? I64_MAX)%Z then Some (Request (IdNumber z) m params) else None
          | JString s => Some (Request (IdString s) m params)
          | JNull => Some (Request IdNull m params)
          | Absent => Some (Request IdNotification m params)
          end
      | _, _ => None
      end
  end.

(* ---- responses, response.rs ---- *)
Inductive output :=
| Output (v : N) | ParseError | InvalidRequest | MethodNotFound | InvalidParams | InternalError | ApplicationError (e : N).
Record response := Response { p_id : req_id; p_output : output }.
(* how a method ends *)
Inductive outcome := Returns (o : output) | Panics.

(* run_request, router.rs:101-155; [methods]: the names that are registered.  A panic of the method is
   caught. *)
Definition run_request (methods : list N) (r : raw) (o : outcome) : option response :=
  match parse_request r with
  | None => Some (Response IdNull InvalidRequest)
  | Some q =>
      if is_notification (r_id q) then None
      else if negb (existsb (N.eqb (r_method q)) methods) then Some (Response (r_id q) MethodNotFound)
      else Some (Response (r_id q) (match o with Returns x => x | Panics => InternalError end))
  end.

(* handle_request, subscription.rs:666-768: as run_request, and starknet_unsubscribe and the
   subscription methods, [subscriptions], answer as well.  A panic while a subscription is started is
   not caught; it is left out (there is none it can be shown to have). *)
Definition handle_request (methods subscriptions : list N) (r : raw) (o : outcome) : option response :=
  match parse_request r with
  | None => Some (Response IdNull InvalidRequest)
  | Some q =>
      if is_notification (r_id q) then None
      else if existsb (N.eqb (r_method q)) methods then run_request methods r o
      else if existsb (N.eqb (r_method q)) subscriptions
           then Some (Response (r_id q) (match o with Returns x => x | Panics => InternalError end))
      else Some (Response (r_id q) MethodNotFound)
  end.

(* ---- run_concurrently, router.rs:343-388 ---- *)
(* the inputs not started, those running, and what has been sent to the channel *)
Record conc := Conc {
  c_waiting : list (nat * raw);
  c_running : list (nat * raw);
  c_sent : list (nat * option response) }.
(* None: creating a channel without capacity panics *)
Definition conc_start (items : list raw) : option conc :=
  if is_nil items then None else Some (Conc (enumerate_from 0 items) [] []).
(* for_each_concurrent starts the next input if fewer than [limit] are running; any of those that
   are running can end *)
Inductive conc_action := Begin | Finish (i : nat) (o : outcome).
Fixpoint take_out (i : nat) (l : list (nat * raw)) : option (raw * list (nat * raw)) :=
  match l with
  | [] => None
  | x :: r => if (fst x =? i)%nat then Some (snd x, r)
              else option_map (fun y => (fst y, x :: snd y)) (take_out i r)
  end.
(* None: not possible in this state.  [capacity]: that of the channel; a full one makes the sender
   wait. *)
Definition conc_step (work : raw -> outcome -> option response) (limit capacity : nat) (c : conc) (a : conc_action) : option conc :=
  match a with
  | Begin =>
      match c_waiting c with
      | [] => None
      | x :: r => if (length (c_running c) <? limit)%nat then Some (Conc r (c_running c ++ [x]) (c_sent c)) else None
      end
  | Finish i o =>
      match take_out i (c_running c) with
      | None => None
      | Some (q, r) => if (length (c_sent c) <? capacity)%nat then Some (Conc (c_waiting c) r (c_sent c ++ [(i, work q o)])) else None
      end
  end.
Fixpoint conc_run (work : raw -> outcome -> option response) (limit capacity : nat) (c : conc) (l : list conc_action) : option conc :=
  match l with
  | [] => Some c
  | a :: r => match conc_step work limit capacity c a with Some c' => conc_run work limit capacity c' r | None => None end
  end.
Definition conc_done (c : conc) : bool := is_nil (c_waiting c) && is_nil (c_running c).
(* sort_by index, router.rs:385; written as insertion *)
Fixpoint insert_by (x : nat * option response) (l : list (nat * option response)) : list (nat * option response) :=
  match l with
  | [] => [x]
  | y :: r => if (fst x <=? fst y)%nat then x :: l else y :: insert_by x r
  end.
Definition sort_by (l : list (nat * option response)) : list (nat * option response) := fold_right insert_by [] l.
Definition collect (c : conc) : list (option response) := map snd (sort_by (c_sent c)).
(* Iterator::flatten *)
Definition flatten (l : list (option response)) : list response :=
  flat_map (fun x => match x with Some r => [r] | None => [] end) l.

(* ---- HTTP, method.rs:37-100 and router.rs:198-247 ---- *)
(* the text of a request: not UTF-8 or not JSON, or a value; a text starting with a bracket is an
   array or not JSON *)
Inductive body := BadText | Single (r : raw) | Batch (l : list raw).
Inductive http_answer := Nothing | One (r : response) | Many (l : list response) | NotDone.
(* handle_json_rpc_body with the error arms of rpc_handler.  [acts]: how the batch is scheduled;
   NotDone: these do not end it. *)
Definition handle_body (methods : list N) (limit : nat) (batches_disabled : bool) (b : body)
    (o : outcome) (acts : list conc_action) : http_answer :=
  match b with
  | BadText => One (Response IdNull ParseError)
  | Single r => match run_request methods r o with Some p => One p | None => Nothing end
  | Batch l =>
      if batches_disabled then One (Response IdNull InvalidRequest)
      else
        match conc_start l with
        | None => One (Response IdNull InvalidRequest)
        | Some c =>
            match conc_run (run_request methods) limit (length l) c acts with
            | Some c' =>
                if conc_done c' then
                  let responses := flatten (collect c') in
                  if is_nil responses then Nothing else Many responses
                else NotDone
            | None => NotDone
            end
        end
  end.

(* ---- websocket, handle_json_rpc_socket, subscription.rs:481-661 ---- *)
Inductive ws_message := WsRequest (b : body) | WsPing | WsClose | WsFailure.
(* what is sent: one response or those of a batch *)
Inductive ws_sent := SentOne (r : response) | SentMany (l : list response).
(* the loop goes on, has returned, or has panicked *)
Inductive ws_loop := Running | Returned | Panicked.
(* one message: what is sent and how the loop goes on.  None: the schedule does not end the batch.
   The configuration [batches_disabled] is not looked at. *)
Definition ws_step (methods subscriptions : list N) (limit : nat) (m : ws_message) (o : outcome) (acts : list conc_action)
    : option (list ws_sent * ws_loop) :=
  match m with
  | WsPing => Some ([], Running)
  | WsClose | WsFailure => Some ([], Returned)
  | WsRequest BadText => Some ([SentOne (Response IdNull ParseError)], Running)
  | WsRequest (Single r) =>
      Some (match handle_request methods subscriptions r o with Some p => [SentOne p] | None => [] end, Running)
  | WsRequest (Batch l) =>
      match conc_start l with
      (* the answer to an empty batch is sent, subscription.rs:595-608, and run_concurrently called
         nevertheless *)
      | None => Some ([SentOne (Response IdNull InvalidRequest)], Panicked)
      | Some c =>
          match conc_run (handle_request methods subscriptions) limit (length l) c acts with
          | Some c' =>
              if conc_done c' then
                let responses := flatten (collect c') in
                Some (if is_nil responses then [] else [SentMany responses], Running)
              else None
          | None => None
          end
      end
  end.
(* the messages of a connection, one after the other, each with how its methods end *)
Fixpoint ws_run (methods subscriptions : list N) (limit : nat) (l : list (ws_message * outcome * list conc_action))
    : option (list ws_sent * ws_loop) :=
  match l with
  | [] => Some ([], Running)
  | (m, o, acts) :: r =>
      match ws_step methods subscriptions limit m o acts with
      | None => None
      | Some (sent, Running) =>
          match ws_run methods subscriptions limit r with
          | None => None
          | Some (sent', s) => Some (sent ++ sent', s)
          end
      | Some x => Some x
      end
  end.
