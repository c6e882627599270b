(* Vocabulary for C68: what is answered to a request. *)
From Coq Require Import List Arith NArith ZArith Bool.
From Verif Require Import TxLookupModel JsonRpcModel.
Import ListNotations.
Local Open Scope N_scope.

(* the id a request is answered with: none if there is no id; null if the request is not valid *)
Definition answer_id (f : id_field) : option req_id :=
  match f with
  | Absent => None
  | JNumber z => Some (IdNumber z)
  | JString s => Some (IdString s)
  | JNull | JOther => Some IdNull
  end.
(* ids are null, texts, or integers of 64 bits *)
Definition id_ok (f : id_field) : bool :=
  match f with
  | JOther => false
  | JNumber z => (- 2 ^ 63 <=? z)%Z && (z <=? 2 ^ 63 - 1)%Z
  | _ => true
  end.
(* the answer to a request, when the method called ends with o *)
Definition answer (known : list N) (r : raw) (o : outcome) : option response :=
  match r with
  | Object (Some true) f (Some m) _ =>
      if id_ok f then
        option_map (fun i =>
          Response i (if in_dec N.eq_dec m known then match o with Returns x => x | Panics => InternalError end
                      else MethodNotFound)) (answer_id f)
      else Some (Response IdNull InvalidRequest)
  | _ => Some (Response IdNull InvalidRequest)
  end.
(* how request i of a batch ended *)
Fixpoint outcome_of (acts : list conc_action) (i : nat) : outcome :=
  match acts with
  | [] => Panics
  | Finish j o :: r => if (j =? i)%nat then o else outcome_of r i
  | Begin :: r => outcome_of r i
  end.
(* the answers to a batch, in the order of the requests *)
Definition answers (known : list N) (l : list raw) (acts : list conc_action) : list response :=
  flat_map (fun x => match answer known (snd x) (outcome_of acts (fst x)) with Some r => [r] | None => [] end)
           (combine (seq 0 (length l)) l).

(* a schedule that carries out a batch to its end *)
Definition completes (work : raw -> outcome -> option response) (limit : nat) (l : list raw) (acts : list conc_action) : Prop :=
  exists c c', conc_start l = Some c /\ conc_run work limit (length l) c acts = Some c' /\ conc_done c' = true.

(* what is sent for a message *)
Definition ws_answer (known : list N) (m : ws_message) (o : outcome) (acts : list conc_action) : list ws_sent :=
  match m with
  | WsRequest BadText => [SentOne (Response IdNull ParseError)]
  | WsRequest (Single r) => match answer known r o with Some p => [SentOne p] | None => [] end
  | WsRequest (Batch []) => [SentOne (Response IdNull InvalidRequest)]
  | WsRequest (Batch l) => match answers known l acts with [] => [] | rs => [SentMany rs] end
  | _ => []
  end.
(* the messages up to the one that closes the connection *)
Fixpoint until_closed (l : list (ws_message * outcome * list conc_action)) : list (ws_message * outcome * list conc_action) :=
  match l with
  | [] => []
  | (m, o, acts) :: r =>
      match m with
      | WsClose | WsFailure => []
      | _ => (m, o, acts) :: until_closed r
      end
  end.
