(* Vocabulary for C65: contract state after a sequence of stored blocks and pending blocks or
   transactions, each of which writes some values. *)
From Coq Require Import List NArith Bool.
From Verif Require Import AList StateUpdateModel StateUpdateSpec ChainModel ChainSpec RpcReadModel.
Import ListNotations.
Local Open Scope N_scope.

(* what a block or a transaction writes *)
Record layer := Layer {
  ly_deploys : N -> option N;
  ly_replaces : N -> option N;
  ly_nonce : N -> option N;
  ly_storage : N -> N -> option N }.
Definition ly_class (l : layer) (a : N) : option N := or_else (ly_replaces l a) (ly_deploys l a).

(* a block: its state update *)
Definition data_layer (u : state_update_data) : layer :=
  let contract a := nget a (sd_contracts u) in
  Layer
    (fun a => match contract a with Some x => match cu_class x with Some (Deploy h) => Some h | _ => None end | None => None end)
    (fun a => match contract a with Some x => match cu_class x with Some (Replace h) => Some h | _ => None end | None => None end)
    (fun a => match contract a with Some x => cu_nonce x | None => None end)
    (fun a k => if is_system a
                then match nget a (sd_system u) with Some m => nget k m | None => None end
                else match contract a with Some x => nget k (cu_storage x) | None => None end).

(* a transaction of the pre-confirmed block: its state diff as the gateway sends it; of several
   entries for the same thing the last one counts *)
Definition last_entry (k : N) (l : list (N * N)) : option N := nget k (rev l).
Definition diff_layer (d : gdiff) : layer :=
  Layer (fun a => last_entry a (g_deployed d)) (fun a => last_entry a (g_replaced d))
    (fun a => nget a (g_nonces d))
    (fun a k => match nget a (g_storage d) with Some l => last_entry k l | None => None end).

(* the state after all layers: the last one that writes counts *)
Definition after {V} (w : layer -> option V) (ls : list layer) : option V :=
  fold_left (fun old l => or_else (w l) old) ls None.
Definition class_in (ls : list layer) (a : N) : option N := after (fun l => ly_class l a) ls.
Definition nonce_in (ls : list layer) (a : N) : option N := after (fun l => ly_nonce l a) ls.
Definition storage_in (ls : list layer) (a k : N) : option N := after (fun l => ly_storage l a k) ls.

(* the layers of the stored chain as of block n *)
Definition stored_layers (c : chain) (n : N) : list layer := map (fun b => data_layer (lb_data b)) (up_to c n).
(* the layers of the pending data that lie above block n *)
Definition pending_layers (n : N) (v09 : bool) (diffs : list (option gdiff)) (number : N)
    (pre_latest : option (N * state_update)) : list layer :=
  let txs := flat_map (fun x => match x with Some d => [diff_layer d] | None => [] end) diffs in
  if v09 then
    match pre_latest with
    | Some (p, u) => if p =? n + 1 then data_layer (to_data u) :: txs else if p =? n then txs else []
    | None => if number =? n + 1 then txs else []
    end
  else [].

(* the answers that are expected *)
Definition expected_class (ls : list layer) (a : N) : reply N :=
  match class_in ls a with Some c => Found c | None => ContractNotFound end.
Definition expected_nonce (ls : list layer) (a : N) : reply N :=
  match nonce_in ls a with
  | Some n => Found n
  | None => if class_in ls a then Found 0 else ContractNotFound
  end.
Definition expected_storage (ls : list layer) (a k : N) : reply N :=
  match storage_in ls a k with
  | Some v => Found v
  | None => if class_in ls a then Found 0 else ContractNotFound
  end.
Definition value (r : reply (N * N)) : reply N :=
  match r with Found x => Found (fst x) | ContractNotFound => ContractNotFound | BlockNotFound => BlockNotFound | Panics => Panics end.

(* the number of the last block up to n that writes the slot *)
Definition last_write (c : chain) (n a k m : N) : Prop :=
  (exists b v, m <= n /\ block_at c m = Some b /\ ly_storage (data_layer (lb_data b)) a k = Some v) /\
  (forall i b, m < i -> i <= n -> block_at c i = Some b -> ly_storage (data_layer (lb_data b)) a k = None).

(* ---- what is assumed of pending blocks ---- *)
(* a state diff is a map where it is one, and the system contracts only have storage *)
Definition wf_diff (d : gdiff) : Prop :=
  NoDup (map fst (g_storage d)) /\ NoDup (map fst (g_nonces d)) /\
  (forall a, is_system a = true -> last_entry a (g_deployed d) = None /\ last_entry a (g_replaced d) = None /\ nget a (g_nonces d) = None).
Definition wf_diffs (diffs : list (option gdiff)) : Prop := forall d, In (Some d) diffs -> wf_diff d.

(* only contracts that do not exist are deployed, and only existing ones replaced *)
Fixpoint possible (below ls : list layer) : Prop :=
  match ls with
  | [] => True
  | l :: r =>
      (forall a, ly_deploys l a <> None ->
         class_in below a = None /\ nonce_in below a = None /\ forall k, storage_in below a k = None) /\
      (forall a, ly_replaces l a <> None -> ly_deploys l a = None -> class_in below a <> None) /\
      possible (below ++ [l]) r
  end.
(* no contract is both deployed and replaced in these layers *)
Definition unreplaced (ls : list layer) : Prop :=
  forall l l' a, In l ls -> In l' ls -> ly_deploys l a <> None -> ly_replaces l' a = None.

(* the stored block that a block id names *)
Definition designates (d : db) (c : chain) (id : rpc_block_id) (n : N) : Prop :=
  match id with
  | RNumber m => m = n /\ n < clen c
  | RHash h => exists b, block_at c n = Some b /\ lb_hash b = h
  | RL1Accepted => d_pointer d = Some n /\ n < clen c
  | RLatest => n + 1 = clen c
  | RPreConfirmed => False
  end.
