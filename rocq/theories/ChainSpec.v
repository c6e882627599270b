(* Vocabulary for the properties of the stored chain: the chain of committed blocks and the
   state one gets by applying their updates one after the other. *)
From Coq Require Import List NArith Bool.
From Verif Require Import AList StateUpdateModel ChainModel.
Import ListNotations.
Local Open Scope N_scope.

(* ---- what a block writes ---- *)
Definition writes_class (b : l2_block) (a : N) : option N :=
  match nget a (sd_contracts (lb_data b)) with
  | Some u => option_map class_hash (cu_class u)
  | None => None
  end.
Definition writes_nonce (b : l2_block) (a : N) : option N :=
  match nget a (sd_contracts (lb_data b)) with
  | Some u => cu_nonce u
  | None => None
  end.
(* storage of the system contracts 0x1 and 0x2 is listed apart *)
Definition writes_storage (b : l2_block) (ak : N * N) : option N :=
  let (a, k) := ak in
  if is_system a
  then match nget a (sd_system (lb_data b)) with Some m => nget k m | None => None end
  else match nget a (sd_contracts (lb_data b)) with Some u => nget k (cu_storage u) | None => None end.
(* a class is declared explicitly, or by the first deployment of a contract of that class *)
Definition declares (b : l2_block) (c : N) : Prop :=
  In c (map fst (sd_sierra (lb_data b))) \/ In c (sd_cairo (lb_data b)) \/
  exists a u, In (a, u) (sd_contracts (lb_data b)) /\ cu_class u = Some (Deploy c).

(* ---- the state after a sequence of blocks ---- *)
Definition state_after {K V} (w : l2_block -> K -> option V) (blocks : list l2_block) (k : K)
  : option V :=
  fold_left (fun old b => match w b k with Some v => Some v | None => old end) blocks None.

(* chains: the block number is the position *)
Definition chain := list l2_block.
Definition block_at (c : chain) (n : N) : option l2_block := nth_error c (N.to_nat n).
Definition clen (c : chain) : N := N.of_nat (length c).
(* blocks 0 .. n *)
Definition up_to (c : chain) (n : N) : chain := firstn (S (N.to_nat n)) c.

(* the state of the chain as of block n *)
Definition storage_at (c : chain) (n a k : N) : option N := state_after writes_storage (up_to c n) (a, k).
Definition nonce_at (c : chain) (n a : N) : option N := state_after writes_nonce (up_to c n) a.
Definition class_at (c : chain) (n a : N) : option N := state_after writes_class (up_to c n) a.

(* a class is known as of block n, first declared in block m *)
Definition first_declared (c : chain) (x m : N) : Prop :=
  (exists b, block_at c m = Some b /\ declares b x) /\
  (forall i b, i < m -> block_at c i = Some b -> ~ declares b x).

(* ---- the chain that a sequence of events leaves behind ---- *)
(* a committed block is put on top, a committed reorg cuts the chain below its tail;
   everything else, failed or ignored events included, leaves it as it is *)
Definition chain_step (m : history_mode) (s : consumer) (c : chain) (e : sync_event) : chain :=
  match consume m s e with
  | None => c
  | Some _ =>
      match e with
      | DownloadedBlock b | FinalizedConsensusBlock b =>
          if lb_number b <? c_next s then c else c ++ [b]
      | Reorg tail => firstn (N.to_nat tail) c
      | _ => c
      end
  end.
Definition both_step (m : history_mode) (sc : consumer * chain) (e : sync_event) : consumer * chain :=
  (step m (fst sc) e, chain_step m (fst sc) (snd sc) e).
Definition both (m : history_mode) (es : list sync_event) : consumer * chain :=
  fold_left (both_step m) es (start empty_db, []).
Definition db_after (m : history_mode) (es : list sync_event) : db := c_db (run m es).
Definition chain_after (m : history_mode) (es : list sync_event) : chain := snd (both m es).

(* ---- what is assumed of the events ---- *)
(* the maps of a state update are maps, and the system contracts are kept apart *)
Definition wf_data (u : state_update_data) : Prop :=
  NoDup (map fst (sd_contracts u)) /\ NoDup (map fst (sd_system u)) /\
  NoDup (map fst (sd_sierra u)) /\ NoDup (map fst (sd_migrated u)) /\
  (forall a x, In (a, x) (sd_contracts u) -> NoDup (map fst (cu_storage x)) /\ is_system a = false) /\
  (forall a x, In (a, x) (sd_system u) -> NoDup (map fst x) /\ is_system a = true).

Definition next_number (d : db) : N := match latest_number d with Some n => n + 1 | None => 0 end.

(* the producer announces each block as successor of the head, or repeats one the consumer
   has counted already *)
Definition announced (s : consumer) (e : sync_event) : Prop :=
  match e with
  | DownloadedBlock b | FinalizedConsensusBlock b =>
      wf_data (lb_data b) /\ (lb_number b = next_number (c_db s) \/ lb_number b < c_next s)
  | _ => True
  end.
Fixpoint orderly (m : history_mode) (s : consumer) (es : list sync_event) : Prop :=
  match es with
  | [] => True
  | e :: r => announced s e /\ orderly m (step m s e) r
  end.
Definition orderly_run (m : history_mode) (es : list sync_event) : Prop :=
  orderly m (start empty_db) es.

(* the blocks the database still has *)
Definition kept (d : db) (n : N) : Prop := block_exists d n = true.

(* all lookups of contract state agree at a block *)
Definition same_state (d : db) (b : block_id) (d' : db) (b' : block_id) : Prop :=
  (forall a k, lookup_storage d b a k = lookup_storage d' b' a k) /\
  (forall a, lookup_nonce d b a = lookup_nonce d' b' a) /\
  (forall a, lookup_class d b a = lookup_class d' b' a) /\
  (forall a, contract_exists d b a = contract_exists d' b' a) /\
  (forall x, lookup_declared_at d b x = lookup_declared_at d' b' x).

(* the database answers at [b] with the state of the chain as of block n *)
Definition answers (d : db) (b : block_id) (c : chain) (n : N) : Prop :=
  (forall a k, lookup_storage d b a k = storage_at c n a k) /\
  (forall a, lookup_nonce d b a = nonce_at c n a) /\
  (forall a, lookup_class d b a = class_at c n a) /\
  (forall a, contract_exists d b a = true <-> class_at c n a <> None) /\
  (forall x m, lookup_declared_at d b x = Some m <-> m <= n /\ first_declared c x m).

(* the event was handled and committed *)
Definition committed (m : history_mode) (es : list sync_event) (e : sync_event) : Prop :=
  consume m (run m es) e <> None.

(* L1 has reported that block n has hash x *)
Definition l1_reported (es : list sync_event) (n x : N) : Prop := In (L1Update n x) es.

(* ---- FinalizedConsensusBlock events do not occur ---- *)
Definition no_finalized (es : list sync_event) : Prop :=
  forall b, ~ In (FinalizedConsensusBlock b) es.
