(* Vocabulary for the properties of block synchronisation. *)
From Coq Require Import List NArith Bool.
From Verif Require Import AList StateUpdateModel ChainModel ChainSpec ProducerModel.
Import ListNotations.
Local Open Scope N_scope.

(* every stored block names the stored block before it as its parent *)
Definition linked_headers (d : db) : Prop :=
  forall h h', In h (d_headers d) -> In h' (d_headers d) ->
    h_number h' = h_number h + 1 -> h_parent h' = h_hash h.

(* ---- what is assumed of the gateway and of the schedule ---- *)
(* a request for block n is answered with a block of that number *)
Definition numbered (g : gateway) : Prop :=
  forall n b t a v, g_block g n = Served b t a v -> lb_number b = n.
(* the maps in its state updates are maps *)
Definition well_formed (g : gateway) : Prop :=
  forall n b t a v, g_block g n = Served b t a v -> wf_data (lb_data b).
(* a producer that ended is restarted only when the channel is empty *)
Definition permitted (s : node) (a : action) : Prop :=
  match a with
  | Track g => numbered g /\ well_formed g
  | BulkResult _ g => well_formed g
  | ProducerRestarts => n_queue s = []
  | _ => True
  end.

(* the states of a node that started on an empty database *)
Inductive reachable (c : config) : node -> Prop :=
| reachable_boot : reachable c (boot c)
| reachable_act s a : reachable c s -> permitted s a -> reachable c (act c s a).

(* ---- the chain that a node has announced: what its database will hold when the consumer has
   handled the channel ---- *)
Definition announce (c : chain) (e : sync_event) : chain :=
  match e with
  | DownloadedBlock b | FinalizedConsensusBlock b => c ++ [b]
  | Reorg tail => firstn (N.to_nat tail) c
  | _ => c
  end.
Definition stored (c : config) (s : node) : chain := chain_after (f_history c) (n_taken s).
Definition announced_chain (c : config) (s : node) : chain := fold_left announce (n_queue s) (stored c s).

Definition linked (c : chain) : Prop :=
  forall n b b', block_at c n = Some b -> block_at c (n + 1) = Some b' -> lb_parent b' = lb_hash b.
Definition tip_of (c : chain) : option tip :=
  match block_at c (clen c - 1) with
  | Some b => Some (lb_number b, lb_hash b, lb_commitment b)
  | None => None
  end.

(* the producer has not ended *)
Definition alive (s : node) : Prop := p_phase (n_producer s) <> Ended.

(* the gateway serves a valid block n with hash x *)
Definition serves (mode : validation) (g : gateway) (n x : N) : Prop :=
  exists b a v, g_block g n = Served b true a v /\ admits mode a v = true /\ lb_hash b = x.

(* ---- a gateway that does not change ---- *)
(* it serves the blocks of the chain [c], valid, and reports the last of them as its head *)
Definition chain_gateway (c : chain) (classes : N -> list N) (full : N -> bool) : gateway :=
  Gateway
    (fun n => match block_at c n with Some b => Served b true true HashMatch | None => NotFound end)
    (fun _ => match tip_of c with Some (n, h, _) => HeadIs n h | None => NoHead end)
    (fun n => Some (classes n))
    (fun n => option_map lb_hash (block_at c n))
    full.

(* the blocks of two chains do not share a hash by accident *)
Definition no_collision (c c' : chain) : Prop :=
  forall b b', In b c -> In b' c' -> lb_hash b = lb_hash b' -> b = b'.

(* the producer remembers its blocks back to one that it shares with the gateway *)
Definition remembers_fork (mine theirs : chain) (k : cache) : Prop :=
  exists f, (f <= length mine)%nat /\ firstn f mine = firstn f theirs /\
    forall n, N.of_nat f <= n + 1 -> n + 1 < clen mine -> nget n (k_map k) <> None.

(* a chain as the gateway may serve it *)
Definition valid_chain (c : chain) : Prop :=
  (forall n b, block_at c n = Some b -> lb_number b = n /\ wf_data (lb_data b)) /\ linked c.

(* A stretch of time in which the gateway stays at the chain [theirs] and nothing fails: the
   producer takes turns, the consumer handles events, L1 updates arrive. *)
Fixpoint calm (c : config) (theirs : chain) (s : node) (l : list action) : Prop :=
  match l with
  | [] => True
  | a :: r =>
      match a with
      | Track g => exists classes full, g = chain_gateway theirs classes full
      | Consume => match n_queue s with
                   | [] => True
                   | e :: _ => consume (f_history c) (run (f_history c) (n_taken s)) e <> None
                   end
      | L1Sends _ _ => True
      | _ => False
      end /\ calm c theirs (act c s a) r
  end.
Definition turn (a : action) : bool := match a with Track _ => true | _ => false end.
Definition turns (l : list action) : nat := length (filter turn l).

(* a schedule all of whose actions are permitted *)
Fixpoint permits (c : config) (s : node) (l : list action) : Prop :=
  match l with
  | [] => True
  | a :: r => permitted s a /\ permits c (act c s a) r
  end.

(* ---- where stored blocks come from ---- *)
(* in the history [l] the gateway served this block, with all transaction hashes verified, the
   status accepted, and the block hash verified or, if the settings allow it, not matching *)
Definition served_verified (c : config) (l : list action) (b : l2_block) : Prop :=
  exists n g v, (In (Track g) l \/ exists k, In (BulkResult k g) l) /\
    g_block g n = Served b true true v /\
    (v = HashMatch \/ (v = HashMismatch /\ f_mode c = AllowMismatch)).
