(* Which connections to peers are accepted, and who is disconnected to make room:
   crates/p2p/src/core/behaviour.rs and crates/p2p/src/peers.rs. *)
From Coq Require Import List NArith Bool Arith.
Import ListNotations.
Local Open Scope N_scope.

(* a call that may panic *)
Inductive res (A : Type) : Type := Go (a : A) | Panic.
Arguments Go {A} a. Arguments Panic {A}.
Definition bind {A B} (x : res A) (f : A -> res B) : res B := match x with Go a => f a | Panic => Panic end.

(* PeerId, IpAddr, KeyedNetworkGroup and Instant (in milliseconds) are numbers. *)
(* the parts of a Multiaddr that are looked at *)
Inductive protocol : Type := Ip (ip : N) | Dns (name : N) | Circuit | P2p (id : N) | Other.
Definition multiaddr : Type := list protocol.

(* Connectivity, peers.rs:64-81 *)
Inductive connectivity : Type :=
| Dialing
| Connected (connected_at : N)
| Disconnecting (connected_at : option N)
| Disconnected (connected_at : option N) (disconnected_at : N).
(* Direction, peers.rs:83-87 *)
Inductive direction : Type := Inbound | Outbound.
(* Peer, peers.rs:11-22 *)
Record peer : Type := Peer {
  p_conn : connectivity; p_dir : direction; p_addr : option multiaddr; p_group : option N;
  p_ping : option N; p_evicted : bool; p_useful : bool }.
(* is_connected, is_inbound, is_outbound, peers.rs:25-35 *)
Definition is_connected (q : peer) : bool := match p_conn q with Connected _ => true | _ => false end.
Definition is_inbound (q : peer) : bool := match p_dir q with Inbound => true | Outbound => false end.
Definition is_outbound (q : peer) : bool := match p_dir q with Inbound => false | Outbound => true end.
Definition is_circuit (x : protocol) : bool := match x with Circuit => true | _ => false end.
(* is_relayed, peers.rs:37-41 *)
Definition is_relayed (q : peer) : bool := match p_addr q with Some a => existsb is_circuit a | None => false end.
(* Iterator::find_map *)
Fixpoint find_map {A B} (f : A -> option B) (l : list A) : option B :=
  match l with [] => None | x :: l' => match f x with Some y => Some y | None => find_map f l' end end.
(* ip_addr, peers.rs:43-51 *)
Definition ip_addr (q : peer) : option N :=
  match p_addr q with
  | Some a => find_map (fun x => match x with Ip ip => Some ip | _ => None end) a
  | None => None
  end.
(* connected_at, peers.rs:53-61 *)
Definition connected_at (q : peer) : option N :=
  match p_conn q with
  | Connected t => Some t
  | Disconnecting t => t
  | Disconnected t _ => t
  | Dialing => None
  end.

(* PeerSet, peers.rs:89-94, in the order in which it is iterated, which for a HashMap is any *)
Definition peer_set : Type := list (N * peer).
(* elapsed() < period, at the given time *)
Definition within (now t period : N) : bool := now - t <? period.
(* the test of retain in upsert and of the filter in iter, peers.rs:119-124, 138-143 *)
Definition retained (retention now : N) (e : N * peer) : bool :=
  match p_conn (snd e) with Disconnected _ t => within now t retention | _ => true end.
(* get, peers.rs:131-133 *)
Definition get (s : peer_set) (id : N) : option peer :=
  match find (fun e => fst e =? id) s with Some e => Some (snd e) | None => None end.
(* upsert, peers.rs:112-129; insert may panic *)
Definition upsert (retention now : N) (s : peer_set) (id : N) (update : peer -> peer) (insert : res peer) : res peer_set :=
  let s := filter (retained retention now) s in
  match get s id with
  | Some _ => Go (map (fun e => if fst e =? id then (fst e, update (snd e)) else e) s)
  | None => bind insert (fun q => Go (s ++ [(id, q)]))
  end.
(* update, peers.rs:107-109 *)
Definition update (retention now : N) (s : peer_set) (id : N) (f : peer -> peer) : res peer_set :=
  upsert retention now s id f Panic.
(* iter, peers.rs:135-145 *)
Definition iter (retention now : N) (s : peer_set) : peer_set := filter (retained retention now) s.

(* Config, core.rs:80-108 and 110-116, the fields read here *)
Record config : Type := Config {
  direct_connection_timeout : N; relay_connection_timeout : N;
  max_inbound_direct_peers : nat; max_inbound_relayed_peers : nat; max_outbound_peers : nat;
  eviction_timeout : N; ip_whitelist : N -> bool;
  rate_limit_max : nat; rate_limit_interval : N }.

(* sort_by_key and sort_by, which are stable *)
Fixpoint insert_sorted {A} (leb : A -> A -> bool) (x : A) (l : list A) : list A :=
  match l with
  | [] => [x]
  | y :: l' => if leb x y then x :: l else y :: insert_sorted leb x l'
  end.
Fixpoint sort {A} (leb : A -> A -> bool) (l : list A) : list A :=
  match l with [] => [] | x :: l' => insert_sorted leb x (sort leb l') end.
(* min_by_key: the first of the least *)
Fixpoint min_by {A} (key : A -> N) (l : list A) : option A :=
  match l with
  | [] => None
  | x :: l' => match min_by key l' with
               | Some y => if key x <=? key y then Some x else Some y
               | None => Some x
               end
  end.

Section Behaviour.
(* the SHA3 of the secret and a peer's id; the network group of an IP under the secret,
   peers.rs:155-167; DNS *)
Variable rank : N -> N.
Variable group_of : N -> N.
Variable resolve : N -> option N.
Variable cfg : config.

(* What evict_inbound_peer reads of a candidate. *)
Record candidate : Type := Candidate { c_id : N; c_group : N; c_ping : option N; c_at : N }.
Definition remove_all (ids : list N) (c : list candidate) : list candidate :=
  filter (fun x => negb (existsb (N.eqb (c_id x)) ids)) c.
Definition in_group (g : N) (c : list candidate) : list candidate := filter (fun x => c_group x =? g) c.
(* behaviour.rs:593-619: one of each of the four first groups *)
Definition group_picks (c : list candidate) : list N :=
  flat_map (fun g => match min_by (fun x => rank (c_id x)) (in_group g c) with Some x => [c_id x] | None => [] end)
    (firstn 4 (sort N.leb (nodup N.eq_dec (map c_group c)))).
(* behaviour.rs:624-631: the eight with the least ping *)
Definition ping_picks (c : list candidate) : list N :=
  map fst (firstn 8 (sort (fun a b => snd a <=? snd b)
    (flat_map (fun x => match c_ping x with Some t => [(c_id x, t)] | None => [] end) c))).
(* behaviour.rs:639-646 *)
Definition age_picks (c : list candidate) : list N :=
  map c_id (firstn (Nat.div (length c) 2) (sort (fun a b => c_at b <=? c_at a) c)).
(* the order of behaviour.rs:656-672; `size` is grouped[..].len() *)
Definition final_leb (size : N -> nat) (a b : candidate) : bool :=
  match Nat.compare (size (c_group a)) (size (c_group b)) with
  | Lt => true | Gt => false
  | Eq => match N.compare (c_group b) (c_group a) with
          | Lt => true | Gt => false
          | Eq => c_at a <=? c_at b
          end
  end.
(* the choice of evict_inbound_peer, behaviour.rs:593-680 *)
Definition choose_inbound (c : list candidate) : option N :=
  let size := fun g => length (in_group g c) in
  let c1 := remove_all (group_picks c) c in
  let c2 := remove_all (ping_picks c1) c1 in
  let c3 := remove_all (age_picks c2) c2 in
  match sort (final_leb size) c3 with
  | x :: _ => Some (c_id x)
  | [] => None
  end.
(* `.expect("peer is connected")`, at once for all candidates and both fields instead of where each
   is read *)
Fixpoint candidates (l : peer_set) : res (list candidate) :=
  match l with
  | [] => Go []
  | (id, q) :: l' =>
      match p_group q, connected_at q with
      | Some g, Some t => bind (candidates l') (fun c => Go (Candidate id g (p_ping q) t :: c))
      | _, _ => Panic
      end
  end.
(* behaviour.rs:684-689 and 559-564 *)
Definition evicted (q : peer) : peer :=
  Peer (Disconnecting (connected_at q)) (p_dir q) (p_addr q) (p_group q) (p_ping q) true (p_useful q).
(* the set, and whether the call returned Ok *)
Definition verdict : Type := peer_set * bool.
(* evict_inbound_peer, behaviour.rs:580-696. The peer to close goes to pending_events, not modelled. *)
Definition evict_inbound_peer (now : N) (s : peer_set) (l : peer_set) : res verdict :=
  bind (candidates l) (fun c =>
  match choose_inbound c with
  | Some id => bind (update (eviction_timeout cfg) now s id evicted) (fun s => Go (s, true))
  | None => Go (s, false)
  end).
(* outbound_peers, inbound_direct_peers, inbound_relayed_peers, behaviour.rs:762-781 *)
Definition outbound_peers (now : N) (s : peer_set) : peer_set :=
  filter (fun e => is_connected (snd e) && is_outbound (snd e)) (iter (eviction_timeout cfg) now s).
Definition inbound_direct_peers (now : N) (s : peer_set) : peer_set :=
  filter (fun e => is_connected (snd e) && is_inbound (snd e) && negb (is_relayed (snd e))) (iter (eviction_timeout cfg) now s).
Definition inbound_relayed_peers (now : N) (s : peer_set) : peer_set :=
  filter (fun e => is_connected (snd e) && is_inbound (snd e) && is_relayed (snd e)) (iter (eviction_timeout cfg) now s).
(* evict_outbound_peer, behaviour.rs:531-571: pop takes the last, of the greatest rank *)
Definition evict_outbound_peer (now : N) (s : peer_set) : res verdict :=
  let c := filter (fun e => negb (p_useful (snd e))) (outbound_peers now s) in
  match rev (sort (fun a b => rank (fst a) <=? rank (fst b)) c) with
  | e :: _ => bind (update (eviction_timeout cfg) now s (fst e) evicted) (fun s => Go (s, true))
  | [] => Go (s, false)
  end.
(* get_ip, behaviour.rs:725-749 *)
Definition get_ip (a : multiaddr) : option N :=
  find_map (fun x => match x with Ip ip => Some ip | Dns n => resolve n | _ => None end) a.
(* check_duplicate_connection, behaviour.rs:515-525 *)
Definition duplicate (s : peer_set) (id : N) : bool := match get s id with Some q => is_connected q | None => false end.
(* prevent_evicted_peer_reconnections, behaviour.rs:699-721; outside of tests the timeout is 30 s *)
Definition evicted_too_recently (now : N) (s : peer_set) (id : N) : bool :=
  match get s id with
  | Some q => match p_conn q with
              | Disconnected _ t => p_evicted q && within now t 30000
              | _ => false
              end
  | None => false
  end.
(* the limits on inbound peers, behaviour.rs:136-155 and 422-436 *)
Definition limit_inbound (now : N) (s : peer_set) (a : multiaddr) : res verdict :=
  if existsb is_circuit a then
    if (max_inbound_relayed_peers cfg <=? length (inbound_relayed_peers now s))%nat
    then evict_inbound_peer now s (inbound_relayed_peers now s)
    else Go (s, true)
  else if (max_inbound_direct_peers cfg <=? length (inbound_direct_peers now s))%nat
    then evict_inbound_peer now s (inbound_direct_peers now s)
    else Go (s, true).
(* handle_established_inbound_connection, behaviour.rs:123-163, but for the inner behaviour *)
Definition established_inbound (now : N) (s : peer_set) (id : N) (a : multiaddr) : res verdict :=
  match get_ip a with
  | None => Go (s, false)
  | Some _ =>
      if duplicate s id then Go (s, false)
      else if evicted_too_recently now s id then Go (s, false)
      else limit_inbound now s a
  end.
(* handle_established_outbound_connection, behaviour.rs:165-186, but for the inner behaviour *)
Definition established_outbound (now : N) (s : peer_set) (id : N) (a : multiaddr) : bool :=
  match get_ip a with
  | None => false
  | Some _ => negb (duplicate s id) && negb (evicted_too_recently now s id)
  end.
(* ConnectionEstablished, behaviour.rs:190-250 *)
Definition on_established (now : N) (s : peer_set) (id : N) (d : direction) (a : multiaddr) : res peer_set :=
  match get_ip a with
  | None =>
      upsert (eviction_timeout cfg) now s id
        (fun q => Peer (Disconnecting (Some now)) (p_dir q) (p_addr q) (p_group q) (p_ping q) (p_evicted q) (p_useful q))
        (Go (Peer (Disconnecting (Some now)) d None None None false true))
  | Some ip =>
      upsert (eviction_timeout cfg) now s id
        (fun q => Peer (Connected now) (p_dir q) (Some a) (Some (group_of ip)) (p_ping q) (p_evicted q) (p_useful q))
        (Go (Peer (Connected now) d (Some a) (Some (group_of ip)) None false true))
  end.
Definition with_conn (q : peer) (c : connectivity) : peer :=
  Peer c (p_dir q) (p_addr q) (p_group q) (p_ping q) (p_evicted q) (p_useful q).
(* DialFailure, behaviour.rs:251-282 *)
Definition on_dial_failure (now : N) (s : peer_set) (id : option N) : res peer_set :=
  match id with
  | None => Go s
  | Some id =>
      upsert (eviction_timeout cfg) now s id
        (fun q => if is_connected q then q else with_conn q (Disconnected None now))
        (Go (Peer (Disconnected None now) Outbound None None None false true))
  end.
(* ConnectionClosed, behaviour.rs:283-299 *)
Definition on_closed (now : N) (s : peer_set) (id : N) (remaining : nat) : res peer_set :=
  match remaining with
  | O => update (eviction_timeout cfg) now s id (fun q => with_conn q (Disconnected (connected_at q) now))
  | S _ => Go s
  end.
(* handle_pending_inbound_connection, behaviour.rs:326-440, with one reading of the clock, and the time
   since its start at least the interval of the rate limit *)
Definition pending_inbound (now : N) (s : peer_set) (a : multiaddr) : res verdict :=
  let peers := iter (eviction_timeout cfg) now s in
  let num_connected := length (filter (fun e => is_inbound (snd e) &&
    match connected_at (snd e) with
    | Some t => (now - rate_limit_interval cfg <=? t) && (t <? now)
    | None => false
    end) peers) in
  if (rate_limit_max cfg <=? num_connected)%nat then Go (s, false)
  else
    match get_ip a with
    | None => Go (s, false)
    | Some ip =>
        if negb (ip_whitelist cfg ip) then Go (s, false)
        else
          let relayed := existsb is_circuit a in
          let recent := existsb (fun e => is_inbound (snd e) &&
            match connected_at (snd e) with
            | Some t =>
                (if relayed then is_relayed (snd e) && within now t (relay_connection_timeout cfg)
                 else negb (is_relayed (snd e)) && within now t (direct_connection_timeout cfg)) &&
                match ip_addr (snd e) with Some ip' => ip' =? ip | None => false end
            | None => false
            end) peers in
          if recent then Go (s, false)
          else
            match find_map (fun x => match x with P2p id => Some id | _ => None end) a with
            | Some id => if evicted_too_recently now s id then Go (s, false) else limit_inbound now s a
            | None => limit_inbound now s a
            end
    end.
(* handle_pending_outbound_connection, behaviour.rs:442-489 *)
Definition pending_outbound (now : N) (s : peer_set) (id : option N) (dialer : bool) : res verdict :=
  match id with
  | Some id =>
      if dialer then
        if evicted_too_recently now s id then Go (s, false)
        else
          bind (if (max_outbound_peers cfg <=? length (outbound_peers now s))%nat then evict_outbound_peer now s else Go (s, true))
            (fun '(s, ok) =>
          if ok then
            bind (upsert (eviction_timeout cfg) now s id
              (fun q => if is_connected q then q else with_conn q Dialing)
              (Go (Peer Dialing Outbound None None None false true))) (fun s => Go (s, true))
          else Go (s, false))
      else Go (s, true)
  | None => Go (s, true)
  end.
(* pinged with Ok, behaviour.rs:497-511 *)
Definition pinged (now : N) (s : peer_set) (id : N) (d : N) : res peer_set :=
  update (eviction_timeout cfg) now s id (fun q =>
    Peer (p_conn q) (p_dir q) (p_addr q) (p_group q)
      (Some (match p_ping q with Some m => N.min m d | None => d end)) (p_evicted q) (p_useful q)).
(* not_useful, behaviour.rs:751-755 *)
Definition not_useful (now : N) (s : peer_set) (id : N) : res peer_set :=
  update (eviction_timeout cfg) now s id (fun q =>
    Peer (p_conn q) (p_dir q) (p_addr q) (p_group q) (p_ping q) (p_evicted q) false).

(* ---- what libp2p's swarm calls these for. It tells of an established connection right after
   asking for it, of a closed one only if it had been established, and how many the peer has left.
   The inner behaviour may deny a connection. ---- *)
Inductive op : Type :=
| PendingIn (a : multiaddr)
| EstablishedIn (id : N) (a : multiaddr) (inner : bool)
| PendingOut (id : option N) (dialer : bool)
| EstablishedOut (id : N) (a : multiaddr) (inner : bool)
| DialFailed (id : option N)
| Closed (id : N)
| Pinged (id : N) (d : N)
| NotUseful (id : N).
(* the set, and the open connections with who opened them *)
Record world : Type := World { w_set : peer_set; w_conns : list (N * direction) }.
Fixpoint remove_first (id : N) (l : list (N * direction)) : option (list (N * direction)) :=
  match l with
  | [] => None
  | e :: l' => if fst e =? id then Some l'
               else match remove_first id l' with Some r => Some (e :: r) | None => None end
  end.
Definition connections (id : N) (l : list (N * direction)) : nat := length (filter (fun e => fst e =? id) l).
Definition step (w : world) (now : N) (o : op) : res world :=
  match o with
  | PendingIn a => bind (pending_inbound now (w_set w) a) (fun '(s, _) => Go (World s (w_conns w)))
  | EstablishedIn id a inner =>
      bind (established_inbound now (w_set w) id a) (fun '(s, ok) =>
      if ok && inner then bind (on_established now s id Inbound a) (fun s => Go (World s (w_conns w ++ [(id, Inbound)])))
      else Go (World s (w_conns w)))
  | PendingOut id dialer => bind (pending_outbound now (w_set w) id dialer) (fun '(s, _) => Go (World s (w_conns w)))
  | EstablishedOut id a inner =>
      if established_outbound now (w_set w) id a && inner
      then bind (on_established now (w_set w) id Outbound a) (fun s => Go (World s (w_conns w ++ [(id, Outbound)])))
      else Go w
  | DialFailed id => bind (on_dial_failure now (w_set w) id) (fun s => Go (World s (w_conns w)))
  | Closed id =>
      match remove_first id (w_conns w) with
      | Some conns => bind (on_closed now (w_set w) id (connections id conns)) (fun s => Go (World s conns))
      | None => Go w
      end
  | Pinged id d => bind (pinged now (w_set w) id d) (fun s => Go (World s (w_conns w)))
  | NotUseful id => bind (not_useful now (w_set w) id) (fun s => Go (World s (w_conns w)))
  end.
Fixpoint run (w : world) (ops : list (N * op)) : res world :=
  match ops with
  | [] => Go w
  | (now, o) :: ops' => bind (step w now o) (fun w => run w ops')
  end.
Definition start : world := World [] [].
End Behaviour.
