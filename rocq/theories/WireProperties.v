(** C79: what a node makes of the headers, transactions, receipts and events that a peer sends it. *)
From Coq Require Import List Bool Arith NArith ZArith Lia ZifyBool ZifyNat ZifyN.
From Verif Require Import Radix FeltModel MerkleModel VersionModel VersionSpec CommitModel TxHashModel CodecModel BlobModel BlobSpec WireModel WireSpec WireProof WireProof2 WireProof3.
Import ListNotations.
Local Open Scope N_scope.

(** A transaction arrives with its hash and all that a message says of it. *)
Theorem C79_transactions : forall t, is_sendable t ->
  receive_tx (send_tx t) = Some (Stx (s_hash t) (received (s_variant t))).
Proof. exact tx_round. Qed.
Print Assumptions C79_transactions.

(** The transactions of a block and their receipts are sent, arrive, and are completed to what they
    were, but for what [kept] and [kept_receipt] leave out.  Missing for every stored block:
    transactions that have a hash of an older kind (C79_ancient_refuted) and counters from 2^32
    (C79_panic_refuted). *)
Theorem C79_block_partial : forall pedersen poseidon keccak chain_id l,
  (forall b, length (keccak b) = 32%nat) ->
  Forall (fun x => is_sendable (fst x) /\ is_receipt (snd x) /\ is_small (r_resources (snd x))) l ->
  belongs pedersen poseidon chain_id l ->
  exists ms l', send_block keccak l = Ok ms /\ receive_block 0 ms = Ok l' /\
    calculate_hashes pedersen poseidon chain_id l' =
      Ok (map (fun x => (Stx (s_hash (fst x)) (kept (s_variant (fst x))), kept_receipt (snd x))) l).
Proof.
  intros pedersen poseidon keccak chain l K F B.
  destruct (block_round keccak K l 0 F) as (ms & A & _ & l' & R & L & Q).
  exists ms, l'. split; [exact A|]. split; [exact R|].
  apply (stage_round pedersen poseidon chain l l' 0).
  - apply Forall_forall. intros [t r] I. apply In_nth_error in I. destruct I as [i I].
    destruct (B i t r I) as (B1 & B2 & B3 & _). auto.
  - exact L.
  - intros i t r I. destruct (B i t r I) as (_ & _ & _ & B4). rewrite B4. reflexivity.
  - exact Q.
Qed.
Print Assumptions C79_block_partial.

(** With nothing there that is not sent, the block arrives as it was. *)
Theorem C79_exact : forall pedersen poseidon keccak chain_id l,
  (forall b, length (keccak b) = 32%nat) ->
  Forall (fun x => is_sendable (fst x) /\ is_receipt (snd x) /\ is_small (r_resources (snd x)) /\
                   nothing_lost x) l ->
  belongs pedersen poseidon chain_id l ->
  exists ms l', send_block keccak l = Ok ms /\ receive_block 0 ms = Ok l' /\
    calculate_hashes pedersen poseidon chain_id l' = Ok l.
Proof.
  intros pedersen poseidon keccak chain l K F B.
  destruct (C79_block_partial pedersen poseidon keccak chain l K) as (ms & l' & A & R & S); [|exact B|].
  - eapply Forall_impl; [|exact F]. cbv beta. tauto.
  - exists ms, l'. split; [exact A|]. split; [exact R|]. rewrite S. f_equal.
    clear - F. induction F as [|[t r] l (_ & _ & _ & N) F IH]; [reflexivity|]. cbn [map fst snd].
    destruct (nothing_lost_kept t r N) as [-> ->]. rewrite IH. reflexivity.
Qed.
Print Assumptions C79_exact.

(** Whatever bytes a peer sends for a transaction: what is accepted is made of field elements, its
    address is one, and its resource bounds fit their types. *)
Theorem C79_any_transaction : forall m t,
  all_bytes (fst m) -> variant_bytes (snd m) -> receive_tx m = Some t ->
  is_felt (s_hash t) /\ Forall is_felt (felts_of (s_variant t)) /\ is_251 (address_of (s_variant t)) /\
  is_option is_bounds (bounds_of (s_variant t)).
Proof. exact tx_any. Qed.
Print Assumptions C79_any_transaction.

(** Whatever bytes a peer sends for a receipt: it is refused, or accepted with values of their types
    and the place that the node gives it; the node does not panic. *)
Theorem C79_any_receipt : forall m index, receipt_bytes m ->
  match receive_receipt m index with
  | Ok r => receipt_values r /\ cr_index r = index
  | Err => True
  | _ => False
  end.
Proof. exact receipt_any. Qed.
Print Assumptions C79_any_receipt.

(** What the stage lets through of whatever arrived: each transaction has the address and the hash
    that its content gives, and each receipt is the one that came with it, with that hash. *)
Theorem C79_accepted : forall pedersen poseidon chain_id l l',
  calculate_hashes pedersen poseidon chain_id l = Ok l' ->
  Forall2 (fun x y =>
    s_hash (fst y) = s_hash (fst x) /\ r_tx_hash (snd y) = s_hash (fst x) /\
    calculate_contract_address pedersen (s_variant (fst x)) = Ok (s_variant (fst y)) /\
    calculate_contract_address pedersen (s_variant (fst y)) = Ok (s_variant (fst y)) /\
    calculate_hash pedersen poseidon (s_variant (fst y)) chain_id false = Ok (s_hash (fst y)) /\
    snd x = CRcpt (r_fee (snd y)) (r_resources (snd y)) (r_messages (snd y)) (r_status (snd y))
              (r_index (snd y))) l l'.
Proof. exact stage_sound. Qed.
Print Assumptions C79_accepted.

(** An event arrives as it was, with its transaction's hash. *)
Theorem C79_events : forall h e, is_felt h -> is_event e ->
  receive_event (send_event h e) = Some (h, e).
Proof. exact event_round. Qed.
Print Assumptions C79_events.

(** Whatever bytes a peer sends for an event, what is accepted is made of field elements. *)
Theorem C79_any_event : forall m h e,
  all_bytes (pe_tx _ m) -> all_bytes (pe_from _ m) -> Forall all_bytes (pe_keys _ m) ->
  Forall all_bytes (pe_data _ m) -> receive_event m = Some (h, e) ->
  is_felt h /\ is_felt (ev_from e) /\ Forall is_felt (ev_keys e) /\ Forall is_felt (ev_data e).
Proof. exact event_any. Qed.
Print Assumptions C79_any_event.

(** A header arrives as it was, with its signature. *)
Theorem C79_headers : forall h sig, is_header h -> is_felt (fst sig) -> is_felt (snd sig) ->
  receive_header (send_header h sig) = Some (h, sig).
Proof. exact header_round. Qed.
Print Assumptions C79_headers.

(** Whatever bytes a peer sends for a header: what is accepted is a header, and one signature was
    sent with it. *)
Theorem C79_any_header : forall m h sig, header_bytes m -> receive_header m = Some (h, sig) ->
  is_header h /\ is_felt (fst sig) /\ is_felt (snd sig) /\ length (ph_signatures _ _ _ m) = 1%nat.
Proof. exact header_any. Qed.
Print Assumptions C79_any_header.

(** ---- cases ---- *)

Definition demo_pedersen (a b : N) : N := (a + 3 * b + 1) mod 2 ^ 250.
Definition demo_poseidon (l : list N) : N := fold_left (fun a x => 3 * a + x + 1) l 0 mod 2 ^ 250.
Definition demo_keccak (_ : list N) : list N := repeat 7 32.

Definition demo_hash (v : variant) : N :=
  match calculate_hash demo_pedersen demo_poseidon v 1234 false with Ok h => h | _ => 0 end.
Definition demo_address : N :=
  match deployed_contract_address demo_pedersen [34; 35] 32 33 with Ok a => a | _ => 0 end.
Definition demo_resources : resources :=
  Resources (Builtins 0 7 300 0 0 0 0 0 0 0 0 2) 1000 3 (L1Gas 0 128) (L1Gas 10 0) 77.
Definition demo_rcpt (h i : N) (st : status) (to : N) : rcpt :=
  Rcpt 4242 demo_resources [Message 4660 [1; 2] to] st h i.
Definition demo_invoke : variant :=
  VInvokeV3 (InvokeTx3 [11; 12] 5 DaL1 DaL2
    (Bounds (Bound 100 3) (Bound 0 0) (Some (Bound 64 1))) 9 [] [] [70000; 0] 4660 [8]).
Definition demo_deploy : variant := VDeployV1 (DeployTx 33 demo_address 32 [34; 35]).
Definition demo_block : list (stx * rcpt) :=
  [(Stx (demo_hash demo_invoke) demo_invoke,
    demo_rcpt (demo_hash demo_invoke) 0 (Reverted [111; 111; 103]) 99);
   (Stx (demo_hash demo_deploy) demo_deploy,
    demo_rcpt (demo_hash demo_deploy) 1 Succeeded 1000)].


Lemma demo_is_felt : forall x, (x <? 2 ^ 250) = true -> is_felt x.
Proof. intros x H. apply N.ltb_lt in H. eapply N.lt_trans; [exact H|reflexivity]. Qed.
Lemma demo_is_rcpt : forall h i st to, is_felt h -> i < 2 ^ 63 -> is_251 to -> is_status st ->
  is_receipt (demo_rcpt h i st to) /\ is_small (r_resources (demo_rcpt h i st to)).
Proof.
  intros h i st to H I T S. split; [|repeat constructor].
  split; [reflexivity|]. split; [repeat (split || constructor)|].
  split; [split; [reflexivity|]; constructor; [|constructor]; split; [reflexivity|]; split; [|exact T];
          split; [reflexivity|]; repeat constructor|].
  split; [exact S|]. split; [exact H|exact I].
Qed.
Lemma demo_sendable : forall v st,
  is_variant v -> (demo_hash v <? 2 ^ 250) = true ->
  match v with VDeclareV1 _ | VDeclareV2 _ => False | _ => True end ->
  is_sendable (Stx (demo_hash v) v) /\
  forall i to, i < 2 ^ 63 -> is_251 to -> is_status st ->
    is_receipt (demo_rcpt (demo_hash v) i st to) /\
    is_small (r_resources (demo_rcpt (demo_hash v) i st to)).
Proof.
  intros v st V H W. split.
  - split; [apply demo_is_felt, H|]. split; [exact V|]. cbn [s_variant]. destruct v; auto; contradiction.
  - intros i to I T S. apply demo_is_rcpt; auto. apply demo_is_felt, H.
Qed.
Lemma demo_invoke_ok : is_variant demo_invoke.
Proof. repeat (split || constructor). Qed.
Lemma demo_deploy_ok : is_variant demo_deploy.
Proof.
  split; [reflexivity|]. split; [vm_compute; reflexivity|]. split; [reflexivity|].
  split; [reflexivity|]. repeat constructor.
Qed.
Lemma demo_belongs : belongs demo_pedersen demo_poseidon 1234 demo_block.
Proof.
  intros [|[|[|i]]] t r H; cbn [demo_block nth_error] in H; try discriminate;
    injection H as <- <-; cbn [s_variant s_hash r_tx_hash r_index demo_rcpt];
    (split; [vm_compute; reflexivity|split; [vm_compute; reflexivity|split; reflexivity]]).
Qed.

(** a reverted transaction and a deployment; both arrive as they were *)
Example C79_example :
  exists ms l', send_block demo_keccak demo_block = Ok ms /\ receive_block 0 ms = Ok l' /\
    calculate_hashes demo_pedersen demo_poseidon 1234 l' = Ok demo_block.
Proof.
  apply C79_exact.
  - intros b. reflexivity.
  - constructor; [|constructor; [|constructor]]; cbn [fst snd].
    + destruct (demo_sendable demo_invoke (Reverted [111; 111; 103]) demo_invoke_ok) as [A B];
        [vm_compute; reflexivity|exact Coq.Init.Logic.I|].
      destruct (B 0 99) as [C D]; [reflexivity|reflexivity|split; [reflexivity|repeat constructor]|].
      split; [exact A|]. split; [exact C|]. split; [exact D|]. repeat constructor.
    + destruct (demo_sendable demo_deploy Succeeded demo_deploy_ok) as [A B];
        [vm_compute; reflexivity|exact Coq.Init.Logic.I|].
      destruct (B 1 1000) as [C D]; [reflexivity|reflexivity|exact Coq.Init.Logic.I|].
      split; [exact A|]. split; [exact C|]. split; [exact D|]. repeat constructor.
  - exact demo_belongs.
Qed.

Example C79_event_example :
  receive_event (send_event 77 (Event [3; 2 ^ 251] 4660 [300])) = Some (77, Event [3; 2 ^ 251] 4660 [300]).
Proof.
  apply C79_events; [reflexivity|]. split; [split; [reflexivity|repeat constructor]|].
  split; [reflexivity|split; [reflexivity|repeat constructor]].
Qed.

Definition demo_header : header :=
  Header 500 499 7 1700000000 11 12 13 14 15 16 4660 (Version 0 13 2 0) 21 22 23 2 3 true 24 25 9.
Example C79_header_example :
  receive_header (send_header demo_header (31, 32)) = Some (demo_header, (31, 32)).
Proof.
  apply C79_headers; [|reflexivity|reflexivity].
  repeat (split || constructor).
Qed.
(** and with two signatures, or a number past i64::MAX, none *)
Example C79_header_refused :
  receive_header (header_to_proto (PHeader 500 499 (2 ^ 63) 1 4660 1 (1, 1) (1, 1) (1, 1) 1
    [48; 46; 49; 51; 46; 50] 1 1 1 1 None None true [(1, 1)])) = None /\
  receive_header (header_to_proto (PHeader 500 499 1 1 4660 1 (1, 1) (1, 1) (1, 1) 1
    [48; 46; 49; 51; 46; 50] 1 1 1 1 None None true [(1, 1); (1, 1)])) = None.
Proof. split; vm_compute; reflexivity. Qed.

(** ---- what does not arrive ---- *)

(** A transaction whose hash is of the kind that was used before: the node itself holds the hash to
    be right, and yet a node it sends the transaction to refuses it. *)
Definition demo_old : variant := VInvokeV0 (InvokeTx0 [1; 2] 4660 55 None 0 [9]).
Definition demo_old_hash : N :=
  match calculate_legacy_hash demo_pedersen demo_old 1234 with Ok (Some h) => h | _ => 0 end.
Theorem C79_ancient_refuted :
  exists pedersen poseidon keccak chain_id t r ms l',
    (forall b, length (keccak b) = 32%nat) /\
    is_sendable t /\ is_receipt r /\ is_small (r_resources r) /\ nothing_lost (t, r) /\
    verify_hash pedersen poseidon (s_variant t) chain_id (s_hash t) = Ok true /\
    send_block keccak [(t, r)] = Ok ms /\ receive_block 0 ms = Ok l' /\
    calculate_hashes pedersen poseidon chain_id l' = Err.
Proof.
  assert (F : is_felt demo_old_hash) by (vm_compute; reflexivity).
  assert (S : is_sendable (Stx demo_old_hash demo_old)).
  { split; [exact F|]. split; [|exact Coq.Init.Logic.I]. split; [split; [reflexivity|repeat constructor]|].
    split; [reflexivity|]. split; [reflexivity|]. split; [reflexivity|]. split; [reflexivity|repeat constructor]. }
  destruct (demo_is_rcpt demo_old_hash 0 Succeeded 99 F eq_refl eq_refl Coq.Init.Logic.I) as [R M].
  destruct (block_round demo_keccak (fun _ => eq_refl) [(Stx demo_old_hash demo_old, demo_rcpt demo_old_hash 0 Succeeded 99)] 0)
    as (ms & A & _ & l' & B & L & Q); [constructor; [|constructor]; auto|].
  exists demo_pedersen, demo_poseidon, demo_keccak, 1234, (Stx demo_old_hash demo_old),
    (demo_rcpt demo_old_hash 0 Succeeded 99), ms, l'.
  split; [reflexivity|]. split; [exact S|]. split; [exact R|]. split; [exact M|].
  split; [repeat constructor|]. split; [vm_compute; reflexivity|]. split; [exact A|]. split; [exact B|].
  destruct l' as [|x [|]]; [discriminate| |discriminate].
  pose proof (Q 0%nat _ _ eq_refl) as Q0. cbn [nth_error] in Q0. injection Q0 as ->.
  vm_compute. reflexivity.
Qed.
Print Assumptions C79_ancient_refuted.

(** A receipt with a message to L1 whose address has more than 160 bits, a count of the segment arena
    and a total of data gas: another receipt arrives, and nothing tells. *)
Theorem C79_receipts_refuted :
  exists keccak v r m r',
    (forall b, length (keccak b) = 32%nat) /\ is_variant v /\ is_receipt r /\ is_small (r_resources r) /\
    send_receipt keccak v r = Ok m /\ receive_receipt m (r_index r) = Ok r' /\
    b_segment_arena (x_builtins (r_resources r)) = 4 /\
    b_segment_arena (x_builtins (cr_resources r')) = 0 /\
    g_l1_data (x_total_gas (r_resources r)) = 20 /\ g_l1_data (x_total_gas (cr_resources r')) = 0 /\
    map m_to (r_messages r) = [2 ^ 160 + 99] /\ map m_to (cr_messages r') = [99].
Proof.
  pose (r := Rcpt 4242 (Resources (Builtins 0 7 300 0 0 0 0 0 4 0 0 2) 1000 3 (L1Gas 0 128) (L1Gas 10 20) 77)
               [Message 4660 [1; 2] (2 ^ 160 + 99)] Succeeded 5 0).
  assert (R : is_receipt r).
  { split; [reflexivity|]. split; [repeat (split || constructor)|].
    split; [split; [reflexivity|]; constructor; [|constructor]; split; [reflexivity|]; split; [|reflexivity];
            split; [reflexivity|]; repeat constructor|].
    split; [exact Coq.Init.Logic.I|]. split; reflexivity. }
  assert (S : is_small (r_resources r)) by repeat constructor.
  destruct (receipt_round demo_keccak demo_invoke r 0 (fun _ => eq_refl) demo_invoke_ok R S) as (m & A & B).
  exists demo_keccak, demo_invoke, r, m, (receipt_of r 0).
  split; [reflexivity|]. split; [exact demo_invoke_ok|]. split; [exact R|]. split; [exact S|].
  split; [exact A|]. split; [exact B|]. repeat split; vm_compute; reflexivity.
Qed.
Print Assumptions C79_receipts_refuted.

(** A stored receipt with a counter of 2^32: the node that is asked for it panics. *)
Theorem C79_panic_refuted :
  exists keccak t r, is_sendable t /\ is_receipt r /\ x_steps (r_resources r) = 2 ^ 32 /\
    send_block keccak [(t, r)] = Panic.
Proof.
  exists demo_keccak, (Stx 5 demo_invoke),
    (Rcpt 4242 (Resources (Builtins 0 0 0 0 0 0 0 0 0 0 0 0) (2 ^ 32) 3 (L1Gas 0 128) (L1Gas 10 20) 77)
       [] Succeeded 5 0).
  split; [split; [reflexivity|split; [exact demo_invoke_ok|exact Coq.Init.Logic.I]]|].
  split; [|split; [reflexivity|vm_compute; reflexivity]].
  split; [reflexivity|]. split; [repeat (split || constructor)|].
  split; [split; [reflexivity|constructor]|]. split; [exact Coq.Init.Logic.I|]. split; reflexivity.
Qed.
Print Assumptions C79_panic_refuted.

(** What a peer says sent an event, or a message to L1, need not be an address of a contract. *)
Theorem C79_address_refuted :
  (exists m h e, all_bytes (pe_tx _ m) /\ all_bytes (pe_from _ m) /\ Forall all_bytes (pe_keys _ m) /\
     Forall all_bytes (pe_data _ m) /\ receive_event m = Some (h, e) /\ ~ is_251 (ev_from e)) /\
  (exists m r x, receipt_bytes m /\ receive_receipt m 0 = Ok r /\ In x (cr_messages r) /\ ~ is_251 (m_from x)).
Proof.
  assert (Z : all_bytes [0]) by repeat constructor.
  assert (Y : all_bytes (8 :: repeat 0 31)) by (repeat constructor).
  split.
  - exists (PEvent [0] (8 :: repeat 0 31) [] []), 0, (Event [] (2 ^ 251) []).
    split; [exact Z|]. split; [exact Y|]. split; [constructor|]. split; [constructor|].
    split; [vm_compute; reflexivity|]. intros H. vm_compute in H. discriminate.
  - exists (PRInvoke (PCommon [0] 1%Z [PMessage (8 :: repeat 0 31) [] (repeat 0 20)]
              (PResources (PBuiltins 0 0 0 0 0 0 0 0 0 0 0) 1 0 None None None None) None)).
    eexists. exists (Message (2 ^ 251) [] 0).
    split; [|split; [vm_compute; reflexivity|split; [left; vm_compute; reflexivity|]]].
    + split; [exact Z|]. split; [|repeat split]. constructor; [|constructor].
      split; [exact Y|]. split; [constructor|repeat constructor].
    + intros H. vm_compute in H. discriminate.
Qed.
Print Assumptions C79_address_refuted.
