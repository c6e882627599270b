(* When a state update that was read from the database is the one that was stored. *)
From Coq Require Import List NArith Bool.
From Verif Require Import AList StateUpdateModel ChainModel ChainSpec.
Import ListNotations.
Local Open Scope N_scope.

(* the update of a contract in a map of updates; not listed is the same as changing nothing *)
Definition contract_of (m : nmap contract_update) (a : N) : contract_update :=
  match nget a m with Some u => u | None => contract_default end.
Definition slot_of (m : nmap (nmap N)) (a k : N) : option N :=
  match nget a m with Some s => nget k s | None => None end.

(* the update is that of block b: hash, commitment, and for every contract nonce, storage
   writes and deployment or class replacement *)
Definition reads_back (b : l2_block) (u : state_update) : Prop :=
  su_block_hash u = lb_hash b /\ su_commitment u = lb_commitment b /\
  forall a,
    cu_nonce (contract_of (su_contracts u) a) = cu_nonce (contract_of (sd_contracts (lb_data b)) a) /\
    cu_class (contract_of (su_contracts u) a) = cu_class (contract_of (sd_contracts (lb_data b)) a) /\
    (forall k, nget k (cu_storage (contract_of (su_contracts u) a))
               = nget k (cu_storage (contract_of (sd_contracts (lb_data b)) a))) /\
    (forall k, slot_of (su_system u) a k = slot_of (sd_system (lb_data b)) a k).

(* contract a has a class before block n *)
Definition deployed_before (c : chain) (n a : N) : bool :=
  if n =? 0 then false else is_some (class_at c (n - 1) a).

(* block n deploys at unused addresses only and replaces classes of deployed contracts only *)
Definition proper_classes (c : chain) (n : N) (b : l2_block) : Prop :=
  forall a x, nget a (sd_contracts (lb_data b)) = Some x ->
    match cu_class x with
    | Some (Deploy _) => deployed_before c n a = false
    | Some (Replace _) => deployed_before c n a = true
    | None => True
    end.

(* the commitment of the block before n, zero for genesis *)
Definition parent_commitment (c : chain) (n : N) : N :=
  if n =? 0 then 0 else match block_at c (n - 1) with Some p => lb_commitment p | None => 0 end.
