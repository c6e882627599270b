(* Vocabulary for C25-C27. *)
From Coq Require Import List Arith NArith Bool.
From Verif Require Import AList StateUpdateModel.
Import ListNotations.
Local Open Scope N_scope.

(* The maps are maps: keys are distinct. *)
Record valid_data (d : state_update_data) : Prop := {
  vd_contracts : NoDup (map fst (sd_contracts d));
  vd_system : NoDup (map fst (sd_system d));
  vd_cairo : NoDup (sd_cairo d);
  vd_sierra : NoDup (map fst (sd_sierra d));
  vd_migrated : NoDup (map fst (sd_migrated d));
  vd_storage : forall a c, In (a, c) (sd_contracts d) -> NoDup (map fst (cu_storage c));
  vd_system_storage : forall a st, In (a, st) (sd_system d) -> NoDup (map fst st)
}.
Definition valid_update (u : state_update) : Prop := valid_data (to_data u).

(* The individual changes of a state update. *)
Inductive change :=
| StorageWrite (contract key value : N)
| SystemStorageWrite (contract key value : N)
| NonceChange (contract nonce : N)
| Deployment (contract class : N)
| Replacement (contract class : N)
| CairoDeclaration (class : N)
| SierraDeclaration (class casm : N)
| Migration (class casm : N).

Inductive has_change (d : state_update_data) : change -> Prop :=
| has_storage : forall a c k v, In (a, c) (sd_contracts d) -> In (k, v) (cu_storage c) ->
    has_change d (StorageWrite a k v)
| has_system : forall a st k v, In (a, st) (sd_system d) -> In (k, v) st ->
    has_change d (SystemStorageWrite a k v)
| has_nonce : forall a c n, In (a, c) (sd_contracts d) -> cu_nonce c = Some n ->
    has_change d (NonceChange a n)
| has_deploy : forall a c h, In (a, c) (sd_contracts d) -> cu_class c = Some (Deploy h) ->
    has_change d (Deployment a h)
| has_replace : forall a c h, In (a, c) (sd_contracts d) -> cu_class c = Some (Replace h) ->
    has_change d (Replacement a h)
| has_cairo : forall h, In h (sd_cairo d) -> has_change d (CairoDeclaration h)
| has_sierra : forall h c, In (h, c) (sd_sierra d) -> has_change d (SierraDeclaration h c)
| has_migration : forall h c, In (h, c) (sd_migrated d) -> has_change d (Migration h c).

Definition is_migration (c : change) : Prop := exists h k, c = Migration h k.

(* [n] is the number of elements of the set [Q] *)
Definition counts {A} (Q : A -> Prop) (n : nat) : Prop :=
  forall l, NoDup l -> (forall x, In x l <-> Q x) -> length l = n.

(* what the later of two answers is *)
Definition or_else {A} (later earlier : option A) : option A :=
  match later with Some x => Some x | None => earlier end.

Definition deploys (u : state_update) (a : N) : Prop :=
  exists h, has_change (to_data u) (Deployment a h).
Definition replaces (u : state_update) (a : N) : Prop :=
  exists h, has_change (to_data u) (Replacement a h).
Definition mentions_contract (u : state_update) (a : N) : Prop :=
  exists c, In (a, c) (su_contracts u).
Definition mentions_system (u : state_update) (a : N) : Prop :=
  exists c, In (a, c) (su_system u).

(* A system contract is never also updated as an ordinary contract. *)
Definition separate (d : state_update_data) : Prop :=
  forall a c st, In (a, c) (sd_contracts d) -> In (a, st) (sd_system d) ->
    cu_storage c = [] \/ st = [].

(* What the state diff commitment is about: which class each contract gets (by deployment
   or replacement), which Sierra classes get which compiled class (by declaration or
   migration), the Cairo 0 declarations, the storage writes, and the nonces. *)
Definition class_change (d : state_update_data) (a h : N) : Prop :=
  has_change d (Deployment a h) \/ has_change d (Replacement a h).
Definition compiled_class (d : state_update_data) (s c : N) : Prop :=
  has_change d (SierraDeclaration s c) \/ has_change d (Migration s c).
Definition storage_write (d : state_update_data) (a k v : N) : Prop :=
  has_change d (StorageWrite a k v) \/ has_change d (SystemStorageWrite a k v).

Record same_content (d e : state_update_data) : Prop := {
  sc_class : forall a h, class_change d a h <-> class_change e a h;
  sc_compiled : forall s c, compiled_class d s c <-> compiled_class e s c;
  sc_cairo : forall h, has_change d (CairoDeclaration h) <-> has_change e (CairoDeclaration h);
  sc_storage : forall a k v, storage_write d a k v <-> storage_write e a k v;
  sc_nonce : forall a n, has_change d (NonceChange a n) <-> has_change e (NonceChange a n)
}.
