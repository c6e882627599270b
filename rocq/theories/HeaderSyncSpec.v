(* The chain that L1 vouches for, and what header sync should do with it. *)
From Coq Require Import List Arith NArith Bool.
From Verif Require Import HeaderSyncModel.
Import ListNotations.

(* the hash of a header binds its contents *)
Definition binding (e : env) : Prop :=
  forall g h, e_computed e g = e_computed e h -> h_number g = h_number h /\ h_parent g = h_parent h /\ h_body g = h_body h.

(* a chain of valid headers *)
Record chain (e : env) (T : nat -> header) : Prop := {
  c_number : forall n, h_number (T n) = n;
  c_linked : forall n, h_parent (T (S n)) = h_hash (T n);
  c_valid : forall n, verify_hash e (T n) = true
}.
(* the checkpoints taken from L1 are on the chain *)
Definition truthful (T : nat -> header) (acts : list act) : Prop :=
  forall c, In (Start c) acts -> snd c = h_hash (T (fst c)).

(* the stored headers up to [n] are exactly those of the chain *)
Definition synced (T : nat -> header) (t : table) (n : nat) : Prop :=
  forall m, m <= n -> row t m = Some (T m).

(* the headers of a gap, newest first *)
Definition asked (T : nat -> header) (g : gap) : list header := map T (rev (seq (g_tail g) (S (g_head g) - g_tail g))).
