(* ECDSA on the Stark curve, crates/crypto/src/signature/ecdsa.rs, and its one use for blocks,
   crates/common/src/signature.rs. *)
From Coq Require Import List ZArith NArith Bool.
From Verif Require Import FeltModel MontModel CurveModel.
Import ListNotations.
Local Open Scope Z_scope.

(* UPPER_BOUND, ecdsa.rs:11-16 *)
Definition UPPER_BOUND : limbs := Limbs 18446743986131435553 160989183 18446744073709255680 576459263475450960.
(* enum SignatureError, ecdsa.rs:20-35; messages (Display) are not modelled *)
Inductive signature_error := E_Signature | E_Randomness | E_Message | E_SecretKey | E_PublicKey.
(* Result<A, SignatureError> *)
Definition outcome (A : Type) : Type := result (A + signature_error).
Definition ok {A} (v : A) : outcome A := Ret (inl v).
Definition err {A} (e : signature_error) : outcome A := Ret (inr e).
(* >= of MontFelt, montfelt/cmp.rs:75-85 *)
Definition geb (a b : limbs) : bool := match cmp_native base_field a b with Lt => false | _ => true end.
(* From<CurveOrderMontFelt> for Felt, felt.rs:316-323, and From<MontFelt>, felt.rs:307-314, which unwrap *)
Definition felt_of_scalar (a : limbs) : result felt :=
  match from_be_bytes (mont_to_be_bytes scalar_field a) with Ok f => Ret f | Err _ => Panics end.
Definition felt_of_base (a : limbs) : result felt :=
  match felt_of_mont a with Some f => Ret f | None => Panics end.
(* CurveOrderMontFelt::try_from(..).unwrap() *)
Definition unwrap_scalar (a : limbs) : result limbs :=
  match scalar_of_mont a with Some s => Ret s | None => Panics end.

(* get_pk, ecdsa.rs:52-60 *)
Definition get_pk (fuel : nat) (g_consts : list affine) (sk : felt) : result (option felt) :=
  match scalar_of_felt sk with
  | None => Ret None
  | Some sk =>
      bind (gen_multiply_elm g_consts sk) (fun point =>
      bind (affine_of_projective fuel point) (fun ap =>
      bind (felt_of_base (a_x ap)) (fun x => Ret (Some x))))
  end.

(* ecdsa_sign_k, ecdsa.rs:86-108 *)
Definition ecdsa_sign_k (fuel : nat) (g_consts : list affine) (sk z k : felt) : outcome (felt * felt) :=
  match scalar_of_felt sk with
  | None => err E_SecretKey
  | Some sk =>
  match scalar_of_felt z with
  | None => err E_Message
  | Some z =>
  match scalar_of_felt k with
  | None => err E_Randomness
  | Some k =>
      if limbs_eqb k ZERO then err E_Randomness
      else
        bind (affine_gen_multiply_elm fuel g_consts k) (fun point =>
        let x := a_x point in
        if geb x UPPER_BOUND then err E_Randomness
        else
          bind (unwrap_scalar x) (fun r =>
          bind (unwrap_inverse scalar_field fuel k) (fun kinv =>
          let s := mul scalar_field kinv (add scalar_field z (mul scalar_field r sk)) in
          bind (felt_of_scalar r) (fun r =>
          bind (felt_of_scalar s) (fun s => ok (r, s))))))
  end end end.

(* ecdsa_sign, ecdsa.rs:68-78; the felts drawn at random are a list, and running out of it is
   the loop going on *)
Fixpoint ecdsa_sign (fuel : nat) (g_consts : list affine) (draws : list felt) (sk z : felt) : outcome (felt * felt) :=
  match draws with
  | [] => Diverges
  | k :: draws' =>
      match ecdsa_sign_k fuel g_consts sk z k with
      | Ret (inl sig) => ok sig
      | Ret (inr E_Randomness) => ecdsa_sign fuel g_consts draws' sk z
      | Ret (inr e) => err e
      | Panics => Panics
      | Diverges => Diverges
      end
  end.

(* get_pk_point, ecdsa.rs:112-117 *)
Definition get_pk_point (fuel : nat) (pk : limbs) : result (option affine) :=
  bind (from_x fuel pk) (fun q => match q with
    | Some p => Ret (if negb (a_inf p) then Some p else None)
    | None => Ret None
    end).

(* ecdsa_verify_inner, ecdsa.rs:143-197 *)
Definition ecdsa_verify_inner (fuel : nat) (pk : projective) (z r s : felt) : outcome unit :=
  let f_z := mont_of_felt z in
  let f_r := mont_of_felt r in
  let f_s := mont_of_felt s in
  bind (unwrap_scalar f_z) (fun cf_z =>
  bind (unwrap_scalar f_r) (fun cf_r =>
  bind (unwrap_scalar f_s) (fun cf_s =>
  if geb f_z UPPER_BOUND then err E_Message
  else if limbs_eqb f_r ZERO || geb f_r UPPER_BOUND then err E_Signature
  else if limbs_eqb f_s ZERO || geb f_s UPPER_BOUND then err E_Signature
  else
    bind (unwrap_inverse scalar_field fuel cf_s) (fun cf_s =>
    let u1 := mul scalar_field cf_z cf_s in
    let u2 := mul scalar_field cf_r cf_s in
    let u1g := projective_multiply_elm CURVE_G u1 in
    let u2pk := projective_multiply_elm pk u2 in
    bind (affine_of_projective fuel (projective_add u1g u2pk)) (fun r1 =>
    bind (affine_of_projective fuel (projective_add u1g (projective_negate u2pk))) (fun r2 =>
    if limbs_eqb (a_x r1) f_r || limbs_eqb (a_x r2) f_r then ok tt else err E_Signature)))))).

(* ecdsa_verify_partial, ecdsa.rs:120-125 *)
Definition ecdsa_verify_partial (fuel : nat) (pk z r s : felt) : outcome unit :=
  bind (get_pk_point fuel (mont_of_felt pk)) (fun q => match q with
    | None => err E_PublicKey
    | Some point => ecdsa_verify_inner fuel (projective_of_affine point) z r s
    end).
(* ecdsa_verify, ecdsa.rs:129-136 *)
Definition ecdsa_verify (fuel : nat) (pk : affine) (z r s : felt) : outcome unit :=
  bind (get_pk_point fuel (a_x pk)) (fun q => match q with
    | None => err E_PublicKey
    | Some point =>
        if negb (limbs_eqb (a_y point) (a_y pk)) then err E_PublicKey
        else ecdsa_verify_inner fuel (projective_of_affine point) z r s
    end).

(* BlockCommitmentSignature::verify, common/src/signature.rs:11-23 *)
Definition verify_block_signature (fuel : nat) (r s public_key block_hash : felt) : outcome unit :=
  ecdsa_verify_partial fuel public_key block_hash r s.
