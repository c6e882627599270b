(** Model of the byte encoding of stored trie nodes and of lists of removed
    nodes, /repo/crates/storage/src/connection/trie.rs:399-416, 468-472, 559-568,
    675-698 and 815-898, on top of bincode 2.0.1 with its standard configuration
    (variable-length little-endian integers, no limit).

    bincode and bitvec are not part of /repo; what is modelled of them is their
    documented behaviour.  Bytes are numbers below 256. *)
From Coq Require Import List Bool Arith NArith.
From Verif Require Import Radix MerkleModel CommitModel.
Import ListNotations.
Local Open Scope N_scope.

Definition byte := N.

(** Little-endian integers. *)
Definition le_bytes (width : nat) (n : N) : list byte := rev (rdigits 256 width n).
Definition le_val (bs : list byte) : N := rval 256 (rev bs).

(** bincode varint_encode_u32 and varint_encode_u64 (one byte up to 250, then a
    marker and the smallest of 2, 4 or 8 bytes that fits). *)
Definition encode_uint (n : N) : list byte :=
  if n <=? 250 then [n]
  else if n <=? 65535 then 251 :: le_bytes 2 n
  else if n <=? 4294967295 then 252 :: le_bytes 4 n
  else 253 :: le_bytes 8 n.

(** Reader::read of [k] bytes: fails at the end of the input. *)
Definition take (k : nat) (bs : list byte) : option (list byte * list byte) :=
  if (length bs <? k)%nat then None else Some (firstn k bs, skipn k bs).

(** bincode varint_decode_u64: markers 254 (u128) and 255 (reserved) are errors. *)
Definition decode_u64 (bs : list byte) : option (N * list byte) :=
  match bs with
  | [] => None
  | b :: rest =>
      if b <=? 250 then Some (b, rest)
      else if b =? 251 then option_map (fun r => (le_val (fst r), snd r)) (take 2 rest)
      else if b =? 252 then option_map (fun r => (le_val (fst r), snd r)) (take 4 rest)
      else if b =? 253 then option_map (fun r => (le_val (fst r), snd r)) (take 8 rest)
      else None
  end.

(** bincode varint_decode_u32, used for the tag of an enum: 253 is an error too. *)
Definition decode_u32 (bs : list byte) : option (N * list byte) :=
  match bs with
  | [] => None
  | b :: rest =>
      if b <=? 250 then Some (b, rest)
      else if b =? 251 then option_map (fun r => (le_val (fst r), snd r)) (take 2 rest)
      else if b =? 252 then option_map (fun r => (le_val (fst r), snd r)) (take 4 rest)
      else None
  end.

(** impl Encode / Decode for Vec<u8>: the length, then the bytes. *)
Definition encode_bytes (bs : list byte) : list byte := encode_uint (len bs) ++ bs.
Definition decode_bytes (bs : list byte) : option (list byte * list byte) :=
  match decode_u64 bs with
  | None => None
  | Some (n, rest) => if len rest <? n then None else take (N.to_nat n) rest
  end.

(** enum StoredSerde, trie.rs:815-830 *)
Inductive serde : Type :=
| SerBinary (left right : N)
| SerEdge (child : N) (path : list byte)
| SerLeafBinary
| SerLeafEdge (path : list byte).

(** derive(bincode::Encode) on StoredSerde with trie.rs:675-682 *)
Definition encode_serde (s : serde) : list byte :=
  match s with
  | SerBinary l r => encode_uint 0 ++ encode_uint l ++ encode_uint r
  | SerEdge c p => encode_uint 1 ++ encode_uint c ++ encode_bytes p
  | SerLeafBinary => encode_uint 2
  | SerLeafEdge p => encode_uint 3 ++ encode_bytes p
  end.

(** derive(bincode::BorrowDecode) on StoredSerde with trie.rs:692-698; an unknown
    tag is an error. *)
Definition decode_serde (bs : list byte) : option (serde * list byte) :=
  match decode_u32 bs with
  | None => None
  | Some (tag, r0) =>
      if tag =? 0 then
        match decode_u64 r0 with
        | None => None
        | Some (l, r1) =>
            match decode_u64 r1 with
            | None => None
            | Some (r, r2) => Some (SerBinary l r, r2)
            end
        end
      else if tag =? 1 then
        match decode_u64 r0 with
        | None => None
        | Some (c, r1) =>
            match decode_bytes r1 with
            | None => None
            | Some (p, r2) => Some (SerEdge c p, r2)
            end
        end
      else if tag =? 2 then Some (SerLeafBinary, r0)
      else if tag =? 3 then
        match decode_bytes r0 with
        | None => None
        | Some (p, r1) => Some (SerLeafEdge p, r1)
        end
      else None
  end.

(** BitVec<u8, Msb0>::into_vec after force_align: the bits in groups of eight,
    first bit most significant.  bitvec leaves the unused bits of the last byte
    unspecified: [dead] supplies them. *)
Fixpoint pack (fuel : nat) (bs : bits) : list byte :=
  match fuel with
  | O => []
  | S f => match bs with [] => [] | _ => bits_val (firstn 8 bs) :: pack f (skipn 8 bs) end
  end.
Definition pad_len (n : nat) : nat := (7 - (n + 7) mod 8)%nat.
Definition into_vec (dead : nat -> bool) (p : bits) : list byte :=
  pack (length p) (p ++ map dead (seq 0 (pad_len (length p)))).

(** trie.rs:843-852 and 858-867: the bytes of the path and its length as u8 *)
Definition path_bytes (dead : nat -> bool) (p : bits) : list byte :=
  into_vec dead p ++ [len p mod 256].

(** trie.rs:837-868 *)
Definition to_serde (dead : nat -> bool) (n : stored) : serde :=
  match n with
  | SBin l r => SerBinary l r
  | SEdge c p => SerEdge c (path_bytes dead p)
  | SLeafBin => SerLeafBinary
  | SLeafEdge p => SerLeafEdge (path_bytes dead p)
  end.

(** StoredNode::encode into a buffer of [room] bytes, trie.rs:836-870; fails if
    the buffer is too small.  The result is buffer[..length]. *)
Definition encode_node (room : N) (dead : nat -> bool) (n : stored) : option (list byte) :=
  let bs := encode_serde (to_serde dead n) in
  if len bs <=? room then Some bs else None.

(** BitVec::from_vec, and resize to [n] with false, trie.rs:880-881 *)
Definition from_vec (bs : list byte) : bits := flat_map (be_bits 8) bs.
Definition resize (p : bits) (n : nat) : bits :=
  firstn n p ++ repeat false (n - length p).

(** Vec::pop *)
Definition pop (bs : list byte) : option (list byte * byte) :=
  match rev bs with [] => None | b :: r => Some (rev r, b) end.

Definition decode_path (bs : list byte) : option bits :=
  match pop bs with
  | None => None
  | Some (bs', n) => Some (resize (from_vec bs') (N.to_nat n))
  end.

(** StoredNode::decode, trie.rs:872-897; bytes after the value are ignored. *)
Definition decode_node (bs : list byte) : option stored :=
  match decode_serde bs with
  | None => None
  | Some (SerBinary l r, _) => Some (SBin l r)
  | Some (SerEdge c p, _) => option_map (SEdge c) (decode_path p)
  | Some (SerLeafBinary, _) => Some SLeafBin
  | Some (SerLeafEdge p, _) => option_map SLeafEdge (decode_path p)
  end.

(** encode_to_vec of a slice of TrieStorageIndex, trie.rs:412 *)
Definition encode_removed (is : list N) : list byte :=
  encode_uint (len is) ++ flat_map encode_uint is.

(** decode_from_slice::<Vec<u64>>, trie.rs:468-472.  (The length is a number of
    elements; each takes a byte at least, so a longer list than there are bytes
    fails: the fuel is the number of bytes.) *)
Fixpoint decode_u64s (fuel : nat) (n : N) (bs : list byte) : option (list N * list byte) :=
  if n =? 0 then Some ([], bs)
  else match fuel with
       | O => None
       | S f =>
           match decode_u64 bs with
           | None => None
           | Some (x, r) =>
               match decode_u64s f (n - 1) r with
               | None => None
               | Some (xs, r') => Some (x :: xs, r')
               end
           end
       end.
Definition decode_removed (bs : list byte) : option (list N) :=
  match decode_u64 bs with
  | None => None
  | Some (n, r) => option_map fst (decode_u64s (length r) n r)
  end.
