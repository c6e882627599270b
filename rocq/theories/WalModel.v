(* Model of the consensus write-ahead log: crates/consensus/src/wal.rs.

   The WAL directory is an association list from file names to file contents, both lists
   of byte values.  Not modelled: I/O errors other than a crash in the middle of a write
   (a FileWalSink that cannot be created is replaced by a NoopWal, lib.rs:622-632), write
   caching by the operating system, directories and foreign files in the WAL directory,
   and the validity of UTF-8.  The JSON encoding of an entry is a parameter. *)
From Coq Require Import List NArith Bool.
From Verif Require Import AList Radix.
Import ListNotations.
Local Open Scope N_scope.

(* WalEntry, wal.rs:66-86: the four kinds of entries that are not decisions differ only in
   their payload, which is opaque. *)
Inductive wal_entry := Decision (height : N) (value : N) | Other (body : N).

Definition bytes := list N.

(* The WAL directory: file name to contents. *)
Definition dir := list (bytes * bytes).

Fixpoint bytes_eqb (a b : bytes) : bool :=
  match a, b with
  | [], [] => true
  | x :: a, y :: b => (x =? y) && bytes_eqb a b
  | _, _ => false
  end.

(* The decimal rendering of a u64. *)
Definition dec (h : N) : bytes := map (fun d => 48 + d) (min_digits 10 h).

(* WAL_FILE_PREFIX, wal.rs:12 *)
Definition wal_prefix : bytes := text "wal-".
(* The extension with its dot, wal.rs:15 *)
Definition wal_suffix : bytes := text ".json".

(* filename, wal.rs:18-21 *)
Definition filename (address : bytes) (h : N) : bytes :=
  wal_prefix ++ address ++ [45] ++ dec h ++ wal_suffix.

(* str::strip_prefix *)
Fixpoint strip_prefix (p s : bytes) : option bytes :=
  match p, s with
  | [], _ => Some s
  | x :: p, y :: s => if x =? y then strip_prefix p s else None
  | _ :: _, [] => None
  end.

(* str::strip_suffix *)
Definition strip_suffix (p s : bytes) : option bytes :=
  match strip_prefix (rev p) (rev s) with
  | Some r => Some (rev r)
  | None => None
  end.

(* str::split on one ASCII character *)
Fixpoint split (c : N) (s : bytes) : list bytes :=
  match s with
  | [] => [[]]
  | x :: s =>
      if x =? c then [] :: split c s
      else match split c s with
           | p :: ps => (x :: p) :: ps
           | [] => [[x]]
           end
  end.

(* <u64 as FromStr>::from_str: an optional plus sign, at least one digit, no overflow. *)
Definition digit_value (c : N) : option N := if (48 <=? c) && (c <=? 57) then Some (c - 48) else None.
Fixpoint parse_digits (acc : N) (s : bytes) : option N :=
  match s with
  | [] => Some acc
  | c :: s =>
      match digit_value c with
      | Some d => if acc * 10 + d <? 2 ^ 64 then parse_digits (acc * 10 + d) s else None
      | None => None
      end
  end.
Definition parse_u64 (s : bytes) : option N :=
  match s with
  | [] => None
  | c :: r => if c =? 43 then match r with [] => None | _ => parse_digits 0 r end else parse_digits 0 s
  end.

(* recovery::extract_height_from_filename, wal.rs:175-193 *)
Definition extract_height (name : bytes) : N :=
  let height_str :=
    match strip_prefix wal_prefix name with
    | Some s =>
        match strip_suffix wal_suffix s with
        | Some s => nth 1 (split 45 s) []
        | None => []
        end
    | None => []
    end in
  match parse_u64 height_str with Some h => h | None => 0 end.

(* The test on directory entries in recovery::collect_wal_files, wal.rs:209-217 *)
Definition is_wal_file (name : bytes) : bool :=
  match strip_prefix wal_prefix name, strip_suffix wal_suffix name with
  | Some _, Some _ => true
  | _, _ => false
  end.

(* sort_by_key on the height, wal.rs:222: a stable sort *)
Fixpoint insert_by_height {X} (x : N * X) (l : list (N * X)) : list (N * X) :=
  match l with
  | [] => [x]
  | y :: l => if fst x <=? fst y then x :: y :: l else y :: insert_by_height x l
  end.
Definition sort_by_height {X} (l : list (N * X)) : list (N * X) := fold_right insert_by_height [] l.

(* recovery::collect_wal_files, wal.rs:197-224, on the directory in the order in which
   read_dir lists it *)
Definition collect_wal_files (listing : dir) : list (N * bytes) :=
  sort_by_height
    (map (fun f => (extract_height (fst f), snd f)) (filter (fun f => is_wal_file (fst f)) listing)).

(* BufRead::lines: the pieces between newlines; a last empty piece is not a line, and a
   carriage return before the newline is dropped *)
Definition chomp (l : bytes) : bytes :=
  match rev l with
  | 13 :: r => rev r
  | _ => l
  end.
Definition lines (s : bytes) : list bytes :=
  let ps := split 10 s in
  let complete := map chomp (removelast ps) in
  match last ps [] with
  | [] => complete
  | rest => complete ++ [rest]
  end.

(* str::trim().is_empty(), for ASCII white space *)
Definition is_blank (l : bytes) : bool := forallb (fun c => ((9 <=? c) && (c <=? 13)) || (c =? 32)) l.

Section Codec.
  (* serde_json::to_string and serde_json::from_str on WalEntry *)
  Variable ser : wal_entry -> bytes.
  Variable de : bytes -> option wal_entry.

  (* recovery::read_entries, wal.rs:227-254: None is an I/O error *)
  Fixpoint parse_lines (ls : list bytes) : option (list wal_entry) :=
    match ls with
    | [] => Some []
    | l :: ls =>
        if is_blank l then parse_lines ls
        else match de l with
             | Some e => match parse_lines ls with Some es => Some (e :: es) | None => None end
             | None => None
             end
    end.
  Definition read_entries (contents : bytes) : option (list wal_entry) := parse_lines (lines contents).

  Record recovered := mkRecovered {
    incomplete : list (N * list wal_entry);
    finalized : list (N * list wal_entry);
    highest_decision : option N }.

  Definition is_decision (e : wal_entry) : bool := match e with Decision _ _ => true | Other _ => false end.

  (* Tracking of the highest decision, wal.rs:297-309 *)
  Definition max_decision (m : option N) (es : list wal_entry) : option N :=
    fold_left (fun m e => match e with
                          | Decision h _ => match m with Some c => Some (N.max c h) | None => Some h end
                          | Other _ => m
                          end) es m.

  (* The classification, wal.rs:323-327 *)
  Definition is_finalized (highest_committed : option N) (h : N) (es : list wal_entry) : bool :=
    existsb (fun e => is_decision e ||
                      match highest_committed with Some c => h <=? c | None => false end) es.

  (* The loop over the files, wal.rs:292-345, with the accumulators as arguments *)
  Fixpoint recover_loop (highest_committed : option N) (files : list (N * bytes)) (acc : recovered)
      : option recovered :=
    match files with
    | [] => Some acc
    | (h, contents) :: files =>
        match read_entries contents with
        | None => None
        | Some es =>
            let hd := max_decision (highest_decision acc) es in
            recover_loop highest_committed files
              (if is_finalized highest_committed h es
               then mkRecovered (incomplete acc) (finalized acc ++ [(h, es)]) hd
               else mkRecovered (incomplete acc ++ [(h, es)]) (finalized acc) hd)
        end
    end.

  (* recovery::recover_incomplete_heights, wal.rs:263-347.  A missing directory behaves as
     an empty one (wal.rs:277-283). *)
  Definition recover_incomplete_heights (listing : dir) (highest_committed : option N) : option recovered :=
    recover_loop highest_committed (collect_wal_files listing) (mkRecovered [] [] None).

  (* FileWalSink::new, wal.rs:94-108: opens for appending, creating an empty file *)
  Definition wal_open (address : bytes) (d : dir) (h : N) : dir :=
    match al_get bytes_eqb (filename address h) d with
    | Some _ => d
    | None => al_set bytes_eqb (filename address h) [] d
    end.

  (* FileWalSink::append, wal.rs:135-148: adds a line.  [written] is what reached the file:
     the whole line and its newline, or less when the process dies in between. *)
  Definition wal_write (address : bytes) (d : dir) (h : N) (written : bytes) : dir :=
    let old := match al_get bytes_eqb (filename address h) d with Some c => c | None => [] end in
    al_set bytes_eqb (filename address h) (old ++ written) d.
  Definition wal_line (e : wal_entry) : bytes := ser e ++ [10].
  Definition wal_append (address : bytes) (d : dir) (h : N) (e : wal_entry) : dir :=
    wal_write address d h (wal_line e).

  (* delete_wal_file, wal.rs:24-45 *)
  Definition wal_delete (address : bytes) (d : dir) (h : N) : dir :=
    al_remove bytes_eqb (filename address h) d.

  (* What happens to the WAL directory over the life of a validator, restarts included. *)
  Inductive wal_op := WOpen (h : N) | WAppend (h : N) (e : wal_entry) | WDelete (h : N).
  Definition wal_step (address : bytes) (d : dir) (o : wal_op) : dir :=
    match o with
    | WOpen h => wal_open address d h
    | WAppend h e => wal_append address d h e
    | WDelete h => wal_delete address d h
    end.
  Definition wal_run (address : bytes) (tr : list wal_op) : dir := fold_left (wal_step address) tr [].
End Codec.
