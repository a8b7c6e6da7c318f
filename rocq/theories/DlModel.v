(** * Parameters: download, checksums and build script
    Source: manta-parameters/src/lib.rs (lines 89-310) and manta-parameters/build.rs. *)
From Coq Require Import List ZArith Bool.
Import ListNotations.

(** Equality of bytes, as of arrays in Rust. *)
Fixpoint same (a b : list Z) : bool :=
  match a, b with
  | [], [] => true
  | x :: a, y :: b => Z.eqb x y && same a b
  | _, _ => false
  end.

Section Hash.
(** [blake3::hash]. *)
Variable hash : list Z -> list Z.

(** lib.rs lines 173-188: [verify] and [verify_file]. *)
Definition verify (data checksum : list Z) : bool := same (hash data) checksum.

(** A file, [None] if there is none, and the answer of a server: its bytes, and whether it was complete. *)
Definition file := option (list Z).
Definition answer : Type := list Z * bool.

(** [write_to] on a file at position 0: the bytes replace as many of the file, the rest of the file stays. *)
Definition overwrite (old new : list Z) : list Z := new ++ skipn (length new) old.

(** lib.rs lines 131-135, [download_from]: the contents afterwards and the number of bytes, [None] for an error. *)
Definition download_from (a : answer) (contents : list Z) : list Z * option nat :=
  let '(bytes, complete) := a in (overwrite contents bytes, if complete then Some (length bytes) else None).

(** lib.rs lines 143-153, [download_unchecked]: [OpenOptions] with [create] and [write], without [truncate]; then the LFS, and the raw storage if that
    gave no bytes, so that the position is still 0. Opening is assumed to succeed. *)
Definition download_unchecked (lfs raw : answer) (f : file) : list Z * bool :=
  let contents := match f with Some c => c | None => [] end in
  match download_from lfs contents with
  | (c, None) => (c, false)
  | (c, Some O) => match download_from raw c with (c', None) => (c', false) | (c', Some _) => (c', true) end
  | (c, Some _) => (c, true)
  end.
(** lib.rs lines 157-170, [github::download]: the file afterwards, and whether the result is [Ok]. *)
Definition download (lfs raw : answer) (checksum : list Z) (f : file) : file * bool :=
  let '(c, ok) := download_unchecked lfs raw f in
  if ok then (Some c, verify c checksum) else (Some c, false).
(** lib.rs lines 271-280, [Download::download_if_invalid]. *)
Definition download_if_invalid (lfs raw : answer) (checksum : list Z) (f : file) : file * bool :=
  match f with
  | Some c => if verify c checksum then (f, true) else download lfs raw checksum f
  | None => download lfs raw checksum f
  end.
(** The same call again and again, with the same answers. *)
Fixpoint retry (n : nat) (lfs raw : answer) (checksum : list Z) (f : file) : file * bool :=
  match n with
  | O => download_if_invalid lfs raw checksum f
  | S n => retry n lfs raw checksum (fst (download_if_invalid lfs raw checksum f))
  end.

(** ** The build script. A path is its stem, with the directory, and its extension. *)
Inductive extension : Type := Dat | Lfs | Md | Txt | Checksum | Unsupported | Missing.
Definition extension_eqb (a b : extension) : bool :=
  match a, b with
  | Dat, Dat | Lfs, Lfs | Md, Md | Txt, Txt | Checksum, Checksum | Unsupported, Unsupported | Missing, Missing => true
  | _, _ => false
  end.
Definition path : Type := nat * extension.
Definition path_eqb (a b : path) : bool := Nat.eqb (fst a) (fst b) && extension_eqb (snd a) (snd b).
(** A directory, the latest write first; and a map of checksums, the latest insertion first. *)
Definition directory := list (path * list Z).
Fixpoint lookup (d : directory) (p : path) : option (list Z) :=
  match d with
  | [] => None
  | (q, bytes) :: t => if path_eqb q p then Some bytes else lookup t p
  end.

(** build.rs lines 68-155 and 223-234: [get_checksum], [load_local_file], [validate_and_save_checksum], [compile_lfs], and the match in [main].
    [with_extension] replaces the extension of the path. *)
Definition compile (checksums out : directory) (p : path) (data : list Z) : option directory :=
  match snd p with
  | Dat => match lookup checksums p with
           | None => None
           | Some c => if same (hash data) c then Some ((p, data) :: ((fst p, Checksum), c) :: out) else None
           end
  | Lfs => match lookup checksums p with None => None | Some c => Some (((fst p, Checksum), c) :: out) end
  | Md | Txt => Some out
  | _ => None
  end.
(** build.rs lines 211-238, [main], for the files that are neither hidden nor ignored. *)
Fixpoint build (checksums : directory) (files : list (path * list Z)) (out : directory) : option directory :=
  match files with
  | [] => Some out
  | (p, data) :: t => match compile checksums out p data with None => None | Some out => build checksums t out end
  end.

(** lib.rs lines 214-255, [Get::get] and [define_dat]: the outer [None] is an error of compilation. *)
Definition get (out : directory) (stem : nat) : option (option (list Z)) :=
  match lookup out (stem, Checksum), lookup out (stem, Dat) with
  | Some checksum, Some data => Some (if verify data checksum then Some data else None)
  | _, _ => None
  end.
End Hash.
