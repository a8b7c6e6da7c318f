(** * The checkfile of the parameters
    Source: manta-parameters/build.rs lines 38-64. Text is the list of its bytes. *)
From Coq Require Import List ZArith Bool.
Import ListNotations.
Local Open Scope Z_scope.

(** [BufRead::lines]: without the end of the line, which is a line feed or a carriage return and a line feed; the line under way is
    kept in reverse order. Errors of reading and text that is not UTF-8 are not modelled. *)
Definition strip (current : list Z) : list Z := match current with 13 :: t => t | _ => current end.
Fixpoint lines (current text : list Z) : list (list Z) :=
  match text with
  | [] => match current with [] => [] | _ => [rev current] end
  | c :: t => if c =? 10 then rev (strip current) :: lines [] t else lines (c :: current) t
  end.

(** [str::split] at two spaces, line 55 of build.rs. *)
Fixpoint split (current text : list Z) : list (list Z) :=
  match text with
  | [] => [rev current]
  | c :: t =>
      match t with
      | d :: t' => if (c =? 32) && (d =? 32) then rev current :: split [] t' else split (c :: current) t
      | [] => split (c :: current) t
      end
  end.

(** [FromHex] of the crate [hex] for 32 bytes, line 58. *)
Definition digit (c : Z) : option Z :=
  if (48 <=? c) && (c <=? 57) then Some (c - 48)
  else if (97 <=? c) && (c <=? 102) then Some (c - 97 + 10)
  else if (65 <=? c) && (c <=? 70) then Some (c - 65 + 10)
  else None.
Fixpoint bytes_of (text : list Z) : option (list Z) :=
  match text with
  | [] => Some []
  | a :: b :: t =>
      match digit a, digit b, bytes_of t with
      | Some x, Some y, Some r => Some (x * 16 + y :: r)
      | _, _, _ => None
      end
  | _ => None
  end.
Definition checksum_of (text : list Z) : option (list Z) :=
  if Nat.eqb (length text) 64 then bytes_of text else None.

(** Lines 46-64, [parse_checkfile]: the map as its insertions, the latest first. *)
Definition parse_line (line : list Z) : option (list Z * list Z) :=
  match split [] line with
  | [checksum; path] => match checksum_of checksum with Some c => Some (path, c) | None => None end
  | _ => None
  end.
Fixpoint insert_all (ls : list (list Z)) (m : list (list Z * list Z)) : option (list (list Z * list Z)) :=
  match ls with
  | [] => Some m
  | l :: t => match parse_line l with Some e => insert_all t (e :: m) | None => None end
  end.
Definition parse_checkfile (text : list Z) : option (list (list Z * list Z)) := insert_all (lines [] text) [].
