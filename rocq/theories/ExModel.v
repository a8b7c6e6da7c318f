(** Extending a tree by the digests of an iterator, tree.rs.

    Simplification: an iterator is the list of the digests it yields together with the upper
    bound of its size hint. *)
From Coq Require Import List Arith Bool.
From Verif Require Import MtModel PtModel.
Import ListNotations.

Section Extend.
Context {T LD : Type}.
Variable H : nat.
Variable len : T -> nat.                      (* Tree::len *)
Variable at_capacity : T -> bool.             (* the test that comes first in maybe_push_digest *)
Variable push : T -> LD -> option (T * bool). (* maybe_push_digest with a digest; [None]: panic *)

(** tree.rs L384-392: the loop of [extend_digests]; [None]: panic.  [maybe_push_digest] asks
    the iterator for a digest only after testing the capacity, so the call that finds the
    iterator empty answers [Some(false)] on a full tree and the [assert!] fails. *)
Fixpoint extend_loop (t : T) (ds : list LD) : option T :=
  match ds with
  | [] => if at_capacity t then None else Some t
  | d :: r =>
      match push t d with
      | Some (t', true) => extend_loop t' r
      | _ => None
      end
  end.

(** tree.rs L373-395: [extend_digests], and L404-413: [extend], whose result is the boolean.
    [upper] is the second part of the size hint.  [capacity - len] is truncated: no tree has
    more leaves than its capacity. *)
Definition extend_digests (t : T) (upper : option nat) (ds : list LD) : option (T * bool) :=
  match upper with
  | None => Some (t, false)
  | Some m =>
      if m <=? capacity H - len t
      then match extend_loop t ds with Some t' => Some (t', true) | None => None end
      else Some (t, false)
  end.

(** tree.rs L243-251 [from_iter] and L256-262 [from_slice]: outer [None] is a panic, inner
    [None] the result [None]. *)
Definition tree_from_iter (new : T) (upper : option nat) (ds : list LD) : option (option T) :=
  match extend_digests new upper ds with
  | None => None
  | Some (t, b) => Some (if b then Some t else None)
  end.
End Extend.

Section Trees.
Context {LD ID : Type}.
Variable dl : LD.
Variable di : ID.
Variable join : ID -> ID -> ID.
Variable joinl : LD -> LD -> ID.
Variable H : nat.

(** full.rs L219-229: the capacity test of a full tree. *)
Definition full_extend : full LD ID -> option nat -> list LD -> option (full LD ID * bool) :=
  extend_digests H full_len (fun t => capacity H <=? full_len t)
    (fun t d => Some (full_push dl di join joinl H t d)).

(** single_path.rs L173-177: the state of the length. *)
Definition single_extend : single LD ID -> option nat -> list LD -> option (single LD ID * bool) :=
  extend_digests H single_len
    (fun t => match single_length_state H t with SFull => true | _ => false end)
    (single_push dl di join joinl H).

(** partial.rs L430-447 and L547-555: pushes of the trait, which mark the leaf. *)
Definition partial_extend : partial LD ID -> option nat -> list LD -> option (partial LD ID * bool) :=
  extend_digests H pt_len (fun t => capacity H <=? pt_len t)
    (fun t d => Some (pt_push_np dl di join joinl H t d)).

(** tree.rs L243-262 for the three trees. *)
Definition full_from_iter : option nat -> list LD -> option (option (full LD ID)) :=
  tree_from_iter H full_len (fun t => capacity H <=? full_len t)
    (fun t d => Some (full_push dl di join joinl H t d)) full_new.
Definition single_from_iter : option nat -> list LD -> option (option (single LD ID)) :=
  tree_from_iter H single_len
    (fun t => match single_length_state H t with SFull => true | _ => false end)
    (single_push dl di join joinl H) (single_new dl di).
Definition partial_from_iter : option nat -> list LD -> option (option (partial LD ID)) :=
  tree_from_iter H pt_len (fun t => capacity H <=? pt_len t)
    (fun t d => Some (pt_push_np dl di join joinl H t d)) pt_new.
End Trees.
