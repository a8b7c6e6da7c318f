(** Histories of tree operations: running them on the model, and the specification
    of which leaves a history leaves in the tree. *)
From Coq Require Import List Arith Bool.
From Verif Require Import MtModel MtSpec.
Import ListNotations.

(** A single push (tree.rs L300-330 [push_digest]) or a batch push (tree.rs L345-371
    [batch_push_digest]). *)
Inductive top (LD : Type) := TPush (d : LD) | TBatch (ds : list LD).
Arguments TPush {LD}. Arguments TBatch {LD}.

Definition top_items {LD} (o : top LD) : list LD :=
  match o with TPush d => [d] | TBatch ds => ds end.

(** All leaves offered by a history, in order. *)
Definition offered {LD} (os : list (top LD)) : list LD := flat_map top_items os.

Section Exec.
Context {LD ID : Type}.
Variable dl : LD.
Variable di : ID.
Variable join : ID -> ID -> ID.
Variable joinl : LD -> LD -> ID.
Variable H : nat.

(** Running a history on the full tree; [None] is a panic. *)
Definition full_step (t : full LD ID) (o : top LD) : option (full LD ID) :=
  match o with
  | TPush d => Some (fst (full_push dl di join joinl H t d))
  | TBatch ds =>
      match full_batch_push dl di join joinl H t ds with Some (t', _) => Some t' | None => None end
  end.

Fixpoint full_exec (t : full LD ID) (os : list (top LD)) : option (full LD ID) :=
  match os with
  | [] => Some t
  | o :: os' => match full_step t o with Some t' => full_exec t' os' | None => None end
  end.

(** Pushing leaves one by one into a single-path tree. *)
Fixpoint single_exec (t : single LD ID) (ds : list LD) : option (single LD ID) :=
  match ds with
  | [] => Some t
  | d :: ds' =>
      match single_push dl di join joinl H t d with
      | Some (t', _) => single_exec t' ds'
      | None => None
      end
  end.
End Exec.

(** Some level below the root at which the batch of leaves [n..last] starts with a
    right node and ends with a left node. *)
Definition bad_levelb (H n last : nat) : bool :=
  existsb (fun k => negb (Nat.even (n / 2 ^ S k)) && Nat.even (last / 2 ^ S k)) (seq 0 (H - 2)).

(** [settle H (n, ok) o]: the number of leaves after the operation and whether the
    last operation that added leaves was a single push, or a batch without a level
    starting at a right node and ending at a left node. *)
Definition settle {LD} (H : nat) (s : nat * bool) (o : top LD) : nat * bool :=
  let '(n, ok) := s in
  match o with
  | TPush _ => if n <? 2 ^ (H - 1) then (S n, true) else (n, ok)
  | TBatch ds =>
      let n' := Nat.min (2 ^ (H - 1)) (n + length ds) in
      if n <? n' then (n', negb (bad_levelb H n (n' - 1))) else (n, ok)
  end.

Definition settled {LD} (H : nat) (os : list (top LD)) : bool :=
  snd (fold_left (settle H) os (0, true)).
