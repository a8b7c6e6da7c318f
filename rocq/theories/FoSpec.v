(** The reference for forests: one list of items per shard. *)
From Coq Require Import List Arith Bool.
From Verif Require Import MtModel MtSpec MtHist PtModel PtSpec FkSpec.
Import ListNotations.

(** The operations of a forest used as an accumulator. *)
Inductive foop (IT : Type) :=
  | OInsert (x : IT) | OInsertNp (x : IT) | OBatch (xs : list IT) | OBatchNp (xs : list IT)
  | ORemove (x : IT) | OPrune | OCommit | ORollback.
Arguments OInsert {IT}. Arguments OInsertNp {IT}. Arguments OBatch {IT}. Arguments OBatchNp {IT}.
Arguments ORemove {IT}. Arguments OPrune {IT}. Arguments OCommit {IT}. Arguments ORollback {IT}.

(** Change one element of a list, or every element, with its position. *)
Definition change_at {A} (l : list A) (i : nat) (g : A -> option (A * bool)) : option (list A * bool) :=
  match nth_error l i with
  | None => None
  | Some a => option_map (fun r => (firstn i l ++ fst r :: skipn (S i) l, snd r)) (g a)
  end.
Fixpoint change_all {A} (g : nat -> A -> option (A * bool)) (j : nat) (l : list A) : option (list A * bool) :=
  match l with
  | [] => Some ([], true)
  | a :: r =>
      match g j a, change_all g (S j) r with
      | Some (a', b), Some (r', c) => Some (a' :: r', b && c)
      | _, _ => None
      end
  end.

Section Spec.
Context {IT LD : Type}.
Variable ldeqb : LD -> LD -> bool.
Variable dg : IT -> LD.
Variable sh : IT -> nat.
Variable H : nat.

(** The items of a batch that belong to a shard, in their order. *)
Definition shard_items (j : nat) (xs : list IT) : list LD :=
  map dg (filter (fun x => sh x =? j) xs).

(** The first place of a digest among the leaves the fork holds. *)
Definition fork_place (s : fspec LD) (d : LD) : option nat :=
  option_map (fun k => fs_start s + k) (find_pos (fun x => ldeqb x d) (skipn (fs_start s) (fs_leaves s))).

Definition fo_ref (ss : list (fspec LD)) (o : foop IT) : option (list (fspec LD) * bool) :=
  match o with
  | OInsert x => change_at ss (sh x) (fun s => fs_step H false s (FDo (PPush (dg x))))
  | OInsertNp x => change_at ss (sh x) (fun s => fs_step H false s (FDo (PPushNp (dg x))))
  | OBatch xs =>
      if forallb (fun x => sh x <? length ss) xs
      then change_all (fun j s => fs_step H false s (FDo (PBatch (shard_items j xs)))) 0 ss else None
  | OBatchNp xs =>
      if forallb (fun x => sh x <? length ss) xs
      then change_all (fun j s => fs_step H false s (FDo (PBatchNp (shard_items j xs)))) 0 ss else None
  | ORemove x => change_at ss (sh x) (fun s =>
      match fork_place s (dg x) with
      | Some i => fs_step H false s (FDo (PRemove i))
      | None => Some (s, false)
      end)
  | OPrune => change_all (fun _ s => fs_step H false s (FDo PPrune)) 0 ss
  | OCommit => change_all (fun _ s => fs_step H false s FCommit) 0 ss
  | ORollback => change_all (fun _ s => fs_step H false s FReset) 0 ss
  end.
End Spec.

Section Exec.
Context {IT LD ID : Type}.
Variable dl : LD.
Variable di : ID.
Variable join : ID -> ID -> ID.
Variable joinl : LD -> LD -> ID.
Variable ldeqb : LD -> LD -> bool.
Variable ideqb : ID -> ID -> bool.
Variable dg : IT -> LD.
Variable sh : IT -> nat.
Variable H : nat.
Variable chk : bool.

(** One operation of the forest; [None]: panic. *)
Definition fo_step (f : forest LD ID) (o : foop IT) : option (forest LD ID * bool) :=
  match o with
  | OInsert x => fo_insert dl di join joinl H dg sh f x
  | OInsertNp x => fo_insert_np dl di join joinl H dg sh f x
  | OBatch xs => fo_batch_insert dl di join joinl H dg sh f xs
  | OBatchNp xs => fo_batch_insert_np dl di join joinl H dg sh f xs
  | ORemove x => fo_remove_proof ldeqb chk dg sh f x
  | OPrune => Some (fo_prune H f, true)
  | OCommit => with_true (fo_commit dl di join joinl ideqb H chk f)
  | ORollback => with_true (fo_rollback dl di join joinl ideqb H f)
  end.
End Exec.
