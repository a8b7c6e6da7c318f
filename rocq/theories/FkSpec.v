(** The reference for forked trees and forests: plain lists of items. *)
From Coq Require Import List Arith Bool.
From Verif Require Import MtModel MtSpec MtHist PtModel PtSpec.
Import ListNotations.

(** The operations of a forked tree: those of a tree, dropping the fork, merging it with its
    marks, merging it without. *)
Inductive fop (LD : Type) := FDo (o : pop LD) | FReset | FCommit | FMerge.
Arguments FDo {LD}. Arguments FReset {LD}. Arguments FCommit {LD}. Arguments FMerge {LD}.

(** What an insertion offers, with the flag of a leaf that nobody will prove. *)
Definition pop_items {LD} (o : pop LD) : list (bool * LD) :=
  match o with
  | PPush d => [(false, d)]
  | PPushNp d => [(true, d)]
  | PBatch ds => map (fun d => (false, d)) ds
  | PBatchNp ds => map (fun d => (true, d)) ds
  | _ => []
  end.
Definition is_insert {LD} (o : pop LD) : bool :=
  match o with PRemove _ | PPrune => false | _ => true end.

(** The leaves merged, the leaves of the fork, and whether the last insertion leaves the
    inner nodes settled (see [settled]). *)
Record fspec (LD : Type) := FS { fs_base : list (bool * LD); fs_fork : list (bool * LD); fs_ok : bool }.
Arguments FS {LD}. Arguments fs_base {LD}. Arguments fs_fork {LD}. Arguments fs_ok {LD}.

Section Spec.
Context {LD : Type}.
Variable H : nat.
Variable chk : bool.

Definition fs_items (s : fspec LD) : list (bool * LD) := fs_base s ++ fs_fork s.
Definition fs_leaves (s : fspec LD) : list LD := map snd (fs_items s).

(** The first leaf that the fork holds itself: the left one of the last pair. *)
Definition fs_start (s : fspec LD) : nat := 2 * ((length (fs_base s) - 1) / 2).

Definition mark_nth (i : nat) (l : list (bool * LD)) : list (bool * LD) :=
  firstn i l ++ match skipn i l with [] => [] | (_, x) :: r => (true, x) :: r end.

(** One operation, with its result; [None]: the code panics. *)
Definition fs_step (s : fspec LD) (o : fop LD) : option (fspec LD * bool) :=
  let n := length (fs_items s) in
  match o with
  | FReset => Some (FS (fs_base s) [] true, true)
  | FCommit => Some (FS (fs_items s) [] true, true)
  | FMerge =>
      if n <? 2 ^ (H - 1)
      then Some (FS (fs_base s ++ map (fun x => (true, snd x)) (fs_fork s)) [] true, true) else None
  | FDo PPrune => Some (s, true)
  | FDo (PRemove i) =>
      if i <? fs_start s then (if chk then None else Some (s, false))
      else if i <? n then
        Some (FS (fs_base s)
          (if i <? length (fs_base s) then fs_fork s else mark_nth (i - length (fs_base s)) (fs_fork s))
          (fs_ok s), true)
      else Some (s, false)
  | FDo p =>
      Some (FS (fs_base s) (fs_fork s ++ firstn (2 ^ (H - 1) - n) (pop_items p))
        (snd (fold_left (settle H) (pop_top p) (n, fs_ok s))), n + length (pop_items p) <=? 2 ^ (H - 1))
  end.
End Spec.

(** The insertions that merging a fork makes in the base: runs of leaves that nobody will
    prove in one batch, the others one by one. *)
Fixpoint merge_ops {LD} (acc : list LD) (items : list (bool * LD)) : list (pop LD) :=
  match items with
  | [] => match acc with [] => [] | _ => [PBatchNp acc] end
  | (true, x) :: r => merge_ops (acc ++ [x]) r
  | (false, x) :: r => (match acc with [] => [] | _ => [PBatchNp acc] end) ++ PPush x :: merge_ops [] r
  end.

Section Exec.
Context {LD ID : Type}.
Variable dl : LD.
Variable di : ID.
Variable join : ID -> ID -> ID.
Variable joinl : LD -> LD -> ID.
Variable ideqb : ID -> ID -> bool.
Variable H : nat.
Variable chk : bool.

Definition with_true {A} (o : option A) : option (A * bool) := option_map (fun a => (a, true)) o.

(** One operation of the forked tree; [None]: panic. *)
Definition ft_step (t : ftree LD ID) (o : fop LD) : option (ftree LD ID * bool) :=
  match o with
  | FDo (PPush d) => Some (ft_push dl di join joinl H t d)
  | FDo (PPushNp d) => Some (ft_push_np dl di join joinl H t d)
  | FDo (PBatch ds) => ft_batch dl di join joinl H t ds
  | FDo (PBatchNp ds) => ft_batch_np dl di join joinl H t ds
  | FDo (PRemove i) => ft_remove_path chk t i
  | FDo PPrune => Some (ft_prune H t, true)
  | FReset => with_true (ft_reset dl di join joinl ideqb H t)
  | FCommit => with_true (ft_merge_partial dl di join joinl ideqb H chk t)
  | FMerge => with_true (ft_merge dl di join joinl ideqb H t)
  end.
End Exec.
