(** Histories of a partial tree and the reference they are compared with: the full tree fed
    with the same leaves, and the list of the marks. *)
From Coq Require Import List Arith Bool.
From Verif Require Import MtModel MtSpec MtHist PtModel.
Import ListNotations.

(** The operations of a partial tree: provable push, non-provable push, provable batch,
    non-provable batch, removal of the proof of a leaf, prune. *)
Inductive pop (LD : Type) :=
| PPush (d : LD) | PPushNp (d : LD) | PBatch (ds : list LD) | PBatchNp (ds : list LD)
| PRemove (i : nat) | PPrune.
Arguments PPush {LD}. Arguments PPushNp {LD}. Arguments PBatch {LD}. Arguments PBatchNp {LD}.
Arguments PRemove {LD}. Arguments PPrune {LD}.

(** What an operation inserts. *)
Definition pop_top {LD} (o : pop LD) : list (top LD) :=
  match o with
  | PPush d | PPushNp d => [TPush d]
  | PBatch ds | PBatchNp ds => [TBatch ds]
  | _ => []
  end.
Definition inserts {LD} (os : list (pop LD)) : list (top LD) := flat_map pop_top os.

(** The leaves that the caller gave up: one flag per leaf of a tree of height [H]. *)
Definition give_up {LD} (H : nat) (ms : list bool) (o : pop LD) : list bool :=
  let room := 2 ^ (H - 1) - length ms in
  match o with
  | PPush _ => ms ++ firstn room [false]
  | PPushNp _ => ms ++ firstn room [true]
  | PBatch ds => ms ++ firstn room (map (fun _ => false) ds)
  | PBatchNp ds => ms ++ firstn room (map (fun _ => true) ds)
  | PRemove i => firstn i ms ++ match skipn i ms with [] => [] | _ :: r => true :: r end
  | PPrune => ms
  end.
Definition given_up {LD} (H : nat) (os : list (pop LD)) : list bool :=
  fold_left (give_up H) os [].

Section Exec.
Context {LD ID : Type}.
Variable dl : LD.
Variable di : ID.
Variable join : ID -> ID -> ID.
Variable joinl : LD -> LD -> ID.
Variable H : nat.
Variable chk : bool.

(** One operation of the partial tree with its result ([true] for prune, which has none);
    [None] is a panic. *)
Definition pt_step (t : partial LD ID) (o : pop LD) : option (partial LD ID * bool) :=
  match o with
  | PPush d => Some (pt_push dl di join joinl H t d)
  | PPushNp d => Some (pt_push_np dl di join joinl H t d)
  | PBatch ds => pt_batch_push dl di join joinl H t ds
  | PBatchNp ds => pt_batch_push_np dl di join joinl H t ds
  | PRemove i => pt_remove_path chk t i
  | PPrune => Some (pt_prune H t, true)
  end.

(** The same operation on the full tree, which forgets nothing. *)
Definition ref_step (f : full LD ID) (o : pop LD) : option (full LD ID * bool) :=
  match o with
  | PPush d | PPushNp d => Some (full_push dl di join joinl H f d)
  | PBatch ds | PBatchNp ds => full_batch_push dl di join joinl H f ds
  | PRemove i => Some (f, i <? full_len f)
  | PPrune => Some (f, true)
  end.

Fixpoint run {S O} (step : S -> O -> option (S * bool)) (s : S) (os : list O)
  : option (S * list bool) :=
  match os with
  | [] => Some (s, [])
  | o :: os' =>
      match step s o with
      | None => None
      | Some (s', b) =>
          match run step s' os' with None => None | Some (s'', bs) => Some (s'', b :: bs) end
      end
  end.
End Exec.
