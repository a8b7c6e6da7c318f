(** Trunks and forks that share a tree through counted pointers, fork.rs L37-215 and L622-843,
    over partial trees, with the pointers of manta-util/src/pointer.rs L40-111.

    Simplification: an allocation is a number that is never used again; this is right for
    [Rc] and [Arc], whose memory is not given back while weak pointers to it are left.  The
    only strong pointers that outlive a call are those of trunks ([Trunk] is not [Clone]).
    Calls come one at a time: with [Arc], a push in another thread holds a second strong
    pointer while it runs, which is not modelled.
    The pointer family [NoPointer], whose weak pointers never upgrade, is not modelled.  A
    moved or dropped trunk or fork leaves an empty slot. *)
From Coq Require Import List Arith Bool.
From Verif Require Import MtModel PtModel PtSpec.
Import ListNotations.

Section Trunks.
Context {LD ID : Type}.
Variable dl : LD.
Variable di : ID.
Variable join : ID -> ID -> ID.
Variable joinl : LD -> LD -> ID.
Variable ldeqb : LD -> LD -> bool.
Variable ideqb : ID -> ID -> bool.
Variable H : nat.
Variable chk : bool.

Notation partial := (partial LD ID).
Notation branch := (branch LD ID).

(** fork.rs L37-52: a trunk is a strong pointer to a tree. *)
Record trunk := Trunk { tr_ptr : nat; tr_tree : partial }.

(** fork.rs L622-642: a fork is a weak pointer ([None]: [Weak::new()]) and a branch. *)
Record fork := Fork { fk_base : option nat; fk_branch : branch }.

(** The trunks, the forks, and the next allocation. *)
Record world := World { w_trunks : list (option trunk); w_forks : list (option fork); w_next : nat }.

Definition world_new : world := World [] [] 0.

(** The strong pointers to an allocation. *)
Definition holds (p : nat) (t : option trunk) : bool :=
  match t with Some t => tr_ptr t =? p | None => false end.
Definition strong_count (w : world) (p : nat) : nat := length (filter (holds p) (w_trunks w)).

(** pointer.rs L85-87: [upgrade], with the tree behind the pointer. *)
Definition upgrade (w : world) (b : option nat) : option trunk :=
  match b with
  | None => None
  | Some p => match find (holds p) (w_trunks w) with Some (Some t) => Some t | _ => None end
  end.

(** pointer.rs L75-77: [claim] panics when there is another strong pointer. *)
Definition claim (w : world) (t : trunk) : option partial :=
  if strong_count w (tr_ptr t) =? 1 then Some (tr_tree t) else None.

Definition get_trunk (w : world) (i : nat) : option trunk :=
  match nth_error (w_trunks w) i with Some (Some t) => Some t | _ => None end.
Definition get_fork (w : world) (i : nat) : option fork :=
  match nth_error (w_forks w) i with Some (Some f) => Some f | _ => None end.

Definition put {A} (l : list A) (i : nat) (x : A) : list A := upd l i (fun _ => x).
Definition set_fork (w : world) (i : nat) (f : option fork) : world :=
  World (w_trunks w) (put (w_forks w) i f) (w_next w).
Definition set_trunk (w : world) (i : nat) (t : option trunk) : world :=
  World (put (w_trunks w) i t) (w_forks w) (w_next w).
Definition add_fork (w : world) (f : fork) : world :=
  World (w_trunks w) (w_forks w ++ [Some f]) (w_next w).

(** fork.rs L68-70: [Trunk::new]. *)
Definition add_trunk (w : world) (t : partial) : world :=
  World (w_trunks w ++ [Some (Trunk (w_next w) t)]) (w_forks w) (S (w_next w)).

(** fork.rs L317-343 on the tree of a trunk. *)
Definition branch_at (t : partial) (ds : list LD) : option branch :=
  branch_new dl di join joinl H (pt_len t) (pt_current_leaf t) (pt_current_path dl di ideqb H t) ds.

(** What a caller does. *)
Inductive tkop :=
| KTrunk (os : list (pop LD))            (* a tree with this history becomes a trunk *)
| KFork (t : nat)                        (* Trunk::fork, Fork::new *)
| KWith (t : nat) (ds : list LD)         (* Fork::with_leaves *)
| KDefault                               (* Fork::default *)
| KPush (f : nat) (d : LD)               (* Fork::push *)
| KMaybe (f : nat) (d : option LD)       (* Fork::maybe_push_digest *)
| KBatch (f : nat) (ds : list LD)        (* Fork::batch_maybe_push_digest *)
| KAttach (f t : nat)                    (* Fork::attach, Trunk::attach *)
| KMerge (t f : nat)                     (* Trunk::merge *)
| KTree (t : nat)                        (* Trunk::into_tree *)
| KDrop (f : nat).                       (* a fork goes out of scope *)

(** What they see: nothing of that name (the caller cannot write it), an [Option<bool>], or
    the length of a tree taken out of its trunk. *)
Inductive tkres := RGone | ROpt (b : option bool) | RLen (n : nat).

(** fork.rs L801-807: [Fork::push]. *)
Definition fk_push (w : world) (f : fork) (d : LD) : fork * option bool :=
  match upgrade w (fk_base f) with
  | None => (f, None)
  | Some _ =>
      let '(u, b) := pt_push dl di join joinl H (br_data (fk_branch f)) d in
      (Fork (fk_base f) (Branch (br_contrib (fk_branch f)) u), Some b)
  end.

(** fork.rs L814-825 and L563-569: [Fork::maybe_push_digest] over the inherent method of
    partial.rs L430-447, which asks for the digest only if there is room. *)
Definition fk_maybe (w : world) (f : fork) (d : option LD) : fork * option bool :=
  match upgrade w (fk_base f) with
  | None => (f, None)
  | Some _ =>
      let t := br_data (fk_branch f) in
      if capacity H <=? pt_len t then (f, Some false)
      else match d with
           | None => (f, None)
           | Some d =>
               (Fork (fk_base f) (Branch (br_contrib (fk_branch f)) (fst (pt_push dl di join joinl H t d))), Some true)
           end
  end.

(** fork.rs L832-843 and L545-559: [Fork::batch_maybe_push_digest]; [None]: panic. *)
Definition fk_batch (w : world) (f : fork) (ds : list LD) : option (fork * option bool) :=
  match upgrade w (fk_base f) with
  | None => Some (f, None)
  | Some _ =>
      match pt_batch dl di join joinl H (br_data (fk_branch f)) ds with
      | None => None
      | Some (u, r) => Some (Fork (fk_base f) (Branch (br_contrib (fk_branch f)) u), option_map fst r)
      end
  end.

(** fork.rs L688-699: [Fork::attach]; [None]: panic. *)
Definition fk_attach (f : fork) (t : trunk) : option (fork * bool) :=
  match branch_try_rebase dl di join joinl H (fk_branch f) (pt_len (tr_tree t))
          (pt_current_leaf (tr_tree t)) (pt_current_path dl di ideqb H (tr_tree t)) with
  | None => None
  | Some (b, true) => Some (Fork (Some (tr_ptr t)) b, true)
  | Some (_, false) => Some (f, false)
  end.

(** fork.rs L715-720: [get_attached_base], of which the merge uses the tree. *)
Definition attached_base (w : world) (f : fork) (t : trunk) : option trunk :=
  match upgrade w (fk_base f) with
  | Some b => if tr_ptr b =? tr_ptr t then Some b else None
  | None => None
  end.

(** fork.rs L143-157 [merge_branch] and L579-593 [Branch::merge]: the tree is claimed, extended
    and put behind a new pointer; [None]: panic. *)
Definition tk_merge (w : world) (i : nat) (base : trunk) (f : fork) : option world :=
  match claim w base with
  | None => None
  | Some t =>
      match branch_extract (fk_branch f) with
      | None => None
      | Some ds =>
          match pt_extend dl di join joinl H t ds with
          | Some (Some t') =>
              Some (World (put (w_trunks w) i (Some (Trunk (w_next w) t'))) (w_forks w) (S (w_next w)))
          | _ => None
          end
      end
  end.

(** One call; [None]: panic. *)
Definition tk_step (w : world) (o : tkop) : option (world * tkres) :=
  match o with
  | KTrunk os =>
      match run (pt_step dl di join joinl H chk) pt_new os with
      | None => None
      | Some (t, _) => Some (add_trunk w t, ROpt (Some true))
      end
  | KFork i =>
      match get_trunk w i with
      | None => Some (w, RGone)
      | Some t =>
          match branch_at (tr_tree t) [] with
          | None => None
          | Some b => Some (add_fork w (Fork (Some (tr_ptr t)) b), ROpt (Some true))
          end
      end
  | KWith i ds =>
      match get_trunk w i with
      | None => Some (w, RGone)
      | Some t =>
          match branch_new_checked dl di join joinl H (pt_len (tr_tree t))
                  (pt_current_leaf (tr_tree t)) (pt_current_path dl di ideqb H (tr_tree t)) ds with
          | None => None
          | Some None => Some (w, ROpt None)
          | Some (Some b) => Some (add_fork w (Fork (Some (tr_ptr t)) b), ROpt (Some true))
          end
      end
  | KDefault => Some (add_fork w (Fork None (Branch 0 pt_new)), ROpt (Some true))
  | KPush j d =>
      match get_fork w j with
      | None => Some (w, RGone)
      | Some f => let '(f', r) := fk_push w f d in Some (set_fork w j (Some f'), ROpt r)
      end
  | KMaybe j d =>
      match get_fork w j with
      | None => Some (w, RGone)
      | Some f => let '(f', r) := fk_maybe w f d in Some (set_fork w j (Some f'), ROpt r)
      end
  | KBatch j ds =>
      match get_fork w j with
      | None => Some (w, RGone)
      | Some f =>
          match fk_batch w f ds with
          | None => None
          | Some (f', r) => Some (set_fork w j (Some f'), ROpt r)
          end
      end
  | KAttach j i =>
      match get_fork w j, get_trunk w i with
      | Some f, Some t =>
          match fk_attach f t with
          | None => None
          | Some (f', b) => Some (set_fork w j (Some f'), ROpt (Some b))
          end
      | _, _ => Some (w, RGone)
      end
  | KMerge i j =>                                       (* fork.rs L121-139 *)
      match get_trunk w i, get_fork w j with
      | Some t, Some f =>
          match attached_base w f t with
          | None => Some (w, ROpt (Some false))
          | Some base =>
              match tk_merge w i base f with
              | None => None
              | Some w' => Some (set_fork w' j None, ROpt (Some true))
              end
          end
      | _, _ => Some (w, RGone)
      end
  | KTree i =>                                          (* fork.rs L79-81 *)
      match get_trunk w i with
      | None => Some (w, RGone)
      | Some t =>
          match claim w t with
          | None => None
          | Some u => Some (set_trunk w i None, RLen (pt_len u))
          end
      end
  | KDrop j =>
      match get_fork w j with
      | None => Some (w, RGone)
      | Some _ => Some (set_fork w j None, ROpt (Some true))
      end
  end.

Fixpoint tk_run (w : world) (os : list tkop) : option (world * list tkres) :=
  match os with
  | [] => Some (w, [])
  | o :: r =>
      match tk_step w o with
      | None => None
      | Some (w1, x) => match tk_run w1 r with Some (w2, xs) => Some (w2, x :: xs) | None => None end
      end
  end.

(** ** What a fork reports *)

(** fork.rs L703-711: [is_attached], [is_attached_to]. *)
Definition is_attached (w : world) (f : fork) : bool :=
  match upgrade w (fk_base f) with Some _ => true | None => false end.
Definition is_attached_to (w : world) (f : fork) (t : trunk) : bool :=
  match upgrade w (fk_base f) with Some b => tr_ptr b =? tr_ptr t | None => false end.

(** fork.rs L731-745: [len], [root]. *)
Definition fk_len (f : fork) : nat := pt_len (br_data (fk_branch f)).
Definition fk_root (f : fork) : ID := pt_root di (br_data (fk_branch f)).

(** fork.rs L755-764: [position]. *)
Definition fk_position (w : world) (f : fork) (d : LD) : option nat :=
  match pt_position ldeqb (br_data (fk_branch f)) d with
  | Some i => Some i
  | None => match upgrade w (fk_base f) with Some t => pt_position ldeqb (tr_tree t) d | None => None end
  end.

(** fork.rs L783-794: [path].  Outer [None]: panic; inner [None]: [Err], which includes
    [MissingPath] for a leaf of the trunk when the fork is detached. *)
Definition fk_path (w : world) (f : fork) (i : nat) : option (option (path LD ID)) :=
  branch_path dl di join joinl H chk (fk_branch f) i
    (match upgrade w (fk_base f) with Some t => pt_path dl di H (tr_tree t) i | None => None end).
End Trunks.
Arguments world LD ID : clear implicits.
Arguments trunk LD ID : clear implicits.
Arguments fork LD ID : clear implicits.
Arguments tkop LD : clear implicits.
Arguments KTrunk {LD}. Arguments KFork {LD}. Arguments KWith {LD}. Arguments KDefault {LD}.
Arguments KPush {LD}. Arguments KMaybe {LD}. Arguments KBatch {LD}. Arguments KAttach {LD}.
Arguments KMerge {LD}. Arguments KTree {LD}. Arguments KDrop {LD}.
Arguments world_new {LD ID}.
