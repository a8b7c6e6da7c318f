(** The reference for trunks and forks: plain lists of leaves and version numbers. *)
From Coq Require Import List Arith Bool.
From Verif Require Import MtModel MtSpec MtHist PtModel PtSpec FkSpec FkProps TkModel.
Import ListNotations.

Section Spec.
Context {LD : Type}.
Variable H : nat.

(** A trunk: its version, its leaves with the mark of those that nobody will prove, and
    whether its inner nodes are settled. *)
Record strunk := STrunk { st_version : nat; st_items : list (bool * LD); st_ok : bool }.

(** A fork: the version of the trunk that it was made from ([None]: never any), the leaves of
    that trunk, and its own leaves. *)
Record sfork := SFork { sf_version : option nat; sf_base : list (bool * LD); sf_own : list LD; sf_ok : bool }.

Record sworld := SWorld { s_trunks : list (option strunk); s_forks : list (option sfork); s_next : nat }.
Definition sworld_new : sworld := SWorld [] [] 0.

Definition strunk_at (s : sworld) (i : nat) : option strunk :=
  match nth_error (s_trunks s) i with Some x => x | None => None end.
Definition sfork_at (s : sworld) (i : nat) : option sfork :=
  match nth_error (s_forks s) i with Some x => x | None => None end.

(** A fork is attached when the version it was made from is still that of a trunk. *)
Definition current (s : sworld) (v : nat) : bool :=
  existsb (fun t => match t with Some t => st_version t =? v | None => false end) (s_trunks s).
Definition attached (s : sworld) (f : sfork) : bool :=
  match sf_version f with Some v => current s v | None => false end.

Definition room (n : nat) : nat := 2 ^ (H - 1) - n.
Definition sf_len (f : sfork) : nat := length (sf_base f) + length (sf_own f).

(** The leaves of a fork, with those of its trunk. *)
Definition sf_items (f : sfork) : list (bool * LD) := sf_base f ++ map (fun x => (false, x)) (sf_own f).

(** New leaves in an attached fork. *)
Definition grow (f : sfork) (o : top LD) : sfork :=
  SFork (sf_version f) (sf_base f) (sf_own f ++ firstn (room (sf_len f)) (top_items o))
    (snd (settle H (sf_len f, sf_ok f) o)).

Definition replace {A} (l : list A) (i : nat) (x : A) : list A := firstn i l ++ x :: skipn (S i) l.
Definition put_fork (s : sworld) (j : nat) (f : option sfork) : sworld :=
  SWorld (s_trunks s) (replace (s_forks s) j f) (s_next s).
Definition put_trunk (s : sworld) (i : nat) (t : option strunk) : sworld :=
  SWorld (replace (s_trunks s) i t) (s_forks s) (s_next s).
Definition new_fork (s : sworld) (f : sfork) : sworld :=
  SWorld (s_trunks s) (s_forks s ++ [Some f]) (s_next s).

(** The fork of a trunk with some leaves of its own. *)
Definition fork_of (t : strunk) (ds : list LD) : sfork := SFork (Some (st_version t)) (st_items t) ds true.

(** The first leaf that a fork holds itself: the left one of the last pair of its trunk. *)
Definition first_held (n : nat) : nat := 2 * ((n - 1) / 2).

(** One call, with its result; [None]: the code panics. *)
Definition s_step (s : sworld) (o : tkop LD) : option (sworld * tkres) :=
  match o with
  | KTrunk os =>
      Some (SWorld (s_trunks s ++ [Some (STrunk (s_next s) (base_items H os) (settled H (inserts os)))])
              (s_forks s) (S (s_next s)), ROpt (Some true))
  | KFork i =>
      match strunk_at s i with
      | None => Some (s, RGone)
      | Some t => Some (new_fork s (fork_of t []), ROpt (Some true))
      end
  | KWith i ds =>
      match strunk_at s i with
      | None => Some (s, RGone)
      | Some t =>
          if length (st_items t) + length ds <? 2 ^ (H - 1)
          then Some (new_fork s (fork_of t ds), ROpt (Some true))
          else Some (s, ROpt None)
      end
  | KDefault => Some (new_fork s (SFork None [] [] true), ROpt (Some true))
  | KPush j d =>
      match sfork_at s j with
      | None => Some (s, RGone)
      | Some f =>
          if attached s f
          then Some (put_fork s j (Some (grow f (TPush d))), ROpt (Some (0 <? room (sf_len f))))
          else Some (s, ROpt None)
      end
  | KMaybe j od =>
      match sfork_at s j with
      | None => Some (s, RGone)
      | Some f =>
          if attached s f then
            if room (sf_len f) =? 0 then Some (s, ROpt (Some false))
            else match od with
                 | None => Some (s, ROpt None)
                 | Some d => Some (put_fork s j (Some (grow f (TPush d))), ROpt (Some true))
                 end
          else Some (s, ROpt None)
      end
  | KBatch j ds =>
      match sfork_at s j with
      | None => Some (s, RGone)
      | Some f =>
          if attached s f && (0 <? length ds)
          then Some (put_fork s j (Some (grow f (TBatch ds))), ROpt (Some (length ds <=? room (sf_len f))))
          else Some (s, ROpt None)
      end
  | KAttach j i =>
      match sfork_at s j, strunk_at s i with
      | Some f, Some t =>
          if first_held (length (sf_base f)) + length (sf_own f) + length (st_items t) <? 2 ^ (H - 1)
          then Some (put_fork s j (Some (fork_of t (sf_own f))), ROpt (Some true))
          else Some (s, ROpt (Some false))
      | _, _ => Some (s, RGone)
      end
  | KMerge i j =>
      match strunk_at s i, sfork_at s j with
      | Some t, Some f =>
          match sf_version f with
          | Some v =>
              if v =? st_version t then
                if sf_len f <? 2 ^ (H - 1) then
                  Some (SWorld (replace (s_trunks s) i (Some (STrunk (s_next s)
                                 (st_items t ++ map (fun x => (true, x)) (sf_own f))
                                 (match sf_own f with [] => st_ok t | _ => true end))))
                          (replace (s_forks s) j None) (S (s_next s)), ROpt (Some true))
                else None
              else Some (s, ROpt (Some false))
          | None => Some (s, ROpt (Some false))
          end
      | _, _ => Some (s, RGone)
      end
  | KTree i =>
      match strunk_at s i with
      | None => Some (s, RGone)
      | Some t => Some (put_trunk s i None, RLen (length (st_items t)))
      end
  | KDrop j =>
      match sfork_at s j with
      | None => Some (s, RGone)
      | Some _ => Some (put_fork s j None, ROpt (Some true))
      end
  end.

Fixpoint s_run (s : sworld) (os : list (tkop LD)) : option (sworld * list tkres) :=
  match os with
  | [] => Some (s, [])
  | o :: r =>
      match s_step s o with
      | None => None
      | Some (s1, x) => match s_run s1 r with Some (s2, xs) => Some (s2, x :: xs) | None => None end
      end
  end.
End Spec.
Arguments strunk LD : clear implicits.
Arguments sfork LD : clear implicits.
Arguments sworld LD : clear implicits.
