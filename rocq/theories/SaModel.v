(** * Selection from iterators in parallel
    Source: manta-util/src/iter/select_all.rs.

    Threads, channels and the pool of rayon are a transition system whose labels say what happens next. The
    channels of crossbeam are lists; [Select::ready] may return any channel that has not been removed, also one for which
    there is nothing to do (the last arm, line 164). The queue of tasks is a set: in which order they are taken is left open.
    It has room for all tasks (line 99), so that sending to it does not block. A thread of the pool that waits for a channel does no other job. *)
From Coq Require Import List Arith Bool.
Import ListNotations.

(** Lines 149-153: the indices to drop, from the largest, each once. *)
Fixpoint insert_desc (d : nat) (l : list nat) : list nat :=
  match l with
  | [] => [d]
  | e :: t => if e <=? d then d :: l else e :: insert_desc d t
  end.
Definition sort_desc (l : list nat) : list nat := fold_right insert_desc [] l.
Fixpoint dedup (l : list nat) : list nat :=
  match l with
  | d :: (e :: _) as t => if d =? e then dedup t else d :: dedup t
  | _ => l
  end.
(** [Vec::remove], which panics for an index that is too large. *)
Definition remove_at {T} (n : nat) (l : list T) : option (list T) :=
  if n <? length l then Some (firstn n l ++ skipn (S n) l) else None.
Fixpoint remove_each {T} (ds : list nat) (l : list T) : option (list T) :=
  match ds with
  | [] => Some l
  | d :: ds => match remove_at d l with Some l => remove_each ds l | None => None end
  end.
Definition drop_receivers {T} (drop : list nat) (l : list T) : option (list T) := remove_each (dedup (sort_desc drop)) l.

(** Where the task of an iterator is: in the queue, spawned in the pool, running, running after it has sent its
    item, or dropped together with its sender. *)
Inductive place := Queued | Spawned | Running | Sent | Gone.
Inductive listener := Waiting | Listening | Closed.

Section Select.
Context {A : Type}.
(** The number of iterators; the threads of the pool, and how many of them the consumer takes: one if it runs in the pool. *)
Variables iterators threads consumer : nat.

(** The items an iterator still has and those in its channel; [receivers] of the iterator (lines 71-76), as numbers of
    channels; [drop_indices] of a call of [next] (line 140); the items returned; whether [None] was. *)
Record state := State {
  left : nat -> list A; at_place : nat -> place; channel : nat -> list A; listening : listener;
  receivers : list nat; drop_indices : list nat; returned : list (nat * A); ended : bool
}.
Definition set {T} (f : nat -> T) (i : nat) (v : T) : nat -> T := fun j => if j =? i then v else f j.

(** [spawn], lines 89-116: each task is in the queue, and the listener is a job of the pool. *)
Definition spawned (items : nat -> list A) : state :=
  State items (fun _ => Queued) (fun _ => []) Waiting (seq 0 iterators) [] [] false.

Definition runs (p : place) : nat := match p with Running | Sent => 1 | _ => 0 end.
Definition busy (s : state) : nat :=
  consumer + (match listening s with Listening => 1 | _ => 0 end) + list_sum (map (fun i => runs (at_place s i)) (seq 0 iterators)).

Inductive label := Listen | Take (i : nat) | Close | Start (i : nat) | Work (i : nat) | Requeue (i : nat) | Poll (j : nat) | End.

Definition gone (p : place) : bool := match p with Gone => true | _ => false end.
Definition member (i : nat) (l : list nat) : bool := existsb (Nat.eqb i) l.
Definition move (s : state) (i : nat) (p : place) : state :=
  State (left s) (set (at_place s) i p) (channel s) (listening s) (receivers s) (drop_indices s) (returned s) (ended s).
Definition listen (s : state) (l : listener) : state :=
  State (left s) (at_place s) (channel s) l (receivers s) (drop_indices s) (returned s) (ended s).

(** Lines 62-68: [send] fails if the receiver is dropped. *)
Definition send_next (s : state) (i : nat) : state :=
  match left s i with
  | [] => move s i Gone
  | x :: r =>
      if member i (receivers s) then
        State (set (left s) i r) (set (at_place s) i Sent) (set (channel s) i (channel s i ++ [x]))
          (listening s) (receivers s) (drop_indices s) (returned s) (ended s)
      else State (set (left s) i r) (set (at_place s) i Gone) (channel s) (listening s) (receivers s) (drop_indices s) (returned s) (ended s)
  end.

(** One turn of the loop of [next], lines 145-166, with the index that is ready. *)
Definition poll (s : state) (j : nat) : option state :=
  match nth_error (receivers s) j with
  | None => None
  | Some c =>
      match channel s c with
      | x :: b =>
          match drop_receivers (drop_indices s) (receivers s) with
          | Some rs => Some (State (left s) (at_place s) (set (channel s) c b) (listening s) rs [] (returned s ++ [(c, x)]) (ended s))
          | None => None
          end
      | [] =>
          if gone (at_place s c) then
            let ds := drop_indices s ++ [j] in
            if length ds =? length (receivers s)
            then Some (State (left s) (at_place s) (channel s) (listening s) [] [] (returned s) true)
            else Some (State (left s) (at_place s) (channel s) (listening s) (receivers s) ds (returned s) (ended s))
          else Some s
      end
  end.

(** What can happen: [None] if it cannot. *)
Definition exec (l : label) (s : state) : option state :=
  match l with
  | Listen => (* line 110: a thread takes the job *)
      match listening s with
      | Waiting => if busy s <? threads then Some (listen s Listening) else None
      | _ => None
      end
  | Take i => (* lines 111-112 *)
      match listening s, at_place s i with
      | Listening, Queued => if i <? iterators then Some (move s i Spawned) else None
      | _, _ => None
      end
  | Close => (* line 111: no sender of the queue is left *)
      match listening s with
      | Listening => if forallb (fun i => gone (at_place s i)) (seq 0 iterators) then Some (listen s Closed) else None
      | _ => None
      end
  | Start i => (* line 112: a thread takes the job *)
      match at_place s i with
      | Spawned => if (i <? iterators) && (busy s <? threads) then Some (move s i Running) else None
      | _ => None
      end
  | Work i => (* lines 63-64 *)
      match at_place s i with
      | Running => if i <? iterators then Some (send_next s i) else None
      | _ => None
      end
  | Requeue i => (* line 65 *)
      match at_place s i with
      | Sent => if i <? iterators then Some (move s i Queued) else None
      | _ => None
      end
  | Poll j => (* line 146; the removed ones, line 158, are not ready again *)
      if ended s || member j (drop_indices s) then None else poll s j
  | End => (* lines 136-139 *)
      match receivers s with
      | [] => if ended s then None else
          Some (State (left s) (at_place s) (channel s) (listening s) [] [] (returned s) true)
      | _ => None
      end
  end.

Fixpoint run (ls : list label) (s : state) : option state :=
  match ls with
  | [] => Some s
  | l :: ls => match exec l s with Some s => run ls s | None => None end
  end.
End Select.
