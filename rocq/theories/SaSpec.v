(** * What is asked of the selection, for C87 *)
From Coq Require Import List Arith.
Import ListNotations.

(** A list without the elements at the given places, counted from [k]. *)
Fixpoint without {T} (k : nat) (ds : list nat) (l : list T) : list T :=
  match l with
  | [] => []
  | x :: t => if existsb (Nat.eqb k) ds then without (S k) ds t else x :: without (S k) ds t
  end.

(** The items from one iterator, in the order in which they were returned. *)
Definition from {A} (i : nat) (l : list (nat * A)) : list A := map snd (filter (fun x => fst x =? i) l).
