(** Specification of Merkle roots, independent of the tree data structures. *)
From Coq Require Import List Arith.
Import ListNotations.

Section Spec.
Context {LD ID : Type}.
Variable dl : LD.
Variable di : ID.
Variable join : ID -> ID -> ID.
Variable joinl : LD -> LD -> ID.

(** Digest of the complete binary subtree whose leaves are the first [2^(k+1)]
    elements of [l], missing leaves being the default leaf; a subtree without any
    leaf has the default digest. *)
Fixpoint tree_digest (k : nat) (l : list LD) : ID :=
  match l with
  | [] => di
  | a :: r =>
      match k with
      | 0 => joinl a (match r with [] => dl | b :: _ => b end)
      | S k' => join (tree_digest k' (firstn (2 ^ k) l)) (tree_digest k' (skipn (2 ^ k) l))
      end
  end.

(** The root of a tree of height [H] (so with [2^(H-1)] leaves). *)
Definition spec_root (H : nat) (l : list LD) : ID := tree_digest (H - 2) l.

(** Recomputing a root from a leaf, its index and the sibling digests, bottom-up. *)
Fixpoint climb (i : nat) (acc : ID) (ds : list ID) : ID :=
  match ds with
  | [] => acc
  | d :: ds' =>
      if Nat.even (i / 2) then climb (i / 2) (join acc d) ds'
      else climb (i / 2) (join d acc) ds'
  end.

Definition spec_path_root (i : nat) (leaf sib : LD) (ds : list ID) : ID :=
  climb i (if Nat.even i then joinl leaf sib else joinl sib leaf) ds.

(** The leaves a tree of height [H] keeps when [ds] are offered to it in order. *)
Definition spec_accept (H : nat) (l ds : list LD) : list LD :=
  l ++ firstn (2 ^ (H - 1) - length l) ds.

End Spec.
