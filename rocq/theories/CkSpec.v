(** What pruning a ledger reply has to do, stated without the functions of [CkModel]. *)

From Coq Require Import List Arith Bool.
From Verif Require Import CkModel.
Import ListNotations.

(** The ledger numbers the items of each shard.  A reply that starts at [origin] lists items;
    [pos] is the number of items of a shard that precede the current point. *)
Section Spec.
  Variables U V : Type.
  Variable sh : U -> nat.

  (** The items whose number in their shard is at least the signer's counter. *)
  Fixpoint unseen (signer pos : nat -> nat) (us : list U) : list U :=
    match us with
    | [] => []
    | u :: r =>
        let i := sh u in
        let rest := unseen signer (fun j => if j =? i then S (pos j) else pos j) r in
        if signer i <=? pos i then u :: rest else rest
    end.

  (** Same for the global sequence of nullifiers. *)
  Fixpoint unseen_nulls (signer pos : nat) (vs : list V) : list V :=
    match vs with
    | [] => []
    | v :: r => if signer <=? pos then v :: unseen_nulls signer (S pos) r
                else unseen_nulls signer (S pos) r
    end.

  (** The items of one shard, in the order of the list. *)
  Definition of_shard (i : nat) (us : list U) : list U := filter (fun u => sh u =? i) us.
End Spec.

Arguments unseen {U} _ _ _ _.
Arguments unseen_nulls {V} _ _ _.
Arguments of_shard {U} _ _ _.

(** The counter of a shard. *)
Definition at_shard (c : ckpt) (i : nat) : nat := nth i (recv c) 0.

(** A checkpoint is at least another one in every counter. *)
Definition covers (a b : ckpt) : Prop :=
  length (recv a) = length (recv b) /\
  (forall i, at_shard b i <= at_shard a i) /\ send b <= send a.

(** The number of items of a shard in a list. *)
Definition count_shard {U} (sh : U -> nat) (i : nat) (us : list U) : nat :=
  length (of_shard sh i us).

(** [c] is [origin] advanced by a batch. *)
Definition advanced {U V} (sh : U -> nat) (origin : ckpt) (d : sdata U V) (c : ckpt) : Prop :=
  length (recv c) = length (recv origin) /\
  (forall i, i < length (recv origin) ->
     at_shard c i = at_shard origin i + count_shard sh i (notes d)) /\
  send c = send origin + length (nulls d).

(** The pruned batch is the unseen part of the batch: same nullifiers, the same notes up to a
    reordering that keeps the order inside every shard. *)
Definition pruned_right {U V} (sh : U -> nat) (origin signer : ckpt) (d d' : sdata U V) : Prop :=
  nulls d' = unseen_nulls (send signer) (send origin) (nulls d) /\
  forall i, of_shard sh i (notes d') =
            of_shard sh i (unseen sh (at_shard signer) (at_shard origin) (notes d)).
