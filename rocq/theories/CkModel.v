(** Checkpoints of the signer and the pruning of ledger replies.

    Sources: manta-pay/src/config/utxo.rs L2017-2063 (the structure and its derived order),
    manta-pay/src/signer/base.rs L96-206 (the updates and [prune]) and
    manta-accounting/src/wallet/signer/functions.rs L955-985 (prune_sync_request).

    Simplifications: counters are [nat], so the 64-bit overflow of [usize] counters is not
    represented; the array of 256 counters is a list of any length; the shard of an item is a
    function [sh] of the utxo (item_hash followed by tree_index). *)

From Coq Require Import List Arith Bool.
Import ListNotations.

(** config/utxo.rs L2024-2030: [receiver_index] is an array with one counter per shard. *)
Record ckpt : Type := mk_ckpt { recv : list nat ; send : nat }.

(** The derived [Ord] of [Array<usize, _>] (the order of arrays is the order of slices:
    lexicographic, config/utxo.rs L2023 and manta-util/src/array.rs L247-256). *)
Fixpoint lex_cmp (a b : list nat) : comparison :=
  match a, b with
  | [], [] => Eq
  | [], _ :: _ => Lt
  | _ :: _, [] => Gt
  | x :: a', y :: b' => match x ?= y with Eq => lex_cmp a' b' | c => c end
  end.

(** config/utxo.rs L2023: derived [Ord] compares the fields in order of declaration. *)
Definition ck_cmp (a b : ckpt) : comparison :=
  match lex_cmp (recv a) (recv b) with
  | Eq => send a ?= send b
  | c => c
  end.

Definition ck_ltb (a b : ckpt) : bool := match ck_cmp a b with Lt => true | _ => false end.
Definition ck_leb (a b : ckpt) : bool := match ck_cmp a b with Gt => false | _ => true end.

(** A call either returns or panics. *)
Inductive res (A : Type) : Type := Ret (a : A) | Panic.
Arguments Ret {A} _.
Arguments Panic {A}.

(** [receiver_index\[i\] += 1]; base.rs L153.  The code indexes an array of 256 by a byte, so
    an index out of range cannot occur there; here it leaves the list alone. *)
Fixpoint bump (l : list nat) (i : nat) : list nat :=
  match l, i with
  | [], _ => []
  | x :: r, 0 => S x :: r
  | x :: r, S j => x :: bump r j
  end.

(** base.rs L102-104. *)
Definition update_from_nullifiers (c : ckpt) (count : nat) : ckpt :=
  mk_ckpt (recv c) (send c + count).

(** base.rs L107-114; [lens] are the lengths of the trees of the accumulator. *)
Definition update_from_utxo_accumulator (c : ckpt) (lens : list nat) : ckpt :=
  mk_ckpt (map (fun p => Nat.max (fst p) (snd p)) (combine (recv c) lens)) (send c).

(** base.rs L117-130; the [assert_eq!] is a panic. *)
Definition update_from_utxo_count (c : ckpt) (count : list nat) : res ckpt :=
  if length count =? length (recv c)
  then Ret (mk_ckpt (map (fun p => fst p + snd p) (combine (recv c) count)) (send c))
  else Panic.

Section Prune.
  (** [U]: a utxo with its note; [V]: a nullifier; [sh]: shard of a utxo. *)
  Variables U V : Type.
  Variable sh : U -> nat.

  (** wallet/signer/mod.rs L355-365 SyncData. *)
  Record sdata : Type := mk_sdata { notes : list U ; nulls : list V }.

  (** base.rs L169-179: [BTreeMap<u8, Vec<_>>]: append to the entry or create it.  The order
      of the keys is never used (only lookups by key), so the map is an association list. *)
  Fixpoint dm_push (k : nat) (u : U) (m : list (nat * list U)) : list (nat * list U) :=
    match m with
    | [] => [(k, [u])]
    | (k', l) :: r => if k =? k' then (k', l ++ [u]) :: r else (k', l) :: dm_push k u r
    end.

  (** [BTreeMap::remove]; base.rs L188. *)
  Fixpoint dm_remove (k : nat) (m : list (nat * list U))
    : option (list U) * list (nat * list U) :=
    match m with
    | [] => (None, [])
    | (k', l) :: r =>
        if k =? k' then (Some l, r)
        else let '(o, r') := dm_remove k r in (o, (k', l) :: r')
    end.

  (** base.rs L169-179, the grouping loop. *)
  Fixpoint dm_group (us : list U) (m : list (nat * list U)) : list (nat * list U) :=
    match us with
    | [] => m
    | u :: r => dm_group r (dm_push (sh u) u m)
    end.

  (** base.rs L180-203: the loop over the shards, [i] is the enumeration index, [acc] the
      notes kept so far. *)
  Fixpoint prune_shards (i : nat) (zipped : list (nat * nat)) (m : list (nat * list U))
      (acc : list U) (pruned : bool) : res (bool * list U) :=
    match zipped with
    | [] => Ret (pruned, acc)
    | (origin_index, index) :: r =>
        if index <? origin_index then Panic
        else
          let diff := index - origin_index in
          match dm_remove i m with
          | (Some entries, m') =>
              prune_shards (S i) r m' (acc ++ skipn diff entries) (pruned || (0 <? diff))
          | (None, m') => prune_shards (S i) r m' acc pruned
          end
    end.

  (** base.rs L148-154: the origin advanced by the batch. *)
  Definition updated_origin (origin : ckpt) (d : sdata) : ckpt :=
    mk_ckpt (fold_left (fun l u => bump l (sh u)) (notes d) (recv origin))
            (send origin + length (nulls d)).

  (** base.rs L138-206 Checkpoint::prune.  [drain(0..diff)] panics when [diff] exceeds the
      length. *)
  Definition prune (d : sdata) (origin signer : ckpt) : res (bool * sdata) :=
    if ck_leb signer origin then Ret (false, d)
    else if ck_ltb (updated_origin origin d) signer then Ret (true, mk_sdata [] [])
    else if send signer <? send origin then Panic
    else
      let diff := send signer - send origin in
      if length (nulls d) <? diff then Panic
      else
        let nulls' := skipn diff (nulls d) in
        match prune_shards 0 (combine (recv origin) (recv signer)) (dm_group (notes d) [])
                [] (0 <? diff) with
        | Ret (pruned, notes') => Ret (pruned, mk_sdata notes' nulls')
        | Panic => Panic
        end.

  (** functions.rs L957-983 prune_sync_request: [None] is the error
      InconsistentSynchronization. *)
  Definition prune_sync_request (signer : ckpt) (origin : ckpt) (d : sdata)
    : res (option (bool * sdata)) :=
    if ck_ltb signer origin then Ret None
    else match prune d origin signer with
         | Ret x => Ret (Some x)
         | Panic => Panic
         end.
End Prune.

Arguments mk_sdata {U V} _ _.
Arguments notes {U V} _.
Arguments nulls {U V} _.
Arguments dm_push {U} _ _ _.
Arguments dm_remove {U} _ _.
Arguments dm_group {U} _ _ _.
Arguments prune_shards {U} _ _ _ _ _.
Arguments updated_origin {U V} _ _ _.
Arguments prune {U V} _ _ _ _.
Arguments prune_sync_request {U V} _ _ _ _.
