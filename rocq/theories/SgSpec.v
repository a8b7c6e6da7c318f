(** What synchronising has to do, stated on the ledger: the notes of every shard and the
    nullifiers, of which a signer has seen the first ones. *)
From Coq Require Import List Arith NArith Bool.
From Verif Require Import AssetModel CkModel CkSpec.
Import ListNotations.
Open Scope nat_scope.

Section Spec.
Context {UT NT NF : Type}.
Variable open_note : UT -> NT -> option (N * asset).
Variable spend_null : N -> asset -> NF.
Variable nsh : UT * NT -> nat.    (* shard of a note *)

(** A ledger: the notes of every shard and the nullifiers, in their order. *)
Record ledger := mk_ledger { l_notes : list (list (UT * NT)) ; l_nulls : list NF }.

Definition l_shard (L : ledger) (i : nat) : list (UT * NT) := nth i (l_notes L) [].

(** The part of the ledger that a checkpoint counts. *)
Definition seen_notes (L : ledger) (c : ckpt) : list (UT * NT) :=
  flat_map (fun i => firstn (at_shard c i) (l_shard L i)) (seq 0 (length (l_notes L))).
Definition seen_nulls (L : ledger) (c : ckpt) : list NF := firstn (send c) (l_nulls L).

(** Notes that can be opened: identifier and asset. *)
Definition received (us : list (UT * NT)) : list (N * asset) :=
  flat_map (fun un => match open_note (fst un) (snd un) with Some r => [r] | None => [] end) us.

Definition null_of (r : N * asset) : NF := spend_null (fst r) (snd r).

(** The notes that can be opened and whose nullifier is not among the nullifiers seen. *)
Definition unspent (nfeqb : NF -> NF -> bool) (L : ledger) (c : ckpt) : list (N * asset) :=
  filter (fun r => negb (existsb (nfeqb (null_of r)) (seen_nulls L c))) (received (seen_notes L c)).

(** [d] is a reply of the ledger to a request that starts at [origin]. *)
Definition reply (L : ledger) (origin : ckpt) (d : sdata (UT * NT) NF) : Prop :=
  length (recv origin) = length (l_notes L) /\
  (forall u, In u (notes d) -> nsh u < length (l_notes L)) /\
  (forall i, i < length (l_notes L) ->
     exists rest, skipn (at_shard origin i) (l_shard L i) = of_shard nsh i (notes d) ++ rest) /\
  exists rest, skipn (send origin) (l_nulls L) = nulls d ++ rest.

(** The checkpoint after a reply: in every counter the larger of the signer's and the end of
    the reply. *)
Definition ck_after (s origin : ckpt) (d : sdata (UT * NT) NF) (c : ckpt) : Prop :=
  length (recv c) = length (recv s) /\
  (forall i, i < length (recv s) ->
     at_shard c i = Nat.max (at_shard s i) (at_shard origin i + count_shard nsh i (notes d))) /\
  send c = Nat.max (send s) (send origin + length (nulls d)).

(** The signer is not behind the origin, and its checkpoint and the end of the reply are
    ordered in every counter (the condition of C19). *)
Definition in_step (s origin : ckpt) (d : sdata (UT * NT) NF) : Prop :=
  covers s origin /\
  forall last, advanced nsh origin d last -> covers s last \/ covers last s.

(** The shards hold their own notes; the notes that can be opened have different nullifiers and
    different items (the ledger refuses a utxo twice; see the ledger model), their nullifiers can be
    opened, deriving a spend of the opened asset gives the item of the note (what
    open_with_check checks), and values are 128-bit numbers. *)
Record ledger_ok {LD IT} (dg : IT -> LD) (item : UT -> IT) (spend_item : N -> asset -> IT)
    (can_open : NF -> bool) (L : ledger) : Prop := {
  lo_shard : forall i u, In u (l_shard L i) -> nsh u = i;
  lo_nulls : NoDup (map null_of (received (concat (l_notes L))));
  lo_items : NoDup (map (fun r => dg (spend_item (fst r) (snd r))) (received (concat (l_notes L))));
  lo_open : forall r, In r (received (concat (l_notes L))) -> can_open (null_of r) = true;
  lo_spend : forall u n k a, In (u, n) (concat (l_notes L)) -> open_note u n = Some (k, a) ->
    spend_item k a = item u;
  lo_value : forall r, In r (received (concat (l_notes L))) -> (snd (snd r) <= vmax)%N }.

End Spec.

Arguments mk_ledger {UT NT NF}.
Arguments l_notes {UT NT NF}.
Arguments l_nulls {UT NT NF}.
Arguments ledger : clear implicits.
