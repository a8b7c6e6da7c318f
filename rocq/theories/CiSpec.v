(** What the constraints of a transfer have to guarantee: what a utxo holds, and what a post pays
    into and out of the private pool. *)
From Coq Require Import List Arith NArith Bool.
From Verif Require Import LgModel LgSpec CiModel.
Import ListNotations.
Open Scope nat_scope.

(** The utxo holds the asset for the receiving key: a transparent utxo shows it and commits to
    nothing but the key, an opaque one commits to it. *)
Definition holds {G CR CMT} (ucommit : CR -> N -> N -> G -> CMT) (u : utxo CMT) (rk : G) (a : casset) : Prop :=
  exists rand,
    if ut_tr u then a = ut_pub u /\ ut_com u = ucommit rand 0%N 0%N rk
    else a <> (0%N, 0%N) /\ ut_com u = ucommit rand (fst a) (snd a) rk.

Section Pool.
Context {CM ON UT NT ID KEY SG PRF : Type}.
Local Open Scope N_scope.

(** What a post pays into and out of the private pool, of the asset [a]. *)
Definition paid_in (a : N) (q : post CM ON UT NT ID KEY SG PRF) : N :=
  match b_asset (p_body q) with
  | Some i => if N.eqb i a then nsum (b_sources (p_body q)) else 0
  | None => 0
  end.
Definition paid_out (a : N) (q : post CM ON UT NT ID KEY SG PRF) : N :=
  match b_asset (p_body q) with
  | Some i => if N.eqb i a then nsum (b_sinks (p_body q)) else 0
  | None => 0
  end.
Definition total_in (a : N) (qs : list (post CM ON UT NT ID KEY SG PRF)) : N := nsum (map (paid_in a) qs).
Definition total_out (a : N) (qs : list (post CM ON UT NT ID KEY SG PRF)) : N := nsum (map (paid_out a) qs).
End Pool.

(** The amount of an asset in a list of notes with what they hold. *)
Definition holding {U} (i : N) (l : list (U * casset)) : N := amount_of i (map snd l).
