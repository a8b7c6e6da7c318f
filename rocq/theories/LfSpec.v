(** What C72 is about: sequences of bits with the recurrence of the register. *)
From Coq Require Import List Arith NArith Bool.
Import ListNotations.

(** The recurrence of GKRRS19, appendix A. *)
Definition grain (x : nat -> bool) : Prop := forall n,
  x (n + 80) = xorb (x (n + 62)) (xorb (x (n + 51)) (xorb (x (n + 38)) (xorb (x (n + 23)) (xorb (x (n + 13)) (x n))))).

(** Bits are taken in pairs: the second is delivered when the first is set. *)
Inductive shrunk (x : nat -> bool) : nat -> list bool -> nat -> Prop :=
| sh_nil n : shrunk x n [] n
| sh_skip n bs e : x n = false -> shrunk x (n + 2) bs e -> shrunk x n bs e
| sh_take n bs e : x n = true -> shrunk x (n + 2) bs e -> shrunk x n (x (n + 1) :: bs) e.

(** The number with given binary digits, the highest first. *)
Fixpoint number (bits : list bool) : N :=
  match bits with
  | [] => 0
  | b :: bits => (if b then 2 ^ N.of_nat (length bits) else 0) + number bits
  end%N.

(** The binary digits of a number in [n] places. *)
Definition digits (n : nat) (v : N) : list bool := map (fun i => N.testbit v (N.of_nat (n - 1 - i))) (seq 0 n).

(** The seed of GKRRS19: field and S-box, bits of the modulus, width, full and partial rounds, ones. *)
Definition seed (bits width full partial : N) : list bool :=
  digits 2 1 ++ digits 4 0 ++ digits 12 bits ++ digits 12 width ++ digits 10 full ++ digits 10 partial ++ repeat true 30.
