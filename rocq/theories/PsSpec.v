(** Which points are valid and what their encoding is. *)
From Coq Require Import ZArith Znumtheory List Bool.
From Verif Require Import PsModel.
Import ListNotations.
Local Open Scope Z_scope.

(** A prime that is three modulo four and leaves two bits of 32 bytes free. *)
Definition good_prime (q : Z) : Prop := prime q /\ q mod 4 = 3 /\ q < 2 ^ 254.

(** The number whose digits to the base 256 are the bytes, the most significant first. *)
Fixpoint number (bs : list Z) : Z :=
  match bs with [] => 0 | b :: bs => b * 256 ^ Z.of_nat (length bs) + number bs end.
Definition bytes (bs : list Z) : Prop := Forall (fun b => 0 <= b < 256) bs.

Definition residue (q x : Z) : Prop := 0 <= x < q.
Definition residue2 (q : Z) (x : Z * Z) : Prop := residue q (fst x) /\ residue q (snd x).

(** Points of the curve y^2 = x^3 + b over the prime field. *)
Definition valid1 (q b : Z) (p : point Z) : Prop :=
  match p with Inf => True | Aff x y => residue q x /\ residue q y /\ (q | y * y - (x * x * x + b)) end.

(** Points of the same curve over the quadratic extension by a square root of minus one, with the
    two components of the equation written out. *)
Definition valid2 (q : Z) (b : Z * Z) (p : point (Z * Z)) : Prop :=
  match p with
  | Inf => True
  | Aff (x0, x1) (y0, y1) =>
      residue q x0 /\ residue q x1 /\ residue q y0 /\ residue q y1 /\
      (q | (y0 * y0 - y1 * y1) - (x0 * x0 * x0 - 3 * x0 * x1 * x1 + fst b)) /\
      (q | 2 * y0 * y1 - (3 * x0 * x0 * x1 - x1 * x1 * x1 + snd b))
  end.

(** What is asked of arkworks' square roots: a root is found when there is one. *)
Definition sqrt1_ok (q : Z) (s : Z -> option Z) : Prop :=
  (forall a r, s a = Some r -> residue q r /\ r * r mod q = a) /\
  (forall y, residue q y -> s (y * y mod q) <> None).
Definition sqrt2_ok (q : Z) (s : Z * Z -> option (Z * Z)) : Prop :=
  (forall a r, s a = Some r -> residue2 q r /\ mul2 q r r = a) /\
  (forall y, residue2 q y -> s (mul2 q y y) <> None).

(** The greater of the two roots: y > - y. *)
Definition greater1 (q y : Z) : Prop := q < 2 * y.
Definition greater2 (q : Z) (y : Z * Z) : Prop := q < 2 * snd y \/ snd y = 0 /\ q < 2 * fst y.

(** The number that is the compressed and the uncompressed encoding of a point. *)
Definition code1 (q : Z) (p : point Z) (n : Z) : Prop :=
  match p with
  | Inf => n = 2 ^ 254
  | Aff x y => greater1 q y /\ n = 2 ^ 255 + x \/ ~ greater1 q y /\ n = x
  end.
Definition code2 (q : Z) (p : point (Z * Z)) (n : Z) : Prop :=
  match p with
  | Inf => n = 2 ^ 510
  | Aff x y => let v := snd x * 2 ^ 256 + fst x in greater2 q y /\ n = 2 ^ 511 + v \/ ~ greater2 q y /\ n = v
  end.
Definition ucode1 (p : point Z) (n : Z) : Prop :=
  match p with Inf => n = 2 ^ 510 | Aff x y => n = x * 2 ^ 256 + y end.
Definition ucode2 (p : point (Z * Z)) (n : Z) : Prop :=
  match p with
  | Inf => n = 2 ^ 1022
  | Aff x y => n = ((snd x * 2 ^ 256 + fst x) * 2 ^ 256 + snd y) * 2 ^ 256 + fst y
  end.

Section Acc.
Variables C1 C2 : curve.
(** All points of an accumulator and of a proof satisfy a predicate. *)
Definition acc_all (P1 : point (F C1) -> Prop) (P2 : point (F C2) -> Prop) (a : accumulator C1 C2) : Prop :=
  Forall P1 (tau_powers_g1 _ _ a) /\ Forall P2 (tau_powers_g2 _ _ a) /\ Forall P1 (alpha_tau_powers_g1 _ _ a) /\
  Forall P1 (beta_tau_powers_g1 _ _ a) /\ P2 (beta_g2 _ _ a).
Definition acc_size (a : accumulator C1 C2) (n1 n2 : nat) : Prop :=
  length (tau_powers_g1 _ _ a) = n1 /\ length (tau_powers_g2 _ _ a) = n2 /\
  length (alpha_tau_powers_g1 _ _ a) = n2 /\ length (beta_tau_powers_g1 _ _ a) = n2.
(** The accumulator of the first powers only. *)
Definition acc_prefix (a : accumulator C1 C2) (n1 n2 : nat) : accumulator C1 C2 :=
  Accumulator _ _ (firstn n1 (tau_powers_g1 _ _ a)) (firstn n2 (tau_powers_g2 _ _ a))
    (firstn n2 (alpha_tau_powers_g1 _ _ a)) (firstn n2 (beta_tau_powers_g1 _ _ a)) (beta_g2 _ _ a).
Definition ratio_all (P1 : point (F C1) -> Prop) (P2 : point (F C2) -> Prop) (r : ratio_proof C1 C2) : Prop :=
  P1 (ratio0 _ _ r) /\ P1 (ratio1 _ _ r) /\ P2 (matching _ _ r).
Definition proof_all (P1 : point (F C1) -> Prop) (P2 : point (F C2) -> Prop) (p : proof C1 C2) : Prop :=
  ratio_all P1 P2 (p_tau _ _ p) /\ ratio_all P1 P2 (p_alpha _ _ p) /\ ratio_all P1 P2 (p_beta _ _ p).
End Acc.
