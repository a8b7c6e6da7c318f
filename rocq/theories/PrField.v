(** Fields of prime order, and the scalar field of BN254 as one: manta-pay/src/config/mod.rs L67
    ([ConstraintField = bn254::Fr]). The number is that of ark-bn254, which is not in the
    repository. *)
From Coq Require Import ZArith NArith Znumtheory List Lia Bool Field_theory.
From Verif Require Import AlgBase PrCert PrBn.
Import ListNotations.

Section PF.
Variable p : N.
Hypothesis p1 : (1 < p)%N.

(** A candidate for the inverse, by Euclid's algorithm. *)
Fixpoint egcd (fuel : nat) (r0 r1 s0 s1 : Z) : Z :=
  match fuel with
  | O => s0
  | S fuel => if (r1 =? 0)%Z then s0 else let q := (r0 / r1)%Z in egcd fuel r1 (r0 - q * r1)%Z s1 (s0 - q * s1)%Z
  end.
Definition candidate (a : N) : N := Z.to_N (egcd 800 (Z.of_N p) (Z.of_N a) 0 1 mod Z.of_N p).
Definition fermat_inverse (a : N) : N := Z.to_N (powmod (Z.of_N a) (Z.to_pos (Z.of_N p - 2)) (Z.of_N p)).
Definition pinv (a : zp p) : zp p :=
  let a := proj1_sig a in
  let c := candidate a in
  if ((c * a) mod p =? 1)%N then mkz p p1 c else mkz p p1 (fermat_inverse a).
Definition pdiv (a b : zp p) : zp p := zmul p p1 a (pinv b).

Hypothesis P : prime (Z.of_N p).
Hypothesis p2 : (2 < p)%N.

Lemma powmod_N (a : N) e : Z.of_N (Z.to_N (powmod (Z.of_N a) e (Z.of_N p))) = ((Z.of_N a ^ Zpos e) mod Z.of_N p)%Z.
Proof.
  rewrite powmod_spec by lia. apply Z2N.id. apply Z.mod_pos_bound. lia.
Qed.

Lemma pinv_l (a : zp p) : a <> mkz p p1 0 -> zmul p p1 (pinv a) a = mkz p p1 1.
Proof.
  intros NZ. apply zp_eq. unfold zmul. cbn [mkz proj1_sig]. unfold pinv. set (x := proj1_sig a).
  pose proof (zp_small p a) as Sx. fold x in Sx.
  assert (x <> 0)%N as X0. { intros E. apply NZ, zp_eq. cbn [mkz proj1_sig]. fold x. rewrite E. symmetry. apply N.mod_0_l. lia. }
  rewrite (N.mod_small 1) by lia.
  destruct (N.eqb_spec ((candidate x * x) mod p) 1) as [E|_]; cbn [mkz proj1_sig].
  - rewrite N.mul_mod_idemp_l by lia. exact E.
  - rewrite N.mul_mod_idemp_l by lia. apply N2Z.inj. rewrite N2Z.inj_mod, N2Z.inj_mul.
    unfold fermat_inverse. rewrite powmod_N, Z2Pos.id by lia.
    change (Z.of_N 1) with 1%Z. rewrite Z.mul_mod_idemp_l by lia.
    rewrite Z.mul_comm, <- Z.pow_succ_r by lia. replace (Z.succ (Z.of_N p - 2)) with (Z.of_N p - 1)%Z by lia.
    rewrite <- (Z.mod_1_l (Z.of_N p)) at 2 by lia. apply cg_eq; [lia|]. apply fermat; auto.
    intros D. apply Z.divide_pos_le in D; lia.
Qed.

Lemma prime_field : field_theory (mkz p p1 0) (mkz p p1 1) (zadd p p1) (zmul p p1) (zsub p p1) (zopp p p1) pdiv pinv (@eq (zp p)).
Proof.
  constructor.
  - apply zp_ring.
  - intros E. apply (f_equal (@proj1_sig _ _)) in E. cbn [mkz proj1_sig] in E.
    rewrite N.mod_0_l, N.mod_small in E by lia. discriminate.
  - reflexivity.
  - apply pinv_l.
Qed.

Definition prime_fld : fld :=
  Fld (zp p) (mkz p p1 0) (mkz p p1 1) (zadd p p1) (zmul p p1) (zsub p p1) (zopp p p1) pdiv pinv (zeqb p) prime_field (zeqb_spec p).

(** Powers in the field. *)
Fixpoint zpow (x : zp p) (e : nat) : zp p := match e with O => mkz p p1 1 | S e => zmul p p1 x (zpow x e) end.
Lemma zpow_val x e : Z.of_N (proj1_sig (zpow x e)) = ((Z.of_N (proj1_sig x) ^ Z.of_nat e) mod Z.of_N p)%Z.
Proof.
  induction e as [|e IH].
  - cbn [zpow mkz proj1_sig]. rewrite N2Z.inj_mod. reflexivity.
  - cbn [zpow]. unfold zmul. cbn [mkz proj1_sig]. rewrite N2Z.inj_mod, N2Z.inj_mul, IH.
    rewrite Nat2Z.inj_succ, Z.pow_succ_r by lia. apply Z.mul_mod_idemp_r. lia.
Qed.

(** The power with an exponent that is one modulo [p - 1] is the element itself. *)
Theorem zpow_id x e k : (Z.of_nat e = 1 + k * (Z.of_N p - 1))%Z -> (0 <= k)%Z -> zpow x e = x.
Proof.
  intros E Hk. apply zp_eq. apply N2Z.inj. rewrite zpow_val, E.
  pose proof (zp_small p x) as Sx. set (y := Z.of_N (proj1_sig x)) in *.
  assert (0 <= y < Z.of_N p)%Z by lia.
  destruct (Z.eq_dec y 0) as [->|NZ].
  - rewrite Z.pow_0_l by nia. apply Z.mod_0_l. lia.
  - rewrite <- (Z.mod_small y (Z.of_N p)) at 2 by auto. apply cg_eq; [lia|].
    rewrite Z.pow_add_r, Z.pow_1_r, Z.mul_comm, (Z.mul_comm k), Z.pow_mul_r by nia.
    rewrite (cg_pow _ _ 1 k); auto.
    + rewrite Z.pow_1_l by auto. now rewrite Z.mul_1_l.
    + apply fermat; auto. intros D. apply Z.divide_pos_le in D; lia.
Qed.
End PF.

Lemma bn_1 : (1 < bn_fr)%N. Proof. reflexivity. Qed.
Lemma bn_2 : (2 < bn_fr)%N. Proof. reflexivity. Qed.
Definition BN : fld := prime_fld bn_fr bn_1 bn_prime bn_2.
