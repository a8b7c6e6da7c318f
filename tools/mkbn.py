#!/usr/bin/env python3
# Writes rocq/theories/PrBn.v: the primality certificate of the scalar field of BN254.
import os, sys
n = 21888242871839275222246405745257275088548364400416034343698204186575808495617
a = 5
ds = [1670836401704629, 2, 405928799, 237073, 11003]
qs = [1670836401704629] + [2] * 28 + [405928799, 237073, 11003]
D = 1
for d in ds: D *= d
assert (n - 1) % D == 0
def powc(b, e, o):
    if e == 1: return b
    r = powc(b, e >> 1, o)
    x = r * r; o.append(x // n); r = x % n
    if e & 1:
        x = b * r; o.append(x // n); r = x % n
    return r
o1, o2, o3 = [], [], []
c = powc(a, (n - 1) // D, o1)
assert powc(c, D, o2) == 1
for d in ds: powc(c, D // d, o3)
from math import gcd
def pa(n, qs):
    return next(a for a in range(2, 100) if pow(a, n - 1, n) == 1 and all(gcd(pow(a, (n - 1) // q, n) - 1, n) == 1 for q in qs))
def lst(l): return "[" + ";\n   ".join(str(x) for x in l) + "]"
out = f'''(** The scalar field of BN254 (manta-pay/src/config/mod.rs L67): its order is prime. Written by
    tools/mkbn.py; the lists are the quotients of the reductions in the test of PrCert.v. *)
From Coq Require Import ZArith NArith Znumtheory List.
From Verif Require Import PrCert.
Import ListNotations.

Definition bn_fr : N := {n}.

Local Open Scope Z_scope.
Definition o1 : list Z :=
  {lst(o1)}.
Definition o2 : list Z :=
  {lst(o2)}.
Definition o3 : list Z :=
  {lst(o3)}.

Lemma prime_of_trial n : (trial 500 2 n && (1 <? n))%bool = true -> prime n.
Proof.
  intros T. apply Bool.andb_true_iff in T. destruct T as [A B]. apply Z.ltb_lt in B. eapply trial_prime; eauto.
Qed.

Lemma prime_q0 : prime 12048837557.
Proof.
  apply (pock_test_prime _ {pa(12048837557, [2, 93001])} [2; 2; 93001]).
  - repeat (apply Forall_cons; [apply prime_of_trial; vm_compute; reflexivity|]). constructor.
  - vm_compute. reflexivity.
Qed.
Lemma prime_q1 : prime 5156902474397.
Proof.
  apply (pock_test_prime _ 2 [12048837557]).
  - constructor; [exact prime_q0|constructor].
  - vm_compute. reflexivity.
Qed.
Lemma prime_q2 : prime 1670836401704629.
Proof.
  apply (pock_test_prime _ 2 [5156902474397]).
  - constructor; [exact prime_q1|constructor].
  - vm_compute. reflexivity.
Qed.
Lemma prime_2 : prime 2. Proof. exact prime_2. Qed.
Lemma prime_q3 : prime 405928799.
Proof.
  apply (pock_test_prime _ {pa(405928799, [11, 4999])} [11; 4999]).
  - repeat (apply Forall_cons; [apply prime_of_trial; vm_compute; reflexivity|]). constructor.
  - vm_compute. reflexivity.
Qed.
Lemma prime_q4 : prime 237073. Proof. apply prime_of_trial. vm_compute. reflexivity. Qed.
Lemma prime_q5 : prime 11003. Proof. apply prime_of_trial. vm_compute. reflexivity. Qed.

Theorem bn_prime : prime (Z.of_N bn_fr).
Proof.
  apply (pock_cert_prime _ {a} {str(ds).replace(',', ';')} (1670836401704629 :: repeat 2 28 ++ [405928799; 237073; 11003]) o1 o2 o3).
  - cbn [repeat app].
    repeat (apply Forall_cons; [first [exact prime_q2|exact prime_2|exact prime_q3|exact prime_q4|exact prime_q5]|]). constructor.
  - vm_compute. reflexivity.
Qed.
'''
path = sys.argv[1] if len(sys.argv) > 1 else os.path.join(os.path.dirname(os.path.abspath(__file__)), "..", "rocq", "theories", "PrBn.v")
open(path, "w").write(out)
