#!/usr/bin/env python3
# Writes rocq/theories/PsPrime.v: the primality certificate of the base field of BN254.
import os, sys
from math import gcd
q = 21888242871839275222246405745257275088696311157297823662689037894645226208583
P = 13427688667394608761327070753331941386769
def cert(n, ds):
    D = 1
    for d in ds: D *= d
    assert (n - 1) % D == 0
    def powc(b, e, o):
        if e == 1: return b
        r = powc(b, e >> 1, o)
        x = r * r; o.append(x // n); r = x % n
        if e & 1:
            x = b * r; o.append(x // n); r = x % n
        return r
    a = next(a for a in range(2, 100) if pow(a, n - 1, n) == 1 and all(gcd(pow(a, (n - 1) // d, n) - 1, n) == 1 for d in ds))
    o1, o2, o3 = [], [], []
    c = powc(a, (n - 1) // D, o1)
    assert powc(c, D, o2) == 1
    for d in ds: powc(c, D // d, o3)
    return a, o1, o2, o3
def pa(n, qs):
    return next(a for a in range(2, 100) if pow(a, n - 1, n) == 1 and all(gcd(pow(a, (n - 1) // q, n) - 1, n) == 1 for q in qs))
def lst(l): return "[" + ";\n   ".join(str(x) for x in l) + "]"
aP, p1, p2, p3 = cert(P, [2480874801745591, 173171039])
def cert1(n, p):
    def powc(b, e, o):
        if e == 1: return b
        r = powc(b, e >> 1, o)
        x = r * r; o.append(x // n); r = x % n
        if e & 1:
            x = b * r; o.append(x // n); r = x % n
        return r
    a = next(a for a in range(2, 100) if gcd(pow(a, (n - 1) // p, n) - 1, n) == 1)
    o1, o2 = [], []
    c = powc(a, (n - 1) // p, o1)
    assert powc(c, p, o2) == 1
    return a, o1, o2
aq, q1, q2 = cert1(q, P)
def lists(n, *ls):
    return "".join(f'''Definition {n}{i + 1} : list Z :=
  {lst(l)}.
''' for i, l in enumerate(ls))
def small(name, n, qs):
    return f'''Lemma {name} : prime {n}.
Proof.
  apply (pock_test_prime _ {pa(n, qs)} {str(qs).replace(',', ';')}).
  - repeat (apply Forall_cons; [first [exact prime_s4|exact prime_s0|apply trial_ok; vm_compute; reflexivity]|]). constructor.
  - vm_compute. reflexivity.
Qed.
'''.replace("exact prime_s0|" if name != "prime_s1" else "\0", "").replace("exact prime_s4|" if name == "prime_s4" else "\0", "")
out = f'''(** The base field of BN254 (manta-trusted-setup/src/groth16/ppot/serialization.rs L49-50): its
    order is prime. Written by tools/mkbnq.py; the lists are the quotients of the reductions in the
    test of PrCert.v. *)
From Coq Require Import ZArith Znumtheory List Lia Bool.
From Verif Require Import PrCert.
Import ListNotations.
Local Open Scope Z_scope.

Definition bnq : Z := {q}.

{lists("op", p1, p2, p3)}{lists("oq", q1, q2)}
Lemma trial_ok n : (trial 500 2 n && (1 <? n))%bool = true -> prime n.
Proof.
  intros T. apply Bool.andb_true_iff in T. destruct T as [A B]. apply Z.ltb_lt in B. eapply trial_prime; eauto.
Qed.

{small("prime_s4", 1263766531, [3557, 911])}{small("prime_s0", 35385462869, [1263766531])}{small("prime_s1", 2480874801745591, [35385462869])}{small("prime_s2", 173171039, [13327, 89])}
Lemma prime_s3 : prime {P}.
Proof.
  apply (pock_cert_prime _ {aP} [2480874801745591; 173171039] [2480874801745591; 173171039] op1 op2 op3).
  - constructor; [exact prime_s1|]. constructor; [exact prime_s2|constructor].
  - vm_compute. reflexivity.
Qed.

(** Pocklington's criterion with a single prime factor [p]. *)
Definition pock1 (n a p : Z) (o1 o2 : list Z) : bool :=
  (1 <? n) && (1 <? p) && ((n - 1) mod p =? 0) && (n <? p * p) && (p <? n - 1) &&
  match powc n a (Z.to_pos ((n - 1) / p)) o1 with
  | Some (c, _) => (Z.gcd (c - 1) n =? 1) && match powc n c (Z.to_pos p) o2 with Some (r, _) => r =? 1 | None => false end
  | None => false
  end.
Lemma pock1_prime n a p o1 o2 : prime p -> pock1 n a p o1 o2 = true -> prime n.
Proof.
  intros Pp T. unfold pock1 in T. repeat rewrite andb_true_iff in T.
  destruct T as (((((T1 & T2) & T3) & T4) & T5) & T6).
  apply Z.ltb_lt in T1, T2, T4, T5. apply Z.eqb_eq in T3.
  destruct (powc n a _ o1) as [[c oc]|] eqn:E1; [|discriminate].
  apply andb_true_iff in T6. destruct T6 as [TG TO].
  destruct (powc n c _ o2) as [[r orr]|] eqn:EO; [|discriminate]. apply Z.eqb_eq in TO, TG. subst r.
  apply Z.mod_divide in T3; [|lia]. destruct T3 as (R & ER).
  assert ((n - 1) / p = R) as Dk by (rewrite ER; apply Z.div_mul; lia). assert (0 < R) by nia.
  apply powc_spec in E1. rewrite Dk, Z2Pos.id in E1 by auto. apply powc_spec in EO. rewrite Z2Pos.id in EO by lia.
  assert (prodl [p] = p) as PL by (cbn; lia).
  apply (pocklington n a R [p]); rewrite ?PL; auto.
  - lia.
  - nia.
  - rewrite ER, Z.pow_mul_r by lia. rewrite <- (cg_pow n c (a ^ R) p) by (auto; lia). symmetry. exact EO.
  - intros q [<-|[]]. rewrite Dk. rewrite <- (gcd_cg n c) by (auto; lia). exact TG.
Qed.

Theorem bnq_prime : prime bnq.
Proof.
  apply (pock1_prime _ {aq} {P} oq1 oq2); [exact prime_s3|]. vm_compute. reflexivity.
Qed.
'''
path = sys.argv[1] if len(sys.argv) > 1 else os.path.join(os.path.dirname(os.path.abspath(__file__)), "..", "rocq", "theories", "PsPrime.v")
open(path, "w").write(out)
