(** Scalars, groups and pairings, as the code uses them through arkworks.

    The curve and field arithmetic of arkworks is not modelled: a scalar field is any
    field with decidable equality, a group is any module over it in which one non-zero
    point generates everything (the groups of manta-crypto/src/arkworks/pairing.rs
    L31-59 have prime order and the scalar field is the field of that order), and the
    pairing is any bilinear map that is zero only when one argument is. Affine and
    projective representations of one point are one point here; prepared points
    ([G1Prepared], [G2Prepared]) are the points they are prepared from. The target
    group is written additively. *)
From Coq Require Import List Arith ZArith NArith Bool Lia Field_theory Ring Field Eqdep_dec.
Import ListNotations.

(** manta-pay/src/crypto/poseidon/mod.rs L49-79 ([Field]) and the [PrimeField] bound of
    manta-crypto/src/arkworks/pairing.rs L31-33. [finv] of zero is irrelevant: the code
    asks for the inverse through an [Option], [finverse] below. *)
Record fld := Fld {
  fcar :> Type;
  f0 : fcar;
  f1 : fcar;
  fadd : fcar -> fcar -> fcar;
  fmul : fcar -> fcar -> fcar;
  fsub : fcar -> fcar -> fcar;
  fopp : fcar -> fcar;
  fdiv : fcar -> fcar -> fcar;
  finv : fcar -> fcar;
  feqb : fcar -> fcar -> bool;
  fth : field_theory f0 f1 fadd fmul fsub fopp fdiv finv (@eq fcar);
  feqb_spec : forall a b, feqb a b = true <-> a = b
}.
Arguments f0 {f}. Arguments f1 {f}. Arguments fadd {f}. Arguments fmul {f}.
Arguments fsub {f}. Arguments fopp {f}. Arguments finv {f}. Arguments feqb {f}. Arguments fdiv {f}.

Declare Scope alg_scope.
Delimit Scope alg_scope with A.
Infix "+" := fadd : alg_scope.
Infix "*" := fmul : alg_scope.
Infix "-" := fsub : alg_scope.

(** [Field::inverse] (poseidon/mod.rs L75-78; ark-ff [Field::inverse]): nothing for zero. *)
Definition finverse {K : fld} (x : K) : option K := if feqb x f0 then None else Some (finv x).

(** A group with its scalars (pairing.rs L35-45). *)
Record grp (K : fld) := Grp {
  gcar :> Type;
  g0 : gcar;
  gadd : gcar -> gcar -> gcar;
  smul : K -> gcar -> gcar;
  geqb : gcar -> gcar -> bool;
  geqb_spec : forall a b, geqb a b = true <-> a = b;
  gadd_0 : forall a, gadd a g0 = a;
  gadd_comm : forall a b, gadd a b = gadd b a;
  gadd_assoc : forall a b c, gadd a (gadd b c) = gadd (gadd a b) c;
  smul_1 : forall a, smul f1 a = a;
  smul_0 : forall a, smul f0 a = g0;
  smul_add : forall r s a, smul (r + s)%A a = gadd (smul r a) (smul s a);
  smul_gadd : forall r a b, smul r (gadd a b) = gadd (smul r a) (smul r b);
  smul_smul : forall r s a, smul r (smul s a) = smul (r * s)%A a
}.
Arguments g0 {K g}. Arguments gadd {K g}. Arguments smul {K g}. Arguments geqb {K g}.

(** pairing.rs L31-59: the scalar field, the two groups, the pairing and the generators. *)
Record pairing := Pairing {
  sc : fld;
  G1 : grp sc;
  G2 : grp sc;
  GT : grp sc;
  pe : G1 -> G2 -> GT;
  gen1 : G1;
  gen2 : G2;
  gen1_nz : gen1 <> g0;
  gen2_nz : gen2 <> g0;
  cyc1 : forall a b : G1, a <> g0 -> exists r : sc, b = smul r a;
  cyc2 : forall a b : G2, a <> g0 -> exists r : sc, b = smul r a;
  pe_add_l : forall a a' b, pe (gadd a a') b = gadd (pe a b) (pe a' b);
  pe_add_r : forall a b b', pe a (gadd b b') = gadd (pe a b) (pe a b');
  pe_smul_l : forall (r : sc) a b, pe (smul r a) b = smul r (pe a b);
  pe_smul_r : forall (r : sc) a b, pe a (smul r b) = smul r (pe a b);
  pe_nz : forall a b, pe a b = g0 -> a = g0 \/ b = g0
}.

(** * An instance: the field with seventeen elements *)
Section FP.
Variable p : N.
Hypothesis p1 : (1 < p)%N.
(** A table of inverses. *)
Variable itab : list N.

Definition zp := { x : N | (x <? p)%N = true }.

Lemma mod_lt n : (n mod p <? p)%N = true.
Proof. apply N.ltb_lt, N.mod_lt; intro E; subst; inversion p1. Qed.

(** The evidence is computed, so that equal elements have equal evidence. *)
Definition canon (b : bool) (h : b = true) : b = true :=
  match bool_dec b true with left e => e | right n => False_ind _ (n h) end.

Definition mkz (n : N) : zp := exist _ (n mod p)%N (canon _ (mod_lt n)).

Lemma zp_eq (a b : zp) : proj1_sig a = proj1_sig b -> a = b.
Proof.
  destruct a as [a ha], b as [b hb]; simpl; intros E; subst b. f_equal. apply UIP_dec, bool_dec.
Qed.

Definition zadd (a b : zp) := mkz (proj1_sig a + proj1_sig b).
Definition zmul (a b : zp) := mkz (proj1_sig a * proj1_sig b).
Definition zopp (a : zp) := mkz (p - proj1_sig a).
Definition zsub (a b : zp) := zadd a (zopp b).
Definition zinv (a : zp) : zp := mkz (nth (N.to_nat (proj1_sig a)) itab 0%N).
Definition zdiv (a b : zp) := zmul a (zinv b).
Definition zeqb (a b : zp) : bool := (proj1_sig a =? proj1_sig b)%N.

Lemma zeqb_spec a b : zeqb a b = true <-> a = b.
Proof. unfold zeqb. rewrite N.eqb_eq. split; [apply zp_eq|intros; subst; auto]. Qed.

Lemma zp_small (a : zp) : (proj1_sig a < p)%N.
Proof. destruct a as [a h]; simpl. now apply N.ltb_lt. Qed.

Lemma p_nz : p <> 0%N.
Proof. intro E; rewrite E in p1; inversion p1. Qed.

Lemma zp_ring : ring_theory (mkz 0) (mkz 1) zadd zmul zsub zopp (@eq zp).
Proof.
  pose proof p_nz as P.
  constructor; intros; apply zp_eq; cbn [zadd zmul zsub zopp mkz proj1_sig].
  - rewrite N.mod_0_l by auto. rewrite N.add_0_l, N.mod_small; auto using zp_small.
  - now rewrite N.add_comm.
  - rewrite N.add_mod_idemp_l, N.add_mod_idemp_r by auto. f_equal. lia.
  - rewrite N.mul_mod_idemp_l, N.mul_1_l by auto. apply N.mod_small, zp_small.
  - now rewrite N.mul_comm.
  - rewrite N.mul_mod_idemp_l, N.mul_mod_idemp_r by auto. f_equal. lia.
  - rewrite N.mul_mod_idemp_l, <- N.add_mod by auto. f_equal. lia.
  - reflexivity.
  - rewrite N.add_mod_idemp_r by auto. pose proof (zp_small x).
    replace (proj1_sig x + (p - proj1_sig x))%N with p by lia.
    rewrite N.mod_same, N.mod_0_l; auto.
Qed.

(** Checked by running through all elements. *)
Definition all_inv : bool :=
  forallb (fun n => zeqb (zmul (zinv (mkz (N.of_nat n))) (mkz (N.of_nat n))) (mkz 1)) (seq 1 (N.to_nat p - 1)).

Lemma zp_field : all_inv = true ->
  field_theory (mkz 0) (mkz 1) zadd zmul zsub zopp zdiv zinv (@eq zp).
Proof.
  intros A. constructor.
  - apply zp_ring.
  - intros E. apply (f_equal (@proj1_sig _ _)) in E. cbn [mkz proj1_sig] in E.
    rewrite N.mod_0_l, N.mod_small in E by (auto using p_nz). discriminate.
  - reflexivity.
  - intros a NZ. apply zeqb_spec.
    unfold all_inv in A. rewrite forallb_forall in A.
    specialize (A (N.to_nat (proj1_sig a))). rewrite N2Nat.id in A.
    assert (mkz (proj1_sig a) = a) as Ea.
    { apply zp_eq. cbn [mkz proj1_sig]. apply N.mod_small, zp_small. }
    rewrite Ea in A. apply A. apply in_seq. pose proof (zp_small a).
    assert (proj1_sig a <> 0%N).
    { intros Z. apply NZ, zp_eq. cbn [mkz proj1_sig]. rewrite N.mod_0_l; auto using p_nz. }
    lia.
Qed.
End FP.

Lemma lt17 : (1 < 17)%N. Proof. reflexivity. Qed.
Definition tab17 : list N := [0; 1; 9; 6; 13; 7; 3; 5; 15; 2; 12; 14; 10; 4; 11; 8; 16]%N.
Lemma inv17 : all_inv 17 lt17 tab17 = true. Proof. vm_compute. reflexivity. Qed.
Definition F17 : fld :=
  Fld (zp 17) (mkz 17 lt17 0) (mkz 17 lt17 1) (zadd 17 lt17) (zmul 17 lt17) (zsub 17 lt17) (zopp 17 lt17)
    (zdiv 17 lt17 tab17) (zinv 17 lt17 tab17) (zeqb 17) (zp_field 17 lt17 tab17 inv17) (zeqb_spec 17).
Definition z17 (n : N) : F17 := mkz 17 lt17 n.

(** * Basic facts *)
Section Facts.
Variable K : fld.
Add Field Kf : (fth K).
Local Open Scope alg_scope.

Lemma feqb_refl (a : K) : feqb a a = true.
Proof. now apply feqb_spec. Qed.

Lemma feqb_false (a b : K) : feqb a b = false <-> a <> b.
Proof.
  split.
  - intros E H. apply feqb_spec in H. congruence.
  - intros H. destruct (feqb a b) eqn:E; auto. apply feqb_spec in E. congruence.
Qed.

Lemma feq_dec (a b : K) : {a = b} + {a <> b}.
Proof. destruct (feqb a b) eqn:E; [left; now apply feqb_spec|right; now apply feqb_false]. Qed.

Lemma finv_l (a : K) : a <> f0 -> finv a * a = f1.
Proof. intros. field. auto. Qed.

Lemma finv_r (a : K) : a <> f0 -> a * finv a = f1.
Proof. intros. field. auto. Qed.

Lemma f1_nz : (f1 : K) <> f0.
Proof. exact (F_1_neq_0 (fth K)). Qed.

Lemma fmul_nz (a b : K) : a <> f0 -> b <> f0 -> a * b <> f0.
Proof.
  intros A B E. apply B. transitivity (finv a * (a * b)).
  - field. auto.
  - rewrite E. ring.
Qed.

Lemma finv_nz (a : K) : a <> f0 -> finv a <> f0.
Proof. intros A E. apply f1_nz. rewrite <- (finv_l a A), E. ring. Qed.

Lemma fsub_eq0 (a b : K) : a - b = f0 -> a = b.
Proof. intros E. transitivity (a - b + b); [ring|]. rewrite E. ring. Qed.

Lemma finverse_some (x y : K) : finverse x = Some y -> x <> f0 /\ y = finv x.
Proof.
  unfold finverse. destruct (feqb x f0) eqn:E; [discriminate|]. intros [= <-].
  split; auto. now apply feqb_false.
Qed.

Lemma finverse_nz (x : K) : x <> f0 -> finverse x = Some (finv x).
Proof. intros H. unfold finverse. apply feqb_false in H. now rewrite H. Qed.

Variable g : grp K.
Implicit Types a b c : g.

Lemma geqb_refl a : geqb a a = true.
Proof. now apply geqb_spec. Qed.

Lemma geq_dec a b : {a = b} + {a <> b}.
Proof.
  destruct (geqb a b) eqn:E; [left; now apply geqb_spec|right; intros H].
  apply geqb_spec in H. congruence.
Qed.

Lemma smul_g0 (r : K) : smul r (g0 : g) = g0.
Proof. rewrite <- (smul_0 _ _ g0), smul_smul. f_equal. ring. Qed.

Lemma gadd_0_l a : gadd g0 a = a.
Proof. rewrite gadd_comm. apply gadd_0. Qed.

Lemma gsub_diag a : gadd a (smul (fopp f1) a) = g0.
Proof.
  rewrite <- (smul_1 _ _ a) at 1. rewrite <- smul_add.
  replace (f1 + fopp f1) with (f0 : K) by ring. apply smul_0.
Qed.

Lemma gsub_eq a b : gadd a (smul (fopp f1) b) = g0 -> a = b.
Proof.
  intros E. transitivity (gadd (gadd a (smul (fopp f1) b)) b).
  - rewrite <- gadd_assoc, (gadd_comm _ _ _ b), gsub_diag, gadd_0. auto.
  - rewrite E, gadd_0_l. auto.
Qed.

Lemma smul_cancel (r : K) a : r <> f0 -> smul r a = g0 -> a = g0.
Proof.
  intros R E. rewrite <- (smul_1 _ _ a), <- (finv_l r R), <- smul_smul, E. apply smul_g0.
Qed.

Lemma smul_zero (r : K) a : smul r a = g0 -> r = f0 \/ a = g0.
Proof. intros E. destruct (feq_dec r f0); auto. right. eapply smul_cancel; eauto. Qed.

Lemma gadd_cancel a b c : gadd a c = gadd b c -> a = b.
Proof.
  intros E. transitivity (gadd (gadd a c) (smul (fopp f1) c)).
  - rewrite <- gadd_assoc, gsub_diag, gadd_0. auto.
  - rewrite E, <- gadd_assoc, gsub_diag, gadd_0. auto.
Qed.

Lemma smul_inj_r (r : K) a b : r <> f0 -> smul r a = smul r b -> a = b.
Proof.
  intros R E. rewrite <- (smul_1 _ _ a), <- (smul_1 _ _ b), <- (finv_l r R), <- !smul_smul. now rewrite E.
Qed.

Lemma smul_inj_l (r s : K) a : a <> g0 -> smul r a = smul s a -> r = s.
Proof.
  intros A E. apply fsub_eq0. destruct (smul_zero (r - s) a); [|auto|contradiction].
  replace (r - s) with (r + fopp f1 * s) by ring.
  rewrite smul_add, E, <- smul_smul. apply gsub_diag.
Qed.
End Facts.

(** The field as a group over itself. *)
Section Self.
Variable K : fld.
Add Field Ks : (fth K).
Local Open Scope alg_scope.
Lemma self_add0 (a : K) : a + f0 = a. Proof. ring. Qed.
Lemma self_addC (a b : K) : a + b = b + a. Proof. ring. Qed.
Lemma self_addA (a b c : K) : a + (b + c) = a + b + c. Proof. ring. Qed.
Lemma self_mul1 (a : K) : f1 * a = a. Proof. ring. Qed.
Lemma self_mul0 (a : K) : f0 * a = f0. Proof. ring. Qed.
Lemma self_addmul (r s a : K) : (r + s) * a = r * a + s * a. Proof. ring. Qed.
Lemma self_muladd (r a b : K) : r * (a + b) = r * a + r * b. Proof. ring. Qed.
Lemma self_mulA (r s a : K) : r * (s * a) = r * s * a. Proof. ring. Qed.
Lemma self_mulCA (r a b : K) : a * (r * b) = r * (a * b). Proof. ring. Qed.
Lemma self_mulA' (r a b : K) : r * a * b = r * (a * b). Proof. ring. Qed.

Definition self_grp : grp K :=
  Grp K K f0 fadd fmul feqb (feqb_spec K) self_add0 self_addC self_addA self_mul1 self_mul0
    self_addmul self_muladd self_mulA.

Lemma self_cyc (a b : self_grp) : a <> g0 -> exists r : K, b = smul r a.
Proof.
  intros A. exists (b * finv a). simpl in *. field. auto.
Qed.

Lemma self_nz (a b : K) : a * b = f0 -> a = f0 \/ b = f0.
Proof.
  intros H. destruct (feq_dec K a f0); auto. right.
  destruct (feq_dec K b f0); auto. exfalso. exact (fmul_nz K a b n n0 H).
Qed.

(** Exponents: the pairing of [a] and [b] is their product. *)
Definition self_pairing : pairing :=
  Pairing K self_grp self_grp self_grp fmul f1 f1 (f1_nz K) (f1_nz K) self_cyc self_cyc
    self_addmul self_muladd self_mulA' self_mulCA self_nz.
End Self.

Definition P17 : pairing := self_pairing F17.

Section PFacts.
Variable P : pairing.
Implicit Types (a : G1 P) (b : G2 P).

Lemma pe_0_l b : pe P g0 b = g0.
Proof. rewrite <- (smul_0 _ _ g0), pe_smul_l. apply smul_0. Qed.

Lemma pe_0_r a : pe P a g0 = g0.
Proof. rewrite <- (smul_0 _ _ g0), pe_smul_r. apply smul_0. Qed.

Lemma pe_inj_l a a' b : b <> g0 -> pe P a b = pe P a' b -> a = a'.
Proof.
  intros B E. apply gsub_eq. destruct (pe_nz P (gadd a (smul (fopp f1) a')) b); auto.
  - rewrite pe_add_l, pe_smul_l, E. apply gsub_diag.
  - contradiction.
Qed.

Lemma pe_inj_r a b b' : a <> g0 -> pe P a b = pe P a b' -> b = b'.
Proof.
  intros B E. apply gsub_eq. destruct (pe_nz P a (gadd b (smul (fopp f1) b'))); auto.
  - rewrite pe_add_r, pe_smul_r, E. apply gsub_diag.
  - contradiction.
Qed.
End PFacts.
