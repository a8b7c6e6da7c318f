(** C73: Poseidon as it is configured. *)
From Coq Require Import List Arith NArith ZArith Znumtheory Lia Bool.
From Verif Require Import AlgBase PxModel PxSpec PxInv PxLin PxMds PxCauchy PxOpt PxProps PrCert PrBn PrField.
Import ListNotations.
Local Open Scope nat_scope.

Section P.
Variable p : N.
Hypothesis p1 : (1 < p)%N.
Hypothesis P : prime (Z.of_N p).
Hypothesis p2 : (2 < p)%N.
Let K := prime_fld p p1 P p2.

Lemma fpow_zpow (x : K) e : fpow K x e = zpow p p1 x e.
Proof. induction e as [|e IH]; [reflexivity|]. cbn [fpow zpow]. rewrite IH. reflexivity. Qed.

Lemma from_u64_val (k : nat) : Z.of_N (proj1_sig (from_u64 K k)) = (Z.of_nat k mod Z.of_N p)%Z.
Proof.
  induction k as [|k IH].
  - cbn [from_u64]. change (@f0 K) with (mkz p p1 0). cbn [mkz proj1_sig]. rewrite N2Z.inj_mod. reflexivity.
  - cbn [from_u64]. change (@fadd K) with (zadd p p1). change (@f1 K) with (mkz p p1 1). unfold zadd. cbn [mkz proj1_sig].
    rewrite N2Z.inj_mod, N2Z.inj_add, N2Z.inj_mod, IH. rewrite <- Z.add_mod by lia. f_equal. lia.
Qed.
Lemma from_u64_nz (k : nat) : 0 < k -> (Z.of_nat k < Z.of_N p)%Z -> from_u64 K k <> f0.
Proof.
  intros H1 H2 E. assert (Z.of_N (proj1_sig (from_u64 K k)) = 0%Z) as Z0.
  { rewrite E. change (@f0 K) with (mkz p p1 0). cbn [mkz proj1_sig]. rewrite N2Z.inj_mod. reflexivity. }
  rewrite from_u64_val, Z.mod_small in Z0 by lia. lia.
Qed.

(** A power whose exponent is invertible modulo [p - 1]. *)
Lemma power_bijective (e : nat) d k : (Z.of_nat e * d = 1 + k * (Z.of_N p - 1))%Z -> (0 <= d)%Z -> (0 <= k)%Z ->
  (forall a b, power_sbox K e a = power_sbox K e b -> a = b) /\ forall a, exists b, power_sbox K e b = a.
Proof.
  intros E Hd Hk. apply (c71_power K e (Z.to_nat d)). intros x. rewrite fpow_zpow.
  apply (zpow_id p p1 P p2 x _ k); auto. rewrite Nat2Z.inj_mul, Z2Nat.id by auto. exact E.
Qed.
End P.

(** C73: the order of the field is prime and has 254 bits ([MODULUS_BITS] of the generator). *)
Theorem c73_field : prime (Z.of_N bn_fr) /\ N.size bn_fr = 254%N.
Proof. split; [exact bn_prime|reflexivity]. Qed.

(** C73: the S-box of config/poseidon.rs is one to one on it. *)
Theorem c73_sbox : (forall a b : BN, fpow BN a 5 = fpow BN b 5 -> a = b) /\ forall a : BN, exists b, fpow BN b 5 = a.
Proof.
  apply (power_bijective bn_fr bn_1 bn_prime bn_2 5 17510594297471420177797124596205820070838691520332827474958563349260646796493 4); [reflexivity|lia|lia].
Qed.
(** The third power would not be. *)
Theorem c73_cube_collides : exists a b : BN, a <> b /\ fpow BN a 3 = fpow BN b 3.
Proof.
  exists (mkz bn_fr bn_1 1), (mkz bn_fr bn_1 4407920970296243842393367215006156084916469457145843978461). split.
  - intros E. apply (f_equal (@proj1_sig _ _)) in E. vm_compute in E. discriminate.
  - apply zp_eq. vm_compute. reflexivity.
Qed.

(** C73: for each of the four widths the matrix is generated, all matrices derived from it exist,
    and with any round constants the permutation is one to one and onto. *)
Theorem c73_permutation : forall width partial keys, In (width, partial) [(3, 55); (4, 55); (5, 56); (6, 56)] ->
  exists m, generate_mds BN width = Val m /\ (exists d, derive_mds_matrices BN m = Val d) /\
    (forall st st', length st = width -> length st' = width ->
       permute BN (power_sbox BN 5) width 8 partial keys (concat m) st = permute BN (power_sbox BN 5) width 8 partial keys (concat m) st' ->
       st = st') /\
    forall t, length t = width -> exists st, length st = width /\ permute BN (power_sbox BN 5) width 8 partial keys (concat m) st = t.
Proof.
  intros width partial keys I.
  assert (3 <= width /\ width <= 6) as [H1 H2]
    by (destruct I as [E|[E|[E|[E|[]]]]]; apply (f_equal fst) in E; cbn [fst] in E; lia).
  assert (forall k, 0 < k -> k < 3 * width -> from_u64 BN k <> f0) as D.
  { intros k K1 K2. apply from_u64_nz; auto. apply Z.lt_trans with 100%Z; [lia|reflexivity]. }
  destruct width as [|n]; [lia|].
  destruct (c70_total BN n ltac:(lia) D) as (m & d & E & Ed & _). exists m. split; auto. split; [eauto|].
  destruct (generate_ok BN (S n) D) as (m' & E' & Q & _). assert (m' = m) as -> by congruence.
  pose proof (generate_nonsing BN (S n) m D E) as NS.
  destruct c73_sbox as [SI SS].
  destruct (nonsing_inverse BN (S n) m ltac:(lia) Q NS) as (mi & Ei).
  destruct (inverse_val BN (S n) m mi ltac:(lia) Q Ei) as (Qi & I1 & _).
  change 8 with (4 + 4). apply (c71_bijective BN (power_sbox BN 5) (S n) 4 partial m keys mi); auto; lia.
Qed.

(** C73: so the untruncated hashes of different inputs are different. *)
Theorem c73_hash : forall width partial keys tag input input', In (width, partial) [(3, 55); (4, 55); (5, 56); (6, 56)] ->
  S (length input) = width -> S (length input') = width -> exists m, generate_mds BN width = Val m /\
  (hash_untruncated BN (power_sbox BN 5) width 8 partial keys (concat m) tag input =
   hash_untruncated BN (power_sbox BN 5) width 8 partial keys (concat m) tag input' -> input = input').
Proof.
  intros width partial keys tag input input' I L L'. destruct (c73_permutation width partial keys I) as (m & E & _ & INJ & _).
  exists m. split; auto. intros H.
  rewrite (proj1 (c71_hash BN (power_sbox BN 5) width partial m keys 8 tag input L)) in H.
  rewrite (proj1 (c71_hash BN (power_sbox BN 5) width partial m keys 8 tag input' L')) in H.
  apply (INJ (tag :: input) (tag :: input') L L') in H. congruence.
Qed.
Example c73_example : In (3, 55) [(3, 55); (4, 55); (5, 56); (6, 56)] /\ S (length [@f1 BN; @f1 BN]) = 3 /\
  proj1_sig (from_u64 BN 17) = 17%N.
Proof. split; [simpl; auto|]. split; [reflexivity|]. vm_compute. reflexivity. Qed.
Print Assumptions c73_field.
Print Assumptions c73_sbox.
Print Assumptions c73_cube_collides.
Print Assumptions c73_permutation.
Print Assumptions c73_hash.

