(** Primality certificates (Pocklington) and Fermat's little theorem, on which the concrete
    scalar fields of PrField.v rest. Not a model of code of the repository. *)
From Coq Require Import ZArith Znumtheory List Lia Bool Permutation Setoid Morphisms.
Import ListNotations.
Local Open Scope Z_scope.

(** Congruence. *)
Definition cg (n a b : Z) : Prop := (n | a - b).
Global Instance cg_equiv n : Equivalence (cg n).
Proof.
  split.
  - intros a. unfold cg. rewrite Z.sub_diag. apply Z.divide_0_r.
  - intros a b (k & E). exists (- k). lia.
  - intros a b c (k & E) (j & E'). exists (k + j). lia.
Qed.
Global Instance cg_mul n : Proper (cg n ==> cg n ==> cg n) Z.mul.
Proof. intros a b (k & E) c d (j & E'). exists (k * c + b * j). nia. Qed.
Global Instance cg_sub n : Proper (cg n ==> cg n ==> cg n) Z.sub.
Proof. intros a b (k & E) c d (j & E'). exists (k - j). lia. Qed.
Lemma cg_mod n a : cg n (a mod n) a.
Proof.
  destruct (Z.eq_dec n 0) as [->|NZ].
  - unfold cg. rewrite Zmod_0_r, Z.sub_diag. apply Z.divide_0_r.
  - exists (- (a / n)). pose proof (Z.div_mod a n NZ). lia.
Qed.
Lemma cg_eq n a b : n <> 0 -> cg n a b <-> a mod n = b mod n.
Proof.
  intros Hn. split; intros E.
  - destruct E as (k & E). replace a with (b + k * n) by lia. apply Z_mod_plus_full.
  - rewrite <- (cg_mod n a), <- (cg_mod n b), E. reflexivity.
Qed.

(** * Powers *)
Fixpoint powmod (b : Z) (e : positive) (n : Z) : Z :=
  match e with
  | xH => b mod n
  | xO e => let r := powmod b e n in (r * r) mod n
  | xI e => let r := powmod b e n in (b * ((r * r) mod n)) mod n
  end.

Lemma powmod_spec b e n : n <> 0 -> powmod b e n = b ^ Zpos e mod n.
Proof.
  intros Hn. revert b. induction e as [e IH|e IH|]; intros b; cbn [powmod].
  - rewrite IH. rewrite Pos2Z.inj_xI, Z.pow_add_r, Z.pow_1_r, Z.pow_twice_r by lia.
    apply cg_eq; auto. rewrite !cg_mod. now rewrite Z.mul_comm.
  - rewrite IH. rewrite Pos2Z.inj_xO, Z.pow_twice_r. apply cg_eq; auto. now rewrite !cg_mod.
  - now rewrite Z.pow_1_r.
Qed.

Lemma cg_pow n a b k : 0 <= k -> cg n a b -> cg n (a ^ k) (b ^ k).
Proof.
  intros Hk E. pattern k. apply natlike_ind; [reflexivity| |exact Hk].
  intros x Hx IH. rewrite !Z.pow_succ_r by auto. rewrite IH. apply cg_mul; [exact E|reflexivity].
Qed.

Lemma cg_div n a b : n <> 0 -> cg n a b <-> (n | a - b).
Proof. reflexivity. Qed.

Lemma cg_cancel p a x y : prime p -> ~ (p | a) -> cg p (a * x) (a * y) -> cg p x y.
Proof.
  intros P NA E. pose proof (prime_ge_2 p P). unfold cg in *.
  replace (a * x - a * y) with (a * (x - y)) in E by ring. apply prime_mult in E; auto. tauto.
Qed.

Lemma prime_pow p a k : prime p -> 0 <= k -> (p | a ^ k) -> (p | a).
Proof.
  intros P Hk. pattern k. apply natlike_ind; [| |exact Hk].
  - rewrite Z.pow_0_r. intros D. pose proof (prime_ge_2 p P). apply Z.divide_1_r in D. lia.
  - intros x Hx IH D. rewrite Z.pow_succ_r in D by auto. apply prime_mult in D; auto. tauto.
Qed.

(** * Prime divisors *)
Lemma prime_divisor n : 1 < n -> exists p, prime p /\ (p | n).
Proof.
  intros H. assert (0 <= n) as H0 by lia. revert n H0 H.
  apply (Z_lt_induction (fun n => 1 < n -> exists p, prime p /\ (p | n))).
  intros n IH Hn. destruct (prime_dec n) as [P|NP]; [exists n; split; auto; apply Z.divide_refl|].
  destruct (not_prime_divide n Hn NP) as (d & Hd & D). destruct (IH d) as (p & P & Dp); [lia|lia|].
  exists p. split; auto. eapply Z.divide_trans; eauto.
Qed.

Lemma small_divisor n : 1 < n -> ~ prime n -> exists p, prime p /\ (p | n) /\ p * p <= n.
Proof.
  intros H NP. destruct (not_prime_divide n H NP) as (d & Hd & (e & E)).
  assert (exists c, 1 < c /\ (c | n) /\ c * c <= n) as (c & C1 & C2 & C3).
  { destruct (Z.le_gt_cases d e).
    - exists d. repeat split; [lia|now exists e|nia].
    - exists e. split; [nia|]. split; [exists d; lia|nia]. }
  destruct (prime_divisor c C1) as (p & P & D). exists p. split; auto. split; [eapply Z.divide_trans; eauto|].
  pose proof (prime_ge_2 p P). apply Z.divide_pos_le in D; [|lia]. nia.
Qed.

(** Trial division. *)
Fixpoint trial (fuel : nat) (d n : Z) : bool :=
  if n <? d * d then true else
  match fuel with
  | O => false
  | S fuel => if n mod d =? 0 then false else trial fuel (d + 1) n
  end.

Lemma trial_spec fuel : forall d n, 0 < d -> trial fuel d n = true -> forall k, d <= k -> k * k <= n -> n mod k <> 0.
Proof.
  induction fuel as [|fuel IH]; intros d n Hd; simpl; destruct (Z.ltb_spec n (d * d)); intros T k H1 H2; try discriminate; try nia.
  destruct (Z.eqb_spec (n mod d) 0) as [|NZ]; [discriminate|].
  destruct (Z.eq_dec k d) as [->|]; auto. apply (IH (d + 1) n); auto; lia.
Qed.

Lemma trial_prime fuel n : 1 < n -> trial fuel 2 n = true -> prime n.
Proof.
  intros H T. destruct (prime_dec n) as [|NP]; auto. exfalso.
  destruct (small_divisor n H NP) as (p & P & D & Q). pose proof (prime_ge_2 p P).
  apply (trial_spec fuel 2 n ltac:(lia) T p); auto. apply Z.mod_divide; auto. lia.
Qed.

(** * Pocklington *)
Definition prodl (l : list Z) : Z := fold_right Z.mul 1 l.

Lemma prodl_div l q : In q l -> (q | prodl l).
Proof.
  induction l as [|a l IH]; simpl; intros H; [easy|]. destruct H as [->|H].
  - apply Z.divide_factor_l.
  - apply Z.divide_mul_r. auto.
Qed.
Lemma prime_prodl l p : Forall prime l -> prime p -> (p | prodl l) -> In p l.
Proof.
  induction l as [|a l IH]; simpl; intros F P D.
  - pose proof (prime_ge_2 p P). apply Z.divide_1_r in D. lia.
  - inversion F; subst. apply prime_mult in D; auto. destruct D as [D|D]; [left|right; auto].
    symmetry. now apply prime_div_prime.
Qed.

Section Pock.
Variables (n a R : Z) (qs : list Z).
Let F := prodl qs.
Hypothesis n1 : 1 < n.
Hypothesis nFR : n - 1 = F * R.
Hypothesis R0 : 0 <= R.
Hypothesis Qs : Forall prime qs.
Hypothesis F1 : 1 < F.
Hypothesis E1 : cg n (a ^ (n - 1)) 1.
Hypothesis E2 : forall q, In q qs -> Z.gcd (a ^ ((n - 1) / q) - 1) n = 1.
Hypothesis big : n < F * F.

Section Divisor.
Variable p : Z.
Hypothesis Pp : prime p.
Hypothesis Dp : (p | n).
Let b := a ^ R.

Lemma cg_down x y : cg n x y -> cg p x y.
Proof.
  pose proof (prime_ge_2 p Pp). intros E. unfold cg in *.
  eapply Z.divide_trans; eauto.
Qed.
Lemma bF : cg p (b ^ F) 1.
Proof. unfold b. rewrite <- Z.pow_mul_r by lia. rewrite Z.mul_comm, <- nFR. now apply cg_down. Qed.
Lemma not_pb : ~ (p | b).
Proof.
  intros D. pose proof bF as E. pose proof (prime_ge_2 p Pp). apply cg_div in E; [|lia].
  assert (p | b ^ F) as D2.
  { replace F with (Z.succ (F - 1)) by lia. rewrite Z.pow_succ_r by lia. now apply Z.divide_mul_l. }
  assert (p | 1) as D1. { replace 1 with (b ^ F - (b ^ F - 1)) by ring. now apply Z.divide_sub_r. }
  apply Z.divide_1_r in D1. lia.
Qed.
Lemma bq q : In q qs -> ~ cg p (b ^ (F / q)) 1.
Proof.
  intros Hq E. pose proof (prime_ge_2 p Pp). specialize (E2 q Hq).
  destruct (prodl_div qs q Hq) as (k & Ek). fold F in Ek.
  pose proof (prime_ge_2 q (proj1 (Forall_forall _ _) Qs q Hq)).
  assert (F / q = k) as Fk by (rewrite Ek; apply Z.div_mul; lia).
  assert ((n - 1) / q = k * R) as Nk. { rewrite nFR, Ek. replace (k * q * R) with (k * R * q) by ring. apply Z.div_mul. lia. }
  rewrite Fk in E. rewrite Nk in E2. unfold b in E. rewrite <- Z.pow_mul_r in E by nia.
  rewrite (Z.mul_comm R) in E. apply cg_div in E; [|lia].
  assert (p | 1) as D1. { rewrite <- E2. now apply Z.gcd_greatest. }
  apply Z.divide_1_r in D1. lia.
Qed.

Lemma no_small_order d : 0 < d -> d < F -> ~ cg p (b ^ d) 1.
Proof.
  intros H. assert (0 <= d) as H0 by lia. revert d H0 H.
  apply (Z_lt_induction (fun d => 0 < d -> d < F -> ~ cg p (b ^ d) 1)).
  intros d IH Hd HF E. pose proof (Z.mod_pos_bound F d Hd) as MB.
  pose proof (Z.div_mod F d ltac:(lia)) as DM. pose proof (Z.div_pos F d ltac:(lia) Hd).
  assert (cg p (b ^ (F mod d)) 1) as Er.
  { rewrite <- bF. rewrite DM at 2. rewrite Z.pow_add_r, Z.pow_mul_r by lia.
    rewrite (cg_pow p (b ^ d) 1 (F / d)) by auto. rewrite Z.pow_1_l by auto. now rewrite Z.mul_1_l. }
  destruct (Z.eq_dec (F mod d) 0) as [Z0|NZ].
  - rewrite Z0, Z.add_0_r in DM. set (k := F / d) in *. assert (1 < k) by nia.
    destruct (prime_divisor k ltac:(auto)) as (q & Pq & (j & Ej)). pose proof (prime_ge_2 q Pq).
    assert (In q qs) as Hq. { apply prime_prodl; auto. fold F. rewrite DM, Ej. exists (d * j). ring. }
    apply (bq q Hq). replace (F / q) with (d * j).
    2:{ rewrite DM, Ej. replace (d * (j * q)) with (d * j * q) by ring. symmetry. apply Z.div_mul. lia. }
    assert (0 <= j) by nia. rewrite Z.pow_mul_r by lia. rewrite (cg_pow p _ 1 j) by auto. now rewrite Z.pow_1_l.
  - apply (IH (F mod d)); auto; lia.
Qed.

Lemma order_le : F <= p - 1.
Proof.
  pose proof (prime_ge_2 p Pp) as P2.
  set (l := map (fun i => b ^ Z.of_nat i mod p) (seq 0 (Z.to_nat F))).
  assert (NoDup l) as ND.
  { unfold l. assert (forall i j, (i < j)%nat -> (j < Z.to_nat F)%nat -> b ^ Z.of_nat i mod p <> b ^ Z.of_nat j mod p) as NE.
    { intros i j Hij Hj E. apply (no_small_order (Z.of_nat (j - i))); [lia|lia|].
      apply (cg_cancel p (b ^ Z.of_nat i)); auto.
      - intros D. apply prime_pow in D; auto; [|lia]. now apply not_pb.
      - rewrite <- Z.pow_add_r by lia. rewrite Z.mul_1_r. replace (Z.of_nat i + Z.of_nat (j - i)) with (Z.of_nat j) by lia.
        apply cg_eq; auto. lia. }
    assert (forall k m, (k + m <= Z.to_nat F)%nat -> NoDup (map (fun i => b ^ Z.of_nat i mod p) (seq k m))) as G.
    { intros k m. revert k. induction m as [|m IH]; intros k Hk; simpl; constructor.
      - rewrite in_map_iff. intros (j & E & Hj). apply in_seq in Hj. apply (NE k j); [lia|lia|auto].
      - apply IH. lia. }
    apply G. lia. }
  set (l' := map Z.of_nat (seq 1 (Z.to_nat (p - 1)))).
  assert (incl l l') as I.
  { intros x Hx. unfold l in Hx. apply in_map_iff in Hx. destruct Hx as (i & <- & Hi).
    pose proof (Z.mod_pos_bound (b ^ Z.of_nat i) p ltac:(lia)) as MB.
    assert (b ^ Z.of_nat i mod p <> 0) as NZ.
    { intros Z0. apply Z.mod_divide in Z0; [|lia]. apply prime_pow in Z0; auto; [|lia]. now apply not_pb. }
    unfold l'. apply in_map_iff. exists (Z.to_nat (b ^ Z.of_nat i mod p)). split; [lia|]. apply in_seq. lia. }
  pose proof (NoDup_incl_length ND I) as L. unfold l, l' in L. rewrite !map_length, !seq_length in L. lia.
Qed.
End Divisor.

Theorem pocklington : prime n.
Proof.
  destruct (prime_dec n) as [|NP]; auto. exfalso. destruct (small_divisor n n1 NP) as (p & P & D & Q).
  pose proof (order_le p P D). nia.
Qed.
End Pock.

(** The certificate as a test. *)
Definition pock_test (n a : Z) (qs : list Z) : bool :=
  let F := prodl qs in
  (1 <? n) && (1 <? F) && ((n - 1) mod F =? 0) && (n <? F * F) &&
  (powmod a (Z.to_pos (n - 1)) n =? 1) &&
  forallb (fun q => (q <? n - 1) && (Z.gcd (powmod a (Z.to_pos ((n - 1) / q)) n - 1) n =? 1)) (nodup Z.eq_dec qs).

Theorem pock_test_prime n a qs : Forall prime qs -> pock_test n a qs = true -> prime n.
Proof.
  intros Qs T. unfold pock_test in T. repeat rewrite andb_true_iff in T.
  destruct T as (((((T1 & T2) & T3) & T4) & T5) & T6).
  apply Z.ltb_lt in T1, T2, T4. apply Z.eqb_eq in T3, T5. rewrite forallb_forall in T6.
  rewrite powmod_spec, Z2Pos.id in T5 by lia.
  set (F := prodl qs) in *. apply Z.mod_divide in T3; [|lia]. destruct T3 as (R & ER).
  apply (pocklington n a R qs); auto; fold F.
  - lia.
  - nia.
  - apply cg_eq; [lia|]. rewrite T5. symmetry. apply Z.mod_1_l. lia.
  - intros q Hq. specialize (T6 q (proj2 (nodup_In Z.eq_dec _ _) Hq)). rewrite andb_true_iff in T6. destruct T6 as [A B].
    apply Z.ltb_lt in A. apply Z.eqb_eq in B.
    pose proof (prime_ge_2 q (proj1 (Forall_forall _ _) Qs q Hq)).
    assert (0 < (n - 1) / q) by (apply Z.div_str_pos; lia).
    rewrite powmod_spec, Z2Pos.id in B by lia. etransitivity; [|exact B].
    rewrite (Z.gcd_comm _ n), <- (Z.gcd_mod (a ^ ((n - 1) / q) - 1) n) by lia.
    rewrite (Z.gcd_comm (a ^ ((n - 1) / q) mod n - 1) n), <- (Z.gcd_mod (a ^ ((n - 1) / q) mod n - 1) n) by lia.
    f_equal. apply cg_eq; [lia|]. now rewrite cg_mod.
Qed.

(** The same with the quotients of all reductions given, which makes the test cheap. *)
Definition mulc (n x y : Z) (o : list Z) : option (Z * list Z) :=
  match o with
  | [] => None
  | k :: o => let r := x * y - k * n in if (0 <=? r) && (r <? n) then Some (r, o) else None
  end.
Fixpoint powc (n b : Z) (e : positive) (o : list Z) : option (Z * list Z) :=
  match e with
  | xH => Some (b, o)
  | xO e => match powc n b e o with Some (r, o) => mulc n r r o | None => None end
  | xI e => match powc n b e o with
            | Some (r, o) => match mulc n r r o with Some (r, o) => mulc n b r o | None => None end
            | None => None
            end
  end.

Lemma mulc_spec n x y o r o' : mulc n x y o = Some (r, o') -> cg n r (x * y).
Proof.
  unfold mulc. destruct o as [|k o]; [discriminate|]. destruct (_ && _); [|discriminate].
  intros E. assert (r = x * y - k * n) as -> by congruence. exists (- k). ring.
Qed.
Lemma powc_spec n b e : forall o r o', powc n b e o = Some (r, o') -> cg n r (b ^ Zpos e).
Proof.
  induction e as [e IH|e IH|]; cbn [powc]; intros o r o' E.
  - destruct (powc n b e o) as [[r1 o1]|] eqn:E1; [|discriminate].
    destruct (mulc n r1 r1 o1) as [[r2 o2]|] eqn:E2; [|discriminate].
    apply mulc_spec in E. apply mulc_spec in E2. apply IH in E1.
    rewrite E, E2, E1. rewrite Pos2Z.inj_xI, Z.pow_add_r, Z.pow_1_r, Z.pow_twice_r by lia. now rewrite Z.mul_comm.
  - destruct (powc n b e o) as [[r1 o1]|] eqn:E1; [|discriminate].
    apply mulc_spec in E. apply IH in E1. rewrite E, E1. rewrite Pos2Z.inj_xO, Z.pow_twice_r. reflexivity.
  - assert (r = b) as -> by congruence. rewrite Z.pow_1_r. reflexivity.
Qed.

Fixpoint gcds (n c D : Z) (ds : list Z) (o : list Z) : bool :=
  match ds with
  | [] => true
  | q :: ds => match powc n c (Z.to_pos (D / q)) o with
               | Some (r, o) => (Z.gcd (r - 1) n =? 1) && gcds n c D ds o
               | None => false
               end
  end.
Definition pock_cert (n a : Z) (ds qs o1 o2 o3 : list Z) : bool :=
  let F := prodl qs in
  let D := prodl ds in
  (1 <? n) && (1 <? F) && ((n - 1) mod F =? 0) && (n <? F * F) && (D <? n - 1) && (0 <? D) && ((n - 1) mod D =? 0) &&
  forallb (fun q => (0 <? q) && (q <? D) && existsb (Z.eqb q) ds) qs &&
  match powc n a (Z.to_pos ((n - 1) / D)) o1 with
  | Some (c, _) => gcds n c D ds o3 && match powc n c (Z.to_pos D) o2 with Some (r, _) => r =? 1 | None => false end
  | None => false
  end.

Lemma gcd_cg n x y : n <> 0 -> cg n x y -> Z.gcd (x - 1) n = Z.gcd (y - 1) n.
Proof.
  intros Hn E. rewrite (Z.gcd_comm _ n), <- (Z.gcd_mod (x - 1) n), (Z.gcd_comm (y - 1) n), <- (Z.gcd_mod (y - 1) n) by auto.
  f_equal. apply cg_eq; auto. now rewrite E.
Qed.
Lemma gcds_spec n c D ds : forall o, n <> 0 -> gcds n c D ds o = true ->
  forall q, In q ds -> 0 < D / q -> Z.gcd (c ^ (D / q) - 1) n = 1.
Proof.
  induction ds as [|d ds IH]; intros o Hn T q Hq HD; [easy|]. cbn [gcds] in T.
  destruct (powc n c (Z.to_pos (D / d)) o) as [[r o']|] eqn:E; [|discriminate].
  apply andb_true_iff in T. destruct T as [T1 T2]. destruct Hq as [->|Hq]; [|eauto].
  apply Z.eqb_eq in T1. apply powc_spec in E. rewrite Z2Pos.id in E by auto.
  rewrite <- (gcd_cg n _ _ Hn E). exact T1.
Qed.

Theorem pock_cert_prime n a ds qs o1 o2 o3 : Forall prime qs -> pock_cert n a ds qs o1 o2 o3 = true -> prime n.
Proof.
  intros Qs T. unfold pock_cert in T. repeat rewrite andb_true_iff in T.
  destruct T as ((((((((T1 & T2) & T3) & T4) & TD) & TD0) & T5) & T6) & T7).
  apply Z.ltb_lt in T1, T2, T4, TD, TD0. apply Z.eqb_eq in T3, T5. rewrite forallb_forall in T6.
  set (F := prodl qs) in *. set (D := prodl ds) in *.
  destruct (powc n a _ o1) as [[c oc]|] eqn:E1; [|discriminate].
  apply andb_true_iff in T7. destruct T7 as [TG TO].
  destruct (powc n c _ o2) as [[r orr]|] eqn:EO; [|discriminate]. apply Z.eqb_eq in TO. subst r.
  apply Z.mod_divide in T5; [|lia]. destruct T5 as (k & Ek).
  assert ((n - 1) / D = k) as Dk by (rewrite Ek; apply Z.div_mul; lia). assert (0 < k) by nia.
  apply powc_spec in E1. rewrite Dk, Z2Pos.id in E1 by auto. apply powc_spec in EO. rewrite Z2Pos.id in EO by auto.
  apply Z.mod_divide in T3; [|lia]. destruct T3 as (R & ER).
  apply (pocklington n a R qs); auto; fold F.
  - lia.
  - nia.
  - rewrite Ek, Z.pow_mul_r by lia. rewrite <- (cg_pow n c (a ^ k) D) by (auto; lia). symmetry. exact EO.
  - intros q Hq. specialize (T6 q Hq). repeat rewrite andb_true_iff in T6. destruct T6 as ((Q0 & QD) & QI).
    apply Z.ltb_lt in Q0, QD. apply existsb_exists in QI. destruct QI as (q' & QI & QE). apply Z.eqb_eq in QE. subst q'.
    assert (0 < D / q) by (apply Z.div_str_pos; lia).
    destruct (prodl_div ds q QI) as (j & Ej). fold D in Ej.
    assert (D / q = j) as Dj by (rewrite Ej; apply Z.div_mul; lia).
    assert ((n - 1) / q = k * j) as ->. { rewrite Ek, Ej. replace (k * (j * q)) with (k * j * q) by ring. apply Z.div_mul. lia. }
    rewrite Z.pow_mul_r by lia. pose proof (gcds_spec n c D ds o3 ltac:(lia) TG q QI ltac:(auto)) as G. rewrite Dj in *.
    rewrite <- (gcd_cg n (c ^ j)) by (try lia; apply cg_pow; auto; lia). exact G.
Qed.

(** * Fermat *)
Theorem fermat p x : prime p -> ~ (p | x) -> cg p (x ^ (p - 1)) 1.
Proof.
  intros P NX. pose proof (prime_ge_2 p P) as P2.
  set (l := map Z.of_nat (seq 1 (Z.to_nat (p - 1)))).
  assert (forall y, In y l <-> 0 < y < p) as IN.
  { intros y. unfold l. rewrite in_map_iff. split.
    - intros (i & <- & Hi). apply in_seq in Hi. lia.
    - intros H. exists (Z.to_nat y). split; [lia|]. apply in_seq. lia. }
  assert (NoDup l) as ND. { apply FinFun.Injective_map_NoDup; [|apply seq_NoDup]. intros i j E. lia. }
  set (l' := map (fun y => (x * y) mod p) l).
  assert (NoDup l') as ND'.
  { unfold l'. assert (forall m, incl m l -> NoDup m -> NoDup (map (fun y => (x * y) mod p) m)) as G.
    { intros m. induction m as [|y m IH]; intros I N; simpl; constructor.
      - rewrite in_map_iff. intros (z & E & Hz). inversion N; subst.
        assert (0 < y < p) as Hy by (apply IN, I; left; auto). assert (0 < z < p) as Hz' by (apply IN, I; right; auto).
        assert (cg p z y) as E' by (apply (cg_cancel p x); auto; apply cg_eq; auto; lia).
        apply cg_eq in E'; [|lia]. rewrite !Z.mod_small in E' by lia. now subst.
      - inversion N; subst. apply IH; auto. intros z Hz. apply I. now right. }
    apply G; auto. apply incl_refl. }
  assert (incl l' l) as I.
  { intros z Hz. unfold l' in Hz. apply in_map_iff in Hz. destruct Hz as (y & <- & Hy). apply IN in Hy. apply IN.
    pose proof (Z.mod_pos_bound (x * y) p ltac:(lia)).
    assert ((x * y) mod p <> 0). { intros Z0. apply Z.mod_divide in Z0; [|lia]. apply prime_mult in Z0; auto.
      destruct Z0 as [|D]; auto. apply Z.divide_pos_le in D; lia. } lia. }
  assert (Permutation l' l) as PM. { apply NoDup_Permutation_bis; auto. unfold l'. now rewrite map_length. }
  assert (forall u v, Permutation u v -> prodl u = prodl v) as PP.
  { intros u v H. induction H; simpl; auto; try lia. }
  assert (forall m, cg p (prodl (map (fun y => (x * y) mod p) m)) (x ^ Z.of_nat (length m) * prodl m)) as G.
  { induction m as [|y m IH]; [reflexivity|]. cbn [map prodl fold_right length]. fold (prodl m).
    change (fold_right Z.mul 1 (map (fun y => (x * y) mod p) m)) with (prodl (map (fun y => (x * y) mod p) m)).
    rewrite IH, cg_mod. rewrite Nat2Z.inj_succ, Z.pow_succ_r by lia.
    replace (x * y * (x ^ Z.of_nat (length m) * prodl m)) with (x * x ^ Z.of_nat (length m) * (y * prodl m)) by ring. reflexivity. }
  specialize (G l). fold l' in G. rewrite (PP _ _ PM) in G.
  assert (length l = Z.to_nat (p - 1)) as L by (unfold l; now rewrite map_length, seq_length).
  rewrite L, Z2Nat.id in G by lia.
  apply (cg_cancel p (prodl l)); auto.
  - intros D. assert (forall m, (forall y, In y m -> 0 < y < p) -> ~ (p | prodl m)) as ND2.
    { induction m as [|y m IH]; simpl; intros H D'.
      - apply Z.divide_1_r in D'. lia.
      - apply prime_mult in D'; auto. destruct D' as [D'|D'].
        + specialize (H y (or_introl eq_refl)). apply Z.divide_pos_le in D'; lia.
        + apply IH; auto. }
    apply (ND2 l); auto. intros y. apply IN.
  - rewrite Z.mul_1_r, Z.mul_comm. symmetry. exact G.
Qed.
