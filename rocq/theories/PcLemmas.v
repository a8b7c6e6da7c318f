(** * Poseidon and Merkle paths as circuits: lemmas *)
From Coq Require Import List ZArith NArith Znumtheory Lia Bool Field_theory Ring.
From Verif Require Import WmModel GdModel GdProps AlgBase PrField MtModel PcModel PcSpec.
From Verif Require PxModel.
Import ListNotations.
Local Open Scope Z_scope.

Lemma always_weak {A} (c : circuit A) (R S : A -> Prop) : always c R -> (forall a, R a -> S a) -> always c S.
Proof. intros [E H] W. split; auto. Qed.
Lemma always_ret {A} (a : A) (R : A -> Prop) : R a -> always (ret a) R.
Proof.
  intros H. split; [exists [], a; reflexivity|]. intros b (tape & rest & E). apply ret_inv in E. destruct E as [-> _]. exact H.
Qed.
Lemma always_seq {A B} (c : circuit A) (k : A -> circuit B) R S :
  always c R -> (forall a, R a -> always (k a) S) -> always (seq c k) S.
Proof.
  intros [(t & a & E) H] K. split.
  - assert (Ra : R a) by (apply H; exists (t ++ []), []; apply E).
    destruct (K a Ra) as [(t' & b & E') _]. exists (t ++ t'), b. intros rest. rewrite <- app_assoc.
    eapply seq_intro; [apply E|apply E'].
  - intros b (tape & rest & X). step X. apply (K a0); [apply H; exists tape, t0; exact E0|]. exists t0, rest. exact X.
Qed.

Section Field.
Variable p : N.
Hypothesis p1 : (1 < p)%N.
Hypothesis P : prime (Z.of_N p).
Hypothesis p2 : (2 < p)%N.
Notation q := (Z.of_N p).
Notation K := (prime_fld p p1 P p2).
Notation mk := (mkz p p1).

Lemma num_elem (k : zp p) : elem q (num k).
Proof. pose proof (zp_small p k). unfold elem, num. lia. Qed.
Lemma num_inj (a b : zp p) : num a = num b -> a = b.
Proof. intros E. apply zp_eq. now apply N2Z.inj. Qed.
Lemma num_mk n : num (mk n) = Z.of_N n mod q.
Proof. unfold num. cbn [mkz proj1_sig]. apply N2Z.inj_mod. Qed.
Lemma num_ex v : elem q v -> exists k : zp p, num k = v.
Proof.
  intros [V1 V2]. exists (mk (Z.to_N v)). rewrite num_mk, Z2N.id by lia. apply Z.mod_small. lia.
Qed.
Lemma num_add (a b : K) : num (p := p) (fadd a b) = (num (p := p) a + num (p := p) b) mod q.
Proof. refine (eq_trans (num_mk _) _). rewrite N2Z.inj_add. reflexivity. Qed.
Lemma num_mul (a b : K) : num (p := p) (fmul a b) = (num (p := p) a * num (p := p) b) mod q.
Proof. refine (eq_trans (num_mk _) _). rewrite N2Z.inj_mul. reflexivity. Qed.
Lemma num_0 : num (p := p) (f0 : K) = 0.
Proof. exact (num_mk _). Qed.
Lemma num_1 : num (p := p) (f1 : K) = 1 mod q.
Proof. exact (num_mk _). Qed.

Notation rp := (@rep p).

Lemma rep_add x y (a b : K) : rp x a -> rp y b -> rp (fp_add q x y) (fadd a b).
Proof.
  unfold rep. intros X Y. rewrite num_add, <- X, <- Y. unfold fp_add. destruct x, y; reflexivity.
Qed.
Lemma rep_const (a : K) : rp (Const (num (p := p) a)) a.
Proof. reflexivity. Qed.
Lemma rep_mul_const x (a b : K) : rp x a -> rp (fp_mul_const q x (num (p := p) b)) (fmul a b).
Proof. unfold rep. intros X. rewrite num_mul, <- X. destruct x; reflexivity. Qed.

Lemma always_witness (R : Z -> Prop) : (forall v, elem q v -> R v) -> always (new_witness q) R.
Proof.
  intros H. split.
  - exists [0], 0. intros rest. cbn [app]. apply witness_take; auto. split; [lia|]. pose proof (prime_ge_2 _ P). lia.
  - intros v (tape & rest & E). apply H. eapply witness_inv; eauto.
Qed.

(** A witness that is determined by a constraint. *)
Lemma always_determined {A} (e : Z -> Z) (k : Z -> A) (w : Z) (R : A -> Prop) : elem q w ->
  (forall v, elem q v -> (e v mod q = 0 <-> v = w)) -> R (k w) ->
  always (v <- new_witness q ;; _ <- enforce (e v mod q =? 0) ;; ret (k v)) R.
Proof.
  intros W D Rw. split.
  - exists [w], (k w). intros rest. cbn [app]. eapply seq_intro; [apply witness_take; auto|].
    eapply seq_intro; [|reflexivity]. unfold enforce. do 2 f_equal. f_equal. apply Z.eqb_eq. now apply D.
  - intros x (tape & rest & E). step E. step E. apply ret_inv in E. destruct E as [-> _].
    apply (witness_inv q P) in E0. apply enforce_inv in E1. destruct E1 as [E1 _]. apply Z.eqb_eq in E1.
    apply D in E1; auto. now rewrite E1.
Qed.

Lemma mod_zero_elem a v : elem q v -> ((a - v) mod q = 0 <-> v = a mod q).
Proof.
  intros V. pose proof (prime_ge_2 _ P). split.
  - intros E. apply (eq_elem q P); auto; [apply (mod_elem q P)|].
    apply Z.mod_divide in E; [|lia]. destruct E as [k E]. replace a with (v + k * q) by lia.
    rewrite Z_mod_plus_full, (Z.mod_small v) by (unfold elem in V; lia). rewrite Z.sub_diag. reflexivity.
  - intros ->. rewrite Zminus_mod_idemp_r, Z.sub_diag. reflexivity.
Qed.

Lemma always_mul x y (a b : K) : rp x a -> rp y b -> always (fp_mul q x y) (fun z => rp z (fmul a b)).
Proof.
  intros X Y. assert (M : (value x * value y) mod q = num (p := p) (fmul a b : K)) by (rewrite X, Y; symmetry; apply num_mul).
  destruct x as [u|u], y as [v|v]; cbn [fp_mul fp_mul_const value] in *.
  - apply always_ret. exact M.
  - apply always_ret. unfold rep. cbn [value]. rewrite Z.mul_comm. exact M.
  - apply always_ret. exact M.
  - unfold enforce_equal. apply (always_determined (fun w => u * v - w) Var ((u * v) mod q)).
    + apply (mod_elem q P).
    + intros w W. now apply mod_zero_elem.
    + exact M.
Qed.

Lemma fpow_add (a : K) m n : PxModel.fpow K a (m + n) = fmul (PxModel.fpow K a m) (PxModel.fpow K a n).
Proof.
  pose proof (F_R (fth K)) as [A1 A2 A3 M1 M2 M3 D1 D2 D3].
  induction m; cbn [Nat.add PxModel.fpow]; [now rewrite M1|]. now rewrite IHm, M3.
Qed.

Lemma always_pow_pos x (a : K) e : rp x a -> always (pow_pos q x e) (fun z => rp z (PxModel.fpow K a (Pos.to_nat e))).
Proof.
  pose proof (F_R (fth K)) as [A1 A2 A3 M1 M2 M3 D1 D2 D3].
  intros X. induction e; cbn [pow_pos].
  - eapply always_seq; [exact IHe|]. intros r Hr. eapply always_seq; [apply always_mul; exact Hr|]. intros s Hs.
    rewrite Pos2Nat.inj_xI. replace (S (2 * Pos.to_nat e))%nat with (Pos.to_nat e + Pos.to_nat e + 1)%nat by lia.
    rewrite !fpow_add. replace (PxModel.fpow K a 1) with a; [now apply always_mul|].
    cbn [PxModel.fpow]. now rewrite M2, M1.
  - eapply always_seq; [exact IHe|]. intros r Hr. rewrite Pos2Nat.inj_xO.
    replace (2 * Pos.to_nat e)%nat with (Pos.to_nat e + Pos.to_nat e)%nat by lia. rewrite fpow_add. now apply always_mul.
  - eapply always_seq with (R := fun s => rp s (f1 : K)).
    + assert (O1 : rp (Const (1 mod q)) (f1 : K)) by (unfold rep; cbn [value]; now rewrite num_1).
      eapply always_weak; [apply always_mul; exact O1|]. intros s. cbv beta. now rewrite M1.
    + intros s Hs. change (Pos.to_nat 1) with 1%nat. cbn [PxModel.fpow]. rewrite M2. now apply always_mul.
Qed.

Lemma always_pow x (a : K) e : rp x a -> always (pow_by_constant q x e) (fun z => rp z (PxModel.fpow K a (N.to_nat e))).
Proof.
  intros X. destruct e as [|e]; [|exact (always_pow_pos x a e X)].
  apply always_ret. unfold rep. cbn [value]. now rewrite <- num_1.
Qed.

(** ** Poseidon *)
Lemma always_each {A B} (R : fpvar -> A -> Prop) (S : fpvar -> B -> Prop) f (g : nat -> A -> B) :
  (forall i x a, R x a -> always (f i x) (fun y => S y (g i a))) ->
  forall xs l i, Forall2 R xs l ->
  always (each f i xs) (fun ys => Forall2 S ys (map (fun z => g (fst z) (snd z)) (combine (List.seq i (length l)) l))).
Proof.
  intros H xs. induction xs as [|x xs IH]; intros l i F; inversion F as [|? a ? l' Ra F' ]; subst; cbn [each].
  - apply always_ret. constructor.
  - eapply always_seq; [apply H; exact Ra|]. intros y Hy. eapply always_seq; [apply IH; exact F'|]. intros ys Hys.
    apply always_ret. cbn [length List.seq combine map fst snd]. constructor; auto.
Qed.

Lemma always_loop {A B} (R : A -> B -> Prop) f (g : nat -> B -> B) :
  (forall i x a, R x a -> always (f i x) (fun y => R y (g i a))) ->
  forall is x a, R x a -> always (loop f is x) (fun y => R y (fold_left (fun b i => g i b) is a)).
Proof.
  intros H is. induction is as [|i is IH]; intros x a Ra; cbn [loop fold_left]; [now apply always_ret|].
  eapply always_seq; [apply H; exact Ra|]. intros y Hy. now apply IH.
Qed.

Section Poseidon.
Variable exponent : N.
Variables width full partial : nat.
Variables keys mds : list K.
Notation sbox := (PxModel.power_sbox K (N.to_nat exponent)).
Notation nums := (map (@num p)).

Lemma nth_nums (l : list K) i : nth i (nums l) 0 = num (p := p) (PxModel.at_ K l i).
Proof. unfold PxModel.at_. rewrite <- num_0. apply map_nth. Qed.
Lemma keys_nums r : additive_keys width (nums keys) r = nums (PxModel.round_keys K width keys r).
Proof. unfold additive_keys, PxModel.round_keys. now rewrite skipn_map, firstn_map. Qed.

Lemma row_rep i xs l : Forall2 rp xs l -> forall j,
  Forall2 rp (row_products q width (nums mds) i j xs)
    (map (fun z => fmul (snd z) (PxModel.at_ K mds (width * i + fst z))) (combine (List.seq j (length l)) l)).
Proof.
  induction 1 as [|x a xs l X F IH]; intros j; cbn [row_products length List.seq combine map fst snd]; constructor; auto.
  rewrite nth_nums. now apply rep_mul_const.
Qed.
Lemma reduce_rep xs (l : list K) : Forall2 rp xs l -> rp (reduce q xs) (PxModel.reduce_add K l).
Proof.
  intros F. destruct F as [|x a xs l X F]; [unfold rep; cbn [reduce value PxModel.reduce_add]; now rewrite num_0|].
  cbn [reduce PxModel.reduce_add]. revert x a X. induction F as [|y b xs l Y F IH]; intros x a X; cbn [fold_left]; auto.
  apply IH. now apply rep_add.
Qed.
Lemma mds_rep xs (l : list K) : Forall2 rp xs l ->
  Forall2 rp (mds_multiply q width (nums mds) xs) (PxModel.mds_matrix_multiply K width mds l).
Proof.
  intros F. unfold mds_multiply, PxModel.mds_matrix_multiply. induction (List.seq 0 width); cbn [map]; constructor; auto.
  apply reduce_rep. now apply row_rep.
Qed.

Lemma always_full r xs (l : list K) : Forall2 rp xs l ->
  always (full_round_var q exponent width (nums keys) (nums mds) r xs)
    (fun ys => Forall2 rp ys (PxModel.full_round K sbox width keys mds r l)).
Proof.
  intros F. unfold full_round_var. rewrite keys_nums. eapply always_seq.
  - apply (always_each rp rp _ (fun i (e : K) => sbox (fadd e (PxModel.at_ K (PxModel.round_keys K width keys r) i)))); [|exact F].
    intros i x a X. apply always_pow. apply rep_add; auto. rewrite nth_nums. apply rep_const.
  - intros ys Hys. apply always_ret. now apply mds_rep.
Qed.

Lemma add_keys_rep (ks : list K) xs l : Forall2 rp xs l -> forall i,
  Forall2 rp (add_keys q (nums ks) i xs) (map (fun z => fadd (snd z) (PxModel.at_ K ks (fst z))) (combine (List.seq i (length l)) l)).
Proof.
  induction 1 as [|x a xs l X F IH]; intros i; cbn [add_keys length List.seq combine map fst snd]; constructor; auto.
  rewrite nth_nums. apply rep_add; auto. apply rep_const.
Qed.

Lemma always_partial r xs (l : list K) : l <> [] -> Forall2 rp xs l ->
  always (partial_round_var q exponent width (nums keys) (nums mds) r xs)
    (fun ys => Forall2 rp ys (PxModel.partial_round K sbox width keys mds r l)).
Proof.
  intros NE F. unfold partial_round_var, PxModel.partial_round, PxModel.mapi. rewrite keys_nums.
  pose proof (add_keys_rep (PxModel.round_keys K width keys r) xs l F 0) as A.
  destruct l as [|a l]; [contradiction|]. cbn [length List.seq combine map fst snd] in A |- *.
  inversion A as [|y b ys m Y G E1 E2]; subst.
  eapply always_seq; [apply always_pow; exact Y|]. intros z Hz. apply always_ret. apply mds_rep. now constructor.
Qed.

Definition good xs (l : list K) : Prop := Forall2 rp xs l /\ l <> [].
Hypothesis W : (0 < width)%nat.
Lemma mds_ne l : PxModel.mds_matrix_multiply K width mds l <> [].
Proof. unfold PxModel.mds_matrix_multiply. destruct width; [lia|discriminate]. Qed.

Lemma always_rest xs l : good xs l ->
  always (rest_var q exponent width full partial (nums keys) (nums mds) xs)
    (fun ys => good ys (PxModel.permute_without_first_round K sbox width full partial keys mds l)).
Proof.
  intros G.
  assert (F : forall i x a, good x a -> always (full_round_var q exponent width (nums keys) (nums mds) i x)
     (fun y => good y (PxModel.full_round K sbox width keys mds i a))).
  { intros i x a [X _]. eapply always_weak; [apply always_full; exact X|]. intros y Y. split; auto. apply mds_ne. }
  assert (Q : forall i x a, good x a -> always (partial_round_var q exponent width (nums keys) (nums mds) i x)
     (fun y => good y (PxModel.partial_round K sbox width keys mds i a))).
  { intros i x a [X N]. eapply always_weak; [apply always_partial; [exact N|exact X]|]. intros y Y. split; auto. apply mds_ne. }
  unfold rest_var, PxModel.permute_without_first_round, PxModel.half_full_rounds.
  eapply always_seq; [apply (always_loop good _ _ F); exact G|]. intros y Hy.
  eapply always_seq; [apply (always_loop good _ _ Q); exact Hy|]. intros z Hz.
  apply (always_loop good _ _ F). exact Hz.
Qed.

Lemma always_hash (tag : K) xs (l : list K) : Forall2 rp xs l ->
  exists h, PxModel.hash K sbox width full partial keys mds tag l = Some h /\
  always (hash_var q exponent width full partial (nums keys) (nums mds) (num (p := p) tag) xs) (fun y => rp y h).
Proof.
  intros F. unfold PxModel.hash, PxModel.hash_untruncated, hash_var, first_round_var.
  set (s0 := PxModel.first_round_with_domain_tag K sbox width keys mds tag l).
  assert (A0 : always (st <- each (fun i x => apply_sbox q exponent (fp_add_const q x (nth i (nums keys) 0))) 0
     (Const (num (p := p) tag) :: xs) ;; ret (mds_multiply q width (nums mds) st)) (fun y => good y s0)).
  { eapply always_seq.
    - apply (always_each rp rp _ (fun i (e : K) => sbox (fadd e (PxModel.at_ K keys i)))).
      + intros i x a X. apply always_pow. apply rep_add; auto. rewrite nth_nums. apply rep_const.
      + constructor; [apply rep_const|exact F].
    - intros ys Hys. apply always_ret. split; [apply mds_rep; exact Hys|apply mds_ne]. }
  set (s := PxModel.permute_without_first_round K sbox width full partial keys mds s0).
  assert (NE : s <> []).
  { destruct A0 as [(t & x & E) H]. assert (G : good x s0) by (apply H; exists (t ++ []), []; apply E).
    destruct (always_rest x s0 G) as [(t' & y & E') H']. apply (H' y). exists (t' ++ []), []. apply E'. }
  destruct s as [|h s'] eqn:Es; [contradiction|]. exists h. split; [reflexivity|].
  eapply always_seq; [exact A0|]. intros y Gy. eapply always_seq; [apply always_rest; exact Gy|].
  fold s. rewrite Es. intros z [Z1 _]. inversion Z1 as [|u a us m U V E1 E2]; subst. apply always_ret. exact U.
Qed.
End Poseidon.

(** ** Merkle paths *)
Lemma always_select bit x y (a b : zp p) : bit = 0 \/ bit = 1 -> rp x a -> rp y b ->
  always (select_fp q bit x y) (fun z => rp z (if bit =? 1 then a else b)).
Proof.
  intros B X Y.
  assert (V : always (r <- select_var q bit (value x) (value y) ;; ret (Var r)) (fun z => rp z (if bit =? 1 then a else b))).
  { eapply always_seq with (R := fun r => r = num (if bit =? 1 then a else b)).
    - unfold select_var, enforce_equal. rewrite X, Y.
      apply (always_determined (fun r => bit * (num a - num b) - (r - num b)) (fun r => r) (num (if bit =? 1 then a else b))).
      + apply num_elem.
      + intros v Ve. replace (bit * (num a - num b) - (v - num b)) with ((bit * (num a - num b) + num b) - v) by lia.
        rewrite mod_zero_elem by auto.
        replace ((bit * (num a - num b) + num b) mod q) with (num (if bit =? 1 then a else b)); [reflexivity|].
        destruct B as [-> | ->]; cbn [Z.eqb Pos.eqb].
        * replace (0 * (num a - num b) + num b) with (num b) by lia. symmetry. apply Z.mod_small, num_elem.
        * replace (1 * (num a - num b) + num b) with (num a) by lia. symmetry. apply Z.mod_small, num_elem.
      + reflexivity.
    - intros r ->. apply always_ret. reflexivity. }
  destruct x as [u|u], y as [v|v]; try exact V. cbn [select_fp]. apply always_ret. unfold rep in *. cbn [value] in *. subst.
  destruct B as [-> | ->]; cbn [Z.eqb Pos.eqb].
  - replace (0 * num a + (1 - 0) * num b) with (num b) by lia. apply Z.mod_small, num_elem.
  - replace (1 * num a + (1 - 1) * num b) with (num a) by lia. apply Z.mod_small, num_elem.
Qed.

Lemma always_swap bit x y (a b : zp p) : bit = 0 \/ bit = 1 -> rp x a -> rp y b ->
  always (swap_fp q bit x y) (fun s => rp (fst s) (if bit =? 1 then b else a) /\ rp (snd s) (if bit =? 1 then a else b)).
Proof.
  intros B X Y. unfold swap_fp. eapply always_seq; [apply always_select; eassumption|]. intros u U.
  eapply always_seq; [apply always_select; eassumption|]. intros v V. apply always_ret. auto.
Qed.

Lemma num_diff (a b : zp p) : (num a - num b) mod q = 0 <-> a = b.
Proof.
  split.
  - intros E. apply num_inj. apply (eq_elem q P); auto; apply num_elem.
  - intros ->. rewrite Z.sub_diag. reflexivity.
Qed.

Lemma inverse_ex d : d mod q <> 0 -> exists m, elem q m /\ (d * m - 1) mod q = 0.
Proof.
  intros D. pose proof (prime_ge_2 _ P). assert (R : rel_prime d q).
  { apply rel_prime_sym. apply prime_rel_prime; auto. intros X. apply D. apply Z.mod_divide; [lia|exact X]. }
  apply rel_prime_bezout in R. destruct R as [u v E]. exists (u mod q). split; [apply (mod_elem q P)|].
  rewrite <- Zminus_mod_idemp_l, Z.mul_mod_idemp_r by lia. rewrite Zminus_mod_idemp_l.
  replace (d * u - 1) with (- v * q) by lia. apply Z_mod_mult.
Qed.

Lemma always_is_eq x y (a b : zp p) : rp x a -> rp y b ->
  always (is_eq_var q x y) (fun r => r = if zeqb p a b then 1 else 0).
Proof.
  intros X Y. pose proof (prime_ge_2 _ P) as Q2. pose proof (zeqb_spec p) as Eq.
  assert (V : always (differ <- new_boolean q ;; multiplier <- new_witness q ;;
      _ <- enforce_equal q ((value x - value y) * multiplier) differ ;;
      _ <- enforce_equal q ((value x - value y) * (1 - differ)) 0 ;; ret (1 - differ))
     (fun r => r = if zeqb p a b then 1 else 0)).
  { rewrite X, Y. split.
    - destruct (zeqb p a b) eqn:E.
      + apply Eq in E. subst b. exists [0; 0], (1 - 0). intros rest. cbn [app]. rewrite Z.sub_diag.
        eapply seq_intro; [apply (boolean_take q P); auto|].
        eapply seq_intro; [apply witness_take; unfold elem; lia|].
        eapply seq_intro; [unfold enforce_equal, enforce; rewrite Z.mod_0_l by lia; reflexivity|].
        eapply seq_intro; [unfold enforce_equal, enforce; rewrite Z.mod_0_l by lia; reflexivity|reflexivity].
      + assert (D : (num a - num b) mod q <> 0) by (intros D; apply num_diff in D; apply Eq in D; congruence).
        apply inverse_ex in D. destruct D as (m & M1 & M2). exists [1; m], (1 - 1). intros rest. cbn [app].
        eapply seq_intro; [apply (boolean_take q P); auto|].
        eapply seq_intro; [apply witness_take; exact M1|].
        eapply seq_intro; [unfold enforce_equal, enforce; rewrite M2; reflexivity|].
        eapply seq_intro; [unfold enforce_equal, enforce; rewrite Z.mul_0_r, Z.mod_0_l by lia; reflexivity|reflexivity].
    - intros r (tape & rest & E). step E. step E. step E. step E. apply ret_inv in E. destruct E as [-> _].
      apply (boolean_inv q P) in E0. apply enforce_inv in E2. apply enforce_inv in E3.
      destruct E2 as [E2 _], E3 as [E3 _]. apply Z.eqb_eq in E2, E3.
      destruct (zeqb p a b) eqn:E.
      + apply Eq in E. subst b. rewrite Z.sub_diag, Z.mul_0_l in E2. destruct E0 as [-> | ->]; [reflexivity|].
        exfalso. replace (0 - 1) with (-1) in E2 by lia. apply Z.mod_divide in E2; [|lia].
        apply Z.divide_opp_r in E2. apply Z.divide_1_r_nonneg in E2; lia.
      + destruct E0 as [-> | ->]; [|reflexivity]. exfalso.
        replace ((num a - num b) * (1 - 0) - 0) with (num a - num b) in E3 by lia.
        apply num_diff in E3. apply Eq in E3. congruence. }
  destruct x as [u|u], y as [v|v]; try exact V. cbn [is_eq_var]. apply always_ret. unfold rep in *. cbn [value] in *. subst.
  destruct (Z.eqb_spec (num a) (num b)) as [E|E].
  - apply num_inj in E. apply Eq in E. now rewrite E.
  - destruct (zeqb p a b) eqn:F; auto. apply Eq in F. congruence.
Qed.

Section Path.
Variables J JL : fpvar -> fpvar -> circuit fpvar.
Variables join joinl : zp p -> zp p -> zp p.
Hypothesis GJ : gadget J join.
Hypothesis GL : gadget JL joinl.

Lemma right_bit_01 i : right_bit i = 0 \/ right_bit i = 1.
Proof. unfold right_bit. destruct (is_left i); auto. Qed.
Lemma right_bit_sel {A} i (x y : A) : (if right_bit i =? 1 then x else y) = if is_left i then y else x.
Proof. unfold right_bit. destruct (is_left i); reflexivity. Qed.

Lemma always_fold : forall ds dsv n i x (a : zp p), rp x a -> Forall2 rp dsv ds -> (length ds <= n)%nat ->
  always (fold_var q J x (parent_bits n i) dsv) (fun z => rp z (path_fold join i a ds)).
Proof.
  induction ds as [|d ds IH]; intros dsv n i x a X F L; inversion F as [|dv ? dsv' ? D F']; subst.
  - destruct n; apply always_ret; exact X.
  - destruct n as [|n]; cbn [length] in L; [lia|]. cbn [parent_bits fold_var path_fold].
    eapply always_seq; [apply always_swap; [apply right_bit_01|exact X|exact D]|]. intros s [S1 S2].
    rewrite right_bit_sel in S1, S2.
    eapply always_seq; [apply (GJ _ _ _ _ S1 S2)|]. intros r R. apply IH; auto; [|lia].
    unfold node_join. destruct (is_left (parent i)); exact R.
Qed.

Definition is_path (n : nat) (v : path_var) (w : path (zp p) (zp p)) : Prop :=
  rp (pv_sibling v) (p_sibling w) /\ pv_leaf_index v = right_bit (p_index w) /\
  pv_inner_indices v = parent_bits n (p_index w) /\ Forall2 rp (pv_path v) (p_inner w).

Lemma always_root n v w x (a : zp p) : is_path n v w -> (length (p_inner w) <= n)%nat -> rp x a ->
  always (root_var q J JL v x) (fun z => rp z (path_root join joinl w a)).
Proof.
  intros (S1 & S2 & S3 & S4) L X. unfold root_var, path_root. rewrite S2, S3.
  eapply always_seq; [apply always_swap; [apply right_bit_01|exact X|exact S1]|]. intros s [T1 T2].
  rewrite right_bit_sel in T1, T2.
  eapply always_seq; [apply (GL _ _ _ _ T1 T2)|]. intros r R. apply always_fold; auto.
  unfold node_join_leaves. destruct (is_left (p_index w)); exact R.
Qed.

Lemma always_verify n v w rv x (r a : zp p) : is_path n v w -> (length (p_inner w) <= n)%nat -> rp x a -> rp rv r ->
  always (verify_var q J JL v rv x) (fun b => b = if path_verify join joinl (zeqb p) w r a then 1 else 0).
Proof.
  intros V L X R. unfold verify_var. eapply always_seq; [eapply always_root; eassumption|]. intros c C.
  now apply always_is_eq.
Qed.

(** Bits of an index. *)
Fixpoint bits_index (l : list Z) : nat := match l with [] => 0 | b :: t => Z.to_nat b + 2 * bits_index t end.
Lemma bits_index_spec l : Forall bit l -> forall b, bit b ->
  let i := bits_index (b :: l) in
  right_bit i = b /\ parent i = bits_index l /\ parent_bits (length l) i = l /\ (i < 2 ^ S (length l))%nat.
Proof.
  assert (One : forall b m, bit b -> right_bit (Z.to_nat b + 2 * m) = b /\ parent (Z.to_nat b + 2 * m) = m).
  { intros b m B. unfold right_bit, is_left, parent. rewrite Nat.even_add, Nat.even_mul.
    destruct B as [-> | ->]; cbn [Z.to_nat Nat.even orb Bool.eqb].
    - split; [reflexivity|]. rewrite Nat.add_0_l, Nat.mul_comm, Nat.div_mul by lia. reflexivity.
    - change (Pos.to_nat 1) with 1%nat. cbn [Nat.even]. split; [reflexivity|].
      rewrite Nat.mul_comm, Nat.div_add by lia. reflexivity. }
  induction 1 as [|c l C F IH]; intros b B; cbn [bits_index length parent_bits].
  - destruct (One b 0%nat B) as [O1 O2]. repeat split; auto. destruct B as [-> | ->]; cbn; lia.
  - destruct (One b (bits_index (c :: l)) B) as [O1 O2]. specialize (IH c C). cbn zeta in IH. destruct IH as (I1 & I2 & I3 & I4).
    cbn [bits_index] in *. split; [exact O1|]. split; [exact O2|]. rewrite O2. split; [rewrite I1, I3; reflexivity|].
    rewrite Nat.pow_succ_r'. destruct B as [-> | ->]; cbn [Z.to_nat]; change (Pos.to_nat 1) with 1%nat; lia.
Qed.
Lemma parent_bits_len n i : length (parent_bits n i) = n.
Proof. revert i. induction n; intros i; cbn; auto. Qed.
Lemma parent_bits_bit n i : Forall bit (parent_bits n i).
Proof. revert i. induction n; intros i; constructor; auto. apply right_bit_01. Qed.

Lemma witnesses_inv n : forall tape l rest, new_witnesses q n tape = Ok (l, (true, rest)) ->
  exists ks : list (zp p), length ks = n /\ Forall2 rp l ks.
Proof.
  induction n as [|n IH]; intros tape l rest E; cbn [new_witnesses] in E.
  - apply ret_inv in E. destruct E as [-> _]. exists []. split; [reflexivity|constructor].
  - step E. step E. apply ret_inv in E. destruct E as [-> _]. apply (witness_inv q P) in E0. apply num_ex in E0.
    destruct E0 as [k Hk]. apply IH in E1. destruct E1 as (ks & L & F). exists (k :: ks). split; [cbn; lia|].
    constructor; auto. symmetry. exact Hk.
Qed.
Lemma witnesses_take (ks : list (zp p)) t :
  new_witnesses q (length ks) (map num ks ++ t) = Ok (map (fun k => Var (num k)) ks, (true, t)).
Proof.
  induction ks as [|k ks IH]; [reflexivity|]. cbn [length new_witnesses map app].
  eapply seq_intro; [apply witness_take, num_elem|]. eapply seq_intro; [exact IH|reflexivity].
Qed.

Lemma allocate_inv n m tape v rest : allocate_path q n m tape = Ok (v, (true, rest)) ->
  exists w, is_path n v w /\ length (p_inner w) = m /\ (p_index w < 2 ^ S n)%nat.
Proof.
  intros E. unfold allocate_path in E. step E. step E. step E. step E. apply ret_inv in E. destruct E as [-> _].
  apply (witness_inv q P) in E0. apply num_ex in E0. destruct E0 as [s Hs]. apply (boolean_inv q P) in E1.
  apply (booleans_inv q P) in E2. destruct E2 as [L2 F2]. apply witnesses_inv in E3. destruct E3 as (ks & L3 & F3).
  destruct (bits_index_spec _ F2 a0 E1) as (I1 & _ & I3 & I4). rewrite L2 in I3, I4.
  exists (Path (bits_index (a0 :: a1)) s ks). unfold is_path. cbn [pv_sibling pv_leaf_index pv_inner_indices pv_path p_index p_sibling p_inner].
  repeat split; auto. symmetry. exact Hs.
Qed.
Lemma allocate_take n (w : path (zp p) (zp p)) :
  exists v, is_path n v w /\
  forall t, allocate_path q n (length (p_inner w)) (known_values n (numbers w) ++ t) = Ok (v, (true, t)).
Proof.
  exists (PathVar (Var (num (p_sibling w))) (right_bit (p_index w)) (parent_bits n (p_index w)) (map (fun k => Var (num k)) (p_inner w))).
  split.
  - unfold is_path. cbn [pv_sibling pv_leaf_index pv_inner_indices pv_path]. repeat split; auto.
    induction (p_inner w); constructor; auto. reflexivity.
  - intros t. unfold allocate_path, known_values, numbers. cbn [p_index p_sibling p_inner app]. rewrite <- app_assoc.
    eapply seq_intro; [apply witness_take, num_elem|].
    eapply seq_intro; [apply (boolean_take q P), right_bit_01|].
    eapply seq_intro.
    { rewrite <- (parent_bits_len n (p_index w)) at 1. apply (booleans_take q P), parent_bits_bit. }
    eapply seq_intro; [apply witnesses_take|reflexivity].
Qed.
End Path.
End Field.
