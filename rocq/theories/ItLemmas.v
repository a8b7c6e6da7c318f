(** Sums, roots of unity and the rows of a constraint system. *)
From Coq Require Import List Arith Bool Lia Field_theory Ring Field.
From Verif Require Import AlgBase MpModel KzModel KzSpec KzLemmas ItModel ItSpec.
Import ListNotations.

Section Sums.
Variable P : pairing.
Notation K := (sc P).
Add Field Kfi : (fth (sc P)).
Local Open Scope alg_scope.
Implicit Types (f : nat -> K).

Lemma sum_ext n f f' : (forall i, i < n -> f i = f' i) -> sum n f = sum n f'.
Proof. induction n; intros H; simpl; auto. rewrite IHn by (intros; apply H; lia). rewrite H by lia. auto. Qed.
Lemma sum_zero n f : (forall i, i < n -> f i = f0) -> sum n f = f0.
Proof. induction n; intros H; simpl; auto. rewrite IHn by (intros; apply H; lia). rewrite H by lia. ring. Qed.
Lemma sum_add n f f' : sum n (fun i => f i + f' i) = sum n f + sum n f'.
Proof. induction n; simpl; [ring|]. rewrite IHn. ring. Qed.
Lemma sum_scale n c f : sum n (fun i => c * f i) = c * sum n f.
Proof. induction n; simpl; [ring|]. rewrite IHn. ring. Qed.
Lemma sum_scale_r n c f : sum n (fun i => f i * c) = sum n f * c.
Proof. induction n; simpl; [ring|]. rewrite IHn. ring. Qed.
Lemma sum_swap n m (f : nat -> nat -> K) : sum n (fun i => sum m (f i)) = sum m (fun j => sum n (fun i => f i j)).
Proof.
  induction n; simpl. { symmetry. now apply sum_zero. }
  rewrite IHn, <- sum_add. auto.
Qed.
Lemma sum_single n k f : k < n -> (forall i, i < n -> i <> k -> f i = f0) -> sum n f = f k.
Proof.
  induction n; intros L H; [lia|]. simpl. destruct (Nat.eq_dec k n) as [->|D].
  - rewrite sum_zero by (intros; apply H; lia). ring.
  - rewrite IHn by (auto; try lia; intros; apply H; lia). rewrite (H n) by lia. ring.
Qed.
Lemma sum_split n m f : sum (n + m) f = sum n f + sum m (fun i => f (n + i)%nat).
Proof. induction m; [rewrite Nat.add_0_r; simpl; ring|]. rewrite Nat.add_succ_r. simpl. rewrite IHm. ring. Qed.
Lemma sum_front n f : sum (S n) f = f 0 + sum n (fun i => f (S i)).
Proof. change (S n) with (1 + n)%nat. rewrite (sum_split 1 n f). simpl. ring. Qed.
Lemma sum_const n : sum n (fun _ => f1 : K) = kof n.
Proof. induction n; simpl; auto. rewrite IHn. ring. Qed.

Lemma kpow_fpow (x : K) n : kpow x n = fpow x n.
Proof. induction n; simpl; congruence. Qed.
Lemma fpow_add (x : K) n m : fpow x (n + m) = fpow x n * fpow x m.
Proof. induction n; simpl; [ring|]. rewrite IHn. ring. Qed.
Lemma fpow_mul (x : K) n m : fpow x (n * m) = fpow (fpow x n) m.
Proof. induction m; [now rewrite Nat.mul_0_r|]. rewrite Nat.mul_succ_r, fpow_add, IHm. simpl. ring. Qed.
Lemma fpow_prod (x y : K) n : fpow (x * y) n = fpow x n * fpow y n.
Proof. induction n; simpl; [ring|]. rewrite IHn. ring. Qed.
Lemma fpow_1 n : fpow (f1 : K) n = f1.
Proof. induction n; simpl; auto. rewrite IHn. ring. Qed.
Lemma fpow_nz (x : K) n : x <> f0 -> fpow x n <> f0.
Proof. intros X. induction n; simpl; [apply f1_nz|]. now apply fmul_nz. Qed.
Lemma fpow_inv (x : K) n : x <> f0 -> fpow (finv x) n * fpow x n = f1.
Proof. intros X. rewrite <- fpow_prod, finv_l by auto. apply fpow_1. Qed.

Lemma geometric_sum (x : K) n : (x - f1) * sum n (fpow x) = fpow x n - f1.
Proof. induction n; simpl; [ring|]. transitivity ((x - f1) * sum n (fpow x) + (x - f1) * fpow x n); [ring|]. rewrite IHn. ring. Qed.

Section Root.
Variables (n : nat) (w : K).
Hypothesis R : root_of_order n w.

Lemma size_pos : 0 < n.
Proof. destruct n; [|lia]. destruct R as [_ _ Z]. exfalso. apply Z. reflexivity. Qed.
Lemma w_nz : w <> f0.
Proof.
  destruct R as [O _ _]. pose proof size_pos. intros E. rewrite E in O. destruct n; [lia|]. simpl in O.
  apply (f1_nz K). rewrite <- O. ring.
Qed.
Lemma size_nz : kof n <> (f0 : K).
Proof. rewrite <- sum_const. apply R. Qed.

Lemma power_distinct m k : m < n -> k < n -> m <> k -> fpow w m * fpow (finv w) k <> f1.
Proof.
  assert (H : forall m k, k < m -> m < n -> fpow w m * fpow (finv w) k <> f1).
  { intros a b L La E. apply (root_primitive _ _ _ R (a - b)); [lia|].
    rewrite <- E. replace (fpow w a) with (fpow w (a - b) * fpow w b) by (rewrite <- fpow_add; f_equal; lia).
    transitivity (fpow w (a - b) * (fpow (finv w) b * fpow w b)); [rewrite fpow_inv by apply w_nz; ring|ring]. }
  intros Lm Lk D E. destruct (Nat.lt_ge_cases k m) as [L|L]; [exact (H m k L Lm E)|].
  apply (H k m ltac:(lia) Lk).
  transitivity ((fpow w k * fpow (finv w) m) * (fpow w m * fpow (finv w) k)); [rewrite E; ring|].
  transitivity ((fpow (finv w) k * fpow w k) * (fpow (finv w) m * fpow w m)); [ring|].
  rewrite !fpow_inv by apply w_nz. ring.
Qed.

Lemma orthogonal m k : m < n -> k < n ->
  sum n (fun i => fpow w (i * m) * fpow (finv w) (i * k)) = if Nat.eqb m k then kof n else f0.
Proof.
  intros Lm Lk. rewrite (sum_ext n _ (fpow (fpow w m * fpow (finv w) k))).
  2:{ intros i _. rewrite fpow_prod, <- !fpow_mul. f_equal; f_equal; lia. }
  destruct (Nat.eqb_spec m k) as [->|D].
  - rewrite <- sum_const. apply sum_ext. intros i _.
    replace (fpow w k * fpow (finv w) k) with (f1 : K); [apply fpow_1|].
    rewrite <- (fpow_inv w k w_nz). ring.
  - pose proof (power_distinct m k Lm Lk D) as X. set (x := fpow w m * fpow (finv w) k) in *.
    pose proof (geometric_sum x n) as G.
    assert (E : fpow x n = f1).
    { unfold x. rewrite fpow_prod, <- !fpow_mul, !(Nat.mul_comm _ n), !fpow_mul.
      rewrite (root_one _ _ _ R).
      assert (I : fpow (finv w) n = f1).
      { rewrite <- (fpow_inv w n w_nz), (root_one _ _ _ R). ring. }
      rewrite I, !fpow_1. ring. }
    rewrite E in G. replace (f1 - f1) with (f0 : K) in G by ring.
    destruct (feq_dec K (sum n (fpow x)) f0) as [Z|Z]; auto. exfalso.
    apply (fmul_nz K (x - f1) (sum n (fpow x))); auto.
    intros Y. apply X. now apply fsub_eq0.
Qed.

(** The value at [t] of the polynomial that is 1 at the power [i] of [w] and 0 at the others. *)
Definition lagrange (t : K) (i : nat) : K := finv (kof n) * sum n (fun k => fpow (finv w) (i * k) * fpow t k).

Lemma lagrange_interpolation (t : K) p f : interpolates n w p f -> poly_eval p t = sum n (fun i => f i * lagrange t i).
Proof.
  intros [L E]. unfold poly_eval. rewrite L.
  transitivity (finv (kof n) * sum n (fun i => sum n (fun k => sum n (fun m =>
    (nth m p f0 * fpow t k) * (fpow w (i * m) * fpow (finv w) (i * k)))))).
  2:{ rewrite <- sum_scale. apply sum_ext. intros i Li. rewrite <- (E i Li). unfold lagrange, poly_eval. rewrite L.
      transitivity (finv (kof n) * (sum n (fun k => nth k p f0 * fpow (fpow w i) k) * sum n (fun k => fpow (finv w) (i * k) * fpow t k))); [|ring].
      f_equal. rewrite <- sum_scale. apply sum_ext. intros k _. rewrite <- sum_scale_r. apply sum_ext. intros m _.
      rewrite fpow_mul. ring. }
  transitivity (finv (kof n) * sum n (fun k => sum n (fun m => (nth m p f0 * fpow t k) *
      (if Nat.eqb m k then kof n else f0)))).
  2:{ f_equal. symmetry. rewrite (sum_swap n n). apply sum_ext. intros k Lk.
      rewrite (sum_swap n n). apply sum_ext. intros m Lm. rewrite sum_scale. f_equal. now apply orthogonal. }
  rewrite <- sum_scale. apply sum_ext. intros k Lk.
  rewrite (sum_single n k) by (auto; intros m _ D; apply Nat.eqb_neq in D; rewrite D; ring).
  rewrite Nat.eqb_refl. field. apply size_nz.
Qed.

Lemma interpolation_exists f : exists p, interpolates n w p f.
Proof.
  exists (map (fun k => finv (kof n) * sum n (fun i => f i * fpow (finv w) (i * k))) (seq 0 n)).
  split; [now rewrite map_length, seq_length|]. intros j Lj. unfold poly_eval.
  rewrite map_length, seq_length.
  transitivity (finv (kof n) * sum n (fun k => sum n (fun i => f i * (fpow w (k * j) * fpow (finv w) (k * i))))).
  { rewrite <- sum_scale. apply sum_ext. intros k Lk.
    rewrite (nth_indep _ f0 ((fun k => finv (kof n) * sum n (fun i => f i * fpow (finv w) (i * k))) 0)) by (now rewrite map_length, seq_length).
    rewrite (map_nth (fun k => finv (kof n) * sum n (fun i => f i * fpow (finv w) (i * k)))), seq_nth by lia.
    rewrite Nat.add_0_l. rewrite <- (fpow_mul w j k).
    transitivity (finv (kof n) * (sum n (fun i => f i * fpow (finv w) (i * k)) * fpow w (j * k))); [ring|].
    f_equal. rewrite <- sum_scale_r. apply sum_ext. intros i _. rewrite (Nat.mul_comm k j), (Nat.mul_comm k i). ring. }
  rewrite sum_swap. rewrite (sum_ext n _ (fun i => f i * (if Nat.eqb j i then kof n else f0))).
  2:{ intros i Li. rewrite sum_scale. f_equal. now apply orthogonal. }
  rewrite (sum_single n j) by (auto; intros i _ D; apply Nat.neq_sym, Nat.eqb_neq in D; rewrite D; ring).
  rewrite Nat.eqb_refl. field. apply size_nz.
Qed.

(** A polynomial of degree below [n] is determined by its values. *)
Lemma interpolation_coeff p f k : interpolates n w p f -> k < n ->
  nth k p f0 = finv (kof n) * sum n (fun i => f i * fpow (finv w) (i * k)).
Proof.
  intros [L E] Lk.
  transitivity (finv (kof n) * sum n (fun i => sum n (fun m => nth m p f0 * (fpow w (i * m) * fpow (finv w) (i * k))))).
  2:{ f_equal. apply sum_ext. intros i Li. rewrite <- (E i Li). unfold poly_eval. rewrite L, <- sum_scale_r.
      apply sum_ext. intros m _. rewrite fpow_mul. ring. }
  rewrite sum_swap, (sum_ext n _ (fun m => nth m p f0 * (if Nat.eqb m k then kof n else f0))).
  2:{ intros m Lm. rewrite sum_scale. f_equal. now apply orthogonal. }
  rewrite (sum_single n k) by (auto; intros m _ D; apply Nat.eqb_neq in D; rewrite D; ring).
  rewrite Nat.eqb_refl. field. apply size_nz.
Qed.

Lemma interpolation_unique p p' f : interpolates n w p f -> interpolates n w p' f -> p = p'.
Proof.
  intros H H'. apply (nth_ext p p' f0 f0); [destruct H, H'; congruence|].
  intros k Lk. destruct H as [L E]. rewrite L in Lk.
  rewrite (interpolation_coeff p f k), (interpolation_coeff p' f k); auto. split; auto.
Qed.
End Root.

(** * Sums of points *)
Section Points.
Variable g : grp K.
Implicit Types (x y : g) (l : list g).

Lemma gsum_smul n f x : gsum n (fun i => smul (f i) x) = smul (sum n f) x.
Proof. induction n; simpl; [now rewrite smul_0|]. now rewrite IHn, smul_add. Qed.
Lemma gsum_ext n (f f' : nat -> g) : (forall i, i < n -> f i = f' i) -> gsum n f = gsum n f'.
Proof. induction n; intros H; simpl; auto. rewrite IHn by (intros; apply H; lia). rewrite H by lia. auto. Qed.
Lemma gsum_front n (f : nat -> g) : gsum (S n) f = gadd (f 0) (gsum n (fun i => f (S i))).
Proof.
  induction n; simpl in *; [now rewrite gadd_0, gadd_0_l|]. rewrite IHn, gadd_assoc. auto.
Qed.

Lemma nth_geometric t x N k : k < N -> nth k (geometric t x N) g0 = smul (fpow t k) x.
Proof.
  intros L. unfold geometric.
  rewrite (nth_indep _ g0 ((fun i => smul (fpow t i) x) 0)) by (now rewrite map_length, seq_length).
  rewrite (map_nth (fun i => smul (fpow t i) x)), seq_nth by lia. auto.
Qed.

Lemma ifft_len n w l : length (ifft (n, w) l) = n.
Proof. unfold ifft. now rewrite map_length, seq_length. Qed.

Lemma ifft_geometric n w t x N i : n <= N -> i < n ->
  nth i (ifft (n, w) (geometric t x N)) g0 = smul (lagrange n w t i) x.
Proof.
  intros L Li. unfold ifft.
  set (F := fun i0 => _). rewrite (nth_indep _ g0 (F 0)) by (now rewrite map_length, seq_length).
  rewrite (map_nth F), seq_nth by lia. unfold F. rewrite Nat.add_0_l.
  rewrite (gsum_ext n _ (fun k => smul (fpow (finv w) (i * k) * fpow t k) x)).
  2:{ intros k Lk. rewrite kpow_fpow. unfold resize. rewrite <- (firstn_skipn n (geometric t x N)).
      rewrite <- app_assoc, firstn_app, firstn_firstn, Nat.min_id.
      rewrite firstn_length, geo_len, Nat.min_l, Nat.sub_diag, app_nil_r by lia.
      transitivity (smul (fpow (finv w) (i * k)) (nth k (geometric t x N) g0)).
      - f_equal. rewrite <- (firstn_skipn n (geometric t x N)) at 2. rewrite app_nth1; auto.
        rewrite firstn_length, geo_len. lia.
      - now rewrite nth_geometric, smul_smul by lia. }
  now rewrite gsum_smul, smul_smul.
Qed.

(** Rows *)
Lemma add_at_spec l i x : i < length l -> exists r, add_at l i x = Some r /\ length r = length l /\
  forall j, nth j r g0 = gadd (nth j l g0) (if Nat.eqb i j then x else g0).
Proof.
  revert i. induction l as [|y l IH]; intros i L; simpl in L; [lia|]. destruct i as [|i].
  - simpl. eexists. split; [reflexivity|]. split; auto. intros [|j]; simpl; [auto|]. now rewrite gadd_0.
  - destruct (IH i ltac:(lia)) as (r & E & Lr & H). simpl. rewrite E. eexists. split; [reflexivity|].
    split; [simpl; congruence|]. intros [|j]; simpl; [now rewrite gadd_0|apply H].
Qed.

Lemma add_row_spec basis r l : Forall (fun c => snd c < length l) r ->
  exists l', add_row basis r l = Some l' /\ length l' = length l /\
  forall j, nth j l' g0 = gadd (nth j l g0) (smul (entry r j) basis).
Proof.
  revert l. induction r as [|[c i] r IH]; intros l F.
  - exists l. simpl. split; auto. split; auto. intros j. now rewrite smul_0, gadd_0.
  - inversion F as [|? ? Hi F']; subst. simpl in Hi.
    destruct (add_at_spec l i (smul c basis) Hi) as (l1 & E1 & L1 & H1).
    destruct (IH l1) as (l2 & E2 & L2 & H2); [now rewrite L1|].
    exists l2. simpl. rewrite E1. split; auto. split; [congruence|]. intros j. rewrite H2, H1.
    rewrite smul_add, gadd_assoc. f_equal. f_equal. destruct (Nat.eqb i j); auto. now rewrite smul_0.
Qed.
End Points.
End Sums.
