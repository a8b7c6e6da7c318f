(** * C85: the second phase starts from Groth16 parameters of the constraint system *)
From Coq Require Import List Arith NArith Bool Lia Field_theory Ring Field.
From Verif Require Import AlgBase MpModel MpSpec MpLemmas MpProps KzModel KzSpec KzLemmas ItModel ItSpec ItLemmas ItRows.
Import ListNotations.

Section Props.
Variable P : pairing.
Notation K := (sc P).
Add Field Kfp : (fth (sc P)).
Local Open Scope alg_scope.

(** Powers of the secrets are turned into the parameters of Groth16 for the secrets, with 1 for
    gamma and delta, for every constraint system that fits. *)
Theorem c85_initialize ta root t a b n1 n2 n3 n4 (acc : accum P) (m : matrices P) :
  (forall k, k <= ta -> root_of_order (2 ^ k) (root k)) ->
  accum_of t a b n1 n2 n3 n4 acc -> well_formed m ->
  let nc := length (mat_a m) in let ni := num_instance_variables m in
  let k := Nat.log2_up (nc + ni) in let n := (2 ^ k)%nat in
  k <= ta -> (2 * n <= n1)%nat -> n <= n2 -> n <= n3 -> n <= n4 ->
  exists s, initialize ta root acc (System nc ni (Some m)) = IOk s /\ groth16 t a b f1 n (root k) m s.
Proof. intros R A W nc ni k n. now apply initialize_spec. Qed.

(** The polynomials of the definition of the parameters exist and are unique. *)
Theorem c85_interpolation n (w : K) f : root_of_order n w -> exists! p, interpolates n w p f.
Proof.
  intros R. destruct (interpolation_exists P n w R f) as [p H]. exists p. split; auto.
  intros p' H'. now apply (interpolation_unique P n w R p p' f).
Qed.

(** The errors. *)
Theorem c85_errors ta root (acc : accum P) cs e :
  initialize ta root acc cs = IErr e <->
  match cs with
  | Failed => e = ConstraintSystemError
  | System nc ni m =>
      if Nat.leb (Nat.log2_up (nc + ni)) ta
      then m = None /\ e = MissingCSMatrices
      else e = TooManyConstraints
  end.
Proof.
  assert (U : forall A B (x : option A) (f : A -> ires B), (forall y, f y <> IErr e) -> ibind (unwrap x) f <> IErr e).
  { intros A B x f H. destruct x; simpl; [apply H|discriminate]. }
  destruct cs as [|nc ni m]; cbn [initialize]; [split; congruence|].
  unfold domain_new, log_size. destruct (Nat.leb _ ta); [|split; congruence].
  destruct m as [m|]; [|split; [intros E; split; congruence|intros [_ ->]; auto]].
  split; [|intros [? _]; discriminate]. intros E. exfalso. revert E.
  apply U. intros y1. apply U. intros y2. unfold add_dummy_constraints, specialize_to_phase_2.
  destruct (slice (ifft _ (tau_g1 acc)) _ _) as [s1|]; cbn [unwrap ibind]; [|discriminate].
  destruct (put_front _ s1) as [s2|]; cbn [unwrap ibind]; [|discriminate].
  destruct (slice (ifft _ (beta_tau_g1 acc)) _ _) as [s3|]; cbn [unwrap ibind]; [|discriminate].
  destruct (put_front _ s3) as [s4|]; cbn [unwrap ibind]; [|discriminate].
  destruct (_ && _ && _); [|discriminate].
  apply U. intros q. apply U. intros x1. apply U. intros x2. apply U. intros x3. discriminate.
Qed.

(** No constraint that is used names a variable that does not exist. *)
Theorem c85_variables ta root (acc : accum P) nc ni m s i c :
  initialize ta root acc (System nc ni (Some m)) = IOk s ->
  i < 2 ^ Nat.log2_up (nc + ni) -> i < length (mat_a m) -> i < length (mat_b m) -> i < length (mat_c m) ->
  In c (nth i (mat_a m) []) \/ In c (nth i (mat_b m) []) \/ In c (nth i (mat_c m) []) ->
  snd c < num_instance_variables m + num_witness_variables m.
Proof.
  intros E Li La Lb Lc I. cbn [initialize] in E. unfold domain_new, log_size in E.
  destruct (Nat.leb _ ta); [|discriminate]. cbn [fst] in E.
  set (n := 2 ^ Nat.log2_up (nc + ni)) in *. set (w := root _) in E.
  destruct (nth_error (beta_tau_g1 acc) 0); [|discriminate]. cbn [unwrap ibind] in E.
  destruct (h_loop _ _ _); [|discriminate]. cbn [unwrap ibind] in E. unfold add_dummy_constraints in E.
  destruct (slice (ifft _ (tau_g1 acc)) _ _) as [s1|]; cbn [unwrap ibind] in E; [|discriminate].
  destruct (put_front _ s1) as [s2|] eqn:E2; cbn [unwrap ibind] in E; [|discriminate].
  destruct (slice (ifft _ (beta_tau_g1 acc)) _ _) as [s3|]; cbn [unwrap ibind] in E; [|discriminate].
  destruct (put_front _ s3) as [s4|] eqn:E4; cbn [unwrap ibind] in E; [|discriminate].
  unfold specialize_to_phase_2 in E.
  destruct (_ && _ && _) eqn:EL; [|discriminate].
  destruct (special_rows _ _ _ _ _ _ _ _) as [q|] eqn:ER; [|discriminate].
  rewrite !andb_true_iff, !Nat.eqb_eq in EL. cbn [q_a q_b1 q_b2 q_ext] in EL. rewrite repeat_length in EL.
  destruct EL as [[EL1 EL2] EL3]. rewrite Nat.add_comm.
  apply (special_rows_in P _ _ _ _ _ _ _ _ _ _ ER) with (i := i); cbn [q_a q_b1 q_b2 q_ext];
    rewrite ?repeat_length, ?ifft_len; auto; congruence.
Qed.

(** A contribution to the second phase, as accepted by the ceremony (property C61), makes the
    parameters of the same system for another delta. *)
Theorem c85_contribution t a b d r n w (m : matrices P) s s' : d <> f0 -> r <> f0 ->
  groth16 t a b d n w m s -> scaled r s s' -> groth16 t a b (r * d) n w m s'.
Proof.
  intros Nd Nr [] [].
  assert (Can : forall (g : grp K) (x y : g), smul r x = y -> x = smul (finv r) y).
  { intros g x y <-. rewrite smul_smul, finv_l, smul_1; auto. }
  assert (Ch : h_query s' = map (fun x => smul (finv r) x) (h_query s)).
  { rewrite <- sc_h. rewrite map_map. rewrite <- map_id at 1. apply map_ext. intros x. now apply Can. }
  assert (Cl : l_query s' = map (fun x => smul (finv r) x) (l_query s)).
  { rewrite <- sc_l. rewrite map_map. rewrite <- map_id at 1. apply map_ext. intros x. now apply Can. }
  constructor; try congruence.
  - now rewrite sc_d1, g_delta1, smul_smul.
  - now rewrite sc_d2, g_delta2, smul_smul.
  - rewrite Cl, map_length. auto.
  - intros j p Lj I. rewrite sc_a. auto.
  - intros j p Lj I. rewrite sc_b1. auto.
  - intros j p Lj I. rewrite sc_b2. auto.
  - intros j pa pb pc Lj Ia Ib Ic. rewrite sc_abc. auto.
  - intros j pa pb pc Lj Ia Ib Ic. rewrite Cl.
    rewrite <- (smul_g0 K (G1 P) (finv r)) at 1. rewrite (map_nth (fun x => smul (finv r) x)).
    rewrite (g_l j pa pb pc Lj Ia Ib Ic), smul_smul. f_equal. field. auto.
  - rewrite Ch, g_h, map_map. apply map_ext. intros i. rewrite smul_smul. f_equal. field. auto.
Qed.

(** * Proofs with these parameters *)

Lemma weighted_spec (g : grp K) (x : g) z l f : length z <= length l ->
  (forall j, j < length z -> nth j l g0 = smul (f j) x) ->
  weighted z l = smul (sum (length z) (fun j => nth j z f0 * f j)) x.
Proof.
  unfold weighted. revert l f. induction z as [|y z IH]; intros l f L H; simpl in *; [now rewrite smul_0|].
  destruct l as [|u l]; simpl in *; [lia|].
  rewrite (IH l (fun j => f (S j))) by (try lia; intros j Lj; apply (H (S j)); lia).
  rewrite (H 0 ltac:(lia)). rewrite smul_smul, <- smul_add. f_equal.
  symmetry. apply (sum_front P (length z) (fun j => nth j (y :: z) f0 * f j)).
Qed.

(** The coefficients of a product. *)
Definition conv (n : nat) (p q : nat -> K) (k : nat) : K :=
  sum n (fun i => p i * (if Nat.leb i k && Nat.ltb (k - i) n then q (k - i)%nat else f0)).

Lemma conv_eval n p q x :
  sum (n + n) (fun k => conv n p q k * fpow x k) = sum n (fun i => p i * fpow x i) * sum n (fun i => q i * fpow x i).
Proof.
  unfold conv.
  rewrite (sum_ext P (n + n) _ (fun k => sum n (fun i => p i * ((if Nat.leb i k && Nat.ltb (k - i) n then q (k - i)%nat else f0) * fpow x k)))).
  2:{ intros k _. rewrite <- sum_scale_r. apply sum_ext. intros i _. ring. }
  rewrite sum_swap, <- sum_scale_r. apply sum_ext. intros i Li. rewrite sum_scale.
  transitivity (p i * (fpow x i * sum n (fun j => q j * fpow x j))); [|ring]. f_equal.
  replace (n + n)%nat with (i + (n + (n - i)))%nat by lia. rewrite !sum_split.
  rewrite (sum_zero P i).
  2:{ intros k Lk. destruct (Nat.leb_spec i k); [lia|]. simpl. ring. }
  rewrite (sum_zero P (n - i)).
  2:{ intros k Lk. destruct (Nat.ltb_spec (i + (n + k) - i) n); [lia|]. rewrite andb_false_r. ring. }
  rewrite <- sum_scale. transitivity (sum n (fun k => fpow x i * (q k * fpow x k))); [|ring].
  transitivity (sum n (fun k => (if Nat.leb i (i + k) && Nat.ltb (i + k - i) n then q (i + k - i)%nat else f0) * fpow x (i + k))); [ring|].
  apply sum_ext. intros k Lk. replace (i + k - i)%nat with k by lia.
  destruct (Nat.leb_spec i (i + k)); [|lia]. destruct (Nat.ltb_spec k n); [|lia]. simpl. rewrite fpow_add. ring.
Qed.

Lemma conv_top n p q : conv n p q (n + n - 1) = f0.
Proof.
  unfold conv. apply sum_zero. intros i Li. destruct (Nat.ltb_spec (n + n - 1 - i) n); [lia|]. rewrite andb_false_r. ring.
Qed.

(** If a product of polynomials has the values of a third one at the roots of unity, then the
    difference is a multiple of the polynomial that vanishes there, and the quotient has at most
    [n - 1] coefficients. *)
Lemma quotient_exists n w (pa pb pc : list K) fa fb fc : root_of_order n w ->
  interpolates n w pa fa -> interpolates n w pb fb -> interpolates n w pc fc ->
  (forall i, i < n -> fa i * fb i = fc i) ->
  exists h, length h = (n - 1)%nat /\
    forall t, poly_eval pa t * poly_eval pb t = poly_eval pc t + poly_eval h t * (fpow t n - f1).
Proof.
  intros R [La Ia] [Lb Ib] [Lc Ic] H. pose proof (size_pos P n w R) as Np.
  set (F := conv n (fun k => nth k pa f0) (fun k => nth k pb f0)).
  assert (PF : forall x, poly_eval pa x * poly_eval pb x = sum (n + n) (fun k => F k * fpow x k)).
  { intros x. unfold F. rewrite conv_eval. unfold poly_eval. now rewrite La, Lb. }
  assert (S2 : forall x, sum (n + n) (fun k => F k * fpow x k) =
    sum n (fun k => F k * fpow x k) + fpow x n * sum n (fun k => F (n + k)%nat * fpow x k)).
  { intros x. rewrite sum_split. f_equal. rewrite <- sum_scale. apply sum_ext. intros k _. rewrite fpow_add. ring. }
  set (r := map (fun k => F k + F (n + k)%nat - nth k pc f0) (seq 0 n)).
  assert (Lr : length r = n) by (unfold r; now rewrite map_length, seq_length).
  assert (Nr : forall k, k < n -> nth k r f0 = F k + F (n + k)%nat - nth k pc f0).
  { intros k Lk. unfold r. set (G := fun k => _). rewrite (nth_indep _ f0 (G 0)) by (now rewrite map_length, seq_length).
    rewrite (map_nth G), seq_nth by lia. auto. }
  assert (Ev : forall x, poly_eval r x = sum n (fun k => F k * fpow x k) + sum n (fun k => F (n + k)%nat * fpow x k) - poly_eval pc x).
  { intros x. unfold poly_eval. rewrite Lr, Lc.
    rewrite (sum_ext P n _ (fun k => (F k * fpow x k + F (n + k)%nat * fpow x k) + (fopp f1) * (nth k pc f0 * fpow x k)))
      by (intros k Lk; rewrite Nr by auto; ring).
    rewrite !sum_add, sum_scale. ring. }
  assert (I0 : interpolates n w r (fun _ => f0)).
  { split; auto. intros i Li. rewrite Ev. pose proof (PF (fpow w i)) as E. rewrite S2 in E.
    assert (One : fpow (fpow w i) n = f1).
    { rewrite <- fpow_mul, Nat.mul_comm, fpow_mul, (root_one _ _ _ R). apply fpow_1. }
    rewrite One in E. rewrite Ia, Ib in E by auto. rewrite H in E by auto. rewrite Ic by auto.
    transitivity (sum n (fun k => F k * fpow (fpow w i) k) + f1 * sum n (fun k => F (n + k)%nat * fpow (fpow w i) k) - fc i); [ring|].
    rewrite <- E. ring. }
  assert (Z : forall k, k < n -> F k + F (n + k)%nat - nth k pc f0 = f0).
  { intros k Lk. rewrite <- Nr by auto. rewrite (interpolation_coeff P n w R r _ k I0 Lk).
    rewrite sum_zero by (intros; ring). ring. }
  exists (map (fun k => F (n + k)%nat) (seq 0 (n - 1))). split; [now rewrite map_length, seq_length|].
  intros t. rewrite PF, S2.
  assert (Hh : poly_eval (map (fun k => F (n + k)%nat) (seq 0 (n - 1))) t = sum n (fun k => F (n + k)%nat * fpow t k)).
  { unfold poly_eval. rewrite map_length, seq_length.
    assert (T : forall G : nat -> K, sum n G = sum (n - 1) G + G (n - 1)%nat)
      by (intros G0; replace n with (S (n - 1)) at 1 by lia; reflexivity).
    rewrite (T (fun k => F (n + k)%nat * fpow t k)).
    assert (T0 : F (n + (n - 1))%nat = f0) by (replace (n + (n - 1))%nat with (n + n - 1)%nat by lia; apply conv_top).
    rewrite T0.
    transitivity (sum (n - 1) (fun k => F (n + k)%nat * fpow t k)); [|ring]. apply sum_ext. intros k Lk. f_equal.
    set (G := fun k => F (n + k)%nat). rewrite (nth_indep _ f0 (G 0)) by (now rewrite map_length, seq_length).
    rewrite (map_nth G), seq_nth by lia. auto. }
  rewrite Hh.
  assert (Cc : poly_eval pc t = sum n (fun k => F k * fpow t k) + sum n (fun k => F (n + k)%nat * fpow t k)).
  { unfold poly_eval. rewrite Lc, <- sum_add. apply sum_ext. intros k Lk. rewrite <- (fsub_eq0 K _ _ (Z k Lk)). ring. }
  rewrite Cc. ring.
Qed.

(** With these parameters every assignment that satisfies the constraints has a proof that the
    verifier of Groth16 accepts, for all random values; of the points of [h_query] it needs the
    first [n - 1]. *)
Theorem c85_complete t a b d n w (m : matrices P) s z : root_of_order n w -> d <> f0 ->
  (length (mat_a m) + num_instance_variables m <= n)%nat -> well_formed m ->
  groth16 t a b d n w m s -> satisfies m z ->
  exists h, length h = (n - 1)%nat /\ forall r u,
    groth16_verify s (firstn (num_instance_variables m) z)
      (proof_a s z r) (proof_b2 s z u) (proof_c s (num_instance_variables m) z h r u).
Proof.
  intros R Nd Fit W G [Lz Sat]. set (ni := num_instance_variables m) in *. set (nv := num_variables m) in *.
  set (nc := length (mat_a m)) in *. destruct W as ((_ & Wa) & (Lb & _) & (Lc & _)).
  set (fa := fun i => sum nv (fun j => nth j z f0 * column_a m j i)).
  set (fb := fun i => sum nv (fun j => nth j z f0 * column (mat_b m) j i)).
  set (fc := fun i => sum nv (fun j => nth j z f0 * column (mat_c m) j i)).
  destruct (interpolation_exists P n w R fa) as [pa Ia]. destruct (interpolation_exists P n w R fb) as [pb Ib].
  destruct (interpolation_exists P n w R fc) as [pc Ic].
  assert (Hrows : forall i, i < n -> fa i * fb i = fc i).
  { intros i Li. destruct (Nat.lt_ge_cases i nc) as [L|L].
    - specialize (Sat i L). unfold inner in Sat. rewrite Lz in Sat.
      assert (C : forall mt, sum nv (fun j => nth j z f0 * column mt j i) = sum nv (fun j => entry (nth i mt []) j * nth j z f0))
        by (intros; apply sum_ext; intros; unfold column; ring).
      unfold fb, fc. rewrite (C (mat_b m)), (C (mat_c m)). refine (eq_trans _ Sat). f_equal. unfold fa. refine (eq_trans _ (C (mat_a m))). apply sum_ext. intros j _. unfold column_a.
      fold nc. destruct (Nat.eqb_spec i (nc + j)); [lia|]. rewrite andb_false_r. ring.
    - assert (Zb : fb i = f0).
      { unfold fb. apply sum_zero. intros j _. unfold column. rewrite (nth_overflow (mat_b m)) by (fold nc in Lb; lia). simpl. ring. }
      assert (Zc : fc i = f0).
      { unfold fc. apply sum_zero. intros j _. unfold column. rewrite (nth_overflow (mat_c m)) by (fold nc in Lc; lia). simpl. ring. }
      rewrite Zb, Zc. ring. }
  destruct (quotient_exists n w pa pb pc fa fb fc R Ia Ib Ic Hrows) as (h & Lh & Q). specialize (Q t).
  exists h. split; auto. intros r u.
  (* the values of the columns at the secret *)
  set (L := lagrange P n w t).
  set (va := fun j => sum n (fun i => column_a m j i * L i)).
  set (vb := fun j => sum n (fun i => column (mat_b m) j i * L i)).
  set (vc := fun j => sum n (fun i => column (mat_c m) j i * L i)).
  assert (Lin : forall col p f, interpolates n w p f -> (forall i, f i = sum nv (fun j => nth j z f0 * col j i)) ->
    poly_eval p t = sum nv (fun j => nth j z f0 * sum n (fun i => col j i * L i))).
  { intros col p f I E. rewrite (lagrange_interpolation P n w R t p f I).
    rewrite (sum_ext P n _ (fun i => sum nv (fun j => nth j z f0 * (col j i * L i)))).
    2:{ intros i _. rewrite E, <- sum_scale_r. apply sum_ext. intros j _. fold L. ring. }
    rewrite sum_swap. apply sum_ext. intros j _. apply sum_scale. }
  pose proof (Lin _ pa fa Ia (fun i => eq_refl)) as VA. pose proof (Lin _ pb fb Ib (fun i => eq_refl)) as VB.
  pose proof (Lin _ pc fc Ic (fun i => eq_refl)) as VC. fold va in VA. fold vb in VB. fold vc in VC.
  change (fun j => nth j z f0 * sum n (fun i => column_a m j i * L i)) with (fun j => nth j z f0 * va j) in VA.
  change (fun j => nth j z f0 * sum n (fun i => column (mat_b m) j i * L i)) with (fun j => nth j z f0 * vb j) in VB.
  change (fun j => nth j z f0 * sum n (fun i => column (mat_c m) j i * L i)) with (fun j => nth j z f0 * vc j) in VC.
  assert (EA : weighted z (a_query s) = smul (poly_eval pa t) (gen1 P)).
  { rewrite VA, <- Lz. apply weighted_spec; [rewrite (g_len_a _ _ _ _ _ _ _ _ _ G); fold nv; lia|].
    intros j Lj. destruct (interpolation_exists P n w R (column_a m j)) as [p I].
    rewrite (g_a _ _ _ _ _ _ _ _ _ G j p) by (fold nv; auto; lia). f_equal. now apply lagrange_interpolation. }
  assert (EB1 : weighted z (b_g1_query s) = smul (poly_eval pb t) (gen1 P)).
  { rewrite VB, <- Lz. apply weighted_spec; [rewrite (g_len_b1 _ _ _ _ _ _ _ _ _ G); fold nv; lia|].
    intros j Lj. destruct (interpolation_exists P n w R (column (mat_b m) j)) as [p I].
    rewrite (g_b1 _ _ _ _ _ _ _ _ _ G j p) by (fold nv; auto; lia). f_equal. now apply lagrange_interpolation. }
  assert (EB2 : weighted z (b_g2_query s) = smul (poly_eval pb t) (gen2 P)).
  { rewrite VB, <- Lz. apply weighted_spec; [rewrite (g_len_b2 _ _ _ _ _ _ _ _ _ G); fold nv; lia|].
    intros j Lj. destruct (interpolation_exists P n w R (column (mat_b m) j)) as [p I].
    rewrite (g_b2 _ _ _ _ _ _ _ _ _ G j p) by (fold nv; auto; lia). f_equal. now apply lagrange_interpolation. }
  set (vx := fun j => b * va j + a * vb j + vc j).
  assert (Hni : ni <= nv) by (unfold nv, num_variables, ni; lia).
  assert (EP : weighted (firstn ni z) (gamma_abc_g1 s) = smul (sum ni (fun j => nth j z f0 * vx j)) (gen1 P)).
  { rewrite (weighted_spec _ (gen1 P) _ _ vx).
    - rewrite firstn_length, Lz, Nat.min_l by lia. f_equal. apply sum_ext. intros j Lj. f_equal.
      exact (nth_slice z f0 0 ni j Lj).
    - rewrite firstn_length, (g_len_abc _ _ _ _ _ _ _ _ _ G). fold ni. lia.
    - intros j Lj. rewrite firstn_length in Lj.
      destruct (interpolation_exists P n w R (column_a m j)) as [p1 I1].
      destruct (interpolation_exists P n w R (column (mat_b m) j)) as [p2 I2].
      destruct (interpolation_exists P n w R (column (mat_c m) j)) as [p3 I3].
      rewrite (g_abc _ _ _ _ _ _ _ _ _ G j p1 p2 p3) by (auto; fold ni; lia).
      unfold vx, va, vb, vc, L. rewrite !(lagrange_interpolation P n w R t _ _ I1),
        !(lagrange_interpolation P n w R t _ _ I2), !(lagrange_interpolation P n w R t _ _ I3). auto. }
  assert (EL : weighted (skipn ni z) (l_query s) =
    smul (finv d * sum (nv - ni) (fun j => nth (ni + j) z f0 * vx (ni + j)%nat)) (gen1 P)).
  { rewrite (weighted_spec _ (gen1 P) _ _ (fun j => finv d * vx (ni + j)%nat)).
    - rewrite skipn_length, Lz. f_equal. rewrite <- sum_scale. apply sum_ext. intros j Lj.
      assert (X : nth j (skipn ni z) f0 = nth (ni + j) z f0).
      { rewrite <- (nth_slice z f0 ni (S j) j) by lia. symmetry. apply (nth_slice (skipn ni z) f0 0 (S j) j). lia. }
      rewrite X. ring.
    - rewrite skipn_length, (g_len_l _ _ _ _ _ _ _ _ _ G), Lz. unfold nv, num_variables. fold ni. lia.
    - intros j Lj. rewrite skipn_length, Lz in Lj.
      destruct (interpolation_exists P n w R (column_a m (ni + j))) as [p1 I1].
      destruct (interpolation_exists P n w R (column (mat_b m) (ni + j))) as [p2 I2].
      destruct (interpolation_exists P n w R (column (mat_c m) (ni + j))) as [p3 I3].
      rewrite (g_l _ _ _ _ _ _ _ _ _ G j p1 p2 p3) by (auto; unfold nv, num_variables in Lj; fold ni in Lj; lia).
      unfold vx, va, vb, vc, L. rewrite !(lagrange_interpolation P n w R t _ _ I1),
        !(lagrange_interpolation P n w R t _ _ I2), !(lagrange_interpolation P n w R t _ _ I3). auto. }
  assert (EH : weighted h (h_query s) = smul (finv d * (poly_eval h t * (fpow t n - f1))) (gen1 P)).
  { rewrite (weighted_spec _ (gen1 P) _ _ (fun i => finv d * (fpow t i * (fpow t n - f1)))).
    - f_equal. unfold poly_eval. transitivity ((finv d * (fpow t n - f1)) * sum (length h) (fun k => nth k h f0 * fpow t k)); [|ring].
      rewrite <- sum_scale. apply sum_ext. intros i _. ring.
    - rewrite (g_h _ _ _ _ _ _ _ _ _ G), map_length, seq_length. lia.
    - intros j Lj. rewrite (g_h _ _ _ _ _ _ _ _ _ G). set (F := fun i => _).
      rewrite (nth_indep _ g0 (F 0)) by (rewrite map_length, seq_length; lia).
      rewrite (map_nth F), seq_nth by lia. auto. }
  assert (Split : sum ni (fun j => nth j z f0 * vx j) + sum (nv - ni) (fun j => nth (ni + j) z f0 * vx (ni + j)%nat)
    = b * poly_eval pa t + a * poly_eval pb t + poly_eval pc t).
  { rewrite <- (sum_split P ni (nv - ni) (fun j => nth j z f0 * vx j)). replace (ni + (nv - ni))%nat with nv by lia.
    rewrite VA, VB, VC, <- !sum_scale, <- !sum_add. apply sum_ext. intros j _. unfold vx. ring. }
  unfold groth16_verify, proof_a, proof_b2, proof_c, proof_b1, proof_a. rewrite EA, EB1, EB2, EP, EL, EH.
  rewrite (g_alpha _ _ _ _ _ _ _ _ _ G), (g_beta1 _ _ _ _ _ _ _ _ _ G), (g_beta2 _ _ _ _ _ _ _ _ _ G),
    (g_gamma _ _ _ _ _ _ _ _ _ G), (g_delta1 _ _ _ _ _ _ _ _ _ G), (g_delta2 _ _ _ _ _ _ _ _ _ G).
  rewrite !smul_smul, <- !smul_add, !smul_smul, <- !smul_add.
  rewrite !pe_smul_l, !pe_smul_r, !smul_smul, <- !smul_add. f_equal.
  set (X := sum ni _) in *. set (Y := sum (nv - ni) _) in *.
  set (va' := poly_eval pa t) in *. set (vb' := poly_eval pb t) in *. set (vc' := poly_eval pc t) in *.
  set (hz := poly_eval h t * (fpow t n - f1)) in *.
  transitivity (a * b + (b * va' + a * vb') + va' * vb' + u * d * (a + va') + r * d * (b + vb') + r * u * d * d); [ring|].
  rewrite Q. replace Y with (b * va' + a * vb' + vc' - X) by (rewrite <- Split; ring). field. auto.
Qed.

(** Too few powers of tau: the loop for [h_query] asks for [2 n] of them and panics. *)
Theorem c85_panic ta root (acc : accum P) nc ni m :
  let n := (2 ^ Nat.log2_up (nc + ni))%nat in
  Nat.log2_up (nc + ni) <= ta -> (length (tau_g1 acc) < 2 * n)%nat ->
  initialize ta root acc (System nc ni (Some m)) = IPanic.
Proof.
  intros n Lk Ln. cbn [initialize]. unfold domain_new, log_size. apply Nat.leb_le in Lk. rewrite Lk. cbn [fst]. fold n.
  destruct (nth_error _ 0); [|reflexivity]. cbn [unwrap ibind].
  assert (0 < n) by (unfold n; pose proof (Nat.pow_nonzero 2 (Nat.log2_up (nc + ni))); lia).
  rewrite (h_loop_short P _ _ _ (n - 1)); [reflexivity| |lia]. apply in_seq. lia.
Qed.
End Props.

(** * Examples over the field with seventeen elements *)
Definition root17 (k : nat) : sc P17 := k17 (nth k [1; 16; 4; 2; 3]%N 0%N).
Lemma root_check n (w : sc P17) :
  feqb (fpow w n) f1 && forallb (fun m => negb (feqb (fpow w m) f1)) (seq 1 (n - 1)) && negb (feqb (sum n (fun _ => f1 : sc P17)) f0) = true ->
  root_of_order n w.
Proof.
  rewrite !andb_true_iff, forallb_forall. intros [[A B] C]. constructor.
  - now apply feqb_spec.
  - intros m L. specialize (B m ltac:(apply in_seq; lia)). apply negb_true_iff, feqb_false in B. exact B.
  - apply negb_true_iff, feqb_false in C. exact C.
Qed.
Lemma roots17 k : k <= 4 -> root_of_order (2 ^ k) (root17 k).
Proof. intros L. do 5 (destruct k as [|k]; [apply root_check; vm_compute; reflexivity|]). lia. Qed.

(** The constraint x * x = y, with the instance variables 1 and y and the witness x. *)
Definition m17 : matrices P17 := Matrices 2 1 [[(k17 1, 2)]] [[(k17 1, 2)]] [[(k17 1, 1)]].
Lemma m17_ok : well_formed m17.
Proof. repeat split; repeat constructor; cbn; lia. Qed.
Definition acc17 (n1 n2 : nat) : accum P17 :=
  Acc (geometric (k17 3) (gen1 P17) n1) (geometric (k17 3) (gen2 P17) n2)
    (geometric (k17 3) (smul (k17 5) (gen1 P17)) n2) (geometric (k17 3) (smul (k17 7) (gen1 P17)) n2) (smul (k17 7) (gen2 P17)).
Lemma acc17_ok n1 n2 : accum_of (k17 3) (k17 5) (k17 7) n1 n2 n2 n2 (acc17 n1 n2).
Proof. constructor; reflexivity. Qed.

Definition st17 (n1 n2 : nat) : option (state P17) :=
  match initialize 4 root17 (acc17 n1 n2) (System 1 2 (Some m17)) with IOk s => Some s | _ => None end.

Example ex_c85_initialize :
  (forall k, k <= 4 -> root_of_order (2 ^ k) (root17 k)) /\ accum_of (k17 3) (k17 5) (k17 7) 8 4 4 4 (acc17 8 4) /\
  well_formed m17 /\ Nat.log2_up (length (mat_a m17) + num_instance_variables m17) = 2 /\
  match st17 8 4 with
  | Some s => pts_eqb (a_query s) (map p1 [5; 12; 10]%N) && pts_eqb (gamma_abc_g1 s ++ l_query s) (map p1 [1; 9; 1]%N) && pts_eqb (h_query s) (map p1 [12; 2; 6; 1]%N)
  | None => false
  end = true.
Proof.
  split; [exact roots17|]. split; [apply acc17_ok|]. split; [exact m17_ok|]. split; [reflexivity|].
  vm_compute. reflexivity.
Qed.

Example ex_c85_interpolation : root_of_order 4 (k17 4) /\
  forallb (fun i => feqb (poly_eval [k17 13; k17 13; k17 13; k17 13] (fpow (k17 4) i)) (if Nat.eqb i 0 then k17 1 else f0)) (seq 0 4) = true.
Proof. split; [exact (roots17 2 ltac:(lia))|vm_compute; reflexivity]. Qed.

Example ex_c85_errors : initialize 1 root17 (acc17 8 4) (System 1 2 (Some m17)) = IErr TooManyConstraints /\
  initialize 4 root17 (acc17 8 4) (System 1 2 None) = IErr MissingCSMatrices.
Proof. split; apply (c85_errors P17); cbn; auto. Qed.

(** In a system of the example nothing is beyond; with a constraint on variable 3 of 3 the code panics. *)
Example ex_c85_variables :
  (exists s, initialize 4 root17 (acc17 8 4) (System 1 2 (Some m17)) = IOk s) /\
  In (k17 1, 2) (nth 0 (mat_a m17) []) /\
  match initialize 4 root17 (acc17 8 4) (System 1 2 (Some (Matrices 2 1 [[(k17 1, 2)]] [[(k17 1, 3)]] [[(k17 1, 1)]]))) with
  | IPanic => true | _ => false end = true.
Proof.
  split; [|split; [now left|vm_compute; reflexivity]].
  destruct (c85_initialize P17 4 root17 _ _ _ _ _ _ _ _ m17 roots17 (acc17_ok 8 4) m17_ok) as (s & E & _); cbn; try lia.
  exists s. exact E.
Qed.

(** Three is the square root of nine. *)
Example ex_c85_complete : satisfies m17 [k17 1; k17 9; k17 3] /\ root_of_order 4 (root17 2) /\
  exists s, groth16 (k17 3) (k17 5) (k17 7) f1 4 (root17 2) m17 s /\
  exists s', scaled (k17 3) s s' /\ groth16 (k17 3) (k17 5) (k17 7) (fmul (k17 3) f1) 4 (root17 2) m17 s'.
Proof.
  split; [|split; [exact (roots17 2 ltac:(lia))|]].
  { split; [reflexivity|]. intros [|i] L; [|cbn in L; lia]. apply (proj1 (feqb_spec F17 _ _)). vm_compute. reflexivity. }
  destruct (c85_initialize P17 4 root17 _ _ _ _ _ _ _ _ m17 roots17 (acc17_ok 8 4) m17_ok) as (s & _ & G); cbn; try lia.
  exists s. split; [exact G|].
  destruct (c61_honest_total P17 xhash 0%N s (k17 3) (p1 5)) as (s' & pf & E); auto; try (apply nz17; vm_compute; reflexivity).
  pose proof (proj1 (c61_honest P17 xhash xchal _ _ _ _ _ _ E)) as Sc. exists s'. split; [exact Sc|].
  apply (c85_contribution P17 _ _ _ _ _ _ _ _ s s'); auto; apply nz17; vm_compute; reflexivity.
Qed.

(** The number of powers in the first group is [2 * G2_POWERS - 1] in every ceremony of the
    repository (ceremony/config/ppot.rs lines 698-699). They are enough for proofs of a system of
    [G2_POWERS] constraints, of which only [n - 1] points of [h_query] are used; but for it the code panics. *)
Theorem c85_powers_refuted : exists ta root t a b (acc : accum P17) m,
  (forall k, k <= ta -> root_of_order (2 ^ k) (root k)) /\
  accum_of t a b (2 * 4 - 1) 4 4 4 acc /\ well_formed m /\
  2 ^ Nat.log2_up (length (mat_a m) + num_instance_variables m) <= 4 /\
  initialize ta root acc (System (length (mat_a m)) (num_instance_variables m) (Some m)) = IPanic.
Proof.
  exists 4, root17, (k17 3), (k17 5), (k17 7), (acc17 7 4), m17.
  split; [exact roots17|]. split; [apply acc17_ok|]. split; [exact m17_ok|]. split; [cbn; lia|].
  apply c85_panic; cbn; lia.
Qed.

(** With fewer powers in the second group, as the documentation of [G2_POWERS] allows (kzg.rs lines
    46-54), the transform fills up with zeros: the code returns parameters that are wrong. *)
Theorem c85_short_refuted : exists ta root t a b (acc : accum P17) m s,
  (forall k, k <= ta -> root_of_order (2 ^ k) (root k)) /\ accum_of t a b 8 2 2 2 acc /\ well_formed m /\
  initialize ta root acc (System (length (mat_a m)) (num_instance_variables m) (Some m)) = IOk s /\
  ~ groth16 t a b f1 (2 ^ Nat.log2_up (length (mat_a m) + num_instance_variables m))
      (root (Nat.log2_up (length (mat_a m) + num_instance_variables m))) m s.
Proof.
  assert (C : match st17 8 2 with
    | Some s => negb (@feqb F17 (nth 2 (b_g2_query s) g0) (smul (poly_eval [k17 13; k17 13; k17 13; k17 13] (k17 3)) (gen2 P17)))
    | None => false end = true) by (vm_compute; reflexivity).
  destruct (st17 8 2) as [s|] eqn:E; [|discriminate].
  exists 4, root17, (k17 3), (k17 5), (k17 7), (acc17 8 2), m17, s.
  split; [exact roots17|]. split; [apply acc17_ok|]. split; [exact m17_ok|].
  assert (I : initialize 4 root17 (acc17 8 2) (System 1 2 (Some m17)) = IOk s).
  { unfold st17 in E. destruct (initialize _ _ _ _) as [s'|e|]; [injection E as ->; reflexivity|discriminate|discriminate]. }
  split; [exact I|]. intros G.
  assert (N : nth 2 (b_g2_query s) g0 = smul (poly_eval [k17 13; k17 13; k17 13; k17 13] (k17 3)) (gen2 P17)).
  { apply (g_b2 _ _ _ _ _ _ _ _ _ G); [cbn; lia|]. split; [reflexivity|]. intros i L. cbn in L.
    apply (proj1 (feqb_spec F17 _ _)). do 4 (destruct i as [|i]; [vm_compute; reflexivity|]). lia. }
  apply (proj2 (feqb_spec F17 _ _)) in N. apply negb_true_iff in C. rewrite N in C. discriminate.
Qed.

Print Assumptions c85_initialize.
Print Assumptions c85_interpolation.
Print Assumptions c85_errors.
Print Assumptions c85_variables.
Print Assumptions c85_contribution.
Print Assumptions c85_complete.
Print Assumptions c85_panic.
Print Assumptions c85_powers_refuted.
Print Assumptions c85_short_refuted.
