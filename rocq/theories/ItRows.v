(** The loop over the constraints, and what [initialize] returns. *)
From Coq Require Import List Arith Bool Lia Field_theory Ring Field.
From Verif Require Import AlgBase MpModel KzModel KzSpec KzLemmas ItModel ItSpec ItLemmas.
Import ListNotations.

Section Rows.
Variable P : pairing.
Notation K := (sc P).
Add Field Kfr : (fth (sc P)).
Local Open Scope alg_scope.

Lemma special_rows_spec nv : forall (ma mb mc : list (row P)) t1 t2 at1 bt1 (q : queries P),
  length mb = length ma -> length mc = length ma ->
  length ma <= length t1 -> length ma <= length t2 -> length ma <= length at1 -> length ma <= length bt1 ->
  length (q_a q) = nv -> length (q_b1 q) = nv -> length (q_b2 q) = nv -> length (q_ext q) = nv ->
  Forall (Forall (fun c : K * nat => snd c < nv)) ma -> Forall (Forall (fun c : K * nat => snd c < nv)) mb ->
  Forall (Forall (fun c : K * nat => snd c < nv)) mc ->
  exists q', special_rows ma mb mc t1 t2 at1 bt1 q = Some q' /\
    length (q_a q') = nv /\ length (q_b1 q') = nv /\ length (q_b2 q') = nv /\ length (q_ext q') = nv /\
    forall j,
    nth j (q_a q') g0 = gadd (nth j (q_a q) g0) (gsum (length ma) (fun i => smul (column ma j i) (nth i t1 g0))) /\
    nth j (q_b1 q') g0 = gadd (nth j (q_b1 q) g0) (gsum (length ma) (fun i => smul (column mb j i) (nth i t1 g0))) /\
    nth j (q_b2 q') g0 = gadd (nth j (q_b2 q) g0) (gsum (length ma) (fun i => smul (column mb j i) (nth i t2 g0))) /\
    nth j (q_ext q') g0 = gadd (nth j (q_ext q) g0) (gsum (length ma) (fun i =>
      gadd (gadd (smul (column ma j i) (nth i bt1 g0)) (smul (column mb j i) (nth i at1 g0)))
        (smul (column mc j i) (nth i t1 g0)))).
Proof.
  induction ma as [|ra ma IH]; intros mb mc t1 t2 at1 bt1 q Lb Lc L1 L2 La Lbt Qa Qb1 Qb2 Qe Fa Fb Fc.
  { exists q. simpl. split; [reflexivity|]. repeat (split; [assumption|]). intros j.
    rewrite !gadd_0. auto. }
  destruct mb as [|rb mb]; [discriminate|]. destruct mc as [|rc mc]; [discriminate|].
  destruct t1 as [|x t1]; [simpl in L1; lia|]. destruct t2 as [|y t2]; [simpl in L2; lia|].
  destruct at1 as [|a at1]; [simpl in La; lia|]. destruct bt1 as [|b bt1]; [simpl in Lbt; lia|].
  inversion Fa as [|? ? Fa1 Fa2]; subst. inversion Fb as [|? ? Fb1 Fb2]; subst. inversion Fc as [|? ? Fc1 Fc2]; subst.
  destruct (add_row_spec P _ x ra (q_a q) Fa1) as (qa & Ea & La' & Ha).
  destruct (add_row_spec P _ b ra (q_ext q)) as (e1 & Ee1 & Le1 & He1); [now rewrite Qe|].
  destruct (add_row_spec P _ x rb (q_b1 q)) as (qb1 & Eb1 & Lb1 & Hb1); [now rewrite Qb1|].
  destruct (add_row_spec P _ y rb (q_b2 q)) as (qb2 & Eb2 & Lb2 & Hb2); [now rewrite Qb2|].
  destruct (add_row_spec P _ a rb e1) as (e2 & Ee2 & Le2 & He2); [now rewrite Le1, Qe|].
  destruct (add_row_spec P _ x rc e2) as (e3 & Ee3 & Le3 & He3); [now rewrite Le2, Le1, Qe|].
  simpl in Lb, Lc, L1, L2, La, Lbt.
  destruct (IH mb mc t1 t2 at1 bt1 (Queries qa qb1 qb2 e3)) as (q' & E & M1 & M2 & M3 & M4 & H);
    try lia; try assumption; try (cbn [q_a q_b1 q_b2 q_ext]; congruence).
  exists q'. cbn [special_rows]. unfold special_row. rewrite Ea, Ee1, Eb1, Eb2, Ee2, Ee3. split; [exact E|].
  repeat (split; [assumption|]). intros j. destruct (H j) as (H1 & H2 & H3 & H4). cbn [q_a q_b1 q_b2 q_ext] in *.
  rewrite H1, H2, H3, H4. cbn [length]. rewrite !gsum_front. unfold column. cbn [nth].
  rewrite Ha, Hb1, Hb2, He3, He2, He1, !gadd_assoc. auto.
Qed.

Lemma add_at_in (g : grp K) (l : list g) i x l' : add_at l i x = Some l' -> i < length l /\ length l' = length l.
Proof.
  revert i l'. induction l as [|y l IH]; intros i l' E; [discriminate|]. destruct i as [|i]; simpl in E.
  - injection E as <-. simpl. split; lia.
  - destruct (add_at l i x) as [r|] eqn:F; [|discriminate]. injection E as <-. apply IH in F. simpl. lia.
Qed.

Lemma add_row_in (g : grp K) (basis : g) (r : row P) l l' : add_row basis r l = Some l' ->
  (forall c, In c r -> snd c < length l) /\ length l' = length l.
Proof.
  revert l. induction r as [|[c i] r IH]; intros l E; simpl in E.
  - injection E as <-. split; [intros ? []|reflexivity].
  - destruct (add_at l i (smul c basis)) as [l1|] eqn:F; [|discriminate]. apply add_at_in in F as [F1 F2].
    apply IH in E as [E1 E2]. split; [|lia]. intros d [<-|I]; [exact F1|]. apply E1 in I. lia.
Qed.

Lemma special_rows_in nv (ma mb mc : list (row P)) : forall t1 t2 at1 bt1 (q q' : queries P),
  special_rows ma mb mc t1 t2 at1 bt1 q = Some q' ->
  length (q_a q) = nv -> length (q_b1 q) = nv -> length (q_b2 q) = nv -> length (q_ext q) = nv ->
  forall i c, i < length ma -> i < length mb -> i < length mc ->
  i < length t1 -> i < length t2 -> i < length at1 -> i < length bt1 ->
  In c (nth i ma []) \/ In c (nth i mb []) \/ In c (nth i mc []) -> snd c < nv.
Proof.
  revert mb mc. induction ma as [|ra ma IH]; intros mb mc t1 t2 at1 bt1 q q' E Qa Qb1 Qb2 Qe i c Li1 Li2 Li3 Li4 Li5 Li6 Li7 I;
    [simpl in Li1; lia|].
  destruct mb as [|rb mb]; [simpl in Li2; lia|]. destruct mc as [|rc mc]; [simpl in Li3; lia|].
  destruct t1 as [|x t1]; [simpl in Li4; lia|]. destruct t2 as [|y t2]; [simpl in Li5; lia|].
  destruct at1 as [|a at1]; [simpl in Li6; lia|]. destruct bt1 as [|b bt1]; [simpl in Li7; lia|].
  cbn [special_rows] in E. unfold special_row in E.
  destruct (add_row x ra (q_a q)) as [qa|] eqn:E1; [|discriminate].
  destruct (add_row b ra (q_ext q)) as [e1|] eqn:E2; [|discriminate].
  destruct (add_row x rb (q_b1 q)) as [qb1|] eqn:E3; [|discriminate].
  destruct (add_row y rb (q_b2 q)) as [qb2|] eqn:E4; [|discriminate].
  destruct (add_row a rb e1) as [e2|] eqn:E5; [|discriminate].
  destruct (add_row x rc e2) as [e3|] eqn:E6; [|discriminate].
  apply add_row_in in E1 as [A1 B1]. apply add_row_in in E2 as [A2 B2]. apply add_row_in in E3 as [A3 B3].
  apply add_row_in in E4 as [A4 B4]. apply add_row_in in E5 as [A5 B5]. apply add_row_in in E6 as [A6 B6].
  destruct i as [|i].
  - cbn [nth] in I. destruct I as [I|[I|I]]; [apply A1 in I|apply A3 in I|apply A6 in I]; lia.
  - simpl in Li1, Li2, Li3, Li4, Li5, Li6, Li7. cbn [nth] in I.
    apply (IH mb mc t1 t2 at1 bt1 (Queries qa qb1 qb2 e3) q' E) with (i := i); cbn [q_a q_b1 q_b2 q_ext]; try lia; try congruence; exact I.
Qed.

Lemma slice_some {A} (l : list A) a b : a <= b -> b <= length l -> slice l a b = Some (firstn (b - a) (skipn a l)).
Proof.
  intros H1 H2. unfold slice. apply Nat.leb_le in H1. apply Nat.leb_le in H2. now rewrite H1, H2.
Qed.

Lemma nth_slice {A} (l : list A) d a k j : j < k -> nth j (firstn k (skipn a l)) d = nth (a + j) l d.
Proof.
  revert a k j. induction l as [|x l IH]; intros a k j L.
  - rewrite skipn_nil, firstn_nil. destruct j, (a + _)%nat; auto.
  - destruct a; cbn [skipn].
    + rewrite Nat.add_0_l. revert L. clear IH. revert j k. generalize (x :: l). intros m. induction m as [|y m IHm]; intros j k L.
      * rewrite firstn_nil. destruct j; auto.
      * destruct k; [lia|]. destruct j; simpl; auto. apply IHm. lia.
    + change (S a + j)%nat with (S (a + j)). cbn [nth]. apply IH. auto.
Qed.

Lemma nth_skipn_repeat {A} (x : A) n j : forall k, nth j (skipn k (repeat x n)) x = x.
Proof.
  revert j. induction n; intros j k; simpl; [rewrite skipn_nil; destruct j; auto|].
  destruct k; [|apply IHn]. cbn [skipn]. destruct j; cbn [nth]; auto. apply (IHn j 0).
Qed.

Lemma h_loop_spec t (x : G1 P) N n is : Forall (fun i => i + n < N)%nat is ->
  h_loop (geometric t x N) n is = Some (map (fun i => smul (fpow t i * (fpow t n - f1)) x) is).
Proof.
  induction is as [|i is IH]; intros F; [reflexivity|]. inversion F as [|? ? L F']; subst.
  cbn [h_loop]. rewrite (IH F').
  assert (X : forall k, k < N -> nth_error (geometric t x N) k = Some (smul (fpow t k) x)).
  { intros k Lk. rewrite (nth_error_nth' _ g0) by (now rewrite geo_len). now rewrite nth_geometric. }
  rewrite !X by lia. cbn [map]. f_equal. f_equal. unfold gsub. rewrite smul_smul, <- smul_add. f_equal.
  rewrite fpow_add. ring.
Qed.

Lemma h_loop_short (l : list (G1 P)) n is i : In i is -> length l <= i + n -> h_loop l n is = None.
Proof.
  intros I L. induction is as [|k is IH]; [contradiction|]. cbn [h_loop].
  destruct I as [-> |I].
  - assert (E : nth_error l (i + n) = None) by (apply nth_error_None; lia). now rewrite E.
  - rewrite (IH I). destruct (nth_error l (k + n)), (nth_error l k); auto.
Qed.

Section Init.
Variables (ta : nat) (root : nat -> K).
Hypothesis Roots : forall k, k <= ta -> root_of_order (2 ^ k) (root k).

Lemma log_size_ge n : n <= 2 ^ log_size n.
Proof. unfold log_size. destruct (Nat.le_gt_cases n 1) as [L|L]; [destruct n as [|[|]]; simpl; lia|].
  apply Nat.log2_up_spec in L. lia. Qed.

Lemma initialize_spec t a b n1 n2 n3 n4 (acc : accum P) (m : matrices P) :
  accum_of t a b n1 n2 n3 n4 acc -> well_formed m ->
  let nc := length (mat_a m) in let ni := num_instance_variables m in
  let k := log_size (nc + ni) in let n := (2 ^ k)%nat in
  k <= ta -> (2 * n <= n1)%nat -> n <= n2 -> n <= n3 -> n <= n4 ->
  exists s, initialize ta root acc (System nc ni (Some m)) = IOk s /\ groth16 t a b f1 n (root k) m s.
Proof.
  intros [A1 A2 A3 A4 A5] ((_ & Wa) & (Lb & Wb) & (Lc & Wc)) nc ni k n Hk B1 B2 B3 B4.
  pose proof (Roots k Hk) as R. fold n in R. pose proof (size_pos P n (root k) R) as Np.
  pose proof (log_size_ge (nc + ni)) as Fit. fold k n in Fit.
  unfold initialize, domain_new. fold k. apply Nat.leb_le in Hk. rewrite Hk. cbn [fst]. fold n.
  rewrite A1, A2, A3, A4, A5.
  assert (Z : forall (x : G1 P) N, n <= N -> nth_error (geometric t x N) 0 = Some x).
  { intros x N L. rewrite (nth_error_nth' _ g0) by (rewrite geo_len; lia). rewrite nth_geometric by lia.
    cbn [fpow]. now rewrite smul_1. }
  rewrite !Z by lia. cbn [unwrap ibind].
  rewrite h_loop_spec by (apply Forall_forall; intros i I; apply in_seq in I; lia). cbn [unwrap ibind].
  set (T1 := ifft (n, root k) (geometric t (gen1 P) n1)).
  set (T2 := ifft (n, root k) (geometric t (gen2 P) n2)).
  set (TA := ifft (n, root k) (geometric t (smul a (gen1 P)) n3)).
  set (TB := ifft (n, root k) (geometric t (smul b (gen1 P)) n4)).
  assert (L1 : length T1 = n) by apply ifft_len. assert (L2 : length T2 = n) by apply ifft_len.
  assert (LA : length TA = n) by apply ifft_len. assert (LB : length TB = n) by apply ifft_len.
  assert (E1 : forall i, i < n -> nth i T1 g0 = smul (lagrange P n (root k) t i) (gen1 P))
    by (intros; apply ifft_geometric; lia).
  assert (E2 : forall i, i < n -> nth i T2 g0 = smul (lagrange P n (root k) t i) (gen2 P))
    by (intros; apply ifft_geometric; lia).
  assert (EA : forall i, i < n -> nth i TA g0 = smul (lagrange P n (root k) t i) (smul a (gen1 P)))
    by (intros; apply ifft_geometric; lia).
  assert (EB : forall i, i < n -> nth i TB g0 = smul (lagrange P n (root k) t i) (smul b (gen1 P)))
    by (intros; apply ifft_geometric; lia).
  change (num_witness_variables m + num_instance_variables m)%nat with (num_variables m).
  set (nv := num_variables m) in *. assert (Hni : ni <= nv) by (unfold nv, num_variables, ni; lia).
  unfold add_dummy_constraints. rewrite !slice_some by lia. cbn [unwrap ibind].
  replace (ni + nc - nc)%nat with ni by lia.
  assert (LS : forall (A : Type) (l : list A), length l = n -> length (firstn ni (skipn nc l)) = ni)
    by (intros A0 l L; rewrite firstn_length, skipn_length; lia).
  assert (PF : forall (A : Type) (x : A) (l : list A), length l = n ->
    put_front (repeat x nv) (firstn ni (skipn nc l)) = Some (firstn ni (skipn nc l) ++ skipn ni (repeat x nv))).
  { intros A0 x l L. unfold put_front. rewrite LS, repeat_length by auto. apply Nat.leb_le in Hni. now rewrite Hni. }
  rewrite !PF by auto. cbn [unwrap ibind].
  assert (NF : forall l : list (G1 P), length l = n -> forall j,
    nth j (firstn ni (skipn nc l) ++ skipn ni (repeat g0 nv)) g0 = if Nat.ltb j ni then nth (nc + j) l g0 else g0).
  { intros l L j. destruct (Nat.ltb_spec j ni) as [Lj|Lj].
    - rewrite app_nth1 by (rewrite LS; auto). apply nth_slice. auto.
    - rewrite app_nth2 by (rewrite LS; auto). rewrite LS by auto.
      apply nth_skipn_repeat. }
  assert (LF : forall l : list (G1 P), length l = n -> length (firstn ni (skipn nc l) ++ skipn ni (repeat (g0 : G1 P) nv)) = nv)
    by (intros l L; rewrite app_length, LS, skipn_length, repeat_length; auto; lia).
  unfold specialize_to_phase_2. cbn [q_a q_b1 q_b2 q_ext]. rewrite !LF, !repeat_length, !Nat.eqb_refl by auto.
  cbn [andb].
  destruct (special_rows_spec nv (mat_a m) (mat_b m) (mat_c m) T1 T2 TA TB
    (Queries (firstn ni (skipn nc T1) ++ skipn ni (repeat g0 nv)) (repeat g0 nv) (repeat g0 nv)
       (firstn ni (skipn nc TB) ++ skipn ni (repeat g0 nv)))) as (q & E & Qa & Qb1 & Qb2 & Qe & H);
    try assumption; try (cbn [q_a q_b1 q_b2 q_ext]); try (rewrite ?LF, ?repeat_length; auto; fail);
    try (fold nc; lia).
  rewrite E. cbn [unwrap ibind]. rewrite slice_some by (fold ni; lia). cbn [unwrap ibind].
  rewrite slice_some by (fold ni; lia). cbn [unwrap ibind]. eexists. split; [reflexivity|].
  cbn [q_a q_b1 q_b2 q_ext] in H.
  assert (NR : forall (g : grp K) j, nth j (repeat (g0 : g) nv) g0 = g0).
  { intros g j. destruct (Nat.lt_ge_cases j nv) as [L|L]; [|apply nth_overflow; rewrite repeat_length; auto].
    apply (repeat_spec nv). apply nth_In. now rewrite repeat_length. }
  (* the sums of a column over the rows *)
  assert (Col : forall (g : grp K) (x : g) (mt : list (row P)) T j, length mt = nc ->
    (forall i, i < n -> nth i T g0 = smul (lagrange P n (root k) t i) x) ->
    gsum nc (fun i => smul (column mt j i) (nth i T g0)) =
      smul (sum n (fun i => column mt j i * lagrange P n (root k) t i)) x).
  { intros g x mt T j Lm ET. rewrite (gsum_ext P g nc _ (fun i => smul (column mt j i * lagrange P n (root k) t i) x)).
    2:{ intros i Li. rewrite ET by lia. now rewrite smul_smul. }
    rewrite gsum_smul. f_equal. replace n with (nc + (n - nc))%nat by lia. rewrite sum_split.
    rewrite (sum_zero P (n - nc)); [ring|]. intros i _. unfold column.
    rewrite (nth_overflow mt) by lia. simpl. ring. }
  assert (Dummy : forall (x : G1 P) T j, length T = n ->
    (forall i, i < n -> nth i T g0 = smul (lagrange P n (root k) t i) x) ->
    (if Nat.ltb j ni then nth (nc + j) T g0 else g0) =
      smul (sum n (fun i => (if Nat.ltb j ni && Nat.eqb i (nc + j) then f1 else f0) * lagrange P n (root k) t i)) x).
  { intros x T j LT ET. destruct (Nat.ltb_spec j ni) as [Lj|Lj]; cbn [andb].
    - rewrite ET by lia. f_equal. rewrite (sum_single P n (nc + j)).
      + rewrite Nat.eqb_refl. ring.
      + lia.
      + intros i _ D. apply Nat.eqb_neq in D. rewrite D. ring.
    - rewrite sum_zero by (intros; ring). now rewrite smul_0. }
  assert (QA : forall (x : G1 P) T j, length T = n ->
    (forall i, i < n -> nth i T g0 = smul (lagrange P n (root k) t i) x) ->
    gadd (if Nat.ltb j ni then nth (nc + j) T g0 else g0) (gsum nc (fun i => smul (column (mat_a m) j i) (nth i T g0)))
    = smul (sum n (fun i => column_a m j i * lagrange P n (root k) t i)) x).
  { intros x T j LT ET. rewrite (Dummy x T j LT ET), (Col _ x (mat_a m) T j eq_refl ET), <- smul_add. f_equal.
    rewrite <- sum_add. apply sum_ext. intros i _. unfold column_a. fold nc ni. ring. }
  assert (QE : forall j pa pb pc, interpolates n (root k) pa (column_a m j) ->
    interpolates n (root k) pb (column (mat_b m) j) -> interpolates n (root k) pc (column (mat_c m) j) ->
    nth j (q_ext q) g0 = smul (b * poly_eval pa t + a * poly_eval pb t + poly_eval pc t) (gen1 P)).
  { intros j pa pb pc Ia Ib Ic. destruct (H j) as (_ & _ & _ & ->). rewrite NF by auto.
    assert (S3 : forall (f1 f2 f3 : nat -> G1 P) c, gsum c (fun i => gadd (gadd (f1 i) (f2 i)) (f3 i)) =
      gadd (gadd (gsum c f1) (gsum c f2)) (gsum c f3)).
    { intros f1 f2 f3 c. induction c as [|c IHc]; simpl; [now rewrite !gadd_0|]. rewrite IHc.
      generalize (gsum c f1) (gsum c f2) (gsum c f3) (f1 c) (f2 c) (f3 c). intros u v z x y w'.
      rewrite !gadd_assoc. rewrite <- !gadd_assoc. f_equal.
      rewrite (gadd_comm _ _ z (gadd x (gadd y w'))). rewrite !gadd_assoc.
      rewrite (gadd_comm _ _ v x). rewrite <- !gadd_assoc. f_equal. f_equal. f_equal.
      now rewrite gadd_comm. }
    fold nc. rewrite S3, !gadd_assoc. rewrite (QA (smul b (gen1 P)) TB j LB EB).
    rewrite (Col _ (smul a (gen1 P)) (mat_b m) TA j Lb EA), (Col _ (gen1 P) (mat_c m) T1 j Lc E1).
    rewrite !smul_smul, <- !smul_add. f_equal.
    rewrite (lagrange_interpolation P n (root k) R t pa _ Ia), (lagrange_interpolation P n (root k) R t pb _ Ib),
      (lagrange_interpolation P n (root k) R t pc _ Ic). ring. }
  constructor; cbn [alpha_g1 beta_g1 beta_g2 gamma_g2 delta_g1 delta_g2 gamma_abc_g1 a_query b_g1_query b_g2_query h_query l_query];
    try (rewrite ?smul_1; reflexivity); try assumption.
  - rewrite Nat.sub_0_r, firstn_length. cbn [skipn]. fold ni. lia.
  - rewrite firstn_length, skipn_length, Qe. unfold nv, num_variables. lia.
  - intros j p Lj Ip. destruct (H j) as (-> & _). rewrite NF by auto.
    fold nc. rewrite (QA (gen1 P) T1 j L1 E1). f_equal. symmetry. now apply (lagrange_interpolation P n (root k) R t p).
  - intros j p Lj Ip. destruct (H j) as (_ & -> & _). rewrite NR, gadd_0_l.
    fold nc. rewrite (Col _ (gen1 P) (mat_b m) T1 j Lb E1). f_equal. symmetry.
    now apply (lagrange_interpolation P n (root k) R t p).
  - intros j p Lj Ip. destruct (H j) as (_ & _ & -> & _). rewrite NR, gadd_0_l.
    fold nc. rewrite (Col _ (gen2 P) (mat_b m) T2 j Lb E2). f_equal. symmetry.
    now apply (lagrange_interpolation P n (root k) R t p).
  - intros j pa pb pc Lj Ia Ib Ic. rewrite Nat.sub_0_r, nth_slice by auto. rewrite Nat.add_0_l. now apply QE.
  - intros j pa pb pc Lj Ia Ib Ic. rewrite nth_slice by (rewrite Qe; unfold nv, num_variables; lia).
    rewrite (QE _ pa pb pc Ia Ib Ic). f_equal. field. apply f1_nz.
  - apply map_ext. intros i. f_equal. field. apply f1_nz.
Qed.
End Init.
End Rows.
