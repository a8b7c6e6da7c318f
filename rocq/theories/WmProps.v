(** * Multiplication of group elements: properties (C83) *)
From Coq Require Import List NArith ZArith Lia Bool.
From Verif Require Import WmModel.
Import ListNotations.
Local Open Scope nat_scope.

(** ** Specification *)

(** The laws of a group that are needed: associativity and a zero. *)
Record laws {G} (zero : G) (add : G -> G -> G) : Prop := Laws {
  add_assoc : forall a b c, add a (add b c) = add (add a b) c;
  add_0_l : forall a, add zero a = a;
  add_0_r : forall a, add a zero = a }.

(** The sum of [n] copies of a point. *)
Definition times {G} (zero : G) (add : G -> G -> G) (n : N) (p : G) : G := N.iter n (add p) zero.

(** The number with the given bits, most or least significant first. *)
Fixpoint le_value (bits : list bool) : N :=
  match bits with [] => 0%N | b :: t => (N.b2n b + 2 * le_value t)%N end.
Definition be_value (bits : list bool) : N := le_value (rev bits).

(** ** Selection *)

Lemma le_value_lt bits : (le_value bits < 2 ^ N.of_nat (length bits))%N.
Proof.
  induction bits as [|b t IH]; [reflexivity|]. cbn [length le_value].
  rewrite Nnat.Nat2N.inj_succ, N.pow_succ_r'. destruct b; cbn [N.b2n]; lia.
Qed.
Lemma pow2_N n : N.of_nat (2 ^ n) = (2 ^ N.of_nat n)%N.
Proof.
  induction n as [|n IH]; [reflexivity|]. rewrite PeanoNat.Nat.pow_succ_r', Nnat.Nat2N.inj_mul, IH,
    (Nnat.Nat2N.inj_succ n), N.pow_succ_r'. reflexivity.
Qed.
Lemma pow2_pos n : 0 < 2 ^ n.
Proof. induction n; cbn; lia. Qed.
Lemma le_value_nat bits : N.to_nat (le_value bits) < 2 ^ length bits.
Proof. pose proof (le_value_lt bits) as H. rewrite <- pow2_N in H. lia. Qed.

Lemma pairs_length {G} b n (l : list G) : length l = 2 * n -> length (select_pairs b l) = n.
Proof.
  revert l. induction n as [|n IH]; intros l H.
  - destruct l; [reflexivity|cbn in H; lia].
  - destruct l as [|x [|y t]]; cbn in H; try lia. cbn. rewrite IH; [reflexivity|lia].
Qed.
Lemma pairs_nth {G} (d : G) b : forall n l i, length l = 2 * n -> i < n ->
  nth i (select_pairs b l) d = nth (2 * i + (if b then 1 else 0)) l d.
Proof.
  induction n as [|n IH]; intros l i H L; [lia|].
  destruct l as [|x [|y t]]; cbn in H; try lia. destruct i as [|i].
  - destruct b; reflexivity.
  - cbn [select_pairs nth]. rewrite IH by lia.
    replace (2 * S i + (if b then 1 else 0)) with (S (S (2 * i + (if b then 1 else 0)))) by lia. reflexivity.
Qed.
Lemma loop_nth {G} (d : G) : forall bits l, length l = 2 ^ length bits ->
  select_loop bits l = [nth (N.to_nat (le_value bits)) l d].
Proof.
  induction bits as [|b t IH]; intros l H.
  - cbn in *. destruct l as [|x [|y l]]; cbn in H; try lia. reflexivity.
  - cbn [length Nat.pow] in H. cbn [select_loop le_value].
    assert (L : length (select_pairs b l) = 2 ^ length t) by (apply pairs_length; cbn in H |- *; lia).
    rewrite (IH _ L). rewrite (pairs_nth d b (2 ^ length t)); [|cbn in H |- *; lia|apply le_value_nat].
    do 2 f_equal. destruct b; cbn [N.b2n]; lia.
Qed.

(** The selected element is the one whose index has the bits, the first being the least
    significant. *)
Theorem c83_select {G} (d : G) bits table : length table = 2 ^ length bits ->
  select_from_table bits table = Ok (nth (N.to_nat (le_value bits)) table d).
Proof.
  intros H. unfold select_from_table. rewrite (proj2 (PeanoNat.Nat.eqb_eq _ _) H), (loop_nth d _ _ H).
  reflexivity.
Qed.
Example ex_c83_select : length [10; 11; 12; 13] = 2 ^ length [true; false] /\
  select_from_table [true; false] [10; 11; 12; 13] = Ok 11.
Proof. split; reflexivity. Qed.

(** The only panic is the one of the assertion. *)
Theorem c83_select_total {G} bits (table : list G) :
  select_from_table bits table = Panic <-> length table <> 2 ^ length bits.
Proof.
  destruct (PeanoNat.Nat.eq_dec (length table) (2 ^ length bits)) as [E|E].
  - split; [|contradiction]. destruct table as [|d t].
    + cbn [length] in E. pose proof (pow2_pos (length bits)). lia.
    + rewrite (c83_select d _ _ E). discriminate.
  - split; [intros _; exact E|]. intros _. unfold select_from_table. apply PeanoNat.Nat.eqb_neq in E.
    rewrite E. reflexivity.
Qed.
Example ex_c83_select_total : select_from_table [true; false] [10; 11; 12] = Panic /\ select_from_table [] [7] = Ok 7.
Proof. split; reflexivity. Qed.

(** The documentation says "ordered from most significant to least significant"; the selected
    element is a different one. *)
Theorem c83_select_order_refuted : exists (bits : list bool) (table : list nat), length table = 2 ^ length bits /\
  select_from_table bits table <> Ok (nth (N.to_nat (be_value bits)) table 0).
Proof. exists [true; false], [10; 11; 12; 13]. split; [reflexivity|]. vm_compute. discriminate. Qed.

(** ** Multiples *)

Section Laws.
Variable G : Type.
Variable zero : G.
Variable add : G -> G -> G.
Hypothesis L : laws zero add.
Notation tm := (times zero add).

Lemma times_0 p : tm 0 p = zero. Proof. reflexivity. Qed.
Lemma times_succ n p : tm (N.succ n) p = add p (tm n p).
Proof. apply N.iter_succ. Qed.
Lemma times_add a b p : tm (a + b) p = add (tm a p) (tm b p).
Proof.
  induction a as [|a IH] using N.peano_ind.
  - rewrite times_0, (add_0_l _ _ L). reflexivity.
  - rewrite N.add_succ_l, !times_succ, IH. apply (add_assoc _ _ L).
Qed.
Lemma times_1 p : tm 1 p = p.
Proof. change 1%N with (N.succ 0). rewrite times_succ, times_0. apply (add_0_r _ _ L). Qed.
Lemma times_double n p : add (tm n p) (tm n p) = tm (2 * n) p.
Proof. rewrite <- times_add. f_equal. lia. Qed.
Lemma times_times a b p : tm a (tm b p) = tm (a * b) p.
Proof.
  induction a as [|a IH] using N.peano_ind; [reflexivity|].
  rewrite times_succ, IH, N.mul_succ_l, N.add_comm, times_add. reflexivity.
Qed.
Lemma repeated_double_times k n p : repeated_double G add k (tm n p) = tm (2 ^ N.of_nat k * n) p.
Proof.
  revert n. induction k as [|k IH]; intros n; cbn [repeated_double].
  - f_equal. change (N.of_nat 0) with 0%N. rewrite N.pow_0_r. lia.
  - unfold double. rewrite times_double, IH. f_equal. rewrite Nnat.Nat2N.inj_succ, N.pow_succ_r'. lia.
Qed.

(** *** Tables *)

(** A table of the multiples 0, 1, 2, ... of a point. *)
Definition multiples (table : list G) (p : G) : Prop :=
  forall i, i < length table -> nth i table zero = tm (N.of_nat i) p.

Lemma extend_multiples n p : forall table, 0 < length table -> multiples table p ->
  multiples (extend_table G zero add n p table) p /\ length (extend_table G zero add n p table) = length table + n.
Proof.
  induction n as [|n IH]; intros table P H; cbn [extend_table]; [split; [exact H|lia]|].
  assert (A : multiples (table ++ [add (last table zero) p]) p).
  { intros i Li. rewrite app_length in Li. cbn [length] in Li.
    destruct (PeanoNat.Nat.lt_ge_cases i (length table)) as [C|C].
    - rewrite app_nth1 by exact C. apply H. exact C.
    - assert (i = length table) as -> by lia. rewrite app_nth2, PeanoNat.Nat.sub_diag by lia. cbn [nth].
      assert (last table zero = tm (N.of_nat (length table - 1)) p) as ->.
      { rewrite <- (H (length table - 1)) by lia. clear - P. induction table as [|x t IHt]; [cbn in P; lia|].
        destruct t as [|y t]; [reflexivity|]. change (last (x :: y :: t) zero) with (last (y :: t) zero). rewrite IHt by (cbn; lia). cbn [length].
        replace (S (S (length t)) - 1) with (S (S (length t) - 1)) by lia. reflexivity. }
      transitivity (add (tm (N.of_nat (length table - 1)) p) (tm 1 p)); [rewrite times_1; reflexivity|].
      rewrite <- times_add. f_equal. lia. }
  specialize (IH (table ++ [add (last table zero) p]) ltac:(rewrite app_length; cbn [length]; lia) A). rewrite app_length in IH. cbn [length] in IH.
  destruct IH as [I1 I2]. split; [exact I1|]. lia.
Qed.

Lemma window_multiples w p : 0 < w -> exists table, window_new G zero add w p = Ok table /\
  length table = 2 ^ w /\ multiples table p.
Proof.
  intros W. unfold window_new. apply PeanoNat.Nat.ltb_lt in W as W'. rewrite W'. eexists. split; [reflexivity|].
  assert (M : multiples [zero; p] p).
  { intros [|[|i]] H; cbn [length] in H; [reflexivity|cbn [nth]; symmetry; apply times_1|lia]. }
  destruct (extend_multiples (2 ^ w - 2) p [zero; p] ltac:(cbn; lia) M) as [E1 E2].
  split; [|exact E1]. rewrite E2. destruct w as [|w]; [lia|].
  pose proof (pow2_pos w). cbn [length Nat.pow]. lia.
Qed.

End Laws.

Lemma trailing_pow w : trailing_zeros (2 ^ w) = w.
Proof.
  unfold trailing_zeros. rewrite pow2_N. induction w as [|w IH]; [reflexivity|].
  rewrite Nnat.Nat2N.inj_succ, N.pow_succ_r'.
  assert (0 < 2 ^ N.of_nat w)%N by (apply N.neq_0_lt_0, N.pow_nonzero; discriminate).
  destruct (2 ^ N.of_nat w)%N as [|q]; [lia|]. cbn in *. rewrite IH. reflexivity.
Qed.

(** *** Windowed multiplication *)

Lemma le_value_app a b : le_value (a ++ b) = (le_value a + 2 ^ N.of_nat (length a) * le_value b)%N.
Proof.
  induction a as [|x a IH]; cbn [app length le_value].
  - rewrite N.pow_0_r. lia.
  - rewrite IH, Nnat.Nat2N.inj_succ, N.pow_succ_r'. lia.
Qed.
Lemma be_value_app a b : be_value (a ++ b) = (be_value a * 2 ^ N.of_nat (length b) + be_value b)%N.
Proof. unfold be_value. rewrite rev_app_distr, le_value_app, rev_length. lia. Qed.

Lemma chunks_spec {A} k (H : 0 < k) : forall f (l : list A), length l <= f ->
  let '(c, r) := chunks_exact f k l in concat c ++ r = l /\ (forall x, In x c -> length x = k) /\ length r < k.
Proof.
  induction f as [|f IH]; intros l E; cbn [chunks_exact].
  - destruct l; [|cbn in E; lia]. cbn. repeat split; [contradiction|lia].
  - destruct (PeanoNat.Nat.ltb_spec (length l) k) as [C|C].
    + cbn. repeat split; [contradiction|lia].
    + specialize (IH (skipn k l) ltac:(rewrite skipn_length; lia)).
      destruct (chunks_exact f k (skipn k l)) as [c r]. destruct IH as [I1 [I2 I3]]. cbn [concat].
      repeat split; [rewrite <- app_assoc, I1; apply firstn_skipn| |exact I3].
      intros x [<-|X]; [apply firstn_length_le; lia|apply I2; exact X].
Qed.

Section Mul.
Variable G : Type.
Variable zero : G.
Variable add : G -> G -> G.
Hypothesis L : laws zero add.
Notation tm := (times zero add).

Lemma round_value table p chunk n : length table = 2 ^ length chunk -> multiples G zero add table p ->
  scalar_mul_round G add (length chunk) table chunk (tm n p) =
  Ok (tm (n * 2 ^ N.of_nat (length chunk) + be_value chunk) p).
Proof.
  intros E M. unfold scalar_mul_round. rewrite (c83_select zero) by (rewrite rev_length; exact E). cbn [bind].
  f_equal. fold (be_value chunk).
  rewrite (repeated_double_times _ _ _ L), M.
  - rewrite Nnat.N2Nat.id, <- (times_add _ _ _ L). f_equal. lia.
  - rewrite E. unfold be_value. rewrite <- (rev_length chunk). apply le_value_nat.
Qed.

Lemma rounds_value table p w : length table = 2 ^ w -> multiples G zero add table p ->
  forall chunks n, (forall c, In c chunks -> length c = w) ->
  rounds G add w table chunks (tm n p) =
  Ok (tm (n * 2 ^ N.of_nat (length (concat chunks)) + be_value (concat chunks)) p).
Proof.
  intros E M. induction chunks as [|c t IH]; intros n H; cbn [rounds concat].
  - change (N.of_nat (length (@nil bool))) with 0%N. rewrite N.pow_0_r. change (be_value []) with 0%N. do 2 f_equal. lia.
  - assert (C : length c = w) by (apply H; left; reflexivity). rewrite <- C at 1.
    rewrite (round_value table p c n); [|rewrite C; exact E|exact M]. cbn [bind].
    rewrite IH by (intros x X; apply H; right; exact X).
    rewrite be_value_app, app_length, Nnat.Nat2N.inj_add, N.pow_add_r. do 2 f_equal. nia.
Qed.

Lemma mul_value table p w bits : 0 < w -> length table = 2 ^ w -> multiples G zero add table p ->
  window_scalar_mul G zero add table bits = Ok (tm (be_value bits) p).
Proof.
  intros W E M. unfold window_scalar_mul, window_size. rewrite E, trailing_pow.
  destruct (PeanoNat.Nat.eqb_spec w 0) as [?|_]; [lia|].
  pose proof (chunks_spec w W (length bits) bits (le_n _)) as C.
  destruct (chunks_exact (length bits) w bits) as [c r]. destruct C as [C1 [C2 C3]].
  change zero with (tm 0 p). rewrite (rounds_value table p w E M c 0%N C2). cbn [bind].
  assert (P : 2 ^ length r <= 2 ^ w) by (apply PeanoNat.Nat.pow_le_mono_r; lia).
  destruct (PeanoNat.Nat.leb_spec (2 ^ length r) (2 ^ w)) as [_|?]; [|lia].
  rewrite (round_value (firstn (2 ^ length r) table) p r).
  - do 2 f_equal. rewrite <- C1, be_value_app. lia.
  - apply firstn_length_le. lia.
  - intros i Li. rewrite firstn_length_le in Li by lia. rewrite <- (M i) by lia.
    rewrite <- (firstn_skipn (2 ^ length r) table) at 2. rewrite app_nth1; [reflexivity|].
    rewrite firstn_length_le; lia.
Qed.

Lemma from_base_spec n : forall p, length (from_base G add n p) = n /\
  forall i, i < n -> nth i (from_base G add n p) zero = tm (2 ^ N.of_nat i) p.
Proof.
  induction n as [|n IH]; intros p; cbn [from_base length]; [split; [reflexivity|lia]|].
  destruct (IH (add p p)) as [I1 I2]. split; [rewrite I1; reflexivity|]. intros [|i] Li; cbn [nth].
  - cbn. rewrite (add_0_r _ _ L). reflexivity.
  - rewrite I2 by lia. rewrite Nnat.Nat2N.inj_succ, N.pow_succ_r'.
    assert (add p p = tm 2 p) as ->.
    { change 2%N with (1 + 1)%N. rewrite (times_add _ _ _ L), (times_1 _ _ _ L). reflexivity. }
    rewrite (times_times _ _ _ L). f_equal. lia.
Qed.

Lemma bits_value s v : le_value (to_bits_le s v) = (v mod 2 ^ N.of_nat s)%N.
Proof.
  revert v. induction s as [|s IH]; intros v; cbn [to_bits_le le_value].
  - rewrite N.mod_1_r. reflexivity.
  - rewrite IH, Nnat.Nat2N.inj_succ, N.pow_succ_r'.
    rewrite N.mod_mul_r by (try discriminate; apply N.pow_nonzero; discriminate).
    rewrite N.div2_div, <- N.bit0_odd, N.bit0_mod. reflexivity.
Qed.
Lemma bits_length s v : length (to_bits_le s v) = s.
Proof. revert v. induction s; intros; cbn; [|rewrite IHs]; reflexivity. Qed.
Lemma firstn_bits n : forall s v, firstn n (to_bits_le s v) = to_bits_le (Nat.min n s) v.
Proof. induction n; intros [|s] v; cbn; try reflexivity. rewrite IHn. reflexivity. Qed.

Lemma fixed_loop : forall bits n p k m,
  fixed_base_loop G add bits (from_base G add n (tm k p)) (tm m p) = tm (m + k * le_value (firstn n bits)) p.
Proof.
  induction bits as [|b t IH]; intros n p k m.
  - rewrite firstn_nil. cbn [fixed_base_loop le_value]. f_equal. lia.
  - destruct n as [|n]; cbn [from_base fixed_base_loop firstn le_value]; [f_equal; lia|].
    rewrite (times_double _ _ _ L). unfold select.
    assert ((if b then add (tm m p) (tm k p) else tm m p) = tm (m + k * N.b2n b) p) as ->.
    { destruct b; cbn [N.b2n]; [rewrite <- (times_add _ _ _ L)|]; f_equal; lia. }
    rewrite IH. f_equal. lia.
Qed.
Lemma le_loop : forall bits p k m,
  scalar_mul_le G add bits (tm k p) (tm m p) = tm (m + k * le_value bits) p.
Proof.
  induction bits as [|b t IH]; intros p k m; cbn [scalar_mul_le le_value]; [f_equal; lia|].
  unfold double, select. rewrite (times_double _ _ _ L).
  assert ((if b then add (tm m p) (tm k p) else tm m p) = tm (m + k * N.b2n b) p) as ->.
  { destruct b; cbn [N.b2n]; [rewrite <- (times_add _ _ _ L)|]; f_equal; lia. }
  rewrite IH. f_equal. lia.
Qed.
End Mul.

(** ** Theorems *)

(** The additive group of the integers modulo a number, for the examples. *)
Definition zadd (m a b : Z) : Z := ((a + b) mod m)%Z.
(** The integers themselves. *)
Lemma z_laws : laws 0%Z Z.add.
Proof. constructor; intros; lia. Qed.

(** The table of a window of size at least 1 has the multiples of the point, and its size is read
    back from the length. *)
Theorem c83_window {G} zero (add : G -> G -> G) (L : laws zero add) w p : 0 < w ->
  exists table, window_new G zero add w p = Ok table /\ window_size G table = w /\ length table = 2 ^ w /\
  forall i, i < 2 ^ w -> nth_error table i = Some (times zero add (N.of_nat i) p).
Proof.
  intros W. destruct (window_multiples G zero add L w p W) as [t [E1 [E2 M]]]. exists t.
  split; [exact E1|]. split; [unfold window_size; rewrite E2; apply trailing_pow|]. split; [exact E2|].
  intros i H. rewrite (nth_error_nth' t zero) by lia. rewrite M by lia. reflexivity.
Qed.
Example ex_c83_window : window_new Z 0%Z Z.add 2 5%Z = Ok [0; 5; 10; 15]%Z /\ window_new Z 0%Z Z.add 0 5%Z = Panic.
Proof. split; reflexivity. Qed.

(** A window of size 0 panics. *)
Theorem c83_window_total {G} zero (add : G -> G -> G) w p : window_new G zero add w p = Panic <-> w = 0.
Proof. unfold window_new. destruct w; cbn; split; congruence. Qed.
Example ex_c83_window_total : window_new Z 0%Z Z.add 1 5%Z = Ok [0; 5]%Z.
Proof. reflexivity. Qed.

(** For every window size and every list of bits, most significant first, the windowed
    multiplication is the multiplication by the number with these bits. *)
Theorem c83_scalar_mul {G} zero (add : G -> G -> G) (L : laws zero add) w p bits : 0 < w ->
  bind (window_new G zero add w p) (fun table => window_scalar_mul G zero add table bits) =
  Ok (times zero add (be_value bits) p).
Proof.
  intros W. destruct (window_multiples G zero add L w p W) as [t [E1 [E2 M]]]. rewrite E1. cbn [bind].
  apply (mul_value G zero add L t p w bits W E2 M).
Qed.
Example ex_c83_scalar_mul : laws 0%Z Z.add /\
  bind (window_new Z 0%Z Z.add 3 5%Z) (fun t => window_scalar_mul Z 0%Z Z.add t [true; false; true; true; false]) = Ok 110%Z /\
  be_value [true; false; true; true; false] = 22%N.
Proof. split; [exact z_laws|]. split; vm_compute; reflexivity. Qed.

(** The same for a table given without check, if it is a table of multiples whose length is a power
    of 2 other than 1. *)
Theorem c83_unchecked {G} zero (add : G -> G -> G) (L : laws zero add) w p table bits : 0 < w ->
  length table = 2 ^ w -> (forall i, i < 2 ^ w -> nth i table zero = times zero add (N.of_nat i) p) ->
  window_scalar_mul G zero add table bits = Ok (times zero add (be_value bits) p).
Proof.
  intros W E M. apply (mul_value G zero add L table p w bits W E). intros i H. apply M. lia.
Qed.
Example ex_c83_unchecked : window_scalar_mul Z 0%Z Z.add [0; 7]%Z [true; true; false] = Ok 42%Z.
Proof. vm_compute. reflexivity. Qed.

(** A table of odd length, for instance of length 1, always panics: it has the window size 0. *)
Theorem c83_odd {G} zero (add : G -> G -> G) table bits : Nat.odd (length table) = true ->
  window_scalar_mul G zero add table bits = Panic.
Proof.
  intros O. unfold window_scalar_mul, window_size, trailing_zeros.
  assert (H : N.odd (N.of_nat (length table)) = true).
  { apply PeanoNat.Nat.odd_spec in O. destruct O as [k O]. rewrite O. apply N.odd_spec. exists (N.of_nat k). lia. }
  destruct (N.of_nat (length table)) as [|[q|q|]]; try discriminate; reflexivity.
Qed.
Example ex_c83_odd : Nat.odd (length [0; 7; 14]%Z) = true.
Proof. reflexivity. Qed.

(** The precomputed bases are the multiples by the powers of 2. *)
Theorem c83_bases {G} zero (add : G -> G -> G) (L : laws zero add) n p i : i < n ->
  length (from_base G add n p) = n /\
  nth_error (from_base G add n p) i = Some (times zero add (2 ^ N.of_nat i) p).
Proof.
  intros H. destruct (from_base_spec G zero add L n p) as [E1 E2]. split; [exact E1|].
  rewrite (nth_error_nth' _ zero) by lia. rewrite E2 by exact H. reflexivity.
Qed.
Example ex_c83_bases : from_base Z Z.add 5 3%Z = [3; 6; 12; 24; 48]%Z.
Proof. reflexivity. Qed.

(** The multiplication with [n] precomputed bases uses the low [n] bits of the scalar. *)
Theorem c83_fixed_base {G} zero (add : G -> G -> G) (L : laws zero add) s n p v :
  fixed_base_scalar_mul G zero add s (from_base G add n p) v =
  times zero add (v mod 2 ^ N.of_nat (Nat.min n s)) p.
Proof.
  unfold fixed_base_scalar_mul. pose proof (fixed_loop G zero add L (to_bits_le s v) n p 1 0) as F.
  rewrite (times_1 _ _ _ L) in F. change (times zero add 0 p) with zero in F. rewrite F.
  f_equal. rewrite firstn_bits, bits_value. lia.
Qed.
Example ex_c83_fixed_base : fixed_base_scalar_mul Z 0%Z Z.add 8 (from_base Z Z.add 5 3%Z) 22 = 66%Z /\
  fixed_base_scalar_mul Z 0%Z Z.add 8 (from_base Z Z.add 5 3%Z) 54 = 66%Z.
Proof. split; vm_compute; reflexivity. Qed.

(** The multiplication with a variable is the multiplication by its value. *)
Theorem c83_var {G} zero (add : G -> G -> G) (L : laws zero add) s p v : (v < 2 ^ N.of_nat s)%N ->
  var_scalar_mul G zero add s p v = times zero add v p.
Proof.
  intros H. unfold var_scalar_mul. pose proof (le_loop G zero add L (to_bits_le s v) p 1 0) as F.
  rewrite (times_1 _ _ _ L) in F. change (times zero add 0 p) with zero in F. rewrite F.
  f_equal. rewrite bits_value, N.mod_small by exact H. lia.
Qed.
Example ex_c83_var : var_scalar_mul Z 0%Z Z.add 8 3%Z 54 = 162%Z.
Proof. vm_compute. reflexivity. Qed.

(** So the two multiplications agree on the scalars that fit into the table ... *)
Theorem c83_agree {G} zero (add : G -> G -> G) (L : laws zero add) s n p v :
  n <= s -> (v < 2 ^ N.of_nat n)%N ->
  fixed_base_scalar_mul G zero add s (from_base G add n p) v = var_scalar_mul G zero add s p v.
Proof.
  intros Hn H. rewrite (c83_fixed_base zero add L), PeanoNat.Nat.min_l, N.mod_small by assumption.
  rewrite (c83_var zero add L); [reflexivity|]. eapply N.lt_le_trans; [exact H|].
  apply N.pow_le_mono_r; [discriminate|lia].
Qed.
Example ex_c83_agree : 5 <= 8 /\ (22 < 2 ^ N.of_nat 5)%N.
Proof. split; [lia|reflexivity]. Qed.

(** ... but not on every scalar of a circuit. The scalar field of BN254 has 254 bits and the order of
    the group of the embedded curve has 251, which is the length of the table in the tests of the
    repository. The scalar 2^251 is a value of a [ScalarVar]; the product with the table is zero. *)
Definition bn254_r : N := 21888242871839275222246405745257275088548364400416034343698204186575808495617.
Definition embedded_order : Z := 2736030358979909402780800718157159386076813972158567259200215660948447373041.
(** The residues modulo the order of the group, a cyclic group of that order. *)
Definition residues := { a : Z | ((0 <=? a)%Z && (a <? embedded_order)%Z) = true }.
Lemma in_range z : ((0 <=? z mod embedded_order)%Z && (z mod embedded_order <? embedded_order)%Z) = true.
Proof.
  apply andb_true_iff. rewrite Z.leb_le, Z.ltb_lt.
  destruct (Z.mod_pos_bound z embedded_order ltac:(reflexivity)). split; assumption.
Qed.
Definition residue (z : Z) : residues := exist _ (z mod embedded_order)%Z (in_range z).
Definition radd (a b : residues) : residues := residue (proj1_sig a + proj1_sig b).
Lemma residues_eq (a b : residues) : proj1_sig a = proj1_sig b -> a = b.
Proof.
  destruct a as [a A], b as [b B]. cbn. intros ->. f_equal. apply Eqdep_dec.UIP_dec, bool_dec.
Qed.
Lemma residue_small (a : residues) : (proj1_sig a mod embedded_order = proj1_sig a)%Z.
Proof.
  destruct a as [a A]. cbn [proj1_sig]. apply andb_true_iff in A. rewrite Z.leb_le, Z.ltb_lt in A.
  apply Z.mod_small. exact A.
Qed.
Lemma residues_laws : laws (residue 0) radd.
Proof.
  assert (O : (embedded_order <> 0)%Z) by discriminate.
  constructor; intros; apply residues_eq; unfold radd, residue; cbn [proj1_sig].
  - rewrite Zplus_mod_idemp_l, Zplus_mod_idemp_r. f_equal. lia.
  - rewrite Zmod_0_l, Z.add_0_l. apply residue_small.
  - rewrite Zmod_0_l, Z.add_0_r. apply residue_small.
Qed.
Lemma residues_times n z : proj1_sig (times (residue 0) radd n (residue z)) = ((Z.of_N n * z) mod embedded_order)%Z.
Proof.
  induction n as [|n IH] using N.peano_ind; [reflexivity|].
  unfold times in *. rewrite N.iter_succ. unfold radd at 1. unfold residue at 1. cbn [proj1_sig].
  rewrite IH. unfold residue. cbn [proj1_sig].
  rewrite Zplus_mod_idemp_l, Zplus_mod_idemp_r. f_equal. lia.
Qed.
Theorem c83_fixed_base_refuted : exists v, (v < bn254_r)%N /\
  fixed_base_scalar_mul residues (residue 0) radd 254 (from_base residues radd 251 (residue 1)) v = residue 0 /\
  var_scalar_mul residues (residue 0) radd 254 (residue 1) v <> residue 0.
Proof.
  exists (2 ^ 251)%N. split; [reflexivity|]. split.
  - rewrite (c83_fixed_base _ _ residues_laws). reflexivity.
  - rewrite (c83_var _ _ residues_laws) by reflexivity. intros E.
    apply (f_equal (@proj1_sig _ _)) in E. rewrite residues_times in E. vm_compute in E. discriminate.
Qed.

(** In a group in which [l] times the point is zero, a circuit that multiplies with an unreduced
    scalar and native code that multiplies with its remainder modulo [l] compute the same point. *)
Theorem c83_reduce {G} zero (add : G -> G -> G) (L : laws zero add) s p (l v : N) : (l <> 0)%N ->
  times zero add l p = zero -> (v < 2 ^ N.of_nat s)%N ->
  var_scalar_mul G zero add s p v = times zero add (v mod l) p.
Proof.
  intros Hl E H. rewrite (c83_var _ _ L) by exact H. rewrite (N.div_mod v l Hl) at 1.
  rewrite (times_add _ _ _ L). rewrite N.mul_comm, <- (times_times _ _ _ L), E.
  assert (Z : forall n, times zero add n zero = zero).
  { induction n as [|n IH] using N.peano_ind; [reflexivity|]. unfold times in *. rewrite N.iter_succ, IH.
    apply (add_0_l _ _ L). }
  rewrite Z. apply (add_0_l _ _ L).
Qed.
Example ex_c83_reduce : times (residue 0) radd (Z.to_N embedded_order) (residue 1) = residue 0 /\
  (bn254_r - 1 < 2 ^ N.of_nat 254)%N.
Proof.
  split; [|reflexivity]. apply residues_eq. rewrite residues_times. vm_compute. reflexivity.
Qed.

Print Assumptions c83_select.
Print Assumptions c83_select_total.
Print Assumptions c83_select_order_refuted.
Print Assumptions c83_window.
Print Assumptions c83_window_total.
Print Assumptions c83_scalar_mul.
Print Assumptions c83_unchecked.
Print Assumptions c83_odd.
Print Assumptions c83_bases.
Print Assumptions c83_fixed_base.
Print Assumptions c83_var.
Print Assumptions c83_agree.
Print Assumptions c83_fixed_base_refuted.
Print Assumptions c83_reduce.
