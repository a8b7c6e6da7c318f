(** Lemmas about the encoding of points. *)
From Coq Require Import ZArith Znumtheory List Bool Lia.
From Verif Require Import PsModel PsSpec PrCert.
Import ListNotations.
Local Open Scope Z_scope.

(** * Lists and flags *)
Lemma fill_full n l : length l = n -> fill n l = l.
Proof. intros <-. unfold fill. rewrite Nat.sub_diag. apply app_nil_r. Qed.
Lemma fill_length n l : (length l <= n)%nat -> length (fill n l) = n.
Proof. intros E. unfold fill. rewrite app_length, repeat_length. lia. Qed.
Lemma read_slice n a rest : length a = n -> (0 < n)%nat -> read n (slice (a ++ rest)) = (a, slice rest).
Proof.
  intros <- L. destruct a as [|z a]; [cbn in L; lia|]. unfold slice. cbn [app].
  unfold read. change (z :: a ++ rest) with ((z :: a) ++ rest).
  rewrite firstn_app, Nat.sub_diag, firstn_all, firstn_O, app_nil_r.
  rewrite skipn_app, Nat.sub_diag, skipn_all, skipn_O. cbn [app]. destruct rest; reflexivity.
Qed.
Lemma or_last_snoc m l b : or_last m (l ++ [b]) = l ++ [Z.lor b m].
Proof.
  induction l as [|a l IH]; [reflexivity|]. cbn [app]. cbn [or_last].
  destruct (l ++ [b]) as [|z l'] eqn:E; [destruct l; discriminate|]. rewrite <- IH. reflexivity.
Qed.
Lemma or_last_length m l : length (or_last m l) = length l.
Proof. induction l as [|a [|b l] IH]; cbn [or_last length]; auto. Qed.
Lemma repeat_snoc {A} (x : A) n : repeat x (S n) = repeat x n ++ [x].
Proof. induction n as [|n IH]; [reflexivity|]. cbn [repeat app] in *. now rewrite <- IH. Qed.
Lemma rev_repeat {A} (x : A) n : rev (repeat x n) = repeat x n.
Proof. induction n as [|n IH]; [reflexivity|]. rewrite repeat_snoc, rev_app_distr, IH, <- repeat_snoc. reflexivity. Qed.

Lemma low_byte (b : Z) : 0 <= b < 64 ->
  Z.testbit b 6 = false /\ Z.testbit b 7 = false /\ Z.land b 63 = b /\
  Z.testbit (Z.lor b 128) 6 = false /\ Z.testbit (Z.lor b 128) 7 = true /\ Z.land (Z.lor b 128) 63 = b /\
  Z.lor b 128 = b + 128.
Proof.
  intros H.
  assert (A : forallb (fun n => let b := Z.of_nat n in
    negb (Z.testbit b 6) && negb (Z.testbit b 7) && (Z.land b 63 =? b) && negb (Z.testbit (Z.lor b 128) 6) &&
    Z.testbit (Z.lor b 128) 7 && (Z.land (Z.lor b 128) 63 =? b) && (Z.lor b 128 =? b + 128)) (seq 0 64) = true)
    by (vm_compute; reflexivity).
  rewrite forallb_forall in A. specialize (A (Z.to_nat b)). cbv zeta in A. rewrite Z2Nat.id in A by lia.
  assert (I : In (Z.to_nat b) (seq 0 64)) by (apply in_seq; lia). specialize (A I).
  repeat rewrite andb_true_iff in A. rewrite !negb_true_iff, !Z.eqb_eq in A. tauto.
Qed.

(** * Numbers *)
Lemma be_fold l : forall a, fold_left (fun a b => a * 256 + b) l a = a * 256 ^ Z.of_nat (length l) + be l.
Proof.
  unfold be. induction l as [|b l IH]; intros a; cbn [fold_left length]; [cbn; lia|].
  rewrite IH, (IH (0 * 256 + b)). rewrite Nat2Z.inj_succ, Z.pow_succ_r by lia. ring.
Qed.
Lemma be_cons b l : be (b :: l) = b * 256 ^ Z.of_nat (length l) + be l.
Proof. unfold be at 1. cbn [fold_left]. rewrite be_fold. ring. Qed.
Lemma be_number l : be l = number l.
Proof. induction l as [|b l IH]; [reflexivity|]. rewrite be_cons, IH. reflexivity. Qed.
Lemma be_app a b : be (a ++ b) = be a * 256 ^ Z.of_nat (length b) + be b.
Proof. unfold be at 1. rewrite fold_left_app. apply be_fold. Qed.
Lemma le_length n : forall x, length (le n x) = n.
Proof. induction n as [|n IH]; intros x; cbn [le length]; [reflexivity|]. now rewrite IH. Qed.
Lemma be_le n : forall x, 0 <= x < 256 ^ Z.of_nat n -> be (rev (le n x)) = x.
Proof.
  induction n as [|n IH]; intros x Hx.
  - cbn in *. lia.
  - cbn [le rev]. rewrite Nat2Z.inj_succ, Z.pow_succ_r in Hx by lia.
    rewrite be_app, IH.
    + cbn [length]. unfold be. cbn [fold_left]. change (256 ^ Z.of_nat 1) with 256.
      pose proof (Z.div_mod x 256). lia.
    + split; [apply Z.div_pos; lia|]. apply Z.div_lt_upper_bound; lia.
Qed.
Lemma le_bytes n : forall x, bytes (le n x).
Proof.
  induction n as [|n IH]; intros x; cbn [le]; constructor; [|apply IH]. apply Z.mod_pos_bound. lia.
Qed.
Lemma le_app n m : forall x, le (n + m) x = le n x ++ le m (x / 256 ^ Z.of_nat n).
Proof.
  induction n as [|n IH]; intros x.
  - cbn. now rewrite Z.div_1_r.
  - cbn [Nat.add le app]. f_equal. rewrite IH. f_equal. f_equal.
    rewrite Nat2Z.inj_succ, Z.pow_succ_r by lia. rewrite Z.div_div; try lia.
Qed.
Lemma be_bounds l : bytes l -> 0 <= be l < 256 ^ Z.of_nat (length l).
Proof.
  induction 1 as [|b l B _ IH]; [cbn; lia|]. rewrite be_cons. cbn [length]. rewrite Nat2Z.inj_succ, Z.pow_succ_r by lia. nia.
Qed.
(** The top byte of a residue leaves two bits free. *)
Lemma le_top x : 0 <= x < 2 ^ 254 -> exists l b, le 32 x = l ++ [b] /\ length l = 31%nat /\ 0 <= b < 64.
Proof.
  intros Hx. exists (le 31 x), (x / 256 ^ Z.of_nat 31 mod 256).
  change 32%nat with (31 + 1)%nat. rewrite le_app, le_length. split; [reflexivity|]. split; [reflexivity|].
  change (256 ^ Z.of_nat 31) with (2 ^ 248).
  assert (0 <= x / 2 ^ 248 < 64).
  { split; [apply Z.div_pos; lia|]. apply Z.div_lt_upper_bound; [lia|]. change (2 ^ 248 * 64) with (2 ^ 254). lia. }
  rewrite Z.mod_small; lia.
Qed.

(** * What the two curves have in common *)
Record laws (C : curve) (wf : F C -> Prop) : Prop := Laws {
  l_pos : (0 < flen C)%nat;
  l_len x : length (fwrite C x) = flen C;
  l_bytes x : bytes (fwrite C x);
  l_top x : wf x -> exists l b, fwrite C x = l ++ [b] /\ 0 <= b < 64;
  l_rw x : wf x -> fread C (rev (fwrite C x)) = x;
  l_read bs : wf (fread C bs);
  l_neg y : wf y -> wf (fneg C y);
  l_negneg y : wf y -> fneg C (fneg C y) = y;
  l_lt y z : wf y -> wf z -> y <> z -> flt C y z = negb (flt C z y);
  l_irr y : flt C y y = false;
  l_dec (y z : F C) : y = z \/ y <> z;
  l_eqb a b : feqb C a b = true <-> a = b;
  l_root y z : wf y -> wf z -> fsqr C y = fsqr C z -> z = y \/ z = fneg C y;
  l_sqrneg y : wf y -> fsqr C (fneg C y) = fsqr C y;
  l_sqrt a r : fsqrt C a = Some r -> wf r /\ fsqr C r = a;
  l_some y : wf y -> fsqrt C (fsqr C y) <> None
}.

Section Generic.
Variables (C : curve) (wf : F C -> Prop).
Hypothesis L : laws C wf.

Definition gwf (p : point (F C)) : Prop := match p with Inf => True | Aff x y => wf x /\ wf y end.

Lemma g_get_point x y : wf x -> wf y -> fsqr C y = frhs C x ->
  get_point_from_x C x (flt C (fneg C y) y) = Some (Aff x y).
Proof.
  intros Wx Wy E. unfold get_point_from_x. rewrite <- E.
  destruct (fsqrt C (fsqr C y)) as [r|] eqn:R; [|now destruct (l_some _ _ L y Wy)].
  destruct (l_sqrt _ _ L _ _ R) as [Wr Er]. f_equal. f_equal.
  destruct (l_root _ _ L y r Wy Wr (eq_sym Er)) as [->| ->].
  - destruct (l_dec _ _ L y (fneg C y)) as [D|D].
    + rewrite <- D. rewrite !(l_irr _ _ L). reflexivity.
    + rewrite (l_lt _ _ L (fneg C y) y) by (auto; apply (l_neg _ _ L); auto).
      now destruct (flt C y (fneg C y)).
  - rewrite (l_negneg _ _ L) by auto. now rewrite xorb_nilpotent.
Qed.

Lemma g_inf n : (0 < n)%nat -> rev (or_last 64 (repeat 0 n)) = 64 :: repeat 0 (n - 1).
Proof.
  intros H. destruct n as [|n]; [lia|]. rewrite repeat_snoc, or_last_snoc, rev_app_distr, rev_repeat. cbn. now rewrite Nat.sub_0_r.
Qed.
Lemma ser_compressed_length p : length (ser_compressed C p) = compressed_size C.
Proof.
  unfold ser_compressed, ser_unchecked, compressed_size. rewrite rev_length. destruct p as [|x y].
  - now rewrite or_last_length, repeat_length.
  - destruct (flt C _ _); rewrite ?or_last_length; apply (l_len _ _ L).
Qed.
Lemma ser_uncompressed_length p : length (ser_uncompressed C p) = uncompressed_size C.
Proof.
  unfold ser_uncompressed, uncompressed_size. rewrite rev_length. destruct p as [|x y].
  - now rewrite or_last_length, repeat_length.
  - rewrite app_length, !(l_len _ _ L). lia.
Qed.

(** A compressed point that is on the curve is read back. *)
Lemma g_compressed p rest : gwf p -> on_curve C p = true ->
  de_compressed C (slice (ser_compressed C p ++ rest)) = (Ok p, slice rest).
Proof.
  intros W E. unfold de_compressed. pose proof (l_pos _ _ L) as Lp.
  rewrite read_slice by (auto; apply ser_compressed_length).
  rewrite fill_full by apply ser_compressed_length. f_equal.
  unfold ser_compressed, ser_unchecked. destruct p as [|x y].
  - rewrite g_inf by auto. unfold flag, all0, mask. cbn [hd]. change (Z.testbit 64 6) with true. cbv iota.
    change (Z.land 64 63) with 0. cbn [forallb]. rewrite Z.eqb_refl. cbn [andb].
    replace (forallb (Z.eqb 0) (repeat 0 (flen C - 1))) with true; [reflexivity|]. symmetry. apply forallb_forall.
    intros z Hz. apply repeat_spec in Hz. subst z. reflexivity.
  - destruct W as [Wx Wy]. unfold on_curve in E. apply (l_eqb _ _ L) in E.
    destruct (l_top _ _ L x Wx) as (l & b & Ew & Hb). destruct (low_byte b Hb) as (T6 & T7 & Lm & T6' & T7' & Lm' & _).
    pose proof (l_rw _ _ L x Wx) as RW. rewrite Ew, rev_app_distr in RW. cbn [rev app] in RW.
    pose proof (g_get_point x y Wx Wy E) as G.
    cbv zeta. destruct (flt C (fneg C y) y); rewrite Ew, ?or_last_snoc, rev_app_distr; cbn [rev app];
      unfold flag, mask; cbn [hd]; rewrite ?T6, ?T7, ?T6', ?T7', ?Lm, ?Lm'; rewrite RW, G; reflexivity.
Qed.

(** An uncompressed point is read back, on the curve or not. *)
Lemma g_unchecked p rest : gwf p ->
  de_unchecked C (slice (ser_uncompressed C p ++ rest)) = (Ok p, slice rest).
Proof.
  intros W. unfold de_unchecked. pose proof (l_pos _ _ L) as Lp.
  rewrite read_slice by (try apply ser_uncompressed_length; lia).
  rewrite fill_full by apply ser_uncompressed_length. f_equal.
  unfold ser_uncompressed. destruct p as [|x y].
  - rewrite g_inf by lia. unfold flag, all0, mask. cbn [hd]. change (Z.testbit 64 6) with true. change (Z.testbit 64 7) with false. cbv iota.
    change (Z.land 64 63) with 0. cbn [forallb]. rewrite Z.eqb_refl. cbn [andb].
    replace (forallb (Z.eqb 0) (repeat 0 (2 * flen C - 1))) with true; [reflexivity|]. symmetry. apply forallb_forall.
    intros z Hz. apply repeat_spec in Hz. subst z. reflexivity.
  - destruct W as [Wx Wy]. rewrite rev_app_distr.
    destruct (l_top _ _ L x Wx) as (l & b & Ew & Hb). destruct (low_byte b Hb) as (T6 & T7 & Lm & _).
    pose proof (l_rw _ _ L x Wx) as RW. pose proof (l_len _ _ L x) as LX.
    assert (ER : rev (fwrite C x) = b :: rev l) by (rewrite Ew, rev_app_distr; reflexivity).
    assert (LR : length (b :: rev l) = flen C) by (rewrite <- ER, rev_length; exact LX).
    rewrite ER in RW |- *. cbn [app]. unfold flag, mask. cbn [hd]. rewrite T6, T7, Lm.
    change (b :: rev l ++ rev (fwrite C y)) with ((b :: rev l) ++ rev (fwrite C y)).
    rewrite <- LR. rewrite firstn_app, Nat.sub_diag, firstn_all, firstn_O, app_nil_r.
    rewrite skipn_app, Nat.sub_diag, skipn_all, skipn_O. cbn [app]. rewrite RW, (l_rw _ _ L y Wy). reflexivity.
Qed.

Lemma check_ok g : check C g = Ok tt <-> on_curve C g = true /\ insub C g = true.
Proof. unfold check. destruct (on_curve C g), (insub C g); cbn; split; intros; try tauto; try discriminate; destruct H; discriminate. Qed.

Lemma g_uncompressed p rest : gwf p -> on_curve C p = true -> insub C p = true ->
  de_uncompressed C (slice (ser_uncompressed C p ++ rest)) = (Ok p, slice rest).
Proof.
  intros W E I. unfold de_uncompressed. rewrite g_unchecked by auto. f_equal. cbn [bind].
  rewrite (proj2 (check_ok p)) by auto. reflexivity.
Qed.

(** What is read is on the curve. *)
Lemma g_get_point_on x g p : wf x -> get_point_from_x C x g = Some p -> gwf p /\ on_curve C p = true.
Proof.
  unfold get_point_from_x. destruct (fsqrt C (frhs C x)) as [r|] eqn:R; [|discriminate]. intros Wx E. injection E as <-.
  destruct (l_sqrt _ _ L _ _ R) as [Wr Er]. cbn [gwf on_curve]. rewrite (l_eqb _ _ L).
  destruct (xorb _ _); repeat split; auto.
  - apply (l_neg _ _ L). auto.
  - now rewrite (l_sqrneg _ _ L).
Qed.
Lemma g_compressed_sound r p r' : de_compressed C r = (Ok p, r') -> gwf p /\ on_curve C p = true.
Proof.
  unfold de_compressed. destruct (read _ r) as [got r1]. intros E. apply (f_equal fst) in E. cbn [fst] in E.
  destruct (flag 6 _).
  - destruct (all0 _); [|discriminate]. injection E as <-. split; reflexivity.
  - destruct (get_point_from_x _ _ _) as [p'|] eqn:G; [|discriminate]. injection E as <-.
    eapply g_get_point_on; [apply (l_read _ _ L)|exact G].
Qed.
Lemma g_unchecked_sound r p r' : de_unchecked C r = (Ok p, r') -> gwf p.
Proof.
  unfold de_unchecked. destruct (read _ r) as [got r1]. intros E. apply (f_equal fst) in E. cbn [fst] in E.
  destruct (flag 7 _); [discriminate|]. destruct (flag 6 _).
  - destruct (all0 _); [|discriminate]. injection E as <-. exact I.
  - injection E as <-. split; apply (l_read _ _ L).
Qed.
Lemma g_uncompressed_sound r p r' : de_uncompressed C r = (Ok p, r') -> gwf p /\ on_curve C p = true /\ insub C p = true.
Proof.
  unfold de_uncompressed. destruct (de_unchecked C r) as [o r1] eqn:U. intros E. apply (f_equal fst) in E. cbn [fst] in E.
  destruct o as [g|e|]; try discriminate. cbn [bind] in E. destruct (check C g) as [[]|e|] eqn:K; try discriminate.
  cbn [bind] in E. injection E as <-. apply g_unchecked_sound in U. apply check_ok in K. tauto.
Qed.
End Generic.

(** * The first curve *)
Section One.
Variables (q b : Z).
Hypothesis Q : good_prime q.
Lemma q_pos : 2 < q.
Proof. destruct Q as (P & M & _). pose proof (prime_ge_2 q P). destruct (Z.eq_dec q 2) as [->|]; [discriminate M|lia]. Qed.
Lemma q_odd : q mod 2 = 1.
Proof.
  destruct Q as (_ & M & _). pose proof q_pos. pose proof (Z.div_mod q 4). replace q with (1 + (2 * (q / 4) + 1) * 2) by lia.
  rewrite Z_mod_plus_full. reflexivity.
Qed.
Lemma mod_res a : residue q (a mod q).
Proof. apply Z.mod_pos_bound. pose proof q_pos. lia. Qed.
Lemma res_lt x : residue q x -> 0 <= x < 2 ^ 254.
Proof. destruct Q as (_ & _ & B). unfold residue. lia. Qed.
Lemma mod_div a c : a mod q = c mod q <-> (q | a - c).
Proof. symmetry. apply cg_eq. pose proof q_pos. lia. Qed.
Lemma neg_res y : residue q y -> - y mod q = if y =? 0 then 0 else q - y.
Proof.
  intros [A B]. pose proof q_pos. destruct (Z.eqb_spec y 0) as [->|NZ]; [reflexivity|].
  replace (- y) with (q - y + (-1) * q) by lia. rewrite Z_mod_plus_full. apply Z.mod_small. lia.
Qed.
Lemma neg_neg y : residue q y -> - (- y mod q) mod q = y.
Proof.
  intros R. rewrite (neg_res y R). pose proof q_pos. unfold residue in *. destruct (Z.eqb_spec y 0) as [->|NZ]; [reflexivity|].
  rewrite (neg_res (q - y)) by (unfold residue; lia). destruct (Z.eqb_spec (q - y) 0); lia.
Qed.
Lemma res_div_eq x y : residue q x -> residue q y -> (q | x - y) -> x = y.
Proof. intros A B D. apply mod_div in D. unfold residue in *. rewrite !Z.mod_small in D by lia. exact D. Qed.
Lemma div_neg y z : residue q y -> residue q z -> (q | z + y) -> z = - y mod q.
Proof.
  intros A B D. apply res_div_eq; [auto|apply mod_res|]. apply mod_div. rewrite Zmod_mod. apply mod_div.
  replace (z - - y) with (z + y) by lia. exact D.
Qed.
Lemma neg_div y : (q | - y mod q + y).
Proof.
  replace (- y mod q + y) with (- y mod q - - y) by lia. apply mod_div. apply Zmod_mod.
Qed.
Lemma root1 y z : residue q y -> residue q z -> y * y mod q = z * z mod q -> z = y \/ z = - y mod q.
Proof.
  intros A B E. apply mod_div in E. destruct Q as (P & _).
  replace (y * y - z * z) with ((z - y) * - (z + y)) in E by ring. apply prime_mult in E; auto. destruct E as [E|E].
  - left. apply res_div_eq; auto.
  - right. apply div_neg; auto. apply Z.divide_opp_r in E. rewrite Z.opp_involutive in E. exact E.
Qed.
Lemma greater1_lt y : residue q y -> (- y mod q <? y) = true <-> greater1 q y.
Proof.
  intros R. rewrite neg_res by auto. unfold greater1, residue in *. rewrite Z.ltb_lt.
  destruct (Z.eqb_spec y 0) as [->|NZ]; lia.
Qed.

Variable s : Z -> option Z.
Hypothesis S1 : sqrt1_ok q s.
Variable sub : point Z -> bool.

Lemma laws1 : laws (g1 q b s sub) (residue q).
Proof.
  assert (Q0 : q <> 0) by (pose proof q_pos; lia).
  constructor; cbn [g1 F flen fwrite fread fneg flt feqb fsqr frhs fsqrt insub].
  - lia.
  - intros x. apply le_length.
  - intros x. apply le_bytes.
  - intros x R. destruct (le_top x (res_lt x R)) as (l & c & E & _ & H). eauto.
  - intros x R. unfold from_be. pose proof (res_lt x R). rewrite be_le.
    + apply Z.mod_small. exact R.
    + change (256 ^ Z.of_nat 32) with (2 ^ 256). split; [lia|]. apply Z.lt_le_trans with (2 ^ 254); [lia|].
      apply Z.pow_le_mono_r; lia.
  - intros bs. apply mod_res.
  - intros y _. apply mod_res.
  - intros y R. apply neg_neg. auto.
  - intros y z _ _ N. destruct (Z.ltb_spec y z), (Z.ltb_spec z y); try reflexivity; lia.
  - apply Z.ltb_irrefl.
  - intros y z. destruct (Z.eq_dec y z); auto.
  - apply Z.eqb_eq.
  - intros y z A B. apply root1; auto.
  - intros y R. apply mod_div. destruct (neg_div y) as (k & E). exists (k * (- y mod q - y)). nia.
  - apply S1.
  - intros y R. destruct S1 as [_ S]. auto.
Qed.

Lemma valid1_iff p : valid1 q b p <-> gwf (g1 q b s sub) (residue q) p /\ on_curve (g1 q b s sub) p = true.
Proof.
  destruct p as [|x y]; cbn [valid1 gwf on_curve]; [tauto|].
  cbn [g1 F flen fwrite fread fneg flt feqb fsqr frhs fsqrt insub]. rewrite Z.eqb_eq, mod_div. tauto.
Qed.
End One.

(** * The second curve *)
Section Two.
Variables (q : Z) (b : Z * Z).
Hypothesis Q : good_prime q.
(** Minus one is not a square. *)
Lemma no_i a : ~ (q | a * a + 1).
Proof.
  destruct Q as (P & M & _). pose proof (q_pos q Q) as Qp. intros D.
  assert (NA : ~ (q | a)).
  { intros (k & ->). destruct D as (j & E). assert (q * (j - k * k * q) = 1) as E' by (replace (q * (j - k * k * q)) with (j * q - k * q * (k * q)) by ring; lia).
    assert (q | 1) as D1 by (exists (j - k * k * q); rewrite Z.mul_comm; symmetry; exact E'). apply Z.divide_pos_le in D1; [|lia]. lia. }
  pose proof (fermat q a P NA) as Fm.
  assert (C : cg q (a * a) (-1)) by (unfold cg; replace (a * a - -1) with (a * a + 1) by lia; exact D).
  pose proof (Z.div_mod q 4 ltac:(lia)) as DM. rewrite M in DM. set (k := q / 4) in *.
  assert (K0 : 0 <= k) by (unfold k; apply Z.div_pos; lia).
  replace (q - 1) with (2 * (2 * k + 1)) in Fm by lia. rewrite Z.pow_mul_r in Fm by lia. rewrite Z.pow_2_r in Fm.
  pose proof (cg_pow q (a * a) (-1) (2 * k + 1) ltac:(lia) C) as C2.
  assert (E1 : (-1) ^ (2 * k + 1) = -1). { rewrite Z.pow_add_r, Z.pow_mul_r by lia. change ((-1) ^ 2) with 1. rewrite Z.pow_1_l by lia. reflexivity. }
  rewrite E1 in C2. rewrite Fm in C2. destruct C2 as (j & E). assert (j * q = 2) as E' by lia.
  assert (q | 2) as D2 by (exists j; lia). apply Z.divide_pos_le in D2; lia.
Qed.
(** So a sum of two squares is zero only when both are. *)
Lemma norm0 a c : (q | a * a + c * c) -> (q | a) /\ (q | c).
Proof.
  destruct Q as (P & _). pose proof (q_pos q Q) as Qp. intros D.
  destruct (Zdivide_dec q c) as [Dc|Nc].
  - split; auto. assert (D' : (q | a * a)).
    { replace (a * a) with (a * a + c * c - c * c) by ring. apply Z.divide_sub_r; auto. apply Z.divide_mul_l. auto. }
    apply prime_mult in D'; tauto.
  - exfalso. assert (R : rel_prime q c) by (apply prime_rel_prime; auto).
    destruct (rel_prime_bezout _ _ R) as [u v E].
    apply (no_i (a * v)). assert (E2 : v * c = 1 - u * q) by lia.
    assert (E3 : a * v * (a * v) + 1 = v * v * (a * a + c * c) + (2 * u - u * u * q) * q).
    { replace (v * v * (a * a + c * c)) with (a * v * (a * v) + (v * c) * (v * c)) by ring. rewrite E2. ring. }
    rewrite E3. apply Z.divide_add_r; [apply Z.divide_mul_r; auto|apply Z.divide_factor_r].
Qed.
(** The extension has no zero divisors. *)
Lemma mul2_zero a0 a1 c0 c1 : (q | a0 * c0 - a1 * c1) -> (q | a0 * c1 + a1 * c0) ->
  (q | a0) /\ (q | a1) \/ (q | c0) /\ (q | c1).
Proof.
  intros D0 D1. destruct Q as (P & _).
  assert (D : (q | (a0 * a0 + a1 * a1) * (c0 * c0 + c1 * c1))).
  { replace ((a0 * a0 + a1 * a1) * (c0 * c0 + c1 * c1))
      with ((a0 * c0 - a1 * c1) * (a0 * c0 - a1 * c1) + (a0 * c1 + a1 * c0) * (a0 * c1 + a1 * c0)) by ring.
    apply Z.divide_add_r; apply Z.divide_mul_l; auto. }
  apply prime_mult in D; auto. destruct D as [D|D]; apply norm0 in D; tauto.
Qed.

Lemma root2 y z : residue2 q y -> residue2 q z -> mul2 q y y = mul2 q z z -> z = y \/ z = neg2 q y.
Proof.
  destruct y as [y0 y1], z as [z0 z1]. unfold mul2, neg2, residue2. cbn [fst snd]. intros [A0 A1] [B0 B1] E.
  injection E as E0 E1. apply (mod_div q Q) in E0, E1.
  destruct (mul2_zero (z0 - y0) (z1 - y1) (z0 + y0) (z1 + y1)) as [[D0 D1]|[D0 D1]].
  - replace ((z0 - y0) * (z0 + y0) - (z1 - y1) * (z1 + y1)) with (- (y0 * y0 - y1 * y1 - (z0 * z0 - z1 * z1))) by ring.
    apply Z.divide_opp_r. exact E0.
  - replace ((z0 - y0) * (z1 + y1) + (z1 - y1) * (z0 + y0)) with (- (y0 * y1 + y1 * y0 - (z0 * z1 + z1 * z0))) by ring.
    apply Z.divide_opp_r. exact E1.
  - left. f_equal; apply (res_div_eq q Q); auto.
  - right. f_equal; apply (div_neg q Q); auto.
Qed.
Lemma greater2_lt y : residue2 q y -> lt2 (neg2 q y) y = true <-> greater2 q y.
Proof.
  destruct y as [y0 y1]. unfold residue2, lt2, neg2, greater2. cbn [fst snd]. intros [A B].
  rewrite !(neg_res q Q) by auto. pose proof (q_pos q Q). pose proof (q_odd q Q) as O. unfold residue in *.
  rewrite orb_true_iff, andb_true_iff, !Z.ltb_lt, Z.eqb_eq.
  assert (q <> 2 * y1). { intros ->. rewrite Z.mul_comm, Z_mod_mult in O. discriminate. }
  destruct (Z.eqb_spec y1 0) as [->|NZ], (Z.eqb_spec y0 0) as [->|NZ']; lia.
Qed.

Variable s : Z * Z -> option (Z * Z).
Hypothesis S2 : sqrt2_ok q s.
Variable sub : point (Z * Z) -> bool.

Lemma laws2 : laws (g2 q b s sub) (residue2 q).
Proof.
  assert (Q0 : q <> 0) by (pose proof (q_pos q Q); lia).
  constructor; cbn [g2 F flen fwrite fread fneg flt feqb fsqr frhs fsqrt insub].
  - lia.
  - intros x. rewrite app_length, !le_length. reflexivity.
  - intros x. apply Forall_app. split; apply le_bytes.
  - intros x [_ R]. destruct (le_top _ (res_lt q Q _ R)) as (l & c & E & _ & H).
    exists (le 32 (fst x) ++ l), c. split; [|exact H]. rewrite E. now rewrite app_assoc.
  - intros [x0 x1] [R0 R1]. cbn [fst snd] in *. rewrite rev_app_distr.
    rewrite skipn_app, firstn_app, !rev_length, !le_length, Nat.sub_diag.
    rewrite skipn_all2 by (rewrite rev_length, le_length; lia). rewrite firstn_all2 by (rewrite rev_length, le_length; lia).
    cbn [skipn firstn app]. rewrite app_nil_r.
    assert (B : forall x, residue q x -> from_be q (rev (le 32 x)) = x).
    { intros x R. unfold from_be. pose proof (res_lt q Q x R). rewrite be_le.
      - apply Z.mod_small. exact R.
      - change (256 ^ Z.of_nat 32) with (2 ^ 256). split; [lia|]. apply Z.lt_le_trans with (2 ^ 254); [lia|].
        apply Z.pow_le_mono_r; lia. }
    now rewrite !B.
  - intros bs. split; apply (mod_res q Q).
  - intros y _. split; apply (mod_res q Q).
  - intros [y0 y1] [R0 R1]. unfold neg2. cbn [fst snd] in *. rewrite !(neg_neg q Q); auto.
  - intros [y0 y1] [z0 z1] _ _ N. unfold lt2. cbn [fst snd].
    destruct (Z.ltb_spec y1 z1), (Z.ltb_spec z1 y1), (Z.eqb_spec y1 z1), (Z.eqb_spec z1 y1),
      (Z.ltb_spec y0 z0), (Z.ltb_spec z0 y0); try reflexivity; try lia; exfalso; apply N; f_equal; lia.
  - intros [y0 y1]. unfold lt2. cbn [fst snd]. rewrite !Z.ltb_irrefl, Z.eqb_refl. reflexivity.
  - intros [y0 y1] [z0 z1]. destruct (Z.eq_dec y0 z0), (Z.eq_dec y1 z1); subst; auto; right; congruence.
  - intros [a0 a1] [c0 c1]. unfold eqb2. cbn [fst snd]. rewrite andb_true_iff, !Z.eqb_eq.
    split; [intros [-> ->]; reflexivity|]. intros E. injection E as -> ->. auto.
  - intros y z A B. apply root2; auto.
  - intros [y0 y1] R. unfold mul2, neg2. cbn [fst snd].
    destruct (neg_div q Q y0) as (k0 & E0), (neg_div q Q y1) as (k1 & E1).
    assert (- y0 mod q = k0 * q - y0) as -> by lia. assert (- y1 mod q = k1 * q - y1) as -> by lia.
    f_equal; apply (mod_div q Q).
    + exists (k0 * k0 * q - 2 * k0 * y0 - k1 * k1 * q + 2 * k1 * y1). ring.
    + exists (2 * k0 * k1 * q - 2 * k0 * y1 - 2 * k1 * y0). ring.
  - apply S2.
  - intros y R. destruct S2 as [_ S]. auto.
Qed.

Lemma valid2_iff p : valid2 q b p <-> gwf (g2 q b s sub) (residue2 q) p /\ on_curve (g2 q b s sub) p = true.
Proof.
  destruct p as [|[x0 x1] [y0 y1]]; cbn [valid2 gwf on_curve]; [tauto|].
  cbn [g2 F flen fwrite fread fneg flt feqb fsqr frhs fsqrt insub].
  unfold eqb2, add2, mul2, residue2. cbn [fst snd]. rewrite andb_true_iff, !Z.eqb_eq, !(mod_div q Q).
  pose proof (q_pos q Q) as Qp.
  assert (E0 : forall u v w t, (q | u - (v - w + t)) <-> (q | u - ((v mod q - w mod q) mod q + t))).
  { intros u v w t. rewrite <- !(mod_div q Q). rewrite Zminus_mod_idemp_r, Zminus_mod_idemp_l, Zplus_mod_idemp_l. tauto. }
  set (X0 := x0 * x0 - x1 * x1). set (X1 := x0 * x1 + x1 * x0).
  assert (A0 : ((y0 * y0 - y1 * y1) mod q = (((X0 mod q) * x0 - (X1 mod q) * x1) mod q + fst b) mod q) <->
               (q | y0 * y0 - y1 * y1 - (x0 * x0 * x0 - 3 * x0 * x1 * x1 + fst b))).
  { rewrite <- (mod_div q Q). rewrite Zplus_mod_idemp_l.
    assert (EE : ((X0 mod q * x0 - X1 mod q * x1) + fst b) mod q = (x0 * x0 * x0 - 3 * x0 * x1 * x1 + fst b) mod q).
    { apply (mod_div q Q). pose proof (Z.div_mod X0 q ltac:(lia)). pose proof (Z.div_mod X1 q ltac:(lia)).
      assert (X0 mod q = X0 - q * (X0 / q)) as -> by lia. assert (X1 mod q = X1 - q * (X1 / q)) as -> by lia.
      exists (- (X0 / q) * x0 + (X1 / q) * x1). unfold X0 at 1, X1 at 1. ring. }
    rewrite EE. tauto. }
  assert (A1 : ((y0 * y1 + y1 * y0) mod q = (((X0 mod q) * x1 + (X1 mod q) * x0) mod q + snd b) mod q) <->
               (q | 2 * y0 * y1 - (3 * x0 * x0 * x1 - x1 * x1 * x1 + snd b))).
  { rewrite <- (mod_div q Q). rewrite Zplus_mod_idemp_l.
    assert (EE : ((X0 mod q * x1 + X1 mod q * x0) + snd b) mod q = (3 * x0 * x0 * x1 - x1 * x1 * x1 + snd b) mod q).
    { apply (mod_div q Q). pose proof (Z.div_mod X0 q ltac:(lia)). pose proof (Z.div_mod X1 q ltac:(lia)).
      assert (X0 mod q = X0 - q * (X0 / q)) as -> by lia. assert (X1 mod q = X1 - q * (X1 / q)) as -> by lia.
      exists (- (X0 / q) * x1 - (X1 / q) * x0). unfold X0 at 1, X1 at 1. ring. }
    rewrite EE. replace (y0 * y1 + y1 * y0) with (2 * y0 * y1) by ring. tauto. }
  rewrite <- !(mod_div q Q). rewrite (mod_div q Q (y0 * y0 - y1 * y1) (x0 * x0 * x0 - 3 * x0 * x1 * x1 + fst b)).
  rewrite (mod_div q Q (2 * y0 * y1)). rewrite <- A0, <- A1. tauto.
Qed.
End Two.
