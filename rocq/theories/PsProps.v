(** C79: the encoding of curve points in the Perpetual Powers of Tau. *)
From Coq Require Import ZArith Znumtheory List Bool Lia.
From Verif Require Import PsModel PsSpec PsLemmas PsFile PsPrime.
Import ListNotations.
Local Open Scope Z_scope.

(** The base field of BN254 satisfies what is asked of it. *)
Theorem bnq_good : good_prime bnq.
Proof. split; [exact bnq_prime|]. vm_compute. auto. Qed.

(** * Small instance for the examples: the field with eleven elements, the curves y^2 = x^3 + 3 and
    the points of order three, those with x = 0. *)
Definition ex_q : Z := 11.
Definition find1 (a : Z) : option Z := find (fun r => r * r mod ex_q =? a) (map Z.of_nat (seq 0 11)).
Definition all2 : list (Z * Z) := list_prod (map Z.of_nat (seq 0 11)) (map Z.of_nat (seq 0 11)).
Definition find2 (a : Z * Z) : option (Z * Z) := find (fun r => eqb2 (mul2 ex_q r r) a) all2.
Definition ex_sub1 (p : point Z) : bool := match p with Inf => true | Aff x _ => x =? 0 end.
Definition ex_sub2 (p : point (Z * Z)) : bool := match p with Inf => true | Aff x _ => eqb2 x (0, 0) end.
Definition ex1 : curve := g1 ex_q 3 find1 ex_sub1.
Definition ex2 : curve := g2 ex_q (3, 0) find2 ex_sub2.

Lemma ex_prime : good_prime ex_q.
Proof. split; [|vm_compute; auto]. apply trial_ok. vm_compute. reflexivity. Qed.
Lemma ex_res x : residue ex_q x -> In x (map Z.of_nat (seq 0 11)).
Proof. intros [A B]. unfold ex_q in *. rewrite <- (Z2Nat.id x) by auto. apply in_map. apply in_seq. lia. Qed.
Lemma ex_res' x : In x (map Z.of_nat (seq 0 11)) -> residue ex_q x.
Proof. intros I. apply in_map_iff in I. destruct I as (n & <- & I). apply in_seq in I. unfold residue, ex_q. lia. Qed.
Lemma ex_sqrt1 : sqrt1_ok ex_q find1.
Proof.
  split.
  - intros a r E. apply find_some in E. destruct E as [I E]. apply Z.eqb_eq in E. split; auto. apply ex_res'. auto.
  - intros y R E. eapply find_none in E; [|apply ex_res; exact R]. cbv beta in E. rewrite Z.eqb_refl in E. discriminate.
Qed.
Lemma ex_sqrt2 : sqrt2_ok ex_q find2.
Proof.
  split.
  - intros a r E. apply find_some in E. destruct E as [I E]. destruct r as [r0 r1]. apply in_prod_iff in I. destruct I as [I0 I1].
    split; [split; apply ex_res'; auto|]. destruct a as [a0 a1]. unfold eqb2 in E. apply andb_true_iff in E.
    rewrite !Z.eqb_eq in E. destruct E as [E0 E1]. rewrite (surjective_pairing (mul2 _ _ _)), E0, E1. reflexivity.
  - intros [y0 y1] [R0 R1] E. eapply find_none in E; [|apply in_prod; apply ex_res; [exact R0|exact R1]]. cbv beta in E.
    unfold eqb2 in E. rewrite !Z.eqb_refl in E. discriminate.
Qed.

(** * C79: points *)
Lemma be_zeros n : be (repeat 0 n) = 0.
Proof. induction n as [|n IH]; [reflexivity|]. cbn [repeat]. rewrite be_cons, IH. lia. Qed.
Lemma be_mark l b : 0 <= b < 64 -> be (rev (or_last 128 (l ++ [b]))) = 128 * 256 ^ Z.of_nat (length l) + be (rev (l ++ [b])).
Proof.
  intros H. rewrite or_last_snoc, !rev_app_distr. cbn [rev app]. rewrite !be_cons, rev_length.
  destruct (low_byte b H) as (_ & _ & _ & _ & _ & _ & ->). ring.
Qed.
Lemma bytes_rev l : bytes l -> bytes (rev l).
Proof. apply Forall_rev. Qed.
Lemma bytes_mark l b : bytes (l ++ [b]) -> 0 <= b < 64 -> bytes (or_last 128 (l ++ [b])).
Proof.
  intros B H. rewrite or_last_snoc. apply Forall_app in B. apply Forall_app. split; [apply B|]. constructor; [|constructor].
  destruct (low_byte b H) as (_ & _ & _ & _ & _ & _ & ->). lia.
Qed.
Lemma bytes_inf n : bytes (64 :: repeat 0 n).
Proof. constructor; [lia|]. apply Forall_forall. intros z Hz. apply repeat_spec in Hz. subst. lia. Qed.

Lemma read_whole n bs : length bs = n -> (0 < n)%nat -> read n (slice bs) = (bs, []).
Proof. intros L H. pose proof (read_slice n bs [] L H) as E. rewrite app_nil_r in E. exact E. Qed.

Section Points.
Variables (q b1 : Z) (b2 : Z * Z).
Variables (s1 : Z -> option Z) (s2 : Z * Z -> option (Z * Z)) (sub1 : point Z -> bool) (sub2 : point (Z * Z) -> bool).
Hypothesis Q : good_prime q.
Hypothesis S1 : sqrt1_ok q s1.
Hypothesis S2 : sqrt2_ok q s2.
Notation G1 := (g1 q b1 s1 sub1).
Notation G2 := (g2 q b2 s2 sub2).

(** Every point of the curve is read back, with the rest of the bytes left for the next one; the
    compressed form needs no subgroup. *)
Theorem c79_roundtrip rest :
  (forall p, valid1 q b1 p -> de_compressed G1 (slice (ser_compressed G1 p ++ rest)) = (Ok p, slice rest) /\
     de_unchecked G1 (slice (ser_uncompressed G1 p ++ rest)) = (Ok p, slice rest) /\
     de_uncompressed G1 (slice (ser_uncompressed G1 p ++ rest)) =
       (if sub1 p then Ok p else Err NotInSubgroup, slice rest)) /\
  (forall p, valid2 q b2 p -> de_compressed G2 (slice (ser_compressed G2 p ++ rest)) = (Ok p, slice rest) /\
     de_unchecked G2 (slice (ser_uncompressed G2 p ++ rest)) = (Ok p, slice rest) /\
     de_uncompressed G2 (slice (ser_uncompressed G2 p ++ rest)) =
       (if sub2 p then Ok p else Err NotInSubgroup, slice rest)).
Proof.
  split; intros p V.
  - apply (valid1_iff q b1 Q s1 sub1) in V. destruct V as [W O]. pose proof (laws1 q b1 Q s1 S1 sub1) as L.
    pose proof (g_unchecked _ _ L p rest W) as U.
    split; [apply (g_compressed _ _ L); auto|]. split; [exact U|].
    unfold de_uncompressed. rewrite U. cbn [bind]. unfold check. rewrite O. cbn [negb].
    change (insub G1 p) with (sub1 p). destruct (sub1 p); reflexivity.
  - apply (valid2_iff q b2 Q s2 sub2) in V. destruct V as [W O]. pose proof (laws2 q b2 Q s2 S2 sub2) as L.
    pose proof (g_unchecked _ _ L p rest W) as U.
    split; [apply (g_compressed _ _ L); auto|]. split; [exact U|].
    unfold de_uncompressed. rewrite U. cbn [bind]. unfold check. rewrite O. cbn [negb].
    change (insub G2 p) with (sub2 p). destruct (sub2 p); reflexivity.
Qed.

(** The bytes are those of the format of the ceremony: the coordinates as big-endian numbers, with
    two flags in the free bits of the first byte. *)
Theorem c79_format :
  (forall p, valid1 q b1 p ->
     length (ser_compressed G1 p) = 32%nat /\ bytes (ser_compressed G1 p) /\ code1 q p (number (ser_compressed G1 p)) /\
     length (ser_uncompressed G1 p) = 64%nat /\ bytes (ser_uncompressed G1 p) /\ ucode1 p (number (ser_uncompressed G1 p))) /\
  (forall p, valid2 q b2 p ->
     length (ser_compressed G2 p) = 64%nat /\ bytes (ser_compressed G2 p) /\ code2 q p (number (ser_compressed G2 p)) /\
     length (ser_uncompressed G2 p) = 128%nat /\ bytes (ser_uncompressed G2 p) /\ ucode2 p (number (ser_uncompressed G2 p))).
Proof.
  assert (B256 : forall x, residue q x -> be (rev (le 32 x)) = x).
  { intros x R. pose proof (res_lt q Q x R). apply be_le. change (256 ^ Z.of_nat 32) with (2 ^ 256).
    split; [lia|]. apply Z.lt_le_trans with (2 ^ 254); [lia|]. apply Z.pow_le_mono_r; lia. }
  assert (LL : forall x, length (rev (le 32 x)) = 32%nat) by (intros; rewrite rev_length; apply le_length).
  assert (BB : forall x, bytes (rev (le 32 x))) by (intros; apply bytes_rev, le_bytes).
  split; intros p V.
  - pose proof (laws1 q b1 Q s1 S1 sub1) as L.
    split; [apply (ser_compressed_length _ _ L)|]. rewrite <- !be_number.
    enough (A : bytes (ser_compressed G1 p) /\ code1 q p (be (ser_compressed G1 p)) /\
                bytes (ser_uncompressed G1 p) /\ ucode1 p (be (ser_uncompressed G1 p))).
    { split; [apply A|]. split; [apply A|]. split; [apply (ser_uncompressed_length _ _ L)|]. tauto. }
    unfold ser_compressed, ser_unchecked, ser_uncompressed. destruct p as [|x y].
    + rewrite !g_inf by (cbn; lia). split; [apply bytes_inf|]. split; [|split; [apply bytes_inf|]].
      * cbn [code1]. rewrite be_cons, be_zeros, repeat_length. reflexivity.
      * cbn [ucode1]. rewrite be_cons, be_zeros, repeat_length. reflexivity.
    + destruct V as (Rx & Ry & _). cbn [g1 F flen fwrite fneg flt]. cbv zeta.
      destruct (le_top x (res_lt q Q x Rx)) as (l & b & E & Ll & Hb).
      split; [|split; [|split]].
      * destruct (_ <? _); [|apply BB]. apply bytes_rev. rewrite E. apply bytes_mark; auto. rewrite <- E. apply le_bytes.
      * cbn [code1]. pose proof (greater1_lt q Q y Ry) as G. destruct (- y mod q <? y).
        -- left. split; [apply G; reflexivity|]. rewrite E, be_mark, Ll, <- E, B256 by auto. reflexivity.
        -- right. split; [|auto]. intros H. apply G in H. discriminate.
      * rewrite rev_app_distr. apply Forall_app. split; apply BB.
      * cbn [ucode1]. rewrite rev_app_distr, be_app, LL, !B256 by auto. reflexivity.
  - pose proof (laws2 q b2 Q s2 S2 sub2) as L.
    split; [apply (ser_compressed_length _ _ L)|]. rewrite <- !be_number.
    enough (A : bytes (ser_compressed G2 p) /\ code2 q p (be (ser_compressed G2 p)) /\
                bytes (ser_uncompressed G2 p) /\ ucode2 p (be (ser_uncompressed G2 p))).
    { split; [apply A|]. split; [apply A|]. split; [apply (ser_uncompressed_length _ _ L)|]. tauto. }
    unfold ser_compressed, ser_unchecked, ser_uncompressed. destruct p as [|[x0 x1] [y0 y1]].
    + rewrite !g_inf by (cbn; lia). split; [apply bytes_inf|]. split; [|split; [apply bytes_inf|]].
      * cbn [code2]. rewrite be_cons, be_zeros, repeat_length. reflexivity.
      * cbn [ucode2]. rewrite be_cons, be_zeros, repeat_length. reflexivity.
    + destruct V as (Rx0 & Rx1 & Ry0 & Ry1 & _). cbn [g2 F flen fwrite fneg flt]. cbv zeta. cbn [fst snd].
      destruct (le_top x1 (res_lt q Q x1 Rx1)) as (l & b & E & Ll & Hb).
      assert (BX : bytes (le 32 x0 ++ le 32 x1)) by (apply Forall_app; split; apply le_bytes).
      assert (BE : be (rev (le 32 x0 ++ le 32 x1)) = x1 * 2 ^ 256 + x0).
      { rewrite rev_app_distr, be_app, LL, !B256 by auto. reflexivity. }
      split; [|split; [|split]].
      * destruct (lt2 _ _); [|apply bytes_rev; exact BX]. apply bytes_rev. rewrite E, app_assoc. apply bytes_mark; auto.
        rewrite <- app_assoc, <- E. exact BX.
      * cbn [code2]. cbv zeta. cbn [fst snd]. pose proof (greater2_lt q Q (y0, y1) (conj Ry0 Ry1)) as G. destruct (lt2 _ _).
        -- left. split; [apply G; reflexivity|]. rewrite E, app_assoc, be_mark by auto. rewrite app_length, le_length, Ll, <- app_assoc, <- E, BE.
           reflexivity.
        -- right. split; [|exact BE]. intros H. apply G in H. discriminate.
      * apply bytes_rev. apply Forall_app. split; [apply Forall_app; split; apply le_bytes|exact BX].
      * cbn [ucode2 fst snd]. rewrite !rev_app_distr. rewrite !be_app, !app_length, !LL, !B256 by auto.
        change (256 ^ Z.of_nat 32) with (2 ^ 256). change (256 ^ Z.of_nat (32 + 32)) with (2 ^ 256 * 2 ^ 256). ring.
Qed.

(** Distinct points have distinct encodings. *)
Theorem c79_injective p p' : valid1 q b1 p -> valid1 q b1 p' ->
  ser_compressed G1 p = ser_compressed G1 p' \/ ser_uncompressed G1 p = ser_uncompressed G1 p' -> p = p'.
Proof.
  intros V V' E. destruct (c79_roundtrip []) as [R _]. destruct (R p V) as (A & B & _), (R p' V') as (A' & B' & _).
  destruct E as [E|E]; rewrite E in *; congruence.
Qed.
Theorem c79_injective2 p p' : valid2 q b2 p -> valid2 q b2 p' ->
  ser_compressed G2 p = ser_compressed G2 p' \/ ser_uncompressed G2 p = ser_uncompressed G2 p' -> p = p'.
Proof.
  intros V V' E. destruct (c79_roundtrip []) as [_ R]. destruct (R p V) as (A & B & _), (R p' V') as (A' & B' & _).
  destruct E as [E|E]; rewrite E in *; congruence.
Qed.

(** Whatever the reader gives, only points of the curve are accepted; the uncompressed form is also
    checked to be in the subgroup. *)
Theorem c79_sound r r' :
  (forall p, de_compressed G1 r = (Ok p, r') -> valid1 q b1 p) /\
  (forall p, de_uncompressed G1 r = (Ok p, r') -> valid1 q b1 p /\ sub1 p = true) /\
  (forall p, de_compressed G2 r = (Ok p, r') -> valid2 q b2 p) /\
  (forall p, de_uncompressed G2 r = (Ok p, r') -> valid2 q b2 p /\ sub2 p = true).
Proof.
  pose proof (laws1 q b1 Q s1 S1 sub1) as L1. pose proof (laws2 q b2 Q s2 S2 sub2) as L2. repeat split.
  - intros p E. apply (valid1_iff q b1 Q s1 sub1). apply (g_compressed_sound _ _ L1 _ _ _ E).
  - apply (g_uncompressed_sound _ _ L1) in H. apply (valid1_iff q b1 Q s1 sub1). tauto.
  - apply (g_uncompressed_sound _ _ L1) in H. apply H.
  - intros p E. apply (valid2_iff q b2 Q s2 sub2). apply (g_compressed_sound _ _ L2 _ _ _ E).
  - apply (g_uncompressed_sound _ _ L2) in H. apply (valid2_iff q b2 Q s2 sub2). tauto.
  - apply (g_uncompressed_sound _ _ L2) in H. apply H.
Qed.

(** What 32 bytes decode to, as a function of the number they are. *)
Lemma top_byte b : 0 <= b < 256 ->
  Z.testbit b 6 = Z.odd (b / 64) /\ Z.testbit b 7 = (2 <=? b / 64) /\ Z.land b 63 = b mod 64.
Proof.
  intros H.
  assert (A : forallb (fun n => let b := Z.of_nat n in
    Bool.eqb (Z.testbit b 6) (Z.odd (b / 64)) && Bool.eqb (Z.testbit b 7) (2 <=? b / 64) && (Z.land b 63 =? b mod 64)) (seq 0 256) = true)
    by (vm_compute; reflexivity).
  rewrite forallb_forall in A. specialize (A (Z.to_nat b)). cbv zeta in A. rewrite Z2Nat.id in A by lia.
  assert (I : In (Z.to_nat b) (seq 0 256)) by (apply in_seq; lia). specialize (A I).
  repeat rewrite andb_true_iff in A. rewrite !eqb_true_iff, Z.eqb_eq in A. tauto.
Qed.
Lemma top_of bs k : bytes bs -> length bs = S k -> let n := number bs in let t := 64 * 256 ^ Z.of_nat k in
  flag 6 bs = Z.odd (n / t) /\ flag 7 bs = (2 <=? n / t) /\ be (mask bs) = n mod t /\ bytes (mask bs).
Proof.
  intros B L. destruct bs as [|b bs]; [discriminate|]. injection L as L. cbv zeta. rewrite <- be_number.
  inversion B as [|? ? Hb Hbs]; subst. destruct (top_byte b Hb) as (T6 & T7 & Tm). unfold flag, mask. cbn [hd].
  pose proof (be_bounds bs Hbs) as Bd. rewrite !be_cons. set (w := 256 ^ Z.of_nat (length bs)) in *.
  assert (W : 0 < w) by (apply Z.pow_pos_nonneg; lia).
  pose proof (Z.div_mod b 64 ltac:(lia)) as DM. pose proof (Z.mod_pos_bound b 64 ltac:(lia)) as MB.
  assert (E : b * w + be bs = (64 * w) * (b / 64) + (b mod 64 * w + be bs)) by nia.
  assert (Bd2 : 0 <= b mod 64 * w + be bs < 64 * w) by nia.
  assert (D : (b * w + be bs) / (64 * w) = b / 64) by (symmetry; apply (Z.div_unique _ _ _ (b mod 64 * w + be bs)); [left; exact Bd2|exact E]).
  assert (M : (b * w + be bs) mod (64 * w) = b mod 64 * w + be bs) by (symmetry; apply (Z.mod_unique _ _ (b / 64)); [left; exact Bd2|exact E]).
  rewrite D, M, T6, T7, Tm. repeat split; auto. constructor; [lia|auto].
Qed.
Lemma all0_be l : bytes l -> all0 l = true <-> be l = 0.
Proof.
  induction 1 as [|b l Hb Hl IH]; [split; reflexivity|]. unfold all0. cbn [forallb]. rewrite be_cons, andb_true_iff.
  pose proof (be_bounds l Hl) as Bd. set (w := 256 ^ Z.of_nat (length l)) in *.
  fold (all0 l). rewrite IH, Z.eqb_eq. split; [intros [<- ->]; lia|]. intros E. assert (b = 0) by nia. subst b. split; lia.
Qed.

Lemma greater_neg y : residue q y -> y <> 0 -> (greater1 q (- y mod q) <-> ~ greater1 q y).
Proof.
  intros R N. rewrite (neg_res q Q y R). pose proof (q_odd q Q) as O. unfold greater1, residue in *.
  assert (q <> 2 * y). { intros ->. rewrite Z.mul_comm, Z_mod_mult in O. discriminate. }
  destruct (Z.eqb_spec y 0); lia.
Qed.

Theorem c79_decode bs : bytes bs -> length bs = 32%nat ->
  let n := number bs in
  match de_compressed G1 (slice bs) with
  | (Ok Inf, r) => r = [] /\ (n = 2 ^ 254 \/ n = 3 * 2 ^ 254)
  | (Ok (Aff x y), r) => r = [] /\ (n < 2 ^ 254 \/ 2 ^ 255 <= n < 3 * 2 ^ 254) /\ x = n mod 2 ^ 254 mod q /\
                         valid1 q b1 (Aff x y) /\ (y <> 0 -> (greater1 q y <-> 2 ^ 255 <= n))
  | (Err PointAtInfinity, r) => Z.odd (n / 2 ^ 254) = true /\ n mod 2 ^ 254 <> 0
  | (Err NotOnCurve, r) => Z.odd (n / 2 ^ 254) = false /\ forall y, ~ valid1 q b1 (Aff (n mod 2 ^ 254 mod q) y)
  | _ => False
  end.
Proof.
  intros B L. cbv zeta. destruct (top_of bs 31 B L) as (F6 & F7 & Fm & Bm). cbv zeta in *.
  change (64 * 256 ^ Z.of_nat 31) with (2 ^ 254) in *.
  pose proof (be_bounds bs B) as Bd. rewrite L, be_number in Bd. change (256 ^ Z.of_nat 32) with (4 * 2 ^ 254) in Bd.
  set (n := number bs) in *.
  assert (T : 0 <= n / 2 ^ 254 < 4) by (split; [apply Z.div_pos; lia|apply Z.div_lt_upper_bound; lia]).
  pose proof (Z.div_mod n (2 ^ 254) ltac:(lia)) as DM. pose proof (Z.mod_pos_bound n (2 ^ 254) ltac:(lia)) as MB.
  set (t := n / 2 ^ 254) in *. set (v := n mod 2 ^ 254) in *.
  assert (TT : t = 0 \/ t = 1 \/ t = 2 \/ t = 3) by lia.
  unfold de_compressed. rewrite read_whole by (auto; cbn; lia).
  rewrite fill_full by auto. rewrite F6, F7.
  destruct (Z.odd t) eqn:O.
  - destruct (all0 (mask bs)) eqn:A.
    + apply (all0_be _ Bm) in A. rewrite Fm in A. split; auto.
      destruct TT as [E|[E|[E|E]]]; rewrite E in O; try discriminate O; rewrite E, A in DM; lia.
    + split; auto. intros E. rewrite <- Fm in E. apply (all0_be _ Bm) in E. congruence.
  - pose proof (laws1 q b1 Q s1 S1 sub1) as Lw.
    change (fread G1 (mask bs)) with (be (mask bs) mod q). rewrite Fm. set (x := v mod q).
    assert (Wx : residue q x) by apply (mod_res q Q).
    destruct (get_point_from_x G1 x (2 <=? t)) as [p|] eqn:G.
    + destruct (g_get_point_on _ _ Lw x _ p Wx G) as [W On].
      assert (V : valid1 q b1 p) by (apply (valid1_iff q b1 Q s1 sub1); auto).
      unfold get_point_from_x in G. destruct (fsqrt G1 (frhs G1 x)) as [y0|] eqn:R; [|discriminate].
      cbv zeta in G. injection G as <-. split; auto. split.
      { destruct TT as [E|[E|[E|E]]]; rewrite E in O; try discriminate O; rewrite E in DM; lia. }
      split; [reflexivity|]. split; [exact V|].
      destruct (l_sqrt _ _ Lw _ _ R) as [W0 _]. change (fneg G1 y0) with (- y0 mod q) in *. change (flt G1) with Z.ltb in *.
      intros NZ. assert (NZ0 : y0 <> 0). { intros ->. apply NZ. destruct (xorb _ _); reflexivity. }
      assert (R0 : residue q y0) by exact W0.
      assert (GL : (y0 <? - y0 mod q) = true <-> ~ greater1 q y0).
      { rewrite <- (greater_neg y0 R0 NZ0), <- (greater1_lt q Q (- y0 mod q) (mod_res q Q _)), (neg_neg q Q y0 R0). tauto. }
      assert (TN : 2 ^ 255 <= n <-> (2 <=? t) = true). { rewrite Z.leb_le. change (2 ^ 255) with (2 * 2 ^ 254). lia. }
      rewrite TN. destruct (y0 <? - y0 mod q) eqn:LT, (2 <=? t); cbn [xorb].
      * rewrite (greater_neg y0 R0 NZ0). tauto.
      * split; [|discriminate]. tauto.
      * split; [reflexivity|]. intros _. destruct (Z_lt_dec q (2 * y0)) as [K|K]; [exact K|]. exfalso. apply GL in K. discriminate.
      * split; [|discriminate]. intros K. apply (greater_neg y0 R0 NZ0) in K. apply GL in K. discriminate.
    + split; auto. intros y V. apply (valid1_iff q b1 Q s1 sub1) in V. destruct V as [[_ Wy] On].
      unfold on_curve in On. apply (l_eqb _ _ Lw) in On. unfold get_point_from_x in G.
      destruct (fsqrt G1 (frhs G1 x)) as [y0|] eqn:R; [discriminate|]. fold x in On. rewrite <- On in R. exact (l_some _ _ Lw y Wy R).
Qed.

(** The same for 64 uncompressed bytes before the curve is checked. *)
Theorem c79_decode_uncompressed bs : bytes bs -> length bs = 64%nat ->
  let n := number bs in
  match de_unchecked G1 (slice bs) with
  | (Ok Inf, r) => r = [] /\ n = 2 ^ 510
  | (Ok (Aff x y), r) => r = [] /\ n < 2 ^ 510 /\ x = n / 2 ^ 256 mod q /\ y = n mod 2 ^ 256 mod q
  | (Err ExpectedUncompressed, r) => 2 ^ 511 <= n
  | (Err PointAtInfinity, r) => 2 ^ 510 < n < 2 ^ 511
  | _ => False
  end.
Proof.
  intros B L. cbv zeta. destruct (top_of bs 63 B L) as (F6 & F7 & Fm & Bm). cbv zeta in *.
  change (64 * 256 ^ Z.of_nat 63) with (2 ^ 510) in *.
  pose proof (be_bounds bs B) as Bd. rewrite L, be_number in Bd. change (256 ^ Z.of_nat 64) with (4 * 2 ^ 510) in Bd.
  set (n := number bs) in *.
  assert (T : 0 <= n / 2 ^ 510 < 4) by (split; [apply Z.div_pos; lia|apply Z.div_lt_upper_bound; lia]).
  pose proof (Z.div_mod n (2 ^ 510) ltac:(lia)) as DM. pose proof (Z.mod_pos_bound n (2 ^ 510) ltac:(lia)) as MB.
  set (t := n / 2 ^ 510) in *. set (v := n mod 2 ^ 510) in *.
  unfold de_unchecked. rewrite read_whole by (auto; cbn; lia).
  rewrite fill_full by auto. rewrite F6, F7.
  change (2 ^ 511) with (2 * 2 ^ 510).
  destruct (Z.leb_spec 2 t) as [T2|T2]; [lia|]. assert (TT : t = 0 \/ t = 1) by lia.
  destruct TT as [E|E]; rewrite E; cbn [Z.odd].
  - split; auto. rewrite E in DM. split; [lia|].
    assert (Ls : length (mask bs) = 64%nat) by (destruct bs; cbn [mask]; [discriminate|exact L]).
    rewrite <- (firstn_skipn 32 (mask bs)) in Fm, Bm. rewrite be_app in Fm.
    assert (L2 : length (skipn 32 (mask bs)) = 32%nat) by (rewrite skipn_length, Ls; reflexivity).
    rewrite L2 in Fm. change (256 ^ Z.of_nat 32) with (2 ^ 256) in Fm. apply Forall_app in Bm. destruct Bm as [B1 B2].
    pose proof (be_bounds _ B2) as Bd2. rewrite L2 in Bd2. change (256 ^ Z.of_nat 32) with (2 ^ 256) in Bd2.
    cbn [g1 flen fread]. unfold from_be. replace v with n in Fm by lia.
    set (h := be (firstn 32 (mask bs))) in *. set (k := be (skipn 32 (mask bs))) in *.
    split; f_equal.
    + apply (Z.div_unique _ _ _ k); [left; exact Bd2|lia].
    + apply (Z.mod_unique _ _ h); [left; exact Bd2|lia].
  - rewrite E in DM. destruct (all0 (mask bs)) eqn:A.
    + apply (all0_be _ Bm) in A. rewrite Fm in A. split; auto. lia.
    + assert (v <> 0). { intros E0. rewrite <- Fm in E0. apply (all0_be _ Bm) in E0. congruence. } lia.
Qed.
End Points.

(** Examples: the hypotheses hold on the small curves, and for two points of them. *)
Example ex_c79_roundtrip : good_prime ex_q /\ sqrt1_ok ex_q find1 /\ sqrt2_ok ex_q find2 /\
  valid1 ex_q 3 (Aff 1 9) /\ valid2 ex_q (3, 0) (Aff (0, 0) (5, 0)) /\ ex_sub2 (Aff (0, 0) (5, 0)) = true.
Proof.
  split; [exact ex_prime|]. split; [exact ex_sqrt1|]. split; [exact ex_sqrt2|]. unfold valid1, valid2, residue, ex_q. cbn [fst snd].
  repeat split; try lia; try reflexivity.
  - exists 7. reflexivity.
  - exists 2. reflexivity.
  - exists 0. reflexivity.
Qed.
Example ex_c79_format : ser_compressed ex1 (Aff 1 9) = 128 :: repeat 0 30 ++ [1] /\
  ser_compressed ex1 (Aff 1 2) = repeat 0 31 ++ [1] /\ valid1 ex_q 3 (Aff 1 9) /\ ~ valid1 ex_q 3 (Aff 2 2).
Proof.
  split; [vm_compute; reflexivity|]. split; [vm_compute; reflexivity|]. split.
  - apply ex_c79_roundtrip.
  - intros (_ & _ & k & E). unfold ex_q in E. lia.
Qed.
Example ex_c79_injective : valid1 ex_q 3 (Aff 1 9) /\ valid1 ex_q 3 (Aff 1 2).
Proof. split; [apply ex_c79_roundtrip|]. unfold valid1, residue, ex_q. repeat split; try lia. exists 0. reflexivity. Qed.
Example ex_c79_injective2 : valid2 ex_q (3, 0) (Aff (0, 0) (5, 0)) /\ valid2 ex_q (3, 0) (Aff (0, 0) (6, 0)).
Proof. split; [apply ex_c79_roundtrip|]. unfold valid2, residue, ex_q. cbn [fst snd]. repeat split; try lia; [exists 3|exists 0]; reflexivity. Qed.
Example ex_c79_sound : de_compressed ex1 (slice (128 :: repeat 0 30 ++ [1])) = (Ok (Aff 1 9), []).
Proof. vm_compute. reflexivity. Qed.
Example ex_c79_decode : bytes (128 :: repeat 0 30 ++ [1]) /\ length (128 :: repeat 0 30 ++ [1]) = 32%nat /\
  fst (de_compressed ex1 (slice (repeat 0 31 ++ [5]))) = Err NotOnCurve /\
  fst (de_compressed ex1 (slice (64 :: repeat 0 30 ++ [5]))) = Err PointAtInfinity.
Proof.
  split; [|split; [reflexivity|split; vm_compute; reflexivity]].
  repeat (constructor; [lia|]). constructor.
Qed.
Example ex_c79_decode_uncompressed : de_unchecked ex1 (slice (repeat 0 31 ++ [1] ++ repeat 0 31 ++ [20])) = (Ok (Aff 1 9), []).
Proof. vm_compute. reflexivity. Qed.

(** The encoding is not unique: a coordinate may be written unreduced, and infinity with a flag
    too many. Here for the base field of BN254 and its curve y^2 = x^3 + 3, whose group has prime
    order. *)
Theorem c79_unique_refuted : exists bs bs' p,
  bytes bs /\ bytes bs' /\ length bs = 64%nat /\ length bs' = 64%nat /\ bs <> bs' /\
  let C := g1 bnq 3 (fun _ => None) (fun _ => true) in
  de_uncompressed C (slice bs) = (Ok p, []) /\ de_uncompressed C (slice bs') = (Ok p, []).
Proof.
  exists (rev (le 32 2 ++ le 32 1)), (rev (le 32 2 ++ le 32 (1 + bnq))), (Aff 1 2).
  assert (B : forall x y, bytes (rev (le 32 x ++ le 32 y))).
  { intros x y. apply bytes_rev, Forall_app. split; apply le_bytes. }
  split; [apply B|]. split; [apply B|]. split; [vm_compute; reflexivity|]. split; [vm_compute; reflexivity|].
  split; [vm_compute; discriminate|]. split; vm_compute; reflexivity.
Qed.
Theorem c79_infinity_refuted (C : curve) : (0 < flen C)%nat -> exists bs bs', bs <> bs' /\
  length bs = flen C /\ length bs' = flen C /\
  de_compressed C (slice bs) = (Ok Inf, []) /\ de_compressed C (slice bs') = (Ok Inf, []).
Proof.
  intros L. exists (64 :: repeat 0 (flen C - 1)), (192 :: repeat 0 (flen C - 1)).
  assert (A : forall b, length (b :: repeat 0 (flen C - 1)) = flen C) by (intros b; cbn [length]; rewrite repeat_length; lia).
  assert (D : forall b, Z.testbit b 6 = true -> Z.land b 63 = 0 -> de_compressed C (slice (b :: repeat 0 (flen C - 1))) = (Ok Inf, [])).
  { intros b T M. unfold de_compressed. rewrite read_whole by auto. rewrite fill_full by auto.
    unfold flag. cbn [hd mask]. rewrite T, M. unfold all0. cbn [forallb]. rewrite Z.eqb_refl. cbn [andb].
    replace (forallb (Z.eqb 0) (repeat 0 (flen C - 1))) with true; [reflexivity|]. symmetry. apply forallb_forall.
    intros z Hz. apply repeat_spec in Hz. subst z. reflexivity. }
  split; [discriminate|]. split; [apply A|]. split; [apply A|]. split; apply D; reflexivity.
Qed.

(** Bytes that are missing are taken to be zero: one byte is a whole encoding. *)
Theorem c79_truncated_refuted (C : curve) : (1 < flen C)%nat -> insub C Inf = true -> exists bs,
  (length bs < flen C)%nat /\ de_compressed C (slice bs) = (Ok Inf, []) /\ de_uncompressed C (slice bs) = (Ok Inf, []).
Proof.
  intros L I. exists [64]. split; [exact L|].
  assert (Z0 : forall n, (1 < n)%nat -> fst (read n (slice [64])) = [64] /\ snd (read n (slice [64])) = []).
  { intros n Hn. unfold slice, read. destruct n as [|n]; [lia|]. cbn [firstn skipn]. rewrite firstn_nil, skipn_nil. auto. }
  assert (A0 : forall n, (1 < n)%nat -> flag 6 (fill n [64]) = true /\ flag 7 (fill n [64]) = false /\ all0 (mask (fill n [64])) = true).
  { intros n Hn. unfold fill. cbn [app]. unfold flag. cbn [hd mask]. repeat split.
    change (Z.land 64 63) with 0. unfold all0. cbn [forallb]. rewrite Z.eqb_refl. cbn [andb]. apply forallb_forall.
    intros z Hz. apply repeat_spec in Hz. subst z. reflexivity. }
  split.
  - unfold de_compressed. destruct (Z0 (flen C) L) as [E1 E2]. destruct (read (flen C) (slice [64])) as [got r]. cbn [fst snd] in E1, E2. subst.
    destruct (A0 (flen C) L) as (-> & _ & ->). reflexivity.
  - unfold de_uncompressed, de_unchecked. destruct (Z0 (2 * flen C)%nat ltac:(lia)) as [E1 E2].
    destruct (read (2 * flen C) (slice [64])) as [got r]. cbn [fst snd] in E1, E2. subst.
    destruct (A0 (2 * flen C)%nat ltac:(lia)) as (-> & -> & ->). cbn [bind check on_curve negb]. unfold check. cbn [on_curve negb]. rewrite I. reflexivity.
Qed.
Example ex_c79_truncated : (1 < flen ex2)%nat /\ insub ex2 Inf = true.
Proof. split; [cbn; lia|reflexivity]. Qed.

(** A reader that gives a valid encoding in two parts is not read to the end. *)
Theorem c79_chunks_refuted : exists p (r : reader), valid1 bnq 3 p /\
  let C := g1 bnq 3 (fun _ => None) (fun _ => true) in
  concat r = ser_uncompressed C p /\ fst (de_uncompressed C r) = Err NotOnCurve.
Proof.
  exists (Aff 1 2), [rev (le 32 1); rev (le 32 2)]. split; [|split; vm_compute; reflexivity].
  unfold valid1, residue. repeat split; try (vm_compute; congruence). exists 0. reflexivity.
Qed.

(** The compressed form is accepted for points outside the subgroup. *)
Theorem c79_subgroup_refuted : exists p bs, valid1 ex_q 3 p /\ insub ex1 p = false /\ length bs = 32%nat /\
  de_compressed ex1 (slice bs) = (Ok p, []).
Proof.
  exists (Aff 1 9), (ser_compressed ex1 (Aff 1 9)). split; [apply ex_c79_roundtrip|]. repeat split; vm_compute; reflexivity.
Qed.

Print Assumptions c79_roundtrip.
Print Assumptions c79_format.
Print Assumptions c79_injective.
Print Assumptions c79_injective2.
Print Assumptions c79_sound.
Print Assumptions c79_decode.
Print Assumptions c79_decode_uncompressed.
Print Assumptions c79_unique_refuted.
Print Assumptions c79_infinity_refuted.
Print Assumptions c79_truncated_refuted.
Print Assumptions c79_chunks_refuted.
Print Assumptions c79_subgroup_refuted.
