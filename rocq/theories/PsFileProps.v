(** C80 and C81: the files and the serialised accumulators and proofs of the Perpetual Powers of
    Tau. *)
From Coq Require Import ZArith Znumtheory List Bool Lia.
From Verif Require Import PsModel PsSpec PsLemmas PsFile PsPrime PsProps.
Import ListNotations.
Local Open Scope nat_scope.

Section Files.
Variables (q b1 : Z) (b2 : Z * Z).
Variables (s1 : Z -> option Z) (s2 : Z * Z -> option (Z * Z)) (sub1 : point Z -> bool) (sub2 : point (Z * Z) -> bool).
Hypothesis Q : good_prime q.
Hypothesis S1 : sqrt1_ok q s1.
Hypothesis S2 : sqrt2_ok q s2.
Notation G1 := (g1 q b1 s1 sub1).
Notation G2 := (g2 q b2 s2 sub2).

Let on1 := valid1 q b1.
Let on2 := valid2 q b2.
Let in1 (p : point Z) : Prop := valid1 q b1 p /\ sub1 p = true.
Let in2 (p : point (Z * Z)) : Prop := valid2 q b2 p /\ sub2 p = true.

Lemma rd1c p : on1 p -> reads (de_compressed G1) (ser_compressed G1) p.
Proof. intros V rest. apply (c79_roundtrip q b1 b2 s1 s2 sub1 sub2 Q S1 S2 rest). exact V. Qed.
Lemma rd2c p : on2 p -> reads (de_compressed G2) (ser_compressed G2) p.
Proof. intros V rest. apply (c79_roundtrip q b1 b2 s1 s2 sub1 sub2 Q S1 S2 rest). exact V. Qed.
Lemma rd1n p : on1 p -> reads (de_unchecked G1) (ser_uncompressed G1) p.
Proof. intros V rest. apply (c79_roundtrip q b1 b2 s1 s2 sub1 sub2 Q S1 S2 rest). exact V. Qed.
Lemma rd2n p : on2 p -> reads (de_unchecked G2) (ser_uncompressed G2) p.
Proof. intros V rest. apply (c79_roundtrip q b1 b2 s1 s2 sub1 sub2 Q S1 S2 rest). exact V. Qed.
Lemma rd1u p : in1 p -> reads (de_uncompressed G1) (ser_uncompressed G1) p.
Proof.
  intros [V I] rest. destruct (c79_roundtrip q b1 b2 s1 s2 sub1 sub2 Q S1 S2 rest) as [R _].
  destruct (R p V) as (_ & _ & E). rewrite I in E. exact E.
Qed.
Lemma rd2u p : in2 p -> reads (de_uncompressed G2) (ser_uncompressed G2) p.
Proof.
  intros [V I] rest. destruct (c79_roundtrip q b1 b2 s1 s2 sub1 sub2 Q S1 S2 rest) as [_ R].
  destruct (R p V) as (_ & _ & E). rewrite I in E. exact E.
Qed.
Lemma acc_all_impl (P1 P1' : point Z -> Prop) (P2 P2' : point (Z * Z) -> Prop) (a : accumulator G1 G2) :
  (forall p, P1 p -> P1' p) -> (forall p, P2 p -> P2' p) -> acc_all G1 G2 P1 P2 a -> acc_all G1 G2 P1' P2' a.
Proof.
  intros I1 I2 (A & B & C & D & E). repeat split; try (eapply Forall_impl; [|eassumption]; auto). apply I2. exact E.
Qed.
Lemma proof_all_impl (P1 P1' : point Z -> Prop) (P2 P2' : point (Z * Z) -> Prop) (a : proof G1 G2) :
  (forall p, P1 p -> P1' p) -> (forall p, P2 p -> P2' p) -> proof_all G1 G2 P1 P2 a -> proof_all G1 G2 P1' P2' a.
Proof. intros I1 I2 ((A & B & C) & (D & E & F) & (G & H & I)). repeat split; auto. Qed.

Lemma snd1c r x r' : de_compressed G1 r = (Ok x, r') -> on1 x.
Proof. destruct (c79_sound q b1 b2 s1 s2 sub1 sub2 Q S1 S2 r r') as (H & _ & _ & _). apply H. Qed.
Lemma snd1u r x r' : de_uncompressed G1 r = (Ok x, r') -> in1 x.
Proof. destruct (c79_sound q b1 b2 s1 s2 sub1 sub2 Q S1 S2 r r') as (_ & H & _ & _). apply H. Qed.
Lemma snd2c r x r' : de_compressed G2 r = (Ok x, r') -> on2 x.
Proof. destruct (c79_sound q b1 b2 s1 s2 sub1 sub2 Q S1 S2 r r') as (_ & _ & H & _). apply H. Qed.
Lemma snd2u r x r' : de_uncompressed G2 r = (Ok x, r') -> in2 x.
Proof. destruct (c79_sound q b1 b2 s1 s2 sub1 sub2 Q S1 S2 r r') as (_ & _ & _ & H). apply H. Qed.

(** * C81: accumulators and proofs *)

(** An accumulator of points of the curves is read back from its compressed form, and from its
    uncompressed form when the points are in the subgroups. *)
Theorem c81_accumulator a n1 n2 rest : acc_size G1 G2 a n1 n2 -> acc_all G1 G2 on1 on2 a ->
  de_acc G1 G2 n1 n2 (slice (ser_acc G1 G2 a ++ rest)) = (Ok a, slice rest) /\
  (acc_all G1 G2 in1 in2 a ->
   de_acc_uncompressed G1 G2 n1 n2 (slice (ser_acc_uncompressed G1 G2 a ++ rest)) = (Ok a, slice rest)).
Proof.
  intros Sz A. split.
  - apply acc_reads; auto. eapply acc_all_impl; [apply rd1c|apply rd2c|exact A].
  - intros I. apply acc_uncompressed_reads.
    + apply acc_reads; auto. eapply acc_all_impl; [apply rd1n|apply rd2n|exact A].
    + eapply acc_all_impl; [| |exact I]; intros p [V Sp]; apply check_ok.
      * apply (valid1_iff q b1 Q s1 sub1) in V. split; [apply V|exact Sp].
      * apply (valid2_iff q b2 Q s2 sub2) in V. split; [apply V|exact Sp].
Qed.

(** Only accumulators of points of the curves, of the right lengths, are accepted. *)
Theorem c81_accumulator_sound a n1 n2 r r' :
  (de_acc G1 G2 n1 n2 r = (Ok a, r') -> acc_size G1 G2 a n1 n2 /\ acc_all G1 G2 on1 on2 a) /\
  (de_acc_uncompressed G1 G2 n1 n2 r = (Ok a, r') -> acc_size G1 G2 a n1 n2 /\ acc_all G1 G2 in1 in2 a).
Proof.
  split; intros E.
  - exact (acc_with_ok G1 G2 _ _ on1 on2 _ _ _ _ _ snd1c snd2c E).
  - apply acc_uncompressed_ok in E. destruct E as [E K].
    destruct (acc_with_ok G1 G2 (de_unchecked G1) (de_unchecked G2) (gwf G1 (residue q)) (gwf G2 (residue2 q)) n1 n2 r a r') as [Sz A].
    + intros r0 x r1. apply (g_unchecked_sound _ _ (laws1 q b1 Q s1 S1 sub1)).
    + intros r0 x r1. apply (g_unchecked_sound _ _ (laws2 q b2 Q s2 S2 sub2)).
    + exact E.
    + split; [exact Sz|].
      assert (K1 : forall p, gwf G1 (residue q) p -> check G1 p = Ok tt -> in1 p).
      { intros p W Kp. apply check_ok in Kp. split; [apply (valid1_iff q b1 Q s1 sub1); tauto|apply Kp]. }
      assert (K2 : forall p, gwf G2 (residue2 q) p -> check G2 p = Ok tt -> in2 p).
      { intros p W Kp. apply check_ok in Kp. split; [apply (valid2_iff q b2 Q s2 sub2); tauto|apply Kp]. }
      destruct A as (A1 & A2 & A3 & A4 & A5), K as (B1 & B2 & B3 & B4 & B5).
      repeat split; try (rewrite Forall_forall in *; intros p Hp; first [apply K1|apply K2]; auto); apply K2; auto.
Qed.

(** The same for proofs, none of whose points may be infinity. *)
Theorem c81_proof p rest : proof_all G1 G2 (fun g => on1 g /\ g <> Inf) (fun g => on2 g /\ g <> Inf) p ->
  de_proof G1 G2 (slice (ser_proof G1 G2 p ++ rest)) = (Ok p, slice rest) /\
  (proof_all G1 G2 in1 in2 p ->
   de_proof_uncompressed G1 G2 (slice (ser_proof_uncompressed G1 G2 p ++ rest)) = (Ok p, slice rest)).
Proof.
  intros A. split.
  - apply proof_reads. eapply proof_all_impl; [| |exact A]; intros g [V N].
    + apply (nz_reads G1 (de_compressed G1)); auto. apply rd1c. auto.
    + apply (nz_reads G2 (de_compressed G2)); auto. apply rd2c. auto.
  - intros I. assert (B : proof_all G1 G2 (fun g => in1 g /\ g <> Inf) (fun g => in2 g /\ g <> Inf) p).
    { destruct A as ((A1 & A2 & A3) & (A4 & A5 & A6) & (A7 & A8 & A9)), I as ((I1 & I2 & I3) & (I4 & I5 & I6) & (I7 & I8 & I9)).
      unfold proof_all, ratio_all. tauto. }
    apply proof_reads. eapply proof_all_impl; [| |exact B]; intros g [V N].
    + apply (nz_reads G1 (de_uncompressed G1)); auto. apply rd1u. auto.
    + apply (nz_reads G2 (de_uncompressed G2)); auto. apply rd2u. auto.
Qed.
Theorem c81_proof_sound p r r' :
  (de_proof G1 G2 r = (Ok p, r') -> proof_all G1 G2 (fun g => on1 g /\ g <> Inf) (fun g => on2 g /\ g <> Inf) p) /\
  (de_proof_uncompressed G1 G2 r = (Ok p, r') ->
   proof_all G1 G2 (fun g => in1 g /\ g <> Inf) (fun g => in2 g /\ g <> Inf) p).
Proof.
  split; apply proof_with_ok; intros r0 x r1.
  - apply (nz_ok G1 (de_compressed G1) on1). exact snd1c.
  - apply (nz_ok G2 (de_compressed G2) on2). exact snd2c.
  - apply (nz_ok G1 (de_uncompressed G1) in1). exact snd1u.
  - apply (nz_ok G2 (de_uncompressed G2) in2). exact snd2u.
Qed.

(** * C80: files *)
Variable len : nat.
Hypothesis len_pos : 0 < len.

Definition ser_with (c : compressed) (a : accumulator G1 G2) : list Z :=
  match c with No => ser_acc_uncompressed G1 G2 a | Yes => ser_acc G1 G2 a end.

(** The parts of an accumulator file: a hash of 64 bytes, the accumulator and the rest. *)
Definition file_of (c : compressed) (head : list Z) (a : accumulator G1 G2) (rest : list Z) : list Z :=
  head ++ ser_with c a ++ rest.

Definition sr1 (c : compressed) := match c with No => ser_uncompressed G1 | Yes => ser_compressed G1 end.
Definition sr2 (c : compressed) := match c with No => ser_uncompressed G2 | Yes => ser_compressed G2 end.
Definition dr1 (c : compressed) := match c with No => de_unchecked G1 | Yes => de_compressed G1 end.
Definition dr2 (c : compressed) := match c with No => de_unchecked G2 | Yes => de_compressed G2 end.
Lemma sr1_len c x : length (sr1 c x) = match c with No => 64 | Yes => 32 end.
Proof.
  pose proof (laws1 q b1 Q s1 S1 sub1) as L. destruct c; cbn [sr1];
    [rewrite (ser_uncompressed_length _ _ L)|rewrite (ser_compressed_length _ _ L)]; reflexivity.
Qed.
Lemma sr2_len c x : length (sr2 c x) = match c with No => 128 | Yes => 64 end.
Proof.
  pose proof (laws2 q b2 Q s2 S2 sub2) as L. destruct c; cbn [sr2];
    [rewrite (ser_uncompressed_length _ _ L)|rewrite (ser_compressed_length _ _ L)]; reflexivity.
Qed.
Lemma rd1 c p : on1 p -> reads (dr1 c) (sr1 c) p.
Proof. destruct c; [apply rd1n|apply rd1c]. Qed.
Lemma rd2 c p : on2 p -> reads (dr2 c) (sr2 c) p.
Proof. destruct c; [apply rd2n|apply rd2c]. Qed.
Lemma ser_with_eq c a : ser_with c a = ser_acc_with G1 G2 (sr1 c) (sr2 c) a.
Proof. destruct c; reflexivity. Qed.
Lemma fine1 p : in1 p -> on_curve G1 p = true /\ insub G1 p = true.
Proof. intros [V I]. apply (valid1_iff q b1 Q s1 sub1) in V. split; [apply V|exact I]. Qed.
Lemma fine2 p : in2 p -> on_curve G2 p = true /\ insub G2 p = true.
Proof. intros [V I]. apply (valid2_iff q b2 Q s2 sub2) in V. split; [apply V|exact I]. Qed.

Lemma read1 c file l rest e n1 n2 : is_g1_type e = true -> skipn (off len c e) file = flat_map (sr1 c) l ++ rest ->
  num_powers n1 n2 e <= length l -> Forall in1 l ->
  read_g1_powers G1 len n1 n2 file e c = Ok (firstn (num_powers n1 n2 e) l).
Proof.
  intros T E N A. unfold read_g1_powers. rewrite (position0 len) by auto. rewrite T.
  assert (R : read_loop (dr1 c) file (get_size e c) (num_powers n1 n2 e) (off len c e) = Ok (firstn (num_powers n1 n2 e) l)).
  { apply (read_loop_reads (dr1 c) (sr1 c)) with (rest := rest).
    - destruct c; unfold get_size; rewrite T; lia.
    - intros x. rewrite sr1_len. unfold get_size. rewrite T. destruct c; reflexivity.
    - eapply Forall_impl; [|exact A]. intros p [V _]. apply rd1. exact V.
    - exact N.
    - exact E. }
  unfold dr1 in R. rewrite R. cbn [bind]. apply checks_fine.
  apply Forall_forall. intros p Hp. apply fine1. rewrite Forall_forall in A. apply A.
  rewrite <- (firstn_skipn (num_powers n1 n2 e) l). apply in_or_app. auto.
Qed.
Lemma read2 c file l rest e n1 n2 : is_g1_type e = false -> skipn (off len c e) file = flat_map (sr2 c) l ++ rest ->
  num_powers n1 n2 e <= length l -> Forall in2 l ->
  read_g2_powers G2 len n1 n2 file e c = Ok (firstn (num_powers n1 n2 e) l).
Proof.
  intros T E N A. unfold read_g2_powers. rewrite (position0 len) by auto. rewrite T. cbn [negb].
  assert (R : read_loop (dr2 c) file (get_size e c) (num_powers n1 n2 e) (off len c e) = Ok (firstn (num_powers n1 n2 e) l)).
  { apply (read_loop_reads (dr2 c) (sr2 c)) with (rest := rest).
    - destruct c; unfold get_size; rewrite T; lia.
    - intros x. rewrite sr2_len. unfold get_size. rewrite T. destruct c; reflexivity.
    - eapply Forall_impl; [|exact A]. intros p [V _]. apply rd2. exact V.
    - exact N.
    - exact E. }
  unfold dr2 in R. rewrite R. cbn [bind]. apply checks_fine.
  apply Forall_forall. intros p Hp. apply fine2. rewrite Forall_forall in A. apply A.
  rewrite <- (firstn_skipn (num_powers n1 n2 e) l). apply in_or_app. auto.
Qed.

(** The parts of the file follow each other, so no two elements share a byte. *)
Definition in_file (e : element) (i : nat) : Prop :=
  match e with TauG1 => i < 2 * len - 1 | BetaG2 => i = 0 | _ => i < len end.
Theorem c80_layout c e i e' i' : in_file e i -> in_file e' i' -> (e, i) <> (e', i') ->
  exists p p', position len i e c = Some p /\ position len i' e' c = Some p' /\ 64 <= p /\
    (p + get_size e c <= p' \/ p' + get_size e' c <= p).
Proof.
  intros H H' N. clear Q S1 S2.
  assert (P : forall e i, in_file e i -> position len i e c = Some (off len c e + get_size e c * i)).
  { clear. intros e i H. unfold position, off, get_size, in_file in *. destruct c, e; cbn [is_g1_type];
      try (destruct (Nat.ltb_spec i len) as [_|K]; [|lia]); try (destruct (Nat.ltb_spec i (2 * len - 1)) as [_|K]; [|lia]);
      f_equal; lia. }
  rewrite (P e i H), (P e' i' H'). do 2 eexists. split; [reflexivity|]. split; [reflexivity|].
  assert (Ni : e = e' -> i <> i') by (intros -> ->; congruence). clear P N.
  unfold off, get_size, in_file in *. destruct c, e, e'; cbn [is_g1_type]; try (specialize (Ni eq_refl)); try lia.
Qed.

(** A subaccumulator read from the file of an accumulator consists of its first powers. *)
Theorem c80_read c head a rest n1 n2 : length head = 64 -> acc_size G1 G2 a (2 * len - 1) len ->
  acc_all G1 G2 in1 in2 a -> n1 <= 2 * len - 1 -> n2 <= len ->
  read_subaccumulator G1 G2 len n1 n2 (file_of c head a rest) c = Ok (acc_prefix G1 G2 a n1 n2).
Proof.
  intros H (N1 & N2 & N3 & N4) (A1 & A2 & A3 & A4 & A5) M1 M2. unfold read_subaccumulator, file_of. rewrite ser_with_eq.
  destruct a as [t1 t2 al bt be]. unfold ser_acc_with, acc_prefix.
  cbn [tau_powers_g1 tau_powers_g2 alpha_tau_powers_g1 beta_tau_powers_g1 beta_g2] in *.
  set (file := head ++ _).
  pose proof (flat_map_length (sr1 c) _ t1 (sr1_len c)) as L1. pose proof (flat_map_length (sr2 c) _ t2 (sr2_len c)) as L2.
  pose proof (flat_map_length (sr1 c) _ al (sr1_len c)) as L3. pose proof (flat_map_length (sr1 c) _ bt (sr1_len c)) as L4.
  rewrite N1 in L1. rewrite N2 in L2. rewrite N3 in L3. rewrite N4 in L4.
  set (f1 := flat_map (sr1 c) t1) in *. set (f2 := flat_map (sr2 c) t2) in *. set (f3 := flat_map (sr1 c) al) in *.
  set (f4 := flat_map (sr1 c) bt) in *.
  assert (K1 : skipn (off len c TauG1) file = f1 ++ f2 ++ f3 ++ f4 ++ sr2 c be ++ rest).
  { unfold file. rewrite <- !app_assoc. rewrite skipn_length_app; [reflexivity|]. unfold off. destruct c; lia. }
  assert (K2 : skipn (off len c TauG2) file = f2 ++ f3 ++ f4 ++ sr2 c be ++ rest).
  { unfold file. rewrite <- !app_assoc, (app_assoc head). rewrite skipn_length_app; [reflexivity|]. rewrite app_length. unfold off. destruct c; lia. }
  assert (K3 : skipn (off len c AlphaG1) file = f3 ++ f4 ++ sr2 c be ++ rest).
  { unfold file. rewrite <- !app_assoc, (app_assoc head), (app_assoc _ f2). rewrite skipn_length_app; [reflexivity|].
    rewrite !app_length. unfold off. destruct c; lia. }
  assert (K4 : skipn (off len c BetaG1) file = f4 ++ sr2 c be ++ rest).
  { unfold file. rewrite <- !app_assoc, (app_assoc head), (app_assoc _ f2), (app_assoc _ f3). rewrite skipn_length_app; [reflexivity|].
    rewrite !app_length. unfold off. destruct c; lia. }
  assert (K5 : skipn (off len c BetaG2) file = flat_map (sr2 c) [be] ++ rest).
  { unfold file. rewrite <- !app_assoc, (app_assoc head), (app_assoc _ f2), (app_assoc _ f3), (app_assoc _ f4).
    rewrite skipn_length_app; [cbn [flat_map]; rewrite app_nil_r; reflexivity|].
    rewrite !app_length. unfold off. destruct c; lia. }
  rewrite (read1 c file t1 _ TauG1 n1 n2 eq_refl K1) by (cbn [num_powers]; auto; lia). cbn [bind].
  rewrite (read2 c file t2 _ TauG2 n1 n2 eq_refl K2) by (cbn [num_powers]; auto; lia). cbn [bind].
  rewrite (read1 c file al _ AlphaG1 n1 n2 eq_refl K3) by (cbn [num_powers]; auto; lia). cbn [bind].
  rewrite (read1 c file bt _ BetaG1 n1 n2 eq_refl K4) by (cbn [num_powers]; auto; lia). cbn [bind].
  rewrite (read2 c file [be] _ BetaG2 n1 n2 eq_refl K5) by (cbn [num_powers length]; auto). reflexivity.
Qed.

Lemma read1_ok c file e n1 n2 l : read_g1_powers G1 len n1 n2 file e c = Ok l ->
  length l = num_powers n1 n2 e /\ Forall in1 l /\
  (off len c e + get_size e c * num_powers n1 n2 e <= length file \/ num_powers n1 n2 e = 0) /\
  (is_g1_type e = true \/ num_powers n1 n2 e = 0).
Proof.
  unfold read_g1_powers. rewrite (position0 len) by auto. intros E. apply bind_ok in E. destruct E as (l0 & E & K).
  assert (T : is_g1_type e = true \/ num_powers n1 n2 e = 0).
  { destruct (is_g1_type e); auto. right. destruct (num_powers n1 n2 e); auto. exfalso. cbn [read_loop] in E.
    destruct (range _ _ _); discriminate. }
  assert (Sh : 0 < get_size e c) by (destruct c; unfold get_size; destruct (is_g1_type e); lia).
  pose proof (read_loop_short _ _ _ Sh _ _ _ E) as Short.
  destruct T as [T|T].
  - rewrite T in E.
    destruct (read_loop_ok (match c with No => de_unchecked G1 | Yes => de_compressed G1 end)
       (fun p => gwf G1 (residue q) p /\ (c = Yes -> on_curve G1 p = true)) file (get_size e c)
       ltac:(intros r x r' D; destruct c; [split; [exact (g_unchecked_sound _ _ (laws1 q b1 Q s1 S1 sub1) _ _ _ D)|discriminate]
                                          |destruct (g_compressed_sound _ _ (laws1 q b1 Q s1 S1 sub1) _ _ _ D); auto])
       _ _ _ E) as [Ln Fl].
    apply checks_ok in K.
    + destruct K as [-> Ck]. split; auto. split; auto. rewrite Forall_forall in *. intros p Hp.
      destruct (Fl p Hp) as [W _]. destruct (Ck p Hp) as [O I]. split; [apply (valid1_iff q b1 Q s1 sub1); auto|exact I].
    + intros Y. eapply Forall_impl; [|exact Fl]. cbv beta. tauto.
  - rewrite T in E |- *. cbn [read_loop] in E. injection E as <-. assert (l = []) as -> by (destruct c; cbv [checks each bind] in K; injection K as <-; reflexivity).
    split; [reflexivity|]. split; [constructor|]. auto.
Qed.
Lemma read2_ok c file e n1 n2 l : read_g2_powers G2 len n1 n2 file e c = Ok l ->
  length l = num_powers n1 n2 e /\ Forall in2 l /\
  (off len c e + get_size e c * num_powers n1 n2 e <= length file \/ num_powers n1 n2 e = 0) /\
  (is_g1_type e = false \/ num_powers n1 n2 e = 0).
Proof.
  unfold read_g2_powers. rewrite (position0 len) by auto. intros E. apply bind_ok in E. destruct E as (l0 & E & K).
  assert (T : is_g1_type e = false \/ num_powers n1 n2 e = 0).
  { destruct (is_g1_type e); auto. right. destruct (num_powers n1 n2 e); auto. exfalso. cbn [read_loop negb] in E.
    destruct (range _ _ _); discriminate. }
  assert (Sh : 0 < get_size e c) by (destruct c; unfold get_size; destruct (is_g1_type e); lia).
  pose proof (read_loop_short _ _ _ Sh _ _ _ E) as Short.
  destruct T as [T|T].
  - rewrite T in E. cbn [negb] in E.
    destruct (read_loop_ok (match c with No => de_unchecked G2 | Yes => de_compressed G2 end)
       (fun p => gwf G2 (residue2 q) p /\ (c = Yes -> on_curve G2 p = true)) file (get_size e c)
       ltac:(intros r x r' D; destruct c; [split; [exact (g_unchecked_sound _ _ (laws2 q b2 Q s2 S2 sub2) _ _ _ D)|discriminate]
                                          |destruct (g_compressed_sound _ _ (laws2 q b2 Q s2 S2 sub2) _ _ _ D); auto])
       _ _ _ E) as [Ln Fl].
    apply checks_ok in K.
    + destruct K as [-> Ck]. split; auto. split; auto. rewrite Forall_forall in *. intros p Hp.
      destruct (Fl p Hp) as [W _]. destruct (Ck p Hp) as [O I]. split; [apply (valid2_iff q b2 Q s2 sub2); auto|exact I].
    + intros Y. eapply Forall_impl; [|exact Fl]. cbv beta. tauto.
  - rewrite T in E |- *. cbn [read_loop] in E. injection E as <-. assert (l = []) as -> by (destruct c; cbv [checks each bind] in K; injection K as <-; reflexivity).
    split; [reflexivity|]. split; [constructor|]. auto.
Qed.

(** Whatever the file, what is read has the right lengths and consists of points of the curves in
    the subgroups; the file reaches to the end of the last element. *)
Theorem c80_sound c file n1 n2 a : read_subaccumulator G1 G2 len n1 n2 file c = Ok a ->
  acc_size G1 G2 a n1 n2 /\ acc_all G1 G2 in1 in2 a /\
  exists p, position len 0 BetaG2 c = Some p /\ p + get_size BetaG2 c <= length file.
Proof.
  unfold read_subaccumulator. intros E.
  apply bind_ok in E. destruct E as (t1 & E1 & E). apply bind_ok in E. destruct E as (t2 & E2 & E).
  apply bind_ok in E. destruct E as (al & E3 & E). apply bind_ok in E. destruct E as (bt & E4 & E).
  apply bind_ok in E. destruct E as (bg & E5 & E). destruct bg as [|b bg]; [discriminate|]. injection E as <-.
  apply read1_ok in E1, E3, E4. apply read2_ok in E2, E5. cbn [num_powers] in *.
  destruct E1 as (L1 & I1 & _), E3 as (L3 & I3 & _), E4 as (L4 & I4 & _), E2 as (L2 & I2 & _), E5 as (_ & I5 & Sh & _).
  inversion I5; subst. unfold acc_size, acc_all. cbn [tau_powers_g1 tau_powers_g2 alpha_tau_powers_g1 beta_tau_powers_g1 beta_g2].
  split; [tauto|]. split; [tauto|]. exists (off len c BetaG2). split; [apply position0; auto|]. destruct Sh as [Sh|Sh]; [|discriminate].
  lia.
Qed.

(** The functions for one group refuse the elements of the other. *)
Theorem c80_wrong_curve file e c n1 n2 : 0 < num_powers n1 n2 e ->
  (forall l, read_g1_powers G1 len n1 n2 file e c = Ok l -> is_g1_type e = true) /\
  (forall l, read_g2_powers G2 len n1 n2 file e c = Ok l -> is_g1_type e = false).
Proof.
  intros N. split; intros l E.
  - apply read1_ok in E. destruct E as (_ & _ & _ & [T|T]); [exact T|lia].
  - apply read2_ok in E. destruct E as (_ & _ & _ & [T|T]); [exact T|lia].
Qed.

(** The proof behind the accumulator of a compressed file is read. *)
Theorem c80_proof head a p rest : length head = 64 -> acc_size G1 G2 a (2 * len - 1) len ->
  proof_all G1 G2 (fun g => in1 g /\ g <> Inf) (fun g => in2 g /\ g <> Inf) p ->
  read_kzg_proof G1 G2 len (file_of Yes head a (ser_proof_uncompressed G1 G2 p ++ rest)) = Ok p.
Proof.
  intros H (N1 & N2 & N3 & N4) A. unfold read_kzg_proof.
  set (pos := 64 + _ + _). set (file := file_of _ _ _ _).
  assert (LP : length (ser_proof_uncompressed G1 G2 p) = 6 * 64 + 3 * 128).
  { unfold ser_proof_uncompressed, ser_proof_with. rewrite !app_length.
    change (ser_uncompressed G1) with (sr1 No). change (ser_uncompressed G2) with (sr2 No).
    rewrite !sr1_len, !sr2_len. reflexivity. }
  assert (K : skipn pos file = ser_proof_uncompressed G1 G2 p ++ rest).
  { unfold file, file_of. rewrite app_assoc. apply skipn_length_app. rewrite app_length, H, ser_with_eq.
    destruct a as [t1 t2 al bt be]. unfold ser_acc_with.
    cbn [tau_powers_g1 tau_powers_g2 alpha_tau_powers_g1 beta_tau_powers_g1 beta_g2] in *. rewrite !app_length.
    rewrite !(flat_map_length _ _ _ (sr1_len Yes)), (flat_map_length _ _ _ (sr2_len Yes)), sr2_len, N1, N2, N3, N4.
    unfold pos. lia. }
  destruct (range_at file _ rest pos _ LP K) as [->|]; [|lia].
  rewrite <- (app_nil_r (ser_proof_uncompressed G1 G2 p)).
  destruct (c81_proof p []) as [_ R].
  - eapply proof_all_impl; [| |exact A]; cbv beta; unfold in1, in2, on1, on2; tauto.
  - rewrite R; [reflexivity|]. eapply proof_all_impl; [| |exact A]; cbv beta; tauto.
Qed.
Theorem c80_proof_sound file p : read_kzg_proof G1 G2 len file = Ok p ->
  proof_all G1 G2 (fun g => in1 g /\ g <> Inf) (fun g => in2 g /\ g <> Inf) p.
Proof.
  unfold read_kzg_proof. destruct (range _ _ _) as [bs|]; [|discriminate]. intros E.
  destruct (de_proof_uncompressed G1 G2 (slice bs)) as [o r] eqn:D. cbn [fst] in E. subst o.
  destruct (c81_proof_sound p (slice bs) r) as [_ R]. apply R. exact D.
Qed.
End Files.

(** * Examples *)
Ltac by_eval := match goal with |- _ = ?x => vm_cast_no_check (eq_refl x) end.
Notation pt1 := (Aff 0%Z 5%Z).
Notation pt2 := (Aff (0, 0)%Z (5, 0)%Z).
Definition ex_acc : accumulator ex1 ex2 := Accumulator ex1 ex2 [pt1] [pt2] [Inf] [pt1] pt2.
Definition ex_proof : proof ex1 ex2 :=
  Proof ex1 ex2 (RatioProof ex1 ex2 pt1 pt1 pt2) (RatioProof ex1 ex2 pt1 pt1 pt2) (RatioProof ex1 ex2 pt1 pt1 pt2).
Definition ex_in1 (p : point Z) : Prop := valid1 ex_q 3 p /\ ex_sub1 p = true.
Definition ex_in2 (p : point (Z * Z)) : Prop := valid2 ex_q (3, 0)%Z p /\ ex_sub2 p = true.
Lemma ex_pt1 : ex_in1 pt1.
Proof. split; [|reflexivity]. unfold valid1, residue, ex_q. repeat split; try lia. exists 2%Z. reflexivity. Qed.
Lemma ex_pt2 : ex_in2 pt2.
Proof. split; [apply ex_c79_roundtrip|reflexivity]. Qed.
Example ex_c81_accumulator : acc_size ex1 ex2 ex_acc 1 1 /\ acc_all ex1 ex2 ex_in1 ex_in2 ex_acc.
Proof.
  split; [repeat split|]. unfold acc_all. cbn [ex_acc tau_powers_g1 tau_powers_g2 alpha_tau_powers_g1 beta_tau_powers_g1 beta_g2].
  repeat match goal with
         | |- Forall _ (_ :: _) => constructor
         | |- Forall _ [] => constructor
         | |- Forall _ _ /\ _ => split
         end; first [apply ex_pt1|apply ex_pt2|split; [exact I|reflexivity]].
Qed.
Example ex_c81_accumulator_sound : fst (de_acc ex1 ex2 1 1 (slice (ser_acc ex1 ex2 ex_acc))) = Ok ex_acc /\
  fst (de_acc_uncompressed ex1 ex2 1 1 (slice (ser_acc_uncompressed ex1 ex2 ex_acc))) = Ok ex_acc.
Proof. split; by_eval. Qed.
Example ex_c81_proof : proof_all ex1 ex2 (fun g => ex_in1 g /\ g <> Inf) (fun g => ex_in2 g /\ g <> Inf) ex_proof.
Proof.
  unfold proof_all, ratio_all. cbn [ex_proof p_tau p_alpha p_beta ratio0 ratio1 matching].
  repeat match goal with |- _ /\ _ => split end; first [apply ex_pt1|apply ex_pt2|discriminate].
Qed.
Example ex_c81_proof_sound : fst (de_proof ex1 ex2 (slice (ser_proof ex1 ex2 ex_proof))) = Ok ex_proof /\
  fst (de_proof ex1 ex2 (slice (64%Z :: repeat 0%Z 31))) = Err IsZero.
Proof. split; by_eval. Qed.
Example ex_c80_layout : in_file 1 TauG1 0 /\ in_file 1 BetaG1 0 /\ position 1 0 BetaG1 Yes = Some 192.
Proof. cbn. repeat split; lia. Qed.
Example ex_c80_read : read_subaccumulator ex1 ex2 1 1 1 (file_of ex_q 3 (3, 0)%Z find1 find2 ex_sub1 ex_sub2 Yes (repeat 7%Z 64) ex_acc []) Yes = Ok ex_acc /\
  read_subaccumulator ex1 ex2 1 1 1 (file_of ex_q 3 (3, 0)%Z find1 find2 ex_sub1 ex_sub2 No (repeat 7%Z 64) ex_acc []) No = Ok ex_acc.
Proof. split; by_eval. Qed.
Example ex_c80_wrong_curve : 0 < num_powers 1 1 TauG2 /\
  read_g1_powers ex1 1 1 1 (repeat 0%Z 300) TauG2 Yes = Err WrongCurve.
Proof. split; [cbn; lia|by_eval]. Qed.
Example ex_c80_proof : read_kzg_proof ex1 ex2 1
  (file_of ex_q 3 (3, 0)%Z find1 find2 ex_sub1 ex_sub2 Yes (repeat 7%Z 64) ex_acc (ser_proof_uncompressed ex1 ex2 ex_proof)) = Ok ex_proof.
Proof. by_eval. Qed.

(** * Where the code does not do what its signature says *)

(** A point off the curve or outside the subgroup makes the reading of an uncompressed file panic,
    and so does a file that is too short; no error is returned. *)
Theorem c80_panic_refuted : exists file, length file = 64 + (64 + 128 + 64 + 64 + 128) /\
  read_subaccumulator ex1 ex2 1 1 1 file No = Panic /\ read_subaccumulator ex1 ex2 1 1 1 (firstn 100 file) Yes = Panic.
Proof. exists (repeat 0%Z 512). split; [reflexivity|]. split; by_eval. Qed.

(** For a size larger than that of the file, bytes of the following parts are read as further powers. *)
Theorem c80_size_refuted : exists a, acc_size ex1 ex2 ex_acc 1 1 /\ acc_size ex1 ex2 a 3 2 /\
  read_subaccumulator ex1 ex2 1 3 2 (file_of ex_q 3 (3, 0)%Z find1 find2 ex_sub1 ex_sub2 Yes (repeat 7%Z 64) ex_acc []) Yes = Ok a.
Proof.
  exists (Accumulator ex1 ex2 [pt1; pt1; pt1] [pt2; Inf] [Inf; pt1] [pt1; pt1] pt2).
  split; [|split]; [unfold acc_size; cbn; tauto|unfold acc_size; cbn; tauto|]. by_eval.
Qed.

(** A compressed accumulator and a compressed proof are accepted with points outside the subgroup. *)
Theorem c81_subgroup_refuted : exists (a : accumulator ex1 ex2) (p : proof ex1 ex2),
  de_acc ex1 ex2 1 1 (slice (ser_acc ex1 ex2 a)) = (Ok a, []) /\ de_proof ex1 ex2 (slice (ser_proof ex1 ex2 p)) = (Ok p, []) /\
  insub ex2 (beta_g2 ex1 ex2 a) = false /\ insub ex2 (matching ex1 ex2 (p_tau ex1 ex2 p)) = false.
Proof.
  set (o := Aff (1, 0)%Z (2, 0)%Z : point (Z * Z)).
  exists (Accumulator ex1 ex2 [pt1] [pt2] [pt1] [pt1] o),
    (Proof ex1 ex2 (RatioProof ex1 ex2 pt1 pt1 o) (RatioProof ex1 ex2 pt1 pt1 o) (RatioProof ex1 ex2 pt1 pt1 o)).
  split; [|split; [|split]]; by_eval.
Qed.

Print Assumptions c80_layout.
Print Assumptions c80_read.
Print Assumptions c80_sound.
Print Assumptions c80_wrong_curve.
Print Assumptions c80_proof.
Print Assumptions c80_proof_sound.
Print Assumptions c80_panic_refuted.
Print Assumptions c80_size_refuted.
Print Assumptions c81_accumulator.
Print Assumptions c81_accumulator_sound.
Print Assumptions c81_proof.
Print Assumptions c81_proof_sound.
Print Assumptions c81_subgroup_refuted.
