(** C72: the generator of round constants. *)
From Coq Require Import List Arith NArith Bool Lia.
From Verif Require Import PxModel LfModel LfSpec LfLemmas.
Import ListNotations.

(** C72: the circular buffer is the shift register of the paper. *)
Theorem c72_register : forall l, length (state l) = 80 -> head l < 80 -> exists x, grain x /\
  forall n, length (state (skip_updates n l)) = 80 /\ head (skip_updates n l) < 80 /\
    (forall i, i < 80 -> bit (skip_updates n l) i = x (n + i)) /\ fst (update (skip_updates n l)) = x (n + 80).
Proof.
  intros l L H. destruct (seq_of_grain l (conj L H)) as [G Sh]. exists (seq_of l). split; auto. intros n.
  pose proof (skip_shows n l _ 0 G Sh) as Sn. destruct Sn as [[W1 W2] B]. repeat split; auto.
  destruct (update_shows (skip_updates n l) (seq_of l) n G) as (l' & -> & _); auto. split; auto. split; auto.
Qed.

(** C72: what the generator delivers: of the pairs of bits of the recurrence after the first 240,
    the second bits of those whose first bit is set, and the iterator always returns. The seed is
    the one of the paper. *)
Theorem c72_stream : forall bits width full partial : N, exists x, grain x /\
  (forall i, i < 80 -> x i = nth i (seed bits width full partial) false) /\
  forall fuel m, 80 <= fuel -> exists bs l' e, take_bits fuel m (generate_lfsr bits width full partial) = Some (bs, l') /\
    length bs = m /\ shrunk x 240 bs e.
Proof.
  intros a b c d. destruct (generate_shows a b c d) as (x & G & X & Sh & NZ). exists x. repeat split; auto.
  intros fuel m Hf. destruct (take_bits_ok x fuel m G Hf _ _ Sh NZ) as (bs & l' & n' & E & L & SH & _ & _). eauto 10.
Qed.

(** C72: a register that is not zero returns after at most eighty pairs, one that is zero never. *)
Theorem c72_next_returns : forall l, length (state l) = 80 -> head l < 80 ->
  (exists b, In b (state l) /\ b = true) -> exists b l', next 80 l = Some (b, l').
Proof.
  intros l L H (b & I & ->). destruct (seq_of_grain l (conj L H)) as [G Sh].
  assert (nz (seq_of l) 0) as NZ.
  { destruct (In_nth _ _ false I) as (j & Hj & E). rewrite L in Hj.
    destruct Sh as [_ B].
    destruct (Nat.le_gt_cases (head l) j) as [Hh|Hh].
    - exists (j - head l). split; [lia|]. rewrite <- B by lia. unfold bit. replace (j - head l + head l) with j by lia.
      unfold SIZE. rewrite Nat.mod_small by lia. auto.
    - exists (j + 80 - head l). split; [lia|]. rewrite <- B by lia. unfold bit.
      replace (j + 80 - head l + head l) with (j + 1 * 80) by lia.
      unfold SIZE. rewrite Nat.mod_add, Nat.mod_small by lia. auto. }
  destruct (next_ok _ 80 l 0 G Sh NZ (le_n _)) as (k & l' & _ & _ & _ & E & _). eauto.
Qed.
Theorem c72_next_zero : forall fuel, next fuel (Lfsr (repeat false 80) 0) = None.
Proof.
  intros fuel. unfold next. assert (grain (fun _ => false)) as G by (intros n; reflexivity).
  assert (shows (Lfsr (repeat false 80) 0) (fun _ => false) 0) as Sh.
  { split; [apply wf_zero|]. intros i Hi. unfold bit. cbn [state head]. apply nth_repeat. }
  destruct (update_shows _ _ _ G Sh) as (l' & -> & Sh'). eapply zero_next; eauto.
Qed.

(** C72: two configurations whose parameters fit the fields of the seed have different generators. *)
Theorem c72_distinct : forall a b c d a' b' c' d' : N,
  (a < 4096)%N -> (b < 4096)%N -> (c < 1024)%N -> (d < 1024)%N ->
  (a' < 4096)%N -> (b' < 4096)%N -> (c' < 1024)%N -> (d' < 1024)%N ->
  generate_lfsr a b c d = generate_lfsr a' b' c' d' -> a = a' /\ b = b' /\ c = c' /\ d = d'.
Proof.
  intros a b c d a' b' c' d' A B C D A' B' C' D' E. apply seed_inj; auto.
  destruct (generate_shows a b c d) as (x & G & X & Sh & _). destruct (generate_shows a' b' c' d') as (y & G' & X' & Sh' & _).
  rewrite <- E in Sh'. apply (nth_ext _ _ false false); [reflexivity|]. intros i Hi. rewrite seed_len in Hi.
  rewrite <- X, <- X' by auto. apply (grain_back_add x y 160 G G' 0); auto. intros j Hj.
  change (0 + 160 + j) with (160 + j). rewrite <- (proj2 Sh j Hj). now apply Sh'.
Qed.
(** Nothing checks that they fit: a width of 4099 has the generator of width 3. *)
Theorem c72_distinct_refuted : exists b b', b <> b' /\ generate_lfsr 254 b 8 55 = generate_lfsr 254 b' 8 55.
Proof. exists 3%N, 4099%N. split; [discriminate|]. vm_compute. reflexivity. Qed.

(** C72: a sampled element is the first block below the modulus. Missing: that one exists; if
    none of [tries] blocks is, that many consecutive blocks were not below the modulus. *)
Theorem c72_sample_partial : forall a b c d fuel tries bits modulus, 80 <= fuel -> exists x, grain x /\
  (forall i, i < 80 -> x i = nth i (seed a b c d) false) /\
  match sample_field_element fuel tries bits modulus (generate_lfsr a b c d) with
  | Some (f, _) => (f < modulus)%N /\ exists rejected last e,
      Forall (fun b => length b = bits /\ (modulus <= number b)%N) rejected /\ length last = bits /\ number last = f /\
      shrunk x 240 (concat rejected ++ last) e
  | None => exists rejected e, Forall (fun b => length b = bits /\ (modulus <= number b)%N) rejected /\ length rejected = tries /\
      shrunk x 240 (concat rejected) e
  end.
Proof.
  intros a b c d fuel tries bits modulus Hf. destruct (generate_shows a b c d) as (x & G & X & Sh & NZ). exists x. repeat split; auto.
  pose proof (sample_ok x fuel tries bits modulus G Hf _ _ Sh NZ) as H.
  destruct (sample_field_element fuel tries bits modulus (generate_lfsr a b c d)) as [[f l]|]; auto.
  destruct H as (rs & last & n' & F & L & E & Hlt & _ & SH & _). eauto 10.
Qed.

Local Opaque generate_lfsr.
(** C72: the round constants are the numbers below the modulus among consecutive blocks of the
    delivered bits, one for every cell of every round, whenever they are returned. *)
Theorem c72_round_constants_partial : forall fuel tries bits modulus width full partial cs, 80 <= fuel ->
  generate_round_constants fuel tries bits modulus width full partial = Some cs ->
  length cs = width * (full + partial) /\ Forall (fun v => (v < modulus)%N) cs /\
  exists x blocks e, grain x /\
    (forall i, i < 80 -> x i = nth i (seed (N.of_nat bits) (N.of_nat width) (N.of_nat full) (N.of_nat partial)) false) /\
    Forall (fun b => length b = bits) blocks /\ shrunk x 240 (concat blocks) e /\
    cs = filter (fun v => N.ltb v modulus) (map number blocks).
Proof.
  intros fuel tries bits modulus width full partial cs Hf E. unfold generate_round_constants in E.
  destruct (generate_shows (N.of_nat bits) (N.of_nat width) (N.of_nat full) (N.of_nat partial)) as (x & G & X & Sh & NZ).
  destruct (sample_many_ok x fuel tries bits modulus G Hf _ _ _ _ Sh NZ E) as (L & blocks & e & F & SH & ->). split; auto.
  split; [|exists x, blocks, e; auto 10]. apply Forall_forall. intros v Hv. apply filter_In in Hv. now apply N.ltb_lt.
Qed.

Local Transparent generate_lfsr.
(** The first values of manta-pay/src/crypto/poseidon/parameters_hardcoded_test/lfsr_values. *)
Definition bls_fr : N := 52435875175126190479447740508185965837690552500527637822603658699938581184513%N.
Example c72_vectors : sample_many 80 20 255 bls_fr 4 (generate_lfsr 255 3 8 55) =
  Some [41764196652518280402801918994067134807238124178723763855975902025540297174931;
   12678502092746318913289523392430826887011664085277767208266352862540971998250;
   2984601628531025684563499708543701178678526318016879330847435430504374437980;
   2690017140200102091177577633023562095950079823472616006738264515833455400645]%N.
Proof. vm_compute. reflexivity. Qed.
(** A rejection: the first block of three bits is 3. *)
Example c72_sample_ex : sample_field_element 80 1 3 3 (generate_lfsr 3 2 1 2) = None /\
  option_map fst (sample_field_element 80 10 3 3 (generate_lfsr 3 2 1 2)) = Some 2%N /\
  generate_round_constants 80 10 3 5 2 1 2 = Some [3; 3; 2; 4; 3; 0]%N.
Proof. vm_compute. auto. Qed.
Example c72_register_ex : length (state (generate_lfsr 254 3 8 55)) = 80 /\ head (generate_lfsr 254 3 8 55) = 0 /\
  In true (state (generate_lfsr 254 3 8 55)) /\ head (skip_updates 5 (generate_lfsr 254 3 8 55)) = 5.
Proof.
  split; [reflexivity|]. split; [vm_compute; reflexivity|]. split; [|vm_compute; reflexivity].
  assert (existsb (fun b => b) (state (generate_lfsr 254 3 8 55)) = true) as E by (vm_compute; reflexivity).
  apply existsb_exists in E. destruct E as (b & I & ->). exact I.
Qed.
Print Assumptions c72_register.
Print Assumptions c72_stream.
Print Assumptions c72_next_returns.
Print Assumptions c72_next_zero.
Print Assumptions c72_distinct.
Print Assumptions c72_distinct_refuted.
Print Assumptions c72_sample_partial.
Print Assumptions c72_round_constants_partial.
