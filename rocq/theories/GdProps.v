(** * Arithmetic in circuits: properties (C84) *)
From Coq Require Import List ZArith Znumtheory Lia Bool.
From Verif Require Import WmModel GdModel PrBn PsPrime.
Import ListNotations.
Local Open Scope Z_scope.

(** ** Specification *)

(** A circuit is satisfied with a result by some tape. *)
Definition accepts {A} (c : circuit A) (tape : list Z) (a : A) : Prop :=
  exists rest, c tape = Ok (a, (true, rest)).
Definition accepted {A} (c : circuit A) (a : A) : Prop := exists tape, accepts c tape a.
(** Its synthesis does not panic, whatever the values. *)
Definition panics {A} (c : circuit A) : Prop := forall tape, c tape = Panic.
Definition total {A} (c : circuit A) : Prop := forall tape, c tape <> Panic.

(** A value of a variable. *)
Definition elem (q v : Z) : Prop := 0 <= v < q.

(** ** Circuits *)

Lemma seq_inv {A B} (c : circuit A) (k : A -> circuit B) tape b rest :
  seq c k tape = Ok (b, (true, rest)) ->
  exists a tape1, c tape = Ok (a, (true, tape1)) /\ k a tape1 = Ok (b, (true, rest)).
Proof.
  unfold seq. destruct (c tape) as [[a [s1 t1]]|]; [|discriminate].
  destruct (k a t1) as [[b' [s2 t2]]|] eqn:K; [|discriminate].
  intros E. injection E as E1 E2 E3. subst. apply andb_true_iff in E2. destruct E2 as [-> ->].
  exists a, t1. split; [reflexivity|exact K].
Qed.
Lemma seq_intro {A B} (c : circuit A) (k : A -> circuit B) tape a tape1 b rest :
  c tape = Ok (a, (true, tape1)) -> k a tape1 = Ok (b, (true, rest)) -> seq c k tape = Ok (b, (true, rest)).
Proof. intros E1 E2. unfold seq. rewrite E1, E2. reflexivity. Qed.
Lemma enforce_inv b tape u rest : enforce b tape = Ok (u, (true, rest)) -> b = true /\ rest = tape.
Proof. unfold enforce. intros E. injection E as _ E1 E2. split; congruence. Qed.
Lemma ret_inv {A} (a b : A) tape rest : ret a tape = Ok (b, (true, rest)) -> b = a /\ rest = tape.
Proof. unfold ret. intros E. injection E as E1 E2. split; congruence. Qed.
Lemma seq_total {A B} (c : circuit A) (k : A -> circuit B) : total c -> (forall a, total (k a)) -> total (seq c k).
Proof.
  intros C K tape. unfold seq. specialize (C tape). destruct (c tape) as [[a [s t]]|]; [|contradiction].
  specialize (K a t). destruct (k a t) as [[b [s2 t2]]|]; [discriminate|contradiction].
Qed.
Lemma enforce_total b : total (enforce b). Proof. discriminate. Qed.
Lemma ret_total {A} (a : A) : total (ret a). Proof. discriminate. Qed.

Ltac step H := apply seq_inv in H;
  let a := fresh "a" in let t := fresh "t" in let E := fresh "E" in destruct H as [a [t [E H]]].

Section Field.
Variable q : Z.
Hypothesis Q : prime q.

Lemma q_pos : 1 < q. Proof. destruct Q. assumption. Qed.
Lemma mod_elem v : elem q (v mod q).
Proof. apply Z.mod_pos_bound. pose proof q_pos. lia. Qed.
Lemma eq_elem a b : elem q a -> elem q b -> (a - b) mod q = 0 -> a = b.
Proof.
  intros [A1 A2] [B1 B2] E. apply Z.mod_divide in E; [|pose proof q_pos; lia].
  destruct E as [k E]. assert (k = 0) by nia. lia.
Qed.
Lemma witness_inv tape v rest : new_witness q tape = Ok (v, (true, rest)) -> elem q v.
Proof.
  unfold new_witness. destruct tape; intros E; injection E as <- _; [|apply mod_elem].
  split; [lia|pose proof q_pos; lia].
Qed.
Lemma witness_take v t : elem q v -> new_witness q (v :: t) = Ok (v, (true, t)).
Proof. intros H. unfold new_witness. rewrite Z.mod_small by exact H. reflexivity. Qed.
Lemma witness_total : total (new_witness q).
Proof. intros [|v t]; discriminate. Qed.

Lemma boolean_inv tape b rest : new_boolean q tape = Ok (b, (true, rest)) -> b = 0 \/ b = 1.
Proof.
  unfold new_boolean. intros H. step H. step H. apply ret_inv in H. destruct H as [-> ->].
  apply witness_inv in E. apply enforce_inv in E0. destruct E0 as [E0 _]. apply Z.eqb_eq in E0.
  apply Z.mod_divide in E0; [|pose proof q_pos; lia]. apply prime_mult in E0; [|exact Q].
  destruct E as [P1 P2]. destruct E0 as [[k E0]|[k E0]].
  - left. assert (k = 0) by (pose proof q_pos; nia). lia.
  - right. assert (k = 0) by (pose proof q_pos; nia). lia.
Qed.
Lemma boolean_take b t : b = 0 \/ b = 1 -> new_boolean q (b :: t) = Ok (b, (true, t)).
Proof.
  intros H. unfold new_boolean. eapply seq_intro; [apply witness_take; pose proof q_pos; unfold elem; lia|].
  eapply seq_intro; [|reflexivity]. unfold enforce. replace (b * (1 - b)) with 0 by (destruct H as [-> | ->]; reflexivity).
  rewrite Z.mod_0_l by (pose proof q_pos; lia). reflexivity.
Qed.
Lemma boolean_total : total (new_boolean q).
Proof. apply seq_total; [exact witness_total|]. intros a. apply seq_total; [apply enforce_total|]. intros. apply ret_total. Qed.

Definition bit (b : Z) : Prop := b = 0 \/ b = 1.
Lemma booleans_inv n : forall tape l rest, new_booleans q n tape = Ok (l, (true, rest)) ->
  length l = n /\ Forall bit l.
Proof.
  induction n as [|n IH]; intros tape l rest H; cbn [new_booleans] in H.
  - apply ret_inv in H. destruct H as [-> _]. split; [reflexivity|constructor].
  - step H. step H. apply ret_inv in H. destruct H as [-> _]. apply boolean_inv in E. apply IH in E0.
    destruct E0 as [E1 E2]. split; [cbn; lia|constructor; assumption].
Qed.
Lemma booleans_take l t : Forall bit l -> new_booleans q (length l) (l ++ t) = Ok (l, (true, t)).
Proof.
  induction 1 as [|b l Hb Hl IH]; [reflexivity|]. cbn [length app new_booleans].
  eapply seq_intro; [apply boolean_take; exact Hb|]. eapply seq_intro; [exact IH|reflexivity].
Qed.
Lemma booleans_total n : total (new_booleans q n).
Proof.
  induction n; cbn [new_booleans]; [apply ret_total|]. apply seq_total; [exact boolean_total|].
  intros. apply seq_total; [assumption|]. intros. apply ret_total.
Qed.

Lemma weigh_range l : Forall bit l -> 0 <= weigh l < 2 ^ Z.of_nat (length l).
Proof.
  induction 1 as [|b l [-> | ->] Hl IH]; cbn [length weigh]; [lia| |];
    rewrite Nat2Z.inj_succ, Z.pow_succ_r by lia; lia.
Qed.
Lemma weigh_split n l : weigh l = weigh (firstn n l) + 2 ^ Z.of_nat (Nat.min n (length l)) * weigh (skipn n l).
Proof.
  revert l. induction n as [|n IH]; intros [|b l]; cbn [firstn skipn weigh length Nat.min]; try lia.
  rewrite (IH l) at 1. rewrite Nat2Z.inj_succ, Z.pow_succ_r by lia. lia.
Qed.
Lemma weigh_false l : Forall (fun b => b = 0) l -> weigh l = 0.
Proof. induction 1 as [|b l -> H IH]; cbn [weigh]; lia. Qed.
Lemma weigh_zero l : Forall bit l -> weigh l = 0 -> Forall (fun b => b = 0) l.
Proof.
  induction 1 as [|b l Hb Hl IH]; intros E; [constructor|]. cbn [weigh] in E.
  pose proof (weigh_range l Hl). destruct Hb as [-> | ->]; [|lia]. constructor; [reflexivity|]. apply IH. lia.
Qed.

(** The bits of a number. *)
Fixpoint bits_of (n : nat) (v : Z) : list Z :=
  match n with O => [] | S m => v mod 2 :: bits_of m (v / 2) end.
Lemma bits_of_length n v : length (bits_of n v) = n.
Proof. revert v. induction n; intros; cbn; [|rewrite IHn]; reflexivity. Qed.
Lemma bits_of_bits n v : Forall bit (bits_of n v).
Proof.
  revert v. induction n; intros; cbn; constructor; [|apply IHn].
  unfold bit. pose proof (Z.mod_pos_bound v 2). lia.
Qed.
Lemma bits_of_weigh n v : 0 <= v < 2 ^ Z.of_nat n -> weigh (bits_of n v) = v.
Proof.
  revert v. induction n as [|n IH]; intros v H; [cbn in *; lia|]. cbn [bits_of weigh].
  rewrite Nat2Z.inj_succ, Z.pow_succ_r in H by lia. rewrite IH.
  - pose proof (Z.div_mod v 2). lia.
  - split; [apply Z.div_pos; lia|]. apply Z.div_lt_upper_bound; lia.
Qed.

Variable modulus_bits : nat.
Hypothesis B : 2 ^ (Z.of_nat modulus_bits - 1) <= q < 2 ^ Z.of_nat modulus_bits.

Lemma to_bits_inv v tape l rest : elem q v -> to_bits q modulus_bits v tape = Ok (l, (true, rest)) ->
  length l = modulus_bits /\ Forall bit l /\ weigh l = v.
Proof.
  intros V H. unfold to_bits in H. step H. step H. step H. apply ret_inv in H. destruct H as [-> _].
  apply booleans_inv in E. destruct E as [F1 F2]. apply enforce_inv in E0, E1. destruct E0 as [E0 _], E1 as [E1 _].
  split; [exact F1|]. split; [exact F2|]. apply Z.eqb_eq in E0. apply Z.ltb_lt in E1.
  apply eq_elem; [|exact V|exact E0]. split; [apply weigh_range; exact F2|exact E1].
Qed.
Lemma to_bits_take v t : elem q v ->
  to_bits q modulus_bits v (bits_of modulus_bits v ++ t) = Ok (bits_of modulus_bits v, (true, t)).
Proof.
  intros V. unfold to_bits.
  assert (W : weigh (bits_of modulus_bits v) = v) by (apply bits_of_weigh; destruct V; lia).
  eapply seq_intro.
  { pose proof (booleans_take (bits_of modulus_bits v) t (bits_of_bits _ _)) as T. rewrite bits_of_length in T. exact T. }
  eapply seq_intro.
  { unfold enforce_equal, enforce. rewrite W, Z.sub_diag, Z.mod_0_l by (pose proof q_pos; lia). reflexivity. }
  eapply seq_intro; [|reflexivity]. unfold enforce. rewrite W, (proj2 (Z.ltb_lt v q)) by apply V. reflexivity.
Qed.
Lemma to_bits_total v : total (to_bits q modulus_bits v).
Proof.
  apply seq_total; [apply booleans_total|]. intros. apply seq_total; [apply enforce_total|]. intros.
  apply seq_total; [apply enforce_total|]. intros. apply ret_total.
Qed.

Lemma false_inv : forall l, Forall bit l -> forall tape u rest,
  enforce_all_false q l tape = Ok (u, (true, rest)) -> Forall (fun b => b = 0) l.
Proof.
  induction 1 as [|b l Hb Hl IH]; intros tape u rest H; [constructor|]. cbn [enforce_all_false] in H. step H.
  apply enforce_inv in E. destruct E as [E _]. apply Z.eqb_eq in E. constructor; [|eapply IH; exact H].
  pose proof q_pos. apply eq_elem; [destruct Hb as [-> | ->]; unfold elem; lia|unfold elem; lia|exact E].
Qed.
Lemma false_take l tape : Forall (fun b => b = 0) l -> enforce_all_false q l tape = Ok (tt, (true, tape)).
Proof.
  induction 1 as [|b l -> H IH]; [reflexivity|]. cbn [enforce_all_false].
  eapply seq_intro; [|exact IH]. unfold enforce_equal, enforce. rewrite Z.mod_0_l by (pose proof q_pos; lia). reflexivity.
Qed.
Lemma false_total l : total (enforce_all_false q l).
Proof.
  induction l; cbn [enforce_all_false]; [apply ret_total|]. apply seq_total; [apply enforce_total|]. intros. assumption.
Qed.

Lemma range_inv n v tape u rest : elem q v ->
  assert_within_range q modulus_bits n v tape = Ok (u, (true, rest)) -> v < 2 ^ Z.of_nat n.
Proof.
  intros V H. unfold assert_within_range in H. destruct (Nat.ltb_spec n modulus_bits) as [N1|]; [|discriminate].
  step H. apply to_bits_inv in E; [|exact V]. destruct E as [E1 [E2 E3]].
  apply false_inv in H; [|rewrite <- (firstn_skipn n a) in E2; apply Forall_app in E2; apply E2].
  rewrite <- E3, (weigh_split n), (weigh_false _ H), Z.mul_0_r, Z.add_0_r.
  assert (F : Forall bit (firstn n a)) by (rewrite <- (firstn_skipn n a) in E2; apply Forall_app in E2; apply E2).
  pose proof (weigh_range _ F) as R. rewrite firstn_length_le in R by lia. lia.
Qed.
Lemma range_take n v t : elem q v -> v < 2 ^ Z.of_nat n -> (n < modulus_bits)%nat ->
  assert_within_range q modulus_bits n v (bits_of modulus_bits v ++ t) = Ok (tt, (true, t)).
Proof.
  intros V R L. unfold assert_within_range. apply Nat.ltb_lt in L as L'. rewrite L'.
  eapply seq_intro; [apply to_bits_take; exact V|]. apply false_take.
  pose proof (bits_of_bits modulus_bits v) as F. pose proof (bits_of_length modulus_bits v) as Ln.
  assert (W : weigh (bits_of modulus_bits v) = v) by (apply bits_of_weigh; destruct V; lia).
  rewrite <- (firstn_skipn n (bits_of modulus_bits v)) in F. apply Forall_app in F. destruct F as [F1 F2].
  apply weigh_zero; [exact F2|]. rewrite (weigh_split n), Ln, Nat.min_l in W by lia.
  pose proof (weigh_range _ F1). pose proof (weigh_range _ F2).
  assert (0 < 2 ^ Z.of_nat n) by (apply Z.pow_pos_nonneg; lia). nia.
Qed.
End Field.

(** ** Theorems *)

(** The field of BN254 in which the circuits of the repository are written. *)
Definition r254 : Z := Z.of_N bn_fr.
(** A field is given by its prime and the number of bits of the prime. *)
Definition field_of (q : Z) (bits : nat) : Prop := prime q /\ 2 ^ (Z.of_nat bits - 1) <= q < 2 ^ Z.of_nat bits.
Lemma r254_field : field_of r254 254.
Proof. split; [exact bn_prime|]. vm_compute. split; discriminate || reflexivity. Qed.
Lemma prime_7 : prime 7.
Proof.
  apply prime_intro; [lia|]. intros n H. apply Zgcd_1_rel_prime.
  assert (n = 1 \/ n = 2 \/ n = 3 \/ n = 4 \/ n = 5 \/ n = 6) as D by lia.
  repeat (destruct D as [->|D]; [reflexivity|]). subst. reflexivity.
Qed.
Lemma f7 : field_of 7 3. Proof. split; [exact prime_7|cbn; lia]. Qed.

(** The range assertion is satisfied by exactly the values below the power of 2. *)
Theorem c84_range q m n v : field_of q m -> (n < m)%nat -> elem q v ->
  (accepted (assert_within_range q m n v) tt <-> v < 2 ^ Z.of_nat n).
Proof.
  intros [P Bd] N V. split.
  - intros [tape [rest H]]. exact (range_inv q P m n v tape tt rest V H).
  - intros R. exists (bits_of m v). exists []. rewrite <- (app_nil_r (bits_of m v)).
    exact (range_take q P m Bd n v [] V R N).
Qed.
Example ex_c84_range : field_of 7 3 /\ (2 < 3)%nat /\
  assert_within_range 7 3 2 3 [1; 1; 0] = Ok (tt, (true, [])) /\ assert_within_range 7 3 2 5 [1; 0; 1] = Ok (tt, (false, [])) /\
  assert_within_range 7 3 2 5 [5; 0; 0] = Ok (tt, (false, [])) /\ elem r254 (2 ^ 128) /\ field_of r254 254.
Proof.
  split; [exact f7|]. split; [lia|]. split; [reflexivity|]. split; [reflexivity|]. split; [reflexivity|].
  split; [split; [discriminate|reflexivity]|exact r254_field].
Qed.

(** Its synthesis panics exactly for a number of bits that is not smaller than that of the field. *)
Theorem c84_range_total q m n v :
  ((n < m)%nat -> total (assert_within_range q m n v)) /\ ((m <= n)%nat -> panics (assert_within_range q m n v)).
Proof.
  unfold assert_within_range. split; intros H.
  - apply Nat.ltb_lt in H. rewrite H. apply seq_total; [|intros; apply false_total].
    apply to_bits_total.
  - destruct (Nat.ltb_spec n m); [lia|]. intros tape. reflexivity.
Qed.
Example ex_c84_range_total : assert_within_range 7 3 3 5 [1; 0; 1] = Panic.
Proof. reflexivity. Qed.

(** An allocated unsigned integer is in its range, and every value in the range can be allocated. *)
Theorem c84_allocate q m n v : field_of q m -> (n < m)%nat ->
  (accepted (uint_allocate q m n) v <-> 0 <= v < 2 ^ Z.of_nat n).
Proof.
  intros [P Bd] N. split.
  - intros [tape [rest H]]. unfold uint_allocate, uint_new in H. step H. step H. apply ret_inv in H. destruct H as [-> _].
    apply (witness_inv q P) in E. split; [apply E|]. exact (range_inv q P m n a t _ _ E E0).
  - intros [R1 R2]. assert (V : elem q v).
    { split; [exact R1|]. eapply Z.lt_le_trans; [exact R2|]. etransitivity; [|apply Bd]. apply Z.pow_le_mono_r; lia. }
    exists (v :: bits_of m v), []. unfold uint_allocate, uint_new.
    eapply seq_intro; [apply witness_take; exact V|].
    eapply seq_intro; [|reflexivity]. pose proof (range_take q P m Bd n v [] V R2 N) as T.
    rewrite app_nil_r in T. exact T.
Qed.
Example ex_c84_allocate : uint_allocate 7 3 2 [3; 1; 1; 0] = Ok (3, (true, [])).
Proof. reflexivity. Qed.

(** A sum of two unsigned integers is satisfied by exactly the sum of the integers, if that is in
    the range; there is no reduction by the modulus. *)
Theorem c84_add q m n a b s : field_of q m -> (S n < m)%nat ->
  0 <= a < 2 ^ Z.of_nat n -> 0 <= b < 2 ^ Z.of_nat n ->
  (accepted (uint_add q m n a b) s <-> s = a + b /\ a + b < 2 ^ Z.of_nat n).
Proof.
  intros [P Bd] N Ra Rb.
  assert (T : 2 * 2 ^ Z.of_nat n <= q).
  { rewrite <- Z.pow_succ_r by lia. etransitivity; [|apply Bd]. apply Z.pow_le_mono_r; lia. }
  assert (S1 : (a + b) mod q = a + b) by (apply Z.mod_small; lia).
  assert (V : elem q (a + b)) by (split; lia).
  unfold uint_add, uint_new. rewrite S1. split.
  - intros [tape [rest H]]. step H. apply ret_inv in H. destruct H as [-> _]. split; [reflexivity|].
    exact (range_inv q P m n _ _ _ _ V E).
  - intros [-> R]. exists (bits_of m (a + b)), []. eapply seq_intro; [|reflexivity].
    pose proof (range_take q P m Bd n (a + b) [] V R ltac:(lia)) as X. rewrite app_nil_r in X. exact X.
Qed.
Example ex_c84_add : (129 < 254)%nat /\ uint_add 7 3 1 1 0 [1; 0; 0] = Ok (1, (true, [])) /\
  uint_add 7 3 1 1 1 [0; 1; 0] = Ok (2, (false, [])).
Proof. split; [lia|]. split; reflexivity. Qed.

(** So is the sum of any number of values, as in the circuit of a transfer. *)
Theorem c84_sum q m n v values s : field_of q m -> (S n < m)%nat ->
  Forall (fun x => 0 <= x < 2 ^ Z.of_nat n) (v :: values) ->
  (accepted (value_sum q m n (v :: values)) s <->
   s = fold_right Z.add 0 (v :: values) /\ fold_right Z.add 0 (v :: values) < 2 ^ Z.of_nat n).
Proof.
  intros Fd N. revert v s. cbn [value_sum]. induction values as [|x t IH]; intros v s F; cbn [sum_from].
  - inversion F as [|? ? R _]; subst. split.
    + intros [tape [rest H]]. apply ret_inv in H. destruct H as [-> _]. cbn [fold_right]. lia.
    + intros [-> R2]. exists [], []. cbn [fold_right]. rewrite Z.add_0_r. reflexivity.
  - inversion F as [|? ? Rv F2]; subst. inversion F2 as [|? ? Rx F3]; subst.
    assert (Pos : forall l, Forall (fun x => 0 <= x < 2 ^ Z.of_nat n) l -> 0 <= fold_right Z.add 0 l)
      by (induction 1; cbn [fold_right]; lia).
    specialize (Pos t F3). cbn [fold_right] in *. split.
    + intros [tape [rest H]]. step H.
      assert (A : accepted (uint_add q m n v x) a) by (exists tape, t0; exact E).
      apply c84_add in A; try assumption. destruct A as [-> A].
      assert (G : accepted (sum_from q m n (v + x) t) s) by (exists t0, rest; exact H).
      apply IH in G; [lia|]. constructor; [lia|exact F3].
    + intros [-> R].
      assert (G : accepted (sum_from q m n (v + x) t) (v + x + fold_right Z.add 0 t))
        by (apply IH; [constructor; [lia|exact F3]|lia]).
      destruct G as [tape2 [rest G]]. replace (v + (x + fold_right Z.add 0 t)) with (v + x + fold_right Z.add 0 t) by lia.
      destruct Fd as [P Bd].
      exists (bits_of m (v + x) ++ tape2), rest. eapply seq_intro; [|exact G].
      assert (T : 2 * 2 ^ Z.of_nat n <= q).
      { rewrite <- Z.pow_succ_r by lia. etransitivity; [|apply Bd]. apply Z.pow_le_mono_r; lia. }
      unfold uint_add, uint_new. rewrite (Z.mod_small (v + x)) by lia. eapply seq_intro; [|reflexivity].
      apply (range_take q P m Bd); [split; lia|lia|lia].
Qed.
Example ex_c84_sum : Forall (fun x => 0 <= x < 2 ^ Z.of_nat 128) [5; 2 ^ 127; 9] /\
  value_sum 7 3 1 [1; 0; 0] [1; 0; 0; 1; 0; 0] = Ok (1, (true, [])).
Proof. split; [repeat constructor; vm_compute; (discriminate || reflexivity)|reflexivity]. Qed.

(** The synthesis of a sum panics exactly for the empty list. *)
Theorem c84_sum_total q m n values : (n < m)%nat ->
  (values <> [] -> total (value_sum q m n values)) /\ (values = [] -> panics (value_sum q m n values)).
Proof.
  intros N. split; [|intros -> tape; reflexivity].
  destruct values as [|v t]; [contradiction|]. intros _. cbn [value_sum]. revert v.
  induction t as [|x t IH]; intros v; cbn [sum_from]; [intros tape; discriminate|].
  apply seq_total; [|intros; apply IH]. unfold uint_add, uint_new.
  apply seq_total; [apply c84_range_total; exact N|]. intros y tape. discriminate.
Qed.
Example ex_c84_sum_total : value_sum 7 3 1 [] [1; 0] = Panic /\ value_sum 7 3 1 [1; 1] [0; 1] <> Panic.
Proof. split; [reflexivity|discriminate]. Qed.

(** With one more bit, which the assertion permits, a sum of two integers is reduced by the modulus:
    for 253 bits in the field of BN254 the accepted sum is smaller than both summands. *)
Theorem c84_add_refuted : exists a b s, 0 <= a < 2 ^ 253 /\ 0 <= b < 2 ^ 253 /\
  accepted (uint_add r254 254 253 a b) s /\ s <> a + b /\ s < a /\ s < b.
Proof.
  exists (2 ^ 253 - 1), (2 ^ 253 - 1), (2 ^ 254 - 2 - r254).
  split; [split; [discriminate|reflexivity]|]. split; [split; [discriminate|reflexivity]|].
  split; [|split; [discriminate|split; reflexivity]].
  destruct r254_field as [P Bd].
  assert (V : elem r254 (2 ^ 254 - 2 - r254)) by (split; [discriminate|reflexivity]).
  exists (bits_of 254 (2 ^ 254 - 2 - r254)), []. unfold uint_add, uint_new.
  assert (M : (2 ^ 253 - 1 + (2 ^ 253 - 1)) mod r254 = 2 ^ 254 - 2 - r254) by (vm_compute; reflexivity).
  rewrite M. eapply seq_intro; [|reflexivity].
  pose proof (range_take r254 P 254 Bd 253 _ [] V ltac:(reflexivity) ltac:(apply Nat.ltb_lt; reflexivity)) as T.
  rewrite app_nil_r in T. exact T.
Qed.

(** A product of two integers is exact if twice the number of bits is less than that of the field ... *)
Theorem c84_mul q m n a b s : field_of q m -> (2 * n < m)%nat ->
  0 <= a < 2 ^ Z.of_nat n -> 0 <= b < 2 ^ Z.of_nat n ->
  (accepted (uint_mul q m n a b) s <-> s = a * b /\ a * b < 2 ^ Z.of_nat n).
Proof.
  intros [P Bd] N Ra Rb.
  assert (T : 2 ^ Z.of_nat n * 2 ^ Z.of_nat n <= q).
  { rewrite <- Z.pow_add_r by lia. etransitivity; [|apply Bd]. apply Z.pow_le_mono_r; lia. }
  assert (V : elem q (a * b)) by (split; nia).
  assert (S1 : (a * b) mod q = a * b) by (apply Z.mod_small; exact V).
  unfold uint_mul, uint_new. rewrite S1. split.
  - intros [tape [rest H]]. step H. apply ret_inv in H. destruct H as [-> _]. split; [reflexivity|].
    exact (range_inv q P m n _ _ _ _ V E).
  - intros [-> R]. exists (bits_of m (a * b)), []. eapply seq_intro; [|reflexivity].
    pose proof (range_take q P m Bd n (a * b) [] V R ltac:(lia)) as X. rewrite app_nil_r in X. exact X.
Qed.
Example ex_c84_mul : (2 * 64 < 254)%nat /\ uint_mul 7 3 1 1 1 [1; 0; 0] = Ok (1, (true, [])).
Proof. split; [lia|reflexivity]. Qed.

(** ... and for 128 bits in the field of BN254 it is not: the product of two integers whose product
    is larger than the modulus is accepted as an integer of 128 bits. *)
Theorem c84_mul_refuted : exists a b s, 0 <= a < 2 ^ 128 /\ 0 <= b < 2 ^ 128 /\
  accepted (uint_mul r254 254 128 a b) s /\ 2 ^ 128 <= a * b /\ s <> a * b.
Proof.
  set (x := 170141183460469231731687303715884105728). set (y := 128647529226366354083724114970452078779). set (s := 116702545228159703342182411007212650495).
  exists x, y, s.
  split; [unfold x; lia|]. split; [unfold y; lia|].
  split; [|split; [unfold x, y; lia|unfold x, y, s; lia]].
  destruct r254_field as [P Bd].
  assert (V : elem r254 s) by (split; [discriminate|vm_compute; reflexivity]).
  exists (bits_of 254 s), []. unfold uint_mul, uint_new.
  assert (M : (x * y) mod r254 = s) by (vm_compute; reflexivity).
  rewrite M. eapply seq_intro; [|reflexivity].
  pose proof (range_take r254 P 254 Bd 128 s [] V ltac:(vm_compute; reflexivity) ltac:(apply Nat.ltb_lt; reflexivity)) as T.
  rewrite app_nil_r in T. exact T.
Qed.

(** The name of a type gives its number of bits, except for one. *)
Theorem c84_names x b : In (x, b) uint_types -> x <> 110 -> b = x.
Proof.
  assert (G : forallb (fun p => (fst p =? 110) || (snd p =? fst p)) uint_types = true) by reflexivity.
  rewrite forallb_forall in G. intros H N. specialize (G _ H). cbn [fst snd] in G.
  apply orb_true_iff in G. rewrite !Z.eqb_eq in G. destruct G; [contradiction|assumption].
Qed.
Example ex_c84_names : In (128, 128) uint_types.
Proof. unfold uint_types. cbn. tauto. Qed.
Theorem c84_names_refuted : exists x b, In (x, b) uint_types /\ b <> x.
Proof. exists 110, 100. split; [unfold uint_types; cbn; tauto|discriminate]. Qed.

(** Selection and swap: for a bit there is one accepted result. *)
Theorem c84_select q m bit t f r : field_of q m -> bit = 0 \/ bit = 1 -> elem q t -> elem q f ->
  (accepted (select_var q bit t f) r <-> r = if bit =? 1 then t else f).
Proof.
  intros [P Bd] Hb Vt Vf. set (e := if bit =? 1 then t else f).
  assert (E1 : e = bit * (t - f) + f) by (unfold e; destruct Hb as [-> | ->]; cbn [Z.eqb Pos.eqb]; lia).
  assert (Ve : elem q e) by (unfold e; destruct (bit =? 1); assumption).
  split.
  - intros [tape [rest H]]. unfold select_var in H. step H. step H. apply ret_inv in H. destruct H as [-> _].
    apply (witness_inv q P) in E. apply enforce_inv in E0. destruct E0 as [E0 _]. apply Z.eqb_eq in E0.
    symmetry. apply (eq_elem q P); [exact Ve|exact E|]. rewrite E1. rewrite <- E0. f_equal. lia.
  - intros ->. exists [e], []. unfold select_var. eapply seq_intro; [apply witness_take; exact Ve|].
    eapply seq_intro; [|reflexivity]. unfold enforce_equal, enforce.
    replace (bit * (t - f) - (e - f)) with 0 by lia. rewrite Z.mod_0_l by (pose proof (q_pos q P); lia). reflexivity.
Qed.
Example ex_c84_select : select_var 7 1 5 2 [5] = Ok (5, (true, [])) /\ select_var 7 0 5 2 [5] = Ok (5, (false, [])) /\
  elem 7 5 /\ elem 7 2.
Proof. repeat split; discriminate || reflexivity || lia. Qed.
Theorem c84_swap q m bit l r a b : field_of q m -> bit = 0 \/ bit = 1 -> elem q l -> elem q r ->
  (accepted (swap_var q bit l r) (a, b) <-> (a, b) = if bit =? 1 then (r, l) else (l, r)).
Proof.
  intros Fd Hb Vl Vr. split.
  - intros [tape [rest H]]. unfold swap_var in H. step H. step H. apply ret_inv in H. destruct H as [H _].
    assert (X1 : accepted (select_var q bit r l) a0) by (exists tape, t; exact E).
    assert (X2 : accepted (select_var q bit l r) a1) by (exists t, t0; exact E0).
    apply (c84_select q m) in X1, X2; try assumption. rewrite H, X1, X2. destruct (bit =? 1); reflexivity.
  - intros E. set (x := if bit =? 1 then r else l). set (y := if bit =? 1 then l else r).
    assert (X : (a, b) = (x, y)) by (rewrite E; unfold x, y; destruct (bit =? 1); reflexivity). rewrite X.
    assert (X1 : accepts (select_var q bit r l) [x; y] x /\ select_var q bit r l [x; y] = Ok (x, (true, [y])) /\
                 select_var q bit l r [y] = Ok (y, (true, []))).
    { destruct Fd as [P Bd].
      assert (S : forall t f e tl, elem q t -> elem q f -> e = (if bit =? 1 then t else f) ->
        select_var q bit t f (e :: tl) = Ok (e, (true, tl))).
      { intros t f e tl Vt Vf Ee. assert (Ve : elem q e) by (rewrite Ee; destruct (bit =? 1); assumption).
        unfold select_var. eapply seq_intro; [apply witness_take; exact Ve|].
        eapply seq_intro; [|reflexivity]. unfold enforce_equal, enforce.
        replace (bit * (t - f) - (e - f)) with 0 by (rewrite Ee; destruct Hb as [-> | ->]; cbn [Z.eqb Pos.eqb]; lia).
        rewrite Z.mod_0_l by (pose proof (q_pos q P); lia). reflexivity. }
      split; [exists [y]; apply S; assumption || reflexivity|]. split; apply S; assumption || reflexivity. }
    destruct X1 as [_ [X1 X2]]. exists [x; y], []. unfold swap_var.
    eapply seq_intro; [exact X1|]. eapply seq_intro; [exact X2|reflexivity].
Qed.
Example ex_c84_swap : swap_var 7 1 5 2 [2; 5] = Ok ((2, 5), (true, [])) /\ swap_var 7 0 5 2 [5; 2] = Ok ((5, 2), (true, [])).
Proof. split; reflexivity. Qed.

(** The comparison of two moduli, in integers of different sizes. *)
Theorem c84_smaller la a lb b : 0 < a < 2 ^ (64 * la) -> 0 < b < 2 ^ (64 * lb) ->
  (modulus_is_smaller la a lb b = true <-> a < b).
Proof.
  intros A Bb. unfold modulus_is_smaller, num_bits, convert_bits.
  destruct (Z.eqb_spec a 0); [lia|]. destruct (Z.eqb_spec b 0); [lia|].
  destruct (Z.leb_spec (Z.log2 a + 1) (Z.log2 b + 1)) as [C|C].
  - assert (X : a < 2 ^ (64 * lb)).
    { destruct (Z.lt_ge_cases (64 * lb) 0) as [Ng|Ng]; [rewrite (Z.pow_neg_r 2 (64 * lb)) in Bb by exact Ng; lia|].
      apply Z.log2_lt_pow2; [lia|]. assert (Z.log2 b < 64 * lb) by (apply Z.log2_lt_pow2; lia). lia. }
    rewrite Z.mod_small by lia. apply Z.ltb_lt.
  - assert (Y : b < a).
    { destruct (Z.lt_ge_cases b a) as [|W]; [assumption|]. apply Z.log2_le_mono in W. lia. }
    rewrite Z.mod_small by lia. apply Z.ltb_lt.
Qed.
Example ex_c84_smaller : modulus_is_smaller 4 r254 6 (2 ^ 380 + 7) = true /\ modulus_is_smaller 6 (2 ^ 380 + 7) 4 r254 = false.
Proof. split; vm_compute; reflexivity. Qed.

(** A scalar of a smaller field is lifted to the variable of the same value. *)
Theorem c84_lift ll l lq q v : 0 < l < 2 ^ (64 * ll) -> 0 < q < 2 ^ (64 * lq) -> elem l v ->
  lift_embedded_scalar q ll l lq v = if l <? q then Ok v else Panic.
Proof.
  intros L Hq V. unfold lift_embedded_scalar. pose proof (c84_smaller ll l lq q L Hq) as S.
  destruct (modulus_is_smaller ll l lq q), (Z.ltb_spec l q) as [X|X].
  - rewrite Z.mod_small; [reflexivity|]. destruct V. split; lia.
  - exfalso. assert (l < q) by (apply S; reflexivity). lia.
  - exfalso. assert (false = true) by (apply S; exact X). discriminate.
  - reflexivity.
Qed.
Example ex_c84_lift : lift_embedded_scalar 7 1 5 1 4 = Ok 4 /\ lift_embedded_scalar 7 1 11 1 4 = Panic.
Proof. split; vm_compute; reflexivity. Qed.

(** The native division. *)
Theorem c84_native q l v : 0 < l -> elem q v ->
  v = fst (div_rem_mod_prime q l v) * l + snd (div_rem_mod_prime q l v) /\
  0 <= snd (div_rem_mod_prime q l v) < l /\ rem_mod_prime q l v = snd (div_rem_mod_prime q l v).
Proof.
  intros L [V1 V2]. unfold rem_mod_prime, div_rem_mod_prime. cbn [fst snd].
  assert (0 <= v / l <= v) by (split; [apply Z.div_pos; lia|apply Z.div_le_upper_bound; nia]).
  rewrite (Z.mod_small (v / l)) by lia. pose proof (Z.div_mod v l). pose proof (Z.mod_pos_bound v l L).
  split; [lia|]. split; [lia|reflexivity].
Qed.
Example ex_c84_native : div_rem_mod_prime 101 7 100 = (14, 2).
Proof. reflexivity. Qed.

(** The remainder in a circuit: with the witnesses that the code computes the constraints hold and the
    result is the remainder, if the modulus is at most (q - 1) / 2. *)
Theorem c84_rem_complete q m ll l lq v : field_of q m -> 0 < l < 2 ^ (64 * ll) -> q < 2 ^ (64 * lq) ->
  l <= (q - 1) / 2 -> elem q v ->
  accepts (rem_var q ll l lq v) (honest_rem q l v) (v mod l).
Proof.
  intros [P Bd] L Lq H V. pose proof (q_pos q P). exists []. unfold rem_var.
  assert (Hl : l < q) by (pose proof (Z.div_le_upper_bound (q - 1) 2 (q - 1)); lia).
  assert (S : modulus_is_smaller ll l lq q = true) by (apply c84_smaller; lia). rewrite S.
  destruct (c84_native q l v ltac:(lia) V) as [N1 [N2 _]]. unfold honest_rem.
  destruct (div_rem_mod_prime q l v) as [k r] eqn:D. cbn [fst snd] in *.
  assert (K : elem q k) by (unfold div_rem_mod_prime in D; injection D as <- _; apply mod_elem; exact P).
  assert (R : r = v mod l) by (unfold div_rem_mod_prime in D; injection D as _ <-; reflexivity).
  assert (Er : elem q r) by (split; lia). rewrite (Z.mod_small r) by exact Er.
  eapply seq_intro; [apply witness_take; exact K|]. eapply seq_intro; [apply witness_take; exact Er|].
  eapply seq_intro.
  { unfold enforce_equal, enforce. replace (v - (k * l + r)) with 0 by lia. rewrite Z.mod_0_l by lia. reflexivity. }
  eapply seq_intro.
  { unfold enforce_less. eapply seq_intro; [unfold enforce; rewrite (proj2 (Z.leb_le r ((q - 1) / 2))) by lia; reflexivity|].
    eapply seq_intro; [unfold enforce; rewrite (proj2 (Z.leb_le l ((q - 1) / 2))) by lia; reflexivity|].
    unfold enforce. rewrite (proj2 (Z.ltb_lt r l)) by lia. reflexivity. }
  rewrite R. reflexivity.
Qed.
Example ex_c84_rem_complete : field_of 7 3 /\ 3 <= (7 - 1) / 2 /\ rem_var 7 1 3 1 5 (honest_rem 7 3 5) = Ok (2, (true, [])).
Proof. split; [exact f7|]. split; [cbn; lia|vm_compute; reflexivity]. Qed.

(** Every accepted result is in the range of remainders ... *)
Theorem c84_rem_range q m ll l lq v r : field_of q m -> accepted (rem_var q ll l lq v) r -> 0 <= r < l.
Proof.
  intros [P Bd] [tape [rest H]]. unfold rem_var in H. destruct (modulus_is_smaller ll l lq q); [|discriminate].
  step H. step H. step H. step H. apply ret_inv in H. destruct H as [-> _].
  apply (witness_inv q P) in E0. split; [apply E0|]. unfold enforce_less in E2. step E2. step E2.
  apply enforce_inv in E2. destruct E2 as [E2 _]. apply Z.ltb_lt in E2. exact E2.
Qed.
(** ... but every number of that range is accepted, whatever the value is: the quotient may be any
    element of the field. *)
Theorem c84_rem_any q m ll l lq v r : field_of q m -> 0 < l < 2 ^ (64 * ll) -> q < 2 ^ (64 * lq) ->
  l <= (q - 1) / 2 -> elem q v -> 0 <= r < l -> accepted (rem_var q ll l lq v) r.
Proof.
  intros [P Bd] L Lq H V R. pose proof (q_pos q P).
  assert (Hl : l < q) by (pose proof (Z.div_le_upper_bound (q - 1) 2 (q - 1)); lia).
  assert (S : modulus_is_smaller ll l lq q = true) by (apply c84_smaller; lia).
  assert (G : rel_prime l q) by (apply rel_prime_sym, prime_rel_prime; [exact P|]; intros D; apply Z.divide_pos_le in D; lia).
  apply rel_prime_bezout in G. destruct G as [x y G].
  set (k := ((v - r) * x) mod q). exists [k; r], []. unfold rem_var. rewrite S.
  assert (K : elem q k) by (apply mod_elem; exact P). assert (Er : elem q r) by (split; lia).
  eapply seq_intro; [apply witness_take; exact K|]. eapply seq_intro; [apply witness_take; exact Er|].
  eapply seq_intro.
  { unfold enforce_equal, enforce.
    assert (Z0 : (v - (k * l + r)) mod q = 0).
    { apply Z.mod_divide; [lia|]. exists ((v - r) * y + l * (((v - r) * x) / q)).
      unfold k. rewrite (Z.mod_eq ((v - r) * x) q) by lia. set (d := ((v - r) * x) / q).
      transitivity ((v - r) * (x * l + y * q) - (v - r) * x * l + q * d * l); [rewrite G; ring|ring]. }
    rewrite Z0. reflexivity. }
  eapply seq_intro.
  { unfold enforce_less. eapply seq_intro; [unfold enforce; rewrite (proj2 (Z.leb_le r ((q - 1) / 2))) by lia; reflexivity|].
    eapply seq_intro; [unfold enforce; rewrite (proj2 (Z.leb_le l ((q - 1) / 2))) by lia; reflexivity|].
    unfold enforce. rewrite (proj2 (Z.ltb_lt r l)) by lia. reflexivity. }
  reflexivity.
Qed.
Example ex_c84_rem_any : accepted (rem_var 7 1 3 1 5) 2 /\ accepted (rem_var 7 1 3 1 5) 1 /\ accepted (rem_var 7 1 3 1 5) 0.
Proof.
  split; [|split]; apply (c84_rem_any 7 3); try exact f7; try lia; try (cbn; lia); split; lia.
Qed.

(** For the curve embedded in BN254: the remainder of 5 by the order of its group can be claimed to
    be 4. *)
Theorem c84_rem_refuted : exists l v r, l < r254 /\ elem r254 v /\ accepted (rem_var r254 4 l 4 v) r /\ r <> v mod l.
Proof.
  exists 2736030358979909402780800718157159386076813972158567259200215660948447373041, 5, 4.
  split; [reflexivity|]. split; [split; [discriminate|reflexivity]|]. split; [|discriminate].
  apply (c84_rem_any r254 254 _ _ _ _ _ r254_field).
  - split; reflexivity.
  - reflexivity.
  - vm_compute. discriminate.
  - split; [discriminate|reflexivity].
  - split; [discriminate|reflexivity].
Qed.

(** For a modulus between (q - 1) / 2 and q, which the assertion permits, no proof exists at all. *)
Theorem c84_rem_large q ll l lq v r : (q - 1) / 2 < l -> ~ accepted (rem_var q ll l lq v) r.
Proof.
  intros H [tape [rest X]]. unfold rem_var in X. destruct (modulus_is_smaller ll l lq q); [|discriminate].
  step X. step X. step X. step X. unfold enforce_less in E2. step E2. step E2. apply enforce_inv in E4.
  destruct E4 as [E4 _]. apply Z.leb_le in E4. lia.
Qed.
Example ex_c84_rem_large : modulus_is_smaller 4 r254 4 bnq = true /\ (bnq - 1) / 2 < r254.
Proof. split; vm_compute; reflexivity. Qed.

Print Assumptions c84_range.
Print Assumptions c84_range_total.
Print Assumptions c84_allocate.
Print Assumptions c84_add.
Print Assumptions c84_sum.
Print Assumptions c84_sum_total.
Print Assumptions c84_add_refuted.
Print Assumptions c84_mul.
Print Assumptions c84_mul_refuted.
Print Assumptions c84_names.
Print Assumptions c84_names_refuted.
Print Assumptions c84_select.
Print Assumptions c84_swap.
Print Assumptions c84_smaller.
Print Assumptions c84_lift.
Print Assumptions c84_native.
Print Assumptions c84_rem_complete.
Print Assumptions c84_rem_range.
Print Assumptions c84_rem_any.
Print Assumptions c84_rem_refuted.
Print Assumptions c84_rem_large.
