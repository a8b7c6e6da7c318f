(** * Sampling for the powers of tau, and fuzzing: properties (C88) *)
From Coq Require Import ZArith Znumtheory Zpow_facts Lia Bool Arith List.
From Verif Require Import FzModel.
Import ListNotations.
Local Open Scope Z_scope.

(** ** Specification *)
Definition word (w : Z) : Prop := 0 <= w < 2 ^ 32.
(** The number of a block of eight words: pairs from the lowest to the highest, in each pair the higher word first. *)
Fixpoint block_number (ws : list Z) : Z :=
  match ws with
  | a :: b :: t => a * 2 ^ 32 + b + 2 ^ 64 * block_number t
  | _ => 0
  end.
Definition limb (v : Z) : Prop := 0 <= v < 2 ^ 64.
Definition limbs (l : Z * Z * Z * Z) : Prop := let '(a, b, c, d) := l in limb a /\ limb b /\ limb c /\ limb d.

(** [v] is the number of the first block of eight words whose low [width] bits are below the modulus. *)
Definition drawn (modulus width : Z) (ws : list Z) (v : Z) (rest : list Z) : Prop :=
  exists refused block, ws = concat refused ++ block ++ rest /\
    Forall (fun b => length b = 8%nat /\ modulus <= block_number b mod 2 ^ width) refused /\
    length block = 8%nat /\ v = block_number block mod 2 ^ width /\ 0 <= v < modulus.
(** A point of the first draw (two elements and the lowest bit of one word) that gives a point which is not zero. *)
Section Points.
Variables modulus width : Z.
Context {P : Type} (from_x : Z * Z -> bool -> option P) (cofactor : P -> P) (zero : P -> bool).
Inductive drawn_point : list Z -> P -> list Z -> Prop :=
| dp_taken ws a w1 b w rest r : drawn modulus width ws a w1 -> drawn modulus width w1 b (w :: rest) ->
    from_x (a, b) (Z.odd w) = Some r -> zero (cofactor r) = false -> drawn_point ws (cofactor r) rest
| dp_refused ws a w1 b w rest p last : drawn modulus width ws a w1 -> drawn modulus width w1 b (w :: rest) ->
    (forall r, from_x (a, b) (Z.odd w) = Some r -> zero (cofactor r) = true) ->
    drawn_point rest p last -> drawn_point ws p last.
End Points.

(** ** The seed *)
Theorem c88_seed digest :
  ((32 <= length digest)%nat -> exists seed, seed_of digest = Some seed /\ length seed = 32%nat /\
     forall i, (i < 32)%nat -> nth i seed 0 = nth (4 * (i / 4) + (3 - i mod 4)) digest 0) /\
  ((length digest < 32)%nat -> seed_of digest = None).
Proof.
  split; intros L; unfold seed_of.
  - rewrite (proj2 (Nat.ltb_ge _ _) L). eexists. split; [reflexivity|].
    do 32 (destruct digest as [|? digest]; [cbn in L; lia|]). split; [reflexivity|].
    intros i B. do 32 (destruct i as [|i]; [reflexivity|]). lia.
  - now rewrite (proj2 (Nat.ltb_lt _ _) L).
Qed.
(** What follows the first 32 bytes is ignored. *)
Theorem c88_seed_same d e : (32 <= length d)%nat -> (32 <= length e)%nat -> (seed_of d = seed_of e <-> firstn 32 d = firstn 32 e).
Proof.
  intros L M. unfold seed_of. rewrite (proj2 (Nat.ltb_ge _ _) L), (proj2 (Nat.ltb_ge _ _) M).
  do 32 (destruct d as [|? d]; [cbn in L; lia|]). do 32 (destruct e as [|? e]; [cbn in M; lia|]).
  cbn [firstn seed_words skipn rev app]. clear L M. split; intros E; injection E; intros; subst; reflexivity.
Qed.
Example ex_c88_seed : seed_of (map Z.of_nat (seq 0 64)) =
  Some [3; 2; 1; 0; 7; 6; 5; 4; 11; 10; 9; 8; 15; 14; 13; 12; 19; 18; 17; 16; 23; 22; 21; 20; 27; 26; 25; 24; 31; 30; 29; 28] /\
  seed_of (map Z.of_nat (seq 0 31)) = None.
Proof. split; reflexivity. Qed.
Example ex_c88_seed_same : firstn 32 (map Z.of_nat (seq 0 64)) = firstn 32 (map Z.of_nat (seq 0 40)) /\
  seed_of (map Z.of_nat (seq 0 64)) = seed_of (map Z.of_nat (seq 0 40)).
Proof. split; reflexivity. Qed.

(** ** Field elements *)
Lemma low_high n b : 0 <= n -> 0 <= b < 2 ^ n -> forall k, n <= k -> Z.testbit b k = false.
Proof. intros N B k K. rewrite <- (Z.mod_small b (2 ^ n)) by auto. apply Z.mod_pow2_bits_high. lia. Qed.
Lemma lor_shift a b : 0 <= b < 2 ^ 32 -> Z.lor (Z.shiftl a 32) b = a * 2 ^ 32 + b.
Proof.
  intros B. assert (L : Z.land (Z.shiftl a 32) b = 0).
  { apply Z.bits_inj'. intros k K. rewrite Z.land_spec, Z.bits_0, Z.shiftl_spec by auto.
    destruct (Z.lt_ge_cases k 32).
    - now rewrite Z.testbit_neg_r by lia.
    - rewrite (low_high 32 b) by (auto; lia). apply andb_false_r. }
  rewrite <- Z.lxor_lor, <- Z.add_nocarry_lxor by exact L. now rewrite Z.shiftl_mul_pow2 by lia.
Qed.
Lemma sample_u64_spec ws v rest : Forall word ws -> sample_u64 ws = Some (v, rest) ->
  exists a b, ws = a :: b :: rest /\ v = a * 2 ^ 32 + b /\ limb v /\ Forall word rest.
Proof.
  intros F E. destruct ws as [|a [|b ws]]; cbn [sample_u64] in E; try discriminate.
  inversion F as [|? ? A F']; subst. inversion F' as [|? ? B F'']; subst.
  apply (f_equal (fun o => match o with Some p => p | None => (0, []) end)) in E.
  pose proof (f_equal fst E) as E1. pose proof (f_equal snd E) as E2. cbn [fst snd] in E1, E2. subst rest.
  rewrite lor_shift in E1 by exact B. subst v. exists a, b. unfold word, limb in *. repeat split; auto; lia.
Qed.
Lemma sample_limbs_spec ws l rest : Forall word ws -> sample_limbs ws = Some (l, rest) ->
  exists block, ws = block ++ rest /\ length block = 8%nat /\ big l = block_number block /\ limbs l /\ Forall word rest.
Proof.
  intros F E. unfold sample_limbs in E.
  destruct (sample_u64 ws) as [[a w1]|] eqn:E1; [|discriminate]. destruct (sample_u64_spec _ _ _ F E1) as (a1 & a2 & -> & A & LA & F1).
  destruct (sample_u64 w1) as [[b w2]|] eqn:E2; [|discriminate]. destruct (sample_u64_spec _ _ _ F1 E2) as (b1 & b2 & -> & B & LB & F2).
  destruct (sample_u64 w2) as [[c w3]|] eqn:E3; [|discriminate]. destruct (sample_u64_spec _ _ _ F2 E3) as (c1 & c2 & -> & C & LC & F3).
  destruct (sample_u64 w3) as [[d w4]|] eqn:E4; [|discriminate]. destruct (sample_u64_spec _ _ _ F3 E4) as (d1 & d2 & -> & D & LD & F4).
  injection E as <- <-. exists [a1; a2; b1; b2; c1; c2; d1; d2]. split; [reflexivity|]. split; [reflexivity|].
  split; [unfold big; cbn [block_number]; subst; ring|]. split; [unfold limbs; auto|exact F4].
Qed.

Section Field.
Variables modulus shave : Z.
Hypothesis S0 : 0 <= shave <= 64.

Lemma mask d : Z.land d (Z.shiftr (2 ^ 64 - 1) shave) = d mod 2 ^ (64 - shave).
Proof.
  replace (Z.shiftr (2 ^ 64 - 1) shave) with (Z.ones (64 - shave)); [apply Z.land_ones; lia|].
  rewrite Z.ones_equiv, Z.shiftr_div_pow2 by lia. apply Z.div_unique with (2 ^ shave - 1).
  - left. pose proof (Z.pow_pos_nonneg 2 shave). lia.
  - replace (2 ^ 64) with (2 ^ shave * 2 ^ (64 - shave)) by (rewrite <- Z.pow_add_r by lia; f_equal; lia). lia.
Qed.
Lemma candidate_spec l : limbs l -> candidate modulus shave l =
  let v := big l mod 2 ^ (256 - shave) in if v <? modulus then Some v else None.
Proof.
  destruct l as [[[a b] c] d]. intros (A & B & C & D). unfold candidate. rewrite mask.
  replace (big (a, b, c, d mod 2 ^ (64 - shave))) with (big (a, b, c, d) mod 2 ^ (256 - shave)); [reflexivity|].
  pose proof (Z.div_mod d (2 ^ (64 - shave))) as E. pose proof (Z.pow_pos_nonneg 2 (64 - shave) ltac:(lia) ltac:(lia)) as Pp.
  pose proof (Z.mod_pos_bound d (2 ^ (64 - shave)) Pp) as M. specialize (E ltac:(lia)).
  symmetry. apply Z.mod_unique with (d / 2 ^ (64 - shave)).
  - left. replace (2 ^ (256 - shave)) with (2 ^ 192 * 2 ^ (64 - shave)) by (rewrite <- Z.pow_add_r by lia; f_equal; lia).
    unfold big, limb in *. set (r := d mod 2 ^ (64 - shave)) in *. set (W := 2 ^ (64 - shave)) in *.
    change (2 ^ 192) with (2 ^ 64 * 2 ^ 64 * 2 ^ 64). set (q := 2 ^ 64) in *. assert (0 < q) by (unfold q; lia).
    clearbody q r W. assert (G : forall e u V, 0 <= e < q -> 0 <= u < V -> 0 <= e + q * u < q * V).
    { intros e u V He Hu. assert (q * u <= q * (V - 1)) by (apply Z.mul_le_mono_nonneg_l; lia).
      assert (0 <= q * u) by (apply Z.mul_nonneg_nonneg; lia). lia. }
    replace (q * q * q * W) with (q * (q * (q * W))) by ring. apply G; [tauto|]. apply G; [tauto|]. apply G; tauto.
  - replace (2 ^ (256 - shave)) with (2 ^ 192 * 2 ^ (64 - shave)) by (rewrite <- Z.pow_add_r by lia; f_equal; lia).
    unfold big. rewrite E at 1. change (2 ^ 192) with (2 ^ 64 * 2 ^ 64 * 2 ^ 64). ring.
Qed.

(** The element is the first of the blocks of eight words whose low bits are below the modulus. *)
Theorem c88_field turns ws v rest : Forall word ws -> sample_fq modulus shave turns ws = Some (v, rest) ->
  drawn modulus (256 - shave) ws v rest.
Proof.
  revert ws. induction turns as [|turns IH]; intros ws F E; cbn [sample_fq] in E; [discriminate|].
  destruct (sample_limbs ws) as [[l ws']|] eqn:L; [|discriminate].
  destruct (sample_limbs_spec _ _ _ F L) as (block & -> & Lb & Bl & Li & Fr). rewrite candidate_spec in E by exact Li.
  cbv zeta in E. rewrite Bl in E.
  pose proof (Z.mod_pos_bound (block_number block) (2 ^ (256 - shave)) ltac:(apply Z.pow_pos_nonneg; lia)) as M.
  destruct (Z.ltb_spec (block_number block mod 2 ^ (256 - shave)) modulus) as [H|H].
  - assert (Ev : v = block_number block mod 2 ^ (256 - shave) /\ rest = ws') by (inversion E; auto). clear E. destruct Ev as [Ev ->].
    exists [], block. split; [reflexivity|]. split; [constructor|]. split; [exact Lb|]. split; [exact Ev|lia].
  - destruct (IH ws' Fr E) as (refused & b & -> & R & X). exists (block :: refused), b.
    split; [cbn [concat]; now rewrite <- app_assoc|]. split; [constructor; auto|exact X].
Qed.

(** And it is found, after as many turns as blocks are refused. *)
Theorem c88_field_found ws v rest : Forall word ws -> drawn modulus (256 - shave) ws v rest ->
  exists enough, forall turns, (enough <= turns)%nat -> sample_fq modulus shave turns ws = Some (v, rest).
Proof.
  intros F (refused & block & E & R & Lb & Ev & B). subst ws.
  assert (Step : forall b t, length b = 8%nat -> exists l, sample_limbs (b ++ t) = Some (l, t)).
  { intros b t L. do 8 (destruct b as [|? b]; [discriminate|]). destruct b; [|discriminate]. eexists. reflexivity. }
  assert (Val : forall b t l, Forall word (b ++ t) -> length b = 8%nat -> sample_limbs (b ++ t) = Some (l, t) ->
    limbs l /\ big l = block_number b /\ Forall word t).
  { intros b t l Fb L S. destruct (sample_limbs_spec _ _ _ Fb S) as (b' & Eb & L' & Bb & Lim & Ft).
    apply app_inv_tail in Eb. subst b'. auto. }
  exists (S (length refused)). revert F. induction R as [|b refused [L H] R IH]; intros F turns T;
    (destruct turns as [|turns]; [cbn in T; lia|]); cbn [sample_fq concat app].
  - cbn [concat app] in F. destruct (Step block rest Lb) as [l S]. destruct (Val _ _ _ F Lb S) as (Li & Bl & _). rewrite S.
    rewrite candidate_spec by exact Li. cbv zeta. rewrite Bl, <- Ev. now rewrite (proj2 (Z.ltb_lt _ _)) by lia.
  - cbn [concat] in F. rewrite <- app_assoc in *. destruct (Step b (concat refused ++ block ++ rest) L) as [l S].
    destruct (Val _ _ _ F L S) as (Li & Bl & Fr). rewrite S. rewrite candidate_spec by exact Li. cbv zeta. rewrite Bl.
    rewrite (proj2 (Z.ltb_ge _ _)) by exact H. apply IH; [exact Fr|]. cbn [length] in T. lia.
Qed.

(** Each element has the same number of values of the limbs for which it is taken. *)
Theorem c88_uniform l x : limbs l -> modulus <= 2 ^ (256 - shave) -> 0 <= x < modulus ->
  (candidate modulus shave l = Some x <-> exists k, 0 <= k < 2 ^ shave /\ big l = x + k * 2 ^ (256 - shave)).
Proof.
  intros L Mo X. rewrite candidate_spec by exact L. cbv zeta.
  assert (Pp : 0 < 2 ^ (256 - shave)) by (apply Z.pow_pos_nonneg; lia).
  assert (B : 0 <= big l < 2 ^ 256).
  { destruct l as [[[a b] c] d]. unfold limbs, limb, big in *. change (2 ^ 256) with (2 ^ 64 * 2 ^ 64 * 2 ^ 64 * 2 ^ 64). lia. }
  assert (T : 2 ^ 256 = 2 ^ shave * 2 ^ (256 - shave)) by (rewrite <- Z.pow_add_r by lia; f_equal; lia).
  split.
  - destruct (Z.ltb_spec (big l mod 2 ^ (256 - shave)) modulus); [|discriminate]. intros E. assert (E' : big l mod 2 ^ (256 - shave) = x) by (now inversion E). clear E.
    exists (big l / 2 ^ (256 - shave)). split.
    + split; [apply Z.div_pos; lia|]. apply Z.div_lt_upper_bound; [exact Pp|]. rewrite Z.mul_comm, <- T. apply B.
    + pose proof (Z.div_mod (big l) (2 ^ (256 - shave)) ltac:(lia)). lia.
  - intros (k & K & ->). rewrite Z.mod_add, Z.mod_small by lia. now rewrite (proj2 (Z.ltb_lt _ _)) by lia.
Qed.

Lemma drawn_word ws v rest : Forall word ws -> drawn modulus (256 - shave) ws v rest -> Forall word rest.
Proof. intros F (r & b & -> & _). apply Forall_app in F. destruct F as [_ F]. now apply Forall_app in F. Qed.
Lemma low_bit w : (Z.land (w mod 2 ^ 8) 1 =? 1) = Z.odd w.
Proof.
  change 1 with (Z.ones 1) at 1. rewrite Z.land_ones by lia. change (2 ^ 8) with (2 ^ 1 * 128).
  replace ((w mod (2 ^ 1 * 128)) mod 2 ^ 1) with (w mod 2).
  - rewrite Zmod_odd. now destruct (Z.odd w).
  - rewrite Z.rem_mul_r by lia. change (2 ^ 1) with 2. rewrite (Z.mul_comm 2), Z.mod_add, Z.mod_mod by lia. reflexivity.
Qed.

(** The point is that of the first good draw. *)
Theorem c88_point {P} (from_x : Z * Z -> bool -> option P) cofactor zero turns ws p rest : Forall word ws ->
  sample_point modulus shave from_x cofactor zero turns ws = Some (p, rest) ->
  drawn_point modulus (256 - shave) from_x cofactor zero ws p rest.
Proof.
  revert ws. induction turns as [|turns IH]; intros ws F E; cbn [sample_point] in E; [discriminate|].
  unfold sample_fq2 in E. destruct (sample_fq modulus shave (S turns) ws) as [[a w1]|] eqn:E1; [|discriminate].
  pose proof (c88_field _ _ _ _ F E1) as D1. pose proof (drawn_word _ _ _ F D1) as F1.
  destruct (sample_fq modulus shave (S turns) w1) as [[b w2]|] eqn:E2; [|discriminate].
  pose proof (c88_field _ _ _ _ F1 E2) as D2. pose proof (drawn_word _ _ _ F1 D2) as F2.
  destruct w2 as [|w w2]; [discriminate|]. cbn [sample_bool] in E. rewrite low_bit in E. inversion F2; subst.
  destruct (from_x (a, b) (Z.odd w)) as [r|] eqn:R.
  - destruct (zero (cofactor r)) eqn:Z0.
    + apply (dp_refused _ _ _ _ _ ws a w1 b w w2); auto. intros q Q. rewrite R in Q. now injection Q as <-.
    + injection E as <- <-. now apply (dp_taken _ _ _ _ _ ws a w1 b w w2 r).
  - apply (dp_refused _ _ _ _ _ ws a w1 b w w2); auto. intros q Q. rewrite R in Q. discriminate.
Qed.
(** In particular it is not zero and a multiple by the cofactor. *)
Corollary c88_point_good {P} (from_x : Z * Z -> bool -> option P) cofactor zero turns ws p rest : Forall word ws ->
  sample_point modulus shave from_x cofactor zero turns ws = Some (p, rest) ->
  zero p = false /\ exists a b g r, from_x (a, b) g = Some r /\ p = cofactor r /\ 0 <= a < modulus /\ 0 <= b < modulus.
Proof.
  intros F E. apply c88_point in E; [|exact F]. clear F.
  induction E as [ws a w1 b w rest r D1 D2 R Z0|]; [|assumption]. split; [exact Z0|].
  destruct D1 as (? & ? & _ & _ & _ & _ & A), D2 as (? & ? & _ & _ & _ & _ & B). exists a, b, (Z.odd w), r. auto.
Qed.
End Field.

Definition bn_fq : Z := 21888242871839275222246405745257275088696311157297823662689037894645226208583.
Definition bn_fr : Z := 21888242871839275222246405745257275088548364400416034343698204186575808495617.
(** A block that is refused, since its low 254 bits are all set, and one whose highest bits are masked. *)
Definition words16 : list Z := repeat (2 ^ 32 - 1) 8 ++ [0; 7; 0; 1; 0; 0; 3 * 2 ^ 30; 0; 42].
Example ex_c88_field : Forall word words16 /\ sample_fq bn_fq 2 5 words16 = Some (7 + 2 ^ 64, [42]).
Proof. split; [repeat constructor; unfold word; lia|vm_compute; reflexivity]. Qed.
Example ex_c88_field_found : drawn bn_fq (256 - 2) words16 (7 + 2 ^ 64) [42].
Proof. apply (c88_field bn_fq 2 ltac:(lia) 5); apply ex_c88_field. Qed.
Example ex_c88_uniform : limbs (7, 1, 0, 3 * 2 ^ 62) /\ bn_fq <= 2 ^ (256 - 2) /\ candidate bn_fq 2 (7, 1, 0, 3 * 2 ^ 62) = Some (7 + 2 ^ 64).
Proof. split; [cbn; unfold limb; lia|]. split; [vm_compute; discriminate|vm_compute; reflexivity]. Qed.
Example ex_c88_point : Forall word (repeat 0 17) /\
  sample_point bn_fq 2 (fun x (g : bool) => Some (fst x + 1)) (fun r => r * 2) (Z.eqb 0) 3 (repeat 0 17) = Some (2, []).
Proof. split; [repeat constructor; unfold word; lia|vm_compute; reflexivity]. Qed.

(** ** Fuzzing *)
(** A list is changed at the position and nowhere else; an empty list panics. *)
Theorem c88_fuzz_list {T} (f : T -> T) l position :
  ((position < length l)%nat -> exists l', fuzz_list f position l = Some l' /\ length l' = length l /\
     forall k d, (k < length l)%nat -> nth k l' d = if (k =? position)%nat then f (nth k l d) else nth k l d) /\
  ((length l <= position)%nat -> fuzz_list f position l = None).
Proof.
  unfold fuzz_list. split; intros B.
  - destruct (nth_error l position) as [x|] eqn:E; [|apply nth_error_None in E; lia].
    destruct (nth_error_split _ _ E) as (l1 & l2 & -> & <-). eexists. split; [reflexivity|].
    rewrite firstn_app, firstn_all, Nat.sub_diag, firstn_O, app_nil_r.
    rewrite skipn_app, skipn_all2 by lia. replace (S (length l1) - length l1)%nat with 1%nat by lia. cbn [skipn app].
    split; [rewrite !app_length; reflexivity|]. intros k d K. destruct (Nat.eqb_spec k (length l1)) as [->|N].
    + rewrite !app_nth2 by lia. now rewrite Nat.sub_diag.
    + destruct (Nat.lt_ge_cases k (length l1)); [now rewrite !app_nth1 by lia|]. rewrite !app_nth2 by lia.
      destruct (k - length l1)%nat eqn:D; [lia|reflexivity].
  - now rewrite (proj2 (nth_error_None _ _)) by exact B.
Qed.
Example ex_c88_fuzz_list : fuzz_list negb 1 [true; true; false] = Some [true; false; false] /\ fuzz_list negb 0 [] = None.
Proof. split; reflexivity. Qed.

Lemma bit_le x i : (0 <? Z.land (Z.shiftl 1 (Z.of_nat i)) x) = Z.testbit x (Z.of_nat i).
Proof.
  rewrite Z.shiftl_1_l. destruct (Z.testbit x (Z.of_nat i)) eqn:T.
  - replace (Z.land (2 ^ Z.of_nat i) x) with (2 ^ Z.of_nat i); [apply Z.ltb_lt, Z.pow_pos_nonneg; lia|].
    apply Z.bits_inj'. intros k K. rewrite Z.land_spec, Z.pow2_bits_eqb by lia.
    destruct (Z.eqb_spec (Z.of_nat i) k) as [<-|]; [now rewrite T|reflexivity].
  - replace (Z.land (2 ^ Z.of_nat i) x) with 0; [reflexivity|].
    apply Z.bits_inj'. intros k K. rewrite Z.land_spec, Z.pow2_bits_eqb, Z.bits_0 by lia.
    destruct (Z.eqb_spec (Z.of_nat i) k) as [<-|]; [now rewrite T|reflexivity].
Qed.
Lemma to_bits_nth n x k : (k < n)%nat -> nth k (to_bits_le n x) false = Z.testbit x (Z.of_nat k).
Proof.
  intros K. unfold to_bits_le. rewrite (nth_indep _ false (0 <? Z.land (Z.shiftl 1 (Z.of_nat 0)) x)) by (rewrite map_length, seq_length; exact K).
  rewrite (map_nth (fun i => 0 <? Z.land (Z.shiftl 1 (Z.of_nat i)) x)), seq_nth by exact K. apply bit_le.
Qed.
Lemma to_bits_length n x : length (to_bits_le n x) = n.
Proof. unfold to_bits_le. now rewrite map_length, seq_length. Qed.
Lemma from_bits_test : forall bits i r k, 0 <= r < 2 ^ Z.of_nat i ->
  Z.testbit (from_bits i r bits) (Z.of_nat k) = if (k <? i)%nat then Z.testbit r (Z.of_nat k) else nth (k - i) bits false.
Proof.
  induction bits as [|b bits IH]; intros i r k R; cbn [from_bits].
  - destruct (Nat.ltb_spec k i); [reflexivity|]. rewrite (low_high (Z.of_nat i) r) by lia. now destruct (k - i)%nat.
  - assert (Pw : 2 ^ Z.of_nat (S i) = 2 * 2 ^ Z.of_nat i) by (rewrite Nat2Z.inj_succ; apply Z.pow_succ_r; lia).
    assert (Bits : forall j, 0 <= j -> Z.testbit (Z.shiftl 1 (Z.of_nat i)) j = (Z.of_nat i =? j))
      by (intros j J; rewrite Z.shiftl_1_l; apply Z.pow2_bits_eqb; lia).
    rewrite IH.
    + destruct (Nat.ltb_spec k (S i)), (Nat.ltb_spec k i); try lia.
      * destruct b; [|reflexivity]. rewrite Z.lor_spec, Bits by lia. rewrite (proj2 (Z.eqb_neq _ _)) by lia. apply orb_false_r.
      * assert (k = i) by lia. subst. rewrite Nat.sub_diag. cbn [nth]. pose proof (low_high (Z.of_nat i) r ltac:(lia) R (Z.of_nat i) ltac:(lia)) as Lo.
        destruct b; [|exact Lo]. rewrite Z.lor_spec, Bits, Z.eqb_refl by lia. apply orb_true_r.
      * replace (k - i)%nat with (S (k - S i)) by lia. reflexivity.
    + destruct b; [|lia]. rewrite Z.shiftl_1_l.
      assert (La : Z.land r (2 ^ Z.of_nat i) = 0).
      { apply Z.bits_inj'. intros j J. rewrite Z.land_spec, Z.pow2_bits_eqb, Z.bits_0 by lia.
        destruct (Z.eqb_spec (Z.of_nat i) j) as [<-|]; [|apply andb_false_r]. rewrite (low_high (Z.of_nat i) r) by lia. reflexivity. }
      rewrite <- Z.lxor_lor, <- Z.add_nocarry_lxor by exact La. lia.
Qed.
Lemma from_bits_le_nonneg bits : 0 <= from_bits_le bits.
Proof.
  unfold from_bits_le. assert (G : forall bits i r, 0 <= r -> 0 <= from_bits i r bits); [|apply G; lia].
  clear. induction bits as [|b bits IH]; intros i r R; cbn [from_bits]; auto. apply IH. destruct b; auto.
  apply Z.lor_nonneg. split; auto. apply Z.shiftl_nonneg. lia.
Qed.
Lemma flipped n x j bits : 0 <= x < 2 ^ Z.of_nat n -> (j < n)%nat -> length bits = n ->
  (forall k, (k < n)%nat -> nth k bits false = if (k =? j)%nat then negb (Z.testbit x (Z.of_nat k)) else Z.testbit x (Z.of_nat k)) ->
  from_bits_le bits = Z.lxor x (2 ^ Z.of_nat j).
Proof.
  intros X J L H. apply Z.bits_inj'. intros k K. rewrite <- (Z2Nat.id k) by exact K. set (m := Z.to_nat k).
  unfold from_bits_le. rewrite from_bits_test by (cbn; lia). cbn [Nat.ltb Nat.leb]. rewrite Nat.sub_0_r.
  rewrite Z.lxor_spec, Z.pow2_bits_eqb by lia. destruct (Nat.lt_ge_cases m n) as [M|M].
  - rewrite H by exact M. destruct (Nat.eqb_spec m j) as [->|N].
    + rewrite Z.eqb_refl. now destruct (Z.testbit x (Z.of_nat j)).
    + rewrite (proj2 (Z.eqb_neq _ _)) by lia. now rewrite xorb_false_r.
  - rewrite nth_overflow by lia. rewrite (low_high (Z.of_nat n) x) by lia. now rewrite (proj2 (Z.eqb_neq _ _)) by lia.
Qed.

(** Of a byte and of a big integer exactly one bit is changed. *)
Theorem c88_fuzz_u8 position x : (position < 8)%nat -> 0 <= x < 2 ^ 8 ->
  fuzz_u8 position x = Some (Z.lxor x (2 ^ Z.of_nat position)).
Proof.
  intros P X. unfold fuzz_u8. destruct (proj1 (c88_fuzz_list negb (to_bits_le 8 x) position)) as (l & -> & L & H); [now rewrite to_bits_length|].
  rewrite to_bits_length in *. cbn [option_map]. f_equal. apply (flipped 8); auto.
  intros k K. rewrite (H k false K), to_bits_nth by exact K. reflexivity.
Qed.
Theorem c88_fuzz_big bits position x : (position < bits)%nat -> 0 <= x < 2 ^ Z.of_nat bits ->
  fuzz_big bits position x = Some (Z.lxor x (2 ^ Z.of_nat (bits - 1 - position))).
Proof.
  intros P X. unfold fuzz_big. destruct (proj1 (c88_fuzz_list negb (rev (to_bits_le bits x)) position)) as (l & -> & L & H);
    [now rewrite rev_length, to_bits_length|].
  rewrite rev_length, to_bits_length in *. cbn [option_map]. f_equal.
  apply (flipped bits); auto; [lia|now rewrite rev_length|]. intros k K.
  rewrite rev_nth, L by lia. rewrite (H _ false) by lia. rewrite rev_nth, to_bits_length by (rewrite to_bits_length; lia).
  replace (bits - S (bits - S k))%nat with k by lia. rewrite to_bits_nth by exact K.
  destruct (Nat.eqb_spec (bits - S k) position), (Nat.eqb_spec k (bits - 1 - position)); try lia; reflexivity.
Qed.
Example ex_c88_fuzz_u8 : fuzz_u8 3 200 = Some 192 /\ fuzz_u8 0 200 = Some 201.
Proof. split; reflexivity. Qed.
Example ex_c88_fuzz_big : fuzz_big 256 255 200 = Some 201 /\ fuzz_big 256 0 200 = Some (200 + 2 ^ 255).
Proof. split; vm_compute; reflexivity. Qed.

(** A field element never stays the same, whatever the position. *)
Theorem c88_fuzz_field modulus bits position x : 1 < modulus -> Z.odd modulus = true -> modulus <= 2 ^ Z.of_nat bits ->
  (position < bits)%nat -> 0 <= x < modulus ->
  exists y, fuzz_field modulus bits position x = Some y /\ 0 <= y < modulus /\ y <> x.
Proof.
  intros M O B P X. unfold fuzz_field. rewrite c88_fuzz_big by lia. cbn [option_map]. eexists. split; [reflexivity|].
  split; [apply Z.mod_pos_bound; lia|]. set (j := Z.of_nat (bits - 1 - position)). set (y := Z.lxor x (2 ^ j)). intros E.
  assert (J : 0 <= j) by lia.
  assert (Add : forall u, Z.testbit u j = false -> u + 2 ^ j = Z.lxor u (2 ^ j)).
  { intros u U. apply Z.add_nocarry_lxor. apply Z.bits_inj'. intros k K. rewrite Z.land_spec, Z.pow2_bits_eqb, Z.bits_0 by lia.
    destruct (Z.eqb_spec j k) as [<-|]; [now rewrite U|apply andb_false_r]. }
  assert (D : y = x + 2 ^ j \/ x = y + 2 ^ j).
  { destruct (Z.testbit x j) eqn:T; [right|left; symmetry; now apply Add]. rewrite Add.
    - unfold y. rewrite Z.lxor_assoc, Z.lxor_nilpotent, Z.lxor_0_r. reflexivity.
    - unfold y. rewrite Z.lxor_spec, T, Z.pow2_bits_eqb, Z.eqb_refl by lia. reflexivity. }
  assert (Dv : (modulus | 2 ^ j)).
  { pose proof (Z.div_mod y modulus ltac:(lia)) as Q. rewrite E in Q. destruct D as [D|D].
    - exists (y / modulus). lia.
    - exists (- (y / modulus)). lia. }
  assert (R : rel_prime modulus (2 ^ j)).
  { apply rel_prime_Zpower_r; [lia|]. apply rel_prime_sym, prime_rel_prime; [exact prime_2|]. intros [k K].
    rewrite K, Z.odd_mul in O. cbn in O. rewrite andb_false_r in O. discriminate. }
  assert (G : (modulus | 1)). { apply (Gauss modulus (2 ^ j) 1); [now rewrite Z.mul_1_r|exact R]. }
  apply Z.divide_1_r_nonneg in G; lia.
Qed.
Example ex_c88_fuzz_field : 1 < bn_fr /\ Z.odd bn_fr = true /\ bn_fr <= 2 ^ Z.of_nat 256 /\ fuzz_field bn_fr 256 255 200 = Some 201.
Proof. repeat split; vm_compute; congruence. Qed.

(** But more than one of its bits can change, since the result is reduced. *)
Theorem c88_fuzz_bit_refuted : exists x y i j, 0 <= x < bn_fr /\ fuzz_field bn_fr 256 0 x = Some y /\ i <> j /\
  Z.testbit x i <> Z.testbit y i /\ Z.testbit x j <> Z.testbit y j.
Proof.
  exists 0, (2 ^ 255 mod bn_fr). 
  exists 1, 2. split; [vm_compute; split; congruence|]. split; [vm_compute; reflexivity|]. split; [lia|]. split; vm_compute; discriminate.
Qed.

Print Assumptions c88_seed.
Print Assumptions c88_seed_same.
Print Assumptions c88_field.
Print Assumptions c88_field_found.
Print Assumptions c88_uniform.
Print Assumptions c88_point.
Print Assumptions c88_point_good.
Print Assumptions c88_fuzz_list.
Print Assumptions c88_fuzz_u8.
Print Assumptions c88_fuzz_big.
Print Assumptions c88_fuzz_field.
Print Assumptions c88_fuzz_bit_refuted.
