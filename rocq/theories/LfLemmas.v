(** The register of the code follows the recurrence, and its pairs never run dry. *)
From Coq Require Import List Arith NArith Bool Lia.
From Verif Require Import PxModel PxMds LfModel LfSpec.
Import ListNotations.

Definition wf (l : lfsr) : Prop := length (state l) = 80 /\ head l < 80.
(** The register shows the sequence from [n] on. *)
Definition shows (l : lfsr) (x : nat -> bool) (n : nat) : Prop := wf l /\ forall i, i < 80 -> bit l i = x (n + i).

Lemma mod80 a : a < 80 -> (a + 1) mod SIZE = if Nat.eqb a 79 then 0 else a + 1.
Proof.
  intros H. unfold SIZE. destruct (Nat.eqb_spec a 79) as [->|]; [reflexivity|]. apply Nat.mod_small. lia.
Qed.
Lemma mod80_2 i h : i < 80 -> h < 80 -> (i + h) mod SIZE = if Nat.ltb (i + h) 80 then i + h else i + h - 80.
Proof.
  intros Hi Hh. unfold SIZE. destruct (Nat.ltb_spec (i + h) 80); [apply Nat.mod_small; auto|].
  replace (i + h) with (i + h - 80 + 1 * 80) at 1 by lia. rewrite Nat.mod_add by lia. apply Nat.mod_small. lia.
Qed.

Lemma set_next_wf l b : wf l -> wf (set_next l b).
Proof.
  intros [L H]. split; cbn [set_next state head].
  - now rewrite set_nth_len.
  - apply Nat.mod_upper_bound. unfold SIZE. lia.
Qed.
Lemma bit_set_next l b i : wf l -> i < 80 -> bit (set_next l b) i = if Nat.eqb i 79 then b else bit l (i + 1).
Proof.
  intros [L H] Hi. unfold bit, set_next. cbn [state head]. rewrite set_nth_at by lia.
  rewrite (mod80 _ H). destruct (Nat.eqb_spec (head l) 79) as [E|NE].
  - rewrite Nat.add_0_r. unfold SIZE. rewrite (Nat.mod_small i) by lia. rewrite E.
    destruct (Nat.eqb_spec i 79); auto.
    replace (i + 1 + 79) with (i + 1 * 80) by lia. rewrite Nat.mod_add by lia. now rewrite Nat.mod_small by lia.
  - rewrite (mod80_2 i (head l + 1)) by lia. destruct (Nat.eqb_spec i 79) as [->|].
    + destruct (Nat.ltb_spec (79 + (head l + 1)) 80); [lia|]. replace (79 + (head l + 1) - 80) with (head l) by lia.
      now rewrite Nat.eqb_refl.
    + rewrite (mod80_2 (i + 1) (head l)) by lia. replace (i + 1 + head l) with (i + (head l + 1)) by lia.
      destruct (Nat.ltb_spec (i + (head l + 1)) 80).
      * destruct (Nat.eqb_spec (i + (head l + 1)) (head l)); [lia|auto].
      * destruct (Nat.eqb_spec (i + (head l + 1) - 80) (head l)); [lia|auto].
Qed.

Lemma shows_set_next l x n b : shows l x n -> b = x (n + 80) -> shows (set_next l b) x (n + 1).
Proof.
  intros [W B] E. split; [now apply set_next_wf|]. intros i Hi. rewrite bit_set_next by auto.
  destruct (Nat.eqb_spec i 79) as [->|].
  - rewrite E. f_equal. lia.
  - rewrite B by lia. f_equal. lia.
Qed.
Lemma update_shows l x n : grain x -> shows l x n -> exists l', update l = (x (n + 80), l') /\ shows l' x (n + 1).
Proof.
  intros G Sh. pose proof Sh as [W B]. unfold update.
  replace (xorb _ (bit l 0)) with (x (n + 80)).
  - eexists. split; [reflexivity|]. now apply shows_set_next.
  - rewrite (G n). rewrite !B by lia. rewrite Nat.add_0_r.
    now rewrite !xorb_assoc_reverse.
Qed.
Lemma skip_shows k : forall l x n, grain x -> shows l x n -> shows (skip_updates k l) x (n + k).
Proof.
  induction k as [|k IH]; intros l x n G Sh; cbn [skip_updates].
  - now rewrite Nat.add_0_r.
  - destruct (update_shows l x n G Sh) as (l' & -> & Sh'). cbn [snd].
    replace (n + S k) with (n + 1 + k) by lia. now apply IH.
Qed.

(** Every register shows some sequence with the recurrence. *)
Definition seq_of (l : lfsr) (n : nat) : bool := bit (skip_updates n l) 0.
Lemma skip_wf k : forall l, wf l -> wf (skip_updates k l).
Proof. induction k as [|k IH]; intros l W; cbn [skip_updates]; auto. apply IH. now apply set_next_wf. Qed.
Lemma skip_S k : forall l, skip_updates (S k) l = snd (update (skip_updates k l)).
Proof. induction k as [|k IH]; intros l; [reflexivity|]. cbn [skip_updates] in *. now rewrite IH. Qed.
Lemma seq_window l n i : wf l -> i < 80 -> bit (skip_updates n l) i = seq_of l (n + i).
Proof.
  intros W. revert n. induction i as [|i IH]; intros n Hi.
  - unfold seq_of. now rewrite Nat.add_0_r.
  - replace (n + S i) with (S n + i) by lia. rewrite <- IH by lia. rewrite skip_S. unfold update. cbn [snd].
    rewrite bit_set_next by (auto using skip_wf; lia). destruct (Nat.eqb_spec i 79); [lia|]. f_equal. lia.
Qed.
Lemma seq_of_grain l : wf l -> grain (seq_of l) /\ shows l (seq_of l) 0.
Proof.
  intros W. split.
  - intros n. replace (n + 80) with (S n + 79) by lia. rewrite <- (seq_window l (S n) 79) by (auto; lia). rewrite skip_S.
    unfold update. cbn [snd]. rewrite bit_set_next by (auto using skip_wf; lia). cbn [Nat.eqb].
    rewrite !(seq_window l n) by (auto; lia). rewrite Nat.add_0_r. now rewrite !xorb_assoc_reverse.
  - split; auto. intros i Hi. now rewrite <- (seq_window l 0 i).
Qed.

(** * Sequences that are not zero *)
Definition nz (x : nat -> bool) (n : nat) : Prop := exists i, i < 80 /\ x (n + i) = true.
Lemma nz_dec x n : nz x n \/ forall i, i < 80 -> x (n + i) = false.
Proof.
  assert (forall k, (exists i, i < k /\ x (n + i) = true) \/ forall i, i < k -> x (n + i) = false) as A.
  { induction k as [|k [(i & Hi & E)|IH]]; [right; lia|left; exists i; split; auto|].
    destruct (x (n + k)) eqn:E; [left; exists k; split; auto|right]. intros i Hi.
    destruct (Nat.eq_dec i k) as [->|]; auto. apply IH. lia. }
  apply A.
Qed.
Lemma nz_S x n : grain x -> nz x n -> nz x (n + 1).
Proof.
  intros G NZ. destruct (nz_dec x (n + 1)) as [|Z]; auto. exfalso. destruct NZ as (i & Hi & E).
  destruct i as [|i].
  - pose proof (G n) as R. pose proof (Z 79) as Z79. pose proof (Z 61) as Z61. pose proof (Z 50) as Z50.
    pose proof (Z 37) as Z37. pose proof (Z 22) as Z22. pose proof (Z 12) as Z12.
    rewrite <- !Nat.add_assoc in *. cbn [Nat.add] in Z79, Z61, Z50, Z37, Z22, Z12.
    rewrite Z79, Z61, Z50, Z37, Z22, Z12 in R by lia. rewrite Nat.add_0_r in E. rewrite E in R. discriminate.
  - specialize (Z i ltac:(lia)). replace (n + 1 + i) with (n + S i) in Z by lia. congruence.
Qed.
Lemma nz_add x n k : grain x -> nz x n -> nz x (n + k).
Proof.
  intros G NZ. induction k as [|k IH]; [now rewrite Nat.add_0_r|]. replace (n + S k) with (n + k + 1) by lia. now apply nz_S.
Qed.

(** * Every eightieth pair at the latest is delivered *)
(** Terms as sets of the first eighty bits. *)
Definition dot (x : nat -> bool) (n : nat) (m : N) : bool :=
  fold_right (fun i acc => xorb (N.testbit m (N.of_nat i) && x (n + i)) acc) false (seq 0 80).
Lemma dot_lxor x n a b : dot x n (N.lxor a b) = xorb (dot x n a) (dot x n b).
Proof.
  unfold dot. induction (seq 0 80) as [|i l IH]; [reflexivity|]. cbn [fold_right]. rewrite IH, N.lxor_spec.
  generalize (N.testbit a (N.of_nat i)) (N.testbit b (N.of_nat i)) (x (n + i)). intros p q r.
  match goal with |- _ = xorb (xorb _ ?u) (xorb _ ?v) => generalize u v end. intros u v. now destruct p, q, r, u, v.
Qed.
Lemma dot_0 x n : dot x n 0 = false.
Proof. unfold dot. induction (seq 0 80) as [|i l IH]; [reflexivity|]. cbn [fold_right]. now rewrite IH. Qed.
Lemma dot_unit x n i : i < 80 -> dot x n (2 ^ N.of_nat i) = x (n + i).
Proof.
  intros Hi. unfold dot.
  assert (forall k, (forall j, In j k -> j <> i) ->
    fold_right (fun i0 acc => xorb (N.testbit (2 ^ N.of_nat i) (N.of_nat i0) && x (n + i0)) acc) false k = false) as Z.
  { induction k as [|j k IH]; intros H; [reflexivity|]. cbn [fold_right]. rewrite IH by (intros; apply H; now right).
    rewrite N.pow2_bits_false; [reflexivity|]. specialize (H j (or_introl eq_refl)). lia. }
  replace 80 with (i + S (79 - i)) by lia. rewrite seq_app, fold_right_app. cbn [seq fold_right Nat.add].
  rewrite Z by (intros j Hj; apply in_seq in Hj; lia). rewrite N.pow2_bits_true, andb_true_l, xorb_false_r.
  assert (forall k c, (forall j, In j k -> j <> i) ->
    fold_right (fun i0 acc => xorb (N.testbit (2 ^ N.of_nat i) (N.of_nat i0) && x (n + i0)) acc) c k = c) as Z'.
  { induction k as [|j k IH]; intros c H; [reflexivity|]. cbn [fold_right]. rewrite IH by (intros; apply H; now right).
    rewrite N.pow2_bits_false; [apply xorb_false_l|]. specialize (H j (or_introl eq_refl)). lia. }
  apply Z'. intros j Hj. apply in_seq in Hj. lia.
Qed.

Fixpoint terms (fuel : nat) (win : list N) : list N :=
  match fuel with
  | 0 => []
  | S fuel =>
      let m := N.lxor (nth 62 win 0%N) (N.lxor (nth 51 win 0%N) (N.lxor (nth 38 win 0%N) (N.lxor (nth 23 win 0%N)
                 (N.lxor (nth 13 win 0%N) (nth 0 win 0%N))))) in
      m :: terms fuel (tl win ++ [m])
  end.
Lemma terms_ok x n fuel : grain x -> forall win b, length win = 80 ->
  (forall i, i < 80 -> x (n + b + i) = dot x n (nth i win 0%N)) ->
  forall j, j < fuel -> x (n + b + 80 + j) = dot x n (nth j (terms fuel win) 0%N).
Proof.
  intros G. induction fuel as [|fuel IH]; intros win b L W j Hj; [lia|]. cbn [terms].
  set (m := N.lxor _ _). assert (x (n + b + 80) = dot x n m) as Em.
  { rewrite G. unfold m. rewrite !dot_lxor. rewrite <- !W by lia. now rewrite Nat.add_0_r. }
  destruct j as [|j]; cbn [nth]; [now rewrite Nat.add_0_r|].
  replace (n + b + 80 + S j) with (n + (b + 1) + 80 + j) by lia. apply IH; [| |lia].
  - destruct win as [|w win]; [discriminate|]. cbn [tl length] in *. rewrite app_length. cbn [length]. lia.
  - intros i Hi. destruct win as [|w win]; [discriminate|]. cbn [tl length] in *. injection L as L.
    destruct (Nat.eq_dec i 79) as [->|].
    + rewrite app_nth2 by lia. rewrite L. cbn [Nat.sub nth]. rewrite <- Em. f_equal. lia.
    + rewrite app_nth1 by lia. specialize (W (S i) ltac:(lia)). cbn [nth] in W. rewrite <- W. f_equal. lia.
Qed.

(** The first eighty bits from every second bit after them; the sets are found by elimination. *)
Definition units : list N := map (fun i => (2 ^ N.of_nat i)%N) (seq 0 80).
Lemma nth_map_seq {A} (f : nat -> A) n i d : i < n -> nth i (map f (seq 0 n)) d = f i.
Proof.
  intros Hi. rewrite (nth_indep _ _ (f 0)) by (rewrite map_length, seq_length; lia). rewrite (map_nth f), seq_nth by lia. reflexivity.
Qed.
Lemma units_nth i : i < 80 -> nth i units 0%N = (2 ^ N.of_nat i)%N.
Proof. intros Hi. unfold units. now rewrite (nth_map_seq (fun i => (2 ^ N.of_nat i)%N)). Qed.
Definition inverse_sets : list N :=
  [906780844837745629076032; 250779265704994904930841; 604631256123318728660097; 501558531409989809861682;
   332078693915172014339; 1003117062819979619723364; 664157387830344028678; 797312915459823564746953;
   1328314775660688057356; 385695397367474600001939; 2656629551321376114712; 771390794734949200003878;
   5313259102642752229424; 333851155917725853754957; 10626518205285504458848; 667702311835451707509914;
   21253036410571008917696; 126474194621780740323637; 42506072821142017835392; 252948389243561480647274;
   85012145642284035670784; 505896778487122961294548; 170024291284568071341568; 1011793556974245922589096;
   340048582569136142683136; 814656684899918926295889; 680097165138272285366272; 420382940751264933693091;
   151263896724372024463361; 840765881502529867386182; 302527793448744048926722; 472610552824374304258701;
   605055586897488097853444; 945221105648748608517402; 1180740242253893640201; 681521001116811786504757;
   2361480484507787280402; 154120792052938125718635; 4722960969015574560804; 308241584105876251437270;
   9445921938031149121608; 616483168211752502874540; 18891843876062298243216; 24045130746968958403417;
   37783687752124596486432; 48090261493937916806834; 75567375504249192972864; 96180522987875833613668;
   151134751008498385945728; 192361045975751667227336; 302269502016996771891456; 384722091951503334454672;
   604539004033993543782912; 769444183903006668909344; 147574515814541296641; 329957934253840808343105;
   295149031629082593282; 659915868507681616686210; 590298063258165186564; 110910526835227541895429;
   1180596126516330373128; 221821053670455083790858; 2361192253032660746256; 443642107340910167581716;
   4722384506065321492512; 887284214681820335163432; 9444769012130642985024; 565647219183504995627089;
   18889538024261285970048; 1131294438367009991254178; 37779076048522571940096; 1053667671056934162587973;
   75558152097045143880192; 898404913064745650479755; 151116304194090287760384; 587879392576768998892823;
   302232608388180575520768; 1175758785153537997785646; 604465216776361151041536; 1142596360126940304094301]%N.
Definition combine_set (ts : list N) (c : N) : N :=
  fold_right (fun k acc => if N.testbit c (N.of_nat k) then N.lxor (nth (2 * k) ts 0%N) acc else acc) 0%N (seq 0 80).
Lemma inverse_sets_ok : map (combine_set (terms 160 units)) inverse_sets = units.
Proof. vm_compute. reflexivity. Qed.

Lemma second_bits x n : grain x -> (forall k, k < 80 -> x (n + 80 + 2 * k) = false) -> forall i, i < 80 -> x (n + i) = false.
Proof.
  intros G Z i Hi. rewrite <- (dot_unit x n i Hi).
  assert (nth i units 0%N = (2 ^ N.of_nat i)%N) as <-.
  { now apply units_nth. }
  rewrite <- inverse_sets_ok.
  assert (length inverse_sets = 80) as L by reflexivity.
  rewrite (nth_indep _ 0%N (combine_set (terms 160 units) 0%N)) by (rewrite map_length; lia). rewrite map_nth.
  generalize (nth i inverse_sets 0%N). intros c. unfold combine_set.
  assert (forall ks, (forall k, In k ks -> k < 80) ->
    dot x n (fold_right (fun k acc => if N.testbit c (N.of_nat k) then N.lxor (nth (2 * k) (terms 160 units) 0%N) acc else acc) 0%N ks) = false) as A.
  { induction ks as [|k ks IH]; intros H; [apply dot_0|]. cbn [fold_right].
    specialize (IH (fun k Hk => H k (or_intror Hk))). destruct (N.testbit c (N.of_nat k)); auto.
    rewrite dot_lxor, IH, xorb_false_r. specialize (H k (or_introl eq_refl)).
    rewrite <- (terms_ok x n 160 G units 0); [| | |lia].
    - rewrite Nat.add_0_r. now apply Z.
    - reflexivity.
    - intros j Hj. rewrite Nat.add_0_r, units_nth by auto. symmetry. now apply dot_unit. }
  apply A. intros k Hk. apply in_seq in Hk. lia.
Qed.

(** The least pair whose first bit is set. *)
Lemma first_pair x n : grain x -> nz x n -> exists k, k < 80 /\ x (n + 80 + 2 * k) = true /\ forall j, j < k -> x (n + 80 + 2 * j) = false.
Proof.
  intros G NZ.
  assert (forall m, (exists k, k < m /\ x (n + 80 + 2 * k) = true /\ forall j, j < k -> x (n + 80 + 2 * j) = false) \/
                    forall k, k < m -> x (n + 80 + 2 * k) = false) as A.
  { induction m as [|m [(k & Hk & E & F)|IH]]; [right; lia|left; exists k; split; auto|].
    destruct (x (n + 80 + 2 * m)) eqn:E; [left; exists m; split; auto|right]. intros k Hk.
    destruct (Nat.eq_dec k m) as [->|]; auto. apply IH. lia. }
  destruct (A 80) as [|Z]; auto. exfalso. destruct NZ as (i & Hi & E). rewrite (second_bits x n G Z i Hi) in E. discriminate.
Qed.

Lemma next_loop_ok x k : grain x -> forall fuel l n, shows l x (n + 1) -> k <= fuel ->
  x (n + 80 + 2 * k) = true -> (forall j, j < k -> x (n + 80 + 2 * j) = false) ->
  exists l', next_loop fuel (x (n + 80)) l = Some (x (n + 81 + 2 * k), l') /\ shows l' x (n + 2 + 2 * k).
Proof.
  intros G. induction k as [|k IH]; intros fuel l n Sh Hf E F.
  - rewrite Nat.mul_0_r, Nat.add_0_r in E. rewrite E. destruct (update_shows l x (n + 1) G Sh) as (l' & U & Sh').
    exists l'. assert (next_loop fuel true l = Some (update l)) as -> by (destruct fuel; reflexivity). rewrite U.
    rewrite Nat.mul_0_r, !Nat.add_0_r. replace (n + 1 + 80) with (n + 81) by lia. replace (n + 1 + 1) with (n + 2) in Sh' by lia. auto.
  - specialize (F 0 ltac:(lia)) as F0. rewrite Nat.mul_0_r, Nat.add_0_r in F0. rewrite F0.
    destruct fuel as [|fuel]; [lia|]. cbn [next_loop].
    destruct (update_shows l x (n + 1) G Sh) as (l1 & -> & Sh1). cbn [snd].
    destruct (update_shows l1 x (n + 1 + 1) G Sh1) as (l2 & -> & Sh2).
    destruct (IH fuel l2 (n + 2)) as (l' & E' & Sh').
    + replace (n + 2 + 1) with (n + 1 + 1 + 1) by lia. auto.
    + lia.
    + rewrite <- E. f_equal. lia.
    + intros j Hj. rewrite <- (F (S j)) by lia. f_equal. lia.
    + exists l'. replace (n + 1 + 1 + 80) with (n + 2 + 80) by lia. rewrite E'.
      replace (n + 2 + 81 + 2 * k) with (n + 81 + 2 * S k) by lia. replace (n + 2 + 2 + 2 * k) with (n + 2 + 2 * S k) in Sh' by lia. auto.
Qed.

Lemma next_ok x fuel l n : grain x -> shows l x n -> nz x n -> 80 <= fuel ->
  exists k l', k < 80 /\ x (n + 80 + 2 * k) = true /\ (forall j, j < k -> x (n + 80 + 2 * j) = false) /\
    next fuel l = Some (x (n + 81 + 2 * k), l') /\ shows l' x (n + 2 + 2 * k).
Proof.
  intros G Sh NZ Hf. destruct (first_pair x n G NZ) as (k & Hk & E & F). unfold next.
  destruct (update_shows l x n G Sh) as (l1 & -> & Sh1).
  destruct (next_loop_ok x k G fuel l1 n Sh1 ltac:(lia) E F) as (l' & E' & Sh'). eauto 10.
Qed.

Lemma shrunk_skips x k : forall n bs e, (forall j, j < k -> x (n + 2 * j) = false) -> shrunk x (n + 2 * k) bs e -> shrunk x n bs e.
Proof.
  induction k as [|k IH]; intros n bs e F H.
  - now rewrite Nat.mul_0_r, Nat.add_0_r in H.
  - apply sh_skip.
    + specialize (F 0 ltac:(lia)). now rewrite Nat.mul_0_r, Nat.add_0_r in F.
    + apply IH.
      * intros j Hj. rewrite <- (F (S j)) by lia. f_equal. lia.
      * replace (n + 2 + 2 * k) with (n + 2 * S k) by lia. auto.
Qed.

Lemma take_bits_ok x fuel m : grain x -> 80 <= fuel -> forall l n, shows l x n -> nz x n ->
  exists bs l' n', take_bits fuel m l = Some (bs, l') /\ length bs = m /\ shrunk x (n + 80) bs (n' + 80) /\ shows l' x n' /\ nz x n'.
Proof.
  intros G Hf. induction m as [|m IH]; intros l n Sh NZ.
  - exists [], l, n. repeat split; auto; try apply Sh. constructor.
  - cbn [take_bits]. destruct (next_ok x fuel l n G Sh NZ Hf) as (k & l1 & Hk & E & F & -> & Sh1).
    assert (nz x (n + 2 + 2 * k)) as NZ1. { replace (n + 2 + 2 * k) with (n + (2 + 2 * k)) by lia. now apply nz_add. }
    destruct (IH l1 _ Sh1 NZ1) as (bs & l' & n' & -> & L & SH & Sh' & NZ').
    exists (x (n + 81 + 2 * k) :: bs), l', n'. split; auto. split; [simpl; lia|]. split; auto.
    apply (shrunk_skips x k); auto. replace (n + 81 + 2 * k) with (n + 80 + 2 * k + 1) by lia.
    apply sh_take; auto. replace (n + 80 + 2 * k + 2) with (n + 2 + 2 * k + 80) by lia. auto.
Qed.

(** * Seeding *)
Lemma shows_ext l x y n : shows l x n -> (forall i, i < 80 -> x (n + i) = y (n + i)) -> shows l y n.
Proof. intros [W B] E. split; auto. intros i Hi. rewrite B by auto. auto. Qed.
(** The register after the bits [bs] were written holds the last eighty of what it held and [bs]. *)
Definition reg (l : lfsr) : list bool := map (bit l) (seq 0 80).
Lemma reg_len l : length (reg l) = 80.
Proof. unfold reg. now rewrite map_length, seq_length. Qed.
Lemma reg_nth l i : i < 80 -> nth i (reg l) false = bit l i.
Proof.
  intros Hi. unfold reg. rewrite (nth_indep _ _ (bit l 0)) by (rewrite map_length, seq_length; lia).
  rewrite map_nth, seq_nth by lia. reflexivity.
Qed.
Lemma reg_set_next l b : wf l -> reg (set_next l b) = tl (reg l) ++ [b].
Proof.
  intros W. apply (nth_ext _ _ false false).
  - pose proof (reg_len l) as L. destruct (reg l) as [|a r] eqn:E; [discriminate|]. rewrite reg_len. cbn [tl]. rewrite app_length. simpl in *. lia.
  - intros i Hi. rewrite reg_len in Hi. rewrite reg_nth, bit_set_next by auto.
    pose proof (reg_len l) as L. destruct (Nat.eqb_spec i 79) as [->|].
    + destruct (reg l) as [|a r]; [discriminate|]. cbn [tl]. simpl in L. rewrite app_nth2 by lia.
      replace (79 - length r) with 0 by lia. reflexivity.
    + rewrite <- reg_nth by lia. destruct (reg l) as [|a r]; [discriminate|]. cbn [tl]. simpl in L.
      rewrite app_nth1 by lia. rewrite Nat.add_1_r. reflexivity.
Qed.
Lemma reg_writes bs : forall l, wf l -> wf (fold_left set_next bs l) /\ reg (fold_left set_next bs l) = skipn (length bs) (reg l ++ bs).
Proof.
  induction bs as [|b bs IH]; intros l W; cbn [fold_left length skipn].
  - now rewrite app_nil_r.
  - destruct (IH (set_next l b) (set_next_wf l b W)) as [W' E]. split; auto. rewrite E, reg_set_next by auto.
    pose proof (reg_len l) as L. destruct (reg l) as [|a r]; [discriminate|]. cbn [tl app]. now rewrite <- app_assoc.
Qed.
Lemma fold_left_map {A B C} (f : A -> B -> A) (g : C -> B) l a : fold_left (fun a c => f a (g c)) l a = fold_left f (map g l) a.
Proof. revert a. induction l as [|c l IH]; intros a; simpl; auto. Qed.
Lemma rev_seq_map n : rev (seq 0 n) = map (fun i => n - 1 - i) (seq 0 n).
Proof.
  apply (nth_ext _ _ 0 (n - 1 - 0)).
  - now rewrite rev_length, map_length.
  - intros i Hi. rewrite rev_length, seq_length in Hi. rewrite rev_nth by (now rewrite seq_length).
    rewrite seq_length, seq_nth by lia. rewrite (map_nth (fun i => n - 1 - i) (seq 0 n) 0). rewrite seq_nth by lia. lia.
Qed.
Lemma append_digits l n v : append_seed_bits l n v = fold_left set_next (digits n v) l.
Proof.
  unfold append_seed_bits. rewrite (fold_left_map set_next (fun i => N.testbit v (N.of_nat i))). f_equal.
  rewrite rev_seq_map, map_map. reflexivity.
Qed.
Lemma fold_appends iter : forall l, fold_left (fun l x => append_seed_bits l (fst x) (snd x)) iter l =
  fold_left set_next (concat (map (fun x => digits (fst x) (snd x)) iter)) l.
Proof.
  induction iter as [|[n v] iter IH]; intros l; cbn [fold_left map concat]; auto. rewrite IH, append_digits. cbn [fst snd].
  now rewrite fold_left_app.
Qed.
Lemma wf_zero : wf (Lfsr (repeat false SIZE) 0).
Proof. split; cbn [state head]; [reflexivity|lia]. Qed.
Lemma reg_80 l bs : wf l -> length bs = 80 -> reg (fold_left set_next bs l) = bs.
Proof.
  intros W L. rewrite (proj2 (reg_writes bs l W)). rewrite L, <- (reg_len l). rewrite skipn_app, skipn_all, Nat.sub_diag. reflexivity.
Qed.
Lemma seed_len a b c d : length (seed a b c d) = 80.
Proof. reflexivity. Qed.

Lemma generate_shows a b c d : exists x, grain x /\ (forall i, i < 80 -> x i = nth i (seed a b c d) false) /\
  shows (generate_lfsr a b c d) x 160 /\ nz x 160.
Proof.
  unfold generate_lfsr, from_seed. rewrite fold_appends.
  assert (concat (map (fun x => digits (fst x) (snd x))
    [(2, 1%N); (4, 0%N); (12, a); (12, b); (10, c); (10, d); (30, 1073741823%N)]) = seed a b c d) as ->.
  { unfold seed. cbn [map concat fst snd]. rewrite app_nil_r. reflexivity. }
  set (l := fold_left set_next (seed a b c d) (Lfsr (repeat false SIZE) 0)).
  destruct (reg_writes (seed a b c d) _ wf_zero) as [W _]. fold l in W.
  pose proof (reg_80 _ (seed a b c d) wf_zero (seed_len a b c d)) as R. fold l in R.
  destruct (seq_of_grain l W) as [G Sh]. exists (seq_of l). split; auto.
  assert (forall i, i < 80 -> seq_of l i = nth i (seed a b c d) false) as X.
  { intros i Hi. rewrite <- R, reg_nth by auto. destruct Sh as [_ B]. symmetry. now apply B. }
  split; auto. split.
  { assert (SIZE * 2 = 160) as E by reflexivity. pose proof (skip_shows 160 l _ 0 G Sh) as H. rewrite <- E in H at 1. exact H. }
  change 160 with (0 + 160). apply nz_add; auto. exists 1. split; [lia|]. cbn [Nat.add]. rewrite X by lia. reflexivity.
Qed.

(** The recurrence runs backwards too. *)
Lemma grain_back x y n : grain x -> grain y -> (forall i, i < 80 -> x (S n + i) = y (S n + i)) -> forall i, i < 80 -> x (n + i) = y (n + i).
Proof.
  intros Gx Gy H i Hi. destruct i as [|i].
  - rewrite Nat.add_0_r. pose proof (Gx n) as R. pose proof (Gy n) as R'.
    assert (forall j, 0 < j -> j < 81 -> x (n + j) = y (n + j)) as A.
    { intros j H1 H2. replace (n + j) with (S n + (j - 1)) by lia. apply H. lia. }
    rewrite !A in R by lia. rewrite R' in R. clear - R.
    destruct (y (n + 62)), (y (n + 51)), (y (n + 38)), (y (n + 23)), (y (n + 13)), (x n), (y n); simpl in R; congruence.
  - replace (n + S i) with (S n + i) by lia. apply H. lia.
Qed.
Lemma grain_back_add x y k : grain x -> grain y -> forall n, (forall i, i < 80 -> x (n + k + i) = y (n + k + i)) -> forall i, i < 80 -> x (n + i) = y (n + i).
Proof.
  intros Gx Gy. induction k as [|k IH]; intros n H i Hi.
  - rewrite Nat.add_0_r in H. auto.
  - apply IH; auto. intros j Hj. apply (grain_back x y (n + k)); auto. intros m Hm.
    replace (S (n + k) + m) with (n + S k + m) by lia. auto.
Qed.
Lemma grain_ext x y n : grain x -> grain y -> (forall i, i < 80 -> x (n + i) = y (n + i)) -> forall i, x (n + i) = y (n + i).
Proof.
  intros Gx Gy H i. induction (lt_wf i) as [i _ IH]. destruct (Nat.lt_ge_cases i 80) as [|Hi]; auto.
  replace (n + i) with (n + (i - 80) + 80) by lia. rewrite Gx, Gy, <- !Nat.add_assoc, !IH by lia. reflexivity.
Qed.

(** * Numbers *)
Lemma from_bits_acc bits : forall acc, fold_left (fun a (b : bool) => if b then N.succ_double a else N.double a) bits acc =
  (acc * 2 ^ N.of_nat (length bits) + number bits)%N.
Proof.
  induction bits as [|b bits IH]; intros acc; cbn [fold_left length number].
  - rewrite N.pow_0_r. lia.
  - rewrite IH, Nat2N.inj_succ, N.pow_succ_r'. destruct b; [rewrite N.succ_double_spec|rewrite N.double_spec]; lia.
Qed.
Lemma from_bits_number bits : from_bits_be bits = number bits.
Proof. unfold from_bits_be. rewrite from_bits_acc. lia. Qed.

Lemma digits_len n v : length (digits n v) = n.
Proof. unfold digits. now rewrite map_length, seq_length. Qed.
Lemma digits_inj n v w : (v < 2 ^ N.of_nat n)%N -> (w < 2 ^ N.of_nat n)%N -> digits n v = digits n w -> v = w.
Proof.
  intros Hv Hw E. apply N.bits_inj. intros i.
  destruct (N.lt_ge_cases i (N.of_nat n)) as [Hi|Hi].
  - assert (nth (n - 1 - N.to_nat i) (digits n v) false = nth (n - 1 - N.to_nat i) (digits n w) false) as E' by (now rewrite E).
    unfold digits in E'. rewrite !nth_map_seq in E' by lia.
    replace (N.of_nat (n - 1 - (n - 1 - N.to_nat i))) with i in E' by lia. exact E'.
  - assert (forall u, (u < 2 ^ N.of_nat n)%N -> N.testbit u i = false) as A.
    { intros u Hu. destruct (N.eq_dec u 0) as [->|]; [apply N.bits_0|]. apply N.bits_above_log2.
      apply N.log2_lt_pow2 in Hu; lia. }
    now rewrite !A.
Qed.
Lemma app_split {A} (a b c d : list A) : length a = length c -> a ++ b = c ++ d -> a = c /\ b = d.
Proof.
  revert c. induction a as [|x a IH]; intros [|y c] L E; simpl in *; try discriminate; auto.
  injection E as -> E. injection L as L. destruct (IH c L E) as [-> ->]. auto.
Qed.
Lemma seed_inj a b c d a' b' c' d' :
  (a < 4096)%N -> (b < 4096)%N -> (c < 1024)%N -> (d < 1024)%N ->
  (a' < 4096)%N -> (b' < 4096)%N -> (c' < 1024)%N -> (d' < 1024)%N ->
  seed a b c d = seed a' b' c' d' -> a = a' /\ b = b' /\ c = c' /\ d = d'.
Proof.
  intros A B C D A' B' C' D' E. unfold seed in E.
  apply app_split in E; [|reflexivity]. destruct E as [_ E]. apply app_split in E; [|reflexivity]. destruct E as [_ E].
  apply app_split in E; [|reflexivity]. destruct E as [E1 E]. apply app_split in E; [|reflexivity]. destruct E as [E2 E].
  apply app_split in E; [|reflexivity]. destruct E as [E3 E]. apply app_split in E; [|reflexivity]. destruct E as [E4 _].
  apply digits_inj in E1, E2, E3, E4; auto.
Qed.

(** * Sampling *)
Lemma shrunk_app x n bs m cs e : shrunk x n bs m -> shrunk x m cs e -> shrunk x n (bs ++ cs) e.
Proof. intros H K. induction H as [n|n bs m E H IH|n bs m E H IH]; auto; [apply sh_skip|apply (sh_take x n (bs ++ cs))]; auto. Qed.
(** The delivered bits are determined. *)
Lemma shrunk_det x n bs e : shrunk x n bs e -> forall cs e', shrunk x n cs e' -> length bs = length cs -> bs = cs.
Proof.
  induction 1 as [n|n bs e E H IH|n bs e E H IH]; intros cs e' K L.
  - destruct cs; auto; discriminate.
  - inversion K; subst; try congruence.
    + destruct bs; auto; discriminate.
    + eapply IH; eauto.
  - inversion K; subst; try congruence.
    + discriminate.
    + f_equal. eapply IH; eauto.
Qed.

Lemma sample_ok x fuel tries bits modulus : grain x -> 80 <= fuel -> forall l n, shows l x n -> nz x n ->
  match sample_field_element fuel tries bits modulus l with
  | Some (f, l') => exists rejected last n', Forall (fun b => length b = bits /\ (modulus <= number b)%N) rejected /\
      length last = bits /\ number last = f /\ (f < modulus)%N /\ length rejected < tries /\
      shrunk x (n + 80) (concat rejected ++ last) (n' + 80) /\ shows l' x n' /\ nz x n'
  | None => exists rejected e, Forall (fun b => length b = bits /\ (modulus <= number b)%N) rejected /\ length rejected = tries /\
      shrunk x (n + 80) (concat rejected) e
  end.
Proof.
  intros G Hf. induction tries as [|tries IH]; intros l n Sh NZ; cbn [sample_field_element].
  - exists [], (n + 80). repeat split; auto. constructor.
  - destruct (take_bits_ok x fuel bits G Hf l n Sh NZ) as (bs & l1 & n1 & -> & L & SH & Sh1 & NZ1).
    unfold try_from_bits_be. rewrite from_bits_number. destruct (N.ltb_spec (number bs) modulus) as [Hb|Hb].
    + exists [], bs, n1. split; [constructor|]. repeat (split; auto; try (simpl; lia)); apply Sh1.
    + specialize (IH l1 n1 Sh1 NZ1). destruct (sample_field_element fuel tries bits modulus l1) as [[f l']|].
      * destruct IH as (rs & last & n' & F & L' & E & Hlt & Hr & SH' & Sh' & NZ').
        exists (bs :: rs), last, n'. repeat (split; auto; try (simpl; lia)); try apply Sh'.
        cbn [concat]. rewrite <- app_assoc. eapply shrunk_app; eauto.
      * destruct IH as (rs & e & F & L' & SH'). exists (bs :: rs), e. repeat (split; auto; try (simpl; lia)).
        cbn [concat]. eapply shrunk_app; eauto.
Qed.

Definition below (modulus : N) (blocks : list (list bool)) : list N := filter (fun v => N.ltb v modulus) (map number blocks).
Lemma below_rejected modulus rs : Forall (fun b => (modulus <= number b)%N) rs -> below modulus rs = [].
Proof.
  induction 1 as [|b rs H F IH]; [reflexivity|]. unfold below in *. cbn [map filter]. destruct (N.ltb_spec (number b) modulus); [lia|auto].
Qed.
Lemma sample_many_ok x fuel tries bits modulus : grain x -> 80 <= fuel -> forall k l n cs, shows l x n -> nz x n ->
  sample_many fuel tries bits modulus k l = Some cs ->
  length cs = k /\ exists blocks e, Forall (fun b => length b = bits) blocks /\ shrunk x (n + 80) (concat blocks) e /\ cs = below modulus blocks.
Proof.
  intros G Hf. induction k as [|k IH]; intros l n cs Sh NZ E; cbn [sample_many] in E.
  - injection E as <-. split; auto. exists [], (n + 80). repeat split; constructor.
  - pose proof (sample_ok x fuel tries bits modulus G Hf l n Sh NZ) as H.
    destruct (sample_field_element fuel tries bits modulus l) as [[f l']|]; [|discriminate].
    destruct H as (rs & last & n' & F & L' & Ef & Hlt & _ & SH & Sh' & NZ').
    destruct (sample_many fuel tries bits modulus k l') as [fs|] eqn:E'; [|discriminate]. injection E as <-.
    destruct (IH l' n' fs Sh' NZ' E') as (L & blocks & e & F' & SH' & ->). split; [simpl; lia|].
    exists (rs ++ last :: blocks), e. split; [|split].
    + apply Forall_app. split; [|constructor; auto]. eapply Forall_impl; [|exact F]. cbv beta. tauto.
    + rewrite concat_app. cbn [concat]. rewrite app_assoc. eapply shrunk_app; eauto.
    + unfold below. rewrite map_app, filter_app.
      change (filter (fun v => N.ltb v modulus) (map number rs)) with (below modulus rs). rewrite below_rejected.
      2:{ eapply Forall_impl; [|exact F]. cbv beta. tauto. }
      cbn [app map filter]. rewrite Ef. destruct (N.ltb_spec f modulus); [reflexivity|lia].
Qed.

(** A register of zeros never delivers. *)
Lemma zero_next x l n : grain x -> (forall i, x i = false) -> shows l x n -> forall fuel, next_loop fuel false l = None.
Proof.
  intros G Z Sh fuel. revert l n Sh. induction fuel as [|fuel IH]; intros l n Sh; [reflexivity|]. cbn [next_loop].
  destruct (update_shows l x n G Sh) as (l1 & -> & Sh1). cbn [snd].
  destruct (update_shows l1 x (n + 1) G Sh1) as (l2 & -> & Sh2). rewrite Z. eapply IH; eauto.
Qed.
