(** Invariants of the inner tree and their preservation by insertions. *)
From Coq Require Import List Arith Bool ZArith ZifyNat ZifyBool Lia.
From Verif Require Import MtModel MtSpec MtLemmas MtInner.
Import ListNotations.
Ltac dlia := zify; Z.div_mod_to_equations; lia.

Lemma sib_lo i a : 2 * (a / 2) <= i < a -> a = sibling i.
Proof. intro. destruct (sibling_cases i) as [(?&?&?)|(?&?&?)]; dlia. Qed.

Lemma sib_hi i b : b < i <= 2 * (b / 2) + 1 -> b = sibling i.
Proof. intro. destruct (sibling_cases i) as [(?&?&?)|(?&?&?)]; dlia. Qed.

Lemma half_le a b q : a <= b -> q <= b / 2 - a / 2 -> a / 2 + q <= b / 2.
Proof. intros. dlia. Qed.

Lemma next_len a b : a <= b ->
  (b - a + 2) / 2 = b / 2 - a / 2 + 1 \/
  (is_left a = false /\ is_left b = true /\ 1 <= b / 2 - a / 2 /\ (b - a + 2) / 2 = b / 2 - a / 2
   /\ b = 2 * (b / 2)).
Proof.
  intro. destruct (sibling_cases a) as [(Ea & Ea1 & _)|(Ea & Ea1 & _)]; [left; dlia|].
  destruct (sibling_cases b) as [(Eb & Eb1 & _)|(Eb & Eb1 & _)]; [right|left; dlia].
  repeat split; auto; dlia.
Qed.

Lemma last_incomplete last k b b2 :
  last / 2 ^ S k = b -> b = 2 * b2 -> (b2 + 1) * 2 ^ S (S k) <= S last -> False.
Proof.
  intros E Eb C. apply under_iff in E. rewrite (pow2_S (S k)) in C. nia.
Qed.

Lemma step2_eq n : forall start, step2 start n = map (fun q => start + 2 * q) (seq 0 ((n + 1) / 2)).
Proof.
  induction n as [n IH] using lt_wf_ind. intro start.
  destruct n as [|[|n]]; try (simpl; f_equal; lia).
  cbn [step2]. rewrite IH by lia.
  replace ((S (S n) + 1) / 2) with (S ((n + 1) / 2)) by lia.
  cbn [seq map]. f_equal; [lia|]. rewrite <- seq_shift, map_map. apply map_ext. intro; lia.
Qed.

Lemma dual_parity_fst r : fst (dual_parity r) = is_left (rg_node r).
Proof. reflexivity. Qed.

Lemma is_left_add a b : is_left (a + b) = Bool.eqb (is_left a) (is_left b).
Proof. unfold is_left. apply Nat.even_add. Qed.

Lemma dual_parity_snd r : snd (dual_parity r) = is_left (rg_node r + rg_extra r).
Proof.
  unfold dual_parity; simpl. rewrite (is_left_add (rg_node r)). destruct (is_left (rg_node r)).
  - destruct (is_left (rg_extra r)); reflexivity.
  - rewrite is_left_add. destruct (is_left (rg_extra r)); reflexivity.
Qed.

Lemma range_parents_eq a b : a <= b ->
  range_parents (NRange a (b - a)) = NRange (a / 2) (b / 2 - a / 2).
Proof.
  intro. unfold range_parents, parent. f_equal.
  rewrite (surjective_pairing (dual_parity _)), dual_parity_fst, dual_parity_snd.
  simpl rg_node; simpl rg_extra. replace (a + (b - a)) with b by lia.
  destruct (sibling_cases a) as [(E & E1 & _)|(E & E1 & _)], (sibling_cases b) as [(F & F1 & _)|(F & F1 & _)];
  rewrite E, F; lia.
Qed.

Lemma sibling_path_lt L n k : n < 2 ^ S L -> k < L -> sibling (n / 2 ^ S k) < 2 ^ (L - k).
Proof.
  intros. replace (L - k) with (S (L - S k)) by lia. apply sibling_lt.
  replace (S (L - S k)) with (L - k) by lia. apply path_nodes_lt; lia.
Qed.

(** Node [(k,i)] is complete for [n] leaves: all leaves below it are present. *)
Definition complete (n k i : nat) : Prop := (i + 1) * 2 ^ S k <= n.
Definition nempty (n k i : nat) : Prop := n <= i * 2 ^ S k.

(** Node [(k,i)] is needed when some live leaf lies under its sibling. *)
Definition needed (live : nat -> Prop) (k i : nat) : Prop :=
  exists j, j / 2 ^ S k = sibling i /\ live j.

Lemma off_path_complete_or_empty n k i :
  n / 2 ^ S k <> i -> complete n k i \/ nempty (S n) k i.
Proof.
  intro E. unfold complete, nempty. destruct (Nat.lt_ge_cases n (i * 2 ^ S k)); [right; lia|].
  destruct (Nat.lt_ge_cases n ((i + 1) * 2 ^ S k)); [|left; lia].
  exfalso. apply E. apply under_iff. lia.
Qed.

Lemma sibling_path_needed (live : nat -> Prop) n k :
  live n -> needed live k (sibling (n / 2 ^ S k)).
Proof. intro. exists n. rewrite sibling_invol. auto. Qed.

Section Hash.
Context {LD ID : Type}.
Variable dl : LD.
Variable di : ID.
Variable join : ID -> ID -> ID.
Variable joinl : LD -> LD -> ID.
Variable H : nat.
Notation L := (path_length H).

Notation td := (tree_digest dl di join joinl).
Notation sd := (sd dl di join joinl).
Notation gos := (gos di).

Definition WInv (live : nat -> Prop) (l : list LD) (m : imap ID) : Prop :=
  forall k i, k < L -> i < 2 ^ (L - k) -> needed live k i ->
  complete (length l) k i \/ nempty (length l) k i ->
  gos m (idx L k i) = sd l k i.

Definition SInv (live : nat -> Prop) (l : list LD) (m : imap ID) : Prop :=
  (forall k i, k < L -> i < 2 ^ (L - k) -> needed live k i -> gos m (idx L k i) = sd l k i) /\
  gos m 0 = sd l L 0.

Lemma SInv_WInv live l m : SInv live l m -> WInv live l m.
Proof. intros [A _] k i; auto. Qed.

Lemma WInv_mono (live live' : nat -> Prop) l m :
  (forall j, live' j -> live j) -> WInv live l m -> WInv live' l m.
Proof.
  intros M W k i Hk Hi (j & Hj & Lj) C. apply W; auto. exists j; auto.
Qed.

Lemma SInv_mono (live live' : nat -> Prop) l m :
  (forall j, live' j -> live j) -> SInv live l m -> SInv live' l m.
Proof.
  intros M [W R]; split; auto. intros k i Hk Hi (j & Hj & Lj). apply W; auto. exists j; auto.
Qed.

Lemma sd_app_off l ds k i :
  complete (length l) k i \/ nempty (length l + length ds) k i ->
  sd (l ++ ds) k i = sd l k i.
Proof.
  intros [C|C].
  - apply sd_ext. intros j Hj. apply under_iff in Hj. unfold complete in C.
    apply nth_error_app1. lia.
  - unfold nempty in C. rewrite !sd_empty; auto; rewrite ?app_length; lia.
Qed.

(** Single push: from the weak invariant to the strong one. *)
Lemma push_SInv (live : nat -> Prop) (l : list LD) x m :
  length l < 2 ^ S L -> live (length l) -> WInv live l m ->
  let l' := l ++ [x] in
  SInv live l' (inner_insert di join H m (length l) (sd l' 0 (length l / 2))).
Proof.
  intros Hn Hlive W l'. set (n := length l) in *.
  assert (Hl' : length l' = S n) by (unfold l'; rewrite app_length; simpl; lia).
  assert (OFF : forall k i, k < L -> i < 2 ^ (L - k) -> needed live k i -> n / 2 ^ S k <> i ->
           gos m (idx L k i) = sd l' k i).
  { intros k i Hk Hi Nd Ho. pose proof (off_path_complete_or_empty n k i Ho) as C.
    unfold l'. rewrite sd_app_off.
    - apply W; auto. destruct C as [C|C]; [left; auto|right]. unfold nempty in *. lia.
    - simpl. destruct C as [C|C]; [left; auto|right]. unfold nempty in *. fold n. lia. }
  destruct (inner_insert_spec dl di join joinl H l' n m) as [A B]; try lia.
  { intros k Hk. apply OFF; auto.
    - apply sibling_path_lt; auto.
    - apply sibling_path_needed; auto.
    - intro E. apply (sibling_neq (n / 2 ^ S k)). auto. }
  split.
  - intros k i Hk Hi Nd. destruct (Nat.eq_dec (n / 2 ^ S k) i) as [<-|C].
    + unfold MtModel.gos. rewrite A by lia. reflexivity.
    + unfold MtModel.gos at 1. rewrite B. { apply OFF; auto. }
      intros (k' & Hk' & E). apply idx_inj in E; try lia.
      * destruct E as [-> E]. congruence.
      * apply path_nodes_lt; auto. lia.
  - pose proof (A L ltac:(lia)) as R. rewrite (Nat.div_small n _ Hn), idx_root in R.
    unfold MtModel.gos. rewrite R. reflexivity.
Qed.

(** ** Batches *)

Lemma set_zip_spec n : forall m start (ds : list ID) x,
  set_zip m start n ds x =
  if (start <=? x) && (x <? start + Nat.min n (length ds)) then nth_error ds (x - start) else m x.
Proof.
  induction n; intros m start ds x.
  - simpl. replace (start + 0) with start by lia.
    destruct (Nat.leb_spec start x), (Nat.ltb_spec x start); simpl; auto; lia.
  - destruct ds as [|d ds].
    + simpl. replace (start + 0) with start by lia.
      destruct (Nat.leb_spec start x), (Nat.ltb_spec x start); simpl; auto; lia.
    + cbn [set_zip length Nat.min]. rewrite IHn.
      destruct (Nat.eq_dec x start) as [->|C].
      * rewrite Nat.sub_diag. simpl nth_error.
        destruct (Nat.leb_spec (S start) start); try lia. simpl andb.
        rewrite set_same. rewrite Nat.leb_refl.
        destruct (Nat.ltb_spec start (start + S (Nat.min n (length ds)))); auto; lia.
      * rewrite set_other by auto.
        destruct (Nat.leb_spec (S start) x), (Nat.leb_spec start x); try lia; cbn [andb]; auto.
        replace (x - start) with (S (x - S start)) by lia. cbn [nth_error].
        destruct (Nat.ltb_spec x (S start + Nat.min n (length ds))),
          (Nat.ltb_spec x (start + S (Nat.min n (length ds)))); auto; lia.
Qed.

(** The list returned by [insert_range_and_join], by coordinates. *)
Lemma insert_range_eq k d m a e (ds : list ID) : k + S d = L ->
  insert_range_and_join di join m d (NRange a e) ds =
  let m' := set_zip m (idx L k a) (e + 1) ds in
  (m', map (fun q => join (gos m' (idx L k (2 * (a / 2) + 2 * q)))
                          (gos m' (idx L k (2 * (a / 2) + 2 * q + 1)))) (seq 0 ((e + 2) / 2))).
Proof.
  intro Hk. unfold insert_range_and_join. rewrite dual_parity_fst. cbn [rg_node rg_extra].
  rewrite (idx_map_index L k) by auto. cbv zeta. f_equal.
  rewrite !step2_eq. replace (e + 1 + 1) with (e + 2) by lia.
  destruct (sibling_cases a) as [(E & E1 & _)|(E & E1 & _)]; rewrite E, map_map;
  apply map_ext; intro q; f_equal; f_equal; unfold idx; lia.
Qed.

Section Batch.
Variable live : nat -> Prop.
Variable l' : list LD.
Variables n last : nat.        (* first and last new leaf *)
Variable strong : bool.
Hypothesis Hn : n <= last.
Hypothesis Hlast : length l' = S last.
Hypothesis HlastL : last < 2 ^ S L.
Hypothesis Hlive : forall j, n <= j -> live j.

Let good (k i : nat) : Prop := strong = true \/ complete (length l') k i.

Hypothesis Hnobad : strong = true -> forall k, k < L ->
  is_left (n / 2 ^ S k) = false -> is_left (last / 2 ^ S k) = true -> False.

Let in_range (k i : nat) : Prop := n / 2 ^ S k <= i <= last / 2 ^ S k.

Lemma n_le_last k : n / 2 ^ k <= last / 2 ^ k.
Proof. apply Nat.div_le_mono; auto. pose proof (pow2_pos k). lia. Qed.

Lemma good_child k i : good (S k) i -> i * 2 ^ S (S k) < length l' -> good k (2 * i) /\ good k (2 * i + 1).
Proof.
  intros [G|G] _. { split; left; auto. }
  unfold complete in G. rewrite (pow2_S (S k)) in G. split; right; unfold complete; nia.
Qed.

(** One level of [compute_root_ranges]. *)
Lemma batch_level d k m (ds : list ID) :
  let a := n / 2 ^ S k in
  let b := last / 2 ^ S k in
  k + S d = L ->
  (length ds = b - a + 1 \/
   (strong = false /\ 1 <= b - a /\ length ds = b - a /\ ~ complete (length l') k b)) ->
  (forall p, p < length ds -> good k (a + p) -> nth p ds di = sd l' k (a + p)) ->
  (forall i, i < 2 ^ (L - k) -> needed live k i -> ~ in_range k i ->
     gos m (idx L k i) = sd l' k i) ->
  exists m1 ds1,
    insert_range_and_join di join m d (NRange a (b - a)) ds = (m1, ds1) /\
    length ds1 = (b - a + 2) / 2 /\
    (forall p, p < length ds1 -> p <= b / 2 - a / 2 -> good (S k) (a / 2 + p) ->
       nth p ds1 di = sd l' (S k) (a / 2 + p)) /\
    (forall i, in_range k i -> good k i -> gos m1 (idx L k i) = sd l' k i) /\
    (forall x, (forall i, in_range k i -> x <> idx L k i) -> m1 x = m x).
Proof.
  intros a b Hk Hlen Hval Hm.
  assert (Hab : a <= b) by apply n_le_last.
  assert (Hb : b < 2 ^ (L - k)) by (apply path_nodes_lt; auto; lia).
  assert (Dl : b / 2 * 2 ^ S (S k) <= last).
  { pose proof (div_le_start last (S k)) as D. rewrite (div_pow_S last (S k)) in D. exact D. }
  assert (Hra : forall i, in_range k i <-> a <= i <= b) by (intro; reflexivity).
  assert (Na : n / 2 ^ S k = a) by reflexivity.
  assert (Nb : last / 2 ^ S k = b) by reflexivity.
  clearbody a b. assert (HX : True) by exact I.
  pose (m1 := set_zip m (idx L k a) (b - a + 1) ds).
  pose (ds1 := map (fun q => join (gos m1 (idx L k (2 * (a / 2) + 2 * q)))
                          (gos m1 (idx L k (2 * (a / 2) + 2 * q + 1)))) (seq 0 ((b - a + 2) / 2))).
  assert (V1 : forall i, in_range k i -> good k i -> gos m1 (idx L k i) = sd l' k i).
  { intros i Hi G. apply Hra in Hi.
    unfold MtModel.gos, m1. rewrite set_zip_spec.
    assert (Hp : i - a < length ds).
    { destruct Hlen as [Hlen|(Hs & He & Hlen & Hc)]; [lia|].
      destruct (Nat.eq_dec i b) as [->|]; [|lia].
      destruct G as [G|G]; [congruence|contradiction]. }
    destruct (Nat.leb_spec (idx L k a) (idx L k i)); [|unfold idx in *; lia].
    destruct (Nat.ltb_spec (idx L k i) (idx L k a + Nat.min (b - a + 1) (length ds)));
      [|unfold idx in *; lia].
    cbn [andb]. replace (idx L k i - idx L k a) with (i - a) by (unfold idx; lia).
    rewrite (nth_error_nth' ds di Hp). rewrite Hval; auto.
    - f_equal; lia.
    - replace (a + (i - a)) with i by lia. auto. }
  assert (O1 : forall x, (forall i, in_range k i -> x <> idx L k i) -> m1 x = m x).
  { intros x Hx. unfold m1. rewrite set_zip_spec.
    destruct (Nat.leb_spec (idx L k a) x); cbn [andb]; auto.
    destruct (Nat.ltb_spec x (idx L k a + Nat.min (b - a + 1) (length ds))); auto.
    exfalso. apply (Hx (x - idx L k a + a)).
    - rewrite Hra; lia.
    - unfold idx in *; lia. }
  exists m1, ds1. split.
  { rewrite (insert_range_eq k) by auto. reflexivity. }
  assert (LN : length ds1 = (b - a + 2) / 2) by (unfold ds1; rewrite map_length, seq_length; reflexivity).
  split; [exact LN|]. split; [|split; [exact V1|exact O1]].
  intros q Hp Hq G.
  assert (NT : nth q ds1 di =
    join (gos m1 (idx L k (2 * (a / 2) + 2 * q))) (gos m1 (idx L k (2 * (a / 2) + 2 * q + 1)))).
  { unfold ds1.
    match goal with |- nth q (map ?f ?s) di = _ =>
      rewrite (nth_indep (map f s) di (f 0)) by (rewrite map_length, seq_length; lia);
      rewrite (map_nth f s 0 q) end.
    rewrite seq_nth by lia. reflexivity. }
  rewrite NT.
  assert (Hlt : (a / 2 + q) * 2 ^ S (S k) < length l').
  { assert ((a / 2 + q) * 2 ^ S (S k) <= b / 2 * 2 ^ S (S k)) by (apply Nat.mul_le_mono_r; lia). lia. }
  destruct (good_child _ _ G Hlt) as [G1 G2].
  rewrite (sd_S dl di join joinl l' k (a / 2 + q) Hlt).
  assert (HL : 2 ^ (L - k) = 2 * 2 ^ (L - S k))
    by (replace (L - k) with (S (L - S k)) by lia; reflexivity).
  assert (CH : forall i, 2 * (a / 2) <= i <= 2 * (b / 2) + 1 -> good k i ->
                gos m1 (idx L k i) = sd l' k i).
  { intros i Hi Gi.
    assert (OUT : ~ in_range k i -> gos m1 (idx L k i) = gos m (idx L k i)).
    { intro Ni. unfold MtModel.gos. rewrite O1; auto. intros i' Hi' Eq.
      unfold idx in Eq. assert (i = i') by lia. subst; auto. }
    destruct (Nat.le_gt_cases a i) as [C1|C1].
    - destruct (Nat.le_gt_cases i b) as [C2|C2].
      + apply V1; auto. rewrite Hra; lia.
      + assert (Ni : ~ in_range k i) by (rewrite Hra; lia).
        rewrite OUT by auto. apply Hm; auto; [lia|].
        exists last; split; [|apply Hlive; lia]. rewrite Nb.
        apply sib_hi; lia.
    - assert (Ni : ~ in_range k i) by (rewrite Hra; lia).
      rewrite OUT by auto. apply Hm; auto; [lia|].
      exists n; split; [|apply Hlive; lia]. rewrite Na.
      apply sib_lo; lia. }
  pose proof (half_le a b q Hab Hq) as Hq'. clear - CH G1 G2 Hq'.
  replace (2 * (a / 2) + 2 * q) with (2 * (a / 2 + q)) by lia.
  f_equal; apply CH; auto; lia.
Qed.

Lemma batch_ranges_spec : forall d k m ds,
  k + S d = L ->
  (let e := last / 2 ^ S k - n / 2 ^ S k in
   length ds = e + 1 \/
   (strong = false /\ 1 <= e /\ length ds = e /\ ~ complete (length l') k (last / 2 ^ S k))) ->
  (forall p, p < length ds -> good k (n / 2 ^ S k + p) ->
     nth p ds di = sd l' k (n / 2 ^ S k + p)) ->
  (forall k' i, k <= k' < L -> i < 2 ^ (L - k') -> needed live k' i -> ~ in_range k' i ->
     gos m (idx L k' i) = sd l' k' i) ->
  exists m' root rest,
    compute_root_ranges di join (inner_ranges d (NRange (n / 2 ^ S k) (last / 2 ^ S k - n / 2 ^ S k))) m ds
      = (m', root :: rest) /\
    (good L 0 -> root = sd l' L 0) /\
    (forall k' i, k <= k' < L -> in_range k' i -> good k' i -> gos m' (idx L k' i) = sd l' k' i) /\
    (forall x, (forall k' i, k <= k' < L -> in_range k' i -> x <> idx L k' i) -> m' x = m x).
Proof.
  induction d as [|d IH]; intros k m ds Hk Hlen Hval Hm.
  - destruct (batch_level 0 k m ds Hk Hlen Hval) as (m1 & ds1 & E1 & LN & NT & V1 & O1).
    { intros; apply Hm; auto; lia. }
    cbn [inner_ranges compute_root_ranges]. rewrite E1.
    destruct ds1 as [|root rest]. { cbn [length] in LN. lia. }
    exists m1, root, rest. split; [reflexivity|]. repeat split.
    + intro G.
      assert (Z : n / 2 ^ S k / 2 = 0).
      { rewrite <- (div_pow_S n (S k)). replace (S (S k)) with (S L) by lia. apply Nat.div_small. lia. }
      specialize (NT 0 ltac:(cbn [length]; lia) ltac:(lia)).
      rewrite Z in NT. cbn [nth] in NT. replace (S k) with L in NT by lia. apply NT. exact G.
    + intros k' i Hk' Hi G. replace k' with k in * by lia. auto.
    + intros x Hx. apply O1. intros. apply Hx; auto. lia.
  - destruct (batch_level (S d) k m ds Hk Hlen Hval) as (m1 & ds1 & E1 & LN & NT & V1 & O1).
    { intros; apply Hm; auto; lia. }
    cbn [inner_ranges compute_root_ranges]. rewrite E1.
    set (a := n / 2 ^ S k) in *. set (b := last / 2 ^ S k) in *.
    assert (Hab : a <= b) by apply n_le_last.
    assert (Hb : b < 2 ^ (L - k)) by (apply path_nodes_lt; auto; lia).
    assert (Ha2 : a / 2 = n / 2 ^ S (S k)) by (symmetry; apply (div_pow_S n (S k))).
    assert (Hb2 : b / 2 = last / 2 ^ S (S k)) by (symmetry; apply (div_pow_S last (S k))).
    rewrite (range_parents_eq a b Hab), Ha2, Hb2.
    destruct (IH (S k) m1 ds1) as (m' & root & rest & E & A & B & C).
    + clear - Hk. lia.
    + rewrite <- Ha2, <- Hb2. cbv zeta. rewrite LN.
      destruct (next_len a b Hab) as [N|(Ea & Eb & N1 & N2 & N3)]; [left; auto|right].
      assert (St : strong = false).
      { destruct strong; auto. exfalso. apply (Hnobad eq_refl k); auto. clear - Hk; lia. }
      repeat split; auto. unfold complete. intro Cc. rewrite Hlast in Cc.
      apply (last_incomplete last k b (b / 2)); auto.
    + intros p Hp G. rewrite <- Ha2 in *. apply NT; auto.
      rewrite LN in Hp. clear - Hp Hab. destruct (next_len a b Hab) as [N|(_ & _ & _ & N & _)]; lia.
    + intros k' i Hk' Hi Nd Ni. unfold MtModel.gos. rewrite O1. { apply Hm; auto; lia. }
      intros i' Hi' Eq. apply idx_inj in Eq; try (clear - Hk' Hk; lia); auto.
      * clear - Hk' Eq. lia.
      * unfold in_range in Hi'. fold b in Hi'. clear - Hi' Hb. lia.
    + exists m', root, rest. split; [exact E|]. split; [exact A|]. split.
      * intros k' i Hk' Hi G. destruct (Nat.eq_dec k' k) as [->|Ck].
        -- unfold MtModel.gos. rewrite C. { apply V1; auto. }
           intros k' i' Hk'' Hi' Eq. apply idx_inj in Eq; try (clear - Hk'' Hk; lia).
           ++ clear - Eq Hk''. lia.
           ++ unfold in_range in Hi. fold b in Hi. clear - Hi Hb. lia.
           ++ unfold in_range in Hi'. pose proof (path_nodes_lt L last k' HlastL ltac:(clear - Hk''; lia)) as P.
              clear - Hi' P. lia.
        -- apply B; auto. clear - Hk' Ck; lia.
      * intros x Hx. rewrite C.
        { apply O1. intros i Hi. apply Hx; auto. clear - Hk; lia. }
        intros k' i Hk' Hi. apply Hx; auto. clear - Hk'; lia.
Qed.

End Batch.
End Hash.
