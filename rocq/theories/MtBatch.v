(** Batch insertion preserves the invariants. *)
From Coq Require Import List Arith Bool ZArith ZifyNat ZifyBool Lia.
From Verif Require Import MtModel MtSpec MtLemmas MtInner MtInv.
Import ListNotations.
Ltac dlia := zify; Z.div_mod_to_equations; lia.

(** A level of the tree at which a batch from leaf [n] to leaf [last] starts with a
    right node and ends with a left node. *)
Definition bad_level (H n last : nat) : Prop :=
  exists k, k < path_length H /\
    is_left (n / 2 ^ S k) = false /\ is_left (last / 2 ^ S k) = true.

Lemma map_seq_shift {B} (f : nat -> B) c : forall s,
  map f (seq s c) = map (fun q => f (s + q)) (seq 0 c).
Proof.
  induction c; intro s; auto. cbn [seq map]. rewrite Nat.add_0_r. f_equal.
  rewrite (IHc (S s)), <- seq_shift, map_map. apply map_ext. intro; f_equal; lia.
Qed.

Section Hash.
Context {LD ID : Type}.
Variable dl : LD.
Variable di : ID.
Variable join : ID -> ID -> ID.
Variable joinl : LD -> LD -> ID.
Variable H : nat.
Notation L := (path_length H).
Notation sd := (sd dl di join joinl).
Notation gos := (gos di).
Notation WInv := (WInv dl di join joinl H).
Notation SInv := (SInv dl di join joinl H).

(** The bottom level computed by [NodeRange::join_leaves]. *)
Lemma range_join_leaves_spec (l ds : list LD) get :
  ds <> [] ->
  let n := length l in
  let last := n + length ds - 1 in
  (is_left n = false -> match get n with Some x => x | None => dl end = nth (n - 1) l dl) ->
  (is_left last = true -> match get last with Some x => x | None => dl end = dl) ->
  range_join_leaves dl joinl (NRange n (length ds - 1)) ds get =
  Some (map (fun i => sd (l ++ ds) 0 i) (seq (n / 2) (last / 2 - n / 2 + 1))).
Proof.
  intros Hne n last Hget1 Hget2. unfold range_join_leaves.
  destruct ds as [|x ds0]; [congruence|]. set (ds := x :: ds0) in *.
  cbv zeta. rewrite dual_parity_fst, dual_parity_snd. unfold last_node. cbn [rg_node rg_extra].
  set (c := length ds) in *.
  assert (Hc : 1 <= c) by (unfold c, ds; cbn [length]; lia).
  replace (n + (c - 1)) with last by (unfold last; lia).
  assert (Hlast : last = n + (c - 1)) by (unfold last; lia). clearbody last.
  assert (SD : forall i, i * 2 < n + c ->
     sd (l ++ ds) 0 i = joinl (nth (2 * i) (l ++ ds) dl) (nth (2 * i + 1) (l ++ ds) dl)).
  { intros i Hi. apply sd_0. rewrite app_length. fold n c. lia. }
  assert (NL : forall j, j < n -> nth j (l ++ ds) dl = nth j l dl) by (intros; apply app_nth1; auto).
  assert (ND : forall j, n <= j -> nth j (l ++ ds) dl = nth (j - n) ds dl) by (intros; apply app_nth2; auto).
  assert (NO : forall j, n + c <= j -> nth j (l ++ ds) dl = dl)
    by (intros; apply nth_overflow; rewrite app_length; fold n c; lia).
  assert (X0 : x = nth 0 ds dl) by reflexivity.
  f_equal. unfold steps_between.
  destruct (is_left n) eqn:En.
  - apply is_left_true in En. cbn [app].
    rewrite step2_eq, map_map.
    rewrite (map_seq_shift (fun i => sd (l ++ ds) 0 i)).
    destruct (is_left last) eqn:El.
    + pose proof El as El0. apply is_left_true in El.
      replace (last / 2 - n / 2 + 1) with (S ((c - 1 - 0 + 1) / 2)) by dlia.
      rewrite seq_S, map_app. f_equal.
      * apply map_ext_in. intros q Hq. apply in_seq in Hq.
        assert (2 * q + 1 < c) by (clear - Hq; dlia).
        rewrite SD by (clear - H0 Hlast El En; dlia). rewrite !ND by (clear - En; dlia).
        f_equal; f_equal; clear - En; dlia.
      * cbn [map]. f_equal.
        assert (Eq : 2 * (n / 2 + (0 + (c - 1 - 0 + 1) / 2)) = last) by (clear - Hlast El En Hc; dlia).
        rewrite SD by (clear - Eq Hlast Hc; lia). rewrite Eq. unfold node_join_leaves.
        rewrite El0, (Hget2 eq_refl).
        rewrite ND by (clear - Hlast; lia). rewrite NO by (clear - Hlast Hc; lia).
        f_equal. f_equal. clear - Hlast. lia.
    + apply is_left_false in El. rewrite app_nil_r.
      replace (last / 2 - n / 2 + 1) with ((c - 1 - 0 + 1) / 2) by dlia.
      apply map_ext_in. intros q Hq. apply in_seq in Hq.
      assert (2 * q + 1 < c) by (clear - Hq Hlast El En; dlia).
      rewrite SD by (clear - H0 Hlast El En; dlia). rewrite !ND by (clear - En; dlia).
      f_equal; f_equal; clear - En; dlia.
  - pose proof En as En0. apply is_left_false in En.
    rewrite step2_eq, map_map.
    rewrite (Hget1 eq_refl).
    rewrite (Nat.add_comm (last / 2 - n / 2)). cbn [Nat.add seq map].
    rewrite (map_seq_shift (fun i => sd (l ++ ds) 0 i) _ (S (n / 2))).
    cbn [app]. f_equal.
    { rewrite SD by (clear - En; lia). rewrite NL by (clear - En; lia). rewrite ND by (clear - En; lia).
      f_equal; [f_equal; clear - En; lia|]. rewrite X0. f_equal. clear - En; lia. }
    destruct (is_left last) eqn:El.
    + pose proof El as El0. apply is_left_true in El.
      replace (last / 2 - n / 2) with (S ((c - 1 - 1 + 1) / 2)) by dlia.
      rewrite seq_S, map_app. f_equal.
      * apply map_ext_in. intros q Hq. apply in_seq in Hq.
        assert (2 * q + 2 < c) by (clear - Hq; dlia).
        rewrite SD by (clear - H0 Hlast El En; dlia). rewrite !ND by (clear - En; dlia).
        f_equal; f_equal; clear - En; dlia.
      * cbn [map]. f_equal.
        assert (Eq : 2 * (S (n / 2) + (0 + (c - 1 - 1 + 1) / 2)) = last) by (clear - Hlast El En Hc; dlia).
        rewrite SD by (clear - Eq Hlast Hc; lia). rewrite Eq. unfold node_join_leaves.
        rewrite El0, (Hget2 eq_refl).
        rewrite ND by (clear - Hlast; lia). rewrite NO by (clear - Hlast Hc; lia).
        f_equal. f_equal. clear - Hlast. lia.
    + apply is_left_false in El. rewrite app_nil_r.
      replace (last / 2 - n / 2) with ((c - 1 - 1 + 1) / 2) by dlia.
      apply map_ext_in. intros q Hq. apply in_seq in Hq.
      assert (2 * q + 2 < c) by (clear - Hq Hlast El En; dlia).
      rewrite SD by (clear - H0 Hlast El En; dlia). rewrite !ND by (clear - En; dlia).
      f_equal; f_equal; clear - En; dlia.
Qed.

(** Effect of [InnerTree::batch_insert]. *)
Lemma batch_insert_inv (live : nat -> Prop) (l ds : list LD) m base :
  ds <> [] ->
  let n := length l in
  let last := n + length ds - 1 in
  n + length ds <= 2 ^ S L ->
  (forall j, n <= j -> live j) ->
  WInv live l m ->
  base = map (fun i => sd (l ++ ds) 0 i) (seq (n / 2) (last / 2 - n / 2 + 1)) ->
  exists m', inner_batch_insert di join H m (NRange n (length ds - 1)) base = Some m' /\
    WInv live (l ++ ds) m' /\ (~ bad_level H n last -> SInv live (l ++ ds) m').
Proof.
  intros Hne n last Hcap Hlive W Hbase.
  assert (Hc : 1 <= length ds) by (destruct ds; [congruence|cbn [length]; lia]).
  set (l' := l ++ ds) in *.
  assert (Hl' : length l' = S last) by (unfold l', last; rewrite app_length; fold n; lia).
  assert (Hnl : n <= last) by (unfold last; lia).
  assert (HlL : last < 2 ^ S L) by (unfold last; lia).
  assert (Hex : length ds - 1 = last - n) by (unfold last; lia).
  rewrite Hex.
  assert (LB : length base = last / 2 - n / 2 + 1) by (rewrite Hbase, map_length, seq_length; auto).
  assert (NB : forall p, p < length base -> nth p base di = sd l' 0 (n / 2 + p)).
  { intros p Hp. rewrite Hbase. rewrite (nth_indep _ di (sd l' 0 0))
      by (rewrite map_length, seq_length; lia).
    rewrite (map_nth (fun i => sd l' 0 i)), seq_nth by lia. reflexivity. }
  unfold inner_batch_insert, inner_ranges_from_leaves, last_node. cbn [rg_node rg_extra].
  replace (n + (last - n)) with last by lia.
  rewrite (Nat.add_comm L 1). cbn [Nat.add].
  destruct (Nat.leb_spec (2 ^ S L) last); [lia|].
  destruct L as [|d] eqn:EL.
  - cbn [compute_root_ranges].
    assert (Z : last / 2 = 0) by (apply Nat.div_small; simpl in HlL; lia).
    assert (Z' : n / 2 = 0) by (apply Nat.div_small; simpl in HlL; lia).
    destruct base as [|root rest]; [cbn [length] in LB; lia|].
    specialize (NB 0 ltac:(cbn [length]; lia)). cbn [nth] in NB. rewrite Z' in NB.
    eexists; split; [reflexivity|]. split.
    + intros k i Hk. rewrite EL in Hk. lia.
    + intros _. split. { intros k i Hk. rewrite EL in Hk. lia. }
      rewrite gos_set_same, EL. exact NB.
  - rewrite <- EL in *. rewrite (range_parents_eq n last Hnl).
    assert (Hm : forall k' i, 0 <= k' < L -> i < 2 ^ (L - k') -> needed live k' i ->
       ~ (n / 2 ^ S k' <= i <= last / 2 ^ S k') -> gos m (idx L k' i) = sd l' k' i).
    { intros k' i Hk' Hi Nd Ni.
      assert (CE : complete n k' i \/ nempty (S last) k' i).
      { unfold complete, nempty.
        destruct (Nat.lt_ge_cases i (n / 2 ^ S k')) as [C|C].
        - left. pose proof (div_le_start n k') as D.
          assert ((i + 1) * 2 ^ S k' <= n / 2 ^ S k' * 2 ^ S k') by (apply Nat.mul_le_mono_r; lia). lia.
        - right. assert (C2 : last / 2 ^ S k' + 1 <= i) by lia.
          pose proof (proj1 (under_iff last k' _) eq_refl) as U.
          assert ((last / 2 ^ S k' + 1) * 2 ^ S k' <= i * 2 ^ S k') by (apply Nat.mul_le_mono_r; lia). lia. }
      unfold l'. rewrite sd_app_off.
      - apply W; auto; [lia|]. destruct CE as [C|C]; [left; auto|right]. unfold nempty in *. fold n. lia.
      - destruct CE as [C|C]; [left; auto|right]. unfold nempty in *. fold n. unfold last in C. lia. }
    assert (ONE : forall st, (st = true -> ~ bad_level H n last) -> exists m' root rest,
      compute_root_ranges di join (inner_ranges d (NRange (n / 2) (last / 2 - n / 2))) m base
      = (m', root :: rest) /\
      (st = true \/ complete (length l') L 0 -> root = sd l' L 0) /\
      (forall k' i, 0 <= k' < L -> n / 2 ^ S k' <= i <= last / 2 ^ S k' ->
         st = true \/ complete (length l') k' i -> gos m' (idx L k' i) = sd l' k' i) /\
      (forall x, (forall k' i, 0 <= k' < L -> n / 2 ^ S k' <= i <= last / 2 ^ S k' -> x <> idx L k' i) ->
         m' x = m x)).
    { intros st Hst.
      apply (batch_ranges_spec dl di join joinl H live l' n last st Hnl Hl' HlL Hlive) with (k := 0).
      - intros E k Hk Ea Eb. apply (Hst E). exists k. auto.
      - rewrite EL. lia.
      - left. exact LB.
      - intros p Hp _. apply NB. exact Hp.
      - exact Hm. }
    destruct (ONE false ltac:(congruence)) as (m' & root & rest & E & A & B & C). rewrite E.
    assert (FIN : forall st k i, k < L -> i < 2 ^ (L - k) -> needed live k i ->
      (st = true \/ complete (length l') k i \/ nempty (length l') k i) ->
      (forall k' i, 0 <= k' < L -> n / 2 ^ S k' <= i <= last / 2 ^ S k' ->
         st = true \/ complete (length l') k' i -> gos m' (idx L k' i) = sd l' k' i) ->
      gos (imap_set m' 0 root) (idx L k i) = sd l' k i).
    { intros st k i Hk Hi Nd G B'. rewrite gos_set_other.
      2:{ intro E0. assert (E' : idx L k i = idx L L 0) by (rewrite idx_root; exact E0).
          apply idx_inj in E'; auto; try (clear - Hk; lia). { clear - Hk E'; lia. } }
      assert (OUT : ~ (n / 2 ^ S k <= i <= last / 2 ^ S k) -> gos m' (idx L k i) = sd l' k i).
      { intro Ni. unfold MtModel.gos. rewrite C. { apply Hm; auto. clear - Hk; lia. }
        intros k' i' Hk' Hi' Eq.
        pose proof (path_nodes_lt L last k' HlL ltac:(clear - Hk'; lia)) as P.
        apply idx_inj in Eq; auto; try (clear - Hk Hk' P Hi'; lia).
        destruct Eq; subst; auto. }
      destruct (Nat.le_gt_cases (n / 2 ^ S k) i) as [C1|C1];
      [destruct (Nat.le_gt_cases i (last / 2 ^ S k)) as [C2|C2]|].
      - apply B'; auto. { clear - Hk; lia. }
        destruct G as [G|[G|G]]; auto. exfalso. unfold nempty in G. rewrite Hl' in G.
        assert (i * 2 ^ S k <= last / 2 ^ S k * 2 ^ S k) by (apply Nat.mul_le_mono_r; exact C2).
        pose proof (div_le_start last k) as D. clear - G H1 D. lia.
      - apply OUT. clear - C2; lia.
      - apply OUT. clear - C1; lia. }
    eexists; split; [reflexivity|]. split.
    + intros k i Hk Hi Nd G. apply (FIN false); auto.
    + intro Hnb. destruct (ONE true ltac:(auto)) as (m2 & root2 & rest2 & E2 & A2 & B2 & _).
      rewrite E in E2. injection E2 as <- <- <-. split.
      * intros k i Hk Hi Nd. apply (FIN true); auto.
      * rewrite gos_set_same. apply A2. auto.
Qed.

End Hash.
