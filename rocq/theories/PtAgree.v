(** Two inner maps that agree where an insertion reads give the same root and agree after
    the insertion wherever they agreed before. *)
From Coq Require Import List Arith Bool ZArith ZifyNat ZifyBool Lia.
From Verif Require Import MtModel MtSpec MtLemmas MtInner MtInv MtBatch.
Import ListNotations.
Ltac dlia := zify; Z.div_mod_to_equations; lia.

Section Hash.
Context {LD ID : Type}.
Variable dl : LD.
Variable di : ID.
Variable join : ID -> ID -> ID.
Variable joinl : LD -> LD -> ID.

Definition agree (m m' : imap ID) (x : nat) : Prop := gos di m x = gos di m' x.

Lemma agree_set m m' i (d : ID) x : agree m m' x -> agree (imap_set m i d) (imap_set m' i d) x.
Proof. unfold agree, gos, imap_set. intro A. destruct (Nat.eqb x i); auto. Qed.

Lemma agree_set_same m m' i (d : ID) : agree (imap_set m i d) (imap_set m' i d) i.
Proof. unfold agree. now rewrite !gos_set_same. Qed.

Lemma compute_root_nodes_agree ns : forall m m' acc,
  (forall n, In n ns -> agree m m' (map_index (inode_sibling n))) ->
  snd (compute_root_nodes di join ns m acc) = snd (compute_root_nodes di join ns m' acc) /\
  (forall x, agree m m' x ->
     agree (fst (compute_root_nodes di join ns m acc)) (fst (compute_root_nodes di join ns m' acc)) x) /\
  (forall n, In n ns ->
     agree (fst (compute_root_nodes di join ns m acc)) (fst (compute_root_nodes di join ns m' acc)) (map_index n)).
Proof.
  induction ns as [|[d i] ns IH]; intros m m' acc A; [split; [|split]; auto; intros n []|].
  cbn [compute_root_nodes]. rewrite !(insert_and_join_eq dl di join joinl).
  pose proof (A (INode d i) (or_introl eq_refl)) as A0.
  pose proof (agree_set _ _ (map_index (INode d i)) acc _ A0) as A1. unfold agree in A1. rewrite A1.
  set (m1 := imap_set m (map_index (INode d i)) acc).
  set (m1' := imap_set m' (map_index (INode d i)) acc).
  set (acc1 := node_join join i acc _).
  destruct (IH m1 m1' acc1) as (R & B & C).
  { intros n Hn. apply agree_set. apply A. right; auto. }
  split; auto. split.
  - intros x Hx. apply B. apply agree_set; auto.
  - intros n [<-|Hn]; [|apply C; auto]. apply B. apply agree_set_same.
Qed.

Lemma inner_insert_agree H m m' leaf (base : ID) :
  (forall n, In n (inner_nodes_from_leaf H leaf) -> agree m m' (map_index (inode_sibling n))) ->
  agree (inner_insert di join H m leaf base) (inner_insert di join H m' leaf base) 0 /\
  (forall x, agree m m' x ->
     agree (inner_insert di join H m leaf base) (inner_insert di join H m' leaf base) x) /\
  (forall n, In n (inner_nodes_from_leaf H leaf) ->
     agree (inner_insert di join H m leaf base) (inner_insert di join H m' leaf base) (map_index n)).
Proof.
  intro A. unfold inner_insert.
  destruct (compute_root_nodes_agree _ m m' base A) as (R & B & C).
  destruct (compute_root_nodes di join (inner_nodes_from_leaf H leaf) m base) as [m1 r1].
  destruct (compute_root_nodes di join (inner_nodes_from_leaf H leaf) m' base) as [m2 r2].
  cbn [fst snd] in *. subst r2. split; [|split].
  - apply agree_set_same.
  - intros x Hx. apply agree_set; auto.
  - intros n Hn. apply agree_set; auto.
Qed.

Lemma set_zip_agree n : forall m m' s (ds : list ID) x, agree m m' x ->
  agree (set_zip m s n ds) (set_zip m' s n ds) x.
Proof.
  induction n; intros m m' s ds x A; cbn [set_zip]; auto. destruct ds; auto.
  apply IHn. apply agree_set; auto.
Qed.

Lemma set_zip_agree_in n m m' s (ds : list ID) x :
  s <= x < s + Nat.min n (length ds) -> agree (set_zip m s n ds) (set_zip m' s n ds) x.
Proof.
  intro Hx. unfold agree, gos. rewrite !(set_zip_spec dl di join joinl).
  replace ((s <=? x) && (x <? s + Nat.min n (length ds))) with true; auto.
  symmetry. apply andb_true_iff. split; [apply Nat.leb_le|apply Nat.ltb_lt]; lia.
Qed.

Variable H : nat.
Notation L := (path_length H).

(** Agreement on the nodes other than the one above [n] whose pair contains or follows the
    node above [n]. *)
Definition agree_after (n : nat) (m m' : imap ID) : Prop :=
  forall k c, k < L -> c < 2 ^ (L - k) -> 2 * (n / 2 ^ S k / 2) <= c -> c <> n / 2 ^ S k ->
  agree m m' (idx L k c).

Lemma insert_range_agree n last k d m m' (ds : list ID) :
  k + S d = L -> n <= last -> last < 2 ^ S L -> ds <> [] -> agree_after n m m' ->
  let r := NRange (n / 2 ^ S k) (last / 2 ^ S k - n / 2 ^ S k) in
  snd (insert_range_and_join di join m d r ds) = snd (insert_range_and_join di join m' d r ds) /\
  snd (insert_range_and_join di join m d r ds) <> [] /\
  (forall x, agree m m' x ->
     agree (fst (insert_range_and_join di join m d r ds)) (fst (insert_range_and_join di join m' d r ds)) x) /\
  agree (fst (insert_range_and_join di join m d r ds)) (fst (insert_range_and_join di join m' d r ds))
    (idx L k (n / 2 ^ S k)).
Proof.
  intros Hk Hn HL Hds A r. unfold r.
  set (a := n / 2 ^ S k). set (b := last / 2 ^ S k).
  assert (Hab : a <= b).
  { unfold a, b. apply Nat.div_le_mono; auto. pose proof (pow2_pos (S k)). lia. }
  assert (Hb : b < 2 ^ (L - k)) by (apply path_nodes_lt; auto; lia).
  rewrite !(insert_range_eq dl di join joinl H k d) by auto. cbn [fst snd].
  split; [|split; [|split]].
  - apply map_ext_in. intros q Hq. apply in_seq in Hq.
    assert (E : forall c, c = 2 * (a / 2) + 2 * q \/ c = 2 * (a / 2) + 2 * q + 1 ->
      agree (set_zip m (idx L k a) (b - a + 1) ds) (set_zip m' (idx L k a) (b - a + 1) ds) (idx L k c)).
    { intros c Hc. destruct (Nat.eq_dec c a) as [->|Hca].
      - apply set_zip_agree_in. unfold idx.
        assert (0 < length ds) by (destruct ds; [congruence|cbn [length]; lia]). lia.
      - apply set_zip_agree. apply A; auto; try lia.
        + assert (P : 2 ^ (L - k) = 2 * 2 ^ (L - S k)).
          { replace (L - k) with (S (L - S k)) by lia. apply pow2_S. }
          assert (Hq2 : q <= b / 2 - a / 2) by (clear - Hq Hab; dlia).
          assert (c <= 2 * (b / 2) + 1) by (clear - Hq2 Hc Hab; dlia).
          rewrite P in *. clear - H0 Hb. dlia. }
    unfold agree in E. rewrite !E by auto. reflexivity.
  - intro F. apply (f_equal (@length ID)) in F. rewrite map_length, seq_length in F. cbn [length] in F.
    clear - F Hab. dlia.
  - intros x Hx. apply set_zip_agree; auto.
  - apply set_zip_agree_in. fold a.
    assert (0 < length ds) by (destruct ds; [congruence|cbn [length]; lia]). lia.
Qed.

Lemma compute_root_ranges_agree n last : n <= last -> last < 2 ^ S L ->
  forall d k m m' ds, k + S d = L -> ds <> [] -> agree_after n m m' ->
  let rs := inner_ranges d (NRange (n / 2 ^ S k) (last / 2 ^ S k - n / 2 ^ S k)) in
  snd (compute_root_ranges di join rs m ds) = snd (compute_root_ranges di join rs m' ds) /\
  snd (compute_root_ranges di join rs m ds) <> [] /\
  (forall x, agree m m' x ->
     agree (fst (compute_root_ranges di join rs m ds)) (fst (compute_root_ranges di join rs m' ds)) x) /\
  (forall k', k <= k' < L ->
     agree (fst (compute_root_ranges di join rs m ds)) (fst (compute_root_ranges di join rs m' ds))
       (idx L k' (n / 2 ^ S k'))).
Proof.
  intros Hn HL. induction d as [|d IH]; intros k m m' ds Hk Hds A rs.
  - unfold rs. cbn [inner_ranges compute_root_ranges].
    pose proof (insert_range_agree n last k 0 m m' ds Hk Hn HL Hds A) as G. cbv zeta in G.
    destruct (insert_range_and_join di join m 0 _ ds) as [m1 d1].
    destruct (insert_range_and_join di join m' 0 _ ds) as [m2 d2]. destruct G as (G1 & G2 & G3 & G4).
    split; auto. split; auto. split; auto. intros k' Hk'. replace k' with k by lia. exact G4.
  - unfold rs. cbn [inner_ranges compute_root_ranges].
    pose proof (insert_range_agree n last k (S d) m m' ds Hk Hn HL Hds A) as G. cbv zeta in G.
    destruct (insert_range_and_join di join m (S d) _ ds) as [m1 d1].
    destruct (insert_range_and_join di join m' (S d) _ ds) as [m2 d2]. cbn [fst snd] in G.
    destruct G as (<- & Hne & G & G').
    rewrite range_parents_eq by (apply Nat.div_le_mono; [pose proof (pow2_pos (S k)); lia|auto]).
    rewrite <- !(div_pow_S _ (S k)).
    destruct (IH (S k) m1 m2 d1 ltac:(lia) Hne) as (R1 & R2 & R3 & R4).
    { intros k' c Hk' Hc Hc1 Hc2. apply G. apply A; auto. }
    split; auto. split; auto. split; auto. intros k' Hk'.
    destruct (Nat.eq_dec k' k) as [->|]; [apply R3; exact G'|apply R4; lia].
Qed.

Lemma inner_batch_insert_agree n last m m' (base : list ID) :
  n <= last -> last < 2 ^ S L -> base <> [] -> agree_after n m m' ->
  let r := NRange n (last - n) in
  match inner_batch_insert di join H m r base, inner_batch_insert di join H m' r base with
  | Some m1, Some m2 => agree m1 m2 0 /\ (forall x, agree m m' x -> agree m1 m2 x) /\
      (forall k, k < L -> agree m1 m2 (idx L k (n / 2 ^ S k)))
  | _, _ => False
  end.
Proof.
  intros Hn HL Hb A r. unfold r, inner_batch_insert, inner_ranges_from_leaves, last_node.
  cbn [rg_node rg_extra]. replace (n + (last - n)) with last by lia.
  rewrite (Nat.add_comm L 1). cbn [Nat.add].
  destruct (Nat.leb_spec (2 ^ S L) last); [lia|].
  destruct L as [|d] eqn:EL.
  - cbn [compute_root_ranges]. destruct base as [|root rest]; [congruence|]. split; [|split].
    + apply agree_set_same.
    + intros x Hx. apply agree_set; auto.
    + intros k Hk. lia.
  - rewrite (range_parents_eq n last Hn).
    pose proof (compute_root_ranges_agree n last Hn ltac:(rewrite EL; auto) d 0 m m' base
      ltac:(rewrite EL; lia) Hb A) as G. cbv zeta in G. change (2 ^ 1) with 2 in G.
    destruct (compute_root_ranges di join _ m base) as [m1 d1].
    destruct (compute_root_ranges di join _ m' base) as [m2 d2]. cbn [fst snd] in G.
    destruct G as (<- & Hne & G & G'). destruct d1 as [|root rest]; [congruence|]. split; [|split].
    + apply agree_set_same.
    + intros x Hx. apply agree_set; auto.
    + intros k Hk. apply agree_set. rewrite <- EL in *. apply G'. lia.
Qed.

(** Joining the leaves of a batch reads two sibling leaves at most. *)
Lemma range_join_leaves_get n last (ds : list LD) get get' :
  length ds = S (last - n) -> n <= last ->
  (is_left n = false -> get n = get' n) ->
  (is_left last = true -> get last = get' last) ->
  range_join_leaves dl joinl (NRange n (last - n)) ds get =
  range_join_leaves dl joinl (NRange n (last - n)) ds get'.
Proof.
  intros Hl Hn G1 G2. unfold range_join_leaves. destruct ds as [|x r]; auto.
  rewrite !dual_parity_fst, !dual_parity_snd. unfold last_node. cbn [rg_node rg_extra].
  replace (n + (last - n)) with last by lia.
  destruct (is_left n); [|rewrite (G1 eq_refl)]; (destruct (is_left last); [rewrite (G2 eq_refl)|]); reflexivity.
Qed.

Lemma range_join_leaves_nonnil n last (ds : list LD) get base :
  length ds = S (last - n) -> n <= last ->
  range_join_leaves dl joinl (NRange n (last - n)) ds get = Some base -> base <> [].
Proof.
  intros Hl Hn E F. subst base. unfold range_join_leaves in E. destruct ds as [|x r]; [discriminate|].
  rewrite dual_parity_fst, dual_parity_snd in E. cbn [rg_node rg_extra] in E.
  replace (n + (last - n)) with last in E by lia. injection E as E.
  apply app_eq_nil in E. destruct E as [E1 E]. apply app_eq_nil in E. destruct E as [E2 E3].
  destruct (is_left n) eqn:En; [|discriminate]. destruct (is_left last) eqn:El; [discriminate|].
  apply (f_equal (@length ID)) in E2. unfold steps_between in E2. rewrite map_length, step2_eq, map_length, seq_length in E2.
  cbn [length] in E2, Hl. apply is_left_true in En. apply is_left_false in El.
  assert (length r <> 0) by (clear - Hl En El Hn; dlia).
  clear - E2 H0. dlia.
Qed.
End Hash.
