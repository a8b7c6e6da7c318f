(** Lemmas on the inner tree: single insertion, paths, current paths. *)
From Coq Require Import List Arith Bool ZArith ZifyNat ZifyBool Lia.
From Verif Require Import MtModel MtSpec MtLemmas.
Import ListNotations.
Ltac Zify.zify_post_hook ::= Z.div_mod_to_equations.

Section Nodes.
Variable H : nat.
Let L := path_length H.

Lemma inner_nodes_map {B} (f : nat -> nat -> B) (g : inode -> B) n :
  (forall k d, k + S d = L -> g (INode d (n / 2 ^ S k)) = f k (n / 2 ^ S k)) ->
  forall d k, k + S d = L ->
  map g (inner_nodes d (n / 2 ^ S k)) = map (fun k' => f k' (n / 2 ^ S k')) (seq k (S d)).
Proof.
  intro Hg. induction d; intros k Hk.
  - cbn [inner_nodes map seq]. rewrite (Hg k 0) by auto. reflexivity.
  - cbn [inner_nodes]. unfold parent. rewrite <- (div_pow_S n (S k)).
    change (seq k (S (S d))) with (k :: seq (S k) (S d)). cbn [map].
    rewrite (Hg k (S d)) by auto. rewrite IHd by lia. reflexivity.
Qed.

Lemma inner_nodes_from_leaf_map {B} (f : nat -> nat -> B) (g : inode -> B) n :
  (forall k d, k + S d = L -> g (INode d (n / 2 ^ S k)) = f k (n / 2 ^ S k)) ->
  map g (inner_nodes_from_leaf H n) = map (fun k' => f k' (n / 2 ^ S k')) (seq 0 L).
Proof.
  intro Hg. unfold inner_nodes_from_leaf. fold L. destruct L as [|d] eqn:EL; auto.
  change (parent n) with (n / 2 ^ 1). rewrite <- EL in *. rewrite (inner_nodes_map f g n Hg d 0) by (rewrite EL; lia).
  rewrite EL. reflexivity.
Qed.

Lemma path_iter_eq {ID} (di : ID) m n :
  path_iter_for_leaf di H m n = map (fun k => gos di m (idx L k (sibling (n / 2 ^ S k)))) (seq 0 L).
Proof.
  unfold path_iter_for_leaf.
  apply (inner_nodes_from_leaf_map (fun k i => gos di m (idx L k (sibling i)))).
  intros k d E. unfold inode_sibling; simpl. rewrite (idx_map_index L k) by auto. reflexivity.
Qed.

End Nodes.

Section Hash.
Context {LD ID : Type}.
Variable dl : LD.
Variable di : ID.
Variable join : ID -> ID -> ID.
Variable joinl : LD -> LD -> ID.
Notation td := (tree_digest dl di join joinl).
Notation sd := (sd dl di join joinl).
Notation gos := (gos di).

(** ** The specification by lists and by coordinates agree. *)

Lemma td_firstn : forall k (l : list LD) n, 2 ^ S k <= n -> td k (firstn n l) = td k l.
Proof.
  induction k as [|k IH]; intros l n Hn.
  - change (2 ^ 1) with 2 in Hn. destruct n as [|[|n]]; try lia.
    destruct l as [|a [|b r]]; reflexivity.
  - destruct l as [|a r]. { rewrite firstn_nil; reflexivity. }
    destruct n as [|n]. { pose proof (pow2_pos (S (S k))); lia. }
    assert (E : td (S k) (firstn (S n) (a :: r)) =
      join (td k (firstn (2 ^ S k) (firstn (S n) (a :: r))))
           (td k (skipn (2 ^ S k) (firstn (S n) (a :: r))))) by reflexivity.
    rewrite E; clear E.
    change (td (S k) (a :: r)) with
      (join (td k (firstn (2 ^ S k) (a :: r))) (td k (skipn (2 ^ S k) (a :: r)))).
    pose proof (pow2_S (S k)).
    rewrite firstn_firstn, Nat.min_l by lia.
    rewrite skipn_firstn_comm, (IH (skipn _ _)) by lia. reflexivity.
Qed.

Lemma skipn_nonnil {A} (l : list A) n : n < length l -> exists a r, skipn n l = a :: r.
Proof.
  intro. destruct (skipn n l) eqn:E; eauto.
  apply (f_equal (@length A)) in E. rewrite skipn_length in E. simpl in E; lia.
Qed.

Lemma skipn_nth_default {A} (d : A) n : forall l a r, skipn n l = a :: r ->
  nth n l d = a /\ nth (n + 1) l d = match r with [] => d | b :: _ => b end.
Proof.
  induction n; intros l a r E.
  - simpl in E; subst. simpl. destruct r; auto.
  - destruct l; simpl in E; try discriminate. simpl. apply IHn; auto.
Qed.

Lemma skipn_add {A} a b : forall l : list A, skipn a (skipn b l) = skipn (b + a) l.
Proof. induction b; intro l; simpl; auto. destruct l; auto. destruct a; reflexivity. Qed.

Lemma td_sd : forall k l i, td k (skipn (i * 2 ^ S k) l) = sd l k i.
Proof.
  induction k as [|k IH]; intros l i.
  - change (2 ^ 1) with 2.
    destruct (Nat.lt_ge_cases (i * 2) (length l)) as [C|C].
    + rewrite sd_0 by auto. destruct (skipn_nonnil l _ C) as (a & r & E). rewrite E.
      destruct (skipn_nth_default dl _ _ _ _ E) as [E1 E2].
      rewrite (Nat.mul_comm 2 i), E1, E2. reflexivity.
    + rewrite sd_empty by (simpl; lia). rewrite skipn_all2 by lia. reflexivity.
  - destruct (Nat.lt_ge_cases (i * 2 ^ S (S k)) (length l)) as [C|C].
    + rewrite sd_S by auto. rewrite <- !IH.
      destruct (skipn_nonnil l _ C) as (a & r & E).
      transitivity (join (td k (firstn (2 ^ S k) (skipn (i * 2 ^ S (S k)) l)))
                         (td k (skipn (2 ^ S k) (skipn (i * 2 ^ S (S k)) l)))).
      { rewrite E. reflexivity. }
      rewrite td_firstn by lia. rewrite skipn_add. pose proof (pow2_S (S k)).
      f_equal; f_equal; f_equal; lia.
    + rewrite sd_empty by auto. rewrite skipn_all2 by lia. reflexivity.
Qed.

(** ** Maps *)

Lemma gos_set_same m i (d : ID) : gos (imap_set m i d) i = d.
Proof. unfold gos, imap_set. rewrite Nat.eqb_refl. reflexivity. Qed.

Lemma set_same m i (d : ID) : imap_set m i d i = Some d.
Proof. unfold imap_set. rewrite Nat.eqb_refl. reflexivity. Qed.

Lemma set_other m i j (d : ID) : j <> i -> imap_set m i d j = m j.
Proof. intro. unfold imap_set. destruct (Nat.eqb_spec j i); congruence. Qed.

Lemma gos_set_other m i j (d : ID) : j <> i -> gos (imap_set m i d) j = gos m j.
Proof. intro. unfold gos. rewrite set_other; auto. Qed.

Lemma insert_and_join_eq m d i (x : ID) :
  let m' := imap_set m (map_index (INode d i)) x in
  insert_and_join di join m (INode d i) x =
  (m', node_join join i x (gos m' (map_index (inode_sibling (INode d i))))).
Proof.
  intro m'. unfold insert_and_join. fold m'. f_equal. unfold node_join. simpl nd_index.
  assert (G : gos m' (map_index (INode d i)) = x) by apply gos_set_same.
  unfold inode_sibling; simpl.
  destruct (sibling_cases i) as [(E & ? & ?)|(E & ? & ?)]; rewrite E, G; f_equal; f_equal;
  unfold map_index; simpl nd_depth; simpl nd_index; pose proof (pow2_pos (d + 1)); lia.
Qed.

Lemma node_join_sd l k n :
  n < length l ->
  node_join join (n / 2 ^ S k) (sd l k (n / 2 ^ S k)) (sd l k (sibling (n / 2 ^ S k)))
  = sd l (S k) (n / 2 ^ S (S k)).
Proof.
  intro. rewrite (div_pow_S n (S k)). set (i := n / 2 ^ S k).
  rewrite sd_S.
  - unfold node_join. destruct (sibling_cases i) as [(E & E1 & E2)|(E & E1 & E2)]; rewrite E, E2; f_equal; f_equal; lia.
  - pose proof (div_le_start n (S k)) as D. rewrite (div_pow_S n (S k)) in D. fold i in D. lia.
Qed.

Lemma path_fold_climb ds : forall i acc, path_fold join i acc ds = climb join i acc ds.
Proof.
  induction ds; intros; auto. cbn [path_fold climb]. unfold node_join, is_left, parent.
  destruct (Nat.even (i / 2)); apply IHds.
Qed.

Lemma join_leaves_sd l n : n < length l ->
  node_join_leaves joinl n (nth n l dl) (nth (sibling n) l dl) = sd l 0 (n / 2).
Proof.
  intro. rewrite sd_0 by lia. unfold node_join_leaves.
  destruct (sibling_cases n) as [(E & E1 & E2)|(E & E1 & E2)]; rewrite E, E2;
  rewrite <- ?E1; f_equal; f_equal; lia.
Qed.

Variable H : nat.
Let L := path_length H.

Lemma spec_root_sd l : spec_root dl di join joinl H l = sd l L 0.
Proof. unfold spec_root. rewrite <- td_sd. reflexivity. Qed.

Definition on_path_from (n k0 x : nat) : Prop :=
  exists k, k0 <= k <= L /\ x = idx L k (n / 2 ^ S k).

Lemma compute_root_nodes_spec (l : list LD) (n : nat) :
  n < length l -> n < 2 ^ S L ->
  forall d k m acc,
  k + S d = L ->
  acc = sd l k (n / 2 ^ S k) ->
  (forall k', k <= k' < L -> gos m (idx L k' (sibling (n / 2 ^ S k'))) = sd l k' (sibling (n / 2 ^ S k'))) ->
  exists m',
    compute_root_nodes di join (inner_nodes d (n / 2 ^ S k)) m acc = (m', sd l L 0) /\
    (forall k', k <= k' < L -> m' (idx L k' (n / 2 ^ S k')) = Some (sd l k' (n / 2 ^ S k'))) /\
    (forall x, (forall k', k <= k' < L -> x <> idx L k' (n / 2 ^ S k')) -> m' x = m x).
Proof.
  intros Hn HnL. induction d as [|d IH]; intros k m acc Hk Hacc Hsib.
  - (* last level below the root *)
    cbn [inner_nodes compute_root_nodes]. rewrite insert_and_join_eq. subst acc.
    rewrite (idx_map_index L k) by auto. unfold inode_sibling; cbn [nd_depth nd_index].
    rewrite (idx_map_index L k) by auto.
    rewrite gos_set_other by (apply path_sibling_disjoint; lia).
    rewrite Hsib by lia. rewrite node_join_sd by auto.
    assert (Z : n / 2 ^ S L = 0) by (apply Nat.div_small; auto).
    assert (R : sd l (S k) (n / 2 ^ S (S k)) = sd l L 0).
    { replace (S k) with L by lia. rewrite Z. reflexivity. }
    rewrite R. eexists; split; [reflexivity|]. split.
    + intros k' Hk'. replace k' with k by lia. apply set_same.
    + intros x Hx. apply set_other. apply Hx. lia.
  - cbn [inner_nodes compute_root_nodes]. rewrite insert_and_join_eq. subst acc.
    rewrite (idx_map_index L k) by auto. unfold inode_sibling; cbn [nd_depth nd_index].
    rewrite (idx_map_index L k) by auto.
    rewrite gos_set_other by (apply path_sibling_disjoint; lia).
    rewrite Hsib by lia. rewrite node_join_sd by auto.
    unfold parent. rewrite <- (div_pow_S n (S k)).
    set (m1 := imap_set m (idx L k (n / 2 ^ S k)) (sd l k (n / 2 ^ S k))).
    destruct (IH (S k) m1 _ ltac:(lia) eq_refl) as (m' & E & A & B).
    { intros k' Hk'. unfold m1. rewrite gos_set_other by (apply path_sibling_disjoint; lia).
      apply Hsib; lia. }
    exists m'. split; [exact E|]. split.
    + intros k' Hk'. destruct (Nat.eq_dec k' k) as [->|C].
      * rewrite B. { apply set_same. }
        intros k' Hk'' E'. apply idx_inj in E'; try lia; apply path_nodes_lt; lia.
      * apply A; lia.
    + intros x Hx. rewrite B. { apply set_other. apply Hx; lia. } intros; apply Hx; lia.
Qed.

(** Effect of [InnerTree::insert]. *)
Lemma inner_insert_spec (l : list LD) (n : nat) m :
  n < length l -> n < 2 ^ S L ->
  (forall k, k < L -> gos m (idx L k (sibling (n / 2 ^ S k))) = sd l k (sibling (n / 2 ^ S k))) ->
  let m' := inner_insert di join H m n (sd l 0 (n / 2)) in
  (forall k, k <= L -> m' (idx L k (n / 2 ^ S k)) = Some (sd l k (n / 2 ^ S k))) /\
  (forall x, ~ on_path_from n 0 x -> m' x = m x).
Proof.
  intros Hn HnL Hsib m'.
  assert (Z : n / 2 ^ S L = 0) by (apply Nat.div_small; auto).
  unfold m', inner_insert, inner_nodes_from_leaf. fold L.
  destruct L as [|d] eqn:EL.
  - cbn [compute_root_nodes]. split.
    + intros k Hk. replace k with 0 by lia. change (2 ^ 1) with 2 in *. rewrite Z. apply set_same.
    + intros x Hx. apply set_other. intro E; apply Hx. exists 0. split; [lia|]. rewrite EL, E.
      change (2 ^ 1) with 2 in *. rewrite Z. reflexivity.
  - rewrite <- EL in *.
    destruct (compute_root_nodes_spec l n Hn HnL d 0 m _ ltac:(rewrite EL; lia) eq_refl)
      as (m1 & E & A & B).
    { intros k' Hk'. apply Hsib. lia. }
    change (2 ^ 1) with 2 in E. unfold parent. rewrite E. split.
    + intros k Hk. destruct (Nat.eq_dec k L) as [->|C].
      * rewrite Z, idx_root. apply set_same.
      * rewrite set_other. { apply A; lia. }
        intro E0. assert (E' : idx L k (n / 2 ^ S k) = idx L L 0) by (rewrite idx_root; exact E0).
        apply idx_inj in E'; try lia; apply path_nodes_lt; lia.
    + intros x Hx. rewrite set_other.
      * apply B. intros k' Hk' E'. apply Hx. exists k'; split; [lia|auto].
      * intro E'. apply Hx. exists L. split; [lia|]. rewrite Z, idx_root. auto.
Qed.

(** ** Paths *)

(** The specification's siblings of the path of leaf [n]. *)
Definition spath l n := map (fun k => sd l k (sibling (n / 2 ^ S k))) (seq 0 L).

Lemma path_fold_sd l n : n < length l ->
  forall c k, k + c = L ->
  path_fold join (n / 2 ^ k) (sd l k (n / 2 ^ S k)) (map (fun k => sd l k (sibling (n / 2 ^ S k))) (seq k c))
  = sd l L (n / 2 ^ S L).
Proof.
  intros Hn. induction c; intros k E.
  - cbn [seq map path_fold]. replace k with L by lia. reflexivity.
  - cbn [seq map path_fold]. unfold parent. rewrite <- div_pow_S.
    rewrite node_join_sd by auto. apply IHc. lia.
Qed.

Lemma spath_root l n : n < length l -> n < 2 ^ S L ->
  path_root join joinl (Path n (nth (sibling n) l dl) (spath l n)) (nth n l dl) = sd l L 0.
Proof.
  intros. unfold path_root; simpl. rewrite join_leaves_sd by auto.
  pose proof (path_fold_sd l n H0 L 0 eq_refl) as E. rewrite Nat.pow_0_r, Nat.div_1_r in E.
  change (2 ^ 1) with 2 in E. unfold spath. rewrite E. f_equal. apply Nat.div_small; auto.
Qed.

End Hash.
