(** Arithmetic of node indices and the digest function by coordinates. *)
From Coq Require Import List Arith Bool ZArith ZifyNat ZifyBool Lia.
From Verif Require Import MtModel MtSpec.
Import ListNotations.
Ltac Zify.zify_post_hook ::= Z.div_mod_to_equations.

Lemma is_left_true i : is_left i = true -> i = 2 * (i / 2).
Proof. unfold is_left; intro E; apply Nat.even_spec in E; destruct E; lia. Qed.

Lemma is_left_false i : is_left i = false -> i = 2 * (i / 2) + 1.
Proof.
  unfold is_left; intro E.
  assert (O : Nat.odd i = true) by (unfold Nat.odd; rewrite E; reflexivity).
  apply Nat.odd_spec in O; destruct O; lia.
Qed.

Lemma is_left_iff i : is_left i = true <-> i mod 2 = 0.
Proof.
  split; intro E.
  - apply is_left_true in E; lia.
  - destruct (is_left i) eqn:F; auto. apply is_left_false in F; lia.
Qed.

Lemma is_left_double i : is_left (2 * i) = true.
Proof. apply is_left_iff; lia. Qed.

Lemma is_left_double1 i : is_left (2 * i + 1) = false.
Proof. destruct (is_left (2 * i + 1)) eqn:E; auto. apply is_left_iff in E; lia. Qed.

Lemma sibling_cases i :
  (is_left i = true /\ i = 2 * (i / 2) /\ sibling i = 2 * (i / 2) + 1) \/
  (is_left i = false /\ i = 2 * (i / 2) + 1 /\ sibling i = 2 * (i / 2)).
Proof.
  unfold sibling; destruct (is_left i) eqn:E.
  - apply is_left_true in E; left; repeat split; auto; lia.
  - apply is_left_false in E; right; repeat split; auto; lia.
Qed.

Lemma sibling_half i : sibling i / 2 = i / 2.
Proof. destruct (sibling_cases i) as [(?&?&?)|(?&?&?)]; lia. Qed.

Lemma sibling_invol i : sibling (sibling i) = i.
Proof.
  destruct (sibling_cases i) as [(?&?&?)|(?&?&?)];
  destruct (sibling_cases (sibling i)) as [(?&?&?)|(?&?&?)]; lia.
Qed.

Lemma sibling_neq i : sibling i <> i.
Proof. destruct (sibling_cases i) as [(?&?&?)|(?&?&?)]; lia. Qed.

Lemma sibling_lt i a : i < 2 ^ S a -> sibling i < 2 ^ S a.
Proof.
  intro. assert (E : 2 ^ S a = 2 * 2 ^ a) by reflexivity.
  destruct (sibling_cases i) as [(?&?&?)|(?&?&?)]; lia.
Qed.

Lemma pow2_pos a : 0 < 2 ^ a.
Proof. induction a; simpl; lia. Qed.

Lemma pow2_S a : 2 ^ S a = 2 * 2 ^ a.
Proof. reflexivity. Qed.

Lemma div_pow_S n k : n / 2 ^ S k = n / 2 ^ k / 2.
Proof.
  rewrite pow2_S, (Nat.mul_comm 2), Nat.div_div by (pose proof (pow2_pos k); lia).
  reflexivity.
Qed.

Lemma div_pow_lt n k a : n < 2 ^ (a + k) -> n / 2 ^ k < 2 ^ a.
Proof.
  intro. apply Nat.div_lt_upper_bound. { pose proof (pow2_pos k); lia. }
  rewrite <- Nat.pow_add_r, Nat.add_comm. assumption.
Qed.

(** Coordinates: level [k] counts from the lowest inner level, level [L] is the root. *)
Definition idx (L k i : nat) : nat := 2 ^ (L - k) - 1 + i.

Lemma idx_map_index L k d i : k + S d = L -> map_index (INode d i) = idx L k i.
Proof.
  intro. unfold map_index, idx; simpl. replace (L - k) with (d + 1) by lia. reflexivity.
Qed.

Lemma idx_inj L k k' i i' :
  k <= L -> k' <= L -> i < 2 ^ (L - k) -> i' < 2 ^ (L - k') ->
  idx L k i = idx L k' i' -> k = k' /\ i = i'.
Proof.
  unfold idx; intros Hk Hk' Hi Hi' E.
  assert (A : L - k = L - k').
  { destruct (Nat.lt_trichotomy (L - k) (L - k')) as [C|[C|C]]; auto; exfalso.
    - assert (2 ^ S (L - k) <= 2 ^ (L - k')) by (apply Nat.pow_le_mono_r; lia).
      rewrite pow2_S in *. pose proof (pow2_pos (L - k)); lia.
    - assert (2 ^ S (L - k') <= 2 ^ (L - k)) by (apply Nat.pow_le_mono_r; lia).
      rewrite pow2_S in *. pose proof (pow2_pos (L - k')); lia. }
  assert (k = k') by lia. subst k'. lia.
Qed.

(** Leaf [j] lies under node [(k, i)] iff [j / 2^(k+1) = i]. *)
Lemma under_iff j k i : j / 2 ^ S k = i <-> i * 2 ^ S k <= j < (i + 1) * 2 ^ S k.
Proof.
  pose proof (pow2_pos (S k)). split.
  - intros <-. pose proof (Nat.div_mod j (2 ^ S k)) as D.
    pose proof (Nat.mod_upper_bound j (2 ^ S k)). lia.
  - intros [A B]. symmetry. apply Nat.div_unique with (r := j - i * 2 ^ S k); lia.
Qed.

Lemma div_le_start j k : j / 2 ^ S k * 2 ^ S k <= j.
Proof. apply (proj1 (under_iff j k _) eq_refl). Qed.

Lemma path_nodes_lt L n k : n < 2 ^ S L -> k <= L -> n / 2 ^ S k < 2 ^ (L - k).
Proof. intros. apply div_pow_lt. replace (L - k + S k) with (S L) by lia. assumption. Qed.

(** A node of the path of [n] is not the sibling of a node of the path of [n]. *)
Lemma path_sibling_disjoint L n k k' :
  n < 2 ^ S L -> k < L -> k' <= L ->
  idx L k (sibling (n / 2 ^ S k)) <> idx L k' (n / 2 ^ S k').
Proof.
  intros Hn Hk Hk' E. apply idx_inj in E; try lia.
  - destruct E as [-> E]. apply (sibling_neq _ E).
  - replace (L - k) with (S (L - S k)) by lia. apply sibling_lt.
    replace (S (L - S k)) with (L - k) by lia. apply path_nodes_lt; lia.
  - apply path_nodes_lt; lia.
Qed.

Lemma idx_root L : idx L L 0 = 0.
Proof. unfold idx. rewrite Nat.sub_diag. reflexivity. Qed.

Lemma cap_eq H : 2 <= H -> capacity H = 2 ^ S (path_length H).
Proof. intro. unfold capacity, path_length. f_equal. lia. Qed.

Section Hash.
Context {LD ID : Type}.
Variable dl : LD.
Variable di : ID.
Variable join : ID -> ID -> ID.
Variable joinl : LD -> LD -> ID.

(** Digest of node [i] of level [k] over the leaves [l]. *)
Fixpoint sd (l : list LD) (k i : nat) : ID :=
  if i * 2 ^ S k <? length l then
    match k with
    | 0 => joinl (nth (2 * i) l dl) (nth (2 * i + 1) l dl)
    | S k' => join (sd l k' (2 * i)) (sd l k' (2 * i + 1))
    end
  else di.

Lemma sd_empty l k i : length l <= i * 2 ^ S k -> sd l k i = di.
Proof.
  intro. destruct k; cbn [sd];
  match goal with |- context [?a <? ?b] => destruct (Nat.ltb_spec a b) end; auto; lia.
Qed.

Lemma sd_0 l i : i * 2 < length l ->
  sd l 0 i = joinl (nth (2 * i) l dl) (nth (2 * i + 1) l dl).
Proof. intro. unfold sd. change (2 ^ 1) with 2. destruct (Nat.ltb_spec (i * 2) (length l)); auto; lia. Qed.

Lemma sd_S l k i : i * 2 ^ S (S k) < length l ->
  sd l (S k) i = join (sd l k (2 * i)) (sd l k (2 * i + 1)).
Proof.
  intro. cbn [sd]. destruct (Nat.ltb_spec (i * 2 ^ S (S k)) (length l)); auto; lia.
Qed.

(** Two leaf lists agreeing below the node give the same digest. *)
Lemma sd_ext l l' k : forall i,
  (forall j, j / 2 ^ S k = i -> nth_error l j = nth_error l' j) -> sd l k i = sd l' k i.
Proof.
  assert (LEN : forall (a b : list LD) j, nth_error a j = nth_error b j ->
            (j <? length a) = (j <? length b)).
  { intros a b j E. destruct (Nat.ltb_spec j (length a)), (Nat.ltb_spec j (length b)); auto.
    - apply nth_error_Some in H. apply nth_error_None in H0. congruence.
    - apply nth_error_Some in H0. apply nth_error_None in H. congruence. }
  assert (NTH : forall (a b : list LD) j, nth_error a j = nth_error b j -> nth j a dl = nth j b dl).
  { intros a b j E.
    rewrite <- !nth_default_eq. unfold nth_default. rewrite E. reflexivity. }
  induction k as [|k IH]; intros i E.
  - unfold sd. change (2 ^ 1) with 2 in *. rewrite (LEN l l' (i * 2)).
    + destruct (_ <? _); auto. f_equal; apply NTH, E; lia.
    + apply E; lia.
  - cbn [sd]. rewrite (LEN l l').
    + destruct (_ <? _); auto. f_equal; apply IH; intros j Hj; apply E;
      rewrite div_pow_S; lia.
    + apply E. apply under_iff. pose proof (pow2_pos (S (S k))). lia.
Qed.

End Hash.
