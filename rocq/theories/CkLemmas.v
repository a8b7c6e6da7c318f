(** Lemmas about checkpoint pruning. *)

From Coq Require Import List Arith Bool Lia.
From Verif Require Import CkModel CkSpec.
Import ListNotations.

(** Lexicographic order against the order of every counter. *)
Lemma lex_ge : forall a b, length a = length b ->
  (forall i, nth i b 0 <= nth i a 0) -> lex_cmp a b <> Lt.
Proof.
  induction a as [|x a IH]; intros [|y b] L H; cbn in *; try discriminate; try lia.
  pose proof (H 0) as H0; cbn in H0.
  destruct (x ?= y) eqn:E; try discriminate.
  - apply IH; [lia|]. intros i; exact (H (S i)).
  - apply Nat.compare_lt_iff in E; lia.
Qed.

Lemma lex_flip : forall a b, lex_cmp b a = CompOpp (lex_cmp a b).
Proof.
  induction a as [|x a IH]; intros [|y b]; cbn; auto.
  rewrite (Nat.compare_antisym x y). destruct (x ?= y); cbn; auto.
Qed.

Lemma lex_refl : forall a, lex_cmp a a = Eq.
Proof. induction a; cbn; auto. now rewrite Nat.compare_refl. Qed.

Lemma lex_eq : forall a b, lex_cmp a b = Eq -> a = b.
Proof.
  induction a as [|x a IH]; intros [|y b] H; cbn in *; try discriminate; auto.
  destruct (x ?= y) eqn:E; try discriminate.
  apply Nat.compare_eq in E. f_equal; auto.
Qed.

Lemma covers_not_lt : forall a b, covers a b -> ck_ltb a b = false.
Proof.
  intros a b [L [H S]]. unfold ck_ltb, ck_cmp.
  pose proof (lex_ge _ _ L H) as N.
  destruct (lex_cmp (recv a) (recv b)); auto; try congruence.
  destruct (send a ?= send b) eqn:E; auto. apply Nat.compare_lt_iff in E; lia.
Qed.

Lemma covers_leb_eq : forall a b, covers a b -> ck_leb a b = true -> a = b.
Proof.
  intros a b [L [H S]] E. unfold ck_leb, ck_cmp in E.
  pose proof (lex_ge _ _ L H) as N.
  destruct (lex_cmp (recv a) (recv b)) eqn:F; try congruence; try discriminate.
  apply lex_eq in F. destruct a as [ra sa], b as [rb sb]; cbn in *; subst. f_equal.
  destruct (sa ?= sb) eqn:G; try discriminate.
  - now apply Nat.compare_eq in G.
  - apply Nat.compare_lt_iff in G; lia.
Qed.

Lemma bump_length : forall l i, length (bump l i) = length l.
Proof. induction l; destruct i; cbn; auto. Qed.

Lemma bump_nth : forall l i j, i < length l ->
  nth j (bump l i) 0 = (if j =? i then 1 else 0) + nth j l 0.
Proof.
  induction l as [|x l IH]; intros i j Hi; cbn in Hi; [lia|].
  destruct i as [|i], j as [|j]; cbn; auto.
  rewrite IH by lia. reflexivity.
Qed.

Lemma skipn_more {A} : forall (l : list A) n, length l <= n -> skipn n l = [].
Proof. intros. apply skipn_all2; auto. Qed.

Section L.
  Variables U V : Type.
  Variable sh : U -> nat.

  Lemma fold_bump : forall (us : list U) l,
    (forall u, In u us -> sh u < length l) ->
    length (fold_left (fun l u => bump l (sh u)) us l) = length l /\
    forall j, nth j (fold_left (fun l u => bump l (sh u)) us l) 0 =
              nth j l 0 + count_shard sh j us.
  Proof.
    induction us as [|u us IH]; intros l H.
    - cbn. split; auto.
    - cbn [fold_left].
      destruct (IH (bump l (sh u))) as [L N].
      { intros v Hv. rewrite bump_length. apply H; right; auto. }
      rewrite bump_length in L. split; auto.
      intros j. rewrite N, bump_nth by (apply H; left; auto).
      unfold count_shard, of_shard. cbn [filter].
      rewrite (Nat.eqb_sym j). destruct (sh u =? j); cbn [length]; lia.
  Qed.

  Lemma updated_origin_advanced : forall o (d : sdata U V),
    (forall u, In u (notes d) -> sh u < length (recv o)) ->
    advanced sh o d (updated_origin sh o d).
  Proof.
    intros o d H. destruct (fold_bump (notes d) (recv o) H) as [L N].
    repeat split; cbn; auto. intros i _. apply N.
  Qed.

  Lemma unseen_shard : forall us signer pos i,
    of_shard sh i (unseen sh signer pos us) = skipn (signer i - pos i) (of_shard sh i us).
  Proof.
    induction us as [|u us IH]; intros signer pos i.
    - cbn. now rewrite skipn_nil.
    - cbn [unseen]. unfold of_shard in *. cbn [filter].
      destruct (Nat.eqb_spec (sh u) i) as [<-|N].
      + destruct (Nat.leb_spec (signer (sh u)) (pos (sh u))) as [Le|Gt].
        * cbn [filter]. rewrite Nat.eqb_refl, IH, Nat.eqb_refl.
          replace (signer (sh u) - S (pos (sh u))) with 0 by lia.
          replace (signer (sh u) - pos (sh u)) with 0 by lia. reflexivity.
        * rewrite IH, Nat.eqb_refl.
          replace (signer (sh u) - pos (sh u)) with (S (signer (sh u) - S (pos (sh u))))
            by lia. reflexivity.
      + destruct (signer (sh u) <=? pos (sh u)).
        * cbn [filter]. rewrite (proj2 (Nat.eqb_neq _ _) N), IH.
          rewrite (proj2 (Nat.eqb_neq i (sh u))) by auto. reflexivity.
        * rewrite IH. rewrite (proj2 (Nat.eqb_neq i (sh u))) by auto. reflexivity.
  Qed.

  Lemma unseen_nulls_skipn : forall (vs : list V) signer pos,
    unseen_nulls signer pos vs = skipn (signer - pos) vs.
  Proof.
    induction vs as [|v vs IH]; intros s p; cbn [unseen_nulls].
    - now rewrite skipn_nil.
    - rewrite IH. destruct (Nat.leb_spec s p).
      + replace (s - p) with 0 by lia. replace (s - S p) with 0 by lia. reflexivity.
      + replace (s - p) with (S (s - S p)) by lia. reflexivity.
  Qed.

  (** Lookup in the grouping map. *)
  Fixpoint dm_get (m : list (nat * list U)) (k : nat) : option (list U) :=
    match m with
    | [] => None
    | (k', l) :: r => if k =? k' then Some l else dm_get r k
    end.

  Lemma dm_push_get : forall m k u j,
    dm_get (dm_push k u m) j =
    if j =? k then Some (match dm_get m k with Some l => l ++ [u] | None => [u] end)
    else dm_get m j.
  Proof.
    induction m as [|[k' l] m IH]; intros k u j; cbn.
    - destruct (j =? k); auto.
    - destruct (Nat.eqb_spec k k') as [->|N]; cbn.
      + destruct (j =? k'); auto.
      + rewrite IH. destruct (Nat.eqb_spec j k') as [->|M].
        * rewrite (proj2 (Nat.eqb_neq k' k)) by auto. reflexivity.
        * reflexivity.
  Qed.

  Definition as_entry (l : list U) : option (list U) :=
    match l with [] => None | _ => Some l end.

  Lemma dm_group_get : forall us m seen,
    (forall j, dm_get m j = as_entry (of_shard sh j seen)) ->
    forall j, dm_get (dm_group sh us m) j = as_entry (of_shard sh j (seen ++ us)).
  Proof.
    induction us as [|u us IH]; intros m seen H j; cbn [dm_group].
    - rewrite app_nil_r; auto.
    - rewrite (IH _ (seen ++ [u])).
      + rewrite <- app_assoc. reflexivity.
      + intros i. rewrite dm_push_get, !H. unfold of_shard. rewrite filter_app. cbn [filter].
        rewrite (Nat.eqb_sym (sh u) i).
        destruct (Nat.eqb_spec i (sh u)) as [->|N].
        * destruct (filter (fun u0 => sh u0 =? sh u) seen); reflexivity.
        * now rewrite app_nil_r.
  Qed.

  Lemma dm_remove_get : forall m k, fst (dm_remove k m) = dm_get m k.
  Proof.
    induction m as [|[k' l] m IH]; intros k; cbn; auto.
    destruct (k =? k'); auto. rewrite <- IH. destruct (dm_remove k m); auto.
  Qed.

  Lemma dm_remove_other : forall m k j, j <> k ->
    dm_get (snd (dm_remove k m)) j = dm_get m j.
  Proof.
    induction m as [|[k' l] m IH]; intros k j N; cbn; auto.
    destruct (Nat.eqb_spec k k') as [->|M]; cbn.
    - rewrite (proj2 (Nat.eqb_neq j k')) by auto. reflexivity.
    - specialize (IH k j N). destruct (dm_remove k m) as [o r]; cbn in *. now rewrite IH.
  Qed.

  (** What the loop over the shards keeps. *)
  Fixpoint kept (us : list U) (i : nat) (z : list (nat * nat)) : list U :=
    match z with
    | [] => []
    | (o, s) :: r => skipn (s - o) (of_shard sh i us) ++ kept us (S i) r
    end.

  Fixpoint lost (us : list U) (i : nat) (z : list (nat * nat)) : bool :=
    match z with
    | [] => false
    | (o, s) :: r =>
        ((0 <? s - o) && negb (length (of_shard sh i us) =? 0)) || lost us (S i) r
    end.

  Lemma prune_shards_spec : forall us z i m acc p,
    (forall o s, In (o, s) z -> o <= s) ->
    (forall j, i <= j -> dm_get m j = as_entry (of_shard sh j us)) ->
    prune_shards i z m acc p = Ret (p || lost us i z, acc ++ kept us i z).
  Proof.
    intros us. induction z as [|[o s] z IH]; intros i m acc p H G.
    - cbn. now rewrite orb_false_r, app_nil_r.
    - cbn [prune_shards].
      assert (o <= s) by (apply H; left; auto).
      destruct (Nat.ltb_spec s o); [lia|].
      pose proof (dm_remove_get m i) as R.
      pose proof (dm_remove_other m i) as O.
      rewrite (G i (le_n i)) in R.
      destruct (dm_remove i m) as [e m']; cbn in R, O; subst e.
      cbn [kept lost].
      destruct (of_shard sh i us) as [|x l] eqn:E; cbn [as_entry].
      + rewrite IH.
        * rewrite skipn_nil. cbn [length Nat.eqb negb]. rewrite andb_false_r. reflexivity.
        * intros; apply H; right; auto.
        * intros j Hj. rewrite O by lia. apply G; lia.
      + rewrite IH.
        * cbn [length Nat.eqb negb]. rewrite andb_true_r, app_assoc, orb_assoc. reflexivity.
        * intros; apply H; right; auto.
        * intros j Hj. rewrite O by lia. apply G; lia.
  Qed.

  Lemma of_shard_app : forall i (a b : list U),
    of_shard sh i (a ++ b) = of_shard sh i a ++ of_shard sh i b.
  Proof. intros. apply filter_app. Qed.

  Lemma in_skipn : forall (A : Type) n (l : list A) x, In x (skipn n l) -> In x l.
  Proof.
    intros A n l x H. rewrite <- (firstn_skipn n l). apply in_or_app. auto.
  Qed.

  Lemma of_shard_other : forall i j n (us : list U), i <> j ->
    of_shard sh i (skipn n (of_shard sh j us)) = [].
  Proof.
    intros i j n us N.
    assert (F : forall l, (forall u, In u l -> sh u = j) -> of_shard sh i l = []).
    { induction l as [|u l IH]; intros H; cbn; auto.
      rewrite (H u) by (left; auto). rewrite (proj2 (Nat.eqb_neq j i)) by auto.
      apply IH. intros v Hv; apply H; right; auto. }
    apply F. intros u Hu. apply in_skipn in Hu. apply filter_In in Hu.
    apply Nat.eqb_eq, Hu.
  Qed.

  Lemma of_shard_same : forall i n (us : list U),
    of_shard sh i (skipn n (of_shard sh i us)) = skipn n (of_shard sh i us).
  Proof.
    intros i n us.
    assert (F : forall l, (forall u, In u l -> sh u = i) -> of_shard sh i l = l).
    { induction l as [|u l IH]; intros H; cbn; auto.
      rewrite (H u) by (left; auto). rewrite Nat.eqb_refl. f_equal.
      apply IH. intros v Hv; apply H; right; auto. }
    apply F. intros u Hu. apply in_skipn in Hu. apply filter_In in Hu.
    apply Nat.eqb_eq, Hu.
  Qed.

  Lemma kept_before : forall us z i j, j < i -> of_shard sh j (kept us i z) = [].
  Proof.
    intros us. induction z as [|[o s] z IH]; intros i j H; cbn [kept]; auto.
    rewrite of_shard_app, of_shard_other by lia. apply IH; lia.
  Qed.

  Lemma kept_shard : forall us z i j, i <= j -> j < i + length z ->
    of_shard sh j (kept us i z) =
    skipn (snd (nth (j - i) z (0, 0)) - fst (nth (j - i) z (0, 0))) (of_shard sh j us).
  Proof.
    intros us. induction z as [|[o s] z IH]; intros i j H L; cbn [kept length] in *; [lia|].
    rewrite of_shard_app. destruct (Nat.eq_dec i j) as [->|N].
    - rewrite of_shard_same, kept_before by lia.
      rewrite app_nil_r. replace (j - j) with 0 by lia. reflexivity.
    - rewrite of_shard_other by auto. rewrite IH by lia.
      replace (j - i) with (S (j - S i)) by lia. reflexivity.
  Qed.

  Lemma kept_after : forall us z i j, i + length z <= j -> of_shard sh j (kept us i z) = [].
  Proof.
    intros us. induction z as [|[o s] z IH]; intros i j H; cbn [kept length] in *; auto.
    rewrite of_shard_app, of_shard_other by lia. apply IH; lia.
  Qed.

  Lemma lost_false_kept : forall us z i, lost us i z = false ->
    forall j, i <= j < i + length z -> of_shard sh j (kept us i z) = of_shard sh j us.
  Proof.
    intros us. induction z as [|[o s] z IH]; intros i H j Hj; cbn [lost length] in *; [lia|].
    apply orb_false_iff in H. destruct H as [H1 H2].
    cbn [kept]. rewrite of_shard_app. destruct (Nat.eq_dec i j) as [->|N].
    - rewrite of_shard_same, kept_before by lia. rewrite app_nil_r.
      destruct (Nat.ltb_spec 0 (s - o)).
      + cbn in H1. destruct (of_shard sh j us); cbn in H1; try discriminate.
        now rewrite skipn_nil.
      + replace (s - o) with 0 by lia. reflexivity.
    - rewrite of_shard_other by auto. rewrite IH by (auto; lia). reflexivity.
  Qed.

  Lemma nth_combine : forall (a b : list nat) i, length a = length b ->
    nth i (combine a b) (0, 0) = (nth i a 0, nth i b 0).
  Proof. intros. apply combine_nth; auto. Qed.

  Lemma of_shard_out : forall n (us : list U) j,
    (forall u, In u us -> sh u < n) -> n <= j -> of_shard sh j us = [].
  Proof.
    intros n us j H L. induction us as [|u us IH]; cbn; auto.
    assert (sh u < n) by (apply H; left; auto).
    rewrite (proj2 (Nat.eqb_neq (sh u) j)) by lia. apply IH. intros; apply H; right; auto.
  Qed.
End L.

Arguments kept {U} _ _ _ _.
Arguments lost {U} _ _ _ _.
