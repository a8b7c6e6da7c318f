(** * Selection from iterators in parallel: lemmas *)
From Coq Require Import List Arith Bool Lia Sorted.
From Verif Require Import SaModel SaSpec.
Import ListNotations.

(** ** Dropping receivers *)
Lemma mem_in k ds : existsb (Nat.eqb k) ds = true <-> In k ds.
Proof.
  rewrite existsb_exists. split.
  - intros (x & I & E). apply Nat.eqb_eq in E. now subst.
  - intros I. exists k. split; auto. apply Nat.eqb_refl.
Qed.
Lemma mem_same k ds es : (In k ds <-> In k es) -> existsb (Nat.eqb k) ds = existsb (Nat.eqb k) es.
Proof.
  intros H. pose proof (mem_in k ds). pose proof (mem_in k es).
  destruct (existsb (Nat.eqb k) ds), (existsb (Nat.eqb k) es); auto; intuition congruence.
Qed.
Lemma without_ext {T} (l : list T) : forall k ds es, (forall j, k <= j < k + length l -> In j ds <-> In j es) ->
  without k ds l = without k es l.
Proof.
  induction l as [|x l IH]; intros k ds es H; [reflexivity|]. cbn [without length] in *.
  rewrite (mem_same k ds es) by (apply H; lia). rewrite (IH (S k) ds es) by (intros; apply H; lia). reflexivity.
Qed.
Lemma without_none {T} (l : list T) : forall k ds, (forall j, k <= j < k + length l -> ~ In j ds) -> without k ds l = l.
Proof.
  intros k ds H. transitivity (without k [] l).
  - apply without_ext. intros j B. specialize (H j B). cbn. tauto.
  - clear H. revert k. induction l; intros k; cbn; [reflexivity|]. now rewrite IHl.
Qed.
Lemma without_app {T} (l m : list T) : forall k ds, without k ds (l ++ m) = without k ds l ++ without (k + length l) ds m.
Proof.
  induction l as [|x l IH]; intros k ds; cbn [without app length]; [now rewrite Nat.add_0_r|].
  rewrite IH. replace (S k + length l) with (k + S (length l)) by lia. now destruct (existsb (Nat.eqb k) ds).
Qed.

Lemma remove_each_without {T} : forall ds (l : list T), StronglySorted gt ds -> Forall (fun d => d < length l) ds ->
  remove_each ds l = Some (without 0 ds l).
Proof.
  induction ds as [|d ds IH]; intros l So F; cbn [remove_each].
  - now rewrite without_none.
  - inversion So as [|? ? So' G]; subst. inversion F as [|? ? Hd F']; subst.
    unfold remove_at. rewrite (proj2 (Nat.ltb_lt _ _) Hd).
    assert (L1 : length (firstn d l) = d) by (rewrite firstn_length; lia).
    destruct (skipn d l) as [|x l2] eqn:E.
    { apply (f_equal (@length T)) in E. rewrite skipn_length in E. cbn in E. lia. }
    assert (El : l = firstn d l ++ x :: l2) by (rewrite <- E; symmetry; apply firstn_skipn).
    assert (E2 : skipn (S d) l = l2).
    { rewrite El at 1. rewrite skipn_app, L1, skipn_all2 by lia. replace (S d - d) with 1 by lia. reflexivity. }
    rewrite E2. rewrite Forall_forall in G.
    rewrite IH; auto.
    + f_equal. transitivity (without 0 (d :: ds) (firstn d l ++ x :: l2)); [|now rewrite <- El]. rewrite !without_app, L1. cbn [without]. rewrite (proj2 (mem_in (0 + d) (d :: ds))) by now left.
      f_equal.
      * apply without_ext. rewrite L1. intros j B. cbn. split; [auto|]. intros [->|H]; [lia|auto].
      * rewrite !without_none; auto; intros j B; cbn; intros H; [destruct H as [H|H]|]; try (apply G in H); lia.
    + rewrite app_length, L1. apply Forall_forall. intros y Hy. apply G in Hy. lia.
Qed.

Lemma insert_in d l x : In x (insert_desc d l) <-> x = d \/ In x l.
Proof.
  induction l as [|e l IH]; cbn [insert_desc]; [cbn; intuition|].
  destruct (e <=? d); cbn [In]; [intuition|]. rewrite IH. cbn. tauto.
Qed.
Lemma insert_sorted d l : StronglySorted ge l -> StronglySorted ge (insert_desc d l).
Proof.
  induction l as [|e l IH]; intros So; cbn [insert_desc]; [repeat constructor|].
  inversion So as [|? ? So' F]; subst. destruct (Nat.leb_spec e d).
  - constructor; auto. constructor; [lia|]. eapply Forall_impl; [|exact F]. cbn. intros. lia.
  - constructor; auto. apply Forall_forall. intros x Hx. apply insert_in in Hx. rewrite Forall_forall in F.
    destruct Hx as [->|Hx]; [lia|]. now apply F.
Qed.
Lemma sort_spec l : StronglySorted ge (sort_desc l) /\ forall x, In x (sort_desc l) <-> In x l.
Proof.
  induction l as [|d l [So I]]; cbn [sort_desc fold_right]; [split; [constructor|tauto]|]. split; [now apply insert_sorted|].
  intros x. rewrite insert_in. fold (sort_desc l). rewrite I. cbn. intuition.
Qed.
Lemma dedup_spec l : StronglySorted ge l -> StronglySorted gt (dedup l) /\ forall x, In x (dedup l) <-> In x l.
Proof.
  induction l as [|d l IH]; intros So; [split; [constructor|cbn; tauto]|]. inversion So as [|? ? So' F]; subst.
  destruct (IH So') as [G I]. destruct l as [|e l]; [split; [repeat constructor|cbn; tauto]|].
  change (dedup (d :: e :: l)) with (if d =? e then dedup (e :: l) else d :: dedup (e :: l)).
  destruct (Nat.eqb_spec d e) as [->|N].
  - split; [exact G|]. intros x. rewrite I. cbn. tauto.
  - split.
    + constructor; [exact G|]. apply Forall_forall. intros x Hx. apply I in Hx.
      inversion F as [|? ? F1 F2]; subst. inversion So' as [|? ? _ F3]; subst. rewrite Forall_forall in F3.
      destruct Hx as [->|Hx]; [lia|]. apply F3 in Hx. lia.
    + intros x. cbn [In]. rewrite I. cbn. tauto.
Qed.
Lemma drop_without {T} ds (l : list T) : Forall (fun d => d < length l) ds -> drop_receivers ds l = Some (without 0 ds l).
Proof.
  intros F. destruct (sort_spec ds) as [S1 I1]. destruct (dedup_spec _ S1) as [S2 I2]. unfold drop_receivers.
  rewrite remove_each_without; auto.
  - f_equal. apply without_ext. intros j _. now rewrite I2, I1.
  - rewrite Forall_forall in *. intros x Hx. apply F, I1, I2, Hx.
Qed.

Lemma without_in {T} (l : list T) : forall k ds x,
  In x (without k ds l) <-> exists j, nth_error l j = Some x /\ ~ In (k + j) ds.
Proof.
  induction l as [|y l IH]; intros k ds x; cbn [without].
  - split; [intros []|]. intros (j & E & _). destruct j; discriminate.
  - assert (R : (exists j, nth_error (y :: l) j = Some x /\ ~ In (k + j) ds) <->
      (y = x /\ ~ In k ds) \/ exists j, nth_error l j = Some x /\ ~ In (S k + j) ds).
    { split.
      - intros ([|j] & E & N); cbn in E.
        + injection E as ->. rewrite Nat.add_0_r in N. auto.
        + right. exists j. split; auto. now replace (S k + j) with (k + S j) by lia.
      - intros [[-> N]|(j & E & N)]; [exists 0; rewrite Nat.add_0_r; auto|]. exists (S j). split; auto.
        now replace (k + S j) with (S k + j) by lia. }
    rewrite R. destruct (existsb (Nat.eqb k) ds) eqn:M.
    + apply mem_in in M. rewrite IH. tauto.
    + assert (N : ~ In k ds) by (intros X; apply mem_in in X; congruence). cbn [In]. rewrite IH. tauto.
Qed.
Lemma without_nodup {T} (l : list T) : forall k ds, NoDup l -> NoDup (without k ds l).
Proof.
  induction l as [|y l IH]; intros k ds N; cbn [without]; [constructor|]. inversion N; subst.
  destruct (existsb (Nat.eqb k) ds); auto. constructor; auto. intros X. apply without_in in X.
  destruct X as (j & E & _). apply nth_error_In in E. auto.
Qed.
Lemma without_length {T} (l : list T) : forall k ds, NoDup ds -> Forall (fun d => k <= d < k + length l) ds ->
  length (without k ds l) + length ds = length l.
Proof.
  induction l as [|y l IH]; intros k ds N F; cbn [without length].
  - destruct ds; [reflexivity|]. inversion F; subst. cbn in *. lia.
  - cbn [length] in F. rewrite Forall_forall in F. destruct (existsb (Nat.eqb k) ds) eqn:M.
    + apply mem_in in M. destruct (in_split _ _ M) as (d1 & d2 & ->). apply NoDup_remove in N. destruct N as [N1 N2].
      assert (E : without (S k) (d1 ++ k :: d2) l = without (S k) (d1 ++ d2) l).
      { apply without_ext. intros j B. rewrite !in_app_iff. cbn. intuition lia. }
      rewrite E. rewrite <- (IH (S k) (d1 ++ d2)); auto; [rewrite !app_length; cbn; lia|].
      apply Forall_forall. intros x Hx. assert (x <> k) by (intros ->; contradiction).
      assert (Y : In x (d1 ++ k :: d2)) by (rewrite in_app_iff in *; cbn; tauto). apply F in Y. lia.
    + assert (NI : ~ In k ds) by (intros X; apply mem_in in X; congruence). cbn [length].
      rewrite <- (IH (S k) ds); auto. apply Forall_forall. intros x Hx. pose proof (F x Hx).
      assert (x <> k) by (intros ->; contradiction). lia.
Qed.

(** ** Sums *)
Lemma sum_set (f : nat -> nat) i v N : i < N ->
  list_sum (map (set f i v) (seq 0 N)) + f i = list_sum (map f (seq 0 N)) + v.
Proof.
  intros B. assert (G : forall n k, k <= i < k + n ->
    list_sum (map (set f i v) (seq k n)) + f i = list_sum (map f (seq k n)) + v); [|apply G; lia].
  assert (Z : forall n k, i < k -> list_sum (map (set f i v) (seq k n)) = list_sum (map f (seq k n))).
  { induction n; intros k K; cbn [seq map list_sum fold_right]; auto. unfold list_sum in *. rewrite IHn by lia.
    f_equal. unfold set. destruct (Nat.eqb_spec k i); lia. }
  induction n as [|n IH]; intros k K; [lia|]. cbn [seq map]. unfold list_sum in *. cbn [fold_right].
  destruct (Nat.eq_dec k i) as [->|NE].
  - rewrite Z by lia. unfold set at 1. rewrite Nat.eqb_refl. lia.
  - unfold set at 1. rewrite (proj2 (Nat.eqb_neq k i)) by auto. rewrite <- Nat.add_assoc, IH by lia. lia.
Qed.
Lemma sum_ext f g N : (forall i, i < N -> f i = g i) -> list_sum (map f (seq 0 N)) = list_sum (map g (seq 0 N)).
Proof. intros H. f_equal. apply map_ext_in. intros i I. apply in_seq in I. apply H. lia. Qed.
Lemma sum_zero f N : (forall i, i < N -> f i = 0) -> list_sum (map f (seq 0 N)) = 0.
Proof.
  intros H. rewrite (sum_ext f (fun _ => 0)) by auto. generalize 0 at 2. induction N; intros k; cbn; [reflexivity|]. apply IHN. intros. apply H. lia.
Qed.
