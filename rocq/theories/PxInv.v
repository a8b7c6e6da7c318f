(** Gaussian elimination: every step keeps the solutions of the augmented system. *)
From Coq Require Import List Arith Bool Lia Field_theory Ring Field.
From Verif Require Import AlgBase PxModel PxSpec.
Import ListNotations.

Section Inv.
Variable K : fld.
Add Field Kpi : (fth K).
Local Open Scope alg_scope.
Implicit Types (r s p : list K) (m sh rs srs cur : list (list K)).

(** * Rows as linear forms *)
Fixpoint lin (r : list K) (x : nat -> K) : K :=
  match r with [] => f0 | a :: r => a * x 0%nat + lin r (fun i => x (S i)) end.

Lemma lin_ext r x y : (forall i, i < length r -> x i = y i) -> lin r x = lin r y.
Proof.
  revert x y; induction r as [|a r IH]; intros x y E; simpl; auto.
  rewrite E by (simpl; lia). f_equal. apply IH. intros i Hi. apply E. simpl; lia.
Qed.

Lemma vec_sub_len r s : length r = length s -> length (vec_sub K r s) = length r.
Proof. intros E. unfold vec_sub. rewrite map_length, combine_length. lia. Qed.
Lemma svm_len c r : length (scalar_vec_mul K c r) = length r.
Proof. apply map_length. Qed.

Lemma lin_sub r s x : length r = length s -> lin (vec_sub K r s) x = lin r x - lin s x.
Proof.
  revert s x; induction r as [|a r IH]; intros [|b s] x E; simpl in E; try discriminate; [simpl; ring|].
  change (vec_sub K (a :: r) (b :: s)) with ((a - b) :: vec_sub K r s). simpl lin.
  rewrite IH by lia. ring.
Qed.

Lemma lin_scal c r x : lin (scalar_vec_mul K c r) x = c * lin r x.
Proof.
  revert x; induction r as [|a r IH]; intros x; [simpl; ring|].
  change (scalar_vec_mul K c (a :: r)) with (c * a :: scalar_vec_mul K c r). simpl lin.
  rewrite IH. ring.
Qed.

Lemma at_sub r s j : length r = length s -> at_ K (vec_sub K r s) j = at_ K r j - at_ K s j.
Proof.
  revert s j; induction r as [|a r IH]; intros [|b s] j E; simpl in E; try discriminate.
  - unfold at_. destruct j; simpl; ring.
  - change (vec_sub K (a :: r) (b :: s)) with ((a - b) :: vec_sub K r s).
    destruct j as [|j]; unfold at_; simpl; [ring|]. apply (IH s j). lia.
Qed.

Lemma at_scal c r j : at_ K (scalar_vec_mul K c r) j = c * at_ K r j.
Proof.
  revert j; induction r as [|a r IH]; intros j.
  - unfold at_. destruct j; simpl; ring.
  - destruct j as [|j]; unfold at_; simpl; [ring|]. apply IH.
Qed.

Definition upd (x : nat -> K) (i : nat) (v : K) : nat -> K := fun k => if Nat.eqb k i then v else x k.

Lemma lin_upd r x i v : i < length r -> lin r (upd x i v) = lin r x + at_ K r i * (v - x i).
Proof.
  revert x i; induction r as [|a r IH]; intros x i Hi; simpl in Hi; [lia|].
  destruct i as [|i].
  - simpl lin. unfold upd at 1. simpl. unfold at_; simpl.
    rewrite (lin_ext r (fun i => upd x 0 v (S i)) (fun i => x (S i))) by (intros; unfold upd; auto). ring.
  - simpl lin. unfold at_. simpl nth.
    rewrite (lin_ext r (fun k => upd x (S i) v (S k)) (upd (fun k => x (S k)) i v)) by (intros; unfold upd; auto).
    rewrite IH by lia. unfold upd at 1. simpl. unfold at_. ring.
Qed.

Lemma lin_zero r x : (forall i, i < length r -> at_ K r i = f0 \/ x i = f0) -> lin r x = f0.
Proof.
  revert x; induction r as [|a r IH]; intros x H; simpl; auto.
  rewrite IH.
  - destruct (H 0%nat) as [E|E]; [simpl; lia| |]; unfold at_ in E; simpl in E; rewrite E; ring.
  - intros i Hi. apply (H (S i)). simpl; lia.
Qed.

Lemma lin_single r x i : i < length r -> (forall j, j < length r -> j <> i -> at_ K r j = f0) ->
  lin r x = at_ K r i * x i.
Proof.
  intros Hi H.
  assert (lin r (upd x i f0) = f0) as Z.
  { apply lin_zero. intros j Hj. unfold upd. destruct (Nat.eqb_spec j i); auto. }
  rewrite lin_upd in Z by auto.
  transitivity (lin r x + at_ K r i * (f0 - x i) + at_ K r i * x i); [ring|]. rewrite Z. ring.
Qed.

(** A row of the augmented matrix. *)
Definition aug (x y : nat -> K) (r s : list K) : Prop := lin r x + lin s y = f0.
Definition ker m m' x y : Prop := Forall2 (aug x y) m m'.

Definition widths (n n' : nat) m m' : Prop :=
  length m = length m' /\ Forall (fun r => length r = n) m /\ Forall (fun r => length r = n') m'.

(** * [find_index] and [remove_nth] *)
Lemma find_index_some {A} (f : A -> bool) l i : find_index f l = Some i ->
  exists l1 a l2, l = l1 ++ a :: l2 /\ length l1 = i /\ f a = true.
Proof.
  revert i; induction l as [|a l IH]; intros i E; simpl in E; [discriminate|].
  destruct (f a) eqn:F.
  - injection E as <-. exists [], a, l. auto.
  - destruct (find_index f l) as [j|]; [|discriminate]. injection E as <-.
    destruct (IH j eq_refl) as (l1 & b & l2 & -> & <- & Fb). exists (a :: l1), b, l2. auto.
Qed.

Lemma find_index_none {A} (f : A -> bool) l : find_index f l = None -> Forall (fun a => f a = false) l.
Proof.
  induction l as [|a l IH]; simpl; intros E; constructor.
  - destruct (f a); [discriminate|auto].
  - apply IH. destruct (f a); [discriminate|]. destruct (find_index f l); [discriminate|auto].
Qed.

Lemma remove_mid {A} (l1 l2 : list A) a : remove_nth (length l1) (l1 ++ a :: l2) = l1 ++ l2.
Proof.
  unfold remove_nth. induction l1 as [|b l1 IH]; simpl; auto. f_equal. exact IH.
Qed.

Lemma split_at {A} (l : list A) i : i < length l ->
  exists l1 a l2, l = l1 ++ a :: l2 /\ length l1 = i.
Proof.
  revert l; induction i as [|i IH]; intros [|a l] H; simpl in H; try lia.
  - exists [], a, l. auto.
  - destruct (IH l) as (l1 & b & l2 & -> & <-); [lia|]. exists (a :: l1), b, l2. auto.
Qed.

Definition map2 {A B C} (f : A -> B -> C) (l : list A) (l' : list B) : list C :=
  map (fun x => f (fst x) (snd x)) (combine l l').

Lemma map2_app {A B C} (f : A -> B -> C) l1 l2 l1' l2' : length l1 = length l1' ->
  map2 f (l1 ++ l2) (l1' ++ l2') = map2 f l1 l1' ++ map2 f l2 l2'.
Proof.
  unfold map2. revert l1'; induction l1 as [|a l1 IH]; intros [|b l1'] E; simpl in *; try discriminate; auto.
  f_equal. apply IH. lia.
Qed.

Lemma mapi_map2 {A B C} (f : nat -> B -> C) (g : A -> B -> C) (l : list A) (l' : list B) k :
  length l = length l' ->
  (forall i a b, nth_error l i = Some a -> nth_error l' i = Some b -> f (k + i)%nat b = g a b) ->
  map (fun x => f (fst x) (snd x)) (combine (seq k (length l')) l') = map2 g l l'.
Proof.
  revert l l' k; intros l; induction l as [|a l IH]; intros [|b l'] k E H; simpl in E; try discriminate; auto.
  unfold map2. simpl. f_equal.
  - rewrite <- (H 0%nat a b); auto. now rewrite Nat.add_0_r.
  - apply IH; [lia|]. intros i a' b' Ha Hb. rewrite <- (H (S i) a' b'); auto. f_equal. lia.
Qed.

Lemma nth_mid {A} (l1 l2 : list A) a d : nth (length l1) (l1 ++ a :: l2) d = a.
Proof. rewrite app_nth2, Nat.sub_diag; auto. Qed.

Lemma mapi_from_app {A B} (f : nat -> A -> B) l1 l2 k :
  map (fun x => f (fst x) (snd x)) (combine (seq k (length (l1 ++ l2))) (l1 ++ l2)) =
  map (fun x => f (fst x) (snd x)) (combine (seq k (length l1)) l1) ++
  map (fun x => f (fst x) (snd x)) (combine (seq (k + length l1) (length l2)) l2).
Proof.
  revert k; induction l1 as [|a l1 IH]; intros k; simpl.
  - now rewrite Nat.add_0_r.
  - f_equal. rewrite IH. now rewrite Nat.add_succ_r.
Qed.

Lemma mapi_split {A B C} (f : nat -> B -> C) (g : A -> B -> C) (l1 l2 : list A) (l1' l2' : list B) (b : B) :
  length l1 = length l1' -> length l2 = length l2' ->
  (forall i x y, nth_error l1 i = Some x -> nth_error l1' i = Some y -> f i y = g x y) ->
  (forall i x y, nth_error l2 i = Some x -> nth_error l2' i = Some y -> f (length l1 + S i)%nat y = g x y) ->
  mapi f (l1' ++ b :: l2') = map2 g l1 l1' ++ f (length l1) b :: map2 g l2 l2'.
Proof.
  intros E1 E2 H1 H2. unfold mapi. rewrite mapi_from_app. simpl.
  f_equal; [|f_equal].
  - apply mapi_map2; auto.
  - congruence.
  - apply mapi_map2; auto. intros i x y Hx Hy. rewrite <- (H2 _ _ _ Hx Hy). f_equal. lia.
Qed.

(** * One elimination *)
Definition elim (c : nat) p (r q s : list K) : list K :=
  if feqb (at_ K r c) f0 then s else eliminate_row K s (at_ K r c * finv (at_ K p c)) q.

Lemma map2_len {A B C} (f : A -> B -> C) l l' : length l = length l' -> length (map2 f l l') = length l.
Proof. intros E. unfold map2. rewrite map_length, combine_length. lia. Qed.

Lemma map2_map {A B C} (f : A -> C) (l : list A) (l' : list B) : length l = length l' ->
  map2 (fun a _ => f a) l l' = map f l.
Proof.
  revert l'; induction l as [|a l IH]; intros [|b l'] Lm; simpl in Lm; try discriminate; auto.
  unfold map2. simpl. f_equal. apply IH. lia.
Qed.

Lemma eliminate_some m c sh m' sh' : length m = length sh -> eliminate K m c sh = Some (m', sh') ->
  exists m1 p m2 (s1 : list (list K)) (q : list K) (s2 : list (list K)),
    m = m1 ++ p :: m2 /\ sh = s1 ++ q :: s2 /\ length m1 = length s1 /\ length m2 = length s2 /\
    is_pivot K c p = true /\
    m' = p :: map (fun r => elim c p r p r) (m1 ++ m2) /\
    sh' = q :: map2 (fun r s => elim c p r q s) (m1 ++ m2) (s1 ++ s2).
Proof.
  intros L E. unfold eliminate in E.
  destruct (find_index (is_pivot K c) m) as [i|] eqn:F; [|discriminate].
  apply find_index_some in F. destruct F as (m1 & p & m2 & -> & <- & Hp).
  rewrite app_length in L. simpl in L.
  destruct (split_at sh (length m1)) as (s1 & q & s2 & -> & Ls); [lia|].
  rewrite app_length in L. simpl in L.
  exists m1, p, m2, s1, q, s2. do 4 (split; [auto; lia|]). split; auto.
  assert (length m1 = length s1 /\ length m2 = length s2) as [L1 L2] by lia.
  set (g := fun r (s : list K) => elim c p r q s).
  assert (length m1 = length (map2 g m1 s1)) as L3 by (rewrite map2_len; auto).
  rewrite nth_mid, remove_mid in E.
  rewrite (mapi_split _ g m1 m2) in E; auto.
  - rewrite Nat.eqb_refl in E. rewrite L3, nth_mid, remove_mid in E.
    injection E as <- <-. split; auto. unfold g. now rewrite map2_app by lia.
  - intros i x y Hx Hy. assert (i < length m1) by (apply nth_error_Some; congruence).
    replace (i =? length m1) with false by (symmetry; apply Nat.eqb_neq; lia).
    rewrite app_nth1 by auto. rewrite (nth_error_nth _ _ _ Hx). rewrite <- Ls, nth_mid. reflexivity.
  - intros i x y Hx Hy.
    replace (length m1 + S i =? length m1) with false by (symmetry; apply Nat.eqb_neq; lia).
    rewrite app_nth2 by lia. replace (length m1 + S i - length m1)%nat with (S i) by lia. simpl nth.
    rewrite (nth_error_nth _ _ _ Hx). rewrite <- Ls, nth_mid. reflexivity.
Qed.

Lemma Forall2_mid {A B} (P : A -> B -> Prop) l1 a l2 l1' b l2' : length l1 = length l1' ->
  Forall2 P (l1 ++ a :: l2) (l1' ++ b :: l2') <-> P a b /\ Forall2 P (l1 ++ l2) (l1' ++ l2').
Proof.
  revert l1'; induction l1 as [|c l1 IH]; intros [|d l1'] E; simpl in *; try discriminate.
  - split; [inversion 1; auto|intros []; auto].
  - split.
    + inversion 1; subst. apply IH in H5; [|lia]. destruct H5. auto.
    + intros [Pa H]. inversion H; subst. constructor; auto. apply IH; [lia|]. auto.
Qed.

Lemma elim_len c p r q s : length s = length q -> length (elim c p r q s) = length s.
Proof.
  intros E. unfold elim, eliminate_row. destruct feqb; auto. apply vec_sub_len. now rewrite svm_len.
Qed.

Lemma elim_aug x y c p q r s : length r = length p -> length s = length q -> aug x y p q ->
  aug x y (elim c p r p r) (elim c p r q s) <-> aug x y r s.
Proof.
  intros L1 L2 H. unfold elim, aug in *. destruct feqb; [tauto|].
  unfold eliminate_row. rewrite !lin_sub, !lin_scal by (now rewrite svm_len).
  set (f := at_ K r c * finv (at_ K p c)).
  replace (lin r x - f * lin p x + (lin s y - f * lin q y))
    with (lin r x + lin s y - f * (lin p x + lin q y)) by ring.
  rewrite H. replace (lin r x + lin s y - f * f0) with (lin r x + lin s y) by ring. tauto.
Qed.

Lemma is_pivot_spec c p : is_pivot K c p = true <->
  at_ K p c <> f0 /\ forall j, j < c -> at_ K p j = f0.
Proof.
  unfold is_pivot. rewrite andb_true_iff, negb_true_iff, feqb_false, forallb_forall.
  split; intros [A B]; (split; [auto|]); intros j Hj.
  - apply feqb_spec, B, in_seq. lia.
  - apply in_seq in Hj. apply feqb_spec, B. lia.
Qed.

Definition zeros (c : nat) r : Prop := forall j, j < c -> at_ K r j = f0.

Lemma elim_zeros c p r : length r = length p -> at_ K p c <> f0 -> zeros c p -> zeros c r ->
  zeros (S c) (elim c p r p r).
Proof.
  intros L P Z Zr j Hj. unfold elim. destruct (feqb (at_ K r c) f0) eqn:E.
  - destruct (Nat.eq_dec j c) as [->|]; [now apply feqb_spec|apply Zr; lia].
  - unfold eliminate_row. rewrite at_sub by (now rewrite svm_len). rewrite at_scal.
    destruct (Nat.eq_dec j c) as [->|].
    + field. auto.
    + rewrite (Zr j), (Z j) by lia. ring.
Qed.

(** What one elimination gives. *)
Lemma eliminate_ok n n' m c sh m' sh' : widths n n' m sh -> Forall (zeros c) m ->
  eliminate K m c sh = Some (m', sh') ->
  widths n n' m' sh' /\ length m' = length m /\
  (forall x y, ker m sh x y <-> ker m' sh' x y) /\
  exists p l q l', m' = p :: l /\ sh' = q :: l' /\ at_ K p c <> f0 /\ zeros c p /\ Forall (zeros (S c)) l.
Proof.
  intros (L & W & W') Z E.
  destruct (eliminate_some _ _ _ _ _ L E) as (m1 & p & m2 & s1 & q & s2 & -> & -> & L1 & L2 & P & -> & ->).
  apply is_pivot_spec in P. destruct P as [Pc Pz].
  apply Forall_app in W. destruct W as [W1 W2]. inversion W2 as [|? ? Wp W3]; subst.
  apply Forall_app in W'. destruct W' as [W1' W2']. inversion W2' as [|? ? Wq W3']; subst.
  assert (Forall (fun r => length r = length p) (m1 ++ m2)) as Wm by (apply Forall_app; auto).
  assert (Forall (fun r => length r = length q) (s1 ++ s2)) as Ws by (apply Forall_app; auto).
  assert (Forall (zeros c) (m1 ++ m2)) as Zm.
  { apply Forall_app in Z. destruct Z as [Z1 Z2]. inversion Z2; subst. apply Forall_app; auto. }
  assert (length (m1 ++ m2) = length (s1 ++ s2)) as Lm by (rewrite !app_length; lia).
  split; [|split; [|split]].
  - unfold widths. simpl. rewrite map_length, map2_len by auto. split; auto. split; constructor; auto.
    + apply Forall_map. eapply Forall_impl; [|exact Wm]. intros r Hr. cbn beta in *. rewrite elim_len; auto.
    + revert Lm Ws. generalize (m1 ++ m2) (s1 ++ s2). clear.
      intros l l'; revert l'; induction l as [|a l IH]; intros [|b l'] E W; simpl in E; try discriminate;
        [constructor|].
      inversion W; subst. unfold map2. simpl. constructor; [rewrite elim_len; auto|]. apply IH; auto.
  - simpl. rewrite map_length, !app_length. simpl. lia.
  - intros x y. unfold ker. rewrite Forall2_mid by auto.
    split.
    + intros [Hp H]. constructor; auto. revert Wm Ws H. generalize (m1 ++ m2) (s1 ++ s2). clear - Hp.
      intros l l'; revert l'; induction l as [|a l IH]; intros [|b l'] W W' H; inversion H; subst; [constructor|].
      inversion W; inversion W'; subst. unfold map2; simpl. constructor; [apply elim_aug; auto|apply IH; auto].
    + intros H. inversion H as [|? ? ? ? Hp H']; subst. split; auto. clear H.
      revert Lm Wm Ws H'. generalize (m1 ++ m2) (s1 ++ s2). clear - Hp.
      intros l l'; revert l'; induction l as [|a l IH]; intros [|b l'] L W W' H; simpl in L; try discriminate; [constructor|].
      inversion W; inversion W'; subst. unfold map2 in H; simpl in H. inversion H; subst.
      constructor; [eapply elim_aug; eauto|apply IH; auto].
  - exists p. eexists. exists q. eexists. do 2 (split; [reflexivity|]). split; [auto|]. split; [exact Pz|].
    apply Forall_map. rewrite Forall_forall in *. intros r Hr. apply elim_zeros; auto.
Qed.

Lemma eliminate_none m c sh : Forall (zeros c) m -> eliminate K m c sh = None -> Forall (zeros (S c)) m.
Proof.
  intros Z E. unfold eliminate in E. destruct (find_index _ m) eqn:F; [discriminate|].
  apply find_index_none in F. rewrite Forall_forall in *. intros r Hr j Hj.
  specialize (F r Hr). specialize (Z r Hr). destruct (Nat.eq_dec j c) as [->|]; [|apply Z; lia].
  destruct (feq_dec K (at_ K r c) f0) as [|NZ]; auto.
  exfalso. assert (is_pivot K c r = true) by (apply is_pivot_spec; auto). congruence.
Qed.

(** * Triangular rows *)
Definition tri (rs : list (list K)) : Prop :=
  forall i, i < length rs -> at_ K (nth i rs []) i <> f0 /\ zeros i (nth i rs []).

Lemma tri_snoc rs p : tri rs -> at_ K p (length rs) <> f0 -> zeros (length rs) p -> tri (rs ++ [p]).
Proof.
  intros T P Z i Hi. rewrite app_length in Hi. simpl in Hi.
  destruct (Nat.eq_dec i (length rs)) as [->|].
  - rewrite nth_mid. auto.
  - rewrite app_nth1 by lia. apply T. lia.
Qed.

(** Back substitution. *)
Lemma back_subst n rs z : tri rs -> Forall (fun r => length r = n) rs -> length rs <= n ->
  exists x, (forall i, length rs <= i -> x i = z i) /\ Forall (fun r => lin r x = f0) rs.
Proof.
  intros T W L.
  assert (forall k, k <= length rs -> exists x, (forall i, length rs <= i -> x i = z i) /\
            forall i, length rs - k <= i -> i < length rs -> lin (nth i rs []) x = f0) as G.
  { induction k as [|k IH]; intros Hk.
    - exists z. split; auto. intros; lia.
    - destruct IH as (x & A & B); [lia|].
      set (i := (length rs - S k)%nat). set (r := nth i rs []).
      assert (i < length rs) as Hi by (unfold i; lia).
      destruct (T i Hi) as [NZ Zi]. fold r in NZ, Zi.
      assert (forall j, j < length rs -> length (nth j rs []) = n) as Wn.
      { intros j Hj. rewrite Forall_forall in W. apply W, nth_In; auto. }
      exists (upd x i (x i - lin r x * finv (at_ K r i))). split.
      + intros j Hj. unfold upd. replace (j =? i) with false by (symmetry; apply Nat.eqb_neq; lia). auto.
      + intros j Hj1 Hj2. rewrite lin_upd by (rewrite Wn; lia).
        destruct (Nat.eq_dec j i) as [->|].
        * fold r. field. auto.
        * destruct (T j Hj2) as [_ Zj]. rewrite (Zj i) by lia. rewrite B by lia. ring. }
  destruct (G (length rs) (le_n _)) as (x & A & B). exists x. split; auto.
  apply Forall_forall. intros r Hr. destruct (In_nth _ _ [] Hr) as (i & Hi & <-). apply B; lia.
Qed.

(** Some rows triangular, the others zero up to the next column: there is a solution. *)
Lemma stuck n rs cur : tri rs -> Forall (fun r => length r = n) (rs ++ cur) -> length rs < n ->
  Forall (zeros (S (length rs))) cur ->
  exists x, x (length rs) = f1 /\ Forall (fun r => lin r x = f0) (rs ++ cur).
Proof.
  intros T W L Z. apply Forall_app in W. destruct W as [W1 W2].
  destruct (back_subst n rs (fun i => if Nat.eqb i (length rs) then f1 else f0) T W1) as (x & A & B); [lia|].
  exists x. split.
  - rewrite A by lia. now rewrite Nat.eqb_refl.
  - apply Forall_app. split; auto. rewrite Forall_forall in *. intros r Hr.
    apply lin_zero. intros i Hi. destruct (le_lt_dec i (length rs)).
    + left. apply Z; auto. lia.
    + right. rewrite A by lia. now replace (i =? length rs) with false by (symmetry; apply Nat.eqb_neq; lia).
Qed.

Lemma lin_f0 r : lin r (fun _ => f0) = f0.
Proof. apply lin_zero. auto. Qed.

Lemma ker_zero m m' x : length m = length m' ->
  ker m m' x (fun _ => f0) <-> Forall (fun r => lin r x = f0) m.
Proof.
  unfold ker. revert m'; induction m as [|r m IH]; intros [|s m'] L; simpl in L; try discriminate.
  - split; constructor.
  - assert (aug x (fun _ => f0) r s <-> lin r x = f0) as A.
    { unfold aug. rewrite lin_f0. replace (lin r x + f0) with (lin r x) by ring. tauto. }
    split; inversion 1; subst; constructor; try (now apply A); apply (IH m'); auto.
Qed.

Lemma ker_app m1 m2 (s1 s2 : list (list K)) x y : length m1 = length s1 ->
  ker (m1 ++ m2) (s1 ++ s2) x y <-> ker m1 s1 x y /\ ker m2 s2 x y.
Proof.
  unfold ker. intros L. split.
  - revert s1 L; induction m1 as [|a m1 IH]; intros [|b s1] L H; simpl in L; try discriminate; auto.
    simpl in H. inversion H; subst. destruct (IH s1) as [A B]; auto.
  - intros [A B]. apply Forall2_app; auto.
Qed.

(** * The loop of [upper_triangular] *)
Lemma ut_loop_ok n n' k cur sh rs srs :
  (length rs + S k)%nat = n -> length cur = S k -> widths n n' cur sh -> widths n n' rs srs ->
  tri rs -> Forall (zeros (length rs)) cur ->
  match ut_loop K (seq (length rs) k) cur sh rs srs with
  | Some (m', sh') =>
      widths n n' m' sh' /\ length m' = n /\
      (forall x y, ker (rs ++ cur) (srs ++ sh) x y <-> ker m' sh' x y) /\
      exists rs' p, m' = rs' ++ [p] /\ tri rs' /\ zeros (length rs') p
  | None => exists c x, c < n /\ x c = f1 /\ ker (rs ++ cur) (srs ++ sh) x (fun _ => f0)
  end.
Proof.
  revert cur sh rs srs; induction k as [|k IH]; intros cur sh rs srs Hn Lc W Wr T Z; simpl.
  - destruct cur as [|r [|]]; simpl in Lc; try discriminate.
    destruct W as (L & W1 & W2). destruct sh as [|s [|]]; simpl in L; try discriminate.
    destruct Wr as (Lr & Wr1 & Wr2). simpl hd.
    split; [|split; [|split]].
    + unfold widths. rewrite !app_length. simpl. rewrite !Forall_app. auto 6 using f_equal2.
    + rewrite app_length. simpl. lia.
    + tauto.
    + exists rs, r. split; auto. split; auto. inversion Z; auto.
  - destruct (eliminate K cur (length rs) sh) as [[cur' sh']|] eqn:E.
    + destruct (eliminate_ok n n' _ _ _ _ _ W Z E) as ((L & W1 & W2) & Lc' & KE & p & l & q & l' & -> & -> & P & Zp & Zl).
      simpl in Lc', L. simpl hd; simpl tl. inversion W1; inversion W2; subst.
      destruct Wr as (Lr & Wr1 & Wr2).
      specialize (IH l l' (rs ++ [p]) (srs ++ [q])).
      assert (length (rs ++ [p]) = S (length rs)) as Ls by (rewrite app_length; simpl; lia).
      rewrite Ls in IH.
      assert (forall x y, ker (rs ++ cur) (srs ++ sh) x y <-> ker ((rs ++ [p]) ++ l) ((srs ++ [q]) ++ l') x y) as KK.
      { intros x y. rewrite <- !app_assoc. simpl. rewrite !ker_app by lia. rewrite KE. tauto. }
      destruct (ut_loop K (seq (S (length rs)) k) l l' (rs ++ [p]) (srs ++ [q])) as [[m' sh'']|].
      * destruct IH as (A & B & C & D); auto; try lia.
        { unfold widths. split; auto. }
        { unfold widths. rewrite !app_length. simpl. rewrite !Forall_app. auto 6 using f_equal2. }
        { apply tri_snoc; auto. }
        split; auto. split; auto. split; [|auto].
        intros x y. rewrite KK. apply C.
      * destruct IH as (c & x & A & B & C); auto; try lia.
        { unfold widths. split; auto. }
        { unfold widths. rewrite !app_length. simpl. rewrite !Forall_app. auto 6 using f_equal2. }
        { apply tri_snoc; auto. }
        exists c, x. split; auto. split; auto. now apply KK.
    + apply eliminate_none in E; auto.
      destruct W as (L & W1 & W2). destruct Wr as (Lr & Wr1 & Wr2).
      destruct (stuck n rs cur T) as (x & A & B); auto; try lia.
      { apply Forall_app; auto. }
      exists (length rs), x. split; [lia|]. split; auto.
      apply ker_zero; auto. rewrite !app_length. lia.
Qed.

(** * [reduce_to_identity] *)
Definition unit_row (n i : nat) r : Prop := length r = n /\ forall k, k < n -> at_ K r k = delta k i.

Lemma aug_scal x y a r s : a <> f0 ->
  aug x y (scalar_vec_mul K a r) (scalar_vec_mul K a s) <-> aug x y r s.
Proof.
  intros A. unfold aug. rewrite !lin_scal. split; intros E.
  - replace (lin r x + lin s y) with (finv a * (a * lin r x + a * lin s y)) by (field; auto). rewrite E. ring.
  - replace (a * lin r x + a * lin s y) with (a * (lin r x + lin s y)) by ring. rewrite E. ring.
Qed.

Lemma aug_sub x y a r s (p q : list K) : length r = length p -> length s = length q -> aug x y p q ->
  aug x y (vec_sub K r (scalar_vec_mul K a p)) (vec_sub K s (scalar_vec_mul K a q)) <-> aug x y r s.
Proof.
  intros L1 L2 H. unfold aug in *. rewrite !lin_sub, !lin_scal by (now rewrite svm_len).
  replace (lin r x - a * lin p x + (lin s y - a * lin q y))
    with (lin r x + lin s y - a * (lin p x + lin q y)) by ring.
  rewrite H. replace (lin r x + lin s y - a * f0) with (lin r x + lin s y) by ring. tauto.
Qed.

Lemma reduce_row_ok n n' i row (srow : list K) res (sres : list (list K)) :
  i < n -> length row = n -> length srow = n' -> length res = i -> length sres = i ->
  (forall j, j < i -> unit_row n (n - j - 1) (nth j res []) /\ length (nth j sres []) = n') ->
  zeros (n - i - 1) row -> at_ K row (n - i - 1) <> f0 ->
  let '(r, s) := reduce_row K n i row srow (finv (at_ K row (n - i - 1))) res sres in
  unit_row n (n - i - 1) r /\ length s = n' /\
  forall x y, (forall j, j < i -> aug x y (nth j res []) (nth j sres [])) -> (aug x y r s <-> aug x y row srow).
Proof.
  intros Hi Lr Ls L1 L2 U Z NZ. unfold reduce_row.
  set (F := fun acc j => _).
  set (idx := (n - i - 1)%nat) in *.
  assert (forall k, k <= i ->
    let '(r, s) := fold_left F (seq 0 k) (scalar_vec_mul K (finv (at_ K row idx)) row, scalar_vec_mul K (finv (at_ K row idx)) srow) in
    length r = n /\ length s = n' /\ at_ K r idx = f1 /\ zeros idx r /\ (forall c, n - k <= c -> c < n -> at_ K r c = f0) /\
    forall x y, (forall j, j < i -> aug x y (nth j res []) (nth j sres [])) -> (aug x y r s <-> aug x y row srow)) as G.
  { induction k as [|k IH]; intros Hk.
    - simpl. rewrite !svm_len. do 2 (split; auto). split; [rewrite at_scal; field; auto|].
      split; [intros c Hc; rewrite at_scal, (Z c) by auto; ring|]. split; [intros; lia|].
      intros x y _. apply aug_scal. apply finv_nz. auto.
    - specialize (IH ltac:(lia)). rewrite seq_S, fold_left_app. simpl.
      destruct (fold_left F (seq 0 k) _) as [r s]. destruct IH as (A & B & C & D & E & G).
      unfold F. destruct (U k ltac:(lia)) as [[Ul Uk] Us].
      rewrite !vec_sub_len by (rewrite svm_len; congruence).
      assert (forall c, at_ K (vec_sub K r (scalar_vec_mul K (at_ K r (n - k - 1)) (nth k res []))) c =
                at_ K r c - at_ K r (n - k - 1) * at_ K (nth k res []) c) as AT.
      { intros c. rewrite at_sub, at_scal by (rewrite svm_len; congruence). auto. }
      split; auto. split; auto. split; [|split; [|split]].
      + rewrite AT, C, Uk by (unfold idx; lia). unfold delta.
        replace (idx =? n - k - 1) with false by (symmetry; apply Nat.eqb_neq; unfold idx; lia). ring.
      + intros c Hc. rewrite AT, (D c) by auto. rewrite Uk by (unfold idx in *; lia). unfold delta.
        replace (c =? n - k - 1) with false by (symmetry; apply Nat.eqb_neq; unfold idx in *; lia). ring.
      + intros c Hc Hc'. rewrite AT, Uk by lia. unfold delta. destruct (Nat.eqb_spec c (n - k - 1)) as [->|].
        * ring.
        * rewrite (E c) by lia. ring.
      + intros x y H. rewrite <- (G x y H). apply aug_sub; try congruence. apply H. lia. }
  specialize (G i (le_n _)). destruct (fold_left F (seq 0 i) _) as [r s].
  destruct G as (A & B & C & D & E & G). split; [split|]; auto.
  intros k Hk. unfold delta. destruct (Nat.eqb_spec k idx) as [->|]; auto.
  destruct (le_lt_dec k idx); [apply D; lia|apply E; unfold idx in *; lia].
Qed.

(** The rows below row [n - i], as solutions. *)
Definition below m sh (n i : nat) (x y : nat -> K) : Prop :=
  forall j, j < i -> aug x y (nth (n - j - 1) m []) (nth (n - j - 1) sh []).
Definition alls res (sres : list (list K)) (i : nat) (x y : nat -> K) : Prop :=
  forall j, j < i -> aug x y (nth j res []) (nth j sres []).

Lemma reduce_loop_ok n n' m sh k i res (sres : list (list K)) :
  (i + k)%nat = n -> length m = n -> widths n n' m sh ->
  (forall j, j < n -> zeros j (nth j m []) /\ at_ K (nth j m []) j <> f0) ->
  length res = i -> length sres = i ->
  (forall j, j < i -> unit_row n (n - j - 1) (nth j res []) /\ length (nth j sres []) = n') ->
  (forall x y, below m sh n i x y <-> alls res sres i x y) ->
  exists r s : list (list K), reduce_loop K n (seq i k) m sh res sres = Some (r, s) /\
  length r = n /\ length s = n /\
  (forall j, j < n -> unit_row n (n - j - 1) (nth j r []) /\ length (nth j s []) = n') /\
  (forall x y, below m sh n n x y <-> alls r s n x y).
Proof.
  revert i res sres; induction k as [|k IH]; intros i res sres Hn Lm W T Lr Ls U B; simpl.
  - assert (i = n) as -> by lia. exists res, sres. auto.
  - set (idx := (n - i - 1)%nat).
    destruct (T idx) as [Zi NZ]; [unfold idx; lia|].
    rewrite finverse_nz by auto.
    destruct W as (Wl & W1 & W2).
    assert (length (nth idx m []) = n) as Lrow.
    { rewrite Forall_forall in W1. apply W1, nth_In. unfold idx; lia. }
    assert (length (nth idx sh []) = n') as Lsrow.
    { rewrite Forall_forall in W2. apply W2, nth_In. unfold idx; lia. }
    pose proof (reduce_row_ok n n' i (nth idx m []) (nth idx sh []) res sres ltac:(lia) Lrow Lsrow Lr Ls U Zi NZ) as R.
    fold idx in R.
    destruct (reduce_row K n i (nth idx m []) (nth idx sh []) _ res sres) as [r s].
    destruct R as (R1 & R2 & R3).
    assert (forall j, j < S i -> nth j (res ++ [r]) [] = if Nat.eqb j i then r else nth j res []) as N1.
    { intros j Hj. destruct (Nat.eqb_spec j i) as [->|].
      - rewrite <- Lr. apply nth_mid.
      - apply app_nth1. lia. }
    assert (forall j, j < S i -> nth j (sres ++ [s]) [] = if Nat.eqb j i then s else nth j sres []) as N2.
    { intros j Hj. destruct (Nat.eqb_spec j i) as [->|].
      - rewrite <- Ls. apply nth_mid.
      - apply app_nth1. lia. }
    apply IH; try (rewrite app_length; simpl; lia); auto; try lia.
    + split; auto.
    + intros j Hj. rewrite N1, N2 by auto. destruct (Nat.eqb_spec j i) as [->|]; auto. apply U. lia.
    + intros x y. assert (below m sh n (S i) x y <-> below m sh n i x y /\ aug x y (nth idx m []) (nth idx sh [])) as E1.
      { unfold below. split.
        - intros H. split; [intros; apply H; lia|]. apply (H i). lia.
        - intros [H1 H2] j Hj. destruct (Nat.eq_dec j i) as [->|]; auto. apply H1. lia. }
      assert (alls (res ++ [r]) (sres ++ [s]) (S i) x y <-> alls res sres i x y /\ aug x y r s) as E2.
      { unfold alls. split.
        - intros H. split.
          + intros j Hj. specialize (H j ltac:(lia)). rewrite N1, N2 in H by lia.
            destruct (Nat.eqb_spec j i); [lia|auto].
          + specialize (H i ltac:(lia)). rewrite N1, N2 in H by lia. now rewrite Nat.eqb_refl in H.
        - intros [H1 H2] j Hj. rewrite N1, N2 by auto. destruct (Nat.eqb_spec j i) as [->|]; auto. apply H1; lia. }
      rewrite E1, E2, (B x y). split; intros [H1 H2]; (split; auto); apply (R3 x y H1); auto.
Qed.

Lemma ker_nth m sh x y : length m = length sh ->
  ker m sh x y <-> forall i, i < length m -> aug x y (nth i m []) (nth i sh []).
Proof.
  unfold ker. revert sh; induction m as [|r m IH]; intros [|s sh] L; simpl in L; try discriminate.
  - split; [intros _ i Hi; simpl in Hi; lia|constructor].
  - split.
    + inversion 1; subst. intros [|i] Hi; simpl; auto. simpl in Hi. apply IH; auto. lia.
    + intros H. constructor; [apply (H 0%nat); simpl; lia|]. apply IH; auto.
      intros i Hi. apply (H (S i)). simpl; lia.
Qed.

Lemma below_ker m sh n x y : length m = n -> length sh = n -> below m sh n n x y <-> ker m sh x y.
Proof.
  intros Lm Ls. rewrite ker_nth by congruence. unfold below. split; intros H i Hi.
  - specialize (H (n - i - 1)%nat ltac:(lia)). now replace (n - (n - i - 1) - 1)%nat with i in H by lia.
  - apply H. lia.
Qed.

Lemma nth_rev {A} (l : list A) d i : i < length l -> nth i (rev l) d = nth (length l - i - 1) l d.
Proof. intros H. rewrite rev_nth by auto. f_equal. lia. Qed.

(** * [inverse] *)
Lemma identity_row n i : i < n -> unit_row n i (nth i (identity K n) []).
Proof.
  intros Hi. unfold identity.
  rewrite (nth_indep _ [] (map (fun j => kronecker_delta K 0 j) (seq 0 n))) by (now rewrite map_length, seq_length).
  rewrite map_nth with (f := fun i => map (fun j => kronecker_delta K i j) (seq 0 n)).
  rewrite seq_nth by auto. simpl. split; [now rewrite map_length, seq_length|].
  intros k Hk. unfold at_.
  rewrite (nth_indep _ f0 (kronecker_delta K i 0)) by (now rewrite map_length, seq_length).
  rewrite map_nth, seq_nth by auto. simpl. unfold kronecker_delta, delta. now rewrite Nat.eqb_sym.
Qed.

Lemma identity_sq n : sq n (identity K n).
Proof.
  unfold sq, identity. rewrite map_length, seq_length. split; auto.
  apply Forall_map, Forall_forall. intros i _. now rewrite map_length, seq_length.
Qed.

Lemma unit_lin n i r x : i < n -> unit_row n i r -> lin r x = x i.
Proof.
  intros Hi [L U]. rewrite (lin_single r x i).
  - rewrite U by auto. unfold delta. rewrite Nat.eqb_refl. ring.
  - lia.
  - intros j Hj NE. rewrite U by lia. unfold delta. now apply Nat.eqb_neq in NE as ->.
Qed.

Definition ml m (x : nat -> K) (i : nat) : K := lin (nth i m []) x.

Theorem inverse_cases n m : 1 <= n -> sq n m ->
  (exists w, inverse K m = Val w /\ sq n w /\
     forall x y, (forall i, i < n -> ml m x i + y i = f0) <-> (forall i, i < n -> x i + ml w y i = f0)) \/
  (inverse K m = Non /\ exists c x, c < n /\ x c = f1 /\ forall i, i < n -> ml m x i = f0).
Proof.
  intros Hn [Lm Wm]. unfold inverse, upper_triangular, num_rows. rewrite Lm.
  destruct n as [|k]; [lia|].
  destruct (identity_sq (S k)) as [Li Wi].
  pose proof (ut_loop_ok (S k) (S k) k m (identity K (S k)) [] []) as U. simpl length in U.
  assert (match ut_loop K (seq 0 k) m (identity K (S k)) [] [] with
  | Some (m', sh') => widths (S k) (S k) m' sh' /\ length m' = S k /\
      (forall x y : nat -> K, ker m (identity K (S k)) x y <-> ker m' sh' x y) /\
      exists (rs' : list (list K)) (p : list K), m' = rs' ++ [p] /\ tri rs' /\ zeros (length rs') p
  | None => exists (c : nat) (x : nat -> K), c < S k /\ x c = f1 /\ ker m (identity K (S k)) x (fun _ => f0)
  end) as U'.
  { apply U; auto.
    - unfold widths. split; [congruence|auto].
    - unfold widths. auto.
    - intros i Hi. simpl in Hi. lia.
    - apply Forall_forall. intros r _ j Hj. lia. }
  clear U.
  assert (forall x y i, i < S k -> (aug x y (nth i m []) (nth i (identity K (S k)) []) <-> ml m x i + y i = f0)) as KI.
  { intros x y i Hi. unfold aug, ml. rewrite (unit_lin (S k) i _ y); [tauto|auto|now apply identity_row]. }
  assert (forall x y, ker m (identity K (S k)) x y <-> forall i, i < S k -> ml m x i + y i = f0) as KI'.
  { intros x y. rewrite ker_nth by congruence. rewrite Lm. split; intros H i Hi; apply KI; auto. }
  assert (forall x : nat -> K, ker m (identity K (S k)) x (fun _ => f0) -> forall i, i < S k -> ml m x i = f0) as K0.
  { intros x H i Hi. rewrite <- (proj1 (KI' x (fun _ => f0)) H i Hi). ring. }
  destruct (ut_loop K (seq 0 k) m (identity K (S k)) [] []) as [[m' sh']|].
  2:{ right. split; [reflexivity|]. destruct U' as (c & x & A & B & C). exists c, x. auto. }
  destruct U' as (W & Lm' & KE & rs & p & -> & T & Zp). simpl pbind. cbn [fst snd].
  rewrite app_length in Lm'. simpl in Lm'. assert (length rs = k) as Lrs by lia.
  unfold reduce_to_identity, num_rows.
  assert (length (rs ++ [p]) = S k) as Lrp by (rewrite app_length; simpl; lia). rewrite Lrp.
  destruct W as (Wl & W1 & W2).
  destruct (feq_dec K (at_ K p k) f0) as [E|NE].
  - right. split.
    + simpl seq. unfold reduce_loop at 1. rewrite !Nat.sub_0_r. simpl Nat.sub. rewrite Nat.sub_0_r.
      rewrite <- Lrs at 1 2. rewrite nth_mid. unfold finverse. rewrite Lrs.
      rewrite E, feqb_refl. reflexivity.
    + destruct (stuck (S k) rs [p] T W1) as (x & A & B).
      * lia.
      * constructor; auto. intros j Hj. destruct (Nat.eq_dec j k) as [->|]; auto. apply Zp. lia.
      * exists k, x. split; [lia|]. split; [congruence|]. apply K0. apply KE. apply ker_zero; auto.
  - left.
    destruct (reduce_loop_ok (S k) (S k) (rs ++ [p]) sh' (S k) 0 [] []) as (r & s & E & Lr & Ls & U & B);
      auto; try lia.
    + split; auto.
    + intros j Hj. assert (tri (rs ++ [p])) as T' by (apply tri_snoc; auto; now rewrite Lrs).
      destruct (T' j); [lia|]. auto.
    + intros x y. unfold below, alls. split; intros H j Hj; lia.
    + rewrite E. exists (rev s). split; [reflexivity|]. split.
      * split; [now rewrite rev_length|]. apply Forall_forall. intros q Hq. apply in_rev in Hq.
        destruct (In_nth _ _ [] Hq) as (j & Hj & <-). apply U. lia.
      * intros x y. rewrite <- KI', KE, <- (below_ker _ _ (S k)), B by congruence.
        unfold alls. split; intros H i Hi.
        -- specialize (H (S k - i - 1)%nat ltac:(lia)). unfold aug in H.
           rewrite (unit_lin (S k) i) in H.
           ++ unfold ml. rewrite nth_rev by lia. now rewrite Ls.
           ++ lia.
           ++ destruct (U (S k - i - 1)%nat ltac:(lia)) as [Uu _].
              now replace (S k - (S k - i - 1) - 1)%nat with i in Uu by lia.
        -- specialize (H (S k - i - 1)%nat ltac:(lia)). unfold aug.
           rewrite (unit_lin (S k) (S k - i - 1)) by (try lia; apply U; lia).
           unfold ml in H. rewrite nth_rev in H by lia. rewrite Ls in H.
           now replace (S k - (S k - i - 1) - 1)%nat with i in H by lia.
Qed.
End Inv.
