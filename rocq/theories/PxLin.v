(** Sums, products and the inverse by entries. *)
From Coq Require Import List Arith Bool Lia Field_theory Ring Field.
From Verif Require Import AlgBase PxModel PxSpec PxInv.
Import ListNotations.

Section Lin.
Variable K : fld.
Add Field Kli : (fth K).
Local Open Scope alg_scope.
Implicit Types (m : list (list K)) (f g x y : nat -> K).

(** * Sums *)
Lemma sum_ext n f g : (forall i, i < n -> f i = g i) -> sum n f = sum n g.
Proof. induction n as [|n IH]; intros E; simpl; auto. rewrite IH, E; auto. Qed.
Lemma sum_0 n f : (forall i, i < n -> f i = f0) -> sum n f = f0.
Proof. induction n as [|n IH]; intros E; simpl; auto. rewrite IH, E; auto. ring. Qed.
Lemma sum_add n f g : sum n (fun i => f i + g i) = sum n f + sum n g.
Proof. induction n as [|n IH]; simpl; [ring|]. rewrite IH. ring. Qed.
Lemma sum_mul_l n a f : sum n (fun i => a * f i) = a * sum n f.
Proof. induction n as [|n IH]; simpl; [ring|]. rewrite IH. ring. Qed.
Lemma sum_mul_r n a f : sum n (fun i => f i * a) = sum n f * a.
Proof. induction n as [|n IH]; simpl; [ring|]. rewrite IH. ring. Qed.
Lemma sum_opp n f : sum n (fun i => fopp (f i)) = fopp (sum n f).
Proof. induction n as [|n IH]; simpl; [ring|]. rewrite IH. ring. Qed.
Lemma sum_swap n k (h : nat -> nat -> K) :
  sum n (fun i => sum k (fun j => h i j)) = sum k (fun j => sum n (fun i => h i j)).
Proof.
  induction n as [|n IH]; simpl.
  - symmetry. apply sum_0. auto.
  - rewrite IH, <- sum_add. auto.
Qed.
Lemma sum_S_l n f : sum (S n) f = f 0%nat + sum n (fun i => f (S i)).
Proof.
  induction n as [|n IH]; [simpl; ring|]. change (sum (S (S n)) f) with (sum (S n) f + f (S n)).
  rewrite IH. simpl. ring.
Qed.
Lemma sum_single n f i : i < n -> (forall j, j < n -> j <> i -> f j = f0) -> sum n f = f i.
Proof.
  induction n as [|n IH]; intros Hi H; [lia|]. simpl.
  destruct (Nat.eq_dec i n) as [->|NE].
  - rewrite sum_0; [ring|]. intros j Hj. apply H; lia.
  - rewrite IH, (H n); try lia; [ring|]. intros; apply H; lia.
Qed.
Lemma delta_eq i : delta i i = (f1 : K).
Proof. unfold delta. now rewrite Nat.eqb_refl. Qed.
Lemma delta_ne i j : i <> j -> delta i j = (f0 : K).
Proof. intros H. unfold delta. now apply Nat.eqb_neq in H as ->. Qed.
Lemma delta_sym i j : delta i j = (delta j i : K).
Proof. unfold delta. now rewrite Nat.eqb_sym. Qed.
Lemma sum_delta_l n i f : i < n -> sum n (fun k => delta i k * f k) = f i.
Proof.
  intros Hi. rewrite (sum_single n _ i); auto.
  - rewrite delta_eq. ring.
  - intros j _ NE. rewrite delta_ne by auto. ring.
Qed.
Lemma sum_delta_r n j f : j < n -> sum n (fun k => f k * delta k j) = f j.
Proof.
  intros Hj. rewrite (sum_single n _ j); auto.
  - rewrite delta_eq. ring.
  - intros i _ NE. rewrite delta_ne by auto. ring.
Qed.

(** * Matrices as functions of two indices *)
Definition mulf (n : nat) (a b : nat -> nat -> K) (i j : nat) : K := sum n (fun k => a i k * b k j).
Definition colf (n : nat) (a : nat -> nat -> K) x (i : nat) : K := sum n (fun k => a i k * x k).
Definition rowf (n : nat) (a : nat -> nat -> K) x (j : nat) : K := sum n (fun k => x k * a k j).
Implicit Types a b c : nat -> nat -> K.

Lemma mulf_assoc n a b c i j : mulf n a (mulf n b c) i j = mulf n (mulf n a b) c i j.
Proof.
  unfold mulf.
  rewrite (sum_ext n _ (fun k => sum n (fun l => a i k * b k l * c l j))).
  - rewrite sum_swap. apply sum_ext. intros l _. rewrite <- sum_mul_r. auto.
  - intros k _. rewrite <- sum_mul_l. apply sum_ext. intros. ring.
Qed.
Lemma rowf_mulf n a b x j : rowf n b (rowf n a x) j = rowf n (mulf n a b) x j.
Proof.
  unfold rowf, mulf.
  rewrite (sum_ext n _ (fun k => sum n (fun l => x l * a l k * b k j))).
  - rewrite sum_swap. apply sum_ext. intros l _. rewrite <- sum_mul_l. apply sum_ext. intros. ring.
  - intros k _. rewrite <- sum_mul_r. auto.
Qed.
Lemma colf_mulf n a b x i : colf n a (colf n b x) i = colf n (mulf n a b) x i.
Proof.
  unfold colf, mulf.
  rewrite (sum_ext n _ (fun k => sum n (fun l => a i k * b k l * x l))).
  - rewrite sum_swap. apply sum_ext. intros l _. rewrite <- sum_mul_r. auto.
  - intros k _. rewrite <- sum_mul_l. apply sum_ext. intros. ring.
Qed.
Lemma rowf_ext n a b x y j : (forall i, i < n -> a i j = b i j) -> (forall i, i < n -> x i = y i) ->
  rowf n a x j = rowf n b y j.
Proof. intros A B. apply sum_ext. intros k Hk. rewrite A, B; auto. Qed.
Lemma colf_ext n a b x y i : (forall k, k < n -> a i k = b i k) -> (forall k, k < n -> x k = y k) ->
  colf n a x i = colf n b y i.
Proof. intros A B. apply sum_ext. intros k Hk. rewrite A, B; auto. Qed.
Lemma mulf_ext n a a' b b' i j : (forall k, k < n -> a i k = a' i k) -> (forall k, k < n -> b k j = b' k j) ->
  mulf n a b i j = mulf n a' b' i j.
Proof. intros A B. apply sum_ext. intros k Hk. rewrite A, B; auto. Qed.
Lemma rowf_delta n x j : j < n -> rowf n delta x j = x j.
Proof. intros. now apply sum_delta_r. Qed.
Lemma colf_delta n x i : i < n -> colf n delta x i = x i.
Proof. intros. now apply (sum_delta_l n i). Qed.
Lemma rowf_id n a x j : j < n -> (forall i j, i < n -> j < n -> a i j = delta i j) -> rowf n a x j = x j.
Proof. intros Hj H. rewrite (rowf_ext n a delta x x); auto. now apply rowf_delta. Qed.
Lemma colf_id n a x i : i < n -> (forall i j, i < n -> j < n -> a i j = delta i j) -> colf n a x i = x i.
Proof. intros Hj H. rewrite (colf_ext n a delta x x); auto. now apply colf_delta. Qed.
Lemma row_col n a x i : i < n -> (forall i j, i < n -> j < n -> a i j = a j i) -> rowf n a x i = colf n a x i.
Proof. intros Hi S. apply sum_ext. intros k Hk. rewrite S by auto. ring. Qed.
Lemma rowf_add n a x y j : rowf n a (fun i => x i + y i) j = rowf n a x j + rowf n a y j.
Proof. unfold rowf. rewrite <- sum_add. apply sum_ext. intros. ring. Qed.
Lemma colf_col n a b j i : colf n a (fun k => b k j) i = mulf n a b i j.
Proof. reflexivity. Qed.

(** * Rows and lists *)
Lemma lin_sum (r : list K) x : lin K r x = sum (length r) (fun k => at_ K r k * x k).
Proof.
  revert x; induction r as [|e r IH]; intros x; [reflexivity|].
  cbn [length]. rewrite sum_S_l. simpl lin. rewrite IH. reflexivity.
Qed.

Lemma fold_sum {A} (l : list A) (h : A -> K) z :
  fold_left (fun acc e => acc + h e) l z = z + sum (length l) (fun i => match nth_error l i with Some e => h e | None => f0 end).
Proof.
  revert z; induction l as [|e l IH]; intros z; [simpl; ring|].
  cbn [fold_left length]. rewrite IH, sum_S_l. simpl. ring.
Qed.

Lemma nth_error_combine {A B} (l : list A) (l' : list B) i (a : A) (b : B) :
  nth_error l i = Some a -> nth_error l' i = Some b -> nth_error (combine l l') i = Some (a, b).
Proof.
  revert l' i; induction l as [|c l IH]; intros [|d l'] [|i] Ha Hb; simpl in *; try discriminate.
  - congruence.
  - auto.
Qed.

Lemma nth_error_nth_lt {A} (l : list A) i d : i < length l -> nth_error l i = Some (nth i l d).
Proof. intros H. now apply nth_error_nth'. Qed.

Lemma inner_product_sum n (r s : list K) : length r = n -> length s = n ->
  inner_product K r s = sum n (fun k => at_ K r k * at_ K s k).
Proof.
  intros L1 L2. unfold inner_product. rewrite (fold_sum _ (fun e => fst e * snd e)).
  rewrite combine_length, L1, L2, Nat.min_id.
  transitivity (sum n (fun i => match nth_error (combine r s) i with Some e => fst e * snd e | None => f0 end)); [ring|].
  apply sum_ext. intros k Hk.
  rewrite (nth_error_combine r s k (at_ K r k) (at_ K s k)); auto; unfold at_; apply nth_error_nth_lt; lia.
Qed.

Lemma nth_map_seq {A} (h : nat -> A) k n i d : i < n -> nth i (map h (seq k n)) d = h (k + i)%nat.
Proof.
  intros Hi. rewrite (nth_indep _ d (h 0%nat)) by (now rewrite map_length, seq_length).
  rewrite map_nth, seq_nth; auto.
Qed.
Lemma nth_map_lt {A B} (h : A -> B) l i d d' : i < length l -> nth i (map h l) d = h (nth i l d').
Proof.
  intros Hi. rewrite (nth_indep _ d (h d')) by (now rewrite map_length). apply map_nth.
Qed.
Lemma mapi_len {A B} (h : nat -> A -> B) l : length (mapi h l) = length l.
Proof. unfold mapi. rewrite map_length, combine_length, seq_length. lia. Qed.
Lemma nth_mapi {A B} (h : nat -> A -> B) l i d d' : i < length l -> nth i (mapi h l) d = h i (nth i l d').
Proof.
  intros Hi. unfold mapi. rewrite (nth_map_lt _ _ _ _ (0%nat, d')).
  - rewrite combine_nth by (now rewrite seq_length). simpl. now rewrite seq_nth.
  - rewrite combine_length, seq_length. lia.
Qed.

Lemma sq_row n m i : sq n m -> i < n -> length (nth i m []) = n.
Proof. intros [L F] Hi. rewrite Forall_forall in F. apply F, nth_In. lia. Qed.
Lemma shape_row p q m i : shape p q m -> i < p -> length (nth i m []) = q.
Proof. intros [L F] Hi. rewrite Forall_forall in F. apply F, nth_In. lia. Qed.
Lemma sq_intro n m : length m = n -> (forall i, i < n -> length (nth i m []) = n) -> sq n m.
Proof.
  intros L H. split; auto. apply Forall_forall. intros r Hr.
  destruct (In_nth _ _ [] Hr) as (i & Hi & <-). apply H. lia.
Qed.

(** * Products *)
Lemma mul_row_ok n m (v : list K) : sq n m -> length v = n ->
  exists u, mul_row_vec_at_left K m v = Val u /\ length u = n /\ forall j, j < n -> at_ K u j = rowf n (ent m) (at_ K v) j.
Proof.
  intros Q L. unfold mul_row_vec_at_left, num_rows. destruct Q as [Lm W]. rewrite Lm, L, Nat.eqb_refl. simpl.
  eexists. split; [reflexivity|]. split; [now rewrite map_length, seq_length|].
  intros j Hj. unfold at_ at 1. rewrite nth_map_seq by auto. simpl.
  rewrite (fold_sum _ (fun e => snd e * at_ K (fst e) j)). rewrite combine_length, Lm, L, Nat.min_id.
  transitivity (sum n (fun i => match nth_error (combine m v) i with Some e => snd e * at_ K (fst e) j | None => f0 end)); [ring|].
  apply sum_ext. intros k Hk.
  rewrite (nth_error_combine m v k (nth k m []) (at_ K v k)); [reflexivity| |]; unfold at_; apply nth_error_nth_lt; lia.
Qed.

Lemma mul_col_ok n m (v : list K) : sq n m -> length v = n ->
  exists u, mul_col_vec K m v = Val u /\ length u = n /\ forall i, i < n -> at_ K u i = colf n (ent m) (at_ K v) i.
Proof.
  intros Q L. unfold mul_col_vec, num_rows. pose proof Q as [Lm W]. rewrite Lm, L, Nat.eqb_refl. simpl.
  eexists. split; [reflexivity|]. split; [now rewrite map_length|].
  intros i Hi. unfold at_ at 1. rewrite (nth_map_lt _ _ _ _ []) by lia.
  rewrite (inner_product_sum n); auto. now apply sq_row.
Qed.

Lemma transpose_ok n k m : 1 <= n -> shape n k m ->
  exists t, transpose K m = Val t /\ shape k n t /\ forall i j, i < k -> j < n -> ent t i j = ent m j i.
Proof.
  intros Hn Q. pose proof Q as [Lm W]. unfold transpose, num_columns. destruct m as [|r m]; [simpl in Lm; lia|].
  assert (length r = k) as Lr by (now inversion W). cbn [pbind]. rewrite Lr.
  eexists. split; [reflexivity|]. split.
  - split; [now rewrite map_length, seq_length|]. apply Forall_map, Forall_forall. intros j _. cbn beta. now rewrite map_length.
  - intros i j Hi Hj. unfold ent at 1. rewrite nth_map_seq by auto. simpl plus.
    now rewrite (nth_map_lt _ _ _ _ []) by lia.
Qed.

Lemma matmul_shape p q l r (A B : list (list K)) : shape p q A -> shape q l B -> 1 <= q -> p = l ->
  r = q ->
  exists c : list (list K), matmul K A B = Val c /\ shape p l c /\ forall i j, i < p -> j < l -> ent c i j = mulf r (ent A) (ent B) i j.
Proof.
  intros QA QB Hq <- ->. unfold matmul, num_rows. pose proof QB as [LB WB].
  destruct (transpose_ok q p B Hq QB) as (t & -> & Qt & Et).
  unfold num_columns. destruct B as [|b B]; [simpl in LB; lia|]. assert (length b = p) as Lb by (now inversion WB).
  cbn [pbind]. destruct QA as [LA WA]. rewrite LA, Lb, Nat.eqb_refl. simpl.
  eexists. split; [reflexivity|]. split.
  - split; [now rewrite map_length|]. apply Forall_map, Forall_forall. intros x _. rewrite map_length. apply Qt.
  - intros i j Hi Hj. unfold ent at 1. rewrite (nth_map_lt _ _ _ _ []) by lia.
    rewrite (nth_map_lt _ _ _ _ []) by (rewrite (proj1 Qt); auto).
    rewrite (inner_product_sum q).
    + apply sum_ext. intros k Hk. f_equal. apply (Et j k); auto.
    + apply (shape_row p q A); auto. split; auto.
    + apply (shape_row p q t); auto.
Qed.

Lemma matmul_ok n (A B : list (list K)) : 1 <= n -> sq n A -> sq n B ->
  exists c : list (list K), matmul K A B = Val c /\ sq n c /\ forall i j, i < n -> j < n -> ent c i j = mulf n (ent A) (ent B) i j.
Proof. intros. now apply (matmul_shape n n n). Qed.

(** * The inverse *)
Lemma ml_colf n m x i : sq n m -> i < n -> ml K m x i = colf n (ent m) x i.
Proof. intros Q Hi. unfold ml. rewrite lin_sum, (sq_row n) by auto. reflexivity. Qed.

Definition nonsing (n : nat) (a : nat -> nat -> K) : Prop :=
  forall x, (forall i, i < n -> colf n a x i = f0) -> forall i, i < n -> x i = f0.

Lemma colf_opp n a x i : colf n a (fun k => fopp (x k)) i = fopp (colf n a x i).
Proof. unfold colf. rewrite <- sum_opp. apply sum_ext. intros. ring. Qed.

Theorem inverse_val n m w : 1 <= n -> sq n m -> inverse K m = Val w ->
  sq n w /\ mul_is_id n m w /\ mul_is_id n w m.
Proof.
  intros Hn Q E. destruct (inverse_cases K n m Hn Q) as [(w' & E' & Qw & H)|(E' & _)]; [|congruence].
  assert (w' = w) as -> by congruence. split; auto.
  assert (forall x y, (forall i, i < n -> colf n (ent m) x i + y i = f0) <-> (forall i, i < n -> x i + colf n (ent w) y i = f0)) as H'.
  { intros x y. split; intros A i Hi.
    - rewrite <- (ml_colf n w) by auto. apply H; auto. intros j Hj. rewrite (ml_colf n m) by auto. auto.
    - rewrite <- (ml_colf n m) by auto. apply H; auto. intros j Hj. rewrite (ml_colf n w) by auto. auto. }
  split; intros i j Hi Hj; unfold prod_ent.
  - pose proof (proj2 (H' (fun k => fopp (ent w k j)) (fun k => delta k j))) as G.
    assert (forall i, i < n -> fopp (ent w i j) + colf n (ent w) (fun k => delta k j) i = f0) as G1.
    { intros k Hk. unfold colf. rewrite sum_delta_r by auto. ring. }
    specialize (G G1 i Hi). rewrite colf_opp in G. unfold colf in G.
    transitivity (delta i j - (fopp (sum n (fun k => ent m i k * ent w k j)) + delta i j)); [ring|]. rewrite G. ring.
  - pose proof (proj1 (H' (fun k => fopp (delta k j)) (fun k => ent m k j))) as G.
    assert (forall i, i < n -> colf n (ent m) (fun k => fopp (delta k j)) i + ent m i j = f0) as G1.
    { intros k Hk. rewrite colf_opp. unfold colf. rewrite sum_delta_r by auto. ring. }
    specialize (G G1 i Hi). unfold colf in G.
    transitivity (fopp (delta i j) + sum n (fun k => ent w i k * ent m k j) + delta i j); [ring|]. rewrite G. ring.
Qed.

Theorem inverse_non n m : 1 <= n -> sq n m -> inverse K m = Non -> singular n m.
Proof.
  intros Hn Q E. destruct (inverse_cases K n m Hn Q) as [(w' & E' & _)|(_ & c & x & Hc & X & H)]; [congruence|].
  exists x. split.
  - exists c. split; auto. rewrite X. apply f1_nz.
  - intros i Hi. rewrite <- (H i Hi), (ml_colf n) by auto. reflexivity.
Qed.

Theorem inverse_total n m : 1 <= n -> sq n m -> inverse K m <> Pan.
Proof. intros Hn Q E. destruct (inverse_cases K n m Hn Q) as [(w' & E' & _)|(E' & _)]; congruence. Qed.

Lemma left_inverse_nonsing n m w : mul_is_id n w m -> nonsing n (ent m).
Proof.
  intros H x X i Hi. rewrite <- (colf_delta n x i Hi).
  rewrite <- (colf_ext n (mulf n (ent w) (ent m)) delta x x) by (auto; intros; apply H; auto).
  rewrite <- colf_mulf. apply sum_0. intros k Hk. rewrite X by auto. ring.
Qed.

Lemma nonsing_inverse n m : 1 <= n -> sq n m -> nonsing n (ent m) -> exists w, inverse K m = Val w.
Proof.
  intros Hn Q H. destruct (inverse K m) as [w| |] eqn:E.
  - eauto.
  - exfalso. destruct (inverse_non n m Hn Q E) as (x & (i & Hi & NZ) & X). apply NZ. apply (H x X i Hi).
  - exfalso. now apply (inverse_total n m Hn Q).
Qed.

Lemma id_unique n (w m v : list (list K)) : mul_is_id n w m -> mul_is_id n m v ->
  forall i j, i < n -> j < n -> ent w i j = ent v i j.
Proof.
  intros A B i j Hi Hj.
  transitivity (mulf n (ent w) delta i j); [symmetry; apply sum_delta_r; auto|].
  rewrite (mulf_ext n (ent w) (ent w) delta (mulf n (ent m) (ent v))) by (auto; intros; symmetry; apply B; auto).
  rewrite mulf_assoc.
  rewrite (mulf_ext n (mulf n (ent w) (ent m)) delta (ent v) (ent v)) by (auto; intros; apply A; auto).
  apply (sum_delta_l n i (fun k => ent v k j)). auto.
Qed.

(** A one-sided inverse of a square matrix is an inverse. *)
Theorem right_is_left n m w : 1 <= n -> sq n m -> sq n w -> mul_is_id n m w -> mul_is_id n w m.
Proof.
  intros Hn Q Qw H. destruct (nonsing_inverse n w Hn Qw (left_inverse_nonsing n w m H)) as (u & E).
  destruct (inverse_val n w u Hn Qw E) as (Qu & A & B).
  pose proof (id_unique n m w u H A) as U.
  intros i j Hi Hj. unfold prod_ent.
  rewrite (sum_ext n _ (fun k => ent w i k * ent u k j)); [apply A; auto|]. intros k Hk. rewrite U; auto.
Qed.

Theorem inverse_non_none n m : 1 <= n -> sq n m -> inverse K m = Non ->
  forall w, sq n w -> ~ mul_is_id n w m /\ ~ mul_is_id n m w.
Proof.
  intros Hn Q E w Qw.
  assert (~ mul_is_id n w m) as A.
  { intros H. destruct (nonsing_inverse n m Hn Q (left_inverse_nonsing n m w H)) as (u & E'). congruence. }
  split; auto. intros H. apply A. now apply right_is_left.
Qed.
End Lin.
