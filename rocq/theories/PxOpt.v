(** The permutation, the compressed round constants and the sparse matrices. *)
From Coq Require Import List Arith Bool Lia Field_theory Ring Field.
From Verif Require Import AlgBase PxModel PxSpec PxInv PxLin PxMds.
Import ListNotations.

Section Opt.
Variable K : fld.
Add Field Kop : (fth K).
Local Open Scope alg_scope.
Implicit Types (x y z k : nat -> K).

(** Equal on the first [w] elements. *)
Definition eqv w x y : Prop := forall j, j < w -> x j = y j.
Lemma eqv_trans w x y z : eqv w x y -> eqv w y z -> eqv w x z.
Proof. intros A B j Hj. rewrite A, B; auto. Qed.
Lemma eqv_sym w x y : eqv w x y -> eqv w y x.
Proof. intros A j Hj. rewrite A; auto. Qed.

Lemma rowmul_ext w m x y : eqv w x y -> eqv w (rowmul w m x) (rowmul w m y).
Proof. intros A j Hj. apply sum_ext. intros i Hi. rewrite A; auto. Qed.

Lemma alternate_ext n ss ms x y : eqv n x y -> eqv n (alternate n ss ms x) (alternate n ss ms y).
Proof.
  revert ms x y; induction ss as [|s ss IH]; intros [|q ms] x y E; simpl; auto.
  apply IH, rowmul_ext. intros [|j] Hj; simpl; auto. rewrite E; auto.
Qed.

Lemma alternate_layers n ss ms x j : layers K n ss ms x j = alternate n ss ms x j.
Proof. revert ms x; induction ss as [|s ss IH]; intros [|q ms] x; simpl; auto. Qed.

Lemma fold_eqv {A} w (f : (nat -> K) -> A -> (nat -> K)) l x y :
  (forall u v a, eqv w u v -> eqv w (f u a) (f v a)) -> eqv w x y -> eqv w (fold_left f l x) (fold_left f l y).
Proof. intros F. revert x y; induction l as [|a l IH]; intros x y E; simpl; auto. Qed.

(** * The permutation on functions *)
Section Perm.
Variable sbox : K -> K.
Variables w half partial : nat.
Variable m : list (list K).
Hypothesis Q : sq w m.
Hypothesis w1 : 1 <= w.
Variable keys : list K.
Let full := (half + half)%nat.

Definition kf (r : nat) : nat -> K := at_ K (round_keys K w keys r).

Lemma concat_at (rows : list (list K)) r j rest : Forall (fun e => length e = w) rows -> r < length rows -> j < w ->
  nth (r * w + j) (concat rows ++ rest) f0 = nth j (nth r rows []) f0.
Proof.
  intros F. revert r; induction F as [|row rows L F IH]; intros r Hr Hj; simpl in Hr; [lia|].
  destruct r as [|r]; simpl concat; rewrite <- app_assoc.
  - simpl. apply app_nth1. lia.
  - rewrite app_nth2 by (simpl; lia). simpl nth. rewrite <- IH by (auto; lia). f_equal. simpl. lia.
Qed.

Lemma reduce_sum (l : list K) : reduce_add K l = sum (length l) (fun i => nth i l f0).
Proof.
  destruct l as [|a l]; [reflexivity|]. cbn [reduce_add length]. rewrite sum_S_l. simpl nth.
  transitivity (fold_left (fun acc e => acc + (fun e => e) e) l a); [reflexivity|].
  rewrite (fold_sum K l (fun e => e)). f_equal. apply sum_ext. intros i Hi.
  now rewrite (nth_error_nth_lt l i f0).
Qed.

Lemma multiply_len st : length (mds_matrix_multiply K w (concat m) st) = w.
Proof. unfold mds_matrix_multiply. now rewrite map_length, seq_length. Qed.

Lemma multiply_at st i : length st = w -> i < w ->
  at_ K (mds_matrix_multiply K w (concat m) st) i = colf K w (ent m) (at_ K st) i.
Proof.
  intros L Hi. unfold mds_matrix_multiply, at_ at 1. rewrite nth_map_seq by auto. simpl plus.
  rewrite reduce_sum, mapi_len, L. apply sum_ext. intros j Hj.
  rewrite (nth_mapi _ _ _ _ f0) by lia. unfold at_ at 1.
  rewrite (Nat.mul_comm w), <- (app_nil_r (concat m)), concat_at; auto.
  - unfold ent, at_. ring.
  - apply Q.
  - rewrite (proj1 Q). auto.
Qed.

Definition fullf (k : nat -> K) x : nat -> K := colf K w (ent m) (fun j => sbox (x j + k j)).
Definition partf (k : nat -> K) x : nat -> K := colf K w (ent m) (on_first sbox (fun j => x j + k j)).

Lemma full_len r st : length (full_round K sbox w keys (concat m) r st) = w.
Proof. apply multiply_len. Qed.
Lemma part_len r st : length (partial_round K sbox w keys (concat m) r st) = w.
Proof. apply multiply_len. Qed.

Lemma full_at r st : length st = w -> eqv w (at_ K (full_round K sbox w keys (concat m) r st)) (fullf (kf r) (at_ K st)).
Proof.
  intros L j Hj. unfold full_round. rewrite multiply_at by (auto; rewrite mapi_len; auto).
  apply colf_ext; auto. intros i Hi. unfold at_ at 1. rewrite (nth_mapi _ _ _ _ f0) by lia. reflexivity.
Qed.

Lemma part_at r st : length st = w -> eqv w (at_ K (partial_round K sbox w keys (concat m) r st)) (partf (kf r) (at_ K st)).
Proof.
  intros L j Hj. unfold partial_round.
  set (s1 := mapi (fun i e => e + at_ K (round_keys K w keys r) i) st).
  assert (length s1 = w) as L1 by (unfold s1; now rewrite mapi_len).
  assert (forall i, i < w -> at_ K s1 i = at_ K st i + kf r i) as E.
  { intros i Hi. unfold at_ at 1, s1. rewrite (nth_mapi _ _ _ _ f0) by lia. reflexivity. }
  rewrite multiply_at; auto.
  - apply colf_ext; auto. intros i Hi. destruct s1 as [|a s1]; [simpl in L1; lia|].
    destruct i as [|i]; unfold on_first.
    + rewrite <- (E 0%nat Hi). reflexivity.
    + rewrite <- (E (S i) Hi). reflexivity.
  - destruct s1; simpl in *; lia.
Qed.

(** The state before round [r]. *)
Fixpoint X x (r : nat) : nat -> K :=
  match r with
  | 0 => x
  | S r => if (Nat.leb half r && Nat.ltb r (half + partial))%bool then partf (kf r) (X x r) else fullf (kf r) (X x r)
  end.

Lemma colf_eqv n (a : nat -> nat -> K) x y : eqv n x y -> eqv n (colf K n a x) (colf K n a y).
Proof. intros A j Hj. apply colf_ext; auto. Qed.

Lemma run_full s n st x : length st = w -> eqv w (at_ K st) (X x s) ->
  (forall r, s <= r -> r < s + n -> (Nat.leb half r && Nat.ltb r (half + partial))%bool = false) ->
  let st' := fold_left (fun st r => full_round K sbox w keys (concat m) r st) (seq s n) st in
  length st' = w /\ eqv w (at_ K st') (X x (s + n)).
Proof.
  revert s st; induction n as [|n IH]; intros s st L E H; simpl.
  - rewrite Nat.add_0_r. auto.
  - replace (s + S n)%nat with (S s + n)%nat by lia. apply IH.
    + apply full_len.
    + eapply eqv_trans; [apply full_at; auto|]. cbn [X]. rewrite H by lia.
      apply colf_eqv. intros j Hj. now rewrite E.
    + intros r A B. apply H; lia.
Qed.

Lemma run_part s n st x : length st = w -> eqv w (at_ K st) (X x s) ->
  (forall r, s <= r -> r < s + n -> (Nat.leb half r && Nat.ltb r (half + partial))%bool = true) ->
  let st' := fold_left (fun st r => partial_round K sbox w keys (concat m) r st) (seq s n) st in
  length st' = w /\ eqv w (at_ K st') (X x (s + n)).
Proof.
  revert s st; induction n as [|n IH]; intros s st L E H; simpl.
  - rewrite Nat.add_0_r. auto.
  - replace (s + S n)%nat with (S s + n)%nat by lia. apply IH.
    + apply part_len.
    + eapply eqv_trans; [apply part_at; auto|]. cbn [X]. rewrite H by lia.
      apply colf_eqv. intros [|j] Hj; simpl; now rewrite E.
    + intros r A B. apply H; lia.
Qed.

Lemma permute_X st : 1 <= half -> length st = w ->
  length (permute K sbox w full partial keys (concat m) st) = w /\
  eqv w (at_ K (permute K sbox w full partial keys (concat m) st)) (X (at_ K st) (full + partial)).
Proof.
  intros H1 L. unfold permute, permute_without_first_round, half_full_rounds.
  replace (full / 2)%nat with half.
  2:{ unfold full. replace (half + half)%nat with (half * 2)%nat by lia. symmetry. apply Nat.div_mul. lia. }
  destruct (run_full 1 (half - 1) (full_round K sbox w keys (concat m) 0 st) (at_ K st)) as [L1 E1].
  - apply full_len.
  - cbn [X]. replace (half <=? 0) with false by (symmetry; apply Nat.leb_gt; lia). now apply full_at.
  - intros r A B. replace (half <=? r) with false by (symmetry; apply Nat.leb_gt; lia). auto.
  - replace (1 + (half - 1))%nat with half in E1 by lia.
    destruct (run_part half partial _ _ L1 E1) as [L2 E2].
    + intros r A B. rewrite (proj2 (Nat.leb_le _ _)), (proj2 (Nat.ltb_lt _ _)); auto.
    + destruct (run_full (half + partial) (full + partial - (half + partial)) _ _ L2 E2) as [L3 E3].
      * intros r A B. replace (r <? half + partial) with false by (symmetry; apply Nat.ltb_ge; lia). apply andb_false_r.
      * split; auto. replace (half + partial + (full + partial - (half + partial)))%nat with (full + partial)%nat in E3 by (unfold full; lia).
        exact E3.
Qed.

(** * Bijectivity *)
Lemma fullf_inj k x y : (forall a b, sbox a = sbox b -> a = b) -> nonsing K w (ent m) ->
  eqv w (fullf k x) (fullf k y) -> eqv w x y.
Proof.
  intros SI NS E j Hj.
  assert (forall u v, eqv w (colf K w (ent m) u) (colf K w (ent m) v) -> eqv w u v) as CI.
  { intros u v H i Hi. apply fsub_eq0. apply (NS (fun i => u i - v i)); auto.
    intros l Hl. unfold colf. transitivity (colf K w (ent m) u l - colf K w (ent m) v l).
    - unfold colf. transitivity (sum w (fun i0 => ent m l i0 * u i0 + fopp (ent m l i0 * v i0))).
      + apply sum_ext. intros. ring.
      + rewrite sum_add, sum_opp. ring.
    - rewrite H by auto. ring. }
  apply CI in E. specialize (E j Hj). cbn beta in E. apply SI in E.
  transitivity (x j + k j - k j); [ring|]. rewrite E. ring.
Qed.

Lemma partf_inj k x y : (forall a b, sbox a = sbox b -> a = b) -> nonsing K w (ent m) ->
  eqv w (partf k x) (partf k y) -> eqv w x y.
Proof.
  intros SI NS E j Hj.
  assert (forall u v, eqv w (colf K w (ent m) u) (colf K w (ent m) v) -> eqv w u v) as CI.
  { intros u v H i Hi. apply fsub_eq0. apply (NS (fun i => u i - v i)); auto.
    intros l Hl. unfold colf. transitivity (colf K w (ent m) u l - colf K w (ent m) v l).
    - unfold colf. transitivity (sum w (fun i0 => ent m l i0 * u i0 + fopp (ent m l i0 * v i0))).
      + apply sum_ext. intros. ring.
      + rewrite sum_add, sum_opp. ring.
    - rewrite H by auto. ring. }
  apply CI in E. specialize (E j Hj). destruct j as [|j]; unfold on_first in E; [apply SI in E|].
  - transitivity (x 0%nat + k 0%nat - k 0%nat); [ring|]. rewrite E. ring.
  - transitivity (x (S j) + k (S j) - k (S j)); [ring|]. rewrite E. ring.
Qed.

Lemma X_inj x y r : (forall a b, sbox a = sbox b -> a = b) -> nonsing K w (ent m) -> eqv w (X x r) (X y r) -> eqv w x y.
Proof.
  intros SI NS. induction r as [|r IH]; simpl; auto.
  destruct (_ && _)%bool; intros E; apply IH; [eapply partf_inj|eapply fullf_inj]; eauto.
Qed.

Lemma list_eqv (u v : list K) : length u = w -> length v = w -> eqv w (at_ K u) (at_ K v) -> u = v.
Proof.
  intros L1 L2 E. apply (nth_ext u v f0 f0); [congruence|]. intros i Hi. apply E. lia.
Qed.

Theorem permute_inj st st' : 1 <= half -> (forall a b, sbox a = sbox b -> a = b) -> nonsing K w (ent m) ->
  length st = w -> length st' = w ->
  permute K sbox w full partial keys (concat m) st = permute K sbox w full partial keys (concat m) st' -> st = st'.
Proof.
  intros H1 SI NS L L' E. destruct (permute_X st H1 L) as [_ A]. destruct (permute_X st' H1 L') as [_ B].
  apply list_eqv; auto. apply (X_inj _ _ (full + partial) SI NS).
  eapply eqv_trans; [apply eqv_sym, A|]. rewrite E. auto.
Qed.

(** Backwards, with the inverse matrix and an inverse of the S-box. *)
Lemma fullf_sur k z mi : (forall a, exists b, sbox b = a) -> mul_is_id w m mi -> exists x, eqv w (fullf k x) z.
Proof.
  intros SS I.
  assert (forall n (t : nat -> K), exists u : nat -> K, forall j, j < n -> sbox (u j) = t j) as G.
  { induction n as [|n IH]; intros t; [exists t; intros; lia|].
    destruct (IH t) as (u & U). destruct (SS (t n)) as (b & B).
    exists (fun j => if Nat.eqb j n then b else u j). intros j Hj. destruct (Nat.eqb_spec j n) as [->|]; auto. apply U. lia. }
  destruct (G w (colf K w (ent mi) z)) as (u & U). exists (fun j => u j - k j).
  intros j Hj. unfold fullf. rewrite (colf_ext K w (ent m) (ent m) _ (colf K w (ent mi) z)); auto.
  - rewrite colf_mulf. apply colf_id; auto.
  - intros i Hi. rewrite <- U by auto. f_equal. ring.
Qed.

Lemma partf_sur k z mi : (forall a, exists b, sbox b = a) -> mul_is_id w m mi -> exists x, eqv w (partf k x) z.
Proof.
  intros SS I. destruct (SS (colf K w (ent mi) z 0%nat)) as (b & B).
  exists (fun j => match j with 0 => b | S _ => colf K w (ent mi) z j end - k j).
  intros j Hj. unfold partf. rewrite (colf_ext K w (ent m) (ent m) _ (colf K w (ent mi) z)); auto.
  - rewrite colf_mulf. apply colf_id; auto.
  - intros [|i] Hi; unfold on_first.
    + rewrite <- B. f_equal. ring.
    + ring.
Qed.

Lemma X_sur z r mi : (forall a, exists b, sbox b = a) -> mul_is_id w m mi -> exists x, eqv w (X x r) z.
Proof.
  intros SS I. revert z; induction r as [|r IH]; intros z; simpl.
  - exists z. intros j _. auto.
  - destruct (_ && _)%bool.
    + destruct (partf_sur (kf r) z mi SS I) as (y & Y). destruct (IH y) as (x & Xx). exists x.
      eapply eqv_trans; [|exact Y]. apply colf_eqv. intros [|j] Hj; simpl; now rewrite Xx.
    + destruct (fullf_sur (kf r) z mi SS I) as (y & Y). destruct (IH y) as (x & Xx). exists x.
      eapply eqv_trans; [|exact Y]. apply colf_eqv. intros j Hj; simpl; now rewrite Xx.
Qed.

Lemma X_ext x y r : eqv w x y -> eqv w (X x r) (X y r).
Proof.
  intros E. induction r as [|r IH]; simpl; auto. destruct (_ && _)%bool; apply colf_eqv.
  - intros [|j] Hj; simpl; now rewrite IH.
  - intros j Hj; simpl; now rewrite IH.
Qed.

Theorem permute_sur mi t : 1 <= half -> (forall a, exists b, sbox b = a) -> mul_is_id w m mi -> length t = w ->
  exists st, length st = w /\ permute K sbox w full partial keys (concat m) st = t.
Proof.
  intros H1 SS I L. destruct (X_sur (at_ K t) (full + partial) mi SS I) as (x & E).
  exists (map x (seq 0 w)).
  assert (length (map x (seq 0 w)) = w) as L' by (now rewrite map_length, seq_length).
  split; auto. destruct (permute_X _ H1 L') as [LP A]. apply list_eqv; auto.
  eapply eqv_trans; [exact A|]. eapply eqv_trans; [|exact E]. apply X_ext.
  intros j Hj. unfold at_. now rewrite nth_map_seq.
Qed.

(** * The compressed constants *)
Section Compress.
Variable d : mds K.
Hypothesis H1 : 1 <= half.
Hypothesis LK : length keys = ((full + partial) * w)%nat.
Hypothesis SY : symmetric w m.
Let mi := m_inv K d.
Hypothesis Qi : sq w mi.
Hypothesis I2 : mul_is_id w mi m.

(** A key after the matrix is the inverted key before it. *)
Definition inv x : nat -> K := rowmul w mi x.

Lemma rk_len r : r < full + partial -> length (round_keys K w keys r) = w.
Proof.
  intros Hr. unfold round_keys. rewrite firstn_length, skipn_length, LK. apply Nat.min_l. nia.
Qed.

Lemma push x k : eqv w (fun j => colf K w (ent m) x j + k j) (rowmul w m (fun j => x j + inv k j)).
Proof.
  intros j Hj. unfold rowmul. change (colf K w (ent m) x j + k j = rowf K w (ent m) (fun j => x j + inv k j) j).
  rewrite rowf_add. rewrite row_col by auto. f_equal. unfold inv.
  change (k j = rowf K w (ent m) (rowf K w (ent mi) k) j). rewrite rowf_mulf. symmetry. apply rowf_id; auto.
Qed.

Definition addk (k : nat -> K) x : nat -> K := fun j => x j + k j.
Definition post k x : nat -> K := rowmul w m (sboxes_then K sbox k x).

Lemma post_ext k k' x y : eqv w k k' -> eqv w x y -> eqv w (post k x) (post k' y).
Proof. intros A B. apply rowmul_ext. intros j Hj. unfold sboxes_then. rewrite A, B; auto. Qed.

Lemma full_step r x k : (Nat.leb half r && Nat.ltb r (half + partial))%bool = false ->
  eqv w (addk k (X x (S r))) (post (inv k) (addk (kf r) (X x r))).
Proof. intros E. cbn [X]. rewrite E. apply push. Qed.

(** Keys accumulated backwards over the partial rounds [half + i], ... *)
Fixpoint accs (n : nat) : nat -> K :=
  match n with
  | 0 => kf (half + partial)
  | S n => fun j => kf (half + partial - n - 1) j + match j with 0 => f0 | S _ => inv (accs n) j end
  end.

Lemma part_step n x : n < partial ->
  eqv w (addk (accs n) (X x (half + partial - n)))
    (rowmul w m (on_first (fun e => sbox e + inv (accs n) 0%nat) (addk (accs (S n)) (X x (half + partial - S n))))).
Proof.
  intros Hn. replace (half + partial - n)%nat with (S (half + partial - S n)) by lia.
  set (r := (half + partial - S n)%nat). cbn [X].
  replace (half <=? r) with true by (symmetry; apply Nat.leb_le; unfold r; lia).
  replace (r <? half + partial) with true by (symmetry; apply Nat.ltb_lt; unfold r; lia). cbn [andb].
  eapply eqv_trans; [apply push|]. apply rowmul_ext. intros j Hj. unfold addk. cbn [accs].
  replace (half + partial - n - 1)%nat with r by (unfold r; lia).
  destruct j as [|j]; unfold on_first.
  - f_equal. f_equal. ring.
  - ring.
Qed.

Lemma inverted v : length v = w -> exists u, mul_row_vec_at_left K mi v = Val u /\ length u = w /\
  eqv w (at_ K u) (inv (at_ K v)).
Proof. intros L. apply (mul_row_ok K w mi v Qi L). Qed.

Lemma inv_ext x y : eqv w x y -> eqv w (inv x) (inv y).
Proof. apply rowmul_ext. Qed.

Lemma partial_loop_ok n acc pk i : (i + n)%nat = partial -> length acc = w -> eqv w (at_ K acc) (accs i) ->
  length pk = i -> (forall l, l < i -> nth l pk f0 = inv (accs l) 0%nat) ->
  exists acc' pk', partial_loop K mi (map (fun i => round_keys K w keys (half + partial - i - 1)) (seq i n)) acc pk = Val (acc', pk') /\
    length acc' = w /\ eqv w (at_ K acc') (accs partial) /\ length pk' = partial /\
    forall l, l < partial -> nth l pk' f0 = inv (accs l) 0%nat.
Proof.
  revert acc pk i; induction n as [|n IH]; intros acc pk i Hi L E Lp P; cbn [seq map partial_loop].
  - rewrite Nat.add_0_r in Hi. subst i. exists acc, pk. auto.
  - destruct (inverted acc L) as (u & -> & Lu & U). cbn [pexpect pbind].
    assert (eqv w (at_ K u) (inv (accs i))) as U' by (eapply eqv_trans; [exact U|now apply inv_ext]).
    apply (IH _ _ (S i)); try lia.
    + unfold vec_add. rewrite map_length, combine_length, set_nth_len, rk_len by (unfold full; lia). lia.
    + intros j Hj. unfold at_, vec_add.
      rewrite (nth_map_lt _ _ _ _ (f0, f0)).
      * rewrite combine_nth by (rewrite set_nth_len, rk_len by (unfold full; lia); lia). cbn [fst snd accs].
        rewrite set_nth_at by lia. unfold kf, at_. f_equal. destruct j; simpl; auto. apply U'. auto.
      * rewrite combine_length, set_nth_len, rk_len by (unfold full; lia). lia.
    + rewrite app_length. simpl. lia.
    + intros l Hl. destruct (Nat.eq_dec l i) as [->|].
      * rewrite <- Lp, nth_middle. rewrite Lp. apply U'. auto.
      * rewrite app_nth1 by lia. apply P. lia.
Qed.

Lemma fold_full s n x y (kk : nat -> nat -> K) : eqv w y (addk (kf s) (X x s)) ->
  (forall r, s <= r -> r < s + n -> (Nat.leb half r && Nat.ltb r (half + partial))%bool = false) ->
  forall a, (forall i, i < n -> eqv w (kk (a + i)%nat) (inv (kf (S (s + i))))) ->
  eqv w (fold_left (fun y i => post (kk i) y) (seq a n) y) (addk (kf (s + n)) (X x (s + n))).
Proof.
  revert s y; induction n as [|n IH]; intros s y E H a KK; simpl.
  - rewrite Nat.add_0_r. auto.
  - replace (s + S n)%nat with (S s + n)%nat by lia. apply IH.
    + apply eqv_sym. eapply eqv_trans; [apply full_step; apply H; lia|]. apply post_ext.
      * apply eqv_sym. specialize (KK 0%nat ltac:(lia)). rewrite !Nat.add_0_r in KK. exact KK.
      * apply eqv_sym. exact E.
    + intros r A B. apply H; lia.
    + intros i Hi. specialize (KK (S i) ltac:(lia)).
      replace (S a + i)%nat with (a + S i)%nat by lia. replace (S s + i)%nat with (s + S i)%nat by lia. exact KK.
Qed.

Lemma fold_part n i x y ks : (i + n)%nat = partial -> eqv w y (addk (accs n) (X x (half + partial - n))) ->
  (forall l, l < n -> nth l ks (fun e => e) = fun e => sbox e + inv (accs (n - l - 1)) 0%nat) -> length ks = n ->
  eqv w (alternate w ks (repeat m n) y) (addk (accs 0) (X x (half + partial))).
Proof.
  revert i y ks; induction n as [|n IH]; intros i y ks Hi E KK LKs; destruct ks as [|s ks]; simpl in LKs; try discriminate.
  - simpl. rewrite Nat.sub_0_r in E. exact E.
  - simpl. apply (IH (S i)); auto; try lia.
    + eapply eqv_trans; [|apply eqv_sym, part_step; lia]. apply rowmul_ext.
      pose proof (KK 0%nat ltac:(lia)) as K0. simpl in K0. rewrite Nat.sub_0_r in K0. subst s.
      intros [|j] Hj; unfold on_first; rewrite E by auto; auto.
    + intros l Hl. apply (KK (S l)). lia.
Qed.

Lemma concat_len_ (rows : list (list K)) : Forall (fun e => length e = w) rows -> length (concat rows) = (length rows * w)%nat.
Proof. induction 1 as [|r rows L F IH]; simpl; auto. rewrite app_length, IH, L. auto. Qed.

Theorem compress_ok : exists ks, compress_round_constants K w full partial keys d = Val ks /\
  length ks = (full * w + partial)%nat /\
  forall pre sps, length sps = partial ->
    (forall ss x, length ss = partial -> eqv w (alternate w ss (repeat m partial) (rowmul w m x)) (alternate w ss sps (rowmul w pre x))) ->
    forall st, length st = w ->
    eqv w (at_ K (permute K sbox w full partial keys (concat m) st)) (opt_eval sbox w half partial ks m pre sps (at_ K st)).
Proof.
  unfold compress_round_constants. fold mi.
  replace (full / 2)%nat with half.
  2:{ unfold full. replace (half + half)%nat with (half * 2)%nat by lia. symmetry. apply Nat.div_mul. lia. }
  replace (half =? 0) with false by (symmetry; apply Nat.eqb_neq; lia).
  set (h1 := (half - 1)%nat). assert (half = S h1) as Hh by (unfold h1; lia). clearbody h1.
  assert (forall r, r < full + partial -> exists u, pexpect (mul_row_vec_at_left K mi (round_keys K w keys r)) = Val u /\
            (length u = w /\ eqv w (at_ K u) (inv (kf r)))) as IV.
  { intros r Hr. destruct (inverted (round_keys K w keys r) (rk_len r Hr)) as (u & -> & Lu & U). exists u. auto. }
  destruct (traverse_ok (fun i => pexpect (mul_row_vec_at_left K mi (round_keys K w keys (i + 1))))
     (fun i u => length u = w /\ eqv w (at_ K u) (inv (kf (i + 1)))) (seq 0 h1)) as (first & -> & F1).
  { apply Forall_forall. intros i Hi. apply in_seq in Hi. apply IV. unfold full. lia. }
  cbn [pbind].
  destruct (partial_loop_ok partial (round_keys K w keys (half + partial)) [] 0) as (acc & pk & -> & La & Ea & Lp & Ep); auto.
  { apply rk_len. unfold full. lia. }
  { intros j Hj. reflexivity. }
  { intros; lia. }
  cbn [pbind fst snd].
  destruct (inverted acc La) as (mid & -> & Lmid & Emid). cbn [pexpect pbind].
  destruct (traverse_ok (fun i => pexpect (mul_row_vec_at_left K mi (round_keys K w keys (i + (half + partial)))))
     (fun i u => length u = w /\ eqv w (at_ K u) (inv (kf (i + (half + partial))))) (seq 1 h1)) as (last & -> & F2).
  { apply Forall_forall. intros i Hi. apply in_seq in Hi. apply IV. unfold full. lia. }
  cbn [pbind]. eexists. split; [reflexivity|].
  set (rows := round_keys K w keys 0 :: first ++ [mid]).
  assert (round_keys K w keys 0 ++ concat first ++ mid ++ rev pk ++ concat last = concat rows ++ rev pk ++ concat last) as EK.
  { unfold rows. simpl. rewrite concat_app. simpl. rewrite app_nil_r, <- !app_assoc. auto. }
  rewrite EK. clear EK.
  pose proof (F2len _ _ _ F1) as Lf. rewrite seq_length in Lf.
  pose proof (F2len _ _ _ F2) as Ll. rewrite seq_length in Ll.
  assert (Forall (fun e => length e = w) rows) as WR.
  { unfold rows. constructor; [apply rk_len; unfold full; lia|]. apply Forall_app. split; [|auto].
    clear - F1. induction F1; constructor; tauto. }
  assert (Forall (fun e => length e = w) last) as WL.
  { clear - F2. induction F2; constructor; tauto. }
  assert (length rows = half + 1)%nat as LR by (unfold rows; simpl; rewrite app_length; simpl; lia).
  split.
  { rewrite !app_length, rev_length, !concat_len_, LR, Lp, <- Ll by auto. unfold full. rewrite Hh. nia. }
  set (ks := concat rows ++ rev pk ++ concat last).
  assert (forall r j, r < half + 1 -> j < w -> key K w ks r j = nth j (nth r rows []) f0) as KR.
  { intros r j Hr Hj. unfold key, ks. apply concat_at; auto. lia. }
  assert (forall i u, nth_error first i = Some u -> length u = w /\ eqv w (at_ K u) (inv (kf (i + 1)))) as N1.
  { intros i u Hu. assert (i < h1) by (rewrite Lf; apply nth_error_Some; congruence).
    assert (forall l l' (P : nat -> list K -> Prop) i a b, Forall2 P l l' -> nth_error l i = Some a -> nth_error l' i = Some b -> P a b) as F2n.
    { clear. intros l l' P i a b F. revert i; induction F; intros [|i] A B; simpl in *; try discriminate; eauto; congruence. }
    eapply (F2n _ _ _ i i u F1); auto.
    rewrite (nth_error_nth_lt (seq 0 h1) i 0%nat) by (now rewrite seq_length). now rewrite seq_nth. }
  assert (forall i u, nth_error last i = Some u -> length u = w /\ eqv w (at_ K u) (inv (kf (S i + (half + partial))))) as N2.
  { intros i u Hu. assert (i < h1) by (rewrite Ll; apply nth_error_Some; congruence).
    assert (forall l l' (P : nat -> list K -> Prop) i a b, Forall2 P l l' -> nth_error l i = Some a -> nth_error l' i = Some b -> P a b) as F2n.
    { clear. intros l l' P i a b F. revert i; induction F; intros [|i] A B; simpl in *; try discriminate; eauto; congruence. }
    eapply (F2n _ _ _ i (S i) u F2); auto.
    rewrite (nth_error_nth_lt (seq 1 h1) i 0%nat) by (now rewrite seq_length). now rewrite seq_nth. }
  assert (eqv w (key K w ks 0) (kf 0)) as K0.
  { intros j Hj. rewrite KR by lia. reflexivity. }
  assert (forall i, i < h1 -> eqv w (key K w ks (S i)) (inv (kf (S i)))) as KF.
  { intros i Hi j Hj. rewrite KR by lia. unfold rows. simpl nth. rewrite app_nth1 by lia.
    destruct (N1 i (nth i first [])) as [_ A]; [apply nth_error_nth_lt; lia|].
    rewrite Nat.add_1_r in A. now apply A. }
  assert (eqv w (key K w ks half) (inv (accs partial))) as KM.
  { intros j Hj. rewrite KR by lia. unfold rows. rewrite Hh. simpl nth. rewrite Lf, nth_middle.
    rewrite <- (inv_ext _ _ Ea j Hj). now apply Emid. }
  assert (forall i, i < partial -> partial_key K w half ks i = inv (accs (partial - i - 1)) 0%nat) as KP.
  { intros i Hi. unfold partial_key, ks. rewrite app_nth2 by (rewrite concat_len_, LR; auto; lia).
    rewrite concat_len_, LR by auto. replace ((half + 1) * w + i - (half + 1) * w)%nat with i by lia.
    rewrite app_nth1 by (rewrite rev_length; lia). rewrite nth_rev by lia. rewrite Lp. apply Ep. lia. }
  assert (forall i, i < h1 -> eqv w (last_key K w half partial ks i) (inv (kf (S (half + partial + i))))) as KL.
  { intros i Hi j Hj. unfold last_key, ks. rewrite app_nth2 by (rewrite concat_len_, LR; auto; lia).
    rewrite concat_len_, LR by auto.
    rewrite app_nth2 by (rewrite rev_length, Lp; lia). rewrite rev_length, Lp.
    replace ((half + 1) * w + partial + i * w + j - (half + 1) * w - partial)%nat with (i * w + j)%nat by lia.
    rewrite <- (app_nil_r (concat last)), concat_at by (auto; lia).
    destruct (N2 i (nth i last [])) as [_ A]; [apply nth_error_nth_lt; lia|].
    replace (S (half + partial + i))%nat with (S i + (half + partial))%nat by lia. now apply A. }
  clearbody ks. clear N1 N2 KR.
  intros pre sps Ls ALT st Lst. destruct (permute_X st H1 Lst) as [_ PX].
  eapply eqv_trans; [exact PX|]. clear PX. set (x := at_ K st).
  unfold opt_eval. apply eqv_sym.
  set (y0 := fun j => x j + key K w ks 0 j).
  assert (eqv w y0 (addk (kf 0) (X x 0))) as Y0.
  { intros j Hj. unfold y0, addk. cbn [X]. rewrite K0 by auto. auto. }
  set (y1 := fold_left (fun y i => rowmul w m (sboxes_then K sbox (key K w ks i) y)) (seq 1 (half - 1)) y0).
  assert (eqv w y1 (addk (kf h1) (X x h1))) as Y1.
  { unfold y1. replace (half - 1)%nat with h1 by lia.
    apply (fold_full 0 h1 x y0 (key K w ks)) with (a := 1%nat); auto.
    intros r A B. replace (half <=? r) with false by (symmetry; apply Nat.leb_gt; lia). auto. }
  set (y2 := rowmul w pre (sboxes_then K sbox (key K w ks half) y1)).
  set (ss := map (fun i e => sbox e + partial_key K w half ks i) (seq 0 partial)).
  assert (length ss = partial) as Lss by (unfold ss; now rewrite map_length, seq_length).
  assert (eqv w (alternate w ss sps y2) (addk (kf (half + partial)) (X x (half + partial)))) as Y3.
  { apply eqv_sym. eapply eqv_trans; [|apply ALT; auto]. apply eqv_sym.
    apply (fold_part partial 0 x); auto.
    - replace (half + partial - partial)%nat with (S h1) by lia. apply eqv_sym. eapply eqv_trans.
      + apply full_step. replace (half <=? h1) with false by (symmetry; apply Nat.leb_gt; lia). auto.
      + apply rowmul_ext. intros j Hj. unfold sboxes_then. rewrite Y1, KM by auto. auto.
    - intros l Hl. unfold ss. rewrite (nth_indep _ _ (fun e => sbox e + partial_key K w half ks 0)) by (now rewrite map_length, seq_length).
      rewrite (map_nth (fun i e => sbox e + partial_key K w half ks i)), seq_nth by auto. simpl plus. now rewrite KP. }
  set (y3 := alternate w ss sps y2) in *. clearbody y3.
  set (y4 := fold_left (fun y i => rowmul w m (sboxes_then K sbox (last_key K w half partial ks i) y)) (seq 0 (half - 1)) y3).
  assert (eqv w y4 (addk (kf (half + partial + h1)) (X x (half + partial + h1)))) as Y4.
  { unfold y4. replace (half - 1)%nat with h1 by lia.
    apply (fold_full (half + partial) h1 x y3 (last_key K w half partial ks)) with (a := 0%nat); auto.
    intros r A B. replace (r <? half + partial) with false by (symmetry; apply Nat.ltb_ge; lia). apply andb_false_r. }
  replace (full + partial)%nat with (S (half + partial + h1)) by (unfold full; lia). cbn [X].
  replace (half + partial + h1 <? half + partial) with false by (symmetry; apply Nat.ltb_ge; lia). rewrite andb_false_r.
  intros j Hj. unfold rowmul, fullf.
  change (rowf K w (ent m) (fun j => sbox (y4 j)) j = colf K w (ent m) (fun j => sbox (addk (kf (half + partial + h1)) (X x (half + partial + h1)) j)) j).
  rewrite row_col by auto. apply colf_ext; auto. intros i Hi. now rewrite Y4.
Qed.
End Compress.
End Perm.
End Opt.
