(** The data of a branch seen as a partial tree whose first leaves were removed. *)
From Coq Require Import List Arith Bool ZArith ZifyNat ZifyBool Lia.
From Verif Require Import MtModel MtSpec MtLemmas MtInner MtInv MtBatch MtFull PtModel PtLeaf PtAgree PtSim.
Import ListNotations.
Ltac dlia := zify; Z.div_mod_to_equations; lia.

Lemma sibling_shift s i : is_left s = true -> sibling (s + i) = s + sibling i.
Proof.
  intro E. apply is_left_true in E.
  destruct (sibling_cases i) as [(_ & A1 & A2)|(_ & A1 & A2)];
  destruct (sibling_cases (s + i)) as [(_ & B1 & B2)|(_ & B1 & B2)]; dlia.
Qed.

Lemma nth_error_repeat_app {A} (a : A) s l i : nth_error (repeat a s ++ l) (s + i) = nth_error l i.
Proof. induction s; cbn; auto. Qed.

Lemma nth_error_repeat_app_lt {A} (a : A) s l i : i < s -> nth_error (repeat a s ++ l) i = Some a.
Proof.
  intro Hi. rewrite nth_error_app1 by (rewrite repeat_length; auto).
  revert i Hi. induction s; intros i Hi; [lia|]. destruct i; cbn [repeat nth_error]; auto. apply IHs. lia.
Qed.

Lemma upd_repeat_app {A} (a : A) s l i f : upd (repeat a s ++ l) (s + i) f = repeat a s ++ upd l i f.
Proof. induction s; cbn [repeat app Nat.add upd]; auto. f_equal. auto. Qed.

Lemma range_join_leaves_ext {LD ID} (dl : LD) (joinl : LD -> LD -> ID) r ds get get' :
  get (rg_node r) = get' (rg_node r) -> get (last_node r) = get' (last_node r) ->
  range_join_leaves dl joinl r ds get = range_join_leaves dl joinl r ds get'.
Proof. intros A B. unfold range_join_leaves. rewrite A, B. reflexivity. Qed.

Section Hash.
Context {LD ID : Type}.
Notation partial := (partial LD ID).
Implicit Types t : partial.

Definition virt t : partial := Part (repeat None (pt_start t) ++ pt_lm t) (pt_map t) 0.

Record wfb t : Prop := {
  wfb_even : is_left (pt_start t) = true;
  wfb_start : pt_lm t = [] -> pt_start t = 0;
  wfb_full : forall i, nth_error (pt_lm t) i <> Some None
}.

Lemma virt_length t : length (pt_lm (virt t)) = pt_start t + length (pt_lm t).
Proof. cbn. now rewrite app_length, repeat_length. Qed.

Lemma pt_len_eq t : pt_len t = pt_start t + length (pt_lm t).
Proof. unfold pt_len, lm_current. destruct (length (pt_lm t)); lia. Qed.

Lemma virt_len t : pt_len (virt t) = pt_len t.
Proof. rewrite !pt_len_eq. cbn [virt pt_start pt_lm]. now rewrite app_length, repeat_length. Qed.

Lemma virt_nth t i : nth_error (pt_lm (virt t)) (pt_start t + i) = nth_error (pt_lm t) i.
Proof. apply nth_error_repeat_app. Qed.

Lemma virt_get t i : pt_start t <= i -> lm_get (pt_lm (virt t)) i = lm_get (pt_lm t) (i - pt_start t).
Proof.
  intro Hi. unfold lm_get, lm_entry. replace i with (pt_start t + (i - pt_start t)) at 1 by lia.
  now rewrite virt_nth.
Qed.

Lemma virt_sibling t i : wfb t -> pt_start t <= i -> pt_leaf_sibling (virt t) i = pt_leaf_sibling t i.
Proof.
  intros W Hi. unfold pt_leaf_sibling. change (pt_start (virt t)) with 0. rewrite Nat.sub_0_r.
  replace i with (pt_start t + (i - pt_start t)) at 1 by lia. rewrite sibling_shift by apply W.
  rewrite virt_get by lia. f_equal. lia.
Qed.

Lemma virt_present t j : wfb t -> present (pt_lm (virt t)) j <-> pt_start t <= j.
Proof.
  intro W. unfold present. split.
  - intro P. destruct (Nat.lt_ge_cases j (pt_start t)) as [C|C]; auto. exfalso. apply P.
    apply nth_error_repeat_app_lt. auto.
  - intro Hj. replace j with (pt_start t + (j - pt_start t)) by lia. rewrite virt_nth. apply W.
Qed.

Lemma virt_removed_ok t : wfb t -> removed_ok (pt_lm (virt t)).
Proof.
  intros W i E. destruct (Nat.lt_ge_cases i (pt_start t)) as [C|C].
  2:{ exfalso. revert E. apply virt_present; auto. }
  assert (length (pt_lm t) <> 0) by (intro Z; apply length_zero_iff_nil in Z; apply (wfb_start _ W) in Z; lia).
  pose proof (wfb_even _ W) as Ev. apply is_left_true in Ev.
  assert (sibling i < pt_start t) by (destruct (sibling_cases i) as [(_ & A1 & A2)|(_ & A1 & A2)]; dlia).
  rewrite virt_length. split; [lia|]. split; [lia|]. apply nth_error_repeat_app_lt. auto.
Qed.

Lemma virt_mark t i : pt_mark (virt t) (pt_start t + i) = virt (pt_mark t i).
Proof. unfold pt_mark, virt. cbn [pt_lm pt_map pt_start]. unfold lm_mark. now rewrite upd_repeat_app. Qed.

Lemma virt_marks n : forall i t, fold_left pt_mark (seq (pt_start t + i) n) (virt t) =
  virt (fold_left pt_mark (seq i n) t).
Proof.
  induction n; intros i t; cbn [seq fold_left]; auto. rewrite virt_mark.
  replace (S (pt_start t + i)) with (pt_start (pt_mark t i) + S i) by (cbn [pt_mark pt_start]; lia).
  apply IHn.
Qed.

Lemma wfb_mark t i : wfb t -> wfb (pt_mark t i).
Proof.
  intros [A B C]. unfold pt_mark. split; cbn [pt_start pt_lm]; auto.
  - intro E. apply B. apply (f_equal (@length _)) in E. rewrite lm_mark_length in E.
    now apply length_zero_iff_nil.
  - intros j E. rewrite lm_mark_nth in E. apply (C j). destruct (Nat.eqb j i); auto.
    destruct (nth_error (pt_lm t) j) as [[[]|]|]; congruence.
Qed.

Lemma wfb_marks l : forall t, wfb t -> wfb (fold_left pt_mark l t).
Proof. induction l; intros t W; cbn [fold_left]; auto. apply IHl, wfb_mark, W. Qed.

Lemma marks_start l : forall t, pt_start (fold_left pt_mark l t) = pt_start t.
Proof. induction l; intro t; cbn [fold_left]; auto. rewrite IHl. reflexivity. Qed.

Lemma wfb_append t (xs : list (bool * LD)) m :
  wfb t -> wfb (Part (pt_lm t ++ map Some xs) m (pt_start t)).
Proof.
  intros [A B C]. split; cbn [pt_start pt_lm]; auto.
  - intro E. apply app_eq_nil in E. apply B, E.
  - intros i E. destruct (Nat.lt_ge_cases i (length (pt_lm t))).
    + rewrite nth_error_app1 in E by auto. revert E. apply C.
    + rewrite nth_error_app2, nth_error_map in E by auto. destruct (nth_error xs _); discriminate.
Qed.

Variable dl : LD.
Variable di : ID.
Variable join : ID -> ID -> ID.
Variable joinl : LD -> LD -> ID.
Variable H : nat.
Notation pt_push := (pt_push dl di join joinl H).
Notation pt_push_np := (pt_push_np dl di join joinl H).
Notation pt_batch := (pt_batch dl di join joinl H).

Lemma virt_root t : pt_root di (virt t) = pt_root di t.
Proof. reflexivity. Qed.

Lemma virt_push t d : wfb t ->
  pt_push (virt t) d = (virt (fst (pt_push t d)), snd (pt_push t d)) /\
  wfb (fst (pt_push t d)) /\ pt_start (fst (pt_push t d)) = pt_start t.
Proof.
  intro W. unfold PtModel.pt_push. cbv zeta. rewrite virt_len.
  destruct (capacity H <=? pt_len t); cbn [fst snd]; [auto|].
  split; [|split; [|reflexivity]].
  - f_equal. unfold pt_push_leaf. rewrite virt_sibling by (auto; rewrite pt_len_eq; lia).
    unfold virt at 1 2 3. unfold virt. cbn [pt_lm pt_map pt_start]. unfold lm_push. now rewrite app_assoc.
  - apply (wfb_append t [(false, d)]). exact W.
Qed.

Lemma virt_push_np t d : wfb t ->
  pt_push_np (virt t) d = (virt (fst (pt_push_np t d)), snd (pt_push_np t d)) /\
  wfb (fst (pt_push_np t d)) /\ pt_start (fst (pt_push_np t d)) = pt_start t.
Proof.
  intro W. destruct (virt_push t d W) as (A & B & C). unfold PtModel.pt_push_np.
  rewrite A, virt_len. destruct (pt_push t d) as [t' b]. cbn [fst snd] in *. split; [|split].
  - f_equal. change (pt_start (virt t)) with 0. rewrite Nat.sub_0_r.
    replace (pt_len t) with (pt_start t' + (pt_len t - pt_start t)) at 1 by (rewrite C, pt_len_eq; lia).
    apply virt_mark.
  - apply wfb_mark; auto.
  - exact C.
Qed.

Lemma virt_batch_leaves t r ds : wfb t -> pt_len t <= rg_node r ->
  pt_batch_leaves dl di join joinl H (virt t) r ds =
    option_map virt (pt_batch_leaves dl di join joinl H t r ds) /\
  match pt_batch_leaves dl di join joinl H t r ds with
  | Some t' => wfb t' /\ pt_start t' = pt_start t
  | None => True
  end.
Proof.
  intros W Hr. unfold pt_batch_leaves.
  assert (pt_start t <= rg_node r) by (rewrite pt_len_eq in Hr; lia).
  rewrite (range_join_leaves_ext dl joinl r ds (pt_leaf_sibling (virt t)) (pt_leaf_sibling t))
    by (apply virt_sibling; auto; unfold last_node; lia).
  destruct (range_join_leaves dl joinl r ds (pt_leaf_sibling t)) as [base|]; [|split; auto].
  cbn [virt pt_map]. destruct (inner_batch_insert di join H (pt_map t) r base) as [m|]; [|split; auto].
  split.
  - cbn [option_map]. f_equal. unfold virt. cbn [pt_lm pt_map pt_start].
    rewrite !lm_extend_eq. now rewrite app_assoc.
  - split; [|reflexivity]. rewrite lm_extend_eq.
    replace (map (fun x => Some (false, x)) ds) with (map Some (map (fun x => (false, x)) ds)) by (rewrite map_map; auto).
    apply wfb_append; auto.
Qed.

Lemma virt_batch t ds : wfb t ->
  match pt_batch t ds with
  | Some (t', o) => pt_batch (virt t) ds = Some (virt t', o) /\ wfb t' /\ pt_start t' = pt_start t
  | None => pt_batch (virt t) ds = None
  end.
Proof.
  intro W. unfold PtModel.pt_batch. destruct ds as [|d0 ds0]; [auto|].
  remember (d0 :: ds0) as ds. cbv zeta. rewrite virt_len.
  destruct (capacity H <? pt_len t + length ds).
  - destruct (capacity H - pt_len t =? 0); [auto|].
    destruct (virt_batch_leaves t (NRange (pt_len t) (capacity H - pt_len t - 1))
      (firstn (capacity H - pt_len t) ds) W (le_n _)) as [A B].
    rewrite A. destruct (pt_batch_leaves dl di join joinl H t _ _); cbn [option_map]; auto.
  - destruct (virt_batch_leaves t (NRange (pt_len t) (length ds - 1)) ds W (le_n _)) as [A B].
    rewrite A. destruct (pt_batch_leaves dl di join joinl H t _ _); cbn [option_map]; auto.
Qed.

Lemma virt_batch_push t ds : wfb t ->
  match pt_batch_push dl di join joinl H t ds with
  | Some (t', b) => pt_batch_push dl di join joinl H (virt t) ds = Some (virt t', b) /\ wfb t' /\
      pt_start t' = pt_start t
  | None => pt_batch_push dl di join joinl H (virt t) ds = None
  end.
Proof.
  intro W. unfold pt_batch_push. pose proof (virt_batch t ds W) as V.
  destruct (pt_batch t ds) as [[t' o]|]; [|now rewrite V].
  destruct V as (V1 & V2 & V3). rewrite V1. destruct o as [[b n]|]; auto.
Qed.

Lemma virt_batch_push_np t ds : wfb t ->
  match pt_batch_push_np dl di join joinl H t ds with
  | Some (t', b) => pt_batch_push_np dl di join joinl H (virt t) ds = Some (virt t', b) /\ wfb t' /\
      pt_start t' = pt_start t
  | None => pt_batch_push_np dl di join joinl H (virt t) ds = None
  end.
Proof.
  intro W. unfold pt_batch_push_np. pose proof (virt_batch t ds W) as V. rewrite virt_len.
  destruct (pt_batch t ds) as [[t' o]|]; [|now rewrite V].
  destruct V as (V1 & V2 & V3). rewrite V1. destruct o as [[b n]|]; auto.
  split; [|split].
  - f_equal. f_equal. change (pt_start (virt t)) with 0. rewrite Nat.sub_0_r.
    replace (pt_len t) with (pt_start t' + (pt_len t - pt_start t)) at 1 by (rewrite V3, pt_len_eq; lia).
    apply virt_marks.
  - apply wfb_marks; auto.
  - rewrite marks_start. auto.
Qed.

Lemma virt_path_unchecked t i : wfb t -> pt_start t <= i ->
  pt_path_unchecked dl di H (virt t) i = pt_path_unchecked dl di H t i.
Proof. intros W Hi. unfold pt_path_unchecked. now rewrite virt_sibling. Qed.

Lemma virt_current_path ideqb t : wfb t ->
  pt_current_path dl di ideqb H (virt t) = pt_current_path dl di ideqb H t.
Proof.
  intros W. unfold pt_current_path. rewrite virt_len. destruct (pt_len t) as [|c] eqn:E; auto.
  rewrite virt_sibling; auto. rewrite pt_len_eq in E.
  destruct (pt_lm t) as [|e lm] eqn:F; [rewrite (wfb_start _ W F) in *; lia|cbn [length] in E; lia].
Qed.
End Hash.
