(** The MDS matrices: derivation, factorization, and the Cauchy matrix. *)
From Coq Require Import List Arith Bool Lia Field_theory Ring Field.
From Verif Require Import AlgBase PxModel PxSpec PxInv PxLin.
Import ListNotations.

Section Mds.
Variable K : fld.
Add Field Kmd : (fth K).
Local Open Scope alg_scope.
Implicit Types (m : list (list K)) (x y : nat -> K) (a b : nat -> nat -> K).

(** Without the first row and column. *)
Definition hat a : nat -> nat -> K := fun i j => a (S i) (S j).

Lemma set_nth_len {A} i (e : A) l : length (set_nth i e l) = length l.
Proof. revert i; induction l as [|b l IH]; intros [|i]; simpl; auto. Qed.
Lemma set_nth_at {A} i (e : A) l j d : i < length l -> nth j (set_nth i e l) d = if Nat.eqb j i then e else nth j l d.
Proof.
  revert i j; induction l as [|b l IH]; intros [|i] [|j] H; simpl in *; auto; try lia.
  apply IH. lia.
Qed.

Lemma nth_skip1 {A} (l : list A) i d : nth i (skipn 1 l) d = nth (S i) l d.
Proof. destruct l; simpl; auto. destruct i; auto. Qed.

Lemma nth_repeat {A} (e d : A) n i : i < n -> nth i (repeat e n) d = e.
Proof. revert i; induction n as [|n IH]; intros [|i] H; simpl; auto; try lia. apply IH. lia. Qed.

Lemma make_prime_ok n m : 1 <= n -> sq n m ->
  sq n (make_prime K m) /\ forall i j, i < n -> j < n ->
    ent (make_prime K m) i j = match i, j with 0, 0 => f1 | 0, S _ => f0 | S _, 0 => f0 | S _, S _ => ent m i j end.
Proof.
  intros Hn Q. pose proof Q as [L W]. unfold make_prime. split.
  - apply sq_intro; [now rewrite mapi_len|]. intros i Hi. rewrite (nth_mapi _ _ _ _ []) by lia.
    pose proof (sq_row K n m i Q Hi) as R. destruct i; cbn [length].
    + rewrite repeat_length. lia.
    + rewrite skipn_length. lia.
  - intros i j Hi Hj. unfold ent at 1. rewrite (nth_mapi _ _ _ _ []) by lia.
    pose proof (sq_row K n m i Q Hi) as R. destruct i, j; auto.
    + simpl nth. apply nth_repeat. lia.
    + change (nth j (skipn 1 (nth (S i) m [])) f0 = ent m (S i) (S j)). apply nth_skip1.
Qed.

Lemma nth_remove0 {A} (l : list A) i d : nth i (remove_nth 0 l) d = nth (S i) l d.
Proof. unfold remove_nth. simpl. destruct l; [destruct i; auto|]. auto. Qed.
Lemma remove0_len {A} (l : list A) : length (remove_nth 0 l) = (length l - 1)%nat.
Proof. unfold remove_nth. destruct l; simpl; auto. lia. Qed.

Lemma minor_ok n m : sq (S n) m -> 1 <= n ->
  exists h, minor K m 0 0 = Val h /\ sq n h /\ forall i j, i < n -> j < n -> ent h i j = hat (ent m) i j.
Proof.
  intros Q Hn. pose proof Q as [L W]. unfold minor, num_rows. rewrite L.
  replace (S n <=? 1) with false by (symmetry; apply Nat.leb_gt; lia).
  eexists. split; [reflexivity|].
  assert (length (remove_nth 0 m) = n) as LR by (rewrite remove0_len; lia).
  split.
  - apply sq_intro; [now rewrite map_length|]. intros i Hi. rewrite (nth_map_lt _ _ _ _ []) by lia.
    rewrite remove0_len, nth_remove0, (sq_row K (S n)) by (auto; lia). lia.
  - intros i j Hi Hj. unfold ent at 1. rewrite (nth_map_lt _ _ _ _ []) by lia.
    now rewrite !nth_remove0.
Qed.

(** The first column of the sparse factor. *)
Lemma make_double_prime_ok n m hi : 1 <= n -> sq (S n) m -> sq n hi ->
  exists d, make_double_prime K m hi = Val d /\ sq (S n) d /\ forall i j, i < S n -> j < S n ->
    ent d i j = match i, j with
                | 0, _ => ent m 0 j
                | S k, 0 => rowf K n (ent hi) (fun l => ent m (S l) 0) k
                | S _, S _ => delta i j
                end.
Proof.
  intros Hn Q Qh. pose proof Q as [L W]. unfold make_double_prime, make_v_w.
  set (w := map (fun row => at_ K row 0) (skipn 1 m)).
  assert (length w = n) as Lw by (unfold w; rewrite map_length, skipn_length; lia).
  destruct (mul_row_ok K n hi w Qh Lw) as (u & -> & Lu & U). cbn [pexpect pbind].
  eexists. split; [reflexivity|]. split.
  - apply sq_intro; [now rewrite mapi_len|]. intros i Hi. rewrite (nth_mapi _ _ _ _ []) by lia.
    pose proof (sq_row K (S n) m i Q Hi) as R. destruct i; cbn [length].
    + rewrite skipn_length. destruct m; [simpl in L; lia|]. simpl in *. lia.
    + rewrite !set_nth_len, repeat_length. auto.
  - intros i j Hi Hj. unfold ent at 1. rewrite (nth_mapi _ _ _ _ []) by lia.
    pose proof (sq_row K (S n) m i Q Hi) as R. destruct i as [|k].
    + destruct j; auto. change (nth j (skipn 1 (hd [] m)) f0 = ent m 0 (S j)).
      rewrite nth_skip1. unfold ent. destruct m; auto.
    + rewrite set_nth_at by (rewrite set_nth_len, repeat_length; lia).
      rewrite set_nth_at by (rewrite repeat_length; lia).
      destruct j as [|j]; simpl Nat.eqb; cbv iota.
      * rewrite U by lia. apply rowf_ext; auto. intros l Hl. unfold w, at_ at 1.
        rewrite (nth_map_lt _ _ _ _ []) by (rewrite skipn_length; lia). now rewrite nth_skip1.
      * rewrite nth_repeat by lia. unfold delta. rewrite Nat.eqb_sym. reflexivity.
Qed.

Definition symf (n : nat) a : Prop := forall i j, i < n -> j < n -> a i j = a j i.

(** Derivation does not panic, and the product of the two factors is the matrix. *)
Lemma derive_ok n m : 1 <= n -> sq (S n) m -> nonsing K (S n) (ent m) -> nonsing K n (hat (ent m)) ->
  exists d, derive_mds_matrices K m = Val d /\ m_ K d = m /\
    sq (S n) (m_inv K d) /\ mul_is_id (S n) m (m_inv K d) /\ mul_is_id (S n) (m_inv K d) m /\
    m_prime K d = make_prime K m /\ sq (S n) (m_double_prime K d) /\
    (forall i j, i < n -> j < n -> ent (m_double_prime K d) (S i) (S j) = delta i j) /\
    (symf n (hat (ent m)) -> forall i j, i < S n -> j < S n ->
       mulf K (S n) (ent (m_prime K d)) (ent (m_double_prime K d)) i j = ent m i j).
Proof.
  intros Hn Q NS NSh. unfold derive_mds_matrices.
  destruct (nonsing_inverse K (S n) m ltac:(lia) Q NS) as (mi & Ei). rewrite Ei. cbn [pexpect pbind].
  destruct (inverse_val K (S n) m mi ltac:(lia) Q Ei) as (Qi & I1 & I2).
  destruct (minor_ok n m Q Hn) as (h & -> & Qh & Eh). cbn [pexpect pbind].
  assert (nonsing K n (ent h)) as NSh'.
  { intros x X. apply NSh. intros i Hi. rewrite <- (X i Hi). apply colf_ext; auto. intros. symmetry. auto. }
  destruct (nonsing_inverse K n h Hn Qh NSh') as (hi & Ehi). rewrite Ehi. cbn [pexpect pbind].
  destruct (inverse_val K n h hi Hn Qh Ehi) as (Qhi & J1 & J2).
  destruct (make_double_prime_ok n m hi Hn Q Qhi) as (d & -> & Qd & D). cbn [pbind].
  eexists. split; [reflexivity|]. cbn [m_ PxModel.m_inv PxModel.m_prime PxModel.m_double_prime].
  do 5 (split; auto). split; auto. split.
  { intros i j Hi Hj. rewrite D by lia. unfold delta. reflexivity. }
  intros SY i j Hi Hj. destruct (make_prime_ok (S n) m ltac:(lia) Q) as [_ P].
  unfold mulf. rewrite sum_S_l. rewrite P by lia. rewrite D by lia.
  destruct i as [|i].
  - rewrite sum_0; [ring|]. intros k Hk. rewrite P by lia. ring.
  - rewrite (sum_ext K n _ (fun k => ent m (S i) (S k) * ent d (S k) j)) by (intros k Hk; rewrite P by lia; auto).
    destruct j as [|j].
    + rewrite (sum_ext K n _ (fun k => sum n (fun l => ent m (S l) 0 * (ent hi l k * ent h k i)))).
      * rewrite sum_swap.
        rewrite (sum_ext K n _ (fun l => ent m (S l) 0 * delta l i)).
        -- rewrite (sum_delta_r K n i (fun l => ent m (S l) 0)) by lia. ring.
        -- intros l Hl. rewrite sum_mul_l. f_equal. apply J2; lia.
      * intros k Hk. rewrite D by lia. unfold rowf. rewrite <- sum_mul_l. apply sum_ext. intros l Hl.
        rewrite Eh by lia. pose proof (SY i k ltac:(lia) Hk) as SK. rewrite <- SK. unfold hat. ring.
    + rewrite (sum_ext K n _ (fun k => ent m (S i) (S k) * delta k j)).
      * rewrite (sum_delta_r K n j (fun k => ent m (S i) (S k))) by lia. ring.
      * intros k Hk. rewrite D by lia. unfold delta. reflexivity.
Qed.

(** * Sparse matrices *)
Lemma sparse_ok n d : 1 <= n -> sq (S n) d -> (forall i j, i < n -> j < n -> ent d (S i) (S j) = delta i j) ->
  exists s, sparse_new K d = Val s /\ sq (S n) (to_matrix K s) /\
    forall i j, i < S n -> j < S n -> ent (to_matrix K s) i j = ent d i j.
Proof.
  intros Hn Q H. pose proof Q as [L W]. unfold sparse_new, is_sparse.
  destruct (minor_ok n d Q Hn) as (h & -> & Qh & Eh).
  assert (is_identity K h = Val true) as ->.
  { unfold is_identity, num_columns, num_rows. destruct h as [|r h]; [destruct Qh; simpl in *; lia|].
    assert (length r = n) as Lr by (destruct Qh as [_ F]; now inversion F). cbn [pbind].
    rewrite (proj1 Qh), Lr, Nat.eqb_refl. cbn [negb]. f_equal.
    apply forallb_forall. intros [i row] I1. apply forallb_forall. intros [j e] I2. cbn [fst snd] in *.
    destruct (In_nth _ _ (0%nat, []) I1) as (k & Hk & Ek).
    rewrite combine_length, seq_length, (proj1 Qh), Nat.min_id in Hk.
    rewrite combine_nth in Ek by (rewrite seq_length; symmetry; apply Qh).
    rewrite seq_nth in Ek by auto. change (0 + k)%nat with k in Ek. assert (i = k /\ row = nth k (r :: h) []) as [-> ->] by (split; congruence). clear Ek.
    pose proof (sq_row K n _ k Qh Hk) as Lrow.
    destruct (In_nth _ _ (0%nat, f0) I2) as (l & Hl & El).
    rewrite combine_length, seq_length, Lrow, Nat.min_id in Hl.
    rewrite combine_nth in El by (now rewrite seq_length).
    rewrite seq_nth in El by lia. change (0 + l)%nat with l in El. assert (j = l /\ e = nth l (nth k (r :: h) []) f0) as [-> ->] by (split; congruence). clear El.
    apply feqb_spec. change (ent (r :: h) k l = kronecker_delta K k l). rewrite Eh by lia. unfold hat. rewrite H by lia. reflexivity. }
  cbn [pbind negb]. eexists. split; [reflexivity|].
  unfold to_matrix. cbn [PxModel.w_hat PxModel.v_rest].
  set (wh := map (fun r => at_ K r 0) d). set (vr := skipn 1 (hd [] d)).
  assert (length wh = S n) as Lw by (unfold wh; now rewrite map_length). rewrite Lw.
  assert (length vr = n) as Lv.
  { unfold vr. rewrite skipn_length. destruct d as [|r d]; [simpl in L; lia|].
    simpl. pose proof (sq_row K (S n) (r :: d) 0 Q ltac:(lia)) as R. simpl in R. lia. }
  destruct (identity_sq K (S n)) as [Li Wi].
  pose proof (fun i Hi => identity_row K (S n) i Hi) as IR.
  set (m1 := mapi (fun j row => set_nth 0 (at_ K wh j) row) (identity K (S n))).
  assert (sq (S n) m1) as Q1.
  { apply sq_intro; [unfold m1; now rewrite mapi_len|]. intros i Hi. unfold m1. rewrite (nth_mapi _ _ _ _ []) by lia.
    rewrite set_nth_len. apply IR. auto. }
  assert (forall i j, i < S n -> j < S n -> ent m1 i j = match j with 0 => ent d i 0 | S _ => delta i j end) as E1.
  { intros i j Hi Hj. unfold ent at 1, m1. rewrite (nth_mapi _ _ _ _ []) by lia.
    destruct (IR i Hi) as [Lr U]. rewrite set_nth_at by lia. destruct j; cbn [Nat.eqb].
    - unfold at_, wh. now rewrite (nth_map_lt _ _ _ _ []) by lia.
    - fold (at_ K (nth i (identity K (S n)) []) (S j)). rewrite U by lia. apply delta_sym. }
  set (F := fun (row : list K) (x : nat * K) => set_nth (fst x + 1) (snd x) row).
  assert (forall (v row : list K) k, length row = S (k + length v) ->
            length (fold_left F (combine (seq k (length v)) v) row) = length row /\
            forall j, nth j (fold_left F (combine (seq k (length v)) v) row) f0 =
              if andb (Nat.leb (S k) j) (Nat.ltb j (S (k + length v))) then nth (j - S k) v f0 else nth j row f0) as FO.
  { induction v as [|e v IH]; intros row k Hr.
    - cbn [length seq combine fold_left]. split; auto. intros j.
      destruct (Nat.leb_spec (S k) j), (Nat.ltb_spec j (S (k + 0))); cbn [andb]; auto; lia.
    - cbn [length seq combine fold_left]. simpl in Hr.
      change (F row (k, e)) with (set_nth (k + 1) e row).
      destruct (IH (set_nth (k + 1) e row) (S k)) as [IH1 IH2]; [rewrite set_nth_len; lia|].
      rewrite set_nth_len in IH1. split; auto. intros j. rewrite IH2.
      rewrite set_nth_at by lia.
      destruct (Nat.leb_spec (S (S k)) j), (Nat.ltb_spec j (S (S k + length v))), (Nat.leb_spec (S k) j),
        (Nat.ltb_spec j (S (k + S (length v)))), (Nat.eqb_spec j (k + 1)); simpl andb; cbv iota; try lia; auto.
      + replace (j - S k)%nat with (S (j - S (S k))) by lia. reflexivity.
      + replace (j - S k)%nat with 0%nat by lia. reflexivity. }
  assert (length (nth 0 m1 []) = S (0 + length vr)) as L0 by (rewrite (sq_row K (S n) m1) by (auto; lia); lia).
  destruct (FO vr (nth 0 m1 []) 0%nat L0) as [FL FN].
  split.
  - apply sq_intro; [rewrite mapi_len; apply Q1|]. intros i Hi. rewrite (nth_mapi _ _ _ _ []) by (rewrite (proj1 Q1); lia).
    destruct i; [|now apply (sq_row K (S n) m1)]. rewrite FL. lia.
  - intros i j Hi Hj. unfold ent at 1. rewrite (nth_mapi _ _ _ _ []) by (rewrite (proj1 Q1); lia).
    destruct i.
    + rewrite FN. fold (ent m1 0 j). rewrite E1 by lia. destruct j; simpl; auto.
      replace (j <? S (length vr)) with true by (symmetry; apply Nat.ltb_lt; lia).
      replace (S j <? S (length vr)) with true by (symmetry; apply Nat.ltb_lt; lia).
      rewrite Nat.sub_0_r. unfold vr. rewrite nth_skip1. unfold ent. destruct d; auto.
    + fold (ent m1 (S i) j). rewrite E1 by lia. destruct j; auto. rewrite H by lia. reflexivity.
Qed.

(** * The factorization *)
Definition on0 (s : K -> K) x : nat -> K := fun j => match j with 0 => s (x 0%nat) | S _ => x j end.

Fixpoint layers n (ss : list (K -> K)) (ms : list (list (list K))) x : nat -> K :=
  match ss, ms with
  | s :: ss, q :: ms => layers n ss ms (rowf K n (ent q) (on0 s x))
  | _, _ => x
  end.

Lemma layers_ext n ss ms x y : (forall i, i < n -> x i = y i) -> 1 <= n ->
  forall i, i < n -> layers n ss ms x i = layers n ss ms y i.
Proof.
  intros E Hn. revert ms x y E; induction ss as [|s ss IH]; intros [|q ms] x y E i Hi; simpl; auto.
  apply IH; auto. intros j Hj. apply rowf_ext; auto. intros k Hk. destruct k; simpl; auto.
  rewrite E; auto.
Qed.

Lemma prime_on0 n m x s : sq n m -> 1 <= n -> forall j, j < n ->
  rowf K n (ent (make_prime K m)) (on0 s x) j = on0 s (rowf K n (ent (make_prime K m)) x) j.
Proof.
  intros Q Hn j Hj. destruct (make_prime_ok n m Hn Q) as [_ P].
  destruct n as [|n]; [lia|]. unfold rowf. destruct j as [|j]; cbn [on0].
  - rewrite !sum_S_l. rewrite !P by lia. cbn [on0].
    rewrite !sum_0.
    + replace (s (x 0%nat) * f1 + f0) with (s (x 0%nat)) by ring.
      replace (x 0%nat * f1 + f0) with (x 0%nat) by ring. auto.
    + intros i Hi. rewrite P by lia. ring.
  - rewrite !sum_S_l. rewrite !P by lia. cbn [on0].
    replace (s (x 0%nat) * f0) with (f0 : K) by ring. replace (x 0%nat * f0) with (f0 : K) by ring. auto.
Qed.

Definition facts n (base cur : list (list K)) : Prop :=
  sq (S n) cur /\ nonsing K (S n) (ent cur) /\ nonsing K n (hat (ent cur)) /\ symf n (hat (ent cur)) /\
  forall i j, i < n -> j < n ->
    mulf K n (hat (ent base)) (hat (ent cur)) i j = mulf K n (hat (ent cur)) (hat (ent base)) i j.

Lemma nonsing_mul n a b : nonsing K n a -> nonsing K n b -> nonsing K n (mulf K n a b).
Proof.
  intros A B x X. apply B, A. intros i Hi. rewrite colf_mulf. auto.
Qed.
Lemma nonsing_ext n a b : (forall i j, i < n -> j < n -> a i j = b i j) -> nonsing K n a -> nonsing K n b.
Proof. intros E A x X. apply A. intros i Hi. rewrite <- (X i Hi). apply colf_ext; auto. Qed.

Lemma facts_step n base cur new : 1 <= n -> sq (S n) base -> nonsing K (S n) (ent base) -> nonsing K n (hat (ent base)) ->
  symf n (hat (ent base)) -> facts n base cur ->
  sq (S n) new -> (forall i j, i < S n -> j < S n -> ent new i j = mulf K (S n) (ent base) (ent (make_prime K cur)) i j) ->
  facts n base new.
Proof.
  intros Hn Qb NSb NSh Sb (Q & NS & NSc & Sc & C) Qn E.
  destruct (make_prime_ok (S n) cur ltac:(lia) Q) as [Qp P].
  assert (forall i j, i < n -> j < n -> hat (ent new) i j = mulf K n (hat (ent base)) (hat (ent cur)) i j) as H.
  { intros i j Hi Hj. unfold hat at 1. rewrite E by lia. unfold mulf. rewrite sum_S_l, P by lia.
    rewrite (sum_ext K n _ (fun k => hat (ent base) i k * hat (ent cur) k j)).
    - ring.
    - intros k Hk. rewrite P by lia. reflexivity. }
  unfold facts. split; auto. split; [|split; [|split]].
  - eapply nonsing_ext; [intros i j Hi Hj; symmetry; apply E; auto|].
    apply nonsing_mul; auto. intros x X.
    assert (x 0%nat = f0) as X0.
    { specialize (X 0%nat ltac:(lia)). unfold colf in X. rewrite sum_S_l, P in X by lia. rewrite sum_0 in X.
      - rewrite <- X. ring.
      - intros k Hk. rewrite P by lia. ring. }
    assert (forall i, i < n -> x (S i) = f0) as XS.
    { apply (NSc (fun k => x (S k))). intros i Hi. specialize (X (S i) ltac:(lia)). unfold colf in X.
      rewrite sum_S_l, P in X by lia. rewrite <- X. unfold colf.
      rewrite (sum_ext K n (fun k => ent (make_prime K cur) (S i) (S k) * x (S k)) (fun k => hat (ent cur) i k * x (S k))).
      - ring.
      - intros k Hk. rewrite P by lia. reflexivity. }
    intros [|i] Hi; auto. apply XS. lia.
  - eapply nonsing_ext; [intros i j Hi Hj; symmetry; apply H; auto|]. apply nonsing_mul; auto.
  - intros i j Hi Hj. rewrite !H by auto. rewrite C by auto. unfold mulf. apply sum_ext. intros k Hk.
    rewrite (Sc i k), (Sb k j) by auto. ring.
  - intros i j Hi Hj.
    rewrite (mulf_ext K n (hat (ent base)) (hat (ent base)) (hat (ent new)) (mulf K n (hat (ent base)) (hat (ent cur)))) by auto.
    rewrite (mulf_ext K n (hat (ent new)) (mulf K n (hat (ent base)) (hat (ent cur))) (hat (ent base)) (hat (ent base))) by auto.
    rewrite <- mulf_assoc. apply mulf_ext; auto.
Qed.

Definition naive n base ss x : nat -> K := layers n ss (repeat base (length ss)) (rowf K n (ent base) x).

Lemma factor_loop_ok n base k cur acc : 1 <= n -> sq (S n) base -> nonsing K (S n) (ent base) ->
  nonsing K n (hat (ent base)) -> symf n (hat (ent base)) -> facts n base cur ->
  Forall (fun d => sq (S n) d /\ forall i j, i < n -> j < n -> ent d (S i) (S j) = delta i j) acc ->
  (forall ss x, length ss = length acc -> forall j, j < S n ->
     naive (S n) base ss x j = layers (S n) ss (rev acc) (rowf K (S n) (ent cur) x) j) ->
  exists pre accs, factor_loop K k base cur acc = Val (pre, accs) /\ length accs = (length acc + k)%nat /\ sq (S n) pre /\
    Forall (fun d => sq (S n) d /\ forall i j, i < n -> j < n -> ent d (S i) (S j) = delta i j) accs /\
    forall ss x, length ss = length accs -> forall j, j < S n ->
     naive (S n) base ss x j = layers (S n) ss (rev accs) (rowf K (S n) (ent pre) x) j.
Proof.
  intros Hn Qb NSb NSh Sb. revert cur acc; induction k as [|k IH]; intros cur acc F A H; simpl.
  - exists cur, acc. split; auto. split; [lia|]. split; [apply F|]. auto.
  - pose proof F as (Q & NS & NSc & Sc & C).
    destruct (derive_ok n cur Hn Q NS NSc) as (d & -> & _ & _ & _ & _ & Ep & Qd & Dd & PR). cbn [pbind].
    specialize (PR Sc). rewrite Ep in *.
    destruct (make_prime_ok (S n) cur ltac:(lia) Q) as [Qp P].
    destruct (matmul_ok K (S n) base (make_prime K cur) ltac:(lia) Qb Qp) as (new & -> & Qn & En). cbn [pexpect pbind].
    destruct (IH new (acc ++ [m_double_prime K d])) as (pre & accs & E1 & E2 & E3 & E4 & E5).
    + eapply facts_step; eauto.
    + apply Forall_app. split; auto.
    + intros ss x Ls j Hj. rewrite app_length in Ls. simpl in Ls. rewrite rev_app_distr. simpl rev. simpl app.
      destruct ss as [|s ss]; [simpl in Ls; lia|]. simpl in Ls.
      change (naive (S n) base (s :: ss) x j) with (naive (S n) base ss (on0 s (rowf K (S n) (ent base) x)) j).
      rewrite H by lia. simpl layers. apply layers_ext; [|lia|lia].
      intros i Hi.
      rewrite (rowf_ext K (S n) (ent cur) (mulf K (S n) (ent (make_prime K cur)) (ent (m_double_prime K d))) _ (on0 s (rowf K (S n) (ent base) x)))
        by (auto; intros; symmetry; apply PR; auto).
      rewrite <- rowf_mulf. apply rowf_ext; auto.
      intros l Hl. rewrite prime_on0 by (auto; lia). destruct l; cbn [on0].
      * f_equal. rewrite rowf_mulf. apply rowf_ext; auto. intros; symmetry; apply En; auto; lia.
      * rewrite rowf_mulf. apply rowf_ext; auto. intros; symmetry; apply En; auto.
    + exists pre, accs. split; auto. split; auto. rewrite app_length in E2. simpl in E2. lia.
Qed.

Lemma F2len {A B} (P : A -> B -> Prop) l l' : Forall2 P l l' -> length l = length l'.
Proof. induction 1; simpl; auto. Qed.

Lemma traverse_ok {A B} (h : A -> po B) (P : A -> B -> Prop) l :
  Forall (fun (a : A) => exists b : B, h a = Val b /\ P a b) l -> exists r, traverse h l = Val r /\ Forall2 P l r.
Proof.
  induction l as [|a l IH]; intros F; simpl.
  - eauto.
  - inversion F as [|? ? (b & Eb & Pb) F']; subst. rewrite Eb. cbn [pbind].
    destruct (IH F') as (r & -> & Fr). cbn [pbind]. eauto.
Qed.

Theorem factor_ok n base k : 1 <= n -> sq (S n) base -> nonsing K (S n) (ent base) ->
  nonsing K n (hat (ent base)) -> symf n (hat (ent base)) ->
  exists pre sps, factor_to_sparse_matrixes K base k = Val (pre, sps) /\ sq (S n) pre /\ length sps = k /\
    Forall (fun s => sq (S n) (to_matrix K s)) sps /\
    forall ss x, length ss = k -> forall j, j < S n ->
      naive (S n) base ss x j = layers (S n) ss (map (to_matrix K) sps) (rowf K (S n) (ent pre) x) j.
Proof.
  intros Hn Qb NSb NSh Sb. unfold factor_to_sparse_matrixes.
  destruct (factor_loop_ok n base k base [] Hn Qb NSb NSh Sb) as (pre & accs & -> & L & Qp & F & H).
  - unfold facts. do 4 (split; auto). 
  - constructor.
  - intros [|s ss] x Ls j Hj; [reflexivity|discriminate].
  - cbn [pbind fst snd].
    destruct (traverse_ok (fun q => pexpect (sparse_new K q))
       (fun d s => sq (S n) (to_matrix K s) /\ forall i j, i < S n -> j < S n -> ent (to_matrix K s) i j = ent d i j) (rev accs)) as (sps & -> & F2).
    { apply Forall_forall. intros d Hd. apply in_rev in Hd. rewrite Forall_forall in F. destruct (F d Hd) as [Qd Dd].
      destruct (sparse_ok n d Hn Qd Dd) as (s & -> & S1 & S2). eexists. split; [reflexivity|]. auto. }
    cbn [pbind]. exists pre, sps. split; auto. split; auto.
    assert (length sps = k) as Ls.
    { pose proof (F2len _ _ _ F2) as E. rewrite rev_length in E. simpl in L. lia. }
    split; auto. split.
    { clear - F2. induction F2; constructor; auto. tauto. }
    intros ss x Lss j Hj. rewrite H by (simpl in L; lia).
    assert (forall ds ts, Forall2 (fun d s => sq (S n) (to_matrix K s) /\ forall i j, i < S n -> j < S n -> ent (to_matrix K s) i j = ent d i j) ds ts ->
             forall ss x, layers (S n) ss ds x j = layers (S n) ss (map (to_matrix K) ts) x j) as G.
    { clear - Hj. induction 1 as [|d s ds ts [_ E] F IH]; intros [|u ss] x; simpl; auto.
      rewrite IH. apply layers_ext; auto; [|lia]. intros i Hi. apply rowf_ext; auto. intros. symmetry. apply E; auto. }
    apply G. auto.
Qed.
End Mds.
