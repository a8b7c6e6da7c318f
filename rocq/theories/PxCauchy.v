(** The generated matrix: a Cauchy matrix. *)
From Coq Require Import List Arith Bool Lia Field_theory Ring Field.
From Verif Require Import AlgBase PxModel PxSpec PxInv PxLin PxMds.
Import ListNotations.

Section Cauchy.
Variable K : fld.
Add Field Kca : (fth K).
Local Open Scope alg_scope.
Implicit Types (x y c : K) (ys cs : list K).

Fixpoint csum x ys cs : K :=
  match ys, cs with y :: ys, c :: cs => c * finv (x + y) + csum x ys cs | _, _ => f0 end.
Fixpoint dlist x0 y0 ys cs : list K :=
  match ys, cs with y :: ys, c :: cs => c * (y0 - y) * finv (x0 + y) :: dlist x0 y0 ys cs | _, _ => [] end.

Lemma csum_dlist x x0 y0 ys cs : length ys = length cs ->
  (forall y, In y ys -> x + y <> f0 /\ x0 + y <> f0) ->
  (x0 - x) * csum x ys (dlist x0 y0 ys cs) = (x + y0) * csum x ys cs - (x0 + y0) * csum x0 ys cs.
Proof.
  revert cs; induction ys as [|y ys IH]; intros [|c cs] L H; simpl in L; try discriminate; [simpl; ring|].
  cbn [csum dlist].
  transitivity ((x0 - x) * (c * (y0 - y) * finv (x0 + y) * finv (x + y)) + (x0 - x) * csum x ys (dlist x0 y0 ys cs)); [ring|].
  rewrite IH by (simpl in *; auto; lia).
  destruct (H y) as [A B]; [simpl; auto|]. field. auto.
Qed.

Lemma dlist_len x0 y0 ys cs : length ys = length cs -> length (dlist x0 y0 ys cs) = length ys.
Proof.
  revert cs; induction ys as [|y ys IH]; intros [|c cs] L; simpl in *; try discriminate; auto.
Qed.

Lemma dlist_zero x0 y0 ys cs : length ys = length cs -> (forall y, In y ys -> x0 + y <> f0 /\ y <> y0) ->
  Forall (fun d => d = f0) (dlist x0 y0 ys cs) -> Forall (fun c => c = f0) cs.
Proof.
  revert cs; induction ys as [|y ys IH]; intros [|c cs] L H F; simpl in L; try discriminate; constructor.
  - cbn [dlist] in F. inversion F as [|? ? E _]; subst. destruct (H y) as [A B]; [simpl; auto|].
    destruct (feq_dec K c f0) as [|NZ]; auto. exfalso. revert E. apply fmul_nz; [apply fmul_nz; auto|now apply finv_nz].
    intros E. apply B. symmetry. now apply fsub_eq0.
  - cbn [dlist] in F. inversion F; subst. apply IH; auto. intros; apply H; simpl; auto.
Qed.

Lemma csum_zero x ys cs : Forall (fun c => c = f0) cs -> csum x ys cs = f0.
Proof.
  intros F. revert ys; induction F as [|c cs -> F IH]; intros [|y ys]; simpl; auto. rewrite IH. ring.
Qed.

Theorem cauchy xs ys cs : length xs = length ys -> length ys = length cs -> NoDup xs -> NoDup ys ->
  (forall x y, In x xs -> In y ys -> x + y <> f0) ->
  (forall x, In x xs -> csum x ys cs = f0) -> Forall (fun c => c = f0) cs.
Proof.
  revert ys cs; induction xs as [|x0 xs IH]; intros [|y0 ys] [|c0 cs] L1 L2 N1 N2 H E; simpl in L1, L2; try discriminate;
    [constructor|].
  inversion N1; inversion N2; subst.
  assert (Forall (fun c => c = f0) (dlist x0 y0 ys cs)) as D.
  { apply (IH ys); auto; try lia.
    - rewrite dlist_len; lia.
    - intros x y Hx Hy. apply H; simpl; auto.
    - intros x Hx.
      assert ((x0 - x) * csum x ys (dlist x0 y0 ys cs) = f0) as Z.
      { rewrite csum_dlist; [|lia|intros y Hy; split; apply H; simpl; auto].
        pose proof (E x ltac:(simpl; auto)) as Ex. pose proof (E x0 ltac:(simpl; auto)) as E0. cbn [csum] in Ex, E0.
        pose proof (H x y0 ltac:(simpl; auto) ltac:(simpl; auto)) as Nx.
        pose proof (H x0 y0 ltac:(simpl; auto) ltac:(simpl; auto)) as N0.
        assert ((x + y0) * csum x ys cs = (x + y0) * (c0 * finv (x + y0) + csum x ys cs) - c0) as A by (field; auto).
        assert ((x0 + y0) * csum x0 ys cs = (x0 + y0) * (c0 * finv (x0 + y0) + csum x0 ys cs) - c0) as B by (field; auto).
        rewrite A, B, Ex, E0. ring. }
      destruct (feq_dec K (csum x ys (dlist x0 y0 ys cs)) f0) as [|NZ]; auto.
      exfalso. revert Z. apply fmul_nz; auto. intros Z. apply fsub_eq0 in Z. congruence. }
  assert (Forall (fun c => c = f0) cs) as C.
  { apply (dlist_zero x0 y0 ys); auto. intros y Hy. split; [apply H; simpl; auto|congruence]. }
  constructor; auto. pose proof (E x0 ltac:(simpl; auto)) as E0. cbn [csum] in E0. rewrite (csum_zero x0 ys cs C) in E0.
  destruct (feq_dec K c0 f0) as [|NZ]; auto. exfalso.
  assert (c0 * finv (x0 + y0) = f0) as Z by (rewrite <- E0; ring).
  revert Z. apply fmul_nz; auto. apply finv_nz. apply H; simpl; auto.
Qed.

(** * Numbers in the field *)
Lemma from_add a b : from_u64 K (a + b) = from_u64 K a + from_u64 K b.
Proof. induction a as [|a IH]; simpl; [ring|]. rewrite IH. ring. Qed.

Definition distinct_up_to n : Prop := forall k, 0 < k -> k < n -> from_u64 K k <> f0.

Lemma from_inj n a b : distinct_up_to n -> a < n -> b < n -> from_u64 K a = from_u64 K b -> a = b.
Proof.
  intros D.
  assert (forall a b, a < b -> b < n -> from_u64 K a <> from_u64 K b) as G.
  { intros u v Huv Hv E. apply (D (v - u)%nat); try lia.
    replace v with (u + (v - u))%nat in E by lia. rewrite from_add in E.
    transitivity (from_u64 K u + from_u64 K (v - u) - from_u64 K u); [ring|]. rewrite <- E. ring. }
  intros Ha Hb E. destruct (lt_eq_lt_dec a b) as [[L|L]|L]; auto; exfalso.
  - now apply (G a b).
  - apply (G b a); auto.
Qed.

Lemma traverse_val {A B} (h : A -> po B) (g : A -> B) l : (forall a, In a l -> h a = Val (g a)) -> traverse h l = Val (map g l).
Proof.
  induction l as [|a l IH]; intros H; simpl; auto.
  rewrite H by (simpl; auto). cbn [pbind]. rewrite IH by (intros; apply H; simpl; auto). reflexivity.
Qed.

Lemma generate_ok t : distinct_up_to (3 * t) ->
  exists m, generate_mds K t = Val m /\ sq t m /\
    forall i j, i < t -> j < t -> ent m i j = finv (from_u64 K (i + (t + j))).
Proof.
  intros D. unfold generate_mds.
  rewrite (traverse_val _ (fun k => map (fun y => finv (from_u64 K k + y)) (map (from_u64 K) (seq t t)))).
  - eexists. split; [reflexivity|]. split.
    + apply sq_intro; [now rewrite map_length, seq_length|]. intros i Hi. rewrite nth_map_seq by auto.
      now rewrite !map_length, seq_length.
    + intros i j Hi Hj. unfold ent. rewrite nth_map_seq by auto. rewrite map_map, nth_map_seq by auto.
      rewrite <- from_add. reflexivity.
  - intros x Hx. apply traverse_val. intros y Hy. apply in_map_iff in Hy. destruct Hy as (k & <- & Hk).
    apply in_seq in Hx. apply in_seq in Hk. rewrite finverse_nz; [reflexivity|].
    rewrite <- from_add. apply D; lia.
Qed.

Lemma csum_sum x ys cs n : length ys = n -> length cs = n ->
  csum x ys cs = sum n (fun k => nth k cs f0 * finv (x + nth k ys f0)).
Proof.
  revert cs n; induction ys as [|y ys IH]; intros [|c cs] n L1 L2; simpl in *; subst; try discriminate; auto.
  rewrite sum_S_l. simpl. rewrite (IH cs (length ys)); auto.
Qed.

Lemma NoDup_from n (I : list nat) k : distinct_up_to n -> NoDup I -> (forall i, In i I -> k + i < n) ->
  NoDup (map (fun i => from_u64 K (k + i)) I).
Proof.
  intros D N. induction N as [|a I NI N IH]; intros H; simpl; constructor.
  - intros A. apply in_map_iff in A. destruct A as (b & E & Hb). apply (from_inj n) in E; auto.
    + assert (a = b) as -> by lia. contradiction.
    + apply H; simpl; auto.
    + apply H; simpl; auto.
  - apply IH. intros; apply H; simpl; auto.
Qed.

(** Every square submatrix is nonsingular. *)
Theorem generate_mds_sub t m (I J : list nat) : distinct_up_to (3 * t) -> generate_mds K t = Val m ->
  NoDup I -> NoDup J -> length I = length J -> (forall i, In i I -> i < t) -> (forall j, In j J -> j < t) ->
  nonsing K (length I) (fun i j => ent m (nth i I 0%nat) (nth j J 0%nat)).
Proof.
  intros D E NI NJ L HI HJ c C j Hj.
  destruct (generate_ok t D) as (m' & E' & Q & EN). assert (m' = m) as -> by congruence.
  set (n := length I) in *.
  set (xs := map (fun i => from_u64 K (0 + i)) I). set (ys := map (fun j => from_u64 K (t + j)) J).
  set (cs := map c (seq 0 n)).
  assert (Forall (fun e => e = f0) cs) as F.
  { apply (cauchy xs ys cs).
    - unfold xs, ys. now rewrite !map_length.
    - unfold ys, cs. now rewrite !map_length, seq_length.
    - unfold xs. apply (NoDup_from (3 * t)); auto. intros i Hi. apply HI in Hi. lia.
    - unfold ys. apply (NoDup_from (3 * t)); auto. intros i Hi. apply HJ in Hi. lia.
    - intros x y Hx Hy. apply in_map_iff in Hx. apply in_map_iff in Hy.
      destruct Hx as (i & <- & Hi), Hy as (k & <- & Hk). apply HI in Hi. apply HJ in Hk.
      rewrite <- from_add. apply D; lia.
    - intros x Hx. apply in_map_iff in Hx. destruct Hx as (i & <- & Hi).
      destruct (In_nth _ _ 0%nat Hi) as (p & Hp & Ep).
      rewrite (csum_sum _ ys cs n).
      + rewrite <- (C p Hp). unfold colf. apply sum_ext. intros k Hk. unfold cs. rewrite nth_map_seq by auto.
        unfold ys. rewrite (nth_map_lt _ _ _ _ 0%nat) by (rewrite <- L; auto).
        rewrite EN; [|rewrite Ep; auto|apply HJ, nth_In; rewrite <- L; auto].
        rewrite Ep, (from_add i), <- (Nat.add_0_l i) at 1. simpl plus. ring.
      + unfold ys. rewrite map_length. auto.
      + unfold cs. now rewrite map_length, seq_length. }
  rewrite Forall_forall in F. apply F. unfold cs. apply in_map. apply in_seq. lia.
Qed.

Lemma generate_nonsing t m : distinct_up_to (3 * t) -> generate_mds K t = Val m -> nonsing K t (ent m).
Proof.
  intros D E. pose proof (generate_mds_sub t m (seq 0 t) (seq 0 t) D E) as G. rewrite seq_length in G.
  eapply nonsing_ext; [|apply G]; try apply seq_NoDup; auto; try (intros i Hi; apply in_seq in Hi; lia).
  intros i j Hi Hj. cbn beta. now rewrite !seq_nth.
Qed.

Lemma generate_nonsing_hat n m : distinct_up_to (3 * S n) -> generate_mds K (S n) = Val m -> nonsing K n (hat K (ent m)).
Proof.
  intros D E. pose proof (generate_mds_sub (S n) m (seq 1 n) (seq 1 n) D E) as G. rewrite seq_length in G.
  eapply nonsing_ext; [|apply G]; try apply seq_NoDup; auto; try (intros i Hi; apply in_seq in Hi; lia).
  intros i j Hi Hj. cbn beta. now rewrite !seq_nth.
Qed.

Lemma generate_sym t m : distinct_up_to (3 * t) -> generate_mds K t = Val m -> symmetric t m.
Proof.
  intros D E. destruct (generate_ok t D) as (m' & E' & Q & EN). assert (m' = m) as -> by congruence.
  intros i j Hi Hj. rewrite !EN by auto. do 2 f_equal. lia.
Qed.
End Cauchy.
