(** Full trees: reachable states, roots, paths. *)
From Coq Require Import List Arith Bool ZArith ZifyNat ZifyBool Lia.
From Verif Require Import MtModel MtSpec MtHist MtLemmas MtInner MtInv MtBatch.
Import ListNotations.
Ltac dlia := zify; Z.div_mod_to_equations; lia.

Lemma accept_snoc {LD} H (l ds : list LD) : length l <= capacity H ->
  forall rest, firstn (capacity H) (spec_accept H l ds ++ rest) = firstn (capacity H) (l ++ ds ++ rest).
Proof.
  intros Hl rest. unfold spec_accept. fold (capacity H). rewrite <- app_assoc.
  rewrite (firstn_app (capacity H) l _), (firstn_app (capacity H) l (ds ++ rest)). f_equal.
  set (c := capacity H - length l). rewrite !firstn_app, firstn_firstn, Nat.min_id. f_equal.
  rewrite firstn_length. destruct (Nat.le_gt_cases c (length ds)).
  - rewrite Nat.min_l by auto. replace (c - c) with 0 by lia. replace (c - length ds) with 0 by lia. reflexivity.
  - rewrite Nat.min_r by lia. reflexivity.
Qed.

Lemma spec_accept_len {LD} H (l ds : list LD) : length l <= capacity H -> length (spec_accept H l ds) <= capacity H.
Proof. intro. unfold spec_accept. fold (capacity H). rewrite app_length, firstn_length. lia. Qed.

Section Hash.
Context {LD ID : Type}.
Variable dl : LD.
Variable di : ID.
Variable join : ID -> ID -> ID.
Variable joinl : LD -> LD -> ID.
Variable H : nat.
Hypothesis HH : 2 <= H.
Notation L := (path_length H).
Notation sd := (sd dl di join joinl).
Notation gos := (gos di).
Notation full_push := (full_push dl di join joinl H).
Notation full_batch_push := (full_batch_push dl di join joinl H).
Notation spec_root := (spec_root dl di join joinl H).

Notation full_step := (full_step dl di join joinl H).
Notation full_exec := (full_exec dl di join joinl H).

Definition all_live : nat -> Prop := fun _ => True.
Notation WInv := (WInv dl di join joinl H all_live).
Notation SInv := (SInv dl di join joinl H all_live).

Definition full_weak (t : full LD ID) (l : list LD) : Prop :=
  f_leaves t = l /\ length l <= capacity H /\ WInv l (f_map t).
Definition full_strong (t : full LD ID) (l : list LD) : Prop :=
  f_leaves t = l /\ length l <= capacity H /\ SInv l (f_map t).

Lemma full_strong_weak t l : full_strong t l -> full_weak t l.
Proof. intros (A & B & C). repeat split; auto. apply SInv_WInv; auto. Qed.

Lemma full_new_strong : full_strong full_new [].
Proof.
  repeat split.
  - cbn [length]. lia.
  - intros k i _ _ _. unfold full_new, imap_empty; simpl f_map. unfold MtModel.gos.
    rewrite sd_empty; auto. cbn [length]. lia.
  - unfold full_new, imap_empty; simpl f_map. unfold MtModel.gos.
    rewrite sd_empty; auto; cbn [length]; lia.
Qed.

Lemma full_strong_root t l : full_strong t l -> full_root di t = spec_root l.
Proof. intros (_ & _ & _ & R). rewrite spec_root_sd. exact R. Qed.

Lemma oleaf_nth (l : list LD) i : oleaf dl (nth_error l i) = nth i l dl.
Proof. rewrite <- nth_default_eq. reflexivity. Qed.

Lemma full_push_leaf_strong t l x : full_weak t l -> length l < capacity H ->
  full_strong (full_push_leaf dl di join joinl H t x) (l ++ [x]).
Proof.
  intros (A & B & W) C. unfold full_push_leaf, full_len, full_leaf_sibling. rewrite A.
  split; [reflexivity|]. split. { cbn [f_leaves]. rewrite app_length. cbn [length]. lia. }
  cbn [f_map].
  assert (E : node_join_leaves joinl (length l) x (oleaf dl (nth_error l (sibling (length l))))
    = sd (l ++ [x]) 0 (length l / 2)).
  { rewrite <- (join_leaves_sd dl di join joinl (l ++ [x]) (length l)) by (rewrite app_length; cbn [length]; lia).
    rewrite oleaf_nth. rewrite app_nth2, Nat.sub_diag by lia. cbn [nth]. f_equal.
    destruct (sibling_cases (length l)) as [(?&?&?)|(?&?&?)].
    - rewrite !nth_overflow; auto; rewrite ?app_length; cbn [length]; lia.
    - symmetry. apply app_nth1. lia. }
  rewrite E. apply push_SInv; auto.
  - rewrite <- cap_eq by exact HH. exact C.
  - exact I.
Qed.

Lemma full_push_cases t l x : full_weak t l ->
  (length l < capacity H /\ snd (full_push t x) = true /\ full_strong (fst (full_push t x)) (l ++ [x])) \/
  (length l = capacity H /\ full_push t x = (t, false)).
Proof.
  intros W. pose proof W as (A & B & _). unfold MtModel.full_push, full_len. rewrite A.
  destruct (Nat.leb_spec (capacity H) (length l)).
  - right. split; [lia|auto].
  - left. split; auto. split; auto. cbn [fst]. apply full_push_leaf_strong; auto.
Qed.

Lemma full_batch_leaves_inv t l ds : full_weak t l -> ds <> [] ->
  length l + length ds <= capacity H ->
  exists t', full_batch_leaves dl di join joinl H t (NRange (length l) (length ds - 1)) ds = Some t' /\
    full_weak t' (l ++ ds) /\
    (~ bad_level H (length l) (length l + length ds - 1) -> full_strong t' (l ++ ds)).
Proof.
  intros (A & B & W) Hne Hcap. unfold full_batch_leaves.
  rewrite (range_join_leaves_spec dl di join joinl l ds); auto.
  - destruct (batch_insert_inv dl di join joinl H all_live l ds (f_map t) _ Hne
      ltac:(rewrite <- cap_eq by exact HH; exact Hcap) (fun _ _ => I) W eq_refl) as (m' & E & W' & S').
    rewrite E. eexists. split; [reflexivity|]. rewrite A. split.
    + repeat split; auto. cbn [f_leaves]. rewrite app_length; lia.
    + intro Nb. repeat split; auto. { cbn [f_leaves]. rewrite app_length; lia. }
      * apply (S' Nb).
      * apply (S' Nb).
  - intro E. unfold full_leaf_sibling. rewrite A. apply is_left_false in E.
    destruct (sibling_cases (length l)) as [(?&?&?)|(?&?&?)]; [lia|].
    replace (length l - 1) with (sibling (length l)) by lia. apply oleaf_nth.
  - intro E. unfold full_leaf_sibling. rewrite A. apply is_left_true in E.
    assert (1 <= length ds) by (destruct ds; [congruence|cbn [length]; lia]).
    set (last := length l + length ds - 1) in *.
    destruct (sibling_cases last) as [(?&?&?)|(?&?&?)]; [|lia].
    replace (nth_error l (sibling last)) with (@None LD); auto.
    symmetry. apply nth_error_None. lia.
Qed.

Lemma full_batch_inv t l ds : full_weak t l ->
  let l' := spec_accept H l ds in
  exists t', full_batch_push t ds = Some (t', length l + length ds <=? capacity H) /\
    full_weak t' l' /\
    (length l < length l' -> ~ bad_level H (length l) (length l' - 1) -> full_strong t' l') /\
    (length l = length l' -> t' = t /\ l' = l).
Proof.
  intros W l'. pose proof W as (A & B & _). unfold l', spec_accept. fold (capacity H).
  unfold MtModel.full_batch_push, MtModel.full_batch, full_len. rewrite A.
  destruct ds as [|x ds0].
  { rewrite firstn_nil, app_nil_r. exists t. split.
    - f_equal. f_equal. symmetry. apply Nat.leb_le. cbn [length]. lia.
    - repeat split; auto; try apply W; intros; lia. }
  set (ds := x :: ds0). assert (Hne : ds <> []) by discriminate. assert (Hl : 1 <= length ds) by (cbn [ds length]; lia).
  destruct (Nat.ltb_spec (capacity H) (length l + length ds)).
  - replace (length l + length ds <=? capacity H) with false by (symmetry; apply Nat.leb_gt; lia).
    destruct (Nat.eqb_spec (capacity H - length l) 0) as [E|E].
    + rewrite E. cbn [firstn]. rewrite app_nil_r. exists t. split; [reflexivity|].
      split; [exact W|]. split; [lia|auto].
    + assert (Hf : length (firstn (capacity H - length l) ds) = capacity H - length l)
        by (rewrite firstn_length; lia).
      destruct (full_batch_leaves_inv t l (firstn (capacity H - length l) ds) W) as (t' & E' & W' & S').
      { intro F. rewrite F in Hf. cbn [length] in Hf. lia. }
      { lia. }
      rewrite Hf in E'. rewrite E'. exists t'. split; [reflexivity|]. split; [exact W'|].
      rewrite app_length, Hf in *. split; [intros _; exact S'|intro; lia].
  - replace (length l + length ds <=? capacity H) with true by (symmetry; apply Nat.leb_le; lia).
    assert (Hf : firstn (capacity H - length l) ds = ds) by (apply firstn_all2; lia).
    rewrite Hf.
    destruct (full_batch_leaves_inv t l ds W Hne ltac:(lia)) as (t' & E' & W' & S').
    rewrite E'. exists t'. split; [reflexivity|]. split; [exact W'|].
    rewrite app_length. split; [intros _; exact S'|intro; lia].
Qed.

(** ** Executions *)

Lemma full_step_weak t l o : full_weak t l ->
  exists t', full_step t o = Some t' /\ full_weak t' (spec_accept H l (top_items o)).
Proof.
  intro W. destruct o as [d|ds]; cbn [MtHist.full_step top_items].
  - eexists; split; [reflexivity|]. pose proof (full_push_cases t l d W) as [(C & _ & S')|(C & E)].
    + unfold spec_accept. fold (capacity H). rewrite firstn_all2 by (cbn [length]; lia).
      apply full_strong_weak; auto.
    + rewrite E. unfold spec_accept. fold (capacity H). replace (capacity H - length l) with 0 by lia.
      cbn [firstn fst]. rewrite app_nil_r. auto.
  - destruct (full_batch_inv t l ds W) as (t' & E & W' & _). rewrite E. eauto.
Qed.

Lemma full_exec_weak os : forall t l, full_weak t l ->
  exists t', full_exec t os = Some t' /\ full_weak t' (firstn (capacity H) (l ++ offered os)).
Proof.
  induction os as [|o os IH]; intros t l W.
  - exists t. split; auto. unfold offered. simpl flat_map. rewrite app_nil_r.
    rewrite firstn_all2 by apply W. auto.
  - destruct (full_step_weak t l o W) as (t1 & E1 & W1). cbn [MtHist.full_exec]. rewrite E1.
    destruct (IH t1 _ W1) as (t' & E & W'). exists t'. split; auto.
    rewrite accept_snoc in W' by apply W. unfold offered in *. simpl flat_map. auto.
Qed.

Lemma full_pushes_strong ds : forall t l, full_strong t l ->
  exists t', full_exec t (map TPush ds) = Some t' /\ full_strong t' (firstn (capacity H) (l ++ ds)).
Proof.
  induction ds as [|d ds IH]; intros t l S0.
  - exists t. split; auto. rewrite app_nil_r, firstn_all2 by apply S0. auto.
  - cbn [map MtHist.full_exec MtHist.full_step].
    destruct (full_push_cases t l d (full_strong_weak _ _ S0)) as [(C & _ & S')|(C & E)].
    + destruct (IH _ _ S') as (t' & E' & St). exists t'. split; auto.
      rewrite <- app_assoc in St. exact St.
    + rewrite E. cbn [fst]. destruct (IH _ _ S0) as (t' & E' & St). exists t'. split; auto.
      rewrite firstn_app in *. replace (capacity H - length l) with 0 in * by lia. exact St.
Qed.

(** ** Paths *)

Lemma path_iter_strong t l i : full_strong t l -> i < capacity H ->
  path_iter_for_leaf di H (f_map t) i = spath dl di join joinl H l i.
Proof.
  intros (_ & _ & S0 & _) Hi. rewrite cap_eq in Hi by exact HH. rewrite path_iter_eq. unfold spath.
  apply map_ext_in. intros k Hk. apply in_seq in Hk. apply S0; try lia.
  - apply sibling_path_lt; auto. lia.
  - apply (sibling_path_needed all_live i k). exact I.
Qed.

Lemma full_path_strong t l i : full_strong t l -> i < length l ->
  full_path dl di H t i = Some (Path i (nth (sibling i) l dl) (spath dl di join joinl H l i)).
Proof.
  intros S0 Hi. pose proof S0 as (A & B & _). unfold full_path, full_len, full_leaf_sibling. rewrite A.
  replace (length l <=? i) with false by (symmetry; apply Nat.leb_gt; lia). rewrite andb_false_r.
  rewrite oleaf_nth, (path_iter_strong t l) by (auto; lia). reflexivity.
Qed.

Lemma spath_length l i : length (spath dl di join joinl H l i) = L.
Proof. unfold spath. rewrite map_length, seq_length. reflexivity. Qed.

(** ** Soundness of verification for injective hashes *)

Section Sound.
Hypothesis join_inj : forall a b c d, join a b = join c d -> a = c /\ b = d.
Hypothesis joinl_inj : forall a b c d, joinl a b = joinl c d -> a = c /\ b = d.

Lemma path_fold_inj : forall ds ds' i a b, length ds = length ds' ->
  path_fold join i a ds = path_fold join i b ds' -> a = b /\ ds = ds'.
Proof.
  induction ds as [|d ds IH]; intros [|d' ds'] i a b E F; cbn [length] in E; try discriminate.
  - auto.
  - cbn [path_fold] in F. injection E as E. apply IH in F; auto. destruct F as [F ->].
    unfold node_join in F. destruct (is_left (parent i)); apply join_inj in F; destruct F; subst; auto.
Qed.

Lemma path_root_inj i s ds x s' ds' x' : length ds = length ds' ->
  path_root join joinl (Path i s ds) x = path_root join joinl (Path i s' ds') x' ->
  x = x' /\ s = s' /\ ds = ds'.
Proof.
  unfold path_root; cbn [p_index p_sibling p_inner]. intros E F. apply path_fold_inj in F; auto.
  destruct F as [F ->]. unfold node_join_leaves in F.
  destruct (is_left i); apply joinl_inj in F; destruct F; subst; auto.
Qed.
End Sound.

End Hash.
