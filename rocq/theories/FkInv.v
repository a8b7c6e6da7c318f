(** Invariant of a forked tree: its base follows one full tree, its branch another. *)
From Coq Require Import List Arith Bool ZArith ZifyNat ZifyBool Lia.
From Verif Require Import MtModel MtSpec MtHist MtLemmas MtInner MtInv MtBatch MtFull MtSingle MtSettled
  PtModel PtSpec PtLeaf PtAgree PtSim PtPrune PtProps FkSpec FkVirt FkCurrent.
Import ListNotations.

Lemma lm_mark_append {LD} (lm : lmap LD) xs i :
  length lm <= i -> lm_mark (lm ++ map Some xs) i = lm ++ map Some (mark_nth (i - length lm) xs).
Proof.
  intro Hi. unfold lm_mark. replace i with (length lm + (i - length lm)) at 1 by lia.
  generalize (i - length lm) as q. clear i Hi. intro q. induction lm as [|e lm IH]; cbn [app length Nat.add upd]; [|f_equal; auto].
  revert q. induction xs as [|[b x] xs IH]; intro q; [destruct q; reflexivity|].
  destruct q as [|q]; unfold mark_nth; cbn [map upd firstn skipn app]; auto.
  f_equal. apply IH.
Qed.

Lemma lm_mark_before {LD} (a b : lmap LD) i : i < length a -> lm_mark (a ++ b) i = lm_mark a i ++ b.
Proof.
  unfold lm_mark. revert i. induction a as [|e a IH]; intros i Hi; cbn [length] in Hi; [lia|].
  destruct i as [|i]; cbn [app upd]; auto. f_equal. apply IH. lia.
Qed.

Lemma mark_nth_length {LD} i (l : list (bool * LD)) : length (mark_nth i l) = length l.
Proof.
  revert i. induction l as [|[b x] l IH]; intros [|i]; unfold mark_nth in *; cbn [firstn skipn app length]; auto.
Qed.

Lemma mark_nth_snd {LD} i (l : list (bool * LD)) : map snd (mark_nth i l) = map snd l.
Proof.
  revert i. induction l as [|[b x] l IH]; intros [|i]; unfold mark_nth in *; cbn [firstn skipn app map snd]; auto.
  f_equal. apply IH.
Qed.

Lemma mark_nth_nil {LD} i (l : list (bool * LD)) : length l <= i -> mark_nth i l = l.
Proof.
  intro Hi. unfold mark_nth. rewrite skipn_all2, firstn_all2 by auto. apply app_nil_r.
Qed.

Lemma matching_spec : forall fuel a b, a / 2 < b / 2 -> a / 2 ^ S fuel = b / 2 ^ S fuel ->
  exists k, matching_index fuel a b = Some k /\ k < fuel /\
    sibling (a / 2 ^ S k) = b / 2 ^ S k /\ forall k', k' <= k -> a / 2 ^ S k' < b / 2 ^ S k'.
Proof.
  induction fuel as [|fu IH]; intros a b Hlt He. { change (2 ^ 1) with 2 in He. lia. }
  cbn [matching_index]. unfold parent.
  destruct (are_siblings (a / 2) (b / 2)) eqn:E.
  - exists 0. unfold are_siblings in E. apply Nat.eqb_eq in E. change (2 ^ 1) with 2. conjs; try lia.
    intros k' Hk'. replace k' with 0 by lia. exact Hlt.
  - assert (N : a / 2 / 2 < b / 2 / 2).
    { unfold are_siblings in E. apply Nat.eqb_neq in E.
      destruct (sibling_cases (a / 2)) as [(_ & A1 & A2)|(_ & A1 & A2)]; dlia. }
    assert (DV : forall x k, x / 2 / 2 ^ S k = x / 2 ^ S (S k)).
    { intros x k. rewrite Nat.div_div by (try lia; pose proof (pow2_pos (S k)); lia). f_equal. }
    destruct (IH (a / 2) (b / 2) N ltac:(rewrite !DV; exact He)) as (k & E1 & E2 & E3 & E4).
    exists (S k). rewrite E1. rewrite !DV in E3. split; [reflexivity|]. split; [clear - E2; lia|]. split; [exact E3|].
    intros [|k'] Hk'. { change (2 ^ 1) with 2. exact Hlt. } rewrite <- !DV. apply E4. lia.
Qed.

Lemma same_above a b k k' : k <= k' -> a / 2 ^ k = b / 2 ^ k -> a / 2 ^ k' = b / 2 ^ k'.
Proof.
  intros Hk E. replace k' with (k + (k' - k)) by lia. rewrite Nat.pow_add_r.
  rewrite <- !Nat.div_div by (apply Nat.pow_nonzero; lia). rewrite E. reflexivity.
Qed.

Lemma low_complete sb q x st u n : sb + 1 <= 2 * q + 2 -> q < u -> u * (2 * x) <= st -> st <= n -> (sb + 1) * x <= n.
Proof.
  intros A B C D. pose proof (Nat.mul_le_mono_r _ _ x A). pose proof (Nat.mul_le_mono_r (q + 1) u (2 * x) ltac:(lia)).
  replace ((2 * q + 2) * x) with ((q + 1) * (2 * x)) in * by (clear; ring). lia.
Qed.

Section Hash.
Context {LD ID : Type}.
Variable dl : LD.
Variable di : ID.
Variable join : ID -> ID -> ID.
Variable joinl : LD -> LD -> ID.
Variable ideqb : ID -> ID -> bool.
Variable H : nat.
Hypothesis HH : 3 <= H.
Hypothesis ideqb_spec : forall a b, ideqb a b = true <-> a = b.
Hypothesis join_nd : forall a b, join a b <> di.
Hypothesis joinl_nd : forall a b, joinl a b <> di.
Notation L := (path_length H).
Notation sd := (sd dl di join joinl).
Notation Sim := (Sim di H).
Notation SimW := (SimW di H).
Notation full_weak := (full_weak dl di join joinl H).
Notation full_strong := (full_strong dl di join joinl H).
Notation full_step := (full_step dl di join joinl H).
Notation full_exec := (full_exec dl di join joinl H).
Notation pt_step := (pt_step dl di join joinl H).
Notation ft_step := (ft_step dl di join joinl ideqb H).
Notation ft_make := (ft_make dl di join joinl ideqb H).
Notation fs_step := (@fs_step LD H).
Notation full := (full LD ID).
Notation partial := (partial LD ID).

Local Lemma HH2 : 2 <= H. Proof. lia. Qed.

(** *** Leaves after an insertion *)
Lemma pt_push_lm (t : partial) d b0 : let r := if b0 : bool then pt_push_np dl di join joinl H t d else pt_push dl di join joinl H t d in
  pt_lm (fst r) = pt_lm t ++ map Some (firstn (capacity H - pt_len t) [(b0, d)]) /\
  snd r = (pt_len t + 1 <=? capacity H).
Proof.
  cbv zeta. unfold pt_push_np. unfold pt_push. pose proof (pt_len_eq t) as EL.
  destruct (Nat.leb_spec (capacity H) (pt_len t)) as [C|C]; destruct (Nat.leb_spec (pt_len t + 1) (capacity H)); try lia.
  - replace (capacity H - pt_len t) with 0 by lia. cbn [firstn map]. rewrite app_nil_r.
    destruct b0; cbn [fst snd]; auto. split; auto. unfold pt_mark. cbn [pt_lm].
    apply nth_error_ext. intro j. rewrite lm_mark_nth. destruct (Nat.eqb_spec j (pt_len t - pt_start t)) as [->|]; auto.
    replace (nth_error (pt_lm t) (pt_len t - pt_start t)) with (@None (option (bool * LD))); auto.
    symmetry. apply nth_error_None. lia.
  - rewrite firstn_all2 by (cbn [length]; lia).
    destruct b0; cbn [fst snd]; auto. split; auto. unfold pt_mark, pt_push_leaf. cbn [pt_lm].
    replace (pt_len t - pt_start t) with (length (pt_lm t)) by lia.
    pose proof (lm_mark_append (pt_lm t) [(false, d)] (length (pt_lm t)) (le_n _)) as Q.
    rewrite Nat.sub_diag in Q. exact Q.
Qed.

Lemma pt_insert_lm chk (t : partial) o t' b : is_insert o = true -> pt_len t <= capacity H ->
  pt_step chk t o = Some (t', b) ->
  pt_lm t' = pt_lm t ++ map Some (firstn (capacity H - pt_len t) (pop_items o)) /\
  b = (pt_len t + length (pop_items o) <=? capacity H).
Proof.
  intros I HC E. pose proof (pt_len_eq t) as EL.
  assert (BB : forall ds u o', pt_batch dl di join joinl H t ds = Some (u, o') ->
    match o' with Some (b, n) => b | None => true end = (pt_len t + length ds <=? capacity H)).
  { clear - HC. intros ds u o'. unfold pt_batch. destruct ds as [|d0 ds0].
    - intro E. injection E as <- <-. cbn [length]. destruct (Nat.leb_spec (pt_len t + 0) (capacity H)); lia.
    - remember (d0 :: ds0) as ds. cbv zeta.
      destruct (Nat.ltb_spec (capacity H) (pt_len t + length ds)) as [C|C];
      destruct (Nat.leb_spec (pt_len t + length ds) (capacity H)); try lia.
      + destruct (capacity H - pt_len t =? 0); [intro E; injection E as <- <-; auto|].
        destruct (pt_batch_leaves _ _ _ _ _ _ _ _); [|discriminate]. intro E; injection E as <- <-; auto.
      + destruct (pt_batch_leaves _ _ _ _ _ _ _ _); [|discriminate]. intro E; injection E as <- <-; auto. }
  destruct o as [d|d|ds|ds|i|]; cbn [is_insert] in I; try discriminate;
    unfold PtSpec.pt_step in E; cbn [pop_items length].
  - destruct (pt_push_lm t d false) as [A B]. injection E as E. rewrite E in A, B. cbn [fst snd] in *. auto.
  - destruct (pt_push_lm t d true) as [A B]. injection E as E. rewrite E in A, B. cbn [fst snd] in *. auto.
  - unfold pt_batch_push in E. destruct (pt_batch dl di join joinl H t ds) as [[u o']|] eqn:EB; [|discriminate].
    pose proof (BB _ _ _ EB) as BB1. apply (pt_batch_lm dl di join joinl H HH2) in EB. destruct EB as [E1 E2].
    rewrite map_length, firstn_map, map_map. destruct o' as [[b' n]|]; injection E as <- <-; auto.
  - unfold pt_batch_push_np in E. destruct (pt_batch dl di join joinl H t ds) as [[u o']|] eqn:EB; [|discriminate].
    pose proof (BB _ _ _ EB) as BB1. apply (pt_batch_lm dl di join joinl H HH2) in EB. destruct EB as [E1 E2].
    rewrite map_length, firstn_map, map_map. destruct o' as [[b' n]|]; injection E as <- <-; auto.
    + split; auto. rewrite marks_lm. rewrite E1, E2.
      replace (pt_len t - pt_start t) with (length (pt_lm t)) by lia. rewrite (marks_all dl di join joinl H HH2). reflexivity.
    + split; auto. rewrite E1, E2, firstn_nil. auto.
Qed.

(** *** Insertions into a tree that follows a full tree, or is empty and almost does *)
Definition Fol (t : partial) (f : full) : Prop := SimW true t f /\ (f_leaves f <> [] -> Sim true t f).

Lemma insert_follow chk (t : partial) (f : full) l o tp : Fol t f -> full_weak f l ->
  is_insert o = true -> pop_top o = [tp] ->
  exists t' b f', pt_step chk t o = Some (t', b) /\ full_step f tp = Some f' /\ Fol t' f'.
Proof.
  intros [SW SF] W I ET.
  assert (CP : 0 < capacity H) by (unfold capacity; apply Nat.neq_0_lt_0, Nat.pow_nonzero; lia).
  destruct (f_leaves f) as [|y ys] eqn:EF.
  - assert (LT : full_len f < capacity H) by (unfold full_len; rewrite EF; exact CP).
    assert (G : forall t' f', Sim true t' f' -> Fol t' f') by (intros; split; auto; apply sim_simw; auto).
    destruct o as [d|d|ds|ds|i|]; try discriminate I; cbn [pop_top] in ET; injection ET as <-;
      unfold PtSpec.pt_step, MtHist.full_step.
    + destruct (simw_push dl di join joinl H true t f d SW LT) as (A & _ & _).
      destruct (pt_push dl di join joinl H t d) as [t' b]. exists t', b. eexists. conjs.
    + destruct (simw_push dl di join joinl H true t f d SW LT) as (A & _ & _). unfold pt_push_np.
      destruct (pt_push dl di join joinl H t d) as [t' b]. eexists _, b, _. conjs. apply G, (sim_mark dl di join joinl); auto.
    + destruct ds as [|d0 ds0].
      { exists t, true, f. conjs. split; auto. }
      destruct (simw_batch dl di join joinl H true t f (d0 :: ds0) SW ltac:(discriminate) LT) as (t' & f' & o' & E1 & E2 & A & _).
      unfold pt_batch_push, full_batch_push. rewrite E1, E2.
      destruct o' as [[b n]|]; cbn [option_map fst]; eexists _, _, _; conjs.
    + destruct ds as [|d0 ds0].
      { exists t, true, f. conjs. split; auto. }
      destruct (simw_batch dl di join joinl H true t f (d0 :: ds0) SW ltac:(discriminate) LT) as (t' & f' & o' & E1 & E2 & A & _).
      unfold pt_batch_push_np, full_batch_push. rewrite E1, E2.
      destruct o' as [[b n]|]; cbn [option_map fst]; eexists _, _, _; conjs. apply G, (sim_marks dl di join joinl); auto.
  - assert (SM : Sim true t f) by (apply SF; discriminate).
    assert (G : forall t' f', Sim true t' f' -> Fol t' f') by (intros; split; auto; apply sim_simw; auto).
    destruct o as [d|d|ds|ds|i|]; try discriminate I; cbn [pop_top] in ET; injection ET as <-;
      unfold PtSpec.pt_step, MtHist.full_step.
    + destruct (sim_push dl di join joinl H true t f d SM) as (A & _).
      destruct (pt_push dl di join joinl H t d) as [t' b]. exists t', b. eexists. conjs.
    + destruct (sim_push_np dl di join joinl H true t f d SM) as (A & _).
      destruct (pt_push_np dl di join joinl H t d) as [t' b]. exists t', b. eexists. conjs.
    + destruct (sim_batch_push dl di join joinl H true t f ds SM) as (t' & f' & b & E1 & E2 & A).
      rewrite E1, E2. exists t', b, f'. conjs.
    + destruct (sim_batch_push_np dl di join joinl H true t f ds SM) as (t' & f' & b & E1 & E2 & A).
      rewrite E1, E2. exists t', b, f'. conjs.
Qed.

Lemma virt_insert chk (t : partial) o t' b : wfb t -> is_insert o = true ->
  pt_step chk (virt t) o = Some (t', b) ->
  exists u, pt_step chk t o = Some (u, b) /\ t' = virt u /\ wfb u /\ pt_start u = pt_start t.
Proof.
  intros W I E. destruct o as [d|d|ds|ds|i|]; try discriminate I; unfold PtSpec.pt_step in *.
  - destruct (virt_push dl di join joinl H t d W) as (A & B & C). rewrite A in E. injection E as <- <-.
    exists (fst (pt_push dl di join joinl H t d)). rewrite <- surjective_pairing. conjs.
  - destruct (virt_push_np dl di join joinl H t d W) as (A & B & C). rewrite A in E. injection E as <- <-.
    exists (fst (pt_push_np dl di join joinl H t d)). rewrite <- surjective_pairing. conjs.
  - pose proof (virt_batch_push dl di join joinl H t ds W) as V.
    destruct (pt_batch_push dl di join joinl H t ds) as [[u b']|]; [|congruence].
    destruct V as (A & B & C). rewrite A in E. injection E as <- <-. exists u. conjs.
  - pose proof (virt_batch_push_np dl di join joinl H t ds W) as V.
    destruct (pt_batch_push_np dl di join joinl H t ds) as [[u b']|]; [|congruence].
    destruct V as (A & B & C). rewrite A in E. injection E as <- <-. exists u. conjs.
Qed.

(** *** The invariant *)

(** [td]: does the base agree on the nodes of the leaves given up that are still stored? *)
Context {td : bool}.
Record FInv (t : ftree LD ID) (s : fspec LD) (fb f : full) : Prop := {
  fi_base : Sim td (ft_base t) fb;
  fi_bweak : full_weak fb (map snd (fs_base s));
  fi_marks : marks_ok (pt_lm (ft_base t)) (map fst (fs_base s));
  fi_wfb : wfb (br_data (ft_branch t));
  fi_start : pt_start (br_data (ft_branch t)) = fs_start s;
  fi_contrib : br_contrib (ft_branch t) = length (fs_base s) - fs_start s;
  fi_items : exists c, length c = br_contrib (ft_branch t) /\
    pt_lm (br_data (ft_branch t)) = c ++ map Some (fs_fork s);
  fi_fork : Fol (virt (br_data (ft_branch t))) f;
  fi_weak : full_weak f (fs_leaves s);
  fi_strong : fs_ok s = true -> full_strong f (fs_leaves s)
}.

Lemma start_le (s : fspec LD) : fs_start s <= length (fs_base s).
Proof. unfold fs_start. clear. dlia. Qed.

Lemma finv_len t s fb f : FInv t s fb f -> pt_len (br_data (ft_branch t)) = length (fs_items s).
Proof.
  intros I. rewrite pt_len_eq, (fi_start _ _ _ _ I). destruct (fi_items _ _ _ _ I) as (c & C1 & C2).
  rewrite C2, app_length, map_length, C1, (fi_contrib _ _ _ _ I). unfold fs_items. rewrite app_length.
  pose proof (start_le s). lia.
Qed.

Lemma finv_cap t s fb f : FInv t s fb f -> length (fs_items s) <= capacity H.
Proof. intros I. destruct (fi_weak _ _ _ _ I) as (_ & B & _). unfold fs_leaves in B. rewrite map_length in B. exact B. Qed.

(** A fresh fork of a tree. *)
Lemma finv_fresh (b : partial) (fb f : full) (B : list (bool * LD)) :
  Sim td b fb -> full_weak fb (map snd B) -> marks_ok (pt_lm b) (map fst B) ->
  full_strong f (map snd B) ->
  exists t, ft_make b = Some t /\ ft_base t = b /\ FInv t (FS B [] true) fb f.
Proof.
  intros SM W M F. unfold PtModel.ft_make.
  assert (EQ : fs_leaves (FS B [] true) = map snd B) by (unfold fs_leaves, fs_items; cbn; now rewrite app_nil_r).
  assert (D : B = [] \/ B <> []) by (destruct B; [left|right]; congruence).
  destruct D as [->|NB].
  - destruct (branch_of_empty dl di join joinl H HH ideqb ideqb_spec join_nd joinl_nd td b fb f SM W F) as (m & E & SW).
    rewrite E. eexists. split; [reflexivity|]. split; [reflexivity|]. split; cbn [ft_base ft_branch br_data br_contrib]; auto.
    + split; auto. intros i Q. destruct i; discriminate Q.
    + exists []. split; auto.
    + split; auto. intro Q. exfalso. apply Q. apply F.
    + rewrite EQ. apply full_strong_weak, F.
  - destruct (exists_last NB) as (B0 & x & EB).
    assert (EM : map snd B = map snd B0 ++ [snd x]) by (rewrite EB, map_app; reflexivity).
    rewrite EM in W, F.
    destruct (branch_of_spec dl di join joinl H HH ideqb ideqb_spec join_nd joinl_nd td b fb f _ _ SM W F)
      as (m & E & Wd & SD).
    rewrite E. eexists. split; [reflexivity|]. split; [reflexivity|].
    assert (ST : as_left (length (map snd B0)) = fs_start (FS B [] true)).
    { rewrite as_left_eq, map_length. unfold fs_start. cbn [fs_base]. rewrite EB, app_length. cbn [length].
      replace (length B0 + 1 - 1) with (length B0) by lia. reflexivity. }
    split; cbn [ft_base ft_branch br_data br_contrib fs_base]; auto.
    + rewrite EM. exact W.
    + rewrite ST, <- EM, map_length. reflexivity.
    + eexists. split; [|cbn [pt_lm fs_fork map]; rewrite app_nil_r; reflexivity].
      rewrite map_length, skipn_length. reflexivity.
    + split; [apply sim_simw|]; auto.
    + rewrite EQ, EM. apply full_strong_weak, F.
    + rewrite EQ, EM. auto.
Qed.

Lemma pop_top_insert (o : pop LD) : is_insert o = true -> exists tp, pop_top o = [tp] /\ top_items tp = map snd (pop_items o).
Proof.
  destruct o as [d|d|ds|ds|i|]; intro E; try discriminate E; cbn [pop_top pop_items]; eexists; split; try reflexivity;
  cbn [top_items]; rewrite map_map; cbn [snd]; now rewrite map_id.
Qed.

Lemma ft_step_insert chk (t : ftree LD ID) o : is_insert o = true ->
  ft_step chk t (FDo o) = match pt_step chk (br_data (ft_branch t)) o with
                          | Some (u, b) => Some (ft_set_data t u, b) | None => None end.
Proof.
  intro E. destruct o as [d|d|ds|ds|i|]; try discriminate E; unfold FkSpec.ft_step, PtSpec.pt_step, ft_push, ft_push_np, ft_batch, ft_batch_np; auto.
  - destruct (pt_push _ _ _ _ _ _ _); auto.
  - destruct (pt_push_np _ _ _ _ _ _ _); auto.
Qed.

Lemma finv_insert chk t s fb f o : FInv t s fb f -> is_insert o = true ->
  exists t' s' f' b, ft_step chk t (FDo o) = Some (t', b) /\ fs_step chk s (FDo o) = Some (s', b) /\
    full_exec f (pop_top o) = Some f' /\ ft_base t' = ft_base t /\ FInv t' s' fb f'.
Proof.
  intros I E. pose proof (finv_len _ _ _ _ I) as LEN. pose proof (finv_cap _ _ _ _ I) as CAP.
  destruct (pop_top_insert o E) as (tp & ET & TI).
  set (d := br_data (ft_branch t)) in *.
  destruct (insert_follow chk (virt d) f _ o tp (fi_fork _ _ _ _ I) (fi_weak _ _ _ _ I) E ET)
    as (v & b & f' & E1 & E2 & FO).
  destruct (virt_insert chk d o v b (fi_wfb _ _ _ _ I) E E1) as (u & E3 & -> & WU & SU).
  destruct (pt_insert_lm chk d o u b E ltac:(lia) E3) as [LM EB].
  destruct (settle_step dl di join joinl H HH2 f (fs_leaves s) (fs_ok s) tp (fi_weak _ _ _ _ I) (fi_strong _ _ _ _ I))
    as (f1 & l1 & F1 & F2 & F3 & F4 & F5).
  rewrite E2 in F1. injection F1 as <-.
  assert (FSE : fs_step chk s (FDo o) = Some (FS (fs_base s) (fs_fork s ++ firstn (2 ^ (H - 1) - length (fs_items s)) (pop_items o))
        (snd (fold_left (settle H) (pop_top o) (length (fs_items s), fs_ok s))), length (fs_items s) + length (pop_items o) <=? 2 ^ (H - 1))).
  { destruct o; try discriminate E; reflexivity. }
  rewrite FSE, ET. rewrite (ft_step_insert chk t o E). fold d. rewrite E3.
  exists (ft_set_data t u). eexists. exists f', b. split; [reflexivity|]. split; [rewrite EB, LEN; reflexivity|].
  split. { cbn [MtHist.full_exec]. rewrite E2. reflexivity. }
  split; [reflexivity|].
  set (s' := FS _ _ _).
  assert (EL : fs_leaves s' = l1).
  { rewrite F2. unfold fs_leaves, fs_items, s', spec_accept. cbn [fs_base fs_fork]. rewrite app_assoc, map_app. f_equal.
    rewrite TI, <- firstn_map. rewrite map_length. reflexivity. }
  split; unfold s'; cbn [fs_base fs_fork fs_ok ft_set_data ft_base ft_branch br_data br_contrib fs_start]; try apply I; auto.
  - rewrite SU. apply (fi_start _ _ _ _ I).
  - destruct (fi_items _ _ _ _ I) as (c & C1 & C2). exists c. split; auto. rewrite LM. fold d in C2. rewrite C2.
    rewrite <- app_assoc. f_equal. rewrite map_app, LEN. reflexivity.
  - fold s'. rewrite EL. exact F3.
  - fold s'. rewrite EL. cbn [fold_left]. intro Q. apply F5.
    unfold fs_leaves. rewrite map_length. exact Q.
Qed.

Lemma finv_remove chk t s fb f i : FInv t s fb f ->
  match fs_step chk s (FDo (PRemove i)) with
  | Some (s', b) => exists t', ft_step chk t (FDo (PRemove i)) = Some (t', b) /\
       ft_base t' = ft_base t /\ FInv t' s' fb f
  | None => ft_step chk t (FDo (PRemove i)) = None
  end.
Proof.
  intros I. pose proof (finv_len _ _ _ _ I) as LEN. pose proof (start_le s) as SL.
  unfold FkSpec.fs_step, FkSpec.ft_step, ft_remove_path, pt_remove_path. rewrite (fi_start _ _ _ _ I).
  set (d := br_data (ft_branch t)) in *.
  destruct (Nat.ltb_spec i (fs_start s)) as [C|C].
  { destruct chk; auto. exists t. split; [|split; auto]. unfold ft_set_data. destruct t as [b0 [c0 d0]]. reflexivity. }
  assert (LD0 : fs_start s + length (pt_lm d) = length (fs_items s)).
  { rewrite <- LEN, pt_len_eq. unfold d. rewrite (fi_start _ _ _ _ I). reflexivity. }
  assert (SAME : ft_set_data t d = t) by (destruct t as [b0 [c0 d0]]; reflexivity).
  assert (CUR : forall c, lm_current (pt_lm d) = Some c <-> length (pt_lm d) = S c) by (intro; apply lm_current_some).
  destruct (Nat.ltb_spec i (length (fs_items s))) as [C1|C1].
  - destruct (lm_current (pt_lm d)) as [c|] eqn:EC.
    2:{ unfold lm_current in EC. destruct (length (pt_lm d)) eqn:Z; [lia|discriminate]. }
    pose proof (proj1 (CUR c) eq_refl) as LC.
    destruct (Nat.leb_spec (i - fs_start s) c); [|lia].
    eexists. split; [reflexivity|]. split; [reflexivity|].
    destruct (fi_items _ _ _ _ I) as (e & C2 & C3). fold d in C3. pose proof (fi_contrib _ _ _ _ I) as CO.
    assert (NE : f_leaves f <> []).
    { rewrite (proj1 (fi_weak _ _ _ _ I)). unfold fs_leaves. intro Q. apply (f_equal (@length LD)) in Q.
      rewrite map_length in Q. cbn [length] in Q. lia. }
    assert (FV : Fol (virt (pt_mark d (i - fs_start s))) f).
    { rewrite <- virt_mark. split; [apply sim_simw|intros _]; apply (sim_mark dl di join joinl); apply (fi_fork _ _ _ _ I); auto. }
    split; cbn [fs_base fs_fork fs_ok ft_set_data ft_base ft_branch br_data br_contrib]; try apply I; auto.
    + apply wfb_mark, I.
    + unfold pt_mark. cbn [pt_start pt_lm]. rewrite C3.
      destruct (Nat.ltb_spec i (length (fs_base s))).
      * rewrite lm_mark_before by lia. eexists. split; [|reflexivity]. rewrite lm_mark_length. exact C2.
      * rewrite lm_mark_append by lia. exists e. split; auto. f_equal. f_equal. f_equal. lia.
    + unfold fs_leaves, fs_items in *. cbn [fs_base fs_fork]. destruct (_ <? _); [apply I|].
      rewrite map_app, mark_nth_snd, <- map_app. apply I.
    + unfold fs_leaves, fs_items in *. cbn [fs_base fs_fork]. destruct (_ <? _); [apply I|].
      rewrite map_app, mark_nth_snd, <- map_app. apply I.
  - destruct (lm_current (pt_lm d)) as [c|] eqn:EC.
    + pose proof (proj1 (CUR c) eq_refl) as LC.
      destruct (Nat.leb_spec (i - fs_start s) c); [lia|]. exists t. rewrite SAME. auto.
    + exists t. rewrite SAME. auto.
Qed.

Lemma step_sim_leaves chk o (t : partial) (f : full) ms l : Sim td t f -> full_weak f l -> marks_ok (pt_lm t) ms ->
  exists t' f' b, pt_step chk t o = Some (t', b) /\
    full_exec f (pop_top o) = Some f' /\
    Sim td t' f' /\ full_weak f' (firstn (capacity H) (l ++ offered (pop_top o))) /\ marks_ok (pt_lm t') (give_up H ms o).
Proof.
  intros SM W M. destruct (step_sim dl di join joinl H HH2 chk o t f ms l SM W M) as (t' & f' & b & l' & E1 & _ & E3 & S' & _ & M').
  destruct (full_exec_weak dl di join joinl H HH2 (pop_top o) f l W) as (f1 & E4 & W1).
  rewrite E3 in E4. injection E4 as <-. exists t', f', b. conjs.
Qed.

Lemma finv_prune chk t s fb f : FInv t s fb f ->
  FInv (ft_prune H t) s fb f /\ fs_step chk s (FDo PPrune) = Some (s, true).
Proof.
  intros I. split; auto.
  destruct (step_sim_leaves chk PPrune _ _ _ _ (fi_base _ _ _ _ I) (fi_bweak _ _ _ _ I) (fi_marks _ _ _ _ I))
    as (t' & f' & b & E1 & E2 & SM & W & M).
  unfold PtSpec.pt_step in E1. injection E1 as <- <-. cbn [pop_top MtHist.full_exec] in E2. injection E2 as <-.
  cbn [give_up] in M. split; cbn [ft_prune ft_base ft_branch]; try apply I; auto.
Qed.

Lemma finv_reset t s fb f f' : FInv t s fb f -> full_strong f' (map snd (fs_base s)) ->
  exists t', ft_reset dl di join joinl ideqb H t = Some t' /\ ft_base t' = ft_base t /\
    FInv t' (FS (fs_base s) [] true) fb f'.
Proof. intros I F. apply finv_fresh; auto; apply I. Qed.

(** *** Merging *)
Lemma finv_extract t s fb f : FInv t s fb f -> branch_extract_marked (ft_branch t) = Some (fs_fork s).
Proof.
  intro I. unfold branch_extract_marked. destruct (fi_items _ _ _ _ I) as (c & C1 & C2).
  assert (FULL : pt_lm (br_data (ft_branch t)) = map Some (lm_entries (pt_lm (br_data (ft_branch t)))))
    by (apply lm_entries_full, I).
  set (es := lm_entries _) in *. rewrite C2 in FULL.
  assert (LE : length c + length (fs_fork s) = length es).
  { apply (f_equal (@length _)) in FULL. rewrite app_length, !map_length in FULL. exact FULL. }
  destruct (Nat.ltb_spec (length es) (br_contrib (ft_branch t))); [lia|]. f_equal. rewrite <- C1.
  apply (f_equal (skipn (length c))) in FULL. rewrite skipn_app, skipn_all, Nat.sub_diag in FULL. cbn [skipn app] in FULL.
  rewrite skipn_map in FULL.
  assert (INJ : forall a b : list (bool * LD), map Some a = map Some b -> a = b).
  { clear. induction a; intros [|y b] Q; try discriminate Q; auto. cbn in Q. injection Q as -> Q. f_equal; auto. }
  symmetry. apply INJ. exact FULL.
Qed.

Lemma flush_sim chk (t : partial) (f : full) (B : list (bool * LD)) acc :
  Sim td t f -> full_weak f (map snd B) -> marks_ok (pt_lm t) (map fst B) ->
  length B + length acc <= capacity H ->
  exists t' f', pt_flush dl di join joinl H t acc = Some t' /\
    full_exec f (inserts (match acc with [] => [] | _ => [PBatchNp acc] end)) = Some f' /\
    run (pt_step chk) t (match acc with [] => [] | _ => [PBatchNp acc] end) = Some (t', map (fun _ => true) (match acc with [] => [] | _ => [tt] end)) /\
    Sim td t' f' /\ full_weak f' (map snd (B ++ map (fun x => (true, x)) acc)) /\
    marks_ok (pt_lm t') (map fst (B ++ map (fun x => (true, x)) acc)).
Proof.
  intros SM W M Hc. destruct acc as [|a0 acc0].
  { exists t, f. cbn [map]. rewrite app_nil_r. conjs. }
  remember (a0 :: acc0) as acc eqn:EA.
  destruct (step_sim_leaves chk (PBatchNp acc) t f _ _ SM W M) as (t' & f' & b & E1 & E2 & SM' & W' & M').
  assert (LE : pt_len t = length B).
  { rewrite (sim_len dl di join joinl H _ _ _ SM). unfold full_len. rewrite (proj1 W), map_length. reflexivity. }
  destruct (pt_insert_lm chk t (PBatchNp acc) t' b eq_refl ltac:(lia) E1) as [_ EB].
  cbn [pop_items] in EB. rewrite map_length, LE in EB.
  destruct (Nat.leb_spec (length B + length acc) (capacity H)); [|lia]. subst b.
  unfold PtSpec.pt_step in E1.
  exists t', f'. cbn [pop_top offered flat_map top_items] in W'.
  rewrite app_nil_r, firstn_all2 in W' by (rewrite app_length, map_length; lia).
  cbn [give_up] in M'. fold (capacity H) in M'. rewrite firstn_all2 in M' by (rewrite !map_length; lia).
  split. { unfold pt_flush. rewrite EA, <- EA, E1. reflexivity. }
  split. { rewrite EA. unfold inserts. rewrite <- EA. cbn [flat_map pop_top app]. exact E2. }
  split. { rewrite EA. cbn [run]. rewrite <- EA. unfold PtSpec.pt_step. rewrite E1. reflexivity. }
  split; auto. rewrite !map_app, !map_map. cbn [fst snd]. rewrite map_id. auto.
Qed.

Lemma full_exec_app a : forall b (g : full), full_exec g (a ++ b) =
  match full_exec g a with Some g' => full_exec g' b | None => None end.
Proof.
  induction a as [|x a IHa]; intros b g; auto. cbn [app MtHist.full_exec].
  destruct (full_step g x); auto.
Qed.

Lemma extend_sim (chk : bool) items : forall acc (t : partial) (f : full) (B : list (bool * LD)),
  Sim td t f -> full_weak f (map snd B) -> marks_ok (pt_lm t) (map fst B) ->
  length B + length acc + length items <= capacity H ->
  exists t' f', pt_extend_loop dl di join joinl H t acc items = Some t' /\
    full_exec f (inserts (merge_ops acc items)) = Some f' /\
    Sim td t' f' /\ full_weak f' (map snd (B ++ map (fun x => (true, x)) acc ++ items)) /\
    marks_ok (pt_lm t') (map fst (B ++ map (fun x => (true, x)) acc ++ items)).
Proof.
  induction items as [|[[|] x] items IH]; intros acc t f B SM W M Hc; cbn [pt_extend_loop merge_ops]; cbn [length] in Hc.
  - rewrite app_nil_r. destruct (flush_sim chk t f B acc SM W M ltac:(lia)) as (t' & f' & E1 & E2 & _ & R).
    exists t', f'. conjs; apply R.
  - destruct (IH (acc ++ [x]) t f B SM W M ltac:(rewrite app_length; cbn [length]; lia)) as (t' & f' & E1 & E2 & R).
    replace (map (fun y => (true, y)) (acc ++ [x]) ++ items)
      with (map (fun y => (true, y)) acc ++ (true, x) :: items) in R
      by (rewrite map_app, <- app_assoc; reflexivity).
    exists t', f'. conjs; apply R.
  - destruct (flush_sim chk t f B acc SM W M ltac:(lia)) as (t1 & f1 & E1 & E2 & _ & SM1 & W1 & M1).
    rewrite E1. set (B1 := B ++ map (fun x => (true, x)) acc) in *.
    assert (LB1 : length B1 = length B + length acc) by (unfold B1; rewrite app_length, map_length; lia).
    destruct (step_sim_leaves chk (PPush x) t1 f1 _ _ SM1 W1 M1) as (t2 & f2 & b & E3 & E4 & SM2 & W2 & M2).
    assert (LE : pt_len t1 = length B1).
    { rewrite (sim_len dl di join joinl H _ _ _ SM1). unfold full_len. rewrite (proj1 W1), map_length. reflexivity. }
    destruct (pt_insert_lm chk t1 (PPush x) t2 b eq_refl ltac:(lia) E3) as [_ EB].
    cbn [pop_items length] in EB. rewrite LE in EB.
    destruct (Nat.leb_spec (length B1 + 1) (capacity H)); [|lia]. subst b.
    unfold PtSpec.pt_step in E3. injection E3 as E3. rewrite E3.
    cbn [pop_top offered flat_map top_items] in W2.
    rewrite app_nil_r, firstn_all2 in W2 by (rewrite app_length, map_length; cbn [length]; lia).
    cbn [give_up] in M2. fold (capacity H) in M2. rewrite firstn_all2 in M2 by (rewrite map_length; cbn [length]; lia).
    destruct (IH [] t2 f2 (B1 ++ [(false, x)]) SM2) as (t' & f' & E5 & E6 & R).
    { rewrite map_app. exact W2. } { rewrite map_app. exact M2. }
    { rewrite app_length. cbn [length]. lia. }
    cbn [map app] in R. rewrite <- app_assoc in R. cbn [app] in R. unfold B1 in R. rewrite <- app_assoc in R.
    exists t', f'. split; auto. split; [|exact R].
    unfold inserts in *. rewrite flat_map_app, full_exec_app, E2. cbn [flat_map].
    rewrite full_exec_app, E4. exact E6.
Qed.

Lemma strong_of l : length l <= capacity H -> exists f, full_exec full_new (map TPush l) = Some f /\ full_strong f l.
Proof.
  intro Hl. destruct (full_pushes_strong dl di join joinl H HH2 l full_new [] (full_new_strong dl di join joinl H HH2)) as (f & E & F).
  cbn [app] in F. rewrite firstn_all2 in F by auto. eauto.
Qed.

Lemma finv_commit chk t s fb f : FInv t s fb f ->
  exists t' fb' f', ft_merge_partial dl di join joinl ideqb H chk t = Some t' /\
    full_exec fb (inserts (merge_ops [] (fs_fork s))) = Some fb' /\
    full_strong f' (fs_leaves s) /\
    FInv t' (FS (fs_items s) [] true) fb' f'.
Proof.
  intro I. pose proof (finv_cap _ _ _ _ I) as CAP. unfold ft_merge_partial. rewrite (finv_extract _ _ _ _ I).
  assert (LE : pt_len (ft_base t) = length (fs_base s)).
  { rewrite (sim_len dl di join joinl H _ _ _ (fi_base _ _ _ _ I)). unfold full_len. rewrite (proj1 (fi_bweak _ _ _ _ I)), map_length. reflexivity. }
  unfold pt_extend_marked. rewrite LE. unfold fs_items in CAP. rewrite app_length in CAP.
  destruct (Nat.ltb_spec (capacity H) (length (fs_base s))); [lia|].
  destruct (Nat.leb_spec (length (fs_fork s)) (capacity H - length (fs_base s))); [|lia].
  destruct (extend_sim chk (fs_fork s) [] _ _ _ (fi_base _ _ _ _ I) (fi_bweak _ _ _ _ I) (fi_marks _ _ _ _ I) ltac:(cbn [length]; lia))
    as (b' & fb' & E1 & E2 & SM & W & M). cbn [map app] in W, M.
  rewrite E1. destruct (strong_of (fs_leaves s)) as (f' & _ & F'). { apply I. }
  destruct (finv_fresh b' fb' f' (fs_items s) SM W M F') as (t' & E3 & _ & I').
  exists t', fb', f'. conjs.
Qed.

Lemma extend_np_sim (chk : bool) ds : forall (t : partial) (f : full) (B : list (bool * LD)),
  Sim td t f -> full_weak f (map snd B) -> marks_ok (pt_lm t) (map fst B) ->
  length B + length ds <= capacity H ->
  exists t' f', pt_extend_np_loop dl di join joinl H t ds =
      (if length B + length ds <? capacity H then Some t' else None) /\
    full_exec f (map TPush ds) = Some f' /\
    Sim td t' f' /\ full_weak f' (map snd (B ++ map (fun x => (true, x)) ds)) /\
    marks_ok (pt_lm t') (map fst (B ++ map (fun x => (true, x)) ds)).
Proof.
  induction ds as [|x ds IH]; intros t f B SM W M Hc; cbn [pt_extend_np_loop]; cbn [length] in Hc.
  - assert (LE : pt_len t = length B).
    { rewrite (sim_len dl di join joinl H _ _ _ SM). unfold full_len. rewrite (proj1 W), map_length. reflexivity. }
    exists t, f. cbn [map length]. rewrite app_nil_r. conjs. rewrite LE, Nat.add_0_r.
    destruct (Nat.leb_spec (capacity H) (length B)); destruct (Nat.ltb_spec (length B) (capacity H)); try lia; reflexivity.
  - destruct (step_sim_leaves chk (PPushNp x) t f _ _ SM W M) as (t2 & f2 & b & E3 & E4 & SM2 & W2 & M2).
    assert (LE : pt_len t = length B).
    { rewrite (sim_len dl di join joinl H _ _ _ SM). unfold full_len. rewrite (proj1 W), map_length. reflexivity. }
    destruct (pt_insert_lm chk t (PPushNp x) t2 b eq_refl ltac:(lia) E3) as [_ EB].
    cbn [pop_items length] in EB. rewrite LE in EB.
    destruct (Nat.leb_spec (length B + 1) (capacity H)); [|lia]. subst b.
    unfold PtSpec.pt_step in E3. injection E3 as E3. rewrite E3.
    cbn [pop_top offered flat_map top_items] in W2.
    rewrite app_nil_r, firstn_all2 in W2 by (rewrite app_length, map_length; cbn [length]; lia).
    cbn [give_up] in M2. fold (capacity H) in M2. rewrite firstn_all2 in M2 by (rewrite map_length; cbn [length]; lia).
    destruct (IH t2 f2 (B ++ [(true, x)]) SM2) as (t' & f' & E5 & E6 & R).
    { rewrite map_app. exact W2. } { rewrite map_app. exact M2. }
    { rewrite app_length. cbn [length]. lia. }
    rewrite <- app_assoc in R. cbn [app] in R. exists t', f'.
    split. { rewrite E5, app_length. cbn [length]. now replace (length B + 1 + length ds) with (length B + S (length ds)) by lia. }
    split; [|exact R].
    cbn [map]. change (TPush x :: map TPush ds) with ([TPush x] ++ map TPush ds).
    rewrite full_exec_app. cbn [pop_top] in E4. rewrite E4. exact E6.
Qed.

Lemma finv_merge t s fb f : FInv t s fb f ->
  exists t' fb' f', ft_merge dl di join joinl ideqb H t =
      (if length (fs_items s) <? capacity H then Some t' else None) /\
    full_exec fb (map TPush (map snd (fs_fork s))) = Some fb' /\
    full_strong f' (fs_leaves s) /\
    FInv t' (FS (fs_base s ++ map (fun x => (true, snd x)) (fs_fork s)) [] true) fb' f'.
Proof.
  intro I. pose proof (finv_cap _ _ _ _ I) as CAP. unfold ft_merge, branch_extract. rewrite (finv_extract _ _ _ _ I).
  cbn [option_map].
  assert (LE : pt_len (ft_base t) = length (fs_base s)).
  { rewrite (sim_len dl di join joinl H _ _ _ (fi_base _ _ _ _ I)). unfold full_len. rewrite (proj1 (fi_bweak _ _ _ _ I)), map_length. reflexivity. }
  unfold pt_extend. rewrite LE, map_length. unfold fs_items in CAP. rewrite app_length in CAP.
  destruct (Nat.leb_spec (length (fs_fork s)) (capacity H - length (fs_base s))); [|lia].
  destruct (extend_np_sim true (map snd (fs_fork s)) _ _ _ (fi_base _ _ _ _ I) (fi_bweak _ _ _ _ I) (fi_marks _ _ _ _ I) ltac:(rewrite map_length; lia))
    as (b' & fb' & E1 & E2 & SM & W & M). rewrite map_map in W, M.
  rewrite E1, map_length. unfold fs_items. rewrite app_length. destruct (strong_of (fs_leaves s)) as (f' & _ & F'). { apply I. }
  set (B' := fs_base s ++ map (fun x => (true, snd x)) (fs_fork s)) in *.
  assert (EL : map snd B' = fs_leaves s).
  { unfold B', fs_leaves, fs_items. rewrite !map_app, map_map. reflexivity. }
  destruct (finv_fresh b' fb' f' B' SM W M) as (t' & E3 & _ & I'). { rewrite EL. auto. }
  exists t', fb', f'. conjs.
  destruct (length (fs_base s) + length (fs_fork s) <? capacity H); [exact E3|reflexivity].
Qed.

(** *** Every operation *)
Lemma finv_step chk t s fb f o : FInv t s fb f ->
  match fs_step chk s o with
  | Some (s', b) => exists t' fb' f', ft_step chk t o = Some (t', b) /\ FInv t' s' fb' f'
  | None => ft_step chk t o = None
  end.
Proof.
  intro I.
  assert (ST : exists f', full_strong f' (map snd (fs_base s))).
  { destruct (strong_of (map snd (fs_base s))) as (f' & _ & F'); [apply (fi_bweak _ _ _ _ I)|eauto]. }
  assert (INS : forall p, is_insert p = true ->
     match fs_step chk s (FDo p) with
     | Some (s', b) => exists t' fb' f', ft_step chk t (FDo p) = Some (t', b) /\ FInv t' s' fb' f'
     | None => ft_step chk t (FDo p) = None end).
  { intros p Hp. destruct (finv_insert chk t s fb f p I Hp) as (t' & s' & f' & b & E1 & E2 & _ & _ & I').
    rewrite E2. eauto 6. }
  destruct o as [p| | |].
  - destruct p as [d|d|ds|ds|i|]; try (apply INS; reflexivity).
    + pose proof (finv_remove chk t s fb f i I) as R. destruct (fs_step chk s _) as [[s' b]|]; auto.
      destruct R as (t' & E & _ & I'). eauto 6.
    + destruct (finv_prune chk t s fb f I) as [I' E]. rewrite E. eexists _, _, _. split; [reflexivity|]. exact I'.
  - destruct ST as (f' & F'). destruct (finv_reset t s fb f f' I F') as (t' & E & _ & I').
    unfold FkSpec.fs_step, FkSpec.ft_step. rewrite E. cbn [with_true option_map]. eauto 6.
  - destruct (finv_commit chk t s fb f I) as (t' & fb' & f' & E & _ & _ & I').
    unfold FkSpec.fs_step, FkSpec.ft_step. rewrite E. cbn [with_true option_map]. eauto 6.
  - destruct (finv_merge t s fb f I) as (t' & fb' & f' & E & _ & _ & I').
    unfold FkSpec.fs_step, FkSpec.ft_step. rewrite E. unfold capacity. destruct (_ <? _); [|reflexivity].
    cbn [with_true option_map]. eauto 6.
Qed.

Lemma finv_run chk os : forall t s fb f, FInv t s fb f ->
  match run (fs_step chk) s os with
  | Some (s', bs) => exists t' fb' f', run (ft_step chk) t os = Some (t', bs) /\ FInv t' s' fb' f'
  | None => run (ft_step chk) t os = None
  end.
Proof.
  induction os as [|o os IH]; intros t s fb f I; cbn [run]; [eauto 6|].
  pose proof (finv_step chk t s fb f o I) as ST.
  destruct (fs_step chk s o) as [[s1 b]|]; [|now rewrite ST].
  destruct ST as (t1 & fb1 & f1 & E & I1). rewrite E. specialize (IH t1 s1 fb1 f1 I1).
  destruct (run (fs_step chk) s1 os) as [[s2 bs]|]; [|now rewrite IH].
  destruct IH as (t2 & fb2 & f2 & E2 & I2). rewrite E2. eauto 6.
Qed.

(** *** What the tree reports *)
Lemma finv_root t s fb f : FInv t s fb f -> fs_items s <> [] -> ft_root di t = full_root di f.
Proof.
  intros I NE. unfold ft_root. rewrite <- virt_root. apply (sim_root_eq di H true).
  apply (fi_fork _ _ _ _ I). rewrite (proj1 (fi_weak _ _ _ _ I)). unfold fs_leaves.
  intro Q. apply map_eq_nil in Q. auto.
Qed.

Lemma finv_current t s fb f : FInv t s fb f -> fs_items s <> [] ->
  ft_current_path dl di ideqb H t = full_current_path dl di ideqb H f.
Proof.
  intros I NE. unfold ft_current_path. rewrite <- (virt_current_path dl di join joinl H) by apply I.
  apply (sim_current_path dl di join joinl H ideqb true).
  - apply (fi_fork _ _ _ _ I). rewrite (proj1 (fi_weak _ _ _ _ I)). unfold fs_leaves.
    intro Q. apply map_eq_nil in Q. auto.
  - unfold full_len. rewrite (proj1 (fi_weak _ _ _ _ I)). unfold fs_leaves. rewrite map_length. apply (finv_cap _ _ _ _ I).
Qed.

Lemma path_fold_part l n : n < length l -> forall c k,
  path_fold join (n / 2 ^ k) (sd l k (n / 2 ^ S k)) (map (fun k => sd l k (sibling (n / 2 ^ S k))) (seq k c))
  = sd l (k + c) (n / 2 ^ S (k + c)).
Proof.
  intros Hn. induction c; intro k.
  - cbn [seq map path_fold]. rewrite Nat.add_0_r. reflexivity.
  - cbn [seq map path_fold]. unfold parent. rewrite <- div_pow_S.
    rewrite node_join_sd by auto. rewrite IHc. f_equal; [lia|]. f_equal. f_equal. lia.
Qed.

(** The path of a leaf that the branch holds. *)
Lemma finv_sim t s fb f : FInv t s fb f -> fs_items s <> [] -> Sim true (virt (br_data (ft_branch t))) f.
Proof.
  intros I NE. apply (fi_fork _ _ _ _ I). rewrite (proj1 (fi_weak _ _ _ _ I)). unfold fs_leaves.
  intro Q. apply map_eq_nil in Q. auto.
Qed.

Lemma finv_unchecked t s fb f i : FInv t s fb f -> fs_start s <= i < length (fs_items s) ->
  full_path dl di H f i = Some (pt_path_unchecked dl di H (br_data (ft_branch t)) i).
Proof.
  intros I Hi. pose proof (finv_cap _ _ _ _ I) as CAP.
  assert (NE : fs_items s <> []) by (intro Q; rewrite Q in Hi; cbn [length] in Hi; lia).
  pose proof (finv_sim _ _ _ _ I NE) as SM. pose proof (finv_len _ _ _ _ I) as LEN.
  rewrite <- (sim_path dl di join joinl H true _ _ i SM).
  - unfold pt_path. rewrite virt_len, LEN. change (pt_start (virt _)) with 0.
    destruct (Nat.leb_spec (length (fs_items s)) i); [lia|]. rewrite andb_false_r.
    destruct (Nat.ltb_spec i 0); [lia|]. f_equal. apply (virt_path_unchecked dl di H).
    + apply I. 
    + rewrite (fi_start _ _ _ _ I). lia.
  - unfold full_len. rewrite (proj1 (fi_weak _ _ _ _ I)). unfold fs_leaves. rewrite map_length. exact CAP.
  - apply virt_present; [apply I|]. rewrite (fi_start _ _ _ _ I). lia.
Qed.

Lemma finv_path_high chk t s fb f i : FInv t s fb f -> fs_start s <= i < length (fs_items s) ->
  exists p, ft_path dl di join joinl H chk t i = Some (Some p) /\ full_path dl di H f i = Some p.
Proof.
  intros I Hi. rewrite (finv_unchecked t s fb f i I Hi). eexists. split; [|reflexivity].
  unfold ft_path, branch_path. rewrite (finv_len _ _ _ _ I), (fi_start _ _ _ _ I).
  destruct (Nat.leb_spec (length (fs_items s)) i); [lia|]. rewrite andb_false_r.
  destruct (Nat.ltb_spec i (fs_start s)); [lia|]. reflexivity.
Qed.

(** The path of an older leaf, put together from the base and the branch. *)
Lemma finv_path_low chk t s fb f i : FInv t s fb f -> i < fs_start s -> liv td (pt_lm (ft_base t)) i ->
  full_strong f (fs_leaves s) ->
  ft_path dl di join joinl H chk t i =
    Some (Some (Path i (nth (sibling i) (fs_leaves s) dl) (spath dl di join joinl H (fs_leaves s) i))).
Proof.
  intros I Hi P F. pose proof (finv_cap _ _ _ _ I) as CAP. pose proof (start_le s) as SL.
  set (l := fs_leaves s) in *. set (lb := map snd (fs_base s)).
  set (st := fs_start s) in *.
  assert (EV : is_left st = true) by (unfold st; rewrite <- (fi_start _ _ _ _ I); apply I).
  apply is_left_true in EV.
  assert (LB : length lb = length (fs_base s)) by (unfold lb; apply map_length).
  assert (ST : st < length (fs_base s)) by (unfold st, fs_start in *; clear - Hi; dlia).
  assert (LI : length (fs_base s) <= length (fs_items s)) by (unfold fs_items; rewrite app_length; lia).
  assert (LL : length l = length (fs_items s)) by (unfold l, fs_leaves; apply map_length).
  assert (EL : l = lb ++ map snd (fs_fork s)) by (unfold l, fs_leaves, fs_items, lb; apply map_app).
  pose proof (capacity_le H) as CL.
  pose proof (fi_bweak _ _ _ _ I) as (WB1 & WB2 & WB3). fold lb in WB1, WB2, WB3.
  pose proof (sim_path dl di join joinl H td _ _ i (fi_base _ _ _ _ I)
    ltac:(unfold full_len; rewrite WB1; exact WB2) P) as BP.
  assert (FP : full_path dl di H fb i = Some (Path i (nth (sibling i) lb dl) (path_iter_for_leaf di H (f_map fb) i))).
  { unfold full_path, full_len, full_leaf_sibling. rewrite WB1.
    destruct (Nat.leb_spec (length lb) i); [lia|]. rewrite andb_false_r, oleaf_nth. reflexivity. }
  rewrite FP in BP.
  pose proof (finv_unchecked t s fb f st I ltac:(fold st; lia)) as FU.
  rewrite (full_path_strong dl di join joinl H HH2 f l st F ltac:(lia)) in FU.
  apply (f_equal (fun o => match o with Some p => p | None => Path 0 dl [] end)) in FU. cbv beta iota in FU.
  unfold ft_path, branch_path. rewrite BP, (finv_len _ _ _ _ I), (fi_start _ _ _ _ I). fold st.
  destruct (Nat.leb_spec (length (fs_items s)) i); [lia|]. rewrite andb_false_r.
  destruct (Nat.ltb_spec i st); [|lia].
  unfold modified_path. rewrite (fi_start _ _ _ _ I). fold st. rewrite <- FU. cbn [p_index p_sibling p_inner].
  destruct (are_siblings i st) eqn:ES.
  { exfalso. unfold are_siblings in ES. apply Nat.eqb_eq in ES.
    destruct (sibling_cases i) as [(_ & A1 & A2)|(_ & A1 & A2)]; clear - ES EV A1 A2 Hi; dlia. }
  assert (TOP : i / 2 ^ S L = st / 2 ^ S L) by (rewrite !Nat.div_small by lia; reflexivity).
  destruct (matching_spec L i st ltac:(clear - EV Hi; dlia) TOP) as (k & MK & KL & KS & KLT).
  rewrite MK.
  assert (LDG : pt_leaf_digest true (br_data (ft_branch t)) st = Some (nth_error l st)).
  { assert (NE : fs_items s <> []) by (intro Q; rewrite Q in LI; cbn [length] in LI; lia).
    pose proof (finv_sim _ _ _ _ I NE) as SM.
    unfold pt_leaf_digest. rewrite (fi_start _ _ _ _ I). fold st. rewrite Nat.ltb_irrefl, Nat.sub_diag. f_equal.
    pose proof (virt_nth (br_data (ft_branch t)) 0) as V. rewrite Nat.add_0_r in V. rewrite (fi_start _ _ _ _ I) in V. fold st in V.
    unfold lm_get, lm_entry. rewrite <- V.
    destruct (nth_error (pt_lm (virt (br_data (ft_branch t)))) st) as [[[b0 y]|]|] eqn:Q.
    - pose proof (proj2 (sim_leaf _ _ _ _ _ SM) _ _ _ Q) as Y. rewrite (proj1 F) in Y. exact (eq_sym Y).
    - exfalso. revert Q. apply virt_present; [apply I|]. rewrite (fi_start _ _ _ _ I). fold st. lia.
    - apply nth_error_None in Q. rewrite (proj1 (sim_leaf _ _ _ _ _ SM)), (proj1 F) in Q. lia. }
  assert (LDG2 : forall c, pt_leaf_digest c (br_data (ft_branch t)) st = Some (nth_error l st)).
  { intro c. rewrite <- LDG. unfold pt_leaf_digest. rewrite (fi_start _ _ _ _ I). fold st. rewrite Nat.ltb_irrefl. reflexivity. }
  rewrite LDG2. rewrite oleaf_nth.
  f_equal. f_equal. f_equal.
  - rewrite EL, app_nth1; auto. rewrite LB.
    destruct (sibling_cases i) as [(_ & A1 & A2)|(_ & A1 & A2)]; clear - ST EV A1 A2 Hi; dlia.
  - rewrite (join_leaves_sd dl di join joinl) by lia.
    assert (SEQ : seq 0 L = seq 0 k ++ k :: seq (S k) (L - S k)).
    { replace L with (k + S (L - S k)) at 1 by lia. rewrite seq_app. reflexivity. }
    assert (SP : forall n, spath dl di join joinl H l n =
      map (fun k' => sd l k' (sibling (n / 2 ^ S k'))) (seq 0 k) ++
      sd l k (sibling (n / 2 ^ S k)) :: map (fun k' => sd l k' (sibling (n / 2 ^ S k'))) (seq (S k) (L - S k))).
    { intro n. unfold spath. rewrite SEQ, map_app. reflexivity. }
    assert (LK : forall n, length (map (fun k' => sd l k' (sibling (n / 2 ^ S k'))) (seq 0 k)) = k)
      by (intro; rewrite map_length, seq_length; reflexivity).
    assert (DG : path_fold join st (sd l 0 (st / 2)) (firstn k (spath dl di join joinl H l st)) = sd l k (st / 2 ^ S k)).
    { rewrite SP, firstn_app, LK, Nat.sub_diag, firstn_all2 by (rewrite LK; auto). cbn [firstn]. rewrite app_nil_r.
      pose proof (path_fold_part l st ltac:(lia) k 0) as Q. rewrite Nat.pow_0_r, Nat.div_1_r in Q.
      change (2 ^ 1) with 2 in Q. exact Q. }
    rewrite DG. rewrite !SP.
    rewrite skipn_app, LK, Nat.sub_diag, skipn_all2 by (rewrite LK; auto). cbn [skipn app upd].
    f_equal.
    + rewrite path_iter_eq, SEQ, map_app, firstn_app.
      rewrite map_length, seq_length, Nat.sub_diag, firstn_all2 by (rewrite map_length, seq_length; auto).
      cbn [firstn]. rewrite app_nil_r. apply map_ext_in. intros k' Hk'. apply in_seq in Hk'.
      assert (CO : complete (length lb) k' (sibling (i / 2 ^ S k'))).
      { unfold complete. pose proof (KLT (S k') ltac:(lia)) as Q.
        rewrite (div_pow_S i (S k')) in Q.
        pose proof (div_le_start st (S k')) as Q2. set (u := st / 2 ^ S (S k')) in *. clearbody u.
        rewrite (pow2_S (S k')) in Q2.
        apply (low_complete _ (i / 2 ^ S k' / 2) _ st u); [|exact Q|exact Q2|rewrite LB; apply Nat.lt_le_incl; exact ST].
        destruct (sibling_cases (i / 2 ^ S k')) as [(_ & A1 & A2)|(_ & A1 & A2)]; rewrite A2; clear; lia. }
      rewrite EL, sd_app_off by auto. apply WB3; try lia.
      * apply sibling_path_lt; lia.
      * apply (sibling_path_needed all_live i k'). exact Logic.I.
      * auto.
    + f_equal; [rewrite KS; reflexivity|].
      apply map_ext_in. intros k' Hk'. apply in_seq in Hk'. f_equal. f_equal.
      assert (PAR : i / 2 ^ S (S k) = st / 2 ^ S (S k)).
      { rewrite !(div_pow_S _ (S k)), <- KS, sibling_half. reflexivity. }
      symmetry. apply (same_above i st (S (S k))); [|exact PAR]. apply le_n_S. apply Hk'.
Qed.
End Hash.
