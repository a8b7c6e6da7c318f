(** A forest with one item; roots of trees with one leaf. *)
From Coq Require Import List Arith NArith Bool Lia.
From Verif Require Import MtModel MtSpec MtHist MtLemmas MtInner MtInv MtBatch MtFull MtSettled
  PtModel PtSpec PtLeaf PtAgree PtSim PtPrune PtProps FkSpec FkVirt FkCurrent FkInv FkProps FoSpec FoInv FoProps.
Import ListNotations.
Open Scope nat_scope.

Section One.
Context {LD ID IT : Type}.
Variable dl : LD.
Variable di : ID.
Variable join : ID -> ID -> ID.
Variable joinl : LD -> LD -> ID.
Variable ldeqb : LD -> LD -> bool.
Variable ideqb : ID -> ID -> bool.
Variable dg : IT -> LD.
Variable sh : IT -> nat.
Variable H : nat.
Hypothesis HH : 3 <= H.
Hypothesis ldeqb_spec : forall a b, ldeqb a b = true <-> a = b.
Hypothesis ideqb_spec : forall a b, ideqb a b = true <-> a = b.
Hypothesis join_nd : forall a b, join a b <> di.
Hypothesis joinl_nd : forall a b, joinl a b <> di.

Lemma fo_one chk n x : sh x < n -> exists f f1 t q,
  fo_new dl di join joinl ideqb H n = Some f /\
  fo_insert dl di join joinl H dg sh f x = Some (f1, true) /\
  nth_error f1 (sh x) = Some t /\ ft_root di t = spec_root dl di join joinl H [dg x] /\
  fo_prove dl di join joinl ldeqb H chk dg sh f1 x = Some (Some (q, ft_root di t)) /\
  length (p_inner q) = path_length H /\ path_root join joinl q (dg x) = spec_root dl di join joinl H [dg x].
Proof.
  intro SX.
  destruct (fo_new_shards (td := true) dl di join joinl ldeqb ideqb H HH ldeqb_spec ideqb_spec join_nd joinl_nd n) as (f & E0 & F0).
  assert (P2 : 1 <= 2 ^ (H - 1)) by (pose proof (pow2_pos (H - 1)); lia).
  assert (REF : exists ss s, run (fo_ref ldeqb dg sh H) (repeat (FS [] [] true) n) [OInsert x] = Some (ss, [true]) /\
     nth_error ss (sh x) = Some s /\ fs_items s = [(false, dg x)] /\ fs_ok s = true).
  { cbn [run FoSpec.fo_ref]. unfold change_at.
    assert (NR : nth_error (repeat (FS (LD := LD) [] [] true) n) (sh x) = Some (FS [] [] true)).
    { clear - SX. revert n SX. induction (sh x) as [|k IH]; intros [|n] L; cbn; try lia; auto. apply IH. lia. }
    rewrite NR. unfold fs_step. cbn [fs_items fs_base fs_fork fs_ok app length pop_items pop_top].
    rewrite Nat.sub_0_r. destruct (2 ^ (H - 1)) as [|m] eqn:EP; [lia|]. cbn [firstn].
    replace (firstn m (@nil (bool * LD))) with (@nil (bool * LD)) by (destruct m; reflexivity).
    cbn [option_map fst snd Nat.add Nat.leb]. eexists. eexists. split; [reflexivity|]. split.
    - rewrite nth_error_app2; rewrite firstn_length, repeat_length; [|lia]. rewrite Nat.min_l, Nat.sub_diag by lia. reflexivity.
    - split; [reflexivity|]. cbn [fs_ok fold_left settle]. destruct (0 <? 2 ^ (H - 1)); reflexivity. }
  destruct REF as (ss & s & R1 & R2 & R3 & R4).
  assert (INS : exists f1 b, fo_insert dl di join joinl H dg sh f x = Some (f1, b)).
  { unfold fo_insert. assert (LF : sh x < length f) by (rewrite (Forall2_len _ _ _ F0), repeat_length; exact SX).
    clear - LF. generalize dependent (dg x). intro d. revert f LF. induction (sh x) as [|k IH]; intros [|t f] LF; cbn [length] in LF; try lia; cbn [fo_upd].
    - destruct (ft_push dl di join joinl H t d) as [t' b]. eauto.
    - destruct (IH f ltac:(lia)) as (f1 & b & ->). eauto. }
  destruct INS as (f1 & b & INS).
  pose proof (fo_run_follows dl di join joinl ldeqb ideqb dg sh H HH ldeqb_spec ideqb_spec join_nd joinl_nd chk [OInsert x] f _ F0) as G.
  cbn [run FoSpec.fo_step] in G. rewrite INS in G. destruct G as (ss' & E1 & F1).
  change (run (fo_ref ldeqb dg sh H) (repeat (FS [] [] true) n) [OInsert x] = Some (ss', [b])) in E1.
  rewrite R1 in E1. injection E1 as <- <-.
  assert (Ht : exists t, nth_error f1 (sh x) = Some t).
  { destruct (nth_error f1 (sh x)) eqn:Q; eauto. apply nth_error_None in Q. rewrite (Forall2_len _ _ _ F1) in Q.
    apply nth_error_None in Q. congruence. }
  destruct Ht as (t & Ht). destruct (Forall2_nth_error _ _ _ _ _ F1 Ht) as (s' & Hs' & fb & g & I).
  rewrite R2 in Hs'. injection Hs' as <-.
  assert (LV : fs_leaves s = [dg x]) by (unfold fs_leaves; rewrite R3; reflexivity).
  pose proof (fi_strong _ _ _ _ _ _ _ _ _ I R4) as F.
  pose proof (ft_position_spec dl di join joinl ldeqb ideqb H HH ldeqb_spec ideqb_spec join_nd joinl_nd t s fb g (dg x) I) as P.
  destruct (ft_position ldeqb t (dg x)) as [i|] eqn:EP.
  2:{ destruct P as (_ & P). exfalso. apply P. rewrite R3. left. reflexivity. }
  destruct P as (NX & P).
  assert (Ei : i = 0). { rewrite LV in NX. destruct i as [|[|]]; [reflexivity|discriminate|discriminate]. }
  subst i.
  assert (PA : ft_path dl di join joinl H chk t 0 = Some (Some (Path 0 (nth (sibling 0) (fs_leaves s) dl) (spath dl di join joinl H (fs_leaves s) 0)))).
  { destruct P as [(C & _)|(C & PR & _)].
    - destruct (finv_path_high dl di join joinl ideqb H HH ideqb_spec join_nd joinl_nd chk t s fb g 0 I C) as (q & Q1 & Q2).
      rewrite (full_path_strong dl di join joinl H ltac:(lia) g _ 0 F) in Q2 by (rewrite LV; cbn; lia). injection Q2 as <-. exact Q1.
    - apply (finv_path_low dl di join joinl ideqb H HH ideqb_spec join_nd joinl_nd chk t s fb g 0 I C PR F). }
  assert (RT : ft_root di t = spec_root dl di join joinl H [dg x]).
  { destruct (shard_reports (td := true) dl di join joinl ideqb H HH ideqb_spec join_nd joinl_nd chk t s) as (_ & RT & _). { exists fb, g. auto. }
    rewrite <- LV. apply RT; [exact R4|]. rewrite R3. discriminate. }
  exists f, f1, t. eexists. split; [exact E0|]. split; [exact INS|]. split; [exact Ht|]. split; [exact RT|]. split.
  - unfold fo_prove. rewrite Ht, EP, PA. reflexivity.
  - cbn [p_inner]. split; [rewrite spath_length; reflexivity|].
    rewrite LV. rewrite spec_root_sd. change (dg x) with (nth 0 [dg x] dl) at 3. apply spath_root; [cbn; lia|].
    pose proof (pow2_pos (S (H - 2))). lia.
Qed.

End One.

Section Inj.
Context {LD ID : Type}.
Variable dl : LD.
Variable di : ID.
Variable join : ID -> ID -> ID.
Variable joinl : LD -> LD -> ID.
Hypothesis join_nd : forall a b, join a b <> di.
Hypothesis joinl_nd : forall a b, joinl a b <> di.
Hypothesis join_inj : forall a b c d, join a b = join c d -> a = c /\ b = d.
Hypothesis joinl_inj : forall a b c d, joinl a b = joinl c d -> a = c /\ b = d.

(** A tree with the root of a tree with one leaf is that tree. *)
Lemma one_leaf k : forall (x : LD) l, length l <= 2 ^ S k -> (forall y, In y l -> y <> dl) ->
  tree_digest dl di join joinl k [x] = tree_digest dl di join joinl k l -> l = [x].
Proof.
  induction k as [|k IH]; intros x l LL ND E.
  - destruct l as [|a [|b l]]; cbn [tree_digest] in E.
    + exfalso. apply (joinl_nd x dl). exact E.
    + apply joinl_inj in E. destruct E as (-> & _). reflexivity.
    + apply joinl_inj in E. destruct E as (_ & E). exfalso. apply (ND b); [right; left; reflexivity|]. congruence.
  - destruct l as [|a l]; [cbn [tree_digest] in E; exfalso; exact (join_nd _ _ E)|].
    cbn [tree_digest] in E. apply join_inj in E. destruct E as (E1 & E2).
    pose proof (pow2_pos (S k)) as PP.
    rewrite (firstn_all2 [x]) in E1 by (cbn [length]; lia). rewrite (skipn_all2 [x]) in E2 by (cbn [length]; lia).
    cbn [tree_digest] in E2.
    assert (NE : forall m, tree_digest dl di join joinl k m = di -> m = []).
    { intros m M. destruct m as [|y m]; [reflexivity|]. exfalso. destruct k; cbn [tree_digest] in M; [exact (joinl_nd _ _ M)|exact (join_nd _ _ M)]. }
    assert (E2' : tree_digest dl di join joinl k (skipn (2 ^ S k) (a :: l)) = di) by (destruct k; cbn [tree_digest] in E2; symmetry; exact E2).
    apply NE in E2'. assert (LS : length (a :: l) <= 2 ^ S k).
    { assert (X := f_equal (@length LD) E2'). rewrite skipn_length in X. cbn [length] in *. lia. }
    rewrite firstn_all2 in E1 by exact LS. apply IH; [exact LS|exact ND|exact E1].
Qed.
End Inj.
