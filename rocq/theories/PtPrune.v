(** Pruning a partial tree. *)
From Coq Require Import List Arith Bool ZArith ZifyNat ZifyBool Lia.
From Verif Require Import MtModel MtSpec MtLemmas MtInner MtInv MtBatch MtFull PtModel PtLeaf PtAgree PtSim.
Import ListNotations.
Ltac dlia := zify; Z.div_mod_to_equations; lia.

Lemma leaf_nodes_in H n k j : k + S (nd_depth n) = path_length H ->
  In j (leaf_nodes H n) <-> j / 2 ^ S k = nd_index n.
Proof.
  intro E. unfold leaf_nodes. cbv zeta. unfold path_length in E.
  replace (H - 2 - nd_depth n) with (S k) by lia. rewrite in_seq, under_iff.
  rewrite Nat.mul_add_distr_r. lia.
Qed.

Lemma half_under j k a : j / 2 ^ S (S k) = a / 2 <-> j / 2 ^ S k = a \/ j / 2 ^ S k = sibling a.
Proof.
  rewrite (div_pow_S j (S k)). split.
  - intro E. destruct (sibling_cases a) as [(_ & A1 & A2)|(_ & A1 & A2)]; dlia.
  - intros [->| ->]; auto. apply sibling_half.
Qed.

Section Hash.
Context {LD ID : Type}.
Variable di : ID.
Variable H : nat.
Notation L := (path_length H).
Notation partial := (@partial LD ID).
Notation full := (@full LD ID).
Notation Sim := (Sim di H).

Lemma imap_remove_same (m : imap ID) i : imap_remove m i i = None.
Proof. unfold imap_remove. now rewrite Nat.eqb_refl. Qed.
Lemma imap_remove_other (m : imap ID) i j : j <> i -> imap_remove m i j = m j.
Proof. intro. unfold imap_remove. destruct (Nat.eqb_spec j i); congruence. Qed.

Lemma remove_nodes_spec (lm : lmap LD) i : i < 2 ^ S L -> forall d k (m : imap ID), k + S d = L ->
  (forall j, j / 2 ^ S k = i / 2 ^ S k -> lm_mor lm j = true) ->
  let m' := remove_nodes H (inner_nodes d (i / 2 ^ S k)) 0 lm m in
  m' 0 = m 0 /\
  forall k' c, k' < L -> c < 2 ^ (L - k') -> needed (alive lm) k' c -> m' (idx L k' c) = m (idx L k' c).
Proof.
  intros Hi. induction d as [|d IH]; intros k m Hk D m'.
  all: assert (Hk' : k < L) by lia.
  all: set (a := i / 2 ^ S k) in *.
  all: assert (Ha : sibling a < 2 ^ (L - k)) by (apply sibling_path_lt; auto).
  all: assert (K : forall k' c, k' < L -> c < 2 ^ (L - k') -> needed (alive lm) k' c ->
      imap_remove m (idx L k (sibling a)) (idx L k' c) = m (idx L k' c)).
  1,3: intros k' c Hk'' Hc (j & J1 & J2); apply imap_remove_other; intro E;
       apply idx_inj in E; try lia; destruct E as [-> ->]; rewrite sibling_invol in J1;
       apply D in J1; unfold alive in J2; congruence.
  all: assert (Z : imap_remove m (idx L k (sibling a)) 0 = m 0)
         by (apply imap_remove_other; intro E; symmetry in E; revert E; apply idx_pos; auto).
  - unfold m'. cbn [inner_nodes remove_nodes]. unfold inode_sibling. cbn [nd_depth nd_index].
    rewrite (idx_map_index L k) by auto.
    destruct (existsb _ _); split; auto.
  - unfold m'. cbn [inner_nodes remove_nodes]. unfold inode_sibling. cbn [nd_depth nd_index].
    rewrite (idx_map_index L k) by auto.
    destruct (existsb _ _) eqn:EX; [split; auto|].
    unfold parent. unfold a. rewrite <- div_pow_S.
    specialize (IH (S k) (imap_remove m (idx L k (sibling a))) ltac:(lia)). cbv zeta in IH.
    destruct IH as [I0 IX].
    { intros j Hj. rewrite (div_pow_S i (S k)) in Hj. fold a in Hj. apply half_under in Hj.
      destruct Hj as [Hj|Hj]; [apply D; auto|].
      destruct (lm_mor lm j) eqn:M; auto. exfalso.
      assert (T : existsb (fun x => negb (lm_mor lm (x - 0))) (leaf_nodes H (INode (S d) (sibling a))) = true).
      { apply existsb_exists. exists j. split.
        - apply (leaf_nodes_in H _ k); auto.
        - rewrite Nat.sub_0_r, M. reflexivity. }
      congruence. }
    split.
    + etransitivity; [exact I0|exact Z].
    + intros k' c Hk2 Hc Hn. etransitivity; [apply IX; auto|apply K; auto].
Qed.

Lemma removed_pair_nth (lm : lmap LD) i : lm_mor lm i = true -> lm_mor lm (sibling i) = true ->
  forall j, nth_error (lm_remove (lm_remove lm i) (sibling i)) j =
    if (j =? i) || (j =? sibling i) then Some None else nth_error lm j.
Proof.
  intros D1 D2 j. apply lm_mor_iff in D1. apply lm_mor_iff in D2.
  rewrite lm_remove_nth by (rewrite lm_remove_length; lia). rewrite lm_remove_nth by lia.
  destruct (j =? sibling i), (j =? i); auto.
Qed.

Lemma remove_at_lm (t : partial) i : pt_lm (pt_remove_at H t i) =
  if lm_mor (pt_lm t) (sibling i) && lm_mor (pt_lm t) i
  then lm_remove (lm_remove (pt_lm t) i) (sibling i) else pt_lm t.
Proof. unfold pt_remove_at. destruct (_ && _); reflexivity. Qed.

Lemma remove_at_mor (t : partial) i j : lm_mor (pt_lm (pt_remove_at H t i)) j = lm_mor (pt_lm t) j.
Proof.
  rewrite remove_at_lm. destruct (_ && _) eqn:E; auto. apply andb_true_iff in E. destruct E as [E1 E2].
  rewrite lm_mor_remove; rewrite lm_mor_remove; auto.
Qed.

Lemma sim_remove_at (t : partial) (f : full) i : full_len f <= capacity H ->
  Sim false t f -> Sim false (pt_remove_at H t i) f.
Proof.
  intros Hcap SM. unfold pt_remove_at. destruct (_ && _) eqn:E; auto.
  apply andb_true_iff in E. destruct E as [E2 E1].
  pose proof (removed_pair_nth _ _ E1 E2) as N.
  assert (ML : length (lm_remove (lm_remove (pt_lm t) i) (sibling i)) = length (pt_lm t))
    by now rewrite !lm_remove_length.
  assert (MM : forall j, lm_mor (lm_remove (lm_remove (pt_lm t) i) (sibling i)) j = lm_mor (pt_lm t) j)
    by (intro j; rewrite lm_mor_remove; rewrite lm_mor_remove; auto).
  pose proof (proj1 (lm_mor_iff _ _) E1) as [I1 _]. pose proof (proj1 (lm_mor_iff _ _) E2) as [I2 _].
  set (lm := lm_remove (lm_remove (pt_lm t) i) (sibling i)) in *. clearbody lm.
  pose proof (sim_length _ _ _ _ _ SM) as EL. pose proof (capacity_le H) as CL. unfold full_len in Hcap.
  assert (Hi : i < 2 ^ S L) by lia.
  assert (R : forall m' : imap ID, m' = remove_nodes H (inner_nodes_from_leaf H (i + pt_start t)) (pt_start t) lm (pt_map t) ->
    m' 0 = pt_map t 0 /\
    forall k' c, k' < L -> c < 2 ^ (L - k') -> needed (alive lm) k' c -> m' (idx L k' c) = pt_map t (idx L k' c)).
  { intros m' ->. rewrite (sim_start _ _ _ _ _ SM), Nat.add_0_r. unfold inner_nodes_from_leaf.
    destruct (path_length H) as [|d] eqn:EP; [split; auto|].
    change (parent i) with (i / 2 ^ 1). rewrite <- EP in *.
    apply (remove_nodes_spec lm i Hi d 0); [lia|].
    change (2 ^ 1) with 2. intros j Hj. rewrite MM.
    destruct (Nat.eq_dec j i) as [->|]; auto.
    assert (j = sibling i) as -> by (destruct (sibling_cases i) as [(_ & A1 & A2)|(_ & A1 & A2)]; dlia).
    auto. }
  destruct (R _ eq_refl) as [R0 RX]. clear R.
  set (m' := remove_nodes _ _ _ _ _) in *. clearbody m'.
  split; cbn [pt_start pt_lm pt_map].
  - apply SM.
  - split; [rewrite ML; apply (sim_length _ _ _ _ _ SM)|].
    intros j b x. rewrite N. destruct (_ || _); [discriminate|]. apply (proj2 (sim_leaf _ _ _ _ _ SM)).
  - intros j. rewrite !N, ML. intro J.
    assert (Hs : (sibling j =? i) || (sibling j =? sibling i) = (j =? i) || (j =? sibling i)).
    { rewrite orb_comm. f_equal; apply eq_true_iff_eq; rewrite !Nat.eqb_eq; split; intro Q.
      - rewrite <- (sibling_invol j), Q. apply sibling_invol.
      - now subst.
      - rewrite <- Q. now rewrite sibling_invol.
      - subst j. apply sibling_invol. }
    rewrite Hs. destruct ((j =? i) || (j =? sibling i)) eqn:Q.
    + apply orb_true_iff in Q. rewrite !Nat.eqb_eq in Q. destruct Q as [->| ->]; rewrite ?sibling_invol; auto.
    + apply (sim_rem _ _ _ _ _ SM) in J. exact J.
  - intros k c Hk Hc Hn. unfold agree, gos. rewrite (RX k c) by auto.
    apply (sim_node _ _ _ _ _ SM); auto. destruct Hn as (j & J1 & J2). exists j. split; auto.
    cbn [liv] in *. unfold alive in *. rewrite <- MM. auto.
  - unfold agree, gos. rewrite R0. apply (sim_root _ _ _ _ _ SM).
Qed.

Lemma removals_spec (f : full) : full_len f <= capacity H -> forall l (t : partial),
  Sim false t f ->
  let t' := fold_left (pt_remove_at H) l t in
  Sim false t' f /\
  (forall j, lm_mor (pt_lm t') j = lm_mor (pt_lm t) j) /\
  (forall j, nth_error (pt_lm t') j = Some None \/ nth_error (pt_lm t') j = nth_error (pt_lm t) j) /\
  (forall j, alive (pt_lm t) j \/ alive (pt_lm t) (sibling j) -> nth_error (pt_lm t') j = nth_error (pt_lm t) j) /\
  (forall j, In j l -> lm_mor (pt_lm t) j = true -> lm_mor (pt_lm t) (sibling j) = true ->
     nth_error (pt_lm t') j = Some None).
Proof.
  intro Hcap. induction l as [|i l IH]; intros t SM t'.
  - unfold t'. cbn [fold_left]. split; auto. split; auto. split; auto. split; auto. intros j [].
  - unfold t'. cbn [fold_left]. destruct (IH _ (sim_remove_at t f i Hcap SM)) as (I1 & I2 & I3 & I4 & I5).
    assert (P : forall j, alive (pt_lm t) j \/ alive (pt_lm t) (sibling j) ->
      nth_error (pt_lm (pt_remove_at H t i)) j = nth_error (pt_lm t) j).
    { intros j A. rewrite remove_at_lm. destruct (_ && _) eqn:E; auto.
      apply andb_true_iff in E. destruct E as [E1 E2]. rewrite removed_pair_nth by auto.
      unfold alive in A.
      destruct (Nat.eqb_spec j i) as [->|]; cbn [orb]; [exfalso; destruct A; congruence|].
      destruct (Nat.eqb_spec j (sibling i)) as [->|]; auto.
      exfalso. rewrite sibling_invol in A. destruct A; congruence. }
    split; auto. split.
    { intro j. rewrite I2. apply remove_at_mor. }
    split.
    { intro j. destruct (I3 j) as [E|E]; auto. rewrite E, remove_at_lm.
      destruct (_ && _) eqn:D; auto. apply andb_true_iff in D. destruct D as [D1 D2].
      rewrite removed_pair_nth by auto. destruct (_ || _); auto. }
    split.
    { intros j A. rewrite I4; auto. unfold alive in *. rewrite !remove_at_mor. auto. }
    intros j [->|Hj] D1 D2.
    + destruct (I3 j) as [E|E]; auto. rewrite E, remove_at_lm, D1, D2. cbn [andb].
      rewrite removed_pair_nth by auto. now rewrite Nat.eqb_refl.
    + apply I5; rewrite ?remove_at_mor; auto.
Qed.

(** Pruning keeps the tree in step with the full tree, whatever its state before, and leaves
    every entry that it keeps with all its nodes. *)
Lemma sim_prune td (t : partial) (f : full) : full_len f <= capacity H ->
  Sim td t f -> Sim true (pt_prune H t) f /\
  (forall j, lm_mor (pt_lm (pt_prune H t)) j = lm_mor (pt_lm t) j) /\
  (forall j, nth_error (pt_lm (pt_prune H t)) j = Some None \/
             nth_error (pt_lm (pt_prune H t)) j = nth_error (pt_lm t) j) /\
  (forall j, alive (pt_lm t) j \/ alive (pt_lm t) (sibling j) ->
             nth_error (pt_lm (pt_prune H t)) j = nth_error (pt_lm t) j).
Proof.
  intros Hcap SM0. assert (SM : Sim false t f) by (destruct td; [apply sim_weaken|]; auto).
  unfold pt_prune. destruct (lm_current (pt_lm t)) as [c|] eqn:EC.
  - apply lm_current_some in EC.
    set (l := filter _ _).
    destruct (removals_spec f Hcap l t SM) as (I1 & I2 & I3 & I4 & I5).
    split; [|auto].
    assert (P : forall j, present (pt_lm (fold_left (pt_remove_at H) l t)) j ->
       alive (pt_lm t) j \/ alive (pt_lm t) (sibling j)).
    { intros j Pj. unfold alive. destruct (lm_mor (pt_lm t) j) eqn:D1; auto.
      destruct (lm_mor (pt_lm t) (sibling j)) eqn:D2; auto. exfalso. apply Pj.
      pose proof (proj1 (lm_mor_iff _ _) D1) as [Hj [E|[x E]]].
      - destruct (I3 j) as [E'|E']; congruence.
      - apply I5; auto. unfold l. apply filter_In. split; [apply in_seq; lia|].
        unfold lm_is_marked, lm_entry. rewrite E. reflexivity. }
    split; try apply I1.
    intros k i Hk Hi (j & J1 & J2). apply (sim_node _ _ _ _ _ I1); auto.
    cbn [liv] in J2. destruct (P j J2) as [A|A].
    + exists j. split; auto. cbn [liv]. unfold alive. now rewrite I2.
    + exists (sibling j). split; [|cbn [liv]; unfold alive; now rewrite I2].
      rewrite <- J1. clear. induction k as [|k IH].
      * change (2 ^ 1) with 2. apply sibling_half.
      * rewrite (div_pow_S _ (S k)), IH. symmetry. apply (div_pow_S _ (S k)).
  - assert (length (pt_lm t) = 0) by (unfold lm_current in EC; destruct (length (pt_lm t)); congruence).
    split; [|auto]. split; try apply SM.
    intros k i Hk Hi (j & J1 & J2). apply (sim_node _ _ _ _ _ SM); auto. exists j. split; auto.
    apply liv_ge. lia.
Qed.
End Hash.
