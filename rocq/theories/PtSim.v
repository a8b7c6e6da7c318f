(** A partial tree simulates a full tree: they agree on the root and on every node that a
    leaf still kept can need. *)
From Coq Require Import List Arith Bool ZArith ZifyNat ZifyBool Lia.
From Verif Require Import MtModel MtSpec MtLemmas MtInner MtInv MtBatch MtFull PtModel PtLeaf PtAgree.
Import ListNotations.
Ltac dlia := zify; Z.div_mod_to_equations; lia.

Lemma capacity_le H : capacity H <= 2 ^ S (path_length H).
Proof. unfold capacity, path_length. apply Nat.pow_le_mono_r; lia. Qed.

Lemma idx_pos L k i : k < L -> idx L k i <> 0.
Proof.
  intro Hk. unfold idx. replace (L - k) with (S (L - S k)) by lia.
  pose proof (pow2_S (L - S k)). pose proof (pow2_pos (L - S k)). lia.
Qed.

Section LM.
Context {LD : Type}.
Implicit Types lm : lmap LD.

(** A leaf whose entry was not removed; a leaf that is not dead. *)
Definition present lm (j : nat) : Prop := nth_error lm j <> Some None.
Definition alive lm (j : nat) : Prop := lm_mor lm j = false.
Definition liv (td : bool) lm (j : nat) : Prop := if td then present lm j else alive lm j.

Lemma liv_ge td lm j : length lm <= j -> liv td lm j.
Proof.
  intro Hj. destruct td; cbn [liv].
  - unfold present. rewrite (proj2 (nth_error_None lm j) Hj). discriminate.
  - apply lm_mor_false_ge. lia.
Qed.

(** Removals come in pairs and never touch the last leaf. *)
Definition removed_ok lm : Prop := forall i, nth_error lm i = Some None ->
  S i < length lm /\ S (sibling i) < length lm /\ nth_error lm (sibling i) = Some None.

Lemma liv_current td lm c : removed_ok lm -> length lm = S c -> liv td lm c.
Proof.
  intros R E. destruct td; cbn [liv].
  - intro F. apply R in F. lia.
  - apply lm_mor_false_ge. lia.
Qed.

Lemma mor_none lm i : removed_ok lm -> nth_error lm i = Some None -> lm_mor lm i = true.
Proof. intros R E. apply lm_mor_iff. split; auto. apply R; auto. Qed.

Lemma liv_present td lm j : removed_ok lm -> liv td lm j -> present lm j.
Proof.
  intros R. destruct td; cbn [liv]; auto. intros A E. apply (mor_none _ _ R) in E.
  unfold alive in A. congruence.
Qed.

Lemma alive_liv td lm j : removed_ok lm -> alive lm j -> liv td lm j.
Proof. intros R A. destruct td; auto. apply (liv_present false); auto. Qed.

(** Appending entries and marking only ever kills leaves. *)
Lemma liv_ext td lm lm' :
  length lm <= length lm' ->
  (forall j, j < length lm -> nth_error lm j = Some None -> nth_error lm' j = Some None) ->
  (forall j x, j < length lm -> nth_error lm j = Some (Some (true, x)) ->
     nth_error lm' j = Some (Some (true, x))) ->
  forall j, liv td lm' j -> liv td lm j.
Proof.
  intros Hl Hn Hm j. destruct td; cbn [liv].
  - unfold present. intros A B. assert (j < length lm) by (apply nth_error_Some; congruence). auto.
  - unfold alive. intro A. destruct (lm_mor lm j) eqn:B; auto. apply lm_mor_iff in B.
    destruct B as [B1 B2]. rewrite <- A. symmetry. apply lm_mor_iff. split; [lia|].
    destruct B2 as [B2|[x B2]]; [left; apply Hn; auto; lia|right; exists x; apply Hm; auto; lia].
Qed.
End LM.

Section Hash.
Context {LD ID : Type}.
Variable dl : LD.
Variable di : ID.
Variable join : ID -> ID -> ID.
Variable joinl : LD -> LD -> ID.
Variable H : nat.
Notation L := (path_length H).
Notation partial := (@partial LD ID).
Notation full := (@full LD ID).
Implicit Types t : partial.
Implicit Types f : full.

Definition leaves_agree (lm : lmap LD) (ls : list LD) : Prop :=
  length lm = length ls /\
  forall i b x, nth_error lm i = Some (Some (b, x)) -> nth_error ls i = Some x.

Definition nodes_agree (live : nat -> Prop) (m m' : imap ID) : Prop :=
  forall k i, k < L -> i < 2 ^ (L - k) -> needed live k i -> agree di m m' (idx L k i).

Record Sim (td : bool) t f : Prop := {
  sim_start : pt_start t = 0;
  sim_leaf : leaves_agree (pt_lm t) (f_leaves f);
  sim_rem : removed_ok (pt_lm t);
  sim_node : nodes_agree (liv td (pt_lm t)) (pt_map t) (f_map f);
  sim_root : agree di (pt_map t) (f_map f) 0
}.

(** The same without the root and the nodes above the next leaf, which the next insertion
    overwrites anyway. *)
Record SimW (td : bool) t f : Prop := {
  simw_start : pt_start t = 0;
  simw_leaf : leaves_agree (pt_lm t) (f_leaves f);
  simw_rem : removed_ok (pt_lm t);
  simw_node : forall k i, k < L -> i < 2 ^ (L - k) -> needed (liv td (pt_lm t)) k i ->
    length (f_leaves f) / 2 ^ S k <> i -> agree di (pt_map t) (f_map f) (idx L k i)
}.

Lemma sim_simw td t f : Sim td t f -> SimW td t f.
Proof. intros [A B C D E]. split; auto. Qed.

Lemma sim_weaken t f : Sim true t f -> Sim false t f.
Proof.
  intros [A B C D E]. split; auto. intros k i Hk Hi (j & J1 & J2). apply D; auto.
  exists j. split; auto. apply (liv_present false); auto.
Qed.

Lemma sim_new td : Sim td (pt_new : partial) full_new.
Proof.
  split; cbn [pt_new full_new pt_start pt_lm pt_map f_leaves f_map]; auto.
  - split; auto. intros [|i] b x E; discriminate E.
  - intros [|i] E; discriminate E.
  - intros k i _ _ _. reflexivity.
  - reflexivity.
Qed.

Section SM.
Variables (td : bool) (t : partial) (f : full).
Hypothesis SM : SimW td t f.

Lemma simw_length : length (pt_lm t) = length (f_leaves f).
Proof. apply SM. Qed.

Lemma simw_len : pt_len t = full_len f.
Proof.
  unfold pt_len, full_len. rewrite (simw_start _ _ _ SM). unfold lm_current.
  rewrite simw_length. destruct (length (f_leaves f)); lia.
Qed.

(** The leaf read as the sibling of a present leaf. *)
Lemma simw_sibling j : present (pt_lm t) j -> pt_leaf_sibling t j = full_leaf_sibling f j.
Proof.
  intro P. unfold pt_leaf_sibling, full_leaf_sibling. rewrite (simw_start _ _ _ SM), Nat.sub_0_r.
  unfold lm_get, lm_entry. destruct (nth_error (pt_lm t) (sibling j)) as [[[b x]|]|] eqn:E.
  - symmetry. apply (proj2 (simw_leaf _ _ _ SM)) in E. exact E.
  - exfalso. apply (simw_rem _ _ _ SM) in E. rewrite sibling_invol in E. apply P, E.
  - symmetry. apply nth_error_None in E. rewrite simw_length in E. now apply nth_error_None.
Qed.

Lemma simw_insert_nodes n : length (pt_lm t) = n -> n < 2 ^ S L ->
  forall nd, In nd (inner_nodes_from_leaf H n) -> agree di (pt_map t) (f_map f) (map_index (inode_sibling nd)).
Proof.
  intros En Hn.
  assert (E : map (fun nd => gos di (pt_map t) (map_index (inode_sibling nd))) (inner_nodes_from_leaf H n) =
              map (fun nd => gos di (f_map f) (map_index (inode_sibling nd))) (inner_nodes_from_leaf H n)).
  { rewrite (inner_nodes_from_leaf_map H (fun k i => gos di (pt_map t) (idx L k (sibling i)))).
    - rewrite (inner_nodes_from_leaf_map H (fun k i => gos di (f_map f) (idx L k (sibling i)))).
      + apply map_ext_in. intros k Hk. apply in_seq in Hk. apply (simw_node _ _ _ SM); [lia| | |].
        * apply sibling_path_lt; auto. lia.
        * apply sibling_path_needed. apply liv_ge. lia.
        * rewrite <- simw_length, En. intro Q. apply (sibling_neq (n / 2 ^ S k)). auto.
      + intros k d Hk. unfold inode_sibling. cbn [nd_depth nd_index]. now rewrite (idx_map_index L k).
    - intros k d Hk. unfold inode_sibling. cbn [nd_depth nd_index]. now rewrite (idx_map_index L k). }
  intros nd Hin. revert E Hin.
  induction (inner_nodes_from_leaf H n) as [|a l IH]; intros E Hin; [destruct Hin|]; destruct Hin as [->|Hin]; cbn [map] in E.
  - injection E as E1 E2. exact E1.
  - injection E as E1 E2. auto.
Qed.

Lemma simw_after n : length (pt_lm t) = n -> agree_after di H n (pt_map t) (f_map f).
Proof.
  intros Hn k c Hk Hc Ha Hca. apply (simw_node _ _ _ SM); auto; [|rewrite <- simw_length, Hn; auto].
  set (a := n / 2 ^ S k) in *.
  destruct (Nat.eq_dec c (sibling a)) as [->|Hs].
  - exists n. rewrite sibling_invol. split; auto. apply liv_ge. lia.
  - exists (sibling c * 2 ^ S k). split.
    + apply Nat.div_mul. pose proof (pow2_pos (S k)). lia.
    + apply liv_ge. rewrite Hn.
      assert (a < sibling c).
      { destruct (sibling_cases a) as [(_ & A1 & A2)|(_ & A1 & A2)];
        destruct (sibling_cases c) as [(_ & C1 & C2)|(_ & C1 & C2)]; lia. }
      pose proof (proj1 (under_iff n k a) eq_refl) as U.
      assert ((a + 1) * 2 ^ S k <= sibling c * 2 ^ S k) by (apply Nat.mul_le_mono_r; lia).
      lia.
Qed.
End SM.

Section SS.
Variables (td : bool) (t : partial) (f : full).
Hypothesis SM : Sim td t f.

Lemma sim_length : length (pt_lm t) = length (f_leaves f).
Proof. apply SM. Qed.

Lemma sim_len : pt_len t = full_len f.
Proof. apply (simw_len td). apply sim_simw; auto. Qed.

Lemma sim_root_eq : pt_root di t = full_root di f.
Proof. exact (sim_root _ _ _ SM). Qed.

Lemma sim_sibling j : present (pt_lm t) j -> pt_leaf_sibling t j = full_leaf_sibling f j.
Proof. apply (simw_sibling td). apply sim_simw; auto. Qed.

Lemma sim_path_nodes n : n < 2 ^ S L -> liv td (pt_lm t) n ->
  forall k, k < L -> agree di (pt_map t) (f_map f) (idx L k (sibling (n / 2 ^ S k))).
Proof.
  intros Hn Ln k Hk. apply (sim_node _ _ _ SM); auto.
  - apply sibling_path_lt; auto.
  - apply sibling_path_needed; auto.
Qed.

Lemma sim_path_iter n : n < 2 ^ S L -> liv td (pt_lm t) n ->
  path_iter_for_leaf di H (pt_map t) n = path_iter_for_leaf di H (f_map f) n.
Proof.
  intros Hn Ln. rewrite !path_iter_eq. apply map_ext_in. intros k Hk. apply in_seq in Hk.
  apply sim_path_nodes; auto; lia.
Qed.

End SS.

(** *** Insertion of one leaf *)
Lemma simw_push td t f d : SimW td t f -> full_len f < capacity H ->
  Sim td (fst (pt_push dl di join joinl H t d)) (fst (full_push dl di join joinl H f d)) /\
  snd (pt_push dl di join joinl H t d) = true /\ snd (full_push dl di join joinl H f d) = true.
Proof.
  intros SM Hc0. unfold pt_push, full_push. cbv zeta. rewrite (simw_len _ _ _ SM).
  destruct (Nat.leb_spec (capacity H) (full_len f)) as [Hc|Hc]; [lia|].
  cbn [fst snd]. split; auto. clear Hc0.
  pose proof (capacity_le H) as CL.
  pose proof (simw_length _ _ _ SM) as EL. unfold full_len in *.
  set (n := length (f_leaves f)) in *.
  assert (Ln : liv td (pt_lm t) n) by (apply liv_ge; lia).
  assert (ES : pt_leaf_sibling t n = full_leaf_sibling f n).
  { apply (simw_sibling td); auto. apply (liv_present td); auto. apply SM. }
  unfold pt_push_leaf, full_push_leaf. unfold full_len. fold n. rewrite ES.
  set (base := node_join_leaves joinl n d _).
  destruct (inner_insert_agree dl di join joinl H (pt_map t) (f_map f) n base) as (A0 & AX & AP).
  { apply (simw_insert_nodes td); auto. lia. }
  split; cbn [pt_start pt_lm pt_map f_leaves f_map].
  - apply SM.
  - split.
    + rewrite lm_push_length, app_length. cbn [length]. lia.
    + intros i b x E. unfold lm_push in E. destruct (Nat.lt_ge_cases i n).
      * rewrite nth_error_app1 in * by lia. eapply (proj2 (simw_leaf _ _ _ SM)); eauto.
      * rewrite nth_error_app2 in * by lia. rewrite EL in E. fold n.
        destruct (i - n) as [|[|q]]; cbn [nth_error] in *; congruence.
  - intros i E. unfold lm_push in *. rewrite app_length. cbn [length].
    destruct (Nat.lt_ge_cases i n).
    + rewrite nth_error_app1 in E by lia. apply (simw_rem _ _ _ SM) in E. destruct E as (E1 & E2 & E3).
      repeat split; try lia. rewrite nth_error_app1 by lia. auto.
    + rewrite nth_error_app2 in E by lia. destruct (i - length (pt_lm t)) as [|[|q]]; cbn [nth_error] in E; congruence.
  - intros k i Hk Hi (j & J1 & J2). destruct (Nat.eq_dec (n / 2 ^ S k) i) as [<-|Hno].
    { rewrite <- (idx_map_index L k (L - S k)) by lia. apply AP.
      assert (IN2 : In (INode (L - S k) (n / 2 ^ S k))
        (map (fun nd => INode (nd_depth nd) (nd_index nd)) (inner_nodes_from_leaf H n))).
      { rewrite (inner_nodes_from_leaf_map H (fun k' i => INode (L - S k') i)).
        - apply in_map_iff. exists k. split; auto. apply in_seq. lia.
        - intros k' d' Hk'. cbn [nd_depth nd_index]. f_equal. lia. }
      apply in_map_iff in IN2. destruct IN2 as ([dd ii] & Q1 & Q2). cbn [nd_depth nd_index] in Q1.
      rewrite <- Q1. exact Q2. }
    apply AX. apply (simw_node _ _ _ SM); auto. exists j. split; auto.
    revert J2. apply liv_ext.
    + rewrite lm_push_length. lia.
    + intros q Hq E. unfold lm_push. now rewrite nth_error_app1.
    + intros q x Hq E. unfold lm_push. now rewrite nth_error_app1.
  - exact A0.
Qed.

Lemma sim_push td t f d : Sim td t f ->
  Sim td (fst (pt_push dl di join joinl H t d)) (fst (full_push dl di join joinl H f d)) /\
  snd (pt_push dl di join joinl H t d) = snd (full_push dl di join joinl H f d).
Proof.
  intro SM. destruct (Nat.lt_ge_cases (full_len f) (capacity H)) as [C|C].
  - destruct (simw_push td t f d (sim_simw _ _ _ SM) C) as (A & B1 & B2). split; auto. congruence.
  - unfold pt_push, full_push. cbv zeta. rewrite (sim_len _ _ _ SM).
    destruct (Nat.leb_spec (capacity H) (full_len f)); [split; auto|lia].
Qed.

(** *** Marking *)
Lemma sim_mark td t f i : Sim td t f -> Sim td (pt_mark t i) f.
Proof.
  intros SM. unfold pt_mark. split; cbn [pt_start pt_lm pt_map].
  - apply SM.
  - split.
    + rewrite lm_mark_length. apply (sim_length _ _ _ SM).
    + intros j b x E. rewrite lm_mark_nth in E. destruct (Nat.eqb j i).
      * destruct (nth_error (pt_lm t) j) as [[[b' y]|]|] eqn:F; inversion E; subst.
        eapply (proj2 (sim_leaf _ _ _ SM)); eauto.
      * eapply (proj2 (sim_leaf _ _ _ SM)); eauto.
  - intros j E. rewrite lm_mark_nth in E. rewrite !lm_mark_length, lm_mark_nth.
    assert (E' : nth_error (pt_lm t) j = Some None).
    { destruct (Nat.eqb j i); auto. destruct (nth_error (pt_lm t) j) as [[[b' y]|]|]; congruence. }
    apply (sim_rem _ _ _ SM) in E'. destruct E' as (E1 & E2 & E3). repeat split; auto.
    rewrite E3. now destruct (Nat.eqb (sibling j) i).
  - intros k j Hk Hj (q & Q1 & Q2). apply (sim_node _ _ _ SM); auto. exists q. split; auto.
    revert Q2. apply liv_ext.
    + rewrite lm_mark_length. lia.
    + intros p Hp E. rewrite lm_mark_nth, E. destruct (Nat.eqb _ _); auto.
    + intros p x Hp E. rewrite lm_mark_nth, E. destruct (Nat.eqb _ _); auto.
  - apply SM.
Qed.

Lemma sim_marks td f l : forall t, Sim td t f -> Sim td (fold_left pt_mark l t) f.
Proof. induction l; intros t SM; cbn [fold_left]; auto. apply IHl, sim_mark; auto. Qed.

Lemma sim_push_np td t f d : Sim td t f ->
  Sim td (fst (pt_push_np dl di join joinl H t d)) (fst (full_push dl di join joinl H f d)) /\
  snd (pt_push_np dl di join joinl H t d) = snd (full_push dl di join joinl H f d).
Proof.
  intro SM. pose proof (sim_push td t f d SM) as [A B]. unfold pt_push_np.
  destruct (pt_push dl di join joinl H t d) as [t' b]. cbn [fst snd] in *. split; auto.
  apply sim_mark; auto.
Qed.

(** *** Batches *)
Lemma sim_batch_leaves td t f (ds : list LD) : SimW td t f -> ds <> [] ->
  full_len f + length ds <= 2 ^ S L ->
  let r := NRange (full_len f) (length ds - 1) in
  exists t' f', pt_batch_leaves dl di join joinl H t r ds = Some t' /\
    full_batch_leaves dl di join joinl H f r ds = Some f' /\ Sim td t' f'.
Proof.
  intros SM Hne Hcap r. pose proof (simw_length _ _ _ SM) as EL. unfold full_len in *.
  set (n := length (f_leaves f)) in *. set (last := n + (length ds - 1)).
  assert (Hc : 1 <= length ds) by (destruct ds; [congruence|cbn [length]; lia]).
  unfold r. replace (length ds - 1) with (last - n) by (unfold last; lia).
  assert (Hlen : length ds = S (last - n)) by (unfold last; lia).
  assert (Hnl : n <= last) by (unfold last; lia).
  assert (Hlast : last < 2 ^ S L) by lia.
  clearbody last.
  unfold pt_batch_leaves, full_batch_leaves.
  rewrite (range_join_leaves_get dl join joinl n last ds (pt_leaf_sibling t) (full_leaf_sibling f)); auto.
  2:{ intros _. apply (simw_sibling td); auto. apply (liv_present td); [apply SM|]. apply liv_ge. lia. }
  2:{ intros _. apply (simw_sibling td); auto. apply (liv_present td); [apply SM|]. apply liv_ge. lia. }
  destruct (range_join_leaves dl joinl (NRange n (last - n)) ds (full_leaf_sibling f)) as [base|] eqn:EB.
  2:{ unfold range_join_leaves in EB. destruct ds; [congruence|discriminate]. }
  assert (Hb : base <> []) by (apply (range_join_leaves_nonnil dl di join joinl n last ds (full_leaf_sibling f)); auto).
  pose proof (inner_batch_insert_agree dl di join joinl H n last (pt_map t) (f_map f) base Hnl Hlast Hb
    (simw_after td t f SM n EL)) as G. cbv zeta in G.
  destruct (inner_batch_insert di join H (pt_map t) _ base) as [m1|]; [|contradiction].
  destruct (inner_batch_insert di join H (f_map f) _ base) as [m2|]; [|contradiction].
  destruct G as (G0 & GX & GP).
  eexists; eexists; split; [reflexivity|split; [reflexivity|]].
  split; cbn [pt_start pt_lm pt_map f_leaves f_map]; rewrite ?lm_extend_eq.
  - apply SM.
  - split.
    + rewrite !app_length, map_length. lia.
    + intros i b x E. destruct (Nat.lt_ge_cases i n).
      * rewrite nth_error_app1 in * by lia. eapply (proj2 (simw_leaf _ _ _ SM)); eauto.
      * rewrite nth_error_app2 in * by lia. rewrite EL in E. fold n.
        rewrite nth_error_map in E. destruct (nth_error ds (i - n)); cbn [option_map] in E; congruence.
  - intros i E. rewrite app_length, map_length.
    destruct (Nat.lt_ge_cases i n).
    + rewrite nth_error_app1 in E by lia. apply (simw_rem _ _ _ SM) in E. destruct E as (E1 & E2 & E3).
      repeat split; try lia. rewrite nth_error_app1 by lia. auto.
    + rewrite nth_error_app2, nth_error_map in E by lia.
      destruct (nth_error ds (i - length (pt_lm t))); cbn [option_map] in E; congruence.
  - intros k i Hk Hi (j & J1 & J2). destruct (Nat.eq_dec (n / 2 ^ S k) i) as [<-|Hno]; [apply GP; auto|].
    apply GX. apply (simw_node _ _ _ SM); auto. exists j. split; auto.
    revert J2. apply liv_ext.
    + rewrite app_length. lia.
    + intros q Hq E. now rewrite nth_error_app1.
    + intros q x Hq E. now rewrite nth_error_app1.
  - exact G0.
Qed.

Lemma simw_batch td t f ds : SimW td t f -> ds <> [] -> full_len f < capacity H ->
  exists t' f' o, pt_batch dl di join joinl H t ds = Some (t', o) /\
    full_batch dl di join joinl H f ds = Some (f', option_map fst o) /\ Sim td t' f' /\
    (forall b n, o = Some (b, n) -> n = length (f_leaves f') - length (f_leaves f)).
Proof.
  intros SM Hne HC. unfold pt_batch, full_batch. destruct ds as [|d0 ds0]; [congruence|].
  remember (d0 :: ds0) as ds eqn:Eds. cbv zeta. rewrite (simw_len _ _ _ SM).
  pose proof (capacity_le H) as CL.
  destruct (Nat.ltb_spec (capacity H) (full_len f + length ds)).
  - destruct (Nat.eqb_spec (capacity H - full_len f) 0).
    { lia. }
    destruct (sim_batch_leaves td t f (firstn (capacity H - full_len f) ds) SM) as (t' & f' & E1 & E2 & SM').
    { intro F. apply (f_equal (@length LD)) in F. rewrite firstn_length in F. cbn [length] in F.
      assert (length ds <> 0) by (destruct ds; [congruence|discriminate]). lia. }
    { rewrite firstn_length. lia. }
    rewrite firstn_length, Nat.min_l in E1, E2 by lia.
    rewrite E1, E2. exists t', f', (Some (false, capacity H - full_len f)).
    split; [reflexivity|]. split; [reflexivity|]. split; auto.
    intros b n0 E. injection E as _ <-.
    unfold full_batch_leaves in E2. destruct (range_join_leaves dl joinl _ _ _); [|discriminate].
    destruct (inner_batch_insert di join H (f_map f) _ l); [|discriminate]. injection E2 as <-.
    cbn [f_leaves]. rewrite app_length, firstn_length. unfold full_len in *. lia.
  - destruct (sim_batch_leaves td t f ds SM Hne ltac:(lia)) as (t' & f' & E1 & E2 & SM').
    rewrite E1, E2. exists t', f', (Some (true, length ds)).
    split; [reflexivity|]. split; [reflexivity|]. split; auto.
    intros b n0 E. injection E as _ <-.
    unfold full_batch_leaves in E2. destruct (range_join_leaves dl joinl _ _ _); [|discriminate].
    destruct (inner_batch_insert di join H (f_map f) _ l); [|discriminate]. injection E2 as <-.
    cbn [f_leaves]. rewrite app_length. lia.
Qed.

Lemma sim_batch td t f ds : Sim td t f ->
  exists t' f' o, pt_batch dl di join joinl H t ds = Some (t', o) /\
    full_batch dl di join joinl H f ds = Some (f', option_map fst o) /\ Sim td t' f' /\
    (forall b n, o = Some (b, n) -> n = length (f_leaves f') - length (f_leaves f)).
Proof.
  intro SM. destruct ds as [|d0 ds0].
  { exists t, f, None. split; auto. split; auto. split; auto. intros; discriminate. }
  destruct (Nat.lt_ge_cases (full_len f) (capacity H)) as [C|C].
  { apply simw_batch; auto; [apply sim_simw; auto|discriminate]. }
  exists t, f, (Some (false, capacity H - full_len f)).
  unfold pt_batch, full_batch. remember (d0 :: ds0) as ds eqn:Eds. cbv zeta. rewrite (sim_len _ _ _ SM).
  assert (length ds <> 0) by (subst; discriminate).
  destruct (Nat.ltb_spec (capacity H) (full_len f + length ds)); [|lia].
  replace (capacity H - full_len f) with 0 by lia. cbn [Nat.eqb]. subst ds. split; auto. split; auto. split; auto.
  intros b n E. injection E as _ <-. lia.
Qed.

Lemma sim_batch_push td t f ds : Sim td t f ->
  exists t' f' b, pt_batch_push dl di join joinl H t ds = Some (t', b) /\
    full_batch_push dl di join joinl H f ds = Some (f', b) /\ Sim td t' f'.
Proof.
  intro SM. destruct (sim_batch td t f ds SM) as (t' & f' & o & E1 & E2 & SM' & _).
  unfold pt_batch_push, full_batch_push. rewrite E1, E2.
  destruct o as [[b n]|]; cbn [option_map fst]; eauto 8.
Qed.

Lemma sim_batch_push_np td t f ds : Sim td t f ->
  exists t' f' b, pt_batch_push_np dl di join joinl H t ds = Some (t', b) /\
    full_batch_push dl di join joinl H f ds = Some (f', b) /\ Sim td t' f'.
Proof.
  intro SM. destruct (sim_batch td t f ds SM) as (t' & f' & o & E1 & E2 & SM' & _).
  unfold pt_batch_push_np, full_batch_push. rewrite E1, E2.
  destruct o as [[b n]|]; cbn [option_map fst]; [|eauto 8].
  do 3 eexists. split; [reflexivity|]. split; [reflexivity|]. apply sim_marks; auto.
Qed.

(** *** Proofs *)
Lemma sim_path td t f i : Sim td t f -> full_len f <= capacity H -> liv td (pt_lm t) i ->
  pt_path dl di H t i = full_path dl di H f i.
Proof.
  intros SM Hcap Li. unfold pt_path, full_path. rewrite (sim_len _ _ _ SM), (sim_start _ _ _ SM).
  destruct ((0 <? i) && (full_len f <=? i)) eqn:E; auto.
  assert (Hi : i < 2 ^ S L).
  { pose proof (capacity_le H). apply andb_false_iff in E. destruct E as [E|E].
    - apply Nat.ltb_ge in E. pose proof (pow2_pos (S L)). lia.
    - apply Nat.leb_gt in E. lia. }
  replace (i <? 0) with false by (symmetry; apply Nat.ltb_ge; lia).
  unfold pt_path_unchecked. f_equal. f_equal.
  - f_equal. apply (sim_sibling td); auto. eapply liv_present; eauto. apply SM.
  - apply (sim_path_iter td); auto.
Qed.

Lemma sim_current_path ideqb td t f : Sim td t f -> full_len f <= capacity H ->
  pt_current_path dl di ideqb H t = full_current_path dl di ideqb H f.
Proof.
  intros SM Hcap. unfold pt_current_path, full_current_path. rewrite (sim_len _ _ _ SM).
  destruct (full_len f) as [|c] eqn:E; auto.
  assert (Lc : liv td (pt_lm t) c).
  { apply liv_current; [apply SM|]. rewrite (sim_length _ _ _ SM). exact E. }
  pose proof (capacity_le H).
  f_equal.
  - f_equal. apply (sim_sibling td); auto. eapply liv_present; eauto. apply SM.
  - unfold inner_current_path. rewrite (sim_path_iter td t f); auto. lia.
Qed.
End Hash.
