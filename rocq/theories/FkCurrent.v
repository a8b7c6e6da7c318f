(** The tree that [from_current] rebuilds from a current path, and the branch made of it. *)
From Coq Require Import List Arith Bool ZArith ZifyNat ZifyBool Lia.
From Verif Require Import MtModel MtSpec MtLemmas MtInner MtInv MtBatch MtFull MtSingle PtModel PtLeaf PtAgree PtSim FkVirt.
Import ListNotations.
Ltac dlia := zify; Z.div_mod_to_equations; lia.

Lemma as_left_eq i : as_left i = 2 * (i / 2).
Proof. unfold as_left. destruct (sibling_cases i) as [(E & A & _)|(E & A & _)]; rewrite E; lia. Qed.

Lemma as_left_div i k : as_left i / 2 ^ S k = i / 2 ^ S k.
Proof.
  rewrite as_left_eq, pow2_S, <- !Nat.div_div by (try lia; pose proof (pow2_pos k); lia).
  f_equal. rewrite Nat.mul_comm, Nat.div_mul by lia. reflexivity.
Qed.

Lemma as_left_even i : is_left (as_left i) = true.
Proof.
  rewrite as_left_eq. destruct (sibling_cases (2 * (i / 2))) as [(E & _)|(_ & A & _)]; auto. dlia.
Qed.

Lemma path_left_sibling L n k k' : n < 2 ^ S L -> k < L -> k' < L -> k <> k' -> forall i, i < 2 ^ (L - k) ->
  idx L k i <> idx L k' (n / 2 ^ S k') /\ idx L k i <> idx L k' (sibling (n / 2 ^ S k')).
Proof.
  intros Hn Hk Hk' Hne i Hi. split; intro E; apply idx_inj in E; try lia.
  - apply path_nodes_lt; lia.
  - apply sibling_path_lt; lia.
Qed.

Section Hash.
Context {LD ID : Type}.
Variable dl : LD.
Variable di : ID.
Variable join : ID -> ID -> ID.
Variable joinl : LD -> LD -> ID.
Variable H : nat.
Notation L := (path_length H).
Notation sd := (sd dl di join joinl).
Notation rsibs := (rsibs dl di join joinl).
Notation partial := (partial LD ID).
Notation full := (full LD ID).

Lemma from_current_nodes_spec (l : list LD) j : length l = S j -> j < 2 ^ S L ->
  forall d k m acc, k + S d = L -> acc = sd l k (j / 2 ^ S k) ->
  exists m',
    from_current_nodes di join (inner_nodes d (j / 2 ^ S k)) m acc (rsibs l j k (S d)) = Some (m', sd l L 0) /\
    (forall k', k <= k' < L -> m' (idx L k' (j / 2 ^ S k')) = Some (sd l k' (j / 2 ^ S k'))) /\
    (forall k', k <= k' < L -> is_left (j / 2 ^ S k') = false ->
       m' (idx L k' (sibling (j / 2 ^ S k'))) = Some (sd l k' (sibling (j / 2 ^ S k')))) /\
    (forall x, (forall k', k <= k' < L -> x <> idx L k' (j / 2 ^ S k') /\
       (is_left (j / 2 ^ S k') = true \/ x <> idx L k' (sibling (j / 2 ^ S k')))) -> m' x = m x).
Proof.
  intros Hl HjL.
  assert (Hj : j < length l) by lia.
  assert (STEP : forall k, join (sd l k (sibling (j / 2 ^ S k))) (sd l k (j / 2 ^ S k)) = sd l (S k) (j / 2 ^ S (S k))
    \/ is_left (j / 2 ^ S k) = true).
  { intro k. destruct (is_left (j / 2 ^ S k)) eqn:E; auto. left. rewrite <- node_join_sd by auto.
    unfold node_join. rewrite E. reflexivity. }
  assert (STEPL : forall k, is_left (j / 2 ^ S k) = true ->
    join (sd l k (j / 2 ^ S k)) di = sd l (S k) (j / 2 ^ S (S k))).
  { intros k E. rewrite <- node_join_sd by auto. unfold node_join. rewrite E.
    rewrite right_sibling_empty by auto. reflexivity. }
  assert (Z : forall k, S k = L -> sd l (S k) (j / 2 ^ S (S k)) = sd l L 0).
  { intros k E. rewrite E. f_equal. apply Nat.div_small. auto. }
  induction d as [|d IH]; intros k m acc Hk Hacc; subst acc.
  - cbn [inner_nodes from_current_nodes nd_index]. rewrite (idx_map_index L k) by auto.
    cbn [MtSingle.rsibs]. destruct (is_left (j / 2 ^ S k)) eqn:E.
    + rewrite STEPL, Z by (auto; lia). eexists. split; [reflexivity|]. split; [|split].
      * intros k' Hk'. replace k' with k by lia. apply set_same.
      * intros k' Hk' F. replace k' with k in F by lia. congruence.
      * intros x Hx. apply set_other. apply (Hx k). lia.
    + cbn [app]. destruct (STEP k) as [SK|]; [|congruence]. rewrite SK, Z by lia.
      destruct (sibling_cases (j / 2 ^ S k)) as [(?&_)|(_&E1&E2)]; [congruence|].
      replace (idx L k (j / 2 ^ S k) - 1) with (idx L k (sibling (j / 2 ^ S k))) by (unfold idx; lia).
      eexists. split; [reflexivity|]. split; [|split].
      * intros k' Hk'. replace k' with k by lia. apply set_same.
      * intros k' Hk' F. replace k' with k by lia. rewrite set_other by (unfold idx; lia). apply set_same.
      * intros x Hx. destruct (Hx k) as [X1 [X2|X2]]; [lia|congruence|].
        rewrite !set_other; auto.
  - cbn [inner_nodes from_current_nodes nd_index]. rewrite (idx_map_index L k) by auto.
    replace (rsibs l j k (S (S d))) with
      ((if is_left (j / 2 ^ S k) then [] else [sd l k (sibling (j / 2 ^ S k))]) ++ rsibs l j (S k) (S d))
      by reflexivity.
    unfold parent. rewrite <- (div_pow_S j (S k)).
    destruct (is_left (j / 2 ^ S k)) eqn:E.
    + rewrite STEPL by auto. cbn [app].
      set (m1 := imap_set m (idx L k (j / 2 ^ S k)) (sd l k (j / 2 ^ S k))).
      destruct (IH (S k) m1 _ ltac:(lia) eq_refl) as (m' & A & B & C & D).
      exists m'. split; [exact A|]. split; [|split].
      * intros k' Hk'. destruct (Nat.eq_dec k' k) as [->|Ne]; [|apply B; lia].
        rewrite D. { apply set_same. }
        intros k' Hk2. destruct (path_left_sibling L j k k' HjL ltac:(lia) ltac:(lia) ltac:(lia)
          (j / 2 ^ S k) (path_nodes_lt L j k HjL ltac:(lia))); auto.
      * intros k' Hk' F. destruct (Nat.eq_dec k' k) as [->|Ne]; [congruence|apply C; auto; lia].
      * intros x Hx. rewrite D. { apply set_other. apply (Hx k). lia. } intros k' Hk'. apply Hx. lia.
    + cbn [app]. destruct (STEP k) as [SK|]; [|congruence]. rewrite SK.
      destruct (sibling_cases (j / 2 ^ S k)) as [(?&_)|(_&E1&E2)]; [congruence|].
      replace (idx L k (j / 2 ^ S k) - 1) with (idx L k (sibling (j / 2 ^ S k))) by (unfold idx; lia).
      set (m1 := imap_set _ _ _).
      destruct (IH (S k) m1 _ ltac:(lia) eq_refl) as (m' & A & B & C & D).
      exists m'. split; [exact A|]. split; [|split].
      * intros k' Hk'. destruct (Nat.eq_dec k' k) as [->|Ne]; [|apply B; lia].
        rewrite D. { apply set_same. }
        intros k' Hk2. destruct (path_left_sibling L j k k' HjL ltac:(lia) ltac:(lia) ltac:(lia)
          (j / 2 ^ S k) (path_nodes_lt L j k HjL ltac:(lia))); auto.
      * intros k' Hk' F. destruct (Nat.eq_dec k' k) as [->|Ne]; [|apply C; auto; lia].
        rewrite D. { unfold m1. rewrite set_other by (unfold idx; lia). apply set_same. }
        intros k' Hk2. destruct (path_left_sibling L j k k' HjL ltac:(lia) ltac:(lia) ltac:(lia)
          (sibling (j / 2 ^ S k)) (sibling_path_lt L j k HjL ltac:(lia))); auto.
      * intros x Hx. rewrite D. 2:{ intros k' Hk'. apply Hx. lia. }
        destruct (Hx k) as [X1 [X2|X2]]; [lia|congruence|]. unfold m1. rewrite !set_other; auto.
Qed.

Lemma from_current_nodes_empty : forall d k m acc, k + S d = L ->
  exists m' r, from_current_nodes di join (inner_nodes d 0) m acc [] = Some (m', r) /\
    forall x, (forall k', k <= k' < L -> x <> idx L k' 0) -> m' x = m x.
Proof.
  induction d as [|d IH]; intros k m acc Hk; cbn [inner_nodes from_current_nodes nd_index];
  rewrite (idx_map_index L k) by auto; change (is_left 0) with true; cbn iota.
  - eexists _, _. split; [reflexivity|]. intros x Hx. apply set_other. apply Hx. lia.
  - change (parent 0) with 0.
    destruct (IH (S k) (imap_set m (idx L k 0) acc) (join acc di) ltac:(lia)) as (m' & r & A & B).
    exists m', r. split; auto. intros x Hx. rewrite B. { apply set_other. apply Hx. lia. }
    intros k' Hk'. apply Hx. lia.
Qed.

Hypothesis HH : 3 <= H.
Notation full_weak := (full_weak dl di join joinl H).
Notation full_strong := (full_strong dl di join joinl H).

Lemma L_pos : exists d, L = S d.
Proof. unfold path_length. exists (H - 3). lia. Qed.

Lemma strong_node (f : full) l k i : full_strong f l -> k < L -> i < 2 ^ (L - k) ->
  gos di (f_map f) (idx L k i) = sd l k i.
Proof.
  intros (_ & _ & A & _) Hk Hi. apply A; auto. exists (sibling i * 2 ^ S k). split; [|exact I].
  apply Nat.div_mul. pose proof (pow2_pos (S k)). lia.
Qed.

(** The inner map rebuilt from the current path of [lb] agrees with the full tree of [lb] on
    every node needed from the last pair of leaves on. *)
Lemma from_current_agree (lb : list LD) j (f : full) :
  length lb = S j -> j < 2 ^ S L -> full_strong f lb ->
  exists m, from_current di join H (sd lb 0 (j / 2)) j (rsibs lb j 0 L) = Some (m, as_left j) /\
    agree di m (f_map f) 0 /\
    forall k i, k < L -> i < 2 ^ (L - k) -> needed (fun j' => as_left j <= j') k i ->
      agree di m (f_map f) (idx L k i).
Proof.
  intros Hl HjL F. destruct L_pos as [d EL].
  destruct (from_current_nodes_spec lb j Hl HjL d 0 imap_empty _ ltac:(lia) eq_refl) as (m' & A & B & C & D).
  assert (IN : inner_nodes_from_leaf H j = inner_nodes d (j / 2))
    by (unfold inner_nodes_from_leaf; rewrite EL; reflexivity).
  unfold from_current. rewrite IN. rewrite <- EL in A. change (2 ^ 1) with 2 in A.
  assert (NE : exists a r, inner_nodes d (j / 2) = a :: r) by (destruct d; cbn [inner_nodes]; eauto).
  destruct NE as (a & r & NE). rewrite NE in *.
  rewrite A. exists (imap_set m' 0 (sd lb L 0)). split; [reflexivity|]. split.
  - unfold agree. rewrite gos_set_same. symmetry. apply F.
  - intros k i Hk Hi (j' & J1 & J2). unfold agree. rewrite gos_set_other by (apply idx_pos; auto).
    rewrite (strong_node f lb) by auto.
    set (p := j / 2 ^ S k) in *.
    assert (P : p <= sibling i).
    { rewrite <- J1. unfold p. rewrite <- as_left_div. apply Nat.div_le_mono; auto.
      pose proof (pow2_pos (S k)). lia. }
    destruct (Nat.eq_dec i p) as [->|N1]. { unfold gos. rewrite B by lia. reflexivity. }
    assert (SI : i <> sibling p -> forall k', 0 <= k' < L -> idx L k i <> idx L k' (j / 2 ^ S k') /\
       (is_left (j / 2 ^ S k') = true \/ idx L k i <> idx L k' (sibling (j / 2 ^ S k')))).
    { intros N2 k' Hk'. destruct (Nat.eq_dec k k') as [<-|Ne].
      - fold p. split; [|right]; intro X; apply idx_inj in X; auto; try lia.
        + apply path_nodes_lt; lia.
        + apply sibling_path_lt; lia.
      - destruct (path_left_sibling L j k k' HjL ltac:(lia) ltac:(lia) Ne i Hi). auto. }
    destruct (Nat.eq_dec i (sibling p)) as [E2|N2].
    + destruct (is_left p) eqn:E.
      * rewrite E2. unfold p. rewrite right_sibling_empty by auto. unfold gos. rewrite D; auto.
        intros k' Hk'. destruct (Nat.eq_dec k k') as [<-|Ne].
        -- fold p. rewrite <- E2. split; auto. intro X; apply idx_inj in X; auto; try lia.
           apply path_nodes_lt; lia.
        -- destruct (path_left_sibling L j k k' HjL ltac:(lia) ltac:(lia) Ne (sibling p)); auto.
           apply sibling_path_lt; lia.
      * rewrite E2. unfold gos, p. rewrite C by (auto; lia). reflexivity.
    + unfold gos. rewrite D by (apply SI; auto). symmetry. apply sd_empty.
      assert (p < i).
      { destruct (Nat.lt_ge_cases p i); auto. exfalso. 
        destruct (sibling_cases i) as [(_ & S1 & S2)|(_ & S1 & S2)]; [|lia].
        assert (sibling i = p) by lia. apply N2. rewrite <- H1. now rewrite sibling_invol. }
      pose proof (proj1 (under_iff j k p) eq_refl).
      assert ((p + 1) * 2 ^ S k <= i * 2 ^ S k) by (apply Nat.mul_le_mono_r; lia). lia.
Qed.

Variable ideqb : ID -> ID -> bool.
Hypothesis ideqb_spec : forall a b, ideqb a b = true <-> a = b.
Hypothesis join_nd : forall a b, join a b <> di.
Hypothesis joinl_nd : forall a b, joinl a b <> di.
Notation branch_of := (branch_of dl di join joinl ideqb H).

Lemma sim_current_leaf td (t : partial) (f : full) l x : Sim di H td t f -> f_leaves f = l ++ [x] ->
  pt_current_leaf t = Some x.
Proof.
  intros SM E. unfold pt_current_leaf.
  assert (EL : length (pt_lm t) = S (length l)).
  { rewrite (proj1 (sim_leaf _ _ _ _ _ SM)), E, app_length. cbn [length]. lia. }
  rewrite (proj2 (lm_current_some _ _) EL). unfold lm_get, lm_entry.
  destruct (nth_error (pt_lm t) (length l)) as [[[b y]|]|] eqn:F.
  - apply (proj2 (sim_leaf _ _ _ _ _ SM)) in F. rewrite E, nth_error_app2, Nat.sub_diag in F by auto.
    cbn in F. cbn. congruence.
  - apply (sim_rem _ _ _ _ _ SM) in F. lia.
  - apply nth_error_None in F. lia.
Qed.

(** *** The branch of a tree that follows a full tree *)
Lemma branch_of_spec td (t : partial) (fb f : full) (l : list LD) (x : LD) :
  Sim di H td t fb -> full_weak fb (l ++ [x]) -> full_strong f (l ++ [x]) ->
  exists m, branch_of t = Some (Branch (length (l ++ [x]) - as_left (length l))
      (Part (map (fun y => Some (false, y)) (skipn (as_left (length l)) (l ++ [x]))) m (as_left (length l)))) /\
    let d := Part (map (fun y => Some (false, y)) (skipn (as_left (length l)) (l ++ [x]))) m (as_left (length l)) in
    wfb d /\ Sim di H true (virt d) f.
Proof.
  intros SM W F. set (j := length l) in *. set (lb := l ++ [x]) in *.
  assert (Hl : length lb = S j) by (unfold lb; rewrite app_length; cbn [length]; fold j; lia).
  assert (Hcap : S j <= capacity H) by (rewrite <- Hl; apply W).
  pose proof (capacity_le H) as CL.
  destruct (from_current_agree lb j f Hl ltac:(lia) F) as (m & FC & R & N).
  exists m. cbv zeta.
  assert (Ev := as_left_even j). assert (AL := as_left_eq j).
  split.
  - unfold PtModel.branch_of, branch_new, branch_setup.
    rewrite (sim_len dl di join joinl H td t fb SM). unfold full_len.
    replace (length (f_leaves fb)) with (S j) by (rewrite (proj1 W); auto). cbn [Nat.eqb].
    rewrite (sim_current_leaf td t fb l x SM) by (apply W).
    rewrite (sim_current_path dl di join joinl H ideqb td t fb SM)
      by (unfold full_len; rewrite (proj1 W); lia).
    rewrite (full_current_path_weak dl di join joinl H ltac:(lia) ideqb ideqb_spec join_nd joinl_nd fb l x W).
    cbn [c_index c_sibling c_inner]. fold j. fold lb.
    assert (NX : nth j lb dl = x).
    { unfold lb, j. rewrite app_nth2, Nat.sub_diag by auto. reflexivity. }
    pose proof (join_leaves_sd dl di join joinl lb j ltac:(lia)) as JL. rewrite NX in JL. unfold node_join_leaves in JL.
    destruct (sibling_cases j) as [(E & E1 & E2)|(E & E1 & E2)]; rewrite E in *.
    + rewrite JL, FC. cbn [length seq combine fold_left]. f_equal. f_equal.
      * lia.
      * f_equal. unfold lm_from_vec. replace (as_left j) with (length l) by (fold j; lia). unfold lb.
        rewrite skipn_app, skipn_all, Nat.sub_diag. reflexivity.
    + rewrite JL, FC. cbn [length seq combine fold_left]. f_equal. f_equal.
      * lia.
      * f_equal. unfold lm_from_vec. replace (as_left j) with (sibling j) by lia.
        destruct (nth_error l (sibling j)) as [y|] eqn:Y.
        2:{ apply nth_error_None in Y. fold j in Y. lia. }
        assert (skipn (sibling j) lb = [y; x]).
        { unfold lb. rewrite skipn_app. fold j. replace (sibling j - j) with 0 by lia. cbn [skipn].
          destruct (nth_error_split _ _ Y) as (l1 & l2 & -> & L1). rewrite <- L1.
          unfold j in E1, E2. rewrite app_length in E1, E2. cbn [length] in E1, E2.
          unfold j in L1. rewrite app_length in L1. cbn [length] in L1.
          rewrite skipn_app, skipn_all, Nat.sub_diag. cbn [skipn app].
          destruct l2 as [|z l2]; [reflexivity|]. cbn [length] in *. exfalso. 
          unfold j in *. rewrite app_length in *. cbn [length] in *. lia. }
        rewrite H0. cbn [map]. f_equal.
        rewrite (nth_error_nth lb (sibling j) dl (x := y)); auto.
        unfold lb. rewrite nth_error_app1; auto. fold j. lia.
  - set (d := Part _ m (as_left j)).
    assert (Wd : wfb d).
    { split; cbn [d pt_start pt_lm]; auto.
      - intro E. apply (f_equal (@length _)) in E. rewrite map_length, skipn_length in E. cbn [length] in E. lia.
      - intros i E. rewrite nth_error_map in E. destruct (nth_error _ i); discriminate E. }
    split; auto. split.
    + reflexivity.
    + split.
      * rewrite virt_length. cbn [d pt_start pt_lm]. rewrite map_length, skipn_length, (proj1 F). lia.
      * intros i b y E. rewrite (proj1 F).
        assert (Pi : as_left j <= i) by (apply (virt_present d i Wd); unfold present; rewrite E; discriminate).
        replace i with (pt_start d + (i - as_left j)) in E by (cbn [d pt_start]; lia). rewrite virt_nth in E.
        cbn [d pt_lm] in E. rewrite nth_error_map in E.
        destruct (nth_error (skipn (as_left j) lb) (i - as_left j)) as [z|] eqn:Z; [|discriminate].
        cbn in E. injection E as <- <-. rewrite <- Z.
        rewrite <- (firstn_skipn (as_left j) lb) at 1.
        rewrite nth_error_app2; rewrite firstn_length, Nat.min_l by lia; auto.
    + apply virt_removed_ok; auto.
    + intros k i Hk Hi (j' & J1 & J2). apply N; auto. exists j'. split; auto.
      apply (virt_present d j' Wd). exact J2.
    + exact R.
Qed.

(** The branch of an empty tree agrees with the empty tree except on its root and the
    leftmost nodes, which hold digests of the default digest joined with itself. *)
Lemma branch_of_empty td (t : partial) (fb f : full) :
  Sim di H td t fb -> full_weak fb [] -> full_strong f [] ->
  exists m, branch_of t = Some (Branch 0 (Part [] m 0)) /\ SimW di H true (Part [] m 0) f.
Proof.
  intros SM W F. destruct L_pos as [d EL].
  unfold PtModel.branch_of, branch_new, branch_setup, pt_current_path.
  rewrite (sim_len dl di join joinl H td t fb SM). unfold full_len. rewrite (proj1 W). cbn [length Nat.eqb].
  unfold cpath_default. cbn [c_index c_inner]. assert (IN : inner_nodes_from_leaf H 0 = inner_nodes d 0)
    by (unfold inner_nodes_from_leaf; rewrite EL; reflexivity).
  unfold from_current. rewrite IN.
  destruct (from_current_nodes_empty d 0 imap_empty di ltac:(lia)) as (m' & r & A & B).
  assert (NE : exists a r, inner_nodes d 0 = a :: r) by (destruct d; cbn [inner_nodes]; eauto).
  destruct NE as (a & r' & NE). rewrite NE in *. rewrite A. cbn [length seq combine fold_left].
  change (as_left 0) with 0. eexists. split; [reflexivity|]. split; cbn [pt_start pt_lm pt_map].
  - reflexivity.
  - split; [rewrite (proj1 F); reflexivity|]. intros [|i] b x E; discriminate E.
  - intros [|i] E; discriminate E.
  - intros k i Hk Hi _ Hne. rewrite (proj1 F) in Hne. cbn [length] in Hne.
    rewrite Nat.div_0_l in Hne by (pose proof (pow2_pos (S k)); lia).
    unfold agree. rewrite gos_set_other by (apply idx_pos; auto).
    rewrite (strong_node f []) by auto. rewrite sd_empty by (cbn [length]; lia).
    unfold gos. rewrite B; auto. intros k' Hk' X. apply idx_inj in X; try lia.
Qed.
End Hash.
