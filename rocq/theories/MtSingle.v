(** Single-path trees agree with full trees. *)
From Coq Require Import List Arith Bool ZArith ZifyNat ZifyBool Lia.
From Verif Require Import MtModel MtSpec MtHist MtLemmas MtInner MtInv MtBatch MtFull.
Import ListNotations.
Ltac dlia := zify; Z.div_mod_to_equations; lia.

Lemma even_div_pred n k : n mod 2 ^ k = 0 -> 0 < n -> (n - 1) / 2 ^ k = n / 2 ^ k - 1.
Proof.
  intros E Hn. pose proof (pow2_pos k).
  apply Nat.div_exact in E; [|lia]. set (q := n / 2 ^ k) in *.
  assert (0 < q) by (destruct q; lia).
  symmetry. apply Nat.div_unique with (r := 2 ^ k - 1); [lia|].
  rewrite Nat.mul_sub_distr_l. nia.
Qed.

Section Hash.
Context {LD ID : Type}.
Variable dl : LD.
Variable di : ID.
Variable join : ID -> ID -> ID.
Variable joinl : LD -> LD -> ID.
Notation sd := (sd dl di join joinl).

(** Left siblings on the path of leaf [j], from level [k], for [c] levels. *)
Fixpoint rsibs (l : list LD) (j k c : nat) : list ID :=
  match c with
  | 0 => []
  | S c' =>
      (if is_left (j / 2 ^ S k) then [] else [sd l k (sibling (j / 2 ^ S k))])
      ++ rsibs l j (S k) c'
  end.

Lemma right_sibling_empty l j k : length l = S j -> is_left (j / 2 ^ S k) = true ->
  sd l k (sibling (j / 2 ^ S k)) = di.
Proof.
  intros Hl E. apply sd_empty. destruct (sibling_cases (j / 2 ^ S k)) as [(_&E1&E2)|(E0&_)]; [|congruence].
  rewrite E2, <- E1. pose proof (proj1 (under_iff j k _) eq_refl). lia.
Qed.

Lemma cpath_fold_sd (l : list LD) j : length l = S j ->
  forall c k, cpath_fold di join c (j / 2 ^ k) (sd l k (j / 2 ^ S k)) (rsibs l j k c)
  = Some (sd l (k + c) (j / 2 ^ S (k + c))).
Proof.
  intro Hl. induction c; intro k.
  - rewrite Nat.add_0_r. reflexivity.
  - cbn [cpath_fold rsibs]. unfold parent. rewrite <- div_pow_S.
    replace (k + S c) with (S k + c) by lia.
    pose proof (node_join_sd dl di join joinl l k j ltac:(lia)) as N. unfold node_join in N.
    destruct (is_left (j / 2 ^ S k)) eqn:E.
    + rewrite right_sibling_empty in N by auto. rewrite N. apply IHc.
    + cbn [app]. rewrite N. apply IHc.
Qed.

(** [sd] at a left sibling on the path does not change when more leaves come. *)
Lemma rsibs_app (l ds : list LD) j : j <= length l -> forall c k,
  rsibs (l ++ ds) j k c = rsibs l j k c.
Proof.
  intros Hj. induction c; intro k; auto. cbn [rsibs]. rewrite IHc.
  destruct (is_left (j / 2 ^ S k)) eqn:E; auto. f_equal. f_equal.
  apply sd_app_off. left. unfold complete.
  destruct (sibling_cases (j / 2 ^ S k)) as [(E0&_)|(_&E1&E2)]; [congruence|].
  replace (sibling (j / 2 ^ S k) + 1) with (j / 2 ^ S k) by lia.
  pose proof (div_le_start j k). lia.
Qed.

Lemma rsibs_ext (l : list LD) j j' : forall c k, j / 2 ^ S k = j' / 2 ^ S k -> rsibs l j k c = rsibs l j' k c.
Proof.
  induction c; intros k E; auto. cbn [rsibs]. rewrite E. f_equal. apply IHc.
  rewrite (div_pow_S j), (div_pow_S j'), E. reflexivity.
Qed.

Lemma mod_pow_even n k : n mod 2 ^ k = 0 -> is_left (n / 2 ^ k) = true -> n mod 2 ^ S k = 0.
Proof.
  intros E F. apply is_left_true in F. pose proof (pow2_pos k).
  apply Nat.div_exact in E; [|lia]. rewrite E, F, pow2_S.
  replace (2 ^ k * (2 * (n / 2 ^ k / 2))) with (n / 2 ^ k / 2 * (2 * 2 ^ k)) by lia.
  apply Nat.mod_mul. lia.
Qed.

(** The loop of [update], from a full left part. *)
Lemma update_loop_spec (l : list LD) x L : 
  let n := length l in
  let l' := l ++ [x] in
  0 < n -> n < 2 ^ S L ->
  forall c k fuel, k + c = L -> c < fuel -> n mod 2 ^ S k = 0 ->
  exists k2,
    k <= k2 < L /\
    update_loop di join fuel ((n - 1) / 2 ^ k) (n / 2 ^ k)
      (sd l k ((n - 1) / 2 ^ S k)) (sd l' k (n / 2 ^ S k)) (rsibs l (n - 1) k c) k
    = Some (n / 2 ^ S k2, sd l k2 ((n - 1) / 2 ^ S k2), sd l' k2 (n / 2 ^ S k2),
            rsibs l (n - 1) (S k2) (L - S k2), k2) /\
    is_left (n / 2 ^ S k2) = false /\
    (n - 1) / 2 ^ S k2 = n / 2 ^ S k2 - 1 /\
    (forall k', k <= k' < k2 -> is_left (n / 2 ^ S k') = true).
Proof.
  intros n l' Hn HnL. induction c; intros k fuel Hk Hf E.
  - exfalso. assert (k = L) by lia. subst k.
    rewrite Nat.mod_small in E by auto. lia.
  - destruct fuel as [|f]; [lia|]. cbn [update_loop]. unfold parent. rewrite <- !div_pow_S.
    pose proof (even_div_pred n (S k) E Hn) as P.
    assert (Pos : 1 <= n / 2 ^ S k).
    { apply Nat.div_exact in E; [|pose proof (pow2_pos (S k)); lia]. destruct (n / 2 ^ S k); lia. }
    unfold are_siblings.
    destruct (is_left (n / 2 ^ S k)) eqn:El.
    + assert (El' : is_left ((n - 1) / 2 ^ S k) = false).
      { rewrite P. destruct (is_left (n / 2 ^ S k - 1)) eqn:G; auto.
        apply is_left_true in G. apply is_left_true in El. lia. }
      destruct (Nat.eqb_spec (sibling ((n - 1) / 2 ^ S k)) (n / 2 ^ S k)) as [Eq|_].
      { exfalso. destruct (sibling_cases ((n - 1) / 2 ^ S k)) as [(?&_)|(_&?&?)]; [congruence|lia]. }
      rewrite El'. cbn [rsibs]. rewrite El'. cbn [app].
      pose proof (node_join_sd dl di join joinl l k (n - 1) ltac:(fold n; lia)) as N1.
      unfold node_join in N1. rewrite El' in N1. rewrite N1.
      pose proof (node_join_sd dl di join joinl l' k n ltac:(unfold l'; rewrite app_length; cbn [length]; fold n; lia)) as N2.
      unfold node_join in N2. rewrite El in N2.
      rewrite right_sibling_empty in N2 by (auto; unfold l'; rewrite app_length; cbn [length]; fold n; lia).
      rewrite N2.
      destruct (IHc (S k) f ltac:(lia) ltac:(lia) (mod_pow_even _ _ E El)) as (k2 & K1 & K2 & K3 & K4 & K5).
      exists k2. split; [lia|]. split; [exact K2|]. split; [auto|]. split; [auto|].
      intros k' Hk'. destruct (Nat.eq_dec k' k) as [->|]; auto. apply K5; lia.
    + destruct (Nat.eqb_spec (sibling ((n - 1) / 2 ^ S k)) (n / 2 ^ S k)) as [Eq|Nq].
      * exists k. split; [lia|]. split.
        -- cbn [rsibs].
           assert (El' : is_left ((n - 1) / 2 ^ S k) = true).
           { rewrite P. destruct (is_left (n / 2 ^ S k - 1)) eqn:G; auto.
             apply is_left_false in G. apply is_left_false in El. lia. }
           rewrite El'. cbn [app]. replace (L - S k) with c by lia. reflexivity.
        -- repeat split; auto. intros; lia.
      * exfalso. apply Nq. destruct (sibling_cases ((n - 1) / 2 ^ S k)) as [(_&?&?)|(G&?&?)].
        -- lia.
        -- apply is_left_false in El. lia.
Qed.

Variable H : nat.
Hypothesis HH : 2 <= H.
Notation L := (path_length H).
Notation single_push := (single_push dl di join joinl H).

Notation single_exec := (single_exec dl di join joinl H).

Definition single_ok (t : single LD ID) (l : list LD) : Prop :=
  length l <= capacity H /\
  s_root t = sd l L 0 /\
  match l with
  | [] => s_leaf t = None /\ s_path t = cpath_default dl
  | _ => s_leaf t = Some (nth (length l - 1) l dl) /\
         s_path t = CPath (length l - 1) (nth (sibling (length l - 1)) l dl) (rsibs l (length l - 1) 0 L)
  end.

Lemma rsibs_left (l : list LD) j : forall c k c2,
  (forall k', k <= k' < k + c -> is_left (j / 2 ^ S k') = true) ->
  rsibs l j k (c + c2) = rsibs l j (k + c) c2.
Proof.
  induction c; intros k c2 E. { rewrite Nat.add_0_r. reflexivity. }
  cbn [rsibs Nat.add]. rewrite E by lia. cbn [app]. rewrite IHc by (intros; apply E; lia).
  f_equal. lia.
Qed.

Lemma cpath_update_spec (l : list LD) x : 0 < length l -> length l < capacity H ->
  let n := length l in
  let l' := l ++ [x] in
  cpath_update dl di join joinl H
    (CPath (n - 1) (nth (sibling (n - 1)) l dl) (rsibs l (n - 1) 0 L)) (nth (n - 1) l dl) x =
  Some (CPath n (nth (sibling n) l' dl) (rsibs l' n 0 L), x, sd l' L 0).
Proof.
  intros Hn Hcap n l'. rewrite cap_eq in Hcap by auto. fold n in Hn, Hcap.
  assert (Hl' : length l' = S n) by (unfold l'; rewrite app_length; cbn [length]; fold n; lia).
  assert (Nx : nth n l' dl = x) by (unfold l'; rewrite app_nth2, Nat.sub_diag by (fold n; lia); reflexivity).
  assert (Z : n / 2 ^ S L = 0) by (apply Nat.div_small; auto).
  unfold cpath_update. cbn [c_index c_sibling c_inner].
  replace (n - 1 + 1) with n by lia.
  destruct (is_left n) eqn:En.
  - pose proof En as En'. apply is_left_true in En'.
    assert (SL : sibling (n - 1) = n - 2).
    { destruct (sibling_cases (n - 1)) as [(?&?&?)|(?&?&?)]; lia. }
    assert (J1 : joinl (nth (sibling (n - 1)) l dl) (nth (n - 1) l dl) = sd l 0 ((n - 1) / 2)).
    { pose proof (join_leaves_sd dl di join joinl l (n - 1) ltac:(fold n; lia)) as J. rewrite <- J.
      unfold node_join_leaves. destruct (is_left (n - 1)) eqn:G; auto. apply is_left_true in G. lia. }
    assert (J2 : joinl x dl = sd l' 0 (n / 2)).
    { pose proof (join_leaves_sd dl di join joinl l' n ltac:(lia)) as J. rewrite <- J.
      unfold node_join_leaves. rewrite En, Nx. f_equal. symmetry. apply nth_overflow.
      destruct (sibling_cases n) as [(?&?&?)|(?&?&?)]; lia. }
    rewrite J1, J2.
    destruct (update_loop_spec l x L Hn Hcap L 0 (L + 1) ltac:(lia) ltac:(lia)) as (k2 & K1 & K2 & K3 & K4 & K5).
    { fold n. change (2 ^ 1) with 2. dlia. }
    fold n in K3, K4, K5. fold n l' in K2. rewrite Nat.pow_0_r, !Nat.div_1_r in K2. change (2 ^ 1) with 2 in K2.
    rewrite K2.
    assert (ER : rsibs l (n - 1) (S k2) (L - S k2) = rsibs l' n (S k2) (L - S k2)).
    { unfold l'. rewrite rsibs_app by (fold n; lia). apply rsibs_ext.
      rewrite (div_pow_S (n - 1)), (div_pow_S n), K4. apply is_left_false in K3. clear - K3. revert K3. generalize (n / 2 ^ S k2). intros q Q. dlia. }
    assert (EJ : join (sd l k2 ((n - 1) / 2 ^ S k2)) (sd l' k2 (n / 2 ^ S k2)) = sd l' (S k2) (n / 2 ^ S (S k2))).
    { pose proof (node_join_sd dl di join joinl l' k2 n ltac:(lia)) as N. unfold node_join in N.
      rewrite K3 in N. rewrite <- N. f_equal.
      unfold l'. rewrite sd_app_off.
      - f_equal. destruct (sibling_cases (n / 2 ^ S k2)) as [(?&_)|(_&?&?)]; [congruence|lia].
      - left. unfold complete. fold n.
        destruct (sibling_cases (n / 2 ^ S k2)) as [(?&_)|(_&?&E2)]; [congruence|].
        replace (sibling (n / 2 ^ S k2) + 1) with (n / 2 ^ S k2) by lia.
        apply div_le_start. }
    rewrite EJ, ER, Nat.add_1_r. rewrite (cpath_fold_sd l' n Hl').
    replace (S k2 + (L - S k2)) with L by lia. rewrite Z.
    f_equal. f_equal. f_equal. f_equal.
    + symmetry. apply nth_overflow. destruct (sibling_cases n) as [(?&?&?)|(?&?&?)]; [lia|congruence].
    + replace L with (k2 + S (L - S k2)) at 2 by lia.
      rewrite (rsibs_left l' n k2 0) by (intros; apply K5; lia).
      cbn [rsibs Nat.add]. rewrite K3. cbn [app]. f_equal.
      * destruct (sibling_cases (n / 2 ^ S k2)) as [(?&_)|(_&?&E2)]; [congruence|].
        replace (sibling (n / 2 ^ S k2)) with ((n - 1) / 2 ^ S k2) by lia.
        symmetry. unfold l'. apply sd_app_off. left. unfold complete. fold n.
        rewrite K4. replace (n / 2 ^ S k2 - 1 + 1) with (n / 2 ^ S k2) by lia. apply div_le_start.
  - pose proof En as En'. apply is_left_false in En'.
    assert (SB : sibling n = n - 1) by (destruct (sibling_cases n) as [(?&_)|(?&?&?)]; [congruence|lia]).
    assert (ER : rsibs l (n - 1) 0 L = rsibs l' n 0 L).
    { unfold l'. rewrite rsibs_app by (fold n; lia). apply rsibs_ext. change (2 ^ 1) with 2. dlia. }
    assert (ES : nth (n - 1) l dl = nth (sibling n) l' dl).
    { rewrite SB. unfold l'. symmetry. apply app_nth1. fold n; lia. }
    unfold cpath_root. cbn [c_index c_sibling c_inner]. rewrite ER, ES.
    pose proof (join_leaves_sd dl di join joinl l' n ltac:(lia)) as J. rewrite Nx in J. rewrite J.
    pose proof (cpath_fold_sd l' n Hl' L 0) as C. rewrite Nat.pow_0_r, Nat.div_1_r in C.
    change (2 ^ 1) with 2 in C. rewrite Nat.sub_0_r, C. cbn [Nat.add]. rewrite Z. reflexivity.
Qed.

Lemma single_new_ok : single_ok (single_new dl di) [].
Proof.
  repeat split; auto.
  - cbn [length]. lia.
  - symmetry. apply sd_empty. cbn [length]. lia.
Qed.

Lemma single_push_cases t l x : single_ok t l ->
  (length l < capacity H /\ exists t', single_push t x = Some (t', true) /\ single_ok t' (l ++ [x])) \/
  (length l = capacity H /\ single_push t x = Some (t, false)).
Proof.
  intros (Hc & Hr & Hs). pose proof (pow2_pos (H - 1)) as Pc. fold (capacity H) in Pc.
  destruct l as [|y l0].
  - left. split; [cbn [length]; lia|]. destruct Hs as [A B].
    unfold MtModel.single_push, single_length_state. rewrite A, B.
    unfold cpath_root, cpath_default. cbn [c_index c_sibling c_inner].
    assert (J : node_join_leaves joinl 0 x dl = sd [x] 0 (0 / 2)).
    { rewrite <- (join_leaves_sd dl di join joinl [x] 0) by (cbn; lia). reflexivity. }
    assert (RS : forall c k, rsibs [x] 0 k c = []).
    { induction c; intro k; auto. cbn [rsibs]. rewrite Nat.div_0_l by (pose proof (pow2_pos (S k)); lia).
      cbn [is_left Nat.even app]. apply IHc. }
    rewrite J. pose proof (cpath_fold_sd [x] 0 eq_refl L 0) as C. rewrite RS in C.
    rewrite Nat.pow_0_r, Nat.div_1_r in C. rewrite Nat.sub_0_r. change (2 ^ 1) with 2 in C. rewrite C.
    eexists; split; [reflexivity|]. split; [cbn [length app]; lia|]. split.
    + cbn [s_root Nat.add app]. rewrite Nat.div_0_l by (pose proof (pow2_pos (S L)); lia). reflexivity.
    + cbn [app s_leaf s_path length Nat.sub nth]. rewrite RS. split; reflexivity.
  - set (l := y :: l0) in *. destruct Hs as [A B].
    unfold MtModel.single_push, single_length_state. rewrite A, B. cbn [c_index].
    assert (Hl : 1 <= length l) by (cbn [l length]; lia).
    destruct (Nat.ltb_spec (length l - 1) (capacity H - 1)).
    + left. split; [lia|]. rewrite cpath_update_spec by lia.
      eexists; split; [reflexivity|]. split; [rewrite app_length; cbn [length]; lia|]. split; [reflexivity|].
      destruct (l ++ [x]) as [|z r] eqn:E. { destruct l; discriminate. }
      rewrite <- E. rewrite app_length. cbn [length]. replace (length l + 1 - 1) with (length l) by lia.
      split; [|reflexivity]. cbn [s_leaf]. rewrite app_nth2, Nat.sub_diag by lia. reflexivity.
    + right. split; [lia|reflexivity].
Qed.

Lemma single_exec_ok ds : forall t l, single_ok t l ->
  exists t', single_exec t ds = Some t' /\ single_ok t' (firstn (capacity H) (l ++ ds)).
Proof.
  induction ds as [|d ds IH]; intros t l S0.
  - exists t. split; auto. rewrite app_nil_r, firstn_all2 by apply S0. auto.
  - cbn [MtHist.single_exec].
    destruct (single_push_cases t l d S0) as [(C & t1 & E & S')|(C & E)]; rewrite E.
    + destruct (IH _ _ S') as (t' & E' & St). exists t'. split; auto.
      rewrite <- app_assoc in St. exact St.
    + destruct (IH _ _ S0) as (t' & E' & St). exists t'. split; auto.
      rewrite firstn_app in *. replace (capacity H - length l) with 0 in * by lia. exact St.
Qed.

(** ** The current path of a full tree *)

Variable ideqb : ID -> ID -> bool.
Hypothesis ideqb_spec : forall a b, ideqb a b = true <-> a = b.
Hypothesis join_nd : forall a b, join a b <> di.
Hypothesis joinl_nd : forall a b, joinl a b <> di.

Lemma sd_nd l k i : i * 2 ^ S k < length l -> sd l k i <> di.
Proof.
  intro C. destruct k; [rewrite sd_0 by exact C|rewrite sd_S by exact C]; auto.
Qed.

Lemma filter_spath l j : length l = S j -> forall c k,
  filter (fun d => negb (ideqb d di)) (map (fun k => sd l k (sibling (j / 2 ^ S k))) (seq k c))
  = rsibs l j k c.
Proof.
  intros Hl. induction c; intro k; auto. cbn [seq map filter rsibs]. rewrite IHc.
  destruct (is_left (j / 2 ^ S k)) eqn:E.
  - rewrite right_sibling_empty by auto.
    replace (ideqb di di) with true by (symmetry; apply ideqb_spec; reflexivity). reflexivity.
  - replace (ideqb (sd l k (sibling (j / 2 ^ S k))) di) with false; [reflexivity|].
    symmetry. apply not_true_iff_false. rewrite ideqb_spec. apply sd_nd.
    destruct (sibling_cases (j / 2 ^ S k)) as [(?&_)|(_&?&E2)]; [congruence|].
    pose proof (div_le_start j k).
    assert (sibling (j / 2 ^ S k) * 2 ^ S k <= j / 2 ^ S k * 2 ^ S k) by (apply Nat.mul_le_mono_r; lia). lia.
Qed.

(** Weak states suffice: the current path only reads complete or empty nodes. *)
Lemma full_current_path_weak t l x : full_weak dl di join joinl H t (l ++ [x]) ->
  full_current_path dl di ideqb H t =
  CPath (length l) (nth (sibling (length l)) (l ++ [x]) dl) (rsibs (l ++ [x]) (length l) 0 L).
Proof.
  intros (A & B & W). unfold full_current_path, full_len, full_leaf_sibling. rewrite A.
  rewrite app_length in *. cbn [length] in *. rewrite Nat.add_1_r in *.
  rewrite oleaf_nth. f_equal. unfold inner_current_path.
  set (l' := l ++ [x]) in *. set (j := length l) in *.
  assert (Hl' : length l' = S j) by (unfold l'; rewrite app_length; cbn [length]; fold j; lia).
  rewrite <- (filter_spath l' j) by auto. f_equal. rewrite path_iter_eq.
  apply map_ext_in. intros k Hk. apply in_seq in Hk.
  rewrite cap_eq in B by auto.
  apply W; try lia.
  - apply sibling_path_lt; lia.
  - apply (sibling_path_needed all_live j k). exact I.
  - destruct (sibling_cases (j / 2 ^ S k)) as [(_&E1&E2)|(_&E1&E2)].
    + right. unfold nempty. rewrite Hl', E2, <- E1.
      pose proof (proj1 (under_iff j k _) eq_refl). lia.
    + left. unfold complete. rewrite Hl', E2. replace (2 * (j / 2 ^ S k / 2) + 1) with (j / 2 ^ S k) by lia.
      pose proof (div_le_start j k). lia.
Qed.

End Hash.
