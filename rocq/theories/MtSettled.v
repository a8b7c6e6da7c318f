(** Histories after which a full tree reports the specified root. *)
From Coq Require Import List Arith Bool ZArith ZifyNat ZifyBool Lia.
From Verif Require Import MtModel MtSpec MtHist MtLemmas MtInner MtInv MtBatch MtFull MtSingle.
Import ListNotations.

Lemma bad_levelb_spec H n last : bad_levelb H n last = true <-> bad_level H n last.
Proof.
  unfold bad_levelb, bad_level. rewrite existsb_exists. split.
  - intros (k & Hk & E). apply in_seq in Hk. apply andb_true_iff in E. destruct E as [E1 E2].
    exists k. split; [unfold path_length; lia|]. split; auto. apply negb_true_iff in E1. exact E1.
  - intros (k & Hk & E1 & E2). exists k. split. { apply in_seq. unfold path_length in Hk. lia. }
    apply andb_true_iff. split; auto. apply negb_true_iff. exact E1.
Qed.

Section Hash.
Context {LD ID : Type}.
Variable dl : LD.
Variable di : ID.
Variable join : ID -> ID -> ID.
Variable joinl : LD -> LD -> ID.
Variable H : nat.
Hypothesis HH : 2 <= H.
Notation full_exec := (full_exec dl di join joinl H).
Notation full_step := (full_step dl di join joinl H).
Notation weak := (full_weak dl di join joinl H).
Notation strong := (full_strong dl di join joinl H).

Lemma settle_step t l ok o : weak t l -> (ok = true -> strong t l) ->
  exists t' l', full_step t o = Some t' /\ l' = spec_accept H l (top_items o) /\ weak t' l' /\
    fst (settle H (length l, ok) o) = length l' /\
    (snd (settle H (length l, ok) o) = true -> strong t' l').
Proof.
  intros W S0. pose proof W as (A & B & _). unfold capacity in B. destruct o as [d|ds].
  - cbn [MtHist.full_step settle top_items]. eexists _, _. split; [reflexivity|]. split; [reflexivity|].
    unfold spec_accept.
    destruct (full_push_cases dl di join joinl H HH t l d W) as [(C & E & S')|(C & E)]; unfold capacity in C.
    + destruct (Nat.ltb_spec (length l) (2 ^ (H - 1))); [|lia].
      rewrite firstn_all2 by (cbn [length]; lia). split; [apply full_strong_weak; auto|].
      cbn [fst snd]. rewrite app_length. cbn [length]. split; [lia|auto].
    + destruct (Nat.ltb_spec (length l) (2 ^ (H - 1))); [lia|]. rewrite E.
      replace (2 ^ (H - 1) - length l) with 0 by lia. cbn [firstn fst snd]. rewrite app_nil_r. auto.
  - cbn [MtHist.full_step settle top_items].
    destruct (full_batch_inv dl di join joinl H HH t l ds W) as (t' & E & W' & S' & Same). rewrite E.
    exists t', (spec_accept H l ds). split; [reflexivity|]. split; [reflexivity|]. split; [exact W'|].
    assert (Len : length (spec_accept H l ds) = Nat.min (2 ^ (H - 1)) (length l + length ds)).
    { unfold spec_accept. rewrite app_length, firstn_length. lia. }
    rewrite Len in *.
    destruct (Nat.ltb_spec (length l) (Nat.min (2 ^ (H - 1)) (length l + length ds))); cbn [fst snd].
    + split; auto. intro F. apply S'; auto. intro Bd. apply bad_levelb_spec in Bd.
      rewrite Bd in F. discriminate.
    + assert (Q : length l = Nat.min (2 ^ (H - 1)) (length l + length ds)) by lia.
      split; auto. intro F. destruct (Same Q) as [-> ->]. auto.
Qed.

Lemma exec_settled os : forall t l ok, weak t l -> (ok = true -> strong t l) ->
  exists t', full_exec t os = Some t' /\ weak t' (firstn (2 ^ (H - 1)) (l ++ offered os)) /\
   (snd (fold_left (settle H) os (length l, ok)) = true ->
    strong t' (firstn (2 ^ (H - 1)) (l ++ offered os))).
Proof.
  induction os as [|o os IH]; intros t l ok W S0.
  - exists t. unfold offered; cbn [flat_map]. rewrite app_nil_r, firstn_all2 by apply W. auto.
  - destruct (settle_step t l ok o W S0) as (t1 & l1 & E1 & -> & W1 & L1 & S1).
    cbn [MtHist.full_exec fold_left]. rewrite E1.
    destruct (IH t1 _ (snd (settle H (length l, ok) o)) W1 S1) as (t' & E & W' & S').
    rewrite <- L1, <- surjective_pairing in S'.
    pose proof (accept_snoc H l (top_items o) ltac:(apply W) (offered os)) as Q. unfold capacity in Q.
    rewrite Q in W', S'.
    unfold offered in *. cbn [flat_map]. exists t'. auto.
Qed.

Lemma exec_new os : exists t, full_exec full_new os = Some t /\
  f_leaves t = firstn (2 ^ (H - 1)) (offered os) /\
  weak t (firstn (2 ^ (H - 1)) (offered os)) /\
  (settled H os = true -> strong t (firstn (2 ^ (H - 1)) (offered os))).
Proof.
  destruct (exec_settled os full_new [] true) as (t & E & W & S0).
  - apply full_strong_weak. apply full_new_strong; auto.
  - intros _. apply full_new_strong; auto.
  - cbn [app] in *. exists t. split; auto. split; auto. apply W.
Qed.

Lemma settled_pushes (ds : list LD) : forall n ok, ok = true ->
  snd (fold_left (settle H) (map TPush ds) (n, ok)) = true.
Proof.
  induction ds; intros n ok E; auto. cbn [map fold_left settle].
  destruct (n <? 2 ^ (H - 1)); apply IHds; auto.
Qed.

Lemma offered_pushes (ds : list LD) : offered (map TPush ds) = ds.
Proof. induction ds; auto. unfold offered in *. cbn [map flat_map top_items app]. congruence. Qed.

(** Expanding a current path. *)
Lemma expand_rsibs (l : list LD) j : length l = S j -> forall d k, k + S d = path_length H ->
  cpath_expand di (inner_nodes d (j / 2 ^ S k)) (rsibs dl di join joinl l j k (S d)) =
  Some (map (fun k => sd dl di join joinl l k (sibling (j / 2 ^ S k))) (seq k (S d))).
Proof.
  intro Hl. induction d; intros k Hk.
  - cbn [inner_nodes cpath_expand nd_index rsibs seq map].
    destruct (is_left (j / 2 ^ S k)) eqn:E; cbn [app].
    + rewrite right_sibling_empty; auto.
    + reflexivity.
  - cbn [inner_nodes cpath_expand nd_index]. unfold parent. rewrite <- (div_pow_S j (S k)).
    specialize (IHd (S k) ltac:(lia)).
    change (rsibs dl di join joinl l j k (S (S d))) with
      ((if is_left (j / 2 ^ S k) then [] else [sd dl di join joinl l k (sibling (j / 2 ^ S k))])
       ++ rsibs dl di join joinl l j (S k) (S d)).
    change (seq k (S (S d))) with (k :: seq (S k) (S d)). cbn [map].
    destruct (is_left (j / 2 ^ S k)) eqn:E; cbn [app]; rewrite IHd.
    + rewrite right_sibling_empty; auto.
    + reflexivity.
Qed.

Lemma path_from_rsibs (l : list LD) j (s : LD) : length l = S j ->
  path_from_cpath di H (CPath j s (rsibs dl di join joinl l j 0 (path_length H))) =
  Some (Path j s (spath dl di join joinl H l j)).
Proof.
  intro Hl. unfold path_from_cpath, inner_nodes_from_leaf, spath. cbn [c_index c_inner c_sibling].
  destruct (path_length H) as [|d] eqn:E; [reflexivity|].
  pose proof (expand_rsibs l j Hl d 0 ltac:(rewrite E; lia)) as X. change (2 ^ 1) with 2 in X.
  unfold parent. rewrite X. reflexivity.
Qed.

End Hash.
