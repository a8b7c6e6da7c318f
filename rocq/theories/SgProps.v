(** Properties C14 and C20: synchronising the signer with the ledger. *)
From Coq Require Import List Arith NArith Lia Bool Permutation Sorted.
From Verif Require Import MtModel MtSpec MtTest PtModel PtSpec PtProps FkSpec FkProps FoSpec FoInv FoProps AssetModel AssetSpec AssetLemmas AssetMap AssetProps
  CkModel CkSpec CkLemmas CkProps SgModel SgSpec SgAcc SgSync SgInv.
Import ListNotations.
Open Scope nat_scope.

(** Two asset maps with the same entries are the same. *)
Lemma sorted_same {A} (lt : A -> A -> Prop) : (forall a, ~ lt a a) -> (forall a b c, lt a b -> lt b c -> lt a c) ->
  forall l l', StronglySorted lt l -> StronglySorted lt l' -> (forall a, In a l <-> In a l') -> l = l'.
Proof.
  intros IR TR. induction l as [|a l IH]; intros [|b l'] S S' E; auto.
  - exfalso. apply (E b). left. auto.
  - exfalso. apply (E a). left. auto.
  - inversion S as [|? ? S1 F]; subst. inversion S' as [|? ? S1' F']; subst. rewrite Forall_forall in F, F'.
    assert (a = b).
    { destruct (proj1 (E a) (or_introl eq_refl)) as [|I]; auto. destruct (proj2 (E b) (or_introl eq_refl)) as [|I']; auto.
      exfalso. apply (IR a). eapply TR; eauto. }
    subst b. f_equal. apply IH; auto. intro x. split; intro I.
    + destruct (proj1 (E x) (or_intror I)) as [<-|]; auto. exfalso. apply (IR a). auto.
    + destruct (proj2 (E x) (or_intror I)) as [<-|]; auto. exfalso. apply (IR a). auto.
Qed.

Lemma in_vec m r : In r (am_asset_vector m) <-> exists l, In (fst r, l) m /\ In (snd r) l.
Proof.
  induction m as [|[k l] m IH].
  - cbn. split; [contradiction|]. intros (l & [] & _).
  - rewrite vec_cons, in_app_iff, IH, in_map_iff. split.
    + intros [(a & <- & I)|(l0 & I & J)].
      * exists l. split; [left; reflexivity|exact I].
      * exists l0. split; [right; exact I|exact J].
    + intros (l0 & [E|I] & J); [|right; exists l0; auto].
      injection E as -> ->. left. exists (snd r). split; [destruct r; reflexivity|exact J].
Qed.

Lemma am_same : forall m m', am_ok m -> am_ok m' -> (forall r, In r (am_asset_vector m) <-> In r (am_asset_vector m')) -> m = m'.
Proof.
  assert (MEM : forall m m' : amap, am_ok m -> am_ok m' -> (forall r, In r (am_asset_vector m) <-> In r (am_asset_vector m')) ->
    forall k l, In (k, l) m -> In (k, l) m').
  { intros m m' O O' E k l I. destruct (proj2 O k l I) as [NE SL]. destruct l as [|a l0] eqn:EL; [congruence|].
    rewrite <- EL in *. assert (I1 : In (k, a) (am_asset_vector m')).
    { apply E, in_vec. exists l. rewrite EL. cbn. rewrite <- EL. auto. }
    apply in_vec in I1. cbn in I1. destruct I1 as (l' & I1 & I2). destruct (proj2 O' k l' I1) as [_ SL'].
    enough (E' : l = l') by (rewrite E'; exact I1).
    assert (UQ : forall n : amap, StronglySorted klt n -> forall k l1 l2, In (k, l1) n -> In (k, l2) n -> l1 = l2).
    { clear. induction n as [|[k0 l0] n IH]; intros S k l1 l2 I1 I2; [destruct I1|]. inversion S as [|? ? S1 F]; subst.
      rewrite Forall_forall in F. destruct I1 as [I1|I1], I2 as [I2|I2]; try congruence; [| |eauto].
      - injection I1 as <- <-. specialize (F _ I2). unfold klt in F. cbn in F. lia.
      - injection I2 as <- <-. specialize (F _ I1). unfold klt in F. cbn in F. lia. }
    apply (sorted_same alt alt_irrefl alt_trans); auto. intro x. split; intro X.
    - assert (Y : In (k, x) (am_asset_vector m')) by (apply E, in_vec; exists l; auto).
      apply in_vec in Y. cbn in Y. destruct Y as (l2 & Y1 & Y2). rewrite (UQ m' (proj1 O') k l' l2); auto.
    - assert (Y : In (k, x) (am_asset_vector m)) by (apply E, in_vec; exists l'; auto).
      apply in_vec in Y. cbn in Y. destruct Y as (l2 & Y1 & Y2). rewrite (UQ m (proj1 O) k l l2); auto. }
  intros m m' O O' E. apply (sorted_same klt).
  - unfold klt. intros. lia.
  - unfold klt. intros. lia.
  - apply O.
  - apply O'.
  - intros [k l]. split; apply MEM; auto. firstorder.
Qed.

Section Props.
Context {LD ID IT UT NT NF : Type}.
Variable dl : LD.
Variable di : ID.
Variable join : ID -> ID -> ID.
Variable joinl : LD -> LD -> ID.
Variable ldeqb : LD -> LD -> bool.
Variable ideqb : ID -> ID -> bool.
Variable H : nat.
Variable chk : bool.
Variable dg : IT -> LD.
Variable sh : IT -> nat.
Variable open_note : UT -> NT -> option (N * asset).
Variable item : UT -> IT.
Variable spend_item : N -> asset -> IT.
Variable spend_null : N -> asset -> NF.
Variable nfeqb : NF -> NF -> bool.
Variable can_open : NF -> bool.
Hypothesis HH : 3 <= H.
Hypothesis ldeqb_spec : forall a b, ldeqb a b = true <-> a = b.
Hypothesis ideqb_spec : forall a b, ideqb a b = true <-> a = b.
Hypothesis nfeqb_spec : forall a b, nfeqb a b = true <-> a = b.
Hypothesis join_nd : forall a b, join a b <> di.
Hypothesis joinl_nd : forall a b, joinl a b <> di.
Variable L : ledger UT NT NF.
Notation w := (length (l_notes L)).
Notation nsh := (note_sh (NT := NT) sh item).
Hypothesis LOK : ledger_ok open_note spend_null nsh dg item spend_item can_open L.
Hypothesis CAP : forall i, length (l_shard L i) <= 2 ^ (H - 1).

Notation received := (received open_note).
Notation nul := (null_of spend_null).
Notation sync := (sync dl di join joinl ldeqb ideqb H chk dg sh open_note item spend_item spend_null nfeqb can_open).
Notation signer := (signer (LD := LD) (ID := ID) (NF := NF)).
Notation Inv := (Inv dl di join joinl H dg sh open_note item spend_item spend_null can_open L (td := true)).
Notation vec := am_asset_vector.

(** The signers that come from a new one by syncs with replies of the ledger [L]; a sync may
    also have returned an error. *)
Inductive synced : signer -> Prop :=
| syn_new s : new_signer dl di join joinl ideqb H w = Some s -> synced s
| syn_step s o d s' r : synced s -> reply nsh L o d -> in_step nsh (s_ck s) o d -> sync s o d = Some (s', r) -> synced s'.

Lemma synced_inv s : synced s -> Inv s.
Proof.
  induction 1 as [s E|s o d s' r _ IV R ST E].
  - destruct (new_spec (td := true) dl di join joinl ldeqb ideqb H dg sh open_note item spend_item spend_null can_open
      HH ldeqb_spec ideqb_spec join_nd joinl_nd L) as (s0 & E0 & IV & _). congruence.
  - pose proof (sync_spec dl di join joinl ldeqb ideqb H chk dg sh open_note item spend_item spend_null nfeqb can_open
      HH ldeqb_spec ideqb_spec nfeqb_spec join_nd joinl_nd L LOK CAP s o d IV R ST) as G.
    rewrite E in G. apply G.
Qed.

(** C14: the stored assets are exactly the received notes whose nullifier was not reported. *)
Theorem c14_assets : forall s, synced s ->
  Permutation (vec (s_assets s)) (unspent open_note spend_null nfeqb L (s_ck s)).
Proof.
  intros s Y. pose proof (synced_inv s Y) as IV.
  eapply stored_unspent; eauto; apply IV.
Qed.

(** C14: signers with the same checkpoint store the same assets: the split of the ledger into
    syncs does not matter. *)
Theorem c14_split : forall s1 s2, synced s1 -> synced s2 -> s_ck s1 = s_ck s2 -> s_assets s1 = s_assets s2.
Proof.
  intros s1 s2 Y1 Y2 E.
  pose proof (i_J _ _ _ _ _ _ _ _ _ _ _ _ _ _ (synced_inv s1 Y1)) as [O1 _ _ _ _].
  pose proof (i_J _ _ _ _ _ _ _ _ _ _ _ _ _ _ (synced_inv s2 Y2)) as [O2 _ _ _ _].
  apply am_same; auto. 
  assert (P : Permutation (vec (s_assets s1)) (vec (s_assets s2))).
  { rewrite (c14_assets s1 Y1), (c14_assets s2 Y2), E. reflexivity. }
  intro r. split; apply Permutation_in; [exact P|symmetry; exact P].
Qed.

(** What a sync reports to the wallet, for the assets stored before and after: a partial update
    is the change per asset id, with no more deposited than there is after and no more withdrawn
    than there was before; a full update is the totals. *)
Definition report_right (old new : list (N * asset)) (u : balance_update) : Prop :=
  match u with
  | BPartial dep wd => forall id, (total (map snd new) id + total wd id = total (map snd old) id + total dep id)%N /\
      (total dep id <= total (map snd new) id)%N /\ (total wd id <= total (map snd old) id)%N
  | BFull l => forall id, total l id = total (map snd new) id
  end.

(** The totals of the unspent notes at a checkpoint fit in the type of values. *)
Definition fits (c : ckpt) : Prop := forall id, (total (map snd (unspent open_note spend_null nfeqb L c)) id <= vmax)%N.

(** C14: a sync of a synced signer that returns without error reports the change of the stored
    total of every asset id. *)
Theorem c14_report : forall s o d s' c u, synced s -> reply nsh L o d -> in_step nsh (s_ck s) o d ->
  sync s o d = Some (s', inl (c, u)) ->
  report_right (vec (s_assets s)) (vec (s_assets s')) u /\ c = s_ck s'.
Proof.
  intros s o d s' c u Y R ST E.
  pose proof (sync_spec dl di join joinl ldeqb ideqb H chk dg sh open_note item spend_item spend_null nfeqb can_open
      HH ldeqb_spec ideqb_spec nfeqb_spec join_nd joinl_nd L LOK CAP s o d (synced_inv s Y) R ST) as G.
  rewrite E in G. destruct G as (_ & _ & G). cbn [reported] in G. destruct u; destruct G as [-> G]; split; auto.
Qed.

(** C14: without overflow checks (a release build) and with totals in range, a sync with a reply
    of the ledger neither panics nor returns an error. *)
Theorem c14_succeeds : forall s o d, chk = false -> synced s -> reply nsh L o d -> in_step nsh (s_ck s) o d ->
  fits (s_ck s) -> (forall c, ck_after nsh (s_ck s) o d c -> fits c) ->
  exists s' c u, sync s o d = Some (s', inl (c, u)).
Proof.
  intros s o d C Y R ST F F'.
  pose proof (sync_spec dl di join joinl ldeqb ideqb H chk dg sh open_note item spend_item spend_null nfeqb can_open
      HH ldeqb_spec ideqb_spec nfeqb_spec join_nd joinl_nd L LOK CAP s o d (synced_inv s Y) R ST) as G.
  destruct (sync s o d) as [[s' [[c u]|[|]]]|] eqn:E; [eauto| | |].
  - destruct G as (_ & _ & []).
  - destruct G as (_ & K & id & G). exfalso. assert (Y' : synced s') by (eapply syn_step; eauto).
    specialize (F id). specialize (F' _ K id). unfold worth in G.
    rewrite (total_perm _ _ id (Permutation_map snd (c14_assets s Y))), (total_perm _ _ id (Permutation_map snd (c14_assets s' Y'))) in G.
    destruct G as [G|G]; apply N.lt_nge in G; contradiction.
  - destruct G as [G|(c & id & K & G)]; [congruence|]. exfalso. specialize (F' _ K id). apply N.lt_nge in G. contradiction.
Qed.

(** The reply to a request with the own checkpoint is always in step. *)
Theorem c14_own_request_in_step : forall (c : ckpt) (d : sdata (UT * NT) NF), in_step nsh c c d.
Proof.
  intros c d. split; [split; [auto|split; auto]|]. intros last (A1 & A2 & A3). right. split; [auto|]. split; [|rewrite A3; apply Nat.le_add_r].
  intro i. destruct (Nat.lt_ge_cases i (length (recv c))) as [Hi|Hi].
  - rewrite (A2 i Hi). apply Nat.le_add_r.
  - unfold at_shard. rewrite (nth_overflow (recv c)) by auto. apply Nat.le_0_l.
Qed.

(** C14 with C09: every stored asset has a membership proof for its item, which verifies against
    the root of the tree of all notes of its shard that the checkpoint counts. *)
Theorem c14_spendable : forall s k a, synced s -> In (k, a) (vec (s_assets s)) ->
  exists p r, fo_prove dl di join joinl ldeqb H chk dg sh (s_acc s) (spend_item k a) = Some (Some (p, r)) /\
    path_verify join joinl ideqb p r (dg (spend_item k a)) = true /\
    let j := sh (spend_item k a) in
    r = spec_root dl di join joinl H (map (fun un => dg (item (fst un))) (firstn (at_shard (s_ck s) j) (l_shard L j))).
Proof.
  intros s k a Y I. pose proof (synced_inv s Y) as IV.
  destruct (i_acc _ _ _ _ _ _ _ _ _ _ _ _ _ _ IV) as (ss & xs & A & HS & OK & HO & PV).
  destruct (prov_proof dl di join joinl ldeqb ideqb dg sh H HH ldeqb_spec ideqb_spec join_nd joinl_nd chk w _ ss xs [] _ A HS OK (PV _ I)) as (p & r & t & E & _ & _ & R & V).
  exists p, r. split; [exact E|]. split; [exact V|]. cbn zeta.
  assert (SW : sh (spend_item k a) < w).
  { apply (itm_sh dl di join joinl ldeqb ideqb H dg sh open_note item spend_item spend_null can_open HH ldeqb_spec ideqb_spec join_nd joinl_nd L LOK CAP (k, a)).
    apply (seen_incl open_note L (s_ck s)). apply (Permutation_in _ (c14_assets s Y)) in I. apply filter_In in I. apply I. }
  unfold SgSync.itm in R. cbn [fst snd] in R. rewrite app_nil_r in R. unfold shard_items in R. rewrite (HO _ SW) in R.
  rewrite map_map, firstn_map in R. rewrite R. f_equal. f_equal. rewrite firstn_firstn. f_equal. apply Nat.min_r.
  etransitivity; [apply (i_le _ _ _ _ _ _ _ _ _ _ _ _ _ _ IV)|apply CAP].
Qed.

(** C20: after a sync every counter of the checkpoint is the number of items processed: the
    larger of the old counter and the end of the reply. *)
Theorem c20_sync : forall s o d s' r, synced s -> reply nsh L o d -> in_step nsh (s_ck s) o d ->
  sync s o d = Some (s', r) -> ck_after nsh (s_ck s) o d (s_ck s').
Proof.
  intros s o d s' r Y R ST E.
  pose proof (sync_spec dl di join joinl ldeqb ideqb H chk dg sh open_note item spend_item spend_null nfeqb can_open
      HH ldeqb_spec ideqb_spec nfeqb_spec join_nd joinl_nd L LOK CAP s o d (synced_inv s Y) R ST) as G.
  rewrite E in G. apply G.
Qed.

(** C20: the counters are the lengths of the trees of the accumulator, whose roots are those of
    the notes counted. *)
Theorem c20_accumulator : forall s, synced s ->
  recv (s_ck s) = map ft_len (s_acc s) /\
  (forall i, at_shard (s_ck s) i <= length (l_shard L i)) /\ send (s_ck s) <= length (l_nulls L).
Proof.
  intros s Y. pose proof (synced_inv s Y) as IV.
  destruct (i_acc _ _ _ _ _ _ _ _ _ _ _ _ _ _ IV) as (ss & xs & A & HS & OK & HO & PV).
  pose proof (i_le _ _ _ _ _ _ _ _ _ _ _ _ _ _ IV) as LE. pose proof (i_len _ _ _ _ _ _ _ _ _ _ _ _ _ _ IV) as LN.
  split; [|split; [exact LE|apply (i_send _ _ _ _ _ _ _ _ _ _ _ _ _ _ IV)]].
  destruct (has_lengths dl di join joinl ldeqb ideqb dg sh H HH ldeqb_spec ideqb_spec join_nd joinl_nd chk w _ ss xs [] A HS) as [LA NA].
  apply nth_ext with (d := 0) (d' := 0); [congruence|]. intros j Hj. rewrite LN in Hj. rewrite (NA j Hj), app_nil_r.
  unfold shard_items. rewrite map_length, (HO j Hj), map_length, firstn_length. fold (at_shard (s_ck s) j).
  pose proof (LE j). pose proof (CAP j). rewrite (Nat.min_l (at_shard (s_ck s) j)) by auto. symmetry. apply Nat.min_r.
  etransitivity; eauto.
Qed.
End Props.

(** ** SBT synchronisation *)
Section Sbt.
Context {LD ID IT UT NT NF : Type}.
Variable sh : IT -> nat.
Variable open_note : UT -> NT -> option (N * asset).
Variable item : UT -> IT.
Notation nsh := (note_sh (NT := NT) sh item).
Notation sbt_sync := (sbt_sync (LD := LD) (ID := ID) (NF := NF) sh open_note item).
Notation vec := am_asset_vector.

Lemma sbt_notes_spec : forall (us : list (UT * NT)) m dep, am_ok m ->
  let '(m', dep') := sbt_notes open_note m dep us in
  am_ok m' /\ (forall r, In r (vec m') <-> In r (vec m) \/ In r (received open_note us)) /\
  (forall id, total dep' id = (total dep id + total (map snd (received open_note us)) id)%N).
Proof.
  induction us as [|[u n] us IH]; intros m dep O; cbn [sbt_notes].
  - split; auto. split; [cbn; tauto|]. intro id. cbn. lia.
  - unfold received. cbn [flat_map fst snd]. fold (received open_note us).
    destruct (open_note u n) as [[k a]|]; [|apply IH; auto].
    destruct (am_insert_spec m k a O) as (O' & IN).
    specialize (IH (am_insert m k a) (if (snd a =? 0)%N then dep else dep ++ [a]) O').
    destruct (sbt_notes open_note (am_insert m k a) _ us) as [m' dep']. destruct IH as (I1 & I2 & I3).
    split; auto. split.
    + intro r. rewrite I2. destruct r as [k' a']. rewrite IN. cbn [app In].
      assert (E : (k', a') = (k, a) <-> (k, a) = (k', a')) by (split; auto). tauto.
    + intro id. rewrite I3. cbn [app map snd total]. destruct (N.eqb_spec (snd a) 0) as [Z|Z].
      * rewrite Z. destruct (fst a =? id)%N; lia.
      * rewrite total_app. cbn [total]. destruct (fst a =? id)%N; lia.
Qed.

Lemma utxo_count_spec w (us : list (UT * NT)) : (forall u, In u us -> nsh u < w) ->
  exists c, utxo_count sh item w us = Some c /\ length c = w /\ forall i, i < w -> nth i c 0 = count_shard nsh i us.
Proof.
  intro F. unfold utxo_count. pose proof (sort_items_spec sh w (map (fun un => item (fst un)) us)) as S0.
  destruct (forallb _ _) eqn:B.
  - destruct S0 as (g & -> & LG & NG). exists (map (@length IT) g). split; auto. split; [rewrite map_length; auto|].
    intros i Hi. rewrite (map_nth (@length IT) g [] i : nth i (map (@length IT) g) 0 = _), NG.
    rewrite of_shard_items, map_length. reflexivity.
  - exfalso. apply not_true_iff_false in B. apply B. apply forallb_forall. intros x Hx. apply in_map_iff in Hx.
    destruct Hx as (u & <- & Hu). apply Nat.ltb_lt. apply (F u Hu).
Qed.

(** C20 for SBTs, only for a reply to a request with the signer's own checkpoint: the counters
    advance by the items of the reply and the assets gain the notes that can be opened. *)
Theorem c20_sbt_own_request_partial : forall w (s : signer (LD := LD) (ID := ID) (NF := NF)) (d : sdata (UT * NT) NF),
  length (recv (s_ck s)) = w -> (forall u, In u (notes d) -> nsh u < w) -> am_ok (s_assets s) ->
  exists s' dep, sbt_sync w s (s_ck s) d = Some (s', inl (s_ck s', BPartial dep [])) /\
    ck_after nsh (s_ck s) (s_ck s) d (s_ck s') /\
    (forall r, In r (vec (s_assets s')) <-> In r (vec (s_assets s)) \/ In r (received open_note (notes d))) /\
    (forall id, total dep id = total (map snd (received open_note (notes d))) id).
Proof.
  intros w s d LW F O. unfold SgModel.sbt_sync.
  destruct (utxo_count_spec w (notes d) F) as (c & -> & LC & NC).
  assert (P : prune_sync_request nsh (s_ck s) (s_ck s) d = Ret (Some (false, d))).
  { assert (CV : covers (s_ck s) (s_ck s)) by (split; [auto|split; auto]).
    unfold prune_sync_request. rewrite (covers_not_lt _ _ CV). unfold prune.
    assert (E : ck_leb (s_ck s) (s_ck s) = true). { unfold ck_leb, ck_cmp. rewrite lex_refl, Nat.compare_refl. reflexivity. }
    rewrite E. reflexivity. }
  rewrite P. pose proof (sbt_notes_spec (notes d) (s_assets s) [] O) as S0.
  destruct (sbt_notes open_note (s_assets s) [] (notes d)) as [m dep]. destruct S0 as (O' & I1 & I2).
  unfold update_from_utxo_count, update_from_nullifiers. cbn [recv send]. rewrite LC, LW, Nat.eqb_refl.
  exists (mk_signer (s_acc s) m (s_nulls s) (mk_ckpt (map (fun p : nat * nat => fst p + snd p) (combine (recv (s_ck s)) c)) (send (s_ck s) + length (nulls d)))), dep.
  split; [reflexivity|]. cbn [s_ck s_assets]. split; [|split; [exact I1|]].
  - split; cbn [recv send].
    + rewrite map_length, combine_length, LC, LW. lia.
    + split; [|lia]. intros i Hi. rewrite LW in Hi. unfold at_shard at 1. cbn [recv].
      assert (PN : forall a b j, length a = length b -> j < length a ->
        nth j (map (fun p : nat * nat => fst p + snd p) (combine a b)) 0 = nth j a 0 + nth j b 0).
      { clear. induction a as [|x a IH]; intros [|y b] j E Hj; cbn [length] in *; try lia.
        destruct j; cbn [combine map nth fst snd]; auto. apply IH; lia. }
      rewrite PN by lia. rewrite (NC i Hi). unfold at_shard. lia.
  - intro id. rewrite I2. cbn [total]. lia.
Qed.
End Sbt.

(** ** Concrete cases *)

(** Utxos are numbers, their shard is the parity; a note carries the asset if it is ours; the
    nullifier of a utxo is its number; nullifiers from 100 on cannot be opened. *)
Definition xs_open (u : nat) (n : option asset) : option (N * asset) := option_map (fun a => (N.of_nat u, a)) n.
Definition xs_sh (x : nat) : nat := x mod 2.
Definition xs_item (u : nat) : nat := u.
Definition xs_spend_item (k : N) (a : asset) : nat := N.to_nat k.
Definition xs_spend_null (k : N) (a : asset) : N := k.
Definition xs_can (v : N) : bool := (v <? 100)%N.
Definition xs_nsh := note_sh (NT := option asset) xs_sh xs_item.
Definition xs_sync chk := sync 0 D0 DJ DL Nat.eqb dig_eqb 4 chk (fun x : nat => x) xs_sh xs_open xs_item xs_spend_item xs_spend_null N.eqb xs_can.
Definition xs_new := new_signer (NF := N) 0 D0 DJ DL dig_eqb 4 2.
Definition xs_s0 : signer := match xs_new with Some s => s | None => mk_signer [] [] [] (mk_ckpt [] 0) end.
Definition xs_synced chk := synced 0 D0 DJ DL Nat.eqb dig_eqb 4 chk (fun x : nat => x) xs_sh xs_open xs_item xs_spend_item xs_spend_null N.eqb xs_can.
Definition xs_ok := ledger_ok xs_open xs_spend_null xs_nsh (fun x : nat => x) xs_item xs_spend_item xs_can.
Definition xs_sbt := sbt_sync (LD := nat) (ID := dig) (NF := N) xs_sh xs_open xs_item 2.

(** Two shards; the first note of shard 1 is spent, one nullifier is not ours. *)
Definition xs_L : ledger nat (option asset) N :=
  mk_ledger [[(2, Some (7, 5)%N); (4, None); (6, Some (8, 1)%N)]; [(3, Some (7, 9)%N); (5, None); (9, Some (7, 2)%N)]] [200; 3; 6]%N.

Lemma xs_ledger_ok (L : ledger nat (option asset) N) :
  (forall i u, In u (l_shard L i) -> xs_nsh u = i) -> NoDup (map (fun r => fst r) (received xs_open (concat (l_notes L)))) ->
  Forall (fun r => (fst r <? 100)%N = true /\ (snd (snd r) <=? vmax)%N = true) (received xs_open (concat (l_notes L))) -> xs_ok L.
Proof.
  intros SH ND F. rewrite Forall_forall in F. constructor; auto.
  - unfold xs_spend_item. replace (map (fun r : N * asset => N.to_nat (fst r)) (received xs_open (concat (l_notes L))))
      with (map N.to_nat (map fst (received xs_open (concat (l_notes L))))) by apply map_map.
    apply FinFun.Injective_map_NoDup; auto. intros a b E. apply N2Nat.inj. auto.
  - intros r Hr. apply F. auto.
  - intros u n k a _ E. unfold xs_open in E. destruct n; inversion E. unfold xs_spend_item, xs_item. apply Nat2N.id.
  - intros r Hr. apply N.leb_le. apply F. auto.
Qed.

Lemma two_shards {A} (P : nat -> A -> Prop) (a b : list A) : Forall (P 0) a -> Forall (P 1) b -> forall i u, In u (nth i [a; b] []) -> P i u.
Proof. rewrite !Forall_forall. intros A0 B0 [|[|[|]]] u I; cbn in I; auto; contradiction. Qed.

Ltac list_tac := match goal with |- context [received xs_open (concat (l_notes ?L))] =>
  let l := eval vm_compute in (received xs_open (concat (l_notes L))) in change (received xs_open (concat (l_notes L))) with l end.
Lemma xs_L_ok : xs_ok xs_L.
Proof.
  apply xs_ledger_ok.
  - unfold l_shard. apply (two_shards (fun i u => xs_nsh u = i)); repeat constructor.
  - vm_compute. repeat constructor; cbn; intuition discriminate.
  - list_tac. repeat (apply Forall_cons; [split; reflexivity|]). apply Forall_nil.
Qed.

Definition xs_o : ckpt := mk_ckpt [0; 0] 0.
(** The first reply, a second one that starts at the same point and goes further, and the whole
    ledger in one reply. *)
Definition xs_d1 : sdata (nat * option asset) N := mk_sdata [(3, Some (7, 9)%N); (2, Some (7, 5)%N); (4, None)] [200; 3]%N.
Definition xs_d2 : sdata (nat * option asset) N :=
  mk_sdata [(2, Some (7, 5)%N); (3, Some (7, 9)%N); (5, None); (4, None); (6, Some (8, 1)%N); (9, Some (7, 2)%N)] [200; 3; 6]%N.

Ltac reply_tac := split; [reflexivity|split; [|split; [|eexists; reflexivity]]];
  [apply Forall_forall; repeat constructor | intros [|[|i]] Hi; [eexists; reflexivity|eexists; reflexivity|exfalso; cbn in Hi; lia]].
Ltac step_tac := match goal with |- in_step _ ?c _ _ => let v := eval vm_compute in c in change c with v end; let last := fresh in let A := fresh in let A1 := fresh in let A2 := fresh in let A3 := fresh in
  split; [split; [reflexivity|split; [intros [|[|[|?]]]; cbn; lia|cbn; lia]]|];
  intros last A; right; destruct A as (A1 & A2 & A3); cbn [recv length xs_o] in A1, A2;
  split; [exact A1|split; [intros [|[|[|i]]]; [rewrite (A2 0) by (cbn; lia)|rewrite (A2 1) by (cbn; lia)| |]; cbn; lia|rewrite A3; cbn; lia]].

Lemma xs_reply1 : reply xs_nsh xs_L xs_o xs_d1. Proof. reply_tac. Qed.
Lemma xs_reply2 : reply xs_nsh xs_L xs_o xs_d2. Proof. reply_tac. Qed.
Lemma xs_step0 : in_step xs_nsh (s_ck xs_s0) xs_o xs_d1. Proof. step_tac. Qed.
Definition xs_s1 : signer := match xs_sync false xs_s0 xs_o xs_d1 with Some (s, _) => s | None => xs_s0 end.
Lemma xs_step1 : in_step xs_nsh (s_ck xs_s1) xs_o xs_d2. Proof. step_tac. Qed.
Lemma xs_step2 : in_step xs_nsh (s_ck xs_s0) xs_o xs_d2. Proof. step_tac. Qed.

Example ex_c14_first : xs_sync false xs_s0 xs_o xs_d1 = Some (xs_s1, inl (mk_ckpt [2; 1] 2, BPartial [(7, 5)%N] [])).
Proof. vm_compute. reflexivity. Qed.
Definition xs_s2 : signer := match xs_sync false xs_s1 xs_o xs_d2 with Some (s, _) => s | None => xs_s0 end.
Example ex_c14_overlap : xs_sync false xs_s1 xs_o xs_d2 = Some (xs_s2, inl (mk_ckpt [3; 3] 3, BFull [(7, 7)%N])) /\
  am_asset_vector (s_assets xs_s2) = [(2, (7, 5)); (9, (7, 2))]%N.
Proof. vm_compute. auto. Qed.
Lemma xs_syn0 chk : xs_synced chk xs_L xs_s0. Proof. apply syn_new. vm_compute. reflexivity. Qed.
Lemma xs_syn1 : xs_synced false xs_L xs_s1.
Proof. eapply syn_step; [apply xs_syn0|apply xs_reply1|apply xs_step0|apply ex_c14_first]. Qed.
Example ex_c14_synced : xs_synced false xs_L xs_s2 /\ s_ck xs_s2 = mk_ckpt [3; 3] 3.
Proof. split; [|reflexivity]. eapply syn_step; [apply xs_syn1|apply xs_reply2|apply xs_step1|apply ex_c14_overlap]. Qed.
Definition xs_s3 : signer := match xs_sync false xs_s0 xs_o xs_d2 with Some (s, _) => s | None => xs_s0 end.
Lemma xs_whole : xs_sync false xs_s0 xs_o xs_d2 = Some (xs_s3, inl (mk_ckpt [3; 3] 3, BPartial [(7, 7)%N] [])).
Proof. vm_compute. reflexivity. Qed.
Example ex_c14_whole : xs_synced false xs_L xs_s3 /\ s_ck xs_s3 = s_ck xs_s2 /\ s_assets xs_s3 = s_assets xs_s2 /\ s_nulls xs_s3 = s_nulls xs_s2.
Proof.
  split; [eapply syn_step; [apply xs_syn0|apply xs_reply2|apply xs_step2|apply xs_whole]|].
  vm_compute. auto.
Qed.
Example ex_c14_premises : 3 <= 4 /\ xs_ok xs_L /\ (forall i, length (l_shard xs_L i) <= 2 ^ (4 - 1)) /\
  fits xs_open xs_spend_null N.eqb xs_L (mk_ckpt [3; 3] 3).
Proof.
  split; [lia|]. split; [apply xs_L_ok|]. split; [intros [|[|[|]]]; cbn; lia|].
  intro id. assert (E : unspent xs_open xs_spend_null N.eqb xs_L (mk_ckpt [3; 3] 3) = [(2, (7, 5)); (9, (7, 2))]%N) by (vm_compute; reflexivity).
  rewrite E. cbn [map snd fst total]. destruct (7 =? id)%N; apply N.leb_le; reflexivity.
Qed.

(** With overflow checks (a debug build) a sync panics when it gets the nullifier of a stored
    asset whose note is already committed: remove_proof computes a negative index. *)
Definition xs_L' : ledger nat (option asset) N := mk_ledger (l_notes xs_L) [200; 3; 2]%N.
Definition xs_d3 : sdata (nat * option asset) N := mk_sdata (notes xs_d2) [200; 3]%N.
Definition xs_s1c : signer := match xs_sync true xs_s0 xs_o xs_d3 with Some (s, _) => s | None => xs_s0 end.
Definition xs_o' : ckpt := mk_ckpt [3; 3] 2.
Definition xs_d' : sdata (nat * option asset) N := mk_sdata [] [2]%N.
Theorem c14_overflow_check_refuted : exists (L : ledger nat (option asset) N) s o d,
  xs_ok L /\ (forall i, length (l_shard L i) <= 2 ^ (4 - 1)) /\
  xs_synced true L s /\ reply xs_nsh L o d /\ in_step xs_nsh (s_ck s) o d /\
  xs_sync true s o d = None /\
  exists s', xs_sync false s o d = Some (s', inl (mk_ckpt [3; 3] 3, BPartial [] [(7, 5)%N])).
Proof.
  exists xs_L', xs_s1c, xs_o', xs_d'.
  split. { constructor; apply xs_L_ok. }
  split; [intros [|[|[|]]]; cbn; lia|].
  split. { eapply (syn_step _ _ _ _ _ _ _ _ _ _ _ _ _ _ _ _ _ xs_s0 xs_o xs_d3 _ (inl (mk_ckpt [3; 3] 2, BPartial [(7, 7); (8, 1)]%N []))).
    - apply syn_new. vm_compute. reflexivity.
    - reply_tac.
    - step_tac.
    - vm_compute. reflexivity. }
  split; [reply_tac|]. split; [step_tac|]. split; [vm_compute; reflexivity|].
  exists (match xs_sync false xs_s1c xs_o' xs_d' with Some (s, _) => s | None => xs_s0 end).
  vm_compute; reflexivity.
Qed.

(** The error InconsistentBalance is returned after the state has changed: the deposits of a
    reply whose total exceeds the type of values are stored, and are in no report. *)
Definition xs_big : N := (2 ^ 127)%N.
Definition xs_Lb : ledger nat (option asset) N := mk_ledger [[(2, Some (7, xs_big)%N); (4, Some (7, xs_big)%N)]; []] [].
Definition xs_db : sdata (nat * option asset) N := mk_sdata [(2, Some (7, xs_big)%N); (4, Some (7, xs_big)%N)] [].
Theorem c14_error_keeps_changes_refuted : exists (L : ledger nat (option asset) N) s o d s',
  xs_ok L /\ (forall i, length (l_shard L i) <= 2 ^ (4 - 1)) /\
  xs_synced false L s /\ reply xs_nsh L o d /\ in_step xs_nsh (s_ck s) o d /\
  xs_sync false s o d = Some (s', inr InconsistentBalance) /\
  s_assets s = [] /\ am_asset_vector (s_assets s') = [(2, (7, xs_big)); (4, (7, xs_big))]%N /\ s_ck s' <> s_ck s.
Proof.
  exists xs_Lb, xs_s0, xs_o, xs_db, (match xs_sync false xs_s0 xs_o xs_db with Some (s, _) => s | None => xs_s0 end).
  split. { apply xs_ledger_ok.
    - unfold l_shard. apply (two_shards (fun i u => xs_nsh u = i)); repeat constructor.
    - vm_compute. repeat constructor; cbn; intuition discriminate.
    - list_tac. repeat (apply Forall_cons; [split; reflexivity|]). apply Forall_nil. }
  split; [intros [|[|[|]]]; cbn; lia|]. split; [apply syn_new; vm_compute; reflexivity|].
  split; [reply_tac|]. split; [step_tac|]. split; [vm_compute; reflexivity|]. split; [reflexivity|].
  split; [vm_compute; reflexivity|]. vm_compute. discriminate.
Qed.

(** C20 for SBTs: a reply of which a part was seen before is counted twice: the count is taken
    before pruning.  The counter ends beyond the ledger. *)
Theorem c20_sbt_refuted : exists s o d s' u,
  xs_synced false xs_L s /\ reply xs_nsh xs_L o d /\ in_step xs_nsh (s_ck s) o d /\
  xs_sbt s o d = Some (s', inl (s_ck s', u)) /\ ~ ck_after xs_nsh (s_ck s) o d (s_ck s') /\
  length (l_shard xs_L 0) < at_shard (s_ck s') 0.
Proof.
  exists xs_s1, xs_o, xs_d2.
  set (r := xs_sbt xs_s1 xs_o xs_d2).
  exists (match r with Some (s, _) => s | None => xs_s0 end), (match r with Some (_, inl (_, u)) => u | _ => BFull [] end).
  split; [apply xs_syn1|]. split; [apply xs_reply2|]. split; [apply xs_step1|]. split; [vm_compute; reflexivity|]. split.
  - intros (_ & A & _). specialize (A 0). vm_compute in A. assert (Z : 1 <= 2) by lia. specialize (A Z). discriminate.
  - vm_compute. repeat constructor.
Qed.

Print Assumptions c14_assets.
Print Assumptions c14_split.
Print Assumptions c14_report.
Print Assumptions c14_succeeds.
Print Assumptions c14_own_request_in_step.
Print Assumptions c14_spendable.
Print Assumptions c14_overflow_check_refuted.
Print Assumptions c14_error_keeps_changes_refuted.
Print Assumptions c20_sync.
Print Assumptions c20_accumulator.
Print Assumptions c20_sbt_own_request_partial.
Print Assumptions c20_sbt_refuted.
