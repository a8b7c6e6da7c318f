(** Properties C15, C16, C17 and C21: what signing does to the signer, and what the posts move. *)
From Coq Require Import List Arith NArith Lia Bool Permutation Sorted.
From Verif Require Import MtModel MtSpec MtTest PtModel PtSpec PtProps FkSpec FkProps FoSpec FoInv FoProps AssetModel AssetSpec AssetLemmas AssetSelect AssetNorm AssetMap AssetProps
  CkModel CkSpec SgModel SgSpec SgAcc SgSync SgInv SgProps SnModel SnSpec SnJoin SnAcc SnGood.
Import ListNotations.
Open Scope nat_scope.

(** ** Selection, whatever the values add up to *)
Lemma sel_loop_sound req : forall cs pre sum vals best c vs, sel_loop req cs sum vals best = Some (c, vs) ->
  sum = coin_total vals -> sublist vals pre -> (match best with Some b => In b pre /\ (req < snd b)%N | None => True end) ->
  vs = [] \/ (coin_total vs = req + c)%N /\ sublist vs (pre ++ cs).
Proof.
  induction cs as [|[k v] cs IH]; intros pre sum vals best c vs E S0 SV B; cbn [sel_loop] in E.
  - rewrite app_nil_r. destruct best as [[bk bv]|].
    + injection E as <- <-. right. destruct B as [B1 B2]. cbn [snd] in B2. rewrite coin_total_one. split; [lia|apply sublist_in1; auto].
    + destruct (N.ltb_spec sum req); injection E as <- <-; [left; reflexivity|right]. split; [lia|exact SV].
  - replace (pre ++ (k, v) :: cs) with ((pre ++ [(k, v)]) ++ cs) by (rewrite <- app_assoc; reflexivity).
    assert (S1 : sublist vals (pre ++ [(k, v)])) by (rewrite <- (app_nil_r vals); apply sublist_app; [auto|apply sublist_nil]).
    destruct (N.ltb_spec req v) as [C|C].
    + eapply IH; [exact E|auto|auto|]. destruct best as [b|].
      * destruct B as [B1 B2]. destruct (snd b <=? v)%N; split; auto; apply in_or_app; cbn; auto.
      * split; auto. apply in_or_app. cbn. auto.
    + assert (B' : match best with Some b => In b (pre ++ [(k, v)]) /\ (req < snd b)%N | None => True end).
      { destruct best as [b|]; auto. destruct B. split; auto. apply in_or_app. auto. }
      destruct (N.eqb_spec v req) as [->|].
      * injection E as <- <-. right. rewrite coin_total_one. split; [lia|]. apply sublist_in1. rewrite <- app_assoc. apply in_or_app. cbn. auto.
      * destruct (sum <? req)%N.
        -- destruct (vmax <? sum + v)%N; [discriminate|]. eapply IH; [exact E| |apply sublist_app; [exact SV|apply sublist_refl]|exact B'].
           rewrite coin_total_app, coin_total_one. lia.
        -- eapply IH; eauto.
Qed.

(** The coins of one asset id as senders. *)
Definition as_coins (id : N) (vs : list (N * N)) : list (N * asset) := map (fun kv => (fst kv, (id, snd kv))) vs.
Lemma as_coins_tot id vs : tot (as_coins id vs) = coin_total vs /\ of_id id (as_coins id vs).
Proof.
  unfold as_coins, tot, coin_total, of_id. split.
  - induction vs as [|[k v] vs IH]; cbn [map sumv amount fold_right snd fst]; auto. unfold amount in IH. rewrite IH. reflexivity.
  - rewrite Forall_map. apply Forall_forall. reflexivity.
Qed.

(** [coins] are different entries of the asset map with asset id [id]. *)
Definition stored_coins (m : amap) (id : N) (cs : list (N * asset)) : Prop :=
  of_id id cs /\ NoDup cs /\ incl cs (am_asset_vector m).

Lemma sublist_incl {A} (a b : list A) : sublist a b -> incl a b.
Proof. intros S x I. induction S; cbn in *; [destruct I| |]; intuition. Qed.
Lemma sublist_nodup {A} (a b : list A) : sublist a b -> NoDup b -> NoDup a.
Proof.
  induction 1 as [| |x a b S IH]; intro N; auto.
  - inversion N; auto.
  - inversion N; subst. constructor; auto. intro I. apply (sublist_incl _ _ S) in I. auto.
Qed.
Lemma as_coins_filter m id : as_coins id (coins m id) =
  filter (fun r => (fst (snd r) =? id)%N && negb (snd (snd r) =? 0)%N) (am_asset_vector m).
Proof.
  unfold as_coins, coins, am_asset_vector. induction m as [|[k l] m IH]; [reflexivity|]. cbn [flat_map fst snd].
  rewrite map_app, filter_app, IH. f_equal. clear. induction l as [|[i v] l IH]; [reflexivity|]. cbn [flat_map map filter fst snd].
  rewrite map_app, IH. destruct (N.eqb_spec i id) as [->|]; cbn [andb]; [|reflexivity]. destruct (v =? 0)%N; reflexivity.
Qed.
Lemma sublist_map {A B} (f : A -> B) a b : sublist a b -> sublist (map f a) (map f b).
Proof. induction 1; cbn [map]; [apply sub_nil|apply sub_skip; auto|apply sub_take; auto]. Qed.

Lemma select_coins m a c vs : am_ok m -> am_select m a = Some (c, vs) -> (vs = [] -> snd a = 0%N) ->
  stored_coins m (fst a) (as_coins (fst a) vs) /\ tot (as_coins (fst a) vs) = (snd a + c)%N /\
  Forall (fun r => snd (snd r) <> 0%N) (as_coins (fst a) vs).
Proof.
  intros O E Z. destruct (as_coins_tot (fst a) vs) as [T F].
  assert (Q : coin_total vs = (snd a + c)%N /\ sublist vs (coins m (fst a))).
  { unfold am_select in E. destruct (N.eqb_spec (snd a) 0) as [Z0|Z0].
    - injection E as <- <-. cbn. split; [lia|apply sublist_nil].
    - rewrite am_coins_eq in E.
      destruct (sel_loop_sound (snd a) (coins m (fst a)) [] 0 [] None c vs E eq_refl (sub_nil) Logic.I) as [V|[V1 V2]]; [|auto].
      specialize (Z V). contradiction. }
  destruct Q as [Q1 Q2]. split; [|split; [congruence|]].
  - split; [exact F|]. pose proof (sublist_map (fun kv => (fst kv, (fst a, snd kv))) _ _ Q2) as Q. fold (as_coins (fst a) vs) in Q.
    fold (as_coins (fst a) (coins m (fst a))) in Q. split.
    + eapply sublist_nodup; [exact Q|]. rewrite as_coins_filter. apply NoDup_filter, am_vector_nodup, O.
    + intros r I. apply (sublist_incl _ _ Q) in I. rewrite as_coins_filter in I. apply filter_In in I. apply I.
  - unfold as_coins. rewrite Forall_map. apply Forall_forall. intros [k v] I. cbn [snd fst]. apply (sublist_incl _ _ Q2) in I.
    apply c10_coins_are_stored in I. apply I.
Qed.

Lemma zeroes_stored m n id k : In k (am_zeroes m n id) -> In (k, (id, 0%N)) (am_asset_vector m).
Proof.
  unfold am_zeroes. intro I. assert (J : In k (map fst (filter (fun e : N * list asset => existsb (fun a => (fst a =? id)%N && (snd a =? 0)%N) (snd e)) m))).
  { rewrite <- (firstn_skipn n). apply in_or_app. left. exact I. }
  apply in_map_iff in J. destruct J as ([k' l] & <- & J). apply filter_In in J. destruct J as [J1 J2]. apply existsb_exists in J2.
  destruct J2 as ([i v] & J2 & J3). apply andb_true_iff in J3. destruct J3 as [J3 J4]. apply N.eqb_eq in J3, J4. cbn [fst snd] in *. subst.
  apply AssetMap.in_vec. exists l. auto.
Qed.

(** Joins of the coins [cs], and then a transfer of [a] with [change] back. *)
Definition batched {LD ID} (a : asset) (addr : option N) (change : N) (cs : list (N * asset)) (posts : list (@post LD ID)) : Prop :=
  exists joins final pads, posts = joins ++ [final] /\
    Forall (is_join (fst a)) joins /\ is_transfer a addr change final /\ Forall (conserves (fst a)) posts /\
    length joins = length cs - 2 /\
    Forall (is_zero (fst a)) pads /\ length pads = 2 - length cs /\
    Permutation (all_spent posts) (cs ++ flat_map join_out joins ++ pads) /\
    amount (map snd (spent final)) = amount (map snd cs).

Ltac into E P := let X := fresh in match type of P with match ?t with _ => _ end => set (X := t) in P;
  match type of E with _ = ?r => assert (X = r) as -> by exact E end end.

Section Props.
Context {LD ID IT UT NT NF : Type}.
Variable dl : LD.
Variable di : ID.
Variable join : ID -> ID -> ID.
Variable joinl : LD -> LD -> ID.
Variable ldeqb : LD -> LD -> bool.
Variable ideqb : ID -> ID -> bool.
Variable H : nat.
Variable chk : bool.
Variable dg : IT -> LD.
Variable sh : IT -> nat.
Variable open_note : UT -> NT -> option (N * asset).
Variable item : UT -> IT.
Variable spend_item : N -> asset -> IT.
Variable spend_null : N -> asset -> NF.
Variable nfeqb : NF -> NF -> bool.
Variable can_open : NF -> bool.
Variable ident : nat -> N.
Variable prove_ok : nat -> bool.
Hypothesis HH : 3 <= H.
Hypothesis ldeqb_spec : forall a b, ldeqb a b = true <-> a = b.
Hypothesis ideqb_spec : forall a b, ideqb a b = true <-> a = b.
Hypothesis nfeqb_spec : forall a b, nfeqb a b = true <-> a = b.
Hypothesis join_nd : forall a b, join a b <> di.
Hypothesis joinl_nd : forall a b, joinl a b <> di.
Variable L : ledger UT NT NF.
Notation w := (length (l_notes L)).
Notation nsh := (note_sh (NT := NT) sh item).
Hypothesis LOK : ledger_ok open_note spend_null nsh dg item spend_item can_open L.
Hypothesis CAP : forall i, length (l_shard L i) <= 2 ^ (H - 1).
(** Every item has a shard of the ledger: the shard index is one byte, and there are 256. *)
Hypothesis sh_lt : forall x, sh x < w.

Notation synced := (synced dl di join joinl ldeqb ideqb H chk dg sh open_note item spend_item spend_null nfeqb can_open L).
Notation signer := (signer (LD := LD) (ID := ID) (NF := NF)).
Notation post := (@post LD ID).
Notation rollback := (fo_rollback dl di join joinl ideqb H).
Notation sign := (signer_sign dl di join joinl ldeqb ideqb H chk dg sh spend_item ident prove_ok).
Notation consolidate := (signer_consolidate dl di join joinl ldeqb ideqb H chk dg sh spend_item ident prove_ok).
Notation valid_sender := (valid_sender dl di join joinl ideqb dg sh H spend_item).
Notation valid_posts := (valid_posts dl di join joinl ideqb dg sh H spend_item).
Notation Good := (Good dl di join joinl dg sh H w).
Notation vec := am_asset_vector.

(** The items of the notes that the signer has seen. *)
Definition seen_items (s : signer) : list IT := map (fun un => item (fst un)) (seen_notes L (s_ck s)).

Lemma synced_fresh s : synced s -> fresh dl di join joinl ideqb H (s_acc s).
Proof.
  induction 1 as [s E|s o d s' r _ IH _ _ E].
  - unfold new_signer in E. destruct (fo_new _ _ _ _ _ _ _) as [f|] eqn:F; [|discriminate]. injection E as <-. cbn [s_acc].
    eapply fresh_new. exact F.
  - unfold sync in E. destruct (prune_sync_request _ _ _ _) as [[[hp d']|]|]; try discriminate.
    2: { injection E as <- _. exact IH. }
    destruct (sync_with _ _ _ _ _ _ _ _ _ _ _ _ _ _ _ _ _ _) as [[s1 r1]|]; [|discriminate].
    destruct (fo_commit _ _ _ _ _ _ _ _) as [f|] eqn:F; [|discriminate]. injection E as <- _. cbn [s_acc]. eapply fresh_commit. exact F.
Qed.

(** *** C15 *)

(** Signing never changes the assets, the nullifiers and the checkpoint. *)
Definition same_but_acc (s s' : signer) : Prop := s_assets s' = s_assets s /\ s_nulls s' = s_nulls s /\ s_ck s' = s_ck s.
Lemma signer_eq (s s' : signer) : same_but_acc s s' -> s_acc s' = s_acc s -> s' = s.
Proof. destruct s, s'. unfold same_but_acc. cbn. intuition congruence. Qed.

(** C15, the case without error: the signer is as before. *)
Theorem c15_success : forall s s' rng prf,
  synced s ->
  (forall accounts auth t ps, sign accounts auth s t rng prf = Some (s', inl ps) -> s' = s) /\
  (forall accounts l ps, consolidate accounts s l rng prf = Some (s', inl ps) -> s' = s).
Proof.
  intros s s' rng prf Y. pose proof (synced_fresh s Y) as F. unfold fresh in F. split.
  - intros accounts auth t ps E. unfold signer_sign, on_signer in E.
    pose proof (sign_rolled dl di join joinl ldeqb ideqb H chk dg sh spend_item ident prove_ok accounts auth (s_assets s) t (mk_eff (s_acc s) rng prf)) as R.
    destruct (SnModel.sign _ _ _ _ _ _ _ _ _ _ _ _ _ _ _ _ _ _) as [a e|x e|]; try discriminate. injection E as <- _.
    cbn [e_acc] in R. rewrite F in R. injection R as R. destruct s. cbn in *. congruence.
  - intros accounts l ps E. unfold signer_consolidate, on_signer in E.
    pose proof (consolidate_rolled dl di join joinl ldeqb ideqb H chk dg sh spend_item ident prove_ok accounts (s_assets s) l (mk_eff (s_acc s) rng prf)) as R.
    destruct (SnModel.consolidate _ _ _ _ _ _ _ _ _ _ _ _ _ _ _ _ _) as [a e|x e|]; try discriminate. injection E as <- _.
    cbn [e_acc] in R. rewrite F in R. injection R as R. destruct s. cbn in *. congruence.
Qed.

Lemma synced_good s rng prf : synced s -> exists ss xs, Good (mk_eff (s_acc s) rng prf) ss xs [] /\
  (forall j, shard_items dg sh j xs = shard_items dg sh j (seen_items s)) /\
  (forall r, In r (vec (s_assets s)) -> SgAcc.Prov dg sh ss (item_of spend_item r)) /\ am_ok (s_assets s).
Proof.
  intro Y. pose proof (synced_inv dl di join joinl ldeqb ideqb H chk dg sh open_note item spend_item spend_null nfeqb can_open
    HH ldeqb_spec ideqb_spec nfeqb_spec join_nd joinl_nd L LOK CAP s Y) as IV.
  destruct (i_acc _ _ _ _ _ _ _ _ _ _ _ _ _ _ IV) as (ss & xs & A & HS & OK & HO & PV).
  pose proof (i_J _ _ _ _ _ _ _ _ _ _ _ _ _ _ IV) as [AO _ _ _ _].
  exists ss, xs. split; [split; [exact A|split; [exact HS|exact OK]]|]. split; [|split; [exact PV|exact AO]].
  intro j. unfold shard_items. f_equal. destruct (Nat.lt_ge_cases j w) as [Hj|Hj].
  - rewrite (HO j Hj). unfold seen_items, seen_notes.
    assert (P : forall n, map (fun un => item (fst un)) (if (j <? n) then firstn (at_shard (s_ck s) j) (l_shard L j) else []) =
      filter (fun x => sh x =? j) (map (fun un => item (fst un)) (flat_map (fun i => firstn (at_shard (s_ck s) i) (l_shard L i)) (seq 0 n)))).
    { induction n as [|n IH]; [reflexivity|]. rewrite seq_S, flat_map_app, map_app, filter_app, <- IH. cbn [flat_map]. rewrite app_nil_r.
      assert (Q : forall k, filter (fun x => sh x =? j) (map (fun un => item (fst un)) (firstn (at_shard (s_ck s) k) (l_shard L k))) =
        if k =? j then map (fun un => item (fst un)) (firstn (at_shard (s_ck s) k) (l_shard L k)) else []).
      { intro k. assert (SK : forall un, In un (firstn (at_shard (s_ck s) k) (l_shard L k)) -> sh (item (fst un)) = k).
        { intros un I. apply (lo_shard _ _ _ _ _ _ _ _ LOK k un). rewrite <- (firstn_skipn (at_shard (s_ck s) k) (l_shard L k)). apply in_or_app. auto. }
        revert SK. generalize (firstn (at_shard (s_ck s) k) (l_shard L k)). induction l as [|u l IHl]; intro SK; cbn [map filter]; [destruct (k =? j); reflexivity|].
        rewrite IHl by (intros; apply SK; right; auto). rewrite (SK u) by (left; auto). destruct (k =? j); reflexivity. }
      cbn [Nat.add]. rewrite Q. destruct (Nat.ltb_spec j n), (Nat.ltb_spec j (S n)), (Nat.eqb_spec n j); try lia; subst; rewrite ?app_nil_r; reflexivity. }
    rewrite <- P. destruct (Nat.ltb_spec j w); [reflexivity|lia].
  - assert (Q : forall l : list IT, filter (fun x => sh x =? j) l = []).
    { induction l as [|x l IH]; auto. cbn [filter]. pose proof (sh_lt x). destruct (Nat.eqb_spec (sh x) j); [lia|exact IH]. }
    rewrite !Q. reflexivity.
Qed.

(** Every error but that of the prover comes before anything was inserted. *)
Lemma sign_error_acc s accounts auth t rng prf x e : synced s ->
  SnModel.sign_internal dl di join joinl ldeqb H chk dg sh spend_item ident prove_ok accounts auth (s_assets s) t (mk_eff (s_acc s) rng prf) = Failed x e ->
  x <> ProofSystemError -> e_acc e = s_acc s.
Proof.
  intros Y E N. destruct (synced_good s rng prf Y) as (ss & xs & G & _). destruct t as [a|a addr|a account]; cbn [SnModel.sign_internal] in E.
  - destruct auth; [|injection E as <- <-; reflexivity]. unfold receiver, draw, build_post in E. cbn [e_acc e_rng e_prf] in E.
    destruct (prove_ok prf); cbn [bind] in E; [discriminate|]. injection E as <- <-. contradiction.
  - destruct accounts; [|injection E as <- <-; reflexivity]. unfold withdraw_private in E. pose proof (select_acc (s_assets s) a (mk_eff (s_acc s) rng prf)) as Q.
    destruct (select _ _ _) as [[c pre] e1|y e1|]; cbn [bind] in E; try discriminate.
    + destruct Q as (-> & vs & _ & -> & _). fold (as_coins (fst a) vs) in E.
      pose proof (private_after_good dl di join joinl ldeqb ideqb dg sh H HH ldeqb_spec ideqb_spec join_nd joinl_nd chk w sh_lt spend_item ident prove_ok
        (s_assets s) a (Some addr) (c, as_coins (fst a) vs) _ ss xs [] (proj2 (as_coins_tot (fst a) vs)) G) as P.
      rewrite E in P. destruct P as [P _]. contradiction.
    + injection E as <- <-. destruct Q as (-> & _). reflexivity.
  - destruct accounts; [|injection E as <- <-; reflexivity]. unfold withdraw_public in E. pose proof (select_acc (s_assets s) a (mk_eff (s_acc s) rng prf)) as Q.
    destruct (select _ _ _) as [[c pre] e1|y e1|]; cbn [bind fst snd] in E; try discriminate.
    + destruct Q as (-> & _). pose proof (compute_to_public_acc dl di join joinl ldeqb H chk dg sh spend_item ident prove_ok (s_assets s) (fst a) [account] c pre (mk_eff (s_acc s) rng prf)) as P.
      rewrite E in P. exact P.
    + injection E as <- <-. destruct Q as (-> & _). reflexivity.
Qed.

(** C15, for errors.  Missing: the accumulator may differ when the prover fails in a private
    transfer or a consolidation of more than two coins ([c15_refuted]).  Even then it has the
    same committed trees: a rollback restores it. *)
Theorem c15_error_partial : forall s s' x rng prf,
  synced s ->
  (forall accounts auth t, sign accounts auth s t rng prf = Some (s', inr x) ->
     same_but_acc s s' /\ rollback (s_acc s') = Some (s_acc s) /\
     (x <> ProofSystemError \/ (forall a addr, t = PrivateTransfer a addr -> picks (s_assets s) a <= 2) -> s' = s)) /\
  (forall accounts l, consolidate accounts s l rng prf = Some (s', inr x) ->
     same_but_acc s s' /\ rollback (s_acc s') = Some (s_acc s) /\
     (x <> ProofSystemError \/ length l <= 2 -> s' = s)).
Proof.
  intros s s' x rng prf Y. pose proof (synced_fresh s Y) as F. unfold fresh in F. split.
  - intros accounts auth t E. unfold signer_sign, on_signer in E.
    pose proof (sign_rolled dl di join joinl ldeqb ideqb H chk dg sh spend_item ident prove_ok accounts auth (s_assets s) t (mk_eff (s_acc s) rng prf)) as R.
    destruct (SnModel.sign _ _ _ _ _ _ _ _ _ _ _ _ _ _ _ _ _ _) as [a e|y e|] eqn:SG; try discriminate. injection E as <- <-.
    split; [repeat split|]. cbn [s_acc]. split; [rewrite <- F; apply rollback_bases; exact R|].
    intro C. apply signer_eq; [repeat split|]. cbn [s_acc]. unfold SnModel.sign, then_rollback in SG.
    destruct (SnModel.sign_internal _ _ _ _ _ _ _ _ _ _ _ _ _ _ _ _ _) as [ps e1|z e1|] eqn:SI; cbn [bind] in SG; try discriminate.
    { destruct (rollback (e_acc e1)); discriminate. }
    injection SG as <- <-. destruct C as [C|C].
    + exact (sign_error_acc s accounts auth t rng prf z e1 Y SI C).
    + pose proof (proj2 (sign_internal_based dl di join joinl ldeqb ideqb H chk dg sh spend_item ident prove_ok accounts auth (s_assets s) t (mk_eff (s_acc s) rng prf)) C) as Q.
      rewrite SI in Q. exact Q.
  - intros accounts l E. unfold signer_consolidate, on_signer in E.
    pose proof (consolidate_rolled dl di join joinl ldeqb ideqb H chk dg sh spend_item ident prove_ok accounts (s_assets s) l (mk_eff (s_acc s) rng prf)) as R.
    destruct (SnModel.consolidate _ _ _ _ _ _ _ _ _ _ _ _ _ _ _ _ _) as [a e|y e|] eqn:SG; try discriminate. injection E as <- <-.
    split; [repeat split|]. cbn [s_acc]. split; [rewrite <- F; apply rollback_bases; exact R|].
    intro C. apply signer_eq; [repeat split|]. cbn [s_acc]. unfold SnModel.consolidate, then_rollback in SG.
    destruct accounts; [|injection SG as <- <-; reflexivity]. destruct (cr_new l) as [r|] eqn:CN; [|injection SG as <- <-; reflexivity].
    assert (r = l). { unfold cr_new in CN. destruct l as [|? [|? ?]]; try discriminate. destruct (existsb _ _); [discriminate|]. injection CN as <-. reflexivity. }
    subst r.
    destruct (SnModel.consolidate_internal _ _ _ _ _ _ _ _ _ _ _ _ _ _ _) as [ps e1|z e1|] eqn:SI; cbn [bind] in SG; try discriminate.
    { destruct (rollback (e_acc e1)); discriminate. }
    injection SG as <- <-. destruct C as [C|C].
    + destruct (synced_good s rng prf Y) as (ss & xs & G & _). unfold SnModel.consolidate_internal in SI.
      destruct (cr_asset l) as [a|] eqn:CA; [|discriminate]. unfold custom_select in SI.
      destruct (negb _); cbn [bind] in SI; [injection SI as <- <-; reflexivity|].
      destruct (cr_id l) as [id|] eqn:CI; [|discriminate]. unfold cr_select in SI. cbn [bind] in SI.
      assert (fst a = id). { unfold cr_asset in CA. rewrite CI in CA. destruct (vsum _ _); [|discriminate]. injection CA as <-. reflexivity. }
      subst id. fold (as_coins (fst a) (map (fun c : N * (N * N) => (fst c, snd (snd c))) l)) in SI.
      pose proof (private_after_good dl di join joinl ldeqb ideqb dg sh H HH ldeqb_spec ideqb_spec join_nd joinl_nd chk w sh_lt spend_item ident prove_ok
        (s_assets s) a None (0%N, as_coins (fst a) (map (fun c : N * (N * N) => (fst c, snd (snd c))) l)) _ ss xs [] (proj2 (as_coins_tot (fst a) _)) G) as P.
      into SI P. destruct P as [P _]. contradiction.
    + pose proof (proj2 (consolidate_internal_based dl di join joinl ldeqb ideqb H chk dg sh spend_item ident prove_ok (s_assets s) l (mk_eff (s_acc s) rng prf)) C) as Q.
      rewrite SI in Q. exact Q.
Qed.

(** C15: a signing that succeeds after one that failed leaves the signer as it was before both. *)
Theorem c15_recovers : forall s s1 s2 x rng prf rng' prf' accounts auth t accounts' auth' t' ps,
  synced s -> sign accounts auth s t rng prf = Some (s1, inr x) ->
  sign accounts' auth' s1 t' rng' prf' = Some (s2, inl ps) -> s2 = s.
Proof.
  intros s s1 s2 x rng prf rng' prf' accounts auth t accounts' auth' t' ps Y E1 E2.
  destruct (proj1 (c15_error_partial s s1 x rng prf Y) accounts auth t E1) as ((A1 & A2 & A3) & R1 & _).
  unfold signer_sign, on_signer in E2.
  pose proof (sign_rolled dl di join joinl ldeqb ideqb H chk dg sh spend_item ident prove_ok accounts' auth' (s_assets s1) t' (mk_eff (s_acc s1) rng' prf')) as R.
  destruct (SnModel.sign _ _ _ _ _ _ _ _ _ _ _ _ _ _ _ _ _ _) as [a e|y e|] eqn:SG; try discriminate. injection E2 as <- <-.
  cbn [e_acc] in R. rewrite R1 in R. injection R as R. apply signer_eq; [repeat split; assumption|]. symmetry. exact R.
Qed.

(** *** C16 *)
Lemma valid_ext : forall ps xs xs', (forall j, shard_items dg sh j xs = shard_items dg sh j xs') -> valid_posts xs ps -> valid_posts xs' ps.
Proof.
  induction ps as [|p ps IH]; intros xs xs' E V; cbn [SnGood.valid_posts] in *; auto. destruct V as [V1 V2]. split.
  - eapply Forall_impl; [|exact V1]. intros c. unfold SnGood.valid_sender. destruct (sd_proof c) as [[q r]|]; auto. rewrite E. auto.
  - eapply IH; [|exact V2]. intro j. rewrite !(shard_items_app dg sh), E. reflexivity.
Qed.

Lemma private_after_spec m a addr change cs e posts e' : of_id (fst a) cs -> tot cs = (snd a + change)%N ->
  private_after dl di join joinl ldeqb H chk dg sh spend_item ident prove_ok m a addr (change, cs) e = Done posts e' ->
  batched a addr change cs posts.
Proof.
  intros O T E. unfold private_after in E. cbn [fst snd] in E.
  destruct (compute_batched _ _ _ _ _ _ _ _ _ _ _ _ _ _ _ _) as [[ps senders] e1|x e1|] eqn:CB; cbn [bind] in E; try discriminate.
  destruct (compute_batched_spec _ _ _ _ _ _ _ _ _ _ _ _ _ _ _ _ _ _ O CB) as (p0 & s0 & pads & EQ & L1 & L2 & IJ & CO & PD & PM & OS & TS).
  injection EQ as <- <-. unfold receiver, draw, build_post in E. cbn [e_acc e_rng e_prf] in E.
  destruct (prove_ok (e_prf e1)); cbn [bind] in E; [|discriminate]. injection E as <- _.
  match goal with |- context [ps ++ [?p]] => set (final := p) end.
  destruct PD as (mu & -> & Z & LP). exists ps, final, (map (fun k => (k, (fst a, 0%N))) (am_zeroes m (2 - length cs) (fst a)) ++ mu).
  split; [reflexivity|]. split; [exact IJ|]. split. { repeat (split; [reflexivity|]). split; [exact L1|]. eexists _, _. reflexivity. }
  split. { apply Forall_app. split; [exact CO|]. constructor; [|constructor]. unfold conserves, ins, outs, final. cbn [po_senders po_sources po_receivers po_sinks map rc_asset].
    rewrite !app_nil_r. assert (AC : map sd_asset senders = map snd (map coin senders)) by (rewrite map_map; reflexivity). rewrite AC.
    split; [unfold all_of; rewrite Forall_map; exact OS|]. split; [repeat constructor|].
    change (amount (map snd (map coin senders))) with (tot (map coin senders)). rewrite TS, T. cbn [amount fold_right snd]. lia. }
  split; [exact L2|]. split; [apply Forall_app; split; [apply zeroes_of_id|exact Z]|]. split; [exact LP|].
  split; [|exact TS]. unfold all_spent. rewrite flat_map_app. cbn [flat_map]. rewrite app_nil_r. exact PM.
Qed.

Lemma then_rollback_done o ps e' : then_rollback dl di join joinl ideqb H o = Done ps e' -> exists e1, o = Done ps e1.
Proof. unfold then_rollback. destruct o as [p e1| |]; cbn [bind]; try discriminate. destruct (fo_rollback _ _ _ _ _ _ _); [|discriminate]. intro E. injection E as <- _. eauto. Qed.

(** C16: the posts of a private transfer.  The coins are entries of the asset map that cover the
    amount; they are joined two by two until two are left; nothing is lost in any post; the last
    post has the amount and the change as outputs; every coin, and every coin made by a join, is
    spent once, and nothing else but zeroes.  The membership proofs of every post verify against
    the roots of the trees with the coins of the posts before. *)
Theorem c16_transfer : forall s accounts auth a addr rng prf s' posts, synced s ->
  sign accounts auth s (PrivateTransfer a addr) rng prf = Some (s', inl posts) ->
  exists cs change, stored_coins (s_assets s) (fst a) cs /\ amount (map snd cs) = (snd a + change)%N /\
    Forall (fun c => snd (snd c) <> 0%N) cs /\
    batched a (Some addr) change cs posts /\ valid_posts (seen_items s) posts.
Proof.
  intros s accounts auth a addr rng prf s' posts Y E. unfold signer_sign, on_signer in E.
  destruct (SnModel.sign _ _ _ _ _ _ _ _ _ _ _ _ _ _ _ _ _ _) as [ps e|y e|] eqn:SG; try discriminate. injection E as _ <-.
  apply then_rollback_done in SG. destruct SG as (e1 & SG). cbn [SnModel.sign_internal] in SG. destruct accounts; [|discriminate].
  unfold withdraw_private in SG. pose proof (select_acc (s_assets s) a (mk_eff (s_acc s) rng prf)) as Q.
  destruct (select _ _ _) as [[c pre] e2|y e2|]; cbn [bind] in SG; try discriminate.
  destruct Q as (-> & vs & SE & -> & Z). fold (as_coins (fst a) vs) in SG.
  destruct (synced_good s rng prf Y) as (ss & xs & G & SI & PV & AO).
  destruct (select_coins _ _ _ _ AO SE Z) as (SC & T & NZ). exists (as_coins (fst a) vs), c. split; [exact SC|]. split; [exact T|]. split; [exact NZ|].
  split. { eapply private_after_spec; [apply SC|exact T|exact SG]. }
  pose proof (private_after_good dl di join joinl ldeqb ideqb dg sh H HH ldeqb_spec ideqb_spec join_nd joinl_nd chk w sh_lt spend_item ident prove_ok
        (s_assets s) a (Some addr) (c, as_coins (fst a) vs) _ ss xs [] (proj1 SC) G) as P.
  into SG P. rewrite app_nil_r in P. eapply valid_ext; [exact SI|exact P].
Qed.

Lemma as_coins_self id (l : list iasset) : (forall c, In c l -> fst (snd c) = id) ->
  as_coins id (map (fun c : N * (N * N) => (fst c, snd (snd c))) l) = l.
Proof.
  intro F. unfold as_coins. rewrite map_map. rewrite <- (map_id l) at 2. apply map_ext_in. intros [k [i v]] I. specialize (F _ I). cbn in *. subst. reflexivity.
Qed.

(** C16: the posts of a consolidation of [l]: the coins are those of the request, all of the sum
    comes back to the signer. *)
Theorem c16_consolidation : forall s accounts l rng prf s' posts, synced s ->
  consolidate accounts s l rng prf = Some (s', inl posts) ->
  exists id, 2 <= length l /\ stored_coins (s_assets s) id l /\
    batched (id, amount (map snd l)) None 0%N l posts /\ valid_posts (seen_items s) posts.
Proof.
  intros s accounts l rng prf s' posts Y E. unfold signer_consolidate, on_signer in E.
  destruct (SnModel.consolidate _ _ _ _ _ _ _ _ _ _ _ _ _ _ _ _ _) as [ps e|y e|] eqn:SG; try discriminate. injection E as _ <-.
  unfold SnModel.consolidate in SG. destruct accounts; [|discriminate]. destruct (cr_new l) as [r|] eqn:CN; [|discriminate].
  assert (r = l). { unfold cr_new in CN. destruct l as [|? [|? ?]]; try discriminate. destruct (existsb _ _); [discriminate|]. injection CN as <-. reflexivity. }
  subst r. apply then_rollback_done in SG. destruct SG as (e1 & SG). unfold consolidate_internal in SG.
  destruct (cr_asset l) as [a|] eqn:CA; [|discriminate]. unfold custom_select in SG.
  destruct (cr_check l (s_assets s)) eqn:CC; cbn [negb bind] in SG; [|discriminate].
  destruct (cr_id l) as [id|] eqn:CI; [|discriminate]. unfold cr_select in SG. cbn [bind] in SG.
  fold (as_coins id (map (fun c : N * (N * N) => (fst c, snd (snd c))) l)) in SG.
  apply cr_new_spec in CN. destruct CN as (LL & ND & SM & _).
  assert (ID0 : forall c, In c l -> fst (snd c) = id).
  { destruct l as [|c0 l]; [discriminate|]. cbn in CI. injection CI as <-. intros c I. apply SM; [exact I|left; reflexivity]. }
  rewrite as_coins_self in SG by exact ID0.
  unfold cr_asset in CA. rewrite CI in CA. destruct (vsum 0 _) as [v|] eqn:VS; [|discriminate]. injection CA as <-.
  apply SnJoin.vsum_spec in VS.
  assert (AV : v = amount (map snd l)).
  { rewrite VS. cbn [N.add]. clear. unfold amount. induction l as [|[k [i x]] l IH]; cbn [map fold_right snd]; auto. rewrite IH. reflexivity. }
  assert (OI : of_id id l) by (apply Forall_forall; exact ID0).
  exists id. split; [exact LL|]. split.
  { split; [exact OI|]. split; [exact ND|]. intros c I. unfold cr_check in CC. rewrite CI, forallb_forall in CC.
    specialize (CC c I). apply existsb_eqb_In in CC. unfold am_asset_vector_with_id in CC. apply filter_In in CC. apply CC. }
  rewrite <- AV. split.
  { eapply private_after_spec; [exact OI| |exact SG]. unfold tot. rewrite <- AV. cbn [snd]. lia. }
  destruct (synced_good s rng prf Y) as (ss & xs & G & SI & PV & AO).
  pose proof (private_after_good dl di join joinl ldeqb ideqb dg sh H HH ldeqb_spec ideqb_spec join_nd joinl_nd chk w sh_lt spend_item ident prove_ok
        (s_assets s) (id, v) None (0%N, l) _ ss xs [] OI G) as P.
  into SG P. rewrite app_nil_r in P. eapply valid_ext; [exact SI|exact P].
Qed.

Lemma room_of s xs n : synced s -> (forall j, shard_items dg sh j xs = shard_items dg sh j (seen_items s)) ->
  (forall j, at_shard (s_ck s) j + n <= 2 ^ (H - 1)) -> room dg sh H (xs ++ []) n.
Proof.
  intros Y E R j. rewrite app_nil_r. pose proof (synced_inv dl di join joinl ldeqb ideqb H chk dg sh open_note item spend_item spend_null nfeqb can_open
    HH ldeqb_spec ideqb_spec nfeqb_spec join_nd joinl_nd L LOK CAP s Y) as IV.
  destruct (i_acc _ _ _ _ _ _ _ _ _ _ _ _ _ _ IV) as (ss & ys & _ & _ & _ & HO & _).
  specialize (R j). enough (Q : length (shard_items dg sh j xs) <= at_shard (s_ck s) j) by (clear - R Q; lia).
  destruct (Nat.lt_ge_cases j w) as [Hj|Hj].
  - rewrite E. unfold seen_items, seen_notes, shard_items. rewrite map_length.
    assert (P : forall n, length (filter (fun x => sh x =? j) (map (fun un => item (fst un)) (flat_map (fun i => firstn (at_shard (s_ck s) i) (l_shard L i)) (seq 0 n)))) <=
      if j <? n then at_shard (s_ck s) j else 0).
    { clear - LOK. induction n as [|n IH]; [apply le_n|]. rewrite seq_S, flat_map_app, map_app, filter_app, app_length. cbn [flat_map Nat.add]. rewrite app_nil_r.
      assert (Q : length (filter (fun x => sh x =? j) (map (fun un => item (fst un)) (firstn (at_shard (s_ck s) n) (l_shard L n)))) <=
        if n =? j then at_shard (s_ck s) j else 0).
      { assert (SK : forall un, In un (firstn (at_shard (s_ck s) n) (l_shard L n)) -> sh (item (fst un)) = n).
        { intros un I. apply (lo_shard _ _ _ _ _ _ _ _ LOK n un). rewrite <- (firstn_skipn (at_shard (s_ck s) n) (l_shard L n)). apply in_or_app. auto. }
        destruct (Nat.eqb_spec n j) as [->|NE].
        - etransitivity; [|apply firstn_le_length]. rewrite <- (map_length (fun un => item (fst un)) (firstn (at_shard (s_ck s) j) (l_shard L j))).
          generalize (map (fun un : UT * NT => item (fst un)) (firstn (at_shard (s_ck s) j) (l_shard L j))). clear. induction l as [|x l IH]; cbn [filter length]; auto.
          destruct (_ =? _); cbn [length]; lia.
        - revert SK. generalize (firstn (at_shard (s_ck s) n) (l_shard L n)). clear - NE. induction l as [|u l IH]; intro SK; cbn [map filter length]; auto.
          rewrite (SK u) by (left; auto). destruct (Nat.eqb_spec n j); [contradiction|]. apply IH. intros; apply SK; right; auto. }
      clear - IH Q. destruct (Nat.ltb_spec j n), (Nat.ltb_spec j (S n)), (Nat.eqb_spec n j); lia. }
    specialize (P w). destruct (Nat.ltb_spec j w); [exact P|clear - P Hj; lia].
  - unfold shard_items. rewrite map_length. assert (Q : forall l : list IT, filter (fun x => sh x =? j) l = []).
    { clear - sh_lt Hj. induction l as [|x l IH]; auto. cbn [filter]. pose proof (sh_lt x). destruct (Nat.eqb_spec (sh x) j); [lia|exact IH]. }
    rewrite Q. apply Nat.le_0_l.
Qed.

Lemma provable_zeroes m ss n id : (forall r, In r (vec m) -> SgAcc.Prov dg sh ss (item_of spend_item r)) ->
  provable dg sh spend_item ss (map (fun k => (k, (id, 0%N))) (am_zeroes m n id)).
Proof. intro P. unfold provable. rewrite Forall_map. apply Forall_forall. intros k I. apply P. eapply zeroes_stored. exact I. Qed.

Lemma sublist_len {A} (a b : list A) : sublist a b -> length a <= length b.
Proof. induction 1; cbn [length]; lia. Qed.

Lemma select_within m a : (coin_total (coins m (fst a)) <= vmax)%N ->
  exists c vs, am_select m a = Some (c, vs) /\
  ((snd a <= coin_total (coins m (fst a)))%N -> (vs = [] -> snd a = 0%N) /\ (coin_total vs <= vmax)%N /\ length vs <= length (coins m (fst a))) /\
  ((coin_total (coins m (fst a)) < snd a)%N -> vs = []).
Proof.
  intro B. destruct a as [id v]. cbn [fst snd] in *. destruct (c10_selection_partial m id v B) as (c & vs & E & Z & G).
  exists c, vs. split; [exact E|]. split.
  - intro C. destruct (N.eq_dec v 0) as [->|NZ]. { destruct (Z (or_introl eq_refl)) as [_ ->]. split; [auto|]. cbn. split; [apply N.leb_le; reflexivity|lia]. }
    destruct (G ltac:(clear - NZ; lia) C) as (NE & SU & _). split; [intros ->; contradiction|].
    split; [|apply sublist_len; exact SU]. etransitivity; [apply sublist_total; exact SU|exact B].
  - intro C. apply Z. right. exact C.
Qed.

(** C16: when the prover works, the coins of the asset id add up to a value, and there is room in
    the trees for the coins of the joins, a private transfer succeeds if and only if the coins
    cover the amount. *)
Theorem c16_transfer_succeeds : forall s auth a addr rng prf, synced s -> (forall n, prove_ok n = true) ->
  let cs := coins (s_assets s) (fst a) in
  (coin_total cs <= vmax)%N -> (forall j, at_shard (s_ck s) j + 2 * (length cs - 2) <= 2 ^ (H - 1)) ->
  ((snd a <= coin_total cs)%N -> exists posts, sign true auth s (PrivateTransfer a addr) rng prf = Some (s, inl posts)) /\
  ((coin_total cs < snd a)%N -> sign true auth s (PrivateTransfer a addr) rng prf = Some (s, inr (InsufficientBalance a))).
Proof.
  intros s auth a addr rng prf Y PO cs B R. destruct (select_within (s_assets s) a B) as (c & vs & SE & S1 & S2).
  destruct (synced_good s rng prf Y) as (ss & xs & G & SI & PV & AO). pose proof (synced_fresh s Y) as F. unfold fresh in F.
  split; intro C.
  - destruct (S1 C) as (Z & TB & LB). destruct (select_coins _ _ _ _ AO SE Z) as (SC & T & NZ).
    assert (SG : SnModel.sign_internal dl di join joinl ldeqb H chk dg sh spend_item ident prove_ok true auth (s_assets s) (PrivateTransfer a addr) (mk_eff (s_acc s) rng prf) =
      private_after dl di join joinl ldeqb H chk dg sh spend_item ident prove_ok (s_assets s) a (Some addr) (c, as_coins (fst a) vs) (mk_eff (s_acc s) rng prf)).
    { cbn [SnModel.sign_internal]. unfold withdraw_private, select. rewrite SE.
      destruct (N.eqb_spec (snd a) 0) as [Z0|NE]; cbn [negb andb bind]; [reflexivity|]. destruct vs; [specialize (Z eq_refl); contradiction|]. reflexivity. }
    pose proof (private_after_good dl di join joinl ldeqb ideqb dg sh H HH ldeqb_spec ideqb_spec join_nd joinl_nd chk w sh_lt spend_item ident prove_ok
        (s_assets s) a (Some addr) (c, as_coins (fst a) vs) _ ss xs [] (proj1 SC) G) as P.
    pose proof (sign_rolled dl di join joinl ldeqb ideqb H chk dg sh spend_item ident prove_ok true auth (s_assets s) (PrivateTransfer a addr) (mk_eff (s_acc s) rng prf)) as RL.
    pose proof (proj1 (sign_internal_based dl di join joinl ldeqb ideqb H chk dg sh spend_item ident prove_ok true auth (s_assets s) (PrivateTransfer a addr) (mk_eff (s_acc s) rng prf))) as BL.
    unfold SnModel.sign, then_rollback in RL. rewrite SG in RL, BL.
    unfold signer_sign, on_signer, SnModel.sign, then_rollback. rewrite SG.
    destruct (private_after _ _ _ _ _ _ _ _ _ _ _ _ _ _ _ _ _) as [ps e|x e|]; cbn [bind leaves] in *.
    + assert (RB : rollback (e_acc e) = Some (s_acc s)) by (rewrite <- F; apply rollback_bases; exact BL).
      rewrite RB. exists ps. destruct s; reflexivity.
    + destruct P as [_ P]. rewrite PO in P. discriminate.
    + exfalso. apply P. cbn [snd]. split. { apply Forall_forall. intros r I. apply PV, (proj2 (proj2 SC)), I. }
      split. { rewrite (proj1 (as_coins_tot (fst a) vs)). exact TB. }
      split; [|apply provable_zeroes; exact PV]. apply (room_of s); [exact Y|exact SI|].
      intro j. unfold as_coins. rewrite map_length. specialize (R j). clear - R LB. unfold cs in R. lia.
  - rewrite (S2 C) in SE. unfold signer_sign, on_signer, SnModel.sign, then_rollback. cbn [SnModel.sign_internal]. unfold withdraw_private, select. rewrite SE.
    destruct (N.eqb_spec (snd a) 0) as [E|NE]; [clear - E C; lia|]. cbn [negb andb bind]. destruct s; reflexivity.
Qed.

(** C16: a valid request of coins in the asset map succeeds. *)
Theorem c16_consolidation_succeeds : forall s l rng prf, synced s -> (forall n, prove_ok n = true) ->
  cr_new l = Some l -> incl l (vec (s_assets s)) -> (amount (map snd l) <= vmax)%N ->
  (forall j, at_shard (s_ck s) j + 2 * (length l - 2) <= 2 ^ (H - 1)) ->
  exists posts, consolidate true s l rng prf = Some (s, inl posts).
Proof.
  intros s l rng prf Y PO CN IN B R. pose proof CN as CS. apply cr_new_spec in CS. destruct CS as (LL & ND & SM & _).
  destruct (synced_good s rng prf Y) as (ss & xs & G & SI & PV & AO). pose proof (synced_fresh s Y) as F. unfold fresh in F.
  assert (SV : sumv (map (fun a : N * (N * N) => snd (snd a)) l) = amount (map snd l)).
  { clear. unfold amount. induction l as [|[k [i x]] l IH]; cbn [map fold_right snd sumv]; auto. rewrite IH. reflexivity. }
  destruct (c18_request l (s_assets s) CN) as (id & ID0 & CA & CE & CC). { rewrite SV. exact B. }
  rewrite SV in CA. assert (CT : cr_check l (s_assets s) = true) by (apply CC; exact IN).
  assert (CI : cr_id l = Some id). { unfold cr_asset in CA. destruct (cr_id l); [|discriminate]. destruct (vsum _ _); [|discriminate]. congruence. }
  assert (OI : of_id id l) by (apply Forall_forall; exact ID0).
  set (a := (id, amount (map snd l))) in *.
  assert (SG : SnModel.consolidate_internal dl di join joinl ldeqb H chk dg sh spend_item ident prove_ok (s_assets s) l (mk_eff (s_acc s) rng prf) =
    private_after dl di join joinl ldeqb H chk dg sh spend_item ident prove_ok (s_assets s) a None (0%N, l) (mk_eff (s_acc s) rng prf)).
  { unfold SnModel.consolidate_internal, custom_select. rewrite CA, CT, CI, CE. cbn [negb bind].
    change (map (fun kv : N * N => (fst kv, (id, snd kv))) ?l) with (as_coins id l). rewrite (as_coins_self id l ID0). reflexivity. }
  pose proof (private_after_good dl di join joinl ldeqb ideqb dg sh H HH ldeqb_spec ideqb_spec join_nd joinl_nd chk w sh_lt spend_item ident prove_ok
      (s_assets s) a None (0%N, l) _ ss xs [] OI G) as P.
  pose proof (proj1 (consolidate_internal_based dl di join joinl ldeqb ideqb H chk dg sh spend_item ident prove_ok (s_assets s) l (mk_eff (s_acc s) rng prf))) as BL.
  rewrite SG in BL. unfold signer_consolidate, on_signer, SnModel.consolidate, then_rollback. rewrite CN, SG.
  destruct (private_after _ _ _ _ _ _ _ _ _ _ _ _ _ _ _ _ _) as [ps e|x e|]; cbn [bind leaves] in *.
  - assert (RB : rollback (e_acc e) = Some (s_acc s)) by (rewrite <- F; apply rollback_bases; exact BL).
    rewrite RB. exists ps. destruct s; reflexivity.
  - destruct P as [_ P]. rewrite PO in P. discriminate.
  - exfalso. apply P. cbn [snd]. split. { apply Forall_forall. intros r I. apply PV, IN, I. }
    split; [exact B|]. split; [|apply provable_zeroes; exact PV]. apply (room_of s); [exact Y|exact SI|exact R].
Qed.

(** *** C17 *)

(** C17: the posts of a payment to a public account.  The sinks get the amount, the change comes
    back, each coin is spent once, and the membership proofs verify. *)
Theorem c17_payment : forall s accounts auth a account rng prf s' posts, synced s ->
  sign accounts auth s (ToPublic a account) rng prf = Some (s', inl posts) ->
  exists cs change pads, stored_coins (s_assets s) (fst a) cs /\ amount (map snd cs) = (snd a + change)%N /\
    Forall (fun c => snd (snd c) <> 0%N) cs /\
    Forall (is_payment (fst a) [account]) posts /\ Forall (conserves (fst a)) posts /\
    amount (flat_map po_sinks posts) = snd a /\
    amount (map rc_asset (flat_map po_receivers posts)) = change /\
    all_spent posts = cs ++ pads /\ Forall (is_zero (fst a)) pads /\ length pads = length cs mod 2 /\
    length posts = (length cs + 1) / 2 /\
    Forall (fun p => Forall (valid_sender (seen_items s)) (po_senders p)) posts.
Proof.
  intros s accounts auth a account rng prf s' posts Y E. unfold signer_sign, on_signer in E.
  destruct (SnModel.sign _ _ _ _ _ _ _ _ _ _ _ _ _ _ _ _ _ _) as [ps e|y e|] eqn:SG; try discriminate. injection E as _ <-.
  apply then_rollback_done in SG. destruct SG as (e1 & SG). cbn [SnModel.sign_internal] in SG. destruct accounts; [|discriminate].
  unfold withdraw_public in SG. pose proof (select_acc (s_assets s) a (mk_eff (s_acc s) rng prf)) as Q.
  destruct (select _ _ _) as [[c pre] e2|y e2|]; cbn [bind fst snd] in SG; try discriminate.
  destruct Q as (-> & vs & SE & -> & Z). fold (as_coins (fst a) vs) in SG.
  destruct (synced_good s rng prf Y) as (ss & xs & G & SI & PV & AO).
  destruct (select_coins _ _ _ _ AO SE Z) as (SC & T & NZ).
  destruct (compute_to_public_spec _ _ _ _ _ _ _ _ _ _ _ _ _ _ _ _ _ _ _ _ (proj1 SC) SG) as (pads & LN & IP & CO & PD & AS & KE & PK & _).
  destruct PD as (mu & EP & ZM & LP). exists (as_coins (fst a) vs), c, pads. split; [exact SC|]. split; [exact T|]. split; [exact NZ|].
  split; [exact IP|]. split; [exact CO|].
  assert (KC : kept ps = c) by (clear - KE T; rewrite KE, T; lia).
  split. { change (paid ps = snd a). clear - PK T KC. lia. }
  split; [exact KC|]. split; [exact AS|]. split. { rewrite EP. apply Forall_app. split; [apply zeroes_of_id|exact ZM]. }
  split; [exact LP|]. split; [exact LN|].
  pose proof (compute_to_public_good dl di join joinl ldeqb ideqb dg sh H HH ldeqb_spec ideqb_spec join_nd joinl_nd chk w sh_lt spend_item ident prove_ok
        (s_assets s) (fst a) [account] c (as_coins (fst a) vs) _ ss xs [] G) as P.
  into SG P. rewrite app_nil_r in P. eapply Forall_impl; [|exact P]. intros p V. eapply Forall_impl; [|exact V].
  intros d. unfold SnGood.valid_sender. destruct (sd_proof d) as [[q r]|]; auto. rewrite SI. auto.
Qed.

(** C17: a payment succeeds if and only if the coins cover the amount. *)
Theorem c17_payment_succeeds : forall s auth a account rng prf, synced s -> (forall n, prove_ok n = true) ->
  let cs := coins (s_assets s) (fst a) in
  (coin_total cs <= vmax)%N ->
  ((snd a <= coin_total cs)%N -> exists posts, sign true auth s (ToPublic a account) rng prf = Some (s, inl posts)) /\
  ((coin_total cs < snd a)%N -> sign true auth s (ToPublic a account) rng prf = Some (s, inr (InsufficientBalance a))).
Proof.
  intros s auth a account rng prf Y PO cs B. destruct (select_within (s_assets s) a B) as (c & vs & SE & S1 & S2).
  destruct (synced_good s rng prf Y) as (ss & xs & G & SI & PV & AO). pose proof (synced_fresh s Y) as F. unfold fresh in F.
  split; intro C.
  - destruct (S1 C) as (Z & TB & LB). destruct (select_coins _ _ _ _ AO SE Z) as (SC & T & NZ).
    assert (SG : SnModel.sign_internal dl di join joinl ldeqb H chk dg sh spend_item ident prove_ok true auth (s_assets s) (ToPublic a account) (mk_eff (s_acc s) rng prf) =
      compute_to_public dl di join joinl ldeqb H chk dg sh spend_item ident prove_ok (s_assets s) (fst a) [account] c (as_coins (fst a) vs) (mk_eff (s_acc s) rng prf)).
    { cbn [SnModel.sign_internal]. unfold withdraw_public, select. rewrite SE.
      destruct (N.eqb_spec (snd a) 0) as [Z0|NE]; cbn [negb andb bind]; [reflexivity|]. destruct vs; [specialize (Z eq_refl); contradiction|]. reflexivity. }
    pose proof (compute_to_public_good dl di join joinl ldeqb ideqb dg sh H HH ldeqb_spec ideqb_spec join_nd joinl_nd chk w sh_lt spend_item ident prove_ok
        (s_assets s) (fst a) [account] c (as_coins (fst a) vs) _ ss xs [] G) as P.
    pose proof (compute_to_public_acc dl di join joinl ldeqb H chk dg sh spend_item ident prove_ok (s_assets s) (fst a) [account] c (as_coins (fst a) vs) (mk_eff (s_acc s) rng prf)) as BL.
    unfold signer_sign, on_signer, SnModel.sign, then_rollback. rewrite SG.
    destruct (compute_to_public _ _ _ _ _ _ _ _ _ _ _ _ _ _ _ _ _ _) as [ps e|x e|]; cbn [bind leaves] in *.
    + unfold same_acc in BL. cbn [e_acc] in BL. rewrite BL, F. exists ps. destruct s; reflexivity.
    + destruct P as [_ P]. rewrite PO in P. discriminate.
    + exfalso. apply P. split. { apply Forall_forall. intros r I. apply PV, (proj2 (proj2 SC)), I. }
      split; [|apply provable_zeroes; exact PV]. rewrite (proj1 (as_coins_tot (fst a) vs)). exact TB.
  - rewrite (S2 C) in SE. unfold signer_sign, on_signer, SnModel.sign, then_rollback. cbn [SnModel.sign_internal]. unfold withdraw_public, select. rewrite SE.
    destruct (N.eqb_spec (snd a) 0) as [E|NE]; [clear - E C; lia|]. cbn [negb andb bind]. destruct s; reflexivity.
Qed.

(** *** C21 *)

(** C21, except for private transfers of zero ([c21_refuted]): the estimate is the number of
    posts.  Missing: private transfers of a zero amount. *)
Theorem c21_estimate_partial : forall s accounts auth t rng prf s' posts, synced s ->
  sign accounts auth s t rng prf = Some (s', inl posts) ->
  (forall a addr, t = PrivateTransfer a addr -> snd a <> 0%N) ->
  estimate chk (s_assets s) t = Some (N.of_nat (length posts)).
Proof.
  intros s accounts auth t rng prf s' posts Y E NZ. unfold signer_sign, on_signer in E.
  destruct (SnModel.sign _ _ _ _ _ _ _ _ _ _ _ _ _ _ _ _ _ _) as [ps e|y e|] eqn:SG; try discriminate. injection E as _ <-.
  apply then_rollback_done in SG. destruct SG as (e1 & SG). destruct t as [a|a addr|a account]; cbn [SnModel.sign_internal estimate] in *.
  - destruct auth; [|discriminate]. unfold receiver, draw, build_post in SG. cbn [e_acc e_rng e_prf] in SG. destruct (prove_ok prf); cbn [bind] in SG; [|discriminate].
    injection SG as <- _. reflexivity.
  - destruct accounts; [|discriminate]. unfold withdraw_private in SG. pose proof (select_acc (s_assets s) a (mk_eff (s_acc s) rng prf)) as Q.
    destruct (select _ _ _) as [[c pre] e2|y e2|]; cbn [bind] in SG; try discriminate.
    destruct Q as (-> & vs & SE & -> & Z). fold (as_coins (fst a) vs) in SG. rewrite SE.
    destruct vs as [|v vs]. { destruct (NZ a addr eq_refl). apply Z. reflexivity. }
    destruct (synced_good s rng prf Y) as (ss & xs & G & SI & PV & AO). destruct (select_coins _ _ _ _ AO SE Z) as (SC & T & _).
    destruct (private_after_spec _ _ _ _ _ _ _ _ (proj1 SC) T SG) as (js & fi & pads & -> & _ & _ & _ & LJ & _).
    rewrite app_length, LJ. unfold as_coins. rewrite map_length. cbn [length]. f_equal. clear. lia.
  - destruct accounts; [|discriminate]. unfold withdraw_public in SG. pose proof (select_acc (s_assets s) a (mk_eff (s_acc s) rng prf)) as Q.
    destruct (select _ _ _) as [[c pre] e2|y e2|]; cbn [bind fst snd] in SG; try discriminate.
    destruct Q as (-> & vs & SE & -> & Z). fold (as_coins (fst a) vs) in SG. rewrite SE.
    destruct (compute_to_public_spec _ _ _ _ _ _ _ _ _ _ _ _ _ _ _ _ _ _ _ _ (proj2 (as_coins_tot (fst a) vs)) SG) as (pads & LN & _).
    rewrite LN. unfold as_coins. rewrite map_length. f_equal. rewrite Nat2N.inj_div, Nat2N.inj_add. reflexivity.
Qed.
End Props.

(** ** Concrete cases *)

(** Four coins of asset 7 on two shards, each with a note that is not ours; new coins get the
    numbers from 50 on. *)
Definition xn_L : ledger nat (option asset) N :=
  mk_ledger [[(2, Some (7, 5)%N); (4, Some (7, 3)%N); (6, None)]; [(3, Some (7, 4)%N); (5, Some (7, 2)%N); (7, None)]] [200]%N.
Definition xn_d : sdata (nat * option asset) N :=
  mk_sdata [(2, Some (7, 5)%N); (3, Some (7, 4)%N); (4, Some (7, 3)%N); (5, Some (7, 2)%N); (6, None); (7, None)] [200]%N.
Lemma xn_L_ok : xs_ok xn_L.
Proof.
  apply xs_ledger_ok.
  - unfold l_shard. apply (two_shards (fun i u => xs_nsh u = i)); repeat constructor.
  - vm_compute. repeat constructor; cbn; intuition discriminate.
  - list_tac. repeat (apply Forall_cons; [split; reflexivity|]). apply Forall_nil.
Qed.
Definition xn_s : signer := match xs_sync false xs_s0 xs_o xn_d with Some (s, _) => s | None => xs_s0 end.
Lemma xn_synced : xs_synced false xn_L xn_s.
Proof.
  eapply (syn_step _ _ _ _ _ _ _ _ _ _ _ _ _ _ _ _ _ xs_s0 xs_o xn_d _ (inl (mk_ckpt [3; 3] 1, BPartial [(7, 14)]%N []))).
  - apply syn_new. vm_compute. reflexivity.
  - reply_tac.
  - step_tac.
  - vm_compute. reflexivity.
Qed.
Definition xn_ident (n : nat) : N := (50 + N.of_nat n)%N.
Definition xn_sign pr := signer_sign (NF := N) 0 D0 DJ DL Nat.eqb dig_eqb 4 false (fun x : nat => x) xs_sh xs_spend_item xn_ident pr true true.
Definition xn_consolidate pr := signer_consolidate (NF := N) 0 D0 DJ DL Nat.eqb dig_eqb 4 false (fun x : nat => x) xs_sh xs_spend_item xn_ident pr true.
Definition xn_all (n : nat) : bool := true.

Example ex_c16_premises : 3 <= 4 /\ xs_ok xn_L /\ (forall i, length (l_shard xn_L i) <= 2 ^ (4 - 1)) /\
  (forall x, xs_sh x < length (l_notes xn_L)) /\ (coin_total (coins (s_assets xn_s) 7) <= vmax)%N /\
  (forall j, at_shard (s_ck xn_s) j + 2 * (length (coins (s_assets xn_s) 7) - 2) <= 2 ^ (4 - 1)).
Proof.
  split; [lia|]. split; [apply xn_L_ok|]. split; [intros [|[|[|]]]; cbn; lia|]. split; [intro x; change (x mod 2 < 2); apply Nat.mod_upper_bound; discriminate|].
  split; [apply N.leb_le; vm_compute; reflexivity|].
  assert (E : coins (s_assets xn_s) 7 = [(2, 5); (3, 4); (4, 3); (5, 2)]%N) by (vm_compute; reflexivity).
  rewrite E. assert (C : s_ck xn_s = mk_ckpt [3; 3] 1) by (vm_compute; reflexivity). rewrite C.
  intros [|[|[|]]]; cbn; lia.
Qed.

(** What the posts spend and make, without the proofs. *)
Definition view {LD ID} (p : @post LD ID) := (spent p, map (fun r => (rc_to r, rc_key r, rc_asset r)) (po_receivers p), po_sinks p).
Definition views {X LD ID E} (r : option (X * (list (@post LD ID) + E))) : option (list (list (N * asset) * list (option N * N * asset) * list asset)) :=
  match r with Some (_, inl ps) => Some (map view ps) | _ => None end.

Example ex_c16_transfer : views (xn_sign xn_all xn_s (PrivateTransfer (7, 13)%N 9%N) 0 0) = Some [
  ([(2, (7, 5)); (3, (7, 4))], [(None, 50, (7, 9)); (None, 51, (7, 0))], []);
  ([(4, (7, 3)); (5, (7, 2))], [(None, 52, (7, 5)); (None, 53, (7, 0))], []);
  ([(50, (7, 9)); (52, (7, 5))], [(None, 54, (7, 1)); (Some 9, 55, (7, 13))], [])]%N.
Proof. vm_compute. reflexivity. Qed.
Example ex_c16_consolidation : views (xn_consolidate xn_all xn_s [(2, (7, 5)); (4, (7, 3)); (5, (7, 2))]%N 0 0) = Some [
  ([(2, (7, 5)); (4, (7, 3))], [(None, 50, (7, 8)); (None, 51, (7, 0))], []);
  ([(50, (7, 8)); (5, (7, 2))], [(None, 52, (7, 0)); (None, 53, (7, 10))], [])]%N.
Proof. vm_compute. reflexivity. Qed.
Example ex_c17_payment : views (xn_sign xn_all xn_s (ToPublic (7, 11)%N 9%N) 0 0) = Some [
  ([(2, (7, 5)); (3, (7, 4))], [(None, 50, (7, 1))], [(7, 8)]);
  ([(4, (7, 3)); (51, (7, 0))], [(None, 52, (7, 0))], [(7, 3)])]%N.
Proof. vm_compute. reflexivity. Qed.
Example ex_c21_estimates :
  estimate false (s_assets xn_s) (PrivateTransfer (7, 13)%N 9%N) = Some 3%N /\
  estimate false (s_assets xn_s) (ToPublic (7, 11)%N 9%N) = Some 2%N.
Proof. vm_compute. auto. Qed.
Example ex_c15_success : exists ps, xn_sign xn_all xn_s (PrivateTransfer (7, 13)%N 9%N) 0 0 = Some (xn_s, inl ps) /\ length ps = 3.
Proof.
  exists (match xn_sign xn_all xn_s (PrivateTransfer (7, 13)%N 9%N) 0 0 with Some (_, inl ps) => ps | _ => [] end).
  split; vm_compute; reflexivity.
Qed.

(** C15: when the prover fails after the first join, the coins of that join stay in the
    accumulator.  The next synchronisation commits them and counts them in the checkpoint: the
    signer then has seen more notes than the ledger has, and its tree has another root. *)
Definition xn_first (n : nat) : bool := n =? 0.
Definition xn_bad : signer := match xn_sign xn_first xn_s (PrivateTransfer (7, 13)%N 9%N) 0 0 with Some (s, _) => s | None => xn_s end.
Definition xn_none : sdata (nat * option asset) N := mk_sdata [] [].
Theorem c15_refuted : exists s t s',
  xs_synced false xn_L s /\ xn_sign xn_first s t 0 0 = Some (s', inr ProofSystemError) /\ s_acc s' <> s_acc s /\
  map ft_len (s_acc s') = [4; 4] /\ map (ft_root D0) (s_acc s') <> map (ft_root D0) (s_acc s) /\
  reply xs_nsh xn_L (s_ck s') xn_none /\
  exists s'' u, xs_sync false s' (s_ck s') xn_none = Some (s'', inl (mk_ckpt [4; 4] 1, u)) /\ length (l_shard xn_L 0) = 3.
Proof.
  exists xn_s, (PrivateTransfer (7, 13)%N 9%N), xn_bad. split; [apply xn_synced|]. split; [vm_compute; reflexivity|].
  split; [vm_compute; discriminate|]. split; [vm_compute; reflexivity|]. split; [vm_compute; discriminate|]. split.
  { match goal with |- reply _ _ ?c _ => let v := eval vm_compute in c in change c with v end. reply_tac. }
  exists (match xs_sync false xn_bad (s_ck xn_bad) xn_none with Some (s, _) => s | None => xn_s end), (BPartial [] []).
  split; vm_compute; reflexivity.
Qed.
Example ex_c15_recovers : exists ps, xn_sign xn_first xn_bad (PrivateTransfer (7, 5)%N 9%N) 0 0 = Some (xn_s, inl ps).
Proof. exists (match xn_sign xn_first xn_bad (PrivateTransfer (7, 5)%N 9%N) 0 0 with Some (_, inl ps) => ps | _ => [] end). vm_compute. reflexivity. Qed.

(** C21: a private transfer of zero is one post; the estimate is 2^64 - 1, or panics with
    overflow checks. *)
Theorem c21_refuted : exists s t s' ps,
  xs_synced false xn_L s /\ xn_sign xn_all s t 0 0 = Some (s', inl ps) /\ length ps = 1 /\
  estimate false (s_assets s) t = Some 18446744073709551615%N /\ estimate true (s_assets s) t = None.
Proof.
  exists xn_s, (PrivateTransfer (7, 0)%N 9%N), xn_s,
    (match xn_sign xn_all xn_s (PrivateTransfer (7, 0)%N 9%N) 0 0 with Some (_, inl ps) => ps | _ => [] end).
  split; [apply xn_synced|]. split; [vm_compute; reflexivity|]. split; vm_compute; auto.
Qed.

Print Assumptions c15_success.
Print Assumptions c15_error_partial.
Print Assumptions c15_recovers.
Print Assumptions c15_refuted.
Print Assumptions c16_transfer.
Print Assumptions c16_transfer_succeeds.
Print Assumptions c16_consolidation.
Print Assumptions c16_consolidation_succeeds.
Print Assumptions c17_payment.
Print Assumptions c17_payment_succeeds.
Print Assumptions c21_estimate_partial.
Print Assumptions c21_refuted.
