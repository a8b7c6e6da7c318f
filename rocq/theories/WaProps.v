(** Property C53: the balances of the wallet. *)
From Coq Require Import List Arith NArith Lia Bool Permutation Sorted.
From Verif Require Import MtModel MtSpec MtTest PtModel PtSpec PtProps FkSpec FkProps FoSpec FoInv FoProps AssetModel AssetSpec AssetLemmas AssetMap AssetProps
  CkModel CkSpec CkLemmas CkProps SgModel SgSpec SgAcc SgSync SgInv SgProps SnModel SnSpec SnJoin SnAcc SnGood SnProps WaModel WaLemmas.
Import ListNotations.
Open Scope nat_scope.
Notation recv := CkModel.recv (only parsing).

Section Props.
Context {LD ID IT UT NT NF : Type}.
Variable dl : LD.
Variable di : ID.
Variable join : ID -> ID -> ID.
Variable joinl : LD -> LD -> ID.
Variable ldeqb : LD -> LD -> bool.
Variable ideqb : ID -> ID -> bool.
Variable H : nat.
Variable chk : bool.
Variable dg : IT -> LD.
Variable sh : IT -> nat.
Variable open_note : UT -> NT -> option (N * asset).
Variable item : UT -> IT.
Variable spend_item : N -> asset -> IT.
Variable spend_null : N -> asset -> NF.
Variable nfeqb : NF -> NF -> bool.
Variable can_open : NF -> bool.
Variable ident : nat -> N.
Variable prove_ok : nat -> bool.
Hypothesis HH : 3 <= H.
Hypothesis ldeqb_spec : forall a b, ldeqb a b = true <-> a = b.
Hypothesis ideqb_spec : forall a b, ideqb a b = true <-> a = b.
Hypothesis nfeqb_spec : forall a b, nfeqb a b = true <-> a = b.
Hypothesis join_nd : forall a b, join a b <> di.
Hypothesis joinl_nd : forall a b, joinl a b <> di.
Variable L : ledger UT NT NF.
Notation shards := (length (l_notes L)).
Notation nsh := (note_sh (NT := NT) sh item).
Hypothesis LOK : ledger_ok open_note spend_null nsh dg item spend_item can_open L.
Hypothesis CAP : forall i, length (l_shard L i) <= 2 ^ (H - 1).
Hypothesis sh_lt : forall x, sh x < shards.

Notation synced := (synced dl di join joinl ldeqb ideqb H chk dg sh open_note item spend_item spend_null nfeqb can_open L).
Notation signer := (signer (LD := LD) (ID := ID) (NF := NF)).
Notation wallet := (@wallet LD ID NF).
Notation sync := (sync dl di join joinl ldeqb ideqb H chk dg sh open_note item spend_item spend_null nfeqb can_open).
Notation signer_sync := (wallet_signer_sync dl di join joinl ldeqb ideqb H chk dg sh open_note item spend_item spend_null nfeqb can_open).
Notation sync_with := (wallet_sync_with dl di join joinl ldeqb ideqb H chk dg sh open_note item spend_item spend_null nfeqb can_open).
Notation sync_loop := (wallet_sync dl di join joinl ldeqb ideqb H chk dg sh open_note item spend_item spend_null nfeqb can_open).
Notation load := (load_initial_state dl di join joinl ldeqb ideqb H chk dg sh open_note item spend_item spend_null nfeqb can_open shards).
Notation restart := (restart dl di join joinl ldeqb ideqb H chk dg sh open_note item spend_item spend_null nfeqb can_open shards).
Notation wsign := (wallet_sign dl di join joinl ldeqb ideqb H chk dg sh spend_item ident prove_ok).
Notation wnew := (wallet_new (LD := LD) (ID := ID) (NF := NF) shards).
Notation reset := (reset_state (LD := LD) (ID := ID) (NF := NF) shards).
Notation unspent := (unspent open_note spend_null nfeqb L).
Notation sdata := (sdata (UT * NT) NF).
Notation vec := am_asset_vector.

(** The wallet shows the notes that are unspent at its checkpoint, and stands where its signer
    stands. *)
Definition shows_unspent (w : wallet) : Prop :=
  w_ck w = s_ck (w_signer w) /\ forall id, bm_balance (w_assets w) id = total (map snd (unspent (w_ck w))) id.

(** The executions of a wallet: it is created on a synchronised signer; requests that start at
    the checkpoint of the wallet are answered by the ledger; it may load the state of the signer,
    reset itself and sign.  Calls may also return an error, except that the prover does not fail
    (C15 is refuted for that). *)
Inductive reach : wallet -> Prop :=
| r_new s : synced s -> reach (wnew s)
| r_sync w d w' : reach w -> reply nsh L (w_ck w) d -> in_step nsh (s_ck (w_signer w)) (w_ck w) d ->
    (sync_with w d = WOk w' tt \/ exists x, sync_with w d = WErr w' x) -> reach w'
| r_load w w' : reach w -> (load w = WOk w' tt \/ exists x, load w = WErr w' x) -> reach w'
| r_reset w : reach w -> reach (reset w)
| r_sign w accounts auth t rng prf w' : reach w ->
    ((exists ps, wsign accounts auth w t rng prf = WOk w' ps) \/
     exists x, wsign accounts auth w t rng prf = WErr w' x /\ x <> WSign ProofSystemError) -> reach w'.

(** The invariant: the wallet is at or behind its signer, and if it is not behind it has the
    balances of the signer. *)
Definition Wok (w : wallet) : Prop :=
  synced (w_signer w) /\ bm_ok (w_assets w) /\ covers (s_ck (w_signer w)) (w_ck w) /\
  (w_ck w = s_ck (w_signer w) -> forall id, bm_balance (w_assets w) id = worth (s_assets (w_signer w)) id).

Lemma ck_inv (s : signer) : synced s -> length (recv (s_ck s)) = shards.
Proof.
  intro Y. pose proof (synced_inv _ _ _ _ _ _ _ _ _ _ _ _ _ _ _ _ HH ldeqb_spec ideqb_spec nfeqb_spec join_nd joinl_nd L LOK CAP s Y) as IV.
  apply (i_len _ _ _ _ _ _ _ _ _ _ _ _ _ _ IV).
Qed.

Lemma default_covered (s : signer) : synced s -> covers (s_ck s) (ck_default shards).
Proof.
  intro Y. pose proof (ck_inv s Y) as E. split; [cbn; rewrite repeat_length; exact E|]. split; [|apply Nat.le_0_l].
  intro i. unfold at_shard, ck_default. cbn [recv]. rewrite nth_repeat. apply Nat.le_0_l.
Qed.

Lemma unspent_default : unspent (ck_default shards) = [].
Proof.
  unfold SgSpec.unspent, seen_notes. replace (flat_map _ _) with (@nil (UT * NT)); [reflexivity|]. symmetry.
  induction (seq 0 shards) as [|i l IH]; [reflexivity|]. cbn [flat_map]. rewrite IH, app_nil_r.
  unfold at_shard, ck_default. cbn [recv]. rewrite nth_repeat. reflexivity.
Qed.

Lemma worth_unspent (s : signer) id : synced s -> worth (s_assets s) id = total (map snd (unspent (s_ck s))) id.
Proof.
  intro Y. unfold worth. apply total_perm, Permutation_map.
  apply (c14_assets _ _ _ _ _ _ _ _ _ _ _ _ _ _ _ _ HH ldeqb_spec ideqb_spec nfeqb_spec join_nd joinl_nd L LOK CAP s Y).
Qed.

Lemma Wok_shows w : Wok w -> w_ck w = s_ck (w_signer w) -> shows_unspent w.
Proof. intros (Y & _ & _ & B) E. split; auto. intro id. rewrite (B E), (worth_unspent _ _ Y), E. reflexivity. Qed.

Lemma fresh_ok (s : signer) c m : synced s -> bm_ok m -> c = ck_default shards -> m = bm_default -> Wok (mk_wallet c s m).
Proof.
  intros Y O -> ->. split; [exact Y|]. split; [exact O|]. split; [apply default_covered; exact Y|].
  cbn [w_ck w_signer w_assets]. intros E id. rewrite (worth_unspent s id Y), <- E, unspent_default. reflexivity.
Qed.

Lemma default_ok : bm_ok bm_default.
Proof. intros id E. discriminate. Qed.

(** One call of the signer, from the checkpoint [o] of the request: for a wallet that is not
    ahead, and that has the balances of the signer if the request starts at its checkpoint. *)
Lemma signer_sync_ok w o d : synced (w_signer w) -> bm_ok (w_assets w) ->
  covers (s_ck (w_signer w)) (w_ck w) ->
  (o = s_ck (w_signer w) \/ w_ck w = s_ck (w_signer w) -> forall id, bm_balance (w_assets w) id = worth (s_assets (w_signer w)) id) ->
  reply nsh L o d -> in_step nsh (s_ck (w_signer w)) o d ->
  match signer_sync w o d with
  | WOk w' _ => Wok w' /\ w_ck w' = s_ck (w_signer w') /\ ck_after nsh (s_ck (w_signer w)) o d (w_ck w')
  | WErr w' x => Wok w' /\ x = WWalletBalance /\ exists id,
      (vmax < worth (s_assets (w_signer w)) id \/ vmax < worth (s_assets (w_signer w')) id)%N
  | WPanic => chk = true \/ exists c id, ck_after nsh (s_ck (w_signer w)) o d c /\
      (vmax < total (map snd (unspent (s_ck (w_signer w)))) id + total (map snd (unspent c)) id)%N
  end.
Proof.
  intros Y O CV B R ST. unfold wallet_signer_sync.
  pose proof (sync_spec dl di join joinl ldeqb ideqb H chk dg sh open_note item spend_item spend_null nfeqb can_open
      HH ldeqb_spec ideqb_spec nfeqb_spec join_nd joinl_nd L LOK CAP (w_signer w) o d
      (synced_inv _ _ _ _ _ _ _ _ _ _ _ _ _ _ _ _ HH ldeqb_spec ideqb_spec nfeqb_spec join_nd joinl_nd L LOK CAP _ Y) R ST) as G.
  destruct (sync (w_signer w) o d) as [[s' r]|] eqn:E.
  2: { destruct G as [G|(c & id & K & G)]; [left; exact G|]. right. exists c, id. split; [exact K|].
       clear - G. eapply N.lt_le_trans; [exact G|]. rewrite N.add_comm. apply N.le_add_r. }
  destruct G as (_ & K & G).
  assert (Y' : synced s') by (eapply syn_step; eauto).
  destruct K as (K1 & K2 & K3).
  assert (CV' : covers (s_ck s') (s_ck (w_signer w))).
  { split; [exact K1|]. split; [|rewrite K3; apply Nat.le_max_l]. intro i.
    destruct (Nat.lt_ge_cases i (length (recv (s_ck (w_signer w))))) as [Hi|Hi]; [rewrite (K2 i Hi); apply Nat.le_max_l|].
    unfold at_shard. rewrite (nth_overflow _ _ Hi). apply Nat.le_0_l. }
  pose proof (covers_trans _ _ _ CV' CV) as CW.
  assert (KA : ck_after nsh (s_ck (w_signer w)) o d (s_ck s')) by (split; [exact K1|split; assumption]).
  clear K1 K2 K3.
  destruct r as [[c [dep wd|l]]|[|]]; cbn [reported] in G; cbn [process_sync_response w_ck w_signer w_assets].
  - destruct G as (-> & G).
    assert (EO : s_ck (w_signer w) = o).
    { destruct R as (R1 & R2 & _). destruct ST as (S1 & S2).
      unfold SgModel.sync in E. destruct (prune_sync_request nsh (s_ck (w_signer w)) o d) as [[[hp d']|]|] eqn:EP; try discriminate.
      destruct hp.
      - exfalso. unfold SgModel.sync_with in E. destruct (sync_notes _ _ _ _ _ _ _ _ _ _ _ _ _) as [[[[a1 m1] n1] dp]|]; [|discriminate].
        destruct (retain_map _ _ _ _ _ _ _ _ _ _ _) as [[[[a2 m2] n2] wd2]|]; [|discriminate].
        destruct (normalize_assets dp wd2) as [[dp' wd']|]; cbn [negb] in E.
        + destruct (am_assets m2) as [l|]; cbn [option_map] in E; [|discriminate].
          destruct (fo_commit _ _ _ _ _ _ _ _); cbn [option_map] in E; discriminate.
        + destruct (fo_commit _ _ _ _ _ _ _ _); cbn [option_map] in E; discriminate.
      - assert (SO : forall u, In u (notes d) -> nsh u < length (recv o)) by (rewrite R1; exact R2).
        pose proof (updated_origin_advanced _ _ nsh o d SO) as AD.
        apply (not_pruned nsh o _ _ d d' SO AD S1 (S2 _ AD) EP). }
    specialize (B (or_introl (eq_sym EO))).
    pose proof (bm_deposit_all_any dep (w_assets w) O) as D. destruct (bm_deposit_all (w_assets w) dep) as [m1|].
    2: { destruct D as (id & D). right. exists (s_ck s'), id. split; [exact KA|].
         specialize (G id). rewrite B in D. rewrite <- (worth_unspent _ id Y), <- (worth_unspent _ id Y'). destruct G as (_ & G & _).
         clear - D G. eapply N.lt_le_trans; [exact D|]. apply N.add_le_mono_l. exact G. }
    destruct D as (O1 & D). pose proof (bm_withdraw_all_any m1 wd O1) as W. destruct (bm_withdraw_all m1 wd) as [[m2 [|]]|].
    + destruct W as (O2 & _ & W). split; [|split; [reflexivity|exact KA]].
      split; [exact Y'|]. split; [exact O2|]. split; [apply covers_refl|]. cbn [w_ck w_signer w_assets]. intros _ id.
      specialize (W eq_refl id). specialize (G id). rewrite D, B in W. destruct G as (G & _). clear - G W. lia.
    + exfalso. destruct W as (_ & W & _). assert (Z : false = true); [|discriminate]. apply W. intro id. rewrite D, B.
      destruct (G id) as (_ & _ & G3). clear - G3. lia.
    + destruct W as (id & W). right. exists (s_ck s'), id. split; [exact KA|]. rewrite <- (worth_unspent _ id Y).
      destruct (G id) as (_ & _ & G3). clear - W G3. lia.
  - destruct G as (-> & G). pose proof (bm_deposit_all_any l bm_default default_ok) as D.
    destruct (bm_deposit_all bm_default l) as [m|].
    + destruct D as (O1 & D). split; [|split; [reflexivity|exact KA]].
      split; [exact Y'|]. split; [exact O1|]. split; [apply covers_refl|]. cbn [w_ck w_signer w_assets]. intros _ id.
      rewrite D, G. reflexivity.
    + destruct D as (id & D). right. exists (s_ck s'), id. split; [exact KA|]. rewrite G in D.
      rewrite <- (worth_unspent _ id Y'). change (bm_balance bm_default id) with 0%N in D. clear - D. lia.
  - destruct G.
  - split; [|split; [reflexivity|exact G]].
    split; [exact Y'|]. split; [exact O|]. split; [exact CW|]. cbn [w_ck w_signer w_assets]. intros EC id.
    assert (EQ : s_ck (w_signer w) = s_ck s') by (apply covers_anti; [rewrite <- EC; exact CV|exact CV']).
    rewrite <- (c14_split _ _ _ _ _ _ _ _ _ _ _ _ _ _ _ _ HH ldeqb_spec ideqb_spec nfeqb_spec join_nd joinl_nd L LOK CAP _ _ Y Y' EQ).
    apply B. right. congruence.
Qed.

Lemma sync_with_ok w d : Wok w -> reply nsh L (w_ck w) d -> in_step nsh (s_ck (w_signer w)) (w_ck w) d ->
  match sync_with w d with
  | WOk w' _ => Wok w' /\ w_ck w' = s_ck (w_signer w') /\ ck_after nsh (s_ck (w_signer w)) (w_ck w) d (w_ck w')
  | WErr w' x => Wok w' /\ x = WWalletBalance /\ exists id,
      (vmax < worth (s_assets (w_signer w)) id \/ vmax < worth (s_assets (w_signer w')) id)%N
  | WPanic => chk = true \/ exists c id, ck_after nsh (s_ck (w_signer w)) (w_ck w) d c /\
      (vmax < total (map snd (unspent (s_ck (w_signer w)))) id + total (map snd (unspent c)) id)%N
  end.
Proof.
  intros (Y & O & CV & B) R ST. apply signer_sync_ok; auto. intros [E|E]; auto.
Qed.

Lemma reply_default : reply nsh L (ck_default shards) (mk_sdata [] []).
Proof.
  split; [apply repeat_length|]. split; [intros u []|]. split; [|eexists; reflexivity].
  intros i _. eexists. reflexivity.
Qed.
Lemma step_default (s : signer) : synced s -> in_step nsh (s_ck s) (ck_default shards) (mk_sdata [] [] : sdata).
Proof.
  intro Y. split; [apply default_covered; exact Y|]. intros last (A1 & A2 & A3). left.
  replace last with (ck_default shards); [apply default_covered; exact Y|].
  destruct last as [r n]. cbn in A1, A2, A3. subst n. unfold ck_default. f_equal.
  apply nth_ext with (d := 0) (d' := 0); [symmetry; exact A1|]. intros i Hi. rewrite repeat_length in *. specialize (A2 i Hi).
  unfold at_shard in A2. cbn in A2. rewrite A2. apply plus_n_O.
Qed.

(** Loading the state of the signer: also from a wallet with any balances, if it is reset. *)
Lemma load_ok w : Wok w ->
  match load w with
  | WOk w' _ => Wok w' /\ w_ck w' = s_ck (w_signer w') /\ w_ck w' = s_ck (w_signer w)
  | WErr w' _ => Wok w'
  | WPanic => True
  end.
Proof.
  intros (Y & O & CV & B). unfold load_initial_state.
  assert (B' : ck_default shards = s_ck (w_signer w) \/ w_ck w = s_ck (w_signer w) ->
    forall id, bm_balance (w_assets w) id = worth (s_assets (w_signer w)) id).
  { intros [E|E]; auto. apply B. apply covers_anti; [|exact CV]. rewrite <- E. 
    destruct CV as (C1 & C2 & C3). split; [cbn; rewrite repeat_length, <- C1; apply ck_inv; exact Y|]. rewrite <- E in C2, C3. 
    split; [|apply Nat.le_0_l]. intro i. unfold at_shard, ck_default. cbn [recv]. rewrite nth_repeat. apply Nat.le_0_l. }
  pose proof (signer_sync_ok w (ck_default shards) (mk_sdata [] []) Y O CV B' reply_default (step_default _ Y)) as G.
  destruct (signer_sync w (ck_default shards) (mk_sdata [] [])) as [w' u|w' x|]; [|apply G|exact I].
  destruct G as (G1 & G2 & K1 & K2 & K3). split; [exact G1|]. split; [exact G2|].
  destruct (w_ck w') as [r n], (s_ck (w_signer w)) as [r0 n0] eqn:EK. cbn in *. f_equal; [|lia].
  apply nth_ext with (d := 0) (d' := 0); [exact K1|]. intros i Hi. rewrite K1 in Hi. specialize (K2 i Hi).
  unfold at_shard in K2. cbn in K2. rewrite K2, nth_repeat. cbn. apply Nat.max_0_r.
Qed.

Lemma reset_ok w : synced (w_signer w) -> Wok (reset w).
Proof. intro Y. apply fresh_ok; auto. apply default_ok. Qed.

Lemma reach_ok w : reach w -> Wok w.
Proof.
  induction 1 as [s Y|w d w' _ IH R ST E|w w' _ IH E|w _ IH|w accounts auth t rng prf w' _ IH E].
  - apply fresh_ok; auto. apply default_ok.
  - pose proof (sync_with_ok w d IH R ST) as G. destruct E as [E|(x & E)]; rewrite E in G; apply G.
  - pose proof (load_ok w IH) as G. destruct E as [E|(x & E)]; rewrite E in G; apply G.
  - apply reset_ok. apply IH.
  - destruct IH as (Y & O & CV & B).
    assert (S : forall s' r, signer_sign dl di join joinl ldeqb ideqb H chk dg sh spend_item ident prove_ok accounts auth (w_signer w) t rng prf = Some (s', r) ->
      r <> inr ProofSystemError -> s' = w_signer w).
    { intros s' r ES NE. destruct r as [ps|x].
      - eapply (proj1 (c15_success dl di join joinl ldeqb ideqb H chk dg sh open_note item spend_item spend_null nfeqb can_open ident prove_ok L (w_signer w) s' rng prf Y)). exact ES.
      - destruct (proj1 (c15_error_partial dl di join joinl ldeqb ideqb H chk dg sh open_note item spend_item spend_null nfeqb can_open ident prove_ok
          HH ldeqb_spec ideqb_spec nfeqb_spec join_nd joinl_nd L LOK CAP sh_lt (w_signer w) s' x rng prf Y) accounts auth t ES) as (_ & _ & G). apply G. left. congruence. }
    unfold wallet_sign in E. destruct (wallet_check w t) as [a|].
    + destruct E as [(ps & E)|(x & E & _)]; [discriminate|]. injection E as <- _. split; [exact Y|split; [exact O|split; assumption]].
    + destruct (signer_sign _ _ _ _ _ _ _ _ _ _ _ _ _ _ _ _ _ _ _) as [[s' [ps|x]]|]; destruct E as [(ps' & E)|(x' & E & NE)]; try discriminate.
      * injection E as <- _. rewrite (S s' (inl ps) eq_refl) by discriminate. split; [exact Y|split; [exact O|split; assumption]].
      * injection E as <- <-. rewrite (S s' (inr x) eq_refl) by congruence. split; [exact Y|split; [exact O|split; assumption]].
Qed.

(** C53: a wallet that is not behind its signer shows exactly the notes unspent at its
    checkpoint; it is never ahead. *)
Theorem c53_reach : forall w, reach w ->
  covers (s_ck (w_signer w)) (w_ck w) /\ (w_ck w = s_ck (w_signer w) -> shows_unspent w).
Proof.
  intros w R. pose proof (reach_ok w R) as O. split; [apply O|]. intro E. apply Wok_shows; auto.
Qed.

(** C53: after a sync without error the balances are those of the notes unspent at the end of
    the reply, also if syncs before it returned errors, the wallet was reset or the signer was
    ahead. *)
Theorem c53_sync : forall w d w', reach w ->
  reply nsh L (w_ck w) d -> in_step nsh (s_ck (w_signer w)) (w_ck w) d -> sync_with w d = WOk w' tt ->
  shows_unspent w' /\ ck_after nsh (s_ck (w_signer w)) (w_ck w) d (w_ck w').
Proof.
  intros w d w' RC R ST E. pose proof (sync_with_ok w d (reach_ok w RC) R ST) as G. rewrite E in G.
  destruct G as (G1 & G2 & G3). split; [apply Wok_shows; auto|exact G3].
Qed.

(** The ledger answers every request. *)
Definition answers (read : nat -> ckpt -> bool * sdata) : Prop :=
  forall n c, length (recv c) = shards -> reply nsh L c (snd (read n c)).

Lemma loop_ok read : answers read -> forall fuel n w w', Wok w ->
  in_step nsh (s_ck (w_signer w)) (w_ck w) (snd (read n (w_ck w))) ->
  sync_loop fuel n read w = Some (WOk w' tt) -> shows_unspent w'.
Proof.
  intro A. induction fuel as [|fuel IH]; intros n w w' O ST E; cbn [wallet_sync] in E; [discriminate|].
  assert (LW : length (recv (w_ck w)) = shards).
  { destruct O as (Y & _ & (C & _) & _). rewrite <- C. apply ck_inv. exact Y. }
  pose proof (A n (w_ck w) LW) as R. destruct (read n (w_ck w)) as [more d]. cbn [snd] in *.
  pose proof (sync_with_ok w d O R ST) as G. destruct (sync_with w d) as [w1 u|w1 x|]; try discriminate.
  destruct G as (G1 & G2 & _). destruct more.
  - apply (IH (S n) w1 w' G1); [|exact E]. rewrite <- G2. apply c14_own_request_in_step.
  - injection E as <-. apply Wok_shows; auto.
Qed.

(** C53 for the loop over the parts of the ledger. *)
Theorem c53_sync_all : forall fuel read w w', answers read -> reach w ->
  in_step nsh (s_ck (w_signer w)) (w_ck w) (snd (read 0 (w_ck w))) ->
  sync_loop fuel 0 read w = Some (WOk w' tt) -> shows_unspent w'.
Proof. intros fuel read w w' A R ST E. eapply loop_ok; eauto. apply reach_ok. exact R. Qed.

(** C53: a restart repairs every wallet whose signer is synchronised, whatever its balances and
    its checkpoint are. *)
Theorem c53_restart : forall fuel read c s m w', answers read -> synced s ->
  restart fuel read (mk_wallet c s m) = Some (WOk w' tt) -> shows_unspent w'.
Proof.
  intros fuel read c s m w' A Y E. unfold WaModel.restart in E.
  pose proof (load_ok (reset (mk_wallet c s m)) (reset_ok (mk_wallet c s m) Y)) as G.
  destruct (load (reset (mk_wallet c s m))) as [w1 u|w1 x|]; try discriminate. destruct G as (G1 & G2 & _).
  eapply (loop_ok read A fuel 0 w1 w' G1); [|exact E]. rewrite <- G2. apply c14_own_request_in_step.
Qed.

(** C53: without overflow checks, a sync neither panics nor returns an error if the unspent totals
    before and after fit in the type of values together.  Partial: each fitting on its own is not
    enough; see [c53_panic_refuted]. *)
Theorem c53_succeeds_partial : forall w d, chk = false -> reach w ->
  reply nsh L (w_ck w) d -> in_step nsh (s_ck (w_signer w)) (w_ck w) d ->
  (forall c id, ck_after nsh (s_ck (w_signer w)) (w_ck w) d c ->
     (total (map snd (unspent (s_ck (w_signer w)))) id + total (map snd (unspent c)) id <= vmax)%N) ->
  exists w', sync_with w d = WOk w' tt.
Proof.
  intros w d C RC R ST F. pose proof (reach_ok w RC) as O. pose proof (sync_with_ok w d O R ST) as G.
  destruct O as (Y & _). unfold wallet_sync_with, wallet_signer_sync in *.
  destruct (c14_succeeds dl di join joinl ldeqb ideqb H chk dg sh open_note item spend_item spend_null nfeqb can_open HH ldeqb_spec ideqb_spec nfeqb_spec join_nd joinl_nd
    L LOK CAP (w_signer w) (w_ck w) d C Y R ST) as (s' & c & u & E).
  { intro id. pose proof (c20_sync dl di join joinl ldeqb ideqb H chk dg sh open_note item spend_item spend_null nfeqb can_open HH ldeqb_spec ideqb_spec nfeqb_spec join_nd joinl_nd
      L LOK CAP (w_signer w)) as K.
    destruct (sync (w_signer w) (w_ck w) d) as [[s' r]|] eqn:E.
    - specialize (K _ _ _ _ Y R ST E). specialize (F _ id K). clear - F. lia.
    - destruct G as [G|(c & i & K' & G)]; [congruence|]. specialize (F c i K'). exfalso. clear - F G. lia. }
  { intros c K id. specialize (F c id K). clear - F. lia. }
  rewrite E in G |- *. destruct (process_sync_response _ _) as [w' []|w' x|] eqn:PR; [eauto| |].
  - exfalso. destruct G as (G1 & _ & id & G). cbn [w_signer] in *.
    pose proof (c20_sync dl di join joinl ldeqb ideqb H chk dg sh open_note item spend_item spend_null nfeqb can_open HH ldeqb_spec ideqb_spec nfeqb_spec join_nd joinl_nd
      L LOK CAP (w_signer w) _ _ _ _ Y R ST E) as K. specialize (F _ id K).
    assert (ES : w_signer w' = s').
    { cbn [process_sync_response w_ck w_signer w_assets] in PR. destruct u as [dep wd|l].
      - destruct (bm_deposit_all _ _); [|discriminate]. destruct (bm_withdraw_all _ _) as [[? [|]]|]; try discriminate. injection PR as <- _. reflexivity.
      - destruct (bm_deposit_all _ _); discriminate. }
    rewrite ES, (worth_unspent _ id Y) in G. rewrite (worth_unspent s' id) in G by (eapply syn_step; eauto). clear - F G. lia.
  - exfalso. destruct G as [G|(c' & i & K' & G)]; [congruence|]. specialize (F c' i K'). clear - F G. lia.
Qed.

(** C53: the check before signing passes exactly if the unspent notes cover the amount. *)
Theorem c53_check : forall w t, shows_unspent w ->
  wallet_check w t = None <->
  match t with ToPrivate _ => True | PrivateTransfer a _ | ToPublic a _ => (snd a <= total (map snd (unspent (w_ck w))) (fst a))%N end.
Proof.
  intros w t (_ & B). destruct t as [a|a r|a r]; cbn [wallet_check]; [tauto| |];
    (rewrite B; destruct (N.leb_spec (snd a) (total (map snd (unspent (w_ck w))) (fst a))) as [Q|Q]; split; intro X; auto; [discriminate|]; exfalso; clear - X Q; lia).
Qed.

(** C53: what passes the check is signed: the signer does not come to another answer.  The rest
    are the conditions under which the signer signs at all (C16, C17). *)
Theorem c53_checked_is_signed : forall w t auth rng prf, reach w -> w_ck w = s_ck (w_signer w) ->
  (forall n, prove_ok n = true) -> wallet_check w t = None ->
  match t with
  | ToPrivate _ => auth = true
  | PrivateTransfer a _ =>
      (total (map snd (unspent (w_ck w))) (fst a) <= vmax)%N /\
      forall j, at_shard (w_ck w) j + 2 * (length (coins (s_assets (w_signer w)) (fst a)) - 2) <= 2 ^ (H - 1)
  | ToPublic a _ => (total (map snd (unspent (w_ck w))) (fst a) <= vmax)%N
  end ->
  exists ps, wsign true auth w t rng prf = WOk w ps.
Proof.
  intros w t auth rng prf R E PO CK C. pose proof (reach_ok w R) as O. pose proof (proj2 (c53_reach w R) E) as SU.
  apply (c53_check w t SU) in CK as CK'. unfold wallet_sign. rewrite CK. destruct O as (Y & _).
  assert (W : forall id, coin_total (coins (s_assets (w_signer w)) id) = total (map snd (unspent (w_ck w))) id).
  { intro id. rewrite coins_total. fold (worth (s_assets (w_signer w)) id). rewrite (worth_unspent _ id Y), E. reflexivity. }
  destruct t as [a|a addr|a account].
  - pose proof (synced_fresh dl di join joinl ldeqb ideqb H chk dg sh open_note item spend_item spend_null nfeqb can_open L (w_signer w) Y) as F. unfold fresh in F.
    unfold signer_sign, on_signer, SnModel.sign, then_rollback. cbn [SnModel.sign_internal]. subst auth.
    unfold receiver, draw, build_post. cbn [e_acc e_rng e_prf]. rewrite PO. cbn [bind e_acc]. rewrite F.
    eexists. destruct w as [c [? ? ? ?] m]. reflexivity.
  - destruct C as (C1 & C2).
    destruct (c16_transfer_succeeds dl di join joinl ldeqb ideqb H chk dg sh open_note item spend_item spend_null nfeqb can_open ident prove_ok
      HH ldeqb_spec ideqb_spec nfeqb_spec join_nd joinl_nd L LOK CAP sh_lt (w_signer w) auth a addr rng prf Y PO) as (G & _).
    { rewrite W. exact C1. }
    { rewrite <- E. exact C2. }
    rewrite W in G. destruct (G CK') as (ps & G'). rewrite G'. exists ps. destruct w. reflexivity.
  - destruct (c17_payment_succeeds dl di join joinl ldeqb ideqb H chk dg sh open_note item spend_item spend_null nfeqb can_open ident prove_ok
      HH ldeqb_spec ideqb_spec nfeqb_spec join_nd joinl_nd L LOK CAP sh_lt (w_signer w) auth a account rng prf Y PO) as (G & _).
    { rewrite W. exact C. }
    rewrite W in G. destruct (G CK') as (ps & G'). rewrite G'. exists ps. destruct w. reflexivity.
Qed.
End Props.

(** ** Concrete cases *)

(** The ledgers of [SgProps] and [SnProps]: two shards. *)
Definition xw_sync_with := wallet_sync_with 0 D0 DJ DL Nat.eqb dig_eqb 4 false (fun x : nat => x) xs_sh xs_open xs_item xs_spend_item xs_spend_null N.eqb xs_can.
Definition xw_load := load_initial_state 0 D0 DJ DL Nat.eqb dig_eqb 4 false (fun x : nat => x) xs_sh xs_open xs_item xs_spend_item xs_spend_null N.eqb xs_can 2.
Definition xw_loop := wallet_sync 0 D0 DJ DL Nat.eqb dig_eqb 4 false (fun x : nat => x) xs_sh xs_open xs_item xs_spend_item xs_spend_null N.eqb xs_can.
Definition xw_restart := restart 0 D0 DJ DL Nat.eqb dig_eqb 4 false (fun x : nat => x) xs_sh xs_open xs_item xs_spend_item xs_spend_null N.eqb xs_can 2.
Definition xw_sign := wallet_sign (NF := N) 0 D0 DJ DL Nat.eqb dig_eqb 4 false (fun x : nat => x) xs_sh xs_spend_item xn_ident xn_all true true.
Definition xw_reach L := reach 0 D0 DJ DL Nat.eqb dig_eqb 4 false (fun x : nat => x) xs_sh xs_open xs_item xs_spend_item xs_spend_null N.eqb xs_can xn_ident xn_all L.
Definition xw_shows L := shows_unspent (LD := nat) (ID := dig) xs_open xs_spend_null N.eqb L.
Definition xw_w0 : wallet := wallet_new (LD := nat) (ID := dig) (NF := N) 2 xs_s0.
Definition xw_get (r : wout wallet unit) : wallet := match r with WOk w _ | WErr w _ => w | WPanic => xw_w0 end.

(** A first reply, then the rest of the ledger. *)
Definition xw_d2 : sdata (nat * option asset) N := mk_sdata [(5, None); (6, Some (8, 1)%N); (9, Some (7, 2)%N)] [6]%N.
Definition xw_w1 : wallet := xw_get (xw_sync_with xw_w0 xs_d1).
Definition xw_w2 : wallet := xw_get (xw_sync_with xw_w1 xw_d2).
Lemma xw_reach0 L : length (l_notes L) = 2 -> xw_reach L xw_w0.
Proof. intro E. unfold xw_w0. rewrite <- E. apply r_new. apply syn_new. rewrite E. vm_compute. reflexivity. Qed.
Lemma xw_reach1 : xw_reach xs_L xw_w1.
Proof.
  apply (r_sync _ _ _ _ _ _ _ _ _ _ _ _ _ _ _ _ _ _ _ xw_w0 xs_d1); [apply xw_reach0; reflexivity|apply xs_reply1|apply xs_step0|].
  left. vm_compute. reflexivity.
Qed.
Example ex_c53_sync : xw_reach xs_L xw_w1 /\
  reply xs_nsh xs_L (w_ck xw_w1) xw_d2 /\ in_step xs_nsh (s_ck (w_signer xw_w1)) (w_ck xw_w1) xw_d2 /\
  xw_sync_with xw_w1 xw_d2 = WOk xw_w2 tt /\ w_ck xw_w2 = mk_ckpt [3; 3] 3 /\
  map (bm_balance (w_assets xw_w1)) [7; 8]%N = [5; 0]%N /\ map (bm_balance (w_assets xw_w2)) [7; 8]%N = [7; 0]%N.
Proof.
  split; [apply xw_reach1|]. split. { change (w_ck xw_w1) with (mk_ckpt [2; 1] 2). reply_tac. }
  split. { apply c14_own_request_in_step. }
  split; [vm_compute; reflexivity|]. vm_compute. auto.
Qed.
Lemma xw_reach2 : xw_reach xs_L xw_w2.
Proof.
  destruct ex_c53_sync as (A & B & C & D & _).
  apply (r_sync _ _ _ _ _ _ _ _ _ _ _ _ _ _ _ _ _ _ _ xw_w1 xw_d2); auto.
Qed.
Example ex_c53_shows : xw_shows xs_L xw_w2.
Proof.
  apply (c53_reach 0 D0 DJ DL Nat.eqb dig_eqb 4 false (fun x : nat => x) xs_sh xs_open xs_item xs_spend_item xs_spend_null N.eqb xs_can xn_ident xn_all
    ltac:(lia) Nat.eqb_eq dig_eqb_spec N.eqb_eq ltac:(discriminate) ltac:(discriminate) xs_L xs_L_ok).
  - intros [|[|[|]]]; cbn; lia.
  - intro x. change (x mod 2 < 2). apply Nat.mod_upper_bound. discriminate.
  - apply xw_reach2.
  - vm_compute. reflexivity.
Qed.

(** A wallet that was reset gets everything from its signer. *)
Example ex_c53_load : exists w, xw_load (reset_state 2 xw_w2) = WOk w tt /\ w_ck w = mk_ckpt [3; 3] 3 /\ map (bm_balance (w_assets w)) [7; 8]%N = [7; 0]%N.
Proof. exists (xw_get (xw_load (reset_state 2 xw_w2))). split; vm_compute; auto. Qed.

(** A ledger that answers one entry of each kind at a time. *)
Definition xw_read (n : nat) (c : ckpt) : bool * sdata (nat * option asset) N :=
  (n <? 3, mk_sdata (firstn 1 (skipn (at_shard c 0) (l_shard xs_L 0)) ++ firstn 1 (skipn (at_shard c 1) (l_shard xs_L 1))) (firstn 1 (skipn (send c) (l_nulls xs_L)))).
Lemma xw_answers : answers xs_sh xs_item xs_L xw_read.
Proof.
  intros n c LC. change (reply xs_nsh xs_L c (snd (xw_read n c))). split; [exact LC|].
  assert (SH0 : forall k u, In u (firstn 1 (skipn k (l_shard xs_L 0))) -> xs_nsh u = 0).
  { intros k u I. apply (lo_shard _ _ _ _ _ _ _ _ xs_L_ok 0). eapply in_skipn. rewrite <- (firstn_skipn 1). apply in_or_app. left. exact I. }
  assert (SH1 : forall k u, In u (firstn 1 (skipn k (l_shard xs_L 1))) -> xs_nsh u = 1).
  { intros k u I. apply (lo_shard _ _ _ _ _ _ _ _ xs_L_ok 1). eapply in_skipn. rewrite <- (firstn_skipn 1). apply in_or_app. left. exact I. }
  assert (FT : forall (l : list (nat * option asset)) j, (forall u, In u l -> xs_nsh u = j) -> forall i, of_shard xs_nsh i l = if i =? j then l else []).
  { intros l j E i. unfold of_shard. induction l as [|u l IH]; [destruct (i =? j); reflexivity|]. cbn [filter]. rewrite IH by (intros; apply E; right; auto).
    rewrite (E u (or_introl eq_refl)), (Nat.eqb_sym j i). destruct (i =? j); reflexivity. }
  cbn [snd xw_read notes nulls]. split; [|split].
  - intros u I. apply in_app_or in I. destruct I as [I|I]; [rewrite (SH0 _ _ I)|rewrite (SH1 _ _ I)]; cbn; lia.
  - intros i Hi. unfold of_shard. rewrite filter_app. change (filter (fun u => xs_nsh u =? i)) with (of_shard xs_nsh i). rewrite (FT _ 0 (SH0 _)), (FT _ 1 (SH1 _)).
    destruct i as [|[|i]]; [| |cbn in Hi; lia]; cbn [Nat.eqb app]; rewrite ?app_nil_r; eexists; symmetry; apply firstn_skipn.
  - eexists. symmetry. apply firstn_skipn.
Qed.
Example ex_c53_sync_all : in_step xs_nsh (s_ck (w_signer xw_w0)) (w_ck xw_w0) (snd (xw_read 0 (w_ck xw_w0))) /\
  exists w, xw_loop 5 0 xw_read xw_w0 = Some (WOk w tt) /\ map (bm_balance (w_assets w)) [7; 8]%N = [7; 0]%N.
Proof.
  split; [apply c14_own_request_in_step|].
  exists (match xw_loop 5 0 xw_read xw_w0 with Some r => xw_get r | None => xw_w0 end). split; vm_compute; reflexivity.
Qed.
Example ex_c53_restart : exists w, xw_restart 5 xw_read (mk_wallet (mk_ckpt [9; 9] 9) xs_s1 (fun _ => Some 99%N)) = Some (WOk w tt) /\
  map (bm_balance (w_assets w)) [7; 8; 9]%N = [7; 0; 0]%N.
Proof.
  exists (match xw_restart 5 xw_read (mk_wallet (mk_ckpt [9; 9] 9) xs_s1 (fun _ => Some 99%N)) with Some r => xw_get r | None => xw_w0 end).
  split; vm_compute; reflexivity.
Qed.
Example ex_c53_check : wallet_check xw_w2 (PrivateTransfer (7, 7)%N 9%N) = None /\
  wallet_check xw_w2 (PrivateTransfer (7, 8)%N 9%N) = Some (7, 8)%N /\
  exists ps, xw_sign xw_w2 (PrivateTransfer (7, 7)%N 9%N) 0 0 = WOk xw_w2 ps /\ length ps = 1.
Proof.
  split; [reflexivity|]. split; [reflexivity|].
  exists (match xw_sign xw_w2 (PrivateTransfer (7, 7)%N 9%N) 0 0 with WOk _ ps => ps | _ => [] end). split; vm_compute; reflexivity.
Qed.

(** The wallet panics although the totals before and after the sync fit in the type of values:
    normalisation leaves an asset id on both sides after one that cancels (C13), and the deposit
    comes first. *)
Definition xw_L : ledger nat (option asset) N :=
  mk_ledger [[(2, Some (1, 5)%N); (4, Some (2, 3)%N); (6, Some (2, vmax - 8)%N); (8, Some (1, 5)%N); (10, Some (2, 7)%N)]; []] [2; 4]%N.
Definition xw_da : sdata (nat * option asset) N := mk_sdata [(2, Some (1, 5)%N); (4, Some (2, 3)%N); (6, Some (2, vmax - 8)%N)] [].
Definition xw_db : sdata (nat * option asset) N := mk_sdata [(8, Some (1, 5)%N); (10, Some (2, 7)%N)] [2; 4]%N.
Definition xw_wa : wallet := xw_get (xw_sync_with xw_w0 xw_da).
Theorem c53_panic_refuted : exists (L : ledger nat (option asset) N) w d,
  xs_ok L /\ (forall i, length (l_shard L i) <= 2 ^ (4 - 1)) /\ xw_reach L w /\
  reply xs_nsh L (w_ck w) d /\ in_step xs_nsh (s_ck (w_signer w)) (w_ck w) d /\
  xw_shows L w /\
  (forall id, (total (map snd (unspent xs_open xs_spend_null N.eqb L (w_ck w))) id <= vmax)%N) /\
  (forall id, (total (map snd (unspent xs_open xs_spend_null N.eqb L (mk_ckpt [5; 0] 2)%nat)) id <= vmax)%N) /\
  ck_after xs_nsh (s_ck (w_signer w)) (w_ck w) d (mk_ckpt [5; 0] 2) /\
  xw_sync_with w d = WPanic.
Proof.
  exists xw_L, xw_wa, xw_db.
  assert (OK : xs_ok xw_L).
  { apply xs_ledger_ok.
    - unfold l_shard. apply (two_shards (fun i u => xs_nsh u = i)); repeat constructor.
    - vm_compute. repeat constructor; cbn; intuition discriminate.
    - list_tac. repeat (apply Forall_cons; [split; reflexivity|]). apply Forall_nil. }
  assert (CAP : forall i, length (l_shard xw_L i) <= 2 ^ (4 - 1)) by (intros [|[|[|]]]; cbn; lia).
  assert (RC : xw_reach xw_L xw_wa).
  { apply (r_sync _ _ _ _ _ _ _ _ _ _ _ _ _ _ _ _ _ _ _ xw_w0 xw_da); [apply xw_reach0; reflexivity| |apply c14_own_request_in_step|].
    - change (w_ck xw_w0) with (mk_ckpt [0; 0] 0). reply_tac.
    - left. vm_compute. reflexivity. }
  split; [exact OK|]. split; [exact CAP|]. split; [exact RC|].
  split. { change (w_ck xw_wa) with (mk_ckpt [3; 0] 0). reply_tac. }
  split. { apply c14_own_request_in_step. }
  split. { apply (c53_reach 0 D0 DJ DL Nat.eqb dig_eqb 4 false (fun x : nat => x) xs_sh xs_open xs_item xs_spend_item xs_spend_null N.eqb xs_can xn_ident xn_all
      ltac:(lia) Nat.eqb_eq dig_eqb_spec N.eqb_eq ltac:(discriminate) ltac:(discriminate) xw_L OK CAP); [|exact RC|vm_compute; reflexivity].
    intro x. change (x mod 2 < 2). apply Nat.mod_upper_bound. discriminate. }
  split. { intro id. change (unspent xs_open xs_spend_null N.eqb xw_L (w_ck xw_wa)) with [(2, (1, 5)); (4, (2, 3)); (6, (2, vmax - 8))]%N.
    cbn [map snd fst total]. destruct (1 =? id)%N eqn:E1, (2 =? id)%N eqn:E2; apply N.leb_le; reflexivity. }
  split. { intro id. change (unspent xs_open xs_spend_null N.eqb xw_L (mk_ckpt [5; 0] 2)) with [(6, (2, vmax - 8)); (8, (1, 5)); (10, (2, 7))]%N.
    cbn [map snd fst total]. destruct (1 =? id)%N eqn:E1, (2 =? id)%N eqn:E2; apply N.leb_le; try reflexivity.
    apply N.eqb_eq in E1, E2. lia. }
  split. { split; [reflexivity|]. split; [|reflexivity]. intros [|[|i]] Hi; [reflexivity|reflexivity|]. vm_compute in Hi. lia. }
  vm_compute. reflexivity.
Qed.

(** When the signer is behind the wallet (it was replaced by one with an older state), the sync
    returns an error and moves the wallet's checkpoint back, but leaves the balances: the next
    sync succeeds and adds the notes a second time.  The documentation of the error (L739-749)
    asks for a restart, which repairs the wallet ([c53_restart]). *)
Definition xw_behind : wallet := mk_wallet (w_ck xw_w2) xs_s0 (w_assets xw_w2).
Definition xw_back : wallet := xw_get (xw_sync_with xw_behind (mk_sdata [] [])).
Theorem c53_behind_refuted : exists w s w1 d w2,
  xw_reach xs_L w /\ xw_shows xs_L w /\ xs_synced false xs_L s /\
  xw_sync_with (mk_wallet (w_ck w) s (w_assets w)) (mk_sdata [] []) = WErr w1 WSignerSynchronization /\
  reply xs_nsh xs_L (w_ck w) (mk_sdata [] [] : sdata (nat * option asset) N) /\
  reply xs_nsh xs_L (w_ck w1) d /\ in_step xs_nsh (s_ck (w_signer w1)) (w_ck w1) d /\
  xw_sync_with w1 d = WOk w2 tt /\ w_ck w2 = s_ck (w_signer w2) /\ w_ck w2 = w_ck w /\
  bm_balance (w_assets w2) 7 = 14%N /\ total (map snd (unspent xs_open xs_spend_null N.eqb xs_L (w_ck w2))) 7 = 7%N.
Proof.
  exists xw_w2, xs_s0, xw_back, xs_d2, (xw_get (xw_sync_with xw_back xs_d2)).
  split; [apply xw_reach2|]. split; [apply ex_c53_shows|]. split; [apply xs_syn0|]. split; [vm_compute; reflexivity|].
  split. { change (w_ck xw_w2) with (mk_ckpt [3; 3] 3). reply_tac. }
  split. { change (w_ck xw_back) with (mk_ckpt [0; 0] 0). reply_tac. }
  split. { apply c14_own_request_in_step. }
  split; [vm_compute; reflexivity|]. vm_compute. auto.
Qed.

Print Assumptions c53_reach.
Print Assumptions c53_sync.
Print Assumptions c53_sync_all.
Print Assumptions c53_restart.
Print Assumptions c53_succeeds_partial.
Print Assumptions c53_check.
Print Assumptions c53_checked_is_signed.
Print Assumptions c53_panic_refuted.
Print Assumptions c53_behind_refuted.
