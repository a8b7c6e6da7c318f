(** Properties C54 and C55: what the signer signs is accepted by the ledger that it is synchronised
    with, and the synchronisation after it keeps the value. *)
From Coq Require Import List Arith NArith Bool Lia Permutation.
From Verif Require Import MtModel MtSpec MtTest PtModel PtSpec FoSpec FoInv AssetModel AssetSpec AssetLemmas CkModel CkSpec SgModel SgSpec SgSync SgProps
  SnModel SnSpec SnGood SnProps LgModel LgSpec LgLemmas LgInv LgBal LgHist LgRead LgPost LgProps EeModel EeKeys EePush EeFlow EeSign.
Import ListNotations.
Open Scope nat_scope.
Notation recv := CkModel.recv (only parsing).

Section Props.
Context {CM ON UT NT IN IT LD ID KEY SG PRF : Type}.
(** Merkle trees, items and shards. *)
Variable dl : LD.
Variable di : ID.
Variable join : ID -> ID -> ID.
Variable joinl : LD -> LD -> ID.
Variable ldeqb : LD -> LD -> bool.
Variable ideqb : ID -> ID -> bool.
Variable H : nat.
Variable chk : bool.
Variable item : UT -> IT.
Variable dg : IT -> LD.
Variable sh : IT -> nat.
(** The ledger. *)
Variable comeqb : CM -> CM -> bool.
Variable uteqb : UT -> UT -> bool.
Variable nteqb : NT -> NT -> bool.
Variable probe : list (fnull CM ON) -> fnull CM ON -> fnull CM ON -> bool.
Variable dout : ID.
Variable incoming : NT -> IN.
Variable ovchk : bool.
Variable verify_sig : KEY -> SG -> body CM ON UT NT ID PRF -> list N -> bool.
Variable verify : tshape -> list (pin CM UT IN ID KEY) -> PRF -> option bool.
(** The signer. *)
Variable open_note : UT -> NT -> option (N * asset).
Variable can_open : CM -> bool.
Variable spend_item : N -> asset -> IT.
Variable spend_null : N -> asset -> CM.
Variable ident : nat -> N.
Variable prove_ok : nat -> bool.
Variable out_note : N -> asset -> ON.
Variable utxo_of : option N -> N -> asset -> UT.
Variable note_of : option N -> N -> asset -> NT.
Variable authorize : body CM ON UT NT ID PRF -> list N -> KEY * SG.
Variable prove : SnModel.post (LD := LD) (ID := ID) -> PRF.

Notation lg := (LgModel.ledger CM ON UT NT LD ID).
Notation lop := (@lop CM ON UT NT ID KEY SG PRF).
Notation spst := (@SnModel.post LD ID).
Notation signer := (signer (LD := LD) (ID := ID) (NF := CM)).
Notation push := (push dl di join joinl ideqb H item dg sh comeqb uteqb nteqb probe dout incoming ovchk verify_sig verify).
Notation lg_run := (lg_run dl di join joinl ideqb H item dg sh comeqb uteqb nteqb probe dout incoming ovchk verify_sig verify).
Notation lg_new := (lg_new (CM := CM) (ON := ON) (UT := UT) (NT := NT) dl di).
Notation Inv := (Inv dl di join joinl H item dg sh).
Notation nsh := (note_sh (NT := NT) sh item).
Notation leaf := (fun u => dg (item u)).
Notation received := (received open_note).
Notation ledger_ok := (ledger_ok open_note spend_null nsh dg item spend_item can_open).
Notation null_of := (SgSpec.null_of spend_null).
Notation to_post := (to_post spend_null out_note utxo_of note_of dout authorize prove).
Notation synced L := (synced dl di join joinl ldeqb ideqb H chk dg sh open_note item spend_item spend_null comeqb can_open L).
Notation sync := (sync dl di join joinl ldeqb ideqb H chk dg sh open_note item spend_item spend_null comeqb can_open).
Notation sign := (signer_sign (NF := CM) dl di join joinl ldeqb ideqb H chk dg sh spend_item ident prove_ok).
Notation consolidate := (signer_consolidate (NF := CM) dl di join joinl ldeqb ideqb H chk dg sh spend_item ident prove_ok).
Notation fresh := (fresh dg open_note spend_item spend_null utxo_of ident).
Notation spends := (spends (LD := LD) (ID := ID) ident).
Notation out_pair := (out_pair utxo_of note_of).
Notation posted := (posted dl di join joinl H item dg sh dout spend_null out_note utxo_of note_of).
Notation apart := (apart (LD := LD) (ID := ID) sh item spend_item utxo_of).
Notation vec := am_asset_vector.
Notation unspent := (unspent open_note spend_null comeqb).
Notation unspent_now := (unspent_now comeqb open_note spend_null).
Notation sendable L := (sendable dl di join joinl ideqb H dg sh item spend_item ident utxo_of L).

Hypothesis HH : 3 <= H.
Hypothesis LD_spec : forall a b, ldeqb a b = true <-> a = b.
Hypothesis ID_spec : forall a b, ideqb a b = true <-> a = b.
Hypothesis CM_spec : forall a b, comeqb a b = true <-> a = b.
Hypothesis UT_spec : forall a b, uteqb a b = true <-> a = b.
Hypothesis join_nd : forall a b, join a b <> di.
Hypothesis joinl_nd : forall a b, joinl a b <> di.
Variable w : nat.
Hypothesis sh_lt : forall x, sh x < w.
(** Signatures and proofs are complete. *)
Hypothesis authorizes : forall b accounts, verify_sig (fst (authorize b accounts)) (snd (authorize b accounts)) b accounts = true.
Hypothesis complete : forall (p : spst) s, circuit_ok join joinl ideqb dg spend_item p -> post_shape (to_post p) = Some s ->
  verify s (post_input incoming (to_post p)) (prove p) = Some true.
(** The signer's own notes open to what they were made of, their item is the one that a spend
    derives, and their nullifiers are recognised. *)
Hypothesis own_opens : forall k a, open_note (utxo_of None k a) (note_of None k a) = Some (k, a).
Hypothesis own_item : forall k a, item (utxo_of None k a) = spend_item k a.
Hypothesis own_null : forall k a, can_open (spend_null k a) = true.

(** *** The ledger as the signer sees it *)

(** A signer that has seen all of the ledger. *)
Definition current (g : lg) (s : signer) : Prop := synced (view g) s /\ s_ck s = top g.
(** The trees of the signer have room for the notes of the ledger. *)
Definition within (g : lg) : Prop := forall i, length (shard g i) <= 2 ^ (H - 1).

Lemma at_top (g : lg) i : at_shard (top g) i = length (shard g i).
Proof. unfold at_shard, top, shard. cbn [CkModel.recv]. exact (map_nth (@length _) (g_shards g) [] i). Qed.
Lemma seen_top (g : lg) : seen_notes (view g) (top g) = concat (g_shards g).
Proof.
  rewrite concat_seq. unfold seen_notes, l_shard. cbn [view l_notes]. apply flat_map_ext. intro i. rewrite at_top. apply firstn_all.
Qed.
Lemma unspent_top (g : lg) : unspent (view g) (top g) = unspent_now g.
Proof.
  unfold SgSpec.unspent, EeFlow.unspent_now. rewrite seen_top. unfold seen_nulls. cbn [view l_nulls top send].
  rewrite <- (map_length fn_com (g_nulls g)), firstn_all. reflexivity.
Qed.

Lemma leaves_top (g : lg) (s : signer) : Inv g -> s_ck s = top g ->
  forall j, shard_leaves leaf g j = shard_items dg sh j (seen_items item (view g) s).
Proof.
  intros I E j. unfold shard_items, seen_items. rewrite E, seen_top.
  assert (F : forall l : list (UT * NT), filter (fun x => sh x =? j) (map (fun un => item (fst un)) l) =
    map (fun un => item (fst un)) (filter (fun un => sh (item (fst un)) =? j) l)).
  { induction l as [|u l IH]; [reflexivity|]. cbn [map filter]. rewrite IH. destruct (_ =? j); reflexivity. }
  rewrite F, (filter_concat (fun un : UT * NT => sh (item (fst un)))).
  - rewrite map_map. reflexivity.
  - intros i u J. exact (li_shard dl di join joinl H item dg sh g I i u J).
Qed.

Section At.
Variable g : lg.
Hypothesis IV : Inv g.
Hypothesis LW : length (g_shards g) = w.
Hypothesis LOK : ledger_ok (view g).
Hypothesis CAP : within g.
Variable s : signer.
Hypothesis CU : current g s.
Variable rng : nat.
Hypothesis FR : fresh g rng.

Lemma sh_lt_g : forall x, sh x < length (g_shards g).
Proof. intro x. rewrite LW. apply sh_lt. Qed.
Lemma vec_unspent : Permutation (vec (s_assets s)) (unspent_now g).
Proof.
  destruct CU as [Y E]. rewrite <- unspent_top, <- E.
  exact (c14_assets dl di join joinl ldeqb ideqb H chk dg sh open_note item spend_item spend_null comeqb can_open HH LD_spec ID_spec CM_spec join_nd joinl_nd (view g) LOK CAP s Y).
Qed.

Lemma spends_now ps : spends (vec (s_assets s)) rng ps -> spends (unspent_now g) rng ps.
Proof.
  intros (base & joined & n & P & NB & IB & R). exists base, joined, n. split; [exact P|]. split; [exact NB|]. split; [|exact R].
  intros c J. apply (Permutation_in _ vec_unspent). apply IB. exact J.
Qed.

(** Posts of the signer are accepted. *)
Lemma send account ps : sendable (view g) s rng ps -> Forall (form account) ps -> ready g account ps ->
  exists g', push g account (map to_post ps) = (g', ROk true) /\ posted g account ps g'.
Proof.
  intros [SP CO VA _] F RD. apply spends_now in SP.
  destruct (spent_nodup dl join joinl item dg sh comeqb open_note can_open spend_item spend_null utxo_of note_of ident dout out_note CM_spec own_opens own_item own_null g rng ps FR LOK SP) as [N1 N2].
  destruct (utxos_new dl join joinl item dg comeqb open_note can_open spend_item spend_null utxo_of note_of ident dout out_note own_opens own_item own_null g rng ps FR SP) as [U1 U2].
  apply (push_posted dl di join joinl ideqb H item dg sh comeqb uteqb nteqb probe dout incoming ovchk verify_sig verify spend_item spend_null out_note utxo_of note_of authorize prove
    (Nat.le_trans _ _ _ (le_S _ _ (le_n 2)) HH) ID_spec CM_spec UT_spec authorizes complete account ps g (seen_items item (view g) s)); auto.
  - exact sh_lt_g.
  - apply leaves_top; [exact IV|apply CU].
Qed.

Variable account : N.
Variable ps : list spst.
Variable g' : lg.
Hypothesis SE : sendable (view g) s rng ps.
Hypothesis PO : posted g account ps g'.
Hypothesis foreign : forall r addr, In r (flat_map po_receivers ps) -> rc_to r = Some addr ->
  open_note (utxo_of (Some addr) (rc_key r) (rc_asset r)) (note_of (Some addr) (rc_key r) (rc_asset r)) = None.
Hypothesis CAP' : within g'.
Hypothesis W0 : forall id, (worth (s_assets s) id <= vmax)%N.
Hypothesis W1 : forall id, (worth (s_assets s) id + total (flat_map po_sources ps) id <= vmax)%N.

Lemma lok' : ledger_ok (view g').
Proof.
  exact (ledger_ok_after dl di join joinl H item dg sh comeqb open_note can_open spend_item spend_null utxo_of note_of ident dout out_note own_opens own_item own_null
    g rng ps FR LOK (spends_now ps (se_spends _ _ _ _ _ _ _ _ _ _ _ _ _ _ _ _ SE)) account g' sh_lt_g PO foreign (se_small _ _ _ _ _ _ _ _ _ _ _ _ _ _ _ _ SE W0)).
Qed.

(** A reply of a ledger is one of the ledger that it grows into. *)
Lemma skipn_grow {A} n (l r a b : list A) : skipn n l = a ++ b -> exists b', skipn n (l ++ r) = a ++ b'.
Proof.
  intro E. rewrite skipn_app, E, <- app_assoc. eauto.
Qed.
Lemma reply_grows o d : reply nsh (view g) o d -> reply nsh (view g') o d.
Proof.
  intros (A & B & C & D). unfold reply in *. cbn [view l_notes l_nulls] in *. pose proof (po_width _ _ _ _ _ _ _ _ _ _ _ _ _ _ _ _ _ PO) as PW. rewrite PW.
  split; [exact A|]. split; [exact B|]. split.
  - intros i Hi. destruct (C i Hi) as (rest & R). change (l_shard (view g) i) with (shard g i) in R. change (l_shard (view g') i) with (shard g' i).
    rewrite (po_shards _ _ _ _ _ _ _ _ _ _ _ _ _ _ _ _ _ PO i). eapply skipn_grow. exact R.
  - destruct D as (rest & R). rewrite (po_nulls _ _ _ _ _ _ _ _ _ _ _ _ _ _ _ _ _ PO), map_app. eapply skipn_grow. exact R.
Qed.
Lemma synced_grows s0 : synced (view g) s0 -> synced (view g') s0.
Proof.
  induction 1 as [s0 E|s0 o d s1 r _ IH R ST E].
  - apply syn_new. cbn [view l_notes] in *. rewrite (po_width _ _ _ _ _ _ _ _ _ _ _ _ _ _ _ _ _ PO). exact E.
  - eapply syn_step; [exact IH|apply reply_grows; exact R|exact ST|exact E].
Qed.

Notation d' := (view_data (snd (pull g' (s_ck s)))).
Lemma own' : forall j u, In u (shard g' j) -> nsh u = j.
Proof. exact (li_shard dl di join joinl H item dg sh g' (po_inv _ _ _ _ _ _ _ _ _ _ _ _ _ _ _ _ _ PO)). Qed.
Lemma len_ck : length (recv (s_ck s)) = length (g_shards g').
Proof.
  destruct CU as [_ E]. rewrite E. unfold top. cbn [CkModel.recv]. rewrite map_length. symmetry. exact (po_width _ _ _ _ _ _ _ _ _ _ _ _ _ _ _ _ _ PO).
Qed.
Lemma pull_reply : reply nsh (view g') (s_ck s) d'.
Proof.
  unfold reply. cbn [view l_notes l_nulls view_data notes nulls]. pose proof len_ck as LC. split; [exact LC|]. split; [|split].
  - intros u J. apply (pull_in nsh g' (s_ck s) u own') in J. rewrite <- LC. apply J.
  - intros i Hi. exists []. rewrite app_nil_r, (pull_shard nsh g' (s_ck s) i own') by (rewrite LC; exact Hi). reflexivity.
  - exists []. rewrite app_nil_r. unfold pull. cbn [snd nulls]. apply skipn_map.
Qed.

Lemma shard_longer i : length (shard g i) <= length (shard g' i).
Proof. rewrite (po_shards _ _ _ _ _ _ _ _ _ _ _ _ _ _ _ _ _ PO i), app_length. apply Nat.le_add_r. Qed.

Lemma after_top c : ck_after nsh (s_ck s) (s_ck s) d' c -> c = top g'.
Proof.
  intros (A & B & C). destruct CU as [_ E]. pose proof len_ck as LC. destruct c as [rc sd]. cbn [CkModel.recv CkModel.send] in *. unfold top. f_equal.
  - apply nth_ext with (d := 0) (d' := 0); [rewrite map_length; congruence|]. intros i Hi. rewrite A in Hi.
    specialize (B i Hi). unfold at_shard at 1 in B. cbn [CkModel.recv] in B. rewrite B. unfold count_shard. cbn [view_data notes].
    rewrite (pull_shard nsh g' (s_ck s) i own' Hi), skipn_length.
    assert (EA : at_shard (s_ck s) i = length (shard g i)) by (rewrite E; apply at_top). rewrite EA.
    pose proof (shard_longer i) as SL. transitivity (length (shard g' i)); [clear - SL; lia|]. symmetry. exact (map_nth (@length _) (g_shards g') [] i).
  - rewrite C. unfold view_data, pull. cbn [snd nulls]. rewrite map_length, skipn_length, E. cbn [top CkModel.send].
    pose proof (f_equal (@length _) (po_nulls _ _ _ _ _ _ _ _ _ _ _ _ _ _ _ _ _ PO)) as LN. rewrite app_length in LN. clear - LN. lia.
Qed.

(** The unspent notes after the posts are those before, with what the posts moved. *)
Lemma value id : (total (map snd (unspent_now g')) id + total (given_away ps) id + total (flat_map po_sinks ps) id =
  worth (s_assets s) id + total (flat_map po_sources ps) id)%N.
Proof.
  destruct (unspent_after dl di join joinl H item dg sh comeqb open_note can_open spend_item spend_null utxo_of note_of ident dout out_note CM_spec own_opens own_item own_null
    g rng ps FR LOK (spends_now ps (se_spends _ _ _ _ _ _ _ _ _ _ _ _ _ _ _ _ SE)) account g' sh_lt_g PO foreign) as (gone & P & G).
  specialize (G id). apply (Permutation_map snd) in P. apply (total_perm _ _ id) in P. rewrite !map_app, !total_app in P.
  pose proof (flow ps id (se_conserves _ _ _ _ _ _ _ _ _ _ _ _ _ _ _ _ SE)) as F. unfold worth.
  rewrite (total_perm _ _ id (Permutation_map snd vec_unspent)). rewrite G in P. clear - P F. lia.
Qed.

(** Synchronising after the posts. *)
Lemma sync_after : chk = false -> exists s2 c u, sync s (s_ck s) d' = Some (s2, inl (c, u)) /\ current g' s2 /\
  (forall id, (worth (s_assets s2) id + total (given_away ps) id + total (flat_map po_sinks ps) id =
     worth (s_assets s) id + total (flat_map po_sources ps) id)%N) /\
  report_right (vec (s_assets s)) (vec (s_assets s2)) u.
Proof.
  intro CH. destruct CU as [Y E]. pose proof (synced_grows s Y) as Y'. pose proof pull_reply as R. pose proof lok' as LOK'.
  pose proof (c14_own_request_in_step sh item (s_ck s) d') as ST.
  assert (A0 : Permutation (vec (s_assets s)) (unspent (view g') (s_ck s))).
  { exact (c14_assets dl di join joinl ldeqb ideqb H chk dg sh open_note item spend_item spend_null comeqb can_open HH LD_spec ID_spec CM_spec join_nd joinl_nd (view g') LOK' CAP' s Y'). }
  destruct (c14_succeeds dl di join joinl ldeqb ideqb H chk dg sh open_note item spend_item spend_null comeqb can_open HH LD_spec ID_spec CM_spec join_nd joinl_nd (view g') LOK' CAP'
    s (s_ck s) d' CH Y' R ST) as (s2 & c & u & S2).
  - intro id. rewrite <- (total_perm _ _ id (Permutation_map snd A0)). apply W0.
  - intros c0 K id. rewrite (after_top c0 K), unspent_top. pose proof (value id) as V. specialize (W1 id). clear - V W1. lia.
  - exists s2, c, u. split; [exact S2|].
    assert (Y2 : synced (view g') s2) by (eapply syn_step; [exact Y'|exact R|exact ST|exact S2]).
    pose proof (c20_sync dl di join joinl ldeqb ideqb H chk dg sh open_note item spend_item spend_null comeqb can_open HH LD_spec ID_spec CM_spec join_nd joinl_nd (view g') LOK' CAP'
      s (s_ck s) d' s2 _ Y' R ST S2) as K. apply after_top in K.
    split; [split; assumption|]. split.
    + intro id. rewrite <- (value id). unfold worth.
      rewrite (total_perm _ _ id (Permutation_map snd (c14_assets dl di join joinl ldeqb ideqb H chk dg sh open_note item spend_item spend_null comeqb can_open
        HH LD_spec ID_spec CM_spec join_nd joinl_nd (view g') LOK' CAP' s2 Y2))). rewrite K, unspent_top. reflexivity.
    + exact (proj1 (c14_report dl di join joinl ldeqb ideqb H chk dg sh open_note item spend_item spend_null comeqb can_open HH LD_spec ID_spec CM_spec join_nd joinl_nd (view g') LOK' CAP'
        s (s_ck s) d' s2 c u Y' R ST S2)).
Qed.
End At.

(** *** Requests *)

(** A signer, a reachable ledger that it has seen all of, and identifiers not used yet. *)
Record usable (g : lg) (s : signer) (rng : nat) : Prop := {
  us_ok : ledger_ok (view g);
  us_within : within g;
  us_current : current g s;
  us_fresh : fresh g rng }.

(** What one can ask the signer for. *)
Inductive request := Ask (t : transaction) | Merge (l : list iasset).
Definition answer (accounts auth : bool) (s : signer) (q : request) (rng prf : nat) : option (signer * (list spst + sign_error)) :=
  match q with Ask t => sign accounts auth s t rng prf | Merge l => consolidate accounts s l rng prf end.

(** What a request takes from the public account, gives to others, and pays to the public account. *)
Definition taken (q : request) : list asset := match q with Ask (ToPrivate a) => [a] | _ => [] end.
Definition given (q : request) : list asset := match q with Ask (PrivateTransfer a _) => [a] | _ => [] end.
Definition paid_out (q : request) : list asset := match q with Ask (ToPublic a _) => [a] | _ => [] end.

(** The account can take its part: it has what is deposited, and it exists and does not overflow
    for a payment, which is pushed by the account that is paid. *)
Definition account_ready (g : lg) (account : N) (q : request) : Prop :=
  match q with
  | Ask (ToPrivate a) => (exists b, public_balance g account (fst a) = Some b /\ (snd a <= b)%N) /\ (snd a <= vmax)%N
  | Ask (ToPublic a to) => to = account /\ (exists m, mget (g_accounts g) account = Some m) /\ (balance g account (fst a) + snd a < u128)%N
  | _ => True
  end.
(** No change of a payment lands in the shard of a coin that a later post of the payment spends. *)
Definition change_apart (q : request) (ps : list spst) : Prop := match q with Ask (ToPublic _ _) => apart ps | _ => True end.

(** The effect on the ledger: the nullifiers of all coins spent, the notes of all receivers, and
    the balance of the account. *)
Record effect (g : lg) (account : N) (q : request) (ps : list spst) (g' : lg) : Prop := {
  ef_nulls : map fn_com (g_nulls g') = map fn_com (g_nulls g) ++ map null_of (all_spent ps);
  ef_notes : Permutation (concat (g_shards g')) (concat (g_shards g) ++ map out_pair (flat_map po_receivers ps));
  ef_public : forall a id, (balance g' a id + (if a =? account then total (taken q) id else 0) =
    balance g a id + (if a =? account then total (paid_out q) id else 0))%N }.

Lemma ready_none (g : lg) account ps : flat_map po_sources ps = [] -> flat_map po_sinks ps = [] -> ready g account ps.
Proof.
  intros A B. unfold ready. rewrite A, B. split; [|split; [|split]].
  - right. apply Forall_forall. intros p I. destruct (po_sources p) as [|x l] eqn:E; [reflexivity|]. exfalso.
    assert (J : In x (flat_map po_sources ps)) by (apply in_flat_map; exists p; rewrite E; split; [exact I|left; reflexivity]). rewrite A in J. destruct J.
  - intros a [].
  - intros a [].
  - intros id [C|[]]. cbn in C. clear - C. lia.
Qed.

Lemma answer_facts g s accounts auth q rng prf s' posts account : length (g_shards g) = w -> ledger_ok (view g) -> within g -> synced (view g) s ->
  answer accounts auth s q rng prf = Some (s', inl posts) -> account_ready g account q -> change_apart q posts ->
  s' = s /\ sendable (view g) s rng posts /\ Forall (form account) posts /\ ready g account posts /\
  (forall r addr, In r (flat_map po_receivers posts) -> rc_to r = Some addr -> exists a, q = Ask (PrivateTransfer a addr)) /\
  (forall id, total (given_away posts) id = total (given q) id /\ total (flat_map po_sources posts) id = total (taken q) id /\
     total (flat_map po_sinks posts) id = total (paid_out q) id).
Proof.
  intros LW LOK CAP Y E AR CA.
  assert (SL : forall x, sh x < length (l_notes (view g))) by (intro x; cbn [view l_notes]; rewrite LW; apply sh_lt).
  pose proof (c15_success dl di join joinl ldeqb ideqb H chk dg sh open_note item spend_item spend_null comeqb can_open ident prove_ok (view g) s s' rng prf Y) as [SS1 SS2].
  destruct q as [[a|a addr|a to]|l]; cbn [answer account_ready change_apart taken given paid_out] in *.
  - split; [exact (SS1 _ _ _ _ E)|]. destruct AR as [AR AV].
    destruct (deposit_facts dl di join joinl ldeqb ideqb H chk dg sh item spend_item ident prove_ok utxo_of (view g) s accounts auth a rng prf s' posts E AV) as (S0 & F & O & SR & LN & SK).
    split; [exact S0|]. split; [apply F|]. split; [|split].
    + unfold ready. rewrite SR, SK. split; [left; rewrite LN; apply le_n|]. split; [intros x [<-|[]]; exact AR|]. split; [intros x []|]. intros id [C|[]]. cbn in C. clear - C. lia.
    + intros r addr I T. rewrite (O r I) in T. discriminate.
    + intro id. rewrite (own_keeps posts O), SR, SK. auto.
  - split; [exact (SS1 _ _ _ _ E)|].
    destruct (transfer_facts dl di join joinl ldeqb ideqb H chk dg sh open_note item spend_item spend_null comeqb can_open ident prove_ok utxo_of
      HH LD_spec ID_spec CM_spec join_nd joinl_nd own_item (view g) LOK CAP SL s accounts auth a addr rng prf s' posts Y E) as (S0 & F & O & GA & SR & SK).
    split; [exact S0|]. split; [apply F|]. split; [apply ready_none; assumption|]. split.
    + intros r addr' I T. destruct (O r I) as [Z|Z]; rewrite T in Z; [discriminate|]. injection Z as <-. eauto.
    + intro id. rewrite GA, SR, SK. auto.
  - split; [exact (SS1 _ _ _ _ E)|]. destruct AR as (-> & AM & AB).
    destruct (payment_facts dl di join joinl ldeqb ideqb H chk dg sh open_note item spend_item spend_null comeqb can_open ident prove_ok utxo_of
      HH LD_spec ID_spec CM_spec join_nd joinl_nd (view g) LOK CAP SL s accounts auth a account rng prf s' posts Y E CA) as (S0 & F & O & SR & SA & SK).
    assert (TS : forall id, total (flat_map po_sinks posts) id = if (fst a =? id)%N then snd a else 0%N) by (intro id; rewrite (total_all_of (fst a) id _ SA), SK; reflexivity).
    split; [exact S0|]. split; [exact F|]. split; [|split].
    + unfold ready. rewrite SR. split; [|split; [|split]].
      * right. apply Forall_forall. intros p I. destruct (po_sources p) as [|x l] eqn:EP; [reflexivity|]. exfalso.
        assert (J : In x (flat_map po_sources posts)) by (apply in_flat_map; exists p; rewrite EP; split; [exact I|left; reflexivity]). rewrite SR in J. destruct J.
      * intros x [].
      * intros x _. exact AM.
      * intros id C. assert (ID0 : id = fst a).
        { destruct C as [C|C]; [rewrite TS in C; destruct (N.eqb_spec (fst a) id); [congruence|clear - C; lia]|].
          apply in_map_iff in C. destruct C as (x & <- & C). unfold all_of in SA. rewrite Forall_forall in SA. apply SA. exact C. }
        subst id. rewrite TS, N.eqb_refl. exact AB.
    + intros r addr I T. rewrite (O r I) in T. discriminate.
    + intro id. rewrite (own_keeps posts O), SR, TS, total_cons. change (total [] id) with 0%N. rewrite N.add_0_r. auto.
  - split; [exact (SS2 _ _ _ E)|].
    destruct (consolidation_facts dl di join joinl ldeqb ideqb H chk dg sh open_note item spend_item spend_null comeqb can_open ident prove_ok utxo_of
      HH LD_spec ID_spec CM_spec join_nd joinl_nd own_item (view g) LOK CAP SL s accounts l rng prf s' posts Y E) as (S0 & F & O & SR & SK).
    split; [exact S0|]. split; [apply F|]. split; [apply ready_none; assumption|]. split.
    + intros r addr' I T. rewrite (O r I) in T. discriminate.
    + intro id. rewrite (own_keeps posts O), SR, SK. auto.
Qed.

Lemma reach_width os : length (g_shards (lg_run (lg_new w) os)) = w.
Proof.
  destruct (run_inv dl di join joinl ideqb H item dg sh comeqb uteqb nteqb probe dout incoming ovchk verify_sig verify (Nat.le_trans _ _ _ (le_S _ _ (le_n 2)) HH) ID_spec CM_spec UT_spec os (lg_new w)) as (_ & G & _).
  - apply LgInv.inv_new; [exact (Nat.le_trans _ _ _ (le_S _ _ (le_n 2)) HH)|intro u; apply sh_lt].
  - rewrite G. apply repeat_length.
Qed.
Lemma reach os : Inv (lg_run (lg_new w) os).
Proof.
  apply (reach_inv dl di join joinl ideqb H item dg sh comeqb uteqb nteqb probe dout incoming ovchk verify_sig verify (Nat.le_trans _ _ _ (le_S _ _ (le_n 2)) HH) ID_spec CM_spec UT_spec w). intro u. apply sh_lt.
Qed.

(** C54: the posts of a request, pushed to the ledger that the signer is synchronised with, are all
    accepted, and have the effect of the request.  Missing: payments whose change lands in the
    shard of a coin that a later post spends; they are rejected ([c54_refuted]). *)
Theorem c54_accepted_partial : forall os s accounts auth q rng prf s' posts account,
  let g := lg_run (lg_new w) os in
  usable g s rng ->
  answer accounts auth s q rng prf = Some (s', inl posts) ->
  account_ready g account q -> change_apart q posts ->
  exists g', push g account (map to_post posts) = (g', ROk true) /\ effect g account q posts g'.
Proof.
  intros os s accounts auth q rng prf s' posts account g [LOK CAP CU FR] E AR CA.
  pose proof (reach os) as IV. pose proof (reach_width os) as LW. fold g in IV, LW.
  destruct (answer_facts g s accounts auth q rng prf s' posts account LW LOK CAP (proj1 CU) E AR CA) as (_ & SE & F & RD & FO & T).
  destruct (send g IV LW LOK CAP s CU rng FR account posts SE F RD) as (g' & P & PO). exists g'. split; [exact P|]. constructor.
  - exact (coms_after dl di join joinl H item dg sh spend_null utxo_of note_of dout out_note g posts account g' PO).
  - exact (notes_perm dl di join joinl H item dg sh spend_null utxo_of note_of dout out_note g posts account g' (sh_lt_g g LW) PO).
  - intros a id. destruct (T id) as (_ & T2 & T3). rewrite <- T2, <- T3. exact (proj1 (po_paid _ _ _ _ _ _ _ _ _ _ _ _ _ _ _ _ _ PO) a id).
Qed.

(** The receiver of a transfer is somebody else, and values stay in their range. *)
Definition to_other (q : request) : Prop :=
  match q with Ask (PrivateTransfer _ addr) => forall k a, open_note (utxo_of (Some addr) k a) (note_of (Some addr) k a) = None | _ => True end.
Definition in_range (s : signer) (q : request) : Prop := forall id, (worth (s_assets s) id + total (taken q) id <= vmax)%N.

(** C55: after the posts of a request were pushed, a synchronisation of the signer succeeds, and
    then it has for every asset what it had, without what the request gave away and paid out, and
    with what it took; the balances of the accounts changed by the same; and everything is as
    before for the next request. *)
Theorem c55_step : forall os s accounts auth q rng prf s' posts account g' res, chk = false ->
  let g := lg_run (lg_new w) os in
  usable g s rng ->
  answer accounts auth s q rng prf = Some (s', inl posts) ->
  account_ready g account q -> change_apart q posts -> to_other q -> in_range s q ->
  push g account (map to_post posts) = (g', res) -> within g' ->
  res = ROk true /\
  exists s2 c u, sync s' (s_ck s') (view_data (snd (pull g' (s_ck s')))) = Some (s2, inl (c, u)) /\
    usable g' s2 (rng + length (flat_map drawn posts)) /\
    (forall id, worth (s_assets s2) id + total (given q) id + total (paid_out q) id = worth (s_assets s) id + total (taken q) id)%N /\
    (forall a id, balance g' a id + (if a =? account then total (taken q) id else 0) =
       balance g a id + (if a =? account then total (paid_out q) id else 0))%N /\
    report_right (vec (s_assets s)) (vec (s_assets s2)) u.
Proof.
  intros os s accounts auth q rng prf s' posts account g' res CH g [LOK CAP CU FR] E AR CA TO IR P CAP'.
  pose proof (reach os) as IV. pose proof (reach_width os) as LW. fold g in IV, LW.
  destruct (answer_facts g s accounts auth q rng prf s' posts account LW LOK CAP (proj1 CU) E AR CA) as (-> & SE & F & RD & FO & T).
  destruct (send g IV LW LOK CAP s CU rng FR account posts SE F RD) as (g1 & P1 & PO). rewrite P in P1. injection P1 as -> ->. split; [reflexivity|].
  assert (FOR : forall r addr, In r (flat_map po_receivers posts) -> rc_to r = Some addr ->
    open_note (utxo_of (Some addr) (rc_key r) (rc_asset r)) (note_of (Some addr) (rc_key r) (rc_asset r)) = None).
  { intros r addr I R. destruct (FO r addr I R) as (a & ->). cbn [to_other] in TO. apply TO. }
  assert (W0 : forall id, (worth (s_assets s) id <= vmax)%N) by (intro id; specialize (IR id); clear - IR; lia).
  assert (W1 : forall id, (worth (s_assets s) id + total (flat_map po_sources posts) id <= vmax)%N) by (intro id; rewrite (proj1 (proj2 (T id))); apply IR).
  destruct (sync_after g LW LOK CAP s CU rng FR account posts g1 SE PO FOR CAP' W0 W1 CH) as (s2 & c & u & S2 & CU2 & V & RR).
  exists s2, c, u. split; [exact S2|]. split; [|split; [|split; [|exact RR]]].
  - pose proof (spends_now g LOK CAP s CU rng posts (se_spends _ _ _ _ _ _ _ _ _ _ _ _ _ _ _ _ SE)) as SP.
    constructor.
    + exact (lok' g LW LOK CAP s CU rng FR account posts g1 SE PO FOR W0).
    + exact CAP'.
    + exact CU2.
    + pose proof SP as (base & joined & n & _ & _ & _ & _ & _ & D). rewrite D, map_length, seq_length.
      exact (fresh_after dl di join joinl H item dg sh comeqb open_note can_open spend_item spend_null utxo_of note_of ident dout out_note CM_spec own_opens own_item own_null
        g rng posts FR SP account g1 (sh_lt_g g LW) PO FOR n D).
  - intro id. destruct (T id) as (T1 & T2 & T3). rewrite <- T1, <- T2, <- T3. apply V.
  - intros a id. destruct (T id) as (_ & T2 & T3). rewrite <- T2, <- T3. exact (proj1 (po_paid _ _ _ _ _ _ _ _ _ _ _ _ _ _ _ _ _ PO) a id).
Qed.

(** A session: requests, each pushed and followed by a synchronisation. *)
Inductive session (account : N) (g0 : lg) (s0 : signer) (rng0 : nat) : lg -> signer -> nat -> list asset -> Prop :=
| ses_start : session account g0 s0 rng0 g0 s0 rng0 []
| ses_step g s rng gone accounts auth q prf s' posts g' s2 r :
    session account g0 s0 rng0 g s rng gone ->
    answer accounts auth s q rng prf = Some (s', inl posts) ->
    account_ready g account q -> change_apart q posts -> to_other q -> in_range s q ->
    fst (push g account (map to_post posts)) = g' -> within g' ->
    sync s' (s_ck s') (view_data (snd (pull g' (s_ck s')))) = Some (s2, inl r) ->
    session account g0 s0 rng0 g' s2 (rng + length (flat_map drawn posts)) (gone ++ given q).

(** C55 for a session: the private and the public funds together, with what was given away, stay
    the same, and the balances of the other accounts too. *)
Theorem c55_session : forall os account s0 rng0 g s rng gone, chk = false ->
  let g0 := lg_run (lg_new w) os in
  usable g0 s0 rng0 -> session account g0 s0 rng0 g s rng gone ->
  (exists os', g = lg_run (lg_new w) os') /\ usable g s rng /\
  (forall id, worth (s_assets s) id + balance g account id + total gone id = worth (s_assets s0) id + balance g0 account id)%N /\
  (forall a id, a <> account -> balance g a id = balance g0 a id).
Proof.
  intros os account s0 rng0 g s rng gone CH g0 U0 SE.
  induction SE as [|g s rng gone accounts auth q prf s' posts g' s2 r SE IH E AR CA TO IR P CAP' SY].
  - split; [exists os; reflexivity|]. split; [exact U0|]. split; [|reflexivity]. intro id. change (total [] id) with 0%N. apply N.add_0_r.
  - destruct IH as ((os' & ->) & U & V & B).
    destruct (push (lg_run (lg_new w) os') account (map to_post posts)) as [g1 res] eqn:PU. cbn [fst] in P. subst g'.
    destruct (c55_step os' s accounts auth q rng prf s' posts account g1 res CH U E AR CA TO IR PU CAP') as (-> & s3 & c & u & S3 & U3 & V3 & B3 & _).
    assert (s3 = s2) as ->.
    { assert (X : Some (s2, inl r) = Some (s3, inl (c, u))) by (etransitivity; [symmetry; exact SY|exact S3]). congruence. }
    split; [|split; [exact U3|split]].
    + exists (os' ++ [OPush account (map to_post posts)]). unfold LgHist.lg_run. rewrite fold_left_app. cbn [fold_left LgHist.lg_step].
      unfold LgHist.lg_run in PU. rewrite PU. reflexivity.
    + intro id. specialize (V id). specialize (V3 id). specialize (B3 account id). rewrite N.eqb_refl in B3. rewrite total_app. clear - V V3 B3. lia.
    + intros a id NA. rewrite <- (B a id NA). specialize (B3 a id). destruct (N.eqb_spec a account); [contradiction|]. rewrite !N.add_0_r in B3. exact B3.
Qed.
End Props.
(** ** Concrete cases *)

(** A utxo is an address, an identifier and an asset; two shards, by the parity of the identifier;
    the identifiers are drawn in order. *)
Definition eu := (option N * N * asset)%type.
Definition eu_eqb (a b : eu) : bool :=
  match fst (fst a), fst (fst b) with None, None => true | Some x, Some y => (x =? y)%N | _, _ => false end &&
  (snd (fst a) =? snd (fst b))%N && (fst (snd a) =? fst (snd b))%N && (snd (snd a) =? snd (snd b))%N.
Lemma eu_eqb_spec a b : eu_eqb a b = true <-> a = b.
Proof.
  destruct a as [[o k] [i v]], b as [[o' k'] [i' v']]. unfold eu_eqb. cbn [fst snd]. rewrite !andb_true_iff, !N.eqb_eq. split.
  - intros [[[O ->] ->] ->]. destruct o, o'; try discriminate; [apply N.eqb_eq in O; subst|]; reflexivity.
  - intros [= -> -> -> ->]. repeat split. destruct o'; [apply N.eqb_refl|reflexivity].
Qed.
Definition e_item (u : eu) : eu := u.
Definition e_dg (u : eu) : nat := N.to_nat (snd (fst u)).
Definition e_sh (u : eu) : nat := e_dg u mod 2.
Definition e_open (u : eu) (_ : unit) : option (N * asset) := match u with ((None, k), a) => Some (k, a) | _ => None end.
Definition e_spend_item (k : N) (a : asset) : eu := ((None, k), a).
Definition e_null (k : N) (a : asset) : N := k.
Definition e_can (_ : N) : bool := true.
Definition e_probe (_ : list (fnull N unit)) (x y : fnull N unit) : bool := (fn_com x =? fn_com y)%N.
Definition e_out (_ : N) (_ : asset) : unit := tt.
Definition e_utxo (to : option N) (k : N) (a : asset) : eu := ((to, k), a).
Definition e_note (to : option N) (k : N) (a : asset) : unit := tt.
Notation e_body := (body N unit eu unit dig bool).
Definition e_sig (_ : unit) (s : list N) (_ : e_body) (acc : list N) : bool := accs_eqb s acc.
Definition e_auth (_ : e_body) (acc : list N) : unit * list N := (tt, acc).
(** The proof says whether the spent coins are in the tree with the given root. *)
Definition e_prove (p : SnModel.post (LD := nat) (ID := dig)) : bool :=
  forallb (fun s => match sd_proof s with None => (snd (sd_asset s) =? 0)%N | Some (q, r) => path_verify DJ DL dig_eqb q r (e_dg (e_spend_item (sd_key s) (sd_asset s))) end) (po_senders p).
Definition e_verify (_ : tshape) (_ : list (pin N eu unit dig unit)) (p : bool) : option bool := Some p.

Definition e_to_post := to_post (LD := nat) e_null e_out e_utxo e_note D0 e_auth e_prove.
Definition e_push := push 0 D0 DJ DL dig_eqb 4 e_item e_dg e_sh N.eqb eu_eqb (fun _ _ : unit => true) e_probe D0 (fun n : unit => n) false e_sig e_verify.
Definition e_run := lg_run 0 D0 DJ DL dig_eqb 4 e_item e_dg e_sh N.eqb eu_eqb (fun _ _ : unit => true) e_probe D0 (fun n : unit => n) false e_sig e_verify.
Definition e_answer := answer (CM := N) 0 D0 DJ DL Nat.eqb dig_eqb 4 false e_dg e_sh e_spend_item N.of_nat (fun _ => true) true true.
Definition e_sync := sync 0 D0 DJ DL Nat.eqb dig_eqb 4 false e_dg e_sh e_open e_item e_spend_item e_null N.eqb e_can.
Notation elg := (LgModel.ledger N unit eu unit nat dig).
Notation esig := (signer (LD := nat) (ID := dig) (NF := N)).
Definition e_usable (g : elg) (s : esig) (rng : nat) := usable 0 D0 DJ DL Nat.eqb dig_eqb 4 false e_item e_dg e_sh N.eqb e_open e_can e_spend_item e_null N.of_nat e_utxo g s rng.

(** A request, its push by account 9, and the synchronisation. *)
Definition e_step (st : elg * esig * nat) (q : request) : elg * esig * nat :=
  let '(g, s, rng) := st in
  match e_answer s q rng 0 with
  | Some (s', inl posts) =>
      let g' := fst (e_push g 9%N (map e_to_post posts)) in
      match e_sync s' (s_ck s') (view_data (snd (pull g' (s_ck s')))) with
      | Some (s2, inl _) => (g', s2, rng + length (flat_map drawn posts))
      | _ => st
      end
  | _ => st
  end.
Definition e_posts (st : elg * esig * nat) (q : request) : list (SnModel.post (LD := nat) (ID := dig)) :=
  let '(g, s, rng) := st in match e_answer s q rng 0 with Some (_, inl posts) => posts | _ => [] end.
Definition e_ops : list (@lop N unit eu unit dig unit (list N) bool) := [OSet 9%N 7%N 20%N; OSet 9%N 8%N 5%N].
Definition e_s0 : esig := match new_signer (NF := N) 0 D0 DJ DL dig_eqb 4 2 with Some s => s | None => mk_signer [] [] [] (mk_ckpt [] 0) end.
Definition e_start : elg * esig * nat := (e_run (lg_new 0 D0 2) e_ops, e_s0, 0).
Definition e_deposits : list request := [Ask (ToPrivate (7, 5)%N); Ask (ToPrivate (7, 4)%N); Ask (ToPrivate (7, 3)%N)].

(** What a session asks of a request, as a test. *)
Definition sum_all (l : list asset) : N := fold_right (fun a n => snd a + n)%N 0%N l.
Lemma sum_all_bound l id : (total l id <= sum_all l)%N.
Proof.
  induction l as [|a l IH]; [apply N.le_0_l|]. rewrite total_cons. cbn [sum_all fold_right]. change (fold_right _ _ l) with (sum_all l).
  destruct (N.eqb (fst a) id); clear - IH; lia.
Qed.
Fixpoint apartb (ps : list (SnModel.post (LD := nat) (ID := dig))) : bool :=
  match ps with
  | [] => true
  | p :: r => forallb (fun q => forallb (fun c => forallb (fun x => negb (e_sh (e_utxo (rc_to c) (rc_key c) (rc_asset c)) =? e_sh (e_spend_item (sd_key x) (sd_asset x))))
      (po_senders q)) (po_receivers p)) r && apartb r
  end.
Lemma apartb_ok ps : apartb ps = true -> apart e_sh e_item e_spend_item e_utxo ps.
Proof.
  induction ps as [|p ps IH]; cbn [apartb apart]; [auto|]. rewrite andb_true_iff. intros [A B]. split; [|apply IH; exact B].
  intros q c x I J K _ E. rewrite forallb_forall in A. specialize (A q I). rewrite forallb_forall in A. specialize (A c J). rewrite forallb_forall in A. specialize (A x K).
  apply negb_true_iff, Nat.eqb_neq in A. apply A. exact E.
Qed.
Definition readyb (g : elg) (q : request) : bool :=
  match q with
  | Ask (ToPrivate a) => match public_balance g 9 (fst a) with Some b => (snd a <=? b)%N | None => false end && (snd a <=? vmax)%N
  | Ask (ToPublic a to) => (to =? 9)%N && match mget (g_accounts g) 9 with Some _ => true | None => false end && (balance g 9 (fst a) + snd a <? u128)%N
  | _ => true
  end.
Lemma readyb_ok g q : readyb g q = true -> account_ready g 9 q.
Proof.
  destruct q as [[a|a addr|a to]|l]; cbn [readyb account_ready]; auto.
  - rewrite andb_true_iff. intros [A B]. apply N.leb_le in B. split; [|exact B]. destruct (public_balance g 9 (fst a)) as [b|]; [|discriminate].
    exists b. apply N.leb_le in A. auto.
  - rewrite !andb_true_iff. intros [[A B] C]. apply N.eqb_eq in A. apply N.ltb_lt in C. split; [exact A|]. split; [|exact C].
    destruct (mget (g_accounts g) 9) as [m|]; [eauto|discriminate].
Qed.
Definition e_check (st : elg * esig * nat) (q : request) : bool :=
  let '(g, s, rng) := st in
  match e_answer s q rng 0 with
  | Some (s', inl posts) =>
      let g' := fst (e_push g 9%N (map e_to_post posts)) in
      readyb g q && match q with Ask (ToPublic _ _) => apartb posts | _ => true end && (sum_all (map snd (am_asset_vector (s_assets s))) + sum_all (taken q) <=? vmax)%N &&
      forallb (fun l => length l <=? 2 ^ 3) (g_shards g') &&
      match e_sync s' (s_ck s') (view_data (snd (pull g' (s_ck s')))) with Some (_, inl _) => true | _ => false end
  | _ => false
  end.
Fixpoint e_checks (st : elg * esig * nat) (qs : list request) : bool :=
  match qs with [] => true | q :: r => e_check st q && e_checks (e_step st q) r end.

Definition e_session := session 0 D0 DJ DL Nat.eqb dig_eqb 4 false e_item e_dg e_sh N.eqb eu_eqb (fun _ _ : unit => true) e_probe D0 (fun n : unit => n) false e_sig e_verify
  e_open e_can e_spend_item e_null N.of_nat (fun _ => true) e_out e_utxo e_note e_auth e_prove.
Lemma e_within (g : elg) : forallb (fun l => length l <=? 2 ^ 3) (g_shards g) = true -> within 4 g.
Proof.
  intros F i. unfold shard. destruct (lt_dec i (length (g_shards g))) as [I|I].
  - rewrite forallb_forall in F. apply Nat.leb_le, F, nth_In. exact I.
  - rewrite nth_overflow; [apply Nat.le_0_l|apply Nat.nlt_ge; exact I].
Qed.
Lemma e_ses g0 s0 r0 g s rng gone q : e_session 9%N g0 s0 r0 g s rng gone -> e_check (g, s, rng) q = true ->
  let '(g', s', rng') := e_step (g, s, rng) q in e_session 9%N g0 s0 r0 g' s' rng' (gone ++ given q).
Proof.
  intros SE C. unfold e_check in C. unfold e_step. destruct (e_answer s q rng 0) as [[s' [posts|]]|] eqn:E; try discriminate. cbv zeta in *.
  rewrite !andb_true_iff in C. destruct C as [[[[C1 C2] C3] C4] C5].
  destruct (e_sync s' (s_ck s') _) as [[s2 [r|]]|] eqn:SY; try discriminate.
  apply (ses_step _ _ _ _ _ _ _ _ _ _ _ _ _ _ _ _ _ _ _ _ _ _ _ _ _ _ _ _ _ _ _ _ _ _ _ g s rng gone true true q 0 s' posts _ s2 r SE E).
  - apply readyb_ok. exact C1.
  - destruct q as [[| |]|]; cbn [change_apart]; auto. apply apartb_ok. exact C2.
  - destruct q as [[| |]|]; cbn [to_other]; auto.
  - intro id. apply N.leb_le in C3. eapply N.le_trans; [|exact C3]. apply N.add_le_mono; apply sum_all_bound.
  - reflexivity.
  - apply e_within. exact C4.
  - exact SY.
Qed.
Lemma e_sess g0 s0 r0 qs : forall g s rng gone, e_session 9%N g0 s0 r0 g s rng gone -> e_checks (g, s, rng) qs = true ->
  let '(g', s', rng') := fold_left e_step qs (g, s, rng) in e_session 9%N g0 s0 r0 g' s' rng' (gone ++ flat_map given qs).
Proof.
  induction qs as [|q qs IH]; intros g s rng gone SE C; cbn [fold_left flat_map]; [rewrite app_nil_r; exact SE|].
  cbn [e_checks] in C. apply andb_true_iff in C. destruct C as [C1 C2].
  pose proof (e_ses g0 s0 r0 g s rng gone q SE C1) as S1. destruct (e_step (g, s, rng) q) as [[g1 s1] rng1]. rewrite app_assoc. apply IH; assumption.
Qed.

Lemma e_usable_start : e_usable (fst (fst e_start)) (snd (fst e_start)) (snd e_start).
Proof.
  assert (G : g_shards (fst (fst e_start)) = [[]; []] /\ g_nulls (fst (fst e_start)) = [] /\ g_utxos (fst (fst e_start)) = []) by (vm_compute; auto).
  destruct G as (G1 & G2 & G3).
  constructor.
  - assert (V : view (fst (fst e_start)) = SgSpec.mk_ledger [[]; []] []) by (unfold view; rewrite G1, G2; reflexivity). rewrite V.
    constructor.
    + intros i u I. unfold l_shard in I. cbn [l_notes] in I. destruct i as [|[|[|i]]]; destruct I.
    + constructor.
    + constructor.
    + intros r [].
    + intros u n k a [].
    + intros r [].
  - apply e_within. vm_compute. reflexivity.
  - split; [|vm_compute; reflexivity]. apply syn_new. vm_compute. reflexivity.
  - constructor.
    + intros n a _. rewrite G2. intros [].
    + intros n a r _. rewrite G1. intros [].
    + unfold e_null, e_dg, e_spend_item. cbn [fst snd]. intros n n' a a' _ _ [E|E]; [apply Nat2N.inj; exact E|]. rewrite !Nat2N.id in E. exact E.
    + intros n to a _. rewrite G3. intros [].
    + intros n n' to to' a a' _ _ E. unfold e_utxo in E. apply Nat2N.inj. congruence.
Qed.

Lemma e_sig_ok (b : e_body) accounts : e_sig (fst (e_auth b accounts)) (snd (e_auth b accounts)) b accounts = true.
Proof. unfold e_sig. cbn [e_auth snd]. induction accounts as [|a l IH]; [reflexivity|]. cbn [accs_eqb]. rewrite N.eqb_refl. exact IH. Qed.
Lemma e_complete (p : SnModel.post (LD := nat) (ID := dig)) : circuit_ok DJ DL dig_eqb e_dg e_spend_item p -> e_prove p = true.
Proof.
  intros [_ F]. unfold e_prove. apply forallb_forall. rewrite Forall_forall in F. intros s I. specialize (F s I).
  destruct (sd_proof s) as [[q r]|]; [exact F|]. apply N.eqb_eq. exact F.
Qed.
Lemma e_sh_lt x : e_sh x < 2.
Proof. apply Nat.mod_upper_bound. discriminate. Qed.
Lemma e_three : 3 <= 4. Proof. repeat constructor. Qed.

(** The theorems for these functions. *)
Definition e_c54 := c54_accepted_partial 0 D0 DJ DL Nat.eqb dig_eqb 4 false e_item e_dg e_sh N.eqb eu_eqb (fun _ _ : unit => true) e_probe D0 (fun n : unit => n) false e_sig e_verify
  e_open e_can e_spend_item e_null N.of_nat (fun _ => true) e_out e_utxo e_note e_auth e_prove e_three Nat.eqb_eq dig_eqb_spec N.eqb_eq eu_eqb_spec DJ_nd DL_nd 2 e_sh_lt e_sig_ok
  (fun p s C _ => f_equal Some (e_complete p C)) (fun _ _ => eq_refl) (fun _ _ => eq_refl) (fun _ _ => eq_refl).
Definition e_c55 := c55_session 0 D0 DJ DL Nat.eqb dig_eqb 4 false e_item e_dg e_sh N.eqb eu_eqb (fun _ _ : unit => true) e_probe D0 (fun n : unit => n) false e_sig e_verify
  e_open e_can e_spend_item e_null N.of_nat (fun _ => true) e_out e_utxo e_note e_auth e_prove e_three Nat.eqb_eq dig_eqb_spec N.eqb_eq eu_eqb_spec DJ_nd DL_nd 2 e_sh_lt e_sig_ok
  (fun p s C _ => f_equal Some (e_complete p C)) (fun _ _ => eq_refl) (fun _ _ => eq_refl) (fun _ _ => eq_refl).

(** A session of three deposits, a consolidation, a transfer of 9 to somebody else and a payment. *)
Definition e_requests : list request := e_deposits ++ [Merge [(0, (7, 5)); (1, (7, 4)); (2, (7, 3))]%N; Ask (PrivateTransfer (7, 9)%N 3%N); Ask (ToPublic (7, 2)%N 9%N)].
Notation e_end := (fold_left e_step e_requests e_start).
Lemma e_reached qs (st := fold_left e_step qs e_start) : e_checks e_start qs = true ->
  e_session 9%N (fst (fst e_start)) e_s0 0 (fst (fst st)) (snd (fst st)) (snd st) (flat_map given qs) /\
  (exists os, fst (fst st) = e_run (lg_new 0 D0 2) os) /\ e_usable (fst (fst st)) (snd (fst st)) (snd st).
Proof.
  intro C. subst st.
  pose proof (e_sess (fst (fst e_start)) e_s0 0 qs (fst (fst e_start)) e_s0 0 [] (ses_start _ _ _ _ _ _ _ _ _ _ _ _ _ _ _ _ _ _ _ _ _ _ _ _ _ _ _ _ _ _ _ _ _ _ _) C) as S1.
  change (fst (fst e_start), e_s0, 0) with e_start in S1. destruct (fold_left e_step qs e_start) as [[g s] rng]. cbn [fst snd]. split; [exact S1|].
  destruct (e_c55 e_ops 9%N e_s0 0 g s rng _ eq_refl e_usable_start S1) as (A & B & _). split; [exact A|exact B].
Qed.
Example ex_c55_session :
  e_session 9%N (fst (fst e_start)) e_s0 0 (fst (fst e_end)) (snd (fst e_end)) (snd e_end) (flat_map given e_requests) /\
  flat_map given e_requests = [(7, 9)]%N /\
  e_usable (fst (fst e_end)) (snd (fst e_end)) (snd e_end) /\
  (am_asset_vector (s_assets (snd (fst e_end))), balance (fst (fst e_end)) 9 7, balance (fst (fst e_start)) 9 7,
    map (@length _) (g_shards (fst (fst e_end))), length (g_nulls (fst (fst e_end)))) = ([(9, (7, 1))]%N, 10%N, 20%N, [5; 5], 8).
Proof.
  assert (C : e_checks e_start e_requests = true) by (vm_compute; reflexivity).
  destruct (e_reached e_requests C) as (A & _ & B). split; [exact A|]. split; [reflexivity|]. split; [exact B|]. vm_compute. reflexivity.
Qed.

Lemma lres_true r : match r with ROk b => b | _ => false end = true -> r = ROk true.
Proof. destruct r as [[|]| |]; congruence. Qed.
Lemma lres_false r : match r with ROk b => negb b | _ => false end = true -> r = ROk false.
Proof. destruct r as [[|]| |]; cbn; congruence. Qed.

(** The premises of C54 hold for the payment of 11 out of three coins, which is two posts. *)
Notation e_three_coins := (fold_left e_step e_deposits e_start).
Example ex_c54 : exists os, fst (fst e_three_coins) = e_run (lg_new 0 D0 2) os /\
  let g := fst (fst e_three_coins) in let s := snd (fst e_three_coins) in let q := Ask (ToPublic (7, 11)%N 9%N) in
  let posts := e_posts e_three_coins q in
  e_usable g s 3 /\ e_answer s q 3 0 = Some (s, inl posts) /\ account_ready g 9 q /\ change_apart e_item e_sh e_spend_item e_utxo q posts /\
  length posts = 2 /\ snd (e_push g 9 (map e_to_post posts)) = ROk true.
Proof.
  assert (C : e_checks e_start e_deposits = true) by (vm_compute; reflexivity).
  destruct (e_reached e_deposits C) as (_ & (os & E) & U).
  assert (R : snd e_three_coins = 3) by (vm_compute; reflexivity).
  assert (A : (let posts := e_posts e_three_coins (Ask (ToPublic (7, 11)%N 9%N)) in
    readyb (fst (fst e_three_coins)) (Ask (ToPublic (7, 11)%N 9%N)) && apartb posts && (length posts =? 2) &&
    match snd (e_push (fst (fst e_three_coins)) 9 (map e_to_post posts)) with ROk b => b | _ => false end) = true) by (vm_compute; reflexivity).
  assert (B : e_answer (snd (fst e_three_coins)) (Ask (ToPublic (7, 11)%N 9%N)) 3 0 =
    Some (snd (fst e_three_coins), inl (e_posts e_three_coins (Ask (ToPublic (7, 11)%N 9%N))))) by (vm_compute; reflexivity).
  cbv zeta in A. rewrite !andb_true_iff in A. destruct A as [[[A1 A2] A3] A4].
  rewrite R in U. exists os. split; [exact E|]. cbv zeta.
  split; [exact U|]. split; [exact B|]. split; [apply readyb_ok; exact A1|]. split; [apply apartb_ok; exact A2|].
  split; [apply Nat.eqb_eq; exact A3|]. apply lres_true. exact A4.
Qed.

(** C54: a payment of two posts whose first change is put in the shard of the coin that the second
    post spends: the root that the second post proves against is not the current one any more, so
    the ledger rejects the second post, after it has executed the first. *)
Notation e_four_coins := (fold_left e_step (e_deposits ++ [Ask (ToPrivate (8, 1)%N)]) e_start).
Theorem c54_refuted : exists os s q rng posts, let g := e_run (lg_new 0 D0 2) os in
  e_usable g s rng /\ e_answer s q rng 0 = Some (s, inl posts) /\ account_ready g 9 q /\ length posts = 2 /\
  snd (e_push g 9 (map e_to_post posts)) = ROk false /\
  balance g 9 7 = 8%N /\ balance (fst (e_push g 9 (map e_to_post posts))) 9 7 = 16%N /\ taken q = [] /\ paid_out q = [(7, 11)]%N.
Proof.
  assert (C : e_checks e_start (e_deposits ++ [Ask (ToPrivate (8, 1)%N)]) = true) by (vm_compute; reflexivity).
  destruct (e_reached _ C) as (_ & (os & E) & U).
  assert (R : snd e_four_coins = 4) by (vm_compute; reflexivity).
  assert (A : (let posts := e_posts e_four_coins (Ask (ToPublic (7, 11)%N 9%N)) in
    readyb (fst (fst e_four_coins)) (Ask (ToPublic (7, 11)%N 9%N)) && (length posts =? 2) && (balance (fst (fst e_four_coins)) 9 7 =? 8)%N &&
    (balance (fst (e_push (fst (fst e_four_coins)) 9 (map e_to_post posts))) 9 7 =? 16)%N &&
    match snd (e_push (fst (fst e_four_coins)) 9 (map e_to_post posts)) with ROk b => negb b | _ => false end) = true) by (vm_compute; reflexivity).
  assert (B : e_answer (snd (fst e_four_coins)) (Ask (ToPublic (7, 11)%N 9%N)) 4 0 =
    Some (snd (fst e_four_coins), inl (e_posts e_four_coins (Ask (ToPublic (7, 11)%N 9%N))))) by (vm_compute; reflexivity).
  cbv zeta in A. rewrite !andb_true_iff in A. destruct A as [[[[A1 A2] A3] A4] A5].
  rewrite R in U. exists os, (snd (fst e_four_coins)), (Ask (ToPublic (7, 11)%N 9%N)), 4, (e_posts e_four_coins (Ask (ToPublic (7, 11)%N 9%N))). cbv zeta.
  rewrite <- E.
  split; [exact U|]. split; [exact B|]. split; [apply readyb_ok; exact A1|]. split; [apply Nat.eqb_eq; exact A2|].
  split; [apply lres_false; exact A5|].
  split; [apply N.eqb_eq; exact A3|]. split; [apply N.eqb_eq; exact A4|]. split; reflexivity.
Qed.

Print Assumptions c54_accepted_partial.
Print Assumptions c54_refuted.
Print Assumptions c55_step.
Print Assumptions c55_session.
