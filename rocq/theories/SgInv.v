(** Synchronisation against a ledger: the invariant and one step. *)
From Coq Require Import List Arith NArith Bool Lia Permutation.
From Verif Require Import MtModel MtSpec PtModel PtSpec FkSpec FoSpec FoProps AssetModel AssetSpec AssetLemmas AssetMap AssetNorm AssetProps
  CkModel CkSpec CkLemmas CkProps SgModel SgSpec SgAcc SgSync.
Import ListNotations.
Open Scope nat_scope.

(** ** Lists *)

Lemma nodup_map_inj {A B} (f : A -> B) l : NoDup (map f l) ->
  forall x y, In x l -> In y l -> f x = f y -> x = y.
Proof.
  induction l as [|a l IH]; cbn [map]; intros ND x y Hx Hy E; [destruct Hx|]. inversion ND as [|? ? NI ND']; subst.
  destruct Hx as [->|Hx], Hy as [->|Hy]; auto.
  - exfalso. apply NI. rewrite E. apply in_map. auto.
  - exfalso. apply NI. rewrite <- E. apply in_map. auto.
Qed.

Lemma nodup_app_l {A} (a b : list A) : NoDup (a ++ b) -> NoDup a.
Proof. induction a; cbn; intro ND; constructor; inversion ND; subst; auto. intro Q. apply H1. apply in_or_app. auto. Qed.

Lemma perm_split_shard {U} (sh : U -> nat) n (us : list U) :
  Permutation (filter (fun u => sh u <? S n) us) (filter (fun u => sh u <? n) us ++ filter (fun u => sh u =? n) us).
Proof.
  induction us as [|u us IH]; cbn [filter]; auto.
  destruct (Nat.ltb_spec (sh u) (S n)), (Nat.ltb_spec (sh u) n), (Nat.eqb_spec (sh u) n); try lia; auto.
  - cbn [app]. auto.
  - rewrite IH. apply Permutation_cons_app. auto.
Qed.

Lemma perm_by_shard {U} (sh : U -> nat) w (us : list U) : (forall u, In u us -> sh u < w) ->
  Permutation us (flat_map (fun i => of_shard sh i us) (seq 0 w)).
Proof.
  intro F. assert (P : Permutation (filter (fun u => sh u <? w) us) (flat_map (fun i => of_shard sh i us) (seq 0 w))).
  { clear F. induction w as [|w IH]; [cbn; clear; induction us; cbn; auto|].
    rewrite perm_split_shard, seq_S, flat_map_app. cbn [plus flat_map]. rewrite app_nil_r. apply Permutation_app; auto. }
  rewrite <- P. clear P. rewrite (filter_ext_in _ (fun _ => true)).
  - clear. induction us; cbn; auto.
  - intros u Hu. apply Nat.ltb_lt. auto.
Qed.

Lemma perm_flat_map_app {A B} (f g : A -> list B) l :
  Permutation (flat_map f l ++ flat_map g l) (flat_map (fun i => f i ++ g i) l).
Proof.
  induction l as [|a l IH]; cbn [flat_map]; auto. rewrite <- IH. rewrite <- !app_assoc. apply Permutation_app_head.
  rewrite !app_assoc. apply Permutation_app_tail. apply Permutation_app_comm.
Qed.

Lemma concat_shards {A} (ll : list (list A)) : concat ll = flat_map (fun i => nth i ll []) (seq 0 (length ll)).
Proof.
  induction ll as [|l ll IH]; auto. cbn [concat length seq flat_map nth]. f_equal. rewrite IH, <- seq_shift.
  clear. induction (seq 0 (length ll)); cbn; auto. f_equal. auto.
Qed.

Lemma flat_map_ext_in {A B} (f g : A -> list B) l : (forall x, In x l -> f x = g x) -> flat_map f l = flat_map g l.
Proof. induction l; cbn; intro E; auto. rewrite E, IHl; auto. Qed.

(** Taking a reply that overlaps what was seen. *)
Lemma overlap {A} (l x rest : list A) o s : o <= s -> s <= length l -> skipn o l = x ++ rest ->
  firstn s l ++ skipn (s - o) x = firstn (Nat.max s (o + length x)) l /\ o + length x <= length l.
Proof.
  intros OS SL E. pose proof (firstn_skipn o l) as D. rewrite E in D.
  assert (LO : length (firstn o l) = o) by (rewrite firstn_length; lia).
  assert (LL : length l = o + (length x + length rest)). { rewrite <- D, !app_length, LO. reflexivity. }
  split; [|lia]. destruct (Nat.le_gt_cases (o + length x) s) as [C|C].
  - rewrite skipn_all2 by lia. rewrite Nat.max_l by lia. apply app_nil_r.
  - rewrite Nat.max_r by lia. rewrite <- D. set (p := firstn o l) in *.
    rewrite !firstn_app, LO. rewrite (firstn_all2 p) by lia.
    replace (o + length x - o) with (length x) by lia. rewrite Nat.sub_diag. rewrite !firstn_O, !app_nil_r.
    rewrite (firstn_all2 p) by lia. rewrite firstn_all.
    replace (s - o - length x) with 0 by lia. rewrite firstn_O, app_nil_r.
    rewrite <- app_assoc. f_equal. apply firstn_skipn.
Qed.

Lemma received_app {UT NT} (on : UT -> NT -> option (N * asset)) a b : received on (a ++ b) = received on a ++ received on b.
Proof. apply flat_map_app. Qed.
Lemma received_perm {UT NT} (on : UT -> NT -> option (N * asset)) a b : Permutation a b -> Permutation (received on a) (received on b).
Proof. intro P. apply Permutation_flat_map. auto. Qed.

Lemma skipn_app_len {A} n (l : list A) : n <= length l -> length (skipn n l) = length l - n.
Proof. intros. apply skipn_length. Qed.

Section Inv.
Context {LD ID IT UT NT NF : Type}.
Variable dl : LD.
Variable di : ID.
Variable join : ID -> ID -> ID.
Variable joinl : LD -> LD -> ID.
Variable ldeqb : LD -> LD -> bool.
Variable ideqb : ID -> ID -> bool.
Variable H : nat.
Variable chk : bool.
Variable dg : IT -> LD.
Variable sh : IT -> nat.
Variable open_note : UT -> NT -> option (N * asset).
Variable item : UT -> IT.
Variable spend_item : N -> asset -> IT.
Variable spend_null : N -> asset -> NF.
Variable nfeqb : NF -> NF -> bool.
Variable can_open : NF -> bool.
Hypothesis HH : 3 <= H.
Hypothesis ldeqb_spec : forall a b, ldeqb a b = true <-> a = b.
Hypothesis ideqb_spec : forall a b, ideqb a b = true <-> a = b.
Hypothesis nfeqb_spec : forall a b, nfeqb a b = true <-> a = b.
Hypothesis join_nd : forall a b, join a b <> di.
Hypothesis joinl_nd : forall a b, joinl a b <> di.
Variable L : ledger UT NT NF.
Notation w := (length (l_notes L)).
Notation nsh := (note_sh (NT := NT) sh item).
Hypothesis LOK : ledger_ok open_note spend_null nsh dg item spend_item can_open L.
Notation cap := (2 ^ (H - 1)).
Hypothesis CAP : forall i, length (l_shard L i) <= cap.

Notation received := (received open_note).
Notation allr := (received (concat (l_notes L))).
Notation unspent := (unspent open_note spend_null nfeqb L).
Notation nul := (null_of spend_null).
Notation itm := (itm spend_item).
Context {td : bool}.
Notation Acc := (Acc dl di join joinl H (td := td)).
Notation Has := (Has dg sh H w).
Notation Prov := (Prov dg sh).
Notation J := (J spend_null allr).
Notation vec := am_asset_vector.
Notation sync_with := (sync_with dl di join joinl ldeqb H chk dg sh open_note item spend_item spend_null nfeqb can_open).
Notation sync := (sync dl di join joinl ldeqb ideqb H chk dg sh open_note item spend_item spend_null nfeqb can_open).
Notation signer := (signer (LD := LD) (ID := ID) (NF := NF)).

Definition shown (c : ckpt) : list NF := filter can_open (seen_nulls L c).

(** The accumulator holds what the checkpoint counts. *)
Definition holds (c : ckpt) (xs : list IT) : Prop :=
  forall j, j < w -> filter (fun x => sh x =? j) xs = map (fun un => item (fst un)) (firstn (at_shard c j) (l_shard L j)).

Record Inv (s : signer) : Prop := {
  i_len : length (recv (s_ck s)) = w;
  i_le : forall i, at_shard (s_ck s) i <= length (l_shard L i);
  i_send : send (s_ck s) <= length (l_nulls L);
  i_J : J (received (seen_notes L (s_ck s))) (shown (s_ck s)) (s_assets s) (s_nulls s);
  i_gone : forall r, In r (vec (s_assets s)) -> ~ In (nul r) (shown (s_ck s));
  i_acc : exists ss xs, Acc (s_acc s) ss /\ Has ss xs [] /\ AllOk ss /\ holds (s_ck s) xs /\
    forall r, In r (vec (s_assets s)) -> Prov ss (itm r) }.

Lemma nul_inj r r' : In r allr -> In r' allr -> nul r = nul r' -> r = r'.
Proof. apply nodup_map_inj. apply (lo_nulls _ _ _ _ _ _ _ _ LOK). Qed.
Lemma itm_inj r r' : In r allr -> In r' allr -> dg (itm r) = dg (itm r') -> r = r'.
Proof. apply (nodup_map_inj (fun r => dg (itm r))). apply (lo_items _ _ _ _ _ _ _ _ LOK). Qed.

Lemma in_shard i u : In u (l_shard L i) -> In u (concat (l_notes L)) /\ i < w.
Proof.
  intro I. unfold l_shard in I. assert (i < w).
  { destruct (Nat.lt_ge_cases i w); auto. rewrite nth_overflow in I by auto. destruct I. }
  split; auto. apply in_concat. exists (nth i (l_notes L) []). split; auto. apply nth_In. auto.
Qed.
Lemma in_all u : In u (concat (l_notes L)) -> nsh u < w.
Proof.
  intro I. rewrite concat_shards in I. apply in_flat_map in I. destruct I as (i & Hi & I). apply in_seq in Hi.
  rewrite (lo_shard _ _ _ _ _ _ _ _ LOK i u); auto. lia.
Qed.
Lemma in_allr r : In r allr -> exists u n, In (u, n) (concat (l_notes L)) /\ open_note u n = Some r.
Proof.
  intro I. apply in_flat_map in I. destruct I as ([u n] & Hu & I). exists u, n. split; auto. cbn [fst snd] in I.
  destruct (open_note u n); [|destruct I]. destruct I as [->|[]]. auto.
Qed.
Lemma itm_sh r : In r allr -> sh (itm r) < w.
Proof.
  intro I. destruct (in_allr r I) as (u & n & Hu & O). destruct r as [k a].
  unfold SgSync.itm. cbn [fst snd]. rewrite (lo_spend _ _ _ _ _ _ _ _ LOK u n k a Hu O). apply (in_all (u, n)). auto.
Qed.

Definition rest_notes (c : ckpt) : list (UT * NT) := flat_map (fun i => skipn (at_shard c i) (l_shard L i)) (seq 0 w).
Lemma seen_rest c : Permutation (seen_notes L c ++ rest_notes c) (concat (l_notes L)).
Proof.
  unfold seen_notes, rest_notes. rewrite perm_flat_map_app, concat_shards.
  rewrite (flat_map_ext_in _ (fun i => nth i (l_notes L) [])); auto. intros i _. apply firstn_skipn.
Qed.
Lemma seen_nodup c : NoDup (received (seen_notes L c)).
Proof.
  pose proof (lo_nulls _ _ _ _ _ _ _ _ LOK) as ND. apply NoDup_map_inv in ND.
  apply (nodup_app_l _ (received (rest_notes c))). rewrite <- received_app.
  eapply Permutation_NoDup; [|exact ND]. apply received_perm. symmetry. apply seen_rest.
Qed.
Lemma seen_incl c : incl (received (seen_notes L c)) allr.
Proof.
  intros r I. eapply Permutation_in; [apply received_perm, (seen_rest c)|]. rewrite received_app. apply in_or_app. auto.
Qed.

Lemma J_same R R' Nn m ns : (forall r, In r R <-> In r R') -> J R Nn m ns -> J R' Nn m ns.
Proof.
  intros E [A B C D F]. constructor; auto.
  - intros r I. apply E. auto.
  - intros r I. apply C. apply E. auto.
  - intros r I Q. apply D; auto. destruct Q as [Q|Q]; auto. right. intro Z. apply Q. apply E. auto.
Qed.

(** New notes and nullifiers that continue what was seen. *)
Lemma continue_seen c c' (us : list (UT * NT)) : (forall u, In u us -> nsh u < w) ->
  (forall i, i < w -> firstn (at_shard c i) (l_shard L i) ++ of_shard nsh i us = firstn (at_shard c' i) (l_shard L i)) ->
  Permutation (seen_notes L c ++ us) (seen_notes L c').
Proof.
  intros SH E. rewrite (perm_by_shard nsh w us SH) at 1. unfold seen_notes. rewrite perm_flat_map_app.
  rewrite (flat_map_ext_in _ (fun i => firstn (at_shard c' i) (l_shard L i))); auto.
  intros i Hi. apply in_seq in Hi. apply E. lia.
Qed.

Lemma of_shard_items i (us : list (UT * NT)) :
  filter (fun x => sh x =? i) (map (fun un => item (fst un)) us) = map (fun un => item (fst un)) (of_shard nsh i us).
Proof.
  unfold of_shard, note_sh. induction us as [|u us IH]; auto. cbn [map filter]. destruct (sh (item (fst u)) =? i); cbn [map]; congruence.
Qed.

Lemma combine_nth_max : forall a b i, length a = length b -> i < length a ->
  nth i (map (fun p => Nat.max (fst p) (snd p)) (combine a b)) 0 = Nat.max (nth i a 0) (nth i b 0).
Proof.
  induction a as [|x a IH]; intros [|y b] i E Hi; cbn [length] in *; try lia.
  destruct i; cbn [combine map nth fst snd]; auto. apply IH; lia.
Qed.

(** What is reported to the wallet for a change of the stored assets. *)
Definition reported (old new : amap) (r : ckpt * balance_update + sync_error) (ck : ckpt) : Prop :=
  match r with
  | inl (c, BPartial dep wd) => c = ck /\ forall id, (worth new id + total wd id = worth old id + total dep id)%N /\
      (total dep id <= worth new id)%N /\ (total wd id <= worth old id)%N
  | inl (c, BFull l) => c = ck /\ forall id, total l id = worth new id
  | inr InconsistentBalance => exists id, (vmax < worth old id \/ vmax < worth new id)%N
  | inr InconsistentSynchronization => False
  end.

Lemma incl_rest {A} (l : list A) : forall m, NoDup l -> incl l m -> exists rest, Permutation m (l ++ rest).
Proof.
  induction l as [|a l IH]; intros m ND IC; [exists m; auto|]. inversion ND as [|? ? NI ND']; subst.
  destruct (in_split a m (IC a (or_introl eq_refl))) as (p & q & ->).
  destruct (IH (p ++ q) ND') as (rest & P).
  - intros x Hx. specialize (IC x (or_intror Hx)). apply in_app_or in IC. apply in_or_app.
    destruct IC as [|[<-|]]; auto. contradiction.
  - exists rest. cbn [app]. rewrite <- P. symmetry. apply Permutation_middle.
Qed.

Lemma total_incl (l m : list (N * asset)) id : NoDup l -> incl l m -> (total (map snd l) id <= total (map snd m) id)%N.
Proof.
  intros ND IC. destruct (incl_rest l m ND IC) as (rest & P).
  rewrite (total_perm _ _ id (Permutation_map snd P)), map_app, total_app. lia.
Qed.

Lemma stored_unspent c m ns : J (received (seen_notes L c)) (shown c) m ns -> (forall r, In r (vec m) -> ~ In (nul r) (shown c)) ->
  Permutation (vec m) (unspent c).
Proof.
  intros [J1 J2 J3 J4 J5] GONE. apply NoDup_Permutation.
  - apply am_vector_nodup. exact J1.
  - apply NoDup_filter. apply seen_nodup.
  - assert (SH : forall r, In r allr -> (In (nul r) (shown c) <-> In (nul r) (seen_nulls L c))).
    { intros r Hr. unfold shown. rewrite filter_In. pose proof (lo_open _ _ _ _ _ _ _ _ LOK r Hr). tauto. }
    assert (EX : forall v l, existsb (nfeqb v) l = true <-> In v l).
    { intros v l. rewrite existsb_exists. split.
      - intros (x & Hx & E). apply nfeqb_spec in E. subst. auto.
      - intro I. exists v. split; auto. apply nfeqb_spec. auto. }
    intro r. unfold SgSpec.unspent. rewrite filter_In, negb_true_iff. split.
    + intro I. split; auto. apply not_true_is_false. rewrite EX. intro Q. apply (GONE r I). apply SH; auto. apply (seen_incl c). auto.
    + intros [I Q]. destruct (J3 r I) as [|Z]; auto. exfalso. apply SH in Z; [|apply (seen_incl c); auto].
      apply EX in Z. congruence.
Qed.

Lemma ck_eq c c' : length (recv c) = length (recv c') -> (forall i, i < length (recv c) -> at_shard c i = at_shard c' i) ->
  send c = send c' -> c = c'.
Proof.
  destruct c as [r s], c' as [r' s']. unfold at_shard. cbn [recv send]. intros E N ->. f_equal. apply nth_ext with (d := 0) (d' := 0); auto.
Qed.

Lemma sync_with_spec s d part c' :
  Inv s ->
  (forall u, In u (notes d) -> nsh u < w) ->
  length (recv c') = w -> (forall i, at_shard c' i <= length (l_shard L i)) -> send c' <= length (l_nulls L) ->
  (forall i, i < w -> firstn (at_shard (s_ck s) i) (l_shard L i) ++ of_shard nsh i (notes d) = firstn (at_shard c' i) (l_shard L i)) ->
  seen_nulls L (s_ck s) ++ nulls d = seen_nulls L c' ->
  match sync_with s d part with
  | None => chk = true \/ exists id, (vmax < total (map snd (unspent c')) id)%N
  | Some (s', r) =>
      s_ck s' = c' /\ J (received (seen_notes L c')) (shown c') (s_assets s') (s_nulls s') /\
      (forall r, In r (vec (s_assets s')) -> ~ In (nul r) (shown c')) /\
      (exists ss xs ys, Acc (s_acc s') ss /\ Has ss xs ys /\ holds c' (xs ++ ys) /\
         forall r, In r (vec (s_assets s')) -> Prov ss (itm r)) /\
      reported (s_assets s) (s_assets s') r (s_ck s')
  end.
Proof.
  intros IV SHu LC LE SE CN CV.
  assert (NV : shown c' = shown (s_ck s) ++ filter can_open (nulls d)).
  { unfold shown. rewrite <- CV, filter_app. reflexivity. }
  pose proof (continue_seen (s_ck s) c' (notes d) SHu CN) as PS.
  assert (PR : Permutation (received (seen_notes L (s_ck s)) ++ received (notes d)) (received (seen_notes L c'))).
  { rewrite <- received_app. apply received_perm. exact PS. }
  destruct (i_acc s IV) as (ss & xs & A & HS & OK & HO & PV).
  assert (J0 : J (received (seen_notes L (s_ck s))) (shown c') (s_assets s) (s_nulls s ++ filter can_open (nulls d))).
  { destruct (i_J s IV) as [Ja Jb Jc Jd Je]. rewrite NV. constructor; auto.
    - intros r Hr. destruct (Jc r Hr) as [Q|Q]; auto. right. apply in_or_app. auto.
    - intros r Hr C Q. apply in_app_or in Q. apply in_or_app. destruct Q as [Q|Q]; auto.
    - intros v Q. apply in_app_or in Q. apply in_or_app. destruct Q as [Q|Q]; auto. }
  assert (FU : Forall (fun un => sh (item (fst un)) < w) (notes d)). { apply Forall_forall. exact SHu. }
  assert (INC : incl (notes d) (concat (l_notes L))).
  { intros u Hu. eapply Permutation_in; [apply (seen_rest c')|]. apply in_or_app. left.
    eapply Permutation_in; [exact PS|]. apply in_or_app. auto. }
  unfold SgModel.sync_with.
  pose proof (notes_spec dl di join joinl ldeqb ideqb H chk dg sh open_note item spend_item spend_null nfeqb HH ldeqb_spec ideqb_spec nfeqb_spec join_nd joinl_nd
    w allr nul_inj itm_sh (shown c') (notes d) (s_acc s) ss xs [] (received (seen_notes L (s_ck s))) (s_assets s)
    (s_nulls s ++ filter can_open (nulls d)) [] [] A HS J0 (Forall_nil _) FU) as G.
  specialize (G ltac:(intros; eapply (lo_spend _ _ _ _ _ _ _ _ LOK); eauto)).
  specialize (G ltac:(intros r Hr; apply (seen_incl c'); eapply Permutation_in; [exact PR|]; apply in_or_app; auto)).
  specialize (G ltac:(eapply Permutation_NoDup; [symmetry; exact PR|apply seen_nodup])).
  destruct (sync_notes _ _ _ _ _ _ _ _ _ _ _ _ _ _ _) as [[[[acc1 m1] ns1] dep]|]; [|auto].
  cbn [app] in G. destruct G as (ss1 & A1 & HS1 & J1 & W1 & N1 & P1).
  set (ys := map (fun un => item (fst un)) (notes d)) in *.
  assert (HO' : holds c' (xs ++ ys)).
  { intros j Hj. rewrite filter_app. unfold ys. rewrite of_shard_items, (HO j Hj), <- map_app, (CN j Hj). reflexivity. }
  assert (LN : forall j, j < w -> length (shard_items dg sh j (xs ++ ys)) = at_shard c' j).
  { intros j Hj. unfold shard_items. rewrite map_length, (HO' j Hj), map_length, firstn_length. apply Nat.min_l. auto. }
  assert (LNC : forall j, j < w -> length (shard_items dg sh j (xs ++ ys)) <= cap).
  { intros j Hj. rewrite LN by auto. transitivity (length (l_shard L j)); auto. }
  specialize (P1 LNC PV).
  assert (J1' : J (received (seen_notes L c')) (shown c') m1 ns1).
  { eapply J_same; [|exact J1]. intro r. split; apply Permutation_in; [exact PR|symmetry; exact PR]. }
  assert (IC1 : incl (vec m1) allr). { intros r Hr. apply (seen_incl c'). apply (j_in _ _ _ _ _ _ J1'). auto. }
  pose proof (retain_map_spec dl di join joinl ldeqb ideqb H chk dg sh spend_item spend_null nfeqb HH ldeqb_spec ideqb_spec nfeqb_spec join_nd joinl_nd
    w allr nul_inj itm_inj itm_sh xs ys m1 acc1 ss1 ns1 [] A1 HS1 IC1 (j_ok _ _ _ _ _ _ J1')) as G.
  destruct (retain_map _ _ _ _ _ _ _ _ _ _ _) as [[[[acc2 m2] ns2] wd]|]; [|auto].
  destruct G as (ss2 & A2 & HS2 & OK2 & I1 & _ & I2 & I3 & I4 & I5).
  assert (GONE : forall r, In r (vec m2) -> ~ In (nul r) (shown c')).
  { intros r Hr Q. apply I1 in Hr. destruct Hr as [Hr C]. apply C. apply (j_pend _ _ _ _ _ _ J1'); auto. }
  assert (J2 : J (received (seen_notes L c')) (shown c') m2 ns2).
  { destruct J1' as [Ja Jb Jc Jd Je]. constructor; auto.
    - intros r Hr. apply I1 in Hr. apply Jb. tauto.
    - intros r Hr. destruct (Jc r Hr) as [Q|Q]; auto.
      destruct (pending nfeqb ns1 (nul r)) eqn:E.
      + apply (pending_spec nfeqb nfeqb_spec) in E. auto.
      + left. apply I1. split; auto. intro Z. apply (pending_spec nfeqb nfeqb_spec) in Z. congruence.
    - intros r Hr C Q. destruct C as [C|C]; [exfalso; exact (GONE r C Q)|].
      apply I3; auto. }
  assert (LENS : update_from_utxo_accumulator (update_from_nullifiers (s_ck s) (length (nulls d))) (acc_lens acc2) = c').
  { destruct (has_lengths dl di join joinl ldeqb ideqb dg sh H HH ldeqb_spec ideqb_spec join_nd joinl_nd chk w acc2 ss2 xs ys A2 HS2) as [LA NA].
    pose proof (i_len s IV) as LI. unfold update_from_utxo_accumulator, update_from_nullifiers, acc_lens. cbn [recv send].
    apply ck_eq; cbn [recv send].
    - rewrite map_length, combine_length, LA, LI, LC. lia.
    - intros i Hi. rewrite map_length, combine_length, LA, LI, Nat.min_id in Hi. unfold at_shard at 1. cbn [recv].
      rewrite combine_nth_max by (rewrite ?LA, ?LI; auto). rewrite (NA i Hi), (LN i Hi).
      specialize (CN i Hi). apply (f_equal (@length _)) in CN. rewrite app_length, !firstn_length in CN.
      pose proof (LE i). pose proof (CAP i). pose proof (i_le s IV i). fold (at_shard (s_ck s) i). lia.
    - apply (f_equal (@length _)) in CV. unfold seen_nulls in CV. rewrite app_length, !firstn_length in CV.
      pose proof (i_send s IV). lia. }
  assert (W2 : forall id, (worth m2 id + total wd id = worth (s_assets s) id + total dep id)%N).
  { intro id. specialize (W1 id). specialize (I4 id). cbn [total] in *. lia. }
  assert (WD : forall id, (total wd id <= worth (s_assets s) id)%N).
  { intro id. set (D := filter (fun r => pending nfeqb ns1 (nul r)) (vec m1)).
    pose proof (am_vector_nodup _ (j_ok _ _ _ _ _ _ J1')) as ND1.
    assert (PM : Permutation (vec m1) (vec m2 ++ D)).
    { apply NoDup_Permutation; auto.
      - apply nodup_app; [apply am_vector_nodup; exact OK2|apply NoDup_filter; auto|].
        intros r Hr Q. apply I1 in Hr. apply filter_In in Q. destruct Q as [_ Q]. apply (pending_spec nfeqb nfeqb_spec) in Q. tauto.
      - intro r. rewrite in_app_iff, I1. unfold D. rewrite filter_In, (pending_spec nfeqb nfeqb_spec).
        split; [|tauto]. intro Hr. destruct (pending nfeqb ns1 (nul r)) eqn:Q.
        + apply (pending_spec nfeqb nfeqb_spec) in Q. auto.
        + left. split; auto. intro Z. apply (pending_spec nfeqb nfeqb_spec) in Z. congruence. }
    assert (LE1 : (total (map snd D) id <= worth (s_assets s) id)%N).
    { apply total_incl; [apply NoDup_filter; auto|]. intros r Hr. apply filter_In in Hr. destruct Hr as [Hr Q].
      apply (pending_spec nfeqb nfeqb_spec) in Q. destruct (N1 r Hr) as [|Z]; auto. exfalso. apply Z. apply (j_sub _ _ _ _ _ _ J1'). auto. }
    specialize (I4 id). unfold worth in I4 at 1. rewrite (total_perm _ _ id (Permutation_map snd PM)), map_app, total_app in I4.
    unfold worth in *. cbn [total] in *. lia. }
  assert (STATE : s_ck (mk_signer acc2 m2 ns2 (update_from_utxo_accumulator (update_from_nullifiers (s_ck s) (length (nulls d))) (acc_lens acc2))) = c' /\
      J (received (seen_notes L c')) (shown c') m2 ns2 /\
      (forall r, In r (vec m2) -> ~ In (nul r) (shown c')) /\
      (exists ss xs ys, Acc acc2 ss /\ Has ss xs ys /\ holds c' (xs ++ ys) /\ forall r, In r (vec m2) -> Prov ss (itm r))).
  { split; [exact LENS|]. split; [exact J2|]. split; [exact GONE|]. exists ss2, xs, ys. split; [exact A2|]. split; [exact HS2|].
    split; [exact HO'|]. intros r Hr. apply I1 in Hr. destruct Hr as [Hr C]. apply I5; auto. }
  pose proof (c13_net_change dep wd) as NC. pose proof (c13_no_growth dep wd) as NG. destruct (normalize_assets dep wd) as [[dep' wd']|].
  - destruct NC as (NC & _). destruct part.
    + destruct STATE as (S1 & S2 & S3 & S4). split; auto. split; auto. split; auto. split; auto.
      cbn [s_assets s_ck reported]. split; auto. intro id. specialize (NC id). specialize (W2 id). specialize (WD id). specialize (NG dep' wd' eq_refl id). lia.
    + unfold am_assets, al_from_iter.
      assert (FV : Forall (fun a => (snd a <= vmax)%N) (flat_map snd m2)).
      { rewrite am_flat. apply Forall_forall. intros a Ha. apply in_map_iff in Ha. destruct Ha as (r & <- & Hr).
        apply (lo_value _ _ _ _ _ _ _ _ LOK). apply IC1. apply I1. auto. }
      pose proof (al_deposit_all_spec (flat_map snd m2) [] al_value_empty ltac:(intro; cbn; apply N.le_0_l) FV) as AD.
      rewrite am_flat in AD. destruct (al_deposit_all [] (flat_map snd m2)) as [l|] eqn:EL; rewrite am_flat in EL; rewrite EL in AD; cbn [option_map].
      * destruct STATE as (S1 & S2 & S3 & S4). split; auto. split; auto. split; auto. split; auto.
        cbn [s_assets s_ck reported]. split; auto. intro id. destruct AD as (_ & AD & _). rewrite AD. cbn [total]. unfold worth. lia.
      * right. destruct AD as (id & AD). exists id. cbn [total] in AD.
        rewrite <- (total_perm _ _ id (Permutation_map snd (stored_unspent c' m2 ns2 J2 GONE))). lia.
  - destruct STATE as (S1 & S2 & S3 & S4). split; auto. split; auto. split; auto. split; auto.
    cbn [s_assets s_ck reported]. destruct NC as (id & NC). exists id.
    specialize (W2 id). specialize (WD id). lia.
Qed.

Lemma in_of_shard {U} (f : U -> nat) u us : In u us <-> In u (of_shard f (f u) us).
Proof. unfold of_shard. rewrite filter_In, Nat.eqb_refl. tauto. Qed.

(** A reply that was pruned. *)
Lemma pruned_in c o (d d' : sdata (UT * NT) NF) u : pruned_right nsh o c d d' -> In u (notes d') -> In u (notes d).
Proof.
  intros [_ P] I. apply (in_of_shard nsh) in I. rewrite P, unseen_shard in I. apply (in_of_shard nsh).
  eapply in_skipn; eauto.
Qed.

Theorem sync_spec s o d :
  Inv s -> reply nsh L o d -> in_step nsh (s_ck s) o d ->
  match sync s o d with
  | None => chk = true \/ exists c id, ck_after nsh (s_ck s) o d c /\ (vmax < total (map snd (unspent c)) id)%N
  | Some (s', r) => Inv s' /\ ck_after nsh (s_ck s) o d (s_ck s') /\ reported (s_assets s) (s_assets s') r (s_ck s')
  end.
Proof.
  intros IV (LO & SHd & RN & rv & RV) (COV & STEP).
  set (last := updated_origin nsh o d).
  assert (ADV : advanced nsh o d last). { apply updated_origin_advanced. rewrite LO. exact SHd. }
  assert (SHo : forall u, In u (notes d) -> nsh u < length (recv o)) by (rewrite LO; exact SHd).
  destruct (c19_prune_partial _ _ nsh o (s_ck s) last d SHo ADV COV (STEP last ADV)) as (b & d' & E & PR & _).
  unfold SgModel.sync. rewrite E.
  pose proof (i_len s IV) as LI. destruct COV as (CL & CI & CS).
  set (c' := mk_ckpt (map (fun i => Nat.max (at_shard (s_ck s) i) (at_shard o i + count_shard nsh i (notes d))) (seq 0 w))
                     (Nat.max (send (s_ck s)) (send o + length (nulls d)))).
  assert (CA : forall i, i < w -> at_shard c' i = Nat.max (at_shard (s_ck s) i) (at_shard o i + count_shard nsh i (notes d))).
  { intros i Hi. unfold at_shard at 1, c'. cbn [recv].
    set (g := fun i => Nat.max (at_shard (s_ck s) i) (at_shard o i + count_shard nsh i (notes d))).
    rewrite (nth_indep _ 0 (g 0)) by (rewrite map_length, seq_length; auto). rewrite map_nth, seq_nth by auto. reflexivity. }
  assert (OV : forall i, i < w -> firstn (at_shard (s_ck s) i) (l_shard L i) ++ of_shard nsh i (notes d') = firstn (at_shard c' i) (l_shard L i)
      /\ at_shard c' i <= length (l_shard L i)).
  { intros i Hi. destruct (RN i Hi) as (rest & RE). rewrite (proj2 PR i), unseen_shard, (CA i Hi).
    destruct (overlap _ _ _ _ _ (CI i) (i_le s IV i) RE) as [Q1 Q2]. split; [exact Q1|]. pose proof (i_le s IV i). unfold count_shard. lia. }
  destruct (overlap _ _ _ _ _ CS (i_send s IV) RV) as [V1 V2].
  pose proof (sync_with_spec s d' (negb b) c' IV) as G.
  assert (LC : length (recv c') = w) by (unfold c'; cbn [recv]; rewrite map_length, seq_length; auto).
  assert (LE : forall i, at_shard c' i <= length (l_shard L i)).
  { intro i. destruct (Nat.lt_ge_cases i w) as [Hi|Hi]; [apply OV; auto|].
    unfold at_shard. rewrite nth_overflow by (rewrite LC; auto). apply Nat.le_0_l. }
  assert (SE : send c' <= length (l_nulls L)) by (pose proof (i_send s IV); unfold c'; cbn [send]; lia).
  specialize (G ltac:(intros u Hu; apply SHd; eapply pruned_in; eauto) LC LE SE (fun i Hi => proj1 (OV i Hi))).
  assert (VV : seen_nulls L (s_ck s) ++ nulls d' = seen_nulls L c').
  { rewrite (proj1 PR), unseen_nulls_skipn. exact V1. }
  assert (CKA : ck_after nsh (s_ck s) o d c').
  { split; [congruence|]. split; [|reflexivity]. intros i Hi. apply CA. congruence. }
  specialize (G VV). destruct (sync_with s d' (negb b)) as [[s1 r]|].
  2: { destruct G as [G|(id & G)]; [auto|]. right. exists c', id. auto. }
  destruct G as (K1 & K2 & K3 & (ss & xs & ys & A & HS & HO & PV) & K5).
  pose proof (acc_step dl di join joinl ldeqb ideqb dg sh H HH ldeqb_spec ideqb_spec join_nd joinl_nd chk (s_acc s1) ss OCommit A) as ST.
  destruct (ref_commit ldeqb dg sh H w ss xs ys HS) as (ss' & b' & R1 & R2 & R3 & R4).
  cbn [fo_step] in ST. unfold with_true in ST. destruct (fo_commit _ _ _ _ _ _ _ _) as [acc'|]; cbn [option_map] in *.
  2: { destruct ST as [ST|ST]; [congruence|auto]. }
  destruct ST as (ss'' & Q & A'). rewrite R1 in Q. injection Q as <- _. cbn [s_ck s_assets].
  split; [|split; [|exact K5]].
  - constructor; cbn [s_ck s_assets s_acc s_nulls]; rewrite ?K1; auto.
    exists ss', (xs ++ ys). split; [exact A'|]. split; [exact R2|]. split; [exact R3|]. split; [exact HO|].
    intros x Hx. apply R4. auto.
  - rewrite K1. exact CKA.
Qed.

(** The new signer. *)
Lemma new_spec : exists s, new_signer dl di join joinl ideqb H w = Some s /\ Inv s /\ s_ck s = mk_ckpt (repeat 0 w) 0 /\ s_assets s = [].
Proof.
  destruct (acc_new (td := td) dl di join joinl ldeqb ideqb H HH ldeqb_spec ideqb_spec join_nd joinl_nd w) as (f & E & A).
  unfold new_signer. rewrite E. cbn [option_map]. eexists. split; [reflexivity|]. split; [|auto].
  assert (Z : forall i, at_shard (mk_ckpt (repeat 0 w) 0) i = 0).
  { intro i. unfold at_shard. cbn [recv]. destruct (Nat.lt_ge_cases i w) as [Hi|Hi].
    - generalize w at 1. clear. intro n. revert i. induction n; destruct i; cbn; auto.
    - apply nth_overflow. rewrite repeat_length. auto. }
  assert (SN : seen_notes L (mk_ckpt (repeat 0 w) 0) = []).
  { unfold seen_notes. rewrite (flat_map_ext_in _ (fun _ => [])).
    - clear. induction (seq 0 w); auto.
    - intros i _. rewrite Z. reflexivity. }
  constructor; cbn [s_ck s_assets s_nulls s_acc send recv].
  - apply repeat_length.
  - intro i. rewrite Z. apply Nat.le_0_l.
  - apply Nat.le_0_l.
  - rewrite SN. unfold shown, seen_nulls. cbn [send firstn filter]. constructor; try (cbn; contradiction).
    split; [constructor|]. intros k l [].
  - cbn. contradiction.
  - exists (repeat (FS [] [] true) w), []. split; [exact A|]. split; [|split; [|split]].
    + apply has_new.
    + intros j s Hj. apply nth_error_In, repeat_spec in Hj. subst s. reflexivity.
    + intros j Hj. rewrite Z. reflexivity.
    + cbn. contradiction.
Qed.
End Inv.
