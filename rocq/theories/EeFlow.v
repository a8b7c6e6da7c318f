(** Coins that posts spend and make, on the ledger and in the signer. *)
From Coq Require Import List Arith NArith Bool Lia Permutation.
From Verif Require Import MtModel MtSpec PtModel PtSpec FoSpec AssetModel AssetSpec AssetLemmas AssetSelect CkModel CkSpec SgModel SgSpec SgSync SgInv SgProps SnModel SnSpec SnJoin SnGood SnProps
  LgModel LgSpec LgLemmas LgInv LgBal LgHist LgRead LgPost EeModel EeKeys EePush.
Import ListNotations.
Open Scope nat_scope.
Notation recv := CkModel.recv (only parsing).

(** ** Lists *)
Lemma concat_seq {A} (l : list (list A)) : concat l = flat_map (fun i => nth i l []) (seq 0 (length l)).
Proof.
  induction l as [|x l IH]; [reflexivity|]. cbn [concat length seq flat_map nth]. f_equal. rewrite IH, <- seq_shift, !flat_map_concat_map, map_map. reflexivity.
Qed.
Lemma flat_map_app_perm {A B} (f h : A -> list B) l : Permutation (flat_map (fun i => f i ++ h i) l) (flat_map f l ++ flat_map h l).
Proof.
  induction l as [|x l IH]; [reflexivity|]. cbn [flat_map]. rewrite IH, <- !app_assoc. apply Permutation_app_head.
  rewrite !app_assoc. apply Permutation_app_tail. apply Permutation_app_comm.
Qed.
Lemma filter_split {A} (p q r : A -> bool) l : (forall x, r x = p x || q x) -> (forall x, p x && q x = false) ->
  Permutation (filter p l ++ filter q l) (filter r l).
Proof.
  intros E D. induction l as [|x l IH]; [reflexivity|]. cbn [filter]. specialize (E x). specialize (D x). rewrite E.
  destruct (p x), (q x); try discriminate; cbn [orb app]; auto. rewrite <- IH. symmetry. apply Permutation_middle.
Qed.
Lemma by_shard {A} (f : A -> nat) (l : list A) n : (forall x, In x l -> f x < n) ->
  Permutation (flat_map (fun i => filter (fun x => f x =? i) l) (seq 0 n)) l.
Proof.
  intro B. transitivity (filter (fun x => f x <? n) l).
  - clear B. induction n as [|n IH].
    + cbn [seq flat_map]. replace (filter _ l) with (@nil A); [reflexivity|]. induction l; cbn; auto.
    + rewrite seq_S, flat_map_app. cbn [flat_map]. rewrite app_nil_r, IH. apply filter_split; intro x.
      * destruct (Nat.ltb_spec (f x) (S n)), (Nat.ltb_spec (f x) n), (Nat.eqb_spec (f x) (0 + n)); cbn; auto; lia.
      * destruct (Nat.ltb_spec (f x) n), (Nat.eqb_spec (f x) (0 + n)); cbn; auto; lia.
  - replace (filter _ l) with l; [reflexivity|]. induction l as [|x l IH]; [reflexivity|]. cbn [filter].
    destruct (Nat.ltb_spec (f x) n) as [_|C]; [|specialize (B x (or_introl eq_refl)); lia]. f_equal. apply IH. intros y I. apply B. right. exact I.
Qed.
Lemma filter_concat {A} (f : A -> nat) (l : list (list A)) j : (forall i x, In x (nth i l []) -> f x = i) ->
  filter (fun x => f x =? j) (concat l) = nth j l [].
Proof.
  intro B. rewrite concat_seq.
  assert (P : forall n, filter (fun x => f x =? j) (flat_map (fun i => nth i l []) (seq 0 n)) = if j <? n then nth j l [] else []).
  { induction n as [|n IH]; [reflexivity|]. rewrite seq_S, flat_map_app, filter_app, IH. cbn [flat_map Nat.add]. rewrite app_nil_r.
    assert (Q : filter (fun x => f x =? j) (nth n l []) = if n =? j then nth n l [] else []).
    { specialize (B n). revert B. generalize (nth n l []). induction l0 as [|x r IHr]; intro B; cbn [filter]; [destruct (n =? j); reflexivity|].
      rewrite (B x (or_introl eq_refl)), IHr by (intros; apply B; right; auto). destruct (n =? j); reflexivity. }
    rewrite Q. destruct (Nat.ltb_spec j n), (Nat.ltb_spec j (S n)), (Nat.eqb_spec n j); try lia; subst; rewrite ?app_nil_r; reflexivity. }
  rewrite P. destruct (Nat.ltb_spec j (length l)); [reflexivity|]. symmetry. apply nth_overflow. lia.
Qed.
Lemma nodup_map_incl {A B} (f : A -> B) l l' : NoDup (map f l) -> incl l' l -> NoDup l' -> NoDup (map f l').
Proof.
  intros N I. induction 1 as [|x l' F _ IH]; [constructor|]. cbn [map]. constructor; [|apply IH; intros y J; apply I; right; exact J].
  intro J. apply in_map_iff in J. destruct J as (y & E & J). apply F.
  assert (x = y); [|subst; exact J].
  assert (Hx : In x l) by (apply I; left; reflexivity). assert (Hy : In y l) by (apply I; right; exact J).
  clear - N E Hx Hy. induction l as [|z l IH]; [destruct Hx|]. cbn [map] in N. inversion N as [|? ? N1 N2]; subst.
  destruct Hx as [->|Hx], Hy as [->|Hy]; auto.
  - exfalso. apply N1. rewrite <- E. apply in_map. exact Hy.
  - exfalso. apply N1. rewrite E. apply in_map. exact Hx.
Qed.
Lemma map_inj_in {A B} (f : A -> B) l x y : NoDup (map f l) -> In x l -> In y l -> f x = f y -> x = y.
Proof.
  intros N Hx Hy E. induction l as [|z l IH]; [destruct Hx|]. cbn [map] in N. inversion N as [|? ? N1 N2]; subst.
  destruct Hx as [->|Hx], Hy as [->|Hy]; auto.
  - exfalso. apply N1. rewrite E. apply in_map. exact Hy.
  - exfalso. apply N1. rewrite <- E. apply in_map. exact Hx.
Qed.
Lemma nodup_app {A} (a b : list A) : NoDup a -> NoDup b -> (forall x, In x a -> ~ In x b) -> NoDup (a ++ b).
Proof.
  induction 1 as [|x a F _ IH]; intros Nb D; [exact Nb|]. cbn [app]. constructor.
  - rewrite in_app_iff. intros [J|J]; [contradiction|]. apply (D x); [left; reflexivity|exact J].
  - apply IH; [exact Nb|]. intros y J. apply D. right. exact J.
Qed.

(** ** Conservation over several posts *)
Section Sums.
Context {LD ID : Type}.
Notation spst := (@SnModel.post LD ID).
(** What goes to others. *)
Definition given_away (ps : list spst) : list asset :=
  flat_map (fun r => match rc_to r with None => [] | Some _ => [rc_asset r] end) (flat_map po_receivers ps).

Lemma out_split (rs : list SnModel.recv) id :
  total (map rc_asset rs) id =
  (total (map snd (flat_map (fun r => match rc_to r with None => [(rc_key r, rc_asset r)] | Some _ => [] end) rs)) id +
   total (flat_map (fun r => match rc_to r with None => [] | Some _ => [rc_asset r] end) rs) id)%N.
Proof.
  induction rs as [|r rs IH]; [reflexivity|]. cbn [map flat_map]. rewrite total_cons, map_app, !total_app, IH.
  destruct (rc_to r); cbn [map snd total]; lia.
Qed.

Lemma flow (ps : list spst) id : Forall (fun p => exists id, conserves id p) ps ->
  (total (map snd (all_spent ps)) id + total (flat_map po_sources ps) id =
   total (map snd (flat_map made ps)) id + total (given_away ps) id + total (flat_map po_sinks ps) id)%N.
Proof.
  intro F. unfold given_away, all_spent. induction F as [|p ps (i & C1 & C2 & C3) _ IH]; [reflexivity|].
  cbn [flat_map]. rewrite flat_map_app, !map_app, !total_app. pose proof (out_split (po_receivers p) id) as O.
  unfold ins, outs in *. pose proof (total_all_of i id _ C1) as T1. pose proof (total_all_of i id _ C2) as T2. rewrite C3 in T1.
  rewrite <- T2 in T1. rewrite !total_app in T1.
  assert (ES : map snd (spent p) = map sd_asset (po_senders p)) by (unfold spent; rewrite map_map; reflexivity). rewrite ES. unfold made at 1. lia.
Qed.
End Sums.

(** ** The signer and the ledger *)
Section Flow.
Context {CM ON UT NT IT LD ID KEY SG PRF : Type}.
Variable dl : LD.
Variable di : ID.
Variable join : ID -> ID -> ID.
Variable joinl : LD -> LD -> ID.
Variable H : nat.
Variable item : UT -> IT.
Variable dg : IT -> LD.
Variable sh : IT -> nat.
Variable comeqb : CM -> CM -> bool.
Variable open_note : UT -> NT -> option (N * asset).
Variable can_open : CM -> bool.
Variable spend_item : N -> asset -> IT.
Variable spend_null : N -> asset -> CM.
Variable utxo_of : option N -> N -> asset -> UT.
Variable note_of : option N -> N -> asset -> NT.
Variable ident : nat -> N.
Variable dout : ID.
Variable out_note : N -> asset -> ON.

Notation lg := (LgModel.ledger CM ON UT NT LD ID).
Notation spst := (@SnModel.post LD ID).
Notation null_of := (SgSpec.null_of spend_null).
Notation Inv := (Inv dl di join joinl H item dg sh).
Notation leaf := (fun u => dg (item u)).
Notation nsh := (note_sh (NT := NT) sh item).
Notation received := (received open_note).
Notation ledger_ok := (ledger_ok open_note spend_null nsh dg item spend_item can_open).
Notation out_utxo := (out_utxo utxo_of).
Notation out_pair := (out_pair utxo_of note_of).
Notation posted := (posted dl di join joinl H item dg sh dout spend_null out_note utxo_of note_of).
Notation unspent := (unspent open_note spend_null comeqb).

Hypothesis CM_spec : forall a b, comeqb a b = true <-> a = b.
(** The signer's own notes open to what they were made of, their item is the one that a spend
    derives, and their nullifiers are recognised. *)
Hypothesis own_opens : forall k a, open_note (utxo_of None k a) (note_of None k a) = Some (k, a).
Hypothesis own_item : forall k a, item (utxo_of None k a) = spend_item k a.
Hypothesis own_null : forall k a, can_open (spend_null k a) = true.

(** The identifiers from number [rng] on are new: nullifiers, items and utxos made from them are not
    on the ledger and are different from one another. *)
Record fresh (g : lg) (rng : nat) : Prop := {
  fr_nulls : forall n a, rng <= n -> ~ In (spend_null (ident n) a) (map fn_com (g_nulls g));
  fr_notes : forall n a r, rng <= n -> In r (received (concat (g_shards g))) ->
    spend_null (ident n) a <> null_of r /\ dg (spend_item (ident n) a) <> dg (spend_item (fst r) (snd r));
  fr_apart : forall n n' a a', rng <= n -> rng <= n' ->
    spend_null (ident n) a = spend_null (ident n') a' \/ dg (spend_item (ident n) a) = dg (spend_item (ident n') a') -> n = n';
  fr_utxos : forall n to a, rng <= n -> ~ In (utxo_of to (ident n) a) (g_utxos g);
  fr_utxos_apart : forall n n' to to' a a', rng <= n -> rng <= n' ->
    utxo_of to (ident n) a = utxo_of to' (ident n') a' -> n = n' }.

(** What the posts spend: entries of the map [U], coins that they make themselves, and made-up
    zeroes; the identifiers are drawn from number [rng] on. *)
Definition spends (U : list (N * asset)) (rng : nat) (ps : list spst) : Prop :=
  exists base joined n, Permutation (all_spent ps) (base ++ joined ++ fake_coins ps) /\
    NoDup base /\ incl base U /\ sublist joined (flat_map made ps) /\
    Forall (fun c => snd (snd c) = 0%N) (fake_coins ps) /\ flat_map drawn ps = map ident (seq rng n).

Lemma drawn_perm (ps : list spst) : Permutation (flat_map drawn ps) (map fst (fake_coins ps) ++ map rc_key (flat_map po_receivers ps)).
Proof.
  unfold fake_coins. induction ps as [|p ps IH]; [reflexivity|]. cbn [flat_map]. rewrite !map_app, IH. unfold drawn, fakes_of. rewrite map_map.
  change (map (fun x => fst (coin x)) (filter made_up (po_senders p))) with (map sd_key (filter made_up (po_senders p))).
  rewrite <- !app_assoc. apply Permutation_app_head. rewrite !app_assoc. apply Permutation_app_tail. apply Permutation_app_comm.
Qed.

(** The notes of the posts that the signer can open. *)
Definition made_of (r : SnModel.recv) : list (N * asset) := match rc_to r with None => [(rc_key r, rc_asset r)] | Some _ => [] end.
Lemma made_all (ps : list spst) : flat_map made ps = flat_map made_of (flat_map po_receivers ps).
Proof. induction ps as [|p ps IH]; [reflexivity|]. cbn [flat_map]. rewrite flat_map_app, IH. reflexivity. Qed.
Lemma made_keys (rs : list SnModel.recv) : sublist (map fst (flat_map made_of rs)) (map rc_key rs).
Proof.
  induction rs as [|r rs IH]; [apply sub_nil|]. cbn [flat_map map]. rewrite map_app. unfold made_of at 1. destruct (rc_to r); cbn [map app fst].
  - apply sub_skip. exact IH.
  - apply sub_take. exact IH.
Qed.

(** Keys of coins that were drawn from [rng] on, each once. *)
Definition new_keys (rng : nat) (ks : list N) : Prop :=
  exists ns, ks = map ident ns /\ NoDup ns /\ Forall (fun n => rng <= n) ns.

Lemma sublist_map_inv {A B} (f : A -> B) ys l : sublist ys (map f l) -> exists xs, ys = map f xs /\ sublist xs l.
Proof.
  revert ys. induction l as [|x l IH]; intros ys S; cbn [map] in S; inversion S; subst.
  - exists []. split; [reflexivity|apply sub_nil].
  - destruct (IH _ H2) as (xs & -> & Q). exists xs. split; [reflexivity|apply sub_skip; exact Q].
  - destruct (IH _ H2) as (xs & -> & Q). exists (x :: xs). split; [reflexivity|apply sub_take; exact Q].
Qed.
Lemma new_keys_sub rng ks ks' : new_keys rng ks -> sublist ks' ks -> new_keys rng ks'.
Proof.
  intros (ns & -> & N & F) S. apply sublist_map_inv in S. destruct S as (xs & -> & S). exists xs. split; [reflexivity|].
  split; [eapply sublist_nodup; eassumption|]. rewrite Forall_forall in *. intros n I. apply F. eapply sublist_incl; eassumption.
Qed.
Lemma new_keys_perm rng ks ks' : new_keys rng ks -> Permutation ks' ks -> new_keys rng ks'.
Proof.
  intros (ns & -> & N & F) S. symmetry in S. apply Permutation_sym in S. apply Permutation_map_inv in S. destruct S as (xs & -> & S).
  exists xs. split; [reflexivity|]. split; [eapply Permutation_NoDup; eassumption|]. eapply Permutation_Forall; eassumption.
Qed.
Lemma new_keys_drawn rng n : new_keys rng (map ident (seq rng n)).
Proof. exists (seq rng n). split; [reflexivity|]. split; [apply seq_NoDup|]. apply Forall_forall. intros k I. apply in_seq in I. lia. Qed.
Lemma new_keys_in rng ks k : new_keys rng ks -> In k ks -> exists n, k = ident n /\ rng <= n.
Proof. intros (ns & -> & _ & F) I. apply in_map_iff in I. destruct I as (n & <- & I). rewrite Forall_forall in F. eauto. Qed.

Lemma new_coins_nodup {B} g rng (f : N * asset -> B) cs : fresh g rng -> new_keys rng (map fst cs) ->
  (forall n n' a a', rng <= n -> rng <= n' -> f (ident n, a) = f (ident n', a') -> n = n') -> NoDup (map f cs).
Proof.
  intros _ (ns & E & N & F) J. revert cs E. induction ns as [|n ns IH]; intros [|[k a] cs] E; cbn [map] in E; try discriminate; [constructor|].
  injection E as -> E. inversion N as [|? ? N1 N2]; subst. inversion F as [|? ? F1 F2]; subst. cbn [map]. constructor; [|apply IH; assumption].
  intro I. apply in_map_iff in I. destruct I as ([k' a'] & E' & I). assert (I' : In k' (map ident ns)) by (rewrite <- E; apply (in_map fst _ _ I)).
  apply in_map_iff in I'. destruct I' as (n' & <- & I'). rewrite Forall_forall in F2. apply J in E'; auto. subst. contradiction.
Qed.

Section Effect.
Variable g : lg.
Variable rng : nat.
Variable ps : list spst.
Hypothesis FR : fresh g rng.
Hypothesis LOK : ledger_ok (view g).
Notation R := (received (concat (g_shards g))).
Notation coms := (map fn_com (g_nulls g)).
(** The unspent notes of the whole ledger. *)
Definition unspent_now (g : lg) : list (N * asset) :=
  filter (fun r => negb (existsb (comeqb (null_of r)) (map fn_com (g_nulls g)))) (received (concat (g_shards g))).
Hypothesis SP : spends (unspent_now g) rng ps.
Notation M := (flat_map made ps).

Lemma in_unspent r : In r (unspent_now g) <-> In r R /\ ~ In (null_of r) coms.
Proof.
  unfold unspent_now. rewrite filter_In. split; intros [A B]; split; auto.
  - intro C. rewrite (proj2 (existsb_exists _ _)) in B; [discriminate|]. exists (null_of r). split; [exact C|apply CM_spec; reflexivity].
  - destruct (existsb _ _) eqn:E; [|reflexivity]. exfalso. apply existsb_exists in E. destruct E as (y & Y & E). apply CM_spec in E. subst y. contradiction.
Qed.

Lemma rc_new : new_keys rng (map fst (fake_coins ps) ++ map rc_key (flat_map po_receivers ps)).
Proof.
  destruct SP as (base & joined & n & _ & _ & _ & _ & _ & D). eapply new_keys_perm; [|symmetry; apply drawn_perm]. rewrite D. apply new_keys_drawn.
Qed.
Lemma app_sub_r {A} (a b : list A) : sublist b (a ++ b).
Proof. apply (sublist_app [] a b b); [apply sublist_nil|apply sublist_refl]. Qed.
Lemma app_sub_l {A} (a b : list A) : sublist a (a ++ b).
Proof. rewrite <- (app_nil_r a) at 1. apply sublist_app; [apply sublist_refl|apply sublist_nil]. Qed.
Lemma made_new : new_keys rng (map fst M).
Proof.
  rewrite made_all. eapply new_keys_sub; [|apply made_keys]. eapply new_keys_sub; [apply rc_new|]. apply app_sub_r.
Qed.
Lemma fake_made_new : new_keys rng (map fst (fake_coins ps ++ M)).
Proof.
  rewrite map_app, made_all. eapply new_keys_sub; [apply rc_new|]. apply sublist_app; [apply sublist_refl|apply made_keys].
Qed.

Lemma null_apart n n' a a' : rng <= n -> rng <= n' -> null_of (ident n, a) = null_of (ident n', a') -> n = n'.
Proof. intros A B E. apply (fr_apart _ _ FR n n' a a' A B). left. exact E. Qed.
Lemma item_apart n n' a a' : rng <= n -> rng <= n' -> dg (spend_item (ident n) a) = dg (spend_item (ident n') a') -> n = n'.
Proof. intros A B E. apply (fr_apart _ _ FR n n' a a' A B). right. exact E. Qed.

Lemma nulls_nodup : NoDup (map null_of (R ++ fake_coins ps ++ M)).
Proof.
  rewrite map_app. apply nodup_app.
  - exact (lo_nulls _ _ _ _ _ _ _ _ LOK).
  - apply (new_coins_nodup g rng null_of _ FR fake_made_new). apply null_apart.
  - intros c I J. apply in_map_iff in I, J. destruct I as (x & Ex & I), J as ([k a] & Ey & J).
    destruct (new_keys_in rng _ k fake_made_new) as (n & -> & L); [apply (in_map fst _ _ J)|].
    apply (proj1 (fr_notes _ _ FR n a x L I)). change (null_of (ident n, a) = null_of x). congruence.
Qed.

Lemma spent_nodup : NoDup (map null_of (all_spent ps)) /\ forall c, In c (all_spent ps) -> ~ In (null_of c) coms.
Proof.
  pose proof nulls_nodup as NN. pose proof fake_made_new as FM. destruct SP as (base & joined & n & P & NB & IB & SJ & Z & D). split.
  - apply (Permutation_NoDup (l := map null_of (base ++ joined ++ fake_coins ps))); [symmetry; apply Permutation_map; exact P|].
    apply (nodup_map_incl null_of (R ++ fake_coins ps ++ M)); [exact NN| |].
    + intros c I. apply in_app_or in I. destruct I as [I|I].
      * apply in_or_app. left. apply in_unspent. apply IB. exact I.
      * apply in_or_app. right. apply in_or_app. apply in_app_or in I. destruct I as [I|I]; [right; eapply sublist_incl; eassumption|left; exact I].
    + assert (NA : NoDup (R ++ fake_coins ps ++ M)) by (apply NoDup_map_inv in NN; exact NN).
      destruct (nodup_app_parts _ _ NA) as (NR & NFM & DR). destruct (nodup_app_parts _ _ NFM) as (NF & NM & DF).
      apply nodup_app; [exact NB| |].
      * apply nodup_app; [eapply sublist_nodup; eassumption|exact NF|]. intros x I J. apply (DF x J). eapply sublist_incl; eassumption.
      * intros x I J. apply (DR x); [apply in_unspent; apply IB; exact I|]. apply in_or_app. apply in_app_or in J.
        destruct J as [J|J]; [right; eapply sublist_incl; eassumption|left; exact J].
  - intros c I. apply (Permutation_in _ P) in I. apply in_app_or in I. destruct I as [I|I]; [apply in_unspent; apply IB; exact I|].
    assert (J : In c (fake_coins ps ++ M)).
    { apply in_or_app. apply in_app_or in I. destruct I as [I|I]; [right; eapply sublist_incl; eassumption|left; exact I]. }
    destruct c as [k a]. destruct (new_keys_in rng _ k FM) as (m & -> & L); [apply (in_map fst _ _ J)|]. apply (fr_nulls _ _ FR m a L).
Qed.

Lemma utxos_new : NoDup (map out_utxo (flat_map po_receivers ps)) /\ forall r, In r (flat_map po_receivers ps) -> ~ In (out_utxo r) (g_utxos g).
Proof.
  assert (K : new_keys rng (map rc_key (flat_map po_receivers ps))) by (eapply new_keys_sub; [apply rc_new|apply app_sub_r]). split.
  - revert K. generalize (flat_map po_receivers ps). intros l (ns & E & N & F). revert ns E N F. induction l as [|r l IH]; intros ns E N F; [constructor|].
    destruct ns as [|n ns]; [discriminate|]. cbn [map] in E. injection E as E1 E2. inversion N as [|? ? N1 N2]; subst. inversion F as [|? ? F1 F2]; subst.
    cbn [map]. constructor; [|eapply IH; eassumption]. intro I. apply in_map_iff in I. destruct I as (r' & E' & I). unfold EePush.out_utxo in E'.
    assert (I' : In (rc_key r') (map ident ns)) by (rewrite <- E2; apply in_map; exact I). apply in_map_iff in I'. destruct I' as (n' & E3 & I').
    rewrite <- E3, E1 in E'. rewrite Forall_forall in F2. apply (fr_utxos_apart _ _ FR) in E'; auto. subst. contradiction.
  - intros r I. destruct (new_keys_in rng _ (rc_key r) K) as (n & E & L); [apply in_map; exact I|]. unfold EePush.out_utxo. rewrite E. apply (fr_utxos _ _ FR); exact L.
Qed.

(** *** After the posts *)
Variable account : N.
Variable g' : lg.
Hypothesis sh_lt : forall x, sh x < length (g_shards g).
Hypothesis PO : posted g account ps g'.
(** Notes for others do not open for the signer. *)
Hypothesis foreign : forall r addr, In r (flat_map po_receivers ps) -> rc_to r = Some addr ->
  open_note (utxo_of (Some addr) (rc_key r) (rc_asset r)) (note_of (Some addr) (rc_key r) (rc_asset r)) = None.

Lemma notes_perm : Permutation (concat (g_shards g')) (concat (g_shards g) ++ map out_pair (flat_map po_receivers ps)).
Proof.
  rewrite !concat_seq, (po_width _ _ _ _ _ _ _ _ _ _ _ _ _ _ _ _ _ PO).
  assert (E : flat_map (fun i => nth i (g_shards g') []) (seq 0 (length (g_shards g))) =
    flat_map (fun i => nth i (g_shards g) [] ++ map out_pair (filter (fun r => sh (item (out_utxo r)) =? i) (flat_map po_receivers ps))) (seq 0 (length (g_shards g)))).
  { apply flat_map_ext. intro i. apply (po_shards _ _ _ _ _ _ _ _ _ _ _ _ _ _ _ _ _ PO i). }
  rewrite E, flat_map_app_perm. apply Permutation_app_head.
  rewrite (flat_map_concat_map (fun i => map out_pair _)), <- (map_map (fun i => filter (fun r => sh (item (out_utxo r)) =? i) (flat_map po_receivers ps)) (map out_pair)).
  rewrite <- concat_map, <- flat_map_concat_map. apply Permutation_map. apply (by_shard (fun r => sh (item (out_utxo r)))).
  intros r _. apply sh_lt.
Qed.

Lemma received_pairs : received (map out_pair (flat_map po_receivers ps)) = M.
Proof.
  rewrite made_all. revert foreign. generalize (flat_map po_receivers ps). induction l as [|r l IH]; intro F; [reflexivity|].
  cbn [map flat_map]. unfold SgSpec.received in *. cbn [flat_map]. rewrite IH by (intros; apply F; [right; assumption|assumption]). f_equal.
  unfold EePush.out_pair, EePush.out_utxo, made_of. cbn [fst snd]. destruct (rc_to r) as [addr|] eqn:E.
  - rewrite (F r addr (or_introl eq_refl) E). reflexivity.
  - rewrite own_opens. reflexivity.
Qed.

Lemma received_perm (l l' : list (UT * NT)) : Permutation l l' -> Permutation (received l) (received l').
Proof. unfold SgSpec.received. apply Permutation_flat_map. Qed.
Lemma received_app (l l' : list (UT * NT)) : received (l ++ l') = received l ++ received l'.
Proof. unfold SgSpec.received. apply flat_map_app. Qed.
Lemma received_after : Permutation (received (concat (g_shards g'))) (R ++ M).
Proof. rewrite (received_perm _ _ notes_perm), received_app, received_pairs. reflexivity. Qed.

Lemma coms_after : map fn_com (g_nulls g') = coms ++ map null_of (all_spent ps).
Proof.
  rewrite (po_nulls _ _ _ _ _ _ _ _ _ _ _ _ _ _ _ _ _ PO), map_app. f_equal. unfold all_spent. clear. generalize ps. intro l.
  induction l as [|q l IH]; [reflexivity|]. cbn [flat_map]. rewrite !map_app, coms_of, IH. reflexivity.
Qed.

(** What the signer has after the posts, and what it had. *)
Lemma unspent_after : exists gone, Permutation (unspent_now g ++ M) (unspent_now g' ++ gone) /\
  forall id, total (map snd gone) id = total (map snd (all_spent ps)) id.
Proof.
  pose proof nulls_nodup as NN. pose proof fake_made_new as FM.
  assert (RM : Permutation (received (concat (g_shards g'))) (R ++ M)) by apply received_after.
  destruct SP as (base & joined & n & P & NB & IB & SJ & Z & D).
  exists (base ++ joined). split.
  2: { intro id. rewrite (total_perm _ _ id (Permutation_map snd P)), !map_app, !total_app.
       rewrite (total_zero id (map snd (fake_coins ps))) by (rewrite Forall_map; exact Z). lia. }
  assert (NA : NoDup (R ++ fake_coins ps ++ M)) by (apply NoDup_map_inv in NN; exact NN).
  destruct (nodup_app_parts _ _ NA) as (NR & NFM & DR). destruct (nodup_app_parts _ _ NFM) as (NF & NM & DF).
  assert (INM : forall c, In c M -> ~ In (null_of c) coms).
  { intros [k a] I. destruct (new_keys_in rng _ k FM) as (m & -> & L); [apply (in_map fst (fake_coins ps ++ M) (k, a)); apply in_or_app; right; exact I|]. apply (fr_nulls _ _ FR m a L). }
  assert (IN' : forall r, In r (unspent_now g') <-> In r (R ++ M) /\ ~ In (null_of r) coms /\ ~ In (null_of r) (map null_of (all_spent ps))).
  { intro r. unfold unspent_now. rewrite filter_In, coms_after. split.
    - intros [A B]. split; [eapply Permutation_in; [exact RM|exact A]|].
      assert (C : ~ In (null_of r) (coms ++ map null_of (all_spent ps))).
      { intro C. rewrite (proj2 (existsb_exists _ _)) in B; [discriminate|]. exists (null_of r). split; [exact C|apply CM_spec; reflexivity]. }
      rewrite in_app_iff in C. tauto.
    - intros (A & B & C). split; [eapply Permutation_in; [symmetry; exact RM|exact A]|].
      destruct (existsb _ _) eqn:E; [|reflexivity]. exfalso. apply existsb_exists in E. destruct E as (y & Y & E). apply CM_spec in E. subst y.
      apply in_app_or in Y. tauto. }
  assert (NRM : NoDup (R ++ M)).
  { apply nodup_app; [exact NR|exact NM|]. intros x I J. apply (DR x I). apply in_or_app. right. exact J. }
  assert (NU : NoDup (unspent_now g ++ M)).
  { apply nodup_app; [apply NoDup_filter; exact NR|exact NM|]. intros x I J. apply in_unspent in I. apply (DR x (proj1 I)). apply in_or_app. right. exact J. }
  assert (INJ : forall x y, In x (R ++ fake_coins ps ++ M) -> In y (R ++ fake_coins ps ++ M) -> null_of x = null_of y -> x = y).
  { intros x y. apply map_inj_in. exact NN. }
  assert (SUB : forall x, In x (R ++ M) -> In x (R ++ fake_coins ps ++ M)).
  { intros x I. rewrite !in_app_iff in *. tauto. }
  assert (GO : forall x, In x (base ++ joined) -> In x (R ++ M) /\ ~ In (null_of x) coms).
  { intros x I. apply in_app_or in I. destruct I as [I|I].
    - apply IB in I. apply in_unspent in I. split; [apply in_or_app; left; apply I|apply I].
    - apply (sublist_incl _ _ SJ) in I. split; [apply in_or_app; right; exact I|apply INM; exact I]. }
  apply NoDup_Permutation; [exact NU| |].
  - apply nodup_app.
    + apply NoDup_filter. eapply Permutation_NoDup; [symmetry; exact RM|exact NRM].
    + apply nodup_app; [exact NB|eapply sublist_nodup; eassumption|]. intros x I J. apply IB in I. apply in_unspent in I.
      apply (DR x (proj1 I)). apply in_or_app. right. eapply sublist_incl; eassumption.
    + intros x I J. apply IN' in I. destruct I as (_ & _ & I). apply I. apply in_map. eapply Permutation_in; [symmetry; exact P|].
      rewrite !in_app_iff in *. tauto.
  - intro x. split.
    + intro I. assert (IX : In x (R ++ M) /\ ~ In (null_of x) coms).
      { apply in_app_or in I. destruct I as [I|I]; [apply in_unspent in I; split; [apply in_or_app; left; apply I|apply I]|].
        split; [apply in_or_app; right; exact I|apply INM; exact I]. }
      destruct (existsb (comeqb (null_of x)) (map null_of (all_spent ps))) eqn:E.
      * apply in_or_app. right. apply existsb_exists in E. destruct E as (c & C & E). apply CM_spec in E. subst c. apply in_map_iff in C.
        destruct C as (y & E & C). apply (Permutation_in _ P) in C. rewrite app_assoc in C. apply in_app_or in C. destruct C as [C|C].
        -- assert (y = x) as <-; [|exact C]. apply INJ; [apply SUB; apply GO; exact C|apply SUB; apply IX|exact E].
        -- exfalso. assert (y = x) by (apply INJ; [rewrite !in_app_iff; auto|apply SUB; apply IX|exact E]). subst y.
           destruct IX as [IX _]. apply in_app_or in IX. destruct IX as [IX|IX]; [apply (DR x IX); apply in_or_app; left; exact C|apply (DF x C IX)].
      * apply in_or_app. left. apply IN'. split; [apply IX|]. split; [apply IX|]. intro C.
        rewrite (proj2 (existsb_exists _ _)) in E; [discriminate|]. exists (null_of x). split; [exact C|apply CM_spec; reflexivity].
    + intro I. apply in_app_or in I. assert (IX : In x (R ++ M) /\ ~ In (null_of x) coms).
      { destruct I as [I|I]; [apply IN' in I; split; apply I|apply GO; exact I]. }
      destruct IX as [IX NX]. apply in_app_or in IX. apply in_or_app. destruct IX as [IX|IX]; [left; apply in_unspent; split; assumption|right; exact IX].
Qed.

(** The ledger after the posts is one that the signer can follow. *)
Lemma ledger_ok_after : Forall small ps -> ledger_ok (view g').
Proof.
  intro SM. pose proof nulls_nodup as NN. pose proof made_new as MN.
  assert (RM : Permutation (received (concat (g_shards g'))) (R ++ M)) by apply received_after.
  assert (INR : forall r, In r (received (concat (l_notes (view g')))) -> In r (R ++ M)) by (intros r I; eapply Permutation_in; [exact RM|exact I]).
  constructor.
  - intros i u I. apply (li_shard dl di join joinl H item dg sh g' (po_inv _ _ _ _ _ _ _ _ _ _ _ _ _ _ _ _ _ PO) i u). exact I.
  - cbn [view l_notes]. apply (Permutation_NoDup (l := map null_of (R ++ M))); [symmetry; apply Permutation_map; exact RM|].
    rewrite !map_app in *. destruct (nodup_app_parts _ _ NN) as (NR & NFM & DR). destruct (nodup_app_parts _ _ NFM) as (NF & NM & DF).
    apply nodup_app; [exact NR|exact NM|]. intros x I J. apply (DR x I). apply in_or_app. right. exact J.
  - cbn [view l_notes]. apply (Permutation_NoDup (l := map (fun r => dg (spend_item (fst r) (snd r))) (R ++ M))); [symmetry; apply Permutation_map; exact RM|].
    rewrite map_app. apply nodup_app.
    + exact (lo_items _ _ _ _ _ _ _ _ LOK).
    + apply (new_coins_nodup g rng (fun r => dg (spend_item (fst r) (snd r))) _ FR MN). apply item_apart.
    + intros c I J. apply in_map_iff in I, J. destruct I as (x & Ex & I), J as ([k a] & Ey & J).
      destruct (new_keys_in rng _ k MN) as (n & -> & L); [apply (in_map fst _ _ J)|].
      apply (proj2 (fr_notes _ _ FR n a x L I)). cbn [fst snd] in Ey. congruence.
  - intros r I. apply INR in I. apply in_app_or in I. destruct I as [I|I]; [apply (lo_open _ _ _ _ _ _ _ _ LOK r I)|]. apply own_null.
  - intros u n k a I O. cbn [view l_notes] in I. apply (Permutation_in _ notes_perm) in I. apply in_app_or in I. destruct I as [I|I].
    + apply (lo_spend _ _ _ _ _ _ _ _ LOK u n k a I O).
    + apply in_map_iff in I. destruct I as (r & E & I). unfold EePush.out_pair, EePush.out_utxo in E. injection E as <- <-.
      destruct (rc_to r) as [addr|] eqn:T; [rewrite (foreign r addr I T) in O; discriminate|]. rewrite own_opens in O. injection O as <- <-. symmetry. apply own_item.
  - intros r I. apply INR in I. apply in_app_or in I. destruct I as [I|I]; [apply (lo_value _ _ _ _ _ _ _ _ LOK r I)|].
    rewrite made_all in I. apply in_flat_map in I. destruct I as (q & Q & I). unfold made_of in I. destruct (rc_to q); [destruct I|]. destruct I as [<-|[]]. cbn [snd].
    apply in_flat_map in Q. destruct Q as (p & P & Q). rewrite Forall_forall in SM. specialize (SM p P). unfold small in SM. rewrite Forall_forall in SM. apply SM. exact Q.
Qed.

(** The identifiers that follow are still new. *)
Lemma fresh_after n : flat_map drawn ps = map ident (seq rng n) -> fresh g' (rng + n).
Proof.
  intro D. pose proof made_new as MN. pose proof fake_made_new as FM.
  assert (RM : Permutation (received (concat (g_shards g'))) (R ++ M)) by apply received_after.
  assert (LOW : forall k, In k (map fst (fake_coins ps) ++ map rc_key (flat_map po_receivers ps)) -> exists m, k = ident m /\ rng <= m < rng + n).
  { intros k I. assert (I' : In k (flat_map drawn ps)) by (eapply Permutation_in; [symmetry; apply drawn_perm|exact I]).
    rewrite D in I'. apply in_map_iff in I'. destruct I' as (m & <- & I'). apply in_seq in I'. eauto. }
  assert (LM : forall c, In c M -> exists m, fst c = ident m /\ rng <= m < rng + n).
  { intros c I. apply LOW. apply in_or_app. right. apply (in_map fst) in I. rewrite made_all in I. eapply sublist_incl; [apply made_keys|exact I]. }
  constructor.
  - intros m a L. rewrite coms_after, in_app_iff. intros [I|I].
    + apply (fr_nulls _ _ FR m a ltac:(lia) I).
    + apply in_map_iff in I. destruct I as (c & E & I). destruct SP as (base & joined & n' & P & NB & IB & SJ & Z & D').
      apply (Permutation_in _ P) in I. rewrite !in_app_iff in I. destruct I as [I|[I|I]].
      * apply IB, in_unspent in I. apply (proj1 (fr_notes _ _ FR m a c ltac:(lia) (proj1 I))). symmetry. exact E.
      * apply (sublist_incl _ _ SJ) in I. destruct (LM c I) as (m' & E' & L'). destruct c as [k a']. cbn [fst] in E'. subst k. apply null_apart in E; lia.
      * destruct (LOW (fst c)) as (m' & E' & L'); [apply in_or_app; left; apply in_map; exact I|]. destruct c as [k a']. cbn [fst] in E'. subst k. apply null_apart in E; lia.
  - intros m a r L I. apply (Permutation_in _ RM) in I. apply in_app_or in I. destruct I as [I|I]; [apply (fr_notes _ _ FR m a r ltac:(lia) I)|].
    destruct (LM r I) as (m' & E' & L'). destruct r as [k a']. cbn [fst snd] in *. subst k. split; intro E; [apply null_apart in E; lia|apply item_apart in E; lia].
  - intros m m' a a' L L' E. apply (fr_apart _ _ FR m m' a a' ltac:(lia) ltac:(lia) E).
  - intros m to a L. rewrite (po_utxos _ _ _ _ _ _ _ _ _ _ _ _ _ _ _ _ _ PO), in_app_iff. intros [I|I]; [apply (fr_utxos _ _ FR m to a ltac:(lia) I)|].
    apply in_map_iff in I. destruct I as (r & E & I). unfold EePush.out_utxo in E. destruct (LOW (rc_key r)) as (m' & E' & L'); [apply in_or_app; right; apply in_map; exact I|].
    rewrite E' in E. apply (fr_utxos_apart _ _ FR) in E; lia.
  - intros m m' to to' a a' L L' E. apply (fr_utxos_apart _ _ FR m m' to to' a a' ltac:(lia) ltac:(lia) E).
Qed.
End Effect.
End Flow.
