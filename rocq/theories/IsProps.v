(** Property C78: the initial synchronisation. *)
From Coq Require Import List Arith NArith Bool Lia Permutation.
From Verif Require Import MtModel MtSpec MtHist MtLemmas MtInv MtFull MtTest PtModel PtSpec PtProps FkSpec FkInv FkProps FoSpec FoInv FoProps AssetModel AssetSpec AssetMap
  CkSpec CkLemmas SgModel SgSpec SgAcc SgSync SgInv SgProps SnModel SnSpec SnProps WaModel WaLemmas WaProps LgModel LgHist LgProps CkModel SgSpec IsModel IsLemmas.
Import ListNotations.

Section Props.
Context {LD ID IT UT NT NF : Type}.
Variable dl : LD.
Variable di : ID.
Variable join : ID -> ID -> ID.
Variable joinl : LD -> LD -> ID.
Variable ldeqb : LD -> LD -> bool.
Variable ideqb : ID -> ID -> bool.
Variable H : nat.
Variable chk : bool.
Variable dg : IT -> LD.
Variable sh : IT -> nat.
Variable open_note : UT -> NT -> option (N * asset).
Variable item : UT -> IT.
Variable spend_item : N -> asset -> IT.
Variable spend_null : N -> asset -> NF.
Variable nfeqb : NF -> NF -> bool.
Variable can_open : NF -> bool.
Hypothesis HH : 3 <= H.
Hypothesis ldeqb_spec : forall a b, ldeqb a b = true <-> a = b.
Hypothesis ideqb_spec : forall a b, ideqb a b = true <-> a = b.
Hypothesis nfeqb_spec : forall a b, nfeqb a b = true <-> a = b.
Hypothesis join_nd : forall a b, join a b <> di.
Hypothesis joinl_nd : forall a b, joinl a b <> di.
Variable L : ledger UT NT NF.
Notation w := (length (l_notes L)).
Notation nsh := (note_sh (NT := NT) sh item).
Notation cap := (2 ^ (H - 1)).
Hypothesis LOK : ledger_ok open_note spend_null nsh dg item spend_item can_open L.
Hypothesis CAP : forall i, length (l_shard L i) <= cap.

Notation received := (received open_note).
Notation nul := (null_of spend_null).
Notation sync := (sync dl di join joinl ldeqb ideqb H chk dg sh open_note item spend_item spend_null nfeqb can_open).
Notation initial_sync := (initial_sync dl di join joinl ideqb H chk dg w).
Notation signer := (signer (LD := LD) (ID := ID) (NF := NF)).
Notation Inv := (Inv dl di join joinl H dg sh open_note item spend_item spend_null can_open L (td := false)).
Notation vec := am_asset_vector.
Notation spec_root := (spec_root dl di join joinl H).
Notation current_path_of := (current_path_of dl di join joinl H).

(** ** Specification *)

(** A state of the ledger: how many notes of every shard and how many nullifiers it has. *)
Definition counted (c : ckpt) : Prop :=
  length (recv c) = w /\ (forall i, at_shard c i <= length (l_shard L i)) /\ send c <= length (l_nulls L).

(** The items of a shard at that state. *)
Definition first_items (c : ckpt) (j : nat) : list IT := map (fun un => item (fst un)) (firstn (at_shard c j) (l_shard L j)).

(** The request that describes that state: all items by shard, the path that the tree of each
    shard has for its last leaf, the number of nullifiers. *)
Definition describes (c : ckpt) (r : ireq LD ID IT) : Prop :=
  length (ir_items r) = w /\ (forall j, j < w -> nth j (ir_items r) [] = first_items c j) /\
  length (ir_paths r) = w /\
  (forall j, j < w -> current_path_of (map dg (first_items c j)) (nth j (ir_paths r) (Path 0 dl []))) /\
  ir_nulls r = send c.

(** The trees of the accumulator are those of the notes that [c] counts. *)
Definition roots_right (c : ckpt) (f : forest LD ID) : Prop :=
  map ft_len f = recv c /\
  forall j t, nth_error f j = Some t -> at_shard c j <> 0 -> ft_root di t = spec_root (map dg (first_items c j)).

(** ** The call *)

Lemma first_items_len c j : counted c -> length (first_items c j) = at_shard c j.
Proof. intros (_ & A & _). unfold first_items. rewrite map_length, firstn_length. apply Nat.min_l. apply A. Qed.

Lemma first_items_sh c i x : In x (first_items c i) -> sh x = i.
Proof.
  unfold first_items. intro I. apply in_map_iff in I. destruct I as (un & <- & I).
  assert (A : In un (l_shard L i)). { rewrite <- (firstn_skipn (at_shard c i) (l_shard L i)). apply in_or_app. auto. }
  apply (lo_shard _ _ _ _ _ _ _ _ LOK i un A).
Qed.

Lemma filter_items c j n : filter (fun x => sh x =? j) (flat_map (first_items c) (seq 0 n)) = if j <? n then first_items c j else [].
Proof.
  induction n as [|n IH]; auto. rewrite seq_S, flat_map_app, filter_app, IH. cbn [plus flat_map]. rewrite app_nil_r.
  assert (A : forall l, (forall x, In x l -> sh x = n) -> filter (fun x => sh x =? j) l = if n =? j then l else []).
  { clear. induction l as [|x l IH]; intro A; cbn [filter]; [destruct (n =? j); auto|].
    rewrite (A x (or_introl eq_refl)), IH by (intros; apply A; right; auto). destruct (n =? j); auto. }
  rewrite A by apply first_items_sh.
  destruct (Nat.ltb_spec j n), (Nat.ltb_spec j (S n)), (Nat.eqb_spec n j); try lia; subst; rewrite ?app_nil_r; auto.
Qed.

Lemma acc_commit f ss xs : Acc dl di join joinl H (td := false) f ss -> Has dg sh H w ss xs [] ->
  exists f' ss', fo_commit dl di join joinl ideqb H chk f = Some f' /\ Acc dl di join joinl H (td := false) f' ss' /\
    Has dg sh H w ss' xs [] /\ AllOk ss'.
Proof.
  intros A HS.
  destruct (all_change (FoInv.Shard dl di join joinl H (td := false)) (ft_merge_partial dl di join joinl ideqb H chk) (fun s => fs_step H false s FCommit) f ss 0 A) as (f' & ss' & E1 & E2 & R').
  { intros t s R. destruct (shard_all dl di join joinl ideqb H HH ideqb_spec join_nd joinl_nd chk t s FCommit R ltac:(auto)) as (t' & s' & K1 & K2 & K3).
    unfold FkSpec.ft_step, with_true in K1. destruct (ft_merge_partial _ _ _ _ _ _ _ _); [|discriminate].
    cbn in K1. injection K1 as <-. eauto. }
  destruct (ref_commit ldeqb dg sh H w ss xs [] HS) as (ss2 & b & R1 & R2 & R3 & _).
  cbn [FoSpec.fo_ref] in R1. rewrite R1 in E2. injection E2 as <- _. rewrite app_nil_r in R2.
  exists f', ss2. split; [exact E1|]. auto.
Qed.

Lemma roots_of c f ss xs : counted c -> Acc dl di join joinl H (td := false) f ss -> Has dg sh H w ss xs [] -> AllOk ss ->
  holds sh item L c xs -> roots_right c f.
Proof.
  intros CO A HS OK HO. pose proof CO as (LN & LE & _).
  assert (SI : forall j, j < w -> firstn cap (shard_items dg sh j (xs ++ [])) = map dg (first_items c j)).
  { intros j Hj. rewrite app_nil_r. unfold shard_items. rewrite (HO j Hj). apply firstn_all2. fold (first_items c j).
    rewrite map_length, first_items_len by auto. etransitivity; [apply LE|apply CAP]. }
  split.
  - destruct (has_lengths dl di join joinl ldeqb ideqb dg sh H HH ldeqb_spec ideqb_spec join_nd joinl_nd chk w _ ss xs [] A HS) as [LA NA].
    apply nth_ext with (d := 0) (d' := 0); [congruence|]. intros j Hj. rewrite LA in Hj. rewrite (NA j Hj), <- firstn_length, (SI j Hj), map_length.
    apply first_items_len. auto.
  - intros j t Ht NZ. destruct (Forall2_nth_error _ _ _ j t A Ht) as (s & Hs & S0).
    destruct (shard_reports dl di join joinl ideqb H HH ideqb_spec join_nd joinl_nd chk t s S0) as (_ & R & _).
    destruct (proj2 HS j s Hs) as [_ LV]. assert (Hj : j < w) by (rewrite <- (proj1 HS); apply nth_error_Some; congruence).
    rewrite (SI j Hj) in LV. rewrite <- LV. apply R; [eapply OK; eauto|]. intro Q.
    assert (Z : length (fs_leaves s) = 0) by (unfold fs_leaves; rewrite Q; auto).
    rewrite LV, map_length, first_items_len in Z by auto. contradiction.
Qed.

Lemma initial_state (s : signer) c r : counted c -> describes c r ->
  exists (s' : signer) ss xs, initial_sync s r = Some (s', inl (c, BFull [])) /\
    s_ck s' = c /\ s_assets s' = [] /\ s_nulls s' = s_nulls s /\
    Acc dl di join joinl H (td := false) (s_acc s') ss /\ Has dg sh H w ss xs [] /\ AllOk ss /\ holds sh item L c xs.
Proof.
  intros CO (LI & NI & LP & NP & NN). pose proof CO as (LN & LE & _).
  assert (CI : forall j, j < w -> length (nth j (ir_items r) []) <= capacity H).
  { intros j Hj. rewrite NI, first_items_len by auto. etransitivity; [apply LE|apply CAP]. }
  destruct (fo_from_shards dl di join joinl ideqb H HH ideqb_spec join_nd joinl_nd dg (ir_items r) (ir_paths r)) as (f & E & F); [congruence| |].
  { intros j Hj. rewrite LI in Hj. split; auto. rewrite NI by auto. auto. }
  rewrite LI in E.
  assert (IE : ir_items r = map (first_items c) (seq 0 w)).
  { apply nth_ext with (d := []) (d' := []); [rewrite map_length, seq_length; auto|]. intros j Hj. rewrite LI in Hj.
    rewrite (NI j Hj). rewrite nth_indep with (d' := first_items c 0) by (rewrite map_length, seq_length; auto).
    rewrite map_nth, seq_nth by auto. reflexivity. }
  set (xs := flat_map (first_items c) (seq 0 w)).
  assert (HO : holds sh item L c xs).
  { intros j Hj. unfold xs. rewrite filter_items. apply Nat.ltb_lt in Hj. rewrite Hj. reflexivity. }
  set (ss := map (fun xs => FS (map (fun x => (true, x)) (map dg xs)) [] true) (ir_items r)) in F.
  assert (HS : Has dg sh H w ss xs []).
  { split; [unfold ss; rewrite map_length; auto|]. intros j s0 Hj. unfold ss in Hj. rewrite nth_error_map in Hj.
    destruct (nth_error (ir_items r) j) as [its|] eqn:Q; [|discriminate]. injection Hj as <-.
    assert (Jw : j < w) by (rewrite <- LI; apply nth_error_Some; congruence).
    assert (B : map dg its = firstn cap (shard_items dg sh j xs)).
    { apply nth_error_nth with (d := []) in Q. rewrite <- Q, (NI j Jw). unfold shard_items. rewrite (HO j Jw). fold (first_items c j). symmetry. apply firstn_all2.
      rewrite map_length, <- (NI j Jw). apply CI. auto. }
    unfold fs_leaves, fs_items. cbn [fs_base fs_fork]. rewrite !app_nil_r, map_map. cbn [snd]. rewrite map_id. auto. }
  assert (LA : acc_lens f = recv c).
  { destruct (has_lengths dl di join joinl ldeqb ideqb dg sh H HH ldeqb_spec ideqb_spec join_nd joinl_nd chk w f ss xs [] F HS) as [LA NA].
    apply nth_ext with (d := 0) (d' := 0); [unfold acc_lens; congruence|]. intros j Hj. unfold acc_lens in Hj. rewrite LA in Hj. unfold acc_lens. rewrite (NA j Hj).
    rewrite app_nil_r. unfold shard_items. rewrite map_length, (HO j Hj). fold (first_items c j). rewrite first_items_len by auto. apply Nat.min_r.
    etransitivity; [apply LE|apply CAP]. }
  destruct (acc_commit f ss xs F HS) as (f' & ss' & EC & A' & HS' & OK').
  unfold IsModel.initial_sync, initial_sync_with. rewrite E. replace (am_assets []) with (Some (@nil asset)) by reflexivity. cbn [option_map]. rewrite EC. cbn [option_map].
  set (ck := update_from_utxo_accumulator _ _). assert (EK : ck = c).
  { unfold ck, update_from_utxo_accumulator, update_from_nullifiers. cbn [recv send]. rewrite LA, NN. destruct c as [rv sn]. cbn [recv send plus] in *. f_equal.
    rewrite <- LN. clear. induction rv as [|a rv IH]; auto. cbn [length repeat combine map fst snd Nat.max]. f_equal. auto. }
  rewrite EK. exists (mk_signer f' [] (s_nulls s) c), ss', xs. cbn [s_acc s_assets s_nulls s_ck]. repeat (split; [solve [auto]|]). auto.
Qed.

(** C78: an initial synchronisation with the request that describes a state of the ledger
    succeeds, for every signer and with overflow checks too: the checkpoint is that state's, no
    asset is stored, the reported balance is empty, and the trees have the lengths and roots of
    the notes counted. *)
Theorem c78_initial_sync : forall (s : signer) c r, counted c -> describes c r ->
  exists s', initial_sync s r = Some (s', inl (c, BFull [])) /\
    s_ck s' = c /\ s_assets s' = [] /\ s_nulls s' = s_nulls s /\ roots_right c (s_acc s').
Proof.
  intros s c r CO D. destruct (initial_state s c r CO D) as (s' & ss & xs & E & E1 & E2 & E3 & A & HS & OK & HO).
  exists s'. repeat (split; [solve [auto]|]). eapply roots_of; eauto.
Qed.

(** ** The reads *)

(** The ledger is at [c] and answers each request by the next notes of every shard; if there is
    more to read then it gives at least one note, and the last answer has the paths and the
    number of nullifiers. *)
Definition answers (c : ckpt) (read : nat -> ckpt -> bool * idata LD ID UT) : Prop :=
  forall n k, length (recv k) = w -> (forall j, at_shard k j <= at_shard c j) ->
  let '(more, d) := read n k in
  (forall u, In u (id_utxos d) -> sh (item u) < w) /\
  exists k', length (recv k') = w /\ (forall j, at_shard k' j <= at_shard c j) /\
    (forall j, j < w -> first_items k' j = first_items k j ++ filter (fun x => sh x =? j) (map item (id_utxos d))) /\
    if more : bool then exists j, at_shard k j < at_shard k' j
    else (forall j, at_shard k' j = at_shard c j) /\ length (id_paths d) = w /\
      (forall j, j < w -> current_path_of (map dg (first_items c j)) (nth j (id_paths d) (Path 0 dl []))) /\
      id_nulls d = send c.

Lemma zip_extend_spec : forall a b : list (list IT), length a = length b ->
  length (zip_extend a b) = length a /\ forall j, nth j (zip_extend a b) [] = nth j a [] ++ nth j b [].
Proof.
  induction a as [|x a IH]; intros [|y b] E; try discriminate; cbn [zip_extend length] in *.
  - split; auto. intros [|j]; reflexivity.
  - destruct (IH b) as [A B]; [lia|]. split; [lia|]. intros [|j]; cbn [nth]; auto.
Qed.

Lemma sum_le : forall a b : list nat, length a = length b -> (forall j, nth j a 0 <= nth j b 0) -> list_sum a <= list_sum b.
Proof.
  induction a as [|x a IH]; intros [|y b] E A; try discriminate; auto. cbn [list_sum fold_right].
  pose proof (A 0) as A0. cbn [nth] in A0. specialize (IH b ltac:(cbn in E; lia) (fun j => A (S j))). unfold list_sum in IH. lia.
Qed.
Lemma sum_lt : forall (a b : list nat) i, length a = length b -> (forall j, nth j a 0 <= nth j b 0) -> nth i a 0 < nth i b 0 ->
  list_sum a < list_sum b.
Proof.
  induction a as [|x a IH]; intros [|y b] i E A B; try discriminate; [destruct i; cbn in B; lia|]. cbn [list_sum fold_right].
  pose proof (A 0) as A0. cbn [nth] in A0. destruct i as [|i]; cbn [nth] in B.
  - pose proof (sum_le a b ltac:(cbn in E; lia) (fun j => A (S j))) as Q. unfold list_sum in Q. lia.
  - specialize (IH b i ltac:(cbn in E; lia) (fun j => A (S j)) B). unfold list_sum in IH. lia.
Qed.

Lemma first_items_recv k sd j : first_items (mk_ckpt (recv k) sd) j = first_items k j.
Proof. reflexivity. Qed.

Lemma loop_spec c read : counted c -> answers c read -> forall fuel n k r,
  length (recv k) = w -> (forall j, at_shard k j <= at_shard c j) ->
  length (ir_items r) = w -> (forall j, j < w -> nth j (ir_items r) [] = first_items k j) ->
  list_sum (recv c) < fuel + list_sum (recv k) ->
  exists r', initial_loop sh item w fuel n read k r = Some (Ret r') /\ describes c r'.
Proof.
  intros CO AN. induction fuel as [|fuel IH]; intros n k r LK LE LI NI FU.
  - exfalso. pose proof (sum_le (recv k) (recv c) ltac:(rewrite LK; symmetry; apply CO) LE). lia.
  - cbn [initial_loop]. pose proof (AN n k LK LE) as A. destruct (read n k) as [more d]. destruct A as (SH & k' & LK' & LE' & NX & REST).
    unfold from_initial_sync_data. pose proof (sort_items_spec sh w (map item (id_utxos d))) as S0.
    rewrite (proj2 (forallb_forall _ _)) in S0.
    2: { intros x Hx. apply in_map_iff in Hx. destruct Hx as (u & <- & Hu). apply Nat.ltb_lt. auto. }
    destruct S0 as (g & E & LG & NG). rewrite E. cbn [option_map ir_items].
    unfold update_from_utxo_count. rewrite map_length, LG, LK, Nat.eqb_refl.
    assert (CL : forall j, at_shard k j <= length (l_shard L j)) by (intro j; etransitivity; [apply LE|apply CO]).
    assert (CL' : forall j, at_shard k' j <= length (l_shard L j)) by (intro j; etransitivity; [apply LE'|apply CO]).
    assert (FL : forall q j, (forall i, at_shard q i <= length (l_shard L i)) -> length (first_items q j) = at_shard q j).
    { intros q j Q. unfold first_items. rewrite map_length, firstn_length. apply Nat.min_l. apply Q. }
    assert (ADV : forall j, j < w -> at_shard k' j = at_shard k j + length (nth j g [])).
    { intros j Hj. pose proof (f_equal (@length IT) (NX j Hj)) as Q. rewrite app_length, !FL in Q by auto. rewrite NG. exact Q. }
    assert (EK : map (fun p : nat * nat => fst p + snd p) (combine (recv k) (map (@length IT) g)) = recv k').
    { apply nth_ext with (d := 0) (d' := 0); [rewrite map_length, combine_length, map_length; lia|].
      intros j Hj. rewrite map_length, combine_length, map_length, LK, LG, Nat.min_id in Hj. fold (at_shard k' j). rewrite (ADV j Hj).
      rewrite (nth_indep _ 0 (fst (0, 0) + snd (0, 0))) by (rewrite map_length, combine_length, map_length; lia).
      rewrite (map_nth (fun p : nat * nat => fst p + snd p) (combine (recv k) (map (@length IT) g)) (0, 0) j).
      rewrite combine_nth by (rewrite map_length; lia). cbn [fst snd]. unfold at_shard. f_equal.
      apply (map_nth (@length IT) g []). }
    rewrite EK. set (r2 := ir_extend r _).
    assert (I2 : length (ir_items r2) = w /\ forall j, j < w -> nth j (ir_items r2) [] = first_items k' j).
    { destruct (zip_extend_spec (ir_items r) g) as [Z1 Z2]; [lia|]. unfold r2, ir_extend. cbn [ir_items]. split; [lia|].
      intros j Hj. rewrite Z2, NI, NX, NG; auto. }
    destruct I2 as [I2 J2]. destruct more.
    + apply (IH (S n) (mk_ckpt (recv k') (send k)) r2); auto. cbn [recv]. destruct REST as (i & Hi).
      assert (LEK : forall j, nth j (recv k) 0 <= nth j (recv k') 0).
      { intro j. destruct (Nat.lt_ge_cases j w) as [Hj|Hj].
        - fold (at_shard k j) (at_shard k' j). rewrite (ADV j Hj). lia.
        - rewrite !nth_overflow by lia. lia. }
      pose proof (sum_lt (recv k) (recv k') i ltac:(congruence) LEK Hi). lia.
    + destruct REST as (R1 & R2 & R3 & R4). exists r2. split; [reflexivity|].
      split; [exact I2|]. split. { intros j Hj. rewrite J2 by auto. unfold first_items. rewrite R1. reflexivity. }
      unfold r2, ir_extend. cbn [ir_paths ir_nulls]. auto.
Qed.

(** C78: from such answers the wallet builds the request that describes the ledger, after at
    most one read for each note and one more, whatever the sizes of the answers. *)
Theorem c78_pages : forall c read fuel, counted c -> answers c read -> list_sum (recv c) < fuel ->
  exists r, initial_loop sh item w fuel 0 read (ck_default w) (ir_default dl di H w) = Some (Ret r) /\ describes c r.
Proof.
  intros c read fuel CO AN FU.
  assert (Z : forall i, at_shard (ck_default w) i = 0).
  { intro i. unfold at_shard, ck_default. cbn [recv]. destruct (Nat.lt_ge_cases i w) as [Hi|Hi]; [apply nth_repeat|apply nth_overflow; rewrite repeat_length; auto]. }
  apply loop_spec; auto.
  - unfold ck_default. cbn [recv]. apply repeat_length.
  - intro j. rewrite Z. lia.
  - unfold ir_default. cbn [ir_items]. apply repeat_length.
  - intros j Hj. unfold ir_default, first_items. cbn [ir_items]. rewrite nth_repeat, Z. reflexivity.
  - lia.
Qed.

(** C78: the wallet ends at the ledger's state with no assets, whatever it held before. *)
Theorem c78_wallet : forall c read fuel (w0 : wallet (LD := LD) (ID := ID) (NF := NF)),
  counted c -> answers c read -> list_sum (recv c) < fuel ->
  exists s', wallet_initial_sync dl di join joinl ideqb H chk dg sh item w fuel read w0 = Some (WOk (mk_wallet c s' bm_default) tt) /\
    s_ck s' = c /\ s_assets s' = [] /\ s_nulls s' = s_nulls (w_signer w0) /\ roots_right c (s_acc s').
Proof.
  intros c read fuel w0 CO AN FU. destruct (c78_pages c read fuel CO AN FU) as (r & E & D).
  destruct (c78_initial_sync (w_signer w0) c r CO D) as (s' & E1 & R). exists s'. split; [|exact R].
  unfold wallet_initial_sync. rewrite E, E1. reflexivity.
Qed.

(** ** Synchronising from there *)

(** The keys received nothing before [c] and no nullifier of theirs is among those counted. *)
Definition unused (c : ckpt) : Prop :=
  received (seen_notes L c) = [] /\ forall r, In r (received (concat (l_notes L))) -> ~ In (nul r) (seen_nulls L c).

(** The signers that come from an initial synchronisation at [c] by syncs with replies of the
    ledger; the signer it started from had only nullifiers that were reported. *)
Inductive isynced (c : ckpt) : signer -> Prop :=
| isyn_start s r s' x : describes c r -> incl (s_nulls s) (filter can_open (seen_nulls L c)) ->
    initial_sync s r = Some (s', x) -> isynced c s'
| isyn_step s o d s' x : isynced c s -> reply nsh L o d -> in_step nsh (s_ck s) o d -> sync s o d = Some (s', x) -> isynced c s'.

Notation unspent := (unspent open_note spend_null nfeqb L).
Variable c : ckpt.
Hypothesis CO : counted c.
Hypothesis UN : unused c.

Lemma isynced_inv s : isynced c s -> Inv s.
Proof.
  destruct UN as [U1 U2]. induction 1 as [s r s' x D IN E|s o d s' x _ IV R ST E].
  - destruct (initial_state s c r CO D) as (s1 & ss & xs & E0 & E1 & E2 & E3 & A & HS & OK & HO).
    rewrite E in E0. injection E0 as <- _. pose proof CO as (C1 & C2 & C3). constructor; rewrite ?E1, ?E2, ?E3; auto.
    + rewrite U1. constructor; try (cbn; contradiction).
      * split; [constructor|]. intros k l [].
      * intros y Hy _ Q. exfalso. apply (U2 y Hy). unfold shown in Q. apply filter_In in Q. apply Q.
      * exact IN.
    + exists ss, xs. repeat (split; [solve [auto]|]). intros y [].
  - pose proof (sync_spec dl di join joinl ldeqb ideqb H chk dg sh open_note item spend_item spend_null nfeqb can_open
      HH ldeqb_spec ideqb_spec nfeqb_spec join_nd joinl_nd L LOK CAP s o d IV R ST) as G.
    rewrite E in G. apply G.
Qed.

(** C78: from there on a signer stores exactly the unspent notes of its keys. *)
Theorem c78_assets : forall s, isynced c s -> Permutation (vec (s_assets s)) (unspent (s_ck s)).
Proof. intros s Y. pose proof (isynced_inv s Y) as IV. eapply stored_unspent; eauto; apply IV. Qed.

(** C78: it stores the same as a signer that read the whole ledger, and its trees have the same
    lengths and roots. *)
Theorem c78_same_as_sync : forall s1 s2, isynced c s1 ->
  synced dl di join joinl ldeqb ideqb H chk dg sh open_note item spend_item spend_null nfeqb can_open L s2 ->
  s_ck s1 = s_ck s2 ->
  s_assets s1 = s_assets s2 /\ map ft_len (s_acc s1) = map ft_len (s_acc s2) /\
  roots_right (s_ck s1) (s_acc s1).
Proof.
  intros s1 s2 Y1 Y2 E. pose proof (isynced_inv s1 Y1) as I1.
  assert (RR : roots_right (s_ck s1) (s_acc s1)).
  { destruct (i_acc _ _ _ _ _ _ _ _ _ _ _ _ _ _ I1) as (ss & xs & A & HS & OK & HO & PV). eapply roots_of; eauto.
    split; [apply (i_len _ _ _ _ _ _ _ _ _ _ _ _ _ _ I1)|]. split; [apply (i_le _ _ _ _ _ _ _ _ _ _ _ _ _ _ I1)|apply (i_send _ _ _ _ _ _ _ _ _ _ _ _ _ _ I1)]. }
  split; [|split; [|exact RR]].
  - pose proof (i_J _ _ _ _ _ _ _ _ _ _ _ _ _ _ I1) as [O1 _ _ _ _].
    pose proof (synced_inv dl di join joinl ldeqb ideqb H chk dg sh open_note item spend_item spend_null nfeqb can_open
      HH ldeqb_spec ideqb_spec nfeqb_spec join_nd joinl_nd L LOK CAP s2 Y2) as I2.
    pose proof (i_J _ _ _ _ _ _ _ _ _ _ _ _ _ _ I2) as [O2 _ _ _ _].
    apply am_same; auto.
    assert (P : Permutation (vec (s_assets s1)) (vec (s_assets s2))).
    { rewrite (c78_assets s1 Y1), E. symmetry. eapply c14_assets; eauto. }
    intro r. split; apply Permutation_in; [exact P|symmetry; exact P].
  - rewrite (proj1 RR), E. eapply (c20_accumulator dl di join joinl ldeqb ideqb H chk); eauto.
Qed.

(** C78: a sync reports the change of the stored total of every asset id. *)
Theorem c78_report : forall s o d s' k u, isynced c s -> reply nsh L o d -> in_step nsh (s_ck s) o d ->
  sync s o d = Some (s', inl (k, u)) ->
  report_right (vec (s_assets s)) (vec (s_assets s')) u /\ k = s_ck s' /\ ck_after nsh (s_ck s) o d k.
Proof.
  intros s o d s' k u Y R ST E.
  pose proof (sync_spec dl di join joinl ldeqb ideqb H chk dg sh open_note item spend_item spend_null nfeqb can_open
      HH ldeqb_spec ideqb_spec nfeqb_spec join_nd joinl_nd L LOK CAP s o d (isynced_inv s Y) R ST) as G.
  rewrite E in G. destruct G as (_ & K & G). cbn [reported] in G. destruct u; destruct G as [-> G]; auto.
Qed.

(** C78: without overflow checks and with totals in range no sync fails. *)
Theorem c78_succeeds : forall s o d, chk = false -> isynced c s -> reply nsh L o d -> in_step nsh (s_ck s) o d ->
  fits open_note spend_null nfeqb L (s_ck s) -> (forall k, ck_after nsh (s_ck s) o d k -> fits open_note spend_null nfeqb L k) ->
  exists s' k u, sync s o d = Some (s', inl (k, u)).
Proof.
  intros s o d C Y R ST F F'.
  pose proof (sync_spec dl di join joinl ldeqb ideqb H chk dg sh open_note item spend_item spend_null nfeqb can_open
      HH ldeqb_spec ideqb_spec nfeqb_spec join_nd joinl_nd L LOK CAP s o d (isynced_inv s Y) R ST) as G.
  destruct (sync s o d) as [[s' [[k u]|[|]]]|] eqn:E; [eauto| | |].
  - destruct G as (_ & _ & []).
  - destruct G as (_ & K & id & G). exfalso. assert (Y' : isynced c s') by (eapply isyn_step; eauto).
    specialize (F id). specialize (F' _ K id). unfold worth in G.
    rewrite (total_perm _ _ id (Permutation_map snd (c78_assets s Y))), (total_perm _ _ id (Permutation_map snd (c78_assets s' Y'))) in G.
    destruct G as [G|G]; apply N.lt_nge in G; contradiction.
  - destruct G as [G|(k & id & K & G)]; [congruence|]. exfalso. specialize (F' _ K id). apply N.lt_nge in G. contradiction.
Qed.

(** C78: every stored asset whose item the shard has once has a membership proof that verifies
    against the root of the tree of all notes counted. *)
Theorem c78_spendable : forall s k a, isynced c s -> In (k, a) (vec (s_assets s)) ->
  let j := sh (spend_item k a) in
  NoDup (map dg (first_items (s_ck s) j)) ->
  exists p r, fo_prove dl di join joinl ldeqb H chk dg sh (s_acc s) (spend_item k a) = Some (Some (p, r)) /\
    path_verify join joinl ideqb p r (dg (spend_item k a)) = true /\
    r = spec_root (map dg (first_items (s_ck s) j)).
Proof.
  intros s k a Y I j ND. pose proof (isynced_inv s Y) as IV.
  destruct (i_acc _ _ _ _ _ _ _ _ _ _ _ _ _ _ IV) as (ss & xs & A & HS & OK & HO & PV).
  assert (SW : j < w).
  { apply (itm_sh dl di join joinl ldeqb ideqb H dg sh open_note item spend_item spend_null can_open HH ldeqb_spec ideqb_spec join_nd joinl_nd L LOK CAP (k, a)).
    apply (seen_incl open_note L (s_ck s)). apply (Permutation_in _ (c78_assets s Y)) in I. apply filter_In in I. apply I. }
  assert (SI : shard_items dg sh j (xs ++ []) = map dg (first_items (s_ck s) j)).
  { rewrite app_nil_r. unfold shard_items. rewrite (HO _ SW). reflexivity. }
  destruct (prov_proof_once dl di join joinl ldeqb ideqb dg sh H HH ldeqb_spec ideqb_spec join_nd joinl_nd chk w _ ss xs [] _ A HS OK (PV _ I)) as (p & r & t & E & _ & _ & R & V).
  { unfold SgSync.itm. cbn [fst snd]. fold j. rewrite SI. intros x y Hx Hy. apply (proj1 (NoDup_nth_error _) ND); [apply nth_error_Some|]; congruence. }
  exists p, r. split; [exact E|]. split; [exact V|].
  unfold SgSync.itm in R. cbn [fst snd] in R. fold j in R. rewrite SI in R. rewrite R. f_equal. apply firstn_all2.
  rewrite map_length. unfold first_items. rewrite map_length, firstn_length. etransitivity; [apply Nat.le_min_r|]. apply CAP.
Qed.
End Props.

(** ** Concrete cases *)

(** Two shards as in [SgProps]; the notes up to the checkpoint [2; 3] are not ours. *)
Definition xi_L : SgSpec.ledger nat (option asset) N :=
  SgSpec.mk_ledger [[(2, None); (4, None); (6, Some (8, 1)%N)]; [(3, None); (5, None); (7, None); (9, Some (7, 2)%N); (11, Some (7, 4)%N)]] [200; 9]%N.
Definition xi_c : ckpt := mk_ckpt [2; 3] 1.
Definition xi_sync chk := initial_sync (NF := N) 0 D0 DJ DL dig_eqb 4 chk (fun x : nat => x) 2.

(** The path that the tree of the ledger reports. *)
Definition xi_path (l : list nat) : path nat dig :=
  match single_exec 0 D0 DJ DL 4 (single_new 0 D0) l with
  | Some t => match path_from_cpath D0 4 (s_path t) with Some p => p | None => Path 0 0 [] end
  | None => Path 0 0 []
  end.
Definition xi_req : ireq nat dig nat := mk_ireq [[2; 4]; [3; 5; 7]] [xi_path [2; 4]; xi_path [3; 5; 7]] 1.
Definition xi_describes := describes (NT := option asset) (NF := N) 0 D0 DJ DL 4 (fun x : nat => x) xs_item.

Lemma xi_L_ok : xs_ok xi_L.
Proof.
  apply xs_ledger_ok.
  - unfold l_shard. apply (two_shards (fun i u => xs_nsh u = i)); repeat constructor.
  - vm_compute. repeat constructor; cbn; intuition discriminate.
  - list_tac. repeat (apply Forall_cons; [split; reflexivity|]). apply Forall_nil.
Qed.

Example ex_c78_describes : 3 <= 4 /\ (forall i, length (l_shard xi_L i) <= 2 ^ (4 - 1)) /\
  counted xi_L xi_c /\ xi_describes xi_L xi_c xi_req.
Proof.
  split; [lia|]. split; [intros [|[|[|]]]; cbn; lia|]. split.
  - split; [reflexivity|]. split; [intros [|[|[|]]]; cbn; lia|cbn; lia].
  - split; [reflexivity|]. split; [intros [|[|j]] Hj; [reflexivity|reflexivity|cbn in Hj; lia]|]. split; [reflexivity|].
    split; [|reflexivity]. intros [|[|j]] Hj _; [| |cbn in Hj; lia]; eexists; split; vm_compute; reflexivity.
Qed.

Definition xi_s1 : signer := match xi_sync false xs_s0 xi_req with Some (s, _) => s | None => xs_s0 end.
Example ex_c78_initial_sync :
  xi_sync false xs_s0 xi_req = Some (xi_s1, inl (mk_ckpt [2; 3] 1, BFull [])) /\
  map (ft_root D0) (s_acc xi_s1) = [DJ (DJ (DL 2 4) D0) D0; DJ (DJ (DL 3 5) (DL 7 0)) D0].
Proof. split; vm_compute; reflexivity. Qed.

Example ex_c78_unused : unused xs_open xs_spend_null xi_L xi_c.
Proof.
  split; [reflexivity|]. assert (F : Forall (fun r => ~ In (null_of xs_spend_null r) (seen_nulls xi_L xi_c)) (received xs_open (concat (l_notes xi_L)))).
  { vm_compute. repeat constructor; intuition discriminate. }
  rewrite Forall_forall in F. exact F.
Qed.

(** The rest of the ledger in one reply: a note that is spent and two that are not. *)
Definition xi_d : sdata (nat * option asset) N := mk_sdata [(6, Some (8, 1)%N); (9, Some (7, 2)%N); (11, Some (7, 4)%N)] [9]%N.
Definition xi_s2 : signer := match xs_sync false xi_s1 xi_c xi_d with Some (s, _) => s | None => xs_s0 end.
Definition xi_isynced chk := isynced 0 D0 DJ DL Nat.eqb dig_eqb 4 chk (fun x : nat => x) xs_sh xs_open xs_item xs_spend_item xs_spend_null N.eqb xs_can xi_L xi_c.
Lemma xi_syn1 : xi_isynced false xi_s1.
Proof.
  eapply (isyn_start _ _ _ _ _ _ _ _ _ _ _ _ _ _ _ _ _ _ xs_s0 xi_req); [apply ex_c78_describes|intros v []|apply ex_c78_initial_sync].
Qed.
Lemma xi_reply : reply xs_nsh xi_L xi_c xi_d. Proof. reply_tac. Qed.
Lemma xi_second : xs_sync false xi_s1 xi_c xi_d = Some (xi_s2, inl (mk_ckpt [3; 5] 2, BPartial [(8, 1); (7, 4)]%N [])).
Proof. vm_compute. reflexivity. Qed.
Example ex_c78_isynced : xi_isynced false xi_s2 /\ s_ck xi_s2 = mk_ckpt [3; 5] 2 /\
  am_asset_vector (s_assets xi_s2) = [(6, (8, 1)); (11, (7, 4))]%N /\
  NoDup (first_items xs_item xi_L (s_ck xi_s2) 1).
Proof.
  split; [|split; [reflexivity|split; [reflexivity|vm_compute; repeat constructor; cbn; intuition discriminate]]].
  eapply isyn_step; [apply xi_syn1|apply xi_reply|apply c14_own_request_in_step|apply xi_second].
Qed.
(** A signer that read the same in one go from the start. *)
Definition xi_whole : sdata (nat * option asset) N := mk_sdata (concat (l_notes xi_L)) (l_nulls xi_L).
Definition xi_s3 : signer := match xs_sync false xs_s0 xs_o xi_whole with Some (s, _) => s | None => xs_s0 end.
Example ex_c78_same : xs_synced false xi_L xi_s3 /\ s_ck xi_s2 = s_ck xi_s3 /\ s_assets xi_s2 = s_assets xi_s3.
Proof.
  split; [|split; vm_compute; reflexivity].
  eapply (syn_step _ _ _ _ _ _ _ _ _ _ _ _ _ _ _ _ _ xs_s0 xs_o xi_whole _ (inl (mk_ckpt [3; 5] 2, BPartial [(8, 1); (7, 4)]%N []))).
  - apply syn_new. vm_compute. reflexivity.
  - reply_tac.
  - apply c14_own_request_in_step.
  - vm_compute. reflexivity.
Qed.

(** A ledger that answers with at most one note of each shard. *)
Definition xi_read (n : nat) (k : ckpt) : bool * idata nat dig nat :=
  let rest j := skipn (at_shard k j) (firstn (at_shard xi_c j) (l_shard xi_L j)) in
  (existsb (fun j => 1 <? length (rest j)) [0; 1],
   mk_idata (map fst (firstn 1 (rest 1) ++ firstn 1 (rest 0))) [xi_path [2; 4]; xi_path [3; 5; 7]] 1).
Definition xi_answers := answers (NT := option asset) (NF := N) 0 D0 DJ DL 4 (fun x : nat => x) xs_sh xs_item.
Example ex_c78_answers : xi_answers xi_L xi_c xi_read.
Proof.
  intros n [[|a [|b [|]]] sd] LK LE; try discriminate LK.
  pose proof (LE 0) as A. pose proof (LE 1) as B. cbn [at_shard xi_c recv nth] in A, B.
  assert (P : forall c d, (forall i, at_shard (mk_ckpt [c; d] sd) i <= at_shard xi_c i) <-> c <= 2 /\ d <= 3).
  { intros c d. split; [intro Q; split; [apply (Q 0)|apply (Q 1)]|]. intros [Q1 Q2] [|[|[|i]]]; cbn; lia. }
  destruct a as [|[|[|a]]], b as [|[|[|[|b]]]]; try lia; clear LK LE A B;
    (split; [apply Forall_forall; repeat constructor|]);
    match goal with |- exists k', _ /\ _ /\ (forall j, _ -> _ = first_items _ _ (mk_ckpt [?a; ?b] _) j ++ _) /\ _ =>
      exists (mk_ckpt [Nat.min 2 (S a); Nat.min 3 (S b)] sd) end;
    (split; [reflexivity|]); (split; [apply P; cbn; lia|]);
    (split; [intros [|[|j]] Hj; [reflexivity|reflexivity|cbn in Hj; lia]|]);
    match goal with |- context [existsb ?f ?l] => let v := eval vm_compute in (existsb f l) in change (existsb f l) with v end; cbn iota;
    first [exists 0; cbn; lia|exists 1; cbn; lia|
      split; [intros [|[|[|j]]]; reflexivity|split; [reflexivity|split; [|reflexivity]];
        intros [|[|j]] Hj _; [| |cbn in Hj; lia]; eexists; split; vm_compute; reflexivity]].
Qed.
Example ex_c78_wallet :
  match wallet_initial_sync 0 D0 DJ DL dig_eqb 4 true (fun x : nat => x) xs_sh xs_item 2 6 xi_read xw_w2 with
  | Some (WOk w _) => w_ck w = xi_c /\ s_ck (w_signer w) = xi_c /\ w_assets w 7%N = None /\ map ft_len (s_acc (w_signer w)) = [2; 3]
  | _ => False
  end.
Proof. vm_compute. auto. Qed.

(** The answer of the simulation's ledger (C27: without the first notes of every shard but the
    first) makes a signer whose tree is not the ledger's and whose checkpoint is behind it. *)
Definition xi_run := lg_run 0 D0 DJ DL dig_eqb 4 (fun u : nat => u) (fun x => x) (fun x => x mod 2) Nat.eqb Nat.eqb Nat.eqb by_com D0
    (fun n : nat => n) true t_sig t_verify t_new.
Definition xi_data (G : tlg) : idata nat dig nat :=
  let d := snd (initial_read G) in
  mk_idata (fst (fst d)) (map (fun p => match path_from_cpath D0 4 p with Some q => q | None => Path 0 0 [] end) (snd (fst d))) (snd d).
Definition xi_os : list (@lop nat nat nat nat dig unit (list N) (option bool)) :=
  [OSet 1 7 50; OPush 1 [mint 5 4 (Some true); mint 5 3 (Some true); mint 6 5 (Some true)]].
Theorem c78_simulation_read_refuted : exists os w,
  let G := xi_run os in
  map (map fst) (g_shards G) = [[4]; [3; 5]] /\
  wallet_initial_sync 0 D0 DJ DL dig_eqb 4 true (fun x : nat => x) xs_sh xs_item 2 9 (fun _ _ => (fst (initial_read G), xi_data G)) xw_w0
    = Some (WOk w tt) /\
  w_ck w = mk_ckpt [1; 1] 0 /\
  map (ft_root D0) (s_acc (w_signer w)) = [DJ (DJ (DL 4 0) D0) D0; DJ (DJ (DL 5 0) D0) D0] /\
  map s_root (g_trees G) = [DJ (DJ (DL 4 0) D0) D0; DJ (DJ (DL 3 5) D0) D0].
Proof.
  exists xi_os, (match wallet_initial_sync 0 D0 DJ DL dig_eqb 4 true (fun x : nat => x) xs_sh xs_item 2 9 (fun _ _ => (fst (initial_read (xi_run xi_os)), xi_data (xi_run xi_os))) xw_w0 with
    Some (WOk w _) => w | _ => xw_w0 end).
  cbv zeta. split; [vm_compute; reflexivity|]. split; [vm_compute; reflexivity|]. split; [vm_compute; reflexivity|].
  split; vm_compute; reflexivity.
Qed.

(** Without the hypothesis that the keys received nothing before: their notes are not stored, nor
    found by later syncs. *)
Definition xi_L' : SgSpec.ledger nat (option asset) N :=
  SgSpec.mk_ledger [[(2, Some (7, 5)%N); (4, None); (6, Some (8, 1)%N)]; [(3, None); (5, None); (7, None)]] [200]%N.
Definition xi_d' : sdata (nat * option asset) N := mk_sdata [(6, Some (8, 1)%N)] [].
Theorem c78_old_notes_refuted : exists (L : SgSpec.ledger nat (option asset) N) c r s1 o d s2,
  xs_ok L /\ counted L c /\ xi_describes L c r /\ xi_sync false xs_s0 r = Some (s1, inl (c, BFull [])) /\
  reply xs_nsh L o d /\ in_step xs_nsh (s_ck s1) o d /\
  xs_sync false s1 o d = Some (s2, inl (mk_ckpt [3; 3] 1, BPartial [(8, 1)%N] [])) /\
  am_asset_vector (s_assets s2) = [(6, (8, 1))]%N /\
  unspent xs_open xs_spend_null N.eqb L (s_ck s2) = [(2, (7, 5)); (6, (8, 1))]%N.
Proof.
  exists xi_L', xi_c, xi_req, xi_s1, xi_c, xi_d', (match xs_sync false xi_s1 xi_c xi_d' with Some (s, _) => s | None => xs_s0 end).
  split. { apply xs_ledger_ok.
    - unfold l_shard. apply (two_shards (fun i u => xs_nsh u = i)); repeat constructor.
    - vm_compute. repeat constructor; cbn; intuition discriminate.
    - list_tac. repeat (apply Forall_cons; [split; reflexivity|]). apply Forall_nil. }
  split. { split; [reflexivity|]. split; [intros [|[|[|]]]; cbn; lia|cbn; lia]. }
  split. { split; [reflexivity|]. split; [intros [|[|j]] Hj; [reflexivity|reflexivity|cbn in Hj; lia]|]. split; [reflexivity|].
    split; [|reflexivity]. intros [|[|j]] Hj _; [| |cbn in Hj; lia]; eexists; split; vm_compute; reflexivity. }
  split; [apply ex_c78_initial_sync|]. split; [reply_tac|]. split; [apply c14_own_request_in_step|].
  split; [vm_compute; reflexivity|]. split; vm_compute; reflexivity.
Qed.

(** The membership proof of a note from before the initial synchronisation does not verify. *)
Definition xi_req5 : ireq nat dig nat := mk_ireq [[]; [3; 5; 7; 9; 11]] [xi_path []; xi_path [3; 5; 7; 9; 11]] 1.
Definition xi_c5 : ckpt := mk_ckpt [0; 5] 1.
Theorem c78_old_proof_refuted : exists r s p q,
  counted xi_L xi_c5 /\ xi_describes xi_L xi_c5 r /\ xi_sync true xs_s0 r = Some (s, inl (xi_c5, BFull [])) /\
  fo_prove 0 D0 DJ DL Nat.eqb 4 true (fun x => x) xs_sh (s_acc s) 3 = Some (Some (p, q)) /\
  q = spec_root 0 D0 DJ DL 4 [3; 5; 7; 9; 11] /\ path_verify DJ DL dig_eqb p q 3 = false.
Proof.
  exists xi_req5, (match xi_sync true xs_s0 xi_req5 with Some (s, _) => s | None => xs_s0 end),
    (Path 0 5 [D0; DJ (DL 11 0) D0]), (DJ (DJ (DL 3 5) (DL 7 9)) (DJ (DL 11 0) D0)).
  split. { split; [reflexivity|]. split; [intros [|[|[|]]]; cbn; lia|cbn; lia]. }
  split. { split; [reflexivity|]. split; [intros [|[|j]] Hj; [reflexivity|reflexivity|cbn in Hj; lia]|]. split; [reflexivity|].
    split; [|reflexivity]. intros [|[|j]] Hj Q; [exfalso; apply Q; reflexivity| |cbn in Hj; lia]; eexists; split; vm_compute; reflexivity. }
  split; [vm_compute; reflexivity|]. split; [vm_compute; reflexivity|]. split; vm_compute; reflexivity.
Qed.

Print Assumptions c78_initial_sync.
Print Assumptions c78_pages.
Print Assumptions c78_wallet.
Print Assumptions c78_assets.
Print Assumptions c78_same_as_sync.
Print Assumptions c78_report.
Print Assumptions c78_succeeds.
Print Assumptions c78_spendable.
Print Assumptions c78_simulation_read_refuted.
Print Assumptions c78_old_notes_refuted.
Print Assumptions c78_old_proof_refuted.
