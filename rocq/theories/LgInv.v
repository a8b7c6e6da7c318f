(** What posting does to the ledger, and the invariant of its notes and trees. *)
From Coq Require Import List Arith NArith Bool Lia.
From Verif Require Import MtModel MtSpec MtLemmas MtInner MtInv MtFull MtSingle CkModel CkSpec LgModel LgSpec LgLemmas.
Import ListNotations.
Open Scope nat_scope.

Lemma set_nth_length {A} i (x : A) l : length (set_nth i x l) = length l.
Proof.
  unfold set_nth. rewrite app_length, firstn_length.
  pose proof (skipn_length i l) as E. destruct (skipn i l) as [|y r]; cbn [length] in *; lia.
Qed.

Lemma nth_error_set_nth {A} i j (x : A) l : i < length l ->
  nth_error (set_nth i x l) j = if j =? i then Some x else nth_error l j.
Proof.
  unfold set_nth. revert i j. induction l as [|y l IH]; intros i j Hi; [cbn in Hi; lia|].
  destruct i as [|i].
  - cbn [firstn skipn app]. destruct j; reflexivity.
  - cbn [firstn skipn app]. destruct j as [|j]; [reflexivity|]. cbn [nth_error Nat.eqb].
    apply IH. cbn in Hi. lia.
Qed.

Lemma nth_set_nth {A} i j (x d : A) l : i < length l ->
  nth j (set_nth i x l) d = if j =? i then x else nth j l d.
Proof.
  intro Hi. pose proof (nth_error_set_nth i j x l Hi) as E.
  destruct (Nat.eqb_spec j i) as [->|].
  - apply nth_error_nth with (d := d) in E. exact E.
  - destruct (nth_error l j) as [y|] eqn:Ej.
    + rewrite (nth_error_nth l j d Ej). apply nth_error_nth with (d := d) in E. exact E.
    + apply nth_error_None in Ej. apply nth_error_None in E. rewrite !nth_overflow by assumption. reflexivity.
Qed.

Lemma nodup_snoc {A} (l : list A) x : NoDup l -> ~ In x l -> NoDup (l ++ [x]).
Proof.
  intros N F. apply NoDup_rev in N. rewrite <- (rev_involutive (l ++ [x])), rev_app_distr.
  apply NoDup_rev. cbn [rev app]. constructor; [|exact N]. rewrite <- in_rev. exact F.
Qed.

Section Frames.
Context {CM ON UT NT LD ID : Type}.
Variable comeqb : CM -> CM -> bool.
Variable probe : list (fnull CM ON) -> fnull CM ON -> fnull CM ON -> bool.
Variable ovchk : bool.
Hypothesis CM_spec : forall a b, comeqb a b = true <-> a = b.

Notation lg := (ledger CM ON UT NT LD ID).

(** Only the accounts differ. *)
Definition same_notes (L L' : lg) : Prop :=
  g_nulls L' = g_nulls L /\ g_utxos L' = g_utxos L /\ g_shards L' = g_shards L /\ g_trees L' = g_trees L.

Lemma same_notes_refl L : same_notes L L.
Proof. repeat split. Qed.

Lemma same_notes_trans L1 L2 L3 : same_notes L1 L2 -> same_notes L2 L3 -> same_notes L1 L3.
Proof. unfold same_notes. intros (A & B & C & D) (A' & B' & C' & D'). repeat split; congruence. Qed.

Lemma debit_all_same id srcs : forall L L' r, debit_all ovchk L id srcs = (L', r) -> same_notes L L'.
Proof.
  induction srcs as [|[a v] srcs IH]; intros L L' r E; cbn [debit_all] in E.
  - injection E as <- _. apply same_notes_refl.
  - destruct (mget (g_accounts L) a) as [m|]; [|injection E as <- _; apply same_notes_refl].
    destruct (mget m id) as [b|]; [|injection E as <- _; apply same_notes_refl].
    destruct (vsub ovchk b v); [|injection E as <- _; apply same_notes_refl].
    apply IH in E. exact E.
Qed.

Lemma credit_all_same id snks : forall L L' r, credit_all ovchk L id snks = (L', r) -> same_notes L L'.
Proof.
  induction snks as [|[a v] snks IH]; intros L L' r E; cbn [credit_all] in E.
  - injection E as <- _. apply same_notes_refl.
  - destruct (mget (g_accounts L) a) as [m|]; [|injection E as <- _; apply same_notes_refl].
    destruct (vadd ovchk (match mget m id with Some b => b | None => 0%N end) v);
      [|injection E as <- _; apply same_notes_refl].
    apply IH in E. exact E.
Qed.

Lemma update_same L id srcs snks L' r :
  update_public_balances ovchk L id srcs snks = (L', r) -> same_notes L L'.
Proof.
  unfold update_public_balances. destruct (debit_all ovchk L id srcs) as [L1 r1] eqn:E.
  apply debit_all_same in E. destruct r1 as [[]| |]; intro E'.
  - apply credit_all_same in E'. eapply same_notes_trans; eauto.
  - injection E' as <- _. exact E.
  - injection E' as <- _. exact E.
Qed.

(** Spending only adds nullifiers. *)
Lemma null_insert_spec s x : exists r, null_insert comeqb probe s x = s ++ r /\
  incl r [x] /\ In (fn_com x) (map fn_com (null_insert comeqb probe s x)).
Proof.
  unfold null_insert. destruct (null_contains comeqb probe s x) eqn:E.
  - exists []. split; [symmetry; apply app_nil_r|]. split; [intros y []|].
    unfold null_contains in E. apply existsb_exists in E. destruct E as (y & I & E).
    apply andb_prop in E. destruct E as [_ E]. apply CM_spec in E. rewrite E. apply in_map. exact I.
  - exists [x]. split; [reflexivity|]. split; [intros y I; exact I|]. rewrite map_app. apply in_or_app. right. left. reflexivity.
Qed.

Lemma spend_all_spec (ss : list (spost CM ON ID)) : forall L : lg,
  g_utxos (spend_all comeqb probe L ss) = g_utxos L /\
  g_shards (spend_all comeqb probe L ss) = g_shards L /\
  g_trees (spend_all comeqb probe L ss) = g_trees L /\
  g_accounts (spend_all comeqb probe L ss) = g_accounts L /\
  exists r, g_nulls (spend_all comeqb probe L ss) = g_nulls L ++ r /\
    incl r (map sp_null ss) /\
    incl (map (fun s => fn_com (sp_null s)) ss) (map fn_com (g_nulls (spend_all comeqb probe L ss))).
Proof.
  induction ss as [|s ss IH]; intro L; cbn [spend_all].
  - repeat (split; [reflexivity|]). exists []. rewrite app_nil_r. split; [reflexivity|]. split; intros x [].
  - destruct (IH (spend comeqb probe L (sp_null s))) as (A & B & C & D & r & E & F & G).
    unfold spend in *. cbn [g_utxos g_shards g_trees g_accounts g_nulls] in *.
    repeat (split; [assumption|]).
    destruct (null_insert_spec (g_nulls L) (sp_null s)) as (r1 & E1 & F1 & G1).
    exists (r1 ++ r). split; [rewrite E, E1, app_assoc; reflexivity|]. split.
    + intros y I. apply in_app_or in I. destruct I as [I|I].
      * apply F1 in I. destruct I as [<-|[]]. left. reflexivity.
      * right. apply F. exact I.
    + intros c I. cbn [map] in I. destruct I as [<-|I]; [|apply G; exact I].
      rewrite E, map_app. apply in_or_app. left. exact G1.
Qed.

End Frames.

Section Inv.
Context {CM ON UT NT IT LD ID : Type}.
Variable dl : LD.
Variable di : ID.
Variable join : ID -> ID -> ID.
Variable joinl : LD -> LD -> ID.
Variable H : nat.
Variable item : UT -> IT.
Variable dg : IT -> LD.
Variable sh : IT -> nat.
Variable comeqb : CM -> CM -> bool.
Variable uteqb : UT -> UT -> bool.
Variable nteqb : NT -> NT -> bool.
Variable probe : list (fnull CM ON) -> fnull CM ON -> fnull CM ON -> bool.
Variable ovchk : bool.
Hypothesis HH : 2 <= H.
Hypothesis CM_spec : forall a b, comeqb a b = true <-> a = b.
Hypothesis UT_spec : forall a b, uteqb a b = true <-> a = b.

Notation lg := (ledger CM ON UT NT LD ID).
Notation leaf := (fun u => dg (item u)).
Notation reg := (register dl di join joinl H item dg sh uteqb nteqb).
Notation reg_all := (register_all dl di join joinl H item dg sh uteqb nteqb).
Notation sok := (single_ok dl di join joinl H).

Record Inv (L : lg) : Prop := {
  li_sh : forall u : UT, sh (item u) < length (g_shards L);
  li_len : length (g_trees L) = length (g_shards L);
  li_tree : forall i t, nth_error (g_trees L) i = Some t ->
     sok t (firstn (capacity H) (shard_leaves leaf L i));
  li_shard : forall i un, In un (shard L i) -> sh (item (fst un)) = i;
  li_utxos : forall u, In u (g_utxos L) <-> exists n, In (u, n) (shard L (sh (item u)));
  li_nodup : forall i, NoDup (map fst (shard L i)) }.

Lemma inv_new w : (forall u : UT, sh (item u) < w) -> Inv (lg_new dl di w).
Proof.
  intro Hw.
  assert (S0 : forall i, shard (CM := CM) (ON := ON) (NT := NT) (lg_new dl di w : lg) i = []).
  { intro i. unfold shard, lg_new. cbn [g_shards]. destruct (nth_in_or_default i (repeat (@nil (UT * NT)) w) []) as [I|E];
      [apply repeat_spec in I; exact I|exact E]. }
  constructor.
  - intro u. cbn [lg_new g_shards]. rewrite repeat_length. apply Hw.
  - cbn [lg_new g_trees g_shards]. rewrite !repeat_length. reflexivity.
  - intros i t E. unfold shard_leaves. rewrite S0. cbn [map firstn]. rewrite firstn_nil.
    apply nth_error_In in E. cbn [lg_new g_trees] in E. apply repeat_spec in E. subst t.
    apply single_new_ok. exact HH.
  - intros i un I. rewrite S0 in I. destruct I.
  - intro u. cbn [lg_new g_utxos]. split; [intros []|]. intros (n & I). rewrite S0 in I. destruct I.
  - intro i. rewrite S0. constructor.
Qed.

Lemma existsb_uteqb u (l : list UT) : existsb (uteqb u) l = true <-> In u l.
Proof.
  rewrite existsb_exists. split.
  - intros (y & I & E). apply UT_spec in E. congruence.
  - intro I. exists u. split; [exact I|]. apply UT_spec. reflexivity.
Qed.

(** Registering a new utxo appends it to its shard. *)
Lemma register_spec (L : lg) u n : Inv L -> ~ In u (g_utxos L) ->
  exists L', reg L u n = (L', ROk tt) /\ Inv L' /\
    g_nulls L' = g_nulls L /\ g_accounts L' = g_accounts L /\ g_utxos L' = g_utxos L ++ [u] /\
    length (g_shards L') = length (g_shards L) /\
    (forall i, shard L' i = if i =? sh (item u) then shard L i ++ [(u, n)] else shard L i).
Proof.
  intros I Hu. pose proof (li_sh _ I u) as Hs. unfold register. cbv zeta.
  set (j := sh (item u)) in *.
  destruct (nth_error (g_shards L) j) as [s|] eqn:Es; [|apply nth_error_None in Es; lia].
  destruct (nth_error (g_trees L) j) as [t|] eqn:Et;
    [|apply nth_error_None in Et; rewrite (li_len _ I) in Et; lia].
  assert (Sj : shard L j = s) by (unfold shard; apply nth_error_nth; exact Es).
  assert (Pi : pair_insert uteqb nteqb s (u, n) = s ++ [(u, n)]).
  { unfold pair_insert. destruct (existsb (pair_eqb uteqb nteqb (u, n)) s) eqn:E; [|reflexivity].
    exfalso. apply Hu. apply existsb_exists in E. destruct E as ([u' n'] & In' & E).
    unfold pair_eqb in E. cbn [fst snd] in E. apply andb_prop in E. destruct E as [E _].
    apply UT_spec in E. subst u'. apply (li_utxos _ I). exists n'. fold j. rewrite Sj. exact In'. }
  assert (Ui : utxo_insert uteqb (g_utxos L) u = g_utxos L ++ [u]).
  { unfold utxo_insert. destruct (existsb (uteqb u) (g_utxos L)) eqn:E; [|reflexivity].
    apply existsb_uteqb in E. contradiction. }
  rewrite Pi, Ui.
  pose proof (li_tree _ I j t Et) as Ok.
  assert (Hp : exists t' b, single_push dl di join joinl H t (dg (item u)) = Some (t', b) /\
     sok t' (firstn (capacity H) (shard_leaves leaf L j ++ [dg (item u)]))).
  { destruct (single_push_cases dl di join joinl H HH t _ (dg (item u)) Ok) as [(C & t' & E & O')|(C & E)].
    - exists t', true. split; [exact E|].
      rewrite firstn_length in C.
      assert (Hl : length (shard_leaves leaf L j) < capacity H) by lia.
      rewrite firstn_all2 in O' by lia. rewrite firstn_all2; [exact O'|]. rewrite app_length. cbn [length]. lia.
    - exists t, false. split; [exact E|]. rewrite firstn_length in C.
      rewrite firstn_app. replace (capacity H - length (shard_leaves leaf L j)) with 0 by lia.
      rewrite firstn_O, app_nil_r. exact Ok. }
  destruct Hp as (t' & b & Ep & O'). rewrite Ep. eexists. split; [reflexivity|].
  assert (Hs' : forall i, shard (mk_lg (g_nulls L) (g_utxos L ++ [u]) (set_nth j (s ++ [(u, n)]) (g_shards L))
      (set_nth j t' (g_trees L)) (g_accounts L)) i = if i =? j then shard L i ++ [(u, n)] else shard L i).
  { intro i. unfold shard. cbn [g_shards]. rewrite nth_set_nth by exact Hs.
    destruct (Nat.eqb_spec i j) as [->|]; [|reflexivity]. fold (shard L j). rewrite Sj. reflexivity. }
  split; [|repeat split; try exact Hs'; cbn [g_shards]; apply set_nth_length].
  constructor.
  - intro u'. cbn [g_shards]. rewrite set_nth_length. apply (li_sh _ I).
  - cbn [g_trees g_shards]. rewrite !set_nth_length. apply (li_len _ I).
  - intros i ti Ei. unfold shard_leaves. rewrite Hs'. cbn [g_trees] in Ei.
    rewrite nth_error_set_nth in Ei by (rewrite (li_len _ I); exact Hs).
    destruct (Nat.eqb_spec i j) as [->|].
    + injection Ei as <-. rewrite map_app. cbn [map fst]. exact O'.
    + apply (li_tree _ I i ti Ei).
  - intros i un In'. rewrite Hs' in In'. destruct (Nat.eqb_spec i j) as [->|]; [|apply (li_shard _ I i un In')].
    apply in_app_or in In'. destruct In' as [In'|[<-|[]]]; [apply (li_shard _ I j un In')|reflexivity].
  - intro u'. rewrite Hs'. cbn [g_utxos]. rewrite in_app_iff, (li_utxos _ I u'). cbn [In].
    destruct (Nat.eqb_spec (sh (item u')) j) as [Ej|Ej].
    + split.
      * intros [(n' & I')|[<-|[]]]; [exists n'; apply in_or_app; left; exact I'|].
        exists n. apply in_or_app. right. left. reflexivity.
      * intros (n' & I'). apply in_app_or in I'. destruct I' as [I'|[I'|[]]]; [left; eauto|].
        injection I' as <- _. right. left. reflexivity.
    + split; [intros [F|[<-|[]]]; [exact F|]|left; exact H0]. exfalso. apply Ej. reflexivity.
  - intro i. rewrite Hs'. destruct (Nat.eqb_spec i j) as [->|]; [|apply (li_nodup _ I)].
    rewrite map_app. cbn [map fst]. apply nodup_snoc; [apply (li_nodup _ I)|].
    intro F. apply Hu. apply in_map_iff in F. destruct F as ([u' n'] & E & F). cbn [fst] in E. subst u'.
    apply (li_utxos _ I). exists n'. exact F.
Qed.

(** Registering outputs that are new and different. *)
Lemma register_all_spec (rs : list (rpost UT NT)) : forall L : lg, Inv L ->
  NoDup (map rp_utxo rs) -> (forall u, In u (map rp_utxo rs) -> ~ In u (g_utxos L)) ->
  exists L', reg_all L rs = (L', ROk tt) /\ Inv L' /\
    g_nulls L' = g_nulls L /\ g_accounts L' = g_accounts L /\
    g_utxos L' = g_utxos L ++ map rp_utxo rs /\
    length (g_shards L') = length (g_shards L) /\
    (forall i, shard L' i = shard L i ++
       map (fun r => (rp_utxo r, rp_note r)) (filter (fun r => sh (item (rp_utxo r)) =? i) rs)).
Proof.
  induction rs as [|r rs IH]; intros L I N F; cbn [register_all map filter].
  - exists L. repeat (split; [reflexivity || exact I || (symmetry; apply app_nil_r)|]).
    intro i. cbn [map]. symmetry. apply app_nil_r.
  - inversion N as [|? ? N1 N2]; subst.
    destruct (register_spec L (rp_utxo r) (rp_note r) I) as (L1 & E & I1 & A & B & C & D & S1).
    { apply F. left. reflexivity. }
    rewrite E. destruct (IH L1 I1 N2) as (L' & E' & I' & A' & B' & C' & D' & S').
    { intros u Hu. rewrite C, in_app_iff. intros [G|[<-|[]]]; [|contradiction].
      apply (F u); [right; exact Hu|exact G]. }
    exists L'. split; [exact E'|]. split; [exact I'|]. split; [congruence|]. split; [congruence|].
    split; [rewrite C', C, <- app_assoc; reflexivity|]. split; [congruence|].
    intro i. rewrite S', S1, (Nat.eqb_sym (sh (item (rp_utxo r))) i).
    destruct (i =? sh (item (rp_utxo r))); [|reflexivity].
    rewrite <- app_assoc. reflexivity.
Qed.

Lemma inv_same (L L' : lg) : g_utxos L' = g_utxos L -> g_shards L' = g_shards L ->
  g_trees L' = g_trees L -> Inv L -> Inv L'.
Proof.
  intros A B C I.
  assert (S0 : forall i, shard L' i = shard L i) by (intro i; unfold shard; rewrite B; reflexivity).
  destruct I as [I1 I2 I3 I4 I5 I6]. constructor.
  - rewrite B. exact I1.
  - rewrite B, C. exact I2.
  - intros i t. unfold shard_leaves. rewrite C, S0. apply I3.
  - intros i un. rewrite S0. apply I4.
  - intro u. rewrite A, S0. apply I5.
  - intro i. rewrite S0. apply I6.
Qed.

(** Posting a key whose outputs are new and different: the notes are registered and the
    nullifiers recorded in any case; the rest is moving balances. *)
Lemma post_key_spec (L : lg) (k : pkey CM ON UT NT ID) : Inv L ->
  NoDup (map rp_utxo (k_receivers k)) ->
  (forall u, In u (map rp_utxo (k_receivers k)) -> ~ In u (g_utxos L)) ->
  exists L2, Inv L2 /\ g_accounts L2 = g_accounts L /\
    g_nulls L2 = g_nulls (spend_all comeqb probe L (k_senders k)) /\
    g_utxos L2 = g_utxos L ++ map rp_utxo (k_receivers k) /\
    length (g_shards L2) = length (g_shards L) /\
    (forall i, shard L2 i = shard L i ++ map (fun r => (rp_utxo r, rp_note r))
       (filter (fun r => sh (item (rp_utxo r)) =? i) (k_receivers k))) /\
    post_key dl di join joinl H item dg sh comeqb uteqb nteqb probe ovchk L k =
      match k_asset k with
      | Some id => update_public_balances ovchk L2 id (k_sources k) (k_sinks k)
      | None => (L2, ROk tt)
      end.
Proof.
  intros I N F. unfold post_key. cbv zeta.
  destruct (spend_all_spec comeqb probe CM_spec (k_senders k) L) as (A & B & C & D & _).
  set (L1 := spend_all comeqb probe L (k_senders k)) in *.
  assert (I1 : Inv L1) by (apply (inv_same L L1); assumption).
  destruct (register_all_spec (k_receivers k) L1 I1 N) as (L2 & E & I2 & A2 & B2 & C2 & D2 & S2).
  { intros u Hu. rewrite A. apply F. exact Hu. }
  exists L2. split; [exact I2|]. split; [congruence|]. split; [exact A2|]. split; [congruence|].
  split; [congruence|]. split.
  - intro i. rewrite S2. unfold shard. rewrite B. reflexivity.
  - rewrite E. reflexivity.
Qed.

End Inv.
