(** The accumulator of a signer, seen as the list of items inserted. *)
From Coq Require Import List Arith Bool Lia.
From Verif Require Import MtModel MtSpec MtHist PtModel PtSpec PtLeaf FkSpec FoSpec FoInv FoProps.
Import ListNotations.
Open Scope nat_scope.

(** ** The helpers of the reference *)

Lemma change_at_spec {A} (l : list A) i (g : A -> option (A * bool)) a a' b :
  nth_error l i = Some a -> g a = Some (a', b) ->
  exists l', change_at l i g = Some (l', b) /\ length l' = length l /\
    nth_error l' i = Some a' /\ forall j, j <> i -> nth_error l' j = nth_error l j.
Proof.
  intros N G. unfold change_at. rewrite N, G. cbn [option_map fst snd]. eexists. split; [reflexivity|]. clear G b g.
  assert (Hi : i < length l) by (apply nth_error_Some; congruence).
  assert (Lf : length (firstn i l) = i) by (rewrite firstn_length; lia). split; [|split].
  - rewrite app_length, Lf. cbn [length]. rewrite skipn_length. lia.
  - rewrite nth_error_app2 by lia. rewrite Lf, Nat.sub_diag. reflexivity.
  - intros j Hj. destruct (Nat.lt_ge_cases j i) as [C|C].
    + rewrite nth_error_app1 by lia. clear - C. revert i l C. induction j; intros i l C; destruct i, l; cbn; auto; try lia. apply IHj. lia.
    + rewrite nth_error_app2 by lia. rewrite Lf. destruct (j - i) as [|k] eqn:E; [lia|]. cbn [nth_error].
      replace j with (S i + k) by lia. clear. generalize (S i). intro n. revert l. induction n; intro l; auto. destruct l; cbn [skipn plus nth_error]; auto. destruct k; auto.
Qed.

Lemma change_all_spec {A} (g : nat -> A -> option (A * bool)) : forall l j,
  (forall k a, exists a' b, g k a = Some (a', b)) ->
  exists l' b, change_all g j l = Some (l', b) /\ length l' = length l /\
    forall i a, nth_error l i = Some a -> exists a' c, nth_error l' i = Some a' /\ g (j + i) a = Some (a', c).
Proof.
  induction l as [|x l IH]; intros j T; cbn [change_all].
  - exists [], true. split; auto. split; auto. intros [|i] a Q; discriminate Q.
  - destruct (T j x) as (x' & b & E). rewrite E. destruct (IH (S j) T) as (l' & c & E' & L & N). rewrite E'.
    eexists _, _. split; [reflexivity|]. split; [cbn; lia|]. intros [|i] a Q; cbn [nth_error] in *.
    + injection Q as <-. rewrite Nat.add_0_r. eauto.
    + destruct (N i a Q) as (a' & d & E1 & E2). exists a', d. split; auto. rewrite <- E2. f_equal. lia.
Qed.

Lemma nth_error_len {A B} (l : list A) (m : list B) i a : length l = length m -> nth_error m i = Some a ->
  exists b, nth_error l i = Some b.
Proof.
  intros L N. destruct (nth_error l i) eqn:E; eauto. apply nth_error_None in E.
  assert (nth_error m i <> None) as Q by congruence. apply nth_error_Some in Q. lia.
Qed.

Lemma find_pos_nth {A} (p : A -> bool) l i : find_pos p l = Some i -> exists a, nth_error l i = Some a /\ p a = true.
Proof.
  revert i. induction l as [|a l IH]; intros i E; cbn [find_pos] in E; [discriminate|].
  destruct (p a) eqn:P. { injection E as <-. exists a. auto. }
  destruct (find_pos p l) as [k|]; [|discriminate]. injection E as <-. destruct (IH k eq_refl) as (b & Q). exists b. auto.
Qed.

Lemma nth_error_skip {A} (l : list A) n k : nth_error (skipn n l) k = nth_error l (n + k).
Proof. revert l. induction n; intro l; auto. destruct l; cbn [skipn plus nth_error]; auto. destruct k; auto. Qed.

Section Ref.
Context {LD IT : Type}.
Variable ldeqb : LD -> LD -> bool.
Variable dg : IT -> LD.
Variable sh : IT -> nat.
Variable H : nat.
Variable w : nat.
Notation fo_ref := (fo_ref ldeqb dg sh H).
Notation cap := (2 ^ (H - 1)).

(** ** What a state of the reference holds *)

(** [xs] is committed, [ys] is in the forks; a full shard drops what comes after. *)
Definition Has (ss : list (fspec LD)) (xs ys : list IT) : Prop :=
  length ss = w /\
  forall j s, nth_error ss j = Some s ->
    map snd (fs_base s) = firstn cap (shard_items dg sh j xs) /\
    fs_leaves s = firstn cap (shard_items dg sh j (xs ++ ys)).

(** An item that is held and was not given up. *)
Definition Prov (ss : list (fspec LD)) (x : IT) : Prop :=
  exists s, nth_error ss (sh x) = Some s /\ In (false, dg x) (fs_items s).

Definition AllOk (ss : list (fspec LD)) : Prop := forall j s, nth_error ss j = Some s -> fs_ok s = true.

Lemma has_new : Has (repeat (FS [] [] true) w) [] [].
Proof.
  split; [apply repeat_length|]. intros j s N. apply nth_error_In in N. apply repeat_spec in N. subst s.
  cbn. rewrite !firstn_nil. auto.
Qed.

Lemma shard_items_app j xs ys : shard_items dg sh j (xs ++ ys) = shard_items dg sh j xs ++ shard_items dg sh j ys.
Proof. unfold shard_items. rewrite filter_app, map_app. reflexivity. Qed.

Lemma fill (A B : list LD) : firstn cap A ++ firstn (cap - length (firstn cap A)) B = firstn cap (A ++ B).
Proof.
  rewrite firstn_app. f_equal. f_equal. rewrite firstn_length. lia.
Qed.

(** One shard, an insertion. *)
Lemma fs_insert s p A j its : is_insert p = true ->
  fs_leaves s = firstn cap A -> map snd (pop_items p) = shard_items dg sh j its ->
  exists s' b, fs_step H false s (FDo p) = Some (s', b) /\ fs_base s' = fs_base s /\
    fs_leaves s' = firstn cap (A ++ shard_items dg sh j its) /\
    (forall e, In e (fs_items s) -> In e (fs_items s')) /\
    (length A + length (shard_items dg sh j its) <= cap -> forall e, In e (pop_items p) -> In e (fs_items s')).
Proof.
  intros I L E. assert (Q : exists b ok, fs_step H false s (FDo p) =
    Some (FS (fs_base s) (fs_fork s ++ firstn (cap - length (fs_items s)) (pop_items p)) ok, b)).
  { destruct p; try discriminate I; eexists _, _; reflexivity. }
  destruct Q as (b & ok & Q). rewrite Q. eexists _, b. split; [reflexivity|].
  assert (LI : length (fs_items s) = length (firstn cap A)).
  { rewrite <- L. unfold fs_leaves. rewrite map_length. reflexivity. }
  unfold fs_leaves, fs_items in *. cbn [fs_base fs_fork]. split; auto. split; [|split].
  - rewrite app_assoc, map_app, L, <- firstn_map, E, LI. apply fill.
  - intros e He. rewrite app_assoc. apply in_or_app. auto.
  - intros C e He. rewrite app_assoc. apply in_or_app. right. rewrite firstn_all2; auto.
    assert (length (pop_items p) = length (shard_items dg sh j its)) by (rewrite <- E, map_length; auto).
    rewrite LI, firstn_length. lia.
Qed.

Definition op_items (o : foop IT) : list IT :=
  match o with OInsert x | OInsertNp x => [x] | OBatch xs | OBatchNp xs => xs | _ => [] end.
Definition inserts (o : foop IT) : bool :=
  match o with OInsert _ | OInsertNp _ | OBatch _ | OBatchNp _ => true | _ => false end.

Lemma shard_items_one x j : shard_items dg sh j [x] = if sh x =? j then [dg x] else [].
Proof. unfold shard_items. cbn [filter]. destruct (sh x =? j); reflexivity. Qed.

Lemma ref_insert ss xs ys o : Has ss xs ys -> inserts o = true -> Forall (fun x => sh x < w) (op_items o) ->
  exists ss' b, fo_ref ss o = Some (ss', b) /\ Has ss' xs (ys ++ op_items o) /\
    (forall x, Prov ss x -> Prov ss' x) /\
    (forall x, o = OInsert x -> length (shard_items dg sh (sh x) (xs ++ ys)) < cap -> Prov ss' x).
Proof.
  intros [LN HN] I F.
  assert (ONE : forall x p, (o = OInsert x /\ p = PPush (dg x)) \/ (o = OInsertNp x /\ p = PPushNp (dg x)) ->
    fo_ref ss o = change_at ss (sh x) (fun s => fs_step H false s (FDo p)) ->
    exists ss' b, fo_ref ss o = Some (ss', b) /\ Has ss' xs (ys ++ op_items o) /\
    (forall x, Prov ss x -> Prov ss' x) /\
    (forall x, o = OInsert x -> length (shard_items dg sh (sh x) (xs ++ ys)) < cap -> Prov ss' x)).
  { intros x p O R. assert (Hx : sh x < w /\ op_items o = [x]).
    { destruct O as [[-> _]|[-> _]]; cbn [op_items] in *; split; auto; now inversion F. }
    destruct Hx as [Hx OI]. rewrite OI.
    destruct (nth_error ss (sh x)) as [s|] eqn:N; [|apply nth_error_None in N; lia].
    destruct (HN _ _ N) as [B L].
    assert (PI : is_insert p = true /\ map snd (pop_items p) = shard_items dg sh (sh x) [x]).
    { rewrite shard_items_one, Nat.eqb_refl. destruct O as [[_ ->]|[_ ->]]; split; reflexivity. }
    destruct PI as [PI1 PI2].
    destruct (fs_insert s p _ (sh x) [x] PI1 L PI2) as (s' & b & E & EB & EL & EK & EN).
    destruct (change_at_spec ss (sh x) (fun s => fs_step H false s (FDo p)) s s' b N E) as (ss' & Q & L' & N' & O').
    exists ss', b. split; [rewrite R; exact Q|]. split; [split; [lia|]|split].
    - intros j s0 Hj. destruct (Nat.eq_dec j (sh x)) as [->|NE].
      + rewrite N' in Hj. injection Hj as <-. rewrite EB, EL. split; auto.
        rewrite app_assoc, (shard_items_app _ (xs ++ ys)). reflexivity.
      + rewrite O' in Hj by auto. destruct (HN _ _ Hj) as [B0 L0]. split; auto. rewrite L0.
        rewrite app_assoc, (shard_items_app _ (xs ++ ys)), shard_items_one.
        destruct (Nat.eqb_spec (sh x) j); [congruence|]. rewrite app_nil_r. reflexivity.
    - intros y (sy & Hy & IN). destruct (Nat.eq_dec (sh y) (sh x)) as [EQ|NE].
      + exists s'. rewrite EQ in *. rewrite N in Hy. injection Hy as <-. split; auto.
      + exists sy. split; auto. rewrite O'; auto.
    - intros y -> C. destruct O as [[O ->]|[O _]]; [|discriminate]. injection O as ->. exists s'. split; auto.
      apply EN; [|left; reflexivity]. rewrite shard_items_one, Nat.eqb_refl. cbn. lia. }
  assert (MANY : forall its (mk : list LD -> pop LD), (o = OBatch its /\ mk = PBatch) \/ (o = OBatchNp its /\ mk = PBatchNp) ->
    fo_ref ss o = (if forallb (fun x => sh x <? length ss) its
      then change_all (fun j s => fs_step H false s (FDo (mk (shard_items dg sh j its)))) 0 ss else None) ->
    exists ss' b, fo_ref ss o = Some (ss', b) /\ Has ss' xs (ys ++ op_items o) /\
    (forall x, Prov ss x -> Prov ss' x) /\
    (forall x, o = OInsert x -> length (shard_items dg sh (sh x) (xs ++ ys)) < cap -> Prov ss' x)).
  { intros its mk O R.
    assert (OI : op_items o = its) by (destruct O as [[-> _]|[-> _]]; reflexivity). rewrite OI in *.
    assert (PI : forall j, is_insert (mk (shard_items dg sh j its)) = true /\
      map snd (pop_items (mk (shard_items dg sh j its))) = shard_items dg sh j its).
    { intro j. destruct O as [[_ ->]|[_ ->]]; cbn [pop_items]; rewrite map_map; cbn [snd]; rewrite map_id; auto. }
    rewrite R. rewrite (proj2 (forallb_forall _ _)).
    2: { intros x Hx. rewrite Forall_forall in F. apply Nat.ltb_lt. rewrite LN. auto. }
    destruct (change_all_spec (fun j s => fs_step H false s (FDo (mk (shard_items dg sh j its)))) ss 0) as (ss' & b & E & L' & N').
    { intros k a. destruct O as [[_ ->]|[_ ->]]; eexists _, _; reflexivity. }
    exists ss', b. split; auto. split; [split; [lia|]|split].
    - intros j s' Hj. destruct (nth_error_len ss ss' j s' (eq_sym L') Hj) as (s & Hs).
      destruct (N' j s Hs) as (s1 & c & E1 & E2). rewrite Hj in E1. injection E1 as <-. destruct (HN _ _ Hs) as [B L].
      destruct (fs_insert s _ _ j its (proj1 (PI j)) L (proj2 (PI j))) as (s2 & b2 & E3 & EB & EL & _).
      cbn [plus] in E2. rewrite E2 in E3. injection E3 as <- _. rewrite EB, EL. split; auto.
      rewrite app_assoc, (shard_items_app _ (xs ++ ys)). reflexivity.
    - intros y (sy & Hy & IN). destruct (N' _ _ Hy) as (s1 & c & E1 & E2). exists s1. split; auto. destruct (HN _ _ Hy) as [B L].
      destruct (fs_insert sy _ _ (sh y) its (proj1 (PI _)) L (proj2 (PI _))) as (s2 & b2 & E3 & _ & _ & EK & _).
      cbn [plus] in E2. rewrite E2 in E3. injection E3 as <- _. auto.
    - intros x ->. destruct O as [[O _]|[O _]]; discriminate O. }
  destruct o; try discriminate I.
  - eapply ONE; [left; split; reflexivity|reflexivity].
  - eapply ONE; [right; split; reflexivity|reflexivity].
  - eapply MANY; [left; split; reflexivity|reflexivity].
  - eapply MANY; [right; split; reflexivity|reflexivity].
Qed.

Lemma mark_nth_snd i (l : list (bool * LD)) : map snd (mark_nth i l) = map snd l.
Proof.
  unfold mark_nth. rewrite <- (firstn_skipn i l) at 3. rewrite !map_app. f_equal. destruct (skipn i l) as [|[b x] r]; reflexivity.
Qed.

Lemma mark_nth_in i (l : list (bool * LD)) e d : In (e, d) l ->
  (forall b, nth_error l i = Some (b, d) -> False) -> In (e, d) (mark_nth i l).
Proof.
  intros IN NE. unfold mark_nth. rewrite <- (firstn_skipn i l) in IN. apply in_app_or in IN. apply in_or_app.
  destruct IN as [IN|IN]; auto. right. pose proof (nth_error_skip l i 0) as Q. rewrite Nat.add_0_r in Q.
  destruct (skipn i l) as [|[b x] r]; auto. destruct IN as [E|IN]; [|right; auto].
  injection E as -> ->. exfalso. apply (NE e). rewrite <- Q. reflexivity.
Qed.

Lemma ref_commit ss xs ys : Has ss xs ys ->
  exists ss' b, fo_ref ss OCommit = Some (ss', b) /\ Has ss' (xs ++ ys) [] /\ AllOk ss' /\
    (forall y, Prov ss y -> Prov ss' y).
Proof.
  intros [LN HN]. cbn [FoSpec.fo_ref].
  destruct (change_all_spec (fun (_ : nat) s => fs_step H false s FCommit) ss 0) as (ss' & b & E & L' & N').
  { intros k a. eexists _, _; reflexivity. }
  assert (KEY : forall j s', nth_error ss' j = Some s' -> exists s, nth_error ss j = Some s /\ s' = FS (fs_items s) [] true).
  { intros j s' Hj. destruct (nth_error_len ss ss' j s' (eq_sym L') Hj) as (s & Hs). exists s. split; auto.
    destruct (N' j s Hs) as (s1 & c & E1 & E2). rewrite Hj in E1. injection E1 as <-. cbn in E2. congruence. }
  exists ss', b. split; auto. split; [split; [lia|]|split].
  - intros j s' Hj. destruct (KEY j s' Hj) as (s & Hs & ->). destruct (HN _ _ Hs) as [B L].
    unfold fs_leaves, fs_items in *. cbn [fs_base fs_fork]. rewrite !app_nil_r. auto.
  - intros j s' Hj. destruct (KEY j s' Hj) as (s & Hs & ->). reflexivity.
  - intros y (s & Hs & IN). destruct (N' _ _ Hs) as (s1 & c & E1 & E2). exists s1. split; auto.
    cbn in E2. injection E2 as <- _. unfold fs_items at 1. cbn [fs_base fs_fork]. rewrite app_nil_r. auto.
Qed.

Lemma ref_rollback ss xs ys : Has ss xs ys ->
  exists ss' b, fo_ref ss ORollback = Some (ss', b) /\ Has ss' xs [] /\ AllOk ss'.
Proof.
  intros [LN HN]. cbn [FoSpec.fo_ref].
  destruct (change_all_spec (fun (_ : nat) s => fs_step H false s FReset) ss 0) as (ss' & b & E & L' & N').
  { intros k a. eexists _, _; reflexivity. }
  assert (KEY : forall j s', nth_error ss' j = Some s' -> exists s, nth_error ss j = Some s /\ s' = FS (fs_base s) [] true).
  { intros j s' Hj. destruct (nth_error_len ss ss' j s' (eq_sym L') Hj) as (s & Hs). exists s. split; auto.
    destruct (N' j s Hs) as (s1 & c & E1 & E2). rewrite Hj in E1. injection E1 as <-. cbn in E2. congruence. }
  exists ss', b. split; auto. split; [split; [lia|]|].
  - intros j s' Hj. destruct (KEY j s' Hj) as (s & Hs & ->). destruct (HN _ _ Hs) as [B L].
    unfold fs_leaves, fs_items in *. cbn [fs_base fs_fork]. rewrite !app_nil_r. auto.
  - intros j s' Hj. destruct (KEY j s' Hj) as (s & Hs & ->). reflexivity.
Qed.

Hypothesis ldeqb_spec : forall a b, ldeqb a b = true <-> a = b.

Lemma ref_remove ss xs ys x : Has ss xs ys -> sh x < w ->
  exists ss' b, fo_ref ss (ORemove x) = Some (ss', b) /\ Has ss' xs ys /\
    (forall y, Prov ss y -> dg y <> dg x -> Prov ss' y).
Proof.
  intros [LN HN] Hx. cbn [FoSpec.fo_ref].
  destruct (nth_error ss (sh x)) as [s|] eqn:N; [|apply nth_error_None in N; lia].
  assert (ST : exists s' b, match fork_place ldeqb s (dg x) with
      | Some i => fs_step H false s (FDo (PRemove i)) | None => Some (s, false) end = Some (s', b) /\
    fs_base s' = fs_base s /\ fs_leaves s' = fs_leaves s /\
    (forall e d, d <> dg x -> In (e, d) (fs_items s) -> In (e, d) (fs_items s'))).
  { destruct (fork_place ldeqb s (dg x)) as [i|] eqn:P; [|exists s, false; auto].
    unfold fork_place in P. destruct (find_pos _ _) as [k|] eqn:FP; [|discriminate]. cbn [option_map] in P. injection P as <-.
    apply find_pos_nth in FP. destruct FP as (d & ND & ED). apply ldeqb_spec in ED. subst d.
    rewrite nth_error_skip in ND. set (i := fs_start s + k) in *.
    unfold fs_step. destruct (i <? fs_start s); [exists s, false; auto|].
    destruct (i <? length (fs_items s)) eqn:C; [|exists s, false; auto].
    eexists _, true. split; [reflexivity|]. cbn [fs_base fs_fork]. split; auto.
    destruct (Nat.ltb_spec i (length (fs_base s))) as [C1|C1]. { destruct s. cbn in *. split; auto. }
    unfold fs_leaves, fs_items in *. cbn [fs_base fs_fork]. split. { rewrite !map_app, mark_nth_snd. reflexivity. }
    intros e d ND' IN. apply in_app_or in IN. apply in_or_app. destruct IN as [IN|IN]; auto. right.
    apply mark_nth_in; auto. intros b Q. rewrite nth_error_map in ND.
    rewrite nth_error_app2 in ND by auto. rewrite Q in ND. cbn in ND. congruence. }
  destruct ST as (s' & b & E & EB & EL & EK).
  destruct (change_at_spec ss (sh x) (fun s => match fork_place ldeqb s (dg x) with
      | Some i => fs_step H false s (FDo (PRemove i)) | None => Some (s, false) end) s s' b N E) as (ss' & Q & L' & N' & O').
  exists ss', b. split; auto. split; [split; [lia|]|].
  - intros j s0 Hj. destruct (Nat.eq_dec j (sh x)) as [->|NE].
    + rewrite N' in Hj. injection Hj as <-. rewrite EB, EL. auto.
    + rewrite O' in Hj; auto.
  - intros y (sy & Hy & IN) ND. destruct (Nat.eq_dec (sh y) (sh x)) as [EQ|NE].
    + exists s'. rewrite EQ in *. rewrite N in Hy. injection Hy as <-. split; auto.
    + exists sy. split; auto. rewrite O'; auto.
Qed.
End Ref.

Section Acc.
Context {LD ID IT : Type}.
Variable dl : LD.
Variable di : ID.
Variable join : ID -> ID -> ID.
Variable joinl : LD -> LD -> ID.
Variable ldeqb : LD -> LD -> bool.
Variable ideqb : ID -> ID -> bool.
Variable dg : IT -> LD.
Variable sh : IT -> nat.
Variable H : nat.
Hypothesis HH : 3 <= H.
Hypothesis ldeqb_spec : forall a b, ldeqb a b = true <-> a = b.
Hypothesis ideqb_spec : forall a b, ideqb a b = true <-> a = b.
Hypothesis join_nd : forall a b, join a b <> di.
Hypothesis joinl_nd : forall a b, joinl a b <> di.
Variable chk : bool.
Variable w : nat.
Notation fo_step := (fo_step dl di join joinl ldeqb ideqb dg sh H).
Notation fo_ref := (fo_ref ldeqb dg sh H).
Notation fo_new := (fo_new dl di join joinl ideqb H).
Notation cap := (2 ^ (H - 1)).
Notation Has := (Has dg sh H w).
Notation Prov := (Prov dg sh).

(** The trees follow [ss]. *)
Context {td : bool}.
Notation Shard := (Shard dl di join joinl H (td := td)).
Definition Acc (f : forest LD ID) (ss : list (fspec LD)) : Prop := Forall2 Shard f ss.

Lemma acc_new : exists f, fo_new w = Some f /\ Acc f (repeat (FS [] [] true) w).
Proof. apply (fo_new_shards dl di join joinl ldeqb ideqb H HH ldeqb_spec ideqb_spec join_nd joinl_nd w). Qed.

Lemma acc_step f ss o : Acc f ss ->
  match fo_step chk f o with
  | Some (f', b) => exists ss', fo_ref ss o = Some (ss', b) /\ Acc f' ss'
  | None => fo_ref ss o = None \/ chk = true
  end.
Proof.
  intro A. exact (fo_step_follows dl di join joinl ldeqb ideqb dg sh H HH ldeqb_spec ideqb_spec join_nd joinl_nd chk f ss o A).
Qed.

Lemma shards_lengths f ss : Forall2 Shard f ss -> map ft_len f = map (fun s => length (fs_items s)) ss.
Proof.
  induction 1 as [|t s f0 ss0 S0 F IH]; auto. cbn [map]. f_equal; auto.
  destruct (shard_reports dl di join joinl ideqb H HH ideqb_spec join_nd joinl_nd chk t s S0) as (L & _). exact L.
Qed.

(** The lengths of the trees. *)
Lemma has_lengths f ss xs ys : Acc f ss -> Has ss xs ys ->
  length (map ft_len f) = w /\
  forall j, j < w -> nth j (map ft_len f) 0 = Nat.min cap (length (shard_items dg sh j (xs ++ ys))).
Proof.
  intros A [LN HN]. rewrite (shards_lengths f ss A). rewrite map_length. split; auto.
  intros j Hj. destruct (nth_error ss j) as [s|] eqn:N; [|apply nth_error_None in N; lia].
  rewrite (nth_error_nth _ _ 0 (map_nth_error _ _ _ N)). destruct (HN _ _ N) as [_ L].
  rewrite <- firstn_length, <- L. unfold fs_leaves. rewrite map_length. reflexivity.
Qed.

(** A held item whose digest occurs once has a proof that verifies against the root of its shard. *)
Lemma prov_proof_once f ss xs ys x : Acc f ss -> Has ss xs ys -> AllOk ss -> Prov ss x ->
  (forall i j, nth_error (shard_items dg sh (sh x) (xs ++ ys)) i = Some (dg x) ->
     nth_error (shard_items dg sh (sh x) (xs ++ ys)) j = Some (dg x) -> i = j) ->
  exists p r t, fo_prove dl di join joinl ldeqb H chk dg sh f x = Some (Some (p, r)) /\
    nth_error f (sh x) = Some t /\ r = ft_root di t /\
    r = spec_root dl di join joinl H (firstn cap (shard_items dg sh (sh x) (xs ++ ys))) /\
    path_verify join joinl ideqb p r (dg x) = true.
Proof.
  intros A [LN HN] OK (s & Hs & IN) UN. destruct (HN _ _ Hs) as [_ L].
  destruct (shards_prove_once dl di join joinl ldeqb ideqb dg sh H HH ldeqb_spec ideqb_spec join_nd joinl_nd chk f ss A x s Hs (OK _ _ Hs) IN) as (t & p & P1 & P2 & P3 & _ & P4).
  { intros i j. rewrite L. assert (FN : forall n (l : list LD) v, nth_error (firstn n l) v = Some (dg x) -> nth_error l v = Some (dg x)).
    { clear. induction n; intros [|y l] [|v]; cbn; try discriminate; auto. }
    intros P Q. apply UN; eapply FN; eauto. }
  exists p, (ft_root di t), t. rewrite <- L. auto.
Qed.

End Acc.

Section Proofs.
Context {LD ID IT : Type}.
Variable dl : LD.
Variable di : ID.
Variable join : ID -> ID -> ID.
Variable joinl : LD -> LD -> ID.
Variable ldeqb : LD -> LD -> bool.
Variable ideqb : ID -> ID -> bool.
Variable dg : IT -> LD.
Variable sh : IT -> nat.
Variable H : nat.
Hypothesis HH : 3 <= H.
Hypothesis ldeqb_spec : forall a b, ldeqb a b = true <-> a = b.
Hypothesis ideqb_spec : forall a b, ideqb a b = true <-> a = b.
Hypothesis join_nd : forall a b, join a b <> di.
Hypothesis joinl_nd : forall a b, joinl a b <> di.
Variable chk : bool.
Variable w : nat.
Notation cap := (2 ^ (H - 1)).
Notation Has := (Has dg sh H w).
Notation Prov := (Prov dg sh).

(** A held item has a proof that verifies against the root of its shard. *)
Lemma prov_proof f ss xs ys x : Acc dl di join joinl H (td := true) f ss -> Has ss xs ys -> AllOk ss -> Prov ss x ->
  exists p r t, fo_prove dl di join joinl ldeqb H chk dg sh f x = Some (Some (p, r)) /\
    nth_error f (sh x) = Some t /\ r = ft_root di t /\
    r = spec_root dl di join joinl H (firstn cap (shard_items dg sh (sh x) (xs ++ ys))) /\
    path_verify join joinl ideqb p r (dg x) = true.
Proof.
  intros A [LN HN] OK (s & Hs & IN).
  destruct (shards_prove dl di join joinl ldeqb ideqb dg sh H HH ldeqb_spec ideqb_spec join_nd joinl_nd chk f ss A x s Hs (OK _ _ Hs)) as (t & Ht & P1 & P2).
  destruct (P2 IN) as (p & r & PR). destruct (P1 p r PR) as (R1 & R2 & _ & R3). exists p, r, t.
  destruct (HN _ _ Hs) as [_ L]. rewrite <- L. auto.
Qed.
End Proofs.
