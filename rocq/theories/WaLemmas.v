(** Lemmas on balance maps and on the pruning of requests, for the wallet. *)
From Coq Require Import List Arith NArith Lia Bool Permutation Sorted.
From Verif Require Import AssetModel AssetSpec AssetLemmas AssetSelect AssetMap AssetProps CkModel CkSpec CkLemmas CkProps.
Import ListNotations.
Open Scope N_scope.

(** ** Balance maps, without bounds on the values *)

Lemma bm_deposit_any m a : bm_ok m ->
  match bm_deposit m a with
  | Some m' => bm_ok m' /\ forall id, bm_balance m' id = bm_balance m id + (if fst a =? id then snd a else 0)
  | None => vmax < bm_balance m (fst a) + snd a
  end.
Proof.
  intro O. destruct a as [i v]. unfold bm_deposit. cbn [fst snd]. destruct (N.eqb_spec v 0) as [->|NZ].
  { split; auto. intro id. destruct (i =? id); lia. }
  destruct (m i) as [u|] eqn:M.
  - destruct (N.ltb_spec vmax (u + v)) as [B|B]; [unfold bm_balance; rewrite M; exact B|]. split.
    + intro id. unfold bset. destruct (id =? i); auto. intro Q. assert (u + v = 0) by congruence. lia.
    + intro id. unfold bm_balance, bset. rewrite (N.eqb_sym id). destruct (N.eqb_spec i id) as [<-|]; [rewrite M; auto|lia].
  - split.
    + intro id. unfold bset. destruct (id =? i); auto. congruence.
    + intro id. unfold bm_balance, bset. rewrite (N.eqb_sym id). destruct (N.eqb_spec i id) as [<-|]; [rewrite M; lia|lia].
Qed.

Lemma bm_deposit_all_any xs : forall m, bm_ok m ->
  match bm_deposit_all m xs with
  | Some m' => bm_ok m' /\ forall id, bm_balance m' id = bm_balance m id + total xs id
  | None => exists id, vmax < bm_balance m id + total xs id
  end.
Proof.
  induction xs as [|a xs IH]; intros m O; cbn [bm_deposit_all total].
  - split; auto. intro id. lia.
  - pose proof (bm_deposit_any m a O) as D. destruct (bm_deposit m a) as [m'|].
    + destruct D as (O' & D). specialize (IH m' O'). destruct (bm_deposit_all m' xs) as [m2|].
      * destruct IH as (O2 & I). split; auto. intro id. rewrite I, D. lia.
      * destruct IH as (id & I). exists id. rewrite D in I. lia.
    + exists (fst a). rewrite N.eqb_refl. lia.
Qed.

Lemma al_deposit_any l a : al_ok l ->
  match al_deposit l a with
  | Some l' => al_ok l' /\ forall x, total l' x = total l x + (if fst a =? x then snd a else 0)
  | None => vmax < total l (fst a) + snd a
  end.
Proof.
  intros [S Z]. unfold al_deposit. destruct a as [id v]. cbn [fst snd].
  destruct (N.eqb_spec v 0) as [->|NZ].
  { split; [split; auto|]. intro x. destruct (id =? x); lia. }
  destruct (al_find l id) as [i|i] eqn:E.
  - apply find_inl in E; auto. destruct E as (l1 & u & l2 & -> & <- & T1 & T2 & _ & S').
    rewrite nth_app_mid. cbn [fst snd]. destruct (N.ltb_spec vmax (u + v)) as [B|B].
    { rewrite total_app. cbn [total fst snd]. rewrite N.eqb_refl. lia. }
    rewrite vset_app. split; [split; auto|].
    + apply zf_app in Z. rewrite zf_cons in Z. apply zf_app. rewrite zf_cons. cbn [snd] in *. split; [tauto|split; [lia|tauto]].
    + intro x. rewrite !total_app. cbn [total fst snd]. destruct (id =? x); lia.
  - apply find_inr in E; auto. destruct E as (l1 & l2 & -> & <- & T & S').
    rewrite vinsert_app. split; [split; auto|].
    + apply zf_app in Z. apply zf_app. rewrite zf_cons. cbn [snd]. tauto.
    + intro x. rewrite !total_app. cbn [total fst snd]. destruct (id =? x); lia.
Qed.

Lemma al_deposit_all_any xs : forall l, al_ok l ->
  match al_deposit_all l xs with
  | Some l' => al_ok l' /\ forall x, total l' x = total l x + total xs x
  | None => exists x, vmax < total l x + total xs x
  end.
Proof.
  induction xs as [|a xs IH]; intros l O; cbn [al_deposit_all total].
  - split; auto. intro x. lia.
  - pose proof (al_deposit_any l a O) as D. destruct (al_deposit l a) as [l'|].
    + destruct D as (O' & D). specialize (IH l' O'). destruct (al_deposit_all l' xs) as [l2|].
      * destruct IH as (O2 & I). split; auto. intro x. rewrite I, D. lia.
      * destruct IH as (x & I). exists x. rewrite D in I. lia.
    + exists (fst a). rewrite N.eqb_refl. lia.
Qed.

Lemma bm_withdraw_all_any m xs : bm_ok m ->
  match bm_withdraw_all m xs with
  | Some (m', ok) => bm_ok m' /\ (ok = true <-> forall id, total xs id <= bm_balance m id) /\
      (ok = true -> forall id, bm_balance m' id + total xs id = bm_balance m id)
  | None => exists id, vmax < total xs id
  end.
Proof.
  intro O. unfold bm_withdraw_all, al_from_iter.
  pose proof (al_deposit_all_any xs [] al_value_empty) as D. destruct (al_deposit_all [] xs) as [l|]; cbn [option_map].
  2: { destruct D as [x D]. exists x. cbn [total] in D. lia. }
  destruct D as ([S Z] & T).
  pose proof (bm_withdraw_list_spec l m (bm_balance m) O (fun _ => eq_refl) S) as G.
  destruct (bm_withdraw_list m l) as [m' ok]. destruct G as (O' & L1 & L2 & _).
  assert (L1' : ok = true <-> forall id, total xs id <= bm_balance m id).
  { rewrite L1. split; intros H x; specialize (H x); rewrite T in *; cbn [total] in *; lia. }
  split; auto. split; [exact L1'|].
  intros Q id. pose proof (proj1 L1' Q id) as LE. rewrite L2, T by auto. cbn [total]. lia.
Qed.

(** The coins of an id are worth its total. *)
Lemma coins_total m id : coin_total (coins m id) = total (map snd (am_asset_vector m)) id.
Proof.
  rewrite <- am_flat. unfold coins. induction m as [|[k l] m IH]; [reflexivity|]. cbn [flat_map snd fst].
  rewrite total_app, <- IH, coin_total_app. f_equal. clear. unfold coin_total.
  induction l as [|[i v] l IH]; [reflexivity|]. cbn [flat_map total fst snd].
  destruct (N.eqb_spec i id) as [->|NE]; cbn [andb app]; [|rewrite IH; lia].
  destruct (N.eqb_spec v 0) as [->|NZ]; cbn [negb app map sumv snd]; rewrite IH; lia.
Qed.

(** ** Pruning *)
Open Scope nat_scope.

Lemma covers_refl c : covers c c.
Proof. split; [auto|split; auto]. Qed.
Lemma covers_trans a b c : covers a b -> covers b c -> covers a c.
Proof.
  intros (A1 & A2 & A3) (B1 & B2 & B3). split; [congruence|]. split; [|lia]. intro i. specialize (A2 i). specialize (B2 i). lia.
Qed.
Lemma covers_anti a b : covers a b -> covers b a -> a = b.
Proof.
  intros (A1 & A2 & A3) (B1 & B2 & B3). destruct a as [ra sa], b as [rb sb]. cbn in *. f_equal; [|lia].
  apply nth_ext with (d := 0) (d' := 0); [auto|]. intros i _. specialize (A2 i). specialize (B2 i). unfold at_shard in *. cbn in *. lia.
Qed.
Lemma covers_lt_or_eq a b : covers a b -> ck_ltb b a = false -> a = b.
Proof.
  intros C E. apply covers_leb_eq; auto. unfold ck_ltb, ck_leb in *. unfold ck_cmp in *. rewrite (lex_flip (recv b) (recv a)).
  destruct (lex_cmp (recv b) (recv a)) eqn:X; cbn [CompOpp]; try discriminate; auto.
  - destruct (send a ?= send b) eqn:Y; auto. apply Nat.compare_gt_iff in Y. destruct (send b ?= send a) eqn:W; try discriminate.
    + apply Nat.compare_eq_iff in W. lia.
    + apply Nat.compare_gt_iff in W. lia.
Qed.

(** A request of which nothing was dropped started at the checkpoint of the signer. *)
Lemma not_pruned {U V} (sh : U -> nat) (o s last : ckpt) (d d' : sdata U V) :
  (forall u, In u (notes d) -> sh u < length (recv o)) -> advanced sh o d last ->
  covers s o -> covers s last \/ covers last s ->
  prune_sync_request sh s o d = Ret (Some (false, d')) -> s = o.
Proof.
  intros SHd ADV CO CL E.
  destruct (c19_prune_partial _ _ sh o s last d SHd ADV CO CL) as (b & d0 & E0 & PR & SB).
  rewrite E in E0. assert (b = false) by congruence. assert (d0 = d') by congruence. subst b d0. specialize (SB eq_refl).
  destruct (ck_leb s o) eqn:LE; [apply covers_leb_eq; auto|].
  assert (UP : last = updated_origin sh o d).
  { pose proof (updated_origin_advanced U V sh o d SHd) as (L2 & N2 & S2). destruct ADV as (L1 & N1 & S1).
    destruct last as [rl sl], (updated_origin sh o d) as [ru su]. cbn in *. f_equal; [|congruence].
    apply nth_ext with (d := 0) (d' := 0); [congruence|]. intros i Hi. rewrite L1 in Hi.
    specialize (N1 i Hi). specialize (N2 i Hi). unfold at_shard in *. cbn in *. congruence. }
  unfold prune_sync_request in E. rewrite (covers_not_lt _ _ CO) in E. unfold prune in E. rewrite LE, <- UP in E.
  destruct (ck_ltb last s) eqn:LT; [discriminate|].
  assert (CL' : covers last s).
  { destruct CL as [CL|CL]; auto. rewrite (covers_lt_or_eq s last CL LT). apply covers_refl. }
  clear E CL. destruct CO as (C1 & C2 & C3), CL' as (K1 & K2 & K3), ADV as (A1 & A2 & A3), PR as (P1 & P2).
  assert (SN : send s = send o).
  { destruct SB as [SB1 SB2]. rewrite SB1 in P1. apply (f_equal (@length V)) in P1.
    assert (UL : forall (vs : list V) a b, length (unseen_nulls a b vs) = length vs - (a - b)).
    { clear. induction vs as [|v vs IH]; intros a b; [reflexivity|]. cbn [unseen_nulls length]. destruct (Nat.leb_spec a b).
      - cbn [length]. rewrite IH. lia.
      - rewrite IH. lia. }
    rewrite UL in P1. lia. }
  apply covers_anti; [split; [auto|split; auto]|]. split; [auto|]. split; [|lia].
  intro i. destruct (Nat.lt_ge_cases i (length (recv o))) as [Hi|Hi].
  - destruct SB as [SB1 SB2]. specialize (P2 i). rewrite (SB2 i), unseen_shard in P2. apply (f_equal (@length U)) in P2. rewrite skipn_length in P2.
    specialize (K2 i). specialize (A2 i Hi). unfold count_shard in A2. lia.
  - unfold at_shard. rewrite nth_overflow by congruence. lia.
Qed.
