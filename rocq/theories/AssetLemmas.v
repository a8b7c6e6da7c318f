(** Proofs about asset lists, maps, balances and coin selection. *)
From Coq Require Import List NArith Arith Bool Lia Sorted.
From Verif Require Import AssetModel AssetSpec.
Import ListNotations.
Open Scope N_scope.

(** ** Generic facts on vectors *)
Lemma vset_app {A} (l1 : list A) x y l2 : vset (length l1) y (l1 ++ x :: l2) = l1 ++ y :: l2.
Proof. induction l1; cbn; congruence. Qed.
Lemma vremove_app {A} (l1 : list A) x l2 : vremove (length l1) (l1 ++ x :: l2) = l1 ++ l2.
Proof. induction l1; cbn; congruence. Qed.
Lemma vinsert_app {A} (l1 : list A) x l2 : vinsert (length l1) x (l1 ++ l2) = l1 ++ x :: l2.
Proof. induction l1; cbn; [destruct l2|]; congruence. Qed.
Lemma nth_app_mid {A} (l1 : list A) x l2 : nth_error (l1 ++ x :: l2) (length l1) = Some x.
Proof. induction l1; cbn; auto. Qed.

Lemma bsearch_spec {A} (cmp : A -> comparison) (l : list A) :
  match bsearch cmp l with
  | inl i => exists l1 x l2, l = l1 ++ x :: l2 /\ length l1 = i /\ cmp x = Eq /\ Forall (fun y => cmp y = Lt) l1
  | inr i => exists l1 l2, l = l1 ++ l2 /\ length l1 = i /\ Forall (fun y => cmp y = Lt) l1 /\
               match l2 with [] => True | y :: _ => cmp y = Gt end
  end.
Proof.
  induction l as [|a l IH]; cbn [bsearch].
  - exists [], []. repeat split; auto.
  - destruct (cmp a) eqn:C.
    + exists [], a, l. repeat split; auto.
    + destruct (bsearch cmp l) as [i|i].
      * destruct IH as (l1 & x & l2 & -> & L & E & F). exists (a :: l1), x, l2. cbn [length]. repeat split; auto.
      * destruct IH as (l1 & l2 & -> & L & F & G). exists (a :: l1), l2. cbn [length]. repeat split; auto.
    + exists [], (a :: l). repeat split; auto.
Qed.

Lemma ss_app {A} (R : A -> A -> Prop) l1 l2 :
  StronglySorted R (l1 ++ l2) <-> StronglySorted R l1 /\ StronglySorted R l2 /\ (forall x y, In x l1 -> In y l2 -> R x y).
Proof.
  induction l1 as [|a l1 IH]; cbn [app].
  - split; [intro H; repeat split; auto; [constructor|intros ? ? []]|tauto].
  - split.
    + intro H. inversion H; subst. apply IH in H2. destruct H2 as (A1 & A2 & A3).
      rewrite Forall_app in H3. destruct H3 as [F1 F2]. repeat split; auto; [constructor; auto|].
      intros x y [->|Hx] Hy; auto. rewrite Forall_forall in F2. auto.
    + intros (H1 & H2 & H3). inversion H1; subst. constructor.
      * apply IH. repeat split; auto. intros; apply H3; cbn; auto.
      * apply Forall_app. split; auto. apply Forall_forall. intros; apply H3; cbn; auto.
Qed.

Definition idlt (a b : asset) : Prop := fst a < fst b.

Lemma ss_strict l : StronglySorted idlt l <-> strictly_sorted l.
Proof.
  split.
  - induction 1 as [|a l S IH F]; intros i j x y L Hi Hj; [destruct i; discriminate|].
    destruct j; [lia|]. cbn in Hj. destruct i; cbn in Hi.
    + injection Hi as <-. rewrite Forall_forall in F. apply F. eapply nth_error_In; eauto.
    + eapply IH; [|eauto|eauto]. lia.
  - induction l as [|a l IH]; intro S; constructor.
    + apply IH. intros i j x y L Hi Hj. apply (S (Datatypes.S i) (Datatypes.S j)); auto. lia.
    + apply Forall_forall. intros x Hx. apply In_nth_error in Hx. destruct Hx as [n Hn].
      apply (S O (Datatypes.S n) a x); auto. lia.
Qed.

(** ** Totals *)
Lemma total_app l1 l2 id : total (l1 ++ l2) id = total l1 id + total l2 id.
Proof. induction l1; cbn [total app]; lia. Qed.
Lemma total_none l id : (forall a, In a l -> fst a <> id) -> total l id = 0.
Proof.
  induction l as [|a l IH]; intro H; cbn [total]; auto.
  destruct (N.eqb_spec (fst a) id). { destruct (H a); cbn; auto. }
  rewrite IH; auto. intros; apply H; cbn; auto.
Qed.

(** ** Asset lists *)
Definition al_ok (l : list asset) : Prop := StronglySorted idlt l /\ zero_free l.

Lemma cmp_lt l id : Forall (fun y : asset => (fst y ?= id) = Lt) l -> forall a, In a l -> fst a < id.
Proof. rewrite Forall_forall. intros H a Ha. apply N.compare_lt_iff. apply (H a Ha). Qed.

Lemma find_inl l id i : StronglySorted idlt l -> al_find l id = inl i ->
  exists l1 v l2, l = l1 ++ (id, v) :: l2 /\ length l1 = i /\ total l1 id = 0 /\ total l2 id = 0 /\
    StronglySorted idlt (l1 ++ l2) /\ (forall w, StronglySorted idlt (l1 ++ (id, w) :: l2)).
Proof.
  intros S E. pose proof (bsearch_spec (fun a : asset => fst a ?= id) l) as B. change (bsearch _ l) with (al_find l id) in B. rewrite E in B.
  destruct B as (l1 & [id' v] & l2 & -> & L & C & F). cbn [fst] in C. apply N.compare_eq_iff in C. subst id'.
  exists l1, v, l2. apply ss_app in S. destruct S as (S1 & S2 & S3). inversion S2; subst.
  rewrite Forall_forall in H2. split; auto. split; auto. repeat split.
  - apply total_none. intros a Ha. pose proof (cmp_lt _ _ F a Ha). lia.
  - apply total_none. intros a Ha. pose proof (H2 a Ha) as Q. unfold idlt in Q. cbn in Q. lia.
  - apply ss_app. repeat split; auto. intros x y Hx Hy. apply S3; cbn; auto.
  - intro w. apply ss_app. repeat split; auto.
    + constructor; auto. apply Forall_forall. intros x Hx. apply (H2 x Hx).
    + intros x y Hx [<-|Hy]; [apply (S3 x (id, v)); cbn; auto|apply S3; cbn; auto].
Qed.

Lemma find_inr l id i : StronglySorted idlt l -> al_find l id = inr i ->
  exists l1 l2, l = l1 ++ l2 /\ length l1 = i /\ total l id = 0 /\ (forall w, StronglySorted idlt (l1 ++ (id, w) :: l2)).
Proof.
  intros S E. pose proof (bsearch_spec (fun a : asset => fst a ?= id) l) as B. change (bsearch _ l) with (al_find l id) in B. rewrite E in B.
  destruct B as (l1 & l2 & -> & L & F & G).
  exists l1, l2. pose proof S as S'. apply ss_app in S. destruct S as (S1 & S2 & S3).
  assert (H2 : forall a, In a l2 -> id < fst a).
  { destruct l2 as [|y l2]; [intros a []|]. apply N.compare_gt_iff in G. inversion S2; subst. rewrite Forall_forall in H2.
    intros a [<-|Ha]; auto. pose proof (H2 a Ha) as Q. unfold idlt in Q. lia. }
  split; auto. split; auto. split.
  - rewrite total_app, !total_none; auto; intros a Ha; [pose proof (H2 a Ha)|pose proof (cmp_lt _ _ F a Ha)]; lia.
  - intro w. apply ss_app. repeat split; auto.
    + constructor; auto. apply Forall_forall. intros x Hx. apply H2; auto.
    + intros x y Hx [<-|Hy]; [apply (cmp_lt _ _ F x Hx)|apply S3; auto].
Qed.

Lemma al_get_value_total l id : al_ok l ->
  al_get_value l id = if total l id =? 0 then None else Some (total l id).
Proof.
  intros [S Z]. unfold al_get_value. destruct (al_find l id) as [i|i] eqn:E.
  - apply find_inl in E; auto. destruct E as (l1 & v & l2 & -> & <- & T1 & T2 & _).
    rewrite nth_app_mid, total_app. cbn [total option_map snd fst]. rewrite N.eqb_refl, T1, T2.
    replace (0 + (v + 0)) with v by lia.
    assert (v <> 0). { apply (Z (id, v)). apply in_or_app. cbn. auto. }
    destruct (N.eqb_spec v 0); congruence.
  - apply find_inr in E; auto. destruct E as (_ & _ & _ & _ & -> & _). reflexivity.
Qed.

Lemma al_value_total l id : al_ok l -> al_value l id = total l id.
Proof.
  intro O. unfold al_value. rewrite al_get_value_total by auto. destruct (N.eqb_spec (total l id) 0); auto.
Qed.

Lemma al_contains_total l a : al_ok l -> al_contains l a = (snd a <=? total l (fst a)).
Proof.
  intro O. unfold al_contains. rewrite al_get_value_total by auto.
  destruct (N.eqb_spec (snd a) 0) as [->|].
  - symmetry. apply N.leb_le. lia.
  - destruct (N.eqb_spec (total l (fst a)) 0) as [->|]; auto. symmetry. apply N.leb_gt. lia.
Qed.

Lemma zf_app l1 l2 : zero_free (l1 ++ l2) <-> zero_free l1 /\ zero_free l2.
Proof.
  unfold zero_free. split.
  - intro H. split; intros a Ha; apply H; apply in_or_app; auto.
  - intros [H1 H2] a Ha. apply in_app_or in Ha. destruct Ha; auto.
Qed.
Lemma zf_cons a l : zero_free (a :: l) <-> snd a <> 0 /\ zero_free l.
Proof.
  unfold zero_free. cbn [In]. split; [intro H; split; auto|]. intros [H1 H2] b [<-|]; auto.
Qed.

Lemma upd_total l1 l2 id v w : total l1 id = 0 -> total l2 id = 0 ->
  forall x, total (l1 ++ (id, w) :: l2) x = upd (total (l1 ++ (id, v) :: l2)) id w x.
Proof.
  intros T1 T2 x. unfold upd. rewrite !total_app. cbn [total fst snd].
  destruct (N.eqb_spec x id) as [->|Q]; [rewrite N.eqb_refl; lia|].
  destruct (N.eqb_spec id x); [congruence|lia].
Qed.
Lemma upd_total_rm l1 l2 id v : total l1 id = 0 -> total l2 id = 0 ->
  forall x, total (l1 ++ l2) x = upd (total (l1 ++ (id, v) :: l2)) id 0 x.
Proof.
  intros T1 T2 x. unfold upd. rewrite !total_app. cbn [total fst snd].
  destruct (N.eqb_spec x id) as [->|Q]; [lia|].
  destruct (N.eqb_spec id x); [congruence|lia].
Qed.

(** The entries are at most [vmax] because the totals are. *)
Lemma al_deposit_spec l a : al_ok l ->
  (total l (fst a) <= vmax -> snd a <= vmax ->
  match al_deposit l a with
  | Some l' => al_ok l' /\ total l (fst a) + snd a <= vmax /\
               forall x, total l' x = upd (total l) (fst a) (total l (fst a) + snd a) x
  | None => vmax < total l (fst a) + snd a
  end).
Proof.
  intros [S Z] TV AV. unfold al_deposit. destruct a as [id v]. cbn [fst snd] in *.
  destruct (N.eqb_spec v 0) as [->|NZ].
  { split; [split; auto|]. split; [lia|]. intro x. unfold upd. destruct (N.eqb_spec x id); subst; lia. }
  destruct (al_find l id) as [i|i] eqn:E.
  - apply find_inl in E; auto. destruct E as (l1 & u & l2 & -> & <- & T1 & T2 & _ & S').
    rewrite nth_app_mid. cbn [fst snd].
    assert (TU : total (l1 ++ (id, u) :: l2) id = u).
    { rewrite total_app. cbn [total fst snd]. rewrite N.eqb_refl. lia. }
    rewrite TU. destruct (N.ltb_spec vmax (u + v)); auto.
    rewrite vset_app. split; [split; auto|].
    + apply zf_app in Z. rewrite zf_cons in Z. apply zf_app. rewrite zf_cons. cbn [snd] in *. split; [tauto|split; [lia|tauto]].
    + split; auto. intro x. apply upd_total; auto.
  - apply find_inr in E; auto. destruct E as (l1 & l2 & -> & <- & T & S').
    rewrite vinsert_app. rewrite T in *. split; [split; auto|].
    + apply zf_app in Z. apply zf_app. rewrite zf_cons. cbn [snd]. tauto.
    + split; [lia|]. intro x. rewrite total_app in T.
      unfold upd. rewrite !total_app. cbn [total fst snd].
      destruct (N.eqb_spec x id) as [->|Q]; [rewrite N.eqb_refl; lia|].
      destruct (N.eqb_spec id x); [congruence|lia].
Qed.

Lemma al_withdraw_spec l a : al_ok l ->
  let '(l', ok) := al_withdraw l a in
  al_ok l' /\ ok = (snd a <=? total l (fst a)) /\
  if ok then forall x, total l' x = upd (total l) (fst a) (total l (fst a) - snd a) x else l' = l.
Proof.
  intros [S Z]. unfold al_withdraw. destruct a as [id v]. cbn [fst snd].
  destruct (N.eqb_spec v 0) as [->|NZ].
  { split; [split; auto|]. split; [symmetry; apply N.leb_le; lia|]. intro x. unfold upd. destruct (N.eqb_spec x id); subst; lia. }
  destruct (al_find l id) as [i|i] eqn:E.
  - apply find_inl in E; auto. destruct E as (l1 & u & l2 & -> & <- & T1 & T2 & S0 & S').
    rewrite nth_app_mid. cbn [fst snd].
    assert (TU : total (l1 ++ (id, u) :: l2) id = u).
    { rewrite total_app. cbn [total fst snd]. rewrite N.eqb_refl. lia. }
    rewrite TU. apply zf_app in Z. rewrite zf_cons in Z. cbn [snd] in Z.
    destruct (N.leb_spec v u).
    + unfold al_set_or_remove. destruct (N.eqb_spec (u - v) 0) as [Q|Q].
      * rewrite vremove_app. split; [split; auto; apply zf_app; tauto|].
        split; auto. rewrite Q. apply upd_total_rm; auto.
      * rewrite vset_app. split; [split; auto; apply zf_app; rewrite zf_cons; cbn [snd]; tauto|].
        split; auto. apply upd_total; auto.
    + split; [split; auto; apply zf_app; rewrite zf_cons; tauto|]. auto.
  - apply find_inr in E; auto. destruct E as (l1 & l2 & -> & <- & T & S').
    rewrite T. split; [split; auto|]. split; auto. symmetry. apply N.leb_gt. lia.
Qed.

Lemma al_withdraw_unchecked_eq l a :
  al_withdraw_unchecked l a = let '(l', ok) := al_withdraw l a in if ok then Some l' else None.
Proof.
  unfold al_withdraw_unchecked, al_withdraw. destruct (snd a =? 0); auto.
  destruct (al_find l (fst a)); auto. destruct (nth_error l n); auto. destruct (snd a <=? snd a0); auto.
Qed.

Lemma al_remove_spec l id : al_ok l ->
  let '(l', r) := al_remove l id in
  al_ok l' /\ r = (if total l id =? 0 then None else Some (total l id)) /\
  forall x, total l' x = upd (total l) id 0 x.
Proof.
  intros O. pose proof (al_get_value_total l id O) as G. destruct O as [S Z]. unfold al_remove.
  unfold al_get_value in G. destruct (al_find l id) as [i|i] eqn:E.
  - apply find_inl in E; auto. destruct E as (l1 & u & l2 & -> & <- & T1 & T2 & S0 & S').
    rewrite vremove_app. apply zf_app in Z. rewrite zf_cons in Z.
    split; [split; auto; apply zf_app; tauto|]. split; auto. apply upd_total_rm; auto.
  - apply find_inr in E; auto. destruct E as (l1 & l2 & -> & <- & T & S').
    split; [split; auto|]. split; auto. intro x. unfold upd. destruct (N.eqb_spec x id); subst; auto.
Qed.

Lemma filter_ss {A} (R : A -> A -> Prop) f l : StronglySorted R l -> StronglySorted R (filter f l).
Proof.
  induction 1; cbn [filter]; try constructor. destruct (f a); auto. constructor; auto.
  apply Forall_forall. intros x Hx. apply filter_In in Hx. rewrite Forall_forall in H0. apply H0. tauto.
Qed.
Lemma al_retain_ok f l : al_ok l -> al_ok (al_retain f l).
Proof.
  intros [S Z]. split. { apply filter_ss; auto. }
  intros a Ha. apply filter_In in Ha. apply Z. tauto.
Qed.

(** Operation sequences. *)
Definition bounded (b : ledger) : Prop := forall x, b x <= vmax.
Definition op_wf (o : aop) : Prop := match o with ADeposit a | AWithdraw a => snd a <= vmax | _ => True end.

Lemma spec_aop_ext b1 b2 o : (forall x, b1 x = b2 x) ->
  match spec_aop b1 o, spec_aop b2 o with
  | Some (c1, r1), Some (c2, r2) => r1 = r2 /\ forall x, c1 x = c2 x
  | None, None => True
  | _, _ => False
  end.
Proof.
  intro E. destruct o as [[id v]|[id v]|id|]; cbn [spec_aop]; rewrite ?E.
  - destruct (vmax <? b2 id + v); auto. split; auto. intro x. unfold upd. destruct (x =? id); auto.
  - destruct (v <=? b2 id); split; auto. intro x. unfold upd. destruct (x =? id); auto.
  - split; auto. intro x. unfold upd. destruct (x =? id); auto.
  - auto.
Qed.

Lemma al_op_spec l b o : al_ok l -> (forall x, total l x = b x) -> bounded b -> op_wf o ->
  match al_op l o, spec_aop b o with
  | Some (l', r), Some (b', r') => r = r' /\ al_ok l' /\ (forall x, total l' x = b' x) /\ bounded b'
  | None, None => True
  | _, _ => False
  end.
Proof.
  intros O E B W. pose proof (spec_aop_ext (total l) b o E) as X. destruct o as [a|a|id|]; cbn [al_op op_wf] in *.
  - destruct a as [id v]. pose proof (al_deposit_spec l (id, v) O) as D. cbn [fst snd] in *.
    rewrite E in D. specialize (D (B id) W). cbn [spec_aop].
    destruct (al_deposit l (id, v)) as [l'|]; cbn [option_map].
    + destruct D as (O' & D1 & D2). destruct (N.ltb_spec vmax (b id + v)); [lia|].
      split; auto. split; auto. split.
      * intro x. rewrite D2. unfold upd. destruct (x =? id); auto.
      * intro x. unfold upd. destruct (x =? id); auto.
    + destruct (N.ltb_spec vmax (b id + v)); auto. lia.
  - destruct a as [id v]. pose proof (al_withdraw_spec l (id, v) O) as D. cbn [fst snd] in *.
    destruct (al_withdraw l (id, v)) as [l' ok]. destruct D as (O' & -> & D). cbn [spec_aop]. rewrite E in *.
    destruct (N.leb_spec v (b id)).
    + split; auto. split; auto. split; [intro x; rewrite D; unfold upd; destruct (x =? id); auto|].
      intro x. unfold upd. destruct (x =? id); auto. specialize (B id). lia.
    + subst l'. auto.
  - pose proof (al_remove_spec l id O) as D. destruct (al_remove l id) as [l' r]. destruct D as (O' & -> & D).
    cbn [spec_aop]. rewrite E in *. split; auto. split; auto. split.
    + intro x. rewrite D. unfold upd. destruct (x =? id); auto.
    + intro x. unfold upd. destruct (x =? id); auto. lia.
  - cbn [spec_aop al_clear]. split; auto. split; [split; [constructor|intros a []]|]. split; auto. intro x. cbn. lia.
Qed.

Lemma al_ops_spec os : forall l b, al_ok l -> (forall x, total l x = b x) -> bounded b -> Forall op_wf os ->
  match al_ops l os, spec_aops b os with
  | Some (l', r), Some (b', r') => r = r' /\ al_ok l' /\ (forall x, total l' x = b' x) /\ bounded b'
  | None, None => True
  | _, _ => False
  end.
Proof.
  induction os as [|o os IH]; intros l b O E B W; cbn [al_ops spec_aops]. { auto. }
  inversion W; subst. pose proof (al_op_spec l b o O E B H1) as Q.
  destruct (al_op l o) as [[l1 r]|], (spec_aop b o) as [[b1 r']|]; auto; try contradiction.
  destruct Q as (-> & O1 & E1 & B1). specialize (IH l1 b1 O1 E1 B1 H2).
  destruct (al_ops l1 os) as [[l2 rs]|], (spec_aops b1 os) as [[b2 rs']|]; auto; try contradiction.
  destruct IH as (-> & ?). auto.
Qed.

(** ** Balance maps *)
Definition bm_ok (m : bmap) : Prop := forall id, m id <> Some 0.

Lemma bm_op_spec m b o : bm_ok m -> (forall x, bm_balance m x = b x) -> bounded b -> op_wf o ->
  match bm_op m o, spec_aop b o with
  | Some (m', r), Some (b', r') => r = r' /\ bm_ok m' /\ (forall x, bm_balance m' x = b' x) /\ bounded b'
  | None, None => True
  | _, _ => False
  end.
Proof.
  intros O E B W. destruct o as [[id v]|[id v]|id|]; cbn [bm_op op_wf fst snd] in *.
  - unfold bm_deposit. cbn [fst snd spec_aop]. destruct (N.eqb_spec v 0) as [->|NZ].
    { cbn [option_map]. pose proof (B id). destruct (N.ltb_spec vmax (b id + 0)); [lia|].
      split; auto. split; auto. split; intro x; unfold upd; destruct (N.eqb_spec x id); subst; auto; rewrite ?E; try lia. }
    pose proof (E id) as Ei. unfold bm_balance in Ei. destruct (m id) as [u|] eqn:M.
    + rewrite Ei. destruct (N.ltb_spec vmax (b id + v)); cbn [option_map]; auto.
      split; auto. split; [|split].
      * intro x. unfold bset. destruct (x =? id); auto. intro Q. injection Q as Q. lia.
      * intro x. specialize (E x). unfold upd, bm_balance, bset in *. destruct (x =? id); auto.
      * intro x. unfold upd. destruct (x =? id); auto.
    + cbn [option_map]. rewrite <- Ei. destruct (N.ltb_spec vmax (0 + v)); [lia|].
      split; auto. split; [|split].
      * intro x. unfold bset. destruct (x =? id); auto. intro Q. injection Q as Q. lia.
      * intro x. specialize (E x). unfold upd, bm_balance, bset in *. destruct (x =? id); auto.
      * intro x. unfold upd. destruct (x =? id); auto.
  - unfold bm_withdraw. cbn [fst snd spec_aop]. destruct (N.eqb_spec v 0) as [->|NZ]; cbn [negb].
    { destruct (N.leb_spec 0 (b id)); [|lia].
      split; auto. split; auto. split; intro x; unfold upd; destruct (N.eqb_spec x id); subst; auto; rewrite ?E; try lia.
      specialize (B id). lia. }
    pose proof (E id) as Ei. unfold bm_balance in Ei. destruct (m id) as [u|] eqn:M.
    + rewrite Ei. destruct (N.leb_spec v (b id)); auto.
      split; auto. split; [|split].
      * intro x. destruct (N.eqb_spec (b id - v) 0); unfold bset; destruct (x =? id); auto; try discriminate.
        intro Q. injection Q as Q. lia.
      * intro x. specialize (E x). unfold upd, bm_balance in *.
        destruct (N.eqb_spec (b id - v) 0); unfold bset; destruct (x =? id); auto.
      * intro x. unfold upd. destruct (x =? id); auto. specialize (B id). lia.
    + rewrite <- Ei. destruct (N.leb_spec v 0); [lia|]. auto.
  - cbn [spec_aop]. pose proof (E id) as Ei. pose proof (O id). unfold bm_balance in Ei. split.
    + f_equal. rewrite <- Ei. destruct (m id) as [u|]; auto. destruct (N.eqb_spec u 0); congruence.
    + split; [|split].
      * intro x. unfold bset. destruct (x =? id); auto. discriminate.
      * intro x. specialize (E x). unfold upd, bm_balance, bset in *. destruct (x =? id); auto.
      * intro x. unfold upd. destruct (x =? id); auto. lia.
  - cbn [spec_aop]. split; auto. split; [intro; discriminate|]. split; auto. intro. cbn. lia.
Qed.

Lemma bm_ops_spec os : forall m b, bm_ok m -> (forall x, bm_balance m x = b x) -> bounded b -> Forall op_wf os ->
  match bm_ops m os, spec_aops b os with
  | Some (m', r), Some (b', r') => r = r' /\ bm_ok m' /\ (forall x, bm_balance m' x = b' x) /\ bounded b'
  | None, None => True
  | _, _ => False
  end.
Proof.
  induction os as [|o os IH]; intros m b O E B W; cbn [bm_ops spec_aops]. { auto. }
  inversion W; subst. pose proof (bm_op_spec m b o O E B H1) as Q.
  destruct (bm_op m o) as [[l1 r]|], (spec_aop b o) as [[b1 r']|]; auto; try contradiction.
  destruct Q as (-> & O1 & E1 & B1). specialize (IH l1 b1 O1 E1 B1 H2).
  destruct (bm_ops l1 os) as [[l2 rs]|], (spec_aops b1 os) as [[b2 rs']|]; auto; try contradiction.
  destruct IH as (-> & ?). auto.
Qed.

(** Bulk deposits into a list. *)
Lemma al_deposit_all_spec xs : forall l, al_ok l -> (forall x, total l x <= vmax) -> Forall (fun a => snd a <= vmax) xs ->
  match al_deposit_all l xs with
  | Some l' => al_ok l' /\ (forall x, total l' x = total l x + total xs x) /\ (forall x, total l' x <= vmax)
  | None => exists x, vmax < total l x + total xs x
  end.
Proof.
  induction xs as [|a xs IH]; intros l O B W; cbn [al_deposit_all].
  - split; auto. split; auto. intro x. cbn. lia.
  - inversion W; subst. pose proof (al_deposit_spec l a O (B _) H1) as D.
    destruct (al_deposit l a) as [l'|].
    + destruct D as (O' & D1 & D2). assert (B' : forall x, total l' x <= vmax).
      { intro x. rewrite D2. unfold upd. destruct (x =? fst a); auto. }
      assert (A : forall x, total l' x + total xs x = total l x + total (a :: xs) x).
      { intro x. rewrite D2. cbn [total]. unfold upd. rewrite (N.eqb_sym x). destruct (N.eqb_spec (fst a) x); subst; lia. }
      specialize (IH l' O' B' H2). destruct (al_deposit_all l' xs) as [l''|].
      * destruct IH as (O'' & A' & B''). split; auto. split; auto. intro x. rewrite A', A. auto.
      * destruct IH as [x Hx]. exists x. rewrite <- A. auto.
    + exists (fst a). cbn [total]. rewrite N.eqb_refl. lia.
Qed.

Lemma bm_withdraw_ok m b a : bm_ok m -> (forall x, bm_balance m x = b x) ->
  let '(m', ok) := bm_withdraw m a in
  bm_ok m' /\ ok = (snd a <=? b (fst a)) /\
  if ok then forall x, bm_balance m' x = upd b (fst a) (b (fst a) - snd a) x else m' = m.
Proof.
  intros O E. destruct a as [id v]. cbn [fst snd]. unfold bm_withdraw. cbn [fst snd].
  destruct (N.eqb_spec v 0) as [->|NZ]; cbn [negb].
  { split; auto. split; [symmetry; apply N.leb_le; lia|]. intro x. rewrite E. unfold upd. destruct (N.eqb_spec x id); subst; lia. }
  pose proof (E id) as Ei. unfold bm_balance in Ei. destruct (m id) as [u|] eqn:M.
  - rewrite Ei. destruct (N.leb_spec v (b id)); auto. split; [|split]; auto.
    + intro x. destruct (N.eqb_spec (b id - v) 0); unfold bset; destruct (x =? id); auto; try discriminate.
      intro Q. injection Q as Q. lia.
    + intro x. specialize (E x). unfold upd, bm_balance in *.
      destruct (N.eqb_spec (b id - v) 0); unfold bset; destruct (x =? id); auto.
  - split; auto. split; auto. symmetry. apply N.leb_gt. lia.
Qed.

Lemma bm_withdraw_list_spec xs : forall m b, bm_ok m -> (forall x, bm_balance m x = b x) ->
  StronglySorted idlt xs ->
  let '(m', ok) := bm_withdraw_list m xs in
  bm_ok m' /\ (ok = true <-> forall x, total xs x <= b x) /\
  (ok = true -> forall x, bm_balance m' x = b x - total xs x) /\
  (ok = false -> exists done rest a, xs = done ++ a :: rest /\
      (forall x, total done x <= b x) /\ b (fst a) < snd a /\
      forall x, bm_balance m' x = b x - total done x).
Proof.
  induction xs as [|a xs IH]; intros m b O E S; cbn [bm_withdraw_list].
  - split; auto. split; [split; auto; intros _ x; cbn; lia|]. split; [|discriminate].
    intros _ x. rewrite E. cbn. lia.
  - inversion S; subst. pose proof (bm_withdraw_ok m b a O E) as W. destruct (bm_withdraw m a) as [m1 ok].
    destruct W as (O1 & Eok & W).
    assert (T0 : total xs (fst a) = 0).
    { apply total_none. intros y Hy. rewrite Forall_forall in H2. pose proof (H2 y Hy) as Q. unfold idlt in Q. lia. }
    destruct ok.
    + symmetry in Eok. apply N.leb_le in Eok.
      specialize (IH m1 (upd b (fst a) (b (fst a) - snd a)) O1 W H1).
      destruct (bm_withdraw_list m1 xs) as [m2 ok2]. destruct IH as (O2 & I1 & I2 & I3).
      split; auto. split; [|split].
      * rewrite I1. split; intros H x; specialize (H x); cbn [total] in *; unfold upd in *; rewrite (N.eqb_sym x) in *;
        destruct (N.eqb_spec (fst a) x); subst; lia.
      * intros Q x. rewrite I2 by auto. cbn [total]. unfold upd. rewrite (N.eqb_sym x). destruct (N.eqb_spec (fst a) x); subst; lia.
      * intro Q. destruct (I3 Q) as (dn & rest & c & -> & D1 & D2 & D3).
        exists (a :: dn), rest, c. split; auto.
        assert (Td : total dn (fst a) = 0). { rewrite total_app in T0. lia. }
        assert (Nc : fst c <> fst a).
        { rewrite Forall_forall in H2. pose proof (H2 c) as Q'. unfold idlt in Q'. 
          assert (In c (dn ++ c :: rest)) by (apply in_or_app; cbn; auto). specialize (Q' H). lia. }
        split; [|split].
        -- intro x. specialize (D1 x). cbn [total]. unfold upd in *. rewrite (N.eqb_sym x) in *. destruct (N.eqb_spec (fst a) x); subst; lia.
        -- unfold upd in D2. destruct (N.eqb_spec (fst c) (fst a)); [congruence|auto].
        -- intro x. rewrite D3. cbn [total]. unfold upd. rewrite (N.eqb_sym x). destruct (N.eqb_spec (fst a) x); subst; lia.
    + subst m1. symmetry in Eok. apply N.leb_gt in Eok. split; auto. split; [|split; [discriminate|]].
      * split; [discriminate|]. intro H. specialize (H (fst a)). cbn [total] in H. rewrite N.eqb_refl in H. lia.
      * intros _. exists [], xs, a. split; auto. split; [intro; cbn; lia|]. split; auto. intro x. rewrite E. cbn. lia.
Qed.
