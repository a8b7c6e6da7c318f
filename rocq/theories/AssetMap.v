(** Proofs about asset maps: a map is exactly the set of (key, asset) pairs inserted and
    not removed. *)
From Coq Require Import List NArith Arith Bool Lia Sorted.
From Verif Require Import AssetModel AssetSpec AssetLemmas.
Import ListNotations.
Open Scope N_scope.

Definition alt (a b : asset) : Prop := fst a < fst b \/ (fst a = fst b /\ snd a < snd b).
Definition klt (a b : N * list asset) : Prop := fst a < fst b.

Lemma asset_cmp_spec a b :
  match asset_cmp a b with Lt => alt a b | Eq => a = b | Gt => alt b a end.
Proof.
  destruct a as [i v], b as [j w]. unfold asset_cmp, alt. cbn [fst snd].
  destruct (N.compare_spec i j); [|lia|lia]. subst. destruct (N.compare_spec v w); subst; auto; lia.
Qed.
Lemma alt_irrefl a : ~ alt a a.
Proof. unfold alt. lia. Qed.
Lemma alt_trans a b c : alt a b -> alt b c -> alt a c.
Proof. unfold alt. lia. Qed.

Definition am_ok (m : amap) : Prop :=
  StronglySorted klt m /\ forall k l, In (k, l) m -> l <> [] /\ StronglySorted alt l.

Lemma asearch_spec l a : StronglySorted alt l ->
  match bsearch (fun b => asset_cmp b a) l with
  | inl j => exists l1 l2, l = l1 ++ a :: l2 /\ length l1 = j /\ ~ In a l1 /\ ~ In a l2
  | inr j => exists l1 l2, l = l1 ++ l2 /\ length l1 = j /\ ~ In a l /\ StronglySorted alt (l1 ++ a :: l2)
  end.
Proof.
  intro S. pose proof (bsearch_spec (fun b => asset_cmp b a) l) as B.
  destruct (bsearch (fun b => asset_cmp b a) l) as [j|j].
  - destruct B as (l1 & x & l2 & -> & L & C & F). pose proof (asset_cmp_spec x a) as Q. rewrite C in Q. subst x.
    exists l1, l2. apply ss_app in S. destruct S as (S1 & S2 & S3). repeat split; auto.
    + intro H. apply (alt_irrefl a). apply S3; cbn; auto.
    + inversion S2; subst. rewrite Forall_forall in H2. intro H. apply (alt_irrefl a). auto.
  - destruct B as (l1 & l2 & -> & L & F & G). exists l1, l2. apply ss_app in S. destruct S as (S1 & S2 & S3).
    assert (A1 : forall x, In x l1 -> alt x a).
    { intros x Hx. rewrite Forall_forall in F. specialize (F x Hx). pose proof (asset_cmp_spec x a) as Q. cbv beta in F. rewrite F in Q. auto. }
    assert (A2 : forall x, In x l2 -> alt a x).
    { destruct l2 as [|y l2]; [intros x []|]. pose proof (asset_cmp_spec y a) as Q. rewrite G in Q.
      inversion S2; subst. rewrite Forall_forall in H2. intros x [<-|Hx]; auto. eapply alt_trans; eauto. }
    split; auto. split; auto. split.
    + rewrite in_app_iff. intros [H|H]; apply (alt_irrefl a); auto.
    + apply ss_app. split; auto. split.
      * constructor; auto. apply Forall_forall. auto.
      * intros x y Hx [<-|Hy]; auto.
Qed.

Lemma msearch_spec m k : StronglySorted klt m ->
  match am_find m k with
  | inl i => exists m1 l m2, m = m1 ++ (k, l) :: m2 /\ length m1 = i /\
      (forall e, In e m1 -> fst e < k) /\ (forall e, In e m2 -> k < fst e)
  | inr i => exists m1 m2, m = m1 ++ m2 /\ length m1 = i /\
      (forall e, In e m1 -> fst e < k) /\ (forall e, In e m2 -> k < fst e)
  end.
Proof.
  intro S. pose proof (bsearch_spec (fun e : N * list asset => fst e ?= k) m) as B.
  change (bsearch _ m) with (am_find m k) in B.
  destruct (am_find m k) as [j|j].
  - destruct B as (l1 & [k' x] & l2 & -> & L & C & F). cbn [fst] in C. apply N.compare_eq_iff in C. subst k'.
    exists l1, x, l2. apply ss_app in S. destruct S as (S1 & S2 & S3). repeat split; auto.
    + intros e He. rewrite Forall_forall in F. apply N.compare_lt_iff. apply (F e He).
    + inversion S2; subst. rewrite Forall_forall in H2. intros e He. apply (H2 e He).
  - destruct B as (l1 & l2 & -> & L & F & G). exists l1, l2. apply ss_app in S. destruct S as (S1 & S2 & S3).
    repeat split; auto.
    + intros e He. rewrite Forall_forall in F. apply N.compare_lt_iff. apply (F e He).
    + destruct l2 as [|y l2]; [intros x []|]. apply N.compare_gt_iff in G.
      inversion S2; subst. rewrite Forall_forall in H2. intros e [<-|He]; auto.
      specialize (H2 e He). unfold klt in H2. lia.
Qed.

Lemma ss_mid m1 k (l : list asset) m2 : StronglySorted klt (m1 ++ m2) ->
  (forall e, In e m1 -> fst e < k) -> (forall e, In e m2 -> k < fst e) ->
  StronglySorted klt (m1 ++ (k, l) :: m2).
Proof.
  intros S H1 H2. apply ss_app in S. destruct S as (S1 & S2 & S3). apply ss_app. split; auto. split.
  - constructor; auto. apply Forall_forall. intros e He. apply (H2 e He).
  - intros x y Hx [<-|Hy]; auto. apply (H1 x Hx).
Qed.
Lemma ss_unmid m1 e (m2 : amap) : StronglySorted klt (m1 ++ e :: m2) -> StronglySorted klt (m1 ++ m2).
Proof.
  intro S. apply ss_app in S. destruct S as (S1 & S2 & S3). inversion S2; subst. apply ss_app. split; auto. split; auto.
  intros x y Hx Hy. apply S3; cbn; auto.
Qed.

Lemma in_vec m k a : In (k, a) (am_asset_vector m) <-> exists l, In (k, l) m /\ In a l.
Proof.
  unfold am_asset_vector. rewrite in_flat_map. split.
  - intros ([k' l] & He & H). cbn [fst snd] in H. apply in_map_iff in H. destruct H as (a' & E & Ha). injection E as -> ->. eauto.
  - intros (l & H1 & H2). exists (k, l). split; auto. cbn [fst snd]. apply in_map_iff. eauto.
Qed.

Lemma am_insert_spec m k a : am_ok m ->
  am_ok (am_insert m k a) /\
  forall k' a', In (k', a') (am_asset_vector (am_insert m k a)) <->
    (k', a') = (k, a) \/ In (k', a') (am_asset_vector m).
Proof.
  intros [S O]. unfold am_insert. pose proof (msearch_spec m k S) as M.
  destruct (am_find m k) as [i|i].
  - destruct M as (m1 & l & m2 & -> & <- & L1 & L2). unfold amap in *. rewrite nth_app_mid.
    assert (Ol : l <> [] /\ StronglySorted alt l) by (apply (O k); rewrite in_app_iff; cbn; auto).
    destruct Ol as [Ne Sl]. pose proof (asearch_spec l a Sl) as A.
    destruct (bsearch (fun b => asset_cmp b a) l) as [j|j].
    + split; [split; auto|]. intros k' a'. split; auto. intros [E|]; auto. injection E as -> ->.
      apply in_vec. exists l. split; [rewrite in_app_iff; cbn; auto|].
      destruct A as (l1 & l2 & -> & _). rewrite in_app_iff. cbn. auto.
    + destruct A as (l1 & l2 & -> & <- & Na & Sa). rewrite vinsert_app, vset_app. split; [split|].
      * apply ss_mid; auto. apply ss_unmid in S. auto.
      * intros k' l' H. rewrite in_app_iff in H. cbn [In] in H. destruct H as [H|[H|H]].
        -- apply (O k'). rewrite in_app_iff. auto.
        -- injection H as <- <-. split; auto. destruct l1; discriminate.
        -- apply (O k'). rewrite in_app_iff. cbn. auto.
      * intros k' a'. rewrite !in_vec. split.
        -- intros (l' & H & Ha). rewrite in_app_iff in H. cbn [In] in H. destruct H as [H|[H|H]].
           ++ right. exists l'. rewrite in_app_iff. auto.
           ++ injection H as <- <-. rewrite in_app_iff in Ha. cbn [In] in Ha. destruct Ha as [Ha|[<-|Ha]]; auto;
                right; exists (l1 ++ l2); rewrite !in_app_iff; cbn; auto.
           ++ right. exists l'. rewrite in_app_iff. cbn. auto.
        -- intros [E|(l' & H & Ha)].
           ++ injection E as -> ->. exists (l1 ++ a :: l2). rewrite !in_app_iff. cbn. auto.
           ++ rewrite in_app_iff in H. cbn [In] in H. destruct H as [H|[H|H]].
              ** exists l'. rewrite in_app_iff. auto.
              ** injection H as <- <-. exists (l1 ++ a :: l2). rewrite in_app_iff in Ha. rewrite !in_app_iff. cbn. tauto.
              ** exists l'. rewrite in_app_iff. cbn. auto.
  - destruct M as (m1 & m2 & -> & <- & L1 & L2). rewrite vinsert_app. split; [split|].
    + apply ss_mid; auto.
    + intros k' l' H. rewrite in_app_iff in H. cbn [In] in H. destruct H as [H|[H|H]].
      * apply (O k'). rewrite in_app_iff. auto.
      * injection H as <- <-. split; [discriminate|]. constructor; auto. constructor.
      * apply (O k'). rewrite in_app_iff. auto.
    + intros k' a'. rewrite !in_vec. split.
      * intros (l' & H & Ha). rewrite in_app_iff in H. cbn [In] in H. destruct H as [H|[H|H]].
        -- right. exists l'. rewrite in_app_iff. auto.
        -- injection H as <- <-. destruct Ha as [<-|[]]. auto.
        -- right. exists l'. rewrite in_app_iff. auto.
      * intros [E|(l' & H & Ha)].
        -- injection E as -> ->. exists [a]. rewrite in_app_iff. cbn. auto.
        -- exists l'. rewrite in_app_iff in *. cbn. tauto.
Qed.

Lemma am_remove_spec m k a : am_ok m ->
  let '(m', r) := am_remove m k a in
  am_ok m' /\ (r = true <-> In (k, a) (am_asset_vector m)) /\
  forall k' a', In (k', a') (am_asset_vector m') <->
    (k', a') <> (k, a) /\ In (k', a') (am_asset_vector m).
Proof.
  intros [S O]. unfold am_remove. pose proof (msearch_spec m k S) as M.
  destruct (am_find m k) as [i|i].
  - destruct M as (m1 & l & m2 & -> & <- & L1 & L2). unfold amap in *. rewrite nth_app_mid.
    assert (Ol : l <> [] /\ StronglySorted alt l) by (apply (O k); rewrite in_app_iff; cbn; auto).
    assert (U : forall l', In (k, l') (m1 ++ (k, l) :: m2) -> l' = l).
    { intros l' H. rewrite in_app_iff in H. cbn [In] in H. destruct H as [H|[H|H]].
      - apply L1 in H. cbn in H. lia.
      - congruence.
      - apply L2 in H. cbn in H. lia. }
    destruct Ol as [Ne Sl]. pose proof (asearch_spec l a Sl) as A.
    destruct (bsearch (fun b => asset_cmp b a) l) as [j|j].
    + destruct A as (l1 & l2 & -> & <- & Na1 & Na2). rewrite vremove_app.
      assert (Sn : StronglySorted alt (l1 ++ l2)).
      { apply ss_app in Sl. destruct Sl as (S1 & S2 & S3). inversion S2; subst. apply ss_app. split; auto. split; auto.
        intros; apply S3; cbn; auto. }
      assert (R : In (k, a) (am_asset_vector (m1 ++ (k, l1 ++ a :: l2) :: m2))).
      { apply in_vec. exists (l1 ++ a :: l2). rewrite !in_app_iff. cbn. auto. }
      assert (K : forall k' a', In (k', a') (am_asset_vector (m1 ++ (k, l1 ++ l2) :: m2)) <->
        (k', a') <> (k, a) /\ In (k', a') (am_asset_vector (m1 ++ (k, l1 ++ a :: l2) :: m2))).
      { intros k' a'. rewrite !in_vec. split.
        - intros (l' & H & Ha). rewrite in_app_iff in H. cbn [In] in H. destruct H as [H|[H|H]].
          + split; [intro E; injection E as -> ->; apply L1 in H; cbn in H; lia|]. exists l'. rewrite in_app_iff. auto.
          + injection H as <- <-. rewrite in_app_iff in Ha. split.
            * intro E; injection E as ->. tauto.
            * exists (l1 ++ a :: l2). rewrite !in_app_iff. cbn. tauto.
          + split; [intro E; injection E as -> ->; apply L2 in H; cbn in H; lia|]. exists l'. rewrite in_app_iff. cbn. auto.
        - intros (NE & l' & H & Ha). rewrite in_app_iff in H. cbn [In] in H. destruct H as [H|[H|H]].
          + exists l'. rewrite in_app_iff. auto.
          + injection H as <- <-. exists (l1 ++ l2). rewrite in_app_iff in Ha. rewrite !in_app_iff. cbn in *.
            split; auto. destruct Ha as [|[->|]]; auto. congruence.
          + exists l'. rewrite in_app_iff. cbn. auto. }
      destruct (l1 ++ l2) as [|x l'] eqn:El.
      * rewrite vremove_app. split; [split|split].
        -- apply ss_unmid in S. auto.
        -- intros k' l'' H. apply (O k'). rewrite in_app_iff in *. cbn. tauto.
        -- tauto.
        -- intros k' a'. rewrite <- K, !in_vec. split.
           ++ intros (l'' & H & Ha). exists l''. rewrite in_app_iff in *. cbn. tauto.
           ++ intros (l'' & H & Ha). exists l''. rewrite in_app_iff in *. cbn in H.
              destruct H as [|[H|]]; auto. injection H as <- <-. destruct Ha.
      * rewrite vset_app. rewrite <- El in *. split; [split|split].
        -- apply ss_mid; auto. apply ss_unmid in S. auto.
        -- intros k' l'' H. rewrite in_app_iff in H. cbn [In] in H. destruct H as [H|[H|H]].
           ++ apply (O k'). rewrite in_app_iff. auto.
           ++ injection H as <- <-. split; auto. rewrite El. discriminate.
           ++ apply (O k'). rewrite in_app_iff. cbn. auto.
        -- tauto.
        -- exact K.
    + destruct A as (l1 & l2 & -> & <- & Na & Sa). split; [split; auto|]. 
      assert (NI : ~ In (k, a) (am_asset_vector (m1 ++ (k, l1 ++ l2) :: m2))).
      { rewrite in_vec. intros (l' & H & Ha). apply U in H. subst. auto. }
      split; [split; [discriminate|tauto]|]. intros k' a'. split; [|tauto]. intro H. split; auto. intro E. rewrite E in H. tauto.
  - destruct M as (m1 & m2 & -> & <- & L1 & L2). split; [split; auto|].
    assert (NI : ~ In (k, a) (am_asset_vector (m1 ++ m2))).
    { rewrite in_vec. intros (l' & H & Ha). rewrite in_app_iff in H. destruct H as [H|H]; [apply L1 in H|apply L2 in H]; cbn in H; lia. }
    split; [split; [discriminate|tauto]|]. intros k' a'. split; [|tauto]. intro H. split; auto. intro E. rewrite E in H. tauto.
Qed.

Lemma ss_nodup {A} (R : A -> A -> Prop) l : (forall x, ~ R x x) -> StronglySorted R l -> NoDup l.
Proof.
  intro I. induction 1 as [|x l S IH F]; constructor; auto. intro H. rewrite Forall_forall in F. apply (I x). auto.
Qed.
Lemma nodup_map_pair (k : N) (l : list asset) : NoDup l -> NoDup (map (fun a => (k, a)) l).
Proof.
  induction 1; cbn; constructor; auto. intro H1. apply in_map_iff in H1. destruct H1 as (y & E & Hy). injection E as ->. auto.
Qed.
Lemma nodup_app {A} (a b : list A) : NoDup a -> NoDup b -> (forall x, In x a -> ~ In x b) -> NoDup (a ++ b).
Proof.
  induction 1; cbn; intros Nb H1; auto. constructor.
  - rewrite in_app_iff. intros [|]; auto. apply (H1 x); auto. 
  - apply IHNoDup; auto. 
Qed.

Lemma am_vector_nodup m : am_ok m -> NoDup (am_asset_vector m).
Proof.
  intros [S O]. unfold am_asset_vector. induction S as [|[k l] m S IH F]; cbn [flat_map fst snd]. { constructor. }
  apply nodup_app.
  - apply nodup_map_pair. apply (ss_nodup alt). { apply alt_irrefl. } apply (O k l). left. auto.
  - apply IH. intros k' l' H. apply (O k' l'). right. auto.
  - intros [k' a] H1 H2. apply in_map_iff in H1. destruct H1 as (a' & E & Ha). injection E as <- <-.
    apply in_vec in H2. destruct H2 as (l' & H2 & _). rewrite Forall_forall in F. specialize (F _ H2). unfold klt in F. cbn in F. lia.
Qed.

(** The assets of a map are the deposits of its entries. *)
Lemma am_flat m : flat_map snd m = map snd (am_asset_vector m).
Proof.
  unfold am_asset_vector. induction m as [|[k l] m IH]; auto. cbn [flat_map fst snd]. rewrite map_app, map_map, <- IH.
  f_equal. cbn. clear. induction l; cbn; congruence.
Qed.
