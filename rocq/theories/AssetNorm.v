(** Proofs about normalisation and consolidation requests. *)
From Coq Require Import List NArith Arith Bool Lia.
From Verif Require Import AssetModel AssetSpec AssetLemmas.
Import ListNotations.
Open Scope N_scope.

Definition ids (l : list asset) : list N := map fst l.

Lemma sum_add_spec r a : NoDup (ids r) ->
  match sum_add r a with
  | Some r' => NoDup (ids r') /\ (forall x, total r' x = total r x + total [a] x) /\
               (forall x, In x (ids r') <-> x = fst a \/ In x (ids r))
  | None => vmax < total r (fst a) + snd a
  end.
Proof.
  induction r as [|[id v] r IH]; intro ND; cbn [sum_add].
  - split; [constructor; auto; constructor|]. split; [intro x; cbn; lia|]. intro x. cbn. split; [intros [<-|[]]; auto|intros [->|[]]; auto].
  - inversion ND as [|? ? N1 N2]; subst. fold (ids r) in *. cbn [fst] in N1. destruct (N.eqb_spec id (fst a)) as [->|Q].
    + destruct (N.ltb_spec vmax (v + snd a)).
      * cbn [total fst snd]. rewrite N.eqb_refl. lia.
      * split; [constructor; auto|]. split.
        -- intro x. cbn [total fst snd]. destruct (N.eqb_spec (fst a) x); lia.
        -- intro x. cbn. fold (ids r). split; intros [|]; auto.
    + specialize (IH N2). destruct (sum_add r a) as [r'|].
      * destruct IH as (A & B & C). split; [|split].
        -- cbn [ids map fst]. constructor; auto. fold (ids r'). rewrite C. intros [|]; [congruence|auto].
        -- intro x. cbn [total fst snd] in *. rewrite B. lia.
        -- intro x. cbn [ids map fst In]. fold (ids r') (ids r). rewrite C. tauto.
      * cbn [total fst]. destruct (N.eqb_spec id (fst a)); [congruence|lia].
Qed.

Lemma sum_loop_spec xs : forall r, NoDup (ids r) ->
  match sum_loop r xs with
  | Some r' => NoDup (ids r') /\ (forall x, total r' x = total r x + total xs x) /\
               (forall x, In x (ids r') <-> In x (ids xs) \/ In x (ids r))
  | None => exists x, vmax < total r x + total xs x
  end.
Proof.
  induction xs as [|a xs IH]; intros r ND; cbn [sum_loop].
  - split; auto. split; [intro; cbn; lia|]. intro x. cbn. tauto.
  - pose proof (sum_add_spec r a ND) as S. destruct (sum_add r a) as [r1|].
    + destruct S as (A & B & C). specialize (IH r1 A). destruct (sum_loop r1 xs) as [r2|].
      * destruct IH as (D & E & F). split; auto. split.
        -- intro x. rewrite E, B. cbn [total]. lia.
        -- intro x. rewrite F, C. cbn. intuition congruence.
      * destruct IH as [x Hx]. exists x. rewrite B in Hx. cbn [total] in *. lia.
    + exists (fst a). cbn [total]. rewrite N.eqb_refl. lia.
Qed.

Lemma position_spec l id :
  match position l id with
  | Some j => exists l1 b l2, l = l1 ++ b :: l2 /\ length l1 = j /\ fst b = id
  | None => ~ In id (ids l)
  end.
Proof.
  induction l as [|a l IH]; cbn [position]. { auto. }
  destruct (N.eqb_spec (fst a) id).
  - exists [], a, l. auto.
  - destruct (position l id) as [j|]; cbn [option_map].
    + destruct IH as (l1 & b & l2 & -> & <- & E). exists (a :: l1), b, l2. auto.
    + cbn. fold (ids l). intros [|]; auto.
Qed.

Lemma nd_mid l1 b l2 : NoDup (ids (l1 ++ b :: l2)) ->
  NoDup (ids (l1 ++ l2)) /\ ~ In (fst b) (ids l1) /\ ~ In (fst b) (ids l2) /\
  total l1 (fst b) = 0 /\ total l2 (fst b) = 0 /\
  forall v, NoDup (ids (l1 ++ (fst b, v) :: l2)).
Proof.
  unfold ids. rewrite !map_app. cbn [map]. intro N. pose proof (NoDup_remove _ _ _ N) as [N1 N2].
  assert (A1 : ~ In (fst b) (map fst l1)) by (intro; apply N2; apply in_or_app; auto).
  assert (A2 : ~ In (fst b) (map fst l2)) by (intro; apply N2; apply in_or_app; auto).
  repeat split; auto.
  - apply total_none. intros a Ha E. apply A1. rewrite <- E. apply in_map. auto.
  - apply total_none. intros a Ha E. apply A2. rewrite <- E. apply in_map. auto.
  - intro v. rewrite map_app. exact N.
Qed.

Definition neq_totals (d w : list asset) : Prop :=
  forall x, In x (ids d) -> In x (ids w) -> total d x <> total w x.
Definition disjoint (d w : list asset) : Prop := forall x, In x (ids d) -> ~ In x (ids w).

Lemma ids_app l1 l2 : ids (l1 ++ l2) = ids l1 ++ ids l2.
Proof. apply map_app. Qed.
Lemma in_ids_mid x l1 b l2 : In x (ids (l1 ++ b :: l2)) <-> x = fst b \/ In x (ids (l1 ++ l2)).
Proof. rewrite !ids_app. cbn [ids map]. fold (ids l2). rewrite !in_app_iff. cbn [In]. intuition congruence. Qed.
Lemma total_mid x l1 b l2 : total (l1 ++ b :: l2) x = (if fst b =? x then snd b else 0) + total (l1 ++ l2) x.
Proof. rewrite !total_app. cbn [total]. lia. Qed.

Lemma norm_loop_spec fuel : forall i d w, (length d <= fuel + i)%nat -> NoDup (ids d) -> NoDup (ids w) ->
  exists d' w', norm_loop fuel i d w = Some (d', w') /\
    (forall x, total d' x + total w x = total d x + total w' x) /\
    (forall x, In x (ids d') -> In x (ids d)) /\ (forall x, In x (ids w') -> In x (ids w)) /\
    NoDup (ids d') /\ NoDup (ids w') /\
    (neq_totals d w -> (forall x, In x (ids (firstn i d)) -> ~ In x (ids w)) -> disjoint d' w').
Proof.
  induction fuel as [|fuel IH]; intros i d w Hf Nd Nw; cbn [norm_loop].
  - destruct (nth_error d i) as [a|] eqn:E.
    { assert (i < length d)%nat by (apply nth_error_Some; congruence). lia. }
    exists d, w. repeat split; auto. intros _ H x Hx. apply H. rewrite firstn_all2; auto.
  - destruct (nth_error d i) as [a|] eqn:E.
    2: { exists d, w. repeat split; auto. intros _ H x Hx. apply H. rewrite firstn_all2; auto. apply nth_error_None. auto. }
    apply nth_error_split in E. destruct E as (d1 & d2 & -> & Li). subst i.
    pose proof (nd_mid _ _ _ Nd) as (D1 & D2 & D3 & D4 & D5 & D6).
    pose proof (position_spec w (fst a)) as P. destruct (position w (fst a)) as [j|].
    + destruct P as (w1 & b & w2 & -> & Lj & Eb). subst j. rewrite nth_app_mid.
      pose proof (nd_mid _ _ _ Nw) as (W1 & W2 & W3 & W4 & W5 & W6).
      assert (Fi : firstn (length d1) (d1 ++ a :: d2) = d1).
      { rewrite firstn_app, firstn_all, Nat.sub_diag. apply app_nil_r. }
      assert (Ta : total (d1 ++ d2) (fst a) = 0) by (rewrite total_app; lia).
      assert (Tb : total (w1 ++ w2) (fst b) = 0) by (rewrite total_app; lia).
      assert (Na : ~ In (fst a) (ids (d1 ++ d2))) by (rewrite ids_app, in_app_iff; tauto).
      assert (Nb : ~ In (fst b) (ids (w1 ++ w2))) by (rewrite ids_app, in_app_iff; tauto).
      destruct (N.ltb_spec (snd b) (snd a)) as [Hlt|Hge].
      * rewrite vremove_app. rewrite vset_app.
        destruct (IH (S (length d1)) (d1 ++ (fst a, snd a - snd b) :: d2) (w1 ++ w2)) as (d' & w' & E & N1 & N2 & N3 & N4 & N5 & N6); auto.
        { rewrite app_length in *. cbn [length] in *. lia. }
        exists d', w'. split; auto. split; [|split; [|split; [|split; [|split]]]]; auto.
        -- intro x. specialize (N1 x). rewrite !total_mid in *. cbn [fst snd] in *. rewrite Eb.
           destruct (N.eqb_spec (fst a) x); lia.
        -- intros x Hx. apply N2 in Hx. rewrite in_ids_mid in *. auto.
        -- intros x Hx. apply N3 in Hx. rewrite in_ids_mid. auto.
        -- intros NE Pre. apply N6.
           ++ intros x H1 H2. rewrite in_ids_mid in H1. cbn [fst] in H1. destruct H1 as [->|H1]; [rewrite <- Eb in H2; tauto|].
              specialize (NE x). rewrite !in_ids_mid, !total_mid in NE. rewrite !total_mid. cbn [fst snd].
              assert (Q : fst a <> x) by (intro Q; rewrite Q in Na; tauto). rewrite Eb in NE.
              destruct (N.eqb_spec (fst a) x); [congruence|]. apply NE; auto.
           ++ intros x Hx.
              replace (firstn (S (length d1)) (d1 ++ (fst a, snd a - snd b) :: d2)) with (d1 ++ [(fst a, snd a - snd b)]) in Hx.
              2: { rewrite firstn_app, firstn_all2 by lia. replace (S (length d1) - length d1)%nat with 1%nat by lia. reflexivity. }
              rewrite ids_app, in_app_iff in Hx. cbn in Hx. destruct Hx as [Hx|[<-|[]]]; [|rewrite <- Eb; auto].
              intro H2. rewrite Fi in Pre. apply (Pre x Hx). rewrite in_ids_mid. auto.
      * destruct (N.ltb_spec (snd a) (snd b)) as [Hlt|Hge2].
        -- rewrite vset_app. rewrite vremove_app.
           destruct (IH (length d1) (d1 ++ d2) (w1 ++ (fst b, snd b - snd a) :: w2)) as (d' & w' & E & N1 & N2 & N3 & N4 & N5 & N6); auto.
           { rewrite app_length in *. cbn [length] in *. lia. }
           exists d', w'. split; auto. split; [|split; [|split; [|split; [|split]]]]; auto.
           ++ intro x. specialize (N1 x). rewrite !total_mid in *. cbn [fst snd] in *. rewrite Eb in *.
              destruct (N.eqb_spec (fst a) x); lia.
           ++ intros x Hx. apply N2 in Hx. rewrite in_ids_mid in *. auto.
           ++ intros x Hx. apply N3 in Hx. rewrite in_ids_mid in *. cbn [fst] in *. auto.
           ++ intros NE Pre. apply N6.
              ** intros x H1 H2. rewrite in_ids_mid in H2. cbn [fst] in H2. destruct H2 as [->|H2]; [rewrite Eb in H1; tauto|].
                 specialize (NE x). rewrite !in_ids_mid, !total_mid in NE. rewrite !total_mid. cbn [fst snd]. rewrite Eb in *.
                 assert (Q : fst a <> x) by (intro Q; rewrite Q in Na; tauto).
                 destruct (N.eqb_spec (fst a) x); [congruence|]. apply NE; auto.
              ** intros x Hx. rewrite firstn_app, firstn_all, Nat.sub_diag, app_nil_r in Hx.
                 rewrite Fi in Pre. specialize (Pre x Hx). rewrite in_ids_mid in *. auto.
        -- rewrite vremove_app. rewrite vremove_app.
           destruct (IH (S (length d1)) (d1 ++ d2) (w1 ++ w2)) as (d' & w' & E & N1 & N2 & N3 & N4 & N5 & N6); auto.
           { rewrite app_length in *. cbn [length] in *. lia. }
           exists d', w'. split; auto. split; [|split; [|split; [|split; [|split]]]]; auto.
           ++ intro x. specialize (N1 x). rewrite !total_mid. rewrite Eb. destruct (N.eqb_spec (fst a) x); lia.
           ++ intros x Hx. apply N2 in Hx. rewrite in_ids_mid. auto.
           ++ intros x Hx. apply N3 in Hx. rewrite in_ids_mid. auto.
           ++ intros NE. exfalso. apply (NE (fst a)).
              ** rewrite in_ids_mid. auto.
              ** rewrite in_ids_mid. auto.
              ** rewrite !total_mid, Ta. rewrite Eb in Tb |- *. rewrite Tb, N.eqb_refl. lia.
    + destruct (IH (S (length d1)) (d1 ++ a :: d2) w) as (d' & w' & E & N1 & N2 & N3 & N4 & N5 & N6); auto.
      { lia. }
      exists d', w'. split; auto. split; [|split; [|split; [|split; [|split]]]]; auto.
      intros NE Pre. apply N6; auto. intros x Hx.
      replace (firstn (S (length d1)) (d1 ++ a :: d2)) with (d1 ++ [a]) in Hx.
      2: { rewrite firstn_app, firstn_all2 by lia. replace (S (length d1) - length d1)%nat with 1%nat by lia. reflexivity. }
      rewrite ids_app, in_app_iff in Hx. cbn in Hx. destruct Hx as [Hx|[<-|[]]]; auto.
      apply Pre. rewrite firstn_app, firstn_all, Nat.sub_diag, app_nil_r. auto.
Qed.

(** ** Consolidation requests *)
Lemma iasset_eqb_spec x y : iasset_eqb x y = true <-> x = y.
Proof.
  destruct x as [a [b c]], y as [d [e f]]. unfold iasset_eqb. cbn [fst snd].
  rewrite !andb_true_iff, !N.eqb_eq. split; [intros (-> & -> & ->)|intro H; injection H as -> -> ->]; auto.
Qed.

Lemma existsb_eqb_In x l : existsb (iasset_eqb x) l = true <-> In x l.
Proof.
  rewrite existsb_exists. split.
  - intros (y & Hy & E). apply iasset_eqb_spec in E. subst. auto.
  - intro H. exists x. split; auto. apply iasset_eqb_spec. auto.
Qed.

Lemma existsb_seq f a n : existsb f (seq a n) = false <-> forall i, (a <= i < a + n)%nat -> f i = false.
Proof.
  split.
  - intros E i Hi. destruct (f i) eqn:F; auto. exfalso.
    assert (existsb f (seq a n) = true) by (apply existsb_exists; exists i; split; auto; apply in_seq; lia). congruence.
  - intro H. destruct (existsb f (seq a n)) eqn:E; auto. apply existsb_exists in E. destruct E as (i & Hi & F).
    apply in_seq in Hi. rewrite H in F by lia. discriminate.
Qed.

Lemma nodup_nth (l : list iasset) : NoDup l <->
  forall i p, nth_error l i = Some p -> ~ In p (skipn (S i) l).
Proof.
  split.
  - induction 1 as [|x l N ND IH]; intros i p E; [destruct i; discriminate|].
    destruct i; cbn in E |- *.
    + injection E as <-. auto.
    + apply (IH i p E).
  - induction l as [|x l IH]; intro H; constructor.
    + apply (H O x). reflexivity.
    + apply IH. intros i p E. apply (H (S i) p E).
Qed.

Lemma cr_new_spec l :
  cr_new l = Some l <->
  (2 <= length l)%nat /\ NoDup l /\
  (forall x y, In x l -> In y l -> fst (snd x) = fst (snd y)) /\
  (forall x, In x (tl l) -> snd (snd x) <> 0).
Proof.
  unfold cr_new. destruct l as [|a [|b l]].
  - split; [discriminate|]. cbn. intros (? & _). lia.
  - split; [discriminate|]. cbn. intros (? & _). lia.
  - set (L := a :: b :: l).
    assert (E : existsb (cr_bad L (fst (snd a))) (seq 1 (length L - 1)) = false <->
       (NoDup L /\ forall x, In x (b :: l) -> fst (snd x) = fst (snd a) /\ snd (snd x) <> 0)).
    { rewrite existsb_seq. split.
      - intro H. split.
        + apply nodup_nth. intros i p Ep. destruct (Nat.lt_ge_cases (S i) (length L)) as [C|C].
          * specialize (H (S i) ltac:(lia)). unfold cr_bad in H. replace (S i - 1)%nat with i in H by lia.
            rewrite Ep in H. destruct (nth_error L (S i)) as [y|] eqn:Ey; [|apply nth_error_None in Ey; lia].
            apply orb_false_iff in H. destruct H as [H _]. apply orb_false_iff in H. destruct H as [H _].
            intro Q. apply existsb_eqb_In in Q. congruence.
          * rewrite skipn_all2 by lia. auto.
        + intros x Hx. apply In_nth_error in Hx. destruct Hx as [n Hn].
          assert (Ln : (n < length (b :: l))%nat) by (apply nth_error_Some; congruence).
          specialize (H (S n)). unfold cr_bad in H. change (nth_error L (S n)) with (nth_error (b :: l) n) in H.
          rewrite Hn in H. destruct (nth_error L (S n - 1)) as [p|] eqn:Ep.
          2: { apply nth_error_None in Ep. unfold L in Ep. cbn [length] in *. lia. }
          assert (Hb : (1 <= S n < 1 + (length L - 1))%nat) by (unfold L; cbn [length] in *; lia).
          specialize (H Hb). apply orb_false_iff in H. destruct H as [H H2]. apply orb_false_iff in H. destruct H as [_ H1].
          apply negb_false_iff, N.eqb_eq in H1. apply N.eqb_neq in H2. auto.
      - intros [ND H] i Hi. unfold cr_bad.
        destruct (nth_error L (i - 1)) as [p|] eqn:Ep; auto. destruct (nth_error L i) as [x|] eqn:Ex; auto.
        destruct i; [lia|]. replace (S i - 1)%nat with i in Ep by lia.
        apply orb_false_iff. split; [apply orb_false_iff; split|].
        + destruct (existsb _ _) eqn:Q; auto. apply existsb_eqb_In in Q.
          rewrite nodup_nth in ND. destruct (ND i p Ep Q).
        + change (nth_error L (S i)) with (nth_error (b :: l) i) in Ex. apply nth_error_In in Ex.
          apply negb_false_iff, N.eqb_eq. apply H. auto.
        + change (nth_error L (S i)) with (nth_error (b :: l) i) in Ex. apply nth_error_In in Ex.
          apply N.eqb_neq. apply H. auto. }
    change (match existsb (cr_bad L (fst (snd a))) (seq 1 (length L - 1)) with true => None | false => Some L end = Some L <->
      (2 <= length L)%nat /\ NoDup L /\ (forall x y, In x L -> In y L -> fst (snd x) = fst (snd y)) /\
      (forall x, In x (b :: l) -> snd (snd x) <> 0)).
    destruct (existsb _ _).
    + split; [discriminate|]. intros (_ & H1 & H2 & H3).
      assert (Q : true = false); [|discriminate]. apply E. split; auto. intros x Hx. split; auto.
      apply H2; unfold L; cbn; auto.
    + destruct E as [E _]. specialize (E eq_refl). destruct E as [E1 E2]. split; auto. intros _.
      split; [unfold L; cbn [length]; lia|]. split; auto. split.
      * assert (K : forall x, In x L -> fst (snd x) = fst (snd a)).
        { intros x [<-|Hx]; auto. apply E2; auto. }
        intros x y Hx Hy. rewrite K, (K y); auto.
      * intros x Hx. apply E2. auto.
Qed.

Lemma cr_new_some l r : cr_new l = Some r -> r = l.
Proof.
  unfold cr_new. destruct l as [|a [|b l]]; try discriminate.
  destruct (existsb _ _); intro H; inversion H. auto.
Qed.

Lemma vsum_spec l : forall acc, acc + sumv l <= vmax -> vsum acc l = Some (acc + sumv l).
Proof.
  induction l as [|v l IH]; intros acc H; cbn [vsum sumv] in *. { f_equal. lia. }
  destruct (N.ltb_spec vmax (acc + v)); [lia|]. rewrite IH by lia. f_equal. lia.
Qed.

(** No total grows. *)
Lemma norm_loop_le fuel : forall i d w d' w', norm_loop fuel i d w = Some (d', w') ->
  forall x, total d' x <= total d x /\ total w' x <= total w x.
Proof.
  induction fuel as [|fuel IH]; intros i d w d' w' E x; cbn [norm_loop] in E.
  - destruct (nth_error d i); [discriminate|]. assert (d' = d) by congruence. assert (w' = w) by congruence. subst. lia.
  - destruct (nth_error d i) as [a|] eqn:Ea; [|assert (d' = d) by congruence; assert (w' = w) by congruence; subst; lia].
    apply nth_error_split in Ea. destruct Ea as (d1 & d2 & -> & Li). subst i.
    pose proof (position_spec w (fst a)) as P. destruct (position w (fst a)) as [j|].
    + destruct P as (w1 & b & w2 & -> & Lj & Eb). subst j. rewrite nth_app_mid in E.
      rewrite !vremove_app, !vset_app in E.
      destruct (N.ltb_spec (snd b) (snd a)); [|destruct (N.ltb_spec (snd a) (snd b))]; apply IH with (x := x) in E;
        rewrite ?total_mid in *; cbn [fst snd] in *; destruct (fst a =? x), (fst b =? x); lia.
    + apply IH with (x := x) in E. exact E.
Qed.
