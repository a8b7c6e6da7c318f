(** * Selection from iterators in parallel: the invariant *)
From Coq Require Import List Arith Bool Lia.
From Verif Require Import SaModel SaSpec SaLemmas.
Import ListNotations.

Section Inv.
Context {A : Type}.
Variables iterators threads consumer : nat.
Variable items : nat -> list A.
Notation state := (@state A).
Notation exec := (@exec A iterators threads consumer).

Record Inv (s : state) : Prop := {
  i_items : forall i, i < iterators -> from i (returned s) ++ channel s i ++ left s i = items i;
  i_nodup : NoDup (receivers s);
  i_range : forall r, In r (receivers s) -> r < iterators;
  i_drop : NoDup (drop_indices s);
  i_bound : Forall (fun d => d < length (receivers s)) (drop_indices s);
  i_dropped : forall j r, In j (drop_indices s) -> nth_error (receivers s) j = Some r -> at_place s r = Gone /\ channel s r = [];
  i_out : forall i, i < iterators -> ~ In i (receivers s) -> at_place s i = Gone /\ channel s i = [];
  i_gone : forall i, i < iterators -> at_place s i = Gone -> left s i = [];
  i_less : receivers s <> [] -> length (drop_indices s) < length (receivers s);
  i_end : ended s = true -> receivers s = [];
  i_wait : listening s = Waiting -> forall i, i < iterators -> at_place s i = Queued;
  i_closed : listening s = Closed -> forall i, i < iterators -> at_place s i = Gone
}.

Lemma inv_spawned : Inv (spawned iterators items).
Proof.
  constructor; cbn [spawned left at_place channel listening receivers drop_indices returned ended from filter map app]; auto; try discriminate.
  - apply seq_NoDup.
  - intros r I. apply in_seq in I. lia.
  - constructor.
  - intros j r [].
  - intros i B N. exfalso. apply N, in_seq. lia.
  - intros N. rewrite seq_length. cbn. destruct iterators; [now cbn in N|lia].
Qed.

Lemma set_same {T} (f : nat -> T) i v : set f i v i = v.
Proof. unfold set. now rewrite Nat.eqb_refl. Qed.
Lemma set_other {T} (f : nat -> T) i v j : j <> i -> set f i v j = f j.
Proof. intros N. unfold set. now rewrite (proj2 (Nat.eqb_neq j i)). Qed.
Ltac at_i k i := destruct (Nat.eq_dec k i) as [->|?]; [rewrite ?set_same in *|rewrite ?set_other in * by assumption].

Lemma inv_move s i p : Inv s -> i < iterators -> at_place s i <> Gone -> listening s <> Waiting ->
  (p = Gone -> left s i = []) -> Inv (move s i p).
Proof.
  intros [I1 I2 I3 I4 I5 I6 I7 I8 I9 I10 I11 I12] B N W G.
  constructor; cbn [move left at_place channel listening receivers drop_indices returned ended]; auto.
  - intros j r J E. at_i r i; [|eauto]. exfalso. apply N. now destruct (I6 _ _ J E).
  - intros k Bk O. at_i k i; [|eauto]. exfalso. apply N. now destruct (I7 _ Bk O).
  - intros k Bk E. at_i k i; eauto.
  - intros E. contradiction.
  - intros E k Bk. exfalso. apply N. now apply I12.
Qed.
Lemma inv_listen s l : Inv s -> l <> Waiting -> (l = Closed -> forall i, i < iterators -> at_place s i = Gone) -> Inv (listen s l).
Proof. intros [] N G. constructor; cbn; auto. intros E. contradiction. Qed.

Lemma from_app i (l m : list (nat * A)) : from i (l ++ m) = from i l ++ from i m.
Proof. unfold from. now rewrite filter_app, map_app. Qed.
Lemma member_in i l : member i l = true <-> In i l.
Proof. apply mem_in. Qed.

Lemma inv_send s i : Inv s -> i < iterators -> at_place s i = Running -> Inv (send_next s i).
Proof.
  intros V B P. assert (W : listening s <> Waiting) by (intros E; rewrite (i_wait s V E i B) in P; discriminate).
  assert (N : at_place s i <> Gone) by (rewrite P; discriminate).
  unfold send_next. destruct (left s i) as [|x r] eqn:L; [now apply inv_move|].
  assert (R : In i (receivers s)).
  { destruct (in_dec Nat.eq_dec i (receivers s)) as [R|R]; auto. destruct (i_out s V i B R). contradiction. }
  rewrite (proj2 (member_in i (receivers s)) R). destruct V as [I1 I2 I3 I4 I5 I6 I7 I8 I9 I10 I11 I12].
  constructor; cbn [left at_place channel listening receivers drop_indices returned ended]; auto.
  - intros k Bk. at_i k i; [|eauto]. rewrite <- (I1 i B), L, <- app_assoc. reflexivity.
  - intros j k J E. at_i k i; [|eauto]. exfalso. apply N. now destruct (I6 _ _ J E).
  - intros k Bk O. at_i k i; [contradiction|eauto].
  - intros k Bk E. at_i k i; [discriminate|eauto].
  - intros E. contradiction.
  - intros E k Bk. exfalso. apply N. now apply I12.
Qed.

Lemma inv_poll s j s' : Inv s -> ended s = false -> ~ In j (drop_indices s) -> poll s j = Some s' -> Inv s'.
Proof.
  intros V Ed Nj E. unfold poll in E. destruct (nth_error (receivers s) j) as [c|] eqn:Ej; [|discriminate].
  assert (Ic : In c (receivers s)) by (eapply nth_error_In; eauto).
  assert (Bj : j < length (receivers s)) by (apply nth_error_Some; congruence).
  pose proof V as [I1 I2 I3 I4 I5 I6 I7 I8 I9 I10 I11 I12].
  destruct (channel s c) as [|x b] eqn:C.
  - destruct (gone (at_place s c)) eqn:G; [|injection E as <-; exact V].
    assert (G' : at_place s c = Gone) by (destruct (at_place s c); auto; discriminate).
    assert (D : NoDup (drop_indices s ++ [j])).
    { apply NoDup_rev in I4. rewrite <- (rev_involutive (drop_indices s ++ [j])). apply NoDup_rev. rewrite rev_app_distr. cbn.
      constructor; auto. now rewrite <- in_rev. }
    assert (F : Forall (fun d => d < length (receivers s)) (drop_indices s ++ [j])).
    { apply Forall_app. split; auto. }
    assert (Dr : forall k r, In k (drop_indices s ++ [j]) -> nth_error (receivers s) k = Some r -> at_place s r = Gone /\ channel s r = []).
    { intros k r K Ek. apply in_app_iff in K. destruct K as [K|[<-|[]]]; [eauto|]. rewrite Ej in Ek. injection Ek as <-. auto. }
    destruct (Nat.eqb_spec (length (drop_indices s ++ [j])) (length (receivers s))) as [Le|Le]; injection E as <-.
    + constructor; cbn [left at_place channel listening receivers drop_indices returned ended]; auto.
      * apply NoDup_nil.
      * intros r [].
      * apply NoDup_nil.
      * intros k r [].
      * intros i B _. destruct (in_dec Nat.eq_dec i (receivers s)) as [R|R]; [|now apply I7].
        apply In_nth_error in R. destruct R as [k Ek]. refine (Dr k i _ Ek).
        assert (Bk : k < length (receivers s)) by (apply nth_error_Some; congruence).
        assert (All : incl (seq 0 (length (receivers s))) (drop_indices s ++ [j])).
        { apply NoDup_length_incl; auto; [rewrite seq_length; lia|]. intros y Y. rewrite Forall_forall in F. apply F in Y. apply in_seq. lia. }
        apply All, in_seq. lia.
      * intros []. reflexivity.
    + constructor; cbn [left at_place channel listening receivers drop_indices returned ended]; auto.
      intros Nr. specialize (I9 Nr). rewrite app_length in *. cbn in *. lia.
  - rewrite drop_without in E by exact I5. injection E as <-.
    constructor; cbn [left at_place channel listening receivers drop_indices returned ended]; auto.
    + intros i B. rewrite from_app. unfold from at 2. cbn [filter fst]. at_i i c.
      * rewrite Nat.eqb_refl. cbn [map snd]. rewrite <- (I1 c B), C, <- app_assoc. reflexivity.
      * rewrite (proj2 (Nat.eqb_neq c i)) by auto. cbn [map]. rewrite app_nil_r. auto.
    + now apply without_nodup.
    + intros r R. apply without_in in R. destruct R as (k & Ek & _). apply I3. eapply nth_error_In; eauto.
    + apply NoDup_nil.
    + intros k r [].
    + intros i B Nw. assert (X : at_place s i = Gone /\ channel s i = []).
      { destruct (in_dec Nat.eq_dec i (receivers s)) as [R|R]; [|now apply I7].
        apply In_nth_error in R. destruct R as [k Ek]. destruct (in_dec Nat.eq_dec k (drop_indices s)) as [K|K]; [now apply (I6 k i K Ek)|].
        exfalso. apply Nw. apply without_in. exists k. auto. }
      at_i i c; [|exact X]. destruct X as [_ X]. rewrite C in X. discriminate.
    + intros Nr. cbn. destruct (without 0 (drop_indices s) (receivers s)); [contradiction|cbn; lia].
    + intros X. congruence.
Qed.

Theorem inv_exec l s s' : Inv s -> exec l s = Some s' -> Inv s'.
Proof.
  intros V E. destruct l as [|i| |i|i|i|j|]; cbn [SaModel.exec] in E.
  - destruct (listening s) eqn:L; try discriminate. destruct (_ <? _); [|discriminate]. injection E as <-.
    apply inv_listen; auto; discriminate.
  - destruct (listening s) eqn:L; try discriminate. destruct (at_place s i) eqn:P; try discriminate.
    destruct (Nat.ltb_spec i iterators); [|discriminate]. injection E as <-. apply inv_move; auto; intros; congruence.
  - destruct (listening s) eqn:L; try discriminate. destruct (forallb _ _) eqn:F; [|discriminate]. injection E as <-.
    rewrite forallb_forall in F. apply inv_listen; auto; [discriminate|]. intros _ i B.
    specialize (F i ltac:(apply in_seq; lia)). destruct (at_place s i); auto; discriminate.
  - destruct (at_place s i) eqn:P; try discriminate. destruct (Nat.ltb_spec i iterators); [|discriminate].
    destruct (_ <? _); [|discriminate]. injection E as <-.
    apply inv_move; auto; try (intros; congruence). intros L. rewrite (i_wait s V L) in P; [discriminate|auto].
  - destruct (at_place s i) eqn:P; try discriminate. destruct (Nat.ltb_spec i iterators); [|discriminate]. injection E as <-.
    now apply inv_send.
  - destruct (at_place s i) eqn:P; try discriminate. destruct (Nat.ltb_spec i iterators); [|discriminate]. injection E as <-.
    apply inv_move; auto; try (intros; congruence). intros L. rewrite (i_wait s V L) in P; [discriminate|auto].
  - destruct (ended s) eqn:Ed; [discriminate|]. cbn [orb] in E. destruct (member j (drop_indices s)) eqn:M; [discriminate|].
    apply (inv_poll s j s' V Ed); auto. intros I. apply member_in in I. congruence.
  - destruct (receivers s) eqn:R; [|discriminate]. destruct (ended s) eqn:Ed; [discriminate|]. injection E as <-.
    pose proof V as [I1 I2 I3 I4 I5 I6 I7 I8 I9 I10 I11 I12]. rewrite R in *.
    constructor; cbn [left at_place channel listening receivers drop_indices returned ended]; auto.
    all: try apply NoDup_nil.
    all: try (intros k r []).
    all: intros X; contradiction.
Qed.
Theorem inv_run : forall ls s s', Inv s -> run iterators threads consumer ls s = Some s' -> Inv s'.
Proof.
  induction ls as [|l ls IH]; intros s s' V E; cbn [run] in E; [now injection E as <-|].
  destruct (exec l s) as [t|] eqn:X; [|discriminate]. eapply IH; [|exact E]. eapply inv_exec; eauto.
Qed.

(** ** What is left to do *)
Definition place_weight (p : place) : nat := match p with Queued => 3 | Spawned => 2 | Running => 1 | Sent => 4 | Gone => 0 end.
Definition weight (s : state) (i : nat) : nat := 7 * length (left s i) + length (channel s i) + place_weight (at_place s i).
Definition listener_weight (l : listener) : nat := match l with Waiting => 2 | Listening => 1 | Closed => 0 end.
Definition measure (s : state) : nat :=
  list_sum (map (weight s) (seq 0 iterators)) + (length (receivers s) - length (drop_indices s)) +
  listener_weight (listening s) + (if ended s then 0 else 1).

Lemma sum_at (f g : nat -> nat) i : i < iterators -> (forall j, j <> i -> g j = f j) ->
  list_sum (map g (seq 0 iterators)) + f i = list_sum (map f (seq 0 iterators)) + g i.
Proof.
  intros B H. rewrite <- (sum_set f i (g i) iterators B). f_equal. apply sum_ext. intros j _. at_i j i; auto.
Qed.
Lemma move_less s i p : i < iterators -> place_weight p < place_weight (at_place s i) -> measure (move s i p) < measure s.
Proof.
  intros B L. unfold measure. cbn [move listening receivers drop_indices ended].
  pose proof (sum_at (weight s) (weight (move s i p)) i B) as H.
  assert (E : weight (move s i p) i + place_weight (at_place s i) = weight s i + place_weight p)
    by (unfold weight; cbn [move left channel at_place]; rewrite set_same; lia).
  assert (F : forall j, j <> i -> weight (move s i p) j = weight s j)
    by (intros j N; unfold weight; cbn [move left channel at_place]; now rewrite set_other).
  specialize (H F). lia.
Qed.

(** Everything that happens decreases it, but for finding nothing to do in a channel, which changes nothing. *)
Theorem exec_less l s s' : Inv s -> exec l s = Some s' -> s' = s \/ measure s' < measure s.
Proof.
  intros V E. destruct l as [|i| |i|i|i|j|]; cbn [SaModel.exec] in E.
  - destruct (listening s) eqn:L; try discriminate. destruct (_ <? _); [|discriminate]. injection E as <-. right.
    unfold measure. cbn [listen listening receivers drop_indices ended]. rewrite L. cbn [listener_weight].
    change (weight (listen s Listening)) with (weight s). lia.
  - destruct (listening s) eqn:L; try discriminate. destruct (at_place s i) eqn:P; try discriminate.
    destruct (Nat.ltb_spec i iterators); [|discriminate]. injection E as <-. right. apply move_less; auto. rewrite P. cbn. lia.
  - destruct (listening s) eqn:L; try discriminate. destruct (forallb _ _) eqn:F; [|discriminate]. injection E as <-. right.
    unfold measure. cbn [listen listening receivers drop_indices ended]. rewrite L. cbn [listener_weight].
    change (weight (listen s Closed)) with (weight s). lia.
  - destruct (at_place s i) eqn:P; try discriminate. destruct (Nat.ltb_spec i iterators); [|discriminate].
    destruct (_ <? _); [|discriminate]. injection E as <-. right. apply move_less; auto. rewrite P. cbn. lia.
  - destruct (at_place s i) eqn:P; try discriminate. destruct (Nat.ltb_spec i iterators) as [B|]; [|discriminate]. injection E as <-. right.
    unfold send_next. destruct (left s i) as [|x r] eqn:L; [apply move_less; auto; rewrite P; cbn; lia|].
    destruct (member i (receivers s)).
    + match goal with |- measure ?t < _ => set (s' := t) end. pose proof (sum_at (weight s) (weight s') i B) as H.
      assert (Ei : weight s' i < weight s i).
      { unfold weight, s'. cbn [left channel at_place]. rewrite !set_same, L, P, app_length. cbn [length place_weight]. lia. }
      assert (F : forall j, j <> i -> weight s' j = weight s j)
        by (intros j N; unfold weight, s'; cbn [left channel at_place]; now rewrite !set_other).
      specialize (H F). unfold measure. change (receivers s') with (receivers s). change (drop_indices s') with (drop_indices s).
      change (listening s') with (listening s). change (ended s') with (ended s). lia.
    + match goal with |- measure ?t < _ => set (s' := t) end. pose proof (sum_at (weight s) (weight s') i B) as H.
      assert (Ei : weight s' i < weight s i).
      { unfold weight, s'. cbn [left channel at_place]. rewrite !set_same, L, P. cbn [length place_weight]. lia. }
      assert (F : forall j, j <> i -> weight s' j = weight s j)
        by (intros j N; unfold weight, s'; cbn [left channel at_place]; now rewrite !set_other).
      specialize (H F). unfold measure. change (receivers s') with (receivers s). change (drop_indices s') with (drop_indices s).
      change (listening s') with (listening s). change (ended s') with (ended s). lia.
  - destruct (at_place s i) eqn:P; try discriminate. destruct (Nat.ltb_spec i iterators); [|discriminate]. injection E as <-. right.
    apply move_less; auto. rewrite P. cbn. lia.
  - destruct (ended s) eqn:Ed; [discriminate|]. cbn [orb] in E. destruct (member j (drop_indices s)) eqn:M; [discriminate|].
    unfold poll in E. destruct (nth_error (receivers s) j) as [c|] eqn:Ej; [|discriminate].
    assert (Bj : j < length (receivers s)) by (apply nth_error_Some; congruence).
    assert (Less : length (drop_indices s) < length (receivers s)) by (apply (i_less s V); destruct (receivers s); [cbn in Bj; lia|discriminate]).
    destruct (channel s c) as [|x b] eqn:C.
    + destruct (gone (at_place s c)); [|injection E as <-; auto]. right.
      destruct (Nat.eqb_spec (length (drop_indices s ++ [j])) (length (receivers s))) as [Le|Le]; injection E as <-;
      unfold measure; cbn [listening receivers drop_indices ended]; rewrite Ed;
      match goal with |- list_sum (map (weight ?t) _) + _ + _ + _ < _ => change (weight t) with (weight s) end.
      * cbn [length]. lia.
      * rewrite app_length. cbn [length]. lia.
    + rewrite drop_without in E by exact (i_bound s V). injection E as <-. right.
      assert (B : c < iterators) by (apply (i_range s V); eapply nth_error_In; eauto).
      pose proof (without_length (receivers s) 0 (drop_indices s) (i_drop s V)) as WL.
      assert (LE : length (without 0 (drop_indices s) (receivers s)) + length (drop_indices s) = length (receivers s)).
      { apply WL. eapply Forall_impl; [|exact (i_bound s V)]. cbn. intros. lia. }
      match goal with |- measure ?t < _ => set (s' := t) end. pose proof (sum_at (weight s) (weight s') c B) as H.
      assert (Ei : weight s' c < weight s c).
      { unfold weight, s'. cbn [left channel at_place]. rewrite !set_same, C. cbn [length]. lia. }
      assert (F : forall j, j <> c -> weight s' j = weight s j)
        by (intros k N; unfold weight, s'; cbn [left channel at_place]; now rewrite !set_other).
      specialize (H F). unfold measure. change (receivers s') with (without 0 (drop_indices s) (receivers s)). change (drop_indices s') with (@nil nat).
      change (listening s') with (listening s). change (ended s') with (ended s). rewrite Ed. cbn [length]. lia.
  - destruct (receivers s) eqn:R; [|discriminate]. destruct (ended s) eqn:Ed; [discriminate|]. injection E as <-. right.
    unfold measure. cbn [listening receivers drop_indices ended]. rewrite Ed, R.
    match goal with |- list_sum (map (weight ?t) _) + _ + _ + _ < _ => change (weight t) with (weight s) end. cbn [length]. lia.
Qed.

(** Until [None] is returned something can happen, if the pool is large enough. *)
Lemma find_place (f : place -> bool) (s : state) : {i | i < iterators /\ f (at_place s i) = true} + {forall i, i < iterators -> f (at_place s i) = false}.
Proof.
  destruct (find (fun i => f (at_place s i)) (seq 0 iterators)) as [i|] eqn:E.
  - left. apply find_some in E. destruct E as [I E]. exists i. split; auto. apply in_seq in I. lia.
  - right. intros i B. apply (find_none _ _ E). apply in_seq. lia.
Qed.
Theorem can_go_on s : consumer + 2 <= threads -> Inv s -> ended s = false -> exists l s', exec l s = Some s' /\ s' <> s.
Proof.
  intros T V Ed.
  assert (Diff : forall s', measure s' < measure s -> s' <> s) by (intros s' L ->; lia).
  destruct (find_place (fun p => match p with Running => true | _ => false end) s) as [(i & B & P)|NR].
  { exists (Work i), (send_next s i). assert (E : exec (Work i) s = Some (send_next s i)).
    { cbn [SaModel.exec]. destruct (at_place s i); try discriminate. now rewrite (proj2 (Nat.ltb_lt _ _) B). }
    split; auto. intros X. assert (Y : at_place (send_next s i) i <> Running).
    { unfold send_next. destruct (left s i); cbn; [rewrite set_same; discriminate|].
      destruct (member i (receivers s)); cbn; rewrite set_same; discriminate. }
    rewrite X in Y. destruct (at_place s i); try discriminate. now apply Y. }
  destruct (find_place (fun p => match p with Sent => true | _ => false end) s) as [(i & B & P)|NS].
  { exists (Requeue i), (move s i Queued). destruct (at_place s i) eqn:Pi; try discriminate. split.
    - cbn [SaModel.exec]. now rewrite Pi, (proj2 (Nat.ltb_lt _ _) B).
    - apply Diff, move_less; auto. rewrite Pi. cbn. lia. }
  assert (Bu : busy iterators consumer s <= consumer + match listening s with Listening => 1 | _ => 0 end).
  { unfold busy. rewrite sum_zero; [lia|]. intros i B. specialize (NR i B). specialize (NS i B). cbn beta in *. destruct (at_place s i); auto; discriminate. }
  destruct (find_place (fun p => match p with Spawned => true | _ => false end) s) as [(i & B & P)|NP].
  { exists (Start i), (move s i Running). destruct (at_place s i) eqn:Pi; try discriminate. split.
    - cbn [SaModel.exec]. rewrite Pi, (proj2 (Nat.ltb_lt _ _) B). rewrite (proj2 (Nat.ltb_lt _ _)); [reflexivity|]. destruct (listening s); lia.
    - apply Diff, move_less; auto. rewrite Pi. cbn. lia. }
  destruct (find_place (fun p => match p with Queued => true | _ => false end) s) as [(i & B & P)|NQ].
  { destruct (at_place s i) eqn:Pi; try discriminate. destruct (listening s) eqn:L.
    - exists Listen, (listen s Listening). split; [cbn [SaModel.exec]; rewrite L, (proj2 (Nat.ltb_lt _ _)); [reflexivity|lia]|].
      intros X. apply (f_equal (@listening A)) in X. cbn in X. congruence.
    - exists (Take i), (move s i Spawned). split; [cbn [SaModel.exec]; now rewrite L, Pi, (proj2 (Nat.ltb_lt _ _) B)|].
      apply Diff, move_less; auto. rewrite Pi. cbn. lia.
    - rewrite (i_closed s V L i B) in Pi. discriminate. }
  assert (G : forall i, i < iterators -> at_place s i = Gone).
  { intros i B. specialize (NR i B). specialize (NS i B). specialize (NP i B). specialize (NQ i B). cbn beta in *. destruct (at_place s i); auto; discriminate. }
  destruct (receivers s) as [|c0 rs] eqn:R.
  { eexists End, _. split; [cbn [SaModel.exec]; rewrite R, Ed; reflexivity|]. intros X. apply (f_equal (@ended A)) in X. cbn in X. congruence. }
  assert (Less : length (drop_indices s) < length (receivers s)) by (apply (i_less s V); rewrite R; discriminate).
  assert (J : exists j, j < length (receivers s) /\ ~ In j (drop_indices s)).
  { destruct (find (fun j => negb (member j (drop_indices s))) (seq 0 (length (receivers s)))) as [j|] eqn:F.
    - apply find_some in F. destruct F as [I F]. apply in_seq in I. exists j. split; [lia|]. intros X. apply member_in in X. rewrite X in F. discriminate.
    - exfalso. assert (incl (seq 0 (length (receivers s))) (drop_indices s)) as Inc.
      { intros k K. apply (find_none _ _ F) in K. apply negb_false_iff in K. now apply member_in. }
      apply NoDup_incl_length in Inc; [|apply seq_NoDup]. rewrite seq_length in Inc. lia. }
  destruct J as (j & Bj & Nj). destruct (nth_error (receivers s) j) as [c|] eqn:Ej; [|apply nth_error_None in Ej; lia].
  assert (Bc : c < iterators) by (apply (i_range s V); eapply nth_error_In; eauto).
  assert (M : member j (drop_indices s) = false).
  { destruct (member j (drop_indices s)) eqn:M; auto. apply member_in in M. contradiction. }
  assert (X : exists s', exec (Poll j) s = Some s' /\ s' <> s).
  { cbn [SaModel.exec]. rewrite Ed, M. cbn [orb]. unfold poll. rewrite Ej. destruct (channel s c) as [|x b] eqn:C.
    - rewrite (G c Bc). cbn [gone].
      destruct (length (drop_indices s ++ [j]) =? length (receivers s)); eexists; (split; [reflexivity|]).
      + intros X. apply (f_equal (@ended A)) in X. cbn in X. congruence.
      + intros X. apply (f_equal (fun s => length (drop_indices s))) in X. cbn in X. rewrite app_length in X. cbn in X. lia.
    - rewrite drop_without by exact (i_bound s V). eexists. split; [reflexivity|].
      intros X. apply (f_equal (fun s => length (returned s))) in X. cbn in X. rewrite app_length in X. cbn in X. lia. }
  destruct X as (s' & X). exists (Poll j), s'. exact X.
Qed.
End Inv.
