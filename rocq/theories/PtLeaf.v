(** Lemmas on leaf maps. *)
From Coq Require Import List Arith Bool Lia.
From Verif Require Import MtModel PtModel.
Import ListNotations.

Lemma upd_length {A} (f : A -> A) : forall l i, length (upd l i f) = length l.
Proof. induction l; intros [|i]; cbn [upd length]; auto. Qed.

Lemma upd_nth {A} (f : A -> A) : forall l i j,
  nth_error (upd l i f) j = if Nat.eqb j i then option_map f (nth_error l j) else nth_error l j.
Proof.
  induction l as [|a l IH]; intros i j.
  - destruct i, j; cbn; auto. destruct (Nat.eqb j i); reflexivity.
  - destruct i as [|i], j as [|j]; cbn [upd nth_error Nat.eqb option_map]; auto.
Qed.

Section LM.
Context {LD : Type}.
Implicit Types lm : lmap LD.

Lemma lm_current_length lm lm' : length lm = length lm' -> lm_current lm = lm_current lm'.
Proof. unfold lm_current. intros ->. reflexivity. Qed.

Lemma lm_mark_length lm i : length (lm_mark lm i) = length lm.
Proof. apply upd_length. Qed.

Lemma lm_remove_length lm i : length (lm_remove lm i) = length lm.
Proof. unfold lm_remove. destruct (lm_current lm); auto. destruct (_ =? _); auto. apply upd_length. Qed.

Lemma lm_push_length lm x : length (lm_push lm x) = S (length lm).
Proof. unfold lm_push. rewrite app_length. cbn [length]. lia. Qed.

Lemma lm_extend_eq xs : forall lm, lm_extend lm xs = lm ++ map (fun x => Some (false, x)) xs.
Proof.
  unfold lm_extend. induction xs as [|x xs IH]; intro lm; cbn [fold_left map].
  - now rewrite app_nil_r.
  - rewrite IH. unfold lm_push. now rewrite <- app_assoc.
Qed.

Lemma lm_mark_nth lm i j : nth_error (lm_mark lm i) j =
  if Nat.eqb j i
  then match nth_error lm j with
       | Some (Some (_, x)) => Some (Some (true, x))
       | Some None => Some None
       | None => None
       end
  else nth_error lm j.
Proof.
  unfold lm_mark. rewrite upd_nth. destruct (Nat.eqb j i); auto.
  destruct (nth_error lm j) as [[[b x]|]|]; reflexivity.
Qed.

Lemma lm_current_some lm c : lm_current lm = Some c <-> length lm = S c.
Proof. unfold lm_current. destruct (length lm); split; intro E; congruence. Qed.

Lemma lm_remove_nth lm i j : S i < length lm -> nth_error (lm_remove lm i) j =
  if Nat.eqb j i then Some None else nth_error lm j.
Proof.
  intro Hi. unfold lm_remove. destruct (lm_current lm) as [c|] eqn:E.
  - apply lm_current_some in E. destruct (Nat.eqb_spec i c); [lia|]. rewrite upd_nth.
    destruct (Nat.eqb_spec j i) as [->|]; auto.
    destruct (nth_error lm i) eqn:F; auto. apply nth_error_None in F. lia.
  - unfold lm_current in E. destruct (length lm); [lia|discriminate].
Qed.

(** Marks, as a list over the whole map: [mark_range]. *)
Lemma marks_nth n : forall s lm j,
  nth_error (fold_left lm_mark (seq s n) lm) j =
  if (s <=? j) && (j <? s + n)
  then match nth_error lm j with
       | Some (Some (_, x)) => Some (Some (true, x))
       | o => o
       end
  else nth_error lm j.
Proof.
  induction n as [|n IH]; intros s lm j.
  - cbn [seq fold_left]. destruct (Nat.leb_spec s j), (Nat.ltb_spec j (s + 0)); cbn [andb]; auto. lia.
  - cbn [seq fold_left]. rewrite IH, lm_mark_nth.
    destruct (Nat.eqb_spec j s) as [->|Hj].
    + destruct (Nat.leb_spec (S s) s); [lia|]. cbn [andb].
      destruct (Nat.leb_spec s s); [|lia]. destruct (Nat.ltb_spec s (s + S n)); [|lia]. cbn [andb].
      destruct (nth_error lm s) as [[[b x]|]|]; reflexivity.
    + replace ((s <=? j) && (j <? s + S n)) with ((S s <=? j) && (j <? S s + n)); auto.
      destruct (Nat.leb_spec (S s) j), (Nat.leb_spec s j), (Nat.ltb_spec j (S s + n)),
        (Nat.ltb_spec j (s + S n)); cbn [andb]; auto; lia.
Qed.

Lemma marks_length n : forall s lm, length (fold_left lm_mark (seq s n) lm) = length lm.
Proof. induction n; intros; cbn [seq fold_left]; auto. rewrite IHn. apply lm_mark_length. Qed.

(** Dead leaves: marked or removed, and not the current one. *)
Lemma lm_mor_iff lm i : lm_mor lm i = true <->
  S i < length lm /\ (nth_error lm i = Some None \/ exists x, nth_error lm i = Some (Some (true, x))).
Proof.
  unfold lm_mor, lm_is_marked, lm_entry. destruct (lm_current lm) as [c|] eqn:E.
  - apply lm_current_some in E. destruct (Nat.leb_spec c i).
    + split; [discriminate|]. intros [? _]. lia.
    + destruct (nth_error lm i) as [[[b x]|]|] eqn:F; cbn [option_map fst].
      * split. { intros ->. split; [lia|]. right; eauto. }
        intros [_ [G|[y G]]]; congruence.
      * split; auto. intros _. split; [lia|auto].
      * apply nth_error_None in F. lia.
  - split; [discriminate|]. intros [Hl _]. unfold lm_current in E. destruct (length lm); [lia|discriminate].
Qed.

Lemma lm_mor_false_ge lm i : length lm <= S i -> lm_mor lm i = false.
Proof.
  intro. destruct (lm_mor lm i) eqn:E; auto. apply lm_mor_iff in E. lia.
Qed.

(** Removing dead leaves keeps them dead and the others unchanged. *)
Lemma lm_mor_remove lm i j : lm_mor lm i = true -> lm_mor (lm_remove lm i) j = lm_mor lm j.
Proof.
  intro D. pose proof (proj1 (lm_mor_iff _ _) D) as [Hi _].
  apply eq_true_iff_eq. rewrite !lm_mor_iff, lm_remove_length, lm_remove_nth by lia.
  destruct (Nat.eqb_spec j i) as [->|]; [|reflexivity].
  split; intros [? _]; split; auto. apply lm_mor_iff in D. apply D.
Qed.

(** Entries of a map without removed leaves. *)
Lemma lm_entries_full lm : (forall i, nth_error lm i <> Some None) -> lm = map Some (lm_entries lm).
Proof.
  induction lm as [|e lm IH]; intro F; auto.
  unfold lm_entries in *. cbn [flat_map]. destruct e as [p|].
  - cbn [app map]. f_equal. apply IH. intro i. apply (F (S i)).
  - exfalso. apply (F 0). reflexivity.
Qed.

Lemma lm_from_vec_nth xs (b : bool) i :
  nth_error (lm_from_vec xs b) i = option_map (fun x : LD => Some (b, x)) (nth_error xs i).
Proof. unfold lm_from_vec. apply nth_error_map. Qed.
End LM.

(** Positions. *)
Lemma find_pos_some {A} (f : A -> bool) : forall l i, find_pos f l = Some i ->
  exists x, nth_error l i = Some x /\ f x = true /\
    (forall j y, j < i -> nth_error l j = Some y -> f y = false).
Proof.
  induction l as [|a l IH]; intros i E; [discriminate|]. cbn [find_pos] in E.
  destruct (f a) eqn:F.
  - injection E as <-. exists a. split; auto. split; auto. intros; lia.
  - destruct (find_pos f l) as [k|] eqn:G; [|discriminate]. cbn in E. injection E as <-.
    destruct (IH k eq_refl) as (x & X1 & X2 & X3). exists x. split; auto. split; auto.
    intros [|j] y Hj Hy; cbn in Hy. { congruence. } apply (X3 j); auto. lia.
Qed.

Lemma find_pos_none {A} (f : A -> bool) : forall l, find_pos f l = None ->
  forall x, In x l -> f x = false.
Proof.
  induction l as [|a l IH]; intros E x Hx; [destruct Hx|]. cbn [find_pos] in E.
  destruct (f a) eqn:F; [discriminate|]. destruct (find_pos f l); [discriminate|].
  destruct Hx as [<-|Hx]; auto.
Qed.
