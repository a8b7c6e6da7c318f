(** Reading from the simulated ledger. *)
From Coq Require Import List Arith NArith Bool Lia.
From Verif Require Import MtModel MtSpec CkModel CkSpec LgModel LgSpec.
Import ListNotations.
Open Scope nat_scope.

Lemma of_shard_app {U} (f : U -> nat) i a b : of_shard f i (a ++ b) = of_shard f i a ++ of_shard f i b.
Proof. apply filter_app. Qed.

Lemma of_shard_all {U} (f : U -> nat) i l : (forall u, In u l -> f u = i) -> of_shard f i l = l.
Proof.
  induction l as [|u l IH]; intro F; [reflexivity|]. unfold of_shard in *. cbn [filter].
  rewrite (F u (or_introl eq_refl)), Nat.eqb_refl. f_equal. apply IH. intros x I. apply F. right. exact I.
Qed.

Lemma of_shard_none {U} (f : U -> nat) i l : (forall u, In u l -> f u <> i) -> of_shard f i l = [].
Proof.
  induction l as [|u l IH]; intro F; [reflexivity|]. unfold of_shard in *. cbn [filter].
  destruct (Nat.eqb_spec (f u) i) as [E|_]; [destruct (F u (or_introl eq_refl) E)|].
  apply IH. intros x I. apply F. right. exact I.
Qed.

(** The items of one shard of the concatenation of one list per shard. *)
Lemma of_shard_flat {U} (f : U -> nat) (g : nat -> list U) n i :
  (forall j u, In u (g j) -> f u = j) -> i < n ->
  of_shard f i (flat_map g (seq 0 n)) = g i.
Proof.
  intros F Hi.
  assert (G : forall m s, of_shard f i (flat_map g (seq s m)) = if (s <=? i) && (i <? s + m) then g i else []).
  { induction m as [|m IH]; intro s; cbn [seq flat_map].
    - destruct (Nat.leb_spec s i), (Nat.ltb_spec i (s + 0)); cbn; try reflexivity; lia.
    - rewrite of_shard_app, IH. destruct (Nat.eq_dec s i) as [->|Hs].
      + rewrite of_shard_all by (intros u I; apply (F i u I)).
        destruct (Nat.leb_spec (S i) i), (Nat.leb_spec i i), (Nat.ltb_spec i (i + S m)); cbn [andb]; try lia.
        apply app_nil_r.
      + rewrite of_shard_none by (intros u I E; apply Hs; rewrite <- (F s u I); exact E). cbn [app].
        destruct (Nat.leb_spec (S s) i), (Nat.leb_spec s i), (Nat.ltb_spec i (S s + m)), (Nat.ltb_spec i (s + S m));
          cbn [andb]; try reflexivity; lia. }
  rewrite G. cbn [Nat.leb Nat.add andb]. destruct (Nat.ltb_spec i n); [reflexivity|lia].
Qed.

Lemma in_of_shard {U} (f : U -> nat) i u l : In u (of_shard f i l) <-> In u l /\ f u = i.
Proof. unfold of_shard. rewrite filter_In, Nat.eqb_eq. reflexivity. Qed.

(** No duplicates if no shard has any. *)
Lemma nodup_by_shard {A B} (f : A -> nat) (us : list (A * B)) :
  (forall i, NoDup (map fst (of_shard (fun u => f (fst u)) i us))) -> NoDup (map fst us).
Proof.
  induction us as [|u us IH]; intro F; [constructor|]. cbn [map]. constructor.
  - intro I. apply in_map_iff in I. destruct I as (y & E & I).
    specialize (F (f (fst u))). unfold of_shard in F. cbn [filter] in F. rewrite Nat.eqb_refl in F.
    cbn [map] in F. inversion F as [|? ? F1 _]; subst. apply F1. rewrite <- E. apply in_map.
    apply filter_In. split; [exact I|]. rewrite E. apply Nat.eqb_refl.
  - apply IH. intro i. specialize (F i). unfold of_shard in *. cbn [filter] in F.
    destruct (f (fst u) =? i); [cbn [map] in F; inversion F; auto|exact F].
Qed.

Section Read.
Context {CM ON UT NT LD ID : Type}.
Variable nsh : UT * NT -> nat.
Notation lg := (ledger CM ON UT NT LD ID).

Lemma pull_shard (L : lg) (c : ckpt) i : (forall j u, In u (shard L j) -> nsh u = j) -> i < length (recv c) ->
  of_shard nsh i (notes (snd (pull L c))) = skipn (at_shard c i) (shard L i).
Proof.
  intros F Hi. unfold pull. cbn [snd notes].
  apply (of_shard_flat nsh (fun i => skipn (nth i (recv c) 0) (nth i (g_shards L) []))); [|exact Hi].
  intros j u I. apply F. unfold shard. rewrite <- (firstn_skipn (nth j (recv c) 0) (nth j (g_shards L) [])).
  apply in_or_app. right. exact I.
Qed.

Lemma pull_in (L : lg) (c : ckpt) u : (forall j u, In u (shard L j) -> nsh u = j) ->
  In u (notes (snd (pull L c))) -> nsh u < length (recv c) /\ In u (shard L (nsh u)).
Proof.
  intros F I. unfold pull in I. cbn [snd notes] in I. apply in_flat_map in I. destruct I as (j & Ij & I).
  assert (I' : In u (shard L j)).
  { unfold shard. rewrite <- (firstn_skipn (nth j (recv c) 0) (nth j (g_shards L) [])).
    apply in_or_app. right. exact I. }
  rewrite (F j u I'). apply in_seq in Ij. split; [lia|exact I'].
Qed.

(** The initial read: shard [i] from its [i]-th note on. *)
Lemma initial_read_utxos (L : lg) : fst (fst (snd (initial_read L))) =
  flat_map (fun i => map fst (skipn i (shard L i))) (seq 0 (length (g_shards L))).
Proof.
  unfold initial_read. cbn [fst snd]. generalize (length (g_shards L)). intro n.
  unfold shard. generalize 0 as s. induction n as [|n IH]; intro s; [reflexivity|].
  cbn [seq combine flat_map fst snd]. f_equal. apply IH.
Qed.

Lemma flat_map_length_eq {A} (f g : nat -> list A) n : (forall i, length (f i) <= length (g i)) ->
  forall s, length (flat_map f (seq s n)) = length (flat_map g (seq s n)) ->
  forall i, s <= i < s + n -> length (f i) = length (g i).
Proof.
  intro F.
  assert (G : forall n s, length (flat_map f (seq s n)) <= length (flat_map g (seq s n))).
  { clear n. induction n as [|n IH]; intro s; [apply Nat.le_refl|]. cbn [seq flat_map]. rewrite !app_length.
    pose proof (F s). pose proof (IH (S s)). lia. }
  induction n as [|n IH]; intros s E i Hi; [lia|]. cbn [seq flat_map] in E. rewrite !app_length in E.
  pose proof (F s). pose proof (G n (S s)). destruct (Nat.eq_dec i s) as [->|]; [lia|].
  apply (IH (S s)); lia.
Qed.

Lemma initial_read_complete (L : lg) :
  fst (fst (snd (initial_read L))) = flat_map (fun i => map fst (shard L i)) (seq 0 (length (g_shards L))) <->
  (forall i, 0 < i -> shard L i = []).
Proof.
  rewrite initial_read_utxos. split.
  - intros E i Hi.
    destruct (Nat.lt_ge_cases i (length (g_shards L))) as [Hl|Hl]; [|apply nth_overflow; exact Hl].
    assert (Y : length (map fst (skipn i (shard L i))) = length (map fst (shard L i))).
    { apply (flat_map_length_eq (fun i => map fst (skipn i (shard L i))) (fun i => map fst (shard L i))
        (length (g_shards L))) with (s := 0); [|rewrite E; reflexivity|lia].
      intro j. rewrite !map_length, skipn_length. lia. }
    rewrite !map_length, skipn_length in Y. destruct (shard L i); [reflexivity|]. cbn [length] in Y. lia.
  - intro F. generalize (length (g_shards L)), 0. intros n. induction n as [|n IH]; intro s; [reflexivity|].
    cbn [seq flat_map]. rewrite IH. f_equal. destruct s as [|s]; [reflexivity|].
    rewrite (F (S s)) by lia. reflexivity.
Qed.

End Read.
