(** Property C19: pruning of ledger replies. *)

From Coq Require Import List Arith Bool Lia Permutation.
From Verif Require Import CkModel CkSpec CkLemmas.
Import ListNotations.

(** The batch is the same, up to the order of notes of different shards. *)
Definition same_batch {U V} (sh : U -> nat) (d d' : sdata U V) : Prop :=
  nulls d' = nulls d /\ forall i, of_shard sh i (notes d') = of_shard sh i (notes d).

(** C19 (partial: the full claim is for every signer checkpoint; the code compares checkpoints
    lexicographically, and the claim holds when the signer is between the origin and the end
    of the reply in every counter, or is at or past the end in every counter; see the two
    refutations below for the rest).  Pruning then does not panic nor fail, keeps exactly the
    unseen nullifiers and notes, in order within each shard, and reports that it pruned
    whenever it removed something. *)
Theorem c19_prune_partial :
  forall (U V : Type) (sh : U -> nat) (origin signer last : ckpt) (d : sdata U V),
    (forall u, In u (notes d) -> sh u < length (recv origin)) ->
    advanced sh origin d last ->
    covers signer origin ->
    covers signer last \/ covers last signer ->
    exists b d',
      prune_sync_request sh signer origin d = Ret (Some (b, d')) /\
      pruned_right sh origin signer d d' /\
      (b = false -> same_batch sh d d').
Proof.
  intros U V sh o s c d Hsh Hc Hos Hcase.
  assert (Hu := updated_origin_advanced U V sh o d Hsh).
  assert (Ec : c = updated_origin sh o d).
  { destruct Hc as [L1 [N1 S1]], Hu as [L2 [N2 S2]].
    destruct c as [r x], (updated_origin sh o d) as [r' x']; cbn in *.
    f_equal; [|congruence]. apply nth_ext with (d := 0) (d' := 0); [congruence|].
    intros i Hi. unfold at_shard in *; cbn in *. rewrite N1, N2 by lia. reflexivity. }
  assert (Lo : length (recv s) = length (recv o)) by apply Hos.
  unfold prune_sync_request. rewrite (covers_not_lt _ _ Hos).
  unfold prune.
  destruct (ck_leb s o) eqn:Le.
  { assert (s = o) by (apply covers_leb_eq; auto). subst s.
    exists false, d. split; [reflexivity|]. split.
    - split.
      + now rewrite unseen_nulls_skipn, Nat.sub_diag.
      + intros i. rewrite unseen_shard, Nat.sub_diag. reflexivity.
    - intros _. split; auto. }
  destruct (ck_ltb (updated_origin sh o d) s) eqn:Lt.
  { exists true, (mk_sdata [] []). split; [reflexivity|]. split; [|discriminate].
    assert (Hall : covers s c).
    { destruct Hcase as [H|H]; auto. rewrite Ec in H.
      rewrite (covers_not_lt _ _ H) in Lt. discriminate. }
    destruct Hall as [L [H1 H2]]. destruct Hc as [Lc [Nc Sc]].
    split.
    - rewrite unseen_nulls_skipn, skipn_more; auto. lia.
    - intros i. cbn [notes]. rewrite unseen_shard. symmetry.
      destruct (Nat.lt_ge_cases i (length (recv o))) as [Hi|Hi].
      + apply skipn_more. specialize (Nc i Hi). specialize (H1 i).
        unfold count_shard in Nc. lia.
      + rewrite (of_shard_out U sh (length (recv o))) by auto. apply skipn_nil. }
  (* not past the end *)
  assert (Hbelow : covers c s).
  { destruct Hcase as [H|H]; auto.
    assert (E : updated_origin sh o d = s \/ ck_ltb (updated_origin sh o d) s = true).
    { rewrite <- Ec. unfold ck_ltb. destruct H as [L [N S]].
      unfold ck_cmp. rewrite lex_flip.
      pose proof (lex_ge _ _ L N) as NL.
      destruct (lex_cmp (recv s) (recv c)) eqn:E; cbn; try congruence; auto.
      apply lex_eq in E.
      destruct (send c ?= send s) eqn:F; auto.
      - apply Nat.compare_eq in F. left. destruct c, s; cbn in *; congruence.
      - apply Nat.compare_gt_iff in F; lia. }
    destruct E as [E|E]; [|congruence]. rewrite Ec, E.
    repeat split; auto. }
  destruct Hos as [_ [Hrec Hsend]]. destruct Hc as [Lc [Nc Sc]].
  destruct Hbelow as [_ [Hb1 Hb2]].
  destruct (Nat.ltb_spec (send s) (send o)); [lia|].
  destruct (Nat.ltb_spec (length (nulls d)) (send s - send o)); [lia|].
  assert (Hz : forall a b, In (a, b) (combine (recv o) (recv s)) -> a <= b).
  { intros a b Hin. destruct (In_nth _ _ (0, 0) Hin) as [i [Hi E]].
    rewrite nth_combine in E by auto. inversion E; subst. apply Hrec. }
  assert (Lz : length (combine (recv o) (recv s)) = length (recv o)).
  { rewrite combine_length. lia. }
  rewrite (prune_shards_spec U sh (notes d)); auto.
  2:{ intros j _. apply (dm_group_get U sh (notes d) [] []). intros i; reflexivity. }
  cbn [app].
  eexists _, _. split; [reflexivity|]. split.
  - split; cbn [nulls notes].
    + now rewrite unseen_nulls_skipn.
    + intros i. rewrite unseen_shard.
      destruct (Nat.lt_ge_cases i (length (recv o))) as [Hi|Hi].
      * rewrite kept_shard by lia. rewrite nth_combine by auto.
        rewrite Nat.sub_0_r. reflexivity.
      * rewrite kept_after by lia.
        rewrite (of_shard_out U sh (length (recv o)) (notes d)) by auto.
        symmetry; apply skipn_nil.
  - intros Hf. apply orb_false_iff in Hf. destruct Hf as [F1 F2].
    split; cbn [nulls notes].
    + destruct (Nat.ltb_spec 0 (send s - send o)); [discriminate|].
      replace (send s - send o) with 0 by lia. reflexivity.
    + intros i. destruct (Nat.lt_ge_cases i (length (recv o))) as [Hi|Hi].
      * apply lost_false_kept; auto; lia.
      * rewrite kept_after by lia.
        now rewrite (of_shard_out U sh (length (recv o)) (notes d)) by auto.
Qed.
Print Assumptions c19_prune_partial.

(** Two shards, notes are (shard, number); the signer has seen one note of shard 0, one of
    shard 1 and one nullifier of the reply. *)
Definition ex_notes : list (nat * nat) := [(1, 0); (0, 0); (1, 1); (0, 1); (0, 2)].

Example c19_prune_example :
  let d := mk_sdata ex_notes [10; 11] in
  let origin := mk_ckpt [4; 6] 7 in
  let signer := mk_ckpt [5; 7] 8 in
  let last := mk_ckpt [7; 8] 9 in
  (forall u, In u (notes d) -> fst u < length (recv origin)) /\
  advanced fst origin d last /\ covers signer origin /\ covers last signer /\
  prune_sync_request fst signer origin d
  = Ret (Some (true, mk_sdata [(0, 1); (0, 2); (1, 1)] [11])).
Proof.
  cbn zeta. split; [|split; [|split; [|split]]].
  - intros u H. cbn in H. repeat (destruct H as [<-|H]; [cbn; lia|]). destruct H.
  - split; [reflexivity|]. split; [|reflexivity].
    intros [|[|i]] Hi; cbn in *; auto; lia.
  - split; [reflexivity|]. split; [|cbn; lia].
    intros [|[|[|i]]]; cbn; auto.
  - split; [reflexivity|]. split; [|cbn; lia].
    intros [|[|[|i]]]; cbn; auto.
  - vm_compute. reflexivity.
Qed.

(** C19 refuted: the signer is ahead of the origin in every counter and the reply still holds
    notes it has never seen, yet everything is dropped, because the order of checkpoints is
    lexicographic.  The notes of shard 1 are lost until a later reply starts past them. *)
Theorem c19_drops_unseen_refuted :
  exists (origin signer last : ckpt) (d : sdata (nat * nat) nat) d',
    advanced fst origin d last /\ covers signer origin /\
    prune_sync_request fst signer origin d = Ret (Some (true, d')) /\
    of_shard fst 1 (notes d') = [] /\
    of_shard fst 1 (unseen fst (at_shard signer) (at_shard origin) (notes d))
      = [(1, 0); (1, 1); (1, 2)].
Proof.
  exists (mk_ckpt [0; 0] 0), (mk_ckpt [2; 0] 0), (mk_ckpt [1; 3] 0),
         (mk_sdata [(0, 0); (1, 0); (1, 1); (1, 2)] []), (mk_sdata [] []).
  split; [|split; [|split; [|split]]].
  - split; [reflexivity|]. split; [|reflexivity].
    intros [|[|i]] Hi; cbn in *; auto; lia.
  - split; [reflexivity|]. split; [|cbn; lia].
    intros [|[|[|i]]]; cbn; auto.
  - vm_compute. reflexivity.
  - reflexivity.
  - vm_compute. reflexivity.
Qed.
Print Assumptions c19_drops_unseen_refuted.

(** C19 refuted: a signer that has seen more nullifiers than the reply holds panics. *)
Theorem c19_panics_refuted :
  exists (origin signer : ckpt) (d : sdata (nat * nat) nat),
    covers signer origin /\ prune_sync_request fst signer origin d = Panic.
Proof.
  exists (mk_ckpt [0; 0] 0), (mk_ckpt [0; 0] 5), (mk_sdata [(0, 0)] [1; 2]).
  split.
  - split; [reflexivity|]. split; [|cbn; lia].
    intros [|[|[|i]]]; cbn; auto.
  - vm_compute. reflexivity.
Qed.
Print Assumptions c19_panics_refuted.

(** C19 refuted: a signer that is behind the origin in one shard is not told that the
    synchronization is inconsistent, it panics. *)
Theorem c19_incomparable_refuted :
  exists (origin signer : ckpt) (d : sdata (nat * nat) nat),
    ~ covers signer origin /\ prune_sync_request fst signer origin d = Panic.
Proof.
  exists (mk_ckpt [0; 1] 0), (mk_ckpt [1; 0] 0), (mk_sdata [(0, 0); (1, 1)] []).
  split.
  - intros [_ [H _]]. specialize (H 1). cbn in H. lia.
  - vm_compute. reflexivity.
Qed.
Print Assumptions c19_incomparable_refuted.

(** The order between shards is not kept (order within a shard is, by [c19_prune_partial]). *)
Theorem c19_order_refuted :
  exists (origin signer : ckpt) (d d' : sdata (nat * nat) nat),
    prune_sync_request fst signer origin d = Ret (Some (true, d')) /\
    notes d = [(1, 0); (0, 0)] /\ notes d' = [(0, 0); (1, 0)].
Proof.
  exists (mk_ckpt [0; 0] 0), (mk_ckpt [0; 0] 1), (mk_sdata [(1, 0); (0, 0)] [1]),
         (mk_sdata [(0, 0); (1, 0)] []).
  split; [vm_compute; reflexivity|]. split; reflexivity.
Qed.
Print Assumptions c19_order_refuted.
