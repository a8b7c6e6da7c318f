(** Outcomes of posting on the simulated ledger: errors, panics, balances, spendable outputs. *)
From Coq Require Import List Arith NArith Bool Lia.
From Verif Require Import MtModel MtSpec MtLemmas MtInner MtInv MtFull MtSingle CkModel CkSpec LgModel LgSpec LgLemmas LgInv LgBal LgHist.
Import ListNotations.
Open Scope nat_scope.

Section Acc.
Context {CM ON UT NT LD ID : Type}.
Variable ovchk : bool.
Notation lg := (ledger CM ON UT NT LD ID).

Lemma debit_no_err id srcs : forall L : lg,
  (forall a v, In (a, v) srcs -> exists b, public_balance L a id = Some b) ->
  forall L' e, debit_all ovchk L id srcs <> (L', RErr e).
Proof.
  induction srcs as [|[a v] srcs IH]; intros L F L' e E; cbn [debit_all] in E; [discriminate|].
  destruct (F a v (or_introl eq_refl)) as (b & B). unfold public_balance in B.
  destruct (mget (g_accounts L) a) as [m|] eqn:Ma; [|discriminate]. rewrite B in E.
  destruct (vsub ovchk b v) as [b'|]; [|discriminate].
  apply IH in E; [exact E|]. intros a' v' I. destruct (F a' v' (or_intror I)) as (b2 & B2).
  unfold public_balance in *. cbn [with_accounts g_accounts]. rewrite mget_mset.
  destruct (N.eqb_spec a a') as [Ha|Ha].
  - rewrite mget_mset. destruct (N.eqb id id); [eauto|]. subst a'. rewrite Ma in B2. eauto.
  - eauto.
Qed.

Lemma debit_accounts id srcs : forall (L L' : lg) r, debit_all ovchk L id srcs = (L', r) ->
  forall a, (exists x, mget (g_accounts L') a = Some x) <-> (exists x, mget (g_accounts L) a = Some x).
Proof.
  induction srcs as [|[a v] srcs IH]; intros L L' r E a'; cbn [debit_all] in E.
  - injection E as <- _. reflexivity.
  - destruct (mget (g_accounts L) a) as [m|] eqn:Ma; [|injection E as <- _; reflexivity].
    destruct (mget m id) as [b|]; [|injection E as <- _; reflexivity].
    destruct (vsub ovchk b v) as [b'|]; [|injection E as <- _; reflexivity].
    rewrite (IH _ _ _ E). apply accounts_mset with (m := m). exact Ma.
Qed.

Lemma credit_no_err id snks : forall L : lg,
  (forall a, In a (map fst snks) -> exists m, mget (g_accounts L) a = Some m) ->
  forall L' e, credit_all ovchk L id snks <> (L', RErr e).
Proof.
  induction snks as [|[a v] snks IH]; intros L F L' e E; cbn [credit_all] in E; [discriminate|].
  destruct (F a (or_introl eq_refl)) as (m & Ma). rewrite Ma in E.
  destruct (vadd ovchk _ v) as [b'|]; [|discriminate].
  apply IH in E; [exact E|]. intros a' I. destruct (F a' (or_intror I)) as (m2 & M2).
  apply (accounts_mset L a m _ a' Ma). eauto.
Qed.

Lemma debit_frame id srcs : forall (L L' : lg) r, debit_all ovchk L id srcs = (L', r) ->
  forall a id', ~ In a (map fst srcs) -> balance L' a id' = balance L a id'.
Proof.
  induction srcs as [|[a v] srcs IH]; intros L L' r E a' id' NI; cbn [debit_all] in E.
  - injection E as <- _. reflexivity.
  - destruct (mget (g_accounts L) a) as [m|] eqn:Ma; [|injection E as <- _; reflexivity].
    destruct (mget m id) as [b|]; [|injection E as <- _; reflexivity].
    destruct (vsub ovchk b v) as [b'|]; [|injection E as <- _; reflexivity].
    cbn [map fst] in NI. rewrite (IH _ _ _ E) by (intro F; apply NI; right; exact F).
    rewrite (balance_mset L a m id b' a' id' Ma).
    destruct (N.eqb_spec a a') as [Ha|Ha]; [destruct NI; left; exact Ha|reflexivity].
Qed.

Lemma credit_frame id snks : forall (L L' : lg) r, credit_all ovchk L id snks = (L', r) ->
  forall a id', ~ In a (map fst snks) -> balance L' a id' = balance L a id'.
Proof.
  induction snks as [|[a v] snks IH]; intros L L' r E a' id' NI; cbn [credit_all] in E.
  - injection E as <- _. reflexivity.
  - destruct (mget (g_accounts L) a) as [m|] eqn:Ma; [|injection E as <- _; reflexivity].
    destruct (vadd ovchk _ v) as [b'|]; [|injection E as <- _; reflexivity].
    cbn [map fst] in NI. rewrite (IH _ _ _ E) by (intro F; apply NI; right; exact F).
    rewrite (balance_mset L a m id b' a' id' Ma).
    destruct (N.eqb_spec a a') as [Ha|Ha]; [destruct NI; left; exact Ha|reflexivity].
Qed.

Lemma update_no_err (L : lg) id srcs snks :
  (forall a v, In (a, v) srcs -> exists b, public_balance L a id = Some b) ->
  (forall a, In a (map fst snks) -> exists m, mget (g_accounts L) a = Some m) ->
  forall L' e, update_public_balances ovchk L id srcs snks <> (L', RErr e).
Proof.
  intros F G L' e. unfold update_public_balances.
  destruct (debit_all ovchk L id srcs) as [L1 r1] eqn:E. destruct r1 as [[]|e1|].
  - apply credit_no_err. intros a I. apply (debit_accounts id srcs L L1 _ E). apply G. exact I.
  - destruct (debit_no_err id srcs L F L1 e1 E).
  - discriminate.
Qed.

Lemma update_frame (L L' : lg) id srcs snks r : update_public_balances ovchk L id srcs snks = (L', r) ->
  forall a id', ~ In a (map fst srcs) -> ~ In a (map fst snks) -> balance L' a id' = balance L a id'.
Proof.
  unfold update_public_balances. destruct (debit_all ovchk L id srcs) as [L1 r1] eqn:E.
  intros E2 a id' N1 N2. rewrite <- (debit_frame id srcs L L1 r1 E a id' N1).
  destruct r1 as [[]| |]; [|injection E2 as <- _; reflexivity|injection E2 as <- _; reflexivity].
  apply (credit_frame id snks L1 L' r E2 a id' N2).
Qed.

Lemma vadd_wrap a b : vadd false a b <> None.
Proof. unfold vadd. destruct (N.ltb _ _); discriminate. Qed.
Lemma vsub_wrap a b : vsub false a b <> None.
Proof. unfold vsub. destruct (N.leb _ _); discriminate. Qed.

Lemma debit_no_panic id srcs : ovchk = false -> forall L L' : lg, debit_all ovchk L id srcs <> (L', RPanic).
Proof.
  intro W. induction srcs as [|[a v] srcs IH]; intros L L' E; cbn [debit_all] in E; [discriminate|].
  destruct (mget (g_accounts L) a) as [m|]; [|discriminate]. destruct (mget m id) as [b|]; [|discriminate].
  rewrite W in E at 1. destruct (vsub false b v) eqn:V; [|exact (vsub_wrap b v V)]. apply IH in E. exact E.
Qed.
Lemma credit_no_panic id snks : ovchk = false -> forall L L' : lg, credit_all ovchk L id snks <> (L', RPanic).
Proof.
  intro W. induction snks as [|[a v] snks IH]; intros L L' E; cbn [credit_all] in E; [discriminate|].
  destruct (mget (g_accounts L) a) as [m|]; [|discriminate].
  rewrite W in E at 1. destruct (vadd false _ v) eqn:V; [|exact (vadd_wrap _ v V)]. apply IH in E. exact E.
Qed.
Lemma update_no_panic id srcs snks : ovchk = false ->
  forall L L' : lg, update_public_balances ovchk L id srcs snks <> (L', RPanic).
Proof.
  intros W L L'. unfold update_public_balances. destruct (debit_all ovchk L id srcs) as [L1 r1] eqn:E.
  destruct r1 as [[]| |]; [apply (credit_no_panic id snks W)|discriminate|].
  destruct (debit_no_panic id srcs W L L1 E).
Qed.
End Acc.

Lemma select_lengths a b s1 s2 s3 s4 s : select_shape a b s1 s2 s3 s4 = Some s ->
  match s with
  | TToPrivate => a = false /\ b = true /\ s1 = 1 /\ s2 = 0 /\ s3 = 1 /\ s4 = 0
  | TPrivate => a = true /\ b = false /\ s1 = 0 /\ s2 = 2 /\ s3 = 2 /\ s4 = 0
  | TToPublic => a = true /\ b = true /\ s1 = 0 /\ s2 = 2 /\ s3 = 1 /\ s4 = 1
  end.
Proof.
  unfold select_shape. destruct a, b, s1 as [|[|]], s2 as [|[|[|]]], s3 as [|[|[|]]], s4 as [|[|]];
    intro E; try discriminate E; injection E as <-; auto 10.
Qed.

Section Post.
Context {CM ON UT NT IN IT LD ID KEY SG PRF : Type}.
Variable dl : LD.
Variable di : ID.
Variable join : ID -> ID -> ID.
Variable joinl : LD -> LD -> ID.
Variable ideqb : ID -> ID -> bool.
Variable H : nat.
Variable item : UT -> IT.
Variable dg : IT -> LD.
Variable sh : IT -> nat.
Variable comeqb : CM -> CM -> bool.
Variable uteqb : UT -> UT -> bool.
Variable nteqb : NT -> NT -> bool.
Variable probe : list (fnull CM ON) -> fnull CM ON -> fnull CM ON -> bool.
Variable dout : ID.
Variable incoming : NT -> IN.
Variable ovchk : bool.
Variable verify_sig : KEY -> SG -> body CM ON UT NT ID PRF -> list N -> bool.
Variable verify : tshape -> list (pin CM UT IN ID KEY) -> PRF -> option bool.

Notation lg := (ledger CM ON UT NT LD ID).
Notation pst := (post CM ON UT NT ID KEY SG PRF).
Notation post_key := (post_key dl di join joinl H item dg sh comeqb uteqb nteqb probe ovchk).
Notation acceptable := (acceptable probe dout incoming verify_sig verify).
Notation Inv := (Inv dl di join joinl H item dg sh).

Lemma acceptable_canonical (L : lg) (p : pst) sacc kacc : acceptable L p sacc kacc ->
  canonical (length (b_sources (p_body p))) (length (b_senders (p_body p)))
    (length (b_receivers (p_body p))) (length (b_sinks (p_body p))).
Proof.
  intros (_ & _ & _ & _ & _ & _ & s & v & S0 & _). unfold post_shape in S0. apply select_lengths in S0.
  unfold canonical. destruct s; destruct S0 as (_ & _ & A & B & C & D).
  - left. auto.
  - right. left. auto.
  - right. right. auto.
Qed.

(** At most one source, so the check against the balance covers the sum of the sources. *)
Lemma covered (L : lg) (p : pst) sacc kacc id : acceptable L p sacc kacc -> b_asset (p_body p) = Some id ->
  forall a, (amount_of a (combine sacc (b_sources (p_body p))) <= balance L a id)%N.
Proof.
  intros V A a. pose proof (acceptable_canonical L p sacc kacc V) as C.
  destruct V as (_ & (_ & P1 & _ & P3 & _) & _). specialize (P3).
  assert (D : length (b_sources (p_body p)) = 1 \/ length (b_sources (p_body p)) = 0).
  { destruct C as [(C & _)|[(C & _)|(C & _)]]; [left|right|right]; exact C. }
  destruct (b_sources (p_body p)) as [|v [|? ?]]; cbn [length] in *; [| |destruct D; discriminate].
  - destruct sacc; [|discriminate]. cbn. apply N.le_0_l.
  - destruct sacc as [|a0 [|? ?]]; try discriminate. cbn [combine] in *.
    destruct (P3 a0 v id A (or_introl eq_refl)) as (b & B & Hb).
    rewrite amount_cons. cbn [fst snd]. unfold balance.
    destruct (N.eqb_spec a0 a) as [Ha|Ha].
    + subst a0. rewrite B. unfold amount_of, nsum. cbn. clear - Hb. lia.
    + unfold amount_of, nsum. cbn [map filter fold_right]. apply N.le_0_l.
Qed.

Lemma sources_listed (L : lg) (p : pst) sacc kacc id : acceptable L p sacc kacc -> b_asset (p_body p) = Some id ->
  forall a v, In (a, v) (combine sacc (b_sources (p_body p))) -> exists b, public_balance L a id = Some b.
Proof.
  intros (_ & (_ & _ & _ & P3 & _) & _) A a v I. destruct (P3 a v id A I) as (b & B & _). eauto.
Qed.

Lemma sinks_listed (L : lg) (p : pst) sacc kacc : acceptable L p sacc kacc ->
  forall a, In a (map fst (combine kacc (b_sinks (p_body p)))) -> exists m, mget (g_accounts L) a = Some m.
Proof.
  intros (_ & (_ & _ & _ & _ & P4) & _) a I. apply in_map_iff in I. destruct I as ([a0 v] & E & I). cbn in E. subst a0.
  apply in_combine_l in I. destruct (P4 a I) as (m & M). apply in_mget in M. exact M.
Qed.

Hypothesis HH : 2 <= H.
Hypothesis CM_spec : forall a b, comeqb a b = true <-> a = b.
Hypothesis UT_spec : forall a b, uteqb a b = true <-> a = b.

Lemma same_accounts_balance (L L2 : lg) : g_accounts L2 = g_accounts L ->
  (forall a id, public_balance L2 a id = public_balance L a id) /\
  (forall a id, balance L2 a id = balance L a id) /\ (forall id, supply L2 id = supply L id).
Proof.
  intro A. assert (P : forall a id, public_balance L2 a id = public_balance L a id) by
    (intros; unfold public_balance; rewrite A; reflexivity).
  split; [exact P|]. split; [intros; unfold balance; rewrite P; reflexivity|].
  intro id. unfold supply. rewrite A. reflexivity.
Qed.

(** Posting a validated post: no error; without overflow a success; the balances. *)
Lemma post_result (L : lg) (p : pst) sacc kacc L' r : Inv L -> acceptable L p sacc kacc ->
  post_key L (key_of p sacc kacc) = (L', r) ->
  (forall e, r <> RErr e) /\
  (r = RPanic -> ovchk = true /\ exists id, b_asset (p_body p) = Some id /\
     ~ (forall a, In a kacc -> (balance L a id + amount_of a (combine kacc (b_sinks (p_body p))) < u128)%N)) /\
  (r = ROk tt ->
     match b_asset (p_body p) with
     | None => (forall a id, balance L' a id = balance L a id) /\ (forall id, supply L' id = supply L id)
     | Some id =>
         ovchk = true \/ (forall a, (balance L a id + amount_of a (combine kacc (b_sinks (p_body p))) < u128)%N) ->
         moved L L' id (combine sacc (b_sources (p_body p))) (combine kacc (b_sinks (p_body p)))
     end) /\
  (forall a id, ~ In a sacc -> ~ In a kacc -> balance L' a id = balance L a id).
Proof.
  intros I V E.
  destruct (post_valid dl di join joinl H item dg sh comeqb uteqb nteqb probe dout incoming ovchk verify_sig verify
    HH CM_spec UT_spec L p sacc kacc I V) as (L2 & _ & A & _ & _ & _ & _ & E2).
  rewrite E2 in E. clear E2. destruct (same_accounts_balance L L2 A) as (P1 & P2 & P3).
  destruct (b_asset (p_body p)) as [id|] eqn:As.
  - pose proof (covered L p sacc kacc id V As) as Cov.
    pose proof (sources_listed L p sacc kacc id V As) as Src.
    pose proof (sinks_listed L p sacc kacc V) as Snk.
    set (srcs := combine sacc (b_sources (p_body p))) in *. set (snks := combine kacc (b_sinks (p_body p))) in *.
    assert (Cov2 : forall a, (amount_of a srcs <= balance L2 a id)%N) by (intro a; rewrite P2; apply Cov).
    assert (Src2 : forall a v, In (a, v) srcs -> exists b, public_balance L2 a id = Some b).
    { intros a v J. rewrite P1. apply (Src a v J). }
    assert (Snk2 : forall a, In a (map fst snks) -> exists m, mget (g_accounts L2) a = Some m).
    { intros a J. rewrite A. apply (Snk a J). }
    assert (Sub : forall a, In a (map fst snks) -> In a kacc).
    { intros a J. apply in_map_iff in J. destruct J as ([a0 v] & E0 & J). cbn in E0. subst a0. apply in_combine_l in J. exact J. }
    assert (Sub' : forall a, In a (map fst srcs) -> In a sacc).
    { intros a J. apply in_map_iff in J. destruct J as ([a0 v] & E0 & J). cbn in E0. subst a0. apply in_combine_l in J. exact J. }
    split; [|split; [|split]].
    + intros e ->. apply (update_no_err ovchk L2 id srcs snks Src2 Snk2 L' e E).
    + intros ->. split.
      * destruct ovchk eqn:O; [reflexivity|]. destruct (update_no_panic false id srcs snks eq_refl L2 L' E).
      * exists id. split; [reflexivity|]. intro F.
        destruct (update_ok ovchk L2 id srcs snks Cov2 Src2) as (L3 & E3); [|exact Snk2|rewrite E3 in E; discriminate].
        intros a J. rewrite P2. apply F. apply Sub. exact J.
    + intros -> O. apply (update_exact ovchk L2 L' id srcs snks Cov2) in E.
      * destruct E as (M1 & M2 & M3 & M4). split; [|split; [|split]].
        -- intro a. rewrite <- P2. apply M1.
        -- intros a id' Hi. rewrite <- P2. apply M2. exact Hi.
        -- rewrite <- P3. exact M3.
        -- intros id' Hi. rewrite <- P3. apply M4. exact Hi.
      * destruct O as [O|O]; [left; exact O|right]. intro a. rewrite P2. apply O.
    + intros a id' N1 N2. rewrite <- P2. apply (update_frame ovchk L2 L' id srcs snks r E).
      * intro J. apply N1. apply Sub'. exact J.
      * intro J. apply N2. apply Sub. exact J.
  - injection E as <- <-. split; [discriminate|]. split; [discriminate|]. split; [|auto]. intros _. auto.
Qed.

(** Every note at a position below the capacity of its shard's tree has a path to the root. *)
Lemma spendable_at (L : lg) i j un : Inv L -> nth_error (shard L i) j = Some un -> j < 2 ^ (H - 1) ->
  spendable di join joinl H (fun u => dg (item u)) L i (fst un) /\
  In (tree_root di L i) (map s_root (g_trees L)).
Proof.
  intros I E Hj. pose proof (li_tree dl di join joinl H item dg sh L I) as T.
  pose proof (li_len dl di join joinl H item dg sh L I) as Le.
  assert (Hi : i < length (g_trees L)).
  { rewrite Le. destruct (Nat.lt_ge_cases i (length (g_shards L))) as [|G]; [assumption|].
    unfold shard in E. rewrite nth_overflow in E by exact G. destruct j; discriminate. }
  destruct (nth_error (g_trees L) i) as [t|] eqn:Et; [|apply nth_error_None in Et; exfalso; clear - Et Hi; lia].
  specialize (T i t Et). destruct T as (_ & R & _).
  assert (TR : tree_root di L i = s_root t).
  { unfold tree_root. apply nth_error_nth. apply map_nth_error. exact Et. }
  split; [|rewrite TR; apply in_map; apply nth_error_In with (n := i); exact Et].
  set (l := firstn (capacity H) (shard_leaves (fun u => dg (item u)) L i)) in *.
  assert (E1 : nth_error (shard_leaves (fun u => dg (item u)) L i) j = Some (dg (item (fst un)))).
  { unfold shard_leaves. apply (map_nth_error (fun un => dg (item (fst un)))). exact E. }
  assert (Jl : j < length (shard_leaves (fun u => dg (item u)) L i)) by (apply nth_error_Some; congruence).
  assert (C : j < capacity H) by (unfold capacity; exact Hj).
  assert (Jf : j < length l) by (unfold l; rewrite firstn_length; clear - Jl C; lia).
  assert (Nl : nth j l dl = dg (item (fst un))).
  { apply nth_error_nth. unfold l. rewrite <- (firstn_skipn (capacity H) (shard_leaves (fun u => dg (item u)) L i)) in E1.
    rewrite nth_error_app1 in E1 by exact Jf. exact E1. }
  exists j, (nth (sibling j) l dl), (spath dl di join joinl H l j).
  split; [exact E1|]. split; [apply spath_length|]. rewrite TR, R.
  rewrite <- (spath_root dl di join joinl H l j Jf).
  - rewrite Nl. unfold path_root, spec_path_root. cbn [p_index p_sibling p_inner].
    rewrite path_fold_climb. unfold node_join_leaves, is_left. reflexivity.
  - rewrite cap_eq in C by exact HH. exact C.
Qed.

End Post.
