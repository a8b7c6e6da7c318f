(** Properties C22 to C29: the simulated ledger. *)
From Coq Require Import List Arith NArith Bool Lia.
From Verif Require Import MtModel MtSpec MtLemmas MtInner MtInv MtFull MtSingle MtTest CkModel CkSpec LgModel LgSpec LgLemmas LgInv LgBal LgHist LgRead LgPost.
From Verif Require SgSpec.
Import ListNotations.
Open Scope nat_scope.

Section Props.
Context {CM ON UT NT IN IT LD ID KEY SG PRF : Type}.
Variable dl : LD.
Variable di : ID.
Variable join : ID -> ID -> ID.
Variable joinl : LD -> LD -> ID.
Variable ideqb : ID -> ID -> bool.
Variable H : nat.
Variable item : UT -> IT.
Variable dg : IT -> LD.
Variable sh : IT -> nat.
Variable comeqb : CM -> CM -> bool.
Variable uteqb : UT -> UT -> bool.
Variable nteqb : NT -> NT -> bool.
Variable probe : list (fnull CM ON) -> fnull CM ON -> fnull CM ON -> bool.
Variable dout : ID.
Variable incoming : NT -> IN.
Variable ovchk : bool.
Variable verify_sig : KEY -> SG -> body CM ON UT NT ID PRF -> list N -> bool.
Variable verify : tshape -> list (pin CM UT IN ID KEY) -> PRF -> option bool.

Notation lg := (ledger CM ON UT NT LD ID).
Notation pst := (post CM ON UT NT ID KEY SG PRF).
Notation lop := (@lop CM ON UT NT ID KEY SG PRF).
Notation push_one := (push_one dl di join joinl ideqb H item dg sh comeqb uteqb nteqb probe dout incoming ovchk verify_sig verify).
Notation push := (push dl di join joinl ideqb H item dg sh comeqb uteqb nteqb probe dout incoming ovchk verify_sig verify).
Notation transfer_post := (transfer_post dl di join joinl ideqb H item dg sh comeqb uteqb nteqb probe dout incoming ovchk verify_sig verify).
Notation validate := (validate ideqb comeqb uteqb probe dout incoming verify_sig verify).
Notation lg_step := (lg_step dl di join joinl ideqb H item dg sh comeqb uteqb nteqb probe dout incoming ovchk verify_sig verify).
Notation lg_run := (lg_run dl di join joinl ideqb H item dg sh comeqb uteqb nteqb probe dout incoming ovchk verify_sig verify).
Notation accepted := (accepted dl di join joinl ideqb H item dg sh comeqb uteqb nteqb probe dout incoming ovchk verify_sig verify).
Notation accepted_in := (accepted_in dl di join joinl ideqb H item dg sh comeqb uteqb nteqb probe dout incoming ovchk verify_sig verify).
Notation lg_new := (lg_new (CM := CM) (ON := ON) (UT := UT) (NT := NT) dl di).
Notation spendable := (spendable di join joinl H (fun u => dg (item u))).
Notation Inv := (Inv dl di join joinl H item dg sh).
Notation acceptable := (acceptable probe dout incoming verify_sig verify).

Hypothesis HH : 2 <= H.
Hypothesis ID_spec : forall a b, ideqb a b = true <-> a = b.
Hypothesis CM_spec : forall a b, comeqb a b = true <-> a = b.
Hypothesis UT_spec : forall a b, uteqb a b = true <-> a = b.

(** The ledgers of the theorems: [w] shards, any history of pushes and of balances set. *)
Variable w : nat.
Hypothesis SHW : forall u : UT, sh (item u) < w.

Lemma reach_inv os : Inv (lg_run (lg_new w) os).
Proof.
  apply (run_inv dl di join joinl ideqb H item dg sh comeqb uteqb nteqb probe dout incoming ovchk verify_sig verify HH ID_spec CM_spec UT_spec).
  apply inv_new; assumption.
Qed.

Lemma transfer_cases (L : lg) p sacc kacc L' r : transfer_post L p sacc kacc = (L', r) ->
  (acceptable L p sacc kacc /\ post_key dl di join joinl H item dg sh comeqb uteqb nteqb probe ovchk L (key_of p sacc kacc) = (L', r)) \/
  (L' = L /\ exists e, r = RErr e).
Proof.
  unfold LgModel.transfer_post. destruct (validate L p sacc kacc) as [k|e|] eqn:V; intro E.
  - apply (validate_iff ideqb comeqb uteqb probe dout incoming verify_sig verify ID_spec CM_spec UT_spec) in V.
    destruct V as [V ->]. left. auto.
  - right. injection E as <- <-. eauto.
  - destruct (validate_no_panic ideqb comeqb uteqb probe dout incoming verify_sig verify L p sacc kacc V).
Qed.

Lemma push_one_split (L : lg) a p L' r : Inv L -> push_one L a p = (L', r) ->
  (r = ROk false /\ L' = L) \/
  (acceptable L p (push_sources a p) (push_sinks a p) /\
   exists r', post_key dl di join joinl H item dg sh comeqb uteqb nteqb probe ovchk L (key_of p (push_sources a p) (push_sinks a p)) = (L', r') /\
     ((r = ROk true /\ r' = ROk tt) \/ (r = RPanic /\ r' = RPanic))).
Proof.
  intros I E.
  destruct (push_one_cases dl di join joinl ideqb H item dg sh comeqb uteqb nteqb probe dout incoming ovchk verify_sig verify ID_spec CM_spec UT_spec L a p L' r I E)
    as [X|[(R & V & r' & P & Q)|(_ & _ & X)]].
  - left. exact X.
  - right. split; [exact V|]. exists r'. split; [exact P|].
    destruct (post_result dl di join joinl H item dg sh comeqb uteqb nteqb probe dout incoming ovchk verify_sig verify HH CM_spec UT_spec L p _ _ L' r' I V P) as (NE & _).
    destruct r' as [[]|e|]; [left|destruct (NE e eq_refl)|right].
    + split; [apply Q; reflexivity|reflexivity].
    + destruct R as [R|R]; [apply Q in R; discriminate|]. auto.
  - destruct (validate_no_panic ideqb comeqb uteqb probe dout incoming verify_sig verify L p _ _ X).
Qed.

(** C22, for a hash table whose hash function respects the equality of nullifiers, which is that of
    their commitments, and whose lookup compares every entry with the same hash.  The second holds
    of every hash table; the first fails for the code (see [c22_refuted]). *)
Theorem c22_no_double_spend_partial : forall hash : fnull CM ON -> N,
  (forall s x y, In y s -> hash x = hash y -> probe s x y = true) ->
  (forall x y, fn_com x = fn_com y -> hash x = hash y) ->
  forall os : list lop, NoDup (flat_map (fun ap => commitments (snd ap)) (accepted (lg_new w) os)).
Proof.
  intros hash P Q os.
  refine (proj1 (accepted_spends dl di join joinl ideqb H item dg sh comeqb uteqb nteqb probe dout incoming ovchk verify_sig verify HH ID_spec CM_spec UT_spec _ os (lg_new w) _)).
  - intros s x y I E. apply P; [exact I|]. apply Q. exact E.
  - apply inv_new; assumption.
Qed.

(** C22, for every hash table: inside one accepted post the commitments differ. *)
Theorem c22_one_post : forall (L : lg) p sacc kacc L',
  transfer_post L p sacc kacc = (L', ROk tt) -> NoDup (commitments p).
Proof.
  intros L p sacc kacc L' E. destruct (transfer_cases L p sacc kacc L' _ E) as [((_ & _ & N & _) & _)|(_ & e & X)].
  - exact N.
  - discriminate.
Qed.

(** C23: if the verifier of the shape of the post returns an error, the push reports failure and
    changes nothing. *)
Theorem c23_verifier_error_partial : forall (os : list lop) a (p : pst) s,
  post_shape p = Some s -> verify s (post_input incoming p) (b_proof (p_body p)) = None ->
  push_one (lg_run (lg_new w) os) a p = (lg_run (lg_new w) os, ROk false).
Proof.
  intros os a p s S0 V. set (L := lg_run (lg_new w) os).
  destruct (push_one L a p) as [L' r] eqn:E.
  destruct (push_one_split L a p L' r (reach_inv os) E) as [(-> & ->)|((_ & _ & _ & _ & _ & _ & s' & v & S1 & V1) & _)].
  - reflexivity.
  - rewrite S0 in S1. injection S1 as <-. rewrite V in V1. discriminate.
Qed.

(** C23: a post is accepted only after the verifier was called, on the public input of the post
    itself, and returned no error. *)
Theorem c23_verifier_called : forall (L : lg) (p : pst) sacc kacc L',
  transfer_post L p sacc kacc = (L', ROk tt) ->
  exists s v, post_shape p = Some s /\ verify s (post_input incoming p) (b_proof (p_body p)) = Some v.
Proof.
  intros L p sacc kacc L' E. destruct (transfer_cases L p sacc kacc L' _ E) as [((_ & _ & _ & _ & _ & _ & X) & _)|(_ & e & X)].
  - exact X.
  - discriminate.
Qed.

(** C24: an accepted post debits its sources and credits its sinks, exactly, in its asset and in
    nothing else; the debited sources had the amount. *)
Theorem c24_balances : forall (os : list lop) (p : pst) sacc kacc L',
  let L := lg_run (lg_new w) os in
  transfer_post L p sacc kacc = (L', ROk tt) ->
  match b_asset (p_body p) with
  | None => (forall a id, balance L' a id = balance L a id) /\ (forall id, supply L' id = supply L id)
  | Some id =>
      (forall a, (amount_of a (combine sacc (b_sources (p_body p))) <= balance L a id)%N) /\
      (ovchk = true \/ (forall a, (balance L a id + amount_of a (combine kacc (b_sinks (p_body p))) < u128)%N) ->
       moved L L' id (combine sacc (b_sources (p_body p))) (combine kacc (b_sinks (p_body p))))
  end.
Proof.
  intros os p sacc kacc L' L E.
  destruct (transfer_cases L p sacc kacc L' _ E) as [(V & P)|(_ & e & X)]; [|discriminate].
  destruct (post_result dl di join joinl H item dg sh comeqb uteqb nteqb probe dout incoming ovchk verify_sig verify HH CM_spec UT_spec
    L p sacc kacc L' _ (reach_inv os) V P) as (_ & _ & B & _).
  specialize (B eq_refl). destruct (b_asset (p_body p)) as [id|] eqn:A; [|exact B].
  split; [|exact B]. apply (covered probe dout incoming verify_sig verify L p sacc kacc id V A).
Qed.

(** C24: a post that is not accepted changes nothing; a panic is only possible in a build with
    overflow checks, when a sink would exceed 128 bits. *)
Theorem c24_rejected : forall (os : list lop) (p : pst) sacc kacc L' r,
  let L := lg_run (lg_new w) os in
  transfer_post L p sacc kacc = (L', r) -> r <> ROk tt ->
  L' = L \/ (r = RPanic /\ ovchk = true /\ exists id, b_asset (p_body p) = Some id /\
    ~ (forall a, In a kacc -> (balance L a id + amount_of a (combine kacc (b_sinks (p_body p))) < u128)%N)).
Proof.
  intros os p sacc kacc L' r L E NR.
  destruct (transfer_cases L p sacc kacc L' _ E) as [(V & P)|(X & _)]; [right|left; exact X].
  destruct (post_result dl di join joinl H item dg sh comeqb uteqb nteqb probe dout incoming ovchk verify_sig verify HH CM_spec UT_spec
    L p sacc kacc L' _ (reach_inv os) V P) as (NE & PA & _).
  destruct r as [[]|e|]; [destruct (NR eq_refl)|destruct (NE e eq_refl)|]. split; [reflexivity|]. exact (PA eq_refl).
Qed.

(** C24 for a push by an account: failure is the unchanged ledger. *)
Theorem c24_push_rejected : forall (os : list lop) a (p : pst) L',
  let L := lg_run (lg_new w) os in
  push L a [p] = (L', ROk false) -> L' = L.
Proof.
  intros os a p L' L E. cbn [LgModel.push] in E.
  destruct (push_one L a p) as [L1 r1] eqn:P.
  destruct (push_one_split L a p L1 r1 (reach_inv os) P) as [(-> & ->)|(_ & r' & _ & [(-> & _)|(-> & _)])].
  - injection E as <-. reflexivity.
  - discriminate.
  - discriminate.
Qed.

(** C24, the operator's setting of a balance: it sets one balance and nothing else. *)
Theorem c24_set_balance : forall (L : lg) a id v L',
  set_public_balance L a id v = Some L' ->
  balance L' a id = v /\ (forall a' id', a' <> a \/ id' <> id -> balance L' a' id' = balance L a' id') /\
  g_nulls L' = g_nulls L /\ g_utxos L' = g_utxos L /\ g_shards L' = g_shards L /\ g_trees L' = g_trees L.
Proof.
  intros L a id v L' E. unfold set_public_balance in E. destruct (N.eqb id 0); [discriminate|]. injection E as <-.
  split; [|split; [|auto]].
  - unfold balance, public_balance. cbn [g_accounts]. rewrite mget_mset, N.eqb_refl, mget_mset, N.eqb_refl. reflexivity.
  - intros a' id' D. unfold balance, public_balance. cbn [g_accounts]. rewrite mget_mset.
    destruct (N.eqb_spec a a') as [Ha|Ha]; [subst a'|reflexivity]. rewrite mget_mset.
    destruct (N.eqb_spec id id') as [Hi|Hi]; [destruct D as [D|D]; [destruct (D eq_refl)|destruct (D (eq_sym Hi))]|].
    destruct (mget (g_accounts L) a); reflexivity.
Qed.

(** C25, for posts with spends whose signed sink accounts are those that the ledger uses: every
    credited account is a signed one.  The ledger does not compare the two (see [c25_refuted]). *)
Theorem c25_signed_sinks_partial : forall (os : list lop) (p : pst) sacc L' x,
  let L := lg_run (lg_new w) os in
  b_senders (p_body p) <> [] ->
  transfer_post L p sacc (p_accounts p) = (L', ROk tt) -> credited L L' x ->
  In x (p_accounts p) /\
  exists key sig, p_auth p = Some (key, sig) /\ verify_sig key sig (p_body p) (p_accounts p) = true.
Proof.
  intros os p sacc L' x L NS E (id & C).
  destruct (transfer_cases L p sacc (p_accounts p) L' _ E) as [(V & P)|(_ & e & X)]; [|discriminate].
  destruct (post_result dl di join joinl H item dg sh comeqb uteqb nteqb probe dout incoming ovchk verify_sig verify HH CM_spec UT_spec
    L p sacc _ L' _ (reach_inv os) V P) as (_ & _ & _ & F).
  pose proof (acceptable_canonical probe dout incoming verify_sig verify L p sacc _ V) as Ca.
  destruct V as ((S1 & _) & (_ & P1 & _) & _). split; [|exact (S1 NS)].
  assert (SA : sacc = []).
  { destruct Ca as [(_ & Z & _)|[(Z & _)|(Z & _)]].
    - destruct (b_senders (p_body p)); [destruct (NS eq_refl)|discriminate].
    - rewrite Z in P1. destruct sacc; [reflexivity|discriminate].
    - rewrite Z in P1. destruct sacc; [reflexivity|discriminate]. }
  destruct (in_dec N.eq_dec x (p_accounts p)) as [I|I]; [exact I|].
  rewrite (F x id) in C; [destruct (N.lt_irrefl _ C)|rewrite SA; intros []|exact I].
Qed.

(** C25, what a push does: the only account whose balances can change is the pushing one. *)
Theorem c25_push_credits_pusher : forall (os : list lop) a (p : pst) L' r x id,
  let L := lg_run (lg_new w) os in
  push_one L a p = (L', r) -> x <> a -> balance L' x id = balance L x id.
Proof.
  intros os a p L' r x id L E NX.
  destruct (push_one_split L a p L' r (reach_inv os) E) as [(_ & ->)|(V & r' & P & _)]; [reflexivity|].
  destruct (post_result dl di join joinl H item dg sh comeqb uteqb nteqb probe dout incoming ovchk verify_sig verify HH CM_spec UT_spec
    L p _ _ L' _ (reach_inv os) V P) as (_ & _ & _ & F).
  assert (K : forall b : bool, ~ In x (if b then [a] else [])).
  { intros [] J; [destruct J as [J|[]]; apply NX; symmetry; exact J|destruct J]. }
  apply F; unfold push_sources, push_sinks.
  - destruct (post_shape p) as [[]|]; [apply (K true)|apply (K false)..].
  - destruct (post_shape p) as [[]|]; [apply (K false)|apply (K false)|apply (K true)|apply (K false)].
Qed.

(** C26: a reader that pulls between ledger operations and advances its checkpoint by each reply. *)
Notation nsh := (fun un : UT * NT => sh (item (fst un))).

Inductive reads : lg -> ckpt -> list (UT * NT) -> list (fnull CM ON) -> Prop :=
  | rd_new : reads (lg_new w) (mk_ckpt (repeat 0 w) 0) [] []
  | rd_op L c ns vs (o : lop) : reads L c ns vs -> reads (lg_step L o) c ns vs
  | rd_pull L c ns vs c' : reads L c ns vs -> advanced nsh c (snd (pull L c)) c' ->
      reads L c' (ns ++ notes (snd (pull L c))) (vs ++ nulls (snd (pull L c))).

Lemma firstn_grow {A} n (l r : list A) : n <= length l -> firstn n (l ++ r) = firstn n l.
Proof. intro G. rewrite firstn_app. replace (n - length l) with 0 by (clear - G; lia). cbn [firstn]. apply app_nil_r. Qed.

Lemma reads_inv L c ns vs : reads L c ns vs ->
  Inv L /\ length (g_shards L) = w /\ length (recv c) = w /\
  (forall i, i < w -> at_shard c i <= length (shard L i) /\ of_shard nsh i ns = firstn (at_shard c i) (shard L i)) /\
  (forall u, In u ns -> nsh u < w) /\
  send c <= length (g_nulls L) /\ vs = firstn (send c) (g_nulls L).
Proof.
  induction 1 as [|L c ns vs o R IH|L c ns vs c' R IH A].
  - split; [apply inv_new; assumption|]. split; [apply repeat_length|]. split; [apply repeat_length|]. split; [|split; [intros u []|]].
    + intros i Hi. assert (Z : at_shard (mk_ckpt (repeat 0 w) 0) i = 0) by apply nth_repeat.
      rewrite Z. split; [apply Nat.le_0_l|reflexivity].
    + split; [apply Nat.le_0_l|reflexivity].
  - destruct IH as (I & LS & LC & N & U & SL & SV).
    destruct (step_inv dl di join joinl ideqb H item dg sh comeqb uteqb nteqb probe dout incoming ovchk verify_sig verify HH ID_spec CM_spec UT_spec L o I) as (I' & G1 & G2 & x & G3).
    split; [exact I'|]. split; [congruence|]. split; [exact LC|]. split; [|split; [exact U|]].
    + intros i Hi. destruct (N i Hi) as [N1 N2]. destruct (G2 i) as (y & G). rewrite G. split.
      * rewrite app_length. clear - N1. lia.
      * rewrite firstn_grow by exact N1. exact N2.
    + rewrite G3. split; [rewrite app_length; clear - SL; lia|]. rewrite firstn_grow by exact SL. exact SV.
  - destruct IH as (I & LS & LC & N & U & SL & SV). destruct A as (A1 & A2 & A3).
    assert (OWN : forall j u, In u (shard L j) -> nsh u = j) by apply (li_shard _ _ _ _ _ _ _ _ L I).
    assert (PS : forall i, i < w -> of_shard nsh i (notes (snd (pull L c))) = skipn (at_shard c i) (shard L i)).
    { intros i Hi. apply (pull_shard nsh L c i OWN). rewrite LC. exact Hi. }
    assert (AT : forall i, i < w -> at_shard c' i = length (shard L i)).
    { intros i Hi. rewrite A2 by (rewrite LC; exact Hi). unfold count_shard. rewrite (PS i Hi), skipn_length.
      destruct (N i Hi) as [N1 _]. clear - N1. lia. }
    split; [exact I|]. split; [exact LS|]. split; [congruence|]. split; [|split; [|split]].
    + intros i Hi. destruct (N i Hi) as [N1 N2]. rewrite (AT i Hi). split; [apply Nat.le_refl|].
      rewrite of_shard_app, N2, (PS i Hi), firstn_skipn, firstn_all. reflexivity.
    + intros u J. apply in_app_or in J. destruct J as [J|J]; [apply U; exact J|].
      apply (pull_in nsh L c u OWN) in J. rewrite <- LC. apply J.
    + rewrite A3. unfold pull. cbn [snd nulls]. rewrite skipn_length. clear - SL. lia.
    + rewrite A3. unfold pull. cbn [snd nulls]. rewrite skipn_length.
      replace (send c + (length (g_nulls L) - send c)) with (length (g_nulls L)) by (clear - SL; lia).
      rewrite firstn_all, SV. apply firstn_skipn.
Qed.

(** C26: at every moment the reader has, per shard and in order, the first notes of the shard and
    the first nullifiers, as many as its checkpoint counts, and no utxo twice. *)
Theorem c26_reader : forall L c ns vs, reads L c ns vs ->
  (forall i, i < w -> at_shard c i <= length (shard L i) /\ of_shard nsh i ns = firstn (at_shard c i) (shard L i)) /\
  (forall u, In u ns -> nsh u < w) /\
  send c <= length (g_nulls L) /\ vs = firstn (send c) (g_nulls L) /\ NoDup (map fst ns).
Proof.
  intros L c ns vs R. destruct (reads_inv L c ns vs R) as (I & LS & LC & N & U & SL & SV).
  split; [exact N|]. split; [exact U|]. split; [exact SL|]. split; [exact SV|].
  apply (nodup_by_shard (fun u => sh (item u))). intro i.
  destruct (Nat.lt_ge_cases i w) as [Hi|Hi].
  - destruct (N i Hi) as [_ N2]. rewrite N2.
    assert (ND : NoDup (map fst (shard L i))) by apply (li_nodup _ _ _ _ _ _ _ _ L I).
    rewrite <- (firstn_skipn (at_shard c i) (shard L i)), map_app in ND.
    revert ND. generalize (map fst (skipn (at_shard c i) (shard L i))). induction (map fst (firstn (at_shard c i) (shard L i))) as [|x l IH];
      intros m ND; [constructor|]. inversion ND as [|? ? X Y]; subst. constructor; [|exact (IH m Y)].
    intro J. apply X. apply in_or_app. left. exact J.
  - rewrite of_shard_none; [constructor|]. intros u J E. specialize (U u J). cbn in *. clear - U E Hi. lia.
Qed.

(** C26: after a pull the reader has everything, and the reply says that nothing remains. *)
Theorem c26_complete_after_pull : forall L c ns vs c', reads L c ns vs ->
  advanced nsh c (snd (pull L c)) c' ->
  (forall i, i < w -> of_shard nsh i (ns ++ notes (snd (pull L c))) = shard L i) /\
  vs ++ nulls (snd (pull L c)) = g_nulls L /\
  fst (pull L c) = false /\
  notes (snd (pull L c')) = [] /\ nulls (snd (pull L c')) = [].
Proof.
  intros L c ns vs c' R A. destruct (reads_inv L c ns vs R) as (I & LS & LC & N & _ & SL & SV).
  destruct (reads_inv _ _ _ _ (rd_pull _ _ _ _ _ R A)) as (_ & _ & LC' & N' & _ & SL' & SV').
  destruct A as (A1 & A2 & A3).
  assert (OWN : forall j u, In u (shard L j) -> nsh u = j) by apply (li_shard _ _ _ _ _ _ _ _ L I).
  assert (AT : forall i, i < w -> at_shard c' i = length (shard L i)).
  { intros i Hi. rewrite A2 by (rewrite LC; exact Hi). unfold count_shard.
    rewrite (pull_shard nsh L c i OWN) by (rewrite LC; exact Hi). rewrite skipn_length.
    destruct (N i Hi) as [N1 _]. clear - N1. lia. }
  assert (SE : send c' = length (g_nulls L)).
  { rewrite A3. unfold pull. cbn [snd nulls]. rewrite skipn_length. clear - SL. lia. }
  split; [|split; [|split; [reflexivity|split]]].
  - intros i Hi. rewrite (proj2 (N' i Hi)), (AT i Hi). apply firstn_all.
  - rewrite SV', SE. apply firstn_all.
  - destruct (notes (snd (pull L c'))) as [|u r] eqn:E; [reflexivity|].
    assert (J : In u (notes (snd (pull L c')))) by (rewrite E; left; reflexivity).
    destruct (pull_in nsh L c' u OWN J) as (Hu & _). rewrite LC' in Hu.
    assert (K : In u (of_shard nsh (nsh u) (notes (snd (pull L c'))))) by (apply in_of_shard; auto).
    rewrite (pull_shard nsh L c' _ OWN), (AT _ Hu), skipn_all in K; [destruct K|]. rewrite LC'. exact Hu.
  - unfold pull. cbn [snd nulls]. rewrite SE. apply skipn_all.
Qed.

(** C26 with C14: what a pull returns is a reply in the sense of the synchronisation theorems. *)
Theorem c26_pull_is_reply : forall (os : list lop) (c : ckpt),
  let L := lg_run (lg_new w) os in
  length (recv c) = w ->
  SgSpec.reply nsh (SgSpec.mk_ledger (g_shards L) (g_nulls L)) c (snd (pull L c)).
Proof.
  intros os c L LC. pose proof (reach_inv os) as I. fold L in I.
  assert (OWN : forall j u, In u (shard L j) -> nsh u = j) by apply (li_shard _ _ _ _ _ _ _ _ L I).
  assert (LS : length (g_shards L) = w).
  { destruct (run_inv dl di join joinl ideqb H item dg sh comeqb uteqb nteqb probe dout incoming ovchk verify_sig verify HH ID_spec CM_spec UT_spec os (lg_new w)) as (_ & G & _).
    - apply inv_new; assumption.
    - unfold L. rewrite G. apply repeat_length. }
  unfold SgSpec.reply. cbn [SgSpec.l_notes SgSpec.l_nulls]. split; [congruence|]. split; [|split].
  - intros u J. apply (pull_in nsh L c u OWN) in J. rewrite LS, <- LC. apply J.
  - intros i Hi. exists []. rewrite app_nil_r, (pull_shard nsh L c i OWN) by (rewrite LC, <- LS; exact Hi). reflexivity.
  - exists []. rewrite app_nil_r. reflexivity.
Qed.

(** C27: the initial read returns every shard without its first notes, as many as the number of
    the shard; it is complete exactly if every shard but the first is empty. *)
Theorem c27_initial_read_partial : forall L : lg,
  fst (fst (snd (initial_read L))) =
    flat_map (fun i => map fst (skipn i (shard L i))) (seq 0 (length (g_shards L))) /\
  (fst (fst (snd (initial_read L))) = flat_map (fun i => map fst (shard L i)) (seq 0 (length (g_shards L))) <->
   (forall i, 0 < i -> shard L i = [])).
Proof. intro L. split; [apply initial_read_utxos|apply initial_read_complete]. Qed.

(** C28: an output of an accepted post is in its shard for ever; as long as the shard has no more
    notes than its tree has leaves, there is a path from it to the root, and the ledger accepts
    this root. *)
Lemma accepted_registered (os : list lop) : forall L : lg, Inv L -> forall ap r,
  In ap (accepted L os) -> In r (b_receivers (p_body (snd ap))) ->
  In (rp_utxo r, rp_note r) (shard (lg_run L os) (sh (item (rp_utxo r)))).
Proof.
  assert (PIN : forall ps (L : lg) a, Inv L -> forall ap r, In ap (accepted_in L a ps) -> In r (b_receivers (p_body (snd ap))) ->
    In (rp_utxo r, rp_note r) (shard (fst (push L a ps)) (sh (item (rp_utxo r))))).
  { induction ps as [|p ps IH]; intros L a I ap r J Jr; [destruct J|]. cbn [LgHist.accepted_in LgModel.push] in *.
    destruct (push_one L a p) as [L1 r1] eqn:P.
    assert (D : r1 = ROk true).
    { destruct r1 as [[]| |]; [reflexivity|destruct J|destruct J|destruct J]. }
    subst r1. destruct (push_one_split L a p L1 _ I P) as [(X & _)|(V & r' & Pk & _)]; [discriminate|].
    destruct (post_grows dl di join joinl H item dg sh comeqb uteqb nteqb probe dout incoming ovchk verify_sig verify HH CM_spec UT_spec L p _ _ L1 r' I V Pk)
      as (I1 & _ & _ & _ & SH).
    destruct J as [<-|J]; [|exact (IH L1 a I1 ap r J Jr)]. cbn [snd] in Jr.
    destruct (push L1 a ps) as [L2 r2] eqn:P2. cbn [fst].
    destruct (push_inv dl di join joinl ideqb H item dg sh comeqb uteqb nteqb probe dout incoming ovchk verify_sig verify HH ID_spec CM_spec UT_spec ps L1 a L2 r2 I1 P2)
      as (_ & _ & G & _).
    destruct (G (sh (item (rp_utxo r)))) as (y & ->). rewrite SH. apply in_or_app. left. apply in_or_app. right.
    apply (in_map (fun r => (rp_utxo r, rp_note r))). apply filter_In. split; [exact Jr|apply Nat.eqb_refl]. }
  induction os as [|o os IH]; intros L I ap r J Jr; [destruct J|]. cbn [LgHist.accepted] in J.
  destruct (step_inv dl di join joinl ideqb H item dg sh comeqb uteqb nteqb probe dout incoming ovchk verify_sig verify HH ID_spec CM_spec UT_spec L o I) as (I1 & _).
  destruct (run_inv dl di join joinl ideqb H item dg sh comeqb uteqb nteqb probe dout incoming ovchk verify_sig verify HH ID_spec CM_spec UT_spec os _ I1) as (_ & _ & G & _).
  apply in_app_or in J. destruct J as [J|J]; [|exact (IH _ I1 ap r J Jr)].
  destruct o as [a ps|]; [|destruct J].
  pose proof (PIN ps L a I ap r J Jr) as X.
  change (lg_run L (OPush a ps :: os)) with (lg_run (lg_step L (OPush a ps)) os).
  destruct (G (sh (item (rp_utxo r)))) as (y & ->). apply in_or_app. left. exact X.
Qed.

Theorem c28_spendable_partial : forall (os : list lop) ap r,
  let L := lg_run (lg_new w) os in
  In ap (accepted (lg_new w) os) -> In r (b_receivers (p_body (snd ap))) ->
  let i := sh (item (rp_utxo r)) in
  In (rp_utxo r, rp_note r) (shard L i) /\
  (length (shard L i) <= 2 ^ (H - 1) ->
   spendable L i (rp_utxo r) /\ has_matching_output ideqb dout L (tree_root di L i) = ROk (tree_root di L i)).
Proof.
  intros os ap r L J Jr i.
  assert (R : In (rp_utxo r, rp_note r) (shard L i)).
  { apply (accepted_registered os (lg_new w)) with (ap := ap); [apply inv_new; assumption|exact J|exact Jr]. }
  split; [exact R|]. intro C. destruct (In_nth_error _ _ R) as (j & E).
  assert (Hj : j < 2 ^ (H - 1)).
  { apply Nat.lt_le_trans with (length (shard L i)); [|exact C]. apply nth_error_Some. rewrite E. discriminate. }
  destruct (spendable_at dl di join joinl H item dg sh HH L i j _ (reach_inv os) E Hj) as (S1 & S2).
  split; [exact S1|]. unfold has_matching_output.
  destruct (ideqb (tree_root di L i) dout); [reflexivity|].
  replace (existsb _ (g_trees L)) with true; [reflexivity|]. symmetry. apply existsb_exists.
  apply in_map_iff in S2. destruct S2 as (t & Et & It). exists t. split; [exact It|]. apply ID_spec. exact Et.
Qed.

(** C29: what an accepted post satisfies. *)
Theorem c29_accept_conditions : forall (L : lg) (p : pst) sacc kacc L',
  transfer_post L p sacc kacc = (L', ROk tt) ->
  signed verify_sig p /\ NoDup (commitments p) /\ new_outputs L p /\ known_outputs dout L p /\
  public_ok L p sacc kacc /\
  canonical (length (b_sources (p_body p))) (length (b_senders (p_body p)))
    (length (b_receivers (p_body p))) (length (b_sinks (p_body p))).
Proof.
  intros L p sacc kacc L' E.
  destruct (transfer_cases L p sacc kacc L' _ E) as [(V & _)|(_ & e & X)]; [|discriminate].
  pose proof (acceptable_canonical probe dout incoming verify_sig verify L p sacc kacc V) as C.
  destruct V as (A & B & D & F & _ & G & _). auto 10.
Qed.

(** C29, the converse: a post that satisfies these conditions, whose nullifiers are new and whose
    proof verifies, is accepted, unless a sink would exceed 128 bits. *)
Theorem c29_accepts : forall (os : list lop) (p : pst) sacc kacc s,
  let L := lg_run (lg_new w) os in
  signed verify_sig p -> NoDup (commitments p) -> new_outputs L p -> known_outputs dout L p ->
  public_ok L p sacc kacc ->
  (forall c, In c (commitments p) -> ~ In c (map fn_com (g_nulls L))) ->
  post_shape p = Some s -> verify s (post_input incoming p) (b_proof (p_body p)) = Some true ->
  (forall a id, b_asset (p_body p) = Some id -> In a kacc ->
     (balance L a id + amount_of a (combine kacc (b_sinks (p_body p))) < u128)%N) ->
  exists L', transfer_post L p sacc kacc = (L', ROk tt).
Proof.
  intros os p sacc kacc s L A B C D E F S0 V O.
  assert (X : acceptable L p sacc kacc).
  { split; [exact A|]. split; [exact E|]. split; [exact B|]. split; [exact D|]. split; [|split; [exact C|exists s, true; auto]].
    intros x I y J Q. exfalso. apply (F (fn_com (sp_null x))); [apply (in_map (fun s => fn_com (sp_null s))); exact I|].
    rewrite <- Q. apply in_map. exact J. }
  unfold LgModel.transfer_post.
  rewrite (proj2 (validate_iff ideqb comeqb uteqb probe dout incoming verify_sig verify ID_spec CM_spec UT_spec L p sacc kacc _) (conj X eq_refl)).
  destruct (post_key dl di join joinl H item dg sh comeqb uteqb nteqb probe ovchk L (key_of p sacc kacc)) as [L' r] eqn:P.
  destruct (post_result dl di join joinl H item dg sh comeqb uteqb nteqb probe dout incoming ovchk verify_sig verify HH CM_spec UT_spec
    L p sacc kacc L' r (reach_inv os) X P) as (NE & PA & _).
  destruct r as [[]|e|]; [eauto|destruct (NE e eq_refl)|].
  destruct (PA eq_refl) as (_ & id & As & NO). exfalso. apply NO. intros a Ia. apply (O a id As Ia).
Qed.

(** C29 for a push, which also rejects other shapes: no panic without an overflow. *)
Theorem c29_push : forall (os : list lop) a (p : pst) L' r,
  let L := lg_run (lg_new w) os in
  push_one L a p = (L', r) ->
  (r = ROk true -> signed verify_sig p /\ NoDup (commitments p) /\ new_outputs L p /\ known_outputs dout L p) /\
  (r = RPanic -> ovchk = true) /\ (forall e, r <> RErr e).
Proof.
  intros os a p L' r L E.
  destruct (push_one_split L a p L' r (reach_inv os) E) as [(-> & _)|(V & r' & P & D)].
  - split; [discriminate|]. split; discriminate.
  - split; [|split].
    + intros _. destruct V as (A & _ & B & C & _ & F & _). auto.
    + intros ->. destruct D as [(D & _)|(_ & ->)]; [discriminate|].
      destruct (post_result dl di join joinl H item dg sh comeqb uteqb nteqb probe dout incoming ovchk verify_sig verify HH CM_spec UT_spec
        L p _ _ L' _ (reach_inv os) V P) as (_ & PA & _). apply (PA eq_refl).
    + intros e ->. destruct D as [(D & _)|(D & _)]; discriminate.
Qed.

End Props.

(** ** Examples and counterexamples *)

(** Two shards with trees of two leaves; commitments, notes and utxos are numbers, the shard of a
    utxo is its parity.  A signature is the list of accounts it signs; a proof is the answer of the
    verifier. *)
Notation tbody := (body nat nat nat nat dig (option bool)).
Notation tpost := (post nat nat nat nat dig unit (list N) (option bool)).
Notation tlg := (ledger nat nat nat nat nat dig).

Fixpoint accs_eqb (a b : list N) : bool :=
  match a, b with
  | [], [] => true
  | x :: a, y :: b => N.eqb x y && accs_eqb a b
  | _, _ => false
  end.
Definition t_sig (_ : unit) (s : list N) (_ : tbody) (acc : list N) : bool := accs_eqb s acc.
Definition t_verify (_ : tshape) (_ : list (pin nat nat nat dig unit)) (p : option bool) : option bool := p.

(** The table compares entries with the same hash.  [by_com]: the hash of the commitment;
    [by_both]: the derived hash, of the commitment and the outgoing note (here without
    collisions). *)
Definition by_com (_ : list (fnull nat nat)) (x y : fnull nat nat) : bool := fn_com x =? fn_com y.
Definition by_both (_ : list (fnull nat nat)) (x y : fnull nat nat) : bool :=
  (fn_com x =? fn_com y) && (fn_note x =? fn_note y).

Section T.
Variable t_probe : list (fnull nat nat) -> fnull nat nat -> fnull nat nat -> bool.
Variable t_ov : bool.
Definition t_push_one (L : tlg) (a : N) (p : tpost) :=
  push_one 0 D0 DJ DL dig_eqb 2 (fun u : nat => u) (fun x => x) (fun x => x mod 2) Nat.eqb Nat.eqb Nat.eqb t_probe D0
    (fun n : nat => n) t_ov t_sig t_verify L a p.
Definition t_post (L : tlg) (p : tpost) (sacc kacc : list N) :=
  transfer_post 0 D0 DJ DL dig_eqb 2 (fun u : nat => u) (fun x => x) (fun x => x mod 2) Nat.eqb Nat.eqb Nat.eqb t_probe D0
    (fun n : nat => n) t_ov t_sig t_verify L p sacc kacc.
Definition t_run (L : tlg) (os : list (@lop nat nat nat nat dig unit (list N) (option bool))) :=
  lg_run 0 D0 DJ DL dig_eqb 2 (fun u : nat => u) (fun x => x) (fun x => x mod 2) Nat.eqb Nat.eqb Nat.eqb t_probe D0
    (fun n : nat => n) t_ov t_sig t_verify L os.
Definition t_accepted (L : tlg) (os : list (@lop nat nat nat nat dig unit (list N) (option bool))) :=
  accepted 0 D0 DJ DL dig_eqb 2 (fun u : nat => u) (fun x => x) (fun x => x mod 2) Nat.eqb Nat.eqb Nat.eqb t_probe D0
    (fun n : nat => n) t_ov t_sig t_verify L os.
End T.
Definition t_new : tlg := lg_new 0 D0 2.

(** A post that makes a note private, one that spends two notes privately and one that withdraws. *)
Definition mint (v : N) (u : nat) (ok : option bool) : tpost :=
  mk_post None (mk_body (Some 7%N) [v] [] [mk_rpost u (u + 100)] [] ok) [].
Definition spend2 (c1 n1 c2 n2 u1 u2 : nat) (root : dig) : tpost :=
  mk_post (Some (tt, [])) (mk_body None [] [mk_spost root (mk_fnull c1 n1); mk_spost D0 (mk_fnull c2 n2)]
    [mk_rpost u1 0; mk_rpost u2 0] [] (Some true)) [].
Definition withdraw (v : N) (c1 c2 u : nat) (signed_acc : N) : tpost :=
  mk_post (Some (tt, [signed_acc])) (mk_body (Some 7%N) [] [mk_spost D0 (mk_fnull c1 0); mk_spost D0 (mk_fnull c2 0)]
    [mk_rpost u 0] [v] (Some true)) [signed_acc].

Definition t_ops : list (@lop nat nat nat nat dig unit (list N) (option bool)) :=
  [OSet 1 7 50; OSet 2 7 20; OPush 1 [mint 30 4 (Some true); mint 5 3 (Some true)];
   OPush 2 [spend2 11 0 12 0 6 5 (DL 4 0)]; OPush 2 [withdraw 9 13 14 8 2]].

(** The history is accepted entirely: four posts, and the balances are as expected. *)
Example t_ops_accepted :
  length (t_accepted by_com true t_new t_ops) = 4 /\
  balance (t_run by_com true t_new t_ops) 1 7 = 15%N /\
  balance (t_run by_com true t_new t_ops) 2 7 = 29%N /\
  map fst (shard (t_run by_com true t_new t_ops) 0) = [4; 6; 8] /\
  map fst (shard (t_run by_com true t_new t_ops) 1) = [3; 5].
Proof. vm_compute. auto. Qed.

(** The hypotheses of the section hold of the instance. *)
Lemma t_shw : forall u : nat, u mod 2 < 2.
Proof. intro u. apply Nat.mod_upper_bound. discriminate. Qed.

Definition t_c22 := c22_no_double_spend_partial 0 D0 DJ DL dig_eqb 2 (fun u : nat => u) (fun x => x) (fun x => x mod 2) Nat.eqb Nat.eqb Nat.eqb by_com D0
    (fun n : nat => n) true t_sig t_verify (le_n 2) dig_eqb_spec Nat.eqb_eq Nat.eqb_eq 2 t_shw.

(** C22: with the hash of the commitment no commitment is spent twice in the history above, and a
    post that repeats one is rejected whatever its outgoing note. *)
Example c22_example :
  NoDup (flat_map (fun ap => commitments (snd ap)) (t_accepted by_com true t_new t_ops)) /\
  snd (t_push_one by_com true (t_run by_com true t_new t_ops) 2 (spend2 11 77 15 0 10 7 D0)) = ROk false.
Proof.
  split; [|vm_compute; reflexivity].
  apply (t_c22 (fun x => N.of_nat (fn_com x))).
  - intros s x y _ E. apply Nat.eqb_eq. apply Nnat.Nat2N.inj. exact E.
  - intros x y E. rewrite E. reflexivity.
Qed.

(** C22 fails: the hash of the code covers the outgoing note too, so the second spend of the
    commitment 11, with another outgoing note, is accepted.  The lookup of this table compares
    every entry with the same hash. *)
Theorem c22_refuted : exists (hash : fnull nat nat -> nat * nat) (probe : list (fnull nat nat) -> fnull nat nat -> fnull nat nat -> bool) os,
  (forall x, hash x = (fn_com x, fn_note x)) /\
  (forall s x y, hash x = hash y -> probe s x y = true) /\
  ~ NoDup (flat_map (fun ap => commitments (snd ap)) (t_accepted probe true t_new os)).
Proof.
  exists (fun x => (fn_com x, fn_note x)), by_both, [OPush 2 [spend2 11 0 12 0 6 5 D0]; OPush 2 [spend2 11 1 13 0 4 3 D0]].
  split; [reflexivity|]. split.
  - intros s x y E. injection E as E1 E2. unfold by_both. rewrite E1, E2, !Nat.eqb_refl. reflexivity.
  - assert (E : flat_map (fun ap => commitments (snd ap)) (t_accepted by_both true t_new [OPush 2 [spend2 11 0 12 0 6 5 D0]; OPush 2 [spend2 11 1 13 0 4 3 D0]]) = [11; 12; 11; 13])
      by (vm_compute; reflexivity).
    rewrite E. intro N. inversion N as [|? ? X _]; subst. apply X. right. left. reflexivity.
Qed.

Example c22_one_post_example : exists L', t_post by_both true t_new (spend2 11 0 12 0 6 5 D0) [] [] = (L', ROk tt).
Proof. eexists. vm_compute. reflexivity. Qed.

(** C23: an error of the verifier is a rejection. *)
Example c23_example :
  post_shape (mint 5 3 None) = Some TToPrivate /\
  t_push_one by_com true (t_run by_com true t_new t_ops) 1 (mint 5 9 None) = (t_run by_com true t_new t_ops, ROk false) /\
  snd (t_push_one by_com true (t_run by_com true t_new t_ops) 1 (mint 5 9 (Some true))) = ROk true.
Proof. vm_compute. auto. Qed.

(** C23 fails: the verifier says that the proof is not valid and the post is accepted. *)
Theorem c23_refuted : exists (p : tpost) s L',
  post_shape p = Some s /\ t_verify s (post_input (fun n => n) p) (b_proof (p_body p)) = Some false /\
  t_push_one by_com true (t_run by_com true t_new [OSet 1 7 50]) 1 p = (L', ROk true) /\
  balance L' 1 7 = 20%N /\ map fst (shard L' 0) = [4].
Proof.
  exists (mint 30 4 (Some false)), TToPrivate. eexists. split; [reflexivity|]. split; [reflexivity|].
  split; [vm_compute; reflexivity|]. split; vm_compute; reflexivity.
Qed.

(** C24 on a withdrawal, and on posts that are not accepted. *)
Example c24_example :
  let L := t_run by_com true t_new [OSet 1 7 50; OSet 2 7 20; OSet 2 8 1] in
  snd (t_post by_com true L (withdraw 9 13 14 8 2) [] [2%N]) = ROk tt /\
  supply L 7 = 70%N /\
  supply (fst (t_post by_com true L (withdraw 9 13 14 8 2) [] [2%N])) 7 = 79%N /\
  supply (fst (t_post by_com true L (withdraw 9 13 14 8 2) [] [2%N])) 8 = 1%N /\
  t_post by_com true L (mint 60 4 (Some true)) [1%N] [] = (L, RErr ESource) /\
  t_post by_com true L (withdraw 9 13 13 8 2) [] [2%N] = (L, RErr EDuplicateSpend).
Proof. vm_compute. auto 10. Qed.

(** C24 fails when a sink exceeds 128 bits: without overflow checks the balance becomes smaller and
    the supply shrinks; with overflow checks the ledger stops after it has recorded the nullifiers
    and the outputs, although nothing was credited. *)
Definition rich : list (@lop nat nat nat nat dig unit (list N) (option bool)) := [OSet 2 7 (u128 - 1)].
Theorem c24_overflow_refuted :
  (exists L', t_post by_com false (t_run by_com false t_new rich) (withdraw 9 13 14 8 2) [] [2%N] = (L', ROk tt) /\
     balance (t_run by_com false t_new rich) 2 7 = (u128 - 1)%N /\ balance L' 2 7 = 8%N) /\
  (exists L', t_post by_com true (t_run by_com true t_new rich) (withdraw 9 13 14 8 2) [] [2%N] = (L', RPanic) /\
     map fn_com (g_nulls L') = [13; 14] /\ map fst (shard L' 0) = [8] /\ balance L' 2 7 = (u128 - 1)%N).
Proof.
  split.
  - eexists. split; [vm_compute; reflexivity|]. split; vm_compute; reflexivity.
  - eexists. split; [vm_compute; reflexivity|]. split; [vm_compute; reflexivity|]. split; vm_compute; reflexivity.
Qed.

(** A push of several posts is not undone when a later one is rejected. *)
Theorem c24_push_atomic_refuted : exists L',
  push 0 D0 DJ DL dig_eqb 2 (fun u : nat => u) (fun x => x) (fun x => x mod 2) Nat.eqb Nat.eqb Nat.eqb by_com D0
    (fun n : nat => n) true t_sig t_verify (t_run by_com true t_new [OSet 1 7 50]) 1 [mint 30 4 (Some true); mint 30 3 (Some true)]
    = (L', ROk false) /\ balance L' 1 7 = 20%N.
Proof. eexists. split; vm_compute; reflexivity. Qed.

(** C25: a withdrawal posted with the signed account. *)
Example c25_example :
  let L := t_run by_com true t_new [OSet 1 7 50; OSet 2 7 20] in
  b_senders (p_body (withdraw 9 13 14 8 2)) <> [] /\
  snd (t_post by_com true L (withdraw 9 13 14 8 2) [] [2%N]) = ROk tt /\
  balance L 2 7 = 20%N /\
  balance (fst (t_post by_com true L (withdraw 9 13 14 8 2) [] [2%N])) 2 7 = 29%N.
Proof. split; [discriminate|]. vm_compute. auto. Qed.

(** C25 fails: account 1 pushes a withdrawal signed for account 2 and gets the amount. *)
Theorem c25_refuted : exists (p : tpost) L' key sig,
  let L := t_run by_com true t_new [OSet 1 7 50; OSet 2 7 20] in
  p_auth p = Some (key, sig) /\ t_sig key sig (p_body p) (p_accounts p) = true /\ p_accounts p = [2%N] /\
  t_sig key sig (p_body p) [1%N] = false /\
  t_push_one by_com true L 1 p = (L', ROk true) /\
  balance L' 1 7 = 59%N /\ balance L 1 7 = 50%N /\ balance L' 2 7 = balance L 2 7.
Proof.
  exists (withdraw 9 13 14 8 2). eexists. exists tt, [2%N]. cbn zeta.
  split; [reflexivity|]. split; [reflexivity|]. split; [reflexivity|]. split; [reflexivity|].
  split; [vm_compute; reflexivity|]. split; [vm_compute; reflexivity|]. split; vm_compute; reflexivity.
Qed.

(** C26: the history above with pulls in between. *)
Definition t_c1 := mk_ckpt [1; 1] 0.
Definition t_c2 := mk_ckpt [3; 2] 4.
Definition t_mid := t_run by_com true t_new (firstn 3 t_ops).
Definition t_end := t_run by_com true t_new t_ops.
Example c26_example :
  notes (snd (pull t_mid (mk_ckpt [0; 0] 0))) = [(4, 104); (3, 103)] /\
  nulls (snd (pull t_mid (mk_ckpt [0; 0] 0))) = [] /\
  notes (snd (pull t_end t_c1)) = [(6, 0); (8, 0); (5, 0)] /\
  map fn_com (nulls (snd (pull t_end t_c1))) = [11; 12; 13; 14] /\
  advanced (fun un : nat * nat => fst un mod 2) t_c1 (snd (pull t_end t_c1)) t_c2.
Proof.
  split; [vm_compute; reflexivity|]. split; [vm_compute; reflexivity|]. split; [vm_compute; reflexivity|].
  split; [vm_compute; reflexivity|]. split; [reflexivity|]. split; [|vm_compute; reflexivity].
  intros i Hi. destruct i as [|[|i]]; [vm_compute; reflexivity..|]. cbn in Hi. exfalso. clear - Hi. lia.
Qed.

Example c26_reads_example : exists ns vs,
  reads 0 D0 DJ DL dig_eqb 2 (fun u : nat => u) (fun x => x) (fun x => x mod 2) Nat.eqb Nat.eqb Nat.eqb by_com D0
    (fun n : nat => n) true t_sig t_verify 2 t_end t_c2 ns vs /\ map fst ns = [4; 3; 6; 8; 5] /\ map fn_com vs = [11; 12; 13; 14].
Proof.
  eexists. eexists. split.
  - apply rd_pull with (c := t_c1); [|apply c26_example].
    change t_end with (t_run by_com true t_mid (skipn 3 t_ops)). unfold t_run, lg_run. cbn [fold_left skipn t_ops].
    do 2 apply rd_op. apply rd_pull with (c := mk_ckpt [0; 0] 0).
    + unfold t_mid, t_run, lg_run. cbn [fold_left firstn t_ops]. do 3 apply rd_op. apply rd_new.
    + split; [reflexivity|]. split; [|vm_compute; reflexivity].
      intros i Hi. destruct i as [|[|i]]; [vm_compute; reflexivity..|]. cbn in Hi. exfalso. clear - Hi. lia.
  - split; vm_compute; reflexivity.
Qed.

(** C27: complete with one used shard; fails for the second shard. *)
Example c27_example : fst (fst (snd (initial_read (t_run by_com true t_new [OSet 1 7 50; OPush 1 [mint 5 4 (Some true); mint 6 2 (Some true)]])))) = [4; 2].
Proof. vm_compute. reflexivity. Qed.
Theorem c27_refuted : exists os,
  map fst (shard (t_run by_com true t_new os) 1) = [3; 5] /\
  fst (fst (snd (initial_read (t_run by_com true t_new os)))) = [4; 6; 8; 5].
Proof. exists t_ops. split; vm_compute; reflexivity. Qed.

(** C28: the second note of a shard has a path to the root. *)
Example c28_example :
  let L := t_end in
  length (shard L 1) <= 2 ^ (2 - 1) /\ In (5, 0) (shard L 1) /\ tree_root D0 L 1 = DL 3 5.
Proof. vm_compute. auto. Qed.

(** C28 fails for the third note of a shard of two leaves: the post that makes it is accepted and
    it is listed, but no path leads from it to the root. *)
Theorem c28_refuted : exists os ap r,
  let L := t_run by_com true t_new os in
  In ap (t_accepted by_com true t_new os) /\ In r (b_receivers (p_body (snd ap))) /\
  In (rp_utxo r, rp_note r) (shard L (rp_utxo r mod 2)) /\
  ~ spendable D0 DJ DL 2 (fun u : nat => u) L (rp_utxo r mod 2) (rp_utxo r).
Proof.
  exists t_ops, (2%N, withdraw 9 13 14 8 2), (mk_rpost 8 0). cbn zeta. split; [|split; [|split]].
  - vm_compute. auto 10.
  - left. reflexivity.
  - vm_compute. auto 10.
  - intros (j & sib & ds & E & Ld & R).
    assert (T : tree_root D0 (t_run by_com true t_new t_ops) 0 = DL 4 6) by (vm_compute; reflexivity).
    change (rp_utxo (mk_rpost 8 0) mod 2) with 0 in R. rewrite T in R.
    destruct ds; [|discriminate]. unfold spec_path_root in R. cbn [climb rp_utxo] in R.
    destruct (Nat.even j); injection R; intros; discriminate.
Qed.

(** C29: the conditions hold of a withdrawal, which is accepted; without a signature, or with one
    on a post without senders, it is not. *)
Example c29_example :
  let L := t_run by_com true t_new [OSet 1 7 50; OSet 2 7 20] in
  snd (t_post by_com true L (withdraw 9 13 14 8 2) [] [2%N]) = ROk tt /\
  snd (t_post by_com true L (mk_post None (p_body (withdraw 9 13 14 8 2)) [2%N]) [] [2%N]) = RErr EMissingSignature /\
  snd (t_post by_com true L (mk_post (Some (tt, [])) (p_body (mint 5 3 (Some true))) []) [1%N] []) = RErr ESignatureShape /\
  snd (t_post by_com true L (withdraw 9 13 14 8 2) [] [3%N]) = RErr ESink.
Proof. vm_compute. auto. Qed.

Example c29_conditions_example :
  let L := t_run by_com true t_new [OSet 1 7 50; OSet 2 7 20] in
  let p := withdraw 9 13 14 8 2 in
  signed t_sig p /\ NoDup (commitments p) /\ new_outputs L p /\ known_outputs D0 L p /\ public_ok L p [] [2%N] /\
  post_shape p = Some TToPublic.
Proof.
  cbn zeta. split; [|split; [|split; [|split; [|split]]]].
  - split; [|intro E; discriminate E]. intros _. exists tt, [2%N]. split; reflexivity.
  - cbn. constructor; [intros [X|[]]; discriminate X|]. constructor; [intros []|constructor].
  - split; [cbn; constructor; [intros []|constructor]|]. intros u _ F. vm_compute in F. exact F.
  - intros s J. left. cbn in J. destruct J as [<-|[<-|[]]]; reflexivity.
  - split; [|split; [reflexivity|split; [reflexivity|split]]].
    + split; intro X; discriminate X.
    + intros a v id _ [].
    + intros a [<-|[]]. eexists. vm_compute. right. left. reflexivity.
  - reflexivity.
Qed.

Print Assumptions c22_no_double_spend_partial.
Print Assumptions c22_one_post.
Print Assumptions c22_refuted.
Print Assumptions c23_verifier_error_partial.
Print Assumptions c23_verifier_called.
Print Assumptions c23_refuted.
Print Assumptions c24_balances.
Print Assumptions c24_rejected.
Print Assumptions c24_push_rejected.
Print Assumptions c24_set_balance.
Print Assumptions c24_overflow_refuted.
Print Assumptions c24_push_atomic_refuted.
Print Assumptions c25_signed_sinks_partial.
Print Assumptions c25_push_credits_pusher.
Print Assumptions c25_refuted.
Print Assumptions c26_reader.
Print Assumptions c26_complete_after_pull.
Print Assumptions c26_pull_is_reply.
Print Assumptions c27_initial_read_partial.
Print Assumptions c27_refuted.
Print Assumptions c28_spendable_partial.
Print Assumptions c28_refuted.
Print Assumptions c29_accept_conditions.
Print Assumptions c29_accepts.
Print Assumptions c29_push.
