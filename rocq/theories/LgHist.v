(** Histories of the simulated ledger: pushes by any account, and balances set by the operator. *)
From Coq Require Import List Arith NArith Bool Lia.
From Verif Require Import MtModel MtSpec MtLemmas MtInner MtInv MtFull MtSingle CkModel CkSpec LgModel LgSpec LgLemmas LgInv LgBal.
Import ListNotations.
Open Scope nat_scope.

Section Hist.
Context {CM ON UT NT IN IT LD ID KEY SG PRF : Type}.
Variable dl : LD.
Variable di : ID.
Variable join : ID -> ID -> ID.
Variable joinl : LD -> LD -> ID.
Variable ideqb : ID -> ID -> bool.
Variable H : nat.
Variable item : UT -> IT.
Variable dg : IT -> LD.
Variable sh : IT -> nat.
Variable comeqb : CM -> CM -> bool.
Variable uteqb : UT -> UT -> bool.
Variable nteqb : NT -> NT -> bool.
Variable probe : list (fnull CM ON) -> fnull CM ON -> fnull CM ON -> bool.
Variable dout : ID.
Variable incoming : NT -> IN.
Variable ovchk : bool.
Variable verify_sig : KEY -> SG -> body CM ON UT NT ID PRF -> list N -> bool.
Variable verify : tshape -> list (pin CM UT IN ID KEY) -> PRF -> option bool.

Notation lg := (ledger CM ON UT NT LD ID).
Notation pst := (post CM ON UT NT ID KEY SG PRF).
Notation push_one := (push_one dl di join joinl ideqb H item dg sh comeqb uteqb nteqb probe dout incoming ovchk verify_sig verify).
Notation push := (push dl di join joinl ideqb H item dg sh comeqb uteqb nteqb probe dout incoming ovchk verify_sig verify).
Notation post_key := (post_key dl di join joinl H item dg sh comeqb uteqb nteqb probe ovchk).
Notation transfer_post := (transfer_post dl di join joinl ideqb H item dg sh comeqb uteqb nteqb probe dout incoming ovchk verify_sig verify).
Notation validate := (validate ideqb comeqb uteqb probe dout incoming verify_sig verify).

Inductive lop := OPush (account : N) (ps : list pst) | OSet (account id value : N).

Definition lg_step (L : lg) (o : lop) : lg :=
  match o with
  | OPush a ps => fst (push L a ps)
  | OSet a id v => match set_public_balance L a id v with Some L' => L' | None => L end
  end.
Definition lg_run (L : lg) (os : list lop) : lg := fold_left lg_step os L.

(** The posts that a history accepts, with the account that pushed them. *)
Fixpoint accepted_in (L : lg) (a : N) (ps : list pst) : list (N * pst) :=
  match ps with
  | [] => []
  | p :: r =>
      match push_one L a p with
      | (L1, ROk true) => (a, p) :: accepted_in L1 a r
      | _ => []
      end
  end.
Fixpoint accepted (L : lg) (os : list lop) : list (N * pst) :=
  match os with
  | [] => []
  | o :: r =>
      match o with OPush a ps => accepted_in L a ps | OSet _ _ _ => [] end ++ accepted (lg_step L o) r
  end.

(** The accounts that a push uses as sources and sinks. *)
Definition push_sources (account : N) (p : pst) : list N :=
  match post_shape p with Some TToPrivate => [account] | _ => [] end.
Definition push_sinks (account : N) (p : pst) : list N :=
  match post_shape p with Some TToPublic => [account] | _ => [] end.

Hypothesis HH : 2 <= H.
Hypothesis ID_spec : forall a b, ideqb a b = true <-> a = b.
Hypothesis CM_spec : forall a b, comeqb a b = true <-> a = b.
Hypothesis UT_spec : forall a b, uteqb a b = true <-> a = b.

Notation Inv := (Inv dl di join joinl H item dg sh).
Notation acceptable := (acceptable probe dout incoming verify_sig verify).

Lemma grows_refl (L : lg) : grows L L.
Proof.
  split; [reflexivity|]. split; [intro i; exists []|exists []]; symmetry; apply app_nil_r.
Qed.

Lemma grows_trans (L1 L2 L3 : lg) : grows L1 L2 -> grows L2 L3 -> grows L1 L3.
Proof.
  intros (A & B & r & C) (A' & B' & r' & C'). split; [congruence|]. split.
  - intro i. destruct (B i) as (x & Hx), (B' i) as (y & Hy). exists (x ++ y). rewrite Hy, Hx, app_assoc. reflexivity.
  - exists (r ++ r'). rewrite C', C, app_assoc. reflexivity.
Qed.

(** Posting a validated post. *)
Lemma post_valid (L : lg) (p : pst) sacc kacc : Inv L -> acceptable L p sacc kacc ->
  exists L2, Inv L2 /\ g_accounts L2 = g_accounts L /\
    g_nulls L2 = g_nulls (spend_all comeqb probe L (b_senders (p_body p))) /\
    g_utxos L2 = g_utxos L ++ outputs p /\
    length (g_shards L2) = length (g_shards L) /\
    (forall i, shard L2 i = shard L i ++ map (fun r => (rp_utxo r, rp_note r))
       (filter (fun r => sh (item (rp_utxo r)) =? i) (b_receivers (p_body p)))) /\
    post_key L (key_of p sacc kacc) =
      match b_asset (p_body p) with
      | Some id => update_public_balances ovchk L2 id (combine sacc (b_sources (p_body p))) (combine kacc (b_sinks (p_body p)))
      | None => (L2, ROk tt)
      end.
Proof.
  intros I (_ & _ & _ & _ & _ & (N & F) & _).
  exact (post_key_spec dl di join joinl H item dg sh comeqb uteqb nteqb probe ovchk HH CM_spec UT_spec
           L (key_of p sacc kacc) I N F).
Qed.

Lemma post_grows (L : lg) (p : pst) sacc kacc L' r : Inv L -> acceptable L p sacc kacc ->
  post_key L (key_of p sacc kacc) = (L', r) ->
  Inv L' /\ grows L L' /\ g_utxos L' = g_utxos L ++ outputs p /\
  incl (commitments p) (map fn_com (g_nulls L')) /\
  (forall i, shard L' i = shard L i ++ map (fun r => (rp_utxo r, rp_note r))
       (filter (fun r => sh (item (rp_utxo r)) =? i) (b_receivers (p_body p)))).
Proof.
  intros I V E. destruct (post_valid L p sacc kacc I V) as (L2 & I2 & A & B & C & D & S2 & E2).
  rewrite E2 in E.
  assert (SN : same_notes L2 L').
  { destruct (b_asset (p_body p)) as [id|].
    - apply update_same in E. exact E.
    - injection E as <- _. apply same_notes_refl. }
  destruct SN as (N1 & N2 & N3 & N4).
  destruct (spend_all_spec comeqb probe CM_spec (b_senders (p_body p)) L) as (_ & _ & _ & _ & x & X1 & _ & X3).
  assert (S' : forall i, shard L' i = shard L2 i) by (intro i; unfold shard; rewrite N3; reflexivity).
  split; [apply (inv_same dl di join joinl H item dg sh L2 L' N2 N3 N4 I2)|]. split.
  - split; [congruence|]. split.
    + intro i. eexists. rewrite S', S2. reflexivity.
    + exists x. rewrite N1, B. exact X1.
  - split; [congruence|]. split; [|intro i; rewrite S', S2; reflexivity].
    unfold commitments. rewrite N1, B. exact X3.
Qed.

(** The three outcomes of a push of one post. *)
Lemma push_one_cases (L : lg) a p L' r : Inv L -> push_one L a p = (L', r) ->
  (r = ROk false /\ L' = L) \/
  ((r = ROk true \/ r = RPanic) /\ acceptable L p (push_sources a p) (push_sinks a p) /\
   exists r', post_key L (key_of p (push_sources a p) (push_sinks a p)) = (L', r') /\
     (r = ROk true <-> r' = ROk tt)) \/
  (r = RPanic /\ L' = L /\ validate L p (push_sources a p) (push_sinks a p) = RPanic).
Proof.
  intros I. unfold LgModel.push_one, push_sources, push_sinks.
  destruct (post_shape p) as [s|]; [|intro E; injection E as <- <-; auto].
  set (sk := match s with TToPrivate => ([a], []) | TPrivate => ([], []) | TToPublic => ([], [a]) end).
  assert (Esk : sk = (match s with TToPrivate => [a] | _ => [] end, match s with TToPublic => [a] | _ => [] end)) by (destruct s; reflexivity).
  rewrite Esk. clear sk Esk.
  set (sacc := match s with TToPrivate => [a] | _ => [] end). set (kacc := match s with TToPublic => [a] | _ => [] end).
  change (match Some s with Some TToPrivate => [a] | _ => [] end) with sacc.
  change (match Some s with Some TToPublic => [a] | _ => [] end) with kacc.
  destruct (validate L p sacc kacc) as [k| |] eqn:V.
  - apply (validate_iff ideqb comeqb uteqb probe dout incoming verify_sig verify ID_spec CM_spec UT_spec) in V.
    destruct V as [V ->]. intro E. right. left.
    destruct (post_key L (key_of p sacc kacc)) as [L1 r1] eqn:P. destruct r1 as [[]| |]; injection E as <- <-.
    + split; [left; reflexivity|]. split; [exact V|]. exists (ROk tt). split; [reflexivity|]. split; reflexivity.
    + split; [right; reflexivity|]. split; [exact V|]. exists (RErr e). split; [reflexivity|]. split; discriminate.
    + split; [right; reflexivity|]. split; [exact V|]. exists RPanic. split; [reflexivity|]. split; discriminate.
  - intro E. injection E as <- <-. auto.
  - intro E. injection E as <- <-. auto 10.
Qed.

Lemma push_one_inv (L : lg) a p L' r : Inv L -> push_one L a p = (L', r) -> Inv L' /\ grows L L'.
Proof.
  intros I E. destruct (push_one_cases L a p L' r I E) as [(_ & ->)|[(_ & V & r' & P & _)|(_ & -> & _)]].
  - split; [exact I|apply grows_refl].
  - destruct (post_grows L p _ _ L' r' I V P) as (A & B & _). auto.
  - split; [exact I|apply grows_refl].
Qed.

Lemma push_inv (ps : list pst) : forall (L : lg) a L' r, Inv L -> push L a ps = (L', r) -> Inv L' /\ grows L L'.
Proof.
  induction ps as [|p ps IH]; intros L a L' r I E; cbn [LgModel.push] in E.
  - injection E as <- _. split; [exact I|apply grows_refl].
  - destruct (push_one L a p) as [L1 r1] eqn:P. destruct (push_one_inv L a p L1 r1 I P) as (I1 & G1).
    assert (D : (r1 = ROk true /\ push L1 a ps = (L', r)) \/ L1 = L').
    { destruct r1 as [[]| |]; auto; right; congruence. }
    destruct D as [(-> & E')| <-]; [|auto].
    destruct (IH L1 a L' r I1 E') as (I2 & G2). split; [exact I2|]. eapply grows_trans; eauto.
Qed.

Lemma step_inv (L : lg) o : Inv L -> Inv (lg_step L o) /\ grows L (lg_step L o).
Proof.
  intro I. destruct o as [a ps|a id v]; cbn [lg_step].
  - destruct (push L a ps) as [L' r] eqn:E. cbn [fst]. apply (push_inv ps L a L' r I E).
  - unfold set_public_balance. destruct (N.eqb id 0); [split; [exact I|apply grows_refl]|].
    split; [apply (inv_same dl di join joinl H item dg sh L); [reflexivity|reflexivity|reflexivity|exact I]|].
    split; [reflexivity|]. split; [intro i; exists []|exists []]; symmetry; apply app_nil_r.
Qed.

Lemma run_inv (os : list lop) : forall L : lg, Inv L -> Inv (lg_run L os) /\ grows L (lg_run L os).
Proof.
  induction os as [|o os IH]; intros L I; [split; [exact I|apply grows_refl]|].
  destruct (step_inv L o I) as (I1 & G1). destruct (IH (lg_step L o) I1) as (I2 & G2).
  split; [exact I2|]. eapply grows_trans; eauto.
Qed.

(** ** Double spending *)

Hypothesis found : forall s x y, In y s -> fn_com x = fn_com y -> probe s x y = true.

Notation spends l := (flat_map (fun ap : N * pst => commitments (snd ap)) l).

Lemma nodup_join {A} (a b : list A) : NoDup a -> NoDup b -> (forall x, In x a -> ~ In x b) -> NoDup (a ++ b).
Proof.
  induction a as [|x a IH]; intros Na Nb D; [exact Nb|]. inversion Na; subst. cbn [app]. constructor.
  - rewrite in_app_iff. intros [F|F]; [contradiction|]. apply (D x); [left; reflexivity|exact F].
  - apply IH; auto. intros y I. apply D. right. exact I.
Qed.

Lemma fresh_commitments (L : lg) p sacc kacc : acceptable L p sacc kacc ->
  NoDup (commitments p) /\ forall c, In c (commitments p) -> ~ In c (map fn_com (g_nulls L)).
Proof.
  intros (_ & _ & N & _ & U & _ & _). split; [exact N|]. intros c I F.
  apply in_map_iff in I. destruct I as (s & E & I). apply in_map_iff in F. destruct F as (y & E' & F).
  specialize (U s I y F). rewrite found in U; [|exact F|congruence]. discriminate U. congruence.
Qed.

Lemma grows_nulls (L L' : lg) : grows L L' -> incl (map fn_com (g_nulls L)) (map fn_com (g_nulls L')).
Proof. intros (_ & _ & r & E) c I. rewrite E, map_app. apply in_or_app. auto. Qed.

Lemma accepted_in_spends (ps : list pst) : forall (L : lg) a, Inv L ->
  NoDup (spends (accepted_in L a ps)) /\
  (forall c, In c (spends (accepted_in L a ps)) -> ~ In c (map fn_com (g_nulls L))) /\
  incl (spends (accepted_in L a ps)) (map fn_com (g_nulls (fst (push L a ps)))).
Proof.
  induction ps as [|p ps IH]; intros L a I; cbn [accepted_in LgModel.push].
  - split; [constructor|]. split; [intros c []|intros c []].
  - destruct (push_one L a p) as [L1 r1] eqn:P.
    assert (D : r1 = ROk true \/ (match r1 with ROk true => (a, p) :: accepted_in L1 a ps | _ => [] end = [] /\ r1 <> ROk true)).
    { destruct r1 as [[]| |]; auto; right; split; auto; discriminate. }
    destruct D as [->|(-> & _)]; [|split; [constructor|]; split; intros c []].
    destruct (push_one_cases L a p L1 _ I P) as [(F & _)|[(_ & V & r' & Pk & R)|(F & _)]]; try discriminate.
    destruct (post_grows L p _ _ L1 r' I V Pk) as (I1 & G1 & _ & C1 & _).
    destruct (IH L1 a I1) as (A & B & C). destruct (fresh_commitments L p _ _ V) as (N & F).
    cbn [flat_map snd]. split; [|split].
    + apply nodup_join; [exact N|exact A|]. intros c Ic Ic'. apply (B c Ic'). apply C1. exact Ic.
    + intros c Ic. apply in_app_or in Ic. destruct Ic as [Ic|Ic]; [apply F; exact Ic|].
      intro F'. apply (B c Ic). apply (grows_nulls L L1 G1). exact F'.
    + intros c Ic. apply in_app_or in Ic. destruct Ic as [Ic|Ic]; [|apply C; exact Ic].
      destruct (push L1 a ps) as [L2 r2] eqn:P2. cbn [fst].
      destruct (push_inv ps L1 a L2 r2 I1 P2) as (_ & G2). apply (grows_nulls L1 L2 G2). apply C1. exact Ic.
Qed.

Lemma accepted_spends (os : list lop) : forall L : lg, Inv L ->
  NoDup (spends (accepted L os)) /\
  (forall c, In c (spends (accepted L os)) -> ~ In c (map fn_com (g_nulls L))) /\
  incl (spends (accepted L os)) (map fn_com (g_nulls (lg_run L os))).
Proof.
  induction os as [|o os IH]; intros L I; cbn [accepted].
  - split; [constructor|]. split; [intros c []|intros c []].
  - destruct (step_inv L o I) as (I1 & G1). destruct (IH _ I1) as (A & B & C).
    destruct (run_inv os _ I1) as (_ & G2).
    rewrite flat_map_app.
    assert (X : NoDup (spends (match o with OPush a ps => accepted_in L a ps | OSet _ _ _ => [] end)) /\
      (forall c, In c (spends (match o with OPush a ps => accepted_in L a ps | OSet _ _ _ => [] end)) -> ~ In c (map fn_com (g_nulls L))) /\
      incl (spends (match o with OPush a ps => accepted_in L a ps | OSet _ _ _ => [] end)) (map fn_com (g_nulls (lg_step L o)))).
    { destruct o as [a ps|a id v]; [apply accepted_in_spends; exact I|].
      split; [constructor|]. split; intros c []. }
    destruct X as (A0 & B0 & C0). split; [|split].
    + apply nodup_join; [exact A0|exact A|]. intros c Ic Ic'. apply (B c Ic'). apply C0. exact Ic.
    + intros c Ic. apply in_app_or in Ic. destruct Ic as [Ic|Ic]; [apply B0; exact Ic|].
      intro F. apply (B c Ic). apply (grows_nulls _ _ G1). exact F.
    + intros c Ic. apply in_app_or in Ic. destruct Ic as [Ic|Ic]; [|apply C; exact Ic].
      apply (grows_nulls _ _ G2). apply C0. exact Ic.
Qed.

End Hist.
