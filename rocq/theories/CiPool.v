(** The private pool along the histories of the ledger: what was minted, what was spent. *)
From Coq Require Import List Arith NArith Bool Lia Permutation.
From Verif Require Import MtModel MtSpec MtLemmas MtInner MtInv MtFull MtSingle CkModel CkSpec LgModel LgSpec LgLemmas LgInv LgBal LgHist LgPost LgProps.
From Verif Require Import CiModel CiSpec CiLemmas CiSound.
Import ListNotations.
Open Scope nat_scope.

Lemma nsum_perm l l' : Permutation l l' -> nsum l = nsum l'.
Proof.
  intro E. induction E; cbn [nsum fold_right] in *; try change (fold_right N.add 0%N) with nsum in *; lia.
Qed.

Lemma filter_perm {A} (f : A -> bool) l l' : Permutation l l' -> Permutation (filter f l) (filter f l').
Proof.
  intro E. induction E; cbn [filter].
  - constructor.
  - destruct (f x); [apply perm_skip|]; exact IHE.
  - destruct (f x), (f y); try apply perm_swap; apply Permutation_refl.
  - eapply perm_trans; eassumption.
Qed.

Lemma holding_app {U} i (l l' : list (U * casset)) : (holding i (l ++ l') = holding i l + holding i l')%N.
Proof. unfold holding, amount_of. rewrite map_app, filter_app, map_app. apply nsum_app. Qed.

Lemma holding_perm {U} i (l l' : list (U * casset)) : Permutation l l' -> holding i l = holding i l'.
Proof.
  intro E. unfold holding, amount_of. apply nsum_perm. apply Permutation_map. apply filter_perm. apply Permutation_map. exact E.
Qed.

Lemma holding_nonzero {U} i (l : list (U * casset)) : holding i (filter (fun x => negb (N.eqb (snd (snd x)) 0)) l) = holding i l.
Proof.
  induction l as [|[u [j v]] l IH]; [reflexivity|]. cbn [filter snd fst].
  change ((u, (j, v)) :: l) with ([(u, (j, v))] ++ l). rewrite (holding_app i [(u, (j, v))]).
  destruct (N.eqb_spec v 0) as [->|NZ]; cbn [negb].
  - rewrite IH. unfold holding at 2, amount_of. cbn. destruct (N.eqb j i); reflexivity.
  - change ((u, (j, v)) :: filter (fun x => negb (N.eqb (snd (snd x)) 0)) l) with ([(u, (j, v))] ++ filter (fun x => negb (N.eqb (snd (snd x)) 0)) l).
    rewrite holding_app, IH. reflexivity.
Qed.

Lemma holding_one {U} id (l : list (U * casset)) : (forall x, In x l -> fst (snd x) = id) ->
  forall i, holding i l = if N.eqb id i then nsum (map (fun x => snd (snd x)) l) else 0%N.
Proof.
  intros A i. induction l as [|[u [j v]] l IH]; [destruct (N.eqb id i); reflexivity|].
  change ((u, (j, v)) :: l) with ([(u, (j, v))] ++ l). rewrite holding_app, IH by (intros x Hx; apply A; right; exact Hx).
  specialize (A (u, (j, v)) (or_introl eq_refl)). cbn [fst snd] in A. subst j.
  assert (X : holding i [(u, (id, v))] = if N.eqb id i then v else 0%N).
  { unfold holding, amount_of. cbn [map filter fst snd]. destruct (N.eqb id i); cbn; lia. }
  rewrite X. cbn [app map snd nsum fold_right]. change (fold_right N.add 0%N) with nsum. destruct (N.eqb id i); lia.
Qed.

Lemma select_inv a b s1 s2 s3 s4 s : select_shape a b s1 s2 s3 s4 = Some s ->
  match s with
  | TToPrivate => a = false /\ b = true /\ s1 = 1 /\ s2 = 0 /\ s3 = 1 /\ s4 = 0
  | TPrivate => a = true /\ b = false /\ s1 = 0 /\ s2 = 2 /\ s3 = 2 /\ s4 = 0
  | TToPublic => a = true /\ b = true /\ s1 = 0 /\ s2 = 2 /\ s3 = 1 /\ s4 = 1
  end.
Proof.
  unfold select_shape. destruct a, b; repeat match goal with |- context [match ?x with _ => _ end] => is_var x; destruct x end;
    intro E; try discriminate E; repeat split; discriminate E.
Qed.

Section Pool.
Context {G CR CMT IT LD ID NC IR IN ON NT SG PRF : Type}.
Notation UT := (utxo CMT).
(* the circuit *)
Variable p : N.
Variable gen : G.
Variable smul : N -> G -> G.
Variable vkhash : G -> N.
Variable ucommit : CR -> N -> N -> G -> CMT.
Variable item : UT -> IT.
Variable dg : IT -> LD.
Variable ncommit : G -> IT -> NC.
Variable inote : G -> IR -> CR * casset -> IN.
Variable join : ID -> ID -> ID.
Variable joinl : LD -> LD -> ID.
Variable H : nat.
Variable geqb : G -> G -> bool.
Variable cmteqb : CMT -> CMT -> bool.
Variable ideqb : ID -> ID -> bool.
Variable nceqb : NC -> NC -> bool.
Variable ineqb : IN -> IN -> bool.
(* the ledger *)
Variable dl : LD.
Variable di : ID.
Variable sh : IT -> nat.
Variable uteqb : UT -> UT -> bool.
Variable nteqb : NT -> NT -> bool.
Variable probe : list (fnull NC ON) -> fnull NC ON -> fnull NC ON -> bool.
Variable dout : ID.
Variable incoming : NT -> IN.
Variable ovchk : bool.
Variable verify_sig : G -> SG -> body NC ON UT NT ID PRF -> list N -> bool.
Variable verify : tshape -> list (pin NC UT IN ID G) -> PRF -> option bool.

Hypothesis G_spec : forall a b, geqb a b = true <-> a = b.
Hypothesis CMT_spec : forall a b, cmteqb a b = true <-> a = b.
Hypothesis ID_spec : forall a b, ideqb a b = true <-> a = b.
Hypothesis NC_spec : forall a b, nceqb a b = true <-> a = b.
Hypothesis IN_spec : forall a b, ineqb a b = true <-> a = b.
Hypothesis UT_spec : forall a b, uteqb a b = true <-> a = b.
Hypothesis Hp : (2 * u128 <= p)%N.
Hypothesis HH : 2 <= H.
(* collision resistance *)
Hypothesis ucommit_inj : forall a b c d a' b' c' d', ucommit a b c d = ucommit a' b' c' d' -> b = b' /\ c = c' /\ d = d'.
Hypothesis item_inj : forall u u', item u = item u' -> u = u'.
Hypothesis dg_inj : forall x x', dg x = dg x' -> x = x'.
Hypothesis ncommit_inj : forall k x k' x', ncommit k x = ncommit k' x' -> k = k' /\ x = x'.
Hypothesis rkey_inj : forall k k', smul (vkhash k) gen = smul (vkhash k') gen -> k = k'.
Hypothesis join_inj : forall a b c d, join a b = join c d -> a = c /\ b = d.
Hypothesis joinl_inj : forall a b c d, joinl a b = joinl c d -> a = c /\ b = d.
Hypothesis join_di : forall a b, join a b <> di.
Hypothesis joinl_di : forall a b, joinl a b <> di.
Hypothesis join_dout : forall a b, join a b <> dout.
Hypothesis joinl_dout : forall a b, joinl a b <> dout.
Hypothesis leaf_dl : forall u, dg (item u) <> dl.
(* the table of the nullifiers *)
Hypothesis found : forall s x y, In y s -> fn_com x = fn_com y -> probe s x y = true.

Notation wit := (witness G CR CMT LD ID NC IR IN).
Notation sat := (satisfied p gen smul vkhash ucommit item dg ncommit inote join joinl H geqb cmteqb ideqb nceqb ineqb).
Notation lg := (ledger NC ON UT NT LD ID).
Notation pst := (post NC ON UT NT ID G SG PRF).
Notation Inv := (Inv dl di join joinl H item dg sh).
Notation acceptable := (acceptable probe dout incoming verify_sig verify).
Notation push_one := (push_one dl di join joinl ideqb H item dg sh nceqb uteqb nteqb probe dout incoming ovchk verify_sig verify).
Notation push := (push dl di join joinl ideqb H item dg sh nceqb uteqb nteqb probe dout incoming ovchk verify_sig verify).
Notation lg_step := (lg_step dl di join joinl ideqb H item dg sh nceqb uteqb nteqb probe dout incoming ovchk verify_sig verify).
Notation lg_run := (lg_run dl di join joinl ideqb H item dg sh nceqb uteqb nteqb probe dout incoming ovchk verify_sig verify).
Notation rk pak := (smul (vkhash pak) gen).
Notation hold := (holds ucommit).

(** The posts whose notes a history registers: the accepted ones, and those that panic when a
    balance overflows, which is after their notes were registered. *)
Fixpoint landed_in (L : lg) (a : N) (ps : list pst) : list pst :=
  match ps with
  | [] => []
  | q :: r =>
      match push_one L a q with
      | (L1, ROk true) => q :: landed_in L1 a r
      | (_, RPanic) => [q]
      | _ => []
      end
  end.
Fixpoint landed (L : lg) (os : list (@lop NC ON UT NT ID G SG PRF)) : list pst :=
  match os with
  | [] => []
  | o :: r => match o with OPush a ps => landed_in L a ps | OSet _ _ _ => [] end ++ landed (lg_step L o) r
  end.

(** The post comes with a proof that someone knew a satisfying assignment for. *)
Definition known (q : pst) : Prop :=
  exists s w, post_shape q = Some s /\ sat s w = true /\ wit_input w = post_input incoming q.

Lemma holds_det u k a k' a' : hold u k a -> hold u k' a' -> k = k' /\ a = a'.
Proof.
  intros (r & E) (r' & E'). destruct (ut_tr u).
  - destruct E as (-> & E), E' as (-> & E'). rewrite E in E'. apply ucommit_inj in E'. destruct E' as (_ & _ & ->). auto.
  - destruct E as (_ & E), E' as (_ & E'). rewrite E in E'. apply ucommit_inj in E'. destruct E' as (A & B & ->).
    destruct a, a'. cbn [fst snd] in *. subst. auto.
Qed.

(** What the witness shows about the post. *)
Lemma known_parts s (w : wit) (q : pst) : post_shape q = Some s -> sat s w = true -> wit_input w = post_input incoming q ->
  w_asset w = b_asset (p_body q) /\ w_sources w = b_sources (p_body q) /\ w_sinks w = b_sinks (p_body q) /\
  map (fun x => (cs_root x, cs_null x)) (w_senders w) = map (fun x => (sp_out x, fn_com (sp_null x))) (b_senders (p_body q)) /\
  map cr_utxo (w_receivers w) = outputs q /\
  (w_senders w <> [] -> exists a, w_auth w = Some a) /\
  (w_asset w = None -> w_sources w = [] /\ w_sinks w = []).
Proof.
  intros S0 W I.
  pose proof (gd_shape _ _ _ _ _ _ _ _ _ _ _ _ _
    (satisfied_good p gen smul vkhash ucommit item dg ncommit inote join joinl H geqb cmteqb ideqb nceqb ineqb G_spec CMT_spec ID_spec NC_spec IN_spec Hp s w W)) as S1.
  unfold post_shape in S0. apply select_inv in S0. unfold CiModel.is_some in S1. unfold LgModel.is_some in S0.
  apply select_inv in S1. unfold wit_input, post_input, outputs in *.
  destruct w as [wa was wso wse wre wsi]. destruct q as [qa [bas bso bse bre bsi bpr] qacc]. cbn [w_auth w_asset w_sources w_senders w_receivers w_sinks
    p_auth p_body b_asset b_sources b_senders b_receivers b_sinks] in *.
  destruct s; destruct S0 as (A1 & A2 & A3 & A4 & A5 & A6); destruct S1 as (B1 & B2 & B3 & B4 & B5 & B6);
  destruct wa as [wa|]; try discriminate; destruct qa as [qa|]; try discriminate;
  destruct was as [was|]; try discriminate; destruct bas as [bas|]; try discriminate;
  repeat match goal with
  | X : length ?l = 0 |- _ => destruct l; [|discriminate X]; clear X
  | X : length ?l = 1 |- _ => destruct l as [|? [|]]; try discriminate X; clear X
  | X : length ?l = 2 |- _ => destruct l as [|? [|? [|]]]; try discriminate X; clear X
  end; cbn [map flat_map app] in I; inversion I; subst; cbn [map];
  repeat split; try congruence; eauto; intro; congruence.
Qed.

Record pool_ok (L : lg) (qs : list pst) (minted spent : list (UT * casset)) : Prop := {
  po_minted : map fst minted = flat_map outputs qs;
  po_utxos : g_utxos L = flat_map outputs qs;
  po_nodup : NoDup (flat_map outputs qs);
  po_holds : forall u a, In (u, a) minted -> exists k, hold u k a;
  po_once : NoDup (map fst spent);
  po_incl : incl spent minted;
  po_null : forall u a, In (u, a) spent -> exists pak, hold u (rk pak) a /\ In (ncommit pak (item u)) (flat_map commitments qs);
  po_why : forall c, In c (flat_map commitments qs) -> exists u pak a, c = ncommit pak (item u) /\ hold u (rk pak) a /\
     (snd a = 0%N \/ In (u, a) spent);
  po_coms : incl (flat_map commitments qs) (map fn_com (g_nulls L));
  po_eq : forall i, (total_out i qs + holding i minted = total_in i qs + holding i spent)%N }.

Lemma pool_new w : pool_ok (lg_new dl di w) [] [] [].
Proof.
  constructor; cbn; try constructor; try (intros; contradiction); auto; intros c [].
Qed.

Lemma total_in_snoc i (qs : list pst) q : total_in i (qs ++ [q]) = (total_in i qs + paid_in i q)%N.
Proof. unfold total_in. rewrite map_app, nsum_app. cbn. lia. Qed.
Lemma total_out_snoc i (qs : list pst) q : total_out i (qs ++ [q]) = (total_out i qs + paid_out i q)%N.
Proof. unfold total_out. rewrite map_app, nsum_app. cbn. lia. Qed.

Lemma nodup_filter_fst {A B} (f : A * B -> bool) (l : list (A * B)) : NoDup (map fst l) -> NoDup (map fst (filter f l)).
Proof.
  induction l as [|x l IH]; intro Nd; [constructor|]. cbn [map filter] in *. inversion Nd as [|? ? F Nd']; subst.
  destruct (f x); cbn [map]; [constructor|]; auto.
  intro I. apply F. apply in_map_iff in I. destruct I as (y & E & I). apply filter_In in I. apply in_map_iff. exists y. tauto.
Qed.

Lemma pool_step (L L' : lg) (qs : list pst) q sacc kacc r minted spent :
  Inv L -> acceptable L q sacc kacc -> known q ->
  post_key dl di join joinl H item dg sh nceqb uteqb nteqb probe ovchk L (key_of q sacc kacc) = (L', r) ->
  pool_ok L qs minted spent -> exists minted' spent', pool_ok L' (qs ++ [q]) minted' spent'.
Proof.
  intros I V (s & w & S0 & W & PI) PK P.
  destruct (known_parts s w q S0 W PI) as (K1 & K2 & K3 & K4 & K5 & K6 & K7).
  pose proof (satisfied_good p gen smul vkhash ucommit item dg ncommit inote join joinl H geqb cmteqb ideqb nceqb ineqb G_spec CMT_spec ID_spec NC_spec IN_spec Hp s w W) as g.
  destruct (post_grows dl di join joinl H item dg sh nceqb uteqb nteqb probe dout incoming ovchk verify_sig verify HH NC_spec UT_spec L q sacc kacc L' r I V PK)
    as (I' & (_ & _ & gn & GN) & GU & GC & _).
  destruct (fresh_commitments probe dout incoming verify_sig verify found L q sacc kacc V) as (FN & FF).
  destruct V as (_ & _ & _ & KO & _ & (NU & NF) & _).
  set (ins := map (fun x => (cs_utxo x, s_asset x)) (w_senders w)).
  set (outs := map (fun x => (cr_utxo x, r_asset x)) (w_receivers w)).
  set (spent1 := filter (fun x : UT * casset => negb (N.eqb (snd (snd x)) 0)) ins).
  assert (MO : map fst outs = outputs q) by (unfold outs; rewrite map_map; cbn [fst]; exact K5).
  assert (CO : map (fun x => cs_null x) (w_senders w) = commitments q).
  { unfold commitments. assert (X := f_equal (map snd) K4). rewrite !map_map in X. cbn [snd] in X. exact X. }
  (* every sender *)
  assert (SE : forall x, In x (w_senders w) -> exists pak, hold (cs_utxo x) (rk pak) (s_asset x) /\
     cs_null x = ncommit pak (item (cs_utxo x)) /\ (snd (s_asset x) <> 0%N -> In (cs_utxo x, s_asset x) minted)).
  { intros x Ix. destruct K6 as (a & EA); [intro Z; rewrite Z in Ix; destruct Ix|].
    destruct (gd_send _ _ _ _ _ _ _ _ _ _ _ _ _ g a x EA Ix) as (A & B & C). exists (ca_key a). split; [exact A|]. split; [exact B|].
    intro NZ. assert (M : exists i t, nth_error (g_trees L) i = Some t /\ cs_root x = s_root t).
    { apply (in_map (fun x => (cs_root x, cs_null x))) in Ix. rewrite K4 in Ix. apply in_map_iff in Ix. destruct Ix as (y & E & Iy).
      injection E as E1 E2. destruct (KO y Iy) as [D|D].
      - destruct C as [C|C]; [congruence|]. exfalso. rewrite E1, C in D. unfold pv_root in D.
        destruct (cswap (pv_right (cs_path x)) (dg (item (cs_utxo x))) (pv_sib (cs_path x))).
        apply (climb_not_leaf join joinl dout join_dout joinl_dout) in D. exact D.
      - apply in_map_iff in D. destruct D as (t & E & It). apply In_nth_error in It. destruct It as (i & It).
        exists i, t. split; [exact It|]. congruence. }
    destruct M as (i & t & Et & Er). destruct (li_tree _ _ _ _ _ _ _ _ L I i t Et) as (_ & R & _).
    rewrite R, <- spec_root_sd in Er.
    pose proof (good_member gen smul vkhash ucommit item dg ncommit inote join joinl H dl di join_inj joinl_inj join_di joinl_di leaf_dl
      s w a x _ g EA Ix NZ Er) as M.
    rewrite <- (firstn_skipn (capacity H) (shard_leaves (fun u => dg (item u)) L i)) in *.
    assert (M' : In (dg (item (cs_utxo x))) (shard_leaves (fun u => dg (item u)) L i)).
    { rewrite <- (firstn_skipn (capacity H) (shard_leaves (fun u => dg (item u)) L i)). apply in_or_app. left.
      rewrite firstn_skipn in M. exact M. }
    unfold shard_leaves in M'. apply in_map_iff in M'. destruct M' as ((u & n) & E & Iu). cbn [fst] in E.
    apply dg_inj in E. apply item_inj in E. subst u.
    pose proof (li_shard _ _ _ _ _ _ _ _ L I i _ Iu) as Si. cbn [fst] in Si.
    assert (Iu' : In (cs_utxo x) (g_utxos L)).
    { apply (li_utxos _ _ _ _ _ _ _ _ L I). exists n. rewrite Si. exact Iu. }
    rewrite (po_utxos _ _ _ _ P), <- (po_minted _ _ _ _ P) in Iu'. apply in_map_iff in Iu'. destruct Iu' as ((u & a') & E & Im).
    cbn [fst] in E. subst u. destruct (po_holds _ _ _ _ P _ _ Im) as (k & Hk). destruct (holds_det _ _ _ _ _ Hk A) as (_ & ->). exact Im. }
  assert (SP : forall u a, In (u, a) spent1 <-> exists x, In x (w_senders w) /\ u = cs_utxo x /\ a = s_asset x /\ snd a <> 0%N).
  { intros u a. unfold spent1, ins. rewrite filter_In, in_map_iff. cbn [snd]. rewrite negb_true_iff, N.eqb_neq. split.
    - intros ((x & E & Ix) & NZ). injection E as <- <-. exists x. auto.
    - intros (x & Ix & -> & -> & NZ). split; [|exact NZ]. exists x. auto. }
  exists (minted ++ outs), (spent ++ spent1). constructor.
  - rewrite map_app, flat_map_app, (po_minted _ _ _ _ P), MO. cbn [flat_map]. rewrite app_nil_r. reflexivity.
  - rewrite GU, flat_map_app, (po_utxos _ _ _ _ P). cbn [flat_map]. rewrite app_nil_r. reflexivity.
  - rewrite flat_map_app. cbn [flat_map]. rewrite app_nil_r. apply nodup_join; [exact (po_nodup _ _ _ _ P)|exact NU|].
    intros u A B. apply (NF u B). rewrite (po_utxos _ _ _ _ P). exact A.
  - intros u a J. apply in_app_or in J. destruct J as [J|J]; [exact (po_holds _ _ _ _ P u a J)|].
    apply in_map_iff in J. destruct J as (m & E & Im). injection E as <- <-. exists (cr_key m).
    exact (proj1 (gd_recv _ _ _ _ _ _ _ _ _ _ _ _ _ g m Im)).
  - rewrite map_app. apply nodup_join; [exact (po_once _ _ _ _ P)| |].
    + (* within the post *)
      assert (X : forall l, NoDup (map (fun x => cs_null x) l) -> incl l (w_senders w) ->
        NoDup (map fst (filter (fun x : UT * casset => negb (N.eqb (snd (snd x)) 0)) (map (fun x => (cs_utxo x, s_asset x)) l)))).
      { induction l as [|x l IH]; intros Nd In'; [constructor|]. cbn [map] in Nd. inversion Nd as [|? ? F Nd']; subst. cbn [map filter snd].
        assert (R := IH Nd' (fun y Y => In' y (or_intror Y))). destruct (negb (N.eqb (snd (s_asset x)) 0)) eqn:Z; [|exact R].
        cbn [map fst]. constructor; [|exact R]. intro J. apply in_map_iff in J. destruct J as ((u & a) & E & J). cbn [fst] in E. subst u.
        apply filter_In in J. destruct J as (J & _). apply in_map_iff in J. destruct J as (y & E & Iy). injection E as E1 E2.
        apply F. apply in_map_iff. exists y. split; [|exact Iy].
        destruct (SE x (In' x (or_introl eq_refl))) as (k & A & B & _). destruct (SE y (In' y (or_intror Iy))) as (k' & A' & B' & _).
        rewrite B, B', E1. rewrite E1 in A'. destruct (holds_det _ _ _ _ _ A A') as (Ek & _). apply rkey_inj in Ek. subst k'. reflexivity. }
      apply X; [rewrite CO; exact FN|apply incl_refl].
    + intros u A B. apply in_map_iff in A. destruct A as ((u1 & a1) & E & A). cbn [fst] in E. subst u1.
      apply in_map_iff in B. destruct B as ((u1 & a2) & E & B). cbn [fst] in E. subst u1.
      apply SP in B. destruct B as (x & Ix & -> & -> & NZ).
      destruct (po_null _ _ _ _ P _ _ A) as (k & Hk & Ic). destruct (SE x Ix) as (k' & Hk' & Ec & _).
      destruct (holds_det _ _ _ _ _ Hk Hk') as (Ek & _). apply rkey_inj in Ek. subst k'.
      apply (FF (cs_null x)).
      * rewrite <- CO. apply in_map_iff. exists x. auto.
      * rewrite Ec. apply (po_coms _ _ _ _ P). exact Ic.
  - intros (u, a) J. apply in_app_or in J. apply in_or_app. left. destruct J as [J|J]; [apply (po_incl _ _ _ _ P); exact J|].
    apply SP in J. destruct J as (x & Ix & -> & -> & NZ). destruct (SE x Ix) as (_ & _ & _ & M). exact (M NZ).
  - intros u a J. apply in_app_or in J. rewrite flat_map_app. destruct J as [J|J].
    + destruct (po_null _ _ _ _ P _ _ J) as (k & Hk & Ic). exists k. split; [exact Hk|]. apply in_or_app. left. exact Ic.
    + apply SP in J. destruct J as (x & Ix & -> & -> & NZ). destruct (SE x Ix) as (k & Hk & Ec & _). exists k. split; [exact Hk|].
      apply in_or_app. right. cbn [flat_map]. rewrite app_nil_r, <- CO, <- Ec. apply in_map_iff. exists x. auto.
  - intros c J. rewrite flat_map_app in J. apply in_app_or in J. destruct J as [J|J].
    + destruct (po_why _ _ _ _ P c J) as (u & k & a & E & Hk & [Z|Z]); exists u, k, a; repeat split; auto.
      right. apply in_or_app. auto.
    + cbn [flat_map] in J. rewrite app_nil_r, <- CO in J. apply in_map_iff in J. destruct J as (x & <- & Ix).
      destruct (SE x Ix) as (k & Hk & Ec & _). exists (cs_utxo x), k, (s_asset x). repeat split; auto.
      destruct (N.eq_dec (snd (s_asset x)) 0) as [Z|Z]; [auto|]. right. apply in_or_app. right. apply SP. exists x. auto.
  - rewrite flat_map_app. intros c J. apply in_app_or in J. destruct J as [J|J].
    + rewrite GN, map_app. apply in_or_app. left. apply (po_coms _ _ _ _ P). exact J.
    + cbn [flat_map] in J. rewrite app_nil_r in J. apply GC. exact J.
  - intro i. rewrite !holding_app, total_in_snoc, total_out_snoc. unfold spent1. rewrite holding_nonzero.
    pose proof (po_eq _ _ _ _ P i) as E0.
    assert (E1 : (paid_out i q + holding i outs = paid_in i q + holding i ins)%N).
    { destruct (gd_ids _ _ _ _ _ _ _ _ _ _ _ _ _ g) as (id & D1 & D2 & D3).
      pose proof (gd_sum _ _ _ _ _ _ _ _ _ _ _ _ _ g) as SU.
      rewrite (holding_one id outs), (holding_one id ins).
      2:{ intros x Ix. apply in_map_iff in Ix. destruct Ix as (y & <- & Iy). cbn [snd]. apply D1. exact Iy. }
      2:{ intros x Ix. apply in_map_iff in Ix. destruct Ix as (y & <- & Iy). cbn [snd]. apply D2. exact Iy. }
      unfold ins, outs. rewrite !map_map. cbn [snd]. unfold paid_out, paid_in. rewrite <- K1, <- K2, <- K3.
      destruct D3 as [D3|D3]; rewrite D3.
      - destruct (K7 D3) as (Z1 & Z2). rewrite Z1, Z2 in SU. cbn [nsum fold_right] in SU. change (fold_right N.add 0%N) with nsum in SU.
        destruct (N.eqb id i); clear - SU; lia.
      - destruct (N.eqb id i); clear - SU; lia. }
    clear - E0 E1. lia.
Qed.

Lemma pool_same (L L' : lg) qs minted spent : g_utxos L' = g_utxos L -> g_nulls L' = g_nulls L ->
  pool_ok L qs minted spent -> pool_ok L' qs minted spent.
Proof. intros E1 E2 P. destruct P. constructor; auto; [congruence|rewrite E2; assumption]. Qed.

Lemma landed_in_pool (ps : list pst) : forall (L : lg) a qs minted spent, Inv L ->
  (forall q, In q (landed_in L a ps) -> known q) -> pool_ok L qs minted spent ->
  exists minted' spent', pool_ok (fst (push L a ps)) (qs ++ landed_in L a ps) minted' spent'.
Proof.
  induction ps as [|q ps IH]; intros L a qs minted spent I K P; cbn [landed_in LgModel.push] in *.
  - rewrite app_nil_r. eauto.
  - destruct (push_one L a q) as [L1 r] eqn:E.
    destruct (push_one_split dl di join joinl ideqb H item dg sh nceqb uteqb nteqb probe dout incoming ovchk verify_sig verify HH ID_spec NC_spec UT_spec
      L a q L1 r I E) as [(-> & ->)|(V & r' & PK & R)].
    + rewrite app_nil_r. cbn [fst]. eauto.
    + destruct R as [(-> & ->)|(-> & ->)].
      * destruct (pool_step L L1 qs q _ _ _ minted spent I V (K q (or_introl eq_refl)) PK P) as (m1 & s1 & P1).
        assert (I1 : Inv L1).
        { apply (post_grows dl di join joinl H item dg sh nceqb uteqb nteqb probe dout incoming ovchk verify_sig verify HH NC_spec UT_spec L q _ _ L1 _ I V PK). }
        destruct (IH L1 a (qs ++ [q]) m1 s1 I1 (fun x X => K x (or_intror X)) P1) as (m2 & s2 & P2).
        exists m2, s2. rewrite <- app_assoc in P2. exact P2.
      * cbn [fst]. exact (pool_step L L1 qs q _ _ _ minted spent I V (K q (or_introl eq_refl)) PK P).
Qed.

Lemma landed_pool (os : list (@lop NC ON UT NT ID G SG PRF)) : forall (L : lg) qs minted spent, Inv L ->
  (forall q, In q (landed L os) -> known q) -> pool_ok L qs minted spent ->
  exists minted' spent', pool_ok (lg_run L os) (qs ++ landed L os) minted' spent'.
Proof.
  induction os as [|o os IH]; intros L qs minted spent I K P; cbn [landed] in *.
  - rewrite app_nil_r. exists minted, spent. exact P.
  - change (lg_run L (o :: os)) with (lg_run (lg_step L o) os).
    destruct (step_inv dl di join joinl ideqb H item dg sh nceqb uteqb nteqb probe dout incoming ovchk verify_sig verify HH ID_spec NC_spec UT_spec L o I) as (I1 & _).
    assert (X : exists m1 s1, pool_ok (lg_step L o) (qs ++ match o with OPush a ps => landed_in L a ps | OSet _ _ _ => [] end) m1 s1).
    { destruct o as [a ps|a id v].
      - apply landed_in_pool with (minted := minted) (spent := spent); [exact I| |exact P]. intros q Iq. apply K. apply in_or_app. left. exact Iq.
      - rewrite app_nil_r. exists minted, spent. cbn [LgHist.lg_step]. unfold set_public_balance.
        destruct (N.eqb id 0); [exact P|]. apply (pool_same L); [reflexivity|reflexivity|exact P]. }
    destruct X as (m1 & s1 & P1).
    destruct (IH _ _ m1 s1 I1 (fun q Q => K q (in_or_app _ _ _ (or_intror Q))) P1) as (m2 & s2 & P2).
    exists m2, s2. rewrite <- app_assoc in P2. exact P2.
Qed.

Lemma in_existsb (l : list (UT * casset)) u : existsb (fun x => uteqb (fst x) u) l = true <-> In u (map fst l).
Proof.
  rewrite existsb_exists, in_map_iff. split.
  - intros (x & Ix & E). exists x. apply UT_spec in E. auto.
  - intros (x & E & Ix). exists x. split; [exact Ix|]. apply UT_spec. exact E.
Qed.

(** The pool: minted and not spent. *)
Lemma pool_left (L : lg) qs minted spent : pool_ok L qs minted spent ->
  exists pool : list (UT * casset),
    NoDup (map fst pool) /\
    (forall u a, In (u, a) pool -> In u (g_utxos L) /\ exists k, hold u k a) /\
    (forall u a pak, In (u, a) pool -> snd a <> 0%N -> hold u (rk pak) a -> ~ In (ncommit pak (item u)) (flat_map commitments qs)) /\
    forall i, (total_out i qs + holding i pool = total_in i qs)%N.
Proof.
  intro P. set (f := fun x : UT * casset => negb (existsb (fun y => uteqb (fst y) (fst x)) spent)).
  assert (ND : NoDup (map fst minted)) by (rewrite (po_minted _ _ _ _ P); exact (po_nodup _ _ _ _ P)).
  assert (NN : forall (l : list (UT * casset)), NoDup (map fst l) -> NoDup l) by (intro l; apply NoDup_map_inv).
  exists (filter f minted).
  assert (PE : Permutation minted (spent ++ filter f minted)).
  { apply NoDup_Permutation; [apply NN; exact ND| |].
    - apply nodup_join; [apply NN; exact (po_once _ _ _ _ P)|apply NN; apply nodup_filter_fst; exact ND|].
      intros x A B. apply filter_In in B. destruct B as (_ & B). unfold f in B. apply negb_true_iff in B.
      assert (T : existsb (fun y => uteqb (fst y) (fst x)) spent = true) by (apply in_existsb; apply in_map; exact A). congruence.
    - intro x. split.
      + intro M. apply in_or_app. destruct (existsb (fun y => uteqb (fst y) (fst x)) spent) eqn:E.
        * left. apply in_existsb in E. apply in_map_iff in E. destruct E as (y & E & Iy).
          assert (x = y); [|subst; exact Iy]. pose proof (po_incl _ _ _ _ P y Iy) as My. destruct x as (u & a), y as (u' & a'). cbn [fst] in E. subst u'.
          destruct (po_holds _ _ _ _ P _ _ M) as (k & Hk), (po_holds _ _ _ _ P _ _ My) as (k' & Hk').
          destruct (holds_det _ _ _ _ _ Hk Hk') as (_ & ->). reflexivity.
        * right. apply filter_In. split; [exact M|]. unfold f. rewrite E. reflexivity.
      + intro M. apply in_app_or in M. destruct M as [M|M]; [apply (po_incl _ _ _ _ P); exact M|]. apply filter_In in M. tauto. }
  split; [apply nodup_filter_fst; exact ND|]. split; [|split].
  - intros u a J. apply filter_In in J. destruct J as (J & _). split; [|exact (po_holds _ _ _ _ P u a J)].
    rewrite (po_utxos _ _ _ _ P), <- (po_minted _ _ _ _ P). apply (in_map fst) in J. exact J.
  - intros u a pak J NZ Hk Ic. apply filter_In in J. destruct J as (_ & J). unfold f in J. apply negb_true_iff in J. cbn [fst] in J.
    destruct (po_why _ _ _ _ P _ Ic) as (u' & k & a' & E & Hk' & Z). apply ncommit_inj in E. destruct E as (<- & E). apply item_inj in E. subst u'.
    destruct (holds_det _ _ _ _ _ Hk Hk') as (_ & <-). destruct Z as [Z|Z]; [contradiction|].
    assert (T : existsb (fun y => uteqb (fst y) u) spent = true) by (apply in_existsb; apply (in_map fst) in Z; exact Z). congruence.
  - intro i. pose proof (po_eq _ _ _ _ P i) as E. rewrite (holding_perm i _ _ PE), holding_app in E. clear - E. lia.
Qed.

End Pool.
