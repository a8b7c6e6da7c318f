(** Property C60: identity proofs. *)
From Coq Require Import List Arith NArith Bool Lia.
From Verif Require Import MtModel MtSpec MtLemmas MtInner MtInv MtFull MtSingle PtModel CkModel CkSpec LgModel LgSpec LgLemmas LgInv LgBal LgHist LgPost LgProps.
From Verif Require Import CiModel CiSpec CiLemmas CiSound CiPool CiProps IdModel IdLemmas.
Import ListNotations.
Open Scope nat_scope.

Section C60.
Context {G CR CMT IT LD ID NC IR IN ON NT SG PRF : Type}.
Notation UT := (utxo CMT).
Variable p : N.
Variable gen : G.
Variable smul : N -> G -> G.
Variable vkhash : G -> N.
Variable r : N.
Variable ucommit : CR -> N -> N -> G -> CMT.
Variable item : UT -> IT.
Variable dg : IT -> LD.
Variable ncommit : G -> IT -> NC.
Variable inote : G -> IR -> CR * casset -> IN.
Variable dl : LD.
Variable di : ID.
Variable join : ID -> ID -> ID.
Variable joinl : LD -> LD -> ID.
Variable H : nat.
Variable geqb : G -> G -> bool.
Variable cmteqb : CMT -> CMT -> bool.
Variable ldeqb : LD -> LD -> bool.
Variable ideqb : ID -> ID -> bool.
Variable nceqb : NC -> NC -> bool.
Variable ineqb : IN -> IN -> bool.
Variable sh : IT -> nat.
Variable width : nat.
Variable chk : bool.
Variable dout : ID.
Variable incoming : NT -> IN.
Variable verify_sig : G -> SG -> body NC ON UT NT ID PRF -> list N -> bool.
Variable verify : tshape -> list (pin NC UT IN ID G) -> PRF -> option bool.
Hypothesis G_spec : forall a b, geqb a b = true <-> a = b.
Hypothesis CMT_spec : forall a b, cmteqb a b = true <-> a = b.
Hypothesis LD_spec : forall a b, ldeqb a b = true <-> a = b.
Hypothesis ID_spec : forall a b, ideqb a b = true <-> a = b.
Hypothesis NC_spec : forall a b, nceqb a b = true <-> a = b.
Hypothesis IN_spec : forall a b, ineqb a b = true <-> a = b.
Hypothesis Hp : (2 * u128 <= p)%N.
Hypothesis HH : 3 <= H.
Hypothesis join_di : forall a b, join a b <> di.
Hypothesis joinl_di : forall a b, joinl a b <> di.
Hypothesis shards : forall u, sh (item u) < width.

Notation wit := (witness G CR CMT LD ID NC IR IN).
Notation sat := (satisfied p gen smul vkhash ucommit item dg ncommit inote join joinl H geqb cmteqb ideqb nceqb ineqb).
Notation pst := (post NC ON UT NT ID G SG PRF).
Notation lg := (ledger NC ON UT NT LD ID).
Notation id_verify := (identity_verification ucommit item dg dl di join joinl ideqb H sh width incoming verify_sig verify).
Notation pay_verify := (pay_identity_verification ucommit item dg dl di join joinl ideqb H sh width incoming verify_sig verify).
Notation id_witness := (identity_witness gen smul vkhash r ucommit item dg ncommit inote dl di join joinl ldeqb ideqb H sh width chk dout).
Notation sing := (singleton_output dg dl di join joinl ideqb H sh width).
Notation root1 u := (spec_root dl di join joinl H [dg (item u)]).

Lemma sing_root u : sing (item u) = Some (root1 u).
Proof.
  destruct (fo_one dl di join joinl ldeqb ideqb dg sh H HH LD_spec ID_spec join_di joinl_di chk width (item u) (shards u))
    as (f & f1 & t & q & E1 & E2 & E3 & E4 & _).
  unfold singleton_output. rewrite E1, E2, E3. cbn [option_map]. rewrite E4. reflexivity.
Qed.

Lemma accounts_eqb_spec a : forall b, accounts_eqb a b = true <-> a = b.
Proof.
  induction a as [|x a IH]; intros [|y b]; cbn [accounts_eqb]; try (split; congruence).
  rewrite andb_true_iff, N.eqb_eq, IH. split; [intros (-> & ->); reflexivity|intro E; injection E as -> ->; auto].
Qed.

(** What the verification checks. *)
Lemma id_verify_ok q tr rand a addr account : id_verify q tr rand a addr account = IOk <->
  post_shape q = Some TToPublic /\ p_accounts q = [account] /\
  check_auth verify_sig q = ROk tt /\
  verify TToPublic (post_input incoming q) (b_proof (p_body q)) = Some true /\
  exists s, In s (b_senders (p_body q)) /\ sp_out s = root1 (utxo_for ucommit tr rand a addr).
Proof.
  unfold identity_verification. rewrite sing_root. split.
  - destruct (post_shape q) as [[]|]; try discriminate.
    destruct (accounts_eqb (p_accounts q) [account]) eqn:EA; [|discriminate]. cbn [negb].
    apply accounts_eqb_spec in EA.
    destruct (check_auth verify_sig q) as [[]| |]; try discriminate.
    destruct (verify TToPublic (post_input incoming q) (b_proof (p_body q))) as [[]|]; try discriminate.
    destruct (existsb _ _) eqn:EX; [|discriminate]. intros _.
    apply existsb_exists in EX. destruct EX as (s & Is & Es). apply ID_spec in Es.
    repeat split; auto. exists s. auto.
  - intros (-> & EA & -> & -> & s & Is & Es). apply accounts_eqb_spec in EA. rewrite EA. cbn [negb].
    destruct (existsb _ _) eqn:EX; [reflexivity|]. exfalso.
    assert (X : existsb (fun s => ideqb (sp_out s) (root1 (utxo_for ucommit tr rand a addr))) (b_senders (p_body q)) = true).
    { apply existsb_exists. exists s. split; [exact Is|]. apply ID_spec. exact Es. }
    congruence.
Qed.

Section Sound.
Hypothesis ucommit_inj : forall a b c d a' b' c' d', ucommit a b c d = ucommit a' b' c' d' -> b = b' /\ c = c' /\ d = d'.
Hypothesis item_inj : forall u u', item u = item u' -> u = u'.
Hypothesis dg_inj : forall x x', dg x = dg x' -> x = x'.
Hypothesis join_inj : forall a b c d, join a b = join c d -> a = c /\ b = d.
Hypothesis joinl_inj : forall a b c d, joinl a b = joinl c d -> a = c /\ b = d.
Hypothesis leaf_dl : forall u, dg (item u) <> dl.

Lemma holds_for tr rand a addr k a' : holds ucommit (utxo_for ucommit tr rand a addr) k a' -> k = addr.
Proof.
  intros (rand' & X). unfold utxo_for in X. cbn [ut_tr ut_pub ut_com] in X. destruct tr; destruct X as (_ & X); apply ucommit_inj in X;
    destruct X as (_ & _ & X); auto.
Qed.

(** C60, guarded soundness.  Full statement: if an identity proof verifies for an address, then the
    key that signed it is a randomization of a key with that address.  That fails, see
    [c60_forgery_refuted].  Here: it holds if in addition the post pays something out and the
    outputs of its senders are no others than the output of the virtual asset and the default
    output, which the verification does not check and which the honest proofs meet
    ([c60_complete]).  The proof system is taken to have an extractor. *)
Theorem c60_sound_partial : forall extract : PRF -> wit,
  (forall s x prf, verify s x prf = Some true -> sat s (extract prf) = true /\ wit_input (extract prf) = x) ->
  (forall a b, join a b <> dout) -> (forall a b, joinl a b <> dout) ->
  forall (q : pst) tr rand a addr account,
  id_verify q tr rand a addr account = IOk ->
  nsum (b_sinks (p_body q)) <> 0%N ->
  (forall s, In s (b_senders (p_body q)) -> sp_out s = root1 (utxo_for ucommit tr rand a addr) \/ sp_out s = dout) ->
  exists au sig, w_auth (extract (b_proof (p_body q))) = Some au /\
    p_auth q = Some (ca_rkey au, sig) /\ ca_rkey au = smul (ca_rand au) (ca_key au) /\
    addr = smul (vkhash (ca_key au)) gen /\
    verify_sig (ca_rkey au) sig (p_body q) [account] = true /\
    exists s, In s (b_senders (p_body q)) /\ fn_com (sp_null s) = ncommit (ca_key au) (item (utxo_for ucommit tr rand a addr)).
Proof.
  intros extract KS JD JLD q tr rand a addr account V NZ GU.
  apply id_verify_ok in V. destruct V as (SH & AC & CA & VE & _).
  destruct (KS _ _ _ VE) as (W & WI). set (w := extract (b_proof (p_body q))) in *.
  pose proof (satisfied_good p gen smul vkhash ucommit item dg ncommit inote join joinl H geqb cmteqb ideqb nceqb ineqb G_spec CMT_spec ID_spec NC_spec IN_spec Hp TToPublic w W) as g.
  destruct (known_parts p gen smul vkhash ucommit item dg ncommit inote join joinl H geqb cmteqb ideqb nceqb ineqb incoming
    G_spec CMT_spec ID_spec NC_spec IN_spec Hp TToPublic w q SH W WI) as (K1 & K2 & K3 & K4 & K5 & K6 & K7).
  pose proof (gd_sum _ _ _ _ _ _ _ _ _ _ _ _ _ g) as SU.
  pose proof (gd_shape _ _ _ _ _ _ _ _ _ _ _ _ _ g) as GS. apply select_inv in GS. cbn in GS.
  destruct GS as (GS1 & GS2 & GS3 & GS4 & GS5 & GS6).
  assert (NS : nsum (w_sources w) = 0%N) by (destruct (w_sources w); [reflexivity|discriminate GS3]).
  assert (EX : exists s, In s (w_senders w) /\ snd (s_asset s) <> 0%N).
  { assert (Z : nsum (map (fun s => snd (s_asset s)) (w_senders w)) <> 0%N).
    { rewrite <- K3 in NZ. rewrite NS in SU. clear - SU NZ. lia. }
    clear - Z. induction (w_senders w) as [|s l IH]; [exfalso; apply Z; reflexivity|].
    cbn [map] in Z. unfold nsum in Z. cbn [fold_right] in Z. fold (nsum (map (fun s => snd (s_asset s)) l)) in Z.
    destruct (N.eq_dec (snd (s_asset s)) 0) as [E|E].
    - destruct IH as (x & Ix & Ex); [intro Z'; apply Z; rewrite E, Z'; reflexivity|]. exists x. split; [right; exact Ix|exact Ex].
    - exists s. split; [left; reflexivity|exact E]. }
  destruct EX as (s & Is & Es).
  destruct (w_auth w) as [au|] eqn:EA; [|discriminate GS1].
  destruct (gd_send _ _ _ _ _ _ _ _ _ _ _ _ _ g au s EA Is) as (A & B & C). destruct C as [C|C]; [congruence|].
  assert (Iq : exists y, In y (b_senders (p_body q)) /\ sp_out y = cs_root s /\ fn_com (sp_null y) = cs_null s).
  { apply (in_map (fun x => (cs_root x, cs_null x))) in Is. rewrite K4 in Is. apply in_map_iff in Is. destruct Is as (y & E & Iy).
    injection E as E1 E2. exists y. auto. }
  destruct Iq as (y & Iy & Ey & Ny).
  destruct (GU y Iy) as [R|R].
  2:{ exfalso. rewrite Ey, C in R. unfold pv_root in R. destruct (cswap (pv_right (cs_path s)) (dg (item (cs_utxo s))) (pv_sib (cs_path s))).
      apply (climb_not_leaf join joinl dout JD JLD) in R. exact R. }
  rewrite Ey in R.
  pose proof (good_member gen smul vkhash ucommit item dg ncommit inote join joinl H dl di join_inj joinl_inj join_di joinl_di leaf_dl
    TToPublic w au s _ g EA Is Es R) as M.
  destruct M as [M|[]]. apply dg_inj, item_inj in M. rewrite <- M in A, B.
  unfold check_auth in CA. assert (LS : length (b_senders (p_body q)) = 2).
  { assert (X := f_equal (@length _) K4). rewrite !map_length in X. rewrite <- X. exact GS4. }
  rewrite LS in CA. cbn [requires_authorization Nat.ltb Nat.leb] in CA.
  destruct (p_auth q) as [[k sg]|] eqn:PA; [|discriminate].
  destruct (verify_sig k sg (p_body q) (p_accounts q)) eqn:VS; [|discriminate].
  assert (EK : k = ca_rkey au).
  { unfold wit_input, post_input in WI. rewrite EA, PA in WI. cbn [app fst] in WI. injection WI as X _. symmetry. exact X. }
  subst k. rewrite AC in VS. exists au, sg. split; [reflexivity|]. split; [reflexivity|].
  split; [symmetry; exact (gd_auth _ _ _ _ _ _ _ _ _ _ _ _ _ g au EA)|].
  split; [symmetry; exact (holds_for _ _ _ _ _ _ A)|]. split; [exact VS|].
  exists y. split; [exact Iy|]. rewrite Ny. exact B.
Qed.

Section Ledger.
Variable uteqb : UT -> UT -> bool.
Variable nteqb : NT -> NT -> bool.
Variable probe : list (fnull NC ON) -> fnull NC ON -> fnull NC ON -> bool.
Variable ovchk : bool.
Hypothesis UT_spec : forall a b, uteqb a b = true <-> a = b.
Notation lg_run := (lg_run dl di join joinl ideqb H item dg sh nceqb uteqb nteqb probe dout incoming ovchk verify_sig verify).
Notation lg_new := (lg_new (CM := NC) (ON := ON) (UT := UT) (NT := NT) dl di).
Notation validate := (validate ideqb nceqb uteqb probe dout incoming verify_sig verify).

(** C60, no replay, guarded.  Full statement: no ledger accepts the post of an identity proof.  That
    fails, see [c60_replay_refuted].  Here: a ledger reached by any history accepts the post only if
    the virtual utxo is the one and only utxo of its shard on that ledger. *)
Theorem c60_no_replay_partial :
  (forall a b, join a b <> dout) -> (forall a b, joinl a b <> dout) ->
  forall n (os : list lop), (forall u, sh (item u) < n) ->
  forall (q : pst) tr rand a addr account sacc kacc k,
  id_verify q tr rand a addr account = IOk ->
  validate (lg_run (lg_new n) os) q sacc kacc = ROk k ->
  let u := utxo_for ucommit tr rand a addr in
  exists note, nth_error (g_shards (lg_run (lg_new n) os)) (sh (item u)) = Some [(u, note)].
Proof.
  intros JD JLD n os SW q tr rand a addr account sacc kacc k V VA u.
  apply id_verify_ok in V. destruct V as (_ & _ & _ & _ & s & Is & Es). fold u in Es.
  set (L := lg_run (lg_new n) os) in *.
  assert (I : Inv dl di join joinl H item dg sh L).
  { assert (H2 : 2 <= H) by (clear - HH; lia).
    apply (run_inv dl di join joinl ideqb H item dg sh nceqb uteqb nteqb probe dout incoming ovchk verify_sig verify H2 ID_spec NC_spec UT_spec).
    apply inv_new; [exact H2|exact SW]. }
  assert (VA' : acceptable probe dout incoming verify_sig verify L q sacc kacc).
  { apply validate_iff in VA; [|exact ID_spec|exact NC_spec|exact UT_spec]. destruct VA as (VA & _). exact VA. }
  destruct VA' as (_ & _ & _ & KO & _). 
  destruct (KO s Is) as [D|D].
  - exfalso. rewrite D in Es. unfold spec_root in Es. destruct (H - 2) as [|h]; cbn [tree_digest] in Es; symmetry in Es; [exact (JLD _ _ Es)|exact (JD _ _ Es)].
  - apply in_map_iff in D. destruct D as (t & Et & It). apply In_nth_error in It. destruct It as (i & It).
    destruct (li_tree _ _ _ _ _ _ _ _ L I i t It) as (_ & R & _). rewrite Et, Es, <- spec_root_sd in R.
    assert (P2 : 2 * 2 <= capacity H).
    { unfold capacity. replace (H - 1) with (S (S (H - 3))) by (clear - HH; lia). cbn [Nat.pow]. pose proof (pow2_pos (H - 3)) as PP. clear - PP. lia. }
    unfold spec_root in R.
    pose proof (one_leaf dl di join joinl join_di joinl_di join_inj joinl_inj (H - 2) (dg (item u)) (firstn (capacity H) (shard_leaves (fun u => dg (item u)) L i))) as Q.
    assert (Q' : firstn (capacity H) (shard_leaves (fun u => dg (item u)) L i) = [dg (item u)]).
    { apply Q; [| |exact R].
      - rewrite firstn_length. unfold capacity. replace (H - 1) with (S (H - 2)) by (clear - HH; lia). apply Nat.le_min_l.
      - intros y Iy. assert (Iy' : In y (shard_leaves (fun u => dg (item u)) L i)).
        { rewrite <- (firstn_skipn (capacity H)). apply in_or_app. left. exact Iy. }
        unfold shard_leaves in Iy'. apply in_map_iff in Iy'. destruct Iy' as (x & <- & _). apply leaf_dl. }
    assert (LE : length (shard_leaves (fun u => dg (item u)) L i) = 1).
    { assert (X := f_equal (@length _) Q'). rewrite firstn_length in X. cbn [length] in X. clear - X P2. lia. }
    rewrite firstn_all2 in Q' by (rewrite LE; clear - P2; lia). unfold shard_leaves in Q'.
    destruct (shard L i) as [|[u' nt] [|]] eqn:ES; try discriminate. cbn [map fst] in Q'. injection Q' as Q'.
    apply dg_inj, item_inj in Q'. subst u'.
    pose proof (li_shard _ _ _ _ _ _ _ _ L I i (u, nt)) as SI. rewrite ES in SI. specialize (SI (or_introl eq_refl)). cbn [fst] in SI.
    rewrite SI. exists nt. unfold shard in ES.
    destruct (nth_error (g_shards L) i) as [l|] eqn:EN.
    + apply nth_error_nth with (d := []) in EN. rewrite EN in ES. congruence.
    + apply nth_error_None in EN. rewrite nth_overflow in ES by exact EN. discriminate.
Qed.
End Ledger.
End Sound.

(** C60, completeness.  The identity proof that a wallet makes verifies for the wallet's own address,
    for every virtual asset with an id that is not zero; its post pays out the value of the asset and
    its outputs are the one of the virtual asset and the default one. *)
Theorem c60_complete :
  (forall n, smul (n mod r) gen = smul n gen) ->
  forall sk arand tr rand a tr2 rand2 dpath irand crand account,
  fst a <> 0%N -> (snd a < u128)%N -> length (p_inner dpath) = path_length H ->
  let addr := rkey gen smul vkhash r (smul sk gen) in
  exists w, id_witness sk arand tr rand a tr2 rand2 dpath irand crand = Some w /\
    sat TToPublic w = true /\
    forall (ons : list ON) (nts : list NT) prf sig,
    let q : pst := post_of w ons nts prf sig [account] in
    length ons = 2 -> map incoming nts = map cr_note (w_receivers w) ->
    verify TToPublic (wit_input w) prf = Some true ->
    (forall k, p_auth q = Some (k, sig) -> verify_sig k sig (p_body q) [account] = true) ->
    id_verify q tr rand a addr account = IOk /\
    (tr = false -> pay_verify q tr rand a addr account = IOk) /\
    b_sinks (p_body q) = [snd a] /\
    map sp_out (b_senders (p_body q)) = [root1 (utxo_for ucommit tr rand a addr); dout].
Proof.
  intros ORD sk arand tr rand a tr2 rand2 dpath irand crand account NZ VA DP addr.
  destruct (fo_one dl di join joinl ldeqb ideqb dg sh H HH LD_spec ID_spec join_di joinl_di chk width
    (item (utxo_for ucommit tr rand a addr)) (shards _)) as (f & f1 & t & q & E1 & E2 & E3 & E4 & E5 & E6 & E7).
  unfold identity_witness, virtual_senders. fold addr. rewrite E1, E2, E5.
  set (w := mk_wit _ _ _ _ _ _). exists w. split; [reflexivity|].
  assert (SW : sat TToPublic w = true).
  { refine (c58_complete p gen smul vkhash r ucommit item dg ncommit inote join joinl H geqb cmteqb ideqb nceqb ineqb
      G_spec CMT_spec ID_spec NC_spec IN_spec Hp ORD TToPublic sk arand (Some (fst a)) []
      [mk_hs tr rand a q (ft_root di t); mk_hs tr2 rand2 (fst a, 0%N) dpath dout]
      [mk_hr addr false irand crand (fst a, 0%N)] [snd a] (fst a) _ NZ _ _ _ _ _ _).
    - reflexivity.
    - right. reflexivity.
    - intros s [<-|[<-|[]]]; reflexivity.
    - intros m [<-|[]]; reflexivity.
    - cbn [map hs_asset hr_asset snd nsum fold_right]. clear. lia.
    - cbn [map hs_asset hr_asset snd nsum fold_right]. clear - VA. lia.
    - intros s [<-|[<-|[]]]; cbn [hs_path hs_asset hs_root hs_tr hs_rand snd]; split; auto. right. fold addr. rewrite E7, E4. reflexivity. }
  split; [exact SW|]. intros ons nts prf sig LO MN VE VS. set (qq := post_of w ons nts prf sig [account]) in *.
  destruct ons as [|o1 [|o2 [|]]]; try discriminate LO.
  assert (MN' : map incoming nts = [cr_note (derive_receiver ucommit inote addr false irand crand (fst a, 0%N))]) by exact MN. clear MN.
  destruct nts as [|n1 [|]]; try discriminate MN'. injection MN' as MN.
  assert (EI : post_input incoming qq = wit_input w).
  { unfold qq, post_of, post_input, wit_input, w. cbn [p_auth p_body b_asset b_sources b_senders b_receivers b_sinks w_auth w_asset w_sources w_senders w_receivers w_sinks
      option_map combine map flat_map app fst snd sp_out sp_null fn_com rp_utxo rp_note]. rewrite MN. reflexivity. }
  assert (ID1 : id_verify qq tr rand a addr account = IOk).
  { apply id_verify_ok. split; [reflexivity|]. split; [reflexivity|]. split; [|split].
    - assert (X : verify_sig (ca_rkey (derive_auth gen smul sk arand)) sig (p_body qq) [account] = true) by (apply VS; reflexivity).
      unfold check_auth. change (p_auth qq) with (Some (ca_rkey (derive_auth gen smul sk arand), sig)).
      change (p_accounts qq) with [account]. change (requires_authorization (length (b_senders (p_body qq)))) with true. cbv iota. rewrite X. reflexivity.
    - rewrite EI. exact VE.
    - eexists. split; [left; reflexivity|]. cbn [sp_out fst]. exact E4. }
  split; [exact ID1|]. split.
  - intros ->. unfold pay_identity_verification. cbn [orb]. rewrite (proj2 (N.eqb_neq _ _) NZ). exact ID1.
  - split; [reflexivity|]. rewrite <- E4. reflexivity.
Qed.
End C60.

(** ** The instance of C58 and C59 *)

Definition xld_dec (a b : option xutxo) : {a = b} + {a <> b}.
Proof. decide equality; apply xutxo_dec. Defined.
Definition x_idv : xpost -> bool -> N -> casset -> N -> N -> ires :=
  identity_verification xcommit (fun u => u) (@Some xutxo) None XD XJ XL (eqb_of xid_dec) 3 (fun _ => 0) 1 (fun n : xin => n) (fun (_ : N) (_ : unit) _ _ => true) x_verify.
Definition x_payv : xpost -> bool -> N -> casset -> N -> N -> ires :=
  pay_identity_verification xcommit (fun u => u) (@Some xutxo) None XD XJ XL (eqb_of xid_dec) 3 (fun _ => 0) 1 (fun n : xin => n) (fun (_ : N) (_ : unit) _ _ => true) x_verify.
Definition x_idw : N -> N -> bool -> N -> casset -> bool -> N -> path (option xutxo) xid -> N -> N -> option xwit :=
  identity_witness 1%N N.mul (fun k => k) 0%N xcommit (fun u => u) (@Some xutxo) (@pair N xutxo) xnote None XD XJ XL (eqb_of xld_dec) (eqb_of xid_dec) 3
    (fun _ => 0) 1 false XD.

(** Key 5 proves its identity to the account 2 with the virtual asset of randomness 100 and value 60
    of asset 7: the proof verifies for the address 5, for no other, and not for another account. *)
Definition x_idpost : xpost :=
  match x_idw 5 11 false 100 (7%N, 60%N) false 300 (Path 0 None [XD]) 203 103 with Some w => x_post w [2%N] | None => x_bad end.
Example c60_example :
  x_payv x_idpost false 100 (7%N, 60%N) 5 2 = IOk /\
  x_payv x_idpost false 100 (7%N, 60%N) 9 2 = IErr IOutput /\
  x_payv x_idpost false 100 (7%N, 60%N) 5 3 = IErr ISink /\
  x_payv x_idpost true 100 (7%N, 60%N) 5 2 = IErr IVirtual /\
  x_payv x_idpost false 100 (0%N, 60%N) 5 2 = IErr IVirtual.
Proof. repeat (split; [vm_compute; reflexivity|]). vm_compute. reflexivity. Qed.

(** The theorem on it: the key in the extracted assignment has the address 5. *)
Example c60_sound_example : exists au, w_auth (b_proof (p_body x_idpost)) = Some au /\ 5%N = (ca_key au * 1)%N.
Proof.
  destruct (c60_sound_partial (ON := N) (NT := xin) (SG := unit) (PRF := xwit) bn254 1%N N.mul (fun k => k) xcommit (fun u => u) (@Some xutxo) (@pair N xutxo) xnote None XD XJ XL 3
    N.eqb (eqb_of xc_dec) (eqb_of xld_dec) (eqb_of xid_dec) (eqb_of xnc_dec) (eqb_of xin_dec) (fun _ => 0) 1 false XD
    (fun n : xin => n) (fun (_ : N) (_ : unit) _ _ => true) x_verify
    N.eqb_eq (eqb_of_spec _) (eqb_of_spec _) (eqb_of_spec _) (eqb_of_spec _) (eqb_of_spec _) bn254_fits (le_n 3)
    (fun a b => ltac:(discriminate)) (fun a b => ltac:(discriminate)) (fun _ => le_n 1)
    xcommit_inj (fun u u' E => E) xsome_inj xj_inj xl_inj (fun u => ltac:(discriminate)) (fun w => w)) with (q := x_idpost) (tr := false) (rand := 100%N) (a := (7%N, 60%N)) (addr := 5%N) (account := 2%N)
    as (au & sig & A & B & C & D & _).
  - intros s x prf V. unfold x_verify in V. injection V as V. apply andb_true_iff in V. destruct V as (V1 & V2). split; [exact V1|].
    apply eqb_of_spec in V2. exact V2.
  - discriminate.
  - discriminate.
  - exact (proj1 c60_example).
  - vm_compute. discriminate.
  - assert (X : forallb (fun s => eqb_of xid_dec (sp_out s) x_root1 || eqb_of xid_dec (sp_out s) XD) (b_senders (p_body x_idpost)) = true) by (vm_compute; reflexivity).
    rewrite forallb_forall in X. intros s Is. specialize (X s Is). apply orb_true_iff in X. destruct X as [X|X]; apply eqb_of_spec in X; auto.
  - exists au. split; [exact A|exact D].
Qed.

(** The completeness theorem gives its verification from the inputs alone. *)
Example c60_complete_example : exists w, x_idw 5 11 false 100 (7%N, 60%N) true 300 (Path 0 None [XD]) 203 103 = Some w /\
  x_payv (post_of w [0%N; 0%N] (map (fun m => cr_note m) (w_receivers w)) w tt [2%N]) false 100 (7%N, 60%N) 5 2 = IOk.
Proof.
  destruct (c60_complete (ON := N) (NT := xin) (SG := unit) (PRF := xwit) bn254 1%N N.mul (fun k => k) 0%N xcommit (fun u => u) (@Some xutxo) (@pair N xutxo) xnote None XD XJ XL 3
    N.eqb (eqb_of xc_dec) (eqb_of xld_dec) (eqb_of xid_dec) (eqb_of xnc_dec) (eqb_of xin_dec) (fun _ => 0) 1 false XD
    (fun n : xin => n) (fun (_ : N) (_ : unit) _ _ => true) x_verify
    N.eqb_eq (eqb_of_spec _) (eqb_of_spec _) (eqb_of_spec _) (eqb_of_spec _) (eqb_of_spec _) bn254_fits (le_n 3)
    (fun a b => ltac:(discriminate)) (fun a b => ltac:(discriminate)) (fun _ => le_n 1)) with (sk := 5%N) (arand := 11%N) (tr := false) (rand := 100%N) (a := (7%N, 60%N))
    (tr2 := true) (rand2 := 300%N) (dpath := Path (LD := option xutxo) 0 None [XD]) (irand := 203%N) (crand := 103%N) (account := 2%N) as (w & E & S0 & K).
  - intro n. destruct n; reflexivity.
  - discriminate.
  - reflexivity.
  - reflexivity.
  - exists w. split; [exact E|]. apply (K [0%N; 0%N] (map (fun m => cr_note m) (w_receivers w)) w tt); try reflexivity.
    + apply map_id.
    + unfold x_verify. unfold x_sat. rewrite S0. rewrite (proj2 (eqb_of_spec (list_eq_dec xpin_dec) _ _) eq_refl). reflexivity.
Qed.

(** The verification looks for the output of the virtual asset among the senders, but a sender of
    nothing can claim any output.  The holder of key 9 only, with a virtual note of their own and a
    sender of nothing that claims the output of the virtual asset of key 5, makes a proof that
    verifies for the address 5; it also verifies for the address 9. *)
Definition x_forged : xwit := x_honest N.mul 0 9 12 (Some 7%N) []
  [mk_hs false 300%N (7%N, 0%N) (Path 0 None [XD]) x_root1;
   mk_hs false 100%N (7%N, 60%N) (Path 0 None [XD]) (spec_root None XD XJ XL 3 [Some (x_utxo 100 60 9)])]
  [mk_hr 9%N false 203%N 103%N (7%N, 0%N)] [60%N].
Theorem c60_forgery_refuted : exists (q : xpost) (au : cauth N),
  x_payv q false 100 (7%N, 60%N) 5 2 = IOk /\ x_payv q false 100 (7%N, 60%N) 9 2 = IOk /\
  w_auth (b_proof (p_body q)) = Some au /\ option_map fst (p_auth q) = Some (ca_rkey au) /\
  ca_key au = 9%N /\ rkey 1%N N.mul (fun k => k) 0%N (ca_key au) <> 5%N /\
  b_sinks (p_body q) = [60%N].
Proof.
  exists (x_post x_forged [2%N]). eexists. split; [vm_compute; reflexivity|]. split; [vm_compute; reflexivity|].
  split; [reflexivity|]. split; [reflexivity|]. split; [reflexivity|]. split; [vm_compute; discriminate|reflexivity].
Qed.

(** A virtual asset need not be virtual.  If the note is the first of its shard on the ledger, the
    identity proof of its owner is a withdrawal that the ledger takes: it pays the account for which
    the identity was proved. *)
Theorem c60_replay_refuted : exists os : list xop,
  x_payv x_idpost false 100 (7%N, 60%N) 5 2 = IOk /\
  balance (x_run os) 2 7 = 0%N /\
  balance (x_run (os ++ [OPush 2 [x_idpost]])) 2 7 = 60%N /\
  In (5%N, x_note1) (flat_map commitments (x_landed (os ++ [OPush 2 [x_idpost]]))).
Proof.
  exists [OSet 1 7 100; OSet 2 7 0; OPush 1 [x_post x_mint []]].
  split; [exact (proj1 c60_example)|]. split; [vm_compute; reflexivity|]. split; [vm_compute; reflexivity|].
  assert (A : existsb (eqb_of xnc_dec (5%N, x_note1)) (flat_map commitments (x_landed ([OSet 1 7 100; OSet 2 7 0; OPush 1 [x_post x_mint []]] ++ [OPush 2 [x_idpost]]))) = true)
    by (vm_compute; reflexivity).
  apply existsb_exists in A. destruct A as (y & I & E). apply eqb_of_spec in E. rewrite E. exact I.
Qed.

(** The guarded theorem on that ledger and on the one that has a second note in the shard. *)
Definition x_val (os : list xop) := validate (eqb_of xid_dec) (eqb_of xnc_dec) (eqb_of xutxo_dec) x_probe XD (fun n : xin => n) (fun (_ : N) (_ : unit) _ _ => true) x_verify (x_run os) x_idpost [] [2%N].
Example c60_no_replay_example :
  (exists note, nth_error (g_shards (x_run [OSet 1 7 100; OSet 2 7 0; OPush 1 [x_post x_mint []]])) 0 = Some [(x_note1, note)]) /\
  x_val x_ops = RErr EOutput.
Proof.
  split; [|vm_compute; reflexivity].
  assert (V : LgModel.is_some (match x_val [OSet 1 7 100; OSet 2 7 0; OPush 1 [x_post x_mint []]] with ROk k => Some k | _ => None end) = true) by (vm_compute; reflexivity).
  destruct (x_val [OSet 1 7 100; OSet 2 7 0; OPush 1 [x_post x_mint []]]) as [k| |] eqn:EV; try discriminate.
  exact (c60_no_replay_partial xcommit (fun u => u) (@Some xutxo) None XD XJ XL 3
    (eqb_of xld_dec) (eqb_of xid_dec) (eqb_of xnc_dec) (fun _ => 0) 1 false XD
    (fun n : xin => n) (fun (_ : N) (_ : unit) _ _ => true) x_verify
    (eqb_of_spec _) (eqb_of_spec _) (eqb_of_spec _) (le_n 3)
    (fun a b => ltac:(discriminate)) (fun a b => ltac:(discriminate)) (fun _ => le_n 1)
    (fun u u' E => E) xsome_inj xj_inj xl_inj (fun u => ltac:(discriminate))
    (eqb_of xutxo_dec) (eqb_of xin_dec) x_probe true (eqb_of_spec _)
    (fun a b => ltac:(discriminate)) (fun a b => ltac:(discriminate)) 1 _ (fun _ => le_n 1) x_idpost false 100%N (7%N, 60%N) 5%N 2%N [] [2%N] k
    (proj1 c60_example) EV).
Qed.

Print Assumptions c60_sound_partial.
Print Assumptions c60_no_replay_partial.
Print Assumptions c60_complete.
Print Assumptions c60_forgery_refuted.
Print Assumptions c60_replay_refuted.
