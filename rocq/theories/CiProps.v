(** Properties C58 and C59: the validity constraints of a transfer, and the private pool of the
    ledger that relies on them. *)
From Coq Require Import List Arith NArith Bool Lia.
From Verif Require Import MtModel MtSpec MtLemmas MtInner MtInv MtFull MtSingle CkModel CkSpec LgModel LgSpec LgLemmas LgInv LgBal LgHist LgPost LgProps.
From Verif Require Import CiModel CiSpec CiLemmas CiSound CiPool.
Import ListNotations.
Open Scope nat_scope.

(** ** C58 *)

Section C58.
Context {G CR CMT IT LD ID NC IR IN : Type}.
Variable p : N.
Variable gen : G.
Variable smul : N -> G -> G.
Variable vkhash : G -> N.
Variable r : N.
Variable ucommit : CR -> N -> N -> G -> CMT.
Variable item : utxo CMT -> IT.
Variable dg : IT -> LD.
Variable ncommit : G -> IT -> NC.
Variable inote : G -> IR -> CR * casset -> IN.
Variable join : ID -> ID -> ID.
Variable joinl : LD -> LD -> ID.
Variable H : nat.
Variable geqb : G -> G -> bool.
Variable cmteqb : CMT -> CMT -> bool.
Variable ideqb : ID -> ID -> bool.
Variable nceqb : NC -> NC -> bool.
Variable ineqb : IN -> IN -> bool.
Hypothesis G_spec : forall a b, geqb a b = true <-> a = b.
Hypothesis CMT_spec : forall a b, cmteqb a b = true <-> a = b.
Hypothesis ID_spec : forall a b, ideqb a b = true <-> a = b.
Hypothesis NC_spec : forall a b, nceqb a b = true <-> a = b.
Hypothesis IN_spec : forall a b, ineqb a b = true <-> a = b.
Hypothesis Hp : (2 * u128 <= p)%N.

Notation wit := (witness G CR CMT LD ID NC IR IN).
Notation sat := (satisfied p gen smul vkhash ucommit item dg ncommit inote join joinl H geqb cmteqb ideqb nceqb ineqb).
Notation rwf := (receiver_wf ucommit inote cmteqb ineqb).
Notation swf := (sender_wf gen smul vkhash ucommit item dg ncommit join joinl cmteqb ideqb nceqb).

Section Sound.
Variable dl : LD.
Variable di : ID.
Hypothesis join_inj : forall a b c d, join a b = join c d -> a = c /\ b = d.
Hypothesis joinl_inj : forall a b c d, joinl a b = joinl c d -> a = c /\ b = d.
Hypothesis join_di : forall a b, join a b <> di.
Hypothesis joinl_di : forall a b, joinl a b <> di.
Hypothesis leaf_dl : forall u, dg (item u) <> dl.

(** C58, soundness.  A satisfying assignment contains assets for its senders and receivers, all of
    one id, which is the public asset id if there is one, such that:
    - every sender's utxo holds its asset for the receiving key of the one authorization key, whose
      randomization is the public key of the signature; the published nullifier is the one of that
      key and utxo; and if its value is not zero and its root is that of a list of leaves, then the
      utxo is one of the leaves;
    - every receiver's utxo holds its asset for the receiver's key, and the published note encrypts
      for that key the opening of the utxo;
    - the values balance exactly, as numbers, and the total is below 2^128. *)
Theorem c58_sound : forall t (w : wit), sat t w = true ->
  exists id (ins outs : list casset),
    Forall2 (fun s a =>
      fst a = id /\
      (exists au, w_auth w = Some au /\ smul (ca_rand au) (ca_key au) = ca_rkey au /\
         holds ucommit (cs_utxo s) (smul (vkhash (ca_key au)) gen) a /\
         cs_null s = ncommit (ca_key au) (item (cs_utxo s))) /\
      (snd a <> 0%N -> forall l, cs_root s = spec_root dl di join joinl H l -> In (dg (item (cs_utxo s))) l))
      (w_senders w) ins /\
    Forall2 (fun m a =>
      fst a = id /\ holds ucommit (cr_utxo m) (cr_key m) a /\
      exists ir rand pl, cr_note m = inote (cr_key m) ir (rand, pl) /\
        ut_com (cr_utxo m) = ucommit rand (fst pl) (snd pl) (cr_key m) /\
        pl = (if ut_tr (cr_utxo m) then (0%N, 0%N) else a))
      (w_receivers w) outs /\
    (w_asset w = None \/ w_asset w = Some id) /\
    (nsum (w_sources w) + nsum (map snd ins) = nsum (map snd outs) + nsum (w_sinks w))%N /\
    (nsum (w_sources w) + nsum (map snd ins) < u128)%N.
Proof.
  intros t w W.
  pose proof (satisfied_good p gen smul vkhash ucommit item dg ncommit inote join joinl H geqb cmteqb ideqb nceqb ineqb G_spec CMT_spec ID_spec NC_spec IN_spec Hp t w W) as g.
  destruct (gd_ids _ _ _ _ _ _ _ _ _ _ _ _ _ g) as (id & D1 & D2 & D3).
  assert (F2 : forall A B (P : A -> B -> Prop) (f : A -> B) (l : list A), (forall x, In x l -> P x (f x)) -> Forall2 P l (map f l)).
  { clear. intros A B P f l. induction l as [|x l IH]; intro K; cbn [map]; [constructor|]. constructor.
    - apply K. left. reflexivity.
    - apply IH. intros y Iy. apply K. right. exact Iy. }
  exists id, (map s_asset (w_senders w)), (map r_asset (w_receivers w)).
  split; [|split; [|split; [exact D3|]]].
  - apply F2. intros s Is. split; [apply D1; exact Is|].
    assert (AU : exists au, w_auth w = Some au).
    { destruct (w_auth w) as [au|] eqn:E; [eauto|]. exfalso. pose proof (gd_shape _ _ _ _ _ _ _ _ _ _ _ _ _ g) as S0.
      apply select_inv in S0. rewrite E in S0. cbn [CiModel.is_some] in S0.
      destruct (w_senders w); [destruct Is|]. cbn [length] in S0. destruct t; destruct S0 as (A & _ & _ & B & _); discriminate. }
    destruct AU as (au & EA). destruct (gd_send _ _ _ _ _ _ _ _ _ _ _ _ _ g au s EA Is) as (A & B & _). split.
    + exists au. repeat split; auto. exact (gd_auth _ _ _ _ _ _ _ _ _ _ _ _ _ g au EA).
    + intros NZ l ER. exact (good_member gen smul vkhash ucommit item dg ncommit inote join joinl H dl di join_inj joinl_inj join_di joinl_di leaf_dl
        t w au s l g EA Is NZ ER).
  - apply F2. intros m Im. split; [apply D2; exact Im|]. exact (gd_recv _ _ _ _ _ _ _ _ _ _ _ _ _ g m Im).
  - rewrite !map_map. split; [exact (gd_sum _ _ _ _ _ _ _ _ _ _ _ _ _ g)|exact (gd_range _ _ _ _ _ _ _ _ _ _ _ _ _ g)].
Qed.
End Sound.

(** ** Completeness *)

(** A sender as the wallet builds it: visibility, randomness, asset, membership path and root. *)
Record hsender := mk_hs { hs_tr : bool ; hs_rand : CR ; hs_asset : casset ; hs_path : path LD ID ; hs_root : ID }.
Record hreceiver := mk_hr { hr_key : G ; hr_tr : bool ; hr_irand : IR ; hr_rand : CR ; hr_asset : casset }.

(** The assignment that the code builds for the honest transfer. *)
Definition honest (sk rand : N) (asset : option N) (sources : list N) (ss : list hsender) (rs : list hreceiver) (sinks : list N) : wit :=
  let pak := smul sk gen in
  mk_wit (match ss with [] => None | _ => Some (derive_auth gen smul sk rand) end) asset sources
    (map (fun s => derive_sender gen smul vkhash r ucommit item ncommit pak (hs_tr s) (hs_rand s) (hs_asset s) (path_var H (hs_path s)) (hs_root s)) ss)
    (map (fun m => derive_receiver ucommit inote (hr_key m) (hr_tr m) (hr_irand m) (hr_rand m) (hr_asset m)) rs) sinks.

(** Scalars of the group are taken modulo its order. *)
Hypothesis order : forall n, smul (n mod r) gen = smul n gen.

Lemma vis_select b (a : casset) : aselect b (vis_public b a) (vis_secret b a) = a.
Proof. destruct a, b; reflexivity. Qed.
Lemma vis_empty b (a : casset) : fst a <> 0%N -> is_empty (vis_secret b a) = b.
Proof.
  intro NZ. destruct b; [reflexivity|]. unfold is_empty. cbn [vis_secret]. rewrite (proj2 (N.eqb_neq _ _) NZ). reflexivity.
Qed.
Lemma vis_range b (a : casset) : (snd a < u128)%N -> in_range (snd (vis_secret b a)) = true /\ in_range (snd (vis_public b a)) = true.
Proof. intro L. unfold in_range. rewrite !N.ltb_lt. destruct b; split; first [exact L|reflexivity]. Qed.

Lemma parents_length n : forall i, length (parents n i) = n.
Proof. induction n as [|n IH]; intro i; cbn [parents length]; auto. Qed.

Lemma nsum_in x l : In x l -> (x <= nsum l)%N.
Proof.
  induction l as [|y l IH]; intros []; cbn [nsum fold_right]; change (fold_right N.add 0%N l) with (nsum l); [subst; lia|].
  specialize (IH H0). lia.
Qed.

(** C58, completeness.  The transfer that a wallet builds for an asset with an id that is not zero
    satisfies the constraints, if it has one of the three shapes, its values balance below 2^128 and
    the membership path of every sender that is worth something checks outside of the circuit. *)
Theorem c58_complete : forall t sk rand asset sources ss rs sinks id,
  let w := honest sk rand asset sources ss rs sinks in
  select_shape (match ss with [] => false | _ => true end) (CiModel.is_some asset) (length sources) (length ss) (length rs) (length sinks) = Some t ->
  id <> 0%N -> (asset = None \/ asset = Some id) ->
  (forall s, In s ss -> fst (hs_asset s) = id) -> (forall m, In m rs -> fst (hr_asset m) = id) ->
  (nsum sources + nsum (map (fun s => snd (hs_asset s)) ss) = nsum (map (fun m => snd (hr_asset m)) rs) + nsum sinks)%N ->
  (nsum sources + nsum (map (fun s => snd (hs_asset s)) ss) < u128)%N ->
  (forall s, In s ss -> length (p_inner (hs_path s)) = path_length H /\
     (snd (hs_asset s) = 0%N \/
      hs_root s = path_root join joinl (hs_path s)
        (dg (item (utxo_for ucommit (hs_tr s) (hs_rand s) (hs_asset s) (rkey gen smul vkhash r (smul sk gen))))))) ->
  sat t w = true.
Proof.
  intros t sk rand asset sources ss rs sinks id w SH NZ EA ES ER SU BO PA.
  set (pak := smul sk gen) in *.
  assert (RV : rkey gen smul vkhash r pak = smul (vkhash pak) gen) by (unfold rkey, view_key; apply order).
  pose (ds := fun s => derive_sender gen smul vkhash r ucommit item ncommit pak (hs_tr s) (hs_rand s) (hs_asset s) (path_var H (hs_path s)) (hs_root s)).
  pose (dr := fun m => derive_receiver ucommit inote (hr_key m) (hr_tr m) (hr_irand m) (hr_rand m) (hr_asset m)).
  assert (SV : forall s, In s ss -> (snd (hs_asset s) < u128)%N).
  { intros s Is. pose proof (nsum_in _ _ (in_map (fun s => snd (hs_asset s)) _ _ Is)) as Q. cbn beta in Q. clear - Q BO. lia. }
  assert (RVA : forall m, In m rs -> (snd (hr_asset m) < u128)%N).
  { intros m Im. pose proof (nsum_in _ _ (in_map (fun m => snd (hr_asset m)) _ _ Im)) as Q. cbn beta in Q. clear - Q BO SU. lia. }
  assert (WS : forall s, In s ss -> swf pak (ds s) = (hs_asset s, true)).
  { intros s Is. destruct (PA s Is) as (LE & PV). unfold sender_wf, spend_wf, ds, derive_sender, pv_verify, rkey_var. cbn [cs_utxo cs_asset cs_rand cs_path cs_root cs_null utxo_for ut_tr ut_pub ut_com].
    rewrite vis_select, vis_empty by (rewrite (ES s Is); exact NZ).
    rewrite eqb_reflx, RV. rewrite (proj2 (CMT_spec _ _) eq_refl), (proj2 (NC_spec _ _) eq_refl). cbn [andb].
    rewrite andb_true_r. f_equal. apply orb_true_iff. destruct PV as [Z|Z]; [left; apply N.eqb_eq; exact Z|right].
    apply ID_spec. rewrite pv_root_path by exact LE. rewrite RV in Z. exact Z. }
  assert (WR : forall m, In m rs -> rwf (dr m) = (hr_asset m, true)).
  { intros m Im. unfold receiver_wf, dr, derive_receiver. cbn [cr_utxo cr_asset cr_rand cr_key cr_irand cr_note utxo_for ut_tr ut_pub ut_com].
    rewrite vis_select, vis_empty by (rewrite (ER m Im); exact NZ).
    rewrite eqb_reflx, (proj2 (CMT_spec _ _) eq_refl), (proj2 (IN_spec _ _) eq_refl). reflexivity. }
  assert (MS : map (swf pak) (map ds ss) = map (fun s => (hs_asset s, true)) ss).
  { rewrite map_map. apply map_ext_in. exact WS. }
  assert (MR : map rwf (map dr rs) = map (fun m => (hr_asset m, true)) rs).
  { rewrite map_map. apply map_ext_in. exact WR. }
  assert (NE : sources ++ map (fun s => snd (hs_asset s)) ss <> [] /\ map (fun m => snd (hr_asset m)) rs ++ sinks <> []).
  { apply select_inv in SH. destruct t; destruct SH as (_ & _ & A & B & C & D);
      destruct sources, ss, rs, sinks; try discriminate; split; discriminate. }
  destruct NE as (NE1 & NE2).
  assert (VO : value_sum p (map (fun m => snd (hr_asset m)) rs ++ sinks) = Some (nsum sources + nsum (map (fun s => snd (hs_asset s)) ss), true)%N).
  { rewrite (value_sum_ok p Hp) by (try exact NE2; rewrite nsum_app; clear - SU BO; lia). rewrite nsum_app, <- SU. reflexivity. }
  assert (FT : forall A B (f : A -> B) l, forallb snd (map (fun x => (f x, true)) l) = true).
  { clear. intros A B f l. rewrite forallb_map. apply forallb_forall. reflexivity. }
  unfold satisfied. apply andb_true_iff. split; [apply andb_true_iff; split|].
  - unfold fits, w, honest. cbn [w_auth w_asset w_sources w_senders w_receivers w_sinks]. rewrite !map_length.
    assert (X : CiModel.is_some (match ss with [] => None | _ :: _ => Some (derive_auth gen smul sk rand) end) = match ss with [] => false | _ => true end)
      by (destruct ss; reflexivity).
    rewrite X, SH. apply andb_true_iff. split; [destruct t; reflexivity|].
    rewrite forallb_map. apply forallb_forall. intros s Is. destruct (PA s Is) as (LE & _). unfold path_fits, path_var. cbn [cs_path derive_sender pv_bits pv_path].
    rewrite map_length, parents_length. apply andb_true_iff. split; [apply Nat.eqb_refl|].
    apply Nat.eqb_eq. exact LE.
  - unfold alloc_ranges, w, honest. cbn [w_sources w_senders w_receivers w_sinks]. rewrite !forallb_map.
    apply andb_true_iff. split; [apply andb_true_iff; split; [apply andb_true_iff; split|]|].
    + apply forallb_forall. intros x Ix. apply nsum_in in Ix. unfold in_range. apply N.ltb_lt. clear - Ix BO. lia.
    + apply forallb_forall. intros x Ix. apply nsum_in in Ix. unfold in_range. apply N.ltb_lt. clear - Ix BO SU. lia.
    + apply forallb_forall. intros s Is. apply andb_true_iff. apply vis_range. apply SV. exact Is.
    + apply forallb_forall. intros m Im. apply andb_true_iff. apply vis_range. apply RVA. exact Im.
  - unfold build_constraints, input_sum, output_sum, w, honest. cbn [w_auth w_asset w_sources w_senders w_receivers w_sinks].
    fold pak ds dr. rewrite MR. rewrite !(map_map (fun m => (hr_asset m, true))). cbn [fst snd]. rewrite VO, FT. cbn [andb].
    assert (IDS : forall x, In x (map (fun s => fst (hs_asset s)) ss ++ map (fun m => fst (hr_asset m)) rs) -> x = id).
    { intros x Ix. apply in_app_or in Ix. destruct Ix as [Ix|Ix]; apply in_map_iff in Ix; destruct Ix as (y & <- & Iy); auto. }
    assert (ALL : match asset with
      | Some a => all_eq_to a (map (fun s => fst (hs_asset s)) ss ++ map (fun m => fst (hr_asset m)) rs)
      | None => all_eq (map (fun s => fst (hs_asset s)) ss ++ map (fun m => fst (hr_asset m)) rs) end = true).
    { revert IDS. generalize (map (fun s => fst (hs_asset s)) ss ++ map (fun m => fst (hr_asset m)) rs). intros l IDS.
      destruct EA as [-> | ->].
      - destruct l as [|x l]; [reflexivity|]. cbn [all_eq]. unfold all_eq_to. apply forallb_forall. intros y Iy.
        apply N.eqb_eq. rewrite (IDS x), (IDS y); auto; [right; exact Iy|left; reflexivity].
      - unfold all_eq_to. apply forallb_forall. intros y Iy. apply N.eqb_eq. symmetry. apply IDS. exact Iy. }
    destruct ss as [|s0 ss].
    + cbn [map app] in *. rewrite app_nil_r in NE1. rewrite (value_sum_ok p Hp) by (try exact NE1; clear - BO; change (nsum []) with 0%N in BO; lia).
      change (nsum []) with 0%N. rewrite N.add_0_r, N.eqb_refl. cbn [andb]. exact ALL.
    + cbn [derive_auth ca_key]. fold pak. rewrite MS. rewrite !(map_map (fun s => (hs_asset s, true))). cbn [fst snd]. rewrite FT.
      unfold authorized. cbn [ca_rand ca_key ca_rkey]. rewrite (proj2 (G_spec _ _) eq_refl).
      rewrite (value_sum_ok p Hp) by (try (intro Z; apply app_eq_nil in Z; destruct Z; discriminate); rewrite nsum_app; clear - BO; lia).
      rewrite nsum_app, (N.add_comm (nsum (map _ (s0 :: ss)))), N.eqb_refl. cbn [andb]. exact ALL.
Qed.

(** The side condition on the id is necessary: the constraints take the empty asset for the mark of
    a transparent utxo, so the opaque receiver of nothing of asset zero is refused. *)
Theorem c58_zero_asset : forall rk irand rand,
  snd (rwf (derive_receiver ucommit inote rk false irand rand (0%N, 0%N))) = false.
Proof. reflexivity. Qed.

End C58.

(** ** C59 *)

Section C59.
Context {G CR CMT IT LD ID NC IR IN ON NT SG PRF : Type}.
Notation UT := (utxo CMT).
Variable p : N.
Variable gen : G.
Variable smul : N -> G -> G.
Variable vkhash : G -> N.
Variable ucommit : CR -> N -> N -> G -> CMT.
Variable item : UT -> IT.
Variable dg : IT -> LD.
Variable ncommit : G -> IT -> NC.
Variable inote : G -> IR -> CR * casset -> IN.
Variable join : ID -> ID -> ID.
Variable joinl : LD -> LD -> ID.
Variable H : nat.
Variable geqb : G -> G -> bool.
Variable cmteqb : CMT -> CMT -> bool.
Variable ideqb : ID -> ID -> bool.
Variable nceqb : NC -> NC -> bool.
Variable ineqb : IN -> IN -> bool.
Variable dl : LD.
Variable di : ID.
Variable sh : IT -> nat.
Variable uteqb : UT -> UT -> bool.
Variable nteqb : NT -> NT -> bool.
Variable probe : list (fnull NC ON) -> fnull NC ON -> fnull NC ON -> bool.
Variable dout : ID.
Variable incoming : NT -> IN.
Variable ovchk : bool.
Variable verify_sig : G -> SG -> body NC ON UT NT ID PRF -> list N -> bool.
Variable verify : tshape -> list (pin NC UT IN ID G) -> PRF -> option bool.
Hypothesis G_spec : forall a b, geqb a b = true <-> a = b.
Hypothesis CMT_spec : forall a b, cmteqb a b = true <-> a = b.
Hypothesis ID_spec : forall a b, ideqb a b = true <-> a = b.
Hypothesis NC_spec : forall a b, nceqb a b = true <-> a = b.
Hypothesis IN_spec : forall a b, ineqb a b = true <-> a = b.
Hypothesis UT_spec : forall a b, uteqb a b = true <-> a = b.
Hypothesis Hp : (2 * u128 <= p)%N.
Hypothesis HH : 2 <= H.

Notation sat := (satisfied p gen smul vkhash ucommit item dg ncommit inote join joinl H geqb cmteqb ideqb nceqb ineqb).
Notation pst := (post NC ON UT NT ID G SG PRF).
Notation lg_run := (lg_run dl di join joinl ideqb H item dg sh nceqb uteqb nteqb probe dout incoming ovchk verify_sig verify).
Notation landed := (landed item dg join joinl H ideqb nceqb dl di sh uteqb nteqb probe dout incoming ovchk verify_sig verify).
Notation lg_new := (lg_new (CM := NC) (ON := ON) (UT := UT) (NT := NT) dl di).

(** C59.  The proof system is sound (a proof that verifies was made from a satisfying assignment with
    the same public input), the hashes and commitments have no collisions and do not hit the default
    values, a receiving key belongs to one authorization key, and the table of nullifiers finds
    entries by their commitment.  Then on every ledger that only took posts whose proofs verify,
    there is a pool of registered utxos, each of them holding an asset, none of them counted twice
    and none of those that are worth something nullified, such that for every asset what was ever
    paid out of the pool plus what the pool holds is what was ever paid in. *)
Theorem c59_no_inflation :
  (forall s x prf, verify s x prf = Some true -> exists w, sat s w = true /\ wit_input w = x) ->
  (forall a b c d a' b' c' d', ucommit a b c d = ucommit a' b' c' d' -> b = b' /\ c = c' /\ d = d') ->
  (forall u u', item u = item u' -> u = u') ->
  (forall x x', dg x = dg x' -> x = x') ->
  (forall k x k' x', ncommit k x = ncommit k' x' -> k = k' /\ x = x') ->
  (forall k k', smul (vkhash k) gen = smul (vkhash k') gen -> k = k') ->
  (forall a b c d, join a b = join c d -> a = c /\ b = d) ->
  (forall a b c d, joinl a b = joinl c d -> a = c /\ b = d) ->
  (forall a b, join a b <> di /\ join a b <> dout) ->
  (forall a b, joinl a b <> di /\ joinl a b <> dout) ->
  (forall u, dg (item u) <> dl) ->
  (forall s x y, In y s -> fn_com x = fn_com y -> probe s x y = true) ->
  forall n (os : list lop), (forall u, sh (item u) < n) ->
  let L := lg_run (lg_new n) os in
  let qs := landed (lg_new n) os in
  (forall q, In q qs -> exists s, post_shape q = Some s /\ verify s (post_input incoming q) (b_proof (p_body q)) = Some true) ->
  exists pool : list (UT * casset),
    NoDup (map fst pool) /\
    (forall u a, In (u, a) pool -> In u (g_utxos L) /\ exists k, holds ucommit u k a) /\
    (forall u a pak, In (u, a) pool -> snd a <> 0%N -> holds ucommit u (smul (vkhash pak) gen) a ->
       ~ In (ncommit pak (item u)) (flat_map commitments qs)) /\
    forall i, (total_out i qs + holding i pool = total_in i qs)%N.
Proof.
  intros KS UI II DI NI RI JI JLI JD JLD LD0 FO n os SHW L qs V.
  assert (K : forall q, In q qs -> known p gen smul vkhash ucommit item dg ncommit inote join joinl H geqb cmteqb ideqb nceqb ineqb incoming q).
  { intros q Iq. destruct (V q Iq) as (s & S0 & VE). destruct (KS _ _ _ VE) as (w & W & E). exists s, w. auto. }
  destruct (landed_pool p gen smul vkhash ucommit item dg ncommit inote join joinl H geqb cmteqb ideqb nceqb ineqb dl di sh uteqb nteqb probe dout incoming
    ovchk verify_sig verify G_spec CMT_spec ID_spec NC_spec IN_spec UT_spec Hp HH UI II DI NI RI JI JLI
    (fun a b => proj1 (JD a b)) (fun a b => proj1 (JLD a b)) (fun a b => proj2 (JD a b)) (fun a b => proj2 (JLD a b)) LD0 FO
    os (lg_new n) [] [] [] (inv_new dl di join joinl H item dg sh HH n SHW) K
    (pool_new gen smul vkhash ucommit item ncommit dl di n)) as (m & sp & P).
  cbn [app] in P.
  exact (pool_left gen smul vkhash ucommit item ncommit inote uteqb verify_sig UT_spec UI II NI RI L qs m sp P).
Qed.

End C59.

(** ** An instance *)

(** Keys are numbers, the hashes and commitments are the tuples of their arguments, trees have four
    leaves, and a proof is an assignment: the verifier checks it. *)
Definition xc : Type := N * N * N * N.
Notation xutxo := (utxo xc).
Inductive xid := XD | XJ (a b : xid) | XL (a b : option xutxo).
Notation xin := (N * N * (N * casset))%type.
Notation xnc := (N * xutxo)%type.
Notation xpin := (pin xnc xutxo xin xid N).
Notation xwit := (witness N N xc (option xutxo) xid xnc N xin).

Definition xutxo_dec (a b : xutxo) : {a = b} + {a <> b}.
Proof. repeat decide equality. Defined.
Definition xid_dec (a b : xid) : {a = b} + {a <> b}.
Proof. decide equality; decide equality; apply xutxo_dec. Defined.
Definition xc_dec (a b : xc) : {a = b} + {a <> b}.
Proof. repeat decide equality. Defined.
Definition xin_dec (a b : xin) : {a = b} + {a <> b}.
Proof. repeat decide equality. Defined.
Definition xnc_dec (a b : xnc) : {a = b} + {a <> b}.
Proof. decide equality; [apply xutxo_dec|apply N.eq_dec]. Defined.
Definition xpin_dec (a b : xpin) : {a = b} + {a <> b}.
Proof.
  decide equality; first [apply N.eq_dec|apply xid_dec|apply xnc_dec|apply xutxo_dec|apply xin_dec].
Defined.
Definition eqb_of {A} (d : forall a b : A, {a = b} + {a <> b}) (a b : A) : bool := if d a b then true else false.
Lemma eqb_of_spec {A} (d : forall a b : A, {a = b} + {a <> b}) a b : eqb_of d a b = true <-> a = b.
Proof. unfold eqb_of. destruct (d a b); split; congruence. Qed.

(** The modulus of the scalar field of BN254, the constraint field of the configuration. *)
Definition bn254 : N := 21888242871839275222246405745257275088548364400416034343698204186575808495617%N.
Lemma bn254_fits : (2 * u128 <= bn254)%N.
Proof. vm_compute. discriminate. Qed.

Definition xcommit (a b c d : N) : xc := (a, b, c, d).
Definition xnote (k i : N) (pl : N * casset) : xin := (k, i, pl).

Section X.
Variable p : N.
Variable smul : N -> N -> N.
Definition x_sat (t : tshape) (w : xwit) : bool :=
  satisfied p 1%N smul (fun k => k) xcommit (fun u => u) (@Some xutxo) (@pair N xutxo) xnote XJ XL 3
    N.eqb (eqb_of xc_dec) (eqb_of xid_dec) (eqb_of xnc_dec) (eqb_of xin_dec) t w.
End X.

(** Transfers of asset 7.  Key 5 has a note of 60 at the first leaf; it sends 40 to key 9 and keeps
    20; then key 9 pays 30 out. *)
Notation hs := (@hsender N (option xutxo) xid).
Definition x_honest (smul : N -> N -> N) (r : N) := honest (LD := option xutxo) (ID := xid) (NC := xnc) (IN := xin) 1%N smul (fun k => k) r xcommit (fun u => u) (@pair N xutxo) xnote 3.
Definition x_utxo (rand v k : N) : xutxo := utxo_for xcommit false rand (7%N, v) k.
Definition x_note1 : xutxo := x_utxo 100 60 5.
Definition x_note2 : xutxo := x_utxo 101 40 9.
Definition x_note3 : xutxo := x_utxo 102 20 5.
Definition x_root1 : xid := spec_root None XD XJ XL 3 [Some x_note1].
Definition x_root2 : xid := spec_root None XD XJ XL 3 [Some x_note1; Some x_note2; Some x_note3].
Definition x_empty (rand : N) : hs := mk_hs false rand (7%N, 0%N) (Path 0 None [XD]) XD.

Definition x_mint : xwit := x_honest N.mul 0 0 0 (Some 7%N) [60%N] [] [mk_hr 5%N false 200%N 100%N (7%N, 60%N)] [].
Definition x_send : xwit := x_honest N.mul 0 5 11 None []
  [mk_hs false 100%N (7%N, 60%N) (Path 0 None [XD]) x_root1; x_empty 300]
  [mk_hr 9%N false 201%N 101%N (7%N, 40%N); mk_hr 5%N false 202%N 102%N (7%N, 20%N)] [].
Definition x_out : xwit := x_honest N.mul 0 9 12 (Some 7%N) []
  [mk_hs false 101%N (7%N, 40%N) (Path 1 (Some x_note1) [XL (Some x_note3) None]) x_root2; x_empty 301]
  [mk_hr 9%N true 203%N 103%N (7%N, 10%N)] [30%N].

(** C58: the three assignments satisfy the constraints; the exact sum and the members are as the
    theorem says, and the assignments with a changed value or key do not. *)
Example c58_example :
  x_sat bn254 N.mul TToPrivate x_mint = true /\ x_sat bn254 N.mul TPrivate x_send = true /\
  x_sat bn254 N.mul TToPublic x_out = true /\
  x_sat bn254 N.mul TToPublic (mk_wit (w_auth x_out) (w_asset x_out) (w_sources x_out) (w_senders x_out) (w_receivers x_out) [31%N]) = false /\
  x_sat bn254 N.mul TToPublic (mk_wit (Some (derive_auth 1%N N.mul 5 12)) (w_asset x_out) (w_sources x_out) (w_senders x_out) (w_receivers x_out) [30%N]) = false /\
  x_sat bn254 N.mul TToPublic (mk_wit (w_auth x_out) (Some 8%N) (w_sources x_out) (w_senders x_out) (w_receivers x_out) [30%N]) = false.
Proof.
  split; [vm_compute; reflexivity|]. split; [vm_compute; reflexivity|]. split; [vm_compute; reflexivity|].
  split; [vm_compute; reflexivity|]. split; vm_compute; reflexivity.
Qed.

Lemma xl_inj a b c d : XL a b = XL c d -> a = c /\ b = d.
Proof. intro E. injection E as -> ->. auto. Qed.
Lemma xj_inj a b c d : XJ a b = XJ c d -> a = c /\ b = d.
Proof. intro E. injection E as -> ->. auto. Qed.
Lemma xsome_inj (u u' : xutxo) : Some u = Some u' -> u = u'.
Proof. congruence. Qed.
Lemma xpair_inj (k : N) (x : xutxo) k' x' : (k, x) = (k', x') -> k = k' /\ x = x'.
Proof. intro E. injection E as -> ->. auto. Qed.
Lemma xcommit_inj a b c d a' b' c' d' : xcommit a b c d = xcommit a' b' c' d' -> b = b' /\ c = c' /\ d = d'.
Proof. unfold xcommit. intro E. injection E as -> -> -> ->. auto. Qed.

(** The theorem on the second: both senders are for key 5, of the same asset, the first is a leaf of
    every tree with its root. *)
Example c58_sound_example : exists id (ins outs : list casset),
  length ins = 2 /\ map fst ins = [id; id] /\ map fst outs = [id; id] /\
  nsum (map snd ins) = nsum (map snd outs).
Proof.
  pose proof (c58_sound bn254 1%N N.mul (fun k => k) xcommit (fun u => u) (@Some xutxo) (@pair N xutxo) xnote XJ XL 3
    N.eqb (eqb_of xc_dec) (eqb_of xid_dec) (eqb_of xnc_dec) (eqb_of xin_dec) N.eqb_eq (eqb_of_spec _) (eqb_of_spec _) (eqb_of_spec _) (eqb_of_spec _)
    bn254_fits None XD xj_inj xl_inj (fun a b => ltac:(discriminate)) (fun a b => ltac:(discriminate)) (fun u => ltac:(discriminate)) TPrivate x_send) as T.
  destruct T as (id & ins & outs & A & B & _ & E & _); [exact (proj1 (proj2 c58_example))|]. exists id, ins, outs.
  inversion A as [|? a0 ? ? (F0 & _) A1]; subst. inversion A1 as [|? a1 ? ? (F1 & _) A2]; subst. inversion A2; subst.
  inversion B as [|? b0 ? ? (G0 & _) B1]; subst. inversion B1 as [|? b1 ? ? (G1 & _) B2]; subst. inversion B2; subst.
  cbn [map length]. repeat split; try congruence.
  cbn [x_send x_honest honest w_sources w_sinks] in E. cbn [map] in E. clear - E. cbn in *. lia.
Qed.

(** The theorem gives the satisfaction of the second from its inputs alone; multiplication in a group of order 101. *)
Definition smul101 (n g : N) : N := ((n * g) mod 101)%N.
Definition x_send101 : xwit := x_honest smul101 101 5 11 None []
  [mk_hs false 100%N (7%N, 60%N) (Path 0 None [XD]) x_root1; x_empty 300]
  [mk_hr 9%N false 201%N 101%N (7%N, 40%N); mk_hr 5%N false 202%N 102%N (7%N, 20%N)] [].
Example c58_complete_example : x_sat bn254 smul101 TPrivate x_send101 = true.
Proof.
  refine (c58_complete bn254 1%N smul101 (fun k => k) 101%N xcommit (fun u => u) (@Some xutxo) (@pair N xutxo) xnote XJ XL 3
    N.eqb (eqb_of xc_dec) (eqb_of xid_dec) (eqb_of xnc_dec) (eqb_of xin_dec) N.eqb_eq (eqb_of_spec _) (eqb_of_spec _) (eqb_of_spec _) (eqb_of_spec _)
    bn254_fits _ TPrivate 5 11 None [] _ _ [] 7%N _ _ (or_introl eq_refl) _ _ _ _ _).
  - intro n. unfold smul101. rewrite !N.mul_1_r. apply N.mod_mod. discriminate.
  - reflexivity.
  - discriminate.
  - intros s [<-|[<-|[]]]; reflexivity.
  - intros s [<-|[<-|[]]]; reflexivity.
  - reflexivity.
  - reflexivity.
  - intros s [<-|[<-|[]]]; split; try reflexivity; [right; vm_compute; reflexivity|left; reflexivity].
Qed.

(** The exact sums need the modulus: over a field with 2^128 + 7 elements a satisfying assignment
    makes 2^128 + 12 out of 5. *)
Definition x_wrap : xwit := x_honest N.mul 0 5 11 None []
  [mk_hs false 100%N (7%N, 5%N) (Path 0 None [XD]) (spec_root None XD XJ XL 3 [Some (x_utxo 100 5 5)]); x_empty 300]
  [mk_hr 9%N false 201%N 101%N (7%N, u128 - 1)%N; mk_hr 5%N false 202%N 102%N (7%N, 13%N)] [].
Example c58_modulus_needed : x_sat (u128 + 7) N.mul TPrivate x_wrap = true /\ x_sat bn254 N.mul TPrivate x_wrap = false.
Proof. split; vm_compute; reflexivity. Qed.

(** ** The ledger of the instance *)
Notation xpost := (post xnc N xutxo xin xid N unit xwit).
Notation xlg := (ledger xnc N xutxo xin (option xutxo) xid).
Notation xop := (@lop xnc N xutxo xin xid N unit xwit).
Definition x_verify (t : tshape) (x : list xpin) (prf : xwit) : option bool :=
  Some (x_sat bn254 N.mul t prf && eqb_of (list_eq_dec xpin_dec) (wit_input prf) x).
Definition x_probe (_ : list (fnull xnc N)) (a b : fnull xnc N) : bool := eqb_of xnc_dec (fn_com a) (fn_com b).
Definition x_new : xlg := lg_new None XD 1.
Definition x_run (os : list xop) : xlg :=
  lg_run None XD XJ XL (eqb_of xid_dec) 3 (fun u => u) (@Some xutxo) (fun _ => 0) (eqb_of xnc_dec) (eqb_of xutxo_dec) (eqb_of xin_dec) x_probe XD
    (fun n : xin => n) true (fun _ _ _ _ => true) x_verify x_new os.
Definition x_landed (os : list xop) : list xpost :=
  landed (fun u => u) (@Some xutxo) XJ XL 3 (eqb_of xid_dec) (eqb_of xnc_dec) None XD (fun _ => 0) (eqb_of xutxo_dec) (eqb_of xin_dec) x_probe XD
    (fun n : xin => n) true (fun _ _ _ _ => true) x_verify x_new os.

(** The post of an assignment, paid to or by an account. *)
Definition x_post (w : xwit) (accounts : list N) : xpost :=
  mk_post (option_map (fun a => (ca_rkey a, tt)) (w_auth w))
    (mk_body (w_asset w) (w_sources w) (map (fun s => mk_spost (cs_root s) (mk_fnull (cs_null s) 0%N)) (w_senders w))
       (map (fun m => mk_rpost (cr_utxo m) (cr_note m)) (w_receivers w)) (w_sinks w) w) accounts.

Definition x_ops : list xop :=
  [OSet 1 7 100; OSet 2 7 0; OPush 1 [x_post x_mint []]; OPush 1 [x_post x_send []]; OPush 2 [x_post x_out [2%N]]].

Lemma x_ks t x prf : x_verify t x prf = Some true -> exists w, x_sat bn254 N.mul t w = true /\ wit_input w = x.
Proof.
  unfold x_verify. intro E. injection E as E. apply andb_true_iff in E. destruct E as (A & B). exists prf. split; [exact A|].
  apply eqb_of_spec in B. exact B.
Qed.

(** C59: the hypotheses hold on the instance, so every history of it whose posts verify conserves
    every asset. *)
Definition x_c59 (os : list xop)
  (V : forall q, In q (x_landed os) -> exists s, post_shape q = Some s /\ x_verify s (post_input (fun n => n) q) (b_proof (p_body q)) = Some true) :=
  c59_no_inflation bn254 1%N N.mul (fun k => k) xcommit (fun u => u) (@Some xutxo) (@pair N xutxo) xnote XJ XL 3
    N.eqb (eqb_of xc_dec) (eqb_of xid_dec) (eqb_of xnc_dec) (eqb_of xin_dec) None XD (fun _ => 0) (eqb_of xutxo_dec) (eqb_of xin_dec) x_probe XD
    (fun n : xin => n) true (fun _ _ _ _ => true) x_verify
    N.eqb_eq (eqb_of_spec _) (eqb_of_spec _) (eqb_of_spec _) (eqb_of_spec _) (eqb_of_spec _) bn254_fits (le_S _ _ (le_n 2))
    x_ks xcommit_inj (fun u u' E => E) xsome_inj xpair_inj
    (fun k k' E => ltac:(rewrite !N.mul_1_r in E; exact E)) xj_inj xl_inj
    (fun a b => ltac:(split; discriminate)) (fun a b => ltac:(split; discriminate)) (fun u => ltac:(discriminate))
    (fun s x y _ E => proj2 (eqb_of_spec xnc_dec _ _) E) 1 os (fun _ => le_n 1) V.

(** On the history above all three posts land, 60 went in, 30 came out and the pool has the rest. *)
Example c59_example :
  length (x_landed x_ops) = 3 /\ total_in 7 (x_landed x_ops) = 60%N /\ total_out 7 (x_landed x_ops) = 30%N /\
  exists pool : list (xutxo * casset), NoDup (map fst pool) /\ holding 7 pool = 30%N /\ incl (map fst pool) (g_utxos (x_run x_ops)).
Proof.
  assert (A : length (x_landed x_ops) = 3) by (vm_compute; reflexivity).
  assert (B : total_in 7 (x_landed x_ops) = 60%N) by (vm_compute; reflexivity).
  assert (C : total_out 7 (x_landed x_ops) = 30%N) by (vm_compute; reflexivity).
  split; [exact A|]. split; [exact B|]. split; [exact C|].
  assert (D : forallb (fun q : xpost => match post_shape q with Some s => match x_verify s (post_input (fun n => n) q) (b_proof (p_body q)) with Some b => b | None => false end | None => false end)
    (x_landed x_ops) = true) by (vm_compute; reflexivity).
  destruct (x_c59 x_ops) as (pool & N1 & N2 & _ & E).
  - intros q Iq. rewrite forallb_forall in D. specialize (D q Iq). destruct (post_shape q) as [s|]; [|discriminate]. exists s. split; [reflexivity|].
    unfold x_verify in *. rewrite D. reflexivity.
  - exists pool. split; [exact N1|]. split.
    + specialize (E 7%N). change (CiPool.landed _ _ _ _ _ _ _ _ _ _ _ _ _ _ _ _ _ _ _ _) with (x_landed x_ops) in E.
      rewrite B, C in E. clear - E. lia.
    + intros u Iu. apply in_map_iff in Iu. destruct Iu as ((u' & a) & <- & Iu). exact (proj1 (N2 u' a Iu)).
Qed.

(** The condition on the proofs is necessary: the ledger drops the answer of the verifier, so that a
    post with a proof that does not verify pays out what nobody paid in. *)
Definition x_bad : xpost :=
  mk_post (Some (1%N, tt))
    (mk_body (Some 7%N) [] [mk_spost XD (mk_fnull (1%N, x_note1) 0%N); mk_spost XD (mk_fnull (2%N, x_note1) 0%N)]
       [mk_rpost (x_utxo 1 0 1) (0%N, 0%N, (0%N, (0%N, 0%N)))] [1000%N] x_mint) [2%N].
Theorem c59_unchecked_refuted : exists os : list xop,
  let qs := x_landed os in
  (total_in 7 qs < total_out 7 qs)%N /\ balance (x_run os) 2 7 = 1000%N /\
  exists q, In q qs /\ exists s, post_shape q = Some s /\ x_verify s (post_input (fun n => n) q) (b_proof (p_body q)) = Some false.
Proof.
  exists [OSet 2 7 0; OPush 2 [x_bad]]. cbv zeta.
  assert (A : x_landed [OSet 2 7 0; OPush 2 [x_bad]] = [x_bad]) by (vm_compute; reflexivity). rewrite A.
  split; [vm_compute; reflexivity|]. split; [vm_compute; reflexivity|]. exists x_bad. split; [left; reflexivity|].
  exists TToPublic. split; [reflexivity|]. vm_compute. reflexivity.
Qed.

Print Assumptions c58_sound.
Print Assumptions c58_complete.
Print Assumptions c58_zero_asset.
Print Assumptions c59_no_inflation.
Print Assumptions c59_unchecked_refuted.
