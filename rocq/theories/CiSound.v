(** What a satisfied assignment of the constraints contains. *)
From Coq Require Import List Arith NArith Bool Lia.
From Verif Require Import MtModel MtSpec MtLemmas LgModel LgSpec CiModel CiSpec CiLemmas.
Import ListNotations.
Open Scope nat_scope.

Section Sound.
Context {G CR CMT IT LD ID NC IR IN : Type}.
Variable p : N.
Variable gen : G.
Variable smul : N -> G -> G.
Variable vkhash : G -> N.
Variable ucommit : CR -> N -> N -> G -> CMT.
Variable item : utxo CMT -> IT.
Variable dg : IT -> LD.
Variable ncommit : G -> IT -> NC.
Variable inote : G -> IR -> CR * casset -> IN.
Variable join : ID -> ID -> ID.
Variable joinl : LD -> LD -> ID.
Variable H : nat.
Variable geqb : G -> G -> bool.
Variable cmteqb : CMT -> CMT -> bool.
Variable ideqb : ID -> ID -> bool.
Variable nceqb : NC -> NC -> bool.
Variable ineqb : IN -> IN -> bool.
Hypothesis G_spec : forall a b, geqb a b = true <-> a = b.
Hypothesis CMT_spec : forall a b, cmteqb a b = true <-> a = b.
Hypothesis ID_spec : forall a b, ideqb a b = true <-> a = b.
Hypothesis NC_spec : forall a b, nceqb a b = true <-> a = b.
Hypothesis IN_spec : forall a b, ineqb a b = true <-> a = b.
Hypothesis Hp : (2 * u128 <= p)%N.

Notation wit := (witness G CR CMT LD ID NC IR IN).
Notation swf := (sender_wf gen smul vkhash ucommit item dg ncommit join joinl cmteqb ideqb nceqb).
Notation rwf := (receiver_wf ucommit inote cmteqb ineqb).
Notation sat := (satisfied p gen smul vkhash ucommit item dg ncommit inote join joinl H geqb cmteqb ideqb nceqb ineqb).

(** The asset that the constraints take a sender or a receiver to have. *)
Definition s_asset (s : csender CR CMT LD ID NC) : casset := aselect (ut_tr (cs_utxo s)) (ut_pub (cs_utxo s)) (cs_asset s).
Definition r_asset (m : creceiver G CR CMT IR IN) : casset := aselect (ut_tr (cr_utxo m)) (ut_pub (cr_utxo m)) (cr_asset m).

Lemma swf_asset pak s : fst (swf pak s) = s_asset s.
Proof. reflexivity. Qed.
Lemma rwf_asset m : fst (rwf m) = r_asset m.
Proof. reflexivity. Qed.

Lemma is_empty_spec (a : casset) : is_empty a = true <-> a = (0%N, 0%N).
Proof.
  destruct a as [i v]. unfold is_empty. cbn [fst snd]. rewrite andb_true_iff, !N.eqb_eq. split.
  - intros [-> ->]. reflexivity.
  - intro E. injection E as -> ->. auto.
Qed.

Lemma holds_of (u : utxo CMT) rand (pl : casset) rk : ut_tr u = is_empty pl ->
  ut_com u = ucommit rand (fst pl) (snd pl) rk -> holds ucommit u rk (aselect (ut_tr u) (ut_pub u) pl).
Proof.
  intros T C. exists rand. destruct (ut_tr u) eqn:E; unfold aselect.
  - symmetry in T. apply is_empty_spec in T. subst pl. split; [destruct (ut_pub u); reflexivity|exact C].
  - destruct pl as [i v]. cbn [fst snd] in *. split; [|exact C]. intro Z. apply is_empty_spec in Z. congruence.
Qed.

Lemma swf_ok pak s : snd (swf pak s) = true ->
  holds ucommit (cs_utxo s) (smul (vkhash pak) gen) (s_asset s) /\
  cs_null s = ncommit pak (item (cs_utxo s)) /\
  (snd (s_asset s) = 0%N \/ cs_root s = pv_root join joinl (cs_path s) (dg (item (cs_utxo s)))).
Proof.
  unfold sender_wf, spend_wf. cbn [fst snd]. fold (s_asset s). intro E. apply andb_true_iff in E. destruct E as (E & E4).
  apply andb_true_iff in E. destruct E as (E & E3). apply andb_true_iff in E. destruct E as (E1 & E2).
  apply eqb_prop in E1. apply CMT_spec in E2. apply NC_spec in E4. apply orb_true_iff in E3.
  split; [apply (holds_of _ (cs_rand s)); [exact E1|exact E2]|]. split; [exact E4|].
  destruct E3 as [E3|E3]; [left; apply N.eqb_eq; exact E3|right; apply ID_spec; exact E3].
Qed.

Lemma rwf_ok m : snd (rwf m) = true ->
  holds ucommit (cr_utxo m) (cr_key m) (r_asset m) /\
  exists ir rand pl, cr_note m = inote (cr_key m) ir (rand, pl) /\
    ut_com (cr_utxo m) = ucommit rand (fst pl) (snd pl) (cr_key m) /\
    pl = (if ut_tr (cr_utxo m) then (0%N, 0%N) else r_asset m).
Proof.
  unfold receiver_wf. cbn [fst snd]. intro E. apply andb_true_iff in E. destruct E as (E & E3).
  apply andb_true_iff in E. destruct E as (E1 & E2). apply eqb_prop in E1. apply CMT_spec in E2. apply IN_spec in E3.
  split; [apply (holds_of _ (cr_rand m)); [exact E1|exact E2]|].
  exists (cr_irand m), (cr_rand m), (cr_asset m). split; [exact E3|]. split; [exact E2|].
  unfold r_asset, aselect. destruct (ut_tr (cr_utxo m)).
  - symmetry in E1. apply is_empty_spec in E1. exact E1.
  - destruct (cr_asset m); reflexivity.
Qed.

Lemma sel_range b (x y : casset) : in_range (snd x) = true -> in_range (snd y) = true -> in_range (snd (aselect b x y)) = true.
Proof. destruct b; auto. Qed.

Record good (t : tshape) (w : wit) : Prop := {
  gd_shape : select_shape (CiModel.is_some (w_auth w)) (CiModel.is_some (w_asset w)) (length (w_sources w))
               (length (w_senders w)) (length (w_receivers w)) (length (w_sinks w)) = Some t;
  gd_paths : forall s, In s (w_senders w) -> length (pv_bits (cs_path s)) = H - 2 /\ length (pv_path (cs_path s)) = H - 2;
  gd_auth : forall a, w_auth w = Some a -> smul (ca_rand a) (ca_key a) = ca_rkey a;
  gd_send : forall a s, w_auth w = Some a -> In s (w_senders w) ->
     holds ucommit (cs_utxo s) (smul (vkhash (ca_key a)) gen) (s_asset s) /\
     cs_null s = ncommit (ca_key a) (item (cs_utxo s)) /\
     (snd (s_asset s) = 0%N \/ cs_root s = pv_root join joinl (cs_path s) (dg (item (cs_utxo s))));
  gd_recv : forall m, In m (w_receivers w) ->
     holds ucommit (cr_utxo m) (cr_key m) (r_asset m) /\
     exists ir rand pl, cr_note m = inote (cr_key m) ir (rand, pl) /\
       ut_com (cr_utxo m) = ucommit rand (fst pl) (snd pl) (cr_key m) /\
       pl = (if ut_tr (cr_utxo m) then (0%N, 0%N) else r_asset m);
  gd_ids : exists id, (forall s, In s (w_senders w) -> fst (s_asset s) = id) /\
     (forall m, In m (w_receivers w) -> fst (r_asset m) = id) /\
     (w_asset w = None \/ w_asset w = Some id);
  gd_sum : (nsum (w_sources w) + nsum (map (fun s => snd (s_asset s)) (w_senders w)) =
            nsum (map (fun m => snd (r_asset m)) (w_receivers w)) + nsum (w_sinks w))%N;
  gd_range : (nsum (w_sources w) + nsum (map (fun s => snd (s_asset s)) (w_senders w)) < u128)%N }.

Lemma shape_eqb_eq a b : shape_eqb a b = true -> a = b.
Proof. destruct a, b; cbn; congruence. Qed.

Theorem satisfied_good t w : sat t w = true -> good t w.
Proof.
  unfold satisfied. intro E. apply andb_true_iff in E. destruct E as (E & EB). apply andb_true_iff in E. destruct E as (EF & ER).
  unfold fits in EF.
  destruct (select_shape (CiModel.is_some (w_auth w)) (CiModel.is_some (w_asset w)) (length (w_sources w))
          (length (w_senders w)) (length (w_receivers w)) (length (w_sinks w))) as [t'|] eqn:ES; [|discriminate].
  apply andb_true_iff in EF. destruct EF as (ET & EP). apply shape_eqb_eq in ET. subst t'.
  rewrite forallb_forall in EP.
  unfold alloc_ranges in ER. apply andb_true_iff in ER. destruct ER as (ER & R4). apply andb_true_iff in ER. destruct ER as (ER & R3).
  apply andb_true_iff in ER. destruct ER as (R1 & R2). rewrite forallb_forall in R3, R4.
  unfold build_constraints in EB.
  destruct (input_sum p gen smul vkhash ucommit item dg ncommit join joinl geqb cmteqb ideqb nceqb w) as [ids1 isum] eqn:EI.
  destruct (output_sum p ucommit inote cmteqb ineqb w) as [ids2 osum] eqn:EO.
  destruct isum as [[iv iok]|]; [|discriminate]. destruct osum as [[ov ook]|]; [|discriminate].
  apply andb_true_iff in EB. destruct EB as (EB & EA). apply andb_true_iff in EB. destruct EB as (EB & EV).
  apply andb_true_iff in EB. destruct EB as (-> & ->). apply N.eqb_eq in EV. subst ov.
  (* outputs *)
  unfold output_sum in EO. injection EO as O1 O2. rewrite !map_map in O1, O2.
  destruct (value_sum p (map (fun x => snd (fst (rwf x))) (w_receivers w) ++ w_sinks w)) as [[ov' ook]|] eqn:EVO; [|discriminate].
  injection O2 as -> O2. apply andb_true_iff in O2. destruct O2 as (O2 & ->).
  rewrite forallb_map, forallb_forall in O2.
  assert (RO : forallb in_range (map (fun x => snd (fst (rwf x))) (w_receivers w) ++ w_sinks w) = true).
  { rewrite forallb_app. apply andb_true_iff. split; [|exact R2]. rewrite forallb_map. apply forallb_forall. intros m Im.
    specialize (R4 m Im). apply andb_true_iff in R4. destruct R4 as (A & B). apply sel_range; [exact B|exact A]. }
  destruct (value_sum_exact p Hp _ _ RO EVO) as (SO & BO). rewrite nsum_app in SO.
  (* inputs *)
  unfold input_sum in EI. destruct (w_auth w) as [a|] eqn:EAU.
  - injection EI as I1 I2. rewrite !map_map in I1, I2.
    destruct (value_sum p (map (fun x => snd (fst (swf (ca_key a) x))) (w_senders w) ++ w_sources w)) as [[iv' iok]|] eqn:EVI; [|discriminate].
    injection I2 as -> I2. apply andb_true_iff in I2. destruct I2 as (I2 & ->). apply andb_true_iff in I2. destruct I2 as (IA & I2).
    rewrite forallb_map, forallb_forall in I2.
    assert (RI : forallb in_range (map (fun x => snd (fst (swf (ca_key a) x))) (w_senders w) ++ w_sources w) = true).
    { rewrite forallb_app. apply andb_true_iff. split; [|exact R1]. rewrite forallb_map. apply forallb_forall. intros s Is.
      specialize (R3 s Is). apply andb_true_iff in R3. destruct R3 as (A & B). rewrite swf_asset. apply sel_range; [exact B|exact A]. }
    destruct (value_sum_exact p Hp _ _ RI EVI) as (SI & BI). rewrite nsum_app in SI.
    assert (M1 : map (fun x => snd (fst (swf (ca_key a) x))) (w_senders w) = map (fun s => snd (s_asset s)) (w_senders w)) by reflexivity.
    assert (M2 : map (fun x => snd (fst (rwf x))) (w_receivers w) = map (fun m => snd (r_asset m)) (w_receivers w)) by reflexivity.
    rewrite M1 in SI. rewrite M2 in SO.
    constructor.
    + rewrite EAU. exact ES.
    + intros s Is. specialize (EP s Is). apply andb_true_iff in EP. destruct EP as (A & B).
      split; apply Nat.eqb_eq; assumption.
    + intros a' E'. rewrite EAU in E'. injection E' as <-. apply G_spec. exact IA.
    + intros a' s E' Is. rewrite EAU in E'. injection E' as <-. apply swf_ok. apply I2. exact Is.
    + intros m Im. apply rwf_ok. apply O2. exact Im.
    + assert (EX : exists id, (forall x, In x (ids1 ++ ids2) -> x = id) /\ (w_asset w = None \/ w_asset w = Some id)).
      { destruct (w_asset w) as [i|].
        - exists i. split; [|auto]. intros x Ix. unfold all_eq_to in EA. rewrite forallb_forall in EA. symmetry. apply N.eqb_eq. apply EA. exact Ix.
        - destruct (all_eq_common _ EA) as (id & X). exists id. auto. }
      destruct EX as (id & X & Y). exists id. split; [|split; [|exact Y]].
      * intros s Is. apply X. apply in_or_app. left. rewrite <- I1. apply (in_map (fun x => fst (fst (swf (ca_key a) x)))) in Is. exact Is.
      * intros m Im. apply X. apply in_or_app. right. rewrite <- O1. apply (in_map (fun x => fst (fst (rwf x)))) in Im. exact Im.
    + clear - SI SO. lia.
    + clear - SI BI. lia.
  - injection EI as <- I2.
    assert (NS : w_senders w = []).
    { cbn [CiModel.is_some] in ES. unfold select_shape in ES.
      destruct (CiModel.is_some (w_asset w)); [|discriminate].
      destruct (length (w_sources w)) as [|[|]]; try discriminate.
      destruct (w_senders w); [reflexivity|]. cbn [length] in ES. discriminate. }
    destruct (value_sum_exact p Hp _ _ R1 I2) as (SI & BI).
    assert (M2 : map (fun x => snd (fst (rwf x))) (w_receivers w) = map (fun m => snd (r_asset m)) (w_receivers w)) by reflexivity.
    rewrite M2 in SO.
    constructor.
    + rewrite EAU. exact ES.
    + rewrite NS. intros s [].
    + intros a' E'. congruence.
    + intros a' s E'. congruence.
    + intros m Im. apply rwf_ok. apply O2. exact Im.
    + assert (EX : exists id, (forall x, In x ids2 -> x = id) /\ (w_asset w = None \/ w_asset w = Some id)).
      { destruct (w_asset w) as [i|].
        - exists i. split; [|auto]. intros x Ix. unfold all_eq_to in EA. rewrite forallb_forall in EA. symmetry. apply N.eqb_eq. apply EA. exact Ix.
        - destruct (all_eq_common _ EA) as (id & X). exists id. auto. }
      destruct EX as (id & X & Y). exists id. split; [|split; [|exact Y]].
      * rewrite NS. intros s [].
      * intros m Im. apply X. rewrite <- O1. apply (in_map (fun x => fst (fst (rwf x)))) in Im. exact Im.
    + rewrite NS. cbn [map nsum fold_right]. clear - SI SO. lia.
    + rewrite NS. cbn [map nsum fold_right]. clear - SI BI. lia.
Qed.

(** ** Membership *)
Section Member.
Variable dl : LD.
Variable di : ID.
Hypothesis join_inj : forall a b c d, join a b = join c d -> a = c /\ b = d.
Hypothesis joinl_inj : forall a b c d, joinl a b = joinl c d -> a = c /\ b = d.
Hypothesis join_di : forall a b, join a b <> di.
Hypothesis joinl_di : forall a b, joinl a b <> di.
Hypothesis leaf_dl : forall u, dg (item u) <> dl.

Lemma good_member t w a s l : good t w -> w_auth w = Some a -> In s (w_senders w) -> snd (s_asset s) <> 0%N ->
  cs_root s = spec_root dl di join joinl H l -> In (dg (item (cs_utxo s))) l.
Proof.
  intros g EA Is NZ ER. destruct (gd_send t w g a s EA Is) as (_ & _ & [Z|R]); [congruence|].
  destruct (gd_paths t w g s Is) as (L1 & L2). rewrite R in ER. unfold pv_root in ER. unfold spec_root in ER.
  apply (climb_member dl di join joinl join_inj joinl_inj join_di joinl_di (H - 2) (pv_bits (cs_path s)) (pv_path (cs_path s))
    (pv_right (cs_path s)) (dg (item (cs_utxo s))) (pv_sib (cs_path s)) l L1 L2 (leaf_dl _)).
  rewrite <- ER. destruct (cswap (pv_right (cs_path s)) (dg (item (cs_utxo s))) (pv_sib (cs_path s))). reflexivity.
Qed.
End Member.

End Sound.
