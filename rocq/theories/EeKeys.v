(** The identifiers that signing draws, and the coins that it spends. *)
From Coq Require Import List Arith NArith Bool Lia Permutation.
From Verif Require Import MtModel PtModel AssetModel AssetSpec AssetLemmas AssetSelect SnModel SnSpec SnJoin SnAcc SnProps.
Import ListNotations.
Open Scope nat_scope.

(** The identifiers drawn for a post: those of made-up senders and those of the receivers. *)
Definition made_up {LD ID} (s : @sender LD ID) : bool := match sd_proof s with None => true | Some _ => false end.
Definition drawn {LD ID} (p : @post LD ID) : list N :=
  map sd_key (filter made_up (po_senders p)) ++ map rc_key (po_receivers p).

(** The made-up coins that posts spend. *)
Definition fakes_of {LD ID} (p : @post LD ID) : list (N * asset) := map coin (filter made_up (po_senders p)).
Definition fake_coins {LD ID} (ps : list (@post LD ID)) : list (N * asset) := flat_map fakes_of ps.

(** Outputs that fit in the type of values. *)
Definition small {LD ID} (p : @post LD ID) : Prop := Forall (fun r => (snd (rc_asset r) <= vmax)%N) (po_receivers p).
Lemma vsum_small l : forall acc s, (acc <= vmax)%N -> vsum acc l = Some s -> (s <= vmax)%N.
Proof.
  induction l as [|v l IH]; intros acc s B E; cbn [vsum] in E; [injection E as <-; exact B|].
  destruct (N.ltb_spec vmax (acc + v)); [discriminate|]. eapply IH; eassumption.
Qed.
Lemma zero_small : (0 <= vmax)%N. Proof. apply N.le_0_l. Qed.

Section Keys.
Context {LD ID IT : Type}.
Variable dl : LD.
Variable di : ID.
Variable join : ID -> ID -> ID.
Variable joinl : LD -> LD -> ID.
Variable ldeqb : LD -> LD -> bool.
Variable H : nat.
Variable chk : bool.
Variable dg : IT -> LD.
Variable sh : IT -> nat.
Variable spend_item : N -> asset -> IT.
Variable ident : nat -> N.
Variable prove_ok : nat -> bool.
Notation eff := (@eff LD ID).
Notation sender := (@sender LD ID).
Notation post := (@post LD ID).
Notation upgrade := (upgrade dl di join joinl ldeqb H chk dg sh spend_item).
Notation upgrade_all := (upgrade_all dl di join joinl ldeqb H chk dg sh spend_item).
Notation build_post := (build_post prove_ok).
Notation prepare_final := (prepare_final dl di join joinl ldeqb H chk dg sh spend_item ident).
Notation join_round := (join_round dl di join joinl ldeqb H chk dg sh spend_item ident prove_ok).
Notation join_loop := (join_loop dl di join joinl ldeqb H chk dg sh spend_item ident prove_ok).
Notation compute_batched := (compute_batched dl di join joinl ldeqb H chk dg sh spend_item ident prove_ok).
Notation process_to_public := (process_to_public ident prove_ok).
Notation public_loop := (public_loop dl di join joinl ldeqb H chk dg sh spend_item ident prove_ok).
Notation compute_to_public := (compute_to_public dl di join joinl ldeqb H chk dg sh spend_item ident prove_ok).
Notation private_after := (private_after dl di join joinl ldeqb H chk dg sh spend_item ident prove_ok).
Notation insert_utxos := (insert_utxos dl di join joinl H dg sh spend_item).

Notation proved := (Forall (fun s : sender => sd_proof s <> None)).

Lemma upgrade_all_proved l e : forall xs, upgrade_all l e = Some xs -> proved xs.
Proof.
  induction l as [|s l IH]; intros xs E; cbn [SnModel.upgrade_all] in E. { injection E as <-. constructor. }
  destruct (upgrade s e) as [x|] eqn:U; [|discriminate]. destruct (upgrade_all l e) as [xs'|]; [|discriminate].
  injection E as <-. constructor; [|apply IH; reflexivity].
  unfold SnModel.upgrade in U. destruct (fo_prove _ _ _ _ _ _ _ _ _ _ _) as [[p|]|]; try discriminate. injection U as <-. discriminate.
Qed.
Lemma proved_none (l : list sender) : proved l -> filter made_up l = [].
Proof. induction 1 as [|s l F _ IH]; [reflexivity|]. cbn [filter]. unfold made_up at 1. destruct (sd_proof s); [exact IH|destruct (F eq_refl)]. Qed.

(** The identifiers drawn from state [e] to state [e']. *)
Definition draws (e e' : eff) (ks : list N) : Prop :=
  exists n, ks = map ident (seq (e_rng e) n) /\ e_rng e' = e_rng e + n.
Lemma draws_nil e e' : e_rng e' = e_rng e -> draws e e' [].
Proof. exists 0. split; [reflexivity|]. rewrite Nat.add_0_r. assumption. Qed.
Lemma draws_one e e' : e_rng e' = S (e_rng e) -> draws e e' [ident (e_rng e)].
Proof. exists 1. split; [reflexivity|]. rewrite Nat.add_1_r. assumption. Qed.
Lemma draws_app e e1 e' ks ks' : draws e e1 ks -> draws e1 e' ks' -> draws e e' (ks ++ ks').
Proof.
  intros (n & -> & E1) (n' & -> & E2). exists (n + n'). rewrite seq_app, map_app, <- E1. split; [reflexivity|]. lia.
Qed.

Lemma join_round_draws id chunks : forall joins zeroes posts e r e', join_round id chunks joins zeroes posts e = Done r e' ->
  exists ps, snd r = posts ++ ps /\ draws e e' (flat_map drawn ps) /\ Forall (fun p => proved (po_senders p) /\ small p) ps.
Proof.
  induction chunks as [|[a b] chunks IH]; intros joins zeroes posts e r e' E; cbn [SnModel.join_round] in E.
  - injection E as <- <-. exists []. rewrite app_nil_r. split; [reflexivity|]. split; [apply draws_nil; reflexivity|constructor].
  - destruct (upgrade_all [a; b] e) as [ss|] eqn:U; [|discriminate]. apply upgrade_all_proved in U.
    destruct (vsum 0 (values ss)) as [v|] eqn:VS; [|discriminate]. apply (vsum_small _ _ _ zero_small) in VS. unfold next_join, receiver, draw in E. cbn [e_rng e_acc e_prf rc_key] in E.
    unfold SnModel.build_post in E. cbn [e_rng e_acc e_prf] in E. destruct (prove_ok (e_prf e)); cbn [bind] in E; [|discriminate].
    destruct (insert_utxos _ _) as [e3|] eqn:IU; [|discriminate]. apply insert_utxos_bases in IU. destruct IU as (_ & R & _). cbn [e_rng] in R.
    apply IH in E. destruct E as (ps & -> & D & F).
    exists (mk_post KPrivateTransfer [] ss [mk_recv None (ident (e_rng e)) (id, v); mk_recv None (ident (S (e_rng e))) (id, 0%N)] [] [] :: ps).
    rewrite <- app_assoc. split; [reflexivity|]. split; [|constructor; [split; [exact U|]|exact F]; constructor; [exact VS|constructor; [apply zero_small|constructor]]].
    cbn [flat_map]. eapply draws_app; [|exact D]. exists 2. unfold drawn. cbn [po_senders po_receivers map rc_key].
    rewrite (proved_none ss U). split; [reflexivity|]. rewrite R. lia.
Qed.

Lemma join_loop_draws id : forall fuel pre zeroes posts e r e', join_loop fuel id pre zeroes posts e = Done r e' ->
  exists ps, snd r = posts ++ ps /\ draws e e' (flat_map drawn ps) /\ Forall (fun p => proved (po_senders p) /\ small p) ps.
Proof.
  induction fuel as [|fuel IH]; intros pre zeroes posts e r e' E; cbn [SnModel.join_loop] in E; destruct (2 <? length pre); try discriminate E.
  1, 3: injection E as <- <-; exists []; rewrite app_nil_r; split; [reflexivity|]; split; [apply draws_nil; reflexivity|constructor].
  destruct (chunk2 pre) as [cs rm]. destruct (join_round id cs [] zeroes posts e) as [[[js zs] ps] e1| |] eqn:J; cbn [bind] in E; try discriminate.
  apply join_round_draws in J. destruct J as (q & Q & D & F). cbn [snd] in Q. subst ps.
  apply IH in E. destruct E as (ps & -> & D' & F'). exists (q ++ ps). rewrite <- app_assoc, flat_map_app. split; [reflexivity|].
  split; [eapply draws_app; eassumption|apply Forall_app; split; assumption].
Qed.

Lemma fakes_draws id n : forall e, draws e (snd (fakes (LD := LD) (ID := ID) ident id n e)) (map sd_key (fst (fakes (LD := LD) (ID := ID) ident id n e))).
Proof.
  induction n as [|n IH]; intro e; cbn [fakes]; [apply draws_nil; reflexivity|].
  unfold draw. specialize (IH (mk_eff (e_acc e) (S (e_rng e)) (e_prf e))). destruct (fakes ident id n _) as [l e'']. cbn [fst snd map sd_key] in *.
  exact (draws_app e (mk_eff (e_acc e) (S (e_rng e)) (e_prf e)) e'' [ident (e_rng e)] _ (draws_one e (mk_eff (e_acc e) (S (e_rng e)) (e_prf e)) eq_refl) IH).
Qed.

(** The senders of a last post: the coins given, kept zeroes, and made-up zeroes. *)
Lemma prepare_final_draws m id pre e l e' zs : zs = [] \/ length pre = 2 -> prepare_final m id zs pre e = Done l e' ->
  exists fr fk, l = fr ++ fk /\ proved fr /\ Forall (fun s => sd_proof s = None) fk /\ draws e e' (map sd_key fk) /\
    map coin fr = pre ++ map (fun k => (k, (id, 0%N))) (am_zeroes m (2 - length pre) id) /\ Forall (is_zero id) (map coin fk).
Proof.
  intros ZS. unfold SnModel.prepare_final. destruct (upgrade_all pre e) as [ss|] eqn:U; [|discriminate].
  pose proof (upgrade_all_coin _ _ _ _ _ _ _ _ _ _ _ _ _ U) as UC. assert (LS : length ss = length pre) by (rewrite <- UC, map_length; auto).
  rewrite LS. destruct (Nat.ltb_spec 2 (length pre)) as [C|C]; [discriminate|].
  destruct (upgrade_all (map (fun k => (k, (id, 0%N))) _) e) as [zz|] eqn:Z; [|discriminate]. pose proof (upgrade_all_coin _ _ _ _ _ _ _ _ _ _ _ _ _ Z) as ZC.
  replace (firstn _ (rev zs)) with (@nil (N * asset)).
  2: { destruct ZS as [->|E2]; [symmetry; apply firstn_nil|rewrite E2; reflexivity]. }
  cbn [SnModel.upgrade_all]. pose proof (fakes_draws id (2 - length pre - length (am_zeroes m (2 - length pre) id) - length zs) e) as D.
  pose proof (fakes_spec (LD := LD) (ID := ID) ident id (2 - length pre - length (am_zeroes m (2 - length pre) id) - length zs) e) as (_ & FZ & FN & _).
  destruct (fakes _ _ _ _) as [fk e2]. cbn [fst snd] in *. intro E. injection E as <- <-. cbn [app].
  exists (ss ++ zz), fk. rewrite <- app_assoc. split; [reflexivity|]. split; [apply Forall_app; split; eapply upgrade_all_proved; eassumption|].
  split; [exact FN|]. split; [exact D|]. rewrite map_app, UC, ZC. auto.
Qed.

Lemma unproved_all (l : list sender) : Forall (fun s => sd_proof s = None) l -> filter made_up l = l.
Proof. induction 1 as [|s l F _ IH]; [reflexivity|]. cbn [filter]. unfold made_up at 1. rewrite F, IH. reflexivity. Qed.

(** What a batch of transfers spends: the coins, the kept zeroes, and coins with identifiers that
    were drawn, each at most once. *)
Lemma private_after_keys m a addr change cs e posts e' : of_id (fst a) cs ->
  private_after m a addr (change, cs) e = Done posts e' ->
  draws e e' (flat_map drawn posts) /\
  exists joined, Permutation (all_spent posts) ((cs ++ map (fun k => (k, (fst a, 0%N))) (am_zeroes m (2 - length cs) (fst a))) ++ joined ++ fake_coins posts) /\
    sublist joined (flat_map made posts) /\ Forall (is_zero (fst a)) (fake_coins posts) /\
    ((snd a <= vmax)%N -> (change <= vmax)%N -> Forall small posts).
Proof.
  unfold SnModel.private_after, SnModel.compute_batched. cbn [fst snd]. intros O E.
  destruct (join_loop _ _ _ _ _ _) as [[[pre' zs] ps] e1| |] eqn:J; cbn [bind] in E; try discriminate.
  pose proof (join_loop_spec _ _ _ _ _ _ _ _ _ _ _ _ _ _ _ _ _ _ _ _ O J) as (p0 & z0 & q0 & EQ & L1 & L2 & IJ & CO & PM & OP & TP & SM).
  cbn [app] in EQ. injection EQ as <- <- <-.
  apply join_loop_draws in J. destruct J as (q & Q & DJ & FJ). cbn [snd app] in Q. subst q.
  destruct (prepare_final m (fst a) zs pre' e1) as [l e2| |] eqn:P; cbn [into_array2 bind] in E; try discriminate.
  destruct (Nat.eqb_spec (length l) 2) as [LL|]; cbn [bind] in E; [|discriminate].
  apply prepare_final_draws in P.
  2: { destruct (Nat.le_gt_cases (length cs) 2) as [C|C]; [left; apply SM, C|right; lia]. }
  destruct P as (fr & fk & -> & PF & NF & DF & CF & ZF).
  unfold receiver, draw, SnModel.build_post in E. cbn [e_acc e_rng e_prf] in E.
  destruct (prove_ok (e_prf e2)); cbn [bind] in E; [|discriminate]. injection E as <- <-.
  assert (DP : drawn (mk_post KPrivateTransfer [] (fr ++ fk) [mk_recv None (ident (e_rng e2)) (fst a, change); mk_recv addr (ident (S (e_rng e2))) a] [] []) =
    map sd_key fk ++ [ident (e_rng e2); ident (S (e_rng e2))]).
  { unfold drawn. cbn [po_senders po_receivers map rc_key]. rewrite filter_app, (proved_none _ PF), (unproved_all _ NF). reflexivity. }
  rewrite flat_map_app. cbn [flat_map]. rewrite app_nil_r, DP. split.
  - eapply draws_app; [exact DJ|]. eapply draws_app; [exact DF|]. exists 2. split; [reflexivity|]. cbn [e_rng]. lia.
  - exists (flat_map join_out ps). unfold fake_coins. rewrite flat_map_app.
    assert (FC : flat_map fakes_of ps = []).
    { clear - FJ. induction FJ as [|p ps [F _] _ IH]; [reflexivity|]. cbn [flat_map]. rewrite IH. unfold fakes_of. rewrite (proved_none _ F). reflexivity. }
    rewrite FC. cbn [flat_map app]. rewrite app_nil_r. unfold fakes_of at 1 2. cbn [po_senders]. rewrite filter_app, (proved_none _ PF), (unproved_all _ NF). cbn [app].
    split; [|split; [|split; [exact ZF|]]].
    + unfold all_spent. rewrite flat_map_app. cbn [flat_map]. rewrite app_nil_r. unfold spent at 2. cbn [po_senders]. rewrite map_app, CF.
      replace (2 - length pre') with (2 - length cs) by lia. rewrite <- !app_assoc.
      assert (PM' : Permutation (flat_map spent ps ++ pre') (cs ++ flat_map join_out ps)) by exact PM.
      rewrite (app_assoc (flat_map spent ps)), PM', <- app_assoc. apply Permutation_app_head.
      rewrite !app_assoc. apply Permutation_app_tail. apply Permutation_app_comm.
    + rewrite flat_map_app. rewrite <- (app_nil_r (flat_map join_out ps)). apply sublist_app; [|apply sublist_nil].
      clear. induction ps as [|p ps IH]; [apply sub_nil|]. cbn [flat_map]. apply sublist_app; [|exact IH].
      unfold join_out. destruct (made p) as [|c l]; [apply sub_nil|]. cbn [firstn]. apply sub_take. apply sublist_nil.
    + intros B1 B2. apply Forall_app. split; [eapply Forall_impl; [|exact FJ]; intros p [_ Q]; exact Q|].
      constructor; [|constructor]. constructor; [exact B2|]. constructor; [exact B1|constructor].
Qed.

Lemma process_draws id accounts senders change (e : eff) (p : post) c' e' : process_to_public id accounts senders change e = Done (p, c') e' ->
  exists k, po_senders p = senders /\ map rc_key (po_receivers p) = [k] /\ k = ident (e_rng e) /\ e_rng e' = S (e_rng e) /\ small p.
Proof.
  unfold SnModel.process_to_public. destruct (vsum 0 (values senders)) as [v|] eqn:VS; [|discriminate]. apply vsum_small in VS; [|apply zero_small].
  assert (X : (fst (fst (if (change <=? v)%N then (change, (v - change)%N, 0%N) else (v, 0%N, (change - v)%N))) <= vmax)%N).
  { destruct (N.leb_spec change v) as [C|C]; cbn [fst]; [etransitivity; [exact C|exact VS]|exact VS]. }
  destruct (if (change <=? v)%N then _ else _) as [[x y] c]. cbn [fst] in X. unfold receiver, draw, SnModel.build_post. cbn [e_acc e_prf e_rng].
  destruct (prove_ok (e_prf e)); cbn [bind]; [|discriminate]. intro E. injection E as <- <- <-. exists (ident (e_rng e)). cbn [po_senders po_receivers map rc_key e_rng]. repeat (split; [reflexivity|]). constructor; [exact X|constructor].
Qed.

Lemma public_loop_draws id accounts chunks : forall change posts e r e', public_loop id accounts chunks change posts e = Done r e' ->
  exists ps, snd r = posts ++ ps /\ draws e e' (flat_map drawn ps) /\ Forall (fun p => proved (po_senders p) /\ small p) ps.
Proof.
  induction chunks as [|[a b] chunks IH]; intros change posts e r e' E; cbn [SnModel.public_loop] in E.
  - injection E as <- <-. exists []. rewrite app_nil_r. split; [reflexivity|]. split; [apply draws_nil; reflexivity|constructor].
  - destruct (upgrade_all [a; b] e) as [ss|] eqn:U; [|discriminate]. apply upgrade_all_proved in U.
    destruct (process_to_public id accounts ss change e) as [[p c1] e1| |] eqn:P; cbn [bind fst snd] in E; try discriminate.
    apply process_draws in P. destruct P as (k & P1 & P2 & P3 & P4 & P5).
    apply IH in E. destruct E as (ps & -> & D & F). exists (p :: ps). rewrite <- app_assoc. split; [reflexivity|].
    split; [|constructor; [split; [rewrite P1; exact U|exact P5]|exact F]]. cbn [flat_map]. eapply draws_app; [|exact D]. unfold drawn. rewrite P1, P2, (proved_none _ U), P3. cbn [map app]. apply draws_one. exact P4.
Qed.

(** The same for payments. *)
Lemma compute_to_public_keys m id accounts change pre e posts e' : of_id id pre ->
  compute_to_public m id accounts change pre e = Done posts e' ->
  draws e e' (flat_map drawn posts) /\
  Permutation (all_spent posts) ((pre ++ map (fun k => (k, (id, 0%N))) (am_zeroes m (length pre mod 2) id)) ++ fake_coins posts) /\
  Forall (is_zero id) (fake_coins posts) /\ Forall small posts.
Proof.
  unfold SnModel.compute_to_public. intros O E. destruct (chunk2 pre) as [cs rm] eqn:CH.
  destruct (chunk2_spec (length pre) pre (le_n _) _ _ CH) as (F & L1 & L2).
  assert (O1 : of_id id (flat2 cs)).
  { unfold of_id in *. rewrite <- F in O. apply Forall_app in O. apply O. }
  destruct (public_loop id accounts cs change [] e) as [[c1 ps] e1| |] eqn:P; cbn [bind] in E; try discriminate.
  destruct (public_loop_spec _ _ _ _ _ _ _ _ _ _ _ _ _ _ _ _ _ _ _ _ O1 P) as (ps0 & c0 & EQ & R1 & R2 & R3 & R4 & _).
  cbn [app] in EQ. injection EQ as <- <-.
  apply public_loop_draws in P. destruct P as (q & Q & DJ & FJ). cbn [snd app] in Q. subst q.
  assert (FC : flat_map fakes_of ps = []).
  { clear - FJ. induction FJ as [|p ps [F _] _ IH]; [reflexivity|]. cbn [flat_map]. rewrite IH. unfold fakes_of. rewrite (proved_none _ F). reflexivity. }
  assert (SJ : Forall small ps) by (eapply Forall_impl; [|exact FJ]; intros p [_ Q]; exact Q).
  destruct rm as [|x [|y rm]].
  - injection E as <- <-. cbn [length] in L2. rewrite app_nil_r in F. split; [exact DJ|]. unfold fake_coins. rewrite FC.
    rewrite <- L2, R4, F. unfold am_zeroes. cbn [firstn map]. rewrite !app_nil_r. split; [reflexivity|]. split; [constructor|exact SJ].
  - destruct (prepare_final m id [] [x] e1) as [l e2| |] eqn:PF; cbn [into_array2 bind] in E; try discriminate.
    destruct (Nat.eqb_spec (length l) 2) as [LL|]; cbn [bind] in E; [|discriminate].
    apply prepare_final_draws in PF; [|left; reflexivity]. destruct PF as (fr & fk & -> & PR & NF & DF & CF & ZF).
    destruct (process_to_public id accounts (fr ++ fk) c1 e2) as [[p c2] e3| |] eqn:PP; cbn [bind fst snd] in E; try discriminate.
    injection E as <- <-. apply process_draws in PP. destruct PP as (k & P1 & P2 & P3 & P4 & P5).
    assert (DP : drawn p = map sd_key fk ++ [k]).
    { unfold drawn. rewrite P1, P2, filter_app, (proved_none _ PR), (unproved_all _ NF). reflexivity. }
    rewrite flat_map_app. cbn [flat_map]. rewrite app_nil_r, DP. split.
    + eapply draws_app; [exact DJ|]. eapply draws_app; [exact DF|]. rewrite P3. apply draws_one. exact P4.
    + cbn [length] in L2. rewrite <- L2. unfold fake_coins. rewrite flat_map_app, FC. cbn [flat_map app]. rewrite app_nil_r.
      unfold fakes_of. rewrite P1, filter_app, (proved_none _ PR), (unproved_all _ NF). cbn [app]. split; [|split; [exact ZF|apply Forall_app; split; [exact SJ|constructor; [exact P5|constructor]]]].
      unfold all_spent in *. rewrite flat_map_app, R4. cbn [flat_map]. rewrite app_nil_r. unfold spent. rewrite P1, map_app, CF, <- F.
      cbn [length Nat.sub]. rewrite <- !app_assoc. reflexivity.
  - cbn [length] in L2. exfalso. pose proof (Nat.mod_upper_bound (length pre) 2 ltac:(lia)). lia.
Qed.
End Keys.
