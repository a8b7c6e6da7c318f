(** What the signing functions return, whatever the accumulator does. *)
From Coq Require Import List Arith NArith Bool Permutation Lia.
From Verif Require Import MtModel PtModel AssetModel AssetSpec SnModel SnSpec.
Import ListNotations.
Open Scope nat_scope.

(** ** Totals *)
Lemma amount_app l l' : amount (l ++ l') = (amount l + amount l')%N.
Proof. unfold amount. induction l; cbn [app fold_right]; lia. Qed.
Lemma amount_perm l l' : Permutation l l' -> amount l = amount l'.
Proof. unfold amount. induction 1; cbn [fold_right]; lia. Qed.
Lemma amount_zero id l : Forall (fun a => a = (id, 0%N)) l -> amount l = 0%N.
Proof. induction 1 as [|? ? E F IH]; auto. subst. exact IH. Qed.

Lemma vsum_spec l : forall acc s, vsum acc l = Some s -> s = (acc + fold_right N.add 0 l)%N.
Proof.
  induction l as [|v l IH]; intros acc s E; cbn [vsum fold_right] in *.
  - injection E as <-. lia.
  - destruct (vmax <? acc + v)%N; [discriminate|]. apply IH in E. lia.
Qed.
Lemma vsum_ok l : forall acc, (acc + fold_right N.add 0 l <= vmax)%N -> vsum acc l = Some (acc + fold_right N.add 0 l)%N.
Proof.
  induction l as [|v l IH]; intros acc B; cbn [vsum fold_right] in *.
  - rewrite N.add_0_r. reflexivity.
  - destruct (N.ltb_spec vmax (acc + v)); [lia|]. rewrite IH by lia. f_equal. lia.
Qed.
Lemma fold_amount l : fold_right N.add 0%N (map snd l) = amount l.
Proof. induction l; cbn [map fold_right amount]; auto. rewrite IHl. reflexivity. Qed.

(** ** Pairs *)
Definition flat2 {A} (cs : list (A * A)) : list A := flat_map (fun c => [fst c; snd c]) cs.
Lemma chunk2_spec {A} n : forall l : list A, length l <= n -> forall cs rm, chunk2 l = (cs, rm) ->
  flat2 cs ++ rm = l /\ length cs = length l / 2 /\ length rm = length l mod 2.
Proof.
  induction n as [|n IH]; intros l L cs rm E.
  - destruct l; [|cbn in L; lia]. injection E as <- <-. auto.
  - destruct l as [|a [|b r]]; try (injection E as <- <-; auto; fail).
    cbn [chunk2] in E. destruct (chunk2 r) as [cs' rm'] eqn:Q. injection E as <- <-.
    cbn [length] in L. destruct (IH r ltac:(lia) _ _ Q) as (E1 & E2 & E3).
    cbn [flat2 flat_map app fst snd length]. change (flat_map _ cs') with (flat2 cs').
    split; [rewrite E1; reflexivity|].
    replace (S (S (length r))) with (length r + 1 * 2) by lia.
    rewrite Nat.div_add, Nat.mod_add by lia. split; [rewrite E2; lia|exact E3].
Qed.

Lemma half n : (n + 1) / 2 = n / 2 + n mod 2.
Proof.
  pose proof (Nat.div_mod n 2 ltac:(lia)). pose proof (Nat.mod_upper_bound n 2 ltac:(lia)).
  symmetry. apply (Nat.div_unique _ _ _ (1 - n mod 2)); lia.
Qed.

Section Sign.
Context {LD ID IT : Type}.
Variable dl : LD.
Variable di : ID.
Variable join : ID -> ID -> ID.
Variable joinl : LD -> LD -> ID.
Variable ldeqb : LD -> LD -> bool.
Variable H : nat.
Variable chk : bool.
Variable dg : IT -> LD.
Variable sh : IT -> nat.
Variable spend_item : N -> asset -> IT.
Variable ident : nat -> N.
Variable prove_ok : nat -> bool.
Notation eff := (@eff LD ID).
Notation sender := (@sender LD ID).
Notation post := (@post LD ID).
Notation upgrade := (upgrade dl di join joinl ldeqb H chk dg sh spend_item).
Notation upgrade_all := (upgrade_all dl di join joinl ldeqb H chk dg sh spend_item).
Notation build_post := (build_post prove_ok).
Notation prepare_final := (prepare_final dl di join joinl ldeqb H chk dg sh spend_item ident).
Notation join_round := (join_round dl di join joinl ldeqb H chk dg sh spend_item ident prove_ok).
Notation join_loop := (join_loop dl di join joinl ldeqb H chk dg sh spend_item ident prove_ok).
Notation compute_batched := (compute_batched dl di join joinl ldeqb H chk dg sh spend_item ident prove_ok).
Notation process_to_public := (process_to_public ident prove_ok).
Notation public_loop := (public_loop dl di join joinl ldeqb H chk dg sh spend_item ident prove_ok).
Notation compute_to_public := (compute_to_public dl di join joinl ldeqb H chk dg sh spend_item ident prove_ok).
Notation insert_utxos := (insert_utxos dl di join joinl H dg sh spend_item).

Lemma upgrade_coin s e x : upgrade s e = Some x -> coin x = s.
Proof.
  unfold SnModel.upgrade. destruct (fo_prove _ _ _ _ _ _ _ _ _ _ _) as [[p|]|]; try discriminate.
  intro E. injection E as <-. destruct s. reflexivity.
Qed.
Lemma upgrade_all_coin l e : forall xs, upgrade_all l e = Some xs -> map coin xs = l.
Proof.
  induction l as [|s l IH]; intros xs E; cbn [SnModel.upgrade_all] in E. { injection E as <-. reflexivity. }
  destruct (upgrade s e) as [x|] eqn:U; [|discriminate]. destruct (upgrade_all l e) as [xs'|]; [|discriminate].
  injection E as <-. cbn [map]. rewrite (upgrade_coin _ _ _ U), (IH xs' eq_refl). reflexivity.
Qed.
Lemma assets_of_coins (l : list sender) : map sd_asset l = map snd (map coin l).
Proof. rewrite map_map. reflexivity. Qed.
Lemma values_amount (l : list sender) : fold_right N.add 0%N (values l) = amount (map snd (map coin l)).
Proof. unfold values. rewrite <- assets_of_coins, <- fold_amount, map_map. reflexivity. Qed.

Definition tot (l : list (N * asset)) : N := amount (map snd l).
Definition of_id (id : N) (l : list (N * asset)) : Prop := Forall (fun c => fst (snd c) = id) l.
Lemma tot_app l l' : tot (l ++ l') = (tot l + tot l')%N.
Proof. unfold tot. rewrite map_app. apply amount_app. Qed.
Lemma tot_perm l l' : Permutation l l' -> tot l = tot l'.
Proof. intro P. apply amount_perm. apply Permutation_map. exact P. Qed.

(** ** Joins *)
Lemma join_round_spec id chunks : forall joins zeroes posts e r e',
  of_id id (flat2 chunks) ->
  join_round id chunks joins zeroes posts e = Done r e' ->
  exists ps js zs, r = (joins ++ js, zeroes ++ zs, posts ++ ps) /\
    length ps = length chunks /\ length js = length chunks /\
    Forall (is_join id) ps /\ Forall (conserves id) ps /\
    all_spent ps = flat2 chunks /\ flat_map join_out ps = js /\ of_id id js /\ tot js = tot (flat2 chunks).
Proof.
  induction chunks as [|[a b] chunks IH]; intros joins zeroes posts e r e' O E; cbn [SnModel.join_round] in E.
  - injection E as <- <-. exists [], [], []. rewrite !app_nil_r. repeat split; auto; constructor.
  - destruct (upgrade_all [a; b] e) as [ss|] eqn:U; [|discriminate].
    pose proof (upgrade_all_coin _ _ _ U) as UC. destruct ss as [|s1 [|s2 [|]]]; try discriminate UC.
    destruct (vsum 0 (values [s1; s2])) as [v|] eqn:V; [|discriminate].
    apply vsum_spec in V. rewrite values_amount, UC in V. cbn [N.add] in V.
    change (flat2 ((a, b) :: chunks)) with (a :: b :: flat2 chunks) in *.
    inversion O as [|? ? O1 O2]; subst. inversion O2 as [|? ? O3 O4]; subst. clear O O2. unfold next_join, receiver, draw in E. cbn [e_rng e_acc e_prf rc_key] in E.
    unfold SnModel.build_post in E. cbn [e_rng e_acc e_prf] in E. destruct (prove_ok (e_prf e)); cbn [bind] in E; [|discriminate].
    destruct (insert_utxos _ _) as [e3|] eqn:IU; [|discriminate].
    apply IH in E; [|exact O4]. destruct E as (ps & js & zs & -> & L1 & L2 & J & C & SP & JO & OI & TT).
    set (v := amount _) in *. set (k := ident (e_rng e)) in *. set (k2 := ident (S (e_rng e))) in *.
    set (p := mk_post _ _ _ _ _ _).
    injection UC as S1 S2.
    assert (VV : v = (snd (sd_asset s1) + snd (sd_asset s2))%N).
    { unfold v. cbn. rewrite <- S1, <- S2. cbn. lia. }
    exists (p :: ps), ((k, (fst (snd a), v)) :: js), ((k2, (fst (snd a), 0%N)) :: zs).
    rewrite <- !app_assoc. cbn [app length]. split; [reflexivity|]. split; [lia|]. split; [lia|].
    split. { constructor; auto. repeat split. exists s1, s2, k, k2. split; auto. cbn [po_receivers p]. rewrite VV. reflexivity. }
    split. { constructor; auto. subst p. unfold conserves, ins, outs, all_of. cbn [po_senders po_sources po_receivers po_sinks map app rc_asset].
      split; [|split].
      - constructor; [rewrite <- S1; reflexivity|]. constructor; [|constructor]. rewrite <- O3, <- S2. reflexivity.
      - repeat constructor.
      - cbn [amount fold_right snd]. rewrite VV. lia. }
    split. { cbn [all_spent flat_map]. fold (all_spent ps). rewrite SP. unfold spent. cbn [po_senders p map app]. rewrite S1, S2. reflexivity. }
    split. { cbn [flat_map]. rewrite JO. reflexivity. }
    split. { constructor; auto. }
    change (tot (flat2 ((a, b) :: chunks))) with (tot ([a; b] ++ flat2 chunks)).
    change (_ :: js) with ([(k, (fst (snd a), v))] ++ js). change (a :: b :: flat2 chunks) with ([a; b] ++ flat2 chunks).
    rewrite !tot_app, TT. f_equal. unfold tot, v. cbn. lia.
Qed.

Lemma join_loop_spec id : forall fuel pre zeroes posts e r e', of_id id pre ->
  join_loop fuel id pre zeroes posts e = Done r e' ->
  exists pre' zs ps, r = (pre', zeroes ++ zs, posts ++ ps) /\
    length pre' = Nat.min 2 (length pre) /\ length ps = length pre - 2 /\
    Forall (is_join id) ps /\ Forall (conserves id) ps /\
    Permutation (all_spent ps ++ pre') (pre ++ flat_map join_out ps) /\ of_id id pre' /\ tot pre' = tot pre /\
    (length pre <= 2 -> ps = [] /\ pre' = pre /\ zs = [] /\ e' = e).
Proof.
  induction fuel as [|fuel IH]; intros pre zeroes posts e r e' O E; cbn [SnModel.join_loop] in E;
    destruct (Nat.ltb_spec 2 (length pre)) as [C|C]; try discriminate E.
  1, 3: injection E as <- <-; exists pre, [], []; rewrite !app_nil_r; cbn [length all_spent flat_map app];
    split; [reflexivity|]; split; [lia|]; split; [lia|]; repeat (split; auto).
  destruct (chunk2 pre) as [cs rm] eqn:CH. destruct (chunk2_spec (length pre) pre (le_n _) _ _ CH) as (F & L1 & L2).
  assert (O1 : of_id id (flat2 cs) /\ of_id id rm).
  { unfold of_id in *. rewrite <- F in O. apply Forall_app in O. exact O. }
  destruct O1 as [O1 O2].
  destruct (join_round id cs [] zeroes posts e) as [x e1| |] eqn:J; cbn [bind] in E; try discriminate.
  destruct (join_round_spec _ _ _ _ _ _ _ _ O1 J) as (ps & js & zs & -> & K1 & K2 & IJ & CO & SP & JO & OJ & TJ).
  cbn [app] in E. apply IH in E; [|apply Forall_app; split; auto].
  destruct E as (pre' & zs' & ps' & -> & M1 & M2 & IJ' & CO' & PM & OP & TP & _).
  exists pre', (zs ++ zs'), (ps ++ ps'). rewrite <- !app_assoc.
  assert (LJ : length (js ++ rm) = (length pre + 1) / 2).
  { rewrite app_length, K2, L1, L2, half. reflexivity. }
  assert (HALF : forall n, 2 < n -> 2 <= (n + 1) / 2 /\ n / 2 + ((n + 1) / 2 - 2) = n - 2).
  { clear. intros n Hn. rewrite half. pose proof (Nat.div_mod n 2 ltac:(lia)). pose proof (Nat.mod_upper_bound n 2 ltac:(lia)). lia. }
  destruct (HALF _ C) as [HA HB]. rewrite LJ in *.
  split; [reflexivity|]. split; [lia|]. split; [rewrite app_length; lia|].
  split; [apply Forall_app; auto|]. split; [apply Forall_app; auto|].
  split. { unfold all_spent in *. rewrite !flat_map_app. rewrite SP, JO, <- app_assoc. rewrite <- F at 1.
    rewrite PM, <- !app_assoc. apply Permutation_app_head. rewrite !app_assoc. apply Permutation_app_tail. apply Permutation_app_comm. }
  split; [exact OP|]. split. { rewrite TP, tot_app, TJ, <- tot_app, F. reflexivity. }
  intro; lia.
Qed.

(** ** The final senders *)
Lemma fakes_spec id n : forall e, length (fst (fakes (LD := LD) (ID := ID) ident id n e)) = n /\
  Forall (is_zero id) (map coin (fst (fakes ident id n e))) /\
  Forall (fun s => sd_proof s = None) (fst (fakes ident id n e)) /\
  e_acc (snd (fakes ident id n e)) = e_acc e /\ e_prf (snd (fakes ident id n e)) = e_prf e.
Proof.
  induction n as [|n IH]; intro e; cbn [fakes]; [repeat split; constructor|].
  unfold draw. specialize (IH (mk_eff (e_acc e) (S (e_rng e)) (e_prf e))).
  destruct (fakes ident id n _) as [l e'']. cbn [fst snd] in *. destruct IH as (L & F & G & A & B). cbn [length map e_acc e_prf] in *.
  repeat split; try constructor; auto. reflexivity.
Qed.

Lemma prepare_final_spec m id zs pre e l e' : prepare_final m id zs pre e = Done l e' ->
  exists stored joined fk, map coin l = pre ++ map (fun k => (k, (id, 0%N))) stored ++ joined ++ map coin fk /\
    stored = am_zeroes m (2 - length pre) id /\ (exists n, joined = firstn n (rev zs)) /\
    Forall (is_zero id) (map coin fk) /\ length pre <= 2 /\ e_acc e' = e_acc e /\ e_prf e' = e_prf e /\
    (exists fr, l = fr ++ fk) /\ Forall (fun s => sd_proof s = None) fk.
Proof.
  unfold SnModel.prepare_final. destruct (upgrade_all pre e) as [ss|] eqn:U; [|discriminate].
  pose proof (upgrade_all_coin _ _ _ U) as UC. assert (LS : length ss = length pre) by (rewrite <- UC, map_length; auto).
  rewrite LS. destruct (Nat.ltb_spec 2 (length pre)) as [C|C]; [discriminate|].
  destruct (upgrade_all (map (fun k => (k, (id, 0%N))) _) e) as [zz|] eqn:Z; [|discriminate]. pose proof (upgrade_all_coin _ _ _ Z) as ZC.
  destruct (upgrade_all (firstn _ _) e) as [nz|] eqn:NZ; [|discriminate]. pose proof (upgrade_all_coin _ _ _ NZ) as NC.
  pose proof (fakes_spec id (2 - length pre - length (am_zeroes m (2 - length pre) id) - length zs) e) as FS.
  destruct (fakes _ _ _ _) as [fk e2] eqn:FK. cbn [fst snd] in FS. intro E. injection E as <- <-.
  destruct FS as (F1 & F2 & F3 & F4 & F5).
  exists (am_zeroes m (2 - length pre) id), (firstn (2 - length pre - length (am_zeroes m (2 - length pre) id)) (rev zs)), fk.
  split; [rewrite !map_app, UC, ZC, NC; reflexivity|]. split; [reflexivity|]. split; [eexists; reflexivity|].
  split; [exact F2|]. split; [lia|]. split; [exact F4|]. split; [exact F5|]. split; [|exact F3].
  exists (ss ++ zz ++ nz). rewrite <- !app_assoc. reflexivity.
Qed.

Lemma zeroes_of_id id (l : list N) : Forall (is_zero id) (map (fun k => (k, (id, 0%N))) l).
Proof. induction l; constructor; auto. reflexivity. Qed.
Lemma tot_zeroes id l : Forall (is_zero id) l -> tot l = 0%N /\ of_id id l.
Proof.
  intro F. split.
  - apply (amount_zero id). rewrite Forall_map. exact F.
  - eapply Forall_impl; [|exact F]. intros c E. rewrite E. reflexivity.
Qed.

(** The zeroes that fill up: kept in the asset map, then made up. *)
Definition padding (m : amap) (id : N) (pads : list (N * asset)) (n : nat) : Prop :=
  exists made_up, pads = map (fun k => (k, (id, 0%N))) (am_zeroes m n id) ++ made_up /\
    Forall (is_zero id) made_up /\ length pads = n.

Lemma compute_batched_spec m id pre e r e' : of_id id pre ->
  compute_batched m id pre e = Done r e' ->
  exists posts senders pads, r = (posts, senders) /\
    length senders = 2 /\ length posts = length pre - 2 /\
    Forall (is_join id) posts /\ Forall (conserves id) posts /\
    padding m id pads (2 - length pre) /\
    Permutation (all_spent posts ++ map coin senders) (pre ++ flat_map join_out posts ++ pads) /\
    of_id id (map coin senders) /\ tot (map coin senders) = tot pre.
Proof.
  unfold SnModel.compute_batched. intros O E.
  destruct (join_loop _ _ _ _ _ _) as [[[pre' zs] ps] e1| |] eqn:J; cbn [bind] in E; try discriminate.
  destruct (join_loop_spec _ _ _ _ _ _ _ _ O J) as (p0 & z0 & q0 & EQ & L1 & L2 & IJ & CO & PM & OP & TP & SM).
  cbn [app] in EQ. injection EQ as <- <- <-.
  destruct (prepare_final m id zs pre' e1) as [l e2| |] eqn:P; cbn [into_array2 bind] in E; try discriminate.
  destruct (Nat.eqb_spec (length l) 2) as [LL|]; cbn [bind] in E; [|discriminate]. injection E as <- <-.
  destruct (prepare_final_spec _ _ _ _ _ _ _ P) as (st & jd & fk & CL & ST & (n & JD) & FZ & LE & _).
  assert (NJ : jd = []).
  { destruct (Nat.le_gt_cases (length pre) 2) as [C|C].
    - destruct (SM C) as (_ & _ & -> & _). rewrite JD. apply firstn_nil.
    - assert (length pre' = 2) by lia. assert (length (map coin l) = 2) by (rewrite map_length; auto).
      rewrite CL, !app_length in *. destruct jd; auto. cbn [length] in *. lia. }
  rewrite NJ in CL. cbn [app] in CL. exists ps, l, (map (fun k => (k, (id, 0%N))) st ++ map coin fk).
  assert (LP : length pre' + length (map (fun k : N => (k, (id, 0%N))) st ++ map coin fk) = 2).
  { rewrite <- (map_length coin), CL, app_length in LL. exact LL. }
  apply Nat.add_sub_eq_l in LP. assert (LN : 2 - length pre' = 2 - length pre) by lia.
  split; [reflexivity|]. split; [exact LL|]. split; [exact L2|]. split; [exact IJ|]. split; [exact CO|].
  split. { exists (map coin fk). rewrite ST, LN. split; [reflexivity|]. split; [exact FZ|]. rewrite <- LN, <- ST. symmetry. exact LP. }
  destruct (tot_zeroes id (map (fun k : N => (k, (id, 0%N))) st ++ map coin fk)) as [T0 O0].
  { apply Forall_app. split; [apply zeroes_of_id|exact FZ]. }
  rewrite CL. split; [|split].
  - rewrite app_assoc, PM, <- app_assoc. reflexivity.
  - apply Forall_app. split; auto.
  - rewrite tot_app, T0, TP. lia.
Qed.

(** ** Payments *)
Definition paid (ps : list post) : N := amount (flat_map po_sinks ps).
Definition kept (ps : list post) : N := amount (map rc_asset (flat_map po_receivers ps)).
Lemma paid_app ps ps' : paid (ps ++ ps') = (paid ps + paid ps')%N.
Proof. unfold paid. rewrite flat_map_app. apply amount_app. Qed.
Lemma kept_app ps ps' : kept (ps ++ ps') = (kept ps + kept ps')%N.
Proof. unfold kept. rewrite flat_map_app, map_app. apply amount_app. Qed.

Lemma process_spec id accounts senders change e p c' e' : of_id id (map coin senders) -> length senders = 2 ->
  process_to_public id accounts senders change e = Done (p, c') e' ->
  po_senders p = senders /\ is_payment id accounts p /\ conserves id p /\
  (kept [p] + c' = change)%N /\ (paid [p] + kept [p] = tot (map coin senders))%N /\
  (c' = 0%N \/ paid [p] = 0%N) /\ e_acc e' = e_acc e /\ e_prf e' = S (e_prf e) /\
  (change - c' = N.min change (tot (map coin senders)))%N.
Proof.
  unfold SnModel.process_to_public. intros O L E. destruct (vsum 0 (values senders)) as [v|] eqn:V; [|discriminate].
  apply vsum_spec in V. rewrite values_amount in V. cbn [N.add] in V. fold (tot (map coin senders)) in V.
  unfold receiver, draw, SnModel.build_post in E.
  assert (OA : all_of id (map sd_asset senders ++ [])).
  { rewrite app_nil_r, assets_of_coins. unfold all_of. rewrite Forall_map. exact O. }
  assert (TA : amount (map sd_asset senders ++ []) = v).
  { rewrite app_nil_r, assets_of_coins. auto. }
  destruct (N.leb_spec change v) as [C|C]; cbn [e_acc e_prf e_rng] in E; destruct (prove_ok (e_prf e)); try discriminate E;
    cbn [bind] in E; injection E as <- <- <-; unfold is_payment, conserves, ins, outs, paid, kept;
    cbn [po_senders po_kind po_sources po_receivers po_sinks po_sink_accounts e_acc e_prf flat_map map app rc_asset].
  all: split; [reflexivity|]; split; [repeat split; auto; eexists _, _, _; split; reflexivity|];
    split; [split; [exact OA|]; split; [repeat constructor|rewrite TA; cbn; lia]|]; cbn [amount fold_right snd]; rewrite <- V;
    split; [lia|]; split; [lia|]; split; [lia|]; repeat split; lia.
Qed.

Lemma public_loop_spec id accounts chunks : forall change posts e r e', of_id id (flat2 chunks) ->
  public_loop id accounts chunks change posts e = Done r e' ->
  exists ps c', r = (c', posts ++ ps) /\ length ps = length chunks /\
    Forall (is_payment id accounts) ps /\ Forall (conserves id) ps /\
    all_spent ps = flat2 chunks /\ (kept ps + c' = change)%N /\ (paid ps + kept ps = tot (flat2 chunks))%N /\
    (c' = 0%N \/ paid ps = 0%N) /\ e_acc e' = e_acc e /\ (c' = change - tot (flat2 chunks))%N.
Proof.
  induction chunks as [|[a b] chunks IH]; intros change posts e r e' O E; cbn [SnModel.public_loop] in E.
  - injection E as <- <-. exists [], change. rewrite app_nil_r. repeat split; auto; try constructor; cbn; try lia.
  - destruct (upgrade_all [a; b] e) as [ss|] eqn:U; [|discriminate].
    pose proof (upgrade_all_coin _ _ _ U) as UC.
    assert (LS : length ss = 2) by (rewrite <- (map_length coin), UC; reflexivity).
    change (flat2 ((a, b) :: chunks)) with ([a; b] ++ flat2 chunks) in *. apply Forall_app in O. destruct O as [O1 O2].
    destruct (process_to_public id accounts ss change e) as [[p c1] e1| |] eqn:P; cbn [bind fst snd] in E; try discriminate.
    apply process_spec in P; [|rewrite UC; exact O1|exact LS]. destruct P as (Q1 & Q2 & Q3 & Q4 & Q5 & Q6 & Q7 & _ & Q8).
    apply IH in E; [|exact O2]. destruct E as (ps & c' & -> & R1 & R2 & R3 & R4 & R5 & R6 & R7 & R8 & R9).
    exists (p :: ps), c'. change (p :: ps) with ([p] ++ ps) in *. rewrite kept_app, paid_app, tot_app, UC in *.
    rewrite <- app_assoc. split; [reflexivity|]. split; [cbn [app length]; lia|]. split; [constructor; auto|]. split; [constructor; auto|].
    split. { unfold all_spent in *. rewrite flat_map_app, R4. cbn [flat_map]. unfold spent. rewrite Q1, UC. reflexivity. }
    split; [lia|]. split; [lia|]. split; [lia|]. split; [congruence|]. lia.
Qed.

Lemma compute_to_public_spec m id accounts change pre e posts e' : of_id id pre ->
  compute_to_public m id accounts change pre e = Done posts e' ->
  exists pads, length posts = (length pre + 1) / 2 /\
    Forall (is_payment id accounts) posts /\ Forall (conserves id) posts /\
    padding m id pads (length pre mod 2) /\ all_spent posts = pre ++ pads /\
    kept posts = N.min change (tot pre) /\ (paid posts + kept posts = tot pre)%N /\ e_acc e' = e_acc e.
Proof.
  unfold SnModel.compute_to_public. intros O E. destruct (chunk2 pre) as [cs rm] eqn:CH.
  destruct (chunk2_spec (length pre) pre (le_n _) _ _ CH) as (F & L1 & L2).
  assert (O1 : of_id id (flat2 cs) /\ of_id id rm).
  { unfold of_id in *. rewrite <- F in O. apply Forall_app in O. exact O. }
  destruct O1 as [O1 O2].
  destruct (public_loop id accounts cs change [] e) as [[c1 ps] e1| |] eqn:P; cbn [bind] in E; try discriminate.
  destruct (public_loop_spec _ _ _ _ _ _ _ _ O1 P) as (ps0 & c0 & EQ & R1 & R2 & R3 & R4 & R5 & R6 & R7 & R8 & R9).
  cbn [app] in EQ. injection EQ as <- <-.
  assert (HALF : (length pre + 1) / 2 = length cs + length rm).
  { rewrite L1, L2, half. reflexivity. }
  destruct rm as [|x [|]].
  - injection E as <- <-. rewrite app_nil_r in F. rewrite F in *. exists [].
    split; [cbn [length] in HALF; lia|]. split; [auto|]. split; [auto|]. split.
    { exists []. rewrite <- L2. cbn [length]. unfold am_zeroes. cbn [firstn map app]. repeat split. constructor. }
    rewrite app_nil_r. split; [auto|]. split; [lia|]. split; [lia|auto].
  - destruct (prepare_final m id [] [x] e1) as [l e2| |] eqn:PF; cbn [into_array2 bind] in E; try discriminate.
    destruct (Nat.eqb_spec (length l) 2) as [LL|]; cbn [bind] in E; [|discriminate].
    destruct (prepare_final_spec _ _ _ _ _ _ _ PF) as (st & jd & fk & CL & ST & (n & JD) & FZ & LE & EA & _).
    rewrite firstn_nil in JD. subst jd. cbn [app] in CL.
    set (pads := map (fun k : N => (k, (id, 0%N))) st ++ map coin fk) in *.
    destruct (tot_zeroes id pads) as [T0 O0]. { apply Forall_app. split; [apply zeroes_of_id|exact FZ]. }
    assert (LP : length pads = 1). { rewrite <- (map_length coin), CL in LL. injection LL as LL. exact LL. }
    assert (OL : of_id id (map coin l)). { rewrite CL. inversion O2; subst. constructor; auto. }
    destruct (process_to_public id accounts l c1 e2) as [[p c2] e3| |] eqn:Q; cbn [bind fst] in E; try discriminate. injection E as <- <-.
    apply process_spec in Q; auto. destruct Q as (Q1 & Q2 & Q3 & Q4 & Q5 & Q6 & Q7 & _ & Q8).
    assert (TL : tot (map coin l) = tot [x]). { rewrite CL. change (x :: pads) with ([x] ++ pads). rewrite tot_app, T0. lia. }
    rewrite TL in *. exists pads. rewrite kept_app, paid_app. rewrite <- F in *. rewrite tot_app in *.
    split; [rewrite app_length; cbn [length] in *; lia|]. split; [apply Forall_app; auto|]. split; [apply Forall_app; auto|].
    split. { exists (map coin fk). rewrite <- L2. cbn [length]. unfold pads. rewrite ST. split; [reflexivity|]. split; [exact FZ|].
      unfold pads in LP. rewrite ST in LP. exact LP. }
    split. { unfold all_spent in *. rewrite flat_map_app, R4. cbn [flat_map]. rewrite app_nil_r. unfold spent. rewrite Q1, CL, <- app_assoc. reflexivity. }
    split; [lia|]. split; [lia|congruence].
  - exfalso. cbn [length] in L2. pose proof (Nat.mod_upper_bound (length pre) 2 ltac:(lia)). lia.
Qed.
End Sign.
