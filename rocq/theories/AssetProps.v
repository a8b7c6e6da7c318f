(** Properties C10-C13, C18 and C48: coin selection, asset lists, balances,
    normalisation of sync results, consolidation requests and asset maps. *)
From Coq Require Import List NArith Arith Bool Lia Sorted.
From Verif Require Import AssetModel AssetSpec AssetLemmas AssetSelect AssetNorm AssetMap.
Import ListNotations.
Open Scope N_scope.

(** ** C10 *)

(** If the coins of the id add up to at most the largest value, selection does not panic.
    It returns the empty selection if the request is zero or not covered. Otherwise the
    chosen coins are at distinct positions among the stored non-zero coins of the id and
    add up to the request plus the change; an exact coin is taken alone; failing that the
    smallest larger coin is taken alone. *)
Theorem c10_selection_partial : forall (m : amap) id req,
  coin_total (coins m id) <= vmax ->
  exists change chosen, am_select m (id, req) = Some (change, chosen) /\
    ((req = 0 \/ coin_total (coins m id) < req) -> change = 0 /\ chosen = []) /\
    (0 < req -> req <= coin_total (coins m id) ->
       chosen <> [] /\ sublist chosen (coins m id) /\
       coin_total chosen = req + change /\
       ((exists k, In (k, req) (coins m id)) -> change = 0 /\ exists k, chosen = [(k, req)]) /\
       ((forall k, ~ In (k, req) (coins m id)) -> (exists c, In c (coins m id) /\ req < snd c) ->
          exists k v, In (k, v) (coins m id) /\ req < v /\ chosen = [(k, v)] /\ change = v - req /\
            forall k' v', In (k', v') (coins m id) -> req < v' -> v <= v')).
Proof.
  intros m id req B. unfold am_select. cbn [fst snd]. destruct (N.eqb_spec req 0) as [->|NZ].
  - exists 0, []. split; auto. split; auto. intros; lia.
  - rewrite am_coins_eq. assert (Hr : 0 < req) by lia.
    destruct (sel_loop_spec req Hr (coins m id) [] 0 [] None) as ([ch sel] & E & G).
    + constructor; [reflexivity|constructor|intros ? []|left; cbn; lia|intros ? []].
    + exact B.
    + exists ch, sel. split; auto. cbn [app] in G. destruct G as [[G1 G2]|(G1 & G2 & G3 & G4 & G5 & G6)].
      * injection G2 as -> ->. split; auto. intros; lia.
      * cbn [fst snd] in *. split; [intros [|]; lia|]. intros _ _. split; auto. split; auto. split; auto. split.
        -- intro H. destruct (G5 H) as [k Hk]. injection Hk as -> ->. eauto.
        -- intros H1 H2. destruct (G6 H1 H2) as ([k v] & A1 & A2 & A3 & A4). injection A3 as -> ->. exists k, v.
           cbn [snd] in *. split; auto. split; auto. split; auto. split; auto. intros k' v' A B'. apply (A4 (k', v') A B').
Qed.

(** Every chosen coin is stored in the map under its key, with the requested id. *)
Theorem c10_coins_are_stored : forall (m : amap) id k v,
  In (k, v) (coins m id) <-> v <> 0 /\ In (k, (id, v)) (am_asset_vector m).
Proof.
  intros m id k v. unfold coins. rewrite in_flat_map. split.
  - intros ([k' l] & H1 & H2). cbn [fst snd] in H2. apply in_flat_map in H2. destruct H2 as ([i w] & H2 & H3). cbn [fst snd] in H3.
    destruct (N.eqb_spec i id); cbn in H3; [|tauto]. destruct (N.eqb_spec w 0); cbn in H3; [tauto|].
    destruct H3 as [E|[]]. injection E as -> ->. subst. split; auto. apply in_vec. eauto.
  - intros [H0 H]. apply in_vec in H. destruct H as (l & H1 & H2). exists (k, l). split; auto. cbn [fst snd].
    apply in_flat_map. exists (id, v). split; auto. cbn [fst snd]. rewrite N.eqb_refl.
    destruct (N.eqb_spec v 0); [congruence|]. cbn. auto.
Qed.

Definition ex_coins : amap := [(1, [(7, 4); (7, 9)]); (2, [(7, 0); (8, 6)]); (3, [(7, 5)])].
Example c10_ex1 : coins ex_coins 7 = [(1, 4); (1, 9); (3, 5)] /\ am_select ex_coins (7, 6) = Some (3, [(1, 9)]).
Proof. split; reflexivity. Qed.
Example c10_ex2 : am_select ex_coins (7, 10) = Some (3, [(1, 4); (1, 9)]).
Proof. reflexivity. Qed.
Example c10_ex3 : am_select ex_coins (7, 19) = Some (0, []) /\ am_select ex_coins (7, 5) = Some (0, [(3, 5)]).
Proof. split; reflexivity. Qed.

(** Without the bound selection can overflow and panic, although a covering selection
    exists: the running sum is kept below the request before, not after, each addition. *)
Theorem c10_selection_refuted : exists (m : amap) id req,
  req <= vmax /\ (forall k v, In (k, v) (coins m id) -> v <= vmax) /\
  req <= coin_total (coins m id) /\ am_select m (id, req) = None.
Proof.
  exists [(0, [(1, 2 ^ 128 - 2)]); (1, [(1, 2 ^ 127)])], 1, (2 ^ 128 - 1).
  split; [vm_compute; discriminate|]. split; [|split; [vm_compute; discriminate|vm_compute; reflexivity]].
  intros k v [H|[H|[]]]; injection H as _ <-; vm_compute; discriminate.
Qed.

(** ** C11 *)

Lemma al_value_empty : al_ok [].
Proof. split; [constructor|intros ? []]. Qed.

(** Every sequence of operations on an empty asset list gives the answers and balances of
    the specification, panics exactly when a balance would exceed the largest value, and
    leaves a strictly sorted list without zero values. *)
Theorem c11_asset_list : forall os, Forall op_wf os ->
  match al_ops [] os, spec_aops (fun _ => 0) os with
  | Some (l, rs), Some (b, rs') =>
      rs = rs' /\ strictly_sorted l /\ zero_free l /\ (forall id, al_value l id = b id) /\
      (forall id v, al_contains l (id, v) = (v <=? b id))
  | None, None => True
  | _, _ => False
  end.
Proof.
  intros os W. pose proof (al_ops_spec os [] (fun _ => 0) al_value_empty (fun _ => eq_refl)) as S.
  specialize (S ltac:(intro; unfold vmax; lia) W).
  destruct (al_ops [] os) as [[l rs]|], (spec_aops (fun _ => 0) os) as [[b rs']|]; auto.
  destruct S as (-> & [O1 O2] & E & B). split; auto. split; [apply ss_strict; auto|]. split; auto. split.
  - intro id. rewrite al_value_total by (split; auto). apply E.
  - intros id v. rewrite al_contains_total by (split; auto). cbn [fst snd]. rewrite E. auto.
Qed.

(** Operations on one id leave the value of every other id alone. *)
Theorem c11_frame : forall b o b' r, spec_aop b o = Some (b', r) ->
  forall x, match o with
            | ADeposit (id, _) | AWithdraw (id, _) | ARemove id => x <> id -> b' x = b x
            | AClear => b' x = 0
            end.
Proof.
  intros b [[id v]|[id v]|id|] b' r E x; cbn [spec_aop] in E.
  - destruct (vmax <? b id + v); inversion E; subst. intro Q. unfold upd. destruct (N.eqb_spec x id); [contradiction|reflexivity].
  - destruct (v <=? b id); inversion E; subst; intro Q; unfold upd; auto. destruct (N.eqb_spec x id); [contradiction|reflexivity].
  - inversion E; subst. intro Q. unfold upd. destruct (N.eqb_spec x id); [contradiction|reflexivity].
  - inversion E; auto.
Qed.

(** [withdraw_unchecked] is [withdraw], panicking when refused. *)
Theorem c11_withdraw_unchecked : forall l a, 
  al_withdraw_unchecked l a = (let '(l', ok) := al_withdraw l a in if ok then Some l' else None).
Proof. intros. apply al_withdraw_unchecked_eq. Qed.

Definition ex_ops : list aop :=
  [ADeposit (3, 5); ADeposit (1, 2); ADeposit (2, 0); AWithdraw (3, 6); AWithdraw (3, 5); ADeposit (0, 9); ARemove 1; ARemove 1; ADeposit (0, 1)].
Example c11_ex : Forall op_wf ex_ops /\
  al_ops [] ex_ops = Some ([(0, 10)],
    [ODone; ODone; ODone; OFlag false; OFlag true; ODone; OTaken (Some 2); OTaken None; ODone]).
Proof. split; [repeat constructor; vm_compute; discriminate|reflexivity]. Qed.
Example c11_ex_overflow : al_ops [] [ADeposit (3, 2 ^ 128 - 1); ADeposit (3, 1)] = None.
Proof. reflexivity. Qed.

(** ** C12 *)

(** Every sequence of operations on an empty map of balances agrees with the
    specification and stores no zero. *)
Theorem c12_balances : forall os, Forall op_wf os ->
  match bm_ops (fun _ => None) os, spec_aops (fun _ => 0) os with
  | Some (m, rs), Some (b, rs') =>
      rs = rs' /\ (forall id, m id <> Some 0) /\ (forall id, bm_balance m id = b id)
  | None, None => True
  | _, _ => False
  end.
Proof.
  intros os W. pose proof (bm_ops_spec os (fun _ => None) (fun _ => 0)) as S.
  specialize (S ltac:(intro; discriminate) (fun _ => eq_refl) ltac:(intro; unfold vmax; lia) W).
  destruct (bm_ops _ os) as [[l rs]|], (spec_aops (fun _ => 0) os) as [[b rs']|]; auto. tauto.
Qed.
Example c12_ex : exists m, bm_ops (fun _ => None) ex_ops = Some (m,
    [ODone; ODone; ODone; OFlag false; OFlag true; ODone; OTaken (Some 2); OTaken None; ODone]) /\
    m 0 = Some 10 /\ m 3 = None.
Proof. eexists. split; [reflexivity|]. split; reflexivity. Qed.

(** A bulk withdrawal succeeds iff every id is covered, and then withdraws exactly the
    totals. Missing for the full property: on failure what was withdrawn before the
    failing asset stays withdrawn. *)
Theorem c12_withdraw_all_partial : forall m xs,
  (forall id, m id <> Some 0) -> Forall (fun a => snd a <= vmax) xs -> (forall x, total xs x <= vmax) ->
  exists m' ok, bm_withdraw_all m xs = Some (m', ok) /\ (forall id, m' id <> Some 0) /\
    (ok = true <-> forall id, total xs id <= bm_balance m id) /\
    (ok = true -> forall id, bm_balance m' id = bm_balance m id - total xs id) /\
    (ok = false -> forall id, bm_balance m' id <= bm_balance m id /\
                              (bm_balance m' id = bm_balance m id \/ bm_balance m' id = bm_balance m id - total xs id)).
Proof.
  intros m xs O W B. unfold bm_withdraw_all, al_from_iter.
  pose proof (al_deposit_all_spec xs [] al_value_empty ltac:(intro; cbn; unfold vmax; lia) W) as D.
  destruct (al_deposit_all [] xs) as [l|].
  2: { destruct D as [x Hx]. specialize (B x). cbn [total] in Hx. rewrite ?N.add_0_l in Hx. lia. }
  destruct D as ([S Z] & T & _). cbn [option_map].
  pose proof (bm_withdraw_list_spec l m (bm_balance m) O (fun _ => eq_refl) S) as L.
  destruct (bm_withdraw_list m l) as [m' ok]. destruct L as (O' & L1 & L2 & L3).
  exists m', ok. split; auto. split; auto. split; [|split].
  - rewrite L1. split; intros H x; specialize (H x); rewrite T in *; cbn [total] in *; lia.
  - intros Q id. rewrite L2, T by auto. cbn [total]. f_equal.
  - intros Q id. destruct (L3 Q) as (dn & rest & a & -> & D1 & D2 & D3). rewrite D3. split; [lia|].
    specialize (T id). rewrite total_app in T. cbn [total] in T.
    destruct (N.eq_dec (total dn id) 0) as [E|E]; [left; lia|]. right.
    assert (K : total (a :: rest) id = 0).
    { apply total_none. intros y Hy Ey. apply ss_app in S. destruct S as (_ & _ & S3).
      apply E. apply total_none. intros z Hz Ez. specialize (S3 z y Hz Hy). unfold idlt in S3. lia. }
    cbn [total] in K. lia.
Qed.
Example c12_withdraw_all_ex :
  exists m', bm_withdraw_all (fun x => if x =? 1 then Some 10 else None) [(1, 3); (1, 4)] = Some (m', true) /\ m' 1 = Some 3.
Proof. eexists. split; reflexivity. Qed.

(** A failed bulk withdrawal changes balances. *)
Theorem c12_withdraw_all_refuted : exists m xs m',
  (forall id, m id <> Some 0) /\ bm_withdraw_all m xs = Some (m', false) /\
  exists id, bm_balance m' id <> bm_balance m id.
Proof.
  exists (fun x => if x =? 1 then Some 5 else None), [(1, 5); (2, 1)].
  eexists. split; [intro id; destruct (id =? 1); discriminate|]. split; [reflexivity|].
  exists 1. vm_compute. discriminate.
Qed.
(** So does the one of asset lists. *)
Theorem c12_withdraw_all_list_refuted : exists l xs l',
  strictly_sorted l /\ zero_free l /\ al_withdraw_all l xs = Some (l', false) /\ exists id, al_value l' id <> al_value l id.
Proof.
  exists [(1, 5)], [(1, 5); (2, 1)]. eexists. split; [|split; [|split; [reflexivity|]]].
  - apply ss_strict. repeat constructor.
  - intros a [<-|[]]. discriminate.
  - exists 1. vm_compute. discriminate.
Qed.

(** ** C13 *)

(** Normalisation keeps the net change of every id, and returns each id once per list; it
    fails exactly if the total of some id overflows. *)
Theorem c13_net_change : forall d w,
  match normalize_assets d w with
  | Some (d', w') =>
      (forall id, total d' id + total w id = total d id + total w' id) /\
      NoDup (map fst d') /\ NoDup (map fst w') /\
      (forall id, In id (map fst d') -> In id (map fst d)) /\ (forall id, In id (map fst w') -> In id (map fst w))
  | None => exists id, vmax < total d id \/ vmax < total w id
  end.
Proof.
  intros d w. unfold normalize_assets, sum_values.
  pose proof (sum_loop_spec d [] ltac:(constructor)) as D. destruct (sum_loop [] d) as [d1|].
  2: { destruct D as [x Hx]. exists x. cbn [total] in Hx. rewrite ?N.add_0_l in Hx. auto. }
  pose proof (sum_loop_spec w [] ltac:(constructor)) as W. destruct (sum_loop [] w) as [w1|].
  2: { destruct W as [x Hx]. exists x. cbn [total] in Hx. rewrite ?N.add_0_l in Hx. auto. }
  destruct D as (D1 & D2 & D3), W as (W1 & W2 & W3).
  destruct (norm_loop_spec (length d1) 0 d1 w1) as (d' & w' & -> & N1 & N2 & N3 & N4 & N5 & N6); auto; [lia|].
  split; [|split; [|split; [|split]]]; auto.
  - intro x. specialize (N1 x). rewrite D2, W2 in N1. cbn in N1. lia.
  - intros x Hx. apply N2, D3 in Hx. destruct Hx as [|[]]; auto.
  - intros x Hx. apply N3, W3 in Hx. destruct Hx as [|[]]; auto.
Qed.

(** No total grows by normalisation. *)
Theorem c13_no_growth : forall d w d' w', normalize_assets d w = Some (d', w') ->
  forall id, total d' id <= total d id /\ total w' id <= total w id.
Proof.
  intros d w d' w' E id. unfold normalize_assets, sum_values in E.
  pose proof (sum_loop_spec d [] ltac:(constructor)) as D. destruct (sum_loop [] d) as [d1|]; [|discriminate].
  pose proof (sum_loop_spec w [] ltac:(constructor)) as W. destruct (sum_loop [] w) as [w1|]; [|discriminate].
  destruct D as (_ & D & _), W as (_ & W & _). specialize (D id). specialize (W id). cbn [total] in D, W.
  apply norm_loop_le with (x := id) in E. rewrite D, W, ?N.add_0_l in E. exact E.
Qed.
Example c13_no_growth_ex : normalize_assets [(1, 5); (2, 7)] [(1, 5); (2, 3)] = Some ([(2, 7)], [(2, 3)]).
Proof. reflexivity. Qed.

(** If no id has the same total on both sides, no id remains on both sides. Missing for
    the full property: ids with equal totals, after which the next deposit is skipped. *)
Theorem c13_disjoint_partial : forall d w d' w', normalize_assets d w = Some (d', w') ->
  (forall id, In id (map fst d) -> In id (map fst w) -> total d id <> total w id) ->
  forall id, In id (map fst d') -> ~ In id (map fst w').
Proof.
  intros d w d' w' E NE. unfold normalize_assets, sum_values in E.
  pose proof (sum_loop_spec d [] ltac:(constructor)) as D. destruct (sum_loop [] d) as [d1|]; [|discriminate].
  pose proof (sum_loop_spec w [] ltac:(constructor)) as W. destruct (sum_loop [] w) as [w1|]; [|discriminate].
  destruct D as (D1 & D2 & D3), W as (W1 & W2 & W3).
  destruct (norm_loop_spec (length d1) 0 d1 w1) as (d2 & w2 & E' & N1 & N2 & N3 & N4 & N5 & N6); auto; [lia|].
  rewrite E' in E. injection E as -> ->. apply N6.
  - intros x H1 H2. apply D3 in H1. apply W3 in H2. rewrite D2, W2. cbn [total].
    destruct H1 as [H1|[]], H2 as [H2|[]]. specialize (NE x H1 H2). lia.
  - cbn. auto.
Qed.
Example c13_ex : normalize_assets [(1, 5); (2, 7); (1, 1)] [(2, 9); (1, 4); (3, 1)] = Some ([(1, 2)], [(2, 2); (3, 1)]).
Proof. reflexivity. Qed.

(** With an exactly cancelled id before it, an id stays on both sides. *)
Theorem c13_disjoint_refuted : exists d w d' w' id,
  normalize_assets d w = Some (d', w') /\ In id (map fst d') /\ In id (map fst w').
Proof.
  exists [(1, 5); (2, 7)], [(1, 5); (2, 3)]. do 2 eexists. exists 2.
  split; [vm_compute; reflexivity|]. cbn. auto.
Qed.

(** ** C18 *)

(** A request is accepted iff there are two or more entries, none repeated, all of one
    id, and none but possibly the first has value zero. *)
Theorem c18_new_partial : forall l,
  (cr_new l = Some l \/ cr_new l = None) /\
  (cr_new l = Some l <->
   (2 <= length l)%nat /\ NoDup l /\
   (forall x y, In x l -> In y l -> fst (snd x) = fst (snd y)) /\
   (forall x, In x (tl l) -> snd (snd x) <> 0)).
Proof.
  intro l. split; [|apply cr_new_spec]. destruct (cr_new l) eqn:E; auto. apply cr_new_some in E. subst. auto.
Qed.
Example c18_ex : cr_new [(0, (7, 3)); (1, (7, 3)); (2, (7, 9))] = Some [(0, (7, 3)); (1, (7, 3)); (2, (7, 9))]
  /\ cr_new [(0, (7, 3)); (0, (7, 3))] = None /\ cr_new [(0, (7, 3)); (1, (7, 0))] = None.
Proof. repeat split. Qed.

(** A request whose first asset has value zero is accepted. *)
Theorem c18_new_refuted : exists l, cr_new l = Some l /\ exists x, In x l /\ snd (snd x) = 0.
Proof. exists [(0, (1, 0)); (1, (1, 5))]. split; [reflexivity|]. eexists. split; [left; reflexivity|reflexivity]. Qed.

(** The selection of an accepted request has no change and is made of its assets; its
    asset is the sum; the check passes iff all its assets are in the map. *)
Theorem c18_request : forall l m, cr_new l = Some l ->
  sumv (map (fun a => snd (snd a)) l) <= vmax ->
  exists id, (forall a, In a l -> fst (snd a) = id) /\
    cr_asset l = Some (id, sumv (map (fun a => snd (snd a)) l)) /\
    cr_select l = (0, map (fun a => (fst a, snd (snd a))) l) /\
    (cr_check l m = true <-> forall a, In a l -> In a (am_asset_vector m)).
Proof.
  intros l m E B. apply cr_new_spec in E. destruct E as (L & _ & S & _).
  destruct l as [|a l]; [cbn in L; lia|]. exists (fst (snd a)). 
  assert (K : forall x, In x (a :: l) -> fst (snd x) = fst (snd a)) by (intros; apply S; cbn; auto).
  split; auto. split; [|split; auto].
  - unfold cr_asset. rewrite vsum_spec by (cbn in *; lia). cbn [cr_id option_map nth_error]. f_equal.
  - unfold cr_check. cbn [cr_id option_map nth_error]. rewrite forallb_forall. split.
    + intros H x Hx. specialize (H x Hx). apply existsb_eqb_In in H. unfold am_asset_vector_with_id in H. apply filter_In in H. tauto.
    + intros H x Hx. apply existsb_eqb_In. unfold am_asset_vector_with_id. apply filter_In. split; [apply H; auto|].
      apply N.eqb_eq. auto.
Qed.
Example c18_request_ex : cr_asset [(0, (7, 3)); (1, (7, 3))] = Some (7, 6) /\
  cr_check [(0, (7, 3)); (1, (7, 3))] [(0, [(7, 3)]); (1, [(7, 2); (7, 3)])] = true.
Proof. split; reflexivity. Qed.

(** ** C48 *)

Inductive mop := MInsert (k : N) (a : asset) | MRemove (k : N) (a : asset).
Definition am_op (m : amap) (o : mop) : amap * option bool :=
  match o with
  | MInsert k a => (am_insert m k a, None)
  | MRemove k a => let '(m', r) := am_remove m k a in (m', Some r)
  end.
Fixpoint am_ops (m : amap) (os : list mop) : amap * list (option bool) :=
  match os with
  | [] => (m, [])
  | o :: os' => let '(m1, r) := am_op m o in let '(m2, rs) := am_ops m1 os' in (m2, r :: rs)
  end.
(** The specification: a set of pairs given by the last operation on each. *)
Definition pair_eqb (x y : N * asset) : bool := iasset_eqb x y.
Fixpoint live (os : list mop) (p : N * asset) (b : bool) : bool :=
  match os with
  | [] => b
  | MInsert k a :: os' => live os' p (if pair_eqb p (k, a) then true else b)
  | MRemove k a :: os' => live os' p (if pair_eqb p (k, a) then false else b)
  end.
Fixpoint removals (os : list mop) (before : list mop) : list (option bool) :=
  match os with
  | [] => []
  | MInsert k a :: os' => None :: removals os' (before ++ [MInsert k a])
  | MRemove k a :: os' => Some (live before (k, a) false) :: removals os' (before ++ [MRemove k a])
  end.

Lemma live_app os1 : forall os2 p b, live (os1 ++ os2) p b = live os2 p (live os1 p b).
Proof. induction os1 as [|[k a|k a] os1 IH]; intros; cbn [app live]; auto. Qed.

Lemma am_ops_spec os : forall m before, am_ok m ->
  (forall p, In p (am_asset_vector m) <-> live before p false = true) ->
  let '(m', rs) := am_ops m os in
  am_ok m' /\ rs = removals os before /\
  forall p, In p (am_asset_vector m') <-> live (before ++ os) p false = true.
Proof.
  induction os as [|o os IH]; intros m before O H; cbn [am_ops].
  - rewrite app_nil_r. auto.
  - destruct o as [k a|k a]; cbn [am_op].
    + destruct (am_insert_spec m k a O) as [O1 S1].
      specialize (IH (am_insert m k a) (before ++ [MInsert k a]) O1).
      destruct (am_ops (am_insert m k a) os) as [m2 rs]. rewrite <- app_assoc in IH. cbn [app] in IH.
      destruct IH as (A1 & A2 & A3).
      * intros [k' a']. rewrite S1, live_app. cbn [live]. unfold pair_eqb. rewrite H.
        destruct (iasset_eqb (k', a') (k, a)) eqn:E.
        -- apply iasset_eqb_spec in E. tauto.
        -- split; auto. intros [Q|]; auto. apply iasset_eqb_spec in Q. congruence.
      * split; auto. split; auto. cbn [removals]. congruence.
    + pose proof (am_remove_spec m k a O) as R. destruct (am_remove m k a) as [m1 r]. destruct R as (O1 & R1 & S1).
      specialize (IH m1 (before ++ [MRemove k a]) O1).
      destruct (am_ops m1 os) as [m2 rs]. rewrite <- app_assoc in IH. cbn [app] in IH.
      destruct IH as (A1 & A2 & A3).
      * intros [k' a']. rewrite S1, live_app. cbn [live]. unfold pair_eqb. rewrite H.
        destruct (iasset_eqb (k', a') (k, a)) eqn:E.
        -- apply iasset_eqb_spec in E. split; [tauto|discriminate].
        -- split; [tauto|]. intro Q. split; auto. intro Q'. apply iasset_eqb_spec in Q'. congruence.
      * split; auto. split; auto. cbn [removals]. rewrite A2. f_equal. f_equal. rewrite H in R1.
        destruct r, (live before (k, a) false); auto; [symmetry; tauto|tauto].
Qed.

(** C48. After any sequence of insertions and removals the map holds exactly the pairs
    inserted and not removed since, each once; a removal reports whether the pair was
    there; keys and the assets of a key are strictly sorted, as binary search needs. *)
Theorem c48_asset_map : forall os,
  let '(m, rs) := am_ops [] os in
  rs = removals os [] /\ NoDup (am_asset_vector m) /\
  (forall p, In p (am_asset_vector m) <-> live os p false = true) /\
  StronglySorted (fun e f : N * list asset => fst e < fst f) m /\
  (forall k l, In (k, l) m -> l <> [] /\
     StronglySorted (fun a b : asset => fst a < fst b \/ (fst a = fst b /\ snd a < snd b)) l).
Proof.
  intro os. assert (O : am_ok []) by (split; [constructor|intros ? ? []]).
  pose proof (am_ops_spec os [] [] O) as S. destruct (am_ops [] os) as [m rs].
  destruct S as ([A1 A2] & B & C). { intro p. cbn. split; [tauto|discriminate]. }
  split; auto. split; [apply am_vector_nodup; split; auto|]. split; auto.
Qed.

(** The assets of a map are the totals of its entries; computing them panics exactly on
    overflow. *)
Theorem c48_assets : forall m, Forall (fun e => snd (snd e) <= vmax) (am_asset_vector m) ->
  match am_assets m with
  | Some l => strictly_sorted l /\ zero_free l /\ forall id, al_value l id = total (map snd (am_asset_vector m)) id
  | None => exists id, vmax < total (map snd (am_asset_vector m)) id
  end.
Proof.
  intros m F. unfold am_assets, al_from_iter. rewrite am_flat.
  assert (W : Forall (fun a : asset => snd a <= vmax) (map snd (am_asset_vector m))).
  { apply Forall_forall. intros a Ha. apply in_map_iff in Ha. destruct Ha as (e & <- & He). rewrite Forall_forall in F. apply (F e He). }
  pose proof (al_deposit_all_spec _ [] al_value_empty ltac:(intro; cbn; unfold vmax; lia) W) as D.
  destruct (al_deposit_all [] _) as [l|].
  - destruct D as ([D1 D2] & D3 & _). split; [apply ss_strict; auto|]. split; auto. intro id.
    rewrite al_value_total by (split; auto). rewrite D3. cbn. auto.
  - destruct D as [x Hx]. exists x. cbn [total] in Hx. rewrite ?N.add_0_l in Hx. auto.
Qed.

Definition ex_mops := [MInsert 2 (7, 4); MInsert 1 (7, 9); MInsert 2 (6, 1); MInsert 2 (7, 4); MRemove 2 (7, 4); MRemove 2 (7, 4); MRemove 1 (7, 9)].
Example c48_ex : am_ops [] ex_mops = ([(2, [(6, 1)])], [None; None; None; None; Some true; Some false; Some true]).
Proof. reflexivity. Qed.
Example c48_assets_ex : am_assets [(1, [(7, 4); (7, 9)]); (2, [(7, 0); (8, 6)]); (3, [(7, 5)])] = Some [(7, 18); (8, 6)].
Proof. reflexivity. Qed.

Print Assumptions c10_selection_partial.
Print Assumptions c10_coins_are_stored.
Print Assumptions c10_selection_refuted.
Print Assumptions c11_asset_list.
Print Assumptions c11_frame.
Print Assumptions c11_withdraw_unchecked.
Print Assumptions c12_balances.
Print Assumptions c12_withdraw_all_partial.
Print Assumptions c12_withdraw_all_refuted.
Print Assumptions c12_withdraw_all_list_refuted.
Print Assumptions c13_net_change.
Print Assumptions c13_no_growth.
Print Assumptions c13_disjoint_partial.
Print Assumptions c13_disjoint_refuted.
Print Assumptions c18_new_partial.
Print Assumptions c18_new_refuted.
Print Assumptions c18_request.
Print Assumptions c48_asset_map.
Print Assumptions c48_assets.
