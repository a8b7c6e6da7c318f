(** Lemmas about the two loops of a synchronisation. *)
From Coq Require Import List Arith NArith Bool Lia Permutation Sorted.
From Verif Require Import MtModel MtSpec PtModel PtSpec FkSpec FoSpec FoProps AssetModel AssetSpec AssetLemmas AssetMap
  CkModel CkSpec CkLemmas SgModel SgSpec SgAcc.
Import ListNotations.
Open Scope nat_scope.

Lemma nm_remove_spec {V} (veqb : V -> V -> bool) (veqb_spec : forall a b, veqb a b = true <-> a = b) l v :
  match nm_remove veqb l v with
  | (l', true) => In v l /\ (forall x, In x l' -> In x l) /\ (forall x, In x l -> x <> v -> In x l')
  | (l', false) => ~ In v l /\ l' = l
  end.
Proof.
  induction l as [|x l IH]; cbn [nm_remove]. { split; auto. }
  destruct (veqb x v) eqn:E.
  - apply veqb_spec in E. subst x. split; [left; auto|]. split; [right; auto|].
    intros y [->|Hy] N; auto. contradiction.
  - assert (x <> v) by (intro Q; apply veqb_spec in Q; congruence).
    destruct (nm_remove veqb l v) as [l' [|]].
    + destruct IH as (I1 & I2 & I3). split; [right; auto|]. split.
      * intros y [->|Hy]; [left; auto|right; auto].
      * intros y [->|Hy] N; [left; auto|right; auto].
    + destruct IH as (I1 & ->). split; auto. intros [|]; auto.
Qed.

Lemma total_perm l m id : Permutation l m -> total l id = total m id.
Proof. induction 1; cbn [total]; try lia; auto. Qed.

Lemma insert_new m k a : am_ok m -> ~ In (k, a) (am_asset_vector m) ->
  Permutation (am_asset_vector (am_insert m k a)) ((k, a) :: am_asset_vector m).
Proof.
  intros OK N. destruct (am_insert_spec m k a OK) as (OK' & I). apply NoDup_Permutation.
  - apply am_vector_nodup; auto.
  - constructor; auto. apply am_vector_nodup; auto.
  - intros [k' a']. rewrite I. cbn. intuition congruence.
Qed.

Section Sync.
Context {LD ID IT UT NT NF : Type}.
Variable dl : LD.
Variable di : ID.
Variable join : ID -> ID -> ID.
Variable joinl : LD -> LD -> ID.
Variable ldeqb : LD -> LD -> bool.
Variable ideqb : ID -> ID -> bool.
Variable H : nat.
Variable chk : bool.
Variable dg : IT -> LD.
Variable sh : IT -> nat.
Variable open_note : UT -> NT -> option (N * asset).
Variable item : UT -> IT.
Variable spend_item : N -> asset -> IT.
Variable spend_null : N -> asset -> NF.
Variable nfeqb : NF -> NF -> bool.
Hypothesis HH : 3 <= H.
Hypothesis ldeqb_spec : forall a b, ldeqb a b = true <-> a = b.
Hypothesis ideqb_spec : forall a b, ideqb a b = true <-> a = b.
Hypothesis nfeqb_spec : forall a b, nfeqb a b = true <-> a = b.
Hypothesis join_nd : forall a b, join a b <> di.
Hypothesis joinl_nd : forall a b, joinl a b <> di.
Variable w : nat.
(** All notes that will ever be received: their nullifiers and items differ. *)
Variable allr : list (N * asset).
Notation nul := (null_of spend_null).
Definition itm (r : N * asset) : IT := spend_item (fst r) (snd r).
Hypothesis nul_inj : forall r r', In r allr -> In r' allr -> nul r = nul r' -> r = r'.
Hypothesis itm_inj : forall r r', In r allr -> In r' allr -> dg (itm r) = dg (itm r') -> r = r'.
Hypothesis itm_sh : forall r, In r allr -> sh (itm r) < w.

Context {td : bool}.
Notation Acc := (Acc dl di join joinl H (td := td)).
Notation Has := (Has dg sh H w).
Notation Prov := (Prov dg sh).
Notation cap := (2 ^ (H - 1)).
Notation vec := am_asset_vector.
Notation flush_np := (flush_np dl di join joinl H dg sh).
Notation insert_next_item := (insert_next_item dl di join joinl H dg sh spend_item spend_null nfeqb).
Notation sync_notes := (sync_notes dl di join joinl H dg sh open_note item spend_item spend_null nfeqb).
Notation retain_assets := (retain_assets ldeqb chk dg sh spend_item spend_null nfeqb).
Notation retain_map := (retain_map ldeqb chk dg sh spend_item spend_null nfeqb).
Notation received := (received open_note).

(** Stored assets [m] and pending nullifiers [ns] after receiving [R], with [Nn] reported. *)
Record J (R : list (N * asset)) (Nn : list NF) (m : amap) (ns : list NF) : Prop := {
  j_ok : am_ok m;
  j_in : forall r, In r (vec m) -> In r R;
  j_out : forall r, In r R -> In r (vec m) \/ In (nul r) Nn;
  j_pend : forall r, In r allr -> In r (vec m) \/ ~ In r R -> In (nul r) Nn -> In (nul r) ns;
  j_sub : forall v, In v ns -> In v Nn }.

Definition worth (m : amap) (id : N) : N := total (map snd (vec m)) id.

Lemma flush_spec acc ss xs ys np : Acc acc ss -> Has ss xs ys -> Forall (fun x => sh x < w) np ->
  match flush_np acc np with
  | None => chk = true
  | Some acc' => exists ss', Acc acc' ss' /\ Has ss' xs (ys ++ np) /\ (forall x, Prov ss x -> Prov ss' x)
  end.
Proof.
  intros A HS F. unfold SgModel.flush_np. destruct np as [|x np]. { rewrite app_nil_r. eauto. }
  pose proof (acc_step dl di join joinl ldeqb ideqb dg sh H HH ldeqb_spec ideqb_spec join_nd joinl_nd chk acc ss (OBatchNp (x :: np)) A) as S1.
  destruct (ref_insert ldeqb dg sh H w ss xs ys (OBatchNp (x :: np)) HS eq_refl F) as (ss' & b & E & HS' & P & _).
  cbn [FoSpec.fo_step] in S1. destruct (fo_batch_insert_np _ _ _ _ _ _ _ _ _) as [[acc' b']|]; cbn [option_map fst].
  - destruct S1 as (ss1 & E1 & A1). rewrite E in E1. injection E1 as <- <-. eauto.
  - destruct S1; auto. congruence.
Qed.

Lemma next_spec acc ss xs ys R Nn m ns dep k a :
  Acc acc ss -> Has ss xs ys -> J R Nn m ns -> In (k, a) allr -> ~ In (k, a) R ->
  match insert_next_item (acc, m, ns, dep) k a with
  | None => chk = true
  | Some (acc', m', ns', dep') =>
      exists ss', Acc acc' ss' /\ Has ss' xs (ys ++ [spend_item k a]) /\ J (R ++ [(k, a)]) Nn m' ns' /\
      (forall id, (worth m' id + total dep id = worth m id + total dep' id)%N) /\
      (forall r, In r (vec m') -> In r (vec m) \/ ~ In (nul r) Nn) /\
      (length (shard_items dg sh (sh (spend_item k a)) (xs ++ ys)) < cap ->
       (forall r, In r (vec m) -> Prov ss (itm r)) -> forall r, In r (vec m') -> Prov ss' (itm r))
  end.
Proof.
  intros A HS JJ IA NR. unfold SgModel.insert_next_item.
  assert (NR' : ~ In (k, a) (vec m)) by (intro Q; apply NR; apply (j_in _ _ _ _ JJ); auto).
  pose proof (nm_remove_spec nfeqb nfeqb_spec ns (spend_null k a)) as RM.
  assert (FW : Forall (fun x => sh x < w) [spend_item k a]). { constructor; auto. apply (itm_sh (k, a)); auto. }
  destruct (nm_remove nfeqb ns (spend_null k a)) as [ns' [|]].
  - destruct RM as (R1 & R2 & R3).
    pose proof (acc_step dl di join joinl ldeqb ideqb dg sh H HH ldeqb_spec ideqb_spec join_nd joinl_nd chk acc ss (OInsertNp (spend_item k a)) A) as S1.
    destruct (ref_insert ldeqb dg sh H w ss xs ys (OInsertNp (spend_item k a)) HS eq_refl FW) as (ss' & b & E & HS' & P & _).
    cbn [FoSpec.fo_step] in S1. destruct (fo_insert_np _ _ _ _ _ _ _ _ _) as [[acc' b']|]; cbn [option_map fst].
    2: { destruct S1; auto. congruence. }
    destruct S1 as (ss1 & E1 & A1). rewrite E in E1. injection E1 as <- <-. exists ss'. split; auto. split; auto. split; [|split; [|split]].
    + constructor.
      * apply (j_ok _ _ _ _ JJ).
      * intros r Hr. apply in_or_app. left. apply (j_in _ _ _ _ JJ); auto.
      * intros r Hr. apply in_app_or in Hr. destruct Hr as [Hr|[<-|[]]]; [apply (j_out _ _ _ _ JJ); auto|].
        right. apply (j_sub _ _ _ _ JJ). exact R1.
      * intros r Hr C NN. apply R3.
        -- apply (j_pend _ _ _ _ JJ); auto. destruct C as [C|C]; auto. right. intro Q. apply C. apply in_or_app. auto.
        -- intro Q. assert (r = (k, a)) by (apply nul_inj; auto). subst r. destruct C as [C|C]; auto.
           apply C. apply in_or_app. right. left. auto.
      * intros v Hv. apply (j_sub _ _ _ _ JJ). auto.
    + intro id. lia.
    + auto.
    + intros _ PR r Hr. auto.
  - destruct RM as (R1 & ->).
    pose proof (acc_step dl di join joinl ldeqb ideqb dg sh H HH ldeqb_spec ideqb_spec join_nd joinl_nd chk acc ss (OInsert (spend_item k a)) A) as S1.
    destruct (ref_insert ldeqb dg sh H w ss xs ys (OInsert (spend_item k a)) HS eq_refl FW) as (ss' & b & E & HS' & P & PN).
    cbn [FoSpec.fo_step] in S1. destruct (fo_insert _ _ _ _ _ _ _ _ _) as [[acc' b']|]; cbn [option_map fst].
    2: { destruct S1; auto. congruence. }
    destruct S1 as (ss1 & E1 & A1). rewrite E in E1. injection E1 as <- <-. exists ss'. split; auto. split; auto.
    pose proof (insert_new m k a (j_ok _ _ _ _ JJ) NR') as PM.
    destruct (am_insert_spec m k a (j_ok _ _ _ _ JJ)) as (OK' & IN).
    assert (IN' : forall r, In r (vec (am_insert m k a)) <-> r = (k, a) \/ In r (vec m)) by (intros []; apply IN).
    assert (NN : ~ In (spend_null k a) Nn).
    { intro Q. apply R1. apply (j_pend _ _ _ _ JJ (k, a)); auto. }
    split; [|split; [|split]].
    + constructor; auto.
      * intros r Hr. apply IN' in Hr. apply in_or_app. destruct Hr as [->|Hr]; [right; left; auto|]. left. apply (j_in _ _ _ _ JJ); auto.
      * intros r Hr. rewrite IN'. apply in_app_or in Hr. destruct Hr as [Hr|[<-|[]]]; auto.
        destruct (j_out _ _ _ _ JJ r Hr); auto.
      * intros r Hr C Q. destruct C as [C|C].
        -- apply IN' in C. destruct C as [->|C]; [contradiction|]. apply (j_pend _ _ _ _ JJ); auto.
        -- apply (j_pend _ _ _ _ JJ); auto. right. intro Z. apply C. apply in_or_app. auto.
      * apply (j_sub _ _ _ _ JJ).
    + intro id. unfold worth. rewrite (total_perm _ _ id (Permutation_map snd PM)). cbn [map snd total].
      destruct (N.eqb_spec (snd a) 0) as [Z|Z].
      * rewrite Z. destruct (fst a =? id)%N; lia.
      * rewrite total_app. cbn [total]. lia.
    + intros r Hr. apply IN' in Hr. destruct Hr as [->|Hr]; auto.
    + intros C PR r Hr. apply IN' in Hr. destruct Hr as [->|Hr]; auto.
Qed.

Lemma notes_spec Nn us : forall acc ss xs ys R m ns dep np,
  Acc acc ss -> Has ss xs ys -> J R Nn m ns ->
  Forall (fun x => sh x < w) np -> Forall (fun un => sh (item (fst un)) < w) us ->
  (forall u n k a, In (u, n) us -> open_note u n = Some (k, a) -> spend_item k a = item u) ->
  incl (received us) allr -> NoDup (R ++ received us) ->
  match sync_notes (acc, m, ns, dep) np us with
  | None => chk = true
  | Some (acc', m', ns', dep') =>
      let ys' := ys ++ np ++ map (fun un => item (fst un)) us in
      exists ss', Acc acc' ss' /\ Has ss' xs ys' /\ J (R ++ received us) Nn m' ns' /\
      (forall id, (worth m' id + total dep id = worth m id + total dep' id)%N) /\
      (forall r, In r (vec m') -> In r (vec m) \/ ~ In (nul r) Nn) /\
      ((forall j, j < w -> length (shard_items dg sh j (xs ++ ys')) <= cap) ->
       (forall r, In r (vec m) -> Prov ss (itm r)) -> forall r, In r (vec m') -> Prov ss' (itm r))
  end.
Proof.
  induction us as [|[u n] us IH]; intros acc ss xs ys R m ns dep np A HS JJ FN FU WI IC ND.
  - cbn [SgModel.sync_notes]. pose proof (flush_spec acc ss xs ys np A HS FN) as F.
    destruct (flush_np acc np) as [acc'|]; cbn [option_map]; auto. destruct F as (ss' & A' & HS' & P).
    exists ss'. cbn [map]. unfold SgSpec.received. cbn [flat_map]. rewrite !app_nil_r.
    split; [exact A'|]. split; [exact HS'|]. split; [exact JJ|]. split; [intro; lia|]. split; auto.
  - cbn [SgModel.sync_notes]. inversion FU as [|? ? FU1 FU2]; subst. cbn [fst] in FU1.
    unfold SgSpec.received in *. cbn [flat_map fst snd] in *. fold (received us) in *.
    destruct (open_note u n) as [[k a]|] eqn:O.
    + pose proof (flush_spec acc ss xs ys np A HS FN) as F. destruct (flush_np acc np) as [acc1|]; auto.
      destruct F as (ss1 & A1 & HS1 & P1).
      assert (NR : ~ In (k, a) R).
      { intro Q. apply NoDup_remove_2 in ND. apply ND. apply in_or_app. auto. }
      pose proof (next_spec acc1 ss1 xs (ys ++ np) R Nn m ns dep k a A1 HS1 JJ (IC _ (or_introl eq_refl)) NR) as G.
      destruct (insert_next_item (acc1, m, ns, dep) k a) as [[[[acc2 m2] ns2] dep2]|]; auto.
      destruct G as (ss2 & A2 & HS2 & J2 & W2 & N2 & P2).
      rewrite (WI u n k a (or_introl eq_refl) O) in *.
      assert (EQ : R ++ [(k, a)] ++ received us = (R ++ [(k, a)]) ++ received us) by (rewrite <- app_assoc; auto).
      specialize (IH acc2 ss2 xs ((ys ++ np) ++ [item u]) (R ++ [(k, a)]) m2 ns2 dep2 [] A2 HS2 J2 (Forall_nil _) FU2).
      specialize (IH ltac:(intros; eapply WI; [right; eauto|auto]) ltac:(intros x Hx; apply IC; right; auto)).
      rewrite EQ in ND. specialize (IH ND).
      destruct (sync_notes (acc2, m2, ns2, dep2) [] us) as [[[[acc' m'] ns'] dep']|]; auto.
      destruct IH as (ss' & A' & HS' & J' & W' & N' & P'). exists ss'.
      assert (EY : ((ys ++ np) ++ [item u]) ++ [] ++ map (fun un => item (fst un)) us =
                   ys ++ np ++ map (fun un => item (fst un)) ((u, n) :: us)).
      { cbn [map fst app]. rewrite <- !app_assoc. reflexivity. }
      rewrite EY in *. split; auto. split; auto. split; [rewrite EQ; exact J'|]. split; [|split].
      * intro id. specialize (W2 id). specialize (W' id). lia.
      * intros r Hr. destruct (N' r Hr) as [Q|Q]; auto.
      * intros C PR. apply P'; auto. apply P2; [|intros r Hr; apply P1; auto].
        specialize (C (sh (item u)) FU1). rewrite <- EY in C. cbn [app] in C. rewrite !app_assoc in C.
        rewrite !shard_items_app, shard_items_one, Nat.eqb_refl, !app_length in C. cbn [length] in C.
        rewrite !app_assoc, !shard_items_app, !app_length. lia.
    + cbn [app] in *. specialize (IH acc ss xs ys R m ns dep (np ++ [item u]) A HS JJ).
      specialize (IH ltac:(apply Forall_app; auto) FU2 ltac:(intros; eapply WI; [right; eauto|auto]) IC ND).
      destruct (sync_notes (acc, m, ns, dep) (np ++ [item u]) us) as [[[[acc' m'] ns'] dep']|]; auto.
      cbn [map fst]. rewrite <- app_assoc in IH. exact IH.
Qed.

(** ** The loop over the stored assets *)

Definition pending (ns : list NF) (v : NF) : bool := existsb (fun x => nfeqb x v) ns.
Lemma pending_spec ns v : pending ns v = true <-> In v ns.
Proof.
  unfold pending. rewrite existsb_exists. split.
  - intros (x & Hx & E). apply nfeqb_spec in E. subst. auto.
  - intro I. exists v. split; auto. apply nfeqb_spec. auto.
Qed.

Lemma retain_assets_spec k xs ys l : forall acc ss ns wd,
  Acc acc ss -> Has ss xs ys -> (forall a, In a l -> In (k, a) allr) -> NoDup l ->
  match retain_assets acc ns wd k l with
  | None => chk = true
  | Some (acc', ns', wd', l') =>
      exists ss', Acc acc' ss' /\ Has ss' xs ys /\
      l' = filter (fun a => negb (pending ns (spend_null k a))) l /\
      (forall v, In v ns' -> In v ns) /\
      (forall r, In r allr -> In (nul r) ns -> ~ In r (map (pair k) l) -> In (nul r) ns') /\
      (forall id, (total l id + total wd id = total l' id + total wd' id)%N) /\
      (forall r, In r allr -> Prov ss (itm r) -> ~ In (nul r) ns \/ ~ In r (map (pair k) l) -> Prov ss' (itm r))
  end.
Proof.
  induction l as [|a l IH]; intros acc ss ns wd A HS IC ND; cbn [SgModel.retain_assets].
  - exists ss. split; [exact A|]. split; [exact HS|]. split; [reflexivity|]. split; [auto|]. split; [auto|]. split; [intro; lia|auto].
  - inversion ND as [|? ? NI ND']; subst. pose proof (nm_remove_spec nfeqb nfeqb_spec ns (spend_null k a)) as RM.
    assert (IK : In (k, a) allr) by (apply IC; left; auto).
    assert (IC' : forall b, In b l -> In (k, b) allr) by (intros; apply IC; right; auto).
    destruct (nm_remove nfeqb ns (spend_null k a)) as [ns1 [|]].
    + destruct RM as (R1 & R2 & R3).
      pose proof (acc_step dl di join joinl ldeqb ideqb dg sh H HH ldeqb_spec ideqb_spec join_nd joinl_nd chk acc ss (ORemove (spend_item k a)) A) as S1.
      destruct (ref_remove ldeqb dg sh H w ldeqb_spec ss xs ys (spend_item k a) HS (itm_sh _ IK)) as (ss1 & b & E & HS1 & P1).
      cbn [FoSpec.fo_step] in S1. destruct (fo_remove_proof _ _ _ _ _ _) as [[acc1 b']|].
      2: { destruct S1; auto. congruence. }
      destruct S1 as (ss2 & E2 & A1). rewrite E in E2. injection E2 as <- <-.
      specialize (IH acc1 ss1 ns1 (if (snd a =? 0)%N then wd else wd ++ [a]) A1 HS1 IC' ND').
      destruct (retain_assets acc1 ns1 _ k l) as [[[[acc' ns'] wd'] l']|]; auto.
      destruct IH as (ss' & A' & HS' & EL & I1 & I2 & I3 & I4). exists ss'. split; auto. split; auto.
      assert (OTH : forall b0, In b0 l -> (k, b0) <> (k, a)) by (intros b0 Hb Q; injection Q as ->; auto).
      split; [|split; [|split; [|split]]].
      * cbn [filter]. rewrite (proj2 (pending_spec ns (spend_null k a)) R1). cbn [negb]. rewrite EL.
        apply filter_ext_in. intros b0 Hb. f_equal. apply eq_true_iff_eq. rewrite !pending_spec. split; [auto|].
        intro Q. apply R3; auto. intro Z. apply (OTH b0 Hb). apply nul_inj; auto.
      * auto.
      * intros r Hr Q NR. cbn [map] in NR. apply I2; auto.
        -- apply R3; auto. intro Z. apply NR. left. symmetry. apply nul_inj; auto.
        -- intro Z. apply NR. right. auto.
      * intro id. specialize (I3 id). cbn [total]. destruct (N.eqb_spec (snd a) 0) as [Z|Z].
        -- rewrite Z. destruct (fst a =? id)%N; lia.
        -- rewrite total_app in I3. cbn [total] in I3. lia.
      * intros r Hr PR C. cbn [map] in C.
        assert (NE : r <> (k, a)). { intros ->. destruct C as [C|C]; [apply C; auto|]. apply C. left. auto. }
        apply (I4 r Hr).
        -- apply P1; [exact PR|]. intro Q. apply NE. apply itm_inj; auto.
        -- destruct C as [C|C]; [left; intro Q; apply C; auto|right; intro Q; apply C; right; auto].
    + destruct RM as (R1 & ->). specialize (IH acc ss ns wd A HS IC' ND').
      destruct (retain_assets acc ns wd k l) as [[[[acc' ns'] wd'] l']|]; auto.
      destruct IH as (ss' & A' & HS' & EL & I1 & I2 & I3 & I4). exists ss'. split; auto. split; auto.
      assert (PF : pending ns (spend_null k a) = false).
      { destruct (pending ns (spend_null k a)) eqn:Q; auto. apply pending_spec in Q. contradiction. }
      split; [|split; [|split; [|split]]]; auto.
      * cbn [filter]. rewrite PF. cbn [negb]. rewrite EL. reflexivity.
      * intros r Hr Q NR. apply I2; auto. intro Z. apply NR. right. auto.
      * intro id. specialize (I3 id). cbn [total]. lia.
      * intros r Hr PR C. apply I4; auto. destruct C as [C|C]; auto. right. intro Q. apply C. right. auto.
Qed.

Lemma ss_filter {A} (R : A -> A -> Prop) (p : A -> bool) l : StronglySorted R l -> StronglySorted R (filter p l).
Proof.
  induction 1 as [|x l S IH F]; cbn [filter]; [constructor|]. destruct (p x); auto. constructor; auto.
  rewrite Forall_forall in *. intros y Hy. apply filter_In in Hy. apply F. tauto.
Qed.

Lemma am_ok_tail k l m : am_ok ((k, l) :: m) -> am_ok m.
Proof. intros [S O]. inversion S; subst. split; auto. intros k' l' I. apply (O k' l'). right. auto. Qed.

Lemma vec_cons k l m : vec ((k, l) :: m) = map (pair k) l ++ vec m.
Proof. reflexivity. Qed.

Lemma retain_map_spec xs ys m : forall acc ss ns wd,
  Acc acc ss -> Has ss xs ys -> incl (vec m) allr -> am_ok m ->
  match retain_map acc ns wd m with
  | None => chk = true
  | Some (acc', m', ns', wd') =>
      exists ss', Acc acc' ss' /\ Has ss' xs ys /\ am_ok m' /\
      (forall r, In r (vec m') <-> In r (vec m) /\ ~ In (nul r) ns) /\
      (forall k l, In (k, l) m' -> exists l0, In (k, l0) m) /\
      (forall v, In v ns' -> In v ns) /\
      (forall r, In r allr -> In (nul r) ns -> ~ In r (vec m) -> In (nul r) ns') /\
      (forall id, (worth m id + total wd id = worth m' id + total wd' id)%N) /\
      (forall r, In r allr -> Prov ss (itm r) -> ~ In (nul r) ns \/ ~ In r (vec m) -> Prov ss' (itm r))
  end.
Proof.
  induction m as [|[k l] m IH]; intros acc ss ns wd A HS IC OK; cbn [SgModel.retain_map].
  - exists ss. split; [exact A|]. split; [exact HS|]. split; [exact OK|]. split; [cbn; tauto|]. split; [contradiction|].
    split; [auto|]. split; [auto|]. split; [intro; lia|auto].
  - pose proof (am_vector_nodup _ OK) as ND0. rewrite vec_cons in *.
    assert (SL : StronglySorted alt l) by (apply (proj2 OK k l); left; auto).
    assert (NDl : NoDup l) by (apply (ss_nodup alt); auto; apply alt_irrefl).
    assert (ICl : forall a, In a l -> In (k, a) allr). { intros a Ha. apply IC. apply in_or_app. left. apply in_map. auto. }
    pose proof (retain_assets_spec k xs ys l acc ss ns wd A HS ICl NDl) as G.
    destruct (retain_assets acc ns wd k l) as [[[[acc1 ns1] wd1] l']|]; auto.
    destruct G as (ss1 & A1 & HS1 & EL & G1 & G2 & G3 & G4).
    assert (ICm : incl (vec m) allr) by (intros x Hx; apply IC; apply in_or_app; auto).
    specialize (IH acc1 ss1 ns1 wd1 A1 HS1 ICm (am_ok_tail _ _ _ OK)).
    destruct (retain_map acc1 ns1 wd1 m) as [[[[acc' m'] ns'] wd']|]; auto.
    destruct IH as (ss' & A' & HS' & OK' & I1 & IK & I2 & I3 & I4 & I5). exists ss'. split; auto. split; auto.
    assert (DIS : forall r, In r (vec m) -> ~ In r (map (pair k) l)).
    { intros r Hr Q. apply in_split in Q. destruct Q as (p & q & Q). rewrite Q in ND0. rewrite <- app_assoc in ND0. cbn [app] in ND0.
      apply NoDup_remove_2 in ND0. apply ND0. rewrite app_assoc. apply in_or_app. auto. }
    assert (EQN : forall r, In r (vec m) -> (In (nul r) ns1 <-> In (nul r) ns)).
    { intros r Hr. split; [auto|]. intro Q. apply G2; auto. }
    assert (VEC : forall r, In r (vec (match l' with [] => m' | _ => (k, l') :: m' end)) <-> In r (map (pair k) l') \/ In r (vec m')).
    { intro r. destruct l'; [cbn [map In]; tauto|]. rewrite vec_cons, in_app_iff. tauto. }
    assert (LL : forall r, In r (map (pair k) l') <-> In r (map (pair k) l) /\ ~ In (nul r) ns).
    { intro r. rewrite EL, !in_map_iff. split.
      - intros (a & <- & Ha). apply filter_In in Ha. destruct Ha as [Ha C]. split; eauto.
        intro Q. apply (pending_spec ns (spend_null k a)) in Q. rewrite Q in C. discriminate.
      - intros [(a & <- & Ha) C]. exists a. split; auto. apply filter_In. split; auto.
        destruct (pending ns (spend_null k a)) eqn:Q; auto. apply pending_spec in Q. contradiction. }
    split; [|split; [|split; [|split; [|split; [|split]]]]].
    + destruct l' as [|a0 l'']; auto. set (l1 := a0 :: l'') in *. split.
      * constructor; [apply OK'|]. apply Forall_forall. intros [k2 l2] Hk. destruct (IK k2 l2 Hk) as (l0 & H0).
        destruct OK as [S _]. inversion S as [|? ? ? F]; subst. rewrite Forall_forall in F. specialize (F _ H0). exact F.
      * intros k2 l2 [Q|Q]; [|apply (proj2 OK' k2 l2 Q)]. injection Q as <- <-. split; [discriminate|].
        rewrite EL. apply ss_filter. auto.
    + intro r. rewrite VEC, LL, I1, in_app_iff. split.
      * intros [[Q C]|[Q C]]; split; try (rewrite EQN in C by auto); auto.
      * intros [[Q|Q] C]; auto. right. split; [auto|]. rewrite EQN; auto.
    + intros k2 l2 Q. assert (Q' : (k2, l2) = (k, l') \/ In (k2, l2) m').
      { destruct l'; auto. destruct Q as [Q|Q]; auto. }
      destruct Q' as [Q'|Q']; [injection Q' as -> ->; exists l; left; auto|]. destruct (IK _ _ Q') as (l0 & H0). exists l0. right. auto.
    + auto.
    + intros r Hr Q C. apply I3; auto.
      * apply G2; auto. intro Z. apply C. apply in_or_app. auto.
      * intro Z. apply C. apply in_or_app. auto.
    + intro id. specialize (G3 id). specialize (I4 id). unfold worth in *. rewrite vec_cons, map_app, total_app, map_map. cbn [snd].
      rewrite map_id. destruct l' as [|a0 l''].
      * cbn [total] in G3. lia.
      * rewrite vec_cons, map_app, total_app, map_map. cbn [snd]. rewrite map_id. lia.
    + intros r Hr PR C. rewrite in_app_iff in C. apply (I5 r Hr).
      * apply G4; auto. destruct C as [C|C]; auto.
      * destruct C as [C|C]; auto.
Qed.
End Sync.
