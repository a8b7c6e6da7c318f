(** Signing on an accumulator that follows a list of items: proofs verify, and nothing panics. *)
From Coq Require Import List Arith NArith Bool Lia Permutation.
From Verif Require Import MtModel MtSpec MtHist PtModel PtSpec FkSpec FoSpec FoInv FoProps AssetModel
  SgAcc SnModel SnSpec SnJoin SnAcc.
Import ListNotations.
Open Scope nat_scope.

Lemma fo_upd_some {LD ID} (g : ftree LD ID -> ftree LD ID * bool) : forall f i, i < length f ->
  exists r, fo_upd f i (fun t => Some (g t)) = Some r.
Proof.
  induction f as [|t f IH]; intros [|i] L; cbn [length fo_upd] in *; try lia.
  - destruct (g t). eauto.
  - destruct (IH i ltac:(lia)) as ([f' b] & ->). eauto.
Qed.

Section Ok.
Context {LD IT : Type}.
Variable ldeqb : LD -> LD -> bool.
Variable dg : IT -> LD.
Variable sh : IT -> nat.
Variable H : nat.

Lemma ok_insert ss x ss' b : fo_ref ldeqb dg sh H ss (OInsert x) = Some (ss', b) -> AllOk ss -> AllOk ss'.
Proof.
  cbn [fo_ref]. intros E OK. destruct (nth_error ss (sh x)) as [s|] eqn:N.
  2: { unfold change_at in E. rewrite N in E. discriminate. }
  destruct (fs_step H false s (FDo (PPush (dg x)))) as [[s' c]|] eqn:Q.
  2: { unfold change_at in E. rewrite N, Q in E. discriminate. }
  destruct (change_at_spec ss (sh x) (fun s => fs_step H false s (FDo (PPush (dg x)))) s s' c N Q) as (ss1 & E1 & _ & N1 & O1).
  rewrite E in E1. injection E1 as <- _. intros j t Hj. destruct (Nat.eq_dec j (sh x)) as [->|NE].
  - rewrite N1 in Hj. injection Hj as <-. cbn [fs_step pop_items pop_top fold_left settle] in Q. injection Q as <- _. cbn [fs_ok].
    destruct (_ <? _); cbn [snd]; auto. eapply OK. exact N.
  - rewrite O1 in Hj by auto. eapply OK. exact Hj.
Qed.
End Ok.

(** Proofs against the roots of lists of items. *)
Section Valid.
Context {LD ID IT : Type}.
Variable dl : LD.
Variable di : ID.
Variable join : ID -> ID -> ID.
Variable joinl : LD -> LD -> ID.
Variable ideqb : ID -> ID -> bool.
Variable dg : IT -> LD.
Variable sh : IT -> nat.
Variable H : nat.
Variable spend_item : N -> asset -> IT.

Definition item_of (c : N * asset) : IT := spend_item (fst c) (snd c).

(** A sender with a proof for the tree of the items [xs], or a made-up zero. *)
Definition valid_sender (xs : list IT) (s : @sender LD ID) : Prop :=
  match sd_proof s with
  | None => snd (sd_asset s) = 0%N
  | Some (p, r) =>
      let x := item_of (coin s) in
      r = spec_root dl di join joinl H (firstn (2 ^ (H - 1)) (shard_items dg sh (sh x) xs)) /\
      path_verify join joinl ideqb p r (dg x) = true
  end.

(** The senders of each post are valid for [xs] with the coins made by the posts before. *)
Fixpoint valid_posts (xs : list IT) (ps : list (@post LD ID)) : Prop :=
  match ps with
  | [] => True
  | p :: r => Forall (valid_sender xs) (po_senders p) /\ valid_posts (xs ++ map item_of (made p)) r
  end.

Definition made_items (ps : list (@post LD ID)) : list IT := map item_of (flat_map made ps).

Lemma made_items_app ps ps' : made_items (ps ++ ps') = made_items ps ++ made_items ps'.
Proof. unfold made_items. rewrite flat_map_app, map_app. reflexivity. Qed.
Lemma valid_posts_app ps : forall xs ps', valid_posts xs ps -> valid_posts (xs ++ made_items ps) ps' ->
  valid_posts xs (ps ++ ps').
Proof.
  induction ps as [|p ps IH]; intros xs ps' V V'; cbn [app valid_posts] in *.
  - unfold made_items in V'. cbn in V'. rewrite app_nil_r in V'. exact V'.
  - destruct V as [V1 V2]. split; auto. apply IH; auto. rewrite <- app_assoc.
    unfold made_items in *. cbn [flat_map] in V'. rewrite map_app in V'. exact V'.
Qed.
End Valid.

Section Good.
Context {LD ID IT : Type}.
Variable dl : LD.
Variable di : ID.
Variable join : ID -> ID -> ID.
Variable joinl : LD -> LD -> ID.
Variable ldeqb : LD -> LD -> bool.
Variable ideqb : ID -> ID -> bool.
Variable dg : IT -> LD.
Variable sh : IT -> nat.
Variable H : nat.
Hypothesis HH : 3 <= H.
Hypothesis ldeqb_spec : forall a b, ldeqb a b = true <-> a = b.
Hypothesis ideqb_spec : forall a b, ideqb a b = true <-> a = b.
Hypothesis join_nd : forall a b, join a b <> di.
Hypothesis joinl_nd : forall a b, joinl a b <> di.
Variable chk : bool.
Variable w : nat.
Hypothesis sh_lt : forall x, sh x < w.
Variable spend_item : N -> asset -> IT.
Variable ident : nat -> N.
Variable prove_ok : nat -> bool.
Notation eff := (@eff LD ID).
Notation sender := (@sender LD ID).
Notation post := (@post LD ID).
Notation cap := (2 ^ (H - 1)).
Notation upgrade := (upgrade dl di join joinl ldeqb H chk dg sh spend_item).
Notation upgrade_all := (upgrade_all dl di join joinl ldeqb H chk dg sh spend_item).
Notation insert_utxo := (insert_utxo dl di join joinl H dg sh spend_item).
Notation insert_utxos := (insert_utxos dl di join joinl H dg sh spend_item).
Notation prepare_final := (prepare_final dl di join joinl ldeqb H chk dg sh spend_item ident).
Notation join_round := (join_round dl di join joinl ldeqb H chk dg sh spend_item ident prove_ok).
Notation join_loop := (join_loop dl di join joinl ldeqb H chk dg sh spend_item ident prove_ok).
Notation compute_batched := (compute_batched dl di join joinl ldeqb H chk dg sh spend_item ident prove_ok).
Notation process_to_public := (process_to_public ident prove_ok).
Notation public_loop := (public_loop dl di join joinl ldeqb H chk dg sh spend_item ident prove_ok).
Notation compute_to_public := (compute_to_public dl di join joinl ldeqb H chk dg sh spend_item ident prove_ok).
Notation private_after := (private_after dl di join joinl ldeqb H chk dg sh spend_item ident prove_ok).
Notation Acc := (Acc dl di join joinl H (td := true)).
Notation Has := (Has dg sh H w).
Notation Prov := (Prov dg sh).
Notation item_of := (item_of spend_item).
Notation valid_sender := (valid_sender dl di join joinl ideqb dg sh H spend_item).
Notation valid_posts := (valid_posts dl di join joinl ideqb dg sh H spend_item).
Notation made_items := (made_items spend_item).

Definition Good (e : eff) (ss : list (fspec LD)) (xs ys : list IT) : Prop :=
  Acc (e_acc e) ss /\ Has ss xs ys /\ AllOk ss.
Definition provable (ss : list (fspec LD)) (l : list (N * asset)) : Prop := Forall (fun c => Prov ss (item_of c)) l.
Definition room (xs : list IT) (n : nat) : Prop := forall j, length (shard_items dg sh j xs) + n <= cap.

Lemma good_acc e e' ss xs ys : e_acc e' = e_acc e -> Good e ss xs ys -> Good e' ss xs ys.
Proof. unfold Good. intros ->. auto. Qed.
Lemma good_length e ss xs ys : Good e ss xs ys -> length (e_acc e) = w.
Proof.
  intros (A & [L _] & _). rewrite <- L.
  pose proof A as F. unfold SgAcc.Acc in F.
  clear - F. induction F; cbn [length]; congruence.
Qed.

Lemma insert_good e ss xs ys s : Good e ss xs ys ->
  exists e' ss', insert_utxo s e = Some e' /\ Good e' ss' xs (ys ++ [item_of s]) /\
    (forall x, Prov ss x -> Prov ss' x) /\
    (room (xs ++ ys) 1 -> Prov ss' (item_of s)) /\ e_rng e' = e_rng e /\ e_prf e' = e_prf e.
Proof.
  intros G. pose proof G as (A & HS & OK). pose proof (good_length _ _ _ _ G) as LN. unfold SnModel.insert_utxo.
  destruct (fo_upd_some (fun t => ft_push dl di join joinl H t (dg (item_of s))) (e_acc e) (sh (item_of s))) as ([f b] & E).
  { rewrite LN. apply sh_lt. }
  change (fo_upd _ _ _) with (fo_insert dl di join joinl H dg sh (e_acc e) (item_of s)) in E.
  pose proof (acc_step dl di join joinl ldeqb ideqb dg sh H HH ldeqb_spec ideqb_spec join_nd joinl_nd chk (e_acc e) ss (OInsert (item_of s)) A) as ST.
  cbn [fo_step] in ST. rewrite E in ST. destruct ST as (ss1 & R & A1).
  destruct (ref_insert ldeqb dg sh H w ss xs ys (OInsert (item_of s)) HS eq_refl) as (ss2 & b2 & R2 & HS2 & K2 & N2).
  { constructor; [apply sh_lt|constructor]. }
  rewrite R in R2. injection R2 as <- <-. unfold SnGood.item_of in *. rewrite E. cbn [option_map fst].
  eexists _, ss1. split; [reflexivity|]. cbn [e_acc e_rng e_prf]. split; [split; [exact A1|]; split; [exact HS2|]|].
  - eapply ok_insert; eauto.
  - split; [exact K2|]. split; [|auto]. intro RM. apply (N2 _ eq_refl). specialize (RM (sh (spend_item (fst s) (snd s)))). lia.
Qed.

Lemma upgrade_good e ss xs ys s x : Good e ss xs ys -> upgrade s e = Some x -> valid_sender (xs ++ ys) x.
Proof.
  intros (A & [LN HN] & OK) U. unfold SnModel.upgrade in U.
  destruct (fo_prove _ _ _ _ _ _ _ _ _ _ _) as [[[p r]|]|] eqn:E; try discriminate. injection U as <-.
  unfold SnGood.valid_sender, SnGood.item_of, coin. cbn [sd_proof sd_key sd_asset fst snd].
  set (it := spend_item (fst s) (snd s)) in *.
  pose proof (shards_prove dl di join joinl ldeqb ideqb dg sh H HH ldeqb_spec ideqb_spec join_nd joinl_nd chk _ _ A) as G.
  destruct (nth_error ss (sh it)) as [t|] eqn:N.
  2: { apply nth_error_None in N. pose proof (sh_lt it). lia. }
  destruct (G it t N (OK _ _ N)) as (u & _ & P1 & _). destruct (P1 p r E) as (_ & P2 & _ & P3).
  destruct (HN _ _ N) as [_ L]. rewrite <- L. auto.
Qed.
Lemma upgrade_all_good e ss xs ys l : Good e ss xs ys -> forall x, upgrade_all l e = Some x -> Forall (valid_sender (xs ++ ys)) x.
Proof.
  intro G. induction l as [|s l IH]; intros x U; cbn [SnModel.upgrade_all] in U. { injection U as <-. constructor. }
  destruct (upgrade s e) as [y|] eqn:E; [|discriminate]. destruct (upgrade_all l e) as [z|]; [|discriminate]. injection U as <-.
  constructor; [eapply upgrade_good; eauto|]. apply IH. reflexivity.
Qed.
Lemma upgrade_some e ss xs ys l : Good e ss xs ys -> provable ss l -> exists x, upgrade_all l e = Some x.
Proof.
  intros G F. destruct G as (A & HS & OK). induction F as [|s l P F IH]; cbn [SnModel.upgrade_all]; eauto. destruct IH as (x & ->).
  destruct (prov_proof dl di join joinl ldeqb ideqb dg sh H HH ldeqb_spec ideqb_spec join_nd joinl_nd chk w _ ss xs ys _ A HS OK P) as (p & r & _ & E & _).
  unfold SnModel.upgrade. unfold SnGood.item_of in E. rewrite E. eauto.
Qed.

Lemma shard_items_length j xs : length (shard_items dg sh j xs) <= length xs.
Proof. unfold shard_items. rewrite map_length. induction xs as [|x xs IH]; cbn [filter length]; auto. destruct (_ =? _); cbn [length]; lia. Qed.
Lemma room_app xs ys n k : room xs n -> length ys + k <= n -> room (xs ++ ys) k.
Proof.
  intros R L j. specialize (R j). rewrite (shard_items_app dg sh), app_length. pose proof (shard_items_length j ys). lia.
Qed.

(** The prover was the reason. *)
Definition prover_failed (x : sign_error) (e : eff) : Prop := x = ProofSystemError /\ prove_ok (pred (e_prf e)) = false.

Lemma join_round_good id chunks : forall joins zs posts e ss xs ys, Good e ss xs ys ->
  match join_round id chunks joins zs posts e with
  | Done (joins', _, posts') e' => exists ps js ss', posts' = posts ++ ps /\ joins' = joins ++ js /\
      Good e' ss' xs (ys ++ made_items ps) /\ valid_posts (xs ++ ys) ps /\ length (made_items ps) = 2 * length chunks /\
      (forall x, Prov ss x -> Prov ss' x) /\ (room (xs ++ ys) (2 * length chunks) -> provable ss' js)
  | Failed x e' => prover_failed x e'
  | Panicked => ~ (provable ss (flat2 chunks) /\ (tot (flat2 chunks) <= vmax)%N)
  end.
Proof.
  induction chunks as [|[a b] chunks IH]; intros joins zs posts e ss xs ys G; cbn [SnModel.join_round].
  - exists [], [], ss. unfold SnGood.made_items. cbn [flat_map map length]. rewrite !app_nil_r. repeat (split; auto). intros _. constructor.
  - change (flat2 ((a, b) :: chunks)) with ([a; b] ++ flat2 chunks).
    destruct (upgrade_all [a; b] e) as [sd|] eqn:U.
    2: { intros [P _]. apply Forall_app in P. destruct (upgrade_some e ss xs ys [a; b] G (proj1 P)) as (y & Q). congruence. }
    pose proof (upgrade_all_coin _ _ _ _ _ _ _ _ _ _ _ _ _ U) as UC.
    pose proof (upgrade_all_good e ss xs ys [a; b] G sd U) as UV.
    destruct (vsum 0 (values sd)) as [v|] eqn:V.
    2: { intros [_ B]. rewrite tot_app in B. rewrite vsum_ok in V; [discriminate|]. rewrite values_amount, UC. unfold tot in B. lia. }
    unfold next_join, receiver, draw. cbn [e_acc e_rng e_prf rc_key]. unfold build_post. cbn [e_acc e_rng e_prf].
    set (k := ident (e_rng e)). set (k2 := ident (S (e_rng e))).
    destruct (prove_ok (e_prf e)) eqn:PO; cbn [bind]. 2: { split; auto. }
    set (p := mk_post _ _ _ _ _ _). set (e2 := mk_eff _ _ _).
    assert (G2 : Good e2 ss xs ys) by (eapply good_acc; [|exact G]; reflexivity).
    destruct (insert_good e2 ss xs ys (k, (id, v)) G2) as (e3 & s3 & I3 & G3 & K3 & N3 & _ & _).
    destruct (insert_good e3 s3 _ _ (k2, (id, 0%N)) G3) as (e4 & s4 & I4 & G4 & K4 & N4 & _ & _).
    cbn [SnModel.insert_utxos]. rewrite I3, I4.
    specialize (IH (joins ++ [(k, (id, v))]) (zs ++ [(k2, (id, 0%N))]) (posts ++ [p]) e4 s4 xs _ G4).
    assert (ML : made_items [p] = [item_of (k, (id, v)); item_of (k2, (id, 0%N))]) by reflexivity.
    assert (YS : (ys ++ [item_of (k, (id, v))]) ++ [item_of (k2, (id, 0%N))] = ys ++ made_items [p]) by (rewrite <- app_assoc, ML; reflexivity).
    rewrite YS in IH.
    destruct (join_round _ _ _ _ _ e4) as [[[j' z'] p'] e'|x e'|].
    + destruct IH as (ps & js & ss' & -> & -> & G' & V' & L' & K' & N'). exists (p :: ps), ((k, (id, v)) :: js), ss'.
      rewrite <- !app_assoc in *. split; [reflexivity|]. split; [reflexivity|].
      change (p :: ps) with ([p] ++ ps). rewrite made_items_app.
      split; [exact G'|]. split. { cbn [app SnGood.valid_posts]. split; [exact UV|].
        change (map item_of (made p)) with (made_items [p]). rewrite <- app_assoc. exact V'. }
      split. { rewrite app_length, L', ML. cbn [length]. lia. }
      split. { intros x P. apply K', K4, K3, P. }
      intro RM. cbn [length] in RM. constructor.
      * apply K', K4, N3. intro j. specialize (RM j). lia.
      * apply N'. rewrite app_assoc. eapply room_app; [exact RM|]. rewrite ML. cbn [length]. lia.
    + exact IH.
    + intros [P B]. apply IH. apply Forall_app in P. rewrite tot_app in B. split; [|lia].
      eapply Forall_impl; [|exact (proj2 P)]. cbn beta. intros c Hc. apply K4, K3, Hc.
Qed.

Lemma join_loop_good id : forall fuel pre zs posts e ss xs ys, of_id id pre -> Good e ss xs ys ->
  match join_loop fuel id pre zs posts e with
  | Done (pre', _, posts') e' => exists ps ss', posts' = posts ++ ps /\
      Good e' ss' xs (ys ++ made_items ps) /\ valid_posts (xs ++ ys) ps /\
      (forall x, Prov ss x -> Prov ss' x) /\
      (room (xs ++ ys) (2 * (length pre - 2)) -> provable ss pre -> provable ss' pre')
  | Failed x e' => prover_failed x e'
  | Panicked => ~ (provable ss pre /\ (tot pre <= vmax)%N /\ room (xs ++ ys) (2 * (length pre - 2)) /\ length pre <= fuel)
  end.
Proof.
  induction fuel as [|fuel IH]; intros pre zs posts e ss xs ys O G; cbn [SnModel.join_loop];
    destruct (Nat.ltb_spec 2 (length pre)) as [C|C].
  2, 4: exists [], ss; unfold SnGood.made_items; cbn [flat_map map]; rewrite !app_nil_r; repeat (split; auto).
  { intros (_ & _ & _ & Q). lia. }
  destruct (chunk2 pre) as [cs rm] eqn:CH. destruct (chunk2_spec (length pre) pre (le_n _) _ _ CH) as (F & L1 & L2).
  assert (O1 : of_id id (flat2 cs) /\ of_id id rm).
  { unfold of_id in *. rewrite <- F in O. apply Forall_app in O. exact O. }
  destruct O1 as [O1 O2].
  pose proof (join_round_good id cs [] zs posts e ss xs ys G) as JG.
  destruct (join_round id cs [] zs posts e) as [[[js zs'] ps'] e1|x e1|] eqn:J; cbn [bind].
  - destruct (join_round_spec _ _ _ _ _ _ _ _ _ _ _ _ _ _ _ _ _ _ _ _ O1 J) as (q1 & q2 & q3 & EQ & K1 & K2 & _ & _ & _ & _ & OJ & TJ).
    cbn [app] in EQ. injection EQ as -> -> ->.
    destruct JG as (ps & js & ss1 & E1 & E2 & G1 & V1 & M1 & P1 & N1). apply app_inv_head in E1. subst q1. cbn [app] in E2. subst q2.
    assert (HALF : length js + length rm = (length pre + 1) / 2).
    { rewrite K2, L1, L2, half. reflexivity. }
    assert (HB : 2 <= (length pre + 1) / 2 /\ length pre / 2 + ((length pre + 1) / 2 - 2) = length pre - 2).
    { rewrite half. pose proof (Nat.div_mod (length pre) 2 ltac:(lia)). pose proof (Nat.mod_upper_bound (length pre) 2 ltac:(lia)). lia. }
    assert (OJ' : of_id id (js ++ rm)) by (apply Forall_app; auto).
    specialize (IH (js ++ rm) (zs ++ q3) (posts ++ ps) e1 ss1 xs _ OJ' G1).
    assert (RM : room (xs ++ ys) (2 * (length pre - 2)) -> room (xs ++ ys ++ made_items ps) (2 * (length (js ++ rm) - 2)) /\
      room (xs ++ ys) (2 * length cs)).
    { intro R. split. { rewrite app_assoc. eapply room_app; [exact R|]. rewrite M1, app_length, HALF, L1. lia. }
      intro j. specialize (R j). lia. }
    assert (PV : room (xs ++ ys) (2 * (length pre - 2)) -> provable ss pre -> provable ss1 (js ++ rm)).
    { intros R P. apply Forall_app. split; [apply N1, RM, R|]. rewrite <- F in P. apply Forall_app in P.
      eapply Forall_impl; [|exact (proj2 P)]. cbn beta. intros c. apply P1. }
    destruct (join_loop _ _ _ _ _ _) as [[[p2 z2] q] e2|x e2|].
    + destruct IH as (ps2 & ss2 & -> & G2 & V2 & P2 & N2). exists (ps ++ ps2), ss2. rewrite made_items_app, <- !app_assoc in *.
      split; [reflexivity|]. split; [exact G2|]. split. { apply valid_posts_app; auto. rewrite <- app_assoc. exact V2. }
      split; [auto|]. intros R P. apply N2; [apply RM, R|auto].
    + exact IH.
    + intros (P & B & R & FU). apply IH. split; [auto|]. split. { rewrite tot_app, TJ, <- tot_app, F. exact B. }
      split; [apply RM, R|]. rewrite app_length, HALF. lia.
  - exact JG.
  - intros (P & B & R & FU). apply JG. rewrite <- F in P, B. apply Forall_app in P. rewrite tot_app in B. split; [apply P|lia].
Qed.

Lemma fakes_valid xs id n : forall e, Forall (valid_sender xs) (fst (fakes ident id n e)).
Proof.
  intro e. destruct (fakes_spec (LD := LD) (ID := ID) ident id n e) as (_ & Z & P & _).
  revert Z P. generalize (fst (fakes ident id n e)). induction l as [|s l IH]; intros Z P; constructor.
  - inversion P as [|? ? P1 _]; subst. inversion Z as [|? ? Z1 _]; subst. unfold SnGood.valid_sender. rewrite P1.
    unfold is_zero, coin in Z1. cbn [snd] in Z1. rewrite Z1. reflexivity.
  - inversion P; subst. inversion Z; subst. auto.
Qed.

Lemma prepare_final_good m id zs pre e ss xs ys : Good e ss xs ys ->
  match prepare_final m id zs pre e with
  | Done l e' => Forall (valid_sender (xs ++ ys)) l /\
      (zs = [] \/ length pre = 2 -> length l = 2)
  | Failed _ _ => False
  | Panicked => ~ (provable ss pre /\ length pre <= 2 /\ (zs = [] \/ length pre = 2) /\
      provable ss (map (fun k => (k, (id, 0%N))) (am_zeroes m (2 - length pre) id)))
  end.
Proof.
  intro G. unfold SnModel.prepare_final. destruct (upgrade_all pre e) as [sd|] eqn:U.
  2: { intros (P & _). destruct (upgrade_some _ _ _ _ _ G P). congruence. }
  pose proof (upgrade_all_coin _ _ _ _ _ _ _ _ _ _ _ _ _ U) as UC.
  assert (LS : length sd = length pre) by (rewrite <- UC, map_length; auto). rewrite LS.
  destruct (Nat.ltb_spec 2 (length pre)) as [C|C]. { intros (_ & Q & _). lia. }
  destruct (upgrade_all (map (fun k => (k, (id, 0%N))) _) e) as [zz|] eqn:Z.
  2: { intros (_ & _ & _ & P). destruct (upgrade_some _ _ _ _ _ G P). congruence. }
  destruct (upgrade_all (firstn _ _) e) as [nz|] eqn:NZ.
  2: { intros (_ & _ & ZS & _). enough (Q : forall n, n = 0 \/ zs = [] -> firstn n (rev zs) = []).
       - rewrite Q in NZ; [discriminate|]. destruct ZS as [->|L]; [auto|left; lia].
       - intros n [->| ->]; [reflexivity|apply firstn_nil]. }
  pose proof (upgrade_all_good _ _ _ _ _ G _ U) as V1. pose proof (upgrade_all_good _ _ _ _ _ G _ Z) as V2.
  pose proof (upgrade_all_good _ _ _ _ _ G _ NZ) as V3.
  pose proof (fakes_valid (xs ++ ys) id (2 - length pre - length (am_zeroes m (2 - length pre) id) - length zs) e) as V4.
  pose proof (fakes_spec (LD := LD) (ID := ID) ident id (2 - length pre - length (am_zeroes m (2 - length pre) id) - length zs) e) as FS.
  destruct (fakes _ _ _ _) as [fk e2]. cbn [fst snd] in *. split.
  - repeat (apply Forall_app; split; auto).
  - intro ZS. apply upgrade_all_coin in Z, NZ. apply (f_equal (@length _)) in Z, NZ. rewrite !map_length in Z, NZ.
    rewrite !app_length, LS, Z, NZ, ?map_length, firstn_length, rev_length, (proj1 FS).
    assert (LZ : length (am_zeroes m (2 - length pre) id) <= 2 - length pre) by (unfold am_zeroes; apply firstn_le_length).
    destruct ZS as [->|L]; cbn [length]; lia.
Qed.

Lemma compute_batched_good m id pre e ss xs ys : of_id id pre -> Good e ss xs ys ->
  match compute_batched m id pre e with
  | Done (posts, senders) e' => exists ss', Good e' ss' xs (ys ++ made_items posts) /\
      valid_posts (xs ++ ys) posts /\ Forall (valid_sender (xs ++ ys ++ made_items posts)) senders
  | Failed x e' => prover_failed x e'
  | Panicked => ~ (provable ss pre /\ (tot pre <= vmax)%N /\ room (xs ++ ys) (2 * (length pre - 2)) /\
      provable ss (map (fun k => (k, (id, 0%N))) (am_zeroes m (2 - length pre) id)))
  end.
Proof.
  intros O G. unfold SnModel.compute_batched. pose proof (join_loop_good id (length pre) pre [] [] e ss xs ys O G) as JG.
  destruct (join_loop (length pre) id pre [] [] e) as [[[pre' zs] ps] e1|x e1|] eqn:J; cbn [bind]; [|exact JG|].
  2: { intros (P & B & R & _). apply JG. auto. }
  destruct (join_loop_spec _ _ _ _ _ _ _ _ _ _ _ _ _ _ _ _ _ _ _ _ O J) as (p0 & z0 & q0 & EQ & L1 & L2 & _ & _ & _ & _ & TP & SM).
  cbn [app] in EQ. injection EQ as <- <- <-.
  destruct JG as (q & ss1 & E1 & G1 & V1 & P1 & N1). cbn [app] in E1. subst q.
  assert (ZS : zs = [] \/ length pre' = 2).
  { destruct (Nat.le_gt_cases (length pre) 2) as [C|C]; [left; apply SM, C|right; lia]. }
  assert (LN : 2 - length pre' = 2 - length pre) by lia.
  pose proof (prepare_final_good m id zs pre' e1 ss1 xs _ G1) as PG.
  destruct (prepare_final m id zs pre' e1) as [l e2|x e2|] eqn:PF; cbn [into_array2 bind].
  - destruct PG as [V2 LL]. rewrite (LL ZS), Nat.eqb_refl. cbn [bind]. exists ss1. split; [|auto].
    apply prepare_final_spec in PF. destruct PF as (st & jd & fk & _ & _ & _ & _ & _ & EA & _). eapply good_acc; [exact EA|exact G1].
  - destruct PG.
  - intros (P & B & R & Z). apply PG. split; [auto|]. split; [lia|]. split; [exact ZS|]. rewrite LN.
    eapply Forall_impl; [|exact Z]. cbn beta. intros c. apply P1.
Qed.

Lemma private_after_good m a addr sel e ss xs ys : of_id (fst a) (snd sel) -> Good e ss xs ys ->
  match private_after m a addr sel e with
  | Done posts e' => valid_posts (xs ++ ys) posts
  | Failed x e' => prover_failed x e'
  | Panicked => ~ (provable ss (snd sel) /\ (tot (snd sel) <= vmax)%N /\ room (xs ++ ys) (2 * (length (snd sel) - 2)) /\
      provable ss (map (fun k => (k, (fst a, 0%N))) (am_zeroes m (2 - length (snd sel)) (fst a))))
  end.
Proof.
  intros O G. unfold SnModel.private_after. pose proof (compute_batched_good m (fst a) (snd sel) e ss xs ys O G) as CG.
  destruct (compute_batched m (fst a) (snd sel) e) as [[posts senders] e1|x e1|]; cbn [bind]; auto.
  destruct CG as (ss' & G1 & V1 & V2). unfold receiver, draw, build_post. cbn [e_acc e_rng e_prf].
  destruct (prove_ok (e_prf e1)) eqn:PO; cbn [bind].
  - apply valid_posts_app; auto. cbn [SnGood.valid_posts po_senders]. split; auto. rewrite <- app_assoc. exact V2.
  - split; auto.
Qed.

(** ** Payments: the accumulator does not change. *)
Lemma process_good id accounts senders change e :
  match process_to_public id accounts senders change e with
  | Done (p, _) e' => po_senders p = senders
  | Failed x e' => prover_failed x e'
  | Panicked => (vmax < tot (map coin senders))%N
  end.
Proof.
  unfold SnModel.process_to_public. destruct (vsum 0 (values senders)) as [v|] eqn:V.
  - destruct (if (change <=? v)%N then _ else _) as [[a b] c]. unfold receiver, draw, build_post. cbn [e_acc e_prf].
    destruct (prove_ok (e_prf e)) eqn:PO; cbn [bind]; [reflexivity|]. split; auto.
  - destruct (N.lt_ge_cases vmax (tot (map coin senders))) as [|C]; auto.
    rewrite vsum_ok in V; [discriminate|]. rewrite values_amount. exact C.
Qed.
Lemma public_loop_good id accounts chunks : forall change posts e ss xs ys, Good e ss xs ys ->
  match public_loop id accounts chunks change posts e with
  | Done (_, posts') e' => exists ps, posts' = posts ++ ps /\ Forall (fun p => Forall (valid_sender (xs ++ ys)) (po_senders p)) ps /\ e_acc e' = e_acc e
  | Failed x e' => prover_failed x e'
  | Panicked => ~ (provable ss (flat2 chunks) /\ (tot (flat2 chunks) <= vmax)%N)
  end.
Proof.
  induction chunks as [|[a b] chunks IH]; intros change posts e ss xs ys G; cbn [SnModel.public_loop].
  - exists []. rewrite app_nil_r. auto.
  - change (flat2 ((a, b) :: chunks)) with ([a; b] ++ flat2 chunks).
    destruct (upgrade_all [a; b] e) as [sd|] eqn:U.
    2: { intros [P _]. apply Forall_app in P. destruct (upgrade_some e ss xs ys [a; b] G (proj1 P)) as (y & Q). congruence. }
    pose proof (upgrade_all_coin _ _ _ _ _ _ _ _ _ _ _ _ _ U) as UC.
    pose proof (upgrade_all_good e ss xs ys [a; b] G sd U) as UV.
    pose proof (process_good id accounts sd change e) as PG. pose proof (process_acc ident prove_ok id accounts sd change e) as PA.
    destruct (process_to_public id accounts sd change e) as [[p c] e1|x e1|]; cbn [bind fst snd leaves] in *; auto.
    + assert (G1 : Good e1 ss xs ys) by (eapply good_acc; [exact PA|exact G]).
      specialize (IH c (posts ++ [p]) e1 ss xs ys G1). destruct (public_loop _ _ _ _ _ e1) as [[c' ps'] e'|x e'|]; auto.
      * destruct IH as (ps & -> & V & A). exists (p :: ps). rewrite <- app_assoc. split; [reflexivity|]. split; [constructor; auto; congruence|].
        unfold same_acc in PA. congruence.
      * intros [P B]. apply IH. apply Forall_app in P. rewrite tot_app in B. split; [apply P|lia].
    + intros [_ B]. rewrite tot_app, <- UC in B. lia.
Qed.
Lemma compute_to_public_good m id accounts change pre e ss xs ys : Good e ss xs ys ->
  match compute_to_public m id accounts change pre e with
  | Done posts e' => Forall (fun p => Forall (valid_sender (xs ++ ys)) (po_senders p)) posts
  | Failed x e' => prover_failed x e'
  | Panicked => ~ (provable ss pre /\ (tot pre <= vmax)%N /\
      provable ss (map (fun k => (k, (id, 0%N))) (am_zeroes m 1 id)))
  end.
Proof.
  intros G. unfold SnModel.compute_to_public. destruct (chunk2 pre) as [cs rm] eqn:CH.
  destruct (chunk2_spec (length pre) pre (le_n _) _ _ CH) as (F & L1 & L2).
  pose proof (public_loop_good id accounts cs change [] e ss xs ys G) as LG.
  destruct (public_loop id accounts cs change [] e) as [[c ps] e1|x e1|]; cbn [bind]; auto.
  2: { intros (P & B & _). apply LG. rewrite <- F in P, B. apply Forall_app in P. rewrite tot_app in B. split; [apply P|lia]. }
  destruct LG as (q & EQ & V & A). cbn [app] in EQ. subst q. destruct rm as [|x0 [|]]; auto.
  2: { exfalso. cbn [length] in L2. pose proof (Nat.mod_upper_bound (length pre) 2 ltac:(lia)). lia. }
  assert (G1 : Good e1 ss xs ys) by (eapply good_acc; [exact A|exact G]).
  pose proof (prepare_final_good m id [] [x0] e1 ss xs ys G1) as PG.
  destruct (prepare_final m id [] [x0] e1) as [l e2|x e2|] eqn:PF; cbn [into_array2 bind].
  - destruct PG as [V2 LL]. rewrite (LL (or_introl eq_refl)), Nat.eqb_refl. cbn [bind].
    pose proof (process_good id accounts l c e2) as QG.
    destruct (process_to_public id accounts l c e2) as [[p c2] e3|x e3|]; cbn [bind fst]; auto.
    + apply Forall_app. split; auto. constructor; auto. rewrite QG. exact V2.
    + intros (_ & B & _). apply prepare_final_spec in PF. destruct PF as (st & jd & fk & CL & _ & (n & JD) & FZ & _).
      rewrite firstn_nil in JD. subst jd. rewrite CL in QG. cbn [app] in QG.
      change (x0 :: ?r) with ([x0] ++ r) in QG. rewrite tot_app in QG.
      assert (T0 : tot (map (fun k => (k, (id, 0%N))) st ++ map coin fk) = 0%N).
      { apply (tot_zeroes id). apply Forall_app. split; [apply zeroes_of_id|exact FZ]. }
      rewrite T0 in QG. rewrite <- F, tot_app in B. lia.
  - destruct PG.
  - intros (P & B & Z). apply PG. rewrite <- F in P. apply Forall_app in P. split; [apply P|]. split; [cbn; lia|]. split; [auto|exact Z].
Qed.
End Good.
