(** The posts of a signer: what the ledger has to know of them. *)
From Coq Require Import List Arith NArith Bool Lia Permutation Sorted.
From Verif Require Import MtModel MtSpec PtModel PtSpec FoSpec FoInv AssetModel AssetSpec AssetLemmas AssetSelect AssetMap AssetProps CkModel CkSpec SgModel SgSpec SgAcc SgSync SgInv SgProps
  SnModel SnSpec SnJoin SnAcc SnGood SnProps EeKeys EePush EeFlow.
Import ListNotations.
Open Scope nat_scope.
Notation recv := CkModel.recv (only parsing).

Lemma zeroes_nodup m n id : am_ok m -> NoDup (map (fun k => (k, (id, 0%N))) (am_zeroes m n id)).
Proof.
  intros [S _]. assert (NK : NoDup (map fst m)).
  { clear - S. induction S as [|x l S IH F]; [constructor|]. cbn [map]. constructor; [|exact IH]. intro I. apply in_map_iff in I.
    destruct I as (y & E & I). rewrite Forall_forall in F. specialize (F y I). unfold klt in F. rewrite E in F. lia. }
  unfold am_zeroes. apply (nodup_map_incl (fun k => (k, (id, 0%N))) (map fst m)).
  - apply FinFun.Injective_map_NoDup; [|exact NK]. intros a b E. congruence.
  - intros k I. assert (J : In k (map fst (filter (fun e : N * list asset => existsb (fun a => (fst a =? id)%N && (snd a =? 0)%N) (snd e)) m))).
    { rewrite <- (firstn_skipn n). apply in_or_app. left. exact I. }
    apply in_map_iff in J. destruct J as (e & <- & J). apply filter_In in J. apply in_map. apply J.
  - assert (NF : NoDup (map fst (filter (fun e : N * list asset => existsb (fun a => (fst a =? id)%N && (snd a =? 0)%N) (snd e)) m))).
    { clear - NK. induction m as [|x m IH]; [constructor|]. cbn [map] in NK. inversion NK as [|? ? N1 N2]; subst. cbn [filter].
      destruct (existsb _ _); [|apply IH; exact N2]. cbn [map]. constructor; [|apply IH; exact N2]. intro I. apply N1. apply in_map_iff in I.
      destruct I as (e & <- & I). apply filter_In in I. apply in_map. apply I. }
    assert (G : forall l : list N, NoDup l -> NoDup (firstn n l)).
    { clear. intros l NF. rewrite <- (firstn_skipn n l) in NF. apply nodup_app_parts in NF. apply NF. }
    apply G. exact NF.
Qed.

Lemma base_nodup m n id cs : am_ok m -> NoDup cs -> Forall (fun c => snd (snd c) <> 0%N) cs \/ n = 0 ->
  NoDup (cs ++ map (fun k => (k, (id, 0%N))) (am_zeroes m n id)).
Proof.
  intros O N Z. apply nodup_app; [exact N|apply zeroes_nodup; exact O|]. intros c I J. destruct Z as [Z| ->].
  - rewrite Forall_forall in Z. apply (Z c I). apply in_map_iff in J. destruct J as (k & <- & _). reflexivity.
  - unfold am_zeroes in J. cbn [firstn map] in J. destruct J.
Qed.
Lemma base_incl m n id cs : incl cs (am_asset_vector m) -> incl (cs ++ map (fun k => (k, (id, 0%N))) (am_zeroes m n id)) (am_asset_vector m).
Proof.
  intros I c J. apply in_app_or in J. destruct J as [J|J]; [apply I; exact J|]. apply in_map_iff in J. destruct J as (k & <- & J). eapply zeroes_stored. exact J.
Qed.

Lemma amount_total id l : all_of id l -> amount l = total l id.
Proof. intro A. rewrite (total_all_of id id l A), N.eqb_refl. reflexivity. Qed.
Lemma total_within (l m : list (N * asset)) id : NoDup l -> incl l m -> (total (map snd l) id <= total (map snd m) id)%N.
Proof.
  intros ND. revert m. induction ND as [|x l N1 _ IH]; intros m I; [apply N.le_0_l|].
  destruct (in_split x m (I x (or_introl eq_refl))) as (m1 & m2 & ->).
  assert (J : incl l (m1 ++ m2)).
  { intros y Y. specialize (I y (or_intror Y)). rewrite in_app_iff in *. destruct I as [I|[<-|I]]; [left; exact I|contradiction|right; exact I]. }
  specialize (IH _ J). cbn [map]. rewrite map_app in *. cbn [map]. rewrite total_app in *. rewrite !total_cons. lia.
Qed.
Lemma stored_amount m id cs : stored_coins m id cs -> (amount (map snd cs) <= worth m id)%N.
Proof.
  intros (O & N & I). rewrite (amount_total id). { apply total_within; assumption. } unfold all_of. rewrite Forall_map. exact O.
Qed.

Section Sign.
Context {LD ID IT UT NT NF : Type}.
Variable dl : LD.
Variable di : ID.
Variable join : ID -> ID -> ID.
Variable joinl : LD -> LD -> ID.
Variable ldeqb : LD -> LD -> bool.
Variable ideqb : ID -> ID -> bool.
Variable H : nat.
Variable chk : bool.
Variable dg : IT -> LD.
Variable sh : IT -> nat.
Variable open_note : UT -> NT -> option (N * asset).
Variable item : UT -> IT.
Variable spend_item : N -> asset -> IT.
Variable spend_null : N -> asset -> NF.
Variable nfeqb : NF -> NF -> bool.
Variable can_open : NF -> bool.
Variable ident : nat -> N.
Variable prove_ok : nat -> bool.
Variable utxo_of : option N -> N -> asset -> UT.
Hypothesis HH : 3 <= H.
Hypothesis ldeqb_spec : forall a b, ldeqb a b = true <-> a = b.
Hypothesis ideqb_spec : forall a b, ideqb a b = true <-> a = b.
Hypothesis nfeqb_spec : forall a b, nfeqb a b = true <-> a = b.
Hypothesis join_nd : forall a b, join a b <> di.
Hypothesis joinl_nd : forall a b, joinl a b <> di.
Hypothesis own_item : forall k a, item (utxo_of None k a) = spend_item k a.
Variable L : ledger UT NT NF.
Notation w := (length (l_notes L)).
Notation nsh := (note_sh (NT := NT) sh item).
Hypothesis LOK : ledger_ok open_note spend_null nsh dg item spend_item can_open L.
Hypothesis CAP : forall i, length (l_shard L i) <= 2 ^ (H - 1).
Hypothesis sh_lt : forall x, sh x < w.

Notation synced := (synced dl di join joinl ldeqb ideqb H chk dg sh open_note item spend_item spend_null nfeqb can_open L).
Notation signer := (signer (LD := LD) (ID := ID) (NF := NF)).
Notation post := (@post LD ID).
Notation sign := (signer_sign dl di join joinl ldeqb ideqb H chk dg sh spend_item ident prove_ok).
Notation consolidate := (signer_consolidate dl di join joinl ldeqb ideqb H chk dg sh spend_item ident prove_ok).
Notation valid_sender := (valid_sender dl di join joinl ideqb dg sh H spend_item).
Notation valid_posts := (valid_posts dl di join joinl ideqb dg sh H spend_item).
Notation valid_all := (valid_all dl di join joinl ideqb H item dg sh spend_item utxo_of).
Notation vec := am_asset_vector.
Notation seen_items := (seen_items (LD := LD) (ID := ID) item L).
Notation out_utxo := (out_utxo utxo_of).

(** What the ledger has to know of posts made from the signer [s], apart from the account. *)
Record sendable (s : signer) (rng : nat) (ps : list post) : Prop := {
  se_spends : spends ident (vec (s_assets s)) rng ps;
  se_conserves : Forall (fun p => exists id, conserves id p) ps;
  se_valid : valid_all (seen_items s) ps;
  se_small : (forall id, (worth (s_assets s) id <= vmax)%N) -> Forall small ps }.

(** Posts whose receivers are the signer make the items that the signer expects. *)
Definition own (p : post) : Prop := Forall (fun r => rc_to r = None) (po_receivers p).
Lemma own_minted p : own p -> minted item utxo_of p = map (item_of spend_item) (made p).
Proof.
  unfold own, minted, made. induction 1 as [|r l E _ IH]; [reflexivity|]. cbn [map flat_map]. rewrite map_app, IH, E. cbn [map app].
  unfold EePush.out_utxo, item_of. rewrite E, own_item. reflexivity.
Qed.
Lemma valid_own js : forall f xs, Forall own js -> valid_posts xs (js ++ [f]) -> valid_all xs (js ++ [f]).
Proof.
  induction js as [|p js IH]; intros f xs F V; cbn [app EePush.valid_all SnGood.valid_posts] in *.
  - split; [apply V|exact Logic.I].
  - inversion F as [|? ? F1 F2]; subst. destruct V as [V1 V2]. split; [exact V1|]. apply IH; [exact F2|]. rewrite (own_minted p F1). exact V2.
Qed.

(** No post makes an item in the shard of an item that a later post spends with a proof. *)
Fixpoint apart (ps : list post) : Prop :=
  match ps with
  | [] => True
  | p :: r => (forall q c x, In q r -> In c (po_receivers p) -> In x (po_senders q) -> sd_proof x <> None ->
                 sh (item (out_utxo c)) <> sh (spend_item (sd_key x) (sd_asset x))) /\ apart r
  end.
Lemma valid_apart ps : forall xs, apart ps -> Forall (fun p => Forall (valid_sender xs) (po_senders p)) ps -> valid_all xs ps.
Proof.
  induction ps as [|p ps IH]; intros xs A F; cbn [EePush.valid_all]; [exact Logic.I|]. destruct A as [A1 A2]. inversion F as [|? ? F1 F2]; subst.
  split; [exact F1|]. apply IH; [exact A2|]. rewrite Forall_forall in *. intros q J. specialize (F2 q J). rewrite Forall_forall in *. intros x K. specialize (F2 x K).
  unfold SnGood.valid_sender in *. destruct (sd_proof x) as [[pf r]|] eqn:P; [|exact F2]. cbv zeta in *. destruct F2 as [F2 F3]. split; [|exact F3].
  rewrite F2. f_equal. f_equal. rewrite (shard_items_app dg sh). rewrite <- (app_nil_r (shard_items dg sh _ xs)) at 1. f_equal.
  unfold shard_items. symmetry. apply (f_equal (map dg) (y := [])). unfold minted.
  assert (Z : forall c, In c (po_receivers p) -> sh (item (out_utxo c)) <> sh (item_of spend_item (coin x))).
  { intros c C. unfold item_of, coin. cbn [fst snd]. apply (A1 q c x J C K). rewrite P. discriminate. }
  clear - Z. induction (po_receivers p) as [|c l IHl]; [reflexivity|]. cbn [map filter].
  destruct (Nat.eqb_spec (sh (item (out_utxo c))) (sh (item_of spend_item (coin x)))) as [E|_].
  - exfalso. apply (Z c); [left; reflexivity|exact E].
  - apply IHl. intros d D. apply Z. right. exact D.
Qed.

Lemma batched_forms a addr change cs (posts : list post) : batched a addr change cs posts ->
  (forall account, Forall (form account) posts) /\ Forall (fun p => exists id, conserves id p) posts /\
  exists js f, posts = js ++ [f] /\ Forall own js /\
  (forall r, In r (flat_map po_receivers posts) -> rc_to r = None \/ rc_to r = addr) /\
  given_away posts = match addr with Some _ => [a] | None => [] end /\ flat_map po_sources posts = [] /\ flat_map po_sinks posts = [].
Proof.
  intros (js & f & pads & -> & J & T & C & _). split; [|split].
  - intro account. apply Forall_app. split.
    + eapply Forall_impl; [|exact J]. intros p (_ & A & B & D & s1 & s2 & k1 & k2 & S0 & R). left. rewrite A, B, D, S0, R. repeat split.
    + constructor; [|constructor]. destruct T as (_ & A & B & D & S0 & k1 & k2 & R). left. rewrite A, B, D, S0, R. repeat split.
  - eapply Forall_impl; [|exact C]. intros p Q. eauto.
  - exists js, f. split; [reflexivity|]. split.
    + eapply Forall_impl; [|exact J]. intros p (_ & _ & _ & _ & s1 & s2 & k1 & k2 & _ & R). unfold own. rewrite R. repeat constructor.
    + split; [|split; [|split]].
      2: { unfold given_away. rewrite flat_map_app, flat_map_app. assert (Z : flat_map (fun r => match rc_to r with None => [] | Some _ => [rc_asset r] end) (flat_map po_receivers js) = []).
           { clear - J. induction J as [|p js (_ & _ & _ & _ & s1 & s2 & k1 & k2 & _ & R) _ IH]; [reflexivity|]. cbn [flat_map]. rewrite flat_map_app, IH, R. reflexivity. }
           rewrite Z. cbn [flat_map]. rewrite app_nil_r. destruct T as (_ & _ & _ & _ & _ & k1 & k2 & R). rewrite R. cbn [flat_map rc_to rc_asset app]. destruct addr; reflexivity. }
      2: { rewrite flat_map_app. cbn [flat_map]. rewrite app_nil_r, (proj1 (proj2 T)), app_nil_r. clear - J. induction J as [|p js (_ & R & _) _ IH]; [reflexivity|]. cbn [flat_map]. rewrite R, IH. reflexivity. }
      2: { rewrite flat_map_app. cbn [flat_map]. rewrite app_nil_r, (proj1 (proj2 (proj2 T))), app_nil_r. clear - J. induction J as [|p js (_ & _ & R & _) _ IH]; [reflexivity|]. cbn [flat_map]. rewrite R, IH. reflexivity. }
      intros r I. rewrite flat_map_app in I. apply in_app_or in I. destruct I as [I|I].
      * left. apply in_flat_map in I. destruct I as (p & P & I). rewrite Forall_forall in J. destruct (J p P) as (_ & _ & _ & _ & s1 & s2 & k1 & k2 & _ & R).
        rewrite R in I. destruct I as [<-|[<-|[]]]; reflexivity.
      * destruct T as (_ & _ & _ & _ & _ & k1 & k2 & R). cbn [flat_map] in I. rewrite app_nil_r, R in I. destruct I as [<-|[<-|[]]]; [left|right]; reflexivity.
Qed.

Lemma own_keeps (ps : list post) : (forall r, In r (flat_map po_receivers ps) -> rc_to r = None) -> given_away ps = [].
Proof.
  unfold given_away. induction (flat_map po_receivers ps) as [|r l IH]; intro F; [reflexivity|]. cbn [flat_map].
  rewrite (F r (or_introl eq_refl)). apply IH. intros q J. apply F. right. exact J.
Qed.

Lemma zero_fakes id (l : list (N * asset)) : Forall (is_zero id) l -> Forall (fun c => snd (snd c) = 0%N) l.
Proof. intro F. eapply Forall_impl; [|exact F]. intros [k c] E. unfold is_zero in E. cbn [snd] in *. rewrite E. reflexivity. Qed.

Lemma transfer_facts s accounts auth a addr rng prf s' posts : synced s ->
  sign accounts auth s (PrivateTransfer a addr) rng prf = Some (s', inl posts) ->
  sendable s rng posts /\ (forall account, Forall (form account) posts) /\
  (forall r, In r (flat_map po_receivers posts) -> rc_to r = None \/ rc_to r = Some addr) /\
  given_away posts = [a] /\ flat_map po_sources posts = [] /\ flat_map po_sinks posts = [].
Proof.
  intros Y E. destruct (c16_transfer dl di join joinl ldeqb ideqb H chk dg sh open_note item spend_item spend_null nfeqb can_open ident prove_ok
    HH ldeqb_spec ideqb_spec nfeqb_spec join_nd joinl_nd L LOK CAP sh_lt s accounts auth a addr rng prf s' posts Y E) as (_ & _ & _ & _ & _ & _ & V).
  unfold signer_sign, on_signer in E.
  destruct (SnModel.sign _ _ _ _ _ _ _ _ _ _ _ _ _ _ _ _ _ _) as [ps e|y e|] eqn:SG; try discriminate. injection E as _ <-.
  apply then_rollback_done in SG. destruct SG as (e1 & SG). cbn [SnModel.sign_internal] in SG. destruct accounts; [|discriminate].
  unfold withdraw_private in SG. pose proof (select_acc (s_assets s) a (mk_eff (s_acc s) rng prf)) as Q.
  destruct (select _ _ _) as [[c pre] e2|y e2|]; cbn [bind] in SG; try discriminate.
  destruct Q as (-> & vs & SE & -> & Z). fold (as_coins (fst a) vs) in SG.
  destruct (synced_good dl di join joinl ldeqb ideqb H chk dg sh open_note item spend_item spend_null nfeqb can_open ident prove_ok
    HH ldeqb_spec ideqb_spec nfeqb_spec join_nd joinl_nd L LOK CAP sh_lt s rng prf Y) as (_ & _ & _ & _ & _ & AO).
  destruct (select_coins _ _ _ _ AO SE Z) as (SC & T & NZ).
  pose proof (private_after_spec dl di join joinl ldeqb ideqb H chk dg sh spend_item ident prove_ok HH ldeqb_spec ideqb_spec join_nd joinl_nd L CAP _ _ _ _ _ _ _ _ (proj1 SC) T SG) as B.
  destruct (batched_forms _ _ _ _ _ B) as (B1 & B2 & js & f & EQ & B3 & B4 & B5).
  destruct (private_after_keys dl di join joinl ldeqb H chk dg sh spend_item ident prove_ok _ _ _ _ _ _ _ _ (proj1 SC) SG) as ((n & D & _) & joined & P & SJ & ZF & SM).
  split; [|split; [exact B1|split; [exact B4|exact B5]]]. constructor.
  - exists (as_coins (fst a) vs ++ map (fun k => (k, (fst a, 0%N))) (am_zeroes (s_assets s) (2 - length (as_coins (fst a) vs)) (fst a))), joined, n.
    split; [exact P|]. split; [apply base_nodup; [exact AO|apply SC|left; exact NZ]|]. split; [apply base_incl; apply SC|].
    split; [exact SJ|]. split; [eapply zero_fakes; exact ZF|exact D].
  - exact B2.
  - rewrite EQ in *. apply valid_own; assumption.
  - intro W. pose proof (stored_amount _ _ _ SC) as ST. specialize (W (fst a)). unfold tot in T.
    assert (B0 : (snd a + c <= vmax)%N) by (etransitivity; [rewrite <- T; exact ST|exact W]). apply SM; clear - B0; lia.
Qed.

Lemma consolidation_facts s accounts l rng prf s' posts : synced s ->
  consolidate accounts s l rng prf = Some (s', inl posts) ->
  sendable s rng posts /\ (forall account, Forall (form account) posts) /\
  (forall r, In r (flat_map po_receivers posts) -> rc_to r = None) /\ flat_map po_sources posts = [] /\ flat_map po_sinks posts = [].
Proof.
  intros Y E. destruct (c16_consolidation dl di join joinl ldeqb ideqb H chk dg sh open_note item spend_item spend_null nfeqb can_open ident prove_ok
    HH ldeqb_spec ideqb_spec nfeqb_spec join_nd joinl_nd L LOK CAP sh_lt s accounts l rng prf s' posts Y E) as (id & LL & SC & B & V).
  destruct (synced_good dl di join joinl ldeqb ideqb H chk dg sh open_note item spend_item spend_null nfeqb can_open ident prove_ok
    HH ldeqb_spec ideqb_spec nfeqb_spec join_nd joinl_nd L LOK CAP sh_lt s rng prf Y) as (_ & _ & _ & _ & _ & AO).
  destruct (batched_forms _ _ _ _ _ B) as (B1 & B2 & js & f & EQ & B3 & B4 & B5).
  unfold signer_consolidate, on_signer in E.
  destruct (SnModel.consolidate _ _ _ _ _ _ _ _ _ _ _ _ _ _ _ _ _) as [ps e|y e|] eqn:SG; try discriminate. injection E as _ <-.
  unfold SnModel.consolidate in SG. destruct accounts; [|discriminate]. destruct (cr_new l) as [r|] eqn:CN; [|discriminate].
  assert (r = l). { unfold cr_new in CN. destruct l as [|? [|? ?]]; try discriminate. destruct (existsb _ _); [discriminate|]. injection CN as <-. reflexivity. }
  subst r. apply then_rollback_done in SG. destruct SG as (e1 & SG). unfold consolidate_internal in SG.
  destruct (cr_asset l) as [a|] eqn:CA; [|discriminate]. unfold custom_select in SG.
  destruct (cr_check l (s_assets s)) eqn:CC; cbn [negb bind] in SG; [|discriminate].
  destruct (cr_id l) as [id'|] eqn:CI; [|discriminate]. unfold cr_select in SG. cbn [bind] in SG.
  fold (as_coins id' (map (fun c : N * (N * N) => (fst c, snd (snd c))) l)) in SG.
  assert (id' = id) as ->.
  { destruct l as [|c0 l]; [discriminate|]. cbn in CI. injection CI as <-. destruct SC as (O & _). inversion O; subst. reflexivity. }
  rewrite as_coins_self in SG by (apply Forall_forall; apply SC).
  assert (FA : fst a = id). { unfold cr_asset in CA. rewrite CI in CA. destruct (vsum _ _); [|discriminate]. injection CA as <-. reflexivity. }
  assert (SA : snd a = amount (map snd l)).
  { unfold cr_asset in CA. rewrite CI in CA. destruct (vsum 0 _) as [v|] eqn:VS; [|discriminate]. injection CA as <-. apply SnJoin.vsum_spec in VS. cbn [snd].
    rewrite VS. cbn [N.add]. clear. unfold amount. induction l as [|[k [i x]] l IH]; cbn [map fold_right snd]; auto. rewrite IH. reflexivity. }
  rewrite <- FA in SC.
  destruct (private_after_keys dl di join joinl ldeqb H chk dg sh spend_item ident prove_ok _ _ _ _ _ _ _ _ (proj1 SC) SG) as ((n & D & _) & joined & P & SJ & ZF & SM).
  split; [|split; [exact B1|]].
  2: { split; [intros r I; destruct (B4 r I); assumption|apply B5]. }
  constructor.
  - exists (l ++ map (fun k => (k, (fst a, 0%N))) (am_zeroes (s_assets s) (2 - length l) (fst a))), joined, n.
    split; [exact P|]. split; [apply base_nodup; [exact AO|apply SC|right; clear - LL; lia]|]. split; [apply base_incl; apply SC|].
    split; [exact SJ|]. split; [eapply zero_fakes; exact ZF|exact D].
  - exact B2.
  - rewrite EQ in *. apply valid_own; assumption.
  - intro W. apply SM; [|apply zero_small]. rewrite SA. etransitivity; [apply stored_amount; exact SC|apply W].
Qed.

Lemma payment_facts s accounts auth a account rng prf s' posts : synced s ->
  sign accounts auth s (ToPublic a account) rng prf = Some (s', inl posts) -> apart posts ->
  sendable s rng posts /\ Forall (form account) posts /\
  (forall r, In r (flat_map po_receivers posts) -> rc_to r = None) /\ flat_map po_sources posts = [] /\
  all_of (fst a) (flat_map po_sinks posts) /\ amount (flat_map po_sinks posts) = snd a.
Proof.
  intros Y E AP. destruct (c17_payment dl di join joinl ldeqb ideqb H chk dg sh open_note item spend_item spend_null nfeqb can_open ident prove_ok
    HH ldeqb_spec ideqb_spec nfeqb_spec join_nd joinl_nd L LOK CAP sh_lt s accounts auth a account rng prf s' posts Y E) as (_ & _ & _ & _ & _ & _ & IP & CO & SK & _ & _ & _ & _ & _ & V).
  unfold signer_sign, on_signer in E.
  destruct (SnModel.sign _ _ _ _ _ _ _ _ _ _ _ _ _ _ _ _ _ _) as [ps e|y e|] eqn:SG; try discriminate. injection E as _ <-.
  apply then_rollback_done in SG. destruct SG as (e1 & SG). cbn [SnModel.sign_internal] in SG. destruct accounts; [|discriminate].
  unfold withdraw_public in SG. pose proof (select_acc (s_assets s) a (mk_eff (s_acc s) rng prf)) as Q.
  destruct (select _ _ _) as [[c pre] e2|y e2|]; cbn [bind fst snd] in SG; try discriminate.
  destruct Q as (-> & vs & SE & -> & Z). fold (as_coins (fst a) vs) in SG.
  destruct (synced_good dl di join joinl ldeqb ideqb H chk dg sh open_note item spend_item spend_null nfeqb can_open ident prove_ok
    HH ldeqb_spec ideqb_spec nfeqb_spec join_nd joinl_nd L LOK CAP sh_lt s rng prf Y) as (_ & _ & _ & _ & _ & AO).
  destruct (select_coins _ _ _ _ AO SE Z) as (SC & T & NZ).
  destruct (compute_to_public_keys dl di join joinl ldeqb H chk dg sh spend_item ident prove_ok _ _ _ _ _ _ _ _ (proj1 SC) SG) as ((n & D & _) & P & ZF & SM).
  split; [|split; [|split; [|split; [|split]]]].
  - constructor.
    + exists (as_coins (fst a) vs ++ map (fun k => (k, (fst a, 0%N))) (am_zeroes (s_assets s) (length (as_coins (fst a) vs) mod 2) (fst a))), [], n.
      split; [exact P|]. split; [apply base_nodup; [exact AO|apply SC|left; exact NZ]|]. split; [apply base_incl; apply SC|].
      split; [apply sublist_nil|]. split; [eapply zero_fakes; exact ZF|exact D].
    + eapply Forall_impl; [|exact CO]. intros p Q. eauto.
    + apply valid_apart; assumption.
    + intros _. exact SM.
  - eapply Forall_impl; [|exact IP]. intros p (_ & A & B & S0 & k & r & v & R & K). right. left. rewrite A, B, S0, R, K. repeat split. eauto.
  - intros r I. apply in_flat_map in I. destruct I as (p & PI & I). rewrite Forall_forall in IP. destruct (IP p PI) as (_ & _ & _ & _ & k & r' & v & R & _).
    rewrite R in I. destruct I as [<-|[]]. reflexivity.
  - clear - IP. induction IP as [|p ps (_ & A & _) _ IH]; [reflexivity|]. cbn [flat_map]. rewrite A, IH. reflexivity.
  - clear - IP. induction IP as [|p ps (_ & _ & _ & _ & k & r & v & _ & K) _ IH]; [constructor|]. cbn [flat_map]. unfold all_of in *. apply Forall_app. split; [|exact IH].
    rewrite K. repeat constructor.
  - exact SK.
Qed.

Lemma deposit_facts s accounts auth a rng prf s' posts :
  sign accounts auth s (ToPrivate a) rng prf = Some (s', inl posts) -> (snd a <= vmax)%N ->
  sendable s rng posts /\ (forall account, Forall (form account) posts) /\
  (forall r, In r (flat_map po_receivers posts) -> rc_to r = None) /\ flat_map po_sources posts = [a] /\ length posts = 1 /\ flat_map po_sinks posts = [].
Proof.
  intros E B. unfold signer_sign, on_signer in E.
  destruct (SnModel.sign _ _ _ _ _ _ _ _ _ _ _ _ _ _ _ _ _ _) as [ps e|y e|] eqn:SG; try discriminate. injection E as _ <-.
  apply then_rollback_done in SG. destruct SG as (e1 & SG). cbn [SnModel.sign_internal] in SG. destruct auth; [|discriminate].
  unfold receiver, draw, build_post in SG. cbn [e_acc e_rng e_prf] in SG. destruct (prove_ok prf); cbn [bind] in SG; [|discriminate].
  injection SG as <- _. split; [|split; [|split; [|split; [|split]]]].
  - constructor.
    + exists [], [], 1. split; [constructor|]. split; [constructor|]. split; [intros c []|]. split; [apply sublist_nil|]. split; [constructor|reflexivity].
    + repeat constructor. exists (fst a). unfold conserves, ins, outs. cbn [po_senders po_sources po_receivers po_sinks map app rc_asset]. repeat constructor.
    + cbn. auto.
    + intros _. repeat constructor. exact B.
  - intro account. constructor; [|constructor]. right. right. cbn. repeat split. eauto.
  - intros r [<-|[]]. reflexivity.
  - reflexivity.
  - reflexivity.
  - reflexivity.
Qed.
End Sign.
