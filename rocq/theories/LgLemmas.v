(** Validation of a post. *)
From Coq Require Import List Arith NArith Bool Lia.
From Verif Require Import MtModel MtSpec CkModel CkSpec LgModel LgSpec.
Import ListNotations.
Open Scope nat_scope.

Lemma collect_ok {A B} (f : A -> lres B) l ys : collect f l = ROk ys <-> Forall2 (fun x y => f x = ROk y) l ys.
Proof.
  revert ys. induction l as [|x l IH]; intro ys; cbn [collect].
  - split; intro E; [injection E as <-; constructor|]. inversion E. reflexivity.
  - destruct (f x) as [y| |] eqn:Ef.
    + destruct (collect f l) as [ys'| |] eqn:E.
      * split; intro E'.
        -- injection E' as <-. constructor; [exact Ef|]. apply IH. reflexivity.
        -- inversion E' as [|? y0 ? l' F1 F2]; subst. rewrite F1 in Ef. injection Ef as ->.
           apply IH in F2. injection F2 as ->. reflexivity.
      * split; intro E'; [discriminate|]. inversion E' as [|? y0 ? l' F1 F2]; subst.
        apply IH in F2. discriminate.
      * split; intro E'; [discriminate|]. inversion E' as [|? y0 ? l' F1 F2]; subst.
        apply IH in F2. discriminate.
    + split; intro E'; [discriminate|]. inversion E'; congruence.
    + split; intro E'; [discriminate|]. inversion E'; congruence.
Qed.

(** A check that returns its argument. *)
Lemma collect_same {A} (f : A -> lres A) (P : A -> Prop) l :
  (forall x y, f x = ROk y <-> y = x /\ P x) ->
  forall ys, collect f l = ROk ys <-> ys = l /\ Forall P l.
Proof.
  intros HF ys. rewrite collect_ok. revert ys. induction l as [|x l IH]; intro ys.
  - split; [intro F; inversion F; auto|]. intros [-> _]. constructor.
  - split.
    + intro F. inversion F as [|? y ? ys' F1 F2]; subst. apply HF in F1. destruct F1 as [-> Px].
      apply IH in F2. destruct F2 as [-> Pl]. auto.
    + intros [-> Pl]. inversion Pl; subst. constructor; [apply HF; auto|]. apply IH. auto.
Qed.

Lemma collect_no_panic {A B} (f : A -> lres B) l :
  (forall x, f x <> RPanic) -> collect f l <> RPanic.
Proof.
  intro HF. induction l as [|x l IH]; cbn [collect]; [discriminate|].
  pose proof (HF x). destruct (f x); try congruence. destruct (collect f l); congruence.
Qed.

Lemma all_unequal_nodup {T K} (f : T -> K) (keqb : K -> K -> bool) l :
  (forall a b, keqb a b = true <-> a = b) ->
  (all_unequal (fun x y => keqb (f x) (f y)) l = true <-> NoDup (map f l)).
Proof.
  intro HK. induction l as [|x l IH]; cbn [all_unequal map].
  - split; [constructor|reflexivity].
  - destruct (existsb (fun y => keqb (f x) (f y)) l) eqn:E.
    + split; [discriminate|]. intro N. inversion N as [|? ? N1 N2]; subst. exfalso. apply N1.
      apply existsb_exists in E. destruct E as (y & I & E). apply HK in E. rewrite E. apply in_map. exact I.
    + rewrite IH. split.
      * intro N. constructor; [|exact N]. intro I. apply in_map_iff in I. destruct I as (y & E' & I).
        assert (existsb (fun y => keqb (f x) (f y)) l = true); [|congruence].
        apply existsb_exists. exists y. split; [exact I|]. apply HK. auto.
      * intro N. inversion N; auto.
Qed.

Lemma mget_in {V} (m : list (N * V)) k v : mget m k = Some v -> In (k, v) m.
Proof.
  induction m as [|[k' v'] m IH]; cbn [mget]; [discriminate|].
  destruct (N.eqb_spec k' k) as [->|]; intro E; [injection E as ->; left; reflexivity|right; auto].
Qed.

Lemma in_mget {V} (m : list (N * V)) k v : In (k, v) m -> exists v', mget m k = Some v'.
Proof.
  induction m as [|[k' v'] m IH]; intro I; [destruct I|]. cbn [mget].
  destruct (N.eqb_spec k' k) as [->|]; [eauto|]. destruct I as [I|I]; [congruence|auto].
Qed.

Lemma select_shape_iff a b s1 s2 s3 s4 :
  a = requires_authorization s2 -> b = has_public_participants s1 s4 ->
  ((exists s, select_shape a b s1 s2 s3 s4 = Some s) <-> canonical s1 s2 s3 s4).
Proof.
  intros -> ->. unfold canonical, requires_authorization, has_public_participants. split.
  - intros (s & E).
    destruct s1 as [|[|s1]], s2 as [|[|[|s2]]], s3 as [|[|[|s3]]], s4 as [|[|s4]]; cbn in E;
      try discriminate; auto 10.
  - intros [(-> & -> & -> & ->)|[(-> & -> & -> & ->)|(-> & -> & -> & ->)]]; cbn; eauto.
Qed.

Section Validate.
Context {CM ON UT NT IN LD ID KEY SG PRF : Type}.
Variable ideqb : ID -> ID -> bool.
Variable comeqb : CM -> CM -> bool.
Variable uteqb : UT -> UT -> bool.
Variable probe : list (fnull CM ON) -> fnull CM ON -> fnull CM ON -> bool.
Variable dout : ID.
Variable incoming : NT -> IN.
Variable verify_sig : KEY -> SG -> body CM ON UT NT ID PRF -> list N -> bool.
Variable verify : tshape -> list (pin CM UT IN ID KEY) -> PRF -> option bool.
Hypothesis ID_spec : forall a b, ideqb a b = true <-> a = b.
Hypothesis CM_spec : forall a b, comeqb a b = true <-> a = b.
Hypothesis UT_spec : forall a b, uteqb a b = true <-> a = b.

Notation lg := (ledger CM ON UT NT LD ID).
Notation pst := (post CM ON UT NT ID KEY SG PRF).
Notation vld := (validate ideqb comeqb uteqb probe dout incoming verify_sig verify).

(** No nullifier that the lookup compares with has the same commitment. *)
Definition unspent_for (L : lg) (x : fnull CM ON) : Prop :=
  forall y, In y (g_nulls L) -> fn_com y = fn_com x -> probe (g_nulls L) x y = false.

Lemma null_contains_false (s : list (fnull CM ON)) x :
  null_contains comeqb probe s x = false <->
  (forall y, In y s -> fn_com y = fn_com x -> probe s x y = false).
Proof.
  unfold null_contains. split.
  - intros E y I C. destruct (probe s x y) eqn:P; [|reflexivity].
    assert (existsb (fun y => probe s x y && comeqb (fn_com x) (fn_com y)) s = true); [|congruence].
    apply existsb_exists. exists y. split; [exact I|]. rewrite P. apply CM_spec. auto.
  - intro F. destruct (existsb (fun y => probe s x y && comeqb (fn_com x) (fn_com y)) s) eqn:E; [|reflexivity].
    apply existsb_exists in E. destruct E as (y & I & E). apply andb_prop in E. destruct E as [E1 E2].
    apply CM_spec in E2. rewrite (F y I (eq_sym E2)) in E1. discriminate.
Qed.

Lemma check_auth_ok (p : pst) : check_auth verify_sig p = ROk tt <-> signed verify_sig p.
Proof.
  unfold check_auth, signed, requires_authorization.
  destruct (p_auth p) as [[key sig]|]; destruct (b_senders (p_body p)) as [|s ss]; cbn [length Nat.ltb Nat.leb].
  - split; [discriminate|]. intros [_ F]. discriminate F. reflexivity.
  - destruct (verify_sig key sig (p_body p) (p_accounts p)) eqn:V.
    + split; [|reflexivity]. intros _. split; [|discriminate]. intros _. eauto.
    + split; [discriminate|]. intros [F _]. destruct F as (k & g & E & V'); [discriminate|]. congruence.
  - split; auto. intros _. split; [congruence|reflexivity].
  - split; [discriminate|]. intros [F _]. destruct F as (k & g & E & V'); [discriminate|]. congruence.
Qed.

Lemma check_auth_cases (p : pst) : check_auth verify_sig p = ROk tt \/ exists e, check_auth verify_sig p = RErr e.
Proof.
  unfold check_auth.
  destruct (p_auth p) as [[key sig]|]; destruct (requires_authorization (length (b_senders (p_body p))));
    eauto. destruct (verify_sig key sig (p_body p) (p_accounts p)); eauto.
Qed.

Lemma check_source_ok (L : lg) id x y : check_source L id x = ROk y <->
  y = x /\ exists bal, public_balance L (fst x) id = Some bal /\ (snd x <= bal)%N.
Proof.
  unfold check_source, public_balance.
  destruct (mget (g_accounts L) (fst x)) as [m|]; [|split; [discriminate|intros (_ & b & E & _); discriminate]].
  destruct (mget m id) as [b|]; [|split; [discriminate|intros (_ & b & E & _); discriminate]].
  destruct (N.leb_spec (snd x) b).
  - split; [intro E; injection E as <-; eauto|]. intros [-> _]. reflexivity.
  - split; [discriminate|]. intros (_ & b' & E & Hb). injection E as <-. lia.
Qed.

Lemma check_sink_ok (L : lg) x y : check_sink L x = ROk y <->
  y = x /\ exists m, In (fst x, m) (g_accounts L).
Proof.
  unfold check_sink. destruct (mget (g_accounts L) (fst x)) as [m|] eqn:E.
  - split.
    + intro E'. injection E' as <-. split; [reflexivity|]. apply mget_in in E. eauto.
    + intros [-> _]. reflexivity.
  - split; [discriminate|]. intros (_ & m & I). apply in_mget in I. destruct I. congruence.
Qed.

Lemma in_combine_len {A B} (l : list A) (m : list B) x :
  length l = length m -> In x l -> exists y, In (x, y) (combine l m).
Proof.
  revert m. induction l as [|a l IH]; intros [|b m] E I; try discriminate; try (destruct I; fail).
  cbn [combine]. destruct I as [->|I]; [exists b; left; reflexivity|].
  destruct (IH m) as [y Hy]; auto. exists y. right. exact Hy.
Qed.

Lemma check_public_ok (L : lg) (p : pst) sacc kacc sk :
  check_public L (b_asset (p_body p)) sacc (b_sources (p_body p)) kacc (b_sinks (p_body p)) = ROk sk <->
  public_ok L p sacc kacc /\
  sk = (combine sacc (b_sources (p_body p)), combine kacc (b_sinks (p_body p))).
Proof.
  unfold check_public, public_ok, has_public_participants. cbv zeta.
  set (A := b_asset (p_body p)). set (S0 := b_sources (p_body p)). set (K := b_sinks (p_body p)).
  assert (HA : Bool.eqb (0 <? length S0 + length K) (is_some A) = true <-> (A = None <-> S0 ++ K = [])).
  { rewrite <- app_length. clearbody A. generalize (S0 ++ K). intro l.
    destruct A as [id|], l as [|x l]; cbn; split; intro F; try discriminate; try reflexivity.
    - discriminate (proj2 F eq_refl).
    - split; intro; discriminate.
    - split; reflexivity.
    - discriminate (proj1 F eq_refl). }
  destruct (Bool.eqb (0 <? length S0 + length K) (is_some A)) eqn:EA; cbn [negb].
  2:{ split; [discriminate|]. intros [(H0 & _) _]. apply HA in H0. discriminate. }
  assert (HA' : A = None <-> S0 ++ K = []) by (apply HA; reflexivity). clear HA EA.
  destruct (Nat.eqb_spec (length sacc) (length S0)) as [E1|E1]; cbn [negb].
  2:{ split; [discriminate|]. intros [(_ & H0 & _) _]. contradiction. }
  destruct (Nat.eqb_spec (length kacc) (length K)) as [E2|E2]; cbn [negb].
  2:{ split; [discriminate|]. intros [(_ & _ & H0 & _) _]. contradiction. }
  assert (HS : forall sks,
     (if 0 <? length S0 then match A with Some id => collect (check_source L id) (combine sacc S0) | None => RPanic end
      else ROk []) = ROk sks <->
     (forall a v id, A = Some id -> In (a, v) (combine sacc S0) ->
        exists bal, public_balance L a id = Some bal /\ (v <= bal)%N) /\ sks = combine sacc S0).
  { intro sks. destruct S0 as [|s0 S0'] eqn:ES.
    - cbn [length Nat.ltb Nat.leb].
      assert (Es : combine sacc (@nil N) = []) by (destruct sacc; reflexivity). rewrite Es.
      split; [intro E; injection E as <-; split; [intros ? ? ? ? []|reflexivity]|]. intros [_ ->]. reflexivity.
    - cbn [length Nat.ltb Nat.leb]. destruct A as [id|].
      + rewrite (collect_same (check_source L id)
          (fun x => exists bal, public_balance L (fst x) id = Some bal /\ (snd x <= bal)%N) _ (check_source_ok L id)).
        rewrite Forall_forall. split.
        * intros [-> F]. split; [|reflexivity]. intros a v id' E I. injection E as <-. exact (F (a, v) I).
        * intros [F ->]. split; [reflexivity|]. intros [a v] I. exact (F a v id eq_refl I).
      + split; [discriminate|]. intros _. destruct HA' as [F _]. specialize (F eq_refl). discriminate. }
  assert (HK : forall kks,
     (if 0 <? length K then match A with Some _ => collect (check_sink L) (combine kacc K) | None => RPanic end
      else ROk []) = ROk kks <->
     (forall a, In a kacc -> exists m, In (a, m) (g_accounts L)) /\ kks = combine kacc K).
  { intro kks. destruct K as [|k0 K'] eqn:EK.
    - cbn [length Nat.ltb Nat.leb]. destruct kacc; [|discriminate]. cbn [combine].
      split; [intro E; injection E as <-; split; [intros ? []|reflexivity]|]. intros [_ ->]. reflexivity.
    - cbn [length Nat.ltb Nat.leb]. destruct A as [id|].
      + rewrite (collect_same (check_sink L) (fun x => exists m, In (fst x, m) (g_accounts L)) _ (check_sink_ok L)).
        rewrite Forall_forall. split.
        * intros [-> F]. split; [|reflexivity]. intros a I.
          destruct (in_combine_len kacc (k0 :: K') a E2 I) as [v Hv]. exact (F (a, v) Hv).
        * intros [F ->]. split; [reflexivity|]. intros [a v] I. apply in_combine_l in I. exact (F a I).
      + split; [discriminate|]. intros _. destruct HA' as [F _]. specialize (F eq_refl).
        destruct S0; discriminate. }
  destruct (if 0 <? length S0 then match A with Some id => collect (check_source L id) (combine sacc S0) | None => RPanic end
      else ROk []) as [sks| |].
  - destruct (HS sks) as [HS1 _]. destruct (HS1 eq_refl) as [HS2 ->].
    destruct (if 0 <? length K then match A with Some _ => collect (check_sink L) (combine kacc K) | None => RPanic end
      else ROk []) as [kks| |].
    + destruct (HK kks) as [HK1 _]. destruct (HK1 eq_refl) as [HK2 ->].
      split; [intro E; injection E as <-; auto 10|]. intros [_ ->]. reflexivity.
    + split; [discriminate|]. intros [(_ & _ & _ & _ & F) _].
      destruct (HK (combine kacc K)) as [_ HK2]. discriminate HK2. auto.
    + split; [discriminate|]. intros [(_ & _ & _ & _ & F) _].
      destruct (HK (combine kacc K)) as [_ HK2]. discriminate HK2. auto.
  - split; [discriminate|]. intros [(_ & _ & _ & F & _) _].
    destruct (HS (combine sacc S0)) as [_ HS2]. discriminate HS2. auto.
  - split; [discriminate|]. intros [(_ & _ & _ & F & _) _].
    destruct (HS (combine sacc S0)) as [_ HS2]. discriminate HS2. auto.
Qed.

Lemma validate_sender_ok (L : lg) s s' : validate_sender ideqb comeqb probe dout L s = ROk s' <->
  s' = s /\ ((sp_out s = dout \/ In (sp_out s) (map s_root (g_trees L))) /\ unspent_for L (sp_null s)).
Proof.
  unfold validate_sender, has_matching_output, is_unspent.
  assert (HO : (if ideqb (sp_out s) dout then true else existsb (fun t => ideqb (s_root t) (sp_out s)) (g_trees L)) = true
     <-> (sp_out s = dout \/ In (sp_out s) (map s_root (g_trees L)))).
  { destruct (ideqb (sp_out s) dout) eqn:E.
    - apply ID_spec in E. split; auto.
    - assert (sp_out s <> dout) by (intro F; apply ID_spec in F; congruence).
      rewrite existsb_exists, in_map_iff. split.
      + intros (t & I & Et). right. exists t. split; [apply ID_spec; exact Et|exact I].
      + intros [F|(t & Et & I)]; [contradiction|]. exists t. split; [exact I|]. apply ID_spec. exact Et. }
  pose proof (null_contains_false (g_nulls L) (sp_null s)) as HN.
  unfold unspent_for. rewrite <- HN, <- HO.
  destruct s as [o x]. cbn [sp_out sp_null] in *.
  destruct (ideqb o dout); [|destruct (existsb (fun t => ideqb (s_root t) o) (g_trees L))];
    destruct (null_contains comeqb probe (g_nulls L) x); split; intro E;
    try discriminate; try (destruct E as (-> & E1 & E2); try discriminate; reflexivity);
    try (injection E as <-; auto).
Qed.

Lemma validate_receiver_ok (L : lg) (r r' : rpost UT NT) : validate_receiver uteqb L r = ROk r' <->
  r' = r /\ ~ In (rp_utxo r) (g_utxos L).
Proof.
  unfold validate_receiver, is_not_registered. destruct r as [u n]. cbn [rp_utxo rp_note].
  destruct (existsb (uteqb u) (g_utxos L)) eqn:E.
  - split; [discriminate|]. intros [_ F]. exfalso. apply F. apply existsb_exists in E.
    destruct E as (y & I & Ey). apply UT_spec in Ey. congruence.
  - split.
    + intro E'. injection E' as <-. split; [reflexivity|]. intro I.
      assert (existsb (uteqb u) (g_utxos L) = true); [|congruence].
      apply existsb_exists. exists u. split; [exact I|]. apply UT_spec. reflexivity.
    + intros [-> _]. reflexivity.
Qed.

(** The posting key of a validated post, and its proof input: the one of the post. *)
Definition key_of (p : pst) (sacc kacc : list N) : pkey CM ON UT NT ID :=
  mk_pkey (b_asset (p_body p)) (combine sacc (b_sources (p_body p))) (b_senders (p_body p))
    (b_receivers (p_body p)) (combine kacc (b_sinks (p_body p))).

Lemma map_snd_combine {A B C} (f : B -> C) (l : list A) (m : list B) :
  length l = length m -> map (fun x => f (snd x)) (combine l m) = map f m.
Proof.
  revert m. induction l as [|a l IH]; intros [|b m] E; try discriminate; [reflexivity|].
  cbn [combine map snd]. f_equal. apply IH. auto.
Qed.

Lemma input_of_key (p : pst) sacc kacc :
  length sacc = length (b_sources (p_body p)) -> length kacc = length (b_sinks (p_body p)) ->
  proof_input incoming (option_map fst (p_auth p)) (key_of p sacc kacc) = post_input incoming p.
Proof.
  intros E1 E2. unfold proof_input, post_input, key_of. cbn [k_asset k_sources k_senders k_receivers k_sinks].
  rewrite !(map_snd_combine (fun v : N => @PValue CM UT IN ID KEY v)) by assumption. destruct (p_auth p); reflexivity.
Qed.

(** The verifier has an answer for the proof of the post, whatever it is. *)
Definition proof_answered (p : pst) : Prop :=
  exists s v, post_shape p = Some s /\ verify s (post_input incoming p) (b_proof (p_body p)) = Some v.

Definition acceptable (L : lg) (p : pst) (sacc kacc : list N) : Prop :=
  signed verify_sig p /\ public_ok L p sacc kacc /\ NoDup (commitments p) /\
  known_outputs dout L p /\ (forall s, In s (b_senders (p_body p)) -> unspent_for L (sp_null s)) /\
  new_outputs L p /\ proof_answered p.

Lemma check_public_no_panic (L : lg) asset sacc svals kacc kvals :
  check_public L asset sacc svals kacc kvals <> RPanic.
Proof.
  unfold check_public, has_public_participants.
  destruct (Bool.eqb (0 <? length svals + length kvals) (is_some asset)) eqn:EA; cbn [negb]; [|discriminate].
  destruct (length sacc =? length svals); cbn [negb]; [|discriminate].
  destruct (length kacc =? length kvals); cbn [negb]; [|discriminate].
  assert (CS : forall id, collect (check_source L id) (combine sacc svals) <> RPanic).
  { intro id. apply collect_no_panic. intro x. unfold check_source.
    destruct (mget (g_accounts L) (fst x)) as [m|]; [|discriminate]. destruct (mget m id) as [b|]; [|discriminate].
    destruct (N.leb (snd x) b); discriminate. }
  assert (CK : collect (check_sink L) (combine kacc kvals) <> RPanic).
  { apply collect_no_panic. intro x. unfold check_sink. destruct (mget (g_accounts L) (fst x)); discriminate. }
  destruct asset as [id|].
  - specialize (CS id).
    destruct svals, kvals; cbn [length Nat.ltb Nat.leb]; try discriminate;
      repeat match goal with |- context [collect ?f ?l] => destruct (collect f l) end; congruence.
  - destruct svals, kvals; cbn in EA |- *; try discriminate.
Qed.

(** Validation never panics: the unwrapped asset id is there. *)
Lemma validate_no_panic (L : lg) (p : pst) sacc kacc : vld L p sacc kacc <> RPanic.
Proof.
  unfold validate, rbind. cbv zeta.
  destruct (check_auth_cases p) as [E|(e & E)]; rewrite E; [|discriminate].
  pose proof (check_public_no_panic L (b_asset (p_body p)) sacc (b_sources (p_body p)) kacc (b_sinks (p_body p))) as CP.
  destruct (check_public L (b_asset (p_body p)) sacc (b_sources (p_body p)) kacc (b_sinks (p_body p))) as [sk| |]; try congruence.
  destruct (negb (all_unequal (fun x y => comeqb (fn_com (sp_null x)) (fn_com (sp_null y))) (b_senders (p_body p)))); [discriminate|].
  destruct (negb (all_unequal (fun x y => uteqb (rp_utxo x) (rp_utxo y)) (b_receivers (p_body p)))); [discriminate|].
  assert (C1 : collect (validate_sender ideqb comeqb probe dout L) (b_senders (p_body p)) <> RPanic).
  { apply collect_no_panic. intro s. unfold validate_sender, has_matching_output, is_unspent.
    destruct (ideqb (sp_out s) dout); [|destruct (existsb (fun t => ideqb (s_root t) (sp_out s)) (g_trees L))];
      try discriminate; destruct (null_contains comeqb probe (g_nulls L) (sp_null s)); discriminate. }
  destruct (collect (validate_sender ideqb comeqb probe dout L) (b_senders (p_body p))) as [ss| |]; try congruence.
  assert (C2 : collect (validate_receiver uteqb L) (b_receivers (p_body p)) <> RPanic).
  { apply collect_no_panic. intro s. unfold validate_receiver, is_not_registered.
    destruct (existsb (uteqb (rp_utxo s)) (g_utxos L)); discriminate. }
  destruct (collect (validate_receiver uteqb L) (b_receivers (p_body p))) as [rs| |]; try congruence.
  unfold is_valid.
  destruct (select_shape _ _ _ _ _ _) as [s|]; [|discriminate].
  destruct (verify s _ _); discriminate.
Qed.

Theorem validate_iff (L : lg) (p : pst) sacc kacc k :
  vld L p sacc kacc = ROk k <-> acceptable L p sacc kacc /\ k = key_of p sacc kacc.
Proof.
  unfold validate, acceptable. cbv zeta. unfold rbind.
  pose proof (check_auth_ok p) as HA. destruct (check_auth verify_sig p) as [[]| |] eqn:EA.
  2:{ split; [discriminate|]. intros [(F & _) _]. apply HA in F. discriminate. }
  2:{ split; [discriminate|]. intros [(F & _) _]. apply HA in F. discriminate. }
  pose proof (check_public_ok L p sacc kacc) as HP.
  destruct (check_public L (b_asset (p_body p)) sacc (b_sources (p_body p)) kacc (b_sinks (p_body p))) as [sk| |] eqn:EP.
  2:{ split; [discriminate|]. intros [(_ & F & _) _].
      destruct (HP (combine sacc (b_sources (p_body p)), combine kacc (b_sinks (p_body p)))) as [_ F'].
      discriminate F'. auto. }
  2:{ split; [discriminate|]. intros [(_ & F & _) _].
      destruct (HP (combine sacc (b_sources (p_body p)), combine kacc (b_sinks (p_body p)))) as [_ F'].
      discriminate F'. auto. }
  destruct (proj1 (HP sk) eq_refl) as [Hpub ->]. clear HP. cbn [fst snd].
  pose proof (all_unequal_nodup (fun s => fn_com (sp_null s)) comeqb (b_senders (p_body p)) CM_spec) as HN.
  destruct (all_unequal (fun x y => comeqb (fn_com (sp_null x)) (fn_com (sp_null y))) (b_senders (p_body p))); cbn [negb].
  2:{ split; [discriminate|]. intros [(_ & _ & F & _) _]. apply HN in F. discriminate. }
  assert (Hn : NoDup (commitments p)) by (apply HN; reflexivity). clear HN.
  pose proof (all_unequal_nodup (@rp_utxo UT NT) uteqb (b_receivers (p_body p)) UT_spec) as HU.
  destruct (all_unequal (fun x y => uteqb (rp_utxo x) (rp_utxo y)) (b_receivers (p_body p))); cbn [negb].
  2:{ split; [discriminate|]. intros [(_ & _ & _ & _ & _ & (F & _) & _) _]. apply HU in F. discriminate. }
  assert (Hu : NoDup (outputs p)) by (apply HU; reflexivity). clear HU.
  pose proof (collect_same _ _ (b_senders (p_body p)) (fun x y => validate_sender_ok L x y)) as HS.
  destruct (collect (validate_sender ideqb comeqb probe dout L) (b_senders (p_body p))) as [ss| |].
  2:{ split; [discriminate|]. intros [(_ & _ & _ & F1 & F2 & _) _].
      destruct (HS (b_senders (p_body p))) as [_ HS2]. discriminate HS2. split; [reflexivity|].
      apply Forall_forall. intros s I. split; [apply F1; exact I|apply F2; exact I]. }
  2:{ split; [discriminate|]. intros [(_ & _ & _ & F1 & F2 & _) _].
      destruct (HS (b_senders (p_body p))) as [_ HS2]. discriminate HS2. split; [reflexivity|].
      apply Forall_forall. intros s I. split; [apply F1; exact I|apply F2; exact I]. }
  destruct (proj1 (HS ss) eq_refl) as [-> Hs]. clear HS. rewrite Forall_forall in Hs.
  pose proof (collect_same _ _ (b_receivers (p_body p)) (fun x y => validate_receiver_ok L x y)) as HR.
  destruct (collect (validate_receiver uteqb L) (b_receivers (p_body p))) as [rs| |].
  2:{ split; [discriminate|]. intros [(_ & _ & _ & _ & _ & (_ & F) & _) _].
      destruct (HR (b_receivers (p_body p))) as [_ HR2]. discriminate HR2. split; [reflexivity|].
      apply Forall_forall. intros r I. apply F. apply in_map. exact I. }
  2:{ split; [discriminate|]. intros [(_ & _ & _ & _ & _ & (_ & F) & _) _].
      destruct (HR (b_receivers (p_body p))) as [_ HR2]. discriminate HR2. split; [reflexivity|].
      apply Forall_forall. intros r I. apply F. apply in_map. exact I. }
  destruct (proj1 (HR rs) eq_refl) as [-> Hr]. clear HR. rewrite Forall_forall in Hr.
  change (mk_pkey (b_asset (p_body p)) (combine sacc (b_sources (p_body p))) (b_senders (p_body p))
    (b_receivers (p_body p)) (combine kacc (b_sinks (p_body p)))) with (key_of p sacc kacc).
  assert (E1 : length sacc = length (b_sources (p_body p))) by apply Hpub.
  assert (E2 : length kacc = length (b_sinks (p_body p))) by apply Hpub.
  assert (HV : is_valid incoming verify (option_map fst (p_auth p)) (key_of p sacc kacc) (b_proof (p_body p)) = ROk tt
     <-> proof_answered p).
  { unfold is_valid, proof_answered, post_shape. rewrite input_of_key by assumption.
    unfold key_of. cbn [k_asset k_sources k_senders k_receivers k_sinks].
    rewrite !combine_length, E1, E2, !Nat.min_id.
    replace (is_some (option_map fst (p_auth p))) with (is_some (p_auth p)) by (destruct (p_auth p); reflexivity).
    destruct (select_shape (is_some (p_auth p)) (is_some (b_asset (p_body p))) (length (b_sources (p_body p)))
      (length (b_senders (p_body p))) (length (b_receivers (p_body p))) (length (b_sinks (p_body p)))) as [s|].
    - destruct (verify s (post_input incoming p) (b_proof (p_body p))) as [v|] eqn:Ev.
      + split; [|reflexivity]. intros _. exists s, v. auto.
      + split; [discriminate|]. intros (s' & v & E & F). injection E as <-. congruence.
    - split; [discriminate|]. intros (s' & v & E & F). discriminate. }
  destruct (is_valid incoming verify (option_map fst (p_auth p)) (key_of p sacc kacc) (b_proof (p_body p))) as [[]| |].
  - assert (Hp : proof_answered p) by (apply HV; reflexivity).
    split.
    + intro E. injection E as <-. split; [|reflexivity].
      split; [apply HA; reflexivity|]. split; [exact Hpub|]. split; [exact Hn|].
      split; [intros s I; apply Hs; exact I|]. split; [intros s I; apply Hs; exact I|].
      split; [|exact Hp]. split; [exact Hu|]. intros u I. apply in_map_iff in I.
      destruct I as (r & <- & I). apply Hr. exact I.
    + intros [_ ->]. reflexivity.
  - split; [discriminate|]. intros [(_ & _ & _ & _ & _ & _ & F) _]. apply HV in F. discriminate.
  - split; [discriminate|]. intros [(_ & _ & _ & _ & _ & _ & F) _]. apply HV in F. discriminate.
Qed.

End Validate.
