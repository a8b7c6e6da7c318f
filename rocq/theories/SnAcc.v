(** Signing on an accumulator that follows a list of items. *)
From Coq Require Import List Arith NArith Bool Lia.
From Verif Require Import MtModel MtSpec MtHist PtModel PtSpec FkSpec FoSpec FoInv FoProps AssetModel
  SgAcc SnModel SnSpec SnJoin.
Import ListNotations.
Open Scope nat_scope.

(** ** The base of the trees is never touched *)
Section Base.
Context {LD ID IT : Type}.
Variable dl : LD.
Variable di : ID.
Variable join : ID -> ID -> ID.
Variable joinl : LD -> LD -> ID.
Variable ldeqb : LD -> LD -> bool.
Variable ideqb : ID -> ID -> bool.
Variable H : nat.
Variable chk : bool.
Variable dg : IT -> LD.
Variable sh : IT -> nat.
Variable spend_item : N -> asset -> IT.
Variable ident : nat -> N.
Variable prove_ok : nat -> bool.
Notation eff := (@eff LD ID).
Notation insert_utxo := (insert_utxo dl di join joinl H dg sh spend_item).
Notation insert_utxos := (insert_utxos dl di join joinl H dg sh spend_item).
Notation join_round := (join_round dl di join joinl ldeqb H chk dg sh spend_item ident prove_ok).
Notation join_loop := (join_loop dl di join joinl ldeqb H chk dg sh spend_item ident prove_ok).
Notation prepare_final := (prepare_final dl di join joinl ldeqb H chk dg sh spend_item ident).
Notation compute_batched := (compute_batched dl di join joinl ldeqb H chk dg sh spend_item ident prove_ok).
Notation process_to_public := (process_to_public ident prove_ok).
Notation public_loop := (public_loop dl di join joinl ldeqb H chk dg sh spend_item ident prove_ok).
Notation compute_to_public := (compute_to_public dl di join joinl ldeqb H chk dg sh spend_item ident prove_ok).
Notation private_after := (private_after dl di join joinl ldeqb H chk dg sh spend_item ident prove_ok).
Notation sign_internal := (sign_internal dl di join joinl ldeqb H chk dg sh spend_item ident prove_ok).
Notation consolidate_internal := (consolidate_internal dl di join joinl ldeqb H chk dg sh spend_item ident prove_ok).
Notation sign := (sign dl di join joinl ldeqb ideqb H chk dg sh spend_item ident prove_ok).
Notation consolidate := (consolidate dl di join joinl ldeqb ideqb H chk dg sh spend_item ident prove_ok).
Notation rollback := (fo_rollback dl di join joinl ideqb H).

Definition bases (f : forest LD ID) := map ft_base f.

Lemma rollback_bases f : forall f', bases f = bases f' -> rollback f = rollback f'.
Proof.
  unfold fo_rollback, bases. induction f as [|t f IH]; intros [|t' f'] E; try discriminate E; auto.
  cbn [map] in E. injection E as E1 E2. cbn [fo_all]. rewrite (IH f' E2).
  replace (ft_reset dl di join joinl ideqb H t') with (ft_reset dl di join joinl ideqb H t) by (unfold ft_reset; rewrite E1; reflexivity). reflexivity.
Qed.
Lemma fo_upd_bases f : forall i (g : ftree LD ID -> option (ftree LD ID * bool)) f' b, (forall t t' c, g t = Some (t', c) -> ft_base t' = ft_base t) ->
  fo_upd f i g = Some (f', b) -> bases f' = bases f.
Proof.
  unfold bases. induction f as [|t f IH]; intros [|i] g f' b G E; cbn [fo_upd] in E; try discriminate.
  - destruct (g t) as [[t' c]|] eqn:Q; [|discriminate]. injection E as <- <-. cbn [map]. rewrite (G _ _ _ Q). reflexivity.
  - destruct (fo_upd f i g) as [[f1 c]|] eqn:Q; [|discriminate]. injection E as <- <-. cbn [map]. rewrite (IH _ _ _ _ G Q). reflexivity.
Qed.
Lemma insert_utxo_bases s e e' : insert_utxo s e = Some e' ->
  bases (e_acc e') = bases (e_acc e) /\ e_rng e' = e_rng e /\ e_prf e' = e_prf e.
Proof.
  unfold SnModel.insert_utxo. destruct (fo_insert _ _ _ _ _ _ _ _ _) as [[f b]|] eqn:E; [|discriminate].
  intro Q. injection Q as <-. cbn [e_acc e_rng e_prf fst]. split; auto. eapply fo_upd_bases; [|exact E]. clear.
  cbn beta. intros t t' c Q. injection Q as Q. unfold ft_push in Q. destruct (pt_push _ _ _ _ _ _) as [u b]. injection Q as <- _. reflexivity.
Qed.
Lemma insert_utxos_bases l : forall e e', insert_utxos l e = Some e' ->
  bases (e_acc e') = bases (e_acc e) /\ e_rng e' = e_rng e /\ e_prf e' = e_prf e.
Proof.
  induction l as [|s l IH]; intros e e' E; cbn [SnModel.insert_utxos] in E. { injection E as <-. auto. }
  destruct (insert_utxo s e) as [e1|] eqn:Q; [|discriminate]. apply insert_utxo_bases in Q. apply IH in E.
  destruct Q as (Q1 & Q2 & Q3), E as (E1 & E2 & E3). repeat split; congruence.
Qed.

(** What holds of the state that comes back, with a result or an error. *)
Definition leaves {A} (P : eff -> Prop) (o : out A) : Prop :=
  match o with Done _ e => P e | Failed _ e => P e | Panicked => True end.
Lemma leaves_bind {A B} (P Q : eff -> Prop) (o : out A) (k : A -> eff -> out B) :
  leaves P o -> (forall e, P e -> Q e) -> (forall a e, P e -> leaves Q (k a e)) -> leaves Q (bind o k).
Proof. destruct o; cbn; auto. Qed.
Definition based (e e' : eff) : Prop := bases (e_acc e') = bases (e_acc e).
Definition same_acc (e e' : eff) : Prop := e_acc e' = e_acc e.

Lemma build_post_acc p e : leaves (same_acc e) (build_post (LD := LD) (ID := ID) prove_ok p e).
Proof. unfold build_post. destruct (prove_ok _); reflexivity. Qed.
Lemma join_round_based id chunks : forall joins zs posts e, leaves (based e) (join_round id chunks joins zs posts e).
Proof.
  induction chunks as [|[a b] r IH]; intros joins zs posts e; cbn [SnModel.join_round]; [reflexivity|].
  destruct (upgrade_all _ _ _ _ _ _ _ _ _ _ _ _) as [ss|]; [|exact Logic.I]. destruct (vsum _ _) as [v|]; [|exact Logic.I].
  unfold next_join, receiver, draw. cbn [e_acc e_rng e_prf rc_key]. unfold build_post. cbn [e_acc e_rng e_prf].
  destruct (prove_ok _); cbn [bind]; [|reflexivity].
  destruct (insert_utxos _ _) as [e3|] eqn:Q; [|exact Logic.I]. apply insert_utxos_bases in Q. cbn [e_acc] in Q. destruct Q as (Q & _).
  specialize (IH (joins ++ [(ident (e_rng e), (id, v))]) (zs ++ [(ident (S (e_rng e)), (id, 0%N))])
    (posts ++ [mk_post KPrivateTransfer [] ss [mk_recv None (ident (e_rng e)) (id, v); mk_recv None (ident (S (e_rng e))) (id, 0%N)] [] []]) e3).
  destruct (join_round _ _ _ _ _ _); cbn [leaves] in *; unfold based in *; congruence.
Qed.
Lemma join_loop_based id : forall fuel pre zs posts e, leaves (based e) (join_loop fuel id pre zs posts e).
Proof.
  induction fuel as [|fuel IH]; intros pre zs posts e; cbn [SnModel.join_loop]; destruct (2 <? length pre); cbn [leaves]; try reflexivity; try exact Logic.I.
  destruct (chunk2 pre) as [cs rm]. eapply leaves_bind; [apply join_round_based|auto|].
  intros [[j z] p] e1 B. specialize (IH (j ++ rm) z p e1). destruct (join_loop _ _ _ _ _ _); cbn [leaves] in *; unfold based in *; congruence.
Qed.
Lemma prepare_final_acc m id zs pre e : leaves (same_acc e) (into_array2 (prepare_final m id zs pre e)).
Proof.
  destruct (prepare_final m id zs pre e) as [l e'| |] eqn:E; cbn [into_array2 bind]; try exact Logic.I.
  - destruct (length l =? 2); [|exact Logic.I]. apply prepare_final_spec in E. destruct E as (_ & _ & _ & _ & _ & _ & _ & _ & E & _). exact E.
  - unfold SnModel.prepare_final in E. destruct (upgrade_all _ _ _ _ _ _ _ _ _ _ _ _); [|discriminate].
    destruct (2 <? _); [discriminate|]. destruct (upgrade_all _ _ _ _ _ _ _ _ _ _ _ _); [|discriminate].
    destruct (upgrade_all _ _ _ _ _ _ _ _ _ _ _ _); [|discriminate]. destruct (fakes _ _ _ _). discriminate.
Qed.
Lemma same_based e e' : same_acc e e' -> based e e'.
Proof. unfold same_acc, based. congruence. Qed.
Lemma leaves_impl {A} (P Q : eff -> Prop) (o : out A) : leaves P o -> (forall e, P e -> Q e) -> leaves Q o.
Proof. destruct o; cbn; auto. Qed.
Lemma compute_batched_based m id pre e : leaves (based e) (compute_batched m id pre e) /\
  (length pre <= 2 -> leaves (same_acc e) (compute_batched m id pre e)).
Proof.
  unfold SnModel.compute_batched. split.
  - eapply leaves_bind; [apply join_loop_based|auto|]. intros [[p z] q] e1 B.
    eapply leaves_bind; [apply prepare_final_acc| |]; unfold based, same_acc in *; [congruence|]. intros l e2 E. cbn. congruence.
  - intro C. assert (E : join_loop (length pre) id pre [] [] e = Done (pre, [], []) e).
    { destruct (length pre) as [|[|[|]]] eqn:L; cbn [SnModel.join_loop]; rewrite L; try reflexivity. lia. }
    rewrite E. cbn [bind]. eapply leaves_bind; [apply prepare_final_acc|auto|]. intros l e2 Q. exact Q.
Qed.
Lemma process_acc id accounts senders change e : leaves (same_acc e) (process_to_public id accounts senders change e).
Proof.
  unfold SnModel.process_to_public. destruct (vsum _ _); [|exact Logic.I]. destruct (if _ : bool then _ else _) as [[a b] c].
  unfold receiver, draw, build_post. cbn [e_acc e_prf]. destruct (prove_ok _); reflexivity.
Qed.
Lemma public_loop_acc id accounts chunks : forall change posts e, leaves (same_acc e) (public_loop id accounts chunks change posts e).
Proof.
  induction chunks as [|[a b] r IH]; intros change posts e; cbn [SnModel.public_loop]; [reflexivity|].
  destruct (upgrade_all _ _ _ _ _ _ _ _ _ _ _ _) as [ss|]; [|exact Logic.I].
  eapply leaves_bind; [apply process_acc|auto|]. intros pc e1 E. eapply leaves_impl; [apply IH|]. unfold same_acc in *. congruence.
Qed.
Lemma compute_to_public_acc m id accounts change pre e : leaves (same_acc e) (compute_to_public m id accounts change pre e).
Proof.
  unfold SnModel.compute_to_public. destruct (chunk2 pre) as [cs rm].
  eapply leaves_bind; [apply public_loop_acc|auto|]. intros [c ps] e1 E. destruct rm; [exact E|].
  eapply leaves_bind; [apply prepare_final_acc| |]; unfold same_acc in *; [congruence|]. intros l e2 E2.
  eapply leaves_bind; [apply process_acc| |]; unfold same_acc in *; [congruence|]. intros pc e3 E3. cbn. congruence.
Qed.
Lemma private_after_based m a addr sel e : leaves (based e) (private_after m a addr sel e) /\
  (length (snd sel) <= 2 -> leaves (same_acc e) (private_after m a addr sel e)).
Proof.
  unfold SnModel.private_after. split.
  - eapply leaves_bind; [apply (proj1 (compute_batched_based m (fst a) (snd sel) e))|auto|]. intros [ps ss] e1 B. unfold receiver, draw. cbn [e_acc e_rng e_prf].
    eapply leaves_bind; [apply build_post_acc| |]; unfold based, same_acc in *; cbn [e_acc]; [congruence|]. intros p e4 E. cbn. congruence.
  - intro C. eapply leaves_bind; [apply (proj2 (compute_batched_based m (fst a) (snd sel) e) C)|auto|]. intros [ps ss] e1 B. unfold receiver, draw. cbn [e_acc e_rng e_prf].
    eapply leaves_bind; [apply build_post_acc| |]; unfold same_acc in *; cbn [e_acc]; [congruence|]. intros p e4 E. cbn. congruence.
Qed.
Lemma select_acc m a (e : eff) : match select m a e with Done (c, pre) e1 => e1 = e /\ exists vs, am_select m a = Some (c, vs) /\
    pre = map (fun kv => (fst kv, (fst a, snd kv))) vs /\ (vs = [] -> snd a = 0%N)
  | Failed x e1 => e1 = e /\ x = InsufficientBalance a /\ snd a <> 0%N /\ exists c, am_select m a = Some (c, [])
  | Panicked => am_select m a = None end.
Proof.
  unfold select. destruct (am_select m a) as [[c vs]|]; auto. destruct (N.eqb_spec (snd a) 0) as [Z|Z]; cbn [negb andb].
  - split; auto. exists vs. auto.
  - destruct vs as [|v vs]; [split; [auto|split; [auto|split; [auto|eauto]]]|]. split; auto. exists (v :: vs). split; auto. split; auto. discriminate.
Qed.

(** The number of coins that a transaction selects. *)
Definition picks (m : amap) (a : asset) : nat := match am_select m a with Some (_, vs) => length vs | None => 0 end.

Lemma sign_internal_based accounts auth m t e : leaves (based e) (sign_internal accounts auth m t e) /\
  ((forall a addr, t = PrivateTransfer a addr -> picks m a <= 2) -> leaves (same_acc e) (sign_internal accounts auth m t e)).
Proof.
  destruct t as [a|a addr|a account]; cbn [SnModel.sign_internal].
  - assert (Q : leaves (same_acc e) (if auth then let '(r, e1) := receiver ident None a e in
      bind (build_post prove_ok (mk_post KToPrivate [a] [] [r] [] []) e1) (fun p e2 => Done [p] e2)
      else Failed MissingProofAuthorizationKey e)).
    { destruct auth; [|reflexivity]. unfold receiver, draw. cbn [e_acc e_rng e_prf]. eapply leaves_bind; [apply build_post_acc| |]; auto. }
    split; [|intros _; exact Q]. eapply leaves_impl; [exact Q|apply same_based].
  - destruct accounts; [|split; reflexivity]. unfold withdraw_private. pose proof (select_acc m a e) as S0.
    destruct (select m a e) as [[c pre] e1|x e1|] eqn:E; cbn [bind].
    + destruct S0 as (-> & vs & S1 & -> & _). split; [apply private_after_based|].
      intro C. apply private_after_based. cbn [snd]. rewrite map_length. specialize (C a addr eq_refl). unfold picks in C. rewrite S1 in C. exact C.
    + destruct S0 as (-> & _). split; reflexivity.
    + split; [|intros _]; exact Logic.I.
  - destruct accounts; [|split; reflexivity]. unfold withdraw_public. pose proof (select_acc m a e) as S0.
    destruct (select m a e) as [[c pre] e1|x e1|] eqn:E; cbn [bind].
    + destruct S0 as (-> & _). pose proof (compute_to_public_acc m (fst a) [account] c pre e) as Q. cbn [fst snd].
      split; [|intros _; exact Q]. eapply leaves_impl; [exact Q|apply same_based].
    + destruct S0 as (-> & _). split; reflexivity.
    + split; [|intros _]; exact Logic.I.
Qed.
Lemma consolidate_internal_based m r e : leaves (based e) (consolidate_internal m r e) /\
  (length r <= 2 -> leaves (same_acc e) (consolidate_internal m r e)).
Proof.
  unfold SnModel.consolidate_internal. destruct (cr_asset r) as [a|]; [|split; [|intros _]; exact Logic.I].
  unfold custom_select. destruct (negb _); cbn [bind]; [split; reflexivity|]. destruct (cr_id r) as [id|]; cbn [bind]; [|split; [|intros _]; exact Logic.I].
  unfold cr_select. cbn [bind]. split; [apply private_after_based|]. intro C. apply private_after_based. cbn [snd]. rewrite !map_length. exact C.
Qed.
Lemma sign_rolled accounts auth m t e :
  match sign accounts auth m t e with
  | Done _ e' => rollback (e_acc e) = Some (e_acc e')
  | Failed _ e' => based e e'
  | Panicked => True
  end.
Proof.
  unfold SnModel.sign, then_rollback. destruct (sign_internal_based accounts auth m t e) as [B _].
  destruct (sign_internal _ _ _ _ _) as [ps e1| |]; cbn [bind leaves] in *; auto.
  destruct (rollback (e_acc e1)) as [acc|] eqn:R; auto. cbn [e_acc]. rewrite <- R. symmetry. apply rollback_bases. exact B.
Qed.
Lemma consolidate_rolled accounts m l e :
  match consolidate accounts m l e with
  | Done _ e' => rollback (e_acc e) = Some (e_acc e')
  | Failed _ e' => based e e'
  | Panicked => True
  end.
Proof.
  unfold SnModel.consolidate, then_rollback. destruct accounts; [|reflexivity]. destruct (cr_new l) as [r|]; [|reflexivity].
  destruct (consolidate_internal_based m r e) as [B _].
  destruct (consolidate_internal _ _ _) as [ps e1| |]; cbn [bind leaves] in *; auto.
  destruct (rollback (e_acc e1)) as [acc|] eqn:R; auto. cbn [e_acc]. rewrite <- R. symmetry. apply rollback_bases. exact B.
Qed.

(** Forests whose forks are fresh: new ones, and those just committed. *)
Definition fresh (f : forest LD ID) : Prop := rollback f = Some f.
Lemma fresh_all g : (forall t t', g t = Some t' -> exists p, ft_make dl di join joinl ideqb H p = Some t') ->
  forall f f', fo_all g f = Some f' -> fresh f'.
Proof.
  intro G. unfold fresh, fo_rollback. induction f as [|t f IH]; intros f' E; cbn [fo_all] in E. { injection E as <-. reflexivity. }
  destruct (g t) as [t'|] eqn:Q; [|discriminate]. destruct (fo_all g f) as [f1|]; [|discriminate]. injection E as <-.
  destruct (G _ _ Q) as (p & M). cbn [fo_all]. rewrite (IH f1 eq_refl).
  assert (B : ft_base t' = p). { unfold ft_make in M. destruct (branch_of _ _ _ _ _ _ p); [|discriminate]. injection M as <-. reflexivity. }
  unfold ft_reset. rewrite B, M. reflexivity.
Qed.
Lemma fresh_commit c f f' : fo_commit dl di join joinl ideqb H c f = Some f' -> fresh f'.
Proof.
  apply fresh_all. unfold ft_merge_partial. intros t t' E. destruct (branch_extract_marked _) as [its|]; [|discriminate].
  destruct (pt_extend_marked _ _ _ _ _ _ _) as [[b|]|]; try discriminate. exists b. exact E.
Qed.
Lemma fresh_new n f : fo_new dl di join joinl ideqb H n = Some f -> fresh f.
Proof.
  unfold fo_new. destruct (ft_new dl di join joinl ideqb H) as [t|] eqn:E; [|discriminate]. intro Q. injection Q as <-.
  unfold fresh, fo_rollback. induction n as [|n IH]; cbn [repeat fo_all]; auto. rewrite IH.
  unfold ft_reset, ft_new in *. assert (B : ft_base t = pt_new).
  { unfold ft_make in E. destruct (branch_of _ _ _ _ _ _ _); [|discriminate]. injection E as <-. reflexivity. }
  rewrite B, E. reflexivity.
Qed.
End Base.
