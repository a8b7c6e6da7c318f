(** Property C77: reading back the data of transactions. *)
From Coq Require Import List Arith NArith Lia Bool.
From Verif Require Import MtModel MtSpec MtTest PtModel PtProps FoProps AssetModel AssetSpec CkModel CkSpec SgModel SgSpec SgProps SnModel SnSpec SnProps TdModel.
Import ListNotations.
Open Scope nat_scope.

Section Props.
Context {U : Type}.
Variable utxo : N -> N -> asset -> U.
Variable ueqb : U -> U -> bool.
Hypothesis ueqb_spec : forall x y, ueqb x y = true <-> x = y.

(** ** Specification *)

(** The canonical posts, by the numbers of their participants. *)
Definition canonical (k : kind) (w : wire U) : Prop :=
  match k with
  | KToPrivate => w_auth w = false /\ w_asset_id w = true /\ w_sources w = 1 /\ w_senders w = 0 /\ length (w_receivers w) = 1 /\ w_sinks w = 0
  | KPrivateTransfer => w_auth w = true /\ w_asset_id w = false /\ w_sources w = 0 /\ w_senders w = 2 /\ length (w_receivers w) = 2 /\ w_sinks w = 0
  | KToPublic => w_auth w = true /\ w_asset_id w = true /\ w_sources w = 0 /\ w_senders w = 2 /\ length (w_receivers w) = 1 /\ w_sinks w = 1
  end.

(** The receiver is ours: the note is for us and describes the utxo. *)
Definition ours (self : N) (r : rpost U) : Prop :=
  rp_to r = self /\ rp_utxo r = utxo self (fst (rp_note r)) (snd (rp_note r)).

(** [sub] picks, in order, the elements of [l] with [P] and no others. *)
Inductive picks {A} (P : A -> Prop) : list A -> list A -> Prop :=
  | pk_nil : picks P [] []
  | pk_take x l sub : P x -> picks P l sub -> picks P (x :: l) (x :: sub)
  | pk_skip x l sub : ~ P x -> picks P l sub -> picks P (x :: l) sub.

Definition data_kind (d : data) : kind :=
  match d with DToPrivate _ _ => KToPrivate | DPrivateTransfer _ => KPrivateTransfer | DToPublic _ _ => KToPublic end.

(** ** Any post *)

Lemma owc_some self r x : open_with_check utxo ueqb self r = Some x <-> ours self r /\ x = rp_note r.
Proof.
  unfold open_with_check, open_note, ours. destruct (N.eqb_spec (rp_to r) self) as [E|E].
  - destruct (rp_note r) as [k a]. cbn [fst snd]. destruct (ueqb (rp_utxo r) (utxo self k a)) eqn:Q.
    + apply ueqb_spec in Q. split; [intro J; injection J as <-; auto|intros [_ ->]; reflexivity].
    + split; [discriminate|]. intros [[_ C] _]. apply ueqb_spec in C. congruence.
  - split; [discriminate|]. intros [[C _] _]. contradiction.
Qed.
Lemma owc_none self r : open_with_check utxo ueqb self r = None <-> ~ ours self r.
Proof.
  destruct (open_with_check utxo ueqb self r) as [x|] eqn:E.
  - apply owc_some in E. split; [discriminate|]. intro C. destruct E. contradiction.
  - split; auto. intros _ C. assert (open_with_check utxo ueqb self r = Some (rp_note r)) by (apply owc_some; auto). congruence.
Qed.
Lemma open_all_picks self l : exists sub, picks (ours self) l sub /\ open_all utxo ueqb self l = map rp_note sub.
Proof.
  induction l as [|r l (sub & P & E)]; [exists []; split; [constructor|reflexivity]|]. cbn [open_all].
  destruct (open_with_check utxo ueqb self r) as [x|] eqn:Q.
  - apply owc_some in Q as [O ->]. exists (r :: sub). split; [constructor; auto|]. cbn [map]. rewrite E. reflexivity.
  - apply owc_none in Q. exists sub. split; [constructor; auto|exact E].
Qed.
Lemma picks_det {A} (P : A -> Prop) l s : picks P l s -> forall s', picks P l s' -> s = s'.
Proof. induction 1; intros s' I; inversion I; subst; auto; try contradiction. f_equal. auto. Qed.

Lemma from_post_spec w k : from_post w = Some k <-> canonical k w.
Proof.
  unfold from_post, select_shape, arm, shape_of, requires_authorization, has_public_participants, canonical.
  cbn [Nat.add Nat.ltb Nat.leb].
  destruct (w_auth w), (w_asset_id w); cbn [eqb andb];
    destruct (Nat.eqb_spec (w_sources w) 1), (Nat.eqb_spec (w_sources w) 0), (Nat.eqb_spec (w_senders w) 0), (Nat.eqb_spec (w_senders w) 2),
    (Nat.eqb_spec (length (w_receivers w)) 1), (Nat.eqb_spec (length (w_receivers w)) 2), (Nat.eqb_spec (w_sinks w) 0), (Nat.eqb_spec (w_sinks w) 1);
    try lia; cbn [andb]; destruct k; (split; [intro J; first [discriminate J | repeat split; assumption] | intros (A1 & A2 & A3 & A4 & A5 & A6); first [reflexivity | discriminate | lia]]).
Qed.

(** Whatever the post, the call does not panic.  It answers the data of the receivers that are
    ours, in order and with nothing left out, when the post has a canonical shape and there is one;
    otherwise it answers nothing. *)
Theorem c77_any_post : forall self w, exists r sub, transaction_data utxo ueqb self w = Some r /\
  picks (ours self) (w_receivers w) sub /\
  match r with
  | Some d => canonical (data_kind d) w /\ sub <> [] /\ td_open d = map rp_note sub /\
      reconstruct_utxo utxo d self = map rp_utxo sub
  | None => (forall k, ~ canonical k w) \/ sub = []
  end.
Proof.
  intros self w. destruct (open_all_picks self (w_receivers w)) as (sub & P & E).
  assert (REC : forall d, td_open d = map rp_note sub -> reconstruct_utxo utxo d self = map rp_utxo sub).
  { intros d D. unfold reconstruct_utxo. rewrite D, map_map. clear - P. induction P as [|x l s O P IH|x l s O P IH]; [reflexivity| |exact IH].
    cbn [map]. rewrite IH. destruct O as [_ O]. rewrite O. reflexivity. }
  unfold transaction_data. destruct (from_post w) as [k|] eqn:F.
  2:{ exists None, sub. split; [reflexivity|]. split; [exact P|]. left. intros k C. apply from_post_spec in C. congruence. }
  pose proof (proj1 (from_post_spec w k) F) as C. destruct k.
  - assert (L := C). destruct L as (_ & _ & _ & _ & L & _). destruct (w_receivers w) as [|r [|? ?]] eqn:W; try discriminate.
    cbn [open_all] in E. destruct (open_with_check utxo ueqb self r) as [x|] eqn:Q.
    + exists (Some (DToPrivate (fst x) (snd x))), sub. assert (Q' := Q). apply owc_some in Q' as [O ->].
      assert (S1 : sub = [r]) by (eapply picks_det; [exact P|constructor; [auto|constructor]]).
      split; [reflexivity|]. split; [exact P|]. split; [exact C|]. split; [rewrite S1; discriminate|].
      assert (D : td_open (DToPrivate (fst (rp_note r)) (snd (rp_note r))) = map rp_note sub) by (rewrite S1; cbn; destruct (rp_note r); reflexivity).
      split; [exact D|apply REC, D].
    + exists None, sub. split; [reflexivity|]. split; [exact P|]. right. destruct sub; [reflexivity|discriminate].
  - rewrite E. destruct sub as [|s0 sub'].
    + exists None, []. split; [reflexivity|]. split; [exact P|]. auto.
    + exists (Some (DPrivateTransfer (map rp_note (s0 :: sub')))), (s0 :: sub'). split; [reflexivity|]. split; [exact P|].
      split; [exact C|]. split; [discriminate|]. split; [reflexivity|apply REC; reflexivity].
  - assert (L := C). destruct L as (_ & _ & _ & _ & L & _). destruct (w_receivers w) as [|r [|? ?]] eqn:W; try discriminate.
    cbn [open_all] in E. destruct (open_with_check utxo ueqb self r) as [x|] eqn:Q.
    + exists (Some (DToPublic (fst x) (snd x))), sub. assert (Q' := Q). apply owc_some in Q' as [O ->].
      assert (S1 : sub = [r]) by (eapply picks_det; [exact P|constructor; [auto|constructor]]).
      split; [reflexivity|]. split; [exact P|]. split; [exact C|]. split; [rewrite S1; discriminate|].
      assert (D : td_open (DToPublic (fst (rp_note r)) (snd (rp_note r))) = map rp_note sub) by (rewrite S1; cbn; destruct (rp_note r); reflexivity).
      split; [exact D|apply REC, D].
    + exists None, sub. split; [reflexivity|]. split; [exact P|]. right. destruct sub; [reflexivity|discriminate].
Qed.

(** A list of posts: one answer each, in order; without an authorization context all are [None]. *)
Theorem c77_batched : forall auth self l, exists ds, batched_transaction_data utxo ueqb auth self l = Some ds /\
  Forall2 (fun w d => if auth then transaction_data utxo ueqb self w = Some d else d = None) l ds.
Proof.
  induction l as [|w l (ds & E & F)]; [exists []; split; [reflexivity|constructor]|]. cbn [batched_transaction_data]. rewrite E.
  destruct auth.
  - destruct (c77_any_post self w) as (r & _ & T & _). rewrite T. exists (r :: ds). split; [reflexivity|]. constructor; auto.
  - exists (None :: ds). split; [reflexivity|]. constructor; auto.
Qed.

(** ** Posts made by signing *)
Section Sign.
Context {LD ID IT NF : Type}.
Variable dl : LD.
Variable di : ID.
Variable join : ID -> ID -> ID.
Variable joinl : LD -> LD -> ID.
Variable ldeqb : LD -> LD -> bool.
Variable ideqb : ID -> ID -> bool.
Variable H : nat.
Variable chk : bool.
Variable dg : IT -> LD.
Variable sh : IT -> nat.
Variable spend_item : N -> asset -> IT.
Variable ident : nat -> N.
Variable prove_ok : nat -> bool.
Notation post := (@post LD ID).
Notation eff := (@eff LD ID).

(** The coins a post makes for the owner of [self]: the signer's own, and those to that address. *)
Inductive mine (self : N) : list recv -> list (N * asset) -> Prop :=
  | mi_nil : mine self [] []
  | mi_own k a l c : mine self l c -> mine self (mk_recv None k a :: l) ((k, a) :: c)
  | mi_self k a l c : mine self l c -> mine self (mk_recv (Some self) k a :: l) ((k, a) :: c)
  | mi_other b k a l c : b <> self -> mine self l c -> mine self (mk_recv (Some b) k a :: l) c.

Definition shaped (p : post) : Prop :=
  (length (po_sources p), length (po_senders p), length (po_receivers p), length (po_sinks p)) = shape_of (po_kind p) /\
  exists k a l, po_receivers p = mk_recv None k a :: l.

Lemma build_post_done p e q e' : build_post prove_ok p e = @Done LD ID post q e' -> q = p.
Proof. unfold build_post. destruct (prove_ok (e_prf e)); [|discriminate]. intro J. injection J as <- _. reflexivity. Qed.
Lemma bind_done {A B} (o : @out LD ID A) (k : A -> eff -> @out LD ID B) b e : bind o k = Done b e -> exists a e1, o = Done a e1 /\ k a e1 = Done b e.
Proof. destruct o; cbn; intro J; try discriminate. eauto. Qed.
Lemma upgrade_all_len l : forall (e : eff) s, upgrade_all dl di join joinl ldeqb H chk dg sh spend_item l e = Some s -> length s = length l.
Proof.
  induction l as [|x l IH]; intros e s J; cbn [upgrade_all] in J; [injection J as <-; reflexivity|].
  destruct (upgrade dl di join joinl ldeqb H chk dg sh spend_item x e); [|discriminate].
  destruct (upgrade_all dl di join joinl ldeqb H chk dg sh spend_item l e) eqn:Q; [|discriminate]. injection J as <-. cbn. f_equal. eauto.
Qed.
Lemma array2_done o s e : @into_array2 LD ID o = Done s e -> length s = 2.
Proof.
  unfold into_array2. intro J. apply bind_done in J as (a & e1 & _ & K). destruct (Nat.eqb_spec (length a) 2); [|discriminate].
  injection K as <- _. assumption.
Qed.

Notation join_round := (join_round dl di join joinl ldeqb H chk dg sh spend_item ident prove_ok).
Notation join_loop := (join_loop dl di join joinl ldeqb H chk dg sh spend_item ident prove_ok).
Lemma join_round_shaped id : forall chunks joins zeroes posts e j z ps e', Forall shaped posts ->
  join_round id chunks joins zeroes posts e = Done (j, z, ps) e' -> Forall shaped ps.
Proof.
  induction chunks as [|[a b] r IH]; intros joins zeroes posts e j z ps e' F J; cbn [SnModel.join_round] in J; [injection J as _ _ <- _; exact F|].
  destruct (upgrade_all _ _ _ _ _ _ _ _ _ _ [a; b] e) as [s|] eqn:U2; [|discriminate]. apply upgrade_all_len in U2.
  destruct (vsum 0 (values s)); [|discriminate]. unfold next_join, receiver, draw in J.
  apply bind_done in J as (p & e2 & B & J). apply build_post_done in B as ->.
  destruct (insert_utxos _ _ _ _ _ _ _ _ _ e2); [|discriminate]. eapply IH; [|exact J]. apply Forall_app. split; [exact F|].
  constructor; [|constructor]. split; [cbn; rewrite U2; reflexivity|]. cbn. eauto.
Qed.
Lemma join_loop_shaped id : forall fuel pre zeroes posts e j z ps e', Forall shaped posts ->
  join_loop fuel id pre zeroes posts e = Done (j, z, ps) e' -> Forall shaped ps.
Proof.
  induction fuel as [|fuel IH]; intros pre zeroes posts e j z ps e' F J; cbn [SnModel.join_loop] in J.
  - destruct (2 <? length pre); [discriminate|]. injection J as _ _ <- _. exact F.
  - destruct (2 <? length pre); [|injection J as _ _ <- _; exact F]. destruct (chunk2 pre) as [chunks rem].
    apply bind_done in J as ([[j1 z1] p1] & e1 & R & J). eapply IH; [|exact J]. eapply join_round_shaped; [exact F|exact R].
Qed.
Notation process_to_public := (process_to_public ident prove_ok).
Lemma process_shaped id acc s change (e : eff) p e' : length s = 2 -> process_to_public id acc s change e = Done p e' -> shaped (fst p).
Proof.
  intros L J. unfold SnModel.process_to_public in J. destruct (vsum 0 (values s)) as [v|]; [|discriminate].
  destruct (change <=? v)%N; unfold receiver, draw in J; apply bind_done in J as (q & e2 & B & J); apply build_post_done in B as ->;
    injection J as <- _; (split; [cbn; rewrite L; reflexivity|cbn; eauto]).
Qed.
Notation public_loop := (public_loop dl di join joinl ldeqb H chk dg sh spend_item ident prove_ok).
Lemma public_loop_shaped id acc : forall chunks change posts e c ps e', Forall shaped posts ->
  public_loop id acc chunks change posts e = Done (c, ps) e' -> Forall shaped ps.
Proof.
  induction chunks as [|[a b] r IH]; intros change posts e c ps e' F J; cbn [SnModel.public_loop] in J; [injection J as _ <- _; exact F|].
  destruct (upgrade_all _ _ _ _ _ _ _ _ _ _ [a; b] e) as [s|] eqn:U2; [|discriminate]. apply upgrade_all_len in U2.
  apply bind_done in J as (p & e2 & B & J). eapply IH; [|exact J]. apply Forall_app. split; [exact F|].
  constructor; [|constructor]. eapply process_shaped; [exact U2|exact B].
Qed.
Notation sign := (sign dl di join joinl ldeqb ideqb H chk dg sh spend_item ident prove_ok).
Lemma private_after_shaped m a addr sel e ps e' :
  private_after dl di join joinl ldeqb H chk dg sh spend_item ident prove_ok m a addr sel e = Done ps e' -> Forall shaped ps.
Proof.
  unfold private_after, compute_batched. intro J. apply bind_done in J as ([posts s] & e1 & C & J).
  apply bind_done in C as ([[pre' z] posts'] & e2 & R & C). apply bind_done in C as (s' & e3 & A2 & C). injection C as <- <- _.
  apply array2_done in A2. apply join_loop_shaped in R; [|constructor].
  unfold receiver, draw in J. apply bind_done in J as (p & e4 & B & J). apply build_post_done in B as ->. injection J as <- _.
  apply Forall_app. split; [exact R|]. constructor; [|constructor]. split; [cbn; rewrite A2; reflexivity|cbn; eauto].
Qed.
Lemma sign_shaped accounts auth m t e ps e' : sign accounts auth m t e = Done ps e' -> Forall shaped ps.
Proof.
  intro J. apply then_rollback_done in J as (e1 & J). unfold sign_internal in J. destruct t as [a|a addr|a account].
  - destruct auth; [|discriminate]. unfold receiver, draw in J. apply bind_done in J as (p & e2 & B & J). apply build_post_done in B as ->.
    injection J as <- _. constructor; [|constructor]. split; [reflexivity|cbn; eauto].
  - destruct accounts; [|discriminate]. unfold withdraw_private in J. apply bind_done in J as (sel & e2 & _ & J).
    eapply private_after_shaped. exact J.
  - destruct accounts; [|discriminate]. unfold withdraw_public, compute_to_public in J. apply bind_done in J as (sel & e2 & _ & J).
    destruct (chunk2 (snd sel)) as [chunks rem]. apply bind_done in J as ([c posts] & e3 & R & J). apply public_loop_shaped in R; [|constructor].
    destruct rem as [|r0 rem]; [injection J as <- _; exact R|]. apply bind_done in J as (s & e4 & A2 & J). apply array2_done in A2.
    apply bind_done in J as (p & e5 & B & J). injection J as <- _. apply Forall_app. split; [exact R|]. constructor; [|constructor].
    eapply process_shaped; [exact A2|exact B].
Qed.

Lemma mine_open self l c : mine self l c -> open_all utxo ueqb self (map (wire_of_recv utxo self) l) = c.
Proof.
  induction 1 as [|k a l c M IH|k a l c M IH|b k a l c B M IH]; [reflexivity| | |]; cbn [map open_all];
    unfold open_with_check, open_note, wire_of_recv; cbn [rc_to rc_key rc_asset rp_to rp_note rp_utxo].
  1,2: rewrite N.eqb_refl; rewrite (proj2 (ueqb_spec _ _) eq_refl); fold (wire_of_recv utxo self); f_equal; exact IH.
  rewrite (proj2 (N.eqb_neq b self) B). exact IH.
Qed.
Lemma mine_total self l : exists c, mine self l c.
Proof.
  induction l as [|[[b|] k a] l [c M]]; [exists []; constructor| |eexists; constructor; exact M].
  destruct (N.eq_dec b self) as [->|B]; [exists ((k, a) :: c); constructor; exact M|exists c; apply mi_other; auto].
Qed.

Lemma shaped_data self p : shaped p -> exists d, transaction_data utxo ueqb self (wire_of utxo self p) = Some (Some d) /\
  data_kind d = po_kind p /\ mine self (po_receivers p) (td_open d).
Proof.
  intros [S (k & a & l & R)]. destruct (mine_total self (po_receivers p)) as [c M]. pose proof (mine_open _ _ _ M) as E.
  assert (C : from_post (wire_of utxo self p) = Some (po_kind p)).
  { apply from_post_spec. unfold wire_of, canonical, requires_authorization, has_public_participants. cbn [w_auth w_asset_id w_sources w_senders w_receivers w_sinks].
    rewrite map_length. destruct (po_kind p); cbn [shape_of] in S; injection S as -> -> -> ->; repeat split; reflexivity. }
  unfold transaction_data. rewrite C. cbn [wire_of w_receivers].
  assert (LEN : length (po_receivers p) = snd (fst (shape_of (po_kind p)))) by (rewrite <- S; reflexivity).
  assert (O : open_with_check utxo ueqb self (wire_of_recv utxo self (mk_recv None k a)) = Some (k, a)) by (apply owc_some; repeat split).
  rewrite R in *. destruct (po_kind p); cbn [shape_of fst snd] in LEN.
  - destruct l; [|discriminate]. cbn [map open_all] in *. rewrite O in E |- *. subst c.
    eexists. split; [reflexivity|]. split; [reflexivity|exact M].
  - rewrite E. destruct c as [|c0 c]; [inversion M|]. eexists. split; [reflexivity|]. split; [reflexivity|exact M].
  - destruct l; [|discriminate]. cbn [map open_all] in *. rewrite O in E |- *. subst c.
    eexists. split; [reflexivity|]. split; [reflexivity|exact M].
Qed.

(** Signing with data does what signing does: same posts, errors, panics and effects.  The
    [expect] is never reached, and beside each post are exactly the coins it makes for the
    signer. *)
Theorem c77_signed : forall self accounts m t e,
  match sign accounts true m t e with
  | Done ps e' => exists l, sign_with_transaction_data utxo ueqb dl di join joinl ldeqb ideqb H chk dg sh spend_item ident prove_ok self accounts m t e = Done l e' /\
      map fst l = ps /\
      Forall (fun pd => data_kind (snd pd) = po_kind (fst pd) /\ mine self (po_receivers (fst pd)) (td_open (snd pd)) /\ td_open (snd pd) <> []) l
  | Failed x e' => sign_with_transaction_data utxo ueqb dl di join joinl ldeqb ideqb H chk dg sh spend_item ident prove_ok self accounts m t e = Failed x e'
  | Panicked => sign_with_transaction_data utxo ueqb dl di join joinl ldeqb ideqb H chk dg sh spend_item ident prove_ok self accounts m t e = Panicked
  end.
Proof.
  intros self accounts m t e. unfold sign_with_transaction_data. destruct (sign accounts true m t e) as [ps e'|x e'|] eqn:S; cbn [bind]; try reflexivity.
  apply sign_shaped in S.
  assert (A : exists l, attach utxo ueqb self ps = Some l /\ map fst l = ps /\
    Forall (fun pd => data_kind (snd pd) = po_kind (fst pd) /\ mine self (po_receivers (fst pd)) (td_open (snd pd)) /\ td_open (snd pd) <> []) l).
  { induction S as [|p ps SP SS (l & A & M & F)]; [exists []; repeat split; constructor|]. cbn [attach].
    destruct (shaped_data self p SP) as (d & T & K & MI). rewrite T, A. exists ((p, d) :: l). split; [reflexivity|]. split; [cbn; rewrite M; reflexivity|].
    constructor; [|exact F]. cbn [fst snd]. split; [exact K|]. split; [exact MI|]. destruct SP as [_ (k & a & l' & R)]. rewrite R in MI. inversion MI. discriminate. }
  destruct A as (l & -> & M & F). exists l. auto.
Qed.

(** Over the state of a signer: with an authorization context, the same state and error as
    signing; without one it is refused and nothing changes. *)
Theorem c77_signer : forall self accounts auth (s : signer (LD := LD) (ID := ID) (NF := NF)) t rng prf,
  let w := signer_sign_with utxo ueqb dl di join joinl ldeqb ideqb H chk dg sh spend_item ident prove_ok self accounts auth s t rng prf in
  let r := signer_sign dl di join joinl ldeqb ideqb H chk dg sh spend_item ident prove_ok accounts auth s t rng prf in
  if auth then option_map fst w = option_map fst r /\
    option_map (fun x => match snd x with inl l => inl (map fst l) | inr y => inr y end) w = option_map snd r
  else w = Some (s, inr MissingProofAuthorizationKey).
Proof.
  intros self accounts auth s t rng prf. cbv zeta. destruct auth; [|reflexivity]. unfold signer_sign_with, signer_sign, on_signer.
  pose proof (c77_signed self accounts (s_assets s) t (mk_eff (s_acc s) rng prf)) as C.
  destruct (sign accounts true (s_assets s) t (mk_eff (s_acc s) rng prf)) as [ps e'|x e'|].
  - destruct C as (l & -> & M & _). cbn. rewrite M. auto.
  - rewrite C. auto.
  - rewrite C. auto.
Qed.
End Sign.
End Props.

(** ** Concrete cases *)
Definition xd_eqb (x y : N * N * asset) : bool :=
  let '(a, b, (c, d)) := x in let '(a', b', (c', d')) := y in ((a =? a') && (b =? b') && (c =? c') && (d =? d'))%N.
Lemma xd_eqb_spec x y : xd_eqb x y = true <-> x = y.
Proof.
  destruct x as [[a b] [c d]], y as [[a' b'] [c' d']]. unfold xd_eqb. rewrite !andb_true_iff, !N.eqb_eq.
  split; [intros (((-> & ->) & ->) & ->); reflexivity|intro J; injection J as -> -> -> ->; auto].
Qed.
Definition xd_utxo (a k : N) (x : asset) : N * N * asset := (a, k, x).
Definition xd_sign (auth : bool) := signer_sign_with (NF := N) xd_utxo xd_eqb 0 D0 DJ DL Nat.eqb dig_eqb 4 false (fun x : nat => x) xs_sh xs_spend_item xn_ident xn_all 1%N true auth.
Definition datas {X Y E} (r : option (X * (list (Y * data) + E))) : option (list data) :=
  match r with Some (_, inl l) => Some (map snd l) | _ => None end.

(** The transfer of C16's example: the payment to 9 is not in the data, the change is. *)
Example ex_c77_signed : datas (xd_sign true xn_s (PrivateTransfer (7, 13)%N 9%N) 0 0) = Some [
  DPrivateTransfer [(50, (7, 9)); (51, (7, 0))]; DPrivateTransfer [(52, (7, 5)); (53, (7, 0))];
  DPrivateTransfer [(54, (7, 1))]]%N.
Proof. vm_compute. reflexivity. Qed.
Example ex_c77_self : datas (xd_sign true xn_s (PrivateTransfer (7, 5)%N 1%N) 0 0) = Some [
  DPrivateTransfer [(51, (7, 0)); (52, (7, 5))]]%N.
Proof. vm_compute. reflexivity. Qed.
Example ex_c77_public : datas (xd_sign true xn_s (ToPublic (7, 11)%N 9%N) 0 0) = Some [
  DToPublic 50 (7, 1); DToPublic 52 (7, 0)]%N.
Proof. vm_compute. reflexivity. Qed.
Example ex_c77_to_private : datas (xd_sign true xn_s (ToPrivate (7, 11)%N) 0 0) = Some [DToPrivate 50 (7, 11)]%N.
Proof. vm_compute. reflexivity. Qed.

(** Posts of others: a transfer with one note for us; one whose utxo is not the one described;
    one with a note too many; one for others only. *)
Definition xd_w (rs : list (rpost (N * N * asset))) : wire (N * N * asset) := mk_wire true false 0 2 rs 0.
Definition xd_r (to k : N) (a : asset) := mk_rpost (to, k, a) to (k, a).
Example ex_c77_any : batched_transaction_data xd_utxo xd_eqb true 1%N
  [xd_w [xd_r 4 30 (7, 2); xd_r 1 31 (7, 3)]; xd_w [xd_r 4 30 (7, 2); mk_rpost (1, 31, (7, 3)) 1 (31, (7, 300))];
   xd_w [xd_r 1 30 (7, 2); xd_r 1 31 (7, 3); xd_r 1 32 (7, 3)]; xd_w [xd_r 4 30 (7, 2); xd_r 5 31 (7, 3)]]%N
  = Some [Some (DPrivateTransfer [(31, (7, 3))]%N); None; None; None].
Proof. vm_compute. reflexivity. Qed.
Example ex_c77_reconstruct : reconstruct_utxo xd_utxo (DPrivateTransfer [(31, (7, 3))]%N) 1%N = [(1, 31, (7, 3))]%N.
Proof. reflexivity. Qed.

(** Signing alone needs no authorization context for transfers, signing with data does. *)
Theorem c77_context_refuted : exists s t s' ps, xs_synced false xn_L s /\
  signer_sign (NF := N) 0 D0 DJ DL Nat.eqb dig_eqb 4 false (fun x : nat => x) xs_sh xs_spend_item xn_ident xn_all true false s t 0 0 = Some (s', inl ps) /\
  xd_sign false s t 0 0 = Some (s, inr MissingProofAuthorizationKey).
Proof.
  exists xn_s, (PrivateTransfer (7, 5)%N 9%N), xn_s,
    (match xn_sign xn_all xn_s (PrivateTransfer (7, 5)%N 9%N) 0 0 with Some (_, inl ps) => ps | _ => [] end).
  split; [apply xn_synced|]. split; [vm_compute; reflexivity|reflexivity].
Qed.

Print Assumptions c77_any_post.
Print Assumptions c77_batched.
Print Assumptions c77_signed.
Print Assumptions c77_signer.
Print Assumptions c77_context_refuted.
