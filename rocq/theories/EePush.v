(** What pushing the posts of a signer does to the ledger. *)
From Coq Require Import List Arith NArith Bool Lia Permutation.
From Verif Require Import MtModel MtSpec MtLemmas MtInner MtInv MtFull MtSingle PtModel PtSpec FoSpec AssetModel AssetSpec AssetLemmas CkModel CkSpec SgModel SgSpec SnModel SnSpec SnGood
  LgModel LgSpec LgLemmas LgInv LgBal LgHist LgPost EeModel EeKeys.
Import ListNotations.
Open Scope nat_scope.
Notation recv := CkModel.recv (only parsing).
Notation sd_post := SnModel.post (only parsing).

Lemma amount_app l l' : amount (l ++ l') = (amount l + amount l')%N.
Proof. unfold amount. induction l as [|x l IH]; cbn [app fold_right]; [reflexivity|]. rewrite IH. lia. Qed.
Lemma total_cons a l id : total (a :: l) id = ((if fst a =? id then snd a else 0) + total l id)%N.
Proof. unfold total. cbn [filter]. destruct (fst a =? id)%N; reflexivity. Qed.
Lemma total_zero id l : Forall (fun a => snd a = 0%N) l -> total l id = 0%N.
Proof. induction 1 as [|a l F _ IH]; [reflexivity|]. rewrite total_cons, F, IH. destruct (fst a =? id)%N; reflexivity. Qed.
Lemma total_all_of id id' l : all_of id l -> total l id' = if (id =? id')%N then amount l else 0%N.
Proof.
  induction 1 as [|a l F _ IH]; [destruct (id =? id')%N; reflexivity|]. rewrite total_cons, IH, F.
  destruct (id =? id')%N; reflexivity.
Qed.

Section Push.
Context {CM ON UT NT IN IT LD ID KEY SG PRF : Type}.
Variable dl : LD.
Variable di : ID.
Variable join : ID -> ID -> ID.
Variable joinl : LD -> LD -> ID.
Variable ideqb : ID -> ID -> bool.
Variable H : nat.
Variable item : UT -> IT.
Variable dg : IT -> LD.
Variable sh : IT -> nat.
Variable comeqb : CM -> CM -> bool.
Variable uteqb : UT -> UT -> bool.
Variable nteqb : NT -> NT -> bool.
Variable probe : list (fnull CM ON) -> fnull CM ON -> fnull CM ON -> bool.
Variable dout : ID.
Variable incoming : NT -> IN.
Variable ovchk : bool.
Variable verify_sig : KEY -> SG -> body CM ON UT NT ID PRF -> list N -> bool.
Variable verify : tshape -> list (pin CM UT IN ID KEY) -> PRF -> option bool.
Variable spend_item : N -> asset -> IT.
Variable spend_null : N -> asset -> CM.
Variable out_note : N -> asset -> ON.
Variable utxo_of : option N -> N -> asset -> UT.
Variable note_of : option N -> N -> asset -> NT.
Variable authorize : body CM ON UT NT ID PRF -> list N -> KEY * SG.
Variable prove : sd_post (LD := LD) (ID := ID) -> PRF.

Notation lg := (LgModel.ledger CM ON UT NT LD ID).
Notation spst := (@SnModel.post LD ID).
Notation push_one := (push_one dl di join joinl ideqb H item dg sh comeqb uteqb nteqb probe dout incoming ovchk verify_sig verify).
Notation push := (push dl di join joinl ideqb H item dg sh comeqb uteqb nteqb probe dout incoming ovchk verify_sig verify).
Notation Inv := (Inv dl di join joinl H item dg sh).
Notation leaf := (fun u => dg (item u)).
Notation valid_sender := (valid_sender dl di join joinl ideqb dg sh H spend_item).
Notation to_post := (to_post spend_null out_note utxo_of note_of dout authorize prove).
Notation sender_post := (sender_post (LD := LD) spend_null out_note dout).
Notation receiver_post := (receiver_post utxo_of note_of).
Notation null_of := (SgSpec.null_of spend_null).

(** What the circuit checks: one asset id, the same amount in and out, and for every spend a
    membership proof for its output, or a value of zero. *)
Definition circuit_ok (p : spst) : Prop :=
  (exists id, conserves id p) /\
  Forall (fun s => match sd_proof s with
    | None => snd (sd_asset s) = 0%N
    | Some (q, r) => path_verify join joinl ideqb q r (dg (spend_item (sd_key s) (sd_asset s))) = true
    end) (po_senders p).

Hypothesis HH : 2 <= H.
Hypothesis ID_spec : forall a b, ideqb a b = true <-> a = b.
Hypothesis CM_spec : forall a b, comeqb a b = true <-> a = b.
Hypothesis UT_spec : forall a b, uteqb a b = true <-> a = b.
(** Signatures and proofs are complete. *)
Hypothesis authorizes : forall b accounts, verify_sig (fst (authorize b accounts)) (snd (authorize b accounts)) b accounts = true.
Hypothesis complete : forall (p : spst) s, circuit_ok p -> post_shape (to_post p) = Some s ->
  verify s (post_input incoming (to_post p)) (prove p) = Some true.

(** The three forms of posts, pushed by [account]. *)
Definition form (account : N) (p : spst) : Prop :=
  (po_sources p = [] /\ length (po_senders p) = 2 /\ length (po_receivers p) = 2 /\ po_sinks p = [] /\ po_sink_accounts p = []) \/
  (po_sources p = [] /\ length (po_senders p) = 2 /\ length (po_receivers p) = 1 /\ (exists a, po_sinks p = [a]) /\ po_sink_accounts p = [account]) \/
  ((exists a, po_sources p = [a]) /\ po_senders p = [] /\ length (po_receivers p) = 1 /\ po_sinks p = [] /\ po_sink_accounts p = []).

(** The account has the amount of the source, exists for a sink, and does not overflow. *)
Definition able (g : lg) (account : N) (p : spst) : Prop :=
  (forall a, In a (po_sources p) -> exists b, public_balance g account (fst a) = Some b /\ (snd a <= b)%N) /\
  (forall a, In a (po_sinks p) -> (exists m, mget (g_accounts g) account = Some m) /\ (balance g account (fst a) + snd a < u128)%N).

(** The utxos and notes of the receivers of a post. *)
Definition out_utxo (r : SnModel.recv) : UT := utxo_of (rc_to r) (rc_key r) (rc_asset r).
Definition out_pair (r : SnModel.recv) : UT * NT := (out_utxo r, note_of (rc_to r) (rc_key r) (rc_asset r)).
Definition nulls_of (p : spst) : list (fnull CM ON) := map (fun s => sp_null (sender_post s)) (po_senders p).

Lemma coms_of p : map fn_com (nulls_of p) = map null_of (spent p).
Proof. unfold nulls_of, spent. rewrite !map_map. reflexivity. Qed.

(** The public part of the effect. *)
Definition paid (g g' : lg) (account : N) (srcs snks : list asset) : Prop :=
  (forall a id, (balance g' a id + (if a =? account then total srcs id else 0) =
                 balance g a id + (if a =? account then total snks id else 0))%N) /\
  (forall a, (exists m, mget (g_accounts g') a = Some m) <-> (exists m, mget (g_accounts g) a = Some m)).

Lemma spend_all_exact (ss : list (spost CM ON ID)) : forall g : lg, NoDup (map (fun s => fn_com (sp_null s)) ss) ->
  (forall c, In c (map (fun s => fn_com (sp_null s)) ss) -> ~ In c (map fn_com (g_nulls g))) ->
  g_nulls (spend_all comeqb probe g ss) = g_nulls g ++ map sp_null ss.
Proof.
  induction ss as [|s ss IH]; intros g ND F; cbn [spend_all map]; [symmetry; apply app_nil_r|].
  cbn [map] in ND. inversion ND as [|? ? N1 N2]; subst.
  assert (NI : null_insert comeqb probe (g_nulls g) (sp_null s) = g_nulls g ++ [sp_null s]).
  { unfold null_insert. destruct (null_contains comeqb probe (g_nulls g) (sp_null s)) eqn:C; [|reflexivity].
    exfalso. unfold null_contains in C. apply existsb_exists in C. destruct C as (y & I & C). apply andb_prop in C. destruct C as [_ C].
    apply CM_spec in C. apply (F (fn_com (sp_null s))); [left; reflexivity|]. rewrite C. apply in_map. exact I. }
  rewrite IH.
  - unfold spend. cbn [g_nulls]. rewrite NI, <- app_assoc. reflexivity.
  - exact N2.
  - intros c I. unfold spend. cbn [g_nulls]. rewrite NI, map_app, in_app_iff. intros [J|[J|[]]].
    + apply (F c); [right; exact I|exact J].
    + apply N1. rewrite J. exact I.
Qed.

Lemma debit_one (g : lg) account a b : public_balance g account (fst a) = Some b -> (snd a <= b)%N ->
  exists g', update_public_balances ovchk g (fst a) [(account, snd a)] [] = (g', ROk tt) /\ paid g g' account [a] [].
Proof.
  intros B C. unfold update_public_balances. cbn [debit_all credit_all]. unfold public_balance in B.
  destruct (mget (g_accounts g) account) as [m|] eqn:M; [|discriminate]. rewrite B. unfold vsub.
  destruct (N.leb_spec (snd a) b); [|lia]. eexists. split; [reflexivity|]. split.
  - intros a' id'. rewrite (balance_mset g account m (fst a) (b - snd a) a' id' M).
    rewrite ?total_cons. change (total [] id') with 0%N. assert (BG : balance g account (fst a) = b) by (unfold balance, public_balance; rewrite M, B; reflexivity).
    destruct (N.eqb_spec account a') as [<-|Ha]; cbn [andb].
    + rewrite N.eqb_refl. destruct (N.eqb_spec (fst a) id') as [<-|]; [|lia]. rewrite BG. lia.
    + destruct (N.eqb_spec a' account); [congruence|]. lia.
  - intro a'. apply accounts_mset with (m := m). exact M.
Qed.

Lemma credit_one (g : lg) account a m : mget (g_accounts g) account = Some m -> (balance g account (fst a) + snd a < u128)%N ->
  exists g', update_public_balances ovchk g (fst a) [] [(account, snd a)] = (g', ROk tt) /\ paid g g' account [] [a].
Proof.
  intros M C. unfold update_public_balances. cbn [debit_all credit_all]. rewrite M.
  assert (BG : match mget m (fst a) with Some b => b | None => 0%N end = balance g account (fst a)) by (unfold balance, public_balance; rewrite M; reflexivity).
  rewrite BG. unfold vadd. destruct (N.ltb_spec (balance g account (fst a) + snd a) u128); [|lia]. eexists. split; [reflexivity|]. split.
  - intros a' id'. rewrite (balance_mset g account m (fst a) _ a' id' M). rewrite ?total_cons. change (total [] id') with 0%N.
    destruct (N.eqb_spec account a') as [<-|Ha]; cbn [andb].
    + rewrite N.eqb_refl. destruct (N.eqb_spec (fst a) id') as [<-|]; lia.
    + destruct (N.eqb_spec a' account); [congruence|]. reflexivity.
  - intro a'. apply accounts_mset with (m := m). exact M.
Qed.

Lemma paid_refl g g2 account : g_accounts g2 = g_accounts g -> paid g g2 account [] [].
Proof.
  intro A. split; [|intro a; rewrite A; reflexivity]. intros a id. 
  unfold balance, public_balance. rewrite A. reflexivity.
Qed.
Lemma paid_from g g2 g' account s k : g_accounts g2 = g_accounts g -> paid g2 g' account s k -> paid g g' account s k.
Proof.
  intros A [P Q]. split.
  - intros a id. specialize (P a id). unfold balance, public_balance in *. rewrite A in P. exact P.
  - intro a. rewrite (Q a), A. reflexivity.
Qed.

(** The senders' roots are roots of the ledger, whose shards hold the items [xs]. *)
Lemma roots_known (g : lg) (xs : list IT) s : Inv g -> (forall x, sh x < length (g_shards g)) ->
  (forall j, shard_leaves leaf g j = shard_items dg sh j xs) -> valid_sender xs s ->
  sp_out (sender_post s) = dout \/ In (sp_out (sender_post s)) (map s_root (g_trees g)).
Proof.
  intros I LT LV V. unfold EeModel.sender_post. cbn [sp_out]. unfold SnGood.valid_sender in V. destruct (sd_proof s) as [[q r]|]; [right|left; reflexivity].
  cbv zeta in V. destruct V as [-> _]. set (j := sh (item_of spend_item (coin s))).
  destruct (nth_error (g_trees g) j) as [t|] eqn:T.
  - destruct (li_tree dl di join joinl H item dg sh g I j t T) as (_ & R & _). rewrite LV in R. unfold capacity in R.
    apply in_map_iff. exists t. split; [|eapply nth_error_In; exact T]. rewrite R, spec_root_sd. reflexivity.
  - apply nth_error_None in T. rewrite (li_len dl di join joinl H item dg sh g I) in T. specialize (LT (item_of spend_item (coin s))). fold j in LT. lia.
Qed.

(** The effect of pushing posts: their nullifiers, utxos and notes are appended, and the account is
    debited and credited. *)
Record posted (g : lg) (account : N) (ps : list spst) (g' : lg) : Prop := {
  po_inv : Inv g';
  po_nulls : g_nulls g' = g_nulls g ++ flat_map nulls_of ps;
  po_utxos : g_utxos g' = g_utxos g ++ map out_utxo (flat_map po_receivers ps);
  po_width : length (g_shards g') = length (g_shards g);
  po_shards : forall i, shard g' i = shard g i ++ map out_pair (filter (fun r => sh (item (out_utxo r)) =? i) (flat_map po_receivers ps));
  po_paid : paid g g' account (flat_map po_sources ps) (flat_map po_sinks ps) }.

Lemma form_shape account p : form account p -> exists s, post_shape (to_post p) = Some s /\
  p_accounts (to_post p) = po_sink_accounts p /\ signed verify_sig (to_post p) /\
  (b_asset (p_body (to_post p)) = None <-> b_sources (p_body (to_post p)) ++ b_sinks (p_body (to_post p)) = []) /\
  match s with
  | TToPrivate => exists a, po_sources p = [a] /\ po_sinks p = []
  | TPrivate => po_sources p = [] /\ po_sinks p = []
  | TToPublic => exists a, po_sources p = [] /\ po_sinks p = [a]
  end.
Proof.
  intros [(A & B & C & D & E)|[(A & B & C & (a & D) & E)|((a & A) & B & C & D & E)]];
    unfold post_shape, EeModel.to_post, requires_authorization; cbv zeta; rewrite ?B, ?D, ?E; cbn [Nat.ltb Nat.leb length];
    cbn [p_auth p_body p_accounts is_some]; unfold post_body; cbn [b_asset b_sources b_senders b_receivers b_sinks]; rewrite ?map_length, ?A, ?B, ?C, ?D;
    cbn [map app length hd_error is_some select_shape].
  - exists TPrivate. split; [reflexivity|]. split; [reflexivity|]. split; [|split; [split; reflexivity|auto]].
    unfold signed. cbn [p_body p_auth p_accounts b_senders]. split; [|destruct (po_senders p); discriminate]. intros _.
    exists (fst (authorize (post_body spend_null out_note utxo_of note_of dout prove p) [])), (snd (authorize (post_body spend_null out_note utxo_of note_of dout prove p) [])).
    unfold post_body. rewrite A, D. split; [apply f_equal, surjective_pairing|apply authorizes].
  - exists TToPublic. split; [reflexivity|]. split; [reflexivity|]. split; [|split; [split; discriminate|eauto]].
    unfold signed. cbn [p_body p_auth p_accounts b_senders]. split; [|destruct (po_senders p); discriminate]. intros _.
    exists (fst (authorize (post_body spend_null out_note utxo_of note_of dout prove p) [account])), (snd (authorize (post_body spend_null out_note utxo_of note_of dout prove p) [account])).
    unfold post_body. rewrite A, D. split; [apply f_equal, surjective_pairing|apply authorizes].
  - exists TToPrivate. split; [reflexivity|]. split; [reflexivity|]. split; [|split; [split; discriminate|eauto]].
    unfold signed. cbn [p_body p_auth p_accounts b_senders map]. split; [contradiction|reflexivity].
Qed.

Lemma push_one_posted (g : lg) account p xs : Inv g -> (forall x, sh x < length (g_shards g)) ->
  (forall j, shard_leaves leaf g j = shard_items dg sh j xs) -> Forall (valid_sender xs) (po_senders p) ->
  form account p -> (exists id, conserves id p) -> able g account p ->
  NoDup (map null_of (spent p)) -> (forall c, In c (spent p) -> ~ In (null_of c) (map fn_com (g_nulls g))) ->
  NoDup (map out_utxo (po_receivers p)) -> (forall r, In r (po_receivers p) -> ~ In (out_utxo r) (g_utxos g)) ->
  exists g', push_one g account (to_post p) = (g', ROk true) /\ posted g account [p] g'.
Proof.
  intros I LT LV V F CO [AS AK] N1 N2 U1 U2. destruct (form_shape account p F) as (s & S1 & S2 & S3 & S4 & S5).
  assert (CK : circuit_ok p).
  { split; [exact CO|]. eapply Forall_impl; [|exact V]. intros x. unfold SnGood.valid_sender. destruct (sd_proof x) as [[q r]|]; [|auto]. cbv zeta. intros [_ Q]. exact Q. }
  pose proof (complete p s CK S1) as VP.
  assert (BD : p_body (to_post p) = post_body spend_null out_note utxo_of note_of dout prove p).
  { unfold EeModel.to_post. cbv zeta. destruct (requires_authorization _); reflexivity. }
  assert (CM1 : commitments (to_post p) = map null_of (spent p)).
  { unfold commitments, spent. rewrite BD. unfold post_body. cbn [b_senders]. rewrite !map_map. reflexivity. }
  assert (OU : outputs (to_post p) = map out_utxo (po_receivers p)).
  { unfold outputs. rewrite BD. unfold post_body. cbn [b_receivers]. rewrite !map_map. reflexivity. }
  set (sacc := match s with TToPrivate => [account] | _ => [] end). set (kacc := match s with TToPublic => [account] | _ => [] end).
  assert (ACC : acceptable probe dout incoming verify_sig verify g (to_post p) sacc kacc).
  { split; [exact S3|]. split; [|split; [rewrite CM1; exact N1|split; [|split; [|split]]]].
    - unfold public_ok. cbv zeta. split; [exact S4|]. rewrite BD. unfold post_body. cbn [b_sources b_sinks b_asset]. unfold sacc, kacc.
      destruct s; [destruct S5 as (a & P1 & P2)|destruct S5 as (P1 & P2)|destruct S5 as (a & P1 & P2)]; rewrite P1, P2; cbn [map length combine app hd_error].
      + split; [reflexivity|]. split; [reflexivity|]. split; [|intros ? []]. intros x v id E [J|[]]. injection E as <-. injection J as <- <-.
        apply AS. rewrite P1. left. reflexivity.
      + split; [reflexivity|]. split; [reflexivity|]. split; [intros ? ? ? ? []|intros ? []].
      + split; [reflexivity|]. split; [reflexivity|]. split; [intros ? ? ? ? []|]. intros x [<-|[]].
        destruct (AK a) as [(m & M) _]; [rewrite P2; left; reflexivity|]. exists m. apply mget_in. exact M.
    - intros x J. rewrite BD in J. unfold post_body in J. cbn [b_senders] in J. apply in_map_iff in J. destruct J as (y & <- & J).
      rewrite Forall_forall in V. apply (roots_known g xs y I LT LV (V y J)).
    - intros x J y K Q. exfalso. rewrite BD in J. unfold post_body in J. cbn [b_senders] in J. apply in_map_iff in J. destruct J as (z & <- & J).
      apply (N2 (coin z)); [unfold spent; apply in_map; exact J|]. change (null_of (coin z)) with (fn_com (sp_null (sender_post z))). rewrite <- Q. apply in_map. exact K.
    - unfold new_outputs. rewrite OU. split; [exact U1|]. intros u J. apply in_map_iff in J. destruct J as (r & <- & J). apply U2. exact J.
    - exists s, true. split; [exact S1|]. rewrite BD. exact VP. }
  pose proof (proj2 (validate_iff ideqb comeqb uteqb probe dout incoming verify_sig verify ID_spec CM_spec UT_spec g (to_post p) sacc kacc _) (conj ACC eq_refl)) as VA.
  destruct (post_key_spec dl di join joinl H item dg sh comeqb uteqb nteqb probe ovchk HH CM_spec UT_spec g (key_of (to_post p) sacc kacc) I)
    as (g2 & I2 & A2 & B2 & C2 & D2 & E2 & K2).
  { unfold key_of. cbn [k_receivers]. change (map rp_utxo (b_receivers (p_body (to_post p)))) with (outputs (to_post p)). rewrite OU. exact U1. }
  { unfold key_of. cbn [k_receivers]. change (map rp_utxo (b_receivers (p_body (to_post p)))) with (outputs (to_post p)). rewrite OU.
    intros u J. apply in_map_iff in J. destruct J as (r & <- & J). apply U2. exact J. }
  assert (B3 : g_nulls g2 = g_nulls g ++ nulls_of p).
  { rewrite B2. unfold key_of. cbn [k_senders]. rewrite spend_all_exact.
    - rewrite BD. unfold post_body, nulls_of. cbn [b_senders]. rewrite map_map. reflexivity.
    - change (map (fun s0 => fn_com (sp_null s0)) (b_senders (p_body (to_post p)))) with (commitments (to_post p)). rewrite CM1. exact N1.
    - change (map (fun s0 => fn_com (sp_null s0)) (b_senders (p_body (to_post p)))) with (commitments (to_post p)). rewrite CM1.
      intros c J. apply in_map_iff in J. destruct J as (x & <- & J). apply N2. exact J. }
  assert (C3 : g_utxos g2 = g_utxos g ++ map out_utxo (po_receivers p)).
  { rewrite C2. unfold key_of. cbn [k_receivers]. change (map rp_utxo (b_receivers (p_body (to_post p)))) with (outputs (to_post p)). rewrite OU. reflexivity. }
  assert (E3 : forall i, shard g2 i = shard g i ++ map out_pair (filter (fun r => sh (item (out_utxo r)) =? i) (po_receivers p))).
  { intro i. rewrite E2. f_equal. unfold key_of. cbn [k_receivers]. rewrite BD. unfold post_body. cbn [b_receivers]. generalize (po_receivers p).
    induction l as [|r l IH]; [reflexivity|]. cbn [map filter]. change (rp_utxo (receiver_post r)) with (out_utxo r). destruct (sh (item (out_utxo r)) =? i); cbn [map]; rewrite IH; reflexivity. }
  assert (PK : exists g', post_key dl di join joinl H item dg sh comeqb uteqb nteqb probe ovchk g (key_of (to_post p) sacc kacc) = (g', ROk tt) /\
    same_notes g2 g' /\ paid g g' account (po_sources p) (po_sinks p)).
  { rewrite K2. unfold key_of. cbn [k_asset k_sources k_sinks]. rewrite BD. unfold post_body. cbn [b_sources b_sinks b_asset]. unfold sacc, kacc.
    assert (AB : (forall a id, public_balance g2 a id = public_balance g a id) /\ (forall a id, balance g2 a id = balance g a id)).
    { unfold balance, public_balance. rewrite A2. split; reflexivity. }
    destruct s; [destruct S5 as (a & P1 & P2)|destruct S5 as (P1 & P2)|destruct S5 as (a & P1 & P2)]; rewrite P1, P2; cbn [map length combine app hd_error].
    - destruct (AS a) as (b & B & BL); [rewrite P1; left; reflexivity|]. rewrite <- (proj1 AB) in B.
      destruct (debit_one g2 account a b B BL) as (g' & U & PD). exists g'. split; [exact U|]. split; [eapply update_same; exact U|]. eapply paid_from; eassumption.
    - exists g2. split; [reflexivity|]. split; [apply same_notes_refl|apply paid_refl; exact A2].
    - destruct (AK a) as [(m & M) BL]; [rewrite P2; left; reflexivity|]. rewrite <- A2 in M. rewrite <- (proj2 AB) in BL.
      destruct (credit_one g2 account a m M BL) as (g' & U & PD). exists g'. split; [exact U|]. split; [eapply update_same; exact U|]. eapply paid_from; eassumption. }
  destruct PK as (g' & PK & (SN1 & SN2 & SN3 & SN4) & PD). exists g'. split.
  - unfold LgModel.push_one. rewrite S1. unfold sacc, kacc in VA, PK. destruct s; rewrite VA, PK; reflexivity.
  - constructor; cbn [flat_map]; rewrite ?app_nil_r.
    + apply (inv_same dl di join joinl H item dg sh g2 g' SN2 SN3 SN4 I2).
    + rewrite SN1. exact B3.
    + rewrite SN2. exact C3.
    + rewrite SN3. exact D2.
    + intro i. unfold shard at 1. rewrite SN3. apply E3.
    + exact PD.
Qed.

(** Pushing posts one after the other. *)
Definition minted (p : spst) : list IT := map (fun r => item (out_utxo r)) (po_receivers p).
Fixpoint valid_all (xs : list IT) (ps : list spst) : Prop :=
  match ps with
  | [] => True
  | p :: r => Forall (valid_sender xs) (po_senders p) /\ valid_all (xs ++ minted p) r
  end.

(** What has to hold of the account before the posts. *)
Definition ready (g : lg) (account : N) (ps : list spst) : Prop :=
  (length ps <= 1 \/ Forall (fun p => po_sources p = []) ps) /\
  (forall a, In a (flat_map po_sources ps) -> exists b, public_balance g account (fst a) = Some b /\ (snd a <= b)%N) /\
  (forall a, In a (flat_map po_sinks ps) -> exists m, mget (g_accounts g) account = Some m) /\
  (forall id, (0 < total (flat_map po_sinks ps) id \/ In id (map fst (flat_map po_sinks ps)) -> balance g account id + total (flat_map po_sinks ps) id < u128)%N).

Lemma posted_nil g account : Inv g -> posted g account [] g.
Proof.
  intro I. constructor; cbn [flat_map map filter]; rewrite ?app_nil_r; auto.
  - intro i. rewrite app_nil_r. reflexivity.
  - apply paid_refl. reflexivity.
Qed.

Lemma posted_cons g g1 g' account p ps : po_sources p = [] -> Forall (fun p => po_sources p = []) ps ->
  posted g account [p] g1 -> posted g1 account ps g' -> posted g account (p :: ps) g'.
Proof.
  intros Z ZS [A1 A2 A3 A4 A5 A6] [B1 B2 B3 B4 B5 B6]. cbn [flat_map] in *. rewrite !app_nil_r in *.
  assert (ZS' : flat_map po_sources ps = []).
  { clear - ZS. induction ZS as [|q qs E _ IH]; [reflexivity|]. cbn [flat_map]. rewrite E, IH. reflexivity. }
  constructor; cbn [flat_map].
  - exact B1.
  - rewrite B2, A2, <- app_assoc. reflexivity.
  - rewrite B3, A3, <- app_assoc, map_app. reflexivity.
  - congruence.
  - intro i. rewrite B5, A5, <- app_assoc, filter_app, map_app. reflexivity.
  - destruct A6 as [A6 A7], B6 as [B6 B7]. split; [|intro a; rewrite B7; apply A7].
    intros a id. specialize (A6 a id). specialize (B6 a id). rewrite Z, ZS' in *. rewrite !app_nil_l, !total_app.
    change (total [] id) with 0%N in *. destruct (a =? account)%N; lia.
Qed.

Lemma posted_leaves g account p g1 xs : posted g account [p] g1 ->
  (forall j, shard_leaves leaf g j = shard_items dg sh j xs) ->
  forall j, shard_leaves leaf g1 j = shard_items dg sh j (xs ++ minted p).
Proof.
  intros P LV j. unfold shard_leaves. rewrite (po_shards _ _ _ _ P), map_app. cbn [flat_map]. rewrite app_nil_r.
  change (map (fun un => dg (item (fst un))) (shard g j)) with (shard_leaves leaf g j). rewrite LV. unfold shard_items.
  rewrite filter_app, map_app. f_equal. unfold minted. generalize (po_receivers p). induction l as [|r l IH]; [reflexivity|].
  cbn [map filter]. destruct (sh (item (out_utxo r)) =? j); cbn [map]; rewrite IH; reflexivity.
Qed.

Lemma nodup_app_parts {A} (a b : list A) : NoDup (a ++ b) -> NoDup a /\ NoDup b /\ forall x, In x a -> ~ In x b.
Proof.
  induction a as [|x a IH]; intro N; cbn [app] in N; [split; [constructor|auto]|]. inversion N as [|? ? N1 N2]; subst.
  destruct (IH N2) as (P & Q & R). split; [constructor; [intro J; apply N1, in_or_app; auto|exact P]|]. split; [exact Q|].
  intros y [->|J]; [intro K; apply N1, in_or_app; auto|apply R; exact J].
Qed.

Theorem push_posted account ps : forall (g : lg) xs, Inv g -> (forall x, sh x < length (g_shards g)) ->
  (forall j, shard_leaves leaf g j = shard_items dg sh j xs) -> valid_all xs ps ->
  Forall (form account) ps -> Forall (fun p => exists id, conserves id p) ps -> ready g account ps ->
  NoDup (map null_of (all_spent ps)) -> (forall c, In c (all_spent ps) -> ~ In (null_of c) (map fn_com (g_nulls g))) ->
  NoDup (map out_utxo (flat_map po_receivers ps)) -> (forall r, In r (flat_map po_receivers ps) -> ~ In (out_utxo r) (g_utxos g)) ->
  exists g', push g account (map to_post ps) = (g', ROk true) /\ posted g account ps g'.
Proof.
  induction ps as [|p ps IH]; intros g xs I LT LV V F CO RD N1 N2 U1 U2; cbn [map LgModel.push].
  { exists g. split; [reflexivity|apply posted_nil; exact I]. }
  unfold all_spent in N1, N2. cbn [flat_map] in N1, N2, U1, U2. rewrite map_app in N1, U1.
  apply nodup_app_parts in N1, U1. destruct N1 as (N11 & N12 & N13), U1 as (U11 & U12 & U13).
  inversion F as [|? ? F1 F2]; subst. inversion CO as [|? ? C1 C2]; subst. destruct V as [V1 V2].
  destruct RD as (RS & RB & RA & RO). cbn [flat_map map] in RB, RA, RO.
  destruct (push_one_posted g account p xs I LT LV V1 F1 C1) as (g1 & P1 & PO); auto.
  - split.
    + intros a J. apply RB. apply in_or_app. auto.
    + intros a J. split; [apply (RA a); apply in_or_app; auto|].
      assert (TL : (snd a <= total (po_sinks p) (fst a))%N).
      { clear - J. induction (po_sinks p) as [|x l IH]; [destruct J|]. rewrite total_cons. destruct J as [->|J].
        - rewrite N.eqb_refl. lia.
        - specialize (IH J). destruct (fst x =? fst a)%N; lia. }
      specialize (RO (fst a)). rewrite total_app in RO. assert (In (fst a) (map fst (po_sinks p ++ flat_map po_sinks ps))) as J' by (apply in_map, in_or_app; auto).
      specialize (RO (or_intror J')). lia.
  - intros c J. apply N2. apply in_or_app. auto.
  - intros r J. apply U2. apply in_or_app. auto.
  - rewrite P1. destruct RS as [RS|RS].
    + destruct ps as [|p2 ps]; [|cbn [length] in RS; lia]. exists g1. split; [reflexivity|exact PO].
    + inversion RS as [|? ? RS1 RS2]; subst.
      destruct (IH g1 (xs ++ minted p)) as (g' & P2 & PO2); auto.
      * apply (po_inv _ _ _ _ PO).
      * intro x. rewrite (po_width _ _ _ _ PO). apply LT.
      * apply (posted_leaves g account p g1 xs PO LV).
      * split; [right; exact RS2|]. destruct (po_paid _ _ _ _ PO) as [PB PA]. cbn [flat_map] in PB. rewrite !app_nil_r in PB. split; [|split].
        -- intros a J. exfalso. apply in_flat_map in J. destruct J as (q & J1 & J2). rewrite Forall_forall in RS2. rewrite (RS2 q J1) in J2. destruct J2.
        -- intros a J. apply PA. apply (RA a). apply in_or_app. auto.
        -- intros id J. specialize (PB account id). rewrite N.eqb_refl, RS1 in PB. change (total [] id) with 0%N in PB.
           specialize (RO id). rewrite total_app in RO.
           assert (balance g account id + (total (po_sinks p) id + total (flat_map po_sinks ps) id) < u128)%N; [|lia].
           apply RO. destruct J as [J|J]; [left; lia|right]. rewrite map_app. apply in_or_app. auto.
      * intros c J. rewrite (po_nulls _ _ _ _ PO), map_app, in_app_iff. cbn [flat_map]. rewrite app_nil_r, coms_of. intros [K|K].
        -- apply (N2 c); [apply in_or_app; auto|exact K].
        -- apply (N13 (null_of c) K). apply in_map. exact J.
      * intros r J. rewrite (po_utxos _ _ _ _ PO), in_app_iff. cbn [flat_map]. rewrite app_nil_r. intros [K|K].
        -- apply (U2 r); [apply in_or_app; auto|exact K].
        -- apply (U13 (out_utxo r) K). apply in_map. exact J.
      * exists g'. split; [exact P2|]. eapply posted_cons; eassumption.
Qed.
End Push.
