(** C74, C75 and C76: signatures, keys and the signature of a post. *)
From Coq Require Import List Arith Bool NArith Field.
From Verif Require Import AlgBase AuModel.
Import ListNotations.

Section L.
Variable K : fld.
Variable C : curve K.
Add Field KF : (fth K).

Lemma padd_cancel (a b c : C) : padd a c = padd b c -> a = b.
Proof.
  intros E. destruct (padd_inv K C c) as (d & D). rewrite <- (padd_0 K C a), <- (padd_0 K C b), <- D.
  now rewrite !padd_assoc, E.
Qed.
Lemma padd_0_l (a : C) : padd p0 a = a.
Proof. rewrite padd_comm. apply padd_0. Qed.
Lemma gen_0 : pmul f0 (@gen K C) = p0.
Proof.
  apply (padd_cancel _ _ (pmul f0 gen)). rewrite padd_0_l, <- gen_add. f_equal. ring.
Qed.
Lemma gen_inj r s : pmul r (@gen K C) = pmul s gen -> r = s.
Proof.
  intros E. assert (pmul (fsub r s) (@gen K C) = p0) as Z.
  { apply (padd_cancel _ _ (pmul s gen)). rewrite padd_0_l, <- gen_add, <- E. f_equal. ring. }
  apply gen_free in Z. assert (r = fadd (fsub r s) s) as -> by ring. rewrite Z. ring.
Qed.
Lemma pmul_p0 r : pmul r (@p0 K C) = p0.
Proof. rewrite <- gen_0, gen_mul. f_equal. ring. Qed.
Lemma peqb_true (a b : C) : a = b -> peqb a b = true.
Proof. apply peqb_spec. Qed.
Lemma peqb_reflect (a b : C) : reflect (a = b) (peqb a b).
Proof. apply iff_reflect. symmetry. apply peqb_spec. Qed.
Lemma integral (a b : K) : fmul a b = f0 -> a = f0 \/ b = f0.
Proof.
  intros E. destruct (feqb a f0) eqn:A; [left; now apply feqb_spec|right].
  assert (a <> f0) as NZ by (intros ->; rewrite (proj2 (feqb_spec K f0 f0)) in A; [discriminate|reflexivity]).
  assert (b = fmul (finv a) (fmul a b)) as -> by (field; auto). rewrite E. ring.
Qed.

Variable bytes : Type.
Variable hash : C -> C -> bytes -> K.
Variable kdf : C -> K.
Notation schnorr_sign := (schnorr_sign K C bytes hash).
Notation schnorr_verify := (schnorr_verify K C bytes hash).
Notation verify_signature := (verify_signature K C bytes hash).
Notation generate := (generate K C bytes hash).
Notation sign := (sign K C bytes hash).
Notation derive_context := (derive_context K C).
Notation verify_authorization := (verify_authorization K C).

(** C74: every signature verifies under the derived key. *)
Theorem c74_complete sk r m : schnorr_verify (pmul sk gen) m (schnorr_sign sk r m) = true.
Proof.
  unfold schnorr_verify, schnorr_sign. cbn [scalar nonce_point]. apply peqb_true.
  rewrite gen_add, gen_mul. do 2 f_equal. ring.
Qed.

(** C74: for a key, a nonce point and a message exactly one scalar is accepted, so nobody can change
    the scalar of a signature. *)
Theorem c74_unique k m s s' n : schnorr_verify k m (Sig K C s n) = true -> schnorr_verify k m (Sig K C s' n) = true -> s = s'.
Proof.
  unfold schnorr_verify. cbn [scalar nonce_point]. rewrite !peqb_spec. intros E E'. apply gen_inj. congruence.
Qed.

(** C74: two signatures with one nonce whose hashes differ give the signing key away. *)
Theorem c74_nonce_reuse sk m m' s s' n :
  let h := hash (pmul sk gen) n m in let h' := hash (pmul sk gen) n m' in h <> h' ->
  schnorr_verify (pmul sk gen) m (Sig K C s n) = true -> schnorr_verify (pmul sk gen) m' (Sig K C s' n) = true ->
  sk = fdiv (fsub s s') (fsub h h').
Proof.
  cbv zeta. unfold schnorr_verify. cbn [scalar nonce_point]. rewrite !peqb_spec. intros NE E E'.
  set (h := hash (pmul sk gen) n m) in *. set (h' := hash (pmul sk gen) n m') in *.
  rewrite gen_mul in E, E'.
  assert (pmul (fadd s (fmul h' sk)) (@gen K C) = pmul (fadd s' (fmul h sk)) gen) as X.
  { rewrite !gen_add, E, E'. rewrite <- !padd_assoc. f_equal. apply padd_comm. }
  apply gen_inj in X.
  assert (fsub h h' <> f0) as NZ. { intros Z. apply NE. assert (h = fadd (fsub h h') h') as -> by ring. rewrite Z. ring. }
  assert (fsub s s' = fmul (fsub h h') sk) as ->.
  { assert (s = fsub (fadd s (fmul h' sk)) (fmul h' sk)) as -> by ring. rewrite X. ring. }
  field. auto.
Qed.

(** C74: what the protocol accepts: it also refuses a scalar that is the nonce. So no signature is
    accepted under the point at infinity, and of an honest one exactly those are refused whose
    signing key or hash is zero. *)
Theorem c74_zero_key m s : verify_signature p0 m s = false.
Proof.
  unfold verify_signature, schnorr_verify. destruct (peqb_reflect (pmul (scalar K C s) gen) (nonce_point K C s)) as [E|NE]; auto.
  rewrite pmul_p0, padd_0. destruct (peqb_reflect (pmul (scalar K C s) gen) (nonce_point K C s)); tauto.
Qed.
Theorem c74_protocol sk r m : verify_signature (pmul sk gen) m (schnorr_sign sk r m) = true <->
  sk <> f0 /\ hash (pmul sk gen) (pmul r gen) m <> f0.
Proof.
  pose proof (c74_complete sk r m) as V. unfold verify_signature. rewrite V.
  unfold schnorr_sign. cbn [scalar nonce_point]. set (h := hash _ _ _).
  destruct (peqb_reflect (pmul (fadd r (fmul sk h)) gen) (pmul r (@gen K C))) as [E|NE].
  - split; [discriminate|]. intros [A B]. exfalso. apply gen_inj in E.
    assert (fmul sk h = f0) as Z. { assert (fmul sk h = fsub (fadd r (fmul sk h)) r) as -> by ring. rewrite E. ring. }
    apply integral in Z. tauto.
  - split; auto. intros _. split; intros Z; apply NE; rewrite Z; f_equal; ring.
Qed.

(** C74: an authorization fits a spending key exactly when both of its points are the multiples of the
    generator; an authorization made from the key does, and it satisfies the constraint. *)
Theorem c74_authorization sk a : verify_authorization sk a = true <->
  proof_authorization_key K C (actx K C a) = pmul sk gen /\ randomized K C (aproof K C a) = pmul (fmul (randomness K C (aproof K C a)) sk) gen.
Proof.
  unfold verify_authorization, AuModel.verify_authorization, context_eqb. rewrite andb_true_iff, !peqb_spec. cbn.
  split; intros [E E']; split; auto.
  - now rewrite E', E, gen_mul.
  - now rewrite E, gen_mul.
Qed.
Theorem c74_from_spending_key sk r : verify_authorization sk (from_spending_key K C sk r) = true /\
  assert_authorized K C (from_spending_key K C sk r) = true.
Proof.
  split; [|apply peqb_spec; reflexivity].
  apply c74_authorization. cbn. split; auto. apply gen_mul.
Qed.

(** C74: [sign] signs for fitting authorizations only, and the signature is accepted when neither the
    spending key nor the randomness nor the hash is zero. *)
Theorem c74_sign sk a m n :
  match sign sk a m n with
  | None => verify_authorization sk a = false
  | Some s => verify_authorization sk a = true /\ authorization_key K C s = randomized K C (aproof K C a) /\
      (verify_signature (authorization_key K C s) m (asig K C s) = true <->
       sk <> f0 /\ randomness K C (aproof K C a) <> f0 /\ hash (authorization_key K C s) (pmul n gen) m <> f0)
  end.
Proof.
  unfold sign, AuModel.sign. fold (verify_authorization sk a). destruct (verify_authorization sk a) eqn:V; auto.
  split; auto. split; [reflexivity|]. apply c74_authorization in V. destruct V as [V1 V2].
  unfold generate, AuModel.generate. cbn [authorization_key asig]. rewrite V2. unfold derive_signing_key.
  set (r := randomness K C (aproof K C a)).
  assert (fmul r sk = fmul sk r) as -> by ring. rewrite c74_protocol. split.
  - intros [A B]. repeat split; auto; intros ->; apply A; ring.
  - intros (A & B & D). split; auto. intros Z. apply integral in Z. tauto.
Qed.

(** * C75 *)
(** The operations that change a context. *)
Inductive use := UseViewing | UseReceiving | UseDecryption.
Definition run (u : use) (c : context K C) : context K C :=
  match u with
  | UseViewing => snd (viewing_key K C kdf c)
  | UseReceiving => snd (receiving_key K C kdf c)
  | UseDecryption => snd (derive_decryption_key K C kdf c)
  end.

Definition coherent (sk : K) (c : context K C) : Prop :=
  proof_authorization_key K C c = pmul sk gen /\
  (forall v, viewing_key_cache K C c = Some v -> v = kdf (pmul sk gen)) /\
  (forall r, receiving_key_cache K C c = Some r -> r = pmul (kdf (pmul sk gen)) gen).
Lemma viewing_coherent sk c : coherent sk c -> fst (viewing_key K C kdf c) = kdf (pmul sk gen) /\ coherent sk (snd (viewing_key K C kdf c)).
Proof.
  intros (P & V & R). unfold viewing_key. cbn [fst snd].
  assert ((match viewing_key_cache K C c with Some v => v | None => kdf (proof_authorization_key K C c) end) = kdf (pmul sk gen)) as E.
  { destruct (viewing_key_cache K C c) as [v|] eqn:Ev; [now apply V|now rewrite P]. }
  rewrite E. split; auto. repeat split; auto. cbn. intros v [= <-]. reflexivity.
Qed.
Lemma receiving_coherent sk c : coherent sk c ->
  fst (receiving_key K C kdf c) = pmul (kdf (pmul sk gen)) gen /\ coherent sk (snd (receiving_key K C kdf c)).
Proof.
  intros H. pose proof H as (P & V & R). unfold receiving_key.
  destruct (receiving_key_cache K C c) as [r|] eqn:Er; [auto|].
  destruct (viewing_coherent sk c H) as [E (P' & V' & R')]. destruct (viewing_key K C kdf c) as [v c']. cbn [fst snd] in *. subst v.
  split; auto. repeat split; auto. cbn. intros r [= <-]. reflexivity.
Qed.
Lemma runs_coherent sk us : forall c, coherent sk c -> coherent sk (fold_left (fun c u => run u c) us c).
Proof.
  induction us as [|u us IH]; intros c H; simpl; auto. apply IH. destruct u; simpl.
  - now apply viewing_coherent.
  - now apply receiving_coherent.
  - now apply viewing_coherent.
Qed.

(** C75: after any use of a context made from a spending key, its viewing, decryption and receiving
    keys and its address are the functions of the spending key, and it still fits it. *)
Theorem c75_keys sk us : let c := fold_left (fun c u => run u c) us (derive_context sk) in
  fst (viewing_key K C kdf c) = kdf (pmul sk gen) /\
  fst (derive_decryption_key K C kdf c) = kdf (pmul sk gen) /\
  fst (receiving_key K C kdf c) = address_from_spending_key K C kdf sk /\
  derive_address K C (fst (derive_decryption_key K C kdf c)) = address_from_spending_key K C kdf sk /\
  forall r, verify_authorization sk (Auth K C c (prove K C c r)) = true.
Proof.
  cbv zeta. set (c := fold_left _ _ _).
  assert (coherent sk c) as H. { apply runs_coherent. repeat split; discriminate. }
  unfold derive_decryption_key. destruct (viewing_coherent sk c H) as [-> _]. destruct (receiving_coherent sk c H) as [-> _].
  repeat split. intros r. apply c74_authorization. destruct H as (P & _). cbn. rewrite P. split; auto. apply gen_mul.
Qed.

(** C75: a context of any origin whose caches are empty (a circuit makes such a copy) is as good, if it
    fits the key. *)
Theorem c75_fresh sk a : verify_authorization sk a = true ->
  fst (viewing_key K C kdf (context_new K C (proof_authorization_key K C (actx K C a)))) = kdf (pmul sk gen).
Proof. intros V. apply c74_authorization in V. cbn. now rewrite (proj1 V). Qed.

(** C75: that the context fits the key does not mean that its keys are those of the key: the caches are
    read from outside with it and compared with nothing. *)
Theorem c75_loaded_refuted sk r v a : exists c, verify_authorization sk (Auth K C c (prove K C c r)) = true /\
  fst (derive_decryption_key K C kdf c) = v /\ fst (receiving_key K C kdf c) = a.
Proof.
  exists (Ctx K C (pmul sk gen) (Some v) (Some a)). split; [|split; reflexivity].
  apply c74_authorization. cbn. split; auto. apply gen_mul.
Qed.

(** * C76 *)
Variables (body account : Type).
Variable senders_of : body -> nat.
Variable encode : body -> list account -> bytes.
Notation into_post := (into_post K C bytes hash body account encode).
Notation valid := (has_valid_authorization_signature K C bytes hash body account senders_of encode).

(** C76: a post that [into_post] makes carries a signature that is accepted, if the sink accounts are
    given only for shapes with sinks and nothing is zero; nothing is made for a missing, superfluous
    or unfitting authorization. *)
Theorem c76_into_post senders sinks auth built key accounts n p :
  (forall b, built = Some b -> senders_of b = senders) -> (sinks = 0 -> accounts = []) ->
  (forall a k b, auth = Some a -> key = Some k -> built = Some b -> k <> f0 /\ randomness K C (aproof K C a) <> f0 /\
     hash (randomized K C (aproof K C a)) (pmul n gen) (encode b accounts) <> f0) ->
  into_post senders sinks auth built key accounts n = Some (Some p) ->
  valid p = None /\ built = Some (post_body K C body account p) /\
  (senders = 0 -> authorization_signature K C body account p = None /\ auth = None) /\
  (0 < senders -> exists a k s, auth = Some a /\ key = Some k /\ verify_authorization k a = true /\
     authorization_signature K C body account p = Some s /\ authorization_key K C s = randomized K C (aproof K C a) /\
     sink_accounts K C body account p = accounts).
Proof.
  intros HS HA HZ. unfold into_post, AuModel.into_post. destruct (requires_authorization senders) eqn:RA; destruct auth as [a|], key as [k|];
    try discriminate.
  - destruct built as [b|]; [|discriminate]. pose proof (c74_sign k a (encode b accounts) n) as CS.
    destruct (AuModel.sign K C bytes hash k a (encode b accounts) n) as [s|]; [|discriminate].
    destruct CS as (V & AK & ACC).
    assert ((if has_sinks sinks then Some (Some (Post K C body account (Some s) b accounts))
             else Some (Some (new_unchecked K C body account (Some s) b))) = Some (Some (Post K C body account (Some s) b accounts))) as ->.
    { unfold has_sinks. destruct (Nat.ltb_spec 0 sinks) as [|L]; auto. rewrite HA; auto. inversion L; auto. }
    intros [= <-]. unfold valid, has_valid_authorization_signature. cbn [authorization_signature post_body sink_accounts].
    rewrite (HS b eq_refl), RA.
    rewrite (proj2 ACC).
    2:{ rewrite AK. now apply HZ. }
    split; auto. split; auto. unfold requires_authorization in RA. apply Nat.ltb_lt in RA. split.
    + intros ->. inversion RA.
    + intros _. exists a, k, s. auto 10.
  - destruct built as [b|]; [|discriminate]. intros [= <-]. unfold valid, has_valid_authorization_signature, new_unchecked.
    cbn [authorization_signature post_body sink_accounts]. rewrite (HS b eq_refl), RA.
    unfold requires_authorization in RA. apply Nat.ltb_ge in RA. split; auto. split; auto. split; auto.
    intros L. exfalso. apply (Nat.lt_irrefl 0). eapply Nat.lt_le_trans; eauto.
Qed.
Theorem c76_refuses senders sinks auth built key accounts n p : into_post senders sinks auth built key accounts n = Some (Some p) ->
  match auth, key with
  | Some a, Some k => 0 < senders /\ verify_authorization k a = true
  | None, None => senders = 0
  | _, _ => False
  end.
Proof.
  unfold into_post, AuModel.into_post, requires_authorization. destruct (Nat.ltb_spec 0 senders) as [L|L]; destruct auth as [a|], key as [k|];
    try discriminate.
  - destruct built as [b|]; [|discriminate]. unfold AuModel.sign. destruct (AuModel.verify_authorization K C k a) eqn:V; [auto|discriminate].
  - intros _. inversion L. auto.
Qed.
(** C76: the check passes exactly for posts without senders and signature and for posts with senders whose
    signature is of the body with the sink accounts. *)
Theorem c76_valid p : valid p = None <->
  (senders_of (post_body K C body account p) = 0 /\ authorization_signature K C body account p = None) \/
  (0 < senders_of (post_body K C body account p) /\ exists s, authorization_signature K C body account p = Some s /\
     verify_signature (authorization_key K C s) (encode (post_body K C body account p) (sink_accounts K C body account p)) (asig K C s) = true).
Proof.
  unfold has_valid_authorization_signature, requires_authorization.
  destruct (authorization_signature K C body account p) as [s|], (Nat.ltb_spec 0 (senders_of (post_body K C body account p))) as [L|L].
  - destruct (AuModel.verify_signature K C bytes hash _ _ _) eqn:V.
    + split; auto. intros _. right. eauto.
    + split; [discriminate|]. intros [[_ X]|(_ & s' & [= <-] & V')]; [discriminate|congruence].
  - split; [discriminate|]. intros [[_ X]|(L' & _)]; [discriminate|]. exfalso. apply (Nat.lt_irrefl 0). eapply Nat.lt_le_trans; eauto.
  - split; [discriminate|]. intros [[Z _]|(_ & s' & X & _)]; [|discriminate]. rewrite Z in L. inversion L.
  - split; auto. intros _. left. split; auto. inversion L. reflexivity.
Qed.
End L.

(** * Instance: seventeen scalars and a point of order two *)
Open Scope N_scope.
Definition tpt := (F17 * bool)%type.
Definition tmul (r : F17) (a : tpt) : tpt := (fmul r (fst a), andb (N.odd (proj1_sig r)) (snd a)).
Definition tadd (a b : tpt) : tpt := (fadd (fst a) (fst b), xorb (snd a) (snd b)).
Definition teqb (a b : tpt) : bool := feqb (fst a) (fst b) && Bool.eqb (snd a) (snd b).
Add Field K17 : (fth F17).
Definition T17 : curve F17.
Proof.
  refine (Curve F17 tpt (f0, false) tadd tmul teqb (f1, false) _ _ _ _ _ _ _ _); unfold tadd, tmul, teqb.
  - intros [a x] [b y]. rewrite andb_true_iff, Bool.eqb_true_iff. cbn [fst snd]. split.
    + intros [E ->]. apply (feqb_spec F17) in E. congruence.
    + intros [= -> ->]. split; auto. now apply (feqb_spec F17).
  - intros [a x]. cbn [fst snd]. rewrite xorb_false_r. f_equal. ring.
  - intros [a x] [b y]. cbn [fst snd]. rewrite xorb_comm. f_equal. ring.
  - intros [a x] [b y] [c z]. cbn [fst snd]. rewrite xorb_assoc_reverse. f_equal. ring.
  - intros [a x]. exists (fopp a, x). cbn [fst snd]. rewrite xorb_nilpotent. f_equal. ring.
  - intros r s. cbn [fst snd]. rewrite !andb_false_r. f_equal. ring.
  - intros r s. cbn [fst snd]. rewrite !andb_false_r. f_equal. ring.
  - intros r E. apply (f_equal fst) in E. cbn [fst] in E. rewrite <- E. ring.
Defined.
(** A hash that depends on all its arguments. *)
Definition h17 (k n : T17) (m : N) : F17 := z17 (proj1_sig (fst (k : tpt)) * 3 + proj1_sig (fst (n : tpt)) * 5 + m + 1).
Definition kdf17 (k : T17) : F17 := z17 (proj1_sig (fst (k : tpt)) * 7 + 2).
Definition z (n : N) : F17 := z17 n.
Lemma z17_eqb (a b : F17) : (proj1_sig a =? proj1_sig b)%N = true -> a = b.
Proof. intros E. apply (zp_eq 17). now apply N.eqb_eq. Qed.
Lemma z17_neb (a b : F17) : (proj1_sig a =? proj1_sig b)%N = false -> a <> b.
Proof. intros E ->. rewrite N.eqb_refl in E. discriminate. Qed.

(** An accepted signature of an authorization made from key 3 with randomness 5 and nonce 7. *)
Example c74_example : exists s, sign F17 T17 N h17 (z 3) (from_spending_key F17 T17 (z 3) (z 5)) 9 (z 7) = Some s /\
  verify_signature F17 T17 N h17 (authorization_key F17 T17 s) 9 (asig F17 T17 s) = true /\
  z 3 <> f0 /\ z 5 <> f0 /\ h17 (authorization_key F17 T17 s) (pmul (z 7) gen) 9 <> f0 /\
  verify_signature F17 T17 N h17 (authorization_key F17 T17 s) 8 (asig F17 T17 s) = false.
Proof.
  eexists. split; [reflexivity|]. split; [vm_compute; reflexivity|].
  repeat split; try (apply z17_neb; vm_compute; reflexivity).
Qed.
Example c74_reuse_example : h17 (pmul (z 3) gen) (pmul (z 7) gen) 9 <> h17 (pmul (z 3) gen) (pmul (z 7) gen) 8.
Proof. apply z17_neb. vm_compute. reflexivity. Qed.
(** C74: [sign] returns signatures that are refused when the drawn randomness is zero. *)
Theorem c74_sign_refuted : exists (sk r n : F17) m s, sk <> f0 /\
  sign F17 T17 N h17 sk (from_spending_key F17 T17 sk r) m n = Some s /\
  verify_signature F17 T17 N h17 (authorization_key F17 T17 s) m (asig F17 T17 s) = false.
Proof.
  exists (z 3), (z 0), (z 7), 9. eexists. split; [apply z17_neb; vm_compute; reflexivity|]. split; [reflexivity|]. vm_compute. reflexivity.
Qed.
(** C74: that a signature is accepted does not say that the key is a multiple of the generator: nothing
    tests it here (decoding does). *)
Theorem c74_subgroup_refuted : exists (k : T17) m s, (forall r, k <> pmul r gen) /\ verify_signature F17 T17 N h17 k m s = true.
Proof.
  exists ((f0, true) : tpt), 4, (Sig F17 T17 (z 2) ((z 2, true) : tpt)). split.
  - intros r E. apply (f_equal (fun x : tpt => snd x)) in E. cbn in E. rewrite andb_false_r in E. discriminate.
  - vm_compute. reflexivity.
Qed.
Example c75_example : exists v, fst (viewing_key F17 T17 kdf17 (run F17 T17 kdf17 UseReceiving (derive_context F17 T17 (z 3)))) = v /\ v = z 6.
Proof. eexists. split; [reflexivity|]. apply z17_eqb. vm_compute. reflexivity. Qed.

(** Bodies are pairs of a number of senders and a content. *)
Definition enc17 (b : nat * N) (accounts : list N) : N := snd b + 3 * fold_right N.add 0 accounts + 10 * N.of_nat (length accounts).
Example c76_example : exists p, into_post F17 T17 N h17 (nat * N) N enc17 2 1 (Some (from_spending_key F17 T17 (z 3) (z 5))) (Some (2%nat, 4))
    (Some (z 3)) [1; 2] (z 7) = Some (Some p) /\
  has_valid_authorization_signature F17 T17 N h17 (nat * N) N fst enc17 p = None.
Proof. eexists. split; [reflexivity|]. vm_compute. reflexivity. Qed.
(** C76: without sinks the given sink accounts are signed and then left out of the post, whose signature
    is refused. *)
Theorem c76_accounts_refuted : exists p accounts, into_post F17 T17 N h17 (nat * N) N enc17 2 0 (Some (from_spending_key F17 T17 (z 3) (z 5)))
    (Some (2%nat, 4)) (Some (z 3)) accounts (z 7) = Some (Some p) /\
  has_valid_authorization_signature F17 T17 N h17 (nat * N) N fst enc17 p = Some BadSignature.
Proof. eexists. exists [1; 2]. split; [reflexivity|]. vm_compute. reflexivity. Qed.
Print Assumptions c74_complete.
Print Assumptions c74_unique.
Print Assumptions c74_nonce_reuse.
Print Assumptions c74_zero_key.
Print Assumptions c74_protocol.
Print Assumptions c74_authorization.
Print Assumptions c74_from_spending_key.
Print Assumptions c74_sign.
Print Assumptions c74_sign_refuted.
Print Assumptions c74_subgroup_refuted.
Print Assumptions c75_keys.
Print Assumptions c75_fresh.
Print Assumptions c75_loaded_refuted.
Print Assumptions c76_into_post.
Print Assumptions c76_refuses.
Print Assumptions c76_valid.
Print Assumptions c76_accounts_refuted.
