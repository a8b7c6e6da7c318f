(** Authorization: keys, Schnorr signatures and the signature of a post.
    manta-crypto/src/signature/mod.rs, manta-accounting/src/transfer/{mod.rs,utxo/{auth,protocol}.rs}. *)
From Coq Require Import List Arith Bool.
From Verif Require Import AlgBase.
Import ListNotations.

(** The curve of the signatures: an abelian group with a generator of prime order. Points outside of
    the multiples of the generator may exist (the curve has a cofactor), and nothing is assumed
    about their multiples. *)
Record curve (K : fld) := Curve {
  pt :> Type;
  p0 : pt;
  padd : pt -> pt -> pt;
  pmul : K -> pt -> pt;
  peqb : pt -> pt -> bool;
  gen : pt;
  peqb_spec : forall a b, peqb a b = true <-> a = b;
  padd_0 : forall a, padd a p0 = a;
  padd_comm : forall a b, padd a b = padd b a;
  padd_assoc : forall a b c, padd a (padd b c) = padd (padd a b) c;
  padd_inv : forall a, exists b, padd a b = p0;
  gen_add : forall r s, pmul (fadd r s) gen = padd (pmul r gen) (pmul s gen);
  gen_mul : forall r s, pmul r (pmul s gen) = pmul (fmul r s) gen;
  gen_free : forall r, pmul r gen = p0 -> r = f0
}.
Arguments p0 {K c} : rename. Arguments padd {K c} : rename. Arguments pmul {K c} : rename. Arguments peqb {K c} : rename. Arguments gen {K c} : rename.

Section Au.
Variable K : fld.
Variable C : curve K.
Variable bytes : Type.
(** The hash of a verifying key, a nonce point and a message, signature/mod.rs L302-309. *)
Variable hash : C -> C -> bytes -> K.
(** The viewing key derivation function, protocol.rs L171-175. *)
Variable kdf : C -> K.

(** signature/mod.rs L343-355 [Signature]. *)
Record signature := Sig { scalar : K; nonce_point : C }.

(** signature/mod.rs L454-463 [derive]. *)
Definition schnorr_derive (signing_key : K) : C := pmul signing_key gen.
(** signature/mod.rs L465-495 [sign]. *)
Definition schnorr_sign (signing_key randomness : K) (message : bytes) : signature :=
  let nonce_point := pmul randomness gen in
  Sig (fadd randomness (fmul signing_key (hash (pmul signing_key gen) nonce_point message))) nonce_point.
(** signature/mod.rs L497-528 [verify]. *)
Definition schnorr_verify (verifying_key : C) (message : bytes) (s : signature) : bool :=
  peqb (pmul (scalar s) gen) (padd (nonce_point s) (pmul (hash verifying_key (nonce_point s) message) verifying_key)).

(** protocol.rs L2194-2205 [AuthorizationContext]. *)
Record context := Ctx { proof_authorization_key : C; viewing_key_cache : option K; receiving_key_cache : option C }.
(** protocol.rs L2212-2220 [new]. *)
Definition context_new (k : C) : context := Ctx k None None.
(** protocol.rs L2225-2234 [compute_viewing_key], L2238-2249 [viewing_key]. *)
Definition viewing_key (c : context) : K * context :=
  let v := match viewing_key_cache c with Some v => v | None => kdf (proof_authorization_key c) end in
  (v, Ctx (proof_authorization_key c) (Some v) (receiving_key_cache c)).
(** protocol.rs L2253-2270 [receiving_key]. *)
Definition receiving_key (c : context) : C * context :=
  match receiving_key_cache c with
  | Some r => (r, c)
  | None =>
      let '(v, c) := viewing_key c in
      let r := pmul v gen in
      (r, Ctx (proof_authorization_key c) (viewing_key_cache c) (Some r))
  end.
(** protocol.rs L2273-2282 [eq]: the caches are not compared. *)
Definition context_eqb (a b : context) : bool := peqb (proof_authorization_key a) (proof_authorization_key b).
(** protocol.rs L1008-1015 [derive_context]. *)
Definition derive_context (spending_key : K) : context := context_new (pmul spending_key gen).
(** protocol.rs L1361-1368 [derive_decryption_key]. *)
Definition derive_decryption_key (c : context) : K * context := viewing_key c.
(** protocol.rs L1443-1450 [derive_address]. *)
Definition derive_address (decryption_key : K) : C := pmul decryption_key gen.
(** protocol.rs L895-909 [address_from_spending_key]. *)
Definition address_from_spending_key (spending_key : K) : C := pmul (kdf (pmul spending_key gen)) gen.

(** protocol.rs L2336-2344 [AuthorizationProof]. *)
Record proof := Proof { randomness : K; randomized : C }.
(** auth.rs L197-207 [Authorization]. *)
Record authorization := Auth { actx : context; aproof : proof }.
(** protocol.rs L1024-1039 [prove] with the drawn randomness. *)
Definition prove (c : context) (r : K) : proof := Proof r (pmul r (proof_authorization_key c)).
(** auth.rs L221-230 [from_spending_key]. *)
Definition from_spending_key (spending_key r : K) : authorization :=
  let c := derive_context spending_key in Auth c (prove c r).
(** protocol.rs L1048-1059 [verify]. *)
Definition verify_authorization (spending_key : K) (a : authorization) : bool :=
  context_eqb (actx a) (derive_context spending_key) &&
  peqb (randomized (aproof a)) (pmul (randomness (aproof a)) (proof_authorization_key (actx a))).
(** protocol.rs L637-650 [assert_authorized], as the relation it enforces. *)
Definition assert_authorized (a : authorization) : bool :=
  peqb (pmul (randomness (aproof a)) (proof_authorization_key (actx a))) (randomized (aproof a)).
(** protocol.rs L1068-1076 [derive_signing_key]. *)
Definition derive_signing_key (spending_key : K) (a : authorization) : K := fmul spending_key (randomness (aproof a)).
(** protocol.rs L1102-1120 [verify]. *)
Definition verify_signature (authorization_key : C) (message : bytes) (s : signature) : bool :=
  if peqb (pmul (scalar s) gen) (nonce_point s) then false else schnorr_verify authorization_key message s.

(** auth.rs L343-353 [AuthorizationSignature]. *)
Record auth_signature := ASig { authorization_key : C; asig : signature }.
(** auth.rs L373-395 [generate], with the drawn nonce; protocol.rs L1086-1092 [sign]. *)
Definition generate (spending_key : K) (a : authorization) (message : bytes) (nonce : K) : auth_signature :=
  ASig (randomized (aproof a)) (schnorr_sign (derive_signing_key spending_key a) nonce message).
(** auth.rs L291-314 [sign]. *)
Definition sign (spending_key : K) (a : authorization) (message : bytes) (nonce : K) : option auth_signature :=
  if verify_authorization spending_key a then Some (generate spending_key a message nonce) else None.

(** * Posts *)
Variables (body account : Type).
(** The number of senders of a body and the encoding with the sink accounts, mod.rs L1621-1636. *)
Variable senders_of : body -> nat.
Variable encode : body -> list account -> bytes.

(** mod.rs L93-101 [requires_authorization], [has_sinks]. *)
Definition requires_authorization (senders : nat) : bool := Nat.ltb 0 senders.
Definition has_sinks (sinks : nat) : bool := Nat.ltb 0 sinks.

(** mod.rs L1666-1683 [TransferPost]. *)
Record post := Post { authorization_signature : option auth_signature; post_body : body; sink_accounts : list account }.
(** mod.rs L1709-1714 [new_unchecked]. *)
Definition new_unchecked (s : option auth_signature) (b : body) : post := Post s b [].

(** mod.rs L740-787 [into_post]: [built] is the body with its proof, nothing when the proof system
    fails; the outer option is the error. *)
Definition into_post (senders sinks : nat) (auth : option authorization) (built : option body) (spending_key : option K)
  (accounts : list account) (nonce : K) : option (option post) :=
  match requires_authorization senders, auth, spending_key with
  | true, Some a, Some key =>
      match built with
      | None => None
      | Some b =>
          match sign key a (encode b accounts) nonce with
          | Some s => if has_sinks sinks then Some (Some (Post (Some s) b accounts)) else Some (Some (new_unchecked (Some s) b))
          | None => Some None
          end
      end
  | false, None, None => match built with None => None | Some b => Some (Some (new_unchecked None b)) end
  | _, _, _ => Some None
  end.

(** mod.rs L1767-1787 [has_valid_authorization_signature]. *)
Inductive sig_error := BadSignature | InvalidShape | MissingSignature.
Definition has_valid_authorization_signature (p : post) : option sig_error :=
  match authorization_signature p, requires_authorization (senders_of (post_body p)) with
  | Some s, true =>
      if verify_signature (authorization_key s) (encode (post_body p) (sink_accounts p)) (asig s) then None else Some BadSignature
  | Some _, false => Some InvalidShape
  | None, true => Some MissingSignature
  | None, false => None
  end.
End Au.
