(** Model of identity proofs: the virtual withdrawal that the signer signs, and its verification.
    Sources: /repo/manta-accounting/src/transfer/mod.rs, /repo/manta-accounting/src/wallet/signer/
    functions.rs, /repo/manta-pay/src/signer/base.rs. *)
From Coq Require Import List Arith NArith Bool.
From Verif Require Import MtModel PtModel LgModel CiModel.
Import ListNotations.
Open Scope nat_scope.

(** mod.rs L2206-2230 [IdentityVerificationError]. *)
Inductive ierr := IShape | ISink | ISignature | IProof | IOutput | IVirtual.
Inductive ires := IOk | IErr (e : ierr) | IPanic.

Section Id.
Context {G CR CMT IT LD ID NC IR IN ON NT SG PRF : Type}.
Notation UT := (utxo CMT).
Variable gen : G.
Variable smul : N -> G -> G.
Variable vkhash : G -> N.
Variable r : N.
Variable ucommit : CR -> N -> N -> G -> CMT.
Variable item : UT -> IT.
Variable dg : IT -> LD.
Variable ncommit : G -> IT -> NC.
Variable inote : G -> IR -> CR * casset -> IN.
Variable dl : LD.
Variable di : ID.
Variable join : ID -> ID -> ID.
Variable joinl : LD -> LD -> ID.
Variable ldeqb : LD -> LD -> bool.
Variable ideqb : ID -> ID -> bool.
Variable H : nat.
Variable sh : IT -> nat.
(** The width of the forest, and whether the debug assertions of its trees are on. *)
Variable width : nat.
Variable chk : bool.
Variable dout : ID.
Variable incoming : NT -> IN.
Variable verify_sig : G -> SG -> body NC ON UT NT ID PRF -> list N -> bool.
Variable verify : tshape -> list (pin NC UT IN ID G) -> PRF -> option bool.

(** mod.rs L2338-2350, sender.rs L117-126: an empty forest, the item inserted, the root of the tree of
    the item (forest.rs L349-352 [output_from]).  [None]: panic. *)
Definition singleton_output (x : IT) : option ID :=
  match fo_new dl di join joinl ideqb H width with
  | None => None
  | Some f =>
      match fo_insert dl di join joinl H dg sh f x with
      | None => None
      | Some (f1, _) => option_map (ft_root di) (nth_error f1 (sh x))
      end
  end.

Fixpoint accounts_eqb (a b : list N) : bool :=
  match a, b with
  | [], [] => true
  | x :: a, y :: b => N.eqb x y && accounts_eqb a b
  | _, _ => false
  end.

(** mod.rs L2290-2368 [identity_verification], for the virtual asset with the identifier ([tr], [rand]),
    the address [addr] and the public account; the verifying context is the one of the shape. *)
Definition identity_verification (q : post NC ON UT NT ID G SG PRF) (tr : bool) (rand : CR) (a : casset) (addr : G) (account : N) : ires :=
  match post_shape q with
  | Some TToPublic =>
      if negb (accounts_eqb (p_accounts q) [account]) then IErr ISink
      else
        match check_auth verify_sig q with
        | ROk _ =>
            match verify TToPublic (post_input incoming q) (b_proof (p_body q)) with
            | Some true =>
                match singleton_output (item (utxo_for ucommit tr rand a addr)) with
                | Some o => if existsb (fun s => ideqb (sp_out s) o) (b_senders (p_body q)) then IOk else IErr IOutput
                | None => IPanic
                end
            | _ => IErr IProof
            end
        | _ => IErr ISignature
        end
  | _ => IErr IShape
  end.

(** base.rs L224-247 [identity_verification]: the virtual asset has to be opaque with an id that is
    not zero. *)
Definition pay_identity_verification (q : post NC ON UT NT ID G SG PRF) (tr : bool) (rand : CR) (a : casset) (addr : G) (account : N) : ires :=
  if tr || N.eqb (fst a) 0 then IErr IVirtual
  else identity_verification q tr rand a addr account.

(** functions.rs L714-745 [virtual_senders]: the virtual note alone in a forest, with its proof; and a
    sender of nothing with the default proof, whose path is [dpath].  sender.rs L176-201. *)
Definition virtual_senders (pak : G) (tr : bool) (rand : CR) (a : casset) (tr2 : bool) (rand2 : CR) (dpath : path LD ID)
    : option (list (csender CR CMT LD ID NC)) :=
  let x := item (utxo_for ucommit tr rand a (rkey gen smul vkhash r pak)) in
  match fo_new dl di join joinl ideqb H width with
  | None => None
  | Some f =>
      match fo_insert dl di join joinl H dg sh f x with
      | Some (f1, true) =>
          match fo_prove dl di join joinl ldeqb H chk dg sh f1 x with
          | Some (Some (q, root)) =>
              Some [derive_sender gen smul vkhash r ucommit item ncommit pak tr rand a (path_var H q) root;
                    derive_sender gen smul vkhash r ucommit item ncommit pak tr2 rand2 (fst a, 0%N) (path_var H dpath) dout]
          | _ => None
          end
      | _ => None
      end
  end.

(** functions.rs L1331-1378 [identity_proof], up to the proof: the withdrawal of the virtual asset with
    a change of nothing. *)
Definition identity_witness (sk arand : N) (tr : bool) (rand : CR) (a : casset) (tr2 : bool) (rand2 : CR) (dpath : path LD ID)
    (irand : IR) (crand : CR) : option (witness G CR CMT LD ID NC IR IN) :=
  let pak := smul sk gen in
  match virtual_senders pak tr rand a tr2 rand2 dpath with
  | None => None
  | Some ss =>
      Some (mk_wit (Some (derive_auth gen smul sk arand)) (Some (fst a)) [] ss
              [derive_receiver ucommit inote (rkey gen smul vkhash r pak) false irand crand (fst a, 0%N)] [snd a])
  end.

(** The post of an assignment (mod.rs L600-640 [into_post], with the outgoing notes [ons], the notes
    [nts], the proof and the signature). *)
Definition post_of (w : witness G CR CMT LD ID NC IR IN) (ons : list ON) (nts : list NT) (prf : PRF) (sig : SG) (accounts : list N)
    : post NC ON UT NT ID G SG PRF :=
  mk_post (option_map (fun a => (ca_rkey a, sig)) (w_auth w))
    (mk_body (w_asset w) (w_sources w)
       (map (fun so => mk_spost (cs_root (fst so)) (mk_fnull (cs_null (fst so)) (snd so))) (combine (w_senders w) ons))
       (map (fun rn => mk_rpost (cr_utxo (fst rn)) (snd rn)) (combine (w_receivers w) nts)) (w_sinks w) prf) accounts.

End Id.
