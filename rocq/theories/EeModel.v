(** From the signer to the ledger and back: what the signer's posts look like to the ledger, and
    what the ledger's state looks like to the signer.

    Sources: manta-accounting/src/transfer/mod.rs L695-795 (into_post) and L1492-1522
    (TransferPostBody::build), transfer/canonical.rs L111-113, L177-183, L214-228 (build),
    transfer/sender.rs L382-384 and transfer/receiver.rs L134-136 (into_post).

    The cryptography is given by functions: what [SgModel] and [SnModel] take as parameters, and
    here the utxo and the note of a receiver, the outgoing note of a nullifier, the signature and
    the proof.  Randomness other than the identifiers is left out: these are functions of the
    address, the identifier and the asset. *)
From Coq Require Import List Arith NArith Bool.
From Verif Require Import MtModel PtModel AssetModel CkModel SgModel SgSpec SnModel LgModel.
Import ListNotations.
Open Scope nat_scope.

Section Ends.
Context {CM ON UT NT LD ID KEY SG PRF : Type}.
(** The nullifier commitment and the outgoing note of a spend. *)
Variable spend_null : N -> asset -> CM.
Variable out_note : N -> asset -> ON.
(** The utxo and the note of a receiver: address, identifier and asset. *)
Variable utxo_of : option N -> N -> asset -> UT.
Variable note_of : option N -> N -> asset -> NT.
(** The default accumulator output. *)
Variable dout : ID.
(** auth::sign over the body and the accounts: the authorization key and the signature. *)
Variable authorize : body CM ON UT NT ID PRF -> list N -> KEY * SG.
(** ProofSystem::prove. *)
Variable prove : SnModel.post (LD := LD) (ID := ID) -> PRF.

(** sender.rs L382-384 into_post; the default proof has the default output. *)
Definition sender_post (s : SnModel.sender (LD := LD) (ID := ID)) : spost CM ON ID :=
  mk_spost (match sd_proof s with Some (_, r) => r | None => dout end)
    (mk_fnull (spend_null (sd_key s) (sd_asset s)) (out_note (sd_key s) (sd_asset s))).

(** receiver.rs L134-136 into_post. *)
Definition receiver_post (r : SnModel.recv) : rpost UT NT :=
  mk_rpost (utxo_of (rc_to r) (rc_key r) (rc_asset r)) (note_of (rc_to r) (rc_key r) (rc_asset r)).

(** mod.rs L1492-1522 TransferPostBody::build; the asset id is given exactly when there is a source
    or a sink (canonical.rs L111-113, L177-183, L214-228). *)
Definition post_body (p : SnModel.post (LD := LD) (ID := ID)) : body CM ON UT NT ID PRF :=
  mk_body (hd_error (map fst (po_sources p ++ po_sinks p))) (map snd (po_sources p))
    (map sender_post (po_senders p)) (map receiver_post (po_receivers p)) (map snd (po_sinks p)) (prove p).

(** mod.rs L739-795 into_post; the accounts are dropped when there are no sinks. *)
Definition to_post (p : SnModel.post (LD := LD) (ID := ID)) : LgModel.post CM ON UT NT ID KEY SG PRF :=
  let b := post_body p in
  if requires_authorization (length (po_senders p))
  then LgModel.mk_post (Some (authorize b (po_sink_accounts p))) b
         (if 0 <? length (po_sinks p) then po_sink_accounts p else [])
  else LgModel.mk_post None b [].

(** The ledger as the signer's specification sees it: the notes of the shards and the nullifiers,
    of which only the commitment counts. *)
Definition view (g : LgModel.ledger CM ON UT NT LD ID) : SgSpec.ledger UT NT CM :=
  SgSpec.mk_ledger (g_shards g) (map fn_com (g_nulls g)).

(** What [pull] returns, with nullifiers as commitments. *)
Definition view_data (d : sdata (UT * NT) (fnull CM ON)) : sdata (UT * NT) CM :=
  mk_sdata (notes d) (map fn_com (nulls d)).

(** A checkpoint that counts all of the ledger. *)
Definition top (g : LgModel.ledger CM ON UT NT LD ID) : ckpt :=
  mk_ckpt (map (@length _) (g_shards g)) (length (g_nulls g)).
End Ends.
