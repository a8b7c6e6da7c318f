(** The data of a transaction: what a signer reads back from posts.

    Sources: manta-accounting/src/wallet/signer/functions.rs L1379-1461 (transaction_data,
    sign_with_transaction_data); wallet/signer/mod.rs L1714-1763; transfer/canonical.rs L45-130,
    L160-260 and L270-320 (shapes, TransferShape::select, from_post) and L787-835
    (TransactionData, open, reconstruct_utxo); transfer/mod.rs L78-95 (requires_authorization,
    has_public_participants); transfer/utxo/mod.rs L313-326 (open_with_check);
    transfer/utxo/protocol.rs L1461-1510 (utxo_reconstruct, utxo_check).

    Simplified: a note is the address it was encrypted to with its content, and the owner of that
    address, and nobody else, opens it (that the encryption does this is C49 and C50).  A utxo is
    a function of the address, the identifier and the asset.  Signatures, proofs, nullifiers and
    asset ids of a post are kept only as far as [from_post] looks at them. *)
From Coq Require Import List Arith NArith Bool.
From Verif Require Import MtModel PtModel AssetModel CkModel SgModel SnModel.
Import ListNotations.
Open Scope nat_scope.

(** transfer/mod.rs L81-95. *)
Definition has_public_participants (sources sinks : nat) : bool := 0 <? sources + sinks.
Definition requires_authorization (senders : nat) : bool := 0 <? senders.

(** canonical.rs impl_shape: sources, senders, receivers, sinks. *)
Definition shape_of (k : kind) : nat * nat * nat * nat :=
  match k with
  | KToPrivate => (1, 0, 1, 0)
  | KPrivateTransfer => (0, 2, 2, 0)
  | KToPublic => (0, 2, 1, 1)
  end.

(** One arm of the match at canonical.rs L270-303. *)
Definition arm (k : kind) (auth vis : bool) (sources senders receivers sinks : nat) : bool :=
  let '(a, b, c, d) := shape_of k in
  eqb auth (requires_authorization b) && eqb vis (has_public_participants a d) &&
  (sources =? a) && (senders =? b) && (receivers =? c) && (sinks =? d).

(** canonical.rs L249-305 TransferShape::select. *)
Definition select_shape (auth vis : bool) (sources senders receivers sinks : nat) : option kind :=
  if arm KToPrivate auth vis sources senders receivers sinks then Some KToPrivate
  else if arm KPrivateTransfer auth vis sources senders receivers sinks then Some KPrivateTransfer
  else if arm KToPublic auth vis sources senders receivers sinks then Some KToPublic
  else None.

(** canonical.rs L787-801 TransactionData. *)
Inductive data :=
  | DToPrivate (k : N) (a : asset) | DPrivateTransfer (l : list (N * asset)) | DToPublic (k : N) (a : asset).

(** canonical.rs L808-818 TransactionData::open. *)
Definition td_open (d : data) : list (N * asset) :=
  match d with DToPrivate k a => [(k, a)] | DPrivateTransfer l => l | DToPublic k a => [(k, a)] end.

Section Td.
Context {U : Type}.
(** protocol.rs L1461-1487 utxo_reconstruct: address, identifier, asset. *)
Variable utxo : N -> N -> asset -> U.
Variable ueqb : U -> U -> bool.

(** transfer/mod.rs ReceiverPost: the utxo, and the note with the address it is for. *)
Record rpost := mk_rpost { rp_utxo : U; rp_to : N; rp_note : N * asset }.

(** transfer/mod.rs L1472-1500 and L1674-1684 TransferPost. *)
Record wire := mk_wire { w_auth : bool; w_asset_id : bool; w_sources : nat; w_senders : nat;
  w_receivers : list rpost; w_sinks : nat }.

(** canonical.rs L308-320 from_post. *)
Definition from_post (w : wire) : option kind :=
  select_shape (w_auth w) (w_asset_id w) (w_sources w) (w_senders w) (length (w_receivers w)) (w_sinks w).

(** utxo/mod.rs L313-326 open_with_check for the owner of [self]. *)
Definition open_note (self : N) (r : rpost) : option (N * asset) :=
  if (rp_to r =? self)%N then Some (rp_note r) else None.
Definition open_with_check (self : N) (r : rpost) : option (N * asset) :=
  match open_note self r with
  | None => None
  | Some (k, a) => if ueqb (rp_utxo r) (utxo self k a) then Some (k, a) else None
  end.

(** functions.rs L1402-1411: the loop over the receivers of a private transfer. *)
Fixpoint open_all (self : N) (l : list rpost) : list (N * asset) :=
  match l with
  | [] => []
  | r :: l' => match open_with_check self r with Some x => x :: open_all self l' | None => open_all self l' end
  end.

(** functions.rs L1383-1424 transaction_data.  The outer [None] is the panic of [take_first]. *)
Definition transaction_data (self : N) (w : wire) : option (option data) :=
  match from_post w with
  | None => Some None
  | Some KToPrivate =>
      match w_receivers w with
      | [] => None
      | r :: _ => Some (option_map (fun x => DToPrivate (fst x) (snd x)) (open_with_check self r))
      end
  | Some KPrivateTransfer =>
      Some (match open_all self (w_receivers w) with [] => None | l => Some (DPrivateTransfer l) end)
  | Some KToPublic =>
      match w_receivers w with
      | [] => None
      | r :: _ => Some (option_map (fun x => DToPublic (fst x) (snd x)) (open_with_check self r))
      end
  end.

(** canonical.rs L821-834 reconstruct_utxo. *)
Definition reconstruct_utxo (d : data) (address : N) : list U :=
  map (fun x => utxo address (fst x) (snd x)) (td_open d).

(** wallet/signer/mod.rs L1728-1740 batched_transaction_data, with the [?] of L1721 on the
    authorization context. *)
Fixpoint batched_transaction_data (auth : bool) (self : N) (l : list wire) : option (list (option data)) :=
  match l with
  | [] => Some []
  | w :: l' =>
      match (if auth then transaction_data self w else Some None), batched_transaction_data auth self l' with
      | Some d, Some ds => Some (d :: ds)
      | _, _ => None
      end
  end.

(** What goes into a post: transfer/mod.rs L695-780 into_post (C76), receiver.rs L115-137. *)
Definition wire_of_recv (self : N) (r : recv) : rpost :=
  let to := match rc_to r with None => self | Some a => a end in
  mk_rpost (utxo to (rc_key r) (rc_asset r)) to (rc_key r, rc_asset r).
Definition wire_of {LD ID} (self : N) (p : post (LD := LD) (ID := ID)) : wire :=
  let so := length (po_sources p) in let se := length (po_senders p) in let si := length (po_sinks p) in
  mk_wire (requires_authorization se) (has_public_participants so si) so se
    (map (wire_of_recv self) (po_receivers p)) si.

Section Sign.
Context {LD ID IT NF : Type}.
(** As in [SnModel]. *)
Variable dl : LD.
Variable di : ID.
Variable join : ID -> ID -> ID.
Variable joinl : LD -> LD -> ID.
Variable ldeqb : LD -> LD -> bool.
Variable ideqb : ID -> ID -> bool.
Variable H : nat.
Variable chk : bool.
Variable dg : IT -> LD.
Variable sh : IT -> nat.
Variable spend_item : N -> asset -> IT.
Variable ident : nat -> N.
Variable prove_ok : nat -> bool.

(** functions.rs L1448-1460: the closure with its [expect], over the posts. *)
Fixpoint attach (self : N) (l : list (post (LD := LD) (ID := ID))) : option (list (post * data)) :=
  match l with
  | [] => Some []
  | p :: l' =>
      match transaction_data self (wire_of self p), attach self l' with
      | Some (Some d), Some ds => Some ((p, d) :: ds)
      | _, _ => None
      end
  end.

(** functions.rs L1428-1461 sign_with_transaction_data; the context is given to [sign]. *)
Definition sign_with_transaction_data (self : N) (accounts : bool) (m : amap) (t : transaction) (e : eff)
  : out (list (post * data)) :=
  bind (sign dl di join joinl ldeqb ideqb H chk dg sh spend_item ident prove_ok accounts true m t e) (fun ps e' =>
  match attach self ps with Some l => Done l e' | None => Panicked end).

(** wallet/signer/mod.rs L1742-1763. *)
Definition signer_sign_with (self : N) (accounts auth : bool) (s : signer (LD := LD) (ID := ID) (NF := NF))
    (t : transaction) (rng prf : nat) : option (signer * (list (post * data) + sign_error)) :=
  if auth then on_signer s (fun acc => sign_with_transaction_data self accounts (s_assets s) t (mk_eff acc rng prf))
  else Some (s, inr MissingProofAuthorizationKey).
End Sign.
End Td.
Arguments rpost : clear implicits.
Arguments wire : clear implicits.
