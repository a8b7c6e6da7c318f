(** The wallet: the balances it keeps beside the signer, and its calls of the signer.

    Source: manta-accounting/src/wallet/mod.rs L85-690, with transfer/canonical.rs L384-402
    (Transaction::check).  The signer is that of [SgModel] and [SnModel], the balances are those of
    [AssetModel] (balance.rs).

    Not modelled: sbt_sync (L275-303), the other queries that are handed on to the
    signer (L571-630, L686-712) and errors of the connections themselves.  initial_sync is in
    [IsModel]. *)
From Coq Require Import List Arith NArith Bool.
From Verif Require Import MtModel PtModel AssetModel CkModel SgModel SnModel.
Import ListNotations.
Open Scope nat_scope.

(** L800-860 Error, with InconsistencyError (L716-752). *)
Inductive wallet_error :=
  | WInsufficientBalance (a : asset) | WWalletBalance | WSignerSynchronization | WSign (x : sign_error).

(** The result of a call: the wallet is changed also when there is an error. *)
Inductive wout (W A : Type) := WOk (w : W) (a : A) | WErr (w : W) (x : wallet_error) | WPanic.
Arguments WOk {W A}. Arguments WErr {W A}. Arguments WPanic {W A}.

Section Wallet.
Context {LD ID IT UT NT NF : Type}.
(** The parameters of the signer; see [SgModel] and [SnModel]. *)
Variable dl : LD.
Variable di : ID.
Variable join : ID -> ID -> ID.
Variable joinl : LD -> LD -> ID.
Variable ldeqb : LD -> LD -> bool.
Variable ideqb : ID -> ID -> bool.
Variable H : nat.
Variable chk : bool.
Variable dg : IT -> LD.
Variable sh : IT -> nat.
Variable open_note : UT -> NT -> option (N * asset).
Variable item : UT -> IT.
Variable spend_item : N -> asset -> IT.
Variable spend_null : N -> asset -> NF.
Variable nfeqb : NF -> NF -> bool.
Variable can_open : NF -> bool.
Variable ident : nat -> N.
Variable prove_ok : nat -> bool.
(** The number of shards: the length of the default checkpoint. *)
Variable shards : nat.

Notation signer := (signer (LD := LD) (ID := ID) (NF := NF)).
Notation sync := (sync dl di join joinl ldeqb ideqb H chk dg sh open_note item spend_item spend_null nfeqb can_open).
Notation sign := (signer_sign dl di join joinl ldeqb ideqb H chk dg sh spend_item ident prove_ok).

(** L85-112 Wallet, without the ledger connection. *)
Record wallet := mk_wallet { w_ck : ckpt ; w_signer : signer ; w_assets : bmap }.

(** S::Checkpoint::default() and B::default(). *)
Definition ck_default : ckpt := mk_ckpt (repeat 0 shards) 0.
Definition bm_default : bmap := fun _ => None.

(** L144-146 new. *)
Definition wallet_new (s : signer) : wallet := mk_wallet ck_default s bm_default.

(** L178-181 reset_state. *)
Definition reset_state (w : wallet) : wallet := mk_wallet ck_default (w_signer w) bm_default.

(** L444-485 process_sync_response.  The error InconsistentSynchronization carries the checkpoint
    of the signer (functions.rs L973-976). *)
Definition process_sync_response (w : wallet) (r : ckpt * balance_update + sync_error)
  : wout wallet unit :=
  match r with
  | inl (c, BPartial deposit withdraw) =>
      match bm_deposit_all (w_assets w) deposit with
      | None => WPanic
      | Some m1 =>
          match bm_withdraw_all m1 withdraw with
          | None => WPanic
          | Some (m2, false) => WErr (mk_wallet (w_ck w) (w_signer w) m2) WWalletBalance
          | Some (m2, true) => WOk (mk_wallet c (w_signer w) m2) tt
          end
      end
  | inl (c, BFull assets) =>
      match bm_deposit_all bm_default assets with
      | None => WPanic
      | Some m => WOk (mk_wallet c (w_signer w) m) tt
      end
  | inr InconsistentSynchronization =>
      let c := s_ck (w_signer w) in
      WErr (mk_wallet (if ck_ltb c (w_ck w) then c else w_ck w) (w_signer w) (w_assets w))
        WSignerSynchronization
  | inr InconsistentBalance => WErr w WWalletBalance
  end.

(** L488-499 signer_sync. *)
Definition wallet_signer_sync (w : wallet) (origin : ckpt) (d : sdata (UT * NT) NF) : wout wallet unit :=
  match sync (w_signer w) origin d with
  | None => WPanic
  | Some (s, r) => process_sync_response (mk_wallet (w_ck w) s (w_assets w)) r
  end.

(** L426-441 sync_with, with what the ledger returned for the wallet's checkpoint. *)
Definition wallet_sync_with (w : wallet) (d : sdata (UT * NT) NF) : wout wallet unit :=
  wallet_signer_sync w (w_ck w) d.

(** L252-254 load_initial_state: an empty request at the default checkpoint. *)
Definition load_initial_state (w : wallet) : wout wallet unit :=
  wallet_signer_sync w ck_default (mk_sdata [] []).

(** L267-273 sync: the loop, with the reads that the ledger answers in turn; [read n c] is the
    [n]-th answer.  The loop ends when there is nothing more; [fuel] bounds it. *)
Fixpoint wallet_sync (fuel n : nat) (read : nat -> ckpt -> bool * sdata (UT * NT) NF) (w : wallet)
  : option (wout wallet unit) :=
  match fuel with
  | O => None
  | S fuel' =>
      let '(more, d) := read n (w_ck w) in
      match wallet_sync_with w d with
      | WOk w' _ => if more then wallet_sync fuel' (S n) read w' else Some (WOk w' tt)
      | r => Some r
      end
  end.

(** L238-246 restart. *)
Definition restart (fuel : nat) (read : nat -> ckpt -> bool * sdata (UT * NT) NF) (w : wallet)
  : option (wout wallet unit) :=
  match load_initial_state (reset_state w) with
  | WOk w' _ => wallet_sync fuel 0 read w'
  | r => Some r
  end.

(** L537-546 check with canonical.rs L388-402 and balance.rs L46-51. *)
Definition wallet_check (w : wallet) (t : transaction) : option asset :=
  match t with
  | ToPrivate _ => None
  | PrivateTransfer a _ | ToPublic a _ => if (snd a <=? bm_balance (w_assets w) (fst a))%N then None else Some a
  end.

(** L550-567 sign; [accounts] and [auth]: are the keys loaded?  [rng] and [prf] count the random
    values and the proofs. *)
Definition wallet_sign (accounts auth : bool) (w : wallet) (t : transaction) (rng prf : nat)
  : wout wallet (list (@post LD ID)) :=
  match wallet_check w t with
  | Some a => WErr w (WInsufficientBalance a)
  | None =>
      match sign accounts auth (w_signer w) t rng prf with
      | None => WPanic
      | Some (s, inl ps) => WOk (mk_wallet (w_ck w) s (w_assets w)) ps
      | Some (s, inr x) => WErr (mk_wallet (w_ck w) s (w_assets w)) (WSign x)
      end
  end.
End Wallet.

Arguments mk_wallet {LD ID NF}.
Arguments w_ck {LD ID NF}.
Arguments w_signer {LD ID NF}.
Arguments w_assets {LD ID NF}.
