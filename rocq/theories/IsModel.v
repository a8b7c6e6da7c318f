(** The initial synchronisation of a signer and of a wallet.

    Sources: manta-accounting/src/wallet/signer/mod.rs L195-213 (InitialSyncData), L249-316
    (InitialSyncRequest) and L1611-1621 (initial_sync); wallet/signer/functions.rs L1463-1530
    (intial_sync, initial_sync_with); wallet/mod.rs L324-352 (initial_sync) and L502-512;
    manta-crypto/src/merkle_tree/forest.rs L548-609 ([PtModel.fo_from_items],
    [PtModel.sort_items]).

    Simplified: counters do not overflow; the cast of the nullifier count from u128 to usize is
    the identity.  Reads of the ledger are a function of their number and the checkpoint, and
    the connection does not fail. *)
From Coq Require Import List Arith NArith Bool.
From Verif Require Import MtModel PtModel AssetModel CkModel SgModel SnModel WaModel.
Import ListNotations.
Open Scope nat_scope.

Section Initial.
Context {LD ID IT UT NT NF : Type}.
(** As in [SgModel] and [WaModel]. *)
Variable dl : LD.
Variable di : ID.
Variable join : ID -> ID -> ID.
Variable joinl : LD -> LD -> ID.
Variable ideqb : ID -> ID -> bool.
Variable H : nat.
Variable chk : bool.
Variable dg : IT -> LD.
Variable sh : IT -> nat.
Variable item : UT -> IT.
(** The number of shards. *)
Variable shards : nat.

Notation signer := (signer (LD := LD) (ID := ID) (NF := NF)).
Notation wallet := (wallet (LD := LD) (ID := ID) (NF := NF)).

(** wallet/signer/mod.rs L195-213 InitialSyncData. *)
Record idata := mk_idata { id_utxos : list UT ; id_paths : list (path LD ID) ; id_nulls : nat }.

(** L249-268 InitialSyncRequest. *)
Record ireq := mk_ireq { ir_items : list (list IT) ; ir_paths : list (path LD ID) ; ir_nulls : nat }.

(** L275-287 from_initial_sync_data; [None]: index out of range in [sort_items]. *)
Definition from_initial_sync_data (d : idata) : option ireq :=
  option_map (fun its => mk_ireq its (id_paths d) (id_nulls d)) (sort_items sh shards (map item (id_utxos d))).

(** L290-298 extend: the loop stops with the shorter list. *)
Fixpoint zip_extend (old new : list (list IT)) : list (list IT) :=
  match old, new with
  | o :: old', n :: new' => (o ++ n) :: zip_extend old' new'
  | _, _ => old
  end.
Definition ir_extend (r m : ireq) : ireq := mk_ireq (zip_extend (ir_items r) (ir_items m)) (ir_paths m) (ir_nulls m).

(** L312-330 Default; the default path at path.rs L182-194. *)
Definition ir_default : ireq := mk_ireq (repeat [] shards) (repeat (Path 0 dl (repeat di (path_length H))) shards) 0.

(** functions.rs L1498-1530 initial_sync_with, at the default checkpoint and assets. *)
Definition initial_sync_with (items : list (list IT)) (paths : list (path LD ID)) (nulls : nat)
  : option (forest LD ID * ckpt * list asset) :=
  match fo_from_items dl di join joinl ideqb H dg shards items paths with
  | None => None
  | Some acc =>
      let ck := update_from_utxo_accumulator (update_from_nullifiers (mk_ckpt (repeat 0 shards) 0) nulls) (acc_lens acc) in
      option_map (fun l => (acc, ck, l)) (am_assets [])
  end.

(** functions.rs L1464-1494 intial_sync and mod.rs L1611-1621; the list of open nullifiers is
    not among the arguments. *)
Definition initial_sync (s : signer) (r : ireq) : option (signer * (ckpt * balance_update + sync_error)) :=
  match initial_sync_with (ir_items r) (ir_paths r) (ir_nulls r) with
  | None => None
  | Some (acc, ck, l) =>
      option_map (fun acc' => (mk_signer acc' [] (s_nulls s) ck, inl (ck, BFull l)))
        (fo_commit dl di join joinl ideqb H chk acc)
  end.

(** wallet/mod.rs L330-348: the loop that builds the request; [read n c] is the [n]-th answer of
    the ledger.  The outer [None] is a loop that did not end within [fuel] rounds. *)
Fixpoint initial_loop (fuel n : nat) (read : nat -> ckpt -> bool * idata) (c : ckpt) (r : ireq)
  : option (res ireq) :=
  match fuel with
  | O => None
  | S fuel' =>
      let '(more, d) := read n c in
      match from_initial_sync_data d with
      | None => Some Panic
      | Some m =>
          match update_from_utxo_count c (map (@length IT) (ir_items m)) with
          | Panic => Some Panic
          | Ret c' => if more then initial_loop fuel' (S n) read c' (ir_extend r m) else Some (Ret (ir_extend r m))
          end
      end
  end.

(** L324-352 initial_sync with L502-512 signer_initial_sync. *)
Definition wallet_initial_sync (fuel : nat) (read : nat -> ckpt -> bool * idata) (w : wallet) : option (wout wallet unit) :=
  match initial_loop fuel 0 read (ck_default shards) ir_default with
  | None => None
  | Some Panic => Some WPanic
  | Some (Ret r) =>
      match initial_sync (w_signer w) r with
      | None => Some WPanic
      | Some (s, x) => Some (process_sync_response (mk_wallet (w_ck w) s (w_assets w)) x)
      end
  end.
End Initial.
Arguments idata : clear implicits.
Arguments ireq : clear implicits.
Arguments mk_idata {LD ID UT}.
Arguments mk_ireq {LD ID IT}.
