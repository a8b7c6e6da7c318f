(** The signer: synchronisation with the ledger.

    Sources: manta-accounting/src/wallet/signer/functions.rs L130-291 and L374-420, L955-1056
    (sync, sbt_sync and what they call), nullifier_map.rs L53-93 (the [Vec] map that
    manta-pay/src/signer/base.rs L92 uses), wallet/signer/mod.rs L452-471 (utxo_count).

    The accumulator is the forest of [PtModel], the asset map that of [AssetModel], checkpoints
    and pruning are those of [CkModel].

    Not modelled, but variables of the section: the cryptography.  Opening a note
    ([open_with_check]), deriving the item and the nullifier of a stored asset ([derive_spend]
    followed by [item_hash]) and the test that a nullifier can be opened are functions.  The key
    is fixed, so it is not an argument.  The encryption randomness in a derived nullifier is
    left out: equality of nullifiers looks at the commitment only
    (transfer/utxo/protocol.rs L2807-2815 and L2859-2869). *)
From Coq Require Import List Arith NArith Bool.
From Verif Require Import MtModel PtModel AssetModel CkModel.
Import ListNotations.
Open Scope nat_scope.

(** wallet/signer/mod.rs SyncError: the two errors that these functions return. *)
Inductive sync_error := InconsistentSynchronization | InconsistentBalance.

(** wallet/signer/mod.rs BalanceUpdate. *)
Inductive balance_update := BPartial (deposit withdraw : list asset) | BFull (assets : list asset).

(** nullifier_map.rs L81-88: [Vec::remove] of the first equal entry. *)
Fixpoint nm_remove {V} (veqb : V -> V -> bool) (l : list V) (v : V) : list V * bool :=
  match l with
  | [] => ([], false)
  | w :: r => if veqb w v then (r, true) else let '(r', b) := nm_remove veqb r v in (w :: r', b)
  end.

Section Signer.
Context {LD ID IT UT NT NF : Type}.
(** Merkle tree parameters; see [PtModel]. *)
Variable dl : LD.
Variable di : ID.
Variable join : ID -> ID -> ID.
Variable joinl : LD -> LD -> ID.
Variable ldeqb : LD -> LD -> bool.
Variable ideqb : ID -> ID -> bool.
Variable H : nat.
Variable chk : bool.
Variable dg : IT -> LD.
Variable sh : IT -> nat.
(** Cryptography. *)
Variable open_note : UT -> NT -> option (N * asset).   (* open_with_check *)
Variable item : UT -> IT.                              (* item_hash *)
Variable spend_item : N -> asset -> IT.                (* item_hash of the utxo of derive_spend *)
Variable spend_null : N -> asset -> NF.                (* nullifier of derive_spend *)
Variable nfeqb : NF -> NF -> bool.
Variable can_open : NF -> bool.                        (* can_be_opened *)

(** wallet/signer/mod.rs L1270-1300 SignerState, without accounts and randomness. *)
Record signer := mk_signer {
  s_acc : forest LD ID; s_assets : amap; s_nulls : list NF; s_ck : ckpt }.

(** The shard of a note in a reply (base.rs L148-154, L169-179). *)
Definition note_sh (un : UT * NT) : nat := sh (item (fst un)).

(** What the loops carry: accumulator, assets, nullifiers, and a list of assets. *)
Definition work := (forest LD ID * amap * list NF * list asset)%type.

(** functions.rs L146-176 insert_next_item; [None]: panic in the accumulator. *)
Definition insert_next_item (w : work) (k : N) (a : asset) : option work :=
  let '(acc, m, ns, dep) := w in
  let it := spend_item k a in
  let '(ns', hit) := nm_remove nfeqb ns (spend_null k a) in
  if hit then
    option_map (fun r => (fst r, m, ns', dep)) (fo_insert_np dl di join joinl H dg sh acc it)
  else
    option_map (fun r => (fst r, am_insert m k a, ns', if (snd a =? 0)%N then dep else dep ++ [a]))
      (fo_insert dl di join joinl H dg sh acc it).

(** L243-247 and L262-264: insert the collected items that are not ours, if any. *)
Definition flush_np (acc : forest LD ID) (np : list IT) : option (forest LD ID) :=
  match np with
  | [] => Some acc
  | _ => option_map fst (fo_batch_insert_np dl di join joinl H dg sh acc np)
  end.

(** L239-264: the loop over the notes. *)
Fixpoint sync_notes (w : work) (np : list IT) (us : list (UT * NT)) : option work :=
  match us with
  | [] =>
      let '(acc, m, ns, dep) := w in
      option_map (fun acc' => (acc', m, ns, dep)) (flush_np acc np)
  | (u, n) :: r =>
      match open_note u n with
      | Some (k, a) =>
          let '(acc, m, ns, dep) := w in
          match flush_np acc np with
          | None => None
          | Some acc' =>
              match insert_next_item (acc', m, ns, dep) k a with
              | None => None
              | Some w' => sync_notes w' [] r
              end
          end
      | None => sync_notes w (np ++ [item u]) r
      end
  end.

(** L182-203 is_asset_unspent, with L265-279: the assets of one identifier. *)
Fixpoint retain_assets (acc : forest LD ID) (ns : list NF) (wd : list asset) (k : N) (l : list asset)
  : option (forest LD ID * list NF * list asset * list asset) :=
  match l with
  | [] => Some (acc, ns, wd, [])
  | a :: r =>
      let '(ns', hit) := nm_remove nfeqb ns (spend_null k a) in
      if hit then
        match fo_remove_proof ldeqb chk dg sh acc (spend_item k a) with
        | None => None
        | Some (acc', _) =>
            retain_assets acc' ns' (if (snd a =? 0)%N then wd else wd ++ [a]) k r
        end
      else
        match retain_assets acc ns' wd k r with
        | None => None
        | Some (acc', ns'', wd', l') => Some (acc', ns'', wd', a :: l')
        end
  end.

(** L265-279: [assets.retain]; an identifier without assets is dropped. *)
Fixpoint retain_map (acc : forest LD ID) (ns : list NF) (wd : list asset) (m : amap)
  : option work :=
  match m with
  | [] => Some (acc, [], ns, wd)
  | (k, l) :: r =>
      match retain_assets acc ns wd k l with
      | None => None
      | Some (acc', ns', wd', l') =>
          match retain_map acc' ns' wd' r with
          | None => None
          | Some (acc'', m', ns'', wd'') =>
              Some (acc'', match l' with [] => m' | _ => (k, l') :: m' end, ns'', wd'')
          end
      end
  end.

(** base.rs L107-114 with the lengths of the trees. *)
Definition acc_lens (acc : forest LD ID) : list nat := map ft_len acc.

(** L207-291 sync_with.  The state is returned with the error as well: everything is already
    updated when the error arises. *)
Definition sync_with (s : signer) (d : sdata (UT * NT) NF) (is_partial : bool)
  : option (signer * (ckpt * balance_update + sync_error)) :=
  match sync_notes (s_acc s, s_assets s, s_nulls s ++ filter can_open (nulls d), []) [] (notes d) with
  | None => None
  | Some (acc1, m1, ns1, dep) =>
      match retain_map acc1 ns1 [] m1 with
      | None => None
      | Some (acc2, m2, ns2, wd) =>
          let ck := update_from_utxo_accumulator
                      (update_from_nullifiers (s_ck s) (length (nulls d))) (acc_lens acc2) in
          let s' := mk_signer acc2 m2 ns2 ck in
          match normalize_assets dep wd with
          | None => Some (s', inr InconsistentBalance)
          | Some (dep', wd') =>
              if is_partial then Some (s', inl (ck, BPartial dep' wd'))
              else option_map (fun l => (s', inl (ck, BFull l))) (am_assets m2)
          end
      end
  end.

(** L1020-1056 sync: prune, synchronise, commit. *)
Definition sync (s : signer) (origin : ckpt) (d : sdata (UT * NT) NF)
  : option (signer * (ckpt * balance_update + sync_error)) :=
  match prune_sync_request note_sh (s_ck s) origin d with
  | Panic => None
  | Ret None => Some (s, inr InconsistentSynchronization)
  | Ret (Some (has_pruned, d')) =>
      match sync_with s d' (negb has_pruned) with
      | None => None
      | Some (s', r) =>
          option_map (fun acc => (mk_signer acc (s_assets s') (s_nulls s') (s_ck s'), r))
            (fo_commit dl di join joinl ideqb H chk (s_acc s'))
      end
  end.

(** L391-402: the loop of sbt_sync_with. *)
Fixpoint sbt_notes (m : amap) (dep : list asset) (us : list (UT * NT)) : amap * list asset :=
  match us with
  | [] => (m, dep)
  | (u, n) :: r =>
      match open_note u n with
      | Some (k, a) => sbt_notes (am_insert m k a) (if (snd a =? 0)%N then dep else dep ++ [a]) r
      | None => sbt_notes m dep r
      end
  end.

(** mod.rs L452-471 utxo_count, with [w] shards; [None]: index out of range. *)
Definition utxo_count (w : nat) (us : list (UT * NT)) : option (list nat) :=
  option_map (map (@length IT)) (sort_items sh w (map (fun un => item (fst un)) us)).

(** L374-420 sbt_sync_with and L985-1015 sbt_sync: no nullifiers, no accumulator.  The counts
    are those of the request before pruning (L998). *)
Definition sbt_sync (w : nat) (s : signer) (origin : ckpt) (d : sdata (UT * NT) NF)
  : option (signer * (ckpt * balance_update + sync_error)) :=
  match utxo_count w (notes d) with
  | None => None
  | Some count =>
      match prune_sync_request note_sh (s_ck s) origin d with
      | Panic => None
      | Ret None => Some (s, inr InconsistentSynchronization)
      | Ret (Some (has_pruned, d')) =>
          let '(m, dep) := sbt_notes (s_assets s) [] (notes d') in
          match update_from_utxo_count
                  (update_from_nullifiers (s_ck s) (length (nulls d'))) count with
          | Panic => None
          | Ret ck =>
              let s' := mk_signer (s_acc s) m (s_nulls s) ck in
              if has_pruned then option_map (fun l => (s', inl (ck, BFull l))) (am_assets m)
              else Some (s', inl (ck, BPartial dep []))
          end
      end
  end.

(** mod.rs: a new signer over [w] shards; [None]: panic. *)
Definition new_signer (w : nat) : option signer :=
  option_map (fun f => mk_signer f [] [] (mk_ckpt (repeat 0 w) 0))
    (fo_new dl di join joinl ideqb H w).
End Signer.

Arguments mk_signer {LD ID NF}.
Arguments s_acc {LD ID NF}.
Arguments s_assets {LD ID NF}.
Arguments s_nulls {LD ID NF}.
Arguments s_ck {LD ID NF}.
