(** What the simulated ledger has to guarantee, stated on the posts that were accepted and on the
    notes, nullifiers and balances that the ledger holds. *)
From Coq Require Import List Arith NArith Bool.
From Verif Require Import MtModel MtSpec CkModel CkSpec LgModel.
Import ListNotations.
Open Scope nat_scope.

Definition commitments {CM ON UT NT ID KEY SG PRF} (p : post CM ON UT NT ID KEY SG PRF) : list CM :=
  map (fun s => fn_com (sp_null s)) (b_senders (p_body p)).
Definition outputs {CM ON UT NT ID KEY SG PRF} (p : post CM ON UT NT ID KEY SG PRF) : list UT :=
  map rp_utxo (b_receivers (p_body p)).

Section Amounts.
Local Open Scope N_scope.

Definition nsum (l : list N) : N := fold_right N.add 0 l.

(** The amount that a list of (account, value) assigns to an account. *)
Definition amount_of (a : N) (l : list (N * N)) : N :=
  nsum (map snd (filter (fun x => N.eqb (fst x) a) l)).

Context {CM ON UT NT LD ID : Type}.

(** The balance of an account; an account or an asset that is not listed has zero. *)
Definition balance (L : ledger CM ON UT NT LD ID) (a id : N) : N :=
  match public_balance L a id with Some b => b | None => 0 end.

(** The public supply of an asset: all entries of the asset in all accounts. *)
Definition supply (L : ledger CM ON UT NT LD ID) (id : N) : N :=
  nsum (map (fun am => amount_of id (snd am)) (g_accounts L)).

(** The listed sources were debited and the listed sinks credited in one asset, nothing else. *)
Definition moved (L L' : ledger CM ON UT NT LD ID) (id : N) (srcs snks : list (N * N)) : Prop :=
  (forall a, balance L' a id + amount_of a srcs = balance L a id + amount_of a snks) /\
  (forall a id', id' <> id -> balance L' a id' = balance L a id') /\
  supply L' id + nsum (map snd srcs) = supply L id + nsum (map snd snks) /\
  (forall id', id' <> id -> supply L' id' = supply L id').

End Amounts.

Section Spec.
Context {CM ON UT NT LD ID : Type}.
Variable dl : LD.
Variable di : ID.
Variable join : ID -> ID -> ID.
Variable joinl : LD -> LD -> ID.
Variable H : nat.
Variable leaf : UT -> LD.

Notation lg := (ledger CM ON UT NT LD ID).

Definition shard (L : lg) (i : nat) : list (UT * NT) := nth i (g_shards L) [].
Definition tree_root (L : lg) (i : nat) : ID := nth i (map s_root (g_trees L)) di.

(** The notes that a shard holds, as leaves of its tree. *)
Definition shard_leaves (L : lg) (i : nat) : list LD := map (fun un => leaf (fst un)) (shard L i).

(** An output note is in the accumulator: it is a leaf of its shard's tree, and there is a path of
    sibling digests from it to the root that the ledger compares the posts with. *)
Definition spendable (L : lg) (i : nat) (u : UT) : Prop :=
  exists j sib ds, nth_error (shard_leaves L i) j = Some (leaf u) /\ length ds = H - 2 /\
    spec_path_root join joinl j (leaf u) sib ds = tree_root L i.

(** The ledger grew: every shard and the nullifiers kept what they had, in order. *)
Definition grows (L L' : lg) : Prop :=
  length (g_shards L') = length (g_shards L) /\
  (forall i, exists r, shard L' i = shard L i ++ r) /\
  exists r, g_nulls L' = g_nulls L ++ r.

(** An account has more of some asset than before. *)
Definition credited (L L' : lg) (a : N) : Prop := exists id, (balance L a id < balance L' a id)%N.

End Spec.

(** The conditions under which a post may be accepted. *)
Section Conditions.
Context {CM ON UT NT LD ID KEY SG PRF : Type}.
Variable verify_sig : KEY -> SG -> body CM ON UT NT ID PRF -> list N -> bool.
Variable dout : ID.

Notation pst := (post CM ON UT NT ID KEY SG PRF).
Notation lg := (ledger CM ON UT NT LD ID).

(** A signature over the body and the sink accounts exactly if there are private senders. *)
Definition signed (p : pst) : Prop :=
  (b_senders (p_body p) <> [] ->
     exists key sig, p_auth p = Some (key, sig) /\ verify_sig key sig (p_body p) (p_accounts p) = true) /\
  (b_senders (p_body p) = [] -> p_auth p = None).

(** The public part: an asset id exactly if there are public participants, one account for each
    public value, covered sources and existing sinks. *)
Definition public_ok (L : lg) (p : pst) (sacc kacc : list N) : Prop :=
  let b := p_body p in
  (b_asset b = None <-> b_sources b ++ b_sinks b = []) /\
  length sacc = length (b_sources b) /\ length kacc = length (b_sinks b) /\
  (forall a v id, b_asset b = Some id -> In (a, v) (combine sacc (b_sources b)) ->
     exists bal, public_balance L a id = Some bal /\ (v <= bal)%N) /\
  (forall a, In a kacc -> exists m, In (a, m) (g_accounts L)).

(** Every spend refers to the default output or to the root of one of the trees. *)
Definition known_outputs (L : lg) (p : pst) : Prop :=
  forall s, In s (b_senders (p_body p)) -> sp_out s = dout \/ In (sp_out s) (map s_root (g_trees L)).

(** No output is registered already. *)
Definition new_outputs (L : lg) (p : pst) : Prop :=
  NoDup (outputs p) /\ forall u, In u (outputs p) -> ~ In u (g_utxos L).

End Conditions.

(** Numbers of sources, senders, receivers and sinks of the three kinds of transfer. *)
Definition canonical (sources senders receivers sinks : nat) : Prop :=
  (sources = 1 /\ senders = 0 /\ receivers = 1 /\ sinks = 0) \/
  (sources = 0 /\ senders = 2 /\ receivers = 2 /\ sinks = 0) \/
  (sources = 0 /\ senders = 2 /\ receivers = 1 /\ sinks = 1).
