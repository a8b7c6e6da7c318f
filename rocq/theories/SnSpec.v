(** What the posts of a transaction move, without reference to how they are built. *)
From Coq Require Import List Arith NArith Bool Permutation.
From Verif Require Import MtModel PtModel AssetModel SnModel.
Import ListNotations.
Open Scope nat_scope.

(** The sum of the values in a list of assets. *)
Definition amount (l : list asset) : N := fold_right (fun a s => (snd a + s)%N) 0%N l.
Definition all_of (id : N) (l : list asset) : Prop := Forall (fun a => fst a = id) l.

Section Posts.
Context {LD ID : Type}.
Notation post := (@post LD ID).

(** What goes in and what comes out of a post. *)
Definition ins (p : post) : list asset := map sd_asset (po_senders p) ++ po_sources p.
Definition outs (p : post) : list asset := map rc_asset (po_receivers p) ++ po_sinks p.
Definition conserves (id : N) (p : post) : Prop :=
  all_of id (ins p) /\ all_of id (outs p) /\ amount (ins p) = amount (outs p).

(** The coins spent by senders, by a post, and by posts; the coins a post makes for the signer. *)
Definition coin (s : @sender LD ID) : N * asset := (sd_key s, sd_asset s).
Definition spent (p : post) : list (N * asset) := map coin (po_senders p).
Definition all_spent (ps : list post) : list (N * asset) := flat_map spent ps.
Definition made (p : post) : list (N * asset) :=
  flat_map (fun r => match rc_to r with None => [(rc_key r, rc_asset r)] | Some _ => [] end) (po_receivers p).

(** A join: a transfer of two coins to oneself, as a coin with their sum, and a zero. *)
Definition is_join (id : N) (p : post) : Prop :=
  po_kind p = KPrivateTransfer /\ po_sources p = [] /\ po_sinks p = [] /\ po_sink_accounts p = [] /\
  exists s1 s2 k1 k2, po_senders p = [s1; s2] /\
    po_receivers p = [mk_recv None k1 (id, (snd (sd_asset s1) + snd (sd_asset s2))%N); mk_recv None k2 (id, 0%N)].

(** The coin with the sum. *)
Definition join_out (p : post) : list (N * asset) := firstn 1 (made p).

(** A private transfer of [a] to [addr] with [change] back to oneself. *)
Definition is_transfer (a : asset) (addr : option N) (change : N) (p : post) : Prop :=
  po_kind p = KPrivateTransfer /\ po_sources p = [] /\ po_sinks p = [] /\ po_sink_accounts p = [] /\
  length (po_senders p) = 2 /\
  exists k1 k2, po_receivers p = [mk_recv None k1 (fst a, change); mk_recv addr k2 a].

(** A payment of [v] to a public account with [r] back to oneself. *)
Definition is_payment (id : N) (accounts : list N) (p : post) : Prop :=
  po_kind p = KToPublic /\ po_sources p = [] /\ po_sink_accounts p = accounts /\ length (po_senders p) = 2 /\
  exists k r v, po_receivers p = [mk_recv None k (id, r)] /\ po_sinks p = [(id, v)].

(** Zeroes used to fill up the two places of a post. *)
Definition is_zero (id : N) (c : N * asset) : Prop := snd c = (id, 0%N).
End Posts.
