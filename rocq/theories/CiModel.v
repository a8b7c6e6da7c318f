(** Model of the validity constraints of a transfer, with the honest construction of their secrets.
    Sources: /repo/manta-accounting/src/transfer/{mod,sender,receiver}.rs,
    /repo/manta-accounting/src/transfer/utxo/{protocol,auth}.rs, /repo/manta-accounting/src/asset.rs,
    /repo/manta-crypto/src/merkle_tree/path.rs (module constraint), /repo/manta-crypto/src/eclair/{num,
    bool}.rs, /repo/manta-crypto/src/arkworks/constraint/mod.rs, /repo/manta-pay/src/config/utxo.rs.

    A constraint system is a function from the assignment of the variables to a boolean: the
    conjunction of what is asserted.  An element of the constraint field is a number below the
    modulus; only values are added, identifiers are compared.  The gadgets of the hashes, of the group
    and of the note encryption are taken to compute the functions that the native code computes; the
    viewing key is the exception, see [view_key].  Header and light notes are not constrained, as in
    the code, and do not occur. *)
From Coq Require Import List Arith NArith Bool.
From Verif Require Import MtModel LgModel.
Import ListNotations.
Open Scope nat_scope.

(** asset.rs L76-82 [Asset]: identifier and value. *)
Notation casset := (N * N)%type.

(** protocol.rs L1799-1812 [Utxo]. *)
Record utxo (CMT : Type) := mk_utxo { ut_tr : bool ; ut_pub : casset ; ut_com : CMT }.
Arguments mk_utxo {CMT}.
Arguments ut_tr {CMT}.
Arguments ut_pub {CMT}.
Arguments ut_com {CMT}.

(** path.rs L943-958 and L1076-1086: [InnerPathVar] and [PathVar]. *)
Record pvar (LD ID : Type) := mk_pvar {
  pv_right : bool ;            (** leaf_index: the leaf is a right node *)
  pv_bits : list bool ;        (** inner_indices *)
  pv_sib : LD ;
  pv_path : list ID }.
Arguments mk_pvar {LD ID}.
Arguments pv_right {LD ID}.
Arguments pv_bits {LD ID}.
Arguments pv_sib {LD ID}.
Arguments pv_path {LD ID}.

Section Circuit.
Context {G CR CMT IT LD ID NC IR IN : Type}.

(** The modulus of the constraint field. *)
Variable p : N.
(** Group generator, scalar multiplication, and the hash of protocol.rs' viewing key derivation
    (utxo.rs L528-544, L552-561), as an element of the constraint field. *)
Variable gen : G.
Variable smul : N -> G -> G.
Variable vkhash : G -> N.
(** The order of the scalar field of the group. *)
Variable r : N.
(** utxo.rs L375-393, L404-422: utxo commitment of randomness, id, value and receiving key. *)
Variable ucommit : CR -> N -> N -> G -> CMT.
(** utxo.rs L1157-1185: item of a utxo; leaf digest of an item; L1471-1508: nullifier commitment. *)
Variable item : utxo CMT -> IT.
Variable dg : IT -> LD.
Variable ncommit : G -> IT -> NC.
(** protocol.rs L2027-2043 [incoming_note]: receiving key, randomness and plaintext. *)
Variable inote : G -> IR -> CR * casset -> IN.
(** Hashes of the merkle tree of height [H]. *)
Variable join : ID -> ID -> ID.
Variable joinl : LD -> LD -> ID.
Variable H : nat.
(** Equality of group elements, commitments, roots, nullifiers and notes. *)
Variable geqb : G -> G -> bool.
Variable cmteqb : CMT -> CMT -> bool.
Variable ideqb : ID -> ID -> bool.
Variable nceqb : NC -> NC -> bool.
Variable ineqb : IN -> IN -> bool.

(** protocol.rs L2504-2514 [SpendSecret] (without the outgoing randomness, which is not used by the
    constraints) and sender.rs L300-318 [Sender]. *)
Record csender := mk_cs {
  cs_rand : CR ;
  cs_asset : casset ;
  cs_utxo : utxo CMT ;
  cs_path : pvar LD ID ;
  cs_root : ID ;
  cs_null : NC }.

(** protocol.rs L1975-1988 [MintSecret] and receiver.rs L58-70 [Receiver]. *)
Record creceiver := mk_cr {
  cr_key : G ;
  cr_irand : IR ;
  cr_rand : CR ;
  cr_asset : casset ;
  cr_utxo : utxo CMT ;
  cr_note : IN }.

(** protocol.rs L2192-2205 [AuthorizationContext], L2334-2344 [AuthorizationProof]. *)
Record cauth := mk_ca { ca_key : G ; ca_rand : N ; ca_rkey : G }.

(** mod.rs L854-880 [TransferVar]. *)
Record witness := mk_wit {
  w_auth : option cauth ;
  w_asset : option N ;
  w_sources : list N ;
  w_senders : list csender ;
  w_receivers : list creceiver ;
  w_sinks : list N }.

(** constraint/mod.rs L313-326 [assert_within_range] for 128 bits: the bits are those of the number
    below the modulus. *)
Definition in_range (v : N) : bool := N.ltb v u128.

(** num.rs L207-220 [Add]: addition in the field, then the range. *)
Definition uadd (x y : N) : N * bool := let z := ((x + y) mod p)%N in (z, in_range z).

(** mod.rs L991-999 [value_sum]: [None] is the panic of an empty sum. *)
Definition value_sum (l : list N) : option (N * bool) :=
  match l with
  | [] => None
  | x :: rest => Some (fold_left (fun acc y => let '(z, ok) := uadd (fst acc) y in (z, snd acc && ok)) rest (x, true))
  end.

(** asset.rs L112-122 [is_empty], L214-219 [select]. *)
Definition is_empty (a : casset) : bool := N.eqb (fst a) 0 && N.eqb (snd a) 0.
Definition aselect (b : bool) (x y : casset) : casset :=
  (if b then fst x else fst y, if b then snd x else snd y).

(** bool.rs L165-172 [swap]. *)
Definition cswap {A} (b : bool) (x y : A) : A * A := if b then (y, x) else (x, y).

(** path.rs L968-1034: [root], [root_from_base] and [fold]. *)
Definition pv_root (v : pvar LD ID) (leaf : LD) : ID :=
  let '(l0, r0) := cswap (pv_right v) leaf (pv_sib v) in
  fold_left (fun acc bd => let '(x, y) := cswap (fst bd) acc (snd bd) in join x y)
    (combine (pv_bits v) (pv_path v)) (joinl l0 r0).

(** path.rs L1110-1142: [verify_digest] and [verify]. *)
Definition pv_verify (v : pvar LD ID) (root : ID) (x : IT) : bool := ideqb root (pv_root v (dg x)).

(** path.rs L1048-1059 and L1158-1163 [new_known]: the variables of a native path; the parents of
    the leaf index are those of node.rs L289-293, iterated by NodeParents. *)
Fixpoint parents (n i : nat) : list nat :=
  match n with 0 => [] | S n' => parent i :: parents n' (parent i) end.
Definition path_var (q : path LD ID) : pvar LD ID :=
  mk_pvar (negb (is_left (p_index q))) (map (fun j => negb (is_left j)) (parents (path_length H) (p_index q)))
    (p_sibling q) (p_inner q).

(** protocol.rs L2253-2270 [receiving_key] inside the constraints: the scalar is the hash itself
    (utxo.rs L557-560). *)
Definition rkey_var (pak : G) : G := smul (vkhash pak) gen.

(** protocol.rs L2578-2617 [SpendSecret::well_formed_asset]. *)
Definition spend_wf (pak : G) (s : csender) : (casset * NC) * bool :=
  let u := cs_utxo s in
  let transparent := is_empty (cs_asset s) in
  let asset := aselect (ut_tr u) (ut_pub u) (cs_asset s) in
  let x := item u in
  ((asset, ncommit pak x),
   Bool.eqb (ut_tr u) transparent &&
   cmteqb (ut_com u) (ucommit (cs_rand s) (fst (cs_asset s)) (snd (cs_asset s)) (rkey_var pak)) &&
   (N.eqb (snd asset) 0 || pv_verify (cs_path s) (cs_root s) x)).

(** sender.rs L341-361 [Sender::well_formed_asset]. *)
Definition sender_wf (pak : G) (s : csender) : casset * bool :=
  let '((asset, nc), ok) := spend_wf pak s in (asset, ok && nceqb (cs_null s) nc).

(** protocol.rs L2073-2098 [MintSecret::well_formed_asset], called by receiver.rs L84-86. *)
Definition receiver_wf (m : creceiver) : casset * bool :=
  let u := cr_utxo m in
  let transparent := is_empty (cr_asset m) in
  (aselect (ut_tr u) (ut_pub u) (cr_asset m),
   Bool.eqb (ut_tr u) transparent &&
   cmteqb (ut_com u) (ucommit (cr_rand m) (fst (cr_asset m)) (snd (cr_asset m)) (cr_key m)) &&
   ineqb (cr_note m) (inote (cr_key m) (cr_irand m) (cr_rand m, cr_asset m))).

(** protocol.rs L637-650 [assert_authorized]. *)
Definition authorized (a : cauth) : bool := geqb (smul (ca_rand a) (ca_key a)) (ca_rkey a).

(** mod.rs L922-956 [input_sum]: the asset ids of the senders, the sum and the assertions. *)
Definition input_sum (w : witness) : list N * option (N * bool) :=
  match w_auth w with
  | Some a =>
      let wf := map (sender_wf (ca_key a)) (w_senders w) in
      (map (fun x => fst (fst x)) wf,
       match value_sum (map (fun x => snd (fst x)) wf ++ w_sources w) with
       | Some (v, ok) => Some (v, authorized a && forallb snd wf && ok)
       | None => None
       end)
  | None => ([], value_sum (w_sources w))
  end.

(** mod.rs L959-980 [output_sum]. *)
Definition output_sum (w : witness) : list N * option (N * bool) :=
  let wf := map receiver_wf (w_receivers w) in
  (map (fun x => fst (fst x)) wf,
   match value_sum (map (fun x => snd (fst x)) wf ++ w_sinks w) with
   | Some (v, ok) => Some (v, forallb snd wf && ok)
   | None => None
   end).

(** bool.rs L67-89: [assert_all_eq_to_base] and [assert_all_eq]. *)
Definition all_eq_to (b : N) (l : list N) : bool := forallb (N.eqb b) l.
Definition all_eq (l : list N) : bool := match l with [] => true | x :: t => all_eq_to x t end.

(** mod.rs L890-919 [build_validity_constraints]; [None] is a panic while building. *)
Definition build_constraints (w : witness) : option bool :=
  let '(ids1, isum) := input_sum w in
  let '(ids2, osum) := output_sum w in
  match isum, osum with
  | Some (iv, iok), Some (ov, ook) =>
      Some (iok && ook && N.eqb iv ov &&
            match w_asset w with Some a => all_eq_to a (ids1 ++ ids2) | None => all_eq (ids1 ++ ids2) end)
  | _, _ => None
  end.

(** Every variable of a value is allocated with its range (num.rs L377-404, [Variable] for
    [UnsignedInteger]): sources, sinks, and the values inside the secrets and the utxos. *)
Definition utxo_range (u : utxo CMT) : bool := in_range (snd (ut_pub u)).
Definition alloc_ranges (w : witness) : bool :=
  forallb in_range (w_sources w) && forallb in_range (w_sinks w) &&
  forallb (fun s => in_range (snd (cs_asset s)) && utxo_range (cs_utxo s)) (w_senders w) &&
  forallb (fun m => in_range (snd (cr_asset m)) && utxo_range (cr_utxo m)) (w_receivers w).

(** mod.rs L1009-1032 [new_unknown], path.rs L1062-1072: the numbers of variables are those of the
    shape (canonical.rs L252-304) and of the height of the tree. *)
Definition path_fits (v : pvar LD ID) : bool :=
  (length (pv_bits v) =? H - 2) && (length (pv_path v) =? H - 2).
Definition shape_eqb (a b : tshape) : bool :=
  match a, b with
  | TToPrivate, TToPrivate | TPrivate, TPrivate | TToPublic, TToPublic => true
  | _, _ => false
  end.
Definition is_some {A} (o : option A) : bool := match o with Some _ => true | None => false end.
Definition fits (t : tshape) (w : witness) : bool :=
  match select_shape (is_some (w_auth w)) (is_some (w_asset w)) (length (w_sources w))
          (length (w_senders w)) (length (w_receivers w)) (length (w_sinks w)) with
  | Some t' => shape_eqb t t' && forallb (fun s => path_fits (cs_path s)) (w_senders w)
  | None => false
  end.

(** The relation that the proof system is set up for: mod.rs L658-673 (the unknown and the known
    constraints of a transfer). *)
Definition satisfied (t : tshape) (w : witness) : bool :=
  fits t w && alloc_ranges w &&
  match build_constraints w with Some b => b | None => false end.

(** The public variables in the order of their allocation: mod.rs L1033-1060 [new_known];
    protocol.rs L2383-2405 (the randomized key), sender.rs L425-434 with accumulator.rs L386-400 (the
    output) and protocol.rs L2838-2857 (the nullifier commitment), receiver.rs L172-180 (utxo and
    incoming note). *)
Definition wit_input (w : witness) : list (pin NC (utxo CMT) IN ID G) :=
  match w_auth w with Some a => [PKey (ca_rkey a)] | None => [] end ++
  match w_asset w with Some a => [PAsset a] | None => [] end ++
  map PValue (w_sources w) ++
  flat_map (fun s => [POut (cs_root s); PCom (cs_null s)]) (w_senders w) ++
  flat_map (fun m => [PUtxo (cr_utxo m); PNote (cr_note m)]) (w_receivers w) ++
  map PValue (w_sinks w).

(** ** The honest construction of the secrets *)

(** protocol.rs L2225-2270 outside of the constraints: the viewing key is reduced to a scalar
    (utxo.rs L533-543). *)
Definition view_key (pak : G) : N := (vkhash pak mod r)%N.
Definition rkey (pak : G) : G := smul (view_key pak) gen.

(** protocol.rs L91-114 [Visibility]: the public and the secret part of an asset. *)
Definition vis_public (transparent : bool) (a : casset) : casset := if transparent then a else (0%N, 0%N).
Definition vis_secret (transparent : bool) (a : casset) : casset := if transparent then (0%N, 0%N) else a.

(** protocol.rs L1461-1487 [utxo_reconstruct]; [derive_spend] (L1313-1329) and [derive_mint]
    (L1161-1167, L1192-1196) build the same utxo. *)
Definition utxo_for (transparent : bool) (rand : CR) (a : casset) (rk : G) : utxo CMT :=
  mk_utxo transparent (vis_public transparent a)
    (ucommit rand (fst (vis_secret transparent a)) (snd (vis_secret transparent a)) rk).

(** protocol.rs L1291-1350 [derive_spend] with a membership proof (sender.rs L150-160). *)
Definition derive_sender (pak : G) (transparent : bool) (rand : CR) (a : casset) (v : pvar LD ID) (root : ID)
    : csender :=
  let u := utxo_for transparent rand a (rkey pak) in
  mk_cs rand (vis_secret transparent a) u v root (ncommit pak (item u)).

(** protocol.rs L1147-1200 [derive_mint]. *)
Definition derive_receiver (rk : G) (transparent : bool) (irand : IR) (rand : CR) (a : casset) : creceiver :=
  let pl := (rand, vis_secret transparent a) in
  mk_cr rk irand rand (vis_secret transparent a) (utxo_for transparent rand a rk) (inote rk irand pl).

(** protocol.rs L1007-1014 [derive_context] and L1024-1038 [prove]. *)
Definition derive_auth (sk rand : N) : cauth :=
  let pak := smul sk gen in mk_ca pak rand (smul rand pak).

End Circuit.

Arguments csender : clear implicits.
Arguments creceiver : clear implicits.
Arguments cauth : clear implicits.
Arguments witness : clear implicits.
Arguments mk_cs {CR CMT LD ID NC}.
Arguments mk_cr {G CR CMT IR IN}.
Arguments mk_ca {G}.
