(** Model of the simulated ledger and of the validation and posting of transfer posts.
    Sources: /repo/manta-pay/src/simulation/ledger/mod.rs, /repo/manta-accounting/src/transfer/
    {mod,canonical,sender,receiver}.rs, /repo/manta-accounting/src/transfer/utxo/protocol.rs and
    /repo/manta-util/src/vec.rs.

    Not modelled: the unsafe (unchecked) variants used to fill test ledgers, serialisation of the
    ledger, the lock around it and the connection type that forwards calls. *)
From Coq Require Import List Arith NArith Bool.
From Verif Require Import MtModel CkModel.
Import ListNotations.
Open Scope nat_scope.

(** protocol.rs L2762-2771 [FullNullifier]: the commitment and the encrypted outgoing note. *)
Record fnull (CM ON : Type) := mk_fnull { fn_com : CM ; fn_note : ON }.
Arguments mk_fnull {CM ON}.
Arguments fn_com {CM ON}.
Arguments fn_note {CM ON}.

(** canonical.rs L238-247 [TransferShape]. *)
Inductive tshape := TToPrivate | TPrivate | TToPublic.

(** mod.rs (transfer) L93-95 and L81-83. *)
Definition requires_authorization (senders : nat) : bool := 0 <? senders.
Definition has_public_participants (sources sinks : nat) : bool := 0 <? sources + sinks.

(** canonical.rs L252-304 [TransferShape::select]; the shapes are 1,0,1,0 and 0,2,2,0 and 0,2,1,1
    (L100, L166, L197-203), their two flags are computed from these numbers. *)
Definition select_shape (has_auth has_asset : bool) (sources senders receivers sinks : nat)
    : option tshape :=
  match has_auth, has_asset, sources, senders, receivers, sinks with
  | false, true, 1, 0, 1, 0 => Some TToPrivate
  | true, false, 0, 2, 2, 0 => Some TPrivate
  | true, true, 0, 2, 1, 1 => Some TToPublic
  | _, _, _, _, _, _ => None
  end.

(** The errors of mod.rs (transfer) [TransferPostError] and [InvalidAuthorizationSignature], with
    the ledger's own errors (mod.rs (ledger) L325-349, L361-380, L391-457) folded in. *)
Inductive lerr :=
  | EMissingSignature | EBadSignature | ESignatureShape
  | EInvalidShape | ESource | ESink | EDuplicateSpend | EDuplicateMint
  | EOutput | ESpent | ERegistered | EReceiver | EProof.

(** A result, or a panic. *)
Inductive lres (A : Type) := ROk (a : A) | RErr (e : lerr) | RPanic.
Arguments ROk {A}.
Arguments RErr {A}.
Arguments RPanic {A}.

(** vec.rs L115-125 [all_unequal]. *)
Fixpoint all_unequal {T} (eq : T -> T -> bool) (l : list T) : bool :=
  match l with
  | [] => true
  | x :: r => if existsb (eq x) r then false else all_unequal eq r
  end.

(** Collecting an iterator of results: the first error wins. *)
Fixpoint collect {A B} (f : A -> lres B) (l : list A) : lres (list B) :=
  match l with
  | [] => ROk []
  | x :: r =>
      match f x with
      | ROk y => match collect f r with ROk ys => ROk (y :: ys) | RErr e => RErr e | RPanic => RPanic end
      | RErr e => RErr e
      | RPanic => RPanic
      end
  end.

(** Hash maps with numbers as keys: association lists in insertion order.  The iteration order of
    the code's maps is never used. *)
Fixpoint mget {V} (m : list (N * V)) (k : N) : option V :=
  match m with
  | [] => None
  | (k', v) :: r => if N.eqb k' k then Some v else mget r k
  end.
Fixpoint mset {V} (m : list (N * V)) (k : N) (v : V) : list (N * V) :=
  match m with
  | [] => [(k, v)]
  | (k', v') :: r => if N.eqb k' k then (k', v) :: r else (k', v') :: mset r k v
  end.

(** Values are 128-bit numbers. *)
Definition u128 : N := (2 ^ 128)%N.

Section Ledger.
Context {CM ON UT NT IN IT LD ID KEY SG PRF : Type}.

(** Digests and tree parameters, as in the tree models. *)
Variable dl : LD.
Variable di : ID.
Variable join : ID -> ID -> ID.
Variable joinl : LD -> LD -> ID.
Variable ideqb : ID -> ID -> bool.
Variable H : nat.
(** Accumulator item of a utxo, leaf digest of an item, shard of an item. *)
Variable item : UT -> IT.
Variable dg : IT -> LD.
Variable sh : IT -> nat.
(** Equality of nullifier commitments, of utxos and of incoming notes. *)
Variable comeqb : CM -> CM -> bool.
Variable uteqb : UT -> UT -> bool.
Variable nteqb : NT -> NT -> bool.
(** Looking up [x] in the hash table of the nullifiers [s] compares [x] with the stored [y]. *)
Variable probe : list (fnull CM ON) -> fnull CM ON -> fnull CM ON -> bool.
(** The default accumulator output. *)
Variable dout : ID.
(** The part of a note that is a public input of the proof. *)
Variable incoming : NT -> IN.
(** Overflow of 128-bit arithmetic panics (debug builds) or wraps (release builds). *)
Variable ovchk : bool.

Notation nullif := (fnull CM ON).

(** sender.rs L632-641 [SenderPost], receiver.rs L331-340 [ReceiverPost]. *)
Record spost := mk_spost { sp_out : ID ; sp_null : nullif }.
Record rpost := mk_rpost { rp_utxo : UT ; rp_note : NT }.

(** mod.rs (transfer) L1469-1490 [TransferPostBody]. *)
Record body := mk_body {
  b_asset : option N ;
  b_sources : list N ;
  b_senders : list spost ;
  b_receivers : list rpost ;
  b_sinks : list N ;
  b_proof : PRF }.

(** mod.rs (transfer) L1673-1685 [TransferPost]; a signature is the key and the signature
    proper. *)
Record post := mk_post {
  p_auth : option (KEY * SG) ;
  p_body : body ;
  p_accounts : list N }.

(** Signature verification under the key, over the body and the sink accounts
    ([BodyWithAccountsRef], mod.rs (transfer) L1596-1636). *)
Variable verify_sig : KEY -> SG -> body -> list N -> bool.

(** Public inputs of a proof: what each [Input::extend] appends (mod.rs L2183-2202, sender.rs
    L778-781, receiver.rs L464-467, protocol.rs L2888-2897, L1744-1753, L1927-1938). *)
Inductive pin :=
  | PKey (k : KEY) | PAsset (a : N) | PValue (v : N) | POut (o : ID) | PCom (c : CM)
  | PUtxo (u : UT) | PNote (n : IN).

(** Proof verification: an error, or whether the proof is valid.  The verifying key is chosen by
    the shape (mod.rs (ledger) L641-643). *)
Variable verify : tshape -> list pin -> PRF -> option bool.

(** mod.rs (ledger) L131-159 [Ledger], without the verifying keys and parameters.  The set of
    utxos has no duplicates and its order is not observable. *)
Record ledger := mk_lg {
  g_nulls : list nullif ;
  g_utxos : list UT ;
  g_shards : list (list (UT * NT)) ;
  g_trees : list (single LD ID) ;
  g_accounts : list (N * list (N * N)) }.

(** mod.rs (ledger) L164-180 [Ledger::new] with [w] shards. *)
Definition lg_new (w : nat) : ledger :=
  mk_lg [] [] (repeat [] w) (repeat (single_new dl di) w) [].

(** mod.rs (ledger) L184-192 [public_balances], one asset of it. *)
Definition public_balance (L : ledger) (account id : N) : option N :=
  match mget (g_accounts L) account with
  | Some m => mget m id
  | None => None
  end.

(** mod.rs (ledger) L196-199 [set_public_balance]; [None] is the panic for asset id zero. *)
Definition set_public_balance (L : ledger) (account id value : N) : option ledger :=
  if N.eqb id 0 then None
  else
    let m := match mget (g_accounts L) account with Some m => m | None => [] end in
    Some (mk_lg (g_nulls L) (g_utxos L) (g_shards L) (g_trees L)
            (mset (g_accounts L) account (mset m id value))).

(** The hash-set lookup of an [IndexSet] of nullifiers: the entries compared by the probe, with the
    equality of protocol.rs L2807-2815 and L2859-2869, which compares the commitments. *)
Definition null_contains (s : list nullif) (x : nullif) : bool :=
  existsb (fun y => probe s x y && comeqb (fn_com x) (fn_com y)) s.

(** [IndexSet::insert]. *)
Definition null_insert (s : list nullif) (x : nullif) : list nullif :=
  if null_contains s x then s else s ++ [x].

(** mod.rs (ledger) L480-486 [is_unspent]. *)
Definition is_unspent (L : ledger) (x : nullif) : lres nullif :=
  if null_contains (g_nulls L) x then RErr ESpent else ROk x.

(** mod.rs (ledger) L489-502 [has_matching_utxo_accumulator_output]. *)
Definition has_matching_output (L : ledger) (o : ID) : lres ID :=
  if ideqb o dout then ROk o
  else if existsb (fun t => ideqb (s_root t) o) (g_trees L) then ROk o
  else RErr EOutput.

(** mod.rs (ledger) L505-514 [spend]. *)
Definition spend (L : ledger) (x : nullif) : ledger :=
  mk_lg (null_insert (g_nulls L) x) (g_utxos L) (g_shards L) (g_trees L) (g_accounts L).

(** mod.rs (ledger) L523-529 [is_not_registered]. *)
Definition is_not_registered (L : ledger) (u : UT) : lres UT :=
  if existsb (uteqb u) (g_utxos L) then RErr ERegistered else ROk u.

Definition set_nth {A} (i : nat) (x : A) (l : list A) : list A :=
  firstn i l ++ match skipn i l with [] => [] | _ :: r => x :: r end.

(** [IndexSet::insert] of a pair and [HashSet::insert] of a utxo; the equality and the hash of
    these types are the derived ones. *)
Definition pair_eqb (x y : UT * NT) : bool := uteqb (fst x) (fst y) && nteqb (snd x) (snd y).
Definition pair_insert (s : list (UT * NT)) (x : UT * NT) : list (UT * NT) :=
  if existsb (pair_eqb x) s then s else s ++ [x].
Definition utxo_insert (s : list UT) (u : UT) : list UT :=
  if existsb (uteqb u) s then s else s ++ [u].

(** mod.rs (ledger) L532-547 [register].  The result of the push into the forest (forest.rs
    L276-278) is dropped, as in the code.  A missing shard is the error of L542, a tree index out
    of range or a failing tree operation a panic. *)
Definition register (L : ledger) (u : UT) (n : NT) : ledger * lres unit :=
  let x := item u in
  match nth_error (g_shards L) (sh x) with
  | None => (L, RErr EReceiver)
  | Some s =>
      let shards := set_nth (sh x) (pair_insert s (u, n)) (g_shards L) in
      let utxos := utxo_insert (g_utxos L) u in
      match nth_error (g_trees L) (sh x) with
      | None => (mk_lg (g_nulls L) utxos shards (g_trees L) (g_accounts L), RPanic)
      | Some t =>
          match single_push dl di join joinl H t (dg x) with
          | None => (mk_lg (g_nulls L) utxos shards (g_trees L) (g_accounts L), RPanic)
          | Some (t', _) =>
              (mk_lg (g_nulls L) utxos shards (set_nth (sh x) t' (g_trees L)) (g_accounts L), ROk tt)
          end
      end
  end.

(** mod.rs (ledger) L559-599 [check_source_accounts], one source. *)
Definition check_source (L : ledger) (id : N) (src : N * N) : lres (N * N) :=
  match mget (g_accounts L) (fst src) with
  | Some m =>
      match mget m id with
      | Some balance => if N.leb (snd src) balance then ROk src else RErr ESource
      | None => RErr ESource
      end
  | None => RErr ESource
  end.

(** mod.rs (ledger) L602-623 [check_sink_accounts], one sink. *)
Definition check_sink (L : ledger) (snk : N * N) : lres (N * N) :=
  match mget (g_accounts L) (fst snk) with
  | Some _ => ROk snk
  | None => RErr ESink
  end.

(** mod.rs (transfer) L2026-2051 [TransferPostingKey]; the fields of validated keys are the checked
    values themselves. *)
Record pkey := mk_pkey {
  k_asset : option N ;
  k_sources : list (N * N) ;
  k_senders : list spost ;
  k_receivers : list rpost ;
  k_sinks : list (N * N) }.

(** mod.rs (transfer) L2183-2202: the public input of the proof of a posting key. *)
Definition proof_input (key : option KEY) (k : pkey) : list pin :=
  match key with Some a => [PKey a] | None => [] end ++
  match k_asset k with Some a => [PAsset a] | None => [] end ++
  map (fun s => PValue (snd s)) (k_sources k) ++
  flat_map (fun s => [POut (sp_out s); PCom (fn_com (sp_null s))]) (k_senders k) ++
  flat_map (fun r => [PUtxo (rp_utxo r); PNote (incoming (rp_note r))]) (k_receivers k) ++
  map (fun s => PValue (snd s)) (k_sinks k).

(** mod.rs (transfer) L1576-1592 and L1940-1945: the public input of the proof of a post. *)
Definition post_input (p : post) : list pin :=
  match p_auth p with Some a => [PKey (fst a)] | None => [] end ++
  match b_asset (p_body p) with Some a => [PAsset a] | None => [] end ++
  map PValue (b_sources (p_body p)) ++
  flat_map (fun s => [POut (sp_out s); PCom (fn_com (sp_null s))]) (b_senders (p_body p)) ++
  flat_map (fun r => [PUtxo (rp_utxo r); PNote (incoming (rp_note r))]) (b_receivers (p_body p)) ++
  map PValue (b_sinks (p_body p)).

Definition is_some {A} (o : option A) : bool := match o with Some _ => true | None => false end.

(** mod.rs (ledger) L626-651 [is_valid]: an error of the verifier is an error; the boolean it
    returns otherwise is dropped. *)
Definition is_valid (key : option KEY) (k : pkey) (prf : PRF) : lres unit :=
  match select_shape (is_some key) (is_some (k_asset k)) (length (k_sources k))
          (length (k_senders k)) (length (k_receivers k)) (length (k_sinks k)) with
  | None => RErr EInvalidShape
  | Some s =>
      match verify s (proof_input key k) prf with
      | None => RErr EProof
      | Some _ => ROk tt
      end
  end.

(** Subtraction and addition of values. *)
Definition vsub (a b : N) : option N :=
  if N.leb b a then Some (a - b)%N else if ovchk then None else Some (a + u128 - b)%N.
Definition vadd (a b : N) : option N :=
  if N.ltb (a + b) u128 then Some (a + b)%N else if ovchk then None else Some (a + b - u128)%N.

Definition with_accounts (L : ledger) (m : list (N * list (N * N))) : ledger :=
  mk_lg (g_nulls L) (g_utxos L) (g_shards L) (g_trees L) m.

(** mod.rs (ledger) L663-682: the loop over the sources. *)
Fixpoint debit_all (L : ledger) (id : N) (srcs : list (N * N)) : ledger * lres unit :=
  match srcs with
  | [] => (L, ROk tt)
  | (a, v) :: r =>
      match mget (g_accounts L) a with
      | None => (L, RErr ESource)
      | Some m =>
          match mget m id with
          | None => (L, RErr ESource)
          | Some b =>
              match vsub b v with
              | None => (L, RPanic)
              | Some b' => debit_all (with_accounts L (mset (g_accounts L) a (mset m id b'))) id r
              end
          end
      end
  end.

(** mod.rs (ledger) L683-696: the loop over the sinks; a missing entry of the asset is zero. *)
Fixpoint credit_all (L : ledger) (id : N) (snks : list (N * N)) : ledger * lres unit :=
  match snks with
  | [] => (L, ROk tt)
  | (a, v) :: r =>
      match mget (g_accounts L) a with
      | None => (L, RErr ESink)
      | Some m =>
          let b := match mget m id with Some b => b | None => 0%N end in
          match vadd b v with
          | None => (L, RPanic)
          | Some b' => credit_all (with_accounts L (mset (g_accounts L) a (mset m id b'))) id r
          end
      end
  end.

(** mod.rs (ledger) L654-698 [update_public_balances]. *)
Definition update_public_balances (L : ledger) (id : N) (srcs snks : list (N * N))
    : ledger * lres unit :=
  match debit_all L id srcs with
  | (L1, ROk _) => credit_all L1 id snks
  | r => r
  end.

(** mod.rs (transfer) L1767-1787 [has_valid_authorization_signature]. *)
Definition check_auth (p : post) : lres unit :=
  match p_auth p, requires_authorization (length (b_senders (p_body p))) with
  | Some (key, sig), true =>
      if verify_sig key sig (p_body p) (p_accounts p) then ROk tt else RErr EBadSignature
  | Some _, false => RErr ESignatureShape
  | None, true => RErr EMissingSignature
  | None, false => ROk tt
  end.

(** mod.rs (transfer) L1793-1832 [check_public_participants]; the two [unwrap]s of L1817 and L1825
    are the panics. *)
Definition check_public (L : ledger) (asset : option N) (sacc svals kacc kvals : list N)
    : lres (list (N * N) * list (N * N)) :=
  if negb (Bool.eqb (has_public_participants (length svals) (length kvals)) (is_some asset))
  then RErr EInvalidShape
  else if negb (length sacc =? length svals) then RErr EInvalidShape
  else if negb (length kacc =? length kvals) then RErr EInvalidShape
  else
    let sources :=
      if 0 <? length svals then
        match asset with
        | Some id => collect (check_source L id) (combine sacc svals)
        | None => RPanic
        end
      else ROk [] in
    match sources with
    | RErr e => RErr e
    | RPanic => RPanic
    | ROk sks =>
        let sinks :=
          if 0 <? length kvals then
            match asset with
            | Some _ => collect (check_sink L) (combine kacc kvals)
            | None => RPanic
            end
          else ROk [] in
        match sinks with
        | RErr e => RErr e
        | RPanic => RPanic
        | ROk kks => ROk (sks, kks)
        end
    end.

(** sender.rs L658-671 [SenderPost::validate]. *)
Definition validate_sender (L : ledger) (s : spost) : lres spost :=
  match has_matching_output L (sp_out s) with
  | ROk o =>
      match is_unspent L (sp_null s) with
      | ROk x => ROk (mk_spost o x)
      | RErr e => RErr e
      | RPanic => RPanic
      end
  | RErr e => RErr e
  | RPanic => RPanic
  end.

(** receiver.rs L354-365 [ReceiverPost::validate]. *)
Definition validate_receiver (L : ledger) (r : rpost) : lres rpost :=
  match is_not_registered L (rp_utxo r) with
  | ROk u => ROk (mk_rpost u (rp_note r))
  | RErr e => RErr e
  | RPanic => RPanic
  end.

Definition rbind {A B} (r : lres A) (f : A -> lres B) : lres B :=
  match r with ROk a => f a | RErr e => RErr e | RPanic => RPanic end.

(** mod.rs (transfer) L1837-1896 [TransferPost::validate]. *)
Definition validate (L : ledger) (p : post) (sacc kacc : list N) : lres pkey :=
  let b := p_body p in
  rbind (check_auth p) (fun _ =>
  rbind (check_public L (b_asset b) sacc (b_sources b) kacc (b_sinks b)) (fun sk =>
  if negb (all_unequal (fun x y => comeqb (fn_com (sp_null x)) (fn_com (sp_null y))) (b_senders b))
  then RErr EDuplicateSpend
  else if negb (all_unequal (fun x y => uteqb (rp_utxo x) (rp_utxo y)) (b_receivers b))
  then RErr EDuplicateMint
  else
  rbind (collect (validate_sender L) (b_senders b)) (fun senders =>
  rbind (collect (validate_receiver L) (b_receivers b)) (fun receivers =>
  let k := mk_pkey (b_asset b) (fst sk) senders receivers (snd sk) in
  rbind (is_valid (option_map fst (p_auth p)) k (b_proof b)) (fun _ =>
  ROk k))))).

(** sender.rs L545-557 [spend_all]: spending cannot fail (mod.rs (ledger) L513). *)
Fixpoint spend_all (L : ledger) (ss : list spost) : ledger :=
  match ss with
  | [] => L
  | s :: r => spend_all (spend L (sp_null s)) r
  end.

(** receiver.rs L260-272 [register_all]. *)
Fixpoint register_all (L : ledger) (rs : list rpost) : ledger * lres unit :=
  match rs with
  | [] => (L, ROk tt)
  | r :: rest =>
      match register L (rp_utxo r) (rp_note r) with
      | (L1, ROk _) => register_all L1 rest
      | x => x
      end
  end.

(** mod.rs (transfer) L2066-2088 [TransferPostingKey::post]. *)
Definition post_key (L : ledger) (k : pkey) : ledger * lres unit :=
  let L1 := spend_all L (k_senders k) in
  match register_all L1 (k_receivers k) with
  | (L2, ROk _) =>
      match k_asset k with
      | Some id => update_public_balances L2 id (k_sources k) (k_sinks k)
      | None => (L2, ROk tt)
      end
  | r => r
  end.

(** mod.rs (transfer) L1901-1915 [TransferPost::post]. *)
Definition transfer_post (L : ledger) (p : post) (sacc kacc : list N) : ledger * lres unit :=
  match validate L p sacc kacc with
  | ROk k => post_key L k
  | RErr e => (L, RErr e)
  | RPanic => (L, RPanic)
  end.

(** canonical.rs L308-320 [TransferShape::from_post]. *)
Definition post_shape (p : post) : option tshape :=
  let b := p_body p in
  select_shape (is_some (p_auth p)) (is_some (b_asset b)) (length (b_sources b))
    (length (b_senders b)) (length (b_receivers b)) (length (b_sinks b)).

(** mod.rs (ledger) L230-241: the body of the loop of [push].  An error of posting is unwrapped
    (L238), so it is a panic; then the ledger keeps what was written. *)
Definition push_one (L : ledger) (account : N) (p : post) : ledger * lres bool :=
  match post_shape p with
  | None => (L, ROk false)
  | Some s =>
      let '(sacc, kacc) :=
        match s with
        | TToPrivate => ([account], [])
        | TPrivate => ([], [])
        | TToPublic => ([], [account])
        end in
      match validate L p sacc kacc with
      | ROk k =>
          match post_key L k with
          | (L1, ROk _) => (L1, ROk true)
          | (L1, _) => (L1, RPanic)
          end
      | RErr _ => (L, ROk false)
      | RPanic => (L, RPanic)
      end
  end.

(** mod.rs (ledger) L229-243 [push]: stops at the first post that is not accepted. *)
Fixpoint push (L : ledger) (account : N) (ps : list post) : ledger * lres bool :=
  match ps with
  | [] => (L, ROk true)
  | p :: r =>
      match push_one L account p with
      | (L1, ROk true) => push L1 account r
      | x => x
      end
  end.

(** mod.rs (ledger) L203-225 [pull]; the checkpoint has one counter per shard. *)
Definition pull (L : ledger) (c : ckpt) : bool * sdata (UT * NT) nullif :=
  (false,
   mk_sdata
     (flat_map (fun i => skipn (nth i (recv c) 0) (nth i (g_shards L) [])) (seq 0 (length (recv c))))
     (skipn (send c) (g_nulls L))).

(** mod.rs (ledger) L268-298 [initial_read]: the loop over the shards enumerates the shard numbers
    twice, once as the shard and once as the first index to read. *)
Definition initial_read (L : ledger) : bool * (list UT * list (cpath LD ID) * nat) :=
  (false,
   (flat_map (fun ix => map fst (skipn (snd ix) (nth (fst ix) (g_shards L) [])))
      (combine (seq 0 (length (g_shards L))) (seq 0 (length (g_shards L)))),
    map s_path (g_trees L), length (g_nulls L))).

End Ledger.

Arguments mk_spost {CM ON ID}.
Arguments sp_out {CM ON ID}.
Arguments sp_null {CM ON ID}.
Arguments mk_rpost {UT NT}.
Arguments rp_utxo {UT NT}.
Arguments rp_note {UT NT}.
Arguments mk_body {CM ON UT NT ID PRF}.
Arguments b_asset {CM ON UT NT ID PRF}.
Arguments b_sources {CM ON UT NT ID PRF}.
Arguments b_senders {CM ON UT NT ID PRF}.
Arguments b_receivers {CM ON UT NT ID PRF}.
Arguments b_sinks {CM ON UT NT ID PRF}.
Arguments b_proof {CM ON UT NT ID PRF}.
Arguments mk_post {CM ON UT NT ID KEY SG PRF}.
Arguments p_auth {CM ON UT NT ID KEY SG PRF}.
Arguments p_body {CM ON UT NT ID KEY SG PRF}.
Arguments p_accounts {CM ON UT NT ID KEY SG PRF}.
Arguments mk_lg {CM ON UT NT LD ID}.
Arguments g_nulls {CM ON UT NT LD ID}.
Arguments g_utxos {CM ON UT NT LD ID}.
Arguments g_shards {CM ON UT NT LD ID}.
Arguments g_trees {CM ON UT NT LD ID}.
Arguments g_accounts {CM ON UT NT LD ID}.
Arguments mk_pkey {CM ON UT NT ID}.
Arguments k_asset {CM ON UT NT ID}.
Arguments k_sources {CM ON UT NT ID}.
Arguments k_senders {CM ON UT NT ID}.
Arguments k_receivers {CM ON UT NT ID}.
Arguments k_sinks {CM ON UT NT ID}.
Arguments ledger : clear implicits.
Arguments post : clear implicits.
Arguments body : clear implicits.
Arguments spost : clear implicits.
Arguments rpost : clear implicits.
Arguments pkey : clear implicits.
Arguments pin : clear implicits.
