(** The signer: building the posts of a transaction.

    Sources: manta-accounting/src/wallet/signer/functions.rs L420-900 (selection, joins, final
    senders, to-public posts) and L1056-1330 (sign, consolidate and what they call);
    transfer/batch.rs L68-124 (Join); transfer/sender.rs L117-185 (insert_utxo, try_upgrade);
    transfer/mod.rs L412-460 (internal_pair); wallet/signer/mod.rs L1643-1681 and L1833-1846;
    manta-util/src/iter/chunk_by.rs.

    Not modelled: the contents of a post other than the assets moved, the identifiers, the
    accounts and the membership proofs.  Key derivation, encryption, signatures and the circuit
    are left out; that the proof system may return an error is kept.  [into_post] answers
    [Ok(None)] when the authorization does not belong to the spending key; both come from the
    same default account here, so this does not happen and the [expect] of L564 is left out.

    Sums of values use u128 addition; overflow is a panic, as in [AssetModel]. *)
From Coq Require Import List Arith NArith Bool.
From Verif Require Import MtModel PtModel AssetModel CkModel SgModel.
Import ListNotations.
Open Scope nat_scope.

(** wallet/signer/mod.rs SignError. *)
Inductive sign_error :=
  | InsufficientBalance (a : asset) | InvalidConsolidationRequest
  | MissingSpendingKey | MissingProofAuthorizationKey | ProofSystemError.

(** transfer/canonical.rs: the three shapes. *)
Inductive kind := KToPrivate | KPrivateTransfer | KToPublic.

(** canonical.rs Transaction; addresses and public accounts are numbers. *)
Inductive transaction :=
  | ToPrivate (a : asset) | PrivateTransfer (a : asset) (address : N) | ToPublic (a : asset) (account : N).

(** manta-util chunk_by.rs: pairs in order, and the remainder. *)
Fixpoint chunk2 {A} (l : list A) : list (A * A) * list A :=
  match l with
  | a :: b :: r => let '(cs, rm) := chunk2 r in ((a, b) :: cs, rm)
  | _ => ([], l)
  end.

Section Sign.
Context {LD ID IT NF : Type}.
(** Merkle tree parameters; see [PtModel]. *)
Variable dl : LD.
Variable di : ID.
Variable join : ID -> ID -> ID.
Variable joinl : LD -> LD -> ID.
Variable ldeqb : LD -> LD -> bool.
Variable ideqb : ID -> ID -> bool.
Variable H : nat.
Variable chk : bool.
Variable dg : IT -> LD.
Variable sh : IT -> nat.
(** Cryptography, see [SgModel]. *)
Variable spend_item : N -> asset -> IT.
(** The identifier in the [n]-th receiver or pre-sender sampled. *)
Variable ident : nat -> N.
(** Does the [n]-th call of the prover succeed? *)
Variable prove_ok : nat -> bool.

(** What the functions change: the accumulator, and the two counters. *)
Record eff := mk_eff { e_acc : forest LD ID; e_rng : nat; e_prf : nat }.

(** Result of a function that may return an error with [?] or panic. *)
Inductive out (A : Type) := Done (a : A) (e : eff) | Failed (x : sign_error) (e : eff) | Panicked.
Arguments Done {A}. Arguments Failed {A}. Arguments Panicked {A}.

Definition bind {A B} (o : out A) (k : A -> eff -> out B) : out B :=
  match o with Done a e => k a e | Failed x e => Failed x e | Panicked => Panicked end.

(** A pre-sender: identifier and asset (the utxo and nullifier are derived from them). *)
Notation presender := (N * asset)%type.
(** sender.rs Sender; [None] is the default proof, which does not verify. *)
Record sender := mk_sender { sd_key : N; sd_asset : asset; sd_proof : option (path LD ID * ID) }.
(** receiver.rs Receiver; [None] is the address of the signer. *)
Record recv := mk_recv { rc_to : option N; rc_key : N; rc_asset : asset }.
(** transfer/mod.rs Transfer, as posted. *)
Record post := mk_post { po_kind : kind; po_sources : list asset; po_senders : list sender;
  po_receivers : list recv; po_sinks : list asset; po_sink_accounts : list N }.

(** rng.gen: the next identifier. *)
Definition draw (e : eff) : N * eff := (ident (e_rng e), mk_eff (e_acc e) (S (e_rng e)) (e_prf e)).

(** functions.rs L442-489 receiver, default_receiver, receiver_from_authorization_context. *)
Definition receiver (addr : option N) (a : asset) (e : eff) : recv * eff :=
  let '(k, e') := draw e in (mk_recv addr k a, e').

(** functions.rs L541-603 build_post_inner and build_post. *)
Definition build_post (p : post) (e : eff) : out post :=
  let e' := mk_eff (e_acc e) (e_rng e) (S (e_prf e)) in
  if prove_ok (e_prf e) then Done p e' else Failed ProofSystemError e'.

(** sender.rs L176-182 try_upgrade with the [expect] of its callers. *)
Definition upgrade (s : presender) (e : eff) : option sender :=
  match fo_prove dl di join joinl ldeqb H chk dg sh (e_acc e) (spend_item (fst s) (snd s)) with
  | Some (Some p) => Some (mk_sender (fst s) (snd s) (Some p))
  | _ => None
  end.
Fixpoint upgrade_all (l : list presender) (e : eff) : option (list sender) :=
  match l with
  | [] => Some []
  | s :: r =>
      match upgrade s e, upgrade_all r e with
      | Some x, Some xs => Some (x :: xs)
      | _, _ => None
      end
  end.

(** sender.rs L117-127 insert_utxo; the result of the insertion is ignored (batch.rs L117-123). *)
Definition insert_utxo (s : presender) (e : eff) : option eff :=
  option_map (fun r => mk_eff (fst r) (e_rng e) (e_prf e))
    (fo_insert dl di join joinl H dg sh (e_acc e) (spend_item (fst s) (snd s))).

(** L606-629 next_join with batch.rs L73-110 Join::new for two receivers. *)
Definition next_join (id total : N) (e : eff) : (list recv * (presender * list presender)) * eff :=
  let '(r1, e1) := receiver None (id, total) e in
  let '(r2, e2) := receiver None (id, 0%N) e1 in
  (([r1; r2], ((rc_key r1, (id, total)), [(rc_key r2, (id, 0%N))])), e2).

(** batch.rs L113-123 insert_utxos. *)
Fixpoint insert_utxos (l : list presender) (e : eff) : option eff :=
  match l with
  | [] => Some e
  | s :: r => match insert_utxo s e with Some e' => insert_utxos r e' | None => None end
  end.

Definition values (l : list sender) : list N := map (fun s => snd (sd_asset s)) l.

(** L631-710 prepare_final_pre_senders.  [new_zeroes] is popped from its end. *)
Fixpoint fakes (id : N) (n : nat) (e : eff) : list sender * eff :=
  match n with
  | O => ([], e)
  | S n' =>
      let '(k, e') := draw e in
      let '(l, e'') := fakes id n' e' in (mk_sender k (id, 0%N) None :: l, e'')
  end.
Definition prepare_final (m : amap) (id : N) (new_zeroes pre : list presender) (e : eff)
  : out (list sender) :=
  match upgrade_all pre e with
  | None => Panicked
  | Some senders =>
      if 2 <? length senders then Panicked   (* L652: subtraction *)
      else
        let needed := 2 - length senders in
        let zs := am_zeroes m needed id in
        match upgrade_all (map (fun k => (k, (id, 0%N))) zs) e with
        | None => Panicked
        | Some zsenders =>
            let needed' := needed - length zs in
            match upgrade_all (firstn needed' (rev new_zeroes)) e with
            | None => Panicked
            | Some nsenders =>
                let '(fs, e') := fakes id (needed' - length new_zeroes) e in
                Done (senders ++ zsenders ++ nsenders ++ fs) e'
            end
        end
  end.

(** into_array_unchecked into an array of length two. *)
Definition into_array2 (o : out (list sender)) : out (list sender) :=
  bind o (fun l e => if length l =? 2 then Done l e else Panicked).

(** L768-800: the chunks of one round.  Carried: joins, new zeroes, posts. *)
Fixpoint join_round (id : N) (chunks : list (presender * presender))
    (joins zeroes : list presender) (posts : list post) (e : eff)
  : out (list presender * list presender * list post) :=
  match chunks with
  | [] => Done (joins, zeroes, posts) e
  | (a, b) :: r =>
      match upgrade_all [a; b] e with
      | None => Panicked
      | Some senders =>
          match vsum 0 (values senders) with
          | None => Panicked
          | Some total =>
              let '((receivers, (pre, zs)), e1) := next_join id total e in
              bind (build_post (mk_post KPrivateTransfer [] senders receivers [] []) e1) (fun p e2 =>
              match insert_utxos (pre :: zs) e2 with
              | None => Panicked
              | Some e3 => join_round id r (joins ++ [pre]) (zeroes ++ zs) (posts ++ [p]) e3
              end)
          end
      end
  end.

(** L762-803: the rounds.  [fuel] bounds their number; every round shortens the list. *)
Fixpoint join_loop (fuel : nat) (id : N) (pre zeroes : list presender) (posts : list post) (e : eff)
  : out (list presender * list presender * list post) :=
  if 2 <? length pre then
    match fuel with
    | O => Panicked
    | S fuel' =>
        let '(chunks, rem) := chunk2 pre in
        bind (join_round id chunks [] zeroes posts e) (fun r e' =>
        let '(joins, zeroes', posts') := r in
        join_loop fuel' id (joins ++ rem) zeroes' posts' e')
    end
  else Done (pre, zeroes, posts) e.

(** L743-817 compute_batched_transactions: the posts, and the final senders. *)
Definition compute_batched (m : amap) (id : N) (pre : list presender) (e : eff)
  : out (list post * list sender) :=
  bind (join_loop (length pre) id pre [] [] e) (fun r e1 =>
  let '(pre', zeroes, posts) := r in
  bind (into_array2 (prepare_final m id zeroes pre' e1)) (fun senders e2 => Done (posts, senders) e2)).

(** L884-942 process_to_public_senders: the post, and the new change. *)
Definition process_to_public (id : N) (accounts : list N) (senders : list sender) (change : N) (e : eff)
  : out (post * N) :=
  match vsum 0 (values senders) with
  | None => Panicked
  | Some reclaimed =>
      let '(received, reclaimed', change') :=
        if (change <=? reclaimed)%N then (change, (reclaimed - change)%N, 0%N)
        else (reclaimed, 0%N, (change - reclaimed)%N) in
      let '(r, e1) := receiver None (id, received) e in
      bind (build_post (mk_post KToPublic [] senders [r] [(id, reclaimed')] accounts) e1) (fun p e2 =>
      Done (p, change') e2)
  end.

(** L840-860: the loop over the pairs. *)
Fixpoint public_loop (id : N) (accounts : list N) (chunks : list (presender * presender))
    (change : N) (posts : list post) (e : eff) : out (N * list post) :=
  match chunks with
  | [] => Done (change, posts) e
  | (a, b) :: r =>
      match upgrade_all [a; b] e with
      | None => Panicked
      | Some senders =>
          bind (process_to_public id accounts senders change e) (fun pc e' =>
          public_loop id accounts r (snd pc) (posts ++ [fst pc]) e')
      end
  end.

(** L819-882 compute_to_public_transaction. *)
Definition compute_to_public (m : amap) (id : N) (accounts : list N) (change : N)
    (pre : list presender) (e : eff) : out (list post) :=
  let '(chunks, rem) := chunk2 pre in
  bind (public_loop id accounts chunks change [] e) (fun cp e1 =>
  let '(change', posts) := cp in
  match rem with
  | [] => Done posts e1
  | _ =>
      bind (into_array2 (prepare_final m id [] rem e1)) (fun senders e2 =>
      bind (process_to_public id accounts senders change' e2) (fun pc e3 =>
      Done (posts ++ [fst pc]) e3))
  end).

(** L491-516 select; L518-540 custom_select. *)
Definition select (m : amap) (a : asset) (e : eff) : out (N * list presender) :=
  match am_select m a with
  | None => Panicked
  | Some (change, vs) =>
      if negb (snd a =? 0)%N && match vs with [] => true | _ => false end
      then Failed (InsufficientBalance a) e
      else Done (change, map (fun kv => (fst kv, (fst a, snd kv))) vs) e
  end.
Definition custom_select (m : amap) (r : list iasset) (e : eff) : out (N * list presender) :=
  if negb (cr_check r m) then Failed InvalidConsolidationRequest e
  else
    match cr_id r with
    | None => Panicked
    | Some id =>
        let '(change, vs) := cr_select r in
        Done (change, map (fun kv => (fst kv, (id, snd kv))) vs) e
    end.

(** L1117-1165 sign_after_selection_private_transfer. *)
Definition private_after (m : amap) (a : asset) (addr : option N) (sel : N * list presender) (e : eff)
  : out (list post) :=
  bind (compute_batched m (fst a) (snd sel) e) (fun ps e1 =>
  let '(posts, senders) := ps in
  let '(change, e2) := receiver None (fst a, fst sel) e1 in
  let '(rc, e3) := receiver addr a e2 in
  bind (build_post (mk_post KPrivateTransfer [] senders [change; rc] [] []) e3) (fun p e4 =>
  Done (posts ++ [p]) e4)).

(** L1056-1084 sign_withdraw with L1167-1212 sign_after_selection, in the two cases. *)
Definition withdraw_private (m : amap) (a : asset) (addr : N) (e : eff) : out (list post) :=
  bind (select m a e) (fun sel e1 => private_after m a (Some addr) sel e1).
Definition withdraw_public (m : amap) (a : asset) (account : N) (e : eff) : out (list post) :=
  bind (select m a e) (fun sel e1 => compute_to_public m (fst a) [account] (fst sel) (snd sel) e1).

(** L1086-1115 consolidate_internal. *)
Definition consolidate_internal (m : amap) (r : list iasset) (e : eff) : out (list post) :=
  match cr_asset r with
  | None => Panicked
  | Some a => bind (custom_select m r e) (fun sel e1 => private_after m a None sel e1)
  end.

(** L1214-1270 sign_internal; [accounts], [auth]: are the keys loaded? *)
Definition sign_internal (accounts auth : bool) (m : amap) (t : transaction) (e : eff) : out (list post) :=
  match t with
  | ToPrivate a =>
      if auth then
        let '(r, e1) := receiver None a e in
        bind (build_post (mk_post KToPrivate [a] [] [r] [] []) e1) (fun p e2 => Done [p] e2)
      else Failed MissingProofAuthorizationKey e
  | PrivateTransfer a addr =>
      if accounts then withdraw_private m a addr e else Failed MissingSpendingKey e
  | ToPublic a account =>
      if accounts then withdraw_public m a account e else Failed MissingSpendingKey e
  end.

(** L1286-1296 and L1321-1329: [?] first, then [rollback]. *)
Definition then_rollback (o : out (list post)) : out (list post) :=
  bind o (fun ps e =>
  match fo_rollback dl di join joinl ideqb H (e_acc e) with
  | Some acc => Done ps (mk_eff acc (e_rng e) (e_prf e))
  | None => Panicked
  end).

(** L1272-1297 sign; L1299-1330 consolidate. *)
Definition sign (accounts auth : bool) (m : amap) (t : transaction) (e : eff) : out (list post) :=
  then_rollback (sign_internal accounts auth m t e).
Definition consolidate (accounts : bool) (m : amap) (l : list iasset) (e : eff) : out (list post) :=
  if accounts then
    match cr_new l with
    | None => Failed InvalidConsolidationRequest e
    | Some r => then_rollback (consolidate_internal m r e)
    end
  else Failed MissingSpendingKey e.

(** wallet/signer/mod.rs L1643-1681: the same on a signer.  Only the accumulator is borrowed
    mutably, apart from the random number generator. *)
Definition on_signer {A} (s : signer) (r : forest LD ID -> out A)
  : option (signer (LD := LD) (ID := ID) (NF := NF) * (A + sign_error)) :=
  match r (s_acc s) with
  | Done a e => Some (mk_signer (e_acc e) (s_assets s) (s_nulls s) (s_ck s), inl a)
  | Failed x e => Some (mk_signer (e_acc e) (s_assets s) (s_nulls s) (s_ck s), inr x)
  | Panicked => None
  end.
Definition signer_sign (accounts auth : bool) (s : signer) (t : transaction) (rng prf : nat) :=
  on_signer s (fun acc => sign accounts auth (s_assets s) t (mk_eff acc rng prf)).
Definition signer_consolidate (accounts : bool) (s : signer) (l : list iasset) (rng prf : nat) :=
  on_signer s (fun acc => consolidate accounts (s_assets s) l (mk_eff acc rng prf)).

(** wallet/signer/mod.rs L1834-1846 estimate_transferposts; the subtraction is in usize. *)
Definition estimate (m : amap) (t : transaction) : option N :=
  match t with
  | ToPrivate _ => Some 1%N
  | PrivateTransfer a _ =>
      match am_select m a with
      | None => None
      | Some (_, []) => if chk then None else Some (2 ^ 64 - 1)%N
      | Some (_, vs) => Some (N.max (N.of_nat (length vs) - 1) 1)
      end
  | ToPublic a _ =>
      match am_select m a with
      | None => None
      | Some (_, vs) => Some ((N.of_nat (length vs) + 1) / 2)%N
      end
  end.
End Sign.

Arguments Done {LD ID A}. Arguments Failed {LD ID A}. Arguments Panicked {LD ID A}.
Arguments mk_eff {LD ID}. Arguments e_acc {LD ID}. Arguments e_rng {LD ID}. Arguments e_prf {LD ID}.
Arguments mk_sender {LD ID}. Arguments sd_key {LD ID}. Arguments sd_asset {LD ID}. Arguments sd_proof {LD ID}.
Arguments mk_post {LD ID}. Arguments po_kind {LD ID}. Arguments po_sources {LD ID}. Arguments po_senders {LD ID}.
Arguments po_receivers {LD ID}. Arguments po_sinks {LD ID}. Arguments po_sink_accounts {LD ID}.
Arguments bind {LD ID A B}. Arguments values {LD ID}.
