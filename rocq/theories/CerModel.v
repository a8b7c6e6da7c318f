(** Model of the trusted-setup ceremony server: manta-trusted-setup/src/groth16/ceremony/
    {server,coordinator,client}.rs, ceremony/{signature,participant}.rs,
    ceremony/registry/{mod,csv}.rs and manta-util/src/collections/vec_deque.rs.

    Identifiers and verifying keys are natural numbers; a registry (HashMap) is a partial
    function. The cryptography is abstract: [check_state], [challenge] and [vt] stand for
    [C::check_state], [C::challenge] and the success of [verify_transform]; [vsig] for the
    verification of a signature under a key, a nonce and a message. The clock is a natural
    number. Each critical section of the server is one atomic step; concurrent requests
    interleave between critical sections. *)
From Coq Require Import List NArith Arith Bool.
Import ListNotations.

(** ** Multi-level queue: vec_deque.rs L40-197 *)

Fixpoint find_pos (l : list nat) (x : nat) : option nat :=
  match l with [] => None | y :: l' => if y =? x then Some 0 else option_map S (find_pos l' x) end.

(** L133-136 [leading_element_count]. *)
Definition leading (q : list (list nat)) (level : nat) : nat := list_sum (map (@length nat) (firstn level q)).

(** L139-159 [position]; an invalid level panics in Rust and is never used. *)
Definition mq_position (q : list (list nat)) (level x : nat) : option nat :=
  match find_pos (nth level q []) x with Some p => Some (p + leading q level) | None => None end.

(** L162-164 [push_back]. *)
Fixpoint mq_push (q : list (list nat)) (level x : nat) : list (list nat) :=
  match q, level with
  | [], _ => []
  | l :: q', O => (l ++ [x]) :: q'
  | l :: q', S level' => l :: mq_push q' level' x
  end.

(** L168-171 [pop_front]. *)
Fixpoint mq_pop (q : list (list nat)) : option nat * list (list nat) :=
  match q with
  | [] => (None, [])
  | (x :: l) :: q' => (Some x, l :: q')
  | [] :: q' => let '(r, q'') := mq_pop q' in (r, [] :: q'')
  end.

(** L175-190 [push_back_if_missing]. *)
Definition mq_push_if_missing (q : list (list nat)) (level x : nat) : list (list nat) * bool * nat :=
  match mq_position q level x with
  | Some p => (q, false, p)
  | None => let q' := mq_push q level x in (q', true, leading q' level + length (nth level q' []) - 1)
  end.

(** L73-82 [get] by global index. *)
Fixpoint mq_get (q : list (list nat)) (i : nat) : option nat :=
  match q with
  | [] => None
  | l :: q' => match nth_error l i with Some x => Some x | None => mq_get q' (i - length l) end
  end.

(** ** Participants, registry, nonces *)

(** signature.rs L45-56: [u64] nonces, the largest one being invalid; saturating (numbers
    above [nonce_max] do not exist in the code). *)
Definition nonce_max : N := (2 ^ 64 - 1)%N.
Definition nonce_valid (n : N) : bool := negb (N.eqb n nonce_max).
Definition nonce_incr (n : N) : N := if N.eqb n nonce_max then nonce_max else (n + 1)%N.

(** config/ppot.rs L84-100, L140-190 (groth16/ceremony): priority level 0 (high) or 1 (normal). *)
Record part := Part { p_prio : nat; p_key : nat; p_nonce : N; p_done : bool }.
Definition registry := nat -> option part.
Definition reg_set (r : registry) (id : nat) (p : part) : registry := fun x => if x =? id then Some p else r x.
Definition reg_mod (r : registry) (id : nat) (f : part -> part) : registry :=
  match r id with Some p => reg_set r id (f p) | None => r end.

(** ppot.rs L240-242 [reduce_priority]; L216-228 [set_contributed], [increment_nonce]. *)
Definition reduce_priority (p : part) : part := Part 1 (p_key p) (p_nonce p) (p_done p).
Definition set_done (p : part) : part := Part (p_prio p) (p_key p) (p_nonce p) true.
Definition bump (p : part) : part := Part (p_prio p) (p_key p) (nonce_incr (p_nonce p)) (p_done p).

(** registry/mod.rs L87-95 [insert]: never overwrites. *)
Definition reg_insert (r : registry) (id : nat) (p : part) : registry :=
  match r id with Some _ => r | None => reg_set r id p end.
(** csv.rs L74-102 [load_append_entries], for the records that parse. *)
Definition reg_load (r : registry) (recs : list (nat * part)) : registry :=
  fold_left (fun r e => reg_insert r (fst e) (snd e)) recs r.

(** The same on finite maps, to count, with records that do not parse ([None]) skipped:
    csv.rs L74-102. *)
Definition freg := list (nat * part).
Fixpoint freg_get (r : freg) (id : nat) : option part :=
  match r with [] => None | (k, p) :: r' => if k =? id then Some p else freg_get r' id end.
Definition freg_insert (r : freg) (id : nat) (p : part) : freg :=
  match freg_get r id with Some _ => r | None => r ++ [(id, p)] end.
Definition freg_load (r : freg) (recs : list (option (nat * part))) : freg * nat :=
  let r' := fold_left (fun r e => match e with Some (id, p) => freg_insert r id p | None => r end) recs r in
  (r', length r' - length r).

(** ** Errors and messages *)
Inductive cerr := NotRegistered | AlreadyContributed | AllNoncesUsed | InvalidSignature (expected : N)
  | Timeout | NotYourTurn | BadRequest | TaskError.

Section Ceremony.
Context {St Ch Pf Sig : Type}.
Variable check_state : St -> bool.
Variable challenge : Ch -> St -> St -> Pf -> Ch.
Variable vt : Ch -> St -> St -> Pf -> bool.

(** The messages that are signed: query (empty) and contribution. *)
Inductive msg := MQuery | MUpdate (states : list St) (proofs : list Pf).
Variable vsig : nat -> N -> msg -> Sig -> bool.

(** signature.rs L203-215 [SignedMessage]. *)
Record request := Req { rq_id : nat; rq_msg : msg; rq_sig : Sig }.

(** coordinator.rs L375-401 [preprocess_request]. *)
Definition preprocess (r : registry) (q : request) : registry * (cerr + nat) :=
  match r (rq_id q) with
  | None => (r, inl NotRegistered)
  | Some p =>
      if p_done p then (r, inl AlreadyContributed)
      else if negb (nonce_valid (p_nonce p)) then (r, inl AllNoncesUsed)
      else if negb (vsig (p_key p) (p_nonce p) (rq_msg q) (rq_sig q))
           then (r, inl (InvalidSignature (p_nonce p)))
           else (reg_set r (rq_id q) (bump p), inr (p_prio p))
  end.

(** ** Lock and queue: coordinator.rs L63-161 *)
Record lockq := LQ { lq_queue : list (list nat); lq_lock : option nat; lq_time : nat }.

(** L92-96 [has_expired], with time/lock.rs L76-80. *)
Definition has_expired (limit now : nat) (lq : lockq) : bool :=
  (limit <=? now - lq_time lq) || match lq_lock lq with None => true | Some _ => false end.

(** L148-160 [update_expired_lock]. *)
Definition update_expired_lock (now : nat) (r : registry) (lq : lockq) : registry * lockq * option nat :=
  let r' := match lq_lock lq with Some id => reg_mod r id reduce_priority | None => r end in
  let '(next, q') := mq_pop (lq_queue lq) in
  (r', LQ q' next now, lq_lock lq).

(** L100-114 [update_lock], L117-142 [has_lock]. *)
Definition has_lock (limit now : nat) (r : registry) (lq : lockq) (id : nat)
  : registry * lockq * option cerr :=
  let '(r', lq', popped) :=
    if has_expired limit now lq then update_expired_lock now r lq else (r, lq, None) in
  let result :=
    match lq_lock lq' with
    | Some p => if p =? id then None else Some NotYourTurn
    | None => Some NotYourTurn
    end in
  match popped with
  | Some p => if p =? id then (r', lq', Some Timeout) else (r', lq', result)
  | None => (r', lq', result)
  end.

(** ** State, challenge, latest proof: coordinator.rs L180-300 *)
Record sclp := Sclp { c_states : list St; c_chals : list Ch; c_proof : option (list Pf); c_round : nat }.

(** L286-293: the loop over circuits; the state is modified in place, so what was
    accepted before a failure stays. The flag tells whether all were accepted. *)
Fixpoint upd_loop (chs : list Ch) (sts : list St) (nexts : list St) (pfs : list Pf)
  : list Ch * list St * bool :=
  match chs, sts, nexts, pfs with
  | c :: chs', s :: sts', n :: nexts', p :: pfs' =>
      if check_state n && vt c s n p then
        let '(cs, ss, ok) := upd_loop chs' sts' nexts' pfs' in
        (challenge c s n p :: cs, n :: ss, ok)
      else (chs, sts, false)
  | _, _, _, _ => (chs, sts, true)
  end.

(** L277-299 [update], without the files. A wrong number of circuits panics in
    [BoxArray::from_vec] (server.rs L418-419) and is reported as [TaskError]. *)
Definition sclp_update (s : sclp) (nexts : list St) (pfs : list Pf) : sclp * option cerr :=
  if negb ((length nexts =? length (c_states s)) && (length pfs =? length (c_states s)))
  then (s, Some TaskError)
  else
    let '(cs, ss, ok) := upd_loop (c_chals s) (c_states s) nexts pfs in
    if ok then (Sclp ss cs (Some pfs) (S (c_round s)), None)
    else (Sclp ss cs (c_proof s) (c_round s), Some BadRequest).

(** ** The server: server.rs L60-84 *)

(** An update in flight: after the first critical section of [update] (L391-405), and
    after the state has been updated (L416-424). *)
Inductive task := TVerify (id : nat) (states : list St) (proofs : list Pf) | TFinish (id : nat) (round : nat).
Definition task_id (t : task) : nat := match t with TVerify id _ _ => id | TFinish id _ => id end.

Record server := Server {
  sv_reg : registry; sv_lq : lockq; sv_sclp : sclp; sv_tasks : list task; sv_now : nat }.

Inductive qresp := RState (s : list St) (c : list Ch) | RPosition (n : nat).

Inductive action :=
| ATick (d : nat)                         (* time passes *)
| AQuery (q : request)                    (* server.rs L256-290 *)
| ABegin (q : request)                    (* server.rs L391-405 *)
| AApply (k : nat)                        (* server.rs L416-424, k-th task in flight *)
| AFinish (k : nat)                       (* server.rs L428-442 *)
| ALoad (recs : list (nat * part)).       (* server.rs L330-371, each time around the loop *)

(** What happened, for stating properties. [ERefused]: rejected by [preprocess]; the
    other errors come after the nonce has been used up. *)
Inductive event :=
| ENone
| ERefused (id : nat) (e : cerr)
| EQuery (id : nat) (nonce : N) (q : request) (r : qresp)
| EBegun (id : nat) (nonce : N) (q : request)
| ENotBegun (id : nat) (nonce : N) (q : request) (e : cerr)
| EApplied (id : nat) (round : nat)
| ERejected (id : nat) (e : cerr)
| EFinished (id : nat).

Variable limit : nat.     (* metadata.contribution_time_limit *)

Fixpoint remove_nth {A} (k : nat) (l : list A) : list A :=
  match k, l with O, _ :: l' => l' | S k', a :: l' => a :: remove_nth k' l' | _, [] => [] end.
Fixpoint set_nth {A} (k : nat) (x : A) (l : list A) : list A :=
  match k, l with O, _ :: l' => x :: l' | S k', a :: l' => a :: set_nth k' x l' | _, [] => [] end.

Definition old_nonce (r : registry) (id : nat) : N := match r id with Some p => p_nonce p | None => 0%N end.

Definition step (s : server) (a : action) : server * event :=
  match a with
  | ATick d => (Server (sv_reg s) (sv_lq s) (sv_sclp s) (sv_tasks s) (sv_now s + d), ENone)
  | AQuery q =>
      let id := rq_id q in
      match rq_msg q with
      | MUpdate _ _ => (s, ENone)
      | MQuery =>
      let '(r1, pre) := preprocess (sv_reg s) q in
      match pre with
      | inl e => (s, ERefused id e)
      | inr prio =>
          let '(r2, lq, res) := has_lock limit (sv_now s) r1 (sv_lq s) id in
          match res with
          | None =>
              (Server r2 lq (sv_sclp s) (sv_tasks s) (sv_now s),
               EQuery id (old_nonce (sv_reg s) id) q (RState (c_states (sv_sclp s)) (c_chals (sv_sclp s))))
          | Some _ =>
              let '(q', _, pos) := mq_push_if_missing (lq_queue lq) prio id in
              (Server r2 (LQ q' (lq_lock lq) (lq_time lq)) (sv_sclp s) (sv_tasks s) (sv_now s),
               EQuery id (old_nonce (sv_reg s) id) q (RPosition pos))
          end
      end
      end
  | ABegin q =>
      let id := rq_id q in
      match rq_msg q with
      | MQuery => (s, ENone)
      | MUpdate states proofs =>
          let '(r1, pre) := preprocess (sv_reg s) q in
          match pre with
          | inl e => (s, ERefused id e)
          | inr _ =>
              let '(r2, lq, res) := has_lock limit (sv_now s) r1 (sv_lq s) id in
              match res with
              | None =>
                  (Server r2 lq (sv_sclp s) (sv_tasks s ++ [TVerify id states proofs]) (sv_now s),
                   EBegun id (old_nonce (sv_reg s) id) q)
              | Some e => (Server r2 lq (sv_sclp s) (sv_tasks s) (sv_now s), ENotBegun id (old_nonce (sv_reg s) id) q e)
              end
          end
      end
  | AApply k =>
      match nth_error (sv_tasks s) k with
      | Some (TVerify id states proofs) =>
          let '(c', err) := sclp_update (sv_sclp s) states proofs in
          match err with
          | Some e => (Server (sv_reg s) (sv_lq s) c' (remove_nth k (sv_tasks s)) (sv_now s), ERejected id e)
          | None =>
              (Server (sv_reg s) (sv_lq s) c' (set_nth k (TFinish id (c_round c')) (sv_tasks s)) (sv_now s),
               EApplied id (c_round c'))
          end
      | _ => (s, ENone)
      end
  | AFinish k =>
      match nth_error (sv_tasks s) k with
      | Some (TFinish id _) =>
          match sv_reg s id with
          | Some _ =>
              let r1 := reg_mod (sv_reg s) id set_done in
              let '(r2, lq, _) := update_expired_lock (sv_now s) r1 (sv_lq s) in
              (Server r2 lq (sv_sclp s) (remove_nth k (sv_tasks s)) (sv_now s), EFinished id)
          | None => (Server (sv_reg s) (sv_lq s) (sv_sclp s) (remove_nth k (sv_tasks s)) (sv_now s), ENone)
          end
      | _ => (s, ENone)
      end
  | ALoad recs => (Server (reg_load (sv_reg s) recs) (sv_lq s) (sv_sclp s) (sv_tasks s) (sv_now s), ENone)
  end.

Fixpoint exec (s : server) (l : list action) : server * list event :=
  match l with
  | [] => (s, [])
  | a :: l' => let '(s1, e) := step s a in let '(s2, es) := exec s1 l' in (s2, e :: es)
  end.

(** server.rs L93-116 [new]: empty queue with two levels
    (bin/groth16_phase2_server.rs L35), no holder. *)
Definition server_new (r : registry) (states : list St) (chals : list Ch) (now : nat) : server :=
  Server r (LQ [[]; []] None now) (Sclp states chals None 0) [] now.

(** ** Files: coordinator.rs L303-370 [save], L539-560 [save_registry]; server.rs
    L118-225 [recover].  A write that is interrupted leaves a file that cannot be read
    ([FTorn]). *)
Inductive fname := FNState (i r : nat) | FNChal (i r : nat) | FNProof (i r : nat) | FNRound | FNNames | FNReg (r : nat).
Inductive fcontent := FState (s : St) | FChal (c : Ch) | FProof (p : Pf) | FRound (n : nat) | FNames (n : nat) | FReg (r : registry) | FTorn.
Definition fname_eqb (a b : fname) : bool :=
  match a, b with
  | FNState i r, FNState j s | FNChal i r, FNChal j s | FNProof i r, FNProof j s => (i =? j) && (r =? s)
  | FNRound, FNRound | FNNames, FNNames => true
  | FNReg r, FNReg s => r =? s
  | _, _ => false
  end.
Definition disk := fname -> option fcontent.
Definition dwrite (d : disk) (w : fname * fcontent) : disk :=
  fun f => if fname_eqb f (fst w) then Some (snd w) else d f.

Fixpoint state_writes (i r : nat) (sts : list St) (chs : list Ch) : list (fname * fcontent) :=
  match sts, chs with
  | s :: sts', c :: chs' => (FNState i r, FState s) :: (FNChal i r, FChal c) :: state_writes (S i) r sts' chs'
  | _, _ => []
  end.
Fixpoint proof_writes (i r : nat) (pfs : list Pf) : list (fname * fcontent) :=
  match pfs with [] => [] | p :: pfs' => (FNProof i r, FProof p) :: proof_writes (S i) r pfs' end.

(** The writes of [save], in order. *)
Definition save_writes (s : sclp) : list (fname * fcontent) :=
  state_writes 0 (c_round s) (c_states s) (c_chals s)
  ++ match c_round s, c_proof s with S _, Some pfs => proof_writes 0 (c_round s) pfs | _, _ => [] end
  ++ [(FNRound, FRound (c_round s))].
(** All writes of a contribution: [save] (server.rs L416-424), then the registry
    (L439). *)
Definition contribution_writes (s : sclp) (r : registry) : list (fname * fcontent) :=
  save_writes s ++ [(FNReg (c_round s), FReg r)].
(** coordinator.rs L446-535 [prepare]: the initial files. *)
Definition prepare_disk (states : list St) (chals : list Ch) : disk :=
  fold_left dwrite
    (state_writes 0 0 states chals
     ++ [(FNNames, FNames (length states)); (FNRound, FRound 0); (FNReg 0, FReg (fun _ => None))])
    (fun _ => None).

(** The files after a crash when [k] writes were done, the next one possibly torn. *)
Definition crash (d : disk) (ws : list (fname * fcontent)) (k : nat) (torn : bool) : disk :=
  let d' := fold_left dwrite (firstn k ws) d in
  match torn, nth_error ws k with
  | true, Some (f, _) => dwrite d' (f, FTorn)
  | _, _ => d'
  end.

Fixpoint read_all {A} (f : nat -> option A) (i n : nat) : option (list A) :=
  match n with
  | O => Some []
  | S n' => match f i with
            | Some x => match read_all f (S i) n' with Some l => Some (x :: l) | None => None end
            | None => None
            end
  end.

(** server.rs L118-225: [None] is an error. *)
Definition recover (d : disk) : option (sclp * registry) :=
  match d FNRound, d FNNames with
  | Some (FRound r), Some (FNames n) =>
      match read_all (fun i => match d (FNState i r) with Some (FState s) => Some s | _ => None end) 0 n,
            read_all (fun i => match d (FNChal i r) with Some (FChal c) => Some c | _ => None end) 0 n with
      | Some sts, Some chs =>
          let pf := match r with
                    | O => Some None
                    | S _ => option_map Some
                        (read_all (fun i => match d (FNProof i r) with Some (FProof p) => Some p | _ => None end) 0 n)
                    end in
          match pf, d (FNReg r) with
          | Some p, Some (FReg reg) => Some (Sclp sts chs p r, reg)
          | _, _ => None
          end
      | _, _ => None
      end
  | _, _ => None
  end.

(** The server together with its files: [save] is part of applying a contribution, the
    registry is saved when it is finished. *)
Definition dstep (sd : server * disk) (a : action) : server * disk * event :=
  let '(s', e) := step (fst sd) a in
  let d' := match a, e with
            | AApply _, EApplied _ _ => fold_left dwrite (save_writes (sv_sclp s')) (snd sd)
            | AFinish k, EFinished _ =>
                match nth_error (sv_tasks (fst sd)) k with
                | Some (TFinish _ rd) => dwrite (snd sd) (FNReg rd, FReg (sv_reg s'))
                | _ => snd sd
                end
            | _, _ => snd sd
            end in
  (s', d', e).
Fixpoint dexec (sd : server * disk) (l : list action) : server * disk * list event :=
  match l with
  | [] => (sd, [])
  | a :: l' => let '(sd1, e) := dstep sd a in let '(sd2, es) := dexec sd1 l' in (sd2, e :: es)
  end.
(** server.rs L205-225: a restarted server. *)
Definition restart (sr : sclp * registry) (now : nat) : server :=
  Server (snd sr) (LQ [[]; []] None now) (fst sr) [] now.

(** ** Transcripts: mpc.rs L141-158 [verify_transform_all], L182-191 [Transcript::verify],
    for one circuit; [None] is an error. *)
Fixpoint verify_all (c : Ch) (s : St) (rounds : list (St * Pf)) : option (Ch * St) :=
  match rounds with
  | [] => Some (c, s)
  | (n, p) :: rounds' => if vt c s n p then verify_all (challenge c s n p) n rounds' else None
  end.

(** Handling contribution requests one after the other; the saved files of each accepted
    round are recorded as (states, proofs). *)
Fixpoint contributions (s : sclp) (reqs : list (list St * list Pf)) : sclp * list (list St * list Pf) :=
  match reqs with
  | [] => (s, [])
  | (n, p) :: reqs' =>
      let '(s1, err) := sclp_update s n p in
      let '(s2, saved) := contributions s1 reqs' in
      (s2, match err with None => (c_states s1, p) :: saved | Some _ => saved end)
  end.
(** The [i]-th circuit of the saved rounds. *)
Definition circuit_rounds (i : nat) (saved : list (list St * list Pf)) : list (St * Pf) :=
  flat_map (fun e => match nth_error (fst e) i, nth_error (snd e) i with
                     | Some s, Some p => [(s, p)]
                     | _, _ => []
                     end) saved.

(** ** Client: client.rs L110-135, L176-200, L285-319; signature.rs L341-385 *)
Variable sign : nat -> N -> msg -> Sig.    (* key, nonce, message *)

(** client.rs L120-135 [sign]: signs with the nonce, then increments it. *)
Definition client_sign (key id : nat) (nonce : N) (m : msg) : request * N :=
  (Req id m (sign key nonce m), nonce_incr nonce).
(** client.rs L110-116 [update_nonce], signature.rs L348-356; [None]: AllNoncesUsed. *)
Definition client_update_nonce (expected : N) : option N :=
  if nonce_valid expected then Some expected else None.

(** client.rs L302-319: one turn of the loop of [contribute] as far as nonces go: send a
    message; on [InvalidSignature] adopt the expected nonce. Returns the client's nonce,
    the server's registry and the server's answer. [None] in place of the nonce: the
    client gives up. *)
Definition client_turn (key id : nat) (nonce : N) (r : registry) (m : msg)
  : option N * registry * (cerr + nat) :=
  let '(q, n') := client_sign key id nonce m in
  let '(r', res) := preprocess r q in
  match res with
  | inl (InvalidSignature e) => (client_update_nonce e, r', res)
  | inl _ => (None, r', res)
  | inr _ => (Some n', r', res)
  end.
(** Send each message until it is accepted, at most [tries] sends per message; returns
    the number of sends per message, or [None] when the client gave up. *)
Fixpoint client_send (tries : nat) (key id : nat) (nonce : N) (r : registry) (m : msg)
  : option (N * registry * nat) :=
  match tries with
  | O => None
  | S tries' =>
      match client_turn key id nonce r m with
      | (Some n', r', inr _) => Some (n', r', 1)
      | (Some n', r', inl _) =>
          match client_send tries' key id n' r' m with Some (n2, r2, k) => Some (n2, r2, S k) | None => None end
      | (None, _, _) => None
      end
  end.
Fixpoint client_session (tries : nat) (key id : nat) (nonce : N) (r : registry) (ms : list msg)
  : option (N * registry * list nat) :=
  match ms with
  | [] => Some (nonce, r, [])
  | m :: ms' =>
      match client_send tries key id nonce r m with
      | Some (n', r', k) =>
          match client_session tries key id n' r' ms' with
          | Some (n2, r2, ks) => Some (n2, r2, k :: ks)
          | None => None
          end
      | None => None
      end
  end.
End Ceremony.

Arguments msg St Pf : clear implicits.
Arguments request St Pf Sig : clear implicits.
Arguments action St Pf Sig : clear implicits.
Arguments event St Ch Pf Sig : clear implicits.
Arguments server St Ch Pf : clear implicits.
Arguments sclp St Ch Pf : clear implicits.
Arguments task St Pf : clear implicits.
Arguments qresp St Ch : clear implicits.
Arguments disk St Ch Pf : clear implicits.
Arguments fcontent St Ch Pf : clear implicits.
