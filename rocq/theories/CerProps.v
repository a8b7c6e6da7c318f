(** C38-C46: the trusted-setup ceremony. *)
From Coq Require Import List NArith Arith Bool Lia Permutation Sorted.
From Verif Require Import CerModel CerSpec CerQueue CerInv CerDisk.
Import ListNotations.

(** ** A toy ceremony for examples and witnesses: a state is a number, a proof is the
    increment, signatures are the nonce combined with the key. *)
Definition t_check (n : nat) : bool := n <? 100.
Definition t_chal (c s n p : nat) : nat := c + p + 1.
Definition t_vt (c s n p : nat) : bool := n =? s + p.
Definition t_sign (k : nat) (n : N) (m : msg nat nat) : N := (n * 16 + N.of_nat k)%N.
Definition t_vsig (k : nat) (n : N) (m : msg nat nat) (sg : N) : bool := N.eqb sg (t_sign k n m).
Definition t_exec := exec (Sig := N) t_check t_chal t_vt t_vsig 10.
Definition t_step := step (Sig := N) t_check t_chal t_vt t_vsig 10.
Definition t_reg (prio : nat) : registry := fun id =>
  if (id =? 1) || (id =? 2) then Some (Part prio id 0%N false) else None.
Definition t_query (id : nat) (n : N) : action nat nat N := AQuery (Req id MQuery (t_sign id n MQuery)).
Definition t_update (id : nat) (n : N) (sts pfs : list nat) : action nat nat N :=
  ABegin (Req id (MUpdate sts pfs) (t_sign id n (MUpdate sts pfs))).
Definition t_new (prio : nat) : server nat nat nat := server_new (t_reg prio) [0; 0] [0; 0] 0.

Lemma t_binding : forall k n n' m sg, t_vsig k n m sg = true -> t_vsig k n' m sg = true -> n = n'.
Proof. intros k n n' m sg A B. unfold t_vsig, t_sign in *. apply N.eqb_eq in A, B. lia. Qed.

(** ** C38: a rejected contribution leaves the ceremony unchanged *)

(** Full statement: [sclp_update s n p = (s', Some e) -> s' = s].  It is false: the circuits
    before the invalid one have been replaced, and the next participant is served the
    mixture. *)
Theorem c38_rejected_refuted : exists l s es st ch s',
  t_exec (t_new 1) l = (s, es)
  /\ In (ERejected 1 BadRequest) es /\ applied 1 es = 0 /\ applied 2 es = 0
  /\ t_step s (t_query 2 1) = (s', EQuery 2 1%N (Req 2 MQuery (t_sign 2 1 MQuery)) (RState st ch))
  /\ (st, ch) = ([5; 0], [6; 0]).
Proof.
  exists [t_query 1 0; t_query 1 1; t_update 1 2 [5; 7] [5; 8]; AApply 0; ATick 10; t_query 2 0].
  destruct (t_exec (t_new 1) [t_query 1 0; t_query 1 1; t_update 1 2 [5; 7] [5; 8]; AApply 0; ATick 10; t_query 2 0])
    as [s es] eqn:E. exists s, es.
  assert (Ee : es = snd (t_exec (t_new 1) [t_query 1 0; t_query 1 1; t_update 1 2 [5; 7] [5; 8]; AApply 0; ATick 10; t_query 2 0]))
    by (now rewrite E).
  assert (Es : s = fst (t_exec (t_new 1) [t_query 1 0; t_query 1 1; t_update 1 2 [5; 7] [5; 8]; AApply 0; ATick 10; t_query 2 0]))
    by (now rewrite E).
  exists [5; 0], [6; 0], (fst (t_step s (t_query 2 1))).
  split; [reflexivity|]. clear E. subst s es.
  split; [vm_compute; tauto|]. split; [reflexivity|]. split; [reflexivity|]. split; reflexivity.
Qed.
Print Assumptions c38_rejected_refuted.

(** What holds: a contribution with the wrong number of circuits changes nothing; otherwise
    exactly the circuits before the first unacceptable one are replaced, the rest, the
    round and the latest proof stay. So nothing changes when circuit 0 is at fault, in
    particular with a single circuit. *)
Theorem c38_rejected_partial : forall (St Ch Pf : Type) (check_state : St -> bool) challenge vt
    (s s' : sclp St Ch Pf) nexts pfs e,
  length (c_chals s) = length (c_states s) ->
  sclp_update check_state challenge vt s nexts pfs = (s', Some e) ->
  c_round s' = c_round s /\ c_proof s' = c_proof s
  /\ length (c_states s') = length (c_states s) /\ length (c_chals s') = length (c_states s)
  /\ (s' = s
      \/ exists k c t n p,
           0 < k < length (c_states s)
           /\ nth_error (c_chals s) k = Some c /\ nth_error (c_states s) k = Some t
           /\ nth_error nexts k = Some n /\ nth_error pfs k = Some p
           /\ (check_state n = false \/ vt c t n p = false)
           /\ c_states s' = firstn k nexts ++ skipn k (c_states s)
           /\ skipn k (c_chals s') = skipn k (c_chals s)).
Proof.
  intros St Ch Pf check_state challenge vt s s' nexts pfs e L H.
  destruct (sclp_update_spec check_state challenge vt s nexts pfs s' (Some e) L H)
    as [(_ & -> & _)|(L1 & L2 & A & B & C & F & [(X & _)|(_ & K & P & R)])]; [auto 6|discriminate|].
  set (k := good_prefix (good check_state vt) (c_chals s) (c_states s) nexts pfs) in *.
  assert (LS : length (c_states s') = length (c_states s)).
  { rewrite A, app_length, firstn_length, skipn_length. lia. }
  split; [exact R|]. split; [exact P|]. split; [exact LS|]. split; [congruence|].
  destruct (Nat.eq_dec k 0) as [Z|Z].
  - left. rewrite Z in A, B. cbn in A, B. destruct s, s'. cbn in *. congruence.
  - right. destruct (good_prefix_stop check_state vt (c_chals s) (c_states s) nexts pfs L L1 L2 K)
      as (c & t & n & p & N1 & N2 & N3 & N4 & G).
    exists k, c, t, n, p. split; [lia|]. unfold good in G. apply andb_false_iff in G. auto 10.
Qed.
Print Assumptions c38_rejected_partial.
Corollary c38_single_circuit : forall (St Ch Pf : Type) (check_state : St -> bool) challenge vt
    (s s' : sclp St Ch Pf) nexts pfs e,
  length (c_chals s) = 1 -> length (c_states s) = 1 ->
  sclp_update check_state challenge vt s nexts pfs = (s', Some e) -> s' = s.
Proof.
  intros St Ch Pf check_state challenge vt s s' nexts pfs e L1 L2 H.
  destruct (c38_rejected_partial _ _ _ _ _ _ s s' nexts pfs e ltac:(congruence) H)
    as (_ & _ & _ & _ & [E|(k & _ & _ & _ & _ & K & _)]); [exact E|lia].
Qed.
Print Assumptions c38_single_circuit.
Example c38_example : let s := Sclp [0; 0] [0; 0] None 0 in
  sclp_update t_check t_chal t_vt s [5; 7] [5; 8] = (Sclp [5; 0] [6; 0] None 0, Some BadRequest)
  /\ sclp_update t_check t_chal t_vt s [5; 7] [4; 7] = (s, Some BadRequest)
  /\ sclp_update t_check t_chal t_vt s [5] [5] = (s, Some TaskError)
  /\ sclp_update t_check t_chal t_vt s [5; 7] [5; 7] = (Sclp [5; 7] [6; 8] (Some [5; 7]) 1, None).
Proof. repeat split; reflexivity. Qed.

(** ** C39: each participant contributes at most once *)

(** Full statement: [applied id es <= 1] for every execution from a new server.  It is
    false: two contributions of the same participant, signed with successive nonces, can
    both be in flight. *)
Theorem c39_once_refuted : exists l s es,
  t_exec (t_new 1) l = (s, es) /\ applied 1 es = 2 /\ c_round (sv_sclp s) = 2.
Proof.
  exists [t_query 1 0; t_query 1 1; t_update 1 2 [1; 1] [1; 1]; t_update 1 3 [2; 2] [1; 1]; AApply 0; AApply 1; AFinish 0; AFinish 0].
  eexists. eexists. split; [vm_compute; reflexivity|]. split; reflexivity.
Qed.
Print Assumptions c39_once_refuted.

(** What holds: the property when no participant sends a contribution while an earlier one
    of theirs is still being handled. *)
Theorem c39_once_partial : forall (St Ch Pf Sig : Type) (check_state : St -> bool) challenge vt
    (vsig : nat -> N -> msg St Pf -> Sig -> bool) limit reg sts chs now l s (es : list (event St Ch Pf Sig)),
  exec check_state challenge vt vsig limit (server_new reg sts chs now) l = (s, es) ->
  guarded check_state challenge vt vsig limit one_at_a_time (server_new reg sts chs now) l = true ->
  forall id, applied id es <= 1.
Proof.
  intros St Ch Pf Sig check_state challenge vt vsig limit reg sts chs now l s es H G id.
  pose proof (once_exec check_state challenge vt vsig limit l _ _ _ id 0 H G) as O.
  destruct O as [(E & _)|[(E & _)|(E & _)]]; try lia. left. split; [reflexivity|]. now left.
Qed.
Print Assumptions c39_once_partial.
Example c39_example : exists s es,
  let l := [t_query 1 0; t_query 2 0; t_query 1 1; t_update 1 2 [1; 1] [2; 1]; AApply 0; t_update 1 3 [1; 1] [1; 1]; AApply 0;
            t_query 2 1; AFinish 0; t_update 1 4 [2; 2] [1; 1]; AApply 0;
            t_update 2 2 [3; 3] [2; 2]; AApply 0; AFinish 0] in
  t_exec (t_new 1) l = (s, es)
  /\ guarded t_check t_chal t_vt t_vsig 10 one_at_a_time (t_new 1) l = true
  /\ applied 1 es = 1 /\ In (ERefused 1 AlreadyContributed) es /\ applied 2 es = 1.
Proof. eexists. eexists. split; [vm_compute; reflexivity|]. repeat split; try reflexivity. vm_compute. tauto. Qed.

(** ** C40: a signed request is accepted at most once *)
Theorem c40_nonces_increase : forall (St Ch Pf Sig : Type) (check_state : St -> bool) challenge vt
    (vsig : nat -> N -> msg St Pf -> Sig -> bool) limit l s s' (es : list (event St Ch Pf Sig)) id,
  exec check_state challenge vt vsig limit s l = (s', es) ->
  StronglySorted N.lt (map fst (accepted id es))
  /\ Forall (fun x => rq_id (snd x) = id /\ exists p, sv_reg s' id = Some p
       /\ vsig (p_key p) (fst x) (rq_msg (snd x)) (rq_sig (snd x)) = true) (accepted id es).
Proof.
  intros St Ch Pf Sig check_state challenge vt vsig limit l s s' es id H. split.
  - eapply exec_nonces; eauto.
  - eapply exec_signed; eauto.
Qed.
Print Assumptions c40_nonces_increase.

(** With a signature scheme that binds the nonce, no request is let through twice. *)
Theorem c40_no_replay : forall (St Ch Pf Sig : Type) (check_state : St -> bool) challenge vt
    (vsig : nat -> N -> msg St Pf -> Sig -> bool) limit l s s' (es : list (event St Ch Pf Sig)) id,
  (forall k n n' m sg, vsig k n m sg = true -> vsig k n' m sg = true -> n = n') ->
  exec check_state challenge vt vsig limit s l = (s', es) ->
  NoDup (map snd (accepted id es)).
Proof.
  intros St Ch Pf Sig check_state challenge vt vsig limit l s s' es id Bind H.
  destruct (c40_nonces_increase _ _ _ _ _ _ _ _ _ _ _ _ _ id H) as [A B].
  induction (accepted id es) as [|[n q] acc IH]; cbn [map] in *; [constructor|].
  inversion A as [|? ? A1 A2]; subst. inversion B as [|? ? (_ & p & R & V) B2]; subst. cbn [fst snd] in *.
  constructor; [|apply IH; assumption].
  intros I. apply in_map_iff in I. destruct I as ([n' q'] & E & I). cbn [snd] in E. subst q'.
  pose proof (proj1 (Forall_forall _ _) B2 _ I) as (_ & p' & R' & V'). cbn [fst snd] in V'.
  rewrite R in R'. injection R' as <-. pose proof (Bind _ _ _ _ _ V V') as ->.
  pose proof (proj1 (Forall_forall _ _) A2 n' (in_map fst _ _ I)). lia.
Qed.
Print Assumptions c40_no_replay.

(** A request of a registered participant that is not signed for the expected nonce is
    answered with that nonce and changes nothing. *)
Theorem c40_wrong_nonce : forall (St Ch Pf Sig : Type) (check_state : St -> bool) challenge vt
    (vsig : nat -> N -> msg St Pf -> Sig -> bool) limit (s : server St Ch Pf) (q : request St Pf Sig) p,
  sv_reg s (rq_id q) = Some p -> p_done p = false -> p_nonce p <> nonce_max ->
  vsig (p_key p) (p_nonce p) (rq_msg q) (rq_sig q) = false ->
  step check_state challenge vt vsig limit s (match rq_msg q with MQuery => AQuery q | MUpdate _ _ => ABegin q end)
  = (s, ERefused (rq_id q) (InvalidSignature (p_nonce p))).
Proof.
  intros St Ch Pf Sig check_state challenge vt vsig limit s q p R D V G.
  assert (P : preprocess vsig (sv_reg s) q = (sv_reg s, inl (InvalidSignature (p_nonce p)))).
  { unfold preprocess. rewrite R, D. unfold nonce_valid. rewrite (proj2 (N.eqb_neq _ _) V). cbn [negb].
    now rewrite G. }
  destruct (rq_msg q) eqn:M; cbn [step]; rewrite M, P; reflexivity.
Qed.
Print Assumptions c40_wrong_nonce.
Example c40_example : exists s es,
  t_exec (t_new 1) [t_query 1 0; t_query 1 0; t_query 2 0; t_query 1 1; t_query 1 1; t_query 1 7; t_update 1 2 [1; 1] [1; 1]] = (s, es)
  /\ map fst (accepted 1 es) = [0; 1; 2]%N
  /\ In (ERefused 1 (InvalidSignature 1)) es.
Proof. eexists. eexists. split; [vm_compute; reflexivity|]. split; [reflexivity|]. vm_compute. tauto. Qed.

(** Beyond one run the property fails: nonces used since the last completed contribution
    are forgotten when the server is restarted from its files, so that a recorded request
    is accepted again. *)
Theorem c40_after_restart_refuted : exists l s d es sr es' q n,
  dexec (Sig := N) t_check t_chal t_vt t_vsig 10
    (server_new (t_reg 1) [0; 0] [0; 0] 0, prepare_disk [0; 0] [0; 0]) l = (s, d, es)
  /\ recover d = Some sr
  /\ es' = snd (t_exec (restart sr 0) [AQuery q])
  /\ In (n, q) (accepted 2 es) /\ In (n, q) (accepted 2 es').
Proof.
  set (l := [t_query 1 0; t_query 1 1; t_update 1 2 [1; 1] [1; 1]; AApply 0; AFinish 0; t_query 2 0]).
  set (r := dexec (Sig := N) t_check t_chal t_vt t_vsig 10
    (server_new (t_reg 1) [0; 0] [0; 0] 0, prepare_disk [0; 0] [0; 0]) l).
  exists l, (fst (fst r)), (snd (fst r)), (snd r).
  set (d := snd (fst r)).
  set (sr := match recover d with Some x => x | None => (Sclp [] [] None 0, t_reg 1) end).
  exists sr, (snd (t_exec (restart sr 0) [t_query 2 0])), (Req 2 MQuery (t_sign 2 0 MQuery)), 0%N.
  split; [unfold d; now rewrite <- !surjective_pairing|].
  split; [|split; [reflexivity|split; vm_compute; tauto]].
  assert (N : match recover d with Some _ => True | None => False end) by (vm_compute; exact I).
  unfold sr. destruct (recover d); [reflexivity|contradiction].
Qed.
Print Assumptions c40_after_restart_refuted.

(** ** C41: contributions are applied only while the contributor holds the lock *)

(** Full statement: in every execution, when a contribution of [id] is applied or finished
    the lock is held by [id].  It is false: the time limit can run out between the check
    and the end of the verification; the contribution is then applied although someone
    else holds the lock, and finishing it takes the lock and the priority away from that
    other participant. *)
Theorem c41_lock_held_refuted : exists l s es s1 s2 rd,
  t_exec (t_new 1) l = (s, es)
  /\ lq_lock (sv_lq s) = Some 2
  /\ t_step s (AApply 0) = (s1, EApplied 1 rd) /\ lq_lock (sv_lq s1) = Some 2
  /\ t_step s1 (AFinish 0) = (s2, EFinished 1) /\ lq_lock (sv_lq s2) = None.
Proof.
  set (l := [t_query 1 0; t_query 1 1; t_update 1 2 [1; 1] [1; 1]; ATick 10; t_query 2 0; t_query 2 1]).
  set (r := t_exec (t_new 1) l).
  exists l, (fst r), (snd r), (fst (t_step (fst r) (AApply 0))), (fst (t_step (fst (t_step (fst r) (AApply 0))) (AFinish 0))), 1.
  split; [apply surjective_pairing|]. split; [reflexivity|]. split; [reflexivity|]. split; [reflexivity|]. split; reflexivity.
Qed.
Print Assumptions c41_lock_held_refuted.

(** What holds: the property for executions in which no request arrives past the time limit
    while a contribution is being handled, and nobody sends two contributions at a time. *)
Theorem c41_lock_held_partial : forall (St Ch Pf Sig : Type) (check_state : St -> bool) challenge vt
    (vsig : nat -> N -> msg St Pf -> Sig -> bool) limit reg sts chs now l s (es : list (event St Ch Pf Sig)),
  exec check_state challenge vt vsig limit (server_new reg sts chs now) l = (s, es) ->
  guarded check_state challenge vt vsig limit (fun s a => one_at_a_time s a && in_time limit s a)
    (server_new reg sts chs now) l = true ->
  forall a s' id, (exists rd, step check_state challenge vt vsig limit s a = (s', EApplied id rd))
    \/ step check_state challenge vt vsig limit s a = (s', EFinished id) ->
  lq_lock (sv_lq s) = Some id /\ length (sv_tasks s) = 1.
Proof.
  intros St Ch Pf Sig check_state challenge vt vsig limit reg sts chs now l s es H G a s' id Ev.
  assert (Hd : held s) by (eapply held_exec; [exact H|exact G|now left]).
  assert (T : exists k t, nth_error (sv_tasks s) k = Some t /\ task_id t = id).
  { destruct Ev as [[rd Ev]|Ev]; apply step_effect in Ev; inversion Ev; subst; eauto. }
  destruct T as (k & t & T & <-). destruct Hd as [Hd|(t' & Hd & L)].
  - rewrite Hd in T. now destruct k.
  - rewrite Hd in *. destruct k as [|k]; cbn in T; [|now destruct k]. injection T as ->. auto.
Qed.
Print Assumptions c41_lock_held_partial.
Example c41_example : exists s es s',
  let l := [t_query 1 0; t_query 2 0; t_query 1 1; t_update 1 2 [1; 1] [1; 1]; ATick 9; t_query 2 1] in
  t_exec (t_new 1) l = (s, es)
  /\ guarded t_check t_chal t_vt t_vsig 10 (fun s a => one_at_a_time s a && in_time 10 s a) (t_new 1) l = true
  /\ t_step s (AApply 0) = (s', EApplied 1 1).
Proof. eexists. eexists. eexists. split; [vm_compute; reflexivity|]. split; vm_compute; reflexivity. Qed.

(** ** C42: a crash at any point is recoverable *)

(** Full statement: [recover (crash d (contribution_writes s' reg') k torn)] is [Some (s, reg)] or
    [Some (s', reg')] for every [k] and [torn].  It is false: after [round_number] has been
    written and before the registry of that round is, recovery fails; it also fails when
    the write of [round_number] itself is torn. *)
Theorem c42_crash_refuted : exists (s' : sclp nat nat nat) reg' k torn,
  next_round (Sclp [0; 0] [0; 0] None 0) s'
  /\ k < length (contribution_writes s' reg')
  /\ recover (crash (prepare_disk [0; 0] [0; 0]) (contribution_writes s' reg') k torn) = None.
Proof.
  exists (Sclp [1; 1] [2; 2] (Some [1; 1]) 1), (t_reg 1), 7, false.
  split; [repeat split; cbn; eauto|]. split; [cbn; lia|]. vm_compute. reflexivity.
Qed.
Print Assumptions c42_crash_refuted.

(** What holds, after any number of completed contributions over any number of circuits:
    up to and including the moment when all the files of the round but [round_number] are
    written, the server restarts in the previous round; once the registry is written it
    restarts in the new round; between these moments (one file, plus possibly a torn one)
    it does not restart; in no case is the state a mixture. *)
Theorem c42_crash_partial : forall (St Ch Pf : Type) (sts : list St) (chs : list Ch) hist
    (s s' : sclp St Ch Pf) reg reg' k torn,
  length chs = length sts ->
  chain (Sclp sts chs None 0) hist ->
  last_round (Sclp sts chs None 0) (fun _ => None) hist = (s, reg) ->
  next_round s s' ->
  let d := after_history (prepare_disk sts chs) hist in
  let files := 3 * length sts in
  length (contribution_writes s' reg') = files + 2
  /\ (k < files \/ k = files /\ torn = false ->
      recover (crash d (contribution_writes s' reg') k torn) = Some (s, reg))
  /\ (k >= files + 2 -> recover (crash d (contribution_writes s' reg') k torn) = Some (s', reg'))
  /\ (k = files /\ torn = true \/ k = files + 1 ->
      recover (crash d (contribution_writes s' reg') k torn) = None).
Proof.
  intros St Ch Pf sts chs hist s s' reg reg' k torn L C E N d files.
  destruct (prepare_recover (Pf := Pf) sts chs L) as [P0 P1].
  destruct (history_recover hist _ _ _ P0 P1 C) as [R G]. fold d in R, G. rewrite E in R, G. cbn [fst] in G.
  assert (Ls : length (c_states s) = length sts).
  { assert (X : forall (h : list (sclp St Ch Pf * registry)) s0 r0, chain s0 h ->
        length (c_states (fst (last_round s0 r0 h))) = length (c_states s0)).
    { induction h as [|[s1 r1] h IH]; intros s0 r0 Ch0; [reflexivity|]. cbn [chain] in Ch0. destruct Ch0 as [(_ & L1 & _) Ch0].
      specialize (IH s1 r1 Ch0). unfold last_round in *.
      assert (Y : last ((s1, r1) :: h) (s0, r0) = last h (s1, r1)).
      { destruct h as [|e h]; [reflexivity|]. cbn [last]. clear. revert e.
        induction h as [|f h IHh]; intros e; [reflexivity|apply (IHh f)]. }
      rewrite Y. congruence. }
    specialize (X hist _ (fun _ => None) C). rewrite E in X. exact X. }
  pose proof N as (NR & L1 & L2 & pfs & Pp & L3).
  assert (B : length (before_round s') = files).
  { unfold before_round. rewrite NR, Pp, app_length.
    assert (A1 : forall r i (a : list St) (b : list Ch), length b = length a -> length (@state_writes St Ch Pf i r a b) = 2 * length a).
    { intros r i a. revert i. induction a as [|x a IH]; intros i [|y b] Lb; try discriminate; [reflexivity|].
      cbn [state_writes length]. rewrite IH by (cbn in Lb; lia). lia. }
    assert (A2 : forall r i (a : list Pf), length (@proof_writes St Ch Pf i r a) = length a).
    { intros r i a. revert i. induction a as [|x a IH]; intros i; [reflexivity|]. cbn. now rewrite IH. }
    rewrite A1, A2 by congruence. unfold files. lia. }
  assert (LW : length (contribution_writes s' reg') = files + 2).
  { rewrite contribution_writes_eq, app_length, B. cbn. lia. }
  split; [exact LW|]. split; [|split].
  - intros K. apply (crash_before _ _ _ _ _ _ _ R NR). rewrite B. exact K.
  - intros K. unfold crash. rewrite firstn_all2 by lia.
    assert (X : nth_error (contribution_writes s' reg') k = None) by (apply nth_error_None; lia).
    rewrite X. assert (Y : recover (fold_left dwrite (contribution_writes s' reg') d) = Some (s', reg'))
      by (eapply crash_after; eauto). now destruct torn.
  - intros K. apply (crash_window _ s reg); auto.
    + apply G. lia.
    + rewrite B. destruct K as [K|K]; [now left|right; lia].
Qed.
Print Assumptions c42_crash_partial.
Example c42_example : let s0 := Sclp [0; 0] [0; 0] None 0 in
  let s1 := Sclp [1; 1] [2; 2] (Some [1; 1]) 1 in let s2 := Sclp [3; 5] [5; 7] (Some [2; 4]) 2 in
  chain s0 [(s1, t_reg 1)] /\ last_round s0 (fun _ => None) [(s1, t_reg 1)] = (s1, t_reg 1) /\ next_round s1 s2
  /\ option_map fst (recover (crash (after_history (prepare_disk [0; 0] [0; 0]) [(s1, t_reg 1)])
       (contribution_writes s2 (t_reg 0)) 5 true)) = Some s1.
Proof. cbn [chain last_round last]. repeat split; cbn; eauto. Qed.

(** ** C43: a waiting participant has one place in the queue *)

(** Full statement: [NoDup (concat (lq_queue (sv_lq s)))] in every reachable state.  It is
    false: a high-priority participant that timed out is put back at its old level, and at
    the lower level by its next query. *)
Theorem c43_one_place_refuted : exists l s es, t_exec (t_new 0) l = (s, es) /\ lq_queue (sv_lq s) = [[1]; [1]].
Proof.
  set (l := [t_query 1 0; t_query 1 1; t_query 2 0; ATick 10; t_query 1 2; t_query 1 3]).
  exists l, (fst (t_exec (t_new 0) l)), (snd (t_exec (t_new 0) l)). split; [apply surjective_pairing|]. reflexivity.
Qed.
Print Assumptions c43_one_place_refuted.

(** What holds: with normal priorities only, nobody is twice in the queue, and the holder
    of the lock is not in it. *)
Theorem c43_one_place_partial : forall (St Ch Pf Sig : Type) (check_state : St -> bool) challenge vt
    (vsig : nat -> N -> msg St Pf -> Sig -> bool) limit reg sts chs now l s (es : list (event St Ch Pf Sig)),
  (forall id p, reg id = Some p -> p_prio p = 1) -> loads_normal l ->
  exec check_state challenge vt vsig limit (server_new reg sts chs now) l = (s, es) ->
  NoDup (concat (lq_queue (sv_lq s)))
  /\ forall h, lq_lock (sv_lq s) = Some h -> ~ In h (concat (lq_queue (sv_lq s))).
Proof.
  intros St Ch Pf Sig check_state challenge vt vsig limit reg sts chs now l s es P F H.
  destruct (normal_exec check_state challenge vt vsig limit l _ _ _ H F) as (_ & q & Q & D & Hh).
  - split; [exact P|]. exists []. split; [reflexivity|]. split; [constructor|]. intros h X. discriminate.
  - rewrite Q. cbn [concat app]. rewrite app_nil_r. auto.
Qed.
Print Assumptions c43_one_place_partial.

(** For all priorities: nobody is twice in the same level; each level is served in order of
    arrival (what is left of it is the end of what was there followed by newcomers); *)
Theorem c43_levels : forall (St Ch Pf Sig : Type) (check_state : St -> bool) challenge vt
    (vsig : nat -> N -> msg St Pf -> Sig -> bool) limit reg sts chs now l1 s1 (es1 : list (event St Ch Pf Sig)) l2 s2 es2 level,
  prios_ok reg -> Forall loads_ok (l1 ++ l2) ->
  exec check_state challenge vt vsig limit (server_new reg sts chs now) l1 = (s1, es1) ->
  exec check_state challenge vt vsig limit s1 l2 = (s2, es2) ->
  NoDup (nth level (lq_queue (sv_lq s2)) [])
  /\ exists k new, nth level (lq_queue (sv_lq s2)) [] = skipn k (nth level (lq_queue (sv_lq s1)) [] ++ new).
Proof.
  intros St Ch Pf Sig check_state challenge vt vsig limit reg sts chs now l1 s1 es1 l2 s2 es2 level P F H1 H2.
  apply Forall_app in F. destruct F as [F1 F2].
  assert (I : prios_ok (sv_reg s1) /\ length (lq_queue (sv_lq s1)) = 2).
  { assert (X : forall l s s' (es : list (event St Ch Pf Sig)), exec check_state challenge vt vsig limit s l = (s', es) ->
      Forall loads_ok l -> prios_ok (sv_reg s) -> length (lq_queue (sv_lq s)) = 2 ->
      prios_ok (sv_reg s') /\ length (lq_queue (sv_lq s')) = 2).
    { induction l as [|a l IH]; intros s s' es H F Ps Ls; cbn [exec] in H.
      - injection H as <- _. auto.
      - destruct (step check_state challenge vt vsig limit s a) as [sa e] eqn:S.
        destruct (exec check_state challenge vt vsig limit sa l) as [sb eb] eqn:E. injection H as <- _.
        inversion F; subst. apply step_effect in S. eapply IH; eauto.
        + eapply step_prios; eauto.
        + destruct (effect_queue _ _ _ _ _ _ S Ps Ls) as (_ & _ & _ & Q). exact Q. }
    apply (X _ _ _ _ H1 F1 P). reflexivity. }
  destruct I as [P1 L1].
  destruct (exec_level _ _ _ _ _ l1 _ _ _ H1 P eq_refl F1 level) as (j & n & _ & D1).
  destruct (exec_level _ _ _ _ _ l2 _ _ _ H2 P1 L1 F2 level) as (k & new & E & D2).
  split; [|eauto]. apply D2, D1. cbn [server_new sv_lq lq_queue]. destruct level as [|[|level]]; cbn; [constructor|constructor|].
  destruct level; constructor.
Qed.
Print Assumptions c43_levels.

(** the lock only ever passes to the participant at the head of the highest non-empty
    level, and nobody leaves the queue in another way. *)
Theorem c43_head_first : forall (St Ch Pf Sig : Type) (check_state : St -> bool) challenge vt
    (vsig : nat -> N -> msg St Pf -> Sig -> bool) limit (s s' : server St Ch Pf) a e,
  prios_ok (sv_reg s) -> length (lq_queue (sv_lq s)) = 2 ->
  step check_state challenge vt vsig limit s a = (s', e) ->
  (forall h, lq_lock (sv_lq s') = Some h -> lq_lock (sv_lq s) <> Some h ->
     exists level rest, nth level (lq_queue (sv_lq s)) [] = h :: rest
       /\ forall k, k < level -> nth k (lq_queue (sv_lq s)) [] = [])
  /\ (forall x, In x (concat (lq_queue (sv_lq s))) -> In x (concat (lq_queue (sv_lq s'))) \/ lq_lock (sv_lq s') = Some x).
Proof.
  intros St Ch Pf Sig check_state challenge vt vsig limit s s' a e P L H. apply step_effect in H.
  destruct (effect_queue _ _ _ _ _ _ H P L) as (q1 & M & J & L').
  assert (Jn : forall x, In x (concat q1) -> In x (concat (lq_queue (sv_lq s')))).
  { intros x X. destruct J as [|level id N]; [exact X|].
    destruct (le_lt_dec (length q1) level) as [O|O].
    - assert (Y : mq_push q1 level id = q1).
      { clear -O. revert level O. induction q1 as [|l0 q IH]; intros [|level] O; cbn in *; auto; try lia.
        f_equal. apply IH. lia. }
      now rewrite Y.
    - eapply Permutation_in; [symmetry; apply mq_push_perm, O|]. now right. }
  inversion M as [E1 E2|next q2 Q E1 E2]; subst.
  - split; [intros h A B; congruence|auto].
  - split.
    + intros h A B. rewrite A in Q. destruct (mq_pop_levels _ _ _ Q) as (lv & C & D & _). eauto.
    + intros x X. destruct (lq_lock (sv_lq s')) as [h|] eqn:A.
      * rewrite (mq_pop_some _ _ _ Q) in X. destruct X as [->|X]; auto.
      * destruct (mq_pop_none _ _ Q) as [_ Z]. rewrite Z in X. contradiction.
Qed.
Print Assumptions c43_head_first.

(** The reported position is the place in the queue, counting from the head. *)
Theorem c43_position : forall (St Ch Pf Sig : Type) (check_state : St -> bool) challenge vt
    (vsig : nat -> N -> msg St Pf -> Sig -> bool) limit (s s' : server St Ch Pf) a id n (q : request St Pf Sig) pos,
  prios_ok (sv_reg s) -> length (lq_queue (sv_lq s)) = 2 ->
  step check_state challenge vt vsig limit s a = (s', EQuery id n q (RPosition pos)) ->
  nth_error (concat (lq_queue (sv_lq s'))) pos = Some id.
Proof.
  intros St Ch Pf Sig check_state challenge vt vsig limit s s' a id n q pos P L H. apply step_effect in H.
  inversion H as [| | | | |q0 r1 r2 lq prio er q' fresh pos' Hp Hl Hm| | | | | |]; subst. cbn [sv_lq lq_queue].
  destruct (preprocess_prios _ _ _ _ _ Hp P) as [_ Q].
  pose proof (has_lock_qmove _ _ _ _ _ _ _ _ Hl) as M.
  assert (Lq : length (lq_queue lq) = 2) by (inversion M; [congruence|]; erewrite mq_pop_length by eassumption; exact L).
  eapply mq_push_if_missing_spec; [|exact Hm]. lia.
Qed.
Print Assumptions c43_position.
Example c43_example : exists s es,
  t_exec (t_new 1) [t_query 1 0; t_query 2 0; t_query 2 1; t_query 1 1; ATick 10; t_query 1 2] = (s, es)
  /\ (forall id p, t_reg 1 id = Some p -> p_prio p = 1) /\ prios_ok (t_reg 0)
  /\ lq_queue (sv_lq s) = [[]; [1]] /\ lq_lock (sv_lq s) = Some 2.
Proof.
  eexists. eexists. split; [vm_compute; reflexivity|].
  assert (T : forall pr id p, t_reg pr id = Some p -> p_prio p = pr).
  { intros pr id p H. unfold t_reg in H. destruct ((id =? 1) || (id =? 2)); [|discriminate]. now injection H as <-. }
  split; [apply T|]. split; [intros id p H; rewrite (T _ _ _ H); auto|]. split; reflexivity.
Qed.

(** ** C44: the recorded contributions form a verifiable transcript *)

(** Full statement: for every circuit the saved rounds verify from the initial challenge and
    state to the current ones.  It is false: after a contribution rejected at circuit 1,
    circuit 0 continues from a state that no file and no proof accounts for. *)
Theorem c44_transcript_refuted : exists reqs s saved,
  contributions t_check t_chal t_vt (Sclp [0; 0] [0; 0] None 0) reqs = (s, saved)
  /\ length saved = 1
  /\ verify_all t_chal t_vt 0 0 (circuit_rounds 0 saved) = None.
Proof. exists [([5; 7], [5; 8]); ([7; 1], [2; 1])]. eexists. eexists. split; [reflexivity|]. split; reflexivity. Qed.
Print Assumptions c44_transcript_refuted.

(** What holds: circuit [i] has a verifying transcript if every rejected contribution was
    rejected because of circuit [i] or an earlier one; *)
Theorem c44_transcript_partial : forall (St Ch Pf : Type) (check_state : St -> bool) challenge vt
    sts chs reqs (s : sclp St Ch Pf) saved i c t,
  length chs = length sts ->
  contributions check_state challenge vt (Sclp sts chs None 0) reqs = (s, saved) ->
  rejected_by check_state challenge vt i (Sclp sts chs None 0) reqs ->
  nth_error chs i = Some c -> nth_error sts i = Some t ->
  exists c' t', nth_error (c_chals s) i = Some c' /\ nth_error (c_states s) i = Some t'
    /\ verify_all challenge vt c t (circuit_rounds i saved) = Some (c', t').
Proof.
  intros St Ch Pf check_state challenge vt sts chs reqs s saved i c t L H R C T.
  exact (transcript_lemma check_state challenge vt i reqs (Sclp sts chs None 0) s saved c t L H R C T).
Qed.
Print Assumptions c44_transcript_partial.
(** this is always so for the last circuit. *)
Theorem c44_last_circuit : forall (St Ch Pf : Type) (check_state : St -> bool) challenge vt
    sts chs reqs (s : sclp St Ch Pf) saved i c t,
  length chs = length sts -> S i = length sts ->
  contributions check_state challenge vt (Sclp sts chs None 0) reqs = (s, saved) ->
  nth_error chs i = Some c -> nth_error sts i = Some t ->
  exists c' t', nth_error (c_chals s) i = Some c' /\ nth_error (c_states s) i = Some t'
    /\ verify_all challenge vt c t (circuit_rounds i saved) = Some (c', t').
Proof.
  intros St Ch Pf check_state challenge vt sts chs reqs s saved i c t L I H C T.
  eapply c44_transcript_partial; eauto. apply rejected_by_last; auto.
Qed.
Print Assumptions c44_last_circuit.
Example c44_example : exists s saved,
  contributions t_check t_chal t_vt (Sclp [0; 0] [0; 0] None 0)
    [([5; 7], [5; 7]); ([6; 8], [2; 1]); ([6], [1]); ([6; 9], [1; 2])] = (s, saved)
  /\ rejected_by t_check t_chal t_vt 0 (Sclp [0; 0] [0; 0] None 0)
    [([5; 7], [5; 7]); ([6; 8], [2; 1]); ([6], [1]); ([6; 9], [1; 2])]
  /\ circuit_rounds 0 saved = [(5, 5); (6, 1)] /\ verify_all t_chal t_vt 0 0 (circuit_rounds 0 saved) = Some (8, 6).
Proof.
  eexists. eexists. split; [vm_compute; reflexivity|]. split; [|split; reflexivity].
  vm_compute. repeat split; intros X; try discriminate; auto.
Qed.

(** ** C45: registry loading only adds participants *)
Theorem c45_load : forall r recs r' n, freg_load r recs = (r', n) ->
  (forall id, freg_get r' id = match freg_get r id with Some p => Some p | None => first_record recs id end)
  /\ length r' = length r + n
  /\ n = length (new_ids r recs)
  /\ (NoDup (map fst r) -> NoDup (map fst r')).
Proof.
  intros r recs r' n H. split; [intros id; eapply freg_load_get, H|].
  unfold freg_load in H. destruct (freg_load_keys recs r) as (ext & A & B & C).
  injection H as <- <-. set (r' := fold_left _ recs r) in *.
  assert (L : length r' = length r + length ext).
  { rewrite <- (map_length fst r'), A, app_length, map_length. reflexivity. }
  split; [lia|]. split.
  - replace (length r' - length r) with (length ext) by lia.
    apply Permutation_length, NoDup_Permutation; [exact B|apply NoDup_nodup|].
    intros k. rewrite C, new_ids_spec. reflexivity.
  - intros D. rewrite A. clear - B C D. induction (map fst r) as [|k ks IH] in C, D |- *; [exact B|].
    inversion D; subst. cbn [app]. constructor.
    + rewrite in_app_iff. intros [X|X]; [auto|]. apply C in X. apply (proj1 X). now left.
    + enough (forall ks0 : list nat, NoDup ks0 -> (forall k, In k ext -> ~ In k ks0) -> NoDup (ks0 ++ ext)) as G.
      { apply G; [assumption|]. intros k0 X Y. apply C in X. apply (proj1 X). now right. }
      clear - B. induction ks0 as [|z ks0 IH]; intros D N; [exact B|]. inversion D; subst. cbn [app]. constructor.
      * rewrite in_app_iff. intros [X|X]; [auto|]. apply (N z X). now left.
      * apply IH; [assumption|]. intros k X Y. apply (N k X). now right.
Qed.
Print Assumptions c45_load.
(** In the running server: loading changes nothing but the registry, and no entry of it. *)
Theorem c45_live : forall (St Ch Pf Sig : Type) (check_state : St -> bool) challenge vt
    (vsig : nat -> N -> msg St Pf -> Sig -> bool) limit (s : server St Ch Pf) recs s' e,
  step check_state challenge vt vsig limit s (ALoad recs) = (s', e) ->
  (forall id p, sv_reg s id = Some p -> sv_reg s' id = Some p)
  /\ sv_lq s' = sv_lq s /\ sv_sclp s' = sv_sclp s /\ sv_tasks s' = sv_tasks s.
Proof.
  intros St Ch Pf Sig check_state challenge vt vsig limit s recs s' e H. cbn [step] in H. injection H as <- _.
  split; [|auto]. intros id p R. cbn [sv_reg]. pose proof (reg_load_spec recs (sv_reg s) id) as Q. now rewrite R in Q.
Qed.
Print Assumptions c45_live.
Example c45_example :
  let a := Part 0 7 3%N true in let b := Part 1 8 0%N false in let c := Part 1 9 0%N false in
  freg_load [(4, a)] [Some (4, b); None; Some (5, b); Some (5, c); Some (6, c)]
  = ([(4, a); (5, b); (6, c)], 2).
Proof. reflexivity. Qed.

(** ** C46: a client that follows the server's nonce replies converges *)

(** With a correct signature scheme (a signature verifies exactly for the nonce it was made
    for), any number of messages is let through with one extra request at most, for the
    first message, whatever nonce the client starts with — as long as the server's nonce
    is not exhausted. *)
Theorem c46_converges : forall (St Pf Sig : Type) (vsig : nat -> N -> msg St Pf -> Sig -> bool) sign,
  (forall k n n' m, vsig k n' m (sign k n m) = N.eqb n n') ->
  forall ms r id p nonce,
  r id = Some p -> p_done p = false -> (p_nonce p + N.of_nat (length ms) <= nonce_max)%N ->
  exists nonce' r' sends,
    client_session vsig sign 2 (p_key p) id nonce r ms = Some (nonce', r', sends)
    /\ length sends = length ms
    /\ (ms <> [] -> r' id = Some (Part (p_prio p) (p_key p) (p_nonce p + N.of_nat (length ms)) false) /\ nonce' = (p_nonce p + N.of_nat (length ms))%N)
    /\ (forall x, x <> id -> r' x = r x)
    /\ sends = match ms with
               | [] => []
               | _ :: ms' => (if N.eqb nonce (p_nonce p) then 1 else 2) :: map (fun _ => 1) ms'
               end.
Proof.
  intros St Pf Sig vsig sign Corr.
  assert (Acc : forall r id p nonce m, r id = Some p -> p_done p = false -> nonce_valid (p_nonce p) = true ->
    client_turn vsig sign (p_key p) id nonce r m
    = if N.eqb nonce (p_nonce p) then (Some (nonce + 1)%N, reg_set r id (bump p), inr (p_prio p))
      else (Some (p_nonce p), r, inl (InvalidSignature (p_nonce p)))).
  { intros r id p nonce m R D V. unfold client_turn, client_sign, preprocess. cbn [rq_id rq_msg rq_sig].
    rewrite R, D, V, Corr. cbn [negb]. destruct (N.eqb_spec nonce (p_nonce p)) as [->|E]; cbn [negb].
    - now rewrite (nonce_incr_lt _ V).
    - unfold client_update_nonce. now rewrite V. }
  assert (Send : forall r id p nonce m, r id = Some p -> p_done p = false -> nonce_valid (p_nonce p) = true ->
    client_send vsig sign 2 (p_key p) id nonce r m
    = Some ((p_nonce p + 1)%N, reg_set r id (bump p), if N.eqb nonce (p_nonce p) then 1 else 2)).
  { intros r id p nonce m R D V. cbn [client_send]. rewrite (Acc r id p nonce m R D V).
    destruct (N.eqb_spec nonce (p_nonce p)) as [->|E]; [reflexivity|].
    rewrite (Acc r id p (p_nonce p) m R D V), N.eqb_refl. reflexivity. }
  induction ms as [|m ms IH]; intros r id p nonce R D B.
  - exists nonce, r, []. cbn. repeat split; congruence.
  - cbn [length] in B. assert (V : nonce_valid (p_nonce p) = true).
    { unfold nonce_valid. apply negb_true_iff, N.eqb_neq. lia. }
    cbn [client_session]. rewrite (Send r id p nonce m R D V).
    assert (Eb : bump p = Part (p_prio p) (p_key p) (p_nonce p + 1) false).
    { unfold bump. now rewrite D, (nonce_incr_lt _ V). }
    destruct (IH (reg_set r id (bump p)) id (bump p) (p_nonce p + 1)%N) as (n' & r' & sends & S1 & S2 & S3 & S4 & S5).
    + apply reg_set_same.
    + now rewrite Eb.
    + rewrite Eb. cbn [p_nonce]. lia.
    + assert (Ek : p_key (bump p) = p_key p) by reflexivity. rewrite Ek in S1. rewrite S1.
      exists n', r', ((if N.eqb nonce (p_nonce p) then 1 else 2) :: sends).
      split; [reflexivity|]. split; [cbn; congruence|]. split; [|split].
      * intros _. destruct ms as [|m2 ms].
        -- cbn [client_session] in S1. injection S1 as <- <- _. rewrite reg_set_same, Eb. split; [do 2 f_equal; lia|cbn; lia].
        -- destruct S3 as [S3 S3']; [discriminate|]. rewrite S3, S3', Eb. cbn [p_prio p_key p_nonce length].
           split; [do 2 f_equal; lia|lia].
      * intros x X. rewrite (S4 x X). now apply reg_set_other.
      * rewrite S5. destruct ms as [|m2 ms]; [reflexivity|]. rewrite Eb. cbn [p_nonce]. rewrite N.eqb_refl. reflexivity.
Qed.
Print Assumptions c46_converges.
(** When the server's nonce is exhausted every request is refused for that reason, and the
    client gives up. *)
Theorem c46_exhausted : forall (St Pf Sig : Type) (vsig : nat -> N -> msg St Pf -> Sig -> bool) sign
    tries r id p nonce m,
  r id = Some p -> p_done p = false -> p_nonce p = nonce_max ->
  client_turn vsig sign (p_key p) id nonce r m = (None, r, inl AllNoncesUsed)
  /\ client_send vsig sign tries (p_key p) id nonce r m = None.
Proof.
  intros St Pf Sig vsig sign tries r id p nonce m R D N.
  assert (T : client_turn vsig sign (p_key p) id nonce r m = (None, r, inl AllNoncesUsed)).
  { unfold client_turn, client_sign, preprocess. cbn [rq_id rq_msg rq_sig]. rewrite R, D, N. reflexivity. }
  split; [exact T|]. destruct tries as [|tries]; [reflexivity|]. cbn [client_send]. now rewrite T.
Qed.
Print Assumptions c46_exhausted.
Example c46_example :
  (forall k n n' m, t_vsig k n' m (t_sign k n m) = N.eqb n n')
  /\ t_reg 1 1 = Some (Part 1 1 0 false)
  /\ option_map snd (client_session t_vsig t_sign 2 1 1 nonce_max (t_reg 1) [MQuery; MQuery; MUpdate [1] [1]]) = Some [2; 1; 1].
Proof.
  split; [|split; vm_compute; reflexivity]. intros k n n' m. unfold t_vsig, t_sign.
  destruct (N.eqb_spec n n') as [->|E]; [apply N.eqb_refl|]. apply N.eqb_neq. lia.
Qed.
