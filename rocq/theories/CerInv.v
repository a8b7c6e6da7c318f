(** Invariants of executions of the ceremony server. *)
From Coq Require Import List NArith Arith Bool Lia Permutation Sorted.
From Verif Require Import CerModel CerSpec CerQueue.
Import ListNotations.

Lemma skipn_plus : forall (A : Type) i j (l : list A), skipn i (skipn j l) = skipn (i + j) l.
Proof.
  intros A i j. revert i. induction j as [|j IH]; intros i l; [now rewrite Nat.add_0_r|].
  rewrite Nat.add_succ_r. destruct l as [|x l]; [now rewrite !skipn_nil|]. apply IH.
Qed.

(** ** How a registry may change *)
Definition older (p p' : part) : Prop :=
  p_key p' = p_key p /\ (p_nonce p <= p_nonce p')%N /\ (p_done p = true -> p_done p' = true).
Definition reg_older (r r' : registry) : Prop :=
  forall id p, r id = Some p -> exists p', r' id = Some p' /\ older p p'.

Lemma older_refl : forall p, older p p.
Proof. intros p. repeat split; auto. lia. Qed.
Lemma reg_older_refl : forall r, reg_older r r.
Proof. intros r id p H. exists p. split; [exact H|apply older_refl]. Qed.
Lemma reg_older_trans : forall a b c, reg_older a b -> reg_older b c -> reg_older a c.
Proof.
  intros a b c AB BC id p H. destruct (AB id p H) as (p1 & H1 & K1 & N1 & D1).
  destruct (BC id p1 H1) as (p2 & H2 & K2 & N2 & D2). exists p2. split; [exact H2|].
  repeat split; [congruence|lia|auto].
Qed.
Lemma reg_mod_older : forall r id f, (forall p, older p (f p)) -> reg_older r (reg_mod r id f).
Proof.
  intros r id f F x p H. rewrite reg_mod_spec. destruct (x =? id).
  - rewrite H. cbn. exists (f p). auto.
  - exists p. split; [exact H|apply older_refl].
Qed.
Lemma reduce_older : forall p, older p (reduce_priority p).
Proof. intros p. repeat split; cbn; auto. lia. Qed.
Lemma done_older : forall p, older p (set_done p).
Proof. intros p. repeat split; cbn; auto. lia. Qed.
Lemma nonce_incr_le : forall n, (n <= nonce_incr n)%N.
Proof. intros n. unfold nonce_incr. destruct (N.eqb_spec n nonce_max); lia. Qed.
Lemma nonce_incr_lt : forall n, nonce_valid n = true -> nonce_incr n = (n + 1)%N.
Proof. intros n. unfold nonce_valid, nonce_incr. destruct (N.eqb n nonce_max); [discriminate|auto]. Qed.
Lemma bump_older : forall p, older p (bump p).
Proof. intros p. repeat split; cbn; auto. apply nonce_incr_le. Qed.
Lemma reg_load_older : forall r recs, reg_older r (reg_load r recs).
Proof.
  intros r recs id p H. pose proof (reg_load_spec recs r id) as L. rewrite H in L.
  exists p. split; [exact L|apply older_refl].
Qed.

Lemma update_expired_lock_older : forall now r lq r' lq' x,
  update_expired_lock now r lq = (r', lq', x) -> reg_older r r'.
Proof.
  intros now r lq r' lq' x H. unfold update_expired_lock in H.
  destruct (mq_pop (lq_queue lq)) as [next q']. injection H as <- _ _.
  destruct (lq_lock lq); [apply reg_mod_older, reduce_older|apply reg_older_refl].
Qed.
Lemma has_lock_older : forall limit now r lq id r' lq' x,
  has_lock limit now r lq id = (r', lq', x) -> reg_older r r'.
Proof.
  intros limit now r lq id r' lq' x H. unfold has_lock in H.
  destruct (has_expired limit now lq).
  - destruct (update_expired_lock now r lq) as [[r1 lq1] popped] eqn:U.
    apply update_expired_lock_older in U.
    destruct popped as [p|]; [destruct (p =? id)|]; injection H as <- _ _; exact U.
  - injection H as <- _ _. apply reg_older_refl.
Qed.

(** What [has_lock] does to lock and queue. *)
Lemma has_lock_cases : forall limit now r lq id r' lq' x,
  has_lock limit now r lq id = (r', lq', x) ->
  (has_expired limit now lq = false /\ r' = r /\ lq' = lq
   \/ has_expired limit now lq = true /\ exists next q', mq_pop (lq_queue lq) = (next, q') /\ lq' = LQ q' next now
      /\ r' = match lq_lock lq with Some h => reg_mod r h reduce_priority | None => r end)
  /\ (x = None -> lq_lock lq' = Some id)
  /\ (x <> None -> lq_lock lq' <> Some id \/ has_expired limit now lq = true /\ lq_lock lq = Some id).
Proof.
  intros limit now r lq id r' lq' x H. unfold has_lock in H.
  destruct (has_expired limit now lq) eqn:X.
  - unfold update_expired_lock in H. destruct (mq_pop (lq_queue lq)) as [next q'] eqn:P.
    assert (R : r' = match lq_lock lq with Some h => reg_mod r h reduce_priority | None => r end
                /\ lq' = LQ q' next now).
    { destruct (lq_lock lq) as [p|]; [destruct (p =? id)|]; now injection H as <- <- _. }
    destruct R as [-> ->]. split; [right; eauto 6|]. cbn [lq_lock] in *.
    destruct (lq_lock lq) as [p|] eqn:L.
    + destruct (Nat.eqb_spec p id) as [->|E].
      * injection H as <-. split; [discriminate|]. auto.
      * injection H as <-. destruct next as [h|]; [destruct (Nat.eqb_spec h id) as [->|E2]|];
          split; intros; try discriminate; try congruence; left; congruence.
    + injection H as <-. destruct next as [h|]; [destruct (Nat.eqb_spec h id) as [->|E2]|];
        split; intros; try discriminate; try congruence; left; congruence.
  - assert (E : r' = r /\ lq' = lq /\ x = match lq_lock lq with
                                          | Some p => if p =? id then None else Some NotYourTurn
                                          | None => Some NotYourTurn end)
      by (now injection H as <- <- <-).
    destruct E as (-> & -> & ->). split; [auto|].
    destruct (lq_lock lq) as [p|] eqn:L; [destruct (Nat.eqb_spec p id) as [->|E2]|];
      split; intros; try discriminate; try congruence; left; congruence.
Qed.

Section Inv.
Context {St Ch Pf Sig : Type}.
Variable check_state : St -> bool.
Variable challenge : Ch -> St -> St -> Pf -> Ch.
Variable vt : Ch -> St -> St -> Pf -> bool.
Variable vsig : nat -> N -> msg St Pf -> Sig -> bool.
Variable limit : nat.
Notation server := (server St Ch Pf).
Notation event := (event St Ch Pf Sig).
Notation request := (request St Pf Sig).
Notation preprocess := (@preprocess St Pf Sig vsig).
Notation step := (step check_state challenge vt vsig limit).
Notation exec := (exec check_state challenge vt vsig limit).

Lemma preprocess_ok : forall r q r1 prio, preprocess r q = (r1, inr prio) ->
  exists p, r (rq_id q) = Some p /\ p_done p = false /\ nonce_valid (p_nonce p) = true
    /\ vsig (p_key p) (p_nonce p) (rq_msg q) (rq_sig q) = true
    /\ r1 = reg_set r (rq_id q) (bump p) /\ prio = p_prio p.
Proof.
  intros r q r1 prio H. unfold CerModel.preprocess in H. destruct (r (rq_id q)) as [p|] eqn:R; [|discriminate].
  destruct (p_done p) eqn:D; [discriminate|].
  destruct (nonce_valid (p_nonce p)) eqn:V; [|discriminate]. cbn [negb] in H.
  destruct (vsig (p_key p) (p_nonce p) (rq_msg q) (rq_sig q)) eqn:S; [|discriminate]. cbn [negb] in H.
  injection H as <- <-. exists p. auto 7.
Qed.
Lemma preprocess_older : forall r q r1 x, preprocess r q = (r1, x) -> reg_older r r1.
Proof.
  intros r q r1 [e|prio] H.
  - unfold CerModel.preprocess in H. destruct (r (rq_id q)) as [p|]; [|injection H as <- _; apply reg_older_refl].
    destruct (p_done p); [injection H as <- _; apply reg_older_refl|].
    destruct (negb (nonce_valid (p_nonce p))); [injection H as <- _; apply reg_older_refl|].
    destruct (negb (vsig (p_key p) (p_nonce p) (rq_msg q) (rq_sig q))); [injection H as <- _; apply reg_older_refl|discriminate].
  - destruct (preprocess_ok _ _ _ _ H) as (p & R & _ & _ & _ & -> & _).
    intros id p0 H0. unfold reg_set. destruct (Nat.eqb_spec id (rq_id q)) as [->|E].
    + exists (bump p). split; [reflexivity|]. rewrite R in H0. injection H0 as <-. apply bump_older.
    + exists p0. split; [exact H0|apply older_refl].
Qed.

(** The possible effects of a step. *)
Inductive effect (s : server) (a : action St Pf Sig) : server -> event -> Prop :=
| ef_none : effect s a s ENone
| ef_refused id e : effect s a s (ERefused id e)
| ef_tick d : effect s a (Server (sv_reg s) (sv_lq s) (sv_sclp s) (sv_tasks s) (sv_now s + d)) ENone
| ef_load recs : a = ALoad recs -> effect s a (Server (reg_load (sv_reg s) recs) (sv_lq s) (sv_sclp s) (sv_tasks s) (sv_now s)) ENone
| ef_state q r1 r2 lq prio st ch :
    preprocess (sv_reg s) q = (r1, inr prio) ->
    has_lock limit (sv_now s) r1 (sv_lq s) (rq_id q) = (r2, lq, None) ->
    effect s a (Server r2 lq (sv_sclp s) (sv_tasks s) (sv_now s))
      (EQuery (rq_id q) (old_nonce (sv_reg s) (rq_id q)) q (RState st ch))
| ef_wait q r1 r2 lq prio er q' fresh pos :
    preprocess (sv_reg s) q = (r1, inr prio) ->
    has_lock limit (sv_now s) r1 (sv_lq s) (rq_id q) = (r2, lq, Some er) ->
    mq_push_if_missing (lq_queue lq) prio (rq_id q) = (q', fresh, pos) ->
    effect s a (Server r2 (LQ q' (lq_lock lq) (lq_time lq)) (sv_sclp s) (sv_tasks s) (sv_now s))
      (EQuery (rq_id q) (old_nonce (sv_reg s) (rq_id q)) q (RPosition pos))
| ef_begun q r1 r2 lq prio sts pfs :
    a = ABegin q ->
    preprocess (sv_reg s) q = (r1, inr prio) ->
    has_lock limit (sv_now s) r1 (sv_lq s) (rq_id q) = (r2, lq, None) ->
    effect s a (Server r2 lq (sv_sclp s) (sv_tasks s ++ [TVerify (rq_id q) sts pfs]) (sv_now s))
      (EBegun (rq_id q) (old_nonce (sv_reg s) (rq_id q)) q)
| ef_notbegun q r1 r2 lq prio er :
    preprocess (sv_reg s) q = (r1, inr prio) ->
    has_lock limit (sv_now s) r1 (sv_lq s) (rq_id q) = (r2, lq, Some er) ->
    effect s a (Server r2 lq (sv_sclp s) (sv_tasks s) (sv_now s))
      (ENotBegun (rq_id q) (old_nonce (sv_reg s) (rq_id q)) q er)
| ef_rejected k id sts pfs c' e :
    nth_error (sv_tasks s) k = Some (TVerify id sts pfs) ->
    effect s a (Server (sv_reg s) (sv_lq s) c' (remove_nth k (sv_tasks s)) (sv_now s)) (ERejected id e)
| ef_applied k id sts pfs c' :
    nth_error (sv_tasks s) k = Some (TVerify id sts pfs) ->
    effect s a (Server (sv_reg s) (sv_lq s) c' (set_nth k (TFinish id (c_round c')) (sv_tasks s)) (sv_now s))
      (EApplied id (c_round c'))
| ef_finished k id rd r2 lq x p :
    nth_error (sv_tasks s) k = Some (TFinish id rd) ->
    sv_reg s id = Some p ->
    update_expired_lock (sv_now s) (reg_mod (sv_reg s) id set_done) (sv_lq s) = (r2, lq, x) ->
    effect s a (Server r2 lq (sv_sclp s) (remove_nth k (sv_tasks s)) (sv_now s)) (EFinished id)
| ef_missing k id rd :
    nth_error (sv_tasks s) k = Some (TFinish id rd) ->
    sv_reg s id = None ->
    effect s a (Server (sv_reg s) (sv_lq s) (sv_sclp s) (remove_nth k (sv_tasks s)) (sv_now s)) ENone.

Lemma step_effect : forall s a s' e, step s a = (s', e) -> effect s a s' e.
Proof.
  intros s a s' e H. destruct a as [d|q|q|k|k|recs]; cbn [CerModel.step] in H.
  - injection H as <- <-. constructor.
  - destruct (rq_msg q) as [|sts pfs]; [|injection H as <- <-; constructor].
    destruct (preprocess (sv_reg s) q) as [r1 [er|prio]] eqn:P; [injection H as <- <-; constructor|].
    destruct (has_lock limit (sv_now s) r1 (sv_lq s) (rq_id q)) as [[r2 lq] [er|]] eqn:L.
    + destruct (mq_push_if_missing (lq_queue lq) prio (rq_id q)) as [[q' fresh] pos] eqn:M.
      injection H as <- <-. eapply ef_wait; eauto.
    + injection H as <- <-. eapply ef_state; eauto.
  - destruct (rq_msg q) as [|sts pfs]; [injection H as <- <-; constructor|].
    destruct (preprocess (sv_reg s) q) as [r1 [er|prio]] eqn:P; [injection H as <- <-; constructor|].
    destruct (has_lock limit (sv_now s) r1 (sv_lq s) (rq_id q)) as [[r2 lq] [er|]] eqn:L;
      injection H as <- <-; [eapply ef_notbegun|eapply ef_begun]; eauto.
  - destruct (nth_error (sv_tasks s) k) as [[id sts pfs|id rd]|] eqn:T;
      [|injection H as <- <-; constructor|injection H as <- <-; constructor].
    destruct (sclp_update check_state challenge vt (sv_sclp s) sts pfs) as [c' [er|]] eqn:U; injection H as <- <-.
    + eapply ef_rejected; eauto.
    + eapply ef_applied; eauto.
  - destruct (nth_error (sv_tasks s) k) as [[id sts pfs|id rd]|] eqn:T;
      [injection H as <- <-; constructor| |injection H as <- <-; constructor].
    destruct (sv_reg s id) as [p|] eqn:R.
    + destruct (update_expired_lock (sv_now s) (reg_mod (sv_reg s) id set_done) (sv_lq s)) as [[r2 lq] x] eqn:U.
      injection H as <- <-. eapply ef_finished; eauto.
    + injection H as <- <-. eapply ef_missing; eauto.
  - injection H as <- <-. now apply ef_load.
Qed.

Lemma effect_older : forall s a s' e, effect s a s' e -> reg_older (sv_reg s) (sv_reg s').
Proof.
  intros s a s' e H.
  destruct H; cbn [sv_reg]; try apply reg_older_refl; try apply reg_load_older;
    try (eapply reg_older_trans; [eapply preprocess_older; eassumption|eapply has_lock_older; eassumption]).
  eapply reg_older_trans; [apply (reg_mod_older _ id set_done), done_older|].
  eapply update_expired_lock_older; eassumption.
Qed.
Lemma exec_older : forall l s s' es, exec s l = (s', es) -> reg_older (sv_reg s) (sv_reg s').
Proof.
  induction l as [|a l IH]; intros s s' es H; cbn [CerModel.exec] in H.
  - injection H as <- _. apply reg_older_refl.
  - destruct (step s a) as [s1 e] eqn:S. destruct (exec s1 l) as [s2 es2] eqn:E. injection H as <- _.
    eapply reg_older_trans; [eapply effect_older, step_effect, S|eapply IH, E].
Qed.

(** ** Nonces (C40) *)

(** A step that lets a request through. *)
Lemma effect_accepted : forall s a s' e id n q, effect s a s' e -> In (n, q) (accepted id [e]) ->
  exists p p', sv_reg s id = Some p /\ p_done p = false /\ p_nonce p = n
    /\ vsig (p_key p) n (rq_msg q) (rq_sig q) = true /\ rq_id q = id
    /\ sv_reg s' id = Some p' /\ (n < p_nonce p')%N /\ p_key p' = p_key p.
Proof.
  assert (A : forall (s : server) q r1 prio r2 lq x, preprocess (sv_reg s) q = (r1, inr prio) ->
    has_lock limit (sv_now s) r1 (sv_lq s) (rq_id q) = (r2, lq, x) ->
    exists p p', sv_reg s (rq_id q) = Some p /\ p_done p = false /\ p_nonce p = old_nonce (sv_reg s) (rq_id q)
      /\ vsig (p_key p) (old_nonce (sv_reg s) (rq_id q)) (rq_msg q) (rq_sig q) = true
      /\ r2 (rq_id q) = Some p' /\ (old_nonce (sv_reg s) (rq_id q) < p_nonce p')%N /\ p_key p' = p_key p).
  { intros s q r1 prio r2 lq x P L.
    destruct (preprocess_ok _ _ _ _ P) as (p & R & D & V & S & -> & _).
    destruct (has_lock_older _ _ _ _ _ _ _ _ L (rq_id q) (bump p)) as (p' & R' & K & N & _);
      [apply reg_set_same|].
    exists p, p'. unfold old_nonce. rewrite R. cbn [bump p_nonce p_key] in *.
    rewrite (nonce_incr_lt _ V) in N. repeat split; auto. lia. }
  intros s a s' e id n q H I. unfold accepted in I. cbn [flat_map] in I. rewrite app_nil_r in I.
  destruct H; try (now destruct I); cbn [sv_reg];
    (destruct (Nat.eqb_spec (rq_id q0) id) as [Q|]; [|now destruct I]); subst id;
    destruct I as [I|[]]; injection I as I1 I2; subst n q;
    edestruct (A s q0 r1 prio r2 lq) as (p & p' & W); try eassumption;
    exists p, p'; intuition.
Qed.

Lemma old_nonce_mono : forall r r' id, reg_older r r' -> (old_nonce r id <= old_nonce r' id)%N.
Proof.
  intros r r' id H. unfold old_nonce. destruct (r id) as [p|] eqn:R; [|lia].
  destruct (H id p R) as (p' & -> & _ & N & _). exact N.
Qed.

Lemma accepted_cons : forall id (e : event) es, accepted id (e :: es) = accepted id [e] ++ accepted id es.
Proof. intros. unfold accepted. cbn [flat_map]. now rewrite app_nil_r. Qed.
Lemma accepted_one : forall id (e : event), accepted id [e] = [] \/ exists n q, accepted id [e] = [(n, q)].
Proof.
  intros id e. unfold accepted. cbn [flat_map]. rewrite app_nil_r.
  destruct e; auto; destruct (id0 =? id); auto; right; eauto.
Qed.

Lemma exec_nonces : forall l s s' es id, exec s l = (s', es) ->
  StronglySorted N.lt (map fst (accepted id es))
  /\ Forall (fun x => (old_nonce (sv_reg s) id <= fst x)%N) (accepted id es).
Proof.
  induction l as [|a l IH]; intros s s' es id H; cbn [CerModel.exec] in H.
  - injection H as _ <-. split; constructor.
  - destruct (step s a) as [s1 e] eqn:S. destruct (exec s1 l) as [s2 es2] eqn:E. injection H as <- <-.
    apply step_effect in S. destruct (IH _ _ _ id E) as [A B].
    pose proof (old_nonce_mono _ _ id (effect_older _ _ _ _ S)) as M.
    rewrite accepted_cons. destruct (accepted_one id e) as [->|(n & q & X)].
    + cbn [app]. split; [exact A|]. eapply Forall_impl; [|exact B]. cbv beta. intros; lia.
    + destruct (effect_accepted s a s1 e id n q S) as (p & p' & R & _ & N & _ & _ & R' & L & _);
        [rewrite X; now left|].
      rewrite X. cbn [app map fst]. assert (O : old_nonce (sv_reg s) id = n) by (unfold old_nonce; now rewrite R).
      assert (O' : (n < old_nonce (sv_reg s1) id)%N) by (unfold old_nonce; now rewrite R').
      split.
      * constructor; [exact A|]. apply Forall_map. eapply Forall_impl; [|exact B]. cbv beta. intros; lia.
      * constructor; [cbn; lia|]. eapply Forall_impl; [|exact B]. cbv beta. intros; lia.
Qed.

(** Every accepted request carries a valid signature under its nonce and the
    participant's key. *)
Lemma exec_signed : forall l s s' es id, exec s l = (s', es) ->
  Forall (fun x => rq_id (snd x) = id /\ exists p, sv_reg s' id = Some p
    /\ vsig (p_key p) (fst x) (rq_msg (snd x)) (rq_sig (snd x)) = true) (accepted id es).
Proof.
  induction l as [|a l IH]; intros s s' es id H; cbn [CerModel.exec] in H.
  - injection H as _ <-. constructor.
  - destruct (step s a) as [s1 e] eqn:S. destruct (exec s1 l) as [s2 es2] eqn:E. injection H as <- <-.
    apply step_effect in S. rewrite accepted_cons. apply Forall_app. split; [|eapply IH, E].
    destruct (accepted_one id e) as [->|(n & q & X)]; [constructor|].
    destruct (effect_accepted s a s1 e id n q S) as (p & p' & R & _ & N & V & I & R' & L & K);
      [rewrite X; now left|].
    destruct (exec_older _ _ _ _ E id p' R') as (p2 & R2 & K2 & _).
    rewrite X. constructor; [|constructor]. cbn [fst snd]. split; [exact I|]. exists p2. split; [exact R2|].
    rewrite K2, K. exact V.
Qed.

(** ** At most one contribution each (C39) *)
Definition my_tasks (s : server) (id : nat) : list (task St Pf) := filter (fun t => task_id t =? id) (sv_tasks s).

Lemma in_flight_false : forall s id, in_flight s id = false -> my_tasks s id = [].
Proof.
  intros s id. unfold in_flight, my_tasks. induction (sv_tasks s) as [|t ts IH]; cbn; [auto|].
  destruct (task_id t =? id); cbn; [discriminate|auto].
Qed.
Lemma filter_remove_nth : forall (A : Type) (f : A -> bool) l k x, nth_error l k = Some x ->
  exists a b, filter f l = a ++ (if f x then [x] else []) ++ b /\ filter f (remove_nth k l) = a ++ b
    /\ forall y, filter f (set_nth k y l) = a ++ (if f y then [y] else []) ++ b.
Proof.
  intros A f. induction l as [|z l IH]; intros [|k] x H; try discriminate.
  - injection H as ->. exists [], (filter f l). cbn [filter remove_nth set_nth app].
    split; [destruct (f x); reflexivity|]. split; [reflexivity|]. intros y. destruct (f y); reflexivity.
  - destruct (IH k x H) as (a & b & E1 & E2 & E3). cbn [filter remove_nth set_nth].
    destruct (f z).
    + exists (z :: a), b. rewrite E1, E2. repeat split. intros y. now rewrite E3.
    + exists a, b. auto.
Qed.

Definition once (s : server) (id n : nat) : Prop :=
  (n = 0 /\ (my_tasks s id = [] \/ exists sts pfs, my_tasks s id = [TVerify id sts pfs] /\ sv_reg s id <> None))
  \/ (n = 1 /\ sv_reg s id <> None /\ exists rd, my_tasks s id = [TFinish id rd])
  \/ (n = 1 /\ my_tasks s id = [] /\ exists p, sv_reg s id = Some p /\ p_done p = true).

Lemma applied_cons : forall id (e : event) es, applied id (e :: es) = applied id [e] + applied id es.
Proof.
  intros. unfold applied. cbn [filter]. destruct e; try reflexivity. destruct (id0 =? id); reflexivity.
Qed.

Lemma reg_older_some : forall r r' id, reg_older r r' -> r id <> None -> r' id <> None.
Proof.
  intros r r' id H N. destruct (r id) as [p|] eqn:R; [|congruence].
  destruct (H id p R) as (p' & -> & _). discriminate.
Qed.
Lemma reg_older_done : forall r r' id, reg_older r r' -> (exists p, r id = Some p /\ p_done p = true) ->
  exists p, r' id = Some p /\ p_done p = true.
Proof.
  intros r r' id H (p & R & D). destruct (H id p R) as (p' & R' & _ & _ & F). eauto.
Qed.
Lemma once_older : forall s s' id n, my_tasks s' id = my_tasks s id -> reg_older (sv_reg s) (sv_reg s') ->
  once s id n -> once s' id n.
Proof.
  intros s s' id n T O H. unfold once in *. rewrite T.
  destruct H as [(-> & [A|(sts & pfs & A & B)])|[(-> & A & B)|(-> & A & B)]].
  - auto.
  - left. split; [auto|]. right. exists sts, pfs. split; [auto|]. eapply reg_older_some; eauto.
  - right; left. split; [auto|]. split; [|auto]. eapply reg_older_some; eauto.
  - right; right. split; [auto|]. split; [auto|]. eapply reg_older_done; eauto.
Qed.

Lemma once_step : forall s a s' e id n, step s a = (s', e) -> one_at_a_time s a = true ->
  once s id n -> once s' id (applied id [e] + n).
Proof.
  intros s a s' e id n S G H.
  apply step_effect in S. pose proof (effect_older _ _ _ _ S) as O.
  destruct S; try (apply (once_older s); [reflexivity|exact O|exact H]).
  - (* begun *)
    assert (Gb : in_flight s (rq_id q) = false) by (subst a; cbn in G; now destruct (in_flight s (rq_id q))).
    apply in_flight_false in Gb.
    change (once (Server r2 lq (sv_sclp s) (sv_tasks s ++ [TVerify (rq_id q) sts pfs]) (sv_now s)) id n).
    assert (T : my_tasks (Server r2 lq (sv_sclp s) (sv_tasks s ++ [TVerify (rq_id q) sts pfs]) (sv_now s)) id
                = my_tasks s id ++ if rq_id q =? id then [TVerify (rq_id q) sts pfs] else []).
    { unfold my_tasks. cbn [sv_tasks]. rewrite filter_app. reflexivity. }
    destruct (Nat.eqb_spec (rq_id q) id) as [Q|Q].
    + subst id. rewrite Gb in T. cbn [app] in T.
      destruct (preprocess_ok _ _ _ _ H1) as (p & R & D & _).
      destruct H as [(-> & _)|[(_ & _ & rd & B)|(_ & _ & p0 & R0 & D0)]].
      * left. split; [auto|]. right. exists sts, pfs. split; [exact T|].
        apply (reg_older_some _ _ _ O). congruence.
      * congruence.
      * congruence.
    + rewrite app_nil_r in T. eapply once_older; [exact T|exact O|exact H].
  - (* rejected *)
    destruct (filter_remove_nth _ (fun t => task_id t =? id) _ _ _ H0) as (x & y & E1 & E2 & _).
    cbn [task_id] in E1. unfold once, my_tasks in *. cbn [sv_tasks sv_reg applied filter length Nat.add] in *.
    rewrite E1 in H. rewrite E2. destruct (Nat.eqb_spec id0 id) as [->|Q]; cbn [app] in H.
    + destruct H as [(-> & [A|(st & pf & A & B)])|[(-> & A & rd & B)|(-> & A & B)]].
      * now destruct x.
      * left. split; [auto|]. left. destruct x as [|x0 [|]], y as [|y0 y]; try discriminate; auto.
      * exfalso. destruct x as [|x0 [|]], y as [|y0 y]; discriminate.
      * now destruct x.
    + exact H.
  - (* applied *)
    destruct (filter_remove_nth _ (fun t => task_id t =? id) _ _ _ H0) as (x & y & E1 & _ & E3).
    specialize (E3 (TFinish id0 (c_round c'))).
    cbn [task_id] in E1, E3. unfold once, my_tasks in *. cbn [sv_tasks sv_reg] in *.
    rewrite E1 in H. rewrite E3. unfold applied. cbn [filter].
    destruct (Nat.eqb_spec id0 id) as [->|Q]; cbn [app length] in *.
    + destruct H as [(-> & [A|(st & pf & A & B)])|[(-> & A & rd & B)|(-> & A & B)]].
      * now destruct x.
      * right; left. split; [auto|]. split; [exact B|]. exists (c_round c').
        destruct x as [|x0 [|]], y as [|y0 y]; try discriminate; auto.
      * exfalso. destruct x as [|x0 [|]], y as [|y0 y]; discriminate.
      * now destruct x.
    + exact H.
  - (* finished *)
    destruct (filter_remove_nth _ (fun t => task_id t =? id) _ _ _ H0) as (x0 & y & E1 & E2 & _).
    cbn [task_id] in E1. change (applied id [@EFinished St Ch Pf Sig id0]) with 0. cbn [Nat.add].
    destruct (Nat.eqb_spec id0 id) as [->|Q]; cbn [app] in E1.
    + assert (D : exists p', r2 id = Some p' /\ p_done p' = true).
      { destruct (update_expired_lock_older _ _ _ _ _ _ H2 id (set_done p)) as (p' & R' & _ & _ & D').
        - rewrite reg_mod_spec, Nat.eqb_refl, H1. reflexivity.
        - exists p'. split; [exact R'|]. now apply D'. }
      unfold once, my_tasks in *. cbn [sv_tasks sv_reg] in *. rewrite E1 in H. rewrite E2.
      destruct H as [(-> & [A|(st & pf & A & B)])|[(-> & A & rd' & B)|(-> & A & B)]].
      * now destruct x0.
      * exfalso. destruct x0 as [|? [|]], y as [|? y]; discriminate.
      * right; right. split; [auto|]. split; [|exact D].
        destruct x0 as [|? [|]], y as [|? y]; try discriminate; auto.
      * now destruct x0.
    + apply (once_older s); [|exact O|exact H]. unfold my_tasks. cbn [sv_tasks]. now rewrite E1, E2.
  - (* missing *)
    destruct (filter_remove_nth _ (fun t => task_id t =? id) _ _ _ H0) as (x0 & y & E1 & E2 & _).
    cbn [task_id] in E1. change (applied id [@ENone St Ch Pf Sig]) with 0. cbn [Nat.add].
    destruct (Nat.eqb_spec id0 id) as [->|Q]; cbn [app] in E1.
    + unfold once, my_tasks in *. cbn [sv_tasks sv_reg] in *. rewrite E1 in H. rewrite E2.
      destruct H as [(-> & [A|(st & pf & A & B)])|[(-> & A & rd' & B)|(-> & A & B)]].
      * now destruct x0.
      * congruence.
      * congruence.
      * now destruct x0.
    + apply (once_older s); [|exact O|exact H]. unfold my_tasks. cbn [sv_tasks]. now rewrite E1, E2.
Qed.

Lemma once_exec : forall l s s' es id n, exec s l = (s', es) ->
  guarded check_state challenge vt vsig limit one_at_a_time s l = true ->
  once s id n -> once s' id (applied id es + n).
Proof.
  induction l as [|a l IH]; intros s s' es id n H G I; cbn [CerModel.exec guarded] in *.
  - injection H as <- <-. exact I.
  - destruct (step s a) as [s1 e] eqn:S. destruct (exec s1 l) as [s2 es2] eqn:E. injection H as <- <-.
    apply andb_prop in G. destruct G as [G1 G2]. cbn [fst] in G2.
    rewrite applied_cons. replace (applied id [e] + applied id es2 + n) with (applied id es2 + (applied id [e] + n)) by lia.
    eapply IH; [exact E|exact G2|]. eapply once_step; eauto.
Qed.

(** ** The lock is held (C41) *)
Definition held (s : server) : Prop :=
  sv_tasks s = [] \/ exists t, sv_tasks s = [t] /\ lq_lock (sv_lq s) = Some (task_id t).

Lemma held_step : forall s a s' e, step s a = (s', e) ->
  one_at_a_time s a = true -> in_time limit s a = true -> held s -> held s'.
Proof.
  intros s a s' e S G1 G2 H. unfold held in *. destruct a as [d|q|q|k|k|recs]; cbn [CerModel.step] in S.
  - injection S as <- _. exact H.
  - destruct (rq_msg q); [|injection S as <- _; exact H].
    destruct (preprocess (sv_reg s) q) as [r1 [er|prio]]; [injection S as <- _; exact H|].
    destruct (has_lock limit (sv_now s) r1 (sv_lq s) (rq_id q)) as [[r2 lq] er] eqn:L.
    assert (Q : sv_tasks s = [] \/ exists t, sv_tasks s = [t] /\ lq_lock lq = Some (task_id t)).
    { destruct H as [H|(t & T & K)]; [auto|]. right. exists t. split; [exact T|].
      cbn in G2. rewrite T in G2. apply Nat.ltb_lt in G2.
      destruct (has_lock_cases _ _ _ _ _ _ _ _ L) as [[(_ & _ & ->)|(X & _)] _]; [exact K|].
      unfold has_expired in X. rewrite K, orb_false_r in X. apply Nat.leb_le in X. lia. }
    destruct er as [er|].
    + destruct (mq_push_if_missing (lq_queue lq) prio (rq_id q)) as [[q' fresh] pos].
      injection S as <- _. exact Q.
    + injection S as <- _. exact Q.
  - destruct (rq_msg q); [injection S as <- _; exact H|].
    destruct (preprocess (sv_reg s) q) as [r1 [er|prio]]; [injection S as <- _; exact H|].
    destruct (has_lock limit (sv_now s) r1 (sv_lq s) (rq_id q)) as [[r2 lq] er] eqn:L.
    assert (Q : sv_tasks s = [] \/ exists t, sv_tasks s = [t] /\ lq_lock lq = Some (task_id t)).
    { destruct H as [H|(t & T & K)]; [auto|]. right. exists t. split; [exact T|].
      cbn in G2. rewrite T in G2. apply Nat.ltb_lt in G2.
      destruct (has_lock_cases _ _ _ _ _ _ _ _ L) as [[(_ & _ & ->)|(X & _)] _]; [exact K|].
      unfold has_expired in X. rewrite K, orb_false_r in X. apply Nat.leb_le in X. lia. }
    destruct (has_lock_cases _ _ _ _ _ _ _ _ L) as (_ & Hn & _).
    destruct er as [er|]; injection S as <- _; cbn [sv_tasks sv_lq]; [exact Q|].
    specialize (Hn eq_refl). destruct Q as [Q|(t & T & K)].
    + right. rewrite Q. cbn [app]. eexists. split; [reflexivity|]. exact Hn.
    + exfalso. rewrite Hn in K. injection K as K. cbn in G1. unfold in_flight in G1. rewrite T in G1. cbn in G1.
      rewrite <- K, Nat.eqb_refl in G1. discriminate.
  - destruct H as [H|(t & T & K)].
    + rewrite H in S. destruct k; cbn in S; injection S as <- _; auto.
    + rewrite T in S. destruct k as [|k]; cbn [nth_error] in S; [|destruct k; injection S as <- _; eauto].
      destruct t as [id sts pfs|id rd]; [|injection S as <- _; eauto].
      destruct (sclp_update check_state challenge vt (sv_sclp s) sts pfs) as [c' [er|]]; injection S as <- _;
        cbn [sv_tasks sv_lq remove_nth set_nth]; [now left|].
      right. eexists. split; [reflexivity|]. exact K.
  - destruct H as [H|(t & T & K)].
    + rewrite H in S. destruct k; cbn in S; injection S as <- _; auto.
    + rewrite T in S. destruct k as [|k]; cbn [nth_error] in S; [|destruct k; injection S as <- _; eauto].
      destruct t as [id sts pfs|id rd]; [injection S as <- _; eauto|].
      destruct (sv_reg s id) as [p|].
      * destruct (update_expired_lock (sv_now s) (reg_mod (sv_reg s) id set_done) (sv_lq s)) as [[r2 lq] x].
        injection S as <- _. now left.
      * injection S as <- _. now left.
  - injection S as <- _. exact H.
Qed.

Lemma held_exec : forall l s s' es, exec s l = (s', es) ->
  guarded check_state challenge vt vsig limit (fun s a => one_at_a_time s a && in_time limit s a) s l = true ->
  held s -> held s'.
Proof.
  induction l as [|a l IH]; intros s s' es H G I; cbn [CerModel.exec guarded] in *.
  - now injection H as <- <-.
  - destruct (step s a) as [s1 e] eqn:S. destruct (exec s1 l) as [s2 es2] eqn:E. injection H as <- <-.
    apply andb_prop in G. destruct G as [G1 G2]. apply andb_prop in G1. destruct G1 as [G0 G1].
    eapply IH; [exact E|exact G2|]. eapply held_step; eauto.
Qed.

(** ** The queue (C43) *)

(** Lock and queue after a step: perhaps the lock passed to the head of the queue, then
    perhaps a participant joined at the end of a level. *)
Inductive qmove (q : list (list nat)) (h : option nat) : list (list nat) -> option nat -> Prop :=
| qm_same : qmove q h q h
| qm_pop next q1 : mq_pop q = (next, q1) -> qmove q h q1 next.
Inductive qjoin (q : list (list nat)) : list (list nat) -> Prop :=
| qj_same : qjoin q q
| qj_push level id : ~ In id (nth level q []) -> qjoin q (mq_push q level id).

Definition prios_ok (r : registry) : Prop := forall id p, r id = Some p -> p_prio p < 2.

Lemma update_expired_lock_prios : forall now r lq r' lq' x,
  update_expired_lock now r lq = (r', lq', x) -> prios_ok r -> prios_ok r'.
Proof.
  intros now r lq r' lq' x H P. unfold update_expired_lock in H. destruct (mq_pop (lq_queue lq)) as [next q'].
  injection H as <- _ _. destruct (lq_lock lq) as [h|]; [|exact P].
  intros id p. rewrite reg_mod_spec. destruct (id =? h); [|apply P].
  destruct (r id) as [p0|] eqn:R; [|discriminate]. cbn [option_map]. intros E. injection E as <-. cbn. lia.
Qed.
Lemma has_lock_prios : forall now r lq id r' lq' x,
  has_lock limit now r lq id = (r', lq', x) -> prios_ok r -> prios_ok r'.
Proof.
  intros now r lq id r' lq' x H P. unfold has_lock in H.
  destruct (has_expired limit now lq).
  - destruct (update_expired_lock now r lq) as [[r1 lq1] popped] eqn:U.
    apply update_expired_lock_prios in U; [|exact P].
    destruct popped as [p|]; [destruct (p =? id)|]; injection H as <- _ _; exact U.
  - now injection H as <- _ _.
Qed.
Lemma preprocess_prios : forall r q r1 prio, preprocess r q = (r1, inr prio) -> prios_ok r ->
  prios_ok r1 /\ prio < 2.
Proof.
  intros r q r1 prio H P. destruct (preprocess_ok _ _ _ _ H) as (p & R & _ & _ & _ & -> & ->).
  split; [|eapply P, R]. intros id p0. unfold reg_set. destruct (id =? rq_id q); [|apply P].
  intros E. injection E as <-. cbn. eapply P, R.
Qed.

Lemma has_lock_qmove : forall now r lq id r' lq' x, has_lock limit now r lq id = (r', lq', x) ->
  qmove (lq_queue lq) (lq_lock lq) (lq_queue lq') (lq_lock lq').
Proof.
  intros now r lq id r' lq' x H. destruct (has_lock_cases _ _ _ _ _ _ _ _ H) as [[(_ & _ & ->)|(_ & next & q' & M & -> & _)] _].
  - constructor.
  - now constructor.
Qed.
Lemma effect_queue : forall s a s' e, effect s a s' e ->
  prios_ok (sv_reg s) -> length (lq_queue (sv_lq s)) = 2 ->
  exists q1, qmove (lq_queue (sv_lq s)) (lq_lock (sv_lq s)) q1 (lq_lock (sv_lq s'))
          /\ qjoin q1 (lq_queue (sv_lq s')) /\ length (lq_queue (sv_lq s')) = 2.
Proof.
  intros s a s' e H P L.
  assert (ML : forall q h q1 h1, qmove q h q1 h1 -> length q1 = length q).
  { intros q h q1 h1 []; [reflexivity|]. eapply mq_pop_length; eauto. }
  destruct H; cbn [sv_lq]; try (exists (lq_queue (sv_lq s)); split; [constructor|split; [constructor|exact L]]).
  - pose proof (has_lock_qmove _ _ _ _ _ _ _ H0) as M. exists (lq_queue lq).
    split; [exact M|]. split; [constructor|]. rewrite (ML _ _ _ _ M). exact L.
  - pose proof (has_lock_qmove _ _ _ _ _ _ _ H0) as M. exists (lq_queue lq). cbn [lq_queue lq_lock].
    split; [exact M|]. pose proof (ML _ _ _ _ M) as L'. rewrite L in L'.
    destruct (preprocess_prios _ _ _ _ H P) as [_ Q].
    destruct (mq_push_if_missing_spec (lq_queue lq) prio (rq_id q) q' fresh pos) as (_ & [(_ & -> & _)|(_ & -> & N)]);
      [lia|exact H1| |].
    + split; [constructor|exact L'].
    + split; [now constructor|]. now rewrite mq_push_length.
  - pose proof (has_lock_qmove _ _ _ _ _ _ _ H1) as M. exists (lq_queue lq).
    split; [exact M|]. split; [constructor|]. rewrite (ML _ _ _ _ M). exact L.
  - pose proof (has_lock_qmove _ _ _ _ _ _ _ H0) as M. exists (lq_queue lq).
    split; [exact M|]. split; [constructor|]. rewrite (ML _ _ _ _ M). exact L.
  - unfold update_expired_lock in H1. destruct (mq_pop (lq_queue (sv_lq s))) as [next q'] eqn:Q.
    injection H1 as _ <- _. exists q'. cbn [lq_queue lq_lock]. split; [now constructor|]. split; [constructor|].
    rewrite (mq_pop_length _ _ _ Q). exact L.
Qed.

Definition loads_ok (a : action St Pf Sig) : Prop :=
  match a with ALoad recs => Forall (fun e => p_prio (snd e) < 2) recs | _ => True end.
Lemma reg_load_all : forall (P : part -> Prop) recs r, Forall (fun e => P (snd e)) recs ->
  (forall id p, r id = Some p -> P p) -> forall id p, reg_load r recs id = Some p -> P p.
Proof.
  intros P recs r F H id p R. pose proof (reg_load_spec recs r id) as Q. destruct (r id) as [p0|] eqn:R0.
  - rewrite Q in R. injection R as <-. eapply H, R0.
  - rewrite Q in R. clear Q R0. induction recs as [|[k p1] recs IH]; [discriminate|].
    cbn [map first_record] in R. inversion F as [|? ? A B]; subst. destruct (k =? id).
    + injection R as <-. exact A.
    + apply IH; assumption.
Qed.
Lemma step_prios : forall s a s' e, effect s a s' e -> loads_ok a ->
  prios_ok (sv_reg s) -> prios_ok (sv_reg s').
Proof.
  intros s a s' e S La P. destruct S; cbn [sv_reg]; try exact P;
    try (eapply has_lock_prios; [eassumption|]; eapply preprocess_prios; [eassumption|exact P]).
  - subst a. exact (reg_load_all (fun p => p_prio p < 2) recs (sv_reg s) La P).
  - eapply update_expired_lock_prios; [eassumption|]. intros i p1. rewrite reg_mod_spec.
    destruct (i =? id); [|apply P]. destruct (sv_reg s i) as [p2|] eqn:R; [|discriminate].
    cbn [option_map]. intros E. injection E as <-. cbn. eapply P, R.
Qed.
(** Composition of the queue moves over an execution, per level. *)
Lemma qmove_level : forall q h q1 h1 k, qmove q h q1 h1 -> exists j, nth k q1 [] = skipn j (nth k q []).
Proof. intros q h q1 h1 k []; [now exists 0|eapply mq_pop_level; eauto]. Qed.
Lemma qjoin_level : forall q q' k, qjoin q q' -> exists new, nth k q' [] = nth k q [] ++ new
  /\ (NoDup (nth k q []) -> NoDup (nth k q' [])).
Proof.
  intros q q' k [|level id N].
  - exists []. rewrite app_nil_r. auto.
  - destruct (Nat.eq_dec k level) as [->|E].
    + destruct (le_lt_dec (length q) level) as [O|O].
      * exists []. rewrite app_nil_r. assert (X : mq_push q level id = q).
        { clear N. revert level O. induction q as [|l q IH]; intros [|level] O; cbn in *; auto; try lia.
          f_equal. apply IH. lia. }
        rewrite X. auto.
      * exists [id]. rewrite (mq_push_same _ _ _ O). split; [reflexivity|]. intros D.
        apply (Permutation_NoDup (Permutation_cons_append (nth level q []) id)). now constructor.
    + exists []. rewrite (mq_push_other _ _ _ _ E), app_nil_r. auto.
Qed.
Lemma effect_level : forall s a s' e k, effect s a s' e ->
  prios_ok (sv_reg s) -> length (lq_queue (sv_lq s)) = 2 ->
  exists j new, nth k (lq_queue (sv_lq s')) [] = skipn j (nth k (lq_queue (sv_lq s)) []) ++ new
    /\ (NoDup (nth k (lq_queue (sv_lq s)) []) -> NoDup (nth k (lq_queue (sv_lq s')) [])).
Proof.
  intros s a s' e k H P L. destruct (effect_queue _ _ _ _ H P L) as (q1 & M & J & _).
  destruct (qmove_level _ _ _ _ k M) as (j & E1). destruct (qjoin_level _ _ k J) as (new & E2 & D).
  exists j, new. rewrite E2, E1 in *. split; [reflexivity|]. intros N. apply D, nodup_skipn, N.
Qed.

Lemma exec_level : forall l s s' es, exec s l = (s', es) ->
  prios_ok (sv_reg s) -> length (lq_queue (sv_lq s)) = 2 -> Forall loads_ok l ->
  forall k, exists j new, nth k (lq_queue (sv_lq s')) [] = skipn j (nth k (lq_queue (sv_lq s)) [] ++ new)
    /\ (NoDup (nth k (lq_queue (sv_lq s)) []) -> NoDup (nth k (lq_queue (sv_lq s')) [])).
Proof.
  induction l as [|a l IH]; intros s s' es H P L F k; cbn [CerModel.exec] in H.
  - injection H as <- _. exists 0, []. rewrite app_nil_r. auto.
  - destruct (step s a) as [s1 e] eqn:S. destruct (exec s1 l) as [s2 es2] eqn:E. injection H as <- _.
    inversion F as [|? ? Fa Fl]; subst. apply step_effect in S.
    destruct (effect_level _ _ _ _ k S P L) as (j1 & n1 & E1 & D1).
    destruct (effect_queue _ _ _ _ S P L) as (_ & _ & _ & L1).
    destruct (IH _ _ _ E (step_prios _ _ _ _ S Fa P) L1 Fl k) as (j2 & n2 & E2 & D2).
    set (Q := nth k (lq_queue (sv_lq s)) []) in *.
    exists (j2 + min j1 (length Q)), (n1 ++ n2). split; [|auto].
    rewrite E2, E1, <- app_assoc.
    replace (skipn j1 Q ++ n1 ++ n2) with (skipn (min j1 (length Q)) (Q ++ n1 ++ n2)).
    + apply skipn_plus.
    + rewrite skipn_app. replace (min j1 (length Q) - length Q) with 0 by lia. cbn [skipn].
      f_equal. destruct (le_lt_dec j1 (length Q)) as [X|X].
      * now rewrite Nat.min_l.
      * rewrite Nat.min_r, !skipn_all2 by lia. reflexivity.
Qed.

(** With normal priorities only, nobody is in the queue twice and the holder of the lock
    is not in the queue. *)
Definition normal (s : server) : Prop :=
  (forall id p, sv_reg s id = Some p -> p_prio p = 1)
  /\ (exists q, lq_queue (sv_lq s) = [[]; q] /\ NoDup q
        /\ forall h, lq_lock (sv_lq s) = Some h -> ~ In h q).

Lemma update_expired_lock_normal : forall now r lq r' lq' x,
  update_expired_lock now r lq = (r', lq', x) -> (forall id p, r id = Some p -> p_prio p = 1) ->
  forall id p, r' id = Some p -> p_prio p = 1.
Proof.
  intros now r lq r' lq' x H P. unfold update_expired_lock in H. destruct (mq_pop (lq_queue lq)) as [next q'].
  injection H as <- _ _. destruct (lq_lock lq) as [h|]; [|exact P].
  intros id p. rewrite reg_mod_spec. destruct (id =? h); [|apply P].
  destruct (r id) as [p0|] eqn:R; [|discriminate]. cbn [option_map]. intros E. injection E as <-. reflexivity.
Qed.
Lemma has_lock_normal : forall now r lq id r' lq' x,
  has_lock limit now r lq id = (r', lq', x) -> (forall id p, r id = Some p -> p_prio p = 1) ->
  forall id p, r' id = Some p -> p_prio p = 1.
Proof.
  intros now r lq id r' lq' x H P. unfold has_lock in H.
  destruct (has_expired limit now lq).
  - destruct (update_expired_lock now r lq) as [[r1 lq1] popped] eqn:U.
    pose proof (update_expired_lock_normal _ _ _ _ _ _ U P) as U'.
    destruct popped as [p|]; [destruct (p =? id)|]; injection H as <- _ _; exact U'.
  - now injection H as <- _ _.
Qed.
Lemma preprocess_normal : forall r q r1 prio, preprocess r q = (r1, inr prio) ->
  (forall id p, r id = Some p -> p_prio p = 1) ->
  prio = 1 /\ forall id p, r1 id = Some p -> p_prio p = 1.
Proof.
  intros r q r1 prio H P. destruct (preprocess_ok _ _ _ _ H) as (p & R & _ & _ & _ & -> & ->).
  split; [eapply P, R|]. intros id p0. unfold reg_set. destruct (id =? rq_id q); [|apply P].
  intros E. injection E as <-. cbn. eapply P, R.
Qed.

Lemma qmove_normal : forall q h q1 h1, qmove [[]; q] h q1 h1 -> NoDup q ->
  (forall x, h = Some x -> ~ In x q) ->
  exists q', q1 = [[]; q'] /\ NoDup q' /\ (forall x, In x q' -> In x q) /\ forall x, h1 = Some x -> ~ In x q'.
Proof.
  intros q h q1 h1 M D Hh. inversion M as [|next q2 Q]; subst.
  - exists q. auto.
  - cbn in Q. destruct q as [|x q]; cbn in Q; injection Q as <- <-.
    + exists []. split; [auto|]. split; [constructor|]. split; [auto|]. intros; discriminate.
    + inversion D; subst. exists q. split; [auto|]. split; [auto|]. split; [intros; now right|].
      intros y Y. injection Y as <-. auto.
Qed.

Lemma normal_step : forall s a s' e, effect s a s' e ->
  match a with ALoad recs => all_normal recs | _ => True end -> normal s -> normal s'.
Proof.
  intros s a s' e H La [P (q & Q & D & Hh)]. unfold normal.
  destruct H; cbn [sv_reg sv_lq lq_queue lq_lock]; try (split; [exact P|eauto]).
  - subst a. split; [|eauto]. exact (reg_load_all (fun p => p_prio p = 1) recs (sv_reg s) La P).
  - destruct (preprocess_normal _ _ _ _ H P) as [-> P1]. split; [exact (has_lock_normal _ _ _ _ _ _ _ H0 P1)|].
    pose proof (has_lock_qmove _ _ _ _ _ _ _ H0) as M. rewrite Q in M.
    destruct (qmove_normal _ _ _ _ M D Hh) as (q' & E & D' & _ & N). eauto.
  - destruct (preprocess_normal _ _ _ _ H P) as [-> P1]. split; [exact (has_lock_normal _ _ _ _ _ _ _ H0 P1)|].
    pose proof (has_lock_qmove _ _ _ _ _ _ _ H0) as M. rewrite Q in M.
    destruct (qmove_normal _ _ _ _ M D Hh) as (q2 & E & D' & Sub & N). rewrite E in H1.
    destruct (mq_push_if_missing_spec [[]; q2] 1 (rq_id q0) q' fresh pos) as (_ & [(_ & -> & _)|(_ & -> & NI)]);
      [cbn; lia|exact H1| |].
    + eauto.
    + cbn [nth] in NI. exists (q2 ++ [rq_id q0]). split; [reflexivity|].
      split; [apply (Permutation_NoDup (Permutation_cons_append q2 (rq_id q0))); now constructor|].
      intros h Eh I. apply in_app_iff in I. destruct I as [I|[<-|[]]]; [exact (N h Eh I)|].
      destruct (has_lock_cases _ _ _ _ _ _ _ _ H0) as (C & _ & X). destruct (X ltac:(discriminate)) as [X1|[X1 X2]]; [auto|].
      (* the participant just lost the lock: then it was not in the queue *)
      destruct C as [(C & _)|(_ & next & q3 & Pp & -> & _)]; [congruence|].
      cbn [lq_lock] in Eh. subst next. rewrite Q in Pp. pose proof (mq_pop_some _ _ _ Pp) as In1.
      cbn [concat app] in In1. rewrite app_nil_r in In1. apply (Hh _ X2). rewrite In1. now left.
  - destruct (preprocess_normal _ _ _ _ H0 P) as [-> P1]. split; [exact (has_lock_normal _ _ _ _ _ _ _ H1 P1)|].
    pose proof (has_lock_qmove _ _ _ _ _ _ _ H1) as M. rewrite Q in M.
    destruct (qmove_normal _ _ _ _ M D Hh) as (q' & E & D' & _ & N). eauto.
  - destruct (preprocess_normal _ _ _ _ H P) as [-> P1]. split; [exact (has_lock_normal _ _ _ _ _ _ _ H0 P1)|].
    pose proof (has_lock_qmove _ _ _ _ _ _ _ H0) as M. rewrite Q in M.
    destruct (qmove_normal _ _ _ _ M D Hh) as (q' & E & D' & _ & N). eauto.
  - assert (P1 : forall i p1, reg_mod (sv_reg s) id set_done i = Some p1 -> p_prio p1 = 1).
    { intros i p1. rewrite reg_mod_spec. destruct (i =? id); [|apply P].
      destruct (sv_reg s i) as [p2|] eqn:R; [|discriminate]. cbn [option_map]. intros E. injection E as <-. cbn. eapply P, R. }
    split; [exact (update_expired_lock_normal _ _ _ _ _ _ H1 P1)|].
    unfold update_expired_lock in H1. rewrite Q in H1. destruct (mq_pop [[]; q]) as [next q'] eqn:M.
    injection H1 as _ <- _. cbn [lq_queue lq_lock].
    destruct (qmove_normal q (lq_lock (sv_lq s)) q' next) as (q2 & E & D' & _ & N); [now constructor|exact D|exact Hh|]. eauto.
Qed.
Lemma normal_exec : forall l s s' es, exec s l = (s', es) -> loads_normal l -> normal s -> normal s'.
Proof.
  induction l as [|a l IH]; intros s s' es H F N; cbn [CerModel.exec] in H.
  - now injection H as <- _.
  - destruct (step s a) as [s1 e] eqn:S. destruct (exec s1 l) as [s2 es2] eqn:E. injection H as <- _.
    inversion F as [|? ? Fa Fl]; subst. eapply IH; [exact E|exact Fl|]. eapply normal_step; [eapply step_effect, S|exact Fa|exact N].
Qed.
End Inv.
