(** Specification-side notions for the ceremony (C38-C46): what an execution's events say,
    and the conditions under which guarded versions hold. *)
From Coq Require Import List NArith Arith Bool.
From Verif Require Import CerModel.
Import ListNotations.

Section Spec.
Context {St Ch Pf Sig : Type}.

(** How often [id]'s contribution was applied to the ceremony state. *)
Definition applied (id : nat) (es : list (event St Ch Pf Sig)) : nat :=
  length (filter (fun e => match e with EApplied i _ => i =? id | _ => false end) es).

(** The requests of [id] that were let through by the nonce and signature checks, with
    the nonce they were let through with. *)
Definition accepted (id : nat) (es : list (event St Ch Pf Sig)) : list (N * request St Pf Sig) :=
  flat_map (fun e => match e with
                     | EQuery i n q _ | EBegun i n q | ENotBegun i n q _ => if i =? id then [(n, q)] else []
                     | _ => []
                     end) es.

(** A participant is in flight when one of its contributions is being handled. *)
Definition in_flight (s : server St Ch Pf) (id : nat) : bool :=
  existsb (fun t => task_id t =? id) (sv_tasks s).

(** Conditions on executions, checked before each action. *)
Section Guard.
Variable check_state : St -> bool.
Variable challenge : Ch -> St -> St -> Pf -> Ch.
Variable vt : Ch -> St -> St -> Pf -> bool.
Variable vsig : nat -> N -> msg St Pf -> Sig -> bool.
Variable limit : nat.

Fixpoint guarded (ok : server St Ch Pf -> action St Pf Sig -> bool) (s : server St Ch Pf)
    (l : list (action St Pf Sig)) : bool :=
  match l with
  | [] => true
  | a :: l' => ok s a && guarded ok (fst (step check_state challenge vt vsig limit s a)) l'
  end.
End Guard.

(** No participant sends a contribution while an earlier one of theirs is being handled. *)
Definition one_at_a_time (s : server St Ch Pf) (a : action St Pf Sig) : bool :=
  match a with ABegin q => negb (in_flight s (rq_id q)) | _ => true end.

(** No request arrives after the time limit while a contribution is being handled. *)
Definition in_time (limit : nat) (s : server St Ch Pf) (a : action St Pf Sig) : bool :=
  match a with
  | AQuery _ | ABegin _ =>
      match sv_tasks s with
      | [] => true
      | _ :: _ => sv_now s - lq_time (sv_lq s) <? limit
      end
  | _ => true
  end.

(** Every participant registered during the execution has normal priority. *)
Definition all_normal (recs : list (nat * part)) : Prop := Forall (fun e => p_prio (snd e) = 1) recs.
Definition loads_normal (l : list (action St Pf Sig)) : Prop :=
  Forall (fun a => match a with ALoad recs => all_normal recs | _ => True end) l.

(** The number of leading circuits of a contribution that are acceptable on their own. *)
Fixpoint good_prefix (good : Ch -> St -> St -> Pf -> bool) (chs : list Ch) (sts nexts : list St) (pfs : list Pf) : nat :=
  match chs, sts, nexts, pfs with
  | c :: chs', s :: sts', n :: nexts', p :: pfs' =>
      if good c s n p then S (good_prefix good chs' sts' nexts' pfs') else 0
  | _, _, _, _ => 0
  end.
End Spec.

(** The first record for [id]. *)
Fixpoint first_record (recs : list (option (nat * part))) (id : nat) : option part :=
  match recs with
  | [] => None
  | Some (k, p) :: recs' => if k =? id then Some p else first_record recs' id
  | None :: recs' => first_record recs' id
  end.
(** The distinct identifiers in the records that are not yet registered. *)
Definition new_ids (r : freg) (recs : list (option (nat * part))) : list nat :=
  nodup Nat.eq_dec
    (flat_map (fun e => match e with
                        | Some (k, _) => if existsb (fun e => fst e =? k) r then [] else [k]
                        | None => []
                        end) recs).

(** The condition of C44 for circuit [i]: every rejected contribution is rejected because
    of a wrong number of circuits or of circuit [i] or an earlier one. *)
Section Transcripts.
Context {St Ch Pf : Type}.
Variable check_state : St -> bool.
Variable challenge : Ch -> St -> St -> Pf -> Ch.
Variable vt : Ch -> St -> St -> Pf -> bool.
Fixpoint rejected_by (i : nat) (s : sclp St Ch Pf) (reqs : list (list St * list Pf)) : Prop :=
  match reqs with
  | [] => True
  | (n, p) :: reqs' =>
      let '(s1, err) := sclp_update check_state challenge vt s n p in
      (err = Some BadRequest ->
       good_prefix (fun c s n p => check_state n && vt c s n p) (c_chals s) (c_states s) n p <= i)
      /\ rejected_by i s1 reqs'
  end.
End Transcripts.

(** A contribution completed after [s]: the next round, with one proof, state and challenge
    per circuit. *)
Definition next_round {St Ch Pf} (s s' : sclp St Ch Pf) : Prop :=
  c_round s' = S (c_round s)
  /\ length (c_states s') = length (c_states s)
  /\ length (c_chals s') = length (c_states s)
  /\ exists pfs, c_proof s' = Some pfs /\ length pfs = length (c_states s).
(** A chain of completed contributions, with the registries saved after each. *)
Fixpoint chain {St Ch Pf} (s : sclp St Ch Pf) (hist : list (sclp St Ch Pf * registry)) : Prop :=
  match hist with [] => True | (s', _) :: hist' => next_round s s' /\ chain s' hist' end.
Definition last_round {St Ch Pf} (s : sclp St Ch Pf) (r : registry) (hist : list (sclp St Ch Pf * registry))
  : sclp St Ch Pf * registry := last hist (s, r).
