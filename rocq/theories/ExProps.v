(** Property C56: extending a tree by an iterator of digests. *)
From Coq Require Import List Arith Bool Lia.
From Verif Require Import MtModel MtSpec MtHist MtLemmas MtInner MtInv MtBatch MtFull MtSingle MtSettled MtTest
  PtModel PtSpec PtLeaf PtAgree PtSim PtPrune PtProps FkInv ExModel.
Import ListNotations.

(** What happens to a tree with [n] leaves that is extended by [k] digests, of which the
    iterator promises at most [upper]. *)
Inductive outcome := Refused | Taken | Stops.
Definition outcome_of (H n : nat) (upper : option nat) (k : nat) : outcome :=
  match upper with
  | None => Refused
  | Some m =>
      if 2 ^ (H - 1) <? n + m then Refused
      else if n + k =? 2 ^ (H - 1) then Stops else Taken
  end.

(** An iterator keeps its promise. *)
Definition honest {A} (upper : option nat) (ds : list A) : Prop :=
  forall m, upper = Some m -> length ds <= m.

(** Pushing one by one, all accepted. *)
Fixpoint all_pushed {T A} (push : T -> A -> option (T * bool)) (t : T) (ds : list A) : option T :=
  match ds with
  | [] => Some t
  | d :: r => match push t d with Some (t', true) => all_pushed push t' r | _ => None end
  end.

Section Generic.
Context {T LD : Type}.
Variable H : nat.
Variable len : T -> nat.
Variable full : T -> bool.
Variable push : T -> LD -> option (T * bool).
Variable Inv : T -> Prop.
Hypothesis inv_push : forall t d, Inv t -> len t < capacity H ->
  exists t', push t d = Some (t', true) /\ Inv t' /\ len t' = S (len t).
Hypothesis inv_full : forall t, Inv t -> full t = (capacity H <=? len t).

Lemma extend_loop_spec ds : forall t, Inv t -> len t + length ds <= capacity H ->
  exists t', all_pushed push t ds = Some t' /\ Inv t' /\ len t' = len t + length ds /\
    extend_loop full push t ds = if len t + length ds =? capacity H then None else Some t'.
Proof.
  induction ds as [|d ds IH]; intros t I Hc; cbn [length] in Hc; cbn [all_pushed extend_loop].
  - exists t. split; auto. split; auto. cbn [length]. split; [clear; lia|].
    rewrite inv_full by auto. rewrite Nat.add_0_r in *.
    destruct (Nat.leb_spec (capacity H) (len t)) as [A|A]; destruct (Nat.eqb_spec (len t) (capacity H)) as [B|B];
      auto; clear - A B Hc; lia.
  - destruct (inv_push t d I) as (t1 & E & I1 & L1); [clear - Hc; lia|]. rewrite E.
    destruct (IH t1 I1) as (t' & A & B & C & D); [clear - Hc L1; lia|]. exists t'. split; auto. split; auto.
    cbn [length]. split; [clear - C L1; lia|]. rewrite D.
    replace (len t1 + length ds) with (len t + S (length ds)) by (clear - L1; lia). reflexivity.
Qed.

Lemma extend_spec t upper ds : Inv t -> len t <= capacity H -> honest upper ds ->
  match outcome_of H (len t) upper (length ds) with
  | Refused => extend_digests H len full push t upper ds = Some (t, false)
  | Stops => extend_digests H len full push t upper ds = None
  | Taken => exists t', extend_digests H len full push t upper ds = Some (t', true) /\
      all_pushed push t ds = Some t' /\ Inv t' /\ len t' = len t + length ds
  end.
Proof.
  intros I Hc Hh. unfold outcome_of, extend_digests. destruct upper as [m|]; [|reflexivity].
  specialize (Hh m eq_refl). change (2 ^ (H - 1)) with (capacity H) in *.
  destruct (Nat.ltb_spec (capacity H) (len t + m)) as [A|A].
  - destruct (Nat.leb_spec m (capacity H - len t)) as [B|B]; [clear - A B Hc; lia|reflexivity].
  - destruct (Nat.leb_spec m (capacity H - len t)) as [B|B]; [|clear - A B Hc; lia].
    destruct (extend_loop_spec ds t I) as (t' & E1 & E2 & E3 & E4); [clear - A Hh; lia|].
    rewrite E4. destruct (len t + length ds =? capacity H); [reflexivity|]. exists t'. auto.
Qed.
End Generic.

Section Props.
Context {LD ID : Type}.
Variable dl : LD.
Variable di : ID.
Variable join : ID -> ID -> ID.
Variable joinl : LD -> LD -> ID.

Lemma all_pushed_full H ds : forall (t t' : full LD ID),
  all_pushed (fun t d => Some (full_push dl di join joinl H t d)) t ds = Some t' ->
  full_exec dl di join joinl H t (map TPush ds) = Some t'.
Proof.
  induction ds as [|d ds IH]; intros t t'; cbn [all_pushed map full_exec full_step]; auto.
  destruct (full_push dl di join joinl H t d) as [t1 []]; [|discriminate]. apply IH.
Qed.

Lemma all_pushed_single H ds : forall (t t' : single LD ID),
  all_pushed (single_push dl di join joinl H) t ds = Some t' -> single_exec dl di join joinl H t ds = Some t'.
Proof.
  induction ds as [|d ds IH]; intros t t'; cbn [all_pushed single_exec]; auto.
  destruct (single_push dl di join joinl H t d) as [[t1 []]|]; try discriminate. apply IH.
Qed.

(** C56, full trees: after every history, an iterator whose bound exceeds the room is
    refused and changes nothing; one that leaves some room has the effect of pushing its
    digests one by one; one that fills the tree exactly stops the program. *)
Theorem c56_full_extend_partial : forall H os upper ds, 2 <= H -> honest upper ds ->
  exists t, full_exec dl di join joinl H full_new os = Some t /\
  match outcome_of H (full_len t) upper (length ds) with
  | Refused => full_extend dl di join joinl H t upper ds = Some (t, false)
  | Stops => full_extend dl di join joinl H t upper ds = None
  | Taken => exists t', full_extend dl di join joinl H t upper ds = Some (t', true) /\
      full_exec dl di join joinl H full_new (os ++ map TPush ds) = Some t' /\
      f_leaves t' = f_leaves t ++ ds
  end.
Proof.
  intros H os upper ds HH Hh. destruct (exec_new dl di join joinl H HH os) as (t & E & A & W & _).
  exists t. split; auto.
  pose (Inv := fun t : full LD ID => full_weak dl di join joinl H t (f_leaves t)).
  assert (I : Inv t) by (unfold Inv; rewrite A; exact W).
  pose proof (extend_spec H full_len (fun t => capacity H <=? full_len t) (fun t d => Some (full_push dl di join joinl H t d)) Inv) as X.
  specialize (X ltac:(intros t0 d I0 L0; destruct (full_push_cases dl di join joinl H HH t0 _ d I0) as [(C1 & C2 & C3)|(C1 & C2)];
     [|unfold full_len in L0; lia];
     destruct (full_push dl di join joinl H t0 d) as [t1 b] eqn:EQ; cbn [fst snd] in C2, C3; subst b;
     exists t1; split; [reflexivity|]; assert (EL : f_leaves t1 = f_leaves t0 ++ [d]) by apply C3;
     split; [unfold Inv; rewrite EL; apply full_strong_weak; exact C3|]; unfold full_len; rewrite EL, app_length; cbn [length]; lia)).
  specialize (X ltac:(reflexivity)).
  specialize (X t upper ds I ltac:(apply I) Hh). unfold full_extend.
  destruct (outcome_of H (full_len t) upper (length ds)); auto.
  destruct X as (t' & X1 & X2 & X3 & X4). exists t'. split; auto. apply all_pushed_full in X2.
  split. { rewrite full_exec_app, E. exact X2. }
  destruct (full_exec_weak dl di join joinl H HH (map TPush ds) t _ I) as (t2 & Y1 & Y2).
  rewrite X2 in Y1. injection Y1 as <-. destruct Y2 as (Y2 & _). rewrite Y2, offered_pushes.
  apply firstn_all2. rewrite app_length. unfold full_len in X4.
  destruct X3 as (_ & X3 & _). rewrite X4 in X3. exact X3.
Qed.

(** The same for single-path trees. *)
Theorem c56_single_extend_partial : forall H l upper ds, 2 <= H -> honest upper ds ->
  exists t, single_exec dl di join joinl H (single_new dl di) l = Some t /\
  match outcome_of H (single_len t) upper (length ds) with
  | Refused => single_extend dl di join joinl H t upper ds = Some (t, false)
  | Stops => single_extend dl di join joinl H t upper ds = None
  | Taken => exists t', single_extend dl di join joinl H t upper ds = Some (t', true) /\
      single_exec dl di join joinl H t ds = Some t' /\ single_len t' = single_len t + length ds
  end.
Proof.
  intros H l upper ds HH Hh.
  destruct (single_exec_ok dl di join joinl H HH l _ _ (single_new_ok dl di join joinl H HH)) as (t & E & W).
  exists t. split; auto.
  pose (Inv := fun t : single LD ID => exists k, single_ok dl di join joinl H t k).
  assert (I : Inv t) by (eexists; exact W).
  assert (LEN : forall t k, single_ok dl di join joinl H t k -> single_len t = length k).
  { intros t0 k (_ & _ & S0). unfold single_len. destruct k as [|y k]; destruct S0 as [S1 S2]; rewrite S1; auto.
    rewrite S2. cbn [c_index length]. lia. }
  pose proof (extend_spec H single_len (fun t => match single_length_state H t with SFull => true | _ => false end)
    (single_push dl di join joinl H) Inv) as X.
  specialize (X ltac:(intros t0 d [k I0] L0; rewrite (LEN _ _ I0) in *;
     destruct (single_push_cases dl di join joinl H HH t0 _ d I0) as [(C1 & t1 & C2 & C3)|(C1 & C2)]; [|lia];
     exists t1; split; [exact C2|]; split; [eexists; exact C3|]; rewrite (LEN _ _ C3), app_length; cbn [length]; lia)).
  assert (F : forall t0, Inv t0 -> match single_length_state H t0 with SFull => true | _ => false end = (capacity H <=? single_len t0)).
  { intros t0 [k I0]. rewrite (LEN _ _ I0). destruct I0 as (C & _ & S0). unfold single_length_state.
    pose proof (pow2_pos (H - 1)) as Pc. fold (capacity H) in Pc.
    destruct k as [|y k]; destruct S0 as [S1 S2]; rewrite S1; cbn [length].
    - destruct (Nat.leb_spec (capacity H) 0); [lia|reflexivity].
    - rewrite S2. cbn [c_index length]. destruct (Nat.ltb_spec (S (length k) - 1) (capacity H - 1));
      destruct (Nat.leb_spec (capacity H) (S (length k))); auto; lia. }
  specialize (X F t upper ds I).
  specialize (X ltac:(rewrite (LEN _ _ W); apply W) Hh). unfold single_extend.
  destruct (outcome_of H (single_len t) upper (length ds)); auto.
  destruct X as (t' & X1 & X2 & X3 & X4). exists t'. split; auto. apply all_pushed_single in X2. auto.
Qed.

Notation pt_step := (pt_step dl di join joinl).

Lemma all_pushed_np H chk ds : forall (t t' : partial LD ID),
  all_pushed (fun t d => Some (pt_push_np dl di join joinl H t d)) t ds = Some t' ->
  run (pt_step H chk) t (map PPushNp ds) = Some (t', map (fun _ => true) ds).
Proof.
  induction ds as [|d ds IH]; intros t t'; cbn [all_pushed map run].
  - intro E. injection E as <-. reflexivity.
  - unfold PtSpec.pt_step at 1. destruct (pt_push_np dl di join joinl H t d) as [t1 []]; [|discriminate].
    intro E. rewrite (IH _ _ E). reflexivity.
Qed.

(** The same for partial trees: the digests are pushed without being kept provable. *)
Theorem c56_partial_extend_partial : forall H chk os upper ds, 2 <= H -> honest upper ds ->
  exists t bs, run (pt_step H chk) pt_new os = Some (t, bs) /\
  match outcome_of H (pt_len t) upper (length ds) with
  | Refused => partial_extend dl di join joinl H t upper ds = Some (t, false)
  | Stops => partial_extend dl di join joinl H t upper ds = None
  | Taken => exists t', partial_extend dl di join joinl H t upper ds = Some (t', true) /\
      run (pt_step H chk) t (map PPushNp ds) = Some (t', map (fun _ => true) ds) /\
      pt_len t' = pt_len t + length ds
  end.
Proof.
  intros H chk os upper ds HH Hh.
  destruct (run_new dl di join joinl H HH chk os) as (t & f & bs & l & E & _ & _ & SM & W & M).
  exists t, bs. split; auto.
  pose (Inv := fun t : partial LD ID => exists f l ms, Sim di H true t f /\ full_weak dl di join joinl H f l /\ marks_ok (pt_lm t) ms).
  assert (I : Inv t) by (exists f, l; eexists; split; [exact SM|split; [exact W|exact M]]).
  assert (LEN : forall (t : partial LD ID) (f : full LD ID), Sim di H true t f -> pt_len t = full_len f).
  { intros t0 f0 S0. apply (sim_len dl di join joinl H true). exact S0. }
  pose proof (extend_spec H pt_len (fun t => capacity H <=? pt_len t) (fun t d => Some (pt_push_np dl di join joinl H t d)) Inv) as X.
  assert (P : forall t0 d, Inv t0 -> pt_len t0 < capacity H -> exists t', Some (pt_push_np dl di join joinl H t0 d) = Some (t', true) /\ Inv t' /\ pt_len t' = S (pt_len t0)).
  { intros t0 d (f0 & l0 & ms & S0 & W0 & M0) L0.
    destruct (step_sim dl di join joinl H HH chk (PPushNp d) t0 f0 ms l0 S0 W0 M0) as (t1 & f1 & b & l1 & E1 & E2 & E3 & S1 & W1 & M1).
    unfold PtSpec.pt_step in E1. unfold ref_step in E2. rewrite (LEN _ _ S0) in L0.
    assert (W0' := W0). destruct W0' as (A0 & _).
    destruct (full_push_cases dl di join joinl H HH f0 _ d W0) as [(C1 & C2 & C3)|(C1 & C2)].
    2:{ unfold full_len in L0. rewrite A0 in L0. lia. }
    injection E2 as E2. rewrite E2 in C2, C3. cbn [fst snd] in C2, C3. subst b.
    exists t1. split; [exact E1|]. split; [exists f1, l1; eexists; eauto|].
    rewrite (LEN _ _ S1), (LEN _ _ S0). unfold full_len. destruct C3 as (C3 & _). rewrite C3, A0, app_length. cbn [length]. lia. }
  specialize (X P ltac:(reflexivity) t upper ds I).
  specialize (X ltac:(rewrite (LEN _ _ SM); unfold full_len; destruct W as (A & B & _); rewrite A; exact B) Hh).
  unfold partial_extend.
  destruct (outcome_of H (pt_len t) upper (length ds)); auto.
  destruct X as (t' & X1 & X2 & X3 & X4). exists t'. split; auto. split; auto. apply all_pushed_np. exact X2.
Qed.

(** C56: a new tree from an iterator; [None] is the answer exactly when the bound is missing
    or exceeds the capacity. *)
Theorem c56_from_iter_partial : forall H chk upper ds, 2 <= H -> honest upper ds ->
  match outcome_of H 0 upper (length ds) with
  | Refused => full_from_iter dl di join joinl H upper ds = Some None /\
      single_from_iter dl di join joinl H upper ds = Some None /\
      partial_from_iter dl di join joinl H upper ds = Some None
  | Stops => full_from_iter dl di join joinl H upper ds = None /\
      single_from_iter dl di join joinl H upper ds = None /\
      partial_from_iter dl di join joinl H upper ds = None
  | Taken => exists t u v, full_from_iter dl di join joinl H upper ds = Some (Some t) /\
      full_exec dl di join joinl H full_new (map TPush ds) = Some t /\
      single_from_iter dl di join joinl H upper ds = Some (Some u) /\
      single_exec dl di join joinl H (single_new dl di) ds = Some u /\
      partial_from_iter dl di join joinl H upper ds = Some (Some v) /\
      run (pt_step H chk) pt_new (map PPushNp ds) = Some (v, map (fun _ => true) ds)
  end.
Proof.
  intros H chk upper ds HH Hh.
  destruct (c56_full_extend_partial H [] upper ds HH Hh) as (t & E & A). cbn in E. injection E as <-.
  destruct (c56_single_extend_partial H [] upper ds HH Hh) as (u & E & B). cbn in E. injection E as <-.
  destruct (c56_partial_extend_partial H chk [] upper ds HH Hh) as (v & bs & E & C). cbn in E. injection E as <- <-.
  unfold full_from_iter, single_from_iter, partial_from_iter, tree_from_iter.
  fold (full_extend dl di join joinl H). fold (single_extend dl di join joinl H). fold (partial_extend dl di join joinl H).
  change (full_len full_new) with 0 in A. change (single_len (single_new dl di)) with 0 in B. change (pt_len pt_new) with 0 in C.
  destruct (outcome_of H 0 upper (length ds)).
  - rewrite A, B, C. auto.
  - destruct A as (t & A1 & A2 & _). destruct B as (u & B1 & B2 & _). destruct C as (v & C1 & C2 & _).
    rewrite A1, B1, C1. exists t, u, v. auto 10.
  - rewrite A, B, C. auto.
Qed.

(** The extension used by merging a fork (PtModel) is the same function on a list. *)
Lemma pt_extend_same H (t : partial LD ID) ds :
  pt_extend dl di join joinl H t ds =
  match partial_extend dl di join joinl H t (Some (length ds)) ds with
  | None => None
  | Some (t', b) => Some (if b then Some t' else None)
  end.
Proof.
  unfold pt_extend, partial_extend, extend_digests.
  assert (E : forall ds t, pt_extend_np_loop dl di join joinl H t ds =
    extend_loop (fun t => capacity H <=? pt_len t) (fun t d => Some (pt_push_np dl di join joinl H t d)) t ds).
  { clear. induction ds as [|d ds IH]; intro t; cbn [pt_extend_np_loop extend_loop]; [reflexivity|].
    destruct (pt_push_np dl di join joinl H t d) as [t' []]; [apply IH|reflexivity]. }
  rewrite E. destruct (length ds <=? _); auto. destruct (extend_loop _ _ t ds); auto.
Qed.
End Props.

(** C56, refutation: [from_slice] with exactly as many leaves as a tree holds stops the
    program for each kind of tree, while pushing the same leaves succeeds; and on a full tree
    even an empty extension does. *)
Theorem c56_exact_capacity_refuted : exists H (ds : list nat), 2 <= H /\ length ds = 2 ^ (H - 1) /\
  full_from_iter 0 D0 DJ DL H (Some (length ds)) ds = None /\
  single_extend 0 D0 DJ DL H (single_new 0 D0) (Some (length ds)) ds = None /\
  partial_extend 0 D0 DJ DL H pt_new (Some (length ds)) ds = None /\
  (exists t, full_exec 0 D0 DJ DL H full_new (map TPush ds) = Some t /\ f_leaves t = ds /\
     full_extend 0 D0 DJ DL H t (Some 0) [] = None).
Proof.
  exists 3, [1; 2; 3; 4]. split; [lia|]. split; [reflexivity|]. split; [reflexivity|].
  split; [reflexivity|]. split; [reflexivity|]. eexists. repeat split.
Qed.

(** An iterator with a loose bound is refused though its digests fit. *)
Theorem c56_loose_bound_refuted : exists H (t : full nat dig) upper ds, 2 <= H /\ honest upper ds /\
  full_exec 0 D0 DJ DL H full_new [TPush 7] = Some t /\ full_len t + length ds < 2 ^ (H - 1) /\
  full_extend 0 D0 DJ DL H t upper ds = Some (t, false).
Proof.
  exists 3. eexists. exists (Some 4), [1]. split; [lia|]. split. { intros m E. injection E as <-. cbn; lia. }
  split; [reflexivity|]. split; [vm_compute; lia|reflexivity].
Qed.

(** Non-vacuity: a taken, a refused and a stopping extension of a tree with one leaf. *)
Example ex_c56 : outcome_of 3 1 (Some 2) 2 = Taken /\ outcome_of 3 1 (Some 4) 4 = Refused /\ outcome_of 3 1 (Some 3) 3 = Stops.
Proof. repeat split. Qed.
Example ex_c56_full : exists t, full_exec 0 D0 DJ DL 3 full_new [TPush 7] = Some t /\
  option_map (fun x => f_leaves (fst x)) (full_extend 0 D0 DJ DL 3 t (Some 2) [1; 2]) = Some [7; 1; 2].
Proof. eexists. split; reflexivity. Qed.
Example ex_c56_single : exists t, single_exec 0 D0 DJ DL 3 (single_new 0 D0) [7] = Some t /\
  option_map (fun x => s_root (fst x)) (single_extend 0 D0 DJ DL 3 t (Some 2) [1; 2]) = Some (DJ (DL 7 1) (DL 2 0)).
Proof. eexists. split; reflexivity. Qed.
Example ex_c56_partial : exists t bs, run (PtSpec.pt_step 0 D0 DJ DL 3 true) pt_new [PPush 7] = Some (t, bs) /\
  option_map (fun x => pt_root D0 (fst x)) (partial_extend 0 D0 DJ DL 3 t (Some 2) [1; 2]) = Some (DJ (DL 7 1) (DL 2 0)).
Proof. eexists _, _. split; reflexivity. Qed.
Print Assumptions c56_full_extend_partial.
Print Assumptions c56_single_extend_partial.
Print Assumptions c56_partial_extend_partial.
Example ex_c56_from_iter : outcome_of 3 0 (Some 3) 3 = Taken /\ outcome_of 3 0 None 1 = Refused /\ outcome_of 3 0 (Some 4) 4 = Stops /\
  option_map (option_map (@f_leaves nat dig)) (full_from_iter 0 D0 DJ DL 3 (Some 3) [1; 2; 3]) = Some (Some [1; 2; 3]).
Proof. repeat split. Qed.
Print Assumptions c56_from_iter_partial.
Print Assumptions c56_exact_capacity_refuted.
Print Assumptions c56_loose_bound_refuted.
