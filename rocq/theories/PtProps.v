(** Property C06: partial trees. *)
From Coq Require Import List Arith Bool Lia.
From Verif Require Import MtModel MtSpec MtHist MtLemmas MtInner MtInv MtBatch MtFull MtSingle MtSettled MtTest
  PtModel PtSpec PtLeaf PtAgree PtSim PtPrune.
Import ListNotations.

Ltac conjs := repeat match goal with |- _ /\ _ => split end; auto.

Lemma nth_error_ext {A} : forall l l' : list A, (forall i, nth_error l i = nth_error l' i) -> l = l'.
Proof.
  induction l as [|a l IH]; intros [|b l'] E; auto.
  - specialize (E 0). discriminate.
  - specialize (E 0). discriminate.
  - pose proof (E 0) as E0. injection E0 as ->. f_equal. apply IH. intro i. apply (E (S i)).
Qed.

Lemma mark_at_nth (ms : list bool) i j :
  nth_error (firstn i ms ++ match skipn i ms with [] => [] | _ :: r => true :: r end) j =
  if Nat.eqb j i then option_map (fun _ => true) (nth_error ms j) else nth_error ms j.
Proof.
  revert i j. induction ms as [|a ms IH]; intros i j.
  - rewrite firstn_nil, skipn_nil. cbn. destruct j, i; cbn; auto. destruct (Nat.eqb _ _); auto.
  - destruct i as [|i]; cbn [firstn skipn app]; destruct j as [|j]; auto. cbn [nth_error Nat.eqb]. apply IH.
Qed.

Lemma mark_at_length (ms : list bool) i :
  length (firstn i ms ++ match skipn i ms with [] => [] | _ :: r => true :: r end) = length ms.
Proof.
  revert i. induction ms as [|a ms IH]; intros [|i]; cbn [firstn skipn app length]; auto.
Qed.

Section Props.
Context {LD ID : Type}.
Variable dl : LD.
Variable di : ID.
Variable join : ID -> ID -> ID.
Variable joinl : LD -> LD -> ID.
Variable H : nat.
Hypothesis HH : 2 <= H.

Notation pt_step := (pt_step dl di join joinl H).
Notation ref_step := (ref_step dl di join joinl H).
Notation full_exec := (full_exec dl di join joinl H).
Notation Sim := (Sim di H).
Notation full_weak := (full_weak dl di join joinl H).

(** The marks of the tree are the leaves given up. *)
Definition marks_ok (lm : lmap LD) (ms : list bool) : Prop :=
  length lm = length ms /\
  forall i, match nth_error lm i with
            | Some (Some (b, _)) => nth_error ms i = Some b
            | Some None => nth_error ms i = Some true
            | None => True
            end.

Lemma marks_append lm ms (xs : list LD) (b : bool) :
  marks_ok lm ms ->
  marks_ok (lm ++ map (fun x => Some (b, x)) xs) (ms ++ map (fun _ => b) xs).
Proof.
  intros [A B]. split; [rewrite !app_length, !map_length; lia|].
  intro i. destruct (Nat.lt_ge_cases i (length lm)) as [C|C].
  - rewrite !nth_error_app1 by lia. apply B.
  - rewrite !nth_error_app2 by lia. rewrite A. rewrite !nth_error_map.
    destruct (nth_error xs (i - length ms)); cbn [option_map]; auto.
Qed.

Lemma pt_batch_lm t ds t' o : pt_batch dl di join joinl H t ds = Some (t', o) ->
  pt_lm t' = pt_lm t ++ map (fun x => Some (false, x)) (firstn (capacity H - pt_len t) ds) /\
  match o with Some (_, n) => n = length (firstn (capacity H - pt_len t) ds)
  | None => ds = [] end.
Proof.
  unfold pt_batch. destruct ds as [|d0 ds0].
  { intro E. injection E as <- <-. rewrite firstn_nil. cbn. now rewrite app_nil_r. }
  remember (d0 :: ds0) as ds. cbv zeta.
  assert (BL : forall r xs u, pt_batch_leaves dl di join joinl H t r xs = Some u ->
    pt_lm u = pt_lm t ++ map (fun x => Some (false, x)) xs).
  { intros r xs u. unfold pt_batch_leaves.
    destruct (range_join_leaves _ _ _ _ _); [|discriminate].
    destruct (inner_batch_insert _ _ _ _ _ _); [|discriminate].
    intro E. injection E as <-. cbn [pt_lm]. apply lm_extend_eq. }
  destruct (Nat.ltb_spec (capacity H) (pt_len t + length ds)) as [C|C].
  - destruct (Nat.eqb_spec (capacity H - pt_len t) 0) as [Z|Z].
    + intro E. injection E as <- <-. rewrite Z. cbn. now rewrite app_nil_r.
    + destruct (pt_batch_leaves _ _ _ _ _ _ _ _) eqn:B; [|discriminate].
      intro E. injection E as <- <-. split; [eapply BL; eauto|]. rewrite firstn_length. lia.
  - destruct (pt_batch_leaves _ _ _ _ _ _ _ _) eqn:B; [|discriminate].
    intro E. injection E as <- <-. rewrite firstn_all2 by lia. split; auto. eapply BL; eauto.
Qed.

Lemma marks_lm n : forall s (t : partial LD ID),
  pt_lm (fold_left pt_mark (seq s n) t) = fold_left lm_mark (seq s n) (pt_lm t).
Proof. induction n; intros s t; cbn [seq fold_left]; auto. rewrite IHn. reflexivity. Qed.

Lemma marks_all (lm : lmap LD) xs :
  fold_left lm_mark (seq (length lm) (length xs)) (lm ++ map (fun x => Some (false, x)) xs) =
  lm ++ map (fun x => Some (true, x)) xs.
Proof.
  apply nth_error_ext. intro j. rewrite marks_nth.
  destruct (Nat.leb_spec (length lm) j), (Nat.ltb_spec j (length lm + length xs)); cbn [andb].
  - rewrite !nth_error_app2, !nth_error_map by lia. destruct (nth_error xs (j - length lm)); reflexivity.
  - transitivity (@None (option (bool * LD))); [|symmetry];
    apply nth_error_None; rewrite app_length, map_length; lia.
  - rewrite !nth_error_app1 by lia. auto.
  - lia.
Qed.

Lemma step_sim {td} chk o t f ms l : Sim td t f -> full_weak f l -> marks_ok (pt_lm t) ms ->
  exists t' f' b l', pt_step chk t o = Some (t', b) /\ ref_step f o = Some (f', b) /\
    full_exec f (pop_top o) = Some f' /\
    Sim td t' f' /\ full_weak f' l' /\ marks_ok (pt_lm t') (give_up H ms o).
Proof.
  intros SM W M.
  assert (CAP : full_len f <= capacity H) by (destruct W as (<- & W & _); exact W).
  pose proof (full_exec_weak dl di join joinl H HH (pop_top o) f l W) as (f' & EF & W').
  pose proof (sim_len dl di join joinl H _ _ _ SM) as EL.
  assert (ELM : length (pt_lm t) = full_len f) by apply (sim_length _ _ _ _ _ SM).
  assert (EMS : length ms = full_len f) by (rewrite <- ELM; symmetry; apply M).
  assert (G : forall d b0, marks_ok (pt_lm (fst (if b0 : bool then pt_push_np dl di join joinl H t d
                                    else pt_push dl di join joinl H t d)))
     (ms ++ firstn (2 ^ (H - 1) - length ms) [b0])).
  { intros d b0. unfold pt_push_np. unfold pt_push. rewrite EL, EMS. fold (capacity H).
    rewrite (sim_start _ _ _ _ _ SM), Nat.sub_0_r.
    destruct (Nat.leb_spec (capacity H) (full_len f)) as [C|C].
    - replace (capacity H - full_len f) with 0 by lia. cbn [firstn]. rewrite app_nil_r.
      destruct b0; cbn [fst]; auto. unfold pt_mark. cbn [pt_lm].
      replace (lm_mark (pt_lm t) (full_len f)) with (pt_lm t); auto.
      apply nth_error_ext. intro j. rewrite lm_mark_nth. destruct (Nat.eqb_spec j (full_len f)) as [->|]; auto.
      replace (nth_error (pt_lm t) (full_len f)) with (@None (option (bool * LD))); auto.
      symmetry. apply nth_error_None. lia.
    - rewrite firstn_all2 by (cbn [length]; lia).
      pose proof (marks_append (pt_lm t) ms [d] b0 M) as A. cbn [map] in A.
      destruct b0; cbn [fst]; unfold pt_mark, pt_push_leaf; cbn [pt_lm]; [|exact A].
      pose proof (marks_all (pt_lm t) [d]) as MA. cbn [length seq fold_left map] in MA. rewrite ELM in MA.
      unfold lm_push. rewrite MA. exact A. }
  assert (GB : forall ds t' o', pt_batch dl di join joinl H t ds = Some (t', o') ->
     marks_ok (pt_lm t') (ms ++ firstn (2 ^ (H - 1) - length ms) (map (fun _ => false) ds)) /\
     marks_ok (pt_lm (match o' with Some (_, n) => fold_left pt_mark (seq (pt_len t - pt_start t) n) t' | None => t' end))
       (ms ++ firstn (2 ^ (H - 1) - length ms) (map (fun _ => true) ds))).
  { intros ds t' o' E. apply pt_batch_lm in E. destruct E as [E1 E2]. rewrite EL in E1, E2.
    rewrite EMS. fold (capacity H). rewrite !firstn_map. split.
    - rewrite E1. apply marks_append; auto.
    - destruct o' as [[b n]|].
      + rewrite marks_lm, E1, E2, EL, (sim_start _ _ _ _ _ SM), Nat.sub_0_r, <- ELM, marks_all.
        apply marks_append; auto.
      + rewrite E1, E2, firstn_nil. cbn [map]. rewrite !app_nil_r. auto. }
  destruct o as [d|d|ds|ds|i|]; cbn [pt_step ref_step pop_top] in *;
    unfold PtSpec.pt_step, PtSpec.ref_step.
  - destruct (sim_push dl di join joinl H td t f d SM) as [S1 S2].
    specialize (G d false). cbn [fst] in G.
    destruct (pt_push dl di join joinl H t d) as [t' b].
    pose proof EF as EF0. cbn [MtHist.full_exec full_step] in EF.
    destruct (full_push dl di join joinl H f d) as [f1 b1]. cbn [fst snd] in *. subst b1.
    injection EF as <-. exists t', f1, b, (firstn (capacity H) (l ++ offered [TPush d])).
    conjs.
  - destruct (sim_push_np dl di join joinl H td t f d SM) as [S1 S2].
    specialize (G d true). cbn [fst] in G.
    destruct (pt_push_np dl di join joinl H t d) as [t' b].
    pose proof EF as EF0. cbn [MtHist.full_exec full_step] in EF.
    destruct (full_push dl di join joinl H f d) as [f1 b1]. cbn [fst snd] in *. subst b1.
    injection EF as <-. exists t', f1, b, (firstn (capacity H) (l ++ offered [TPush d])).
    conjs.
  - destruct (sim_batch_push dl di join joinl H td t f ds SM) as (t' & f1 & b & E1 & E2 & S1).
    pose proof EF as EF0. cbn [MtHist.full_exec full_step] in EF. rewrite E2 in EF. injection EF as <-.
    exists t', f1, b, (firstn (capacity H) (l ++ offered [TBatch ds])).
    split; [now auto|]. split; [now auto|]. split; [now auto|]. split; [|split; [now auto|]].
    + auto.
    + unfold pt_batch_push in E1. destruct (pt_batch _ _ _ _ _ _ _) as [[u o']|] eqn:EB; [|discriminate].
      destruct (GB _ _ _ EB) as [GA _]. destruct o' as [[]|]; injection E1 as <- <-; exact GA.
  - destruct (sim_batch_push_np dl di join joinl H td t f ds SM) as (t' & f1 & b & E1 & E2 & S1).
    pose proof EF as EF0. cbn [MtHist.full_exec full_step] in EF. rewrite E2 in EF. injection EF as <-.
    exists t', f1, b, (firstn (capacity H) (l ++ offered [TBatch ds])).
    split; [now auto|]. split; [now auto|]. split; [now auto|]. split; [|split; [now auto|]].
    + auto.
    + unfold pt_batch_push_np in E1. destruct (pt_batch _ _ _ _ _ _ _) as [[u o']|] eqn:EB; [|discriminate].
      destruct (GB _ _ _ EB) as [_ GA]. destruct o' as [[]|]; injection E1 as <- <-; exact GA.
  - cbn [MtHist.full_exec] in EF. injection EF as <-.
    assert (E : pt_remove_path chk t i = Some (if i <? full_len f then pt_mark t i else t, i <? full_len f)).
    { unfold pt_remove_path. rewrite (sim_start _ _ _ _ _ SM), Nat.sub_0_r.
      destruct (Nat.ltb_spec i 0); [lia|]. unfold lm_current. rewrite ELM.
      destruct (full_len f) as [|c]; auto. destruct (Nat.leb_spec i c), (Nat.ltb_spec i (S c)); auto; lia. }
    rewrite E. do 4 eexists. split; [reflexivity|]. split; [reflexivity|]. split; auto.
    split. { destruct (i <? full_len f); auto. apply sim_mark; auto. }
    split; [exact W|].
    assert (MK : forall j, marks_ok (lm_mark (pt_lm t) j) (give_up H ms (PRemove (LD:=LD) j))).
    { intros j. cbn [give_up]. destruct M as [M1 M2].
      split; [rewrite lm_mark_length, mark_at_length; auto|].
      intro q. specialize (M2 q). rewrite lm_mark_nth, mark_at_nth.
      destruct (Nat.eqb q j); [|exact M2].
      destruct (nth_error (pt_lm t) q) as [[[b x]|]|]; rewrite ?M2; auto. }
    destruct (Nat.ltb_spec i (full_len f)); [apply MK|].
    replace (pt_lm t) with (lm_mark (pt_lm t) i); [apply MK|].
    apply nth_error_ext. intro j. rewrite lm_mark_nth. destruct (Nat.eqb_spec j i) as [->|]; auto.
    replace (nth_error (pt_lm t) i) with (@None (option (bool * LD))); auto.
    symmetry. apply nth_error_None. lia.
  - cbn [MtHist.full_exec] in EF. injection EF as <-.
    destruct (sim_prune di H td t f CAP SM) as (S1 & S2 & S3 & S4).
    do 4 eexists. split; [reflexivity|]. split; [reflexivity|]. split; auto.
    split; [destruct td; [exact S1|apply sim_weaken; exact S1]|]. split; [exact W|].
    cbn [give_up]. pose proof (sim_length _ _ _ _ _ S1) as EL1. split; [unfold full_len in *; lia|].
    intro j. destruct M as [M1 M2]. specialize (M2 j). destruct (S3 j) as [E|E]; rewrite E; auto.
    destruct (nth_error (pt_lm t) j) as [[[[|] x]|]|] eqn:F; auto.
    + exfalso. rewrite S4 in E by (left; unfold alive; destruct (lm_mor (pt_lm t) j) eqn:Q; auto;
        apply lm_mor_iff in Q; destruct Q as [_ [Q|[y Q]]]; congruence). congruence.
    + apply nth_error_None in F. assert (j < length (pt_lm (pt_prune H t))) by (apply nth_error_Some; congruence).
      unfold full_len in *. lia.
Qed.

Lemma run_sim {td} chk os : forall t f ms l, Sim td t f -> full_weak f l -> marks_ok (pt_lm t) ms ->
  exists t' f' bs l', run (pt_step chk) t os = Some (t', bs) /\ run ref_step f os = Some (f', bs) /\
    full_exec f (inserts os) = Some f' /\
    Sim td t' f' /\ full_weak f' l' /\ marks_ok (pt_lm t') (fold_left (give_up H) os ms).
Proof.
  induction os as [|o os IH]; intros t f ms l SM W M.
  - exists t, f, [], l. conjs.
  - destruct (step_sim chk o t f ms l SM W M) as (t1 & f1 & b & l1 & E1 & E2 & E3 & S1 & W1 & M1).
    destruct (IH t1 f1 _ l1 S1 W1 M1) as (t2 & f2 & bs & l2 & F1 & F2 & F3 & S2 & W2 & M2).
    exists t2, f2, (b :: bs), l2. cbn [run]. rewrite E1, F1, E2, F2.
    split; auto. split; auto. split; [|auto].
    unfold inserts in *. cbn [flat_map].
    assert (AP : forall a b (g : full LD ID), full_exec g (a ++ b) =
       match full_exec g a with Some g' => full_exec g' b | None => None end).
    { clear. induction a as [|x a IHa]; intros b g; auto. cbn [app MtHist.full_exec].
      destruct (full_step dl di join joinl H g x); auto. }
    rewrite AP, E3. exact F3.
Qed.

Lemma run_new chk os :
  exists t f bs l, run (pt_step chk) pt_new os = Some (t, bs) /\ run ref_step full_new os = Some (f, bs) /\
    full_exec full_new (inserts os) = Some f /\
    Sim true t f /\ full_weak f l /\ marks_ok (pt_lm t) (given_up H os).
Proof.
  apply (run_sim chk os pt_new full_new [] []).
  - apply sim_new.
  - destruct (exec_new dl di join joinl H HH []) as (f & E & _ & W & _).
    cbn [MtHist.full_exec] in E. injection E as <-. cbn [offered flat_map] in W. rewrite firstn_nil in W. exact W.
  - split; auto. intros [|i]; exact I.
Qed.

Lemma unmarked_alive lm ms i : marks_ok lm ms -> nth_error ms i = Some false ->
  alive lm i /\ exists x, nth_error lm i = Some (Some (false, x)).
Proof.
  intros [A B] E. specialize (B i).
  assert (i < length lm) by (rewrite A; apply nth_error_Some; congruence).
  destruct (nth_error lm i) as [[[b x]|]|] eqn:F.
  - rewrite E in B. injection B as <-. split; [|eauto].
    unfold alive. destruct (lm_mor lm i) eqn:Q; auto. apply lm_mor_iff in Q. destruct Q as [_ [Q|[y Q]]]; congruence.
  - congruence.
  - apply nth_error_None in F. lia.
Qed.

(** C06. For every interleaving of insertions, proof removals and prunes the partial tree
    gives the results, the length, the root and the current path of the full tree that was
    fed with the same insertions and never marked or pruned; every leaf that was not given up
    is stored and has the same proof. *)
Theorem c06_partial_follows_full : forall (ideqb : ID -> ID -> bool) chk os,
  exists t f bs,
    run (pt_step chk) pt_new os = Some (t, bs) /\ run ref_step full_new os = Some (f, bs) /\
    full_exec full_new (inserts os) = Some f /\
    pt_len t = full_len f /\ pt_root di t = full_root di f /\
    pt_current_path dl di ideqb H t = full_current_path dl di ideqb H f /\
    length (given_up H os) = full_len f /\
    forall i, nth_error (given_up H os) i = Some false ->
      pt_leaf_digest chk t i = Some (nth_error (f_leaves f) i) /\
      pt_path dl di H t i = full_path dl di H f i.
Proof.
  intros ideqb chk os. destruct (run_new chk os) as (t & f & bs & l & E1 & E2 & E3 & SM & W & M).
  assert (CAP : full_len f <= capacity H) by (destruct W as (<- & W & _); exact W).
  exists t, f, bs. split; auto. split; auto. split; auto.
  split; [eapply (sim_len dl di join joinl); eauto|]. split; [eapply sim_root_eq; eauto|].
  split; [eapply (sim_current_path dl di join joinl); eauto|].
  split. { rewrite <- (proj1 M). apply (sim_length _ _ _ _ _ SM). }
  intros i Hi. destruct (unmarked_alive _ _ _ M Hi) as [A [x F]]. split.
  - unfold pt_leaf_digest. rewrite (sim_start _ _ _ _ _ SM), Nat.sub_0_r.
    destruct (Nat.ltb_spec i 0); [lia|]. f_equal. unfold lm_get, lm_entry. rewrite F. cbn.
    symmetry. apply (proj2 (sim_leaf _ _ _ _ _ SM)) in F. exact F.
  - apply (sim_path dl di join joinl H true); auto. apply alive_liv; auto. apply SM.
Qed.

(** C06. Looking a digest up finds a place that holds it, whose proof is the one of the full
    tree; a digest whose leaf was not given up is found. *)
Theorem c06_position_is_provable : forall (ldeqb : LD -> LD -> bool) chk os,
  (forall a b, ldeqb a b = true <-> a = b) ->
  exists t f bs,
    run (pt_step chk) pt_new os = Some (t, bs) /\ full_exec full_new (inserts os) = Some f /\
    (forall d i, pt_position ldeqb t d = Some i ->
       nth_error (f_leaves f) i = Some d /\ pt_path dl di H t i = full_path dl di H f i) /\
    (forall d i, nth_error (given_up H os) i = Some false -> nth_error (f_leaves f) i = Some d ->
       exists j, pt_position ldeqb t d = Some j).
Proof.
  intros ldeqb chk os LE. destruct (run_new chk os) as (t & f & bs & l & E1 & E2 & E3 & SM & W & M).
  assert (CAP : full_len f <= capacity H) by (destruct W as (<- & W & _); exact W).
  exists t, f, bs. split; auto. split; auto. split.
  - intros d i. unfold pt_position, lm_position.
    destruct (find_pos _ _) as [j|] eqn:E; [|discriminate]. intro Q. cbn in Q. injection Q as <-.
    apply find_pos_some in E. destruct E as ([[b x]|] & Ex & F & _); [|discriminate].
    apply LE in F. subst x. rewrite (sim_start _ _ _ _ _ SM), Nat.add_0_r. split.
    + eapply (proj2 (sim_leaf _ _ _ _ _ SM)); eauto.
    + apply (sim_path dl di join joinl H true); auto. cbn [liv]. unfold present. rewrite Ex. discriminate.
  - intros d i Hi Hd. destruct (unmarked_alive _ _ _ M Hi) as [A [x F]].
    pose proof (proj2 (sim_leaf _ _ _ _ _ SM) _ _ _ F) as X. rewrite Hd in X. injection X as <-.
    unfold pt_position, lm_position. destruct (find_pos _ _) as [j|] eqn:E; [cbn; eauto|].
    exfalso. pose proof (find_pos_none _ _ E (Some (false, d)) (nth_error_In _ _ F)) as Q. cbn in Q.
    rewrite (proj2 (LE d d) eq_refl) in Q. discriminate.
Qed.

(** C06. Two histories with the same insertions, marked and pruned differently, give the same
    length, root and current path, and the same proof of every leaf neither gave up. *)
Theorem c06_marks_and_prunes_do_not_matter : forall (ideqb : ID -> ID -> bool) chk os os',
  inserts os = inserts os' ->
  exists t bs t' bs',
    run (pt_step chk) pt_new os = Some (t, bs) /\ run (pt_step chk) pt_new os' = Some (t', bs') /\
    pt_len t = pt_len t' /\ pt_root di t = pt_root di t' /\
    pt_current_path dl di ideqb H t = pt_current_path dl di ideqb H t' /\
    forall i, nth_error (given_up H os) i = Some false -> nth_error (given_up H os') i = Some false ->
      pt_path dl di H t i = pt_path dl di H t' i.
Proof.
  intros ideqb chk os os' E.
  destruct (c06_partial_follows_full ideqb chk os) as (t & f & bs & A1 & A2 & A3 & A4 & A5 & A6 & A7 & A8).
  destruct (c06_partial_follows_full ideqb chk os') as (t' & f' & bs' & B1 & B2 & B3 & B4 & B5 & B6 & B7 & B8).
  rewrite E in A3. rewrite A3 in B3. injection B3 as <-.
  exists t, bs, t', bs'. repeat (split; [congruence|]).
  intros i H1 H2. rewrite (proj2 (A8 i H1)), (proj2 (B8 i H2)). reflexivity.
Qed.

(** C06. After a settled history the root is the specified one and every leaf not given up
    has a proof that verifies against it. *)
Theorem c06_unmarked_leaves_verify : forall (ideqb : ID -> ID -> bool) chk os,
  (forall a b, ideqb a b = true <-> a = b) ->
  settled H (inserts os) = true ->
  let l := firstn (2 ^ (H - 1)) (offered (inserts os)) in
  exists t bs, run (pt_step chk) pt_new os = Some (t, bs) /\
    pt_len t = length l /\ pt_root di t = spec_root dl di join joinl H l /\
    forall i, nth_error (given_up H os) i = Some false ->
      exists x p, nth_error l i = Some x /\ pt_path dl di H t i = Some p /\ p_index p = i /\
        path_verify join joinl ideqb p (pt_root di t) x = true.
Proof.
  intros ideqb chk os IE ST l.
  destruct (c06_partial_follows_full ideqb chk os) as (t & f & bs & A1 & A2 & A3 & A4 & A5 & A6 & A7 & A8).
  destruct (exec_new dl di join joinl H HH (inserts os)) as (f' & E & A & W & S0).
  rewrite A3 in E. injection E as <-. specialize (S0 ST). fold l in A, W, S0.
  exists t, bs. split; auto. split. { rewrite A4. unfold full_len. congruence. }
  split. { rewrite A5. apply (full_strong_root dl di join joinl H). auto. }
  intros i Hi. destruct (A8 i Hi) as [B1 B2].
  assert (Hl : i < length l).
  { rewrite <- A. fold (full_len f). rewrite <- A7. apply nth_error_Some. congruence. }
  destruct (nth_error l i) as [x|] eqn:Hx; [|apply nth_error_None in Hx; lia].
  exists x. rewrite B2. eexists. split; auto.
  split; [apply (full_path_strong dl di join joinl H HH _ _ i S0); auto|].
  cbn [p_index]. split; auto.
  unfold path_verify. apply IE. rewrite A5, (full_strong_root dl di join joinl H _ _ S0).
  rewrite spec_root_sd. rewrite <- (nth_error_nth _ _ dl Hx). symmetry. apply spath_root; auto.
  destruct W as (_ & B & _). rewrite cap_eq in B by auto. lia.
Qed.
End Props.
Print Assumptions c06_partial_follows_full.
Print Assumptions c06_position_is_provable.
Print Assumptions c06_marks_and_prunes_do_not_matter.
Print Assumptions c06_unmarked_leaves_verify.

Definition xp_run H os := run (pt_step 0 D0 DJ DL H true) pt_new os.
Definition xp_ops : list (pop nat) :=
  [PPush 1; PPushNp 2; PBatchNp [3; 4]; PRemove 0; PPrune; PPush 5; PBatch [6; 7]; PRemove 4; PRemove 9; PPrune; PPush 8; PPush 9].

Example ex_c06_given_up : given_up 4 xp_ops = [true; true; true; true; true; false; false; false].
Proof. reflexivity. Qed.
Example ex_c06_results : option_map snd (xp_run 4 xp_ops) =
  Some [true; true; true; true; true; true; true; true; false; true; true; false].
Proof. reflexivity. Qed.
(** Four leaves were really dropped, and the proof of leaf 5 verifies. *)
Example ex_c06_dropped : option_map (fun r => map (lm_get (pt_lm (fst r))) (seq 0 8)) (xp_run 4 xp_ops) =
  Some [None; None; None; None; Some 5; Some 6; Some 7; Some 8].
Proof. reflexivity. Qed.
Example ex_c06_settled : settled 4 (inserts xp_ops) = true.
Proof. reflexivity. Qed.
Definition xp_check H os i x : bool :=
  match xp_run H os with
  | Some (t, _) => match pt_path 0 D0 H t i with
                   | Some p => path_verify DJ DL dig_eqb p (pt_root D0 t) x
                   | None => false
                   end
  | None => false
  end.
Example ex_c06_verifies : xp_check 4 xp_ops 5 6 = true.
Proof. vm_compute. reflexivity. Qed.
Example ex_c06_same_inserts : inserts xp_ops =
  inserts [PPush 1; PPush 2; PBatch [3; 4]; PPush 5; PBatch [6; 7]; PPush 8; PPush 9].
Proof. reflexivity. Qed.

(** The proof of a leaf that was given up and pruned is not refused: the tree returns a path
    that does not verify. *)
Theorem c06_pruned_path_refuted : exists H os t bs i x p,
  xp_run H os = Some (t, bs) /\ nth_error (offered (inserts os)) i = Some x /\
  i < pt_len t /\ pt_path 0 D0 H t i = Some p /\ path_verify DJ DL dig_eqb p (pt_root D0 t) x = false.
Proof.
  exists 3, [PPushNp 1; PPushNp 2; PPush 3; PPrune].
  pose (r := match xp_run 3 [PPushNp 1; PPushNp 2; PPush 3; PPrune] with Some r => r | None => (pt_new, []) end).
  exists (fst r), (snd r), 0, 1, (match pt_path 0 D0 3 (fst r) 0 with Some p => p | None => Path 0 0 [] end).
  split; [rewrite <- surjective_pairing; reflexivity|]. split; [reflexivity|].
  split; [vm_compute; lia|]. split; vm_compute; reflexivity.
Qed.
Print Assumptions c06_pruned_path_refuted.
