(** Property C07: forked trees. *)
From Coq Require Import List Arith Bool Lia.
From Verif Require Import MtModel MtSpec MtHist MtLemmas MtInner MtInv MtBatch MtFull MtSingle MtSettled MtTest
  PtModel PtSpec PtLeaf PtAgree PtSim PtPrune PtProps FkSpec FkVirt FkCurrent FkInv.
Import ListNotations.

Lemma settle_mono {LD} H (o : top LD) n : forall ok ok', (ok = true -> ok' = true) ->
  fst (settle H (n, ok) o) = fst (settle H (n, ok') o) /\
  (snd (settle H (n, ok) o) = true -> snd (settle H (n, ok') o) = true).
Proof.
  intros ok ok' M. unfold settle. destruct o as [d|ds].
  - destruct (n <? 2 ^ (H - 1)); cbn [fst snd]; auto.
  - destruct (n <? _); cbn [fst snd]; auto.
Qed.

Lemma settles_mono {LD} H (os : list (top LD)) : forall s s', fst s = fst s' -> (snd s = true -> snd s' = true) ->
  fst (fold_left (settle H) os s) = fst (fold_left (settle H) os s') /\
  (snd (fold_left (settle H) os s) = true -> snd (fold_left (settle H) os s') = true).
Proof.
  induction os as [|o os IH]; intros [n ok] [n' ok'] E M; cbn [fst snd] in *; auto. subst n'.
  cbn [fold_left]. destruct (settle_mono H o n ok ok' M) as [A B]. apply IH; auto.
Qed.

Lemma combine_fst {A B} (a : list A) (b : list B) : length a = length b -> map fst (combine a b) = a.
Proof. revert b. induction a; intros [|y b] E; try discriminate E; cbn; auto. f_equal. apply IHa. injection E; auto. Qed.
Lemma combine_snd {A B} (a : list A) (b : list B) : length a = length b -> map snd (combine a b) = b.
Proof. revert b. induction a; intros [|y b] E; try discriminate E; cbn; auto. f_equal. apply IHa. injection E; auto. Qed.

(** The items of a partial tree after a history: its leaves and which of them were given up. *)
Definition base_items {LD} (H : nat) (os : list (pop LD)) : list (bool * LD) :=
  combine (given_up H os) (firstn (2 ^ (H - 1)) (offered (inserts os))).

Section Props.
Context {LD ID : Type}.
Variable dl : LD.
Variable di : ID.
Variable join : ID -> ID -> ID.
Variable joinl : LD -> LD -> ID.
Variable ideqb : ID -> ID -> bool.
Variable H : nat.
Hypothesis HH : 3 <= H.
Hypothesis ideqb_spec : forall a b, ideqb a b = true <-> a = b.
Hypothesis join_nd : forall a b, join a b <> di.
Hypothesis joinl_nd : forall a b, joinl a b <> di.
Notation pt_step := (pt_step dl di join joinl H).
Notation ft_step := (ft_step dl di join joinl ideqb H).
Notation ft_make := (ft_make dl di join joinl ideqb H).
Notation ft_path := (ft_path dl di join joinl H).
Notation spec_root := (spec_root dl di join joinl H).
Notation FInv := (FInv dl di join joinl H (td := true)).
Notation full_strong := (full_strong dl di join joinl H).
Notation full_weak := (full_weak dl di join joinl H).
Notation full_exec := (full_exec dl di join joinl H).
Local Lemma H2 : 2 <= H. Proof. lia. Qed.

(** The tree made by a history, ready to be forked. *)
Lemma base_ready chk os : exists b fb bs,
  run (pt_step chk) pt_new os = Some (b, bs) /\ full_exec full_new (inserts os) = Some fb /\
  Sim di H true b fb /\ full_weak fb (map snd (base_items H os)) /\
  marks_ok (pt_lm b) (map fst (base_items H os)) /\
  (settled H (inserts os) = true -> full_strong fb (map snd (base_items H os))) /\
  map snd (base_items H os) = firstn (2 ^ (H - 1)) (offered (inserts os)).
Proof.
  destruct (run_new dl di join joinl H H2 chk os) as (b & fb & bs & l & E1 & _ & E3 & SM & _ & M).
  destruct (exec_new dl di join joinl H H2 (inserts os)) as (f1 & E4 & A & W & S0).
  rewrite E3 in E4. injection E4 as <-.
  assert (LE : length (given_up H os) = length (firstn (2 ^ (H - 1)) (offered (inserts os)))).
  { rewrite <- (proj1 M), (proj1 (sim_leaf _ _ _ _ _ SM)), A. reflexivity. }
  unfold base_items. rewrite combine_fst, combine_snd by auto. exists b, fb, bs. conjs.
Qed.

Lemma fork_ready {td} chk os f : full_strong f (map snd (base_items H os)) ->
  exists b fb bs t, run (pt_step chk) pt_new os = Some (b, bs) /\ full_exec full_new (inserts os) = Some fb /\
    ft_make b = Some t /\ ft_base t = b /\ FkInv.FInv dl di join joinl H (td := td) t (FS (base_items H os) [] true) fb f.
Proof.
  intro F. destruct (base_ready chk os) as (b & fb & bs & E1 & E2 & SM0 & W & M & _).
  assert (SM : Sim di H td b fb) by (destruct td; [exact SM0|apply sim_weaken; exact SM0]).
  destruct (finv_fresh dl di join joinl ideqb H HH ideqb_spec join_nd joinl_nd b fb f _ SM W M F) as (t & E & EB & I).
  exists b, fb, bs, t. conjs.
Qed.

Lemma base_strong os : exists f, full_strong f (map snd (base_items H os)).
Proof.
  destruct (base_ready true os) as (b & fb & bs & _ & _ & _ & W & _).
  destruct (strong_of dl di join joinl ideqb H HH ideqb_spec join_nd joinl_nd (map snd (base_items H os)) ltac:(apply W)) as (f & _ & F). eauto.
Qed.

(** What a tree in the invariant reports. *)
Lemma finv_reports {td} chk t s fb f : FkInv.FInv dl di join joinl H (td := td) t s fb f ->
  ft_len t = length (fs_items s) /\ pt_len (ft_base t) = length (fs_base s) /\
  (fs_ok s = true -> fs_items s <> [] -> ft_root di t = spec_root (fs_leaves s)) /\
  (fs_ok s = true -> forall i x, nth_error (fs_items s) i = Some (false, x) \/
      (fs_start s <= i /\ exists m, nth_error (fs_items s) i = Some (m, x)) ->
    exists p, ft_path chk t i = Some (Some p) /\ p_index p = i /\
      path_verify join joinl ideqb p (ft_root di t) x = true).
Proof.
  intro I. split; [apply (finv_len dl di join joinl ideqb H HH ideqb_spec join_nd joinl_nd _ _ _ _ I)|]. split.
  { rewrite (sim_len dl di join joinl H _ _ _ (fi_base _ _ _ _ _ _ _ _ _ I)). unfold full_len.
    rewrite (proj1 (fi_bweak _ _ _ _ _ _ _ _ _ I)), map_length. reflexivity. }
  assert (R : fs_ok s = true -> fs_items s <> [] -> ft_root di t = spec_root (fs_leaves s)).
  { intros OK NE. rewrite (finv_root dl di join joinl H t s fb f I NE).
    apply (full_strong_root dl di join joinl H). apply (fi_strong _ _ _ _ _ _ _ _ _ I OK). }
  split; auto. intros OK i x Hx.
  pose proof (fi_strong _ _ _ _ _ _ _ _ _ I OK) as F.
  assert (NX : nth_error (fs_leaves s) i = Some x).
  { unfold fs_leaves. rewrite nth_error_map. destruct Hx as [->|(_ & m & ->)]; reflexivity. }
  assert (Hi : i < length (fs_items s)).
  { apply nth_error_Some. destruct Hx as [->|(_ & m & ->)]; discriminate. }
  assert (LL : length (fs_leaves s) = length (fs_items s)) by (unfold fs_leaves; apply map_length).
  assert (P : ft_path chk t i = Some (Some (Path i (nth (sibling i) (fs_leaves s) dl) (spath dl di join joinl H (fs_leaves s) i)))).
  { destruct (Nat.lt_ge_cases i (fs_start s)) as [C|C].
    - apply (finv_path_low dl di join joinl ideqb H HH ideqb_spec join_nd joinl_nd chk t s fb f i I C); auto.
      destruct Hx as [Hx|(C1 & _)]; [|lia].
      assert (MB : nth_error (map fst (fs_base s)) i = Some false).
      { rewrite nth_error_map. unfold fs_items in Hx. rewrite nth_error_app1 in Hx. { rewrite Hx. reflexivity. }
        pose proof (start_le s). lia. }
      destruct (unmarked_alive dl di join joinl H H2 _ _ _ (fi_marks _ _ _ _ _ _ _ _ _ I) MB) as [AL _].
      apply alive_liv; auto. apply (sim_rem _ _ _ _ _ (fi_base _ _ _ _ _ _ _ _ _ I)).
    - destruct (finv_path_high dl di join joinl ideqb H HH ideqb_spec join_nd joinl_nd chk t s fb f i I ltac:(lia)) as (p & E1 & E2).
      rewrite (full_path_strong dl di join joinl H H2 f _ i F ltac:(lia)) in E2. injection E2 as <-. exact E1. }
  eexists. split; [exact P|]. cbn [p_index]. split; auto.
  unfold path_verify. apply ideqb_spec. rewrite R; auto.
  2:{ intro Q. rewrite Q in Hi. cbn [length] in Hi. lia. }
  rewrite spec_root_sd, <- (nth_error_nth _ _ dl NX). symmetry. apply spath_root; [lia|].
  pose proof (finv_cap dl di join joinl H _ _ _ _ I). pose proof (capacity_le H). lia.
Qed.

(** C07. Take any tree, fork it, and run any sequence of insertions, removals of proofs,
    prunes, resets and merges.  The forked tree panics exactly when the reference does, gives
    the same results, has the length of the list of items, and, after a settled insertion,
    the specified root of all items and a proof that verifies against it for every item that
    was not given up and for every item from the last merged pair on. *)
Theorem c07_fork_follows_items : forall chk os fos,
  exists b bs0 t0, run (pt_step chk) pt_new os = Some (b, bs0) /\ ft_make b = Some t0 /\
  match run (fs_step H chk) (FS (base_items H os) [] true) fos with
  | None => run (ft_step chk) t0 fos = None
  | Some (s, bs) => exists t, run (ft_step chk) t0 fos = Some (t, bs) /\
      ft_len t = length (fs_items s) /\ pt_len (ft_base t) = length (fs_base s) /\
      (fs_ok s = true -> fs_items s <> [] -> ft_root di t = spec_root (fs_leaves s)) /\
      (fs_ok s = true -> forall i x, nth_error (fs_items s) i = Some (false, x) \/
         (fs_start s <= i /\ exists m, nth_error (fs_items s) i = Some (m, x)) ->
       exists p, ft_path chk t i = Some (Some p) /\ p_index p = i /\
         path_verify join joinl ideqb p (ft_root di t) x = true)
  end.
Proof.
  intros chk os fos. destruct (base_strong os) as (f & F).
  destruct (fork_ready (td := true) chk os f F) as (b & fb & bs0 & t0 & E1 & _ & E2 & _ & I).
  exists b, bs0, t0. split; auto. split; auto.
  pose proof (finv_run dl di join joinl ideqb H HH ideqb_spec join_nd joinl_nd chk fos t0 _ fb f I) as R.
  destruct (run (fs_step H chk) _ fos) as [[s bs]|]; auto.
  destruct R as (t & fb' & f' & E3 & I'). exists t. split; auto. apply (finv_reports chk t s fb' f' I').
Qed.

Lemma inserts_run chk ps : forall t s fb f d, forallb is_insert ps = true ->
  FInv t s fb f -> Sim di H true d f -> (exists ms, marks_ok (pt_lm d) ms) ->
  exists t' s' f' d' bs, run (ft_step chk) t (map FDo ps) = Some (t', bs) /\
    run (fs_step H chk) s (map FDo ps) = Some (s', bs) /\ run (pt_step chk) d ps = Some (d', bs) /\
    ft_base t' = ft_base t /\ FInv t' s' fb f' /\ Sim di H true d' f'.
Proof.
  induction ps as [|p ps IH]; intros t s fb f d FA I SM (ms & M).
  - exists t, s, f, d, []. conjs.
  - cbn [forallb] in FA. apply andb_true_iff in FA. destruct FA as [FA1 FA2].
    destruct (finv_insert dl di join joinl ideqb H HH ideqb_spec join_nd joinl_nd chk t s fb f p I FA1) as (t1 & s1 & f1 & b & E1 & E2 & E3 & E4 & I1).
    destruct (step_sim dl di join joinl H H2 chk p d f ms _ SM (fi_weak _ _ _ _ _ _ _ _ _ I) M)
      as (d1 & f2 & b' & l' & G1 & _ & G3 & S1 & _ & M1).
    rewrite E3 in G3. injection G3 as <-.
    assert (BB : b' = b).
    { pose proof (finv_cap dl di join joinl H _ _ _ _ I) as CAP.
      assert (LD1 : pt_len d = length (fs_items s)).
      { rewrite (sim_len dl di join joinl H _ _ _ SM). unfold full_len. rewrite (proj1 (fi_weak _ _ _ _ _ _ _ _ _ I)).
        unfold fs_leaves. apply map_length. }
      destruct (pt_insert_lm dl di join joinl ideqb H HH ideqb_spec join_nd joinl_nd chk d p d1 b' FA1 ltac:(lia) G1) as [_ ->].
      rewrite LD1. destruct p; try discriminate FA1; cbn [fs_step] in E2; unfold fs_step in E2; injection E2 as _ <-; reflexivity. }
    subst b'.
    destruct (IH t1 s1 fb f1 d1 FA2 I1 S1 (ex_intro _ _ M1)) as (t' & s' & f' & d' & bs & R1 & R2 & R3 & R4 & R5 & R6).
    exists t', s', f', d', (b :: bs). cbn [map run]. rewrite E1, E2, G1, R1, R2, R3. conjs. congruence.
Qed.

(** C07. On a tree with a settled history, the same insertions made through a fork and
    directly give the same results, length, root and current path; the fork leaves the base
    exactly as it was, and dropping it gives back the fork that was made first. *)
Theorem c07_fork_equals_direct : forall chk os ps,
  settled H (inserts os) = true -> forallb is_insert ps = true ->
  exists b bs0 t0 t d bs,
    run (pt_step chk) pt_new os = Some (b, bs0) /\ ft_make b = Some t0 /\
    run (ft_step chk) t0 (map FDo ps) = Some (t, bs) /\ run (pt_step chk) b ps = Some (d, bs) /\
    ft_len t = pt_len d /\
    (pt_len d <> 0 -> ft_root di t = pt_root di d /\
       ft_current_path dl di ideqb H t = pt_current_path dl di ideqb H d) /\
    ft_base t = b /\ ft_step chk t FReset = Some (t0, true).
Proof.
  intros chk os ps ST FA. destruct (base_ready chk os) as (b & fb & bs0 & E1 & E2 & SM & W & M & F & _).
  specialize (F ST).
  destruct (finv_fresh dl di join joinl ideqb H HH ideqb_spec join_nd joinl_nd b fb fb _ SM W M F) as (t0 & E & EB & I).
  destruct (inserts_run chk ps t0 _ fb fb b FA I SM (ex_intro _ _ M)) as (t & s & f' & d & bs & R1 & R2 & R3 & R4 & I' & S').
  exists b, bs0, t0, t, d, bs. split; auto. split; auto. split; auto. split; auto.
  assert (LEN : ft_len t = pt_len d).
  { rewrite (sim_len dl di join joinl H _ _ _ S'). unfold ft_len. rewrite (finv_len dl di join joinl ideqb H HH ideqb_spec join_nd joinl_nd _ _ _ _ I').
    unfold full_len. rewrite (proj1 (fi_weak _ _ _ _ _ _ _ _ _ I')). unfold fs_leaves. rewrite map_length. reflexivity. }
  split; auto. split.
  - intro NZ. assert (NE : fs_items s <> []).
    { intro Q. apply NZ. rewrite <- LEN. unfold ft_len. rewrite (finv_len dl di join joinl ideqb H HH ideqb_spec join_nd joinl_nd _ _ _ _ I'), Q. reflexivity. }
    split.
    + rewrite (finv_root dl di join joinl H _ _ _ _ I' NE). symmetry. apply (sim_root_eq di H true); auto.
    + rewrite (finv_current dl di join joinl ideqb H _ _ _ _ I' NE). symmetry.
      apply (sim_current_path dl di join joinl H ideqb true); auto.
      unfold full_len. rewrite (proj1 (fi_weak _ _ _ _ _ _ _ _ _ I')). apply I'.
  - split; [congruence|]. unfold FkSpec.ft_step, ft_reset. rewrite R4, EB, E. reflexivity.
Qed.

(** C07. The same when the tree is settled only after the insertions. *)
Theorem c07_fork_equals_direct_settled_later : forall chk os ps,
  settled H (inserts (os ++ ps)) = true -> forallb is_insert ps = true -> 
  exists b bs0 t0 t d bs bs',
    run (pt_step chk) pt_new os = Some (b, bs0) /\ ft_make b = Some t0 /\
    run (ft_step chk) t0 (map FDo ps) = Some (t, bs) /\ run (pt_step chk) b ps = Some (d, bs') /\
    ft_len t = pt_len d /\ (pt_len d <> 0 -> ft_root di t = pt_root di d).
Proof.
  intros chk os ps ST FA. destruct (base_strong os) as (f & F).
  destruct (fork_ready (td := true) chk os f F) as (b & fb & bs0 & t0 & E1 & E2 & E3 & EB & I).
  destruct (base_ready chk os) as (b1 & fb1 & bs1 & E1' & E2' & SM & W & M & _ & EQ).
  rewrite E1 in E1'. injection E1' as <- <-. rewrite E2 in E2'. injection E2' as <-.
  assert (INS : forall t s fb f, FInv t s fb f -> forall n ok, n = length (fs_items s) -> (ok = true -> fs_ok s = true) ->
     exists t' s' fb' f' bs, run (ft_step chk) t (map FDo ps) = Some (t', bs) /\ FInv t' s' fb' f' /\
       fs_leaves s' = firstn (2 ^ (H - 1)) (fs_leaves s ++ offered (inserts ps)) /\
       (snd (fold_left (settle H) (inserts ps) (n, ok)) = true -> fs_ok s' = true)).
  { clear - FA HH ideqb_spec join_nd joinl_nd. induction ps as [|p ps IH]; intros t s fb f I n ok En M.
    - exists t, s, fb, f, []. conjs. cbn [inserts flat_map offered]. rewrite app_nil_r, firstn_all2; auto. apply I.
    - cbn [forallb] in FA. apply andb_true_iff in FA. destruct FA as [FA1 FA2].
      destruct (finv_insert dl di join joinl ideqb H HH ideqb_spec join_nd joinl_nd chk t s fb f p I FA1) as (t1 & s1 & f1 & b & G1 & G2 & G3 & _ & I1).
      destruct (pop_top_insert p FA1) as (tp & ET & TI).
      assert (S1 : fs_leaves s1 = spec_accept H (fs_leaves s) (top_items tp) /\ fs_ok s1 = snd (settle H (n, fs_ok s) tp)
        /\ fst (settle H (n, ok) tp) = length (fs_items s1)).
      { destruct (settle_step dl di join joinl H H2 f (fs_leaves s) (fs_ok s) tp (fi_weak _ _ _ _ _ _ _ _ _ I) (fi_strong _ _ _ _ _ _ _ _ _ I))
          as (f2 & l2 & K1 & K2 & K3 & K4 & _).
        rewrite ET in G3. cbn [MtHist.full_exec] in G3. rewrite K1 in G3. injection G3 as <-.
        assert (EL : fs_leaves s1 = l2) by (rewrite <- (proj1 (fi_weak _ _ _ _ _ _ _ _ _ I1)); apply K3).
        split; [congruence|]. split.
        - rewrite En. destruct p; try discriminate FA1; unfold fs_step in G2; injection G2 as <- _; cbn [fs_ok];
          cbn [pop_top] in ET |- *; injection ET as <-; reflexivity.
        - destruct (settle_mono H tp n ok (fs_ok s) M) as [Q _]. rewrite Q, En.
          unfold fs_leaves in K4 at 1. rewrite map_length in K4. rewrite K4, <- EL. unfold fs_leaves. apply map_length. }
      destruct S1 as (SA & SB & SC).
      destruct (IH FA2 t1 s1 fb f1 I1 (fst (settle H (n, ok) tp)) (snd (settle H (n, ok) tp)) SC) as (t' & s' & fb' & f' & bs & R1 & R2 & R3 & R4).
      { rewrite SB. apply (settle_mono H tp n ok (fs_ok s) M). }
      exists t', s', fb', f', (b :: bs). cbn [map run]. rewrite G1, R1. split; auto. split; auto. split.
      + rewrite R3, SA. unfold inserts, offered. cbn [flat_map]. rewrite ET. cbn [app flat_map].
        change (2 ^ (H - 1)) with (capacity H). rewrite accept_snoc by apply I. reflexivity.
      + unfold inserts. cbn [flat_map]. rewrite ET. cbn [app fold_left]. rewrite <- surjective_pairing in R4. exact R4. }
  assert (SP : settled H (inserts os ++ inserts ps) = true)
    by (unfold inserts in *; rewrite flat_map_app in ST; exact ST).
  unfold settled in SP. rewrite fold_left_app in SP.
  set (s0 := fold_left (settle H) (inserts os) (0, true)) in *.
  assert (E0 : fst s0 = length (fs_items (FS (base_items H os) [] true))).
  { unfold fs_items. cbn [fs_base fs_fork]. rewrite app_nil_r, <- (map_length snd), EQ. unfold s0.
    clear - HH. assert (G : forall l n ok, n <= 2 ^ (H - 1) -> fst (fold_left (settle H) l (n, ok)) = Nat.min (2 ^ (H - 1)) (n + length (@offered LD l))).
    { induction l as [|o l IH]; intros n ok Hn; cbn [fold_left fst]. { cbn. lia. }
      unfold offered. cbn [flat_map]. rewrite app_length. fold (offered l). destruct o as [d|ds]; cbn [settle top_items length].
      - destruct (Nat.ltb_spec n (2 ^ (H - 1))); rewrite IH by lia; lia.
      - destruct (Nat.ltb_spec n (Nat.min (2 ^ (H - 1)) (n + length ds))); rewrite IH by lia; lia. }
    rewrite G by lia. rewrite firstn_length. lia. }
  destruct (INS t0 _ fb f I (fst s0) (snd s0) E0 (fun _ => eq_refl)) as (t & s & fb' & f' & bs & R1 & I' & EL & OK).
  rewrite <- surjective_pairing in OK. specialize (OK SP).
  destruct (run_sim dl di join joinl H H2 chk ps b fb _ _ SM W M) as (d & fd & bs' & l' & D1 & _ & D3 & S' & _ & _).
  assert (FD : full_exec full_new (inserts (os ++ ps)) = Some fd).
  { unfold inserts in *. rewrite flat_map_app, full_exec_app, E2. exact D3. }
  destruct (exec_new dl di join joinl H H2 (inserts (os ++ ps))) as (f1 & G1 & A1 & _ & A3).
  rewrite FD in G1. injection G1 as <-. specialize (A3 ST).
  assert (SAME : fs_leaves s = firstn (2 ^ (H - 1)) (offered (inserts (os ++ ps)))).
  { rewrite EL. unfold fs_leaves at 1, fs_items. cbn [fs_base fs_fork]. rewrite app_nil_r, EQ.
    unfold inserts, offered. rewrite !flat_map_app. clear. 
    set (a := flat_map top_items (flat_map pop_top os)). set (c := flat_map top_items (flat_map pop_top ps)).
    rewrite !firstn_app, firstn_firstn, Nat.min_id, firstn_length. f_equal. f_equal. lia. }
  exists b, bs0, t0, t, d, bs, bs'. split; auto. split; auto. split; auto. split; auto.
  assert (LEN : ft_len t = pt_len d).
  { rewrite (sim_len dl di join joinl H _ _ _ S'). unfold ft_len. rewrite (finv_len dl di join joinl ideqb H HH ideqb_spec join_nd joinl_nd _ _ _ _ I').
    unfold full_len. rewrite A1, <- SAME. unfold fs_leaves. rewrite map_length. reflexivity. }
  split; auto. intro NZ.
  destruct (finv_reports chk t s fb' f' I') as (_ & _ & RT & _). rewrite RT; auto.
  - rewrite (sim_root_eq di H true d fd S'), (full_strong_root dl di join joinl H fd _ A3), SAME. reflexivity.
  - intro Q. apply NZ. rewrite <- LEN. unfold ft_len. rewrite (finv_len dl di join joinl ideqb H HH ideqb_spec join_nd joinl_nd _ _ _ _ I'), Q. reflexivity.
Qed.

(** C07. Merging: the base holds the fork's items after its own, at the same places; the new
    fork has the specified root of all of them; the base itself has it too when the
    insertions of the merge leave it settled, and then it proves every item not given up. *)
Theorem c07_merge_equals_direct : forall chk os fos s bs,
  (forall o, In o fos -> exists p, o = FDo p /\ p <> PPrune) ->
  run (fs_step H chk) (FS (base_items H os) [] true) fos = Some (s, bs) ->
  exists b bs0 t0 t tm, run (pt_step chk) pt_new os = Some (b, bs0) /\ ft_make b = Some t0 /\
    run (ft_step chk) t0 fos = Some (t, bs) /\ ft_step chk t FCommit = Some (tm, true) /\
    ft_len tm = length (fs_items s) /\ pt_len (ft_base tm) = length (fs_items s) /\
    (fs_items s <> [] -> ft_root di tm = spec_root (fs_leaves s)) /\
    (settled H (inserts os ++ inserts (merge_ops [] (fs_fork s))) = true ->
       pt_root di (ft_base tm) = spec_root (fs_leaves s) /\
       forall i x, nth_error (fs_items s) i = Some (false, x) ->
         exists p, pt_path dl di H (ft_base tm) i = Some p /\ p_index p = i /\
           path_verify join joinl ideqb p (pt_root di (ft_base tm)) x = true).
Proof.
  intros chk os fos s bs FO R. destruct (base_strong os) as (f & F).
  destruct (fork_ready (td := true) chk os f F) as (b & fb & bs0 & t0 & E1 & E2 & E3 & EB & I).
  destruct (base_ready chk os) as (b1 & fb1 & bs1 & E1' & E2' & SM & W & M & _ & EQ).
  rewrite E1 in E1'. injection E1' as <- <-. rewrite E2 in E2'. injection E2' as <-.
  assert (KEEP : forall os' t s0 f s bs, (forall o, In o os' -> exists p, o = FDo p /\ p <> PPrune) -> FInv t s0 fb f ->
     run (fs_step H chk) s0 os' = Some (s, bs) ->
     exists t' f', run (ft_step chk) t os' = Some (t', bs) /\ FInv t' s fb f' /\ fs_base s = fs_base s0).
  { clear - HH ideqb_spec join_nd joinl_nd. induction os' as [|o os' IH]; intros t s0 f s bs FO I R.
    - cbn [run] in R. injection R as <- <-. exists t, f. conjs.
    - cbn [run] in R. destruct (FO o (or_introl eq_refl)) as (p & -> & NP).
      destruct (fs_step H chk s0 (FDo p)) as [[s1 b]|] eqn:ES; [|discriminate].
      destruct (run (fs_step H chk) s1 os') as [[s2 bs2]|] eqn:ER; [|discriminate]. injection R as <- <-.
      assert (ST : exists t1 f1, ft_step chk t (FDo p) = Some (t1, b) /\ FInv t1 s1 fb f1 /\ fs_base s1 = fs_base s0).
      { destruct (is_insert p) eqn:EI.
        - destruct (finv_insert dl di join joinl ideqb H HH ideqb_spec join_nd joinl_nd chk t s0 fb f p I EI) as (t1 & s1' & f1 & b' & G1 & G2 & _ & _ & I1).
          rewrite ES in G2. injection G2 as <- <-. exists t1, f1. conjs.
          destruct p; try discriminate EI; unfold fs_step in ES; injection ES as <- _; reflexivity.
        - destruct p as [d|d|ds|ds|i|]; try discriminate EI; [|congruence].
          pose proof (finv_remove dl di join joinl ideqb H HH ideqb_spec join_nd joinl_nd chk t s0 fb f i I) as G. rewrite ES in G.
          destruct G as (t1 & G1 & _ & I1). exists t1, f. conjs.
          unfold fs_step in ES. destruct (i <? fs_start s0); [destruct chk; [discriminate|injection ES as <- _; auto]|].
          destruct (i <? length (fs_items s0)); injection ES as <- _; reflexivity. }
      destruct ST as (t1 & f1 & G1 & I1 & G2).
      destruct (IH t1 s1 f1 s2 bs2 (fun o Ho => FO o (or_intror Ho)) I1 ER) as (t2 & f2 & G3 & I2 & G4).
      exists t2, f2. cbn [run]. rewrite G1, G3. conjs. congruence. }
  destruct (KEEP fos t0 _ f s bs FO I R) as (t & f1 & G1 & I1 & G2). cbn [fs_base] in G2.
  destruct (finv_commit dl di join joinl ideqb H HH ideqb_spec join_nd joinl_nd chk t s fb f1 I1) as (tm & fb' & f' & C1 & C2 & C3 & I2).
  exists b, bs0, t0, t, tm. split; auto. split; auto. split; auto.
  split. { unfold FkSpec.ft_step. rewrite C1. reflexivity. }
  destruct (finv_reports chk tm _ fb' f' I2) as (P1 & P2 & P3 & _).
  unfold fs_leaves, fs_items in P1, P2, P3. cbn [fs_base fs_fork fs_ok] in P1, P2, P3.
  rewrite app_nil_r in P1, P3. fold (fs_items s) in P1, P2, P3. 
  split; auto. split; auto. split; auto. intro ST.
  assert (FS1 : full_strong fb' (fs_leaves s)).
  { destruct (exec_settled dl di join joinl H H2 (inserts os ++ inserts (merge_ops [] (fs_fork s))) full_new [] true) as (g & K1 & _ & K3).
    - apply full_strong_weak, full_new_strong. exact H2.
    - intros _. apply full_new_strong. exact H2.
    - specialize (K3 ST). rewrite full_exec_app, E2, C2 in K1. injection K1 as <-.
      replace (fs_leaves s) with (f_leaves fb'); [destruct K3 as (K4 & K5); rewrite K4; split; auto|].
      rewrite (proj1 (fi_bweak _ _ _ _ _ _ _ _ _ I2)). reflexivity. }
  assert (RT : pt_root di (ft_base tm) = spec_root (fs_leaves s)).
  { rewrite (sim_root_eq di H true _ _ (fi_base _ _ _ _ _ _ _ _ _ I2)). apply (full_strong_root dl di join joinl H _ _ FS1). }
  split; auto. intros i x Hx.
  assert (MB : nth_error (map fst (fs_items s)) i = Some false) by (rewrite nth_error_map, Hx; reflexivity).
  pose proof (fi_marks _ _ _ _ _ _ _ _ _ I2) as MK. cbn [fs_base] in MK.
  destruct (unmarked_alive dl di join joinl H H2 _ _ _ MK MB) as [AL [y E]].
  assert (NX : nth_error (fs_leaves s) i = Some x) by (unfold fs_leaves; rewrite nth_error_map, Hx; reflexivity).
  assert (Hi : i < length (fs_leaves s)) by (apply nth_error_Some; congruence).
  exists (Path i (nth (sibling i) (fs_leaves s) dl) (spath dl di join joinl H (fs_leaves s) i)). split; [|split; auto].
  - rewrite (sim_path dl di join joinl H true _ _ i (fi_base _ _ _ _ _ _ _ _ _ I2)).
    + apply (full_path_strong dl di join joinl H H2 _ _ i FS1 Hi).
    + unfold full_len. rewrite (proj1 FS1). apply FS1.
    + apply alive_liv; auto. apply (sim_rem _ _ _ _ _ (fi_base _ _ _ _ _ _ _ _ _ I2)).
  - unfold path_verify. apply ideqb_spec. rewrite RT.
    rewrite spec_root_sd, <- (nth_error_nth _ _ dl NX). symmetry. apply spath_root; [lia|].
    pose proof (finv_cap dl di join joinl H _ _ _ _ I1). pose proof (capacity_le H). unfold fs_leaves in Hi. rewrite map_length in Hi. lia.
Qed.

(** C07. Dropping the fork after any insertions, removals and earlier drops gives back the
    fresh fork of the untouched base. *)
Theorem c07_reset_restores : forall chk b t0 fos t bs,
  ft_make b = Some t0 -> (forall o, In o fos -> o = FReset \/ exists p, o = FDo p /\ p <> PPrune) ->
  run (ft_step chk) t0 fos = Some (t, bs) ->
  ft_base t = b /\ ft_step chk t FReset = Some (t0, true).
Proof.
  intros chk b t0 fos t bs E FO R.
  assert (KB : forall o u u' r, (o = FReset \/ exists p, o = FDo p /\ p <> PPrune) -> ft_step chk u o = Some (u', r) -> ft_base u' = ft_base u).
  { intros o u u' r [->|(p & -> & NP)] S0.
    - unfold FkSpec.ft_step, ft_reset, PtModel.ft_make in S0. destruct (branch_of _ _ _ _ _ _ _); [|discriminate].
      cbn in S0. injection S0 as <- _. reflexivity.
    - destruct p; try congruence; unfold FkSpec.ft_step in S0.
      + unfold ft_push in S0. destruct (pt_push _ _ _ _ _ _ _). injection S0 as <- _. reflexivity.
      + unfold ft_push_np in S0. destruct (pt_push_np _ _ _ _ _ _ _). injection S0 as <- _. reflexivity.
      + unfold ft_batch in S0. destruct (pt_batch_push _ _ _ _ _ _ _) as [[]|]; [|discriminate]. injection S0 as <- _. reflexivity.
      + unfold ft_batch_np in S0. destruct (pt_batch_push_np _ _ _ _ _ _ _) as [[]|]; [|discriminate]. injection S0 as <- _. reflexivity.
      + unfold ft_remove_path in S0. destruct (pt_remove_path _ _ _) as [[]|]; [|discriminate]. injection S0 as <- _. reflexivity. }
  assert (B : ft_base t = ft_base t0).
  { clear E. revert t0 bs R. induction fos as [|o fos IH]; intros t0 bs R; cbn [run] in R.
    - injection R as <- _. reflexivity.
    - destruct (ft_step chk t0 o) as [[t1 r]|] eqn:S1; [|discriminate].
      destruct (run (ft_step chk) t1 fos) as [[t2 rs]|] eqn:S2; [|discriminate]. injection R as <- _.
      rewrite (IH (fun o Ho => FO o (or_intror Ho)) t1 rs S2). eapply KB; [|exact S1]. apply FO. left; auto. }
  assert (B0 : ft_base t0 = b).
  { unfold PtModel.ft_make in E. destruct (branch_of _ _ _ _ _ _ _); [|discriminate]. injection E as <-. reflexivity. }
  split; [congruence|]. unfold FkSpec.ft_step, ft_reset. rewrite B, B0, E. reflexivity.
Qed.
End Props.
Print Assumptions c07_fork_follows_items.
Print Assumptions c07_fork_equals_direct.
Print Assumptions c07_fork_equals_direct_settled_later.
Print Assumptions c07_merge_equals_direct.
Print Assumptions c07_reset_restores.

(** ** Concrete cases *)

Definition xf_base H (os : list (pop nat)) : option (partial nat dig) :=
  option_map fst (run (pt_step 0 D0 DJ DL H true) pt_new os).
Definition xf_make H os : option (ftree nat dig) :=
  match xf_base H os with Some b => ft_make 0 D0 DJ DL dig_eqb H b | None => None end.
Definition xf_run H chk os fos : option (ftree nat dig * list bool) :=
  match xf_make H os with Some t => run (ft_step 0 D0 DJ DL dig_eqb H chk) t fos | None => None end.
Definition xf_check H chk t i x : bool :=
  match ft_path 0 D0 DJ DL H chk t i with
  | Some (Some p) => path_verify DJ DL dig_eqb p (ft_root D0 t) x
  | _ => false
  end.

(** A tree of three leaves, one given up; the fork gets three more, gives one up, prunes and
    merges, then one more is pushed. *)
Definition xf_os : list (pop nat) := [PPush 1; PPushNp 2; PPush 3].
Definition xf_fos : list (fop nat) :=
  [FDo (PPush 9); FReset; FDo (PPush 4); FDo (PBatchNp [5; 6]); FDo (PRemove 3); FDo PPrune; FCommit; FDo (PPush 7)].
Example ex_c07_reference : run (fs_step 4 true) (FS (base_items 4 xf_os) [] true) xf_fos =
  Some (FS [(false, 1); (true, 2); (false, 3); (true, 4); (true, 5); (true, 6)] [(false, 7)] true,
    [true; true; true; true; true; true; true; true]).
Proof. reflexivity. Qed.
(** Proofs: a merged leaf, one of the last merged pair though given up, the new one. *)
Example ex_c07_proofs :
  match xf_run 4 true xf_os xf_fos with
  | Some (t, _) => xf_check 4 true t 0 1 && xf_check 4 true t 4 5 && xf_check 4 true t 6 7 &&
                   negb (xf_check 4 true t 0 2) && (ft_len t =? 7)
  | None => false
  end = true.
Proof. vm_compute. reflexivity. Qed.
Example ex_c07_direct_hypotheses :
  settled 4 (inserts xf_os) = true /\ forallb is_insert [PPush 4; PBatchNp [5; 6]; PPush 7] = true /\
  settled 4 (inserts (xf_os ++ [PPush 4; PBatchNp [5; 6]; PPush 7])) = true.
Proof. repeat split; reflexivity. Qed.
(** A history that is settled only by the insertions of the fork. *)
Example ex_c07_settled_later :
  settled 4 (inserts [PPush 1; PPush 2; PBatch [3; 4; 5]]) = false /\
  settled 4 (inserts ([PPush 1; PPush 2; PBatch [3; 4; 5]] ++ [PPush 6])) = true.
Proof. split; reflexivity. Qed.
Example ex_c07_merge_hypotheses :
  let fos := [FDo (PPush 4); FDo (PBatchNp [5; 6]); FDo (PRemove 3); FDo (PPush 7)] in
  run (fs_step 4 true) (FS (base_items 4 xf_os) [] true) fos =
    Some (FS [(false, 1); (true, 2); (false, 3)] [(true, 4); (true, 5); (true, 6); (false, 7)] true, [true; true; true; true]) /\
  settled 4 (inserts xf_os ++ inserts (merge_ops [] [(true, 4); (true, 5); (true, 6); (false, 7)])) = true.
Proof. split; reflexivity. Qed.
Example ex_c07_reset_hypotheses :
  match xf_run 4 true xf_os [FDo (PPush 4); FReset; FDo (PBatchNp [5; 6]); FDo (PRemove 3)] with
  | Some (t, bs) => (ft_len t =? 5) && forallb (fun b => b) bs
  | None => false
  end = true.
Proof. vm_compute. reflexivity. Qed.

(** ** Where the code does not do this *)

(** The root of a forked empty tree is not the root of the empty tree when the tree has
    committed nothing: the fork reports the hash of an empty pair and its ancestors. *)
Theorem c07_empty_fork_root_refuted : exists H t, xf_make H [] = Some t /\
  ft_len t = 0 /\ pt_root D0 (ft_base t) <> ft_root D0 t.
Proof.
  exists 4. pose (t := match xf_make 4 [] with Some t => t | None => FTree pt_new (Branch 0 pt_new) end).
  exists t. split; [reflexivity|]. split; [reflexivity|]. vm_compute. discriminate.
Qed.

(** With HEIGHT 2 the current path of a tree has no inner digests, [from_current] returns the
    default map: the fork forgets the root, and with more than two leaves it cannot have more. *)
Theorem c07_height_two_refuted : exists os t, xf_make 2 os = Some t /\
  pt_root D0 (ft_base t) <> ft_root D0 t /\ settled 2 (inserts os) = true /\ inserts os <> [].
Proof.
  exists [PPush 1]. pose (t := match xf_make 2 [PPush 1] with Some t => t | None => FTree pt_new (Branch 0 pt_new) end).
  exists t. split; [reflexivity|]. split; [vm_compute; discriminate|]. split; [reflexivity|discriminate].
Qed.

(** Forking a tree whose inner nodes are not settled: the fork has another root than the
    tree it was forked from, before anything is pushed. *)
Theorem c07_unsettled_fork_refuted : exists H os t, xf_make H os = Some t /\
  pt_root D0 (ft_base t) <> ft_root D0 t /\ ft_root D0 t = spec_root 0 D0 DJ DL H (offered (inserts os)) /\ 3 <= H.
Proof.
  exists 4, [PPush 1; PPush 2; PBatch [3; 4; 5]].
  pose (t := match xf_make 4 [PPush 1; PPush 2; PBatch [3; 4; 5]] with Some t => t | None => FTree pt_new (Branch 0 pt_new) end).
  exists t. split; [reflexivity|]. split; [vm_compute; discriminate|]. split; [vm_compute; reflexivity|auto].
Qed.

(** After a merge the base can have a wrong root while the fork has the right one. *)
Theorem c07_merged_base_root_refuted : exists H os fos t bs, xf_run H true os fos = Some (t, bs) /\
  ft_root D0 t = spec_root 0 D0 DJ DL H [1; 2; 3; 4; 5] /\ pt_root D0 (ft_base t) <> ft_root D0 t /\
  fos = [FDo (PPushNp 3); FDo (PPushNp 4); FDo (PPushNp 5); FCommit] /\ inserts os = [TPush 1; TPush 2].
Proof.
  exists 4, [PPush 1; PPush 2], [FDo (PPushNp 3); FDo (PPushNp 4); FDo (PPushNp 5); FCommit].
  pose (r := match xf_run 4 true [PPush 1; PPush 2] [FDo (PPushNp 3); FDo (PPushNp 4); FDo (PPushNp 5); FCommit] with Some r => r | None => (FTree pt_new (Branch 0 pt_new), []) end).
  exists (fst r), (snd r). split; [rewrite <- surjective_pairing; reflexivity|].
  split; [vm_compute; reflexivity|]. split; [vm_compute; discriminate|]. auto.
Qed.

(** Removing the proof of a leaf below the last pair of the base: a panic with overflow
    checks, no effect without. *)
Theorem c07_remove_base_leaf_refuted :
  xf_run 4 true [PPush 1; PPush 2; PPush 3] [FDo (PRemove 0)] = None /\
  exists t, xf_run 4 false [PPush 1; PPush 2; PPush 3] [FDo (PRemove 0)] = Some (t, [false]) /\
    pt_path 0 D0 4 (ft_base t) 0 <> None.
Proof.
  split; [vm_compute; reflexivity|].
  pose (t := match xf_make 4 [PPush 1; PPush 2; PPush 3] with Some t => t | None => FTree pt_new (Branch 0 pt_new) end).
  exists (ft_set_data t (br_data (ft_branch t))). split; [reflexivity|]. vm_compute. discriminate.
Qed.

(** Removing the proof of a leaf of the last pair of the base succeeds, but the mark is in
    the copy of the fork and the merge drops it: after merging and pruning, the leaf is still
    stored. *)
Theorem c07_mark_lost_refuted : exists t bs,
  xf_run 4 true [PPush 1] [FDo (PRemove 0); FDo (PPushNp 2); FCommit; FDo (PPush 3); FCommit; FDo PPrune] = Some (t, bs) /\
  nth_error bs 0 = Some true /\ lm_get (pt_lm (ft_base t)) 0 = Some 1.
Proof.
  pose (r := match xf_run 4 true [PPush 1] [FDo (PRemove 0); FDo (PPushNp 2); FCommit; FDo (PPush 3); FCommit; FDo PPrune] with Some r => r | None => (FTree pt_new (Branch 0 pt_new), []) end).
  exists (fst r), (snd r). split; [rewrite <- surjective_pairing; reflexivity|]. split; vm_compute; reflexivity.
Qed.

(** [merge_fork] on a partial base marks all merged leaves: pruning then destroys leaves that
    were pushed to be proved. *)
Theorem c07_plain_merge_marks_refuted : exists t bs x,
  xf_run 4 true [] [FDo (PPush 1); FDo (PPush 2); FMerge; FDo (PPush 3); FMerge; FDo PPrune] = Some (t, bs) /\
  x = 1 /\ ft_position Nat.eqb t x = None /\ xf_check 4 true t 0 x = false /\ forallb (fun b => b) bs = true.
Proof.
  pose (r := match xf_run 4 true [] [FDo (PPush 1); FDo (PPush 2); FMerge; FDo (PPush 3); FMerge; FDo PPrune] with Some r => r | None => (FTree pt_new (Branch 0 pt_new), []) end).
  exists (fst r), (snd r), 1. split; [rewrite <- surjective_pairing; reflexivity|]. repeat split; vm_compute; reflexivity.
Qed.

(** A branch with as many leaves as fit is refused when it is made from leaves, while pushing
    them one by one succeeds. *)
Theorem c07_exact_capacity_refuted : exists H b ds,
  xf_base H [PPush 1; PPush 2] = Some b /\ pt_len b + length ds = capacity H /\
  branch_new_checked 0 D0 DJ DL H (pt_len b) (pt_current_leaf b) (pt_current_path 0 D0 dig_eqb H b) ds = Some None /\
  option_map snd (run (ft_step 0 D0 DJ DL dig_eqb H true) (match ft_make 0 D0 DJ DL dig_eqb H b with Some t => t | None => FTree b (Branch 0 b) end)
     (map (fun d => FDo (PPush d)) ds)) = Some [true; true].
Proof.
  exists 3. pose (b := match xf_base 3 [PPush 1; PPush 2] with Some b => b | None => pt_new end).
  exists b, [3; 4]. split; [reflexivity|]. repeat split; vm_compute; reflexivity.
Qed.
Print Assumptions c07_empty_fork_root_refuted.
Print Assumptions c07_height_two_refuted.
Print Assumptions c07_unsettled_fork_refuted.
Print Assumptions c07_merged_base_root_refuted.
Print Assumptions c07_remove_base_leaf_refuted.
Print Assumptions c07_mark_lost_refuted.
Print Assumptions c07_plain_merge_marks_refuted.
Print Assumptions c07_exact_capacity_refuted.

(** [merge_fork] of a fork that its accepted pushes filled exactly stops the program, though
    the leaves fit; [merge_fork_partial] merges the same fork. *)
Theorem c07_full_merge_refuted : exists fos,
  option_map snd (xf_run 3 true [PPush 1; PPush 2] fos) = Some [true; true] /\
  xf_run 3 true [PPush 1; PPush 2] (fos ++ [FMerge]) = None /\
  option_map snd (xf_run 3 true [PPush 1; PPush 2] (fos ++ [FCommit])) = Some [true; true; true].
Proof. exists [FDo (PPush 3); FDo (PPush 4)]. repeat split; vm_compute; reflexivity. Qed.
Print Assumptions c07_full_merge_refuted.
