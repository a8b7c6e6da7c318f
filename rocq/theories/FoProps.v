(** Properties C08 and C09: forests of forked trees. *)
From Coq Require Import List Arith Bool Lia.
From Verif Require Import MtModel MtSpec MtHist MtLemmas MtInner MtInv MtBatch MtFull MtSettled MtTest
  PtModel PtSpec PtLeaf PtAgree PtSim PtPrune PtProps FkSpec FkVirt FkCurrent FkInv FkProps FoSpec FoInv.
Import ListNotations.

(** Operations that leave the committed trees alone. *)
Definition keeps_base {IT} (o : foop IT) : bool :=
  match o with OPrune | OCommit => false | _ => true end.
Definition is_commit {IT} (o : foop IT) : bool := match o with OCommit => true | _ => false end.

Section Props.
Context {LD ID IT : Type}.
Variable dl : LD.
Variable di : ID.
Variable join : ID -> ID -> ID.
Variable joinl : LD -> LD -> ID.
Variable ldeqb : LD -> LD -> bool.
Variable ideqb : ID -> ID -> bool.
Variable dg : IT -> LD.
Variable sh : IT -> nat.
Variable H : nat.
Notation fo_step := (fo_step dl di join joinl ldeqb ideqb dg sh H).
Notation fo_ref := (fo_ref ldeqb dg sh H).
Notation fo_new := (fo_new dl di join joinl ideqb H).
Notation fo_commit := (fo_commit dl di join joinl ideqb H).
Notation fo_rollback := (fo_rollback dl di join joinl ideqb H).
Notation fo_prove := (fo_prove dl di join joinl ldeqb H).
Notation ft_make := (ft_make dl di join joinl ideqb H).
Notation ft_path := (ft_path dl di join joinl H).
Notation spec_root := (spec_root dl di join joinl H).
Notation Shard := (Shard dl di join joinl H (td := true)).

(** ** Exact restoration *)

Lemma all_nth (g : ftree LD ID -> option (ftree LD ID)) : forall f f', fo_all g f = Some f' ->
  length f' = length f /\ forall j t, nth_error f j = Some t -> exists t', nth_error f' j = Some t' /\ g t = Some t'.
Proof.
  induction f as [|t f IH]; intros f' E; cbn [fo_all] in E.
  - injection E as <-. split; auto. intros [|j] t Q; discriminate Q.
  - destruct (g t) as [t'|] eqn:G; [|discriminate]. destruct (fo_all g f) as [r|] eqn:A; [|discriminate]. injection E as <-.
    destruct (IH r eq_refl) as (L & N). split; [cbn; lia|].
    intros [|j] u U; cbn [nth_error] in *; [injection U as <-; eauto|auto].
Qed.

Lemma all_ext (g : ftree LD ID -> option (ftree LD ID)) : forall f f' r, map ft_base f = map ft_base f' ->
  (forall t t', ft_base t = ft_base t' -> g t = g t') -> fo_all g f = Some r -> fo_all g f' = Some r.
Proof.
  induction f as [|t f IH]; intros [|t' f'] r E X A; try discriminate E; auto. cbn [map] in E. injection E as E1 E2.
  cbn [fo_all] in *. rewrite <- (X t t' E1). destruct (g t); [|discriminate].
  destruct (fo_all g f) as [q|] eqn:Q; [|discriminate]. rewrite (IH f' q E2 X eq_refl). auto.
Qed.

Lemma make_base b t : ft_make b = Some t -> ft_base t = b.
Proof. unfold PtModel.ft_make. destruct (branch_of _ _ _ _ _ _ _); [|discriminate]. intro E. injection E as <-. auto. Qed.

Lemma map_upd (g : ftree LD ID -> option (ftree LD ID * bool)) f i f' b : fo_upd f i g = Some (f', b) ->
  (forall t t' c, g t = Some (t', c) -> ft_base t' = ft_base t) -> map ft_base f' = map ft_base f.
Proof.
  intros E X. revert i f' E. induction f as [|t f IH]; intros [|i] f' E; try discriminate E; cbn [fo_upd] in E.
  - destruct (g t) as [[t' c]|] eqn:G; [|discriminate]. injection E as <- <-. cbn. f_equal. eauto.
  - destruct (fo_upd f i g) as [[f1 c]|] eqn:G; [|discriminate]. injection E as <- <-. cbn. f_equal. eauto.
Qed.

Lemma map_batch (push : ftree LD ID -> list LD -> option (ftree LD ID * bool)) : forall f g f' b,
  fo_batch_loop dg push f g = Some (f', b) ->
  (forall t l t' c, push t l = Some (t', c) -> ft_base t' = ft_base t) -> map ft_base f' = map ft_base f.
Proof.
  induction f as [|t f IH]; intros [|x g] f' b E X; cbn [fo_batch_loop] in E; try (injection E as <- <-; auto).
  destruct (push t (map dg x)) as [[t' c]|] eqn:P; [|discriminate].
  destruct (fo_batch_loop dg push f g) as [[f1 c1]|] eqn:Q; [|discriminate]. injection E as <- <-.
  cbn. f_equal; eauto.
Qed.

Lemma step_bases chk f o f' b : keeps_base o = true -> fo_step chk f o = Some (f', b) -> map ft_base f' = map ft_base f.
Proof.
  intros K E. destruct o as [x|x|xs|xs|x| | |]; try discriminate K; cbn [FoSpec.fo_step] in E.
  - eapply map_upd; [exact E|]. intros t t' c G. unfold ft_push in G. destruct (pt_push _ _ _ _ _ _ _). injection G as <- _. auto.
  - eapply map_upd; [exact E|]. intros t t' c G. unfold ft_push_np in G. destruct (pt_push_np _ _ _ _ _ _ _). injection G as <- _. auto.
  - unfold fo_batch_insert in E. destruct (sort_items _ _ _); [|discriminate]. eapply map_batch; [exact E|].
    intros t l0 t' c G. unfold ft_batch in G. destruct (pt_batch_push _ _ _ _ _ _ _) as [[]|]; [|discriminate]. injection G as <- _. auto.
  - unfold fo_batch_insert_np in E. destruct (sort_items _ _ _); [|discriminate]. eapply map_batch; [exact E|].
    intros t l0 t' c G. unfold ft_batch_np in G. destruct (pt_batch_push_np _ _ _ _ _ _ _) as [[]|]; [|discriminate]. injection G as <- _. auto.
  - eapply map_upd; [exact E|]. intros t t' c G. cbv beta in G. destruct (ft_position ldeqb t (dg x)).
    + unfold ft_remove_path in G. destruct (pt_remove_path _ _ _) as [[]|]; [|discriminate]. injection G as <- _. auto.
    + injection G as <- _. auto.
  - unfold with_true in E. destruct (fo_rollback f) as [r|] eqn:Q; [|discriminate]. cbn in E. injection E as <- _.
    unfold PtModel.fo_rollback in Q. apply all_nth in Q. destruct Q as (L & N).
    apply nth_error_ext. intro j. rewrite !nth_error_map. destruct (nth_error f j) as [t|] eqn:J.
    + destruct (N j t J) as (t' & E1 & E2). rewrite E1. cbn. f_equal. unfold ft_reset in E2. now apply make_base in E2.
    + apply nth_error_None in J. rewrite <- L in J. apply nth_error_None in J. rewrite J. auto.
Qed.

Lemma run_bases chk os : forall f f' bs, forallb keeps_base os = true ->
  run (fo_step chk) f os = Some (f', bs) -> map ft_base f' = map ft_base f.
Proof.
  induction os as [|o os IH]; intros f f' bs K E; cbn [run] in E. { injection E as <- _. auto. }
  cbn [forallb] in K. apply andb_true_iff in K. destruct K as [K1 K2].
  destruct (fo_step chk f o) as [[f1 b]|] eqn:E1; [|discriminate].
  destruct (run (fo_step chk) f1 os) as [[f2 bs2]|] eqn:E2; [|discriminate]. injection E as <- _.
  rewrite (IH f1 f2 bs2 K2 E2). eapply step_bases; eauto.
Qed.

(** C08. Whatever is inserted or given up after a commit (or in a new forest), a rollback gives
    back exactly the committed forest. *)
Theorem c08_rollback_restores : forall chk n f g os f' bs,
  fo_new n = Some f \/ fo_commit chk g = Some f ->
  forallb keeps_base os = true -> run (fo_step chk) f os = Some (f', bs) ->
  fo_rollback f' = Some f.
Proof.
  intros chk n f g os f' bs C K R.
  assert (X : forall t t' : ftree LD ID, ft_base t = ft_base t' -> ft_reset dl di join joinl ideqb H t = ft_reset dl di join joinl ideqb H t').
  { intros t t' E. unfold ft_reset. rewrite E. auto. }
  assert (F : forall t, In t f -> ft_reset dl di join joinl ideqb H t = Some t).
  { intros t Ht. unfold ft_reset. assert (exists b, ft_make b = Some t) as (b & E).
    { destruct C as [C|C].
      - unfold PtModel.fo_new, ft_new in C. destruct (ft_make pt_new) as [u|] eqn:U; [|discriminate]. injection C as <-.
        apply repeat_spec in Ht. subst t. eauto.
      - unfold PtModel.fo_commit in C. apply all_nth in C. destruct C as (L & N).
        apply In_nth_error in Ht. destruct Ht as (j & Hj). destruct (nth_error g j) as [u|] eqn:J.
        + destruct (N j u J) as (t' & E1 & E2). rewrite Hj in E1. injection E1 as <-.
          unfold ft_merge_partial in E2. destruct (branch_extract_marked _); [|discriminate].
          destruct (pt_extend_marked _ _ _ _ _ _ _ _) as [[b|]|]; [eauto|discriminate|discriminate].
        + apply nth_error_None in J. rewrite <- L in J. apply nth_error_None in J. congruence. }
    rewrite (make_base b t E). exact E. }
  unfold PtModel.fo_rollback. apply (all_ext _ f f'); auto.
  - symmetry. eapply run_bases; eauto.
  - clear - F. induction f as [|t f IH]; auto. cbn [fo_all]. rewrite (F t) by (left; auto).
    rewrite IH; auto. intros u Hu. apply F. right; auto.
Qed.

Hypothesis HH : 3 <= H.
Hypothesis ldeqb_spec : forall a b, ldeqb a b = true <-> a = b.
Hypothesis ideqb_spec : forall a b, ideqb a b = true <-> a = b.
Hypothesis join_nd : forall a b, join a b <> di.
Hypothesis joinl_nd : forall a b, joinl a b <> di.

(** What a shard reports: its length and root, and proofs of what is stored. *)
Definition reports chk (t : ftree LD ID) (s : fspec LD) : Prop :=
  ft_len t = length (fs_items s) /\
  (fs_ok s = true -> fs_items s <> [] -> ft_root di t = spec_root (fs_leaves s)) /\
  (fs_ok s = true -> forall i x, nth_error (fs_items s) i = Some (false, x) ->
     exists p, ft_path chk t i = Some (Some p) /\ p_index p = i /\
       path_verify join joinl ideqb p (ft_root di t) x = true).

Lemma shard_reports {td} chk t s : FoInv.Shard dl di join joinl H (td := td) t s -> reports chk t s.
Proof.
  intros (fb & f & I).
  destruct (finv_reports dl di join joinl ideqb H HH ideqb_spec join_nd joinl_nd chk t s fb f I) as (A & _ & C & D).
  split; auto.
Qed.

(** C08. A forest run from the start gives the results of the reference; it can only panic
    where the reference does, or when a proof is removed with overflow checks.  Every shard
    reports the items of its own list. *)
Theorem c08_forest_follows_items : forall chk n os,
  exists f, fo_new n = Some f /\
  match run (fo_step chk) f os with
  | Some (f', bs) => exists ss, run fo_ref (repeat (FS [] [] true) n) os = Some (ss, bs) /\ Forall2 (reports chk) f' ss
  | None => run fo_ref (repeat (FS [] [] true) n) os = None \/ chk = true
  end.
Proof.
  intros chk n os. destruct (fo_new_shards (td := true) dl di join joinl ldeqb ideqb H HH ldeqb_spec ideqb_spec join_nd joinl_nd n) as (f & E & F).
  exists f. split; auto.
  pose proof (fo_run_follows dl di join joinl ldeqb ideqb dg sh H HH ldeqb_spec ideqb_spec join_nd joinl_nd chk os f _ F) as R.
  destruct (run (fo_step chk) f os) as [[f' bs]|]; auto. destruct R as (ss & E1 & F1). exists ss. split; auto.
  clear - F1 HH ideqb_spec join_nd joinl_nd. induction F1; constructor; auto. apply (shard_reports (td := true)); auto.
Qed.

(** The reference: without commits the committed items stay. *)
Lemma change_at_base (g : fspec LD -> option (fspec LD * bool)) ss i ss' b : change_at ss i g = Some (ss', b) ->
  (forall s s' c, g s = Some (s', c) -> fs_base s' = fs_base s) -> map fs_base ss' = map fs_base ss.
Proof.
  intros E X. unfold change_at in E. destruct (nth_error ss i) as [a|] eqn:N; [|discriminate].
  destruct (g a) as [[a' c]|] eqn:G; [|discriminate]. cbn [option_map fst snd] in E. injection E as <- _.
  revert i N. induction ss as [|s ss IH]; intros [|i] N; try discriminate N; cbn [nth_error] in N.
  - injection N as ->. cbn. f_equal. eauto.
  - specialize (IH i N). cbn [firstn app map skipn]. f_equal. exact IH.
Qed.

Lemma change_all_base (g : nat -> fspec LD -> option (fspec LD * bool)) : forall ss j ss' b, change_all g j ss = Some (ss', b) ->
  (forall k s s' c, g k s = Some (s', c) -> fs_base s' = fs_base s) -> map fs_base ss' = map fs_base ss.
Proof.
  induction ss as [|s ss IH]; intros j ss' b E X; cbn [change_all] in E. { injection E as <- _. auto. }
  destruct (g j s) as [[s' c]|] eqn:G; [|discriminate]. destruct (change_all g (S j) ss) as [[r c']|] eqn:Q; [|discriminate].
  injection E as <- _. cbn. f_equal; eauto.
Qed.

Lemma fs_do_base (p : pop LD) s s' c : fs_step H false s (FDo p) = Some (s', c) -> fs_base s' = fs_base s.
Proof.
  unfold fs_step. destruct p; intro E; try (injection E as <- _; reflexivity).
  destruct (i <? fs_start s); [injection E as <- _; auto|]. destruct (i <? _); injection E as <- _; auto.
Qed.

Lemma ref_bases os : forall ss ss' bs, forallb (fun o => negb (is_commit o)) os = true ->
  run fo_ref ss os = Some (ss', bs) -> map fs_base ss' = map fs_base ss.
Proof.
  induction os as [|o os IH]; intros ss ss' bs K E; cbn [run] in E. { injection E as <- _. auto. }
  cbn [forallb] in K. apply andb_true_iff in K. destruct K as [K1 K2].
  destruct (fo_ref ss o) as [[s1 b]|] eqn:E1; [|discriminate].
  destruct (run fo_ref s1 os) as [[s2 bs2]|] eqn:E2; [|discriminate]. injection E as <- _.
  rewrite (IH s1 s2 bs2 K2 E2). clear - E1 K1.
  destruct o as [x|x|xs|xs|x| | |]; try discriminate K1; cbn [FoSpec.fo_ref] in E1.
  - eapply change_at_base; [exact E1|]. intros s s' c. apply fs_do_base.
  - eapply change_at_base; [exact E1|]. intros s s' c. apply fs_do_base.
  - destruct (forallb _ xs); [|discriminate]. eapply change_all_base; [exact E1|]. intros k s s' c. apply fs_do_base.
  - destruct (forallb _ xs); [|discriminate]. eapply change_all_base; [exact E1|]. intros k s s' c. apply fs_do_base.
  - eapply change_at_base; [exact E1|]. intros s s' c G. cbv beta in G. destruct (fork_place _ _ _).
    + eapply fs_do_base; eauto.
    + injection G as <- _. auto.
  - eapply change_all_base; [exact E1|]. intros k s s' c. apply fs_do_base.
  - eapply change_all_base; [exact E1|]. intros k s s' c G. injection G as <- _. auto.
Qed.

Lemma change_all_commit : forall (ss : list (fspec LD)) j, change_all (fun _ s => fs_step H false s FCommit) j ss =
  Some (map (fun s => FS (fs_items s) [] true) ss, true).
Proof. induction ss as [|s ss IH]; intro j; cbn [change_all map]; auto. rewrite IH. reflexivity. Qed.
Lemma change_all_reset : forall (ss : list (fspec LD)) j, change_all (fun _ s => fs_step H false s FReset) j ss =
  Some (map (fun s => FS (fs_base s) [] true) ss, true).
Proof. induction ss as [|s ss IH]; intro j; cbn [change_all map]; auto. rewrite IH. reflexivity. Qed.

(** C08. Commit, then any operations but commits (also prunes), then rollback: every shard has
    the items it had when they were committed, with the length and root of then, and a proof of
    every item not given up, the same as at the commit. *)
Theorem c08_commit_is_permanent : forall chk n os1 os2 f f1 bs1,
  fo_new n = Some f -> run (fo_step chk) f os1 = Some (f1, bs1) ->
  forallb (fun o => negb (is_commit o)) os2 = true ->
  exists ss fc, run fo_ref (repeat (FS [] [] true) n) os1 = Some (ss, bs1) /\ fo_commit chk f1 = Some fc /\
    length fc = length f1 /\
    forall f2 bs2, run (fo_step chk) fc os2 = Some (f2, bs2) ->
    exists fr, fo_rollback f2 = Some fr /\ length fr = length f1 /\
    forall j t, nth_error f1 j = Some t -> exists tc tr s,
      nth_error fc j = Some tc /\ nth_error fr j = Some tr /\ nth_error ss j = Some s /\
      ft_len tc = length (fs_items s) /\ ft_len tr = length (fs_items s) /\ ft_len t = length (fs_items s) /\
      (fs_items s <> [] -> ft_root di tc = spec_root (fs_leaves s) /\ ft_root di tr = spec_root (fs_leaves s)) /\
      forall i x, nth_error (fs_items s) i = Some (false, x) ->
        exists p, ft_path chk tc i = Some (Some p) /\ ft_path chk tr i = Some (Some p) /\ p_index p = i /\
          path_verify join joinl ideqb p (spec_root (fs_leaves s)) x = true.
Proof.
  intros chk n os1 os2 f f1 bs1 EN R1 NC.
  destruct (fo_new_shards (td := true) dl di join joinl ldeqb ideqb H HH ldeqb_spec ideqb_spec join_nd joinl_nd n) as (f0 & E0 & F0).
  rewrite EN in E0. injection E0 as <-.
  pose proof (fo_run_follows dl di join joinl ldeqb ideqb dg sh H HH ldeqb_spec ideqb_spec join_nd joinl_nd chk os1 f _ F0) as G.
  rewrite R1 in G. destruct G as (ss & E1 & F1).
  pose proof (fo_step_follows dl di join joinl ldeqb ideqb dg sh H HH ldeqb_spec ideqb_spec join_nd joinl_nd chk f1 ss OCommit F1) as G.
  cbn [FoSpec.fo_step FoSpec.fo_ref] in G. rewrite change_all_commit in G. unfold with_true in G.
  assert (NP : fo_commit chk f1 <> None).
  { intro Q. unfold PtModel.fo_commit in Q.
    destruct (all_change Shard (ft_merge_partial dl di join joinl ideqb H chk) (fun s => fs_step H false s FCommit) f1 ss 0 F1) as (f' & ss' & K1 & _).
    { intros t s R. destruct (shard_all dl di join joinl ideqb H HH ideqb_spec join_nd joinl_nd chk t s FCommit R ltac:(auto)) as (t' & s' & K1 & K2 & K3).
      unfold FkSpec.ft_step, with_true in K1. destruct (ft_merge_partial _ _ _ _ _ _ _ _); [|discriminate].
      cbn in K1. injection K1 as <-. eauto. }
    congruence. }
  destruct (fo_commit chk f1) as [fc|] eqn:EC; [|congruence]. cbn [option_map] in G.
  destruct G as (ssc & Q & FC). injection Q as <-.
  exists ss, fc. split; auto. split; auto.
  assert (LC : length fc = length f1).
  { rewrite (Forall2_len _ _ _ FC), map_length. symmetry. apply (Forall2_len _ _ _ F1). }
  split; auto. intros f2 bs2 R2.
  pose proof (fo_run_follows dl di join joinl ldeqb ideqb dg sh H HH ldeqb_spec ideqb_spec join_nd joinl_nd chk os2 fc _ FC) as G.
  rewrite R2 in G. destruct G as (s2 & E2 & F2). pose proof (ref_bases os2 _ _ _ NC E2) as EB. rewrite map_map in EB. cbn [fs_base] in EB.
  destruct (all_change Shard (ft_reset dl di join joinl ideqb H) (fun s => fs_step H false s FReset) f2 s2 0 F2) as (fr & s3 & K1 & K2 & FR).
  { intros t s R. destruct (shard_all dl di join joinl ideqb H HH ideqb_spec join_nd joinl_nd chk t s FReset R ltac:(auto)) as (t' & s' & K1 & K2 & K3).
    unfold FkSpec.ft_step, with_true in K1. destruct (ft_reset _ _ _ _ _ _ _); [|discriminate].
    cbn in K1. injection K1 as <-. eauto. }
  rewrite change_all_reset in K2. injection K2 as <-.
  assert (S3 : map (fun s => FS (fs_base s) [] true) s2 = map (fun s => FS (fs_items s) [] true) ss).
  { transitivity (map (fun b => FS b [] true) (map fs_base s2)). { rewrite map_map. reflexivity. } rewrite EB, map_map. reflexivity. }
  rewrite S3 in FR. exists fr. split; [exact K1|].
  split. { rewrite (Forall2_len _ _ _ FR), map_length. symmetry. apply (Forall2_len _ _ _ F1). }
  intros j t Ht. destruct (Forall2_nth_error _ _ _ j t F1 Ht) as (s & Hs & ST).
  assert (Hc : exists tc, nth_error fc j = Some tc).
  { destruct (nth_error fc j) eqn:N; eauto. apply nth_error_None in N. assert (j < length f1) by (apply nth_error_Some; congruence). lia. }
  destruct Hc as (tc & Hc). destruct (Forall2_nth_error _ _ _ j tc FC Hc) as (s' & Hs' & SC).
  rewrite nth_error_map, Hs in Hs'. injection Hs' as <-.
  assert (Hr : exists tr, nth_error fr j = Some tr).
  { destruct (nth_error fr j) eqn:N; eauto. apply nth_error_None in N. rewrite (Forall2_len _ _ _ FR), map_length in N.
    assert (j < length ss) by (apply nth_error_Some; congruence). lia. }
  destruct Hr as (tr & Hr). destruct (Forall2_nth_error _ _ _ j tr FR Hr) as (s' & Hs' & SR).
  rewrite nth_error_map, Hs in Hs'. injection Hs' as <-.
  exists tc, tr, s. split; auto. split; auto. split; auto.
  destruct (shard_reports chk t s ST) as (T1 & _).
  destruct (shard_reports chk tc _ SC) as (C1 & C2 & C3). destruct (shard_reports chk tr _ SR) as (D1 & D2 & D3).
  unfold fs_leaves, fs_items in C1, C2, C3, D1, D2, D3. cbn [fs_base fs_fork fs_ok] in C1, C2, C3, D1, D2, D3.
  rewrite app_nil_r in C1, C2, C3, D1, D2, D3. fold (fs_items s) (fs_leaves s) in C1, C2, C3, D1, D2, D3.
  split; auto. split; auto. split; auto. split; [auto|].
  intros i x Hx. destruct (C3 eq_refl i x Hx) as (p & P1 & P2 & P3).
  assert (NE : fs_items s <> []) by (intro Q; rewrite Q in Hx; destruct i; discriminate Hx).
  exists p. split; auto. assert (PE : ft_path chk tr i = ft_path chk tc i); [|rewrite PE, <- (C2 eq_refl NE); auto].
  assert (NX : nth_error (fs_leaves s) i = Some x) by (unfold fs_leaves; rewrite nth_error_map, Hx; reflexivity).
  assert (Hi : i < length (fs_items s)) by (apply nth_error_Some; congruence).
  assert (LL : length (fs_leaves s) = length (fs_items s)) by apply map_length.
  (* both are the canonical path *)
  assert (CAN : forall u, Shard u (FS (fs_items s) [] true) -> ft_path chk u i =
     Some (Some (Path i (nth (sibling i) (fs_leaves s) dl) (spath dl di join joinl H (fs_leaves s) i)))).
  { intros u (fb & g & I). pose proof (fi_strong _ _ _ _ _ _ _ _ _ I eq_refl) as F.
    assert (EL : fs_leaves (FS (fs_items s) [] true) = fs_leaves s).
    { unfold fs_leaves, fs_items. cbn [fs_base fs_fork]. rewrite app_nil_r. reflexivity. }
    rewrite EL in F.
    destruct (Nat.lt_ge_cases i (fs_start (FS (fs_items s) [] true))) as [C|C].
    - rewrite <- EL. apply (finv_path_low dl di join joinl ideqb H HH ideqb_spec join_nd joinl_nd chk u _ fb g i I C).
      + assert (MB : nth_error (map fst (fs_items s)) i = Some false) by (rewrite nth_error_map, Hx; reflexivity).
        destruct (unmarked_alive dl di join joinl H ltac:(lia) _ _ _ (fi_marks _ _ _ _ _ _ _ _ _ I) MB) as [AL _].
        apply alive_liv; auto. apply (sim_rem _ _ _ _ _ (fi_base _ _ _ _ _ _ _ _ _ I)).
      + rewrite EL. exact F.
    - destruct (finv_path_high dl di join joinl ideqb H HH ideqb_spec join_nd joinl_nd chk u _ fb g i I) as (q & Q1 & Q2).
      { unfold fs_items at 2. cbn [fs_base fs_fork]. rewrite app_nil_r. lia. }
      rewrite (full_path_strong dl di join joinl H ltac:(lia) g _ i F ltac:(lia)) in Q2. injection Q2 as <-. exact Q1. }
  rewrite (CAN tr SR), (CAN tc SC). reflexivity.
Qed.

(** C09. An operation on an item changes only the shard of the item: every other tree stays
    as it is, and the items of the others prove as before. *)
Theorem c09_only_own_shard : forall chk f o f' b x,
  o = OInsert x \/ o = OInsertNp x \/ o = ORemove x ->
  fo_step chk f o = Some (f', b) ->
  length f' = length f /\
  (forall j, j <> sh x -> nth_error f' j = nth_error f j) /\
  (forall y, sh y <> sh x -> fo_prove chk dg sh f' y = fo_prove chk dg sh f y) /\
  exists t t', nth_error f (sh x) = Some t /\ nth_error f' (sh x) = Some t' /\
    (o = OInsert x -> (t', b) = ft_push dl di join joinl H t (dg x)) /\
    (o = OInsertNp x -> (t', b) = ft_push_np dl di join joinl H t (dg x)).
Proof.
  intros chk f o f' b x O E.
  assert (U : exists g, fo_upd f (sh x) g = Some (f', b) /\
    (o = OInsert x -> g = fun t => Some (ft_push dl di join joinl H t (dg x))) /\
    (o = OInsertNp x -> g = fun t => Some (ft_push_np dl di join joinl H t (dg x)))).
  { destruct O as [->|[->| ->]]; cbn [FoSpec.fo_step] in E; eexists; (split; [exact E|]); split; intro Q; try discriminate Q; reflexivity. }
  destruct U as (g & U & G1 & G2). destruct (upd_nth g f (sh x) f' b U) as (A & B & t & t' & C1 & C2 & C3).
  split; auto. split; auto. split.
  - intros y NE. unfold PtModel.fo_prove. rewrite (B (sh y) NE). reflexivity.
  - exists t, t'. split; auto. split; auto. split; intro Q.
    + rewrite (G1 Q) in C3. injection C3; intros; congruence.
    + rewrite (G2 Q) in C3. injection C3; intros; congruence.
Qed.

(** C09. A batch reaches each shard as the items of that shard in their order; shards without
    items in the batch are unchanged; the batch succeeds only if every shard took its items. *)
Theorem c09_batch_by_shard : forall chk f xs o f' b,
  o = OBatch xs \/ o = OBatchNp xs -> fo_step chk f o = Some (f', b) ->
  length f' = length f /\ forall j t, nth_error f j = Some t -> exists t' c,
    nth_error f' j = Some t' /\ (b = true -> c = true) /\
    (o = OBatch xs -> ft_batch dl di join joinl H t (map dg (filter (fun x => sh x =? j) xs)) = Some (t', c)) /\
    (o = OBatchNp xs -> ft_batch_np dl di join joinl H t (map dg (filter (fun x => sh x =? j) xs)) = Some (t', c)) /\
    ((forall x, In x xs -> sh x <> j) -> t' = t).
Proof.
  intros chk f xs o f' b O E. pose proof (sort_items_spec sh (length f) xs) as S0.
  assert (EMP : forall j, (forall x, In x xs -> sh x <> j) -> filter (fun x => sh x =? j) xs = []).
  { intros j. clear. induction xs as [|x xs IH]; intro A; auto. cbn [filter].
    destruct (Nat.eqb_spec (sh x) j); [exfalso; apply (A x); [left|]; auto|]. apply IH. intros y Hy. apply A. right; auto. }
  assert (SAME : forall t : ftree LD ID, ft_set_data t (br_data (ft_branch t)) = t) by (intros [? [? ?]]; reflexivity).
  destruct O as [->| ->]; cbn [FoSpec.fo_step] in E; [unfold fo_batch_insert in E|unfold fo_batch_insert_np in E];
  (destruct (forallb _ xs); [destruct S0 as (g & S1 & S2 & S3); rewrite S1 in E|rewrite S0 in E; discriminate E]);
  (destruct (batch_loop_nth dg _ f g f' b S2 E) as (L & N); split; auto; intros j t Ht;
   destruct (N j t Ht) as (t' & c & K1 & K2 & K3); rewrite S3 in K2; exists t', c; split; auto; split; auto;
   split; [intro Q; (discriminate Q || exact K2)|]; split; [intro Q; (discriminate Q || exact K2)|]).
  - intro NO. rewrite (EMP j NO) in K2. cbn [map] in K2. unfold ft_batch in K2.
    destruct (pt_batch_push dl di join joinl H (br_data (ft_branch t)) []) as [[u c']|] eqn:Q; [|discriminate].
    assert (u = br_data (ft_branch t)) as ->. { unfold pt_batch_push, pt_batch in Q. cbn in Q. congruence. }
    injection K2 as <- _. auto.
  - intro NO. rewrite (EMP j NO) in K2. cbn [map] in K2. unfold ft_batch_np in K2.
    destruct (pt_batch_push_np dl di join joinl H (br_data (ft_branch t)) []) as [[u c']|] eqn:Q; [|discriminate].
    assert (u = br_data (ft_branch t)) as ->. { unfold pt_batch_push_np, pt_batch in Q. cbn in Q. congruence. }
    injection K2 as <- _. auto.
Qed.

(** Whatever the base was built from, an item that is kept and whose digest occurs only once has
    a proof that verifies. *)
Lemma shards_prove_once {td} chk f' ss : Forall2 (FoInv.Shard dl di join joinl H (td := td)) f' ss ->
  forall x s, nth_error ss (sh x) = Some s -> fs_ok s = true -> In (false, dg x) (fs_items s) ->
  (forall i j, nth_error (fs_leaves s) i = Some (dg x) -> nth_error (fs_leaves s) j = Some (dg x) -> i = j) ->
  exists t p, nth_error f' (sh x) = Some t /\ fo_prove chk dg sh f' x = Some (Some (p, ft_root di t)) /\
    ft_root di t = spec_root (fs_leaves s) /\ nth_error (fs_leaves s) (p_index p) = Some (dg x) /\
    path_verify join joinl ideqb p (ft_root di t) (dg x) = true.
Proof.
  intros F1 x s Hs OK HI UN.
  assert (Ht : exists t, nth_error f' (sh x) = Some t).
  { destruct (nth_error f' (sh x)) eqn:N; eauto. apply nth_error_None in N. rewrite (Forall2_len _ _ _ F1) in N.
    apply nth_error_None in N. congruence. }
  destruct Ht as (t & Ht). destruct (Forall2_nth_error _ _ _ _ _ F1 Ht) as (s' & Hs' & fb & g & I).
  rewrite Hs in Hs'. injection Hs' as <-. exists t.
  pose proof (ft_position_spec dl di join joinl ldeqb ideqb H HH ldeqb_spec ideqb_spec join_nd joinl_nd t s fb g (dg x) I) as P.
  destruct (finv_reports dl di join joinl ideqb H HH ideqb_spec join_nd joinl_nd chk t s fb g I) as (_ & _ & RT & PA).
  apply In_nth_error in HI. destruct HI as (k & Hk).
  assert (NK : nth_error (fs_leaves s) k = Some (dg x)) by (unfold fs_leaves; rewrite nth_error_map, Hk; reflexivity).
  destruct (PA OK k (dg x) (or_introl Hk)) as (p & P1 & P2 & P3). exists p. split; auto.
  unfold PtModel.fo_prove. rewrite Ht. destruct (ft_position ldeqb t (dg x)) as [i|].
  - destruct P as (NX & _). rewrite (UN i k NX NK), P1. split; auto. split.
    { apply RT; auto. intro Q. rewrite Q in Hk. destruct k; discriminate. }
    split; [rewrite P2; auto|]. exact P3.
  - destruct P as (_ & P). exfalso. apply P. apply (nth_error_In _ k). exact Hk.
Qed.

(** Proofs from trees in the invariant. *)
Lemma shards_prove chk f' ss : Forall2 Shard f' ss ->
  forall x s, nth_error ss (sh x) = Some s -> fs_ok s = true ->
  exists t, nth_error f' (sh x) = Some t /\
  (forall p r, fo_prove chk dg sh f' x = Some (Some (p, r)) ->
     r = ft_root di t /\ r = spec_root (fs_leaves s) /\ nth_error (fs_leaves s) (p_index p) = Some (dg x) /\
     path_verify join joinl ideqb p r (dg x) = true) /\
  (In (false, dg x) (fs_items s) -> exists p r, fo_prove chk dg sh f' x = Some (Some (p, r))).
Proof.
  intros F1 x s Hs OK.
  assert (Ht : exists t, nth_error f' (sh x) = Some t).
  { destruct (nth_error f' (sh x)) eqn:N; eauto. apply nth_error_None in N. rewrite (Forall2_len _ _ _ F1) in N.
    apply nth_error_None in N. congruence. }
  destruct Ht as (t & Ht). destruct (Forall2_nth_error _ _ _ _ _ F1 Ht) as (s' & Hs' & fb & g & I).
  rewrite Hs in Hs'. injection Hs' as <-. exists t. split; auto.
  pose proof (ft_position_spec dl di join joinl ldeqb ideqb H HH ldeqb_spec ideqb_spec join_nd joinl_nd t s fb g (dg x) I) as P.
  pose proof (fi_strong _ _ _ _ _ _ _ _ _ I OK) as F.
  assert (LL : length (fs_leaves s) = length (fs_items s)) by apply map_length.
  assert (KEY : forall i, ft_position ldeqb t (dg x) = Some i ->
    nth_error (fs_leaves s) i = Some (dg x) /\ ft_path chk t i =
     Some (Some (Path i (nth (sibling i) (fs_leaves s) dl) (spath dl di join joinl H (fs_leaves s) i)))).
  { intros i Q. rewrite Q in P. destruct P as (NX & P). split; auto. destruct P as [(C & _)|(C & PR & _)].
    - destruct (finv_path_high dl di join joinl ideqb H HH ideqb_spec join_nd joinl_nd chk t s fb g i I C) as (q & Q1 & Q2).
      rewrite (full_path_strong dl di join joinl H ltac:(lia) g _ i F ltac:(lia)) in Q2. injection Q2 as <-. exact Q1.
    - apply (finv_path_low dl di join joinl ideqb H HH ideqb_spec join_nd joinl_nd chk t s fb g i I C PR F). }
  unfold PtModel.fo_prove. rewrite Ht. destruct (ft_position ldeqb t (dg x)) as [i|].
  - destruct (KEY i eq_refl) as (NX & PA). rewrite PA. split; [|eauto].
    intros p r Q. injection Q as <- <-. cbn [p_index].
    assert (Hi : i < length (fs_leaves s)) by (apply nth_error_Some; congruence).
    assert (RT : ft_root di t = spec_root (fs_leaves s)).
    { destruct (shard_reports (td := true) chk t s) as (_ & RT & _). { exists fb, g. auto. } apply RT; auto.
      intro Q. rewrite Q in LL. cbn in LL. lia. }
    split; auto. split; auto. split; auto. unfold path_verify. apply ideqb_spec. rewrite RT.
    rewrite spec_root_sd, <- (nth_error_nth _ _ dl NX). symmetry. apply spath_root; [lia|].
    pose proof (finv_cap dl di join joinl H _ _ _ _ I). pose proof (capacity_le H). lia.
  - split; [discriminate|]. intro HI. destruct P as (_ & P). contradiction.
Qed.

(** C09. In a forest run from the start, whose shards end settled: a proof that is returned
    verifies for its item against the root returned with it, which is the root of the shard and
    the specified root of its items; and every item inserted in its shard and not given up has a proof. *)
Theorem c09_proof_verifies : forall chk n os f f' bs,
  fo_new n = Some f -> run (fo_step chk) f os = Some (f', bs) ->
  exists ss, run fo_ref (repeat (FS [] [] true) n) os = Some (ss, bs) /\
  forall x s, nth_error ss (sh x) = Some s -> fs_ok s = true ->
  exists t, nth_error f' (sh x) = Some t /\
  (forall p r, fo_prove chk dg sh f' x = Some (Some (p, r)) ->
     r = ft_root di t /\ r = spec_root (fs_leaves s) /\ nth_error (fs_leaves s) (p_index p) = Some (dg x) /\
     path_verify join joinl ideqb p r (dg x) = true) /\
  (In (false, dg x) (fs_items s) -> exists p r, fo_prove chk dg sh f' x = Some (Some (p, r))).
Proof.
  intros chk n os f f' bs EN R.
  destruct (fo_new_shards (td := true) dl di join joinl ldeqb ideqb H HH ldeqb_spec ideqb_spec join_nd joinl_nd n) as (f0 & E0 & F0).
  rewrite EN in E0. injection E0 as <-.
  pose proof (fo_run_follows dl di join joinl ldeqb ideqb dg sh H HH ldeqb_spec ideqb_spec join_nd joinl_nd chk os f _ F0) as G.
  rewrite R in G. destruct G as (ss & E1 & F1). exists ss. split; auto. apply (shards_prove chk f' ss F1).
Qed.
End Props.
Print Assumptions c08_rollback_restores.
Print Assumptions c08_forest_follows_items.
Print Assumptions c08_commit_is_permanent.
Print Assumptions c09_only_own_shard.
Print Assumptions c09_batch_by_shard.
Print Assumptions c09_proof_verifies.

(** ** Concrete cases *)

(** Items are numbers, the shard is the parity. *)
Definition xo_sh (x : nat) : nat := x mod 2.
Definition xo_step := FoSpec.fo_step 0 D0 DJ DL Nat.eqb dig_eqb (fun x : nat => x) xo_sh.
Definition xo_new H n := match fo_new 0 D0 DJ DL dig_eqb H n with Some f => f | None => [] end.
Definition xo_run H chk n os := run (xo_step H chk) (xo_new H n) os.
Definition xo_proves H f x : bool :=
  match fo_prove 0 D0 DJ DL Nat.eqb H false (fun x : nat => x) xo_sh f x with
  | Some (Some (p, r)) => path_verify DJ DL dig_eqb p r x
  | _ => false
  end.
Definition xo_ops1 : list (foop nat) := [OInsert 3; OBatchNp [4; 5; 7; 6]; OInsert 8; ORemove 3; OInsert 10].
Definition xo_ops2 : list (foop nat) := [OBatch [11; 12; 13]; OPrune; ORemove 8; ORollback; OInsert 14].

Example ex_c08_reference : run (fo_ref Nat.eqb (fun x : nat => x) xo_sh 4) (repeat (FS [] [] true) 2) (xo_ops1 ++ OCommit :: xo_ops2) =
  Some ([FS [(true, 4); (true, 6); (false, 8); (false, 10)] [(false, 14)] true; FS [(true, 3); (true, 5); (true, 7)] [] true],
        [true; true; true; true; true; true; true; true; true; true; true]).
Proof. reflexivity. Qed.
Example ex_c08_run : option_map snd (xo_run 4 true 2 (xo_ops1 ++ OCommit :: xo_ops2)) =
  Some [true; true; true; true; true; true; true; true; true; true; true].
Proof. vm_compute. reflexivity. Qed.
Example ex_c08_hypotheses : forallb keeps_base [OBatch [11; 12]; ORemove 8; ORollback; OInsert 14] = true /\
  forallb (fun o => negb (is_commit o)) xo_ops2 = true.
Proof. split; reflexivity. Qed.
Example ex_c09_proofs :
  match xo_run 4 true 2 (xo_ops1 ++ OCommit :: xo_ops2) with
  | Some (f, _) => xo_proves 4 f 8 && xo_proves 4 f 14 && negb (xo_proves 4 f 4) && negb (xo_proves 4 f 11)
  | None => false
  end = true.
Proof. vm_compute. reflexivity. Qed.
Example ex_c09_batch : shard_items (fun x : nat => x) xo_sh 1 [4; 5; 7; 6] = [5; 7] /\
  shard_items (fun x : nat => x) xo_sh 0 [4; 5; 7; 6] = [4; 6].
Proof. split; reflexivity. Qed.

(** Without the condition on settled shards a proof may not verify: after a batch that leaves
    the inner nodes unsettled, the proof of an item of the batch fails. *)
Theorem c09_unsettled_proof_refuted : exists H n os f bs xs x p r,
  xo_run H true n os = Some (f, bs) /\ 3 <= H /\ In (OBatch xs) os /\ In x xs /\
  fo_prove 0 D0 DJ DL Nat.eqb H true (fun x : nat => x) xo_sh f x = Some (Some (p, r)) /\
  path_verify DJ DL dig_eqb p r x = false.
Proof.
  pose (os := [OInsert 2; OInsert 4; OBatch [6; 8; 10]]).
  pose (r := match xo_run 4 true 1 os with Some r => r | None => ([], []) end).
  pose (q := match fo_prove 0 D0 DJ DL Nat.eqb 4 true (fun x : nat => x) xo_sh (fst r) 10 with Some (Some q) => q | _ => (Path 0 0 [], D0) end).
  exists 4, 1, os, (fst r), (snd r), [6; 8; 10], 10, (fst q), (snd q). split; [rewrite <- surjective_pairing; reflexivity|].
  split; [auto|]. split; [cbn; auto|]. split; [cbn; auto|]. split; vm_compute; reflexivity.
Qed.
Print Assumptions c09_unsettled_proof_refuted.
