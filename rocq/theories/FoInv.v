(** Forests follow their reference. *)
From Coq Require Import List Arith Bool Lia.
From Verif Require Import MtModel MtSpec MtHist MtLemmas MtInner MtInv MtBatch MtFull MtSettled
  PtModel PtSpec PtLeaf PtAgree PtSim PtPrune PtProps FkSpec FkVirt FkCurrent FkInv FkProps FoSpec.
Import ListNotations.

Lemma find_pos_same {A B} (p : A -> bool) (q : B -> bool) l m :
  Forall2 (fun a b => p a = q b) l m -> find_pos p l = find_pos q m.
Proof. induction 1; cbn; auto. rewrite H, IHForall2. reflexivity. Qed.

Lemma Forall2_nth {A B} (R : A -> B -> Prop) l m : length l = length m ->
  (forall i a b, nth_error l i = Some a -> nth_error m i = Some b -> R a b) -> Forall2 R l m.
Proof.
  revert m. induction l as [|a l IH]; intros [|b m] E N; try discriminate E; constructor.
  - apply (N 0); reflexivity.
  - apply IH. { cbn in E; lia. } intros i x y. apply (N (S i)).
Qed.

Lemma Forall2_len {A B} (R : A -> B -> Prop) l m : Forall2 R l m -> length l = length m.
Proof. induction 1; cbn; auto. Qed.

Lemma Forall2_nth_error {A B} (R : A -> B -> Prop) l m i a : Forall2 R l m -> nth_error l i = Some a ->
  exists b, nth_error m i = Some b /\ R a b.
Proof. intro F. revert i. induction F; intros [|i] E; try discriminate E; cbn in *; eauto. injection E as <-. eauto. Qed.

Section Lists.
Context {LD ID IT : Type}.
Notation ftree := (ftree LD ID).

(** [fo_upd] and [change_at]. *)
Lemma upd_change {B} (R : ftree -> B -> Prop) (g : ftree -> option (ftree * bool)) (h : B -> option (B * bool)) :
  forall f ss i, Forall2 R f ss ->
  (forall t s, R t s -> match g t with Some (t', b) => exists s', h s = Some (s', b) /\ R t' s' | None => True end) ->
  match fo_upd f i g with
  | Some (f', b) => exists ss', change_at ss i h = Some (ss', b) /\ Forall2 R f' ss'
  | None => True
  end.
Proof.
  intros f ss i F ST. revert i. induction F as [|t s f ss Rt F IH]; intros i; [exact Logic.I|].
  destruct i as [|i]; cbn [fo_upd].
  - specialize (ST t s Rt). destruct (g t) as [[t' b]|]; auto. destruct ST as (s' & E & R').
    unfold change_at. cbn [nth_error]. rewrite E. cbn. eexists. split; [reflexivity|]. constructor; auto.
  - specialize (IH i). destruct (fo_upd f i g) as [[f' b]|]; auto. destruct IH as (ss' & E & R').
    unfold change_at in *. cbn [nth_error]. destruct (nth_error ss i) as [a|]; [|discriminate].
    destruct (h a) as [[a' b']|]; [|discriminate]. cbn in E. injection E as <- <-.
    exists (s :: firstn i ss ++ a' :: skipn (S i) ss). split; [reflexivity|]. constructor; auto.
Qed.

Lemma upd_total {B} (R : ftree -> B -> Prop) (g : ftree -> option (ftree * bool)) :
  forall f ss i, Forall2 R f ss -> i < length f -> (forall t s, R t s -> g t <> None) -> fo_upd f i g <> None.
Proof.
  intros f ss i F. revert i. induction F as [|t s f ss Rt F IH]; intros i Hi N; [cbn in Hi; lia|].
  destruct i as [|i]; cbn [fo_upd].
  - specialize (N t s Rt). destruct (g t) as [[]|]; congruence.
  - cbn in Hi. specialize (IH i ltac:(lia) N). destruct (fo_upd f i g) as [[]|]; congruence.
Qed.

Lemma upd_nth (g : ftree -> option (ftree * bool)) : forall f i f' b, fo_upd f i g = Some (f', b) ->
  length f' = length f /\ (forall j, j <> i -> nth_error f' j = nth_error f j) /\
  exists t t', nth_error f i = Some t /\ nth_error f' i = Some t' /\ g t = Some (t', b).
Proof.
  induction f as [|t f IH]; intros [|i] f' b E; try discriminate E; cbn [fo_upd] in E.
  - destruct (g t) as [[t' c]|] eqn:G; [|discriminate]. injection E as <- <-. split; [reflexivity|]. split.
    + intros [|j] N; [congruence|reflexivity].
    + exists t, t'. auto.
  - destruct (fo_upd f i g) as [[f1 c]|] eqn:G; [|discriminate]. injection E as <- <-.
    destruct (IH i f1 c G) as (A & B & t1 & t2 & C1 & C2 & C3). split; [cbn; lia|]. split.
    + intros [|j] N; [reflexivity|]. cbn [nth_error]. apply B. congruence.
    + exists t1, t2. auto.
Qed.

(** [fo_all] and [change_all]. *)
Lemma all_change {B} (R : ftree -> B -> Prop) (g : ftree -> option ftree) (h : B -> option (B * bool)) :
  forall f ss j, Forall2 R f ss ->
  (forall t s, R t s -> exists t' s', g t = Some t' /\ h s = Some (s', true) /\ R t' s') ->
  exists f' ss', fo_all g f = Some f' /\ change_all (fun _ => h) j ss = Some (ss', true) /\ Forall2 R f' ss'.
Proof.
  intros f ss j F ST. revert j. induction F as [|t s f ss Rt F IH]; intros j.
  - exists [], []. auto.
  - destruct (ST t s Rt) as (t' & s' & E1 & E2 & R'). destruct (IH (S j)) as (f' & ss' & E3 & E4 & R2).
    exists (t' :: f'), (s' :: ss'). cbn [fo_all change_all]. rewrite E1, E2, E3, E4. auto.
Qed.

(** Grouping. *)
Lemma sort_push_spec i (x : IT) : forall g,
  match sort_push i x g with
  | Some g' => i < length g /\ length g' = length g /\ forall j, nth j g' [] = if j =? i then nth j g [] ++ [x] else nth j g []
  | None => length g <= i
  end.
Proof.
  induction i as [|i IH]; intros [|l g]; cbn [sort_push]; try (cbn; lia).
  - split; [cbn; lia|]. split; [reflexivity|]. intros [|j]; reflexivity.
  - specialize (IH g). destruct (sort_push i x g) as [g'|]; [|cbn; lia].
    destruct IH as (A & B & C). split; [cbn; lia|]. split; [cbn; lia|]. intros [|j]; [reflexivity|].
    cbn [nth]. rewrite C. reflexivity.
Qed.

Lemma sort_loop_spec (sh : IT -> nat) : forall xs g,
  if forallb (fun x => sh x <? length g) xs
  then exists g', sort_loop sh xs g = Some g' /\ length g' = length g /\
    forall j, nth j g' [] = nth j g [] ++ filter (fun x => sh x =? j) xs
  else sort_loop sh xs g = None.
Proof.
  induction xs as [|x xs IH]; intro g; cbn [forallb sort_loop].
  - exists g. split; auto. split; auto. intro j. cbn. now rewrite app_nil_r.
  - pose proof (sort_push_spec (sh x) x g) as P. destruct (sort_push (sh x) x g) as [g1|].
    + destruct P as (A & B & C). rewrite (proj2 (Nat.ltb_lt _ _) A). cbn [andb].
      specialize (IH g1). rewrite B in IH. destruct (forallb _ xs); auto.
      destruct IH as (g' & E & F & G). exists g'. split; auto. split; auto. intro j.
      rewrite G, C. cbn [filter]. rewrite (Nat.eqb_sym (sh x) j). destruct (j =? sh x); auto.
      rewrite <- app_assoc. reflexivity.
    + rewrite (proj2 (Nat.ltb_ge _ _) P). reflexivity.
Qed.

Lemma sort_items_spec (sh : IT -> nat) n xs :
  if forallb (fun x => sh x <? n) xs
  then exists g, sort_items sh n xs = Some g /\ length g = n /\ forall j, nth j g [] = filter (fun x => sh x =? j) xs
  else sort_items sh n xs = None.
Proof.
  unfold sort_items. pose proof (sort_loop_spec sh xs (repeat [] n)) as P. rewrite repeat_length in P.
  destruct (forallb _ xs); auto. destruct P as (g & A & B & C). exists g. split; auto. split; auto.
  intro j. rewrite C. destruct (Nat.lt_ge_cases j n) as [J|J].
  - rewrite nth_repeat. reflexivity.
  - rewrite nth_overflow by (rewrite repeat_length; auto). reflexivity.
Qed.

Lemma batch_loop_change {B} (R : ftree -> B -> Prop) (dg : IT -> LD) push (h : nat -> B -> option (B * bool)) :
  forall f ss j0 g, Forall2 R f ss -> length g = length f ->
  (forall j t s, j < length g -> R t s -> exists t' s' b, push t (map dg (nth j g [])) = Some (t', b) /\ h (j0 + j) s = Some (s', b) /\ R t' s') ->
  exists f' ss' b, fo_batch_loop dg push f g = Some (f', b) /\ change_all h j0 ss = Some (ss', b) /\ Forall2 R f' ss'.
Proof.
  intros f ss j0 g F. revert j0 g. induction F as [|t s f ss Rt F IH]; intros j0 g E ST.
  - exists [], [], true. destruct g; auto.
  - destruct g as [|x g]; [discriminate E|].
    destruct (ST 0 t s ltac:(cbn; lia) Rt) as (t' & s' & b & E1 & E2 & R'). rewrite Nat.add_0_r in E2.
    destruct (IH (S j0) g ltac:(cbn in E; lia)) as (f' & ss' & b' & E3 & E4 & R2).
    { intros j u v Hj Ru. destruct (ST (S j) u v ltac:(cbn; lia) Ru) as (t2 & s2 & b2 & K1 & K2 & K3).
      exists t2, s2, b2. replace (S j0 + j) with (j0 + S j) by lia. auto. }
    exists (t' :: f'), (s' :: ss'), (b && b'). cbn [fo_batch_loop change_all]. cbn [nth] in E1.
    rewrite E1, E2, E3, E4. auto.
Qed.

Lemma batch_loop_nth (dg : IT -> LD) (push : ftree -> list LD -> option (ftree * bool)) : forall f g f' b, length g = length f ->
  fo_batch_loop dg push f g = Some (f', b) -> length f' = length f /\
  forall j t, nth_error f j = Some t -> exists t' c, nth_error f' j = Some t' /\ push t (map dg (nth j g [])) = Some (t', c) /\ (b = true -> c = true).
Proof.
  induction f as [|t f IH]; intros [|x g] f' b E L; try discriminate E; cbn [fo_batch_loop] in L.
  - injection L as <- <-. split; auto. intros [|j] t Q; discriminate Q.
  - destruct (push t (map dg x)) as [[t' c]|] eqn:P; [|discriminate].
    destruct (fo_batch_loop dg push f g) as [[f1 c1]|] eqn:Q; [|discriminate]. injection L as <- <-.
    destruct (IH g f1 c1 ltac:(cbn in E; lia) Q) as (A & B). split; [cbn; lia|].
    intros [|j] u U; cbn [nth_error nth] in *.
    + injection U as <-. exists t', c. split; auto. split; auto. intro W. apply andb_true_iff in W. apply W.
    + destruct (B j u U) as (t2 & c2 & K1 & K2 & K3). exists t2, c2. split; auto. split; auto.
      intro W. apply K3. apply andb_true_iff in W. apply W.
Qed.
End Lists.

Section Inv.
Context {LD ID IT : Type}.
Variable dl : LD.
Variable di : ID.
Variable join : ID -> ID -> ID.
Variable joinl : LD -> LD -> ID.
Variable ldeqb : LD -> LD -> bool.
Variable ideqb : ID -> ID -> bool.
Variable dg : IT -> LD.
Variable sh : IT -> nat.
Variable H : nat.
Hypothesis HH : 3 <= H.
Hypothesis ldeqb_spec : forall a b, ldeqb a b = true <-> a = b.
Hypothesis ideqb_spec : forall a b, ideqb a b = true <-> a = b.
Hypothesis join_nd : forall a b, join a b <> di.
Hypothesis joinl_nd : forall a b, joinl a b <> di.
Context {td : bool}.
Notation FInv := (FInv dl di join joinl H (td := td)).
Notation ft_step := (ft_step dl di join joinl ideqb H).
Notation fo_step := (fo_step dl di join joinl ldeqb ideqb dg sh H).
Notation fo_ref := (fo_ref ldeqb dg sh H).

Definition Shard (t : ftree LD ID) (s : fspec LD) : Prop := exists fb f, FInv t s fb f.

Lemma branch_leaf t s fb f i : FInv t s fb f -> fs_start s <= i < length (fs_items s) ->
  exists b x, nth_error (pt_lm (br_data (ft_branch t))) (i - fs_start s) = Some (Some (b, x)) /\
    nth_error (fs_leaves s) i = Some x.
Proof.
  intros I Hi. pose proof (fi_fork _ _ _ _ _ _ _ _ _ I) as [W _].
  pose proof (simw_leaf _ _ _ _ _ W) as [LL LA]. rewrite (proj1 (fi_weak _ _ _ _ _ _ _ _ _ I)) in LL, LA.
  pose proof (fi_start _ _ _ _ _ _ _ _ _ I) as ES.
  rewrite virt_length, ES in LL.
  assert (LF : length (fs_leaves s) = length (fs_items s)) by apply map_length.
  destruct (nth_error (pt_lm (br_data (ft_branch t))) (i - fs_start s)) as [[[b x]|]|] eqn:E.
  - exists b, x. split; auto. apply (LA i b x). rewrite <- E, <- ES.
    replace i with (pt_start (br_data (ft_branch t)) + (i - pt_start (br_data (ft_branch t)))) at 1 by lia. apply virt_nth.
  - exfalso. revert E. apply (wfb_full _ (fi_wfb _ _ _ _ _ _ _ _ _ I)).
  - exfalso. apply nth_error_None in E. lia.
Qed.

Lemma fork_place_eq t s fb f d : FInv t s fb f -> pt_position ldeqb (br_data (ft_branch t)) d = fork_place ldeqb s d.
Proof.
  intros I. unfold pt_position, fork_place, lm_position. rewrite (fi_start _ _ _ _ _ _ _ _ _ I).
  pose proof (finv_len dl di join joinl ideqb H HH ideqb_spec join_nd joinl_nd _ _ _ _ I) as LN.
  rewrite pt_len_eq, (fi_start _ _ _ _ _ _ _ _ _ I) in LN.
  assert (LF : length (fs_leaves s) = length (fs_items s)) by apply map_length.
  rewrite (find_pos_same _ (fun x => ldeqb x d) _ (skipn (fs_start s) (fs_leaves s))).
  - destruct (find_pos _ _); cbn; auto. f_equal. lia.
  - apply Forall2_nth. { rewrite skipn_length. lia. }
    intros i a b Ha Hb.
    assert (Hi : i < length (pt_lm (br_data (ft_branch t)))) by (apply nth_error_Some; congruence).
    destruct (branch_leaf t s fb f (fs_start s + i) I ltac:(lia)) as (m & x & E1 & E2).
    replace (fs_start s + i - fs_start s) with i in E1 by lia. rewrite Ha in E1. injection E1 as ->.
    assert (NS : nth_error (skipn (fs_start s) (fs_leaves s)) i = nth_error (fs_leaves s) (fs_start s + i)).
    { clear. generalize (fs_start s) (fs_leaves s). induction n; intro l; cbn; auto. destruct l; cbn; auto. destruct i; auto. }
    rewrite NS, E2 in Hb. injection Hb as ->. reflexivity.
Qed.

(** What [position] finds. *)
Lemma ft_position_spec t s fb f d : FInv t s fb f ->
  match ft_position ldeqb t d with
  | Some i => nth_error (fs_leaves s) i = Some d /\
      (fs_start s <= i < length (fs_items s) /\ fork_place ldeqb s d = Some i \/
       i < fs_start s /\ present (pt_lm (ft_base t)) i /\ fork_place ldeqb s d = None)
  | None => fork_place ldeqb s d = None /\ ~ In (false, d) (fs_items s)
  end.
Proof.
  intro I. unfold ft_position. rewrite (fork_place_eq t s fb f d I).
  assert (LF : length (fs_leaves s) = length (fs_items s)) by apply map_length.
  assert (NS : forall i, nth_error (skipn (fs_start s) (fs_leaves s)) i = nth_error (fs_leaves s) (fs_start s + i)).
  { clear. intro i. generalize (fs_start s) (fs_leaves s). induction n; intro l; cbn; auto. destruct l; cbn; auto. destruct i; auto. }
  destruct (fork_place ldeqb s d) as [i|] eqn:E.
  - unfold fork_place in E. destruct (find_pos _ _) as [k|] eqn:F; [|discriminate]. cbn [option_map] in E. injection E as <-.
    apply find_pos_some in F. destruct F as (x & Ex & Fx & _). apply ldeqb_spec in Fx. subst x. rewrite NS in Ex.
    split; auto. left. split; auto. split; [lia|]. rewrite <- LF. apply nth_error_Some. congruence.
  - unfold fork_place in E. destruct (find_pos _ (skipn _ _)) as [k|] eqn:F; [discriminate|]. clear E.
    pose proof (find_pos_none _ _ F) as FN.
    pose proof (fi_base _ _ _ _ _ _ _ _ _ I) as SM.
    pose proof (sim_leaf _ _ _ _ _ SM) as [BL BA]. rewrite (proj1 (fi_bweak _ _ _ _ _ _ _ _ _ I)) in BL, BA.
    assert (PRE : forall i x, nth_error (map snd (fs_base s)) i = Some x -> nth_error (fs_leaves s) i = Some x).
    { intros i x Hx. unfold fs_leaves, fs_items. rewrite map_app, nth_error_app1; auto. apply nth_error_Some. congruence. }
    assert (LOW : forall i, nth_error (fs_leaves s) i = Some d -> i < fs_start s).
    { intros i Hi. destruct (Nat.lt_ge_cases i (fs_start s)) as [C|C]; auto. exfalso.
      assert (HI : In d (skipn (fs_start s) (fs_leaves s))).
      { apply (nth_error_In _ (i - fs_start s)). rewrite NS. rewrite <- Hi. f_equal. lia. }
      pose proof (FN d HI) as Q. cbv beta in Q. rewrite (proj2 (ldeqb_spec d d) eq_refl) in Q. discriminate. }
    unfold pt_position, lm_position. destruct (find_pos _ (pt_lm (ft_base t))) as [i|] eqn:G; cbn [option_map].
    + apply find_pos_some in G. destruct G as ([[b x]|] & Ex & Fx & _); [|discriminate]. apply ldeqb_spec in Fx. subst x.
      rewrite (sim_start _ _ _ _ _ SM), Nat.add_0_r. pose proof (PRE _ _ (BA _ _ _ Ex)) as N. split; auto.
      right. split; [apply LOW; auto|]. split; auto. unfold present. rewrite Ex. discriminate.
    + split; auto. intro HI. apply In_nth_error in HI. destruct HI as (i & Hi).
      assert (NX : nth_error (fs_leaves s) i = Some d) by (unfold fs_leaves; rewrite nth_error_map, Hi; reflexivity).
      pose proof (LOW i NX) as C. pose proof (start_le s).
      unfold fs_items in Hi. rewrite nth_error_app1 in Hi by lia.
      assert (MB : nth_error (map fst (fs_base s)) i = Some false) by (rewrite nth_error_map, Hi; reflexivity).
      destruct (unmarked_alive dl di join joinl H ltac:(lia) _ _ _ (fi_marks _ _ _ _ _ _ _ _ _ I) MB) as [_ [y Ey]].
      pose proof (find_pos_none _ _ G (Some (false, y)) (nth_error_In _ _ Ey)) as Q. cbv beta iota in Q.
      pose proof (PRE _ _ (BA _ _ _ Ey)) as N2. rewrite NX in N2. injection N2 as ->.
      rewrite (proj2 (ldeqb_spec y y) eq_refl) in Q. discriminate.
Qed.

Lemma shard_insert chk t s p : Shard t s -> is_insert p = true ->
  exists t' s' b, ft_step chk t (FDo p) = Some (t', b) /\ fs_step H false s (FDo p) = Some (s', b) /\ Shard t' s'.
Proof.
  intros (fb & f & I) EI.
  destruct (finv_insert dl di join joinl ideqb H HH ideqb_spec join_nd joinl_nd chk t s fb f p I EI) as (t' & s' & f' & b & E1 & E2 & _ & _ & I').
  exists t', s', b. split; auto. split; [|exists fb, f'; auto]. rewrite <- E2. destruct p; try discriminate EI; reflexivity.
Qed.

Lemma shard_remove chk t s d : Shard t s ->
  match (match ft_position ldeqb t d with None => Some (t, false) | Some i => ft_remove_path chk t i end) with
  | Some (t', b) => exists s', (match fork_place ldeqb s d with Some i => fs_step H false s (FDo (PRemove i)) | None => Some (s, false) end)
       = Some (s', b) /\ Shard t' s'
  | None => chk = true
  end.
Proof.
  intros (fb & f & I). pose proof (ft_position_spec t s fb f d I) as P.
  destruct (ft_position ldeqb t d) as [i|].
  - destruct P as (_ & P).
    pose proof (finv_remove dl di join joinl ideqb H HH ideqb_spec join_nd joinl_nd chk t s fb f i I) as G.
    change (ft_step chk t (FDo (PRemove i))) with (ft_remove_path chk t i) in G.
    destruct P as [(C & ->)|(C & _ & ->)].
    + assert (Q : fs_step H chk s (FDo (PRemove i)) = fs_step H false s (FDo (PRemove i))).
      { unfold fs_step. rewrite (proj2 (Nat.ltb_ge i (fs_start s))) by lia. reflexivity. }
      rewrite Q in G. unfold fs_step in *. rewrite (proj2 (Nat.ltb_ge i (fs_start s))), (proj2 (Nat.ltb_lt i _)) in * by lia.
      destruct G as (t' & -> & _ & I'). eexists. split; [reflexivity|]. exists fb, f. exact I'.
    + unfold fs_step in G. rewrite (proj2 (Nat.ltb_lt i (fs_start s))) in G by lia. destruct chk.
      * rewrite G. reflexivity.
      * destruct G as (t' & -> & _ & I'). eexists. split; [reflexivity|]. exists fb, f. exact I'.
  - destruct P as (-> & _). eexists. split; [reflexivity|]. exists fb, f. exact I.
Qed.

Lemma shard_all chk t s o : Shard t s -> (o = FCommit \/ o = FReset \/ o = FDo PPrune) ->
  exists t' s', ft_step chk t o = Some (t', true) /\ fs_step H false s o = Some (s', true) /\ Shard t' s'.
Proof.
  intros (fb & f & I) O.
  pose proof (finv_run dl di join joinl ideqb H HH ideqb_spec join_nd joinl_nd chk [o] t s fb f I) as G.
  assert (E : exists s', fs_step H chk s o = Some (s', true) /\ fs_step H false s o = Some (s', true)).
  { destruct O as [->|[->| ->]]; eexists; split; reflexivity. }
  destruct E as (s' & E1 & E2). cbn [run] in G. rewrite E1 in G. destruct G as (t' & fb' & f' & E3 & I').
  destruct (ft_step chk t o) as [[t1 b]|]; [|discriminate]. injection E3 as <- ->.
  exists t1, s'. split; auto. split; auto. exists fb', f'. auto.
Qed.

Lemma fo_step_follows chk f ss o : Forall2 Shard f ss ->
  match fo_step chk f o with
  | Some (f', b) => exists ss', fo_ref ss o = Some (ss', b) /\ Forall2 Shard f' ss'
  | None => fo_ref ss o = None \/ chk = true
  end.
Proof.
  intro F. pose proof (Forall2_len _ _ _ F) as LN. destruct o as [x|x|xs|xs|x| | |].
  - cbn [FoSpec.fo_step FoSpec.fo_ref]. unfold fo_insert.
    pose proof (upd_change Shard (fun t => Some (ft_push dl di join joinl H t (dg x)))
      (fun s => fs_step H false s (FDo (PPush (dg x)))) f ss (sh x) F) as U.
    pose proof (upd_total Shard (fun t => Some (ft_push dl di join joinl H t (dg x))) f ss (sh x) F) as T.
    destruct (fo_upd f (sh x) _) as [[f' b]|].
    + apply U. intros t s R. destruct (shard_insert chk t s (PPush (dg x)) R eq_refl) as (t' & s' & b' & E1 & E2 & R').
      unfold FkSpec.ft_step in E1. injection E1 as ->. eauto.
    + left. unfold change_at. destruct (nth_error ss (sh x)) eqn:N; auto. exfalso.
      apply (T ltac:(rewrite LN; apply nth_error_Some; congruence)); [discriminate|reflexivity].
  - cbn [FoSpec.fo_step FoSpec.fo_ref]. unfold fo_insert_np.
    pose proof (upd_change Shard (fun t => Some (ft_push_np dl di join joinl H t (dg x)))
      (fun s => fs_step H false s (FDo (PPushNp (dg x)))) f ss (sh x) F) as U.
    pose proof (upd_total Shard (fun t => Some (ft_push_np dl di join joinl H t (dg x))) f ss (sh x) F) as T.
    destruct (fo_upd f (sh x) _) as [[f' b]|].
    + apply U. intros t s R. destruct (shard_insert chk t s (PPushNp (dg x)) R eq_refl) as (t' & s' & b' & E1 & E2 & R').
      unfold FkSpec.ft_step in E1. injection E1 as ->. eauto.
    + left. unfold change_at. destruct (nth_error ss (sh x)) eqn:N; auto. exfalso.
      apply (T ltac:(rewrite LN; apply nth_error_Some; congruence)); [discriminate|reflexivity].
  - cbn [FoSpec.fo_step FoSpec.fo_ref]. unfold fo_batch_insert. rewrite <- LN.
    pose proof (sort_items_spec sh (length f) xs) as G. destruct (forallb _ xs); [|rewrite G; auto].
    destruct G as (g & -> & LG & NG).
    destruct (batch_loop_change Shard dg (ft_batch dl di join joinl H)
      (fun j s => fs_step H false s (FDo (PBatch (shard_items dg sh j xs)))) f ss 0 g F LG) as (f' & ss' & b & E1 & E2 & R').
    { intros j t s _ R. rewrite NG. apply (shard_insert chk t s (PBatch (shard_items dg sh j xs)) R eq_refl). }
    rewrite E1. eauto.
  - cbn [FoSpec.fo_step FoSpec.fo_ref]. unfold fo_batch_insert_np. rewrite <- LN.
    pose proof (sort_items_spec sh (length f) xs) as G. destruct (forallb _ xs); [|rewrite G; auto].
    destruct G as (g & -> & LG & NG).
    destruct (batch_loop_change Shard dg (ft_batch_np dl di join joinl H)
      (fun j s => fs_step H false s (FDo (PBatchNp (shard_items dg sh j xs)))) f ss 0 g F LG) as (f' & ss' & b & E1 & E2 & R').
    { intros j t s _ R. rewrite NG. apply (shard_insert chk t s (PBatchNp (shard_items dg sh j xs)) R eq_refl). }
    rewrite E1. eauto.
  - cbn [FoSpec.fo_step FoSpec.fo_ref]. unfold fo_remove_proof.
    set (g := fun t => match ft_position ldeqb t (dg x) with None => Some (t, false) | Some i => ft_remove_path chk t i end).
    pose proof (upd_change Shard g (fun s => match fork_place ldeqb s (dg x) with
      | Some i => fs_step H false s (FDo (PRemove i)) | None => Some (s, false) end) f ss (sh x) F) as U.
    pose proof (upd_total Shard g f ss (sh x) F) as T.
    destruct (fo_upd f (sh x) g) as [[f' b]|].
    + apply U. intros t s R. pose proof (shard_remove chk t s (dg x) R) as Q. fold g in Q. unfold g.
      destruct (match ft_position ldeqb t (dg x) with None => _ | Some i => _ end) as [[]|]; auto.
    + destruct chk; auto. left. unfold change_at. destruct (nth_error ss (sh x)) eqn:N; auto. exfalso.
      apply (T ltac:(rewrite LN; apply nth_error_Some; congruence)); [|reflexivity].
      intros t s R. pose proof (shard_remove false t s (dg x) R) as Q. unfold g.
      destruct (match ft_position ldeqb t (dg x) with None => _ | Some i => _ end) as [[]|]; congruence.
  - cbn [FoSpec.fo_step FoSpec.fo_ref].
    destruct (all_change Shard (fun t => Some (ft_prune H t)) (fun s => fs_step H false s (FDo PPrune)) f ss 0 F) as (f' & ss' & E1 & E2 & R').
    { intros t s R. destruct (shard_all chk t s (FDo PPrune) R ltac:(auto)) as (t' & s' & K1 & K2 & K3).
      unfold FkSpec.ft_step in K1. injection K1 as <-. eauto. }
    exists ss'. split; auto. replace (fo_prune H f) with f'; auto. clear - E1. revert f' E1.
    unfold fo_prune. induction f as [|t f IH]; intros f' E1; cbn [fo_all] in E1; [injection E1 as <-; auto|].
    destruct (fo_all _ f) as [r|]; [|discriminate]. injection E1 as <-. cbn [map]. f_equal. auto.
  - cbn [FoSpec.fo_step FoSpec.fo_ref]. unfold fo_commit.
    destruct (all_change Shard (ft_merge_partial dl di join joinl ideqb H chk) (fun s => fs_step H false s FCommit) f ss 0 F) as (f' & ss' & E1 & E2 & R').
    { intros t s R. destruct (shard_all chk t s FCommit R ltac:(auto)) as (t' & s' & K1 & K2 & K3).
      unfold FkSpec.ft_step, with_true in K1. destruct (ft_merge_partial _ _ _ _ _ _ _ _); [|discriminate].
      cbn in K1. injection K1 as <-. eauto. }
    rewrite E1. cbn [with_true option_map]. eauto.
  - cbn [FoSpec.fo_step FoSpec.fo_ref]. unfold fo_rollback.
    destruct (all_change Shard (ft_reset dl di join joinl ideqb H) (fun s => fs_step H false s FReset) f ss 0 F) as (f' & ss' & E1 & E2 & R').
    { intros t s R. destruct (shard_all chk t s FReset R ltac:(auto)) as (t' & s' & K1 & K2 & K3).
      unfold FkSpec.ft_step, with_true in K1. destruct (ft_reset _ _ _ _ _ _ _); [|discriminate].
      cbn in K1. injection K1 as <-. eauto. }
    rewrite E1. cbn [with_true option_map]. eauto.
Qed.

Lemma fo_run_follows chk os : forall f ss, Forall2 Shard f ss ->
  match run (fo_step chk) f os with
  | Some (f', bs) => exists ss', run fo_ref ss os = Some (ss', bs) /\ Forall2 Shard f' ss'
  | None => run fo_ref ss os = None \/ chk = true
  end.
Proof.
  induction os as [|o os IH]; intros f ss F; cbn [run]; [eauto|].
  pose proof (fo_step_follows chk f ss o F) as S1. destruct (fo_step chk f o) as [[f1 b]|].
  - destruct S1 as (s1 & E1 & F1). rewrite E1. specialize (IH f1 s1 F1).
    destruct (run (fo_step chk) f1 os) as [[f2 bs]|].
    + destruct IH as (s2 & E2 & F2). rewrite E2. eauto.
    + destruct IH as [E2|E2]; auto. rewrite E2. auto.
  - destruct S1 as [E1|E1]; auto. rewrite E1. auto.
Qed.

Lemma fo_new_shards n : exists f, fo_new dl di join joinl ideqb H n = Some f /\ Forall2 Shard f (repeat (FS [] [] true) n).
Proof.
  destruct (fork_ready (td := td) dl di join joinl ideqb H HH ideqb_spec join_nd joinl_nd true [] full_new) as (b & fb & bs & t & E1 & _ & E3 & _ & I).
  { apply full_new_strong. lia. }
  cbn [run] in E1. injection E1 as <- _. unfold fo_new, ft_new. rewrite E3. eexists. split; [reflexivity|].
  replace (base_items H (@nil (pop LD))) with (@nil (bool * LD)) in I by reflexivity.
  clear - I. induction n; cbn [repeat]; constructor; auto. exists fb, full_new. exact I.
Qed.
End Inv.
