(** Trunks and forks follow the reference. *)
From Coq Require Import List Arith Bool Lia.
From Verif Require Import MtModel MtSpec MtHist MtLemmas MtInner MtInv MtBatch MtFull MtSingle MtSettled MtTest
  PtModel PtSpec PtLeaf PtAgree PtSim PtPrune PtProps FkSpec FkVirt FkCurrent FkInv FkProps TkModel TkSpec.
Import ListNotations.

(** *** Lists *)
Lemma forall2_nth {A B} (R : A -> B -> Prop) l m i x : Forall2 R l m -> nth_error l i = Some x ->
  exists y, nth_error m i = Some y /\ R x y.
Proof.
  intro F. revert i. induction F as [|a b l m Rab F IH]; intros [|i] E; try discriminate E; cbn [nth_error] in *.
  - injection E as <-. eauto.
  - apply IH, E.
Qed.

Lemma forall2_none {A B} (R : A -> B -> Prop) l m i : Forall2 R l m -> nth_error l i = None -> nth_error m i = None.
Proof.
  intro F. revert i. induction F as [|a b l m Rab F IH]; intros [|i] E; try discriminate E; cbn [nth_error] in *; auto.
Qed.

Lemma forall2_put {A B} (R : A -> B -> Prop) l m i x y : Forall2 R l m -> i < length l -> R x y ->
  Forall2 R (put l i x) (replace m i y).
Proof.
  unfold put, replace. intro F. revert i. induction F as [|a b l m Rab F IH]; intros i Hi Rxy; cbn [length] in Hi; [lia|].
  destruct i as [|i]; cbn [upd firstn skipn app]; constructor; auto. apply IH; auto. lia.
Qed.

Lemma forall2_change {A B} (R Q : A -> B -> Prop) l m : Forall2 R l m -> (forall x y, R x y -> Q x y) -> Forall2 Q l m.
Proof. intros F I. induction F; constructor; auto. Qed.

Lemma put_same {A} (l : list A) i x : nth_error l i = Some x -> put l i x = l.
Proof.
  unfold put. revert i. induction l as [|a l IH]; intros [|i] E; try discriminate E; cbn [upd nth_error] in *.
  - injection E as <-. reflexivity.
  - f_equal. apply IH, E.
Qed.

Lemma nth_put {A} (l : list A) i j x : i < length l -> nth_error (put l i x) j = if j =? i then Some x else nth_error l j.
Proof.
  unfold put. revert i j. induction l as [|a l IH]; intros [|i] [|j] Hi; cbn [length] in Hi; try lia; cbn [upd nth_error Nat.eqb]; auto.
  apply IH. lia.
Qed.

Lemma nth_replace {A} (l : list A) i j x : i < length l -> nth_error (replace l i x) j = if j =? i then Some x else nth_error l j.
Proof.
  unfold replace. revert i j. induction l as [|a l IH]; intros [|i] [|j] Hi; cbn [length] in Hi; try lia; cbn [firstn skipn app nth_error Nat.eqb]; auto.
  apply IH. lia.
Qed.

Lemma nth_app_end {A} (l : list A) j x y : nth_error (l ++ [x]) j = Some y -> nth_error l j = Some y \/ (j = length l /\ y = x).
Proof.
  intro E. destruct (Nat.lt_ge_cases j (length l)) as [C|C].
  - left. rewrite nth_error_app1 in E by auto. exact E.
  - right. rewrite nth_error_app2 in E by auto. destruct (j - length l) as [|k] eqn:Ek.
    + cbn in E. injection E as <-. split; auto. lia.
    + destruct k; discriminate E.
Qed.

Lemma nth_lt {A} (l : list A) i x : nth_error l i = Some x -> i < length l.
Proof. intro E. apply nth_error_Some. rewrite E. discriminate. Qed.

Section Inv.
Context {LD ID : Type}.
Variable dl : LD.
Variable di : ID.
Variable join : ID -> ID -> ID.
Variable joinl : LD -> LD -> ID.
Variable ideqb : ID -> ID -> bool.
Variable H : nat.
Hypothesis HH : 3 <= H.
Hypothesis ideqb_spec : forall a b, ideqb a b = true <-> a = b.
Hypothesis join_nd : forall a b, join a b <> di.
Hypothesis joinl_nd : forall a b, joinl a b <> di.
Notation Sim := (Sim di H).
Notation full_weak := (full_weak dl di join joinl H).
Notation full_strong := (full_strong dl di join joinl H).
Notation full_exec := (full_exec dl di join joinl H).
Notation FInv := (FInv dl di join joinl H (td := true)).
Notation world := (world LD ID).
Notation trunk := (trunk LD ID).
Notation fork := (fork LD ID).
Notation partial := (partial LD ID).
Notation branch := (branch LD ID).
Notation tk_step := (tk_step dl di join joinl ideqb H).
Notation s_step := (@s_step LD H).
Notation branch_at := (branch_at dl di join joinl ideqb H).
Local Lemma H2 : 2 <= H. Proof. clear - HH. lia. Qed.

Definition own_items (ds : list LD) : list (bool * LD) := map (fun x => (false, x)) ds.
Lemma own_snd ds : map snd (own_items ds) = ds.
Proof. unfold own_items. rewrite map_map. apply map_id. Qed.
Lemma own_length ds : length (own_items ds) = length ds.
Proof. apply map_length. Qed.

(** The tree of a trunk. *)
Definition TInv (t : partial) (its : list (bool * LD)) (ok : bool) : Prop :=
  exists fb, Sim true t fb /\ full_weak fb (map snd its) /\ marks_ok (pt_lm t) (map fst its) /\
    (ok = true -> full_strong fb (map snd its)).

(** A branch over a tree. *)
Definition BInv (b : partial) (br : branch) (base : list (bool * LD)) (own : list LD) (ok : bool) : Prop :=
  exists fb f, FInv (FTree b br) (FS base (own_items own) ok) fb f.

Lemma tinv_len t its ok : TInv t its ok -> pt_len t = length its /\ length its <= capacity H.
Proof.
  intros (fb & SM & W & _). rewrite (sim_len dl di join joinl H _ _ _ SM). unfold full_len.
  destruct W as (A & B & _). rewrite A, map_length in *. auto.
Qed.

Lemma binv_len b br base own ok : BInv b br base own ok ->
  pt_len (br_data br) = length base + length own /\ length base + length own <= capacity H.
Proof.
  intros (fb & f & I). pose proof (finv_len dl di join joinl ideqb H HH ideqb_spec join_nd joinl_nd _ _ _ _ I) as A.
  pose proof (finv_cap dl di join joinl H _ _ _ _ I) as B. unfold fs_items in A, B. cbn [ft_branch fs_base fs_fork] in A, B.
  rewrite app_length, own_length in A, B. auto.
Qed.

Lemma tinv_strong t its ok : TInv t its ok -> exists f, full_strong f (map snd its).
Proof.
  intros (fb & _ & W & _).
  destruct (strong_of dl di join joinl ideqb H HH ideqb_spec join_nd joinl_nd (map snd its) ltac:(apply W)) as (f & _ & F). eauto.
Qed.

(** *** Growing a branch *)
Lemma branch_push b br base own ok d : BInv b br base own ok ->
  exists u c, pt_push dl di join joinl H (br_data br) d = (u, c) /\
    c = (0 <? 2 ^ (H - 1) - (length base + length own)) /\
    BInv b (Branch (br_contrib br) u) base (own ++ firstn (2 ^ (H - 1) - (length base + length own)) [d])
      (snd (settle H (length base + length own, ok) (TPush d))).
Proof.
  intro B. pose proof (binv_len _ _ _ _ _ B) as [LEN CAP]. destruct B as (fb & f & I).
  destruct (finv_insert dl di join joinl ideqb H HH ideqb_spec join_nd joinl_nd true _ _ _ _ (PPush d) I eq_refl)
    as (t' & s' & f' & c & E1 & E2 & E3 & E4 & I').
  unfold ft_step, ft_push in E1. cbn [ft_branch] in E1.
  destruct (pt_push dl di join joinl H (br_data br) d) as [u c0] eqn:EP. injection E1 as <- <-.
  unfold fs_step in E2. cbv zeta in E2. cbn [pop_items pop_top fold_left fs_base fs_fork fs_ok length] in E2.
  unfold fs_items in E2. cbn [fs_base fs_fork] in E2. rewrite app_length, own_length in E2.
  injection E2 as <- E2. exists u, c0. split; auto. split.
  { rewrite <- E2. unfold capacity in CAP. clear - CAP. destruct (Nat.leb_spec (length base + length own + 1) (2 ^ (H - 1)));
    destruct (Nat.ltb_spec 0 (2 ^ (H - 1) - (length base + length own))); auto; lia. }
  exists fb, f'. unfold ft_set_data in I'. cbn [ft_base ft_branch] in I'. unfold own_items. rewrite map_app, <- firstn_map.
  cbn [map]. exact I'.
Qed.

Lemma branch_batch b br base own ok ds : BInv b br base own ok ->
  exists u c, pt_batch dl di join joinl H (br_data br) ds = Some (u, c) /\
    option_map fst c = (if 0 <? length ds then Some (length ds <=? 2 ^ (H - 1) - (length base + length own)) else None) /\
    BInv b (Branch (br_contrib br) u) base (own ++ firstn (2 ^ (H - 1) - (length base + length own)) ds)
      (snd (settle H (length base + length own, ok) (TBatch ds))).
Proof.
  intro B. pose proof (binv_len _ _ _ _ _ B) as [LEN CAP]. destruct B as (fb & f & I).
  destruct (finv_insert dl di join joinl ideqb H HH ideqb_spec join_nd joinl_nd true _ _ _ _ (PBatch ds) I eq_refl)
    as (t' & s' & f' & c & E1 & E2 & E3 & E4 & I').
  unfold ft_step, ft_batch, pt_batch_push in E1. cbn [ft_branch] in E1.
  destruct (pt_batch dl di join joinl H (br_data br) ds) as [[u c0]|] eqn:EP; [|discriminate E1].
  assert (EU : ft_set_data (FTree b br) u = t' /\ c = match c0 with Some (x, _) => x | None => true end).
  { destruct c0 as [[x n]|]; injection E1 as <- <-; auto. }
  destruct EU as [<- ->]. clear E1.
  unfold fs_step in E2. cbv zeta in E2. cbn [pop_items pop_top fold_left fs_base fs_fork fs_ok length] in E2.
  unfold fs_items in E2. cbn [fs_base fs_fork] in E2. rewrite app_length, own_length, map_length in E2.
  injection E2 as <- E2. exists u, c0. split; auto. split.
  { unfold capacity in CAP. destruct ds as [|d0 ds0].
    - cbn in EP. injection EP as <- <-. reflexivity.
    - change (0 <? length (d0 :: ds0)) with true. cbv iota. set (k := length (d0 :: ds0)) in *.
      assert (c0 <> None).
      { clear - EP. unfold pt_batch in EP. cbv zeta in EP. intros ->. destruct (capacity H <? _).
        - destruct (_ =? 0); [discriminate EP|]. destruct (pt_batch_leaves _ _ _ _ _ _ _ _); discriminate EP.
        - destruct (pt_batch_leaves _ _ _ _ _ _ _ _); discriminate EP. }
      destruct c0 as [[x n]|]; [|contradiction]. cbn [option_map fst]. rewrite <- E2. f_equal.
      clearbody k. clear - CAP.
      destruct (Nat.leb_spec (length base + length own + k) (2 ^ (H - 1)));
      destruct (Nat.leb_spec k (2 ^ (H - 1) - (length base + length own))); auto; lia. }
  exists fb, f'. unfold ft_set_data in I'. cbn [ft_base ft_branch] in I'. unfold own_items. rewrite map_app, <- firstn_map.
  exact I'.
Qed.

Lemma pushes_many ds : forall n k b br base own, BInv b br base own true -> pt_len (br_data br) = n + k ->
  length base + length own + length ds <= capacity H ->
  exists u, fold_left (fun u p => pt_push_leaf dl di join joinl H u (n + fst p) (snd p)) (combine (seq k (length ds)) ds) (br_data br) = u /\
    BInv b (Branch (br_contrib br) u) base (own ++ ds) true.
Proof.
  induction ds as [|d ds IH]; intros n k b br base own B Hn Hc; cbn [length seq combine fold_left] in *.
  - eexists. split; [reflexivity|]. rewrite app_nil_r. destruct br; exact B.
  - destruct (branch_push _ _ _ _ _ d B) as (u & c & E1 & E2 & B1).
    pose proof (binv_len _ _ _ _ _ B) as [LEN CAP]. cbn [settle] in B1. unfold capacity in Hc.
    destruct (Nat.ltb_spec (length base + length own) (2 ^ (H - 1))) as [C|C]; [|clear - C Hc; lia]. cbn [snd] in B1.
    rewrite firstn_all2 in B1 by (cbn [length]; clear - C; lia).
    unfold pt_push in E1. destruct (Nat.leb_spec (capacity H) (pt_len (br_data br))) as [C1|C1];
      [unfold capacity in C1; clear - C1 LEN C; lia|].
    injection E1 as E1 _. rewrite Hn in E1.
    pose proof (binv_len _ _ _ _ _ B1) as [LEN1 _]. cbn [br_data] in LEN1. rewrite app_length in LEN1. cbn [length] in LEN1.
    destruct (IH n (S k) b (Branch (br_contrib br) u) base (own ++ [d]) B1) as (v & E3 & B3).
    + cbn [br_data]. clear - LEN1 LEN Hn. lia.
    + rewrite app_length. cbn [length]. unfold capacity. clear - Hc. lia.
    + cbn [br_data br_contrib] in E3, B3. exists v. cbn [fst snd]. rewrite E1. split; [exact E3|]. rewrite <- app_assoc in B3. exact B3.
Qed.

Lemma branch_new_more len leaf cp ds :
  branch_new dl di join joinl H len leaf cp ds =
  match branch_new dl di join joinl H len leaf cp [] with
  | None => None
  | Some b => Some (Branch (br_contrib b)
      (fold_left (fun u p => pt_push_leaf dl di join joinl H u (pt_len (br_data b) + fst p) (snd p)) (combine (seq 0 (length ds)) ds) (br_data b)))
  end.
Proof.
  unfold branch_new. destruct (branch_setup di joinl len leaf cp) as [[[[c base] leaves] [li inner]]|]; auto.
  destruct (from_current di join H base li inner) as [[m start]|]; auto.
Qed.

Lemma branch_at_ok t its ok ds : TInv t its ok -> length its + length ds <= capacity H ->
  exists br, branch_at t ds = Some br /\ BInv t br its ds true.
Proof.
  intros T Hc. destruct (tinv_strong _ _ _ T) as (f & F). destruct T as (fb & SM & W & M & _).
  destruct (finv_fresh dl di join joinl ideqb H HH ideqb_spec join_nd joinl_nd t fb f its SM W M F) as (x & E & EB & I).
  unfold ft_make, branch_of in E. unfold TkModel.branch_at. rewrite branch_new_more.
  destruct (branch_new dl di join joinl H (pt_len t) (pt_current_leaf t) (pt_current_path dl di ideqb H t) []) as [br|]; [|discriminate E].
  injection E as <-. assert (B : BInv t br its [] true) by (exists fb, f; exact I).
  destruct (pushes_many ds (pt_len (br_data br)) 0 t br its [] B ltac:(clear; lia) ltac:(cbn [length]; clear - Hc; lia)) as (u & E2 & B2).
  rewrite E2. eexists. split; [reflexivity|]. exact B2.
Qed.

Lemma branch_own b br base own ok : BInv b br base own ok ->
  branch_extract br = Some own /\ br_contrib br = length base - first_held (length base).
Proof.
  intros (fb & f & I). split.
  - unfold branch_extract. pose proof (finv_extract dl di join joinl ideqb H HH ideqb_spec join_nd joinl_nd _ _ _ _ I) as E. cbn [ft_branch fs_fork] in E.
    rewrite E. cbn [option_map]. now rewrite own_snd.
  - apply (fi_contrib _ _ _ _ _ _ _ _ _ I).
Qed.

(** *** Extending the tree of a trunk *)
Lemma tinv_extend t its ok ds : TInv t its ok -> length its + length ds <= capacity H ->
  exists t', pt_extend dl di join joinl H t ds =
      (if length its + length ds <? 2 ^ (H - 1) then Some (Some t') else None) /\
    TInv t' (its ++ map (fun x => (true, x)) ds) (match ds with [] => ok | _ => true end).
Proof.
  intros T Hc. destruct (tinv_len _ _ _ T) as [LE _]. destruct T as (fb & SM & W & M & OK).
  destruct (extend_np_sim dl di join joinl ideqb H HH ideqb_spec join_nd joinl_nd true ds t fb its SM W M Hc) as (t' & f' & E1 & E2 & SM' & W' & M').
  exists t'. split.
  - unfold pt_extend. rewrite LE. destruct (Nat.leb_spec (length ds) (capacity H - length its)) as [C|C]; [|clear - C Hc; lia].
    rewrite E1. unfold capacity. destruct (_ <? _); reflexivity.
  - exists f'. split; auto. split; auto. split; auto. destruct ds as [|d ds].
    + cbn [map] in *. rewrite app_nil_r. cbn [MtHist.full_exec] in E2. injection E2 as <-. exact OK.
    + intros _. destruct (exec_settled dl di join joinl H H2 (map TPush (d :: ds)) fb _ ok W OK) as (g & K1 & K2 & K3).
      rewrite E2 in K1. injection K1 as <-. rewrite offered_pushes in K3.
      assert (LM : length (map snd its) = length its) by apply map_length.
      unfold capacity in Hc.
      rewrite firstn_all2 in K3 by (rewrite app_length, LM; exact Hc).
      rewrite map_app, map_map. cbn [snd]. rewrite map_id. apply K3. rewrite LM. clear - Hc.
      assert (G : forall (ds : list LD) n, n + length ds <= 2 ^ (H - 1) -> snd (fold_left (settle H) (map TPush ds) (n, true)) = true).
      { clear. induction ds as [|d ds IH]; intros n C; cbn [map fold_left settle length] in *; auto.
        destruct (Nat.ltb_spec n (2 ^ (H - 1))); [|lia]. apply IH. lia. }
      cbn [map fold_left]. cbn [settle length] in *. destruct (Nat.ltb_spec (length its) (2 ^ (H - 1))); [|lia].
      apply (G ds (S (length its))). lia.
Qed.

(** *** The world *)
Definition trunk_ok (next : nat) (t : option trunk) (st : option (strunk LD)) : Prop :=
  match t, st with
  | None, None => True
  | Some t, Some st => tr_ptr t = st_version st /\ st_version st < next /\ TInv (tr_tree t) (st_items st) (st_ok st)
  | _, _ => False
  end.

(** An attached fork is over the tree that its trunk still has. *)
Definition over (ts : list (option trunk)) (ss : list (option (strunk LD))) (p : option nat) (b : partial) (base : list (bool * LD)) : Prop :=
  forall i t st, nth_error ts i = Some (Some t) -> nth_error ss i = Some (Some st) -> p = Some (tr_ptr t) ->
    tr_tree t = b /\ st_items st = base.

Definition live_ok (ts : list (option trunk)) (ss : list (option (strunk LD))) (next : nat) (f : fork) (sf : sfork LD) : Prop :=
  fk_base f = sf_version sf /\ (forall v, sf_version sf = Some v -> v < next) /\
  ((exists b, BInv b (fk_branch f) (sf_base sf) (sf_own sf) (sf_ok sf) /\ over ts ss (fk_base f) b (sf_base sf)) \/
   (fk_base f = None /\ fk_branch f = Branch 0 pt_new /\ sf_base sf = [] /\ sf_own sf = [])).

Definition fork_ok ts ss next (f : option fork) (sf : option (sfork LD)) : Prop :=
  match f, sf with
  | None, None => True
  | Some f, Some sf => live_ok ts ss next f sf
  | _, _ => False
  end.

Definition alone (ts : list (option trunk)) : Prop :=
  forall i j t u, nth_error ts i = Some (Some t) -> nth_error ts j = Some (Some u) -> tr_ptr t = tr_ptr u -> i = j.

Record Rel (w : world) (s : sworld LD) : Prop := {
  r_next : w_next w = s_next s;
  r_trunks : Forall2 (trunk_ok (w_next w)) (w_trunks w) (s_trunks s);
  r_alone : alone (w_trunks w);
  r_forks : Forall2 (fork_ok (w_trunks w) (s_trunks s) (w_next w)) (w_forks w) (s_forks s)
}.

Lemma rel_new : Rel world_new sworld_new.
Proof. split; cbn; auto; try constructor. intros i j t u E. destruct i; discriminate E. Qed.

Lemma rel_trunk w s i : Rel w s ->
  match get_trunk w i, strunk_at s i with
  | None, None => True
  | Some t, Some st => nth_error (w_trunks w) i = Some (Some t) /\ nth_error (s_trunks s) i = Some (Some st) /\
      tr_ptr t = st_version st /\ st_version st < w_next w /\ TInv (tr_tree t) (st_items st) (st_ok st)
  | _, _ => False
  end.
Proof.
  intros [_ F _ _]. unfold get_trunk, strunk_at. destruct (nth_error (w_trunks w) i) as [x|] eqn:E.
  - destruct (forall2_nth _ _ _ _ _ F E) as (y & E' & R). rewrite E'. destruct x, y; cbn in R; auto.
  - rewrite (forall2_none _ _ _ _ F E). exact I.
Qed.

Lemma rel_fork w s j : Rel w s ->
  match get_fork w j, sfork_at s j with
  | None, None => True
  | Some f, Some sf => nth_error (w_forks w) j = Some (Some f) /\ nth_error (s_forks s) j = Some (Some sf) /\
      live_ok (w_trunks w) (s_trunks s) (w_next w) f sf
  | _, _ => False
  end.
Proof.
  intros [_ _ _ F]. unfold get_fork, sfork_at. destruct (nth_error (w_forks w) j) as [x|] eqn:E.
  - destruct (forall2_nth _ _ _ _ _ F E) as (y & E' & R). rewrite E'. destruct x, y; cbn in R; auto.
  - rewrite (forall2_none _ _ _ _ F E). exact I.
Qed.

(** Pointers. *)
Lemma upgrade_some (w : world) p t : upgrade w p = Some t -> exists i, nth_error (w_trunks w) i = Some (Some t) /\ p = Some (tr_ptr t).
Proof.
  unfold upgrade. destruct p as [p|]; [|discriminate]. intro E. destruct (find (holds p) (w_trunks w)) as [[u|]|] eqn:F; try discriminate.
  injection E as ->. apply find_some in F. destruct F as [F1 F2]. cbn in F2. apply Nat.eqb_eq in F2. subst p.
  apply In_nth_error in F1. destruct F1 as (i & F1). eauto.
Qed.

Lemma upgrade_live (w : world) i t : alone (w_trunks w) -> nth_error (w_trunks w) i = Some (Some t) -> upgrade w (Some (tr_ptr t)) = Some t.
Proof.
  intros A E. unfold upgrade. destruct (find (holds (tr_ptr t)) (w_trunks w)) as [x|] eqn:F.
  - apply find_some in F. destruct F as [F1 F2]. destruct x as [u|]; [|discriminate F2]. cbn in F2. apply Nat.eqb_eq in F2.
    apply In_nth_error in F1. destruct F1 as (j & F1). assert (j = i) by (apply (A j i u t); auto). subst j.
    rewrite E in F1. injection F1 as <-. reflexivity.
  - exfalso. assert (N := find_none _ _ F (Some t) (nth_error_In _ _ E)). cbn in N. rewrite Nat.eqb_refl in N. discriminate N.
Qed.

Lemma upgrade_none (w : world) p : upgrade w p = None -> forall i t, nth_error (w_trunks w) i = Some (Some t) -> p <> Some (tr_ptr t).
Proof.
  intros E i t Hi ->. unfold upgrade in E. destruct (find (holds (tr_ptr t)) (w_trunks w)) as [x|] eqn:F.
  - apply find_some in F. destruct x as [u|]; [discriminate E|]. destruct F as [_ F]. discriminate F.
  - assert (N := find_none _ _ F (Some t) (nth_error_In _ _ Hi)). cbn in N. rewrite Nat.eqb_refl in N. discriminate N.
Qed.

Lemma rel_attached w s (f : fork) sf : Rel w s -> fk_base f = sf_version sf ->
  attached s sf = match upgrade w (fk_base f) with Some _ => true | None => false end.
Proof.
  intros [N F A _] E. unfold attached. rewrite <- E. destruct (upgrade w (fk_base f)) as [t|] eqn:U.
  - destruct (upgrade_some _ _ _ U) as (i & Hi & ->). unfold current. apply existsb_exists.
    destruct (forall2_nth _ _ _ _ _ F Hi) as (y & Hy & R). destruct y as [st|]; [|contradiction R]. cbn in R.
    exists (Some st). split; [apply (nth_error_In _ _ Hy)|]. apply Nat.eqb_eq. symmetry. apply R.
  - pose proof (upgrade_none _ _ U) as NO. destruct (fk_base f) as [p|]; auto. unfold current.
    destruct (existsb _ (s_trunks s)) eqn:X; auto. apply existsb_exists in X. destruct X as (y & Hy & Ey).
    destruct y as [st|]; [|discriminate Ey]. apply Nat.eqb_eq in Ey. apply In_nth_error in Hy. destruct Hy as (i & Hy).
    destruct (nth_error (w_trunks w) i) as [x|] eqn:Hx.
    + destruct (forall2_nth _ _ _ _ _ F Hx) as (y & Hy2 & R). rewrite Hy in Hy2. injection Hy2 as <-.
      destruct x as [t|]; [|contradiction R]. cbn in R. exfalso. apply (NO i t Hx). f_equal. rewrite <- Ey. symmetry. apply R.
    + rewrite (forall2_none _ _ _ _ F Hx) in Hy. discriminate Hy.
Qed.

Lemma alone_count ts i (t : trunk) : alone ts -> nth_error ts i = Some (Some t) -> length (filter (holds (tr_ptr t)) ts) = 1.
Proof.
  intros A E. destruct (nth_error_split _ _ E) as (l1 & l2 & -> & L).
  rewrite filter_app, app_length. cbn [filter]. unfold holds at 2. rewrite Nat.eqb_refl. cbn [length].
  assert (Z : forall l : list (option trunk), (forall x, In x l -> holds (tr_ptr t) x = false) -> filter (holds (tr_ptr t)) l = []).
  { induction l as [|x l IH]; intro Q; auto. cbn [filter]. rewrite (Q x (or_introl eq_refl)). apply IH. intros; apply Q; right; auto. }
  rewrite !Z; auto.
  - intros x Hx. destruct (holds (tr_ptr t) x) eqn:Q; auto. destruct x as [u|]; [|discriminate Q]. cbn in Q. apply Nat.eqb_eq in Q.
    apply In_nth_error in Hx. destruct Hx as (j & Hj).
    assert (S (length l1 + j) = i); [|clear - H0 L; lia].
    apply (A (S (length l1 + j)) i u t); auto. rewrite nth_error_app2 by (clear; lia).
    replace (S (length l1 + j) - length l1) with (S j) by (clear; lia). exact Hj.
  - intros x Hx. destruct (holds (tr_ptr t) x) eqn:Q; auto. destruct x as [u|]; [|discriminate Q]. cbn in Q. apply Nat.eqb_eq in Q.
    apply In_nth_error in Hx. destruct Hx as (j & Hj). pose proof (nth_lt _ _ _ Hj) as Lj.
    assert (j = i); [|clear - H0 L Lj; lia].
    apply (A j i u t); auto. rewrite nth_error_app1 by auto. exact Hj.
Qed.

Lemma claim_ok (w : world) i t : alone (w_trunks w) -> nth_error (w_trunks w) i = Some (Some t) -> claim w t = Some (tr_tree t).
Proof. intros A E. unfold claim, strong_count. rewrite (alone_count _ _ _ A E). reflexivity. Qed.

(** Forks under a change of trunks: every trunk is old or behind a new pointer. *)
Lemma forks_change ts ss ts' ss' next next' fs sfs :
  Forall2 (fork_ok ts ss next) fs sfs -> next <= next' ->
  (forall i t st, nth_error ts' i = Some (Some t) -> nth_error ss' i = Some (Some st) ->
     (nth_error ts i = Some (Some t) /\ nth_error ss i = Some (Some st)) \/ next <= tr_ptr t) ->
  Forall2 (fork_ok ts' ss' next') fs sfs.
Proof.
  intros F L C. apply (forall2_change _ _ _ _ F). intros [f|] [sf|] R; auto. destruct R as (R1 & R2 & R3).
  split; auto. split. { intros v E. specialize (R2 v E). clear - R2 L. lia. }
  destruct R3 as [(b & B & O)|D]; [left|right; auto]. exists b. split; auto. intros i t st Ht Hs Hp.
  destruct (C i t st Ht Hs) as [[C1 C2]|C1]; [apply (O i t st); auto|].
  exfalso. rewrite Hp in R1. specialize (R2 _ (eq_sym R1)). clear - R2 C1. lia.
Qed.

Lemma rel_put_fork w s j f sf : Rel w s -> j < length (w_forks w) -> live_ok (w_trunks w) (s_trunks s) (w_next w) f sf ->
  Rel (set_fork w j (Some f)) (put_fork s j (Some sf)).
Proof. intros R Hj L. split; cbn; try apply R. apply forall2_put; auto. apply R. Qed.

Lemma rel_drop_fork w s j : Rel w s -> j < length (w_forks w) -> Rel (set_fork w j None) (put_fork s j None).
Proof. intros R Hj. split; cbn; try apply R. apply forall2_put; auto. apply R. exact I. Qed.

Lemma rel_add_fork w s f sf : Rel w s -> live_ok (w_trunks w) (s_trunks s) (w_next w) f sf ->
  Rel (add_fork w f) (new_fork s sf).
Proof. intros R L. split; cbn; try apply R. apply Forall2_app; [apply R|]. constructor; auto. Qed.

Lemma set_fork_same (w : world) j f : nth_error (w_forks w) j = Some (Some f) -> set_fork w j (Some f) = w.
Proof. intro E. unfold set_fork. rewrite put_same by exact E. destruct w; reflexivity. Qed.

(** A fork on a trunk of the world. *)
Lemma live_fork w s i t st ds br : Rel w s -> nth_error (w_trunks w) i = Some (Some t) -> nth_error (s_trunks s) i = Some (Some st) ->
  tr_ptr t = st_version st -> st_version st < w_next w -> BInv (tr_tree t) br (st_items st) ds true ->
  live_ok (w_trunks w) (s_trunks s) (w_next w) (Fork (Some (tr_ptr t)) br) (fork_of st ds).
Proof.
  intros R Ht Hs EP LT B. split; cbn [fk_base fork_of sf_version]; [now rewrite EP|].
  split. { intros v E. injection E as <-. exact LT. }
  left. exists (tr_tree t). split; [exact B|]. intros k u su Hu Hsu E. injection E as E.
  assert (k = i) by (apply (r_alone _ _ R k i u t); auto). subst k. rewrite Ht in Hu. rewrite Hs in Hsu.
  injection Hu as <-. injection Hsu as <-. auto.
Qed.

Lemma detached_branch w s (f : fork) sf : Rel w s -> live_ok (w_trunks w) (s_trunks s) (w_next w) f sf ->
  upgrade w (fk_base f) <> None -> exists b, BInv b (fk_branch f) (sf_base sf) (sf_own sf) (sf_ok sf) /\ over (w_trunks w) (s_trunks s) (fk_base f) b (sf_base sf).
Proof.
  intros R (_ & _ & [L|(E & _)]) U; auto. rewrite E in U. contradiction U. reflexivity.
Qed.

Lemma step_follows chk w s o : Rel w s ->
  match s_step s o with
  | Some (s', r) => exists w', tk_step chk w o = Some (w', r) /\ Rel w' s'
  | None => tk_step chk w o = None
  end.
Proof.
  intro R. destruct o as [os|i|i ds| |j d|j od|j ds|j i|i j|i|j]; cbn [TkSpec.s_step TkModel.tk_step].
  - (* KTrunk *)
    destruct (base_ready dl di join joinl ideqb H HH ideqb_spec join_nd joinl_nd chk os) as (b & fb & bs & E1 & _ & SM & W & M & ST & _).
    rewrite E1. eexists. split; [reflexivity|]. pose proof R as [N F A G].
    assert (T : TInv b (base_items H os) (settled H (inserts os))) by (exists fb; auto).
    assert (LEN : length (w_trunks w) = length (s_trunks s)) by (clear - F; induction F; cbn [length]; congruence).
    split; cbn [add_trunk w_trunks s_trunks w_next s_next w_forks s_forks].
    + congruence.
    + apply Forall2_app.
      * apply (forall2_change _ _ _ _ F). intros [x|] [y|] Q; auto. destruct Q as (Q1 & Q2 & Q3). split; auto.
      * constructor; [|constructor]. cbn. rewrite N. split; auto.
    + intros i j t u Hi Hj E. apply nth_app_end in Hi, Hj.
      assert (OLD : forall k v, nth_error (w_trunks w) k = Some (Some v) -> tr_ptr v < w_next w).
      { intros k v Hk. destruct (forall2_nth _ _ _ _ _ F Hk) as (y & _ & Q). destruct y; [|contradiction Q].
        destruct Q as (Q1 & Q2 & _). rewrite Q1. exact Q2. }
      destruct Hi as [Hi|[Hi Ei]], Hj as [Hj|[Hj Ej]].
      * apply (A i j t u); auto.
      * injection Ej as ->. specialize (OLD _ _ Hi). cbn [tr_ptr] in E. clear - OLD E. lia.
      * injection Ei as ->. specialize (OLD _ _ Hj). cbn [tr_ptr] in E. clear - OLD E. lia.
      * congruence.
    + apply (forks_change _ _ _ _ _ _ _ _ G); [clear; lia|]. intros i t st Hi Hs. apply nth_app_end in Hi, Hs.
      destruct Hi as [Hi|[Hi Ei]].
      * left. split; auto. destruct Hs as [Hs|[Hs _]]; auto. pose proof (nth_lt _ _ _ Hi) as L. clear - L Hs LEN. lia.
      * right. injection Ei as ->. cbn. clear; lia.
  - (* KFork *)
    pose proof (rel_trunk w s i R) as T. destruct (get_trunk w i) as [t|], (strunk_at s i) as [st|]; try contradiction T.
    2:{ eexists. split; [reflexivity|exact R]. }
    destruct T as (T1 & T2 & T3 & T4 & T5). destruct (tinv_len _ _ _ T5) as [_ CAP].
    destruct (branch_at_ok _ _ _ [] T5 ltac:(cbn [length]; clear - CAP; lia)) as (br & E & B). rewrite E.
    eexists. split; [reflexivity|]. apply rel_add_fork; auto. apply (live_fork w s i t st [] br); auto.
  - (* KWith *)
    pose proof (rel_trunk w s i R) as T. destruct (get_trunk w i) as [t|], (strunk_at s i) as [st|]; try contradiction T.
    2:{ eexists. split; [reflexivity|exact R]. }
    destruct T as (T1 & T2 & T3 & T4 & T5). destruct (tinv_len _ _ _ T5) as [LE CAP].
    unfold branch_new_checked. rewrite LE. unfold capacity.
    destruct (Nat.ltb_spec (length (st_items st) + length ds) (2 ^ (H - 1))) as [C|C];
    destruct (Nat.leb_spec (2 ^ (H - 1)) (length ds + length (st_items st))) as [D|D]; try (exfalso; clear - C D; lia).
    + destruct (branch_at_ok _ _ _ ds T5 ltac:(unfold capacity; clear - C; lia)) as (br & E & B).
      unfold TkModel.branch_at in E. rewrite LE in E. rewrite E. eexists. split; [reflexivity|].
      apply rel_add_fork; auto. apply (live_fork w s i t st ds br); auto.
    + eexists. split; [reflexivity|exact R].
  - (* KDefault *)
    eexists. split; [reflexivity|]. apply rel_add_fork; auto. split; cbn; auto. split; [discriminate|]. right. auto.
  - (* KPush *)
    pose proof (rel_fork w s j R) as T. destruct (get_fork w j) as [f|], (sfork_at s j) as [sf|]; try contradiction T.
    2:{ eexists. split; [reflexivity|exact R]. }
    destruct T as (T1 & T2 & L). pose proof L as (L1 & L2 & _). rewrite (rel_attached w s f sf R L1). unfold fk_push.
    destruct (upgrade w (fk_base f)) as [u|] eqn:U.
    + destruct (detached_branch w s f sf R L) as (b & B & O). { rewrite U. discriminate. }
      destruct (branch_push _ _ _ _ _ d B) as (x & c & E & -> & B'). rewrite E. eexists. split; [reflexivity|].
      apply rel_put_fork; auto. { apply (nth_lt _ _ _ T1). }
      split; cbn [fk_base sf_version grow]; auto. split; auto. left. exists b. split; auto.
    + eexists. split; [reflexivity|]. rewrite set_fork_same by exact T1. exact R.
  - (* KMaybe *)
    pose proof (rel_fork w s j R) as T. destruct (get_fork w j) as [f|], (sfork_at s j) as [sf|]; try contradiction T.
    2:{ eexists. split; [reflexivity|exact R]. }
    destruct T as (T1 & T2 & L). pose proof L as (L1 & L2 & _). rewrite (rel_attached w s f sf R L1). unfold fk_maybe.
    destruct (upgrade w (fk_base f)) as [u|] eqn:U.
    2:{ eexists. split; [reflexivity|]. rewrite set_fork_same by exact T1. exact R. }
    destruct (detached_branch w s f sf R L) as (b & B & O). { rewrite U. discriminate. }
    destruct (binv_len _ _ _ _ _ B) as [LE CAP]. rewrite LE. unfold capacity in *. unfold room, sf_len.
    destruct (Nat.eqb_spec (2 ^ (H - 1) - (length (sf_base sf) + length (sf_own sf))) 0) as [C|C];
    destruct (Nat.leb_spec (2 ^ (H - 1)) (length (sf_base sf) + length (sf_own sf))) as [D|D]; try (exfalso; clear - C D CAP; lia).
    { eexists. split; [reflexivity|]. rewrite set_fork_same by exact T1. exact R. }
    destruct od as [d|].
    2:{ eexists. split; [reflexivity|]. rewrite set_fork_same by exact T1. exact R. }
    destruct (branch_push _ _ _ _ _ d B) as (x & c & E & _ & B'). rewrite E. eexists. split; [reflexivity|].
    apply rel_put_fork; auto. { apply (nth_lt _ _ _ T1). }
    split; cbn [fk_base sf_version grow]; auto. split; auto. left. exists b. split; auto.
  - (* KBatch *)
    pose proof (rel_fork w s j R) as T. destruct (get_fork w j) as [f|], (sfork_at s j) as [sf|]; try contradiction T.
    2:{ eexists. split; [reflexivity|exact R]. }
    destruct T as (T1 & T2 & L). pose proof L as (L1 & L2 & _). rewrite (rel_attached w s f sf R L1). unfold fk_batch.
    destruct (upgrade w (fk_base f)) as [u|] eqn:U; cbn [andb].
    2:{ eexists. split; [reflexivity|]. rewrite set_fork_same by exact T1. exact R. }
    destruct (detached_branch w s f sf R L) as (b & B & O). { rewrite U. discriminate. }
    destruct (branch_batch _ _ _ _ _ ds B) as (x & c & E & EC & B'). rewrite E, EC. unfold room, sf_len.
    destruct (0 <? length ds) eqn:Z.
    + eexists. split; [reflexivity|]. apply rel_put_fork; auto. { apply (nth_lt _ _ _ T1). }
      split; cbn [fk_base sf_version grow]; auto. split; auto. left. exists b. split; auto.
    + destruct ds as [|d0 ds]; [|discriminate Z]. cbn in E. injection E as <- <-. eexists. split; [reflexivity|].
      assert (EF : Fork (fk_base f) (Branch (br_contrib (fk_branch f)) (br_data (fk_branch f))) = f) by (destruct f as [p [? ?]]; reflexivity).
      rewrite EF, set_fork_same by exact T1. exact R.
  - (* KAttach *)
    pose proof (rel_fork w s j R) as T. destruct (get_fork w j) as [f|], (sfork_at s j) as [sf|]; try contradiction T.
    2:{ eexists. split; [reflexivity|exact R]. }
    pose proof (rel_trunk w s i R) as U. destruct (get_trunk w i) as [t|], (strunk_at s i) as [st|]; try contradiction U.
    2:{ eexists. split; [reflexivity|exact R]. }
    destruct T as (T1 & T2 & L). destruct U as (U1 & U2 & U3 & U4 & U5). destruct (tinv_len _ _ _ U5) as [LE CAP].
    assert (BR : pt_len (br_data (fk_branch f)) - br_contrib (fk_branch f) = first_held (length (sf_base sf)) + length (sf_own sf) /\
                 br_contrib (fk_branch f) <= pt_len (br_data (fk_branch f)) /\ branch_extract (fk_branch f) = Some (sf_own sf)).
    { destruct L as (_ & _ & [(b & B & _)|(_ & E1 & E2 & E3)]).
      - destruct (binv_len _ _ _ _ _ B) as [A1 A2]. destruct (branch_own _ _ _ _ _ B) as [A3 A4]. rewrite A1, A4.
        assert (A5 : first_held (length (sf_base sf)) <= length (sf_base sf)).
        { unfold first_held. pose proof (Nat.mul_div_le (length (sf_base sf) - 1) 2 ltac:(clear; lia)) as Q.
          clear - Q. set (k := (length (sf_base sf) - 1) / 2) in *. clearbody k. lia. }
        split; [clear - A5; lia|]. split; [clear; lia|exact A3].
      - rewrite E1, E2, E3. auto. }
    destruct BR as (B1 & B2 & B3). unfold fk_attach, branch_try_rebase. rewrite LE, B3. unfold capacity.
    destruct (Nat.ltb_spec (first_held (length (sf_base sf)) + length (sf_own sf) + length (st_items st)) (2 ^ (H - 1))) as [C|C];
    destruct (Nat.leb_spec (2 ^ (H - 1)) (pt_len (br_data (fk_branch f)) + length (st_items st) - br_contrib (fk_branch f))) as [D|D];
      try (exfalso; clear - B1 B2 C D; lia).
    + destruct (branch_at_ok _ _ _ (sf_own sf) U5 ltac:(unfold capacity; clear - C; lia)) as (br & E & B).
      unfold TkModel.branch_at in E. rewrite LE in E. rewrite E. eexists. split; [reflexivity|].
      apply rel_put_fork; auto. { apply (nth_lt _ _ _ T1). } apply (live_fork w s i t st (sf_own sf) br); auto.
    + eexists. split; [reflexivity|]. rewrite set_fork_same by exact T1. exact R.
  - (* KMerge *)
    pose proof (rel_trunk w s i R) as U. destruct (get_trunk w i) as [t|], (strunk_at s i) as [st|]; try contradiction U.
    2:{ eexists. split; [reflexivity|exact R]. }
    pose proof (rel_fork w s j R) as T. destruct (get_fork w j) as [f|], (sfork_at s j) as [sf|]; try contradiction T.
    2:{ eexists. split; [reflexivity|exact R]. }
    destruct T as (T1 & T2 & L). destruct U as (U1 & U2 & U3 & U4 & U5). pose proof L as (L1 & L2 & L3).
    assert (AB : attached_base w f t = match sf_version sf with Some v => if v =? st_version st then Some t else None | None => None end).
    { unfold attached_base. rewrite L1. destruct (sf_version sf) as [v|]; [|reflexivity].
      destruct (Nat.eqb_spec v (st_version st)) as [->|NE].
      - rewrite <- U3, (upgrade_live w i t (r_alone _ _ R) U1), Nat.eqb_refl. reflexivity.
      - destruct (upgrade w (Some v)) as [b|] eqn:Q; auto. destruct (upgrade_some _ _ _ Q) as (k & _ & E). injection E as ->.
        rewrite U3. destruct (Nat.eqb_spec (tr_ptr b) (st_version st)); congruence. }
    rewrite AB. destruct (sf_version sf) as [v|] eqn:EV; [|eexists; split; [reflexivity|exact R]].
    destruct (Nat.eqb_spec v (st_version st)) as [->|NE]; [|eexists; split; [reflexivity|exact R]].
    destruct L3 as [(b & B & O)|(E & _)]; [|congruence].
    destruct (O i t st U1 U2 ltac:(congruence)) as [OB OI]. subst b.
    destruct (binv_len _ _ _ _ _ B) as [BL BC]. destruct (branch_own _ _ _ _ _ B) as [BE _].
    unfold tk_merge. rewrite (claim_ok w i t (r_alone _ _ R) U1), BE.
    destruct (tinv_extend _ _ _ (sf_own sf) U5 ltac:(rewrite OI; exact BC)) as (t' & E & T'). rewrite E, OI. unfold sf_len.
    destruct (length (sf_base sf) + length (sf_own sf) <? 2 ^ (H - 1)); [|reflexivity].
    eexists. split; [reflexivity|]. pose proof R as [N F A G]. rewrite OI in T'.
    assert (Li : i < length (w_trunks w)) by apply (nth_lt _ _ _ U1).
    assert (Li' : i < length (s_trunks s)) by apply (nth_lt _ _ _ U2).
    assert (OLD : forall k v, nth_error (w_trunks w) k = Some (Some v) -> tr_ptr v < w_next w).
    { intros k v Hk. destruct (forall2_nth _ _ _ _ _ F Hk) as (y & _ & Q). destruct y; [|contradiction Q].
      destruct Q as (Q1 & Q2 & _). rewrite Q1. exact Q2. }
    split; cbn [set_fork w_trunks s_trunks w_next s_next w_forks s_forks].
    + congruence.
    + apply forall2_put; auto.
      * apply (forall2_change _ _ _ _ F). intros [x|] [y|] Q; auto. destruct Q as (Q1 & Q2 & Q3). split; auto.
      * cbn. rewrite N. split; auto.
    + intros k l x y Hk Hl EQ. rewrite nth_put in Hk, Hl by exact Li.
      destruct (Nat.eqb_spec k i) as [->|Nk], (Nat.eqb_spec l i) as [->|Nl]; auto.
      * injection Hk as <-. cbn in EQ. specialize (OLD _ _ Hl). clear - OLD EQ. lia.
      * injection Hl as <-. cbn in EQ. specialize (OLD _ _ Hk). clear - OLD EQ. lia.
      * apply (A k l x y); auto.
    + apply forall2_put; [|apply (nth_lt _ _ _ T1)|exact I].
      apply (forks_change _ _ _ _ _ _ _ _ G); [clear; lia|]. intros k x sx Hx Hs. rewrite nth_put in Hx by exact Li.
      rewrite nth_replace in Hs by exact Li'. destruct (k =? i); auto. right. injection Hx as <-. cbn. clear; lia.
  - (* KTree *)
    pose proof (rel_trunk w s i R) as U. destruct (get_trunk w i) as [t|], (strunk_at s i) as [st|]; try contradiction U.
    2:{ eexists. split; [reflexivity|exact R]. }
    destruct U as (U1 & U2 & U3 & U4 & U5). rewrite (claim_ok w i t (r_alone _ _ R) U1).
    destruct (tinv_len _ _ _ U5) as [LE _]. rewrite LE. eexists. split; [reflexivity|]. pose proof R as [N F A G].
    assert (Li : i < length (w_trunks w)) by apply (nth_lt _ _ _ U1).
    assert (Li' : i < length (s_trunks s)) by apply (nth_lt _ _ _ U2).
    split; cbn [set_trunk put_trunk w_trunks s_trunks w_next s_next w_forks s_forks]; auto.
    + apply forall2_put; auto. exact I.
    + intros k l x y Hk Hl EQ. rewrite nth_put in Hk, Hl by exact Li.
      destruct (Nat.eqb_spec k i); [discriminate Hk|]. destruct (Nat.eqb_spec l i); [discriminate Hl|]. apply (A k l x y); auto.
    + apply (forks_change _ _ _ _ _ _ _ _ G); [clear; lia|]. intros k x sx Hx Hs. rewrite nth_put in Hx by exact Li.
      rewrite nth_replace in Hs by exact Li'. destruct (k =? i); [discriminate Hx|auto].
  - (* KDrop *)
    pose proof (rel_fork w s j R) as T. destruct (get_fork w j) as [f|], (sfork_at s j) as [sf|]; try contradiction T.
    2:{ eexists. split; [reflexivity|exact R]. }
    destruct T as (T1 & T2 & L). eexists. split; [reflexivity|]. apply rel_drop_fork; auto. apply (nth_lt _ _ _ T1).
Qed.

Lemma run_follows chk os : forall w s, Rel w s ->
  match s_run H s os with
  | Some (s', rs) => exists w', tk_run dl di join joinl ideqb H chk w os = Some (w', rs) /\ Rel w' s'
  | None => tk_run dl di join joinl ideqb H chk w os = None
  end.
Proof.
  induction os as [|o os IH]; intros w s R; cbn [s_run tk_run].
  - exists w. auto.
  - pose proof (step_follows chk w s o R) as ST. destruct (TkSpec.s_step H s o) as [[s1 r]|]; [|now rewrite ST].
    destruct ST as (w1 & E & R1). rewrite E. specialize (IH w1 s1 R1).
    destruct (s_run H s1 os) as [[s2 rs]|]; [|now rewrite IH]. destruct IH as (w2 & E2 & R2). rewrite E2. eauto.
Qed.
End Inv.
