(** Property C57: trunks and forks that share a tree. *)
From Coq Require Import List Arith Bool Lia.
From Verif Require Import MtModel MtSpec MtHist MtLemmas MtInner MtInv MtBatch MtFull MtSingle MtSettled MtTest
  PtModel PtSpec PtLeaf PtAgree PtSim PtPrune PtProps FkSpec FkVirt FkCurrent FkInv FkProps TkModel TkSpec TkInv.
Import ListNotations.

Section Props.
Context {LD ID : Type}.
Variable dl : LD.
Variable di : ID.
Variable join : ID -> ID -> ID.
Variable joinl : LD -> LD -> ID.
Variable ideqb : ID -> ID -> bool.
Variable H : nat.
Hypothesis HH : 3 <= H.
Hypothesis ideqb_spec : forall a b, ideqb a b = true <-> a = b.
Hypothesis join_nd : forall a b, join a b <> di.
Hypothesis joinl_nd : forall a b, joinl a b <> di.
Notation world := (world LD ID).
Notation trunk := (trunk LD ID).
Notation fork := (fork LD ID).
Notation tk_step := (tk_step dl di join joinl ideqb H).
Notation tk_run := (tk_run dl di join joinl ideqb H).
Notation fk_path := (fk_path dl di join joinl H).
Notation spec_root := (spec_root dl di join joinl H).
Notation Rel := (Rel dl di join joinl H).
Notation TInv := (TInv dl di join joinl H).
Notation BInv := (BInv dl di join joinl H).
Notation verifies p root x := (path_verify join joinl ideqb p root x = true).

(** What the tree of a trunk reports about its leaves. *)
Definition trunk_reports (t : trunk) (st : strunk LD) : Prop :=
  pt_len (tr_tree t) = length (st_items st) /\
  (st_ok st = true -> pt_root di (tr_tree t) = spec_root (map snd (st_items st))) /\
  (st_ok st = true -> forall i x, nth_error (st_items st) i = Some (false, x) ->
     exists p, pt_path dl di H (tr_tree t) i = Some p /\ p_index p = i /\ verifies p (pt_root di (tr_tree t)) x).

(** What a fork reports: its length and root also when it is detached, proofs for the leaves
    of its trunk only while it is attached. *)
Definition fork_reports (chk : bool) (w : world) (f : fork) (s : sworld LD) (sf : sfork LD) : Prop :=
  is_attached w f = attached s sf /\ fk_len f = sf_len sf /\
  (sf_ok sf = true -> sf_items sf <> [] -> fk_root di f = spec_root (map snd (sf_items sf))) /\
  (sf_ok sf = true -> forall i x,
     (attached s sf = true /\ nth_error (sf_items sf) i = Some (false, x)) \/
     (first_held (length (sf_base sf)) <= i /\ exists m, nth_error (sf_items sf) i = Some (m, x)) ->
     exists p, fk_path chk w f i = Some (Some p) /\ p_index p = i /\ verifies p (fk_root di f) x) /\
  (attached s sf = false -> forall i, i < first_held (length (sf_base sf)) -> fk_path chk w f i = Some None).

Lemma first_held_le n : first_held n <= n.
Proof.
  unfold first_held. pose proof (Nat.mul_div_le (n - 1) 2 ltac:(clear; lia)) as Q. clear - Q.
  set (k := (n - 1) / 2) in *. clearbody k. lia.
Qed.

Lemma tinv_reports (t : trunk) st : TInv (tr_tree t) (st_items st) (st_ok st) -> trunk_reports t st.
Proof.
  intro T. split; [apply (tinv_len dl di join joinl H _ _ _ T)|]. destruct T as (f & SM & W & M & ST).
  assert (R : st_ok st = true -> pt_root di (tr_tree t) = spec_root (map snd (st_items st))).
  { intro OK. rewrite (sim_root_eq di H true _ _ SM). apply (full_strong_root dl di join joinl H). auto. }
  split; [exact R|]. intros OK i x Hx. specialize (ST OK).
  assert (H2 : 2 <= H) by (clear - HH; lia).
  assert (CAP : full_len f <= capacity H) by (unfold full_len; destruct W as (<- & W & _); exact W).
  assert (MB : nth_error (map fst (st_items st)) i = Some false) by (rewrite nth_error_map, Hx; reflexivity).
  assert (NX : nth_error (map snd (st_items st)) i = Some x) by (rewrite nth_error_map, Hx; reflexivity).
  assert (Hl : i < length (map snd (st_items st))) by (apply (nth_lt _ _ _ NX)).
  destruct (unmarked_alive dl di join joinl H H2 _ _ _ M MB) as [A _].
  assert (P : pt_path dl di H (tr_tree t) i = full_path dl di H f i).
  { apply (sim_path dl di join joinl H true); auto. apply alive_liv; auto. apply SM. }
  eexists. rewrite P. split; [apply (full_path_strong dl di join joinl H H2 _ _ i ST Hl)|].
  cbn [p_index]. split; auto. unfold path_verify. apply ideqb_spec. rewrite (R OK).
  rewrite spec_root_sd, <- (nth_error_nth _ _ dl NX). symmetry. apply spath_root; auto.
  destruct W as (_ & B & _). rewrite cap_eq in B by exact H2. clear - B Hl. lia.
Qed.

Lemma fork_reports_ok chk w s j f sf : Rel w s -> nth_error (w_forks w) j = Some (Some f) ->
  live_ok dl di join joinl H (w_trunks w) (s_trunks s) (w_next w) f sf -> fork_reports chk w f s sf.
Proof.
  intros R Hj (L1 & L2 & L3).
  pose proof (rel_attached dl di join joinl H w s f sf R L1) as AT.
  split. { unfold is_attached. rewrite AT. reflexivity. }
  destruct L3 as [(b & (fb & g & I) & O)|(E1 & E2 & E3 & E4)].
  2:{ unfold fk_len, sf_len, sf_items, fk_root. rewrite E2, E3, E4. split; [reflexivity|].
      split. { intros _ N. contradiction N. reflexivity. }
      split. { intros _ i x [(_ & E)|(_ & m & E)]; destruct i; discriminate E. }
      intros _ i Hi. cbn in Hi. clear - Hi; lia. }
  pose proof (finv_reports dl di join joinl ideqb H HH ideqb_spec join_nd joinl_nd chk _ _ _ _ I) as (A1 & A2 & A3 & A4).
  unfold fs_items, fs_leaves, fs_start in *. cbn [FkSpec.fs_base FkSpec.fs_fork FkSpec.fs_ok ft_branch ft_base] in *.
  split. { unfold fk_len, sf_len. unfold ft_len in A1. cbn [ft_branch] in A1. rewrite A1, app_length. unfold own_items. rewrite map_length. reflexivity. }
  split. { exact A3. }
  pose proof (fi_start _ _ _ _ _ _ _ _ _ I) as ST. unfold fs_start in ST. cbn [FkSpec.fs_base ft_branch] in ST.
  fold (first_held (length (sf_base sf))) in ST, A4.
  assert (HI : forall bp i, first_held (length (sf_base sf)) <= i ->
     branch_path dl di join joinl H chk (fk_branch f) i bp = ft_path dl di join joinl H chk (FTree b (fk_branch f)) i).
  { intros bp i Hi. unfold ft_path, branch_path. cbn [ft_branch]. rewrite ST.
    destruct ((0 <? i) && _); auto. destruct (Nat.ltb_spec i (first_held (length (sf_base sf)))); auto. clear - Hi H0. lia. }
  split.
  - intros OK i x Hx. destruct (A4 OK i x) as (p & P1 & P2 & P3).
    { destruct Hx as [(_ & Hx)|Hx]; auto. }
    exists p. split; [|split; [exact P2|exact P3]]. rewrite <- P1. unfold TkModel.fk_path.
    destruct (Nat.lt_ge_cases i (first_held (length (sf_base sf)))) as [C|C]; [|apply HI; exact C].
    destruct Hx as [(A & _)|(C' & _)]; [|clear - C C'; lia]. rewrite AT in A.
    destruct (upgrade w (fk_base f)) as [u|] eqn:U; [|discriminate A].
    destruct (upgrade_some _ _ _ U) as (k & Hk & Ek).
    destruct (forall2_nth _ _ _ _ _ (r_trunks _ _ _ _ _ _ _ R) Hk) as (y & Hy & Q). destruct y as [su|]; [|contradiction Q].
    destruct (O k u su Hk Hy Ek) as [-> _]. reflexivity.
  - intros D i Hi. rewrite AT in D. unfold TkModel.fk_path. destruct (upgrade w (fk_base f)) as [u|]; [discriminate D|].
    unfold branch_path. rewrite ST. destruct ((0 <? i) && _); auto.
    destruct (Nat.ltb_spec i (first_held (length (sf_base sf)))) as [C|C]; [reflexivity|clear - C Hi; lia].
Qed.

(** C57. Any program that makes trunks from trees, forks them, pushes to the forks, attaches
    them elsewhere, merges them back and takes the trees out again, behaves as the reference:
    the same results, a panic exactly where the reference says, and reports of every trunk
    and fork that agree with the lists of leaves. *)
Theorem c57_follows_reference : forall chk os,
  match s_run H sworld_new os with
  | None => tk_run chk world_new os = None
  | Some (s, rs) => exists w, tk_run chk world_new os = Some (w, rs) /\
      (forall i, match strunk_at s i with
                 | Some st => exists t, get_trunk w i = Some t /\ trunk_reports t st
                 | None => get_trunk w i = None
                 end) /\
      (forall j, match sfork_at s j with
                 | Some sf => exists f, get_fork w j = Some f /\ fork_reports chk w f s sf
                 | None => get_fork w j = None
                 end)
  end.
Proof.
  intros chk os.
  pose proof (run_follows dl di join joinl ideqb H HH ideqb_spec join_nd joinl_nd chk os _ _ (rel_new dl di join joinl H)) as X.
  destruct (s_run H sworld_new os) as [[s rs]|]; [|exact X]. destruct X as (w & E & R). exists w. split; auto. split.
  - intro i. pose proof (rel_trunk dl di join joinl H w s i R) as T.
    destruct (get_trunk w i) as [t|], (strunk_at s i) as [st|]; try contradiction T; auto.
    exists t. split; auto. apply tinv_reports, T.
  - intro j. pose proof (rel_fork dl di join joinl H w s j R) as T.
    destruct (get_fork w j) as [f|], (sfork_at s j) as [sf|]; try contradiction T; auto.
    exists f. split; auto. destruct T as (T1 & _ & T3). apply (fork_reports_ok chk w s j f sf R T1 T3).
Qed.

Lemma run_rel chk os w rs : tk_run chk world_new os = Some (w, rs) -> exists s, Rel w s.
Proof.
  intro E. pose proof (run_follows dl di join joinl ideqb H HH ideqb_spec join_nd joinl_nd chk os _ _ (rel_new dl di join joinl H)) as X.
  destruct (s_run H sworld_new os) as [[s rs']|]; [|congruence]. destruct X as (w' & E' & R). rewrite E in E'.
  injection E' as <- <-. eauto.
Qed.

(** C57. A merge detaches every other fork of the trunk: such a fork is unchanged and not
    attached, takes no leaf, cannot be merged, and gives no proof for the leaves of the trunk,
    until it is attached again. *)
Theorem c57_merge_detaches : forall chk os w rs i j w',
  tk_run chk world_new os = Some (w, rs) ->
  tk_step chk w (KMerge i j) = Some (w', ROpt (Some true)) ->
  forall k f t, k <> j -> get_fork w k = Some f -> get_trunk w i = Some t -> is_attached_to w f t = true ->
  get_fork w' k = Some f /\ is_attached w' f = false /\
  (forall d, tk_step chk w' (KPush k d) = Some (w', ROpt None)) /\
  (forall d, tk_step chk w' (KMaybe k d) = Some (w', ROpt None)) /\
  (forall ds, tk_step chk w' (KBatch k ds) = Some (w', ROpt None)) /\
  (forall x u, get_trunk w' x = Some u -> tk_step chk w' (KMerge x k) = Some (w', ROpt (Some false))).
Proof.
  intros chk os w rs i j w' E ST k f t NE Hf Ht AT. destruct (run_rel _ _ _ _ E) as (s & R).
  cbn [TkModel.tk_step] in ST. rewrite Ht in ST. destruct (get_fork w j) as [g|] eqn:Hg; [|discriminate ST].
  destruct (attached_base w g t) as [b|] eqn:AB; [|discriminate ST]. unfold tk_merge in ST.
  destruct (claim w b) as [tb|]; [|discriminate ST]. destruct (branch_extract (fk_branch g)) as [ds|]; [|discriminate ST].
  destruct (pt_extend dl di join joinl H tb ds) as [[t'|]|]; try discriminate ST. injection ST as ST.
  pose proof (rel_trunk dl di join joinl H w s i R) as T. rewrite Ht in T. destruct (strunk_at s i) as [st|]; [|contradiction T].
  destruct T as (T1 & T2 & T3 & T4 & _).
  assert (Li : i < length (w_trunks w)) by apply (nth_lt _ _ _ T1).
  assert (Hk : nth_error (w_forks w) k = Some (Some f)).
  { unfold get_fork in Hf. destruct (nth_error (w_forks w) k) as [[x|]|]; congruence. }
  assert (Hj : j < length (w_forks w)).
  { unfold get_fork in Hg. destruct (nth_error (w_forks w) j) as [[x|]|] eqn:Q; try discriminate Hg. apply (nth_lt _ _ _ Q). }
  assert (Hk' : nth_error (w_forks w') k = Some (Some f)).
  { rewrite <- ST. cbn [w_forks set_fork]. rewrite nth_put by exact Hj. destruct (Nat.eqb_spec k j); [contradiction|exact Hk]. }
  assert (F1 : get_fork w' k = Some f) by (unfold get_fork; rewrite Hk'; reflexivity).
  assert (BASE : fk_base f = Some (tr_ptr t)).
  { unfold is_attached_to in AT. destruct (upgrade w (fk_base f)) as [u|] eqn:U; [|discriminate AT].
    destruct (upgrade_some _ _ _ U) as (x & _ & ->). apply Nat.eqb_eq in AT. now rewrite AT. }
  assert (UP : upgrade w' (fk_base f) = None).
  { destruct (upgrade w' (fk_base f)) as [u|] eqn:U; auto. exfalso. destruct (upgrade_some _ _ _ U) as (x & Hx & Ex).
    rewrite BASE in Ex. injection Ex as Ex. rewrite <- ST in Hx. cbn [w_trunks set_fork] in Hx. rewrite nth_put in Hx by exact Li.
    destruct (Nat.eqb_spec x i) as [_|NX].
    - injection Hx as <-. cbn [tr_ptr] in Ex. clear - Ex T3 T4. lia.
    - apply NX. apply (r_alone _ _ _ _ _ _ _ R x i u t); auto. }
  split; auto. split. { unfold is_attached. rewrite UP. reflexivity. }
  split. { intro d. cbn [TkModel.tk_step]. rewrite F1. unfold fk_push. rewrite UP, (set_fork_same w' k f Hk'). reflexivity. }
  split. { intro d. cbn [TkModel.tk_step]. rewrite F1. unfold fk_maybe. rewrite UP, (set_fork_same w' k f Hk'). reflexivity. }
  split. { intro d. cbn [TkModel.tk_step]. rewrite F1. unfold fk_batch. rewrite UP, (set_fork_same w' k f Hk'). reflexivity. }
  intros x u Hx. cbn [TkModel.tk_step]. rewrite Hx, F1. unfold attached_base. rewrite UP. reflexivity.
Qed.
End Props.

(** ** Tests and refutations, height 4: 8 leaves *)
Notation xk_run := (tk_run 0 D0 DJ DL dig_eqb 4 true).
Definition xk_push4 : list (pop nat) := [PPush 1; PPush 2; PPush 3; PPush 4].

(** Attaching a fork to the trunk it already has is refused though the leaves of both fit:
    the two leaves of the trunk that the fork holds are counted twice. *)
Theorem c57_attach_refuted : exists (os : list (tkop nat)) w rs f t,
  xk_run world_new os = Some (w, rs) /\ get_fork w 0 = Some f /\ get_trunk w 0 = Some t /\
  is_attached_to w f t = true /\ fk_len f = 6 /\ pt_len (tr_tree t) = 4 /\ 6 <= capacity 4 /\
  option_map snd (TkModel.tk_step 0 D0 DJ DL dig_eqb 4 true w (KAttach 0 0)) = Some (ROpt (Some false)).
Proof.
  exists [KTrunk xk_push4; KFork 0; KPush 0 5; KPush 0 6].
  pose (r := match xk_run world_new [KTrunk xk_push4; KFork 0; KPush 0 5; KPush 0 6] with Some r => r | None => (world_new, []) end).
  exists (fst r), (snd r).
  pose (f := match get_fork (fst r) 0 with Some f => f | None => Fork None (Branch 0 pt_new) end).
  pose (t := match get_trunk (fst r) 0 with Some t => t | None => Trunk 0 pt_new end).
  exists f, t. do 6 (split; [vm_compute; reflexivity|]). split; [vm_compute; repeat constructor|vm_compute; reflexivity].
Qed.

(** A fork is not made with exactly as many leaves as there is room for, although the same
    leaves can be pushed to it. *)
Theorem c57_with_leaves_refuted :
  option_map snd (xk_run world_new [KTrunk xk_push4; KWith 0 [5; 6; 7; 8]]) = Some [ROpt (Some true); ROpt None] /\
  option_map snd (xk_run world_new [KTrunk xk_push4; KFork 0; KBatch 0 [5; 6; 7; 8]]) =
    Some [ROpt (Some true); ROpt (Some true); ROpt (Some true)].
Proof. split; vm_compute; reflexivity. Qed.

(** Merging a fork that accepted pushes filled exactly stops the program. *)
Theorem c57_full_merge_refuted : exists os : list (tkop nat),
  option_map snd (xk_run world_new os) = Some [ROpt (Some true); ROpt (Some true); ROpt (Some true)] /\
  xk_run world_new (os ++ [KMerge 0 0]) = None.
Proof. exists [KTrunk xk_push4; KFork 0; KBatch 0 [5; 6; 7; 8]]. split; vm_compute; reflexivity. Qed.

(** Non-vacuity: two forks of one trunk; the first is merged, the second refuses pushes, is
    attached again and merged; the trunk then holds all leaves in the order of the merges. *)
Definition xk_os : list (tkop nat) :=
  [KTrunk [PPush 1; PPush 2; PPush 3]; KFork 0; KWith 0 [10]; KPush 0 4; KMerge 0 0; KPush 1 11;
   KAttach 1 0; KPush 1 11; KMaybe 1 (Some 12); KMerge 0 1].
Example ex_c57_run : option_map snd (xk_run world_new xk_os) =
  Some (map ROpt [Some true; Some true; Some true; Some true; Some true; None; Some true; Some true; Some true; Some true]).
Proof. vm_compute. reflexivity. Qed.
Example ex_c57_trunk : exists s rs st, s_run 4 sworld_new xk_os = Some (s, rs) /\ strunk_at s 0 = Some st /\
  st_ok st = true /\ map snd (st_items st) = [1; 2; 3; 4; 10; 11; 12] /\ nth_error (st_items st) 0 = Some (false, 1).
Proof. eexists _, _, _. repeat split. Qed.
Example ex_c57_fork : exists s rs sf, s_run 4 sworld_new (firstn 9 xk_os) = Some (s, rs) /\ sfork_at s 1 = Some sf /\
  attached s sf = true /\ sf_ok sf = true /\ nth_error (sf_items sf) 0 = Some (false, 1) /\
  map snd (sf_items sf) = [1; 2; 3; 4; 10; 11; 12].
Proof. eexists _, _, _. repeat split. Qed.
Example ex_c57_detached : exists s rs sf, s_run 4 sworld_new (firstn 6 xk_os) = Some (s, rs) /\ sfork_at s 1 = Some sf /\
  attached s sf = false /\ sf_ok sf = true /\ 0 < first_held (length (sf_base sf)) /\ nth_error (sf_items sf) 3 = Some (false, 10).
Proof. eexists _, _, _. repeat split. vm_compute. repeat constructor. Qed.
Example ex_c57_detaches : exists w rs w' f t, xk_run world_new (firstn 4 xk_os) = Some (w, rs) /\
  TkModel.tk_step 0 D0 DJ DL dig_eqb 4 true w (KMerge 0 0) = Some (w', ROpt (Some true)) /\
  get_fork w 1 = Some f /\ get_trunk w 0 = Some t /\ is_attached_to w f t = true.
Proof.
  pose (r := match xk_run world_new (firstn 4 xk_os) with Some r => r | None => (world_new, []) end).
  exists (fst r), (snd r).
  exists (match TkModel.tk_step 0 D0 DJ DL dig_eqb 4 true (fst r) (KMerge 0 0) with Some (w, _) => w | None => world_new end).
  exists (match get_fork (fst r) 1 with Some f => f | None => Fork None (Branch 0 pt_new) end).
  exists (match get_trunk (fst r) 0 with Some t => t | None => Trunk 0 pt_new end).
  do 4 (split; [vm_compute; reflexivity|]). vm_compute; reflexivity.
Qed.
Print Assumptions c57_follows_reference.
Print Assumptions c57_merge_detaches.
Print Assumptions c57_attach_refuted.
Print Assumptions c57_with_leaves_refuted.
Print Assumptions c57_full_merge_refuted.
