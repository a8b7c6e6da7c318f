(** Trees rebuilt from leaves and the path of the last leaf. *)
From Coq Require Import List Arith NArith Bool Lia.
From Verif Require Import MtModel MtSpec MtHist MtLemmas MtInner MtInv MtFull MtSingle MtSettled PtModel PtLeaf PtAgree PtSim PtSpec PtProps
  FkSpec FkCurrent FkInv FkProps FoSpec FoInv FoProps.
Import ListNotations.

Section Tree.
Context {LD ID : Type}.
Variable dl : LD.
Variable di : ID.
Variable join : ID -> ID -> ID.
Variable joinl : LD -> LD -> ID.
Variable ideqb : ID -> ID -> bool.
Variable H : nat.
Hypothesis HH : 3 <= H.
Hypothesis ideqb_spec : forall a b, ideqb a b = true <-> a = b.
Hypothesis join_nd : forall a b, join a b <> di.
Hypothesis joinl_nd : forall a b, joinl a b <> di.
Notation L := (path_length H).
Notation full_strong := (full_strong dl di join joinl H).
Notation spath := (spath dl di join joinl H).
Notation rsibs := (rsibs dl di join joinl).
Notation Shard := (Shard dl di join joinl H (td := false)).

(** The path that the ledger reports: of the last leaf of its tree. *)
Definition current_path_of (l : list LD) (p : path LD ID) : Prop :=
  l <> [] -> exists t, single_exec dl di join joinl H (single_new dl di) l = Some t /\ path_from_cpath di H (s_path t) = Some p.

Local Lemma H2 : 2 <= H. Proof. lia. Qed.

Lemma current_path_spath l p j : current_path_of l p -> length l = S j -> S j <= capacity H ->
  p = Path j (nth (sibling j) l dl) (spath l j).
Proof.
  intros C E CP. destruct C as (t & E1 & E2). { intro Q. rewrite Q in E. discriminate. }
  destruct (single_exec_ok dl di join joinl H H2 l _ _ (single_new_ok dl di join joinl H H2)) as (s & Es & So).
  rewrite E1 in Es. injection Es as <-. cbn [app] in So. rewrite firstn_all2 in So by lia.
  destruct So as (_ & _ & Sl). destruct l as [|y l0]; [discriminate|]. set (l := y :: l0) in *. destruct Sl as [_ S2].
  rewrite E in S2. replace (S j - 1) with j in S2 by lia. rewrite S2 in E2.
  rewrite (path_from_rsibs dl di join joinl H H2 l j _ E) in E2. injection E2 as <-. reflexivity.
Qed.

Lemma filter_spath l j : length l = S j -> S j <= capacity H ->
  filter (fun d => negb (ideqb d di)) (spath l j) = rsibs l j 0 L.
Proof.
  intros E CP. destruct (strong_of dl di join joinl ideqb H HH ideqb_spec join_nd joinl_nd l ltac:(lia)) as (f & _ & F).
  assert (NE : l <> []) by (intro Q; rewrite Q in E; discriminate). destruct (exists_last NE) as (l1 & x & El).
  assert (L1 : length l1 = j) by (rewrite El, app_length in E; cbn [length] in E; lia).
  pose proof (full_current_path_weak dl di join joinl H H2 ideqb ideqb_spec join_nd joinl_nd f l1 x) as C.
  rewrite <- El, L1 in C. specialize (C (full_strong_weak dl di join joinl H f l F)).
  unfold full_current_path, full_len in C. rewrite (proj1 F), E in C. injection C as _ C.
  pose proof (full_path_strong dl di join joinl H H2 f l j F ltac:(lia)) as P. unfold full_path in P.
  destruct (_ && _); [discriminate|]. injection P as _ P. unfold inner_current_path in C. rewrite P in C. exact C.
Qed.

Lemma alive_marked (l : list LD) i j : length l = S j -> alive (lm_from_vec l true) i -> j <= i.
Proof.
  intros E A. destruct (Nat.lt_ge_cases i j) as [C|C]; auto. exfalso. unfold alive in A.
  assert (M : lm_mor (lm_from_vec l true) i = true).
  { apply lm_mor_iff. unfold lm_from_vec. rewrite map_length. split; [lia|]. right. exists (nth i l dl).
    rewrite nth_error_map, (nth_error_nth' l dl) by lia. reflexivity. }
  congruence.
Qed.

Lemma needed_mono (P Q : nat -> Prop) k i : (forall j, P j -> Q j) -> needed P k i -> needed Q k i.
Proof. intros PQ (j & A & B). exists j. auto. Qed.

(** The tree agrees with the full tree on what the last leaf and later ones need. *)
Lemma pt_from_sim l p f : current_path_of l p -> length l <= capacity H -> full_strong f l ->
  exists t, pt_from_leaves_path dl di join joinl ideqb H l p = Some t /\ Sim di H false t f /\
    marks_ok (pt_lm t) (map (fun _ => true) l).
Proof.
  intros C CP F. unfold pt_from_leaves_path. destruct (length l) as [|j] eqn:E.
  - apply length_zero_iff_nil in E. subst l. eexists. split; [reflexivity|]. split.
    + destruct F as (A & _ & B & R). split; cbn [pt_start pt_lm pt_map lm_from_vec map]; auto.
      * split; [rewrite A; auto|]. intros [|i] b x Q; discriminate Q.
      * intros [|i] Q; discriminate Q.
      * intros k i Hk Hi _. unfold agree. rewrite B; auto.
        2:{ exists (sibling i * 2 ^ S k). split; [|exact I]. apply Nat.div_mul. pose proof (pow2_pos (S k)). lia. }
        cbn. symmetry. apply sd_empty. cbn. lia.
      * unfold agree. rewrite R. cbn. symmetry. apply sd_empty. cbn. lia.
    + split; [reflexivity|]. intros [|i]; cbn; auto.
  - rewrite (current_path_spath l p j C E CP). unfold cpath_from_path. cbn [p_index p_sibling p_inner c_index c_inner].
    rewrite (filter_spath l j E CP).
    assert (JL : (if is_left j then joinl (nth j l dl) (nth (sibling j) l dl) else joinl (nth (sibling j) l dl) (nth j l dl))
                 = sd dl di join joinl l 0 (j / 2)).
    { pose proof (join_leaves_sd dl di join joinl l j ltac:(lia)) as Q. unfold node_join_leaves in Q. exact Q. }
    rewrite JL. pose proof (capacity_le H) as CL.
    destruct (from_current_agree dl di join joinl H HH l j f E ltac:(lia) F) as (m & M1 & M2 & M3). rewrite M1.
    eexists. split; [reflexivity|]. split.
    + split; cbn [pt_start pt_lm pt_map]; auto.
      * split; [unfold lm_from_vec; rewrite map_length, (proj1 F); auto|]. intros i b x Q. unfold lm_from_vec in Q.
        rewrite nth_error_map in Q. rewrite (proj1 F). destruct (nth_error l i); [|discriminate]. injection Q as _ <-. reflexivity.
      * intros i Q. unfold lm_from_vec in Q. rewrite nth_error_map in Q. destruct (nth_error l i); discriminate.
      * intros k i Hk Hi Q. apply M3; auto. eapply needed_mono; [|exact Q]. intros i' A. cbn [liv] in A.
        apply (alive_marked l i' j E) in A. pose proof (as_left_eq j). dlia.
    + cbn [pt_lm]. split; [unfold lm_from_vec; rewrite !map_length; auto|]. intro i. unfold lm_from_vec.
      rewrite !nth_error_map. destruct (nth_error l i); cbn; auto.
Qed.

Lemma ft_from_shard l p : current_path_of l p -> length l <= capacity H ->
  exists t, ft_from_leaves_path dl di join joinl ideqb H l p = Some t /\ Shard t (FS (map (fun x => (true, x)) l) [] true).
Proof.
  intros C CP. destruct (strong_of dl di join joinl ideqb H HH ideqb_spec join_nd joinl_nd l CP) as (f & _ & F).
  destruct (pt_from_sim l p f C CP F) as (b & E & SM & M). unfold ft_from_leaves_path. rewrite E.
  assert (E1 : map snd (map (fun x : LD => (true, x)) l) = l) by (rewrite map_map; cbn [snd]; apply map_id).
  assert (E2 : map fst (map (fun x : LD => (true, x)) l) = map (fun _ => true) l) by (rewrite map_map; reflexivity).
  destruct (finv_fresh (td := false) dl di join joinl ideqb H HH ideqb_spec join_nd joinl_nd b f f (map (fun x => (true, x)) l)) as (t & T1 & _ & T2);
    rewrite ?E1, ?E2; auto. { apply full_strong_weak; auto. }
  exists t. split; auto. exists f, f. exact T2.
Qed.

Context {IT : Type}.
Variable dg : IT -> LD.
Lemma fo_from_shards items : forall ps, length ps = length items ->
  (forall j, j < length items -> current_path_of (map dg (nth j items [])) (nth j ps (Path 0 dl [])) /\ length (nth j items []) <= capacity H) ->
  exists f, fo_from_items dl di join joinl ideqb H dg (length items) items ps = Some f /\
    Forall2 Shard f (map (fun xs => FS (map (fun x => (true, x)) (map dg xs)) [] true) items).
Proof.
  intros ps LP HY. unfold fo_from_items. rewrite LP, Nat.eqb_refl.
  assert (G : exists f, fo_from_loop dl di join joinl ideqb H dg items ps = Some f /\
    Forall2 Shard f (map (fun xs => FS (map (fun x => (true, x)) (map dg xs)) [] true) items)).
  { revert ps LP HY. induction items as [|xs items IH]; intros [|p ps] LP HY; try discriminate.
    - exists []. split; [reflexivity|constructor].
    - cbn [fo_from_loop]. destruct (HY 0 ltac:(cbn; lia)) as [C1 C2]. cbn [nth] in C1, C2.
      destruct (ft_from_shard (map dg xs) p C1 ltac:(rewrite map_length; auto)) as (t & -> & ST).
      destruct (IH ps ltac:(cbn in LP; lia)) as (f & -> & F).
      { intros j Hj. apply (HY (S j)). cbn. lia. }
      eexists. split; [reflexivity|]. constructor; auto. }
  destruct G as (f & -> & F). pose proof (Forall2_len _ _ _ F) as LF. rewrite map_length in LF. rewrite LF, Nat.eqb_refl. eauto.
Qed.
End Tree.
