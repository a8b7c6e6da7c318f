(** Properties C01-C05: full and single-path Merkle trees. *)
From Coq Require Import List Arith Bool Lia.
From Verif Require Import MtModel MtSpec MtHist MtLemmas MtInner MtInv MtBatch MtFull MtSingle MtSettled MtTest.
Import ListNotations.

(** Instances for the examples: leaves are numbers, default leaf 0. *)
Definition x_exec H os := full_exec 0 D0 DJ DL H full_new os.
Definition x_root H os := match x_exec H os with Some t => full_root D0 t | None => D0 end.

Section Props.
Context {LD ID : Type}.
Variable dl : LD.
Variable di : ID.
Variable join : ID -> ID -> ID.
Variable joinl : LD -> LD -> ID.

Notation full_exec H := (full_exec dl di join joinl H).
Notation spec_root H := (spec_root dl di join joinl H).

(** C01. Any sequence of single pushes: no panic, the leaves are those offered (up to
    capacity), and the root is the root of the specification. *)
Theorem c01_root_after_pushes : forall H ds, 2 <= H ->
  exists t, full_exec H full_new (map TPush ds) = Some t /\
    f_leaves t = firstn (2 ^ (H - 1)) ds /\
    full_len t = Nat.min (2 ^ (H - 1)) (length ds) /\
    full_root di t = spec_root H (firstn (2 ^ (H - 1)) ds).
Proof.
  intros H ds HH.
  destruct (exec_new dl di join joinl H HH (map TPush ds)) as (t & E & A & W & S0).
  rewrite offered_pushes in *. exists t. split; auto. split; auto. split.
  - unfold full_len. rewrite A. apply firstn_length.
  - apply (full_strong_root dl di join joinl H). apply S0. apply settled_pushes. auto.
Qed.

(** C01/C02. Any history of single and batch pushes keeps exactly the offered leaves
    (up to capacity), and reports the specified root whenever it is settled. *)
Theorem c02_settled_history_root : forall H os, 2 <= H ->
  exists t, full_exec H full_new os = Some t /\
    f_leaves t = firstn (2 ^ (H - 1)) (offered os) /\
    (settled H os = true -> full_root di t = spec_root H (firstn (2 ^ (H - 1)) (offered os))).
Proof.
  intros H os HH. destruct (exec_new dl di join joinl H HH os) as (t & E & A & W & S0).
  exists t. split; auto. split; auto. intro F.
  apply (full_strong_root dl di join joinl H). auto.
Qed.

(** C02. Batch pushing [ds] after any settled history equals pushing [ds] one by one:
    same leaves, same root, same proofs for every index, provided that the batch has no
    level starting at a right and ending at a left node. *)
Theorem c02_batch_equals_pushes_partial : forall H os ds, 2 <= H ->
  settled H (os ++ [TBatch ds]) = true ->
  settled H os = true ->
  exists t1 t2,
    full_exec H full_new (os ++ [TBatch ds]) = Some t1 /\
    full_exec H full_new (os ++ map TPush ds) = Some t2 /\
    f_leaves t1 = f_leaves t2 /\ full_root di t1 = full_root di t2 /\
    forall i, i < full_len t1 -> full_path dl di H t1 i = full_path dl di H t2 i.
Proof.
  intros H os ds HH F F2.
  destruct (exec_new dl di join joinl H HH (os ++ [TBatch ds])) as (t1 & E1 & A1 & W1 & S1).
  destruct (exec_new dl di join joinl H HH (os ++ map TPush ds)) as (t2 & E2 & A2 & W2 & S2).
  assert (O : offered (os ++ [TBatch ds]) = offered (os ++ map TPush ds)).
  { unfold offered. rewrite !flat_map_app. f_equal. fold (offered (map TPush ds)).
    rewrite offered_pushes. cbn. apply app_nil_r. }
  assert (F3 : settled H (os ++ map TPush ds) = true).
  { unfold settled in *. rewrite fold_left_app. destruct (fold_left _ os _) as [n ok]. cbn [snd] in F2.
    apply settled_pushes. auto. }
  specialize (S1 F). specialize (S2 F3). rewrite O in *.
  exists t1, t2. repeat split; auto; try congruence.
  - rewrite (full_strong_root dl di join joinl H _ _ S1), (full_strong_root dl di join joinl H _ _ S2). auto.
  - intros i Hi. unfold full_len in Hi. rewrite A1 in Hi.
    rewrite (full_path_strong dl di join joinl H HH _ _ i S1), (full_path_strong dl di join joinl H HH _ _ i S2); auto.
Qed.

(** C02. Whatever batches came before, the next accepted single push restores the
    specified root. *)
Theorem c02_push_heals : forall H os d, 2 <= H -> length (offered os) < 2 ^ (H - 1) ->
  exists t, full_exec H full_new (os ++ [TPush d]) = Some t /\
    full_root di t = spec_root H (offered os ++ [d]).
Proof.
  intros H os d HH C.
  destruct (exec_new dl di join joinl H HH (os ++ [TPush d])) as (t & E & A & W & S0).
  exists t. split; auto.
  assert (O : offered (os ++ [TPush d]) = offered os ++ [d]) by (unfold offered; rewrite flat_map_app; reflexivity).
  rewrite O in *. rewrite firstn_all2 in S0 by (rewrite app_length; cbn [length]; lia).
  apply (full_strong_root dl di join joinl H). apply S0.
  assert (N : fst (fold_left (settle H) os (0, true)) = Nat.min (2 ^ (H - 1)) (0 + length (offered os))).
  { assert (G : forall os n ok, n <= 2 ^ (H - 1) ->
      fst (fold_left (settle H) os (n, ok)) = Nat.min (2 ^ (H - 1)) (n + length (@offered LD os))); [|apply G; lia].
    clear. induction os as [|o os IH]; intros n ok Hn.
    - cbn. lia.
    - cbn [fold_left offered flat_map]. rewrite app_length. destruct o as [d|ds]; cbn [settle top_items length].
      + destruct (Nat.ltb_spec n (2 ^ (H - 1))); rewrite IH by lia; unfold offered; lia.
      + destruct (Nat.ltb_spec n (Nat.min (2 ^ (H - 1)) (n + length ds))); rewrite IH by lia; unfold offered; lia. }
  unfold settled. rewrite fold_left_app. cbn [fold_left].
  destruct (fold_left _ os _) as [n ok]. cbn [fst] in N. cbn [settle].
  destruct (Nat.ltb_spec n (2 ^ (H - 1))); auto. lia.
Qed.

(** C03. After a settled history every stored index has a proof with the right index
    and length which verifies the stored leaf; unknown indices are refused. *)
Theorem c03_paths_verify : forall H os (ideqb : ID -> ID -> bool), 2 <= H ->
  (forall a b, ideqb a b = true <-> a = b) ->
  settled H os = true ->
  exists t, full_exec H full_new os = Some t /\
   (forall i x, nth_error (f_leaves t) i = Some x ->
      exists p, full_path dl di H t i = Some p /\ p_index p = i /\ length (p_inner p) = H - 2 /\
        path_verify join joinl ideqb p (full_root di t) x = true) /\
   (forall i, 0 < i -> full_len t <= i -> full_path dl di H t i = None).
Proof.
  intros H os ideqb HH SP F. destruct (exec_new dl di join joinl H HH os) as (t & E & A & W & S0).
  specialize (S0 F). exists t. split; auto. split.
  - intros i x Hx. rewrite A in Hx.
    assert (Hi : i < length (firstn (2 ^ (H - 1)) (offered os))) by (apply nth_error_Some; congruence).
    eexists. split; [apply (full_path_strong dl di join joinl H HH _ _ i S0); auto|].
    cbn [p_index p_inner]. split; auto. split; [apply spath_length|].
    unfold path_verify. apply SP. rewrite (full_strong_root dl di join joinl H _ _ S0).
    rewrite spec_root_sd.
    rewrite <- (nth_error_nth _ _ dl Hx).
    symmetry. apply spath_root; auto.
    destruct S0 as (_ & B & _). rewrite cap_eq in B by auto. lia.
  - intros i H0 Hi. unfold full_path. destruct (Nat.ltb_spec 0 i); try lia.
    destruct (Nat.leb_spec (full_len t) i); try lia. reflexivity.
Qed.

(** C03, soundness: with injective hashes, a candidate path of the right length for
    index [i] that verifies leaf [x] against the specified root of [l] proves that [x]
    is the [i]-th leaf. The path root is stated by the specification [spec_path_root]. *)
Theorem c03_verification_sound : forall H (l : list LD) i sib ds x,
  (forall a b c d, join a b = join c d -> a = c /\ b = d) ->
  (forall a b c d, joinl a b = joinl c d -> a = c /\ b = d) ->
  2 <= H -> length l <= 2 ^ (H - 1) -> i < length l -> length ds = H - 2 ->
  spec_path_root join joinl i x sib ds = spec_root H l ->
  nth_error l i = Some x.
Proof.
  intros H l i sib ds x J1 J2 HH Hl Hi Hd E.
  assert (P : path_root join joinl (Path i sib ds) x =
     path_root join joinl (Path i (nth (sibling i) l dl) (spath dl di join joinl H l i)) (nth i l dl)).
  { rewrite spath_root; auto.
    - rewrite <- spec_root_sd, <- E. unfold path_root, spec_path_root, node_join_leaves, is_left.
      cbn [p_index p_sibling p_inner]. apply path_fold_climb.
    - pose proof (cap_eq H HH) as C. unfold capacity in C. lia. }
  apply path_root_inj in P; auto.
  - destruct P as [-> _]. apply nth_error_nth'. auto.
  - rewrite Hd, spath_length; auto.
Qed.

(** The verifier of the model computes the specified path root. *)
Theorem c03_verify_is_spec : forall (ideqb : ID -> ID -> bool) p root x,
  (forall a b, ideqb a b = true <-> a = b) ->
  (path_verify join joinl ideqb p root x = true <->
   root = spec_path_root join joinl (p_index p) x (p_sibling p) (p_inner p)).
Proof.
  intros ideqb p root x SP. unfold path_verify. rewrite SP. unfold path_root, spec_path_root.
  rewrite path_fold_climb. unfold node_join_leaves, is_left. reflexivity.
Qed.

(** C04. Same pushes into a single-path and a full tree: both succeed, with the same
    length, root and current leaf; if no join produces the default digest, also the same
    current path, and this path is the last leaf's proof. *)
Theorem c04_single_path_agrees : forall H ds, 2 <= H ->
  exists s t,
    single_exec dl di join joinl H (single_new dl di) ds = Some s /\
    full_exec H full_new (map TPush ds) = Some t /\
    single_len s = full_len t /\ s_root s = full_root di t /\
    s_leaf s = nth_error (f_leaves t) (full_len t - 1).
Proof.
  intros H ds HH. destruct (exec_new dl di join joinl H HH (map TPush ds)) as (t & E & A & W & S0).
  specialize (S0 (settled_pushes H ds 0 true eq_refl)). rewrite offered_pushes in *.
  destruct (single_exec_ok dl di join joinl H HH ds _ _ (single_new_ok dl di join joinl H HH)) as (s & Es & So).
  cbn [app] in So. unfold capacity in So. set (l := firstn (2 ^ (H - 1)) ds) in *.
  exists s, t. split; auto. split; auto. destruct So as (_ & R & Sl). unfold full_len. rewrite A.
  rewrite (full_strong_root dl di join joinl H _ _ S0), R, spec_root_sd.
  destruct l as [|y l0] eqn:El.
  - destruct Sl as [S1 S2]. unfold single_len. rewrite S1. repeat split; auto.
  - destruct Sl as [S1 S2]. unfold single_len. rewrite S1, S2. cbn [c_index].
    split; [cbn [length]; lia|]. split; auto. symmetry. apply nth_error_nth'. cbn [length]. lia.
Qed.

Theorem c04_current_path_agrees : forall H ds (ideqb : ID -> ID -> bool), 2 <= H ->
  (forall a b, ideqb a b = true <-> a = b) ->
  (forall a b, join a b <> di) -> (forall a b, joinl a b <> di) ->
  exists s t,
    single_exec dl di join joinl H (single_new dl di) ds = Some s /\
    full_exec H full_new (map TPush ds) = Some t /\
    s_path s = full_current_path dl di ideqb H t /\
    (ds <> [] -> path_from_cpath di H (s_path s) = full_path dl di H t (full_len t - 1)).
Proof.
  intros H ds ideqb HH SP J1 J2. destruct (exec_new dl di join joinl H HH (map TPush ds)) as (t & E & A & W & S0).
  specialize (S0 (settled_pushes H ds 0 true eq_refl)). rewrite offered_pushes in *.
  destruct (single_exec_ok dl di join joinl H HH ds _ _ (single_new_ok dl di join joinl H HH)) as (s & Es & So).
  cbn [app] in So. unfold capacity in So.
  exists s, t. split; auto. split; auto. destruct So as (_ & R & Sl).
  assert (P0 : 0 < 2 ^ (H - 1)) by apply pow2_pos.
  destruct (firstn (2 ^ (H - 1)) ds) as [|y l0] eqn:El.
  - assert (ds = []). { destruct ds; auto. destruct (2 ^ (H - 1)); [lia|discriminate]. }
    destruct Sl as [S1 S2]. rewrite S2. split; [|congruence].
    unfold full_current_path, full_len. rewrite A. reflexivity.
  - destruct Sl as [S1 S2]. set (l := y :: l0) in *.
    assert (NE : l <> []) by discriminate. clearbody l.
    destruct (exists_last NE) as (l1 & x & El2). rewrite El2 in *.
    split.
    + rewrite S2. rewrite app_length; cbn [length]. rewrite Nat.add_sub.
      symmetry. apply (full_current_path_weak dl di join joinl H HH ideqb SP J1 J2); auto.
    + intros _. rewrite S2. unfold full_len. rewrite A.
      rewrite path_from_rsibs by (auto; rewrite app_length; cbn [length]; lia).
      symmetry. apply (full_path_strong dl di join joinl H HH _ _ _ S0).
      rewrite app_length; cbn [length]; lia.
Qed.

(** C05. A push is accepted iff fewer than [2^(H-1)] leaves are stored; a refused push
    changes nothing; an accepted one appends; batches report whether all leaves fit and
    keep the prefix that fits; the number of leaves never exceeds the capacity. *)
Theorem c05_capacity : forall H os, 2 <= H ->
  exists t, full_exec H full_new os = Some t /\ full_len t <= 2 ^ (H - 1) /\
    (forall d, snd (full_push dl di join joinl H t d) = true <-> full_len t < 2 ^ (H - 1)) /\
    (forall d, snd (full_push dl di join joinl H t d) = false -> fst (full_push dl di join joinl H t d) = t) /\
    (forall d, snd (full_push dl di join joinl H t d) = true ->
       f_leaves (fst (full_push dl di join joinl H t d)) = f_leaves t ++ [d]) /\
    (forall ds, exists t', full_batch_push dl di join joinl H t ds
                 = Some (t', full_len t + length ds <=? 2 ^ (H - 1)) /\
       f_leaves t' = f_leaves t ++ firstn (2 ^ (H - 1) - full_len t) ds).
Proof.
  intros H os HH. destruct (exec_new dl di join joinl H HH os) as (t & E & A & W & _).
  rewrite <- A in W. exists t. split; auto. split; [apply W|].
  assert (PC := fun d => full_push_cases dl di join joinl H HH t _ d W). unfold capacity in PC.
  repeat split.
  - intro F. destruct (PC d) as [(C & _)|(C & E')]; auto. rewrite E' in F. discriminate.
  - intro F. destruct (PC d) as [(C & S' & _)|(C & E')]; auto. unfold full_len in F. lia.
  - intros d F. destruct (PC d) as [(C & S' & _)|(C & E')]; [congruence|]. rewrite E'. auto.
  - intros d F. destruct (PC d) as [(C & _ & S')|(C & E')]; [apply S'|]. rewrite E' in F. discriminate.
  - intro ds. destruct (full_batch_inv dl di join joinl H HH t _ ds W) as (t' & E' & W' & _).
    exists t'. split; [exact E'|]. apply W'.
Qed.

End Props.

Print Assumptions c01_root_after_pushes.
Print Assumptions c02_settled_history_root.
Print Assumptions c02_batch_equals_pushes_partial.
Print Assumptions c02_push_heals.
Print Assumptions c03_paths_verify.
Print Assumptions c03_verification_sound.
Print Assumptions c03_verify_is_spec.
Print Assumptions c04_single_path_agrees.
Print Assumptions c04_current_path_agrees.
Print Assumptions c05_capacity.

(** C02, refutation: two leaves, then a batch of three, in a tree of height 4 (8
    leaves): the batch interface reports another root than single pushes. *)
Theorem c02_batch_equals_pushes_refuted :
  exists H (os : list (top nat)) ds, 2 <= H /\ settled H os = true /\
    length (offered os) + length ds <= 2 ^ (H - 1) /\
    exists t1 t2,
    full_exec 0 D0 DJ DL H full_new (os ++ [TBatch ds]) = Some t1 /\
    full_exec 0 D0 DJ DL H full_new (os ++ map TPush ds) = Some t2 /\
    full_root D0 t1 <> full_root D0 t2.
Proof.
  exists 4, [TPush 1; TPush 2], [3; 4; 5]. split; [lia|]. split; [reflexivity|].
  split; [vm_compute; lia|].
  destruct (x_exec 4 ([TPush 1; TPush 2] ++ [TBatch [3; 4; 5]])) as [t1|] eqn:E1; [|vm_compute in E1; discriminate].
  destruct (x_exec 4 ([TPush 1; TPush 2] ++ map TPush [3; 4; 5])) as [t2|] eqn:E2; [|vm_compute in E2; discriminate].
  exists t1, t2. split; [exact E1|]. split; [exact E2|].
  assert (R1 : full_root D0 t1 = x_root 4 ([TPush 1; TPush 2] ++ [TBatch [3; 4; 5]])) by (unfold x_root; rewrite E1; auto).
  assert (R2 : full_root D0 t2 = x_root 4 ([TPush 1; TPush 2] ++ map TPush [3; 4; 5])) by (unfold x_root; rewrite E2; auto).
  rewrite R1, R2. vm_compute. discriminate.
Qed.
Print Assumptions c02_batch_equals_pushes_refuted.

(** C04, refutation of the unconditional form: if a join can produce the default digest
    the full tree's current path drops it. *)
Theorem c04_current_path_default_digest_refuted :
  exists H (ds : list nat) (join joinl : nat -> nat -> nat), 2 <= H /\
    option_map s_path (single_exec 0 0 join joinl H (single_new 0 0) ds) <>
    option_map (full_current_path 0 0 Nat.eqb H) (full_exec 0 0 join joinl H full_new (map TPush ds)).
Proof.
  exists 3, [1; 2; 3], (fun a b => a + b), (fun a b => 0).
  split; [lia|]. vm_compute. discriminate.
Qed.
Print Assumptions c04_current_path_default_digest_refuted.

(** Non-vacuity. *)
Example ex_c01 : x_root 4 (map TPush [1; 2; 3]) = DJ (DJ (DL 1 2) (DL 3 0)) D0.
Proof. reflexivity. Qed.
Example ex_c01_spec : spec_root 0 D0 DJ DL 4 [1; 2; 3] = DJ (DJ (DL 1 2) (DL 3 0)) D0.
Proof. reflexivity. Qed.
Example ex_c02_settled : settled 4 [TPush 1; TBatch [2; 3; 4; 5; 6]] = true /\
  settled 4 [TPush 1; TPush 2; TBatch [3; 4; 5]] = false.
Proof. split; reflexivity. Qed.
Example ex_c02_root : x_root 4 [TPush 1; TBatch [2; 3; 4; 5; 6]] = spec_root 0 D0 DJ DL 4 [1; 2; 3; 4; 5; 6].
Proof. reflexivity. Qed.
Example ex_c03 : exists t p, x_exec 4 (map TPush [1; 2; 3; 4; 5]) = Some t /\ full_path 0 D0 4 t 2 = Some p /\
  path_verify DJ DL dig_eqb p (full_root D0 t) 3 = true /\ path_verify DJ DL dig_eqb p (full_root D0 t) 4 = false.
Proof. eexists _, _. repeat split; reflexivity. Qed.
Example ex_c03_sound_hyps : spec_path_root DJ DL 1 2 1 [DL 3 0] = spec_root 0 D0 DJ DL 3 [1; 2; 3].
Proof. reflexivity. Qed.
Example ex_c04 : option_map s_path (single_exec 0 D0 DJ DL 4 (single_new 0 D0) [1; 2; 3; 4; 5; 6; 7]) =
  Some (CPath 6 0 [DL 5 6; DJ (DL 1 2) (DL 3 4)]).
Proof. reflexivity. Qed.
Example ex_c05 : option_map full_len (x_exec 3 (map TPush [1; 2; 3; 4; 5; 6])) = Some 4.
Proof. reflexivity. Qed.
