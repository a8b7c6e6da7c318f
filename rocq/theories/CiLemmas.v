(** Lemmas on the constraints: exact sums, membership, what a satisfied assignment contains. *)
From Coq Require Import List Arith NArith Bool Lia.
From Verif Require Import MtModel MtSpec MtLemmas LgModel LgSpec CiModel CiSpec.
Import ListNotations.
Open Scope nat_scope.

Lemma nsum_app (a b : list N) : (nsum (a ++ b) = nsum a + nsum b)%N.
Proof. induction a as [|x a IH]; cbn [app nsum fold_right]; [reflexivity|]. change (fold_right N.add 0%N) with nsum. lia. Qed.

Section Sums.
Variable p : N.
Hypothesis Hp : (2 * u128 <= p)%N.

Lemma uadd_exact x y z ok : (x < u128)%N -> (y < u128)%N -> uadd p x y = (z, ok) ->
  z = (x + y)%N /\ (ok = true <-> (z < u128)%N).
Proof.
  intros Hx Hy E. unfold uadd in E. injection E as <- <-.
  rewrite N.mod_small by lia. split; [reflexivity|]. unfold in_range. apply N.ltb_lt.
Qed.

Lemma fold_sum_exact l : forall x b v, (x < u128)%N -> forallb in_range l = true ->
  fold_left (fun acc y => let '(z, ok) := uadd p (fst acc) y in (z, snd acc && ok)) l (x, b) = (v, true) ->
  v = (x + nsum l)%N /\ (v < u128)%N /\ b = true.
Proof.
  induction l as [|y l IH]; intros x b v Hx Hl E; cbn [fold_left] in E.
  - injection E as <- ->. cbn. split; [lia|]. auto.
  - cbn [forallb] in Hl. apply andb_true_iff in Hl. destruct Hl as (Hy & Hl). apply N.ltb_lt in Hy.
    cbn [fst snd] in E. destruct (uadd p x y) as [z ok] eqn:U.
    destruct (uadd_exact x y z ok Hx Hy U) as (Z & O).
    assert (F : forall l z, snd (fold_left (fun acc y => let '(z, ok) := uadd p (fst acc) y in (z, snd acc && ok)) l (z, false)) = false).
    { clear. induction l as [|y l IH]; intro z; [reflexivity|]. cbn [fold_left fst snd].
      destruct (uadd p z y) as [z' ok]. cbn [andb]. apply IH. }
    destruct ok.
    + destruct (IH z _ v (proj1 O eq_refl) Hl E) as (A & B & C).
      rewrite andb_true_r in C. cbn [nsum fold_right]. change (fold_right N.add 0%N l) with (nsum l).
      split; [lia|]. auto.
    + rewrite andb_false_r in E. specialize (F l z). rewrite E in F. discriminate.
Qed.

Lemma value_sum_exact l v : forallb in_range l = true -> value_sum p l = Some (v, true) ->
  v = nsum l /\ (v < u128)%N.
Proof.
  intros Hl E. destruct l as [|x l]; [discriminate|]. cbn [value_sum] in E. injection E as E.
  cbn [forallb] in Hl. apply andb_true_iff in Hl. destruct Hl as (Hx & Hl). apply N.ltb_lt in Hx.
  destruct (fold_sum_exact l x true v Hx Hl E) as (A & B & _). auto.
Qed.

Lemma fold_sum_ok l : forall x, (x + nsum l < u128)%N ->
  fold_left (fun acc y => let '(z, ok) := uadd p (fst acc) y in (z, snd acc && ok)) l (x, true) = ((x + nsum l)%N, true).
Proof.
  induction l as [|y l IH]; intros x B; cbn [fold_left nsum fold_right] in *.
  - f_equal. lia.
  - change (fold_right N.add 0%N l) with (nsum l) in *. cbn [fst snd].
    assert (U : uadd p x y = ((x + y)%N, true)).
    { unfold uadd. rewrite N.mod_small by lia. unfold in_range. rewrite (proj2 (N.ltb_lt _ _)) by lia. reflexivity. }
    rewrite U. cbn [andb]. rewrite IH by lia. f_equal. lia.
Qed.

Lemma value_sum_ok l : l <> [] -> (nsum l < u128)%N -> value_sum p l = Some (nsum l, true).
Proof.
  intros Hl B. destruct l as [|x l]; [congruence|]. cbn [value_sum]. rewrite fold_sum_ok by exact B. reflexivity.
Qed.
End Sums.

Section Paths.
Context {IT LD ID : Type}.
Variable dl : LD.
Variable di : ID.
Variable join : ID -> ID -> ID.
Variable joinl : LD -> LD -> ID.
Hypothesis join_inj : forall a b c d, join a b = join c d -> a = c /\ b = d.
Hypothesis joinl_inj : forall a b c d, joinl a b = joinl c d -> a = c /\ b = d.
Hypothesis join_di : forall a b, join a b <> di.
Hypothesis joinl_di : forall a b, joinl a b <> di.

Notation climb_bits := (fold_left (fun acc bd => let '(x, y) := cswap (fst bd) acc (snd bd) in join x y)).

Lemma combine_snoc {A B} (a : list A) (b : list B) x y : length a = length b ->
  combine (a ++ [x]) (b ++ [y]) = combine a b ++ [(x, y)].
Proof.
  revert b. induction a as [|u a IH]; intros [|v b] E; try discriminate; [reflexivity|].
  cbn [app combine]. f_equal. apply IH. cbn in E. lia.
Qed.

Lemma climb_member k : forall (bits : list bool) (ds : list ID) right x sib l,
  length bits = k -> length ds = k -> x <> dl ->
  climb_bits (combine bits ds) (let '(a, b) := cswap right x sib in joinl a b) = tree_digest dl di join joinl k l ->
  In x l.
Proof.
  induction k as [|k IH]; intros bits ds right x sib l Lb Ld Nd E.
  - destruct bits; [|discriminate]. destruct ds; [|discriminate]. cbn [combine fold_left] in E.
    destruct l as [|a r]; cbn [tree_digest] in E; [destruct right; cbn in E; apply joinl_di in E; destruct E|].
    destruct right; cbn [cswap] in E; apply joinl_inj in E; destruct E as (E1 & E2).
    + destruct r as [|b r]; [congruence|]. right. left. congruence.
    + left. congruence.
  - destruct (exists_last (l := bits)) as (bits' & b & ->); [intro Z; subst; discriminate|].
    destruct (exists_last (l := ds)) as (ds' & d & ->); [intro Z; subst; discriminate|].
    rewrite app_length in Lb, Ld. cbn [length] in Lb, Ld.
    rewrite combine_snoc, fold_left_app in E by lia. cbn [fold_left fst snd] in E.
    set (acc := climb_bits (combine bits' ds') _) in E.
    destruct l as [|a r]; [cbn [tree_digest] in E; destruct b; cbn [cswap] in E; apply join_di in E; destruct E|].
    cbn [tree_digest] in E.
    rewrite <- (firstn_skipn (2 ^ S k) (a :: r)). apply in_or_app.
    destruct b; cbn [cswap] in E; apply join_inj in E; destruct E as (E1 & E2).
    + right. apply (IH bits' ds' right x sib); [lia|lia|exact Nd|exact E2].
    + left. apply (IH bits' ds' right x sib); [lia|lia|exact Nd|exact E1].
Qed.

Lemma climb_not_leaf (v : ID) (N1 : forall a b, join a b <> v) (N2 : forall a b, joinl a b <> v) :
  forall (bds : list (bool * ID)) a b, climb_bits bds (joinl a b) <> v.
Proof.
  intro bds. induction bds as [|bd bds IH] using rev_ind; intros a b; [apply N2|].
  rewrite fold_left_app. cbn [fold_left]. destruct bd as [[] d]; apply N1.
Qed.

(** The gadget computes the native root. *)
Lemma pv_root_path H (q : path LD ID) (x : LD) : length (p_inner q) = path_length H ->
  pv_root join joinl (path_var H q) x = path_root join joinl q x.
Proof.
  destruct q as [i s ds]. intro Lq. cbn [p_inner] in Lq. unfold pv_root, path_var, path_root, node_join_leaves.
  cbn [p_index p_sibling p_inner pv_right pv_bits pv_sib pv_path].
  assert (F : forall ds n i acc, length ds = n ->
    climb_bits (combine (map (fun j => negb (is_left j)) (parents n i)) ds) acc = path_fold join i acc ds).
  { clear. induction ds as [|d ds IH]; intros n i acc E; destruct n; try discriminate; [reflexivity|].
    cbn [parents map combine fold_left path_fold fst snd]. unfold parent, node_join. rewrite IH by (cbn in E; lia).
    f_equal. unfold cswap. destruct (is_left (i / 2)); reflexivity. }
  destruct (is_left i); cbn [negb cswap]; apply F; exact Lq.
Qed.
End Paths.

Lemma forallb_map {A B} (f : A -> B) (g : B -> bool) l : forallb g (map f l) = forallb (fun x => g (f x)) l.
Proof. induction l; cbn; [reflexivity|]. rewrite IHl. reflexivity. Qed.

Lemma all_eq_common l : all_eq l = true -> exists id, forall x, In x l -> x = id.
Proof.
  destruct l as [|y l]; cbn [all_eq].
  - intros _. exists 0%N. intros x [].
  - intro E. exists y. intros x [->|I]; [reflexivity|].
    unfold all_eq_to in E. rewrite forallb_forall in E. symmetry. apply N.eqb_eq. apply E. exact I.
Qed.
