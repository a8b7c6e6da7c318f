(** * What a circuit has to do, for C86 *)
From Coq Require Import List ZArith NArith Znumtheory.
From Verif Require Import WmModel GdModel GdProps AlgBase PrField MtModel MtSpec PcModel.
Import ListNotations.
Local Open Scope Z_scope.

(** A circuit can be satisfied, whatever comes after its witnesses on the tape, and whatever the witnesses
    are, its result has the property. *)
Definition always {A} (c : circuit A) (R : A -> Prop) : Prop :=
  (exists t a, forall rest, c (t ++ rest) = Ok (a, (true, rest))) /\ forall a, accepted c a -> R a.

(** The number of a field element; a variable stands for an element. *)
Definition num {p : N} (k : zp p) : Z := Z.of_N (proj1_sig k).
Definition rep {p : N} (x : fpvar) (k : zp p) : Prop := value x = num k.

(** A native path with the numbers of its digests. *)
Definition numbers {p : N} (w : path (zp p) (zp p)) : path Z Z :=
  Path (p_index w) (num (p_sibling w)) (map num (p_inner w)).

(** A path that fits a tree: an index of a leaf and one digest for each level. *)
Definition fits {p : N} (H : nat) (w : path (zp p) (zp p)) : Prop :=
  (p_index w < 2 ^ (H - 1))%nat /\ length (p_inner w) = (H - 2)%nat.

(** A circuit for a function of two elements. *)
Definition gadget {p : N} (c : fpvar -> fpvar -> circuit fpvar) (f : zp p -> zp p -> zp p) : Prop :=
  forall x y a b, rep x a -> rep y b -> always (c x y) (fun z => rep z (f a b)).

(** ** Breaking the hash of a tree *)
Section Break.
Context {D : Type}.
Variables (dl di : D) (join joinl : D -> D -> D).

(** The pair of a digest and its sibling, in the order of the tree. *)
Definition pair_at (i : nat) (a b : D) : D * D := if Nat.even i then (a, b) else (b, a).
Definition apply_pair (f : D -> D -> D) (x : D * D) : D := f (fst x) (snd x).

(** What is hashed above the leaves when the root of a path is computed. *)
Fixpoint inner_pairs (i : nat) (acc : D) (ds : list D) : list (D * D) :=
  match ds with
  | [] => []
  | d :: ds => let x := pair_at (i / 2) acc d in x :: inner_pairs (i / 2) (apply_pair join x) ds
  end.
Definition path_leaves (w : path D D) (a : D) : D * D := pair_at (p_index w) a (p_sibling w).
Definition path_pairs (w : path D D) (a : D) : list (D * D) :=
  inner_pairs (p_index w) (apply_pair joinl (path_leaves w a)) (p_inner w).

(** What is hashed in the tree of a list of leaves. *)
Definition tree_leaves (l : list D) (i : nat) : D * D := (nth (2 * i) l dl, nth (2 * i + 1) l dl).
Definition tree_pair (l : list D) (k i : nat) : D * D :=
  let node i := tree_digest dl di join joinl k (skipn (i * 2 ^ S k) l) in (node (2 * i)%nat, node (2 * i + 1)%nat).

(** Something that is hashed for the path has the hash of something else that is hashed for the tree, or the
    digest that stands for subtrees without leaves. That there are collisions at all says nothing, there always are. *)
Definition broken (w : path D D) (a : D) (l : list D) : Prop :=
  (exists i, path_leaves w a <> tree_leaves l i /\ apply_pair joinl (path_leaves w a) = apply_pair joinl (tree_leaves l i)) \/
  (exists x k i, In x (path_pairs w a) /\ x <> tree_pair l k i /\ apply_pair join x = apply_pair join (tree_pair l k i)) \/
  apply_pair joinl (path_leaves w a) = di \/
  exists x, In x (path_pairs w a) /\ apply_pair join x = di.
End Break.
