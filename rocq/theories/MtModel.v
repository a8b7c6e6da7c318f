(** Model of the Merkle tree crate: nodes, inner tree, paths, full tree and
    single-path tree.  Source: /repo/manta-crypto/src/merkle_tree/{node,inner_tree,
    path,tree,full,single_path}.rs

    Simplifications, used throughout:
    - [usize] indices are [nat]; no wrap-around (indices stay below [2^HEIGHT]);
    - the inner map (BTreeMap/HashMap from usize, inner_tree.rs L407-527) is the
      function [nat -> option ID] with the contract get/set/remove;
    - hash parameters are folded into the functions [join] and [joinl];
    - a Rust panic is the result [None] of an option-returning function. *)
From Coq Require Import List Arith Bool.
Import ListNotations.

(** node.rs L34-50: [Parity::from_index], [is_left]: left iff the index is even. *)
Definition is_left (i : nat) : bool := Nat.even i.

(** node.rs L186-193: [Node::sibling]. *)
Definition sibling (i : nat) : nat := if is_left i then i + 1 else i - 1.

(** node.rs L223-228: [Node::as_left]. *)
Definition as_left (i : nat) : nat := if is_left i then i else i - 1.

(** node.rs L264-267: [Node::parent], [>> 1]. *)
Definition parent (i : nat) : nat := i / 2.

(** node.rs L210-212: [Node::are_siblings]. *)
Definition are_siblings (a b : nat) : bool := Nat.eqb (sibling a) b.

(** tree.rs L214: [capacity] = 1 << (HEIGHT - 1). *)
Definition capacity (H : nat) : nat := 2 ^ (H - 1).

(** tree.rs L227: [path_length] = HEIGHT - 2. *)
Definition path_length (H : nat) : nat := H - 2.

(** inner_tree.rs L40-58: [InnerNode { depth, index }]. *)
Record inode := INode { nd_depth : nat; nd_index : nat }.

(** inner_tree.rs L128-137: [depth_starting_index], [map_index]. *)
Definition map_index (n : inode) : nat := (2 ^ (nd_depth n + 1) - 1) + nd_index n.

(** inner_tree.rs L92-95: [InnerNode::sibling]. *)
Definition inode_sibling (n : inode) : inode := INode (nd_depth n) (sibling (nd_index n)).

(** inner_tree.rs L98-104, L121-125, L190-205: [InnerNodeIter]: the node itself and
    its parents, stopping after depth 0. *)
Fixpoint inner_nodes (depth index : nat) : list inode :=
  INode depth index ::
  match depth with
  | 0 => []
  | S d => inner_nodes d (parent index)
  end.

(** inner_tree.rs L66-72, L175-180: [InnerNodeIter::from_leaf]: starts at the parent
    of (path_length, leaf), empty when [path_length = 0]. *)
Definition inner_nodes_from_leaf (H leaf : nat) : list inode :=
  match path_length H with
  | 0 => []
  | S d => inner_nodes d (parent leaf)
  end.

(** node.rs L464-497: [NodeRange { node, extra_nodes }]. *)
Record nrange := NRange { rg_node : nat; rg_extra : nat }.

(** node.rs L511-518: [NodeRange::dual_parity]; [true] means left. *)
Definition dual_parity (r : nrange) : bool * bool :=
  let s := is_left (rg_node r) in
  (s, if s then is_left (rg_extra r) else is_left (rg_extra r + 1)).

(** node.rs L523-533: [NodeRange::parents]. *)
Definition range_parents (r : nrange) : nrange :=
  NRange (parent (rg_node r))
    (match dual_parity r with
     | (true, false) => (rg_extra r - 1) / 2
     | (false, true) => (rg_extra r + 1) / 2
     | _ => rg_extra r / 2
     end).

(** node.rs L537-539: [NodeRange::last_node]. *)
Definition last_node (r : nrange) : nat := rg_node r + rg_extra r.

(** inner_tree.rs L223-329, L385-400: iterating [InnerNodeRangeIter] from a range at
    [depth]: the range itself and its parents, down to depth 0. *)
Fixpoint inner_ranges (depth : nat) (r : nrange) : list (nat * nrange) :=
  (depth, r) ::
  match depth with
  | 0 => []
  | S d => inner_ranges d (range_parents r)
  end.

(** inner_tree.rs L242-264: [InnerNodeRange::from_leaves]: [None] when the last leaf
    does not fit, otherwise the parents of the leaf range (none at depth 0). *)
Definition inner_ranges_from_leaves (H : nat) (r : nrange) : list (nat * nrange) :=
  if 2 ^ (path_length H + 1) <=? last_node r then []
  else match path_length H with
       | 0 => []
       | S d => inner_ranges d (range_parents r)
       end.

Section Hash.
Context {LD ID : Type}.
Variable dl : LD.                     (* LeafDigest::default() *)
Variable di : ID.                     (* InnerDigest::default() *)
Variable join : ID -> ID -> ID.       (* Parameters::join *)
Variable joinl : LD -> LD -> ID.      (* Parameters::join_leaves *)
Variable ideqb : ID -> ID -> bool.    (* PartialEq on InnerDigest *)
Variable H : nat.                     (* Configuration::HEIGHT *)

(** node.rs L108-130 and L298-323: [Parity::join], [Node::join], [Node::join_leaves]:
    the first argument is the digest at the node, the second its sibling. *)
Definition node_join (i : nat) (a b : ID) : ID := if is_left i then join a b else join b a.
Definition node_join_leaves (i : nat) (a b : LD) : ID :=
  if is_left i then joinl a b else joinl b a.

(** inner_tree.rs L407-499: [InnerMap]. *)
Definition imap := nat -> option ID.
Definition imap_empty : imap := fun _ => None.
Definition imap_set (m : imap) (i : nat) (d : ID) : imap :=
  fun j => if Nat.eqb j i then Some d else m j.
Definition imap_remove (m : imap) (i : nat) : imap :=
  fun j => if Nat.eqb j i then None else m j.

(** inner_tree.rs L709-713: [map_get_or_sentinel]; the sentinel is the default digest
    (inner_tree.rs L545-600, [Sentinel]). *)
Definition gos (m : imap) (i : nat) : ID :=
  match m i with Some d => d | None => di end.

(** inner_tree.rs L717-719: [InnerTree::root]. *)
Definition inner_root (m : imap) : ID := gos m 0.

(** inner_tree.rs L730-761: [insert_and_get_pair], [insert_and_join]. *)
Definition insert_and_join (m : imap) (n : inode) (d : ID) : imap * ID :=
  let index := map_index n in
  let m' := imap_set m index d in
  (m', if is_left (nd_index n)
       then join (gos m' index) (gos m' (index + 1))
       else join (gos m' (index - 1)) (gos m' index)).

(** inner_tree.rs L802-811: [compute_root], fold of [insert_and_join]. *)
Fixpoint compute_root_nodes (ns : list inode) (m : imap) (acc : ID) : imap * ID :=
  match ns with
  | [] => (m, acc)
  | n :: ns' => let '(m', acc') := insert_and_join m n acc in compute_root_nodes ns' m' acc'
  end.

(** inner_tree.rs L846-849: [InnerTree::insert] = compute_root, set_root (L723-725). *)
Definition inner_insert (m : imap) (leaf : nat) (base : ID) : imap :=
  let '(m', root) := compute_root_nodes (inner_nodes_from_leaf H leaf) m base in
  imap_set m' 0 root.

(** [for (index, d) in (start..).zip(ds) { map.set(index, d) }], inner_tree.rs L775-777;
    [n] is the length of the index range. *)
Fixpoint set_zip (m : imap) (start n : nat) (ds : list ID) : imap :=
  match n, ds with
  | S n', d :: ds' => set_zip (imap_set m start d) (S start) n' ds'
  | _, _ => m
  end.

(** [(start..start+n).step_by(2)], inner_tree.rs L780, L788. *)
Fixpoint step2 (start n : nat) : list nat :=
  match n with
  | 0 => []
  | 1 => [start]
  | S (S n') => start :: step2 (S (S start)) n'
  end.

(** inner_tree.rs L767-797: [insert_range_and_join]. *)
Definition insert_range_and_join (m : imap) (depth : nat) (r : nrange) (ds : list ID)
  : imap * list ID :=
  let start := map_index (INode depth (rg_node r)) in
  let n := rg_extra r + 1 in
  let m' := set_zip m start n ds in
  (m',
   if fst (dual_parity r)
   then map (fun i => join (gos m' i) (gos m' (i + 1))) (step2 start n)
   else map (fun i => join (gos m' (i - 1)) (gos m' i)) (step2 start n)).

Fixpoint compute_root_ranges (rs : list (nat * nrange)) (m : imap) (ds : list ID)
  : imap * list ID :=
  match rs with
  | [] => (m, ds)
  | (depth, r) :: rs' =>
      let '(m', ds') := insert_range_and_join m depth r ds in
      compute_root_ranges rs' m' ds'
  end.

(** inner_tree.rs L816-842: [compute_root_from_leaves] and [batch_insert];
    [None] is the panic of [expect] on an empty final vector. *)
Definition inner_batch_insert (m : imap) (r : nrange) (base : list ID) : option imap :=
  let '(m', ds) := compute_root_ranges (inner_ranges_from_leaves H r) m base in
  match ds with
  | [] => None
  | root :: _ => Some (imap_set m' 0 root)
  end.

(** [(a..b).step_by(2)] for the leaf pairs of node.rs L559-572. *)
Definition steps_between (a b : nat) : list nat := step2 a (b - a).

(** node.rs L545-581: [NodeRange::join_leaves]; [get] is the closure returning the
    stored sibling leaf of a node. The list [leaves] must be non-empty (the callers
    check), otherwise Rust underflows: [None]. *)
Definition range_join_leaves (r : nrange) (leaves : list LD) (get : nat -> option LD)
  : option (list ID) :=
  match leaves with
  | [] => None
  | first :: _ =>
      let len := length leaves in
      let odef o := match o with Some x => x | None => dl end in
      let head :=
        if fst (dual_parity r) then []
        else [joinl (odef (get (rg_node r))) first] in
      let idx := if fst (dual_parity r) then steps_between 0 (len - 1)
                 else steps_between 1 (len - 1) in
      let mids := map (fun i => joinl (nth i leaves dl) (nth (i + 1) leaves dl)) idx in
      let lastj :=
        if snd (dual_parity r)
        then [node_join_leaves (last_node r) (nth (len - 1) leaves dl)
                (odef (get (last_node r)))]
        else [] in
      Some (head ++ mids ++ lastj)
  end.

(** inner_tree.rs L1166-1177 with L859-861: the siblings of the nodes above [leaf]. *)
Definition path_iter_for_leaf (m : imap) (leaf : nat) : list ID :=
  map (fun n => gos m (map_index (inode_sibling n))) (inner_nodes_from_leaf H leaf).

(** path.rs L66-77 and L643-652: [InnerPath], [Path] flattened into one record:
    leaf index, sibling leaf digest, inner digests. *)
Record path := Path { p_index : nat; p_sibling : LD; p_inner : list ID }.

(** path.rs L158-179: [InnerPath::fold_fn]/[fold]. *)
Fixpoint path_fold (index : nat) (acc : ID) (ds : list ID) : ID :=
  match ds with
  | [] => acc
  | d :: ds' => path_fold (parent index) (node_join (parent index) acc d) ds'
  end.

(** path.rs L120-138, L704-707: [Path::root]. *)
Definition path_root (p : path) (leaf : LD) : ID :=
  path_fold (p_index p) (node_join_leaves (p_index p) leaf (p_sibling p)) (p_inner p).

(** path.rs L712-723: [Path::verify_digest]. *)
Definition path_verify (p : path) (root : ID) (leaf : LD) : bool := ideqb root (path_root p leaf).

(** path.rs L263-275 and L793-802: [CurrentInnerPath], [CurrentPath]. *)
Record cpath := CPath { c_index : nat; c_sibling : LD; c_inner : list ID }.

(** path.rs L785-792 (derived Default). *)
Definition cpath_default : cpath := CPath 0 dl [].

(** path.rs L375-411: [CurrentInnerPath::fold_fn], [fold] over [steps] levels;
    [None] is the panic of [iter.next().unwrap()]. *)
Fixpoint cpath_fold (steps index : nat) (acc : ID) (ds : list ID) : option ID :=
  match steps with
  | 0 => Some acc
  | S s =>
      let index' := parent index in
      if is_left index' then cpath_fold s index' (join acc di) ds
      else match ds with
           | [] => None
           | d :: ds' => cpath_fold s index' (join d acc) ds'
           end
  end.

(** path.rs L317-348, L858-864: [CurrentPath::root]. *)
Definition cpath_root (p : cpath) (leaf : LD) : option ID :=
  cpath_fold (path_length H - 0) (c_index p)
    (node_join_leaves (c_index p) leaf (c_sibling p)) (c_inner p).

(** path.rs L438-454: the loop of [CurrentInnerPath::update] while the two leaves'
    ancestors are not siblings. [fuel] bounds the number of levels; running out of it
    corresponds to the Rust loop running past the root, reported as [None].
    Result: (last_index, index, last_accumulator, accumulator, rest of path, depth). *)
Fixpoint update_loop (fuel last index : nat) (lacc acc : ID) (ds : list ID) (depth : nat)
  : option (nat * ID * ID * list ID * nat) :=
  match fuel with
  | 0 => None
  | S f =>
      let last' := parent last in
      let index' := parent index in
      if are_siblings last' index' then Some (index', lacc, acc, ds, depth)
      else if is_left last' then
        update_loop f last' index' (join lacc di) (join acc di) ds (S depth)
      else match ds with
           | [] => None
           | d :: ds' => update_loop f last' index' (join d lacc) (join acc di) ds' (S depth)
           end
  end.

(** path.rs L416-472, L894-906: [CurrentPath::update]; returns the new path, the new
    current leaf and the new root. *)
Definition cpath_update (p : cpath) (leaf next : LD) : option (cpath * LD * ID) :=
  let last := c_index p in
  let index := last + 1 in
  if is_left index then
    let lacc := joinl (c_sibling p) leaf in
    let acc := joinl next dl in
    match update_loop (path_length H + 1) last index lacc acc (c_inner p) 0 with
    | None => None
    | Some (index', lacc', acc', rest, depth) =>
        match cpath_fold (path_length H - (depth + 1)) index' (join lacc' acc') rest with
        | None => None
        | Some root => Some (CPath index dl (lacc' :: rest), next, root)
        end
    end
  else
    let p' := CPath index leaf (c_inner p) in
    match cpath_root p' next with
    | None => None
    | Some root => Some (p', next, root)
    end.

(** path.rs L106-116: [is_current_with] the default digest. *)
Definition path_is_current (p : path) : bool :=
  forallb (fun '(n, d) => if is_left (nd_index n) then ideqb d di else true)
    (combine (inner_nodes_from_leaf H (p_index p)) (p_inner p)).

(** path.rs L307-313, L840-848: [from_path_unchecked_with] drops default digests. *)
Definition cpath_from_path (p : path) : cpath :=
  CPath (p_index p) (p_sibling p) (filter (fun d => negb (ideqb d di)) (p_inner p)).

(** path.rs L917-926: [CurrentPath::try_from]. *)
Definition cpath_try_from (p : path) : option cpath :=
  if path_is_current p then Some (cpath_from_path p) else None.

(** path.rs L532-546 and L206-215: [CurrentInnerPath::into_iter]: right nodes take the
    next stored digest ([None]: unwrap panic), left nodes the default. *)
Fixpoint cpath_expand (ns : list inode) (ds : list ID) : option (list ID) :=
  match ns with
  | [] => Some []
  | n :: ns' =>
      if is_left (nd_index n)
      then match cpath_expand ns' ds with Some r => Some (di :: r) | None => None end
      else match ds with
           | [] => None
           | d :: ds' => match cpath_expand ns' ds' with Some r => Some (d :: r) | None => None end
           end
  end.

(** path.rs L742-744: [Path::from(CurrentPath)]. *)
Definition path_from_cpath (p : cpath) : option path :=
  match cpath_expand (inner_nodes_from_leaf H (c_index p)) (c_inner p) with
  | Some ds => Some (Path (c_index p) (c_sibling p) ds)
  | None => None
  end.

(** inner_tree.rs L885-893: [current_path_unchecked]: siblings different from the
    sentinel. *)
Definition inner_current_path (m : imap) (leaf : nat) : list ID :=
  filter (fun d => negb (ideqb d di)) (path_iter_for_leaf m leaf).

(** ** Full tree, full.rs *)

(** full.rs L62-72. *)
Record full := Full { f_leaves : list LD; f_map : imap }.

(** full.rs L184-187 (Default). *)
Definition full_new : full := Full [] imap_empty.

Definition full_len (t : full) : nat := length (f_leaves t).      (* full.rs L103 *)
Definition full_root (t : full) : ID := inner_root (f_map t).     (* full.rs L115 *)

(** full.rs L121-132: [get_leaf_sibling], [get_owned_leaf_sibling]. *)
Definition full_leaf_sibling (t : full) (i : nat) : option LD := nth_error (f_leaves t) (sibling i).
Definition oleaf (o : option LD) : LD := match o with Some x => x | None => dl end.

(** full.rs L136-155: [push_leaf_digest] at index [len]. *)
Definition full_push_leaf (t : full) (d : LD) : full :=
  let i := full_len t in
  Full (f_leaves t ++ [d])
    (inner_insert (f_map t) i (node_join_leaves i d (oleaf (full_leaf_sibling t i)))).

(** full.rs L219-229 with tree.rs [push_digest]: the tree and [true] iff pushed. *)
Definition full_push (t : full) (d : LD) : full * bool :=
  if capacity H <=? full_len t then (t, false) else (full_push_leaf t d, true).

(** full.rs L159-173: [batch_push_leaf_digests]. *)
Definition full_batch_leaves (t : full) (r : nrange) (ds : list LD) : option full :=
  match range_join_leaves r ds (full_leaf_sibling t) with
  | None => None
  | Some base =>
      match inner_batch_insert (f_map t) r base with
      | None => None
      | Some m => Some (Full (f_leaves t ++ ds) m)
      end
  end.

(** full.rs L232-272: [batch_maybe_push_digest]. Outer [None]: panic. Inner option:
    the [Option<bool>] returned by Rust. *)
Definition full_batch (t : full) (ds : list LD) : option (full * option bool) :=
  match ds with
  | [] => Some (t, None)
  | _ =>
      let len := full_len t in
      let n := length ds in
      if capacity H <? len + n then
        let maxn := capacity H - len in
        if maxn =? 0 then Some (t, Some false)
        else match full_batch_leaves t (NRange len (maxn - 1)) (firstn maxn ds) with
             | None => None
             | Some t' => Some (t', Some false)
             end
      else match full_batch_leaves t (NRange len (n - 1)) ds with
           | None => None
           | Some t' => Some (t', Some true)
           end
  end.

(** tree.rs L345-371: [batch_push_digest] = batch_maybe_push_digest(..).unwrap_or(true). *)
Definition full_batch_push (t : full) (ds : list LD) : option (full * bool) :=
  match full_batch t ds with
  | None => None
  | Some (t', ob) => Some (t', match ob with Some b => b | None => true end)
  end.

(** full.rs L205-216: [current_path]. *)
Definition full_current_path (t : full) : cpath :=
  match full_len t with
  | 0 => cpath_default
  | S i => CPath i (oleaf (full_leaf_sibling t i)) (inner_current_path (f_map t) i)
  end.

(** full.rs L305-316: [path]; [None] is [Err(IndexTooLarge)]. *)
Definition full_path (t : full) (i : nat) : option path :=
  if (0 <? i) && (full_len t <=? i) then None
  else Some (Path i (oleaf (full_leaf_sibling t i)) (path_iter_for_leaf (f_map t) i)).

(** ** Single-path tree, single_path.rs *)

(** single_path.rs L70-82. *)
Record single := Single { s_leaf : option LD; s_path : cpath; s_root : ID }.

(** single_path.rs L141-144 (derived Default). *)
Definition single_new : single := Single None cpath_default di.

(** single_path.rs L90-96. *)
Definition single_len (t : single) : nat :=
  match s_leaf t with None => 0 | Some _ => c_index (s_path t) + 1 end.

(** single_path.rs L33-43, L201-215. *)
Inductive slength := SEmpty | SCanAccept | SFull.
Definition single_length_state (t : single) : slength :=
  match s_leaf t with
  | None => SEmpty
  | Some _ => if c_index (s_path t) <? capacity H - 1 then SCanAccept else SFull
  end.

(** single_path.rs L173-192: [maybe_push_digest]; [None] is a panic. *)
Definition single_push (t : single) (d : LD) : option (single * bool) :=
  match single_length_state t, s_leaf t with
  | SFull, _ => Some (t, false)
  | SEmpty, _ =>
      match cpath_root (s_path t) d with
      | None => None
      | Some root => Some (Single (Some d) (s_path t) root, true)
      end
  | SCanAccept, Some cur =>
      match cpath_update (s_path t) cur d with
      | None => None
      | Some (p', leaf', root) => Some (Single (Some leaf') p' root, true)
      end
  | SCanAccept, None => None
  end.

End Hash.

Arguments imap ID : clear implicits.
Arguments path LD ID : clear implicits.
Arguments cpath LD ID : clear implicits.
Arguments full LD ID : clear implicits.
Arguments single LD ID : clear implicits.
