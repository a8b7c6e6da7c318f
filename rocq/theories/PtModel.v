(** Model of partial trees, forked trees and forests of forked trees.
    Source: /repo/manta-crypto/src/merkle_tree/{partial,leaf_map,inner_tree,fork,forest}.rs

    Simplifications (besides those of [MtModel]):
    - a leaf map (leaf_map.rs L354-372, a BTreeMap and the last index) is the list of the
      optional entries of the keys 0..last_index; keys past the last index never exist;
    - the forest is the list of its trees, an item is its digest together with its shard
      ([sh] is [tree_index], [dg] the leaf hash);
    - a subtraction of indices that underflows is a panic when [chk] (overflow checks) is on
      and wraps to an index past the end when it is off. *)
From Coq Require Import List Arith Bool.
From Verif Require Import MtModel.
Import ListNotations.

(** Position of the first element satisfying a test. *)
Fixpoint find_pos {A} (f : A -> bool) (l : list A) : option nat :=
  match l with
  | [] => None
  | x :: r => if f x then Some 0 else option_map S (find_pos f r)
  end.

(** Replacing one element of a list; nothing happens past the end. *)
Fixpoint upd {A} (l : list A) (i : nat) (f : A -> A) : list A :=
  match l, i with
  | [], _ => []
  | x :: r, 0 => f x :: r
  | x :: r, S j => x :: upd r j f
  end.

Section LeafMap.
Context {LD : Type}.
Variable ldeqb : LD -> LD -> bool.    (* PartialEq on LeafDigest *)

(** leaf_map.rs L354-372. *)
Definition lmap := list (option (bool * LD)).

(** leaf_map.rs L392-395: [current_index]. *)
Definition lm_current (lm : lmap) : option nat :=
  match length lm with 0 => None | S i => Some i end.

(** The entry of a key. *)
Definition lm_entry (lm : lmap) (i : nat) : option (bool * LD) :=
  match nth_error lm i with Some e => e | None => None end.

(** leaf_map.rs L387-390, L453-456: [get], [is_marked]. *)
Definition lm_get (lm : lmap) (i : nat) : option LD := option_map snd (lm_entry lm i).
Definition lm_is_marked (lm : lmap) (i : nat) : option bool := option_map fst (lm_entry lm i).

(** leaf_map.rs L84-94: [is_marked_or_removed]. *)
Definition lm_mor (lm : lmap) (i : nat) : bool :=
  match lm_current lm with
  | None => false
  | Some c =>
      if c <=? i then false
      else match lm_is_marked lm i with Some b => b | None => true end
  end.

(** leaf_map.rs L446-450: [mark]. *)
Definition lm_mark (lm : lmap) (i : nat) : lmap :=
  upd lm i (fun e => match e with Some (_, x) => Some (true, x) | None => None end).

(** leaf_map.rs L459-464: [remove] (the result is not used by its callers). *)
Definition lm_remove (lm : lmap) (i : nat) : lmap :=
  match lm_current lm with
  | Some c => if i =? c then lm else upd lm i (fun _ => None)
  | None => lm
  end.

(** leaf_map.rs L405-413: [push]. *)
Definition lm_push (lm : lmap) (x : LD) : lmap := lm ++ [Some (false, x)].

(** leaf_map.rs L66-70: [extend]. *)
Definition lm_extend (lm : lmap) (xs : list LD) : lmap := fold_left lm_push xs lm.

(** leaf_map.rs L416-434: [from_vec]. *)
Definition lm_from_vec (xs : list LD) (marked : bool) : lmap :=
  map (fun x => Some (marked, x)) xs.

(** leaf_map.rs L437-450: [into_leaf_digests_with_markings], [into_leaf_digests]. *)
Definition lm_entries (lm : lmap) : list (bool * LD) :=
  flat_map (fun e => match e with Some p => [p] | None => [] end) lm.
Definition lm_digests (lm : lmap) : list LD := map snd (lm_entries lm).

(** leaf_map.rs L398-403: [position]: the first key whose digest is equal. *)
Definition lm_position (lm : lmap) (d : LD) : option nat :=
  find_pos (fun e => match e with Some (_, x) => ldeqb x d | None => false end) lm.

(** leaf_map.rs L104-106, L382-385: [leaf_digests] goes over the keys below [len], the
    number of entries. *)
Definition lm_leaf_digests (lm : lmap) : list LD :=
  flat_map (fun i => match lm_get lm i with Some x => [x] | None => [] end)
    (seq 0 (length (lm_entries lm))).

(** leaf_map.rs L115-121: [marked_leaf_digests]. *)
Definition lm_marked_digests (lm : lmap) : list LD :=
  flat_map (fun i => match lm_is_marked lm i, lm_get lm i with
                     | Some true, Some x => [x] | _, _ => [] end)
    (seq 0 (length (lm_entries lm))).
End LeafMap.

Arguments lmap LD : clear implicits.

Section Tree.
Context {LD ID : Type}.
Variable dl : LD.                     (* LeafDigest::default() *)
Variable di : ID.                     (* InnerDigest::default() *)
Variable join : ID -> ID -> ID.       (* Parameters::join *)
Variable joinl : LD -> LD -> ID.      (* Parameters::join_leaves *)
Variable ideqb : ID -> ID -> bool.    (* PartialEq on InnerDigest *)
Variable ldeqb : LD -> LD -> bool.    (* PartialEq on LeafDigest *)
Variable H : nat.                     (* Configuration::HEIGHT *)
Variable chk : bool.                  (* overflow checks *)

(** partial.rs L60-74 with inner_tree.rs L968-980: leaf map, inner map, starting leaf
    index. *)
Record partial := Part { pt_lm : lmap LD; pt_map : imap ID; pt_start : nat }.

(** partial.rs L56 (derived Default). *)
Definition pt_new : partial := Part [] imap_empty 0.

(** partial.rs L194-201: [len]. *)
Definition pt_len (t : partial) : nat :=
  pt_start t + match lm_current (pt_lm t) with Some i => i + 1 | None => 0 end.

(** partial.rs L210-213: [root]. *)
Definition pt_root (t : partial) : ID := inner_root di (pt_map t).

(** partial.rs L216-219: [leaf_digest]; outer [None]: panic. *)
Definition pt_leaf_digest (t : partial) (i : nat) : option (option LD) :=
  if i <? pt_start t then (if chk then None else Some None)
  else Some (lm_get (pt_lm t) (i - pt_start t)).

(** partial.rs L222-227: [position]. *)
Definition pt_position (t : partial) (d : LD) : option nat :=
  option_map (fun i => i + pt_start t) (lm_position ldeqb (pt_lm t) d).

(** partial.rs L230-242: [get_leaf_sibling], [get_owned_leaf_sibling]; all callers pass an
    index that is not below the start. *)
Definition pt_leaf_sibling (t : partial) (i : nat) : option LD :=
  lm_get (pt_lm t) (sibling (i - pt_start t)).

(** partial.rs L245-248: [current_leaf] (leaf_map.rs L50-60). *)
Definition pt_current_leaf (t : partial) : option LD :=
  match lm_current (pt_lm t) with Some i => lm_get (pt_lm t) i | None => None end.

(** partial.rs L252-267: [current_path]. *)
Definition pt_current_path (t : partial) : cpath LD ID :=
  match pt_len t with
  | 0 => cpath_default dl
  | S i => CPath i (oleaf dl (pt_leaf_sibling t i)) (inner_current_path di ideqb H (pt_map t) i)
  end.

(** partial.rs L271-281: [path_unchecked]. *)
Definition pt_path_unchecked (t : partial) (i : nat) : path LD ID :=
  Path i (oleaf dl (pt_leaf_sibling t i)) (path_iter_for_leaf di H (pt_map t) i).

(** partial.rs L285-304: [push_leaf_digest]. *)
Definition pt_push_leaf (t : partial) (i : nat) (d : LD) : partial :=
  Part (lm_push (pt_lm t) d)
    (inner_insert di join H (pt_map t) i
       (node_join_leaves joinl i d (oleaf dl (pt_leaf_sibling t i))))
    (pt_start t).

(** partial.rs L430-447: [Partial::maybe_push_digest] (the inherent method) with the digest
    given; also [push_provable_digest], L598-608. *)
Definition pt_push (t : partial) (d : LD) : partial * bool :=
  let len := pt_len t in
  if capacity H <=? len then (t, false) else (pt_push_leaf t len d, true).

Definition pt_mark (t : partial) (i : nat) : partial :=
  Part (lm_mark (pt_lm t) i) (pt_map t) (pt_start t).

(** partial.rs L547-555: [Tree::maybe_push_digest]: the pushed leaf is marked. *)
Definition pt_push_np (t : partial) (d : LD) : partial * bool :=
  let len := pt_len t in
  let '(t', b) := pt_push t d in
  (pt_mark t' (len - pt_start t), b).

(** partial.rs L307-322: [batch_push_leaf_digests]; [None]: panic. *)
Definition pt_batch_leaves (t : partial) (r : nrange) (ds : list LD) : option partial :=
  match range_join_leaves dl joinl r ds (pt_leaf_sibling t) with
  | None => None
  | Some base =>
      match inner_batch_insert di join H (pt_map t) r base with
      | None => None
      | Some m => Some (Part (lm_extend (pt_lm t) ds) m (pt_start t))
      end
  end.

(** partial.rs L325-367: [Partial::batch_maybe_push_digest].  Outer [None]: panic. *)
Definition pt_batch (t : partial) (ds : list LD) : option (partial * option (bool * nat)) :=
  match ds with
  | [] => Some (t, None)
  | _ =>
      let len := pt_len t in
      let n := length ds in
      if capacity H <? len + n then
        let maxn := capacity H - len in
        if maxn =? 0 then Some (t, Some (false, maxn))
        else match pt_batch_leaves t (NRange len (maxn - 1)) (firstn maxn ds) with
             | None => None
             | Some t' => Some (t', Some (false, maxn))
             end
      else match pt_batch_leaves t (NRange len (n - 1)) ds with
           | None => None
           | Some t' => Some (t', Some (true, n))
           end
  end.

(** [batch_push_provable_digest] (tree.rs, [unwrap_or(true)]) with partial.rs L636-646. *)
Definition pt_batch_push (t : partial) (ds : list LD) : option (partial * bool) :=
  match pt_batch t ds with
  | None => None
  | Some (t', None) => Some (t', true)
  | Some (t', Some (b, _)) => Some (t', b)
  end.

(** partial.rs L557-574: [Tree::batch_maybe_push_digest] marks the inserted leaves; with
    tree.rs L345-354 [batch_push_digest]. *)
Definition pt_batch_push_np (t : partial) (ds : list LD) : option (partial * bool) :=
  let leaf_index := pt_len t - pt_start t in
  match pt_batch t ds with
  | None => None
  | Some (t', None) => Some (t', true)
  | Some (t', Some (b, n)) => Some (fold_left pt_mark (seq leaf_index n) t', b)
  end.

(** [assert!(self.batch_push_digest(..))] on the collected marked digests when there are
    any, partial.rs L393-397 and L405-408. *)
Definition pt_flush (t : partial) (acc : list LD) : option partial :=
  match acc with
  | [] => Some t
  | _ => match pt_batch_push_np t acc with
         | Some (t', true) => Some t'
         | _ => None
         end
  end.

(** partial.rs L389-409: the loop of [extend_with_marked_digests]; [acc] is
    [marked_inserts]. *)
Fixpoint pt_extend_loop (t : partial) (acc : list LD) (items : list (bool * LD))
  : option partial :=
  match items with
  | [] => pt_flush t acc
  | (true, x) :: r => pt_extend_loop t (acc ++ [x]) r
  | (false, x) :: r =>
      match pt_flush t acc with
      | None => None
      | Some t1 =>
          let '(t2, b) := pt_push t1 x in
          if b then pt_extend_loop t2 [] r else None
      end
  end.

(** partial.rs L377-413: [extend_with_marked_digests].  Outer [None]: panic; inner [None]:
    [Err]. *)
Definition pt_extend_marked (t : partial) (items : list (bool * LD)) : option (option partial) :=
  if capacity H <? pt_len t then (if chk then None else Some None)
  else if length items <=? capacity H - pt_len t
  then match pt_extend_loop t [] items with Some t' => Some (Some t') | None => None end
  else Some None.

(** tree.rs L373-395: [extend_digests], which pushes through [Tree::maybe_push_digest].  The
    call that finds no more digests still tests the capacity first (partial.rs L441-444) and
    answers [Some(false)] on a full tree: the [assert!] of L386-389 fails. *)
Fixpoint pt_extend_np_loop (t : partial) (ds : list LD) : option partial :=
  match ds with
  | [] => if capacity H <=? pt_len t then None else Some t
  | d :: r => let '(t', b) := pt_push_np t d in if b then pt_extend_np_loop t' r else None
  end.
Definition pt_extend (t : partial) (ds : list LD) : option (option partial) :=
  if length ds <=? capacity H - pt_len t
  then match pt_extend_np_loop t ds with Some t' => Some (Some t') | None => None end
  else Some None.

(** inner_tree.rs L139-143, node.rs L275-279: the leaves below an inner node. *)
Definition leaf_nodes (n : inode) : list nat :=
  let k := H - 2 - nd_depth n in
  seq (nd_index n * 2 ^ k) (2 ^ k).

(** partial.rs L478-487: removing the siblings of the nodes above a removed leaf.  The
    difference with the start is truncated: every tree that is pruned starts at 0. *)
Fixpoint remove_nodes (ns : list inode) (start : nat) (lm : lmap LD) (m : imap ID) : imap ID :=
  match ns with
  | [] => m
  | n :: ns' =>
      let s := inode_sibling n in
      let m' := imap_remove m (map_index s) in
      if existsb (fun x => negb (lm_mor lm (x - start))) (leaf_nodes s) then m'
      else remove_nodes ns' start lm m'
  end.

(** partial.rs L467-492: [remove_path_at_index]. *)
Definition pt_remove_at (t : partial) (i : nat) : partial :=
  let si := sibling i in
  if lm_mor (pt_lm t) si && lm_mor (pt_lm t) i then
    let lm := lm_remove (lm_remove (pt_lm t) i) si in
    Part lm (remove_nodes (inner_nodes_from_leaf H (i + pt_start t)) (pt_start t) lm (pt_map t))
      (pt_start t)
  else t.

(** partial.rs L450-463: [prune]. *)
Definition pt_prune (t : partial) : partial :=
  match lm_current (pt_lm t) with
  | None => t
  | Some c =>
      fold_left pt_remove_at
        (filter (fun i => match lm_is_marked (pt_lm t) i with Some b => b | None => false end)
           (seq 0 c)) t
  end.

(** partial.rs L501-509: [remove_path]; [None]: panic. *)
Definition pt_remove_path (t : partial) (i : nat) : option (partial * bool) :=
  if i <? pt_start t then (if chk then None else Some (t, false))
  else
    match lm_current (pt_lm t) with
    | Some c => if i - pt_start t <=? c then Some (pt_mark t (i - pt_start t), true)
                else Some (t, false)
    | None => Some (t, false)
    end.

(** partial.rs L613-622: [WithProofs::path]; [None]: [Err]. *)
Definition pt_path (t : partial) (i : nat) : option (path LD ID) :=
  if (0 <? i) && (pt_len t <=? i) then None
  else if i <? pt_start t then None
  else Some (pt_path_unchecked t i).

(** inner_tree.rs L1008-1027 with path.rs L593-604: the fold of [from_current] over the nodes
    above the leaf; right nodes take the next digest ([None]: unwrap panic). *)
Fixpoint from_current_nodes (ns : list inode) (m : imap ID) (acc : ID) (ds : list ID)
  : option (imap ID * ID) :=
  match ns with
  | [] => Some (m, acc)
  | n :: ns' =>
      let index := map_index n in
      if is_left (nd_index n)
      then from_current_nodes ns' (imap_set m index acc) (join acc di) ds
      else match ds with
           | [] => None
           | d :: ds' =>
               from_current_nodes ns' (imap_set (imap_set m (index - 1) d) index acc)
                 (join d acc) ds'
           end
  end.

(** inner_tree.rs L997-1028: [PartialInnerTree::from_current]: the inner map and the
    starting leaf index; a default tree when there is no inner node above the leaf. *)
Definition from_current (base : ID) (leaf_index : nat) (ds : list ID)
  : option (imap ID * nat) :=
  match inner_nodes_from_leaf H leaf_index with
  | [] => Some (imap_empty, 0)
  | ns =>
      match from_current_nodes ns imap_empty base ds with
      | None => None
      | Some (m, root) => Some (imap_set m 0 root, as_left leaf_index)
      end
  end.

(** partial.rs L107-137: [from_leaves_and_path_unchecked]; [None]: panic. *)
Definition pt_from_leaves_path (leaves : list LD) (p : path LD ID) : option partial :=
  match length leaves with
  | 0 => Some (Part (lm_from_vec leaves true) imap_empty 0)
  | S i =>
      let leaf := nth i leaves dl in
      let base := if is_left i then joinl leaf (p_sibling p) else joinl (p_sibling p) leaf in
      let cp := cpath_from_path di ideqb p in
      match from_current base (c_index cp) (c_inner cp) with
      | None => None
      | Some (m, _) => Some (Part (lm_from_vec leaves true) m 0)
      end
  end.

(** ** Branches, fork.rs L224-620 *)

(** fork.rs L277-286: base contribution (0, 1 or 2 leaves) and data. *)
Record branch := Branch { br_contrib : nat; br_data : partial }.

(** fork.rs L345-384: [generate_branch_setup], from the length, the current leaf and the
    current path of the base; [None]: panic of [unwrap]. *)
Definition branch_setup (len : nat) (leaf : option LD) (cp : cpath LD ID)
  : option (nat * ID * list LD * (nat * list ID)) :=
  if len =? 0 then Some (0, di, [], (c_index cp, c_inner cp))
  else match leaf with
       | None => None
       | Some x =>
           if is_left (c_index cp)
           then Some (1, joinl x (c_sibling cp), [x], (c_index cp, c_inner cp))
           else Some (2, joinl (c_sibling cp) x, [c_sibling cp; x], (c_index cp, c_inner cp))
       end.

(** fork.rs L317-343: [Branch::new_unchecked]. *)
Definition branch_new (len : nat) (leaf : option LD) (cp : cpath LD ID) (ds : list LD)
  : option branch :=
  match branch_setup len leaf cp with
  | None => None
  | Some (contrib, base, leaves, (li, inner)) =>
      match from_current base li inner with
      | None => None
      | Some (m, start) =>
          let t := Part (lm_from_vec leaves false) m start in
          let n := pt_len t in
          Some (Branch contrib
            (fold_left (fun u p => pt_push_leaf u (n + fst p) (snd p))
               (combine (seq 0 (length ds)) ds) t))
      end
  end.

(** fork.rs L298-312: [Branch::new]; inner [None]: the result [None]. *)
Definition branch_new_checked (len : nat) (leaf : option LD) (cp : cpath LD ID) (ds : list LD)
  : option (option branch) :=
  if capacity H <=? length ds + len then Some None
  else match branch_new len leaf cp ds with Some b => Some (Some b) | None => None end.

(** fork.rs L387-408: [extract_leaves], [extract_leaves_with_markings]; [drain] panics when
    the range is too long. *)
Definition branch_extract_marked (b : branch) : option (list (bool * LD)) :=
  let es := lm_entries (pt_lm (br_data b)) in
  if length es <? br_contrib b then None else Some (skipn (br_contrib b) es).
Definition branch_extract (b : branch) : option (list LD) :=
  option_map (map snd) (branch_extract_marked b).

(** fork.rs L411-430: [try_rebase]; [None]: panic. *)
Definition branch_try_rebase (b : branch) (len : nat) (leaf : option LD) (cp : cpath LD ID)
  : option (branch * bool) :=
  if capacity H <=? pt_len (br_data b) + len - br_contrib b then Some (b, false)
  else match branch_extract b with
       | None => None
       | Some ds =>
           match branch_new len leaf cp ds with Some b' => Some (b', true) | None => None end
       end.

(** fork.rs L479-484: levels until the ancestors are siblings; [None]: no such level below
    the root (the iterators are unbounded, so the loop would not stop). *)
Fixpoint matching_index (fuel a b : nat) : option nat :=
  match fuel with
  | 0 => None
  | S f =>
      if are_siblings (parent a) (parent b) then Some 0
      else option_map S (matching_index f (parent a) (parent b))
  end.

(** fork.rs L461-503: [modified_path_unchecked]; [base_path] is the path of the base tree.
    Outer [None]: panic; inner [None]: [Err]. *)
Definition modified_path (b : branch) (i : nat) (base_path : option (path LD ID))
  : option (option (path LD ID)) :=
  match base_path with
  | None => Some None
  | Some bp =>
      let fork_index := pt_start (br_data b) in
      let fp := pt_path_unchecked (br_data b) fork_index in
      if are_siblings i fork_index
      then Some (Some (Path (p_index bp) (p_sibling bp) (p_inner fp)))
      else match matching_index (path_length H) i fork_index with
           | None => None
           | Some k =>
               match pt_leaf_digest (br_data b) fork_index with
               | None => None
               | Some leaf =>
                   let d := path_fold join fork_index
                     (node_join_leaves joinl fork_index (oleaf dl leaf) (p_sibling fp))
                     (firstn k (p_inner fp)) in
                   let inner := firstn k (p_inner bp) ++ upd (skipn k (p_inner fp)) 0 (fun _ => d) in
                   Some (Some (Path (p_index bp) (p_sibling bp) inner))
               end
           end
  end.

(** fork.rs L507-523: [Branch::path]. *)
Definition branch_path (b : branch) (i : nat) (base_path : option (path LD ID))
  : option (option (path LD ID)) :=
  let length := pt_len (br_data b) in
  if (0 <? i) && (length <=? i) then Some None
  else if i <? pt_start (br_data b) then modified_path b i base_path
  else Some (Some (pt_path_unchecked (br_data b) i)).

(** ** Forked trees over partial trees, fork.rs L845-1175 *)

(** fork.rs L876-888. *)
Record ftree := FTree { ft_base : partial; ft_branch : branch }.

(** The branch of a partial tree without extra leaves. *)
Definition branch_of (t : partial) : option branch :=
  branch_new (pt_len t) (pt_current_leaf t) (pt_current_path t) [].

(** fork.rs L898-906: [ForkedTree::new]. *)
Definition ft_make (t : partial) : option ftree :=
  match branch_of t with Some b => Some (FTree t b) | None => None end.

(** fork.rs L1084-1086: [Tree::new]. *)
Definition ft_new : option ftree := ft_make pt_new.

(** fork.rs L909-924. *)
Definition ft_len (t : ftree) : nat := pt_len (br_data (ft_branch t)).
Definition ft_root (t : ftree) : ID := pt_root (br_data (ft_branch t)).

(** fork.rs L932-943: [position]. *)
Definition ft_position (t : ftree) (d : LD) : option nat :=
  match pt_position (br_data (ft_branch t)) d with
  | Some i => Some i
  | None => pt_position (ft_base t) d
  end.

(** fork.rs L951-958: [current_path]. *)
Definition ft_current_path (t : ftree) : cpath LD ID := pt_current_path (br_data (ft_branch t)).

(** fork.rs L961-971: [path]. *)
Definition ft_path (t : ftree) (i : nat) : option (option (path LD ID)) :=
  branch_path (ft_branch t) i (pt_path (ft_base t) i).

Definition ft_set_data (t : ftree) (d : partial) : ftree :=
  FTree (ft_base t) (Branch (br_contrib (ft_branch t)) d).

(** fork.rs L1104-1109: [Tree::maybe_push_digest] (marks), and L1143-1152:
    [maybe_push_provable_digest] (does not). *)
Definition ft_push_np (t : ftree) (d : LD) : ftree * bool :=
  let '(u, b) := pt_push_np (br_data (ft_branch t)) d in (ft_set_data t u, b).
Definition ft_push (t : ftree) (d : LD) : ftree * bool :=
  let '(u, b) := pt_push (br_data (ft_branch t)) d in (ft_set_data t u, b).

(** fork.rs L1112-1121 and L1159-1168: batches. *)
Definition ft_batch_np (t : ftree) (ds : list LD) : option (ftree * bool) :=
  match pt_batch_push_np (br_data (ft_branch t)) ds with
  | Some (u, b) => Some (ft_set_data t u, b)
  | None => None
  end.
Definition ft_batch (t : ftree) (ds : list LD) : option (ftree * bool) :=
  match pt_batch_push (br_data (ft_branch t)) ds with
  | Some (u, b) => Some (ft_set_data t u, b)
  | None => None
  end.

(** fork.rs L1123-1126: [prune] prunes the base only. *)
Definition ft_prune (t : ftree) : ftree := FTree (pt_prune (ft_base t)) (ft_branch t).

(** fork.rs L1170-1174: [remove_path] acts on the branch only. *)
Definition ft_remove_path (t : ftree) (i : nat) : option (ftree * bool) :=
  match pt_remove_path (br_data (ft_branch t)) i with
  | Some (u, b) => Some (ft_set_data t u, b)
  | None => None
  end.

(** fork.rs L1011-1018: [reset_fork]. *)
Definition ft_reset (t : ftree) : option ftree := ft_make (ft_base t).

(** fork.rs L596-618 and L1056-1060: [merge_partial], [merge_fork_partial]; a failed
    [assert!] is a panic. *)
Definition ft_merge_partial (t : ftree) : option ftree :=
  match branch_extract_marked (ft_branch t) with
  | None => None
  | Some items =>
      match pt_extend_marked (ft_base t) items with
      | Some (Some b) => ft_make b
      | _ => None
      end
  end.

(** fork.rs L577-594 and L1021-1029: [merge], [merge_fork]. *)
Definition ft_merge (t : ftree) : option ftree :=
  match branch_extract (ft_branch t) with
  | None => None
  | Some ds =>
      match pt_extend (ft_base t) ds with
      | Some (Some b) => ft_make b
      | _ => None
      end
  end.

(** fork.rs L1043-1054: [from_leaves_and_path_unchecked]. *)
Definition ft_from_leaves_path (leaves : list LD) (p : path LD ID) : option ftree :=
  match pt_from_leaves_path leaves p with Some t => ft_make t | None => None end.

(** ** Forests, forest.rs *)

Section Forest.
Context {IT : Type}.
Variable dg : IT -> LD.               (* Parameters::digest *)
Variable sh : IT -> nat.              (* Configuration::tree_index *)

(** forest.rs L482-500: an array of trees. *)
Definition forest := list ftree.

(** Updating the tree of a shard; an index out of range is a panic.  [get_tree_mut],
    forest.rs L740-748. *)
Fixpoint fo_upd {R} (f : forest) (i : nat) (g : ftree -> option (ftree * R))
  : option (forest * R) :=
  match f, i with
  | [], _ => None
  | t :: r, 0 => match g t with Some (t', x) => Some (t' :: r, x) | None => None end
  | t :: r, S j => match fo_upd r j g with Some (r', x) => Some (t :: r', x) | None => None end
  end.

(** All trees; [None]: one of them panics. *)
Fixpoint fo_all (g : ftree -> option ftree) (f : forest) : option forest :=
  match f with
  | [] => Some []
  | t :: r =>
      match g t with
      | None => None
      | Some t' => match fo_all g r with Some r' => Some (t' :: r') | None => None end
      end
  end.

(** forest.rs L715-724: [Forest::new] with [n] shards. *)
Definition fo_new (n : nat) : option forest :=
  match ft_new with Some t => Some (repeat t n) | None => None end.

(** forest.rs L318-323: [Accumulator::insert]. *)
Definition fo_insert (f : forest) (x : IT) : option (forest * bool) :=
  fo_upd f (sh x) (fun t => Some (ft_push t (dg x))).

(** forest.rs L394-397: [insert_nonprovable]. *)
Definition fo_insert_np (f : forest) (x : IT) : option (forest * bool) :=
  fo_upd f (sh x) (fun t => Some (ft_push_np t (dg x))).

(** forest.rs L326-336: [prove]: a path and the root.  Outer [None]: panic. *)
Definition fo_prove (f : forest) (x : IT) : option (option (path LD ID * ID)) :=
  match nth_error f (sh x) with
  | None => None
  | Some t =>
      match ft_position t (dg x) with
      | None => Some None
      | Some i =>
          match ft_path t i with
          | None => None
          | Some None => Some None
          | Some (Some p) => Some (Some (p, ft_root t))
          end
      end
  end.

(** forest.rs L400-405: [remove_proof]. *)
Definition fo_remove_proof (f : forest) (x : IT) : option (forest * bool) :=
  fo_upd f (sh x) (fun t =>
    match ft_position t (dg x) with
    | None => Some (t, false)
    | Some i => ft_remove_path t i
    end).

(** forest.rs L409-411, L752-757: [prune]. *)
Definition fo_prune (f : forest) : forest := map ft_prune f.

(** forest.rs L600-608: [sort_items] with [n] shards; [None]: index out of range. *)
Fixpoint sort_push (i : nat) (x : IT) (g : list (list IT)) : option (list (list IT)) :=
  match g, i with
  | [], _ => None
  | l :: r, 0 => Some ((l ++ [x]) :: r)
  | l :: r, S j => match sort_push j x r with Some r' => Some (l :: r') | None => None end
  end.
Fixpoint sort_loop (xs : list IT) (g : list (list IT)) : option (list (list IT)) :=
  match xs with
  | [] => Some g
  | x :: r => match sort_push (sh x) x g with Some g' => sort_loop r g' | None => None end
  end.
Definition sort_items (n : nat) (xs : list IT) : option (list (list IT)) :=
  sort_loop xs (repeat [] n).

(** forest.rs L627-636, L644-653: the loop of the two batch insertions. *)
Fixpoint fo_batch_loop (push : ftree -> list LD -> option (ftree * bool)) (f : forest)
    (groups : list (list IT)) : option (forest * bool) :=
  match f, groups with
  | t :: f', g :: gs =>
      match push t (map dg g) with
      | None => None
      | Some (t', b) =>
          match fo_batch_loop push f' gs with
          | None => None
          | Some (f'', b') => Some (t' :: f'', b && b')
          end
      end
  | _, _ => Some (f, true)
  end.

(** forest.rs L621-636 and L638-653. *)
Definition fo_batch_insert (f : forest) (xs : list IT) : option (forest * bool) :=
  match sort_items (length f) xs with
  | None => None
  | Some gs => fo_batch_loop ft_batch f gs
  end.
Definition fo_batch_insert_np (f : forest) (xs : list IT) : option (forest * bool) :=
  match sort_items (length f) xs with
  | None => None
  | Some gs => fo_batch_loop ft_batch_np f gs
  end.

(** forest.rs L797-802 and L804-809. *)
Definition fo_rollback (f : forest) : option forest := fo_all ft_reset f.
Definition fo_commit (f : forest) : option forest := fo_all ft_merge_partial f.

(** forest.rs L548-570 and L587-598: [from_items_and_witnesses]. *)
Fixpoint fo_from_loop (items : list (list IT)) (ps : list (path LD ID)) : option forest :=
  match items, ps with
  | xs :: items', p :: ps' =>
      match ft_from_leaves_path (map dg xs) p with
      | None => None
      | Some t => match fo_from_loop items' ps' with Some f => Some (t :: f) | None => None end
      end
  | _, _ => Some []
  end.
Definition fo_from_items (n : nat) (items : list (list IT)) (ps : list (path LD ID))
  : option forest :=
  if length ps =? n then
    match fo_from_loop items ps with
    | Some f => if length f =? n then Some f else None
    | None => None
    end
  else None.
End Forest.
End Tree.

Arguments partial LD ID : clear implicits.
Arguments branch LD ID : clear implicits.
Arguments ftree LD ID : clear implicits.
Arguments forest LD ID : clear implicits.
