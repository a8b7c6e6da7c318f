(** The linear algebra, the MDS matrices and the permutation of Poseidon.
    manta-pay/src/crypto/poseidon/{matrix,mds,preprocessing,mod,hash}.rs.

    The field is any field with decidable equality; the S-box is a function. A row that is
    read beyond its end gives zero here where the code panics: the theorems are about
    matrices all of whose rows have one length. Other panics are the value [Pan]. *)
From Coq Require Import List Arith Bool.
From Verif Require Import AlgBase.
Import ListNotations.

(** A result: a value, [None], or a panic ([expect], arithmetic below zero). *)
Inductive po (A : Type) := Val (a : A) | Non | Pan.
Arguments Val {A}. Arguments Non {A}. Arguments Pan {A}.
Definition pbind {A B} (r : po A) (f : A -> po B) : po B :=
  match r with Val a => f a | Non => Non | Pan => Pan end.
(** [expect]: [None] is a panic. *)
Definition pexpect {A} (r : po A) : po A := match r with Non => Pan | r => r end.
Definition of_opt {A} (r : option A) : po A := match r with Some a => Val a | None => Non end.
Notation "'let?' x <- r ; k" := (pbind r (fun x => k)) (at level 200, x name, r at level 100, k at level 200).

Section Px.
Variable K : fld.
Local Notation vec := (list K).
Local Notation mat := (list (list K)).

(** * matrix.rs *)

(** matrix.rs L568-576 [inner_product]: stops at the shorter vector. *)
Definition inner_product (a b : vec) : K :=
  fold_left (fun acc x => fadd acc (fmul (fst x) (snd x))) (combine a b) f0.

(** matrix.rs L579-585 [vec_add], L588-594 [vec_sub]: stop at the shorter vector. *)
Definition vec_add (a b : vec) : vec := map (fun x => fadd (fst x) (snd x)) (combine a b).
Definition vec_sub (a b : vec) : vec := map (fun x => fsub (fst x) (snd x)) (combine a b).

(** matrix.rs L597-603 [scalar_vec_mul]. *)
Definition scalar_vec_mul (r : K) (v : vec) : vec := map (fun x => fmul r x) v.

(** matrix.rs L606-612 [eliminate_row]. *)
Definition eliminate_row (row : vec) (factor : K) (pivot : vec) : vec :=
  vec_sub row (scalar_vec_mul factor pivot).

(** matrix.rs L615-625 [kronecker_delta]. *)
Definition kronecker_delta (i j : nat) : K := if Nat.eqb i j then f1 else f0.

(** [row[j]]. *)
Definition at_ (row : vec) (j : nat) : K := nth j row f0.

(** matrix.rs L176-184 [num_rows], [num_columns]; the second panics on an empty matrix. *)
Definition num_rows (m : mat) : nat := length m.
Definition num_columns (m : mat) : po nat := match m with [] => Pan | r :: _ => Val (length r) end.

(** matrix.rs L188-201 [mul_col_vec]. *)
Definition mul_col_vec (m : mat) (v : vec) : po vec :=
  if negb (Nat.eqb (num_rows m) (length v)) then Non else
  Val (map (fun row => inner_product row v) m).

(** matrix.rs L205-219 [mul_row_vec_at_left]. *)
Definition mul_row_vec_at_left (m : mat) (v : vec) : po vec :=
  if negb (Nat.eqb (num_rows m) (length v)) then Non else
  Val (map (fun j => fold_left (fun acc x => fadd acc (fmul (snd x) (at_ (fst x) j))) (combine m v) f0)
         (seq 0 (length v))).

(** matrix.rs L132-147 [is_identity]. *)
Definition is_identity (m : mat) : po bool :=
  let? c <- num_columns m;
  if negb (Nat.eqb (num_rows m) c) then Val false else
  Val (forallb (fun x => forallb (fun y => feqb (snd y) (kronecker_delta (fst x) (fst y)))
                  (combine (seq 0 (length (snd x))) (snd x)))
         (combine (seq 0 (length m)) m)).

(** matrix.rs L292-298 [identity]. *)
Definition identity (n : nat) : mat :=
  map (fun i => map (fun j => kronecker_delta i j) (seq 0 n)) (seq 0 n).

(** matrix.rs L341-350 [transpose]. *)
Definition transpose (m : mat) : po mat :=
  let? c <- num_columns m;
  Val (map (fun j => map (fun row => at_ row j) m) (seq 0 c)).

(** matrix.rs L310-328 [matmul]. *)
Definition matmul (a b : mat) : po mat :=
  let? c <- num_columns b;
  if negb (Nat.eqb (num_rows a) c) then Non else
  let? t <- transpose b;
  Val (map (fun row => map (fun col => inner_product row col) t) a).

(** matrix.rs L301-307 [to_row_major]. *)
Definition to_row_major (m : mat) : vec := concat m.

(** [Vec::remove]. *)
Definition remove_nth {A} (i : nat) (l : list A) : list A := firstn i l ++ skipn (S i) l.

(** A map with the index. *)
Definition mapi {A B} (f : nat -> A -> B) (l : list A) : list B :=
  map (fun x => f (fst x) (snd x)) (combine (seq 0 (length l)) l).

(** matrix.rs L266-268: the first row that is not zero in the column and zero before it. *)
Definition is_pivot (column : nat) (row : vec) : bool :=
  negb (feqb (at_ row column) f0) && forallb (fun j => feqb (at_ row j) f0) (seq 0 column).

Fixpoint find_index {A} (p : A -> bool) (l : list A) : option nat :=
  match l with
  | [] => None
  | x :: l => if p x then Some 0 else option_map S (find_index p l)
  end.

(** matrix.rs L261-289 [eliminate]: the new matrix and the new shadow. The inverse that the
    code [expect]s is of an element found different from zero. *)
Definition eliminate (m : mat) (column : nat) (shadow : mat) : option (mat * mat) :=
  match find_index (is_pivot column) m with
  | None => None
  | Some pivot_index =>
      let pivot := nth pivot_index m [] in
      let inv_pivot := finv (at_ pivot column) in
      let new_row row :=
        let v := at_ row column in
        if feqb v f0 then row else eliminate_row row (fmul v inv_pivot) pivot in
      let new_shadow i srow :=
        let v := at_ (nth i m []) column in
        if Nat.eqb i pivot_index then srow
        else if feqb v f0 then srow
        else eliminate_row srow (fmul v inv_pivot) (nth pivot_index shadow []) in
      let shadow' := mapi new_shadow shadow in
      Some (pivot :: map new_row (remove_nth pivot_index m),
            nth pivot_index shadow' [] :: remove_nth pivot_index shadow')
  end.

(** matrix.rs L470-489 [upper_triangular]. *)
Fixpoint ut_loop (columns : list nat) (current shadow result shadow_result : mat) : option (mat * mat) :=
  match columns with
  | [] => Some (result ++ [hd [] current], shadow_result ++ [hd [] shadow])
  | c :: columns =>
      match eliminate current c shadow with
      | None => None
      | Some (cur, sh) => ut_loop columns (tl cur) (tl sh) (result ++ [hd [] cur]) (shadow_result ++ [hd [] sh])
      end
  end.
Definition upper_triangular (m shadow : mat) : po (mat * mat) :=
  match num_rows m with
  | 0 => Pan
  | S k => of_opt (ut_loop (seq 0 k) m shadow [] [])
  end.

(** matrix.rs L438-466 [reduce_to_identity]. *)
Definition reduce_row (size i : nat) (row srow : vec) (inv : K) (result shadow_result : mat) : vec * vec :=
  fold_left (fun acc j =>
      let '(normalized, snormalized) := acc in
      let c := at_ normalized (size - j - 1) in
      (vec_sub normalized (scalar_vec_mul c (nth j result [])),
       vec_sub snormalized (scalar_vec_mul c (nth j shadow_result []))))
    (seq 0 i) (scalar_vec_mul inv row, scalar_vec_mul inv srow).

Fixpoint reduce_loop (size : nat) (is : list nat) (m shadow result shadow_result : mat) : option (mat * mat) :=
  match is with
  | [] => Some (result, shadow_result)
  | i :: is =>
      let idx := size - i - 1 in
      let row := nth idx m [] in
      match finverse (at_ row idx) with
      | None => None
      | Some inv =>
          let '(r, s) := reduce_row size i row (nth idx shadow []) inv result shadow_result in
          reduce_loop size is m shadow (result ++ [r]) (shadow_result ++ [s])
      end
  end.

Definition reduce_to_identity (m shadow : mat) : option (mat * mat) :=
  match reduce_loop (num_rows m) (seq 0 (num_rows m)) m shadow [] [] with
  | None => None
  | Some (r, s) => Some (rev r, rev s)
  end.

(** matrix.rs L388-396 [inverse]. *)
Definition inverse (m : mat) : po mat :=
  let? us <- upper_triangular m (identity (num_rows m));
  match reduce_to_identity (fst us) (snd us) with
  | None => Non
  | Some (_, s) => Val s
  end.

(** matrix.rs L409-433 [minor]. *)
Definition minor (m : mat) (i j : nat) : po mat :=
  if Nat.leb (num_rows m) 1 then Non else
  Val (map (fun row => remove_nth j row) (remove_nth i m)).


(** * mds.rs *)

(** mds.rs L100-117 with arkworks.rs L92-94: [F::from], the image of a number. *)
Fixpoint from_u64 (n : nat) : K := match n with 0 => f0 | S n => fadd (from_u64 n) f1 end.

Fixpoint traverse {A B} (f : A -> po B) (l : list A) : po (list B) :=
  match l with
  | [] => Val []
  | a :: l => let? b <- f a; let? r <- traverse f l; Val (b :: r)
  end.

(** mds.rs L100-117 [generate_mds]. *)
Definition generate_mds (t : nat) : po mat :=
  let ys := map from_u64 (seq t t) in
  traverse (fun x => traverse (fun y => pexpect (of_opt (finverse (fadd (from_u64 x) y)))) ys) (seq 0 t).

(** mds.rs L53-57 [make_v_w]. *)
Definition make_v_w (m : mat) : vec * vec :=
  (skipn 1 (hd [] m), map (fun row => at_ row 0) (skipn 1 m)).

(** mds.rs L64-83 [make_prime]. *)
Definition make_prime (m : mat) : mat :=
  mapi (fun i row =>
    match i with
    | 0 => f1 :: repeat f0 (length row - 1)
    | S _ => f0 :: skipn 1 row
    end) m.

(** [new_row[i] = x] in mds.rs L140-141. *)
Fixpoint set_nth {A} (i : nat) (x : A) (l : list A) : list A :=
  match l, i with
  | [], _ => []
  | _ :: l, 0 => x :: l
  | a :: l, S i => a :: set_nth i x l
  end.

(** mds.rs L120-146 [make_double_prime]. *)
Definition make_double_prime (m m_hat_inv : mat) : po mat :=
  let '(v, w) := make_v_w m in
  let? w_hat <- pexpect (mul_row_vec_at_left m_hat_inv w);
  Val (mapi (fun i row =>
    match i with
    | 0 => at_ row 0 :: v
    | S k => set_nth i f1 (set_nth 0 (at_ w_hat k) (repeat f0 (length row)))
    end) m).

(** mds.rs L30-48 [MdsMatrices]. *)
Record mds := Mds { m_ : mat; m_inv : mat; m_hat : mat; m_hat_inv : mat; m_prime : mat; m_double_prime : mat }.

(** mds.rs L150-168 [derive_mds_matrices]. *)
Definition derive_mds_matrices (m : mat) : po mds :=
  let? mi <- pexpect (inverse m);
  let? mh <- pexpect (minor m 0 0);
  let? mhi <- pexpect (inverse mh);
  let? mdp <- make_double_prime m mhi;
  Val (Mds m mi mh mhi (make_prime m) mdp).

(** mds.rs L174-183 [SparseMatrix]. *)
Record sparse := Sparse { w_hat : vec; v_rest : vec }.

(** mds.rs L189-197 [is_sparse]. *)
Definition is_sparse (m : mat) : po bool :=
  match minor m 0 0 with Val mm => is_identity mm | Non => Val false | Pan => Pan end.

(** mds.rs L200-211 [SparseMatrix::new]. *)
Definition sparse_new (m : mat) : po sparse :=
  let? b <- is_sparse m;
  if negb b then Non else Val (Sparse (map (fun r => at_ r 0) m) (skipn 1 (hd [] m))).

(** mds.rs L219-231 [to_matrix]. *)
Definition to_matrix (s : sparse) : mat :=
  let m := identity (length (w_hat s)) in
  let m := mapi (fun j row => set_nth 0 (at_ (w_hat s) j) row) m in
  mapi (fun j row =>
    match j with
    | 0 => fold_left (fun row x => set_nth (fst x + 1) (snd x) row)
             (combine (seq 0 (length (v_rest s))) (v_rest s)) row
    | S _ => row
    end) m.

(** mds.rs L235-262 [factor_to_sparse_matrixes]. *)
Fixpoint factor_loop (n : nat) (base curr : mat) (acc : list mat) : po (mat * list mat) :=
  match n with
  | 0 => Val (curr, acc)
  | S n =>
      let? d <- derive_mds_matrices curr;
      let? new <- pexpect (matmul base (m_prime d));
      factor_loop n base new (acc ++ [m_double_prime d])
  end.
Definition factor_to_sparse_matrixes (base : mat) (n : nat) : po (mat * list sparse) :=
  let? r <- factor_loop n base base [];
  let? s <- traverse (fun x => pexpect (sparse_new x)) (rev (snd r));
  Val (fst r, s).

(** * preprocessing.rs *)

(** preprocessing.rs L42 and mod.rs L354-357: the keys of round [r]. *)
Definition round_keys (width : nat) (keys : vec) (r : nat) : vec := firstn width (skipn (r * width) keys).

(** The loop of preprocessing.rs L76-85 over the partial rounds, last round first: the
    accumulated row and the single keys in the order of production. *)
Fixpoint partial_loop (inv : mat) (rows : list vec) (acc : vec) (partial : vec) : po (vec * vec) :=
  match rows with
  | [] => Val (acc, partial)
  | previous :: rows =>
      let? inverted <- pexpect (mul_row_vec_at_left inv acc);
      partial_loop inv rows (vec_add previous (set_nth 0 f0 inverted)) (partial ++ [at_ inverted 0])
  end.

(** preprocessing.rs L28-99 [compress_round_constants]. *)
Definition compress_round_constants (width full_rounds partial_rounds : nat) (keys : vec) (d : mds) : po vec :=
  let inv := m_inv d in
  let rk := round_keys width keys in
  let half := full_rounds / 2 in
  if Nat.eqb half 0 then Pan else
  let end_ := half - 1 in
  let? first <- traverse (fun i => pexpect (mul_row_vec_at_left inv (rk (i + 1)))) (seq 0 end_);
  let final_round := half + partial_rounds in
  let? ap <- partial_loop inv (map (fun i => rk (final_round - i - 1)) (seq 0 partial_rounds)) (rk final_round) [];
  let? mid <- pexpect (mul_row_vec_at_left inv (fst ap));
  let? last <- traverse (fun i => pexpect (mul_row_vec_at_left inv (rk (i + (half + partial_rounds))))) (seq 1 (half - 1));
  Val (rk 0 ++ concat first ++ mid ++ rev (snd ap) ++ concat last).

(** * The permutation: mod.rs *)
(** arkworks.rs L150-152 [apply_sbox]: the power with [SBOX_EXPONENT]. *)
Fixpoint fpow (x : K) (e : nat) : K := match e with 0 => f1 | S e => fmul x (fpow x e) end.
Definition power_sbox (e : nat) (x : K) : K := fpow x e.

Section Perm.
(** mod.rs L138 [apply_sbox] of the specification: any function. *)
Variable sbox : K -> K.
(** mod.rs L91-106: [WIDTH], [FULL_ROUNDS], [PARTIAL_ROUNDS]. *)
Variables width full_rounds partial_rounds : nat.
(** mod.rs L281-285: the round keys and the matrix, row after row. *)
Variable keys mds_matrix : vec.

(** mod.rs L361-381 [mds_matrix_multiply]; [reduce] of an empty row panics in the code and
    gives zero here. *)
Definition reduce_add (l : vec) : K := match l with [] => f0 | a :: l => fold_left fadd l a end.
Definition mds_matrix_multiply (st : vec) : vec :=
  map (fun i => reduce_add (mapi (fun j e => fmul e (at_ mds_matrix (width * i + j))) st)) (seq 0 width).

(** mod.rs L385-392 [full_round], L396-403 [partial_round]. *)
Definition full_round (round : nat) (st : vec) : vec :=
  let ks := round_keys width keys round in
  mds_matrix_multiply (mapi (fun i e => sbox (fadd e (at_ ks i))) st).
Definition partial_round (round : nat) (st : vec) : vec :=
  let ks := round_keys width keys round in
  let st := mapi (fun i e => fadd e (at_ ks i)) st in
  mds_matrix_multiply (match st with [] => [] | a :: st => sbox a :: st end).

Definition half_full_rounds : nat := full_rounds / 2.

(** mod.rs L407-419 [permute_without_first_round]. *)
Definition permute_without_first_round (st : vec) : vec :=
  let st := fold_left (fun st r => full_round r st) (seq 1 (half_full_rounds - 1)) st in
  let st := fold_left (fun st r => partial_round r st) (seq half_full_rounds partial_rounds) st in
  fold_left (fun st r => full_round r st)
    (seq (half_full_rounds + partial_rounds) (full_rounds + partial_rounds - (half_full_rounds + partial_rounds))) st.

(** mod.rs L515-518 [permute]. *)
Definition permute (st : vec) : vec := permute_without_first_round (full_round 0 st).

(** mod.rs L424-439 [first_round_with_domain_tag_unchecked]. *)
Definition first_round_with_domain_tag (tag : K) (input : vec) : vec :=
  mds_matrix_multiply (mapi (fun i p => sbox (fadd p (at_ keys i))) (tag :: input)).

(** hash.rs L113-123 [hash_untruncated], L150-152 [hash]; [take_first] of no elements is a panic. *)
Definition hash_untruncated (tag : K) (input : vec) : vec :=
  permute_without_first_round (first_round_with_domain_tag tag input).
Definition hash (tag : K) (input : vec) : option K := hd_error (hash_untruncated tag input).
End Perm.
End Px.
