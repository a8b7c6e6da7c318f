(** Model of manta-accounting/src/asset.rs (asset lists, asset maps, coin selection),
    wallet/balance.rs, [normalize_assets] of wallet/signer/functions.rs and
    [ConsolidationRequest] of wallet/signer/mod.rs.

    Asset ids and map keys are natural numbers (any type with a total order would do);
    asset values are the [u128] of the shipped configuration. An addition that overflows
    is a panic (as with overflow checks on), written [None]. *)
From Coq Require Import List NArith Arith Bool.
Import ListNotations.
Open Scope N_scope.

(** Largest [u128]. *)
Definition vmax : N := 2 ^ 128 - 1.

(** asset.rs L112-123: an asset (id, value). *)
Definition asset := (N * N)%type.

(** Result of a binary search in a strictly sorted vector: [inl i] if the [i]-th entry
    has the key, [inr i] if [i] is the insertion point. The search of the standard
    library is modelled by a scan, which gives the same answer on strictly sorted
    vectors; all vectors searched are proved to be so. *)
Fixpoint bsearch {A} (cmp : A -> comparison) (l : list A) : nat + nat :=
  match l with
  | [] => inr O
  | a :: l' =>
      match cmp a with
      | Eq => inl O
      | Gt => inr O
      | Lt => match bsearch cmp l' with inl i => inl (S i) | inr i => inr (S i) end
      end
  end.

(** Vec::insert and Vec::remove at a valid index. *)
Fixpoint vinsert {A} (i : nat) (x : A) (l : list A) : list A :=
  match i, l with
  | O, _ => x :: l
  | S i', a :: l' => a :: vinsert i' x l'
  | S _, [] => [x]
  end.
Fixpoint vremove {A} (i : nat) (l : list A) : list A :=
  match i, l with
  | O, _ :: l' => l'
  | S i', a :: l' => a :: vremove i' l'
  | _, [] => []
  end.
Fixpoint vset {A} (i : nat) (x : A) (l : list A) : list A :=
  match i, l with
  | O, _ :: l' => x :: l'
  | S i', a :: l' => a :: vset i' x l'
  | _, [] => []
  end.

(** ** Asset lists: asset.rs L371-552 *)

(** L406-411 [find]. *)
Definition al_find (l : list asset) (id : N) : nat + nat := bsearch (fun a => N.compare (fst a) id) l.

(** L416-421 [get_value], L425-431 [value]. *)
Definition al_get_value (l : list asset) (id : N) : option N :=
  match al_find l id with inl i => option_map snd (nth_error l i) | inr _ => None end.
Definition al_value (l : list asset) (id : N) : N :=
  match al_get_value l id with Some v => v | None => 0 end.

(** L435-447 [contains]. *)
Definition al_contains (l : list asset) (a : asset) : bool :=
  if snd a =? 0 then true
  else match al_get_value l (fst a) with Some v => snd a <=? v | None => false end.

(** L457-469 [deposit]. *)
Definition al_deposit (l : list asset) (a : asset) : option (list asset) :=
  if snd a =? 0 then Some l
  else match al_find l (fst a) with
       | inl i =>
           match nth_error l i with
           | Some b => if vmax <? snd b + snd a then None else Some (vset i (fst b, snd b + snd a) l)
           | None => None
           end
       | inr i => Some (vinsert i a l)
       end.

(** L473-482 [set_or_remove]. *)
Definition al_set_or_remove (l : list asset) (i : nat) (id v : N) : list asset :=
  if v =? 0 then vremove i l else vset i (id, v) l.

(** L488-504 [withdraw]. *)
Definition al_withdraw (l : list asset) (a : asset) : list asset * bool :=
  if snd a =? 0 then (l, true)
  else match al_find l (fst a) with
       | inl i =>
           match nth_error l i with
           | Some b =>
               if snd a <=? snd b then (al_set_or_remove l i (fst b) (snd b - snd a), true) else (l, false)
           | None => (l, false)
           end
       | inr _ => (l, false)
       end.

(** L513-528 [withdraw_unchecked]; [None] is a panic (missing id or underflow). *)
Definition al_withdraw_unchecked (l : list asset) (a : asset) : option (list asset) :=
  if snd a =? 0 then Some l
  else match al_find l (fst a) with
       | inl i =>
           match nth_error l i with
           | Some b =>
               if snd a <=? snd b then Some (al_set_or_remove l i (fst b) (snd b - snd a)) else None
           | None => None
           end
       | inr _ => None
       end.

(** L532-537 [retain], L541-543 [clear], L548-553 [remove]. *)
Definition al_retain (f : asset -> bool) (l : list asset) : list asset := filter f l.
Definition al_clear (l : list asset) : list asset := [].
Definition al_remove (l : list asset) (id : N) : list asset * option N :=
  match al_find l id with
  | inl i => (vremove i l, option_map snd (nth_error l i))
  | inr _ => (l, None)
  end.

(** L614-628: [from_iter], and L590-612, L630-660 which reduce to it. *)
Fixpoint al_deposit_all (l : list asset) (xs : list asset) : option (list asset) :=
  match xs with
  | [] => Some l
  | a :: xs' => match al_deposit l a with Some l' => al_deposit_all l' xs' | None => None end
  end.
Definition al_from_iter (xs : list asset) : option (list asset) := al_deposit_all [] xs.

(** ** Asset maps: asset.rs L682-898

    A map is the list of its entries in iteration order: ascending keys for
    [BTreeMap], any order for [HashMap]. *)
Definition amap := list (N * list asset).

(** L888-895 [asset_vector]; L899-907 [asset_vector_with_id]. *)
Definition am_asset_vector (m : amap) : list (N * asset) :=
  flat_map (fun e => map (fun a => (fst e, a)) (snd e)) m.
Definition am_asset_vector_with_id (m : amap) (id : N) : list (N * asset) :=
  filter (fun e => fst (snd e) =? id) (am_asset_vector m).

(** L758-763 [assets]. *)
Definition am_assets (m : amap) : option (list asset) := al_from_iter (flat_map snd m).

(** Selection: asset.rs L945-951: change and chosen coins. *)
Definition selection := (N * list (N * N))%type.
Definition sel_default : selection := (0, []).

(** L774-785: the coins considered: non-zero, of the right id. *)
Definition am_coins (m : amap) (id : N) : list (N * N) :=
  map (fun e => (fst e, snd (snd e)))
    (filter (fun e => negb (snd (snd e) =? 0) && (fst (snd e) =? id)) (am_asset_vector m)).

(** L786-801: the loop; state (sum, values, min_max_asset). *)
Fixpoint sel_loop (req : N) (coins : list (N * N)) (sum : N) (values : list (N * N))
    (best : option (N * N)) : option selection :=
  match coins with
  | [] =>
      match best with
      | Some (k, v) => Some (v - req, [(k, v)])
      | None => if sum <? req then Some sel_default else Some (sum - req, values)
      end
  | (k, v) :: coins' =>
      if req <? v then
        sel_loop req coins' sum values
          (match best with
           | Some b => if snd b <=? v then Some b else Some (k, v)
           | None => Some (k, v)
           end)
      else if v =? req then Some (0, [(k, v)])
      else if sum <? req then
        if vmax <? sum + v then None else sel_loop req coins' (sum + v) (values ++ [(k, v)]) best
      else sel_loop req coins' sum values best
  end.

(** L766-813 [select]. *)
Definition am_select (m : amap) (a : asset) : option selection :=
  if snd a =? 0 then Some sel_default
  else sel_loop (snd a) (am_coins m (fst a)) 0 [] None.

(** L816-827 [zeroes]. *)
Definition am_zeroes (m : amap) (n : nat) (id : N) : list N :=
  firstn n (map fst (filter (fun e => existsb (fun a => (fst a =? id) && (snd a =? 0)) (snd e)) m)).

(** The derived order of assets: by id, then value (asset.rs L112). *)
Definition asset_cmp (a b : asset) : comparison :=
  match N.compare (fst a) (fst b) with Eq => N.compare (snd a) (snd b) | c => c end.
Definition am_find (m : amap) (k : N) : nat + nat := bsearch (fun e => N.compare (fst e) k) m.

(** L830-843 [insert], on a [BTreeMap]. *)
Definition am_insert (m : amap) (k : N) (a : asset) : amap :=
  match am_find m k with
  | inr i => vinsert i (k, [a]) m
  | inl i =>
      match nth_error m i with
      | Some (_, l) =>
          match bsearch (fun b => asset_cmp b a) l with
          | inl _ => m
          | inr j => vset i (k, vinsert j a l) m
          end
      | None => m
      end
  end.

(** L846-858 [remove], on a [BTreeMap]. *)
Definition am_remove (m : amap) (k : N) (a : asset) : amap * bool :=
  match am_find m k with
  | inr _ => (m, false)
  | inl i =>
      match nth_error m i with
      | Some (_, l) =>
          match bsearch (fun b => asset_cmp b a) l with
          | inl j =>
              (match vremove j l with [] => vremove i m | l' => vset i (k, l') m end, true)
          | inr _ => (m, false)
          end
      | None => (m, false)
      end
  end.

(** ** Balance maps: wallet/balance.rs L123-188

    A [BTreeMap] or [HashMap] from ids to values is a partial function. *)
Definition bmap := N -> option N.
Definition bset (m : bmap) (id : N) (v : option N) : bmap := fun x => if x =? id then v else m x.

(** L127-130 [balance]. *)
Definition bm_balance (m : bmap) (id : N) : N := match m id with Some v => v | None => 0 end.

(** L132-143 [deposit]. *)
Definition bm_deposit (m : bmap) (a : asset) : option bmap :=
  if snd a =? 0 then Some m
  else match m (fst a) with
       | None => Some (bset m (fst a) (Some (snd a)))
       | Some v => if vmax <? v + snd a then None else Some (bset m (fst a) (Some (v + snd a)))
       end.

(** L145-164 [withdraw]. *)
Definition bm_withdraw (m : bmap) (a : asset) : bmap * bool :=
  if negb (snd a =? 0) then
    match m (fst a) with
    | Some v =>
        if snd a <=? v then
          (if v - snd a =? 0 then bset m (fst a) None else bset m (fst a) (Some (v - snd a)), true)
        else (m, false)
    | None => (m, false)
    end
  else (m, true).

(** L166-177 [withdraw_all]: the assets are first summed into an asset list. *)
Fixpoint bm_withdraw_list (m : bmap) (xs : list asset) : bmap * bool :=
  match xs with
  | [] => (m, true)
  | a :: xs' => let '(m', ok) := bm_withdraw m a in if ok then bm_withdraw_list m' xs' else (m', false)
  end.
Definition bm_withdraw_all (m : bmap) (xs : list asset) : option (bmap * bool) :=
  option_map (bm_withdraw_list m) (al_from_iter xs).

(** L53-58 [deposit_all]. *)
Fixpoint bm_deposit_all (m : bmap) (xs : list asset) : option bmap :=
  match xs with
  | [] => Some m
  | a :: xs' => match bm_deposit m a with Some m' => bm_deposit_all m' xs' | None => None end
  end.

(** L100-112: [withdraw_all] of asset lists. *)
Fixpoint al_withdraw_list (l : list asset) (xs : list asset) : list asset * bool :=
  match xs with
  | [] => (l, true)
  | a :: xs' => let '(l', ok) := al_withdraw l a in if ok then al_withdraw_list l' xs' else (l', false)
  end.
Definition al_withdraw_all (l : list asset) (xs : list asset) : option (list asset * bool) :=
  option_map (al_withdraw_list l) (al_from_iter xs).

(** ** Normalisation: wallet/signer/functions.rs L293-373 *)

(** L301-311: one step of [sum_values]; [None] is the error [InconsistentBalance]. *)
Fixpoint sum_add (r : list asset) (a : asset) : option (list asset) :=
  match r with
  | [] => Some [a]
  | (id, v) :: r' =>
      if id =? fst a then if vmax <? v + snd a then None else Some ((id, v + snd a) :: r')
      else match sum_add r' a with Some r'' => Some ((id, v) :: r'') | None => None end
  end.
Fixpoint sum_loop (r : list asset) (xs : list asset) : option (list asset) :=
  match xs with
  | [] => Some r
  | a :: xs' => match sum_add r a with Some r' => sum_loop r' xs' | None => None end
  end.
Definition sum_values (xs : list asset) : option (list asset) := sum_loop [] xs.

(** [position] of an id in a list: L341-343. *)
Fixpoint position (l : list asset) (id : N) : option nat :=
  match l with
  | [] => None
  | a :: l' => if fst a =? id then Some O else option_map S (position l' id)
  end.

(** L338-371: the loop. [None] is an error or running out of fuel; with fuel
    [length deposit] neither happens. *)
Fixpoint norm_loop (fuel : nat) (i : nat) (d w : list asset) : option (list asset * list asset) :=
  match nth_error d i with
  | None => Some (d, w)
  | Some a =>
      match fuel with
      | O => None
      | S fuel' =>
          match position w (fst a) with
          | Some j =>
              match nth_error w j with
              | Some b =>
                  if snd b <? snd a then
                    norm_loop fuel' (S i) (vset i (fst a, snd a - snd b) d) (vremove j w)
                  else if snd a <? snd b then
                    norm_loop fuel' i (vremove i d) (vset j (fst b, snd b - snd a) w)
                  else norm_loop fuel' (S i) (vremove i d) (vremove j w)
              | None => None
              end
          | None => norm_loop fuel' (S i) d w
          end
      end
  end.

(** L328-373 [normalize_assets]. *)
Definition normalize_assets (d w : list asset) : option (list asset * list asset) :=
  match sum_values d with
  | Some d' => match sum_values w with Some w' => norm_loop (length d') 0 d' w' | None => None end
  | None => None
  end.

(** ** Consolidation requests: wallet/signer/mod.rs L951-1041 *)

(** An identified asset: identifier and asset. *)
Definition iasset := (N * asset)%type.
Definition iasset_eqb (x y : iasset) : bool :=
  (fst x =? fst y) && ((fst (snd x) =? fst (snd y)) && (snd (snd x) =? snd (snd y))).

(** L972-988 [new]: the loop over [1..n]. *)
Definition cr_bad (assets : list iasset) (id : N) (i : nat) : bool :=
  match nth_error assets (i - 1), nth_error assets i with
  | Some p, Some x =>
      existsb (iasset_eqb p) (skipn i assets) || negb (fst (snd x) =? id) || (snd (snd x) =? 0)
  | _, _ => false
  end.
Definition cr_new (assets : list iasset) : option (list iasset) :=
  match assets with
  | [] | [_] => None
  | a :: _ =>
      if existsb (cr_bad assets (fst (snd a))) (seq 1 (length assets - 1)) then None else Some assets
  end.

(** L992-999 [id]; L1003-1011 [asset] ([None]: overflow of the sum). *)
Definition cr_id (r : list iasset) : option N := option_map (fun a => fst (snd a)) (nth_error r 0).
Fixpoint vsum (acc : N) (l : list N) : option N :=
  match l with
  | [] => Some acc
  | v :: l' => if vmax <? acc + v then None else vsum (acc + v) l'
  end.
Definition cr_asset (r : list iasset) : option asset :=
  match cr_id r, vsum 0 (map (fun a => snd (snd a)) r) with
  | Some id, Some v => Some (id, v)
  | _, _ => None
  end.

(** L1015-1025 [check_consolidation_request]; L1029-1040 [select]. *)
Definition cr_check (r : list iasset) (m : amap) : bool :=
  match cr_id r with
  | Some id => forallb (fun a => existsb (iasset_eqb a) (am_asset_vector_with_id m id)) r
  | None => false
  end.
Definition cr_select (r : list iasset) : selection := (0, map (fun a => (fst a, snd (snd a))) r).
