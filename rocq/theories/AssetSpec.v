(** Specifications for asset lists, maps, balances, coin selection and normalisation. *)
From Coq Require Import List NArith Arith Bool.
From Verif Require Import AssetModel.
Import ListNotations.
Open Scope N_scope.

(** Total value of an id in a list of assets. *)
Fixpoint total (l : list asset) (id : N) : N :=
  match l with [] => 0 | a :: l' => (if fst a =? id then snd a else 0) + total l' id end.

(** Plain sum of values. *)
Fixpoint sumv (l : list N) : N := match l with [] => 0 | v :: l' => v + sumv l' end.

(** ** A ledger of balances is a function from ids to values. *)
Definition ledger := N -> N.
Definition upd (b : ledger) (id v : N) : ledger := fun x => if x =? id then v else b x.

Inductive aop := ADeposit (a : asset) | AWithdraw (a : asset) | ARemove (id : N) | AClear.
Inductive aout := ODone | OFlag (b : bool) | OTaken (v : option N).

(** What an operation should do; [None]: the balance would exceed the largest value. *)
Definition spec_aop (b : ledger) (o : aop) : option (ledger * aout) :=
  match o with
  | ADeposit (id, v) => if vmax <? b id + v then None else Some (upd b id (b id + v), ODone)
  | AWithdraw (id, v) =>
      if v <=? b id then Some (upd b id (b id - v), OFlag true) else Some (b, OFlag false)
  | ARemove id => Some (upd b id 0, OTaken (if b id =? 0 then None else Some (b id)))
  | AClear => Some (fun _ => 0, ODone)
  end.
Fixpoint spec_aops (b : ledger) (os : list aop) : option (ledger * list aout) :=
  match os with
  | [] => Some (b, [])
  | o :: os' =>
      match spec_aop b o with
      | Some (b', r) => match spec_aops b' os' with Some (b'', rs) => Some (b'', r :: rs) | None => None end
      | None => None
      end
  end.

(** Running operations on the model of the asset list. *)
Definition al_op (l : list asset) (o : aop) : option (list asset * aout) :=
  match o with
  | ADeposit a => option_map (fun l' => (l', ODone)) (al_deposit l a)
  | AWithdraw a => let '(l', r) := al_withdraw l a in Some (l', OFlag r)
  | ARemove id => let '(l', r) := al_remove l id in Some (l', OTaken r)
  | AClear => Some (al_clear l, ODone)
  end.
Fixpoint al_ops (l : list asset) (os : list aop) : option (list asset * list aout) :=
  match os with
  | [] => Some (l, [])
  | o :: os' =>
      match al_op l o with
      | Some (l', r) => match al_ops l' os' with Some (l'', rs) => Some (l'', r :: rs) | None => None end
      | None => None
      end
  end.

(** Strictly ascending ids, no zero values. *)
Definition strictly_sorted (l : list asset) : Prop :=
  forall i j a b, (i < j)%nat -> nth_error l i = Some a -> nth_error l j = Some b -> fst a < fst b.
Definition zero_free (l : list asset) : Prop := forall a, In a l -> snd a <> 0.

(** Running operations on the map of balances. *)
Definition bm_op (m : bmap) (o : aop) : option (bmap * aout) :=
  match o with
  | ADeposit a => option_map (fun m' => (m', ODone)) (bm_deposit m a)
  | AWithdraw a => let '(m', r) := bm_withdraw m a in Some (m', OFlag r)
  | ARemove id => Some (bset m id None, OTaken (m id))
  | AClear => Some (fun _ => None, ODone)
  end.
Fixpoint bm_ops (m : bmap) (os : list aop) : option (bmap * list aout) :=
  match os with
  | [] => Some (m, [])
  | o :: os' =>
      match bm_op m o with
      | Some (m', r) => match bm_ops m' os' with Some (m'', rs) => Some (m'', r :: rs) | None => None end
      | None => None
      end
  end.

(** ** Coin selection *)

(** [sublist s l]: [s] is [l] with some positions left out. *)
Inductive sublist {A} : list A -> list A -> Prop :=
| sub_nil : sublist [] []
| sub_skip x s l : sublist s l -> sublist s (x :: l)
| sub_take x s l : sublist s l -> sublist (x :: s) (x :: l).

(** The coins of an id in a wallet: all its non-zero assets of that id, with their keys. *)
Definition coins (m : amap) (id : N) : list (N * N) :=
  flat_map (fun e => flat_map (fun a => if (fst a =? id) && negb (snd a =? 0) then [(fst e, snd a)] else []) (snd e)) m.
Definition coin_total (cs : list (N * N)) : N := sumv (map snd cs).
