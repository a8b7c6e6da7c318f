(** Specification of the duplex sponge, independent of the model's functions: the sequence of
    inputs given to the permutation, and what a collision is. *)
From Coq Require Import List NArith Arith Bool.
Import ListNotations.

Section Spec.
Variable F : Type.
Variable fadd : F -> F -> F.
Variable permute : list F -> list F.

(** What is done to the rate before a permutation: a block is added to it (key, header) or
    put in its place (ciphertext). *)
Inductive item := Add (b : list F) | Put (b : list F).
Definition body (i : item) : list F := match i with Add b => b | Put b => b end.
Definition kind (i : item) : bool := match i with Add _ => true | Put _ => false end.

(** [feed st items ins st'] : starting from [st], the items give the permutation the inputs
    [ins] one after the other and end in the state [st']. *)
Inductive feed : list F -> list item -> list (list F) -> list F -> Prop :=
| feed_nil : forall st, feed st [] [] st
| feed_add : forall k rate b items ins st',
    feed (permute (k :: map (fun xy => fadd (fst xy) (snd xy)) (combine rate b))) items ins st' ->
    feed (k :: rate) (Add b :: items)
         ((k :: map (fun xy => fadd (fst xy) (snd xy)) (combine rate b)) :: ins) st'
| feed_put : forall k rate b items ins st',
    feed (permute (k :: b)) items ins st' ->
    feed (k :: rate) (Put b :: items) ((k :: b) :: ins) st'.

(** Two runs collide: at some step their inputs to the permutation differ, while the outputs
    agree in the first element (the part of the state which is never overwritten), or, at the
    last step, in the second element (the tag). *)
Definition collide (ins1 ins2 : list (list F)) : Prop :=
  exists i a b, nth_error ins1 i = Some a /\ nth_error ins2 i = Some b /\ a <> b /\
    (nth_error (permute a) 0 = nth_error (permute b) 0 \/
     (S i = length ins1 /\ nth_error (permute a) 1 = nth_error (permute b) 1)).
End Spec.
Arguments Add {F} b.
Arguments Put {F} b.
Arguments body {F} i.
Arguments kind {F} i.

(** The blocks a key or header is cut into, for a rate of [w] elements: [l] followed by at
    least one zero unless it is cut even, in which case by [w] zeros. *)
Definition cut_into {A} (z : A) (w : nat) (l : list A) (bs : list (list A)) : Prop :=
  Forall (fun b => length b = w) bs /\
  exists n, 1 <= n <= w /\ concat bs = l ++ repeat z n.

(** What a wallet should read in a note, given as the decryption of the light note (or [None]
    when the note is not in the wallet's partition or does not decrypt): the first 32 bytes
    are the randomness, the next 32 the asset id, the last 16 the value. *)
Definition readable {F} (fdec : list N -> option F) (n : nat) (m : option (list N)) : Prop :=
  forall bs, m = Some bs -> forall i, i < n -> fdec (firstn 32 (skipn (32 * i) bs)) <> None.
Definition holds {F} (fdec : list N -> option F) (m : option (list N)) (r id : F) (v : N) : Prop :=
  exists rb ib vb, m = Some (rb ++ ib ++ vb) /\ length rb = 32 /\ length ib = 32 /\ length vb = 16 /\
    fdec rb = Some r /\ fdec ib = Some id /\
    v = fold_right (fun b acc => b + 256 * acc)%N 0%N vb.
