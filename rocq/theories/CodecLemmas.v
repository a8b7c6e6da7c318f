(** Proofs about the codec model. *)
From Coq Require Import List NArith Arith Bool Lia.
From Verif Require Import CodecModel.
Import ListNotations.
Open Scope N_scope.

Definition bytes (t : cty) (v : cval t) : list N := concat (enc t v).

Lemma le_length k : forall v, length (le k v) = k.
Proof. induction k; intro v; cbn [le length]; auto. Qed.

Lemma firstn_le k v : firstn k (le k v) = le k v.
Proof. pose proof (firstn_all (le k v)) as Q. rewrite le_length in Q. exact Q. Qed.

Lemma pow256_S k : 256 ^ N.of_nat (S k) = 256 * 256 ^ N.of_nat k.
Proof. rewrite Nat2N.inj_succ, N.pow_succ_r'. reflexivity. Qed.

Lemma from_le_le k : forall v, v < 256 ^ N.of_nat k -> from_le (le k v) = v.
Proof.
  induction k; intros v Hv.
  - cbn in *. lia.
  - cbn [le from_le]. rewrite pow256_S in Hv. rewrite IHk by (apply N.div_lt_upper_bound; lia).
    rewrite N.add_comm. symmetry. apply N.div_mod. lia.
Qed.

Definition is_byte (b : N) : Prop := b < 256.

Lemma le_byte k : forall v, Forall is_byte (le k v).
Proof. induction k; intro v; cbn [le]; constructor; auto. apply N.mod_lt. lia. Qed.

Lemma from_le_bound l : Forall is_byte l -> from_le l < 256 ^ N.of_nat (length l).
Proof.
  induction 1; cbn [from_le length]. { reflexivity. }
  rewrite pow256_S. unfold is_byte in *. nia.
Qed.

Lemma le_from_le l : Forall is_byte l -> le (length l) (from_le l) = l.
Proof.
  induction 1; auto. cbn [from_le length le]. unfold is_byte in *. f_equal.
  - rewrite (N.mul_comm 256), N.mod_add by lia. apply N.mod_small. auto.
  - rewrite (N.mul_comm 256), N.div_add, N.div_small by lia. rewrite N.add_0_l. auto.
Qed.

Lemma le_inj k v w : v < 256 ^ N.of_nat k -> w < 256 ^ N.of_nat k -> le k v = le k w -> v = w.
Proof. intros. rewrite <- (from_le_le k v), <- (from_le_le k w); congruence. Qed.

Lemma app_len_inj {A} (a b c d : list A) : length a = length b -> a ++ c = b ++ d -> a = b /\ c = d.
Proof.
  revert b. induction a; intros [|y b] L E; try discriminate; auto.
  cbn in *. injection E as -> E. apply IHa in E; [|lia]. destruct E. subst. auto.
Qed.

(** ** Prefix-freeness *)
Definition prefix_free {A} (f : A -> list N) (P : A -> Prop) : Prop :=
  forall v w r1 r2, P v -> P w -> f v ++ r1 = f w ++ r2 -> v = w /\ r1 = r2.

Lemma pf_list {A} (e : A -> list (list N)) P : prefix_free (fun v => concat (e v)) P ->
  forall l m r1 r2, length l = length m -> Forall P l -> Forall P m ->
  concat (flat_map e l) ++ r1 = concat (flat_map e m) ++ r2 -> l = m /\ r1 = r2.
Proof.
  intros PF. induction l as [|x l IH]; intros [|y m] r1 r2 L Fl Fm E; try discriminate; auto.
  cbn [flat_map] in E. rewrite !concat_app, <- !app_assoc in E.
  inversion Fl; inversion Fm; subst. apply PF in E; auto. destruct E as [-> E].
  apply IH in E; auto. destruct E as [-> ->]. auto.
Qed.

Lemma pf t : prefix_free (bytes t) (cwf t).
Proof.
  induction t as [| |k|a IHa b IHb|n a IHa|a IHa|a IHa|a IHa b IHb]; intros v w r1 r2 Wv Ww E.
  - destruct v, w. auto.
  - unfold bytes in E. cbn [enc concat le app] in E. rewrite ?app_nil_r in E. injection E as E ->.
    destruct v, w; auto; discriminate.
  - unfold bytes in E. cbn [enc concat] in E. rewrite !app_nil_r in E.
    apply app_len_inj in E; [|rewrite !le_length; auto]. destruct E as [E ->].
    apply le_inj in E; auto.
  - destruct v as [v1 v2], w as [w1 w2]. unfold bytes in E. cbn [enc fst snd] in E.
    rewrite !concat_app, <- !app_assoc in E. destruct Wv, Ww. cbn [fst snd] in *.
    apply IHa in E; auto. destruct E as [-> E]. apply IHb in E; auto. destruct E as [-> ->]. auto.
  - destruct Wv, Ww. unfold bytes in E. cbn [enc] in E. apply (pf_list (enc a) (cwf a)) in E; auto.
    transitivity n; auto.
  - destruct Wv as [Lv Fv], Ww as [Lw Fw]. unfold bytes in E. cbn [enc concat] in E. rewrite <- !app_assoc in E.
    apply app_len_inj in E; [|rewrite !le_length; auto]. destruct E as [E1 E].
    apply le_inj in E1; auto. apply Nat2N.inj in E1.
    apply (pf_list (enc a) (cwf a)) in E; auto.
  - unfold bytes in E. cbn [enc] in E. destruct v as [x|], w as [y|]; cbn [concat le app] in E; cbn in Wv, Ww; try discriminate.
    + injection E as E. apply IHa in E; auto. destruct E as [-> ->]; auto.
    + injection E as ->. auto.
  - unfold bytes in E. cbn [enc] in E. destruct v as [x|x], w as [y|y]; cbn [concat le app] in E; cbn in Wv, Ww; try discriminate;
    injection E as E; [apply IHa in E|apply IHb in E]; auto; destruct E as [-> ->]; auto.
Qed.

(** ** Writing the parts to a vector *)
Lemma write_parts_vec ps : forall b, write_parts (WVec b) ps = Some (WVec (b ++ concat ps)).
Proof.
  induction ps as [|p ps IH]; intro b; cbn [write_parts concat]. { rewrite app_nil_r. auto. }
  unfold write_ref. cbn [write]. rewrite IH, <- app_assoc. auto.
Qed.

Lemma to_vec_bytes t v : to_vec t v = Some (bytes t v).
Proof. unfold to_vec. rewrite write_parts_vec. reflexivity. Qed.

(** ** Round trip *)

(** Types with a working decoder: no [bool] (no decoder), no [Option], no [Result]. *)
Fixpoint decodable (t : cty) : bool :=
  match t with
  | CUnit | CInt _ => true
  | CPair a b => decodable a && decodable b
  | CArr _ a | CVec a => decodable a
  | CBool | COpt _ | CRes _ _ => false
  end.

Section Dec.
Variable size_of : cty -> N.
Notation dec := (dec size_of).

(** Vectors that can be allocated. *)
Fixpoint fits (t : cty) : cval t -> Prop :=
  match t return cval t -> Prop with
  | CUnit | CBool | CInt _ => fun _ => True
  | CPair a b => fun v => fits a (fst v) /\ fits b (snd v)
  | CArr n a => fun v => Forall (fits a) v
  | CVec a => fun v => N.of_nat (length v) * size_of a < 2 ^ 63 /\ Forall (fits a) v
  | COpt a => fun v => match v with Some x => fits a x | None => True end
  | CRes a b => fun v => match v with inl x => fits a x | inr y => fits b y end
  end.

Lemma read_exact_app k l rest : k <> KArr ->
  read_exact (Rdr k (l ++ rest)) (length l) = Ok (l, Rdr k rest).
Proof.
  intro K. unfold read_exact, advance. cbn [rbytes rk]. rewrite app_length.
  replace (length l + length rest <? length l)%nat with false by (symmetry; apply Nat.ltb_ge; lia).
  rewrite firstn_app, firstn_all, Nat.sub_diag, app_nil_r.
  rewrite skipn_app, skipn_all, Nat.sub_diag. destruct k; try reflexivity. congruence.
Qed.

Lemma dec_int_le kd k v rest : kd <> KArr -> v < 256 ^ N.of_nat k ->
  dec_int k (Rdr kd (le k v ++ rest)) = Ok (v, Rdr kd rest).
Proof.
  intros K Hv. unfold dec_int. pose proof (read_exact_app kd (le k v) rest K) as R.
  rewrite le_length in R. rewrite R, from_le_le by auto. reflexivity.
Qed.

Lemma dec_list_ok {A} kd (e : A -> list (list N)) (d : rdr -> res derr (A * rdr)) (P : A -> Prop) :
  (forall x rest, P x -> d (Rdr kd (concat (e x) ++ rest)) = Ok (x, Rdr kd rest)) ->
  forall l rest, Forall P l ->
  dec_list d (length l) (Rdr kd (concat (flat_map e l) ++ rest)) = Ok (l, Rdr kd rest).
Proof.
  intro D. induction l as [|x l IH]; intros rest F; auto.
  cbn [length dec_list flat_map]. inversion F; subst. rewrite concat_app, <- app_assoc, D by auto.
  rewrite IH by auto. reflexivity.
Qed.

Lemma Forall_and2 {A} (P Q R : A -> Prop) l : (forall x, P x -> Q x -> R x) ->
  Forall P l -> Forall Q l -> Forall R l.
Proof. induction 2; inversion 1; subst; constructor; auto. Qed.

Lemma round_trip kd t : kd <> KArr -> decodable t = true -> forall v rest, cwf t v -> fits t v ->
  dec t (Rdr kd (bytes t v ++ rest)) = Ok (v, Rdr kd rest).
Proof.
  intros K. induction t as [| |k|a IHa b IHb|n a IHa|a IHa|a IHa|a IHa b IHb]; intros D v rest W F; try discriminate.
  - destruct v. reflexivity.
  - unfold bytes. cbn [enc concat]. rewrite app_nil_r. apply dec_int_le; auto.
  - destruct v as [x y]. cbn [decodable] in D. apply andb_true_iff in D. destruct D as [D1 D2].
    destruct W, F. unfold bytes. cbn [enc fst snd CodecModel.dec]. rewrite concat_app, <- app_assoc.
    fold (bytes a x) (bytes b y). cbn [fst snd] in *. rewrite IHa, IHb by auto. reflexivity.
  - destruct W as [W1 W2]. cbn [decodable CodecModel.dec cval] in *. rewrite <- W1.
    apply (dec_list_ok kd (enc a) (dec a) (fun x => cwf a x /\ fits a x)).
    + intros x r [? ?]. apply IHa; auto.
    + apply (Forall_and2 (cwf a) (fits a)); auto.
  - destruct W as [W1 W2], F as [F1 F2]. cbn [decodable CodecModel.dec] in *.
    unfold bytes. cbn [enc concat]. rewrite <- app_assoc, dec_int_le by auto.
    destruct (N.leb_spec (2 ^ 63) (N.of_nat (length v) * size_of a)); [lia|]. rewrite Nat2N.id.
    apply (dec_list_ok kd (enc a) (dec a) (fun x => cwf a x /\ fits a x)).
    + intros x r [? ?]. apply IHa; auto.
    + apply (Forall_and2 (cwf a) (fits a)); auto.
Qed.

(** ** Decoding is canonical: what decodes is an encoding *)
Definition bytes_ok (r : rdr) := Forall is_byte (rbytes r).

Lemma dec_int_inv kd k r v r' : kd <> KArr -> Forall is_byte r ->
  dec_int k (Rdr kd r) = Ok (v, r') ->
  exists rest, r' = Rdr kd rest /\ r = le k v ++ rest /\ v < 256 ^ N.of_nat k /\ Forall is_byte rest.
Proof.
  intros K B E. unfold dec_int, read_exact in E. cbn [rbytes rk] in E.
  destruct (Nat.ltb_spec (length r) k). { destruct kd; discriminate. }
  injection E as <- <-. exists (skipn k r).
  assert (Bf : Forall is_byte (firstn k r)).
  { apply Forall_forall. intros x Hx. rewrite Forall_forall in B. apply B.
    rewrite <- (firstn_skipn k r). apply in_or_app. auto. }
  assert (L : length (firstn k r) = k) by (rewrite firstn_length; lia).
  split; [destruct kd; try reflexivity; congruence|]. split.
  - pose proof (le_from_le _ Bf) as Q. rewrite L in Q. rewrite Q. symmetry. apply firstn_skipn.
  - split. { pose proof (from_le_bound _ Bf) as Q. rewrite L in Q. auto. }
    apply Forall_forall. intros x Hx. rewrite Forall_forall in B. apply B.
    rewrite <- (firstn_skipn k r). apply in_or_app. auto.
Qed.

Lemma dec_list_inv {A} kd (e : A -> list (list N)) (d : rdr -> res derr (A * rdr)) (P : A -> Prop) :
  (forall r x r', Forall is_byte r -> d (Rdr kd r) = Ok (x, r') ->
     exists rest, r' = Rdr kd rest /\ r = concat (e x) ++ rest /\ P x /\ Forall is_byte rest) ->
  forall n r l r', Forall is_byte r -> dec_list d n (Rdr kd r) = Ok (l, r') ->
  exists rest, r' = Rdr kd rest /\ r = concat (flat_map e l) ++ rest /\ length l = n /\ Forall P l /\ Forall is_byte rest.
Proof.
  intro D. induction n as [|n IH]; intros r l r' B E; cbn [dec_list] in E.
  - injection E as <- <-. exists r. auto.
  - destruct (d (Rdr kd r)) as [[x r1]| |] eqn:E1; try discriminate.
    destruct (D _ _ _ B E1) as (rest1 & -> & -> & Px & B1).
    destruct (dec_list d n _) as [[xs r2]| |] eqn:E2; try discriminate. injection E as <- <-.
    destruct (IH _ _ _ B1 E2) as (rest & -> & -> & L & F & B2).
    exists rest. cbn [flat_map length]. rewrite concat_app, <- app_assoc. repeat split; auto.
Qed.

Lemma dec_canonical kd t : kd <> KArr -> decodable t = true -> forall r v r',
  Forall is_byte r -> dec t (Rdr kd r) = Ok (v, r') ->
  exists rest, r' = Rdr kd rest /\ r = bytes t v ++ rest /\ cwf t v /\ Forall is_byte rest.
Proof.
  intros K. induction t as [| |k|a IHa b IHb|n a IHa|a IHa|a IHa|a IHa b IHb]; intros D r v r' B E; try discriminate.
  - injection E as <- <-. exists r. repeat split; auto.
  - unfold bytes. cbn [enc concat]. rewrite app_nil_r. apply dec_int_inv; auto.
  - cbn [decodable] in D. apply andb_true_iff in D. destruct D as [D1 D2]. cbn [CodecModel.dec] in E.
    destruct (dec a _) as [[x r1]| |] eqn:E1; try discriminate.
    destruct (IHa D1 _ _ _ B E1) as (rest1 & -> & -> & W1 & B1).
    destruct (dec b _) as [[y r2]| |] eqn:E2; try discriminate.
    destruct (IHb D2 _ _ _ B1 E2) as (rest & -> & -> & W2 & B2).
    injection E as <- <-. exists rest. unfold bytes. cbn [enc fst snd cwf]. rewrite concat_app, <- app_assoc. repeat split; auto.
  - cbn [decodable CodecModel.dec] in *.
    destruct (dec_list_inv kd (enc a) (dec a) (cwf a) (IHa D) _ _ _ _ B E) as (rest & -> & -> & L & F & B').
    exists rest. cbn [cwf]. repeat split; auto.
  - cbn [decodable CodecModel.dec] in *. destruct (dec_int 8 _) as [[len r1]| |] eqn:E1; try discriminate.
    destruct (dec_int_inv _ _ _ _ _ K B E1) as (rest1 & -> & -> & W1 & B1).
    destruct (2 ^ 63 <=? len * size_of a); try discriminate.
    destruct (dec_list_inv kd (enc a) (dec a) (cwf a) (IHa D) _ _ _ _ B1 E) as (rest & -> & -> & L & F & B').
    assert (Ln : N.of_nat (length v) = len) by (rewrite <- (N2Nat.id len); f_equal; exact L).
    exists rest. unfold bytes. cbn [cwf enc concat cval] in *. rewrite Ln, <- app_assoc. repeat split; auto.
Qed.

(** ** Panics *)
Fixpoint vec_free (t : cty) : bool :=
  match t with
  | CUnit | CInt _ | CBool => true
  | CPair a b | CRes a b => vec_free a && vec_free b
  | CArr _ a | COpt a => vec_free a
  | CVec _ => false
  end.

Lemma dec_int_no_panic k r : dec_int k r <> Panic.
Proof.
  unfold dec_int, read_exact. destruct (_ <? _)%nat; [destruct (rk r)|]; discriminate.
Qed.

Lemma dec_list_no_panic {A} (d : rdr -> res derr (A * rdr)) : (forall r, d r <> Panic) ->
  forall n r, dec_list d n r <> Panic.
Proof.
  intro D. induction n; intro r; cbn [dec_list]; try discriminate.
  specialize (D r). destruct (d r) as [[x r1]| |]; try discriminate; try congruence.
  specialize (IHn r1). destruct (dec_list d n r1) as [[? ?]| |]; try discriminate. congruence.
Qed.

Lemma dec_no_panic t : vec_free t = true -> forall r, dec t r <> Panic.
Proof.
  induction t as [| |k|a IHa b IHb|n a IHa|a IHa|a IHa|a IHa b IHb]; intros V r; cbn [vec_free CodecModel.dec] in *; try discriminate.
  - apply dec_int_no_panic.
  - apply andb_true_iff in V. destruct V as [V1 V2]. specialize (IHa V1 r).
    destruct (dec a r) as [[x r1]| |]; try discriminate; try congruence.
    specialize (IHb V2 r1). destruct (dec b r1) as [[? ?]| |]; try discriminate. congruence.
  - apply dec_list_no_panic. auto.
  - pose proof (dec_int_no_panic 1 r). destruct (dec_int 1 r) as [[c r1]| |]; try discriminate; try congruence.
    destruct (c =? 0); [|destruct (c =? 1); discriminate].
    specialize (IHa V r1). destruct (dec a r1) as [[? ?]| |]; try discriminate. congruence.
  - apply andb_true_iff in V. destruct V as [V1 V2].
    pose proof (dec_int_no_panic 1 r). destruct (dec_int 1 r) as [[c r1]| |]; try discriminate; try congruence.
    destruct (c =? 0).
    { specialize (IHa V1 r1). destruct (dec a r1) as [[? ?]| |]; try discriminate. congruence. }
    destruct (c =? 1); try discriminate.
    specialize (IHb V2 r1). destruct (dec b r1) as [[? ?]| |]; try discriminate. congruence.
Qed.

(** ** Option and Result *)
Lemma dec_int_1 kd b rest : kd <> KArr -> b < 256 -> dec_int 1 (Rdr kd (b :: rest)) = Ok (b, Rdr kd rest).
Proof.
  intros K Hb. pose proof (dec_int_le kd 1 b rest K Hb) as Q. cbn [le app] in Q.
  rewrite N.mod_small in Q by auto. exact Q.
Qed.

Lemma option_swapped a kd v rest : kd <> KArr ->
  match dec (COpt a) (Rdr kd (bytes (COpt a) v ++ rest)) with
  | Ok (w, _) => w <> v
  | _ => True
  end.
Proof.
  intro K. unfold bytes. destruct v as [x|]; cbn [enc concat le app CodecModel.dec];
  change (1 mod 256) with 1; change (0 mod 256) with 0; rewrite dec_int_1 by (auto; lia); cbn [N.eqb Pos.eqb].
  - discriminate.
  - destruct (dec a _) as [[w r]| |]; auto. discriminate.
Qed.

Lemma result_swapped a b kd v rest : kd <> KArr ->
  match dec (CRes a b) (Rdr kd (bytes (CRes a b) v ++ rest)) with
  | Ok (w, _) => w <> v
  | _ => True
  end.
Proof.
  intro K. unfold bytes. destruct v as [x|x]; cbn [enc concat le app CodecModel.dec];
  change (1 mod 256) with 1; change (0 mod 256) with 0; rewrite dec_int_1 by (auto; lia); cbn [N.eqb Pos.eqb].
  - destruct (dec b _) as [[w r]| |]; auto. discriminate.
  - destruct (dec a _) as [[w r]| |]; auto. discriminate.
Qed.
End Dec.

(** ** Writers *)
Lemma write_buf b input :
  write (WBuf b) input =
  if (length input <? length b)%nat then None
  else Some (WBuf (firstn (length b) input), skipn (length b) input, length b).
Proof. unfold write, read. cbn [rk rbytes]. destruct (_ <? _)%nat; reflexivity. Qed.

Lemma write_parts_buf ps : forall b,
  write_parts (WBuf b) ps =
  if forallb (fun p => (length b <=? length p)%nat) ps
  then Some (WBuf (match rev ps with [] => b | p :: _ => firstn (length b) p end)) else None.
Proof.
  induction ps as [|p ps IH]; intro b; auto.
  cbn [write_parts forallb]. unfold write_ref. rewrite write_buf.
  destruct (Nat.ltb_spec (length p) (length b)), (Nat.leb_spec (length b) (length p)); try lia; auto.
  rewrite IH, firstn_length, Nat.min_l by lia. cbn [andb rev].
  destruct (forallb _ ps); auto. destruct (rev ps); auto.
Qed.

(** ** Posts *)
Section Posts.
Variable T : ptypes.

Lemma enc_body_pf : prefix_free (fun b => concat (enc_body T b)) (wf_body T).
Proof.
  intros v w r1 r2 (A1 & A2 & A3 & A4 & A5 & A6) (B1 & B2 & B3 & B4 & B5 & B6) E.
  unfold enc_body in E. rewrite !concat_app, <- !app_assoc in E.
  destruct v as [v1 v2 v3 v4 v5 v6], w as [w1 w2 w3 w4 w5 w6]. cbn [b_asset_id b_sources b_senders b_receivers b_sinks b_proof] in *.
  apply (pf (COpt (t_id T))) in E; auto. destruct E as [-> E].
  apply (pf (CVec (t_value T))) in E; auto. destruct E as [-> E].
  apply (pf (CVec (sender_post_ty T))) in E; auto. destruct E as [-> E].
  apply (pf (CVec (receiver_post_ty T))) in E; auto. destruct E as [-> E].
  apply (pf (CVec (t_value T))) in E; auto. destruct E as [-> E].
  apply (pf (t_proof T)) in E; auto. destruct E as [-> E]. auto.
Qed.

Lemma enc_signed_pf b1 a1 b2 a2 r1 r2 : wf_body T b1 -> wf_body T b2 ->
  cwf (CVec (t_account T)) a1 -> cwf (CVec (t_account T)) a2 ->
  concat (enc_signed T b1 a1) ++ r1 = concat (enc_signed T b2 a2) ++ r2 -> b1 = b2 /\ a1 = a2 /\ r1 = r2.
Proof.
  intros W1 W2 A1 A2 E. unfold enc_signed in E. rewrite !concat_app, <- !app_assoc in E.
  apply enc_body_pf in E; auto. destruct E as [-> E]. apply (pf (CVec (t_account T))) in E; auto.
Qed.

Lemma enc_post_pf p1 p2 r1 r2 : wf_post T p1 -> wf_post T p2 ->
  concat (enc_post T p1) ++ r1 = concat (enc_post T p2) ++ r2 ->
  p_auth T p1 = p_auth T p2 /\ p_body T p1 = p_body T p2 /\ r1 = r2.
Proof.
  intros (W1 & W2 & _) (V1 & V2 & _) E. unfold enc_post in E. rewrite !concat_app, <- !app_assoc in E.
  apply (pf (COpt (CPair (t_key T) (t_sig T)))) in E; auto. destruct E as [-> E].
  apply enc_body_pf in E; auto.
Qed.
End Posts.
