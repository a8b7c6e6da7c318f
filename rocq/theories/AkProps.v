(** * Readers and writers for arkworks: properties (C89) *)
From Coq Require Import List ZArith Lia.
From Verif Require Import AkModel.
Import ListNotations.

(** ** Reading *)
Section Reader.
Context {R E V D : Type}.
Variable read : R -> nat -> res (R * list Z) E.
Variable read_exact : R -> nat -> @exact R E.
Notation program := (@deserializer V D).

(** Specification, on the reader itself. [gets p r v r']: all that is asked for is there, and the value is [v]. *)
Inductive gets : program -> R -> V -> R -> Prop :=
| g_return v r : gets (Return v) r v r
| g_read n k r bytes r1 v r2 : read r n = Ok (r1, bytes) -> gets (k (Ok bytes)) r1 v r2 -> gets (Read n k) r v r2
| g_exact n k r bytes r1 v r2 : read_exact r n = Exact r1 bytes -> gets (k (Ok bytes)) r1 v r2 -> gets (ReadExact n k) r v r2.
(** [breaks p r e]: the first error of the reader is [e]; the end of the data is not an error of the reader. *)
Inductive breaks : program -> R -> E -> Prop :=
| b_read n k r e : read r n = Err e -> breaks (Read n k) r e
| b_exact n k r e : read_exact r n = Broken e -> breaks (ReadExact n k) r e
| b_read_later n k r bytes r1 e : read r n = Ok (r1, bytes) -> breaks (k (Ok bytes)) r1 e -> breaks (Read n k) r e
| b_exact_later n k r bytes r1 e : read_exact r n = Exact r1 bytes -> breaks (k (Ok bytes)) r1 e -> breaks (ReadExact n k) r e
| b_end_later n k r m r1 e : read_exact r n = End r1 m -> breaks (k (Err UnexpectedEof)) r1 e -> breaks (ReadExact n k) r e.
(** A deserializer that ends with an error when one of its reads does, as those of arkworks. *)
Inductive strict : program -> Prop :=
| s_return v : strict (Return v)
| s_fail d : strict (Fail d)
| s_read n k : (forall e, exists d, k (Err e) = Fail d) -> (forall b, strict (k (Ok b))) -> strict (Read n k)
| s_exact n k : (forall e, exists d, k (Err e) = Fail d) -> (forall b, strict (k (Ok b))) -> strict (ReadExact n k).

(** After an error the reader is not used again: whatever the program, the error stays. *)
Lemma stays (p : program) e : snd (deserialize read read_exact p (Err e)) = Err e.
Proof. induction p as [v|d|n k IH|n k IH]; cbn; auto. Qed.

(** And every later read is told so, as an error that is not the end of the data. *)
Fixpoint refused (p : program) : res V D :=
  match p with
  | Return v => Ok v
  | Fail d => Err d
  | Read _ k | ReadExact _ k => refused (k (Err Other))
  end.
Theorem c89_after p e : deserialize read read_exact p (Err e) = (refused p, Err e).
Proof. induction p as [v|d|n k IH|n k IH]; cbn; auto. Qed.

(** What [finish] returns is the first error of the reader, for every program. *)
Theorem c89_finish (p : program) r e : snd (deserialize read read_exact p (Ok r)) = Err e <-> breaks p r e.
Proof.
  revert r. induction p as [v|d|n k IH|n k IH]; intros r; cbn [deserialize].
  - split; intros H; [discriminate|inversion H].
  - split; intros H; [discriminate|inversion H].
  - unfold ark_read. cbn [update]. destruct (read r n) as [[r1 bytes]|e1] eqn:Q.
    + rewrite IH. split; intros H; [now apply (b_read_later n k r bytes r1)|]. inversion H; subst; congruence.
    + rewrite stays. split; intros H; [injection H as <-; now constructor|]. inversion H; subst; congruence.
  - unfold ark_read_exact. cbn [update]. destruct (read_exact r n) as [r1 bytes|r1 m|e1] eqn:Q.
    + rewrite IH. split; intros H; [now apply (b_exact_later n k r bytes r1)|]. inversion H; subst; congruence.
    + rewrite IH. split; intros H; [now apply (b_end_later n k r m r1)|]. inversion H; subst; congruence.
    + rewrite stays. split; intros H; [injection H as <-; now constructor|]. inversion H; subst; congruence.
Qed.

(** Also of a deserializer that goes on after an error no value is returned if the reader had one, and then the error is the
    first of the reader. *)
Theorem c89_decode_any (p : program) r :
  (forall v, decode read read_exact p r = Ok v -> forall e, ~ breaks p r e) /\
  (forall e, decode read read_exact p r = Err (ReadError e) -> breaks p r e).
Proof.
  unfold decode. split.
  - intros v H e B. apply c89_finish in B. destruct (deserialize read read_exact p (Ok r)) as [a s]. cbn [snd] in B. subst s.
    destruct a; discriminate.
  - intros e H. apply c89_finish. destruct (deserialize read read_exact p (Ok r)) as [[v|d] [r'|e']]; try discriminate.
    injection H as <-. reflexivity.
Qed.

(** A value is decoded exactly when the reader itself gives it, without any error. *)
Theorem c89_decode (p : program) r v : strict p -> (decode read read_exact p r = Ok v <-> exists r', gets p r v r').
Proof.
  intros S. unfold decode. revert r. induction S as [w|d|n k F S IH|n k F S IH]; intros r; cbn [deserialize].
  - split; [intros H; injection H as <-; exists r; constructor|]. intros [r' H]. now inversion H; subst.
  - split; [discriminate|]. intros [r' H]. inversion H.
  - unfold ark_read. cbn [update]. destruct (read r n) as [[r1 bytes]|e1] eqn:Q.
    + rewrite (IH bytes r1). split; intros [r' H]; exists r'; [now apply (g_read n k r bytes r1)|]. inversion H; subst. congruence.
    + destruct (F Other) as [d ->]. cbn [deserialize]. split; [discriminate|]. intros [r' H]. inversion H; subst; congruence.
  - unfold ark_read_exact. cbn [update]. destruct (read_exact r n) as [r1 bytes|r1 m|e1] eqn:Q.
    + rewrite (IH bytes r1). split; intros [r' H]; exists r'; [now apply (g_exact n k r bytes r1)|]. inversion H; subst; congruence.
    + destruct (F UnexpectedEof) as [d ->]. cbn [deserialize]. split; [discriminate|]. intros [r' H]. inversion H; subst; congruence.
    + destruct (F Other) as [d ->]. cbn [deserialize]. split; [discriminate|]. intros [r' H]. inversion H; subst; congruence.
Qed.

(** But an error of the reader is never reported as one: it is replaced by an error of decoding. *)
Theorem c89_read_error_lost (p : program) r e : strict p -> breaks p r e -> exists d, decode read read_exact p r = Err (DecodeError d).
Proof.
  intros S. unfold decode. revert r. induction S as [w|d|n k F S IH|n k F S IH]; intros r B; cbn [deserialize]; try (inversion B; fail).
  - unfold ark_read. cbn [update]. inversion B as [? ? ? ? Q| |? ? ? bytes r1 ? Q L| |]; subst; rewrite Q.
    + destruct (F Other) as [d ->]. exists d. reflexivity.
    + now apply IH.
  - unfold ark_read_exact. cbn [update].
    inversion B as [|? ? ? ? Q| |? ? ? bytes r1 ? Q L|? ? ? m r1 ? Q L]; subst; rewrite Q.
    + destruct (F Other) as [d ->]. exists d. reflexivity.
    + now apply IH.
    + destruct (F UnexpectedEof) as [d ->]. exists d. reflexivity.
Qed.
End Reader.

(** ** Writing *)
Section Writer.
Context {W E D : Type}.
Variable write : W -> list Z -> res (W * nat) E.
Notation program := (@serializer D).

(** Specification: the first error of the writer, *)
Inductive wbreaks : program -> W -> E -> Prop :=
| wb_write bs k w e : write w bs = Err e -> wbreaks (Write bs k) w e
| wb_all bs k w e : write w bs = Err e -> wbreaks (WriteAll bs k) w e
| wb_write_later bs k w n w1 e : write w bs = Ok (w1, n) -> wbreaks (k (Some n)) w1 e -> wbreaks (Write bs k) w e
| wb_all_later bs k w n w1 e : write w bs = Ok (w1, n) -> wbreaks (k (Some tt)) w1 e -> wbreaks (WriteAll bs k) w e.
(** and the bytes a program writes when every write takes all of its bytes. *)
Fixpoint output (p : program) : list Z :=
  match p with
  | Done _ => []
  | Write bs k => bs ++ output (k (Some (length bs)))
  | WriteAll bs k => bs ++ output (k (Some tt))
  end.

Lemma wstays (p : program) e : snd (serialize write p (Err e)) = Err e.
Proof. induction p as [r|bs k IH|bs k IH]; cbn; auto. Qed.
Theorem c89_encode_error (p : program) w e : encode write p w = Err e <-> wbreaks p w e.
Proof.
  unfold encode. revert w. induction p as [r|bs k IH|bs k IH]; intros w; cbn [serialize].
  - split; intros H; [discriminate|inversion H].
  - unfold ark_write. cbn [update]. destruct (write w bs) as [[w1 n]|e1] eqn:Q.
    + rewrite IH. split; intros H; [now apply (wb_write_later bs k w n w1)|]. inversion H; subst; congruence.
    + pose proof (wstays (k None) e1) as S. destruct (serialize write (k None) (Err e1)) as [? s]. cbn in S. subst s.
      split; intros H; [injection H as <-; now constructor|]. inversion H; subst; congruence.
  - unfold ark_write_all. cbn [update option_map]. destruct (write w bs) as [[w1 n]|e1] eqn:Q; cbn [option_map].
    + rewrite IH. split; intros H; [now apply (wb_all_later bs k w n w1)|]. inversion H; subst; congruence.
    + pose proof (wstays (k None) e1) as S. destruct (serialize write (k None) (Err e1)) as [? s]. cbn in S. subst s.
      split; intros H; [injection H as <-; now constructor|]. inversion H; subst; congruence.
Qed.

(** With a writer that takes all it is given or fails, success means that the whole output was written. *)
Theorem c89_encode (contents : W -> list Z) (p : program) w w' :
  (forall u bs u' n, write u bs = Ok (u', n) -> contents u' = contents u ++ bs /\ n = length bs) ->
  encode write p w = Ok w' -> contents w' = contents w ++ output p.
Proof.
  intros Whole. unfold encode. revert w. induction p as [r|bs k IH|bs k IH]; intros w; cbn [serialize output].
  - intros H. injection H as <-. now rewrite app_nil_r.
  - unfold ark_write. cbn [update]. destruct (write w bs) as [[w1 n]|e1] eqn:Q.
    + destruct (Whole _ _ _ _ Q) as [C ->]. intros H. apply IH in H. now rewrite H, C, app_assoc.
    + pose proof (wstays (k None) e1) as S. destruct (serialize write (k None) (Err e1)) as [? s]. cbn in S. subst s. discriminate.
  - unfold ark_write_all. cbn [update]. destruct (write w bs) as [[w1 n]|e1] eqn:Q; cbn [option_map].
    + destruct (Whole _ _ _ _ Q) as [C ->]. intros H. apply IH in H. now rewrite H, C, app_assoc.
    + pose proof (wstays (k None) e1) as S. destruct (serialize write (k None) (Err e1)) as [? s]. cbn in S. subst s. discriminate.
Qed.
End Writer.

(** ** Examples *)
(** Two numbers of two bytes. *)
Definition pair_reader : @deserializer (list Z * list Z) io_error :=
  ReadExact 2 (fun a => match a with Err e => Fail e | Ok a =>
  ReadExact 2 (fun b => match b with Err e => Fail e | Ok b => Return (a, b) end) end).
Definition pair_writer : @serializer io_error :=
  WriteAll [1; 2]%Z (fun a => match a with None => Done (Err Other) | Some _ =>
  WriteAll [3; 4]%Z (fun b => match b with None => Done (Err Other) | Some _ => Done (Ok tt) end) end).
(** A reader of a file with a fault after three bytes. *)
Definition faulty (r : list Z) (n : nat) : @exact (list Z) unit :=
  if Nat.ltb (length r) n then Broken tt else Exact (skipn n r) (firstn n r).
Lemma pair_strict : strict pair_reader.
Proof.
  apply s_exact; [intros e; now exists e|]. intros b. apply s_exact; [intros e; now exists e|]. intros c. constructor.
Qed.
Example ex_c89_decode : strict pair_reader /\ decode slice_read slice_read_exact pair_reader [1; 2; 3; 4; 5]%Z = Ok ([1; 2], [3; 4])%Z /\
  decode slice_read slice_read_exact pair_reader [1; 2; 3]%Z = Err (DecodeError UnexpectedEof).
Proof. split; [exact pair_strict|]. split; reflexivity. Qed.
Example ex_c89_after : deserialize slice_read slice_read_exact pair_reader (Err tt) = (Err Other, Err tt).
Proof. reflexivity. Qed.
Example ex_c89_finish : breaks slice_read faulty pair_reader [1; 2; 3]%Z tt.
Proof. apply (b_exact_later _ _ 2 _ _ [1; 2]%Z [3]%Z); [reflexivity|]. now apply b_exact. Qed.
Example ex_c89_encode : (forall u bs u' n, vec_write u bs = Ok (u', n) -> u' = u ++ bs /\ n = length bs) /\
  encode vec_write pair_writer [9]%Z = Ok [9; 1; 2; 3; 4]%Z.
Proof. split; [|reflexivity]. intros u bs u' n H. now inversion H. Qed.
Example ex_c89_encode_error : encode array_write pair_writer [0; 0; 0]%Z = Err tt.
Proof. reflexivity. Qed.

(** A deserializer that does not mind the second number. *)
Example ex_c89_decode_any : decode slice_read faulty
    (ReadExact 2 (fun a => ReadExact 2 (fun b => match a with Ok a => @Return _ io_error a | Err e => Fail e end))) [1; 2; 3]%Z
  = Err (ReadError tt).
Proof. reflexivity. Qed.

(** Encoding into a vector never fails and appends the whole output. *)
Theorem c89_vec {D} (p : @serializer D) w : encode vec_write p w = Ok (w ++ output p).
Proof.
  unfold encode. revert w. induction p as [r|bs k IH|bs k IH]; intros w; cbn; [now rewrite app_nil_r| |];
    rewrite IH; now rewrite app_assoc.
Qed.
Example ex_c89_vec : encode vec_write pair_writer [9]%Z = Ok ([9] ++ [1; 2; 3; 4])%Z /\ output pair_writer = [1; 2; 3; 4]%Z.
Proof. split; reflexivity. Qed.

(** ** Refuted *)
(** "An error of the reader is reported as an error of the reader." *)
Theorem c89_read_error_refuted : exists r e, breaks slice_read faulty pair_reader r e /\
  decode slice_read faulty pair_reader r <> Err (ReadError e).
Proof. exists [1; 2; 3]%Z, tt. split; [exact ex_c89_finish|]. discriminate. Qed.
(** "Success means that all bytes were written": an array that is too small takes a part of each write. *)
Theorem c89_short_refuted : exists p w w', encode array_write p w = Ok w' /\ @output io_error p = [1; 2; 3; 4]%Z /\ w' = [3]%Z.
Proof. exists pair_writer, [0]%Z, [3]%Z. repeat split. Qed.
(** "Success means that the serializer succeeded": its own error is dropped. *)
Theorem c89_serializer_error_refuted : exists (p : @serializer io_error) w',
  fst (serialize vec_write p (Ok [])) = Err Other /\ encode vec_write p [] = Ok w'.
Proof. exists (WriteAll [1]%Z (fun _ => Done (Err Other))), [1]%Z. split; reflexivity. Qed.

Print Assumptions c89_after.
Print Assumptions c89_finish.
Print Assumptions c89_decode_any.
Print Assumptions c89_decode.
Print Assumptions c89_vec.
Print Assumptions c89_read_error_lost.
Print Assumptions c89_encode_error.
Print Assumptions c89_encode.
Print Assumptions c89_read_error_refuted.
Print Assumptions c89_short_refuted.
Print Assumptions c89_serializer_error_refuted.
