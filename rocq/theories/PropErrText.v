(** C89: the text of an error tells which error it is. *)

From Verif Require Import Base ErrText.
From Coq Require Import List NArith ZArith Bool Lia Ascii String DecimalString DecimalN.
Import ListNotations.
Open Scope N_scope.
Open Scope string_scope.

(** ** Specification *)

(** A tag is a byte. *)
Definition real_error (e : error) : Prop := match e with InvalidOptimisedTag t => t < 256 | _ => True end.
(** All that a program could want to know of an error, but for the byte of an invalid boolean. *)
Definition same_but_bool (e e' : error) : Prop :=
  e = e' \/ exists b b', e = InvalidBoolValue b /\ e' = InvalidBoolValue b'.
(** A text goes on with another. *)
Definition continues (s pre post : string) : Prop := s = pre ++ post.

(** ** Proofs *)

Lemma app_inj_l : forall p a b : string, p ++ a = p ++ b -> a = b.
Proof. induction p as [|c p IH]; intros a b H; [exact H|]. injection H as H. auto. Qed.

Fixpoint no_blank (s : string) : Prop := match s with EmptyString => True | String c r => c <> " "%char /\ no_blank r end.
Lemma dec_no_blank : forall n, no_blank (dec n).
Proof. intros n. unfold dec. generalize (N.to_uint n). induction u; cbn [NilEmpty.string_of_uint no_blank]; try (split; [discriminate|assumption]); exact I. Qed.
Lemma dec_inj : forall m n, dec m = dec n -> m = n.
Proof.
  intros m n H. unfold dec in H. apply (f_equal NilEmpty.uint_of_string) in H. rewrite !NilEmpty.usu in H. injection H as H. apply Unsigned.to_uint_inj, H.
Qed.
Lemma blank_split : forall a b r r', no_blank a -> no_blank b -> a ++ String " " r = b ++ String " " r' -> a = b /\ r = r'.
Proof.
  induction a as [|c a IH]; intros [|d b] r r' Ha Hb H; cbn [append] in H.
  - injection H as H. auto.
  - injection H as H _. destruct Hb as [Hd _]. congruence.
  - injection H as H _. destruct Ha as [Hc _]. congruence.
  - injection H as Hc H. destruct Ha as [_ Ha]. destruct Hb as [_ Hb]. destruct (IH b r r' Ha Hb H) as [-> ->]. subst d. auto.
Qed.
Lemma hex_digit_inj : forall m n, m < 16 -> n < 16 -> hex_digit m = hex_digit n -> m = n.
Proof.
  intros m n Hm Hn H. unfold hex_digit in H. apply (f_equal N_of_ascii) in H. assert (B : forall x, x < 16 -> (if (x <? 10)%N then 48 + x else 87 + x) < 256) by (intros x Hx; destruct (x <? 10)%N; lia).
  rewrite !N_ascii_embedding in H by (apply B; assumption).
  destruct (N.ltb_spec m 10) as [A|A], (N.ltb_spec n 10) as [A'|A']; clear B; revert H; lia.
Qed.
Lemma hex2_inj : forall m n, m < 256 -> n < 256 -> forall r r', hex2 m ++ r = hex2 n ++ r' -> m = n.
Proof.
  intros m n Hm Hn r r' H. unfold hex2 in H. cbn [append] in H. injection H as H1 H2 _.
  apply hex_digit_inj in H1; [|apply N.div_lt_upper_bound; lia..]. apply hex_digit_inj in H2; [|apply N.mod_lt; lia..].
  rewrite (N.div_mod m 16), (N.div_mod n 16) by lia. rewrite H1, H2. reflexivity.
Qed.

(** ** C89 *)

(** Two errors with the same text are the same error, carrying the same, but for the byte of an invalid boolean. *)
Theorem C89_text_tells : forall e e',
  real_error e -> real_error e' -> display e = display e' -> same_but_bool e e'.
Proof.
  intros e e' W W' H.
  destruct e, e'; try (left; reflexivity); try (right; eauto; fail); try (exfalso; cbn [display append] in H; discriminate H);
    cbn [real_error display] in *; left; try (apply app_inj_l in H; subst; reflexivity).
  - apply app_inj_l in H. apply hex2_inj in H; [subst; reflexivity|assumption..].
  - apply app_inj_l in H. apply blank_split in H; [|apply dec_no_blank..]. destruct H as [Ho H].
    apply (app_inj_l "out of range for payload of ") in H. apply blank_split in H; [|apply dec_no_blank..]. destruct H as [Hp _].
    apply dec_inj in Ho, Hp. subst. reflexivity.
Qed.
Print Assumptions C89_text_tells.

(** The byte of an invalid boolean is not in the text. *)
Theorem C89_bool_refuted : exists e e', real_error e /\ real_error e' /\ e <> e' /\ display e = display e'.
Proof. exists (InvalidBoolValue 2), (InvalidBoolValue 3). repeat split. discriminate. Qed.
Print Assumptions C89_bool_refuted.

(** [source] is there for errors of the reader or writer and of UTF-8, and only for these; the text of the error ends
    with the text of the source. *)
Theorem C89_source : forall e x,
  source e = Some x <-> e = Io x \/ e = Utf8Error x.
Proof.
  intros e x. split.
  - destruct e; cbn [source]; intros H; try discriminate H; injection H as ->; auto.
  - intros [->| ->]; reflexivity.
Qed.
Print Assumptions C89_source.
Theorem C89_source_shown : forall e x, source e = Some x -> exists pre, pre <> "" /\ continues (display e) pre x.
Proof.
  intros e x H. apply C89_source in H. destruct H as [->| ->]; eexists; (split; [|unfold continues; reflexivity]); discriminate.
Qed.
Print Assumptions C89_source_shown.

(** So two failures, of decoding, encoding or skipping, that are reported with the same text are of the same kind, and name the
    same tag byte or the same offset and length. *)
Definition same_kind (e e' : err) : Prop :=
  match e, e' with
  | (EIo | EIoInput), (EIo | EIoInput) => True
  | EInvalidBool _, EInvalidBool _ | EInvalidInt, EInvalidInt | EOverflow, EOverflow | EInvalidPath, EInvalidPath
  | EInvalidChar, EInvalidChar | EUtf8, EUtf8 | ENonMonotonic, ENonMonotonic | EKeysNotAscending, EKeysNotAscending
  | ESubReaderOverrun, ESubReaderOverrun | EBorrowedContract, EBorrowedContract => True
  | ESerialize _, ESerialize _ | EDeserialize _, EDeserialize _ | EConversion _, EConversion _ => True
  | EInvalidTag t, EInvalidTag t' => t = t'
  | EOffsetRange o p, EOffsetRange o' p' => o = o' /\ p = p'
  | _, _ => False
  end.
Theorem C89_kind : forall T T' e e',
  real_error (error_of T e) -> real_error (error_of T' e') ->
  display (error_of T e) = display (error_of T' e') -> same_kind e e'.
Proof.
  intros T T' e e' W W' H. apply C89_text_tells in H; [|assumption..].
  destruct H as [H|(b & b' & H & H')].
  - destruct e, e'; cbn [error_of] in H; try discriminate H; cbn [same_kind]; try exact I; injection H; auto.
  - destruct e; try discriminate H. destruct e'; try discriminate H'. exact I.
Qed.
Print Assumptions C89_kind.

(** ** Cases *)
Example C89_tag_text : display (InvalidOptimisedTag 107) = "Invalid optimised wire-format tag byte: 0x6b (reserved size class)".
Proof. reflexivity. Qed.
Example C89_offset_text : display (OptimisedOffsetOutOfRange 4294967295 12) = "Optimised offset 4294967295 out of range for payload of 12 bytes".
Proof. reflexivity. Qed.
Example C89_case : real_error (InvalidOptimisedTag 107) /\ real_error (InvalidOptimisedTag 7) /\
  display (InvalidOptimisedTag 107) <> display (InvalidOptimisedTag 7).
Proof. repeat split; discriminate. Qed.
Example C89_source_case : source (Io "unexpected end of file") = Some "unexpected end of file" /\ source (Deserialize "invalid date") = None.
Proof. split; reflexivity. Qed.
