(** C24: the envelopes written by src/optimised/envelope.rs are what its readers expect. *)

From Verif Require Import Base BaseL Prog ProgL Prim Ty Tag De Ser SliceReader Skip RtL SkipL FeatureL Borrowed PropBorrowed Ex.
From Coq Require Import List NArith Bool Lia.
Import ListNotations.
Open Scope N_scope.

Lemma read_tag_back : forall id c rest, id < 32 ->
  run (ts <- read_optimised_tag ;; Ret (variant_id (fst ts), snd ts)) (tag_new id c :: rest) = Ok ((id, c), rest).
Proof.
  intros id c rest H. destruct (tag_round id c H) as (H1 & H2 & _). unfold read_optimised_tag, read_tag.
  rewrite !run_bind, run_read_byte_cons, run_bind, run_of_res, H2. cbn [rmap run fst snd]. rewrite H1. reflexivity.
Qed.
Lemma read_len_back : forall n rest, n < 2 ^ 32 -> run read_varlen_len (le_bytes 4 n ++ rest) = Ok (n, rest).
Proof.
  intros n rest H. unfold read_varlen_len. rewrite run_bind, run_read_n_app by (symmetry; apply le_bytes_len). cbn [run]. rewrite le_val_bytes; [reflexivity|exact H].
Qed.

(** An inline value is one byte, the tag. *)
Theorem C24_inline_helper : forall id, id < 32 -> exists t, ser_bytes (encode_inline id) = Ok [t] /\
  forall rest, run (ts <- read_optimised_tag ;; Ret (variant_id (fst ts), snd ts)) (t :: rest) = Ok ((id, CInline), rest).
Proof.
  intros id H. exists (tag_new id CInline). split; [reflexivity|]. intros rest. apply read_tag_back, H.
Qed.
(** A fixed-size value is the tag and what the body writes; it fails as the body does. *)
Theorem C24_fixed_helper : forall id body, id < 32 ->
  match ser_bytes body with
  | Ok x => exists t, ser_bytes (encode_fixed id body) = Ok (t :: x) /\
      forall rest, run (ts <- read_optimised_tag ;; Ret (variant_id (fst ts), snd ts)) (t :: rest) = Ok ((id, CFixed), rest)
  | Err e => ser_bytes (encode_fixed id body) = Err e
  | Panic p => ser_bytes (encode_fixed id body) = Panic p
  end.
Proof.
  intros id body H. unfold encode_fixed, write_tag. rewrite bytes_sbind. change (ser_bytes (sall [tag_new id CFixed])) with (Ok [tag_new id CFixed] : res bytes). cbn [rbind].
  destruct (ser_bytes body) as [x|e|p]; cbn [rmap]; [|reflexivity..]. exists (tag_new id CFixed). split; [reflexivity|]. intros rest. apply read_tag_back, H.
Qed.
(** A varlen value is the tag, four bytes of length and what the body writes; it fails as the body does, or if the body
    is 2^32 bytes or more.  Both readers get the body back or pass over it. *)
Theorem C24_varlen_helper : forall id body, id < 32 ->
  match ser_bytes body with
  | Ok x =>
      (2 ^ 32 <= len x -> ser_bytes (encode_varlen id body) = Err (ESerialize MTooLong))
      /\ (len x < 2 ^ 32 -> exists t l, ser_bytes (encode_varlen id body) = Ok (t :: l ++ x) /\ len l = 4 /\ forall rest,
            run (ts <- read_optimised_tag ;; Ret (variant_id (fst ts), snd ts)) (t :: rest) = Ok ((id, CVarlen), rest)
            /\ run (n <- read_varlen_len ;; read_n n) (l ++ x ++ rest) = Ok (x, rest)
            /\ run (n <- read_varlen_len ;; advance_read n) (l ++ x ++ rest) = Ok (tt, rest)
            /\ (forall o, brun br_slice_reader b_varlen_slice (mkSR (l ++ x ++ rest) o) = Ok (x, mkSR rest o))
            /\ (forall o, brun br_slice_reader b_varlen_skip (mkSR (l ++ x ++ rest) o) = Ok (tt, mkSR rest o)))
  | Err e => ser_bytes (encode_varlen id body) = Err e
  | Panic p => ser_bytes (encode_varlen id body) = Panic p
  end.
Proof.
  intros id body H. unfold encode_varlen, write_tag. rewrite bytes_sbind. change (ser_bytes (sall [tag_new id CVarlen])) with (Ok [tag_new id CVarlen] : res bytes). cbn [rbind].
  destruct (ser_bytes body) as [x|e|p]; cbn [rbind]; [|reflexivity..]. split.
  - intros Hx. apply N.ltb_ge in Hx. rewrite Hx. reflexivity.
  - intros Hx. exists (tag_new id CVarlen), (le_bytes 4 (len x)). split; [|split; [apply le_bytes_len|]].
    + apply N.ltb_lt in Hx. rewrite Hx. unfold ser_bytes. cbn [rmap]. unfold out. cbn [flat_map wop_bytes]. rewrite app_nil_r. reflexivity.
    + intros rest. split; [apply read_tag_back, H|].
      assert (HL : run read_varlen_len (le_bytes 4 (len x) ++ x ++ rest) = Ok (len x, x ++ rest)) by (apply read_len_back, Hx).
      split; [rewrite run_bind, HL; apply run_read_n_app; reflexivity|]. split; [rewrite run_bind, HL; apply run_advance_app; reflexivity|]. split; intros o.
      * destruct (C76_borrow (ex_env (fun _ => None)) (mkSR (le_bytes 4 (len x) ++ x ++ rest) o)) as (_ & Q & _). rewrite Q. unfold sm_bind. rewrite sr_run_run. cbn [sr_inner sr_orig]. rewrite HL. cbn [with_orig].
        unfold sm_op, sr_borrow, sr_peek, sr_advance, sr_consume. cbn [sr_inner sr_orig]. rewrite split_at_app. reflexivity.
      * unfold b_varlen_skip. rewrite brun_bind, (code_read _ read_varlen_len), sr_run_run. cbn [sr_inner sr_orig]. rewrite HL. cbn [with_orig]. cbn [brun br_slice_reader br_advance]. unfold sr_advance, sr_consume. cbn [sr_inner sr_orig]. rewrite split_at_app. reflexivity.
Qed.

Example C24_helpers_case : ser_bytes (encode_varlen 7 (sall [104; 105])) = Ok [71; 2; 0; 0; 0; 104; 105]
  /\ run (ts <- read_optimised_tag ;; n <- read_varlen_len ;; x <- read_n n ;; Ret (variant_id (fst ts), x)) [71; 2; 0; 0; 0; 104; 105; 9] = Ok ((7, [104; 105]), [9])
  /\ ser_bytes (encode_fixed 5 (sall [1; 2])) = Ok [37; 1; 2] /\ ser_bytes (encode_inline 3) = Ok [3].
Proof. repeat split. Qed.

(** C25: bit 7 is what [is_extended] tells, and no tag the encoders make has it. *)
Theorem C25_extended : forall t, t < 256 -> is_extended t = (128 <=? t).
Proof.
  intros t Ht. assert (H : forallb (fun k => let b := N.of_nat k in Bool.eqb (is_extended b) (128 <=? b)) (seq 0 256) = true) by (vm_compute; reflexivity).
  rewrite forallb_forall in H. specialize (H (N.to_nat t) ltac:(apply in_seq; lia)). cbv zeta in H. rewrite N2Nat.id in H. apply Bool.eqb_prop, H.
Qed.
Theorem C25_never_extended : forall id c, is_extended (tag_new id c) = false /\ tag_new id c < 128.
Proof.
  intros id c. unfold tag_new, VARIANT_ID_MASK. change 31 with (N.ones 5). rewrite N.land_ones. assert (Hi : id mod 2 ^ 5 < 32) by (apply N.mod_lt; discriminate).
  assert (H : forallb (fun k => let b := N.of_nat k in forallb (fun c => let t := N.lor b (N.shiftl (to_bits c) SIZE_CLASS_SHIFT mod 256) in negb (is_extended t) && (t <? 128)) [CInline; CFixed; CVarlen]) (seq 0 32) = true) by (vm_compute; reflexivity).
  rewrite forallb_forall in H. specialize (H (N.to_nat (id mod 2 ^ 5)) ltac:(apply in_seq; lia)). cbv beta zeta in H. rewrite N2Nat.id in H.
  rewrite forallb_forall in H. specialize (H c ltac:(destruct c; cbn; auto)). cbv beta zeta in H. apply andb_prop in H. destruct H as [H1 H2]. apply negb_true_iff in H1. apply N.ltb_lt in H2. auto.
Qed.
(** The module documentation says that the bit must be 0; reading ignores it. *)
Theorem C25_reserved_bit_refuted : forall t rest c, t < 128 -> run read_optimised_tag (t :: rest) = Ok ((t, c), rest) ->
  is_extended (t + 128) = true /\ run read_optimised_tag (t + 128 :: rest) = Ok ((t + 128, c), rest) /\ variant_id (t + 128) = variant_id t.
Proof.
  intros t rest c Ht H. split; [rewrite C25_extended by lia; apply N.leb_le; lia|].
  assert (G : forallb (fun k => let b := N.of_nat k in (variant_id (b + 128) =? variant_id b) &&
     match size_class b, size_class (b + 128) with Ok CInline, Ok CInline | Ok CFixed, Ok CFixed | Ok CVarlen, Ok CVarlen => true | Err _, _ => true | _, _ => false end) (seq 0 128) = true) by (vm_compute; reflexivity).
  rewrite forallb_forall in G. specialize (G (N.to_nat t) ltac:(apply in_seq; lia)). cbv beta zeta in G. rewrite N2Nat.id in G. apply andb_prop in G. destruct G as [G1 G2]. apply N.eqb_eq in G1.
  split; [|exact G1]. unfold read_optimised_tag, read_tag in *. rewrite run_bind, run_read_byte_cons, run_bind, run_of_res in *.
  destruct (size_class t) as [[]|e|p], (size_class (t + 128)) as [[]|e'|p']; try discriminate; cbn in *; injection H as <-; reflexivity.
Qed.
Example C25_reserved_bit_case : run read_optimised_tag [67; 9] = Ok ((67, CVarlen), [9]) /\ run read_optimised_tag [195; 9] = Ok ((195, CVarlen), [9]).
Proof. split; vm_compute; reflexivity. Qed.

Print Assumptions C24_inline_helper.
Print Assumptions C24_fixed_helper.
Print Assumptions C24_varlen_helper.
Print Assumptions C25_extended.
Print Assumptions C25_never_extended.
Print Assumptions C25_reserved_bit_refuted.
