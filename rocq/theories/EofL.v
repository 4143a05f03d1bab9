(** The errors a decoder reports when its reader runs out of data.  Proofs. *)

From Verif Require Import Base BaseL Prog ProgL Prim PrimL Utf8 Tag Ty De Parts DiscL.
From Coq Require Import List NArith ZArith Bool Lia.
Import ListNotations.
Open Scope N_scope.

(** Every read of [p] fails with an error in [P]. *)
Inductive reads (P : err -> Prop) {A} : prog A -> Prop :=
| rd_ret : forall a, reads P (Ret a)
| rd_fail : forall e, reads P (Fail e)
| rd_crash : forall x, reads P (Crash x)
| rd_read : forall n e k, P e -> (forall bs, reads P (k bs)) -> reads P (Read n e k).
#[global] Hint Constructors reads : core.

Lemma reads_prefix : forall P A (p : prog A), reads P p -> forall pre a q s,
  run p pre = Ok (a, []) -> pre = q ++ s -> s <> [] -> exists e, run p q = Err e /\ P e.
Proof.
  intros P A p H. induction H as [a0|e|x|n e k He Hk IH]; intros pre a q s H -> Hs; cbn [run] in H; try discriminate.
  - inversion H. apply app_eq_nil in H2. destruct H2; contradiction.
  - destruct (split_at n (q ++ s)) as [[x y]|] eqn:E; [|discriminate]. cbn [run].
    destruct (split_at n q) as [[x' y']|] eqn:F; [|eauto].
    apply split_at_some in F. destruct F as [-> F].
    rewrite <- app_assoc, (split_at_app_n _ n x' (y' ++ s)) in E by auto.
    inversion E; subst. eapply IH; [exact H|reflexivity|assumption].
Qed.

Section Reads.
Variable P : err -> Prop.
Hypothesis PIo : P EIo.

Lemma reads_bind : forall A B (p : prog A) (f : A -> prog B), reads P p -> (forall a, reads P (f a)) -> reads P (bind p f).
Proof. intros A B p f H Hf. induction H; cbn [bind]; auto. Qed.
Lemma reads_map_err : forall A g (p : prog A) (Q : err -> Prop), reads Q p -> (forall e, Q e -> P (g e)) -> reads P (map_err g p).
Proof. intros A g p Q H Hg. induction H; cbn [map_err]; auto. Qed.
Lemma reads_rep : forall A n (p : prog A), reads P p -> reads P (rep n p).
Proof. induction n; intros p H; cbn [rep]; auto. apply reads_bind; [assumption|]. intros a. apply reads_bind; auto. Qed.
Lemma reads_of_res : forall A (r : res A), reads P (of_res r).
Proof. intros A []; cbn; auto. Qed.
Lemma reads_n : forall n, reads P (read_n n).
Proof. intros n. unfold read_n. auto. Qed.
Lemma reads_byte : reads P read_byte.
Proof. unfold read_byte. auto. Qed.
Lemma reads_alloc : forall E n, reads P (alloc E n).
Proof. intros E n. unfold alloc. destruct (e_mem E); auto. destruct (n <=? n0); auto. Qed.

Ltac rd := repeat first
  [ apply rd_ret | apply rd_fail | apply rd_crash | apply reads_n | apply reads_byte | apply reads_alloc | apply reads_of_res
  | assumption | apply reads_bind; [|intros ?] | apply reads_rep
  | match goal with |- reads P (if ?c then _ else _) => destruct c end
  | match goal with |- reads P (match ?c with _ => _ end) => destruct c end ].

Lemma reads_u64 : forall fw, reads P (de_u64 fw).
Proof. intros fw. unfold de_u64, decode_u64. rd. Qed.
Lemma reads_u32 : forall fw, reads P (de_u32 fw).
Proof. intros fw. unfold de_u32, decode_u64, narrowU. rd. Qed.
Lemma reads_u16 : forall fw, reads P (de_u16 fw).
Proof. intros fw. unfold de_u16, decode_u64, narrowU. rd. Qed.
Lemma reads_len : forall E, reads P (de_len E).
Proof. intros E. unfold de_len, de_usize. apply reads_bind; [apply reads_u64|intros; rd]. Qed.
Lemma reads_int : forall fw ub i, reads P (de_int fw ub i).
Proof.
  intros fw ub i. destruct i; cbn [de_int]; unfold de_u8, de_i8, de_usize, de_isize, de_i64, de_i32, de_i16, de_u128, de_i128, decode_u128, decode_u64, narrowS;
    try (apply reads_bind; [first [apply reads_u64|apply reads_u32|apply reads_u16|rd]|intros; rd]); rd; try apply reads_u64.
Qed.
Lemma reads_char : reads P de_char.
Proof. unfold de_char. rd. Qed.
Lemma reads_str : forall E, reads P (de_str E).
Proof. intros E. unfold de_str. apply reads_bind; [apply reads_len|intros; rd]. Qed.
Lemma reads_blob : forall E, reads P (de_blob E).
Proof. intros E. unfold de_blob. apply reads_bind; [apply reads_len|intros; rd]. Qed.
Lemma reads_bulk : forall E k, reads P (de_bulk E k).
Proof. intros E k. unfold de_bulk. apply reads_bind; [apply reads_len|intros; destruct k as [| |[]]; rd]. Qed.
Lemma reads_seq : forall E n p, reads P p -> reads P (de_seq E n p).
Proof. intros E n p H. unfold de_seq. apply reads_bind; [apply reads_len|intros; rd]. Qed.

Variables (E : env) (rec : N -> prog val) (ok : ty -> bool).
(** The types [t] for which the claim is made; [Result] and [Bound] only where the wrapped error is in [P]. *)
Hypothesis Hwrap : P (EDeserialize MInner) \/ (forall a b, ok (TResult a b) = false) /\ (forall a, ok (TBound a) = false).
Hypothesis Hrec : forall n, ok (TRef n) = true -> reads P (rec n).
Ltac sp := match goal with
  | |- reads P (de_len _) => apply reads_len | |- reads P (de_int _ _ _) => apply reads_int | |- reads P (de_u32 _) => apply reads_u32
  | |- reads P (de_u16 _) => apply reads_u16 | |- reads P de_char => apply reads_char | |- reads P (de_str _) => apply reads_str
  | |- reads P (de_blob _) => apply reads_blob | |- reads P (de_bulk _ _) => apply reads_bulk | |- reads P (de_seq _ _ _) => apply reads_seq
  | |- reads P (de_entry _ _) => unfold de_entry | |- reads P (de_fixed _ _) => unfold de_fixed
  | |- reads P read_varint => unfold read_varint
  end.
Ltac rds := repeat first
  [ apply rd_ret | apply rd_fail | apply rd_crash | apply reads_n | apply reads_byte | apply reads_alloc | apply reads_of_res
  | sp | assumption | apply reads_bind; [|intros ?] | apply reads_rep
  | match goal with |- reads P (if ?c then _ else _) => destruct c end
  | match goal with |- reads P (match ?c with _ => _ end) => destruct c end ].

Lemma reads_wrap : forall (p : prog val), P (EDeserialize MInner) -> reads P p -> reads P (map_err wrap_err p).
Proof. intros p Hw Hp. eapply reads_map_err; [exact Hp|]. intros; exact Hw. Qed.
Lemma reads_ty : forall t, ty_all ok t = true -> reads P (de_ty E rec t).
Proof.
  induction t; cbn [ty_all de_ty]; intros Ht; apply andb_prop in Ht; destruct Ht as [Hh Ht];
    repeat match goal with H : _ && _ = true |- _ => apply andb_prop in H; destruct H end;
    repeat match goal with IH : ?a = true -> _, H : ?a = true |- _ => specialize (IH H) end;
    try (rds; fail).
  - destruct Hwrap as [Hw|[Hw _]]; [|rewrite Hw in Hh; discriminate].
    rds; apply reads_wrap; assumption.
  - destruct Hwrap as [Hw|[_ Hw]]; [|rewrite Hw in Hh; discriminate].
    rds; apply reads_wrap; assumption.
  - apply Hrec. exact Hh.
Qed.
Lemma reads_mode : forall m t, ty_all ok t = true -> reads P (de_mode E rec m t).
Proof.
  intros m t Ht. pose proof (reads_ty t Ht) as H.
  assert (HE : forall b c, ty_all ok b = true -> ty_all ok c = true -> reads P (de_entry (de_ty E rec b) (de_ty E rec c))).
  { intros b c Hb Hc. pose proof (reads_ty b Hb). pose proof (reads_ty c Hc). rds. }
  destruct m; cbn [de_mode]; [exact H| | | | |]; destruct t; try (rds; fail);
    cbn [ty_all] in Ht; apply andb_prop in Ht; destruct Ht as [_ Ht]; try (apply andb_prop in Ht; destruct Ht as [Ht1 Ht2]);
    try pose proof (reads_ty _ Ht1); try pose proof (reads_ty _ Ht2); try pose proof (reads_ty _ Ht);
    unfold de_idx_map, de_idx_seq, advance, add8; rds.
Qed.
Lemma reads_fields : forall opt cur tgt fs, forallb (fun f => ty_all ok (f_ty f)) fs = true -> reads P (de_fields E rec opt cur tgt fs).
Proof.
  induction fs as [|f fs IH]; cbn [de_fields forallb]; intros H; [rds|]. apply andb_prop in H. destruct H as [H1 H2].
  pose proof (reads_mode (mode_of opt f) _ H1). pose proof (reads_mode (mode_removed opt f) _ H1). specialize (IH H2). rds.
Qed.
Lemma reads_in_buf : forall A (p : prog A) b, reads P (in_buf p b).
Proof. intros. unfold in_buf. rds. Qed.
Lemma reads_derived : forall s, fields_all (fun f => ty_all ok (f_ty f)) s = true -> reads P (de_derived E rec s).
Proof.
  intros s H. unfold de_derived. apply reads_bind; [rds|]. intros r. unfold de_body. unfold fields_all in H.
  destruct (sent s r) as [h|]; [|rds]. destruct (s_body s) as [fs|vs].
  - unfold de_struct_opt, de_struct_legacy, read_varlen_len. pose proof (reads_fields false r (scur s) fs H). destruct (h_opt h); rds.
  - rewrite forallb_forall in H. unfold de_enum_opt, de_enum_legacy, read_optimised_tag, read_tag. destruct (h_opt h), (calc_disc r vs) as [ds|] eqn:Ed; try (rds; fail).
    + unfold de_variant_opt, variant_buf, read_varlen_len. rds.
    + apply reads_bind; [rds|]. intros x. destruct (find_disc x ds) as [[v d]|] eqn:Ef; [|rds]. unfold de_variant_legacy.
      assert (Hv : In v vs).
      { unfold find_disc in Ef. apply find_some in Ef. destruct Ef as [Hin _]. apply (in_map fst) in Hin. rewrite (calc_disc_fst _ _ _ Ed) in Hin. apply filter_In in Hin. apply Hin. }
      pose proof (reads_fields false r (scur s) (v_fields v) (H v Hv)). rds.
Qed.
End Reads.

Lemma reads_deserialize : forall (P : err -> Prop) (ok : ty -> bool) E d t, P EIo ->
  P (EDeserialize MInner) \/ (forall a b, ok (TResult a b) = false) /\ (forall a, ok (TBound a) = false) ->
  env_all (fun f => ty_all ok (f_ty f)) E -> ty_all ok t = true -> reads P (deserialize E d t).
Proof.
  intros P ok E d t PI PW HE Ht. unfold deserialize. apply (reads_ty P PI E (de_ref E d) ok PW); [|exact Ht]. clear t Ht.
  induction d as [|d IH]; intros n Hn; cbn [de_ref]; [constructor|]. destruct (e_sch E n) as [s|] eqn:Es; [|constructor].
  apply (reads_derived P PI E (de_ref E d) ok PW); [exact IH|]. apply (HE n s Es).
Qed.

Lemma ty_all_any : forall p t, (forall u, p u = true) -> ty_all p t = true.
Proof. intros p t H. induction t; cbn [ty_all]; rewrite H; cbn [andb]; rewrite ?IHt, ?IHt1, ?IHt2; reflexivity. Qed.
