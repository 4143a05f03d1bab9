(** Proofs for decoding data that arrives in pieces. *)

From Verif Require Import Base BaseL Prog ProgL Prim PrimL Utf8 Tag Ty Ser De Typed Parts DiscL EofL SliceReader Skip Stream.
From Coq Require Import List NArith ZArith Bool Lia.
Import ListNotations.
Open Scope N_scope.

(** Reads fail with [EIo], and nothing else does. *)
Inductive honest {A} : prog A -> Prop :=
| ho_ret : forall a, honest (Ret a)
| ho_fail : forall e, e <> EIo -> honest (Fail e)
| ho_crash : forall x, honest (Crash x)
| ho_read : forall n k, (forall bs, honest (k bs)) -> honest (Read n EIo k).
#[global] Hint Constructors honest : core.
Notation hears p := (reads (fun e => e = EIo) p).
Lemma honest_hears : forall A (p : prog A), honest p -> hears p.
Proof. intros A p H. induction H; auto. Qed.

Lemma hears_final : forall A (p : prog A), hears p -> forall b e x, run p b = Err e -> e <> EIo -> run p (b ++ x) = Err e.
Proof.
  intros A p H. induction H as [a|e0|x0|n e0 k He Hk IH]; intros b e x H Hn; cbn [run] in *; try discriminate; [exact H|].
  destruct (split_at n b) as [[u w]|] eqn:E; [|inversion H; subst; exfalso; apply Hn; reflexivity].
  apply split_at_some in E. destruct E as [-> E]. rewrite <- app_assoc, (split_at_app_n _ n u (w ++ x)) by auto.
  apply IH; assumption.
Qed.
Lemma hears_prefix : forall A (p : prog A), hears p -> forall q s a r,
  run p (q ++ s) = Ok (a, r) -> len r < len s -> run p q = Err EIo.
Proof.
  intros A p H. induction H as [a0|e0|x0|n e0 k He Hk IH]; intros q s a r H Hl; cbn [run] in *; try discriminate.
  - inversion H; subst. exfalso. rewrite len_app in Hl. clear - Hl. lia.
  - destruct (split_at n (q ++ s)) as [[u w]|] eqn:E; [|discriminate].
    destruct (split_at n q) as [[u' w']|] eqn:F; [|subst; reflexivity].
    apply split_at_some in F. destruct F as [-> F]. rewrite <- app_assoc, (split_at_app_n _ n u' (w' ++ s)) in E by auto.
    inversion E; subst. eapply IH; eassumption.
Qed.
Lemma split_total : forall n (b : bytes), exists x u w, split_at n (b ++ x) = Some (u, w).
Proof.
  intros n b. exists (repeat 0 (N.to_nat n)). destruct (split_at n (b ++ repeat 0 (N.to_nat n))) as [[u w]|] eqn:E; [eauto|].
  exfalso. apply split_at_none in E. rewrite len_app in E. unfold len in E. rewrite repeat_length in E. lia.
Qed.
Lemma honest_waits : forall A (p : prog A), honest p -> forall b, exists x, run p (b ++ x) <> Err EIo.
Proof.
  intros A p H. induction H as [a0|e0 He|x0|n k Hk IH]; intros b; cbn [run].
  - exists []. discriminate.
  - exists []. congruence.
  - exists []. discriminate.
  - destruct (split_total n b) as (x & u & w & Hs). destruct (IH u w) as (y & Hy). exists (x ++ y).
    rewrite app_assoc. apply split_at_some in Hs. destruct Hs as [-> Hs]. rewrite <- app_assoc, (split_at_app_n _ n u (w ++ y)) by auto. exact Hy.
Qed.
Lemma feed_ok : forall A (p : prog A), hears p -> forall more buf,
  match feed p buf more with
  | None => run p (buf ++ concat more) = Err EIo
  | Some (Ok (v, rest), cs) => run p (buf ++ concat more) = Ok (v, rest ++ concat cs)
  | Some (Err e, cs) => run p (buf ++ concat more) = Err e
  | Some (Panic x, cs) => run p (buf ++ concat more) = Panic x
  end.
Proof.
  intros A p H. induction more as [|c cs IH]; intros buf; cbn [feed concat]; destruct (run p buf) as [[v r]|e|x] eqn:E; rewrite ?app_nil_r.
  - rewrite E. reflexivity.
  - destruct e; rewrite ?app_nil_r; rewrite E; reflexivity.
  - rewrite E. reflexivity.
  - apply run_app. exact E.
  - destruct e; try (apply (hears_final A p H); [exact E|discriminate]). rewrite app_assoc. apply IH.
  - apply run_panic_app. exact E.
Qed.
Lemma feed_prompt : forall A (p : prog A), hears p -> forall more buf k v r,
  run p (buf ++ concat (firstn k more)) = Ok (v, r) ->
  exists rest cs, feed p buf more = Some (Ok (v, rest), cs) /\ (length more <= length cs + k)%nat.
Proof.
  intros A p H. induction more as [|c cs IH]; intros buf k v r Hr.
  - rewrite firstn_nil in Hr. cbn [concat] in Hr. rewrite app_nil_r in Hr. cbn [feed]. rewrite Hr. exists r, []. split; [reflexivity|apply Nat.le_0_l].
  - destruct (run_det_prefix _ _ _ _ _ _ Hr) as [[e He]|(r' & Hr' & _)].
    + cbn [feed]. rewrite He. destruct k as [|k]; [cbn [firstn concat] in Hr; rewrite app_nil_r, He in Hr; discriminate|].
      cbn [firstn concat] in Hr. rewrite app_assoc in Hr.
      assert (e = EIo) as ->.
      { destruct e; try reflexivity; exfalso; rewrite <- app_assoc in Hr; rewrite (hears_final _ p H buf _ _ He) in Hr; discriminate. }
      destruct (IH (buf ++ c) k v r Hr) as (rest & cs' & -> & Hl). exists rest, cs'. split; [reflexivity|]. cbn [length]. clear - Hl. lia.
    + cbn [feed]. rewrite Hr'. exists r', (c :: cs). split; [reflexivity|apply Nat.le_add_r].
Qed.

(** ** Programs *)
Lemma ho_bind : forall A B (p : prog A) (f : A -> prog B), honest p -> (forall a, honest (f a)) -> honest (bind p f).
Proof. intros A B p f H Hf. induction H; cbn [bind]; auto. Qed.
Lemma ho_rep : forall A n (p : prog A), honest p -> honest (rep n p).
Proof. induction n; intros p H; cbn [rep]; auto. apply ho_bind; [assumption|]. intros a. apply ho_bind; auto. Qed.
Lemma ho_rep_ : forall A n (p : prog A), honest p -> honest (rep_ n p).
Proof. induction n; intros p H; cbn [rep_]; auto. apply ho_bind; auto. Qed.
Lemma ho_of_res : forall A (r : res A), r <> Err EIo -> honest (of_res r).
Proof. intros A [] H; cbn [of_res]; auto. constructor. congruence. Qed.
Lemma ho_n : forall n, honest (read_n n).
Proof. intros n. unfold read_n. auto. Qed.
Lemma ho_byte : honest read_byte.
Proof. unfold read_byte. auto. Qed.
Lemma ho_alloc : forall E n, honest (alloc E n).
Proof. intros E n. unfold alloc. destruct (e_mem E); auto. destruct (n <=? n0); auto. Qed.
Ltac ho := repeat first
  [ apply ho_ret | apply ho_fail; discriminate | apply ho_crash | apply ho_n | apply ho_byte | apply ho_alloc
  | assumption | apply ho_bind; [|intros ?] | apply ho_rep | apply ho_rep_
  | match goal with |- honest (if ?c then _ else _) => destruct c end
  | match goal with |- honest (match ?c with _ => _ end) => destruct c end ].
Lemma ho_u64 : forall fw, honest (de_u64 fw).
Proof. intros fw. unfold de_u64, decode_u64. ho. Qed.
Lemma ho_u32 : forall fw, honest (de_u32 fw).
Proof. intros fw. unfold de_u32, decode_u64, narrowU. ho. Qed.
Lemma ho_u16 : forall fw, honest (de_u16 fw).
Proof. intros fw. unfold de_u16, decode_u64, narrowU. ho. Qed.
Lemma ho_len : forall E, honest (de_len E).
Proof. intros E. unfold de_len, de_usize. apply ho_bind; [apply ho_u64|intros; ho]. Qed.
Lemma ho_int : forall fw ub i, honest (de_int fw ub i).
Proof.
  intros fw ub i. destruct i; cbn [de_int]; unfold de_u8, de_i8, de_usize, de_isize, de_i64, de_i32, de_i16, de_u128, de_i128, decode_u128, decode_u64, narrowS;
    try (apply ho_bind; [first [apply ho_u64|apply ho_u32|apply ho_u16|ho]|intros; ho]); ho; try apply ho_u64.
Qed.
Lemma ho_char : honest de_char.
Proof. unfold de_char. ho. Qed.
Lemma ho_str : forall E, honest (de_str E).
Proof. intros E. unfold de_str. apply ho_bind; [apply ho_len|intros; ho]. Qed.
Lemma ho_blob : forall E, honest (de_blob E).
Proof. intros E. unfold de_blob. apply ho_bind; [apply ho_len|intros; ho]. Qed.
Lemma ho_bulk : forall E k, honest (de_bulk E k).
Proof. intros E k. unfold de_bulk. apply ho_bind; [apply ho_len|intros; destruct k as [| |[]]; ho]. Qed.
Lemma ho_seq : forall E n p, honest p -> honest (de_seq E n p).
Proof. intros E n p H. unfold de_seq. apply ho_bind; [apply ho_len|intros; ho]. Qed.
Lemma ho_varint : forall E, honest (read_varint E).
Proof. intros E. unfold read_varint. ho. Qed.
Lemma ho_dur : forall s n, honest (of_res (dur_new s n)).
Proof. intros s n. apply ho_of_res. unfold dur_new. destruct (_ <? _)%Z; discriminate. Qed.
Lemma ho_time : forall E v, honest (of_res (time_add E v)).
Proof. intros E v. apply ho_of_res. unfold time_add. destruct v as [|z| | |[|z| | | | |]| |]; try discriminate. destruct (_ <=? _)%Z; discriminate. Qed.

(** What a program can return. *)
Inductive rets {A} (R : A -> Prop) : prog A -> Prop :=
| rt_ret : forall a, R a -> rets R (Ret a)
| rt_fail : forall e, rets R (Fail e)
| rt_crash : forall x, rets R (Crash x)
| rt_read : forall n e k, (forall bs, rets R (k bs)) -> rets R (Read n e k).
#[global] Hint Constructors rets : core.
Lemma rt_bind : forall A B (R : A -> Prop) (S : B -> Prop) p f, rets R p -> (forall a, R a -> rets S (f a)) -> rets S (bind p f).
Proof. intros A B R S p f H Hf. induction H; cbn [bind]; auto. Qed.
Lemma rt_any : forall A (p : prog A), rets (fun _ => True) p.
Proof. induction p; auto. Qed.
Lemma ho_bind_rets : forall A B (R : A -> Prop) (p : prog A) (f : A -> prog B), honest p -> rets R p -> (forall a, R a -> honest (f a)) -> honest (bind p f).
Proof. intros A B R p f H Hr Hf. induction H; cbn [bind]; inversion Hr; subst; auto. Qed.

Section Decode.
Variables (E : env) (rec : N -> prog val) (ok : ty -> bool).
Hypothesis Hok : forall t, ok t = true -> reports_eof t = true.
Hypothesis Hrec : forall n, ok (TRef n) = true -> honest (rec n).
Ltac sp := match goal with
  | |- honest (de_len _) => apply ho_len | |- honest (de_int _ _ _) => apply ho_int | |- honest (de_u32 _) => apply ho_u32
  | |- honest (de_u16 _) => apply ho_u16 | |- honest de_char => apply ho_char | |- honest (de_str _) => apply ho_str
  | |- honest (de_blob _) => apply ho_blob | |- honest (de_bulk _ _) => apply ho_bulk | |- honest (de_seq _ _ _) => apply ho_seq
  | |- honest (de_entry _ _) => unfold de_entry | |- honest (de_fixed _ _) => unfold de_fixed
  | |- honest (read_varint _) => apply ho_varint | |- honest (of_res (dur_new _ _)) => apply ho_dur
  | |- honest (of_res (time_add _ _)) => apply ho_time
  end.
Ltac hos := repeat first
  [ apply ho_ret | apply ho_fail; discriminate | apply ho_crash | apply ho_n | apply ho_byte | apply ho_alloc
  | sp | assumption | apply ho_bind; [|intros ?] | apply ho_rep | apply ho_rep_
  | match goal with |- honest (if ?c then _ else _) => destruct c end
  | match goal with |- honest (match ?c with _ => _ end) => destruct c end ].

Lemma ho_ty : forall t, ty_all ok t = true -> honest (de_ty E rec t).
Proof.
  induction t; cbn [ty_all de_ty]; intros Ht; apply andb_prop in Ht; destruct Ht as [Hh Ht];
    repeat match goal with H : _ && _ = true |- _ => apply andb_prop in H; destruct H end;
    repeat match goal with IH : ?a = true -> _, H : ?a = true |- _ => specialize (IH H) end;
    try (hos; fail).
  - apply Hok in Hh. discriminate Hh.
  - apply Hok in Hh. discriminate Hh.
  - apply Hrec. exact Hh.
Qed.
Lemma ho_mode : forall m t, ty_all ok t = true -> honest (de_mode E rec m t).
Proof.
  intros m t Ht. pose proof (ho_ty t Ht) as H.
  assert (HE : forall b c, ty_all ok b = true -> ty_all ok c = true -> honest (de_entry (de_ty E rec b) (de_ty E rec c))).
  { intros b c Hb Hc. pose proof (ho_ty b Hb). pose proof (ho_ty c Hc). hos. }
  destruct m; cbn [de_mode]; [exact H| | | | |]; destruct t; try (hos; fail);
    cbn [ty_all] in Ht; apply andb_prop in Ht; destruct Ht as [_ Ht]; try (apply andb_prop in Ht; destruct Ht as [Ht1 Ht2]);
    try pose proof (ho_ty _ Ht1); try pose proof (ho_ty _ Ht2); try pose proof (ho_ty _ Ht);
    unfold de_idx_map, de_idx_seq, advance, add8; hos.
Qed.
Lemma ho_fields : forall opt cur tgt fs, forallb (fun f => ty_all ok (f_ty f)) fs = true ->
  (forall f, In f fs -> forall r, f_default f r <> Err EIo) -> honest (de_fields E rec opt cur tgt fs).
Proof.
  induction fs as [|f fs IH]; cbn [de_fields forallb]; intros H Hd; [hos|]. apply andb_prop in H. destruct H as [H1 H2].
  pose proof (ho_mode (mode_of opt f) _ H1). pose proof (ho_mode (mode_removed opt f) _ H1).
  specialize (IH H2 (fun g Hg => Hd g (or_intror Hg))).
  assert (honest (of_res (f_default f cur))) by (apply ho_of_res; apply Hd; left; reflexivity). hos.
Qed.
Lemma converts_eof : forall cur rem this, (forall f v, In (f, v) rem -> forall l r x, f_convert f l r x <> Err EIo) ->
  converts cur this rem <> Err EIo.
Proof.
  induction rem as [|[f v] rem IH]; intros this H; cbn [converts]; [discriminate|].
  pose proof (H f v (or_introl eq_refl) this cur v) as H1. destruct (f_convert f this cur v); cbn [rbind]; [|congruence|discriminate].
  apply IH. intros g y Hg. apply (H g y). right. exact Hg.
Qed.
Lemma rets_fields : forall opt cur tgt fs,
  rets (fun p => forall f v, In (f, v) (snd p) -> In f fs) (de_fields E rec opt cur tgt fs).
Proof.
  induction fs as [|f fs IH]; cbn [de_fields]; [constructor; intros f v []|].
  destruct (falive cur f), (falive tgt f).
  - eapply rt_bind; [apply rt_any|]. intros v _. eapply rt_bind; [exact IH|]. intros p Hp. constructor. cbn [snd]. intros g y Hg. right. eapply Hp. exact Hg.
  - eapply rt_bind; [apply rt_any|]. intros v _. eapply rt_bind; [exact IH|]. intros p Hp. constructor. cbn [snd]. intros g y [Hg|Hg].
    + inversion Hg; subst. left. reflexivity.
    + right. eapply Hp. exact Hg.
  - eapply rt_bind; [apply rt_any|]. intros v _. eapply rt_bind; [exact IH|]. intros p Hp. constructor. cbn [snd]. intros g y Hg. right. eapply Hp. exact Hg.
  - eapply (rt_bind _ _ _ _ (Ret tt) (fun _ => de_fields E rec opt cur tgt fs)); [apply rt_any|]. intros _ _.
    clear - IH. induction IH; auto. constructor. intros g y Hg. right. eapply H. exact Hg.
Qed.
Lemma ho_then_convert : forall cur tgt fs, forallb (fun f => ty_all ok (f_ty f)) fs = true ->
  (forall f, In f fs -> forall r, f_default f r <> Err EIo /\ (forall l v, f_convert f l r v <> Err EIo)) ->
  forall (g : list val -> prog val), (forall l, honest (g l)) ->
  honest (p <- de_fields E rec false cur tgt fs ;; l <- of_res (converts cur (fst p) (snd p)) ;; g l).
Proof.
  intros cur tgt fs H Hu g Hg. eapply ho_bind_rets.
  - apply ho_fields; [exact H|]. intros f Hf r. apply Hu. exact Hf.
  - apply rets_fields.
  - intros p Hp. apply ho_bind; [|exact Hg]. apply ho_of_res. apply converts_eof. intros f v Hf l r x. apply (Hu f (Hp f v Hf) r).
Qed.
Lemma ho_derived : forall s, fields_all (fun f => ty_all ok (f_ty f)) s = true ->
  (forall h, In h (s_hist s) -> h_opt h = false) ->
  (forall f r,
     (match s_body s with SStruct fs => In f fs | SEnum vs => exists v, In v vs /\ In f (v_fields v) end) ->
     f_default f r <> Err EIo /\ (forall l v, f_convert f l r v <> Err EIo)) ->
  (forall vs v l r, s_body s = SEnum vs -> In v vs -> v_convert v l r <> Err EIo) ->
  honest (de_derived E rec s).
Proof.
  intros s H Hh Hu Hv. unfold de_derived. apply ho_bind; [apply ho_u16|]. intros r. unfold de_body. unfold fields_all in H.
  destruct (sent s r) as [h|] eqn:Eh; [|hos].
  assert (Ho : h_opt h = false).
  { apply Hh. unfold sent in Eh. destruct (r =? 0); [discriminate|]. eapply nth_error_In. exact Eh. }
  destruct (s_body s) as [fs|vs] eqn:Eb; rewrite Ho.
  - apply ho_then_convert; [exact H| |intros; hos]. intros f Hf q. apply Hu. exact Hf.
  - rewrite forallb_forall in H. unfold de_enum_legacy. destruct (calc_disc r vs) as [ds|] eqn:Ed; [|hos].
    apply ho_bind; [apply ho_u32|]. intros x. destruct (find_disc x ds) as [[v d]|] eqn:Ef; [|hos].
    assert (Hin : In v vs).
    { unfold find_disc in Ef. apply find_some in Ef. destruct Ef as [Hin _]. apply (in_map fst) in Hin. rewrite (calc_disc_fst _ _ _ Ed) in Hin. apply filter_In in Hin. apply Hin. }
    unfold de_variant_legacy. apply ho_then_convert; [exact (H v Hin)| |].
    + intros f Hf q. apply Hu. eauto.
    + intros l. destruct (valive (scur s) v); [hos|]. apply ho_of_res. eapply Hv; eauto.
Qed.
End Decode.

Lemma ho_deserialize : forall E d t, reports E t -> no_envelopes E -> user_no_eof E -> honest (deserialize E d t).
Proof.
  intros E d t [Ht HE] Hn Hu. unfold deserialize. apply (ho_ty E (de_ref E d) reports_eof); auto. clear t Ht.
  induction d as [|d IH]; intros n Hr; cbn [de_ref]; [constructor|]. destruct (e_sch E n) as [s|] eqn:Es; [|constructor].
  destruct (Hu n s Es) as [U1 U2]. apply (ho_derived E (de_ref E d) reports_eof); auto; [apply (HE n s Es)|]. intros h. apply (Hn n s h Es).
Qed.
Lemma hears_deserialize : forall E d t, reports E t -> hears (deserialize E d t).
Proof.
  intros E d t [Ht HE]. apply (reads_deserialize _ reports_eof); auto.
Qed.

(** ** Skipping *)
Lemma ho_adv_loop : forall fuel n, honest (adv_loop fuel n).
Proof. induction fuel as [|f IH]; intros n; cbn [adv_loop]; [auto|]. destruct (n =? 0); [auto|]. apply ho_bind; [apply ho_n|]. intros _. apply IH. Qed.
Lemma ho_advance : forall n, honest (advance_read n).
Proof. intros n. apply ho_adv_loop. Qed.
Section SkipH.
Variables (E : env) (rec : N -> prog unit) (drec : N -> prog val).
Hypothesis Hrec : forall n, honest (rec n).
Ltac sp := match goal with
  | |- honest (de_len _) => apply ho_len | |- honest (de_u32 _) => apply ho_u32 | |- honest (de_u16 _) => apply ho_u16
  | |- honest (advance_read _) => apply ho_advance
  end.
Ltac hos := repeat first
  [ apply ho_ret | apply ho_fail; discriminate | apply ho_crash | apply ho_n | apply ho_byte | apply ho_alloc
  | sp | assumption | apply ho_bind; [|intros ?] | apply ho_rep | apply ho_rep_
  | match goal with |- honest (if ?c then _ else _) => destruct c end
  | match goal with |- honest (match ?c with _ => _ end) => destruct c end ].
Lemma ho_builtin : forall t, ty_all builtin t = true -> honest (de_ty E drec t).
Proof.
  intros t Ht. apply (ho_ty E drec builtin); [intros [] H; try discriminate H; reflexivity|intros n H; discriminate H|exact Ht].
Qed.
Lemma ho_sk : forall t, ty_all framed t = true -> honest (sk_ty E rec drec t).
Proof.
  induction t; cbn [ty_all sk_ty]; intros Ht; apply andb_prop in Ht; destruct Ht as [Hh Ht];
    repeat match goal with H : _ && _ = true |- _ => apply andb_prop in H; destruct H end;
    repeat match goal with IH : ?a = true -> _, H : ?a = true |- _ => specialize (IH H) end;
    try (unfold sk_blob, sk_bulk, sk_seq; hos; fail).
  all: try (apply ho_bind; [apply ho_builtin; reflexivity|intros; hos; fail]).
  - destruct mirror; [|assumption]. cbn [framed] in Hh. apply ho_bind; [|intros; hos]. apply ho_builtin. cbn [ty_all builtin andb]. exact Hh.
  - apply Hrec.
Qed.
Lemma ho_sk_fields : forall cur fs, forallb (fun f => ty_all framed (f_ty f)) fs = true -> honest (sk_fields E rec drec cur fs).
Proof.
  induction fs as [|f fs IH]; cbn [sk_fields forallb]; intros H; [hos|]. apply andb_prop in H. destruct H as [H1 H2]. specialize (IH H2).
  pose proof (ho_sk _ H1). assert (honest (sk_fixed (f_ty f))) by (unfold sk_fixed; hos). hos.
Qed.
Lemma ho_size_class : forall t, honest (of_res (size_class t)).
Proof. intros t. apply ho_of_res. unfold size_class. destruct (from_bits _); discriminate. Qed.
Lemma ho_sk_derived : forall s, fields_all (fun f => ty_all framed (f_ty f)) s = true -> honest (sk_derived E rec drec s).
Proof.
  intros s H. unfold sk_derived. apply ho_bind; [apply ho_u16|]. intros r. unfold sk_body. unfold fields_all in H.
  destruct (sent s r) as [h|]; [|hos]. destruct (s_body s) as [fs|vs].
  - unfold sk_struct_opt, read_varlen_len. pose proof (ho_sk_fields r fs H). hos.
  - rewrite forallb_forall in H. destruct (h_opt h).
    + unfold sk_enum_opt, read_tag, read_varlen_len. destruct (calc_disc r vs) as [ds|]; [|hos].
      apply ho_bind; [hos|]. intros t. apply ho_bind; [apply ho_size_class|]. intros c. hos.
    + unfold sk_enum_legacy. destruct (calc_disc r vs) as [ds|] eqn:Ed; [|hos].
      apply ho_bind; [apply ho_u32|]. intros x. destruct (find_disc x ds) as [[v d]|] eqn:Ef; [|hos]. apply ho_sk_fields. apply H.
      unfold find_disc in Ef. apply find_some in Ef. destruct Ef as [Hin _]. apply (in_map fst) in Hin. rewrite (calc_disc_fst _ _ _ Ed) in Hin. apply filter_In in Hin. apply Hin.
Qed.
End SkipH.
Lemma ho_skip : forall E d t, ty_all framed t = true -> env_all (fun f => ty_all framed (f_ty f)) E -> honest (skip E d t).
Proof.
  intros E d t Ht HE. unfold skip. apply ho_sk; [|exact Ht]. clear t Ht.
  induction d as [|d IH]; intros n; cbn [sk_ref]; [constructor|]. destruct (e_sch E n) as [s|] eqn:Es; [|constructor].
  apply ho_sk_derived; [exact IH|]. apply (HE n s Es).
Qed.
