(** Bounds on the calls to the reader.  Proofs. *)

From Verif Require Import Base BaseL Prog ProgL Prim PrimL Utf8 Tag Ty De SliceReader Skip Effort.
From Coq Require Import List NArith ZArith Bool Lia.
Import ListNotations.
Open Scope N_scope.

Lemma calls_bind : forall A B (p : prog A) (f : A -> prog B) bs,
  calls (bind p f) bs = calls p bs + match run p bs with Ok (a, rest) => calls (f a) rest | _ => 0 end.
Proof.
  intros A B p f. induction p as [a|e|x|n e k IH]; intros bs; cbn [bind calls run]; try lia.
  destruct (split_at n bs) as [[x y]|]; [|lia]. rewrite IH. lia.
Qed.
Lemma calls_map_err : forall A g (p : prog A) bs, calls (map_err g p) bs = calls p bs.
Proof. intros A g p. induction p as [a|e|x|n e k IH]; intros bs; cbn [map_err calls]; try reflexivity. destruct (split_at n bs) as [[x y]|]; [rewrite IH|]; reflexivity. Qed.
Lemma calls_of_res : forall A (r : res A) bs, calls (of_res r) bs = 0.
Proof. intros A [] bs; reflexivity. Qed.
Lemma run_shorter : forall A (p : prog A) bs a rest, run p bs = Ok (a, rest) -> len rest <= len bs.
Proof. intros A p bs a rest H. apply run_suffix in H. destruct H as (x & -> & _). rewrite len_app. lia. Qed.

(** Two calls per byte; [c]: calls saved up before, [c']: afterwards. *)
Definition eff {A} (c c' : N) (p : prog A) : Prop :=
  forall bs, match run p bs with
             | Ok (_, rest) => calls p bs + c' <= 2 * (len bs - len rest) + c
             | _ => calls p bs <= 2 * len bs + 1 + c
             end.
Lemma eff_bind : forall A B c c1 c2 (p : prog A) (f : A -> prog B), eff c c1 p -> (forall a, eff c1 c2 (f a)) -> eff c c2 (bind p f).
Proof.
  intros A B c c1 c2 p f Hp Hf bs. rewrite run_bind, calls_bind. specialize (Hp bs). destruct (run p bs) as [[a rest]|e|x] eqn:Er; try lia.
  specialize (Hf a rest). pose proof (run_shorter _ _ _ _ _ Er). destruct (run (f a) rest) as [[b r2]|e|x] eqn:E2; [|lia|lia].
  pose proof (run_shorter _ _ _ _ _ E2). lia.
Qed.
Lemma eff_ret : forall A c (a : A), eff c c (Ret a).
Proof. intros A c a bs. cbn. lia. Qed.
Lemma eff_fail : forall A c c' e, eff c c' (@Fail A e).
Proof. intros A c c' e bs. cbn. lia. Qed.
Lemma eff_crash : forall A c c' x, eff c c' (@Crash A x).
Proof. intros A c c' x bs. cbn. lia. Qed.
Lemma eff_of_res : forall A c (r : res A), eff c c (of_res r).
Proof. intros A c [a|e|x]; [apply eff_ret|apply eff_fail|apply eff_crash]. Qed.
Lemma eff_mono : forall A c c' d d' (p : prog A), eff c c' p -> c <= d -> d' <= c' + (d - c) -> eff d d' p.
Proof. intros A c c' d d' p H H1 H2 bs. specialize (H bs). destruct (run p bs) as [[a rest]|e|x]; lia. Qed.
Lemma eff_map_err : forall A g c c' (p : prog A), eff c c' p -> eff c c' (map_err g p).
Proof.
  intros A g c c' p H bs. specialize (H bs). rewrite calls_map_err, run_map_err. destruct (run p bs) as [[a rest]|e|x]; exact H.
Qed.
Lemma eff_read : forall A c c' n e (k : bytes -> prog A), 1 <= c + 2 * n -> (forall x, eff (c + 2 * n - 1) c' (k x)) -> eff c c' (Read n e k).
Proof.
  intros A c c' n e k H1 H bs. cbn [run calls]. destruct (split_at n bs) as [[x y]|] eqn:Es; [|lia].
  specialize (H x y). apply split_at_some in Es. destruct Es as [-> Hn]. rewrite len_app. destruct (run (k x) y) as [[a rest]|er|q] eqn:Er; try lia.
  pose proof (run_shorter _ _ _ _ _ Er). lia.
Qed.
Lemma eff_read_n : forall c n, 0 < n -> eff c (c + 2 * n - 1) (read_n n).
Proof. intros c n Hn. apply eff_read; [lia|]. intros x. apply eff_ret. Qed.
(** Any read, on credit. *)
Lemma eff_read_any : forall n, eff 1 0 (read_n n).
Proof. intros n. apply eff_read; [lia|]. intros x. apply (eff_mono _ 0 0); [apply eff_ret|lia|lia]. Qed.
Lemma eff_byte : forall c, eff c (c + 1) read_byte.
Proof. intros c. apply eff_read; [lia|]. intros x. destruct x; (apply (eff_mono _ 0 0); [apply eff_ret|lia|lia]). Qed.
Lemma eff_rep : forall A n (p : prog A), eff 0 0 p -> eff 0 0 (rep n p).
Proof.
  intros A n p H. induction n as [|n IH]; [apply eff_ret|]. cbn [rep]. eapply eff_bind; [exact H|]. intros a. eapply eff_bind; [exact IH|]. intros l. apply eff_ret.
Qed.
Lemma eff_rep_ : forall A n (p : prog A), eff 0 0 p -> eff 0 0 (rep_ n p).
Proof. intros A n p H. induction n as [|n IH]; [apply eff_ret|]. cbn [rep_]. eapply eff_bind; [exact H|]. intros a. exact IH. Qed.
Lemma eff_alloc : forall E c n, eff c c (alloc E n).
Proof. intros E c n. unfold alloc. destruct (e_mem E) as [m|]; [destruct (n <=? m); [apply eff_ret|apply eff_crash]|apply eff_ret]. Qed.
Lemma eff_drop : forall A c c' (p : prog A), eff c c' p -> c' <= c' -> forall d, d <= c' -> eff c d p.
Proof. intros A c c' p H _ d Hd. apply (eff_mono A c c' c d p H); lia. Qed.

(** Numbers leave a call saved up. *)
Ltac num := repeat match goal with
  | |- eff _ _ (bind read_byte _) => eapply eff_bind; [apply eff_byte|intros ?]
  | |- eff _ _ (bind (read_n _) _) => eapply eff_bind; [apply eff_read_n; reflexivity|intros ?]
  | |- eff _ _ (if ?c then _ else _) => destruct c
  | |- eff _ _ (Fail _) => apply eff_fail
  | |- eff _ _ (Ret _) => apply (eff_mono _ 0 0); [apply eff_ret|lia|cbn; lia]
  end.
Lemma eff_decode64 : eff 0 1 decode_u64.
Proof. unfold decode_u64. num. Qed.
Lemma eff_decode128 : eff 0 1 decode_u128.
Proof. unfold decode_u128. num. Qed.
Lemma eff_u16 : forall fw, eff 0 1 (de_u16 fw).
Proof. intros fw. unfold de_u16. destruct fw; [num|]. eapply eff_bind; [apply eff_decode64|]. intros x. unfold narrowU. num. Qed.
Lemma eff_u32 : forall fw, eff 0 1 (de_u32 fw).
Proof. intros fw. unfold de_u32. destruct fw; [num|]. eapply eff_bind; [apply eff_decode64|]. intros x. unfold narrowU. num. Qed.
Lemma eff_u64 : forall fw, eff 0 1 (de_u64 fw).
Proof. intros fw. unfold de_u64. destruct fw; [num|apply eff_decode64]. Qed.
Lemma eff_map : forall A B c c' (p : prog A) (g : A -> B), eff c c' p -> eff c c' (x <- p ;; Ret (g x)).
Proof. intros A B c c' p g H. eapply eff_bind; [exact H|]. intros x. apply eff_ret. Qed.
Lemma eff_fixw : forall n A (g : bytes -> A), 0 < n -> eff 0 1 (x <- read_n n ;; Ret (g x)).
Proof. intros n A g Hn. apply eff_map. apply (eff_mono _ 0 (0 + 2 * n - 1)); [apply eff_read_n, Hn|lia|lia]. Qed.
Lemma eff_narrowS : forall c b z, eff c c (narrowS b z).
Proof. intros c b z. unfold narrowS. destruct (_ && _)%bool; [apply eff_ret|apply eff_fail]. Qed.
Lemma eff_int : forall fw ub i, eff 0 1 (de_int fw ub i).
Proof.
  intros fw ub i.
  assert (H64 : eff 0 1 (de_i64 fw)).
  { unfold de_i64. destruct fw; [apply eff_fixw; lia|apply eff_map, eff_decode64]. }
  destruct i; cbn [de_int].
  - apply eff_map. apply (eff_byte 0).
  - unfold de_i8. apply eff_map. apply (eff_byte 0).
  - apply eff_map, eff_u16.
  - unfold de_i16. destruct fw; [apply eff_fixw; lia|]. eapply eff_bind; [apply eff_decode64|]. intros x. apply eff_narrowS.
  - apply eff_map, eff_u32.
  - unfold de_i32. destruct fw; [apply eff_fixw; lia|]. eapply eff_bind; [apply eff_decode64|]. intros x. apply eff_narrowS.
  - apply eff_map, eff_u64.
  - exact H64.
  - apply eff_map. unfold de_u128. destruct fw; [apply eff_fixw; lia|apply eff_decode128].
  - unfold de_i128. destruct fw; [apply eff_fixw; lia|apply eff_map, eff_decode128].
  - apply eff_map. unfold de_usize. apply eff_map, eff_u64.
  - unfold de_isize. apply eff_map, H64.
Qed.
Lemma eff_forget : forall A c (p : prog A), eff 0 c p -> eff 0 0 p.
Proof. intros A c p H. apply (eff_mono _ 0 c); [exact H|lia|lia]. Qed.
Lemma eff_keep : forall A c (p : prog A), eff 0 0 p -> eff c 0 p.
Proof. intros A c p H. apply (eff_mono _ 0 0); [exact H|lia|lia]. Qed.

(** Decoders. *)
Section De.
Variable E : env.
Lemma eff_len : eff 0 1 (de_len E).
Proof. unfold de_len, de_usize. apply eff_map, eff_u64. Qed.
Lemma eff_varint : eff 0 1 (read_varint E).
Proof. unfold read_varint. num. Qed.
Lemma eff_varlen : eff 0 1 read_varlen_len.
Proof. unfold read_varlen_len. apply eff_fixw. lia. Qed.
(** A length, then that much data. *)
Lemma eff_take : forall A n (f : bytes -> prog A), (forall x, eff 0 0 (f x)) -> eff 1 0 (alloc E n ;;; x <- read_n n ;; f x).
Proof. intros A n f H. eapply eff_bind; [apply eff_alloc|]. intros _. eapply eff_bind; [apply eff_read_any|exact H]. Qed.
Lemma eff_str : eff 0 0 (de_str E).
Proof.
  unfold de_str. eapply eff_bind; [apply eff_len|]. intros n. destruct (n =? 0); [apply eff_keep, eff_ret|].
  apply eff_take. intros x. destruct (utf8_ok x); [apply eff_ret|apply eff_fail].
Qed.
Lemma eff_blob : eff 0 0 (de_blob E).
Proof.
  unfold de_blob. eapply eff_bind; [apply eff_len|]. intros n. destruct (n =? 0); [apply eff_keep, eff_ret|].
  eapply eff_bind; [apply eff_alloc|]. intros _. apply eff_read_any.
Qed.
Lemma eff_bulk : forall k, eff 0 0 (de_bulk E k).
Proof.
  intros k. unfold de_bulk. eapply eff_bind; [apply eff_len|]. intros n. destruct (n =? 0); [apply eff_keep, eff_ret|]. destruct k as [|s w|[]].
  - apply eff_take. intros x. eapply eff_bind; [apply eff_alloc|]. intros _. apply eff_ret.
  - destruct (_ <? _); [|apply eff_fail]. apply eff_take. intros x. apply eff_ret.
  - apply eff_keep. eapply eff_bind; [apply eff_alloc|]. intros _. apply eff_rep. apply (eff_forget _ 1), eff_fixw. lia.
  - destruct (_ <? _); [|apply eff_fail]. apply eff_take. intros x. apply eff_ret.
Qed.
Lemma eff_seq : forall sz p, eff 0 0 p -> eff 0 0 (de_seq E sz p).
Proof.
  intros sz p H. unfold de_seq. eapply eff_bind; [apply eff_len|]. intros n. apply eff_keep. destruct (n =? 0); [apply eff_ret|].
  eapply eff_bind; [apply eff_alloc|]. intros _. apply eff_rep, H.
Qed.
Lemma eff_char : eff 0 0 de_char.
Proof.
  unfold de_char. eapply eff_bind; [apply eff_byte|]. intros b. cbv zeta. destruct (_ =? _); [apply eff_fail|].
  eapply eff_bind; [apply eff_read_any|]. intros r. destruct (utf8_ok _); [apply eff_ret|apply eff_fail].
Qed.
Lemma eff_entry : forall a b, eff 0 0 a -> eff 0 0 b -> eff 0 0 (de_entry a b).
Proof. intros a b Ha Hb. unfold de_entry. eapply eff_bind; [exact Ha|]. intros x. apply eff_map, Hb. Qed.

Section Rec.
Variable rec : N -> prog val.
Hypothesis Hrec : forall n, eff 0 0 (rec n).
Lemma eff_ty : forall t, eff 0 0 (de_ty E rec t).
Proof.
  induction t as [|i| | | | | | | | | |a IHa b IHb|t IH|t IH|n t IH|t IH|a IHa b IHb|t IH|k a IHa b IHb|k t IH|t IH|t IH| | |c m t IH|n]; cbn [de_ty].
  - eapply eff_bind; [apply eff_byte|]. intros b. apply eff_keep. destruct (b =? 0); [apply eff_ret|]. destruct (b =? 1); [apply eff_ret|apply eff_fail].
  - apply (eff_forget _ 1), eff_map, eff_int.
  - apply (eff_forget _ 1), eff_fixw. lia.
  - apply (eff_forget _ 1), eff_fixw. lia.
  - apply eff_map, eff_char.
  - apply eff_str.
  - apply eff_str.
  - apply eff_map, eff_blob.
  - apply (eff_forget _ 1), eff_fixw. lia.
  - apply (eff_forget _ 1), eff_fixw. lia.
  - apply eff_ret.
  - eapply eff_bind; [exact IHa|]. intros x. apply eff_map, IHb.
  - destruct (if e_spec E then bulk_of t else None) as [k|]; apply eff_map; [apply eff_bulk|apply eff_seq, IH].
  - apply eff_map, eff_seq, IH.
  - apply eff_map, eff_rep, IH.
  - eapply eff_bind; [apply eff_byte|]. intros b. apply eff_keep. destruct (b =? 0); [apply eff_ret|]. destruct (b =? 1); [apply eff_map, IH|apply eff_fail].
  - eapply eff_bind; [apply eff_u32|]. intros d. apply eff_keep. destruct (d =? 0); [apply eff_map, eff_map_err, IHa|].
    destruct (d =? 1); [apply eff_map, eff_map_err, IHb|apply eff_fail].
  - eapply eff_bind; [apply eff_u32|]. intros d. apply eff_keep. destruct (d =? 0); [apply eff_ret|].
    destruct (d =? 1); [apply eff_map, eff_map_err, IH|]. destruct (d =? 2); [apply eff_map, eff_map_err, IH|apply eff_fail].
  - apply eff_map, eff_seq, eff_entry; assumption.
  - apply eff_map, eff_seq, IH.
  - apply eff_map, eff_seq, IH.
  - exact IH.
  - eapply eff_bind; [apply (eff_forget _ 1), eff_int|]. intros x. eapply eff_bind; [apply (eff_forget _ 1), eff_int|]. intros y. apply eff_of_res.
  - eapply eff_bind; [apply (eff_forget _ 1), eff_int|]. intros x. eapply eff_bind; [apply (eff_forget _ 1), eff_int|]. intros y.
    eapply eff_bind; [apply eff_of_res|]. intros d. apply eff_of_res.
  - eapply eff_bind; [exact IH|]. intros x. destruct (e_ext E c x); [apply eff_ret|apply eff_fail].
  - apply Hrec.
Qed.
Lemma eff_advance : forall n, eff 1 0 (advance n).
Proof. intros n. unfold advance. apply eff_map, eff_read_any. Qed.
Lemma eff_idx_map : forall k a b da db, eff 0 0 da -> eff 0 0 db -> eff 0 0 (de_idx_map E k a b da db).
Proof.
  intros k a b da db Ha Hb. unfold de_idx_map. eapply eff_bind; [apply (eff_forget _ _ _ (eff_byte 0))|]. intros fl.
  eapply eff_bind; [apply eff_varint|]. intros n. eapply eff_bind.
  { destruct k; [apply eff_alloc|apply eff_ret]. }
  intros _. destruct (_ =? _).
  - apply eff_keep, eff_map, eff_rep, eff_entry; assumption.
  - destruct (_ <? _); [|apply eff_fail]. eapply eff_bind.
    { unfold add8. destruct (_ <? _); [apply eff_ret|]. destruct (e_dbg E); [apply eff_crash|apply eff_ret]. }
    intros m. eapply eff_bind; [apply eff_advance|]. intros _. eapply eff_bind; [apply eff_alloc|]. intros _.
    eapply eff_bind; [apply eff_rep, Ha|]. intros ks. eapply eff_bind; [apply eff_alloc|]. intros _. apply eff_map, eff_rep, Hb.
Qed.
Lemma eff_idx_seq : forall a da, eff 0 0 da -> eff 0 0 (de_idx_seq E a da).
Proof.
  intros a da Ha. unfold de_idx_seq. eapply eff_bind; [apply (eff_forget _ _ _ (eff_byte 0))|]. intros fl.
  eapply eff_bind; [apply eff_varint|]. intros n. destruct (_ =? _).
  - apply eff_keep. eapply eff_bind; [apply eff_alloc|]. intros _. apply eff_rep, Ha.
  - destruct (_ <? _); [|apply eff_fail]. eapply eff_bind; [apply eff_advance|]. intros _. eapply eff_bind; [apply eff_alloc|]. intros _. apply eff_rep, Ha.
Qed.
Lemma eff_mode : forall m t, eff 0 0 (de_mode E rec m t).
Proof.
  intros m t. destruct m; cbn [de_mode]; try apply eff_ty.
  - destruct (fixed_of t) as [[s w]|] eqn:Ef; [|apply eff_crash]. unfold de_fixed. apply eff_map, (eff_forget _ 1), eff_fixw.
    destruct t as [|i| | | | | | | | | | | | | | | | | | | | | | | |]; try discriminate Ef. destruct i; inversion Ef; subst; reflexivity.
  - destruct t; try apply eff_crash. destruct (bulk_of t); [apply eff_map, eff_bulk|apply eff_crash].
  - destruct t; try apply eff_crash. apply eff_map, eff_idx_map; apply eff_ty.
  - destruct t; try apply eff_crash; apply eff_map, eff_idx_seq, eff_ty.
  - destruct t; try apply eff_crash. apply eff_map, eff_idx_seq, eff_ty.
Qed.
Lemma eff_fields : forall opt cur tgt fs, eff 0 0 (de_fields E rec opt cur tgt fs).
Proof.
  intros opt cur tgt fs. induction fs as [|f fs IH]; cbn [de_fields]; [apply eff_ret|]. destruct (falive cur f); destruct (falive tgt f).
  - eapply eff_bind; [apply eff_mode|]. intros v. apply eff_map, IH.
  - eapply eff_bind; [apply eff_mode|]. intros v. apply eff_map, IH.
  - eapply eff_bind; [apply eff_of_res|]. intros v. apply eff_map, IH.
  - exact IH.
Qed.
Lemma eff_in_buf : forall A c (p : prog A) buf, eff c c (in_buf p buf).
Proof. intros A c p buf. apply eff_of_res. Qed.
Lemma eff_legacy : forall cur tgt fs, eff 0 0 (de_struct_legacy E rec cur tgt fs).
Proof. intros cur tgt fs. unfold de_struct_legacy. eapply eff_bind; [apply eff_fields|]. intros p. apply eff_map, eff_of_res. Qed.
Lemma eff_struct_opt : forall ix cur tgt fs, eff 0 0 (de_struct_opt E rec ix cur tgt fs).
Proof.
  intros ix cur tgt fs. unfold de_struct_opt. eapply eff_bind; [apply eff_varlen|]. intros n. apply eff_take. intros buf. apply eff_in_buf.
Qed.
Lemma eff_enum_legacy : forall cur tgt vs, eff 0 0 (de_enum_legacy E rec cur tgt vs).
Proof.
  intros cur tgt vs. unfold de_enum_legacy. destruct (calc_disc cur vs) as [ds|]; [|apply eff_crash]. eapply eff_bind; [apply eff_u32|]. intros d.
  destruct (find_disc d ds) as [[vr x]|]; [|apply eff_fail]. apply eff_keep. unfold de_variant_legacy. eapply eff_bind; [apply eff_fields|]. intros p.
  eapply eff_bind; [apply eff_of_res|]. intros l. destruct (valive tgt vr); [apply eff_ret|apply eff_of_res].
Qed.
Lemma eff_opt_tag : eff 0 1 read_optimised_tag.
Proof. unfold read_optimised_tag, read_tag. eapply eff_bind; [apply (eff_byte 0)|]. intros t. apply eff_map, eff_of_res. Qed.
Lemma eff_enum_opt : forall cur tgt vs, eff 0 0 (de_enum_opt E rec cur tgt vs).
Proof.
  intros cur tgt vs. unfold de_enum_opt. destruct (calc_disc cur vs) as [ds|]; [|apply eff_crash]. eapply eff_bind; [apply eff_opt_tag|]. intros ts.
  destruct (find_tag _ _ ds) as [[vr x]|]; [|apply eff_fail]. unfold de_variant_opt. apply (eff_bind _ _ 1 0 0).
  - unfold variant_buf. destruct (v_size vr) as [[|n|]|].
    + apply eff_keep, eff_ret.
    + eapply eff_bind; [apply eff_alloc|]. intros _. apply eff_read_any.
    + apply eff_keep. eapply eff_bind; [apply eff_varlen|]. intros n. eapply eff_bind; [apply eff_alloc|]. intros _. apply eff_read_any.
    + apply eff_crash.
  - intros buf. eapply eff_bind; [apply eff_in_buf|]. intros l. destruct (valive tgt vr); [apply eff_ret|apply eff_of_res].
Qed.
Lemma eff_derived : forall s, eff 0 0 (de_derived E rec s).
Proof.
  intros s. unfold de_derived. eapply eff_bind; [apply eff_u16|]. intros r. apply eff_keep. unfold de_body. destruct (sent s r) as [h|]; [|apply eff_fail].
  destruct (s_body s) as [fs|vs]; destruct (h_opt h); [apply eff_struct_opt|apply eff_legacy|apply eff_enum_opt|apply eff_enum_legacy].
Qed.
End Rec.
Lemma eff_ref : forall d n, eff 0 0 (de_ref E d n).
Proof.
  induction d as [|d IH]; intros n; cbn [de_ref]; [apply eff_crash|]. destruct (e_sch E n) as [s|]; [apply eff_derived, IH|apply eff_crash].
Qed.
Lemma eff_deserialize : forall d t, eff 0 0 (deserialize E d t).
Proof. intros d t. apply eff_ty, eff_ref. Qed.

(** Skipping. *)
Lemma eff_loop : forall fuel n c, eff c c (adv_loop fuel n).
Proof.
  induction fuel as [|f IH]; intros n c; cbn [adv_loop]; [apply eff_ret|]. destruct (N.eqb_spec n 0) as [Hz|Hz]; [apply eff_ret|]. cbv zeta.
  eapply eff_bind; [|intros _; apply IH]. apply (eff_mono _ c (c + 2 * N.min n 4096 - 1)); [apply eff_read_n|lia|]; lia.
Qed.
Lemma eff_adv : forall n, eff 0 0 (advance_read n).
Proof. intros n. apply eff_loop. Qed.
Lemma eff_sk_blob : eff 0 0 (sk_blob E).
Proof. unfold sk_blob. eapply eff_bind; [apply (eff_forget _ 1), eff_len|]. intros n. apply eff_adv. Qed.
Lemma eff_sk_bulk : forall k, eff 0 0 (sk_bulk E k).
Proof.
  intros k. unfold sk_bulk. eapply eff_bind; [apply (eff_forget _ 1), eff_len|]. intros n. destruct k as [|s w|r].
  - apply eff_adv.
  - destruct w as [|[|w]]; try (destruct (_ <? _); [apply eff_adv|apply eff_fail]). apply eff_adv.
  - destruct (_ <? _); [apply eff_adv|apply eff_fail].
Qed.
Lemma eff_sk_seq : forall p, eff 0 0 p -> eff 0 0 (sk_seq E p).
Proof. intros p H. unfold sk_seq. eapply eff_bind; [apply (eff_forget _ 1), eff_len|]. intros n. apply eff_rep_, H. Qed.
Lemma eff_sk_fixed : forall t, eff 0 0 (sk_fixed t).
Proof.
  intros t. unfold sk_fixed. destruct (fixed_of t) as [[s w]|] eqn:Ef; [|apply eff_crash]. apply (eff_forget _ 1), (eff_fixw (N.of_nat w) unit (fun _ => tt)).
  destruct t as [|i| | | | | | | | | | | | | | | | | | | | | | | |]; try discriminate Ef. destruct i; inversion Ef; subst; reflexivity.
Qed.
Section RecK.
Variable rec : N -> prog unit.
Variable drec : N -> prog val.
Hypothesis Hrec : forall n, eff 0 0 (rec n).
Hypothesis Hdrec : forall n, eff 0 0 (drec n).
Lemma eff_drop_ : forall t, eff 0 0 (de_ty E drec t ;;; Ret tt).
Proof. intros t. eapply eff_bind; [apply eff_ty, Hdrec|]. intros _. apply eff_ret. Qed.
Lemma eff_then : forall (p q : prog unit), eff 0 0 p -> eff 0 0 q -> eff 0 0 (p ;;; q).
Proof. intros p q Hp Hq. eapply eff_bind; [exact Hp|]. intros _. exact Hq. Qed.
Lemma eff_sk_ty : forall t, eff 0 0 (sk_ty E rec drec t).
Proof.
  induction t as [|i| | | | | | | | | |a IHa b IHb|t IH|t IH|n t IH|t IH|a IHa b IHb|t IH|k a IHa b IHb|k t IH|t IH|t IH| | |c m t IH|n]; cbn [sk_ty];
    try (apply eff_drop_); try apply eff_sk_blob; try apply eff_adv; try apply eff_ret; try apply Hrec; try exact IH; try (apply eff_sk_seq, IH).
  - apply eff_then; assumption.
  - destruct (if e_spec E then bulk_of t else None) as [k|]; [apply eff_sk_bulk|apply eff_sk_seq, IH].
  - apply eff_rep_, IH.
  - eapply eff_bind; [apply eff_byte|]. intros b. apply eff_keep. destruct (b =? 0); [apply eff_ret|]. destruct (b =? 1); [apply IH|apply eff_fail].
  - eapply eff_bind; [apply eff_u32|]. intros d. apply eff_keep. destruct (d =? 0); [apply IHa|]. destruct (d =? 1); [apply IHb|apply eff_fail].
  - eapply eff_bind; [apply eff_u32|]. intros d. apply eff_keep. destruct (d =? 0); [apply eff_ret|].
    destruct (d =? 1); [apply IH|]. destruct (d =? 2); [apply IH|apply eff_fail].
  - apply eff_sk_seq, eff_then; assumption.
  - eapply eff_bind; [apply (eff_ty drec Hdrec (TInt U64))|]. intros _. apply (eff_drop_ (TInt U32)).
  - destruct m; [apply (eff_drop_ (TExt c true t))|apply IH].
Qed.
Lemma eff_sk_fields : forall cur fs, eff 0 0 (sk_fields E rec drec cur fs).
Proof.
  intros cur fs. induction fs as [|f fs IH]; cbn [sk_fields]; [apply eff_ret|]. destruct (falive cur f); [|exact IH]. apply eff_then; [|exact IH].
  destruct (f_fixed f); [apply eff_sk_fixed|apply eff_sk_ty].
Qed.
Lemma eff_sk_derived : forall s, eff 0 0 (sk_derived E rec drec s).
Proof.
  intros s. unfold sk_derived. eapply eff_bind; [apply (eff_forget _ 1), eff_u16|]. intros r. unfold sk_body. destruct (sent s r) as [h|]; [|apply eff_fail].
  destruct (s_body s) as [fs|vs]; destruct (h_opt h).
  - unfold sk_struct_opt. eapply eff_bind; [apply (eff_forget _ 1), eff_varlen|]. intros n. apply eff_adv.
  - apply eff_sk_fields.
  - unfold sk_enum_opt. destruct (calc_disc r vs) as [ds|]; [|apply eff_crash]. eapply eff_bind; [apply (eff_forget _ _ _ (eff_byte 0))|]. intros t.
    eapply eff_bind; [apply eff_of_res|]. intros c. destruct c; [apply eff_ret| |].
    + destruct (nth_error _ _); [apply eff_adv|apply eff_crash].
    + eapply eff_bind; [apply (eff_forget _ 1), eff_varlen|]. intros n. apply eff_adv.
  - unfold sk_enum_legacy. destruct (calc_disc r vs) as [ds|]; [|apply eff_crash]. eapply eff_bind; [apply (eff_forget _ 1), eff_u32|]. intros d.
    destruct (find_disc d ds) as [[vr x]|]; [apply eff_sk_fields|apply eff_fail].
Qed.
Lemma eff_sc_ty : forall t, eff 0 0 (sc_ty E drec t).
Proof.
  induction t as [|i| | | | | | | | | |a IHa b IHb|t IH|t IH|n t IH|t IH|a IHa b IHb|t IH|k a IHa b IHb|k t IH|t IH|t IH| | |c m t IH|n]; cbn [sc_ty];
    try (apply eff_drop_); try apply eff_ret.
  - apply eff_then; assumption.
  - apply eff_rep_, IH.
  - eapply eff_bind; [apply (eff_ty drec Hdrec (TInt U64))|]. intros _. apply (eff_drop_ (TInt U32)).
Qed.
End RecK.
Lemma eff_sk_ref : forall d n, eff 0 0 (sk_ref E d n).
Proof.
  induction d as [|d IH]; intros n; cbn [sk_ref]; [apply eff_crash|]. destruct (e_sch E n) as [s|]; [apply eff_sk_derived; [exact IH|apply eff_ref]|apply eff_crash].
Qed.
Lemma eff_skip : forall d t, eff 0 0 (skip E d t).
Proof. intros d t. apply eff_sk_ty; [apply eff_sk_ref|apply eff_ref]. Qed.
Lemma eff_skip_check : forall d t, eff 0 0 (skip_check E d t).
Proof. intros d t. apply eff_sc_ty, eff_ref. Qed.
End De.
