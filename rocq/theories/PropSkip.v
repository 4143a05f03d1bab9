(** C12, C13, C14, C16, C19, C24, C29, C48: skipping. *)

From Verif Require Import Base BaseL Prog ProgL Prim PrimL Utf8 Tag Ty Ser De Typed Mig SortL DiscL RtL RtTy RtDer RtSch RtId Agree SerL Spec Cross Ex SliceReader Skip SkipIdx SkipL IdxL OrdL PropWire PropMig PropIdx.
From Coq Require Import List NArith ZArith Bool Lia Permutation.
Import ListNotations.
Open Scope N_scope.

(** ** C12 *)

(** On any bytes, canonical or not; [2 ^ e_ub E] is the size of the address space. *)
Theorem C12_skip_consumes_what_deserialize_consumes : forall E d t bs v rest,
  spec_built E -> len bs < 2 ^ e_ub E ->
  run (deserialize E d t) bs = Ok (v, rest) -> run (skip E d t) bs = Ok (tt, rest).
Proof. intros E d t bs v rest Hs Hl H. eapply cov_skip; eassumption. Qed.

(** In particular on encodings, and then without any memory. *)
Theorem C12_skip_encoding : forall E d t v b rest,
  wf_env E -> sizes_honest E -> e_mem E = None -> spec_built E -> wt E d t v -> len (b ++ rest) < 2 ^ e_ub E ->
  to_vec E d t v = Ok b -> run (skip E d t) (b ++ rest) = Ok (tt, rest).
Proof.
  intros E d t v b rest W Hh Hm Hs Hw Hl H. apply to_vec_ok in H. destruct H as (ops & H & ->).
  apply (C12_skip_consumes_what_deserialize_consumes E d t _ v rest Hs Hl). exact (round_trip E d t v ops rest W Hh Hm Hw H).
Qed.

(** ** C13 *)

Theorem C13_slice_skip : forall E d t bs,
  match run (skip E d t) bs, skip_on_slice E d t (sr_new bs) with
  | Ok (_, rest), Ok (_, s) => sr_remaining s = rest /\ sr_consumed s + len rest = len bs
  | Err e, Err e' => e = e'
  | Panic x, Panic x' => x = x'
  | _, _ => False
  end.
Proof.
  intros E d t bs. rewrite (fol_skip E d t (sr_new bs)). cbn [sr_new sr_inner sr_orig].
  destruct (run (skip E d t) bs) as [[[] rest]|e|x] eqn:H; cbn [with_orig]; try reflexivity.
  split; [reflexivity|]. unfold sr_consumed. cbn [sr_orig sr_inner]. apply run_len in H. lia.
Qed.
Theorem C13_skip_slice : forall E d t bs n,
  skip_slice E d t bs = Ok n <-> exists rest, run (skip E d t) bs = Ok (tt, rest) /\ len bs = n + len rest.
Proof.
  intros E d t bs n. unfold skip_slice. rewrite (fol_skip E d t (sr_new bs)). cbn [sr_new sr_inner sr_orig].
  destruct (run (skip E d t) bs) as [[[] rest]|e|x] eqn:H; cbn [with_orig rmap snd]; unfold sr_consumed; cbn [sr_orig sr_inner].
  - apply run_len in H. split.
    + intros Hn. inversion Hn; subst. exists rest. split; [reflexivity|lia].
    + intros (r & Hr & Hl). inversion Hr; subst. f_equal. lia.
  - split; [discriminate|]. intros (r & Hr & _). discriminate.
  - split; [discriminate|]. intros (r & Hr & _). discriminate.
Qed.
(** Any reader that does not fail, however it fragments its input, gives the same. *)
Theorem C13_any_reader : forall E d t sch bs, no_fail sch -> run_sched (skip E d t) sch bs = run (skip E d t) bs.
Proof. intros. apply run_sched_run. assumption. Qed.

(** ** C14 *)

(** No SystemTime directly inside tuples, ranges and arrays. *)
Fixpoint no_time (t : ty) : bool :=
  match t with
  | TSystemTime => false
  | TPair a b => no_time a && no_time b
  | TArray _ t' => no_time t'
  | _ => true
  end.
Definition dropped {A} (r : res (A * bytes)) : res (unit * bytes) := rmap (fun p => (tt, snd p)) r.
Lemma run_drop : forall A (p : prog A) bs, run (p ;;; Ret tt) bs = dropped (run p bs).
Proof. intros. rewrite run_bind. destruct (run p bs) as [[a r]|e|x]; reflexivity. Qed.
Lemma rep_drop : forall A n (p : prog A) q, (forall bs, run q bs = dropped (run p bs)) -> forall bs, run (rep_ n q) bs = dropped (run (rep n p) bs).
Proof.
  intros A n p q H. induction n as [|n IH]; intros bs; cbn [rep_ rep]; [reflexivity|]. rewrite !run_bind, H.
  destruct (run p bs) as [[a r]|e|x]; try reflexivity. cbn [dropped rmap snd]. rewrite IH, run_bind. destruct (run (rep n p) r) as [[l r']|e|x]; reflexivity.
Qed.
Theorem C14_skip_check_is_deserialize : forall E d t bs, no_time t = true ->
  run (skip_check E d t) bs = rmap (fun p => (tt, snd p)) (run (deserialize E d t) bs).
Proof.
  intros E d t bs H. change (run (skip_check E d t) bs = dropped (run (deserialize E d t) bs)).
  unfold skip_check, deserialize. revert bs. induction t; cbn [sc_ty]; try (intros; apply run_drop).
  - reflexivity.
  - cbn [no_time] in H. apply andb_prop in H. destruct H as [H1 H2]. intros bs. cbn [de_ty]. rewrite !run_bind, IHt1 by assumption.
    destruct (run (de_ty E (de_ref E d) t1) bs) as [[a r]|e|x]; try reflexivity. cbn [dropped rmap snd]. rewrite IHt2 by assumption.
    rewrite run_bind. destruct (run (de_ty E (de_ref E d) t2) r) as [[b r']|e|x]; reflexivity.
  - cbn [no_time] in H. intros bs. cbn [de_ty]. rewrite (rep_drop _ n (de_ty E (de_ref E d) t)) by auto.
    rewrite run_bind. destruct (run (rep n (de_ty E (de_ref E d) t)) bs) as [[l r]|e|x]; reflexivity.
  - discriminate.
Qed.
(** For every type: what deserialises passes the check, at the same place. *)
Theorem C14_accepts : forall E d t bs v rest,
  run (deserialize E d t) bs = Ok (v, rest) -> run (skip_check E d t) bs = Ok (tt, rest).
Proof.
  intros E d t bs v rest H. assert (C : covers (len bs + 1) (deserialize E d t) (skip_check E d t)); [|eapply C; [lia|exact H]].
  generalize (len bs + 1). clear. intros M. unfold deserialize, skip_check. induction t; cbn [sc_ty]; try apply cov_drop.
  - cbn [de_ty]. apply cov_then; [assumption|]. intros. apply cov_ret. assumption.
  - cbn [de_ty]. apply cov_ret, cov_rep. assumption.
  - intros bs v r Hb H. cbn [de_ty] in *. rewrite ?run_bind in *.
    destruct (run (de_int (e_fw E) (e_ub E) U64) bs) as [[s y]|e|x]; try discriminate. cbn [run]. rewrite ?run_bind in *.
    destruct (run (de_int (e_fw E) (e_ub E) U32) y) as [[n z]|e|x]; try discriminate. cbn [run].
    destruct (dur_new s n); cbn [of_res] in H; rewrite ?run_bind in H; cbn [run] in H; try discriminate.
    rewrite run_of_res in H. destruct (time_add E a); cbn in H; try discriminate. inversion H; subst. reflexivity.
Qed.
Theorem C14_skip_check_slice : forall E d t bs n, skip_check_slice E d t bs = Ok n <->
  exists rest, run (skip_check E d t) bs = Ok (tt, rest) /\ len bs = n + len rest.
Proof.
  intros E d t bs n. unfold skip_check_slice. destruct (run (skip_check E d t) bs) as [[[] rest]|e|x] eqn:H; cbn [rmap snd].
  - apply run_len in H. split.
    + intros Hn. inversion Hn; subst. exists rest. split; [reflexivity|lia].
    + intros (r & Hr & Hl). inversion Hr; subst. f_equal. lia.
  - split; [discriminate|]. intros (r & Hr & _). discriminate.
  - split; [discriminate|]. intros (r & Hr & _). discriminate.
Qed.
(** The check accepts times on which deserialising panics. *)
Theorem C14_system_time_refuted : forall E d, e_fw E = false -> (e_time E < 2 ^ 63)%Z -> exists bs,
  run (skip_check E d TSystemTime) bs = Ok (tt, []) /\ run (deserialize E d TSystemTime) bs = Panic PTime.
Proof.
  intros E d Hf Ht. exists [253; 255; 255; 255; 255; 255; 255; 255; 255; 0].
  unfold skip_check, deserialize. cbn [sc_ty de_ty]. unfold de_int. cbn [ity_bits]. rewrite Hf. split; [reflexivity|].
  cbn [bind]. unfold de_u64, de_u32. cbn - [time_add dur_new].
  assert (D : dur_new 18446744073709551615 0 = Ok (VPair (VInt 18446744073709551615) (VInt 0))) by reflexivity.
  cbn in D |- *. destruct (18446744073709551615 <=? e_time E)%Z eqn:L; [apply Z.leb_le in L; lia|reflexivity].
Qed.

(** ** C16 *)

(** Types whose skip is not defined as deserialising: no PathBuf, no external type that mirrors. *)
Fixpoint lean (t : ty) : bool :=
  match t with
  | TPath => false
  | TExt _ mirror t' => negb mirror && lean t'
  | TPair a b | TResult a b | TMap _ a b => lean a && lean b
  | TVec t' | TImVec t' | TArray _ t' | TOption t' | TBound t' | TSet _ t' | THeap t' | TWrap t' => lean t'
  | _ => true
  end.
(** The fields that are skipped one by one. *)
Definition lean_env (E : env) : Prop :=
  forall n s r h f, e_sch E n = Some s -> sent s r = Some h -> h_opt h = false ->
    In f (body_fields (s_body s)) -> falive r f = true -> f_fixed f = true \/ lean (f_ty f) = true.

Definition same_run {A} (p q : prog A) : Prop := forall bs, run p bs = run q bs.
Lemma same_bind : forall A B (p p' : prog A) (f f' : A -> prog B),
  same_run p p' -> (forall a, same_run (f a) (f' a)) -> same_run (bind p f) (bind p' f').
Proof. intros A B p p' f f' H Hf bs. rewrite !run_bind, H. destruct (run p' bs) as [[a r]|e|x]; auto. apply Hf. Qed.
Lemma same_refl : forall A (p : prog A), same_run p p.
Proof. intros A p bs. reflexivity. Qed.
Lemma same_rep : forall n (p q : prog unit), same_run p q -> same_run (rep_ n p) (rep_ n q).
Proof. induction n as [|n IH]; intros p q H; cbn [rep_]; [apply same_refl|]. apply same_bind; auto. Qed.
Lemma same_seq : forall E m (p q : prog unit), same_run p q -> same_run (sk_seq (set_mem m E) p) (sk_seq E q).
Proof. intros. apply same_bind; [apply same_refl|]. intros n. apply same_rep. assumption. Qed.
Lemma same_sk_ty : forall E m rec rec' drec drec' t, (forall n, same_run (rec n) (rec' n)) -> lean t = true ->
  same_run (sk_ty (set_mem m E) rec drec t) (sk_ty E rec' drec' t).
Proof.
  intros E m rec rec' drec drec' t Hr. induction t; intros L; cbn [lean] in L; try discriminate L; cbn [sk_ty];
    try (apply same_refl).
  - apply andb_prop in L. destruct L. apply same_bind; auto.
  - change (e_spec (set_mem m E)) with (e_spec E). destruct (if e_spec E then bulk_of t else None); [apply same_refl|apply same_seq; auto].
  - apply same_seq; auto.
  - apply same_rep; auto.
  - apply same_bind; [apply same_refl|]. intros b. destruct (b =? 0); [apply same_refl|]. destruct (b =? 1); [auto|apply same_refl].
  - apply andb_prop in L. destruct L. apply same_bind; [apply same_refl|]. intros b. destruct (b =? 0); [auto|]. destruct (b =? 1); [auto|apply same_refl].
  - apply same_bind; [apply same_refl|]. intros b. destruct (b =? 0); [apply same_refl|]. destruct (b =? 1); [auto|]. destruct (b =? 2); [auto|apply same_refl].
  - apply andb_prop in L. destruct L. apply same_seq, same_bind; auto.
  - apply same_seq; auto.
  - apply same_seq; auto.
  - auto.
  - apply andb_prop in L. destruct L as [L1 L2]. apply negb_true_iff in L1. subst. auto.
  - apply Hr.
Qed.
Lemma same_sk_fields : forall E m rec rec' drec drec' cur fs, (forall n, same_run (rec n) (rec' n)) ->
  (forall f, In f fs -> falive cur f = true -> f_fixed f = true \/ lean (f_ty f) = true) ->
  same_run (sk_fields (set_mem m E) rec drec cur fs) (sk_fields E rec' drec' cur fs).
Proof.
  intros E m rec rec' drec drec' cur fs Hr. induction fs as [|f fs IH]; intros H; cbn [sk_fields]; [apply same_refl|].
  assert (IH' := IH (fun g Hg => H g (or_intror Hg))). destruct (falive cur f) eqn:Ef; [|exact IH'].
  apply same_bind; [|intros; exact IH']. destruct (H f (or_introl eq_refl) Ef) as [->|L]; [apply same_refl|].
  destruct (f_fixed f); [apply same_refl|]. apply same_sk_ty; auto.
Qed.
(** Skipping under any limit on single allocations, even 0, is skipping without limit. *)
Theorem C16_skip_needs_no_memory : forall E m d t bs, lean_env E -> lean t = true ->
  run (skip (set_mem m E) d t) bs = run (skip E d t) bs.
Proof.
  intros E m d t bs He Ht. apply same_sk_ty; [|exact Ht]. clear Ht t bs. induction d as [|d IH]; intros n; cbn [sk_ref]; [apply same_refl|].
  change (e_sch (set_mem m E) n) with (e_sch E n). destruct (e_sch E n) as [s|] eqn:Es; [|apply same_refl].
  apply same_bind; [apply same_refl|]. intros r. unfold sk_body. destruct (sent s r) as [h|] eqn:Eh; [|apply same_refl].
  pose proof (fun f => He n s r h f Es Eh) as Hf.
  destruct (s_body s) as [fs|vs]; destruct (h_opt h); cbn [body_fields] in Hf; [apply same_refl| |apply same_refl|].
  - apply same_sk_fields; [exact IH|]. intros f Hi Ha. apply Hf; auto.
  - unfold sk_enum_legacy. destruct (calc_disc r vs) as [ds|] eqn:Ed; [|apply same_refl].
    apply same_bind; [apply same_refl|]. intros x. destruct (find_disc x ds) as [[vr y]|] eqn:Ef; [|apply same_refl].
    apply same_sk_fields; [exact IH|]. intros f Hi Ha. apply Hf; auto. apply in_flat_map. exists vr. split; [|exact Hi].
    unfold find_disc in Ef. apply find_some in Ef. destruct Ef as [Hin _].
    apply (in_map fst) in Hin. rewrite (calc_disc_fst _ _ _ Ed) in Hin. apply filter_In in Hin. apply Hin.
Qed.
(** The exception: skipping a PathBuf allocates the length it reads, before reading the bytes. *)
Theorem C16_path_refuted : forall E d m n b rest, e_ub E <= 64 -> 0 < n < 2 ^ e_ub E -> m < n ->
  to_vec E d (TInt Usize) (VInt (Z.of_N n)) = Ok b ->
  run (skip (set_mem (Some m) E) d TPath) (b ++ rest) = Panic PMem.
Proof.
  intros E d m n b rest Hu Hn Hm H. apply to_vec_ok in H. destruct H as (ops & H & ->).
  unfold to_writer in H. cbn [ser_ty] in H. unfold sall in H. inversion H; subst.
  cbn [out flat_map wop_bytes]. unfold ser_int. rewrite N2Z.id, ?app_nil_r. unfold skip. cbn [sk_ty de_ty]. unfold de_str, de_len. cbn [set_mem e_fw e_ub].
  rewrite !run_bind, rt_usize by (try assumption; try apply Hn; destruct Hn; destruct (e_ub E); cbn in *; lia). destruct (N.eqb_spec n 0); [lia|]. rewrite run_bind. unfold alloc. cbn [set_mem e_mem].
  destruct (N.leb_spec n m); [lia|]. reflexivity.
Qed.

(** ** C19: skipping *)

Lemma run_header : forall E d r bs rest, run (deserialize E d (TInt U16)) bs = Ok (VInt (Z.of_N r), rest) ->
  run (de_u16 (e_fw E)) bs = Ok (r, rest).
Proof.
  intros E d r bs rest H. unfold deserialize in H. cbn [de_ty] in H. rewrite run_bind in H. unfold de_int in H. rewrite run_bind in H.
  destruct (run (de_u16 (e_fw E)) bs) as [[x y]| |]; cbn in H; try discriminate. inversion H; subst. f_equal. f_equal. lia.
Qed.
Theorem C19_skip_rejects : forall E d n s r bs rest,
  e_sch E n = Some s -> r = 0 \/ scur s < r ->
  run (deserialize E d (TInt U16)) bs = Ok (VInt (Z.of_N r), rest) ->
  run (skip E (S d) (TRef n)) bs = Err (EDeserialize MInvalidRevision)
  /\ skip_slice E (S d) (TRef n) bs = Err (EDeserialize MInvalidRevision)
  /\ run (skip_check E (S d) (TRef n)) bs = Err (EDeserialize MInvalidRevision)
  /\ skip_check_slice E (S d) (TRef n) bs = Err (EDeserialize MInvalidRevision).
Proof.
  intros E d n s r bs rest Hs Hr H.
  assert (K : run (skip E (S d) (TRef n)) bs = Err (EDeserialize MInvalidRevision)).
  { unfold skip. cbn [sk_ty sk_ref]. rewrite Hs. unfold sk_derived. rewrite run_bind, (run_header _ _ _ _ _ H).
    unfold sk_body, sent. destruct (r =? 0) eqn:E0; [reflexivity|].
    assert (Hn : nth_error (s_hist s) (N.to_nat (r - 1)) = None) by (apply nth_error_None; unfold scur, len in Hr; lia).
    rewrite Hn. reflexivity. }
  assert (C : run (skip_check E (S d) (TRef n)) bs = Err (EDeserialize MInvalidRevision)).
  { rewrite C14_skip_check_is_deserialize by reflexivity.
    rewrite (C19_deserialize_rejects E d n s r bs rest Hs Hr H). reflexivity. }
  split; [exact K|]. split; [|split; [exact C|unfold skip_check_slice; rewrite C; reflexivity]].
  unfold skip_slice. rewrite (fol_skip E (S d) (TRef n) (sr_new bs)). cbn [sr_new sr_inner]. rewrite K. reflexivity.
Qed.

(** ** C24 *)

(** An envelope: the revision, the length of the payload, the payload. *)
Definition envelope (hd p : bytes) : bytes := hd ++ le_bytes 4 (len p) ++ p.
Lemma app_Ok : forall A (p : prog A) bs a r x, run p bs = Ok (a, r) -> run p (bs ++ x) = Ok (a, r ++ x).
Proof. intros. apply run_app. assumption. Qed.
Lemma run_varlen : forall n rest, n < 2 ^ 32 -> run read_varlen_len (le_bytes 4 n ++ rest) = Ok (n, rest).
Proof.
  intros n rest H. unfold read_varlen_len. rewrite run_bind, run_read_n_app by (rewrite le_bytes_len; reflexivity).
  cbn [run]. rewrite le_val_bytes by exact H. reflexivity.
Qed.
Lemma run_hd : forall E d r hd x, run (deserialize E d (TInt U16)) hd = Ok (VInt (Z.of_N r), []) ->
  run (de_u16 (e_fw E)) (hd ++ x) = Ok (r, x).
Proof. intros E d r hd x H. apply run_header in H. apply (app_Ok _ _ _ _ _ x) in H. exact H. Qed.

(** What is written.  [hd] is the revision as any u16. *)
Theorem C24_struct_layout : forall E d n s fs h v b,
  e_sch E n = Some s -> s_body s = SStruct fs -> sent s (scur s) = Some h -> h_opt h = true ->
  to_vec E (S d) (TRef n) v = Ok b ->
  exists hd p, to_vec E d (TInt U16) (VInt (Z.of_N (scur s))) = Ok hd /\ b = envelope hd p /\ len p < 2 ^ 32.
Proof.
  intros E d n s fs h v b Hs Hb Hh Ho H. apply to_vec_ok in H. destruct H as (ops & H & ->).
  unfold to_writer in H. assert (H' : ser_ref E (S d) n v = Ok ops) by (destruct v; exact H). clear H.
  cbn [ser_ref] in H'. rewrite Hs in H'. unfold ser_derived in H'. rewrite Hh, Hb in H'. unfold ser_struct in H'. rewrite Ho in H'.
  destruct v; try discriminate H'. unfold ser_struct_opt, ser_payload in H'.
  destruct (rmapM ser_bytes (ser_fields E (ser_ref E d) true (scur s) fs l)) as [bs|e|x]; try discriminate H'. cbn [rbind] in H'.
  set (p := (if h_idx h then struct_offsets (4 * len bs) bs else []) ++ concat bs) in *. clearbody p.
  destruct (N.ltb_spec (len p) (2 ^ 32)) as [Hp|]; [|discriminate H']. unfold sall, sbind in H'. cbn [rbind] in H'. inversion H'; subst.
  exists (ser_u16 (e_fw E) (scur s)), p. split; [|split; [|exact Hp]].
  - unfold to_vec, to_writer. cbn [ser_ty]. unfold ser_int. rewrite N2Z.id. unfold ser_bytes, sall. cbn [rmap out flat_map wop_bytes]. rewrite app_nil_r. reflexivity.
  - unfold envelope, out. cbn [app flat_map wop_bytes]. rewrite app_nil_r. reflexivity.
Qed.
Theorem C24_struct_skip : forall E d n s fs r h hd p rest,
  e_sch E n = Some s -> s_body s = SStruct fs -> sent s r = Some h -> h_opt h = true ->
  run (deserialize E d (TInt U16)) hd = Ok (VInt (Z.of_N r), []) -> len p < 2 ^ 32 ->
  run (skip E (S d) (TRef n)) (envelope hd p ++ rest) = Ok (tt, rest).
Proof.
  intros E d n s fs r h hd p rest Hs Hb Hh Ho H Hp. unfold skip. cbn [sk_ty sk_ref]. rewrite Hs. unfold sk_derived, envelope.
  rewrite <- !app_assoc, run_bind, (run_hd E d r hd _ H). unfold sk_body. rewrite Hh, Hb, Ho. unfold sk_struct_opt.
  rewrite run_bind, run_varlen by exact Hp. apply run_advance_app. reflexivity.
Qed.
(** Bytes [x] added at the end of the payload by a later version are skipped when reading. *)
Theorem C24_struct_extra_bytes : forall E d n s fs r h hd p v x rest,
  e_mem E = None ->
  e_sch E n = Some s -> s_body s = SStruct fs -> sent s r = Some h -> h_opt h = true ->
  run (deserialize E d (TInt U16)) hd = Ok (VInt (Z.of_N r), []) -> len (p ++ x) < 2 ^ 32 ->
  run (deserialize E (S d) (TRef n)) (envelope hd p) = Ok (v, []) ->
  run (deserialize E (S d) (TRef n)) (envelope hd (p ++ x) ++ rest) = Ok (v, rest).
Proof.
  intros E d n s fs r h hd p v x rest Hm Hs Hb Hh Ho H Hp. unfold deserialize. cbn [de_ty de_ref]. rewrite Hs. unfold de_derived, envelope.
  rewrite <- !app_assoc, !run_bind, !(run_hd E d r hd _ H). unfold de_body. rewrite Hh, Hb, Ho. unfold de_struct_opt.
  rewrite len_app in Hp |- *. rewrite !run_bind. rewrite run_varlen by lia. rewrite run_varlen by lia. unfold alloc. rewrite Hm. cbn [bind].
  rewrite !run_bind. rewrite <- (app_nil_r p) at 2. rewrite run_read_n_app by reflexivity.
  replace (p ++ x ++ rest) with ((p ++ x) ++ rest) by (rewrite app_assoc; reflexivity).
  rewrite run_read_n_app by (rewrite len_app; reflexivity). unfold in_buf. rewrite !run_of_res.
  destruct (run (struct_payload E (de_ref E d) (h_idx h) r (scur s) fs) p) as [[w y]|e|z] eqn:Ew; try discriminate.
  apply (app_Ok _ _ _ _ _ x) in Ew. rewrite Ew. cbn [rmap fst]. intros Hv. inversion Hv; subst. reflexivity.
Qed.
(** Reading always lands behind the payload. *)
Theorem C24_struct_read : forall E d n s fs r h hd p v rest y,
  e_sch E n = Some s -> s_body s = SStruct fs -> sent s r = Some h -> h_opt h = true ->
  run (deserialize E d (TInt U16)) hd = Ok (VInt (Z.of_N r), []) -> len p < 2 ^ 32 ->
  run (deserialize E (S d) (TRef n)) (envelope hd p ++ rest) = Ok (v, y) -> y = rest.
Proof.
  intros E d n s fs r h hd p v rest y Hs Hb Hh Ho H Hp. unfold deserialize. cbn [de_ty de_ref]. rewrite Hs. unfold de_derived, envelope.
  rewrite <- !app_assoc, !run_bind, !(run_hd E d r hd _ H). unfold de_body. rewrite Hh, Hb, Ho. unfold de_struct_opt.
  rewrite !run_bind. rewrite run_varlen by lia. rewrite run_bind.
  destruct (run (alloc E (len p)) (p ++ rest)) as [[a z]|e|q] eqn:Ea; try discriminate. apply alloc_ok in Ea. subst z.
  rewrite run_bind, run_read_n_app by reflexivity. intros Hv. apply still_in_buf in Hv. exact Hv.
Qed.

(** Variants: the tag stands before the length. *)
Definition variant_envelope (hd : bytes) (tag : N) (p : bytes) : bytes := hd ++ tag :: le_bytes 4 (len p) ++ p.
Lemma run_tag : forall tag x, run read_tag (tag :: x) = Ok (tag, x).
Proof. intros. apply run_read_byte_cons. Qed.
Theorem C24_variant_layout : forall E d n s h vs vr v b,
  wf_env E -> e_sch E n = Some s -> sent s (scur s) = Some h -> h_opt h = true ->
  s_body s = SEnum vs -> In vr vs -> v_size vr = Some SVarlen ->
  to_vec E (S d) (TRef n) (VVar (v_name vr) v) = Ok b ->
  exists hd tag p, to_vec E d (TInt U16) (VInt (Z.of_N (scur s))) = Ok hd /\ b = variant_envelope hd tag p
    /\ size_class tag = Ok CVarlen /\ len p < 2 ^ 32.
Proof.
  intros E d n s h vs vr v b W Es Eh Ho Eb Hin Hk H.
  apply to_vec_ok in H. destruct H as (ops & H & ->).
  unfold to_writer in H. cbn [ser_ty ser_ref] in *. rewrite Es in *.
  unfold ser_derived in H. rewrite Eh, Eb in H.
  apply sbind_ok in H. destruct H as (l1 & l2 & H1 & H2 & ->). inversion H1; subst l1. clear H1.
  pose proof (we_sch _ W _ _ Es) as (_ & _ & Wb). rewrite Eb in Wb. destruct Wb as (Wn & _ & Wr).
  cbn [ser_enum] in H2. destruct (calc_disc (scur s) vs) as [ds|] eqn:Ed; [|discriminate].
  destruct (find_name (v_name vr) ds) as [[vr' dd]|] eqn:Ef; [|discriminate]. rewrite Ho in H2.
  apply find_name_in in Ef. destruct Ef as [Hi Hn].
  pose proof (calc_disc_fst _ _ _ Ed) as Hfst.
  assert (Hv : In vr' (filter (valive (scur s)) vs)) by (rewrite <- Hfst; apply in_map_iff; exists (vr', dd); auto).
  apply filter_In in Hv. destruct Hv as [Hv _].
  assert (vr' = vr) by (eapply NoDup_map_inj; [exact Wn| | |]; eauto). subst vr'.
  unfold ser_variant_opt in H2. rewrite Hk in H2.
  apply sbind_ok in H2. destruct H2 as (l3 & l4 & H3 & H4 & ->).
  apply rbind_ok in H4. destruct H4 as (bs & Hbs & H4). unfold ser_payload in H4.
  destruct (N.ltb_spec (len (concat bs)) (2 ^ 32)) as [Hp|]; [|discriminate]. inversion H4; subst. clear H4.
  apply rbind_ok in H3. destruct H3 as (tag & Ht & H3). inversion H3; subst. clear H3.
  unfold tag_new_checked in Ht. destruct (e_dbg E && negb (dd <? 32)); inversion Ht; subst. clear Ht.
  assert (Hd : dd < 32).
  { destruct (Wr _ _ Eh) as (ds' & Ed' & _ & Hopt). rewrite Ed in Ed'. inversion Ed'; subst ds'.
    specialize (Hopt Ho). rewrite forallb_forall in Hopt. specialize (Hopt _ Hi). unfold opt_variant_ok in Hopt. cbn [fst snd] in Hopt.
    rewrite Hk in Hopt. apply andb_prop in Hopt. destruct Hopt as [Hd _]. apply N.ltb_lt in Hd. exact Hd. }
  exists (ser_u16 (e_fw E) (scur s)), (tag_new dd CVarlen), (concat bs). split; [|split; [|split; [|exact Hp]]].
  - unfold to_vec, to_writer. cbn [ser_ty]. unfold ser_int. rewrite N2Z.id. unfold ser_bytes, sall. cbn [rmap out flat_map wop_bytes]. rewrite app_nil_r. reflexivity.
  - unfold variant_envelope, out. cbn [app flat_map wop_bytes]. rewrite app_nil_r. reflexivity.
  - apply tag_round, Hd.
Qed.
(** The identifier of the variant is not looked at. *)
Theorem C24_variant_skip : forall E d n s vs r h hd tag p rest,
  wf_env E -> e_sch E n = Some s -> s_body s = SEnum vs -> sent s r = Some h -> h_opt h = true ->
  run (deserialize E d (TInt U16)) hd = Ok (VInt (Z.of_N r), []) -> size_class tag = Ok CVarlen -> len p < 2 ^ 32 ->
  run (skip E (S d) (TRef n)) (variant_envelope hd tag p ++ rest) = Ok (tt, rest).
Proof.
  intros E d n s vs r h hd tag p rest W Hs Hb Hh Ho H Ht Hp. unfold skip. cbn [sk_ty sk_ref]. rewrite Hs. unfold sk_derived, variant_envelope.
  rewrite <- !app_assoc, run_bind, (run_hd E d r hd _ H). unfold sk_body. rewrite Hh, Hb, Ho. unfold sk_enum_opt.
  pose proof (we_sch _ W _ _ Hs) as (_ & _ & Wb). rewrite Hb in Wb. destruct Wb as (_ & _ & Wr). destruct (Wr _ _ Hh) as (ds & Hds & _). rewrite Hds.
  cbn [app]. rewrite run_bind, run_tag, run_bind, run_of_res, Ht. cbn [rmap].
  rewrite <- app_assoc, run_bind, run_varlen by exact Hp. apply run_advance_app. reflexivity.
Qed.
Theorem C24_variant_extra_bytes : forall E d n s vs r h hd tag p v x rest,
  e_mem E = None -> e_sch E n = Some s -> s_body s = SEnum vs -> sent s r = Some h -> h_opt h = true ->
  run (deserialize E d (TInt U16)) hd = Ok (VInt (Z.of_N r), []) -> size_class tag = Ok CVarlen -> len (p ++ x) < 2 ^ 32 ->
  run (deserialize E (S d) (TRef n)) (variant_envelope hd tag p) = Ok (v, []) ->
  run (deserialize E (S d) (TRef n)) (variant_envelope hd tag (p ++ x) ++ rest) = Ok (v, rest).
Proof.
  intros E d n s vs r h hd tag p v x rest Hm Hs Hb Hh Ho H Ht Hp. unfold deserialize. cbn [de_ty de_ref]. rewrite Hs. unfold de_derived, variant_envelope.
  rewrite <- !app_assoc, !run_bind, !(run_hd E d r hd _ H). unfold de_body. rewrite Hh, Hb, Ho. unfold de_enum_opt.
  destruct (calc_disc r vs) as [ds|]; [|discriminate]. unfold read_optimised_tag. cbn [app].
  rewrite !run_bind, !run_tag, !run_bind, !run_of_res, Ht. cbn [rmap run fst snd].
  destruct (find_tag (variant_id tag) CVarlen ds) as [[vr dd]|] eqn:Ef; [|discriminate].
  unfold find_tag in Ef. apply find_some in Ef. destruct Ef as [_ Hc]. cbn [fst snd] in Hc. apply andb_prop in Hc. destruct Hc as [_ Hc].
  unfold de_variant_opt. destruct (v_size vr) as [[|k|]|]; try discriminate Hc. cbn [variant_buf].
  rewrite len_app in Hp |- *. rewrite <- app_assoc. rewrite !run_bind. rewrite run_varlen by lia. rewrite run_varlen by lia. unfold alloc. rewrite Hm. cbn [bind].
  replace (p ++ x) with ((p ++ x) ++ []) by apply app_nil_r. rewrite <- (app_nil_r p) at 2. rewrite run_read_n_app by reflexivity.
  rewrite <- !app_assoc. cbn [app]. replace (p ++ x ++ rest) with ((p ++ x) ++ rest) by (rewrite app_assoc; reflexivity).
  rewrite run_read_n_app by (rewrite len_app; reflexivity). rewrite !run_bind. unfold in_buf. rewrite !run_of_res.
  destruct (run (de_vfields E (de_ref E d) r (v_fields vr)) p) as [[w y]|e|z] eqn:Ew; try discriminate.
  apply (app_Ok _ _ _ _ _ x) in Ew. rewrite Ew. cbn [rmap fst].
  destruct (valive (scur s) vr); [intros Hv; inversion Hv; reflexivity|]. rewrite !run_of_res.
  destruct (v_convert vr w r); cbn [rmap]; intros Hv; inversion Hv; reflexivity.
Qed.
Theorem C24_variant_read : forall E d n s vs r h hd tag p v rest y,
  e_sch E n = Some s -> s_body s = SEnum vs -> sent s r = Some h -> h_opt h = true ->
  run (deserialize E d (TInt U16)) hd = Ok (VInt (Z.of_N r), []) -> size_class tag = Ok CVarlen -> len p < 2 ^ 32 ->
  run (deserialize E (S d) (TRef n)) (variant_envelope hd tag p ++ rest) = Ok (v, y) -> y = rest.
Proof.
  intros E d n s vs r h hd tag p v rest y Hs Hb Hh Ho H Ht Hp. unfold deserialize. cbn [de_ty de_ref]. rewrite Hs. unfold de_derived, variant_envelope.
  rewrite <- !app_assoc, !run_bind, !(run_hd E d r hd _ H). unfold de_body. rewrite Hh, Hb, Ho. unfold de_enum_opt.
  destruct (calc_disc r vs) as [ds|]; [|discriminate]. unfold read_optimised_tag. cbn [app].
  rewrite !run_bind, !run_tag, !run_bind, !run_of_res, Ht. cbn [rmap run fst snd].
  destruct (find_tag (variant_id tag) CVarlen ds) as [[vr dd]|] eqn:Ef; [|discriminate].
  unfold find_tag in Ef. apply find_some in Ef. destruct Ef as [_ Hc]. cbn [fst snd] in Hc. apply andb_prop in Hc. destruct Hc as [_ Hc].
  unfold de_variant_opt. destruct (v_size vr) as [[|k|]|]; try discriminate Hc. cbn [variant_buf].
  rewrite <- app_assoc. rewrite !run_bind. rewrite run_varlen by lia. rewrite run_bind.
  destruct (run (alloc E (len p)) (p ++ rest)) as [[a z]|e|q] eqn:Ea; try discriminate. apply alloc_ok in Ea. subst z.
  rewrite run_read_n_app by reflexivity. intros Hv. apply still_bind in Hv; [exact Hv|apply still_in_buf|].
  intros l. destruct (valive (scur s) vr); [apply still_ret|apply still_of_res].
Qed.

(** ** C48: skipping a [fixed(N)] variant passes over [N] bytes, whatever they are. *)
Theorem C48_skip_fixed : forall E d n s vs r h ds vr N hd tag p rest,
  e_sch E n = Some s -> s_body s = SEnum vs -> sent s r = Some h -> h_opt h = true ->
  calc_disc r vs = Some ds -> In (vr, variant_id tag) ds -> v_size vr = Some (SFixed N) -> size_class tag = Ok CFixed ->
  run (deserialize E d (TInt U16)) hd = Ok (VInt (Z.of_N r), []) -> len p = N ->
  run (skip E (S d) (TRef n)) (hd ++ tag :: p ++ rest) = Ok (tt, rest).
Proof.
  intros E d n s vs r h ds vr N hd tag p rest Hs Hb Hh Ho Hd Hi Hv Ht H Hp. unfold skip. cbn [sk_ty sk_ref]. rewrite Hs. unfold sk_derived.
  rewrite run_bind, (run_hd E d r hd _ H). unfold sk_body. rewrite Hh, Hb, Ho. unfold sk_enum_opt. rewrite Hd.
  rewrite run_bind, run_tag, run_bind, run_of_res, Ht. cbn [rmap].
  rewrite (size_table_nth ds vr _ N (calc_disc_nodup _ _ _ Hd) Hi Hv (variant_id_lt tag)). apply run_advance_app. auto.
Qed.

(** ** C29 *)

(** [m] passes exactly over [b], whatever follows and wherever the reader stands. *)
Definition passes (M : N) (m : sm unit) (b : bytes) : Prop :=
  forall rest o, len (b ++ rest) < M -> m (mkSR (b ++ rest) o) = Ok (tt, mkSR rest o).
Lemma passes_nil : forall M, passes M (sm_ret tt) [].
Proof. intros M rest o _. reflexivity. Qed.
Lemma passes_bind : forall M m f b c, passes M m b -> (forall a, passes M (f a) c) -> passes M (sm_bind m f) (b ++ c).
Proof.
  intros M m f b c Hm Hf rest o H. unfold sm_bind. rewrite <- app_assoc in *. rewrite Hm by exact H. apply Hf. rewrite len_app in H. lia.
Qed.
Lemma passes_rep : forall M m bs, Forall (passes M m) bs -> passes M (sm_rep (length bs) m) (concat bs).
Proof.
  induction bs as [|b bs IH]; intros H; cbn [length sm_rep concat]; [apply passes_nil|]. inversion H; subst. apply passes_bind; auto.
Qed.
Lemma passes_run : forall M p b, (forall rest, len (b ++ rest) < M -> run p (b ++ rest) = Ok (tt, rest)) -> passes M (sr_run p) b.
Proof. intros M p b H rest o Hl. rewrite sr_run_run. cbn [sr_inner sr_orig]. rewrite H by exact Hl. reflexivity. Qed.
Lemma passes_advance : forall M n b, len b = n -> passes M (sm_op (sr_advance n)) b.
Proof. intros M n b <- rest o _. unfold sm_op, sr_advance, sr_consume. cbn [sr_inner sr_orig]. rewrite split_at_app. reflexivity. Qed.
Lemma sm_run_bind : forall A (p : prog A) (f : A -> sm unit) x a y o,
  run p x = Ok (a, y) -> sm_bind (sr_run p) f (mkSR x o) = f a (mkSR y o).
Proof. intros A p f x a y o H. unfold sm_bind. rewrite sr_run_run. cbn [sr_inner sr_orig]. rewrite H. reflexivity. Qed.

Lemma passes_skip : forall E d a v b, wf_env E -> sizes_honest E -> e_mem E = None -> spec_built E ->
  wt E d a v -> to_vec E d a v = Ok b -> passes (2 ^ e_ub E) (sr_run (skip E d a)) b.
Proof.
  intros E d a v b W Hh Hm Hs Hw H. apply passes_run. intros rest Hl.
  exact (C12_skip_encoding E d a v b rest W Hh Hm Hs Hw Hl H).
Qed.
Lemma last_offset : forall bs b, exists T, le32s (starts 0 (bs ++ [b])) = T ++ le_bytes 4 (len (concat bs)) /\ len T = (len (bs ++ [b]) - 1) * 4.
Proof.
  intros bs b. exists (le32s (starts 0 bs)). rewrite starts_app, le32s_app. cbn [starts]. rewrite N.add_0_l. unfold le32s at 2. cbn [flat_map].
  rewrite app_nil_r. split; [reflexivity|]. rewrite len_le32s, len_app. unfold len. rewrite starts_length. cbn [length]. lia.
Qed.
Lemma idx_seq_passes : forall E d a bs out, e_ub E <= 64 -> len bs < 2 ^ e_ub E ->
  Forall (passes (2 ^ e_ub E) (sr_run (skip E d a))) bs -> len out < 2 ^ 32 ->
  enc_idx_seq bs = Ok out -> passes (2 ^ e_ub E) (skip_indexed_seq E d a) out.
Proof.
  intros E d a bs out Hu Hb Hp Hl H rest o Hm. unfold enc_idx_seq in H. cbv zeta in H. unfold skip_indexed_seq.
  destruct (N.ltb_spec (len bs) OFFSET_TABLE_MIN_LEN) as [Hn|Hn].
  - inversion H; subst. clear H. cbn [app] in Hm |- *. rewrite (sm_run_bind _ _ _ _ _ _ _ (run_read_byte_cons _ _)).
    rewrite <- app_assoc in *. rewrite len_cons, !len_app in Hm.
    rewrite (sm_run_bind _ _ _ _ _ _ _ (run_read_varint E (len bs) _ Hu Hb)). cbn [N.land N.eqb].
    unfold len at 1. rewrite Nat2N.id. apply (passes_rep _ _ _ Hp). rewrite len_app. lia.
  - destruct (offsets 0 bs) as [[os e]|] eqn:Eo; [|discriminate]. inversion H; subst. clear H.
    rewrite len_cons, !len_app in Hl. apply offsets_spec in Eo; [|apply pieces_small; lia]. destruct Eo as (-> & _ & _).
    cbn [app] in Hm |- *. rewrite (sm_run_bind _ _ _ _ _ _ _ (run_read_byte_cons _ _)).
    rewrite <- !app_assoc in *. rewrite len_cons, !len_app in Hm.
    rewrite (sm_run_bind _ _ _ _ _ _ _ (run_read_varint E (len bs) _ Hu Hb)). change (N.land FLAG_INDEXED 1 =? 0) with false. cbv iota.
    unfold OFFSET_TABLE_MIN_LEN in Hn. destruct (N.eqb_spec (len bs) 0) as [H0|_]; [lia|].
    assert (HT : len (le32s (starts 0 bs)) = len bs * 4) by (rewrite len_le32s; unfold len; rewrite starts_length; lia).
    destruct (N.ltb_spec (len bs * 4) (2 ^ e_ub E)) as [_|]; [|lia].
    destruct (exists_last (l := bs)) as (bs' & b & ->); [intros ->; cbn in Hn; lia|].
    unfold sm_bind at 1. unfold sr_peek. cbn [sr_inner]. rewrite <- HT, split_at_app. cbn [rmap].
    apply Forall_app in Hp. destruct Hp as [_ Hp]. inversion Hp as [|x y Hb' _]; subst.
    assert (Hc : concat (bs' ++ [b]) = concat bs' ++ b) by (rewrite concat_app; cbn [concat]; rewrite app_nil_r; reflexivity).
    assert (Hcl : len (concat (bs' ++ [b])) = len (concat bs') + len b) by (rewrite Hc, len_app; reflexivity).
    rewrite Hc. rewrite Hcl in Hl, Hm.
    destruct (last_offset bs' b) as (T & HTe & HTl). rewrite <- HTl.
    assert (Hlast : skipn (N.to_nat (len T)) (le32s (starts 0 (bs' ++ [b]))) = le_bytes 4 (len (concat bs'))).
    { rewrite HTe. unfold len at 1. rewrite Nat2N.id, skipn_app, skipn_all, Nat.sub_diag. reflexivity. }
    rewrite Hlast, le_val_bytes by (change (len (concat bs') < 2 ^ 32); lia). rewrite <- app_assoc.
    unfold sm_bind at 1. rewrite (passes_advance (2 ^ e_ub E) _ _ eq_refl) by (rewrite !len_app; lia).
    unfold sm_bind. rewrite (passes_advance (2 ^ e_ub E) _ (concat bs') eq_refl) by (rewrite !len_app; lia).
    apply Hb'. rewrite len_app. lia.
Qed.
Lemma idx_map_passes : forall E d a b ps out, e_ub E <= 64 -> len ps < 2 ^ e_ub E ->
  Forall (fun p => passes (2 ^ e_ub E) (sr_run (skip E d a)) (fst p)) ps ->
  Forall (fun p => passes (2 ^ e_ub E) (sr_run (skip E d b)) (snd p)) ps -> len out < 2 ^ 32 ->
  enc_idx_map ps = Ok out -> passes (2 ^ e_ub E) (skip_indexed_map E d a b) out.
Proof.
  intros E d a b ps out Hu Hb Hk Hv Hl H rest o Hm. unfold enc_idx_map in H. cbv zeta in H. unfold skip_indexed_map.
  destruct (N.ltb_spec (len ps) OFFSET_TABLE_MIN_LEN) as [Hn|Hn].
  - apply Ok_inj in H. subst out. cbn [app] in Hm |- *. rewrite (sm_run_bind _ _ _ _ _ _ _ (run_read_byte_cons _ _)).
    rewrite <- app_assoc in *. rewrite len_cons, !len_app in Hm.
    rewrite (sm_run_bind _ _ _ _ _ _ _ (run_read_varint E (len ps) _ Hu Hb)). cbn [N.land N.eqb].
    rewrite flat_map_concat_map in *. replace (N.to_nat (len ps)) with (length (map (fun p => fst p ++ snd p) ps)) by (unfold len; rewrite Nat2N.id, map_length; reflexivity).
    refine (passes_rep (2 ^ e_ub E) _ _ _ rest o _); [|rewrite len_app; lia].
    rewrite Forall_map. rewrite Forall_forall in *. intros p Hp. apply passes_bind; [apply Hk, Hp|]. intros _. apply Hv, Hp.
  - destruct (offsets 0 (map fst ps)) as [[ks ke]|] eqn:Ek; [|discriminate].
    destruct (offsets 0 (map snd ps)) as [[vs ve]|] eqn:Ev; [|discriminate]. apply Ok_inj in H. subst out.
    rewrite len_cons, !len_app in Hl. apply offsets_spec in Ek; [|apply pieces_small; lia]. destruct Ek as (-> & -> & Ek).
    apply offsets_spec in Ev; [|apply pieces_small; lia]. destruct Ev as (-> & -> & Ev). rewrite !N.add_0_l in *.
    cbn [app] in Hm |- *. rewrite (sm_run_bind _ _ _ _ _ _ _ (run_read_byte_cons _ _)).
    rewrite <- !app_assoc in *. rewrite len_cons, !len_app, !le_bytes_len in Hm. rewrite !le_bytes_len in Hl.
    rewrite (sm_run_bind _ _ _ _ _ _ _ (run_read_varint E (len ps) _ Hu Hb)). change (N.land FLAG_INDEXED 1 =? 0) with false. cbv iota.
    set (T := flat_map (fun p => le_bytes 4 (fst p) ++ le_bytes 4 (snd p)) (combine (starts 0 (map fst ps)) (starts 0 (map snd ps)))) in *.
    assert (HT : len T = len ps * 8).
    { unfold T. rewrite len_table8. unfold len. rewrite combine_length, !starts_length, !map_length. lia. }
    clearbody T. destruct (N.ltb_spec (len ps * 8) (2 ^ e_ub E)) as [_|]; [|lia].
    unfold sm_bind at 1. rewrite (passes_advance (2 ^ e_ub E) (len ps * 8) T HT) by (rewrite !len_app, !le_bytes_len; lia).
    rewrite (app_assoc (le_bytes 4 _)). 
    assert (H8 : forall x y, len (le_bytes 4 x ++ le_bytes 4 y) = 8) by (intros; rewrite len_app, !le_bytes_len; reflexivity).
    rewrite (sm_run_bind _ (read_n 8) _ _ _ _ _ (run_read_n_app _ _ _ (eq_sym (H8 _ _)))).
    cbv zeta. rewrite (firstn_app_exact _ 4), (skipn_app_exact _ 4) by (rewrite le_bytes_length; reflexivity).
    rewrite !le_val_bytes by (first [apply Ek|apply Ev]; reflexivity).
    destruct (N.ltb_spec (len (concat (map fst ps)) + len (concat (map snd ps))) (2 ^ e_ub E)) as [_|]; [|lia].
    rewrite app_assoc. apply (passes_advance (2 ^ e_ub E)); rewrite ?len_app; [reflexivity|lia].
Qed.
Lemma elems_pass : forall E d a l bs, wf_env E -> sizes_honest E -> e_mem E = None -> spec_built E ->
  (forall v, In v l -> wt E d a v) -> rmapM (fun x => ser_bytes (ser_ty E (ser_ref E d) a x)) l = Ok bs ->
  Forall (passes (2 ^ e_ub E) (sr_run (skip E d a))) bs.
Proof.
  intros E d a l bs W Hh Hm Hs Hw H. apply rmapM_ok in H. apply Forall_forall. intros b Hb.
  induction H as [|x y l bs Hx H IH]; [destruct Hb|]. destruct Hb as [->|Hb]; [|apply IH; [intros; apply Hw; right; assumption|exact Hb]].
  apply passes_skip with x; auto. apply Hw. left. reflexivity.
Qed.
Lemma perm_forall : forall A (P : A -> Prop) l l', Permutation l l' -> Forall P l -> Forall P l'.
Proof. intros A P l l' H. rewrite !Forall_forall. intros Hf x Hx. apply Hf. eapply Permutation_in; [apply Permutation_sym; exact H|exact Hx]. Qed.

(** [o]: the length the reader was created with; everything before [bs] has been consumed. *)
Theorem C29_skip_indexed_seq : forall E d t a l bs rest o,
  wf_env E -> sizes_honest E -> e_mem E = None -> spec_built E ->
  t = TVec a \/ t = TImVec a -> wt E d t (VSeq l) -> len bs < 2 ^ 32 -> len (bs ++ rest) < 2 ^ e_ub E ->
  encode_field E d MIdxSeq t (VSeq l) = Ok bs ->
  skip_indexed_seq E d a (mkSR (bs ++ rest) o) = Ok (tt, mkSR rest o).
Proof.
  intros E d t a l bs rest o W Hh Hm Hs Ht Hw Hl Hlr H. revert rest o Hlr. change (passes (2 ^ e_ub E) (skip_indexed_seq E d a) bs).
  apply ser_bytes_ok in H. destruct H as (ops & H & ->). pose proof (we_ub _ W) as Hu.
  assert (K : exists es out', rmapM (fun x => ser_bytes (ser_ty E (ser_ref E d) a x)) l = Ok es /\ enc_idx_seq es = Ok out' /\ ops = [WAll out']
              /\ len l < 2 ^ e_ub E /\ (forall v, In v l -> wt E d a v)).
  { destruct Ht as [-> | ->]; cbn [ser_mode] in H; apply rbind_ok in H; destruct H as (es & He & H); apply rbind_ok in H; destruct H as (x & Hx & H);
      apply Ok_inj in H; subst ops; exists es, x; (split; [exact He|split; [exact Hx|split; [reflexivity|]]]);
      unfold wt in Hw; cbn [wt_ty] in Hw.
    - destruct Hw as (Hf & _ & Hw). split; [exact Hf|]. apply Forall_forall. exact Hw.
    - destruct Hw as (Hf & Hw). split; [exact Hf|]. apply Forall_forall. exact Hw. }
  destruct K as (es & x & He & Hx & -> & Hf & Hv). unfold out in *. cbn [flat_map wop_bytes] in *. rewrite app_nil_r in *.
  apply idx_seq_passes with es; auto; [lia| |eapply elems_pass; eassumption].
  apply rmapM_length in He. unfold len in *. rewrite <- He. exact Hf.
Qed.
Theorem C29_skip_indexed_set : forall E d k a l bs rest o,
  wf_env E -> sizes_honest E -> e_mem E = None -> spec_built E ->
  wt E d (TSet k a) (VSeq l) -> len bs < 2 ^ 32 -> len (bs ++ rest) < 2 ^ e_ub E ->
  encode_field E d MIdxSet (TSet k a) (VSeq l) = Ok bs ->
  skip_indexed_seq E d a (mkSR (bs ++ rest) o) = Ok (tt, mkSR rest o).
Proof.
  intros E d k a l bs rest o W Hh Hm Hs Hw Hl Hlr H. revert rest o Hlr. change (passes (2 ^ e_ub E) (skip_indexed_seq E d a) bs).
  apply ser_bytes_ok in H. destruct H as (ops & H & ->). pose proof (we_ub _ W) as Hu.
  cbn [ser_mode] in H; apply rbind_ok in H; destruct H as (es & He & H); apply rbind_ok in H; destruct H as (x & Hx & H).
  apply Ok_inj in H; subst ops. unfold wt in Hw; cbn [wt_ty] in Hw. destruct Hw as (Hf & Hw & _).
  assert (P : Permutation (citer E k (TSet k a) l) l) by (unfold citer; destruct k; [apply (we_iter _ W)|apply Permutation_refl]).
  unfold out in *. cbn [flat_map wop_bytes] in *. rewrite app_nil_r in *.
  apply idx_seq_passes with (ssort bcmp es); auto; [lia| |].
  - rewrite (perm_len _ _ _ (ssort_perm _ bcmp es)). apply rmapM_length in He. apply Permutation_length in P. unfold len, fits in *. rewrite <- He, P. exact Hf.
  - eapply perm_forall; [apply Permutation_sym, ssort_perm|]. eapply elems_pass; try eassumption.
    intros v Hv. rewrite Forall_forall in Hw. apply Hw. eapply Permutation_in; eassumption.
Qed.
Theorem C29_skip_indexed_map : forall E d k a b l bs rest o,
  wf_env E -> sizes_honest E -> e_mem E = None -> spec_built E ->
  wt E d (TMap k a b) (VSeq l) -> len bs < 2 ^ 32 -> len (bs ++ rest) < 2 ^ e_ub E ->
  encode_field E d MIdxMap (TMap k a b) (VSeq l) = Ok bs ->
  skip_indexed_map E d a b (mkSR (bs ++ rest) o) = Ok (tt, mkSR rest o).
Proof.
  intros E d k a b l bs rest o W Hh Hm Hs Hw Hl Hlr H. revert rest o Hlr. change (passes (2 ^ e_ub E) (skip_indexed_map E d a b) bs).
  apply ser_bytes_ok in H. destruct H as (ops & H & ->). pose proof (we_ub _ W) as Hu.
  cbn [ser_mode] in H; apply rbind_ok in H; destruct H as (es & He & H); apply rbind_ok in H; destruct H as (x & Hx & H).
  apply Ok_inj in H; subst ops. unfold wt in Hw; cbn [wt_ty] in Hw. destruct Hw as (Hf & Hw & _).
  assert (P : Permutation (citer E k (TMap k a b) l) l) by (unfold citer; destruct k; [apply (we_iter _ W)|apply Permutation_refl]).
  unfold out in *. cbn [flat_map wop_bytes] in *. rewrite app_nil_r in *.
  assert (F : Forall (fun p => passes (2 ^ e_ub E) (sr_run (skip E d a)) (fst p) /\ passes (2 ^ e_ub E) (sr_run (skip E d b)) (snd p)) (ssort key_cmp es)).
  { eapply perm_forall; [apply Permutation_sym, ssort_perm|]. apply (perm_forall _ _ _ _ (Permutation_sym P)) in Hw.
    apply rmapM_ok in He. clear - He Hw W Hh Hm Hs. remember (citer E k (TMap k a b) l) as cl eqn:Ecl. clear Ecl l. induction He as [|p q l es Hp _ IH]; constructor; inversion Hw as [|xx yy Hp1 Hp2]; subst; auto.
    destruct p as [ | | | |p1 p2| |]; try contradiction. cbn [pre_entry] in Hp. apply rbind_ok in Hp. destruct Hp as (kb & Hk & Hp). apply rbind_ok in Hp. destruct Hp as (vb & Hv & Hp).
    apply Ok_inj in Hp. subst q. cbn [fst snd]. destruct Hp1 as [H1 H2].
    split; [exact (passes_skip E d a p1 kb W Hh Hm Hs H1 Hk)|exact (passes_skip E d b p2 vb W Hh Hm Hs H2 Hv)]. }
  apply idx_map_passes with (ssort key_cmp es); auto; [lia| | |].
  - rewrite (perm_len _ _ _ (ssort_perm _ key_cmp es)). apply rmapM_length in He. apply Permutation_length in P. unfold len, fits in *. rewrite <- He, P. exact Hf.
  - eapply Forall_impl; [|exact F]. intros p Hp. apply Hp.
  - eapply Forall_impl; [|exact F]. intros p Hp. apply Hp.
Qed.

(** ** Cases *)

Example spec_built_new : spec_built new.
Proof. intros n s f _ _ _. reflexivity. Qed.
Example C12_case : run (skip new 2 (TRef 1)) (u_new_bytes ++ [9]) = Ok (tt, [9])
  /\ skip_slice new 2 (TRef 1) (u_new_bytes ++ [9]) = Ok 180.
Proof. split; vm_compute; reflexivity. Qed.
(** Not the encoding of any value: 3 as a five byte varint, in a revision 1 user. *)
Definition odd_bytes : bytes := [1; 252; 1; 0; 0; 0; 97; 41; 0; 0; 0; 253; 1; 0; 0; 0; 0; 0; 0; 0; 255; 255].
Example C12_non_canonical : run (deserialize new 1 (TRef 1)) (odd_bytes ++ [9]) = Ok (VSeq [a_str [97]; VSeq [VInt 65535]; VSeq []; VInt 42; VVar 0 []], [9])
  /\ run (skip new 1 (TRef 1)) (odd_bytes ++ [9]) = Ok (tt, [9]) /\ len (odd_bytes ++ [9]) < 2 ^ e_ub new.
Proof. split; [|split]; vm_compute; reflexivity. Qed.
(** Without the feature specialised-vectors, the derived skip of a [specialised] field reads varints. *)
Definition bulky : schema := mkSchema [mkHent false false]
  (SStruct [mkField (TVec (TInt U16)) 1 None (dflt VUnit) keep false true INone]).
Definition no_feature : env := mkEnv false false true 64 None (fun _ => 8) (fun _ => vcmp) (fun _ l => l) (fun b => b) (fun _ v => Some v) (2 ^ 62)%Z
  (fun n => if n =? 0 then Some bulky else None).
Theorem C12_specialised_refuted : wf_env no_feature /\
  exists v b, wt no_feature 1 (TRef 0) v /\ to_vec no_feature 1 (TRef 0) v = Ok b /\ from_slice no_feature 1 (TRef 0) b = Ok v
    /\ run (skip no_feature 1 (TRef 0)) b = Err EInvalidInt.
Proof.
  split.
  - constructor; cbn [no_feature e_ub e_cmp e_iter e_dec e_ext e_time e_sch].
    + auto.
    + intros; apply vcmp_lawful.
    + intros; apply Permutation_refl.
    + auto.
    + auto.
    + lia.
    + intros n s. destruct (n =? 0); intros H; inversion H; subst. apply wf_schemab_ok. vm_compute. reflexivity.
  - exists (VSeq [VSeq [VInt 255]]), [1; 1; 255; 0]. split; [apply wtb_ok; vm_compute; reflexivity|]. split; [|split]; vm_compute; reflexivity.
Qed.
Example C13_case : skip_slice new 0 TStr (251 :: [0; 16] ++ repeat 97 4096) = Ok 4099
  /\ skip_slice new 0 TStr (251 :: [0; 16] ++ repeat 97 4095) = Err EIo
  /\ run (skip new 0 TStr) (251 :: [0; 16] ++ repeat 97 4095) = Err EIo.
Proof. split; [|split]; vm_compute; reflexivity. Qed.
Example C14_case : run (skip_check new 2 (TPair (TRef 1) (TArray 2 TChar))) (u_new_bytes ++ [65; 66; 9]) = Ok (tt, [9])
  /\ skip_check_slice new 2 (TPair (TRef 1) (TArray 2 TChar)) (u_new_bytes ++ [65; 66; 9]) = Ok 182
  /\ run (skip_check new 0 TStr) [1; 255] = Err EUtf8 /\ run (skip new 0 TStr) [1; 255] = Ok (tt, []).
Proof. split; [|split; [|split]]; vm_compute; reflexivity. Qed.
Example lean_new : lean_env new.
Proof.
  intros n s r h f Hs Hh Ho Hi Ha. right. cbn [new ex_env e_sch] in Hs. unfold sch3 in Hs.
  destruct (n =? 1); [|destruct (n =? 2)]; inversion Hs; subst; cbn in Hi; repeat (destruct Hi as [<-|Hi]; [reflexivity|]); destruct Hi.
Qed.
(** A declared string of 2^32 - 1 bytes: skipping ends where the input does, deserialising allocates. *)
Example C16_case : lean (TMap KHash TStr (TVec (TRef 1))) = true
  /\ run (skip (set_mem (Some 0) new) 0 TStr) [252; 255; 255; 255; 255; 97] = Err EIo
  /\ run (deserialize (set_mem (Some 1000) new) 0 TStr) [252; 255; 255; 255; 255; 97] = Panic PMem
  /\ run (skip (set_mem (Some 0) new) 2 (TRef 1)) (u_new_bytes ++ [9]) = Ok (tt, [9]).
Proof.
  split; [reflexivity|]. split; [|split; vm_compute; reflexivity].
  rewrite C16_skip_needs_no_memory by (try apply lean_new; reflexivity).
  pose proof (C13_slice_skip new 0 TStr [252; 255; 255; 255; 255; 97]) as H.
  assert (K : skip_on_slice new 0 TStr (sr_new [252; 255; 255; 255; 255; 97]) = Err EIo) by (vm_compute; reflexivity).
  rewrite K in H. destruct (run (skip new 0 TStr) [252; 255; 255; 255; 255; 97]) as [[]|e|x]; try contradiction. subst e. reflexivity.
Qed.
Example C19_skip_case : run (skip new 1 (TRef 1)) [251; 255; 255; 0] = Err (EDeserialize MInvalidRevision).
Proof. apply (C19_skip_rejects new 0 1 user3 65535 _ [0]); [reflexivity|right; reflexivity|vm_compute; reflexivity]. Qed.
(** A revision 3 user with two more bytes than this program knows, and an unknown variant. *)
Definition known : bytes := skipn 5 u_new_bytes.
Example C24_case : u_new_bytes = envelope [3] known
  /\ run (deserialize new 2 (TRef 1)) (envelope [3] (known ++ [7; 7]) ++ [9]) = Ok (u_new, [9])
  /\ run (skip new 2 (TRef 1)) (envelope [3] (known ++ [7; 7]) ++ [9]) = Ok (tt, [9])
  /\ to_vec new 1 (TRef 2) (VVar 2 [VInt 1; VInt 2]) = Ok (variant_envelope [2] 65 [1; 2])
  /\ run (deserialize new 1 (TRef 2)) (variant_envelope [2] 65 [1; 2; 3] ++ [9]) = Ok (VVar 2 [VInt 1; VInt 2], [9])
  /\ run (skip new 1 (TRef 2)) (variant_envelope [2] 95 [1; 2; 3] ++ [9]) = Ok (tt, [9]).
Proof. repeat split; vm_compute; reflexivity. Qed.
Example C29_case : skip_indexed_map new 0 TStr (TInt U64) (sr_new (scores_bytes ++ [9])) = Ok (tt, mkSR [9] 110)
  /\ skip_indexed_seq new 0 (TInt U16) (sr_new (ports_bytes ++ [9])) = Ok (tt, mkSR [9] 65).
Proof. split; vm_compute; reflexivity. Qed.
Example C48_skip_case : run (skip new 1 (TRef 2)) ([2] ++ 32 :: [255; 255; 255; 255; 255; 255; 255; 255] ++ [9]) = Ok (tt, [9]).
Proof.
  apply (C48_skip_fixed new 0 2 shape2 (match s_body shape2 with SEnum vs => vs | _ => [] end) 2 (mkHent true false)
           (match calc_disc 2 (match s_body shape2 with SEnum vs => vs | _ => [] end) with Some ds => ds | None => [] end)
           (var 0 1 None (Some (SFixed 8)) [fld TF64 1 None]) 8); try reflexivity. left. reflexivity.
Qed.

Print Assumptions C12_skip_consumes_what_deserialize_consumes.
Print Assumptions C12_skip_encoding.
Print Assumptions C12_specialised_refuted.
Print Assumptions C13_slice_skip.
Print Assumptions C13_skip_slice.
Print Assumptions C13_any_reader.
Print Assumptions C14_skip_check_is_deserialize.
Print Assumptions C14_accepts.
Print Assumptions C14_skip_check_slice.
Print Assumptions C14_system_time_refuted.
Print Assumptions C16_skip_needs_no_memory.
Print Assumptions C16_path_refuted.
Print Assumptions C19_skip_rejects.
Print Assumptions C24_struct_layout.
Print Assumptions C24_struct_skip.
Print Assumptions C24_struct_extra_bytes.
Print Assumptions C24_struct_read.
Print Assumptions C24_variant_layout.
Print Assumptions C24_variant_skip.
Print Assumptions C24_variant_extra_bytes.
Print Assumptions C24_variant_read.
Print Assumptions C29_skip_indexed_seq.
Print Assumptions C29_skip_indexed_set.
Print Assumptions C29_skip_indexed_map.
Print Assumptions C48_skip_fixed.
