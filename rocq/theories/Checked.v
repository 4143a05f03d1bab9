(** Debug and release builds: the same outcome, or a failed check of the debug build.  Proofs. *)

From Verif Require Import Base BaseL Prog ProgL Prim PrimL Utf8 Tag Ty Ser De Typed Parts Agree Spec SliceReader Skip SkipIdx SkipL SkipFormL Walk Calls Hand.
From Coq Require Import List NArith ZArith Bool Lia.
Import ListNotations.
Open Scope N_scope.

(** A failed [debug_assert] or an arithmetic overflow. *)
Definition check (x : pan) : Prop := x = PAssert \/ x = POverflow.
Definition rd {A} (r r' : res A) : Prop := r = r' \/ exists x, check x /\ r = Panic x.

Lemma rd_refl : forall A (r : res A), rd r r.
Proof. left. reflexivity. Qed.
Lemma rd_bind : forall A B (r r' : res A) (f f' : A -> res B), rd r r' -> (forall a, rd (f a) (f' a)) -> rd (rbind r f) (rbind r' f').
Proof. intros A B r r' f f' [->|(x & Hx & ->)] H; [|right; exists x; split; [exact Hx|reflexivity]]. destruct r'; [apply H|apply rd_refl..]. Qed.
Lemma rd_map : forall A B (g : A -> B) r r', rd r r' -> rd (rmap g r) (rmap g r').
Proof. intros A B g r r' [->|(x & Hx & ->)]; [left; reflexivity|right; exists x; split; [exact Hx|reflexivity]]. Qed.
Lemma rd_app : forall a b a' b' : ser, rd a a' -> rd b b' -> rd (a +++ b) (a' +++ b').
Proof. intros a b a' b' [->|(x & Hx & ->)] H; [|right; exists x; split; [exact Hx|reflexivity]]. unfold sbind. destruct a'; [|apply rd_refl..]. destruct H as [->|(x & Hx & ->)]; [left; reflexivity|right; exists x; split; [exact Hx|reflexivity]]. Qed.
Lemma rd_concat : forall l l' : list ser, Forall2 rd l l' -> rd (sconcat l) (sconcat l').
Proof. intros l l' H. induction H as [|x y l l' H H' IH]; [apply rd_refl|]. apply (rd_app x _ y _ H IH). Qed.
Lemma rd_mapM : forall A B (f f' : A -> res B) l, (forall x, rd (f x) (f' x)) -> rd (rmapM f l) (rmapM f' l).
Proof.
  intros A B f f' l H. induction l as [|x l IH]; [apply rd_refl|]. cbn [rmapM]. apply rd_bind; [apply H|]. intros y. apply rd_bind; [exact IH|]. intros z. apply rd_refl.
Qed.
Lemma rd_bytes : forall s s' : ser, rd s s' -> rd (ser_bytes s) (ser_bytes s').
Proof. intros s s' H. apply rd_map, H. Qed.
Lemma rd_all : forall l l' : list ser, Forall2 rd l l' -> rd (rmapM ser_bytes l) (rmapM ser_bytes l').
Proof.
  intros l l' H. induction H as [|x y l l' H H' IH]; [apply rd_refl|]. cbn [rmapM]. apply rd_bind; [apply rd_bytes, H|]. intros b. apply rd_bind; [exact IH|]. intros z. apply rd_refl.
Qed.
Lemma rd_each : forall A (f f' : A -> ser) l, (forall x, rd (f x) (f' x)) -> Forall2 rd (map f l) (map f' l).
Proof. intros A f f' l H. induction l as [|x l IH]; [constructor|]. cbn [map]. constructor; [apply H|exact IH]. Qed.

Ltac rsame := match goal with |- rd ?m ?m => apply rd_refl end.

Section Enc.
Variable E0 : env.
Local Notation E := (set_lim (e_mem E0) true E0).
Local Notation E' := (set_lim (e_mem E0) false E0).
Variables rec rec' : N -> val -> ser.
Hypothesis Hr : forall n v, rd (rec n v) (rec' n v).

Lemma rd_ty : forall t v, rd (ser_ty E rec t v) (ser_ty E' rec' t v).
Proof.
  induction t; intros v; destruct v; cbn [ser_ty]; change (e_spec E') with (e_spec E); change (e_fw E') with (e_fw E); change (ser_bulk E') with (ser_bulk E); change (ser_len E') with (ser_len E); change (citer E') with (citer E); change (e_iter E') with (e_iter E); change (ser_blob E') with (ser_blob E); try rsame; try apply IHt; try apply Hr;
    try (apply rd_app; [apply IHt1|apply IHt2]);
    try (destruct (if e_spec E then bulk_of t else None); [apply rd_refl|]);
    try (destruct (Nat.eqb _ _); [|apply rd_refl]);
    try (apply rd_app; [apply rd_refl|]; apply rd_concat, rd_each; exact IHt); try (apply rd_concat, rd_each; exact IHt).
  - destruct k as [|[]]; try rsame. destruct l as [|x [|]]; try rsame. apply rd_app; [apply rd_refl|apply IHt].
  - destruct k as [|[]]; try rsame; destruct l as [|x [|]]; try rsame; (apply rd_app; [apply rd_refl|]); [apply IHt1|apply IHt2].
  - destruct k as [|[[]|[]|]]; try rsame; destruct l as [|x [|]]; try rsame; (apply rd_app; [apply rd_refl|]); apply IHt.
  - apply rd_app; [apply rd_refl|]. apply rd_concat, rd_each. intros []; cbn [ser_entry]; try rsame. apply rd_app; [apply IHt1|apply IHt2].
Qed.
Lemma rd_mode : forall m t v, rd (ser_mode E rec m t v) (ser_mode E' rec' m t v).
Proof.
  intros m t v. destruct m; cbn [ser_mode]; change (ser_bulk E') with (ser_bulk E); change (citer E') with (citer E); try apply rd_ty; try rsame; destruct t; try rsame; destruct v; try rsame;
    (apply rd_bind; [|intros; apply rd_refl]); apply rd_mapM; intros x; try (apply rd_bytes, rd_ty).
  destruct x; cbn [pre_entry]; try rsame. apply rd_bind; [apply rd_bytes, rd_ty|]. intros kb. apply rd_bind; [apply rd_bytes, rd_ty|]. intros vb. apply rd_refl.
Qed.
Lemma rd_fields : forall opt r fs vs, Forall2 rd (ser_fields E rec opt r fs vs) (ser_fields E' rec' opt r fs vs).
Proof.
  intros opt r. induction fs as [|f fs IH]; intros vs; cbn [ser_fields].
  - destruct vs; constructor; [apply rd_refl|constructor].
  - destruct (falive r f); [|apply IH]. destruct vs as [|v vs]; constructor; [apply rd_refl|constructor|apply rd_mode|apply IH].
Qed.
Lemma rd_vfields : forall r fs vs, Forall2 rd (ser_vfields E rec r fs vs) (ser_vfields E' rec' r fs vs).
Proof.
  intros r. induction fs as [|f fs IH]; intros vs; cbn [ser_vfields].
  - destruct vs; constructor; [apply rd_refl|constructor].
  - destruct (falive r f); [|apply IH]. destruct vs as [|v vs]; constructor; [apply rd_refl|constructor|apply rd_ty|apply IH].
Qed.
Lemma rd_derived : forall s v, rd (ser_derived E rec s v) (ser_derived E' rec' s v).
Proof.
  intros s v. unfold ser_derived. change (e_fw E') with (e_fw E). destruct (sent s (scur s)) as [h|]; [|apply rd_refl]. apply rd_app; [apply rd_refl|]. destruct (s_body s) as [fs|vs].
  - unfold ser_struct. destruct v; try rsame. destruct (h_opt h); [|apply rd_concat, rd_fields]. unfold ser_struct_opt. apply rd_bind; [apply rd_all, rd_fields|]. intros bs. apply rd_refl.
  - unfold ser_enum. change (e_fw E') with (e_fw E). destruct v; try rsame. destruct (calc_disc _ _) as [ds|]; [|apply rd_refl]. destruct (find_name _ _) as [[vr d]|]; [|apply rd_refl]. destruct (h_opt h).
    + unfold ser_variant_opt. change (e_dbg E) with true. change (e_dbg E') with false.
      assert (T : forall c, rd (rbind (tag_new_checked true d c) write_tag) (rbind (tag_new_checked false d c) write_tag)).
      { intros c. unfold tag_new_checked. cbn [andb]. destruct (negb _); [right; exists PAssert; split; [left; reflexivity|reflexivity]|apply rd_refl]. }
      destruct (v_size vr) as [[|n|]|]; [apply T| | |apply rd_refl]; (apply rd_app; [apply T|]); (apply rd_bind; [apply rd_all, rd_vfields|]); intros bs; [|apply rd_refl].
      cbv zeta. cbn [andb]. destruct (negb _); [right; exists PAssert; split; [left; reflexivity|reflexivity]|apply rd_refl].
    + apply rd_app; [apply rd_refl|]. apply rd_concat, rd_fields.
Qed.
End Enc.

Section Build.
Variable E1 : env.
Variable D : nat.
Local Notation E := (set_lim (e_mem E1) true E1).
Local Notation E0 := (set_lim (e_mem E1) false E1).

Lemma rd_ref : forall d n v, rd (ser_ref E d n v) (ser_ref E0 d n v).
Proof.
  induction d as [|d IH]; intros n v; [apply rd_refl|]. cbn [ser_ref]. change (e_sch E0 n) with (e_sch E n).
  destruct (e_sch E n) as [s|]; [|apply rd_refl]. apply (rd_derived E1). exact IH.
Qed.
Lemma rd_writer : forall d t v, rd (to_writer E d t v) (to_writer E0 d t v).
Proof. intros d t v. apply (rd_ty E1). exact (rd_ref d). Qed.

(** ** Decoding and skipping *)
Lemma chk_of : forall A (p q : prog A), agree (eq POverflow) p q -> agree check p q.
Proof. intros A p q H bs. destruct (H bs) as [K|(x & <- & K)]; [left; exact K|right]. exists POverflow. split; [right; reflexivity|exact K]. Qed.
Lemma chk_dec : forall d t, agree check (deserialize E d t) (deserialize E0 d t).
Proof. intros d t. apply chk_of, (dbg_agree E1). Qed.
Lemma chk_de_ref : forall d n, agree check (de_ref E d n) (de_ref E0 d n).
Proof. intros d n. exact (chk_dec d (TRef n)). Qed.
Lemma chk_alloc : forall n, agree check (alloc E n) (alloc E0 n).
Proof. intros n. apply agree_refl. Qed.
Lemma chk_add8 : forall n, agree check (add8 E n) (add8 E0 n).
Proof.
  intros n bs. unfold add8. cbn [set_lim e_ub e_dbg]. destruct (n + 8 <? 2 ^ e_ub E1); [left; reflexivity|].
  right. exists POverflow. split; [right; reflexivity|reflexivity].
Qed.
Section Mem.
Variables (rec rec' : N -> prog unit) (drec drec' : N -> prog val).
Hypothesis Hr : forall n, agree check (rec n) (rec' n).
Hypothesis Hd : forall n, agree check (drec n) (drec' n).
Lemma chk_de_ty : forall t, agree check (de_ty E drec t) (de_ty E0 drec' t).
Proof. intros t. apply (agree_ty _ E (e_mem E1) false); [apply chk_alloc|exact Hd]. Qed.
Lemma chk_drop : forall t, agree check (de_ty E drec t ;;; Ret tt) (de_ty E0 drec' t ;;; Ret tt).
Proof. intros t. apply agree_bind; [apply chk_de_ty|intros; apply agree_refl]. Qed.
Lemma chk_sk_ty : forall t, agree check (sk_ty E rec drec t) (sk_ty E0 rec' drec' t).
Proof.
  assert (Q : forall p q, agree check p q -> agree check (sk_seq E p) (sk_seq E0 q)).
  { intros p q H. apply agree_bind; [apply agree_refl|]. intros n. apply agree_rep_. exact H. }
  induction t; cbn [sk_ty]; try apply chk_drop; try apply agree_refl; try (apply Q; assumption); try assumption.
  - apply agree_bind; auto.
  - change (e_spec E0) with (e_spec E). destruct (if e_spec E then bulk_of t else None); [apply agree_refl|apply Q; assumption].
  - apply agree_rep_. assumption.
  - apply agree_bind; [apply agree_refl|]. intros b. destruct (b =? 0); [apply agree_refl|]. destruct (b =? 1); [assumption|apply agree_refl].
  - apply agree_bind; [apply agree_refl|]. intros b. destruct (b =? 0); [assumption|]. destruct (b =? 1); [assumption|apply agree_refl].
  - apply agree_bind; [apply agree_refl|]. intros b. destruct (b =? 0); [apply agree_refl|]. destruct (b =? 1); [assumption|].
    destruct (b =? 2); [assumption|apply agree_refl].
  - apply Q, agree_bind; auto.
  - destruct mirror; [apply chk_drop|assumption].
  - apply Hr.
Qed.
Lemma chk_sk_fields : forall cur fs, agree check (sk_fields E rec drec cur fs) (sk_fields E0 rec' drec' cur fs).
Proof.
  intros cur fs. induction fs as [|f fs IH]; cbn [sk_fields]; [apply agree_refl|].
  destruct (falive cur f); [|exact IH]. apply agree_bind; [|intros; exact IH].
  destruct (f_fixed f); [apply agree_refl|]. apply chk_sk_ty.
Qed.
Lemma chk_sc_ty : forall t, agree check (sc_ty E drec t) (sc_ty E0 drec' t).
Proof.
  induction t; cbn [sc_ty]; try apply chk_drop; try apply agree_refl.
  - apply agree_bind; auto.
  - apply agree_rep_. assumption.
Qed.
End Mem.
Lemma chk_sk_ref : forall d n, agree check (sk_ref E d n) (sk_ref E0 d n).
Proof.
  induction d as [|d IH]; intros n; cbn [sk_ref]; [apply agree_refl|]. change (e_sch E0 n) with (e_sch E n).
  destruct (e_sch E n) as [s|]; [|apply agree_refl]. apply agree_bind; [apply agree_refl|]. intros r. unfold sk_body.
  destruct (sent s r) as [h|]; [|apply agree_refl]. pose proof (chk_de_ref d) as Dd.
  destruct (s_body s) as [fs|vs]; destruct (h_opt h); [apply agree_refl|apply chk_sk_fields; assumption|apply agree_refl|].
  unfold sk_enum_legacy. destruct (calc_disc r vs) as [ds|]; [|apply agree_refl]. apply agree_bind; [apply agree_refl|]. intros x.
  destruct (find_disc x ds) as [[vr ?]|]; [apply chk_sk_fields; assumption|apply agree_refl].
Qed.
Lemma chk_skip : forall d t, agree check (skip E d t) (skip E0 d t).
Proof. intros d t. apply chk_sk_ty; [apply chk_sk_ref|apply chk_de_ref]. Qed.
Lemma chk_skip_check : forall d t, agree check (skip_check E d t) (skip_check E0 d t).
Proof. intros d t. apply chk_sc_ty, chk_de_ref. Qed.
Lemma chk_idx_map : forall d a b, agree check (p_idx_map E d a b) (p_idx_map E0 d a b).
Proof.
  intros d a b. unfold p_idx_map. apply agree_bind; [apply agree_refl|]. intros f. apply agree_bind; [apply agree_refl|]. intros n.
  destruct (_ =? 0); [|apply agree_refl]. apply agree_rep_, agree_bind; [apply chk_skip|intros; apply chk_skip].
Qed.
Lemma chk_idx_seq : forall d a, agree check (p_idx_seq E d a) (p_idx_seq E0 d a).
Proof.
  intros d a. unfold p_idx_seq. apply agree_bind; [apply agree_refl|]. intros f. apply agree_bind; [apply agree_refl|]. intros n.
  destruct (_ =? 0); [apply agree_rep_, chk_skip|]. destruct (n =? 0); [apply agree_refl|]. change (e_ub E0) with (e_ub E).
  destruct (_ <? _); [|apply agree_refl]. apply agree_bind; [apply agree_refl|]. intros table. apply agree_bind; [apply agree_refl|]. intros _. apply chk_skip.
Qed.

(** ** Walking *)
Definition wc {A} (m m' : sm A) : Prop := forall s, rd (m s) (m' s).
Lemma wc_refl : forall A (m : sm A), wc m m.
Proof. intros A m s. left. reflexivity. Qed.
Lemma wc_bind : forall A B (m m' : sm A) (f f' : A -> sm B), wc m m' -> (forall a, wc (f a) (f' a)) -> wc (sm_bind m f) (sm_bind m' f').
Proof.
  intros A B m m' f f' Hm Hf s. unfold sm_bind. destruct (Hm s) as [->|(x & Hx & ->)]; [|right; exists x; split; [exact Hx|reflexivity]].
  destruct (m' s) as [[a s']|e|x]; [apply Hf|left; reflexivity..].
Qed.
Lemma wc_map : forall A B (g : A -> B) (m m' : sm A), wc m m' -> wc (sm_map g m) (sm_map g m').
Proof. intros A B g m m' H. apply wc_bind; [exact H|]. intros a. apply wc_refl. Qed.
Lemma wc_res : forall A (r r' : res A), rd r r' -> wc (sm_res r) (sm_res r').
Proof. intros A r r' H s. apply rd_map. exact H. Qed.
Lemma rd_run : forall A (p p' : prog A) bs, agree check p p' -> rd (run p bs) (run p' bs).
Proof. intros A p p' bs H. exact (H bs). Qed.
Lemma wc_follows : forall A (m m' : sm A) p p', follows m p -> follows m' p' -> agree check p p' -> wc m m'.
Proof.
  intros A m m' p p' F F' H s. rewrite (F s), (F' s). destruct (rd_run _ p p' (sr_inner s) H) as [->|(x & Hx & ->)]; [left; reflexivity|right; exists x; split; [exact Hx|reflexivity]].
Qed.
Lemma wc_run : forall A (p p' : prog A), agree check p p' -> wc (sr_run p) (sr_run p').
Proof. intros A p p' H. exact (wc_follows _ _ _ p p' (fol_run _ p) (fol_run _ p') H). Qed.
Lemma wc_rep : forall (m m' : sm unit), wc m m' -> forall n, wc (sm_rep n m) (sm_rep n m').
Proof. intros m m' H. induction n as [|n IH]; cbn [sm_rep]; [apply wc_refl|]. apply wc_bind; [exact H|]. intros _. exact IH. Qed.
Lemma wc_slice : forall A (p p' : prog A) b c, agree check p p' -> wc (on_slice p b c) (on_slice p' b c).
Proof. intros A p p' b c H. unfold on_slice. destruct (split_at c b) as [[x y]|]; [|apply wc_refl]. apply wc_res, rd_map, rd_run, H. Qed.
Lemma wc_consumed : forall (m m' : sm unit), wc m m' -> wc (sm_consumed m) (sm_consumed m').
Proof. intros m m' H s. unfold sm_consumed. destruct (H s) as [->|(x & Hx & ->)]; [left; reflexivity|right; exists x; split; [exact Hx|reflexivity]]. Qed.

Ltac same := match goal with |- wc ?m ?m => apply wc_refl end.

Lemma chk_mode : forall d mo t, agree check (de_mode E (de_ref E d) mo t) (de_mode E0 (de_ref E0 d) mo t).
Proof. intros d mo t. apply (agree_mode _ E (e_mem E1) false); [apply chk_alloc|apply chk_add8|]. intros n. apply chk_de_ref. Qed.
Lemma chk_body : forall d s r, agree check (de_body E (de_ref E d) s r) (de_body E0 (de_ref E0 d) s r).
Proof.
  intros d s r.
  assert (HF : forall opt cur tgt fs, agree check (de_fields E (de_ref E d) opt cur tgt fs) (de_fields E0 (de_ref E0 d) opt cur tgt fs)).
  { intros. apply (agree_fields _ E (e_mem E1) false); [apply chk_alloc|apply chk_add8|]. intros n. apply chk_de_ref. }
  assert (HV : forall cur fs, agree check (de_vfields E (de_ref E d) cur fs) (de_vfields E0 (de_ref E0 d) cur fs)).
  { intros. apply (agree_vfields _ E (e_mem E1) false); [apply chk_alloc|]. intros n. apply chk_de_ref. }
  pose proof chk_alloc as Hal.
  unfold de_body. destruct (sent s r) as [h|]; [|apply agree_refl].
  destruct (s_body s) as [fs|vs].
  - unfold de_struct_opt, struct_payload, de_struct_legacy. change (e_ub E0) with (e_ub E). destruct (h_opt h), (h_idx h);
    repeat first [match goal with |- agree _ ?p ?p => apply agree_refl end | apply Hal | apply HF | apply agree_bind; [|intros ?] | apply agree_map_err | apply agree_in_buf
      | match goal with |- agree _ (if ?c then _ else _) (if ?c then _ else _) => destruct c end].
  - unfold de_enum_opt, de_enum_legacy, de_variant_opt, de_variant_legacy. destruct (h_opt h); (destruct (calc_disc r vs) as [ds|]; [|apply agree_refl]).
    + apply agree_bind; [apply agree_refl|]. intros ts. destruct (find_tag _ _ _) as [[vr k]|]; [|apply agree_refl].
      change (e_ub E0) with (e_ub E).
      apply agree_bind; [destruct (v_size vr) as [[]|]; cbn [variant_buf]|intros buf];
      repeat first [match goal with |- agree _ ?p ?p => apply agree_refl end | apply Hal | apply HV | apply agree_bind; [|intros ?] | apply agree_map_err | apply agree_in_buf
      | match goal with |- agree _ (if ?c then _ else _) (if ?c then _ else _) => destruct c end].
    + apply agree_bind; [apply agree_refl|]. intros x. destruct (find_disc _ _) as [[vr k]|]; [|apply agree_refl].
      repeat first [match goal with |- agree _ ?p ?p => apply agree_refl end | apply HF | apply agree_bind; [|intros ?]
      | match goal with |- agree _ (if ?c then _ else _) (if ?c then _ else _) => destruct c end].
Qed.
Lemma wc_dec : forall d t, wc (sr_run (deserialize E d t)) (sr_run (deserialize E0 d t)).
Proof. intros d t. apply wc_run, chk_dec. Qed.
Lemma wc_skip : forall d t, wc (sr_run (skip E d t)) (sr_run (skip E0 d t)).
Proof. intros d t. apply wc_run, chk_skip. Qed.
Lemma wc_skip_idx : forall d t, wc (skip_idx E d t) (skip_idx E0 d t).
Proof.
  intros d t. destruct t; cbn [skip_idx]; try same;
    first [exact (wc_follows _ _ _ _ _ (fol_idx_map E d _ _) (fol_idx_map E0 d _ _) (chk_idx_map d _ _))
          |exact (wc_follows _ _ _ _ _ (fol_idx_seq E d _) (fol_idx_seq E0 d _) (chk_idx_seq d _))].
Qed.
Lemma wc_wire_skip : forall d f, wc (wire_skip E d f) (wire_skip E0 d f).
Proof. intros d f. unfold wire_skip. destruct (is_idx f); [apply wc_skip_idx|apply wc_skip]. Qed.
Lemma wc_materialise : forall d s rev, wc (materialise E D d s rev) (materialise E0 D d s rev).
Proof. intros d s rev. unfold materialise. apply wc_bind; [apply wc_run, chk_body|]. intros v. apply wc_bind; [apply wc_res, rd_bytes, (rd_derived E1), rd_ref|]. intros b. apply wc_refl. Qed.
Lemma wc_enter : forall t d, wc (enter E D d t) (enter E0 D d t).
Proof.
  induction t; intros d; cbn [enter];
    match goal with |- wc (enter _ _ _ _) _ => apply IHt | |- wc (match d with O => _ | S _ => _ end) _ => idtac | |- _ => apply wc_refl end.
  destruct d as [|d]; [apply wc_refl|]. match goal with |- wc (match e_sch E ?n with _ => _ end) _ => change (e_sch E0 n) with (e_sch E n); destruct (e_sch E n) as [s|]; [|apply wc_refl] end. apply wc_map. unfold enter_derived. apply wc_bind; [apply wc_refl|]. intros rev. destruct (_ || _); [apply wc_refl|].
  destruct (s_body s) as [fs|vs].
  - unfold enter_struct. destruct (_ && _); [|apply wc_refl]. apply wc_bind; [apply wc_materialise|]. intros p. apply wc_refl.
  - unfold enter_enum. destruct (_ && _); [|apply wc_refl]. apply wc_bind; [apply wc_materialise|]. intros p. apply wc_refl.
Qed.
Lemma wc_field_decode : forall d r i f, wc (field_decode E D d r i f) (field_decode E0 D d r i f).
Proof.
  intros d r i f. destruct r as [rev|b fc|b c]; cbn [field_decode].
  - destruct (_ <=? _); [apply wc_map, wc_run, chk_mode|apply wc_refl].
  - apply wc_bind; [apply wc_refl|]. intros x. apply wc_map, wc_slice, chk_dec.
  - apply wc_map, wc_slice, chk_dec.
Qed.
Lemma wc_field_skip : forall d r f, wc (field_skip E D d r f) (field_skip E0 D d r f).
Proof.
  intros d r f. destruct r as [rev|b fc|b c]; cbn [field_skip].
  - destruct (_ <=? _); [apply wc_map, wc_wire_skip|apply wc_refl].
  - apply wc_refl.
  - apply wc_map, wc_slice, chk_skip.
Qed.
Lemma wc_field_view : forall d r i f, wc (field_view E D d r i f) (field_view E0 D d r i f).
Proof.
  intros d r i f. destruct r as [rev|b fc|b c]; cbn [field_view].
  - apply wc_map, wc_consumed, wc_skip_idx.
  - apply wc_refl.
  - apply wc_bind; [apply wc_slice, chk_dec|]. intros p. apply wc_map, wc_res, rd_bytes, (rd_mode E1), rd_ref.
Qed.
Lemma wc_field_bytes : forall d r i f, wc (field_bytes E D d r i f) (field_bytes E0 D d r i f).
Proof.
  intros d r i f. destruct r as [rev|b fc|b c]; cbn [field_bytes].
  - destruct (_ <=? _); [apply wc_map, wc_consumed, wc_wire_skip|apply wc_refl].
  - apply wc_refl.
  - apply wc_bind; [apply wc_slice, chk_dec|]. intros p. apply wc_map, wc_res, rd_bytes, (rd_ty E1), rd_ref.
Qed.
Lemma wc_skip_fields : forall d fs r, wc (skip_fields E D d r fs) (skip_fields E0 D d r fs).
Proof.
  intros d. induction fs as [|f fs IH]; intros r; cbn [skip_fields]; [apply wc_refl|]. apply wc_bind; [apply wc_field_skip|]. intros p. apply IH.
Qed.
Lemma wc_variant_decode : forall d r s vs k, wc (variant_decode E D d r s vs k) (variant_decode E0 D d r s vs k).
Proof.
  intros d r s vs k. unfold variant_decode. destruct (cur_variant s vs k) as [[|f [|g l]]|]; try same.
  destruct (is_variant r s vs k); [|apply wc_refl]. destruct r; [apply wc_map, wc_dec|..]; (apply wc_bind; [apply wc_refl|]; intros b'; apply wc_map, wc_slice, chk_dec).
Qed.
Lemma wc_variant_view : forall d r s vs k, wc (variant_view E D d r s vs k) (variant_view E0 D d r s vs k).
Proof.
  intros d r s vs k. unfold variant_view. destruct (cur_variant s vs k) as [[|f [|g l]]|]; try same.
  destruct (is_variant r s vs k); [|apply wc_refl]. destruct r; try same. apply wc_bind; [apply wc_dec|]. intros v. apply wc_map, wc_res, rd_bytes, (rd_ty E1), rd_ref.
Qed.
Definition inside (a : act) : Prop := match a with Walk w => forall d c, wc (act_on E D d c w) (act_on E0 D d c w) | _ => True end.
Lemma wc_act_in : forall a, (forall d c, wc (act_on E D d c a) (act_on E0 D d c a)) /\ inside a.
Proof.
  assert (En : forall w t d, (forall d c, wc (act_on E D d c w) (act_on E0 D d c w)) ->
    wc (sm_bind (enter E D d t) (fun p => act_on E D (fst p) (snd p) w)) (sm_bind (enter E0 D d t) (fun p => act_on E0 D (fst p) (snd p) w))).
  { intros w t d H. apply wc_bind; [apply wc_enter|]. intros p. apply H. }
  induction a; repeat match goal with H : _ /\ inside _ |- _ => let i := fresh "In" in destruct H as [H i] end;
    (split; [|first [exact I|exact IHa]]); intros d c; destruct c; cbn [act_on]; try same.
  - apply wc_map, wc_dec.
  - destruct (_ =? _); [apply wc_refl|apply wc_map, wc_dec].
  - destruct (_ =? _); apply wc_map, wc_dec.
  - apply wc_map, wc_skip.
  - destruct (_ =? _); [apply wc_map, wc_skip|apply wc_refl].
  - apply wc_map, wc_skip.
  - apply wc_refl.
  - apply En, IHa.
  - destruct (_ =? _); [apply IHa1|apply IHa2].
  - destruct (_ =? _); [apply IHa1|apply IHa2].
  - destruct k as [|[p|p|]]; try same. destruct (_ =? _); [apply wc_refl|apply En, IHa].
  - destruct k as [|[p|p|]]; try same; (destruct (_ =? _); try same; apply En, IHa).
  - destruct (_ =? _); [apply wc_refl|]. apply wc_bind; [apply IHa1|]. intros o. apply wc_map, IHa2.
  - destruct (_ =? _); [apply wc_refl|]. assert (G : wc (sm_bind (act_on E D d (CPos a) a1) (fun o => sm_bind (act_on E D d (CPos b) a2) (fun o' => sm_map (OCons (OCons o o')) (act_on E D d (CMap a b (n - 1)) a3))))
      (sm_bind (act_on E0 D d (CPos a) a1) (fun o => sm_bind (act_on E0 D d (CPos b) a2) (fun o' => sm_map (OCons (OCons o o')) (act_on E0 D d (CMap a b (n - 1)) a3))))).
    { apply wc_bind; [apply IHa1|]. intros o. apply wc_bind; [apply IHa2|]. intros o'. apply wc_map, IHa3. }
    destruct a1; [exact G|exact G|exact G|apply wc_refl|exact G..].
  - apply wc_map, wc_rep, wc_skip.
  - apply wc_map, wc_rep. apply wc_bind; [apply wc_skip|]. intros _. apply wc_skip.
  - destruct fs; apply wc_map, wc_skip_fields.
  - destruct fs as [|f fs]; [apply wc_refl|].
    assert (G : forall m m' : sm (obs * srepr), wc m m' -> wc (sm_bind m (fun p => sm_map (OCons (fst p)) (act_on E D d (CStruct (snd p) (i + 1) fs) a2)))
      (sm_bind m' (fun p => sm_map (OCons (fst p)) (act_on E0 D d (CStruct (snd p) (i + 1) fs) a2)))).
    { intros m m' H. apply wc_bind; [exact H|]. intros p. apply wc_map, IHa2. }
    destruct a1; try same.
    + apply G, wc_field_decode.
    + apply G, wc_field_skip.
    + destruct (is_idx f); [apply wc_refl|]. destruct r; try same. destruct (_ <=? _); [|apply wc_refl].
      apply wc_bind; [apply wc_enter|]. intros p. apply wc_bind; [|intros o; apply wc_map, IHa2].
      match goal with H : inside (Walk _) |- _ => apply H end.
    + destruct (is_idx f); [|apply wc_refl]. apply G, wc_field_view.
  - destruct (cur_variant s vs k); [|apply wc_refl]. destruct (is_variant r s vs k); [apply IHa1|apply IHa2].
  - destruct (cur_variant s vs k) as [[|f [|g l]]|]; try same. destruct (is_variant r s vs k); [|apply wc_refl]. destruct r; try same. apply En, IHa.
  - apply wc_variant_decode.
  - apply wc_variant_view.
Qed.
Lemma wc_act : forall a d c, wc (act_on E D d c a) (act_on E0 D d c a).
Proof. intros a. apply wc_act_in. Qed.
Lemma wc_walk : forall d t a, wc (walk_with E D d t a) (walk_with E0 D d t a).
Proof. intros d t a. apply wc_bind; [apply wc_enter|]. intros p. apply wc_act. Qed.

(** Finding in maps, [into_<field>_bytes], the generic walkers. *)
Lemma wc_into_bytes : forall d cs fs r i, wc (into_bytes_after E D d r i fs cs) (into_bytes_after E0 D d r i fs cs).
Proof.
  intros d. induction cs as [|c cs IH]; intros [|f fs] r i; cbn [into_bytes_after]; try same; [apply wc_field_bytes|].
  apply wc_bind; [destruct c; [apply wc_field_decode|apply wc_field_skip]|]. intros p. apply IH.
Qed.
Lemma wc_walk_into_bytes : forall d t cs, wc (walk_into_bytes E D d t cs) (walk_into_bytes E0 D d t cs).
Proof. intros d t cs. apply wc_bind; [apply wc_enter|]. intros [d' []]; cbn [fst snd]; try same. apply wc_into_bytes. Qed.
Lemma wc_past : forall d a b n, wc (sm_bind (sr_run (skip E d b)) (fun _ => sm_bind (sm_rep n (sm_bind (sr_run (skip E d a)) (fun _ => sr_run (skip E d b)))) (fun _ => sm_ret false)))
  (sm_bind (sr_run (skip E0 d b)) (fun _ => sm_bind (sm_rep n (sm_bind (sr_run (skip E0 d a)) (fun _ => sr_run (skip E0 d b)))) (fun _ => sm_ret false))).
Proof.
  intros d a b n. apply wc_bind; [apply wc_skip|]. intros _. apply wc_bind; [|intros; apply wc_refl]. apply wc_rep. apply wc_bind; [apply wc_skip|]. intros _. apply wc_skip.
Qed.
Lemma wc_find : forall d a b p n, wc (find_loop E d a b p n) (find_loop E0 d a b p n).
Proof.
  intros d a b p. induction n as [|n IH]; cbn [find_loop]; [apply wc_refl|]. apply wc_bind; [apply wc_dec|]. intros k.
  destruct (p k); [apply wc_refl| |apply wc_past]. apply wc_bind; [apply wc_skip|]. intros _. exact IH.
Qed.
Lemma wc_find_bytes : forall d a b p n, wc (find_bytes_loop E d a b p n) (find_bytes_loop E0 d a b p n).
Proof.
  intros d a b p. induction n as [|n IH]; cbn [find_bytes_loop]; [apply wc_refl|]. apply wc_bind; [apply wc_refl|]. intros m.
  apply wc_bind; [apply wc_refl|]. intros x. apply wc_bind; [apply wc_refl|]. intros _.
  destruct (p x); [apply wc_refl| |apply wc_past]. apply wc_bind; [apply wc_skip|]. intros _. exact IH.
Qed.
Lemma wc_map_find : forall d a b p w, wc (map_find E D d a b p w) (map_find E0 D d a b p w).
Proof.
  intros d a b p w. unfold map_find. apply wc_bind; [apply wc_refl|]. intros n. apply wc_bind; [apply wc_find|]. intros []; [apply wc_map, wc_act|apply wc_refl].
Qed.
Lemma wc_map_find_bytes : forall d a b p w, wc (map_find_bytes E D d a b p w) (map_find_bytes E0 D d a b p w).
Proof.
  intros d a b p w. unfold map_find_bytes. apply wc_bind; [apply wc_refl|]. intros n. apply wc_bind; [apply wc_find_bytes|]. intros []; [apply wc_map, wc_act|apply wc_refl].
Qed.
Lemma wc_hand : forall d ops h, wc (hand_run E D d ops h) (hand_run E0 D d ops h).
Proof.
  intros d. induction ops as [|o ops IH]; intros h; cbn [hand_run]; [apply wc_refl|]. apply wc_bind.
  - unfold hand_step. apply wc_bind; [|intros x; apply wc_bind; [apply wc_res|intros; apply wc_refl]; unfold hand_next; cbn [set_lim e_dbg andb]; destruct (_ <=? _); [right; exists POverflow; split; [right; reflexivity|reflexivity]|apply rd_refl]]. destruct o; cbn [hop_on]; [apply wc_map, wc_dec|apply wc_map, wc_skip|apply wc_walk].
  - intros p. apply wc_bind; [apply IH|]. intros q. apply wc_refl.
Qed.
Lemma wc_struct_by_hand : forall d choose, wc (struct_by_hand E D d choose) (struct_by_hand E0 D d choose).
Proof. intros d choose. apply wc_bind; [apply wc_refl|]. intros rev. apply wc_hand. Qed.
Lemma wc_enum_by_hand : forall d choose, wc (enum_by_hand E D d choose) (enum_by_hand E0 D d choose).
Proof.
  intros d choose. apply wc_bind; [apply wc_refl|]. intros rev. apply wc_bind; [apply wc_refl|]. intros w. apply wc_bind; [apply wc_hand|]. intros q. apply wc_refl.
Qed.
Lemma wc_call : forall d fs c r, wc (call E D d fs c r) (call E0 D d fs c r).
Proof.
  intros d fs c r. destruct c as [i|i|i|i w]; cbn [call]; (destruct (nth_error fs i) as [f|]; [|apply wc_refl]);
    [apply wc_field_decode|apply wc_field_skip| |]; (destruct (is_idx f); try same); [apply wc_field_view|].
  destruct r; try same. destruct (_ <=? _); [|apply wc_refl]. apply wc_bind; [apply wc_enter|]. intros p. apply wc_map, wc_act.
Qed.
Lemma wc_last : forall d fs c r, wc (last_call E D d fs c r) (last_call E0 D d fs c r).
Proof.
  intros d fs c r. destruct c as [i|i|i w]; cbn [last_call]; (destruct (nth_error fs i) as [f|]; [|apply wc_refl]);
    [apply wc_field_bytes| |]; (destruct (is_idx f); try same); [apply wc_map, wc_field_view|].
  destruct r; try same. destruct (_ <=? _); [|apply wc_refl]. apply wc_bind; [apply wc_enter|]. intros p. apply wc_act.
Qed.
End Build.
