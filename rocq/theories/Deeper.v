(** Encoding and walking with more stack.  Proofs. *)

From Verif Require Import Base BaseL Prog ProgL Prim PrimL Utf8 Tag Ty Ser De Typed Parts Agree Spec SliceReader Skip SkipIdx SkipL SkipTot SkipFormL Walk Calls Hand.
From Coq Require Import List NArith ZArith Bool Lia.
Import ListNotations.
Open Scope N_scope.

(** The same outcome, or an exhausted stack. *)
Definition rd {A} (r r' : res A) : Prop := r = r' \/ r = Panic PStack.

Lemma rd_refl : forall A (r : res A), rd r r.
Proof. left. reflexivity. Qed.
Lemma rd_bind : forall A B (r r' : res A) (f f' : A -> res B), rd r r' -> (forall a, rd (f a) (f' a)) -> rd (rbind r f) (rbind r' f').
Proof. intros A B r r' f f' [->| ->] H; [|right; reflexivity]. destruct r'; [apply H|apply rd_refl..]. Qed.
Lemma rd_map : forall A B (g : A -> B) r r', rd r r' -> rd (rmap g r) (rmap g r').
Proof. intros A B g r r' [->| ->]; [left|right]; reflexivity. Qed.
Lemma rd_app : forall a b a' b' : ser, rd a a' -> rd b b' -> rd (a +++ b) (a' +++ b').
Proof. intros a b a' b' [->| ->] H; [|right; reflexivity]. unfold sbind. destruct a'; [|apply rd_refl..]. destruct H as [->| ->]; [left; reflexivity|right; reflexivity]. Qed.
Lemma rd_concat : forall l l' : list ser, Forall2 rd l l' -> rd (sconcat l) (sconcat l').
Proof. intros l l' H. induction H as [|x y l l' H H' IH]; [apply rd_refl|]. apply (rd_app x _ y _ H IH). Qed.
Lemma rd_mapM : forall A B (f f' : A -> res B) l, (forall x, rd (f x) (f' x)) -> rd (rmapM f l) (rmapM f' l).
Proof.
  intros A B f f' l H. induction l as [|x l IH]; [apply rd_refl|]. cbn [rmapM]. apply rd_bind; [apply H|]. intros y. apply rd_bind; [exact IH|]. intros z. apply rd_refl.
Qed.
Lemma rd_bytes : forall s s' : ser, rd s s' -> rd (ser_bytes s) (ser_bytes s').
Proof. intros s s' H. apply rd_map, H. Qed.
Lemma rd_all : forall l l' : list ser, Forall2 rd l l' -> rd (rmapM ser_bytes l) (rmapM ser_bytes l').
Proof.
  intros l l' H. induction H as [|x y l l' H H' IH]; [apply rd_refl|]. cbn [rmapM]. apply rd_bind; [apply rd_bytes, H|]. intros b. apply rd_bind; [exact IH|]. intros z. apply rd_refl.
Qed.
Lemma rd_each : forall A (f f' : A -> ser) l, (forall x, rd (f x) (f' x)) -> Forall2 rd (map f l) (map f' l).
Proof. intros A f f' l H. induction l as [|x l IH]; [constructor|]. cbn [map]. constructor; [apply H|exact IH]. Qed.

Ltac rsame := match goal with |- rd ?m ?m => apply rd_refl end.

Section Enc.
Variable E : env.
Variables rec rec' : N -> val -> ser.
Hypothesis Hr : forall n v, rd (rec n v) (rec' n v).

Lemma rd_ty : forall t v, rd (ser_ty E rec t v) (ser_ty E rec' t v).
Proof.
  induction t; intros v; destruct v; cbn [ser_ty]; try rsame; try apply IHt; try apply Hr;
    try (apply rd_app; [apply IHt1|apply IHt2]);
    try (destruct (if e_spec E then bulk_of t else None); [apply rd_refl|]);
    try (destruct (Nat.eqb _ _); [|apply rd_refl]);
    try (apply rd_app; [apply rd_refl|]; apply rd_concat, rd_each; exact IHt); try (apply rd_concat, rd_each; exact IHt).
  - destruct k as [|[]]; try rsame. destruct l as [|x [|]]; try rsame. apply rd_app; [apply rd_refl|apply IHt].
  - destruct k as [|[]]; try rsame; destruct l as [|x [|]]; try rsame; (apply rd_app; [apply rd_refl|]); [apply IHt1|apply IHt2].
  - destruct k as [|[[]|[]|]]; try rsame; destruct l as [|x [|]]; try rsame; (apply rd_app; [apply rd_refl|]); apply IHt.
  - apply rd_app; [apply rd_refl|]. apply rd_concat, rd_each. intros []; cbn [ser_entry]; try rsame. apply rd_app; [apply IHt1|apply IHt2].
Qed.
Lemma rd_mode : forall m t v, rd (ser_mode E rec m t v) (ser_mode E rec' m t v).
Proof.
  intros m t v. destruct m; cbn [ser_mode]; try apply rd_ty; try rsame; destruct t; try rsame; destruct v; try rsame;
    (apply rd_bind; [|intros; apply rd_refl]); apply rd_mapM; intros x; try (apply rd_bytes, rd_ty).
  destruct x; cbn [pre_entry]; try rsame. apply rd_bind; [apply rd_bytes, rd_ty|]. intros kb. apply rd_bind; [apply rd_bytes, rd_ty|]. intros vb. apply rd_refl.
Qed.
Lemma rd_fields : forall opt r fs vs, Forall2 rd (ser_fields E rec opt r fs vs) (ser_fields E rec' opt r fs vs).
Proof.
  intros opt r. induction fs as [|f fs IH]; intros vs; cbn [ser_fields].
  - destruct vs; constructor; [apply rd_refl|constructor].
  - destruct (falive r f); [|apply IH]. destruct vs as [|v vs]; constructor; [apply rd_refl|constructor|apply rd_mode|apply IH].
Qed.
Lemma rd_vfields : forall r fs vs, Forall2 rd (ser_vfields E rec r fs vs) (ser_vfields E rec' r fs vs).
Proof.
  intros r. induction fs as [|f fs IH]; intros vs; cbn [ser_vfields].
  - destruct vs; constructor; [apply rd_refl|constructor].
  - destruct (falive r f); [|apply IH]. destruct vs as [|v vs]; constructor; [apply rd_refl|constructor|apply rd_ty|apply IH].
Qed.
Lemma rd_derived : forall s v, rd (ser_derived E rec s v) (ser_derived E rec' s v).
Proof.
  intros s v. unfold ser_derived. destruct (sent s (scur s)) as [h|]; [|apply rd_refl]. apply rd_app; [apply rd_refl|]. destruct (s_body s) as [fs|vs].
  - unfold ser_struct. destruct v; try rsame. destruct (h_opt h); [|apply rd_concat, rd_fields]. unfold ser_struct_opt. apply rd_bind; [apply rd_all, rd_fields|]. intros bs. apply rd_refl.
  - unfold ser_enum. destruct v; try rsame. destruct (calc_disc _ _) as [ds|]; [|apply rd_refl]. destruct (find_name _ _) as [[vr d]|]; [|apply rd_refl]. destruct (h_opt h).
    + unfold ser_variant_opt. destruct (v_size vr) as [[]|]; try rsame; (apply rd_app; [apply rd_refl|]); (apply rd_bind; [apply rd_all, rd_vfields|]); intros bs; apply rd_refl.
    + apply rd_app; [apply rd_refl|]. apply rd_concat, rd_fields.
Qed.
End Enc.

Lemma rd_ref : forall E d d' n v, (d <= d')%nat -> rd (ser_ref E d n v) (ser_ref E d' n v).
Proof.
  intros E. induction d as [|d IH]; intros d' n v H; [right; reflexivity|]. destruct d' as [|d']; [lia|]. cbn [ser_ref].
  destruct (e_sch E n) as [s|]; [|apply rd_refl]. apply rd_derived. intros m w. apply IH. lia.
Qed.
Lemma rd_writer : forall E d d' t v, (d <= d')%nat -> rd (to_writer E d t v) (to_writer E d' t v).
Proof. intros E d d' t v H. apply rd_ty. intros n w. apply rd_ref, H. Qed.

(** ** Walking *)
Definition wd {A} (m m' : sm A) : Prop := forall s, rd (m s) (m' s).

Lemma wd_refl : forall A (m : sm A), wd m m.
Proof. intros A m s. left. reflexivity. Qed.
Lemma wd_bind : forall A B (m m' : sm A) (f f' : A -> sm B), wd m m' -> (forall a, wd (f a) (f' a)) -> wd (sm_bind m f) (sm_bind m' f').
Proof.
  intros A B m m' f f' Hm Hf s. unfold sm_bind. destruct (Hm s) as [->| ->]; [|right; reflexivity].
  destruct (m' s) as [[a s']|e|x]; [apply Hf|left; reflexivity..].
Qed.
Lemma wd_map : forall A B (g : A -> B) (m m' : sm A), wd m m' -> wd (sm_map g m) (sm_map g m').
Proof. intros A B g m m' H. apply wd_bind; [exact H|]. intros a. apply wd_refl. Qed.
Lemma wd_res : forall A (r r' : res A), rd r r' -> wd (sm_res r) (sm_res r').
Proof. intros A r r' H s. apply rd_map. exact H. Qed.
Lemma rd_run : forall A (p p' : prog A) bs, agree (eq PStack) p p' -> rd (run p bs) (run p' bs).
Proof. intros A p p' bs H. destruct (H bs) as [K|(x & <- & K)]; [left|right]; exact K. Qed.
Lemma wd_follows : forall A (m m' : sm A) p p', follows m p -> follows m' p' -> agree (eq PStack) p p' -> wd m m'.
Proof.
  intros A m m' p p' F F' H s. rewrite (F s), (F' s). destruct (rd_run _ p p' (sr_inner s) H) as [->| ->]; [left|right]; reflexivity.
Qed.
Lemma wd_run : forall A (p p' : prog A), agree (eq PStack) p p' -> wd (sr_run p) (sr_run p').
Proof. intros A p p' H. exact (wd_follows _ _ _ p p' (fol_run _ p) (fol_run _ p') H). Qed.
Lemma wd_rep : forall (m m' : sm unit), wd m m' -> forall n, wd (sm_rep n m) (sm_rep n m').
Proof. intros m m' H. induction n as [|n IH]; cbn [sm_rep]; [apply wd_refl|]. apply wd_bind; [exact H|]. intros _. exact IH. Qed.
Lemma wd_slice : forall A (p p' : prog A) b c, agree (eq PStack) p p' -> wd (on_slice p b c) (on_slice p' b c).
Proof. intros A p p' b c H. unfold on_slice. destruct (split_at c b) as [[x y]|]; [|apply wd_refl]. apply wd_res, rd_map, rd_run, H. Qed.
Lemma wd_consumed : forall (m m' : sm unit), wd m m' -> wd (sm_consumed m) (sm_consumed m').
Proof. intros m m' H s. unfold sm_consumed. destruct (H s) as [->| ->]; [left|right]; reflexivity. Qed.

Ltac same := match goal with |- wd ?m ?m => apply wd_refl end.

Section Walking.
Variable E : env.
Variables D D' : nat.
Hypothesis HD : (D <= D')%nat.

Lemma ref_deeper : forall d d' n, (d <= d')%nat -> agree (eq PStack) (de_ref E d n) (de_ref E d' n).
Proof. intros d d' n H. replace d' with (d + (d' - d))%nat by lia. apply ref_depth. Qed.
Lemma deep_mode : forall d d' mo t, (d <= d')%nat -> agree (eq PStack) (de_mode E (de_ref E d) mo t) (de_mode E (de_ref E d') mo t).
Proof.
  intros d d' mo t H. pose proof (agree_mode (eq PStack) E (e_mem E) (e_dbg E)) as K. rewrite set_lim_same in K.
  apply K; [intros; apply agree_refl|intros; apply agree_refl|]. intros n. apply ref_deeper, H.
Qed.
Lemma deep_body : forall d d' s r, (d <= d')%nat -> agree (eq PStack) (de_body E (de_ref E d) s r) (de_body E (de_ref E d') s r).
Proof.
  intros d d' s r H.
  assert (HF : forall opt cur tgt fs, agree (eq PStack) (de_fields E (de_ref E d) opt cur tgt fs) (de_fields E (de_ref E d') opt cur tgt fs)).
  { intros. pose proof (agree_fields (eq PStack) E (e_mem E) (e_dbg E)) as K. rewrite set_lim_same in K.
    apply K; [intros; apply agree_refl|intros; apply agree_refl|]. intros n. apply ref_deeper, H. }
  assert (HV : forall cur fs, agree (eq PStack) (de_vfields E (de_ref E d) cur fs) (de_vfields E (de_ref E d') cur fs)).
  { intros. pose proof (agree_vfields (eq PStack) E (e_mem E) (e_dbg E)) as K. rewrite set_lim_same in K.
    apply K; [intros; apply agree_refl|]. intros n. apply ref_deeper, H. }
  unfold de_body. destruct (sent s r) as [h|]; [|apply agree_refl].
  destruct (s_body s) as [fs|vs].
  - unfold de_struct_opt, struct_payload, de_struct_legacy. destruct (h_opt h), (h_idx h);
    repeat first [match goal with |- agree _ ?p ?p => apply agree_refl end | apply HF | apply agree_bind; [|intros ?] | apply agree_map_err | apply agree_in_buf
      | match goal with |- agree _ (if ?c then _ else _) (if ?c then _ else _) => destruct c end].
  - unfold de_enum_opt, de_enum_legacy, de_variant_opt, de_variant_legacy. destruct (h_opt h); (destruct (calc_disc r vs) as [ds|]; [|apply agree_refl]).
    + apply agree_bind; [apply agree_refl|]. intros ts. destruct (find_tag _ _ _) as [[vr k]|]; [|apply agree_refl].
      apply agree_bind; [apply agree_refl|intros buf];
      repeat first [match goal with |- agree _ ?p ?p => apply agree_refl end | apply HV | apply agree_bind; [|intros ?] | apply agree_map_err | apply agree_in_buf
      | match goal with |- agree _ (if ?c then _ else _) (if ?c then _ else _) => destruct c end].
    + apply agree_bind; [apply agree_refl|]. intros x. destruct (find_disc _ _) as [[vr k]|]; [|apply agree_refl].
      repeat first [match goal with |- agree _ ?p ?p => apply agree_refl end | apply HF | apply agree_bind; [|intros ?]
      | match goal with |- agree _ (if ?c then _ else _) (if ?c then _ else _) => destruct c end].
Qed.
Lemma wd_dec : forall d d' t, (d <= d')%nat -> wd (sr_run (deserialize E d t)) (sr_run (deserialize E d' t)).
Proof. intros d d' t H. apply wd_run, depth_agree, H. Qed.
Lemma wd_skip : forall d d' t, (d <= d')%nat -> wd (sr_run (skip E d t)) (sr_run (skip E d' t)).
Proof. intros d d' t H. apply wd_run, skip_depth, H. Qed.
Lemma deep_idx_map : forall d d' a b, (d <= d')%nat -> agree (eq PStack) (p_idx_map E d a b) (p_idx_map E d' a b).
Proof.
  intros d d' a b H. unfold p_idx_map. apply agree_bind; [apply agree_refl|]. intros f. apply agree_bind; [apply agree_refl|]. intros n.
  destruct (_ =? 0); [|apply agree_refl]. apply agree_rep_, agree_bind; [apply skip_depth, H|intros; apply skip_depth, H].
Qed.
Lemma deep_idx_seq : forall d d' a, (d <= d')%nat -> agree (eq PStack) (p_idx_seq E d a) (p_idx_seq E d' a).
Proof.
  intros d d' a H. unfold p_idx_seq. apply agree_bind; [apply agree_refl|]. intros f. apply agree_bind; [apply agree_refl|]. intros n.
  destruct (_ =? 0); [apply agree_rep_, skip_depth, H|]. destruct (n =? 0); [apply agree_refl|].
  destruct (_ <? _); [|apply agree_refl]. apply agree_bind; [apply agree_refl|]. intros table. apply agree_bind; [apply agree_refl|]. intros _. apply skip_depth, H.
Qed.
Lemma wd_skip_idx : forall d d' t, (d <= d')%nat -> wd (skip_idx E d t) (skip_idx E d' t).
Proof.
  intros d d' t H. destruct t; cbn [skip_idx]; try same;
    first [exact (wd_follows _ _ _ _ _ (fol_idx_map E d _ _) (fol_idx_map E d' _ _) (deep_idx_map d d' _ _ H))
          |exact (wd_follows _ _ _ _ _ (fol_idx_seq E d _) (fol_idx_seq E d' _) (deep_idx_seq d d' _ H))].
Qed.
Lemma wd_wire_skip : forall d d' f, (d <= d')%nat -> wd (wire_skip E d f) (wire_skip E d' f).
Proof. intros d d' f H. unfold wire_skip. destruct (is_idx f); [apply wd_skip_idx, H|apply wd_skip, H]. Qed.
Lemma wd_materialise : forall d d' s rev, (d <= d')%nat -> wd (materialise E D d s rev) (materialise E D' d' s rev).
Proof.
  intros d d' s rev H. unfold materialise. apply wd_bind; [apply wd_run, deep_body, H|]. intros v.
  apply wd_bind; [|intros; apply wd_refl]. apply wd_res, rd_bytes, rd_derived. intros n w. apply rd_ref, HD.
Qed.
(** Opening a walker: what is opened is the same, the stack left is larger. *)
Lemma wd_derived : forall d d' s, (d <= d')%nat -> wd (enter_derived E D d s) (enter_derived E D' d' s).
Proof.
  intros d d' s H. unfold enter_derived. apply wd_bind; [apply wd_refl|]. intros rev. destruct (_ || _); [apply wd_refl|].
  destruct (s_body s) as [fs|vs].
  - unfold enter_struct. destruct (_ && _); [|apply wd_refl]. apply wd_bind; [apply wd_materialise, H|]. intros p. apply wd_refl.
  - unfold enter_enum. destruct (_ && _); [|apply wd_refl]. apply wd_bind; [apply wd_materialise, H|]. intros p. apply wd_refl.
Qed.
Lemma wd_enter : forall t d d' A (f f' : nat * ctx -> sm A), (d <= d')%nat -> (forall k k' c, (k <= k')%nat -> wd (f (k, c)) (f' (k', c))) ->
  wd (sm_bind (enter E D d t) f) (sm_bind (enter E D' d' t) f').
Proof.
  assert (As : forall A B (m : sm A) (f : A -> B) C (g : B -> sm C) s, sm_bind (sm_map f m) g s = sm_bind m (fun a => g (f a)) s).
  { intros A B m f C g s. unfold sm_map, sm_bind. destruct (m s) as [[a s']|e|x]; reflexivity. }
  assert (Bi : forall A B (m : sm A) (g g' : A -> sm B) C (f f' : B -> sm C), (forall a, wd (sm_bind (g a) f) (sm_bind (g' a) f')) ->
    wd (sm_bind (sm_bind m g) f) (sm_bind (sm_bind m g') f')).
  { intros A B m g g' C f f' H s. unfold sm_bind in *. destruct (m s) as [[a s']|e|x]; [exact (H a s')|left; reflexivity..]. }
  assert (Er : forall A B e (f f' : A -> sm B), wd (sm_bind (sm_err e) f) (sm_bind (sm_err e) f')) by (intros; intros s; left; reflexivity).
  induction t; intros d d' A f f' H K; cbn [enter];
    try (exact (K d d' _ H)); try (apply IHt; assumption).
  all: try (apply Bi; intros n; first [exact (K d d' _ H)|destruct (_ || _); [exact (K d d' _ H)|apply Er]]).
  - match goal with |- wd (sm_bind (if ?x then _ else _) _) _ => destruct x end; [apply Er|]. apply Bi. intros n. exact (K d d' _ H).
  - destruct mirror; [exact (K d d' _ H)|]. destruct t; exact (K d d' _ H).
  - destruct d as [|d]; [intros s; right; reflexivity|]. destruct d' as [|d']; [lia|]. destruct (e_sch E n) as [s|]; [|intros s; left; reflexivity].
    intros st. rewrite !As. apply wd_bind; [apply wd_derived; lia|]. intros c. apply K. lia.
Qed.
Lemma wd_field_decode : forall d d' r i f, (d <= d')%nat -> wd (field_decode E D d r i f) (field_decode E D' d' r i f).
Proof.
  intros d d' r i f H. destruct r as [rev|b fc|b c]; cbn [field_decode].
  - destruct (_ <=? _); [apply wd_map, wd_run, deep_mode, H|apply wd_refl].
  - apply wd_bind; [apply wd_refl|]. intros x. apply wd_map, wd_slice, depth_agree, H.
  - apply wd_map, wd_slice, depth_agree, HD.
Qed.
Lemma wd_field_skip : forall d d' r f, (d <= d')%nat -> wd (field_skip E D d r f) (field_skip E D' d' r f).
Proof.
  intros d d' r f H. destruct r as [rev|b fc|b c]; cbn [field_skip].
  - destruct (_ <=? _); [apply wd_map, wd_wire_skip, H|apply wd_refl].
  - apply wd_refl.
  - apply wd_map, wd_slice, skip_depth, HD.
Qed.
Lemma wd_field_view : forall d d' r i f, (d <= d')%nat -> wd (field_view E D d r i f) (field_view E D' d' r i f).
Proof.
  intros d d' r i f H. destruct r as [rev|b fc|b c]; cbn [field_view].
  - apply wd_map, wd_consumed, wd_skip_idx, H.
  - apply wd_refl.
  - apply wd_bind; [apply wd_slice, depth_agree, HD|]. intros p. apply wd_map, wd_res, rd_bytes, rd_mode. intros n w. apply rd_ref, HD.
Qed.
Lemma wd_field_bytes : forall d d' r i f, (d <= d')%nat -> wd (field_bytes E D d r i f) (field_bytes E D' d' r i f).
Proof.
  intros d d' r i f H. destruct r as [rev|b fc|b c]; cbn [field_bytes].
  - destruct (_ <=? _); [apply wd_map, wd_consumed, wd_wire_skip, H|apply wd_refl].
  - apply wd_refl.
  - apply wd_bind; [apply wd_slice, depth_agree, HD|]. intros p. apply wd_map, wd_res, rd_bytes, rd_ty. intros n w. apply rd_ref, HD.
Qed.
Lemma wd_skip_fields : forall d d' fs r, (d <= d')%nat -> wd (skip_fields E D d r fs) (skip_fields E D' d' r fs).
Proof.
  intros d d' fs r H. revert r. induction fs as [|f fs IH]; intros r; cbn [skip_fields]; [apply wd_refl|]. apply wd_bind; [apply wd_field_skip, H|]. intros p. apply IH.
Qed.
Lemma wd_variant_decode : forall d d' r s vs k, (d <= d')%nat -> wd (variant_decode E D d r s vs k) (variant_decode E D' d' r s vs k).
Proof.
  intros d d' r s vs k H. unfold variant_decode. destruct (cur_variant s vs k) as [[|f [|g l]]|]; try same.
  destruct (is_variant r s vs k); [|apply wd_refl].
  destruct r; [apply wd_map, wd_dec, H|..]; (apply wd_bind; [apply wd_refl|]; intros b'; apply wd_map, wd_slice, depth_agree; assumption).
Qed.
Lemma wd_variant_view : forall d d' r s vs k, (d <= d')%nat -> wd (variant_view E D d r s vs k) (variant_view E D' d' r s vs k).
Proof.
  intros d d' r s vs k H. unfold variant_view. destruct (cur_variant s vs k) as [[|f [|g l]]|]; try same.
  destruct (is_variant r s vs k); [|apply wd_refl]. destruct r; try same. apply wd_bind; [apply wd_dec, H|]. intros v.
  apply wd_map, wd_res, rd_bytes, rd_ty. intros n w. apply rd_ref, HD.
Qed.
Definition deeper (a : act) : Prop := forall d d' c, (d <= d')%nat -> wd (act_on E D d c a) (act_on E D' d' c a).
Definition inside (a : act) : Prop := match a with Walk w => deeper w | _ => True end.
Lemma wd_act_in : forall a, deeper a /\ inside a.
Proof.
  assert (En : forall w t d d', (d <= d')%nat -> deeper w ->
    wd (sm_bind (enter E D d t) (fun p => act_on E D (fst p) (snd p) w)) (sm_bind (enter E D' d' t) (fun p => act_on E D' (fst p) (snd p) w))).
  { intros w t d d' Hd H. apply wd_enter; [exact Hd|]. intros k k' c Hk. apply H, Hk. }
  induction a; repeat match goal with H : _ /\ inside _ |- _ => let i := fresh "In" in destruct H as [H i] end;
    (split; [|first [exact I|exact IHa]]); intros d d' c Hd; destruct c; cbn [act_on]; try same.
  - apply wd_map, wd_dec, Hd.
  - destruct (_ =? _); [apply wd_refl|apply wd_map, wd_dec, Hd].
  - destruct (_ =? _); apply wd_map, wd_dec, Hd.
  - apply wd_map, wd_skip, Hd.
  - destruct (_ =? _); [apply wd_map, wd_skip, Hd|apply wd_refl].
  - apply wd_map, wd_skip, Hd.
  - apply En; assumption.
  - destruct (_ =? _); [apply IHa1, Hd|apply IHa2, Hd].
  - destruct (_ =? _); [apply IHa1, Hd|apply IHa2, Hd].
  - destruct k as [|[p|p|]]; try same. destruct (_ =? _); [apply wd_refl|apply En; assumption].
  - destruct k as [|[p|p|]]; try same; (destruct (_ =? _); try same; apply En; assumption).
  - destruct (_ =? _); [apply wd_refl|]. apply wd_bind; [apply IHa1, Hd|]. intros o. apply wd_map, IHa2, Hd.
  - destruct (_ =? _); [apply wd_refl|]. assert (G : wd (sm_bind (act_on E D d (CPos a) a1) (fun o => sm_bind (act_on E D d (CPos b) a2) (fun o' => sm_map (OCons (OCons o o')) (act_on E D d (CMap a b (n - 1)) a3))))
      (sm_bind (act_on E D' d' (CPos a) a1) (fun o => sm_bind (act_on E D' d' (CPos b) a2) (fun o' => sm_map (OCons (OCons o o')) (act_on E D' d' (CMap a b (n - 1)) a3))))).
    { apply wd_bind; [apply IHa1, Hd|]. intros o. apply wd_bind; [apply IHa2, Hd|]. intros o'. apply wd_map, IHa3, Hd. }
    destruct a1; [exact G|exact G|exact G|apply wd_refl|exact G..].
  - apply wd_map, wd_rep, wd_skip, Hd.
  - apply wd_map, wd_rep. apply wd_bind; [apply wd_skip, Hd|]. intros _. apply wd_skip, Hd.
  - destruct fs; apply wd_map, wd_skip_fields, Hd.
  - destruct fs as [|f fs]; [apply wd_refl|].
    assert (G : forall m m' : sm (obs * srepr), wd m m' -> wd (sm_bind m (fun p => sm_map (OCons (fst p)) (act_on E D d (CStruct (snd p) (i + 1) fs) a2)))
      (sm_bind m' (fun p => sm_map (OCons (fst p)) (act_on E D' d' (CStruct (snd p) (i + 1) fs) a2)))).
    { intros m m' H. apply wd_bind; [exact H|]. intros p. apply wd_map, IHa2, Hd. }
    destruct a1; try same.
    + apply G, wd_field_decode, Hd.
    + apply G, wd_field_skip, Hd.
    + destruct (is_idx f); [apply wd_refl|]. destruct r; try same. destruct (_ <=? _); [|apply wd_refl].
      apply wd_enter; [exact Hd|]. intros k k' c Hk. cbn [fst snd]. apply wd_bind; [|intros o; apply wd_map, IHa2, Hd].
      match goal with H : inside (Walk _) |- _ => apply H, Hk end.
    + destruct (is_idx f); [|apply wd_refl]. apply G, wd_field_view, Hd.
  - destruct (cur_variant s vs k); [|apply wd_refl]. destruct (is_variant r s vs k); [apply IHa1, Hd|apply IHa2, Hd].
  - destruct (cur_variant s vs k) as [[|f [|g l]]|]; try same. destruct (is_variant r s vs k); [|apply wd_refl]. destruct r; try same. apply En; assumption.
  - apply wd_variant_decode, Hd.
  - apply wd_variant_view, Hd.
Qed.
Lemma wd_act : forall a d d' c, (d <= d')%nat -> wd (act_on E D d c a) (act_on E D' d' c a).
Proof. intros a. apply wd_act_in. Qed.
Lemma wd_walk : forall d d' t a, (d <= d')%nat -> wd (walk_with E D d t a) (walk_with E D' d' t a).
Proof. intros d d' t a H. apply wd_enter; [exact H|]. intros k k' c Hk. apply wd_act, Hk. Qed.

Lemma wd_into_bytes : forall d d' cs fs r i, (d <= d')%nat -> wd (into_bytes_after E D d r i fs cs) (into_bytes_after E D' d' r i fs cs).
Proof.
  intros d d' cs fs r i H. revert fs r i. induction cs as [|c cs IH]; intros [|f fs] r i; cbn [into_bytes_after]; try same; [apply wd_field_bytes, H|].
  apply wd_bind; [destruct c; [apply wd_field_decode, H|apply wd_field_skip, H]|]. intros p. apply IH.
Qed.
Lemma wd_walk_into_bytes : forall d d' t cs, (d <= d')%nat -> wd (walk_into_bytes E D d t cs) (walk_into_bytes E D' d' t cs).
Proof. intros d d' t cs H. apply wd_enter; [exact H|]. intros k k' c Hk. destruct c; cbn [fst snd]; try same. apply wd_into_bytes, Hk. Qed.
Lemma wd_past : forall d d' a b n, (d <= d')%nat -> wd (sm_bind (sr_run (skip E d b)) (fun _ => sm_bind (sm_rep n (sm_bind (sr_run (skip E d a)) (fun _ => sr_run (skip E d b)))) (fun _ => sm_ret false)))
  (sm_bind (sr_run (skip E d' b)) (fun _ => sm_bind (sm_rep n (sm_bind (sr_run (skip E d' a)) (fun _ => sr_run (skip E d' b)))) (fun _ => sm_ret false))).
Proof.
  intros d d' a b n H. apply wd_bind; [apply wd_skip, H|]. intros _. apply wd_bind; [|intros; apply wd_refl]. apply wd_rep. apply wd_bind; [apply wd_skip, H|]. intros _. apply wd_skip, H.
Qed.
Lemma wd_find : forall d d' a b p n, (d <= d')%nat -> wd (find_loop E d a b p n) (find_loop E d' a b p n).
Proof.
  intros d d' a b p n H. induction n as [|n IH]; cbn [find_loop]; [apply wd_refl|]. apply wd_bind; [apply wd_dec, H|]. intros k.
  destruct (p k); [apply wd_refl| |apply wd_past, H]. apply wd_bind; [apply wd_skip, H|]. intros _. exact IH.
Qed.
Lemma wd_find_bytes : forall d d' a b p n, (d <= d')%nat -> wd (find_bytes_loop E d a b p n) (find_bytes_loop E d' a b p n).
Proof.
  intros d d' a b p n H. induction n as [|n IH]; cbn [find_bytes_loop]; [apply wd_refl|]. apply wd_bind; [apply wd_refl|]. intros m.
  apply wd_bind; [apply wd_refl|]. intros x. apply wd_bind; [apply wd_refl|]. intros _.
  destruct (p x); [apply wd_refl| |apply wd_past, H]. apply wd_bind; [apply wd_skip, H|]. intros _. exact IH.
Qed.
Lemma wd_map_find : forall d d' a b p w, (d <= d')%nat -> wd (map_find E D d a b p w) (map_find E D' d' a b p w).
Proof.
  intros d d' a b p w H. unfold map_find. apply wd_bind; [apply wd_refl|]. intros n. apply wd_bind; [apply wd_find, H|]. intros []; [apply wd_map, wd_act, H|apply wd_refl].
Qed.
Lemma wd_map_find_bytes : forall d d' a b p w, (d <= d')%nat -> wd (map_find_bytes E D d a b p w) (map_find_bytes E D' d' a b p w).
Proof.
  intros d d' a b p w H. unfold map_find_bytes. apply wd_bind; [apply wd_refl|]. intros n. apply wd_bind; [apply wd_find_bytes, H|]. intros []; [apply wd_map, wd_act, H|apply wd_refl].
Qed.
Lemma wd_hand : forall d d' ops h, (d <= d')%nat -> wd (hand_run E D d ops h) (hand_run E D' d' ops h).
Proof.
  intros d d' ops h H. revert h. induction ops as [|o ops IH]; intros h; cbn [hand_run]; [apply wd_refl|]. apply wd_bind.
  - unfold hand_step. apply wd_bind; [|intros; apply wd_refl]. destruct o; cbn [hop_on]; [apply wd_map, wd_dec, H|apply wd_map, wd_skip, H|apply wd_walk, H].
  - intros p. apply wd_bind; [apply IH|]. intros q. apply wd_refl.
Qed.
Lemma wd_struct_by_hand : forall d d' choose, (d <= d')%nat -> wd (struct_by_hand E D d choose) (struct_by_hand E D' d' choose).
Proof. intros d d' choose H. apply wd_bind; [apply wd_refl|]. intros rev. apply wd_hand, H. Qed.
Lemma wd_enum_by_hand : forall d d' choose, (d <= d')%nat -> wd (enum_by_hand E D d choose) (enum_by_hand E D' d' choose).
Proof.
  intros d d' choose H. apply wd_bind; [apply wd_refl|]. intros rev. apply wd_bind; [apply wd_refl|]. intros w. apply wd_bind; [apply wd_hand, H|]. intros q. apply wd_refl.
Qed.
Lemma wd_call : forall d d' fs c r, (d <= d')%nat -> wd (call E D d fs c r) (call E D' d' fs c r).
Proof.
  intros d d' fs c r H. destruct c as [i|i|i|i w]; cbn [call]; (destruct (nth_error fs i) as [f|]; [|apply wd_refl]);
    [apply wd_field_decode, H|apply wd_field_skip, H| |]; (destruct (is_idx f); try same); [apply wd_field_view, H|].
  destruct r; try same. destruct (_ <=? _); [|apply wd_refl]. apply wd_enter; [exact H|]. intros k k' c Hk. apply wd_map, wd_act, Hk.
Qed.
Lemma wd_last : forall d d' fs c r, (d <= d')%nat -> wd (last_call E D d fs c r) (last_call E D' d' fs c r).
Proof.
  intros d d' fs c r H. destruct c as [i|i|i w]; cbn [last_call]; (destruct (nth_error fs i) as [f|]; [|apply wd_refl]);
    [apply wd_field_bytes, H| |]; (destruct (is_idx f); try same); [apply wd_map, wd_field_view, H|].
  destruct r; try same. destruct (_ <=? _); [|apply wd_refl]. apply wd_enter; [exact H|]. intros k k' c Hk. apply wd_act, Hk.
Qed.
End Walking.

(** Opening, with less stack and with more: the same walker. *)
Lemma enter_or : forall E D D' d d' t s, (D <= D')%nat -> (d <= d')%nat ->
  enter E D d t s = Panic PStack
  \/ (exists k k' c s', (k <= k')%nat /\ enter E D d t s = Ok ((k, c), s') /\ enter E D' d' t s = Ok ((k', c), s'))
  \/ (exists e, enter E D d t s = Err e /\ enter E D' d' t s = Err e) \/ (exists x, enter E D d t s = Panic x /\ enter E D' d' t s = Panic x).
Proof.
  intros E D D' d d' t s HD Hd.
  pose proof (wd_enter E D D' HD t d d' (nat * ctx) (fun p => sm_ret (0%nat, snd p)) (fun p => sm_ret (0%nat, snd p)) Hd (fun k k' c _ => wd_refl _ (sm_ret (0%nat, c))) s) as K.
  assert (L : forall k c s1 k' c' s1', enter E D d t s = Ok ((k, c), s1) -> enter E D' d' t s = Ok ((k', c'), s1') -> (k <= k')%nat).
  { intros k c s1 k' c' s1' K1 K2.
    destruct (Nat.le_gt_cases k k') as [G|G]; [exact G|exfalso].
    pose proof (wd_enter E D D' HD t d d' unit (fun p => if Nat.leb (fst p) k' then sm_panic PStack else sm_err EOverflow) (fun p => if Nat.leb (fst p) k' then sm_panic PMem else sm_err EOverflow) Hd) as Q.
    assert (Q1 : forall a b c0, (a <= b)%nat -> wd ((fun p : nat * ctx => if Nat.leb (fst p) k' then @sm_panic unit PStack else sm_err EOverflow) (a, c0)) ((fun p : nat * ctx => if Nat.leb (fst p) k' then @sm_panic unit PMem else sm_err EOverflow) (b, c0))).
    { intros a b c0 Hab st. cbn [fst]. destruct (Nat.leb a k') eqn:E1; [right; reflexivity|]. destruct (Nat.leb b k') eqn:E2; [|left; reflexivity].
      apply Nat.leb_le in E2. apply Nat.leb_gt in E1. lia. }
    specialize (Q Q1 s). unfold sm_bind in Q. rewrite K1, K2 in Q. cbn [fst] in Q. rewrite (proj2 (Nat.leb_gt k k') G), Nat.leb_refl in Q. destruct Q as [Q|Q]; discriminate Q. }
  unfold sm_bind in K. destruct (enter E D d t s) as [[[k c] s1]|e|x].
  - destruct (enter E D' d' t s) as [[[k' c'] s1']|e'|x']; [|destruct K as [K|K]; discriminate K..].
    destruct K as [K|K]; [|discriminate K]. unfold sm_ret in K. cbn [snd] in K. injection K as <- <-. right. left. exists k, k', c, s1. split; [exact (L k c s1 k' c s1 eq_refl eq_refl)|auto].
  - right. right. left. exists e. destruct K as [K|K]; [|discriminate K]. destruct (enter E D' d' t s) as [[[k' c'] s1']|e'|x']; try discriminate K. split; congruence.
  - destruct K as [K|K]; [|left; exact K]. right. right. right. exists x. destruct (enter E D' d' t s) as [[[k' c'] s1']|e'|x']; try discriminate K. split; congruence.
Qed.
