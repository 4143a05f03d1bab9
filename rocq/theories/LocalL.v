(** Proofs: encoding and decoding look at the declarations in use only. *)

From Verif Require Import Base BaseL Prog ProgL Prim PrimL Utf8 Tag Ty Ser De SliceReader Skip Typed Transp TranspL SkipL DiscL Local.
From Coq Require Import List NArith ZArith Bool Lia.
Import ListNotations.
Open Scope N_scope.

Ltac nm H := let n := fresh "n" in let K := fresh "K" in intros n K; apply H; cbn [names]; try exact K; apply in_or_app; auto.

Section Cong.
Variable E : env.

Section Ser.
Variables rec rec' : N -> val -> ser.
Notation ok t := (forall n, In n (names t) -> forall v, rec n v = rec' n v).
Lemma loc_ser_ty : forall t, ok t -> forall v, ser_ty E rec t v = ser_ty E rec' t v.
Proof.
  induction t; intros H v; cbn [names] in H;
    try (assert (H1 : ok t1) by (nm H); assert (H2 : ok t2) by (nm H); specialize (IHt1 H1); specialize (IHt2 H2));
    try specialize (IHt H);
    destruct v; cbn [ser_ty]; try reflexivity; try apply IHt; try (apply H; left; reflexivity);
    try (f_equal; [apply IHt1|apply IHt2]);
    try (destruct (if e_spec E then bulk_of t else None); [reflexivity|]);
    try (destruct (Nat.eqb _ _); [|reflexivity]);
    try (do 2 f_equal; apply map_ext; exact IHt); try (f_equal; apply map_ext; exact IHt).
  - destruct k as [|[]]; try reflexivity. destruct l as [|x [|]]; try reflexivity. rewrite IHt. reflexivity.
  - destruct k as [|[]]; try reflexivity; destruct l as [|x [|]]; try reflexivity; rewrite ?IHt1, ?IHt2; reflexivity.
  - destruct k as [|[[]|[]|]]; try reflexivity; destruct l as [|x [|]]; try reflexivity; rewrite ?IHt; reflexivity.
  - do 2 f_equal. apply map_ext. intros []; cbn [ser_entry]; rewrite ?IHt1, ?IHt2; reflexivity.
Qed.
Lemma mapM_ext : forall A B (f g : A -> res B) l, (forall x, f x = g x) -> rmapM f l = rmapM g l.
Proof. intros A B f g l H. induction l as [|x l IH]; [reflexivity|]. cbn [rmapM]. rewrite H, IH. reflexivity. Qed.
Lemma loc_ser_mode : forall m t, ok t -> forall v, ser_mode E rec m t v = ser_mode E rec' m t v.
Proof.
  intros m t H v. destruct m; cbn [ser_mode]; try (apply loc_ser_ty; exact H); try reflexivity; destruct t; try reflexivity; destruct v; try reflexivity; cbn [names] in H.
  - f_equal. apply mapM_ext. intros []; try reflexivity. cbn [pre_entry]. rewrite (loc_ser_ty t1), (loc_ser_ty t2) by (nm H). reflexivity.
  - f_equal. apply mapM_ext. intros x. rewrite loc_ser_ty by exact H. reflexivity.
  - f_equal. apply mapM_ext. intros x. rewrite loc_ser_ty by exact H. reflexivity.
  - f_equal. apply mapM_ext. intros x. rewrite loc_ser_ty by exact H. reflexivity.
Qed.
Notation oks fs := (forall f, In f fs -> ok (f_ty f)).
Lemma loc_ser_fields : forall opt r fs, oks fs -> forall vs, ser_fields E rec opt r fs vs = ser_fields E rec' opt r fs vs.
Proof.
  induction fs as [|f fs IH]; intros H vs; cbn [ser_fields]; [reflexivity|].
  rewrite ?(IH (fun g Hg => H g (or_intror Hg))). destruct (falive r f); [|reflexivity]. destruct vs; [reflexivity|].
  rewrite (IH (fun g Hg => H g (or_intror Hg))), loc_ser_mode by (apply H; left; reflexivity). reflexivity.
Qed.
Lemma loc_ser_vfields : forall r fs, oks fs -> forall vs, ser_vfields E rec r fs vs = ser_vfields E rec' r fs vs.
Proof.
  induction fs as [|f fs IH]; intros H vs; cbn [ser_vfields]; [reflexivity|].
  rewrite ?(IH (fun g Hg => H g (or_intror Hg))). destruct (falive r f); [|reflexivity]. destruct vs; [reflexivity|].
  rewrite (IH (fun g Hg => H g (or_intror Hg))), loc_ser_ty by (apply H; left; reflexivity). reflexivity.
Qed.
Lemma loc_ser_derived : forall s, (forall f, has_field s f -> ok (f_ty f)) -> forall v, ser_derived E rec s v = ser_derived E rec' s v.
Proof.
  intros s H v. unfold ser_derived. unfold has_field in H. destruct (sent s (scur s)) as [h|]; [|reflexivity]. f_equal. destruct (s_body s) as [fs|vs].
  - unfold ser_struct, ser_struct_opt. destruct v; try reflexivity. rewrite !(loc_ser_fields _ _ _ H). reflexivity.
  - unfold ser_enum. destruct v; try reflexivity. destruct (calc_disc (scur s) vs) as [ds|] eqn:Ed; [|reflexivity].
    destruct (find_name k ds) as [[vr d]|] eqn:Ef; [|reflexivity].
    assert (HV : oks (v_fields vr)).
    { intros f Hf. apply H. exists vr. split; [|exact Hf]. unfold find_name in Ef. apply find_some in Ef. destruct Ef as [Hin _].
      apply (in_map fst) in Hin. rewrite (calc_disc_fst _ _ _ Ed) in Hin. apply filter_In in Hin. apply Hin. }
    destruct (h_opt h).
    + unfold ser_variant_opt. rewrite !(loc_ser_vfields _ _ HV). reflexivity.
    + rewrite (loc_ser_fields _ _ _ HV). reflexivity.
Qed.
End Ser.

Section De.
Variables rec rec' : N -> prog val.
Notation ok t := (forall n, In n (names t) -> eqr (rec n) (rec' n)).
Ltac ext :=
  repeat first
  [ apply eqr_refl | assumption
  | apply eqr_bind; [|intros ?]
  | apply eqr_rep | apply eqr_map_err | apply eqr_in_buf
  | match goal with |- eqr (if ?c then _ else _) (if ?c then _ else _) => destruct c end ].
Lemma loc_de_ty : forall t, ok t -> eqr (de_ty E rec t) (de_ty E rec' t).
Proof.
  induction t; intros H; cbn [names] in H;
    try (assert (H1 : ok t1) by (nm H); assert (H2 : ok t2) by (nm H); specialize (IHt1 H1); specialize (IHt2 H2));
    try specialize (IHt H); cbn [de_ty]; unfold de_seq, de_entry; try (apply H; left; reflexivity);
    try match goal with |- context [if e_spec E then bulk_of ?x else None] => destruct (if e_spec E then bulk_of x else None) end; ext.
Qed.
Lemma loc_de_mode : forall m t, ok t -> eqr (de_mode E rec m t) (de_mode E rec' m t).
Proof.
  intros m t H. destruct m; cbn [de_mode]; try (apply loc_de_ty; exact H); try apply eqr_refl; destruct t; try apply eqr_refl; cbn [names] in H.
  - assert (Ha : eqr (de_ty E rec t1) (de_ty E rec' t1)) by (apply loc_de_ty; nm H). assert (Hb : eqr (de_ty E rec t2) (de_ty E rec' t2)) by (apply loc_de_ty; nm H).
    unfold de_idx_map, de_entry. ext.
  - assert (Ha : eqr (de_ty E rec t) (de_ty E rec' t)) by (apply loc_de_ty, H). unfold de_idx_seq. ext.
  - assert (Ha : eqr (de_ty E rec t) (de_ty E rec' t)) by (apply loc_de_ty, H). unfold de_idx_seq. ext.
  - assert (Ha : eqr (de_ty E rec t) (de_ty E rec' t)) by (apply loc_de_ty, H). unfold de_idx_seq. ext.
Qed.
Notation oks fs := (forall f, In f fs -> ok (f_ty f)).
Lemma loc_de_fields : forall opt cur tgt fs, oks fs -> eqr (de_fields E rec opt cur tgt fs) (de_fields E rec' opt cur tgt fs).
Proof.
  induction fs as [|f fs IH]; intros H; cbn [de_fields]; [apply eqr_refl|].
  assert (Hf : ok (f_ty f)) by (apply H; left; reflexivity). specialize (IH (fun g Hg => H g (or_intror Hg))).
  destruct (falive cur f), (falive tgt f); ext; apply loc_de_mode; exact Hf.
Qed.
Lemma loc_de_vfields : forall cur fs, oks fs -> eqr (de_vfields E rec cur fs) (de_vfields E rec' cur fs).
Proof.
  induction fs as [|f fs IH]; intros H; cbn [de_vfields]; [apply eqr_refl|].
  assert (Hf : ok (f_ty f)) by (apply H; left; reflexivity). specialize (IH (fun g Hg => H g (or_intror Hg))).
  destruct (falive cur f); ext; apply loc_de_ty; exact Hf.
Qed.
Lemma find_disc_in : forall cur vs ds x vr y, calc_disc cur vs = Some ds -> find_disc x ds = Some (vr, y) -> In vr vs.
Proof.
  intros cur vs ds x vr y Ed Ef. unfold find_disc in Ef. apply find_some in Ef. destruct Ef as [Hin _].
  apply (in_map fst) in Hin. rewrite (calc_disc_fst _ _ _ Ed) in Hin. apply filter_In in Hin. apply Hin.
Qed.
Lemma find_tag_in : forall cur vs ds x c vr y, calc_disc cur vs = Some ds -> find_tag x c ds = Some (vr, y) -> In vr vs.
Proof.
  intros cur vs ds x c vr y Ed Ef. unfold find_tag in Ef. apply find_some in Ef. destruct Ef as [Hin _].
  apply (in_map fst) in Hin. rewrite (calc_disc_fst _ _ _ Ed) in Hin. apply filter_In in Hin. apply Hin.
Qed.
Lemma loc_de_body : forall s a, (forall f, has_field s f -> ok (f_ty f)) -> eqr (de_body E rec s a) (de_body E rec' s a).
Proof.
  intros s a H. unfold de_body. unfold has_field in H. destruct (sent s a) as [h|]; [|apply eqr_refl].
  destruct (s_body s) as [fs|vs].
  - unfold de_struct_opt, struct_payload, de_struct_legacy. destruct (h_opt h), (h_idx h); ext; apply loc_de_fields; exact H.
  - unfold de_enum_opt, de_enum_legacy, de_variant_opt, de_variant_legacy. destruct (h_opt h); destruct (calc_disc a vs) eqn:Ed; try apply eqr_refl; (apply eqr_bind; [apply eqr_refl|]); intros ts.
    + destruct (find_tag _ _ _) as [[vr d]|] eqn:Ef; [|apply eqr_refl]. ext. apply loc_de_vfields. intros f Hf. apply H. exists vr. split; [eapply find_tag_in; eassumption|exact Hf].
    + destruct (find_disc _ _) as [[vr d']|] eqn:Ef; [|apply eqr_refl]. ext. apply loc_de_fields. intros f Hf. apply H. exists vr. split; [eapply find_disc_in; eassumption|exact Hf].
Qed.
Lemma loc_de_derived : forall s, (forall f, has_field s f -> ok (f_ty f)) -> eqr (de_derived E rec s) (de_derived E rec' s).
Proof. intros s H. unfold de_derived. apply eqr_bind; [apply eqr_refl|]. intros a. apply loc_de_body, H. Qed.
Lemma loc_sc_ty : forall t, ok t -> eqr (sc_ty E rec t) (sc_ty E rec' t).
Proof.
  assert (D : forall t, ok t -> eqr (de_ty E rec t ;;; Ret tt) (de_ty E rec' t ;;; Ret tt)) by (intros t H; ext; apply loc_de_ty; exact H).
  induction t; intros H; cbn [sc_ty]; try (apply D; exact H); try apply eqr_refl; cbn [names] in H.
  - apply eqr_bind; [apply IHt1; nm H|]. intros _. apply IHt2. nm H.
  - apply eqr_rep_. auto.
Qed.

Section Sk.
Variables srec srec' : N -> prog unit.
Notation okk t := (forall n, In n (names t) -> eqr (srec n) (srec' n)).
Lemma loc_sk_ty : forall t, ok t -> okk t -> eqr (sk_ty E srec rec t) (sk_ty E srec' rec' t).
Proof.
  assert (D : forall t, ok t -> eqr (de_ty E rec t ;;; Ret tt) (de_ty E rec' t ;;; Ret tt)) by (intros t H; ext; apply loc_de_ty; exact H).
  induction t; intros H HK; cbn [sk_ty]; try (apply D; exact H); cbn [names] in H, HK;
    try (assert (H1 : eqr (sk_ty E srec rec t1) (sk_ty E srec' rec' t1)) by (apply IHt1; [nm H|nm HK]); assert (H2 : eqr (sk_ty E srec rec t2) (sk_ty E srec' rec' t2)) by (apply IHt2; [nm H|nm HK]));
    try specialize (IHt H HK); unfold sk_seq;
    try match goal with |- context [if e_spec E then bulk_of ?x else None] => destruct (if e_spec E then bulk_of x else None) end;
    try (apply eqr_bind; [apply eqr_refl|intros]); try apply eqr_rep_; ext; try (apply HK; left; reflexivity).
  apply loc_de_ty. exact H.
Qed.
Lemma loc_sk_fields : forall cur fs, oks fs -> (forall f, In f fs -> okk (f_ty f)) -> eqr (sk_fields E srec rec cur fs) (sk_fields E srec' rec' cur fs).
Proof.
  induction fs as [|f fs IH]; intros H HK; cbn [sk_fields]; [apply eqr_refl|].
  assert (Hf : ok (f_ty f)) by (apply H; left; reflexivity). assert (HKf : okk (f_ty f)) by (apply HK; left; reflexivity).
  specialize (IH (fun g Hg => H g (or_intror Hg)) (fun g Hg => HK g (or_intror Hg))).
  destruct (falive cur f); ext. apply loc_sk_ty; assumption.
Qed.
Lemma loc_sk_derived : forall s, (forall f, has_field s f -> ok (f_ty f)) -> (forall f, has_field s f -> okk (f_ty f)) -> eqr (sk_derived E srec rec s) (sk_derived E srec' rec' s).
Proof.
  intros s H HK. unfold sk_derived. apply eqr_bind; [apply eqr_refl|]. intros a. unfold sk_body. unfold has_field in H, HK. destruct (sent s a) as [h|]; [|apply eqr_refl].
  destruct (s_body s) as [fs|vs]; (destruct (h_opt h); [apply eqr_refl|]).
  - apply loc_sk_fields; assumption.
  - unfold sk_enum_legacy. destruct (calc_disc a vs) eqn:Ed; [|apply eqr_refl]. apply eqr_bind; [apply eqr_refl|]. intros x.
    destruct (find_disc _ _) as [[vr d']|] eqn:Ef; [|apply eqr_refl]. pose proof (find_disc_in _ _ _ _ _ _ Ed Ef) as Hv.
    apply loc_sk_fields; intros f Hf; [apply H|apply HK]; exists vr; auto.
Qed.
End Sk.
End De.
Section Wt.
Variables rec rec' : N -> val -> Prop.
Notation ok t := (forall n, In n (names t) -> forall v, rec n v -> rec' n v).
Lemma loc_wt_ty : forall t, ok t -> forall v, wt_ty E rec t v -> wt_ty E rec' t v.
Proof.
  induction t; intros H v Hw; cbn [names] in H;
    try (assert (H1 : ok t1) by (nm H); assert (H2 : ok t2) by (nm H); specialize (IHt1 H1); specialize (IHt2 H2));
    try specialize (IHt H);
    destruct v; cbn [wt_ty] in Hw |- *; try contradiction; try exact Hw; try (apply H; [left; reflexivity|exact Hw]); try (apply IHt; exact Hw);
    try (destruct Hw; split; auto; fail);
    try (destruct Hw as (Hw1 & Hw); split; [exact Hw1|]; eapply Forall_impl; [exact IHt|exact Hw]).
  - destruct Hw as (A & B & Hw). split; [exact A|]. split; [exact B|]. eapply Forall_impl; [exact IHt|exact Hw].
  - destruct k as [|[]]; try contradiction; destruct l as [|x [|]]; try contradiction; auto.
  - destruct k as [|[]]; try contradiction; destruct l as [|x [|]]; try contradiction; auto.
  - destruct k as [|[[]|[]|]]; try contradiction; destruct l as [|x [|]]; try contradiction; auto.
  - destruct Hw as (A & Hw & B). split; [exact A|]. split; [|exact B]. eapply Forall_impl; [|exact Hw]. intros []; try contradiction. intros []; auto.
  - destruct Hw as (A & Hw & B). split; [exact A|]. split; [|exact B]. eapply Forall_impl; [exact IHt|exact Hw].
  - destruct Hw as (A & Hw & B). split; [exact A|]. split; [|exact B]. eapply Forall_impl; [exact IHt|exact Hw].
Qed.
Lemma loc_wt_fields : forall r fs, (forall f, In f fs -> ok (f_ty f)) -> forall l, wt_fields E rec r fs l -> wt_fields E rec' r fs l.
Proof.
  intros r fs H l. unfold wt_fields. assert (K : forall f, In f (filter (falive r) fs) -> ok (f_ty f)) by (intros f Hf; apply filter_In in Hf; apply H, Hf).
  revert l. induction (filter (falive r) fs) as [|f gs IH]; intros l Hl; inversion Hl; subst; constructor.
  - eapply loc_wt_ty; [apply K; left; reflexivity|assumption].
  - apply IH; [|assumption]. intros g Hg. apply K. right. exact Hg.
Qed.
Lemma loc_wt_derived : forall s, (forall f, has_field s f -> ok (f_ty f)) -> forall v, wt_derived E rec s v -> wt_derived E rec' s v.
Proof.
  intros s H v. unfold wt_derived. unfold has_field in H. destruct (s_body s) as [fs|vs]; destruct v; try contradiction.
  - apply loc_wt_fields, H.
  - intros (vr & A & B & C & D). exists vr. split; [exact A|]. split; [exact B|]. split; [exact C|]. apply loc_wt_fields with (2 := D). intros f Hf. apply H. exists vr. auto.
Qed.
End Wt.
End Cong.

Section Loc.
Variables (E : env) (S : N -> option schema) (U : N -> Prop).
Hypothesis HU : forall n s f m, U n -> e_sch E n = Some s -> has_field s f -> In m (names (f_ty f)) -> U m.
Hypothesis HS : forall n, U n -> S n = e_sch E n.
Notation E' := (set_sch E S).
Lemma loc_ser_ref : forall d n, U n -> forall v, ser_ref E' d n v = ser_ref E d n v.
Proof.
  induction d as [|d IH]; intros n Hn v; cbn [ser_ref]; [reflexivity|]. change (e_sch E' n) with (S n). rewrite (HS n Hn). destruct (e_sch E n) as [s|] eqn:Es; [|reflexivity].
  change (ser_derived E' (ser_ref E' d) s v) with (ser_derived E (ser_ref E' d) s v). apply loc_ser_derived. intros f Hf m Hm w. apply IH. eapply HU; eassumption.
Qed.
Lemma loc_de_ref : forall d n, U n -> eqr (de_ref E' d n) (de_ref E d n).
Proof.
  induction d as [|d IH]; intros n Hn; cbn [de_ref]; [apply eqr_refl|]. change (e_sch E' n) with (S n). rewrite (HS n Hn). destruct (e_sch E n) as [s|] eqn:Es; [|apply eqr_refl].
  change (de_derived E' (de_ref E' d) s) with (de_derived E (de_ref E' d) s). apply loc_de_derived. intros f Hf m Hm. apply IH. eapply HU; eassumption.
Qed.
Lemma loc_sk_ref : forall d n, U n -> eqr (sk_ref E' d n) (sk_ref E d n).
Proof.
  induction d as [|d IH]; intros n Hn; cbn [sk_ref]; [apply eqr_refl|]. change (e_sch E' n) with (S n). rewrite (HS n Hn). destruct (e_sch E n) as [s|] eqn:Es; [|apply eqr_refl].
  change (sk_derived E' (sk_ref E' d) (de_ref E' d) s) with (sk_derived E (sk_ref E' d) (de_ref E' d) s). apply loc_sk_derived; intros f Hf m Hm; [apply loc_de_ref|apply IH]; eapply HU; eassumption.
Qed.
Lemma loc_wt_ref : forall d n, U n -> forall v, wt_ref E' d n v <-> wt_ref E d n v.
Proof.
  induction d as [|d IH]; intros n Hn v; cbn [wt_ref]; [tauto|]. change (e_sch E' n) with (S n). rewrite (HS n Hn). destruct (e_sch E n) as [s|] eqn:Es; [|tauto].
  change (wt_derived E' (wt_ref E' d) s v) with (wt_derived E (wt_ref E' d) s v).
  split; apply loc_wt_derived; intros f Hf m Hm w Hw; apply IH; try exact Hw; eapply HU; eassumption.
Qed.
End Loc.
