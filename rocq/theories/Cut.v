(** What has reached the writer when one of two runs stops: a prefix of the calls of the other run.  Proofs. *)

From Verif Require Import Base Prog Prim Utf8 Tag Ty Ser De Agree Partial.
From Verif Require Deeper Checked.
From Coq Require Import List NArith ZArith Bool Lia.
Import ListNotations.
Open Scope N_scope.

Section Cut.
Variable P : pan -> Prop.
Definition rp {A} (r r' : res A) : Prop := r = r' \/ exists x, P x /\ r = Panic x.
Definition cut (a b : pw) : Prop := a = b \/ exists x l, P x /\ snd a = Panic x /\ fst b = fst a ++ l.

Lemma cut_refl : forall a, cut a a.
Proof. left. reflexivity. Qed.
Lemma cut_do : forall s s', rp s s' -> cut (pdo s) (pdo s').
Proof. intros s s' [->|(x & Hx & ->)]; [apply cut_refl|right]. exists x, (fst (pdo s')). auto. Qed.
Lemma cut_then : forall a a' b b', cut a a' -> cut b b' -> cut (a >>> b) (a' >>> b').
Proof.
  intros a a' b b' [->|(x & l & Hx & H1 & H2)] Hb.
  - unfold pthen. destruct (snd a') as [u|e|x]; [|apply cut_refl..]. destruct Hb as [->|(x & l & Hx & H1 & H2)]; [apply cut_refl|right].
    exists x, l. cbn [fst snd]. rewrite H2, app_assoc. auto.
  - right. unfold pthen. rewrite H1. destruct (snd a') as [u|e|y]; cbn [fst]; [exists x, (l ++ fst b')|exists x, l..]; rewrite H2; [rewrite <- app_assoc|..]; auto.
Qed.
Lemma cut_concat : forall l l', Forall2 cut l l' -> cut (pconcat l) (pconcat l').
Proof. intros l l' H. induction H as [|x y l l' H H' IH]; [apply cut_refl|]. apply (cut_then x y _ _ H IH). Qed.
Lemma cut_each : forall A (f f' : A -> pw) l, (forall x, cut (f x) (f' x)) -> Forall2 cut (map f l) (map f' l).
Proof. intros A f f' l H. induction l as [|x l IH]; [constructor|]. cbn [map]. constructor; [apply H|exact IH]. Qed.

Ltac csame := match goal with |- cut ?m ?m => apply cut_refl end.

Section Enc.
Variable E0 : env.
Variables g g' : bool.
Local Notation E := (set_lim (e_mem E0) g E0).
Local Notation E' := (set_lim (e_mem E0) g' E0).
Variables rec rec' : N -> val -> pw.
Variables srec srec' : N -> val -> ser.
Hypothesis Hr : forall n v, cut (rec n v) (rec' n v).
Hypothesis Ht : forall t v, rp (ser_ty E srec t v) (ser_ty E' srec' t v).
Hypothesis Hm : forall m t v, rp (ser_mode E srec m t v) (ser_mode E' srec' m t v).
Hypothesis Ho : forall i r fs vs, rp (ser_struct_opt E srec i r fs vs) (ser_struct_opt E' srec' i r fs vs).
Hypothesis Hg : forall d c, rp (rbind (tag_new_checked g d c) write_tag) (rbind (tag_new_checked g' d c) write_tag).
Hypothesis Hv : forall r fs vs, rp (rmapM ser_bytes (ser_vfields E srec r fs vs)) (rmapM ser_bytes (ser_vfields E' srec' r fs vs)).
Hypothesis Hx : forall n b, rp (if g && negb (len b =? n) then Panic PAssert else sall b) (if g' && negb (len b =? n) then Panic PAssert else sall b).

Lemma rp_bind : forall A B (r r' : res A) (f f' : A -> res B), rp r r' -> (forall a, rp (f a) (f' a)) -> rp (rbind r f) (rbind r' f').
Proof. intros A B r r' f f' [->|(x & Hx' & ->)] H; [|right; exists x; split; [exact Hx'|reflexivity]]. destruct r'; [apply H|left; reflexivity..]. Qed.

Lemma cut_ty : forall t v, cut (pw_ty E rec srec t v) (pw_ty E' rec' srec' t v).
Proof.
  induction t; intros v; try (apply cut_do, Ht);
  destruct v; cbn [pw_ty]; change (e_spec E') with (e_spec E); change (e_fw E') with (e_fw E); change (pw_bulk E') with (pw_bulk E); change (ser_len E') with (ser_len E); change (citer E') with (citer E); change (e_iter E') with (e_iter E);
    try csame; try apply IHt; try apply Hr; try (apply cut_do, Ht);
    try (apply cut_then; [apply IHt1|apply IHt2]);
    try (destruct (if e_spec E then bulk_of t else None); [apply cut_refl|]);
    try (destruct (Nat.eqb _ _); [|apply cut_refl]);
    try (apply cut_then; [apply cut_refl|]; apply cut_concat, cut_each; exact IHt); try (apply cut_concat, cut_each; exact IHt).
  - destruct k as [|[]]; try csame. destruct l as [|x [|]]; try csame. apply cut_then; [apply cut_refl|apply IHt].
  - destruct k as [|[]]; try csame; destruct l as [|x [|]]; try csame; (apply cut_then; [apply cut_refl|]); [apply IHt1|apply IHt2].
  - destruct k as [|[[]|[]|]]; try csame; destruct l as [|x [|]]; try csame; (apply cut_then; [apply cut_refl|]); apply IHt.
  - apply cut_then; [apply cut_refl|]. apply cut_concat, cut_each. intros []; cbn [pw_entry]; try csame. apply cut_then; [apply IHt1|apply IHt2].
Qed.
Lemma cut_mode : forall m t v, cut (pw_mode E rec srec m t v) (pw_mode E' rec' srec' m t v).
Proof.
  intros m t v. unfold pw_mode. change (pw_bulk E') with (pw_bulk E). destruct m; try apply cut_ty; try (apply cut_do, Hm); destruct t; try (apply cut_do, Hm); destruct v; try (apply cut_do, Hm).
  apply cut_refl.
Qed.
Lemma cut_fields : forall r fs vs, Forall2 cut (pw_fields E rec srec r fs vs) (pw_fields E' rec' srec' r fs vs).
Proof.
  intros r. induction fs as [|f fs IH]; intros vs; cbn [pw_fields].
  - destruct vs; constructor; [apply cut_refl|constructor].
  - destruct (falive r f); [|apply IH]. destruct vs as [|v vs]; constructor; [apply cut_refl|constructor|apply cut_mode|apply IH].
Qed.
Lemma cut_derived : forall s v, cut (pw_derived E rec srec s v) (pw_derived E' rec' srec' s v).
Proof.
  intros s v. unfold pw_derived. change (e_fw E') with (e_fw E). destruct (sent s (scur s)) as [h|]; [|apply cut_refl]. apply cut_then; [apply cut_refl|]. destruct (s_body s) as [fs|vs].
  - unfold pw_struct. destruct v; try csame. destruct (h_opt h); [|apply cut_concat, cut_fields]. apply cut_do, Ho.
  - unfold pw_enum. change (e_fw E') with (e_fw E). destruct v; try csame. destruct (calc_disc _ _) as [ds|]; [|apply cut_refl]. destruct (find_name _ _) as [[vr d]|]; [|apply cut_refl]. destruct (h_opt h).
    + unfold pw_variant_opt. change (e_dbg E) with g. change (e_dbg E') with g'.
      destruct (v_size vr) as [[|n|]|]; [apply cut_do, Hg| | |apply cut_refl]; (apply cut_then; [apply cut_do, Hg|]); apply cut_do; (apply rp_bind; [apply Hv|]); intros bs; [apply Hx|left; reflexivity].
    + apply cut_then; [apply cut_refl|]. apply cut_concat, cut_fields.
Qed.
End Enc.
End Cut.

(** ** Stacks *)
Lemma rp_deep : forall A (r r' : res A), Deeper.rd r r' -> rp (eq PStack) r r'.
Proof. intros A r r' [->| ->]; [left; reflexivity|right; eauto]. Qed.
Lemma deep_all : forall E rec rec', (forall n v, Deeper.rd (rec n v) (rec' n v)) -> forall i r fs vs, Deeper.rd (ser_struct_opt E rec i r fs vs) (ser_struct_opt E rec' i r fs vs).
Proof. intros E rec rec' H i r fs vs. unfold ser_struct_opt. apply Deeper.rd_bind; [apply Deeper.rd_all, Deeper.rd_fields, H|]. intros bs. apply Deeper.rd_refl. Qed.
Lemma cut_deep_ref : forall E d d' n v, (d <= d')%nat -> cut (eq PStack) (pw_ref E d n v) (pw_ref E d' n v).
Proof.
  intros E. induction d as [|d IH]; intros d' n v H.
  - right. exists PStack, (fst (pw_ref E d' n v)). auto.
  - destruct d' as [|d']; [lia|]. cbn [pw_ref]. destruct (e_sch E n) as [s|]; [|apply cut_refl].
    pose proof (cut_derived (eq PStack) E (e_dbg E) (e_dbg E)) as K. rewrite set_lim_same in K.
    assert (R : forall m w, Deeper.rd (ser_ref E d m w) (ser_ref E d' m w)) by (intros; apply Deeper.rd_ref; lia).
    apply K.
    + intros m w. apply IH. lia.
    + intros. apply rp_deep, Deeper.rd_ty, R.
    + intros. apply rp_deep, Deeper.rd_mode, R.
    + intros. apply rp_deep, deep_all, R.
    + intros. left. reflexivity.
    + intros. apply rp_deep, Deeper.rd_all, Deeper.rd_vfields, R.
    + intros. left. reflexivity.
Qed.
Lemma cut_deep : forall E d d' t v, (d <= d')%nat -> cut (eq PStack) (writes E d t v) (writes E d' t v).
Proof.
  intros E d d' t v H. pose proof (cut_ty (eq PStack) E (e_dbg E) (e_dbg E)) as K. rewrite set_lim_same in K. apply K.
  - intros n w. apply cut_deep_ref, H.
  - intros. apply rp_deep, Deeper.rd_ty. intros. apply Deeper.rd_ref, H.
Qed.

(** ** Builds *)
Lemma cut_check_ref : forall E d n v, cut Checked.check (pw_ref (set_lim (e_mem E) true E) d n v) (pw_ref (set_lim (e_mem E) false E) d n v).
Proof.
  intros E. induction d as [|d IH]; intros n v; [apply cut_refl|]. cbn [pw_ref]. change (e_sch (set_lim (e_mem E) false E) n) with (e_sch (set_lim (e_mem E) true E) n).
  destruct (e_sch _ n) as [s|]; [|apply cut_refl]. pose proof (Checked.rd_ref E d) as R. apply cut_derived.
  - exact IH.
  - intros. apply Checked.rd_ty, R.
  - intros. apply Checked.rd_mode, R.
  - intros. unfold ser_struct_opt. apply Checked.rd_bind; [apply Checked.rd_all, Checked.rd_fields, R|]. intros bs. apply Checked.rd_refl.
  - intros k c. unfold tag_new_checked. cbn [andb]. destruct (negb _); [right; exists PAssert; split; [left; reflexivity|reflexivity]|left; reflexivity].
  - intros. apply Checked.rd_all, Checked.rd_vfields, R.
  - intros k b. cbn [andb]. destruct (negb _); [right; exists PAssert; split; [left; reflexivity|reflexivity]|left; reflexivity].
Qed.
Lemma cut_check : forall E d t v, cut Checked.check (writes (set_lim (e_mem E) true E) d t v) (writes (set_lim (e_mem E) false E) d t v).
Proof.
  intros E d t v. apply cut_ty.
  - intros n w. apply cut_check_ref.
  - intros. apply Checked.rd_ty. apply Checked.rd_ref.
Qed.
