(** Neither encoding nor migrating values claims that input ended. *)

From Verif Require Import Base BaseL Prog ProgL Prim Utf8 Tag Ty Ser De Typed Mig Parts Spec Stream.
From Coq Require Import List NArith ZArith Bool.
Import ListNotations.
Open Scope N_scope.

Definition nio {A} (r : res A) : Prop := r <> Err EIo.
Lemma nio_ok : forall A (a : A), nio (Ok a). Proof. discriminate. Qed.
Lemma nio_panic : forall A x, nio (@Panic A x). Proof. discriminate. Qed.
Lemma nio_err : forall A e, e <> EIo -> nio (@Err A e). Proof. intros A e H K. injection K as K. contradiction. Qed.
Lemma nio_bind : forall A B (r : res A) (f : A -> res B), nio r -> (forall a, nio (f a)) -> nio (rbind r f).
Proof. intros A B r f Hr Hf. destruct r as [a|e|x]; cbn; [apply Hf|intros K; injection K as ->; apply Hr; reflexivity|discriminate]. Qed.
Lemma nio_map : forall A B (f : A -> B) r, nio r -> nio (rmap f r).
Proof. intros A B f r Hr. destruct r; cbn; try discriminate. intros K. injection K as ->. apply Hr. reflexivity. Qed.
Lemma nio_M : forall A B (f : A -> res B) l, (forall x, nio (f x)) -> nio (rmapM f l).
Proof. intros A B f l H. induction l as [|x l IH]; cbn [rmapM]; [discriminate|]. apply nio_bind; [apply H|]. intros. apply nio_bind; [exact IH|]. discriminate. Qed.
Lemma nio_M_in : forall A B (f : A -> res B) l, (forall x, In x l -> nio (f x)) -> nio (rmapM f l).
Proof.
  intros A B f l. induction l as [|x l IH]; intros H; cbn [rmapM]; [discriminate|]. apply nio_bind; [apply H; left; reflexivity|]. intros.
  apply nio_bind; [apply IH; intros; apply H; right; assumption|]. discriminate.
Qed.
Lemma nio_ser_bytes : forall s, nio s -> nio (ser_bytes s).
Proof. intros s H. unfold ser_bytes. apply nio_map, H. Qed.
Lemma nio_sbind : forall a b, nio a -> nio b -> nio (a +++ b).
Proof. intros a b Ha Hb. unfold nio in *. destruct a as [x|e|x], b as [y|e'|y]; cbn [sbind]; congruence. Qed.
Lemma nio_sconcat : forall l, Forall nio l -> nio (sconcat l).
Proof. induction 1 as [|x l Hx Hl IH]; cbn [sconcat fold_right]; [discriminate|]. apply nio_sbind; assumption. Qed.

Lemma nio_as_bool : forall v, nio (as_bool v). Proof. intros []; discriminate. Qed.
Lemma nio_as_int : forall v, nio (as_int v). Proof. intros []; discriminate. Qed.
Lemma nio_as_bytes : forall v, nio (as_bytes v). Proof. intros []; discriminate. Qed.
Lemma nio_bulk : forall E k l, nio (ser_bulk E k l).
Proof.
  intros E k l. unfold ser_bulk. apply nio_sbind; [discriminate|]. destruct (len l =? 0); [discriminate|].
  destruct k; [apply nio_bind; [apply nio_M, nio_as_bool|discriminate]|apply nio_bind; [apply nio_M, nio_as_int|discriminate]|].
  destruct (_ <? _); [apply nio_bind; [apply nio_M, nio_as_bytes|discriminate]|discriminate].
Qed.
Lemma nio_char : forall c, nio (ser_char c).
Proof. intros c. unfold ser_char. discriminate. Qed.
Lemma nio_idx_map : forall l, nio (enc_idx_map l).
Proof. intros l. unfold enc_idx_map. destruct (_ <? _); [discriminate|]. destruct (offsets _ _) as [[]|]; [destruct (offsets _ _) as [[]|]|]; discriminate. Qed.
Lemma nio_idx_seq : forall l, nio (enc_idx_seq l).
Proof. intros l. unfold enc_idx_seq. destruct (_ <? _); [discriminate|]. destruct (offsets _ _) as [[]|]; discriminate. Qed.
Lemma nio_payload : forall b, nio (ser_payload b).
Proof. intros b. unfold ser_payload. destruct (_ <? _); discriminate. Qed.
Lemma Forall_map_all : forall A B (P : B -> Prop) (f : A -> B) l, (forall x, P (f x)) -> Forall P (map f l).
Proof. intros A B P f l H. apply Forall_forall. intros y Hy. apply in_map_iff in Hy. destruct Hy as (x & <- & _). apply H. Qed.

Section Ser.
Variable E : env.
Variable rec : N -> val -> ser.
Hypothesis Hrec : forall n v, nio (rec n v).
Lemma nio_entry : forall f g p, (forall v, nio (f v)) -> (forall v, nio (g v)) -> nio (ser_entry f g p).
Proof. intros f g p Hf Hg. destruct p; try discriminate. apply nio_sbind; auto. Qed.
Lemma nio_ser_ty : forall t v, nio (ser_ty E rec t v).
Proof.
  induction t; intros v; cbn [ser_ty]; try (destruct v; try discriminate; apply nio_char); try (destruct v; discriminate).
  - destruct v; try discriminate. destruct (utf8_ok _); discriminate.
  - destruct v; try discriminate. apply nio_sbind; auto.
  - destruct v; try discriminate. destruct (if e_spec E then _ else _); [apply nio_bulk|]. apply nio_sbind; [discriminate|]. apply nio_sconcat, Forall_map_all. auto.
  - destruct v; try discriminate. apply nio_sbind; [discriminate|]. apply nio_sconcat, Forall_map_all. auto.
  - destruct v; try discriminate. destruct (Nat.eqb _ _); [|discriminate]. apply nio_sconcat, Forall_map_all. auto.
  - destruct v as [| | | | | |k l]; try discriminate. destruct k as [|[]], l as [|x []]; try discriminate. apply nio_sbind; [discriminate|auto].
  - destruct v as [| | | | | |k l]; try discriminate. destruct k as [|[]], l as [|x []]; try discriminate; apply nio_sbind; try discriminate; auto.
  - destruct v as [| | | | | |k l]; try discriminate. destruct k as [|[|[]|]], l as [|x []]; try discriminate; apply nio_sbind; try discriminate; auto.
  - destruct v; try discriminate. apply nio_sbind; [discriminate|]. apply nio_sconcat, Forall_map_all. intros; apply nio_entry; auto.
  - destruct v; try discriminate. apply nio_sbind; [discriminate|]. apply nio_sconcat, Forall_map_all. auto.
  - destruct v; try discriminate. apply nio_sbind; [discriminate|]. apply nio_sconcat, Forall_map_all. auto.
  - apply IHt.
  - destruct v as [| | | |[| | | | | | ] [| | | | | | ]| |]; discriminate.
  - destruct v as [| | | |[| | | | | | ] [| | | | | | ]| |]; try discriminate. destruct (_ <? _)%Z; discriminate.
  - apply IHt.
  - apply Hrec.
Qed.
Lemma nio_pre : forall f g p, (forall v, nio (f v)) -> (forall v, nio (g v)) -> nio (pre_entry f g p).
Proof. intros f g p Hf Hg. destruct p; try discriminate. cbn. apply nio_bind; [apply nio_ser_bytes; auto|]. intros. apply nio_bind; [apply nio_ser_bytes; auto|]. discriminate. Qed.
Lemma nio_sort_seq : forall (f : list bytes -> list bytes) bs, nio bs -> nio (rbind bs (fun b => rbind (enc_idx_seq (f b)) sall)).
Proof. intros f bs H. apply nio_bind; [exact H|]. intros. apply nio_bind; [apply nio_idx_seq|discriminate]. Qed.
Lemma nio_mode : forall m t v, nio (ser_mode E rec m t v).
Proof.
  intros m t v. destruct m; cbn [ser_mode]; [apply nio_ser_ty|..].
  - destruct v; try discriminate. destruct (fixed_of t) as [[]|]; discriminate.
  - destruct t; try discriminate. destruct v; try discriminate. destruct (bulk_of t); [apply nio_bulk|discriminate].
  - destruct t; try discriminate. destruct v; try discriminate. apply nio_bind; [apply nio_M; intros; apply nio_pre; intros; apply nio_ser_ty|]. intros. apply nio_bind; [apply nio_idx_map|discriminate].
  - destruct t; try discriminate; destruct v; try discriminate; apply (nio_sort_seq (fun b => b)); apply nio_M; intros; apply nio_ser_bytes, nio_ser_ty.
  - destruct t; try discriminate. destruct v; try discriminate. apply nio_sort_seq. apply nio_M. intros. apply nio_ser_bytes, nio_ser_ty.
Qed.
Lemma nio_fields : forall opt r fs vs, Forall nio (ser_fields E rec opt r fs vs).
Proof.
  intros opt r fs. induction fs as [|f fs IH]; intros vs; cbn [ser_fields].
  - destruct vs; repeat constructor. discriminate.
  - destruct (falive r f); [|apply IH]. destruct vs; constructor; [discriminate|constructor|apply nio_mode|apply IH].
Qed.
Lemma nio_vfields : forall r fs vs, Forall nio (ser_vfields E rec r fs vs).
Proof.
  intros r fs. induction fs as [|f fs IH]; intros vs; cbn [ser_vfields].
  - destruct vs; repeat constructor. discriminate.
  - destruct (falive r f); [|apply IH]. destruct vs; constructor; [discriminate|constructor|apply nio_ser_ty|apply IH].
Qed.
Lemma nio_all_bytes : forall l, Forall nio l -> nio (rmapM ser_bytes l).
Proof. intros l H. apply nio_M_in. intros x Hx. apply nio_ser_bytes. rewrite Forall_forall in H. apply H, Hx. Qed.
Lemma nio_derived : forall s v, nio (ser_derived E rec s v).
Proof.
  intros s v. unfold ser_derived. destruct (sent s (scur s)) as [h|]; [|discriminate]. apply nio_sbind; [discriminate|]. destruct (s_body s) as [fs|vs].
  - unfold ser_struct. destruct v; try discriminate. destruct (h_opt h); [|apply nio_sconcat, nio_fields].
    unfold ser_struct_opt. apply nio_bind; [apply nio_all_bytes, nio_fields|]. intros. apply nio_payload.
  - unfold ser_enum. destruct v; try discriminate. destruct (calc_disc _ _); [|discriminate]. destruct (find_name _ _) as [[vr kd]|]; [|discriminate].
    assert (Ht : forall c, nio (rbind (tag_new_checked (e_dbg E) kd c) write_tag)) by (intros; unfold tag_new_checked; destruct (_ && _); discriminate).
    destruct (h_opt h).
    + unfold ser_variant_opt. destruct (v_size vr) as [[]|]; [apply Ht| | |discriminate]; (apply nio_sbind; [apply Ht|]); (apply nio_bind; [apply nio_all_bytes, nio_vfields|]); intros.
      * cbv zeta. destruct (_ && _); discriminate.
      * apply nio_payload.
    + apply nio_sbind; [discriminate|]. apply nio_sconcat, nio_fields.
Qed.
End Ser.
Lemma nio_ser_ref : forall E d n v, nio (ser_ref E d n v).
Proof. intros E d. induction d as [|d IH]; intros n v; cbn [ser_ref]; [discriminate|]. destruct (e_sch E n); [|discriminate]. apply nio_derived. exact IH. Qed.

Section Mig.
Variables (E E' : env).
Variable rec : N -> val -> res val.
Variable se : ty -> val -> ser.
Hypothesis Hrec : forall n v, nio (rec n v).
Hypothesis Hse : forall t v, nio (se t v).
Lemma nio_mig_entry : forall f g p, (forall v, nio (f v)) -> (forall v, nio (g v)) -> nio (mig_entry f g p).
Proof. intros f g p Hf Hg. destruct p; try discriminate. cbn. apply nio_bind; [auto|]. intros. apply nio_bind; [auto|discriminate]. Qed.
Lemma nio_rewrap : forall A (r : res A), nio (rewrap r).
Proof. intros A []; discriminate. Qed.
Lemma nio_mig_ty : forall t v, nio (mig_ty E E' rec t v).
Proof.
  induction t; intros v; cbn [mig_ty]; try (destruct v; discriminate); try discriminate.
  - destruct v; try discriminate. apply nio_bind; [auto|]. intros. apply nio_bind; [auto|discriminate].
  - destruct v; try discriminate. apply nio_bind; [apply nio_M; auto|discriminate].
  - destruct v; try discriminate. apply nio_bind; [apply nio_M; auto|discriminate].
  - destruct v; try discriminate. apply nio_bind; [apply nio_M; auto|discriminate].
  - destruct v; try discriminate. apply nio_bind; [apply nio_M; auto|discriminate].
  - destruct v; try discriminate. apply nio_bind; [apply nio_rewrap|discriminate].
  - destruct v; try discriminate. apply nio_bind; [apply nio_rewrap|discriminate].
  - destruct v; try discriminate. apply nio_bind; [apply nio_M; intros; apply nio_mig_entry; auto|discriminate].
  - destruct v; try discriminate. apply nio_bind; [apply nio_M; auto|discriminate].
  - destruct v; try discriminate. apply nio_bind; [apply nio_M; auto|discriminate].
  - apply IHt.
  - destruct v as [| | | |[| | | | | | ] y| |]; try discriminate. destruct (_ <=? _)%Z; discriminate.
  - apply nio_bind; [apply IHt|]. intros. destruct (e_ext _ _ _); discriminate.
  - apply Hrec.
Qed.
Lemma nio_by_bytes : forall enc l, (forall x, nio (enc x)) -> nio (by_bytes enc l).
Proof. intros enc l H. unfold by_bytes. apply nio_bind; [apply nio_M, H|discriminate]. Qed.
Lemma nio_mig_mode : forall m t v, nio (mig_mode E E' rec se m t v).
Proof.
  intros m t v. unfold mig_mode. destruct m; try apply nio_mig_ty.
  - destruct t; try apply nio_mig_ty. destruct v; try apply nio_mig_ty. apply nio_bind; [apply nio_by_bytes; intros; apply nio_ser_bytes, Hse|]. intros.
    apply nio_bind; [|discriminate]. destruct (_ <? _); [apply nio_M; intros; apply nio_mig_entry; intros; apply nio_mig_ty|].
    apply nio_bind; [apply nio_M; intros; apply nio_mig_ty|]. intros. apply nio_bind; [apply nio_M; intros; apply nio_mig_ty|discriminate].
  - destruct t; try apply nio_mig_ty. destruct v; try apply nio_mig_ty. apply nio_bind; [apply nio_by_bytes; intros; apply nio_ser_bytes, Hse|]. intros.
    apply nio_bind; [apply nio_M; intros; apply nio_mig_ty|discriminate].
Qed.
Lemma nio_mig_fields : forall opt cur tgt fs vs, (forall f, In f fs -> forall r, nio (f_default f r)) -> nio (mig_fields E E' rec se opt cur tgt fs vs).
Proof.
  intros opt cur tgt fs. induction fs as [|f fs IH]; intros vs H; cbn [mig_fields]; [destruct vs; discriminate|].
  assert (IH' : forall vs, nio (mig_fields E E' rec se opt cur tgt fs vs)) by (intros; apply IH; intros; apply H; right; assumption).
  destruct (falive cur f).
  - destruct vs; [discriminate|]. apply nio_bind; [apply nio_mig_mode|]. intros. apply nio_bind; [apply IH'|]. intros. destruct (falive tgt f); discriminate.
  - destruct (falive tgt f); [|apply IH']. apply nio_bind; [apply H; left; reflexivity|]. intros. apply nio_bind; [apply IH'|discriminate].
Qed.
Lemma mig_fields_gone : forall opt cur tgt fs vs this gone, mig_fields E E' rec se opt cur tgt fs vs = Ok (this, gone) -> forall f v, In (f, v) gone -> In f fs.
Proof.
  intros opt cur tgt fs. induction fs as [|f fs IH]; intros vs this gone H g v Hg; cbn [mig_fields] in H.
  - destruct vs; [|discriminate]. injection H as <- <-. destruct Hg.
  - destruct (falive cur f).
    + destruct vs as [|x vs]; [discriminate|]. apply rbind_ok in H. destruct H as (y & _ & H). apply rbind_ok in H. destruct H as ([a b] & Hf & H).
      cbn [fst snd] in H. destruct (falive tgt f); injection H as <- <-; [right; eapply IH; eauto|]. destruct Hg as [K|Hg]; [injection K as -> _; left; reflexivity|right; eapply IH; eauto].
    + destruct (falive tgt f); [|right; eapply IH; eauto]. apply rbind_ok in H. destruct H as (y & _ & H). apply rbind_ok in H. destruct H as ([a b] & Hf & H).
      cbn [fst snd] in H. injection H as <- <-. right. eapply IH; eauto.
Qed.
Lemma nio_converts : forall cur rem this, (forall f v, In (f, v) rem -> forall l r x, nio (f_convert f l r x)) -> nio (mig_converts cur this rem).
Proof.
  intros cur rem. induction rem as [|[f v] rem IH]; intros this H; cbn [mig_converts]; [discriminate|].
  apply nio_bind; [eapply H; left; reflexivity|]. intros. apply IH. intros. eapply H. right. eassumption.
Qed.
Lemma nio_mig_body : forall opt cur tgt fs vs, (forall f, In f fs -> forall r, nio (f_default f r) /\ forall l v, nio (f_convert f l r v)) ->
  nio (mig_body E E' rec se opt cur tgt fs vs).
Proof.
  intros opt cur tgt fs vs H. unfold mig_body. destruct (mig_fields E E' rec se opt cur tgt fs vs) as [[this gone]|e|x] eqn:M; cbn [rbind].
  - apply nio_converts. intros f v Hf l r x. apply (proj2 (H f (mig_fields_gone _ _ _ _ _ _ _ M f v Hf) r)).
  - apply nio_err. intros ->. revert M. apply nio_mig_fields. intros. apply H. assumption.
  - discriminate.
Qed.
End Mig.
Lemma nio_mig_ref : forall E E' d n v, user_no_eof E' -> nio (mig_ref E E' d n v).
Proof.
  intros E E' d n v HU. revert n v. induction d as [|d IH]; intros n v; cbn [mig_ref]; [discriminate|].
  destruct (e_sch E n) as [s|]; [|discriminate]. destruct (e_sch E' n) as [s'|] eqn:Hs; [|discriminate]. destruct (sent s (scur s)) as [h|]; [|discriminate].
  destruct (HU n s' Hs) as [H1 H2]. assert (Hse : forall t v, nio (ser_ty E (ser_ref E d) t v)) by (intros; apply nio_ser_ty; intros; apply nio_ser_ref).
  unfold mig_derived. destruct (s_body s') as [fs|vs].
  - destruct v; try discriminate. apply nio_bind; [|discriminate]. apply nio_mig_body; [exact IH|exact Hse|]. intros f Hf r. exact (H1 f r Hf).
  - destruct v; try discriminate. destruct (find _ vs) as [vr|] eqn:F; [|discriminate]. apply find_some in F. destruct F as [F _].
    apply nio_bind; [apply nio_mig_body; [exact IH|exact Hse|]; intros f Hf r; exact (H1 f r (ex_intro _ vr (conj F Hf)))|]. intros. destruct (valive _ _); [discriminate|]. apply (H2 vs); auto.
Qed.
Theorem migrate_no_eof : forall E E' d t v, user_no_eof E' -> migrate E E' d t v <> Err EIo.
Proof. intros E E' d t v HU. apply nio_mig_ty. intros. apply nio_mig_ref, HU. Qed.
