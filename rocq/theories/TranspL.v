(** Transparent wrappers do not change the wire format.  Proofs. *)

From Verif Require Import Base BaseL Prog ProgL Prim PrimL Utf8 Tag Ty Ser De SliceReader Skip Transp.
From Coq Require Import List NArith ZArith Bool Lia.
Import ListNotations.
Open Scope N_scope.

Definition eqr {A} (p q : prog A) : Prop := forall bs, run p bs = run q bs.
Lemma eqr_refl : forall A (p : prog A), eqr p p.
Proof. intros A p bs. reflexivity. Qed.
Lemma eqr_bind : forall A B (p p' : prog A) (f f' : A -> prog B), eqr p p' -> (forall a, eqr (f a) (f' a)) -> eqr (bind p f) (bind p' f').
Proof. intros A B p p' f f' H Hf bs. rewrite !run_bind, H. destruct (run p' bs) as [[a r]|e|x]; auto. apply Hf. Qed.
Lemma eqr_map_err : forall A g (p p' : prog A), eqr p p' -> eqr (map_err g p) (map_err g p').
Proof. intros A g p p' H bs. rewrite !run_map_err, H. reflexivity. Qed.
Lemma eqr_rep : forall A n (p p' : prog A), eqr p p' -> eqr (rep n p) (rep n p').
Proof. intros A n p p' H. induction n as [|n IH]; cbn [rep]; [apply eqr_refl|]. apply eqr_bind; [exact H|]. intros a. apply eqr_bind; [exact IH|]. intros l. apply eqr_refl. Qed.
Lemma eqr_rep_ : forall n (p p' : prog unit), eqr p p' -> eqr (rep_ n p) (rep_ n p').
Proof. intros n p p' H. induction n as [|n IH]; cbn [rep_]; [apply eqr_refl|]. apply eqr_bind; [exact H|]. intros a. exact IH. Qed.
Lemma eqr_in_buf : forall A (p p' : prog A) b, eqr p p' -> eqr (in_buf p b) (in_buf p' b).
Proof. intros A p p' b H. unfold in_buf. rewrite H. apply eqr_refl. Qed.

Lemma Forall2_refl_same : forall A (R : A -> A -> Prop) l, (forall x, R x x) -> Forall2 R l l.
Proof. intros A R l H. induction l; constructor; auto. Qed.
Lemma cbuild_ext : forall c c' key upd l, (forall x y, c x y = c' x y) -> cbuild c key upd l = cbuild c' key upd l.
Proof.
  intros c c' key upd l H.
  assert (I : forall e m, cinsert c key upd e m = cinsert c' key upd e m).
  { intros e m. induction m as [|x m IH]; [reflexivity|]. cbn [cinsert]. rewrite <- H, IH. reflexivity. }
  unfold cbuild. generalize (@nil val). induction l as [|e l IH]; intros acc; [reflexivity|]. cbn [fold_left]. rewrite I. apply IH.
Qed.

Section T.
Variable E : env.
Variable S : N -> option schema.
Hypothesis HS : rewrapped E S.
Notation E' := (set_sch E S).

(** Encoding. *)
Section Ser.
Variables rec rec' : N -> val -> ser.
Hypothesis Hrec : forall n v, rec n v = rec' n v.
Lemma ser_same_ty : forall t v, ser_ty E rec t v = ser_ty E' rec' t v.
Proof.
  induction t; intros v; destruct v; cbn [ser_ty]; try reflexivity; try apply Hrec; rewrite ?IHt1, ?IHt2, ?IHt; try reflexivity; try (apply IHt);
    try change (e_spec E') with (e_spec E);
    try (destruct (if e_spec E then bulk_of t else None); [reflexivity|]);
    try (destruct (Nat.eqb _ _); [|reflexivity]);
    try (do 2 f_equal; apply map_ext; intros; apply IHt).
  all: try (f_equal; apply map_ext; intros; apply IHt).
  - destruct k as [|[]]; try reflexivity. destruct l as [|x [|]]; try reflexivity. rewrite IHt. reflexivity.
  - destruct k as [|[]]; try reflexivity; destruct l as [|x [|]]; try reflexivity; rewrite ?IHt1, ?IHt2; reflexivity.
  - destruct k as [|[[]|[]|]]; try reflexivity; destruct l as [|x [|]]; try reflexivity; rewrite ?IHt; reflexivity.
  - do 2 f_equal. unfold citer. change (e_iter E') with (e_iter E). apply map_ext. intros []; cbn [ser_entry]; rewrite ?IHt1, ?IHt2; reflexivity.
Qed.
Lemma ser_same : forall t t', same_wire E t t' -> forall v, ser_ty E rec t v = ser_ty E' rec' t' v.
Proof.
  induction 1; intros v.
  - apply ser_same_ty.
  - cbn [ser_ty]. apply IHsame_wire.
  - cbn [ser_ty]. apply IHsame_wire.
  - destruct v; cbn [ser_ty]; try reflexivity. rewrite IHsame_wire1, IHsame_wire2. reflexivity.
  - destruct v; cbn [ser_ty]; try reflexivity. change (e_spec E') with (e_spec E).
    assert (K : (if e_spec E then bulk_of t' else None) = if e_spec E then bulk_of t else None) by (destruct (e_spec E); [rewrite H0; reflexivity|reflexivity]). rewrite K.
    destruct (if e_spec E then bulk_of t else None); [reflexivity|]. do 2 f_equal. apply map_ext. intros. apply IHsame_wire.
  - destruct v; cbn [ser_ty]; try reflexivity. do 2 f_equal. apply map_ext. intros. apply IHsame_wire.
  - destruct v; cbn [ser_ty]; try reflexivity. destruct (Nat.eqb _ _); [|reflexivity]. f_equal. apply map_ext. intros. apply IHsame_wire.
  - destruct v; cbn [ser_ty]; try reflexivity. destruct k as [|[]]; try reflexivity. destruct l as [|x [|]]; try reflexivity. rewrite IHsame_wire. reflexivity.
  - destruct v; cbn [ser_ty]; try reflexivity. destruct k as [|[]]; try reflexivity; destruct l as [|x [|]]; try reflexivity; rewrite ?IHsame_wire1, ?IHsame_wire2; reflexivity.
  - destruct v; cbn [ser_ty]; try reflexivity. destruct k as [|[[]|[]|]]; try reflexivity; destruct l as [|x [|]]; try reflexivity; rewrite ?IHsame_wire; reflexivity.
  - destruct v; cbn [ser_ty]; try reflexivity. do 2 f_equal. unfold citer. change (e_iter E') with (e_iter E). rewrite <- H2.
    apply map_ext. intros []; cbn [ser_entry]; rewrite ?IHsame_wire1, ?IHsame_wire2; reflexivity.
  - destruct v; cbn [ser_ty]; try reflexivity. do 2 f_equal. unfold citer. change (e_iter E') with (e_iter E). rewrite <- H1.
    apply map_ext. intros. apply IHsame_wire.
  - destruct v; cbn [ser_ty]; try reflexivity. do 2 f_equal. change (e_iter E') with (e_iter E). rewrite <- H0. apply map_ext. intros. apply IHsame_wire.
  - cbn [ser_ty]. apply IHsame_wire.
Qed.
Lemma rmapM_ext : forall A B (f g : A -> res B) l, (forall x, f x = g x) -> rmapM f l = rmapM g l.
Proof. intros A B f g l H. induction l as [|x l IH]; [reflexivity|]. cbn [rmapM]. rewrite H, IH. reflexivity. Qed.
Lemma ser_same_mode : forall m t v, ser_mode E rec m t v = ser_mode E' rec' m t v.
Proof.
  intros m t v. destruct m; cbn [ser_mode].
  - apply ser_same_ty.
  - reflexivity.
  - reflexivity.
  - destruct t; try reflexivity. destruct v; try reflexivity. f_equal. unfold citer. change (e_iter E') with (e_iter E). apply rmapM_ext.
    intros []; cbn [pre_entry]; rewrite ?ser_same_ty; reflexivity.
  - destruct t; try reflexivity; destruct v; try reflexivity; f_equal; apply rmapM_ext; intros; rewrite ser_same_ty; reflexivity.
  - destruct t; try reflexivity; destruct v; try reflexivity; f_equal; unfold citer; change (e_iter E') with (e_iter E); apply rmapM_ext; intros; rewrite ser_same_ty; reflexivity.
Qed.
Lemma same_alive : forall f f' r, same_field E f f' -> falive r f' = falive r f.
Proof. intros f f' r (H1 & H2 & _). unfold falive. rewrite H1, H2. reflexivity. Qed.
Lemma same_mode_of : forall opt f f', same_field E f f' -> mode_of opt f' = mode_of opt f.
Proof. intros opt f f' (_ & _ & _ & _ & H1 & H2 & H3 & _). unfold mode_of, mode_opt, mode_legacy. rewrite H1, H2, H3. reflexivity. Qed.
Lemma same_mode_removed : forall opt f f', same_field E f f' -> mode_removed opt f' = mode_removed opt f.
Proof. intros opt f f' (_ & _ & _ & _ & H1 & H2 & H3 & _). unfold mode_removed, mode_legacy. rewrite H1, H2. reflexivity. Qed.
Lemma same_field_ty : forall f f', same_field E f f' -> same_wire E (f_ty f) (f_ty f').
Proof. intros f f' (_ & _ & _ & _ & _ & _ & _ & [->|[H _]]); [apply sw_refl|exact H]. Qed.
Lemma same_field_mode : forall opt f f', same_field E f f' ->
  f_ty f' = f_ty f \/ (same_wire E (f_ty f) (f_ty f') /\ mode_of opt f = MPlain /\ mode_removed opt f = MPlain).
Proof.
  intros opt f f' (_ & _ & _ & _ & _ & _ & _ & [H|(H & H1 & H2 & H3)]); [left; exact H|right]. split; [exact H|].
  unfold mode_of, mode_opt, mode_removed, mode_legacy. rewrite H1, H2, H3. destruct opt; auto.
Qed.
Lemma ser_mode_field : forall opt f f' v, same_field E f f' -> ser_mode E rec (mode_of opt f) (f_ty f) v = ser_mode E' rec' (mode_of opt f') (f_ty f') v.
Proof.
  intros opt f f' v H. rewrite (same_mode_of opt f f' H). destruct (same_field_mode opt f f' H) as [->|(Hs & -> & _)].
  - apply ser_same_mode.
  - cbn [ser_mode]. apply ser_same, Hs.
Qed.
Lemma ser_same_fields : forall opt r fs fs', Forall2 (same_field E) fs fs' -> forall vs, ser_fields E rec opt r fs vs = ser_fields E' rec' opt r fs' vs.
Proof.
  intros opt r fs fs' H. induction H as [|f f' fs fs' Hf H IH]; intros vs; cbn [ser_fields]; [reflexivity|].
  rewrite (same_alive f f' r Hf). destruct (falive r f); [|apply IH]. destruct vs as [|v vs]; [reflexivity|].
  rewrite (ser_mode_field opt f f' v Hf), IH. reflexivity.
Qed.
Lemma ser_same_vfields : forall r fs fs', Forall2 (same_field E) fs fs' -> forall vs, ser_vfields E rec r fs vs = ser_vfields E' rec' r fs' vs.
Proof.
  intros r fs fs' H. induction H as [|f f' fs fs' Hf H IH]; intros vs; cbn [ser_vfields]; [reflexivity|].
  rewrite (same_alive f f' r Hf). destruct (falive r f); [|apply IH]. destruct vs as [|v vs]; [reflexivity|].
  rewrite (ser_same _ _ (same_field_ty f f' Hf) v), IH. reflexivity.
Qed.
End Ser.

Lemma same_valive : forall v v' r, same_variant E v v' -> valive r v' = valive r v.
Proof. intros v v' r (_ & H1 & H2 & _). unfold valive. rewrite H1, H2. reflexivity. Qed.
Definition same_disc (p p' : variant * N) : Prop := same_variant E (fst p) (fst p') /\ snd p' = snd p.
Lemma same_gather : forall r vs vs', Forall2 (same_variant E) vs vs' -> forall u, gather r vs' u = gather r vs u.
Proof.
  intros r vs vs' H. induction H as [|v v' vs vs' Hv H IH]; intros u; cbn [gather]; [reflexivity|].
  rewrite (same_valive v v' r Hv). destruct (valive r v); [|apply IH].
  replace (v_over v' r) with (v_over v r) by (destruct Hv as (_ & _ & _ & -> & _); reflexivity).
  destruct (v_over v r) as [d|]; [destruct (existsb _ _); [reflexivity|]|]; apply IH.
Qed.
Lemma same_assign : forall r vs vs', Forall2 (same_variant E) vs vs' -> forall u n, Forall2 same_disc (assign r vs u n) (assign r vs' u n).
Proof.
  intros r vs vs' H. induction H as [|v v' vs vs' Hv H IH]; intros u n; cbn [assign]; [constructor|].
  rewrite (same_valive v v' r Hv). destruct (valive r v); [|apply IH].
  replace (v_over v' r) with (v_over v r) by (destruct Hv as (_ & _ & _ & -> & _); reflexivity).
  destruct (v_over v r) as [d|]; constructor; try apply IH; split; auto.
Qed.
Lemma same_calc : forall r vs vs', Forall2 (same_variant E) vs vs' ->
  match calc_disc r vs, calc_disc r vs' with Some ds, Some ds' => Forall2 same_disc ds ds' | None, None => True | _, _ => False end.
Proof.
  intros r vs vs' H. unfold calc_disc. rewrite (same_gather r vs vs' H). destruct (gather r vs []); [|exact I]. apply same_assign, H.
Qed.
Lemma same_find : forall (f f' : variant * N -> bool) ds ds', Forall2 same_disc ds ds' -> (forall p p', same_disc p p' -> f' p' = f p) ->
  match find f ds, find f' ds' with Some p, Some p' => same_disc p p' | None, None => True | _, _ => False end.
Proof.
  intros f f' ds ds' H Hf. induction H as [|p p' ds ds' Hp H IH]; cbn [find]; [exact I|]. rewrite (Hf p p' Hp). destruct (f p); [exact Hp|exact IH].
Qed.

Lemma ser_same_derived : forall rec rec' s s', (forall n v, rec n v = rec' n v) -> same_schema E s s' -> forall v, ser_derived E rec s v = ser_derived E' rec' s' v.
Proof.
  intros rec rec' s s' Hrec [Hh Hb] v. unfold ser_derived, sent, scur. rewrite Hh. destruct (if len (s_hist s) =? 0 then None else _) as [h|]; [|reflexivity].
  f_equal. destruct (s_body s) as [fs|vs], (s_body s') as [fs'|vs']; try contradiction.
  - unfold ser_struct. destruct v; try reflexivity. unfold ser_struct_opt. rewrite !(ser_same_fields rec rec' Hrec _ _ fs fs' Hb). reflexivity.
  - unfold ser_enum. destruct v; try reflexivity. pose proof (same_calc (len (s_hist s)) vs vs' Hb) as C.
    destruct (calc_disc _ vs) as [ds|], (calc_disc _ vs') as [ds'|]; try contradiction; [|reflexivity].
    unfold find_name. pose proof (same_find (fun p => v_name (fst p) =? k) (fun p => v_name (fst p) =? k) ds ds' C) as F.
    match type of F with ?P -> _ => assert (FP : P) end.
    { intros p p' [(Hn & _) _]. rewrite Hn. reflexivity. }
    specialize (F FP). destruct (find _ ds) as [[vr d]|], (find _ ds') as [[vr' d']|]; try contradiction; [|reflexivity].
    destruct F as [(Hn & Hs & He & Ho & Hz & Hc & Hf) Hd]. cbn [fst snd] in *. subst d'.
    unfold ser_variant_opt. rewrite Hz. rewrite !(ser_same_vfields rec rec' Hrec _ _ _ Hf), !(ser_same_fields rec rec' Hrec _ _ _ _ Hf). reflexivity.
Qed.
Lemma ser_same_ref : forall d n v, ser_ref E d n v = ser_ref E' d n v.
Proof.
  induction d as [|d IH]; intros n v; cbn [ser_ref]; [reflexivity|]. cbn [set_sch e_sch]. pose proof (HS n) as H.
  destruct (e_sch E n) as [s|], (S n) as [s'|]; try contradiction; [|reflexivity]. apply ser_same_derived; [exact IH|exact H].
Qed.
Lemma to_writer_same : forall d t t' v, same_wire E t t' -> to_writer E d t v = to_writer E' d t' v.
Proof. intros d t t' v H. unfold to_writer. apply ser_same; [apply ser_same_ref|exact H]. Qed.

(** Decoding. *)
Hypothesis HM : e_mem E = None.
Lemma eqr_alloc : forall n m A (f f' : unit -> prog A), (forall u, eqr (f u) (f' u)) -> eqr (bind (alloc E n) f) (bind (alloc E' m) f').
Proof. intros n m A f f' H. unfold alloc. cbn [set_sch e_mem]. rewrite HM. cbn [bind]. apply H. Qed.
Lemma eqr_seq : forall n m p q, eqr p q -> eqr (de_seq E n p) (de_seq E' m q).
Proof.
  intros n m p q H. unfold de_seq. apply eqr_bind; [apply eqr_refl|]. intros k. destruct (k =? 0); [apply eqr_refl|].
  apply eqr_alloc. intros _. apply eqr_rep, H.
Qed.
Section De.
Variables rec rec' : N -> prog val.
Hypothesis Hrec : forall n, eqr (rec n) (rec' n).
Ltac em := first [apply eqr_refl | apply eqr_map_err; assumption | assumption].
Lemma eqr_entry : forall a b a' b', eqr a a' -> eqr b b' -> eqr (de_entry a b) (de_entry a' b').
Proof. intros. unfold de_entry. apply eqr_bind; [assumption|]. intros. apply eqr_bind; [assumption|]. intros. apply eqr_refl. Qed.
Lemma de_same_ty : forall t, eqr (de_ty E rec t) (de_ty E' rec' t).
Proof.
  induction t; cbn [de_ty]; try apply eqr_refl; try apply Hrec; try assumption.
  - apply eqr_bind; [assumption|]. intros. apply eqr_bind; [assumption|]. intros. apply eqr_refl.
  - change (e_spec E') with (e_spec E). destruct (if e_spec E then bulk_of t else None); [apply eqr_refl|].
    apply eqr_bind; [apply eqr_seq; assumption|]. intros. apply eqr_refl.
  - apply eqr_bind; [apply eqr_seq; assumption|]. intros. apply eqr_refl.
  - apply eqr_bind; [apply eqr_rep; assumption|]. intros. apply eqr_refl.
  - apply eqr_bind; [apply eqr_refl|]. intros b. destruct (b =? 0); [apply eqr_refl|]. destruct (b =? 1); [|apply eqr_refl]. apply eqr_bind; [assumption|]. intros. apply eqr_refl.
  - apply eqr_bind; [apply eqr_refl|]. intros b. destruct (b =? 0); [|destruct (b =? 1); [|apply eqr_refl]]; (apply eqr_bind; [apply eqr_map_err; assumption|]); intros; apply eqr_refl.
  - apply eqr_bind; [apply eqr_refl|]. intros b. destruct (b =? 0); [apply eqr_refl|]. destruct (b =? 1); [|destruct (b =? 2); [|apply eqr_refl]]; (apply eqr_bind; [apply eqr_map_err; assumption|]); intros; apply eqr_refl.
  - apply eqr_bind; [apply eqr_seq, eqr_entry; assumption|]. intros. apply eqr_refl.
  - apply eqr_bind; [apply eqr_seq; assumption|]. intros. apply eqr_refl.
  - apply eqr_bind; [apply eqr_seq; assumption|]. intros. apply eqr_refl.
  - apply eqr_bind; [assumption|]. intros x. apply eqr_refl.
Qed.
Lemma de_same : forall t t', same_wire E t t' -> eqr (de_ty E rec t) (de_ty E' rec' t').
Proof.
  induction 1; cbn [de_ty]; try assumption.
  - apply de_same_ty.
  - apply eqr_bind; [assumption|]. intros. apply eqr_bind; [assumption|]. intros. apply eqr_refl.
  - change (e_spec E') with (e_spec E).
    assert (K : (if e_spec E then bulk_of t' else None) = if e_spec E then bulk_of t else None) by (destruct (e_spec E); [rewrite H0; reflexivity|reflexivity]). rewrite K.
    destruct (if e_spec E then bulk_of t else None); [apply eqr_refl|]. apply eqr_bind; [apply eqr_seq; assumption|]. intros. apply eqr_refl.
  - apply eqr_bind; [apply eqr_seq; assumption|]. intros. apply eqr_refl.
  - apply eqr_bind; [apply eqr_rep; assumption|]. intros. apply eqr_refl.
  - apply eqr_bind; [apply eqr_refl|]. intros b. destruct (b =? 0); [apply eqr_refl|]. destruct (b =? 1); [|apply eqr_refl]. apply eqr_bind; [assumption|]. intros. apply eqr_refl.
  - apply eqr_bind; [apply eqr_refl|]. intros d. destruct (d =? 0); [|destruct (d =? 1); [|apply eqr_refl]]; (apply eqr_bind; [apply eqr_map_err; assumption|]); intros; apply eqr_refl.
  - apply eqr_bind; [apply eqr_refl|]. intros d. destruct (d =? 0); [apply eqr_refl|]. destruct (d =? 1); [|destruct (d =? 2); [|apply eqr_refl]]; (apply eqr_bind; [apply eqr_map_err; assumption|]); intros; apply eqr_refl.
  - apply eqr_bind; [apply eqr_seq, eqr_entry; assumption|]. intros l. unfold build_map. rewrite (cbuild_ext (e_cmp E a) (e_cmp E' a')) by assumption. apply eqr_refl.
  - apply eqr_bind; [apply eqr_seq; assumption|]. intros l. unfold build_set. rewrite (cbuild_ext (e_cmp E t) (e_cmp E' t')) by assumption. apply eqr_refl.
  - apply eqr_bind; [apply eqr_seq; assumption|]. intros. apply eqr_refl.
  - apply eqr_bind; [assumption|]. intros x. apply eqr_refl.
Qed.
Lemma de_same_mode : forall m t, eqr (de_mode E rec m t) (de_mode E' rec' m t).
Proof.
  intros m t.
  assert (Q : forall a, eqr (de_idx_seq E a (de_ty E rec a)) (de_idx_seq E' a (de_ty E' rec' a))).
  { intros a. unfold de_idx_seq. apply eqr_bind; [apply eqr_refl|]. intros fl. apply eqr_bind; [apply eqr_refl|]. intros n. change (e_ub E') with (e_ub E).
    destruct (N.land fl 1 =? 0); [apply eqr_alloc; intros _; apply eqr_rep, de_same_ty|]. destruct (n * 4 <? 2 ^ e_ub E); [|apply eqr_refl].
    apply eqr_bind; [apply eqr_refl|]. intros _. apply eqr_alloc. intros _. apply eqr_rep, de_same_ty. }
  destruct m; cbn [de_mode].
  - apply de_same_ty.
  - apply eqr_refl.
  - apply eqr_refl.
  - destruct t; try apply eqr_refl. apply eqr_bind; [|intros; apply eqr_refl].
    unfold de_idx_map. apply eqr_bind; [apply eqr_refl|]. intros fl. apply eqr_bind; [apply eqr_refl|]. intros n.
    assert (R : eqr
      (if N.land fl 1 =? 0 then l <- rep (N.to_nat n) (de_entry (de_ty E rec t1) (de_ty E rec t2)) ;; Ret (build_idx_map E t1 l)
       else if n * 8 <? 2 ^ e_ub E then m <- add8 E (n * 8) ;; advance m ;;; alloc E (n * e_esize E t1) ;;; ks <- rep (N.to_nat n) (de_ty E rec t1) ;;
         alloc E (n * e_esize E t2) ;;; vs <- rep (N.to_nat n) (de_ty E rec t2) ;; Ret (build_idx_map E t1 (map (fun p => VPair (fst p) (snd p)) (combine ks vs)))
       else Fail ESubReaderOverrun)
      (if N.land fl 1 =? 0 then l <- rep (N.to_nat n) (de_entry (de_ty E' rec' t1) (de_ty E' rec' t2)) ;; Ret (build_idx_map E' t1 l)
       else if n * 8 <? 2 ^ e_ub E' then m <- add8 E' (n * 8) ;; advance m ;;; alloc E' (n * e_esize E' t1) ;;; ks <- rep (N.to_nat n) (de_ty E' rec' t1) ;;
         alloc E' (n * e_esize E' t2) ;;; vs <- rep (N.to_nat n) (de_ty E' rec' t2) ;; Ret (build_idx_map E' t1 (map (fun p => VPair (fst p) (snd p)) (combine ks vs)))
       else Fail ESubReaderOverrun)).
    { change (e_ub E') with (e_ub E). destruct (N.land fl 1 =? 0).
      - apply eqr_bind; [apply eqr_rep, eqr_entry; apply de_same_ty|]. intros. apply eqr_refl.
      - destruct (n * 8 <? 2 ^ e_ub E); [|apply eqr_refl]. apply eqr_bind; [apply eqr_refl|]. intros m. apply eqr_bind; [apply eqr_refl|]. intros _.
        apply eqr_alloc. intros _. apply eqr_bind; [apply eqr_rep, de_same_ty|]. intros ks. apply eqr_alloc. intros _.
        apply eqr_bind; [apply eqr_rep, de_same_ty|]. intros vs. apply eqr_refl. }
    destruct k; [apply eqr_alloc; intros _; exact R|]. apply eqr_bind; [apply eqr_refl|]. intros _. exact R.
  - destruct t; try apply eqr_refl; (apply eqr_bind; [apply Q|intros; apply eqr_refl]).
  - destruct t; try apply eqr_refl; (apply eqr_bind; [apply Q|intros; apply eqr_refl]).
Qed.
Definition same_old (p p' : field * val) : Prop := same_field E (fst p) (fst p') /\ snd p' = snd p.
(** Programs whose results are related. *)
Definition relr {A B} (R : A -> B -> Prop) (p : prog A) (q : prog B) : Prop :=
  forall bs, match run p bs, run q bs with
             | Ok (a, r), Ok (b, r') => R a b /\ r = r'
             | Err e, Err e' => e = e'
             | Panic x, Panic x' => x = x'
             | _, _ => False
             end.
Lemma relr_eqr : forall A (p q : prog A), eqr p q -> relr eq p q.
Proof. intros A p q H bs. rewrite H. destruct (run q bs) as [[a r]|e|x]; auto. Qed.
Lemma relr_bind : forall A A' B B' (R : A -> A' -> Prop) (Q : B -> B' -> Prop) p p' f f',
  relr R p p' -> (forall a a', R a a' -> relr Q (f a) (f' a')) -> relr Q (bind p f) (bind p' f').
Proof.
  intros A A' B B' R Q p p' f f' H Hf bs. rewrite !run_bind. specialize (H bs).
  destruct (run p bs) as [[a r]|e|x], (run p' bs) as [[a' r']|e'|x']; try contradiction; try (exact H).
  destruct H as [H ->]. apply Hf. exact H.
Qed.
Lemma relr_bind_eqr : forall A A' B (R : A -> A' -> Prop) p p' (f : A -> prog B) f',
  relr R p p' -> (forall a a', R a a' -> eqr (f a) (f' a')) -> eqr (bind p f) (bind p' f').
Proof.
  intros A A' B R p p' f f' H Hf bs. rewrite !run_bind. specialize (H bs).
  destruct (run p bs) as [[a r]|e|x], (run p' bs) as [[a' r']|e'|x']; try contradiction; try (f_equal; exact H).
  destruct H as [H ->]. apply Hf. exact H.
Qed.
Definition same_pair (p p' : list val * list (field * val)) : Prop := fst p = fst p' /\ Forall2 same_old (snd p) (snd p').
Lemma de_mode_field : forall opt f f', same_field E f f' -> eqr (de_mode E rec (mode_of opt f) (f_ty f)) (de_mode E' rec' (mode_of opt f') (f_ty f')).
Proof.
  intros opt f f' H. rewrite (same_mode_of opt f f' H). destruct (same_field_mode opt f f' H) as [->|(Hs & -> & _)].
  - apply de_same_mode.
  - assert (K : forall t t', same_wire E t t' -> eqr (de_mode E rec MPlain t) (de_mode E' rec' MPlain t')) by (intros t t' Hs'; apply de_same, Hs').
    apply K, Hs.
Qed.
Lemma de_mode_field_removed : forall opt f f', same_field E f f' -> eqr (de_mode E rec (mode_removed opt f) (f_ty f)) (de_mode E' rec' (mode_removed opt f') (f_ty f')).
Proof.
  intros opt f f' H. rewrite (same_mode_removed opt f f' H). destruct (same_field_mode opt f f' H) as [->|(Hs & _ & ->)].
  - apply de_same_mode.
  - assert (K : forall t t', same_wire E t t' -> eqr (de_mode E rec MPlain t) (de_mode E' rec' MPlain t')) by (intros t t' Hs'; apply de_same, Hs').
    apply K, Hs.
Qed.
Lemma de_same_fields : forall opt cur tgt fs fs', Forall2 (same_field E) fs fs' -> relr same_pair (de_fields E rec opt cur tgt fs) (de_fields E' rec' opt cur tgt fs').
Proof.
  intros opt cur tgt fs fs' H. induction H as [|f f' fs fs' Hf H IH]; cbn [de_fields].
  - intros bs. cbn [run]. split; [split; [reflexivity|constructor]|reflexivity].
  - rewrite !(same_alive f f' _ Hf). destruct (falive cur f).
    + destruct (falive tgt f).
      * eapply relr_bind; [apply relr_eqr, de_mode_field, Hf|]. intros v v' <-. eapply relr_bind; [exact IH|]. intros [l o] [l' o'] [Hl Ho]. intros bs. cbn [run fst snd] in *. split; [|reflexivity]. split; cbn [fst snd]; [congruence|exact Ho].
      * eapply relr_bind; [apply relr_eqr, de_mode_field_removed, Hf|]. intros v v' <-. eapply relr_bind; [exact IH|]. intros [l o] [l' o'] [Hl Ho]. intros bs. cbn [run fst snd] in *. split; [|reflexivity]. split; cbn [fst snd]; [congruence|].
        constructor; [split; [exact Hf|reflexivity]|exact Ho].
    + destruct (falive tgt f); [|exact IH].
      replace (f_default f') with (f_default f) by (destruct Hf as (_ & _ & -> & _); reflexivity).
      eapply relr_bind; [apply relr_eqr, eqr_refl|]. intros v v' <-. eapply relr_bind; [exact IH|]. intros [l o] [l' o'] [Hl Ho]. intros bs. cbn [run fst snd] in *. split; [|reflexivity]. split; cbn [fst snd]; [congruence|exact Ho].
Qed.
Lemma same_converts : forall cur o o', Forall2 same_old o o' -> forall l, converts cur l o = converts cur l o'.
Proof.
  intros cur o o' H. induction H as [|[f v] [f' v'] o o' [Hf Hv] H IH]; intros l; cbn [converts]; [reflexivity|]. cbn [fst snd] in *. subst v'.
  replace (f_convert f') with (f_convert f) by (destruct Hf as (_ & _ & _ & -> & _); reflexivity).
  destruct (f_convert f l cur v); cbn [rbind]; [apply IH|reflexivity|reflexivity].
Qed.
Lemma de_same_content : forall A opt cur tgt fs fs' (g : list val -> prog A), Forall2 (same_field E) fs fs' ->
  eqr (p <- de_fields E rec opt cur tgt fs ;; l <- of_res (converts cur (fst p) (snd p)) ;; g l)
      (p <- de_fields E' rec' opt cur tgt fs' ;; l <- of_res (converts cur (fst p) (snd p)) ;; g l).
Proof.
  intros A opt cur tgt fs fs' g H. eapply relr_bind_eqr; [apply de_same_fields, H|]. intros [l o] [l' o'] [Hl Ho]. cbn [fst snd] in *. subst l'.
  rewrite (same_converts cur o o' Ho). apply eqr_refl.
Qed.
Lemma same_filter : forall cur fs fs', Forall2 (same_field E) fs fs' -> len (filter (falive cur) fs') = len (filter (falive cur) fs).
Proof.
  intros cur fs fs' H. induction H as [|f f' fs fs' Hf H IH]; [reflexivity|]. cbn [filter]. rewrite (same_alive f f' cur Hf). destruct (falive cur f); [|exact IH]. rewrite !len_cons, IH. reflexivity.
Qed.
Lemma de_same_vfields : forall cur fs fs', Forall2 (same_field E) fs fs' -> eqr (de_vfields E rec cur fs) (de_vfields E' rec' cur fs').
Proof.
  intros cur fs fs' H. induction H as [|f f' fs fs' Hf H IH]; cbn [de_vfields]; [apply eqr_refl|]. rewrite (same_alive f f' cur Hf). destruct (falive cur f); [|exact IH].
  apply eqr_bind; [apply de_same, same_field_ty, Hf|]. intros v. apply eqr_bind; [exact IH|]. intros. apply eqr_refl.
Qed.
Lemma de_same_derived : forall s s', same_schema E s s' -> eqr (de_derived E rec s) (de_derived E' rec' s').
Proof.
  intros s s' [Hh Hb]. unfold de_derived. apply eqr_bind; [apply eqr_refl|]. intros r. unfold de_body, sent, scur. rewrite Hh.
  destruct (if r =? 0 then None else _) as [h|]; [|apply eqr_refl].
  destruct (s_body s) as [fs|vs], (s_body s') as [fs'|vs']; try contradiction.
  - destruct (h_opt h).
    + unfold de_struct_opt. apply eqr_bind; [apply eqr_refl|]. intros n. apply eqr_alloc. intros _. apply eqr_bind; [apply eqr_refl|]. intros b. apply eqr_in_buf.
      unfold struct_payload. rewrite (same_filter r fs fs' Hb). apply eqr_bind; [apply eqr_refl|]. intros _. apply de_same_content, Hb.
    + unfold de_struct_legacy. apply de_same_content, Hb.
  - pose proof (same_calc r vs vs' Hb) as C. unfold de_enum_opt, de_enum_legacy. destruct (h_opt h).
    + destruct (calc_disc r vs) as [ds|], (calc_disc r vs') as [ds'|]; try contradiction; [|apply eqr_refl]. apply eqr_bind; [apply eqr_refl|]. intros [t c]. cbn [fst snd]. unfold find_tag.
      match goal with |- eqr (match find ?f ds with _ => _ end) (match find ?f' ds' with _ => _ end) => pose proof (same_find f f' ds ds' C) as F end.
      match type of F with ?P -> _ => assert (FP : P) end.
      { intros p p' [(_ & _ & _ & _ & Hz & _) Hd]. rewrite Hz, Hd. reflexivity. }
      specialize (F FP). destruct (find _ ds) as [[vr d]|], (find _ ds') as [[vr' d']|]; try contradiction; [|apply eqr_refl].
      destruct F as [Hv Hd]. cbn [fst snd] in *. pose proof (same_valive vr vr' (len (s_hist s)) Hv) as Ha. destruct Hv as (Hn & Hs & He & Ho & Hz & Hc & Hf).
      unfold de_variant_opt. rewrite Hz, Ha, Hn, Hc. apply eqr_bind.
      { destruct (v_size vr) as [[|n|]|]; apply eqr_refl. }
      intros buf. apply eqr_bind; [apply eqr_in_buf, de_same_vfields, Hf|]. intros l. apply eqr_refl.
    + destruct (calc_disc r vs) as [ds|], (calc_disc r vs') as [ds'|]; try contradiction; [|apply eqr_refl]. apply eqr_bind; [apply eqr_refl|]. intros d. unfold find_disc.
      pose proof (same_find (fun p => snd p =? d) (fun p => snd p =? d) ds ds' C) as F.
      match type of F with ?P -> _ => assert (FP : P) end.
      { intros p p' [_ Hd]. rewrite Hd. reflexivity. }
      specialize (F FP). destruct (find _ ds) as [[vr k]|], (find _ ds') as [[vr' k']|]; try contradiction; [|apply eqr_refl].
      destruct F as [Hv Hd]. cbn [fst snd] in *. pose proof (same_valive vr vr' (len (s_hist s)) Hv) as Ha. destruct Hv as (Hn & Hs & He & Ho & Hz & Hc & Hf).
      unfold de_variant_legacy. rewrite Ha, Hn, Hc. apply de_same_content, Hf.
Qed.
End De.
Lemma de_same_ref : forall d n, eqr (de_ref E d n) (de_ref E' d n).
Proof.
  induction d as [|d IH]; intros n; cbn [de_ref]; [apply eqr_refl|]. cbn [set_sch e_sch]. pose proof (HS n) as H.
  destruct (e_sch E n) as [s|], (S n) as [s'|]; try contradiction; [|apply eqr_refl]. apply de_same_derived; [exact IH|exact H].
Qed.
Lemma deserialize_same : forall d t t', same_wire E t t' -> eqr (deserialize E d t) (deserialize E' d t').
Proof. intros d t t' H. unfold deserialize. apply de_same; [apply de_same_ref|exact H]. Qed.

(** Skipping. *)
Section Sk.
Variables rec rec' : N -> prog unit.
Variables drec drec' : N -> prog val.
Hypothesis Hrec : forall n, eqr (rec n) (rec' n).
Hypothesis Hdrec : forall n, eqr (drec n) (drec' n).
Lemma sk_seq_same : forall p p', eqr p p' -> eqr (sk_seq E p) (sk_seq E' p').
Proof. intros p p' H. unfold sk_seq. apply eqr_bind; [apply eqr_refl|]. intros n. apply eqr_rep_, H. Qed.
Lemma sk_same : forall t t', same_wire E t t' -> eqr (sk_ty E rec drec t) (sk_ty E' rec' drec' t').
Proof.
  assert (W : forall t, eqr (sk_ty E rec drec t) (sk_ty E' rec' drec' t)).
  { induction t; cbn [sk_ty]; try apply eqr_refl; try assumption; try (apply Hrec).
    - apply eqr_bind; [assumption|]. intros _. assumption.
    - change (e_spec E') with (e_spec E). destruct (if e_spec E then bulk_of t else None); [apply eqr_refl|apply sk_seq_same; assumption].
    - apply sk_seq_same; assumption.
    - apply eqr_rep_; assumption.
    - apply eqr_bind; [apply eqr_refl|]. intros b. destruct (b =? 0); [apply eqr_refl|]. destruct (b =? 1); [assumption|apply eqr_refl].
    - apply eqr_bind; [apply eqr_refl|]. intros b. destruct (b =? 0); [assumption|]. destruct (b =? 1); [assumption|apply eqr_refl].
    - apply eqr_bind; [apply eqr_refl|]. intros b. destruct (b =? 0); [apply eqr_refl|]. destruct (b =? 1); [assumption|]. destruct (b =? 2); [assumption|apply eqr_refl].
    - apply sk_seq_same, eqr_bind; [assumption|]. intros _. assumption.
    - apply sk_seq_same; assumption.
    - apply sk_seq_same; assumption.
    - destruct mirror; [|assumption]. apply eqr_bind; [apply de_same_ty, Hdrec|]. intros _. apply eqr_refl. }
  induction 1; cbn [sk_ty]; try assumption.
  - apply W.
  - apply eqr_bind; [assumption|]. intros _. assumption.
  - change (e_spec E') with (e_spec E).
    assert (K : (if e_spec E then bulk_of t' else None) = if e_spec E then bulk_of t else None) by (destruct (e_spec E); [rewrite H0; reflexivity|reflexivity]). rewrite K.
    destruct (if e_spec E then bulk_of t else None); [apply eqr_refl|apply sk_seq_same; assumption].
  - apply sk_seq_same; assumption.
  - apply eqr_rep_; assumption.
  - apply eqr_bind; [apply eqr_refl|]. intros b. destruct (b =? 0); [apply eqr_refl|]. destruct (b =? 1); [assumption|apply eqr_refl].
  - apply eqr_bind; [apply eqr_refl|]. intros d. destruct (d =? 0); [assumption|]. destruct (d =? 1); [assumption|apply eqr_refl].
  - apply eqr_bind; [apply eqr_refl|]. intros d. destruct (d =? 0); [apply eqr_refl|]. destruct (d =? 1); [assumption|]. destruct (d =? 2); [assumption|apply eqr_refl].
  - apply sk_seq_same, eqr_bind; [assumption|]. intros _. assumption.
  - apply sk_seq_same; assumption.
  - apply sk_seq_same; assumption.
  - destruct m; [|assumption]. apply eqr_bind; [|intros _; apply eqr_refl]. apply de_same; [exact Hdrec|]. apply sw_ext. assumption.
Qed.
Lemma sk_same_fields : forall cur fs fs', Forall2 (same_field E) fs fs' -> eqr (sk_fields E rec drec cur fs) (sk_fields E' rec' drec' cur fs').
Proof.
  intros cur fs fs' H. induction H as [|f f' fs fs' Hf H IH]; cbn [sk_fields]; [apply eqr_refl|]. rewrite (same_alive f f' cur Hf). destruct (falive cur f); [|exact IH].
  apply eqr_bind; [|intros _; exact IH]. pose proof (same_field_ty f f' Hf) as Ht. destruct Hf as (_ & _ & _ & _ & Hx & _ & _ & Hc). rewrite Hx.
  destruct (f_fixed f) eqn:Ef; [|apply sk_same, Ht]. destruct Hc as [->|(_ & Hc & _)]; [apply eqr_refl|discriminate].
Qed.
Lemma same_table : forall ds ds', Forall2 same_disc ds ds' -> size_table ds = size_table ds'.
Proof.
  intros ds ds' H. unfold size_table. generalize (repeat 0 32). induction H as [|p p' ds ds' [Hv Hd] H IH]; intros l; cbn [fold_left]; [reflexivity|].
  destruct Hv as (_ & _ & _ & _ & Hz & _). rewrite Hz, Hd. apply IH.
Qed.
Lemma sk_same_derived : forall s s', same_schema E s s' -> eqr (sk_derived E rec drec s) (sk_derived E' rec' drec' s').
Proof.
  intros s s' [Hh Hb]. unfold sk_derived. apply eqr_bind; [apply eqr_refl|]. intros r. unfold sk_body, sent. rewrite Hh.
  destruct (if r =? 0 then None else _) as [h|]; [|apply eqr_refl].
  destruct (s_body s) as [fs|vs], (s_body s') as [fs'|vs']; try contradiction.
  - destruct (h_opt h); [apply eqr_refl|]. apply sk_same_fields, Hb.
  - pose proof (same_calc r vs vs' Hb) as C. unfold sk_enum_opt, sk_enum_legacy. destruct (h_opt h).
    + destruct (calc_disc r vs) as [ds|], (calc_disc r vs') as [ds'|]; try contradiction; [|apply eqr_refl]. rewrite (same_table ds ds' C). apply eqr_refl.
    + destruct (calc_disc r vs) as [ds|], (calc_disc r vs') as [ds'|]; try contradiction; [|apply eqr_refl]. apply eqr_bind; [apply eqr_refl|]. intros d. unfold find_disc.
      pose proof (same_find (fun p => snd p =? d) (fun p => snd p =? d) ds ds' C) as F.
      match type of F with ?P -> _ => assert (FP : P) end.
      { intros p p' [_ Hd]. rewrite Hd. reflexivity. }
      specialize (F FP). destruct (find _ ds) as [[vr k]|], (find _ ds') as [[vr' k']|]; try contradiction; [|apply eqr_refl].
      destruct F as [(Hn & Hs & He & Ho & Hz & Hc & Hf) Hd]. apply sk_same_fields, Hf.
Qed.
End Sk.
Lemma sk_same_ref : forall d n, eqr (sk_ref E d n) (sk_ref E' d n).
Proof.
  induction d as [|d IH]; intros n; cbn [sk_ref]; [apply eqr_refl|]. cbn [set_sch e_sch]. pose proof (HS n) as H.
  destruct (e_sch E n) as [s|], (S n) as [s'|]; try contradiction; [|apply eqr_refl]. apply sk_same_derived; [exact IH|apply de_same_ref|exact H].
Qed.
Lemma skip_same : forall d t t', same_wire E t t' -> eqr (skip E d t) (skip E' d t').
Proof. intros d t t' H. unfold skip. apply sk_same; [apply sk_same_ref|apply de_same_ref|exact H]. Qed.
End T.
