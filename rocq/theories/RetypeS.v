(** Proofs for changing the type of a field in place: what is written. *)

From Verif Require Import Base BaseL Prog ProgL Prim PrimL Utf8 Tag Ty Ser De Typed SortL RtL RtId OrdL DiscL StepsL Transp TranspL Retype RetypeL.
From Coq Require Import List NArith ZArith Bool Lia Permutation.
Import ListNotations.
Open Scope N_scope.

Lemma enc_128 : forall x, x < 2 ^ 64 -> encode_u128 x = encode_u64 x.
Proof. intros x H. unfold encode_u128, encode_u64. apply N.ltb_lt in H. rewrite H. reflexivity. Qed.
Lemma zz_in : forall a b z, 0 < a -> a <= b -> inS a z -> zigzag b z = zz z.
Proof. intros a b z Ha Hab H. apply zigzag_zz; [lia|]. eapply inS_mono; eassumption. Qed.
Lemma ser_wider : forall E i i' z, wider_int E i i' = true -> in_ity (e_ub E) i z -> ser_int (e_fw E) i z = ser_int (e_fw E) i' z.
Proof.
  intros E i i' z W H.
  assert (U : forall n, inU n z -> n <= 64 -> Z.to_N z < 2 ^ 64).
  { intros n Hn L. apply inU_N in Hn. eapply N.lt_le_trans; [apply Hn|]. apply N.pow_le_mono_r; [discriminate|exact L]. }
  unfold in_ity in H.
  destruct i, i'; cbn [wider_int ity_signed ity_bits] in W, H; try discriminate W;
    try (apply andb_true_iff in W; destruct W as [W W2]); try (apply negb_true_iff in W; rewrite W);
    cbn [ser_int]; unfold ser_u16, ser_u32, ser_u64, ser_u128, ser_usize, ser_i16, ser_i32, ser_i64, ser_i128, ser_isize, ser_u64, ser_i64; try reflexivity.
  all: try (apply N.eqb_eq in W2; rewrite W2 in H).
  all: try (rewrite enc_128; [reflexivity|eapply U; [exact H|lia]]).
  all: try (rewrite (zz_in 16) by (try lia; exact H); try rewrite (zz_in 16) by (try lia; exact H); try reflexivity; rewrite enc_128; [reflexivity|]; apply zz_bound; [lia|]; apply (inS_mono 16); [lia|lia|exact H]).
  all: try (rewrite (zz_in 32) by (try lia; exact H); try rewrite (zz_in 32) by (try lia; exact H); try reflexivity; rewrite enc_128; [reflexivity|]; apply zz_bound; [lia|]; apply (inS_mono 32); [lia|lia|exact H]).
  all: try (rewrite (zz_in 64) by (try lia; exact H); try rewrite (zz_in 64) by (try lia; exact H); try reflexivity; rewrite enc_128; [reflexivity|]; apply zz_bound; [lia|]; exact H).
Qed.

Section S.
Variable E : env.
Variable S : N -> option schema.
Hypothesis W : wf_env E.
Hypothesis HS : retyped E True S.
Notation E' := (set_sch E S).

Section Ser.
Variables rec rec' : N -> val -> ser.
Variable wrec : N -> val -> Prop.
Hypothesis Hrec : forall n v, wrec n v -> keeps (rec n v) (rec' n v).
Lemma iter_in : forall t l x, In x (e_iter E t l) -> In x l.
Proof. intros t l x H. eapply Permutation_in; [apply (we_iter E W)|exact H]. Qed.
Lemma citer_in : forall k t l x, In x (citer E k t l) -> In x l.
Proof. intros [] t l x H; [eapply iter_in; exact H|exact H]. Qed.
Lemma seq_up : forall (P : val -> Prop) f f' l n, Forall P l -> (forall x, P x -> keeps (f x) (f' x)) ->
  keeps (Ok [WAll (ser_len E n)] +++ sconcat (map f l)) (Ok [WAll (ser_len E' n)] +++ sconcat (map f' l)).
Proof.
  intros P f f' l n Hl H. apply keeps_sbind; [apply keeps_refl|]. apply keeps_sconcat. intros x Hx. apply H. rewrite Forall_forall in Hl. apply Hl, Hx.
Qed.
Lemma entry_up : forall (P Q : val -> Prop) f f' g g' p, (forall x, P x -> keeps (f x) (f' x)) -> (forall x, Q x -> keeps (g x) (g' x)) ->
  match p with VPair x y => P x /\ Q y | _ => False end -> keeps (ser_entry f g p) (ser_entry f' g' p).
Proof. intros P Q f f' g g' p Hf Hg H. destruct p; try contradiction. cbn [ser_entry]. destruct H. apply keeps_sbind; auto. Qed.
Lemma iter_fa : forall (P : val -> Prop) l l', (forall x, In x l' -> In x l) -> Forall P l -> Forall P l'.
Proof. intros P l l' H Hl. rewrite Forall_forall in *. auto. Qed.
Lemma ser_up_ty : forall t v, wt_ty E wrec t v -> keeps (ser_ty E rec t v) (ser_ty E' rec' t v).
Proof.
  induction t; intros v H; destruct v; cbn [wt_ty] in H; cbn [ser_ty]; try contradiction; try apply keeps_refl; try (apply Hrec; assumption);
    try (apply IHt; assumption); try (apply IHt; apply H).
  - destruct H. apply keeps_sbind; auto.
  - change (e_spec E') with (e_spec E). destruct (if e_spec E then bulk_of t else None); [apply keeps_refl|]. destruct H as (_ & _ & H). eapply seq_up; eauto.
  - destruct H as (_ & H). eapply seq_up; eauto.
  - destruct (Nat.eqb _ _); [|apply keeps_refl]. destruct H as (_ & H). apply keeps_sconcat. intros x Hx. rewrite Forall_forall in H. auto.
  - destruct k as [|[]]; try contradiction; destruct l as [|x [|]]; try contradiction; [apply keeps_refl|]. apply keeps_sbind; [apply keeps_refl|auto].
  - destruct k as [|[]]; try contradiction; destruct l as [|x [|]]; try contradiction; (apply keeps_sbind; [apply keeps_refl|auto]).
  - destruct k as [|[[]|[]|]]; try contradiction; destruct l as [|x [|]]; try contradiction; try apply keeps_refl; (apply keeps_sbind; [apply keeps_refl|auto]).
  - destruct H as (_ & H & _). change (citer E' k (TMap k t1 t2) l) with (citer E k (TMap k t1 t2) l).
    eapply (seq_up (fun p => match p with VPair x y => wt_ty E wrec t1 x /\ wt_ty E wrec t2 y | _ => False end)); [eapply iter_fa; [intros x; apply citer_in|exact H]|].
    intros p. apply entry_up; assumption.
  - destruct H as (_ & H & _). change (citer E' k (TSet k t) l) with (citer E k (TSet k t) l). eapply seq_up; [eapply iter_fa; [intros x; apply citer_in|exact H]|assumption].
  - destruct H as (_ & H & _). change (e_iter E' (THeap t) l) with (e_iter E (THeap t) l). eapply seq_up; [eapply iter_fa; [intros x; apply iter_in|exact H]|assumption].
Qed.
Lemma ser_up : forall t t', widens E True t t' -> forall v, wt_ty E wrec t v -> keeps (ser_ty E rec t v) (ser_ty E' rec' t' v).
Proof.
  induction 1; intros v Hv.
  - apply ser_up_ty, Hv.
  - destruct v; cbn [wt_ty] in Hv; try contradiction. cbn [ser_ty]. rewrite (ser_wider E i i' z H Hv). apply keeps_refl.
  - destruct v; cbn [wt_ty] in Hv; try contradiction. destruct Hv as (_ & Hu & _). cbn [ser_ty]. rewrite Hu. apply keeps_refl.
  - destruct v; cbn [wt_ty] in Hv; try contradiction. cbn [ser_ty]. destruct (utf8_ok b); [apply keeps_refl|intros x K; discriminate K].
  - destruct v; cbn [wt_ty] in Hv; try contradiction. apply keeps_refl.
  - destruct v; cbn [wt_ty] in Hv; try contradiction. cbn [ser_ty]. destruct (utf8_ok b); [apply keeps_refl|intros x K; discriminate K].
  - assert (K : wt_ty E wrec t v) by (destruct v; apply Hv). replace (ser_ty E rec (TExt c m t) v) with (ser_ty E rec t v) by (destruct v; reflexivity). auto.
  - assert (K : wt_ty E wrec t v) by (destruct v; apply Hv). destruct v; cbn [ser_ty]; auto.
  - cbn [wt_ty] in Hv. replace (ser_ty E rec (TWrap t) v) with (ser_ty E rec t v) by (destruct v; reflexivity). destruct v; auto.
  - replace (ser_ty E' rec' (TWrap t') v) with (ser_ty E' rec' t' v) by (destruct v; reflexivity). auto.
  - destruct v; cbn [wt_ty] in Hv; try contradiction. destruct Hv. cbn [ser_ty]. apply keeps_sbind; auto.
  - destruct v; cbn [wt_ty] in Hv; try contradiction. destruct Hv as (_ & _ & Hv). cbn [ser_ty]. change (e_spec E') with (e_spec E). rewrite !(no_bulk E) by assumption. eapply seq_up; eauto.
  - destruct v; cbn [wt_ty] in Hv; try contradiction. destruct Hv as (_ & _ & Hv). cbn [ser_ty]. rewrite !(no_bulk E) by assumption. eapply seq_up; eauto.
  - destruct v; cbn [wt_ty] in Hv; try contradiction. destruct Hv as (_ & Hv). cbn [ser_ty]. change (e_spec E') with (e_spec E). rewrite !(no_bulk E) by assumption. eapply seq_up; eauto.
  - destruct v; cbn [wt_ty] in Hv; try contradiction. destruct Hv as (_ & Hv). cbn [ser_ty]. eapply seq_up; eauto.
  - destruct v; cbn [wt_ty] in Hv; try contradiction. destruct Hv as (_ & Hv). cbn [ser_ty]. destruct (Nat.eqb _ _); [|apply keeps_refl]. apply keeps_sconcat. intros x Hx. rewrite Forall_forall in Hv. auto.
  - destruct v; cbn [wt_ty] in Hv; try contradiction. cbn [ser_ty]. destruct k as [|[]]; try contradiction; destruct l as [|x [|]]; try contradiction; [apply keeps_refl|]. apply keeps_sbind; [apply keeps_refl|auto].
  - destruct v; cbn [wt_ty] in Hv; try contradiction. cbn [ser_ty]. destruct k as [|[]]; try contradiction; destruct l as [|x [|]]; try contradiction; (apply keeps_sbind; [apply keeps_refl|auto]).
  - destruct v; cbn [wt_ty] in Hv; try contradiction. cbn [ser_ty]. destruct k as [|[[]|[]|]]; try contradiction; destruct l as [|x [|]]; try contradiction; try apply keeps_refl; (apply keeps_sbind; [apply keeps_refl|auto]).
  - destruct v; cbn [wt_ty] in Hv; try contradiction. destruct Hv as (_ & Hv & _). cbn [ser_ty]. change (citer E' k' (TMap k' a' b') l) with (citer E k' (TMap k' a' b') l). rewrite <- (H3 I).
    eapply (seq_up (fun p => match p with VPair x y => wt_ty E wrec a x /\ wt_ty E wrec b y | _ => False end)); [eapply iter_fa; [intros x; apply citer_in|exact Hv]|].
    intros p. apply entry_up; assumption.
  - destruct v; cbn [wt_ty] in Hv; try contradiction. destruct Hv as (_ & Hv & _). cbn [ser_ty]. change (citer E' k' (TSet k' t') l) with (citer E k' (TSet k' t') l). rewrite <- (H2 I).
    eapply seq_up; [eapply iter_fa; [intros x; apply citer_in|exact Hv]|assumption].
  - destruct v; cbn [wt_ty] in Hv; try contradiction. destruct Hv as (_ & Hv & _). cbn [ser_ty]. change (e_iter E' (THeap t') l) with (e_iter E (THeap t') l). rewrite <- (H0 I).
    eapply seq_up; [eapply iter_fa; [intros x; apply iter_in|exact Hv]|assumption].
Qed.
Lemma ser_up_mode : forall m t v, wt_ty E wrec t v -> keeps (ser_mode E rec m t v) (ser_mode E' rec' m t v).
Proof.
  intros m t v H. destruct m; cbn [ser_mode].
  - apply ser_up_ty, H.
  - apply keeps_refl.
  - apply keeps_refl.
  - destruct t; try apply keeps_refl. destruct v; try apply keeps_refl. cbn [wt_ty] in H. destruct H as (_ & H & _). apply keeps_rbind; [|intros; apply keeps_refl].
    change (citer E' k (TMap k t1 t2) l) with (citer E k (TMap k t1 t2) l). apply keeps_rmapM. intros x Hx. apply citer_in in Hx. rewrite Forall_forall in H. specialize (H x Hx).
    destruct x; try contradiction. destruct H. cbn [pre_entry]. apply keeps_rbind; [apply keeps_bytes, ser_up_ty; assumption|]. intros y. apply keeps_rbind; [apply keeps_bytes, ser_up_ty; assumption|]. intros. apply keeps_refl.
  - destruct t; try apply keeps_refl; destruct v; try apply keeps_refl; cbn [wt_ty] in H; (apply keeps_rbind; [|intros; apply keeps_refl]); apply keeps_rmapM; intros x Hx; apply keeps_bytes, ser_up_ty.
    + destruct H as (_ & _ & H). rewrite Forall_forall in H. auto.
    + destruct H as (_ & H). rewrite Forall_forall in H. auto.
  - destruct t; try apply keeps_refl; destruct v; try apply keeps_refl; cbn [wt_ty] in H. destruct H as (_ & H & _). apply keeps_rbind; [|intros; apply keeps_refl].
    change (citer E' k (TSet k t) l) with (citer E k (TSet k t) l). apply keeps_rmapM. intros x Hx. apply citer_in in Hx. rewrite Forall_forall in H. apply keeps_bytes, ser_up_ty. auto.
Qed.
Lemma ser_mode_up : forall opt f f' v, retyped_field E True f f' -> wt_ty E wrec (f_ty f) v ->
  keeps (ser_mode E rec (mode_of opt f) (f_ty f) v) (ser_mode E' rec' (mode_of opt f') (f_ty f') v).
Proof.
  intros opt f f' v (_ & _ & _ & _ & H1 & H2 & H3 & H) Hv. replace (mode_of opt f') with (mode_of opt f) by (unfold mode_of, mode_opt, mode_legacy; rewrite H1, H2, H3; reflexivity).
  destruct H as [->|(Hw & K1 & K2 & K3)]; [apply ser_up_mode, Hv|].
  replace (mode_of opt f) with MPlain by (unfold mode_of, mode_opt, mode_legacy; rewrite K1, K2, K3; destruct opt; reflexivity). apply (ser_up _ _ Hw v Hv).
Qed.
Lemma ser_up_fields : forall opt r fs fs', Forall2 (retyped_field E True) fs fs' -> forall vs, wt_fields E wrec r fs vs ->
  Forall2 keeps (ser_fields E rec opt r fs vs) (ser_fields E' rec' opt r fs' vs).
Proof.
  unfold wt_fields. intros opt r fs fs' H. induction H as [|f f' fs fs' Hf H IH]; intros vs Hv; cbn [ser_fields filter] in *.
  - inversion Hv; subst. constructor.
  - rewrite (re_alive E True f f' r Hf). destruct (falive r f); [|apply IH, Hv]. inversion Hv; subst. constructor; [apply ser_mode_up; assumption|apply IH; assumption].
Qed.
Lemma ser_up_vfields : forall r fs fs', Forall2 (retyped_field E True) fs fs' -> forall vs, wt_fields E wrec r fs vs ->
  Forall2 keeps (ser_vfields E rec r fs vs) (ser_vfields E' rec' r fs' vs).
Proof.
  unfold wt_fields. intros r fs fs' H. induction H as [|f f' fs fs' Hf H IH]; intros vs Hv; cbn [ser_vfields filter] in *.
  - inversion Hv; subst. constructor.
  - rewrite (re_alive E True f f' r Hf). destruct (falive r f); [|apply IH, Hv]. inversion Hv; subst. constructor; [apply ser_up; [apply re_field_ty, Hf|assumption]|apply IH; assumption].
Qed.
Lemma ser_up_derived : forall s s', wf_schema s -> retyped_schema E True s s' -> forall v, wt_derived E wrec s v -> keeps (ser_derived E rec s v) (ser_derived E' rec' s' v).
Proof.
  intros s s' Hwf [Hh Hb] v Hv. unfold ser_derived, sent, scur. rewrite Hh. destruct (if len (s_hist s) =? 0 then None else _) as [h|]; [|apply keeps_refl].
  apply keeps_sbind; [apply keeps_refl|]. unfold wt_derived, scur in Hv. unfold wf_schema in Hwf. destruct Hwf as (_ & _ & Hwf).
  destruct (s_body s) as [fs|vs], (s_body s') as [fs'|vs']; try contradiction.
  - unfold ser_struct. destruct v; try contradiction. destruct (h_opt h).
    + unfold ser_struct_opt. apply keeps_rbind; [|intros; apply keeps_refl]. apply keeps_rmapM2, ser_up_fields; assumption.
    + apply keeps_sconcat2, ser_up_fields; assumption.
  - unfold ser_enum. destruct v; try contradiction. destruct Hv as (vr0 & Hin & Hn & Ha & Hv). destruct Hwf as (Hnd & _). pose proof (re_calc E True (len (s_hist s)) vs vs' Hb) as C.
    destruct (calc_disc _ vs) as [ds|] eqn:Ed, (calc_disc _ vs') as [ds'|]; try contradiction; [|apply keeps_refl].
    unfold find_name. pose proof (re_find E True (fun p => v_name (fst p) =? k) (fun p => v_name (fst p) =? k) ds ds' C) as F.
    match type of F with ?P -> _ => assert (FP : P) end.
    { intros p p' [(Hn' & _) _]. rewrite Hn'. reflexivity. }
    specialize (F FP). destruct (find _ ds) as [[vr d]|] eqn:Ef, (find _ ds') as [[vr' d']|]; try contradiction; [|apply keeps_refl].
    assert (vr = vr0).
    { apply find_some in Ef. destruct Ef as [Hi He]. cbn [fst] in He. apply N.eqb_eq in He.
      assert (Hi' : In vr vs).
      { apply calc_disc_fst in Ed. apply (in_map fst) in Hi. rewrite Ed in Hi. apply filter_In in Hi. apply Hi. }
      pose proof (find_by_name vs vr Hnd Hi') as F1. pose proof (find_by_name vs vr0 Hnd Hin) as F2. rewrite He in F1. rewrite Hn in F2. congruence. }
    subst vr0. destruct F as [(Hn' & Hs & He & Ho & Hz & Hc & Hf) Hd]. cbn [fst snd] in *. subst d'.
    destruct (h_opt h).
    + unfold ser_variant_opt. rewrite Hz. destruct (v_size vr) as [[|n|]|]; try apply keeps_refl.
      * apply keeps_sbind; [apply keeps_refl|]. apply keeps_rbind; [apply keeps_rmapM2, ser_up_vfields; assumption|]. intros. apply keeps_refl.
      * apply keeps_sbind; [apply keeps_refl|]. apply keeps_rbind; [apply keeps_rmapM2, ser_up_vfields; assumption|]. intros. apply keeps_refl.
    + apply keeps_sbind; [apply keeps_refl|]. apply keeps_sconcat2, ser_up_fields; assumption.
Qed.
End Ser.
Lemma ser_up_ref : forall d n v, wt_ref E d n v -> keeps (ser_ref E d n v) (ser_ref E' d n v).
Proof.
  induction d as [|d IH]; intros n v H; cbn [ser_ref wt_ref] in *; [contradiction|]. cbn [set_sch e_sch]. pose proof (HS n) as Hn.
  destruct (e_sch E n) as [s|] eqn:Es, (S n) as [s'|]; try contradiction. apply (ser_up_derived _ _ (wt_ref E d)); [exact IH|eapply (we_sch E W); exact Es|exact Hn|exact H].
Qed.
Lemma to_vec_up : forall d t t' v b, widens E True t t' -> wt E d t v -> to_vec E d t v = Ok b -> to_vec E' d t' v = Ok b.
Proof.
  intros d t t' v b Hw Hv H. unfold to_vec, to_writer in *. revert H. apply keeps_bytes. apply (ser_up _ _ (wt_ref E d)); [apply ser_up_ref|exact Hw|exact Hv].
Qed.
End S.
