(** Reading back with the program that wrote: migration is the identity.  Proofs. *)

From Verif Require Import Base BaseL Prog ProgL Prim PrimL Utf8 Utf8L Tag Ty Ser De Typed Mig SortL DiscL RtL RtTy RtDer RtSch.
From Coq Require Import List NArith ZArith Bool Lia ZifyBool Permutation Sorted.
Import ListNotations.
Open Scope N_scope.

Lemma sconcat_in : forall X (sf : X -> ser) l ops x, sconcat (map sf l) = Ok ops -> In x l -> exists o, sf x = Ok o.
Proof.
  intros X sf. induction l as [|y l IH]; intros ops x H Hx; [destruct Hx|].
  cbn [map] in H. rewrite sconcat_cons in H. apply sbind_ok in H. destruct H as (la & lb & Ha & Hb & _).
  destruct Hx as [->|Hx]; eauto.
Qed.
Lemma ser_bytes_ok : forall s b, ser_bytes s = Ok b -> exists ops, s = Ok ops /\ b = out ops.
Proof. intros s b H. unfold ser_bytes in H. apply rmap_ok in H. exact H. Qed.
Lemma rmapM_in : forall A B (f : A -> res B) l r x, rmapM f l = Ok r -> In x l -> exists y, f x = Ok y.
Proof.
  intros A B f l r x H Hx. apply rmapM_ok in H. destruct (Forall2_In_l _ _ _ _ _ _ H Hx) as (y & _ & Hy). eauto.
Qed.

Section Id.
Variable E : env.
Hypothesis W : wf_env E.

Lemma cmp_order : forall t, order (e_cmp E t).
Proof. intros t. apply lawful_order, we_cmp, W. Qed.
Lemma iter_perm : forall k t l, Permutation (citer E k t l) l.
Proof. intros [] t l; cbn; [apply we_iter, W|reflexivity]. Qed.

Section Rec.
Variables (recS : N -> val -> ser) (recM : N -> val -> res val) (recW : N -> val -> Prop).
Hypothesis Hrec : forall n v ops, recW n v -> recS n v = Ok ops -> recM n v = Ok v.
Let mg := mig_ty E E recM.
Let se := ser_ty E recS.

Lemma mig_bulk_id : forall t k v, bulk_of t = Some k -> wt_ty E recW t v -> mg t v = Ok v.
Proof.
  intros t k v Hk Hw. destruct t as [|[]| | | | | | | | | | | | | | | | | | | | | | | |]; cbn in Hk; try discriminate;
    destruct v; cbn in Hw; try contradiction; try reflexivity.
  cbn. destruct Hw as (_ & _ & ->). reflexivity.
Qed.

Lemma mig_ty_id : forall t v ops, wt_ty E recW t v -> se t v = Ok ops -> mg t v = Ok v.
Proof.
  unfold mg, se.
  induction t as [|i| | | | | | | | | |a IHa b IHb|t IH|t IH|n t IH|t IH|a IHa b IHb|t IH|k a IHa b IHb|k t IH|t IH|t IH| | |c m t IH|n];
    intros v ops Hw Hs; cbn [ser_ty mig_ty] in *; try (destruct v; reflexivity).
  - destruct v; cbn in Hw; try contradiction. destruct Hw as (_ & _ & ->). reflexivity.
  - destruct v; cbn in Hw; try contradiction. apply sbind_ok in Hs. destruct Hs as (la & lb & H1 & H2 & _).
    rewrite (IHa _ _ (proj1 Hw) H1). cbn. rewrite (IHb _ _ (proj2 Hw) H2). reflexivity.
  - destruct v; cbn [wt_ty] in Hw; try contradiction. destruct Hw as (_ & _ & Hf). rewrite Forall_forall in Hf.
    destruct (if e_spec E then bulk_of t else None) as [k|] eqn:Ek.
    + rewrite rmapM_id; [reflexivity|]. intros x Hx. eapply mig_bulk_id; [|apply Hf; assumption].
      destruct (e_spec E); [exact Ek|discriminate].
    + apply sbind_ok in Hs. destruct Hs as (la & lb & _ & H2 & _).
      rewrite rmapM_id; [reflexivity|]. intros x Hx. destruct (sconcat_in _ _ _ _ _ H2 Hx) as (o & Ho). eauto.
  - destruct v; cbn [wt_ty] in Hw; try contradiction. destruct Hw as (_ & Hf). rewrite Forall_forall in Hf.
    apply sbind_ok in Hs. destruct Hs as (la & lb & _ & H2 & _).
    rewrite rmapM_id; [reflexivity|]. intros x Hx. destruct (sconcat_in _ _ _ _ _ H2 Hx) as (o & Ho). eauto.
  - destruct v; cbn [wt_ty] in Hw; try contradiction. destruct Hw as (_ & Hf). rewrite Forall_forall in Hf.
    destruct (Nat.eqb (length l) n); [|discriminate].
    rewrite rmapM_id; [reflexivity|]. intros x Hx. destruct (sconcat_in _ _ _ _ _ Hs Hx) as (o & Ho). eauto.
  - destruct v as [| | | | | |k l]; cbn [wt_ty] in Hw; try contradiction.
    destruct k as [|[p|p|]]; try contradiction; destruct l as [|x [|y l]]; try contradiction; [reflexivity|].
    apply sbind_ok in Hs. destruct Hs as (la & lb & _ & H2 & _). cbn [rmapM]. rewrite (IH _ _ Hw H2). reflexivity.
  - destruct v as [| | | | | |k l]; cbn [wt_ty] in Hw; try contradiction.
    destruct k as [|[p|p|]]; try contradiction; destruct l as [|x [|y l]]; try contradiction.
    + apply sbind_ok in Hs. destruct Hs as (la & lb & _ & H2 & _). cbn [rmapM]. change (0 =? 0) with true. cbv iota.
      rewrite (IHa _ _ Hw H2). reflexivity.
    + apply sbind_ok in Hs. destruct Hs as (la & lb & _ & H2 & _). cbn [rmapM]. change (1 =? 0) with false. cbv iota.
      rewrite (IHb _ _ Hw H2). reflexivity.
  - destruct v as [| | | | | |k l]; cbn [wt_ty] in Hw; try contradiction.
    destruct k as [|[p|[p|p|]|]]; try contradiction; destruct l as [|x [|y l]]; try contradiction; [reflexivity| |];
    (apply sbind_ok in Hs; destruct Hs as (la & lb & _ & H2 & _); cbn [rmapM]; rewrite (IH _ _ Hw H2); reflexivity).
  - destruct v; cbn [wt_ty] in Hw; try contradiction. destruct Hw as (_ & Hf & Hsort).
    apply sbind_ok in Hs. destruct Hs as (la & lb & _ & H2 & _).
    pose proof (iter_perm k (TMap k a b) l) as P.
    rewrite rmapM_id.
    + cbn [rbind]. do 2 f_equal. apply cbuild_perm; [apply cmp_order|assumption|assumption].
    + intros p Hp. destruct (sconcat_in _ _ _ _ _ H2 Hp) as (o & Ho).
      apply (Permutation_in _ P) in Hp. rewrite Forall_forall in Hf. specialize (Hf p Hp).
      destruct p; try contradiction. cbn [ser_entry mig_entry] in *. apply sbind_ok in Ho.
      destruct Ho as (oa & ob & Ha & Hb & _). rewrite (IHa _ _ (proj1 Hf) Ha). cbn. rewrite (IHb _ _ (proj2 Hf) Hb). reflexivity.
  - destruct v; cbn [wt_ty] in Hw; try contradiction. destruct Hw as (_ & Hf & Hsort).
    apply sbind_ok in Hs. destruct Hs as (la & lb & _ & H2 & _).
    pose proof (iter_perm k (TSet k t) l) as P.
    rewrite rmapM_id.
    + cbn [rbind]. do 2 f_equal. apply cbuild_perm; [apply cmp_order|assumption|assumption].
    + intros p Hp. destruct (sconcat_in _ _ _ _ _ H2 Hp) as (o & Ho).
      apply (Permutation_in _ P) in Hp. rewrite Forall_forall in Hf. eauto.
  - destruct v; cbn [wt_ty] in Hw; try contradiction. destruct Hw as (_ & Hf & Hsort).
    apply sbind_ok in Hs. destruct Hs as (la & lb & _ & H2 & _).
    pose proof (we_iter _ W (THeap t) l) as P.
    rewrite rmapM_id.
    + cbn [rbind]. do 2 f_equal. apply ssort_unique; [apply vcmp_order|intros x y; apply vcmp_is_eq|assumption|assumption].
    + intros p Hp. destruct (sconcat_in _ _ _ _ _ H2 Hp) as (o & Ho).
      apply (Permutation_in _ P) in Hp. rewrite Forall_forall in Hf. eauto.
  - destruct v; eapply IH; eauto.
  - destruct v as [| | | |x y| |]; cbn in Hw; try contradiction. destruct x; try contradiction. destruct y; try contradiction.
    destruct Hw as [Hw _]. apply Z.leb_le in Hw. rewrite Hw. reflexivity.
  - assert (Hx : wt_ty E recW t v /\ e_ext E c v = Some v) by (destruct v; exact Hw).
    assert (Hy : ser_ty E recS t v = Ok ops) by (destruct v; exact Hs).
    destruct Hx as [Hx1 Hx2]. assert (Hz := IH _ _ Hx1 Hy). destruct v; rewrite Hz; cbn; rewrite Hx2; reflexivity.
  - destruct v; eapply Hrec; eauto.
Qed.

Lemma mig_mode_id : forall m t v ops, wt_ty E recW t v -> ser_mode E recS m t v = Ok ops ->
  mig_mode E E recM se m t v = Ok v.
Proof.
  intros m t v ops Hw Hs. destruct m.
  - replace (mig_mode E E recM se MPlain t v) with (mg t v) by (destruct t, v; reflexivity).
    eapply mig_ty_id; [exact Hw|]. cbn [ser_mode] in Hs. destruct t, v; exact Hs.
  - assert (exists x, fixed_of t = Some x) as ([s w] & Ef).
    { destruct (fixed_of t) as [x|] eqn:Ef; [eauto|]. exfalso. destruct v; try (destruct t; discriminate).
      cbn [ser_mode] in Hs. rewrite Ef in Hs. destruct t; discriminate. }
    destruct (fixed_of_wt _ _ _ _ _ _ Ef Hw) as (z & -> & _).
    destruct t as [|[]| | | | | | | | | | | | | | | | | | | | | | | |]; cbn in Ef; try discriminate; reflexivity.
  - destruct t, v; try discriminate. cbn [ser_mode] in Hs. cbn [mig_mode mig_ty].
    destruct (bulk_of t) as [k|] eqn:Ek; [|discriminate]. destruct Hw as (_ & _ & Hf).
    rewrite rmapM_id; [reflexivity|]. intros x Hx. rewrite Forall_forall in Hf. eapply mig_bulk_id; eauto.
  - destruct t as [| | | | | | | | | | | | | | | | | |k a b| | | | | | |]; try (destruct v; discriminate); destruct v; try discriminate.
    cbn [ser_mode] in Hs. cbn [mig_mode].
    apply rbind_ok in Hs. destruct Hs as (ps & Hps & _). destruct Hw as (_ & Hf & Hsort).
    set (it := citer E k (TMap k a b) l) in *.
    assert (Hit : Permutation it l) by apply iter_perm.
    assert (Hser : forall p, In p it -> exists x y kb vb, p = VPair x y /\ ser_bytes (se a x) = Ok kb /\ ser_bytes (se b y) = Ok vb
        /\ wt_ty E recW a x /\ wt_ty E recW b y).
    { intros p Hp. destruct (rmapM_in _ _ _ _ _ _ Hps Hp) as (q & Hq). apply (Permutation_in _ Hit) in Hp.
      rewrite Forall_forall in Hf. specialize (Hf p Hp). destruct p as [| | | |x y| |]; try contradiction. destruct Hf as [Hx Hy].
      cbn [pre_entry] in Hq. apply rbind_ok in Hq. destruct Hq as (kb & Hk & Hq). apply rbind_ok in Hq. destruct Hq as (vb & Hv & Hq).
      exists x, y, kb, vb. auto. }
    destruct (by_bytes_entries (fun p => ser_bytes (se a (pkey p))) _
        (pre_entry (ser_ty E recS a) (ser_ty E recS b)) fst it ps Hps) as (es & Hes & _ & Hp).
    { intros p q Hp Hq. destruct p; try discriminate. cbn [pre_entry pkey] in *.
      apply rbind_ok in Hq. destruct Hq as (kb & Hk & Hq). apply rbind_ok in Hq. destruct Hq as (vb & Hv & Hq).
      apply Ok_inj in Hq; subst. exact Hk. }
    rewrite Hes. cbn [rbind].
    assert (Hks : forall p, In p es -> exists x y, p = VPair x y /\ mg a x = Ok x /\ mg b y = Ok y).
    { intros p Hpe. apply (Permutation_in _ Hp) in Hpe. destruct (Hser p Hpe) as (x & y & kb & vb & -> & Hk & Hv & Hx & Hy).
      apply ser_bytes_ok in Hk. apply ser_bytes_ok in Hv. destruct Hk as (ok & Hk & _). destruct Hv as (ov & Hv & _).
      exists x, y. split; [reflexivity|]. split; eapply mig_ty_id; eauto. }
    assert (Hb : cbuild (e_cmp E a) pkey upd_insert es = l).
    { apply cbuild_perm; [apply cmp_order|assumption|]. rewrite Hp. exact Hit. }
    fold mg. destruct (len l <? OFFSET_TABLE_MIN_LEN).
    + rewrite rmapM_id; [cbn [rbind]; rewrite Hb; reflexivity|].
      intros p Hpe. destruct (Hks p Hpe) as (x & y & -> & Hx & Hy). cbn [mig_entry]. rewrite Hx. cbn. rewrite Hy. reflexivity.
    + assert (H1 : rmapM (fun p => mg a (pkey p)) es = Ok (map pkey es)).
      { apply rmapM_ok. clear - Hks. induction es as [|p es IH]; cbn; constructor.
        - destruct (Hks p (or_introl eq_refl)) as (x & y & -> & Hx & Hy). exact Hx.
        - apply IH. intros; apply Hks; right; assumption. }
      assert (H2 : rmapM (fun p => mg b (pval p)) es = Ok (map pval es)).
      { apply rmapM_ok. clear - Hks. induction es as [|p es IH]; cbn; constructor.
        - destruct (Hks p (or_introl eq_refl)) as (x & y & -> & Hx & Hy). exact Hy.
        - apply IH. intros; apply Hks; right; assumption. }
      rewrite H1. cbn [rbind]. rewrite H2. cbn [rbind].
      assert (H3 : map (fun p => VPair (fst p) (snd p)) (combine (map pkey es) (map pval es)) = es).
      { clear - Hks. induction es as [|p es IH]; cbn; [reflexivity|]. f_equal.
        - destruct (Hks p (or_introl eq_refl)) as (x & y & -> & _). reflexivity.
        - apply IH. intros; apply Hks; right; assumption. }
      rewrite H3, Hb. reflexivity.
  - assert (G : forall t' l, Forall (wt_ty E recW t') l -> v = VSeq l -> (t = TVec t' \/ t = TImVec t') ->
      mig_mode E E recM se MIdxSeq t v = Ok v).
    { intros t' l Hf -> Ht.
      assert (Hs' : rbind (rmapM (fun x => ser_bytes (ser_ty E recS t' x)) l) (fun bs => rbind (enc_idx_seq bs) sall) = Ok ops).
      { destruct Ht as [-> | ->]; exact Hs. }
      apply rbind_ok in Hs'. destruct Hs' as (bs & Hbs & _).
      assert (Hm : mig_mode E E recM se MIdxSeq t (VSeq l) = rbind (rmapM (mg t') l) (fun l' => Ok (VSeq l'))).
      { destruct Ht as [-> | ->]; reflexivity. }
      rewrite Hm, rmapM_id; [reflexivity|]. intros x Hx. destruct (rmapM_in _ _ _ _ _ _ Hbs Hx) as (b & Hb).
      apply ser_bytes_ok in Hb. destruct Hb as (o & Ho & _). rewrite Forall_forall in Hf. eapply mig_ty_id; eauto. }
    destruct t; try (destruct v; discriminate); destruct v; try discriminate.
    + destruct Hw as (_ & _ & W3). apply (G t l); auto.
    + destruct Hw as (_ & W3). apply (G t l); auto.
  - destruct t as [| | | | | | | | | | | | | | | | | | |k t| | | | | |]; try (destruct v; discriminate); destruct v; try discriminate.
    cbn [ser_mode] in Hs. cbn [mig_mode].
    apply rbind_ok in Hs. destruct Hs as (ps & Hps & _). destruct Hw as (_ & Hf & Hsort).
    set (it := citer E k (TSet k t) l) in *.
    assert (Hit : Permutation it l) by apply iter_perm.
    destruct (by_bytes_entries (fun x => ser_bytes (se t x)) _
        (fun x => ser_bytes (ser_ty E recS t x)) (fun b => b) it ps Hps) as (es & Hes & _ & Hp); [auto|].
    rewrite Hes. cbn [rbind]. fold mg. rewrite rmapM_id.
    + cbn [rbind]. do 2 f_equal. apply cbuild_perm; [apply cmp_order|assumption|]. rewrite Hp. exact Hit.
    + intros x Hx. apply (Permutation_in _ Hp) in Hx. destruct (rmapM_in _ _ _ _ _ _ Hps Hx) as (b & Hb).
      apply ser_bytes_ok in Hb. destruct Hb as (o & Ho & _). apply (Permutation_in _ Hit) in Hx.
      rewrite Forall_forall in Hf. eapply mig_ty_id; eauto.
Qed.

Lemma mig_fields_id : forall opt cur fs vs bs, wt_fields E recW cur fs vs ->
  rmapM ser_bytes (ser_fields E recS opt cur fs vs) = Ok bs ->
  mig_fields E E recM se opt cur cur fs vs = Ok (vs, []).
Proof.
  intros opt cur. unfold wt_fields. induction fs as [|f fs IH]; intros vs bs Hw Hs; cbn [ser_fields mig_fields filter] in *.
  - inversion Hw; subst. reflexivity.
  - destruct (falive cur f) eqn:Ef; [|eauto]. inversion Hw as [|? v ? vs' Hv Hvs]; subst.
    cbn [rmapM] in Hs. apply rbind_ok in Hs. destruct Hs as (b & Hb & Hs).
    apply rbind_ok in Hs. destruct Hs as (bs' & Hbs & _). apply ser_bytes_ok in Hb. destruct Hb as (o & Ho & _).
    rewrite (mig_mode_id _ _ _ _ Hv Ho). cbn [rbind]. rewrite (IH _ _ Hvs Hbs). reflexivity.
Qed.
Lemma mig_vfields_id : forall cur fs vs bs, wt_fields E recW cur fs vs ->
  rmapM ser_bytes (ser_vfields E recS cur fs vs) = Ok bs ->
  mig_fields E E recM se false cur cur fs vs = Ok (vs, []).
Proof.
  intros cur. unfold wt_fields. induction fs as [|f fs IH]; intros vs bs Hw Hs; cbn [ser_vfields mig_fields filter] in *.
  - inversion Hw; subst. reflexivity.
  - destruct (falive cur f) eqn:Ef; [|eauto]. inversion Hw as [|? v ? vs' Hv Hvs]; subst.
    cbn [rmapM] in Hs. apply rbind_ok in Hs. destruct Hs as (b & Hb & Hs).
    apply rbind_ok in Hs. destruct Hs as (bs' & Hbs & _). apply ser_bytes_ok in Hb. destruct Hb as (o & Ho & _).
    assert (Em : mig_mode E E recM se (mode_of false f) (f_ty f) v = mg (f_ty f) v).
    { cbn [mode_of]. unfold mode_legacy. destruct (f_fixed f); [|destruct (f_spec f)]; destruct (f_ty f), v; reflexivity. }
    rewrite Em, (mig_ty_id _ _ _ Hv Ho). cbn [rbind]. rewrite (IH _ _ Hvs Hbs). reflexivity.
Qed.
Lemma mig_body_id : forall opt cur fs vs, mig_fields E E recM se opt cur cur fs vs = Ok (vs, []) ->
  mig_body E E recM se opt cur cur fs vs = Ok vs.
Proof. intros opt cur fs vs H. unfold mig_body. rewrite H. reflexivity. Qed.

Lemma mig_derived_id : forall s v h ops, wf_schema s -> sent s (scur s) = Some h ->
  wt_derived E recW s v -> ser_derived E recS s v = Ok ops ->
  mig_derived E E recM se s (scur s) (h_opt h) v = Ok v.
Proof.
  intros s v h ops (_ & _ & Hwf) Hh Hw Hs. unfold ser_derived in Hs. rewrite Hh in Hs.
  apply sbind_ok in Hs. destruct Hs as (la & lb & _ & Hs & _). unfold mig_derived, wt_derived in *.
  destruct (s_body s) as [fs|vs].
  - destruct v as [| | | | |l|]; try contradiction. cbn [ser_struct] in Hs.
    rewrite mig_body_id; [reflexivity|]. destruct (h_opt h).
    + unfold ser_struct_opt in Hs. apply rbind_ok in Hs. destruct Hs as (bs & Hbs & _).
      eapply mig_fields_id; eauto.
    + apply sconcat_bytes in Hs. destruct Hs as (bs & Hbs & _). eapply mig_fields_id; eauto.
  - destruct v as [| | | | | |k l]; try contradiction. destruct Hw as (vr & Hin & Hk & Hal & Hw).
    destruct Hwf as (Hn & _ & Hr). cbn [ser_enum] in Hs.
    destruct (calc_disc (scur s) vs) as [ds|] eqn:Hds; [|discriminate].
    destruct (find_name k ds) as [[vr0 d]|] eqn:Ef; [|discriminate].
    apply find_some in Ef. destruct Ef as [Hin0 Hk0]. cbn [fst] in Hk0. apply N.eqb_eq in Hk0.
    assert (In vr0 (map fst ds)) as Hi by (apply in_map_iff; exists (vr0, d); auto).
    rewrite (calc_disc_fst _ _ _ Hds) in Hi. apply filter_In in Hi. destruct Hi as [Hi1 Hi2].
    assert (vr0 = vr) by (eapply NoDup_map_inj; [exact Hn|assumption|assumption|congruence]). subst vr0.
    assert (Hf : find (fun vr => v_name vr =? k) vs = Some vr).
    { apply find_some_uniq; [assumption|apply N.eqb_eq; assumption|]. intros y Hy Hyk. apply N.eqb_eq in Hyk.
      eapply NoDup_map_inj; [exact Hn|assumption|assumption|congruence]. }
    rewrite Hf.
    assert (Hm : mig_fields E E recM se false (scur s) (scur s) (v_fields vr) l = Ok (l, [])).
    { destruct (h_opt h) eqn:Eo.
      - unfold ser_variant_opt in Hs. destruct (v_size vr) as [[|n|]|] eqn:Esz; [| | |discriminate].
        + destruct (Hr _ _ Hh) as (ds0 & Hds0 & _ & Hopt). rewrite Hds in Hds0. inversion Hds0; subst ds0. clear Hds0.
          specialize (Hopt Eo). rewrite forallb_forall in Hopt. specialize (Hopt _ Hin0).
          unfold opt_variant_ok in Hopt. rewrite N.eqb_refl in Hopt. cbn [fst snd negb orb] in Hopt. rewrite Esz in Hopt. apply andb_prop in Hopt. destruct Hopt as [_ Hopt].
          unfold wt_fields in Hw. destruct (filter (falive (scur s)) (v_fields vr)) eqn:Efl; [|discriminate].
          inversion Hw; subst l. clear - Efl. induction (v_fields vr) as [|f fs IH]; [reflexivity|].
          cbn [filter mig_fields] in *. destruct (falive (scur s) f); [discriminate|auto].
        + apply sbind_ok in Hs. destruct Hs as (? & ? & _ & Hs & _). apply rbind_ok in Hs. destruct Hs as (bs & Hbs & _).
          eapply mig_vfields_id; eauto.
        + apply sbind_ok in Hs. destruct Hs as (? & ? & _ & Hs & _). apply rbind_ok in Hs. destruct Hs as (bs & Hbs & _).
          eapply mig_vfields_id; eauto.
      - apply sbind_ok in Hs. destruct Hs as (? & ? & _ & Hs & _). apply sconcat_bytes in Hs. destruct Hs as (bs & Hbs & _).
        eapply mig_fields_id; eauto. }
    rewrite (mig_body_id _ _ _ _ Hm). cbn [rbind]. rewrite Hal. reflexivity.
Qed.
End Rec.

Lemma mig_ref_id : forall d n v ops, wt_ref E d n v -> ser_ref E d n v = Ok ops -> mig_ref E E d n v = Ok v.
Proof.
  induction d as [|d IH]; intros n v ops Hw Hs; cbn [wt_ref ser_ref mig_ref] in *; [contradiction|].
  destruct (e_sch E n) as [s|] eqn:Es; [|contradiction].
  destruct (sent s (scur s)) as [h|] eqn:Eh.
  - eapply mig_derived_id; eauto. eapply we_sch; eauto.
  - unfold ser_derived in Hs. rewrite Eh in Hs. discriminate.
Qed.
Lemma migrate_id : forall d t v ops, wt E d t v -> to_writer E d t v = Ok ops -> migrate E E d t v = Ok v.
Proof. intros d t v ops Hw Hs. eapply mig_ty_id; eauto. apply mig_ref_id. Qed.

Lemma sent_cur : forall s, 0 < scur s -> exists h, sent s (scur s) = Some h.
Proof.
  intros s H. unfold sent. replace (scur s =? 0) with false by lia.
  destruct (nth_error (s_hist s) (N.to_nat (scur s - 1))) eqn:En; [eauto|].
  apply nth_error_None in En. unfold scur, len in *. lia.
Qed.
Lemma evolves_refl : forall s, wf_schema s -> evolves s s.
Proof.
  intros s (H0 & _ & Hb). split; [lia|]. destruct (sent_cur s H0) as (h & Hh). exists h.
  repeat split; auto.
  - unfold same_wire. destruct (s_body s) as [fs|vs]; [reflexivity|]. destruct Hb as (_ & _ & Hr).
    destruct (Hr _ _ Hh) as (ds & Hds & _). eauto.
  - intros _. unfold opt_restricted. destruct (s_body s); [|auto]. intros f _ H1 H2. congruence.
Qed.
Lemma compatible_refl : compatible E E.
Proof.
  repeat split; auto. intros n s Hs. exists s. split; [assumption|]. apply evolves_refl. eapply we_sch; eauto.
Qed.
End Id.

Lemma round_trip : forall E d t v ops rest,
  wf_env E -> sizes_honest E -> e_mem E = None -> wt E d t v -> to_writer E d t v = Ok ops ->
  run (deserialize E d t) (out ops ++ rest) = Ok (v, rest).
Proof.
  intros E d t v ops rest W Hh Hm Hw Hs.
  rewrite (decode_encoded E E d t v ops rest) by (auto using compatible_refl).
  rewrite (migrate_id E W d t v ops Hw Hs). reflexivity.
Qed.
