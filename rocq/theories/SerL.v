(** What serialising a well-typed value can end in, and which write calls it makes.  Proofs. *)

From Verif Require Import Base BaseL Prog ProgL Prim PrimL Utf8 Utf8L Tag Ty Ser De Typed Mig SortL DiscL RtL RtTy RtDer RtSch RtId Parts.
From Coq Require Import List NArith ZArith Bool Lia ZifyBool Permutation Sorted.
Import ListNotations.
Open Scope N_scope.

Definition rspec {A} (R : A -> Prop) (Pe : err -> Prop) (Pp : pan -> Prop) (r : res A) : Prop :=
  match r with Ok a => R a | Err e => Pe e | Panic x => Pp x end.

Lemma wfb_flat_map : forall A (f : A -> bytes) l, (forall x, wfb (f x)) -> wfb (flat_map f l).
Proof. intros A f l H. induction l; cbn; [constructor|]. apply wfb_app. auto. Qed.
Lemma wfb_concat : forall l, Forall wfb l -> wfb (concat l).
Proof. induction 1; cbn; [constructor|]. apply wfb_app. auto. Qed.
Lemma le32s_wf : forall l, wfb (le32s l).
Proof. intros. apply wfb_flat_map. intros; apply le_bytes_wf. Qed.
Lemma struct_offsets_wf : forall l o, wfb (struct_offsets o l).
Proof. induction l; intros; cbn [struct_offsets]; [constructor|]. apply wfb_app. split; [apply le_bytes_wf|auto]. Qed.
Lemma tag_wf : forall d c, d < 32 -> wfb [tag_new d c].
Proof. intros d c H. destruct (tag_round d c H) as (_ & _ & Ht). repeat constructor. lia. Qed.

Section S.
Variables (Pe : err -> Prop) (Pp : pan -> Prop).
Variable T : ty -> val -> Prop.
Hypothesis Pe_path : forall b, T TPath (VBytes b) -> utf8_ok b = false -> Pe EInvalidPath.
Hypothesis Pe_epoch : forall s n, T TSystemTime (VPair (VInt s) n) -> (s < 0)%Z -> Pe (ESerialize MPreEpoch).
Notation spec := (fun R r => rspec R Pe Pp r).

Lemma rspec_bind : forall A B (R : A -> Prop) (S : B -> Prop) r f,
  rspec R Pe Pp r -> (forall a, R a -> rspec S Pe Pp (f a)) -> rspec S Pe Pp (rbind r f).
Proof. intros A B R S [a|e|x] f H Hf; cbn in *; auto. Qed.
Lemma rspec_mono : forall A (R S : A -> Prop) r, (forall a, R a -> S a) -> rspec R Pe Pp r -> rspec S Pe Pp r.
Proof. intros A R S [a|e|x] H Hr; cbn in *; auto. Qed.
Lemma rspec_mapM : forall A B (R : B -> Prop) (f : A -> res B) l, Forall (fun x => rspec R Pe Pp (f x)) l ->
  rspec (Forall R) Pe Pp (rmapM f l).
Proof.
  intros A B R f l H. induction H as [|x l Hx Hl IH]; cbn [rmapM]; [constructor|].
  eapply rspec_bind; [exact Hx|]. intros y Hy. eapply rspec_bind; [exact IH|]. intros l' Hl'. cbn. constructor; assumption.
Qed.

Variable Q : wop -> Prop.
Hypothesis HQ : forall b, wfb b -> Q (WAll b).
Hypothesis Qw : forall w, Q w -> wfb (wop_bytes w).
Notation sspec := (rspec (Forall Q) Pe Pp).

Lemma sspec_bind : forall a b, sspec a -> sspec b -> sspec (a +++ b).
Proof. intros [a|e|x] [b|e'|x'] Ha Hb; cbn in *; auto. apply Forall_app. auto. Qed.
Lemma sspec_all : forall b, wfb b -> sspec (sall b).
Proof. intros b H. cbn. constructor; [apply HQ, H|constructor]. Qed.
Lemma sspec_nil : sspec snil.
Proof. constructor. Qed.
Lemma sspec_concat : forall l, Forall sspec l -> sspec (sconcat l).
Proof. induction 1; [apply sspec_nil|]. rewrite sconcat_cons. apply sspec_bind; assumption. Qed.
Lemma out_wf : forall l, Forall Q l -> wfb (out l).
Proof. induction 1; unfold out; cbn [flat_map]; [constructor|]. apply wfb_app. split; [apply Qw; assumption|assumption]. Qed.
Lemma sspec_bytes : forall s, sspec s -> rspec wfb Pe Pp (ser_bytes s).
Proof. intros [a|e|x] H; cbn in *; auto. apply out_wf, H. Qed.

Variable E : env.
Hypothesis W : wf_env E.
Hypothesis HB : forall v, T TBool v -> Q (WOnce [0]) /\ Q (WOnce [1]).

Lemma ser_len_wf : forall n, fits E n -> wfb (ser_len E n).
Proof.
  intros n H. unfold ser_len, ser_usize, ser_u64. destruct (e_fw E); [apply le_bytes_wf|apply encode_u64_wf].
Qed.
Lemma sspec_blob : forall b, wfb b -> fits E (len b) -> sspec (ser_blob E b).
Proof. intros b Hb Hf. cbn. repeat constructor; apply HQ; [apply ser_len_wf, Hf|exact Hb]. Qed.
Lemma sspec_len : forall n s, fits E n -> sspec s -> sspec (Ok [WAll (ser_len E n)] +++ s).
Proof. intros n s Hf Hs. apply sspec_bind; [apply sspec_all, ser_len_wf, Hf|exact Hs]. Qed.
Lemma u32_wf : forall x, wfb (ser_u32 (e_fw E) x).
Proof. intros x. unfold ser_u32. destruct (e_fw E); [apply le_bytes_wf|apply encode_u64_wf]. Qed.

Lemma sspec_bulk : forall recW t k l, bulk_of t = Some k -> fits E (len l) -> vec_fits E t (len l) ->
  Forall (wt_ty E recW t) l -> sspec (ser_bulk E k l).
Proof.
  intros recW t k l Hk Hf Hv Hl. unfold ser_bulk. apply sspec_len; [exact Hf|].
  destruct (len l =? 0); [apply sspec_nil|]. unfold vec_fits in Hv. rewrite Hk in Hv.
  destruct k as [|s w|dec].
  - eapply rspec_bind; [apply (rspec_mapM _ _ (fun _ => True))|].
    + eapply Forall_impl; [|exact Hl]. intros v Hw. destruct t as [|[]| | | | | | | | | | | | | | | | | | | | | | | |]; try discriminate.
      destruct v; try contradiction. exact I.
    + intros bs _. apply sspec_all, pack_wf.
  - eapply rspec_bind; [apply (rspec_mapM _ _ (fun _ => True))|].
    + eapply Forall_impl; [|exact Hl]. intros v Hw.
      destruct t as [|[]| | | | | | | | | | | | | | | | | | | | | | | |]; try discriminate; destruct v; try contradiction; exact I.
    + intros zs _. apply sspec_all, wfb_flat_map. intros z. apply le_bytes_wf.
  - unfold fits in Hv. replace (len l * 16 <? 2 ^ e_ub E) with true by lia.
    eapply rspec_bind; [apply (rspec_mapM _ _ wfb)|].
    + eapply Forall_impl; [|exact Hl]. intros v Hw.
      destruct t as [|[]| | | | | | | | | | | | | | | | | | | | | | | |]; try discriminate; destruct v; try contradiction; apply Hw.
    + intros bs Hbs. apply sspec_all, wfb_concat, Hbs.
Qed.

Section Rec.
Variables (rec : N -> val -> ser) (recW recT : N -> val -> Prop).
Hypothesis Hrec : forall n v, recW n v -> recT n v -> sspec (rec n v).
Notation good := (every_ty T recT).

Lemma iter_Forall : forall k t (R : val -> Prop) l, Forall R l -> Forall R (citer E k t l).
Proof.
  intros k t R l H. rewrite Forall_forall in *. intros x Hx. apply H.
  destruct k; cbn in Hx; [|exact Hx]. eapply Permutation_in; [apply (we_iter _ W)|exact Hx].
Qed.

Lemma Forall_and2 : forall A (R S : A -> Prop) l, Forall R l -> Forall S l -> Forall (fun x => R x /\ S x) l.
Proof. intros A R S l H. induction H; intros HS; inversion HS; subst; constructor; auto. Qed.
Lemma sspec_map : forall A (f : A -> ser) (R S : A -> Prop) l, Forall R l -> Forall S l ->
  (forall x, R x -> S x -> sspec (f x)) -> sspec (sconcat (map f l)).
Proof.
  intros A f R S l HR HS Hf. apply sspec_concat. apply Forall_forall. intros s Hs. apply in_map_iff in Hs.
  destruct Hs as (x & <- & Hx). rewrite Forall_forall in HR, HS. auto.
Qed.

Lemma sspec_ty : forall t v, wt_ty E recW t v -> good t v -> sspec (ser_ty E rec t v).
Proof.
  induction t as [|i| | | | | | | | | |a IHa b IHb|t IH|t IH|n t IH|t IH|a IHa b IHb|t IH|k a IHa b IHb|k t IH|t IH|t IH| | |c m t IH|n];
    intros v Hw G; cbn [every_ty] in G; destruct G as [Gk G]; cbn [ser_ty];
    try (destruct v; cbn [wt_ty] in Hw; try contradiction).
  - destruct (HB _ Gk) as [H0 H1]. destruct b; repeat constructor; assumption.
  - apply sspec_all. eapply ser_int_wf; [| |exact Hw]; destruct (we_ub _ W); lia.
  - apply sspec_all, le_bytes_wf.
  - apply sspec_all, le_bytes_wf.
  - apply sspec_all, utf8_encode_wf, Hw.
  - apply sspec_blob; apply Hw.
  - destruct (utf8_ok b) eqn:Eu; [apply sspec_blob; apply Hw|exact (Pe_path _ Gk Eu)].
  - apply sspec_blob; apply Hw.
  - apply sspec_all, Hw.
  - apply sspec_all, Hw.
  - apply sspec_nil.
  - destruct Hw, G. apply sspec_bind; auto.
  - destruct Hw as (Hf & Hv & Hl). destruct (if e_spec E then bulk_of t else None) as [k|] eqn:Ek.
    + eapply sspec_bulk; [|exact Hf|exact Hv|exact Hl]. destruct (e_spec E); [exact Ek|discriminate].
    + apply sspec_len; [exact Hf|]. (eapply sspec_map; [exact Hl|exact G|auto]).
  - destruct Hw as (Hf & Hl). apply sspec_len; [exact Hf|]. (eapply sspec_map; [exact Hl|exact G|auto]).
  - destruct Hw as (Hf & Hl). apply Nat.eqb_eq in Hf. rewrite Hf. (eapply sspec_map; [exact Hl|exact G|auto]).
  - destruct k as [|[p|p|]]; try contradiction; destruct l as [|x [|y l]]; try contradiction.
    + apply sspec_all. repeat constructor.
    + inversion G; subst. apply sspec_bind; [apply sspec_all; repeat constructor|auto].
  - destruct k as [|[p|p|]]; try contradiction; destruct l as [|x [|y l]]; try contradiction; inversion G; subst;
    (apply sspec_bind; [apply sspec_all, u32_wf|auto]).
  - destruct k as [|[p|[p|p|]|]]; try contradiction; destruct l as [|x [|y l]]; try contradiction; inversion G; subst;
    try (apply sspec_bind; [apply sspec_all, u32_wf|auto]). apply sspec_all, u32_wf.
  - destruct Hw as (Hf & Hl & _). apply sspec_len; [exact Hf|].
    eapply sspec_map; [apply (iter_Forall k (TMap k a b)), Hl|apply (iter_Forall k (TMap k a b)), G|].
    intros [] H1 H2; try contradiction. cbn [ser_entry]. apply sspec_bind; [apply IHa; [apply H1|apply H2]|apply IHb; [apply H1|apply H2]].
  - destruct Hw as (Hf & Hl & _). apply sspec_len; [exact Hf|].
    eapply sspec_map; [apply (iter_Forall k (TSet k t)), Hl|apply (iter_Forall k (TSet k t)), G|]. auto.
  - destruct Hw as (Hf & Hl & _). apply sspec_len; [exact Hf|].
    eapply sspec_map; [apply (iter_Forall KHash (THeap t)), Hl|apply (iter_Forall KHash (THeap t)), G|]. auto.
  - apply IH; assumption.
  - apply IH; assumption.
  - apply IH; assumption.
  - apply IH; assumption.
  - apply IH; assumption.
  - apply IH; assumption.
  - apply IH; assumption.
  - destruct v1; try contradiction. destruct v2; try contradiction. destruct Hw as [H1 H2].
    apply sspec_bind; apply sspec_all; (eapply ser_int_wf; [apply (ub_pos E); exact (we_ub _ W)|apply (ub_le E); exact (we_ub _ W)|]);
    unfold in_ity; cbn [ity_signed ity_bits]; [exact H1|unfold inU; lia].
  - destruct v1; try contradiction. destruct v2; try contradiction. destruct Hw as [H1 H2].
    destruct (z <? 0)%Z eqn:Ez; [apply (Pe_epoch _ _ Gk); lia|]. pose proof (we_time _ W).
    apply sspec_bind; apply sspec_all; (eapply ser_int_wf; [apply (ub_pos E); exact (we_ub _ W)|apply (ub_le E); exact (we_ub _ W)|]);
    unfold in_ity; cbn [ity_signed ity_bits]; unfold inU; lia.
  - apply IH; [apply Hw|assumption].
  - apply IH; [apply Hw|assumption].
  - apply IH; [apply Hw|assumption].
  - apply IH; [apply Hw|assumption].
  - apply IH; [apply Hw|assumption].
  - apply IH; [apply Hw|assumption].
  - apply IH; [apply Hw|assumption].
  - apply Hrec; assumption.
  - apply Hrec; assumption.
  - apply Hrec; assumption.
  - apply Hrec; assumption.
  - apply Hrec; assumption.
  - apply Hrec; assumption.
  - apply Hrec; assumption.
Qed.

Lemma rspec_idx_seq : Pe (ESerialize MTooLong) -> forall bs, Forall wfb bs -> rspec wfb Pe Pp (enc_idx_seq bs).
Proof.
  intros Pe_long bs H. unfold enc_idx_seq. cbv zeta. destruct (len bs <? OFFSET_TABLE_MIN_LEN).
  - cbn [rspec]. apply wfb_cons. split; [lia|]. apply wfb_app. split; [apply encode_u64_wf|apply wfb_concat, H].
  - destruct (offsets 0 bs) as [[os e]|]; [|exact Pe_long]. cbn [rspec]. apply wfb_cons. split; [unfold FLAG_INDEXED; lia|].
    apply wfb_app. split; [apply encode_u64_wf|]. apply wfb_app. split; [apply le32s_wf|apply wfb_concat, H].
Qed.
Lemma rspec_idx_map : Pe (ESerialize MTooLong) -> forall ps, Forall (fun p => wfb (fst p) /\ wfb (snd p)) ps -> rspec wfb Pe Pp (enc_idx_map ps).
Proof.
  intros Pe_long ps H. unfold enc_idx_map. cbv zeta. destruct (len ps <? OFFSET_TABLE_MIN_LEN).
  - cbn [rspec]. apply wfb_cons. split; [lia|]. apply wfb_app. split; [apply encode_u64_wf|].
    induction H as [|p ps [Hp Hq] Hps IH]; cbn; [constructor|]. rewrite !wfb_app. auto.
  - destruct (offsets 0 (map fst ps)) as [[ks ke]|]; [|exact Pe_long].
    destruct (offsets 0 (map snd ps)) as [[vs ve]|]; [|exact Pe_long]. cbn [rspec]. apply wfb_cons. split; [unfold FLAG_INDEXED; lia|].
    rewrite !wfb_app. split; [apply encode_u64_wf|]. split; [apply wfb_flat_map; intros; cbn beta; rewrite wfb_app; split; apply le_bytes_wf|].
    split; [apply le_bytes_wf|]. split; [apply le_bytes_wf|].
    split; apply wfb_concat; apply Forall_forall; intros x Hx; apply in_map_iff in Hx; destruct Hx as (p & <- & Hp);
    rewrite Forall_forall in H; apply H, Hp.
Qed.

Lemma rspec_mapM2 : forall A B (R : B -> Prop) (f : A -> res B) (P S : A -> Prop) l, Forall P l -> Forall S l ->
  (forall x, P x -> S x -> rspec R Pe Pp (f x)) -> rspec (Forall R) Pe Pp (rmapM f l).
Proof.
  intros A B R f P S l HP HS H. apply rspec_mapM. apply Forall_forall. intros x Hx. rewrite Forall_forall in HP, HS. auto.
Qed.

Lemma sspec_mode : forall m t v, (match m with MIdxMap | MIdxSeq | MIdxSet => Pe (ESerialize MTooLong) | _ => True end) -> mode_ok m t = true -> wt_ty E recW t v -> good t v -> sspec (ser_mode E rec m t v).
Proof.
  intros m t v HL Hm Hw G. destruct m.
  - replace (ser_mode E rec MPlain t v) with (ser_ty E rec t v) by (destruct t, v; reflexivity). apply sspec_ty; assumption.
  - cbn [mode_ok] in Hm. assert (Hm' : match fixed_of t with Some _ => true | None => false end = true) by (destruct t; exact Hm).
    destruct (fixed_of t) as [[s w]|] eqn:Ef; [|discriminate].
    destruct (fixed_of_wt _ _ _ _ _ _ Ef Hw) as (z & -> & _).
    replace (ser_mode E rec MFixed t (VInt z)) with (sall (ser_fixed w z)) by (cbn [ser_mode]; rewrite Ef; destruct t; reflexivity).
    apply sspec_all, le_bytes_wf.
  - destruct t; try discriminate. cbn [mode_ok] in Hm. destruct v; try contradiction. cbn [ser_mode].
    destruct (bulk_of t) as [k|] eqn:Ek; [|discriminate]. destruct Hw as (Hf & Hv & Hl). eapply sspec_bulk; eassumption.
  - destruct t; try discriminate. destruct v; try contradiction. destruct Hw as (Hf & Hl & _). cbn [ser_mode].
    cbn [every_ty] in G. destruct G as [_ G].
    eapply rspec_bind; [eapply (rspec_mapM2 _ _ (fun p => wfb (fst p) /\ wfb (snd p))); [eapply (iter_Forall k); exact Hl|eapply (iter_Forall k); exact G|]|].
    + intros p Hp Gp. destruct p; try contradiction. destruct Hp as [Hp1 Hp2], Gp as [G1 G2].
      cbn [pre_entry]. eapply rspec_bind; [apply sspec_bytes, sspec_ty; [exact Hp1|exact G1]|]. intros kb Hkb.
      eapply rspec_bind; [apply sspec_bytes, sspec_ty; [exact Hp2|exact G2]|]. intros vb Hvb. cbn. auto.
    + intros ps Hps. eapply rspec_bind; [apply rspec_idx_map; [exact HL|]|].
      * rewrite Forall_forall in *. intros p Hp. apply Hps. eapply Permutation_in; [apply ssort_perm|exact Hp].
      * intros b Hb. apply sspec_all, Hb.
  - assert (K : forall t' l, Forall (wt_ty E recW t') l -> Forall (good t') l -> sspec (rbind (rmapM (fun x => ser_bytes (ser_ty E rec t' x)) l) (fun bs => rbind (enc_idx_seq bs) sall))).
    { intros t' l Hl G'. eapply rspec_bind; [eapply (rspec_mapM2 _ _ wfb); [exact Hl|exact G'|]|].
      - intros x Hx Gx. apply sspec_bytes, sspec_ty; assumption.
      - intros bs Hbs. eapply rspec_bind; [apply (rspec_idx_seq HL), Hbs|]. intros b Hb. apply sspec_all, Hb. }
    destruct t; try discriminate; destruct v; try contradiction; cbn [every_ty] in G; destruct G as [_ G].
    + apply K; [apply Hw|exact G].
    + apply K; [apply Hw|exact G].
  - destruct t; try discriminate; destruct v; try contradiction; cbn [every_ty] in G; destruct G as [_ G].
    destruct Hw as (Hf & Hl & _). cbn [ser_mode].
    eapply rspec_bind; [eapply (rspec_mapM2 _ _ wfb); [eapply (iter_Forall k); exact Hl|eapply (iter_Forall k); exact G|]|].
    + intros x Hx Gx. apply sspec_bytes, sspec_ty; assumption.
    + intros ps Hps. eapply rspec_bind; [apply rspec_idx_seq; [exact HL|]|].
      * rewrite Forall_forall in *. intros p Hp. apply Hps. eapply Permutation_in; [apply ssort_perm|exact Hp].
      * intros b Hb. apply sspec_all, Hb.
Qed.

Lemma sspec_fields : forall opt r fs vs, (opt = true -> Pe (ESerialize MTooLong)) -> forallb field_ok fs = true -> wt_fields E recW r fs vs -> every_fields T recT r fs vs ->
  Forall sspec (ser_fields E rec opt r fs vs).
Proof.
  intros opt r. unfold wt_fields, every_fields. induction fs as [|f fs IH]; intros vs HL Hf Hw G; cbn [ser_fields filter forallb] in *.
  - inversion Hw; subst. constructor.
  - apply andb_prop in Hf. destruct Hf as [Hf Hfs]. destruct (falive r f); [|auto].
    inversion Hw; subst. inversion G; subst. constructor; [|auto]. unfold field_ok in Hf. apply andb_prop in Hf.
    apply sspec_mode; [| |assumption|assumption]; [|destruct opt; apply Hf].
    unfold mode_of, mode_legacy, mode_opt. destruct opt; [destruct (f_idx f); auto|destruct (f_fixed f); [exact I|destruct (f_spec f); exact I]].
Qed.
Lemma sspec_vfields : forall r fs vs, wt_fields E recW r fs vs -> every_fields T recT r fs vs -> Forall sspec (ser_vfields E rec r fs vs).
Proof.
  intros r. unfold wt_fields, every_fields. induction fs as [|f fs IH]; intros vs Hw G; cbn [ser_vfields filter] in *.
  - inversion Hw; subst. constructor.
  - destruct (falive r f); [|auto].
    inversion Hw; subst. inversion G; subst. constructor; [|auto]. apply sspec_ty; assumption.
Qed.
Lemma sspec_payload : Pe (ESerialize MTooLong) -> forall b, wfb b -> sspec (ser_payload b).
Proof.
  intros Pe_long b H. unfold ser_payload. destruct (len b <? 2 ^ 32); [|exact Pe_long]. cbn [rspec]. constructor; [apply HQ, le_bytes_wf|]. constructor; [apply HQ, H|constructor].
Qed.
Lemma rspec_map_bytes : forall l, Forall sspec l -> rspec (Forall wfb) Pe Pp (rmapM ser_bytes l).
Proof. intros l H. apply rspec_mapM. eapply Forall_impl; [|exact H]. intros s. apply sspec_bytes. Qed.

Definition sizes_here (cur : N) (vs : list variant) : Prop :=
  Pp PAssert \/ e_dbg E = false \/ forall vr k l bs, In vr vs -> v_size vr = Some (SFixed k) ->
    wt_fields E recW cur (v_fields vr) l ->
    rmapM ser_bytes (ser_vfields E rec cur (v_fields vr) l) = Ok bs -> len (concat bs) = k.

Lemma sspec_derived : forall s v, wf_schema s ->
  (forall h, sent s (scur s) = Some h -> h_opt h = true -> Pe (ESerialize MTooLong)) ->
  (forall vs, s_body s = SEnum vs -> sizes_here (scur s) vs) ->
  wt_derived E recW s v -> every_derived T recT s v -> sspec (ser_derived E rec s v).
Proof.
  intros s v (H0 & H16 & Hb) HL Hsz Hw G. unfold ser_derived.
  destruct (sent_cur s H0) as (h & Hh). rewrite Hh. specialize (HL h Hh).
  apply sspec_bind; [apply sspec_all; unfold ser_u16; destruct (e_fw E); [apply le_bytes_wf|apply encode_u64_wf]|].
  unfold wt_derived in Hw. unfold every_derived in G.
  destruct (s_body s) as [fs|vs].
  - destruct v; try contradiction. cbn [ser_struct]. destruct (h_opt h); [specialize (HL eq_refl)|].
    + unfold ser_struct_opt. eapply rspec_bind; [apply rspec_map_bytes, sspec_fields; [intros; exact HL|exact Hb|exact Hw|exact G]|].
      intros bs Hbs. apply sspec_payload; [exact HL|]. apply wfb_app. split; [|apply wfb_concat, Hbs].
      destruct (h_idx h); [apply struct_offsets_wf|constructor].
    + apply sspec_concat, sspec_fields; [discriminate|exact Hb|exact Hw|exact G].
  - destruct v; try contradiction. destruct Hw as (vr & Hin & Hk & Hal & Hw). destruct Hb as (Hn & Hfo & Hr). specialize (G vr Hin Hk).
    destruct (Hr _ _ Hh) as (ds & Hds & Hd & Hopt). cbn [ser_enum]. rewrite Hds.
    assert (Hi : In vr (map fst ds)) by (rewrite (calc_disc_fst _ _ _ Hds); apply filter_In; auto).
    apply in_map_iff in Hi. destruct Hi as ([vr0 d] & Hfst & Hi). cbn [fst] in Hfst. subst vr0.
    assert (Ef : find_name k ds = Some (vr, d)).
    { unfold find_name. apply find_some_uniq; [assumption|apply N.eqb_eq; assumption|].
      intros [vr1 d1] Hy Hyk. cbn [fst] in Hyk. apply N.eqb_eq in Hyk.
      assert (vr1 = vr).
      { assert (In vr1 (map fst ds)) by (apply in_map_iff; exists (vr1, d1); auto). rewrite (calc_disc_fst _ _ _ Hds) in H.
        apply filter_In in H. eapply NoDup_map_inj; [exact Hn|apply H|exact Hin|congruence]. }
      subst vr1. f_equal.
      assert (NoDup (map fst ds)).
      { rewrite (calc_disc_fst _ _ _ Hds). apply NoDup_filter. eapply NoDup_map_inv; exact Hn. }
      assert ((vr, d1) = (vr, d)) by (eapply (NoDup_map_inj _ _ fst); eauto). congruence. }
    rewrite Ef. rewrite Forall_forall in Hfo. specialize (Hfo vr Hin).
    destruct (h_opt h); [specialize (HL eq_refl)|].
    + specialize (Hopt eq_refl). rewrite forallb_forall in Hopt. specialize (Hopt _ Hi). unfold opt_variant_ok in Hopt. rewrite N.eqb_refl in Hopt. cbn [fst snd negb orb] in Hopt.
      apply andb_prop in Hopt. destruct Hopt as [Hd32 Hopt]. unfold ser_variant_opt, tag_new_checked. rewrite Hd32. cbn [negb]. rewrite andb_false_r.
      apply N.ltb_lt in Hd32.
      destruct (v_size vr) as [[|n|]|] eqn:Esz; [| | |discriminate].
      * apply sspec_all, tag_wf, Hd32.
      * apply sspec_bind; [apply sspec_all, tag_wf, Hd32|].
        pose proof (rspec_map_bytes _ (sspec_vfields _ _ _ Hw G)) as Hm.
        destruct (rmapM ser_bytes (ser_vfields E rec (scur s) (v_fields vr) l)) as [bs|e|x] eqn:Em; cbn [rspec rbind] in *; try exact Hm.
        destruct (Hsz vs eq_refl) as [Hp|[Hp|Hp]].
        -- destruct (e_dbg E && negb (len (concat bs) =? n)); [exact Hp|apply sspec_all, wfb_concat, Hm].
        -- rewrite Hp. apply sspec_all, wfb_concat, Hm.
        -- rewrite (Hp _ _ _ _ Hin Esz Hw Em), N.eqb_refl. cbn [negb]. rewrite andb_false_r. apply sspec_all, wfb_concat, Hm.
      * apply sspec_bind; [apply sspec_all, tag_wf, Hd32|].
        eapply rspec_bind; [apply rspec_map_bytes, sspec_vfields; eassumption|]. intros bs Hbs. apply (sspec_payload HL), wfb_concat, Hbs.
    + apply sspec_bind; [apply sspec_all, u32_wf|]. apply sspec_concat, sspec_fields; [discriminate|exact Hfo|exact Hw|exact G].
Qed.
End Rec.

(** Every variant declared [size = "fixed(N)"] encodes to N bytes. *)
Definition sizes_true : Prop := forall n s vs vr k d l bs,
    e_sch E n = Some s -> s_body s = SEnum vs -> In vr vs -> v_size vr = Some (SFixed k) ->
    wt_fields E (wt_ref E d) (scur s) (v_fields vr) l ->
    Forall3_enc E d (filter (falive (scur s)) (v_fields vr)) l bs ->
    len (concat bs) = k.
(** Optimised revisions have 32-bit sizes and offsets. *)
Hypothesis Pe_long : forall n s h, e_sch E n = Some s -> sent s (scur s) = Some h -> h_opt h = true -> Pe (ESerialize MTooLong).
Hypothesis Hst : Pp PAssert \/ e_dbg E = false \/ sizes_true.

Lemma enc3' : forall d r fs l bs, rmapM ser_bytes (ser_vfields E (ser_ref E d) r fs l) = Ok bs ->
  Forall3_enc E d (filter (falive r) fs) l bs.
Proof.
  intros d r. induction fs as [|f fs IH]; intros l bs H; cbn [ser_vfields] in H.
  - destruct l; inversion H. constructor.
  - cbn [filter]. destruct (falive r f); [|auto]. destruct l as [|v l]; [discriminate|]. cbn [rmapM] in H.
    apply rbind_ok in H. destruct H as (b & Hb & H). apply rbind_ok in H. destruct H as (bs' & Hbs & H).
    apply Ok_inj in H. subst bs. constructor; auto.
Qed.
Lemma sspec_ref : forall d n v, wt_ref E d n v -> every_ref E T d n v -> sspec (ser_ref E d n v).
Proof.
  induction d as [|d IH]; intros n v Hw G; cbn [wt_ref ser_ref every_ref] in *; [contradiction|].
  destruct (e_sch E n) as [s|] eqn:Es; [|contradiction].
  apply (sspec_derived (ser_ref E d) (wt_ref E d) (every_ref E T d) IH); auto.
  - exact (we_sch _ W _ _ Es).
  - intros h Hh. exact (Pe_long n s h Es Hh).
  - intros vs Hvs. destruct Hst as [H|[H|H]]; [left; exact H|right; left; exact H|right; right].
    intros vr k l bs Hin Hsz Hwl Hbs. eapply H; eauto. apply enc3'; assumption.
Qed.
Lemma sspec_writer : forall d t v, wt E d t v -> every E T d t v -> sspec (to_writer E d t v).
Proof. intros d t v Hw G. eapply sspec_ty; eauto. apply sspec_ref. Qed.
End S.
