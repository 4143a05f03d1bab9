(** Decoding what was encoded: field modes, derived structs and enums.  Proofs. *)

From Verif Require Import Base BaseL Prog ProgL Prim PrimL Utf8 Utf8L Tag Ty Ser De Typed Mig SortL DiscL RtL RtTy.
From Coq Require Import List NArith ZArith Bool Lia ZifyBool Permutation Sorted.
Import ListNotations.
Open Scope N_scope.

(** The fields seen as (type, mode) pairs. *)
Fixpoint ser_wire (E : env) (rec : N -> val -> ser) (ws : list (ty * fmode)) (vs : list val) : list ser :=
  match ws, vs with
  | [], [] => []
  | w :: ws', v :: vs' => ser_mode E rec (snd w) (fst w) v :: ser_wire E rec ws' vs'
  | _, _ => [ty_err]
  end.
Lemma ser_fields_wire : forall E rec opt r fs vs,
  ser_fields E rec opt r fs vs = ser_wire E rec (wire_fields opt r fs) vs.
Proof.
  intros E rec opt r. induction fs as [|f fs IH]; intros vs; cbn [ser_fields].
  - destruct vs; reflexivity.
  - unfold wire_fields in *. cbn [filter]. destruct (falive r f); cbn [map ser_wire]; [|apply IH].
    destruct vs as [|v vs]; [reflexivity|]. cbn [fst snd wire_field]. rewrite IH. reflexivity.
Qed.
Lemma ser_vfields_wire : forall E rec r fs vs,
  ser_vfields E rec r fs vs = ser_wire E rec (map (fun f => (f_ty f, MPlain)) (filter (falive r) fs)) vs.
Proof.
  intros E rec r. induction fs as [|f fs IH]; intros vs; cbn [ser_vfields].
  - destruct vs; reflexivity.
  - cbn [filter]. destruct (falive r f); cbn [map ser_wire]; [|apply IH].
    destruct vs as [|v vs]; [reflexivity|]. cbn [fst snd ser_mode]. rewrite IH. reflexivity.
Qed.

(** Indexed keys: what [by_bytes] does to pre-serialised entries. *)
Lemma by_bytes_entries : forall (enc : val -> res bytes) (B : Type) (pre : val -> res B) (kb : B -> bytes) l ps,
  rmapM pre l = Ok ps -> (forall p b, In p l -> pre p = Ok b -> enc p = Ok (kb b)) ->
  exists es, by_bytes enc l = Ok es
    /\ Forall2 (fun p b => pre p = Ok b) es (ssort (fun a b => bcmp (kb a) (kb b)) ps)
    /\ Permutation es l.
Proof.
  intros enc B pre kb l ps H He.
  apply rmapM_ok in H.
  assert (Hb : rmapM enc l = Ok (map kb ps)).
  { apply rmapM_ok. induction H as [|p b l ps H1 H2 IH]; cbn; constructor.
    - apply He; [left; reflexivity|assumption].
    - apply IH. intros; apply He; [right; assumption|assumption]. }
  unfold by_bytes. rewrite Hb. cbn [rbind].
  set (T := combine ps l).
  assert (Hl : length ps = length l) by (clear - H; induction H; cbn; congruence).
  assert (H1 : combine (map kb ps) l = map (fun t => (kb (fst t), snd t)) T).
  { unfold T. clear - Hl. revert l Hl. induction ps as [|b ps IH]; intros [|p l] Hl; try discriminate; [reflexivity|].
    cbn. f_equal. apply IH. cbn in Hl. congruence. }
  assert (H2 : ps = map fst T).
  { unfold T. clear - Hl. revert l Hl. induction ps as [|b ps IH]; intros [|p l] Hl; try discriminate; [reflexivity|].
    cbn. f_equal. apply IH. cbn in Hl. congruence. }
  assert (H3 : l = map snd T).
  { unfold T. clear - Hl. revert l Hl. induction ps as [|b ps IH]; intros [|p l] Hl; try discriminate; [reflexivity|].
    cbn. f_equal. apply IH. cbn in Hl. congruence. }
  set (c0 := fun a b : B * val => bcmp (kb (fst a)) (kb (fst b))).
  eexists. split; [reflexivity|]. rewrite H1, (ssort_map _ _ _ c0) by reflexivity. rewrite map_map. cbn [snd].
  split.
  - rewrite H2, (ssort_map _ _ fst c0) by reflexivity.
    assert (Ht : Forall (fun t => pre (snd t) = Ok (fst t)) (ssort c0 T)).
    { eapply Permutation_Forall; [apply Permutation_sym, ssort_perm|]. unfold T. clear - H.
      induction H; cbn; constructor; auto. }
    clear - Ht. revert Ht. generalize (ssort c0 T). induction 1; cbn; constructor; auto.
  - transitivity (map snd T); [apply Permutation_map, ssort_perm|rewrite <- H3; reflexivity].
Qed.

Section Pair.
Variables E E' : env.
Hypothesis Hfw : e_fw E' = e_fw E.
Hypothesis Hspec : e_spec E' = e_spec E.
Hypothesis Hub : e_ub E' = e_ub E.
Hypothesis Hub32 : e_ub E = 32 \/ e_ub E = 64.
Hypothesis Hmem : e_mem E' = None.
Hypothesis Hiter : forall t l, Permutation (e_iter E t l) l.
Hypothesis Htime : (e_time E < 2 ^ 64)%Z.

Section Rec.
Variables (recS : N -> val -> ser) (recD : N -> prog val) (recM : N -> val -> res val) (recW : N -> val -> Prop).
Hypothesis Hrec : forall n v, recW n v -> rt (recS n v) (recD n) (recM n v).

Let RT := rt_ty E E' Hfw Hspec Hub Hub32 Hmem Hiter Htime recS recD recM recW Hrec.
Let mg := mig_ty E E' recM.

Lemma len_concat_ge : forall A (l : list (list A)), len (concat l) = fold_right N.add 0 (map len l).
Proof. intros A. induction l as [|x l IH]; [reflexivity|]. cbn. rewrite len_app, IH. reflexivity. Qed.

(** Indexed sequences. *)
Lemma run_idx_seq : forall (X : Type) t p (mf : X -> res val) (l : list X) bs b,
  enc_idx_seq bs = Ok b -> len bs < 2 ^ e_ub E -> len b < 2 ^ 32 ->
  Forall2 (fun x b => forall rest, run p (b ++ rest) = rmap (fun a => (a, rest)) (mf x)) l bs ->
  forall rest, run (de_idx_seq E' t p) (b ++ rest) = rmap (fun a => (a, rest)) (rmapM mf l).
Proof.
  intros X t p mf l bs b He Hn Hb H rest.
  assert (Hl : len l = len bs) by (unfold len; rewrite (Forall2_length H); reflexivity).
  assert (Hnat : N.to_nat (len bs) = length l) by (rewrite <- Hl; apply len_to_nat).
  unfold enc_idx_seq in He. cbv zeta in He. unfold de_idx_seq.
  destruct (len bs <? OFFSET_TABLE_MIN_LEN) eqn:Em.
  - apply Ok_inj in He; subst b. cbn [app]. rewrite run_bind, run_read_byte_cons, run_bind, <- app_assoc.
    rewrite run_read_varint by (rewrite Hub; auto using ub_le).
    change (N.land 0 1 =? 0) with true. cbv iota. rewrite run_alloc_none by assumption. cbn [bind].
    rewrite Hnat. apply run_rep_pieces. assumption.
  - destruct (offsets 0 bs) as [[os e]|] eqn:Eo; [|discriminate].
    apply Ok_inj in He; subst b. cbn [app]. rewrite run_bind, run_read_byte_cons, run_bind, <- !app_assoc.
    rewrite run_read_varint by (rewrite Hub; auto using ub_le).
    change (N.land FLAG_INDEXED 1 =? 0) with false. cbv iota.
    apply offsets_len in Eo.
    assert (Ht : len (le32s os) = len bs * 4) by (rewrite le32s_len; unfold len; rewrite Eo; lia).
    assert (Hs : len bs * 4 < 2 ^ e_ub E).
    { pose proof (ub_32 E Hub32). rewrite len_cons, !len_app, Ht in Hb. clear - Hb H0. lia. }
    rewrite Hub. apply N.ltb_lt in Hs. rewrite Hs. rewrite run_bind, run_advance by auto.
    rewrite run_alloc_none by assumption. cbn [bind]. rewrite Hnat. apply run_rep_pieces. assumption.
Qed.

Lemma wt_entry : forall a b l p, Forall (fun p => match p with VPair x y => wt_ty E recW a x /\ wt_ty E recW b y | _ => False end) l ->
  In p l -> exists x y, p = VPair x y /\ wt_ty E recW a x /\ wt_ty E recW b y.
Proof.
  intros a b l p H Hp. rewrite Forall_forall in H. specialize (H p Hp). destruct p; try contradiction.
  destruct H. eauto 6.
Qed.

Lemma flat_map_concat2 : forall (ps : list (bytes * bytes)), flat_map (fun p => fst p ++ snd p) ps = concat (map (fun p => fst p ++ snd p) ps).
Proof. intros. apply flat_map_concat_map. Qed.

Definition is_idx (m : fmode) : bool := match m with MIdxMap | MIdxSeq | MIdxSet => true | _ => false end.

(** One field. *)
Lemma rt_mode : forall m t v ops, wt_ty E recW t v -> ser_mode E recS m t v = Ok ops ->
  (is_idx m = true -> len (out ops) < 2 ^ 32) -> forall rest,
  run (de_mode E' recD m t) (out ops ++ rest) = rmap (fun a => (a, rest)) (mig_mode E E' recM (ser_ty E recS) m t v).
Proof.
  intros m t v ops Hw Hs Hlen rest. destruct m.
  - (* plain *)
    replace (mig_mode E E' recM (ser_ty E recS) MPlain t v) with (mg t v) by (destruct t, v; reflexivity).
    apply (RT t v Hw). cbn [ser_mode] in Hs. destruct t, v; exact Hs.
  - (* fixed *)
    destruct v; try (destruct t; discriminate).
    cbn [ser_mode] in Hs. destruct (fixed_of t) as [[s w]|] eqn:Ef.
    2: destruct t; discriminate.
    destruct (fixed_of_wt _ _ _ _ _ _ Ef Hw) as (z' & Hz & Hr0 & Hr). inversion Hz; subst z'.
    assert (Hm : mig_mode E E' recM (ser_ty E recS) MFixed t (VInt z) = Ok (VInt z)).
    { destruct t as [|[]| | | | | | | | | | | | | | | | | | | | | | | |]; cbn in Ef; try discriminate; reflexivity. }
    rewrite Hm. assert (Hd : de_mode E' recD MFixed t = (z <- de_fixed s w ;; Ret (VInt z))).
    { cbn [de_mode]. rewrite Ef. destruct t; reflexivity. }
    rewrite Hd. assert (Hs' : sall (ser_fixed w z) = Ok ops) by (destruct t; exact Hs).
    inversion Hs'; subst ops. unfold out. cbn [flat_map wop_bytes]. rewrite app_nil_r.
    rewrite run_bind, rt_fixed by assumption. reflexivity.
  - (* bulk *)
    destruct t, v; try discriminate. cbn [ser_mode] in Hs. cbn [de_mode mig_mode].
    destruct (bulk_of t) as [k|] eqn:Ek; [|discriminate].
    destruct Hw as (H1 & H2 & H3).
    rewrite run_bind, (rt_bulk E E' Hfw Hub Hub32 Hmem recW recM t k l Ek H1 H2 H3 ops rest Hs).
    cbn [mig_ty]. destruct (rmapM (mig_ty E E' recM t) l); reflexivity.
  - (* indexed map *)
    destruct t as [| | | | | | | | | | | | | | | | | |k a b| | | | | | |]; try (destruct v; discriminate); destruct v; try discriminate.
    cbn [ser_mode] in Hs. cbn [de_mode mig_mode].
    apply rbind_ok in Hs. destruct Hs as (ps & Hps & Hs). apply rbind_ok in Hs. destruct Hs as (bb & Hbb & Hs).
    inversion Hs; subst ops. clear Hs. unfold out in *. cbn [flat_map wop_bytes] in *. rewrite app_nil_r in *.
    specialize (Hlen eq_refl). destruct Hw as (H1 & H2 & _).
    set (it := citer E k (TMap k a b) l) in *.
    assert (Hit : Permutation it l) by (apply citer_perm; assumption).
    destruct (by_bytes_entries (fun p => ser_bytes (ser_ty E recS a (pkey p))) _
        (pre_entry (ser_ty E recS a) (ser_ty E recS b)) fst it ps Hps) as (es & Hes & Hf & Hp).
    { intros p q Hp Hq. destruct p; try discriminate. cbn [pre_entry pkey] in *.
      apply rbind_ok in Hq. destruct Hq as (kb & Hk & Hq). apply rbind_ok in Hq. destruct Hq as (vb & Hv & Hq).
      inversion Hq; subst. exact Hk. }
    rewrite Hes. cbn [rbind]. change (fun a0 b0 : bytes * bytes => bcmp (fst a0) (fst b0)) with key_cmp in Hf.
    set (sps := ssort key_cmp ps) in *.
    assert (Hent : Forall2 (fun p q => exists x y, p = VPair x y
        /\ (forall rest, run (de_ty E' recD a) (fst q ++ rest) = rmap (fun a => (a, rest)) (mg a x))
        /\ (forall rest, run (de_ty E' recD b) (snd q ++ rest) = rmap (fun a => (a, rest)) (mg b y))) es sps).
    { assert (Hwes : Forall (fun p => match p with VPair x y => wt_ty E recW a x /\ wt_ty E recW b y | _ => False end) es).
      { eapply Permutation_Forall; [|exact H2]. apply Permutation_sym. rewrite Hp. exact Hit. }
      clear - Hf Hwes RT. induction Hf as [|p q es sps Hq Hf IH]; constructor.
      - inversion Hwes; subst. destruct p as [| | | |x y| |]; try contradiction. destruct H1 as [Hx Hy].
        exists x, y. split; [reflexivity|]. cbn [pre_entry] in Hq.
        apply rbind_ok in Hq. destruct Hq as (kb & Hk & Hq). apply rbind_ok in Hq. destruct Hq as (vb & Hv & Hq).
        inversion Hq; subst. cbn [fst snd]. split; intros rest.
        + eapply rt_bytes; [apply RT; exact Hx|exact Hk].
        + eapply rt_bytes; [apply RT; exact Hy|exact Hv].
      - apply IH. inversion Hwes; assumption. }
    assert (Hn : len sps = len l).
    { unfold sps. rewrite (perm_len _ _ _ (ssort_perm _ key_cmp ps)). unfold len.
      rewrite <- (rmapM_length _ _ _ _ _ Hps). f_equal. apply Permutation_length. exact Hit. }
    assert (Hles : len es = len l). { rewrite <- Hn. unfold len. rewrite (Forall2_length Hf). reflexivity. }
    assert (Hnes : N.to_nat (len l) = length es) by (rewrite <- Hles; apply len_to_nat).
    unfold enc_idx_map in Hbb. cbv zeta in Hbb. rewrite Hn in Hbb. unfold de_idx_map.
    destruct (len l <? OFFSET_TABLE_MIN_LEN) eqn:Em.
    + apply Ok_inj in Hbb; subst bb. cbn [app]. rewrite <- app_assoc, !run_bind, run_read_byte_cons, run_bind.
      rewrite run_read_varint by (try rewrite Hub; auto using ub_le).
      assert (Hal : (match k with KHash => alloc E' (len l * e_esize E' (TPair a b)) | KOrd => Ret tt end) = Ret tt)
        by (destruct k; [apply run_alloc_none; assumption|reflexivity]).
      rewrite Hal. cbn [bind]. change (N.land 0 1 =? 0) with true. cbv iota.
      rewrite flat_map_concat2, run_bind, Hnes.
      rewrite (run_rep_pieces _ _ _ (mig_entry (mg a) (mg b)) es).
      * fold mg. destruct (rmapM (mig_entry (mg a) (mg b)) es); reflexivity.
      * clear - Hent. induction Hent as [|p q es sps (x & y & -> & Hx & Hy) Hf IH]; cbn [map]; constructor; [|assumption].
        intros rest. cbn [mig_entry]. unfold de_entry. rewrite <- app_assoc, run_bind, Hx.
        destruct (mg a x); cbn [rmap rbind]; try reflexivity. rewrite run_bind, Hy. destruct (mg b y); reflexivity.
    + destruct (offsets 0 (map fst sps)) as [[ks ke]|] eqn:Ek; [|discriminate].
      destruct (offsets 0 (map snd sps)) as [[vs ve]|] eqn:Ev; [|discriminate].
      apply Ok_inj in Hbb; subst bb. apply offsets_len in Ek, Ev. rewrite map_length in Ek, Ev.
      assert (Ht : len (flat_map (fun p => le_bytes 4 (fst p) ++ le_bytes 4 (snd p)) (combine ks vs)) = 8 * len l).
      { rewrite pairs_len by congruence. rewrite <- Hn. unfold len. rewrite Ek. reflexivity. }
      pose proof (ub_32 E Hub32) as H32.
      assert (Hs : len l * 8 + 8 < 2 ^ e_ub E).
      { rewrite len_cons, !len_app, Ht, !le_bytes_len in Hlen. clear - Hlen H32. lia. }
      cbn [app]. rewrite <- !app_assoc, !run_bind, run_read_byte_cons, run_bind.
      rewrite run_read_varint by (try rewrite Hub; auto using ub_le).
      assert (Hal : (match k with KHash => alloc E' (len l * e_esize E' (TPair a b)) | KOrd => Ret tt end) = Ret tt)
        by (destruct k; [apply run_alloc_none; assumption|reflexivity]).
      rewrite Hal. cbn [bind]. change (N.land FLAG_INDEXED 1 =? 0) with false. cbv iota.
      rewrite Hub. replace (len l * 8 <? 2 ^ e_ub E) with true by (clear - Hs; lia).
      unfold add8. rewrite Hub. replace (len l * 8 + 8 <? 2 ^ e_ub E) with true by (clear - Hs; lia).
      cbn [bind].
      rewrite (app_assoc (le_bytes 4 ke)), (app_assoc (flat_map _ _)).
      rewrite run_bind, run_advance by (rewrite !len_app, Ht, !le_bytes_len; clear; lia).
      rewrite !run_alloc_none by assumption. cbn [bind]. rewrite run_bind, Hnes.
      assert (Hkf : Forall2 (fun p kb => forall rest, run (de_ty E' recD a) (kb ++ rest) = rmap (fun v => (v, rest)) (mg a (pkey p))) es (map fst sps)).
      { clear - Hent. induction Hent as [|p q es sps (x & y & -> & Hx & Hy) Hf IH]; cbn [map]; constructor; auto. }
      assert (Hvf : Forall2 (fun p vb => forall rest, run (de_ty E' recD b) (vb ++ rest) = rmap (fun v => (v, rest)) (mg b (pval p))) es (map snd sps)).
      { clear - Hent. induction Hent as [|p q es sps (x & y & -> & Hx & Hy) Hf IH]; cbn [map]; constructor; auto. }
      rewrite (run_rep_pieces _ _ _ (fun p => mg a (pkey p)) es (map fst sps) Hkf).
      fold mg. destruct (rmapM (fun p => mg a (pkey p)) es) as [xs|e|q]; cbn [rmap rbind]; try reflexivity.
      rewrite run_bind, (run_rep_pieces _ _ _ (fun p => mg b (pval p)) es (map snd sps) Hvf).
      destruct (rmapM (fun p => mg b (pval p)) es) as [ys|e|q]; cbn [rmap rbind]; reflexivity.
  - (* indexed seq *)
    assert (G : forall t' l, wt_ty E recW (TImVec t') (VSeq l) -> v = VSeq l -> (t = TVec t' \/ t = TImVec t') ->
      run (de_mode E' recD MIdxSeq t) (out ops ++ rest) = rmap (fun a => (a, rest)) (mig_mode E E' recM (ser_ty E recS) MIdxSeq t v)).
    { intros t' l Hw' -> Ht. destruct Hw' as (H1 & H2).
      assert (Hs' : rbind (rmapM (fun x => ser_bytes (ser_ty E recS t' x)) l) (fun bs => rbind (enc_idx_seq bs) sall) = Ok ops).
      { destruct Ht as [-> | ->]; exact Hs. }
      assert (Hd : de_mode E' recD MIdxSeq t = (l <- de_idx_seq E' t' (de_ty E' recD t') ;; Ret (VSeq l))).
      { destruct Ht as [-> | ->]; reflexivity. }
      assert (Hm : mig_mode E E' recM (ser_ty E recS) MIdxSeq t (VSeq l) = rbind (rmapM (mg t') l) (fun l' => Ok (VSeq l'))).
      { destruct Ht as [-> | ->]; reflexivity. }
      rewrite Hd, Hm. apply rbind_ok in Hs'. destruct Hs' as (bs & Hbs & Hs').
      apply rbind_ok in Hs'. destruct Hs' as (bb & Hbb & Hs'). inversion Hs'; subst ops.
      unfold out in *. cbn [flat_map wop_bytes] in *. rewrite app_nil_r in *.
      rewrite run_bind, (run_idx_seq _ t' (de_ty E' recD t') (mg t') l bs bb Hbb).
      - destruct (rmapM (mg t') l); reflexivity.
      - unfold len. rewrite <- (rmapM_length _ _ _ _ _ Hbs). exact H1.
      - auto.
      - apply rmapM_ok in Hbs. clear - Hbs H2 RT. induction Hbs as [|x b l bs Hx Hf IH]; constructor.
        + inversion H2; subst. intros rest. eapply rt_bytes; [apply RT; assumption|exact Hx].
        + apply IH. inversion H2; assumption. }
    destruct t; try (destruct v; discriminate); destruct v; try discriminate.
    + destruct Hw as (W1 & W2 & W3). apply (G t l); [split; assumption|reflexivity|left; reflexivity].
    + apply (G t l); [exact Hw|reflexivity|right; reflexivity].
  - (* indexed set *)
    destruct t as [| | | | | | | | | | | | | | | | | | |k t| | | | | |]; try (destruct v; discriminate); destruct v; try discriminate.
    cbn [ser_mode] in Hs. cbn [de_mode mig_mode].
    apply rbind_ok in Hs. destruct Hs as (ps & Hps & Hs). apply rbind_ok in Hs. destruct Hs as (bb & Hbb & Hs).
    inversion Hs; subst ops. clear Hs. unfold out in *. cbn [flat_map wop_bytes] in *. rewrite app_nil_r in *.
    specialize (Hlen eq_refl). destruct Hw as (H1 & H2 & _).
    set (it := citer E k (TSet k t) l) in *.
    assert (Hit : Permutation it l) by (apply citer_perm; assumption).
    destruct (by_bytes_entries (fun x => ser_bytes (ser_ty E recS t x)) _
        (fun x => ser_bytes (ser_ty E recS t x)) (fun b => b) it ps Hps) as (es & Hes & Hf & Hp); [auto|].
    rewrite Hes. cbn [rbind]. change (fun a0 b0 : bytes => bcmp a0 b0) with bcmp in Hf.
    rewrite run_bind, (run_idx_seq _ t (de_ty E' recD t) (mg t) es _ bb Hbb).
    + fold mg. destruct (rmapM (mg t) es); reflexivity.
    + rewrite (perm_len _ _ _ (ssort_perm _ bcmp ps)). unfold len. rewrite <- (rmapM_length _ _ _ _ _ Hps).
      rewrite (Permutation_length Hit). exact H1.
    + assumption.
    + assert (Hwes : Forall (wt_ty E recW t) es).
      { eapply Permutation_Forall; [|exact H2]. apply Permutation_sym. rewrite Hp. exact Hit. }
      clear - Hf Hwes RT. induction Hf as [|x b es sps Hx Hf IH]; constructor.
      * inversion Hwes; subst. intros rest. eapply rt_bytes; [apply RT; assumption|exact Hx].
      * apply IH. inversion Hwes; assumption.
Qed.
End Rec.
End Pair.
