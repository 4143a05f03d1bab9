(** Decoding what was encoded: derived types, and the main theorem.  Proofs. *)

From Verif Require Import Base BaseL Prog ProgL Prim PrimL Utf8 Utf8L Tag Ty Ser De Typed Mig SortL DiscL RtL RtTy RtDer.
From Coq Require Import List NArith ZArith Bool Lia ZifyBool Permutation Sorted.
Import ListNotations.
Open Scope N_scope.

Lemma sconcat_bytes : forall l ops, sconcat l = Ok ops ->
  exists bs, rmapM ser_bytes l = Ok bs /\ out ops = concat bs.
Proof.
  induction l as [|s l IH]; intros ops H.
  - inversion H; subst. exists []. split; reflexivity.
  - rewrite sconcat_cons in H. apply sbind_ok in H. destruct H as (la & lb & -> & Hb & ->).
    destruct (IH lb Hb) as (bs & E1 & E2). exists (out la :: bs). cbn [rmapM ser_bytes rmap rbind].
    rewrite E1. cbn [rbind]. split; [reflexivity|]. rewrite out_app, E2. reflexivity.
Qed.
Lemma run_in_buf : forall A (p : prog A) buf rest,
  run (in_buf p buf) rest = rmap (fun a => (fst a, rest)) (run p buf).
Proof. intros. unfold in_buf. rewrite run_of_res. destruct (run p buf) as [[a r]|e|x]; reflexivity. Qed.

Section Pair.
Variables E E' : env.
Hypothesis Hfw : e_fw E' = e_fw E.
Hypothesis Hspec : e_spec E' = e_spec E.
Hypothesis Hub : e_ub E' = e_ub E.
Hypothesis Hub32 : e_ub E = 32 \/ e_ub E = 64.
Hypothesis Hmem : e_mem E' = None.
Hypothesis Hiter : forall t l, Permutation (e_iter E t l) l.
Hypothesis Htime : (e_time E < 2 ^ 64)%Z.

Section Rec.
Variables (recS : N -> val -> ser) (recD : N -> prog val) (recM : N -> val -> res val) (recW : N -> val -> Prop).
Hypothesis Hrec : forall n v, recW n v -> rt (recS n v) (recD n) (recM n v).

Let RT := rt_ty E E' Hfw Hspec Hub Hub32 Hmem Hiter Htime recS recD recM recW Hrec.
Let RM := rt_mode E E' Hfw Hspec Hub Hub32 Hmem Hiter Htime recS recD recM recW Hrec.
Let mg := mig_ty E E' recM.
Let se := ser_ty E recS.
Definition wtw (w : ty * fmode) (v : val) : Prop := wt_ty E recW (fst w) v.

Lemma rt_fields : forall opt cur tgt fs vs bs rest,
  Forall2 wtw (wire_fields opt cur fs) vs ->
  rmapM ser_bytes (ser_wire E recS (wire_fields opt cur fs) vs) = Ok bs ->
  (opt = true -> len (concat bs) < 2 ^ 32) ->
  (opt = true -> forall f, In f fs -> falive cur f = true -> falive tgt f = false -> f_idx f = INone) ->
  run (de_fields E' recD opt cur tgt fs) (concat bs ++ rest)
  = rmap (fun p => (p, rest)) (mig_fields E E' recM se opt cur tgt fs vs).
Proof.
  intros opt cur tgt. induction fs as [|f fs IH]; intros vs bs rest Hw Hs Hlen Hr; cbn [de_fields mig_fields].
  - inversion Hw; subst. inversion Hs; subst. reflexivity.
  - assert (Hr' : opt = true -> forall f, In f fs -> falive cur f = true -> falive tgt f = false -> f_idx f = INone)
      by (intros; eapply Hr; eauto; right; assumption).
    unfold wire_fields in *. cbn [filter] in *. destruct (falive cur f) eqn:Ec.
    + cbn [map] in *. inversion Hw as [|? v ? vs' Hv Hvs]; subst. cbn [ser_wire rmapM] in Hs.
      apply rbind_ok in Hs. destruct Hs as (b & Hb & Hs). apply rbind_ok in Hs. destruct Hs as (bs' & Hbs & Hs).
      apply Ok_inj in Hs. subst bs. cbn [concat] in *. rewrite <- app_assoc.
      unfold ser_bytes in Hb. apply rmap_ok in Hb. destruct Hb as (ops & Hops & ->).
      cbn [wire_field fst snd] in Hops.
      assert (Hlen' : opt = true -> len (concat bs') < 2 ^ 32).
      { intros Ho. specialize (Hlen Ho). rewrite len_app in Hlen. clear - Hlen. lia. }
      assert (Hmode : run (de_mode E' recD (mode_of opt f) (f_ty f)) (out ops ++ concat bs' ++ rest)
         = rmap (fun a => (a, concat bs' ++ rest)) (mig_mode E E' recM se (mode_of opt f) (f_ty f) v)).
      { apply RM; [exact Hv|exact Hops|]. intros Hi.
        destruct opt; [|exfalso; unfold mode_of, mode_legacy in Hi; destruct (f_fixed f), (f_spec f); discriminate].
        specialize (Hlen eq_refl). rewrite len_app in Hlen. clear - Hlen. lia. }
      specialize (IH vs' bs' rest Hvs Hbs Hlen' Hr').
      destruct (falive tgt f) eqn:Et.
      * rewrite run_bind, Hmode. destruct (mig_mode E E' recM se (mode_of opt f) (f_ty f) v) as [v'|e|x]; cbn [rmap rbind]; try reflexivity.
        rewrite run_bind, IH. destruct (mig_fields E E' recM se opt cur tgt fs vs'); reflexivity.
      * assert (Em : mode_removed opt f = mode_of opt f).
        { destruct opt; [|reflexivity]. cbn. unfold mode_opt.
          rewrite (Hr eq_refl f (or_introl eq_refl) Ec Et). reflexivity. }
        rewrite Em, run_bind, Hmode. destruct (mig_mode E E' recM se (mode_of opt f) (f_ty f) v) as [v'|e|x]; cbn [rmap rbind]; try reflexivity.
        rewrite run_bind, IH. destruct (mig_fields E E' recM se opt cur tgt fs vs'); reflexivity.
    + specialize (IH vs bs rest Hw Hs Hlen Hr'). destruct (falive tgt f); [|exact IH].
      rewrite run_bind, run_of_res. destruct (f_default f cur); cbn [rmap rbind]; try reflexivity.
      rewrite run_bind, IH. destruct (mig_fields E E' recM se opt cur tgt fs vs); reflexivity.
Qed.

Lemma converts_mig : forall cur rem this, converts cur this rem = mig_converts cur this rem.
Proof.
  intros cur. induction rem as [|[f v] rem IH]; intros this; cbn; [reflexivity|].
  destruct (f_convert f this cur v); cbn; auto.
Qed.

Lemma run_read_varlen_len : forall n rest, n < 2 ^ 32 -> run read_varlen_len (le_bytes 4 n ++ rest) = Ok (n, rest).
Proof.
  intros n rest H. unfold read_varlen_len. rewrite run_le by reflexivity. cbn [run].
  rewrite le_val_bytes by exact H. reflexivity.
Qed.

Lemma rt_struct : forall h cur tgt fs fs' vs,
  wire_fields (h_opt h) cur fs = wire_fields (h_opt h) cur fs' ->
  (h_opt h = true -> forall f, In f fs' -> falive cur f = true -> falive tgt f = false -> f_idx f = INone) ->
  wt_fields E recW cur fs vs ->
  rt (ser_struct E recS h cur fs (VSeq vs))
     (if h_opt h then de_struct_opt E' recD (h_idx h) cur tgt fs' else de_struct_legacy E' recD cur tgt fs')
     (rbind (mig_body E E' recM se (h_opt h) cur tgt fs' vs) (fun l => Ok (VSeq l))).
Proof.
  intros h cur tgt fs fs' vs Hwire Hr Hw ops rest Hs. cbn [ser_struct] in Hs.
  assert (Hw' : Forall2 wtw (wire_fields (h_opt h) cur fs') vs).
  { rewrite <- Hwire. unfold wire_fields. unfold wt_fields in Hw. clear - Hw.
    induction Hw; cbn; constructor; assumption. }
  destruct (h_opt h) eqn:Eo.
  - unfold ser_struct_opt in Hs. rewrite ser_fields_wire, Hwire in Hs.
    apply rbind_ok in Hs. destruct Hs as (bs & Hbs & Hs). unfold ser_payload in Hs.
    set (pay := (if h_idx h then struct_offsets (4 * len bs) bs else []) ++ concat bs) in *.
    destruct (len pay <? 2 ^ 32) eqn:Ep; [|discriminate]. apply N.ltb_lt in Ep.
    apply Ok_inj in Hs. subst ops. unfold out. cbn [flat_map wop_bytes]. rewrite app_nil_r, <- app_assoc.
    unfold de_struct_opt. rewrite run_bind, run_read_varlen_len by assumption.
    rewrite run_alloc_none by assumption. cbn [bind].
    rewrite run_bind, run_read_n_app by reflexivity. rewrite run_in_buf.
    assert (Hrun : run (struct_payload E' recD (h_idx h) cur tgt fs') pay
      = rmap (fun v => (v, [])) (rbind (mig_body E E' recM se true cur tgt fs' vs) (fun l => Ok (VSeq l)))).
    { unfold struct_payload, pay.
      assert (Hn : len bs = len (filter (falive cur) fs')).
      { assert (L : length bs = length vs).
        { rewrite <- (rmapM_length _ _ _ _ _ Hbs).
          clear - Hw'. induction Hw'; cbn; [reflexivity|]. f_equal. assumption. }
        unfold len. f_equal. rewrite L, <- (Forall2_length Hw'). unfold wire_fields. apply map_length. }
      assert (Hpro : forall (B : Type) (k : unit -> prog B),
         run (bind (if h_idx h then Read (4 * len (filter (falive cur) fs')) ESubReaderOverrun (fun _ => Ret tt) else Ret tt) k)
           ((if h_idx h then struct_offsets (4 * len bs) bs else []) ++ concat bs) = run (k tt) (concat bs)).
      { intros B k. destruct (h_idx h); [|reflexivity]. cbn [bind run].
        rewrite split_at_app_n by (rewrite struct_offsets_len, Hn; reflexivity). reflexivity. }
      rewrite Hpro, run_bind.
      assert (Hc : len (concat bs) < 2 ^ 32).
      { unfold pay in Ep. rewrite len_app in Ep. clear - Ep. lia. }
      pose proof (rt_fields true cur tgt fs' vs bs [] Hw' Hbs (fun _ => Hc) Hr) as Hf.
      rewrite app_nil_r in Hf. rewrite Hf. unfold mig_body.
      destruct (mig_fields E E' recM se true cur tgt fs' vs) as [p|e|x]; cbn [rmap rbind]; try reflexivity.
      rewrite run_bind, run_of_res, converts_mig.
      destruct (mig_converts cur (fst p) (snd p)); reflexivity. }
    rewrite Hrun. destruct (rbind (mig_body E E' recM se true cur tgt fs' vs) (fun l => Ok (VSeq l))); reflexivity.
  - rewrite ser_fields_wire, Hwire in Hs. apply sconcat_bytes in Hs. destruct Hs as (bs & Hbs & ->).
    unfold de_struct_legacy. rewrite run_bind.
    rewrite (rt_fields false cur tgt fs' vs bs rest Hw' Hbs) by discriminate.
    unfold mig_body. destruct (mig_fields E E' recM se false cur tgt fs' vs) as [p|e|x]; cbn [rmap rbind]; try reflexivity.
    rewrite run_bind, run_of_res, converts_mig. destruct (mig_converts cur (fst p) (snd p)); reflexivity.
Qed.

Lemma rt_vfields : forall cur fs vs bs rest,
  Forall2 wtw (map (fun f => (f_ty f, MPlain)) (filter (falive cur) fs)) vs ->
  rmapM ser_bytes (ser_wire E recS (map (fun f => (f_ty f, MPlain)) (filter (falive cur) fs)) vs) = Ok bs ->
  run (de_vfields E' recD cur fs) (concat bs ++ rest)
  = rmap (fun p => (p, rest)) (rbind (mig_fields E E' recM se false cur cur fs vs) (fun p => Ok (fst p))).
Proof.
  intros cur. induction fs as [|f fs IH]; intros vs bs rest Hw Hs; cbn [de_vfields mig_fields].
  - inversion Hw; subst. inversion Hs; subst. reflexivity.
  - cbn [filter] in *. destruct (falive cur f) eqn:Ec; [|apply IH; assumption].
    cbn [map] in *. inversion Hw as [|? v ? vs' Hv Hvs]; subst. cbn [ser_wire rmapM fst snd ser_mode] in Hs.
    apply rbind_ok in Hs. destruct Hs as (b & Hb & Hs). apply rbind_ok in Hs. destruct Hs as (bs' & Hbs & Hs).
    apply Ok_inj in Hs. subst bs. cbn [concat] in *. rewrite <- app_assoc, run_bind.
    rewrite (rt_bytes _ _ _ _ _ _ (RT (f_ty f) v Hv) Hb).
    assert (Em : mig_mode E E' recM se (mode_of false f) (f_ty f) v = mig_ty E E' recM (f_ty f) v).
    { cbn [mode_of]. unfold mode_legacy. destruct (f_fixed f); [|destruct (f_spec f)]; destruct (f_ty f), v; reflexivity. }
    rewrite Em.
    destruct (mig_ty E E' recM (f_ty f) v) as [v'|e|x]; cbn [rmap rbind]; try reflexivity.
    rewrite run_bind, (IH vs' bs' rest Hvs Hbs).
    destruct (mig_fields E E' recM se false cur cur fs vs'); reflexivity.
Qed.
(** The removed list is empty, and defaults are not used, when the alive fields do not change. *)
Lemma mig_fields_same : forall opt cur tgt fs vs,
  (forall f, In f fs -> falive cur f = falive tgt f) ->
  mig_fields E E' recM se opt cur tgt fs vs = mig_fields E E' recM se opt cur cur fs vs.
Proof.
  intros opt cur tgt. induction fs as [|f fs IH]; intros vs H; cbn [mig_fields]; [reflexivity|].
  rewrite <- (H f (or_introl eq_refl)).
  assert (H' : forall f, In f fs -> falive cur f = falive tgt f) by (intros; apply H; right; assumption).
  destruct (falive cur f); [|apply IH; assumption]. destruct vs as [|v vs]; [reflexivity|].
  rewrite IH by assumption. reflexivity.
Qed.
Lemma mig_fields_norem : forall opt cur fs vs p,
  mig_fields E E' recM se opt cur cur fs vs = Ok p -> snd p = [].
Proof.
  intros opt cur. induction fs as [|f fs IH]; intros vs p H; cbn [mig_fields] in H.
  - destruct vs; inversion H; reflexivity.
  - destruct (falive cur f); [|eauto]. destruct vs as [|v vs]; [discriminate|].
    apply rbind_ok in H. destruct H as (v' & _ & H). apply rbind_ok in H. destruct H as (q & Hq & H).
    apply Ok_inj in H. subst p. cbn. eauto.
Qed.
Lemma mig_body_same : forall opt cur tgt fs vs,
  (forall f, In f fs -> falive cur f = falive tgt f) ->
  mig_body E E' recM se opt cur tgt fs vs = rbind (mig_fields E E' recM se opt cur cur fs vs) (fun p => Ok (fst p)).
Proof.
  intros opt cur tgt fs vs H. unfold mig_body. rewrite mig_fields_same by assumption.
  destruct (mig_fields E E' recM se opt cur cur fs vs) as [p|e|x] eqn:Em; cbn [rbind]; try reflexivity.
  rewrite (mig_fields_norem _ _ _ _ _ Em). reflexivity.
Qed.

(** Payload of an optimised variant. *)
Lemma run_variant_buf : forall (sz : vsize) (bs : bytes) tagb ops rest,
  match sz with
  | SInline => bs = [] /\ ops = [WAll [tagb]]
  | SFixed n => len bs = n /\ ops = [WAll [tagb]; WAll bs]
  | SVarlen => len bs < 2 ^ 32 /\ ops = [WAll [tagb]; WAll (le_bytes 4 (len bs)); WAll bs]
  end ->
  exists tl, out ops = tagb :: tl /\ run (variant_buf E' (Some sz)) (tl ++ rest) = Ok (bs, rest).
Proof.
  intros sz bs tagb ops rest H. destruct sz; destruct H as [H ->]; unfold out; cbn [flat_map wop_bytes app].
  - subst bs. eexists. split; [reflexivity|]. reflexivity.
  - eexists. split; [reflexivity|]. cbn [variant_buf]. rewrite run_alloc_none by assumption. cbn [bind].
    rewrite app_nil_r. apply run_read_n_app. auto.
  - eexists. split; [reflexivity|]. cbn [variant_buf]. rewrite app_nil_r, <- app_assoc, run_bind, run_read_varlen_len by assumption.
    rewrite run_alloc_none by assumption. cbn [bind]. apply run_read_n_app. reflexivity.
Qed.

Definition honest_here (cur : N) (vs : list variant) : Prop :=
  e_dbg E = true \/ forall vr k l bs, In vr vs -> v_size vr = Some (SFixed k) ->
    wt_fields E recW cur (v_fields vr) l ->
    rmapM ser_bytes (ser_vfields E recS cur (v_fields vr) l) = Ok bs -> len (concat bs) = k.

Lemma rt_enum : forall h cur tgt vs vs' k l,
  same_wire (h_opt h) cur (SEnum vs) (SEnum vs') ->
  (h_opt h = true -> forall vr f, In vr vs' -> valive cur vr = true -> In f (v_fields vr) -> falive cur f = falive tgt f) ->
  NoDup (map v_name vs) -> NoDup (map v_name vs') -> rev_ok cur vs cur h -> honest_here cur vs ->
  (exists vr, In vr vs /\ v_name vr = k /\ valive cur vr = true /\ wt_fields E recW cur (v_fields vr) l) ->
  rt (ser_enum E recS h cur vs (VVar k l))
     (if h_opt h then de_enum_opt E' recD cur tgt vs' else de_enum_legacy E' recD cur tgt vs')
     (match find (fun vr => v_name vr =? k) vs' with
      | None => ty_err
      | Some vr => rbind (mig_body E E' recM se false cur tgt (v_fields vr) l) (fun l' =>
                   if valive tgt vr then Ok (VVar k l') else v_convert vr l' cur)
      end).
Proof.
  intros h cur tgt vs vs' k l (ds & ds' & Hds & Hds' & Hwire) Hres Hnn Hnn' Hrev Hhon (vr0 & Hin0 & Hk0 & Hal0 & Hw) ops rest Hs.
  cbn [ser_enum] in Hs. rewrite Hds in Hs.
  destruct (find_name k ds) as [[vr d]|] eqn:Ef; [|discriminate].
  apply find_some in Ef. destruct Ef as [Hin Hk]. cbn [fst] in Hk. apply N.eqb_eq in Hk.
  assert (Hinvs : In vr vs).
  { assert (In vr (map fst ds)) by (apply in_map_iff; exists (vr, d); auto).
    rewrite (calc_disc_fst _ _ _ Hds) in H. apply filter_In in H. tauto. }
  assert (vr0 = vr) by (eapply NoDup_map_inj; [exact Hnn|assumption|assumption|congruence]). subst vr0. clear Hin0 Hk0.
  assert (Hmatch : exists vr', In (vr', d) ds' /\ v_name vr' = k /\ In vr' vs' /\ valive cur vr' = true
            /\ wire_variant (h_opt h) cur (vr, d) = wire_variant (h_opt h) cur (vr', d)).
  { assert (Hi : In (wire_variant (h_opt h) cur (vr, d)) (map (wire_variant (h_opt h) cur) ds')).
    { rewrite <- Hwire. apply in_map. assumption. }
    apply in_map_iff in Hi. destruct Hi as ([vr' d'] & Hi1 & Hi2).
    assert (d' = d /\ v_name vr' = k).
    { unfold wire_variant in Hi1. cbn [fst snd] in Hi1. inversion Hi1; subst. auto. }
    destruct H as [-> Hk']. exists vr'. split; [assumption|]. split; [assumption|].
    assert (In vr' (map fst ds')) by (apply in_map_iff; exists (vr', d); auto).
    rewrite (calc_disc_fst _ _ _ Hds') in H. apply filter_In in H. destruct H. auto. }
  destruct Hmatch as (vr' & Hin' & Hk' & Hinvs' & Hal' & Hwv).
  assert (Hfind : find (fun vr => v_name vr =? k) vs' = Some vr').
  { apply find_some_uniq; [assumption|apply N.eqb_eq; assumption|].
    intros y Hy Hyk. apply N.eqb_eq in Hyk. eapply NoDup_map_inj; [exact Hnn'|assumption|assumption|congruence]. }
  rewrite Hfind.
  destruct Hrev as (ds0 & Hds0 & Hd32 & Hopt). rewrite Hds in Hds0. inversion Hds0; subst ds0. clear Hds0.
  assert (Hd : d < 2 ^ 32) by (rewrite Forall_forall in Hd32; exact (Hd32 _ Hin)).
  pose proof (calc_disc_nodup _ _ _ Hds') as Hnd'.
  destruct (h_opt h) eqn:Eo.
  - (* optimised *)
    specialize (Hopt eq_refl). rewrite forallb_forall in Hopt. specialize (Hopt _ Hin).
    unfold opt_variant_ok in Hopt. rewrite N.eqb_refl in Hopt. cbn [fst snd negb orb] in Hopt. apply andb_prop in Hopt. destruct Hopt as [Hd5 Hsz].
    apply N.ltb_lt in Hd5.
    unfold wire_variant in Hwv. cbn [fst snd] in Hwv.
    assert (Hsize : v_size vr' = v_size vr) by congruence.
    assert (Hfw' : map (fun f => (f_ty f, MPlain)) (filter (falive cur) (v_fields vr)) =
                  map (fun f => (f_ty f, MPlain)) (filter (falive cur) (v_fields vr'))) by congruence.
    assert (Hww : Forall2 wtw (map (fun f => (f_ty f, MPlain)) (filter (falive cur) (v_fields vr'))) l).
    { rewrite <- Hfw'. unfold wt_fields in Hw. clear - Hw. induction Hw; cbn; constructor; assumption. }
    assert (Hsame : forall f, In f (v_fields vr') -> falive cur f = falive tgt f).
    { intros f Hf. eapply Hres; eauto. }
    (* the payload *)
    assert (Hpay : exists sz bs tl, v_size vr = Some sz /\ out ops = tag_new d (class_of sz) :: tl
        /\ rmapM ser_bytes (ser_wire E recS (map (fun f => (f_ty f, MPlain)) (filter (falive cur) (v_fields vr'))) l) = Ok bs
        /\ run (variant_buf E' (Some sz)) (tl ++ rest) = Ok (concat bs, rest)).
    { unfold ser_variant_opt in Hs. destruct (v_size vr) as [sz|] eqn:Esz; [|discriminate].
      assert (Htag : tag_new_checked (e_dbg E) d (class_of sz) = Ok (tag_new d (class_of sz))).
      { unfold tag_new_checked. replace (d <? 32) with true by (clear - Hd5; lia). rewrite andb_false_r. reflexivity. }
      destruct sz as [|n|]; cbn [class_of] in Htag; rewrite Htag in Hs; cbn [rbind] in Hs.
      - destruct (filter (falive cur) (v_fields vr)) eqn:Efl; [|discriminate].
        cbn [map] in Hfw'. unfold wt_fields in Hw. rewrite Efl in Hw. inversion Hw; subst l.
        apply Ok_inj in Hs. subst ops.
        destruct (run_variant_buf SInline [] (tag_new d CInline) [WAll [tag_new d CInline]] rest) as (tl & H1 & H2); [auto|].
        exists SInline, [], tl. rewrite <- Hfw'. auto.
      - apply sbind_ok in Hs. destruct Hs as (la & lb & Hla & Hs & ->).
        apply rbind_ok in Hs. destruct Hs as (bs & Hbs & Hs).
        assert (Hbs' := Hbs). rewrite ser_vfields_wire, Hfw' in Hbs'.
        destruct (e_dbg E && negb (len (concat bs) =? n)) eqn:Edb; [discriminate|].
        assert (Hn : len (concat bs) = n).
        { destruct Hhon as [Hh|Hh].
          - rewrite Hh in Edb. cbn [andb] in Edb. apply negb_false_iff, N.eqb_eq in Edb. exact Edb.
          - eapply Hh; eauto. }
        apply Ok_inj in Hla. apply Ok_inj in Hs. subst la lb.
        destruct (run_variant_buf (SFixed n) (concat bs) (tag_new d CFixed) [WAll [tag_new d CFixed]; WAll (concat bs)] rest) as (tl & H1 & H2); [auto|].
        exists (SFixed n), bs, tl. auto.
      - apply sbind_ok in Hs. destruct Hs as (la & lb & Hla & Hs & ->).
        apply rbind_ok in Hs. destruct Hs as (bs & Hbs & Hs).
        rewrite ser_vfields_wire, Hfw' in Hbs. unfold ser_payload in Hs.
        destruct (len (concat bs) <? 2 ^ 32) eqn:El; [|discriminate]. apply N.ltb_lt in El.
        apply Ok_inj in Hla. apply Ok_inj in Hs. subst la lb.
        destruct (run_variant_buf SVarlen (concat bs) (tag_new d CVarlen) [WAll [tag_new d CVarlen]; WAll (le_bytes 4 (len (concat bs))); WAll (concat bs)] rest) as (tl & H1 & H2); [auto|].
        exists SVarlen, bs, tl. auto. }
    destruct Hpay as (sz & bs & tl & Hsz' & Hout & Hbs & Hbuf). rewrite Hout.
    unfold de_enum_opt. rewrite Hds'. cbn [app]. unfold read_optimised_tag, read_tag.
    destruct (tag_round d (class_of sz) Hd5) as (Ht1 & Ht2 & _).
    rewrite run_bind, run_bind, run_read_byte_cons, run_bind, run_of_res, Ht2. cbn [rmap run fst snd]. rewrite Ht1.
    assert (Hft : find_tag d (class_of sz) ds' = Some (vr', d)).
    { unfold find_tag. apply find_some_uniq; [assumption| |].
      - cbn [fst snd]. rewrite N.eqb_refl, Hsize, Hsz'. cbn [andb]. apply sclass_eqb_refl.
      - intros y Hy Hyk. apply andb_prop in Hyk. destruct Hyk as [Hyk _]. apply N.eqb_eq in Hyk.
        eapply NoDup_map_inj; [exact Hnd'|assumption|assumption|exact Hyk]. }
    rewrite Hft. unfold de_variant_opt. rewrite run_bind, Hsize, Hsz', Hbuf, run_bind, run_in_buf.
    pose proof (rt_vfields cur (v_fields vr') l bs [] Hww Hbs) as Hv. rewrite app_nil_r in Hv. rewrite Hv.
    rewrite (mig_body_same false cur tgt (v_fields vr') l Hsame).
    destruct (mig_fields E E' recM se false cur cur (v_fields vr') l) as [p|e|x]; cbn [rmap rbind]; try reflexivity.
    cbn [fst]. destruct (valive tgt vr'); [rewrite Hk'; reflexivity|apply run_of_res].
  - (* legacy *)
    apply sbind_ok in Hs. destruct Hs as (la & lb & Hla & Hs & ->).
    unfold wire_variant in Hwv. cbn [fst snd] in Hwv.
    assert (Hfw' : wire_fields false cur (v_fields vr) = wire_fields false cur (v_fields vr')) by congruence.
    rewrite ser_fields_wire, Hfw' in Hs. apply sconcat_bytes in Hs. destruct Hs as (bs & Hbs & Hout).
    assert (Hww : Forall2 wtw (wire_fields false cur (v_fields vr')) l).
    { rewrite <- Hfw'. unfold wire_fields. unfold wt_fields in Hw. clear - Hw. induction Hw; cbn; constructor; assumption. }
    rewrite out_app, Hout, <- app_assoc. unfold de_enum_legacy. rewrite Hds'.
    rewrite run_bind, (rt_u32d E E' Hfw d Hd la) by assumption. cbn [rmap].
    assert (Hfd : find_disc d ds' = Some (vr', d)).
    { unfold find_disc. apply find_some_uniq; [assumption|apply N.eqb_refl|].
      intros y Hy Hyk. apply N.eqb_eq in Hyk. eapply NoDup_map_inj; [exact Hnd'|assumption|assumption|exact Hyk]. }
    rewrite Hfd. unfold de_variant_legacy. rewrite run_bind.
    rewrite (rt_fields false cur tgt (v_fields vr') l bs rest Hww Hbs) by discriminate.
    unfold mig_body. destruct (mig_fields E E' recM se false cur tgt (v_fields vr') l) as [p|e|x]; cbn [rmap rbind]; try reflexivity.
    rewrite run_bind, run_of_res, converts_mig. destruct (mig_converts cur (fst p) (snd p)); cbn [rmap rbind]; try reflexivity.
    destruct (valive tgt vr'); [rewrite Hk'; reflexivity|apply run_of_res].
Qed.

Lemma rt_derived : forall s s' v h, wf_schema s -> wf_schema s' -> evolves s s' -> sent s (scur s) = Some h ->
  (forall vs, s_body s = SEnum vs -> honest_here (scur s) vs) ->
  wt_derived E recW s v ->
  rt (ser_derived E recS s v) (de_derived E' recD s') (mig_derived E E' recM se s' (scur s) (h_opt h) v).
Proof.
  intros s s' v h (Hc0 & Hc & Hb) (Hc0' & Hc' & Hb') (Hle & h0 & Hh & Hh' & Hwire & Hres) Hh2 Hhon Hw.
  rewrite Hh2 in Hh. inversion Hh; subst h0. clear Hh.
  unfold ser_derived, de_derived. rewrite Hh2.
  intros ops rest Ho. apply sbind_ok in Ho. destruct Ho as (la & lb & Hla & Hs & ->).
  apply Ok_inj in Hla. subst la. rewrite out_app, <- app_assoc. unfold out at 1. cbn [flat_map wop_bytes].
  rewrite app_nil_r, Hfw, run_bind, rt_u16 by assumption. unfold de_body. rewrite Hh'.
  unfold same_wire in Hwire. unfold opt_restricted in Hres. unfold mig_derived. unfold wt_derived in Hw.
  destruct (s_body s) as [fs|vs], (s_body s') as [fs'|vs']; try contradiction.
  - destruct v as [| | | | |l|]; try contradiction. apply (rt_struct h (scur s) (scur s') fs fs' l); auto.
  - destruct v as [| | | | | |k l]; try contradiction. destruct Hb as (Hn & _ & Hr). destruct Hb' as (Hn' & _ & _).
    apply (rt_enum h (scur s) (scur s') vs vs' k l); auto.
Qed.
End Rec.

Hypothesis Hcomp : forall n s, e_sch E n = Some s -> exists s', e_sch E' n = Some s' /\ evolves s s'.
Hypothesis Hsch : forall n s, e_sch E n = Some s -> wf_schema s.
Hypothesis Hsch' : forall n s, e_sch E' n = Some s -> wf_schema s.
Hypothesis Hhonest : sizes_honest E.

Lemma enc3 : forall d r fs l bs, rmapM ser_bytes (ser_vfields E (ser_ref E d) r fs l) = Ok bs ->
  Forall3_enc E d (filter (falive r) fs) l bs.
Proof.
  intros d r. induction fs as [|f fs IH]; intros l bs H; cbn [ser_vfields] in H.
  - destruct l; inversion H. constructor.
  - cbn [filter]. destruct (falive r f); [|auto]. destruct l as [|v l]; [discriminate|]. cbn [rmapM] in H.
    apply rbind_ok in H. destruct H as (b & Hb & H). apply rbind_ok in H. destruct H as (bs' & Hbs & H).
    apply Ok_inj in H. subst bs. constructor; auto.
Qed.

Lemma rt_ref : forall d n v, wt_ref E d n v -> rt (ser_ref E d n v) (de_ref E' d n) (mig_ref E E' d n v).
Proof.
  induction d as [|d IH]; intros n v Hw; cbn [wt_ref] in Hw; [contradiction|].
  destruct (e_sch E n) as [s|] eqn:Es; [|contradiction].
  destruct (Hcomp n s Es) as (s' & Es' & Hev).
  cbn [ser_ref de_ref mig_ref]. rewrite Es, Es'.
  assert (Hh : exists h, sent s (scur s) = Some h) by (destruct Hev as (_ & h & Hh & _); eauto).
  destruct Hh as (h & Hh). rewrite Hh.
  apply (rt_derived (ser_ref E d) (de_ref E' d) (mig_ref E E' d) (wt_ref E d) IH); eauto.
  intros vs Hvs. destruct Hhonest as [Hd|Hd]; [left; assumption|right].
  intros vr k l bs Hin Hsz Hwl Hbs. eapply Hd; eauto. apply enc3; assumption.
Qed.
End Pair.

(** ** Main theorem *)
Lemma decode_encoded : forall E E' d t v ops rest,
  wf_env E -> wf_env E' -> compatible E E' -> sizes_honest E -> e_mem E' = None ->
  wt E d t v -> to_writer E d t v = Ok ops ->
  run (deserialize E' d t) (out ops ++ rest) = rmap (fun v' => (v', rest)) (migrate E E' d t v).
Proof.
  intros E E' d t v ops rest W W' (Hfw & Hspec & Hub & Hcomp) Hh Hm Hw Hs.
  destruct W as [W1 W2 W3 W4 W5 W6 W7]. destruct W' as [V1 V2 V3 V4 V5 V6 V7].
  unfold deserialize, migrate, to_writer, wt in *.
  refine (rt_ty E E' (eq_sym Hfw) (eq_sym Hspec) (eq_sym Hub) W1 Hm W3 (proj2 W6) (ser_ref E d) (de_ref E' d) (mig_ref E E' d) (wt_ref E d) _ t v Hw ops rest Hs).
  apply rt_ref; auto. apply W6.
Qed.
