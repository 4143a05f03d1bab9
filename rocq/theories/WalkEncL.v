(** Walkers over what this program encoded.  Proofs. *)

From Verif Require Import Base BaseL Prog ProgL Prim PrimL Utf8 Tag Ty Ser De Typed Mig SortL DiscL RtL RtTy RtDer RtSch RtId Agree SerL PartsL Spec Cross Ex SliceReader Skip SkipIdx SkipL PropWire PropIdx PropSkip IdxWalk IdxWalkL IdxEncL PropEnc Walk WalkSpec PropSlice WalkL.
From Coq Require Import List NArith ZArith Bool Lia Permutation.
Import ListNotations.
Open Scope N_scope.

Notation is_idx := Walk.is_idx.

Section Enc.
Variable E : env.
Variable D : nat.
Hypothesis W : wf_env E.
Hypothesis Hh : sizes_honest E.
Hypothesis Hm : e_mem E = None.
Hypothesis SB : spec_built E.
Notation M := (2 ^ e_ub E).

Definition encoded (d : nat) (t : ty) (v : val) (bs rest : bytes) : Prop :=
  exists b, bs = b ++ rest /\ wt E d t v /\ to_vec E d t v = Ok b.
Lemma enc_dec : forall d t v bs rest, encoded d t v bs rest -> wfb bs -> len bs < M -> run (deserialize E d t) bs = Ok (v, rest).
Proof. intros d t v bs rest (b & -> & Hw & Hs) _ _. apply to_vec_ok in Hs. destruct Hs as (ops & Hs & ->). exact (round_trip E d t v ops rest W Hh Hm Hw Hs). Qed.
Lemma enc_ops : forall d t v ops rest, wt E d t v -> ser_ty E (ser_ref E d) t v = Ok ops -> encoded d t v (out ops ++ rest) rest.
Proof. intros d t v ops rest Hw Hs. exists (out ops). split; [reflexivity|]. split; [exact Hw|]. unfold to_vec, to_writer. rewrite Hs. reflexivity. Qed.

Lemma items_enc : forall d t l ops rest, Forall (wt E d t) l -> sconcat (map (ser_ty E (ser_ref E d) t) l) = Ok ops ->
  items encoded d t (out ops ++ rest) l rest.
Proof.
  intros d t l. induction l as [|v l IH]; intros ops rest Hw Hs; cbn [map] in Hs.
  - inversion Hs; subst. constructor.
  - rewrite sconcat_cons in Hs. apply sbind_ok in Hs. destruct Hs as (l1 & l2 & H1 & H2 & ->). inversion Hw; subst.
    rewrite out_app, <- app_assoc. apply it_cons with (out l2 ++ rest); [apply enc_ops; assumption|apply IH; assumption].
Qed.
Lemma entries_enc : forall d t t' l ops rest, Forall (fun p => match p with VPair x y => wt E d t x /\ wt E d t' y | _ => False end) l ->
  sconcat (map (ser_entry (ser_ty E (ser_ref E d) t) (ser_ty E (ser_ref E d) t')) l) = Ok ops ->
  entries encoded d t t' (out ops ++ rest) l rest.
Proof.
  intros d t t' l. induction l as [|v l IH]; intros ops rest Hw Hs; cbn [map] in Hs.
  - inversion Hs; subst. constructor.
  - rewrite sconcat_cons in Hs. apply sbind_ok in Hs. destruct Hs as (l1 & l2 & H1 & H2 & ->). inversion Hw as [|? ? Hv Hw']; subst.
    destruct v as [| | | |kk vv| |]; try contradiction. cbn [ser_entry] in H1. apply sbind_ok in H1. destruct H1 as (k1 & k2 & K1 & K2 & ->).
    rewrite !out_app, <- !app_assoc. apply en_cons with (out k2 ++ out l2 ++ rest) (out l2 ++ rest); [apply enc_ops; tauto|apply enc_ops; tauto|apply IH; assumption].
Qed.
Lemma len_prefix : forall n rest, n < M -> run (de_len E) (ser_len E n ++ rest) = Ok (n, rest).
Proof. intros. apply (run_len_prefix E E eq_refl eq_refl (we_ub E W)). assumption. Qed.
Lemma iter_len : forall k t l, len (citer E k t l) = len l.
Proof. intros k t l. unfold len. rewrite (Permutation_length (iter_perm E W k t l)). reflexivity. Qed.
Lemma iter_Forall' : forall k t (R : val -> Prop) l, Forall R l -> Forall R (citer E k t l).
Proof. intros k t R l H. eapply Permutation_Forall; [apply Permutation_sym, iter_perm, W|exact H]. Qed.

(** ** Structs *)
Definition shown (fs : list field) (l : list val) : list (field * bool * val) := combine (map (fun f => (f, true)) fs) l.

Lemma alive_start : forall r f, falive r f = true -> f_start f <= r.
Proof. intros r f H. unfold falive, exists_at in H. apply andb_prop in H. apply N.leb_le, H. Qed.
(** Not optimised. *)
Lemma chain_legacy : forall d rev fs i l ops rest,
  Forall (fun f => falive rev f = true -> f_fixed f = false /\ f_idx f = INone) fs -> Forall (fun f => f_spec f = true -> e_spec E = true) fs ->
  wt_fields E (wt_ref E d) rev fs l -> sconcat (ser_fields E (ser_ref E d) false rev fs l) = Ok ops ->
  chain E D encoded M d (SWire rev) i (filter (falive rev) fs) (shown (filter (falive rev) fs) l) (out ops ++ rest) rest.
Proof.
  intros d rev fs. induction fs as [|f fs IH]; intros i l ops rest Hp Hsp Hw Hs; unfold wt_fields in Hw; cbn [filter ser_fields] in *.
  - inversion Hw; subst. inversion Hs; subst. constructor.
  - inversion Hp as [|? ? Hf Hp']; subst. inversion Hsp as [|? ? Hfs Hsp']; subst. destruct (falive rev f) eqn:Ea; [|apply IH; assumption].
    inversion Hw as [|? v ? l' Hv Hw']; subst. rewrite sconcat_cons in Hs. apply sbind_ok in Hs. destruct Hs as (l1 & l2 & H1 & H2 & ->).
    destruct (Hf eq_refl) as [Hfx Hix]. rewrite out_app, <- app_assoc. unfold shown. cbn [map combine].
    apply ch_wire with (out l2 ++ rest); [apply alive_start; exact Ea| | |apply IH; assumption].
    + intros _. apply enc_ops; [exact Hv|]. unfold mode_of, mode_legacy in H1. rewrite Hfx in H1. destruct (f_spec f); [|exact H1].
      rewrite (Hfs eq_refl) in *. cbn [ser_mode] in H1. destruct (f_ty f) as [| | | | | | | | | | | |t'| | | | | | | | | | | | |]; try discriminate.
      destruct v; try discriminate. cbn [ser_ty]. destruct (bulk_of t') as [k|]; [|discriminate]. rewrite (Hfs eq_refl). exact H1.
    + unfold is_idx. rewrite Hix. discriminate.
Qed.
Lemma skip_idx_enc : forall d f v b rest o, mode_ok (mode_opt f) (f_ty f) = true -> is_idx f = true -> wt E d (f_ty f) v -> len b < 2 ^ 32 -> len (b ++ rest) < M ->
  encode_field E d (mode_opt f) (f_ty f) v = Ok b -> skip_idx E d (f_ty f) (mkSR (b ++ rest) o) = Ok (tt, mkSR rest o).
Proof.
  intros d f v b rest o Hok Hi Hw Hl Hlr H. unfold is_idx in Hi. unfold mode_opt in *. destruct (f_idx f); try discriminate Hi.
  - destruct (f_ty f) as [| | | | | | | | | | | | | | | | | |k a b'| | | | | | |]; try discriminate Hok. destruct v; try contradiction Hw.
    exact (C29_skip_indexed_map E d k a b' l b rest o W Hh Hm SB Hw Hl Hlr H).
  - destruct (f_ty f) as [| | | | | | | | | | | |t1|t1| | | | | | | | | | | |]; try discriminate Hok; destruct v; try contradiction Hw.
    + exact (C29_skip_indexed_seq E d (TVec t1) t1 l b rest o W Hh Hm SB (or_introl eq_refl) Hw Hl Hlr H).
    + exact (C29_skip_indexed_seq E d (TImVec t1) t1 l b rest o W Hh Hm SB (or_intror eq_refl) Hw Hl Hlr H).
  - destruct (f_ty f) as [| | | | | | | | | | | | | | | | | | |k a| | | | | |]; try discriminate Hok. destruct v; try contradiction Hw.
    exact (C29_skip_indexed_set E d k a l b rest o W Hh Hm SB Hw Hl Hlr H).
Qed.
(** The fields of an optimised payload. *)
Definition field_encs (d : nat) (fs : list field) (l : list val) (es : list bytes) : Prop :=
  Forall2 (fun fv e => encode_field E d (mode_opt (fst fv)) (f_ty (fst fv)) (snd fv) = Ok e) (combine fs l) es.
Lemma plain_enc : forall d f v e rest, is_idx f = false -> wt E d (f_ty f) v -> encode_field E d (mode_opt f) (f_ty f) v = Ok e -> encoded d (f_ty f) v (e ++ rest) rest.
Proof.
  intros d f v e rest Hi Hw H. exists e. split; [reflexivity|]. split; [exact Hw|]. unfold is_idx in Hi. unfold encode_field, mode_opt in H.
  destruct (f_idx f); try discriminate Hi. exact H.
Qed.
Lemma chain_opt : forall d rev fs i l es rest, Forall (fun f => falive rev f = true /\ field_ok f = true) fs ->
  Forall2 (fun f v => wt E d (f_ty f) v) fs l -> field_encs d fs l es -> len (concat es) < 2 ^ 32 ->
  chain E D encoded M d (SWire rev) i fs (shown fs l) (concat es ++ rest) rest.
Proof.
  intros d rev fs. induction fs as [|f fs IH]; intros i l es rest Hf Hw He Hl; inversion Hw as [|? v ? l' Hv Hw']; subst.
  - inversion He; subst. constructor.
  - inversion Hf as [|? ? [Ha Hok] Hf']; subst. unfold field_encs in He. cbn [combine] in He. inversion He as [|? e ? es' Hfe He']; subst. cbn [fst snd] in Hfe.
    cbn [concat] in Hl. rewrite len_app in Hl. unfold shown. cbn [map combine concat]. rewrite <- app_assoc.
    apply ch_wire with (concat es' ++ rest); [apply alive_start; exact Ha| | |apply IH; [exact Hf'|exact Hw'|exact He'|lia]].
    + intros Hi. apply plain_enc; assumption.
    + intros Hi. split; [|split].
      * apply (field_round_trip E d (mode_opt f) (f_ty f) v e _ W Hh Hm Hv); [intros _; lia|exact Hfe].
      * intros o Hlr. apply skip_idx_enc with v; [|exact Hi|exact Hv|lia|exact Hlr|exact Hfe].
        unfold field_ok in Hok. apply andb_prop in Hok. apply Hok.
      * exists e. split; [reflexivity|]. exists d. exact Hfe.
Qed.
Lemma indexed_is_field : forall p n i, i < n -> indexed_field p n i = IdxWalk.field_bytes (mkStructW p n) i.
Proof.
  intros p n i Hi. unfold indexed_field, IdxWalk.field_bytes. cbn [stw_count stw_payload]. rewrite (proj2 (N.leb_gt _ _) Hi).
  assert (A : forall b x y, slice_of b x y = at_range b x y) by (intros; unfold slice_of, at_range, get; destruct (_ && _); reflexivity).
  unfold u32_at. rewrite !A. replace ((i + 1) * 4) with (i * 4 + 4) by lia. replace (i * 4 + 4 + 4) with (i * 4 + 8) by lia.
  destruct (at_range p (i * 4) (i * 4 + 4)) as [x| |]; try reflexivity. cbn [rbind rmap].
  destruct (i + 1 <? n); [|cbn [rbind]; apply A]. destruct (at_range p (i * 4 + 4) (i * 4 + 8)); try reflexivity. cbn [rbind rmap]. apply A.
Qed.
Lemma chain_idx : forall d p n fs i l es rest, (forall j e, nth_error es j = Some e -> indexed_field p n (i + N.of_nat j) = Ok e) ->
  Forall2 (fun f v => wt E d (f_ty f) v) fs l -> field_encs d fs l es ->
  chain E D encoded M d (SIndexed p n) i fs (shown fs l) rest rest.
Proof.
  intros d p n fs. induction fs as [|f fs IH]; intros i l es rest Hx Hw He; inversion Hw as [|? v ? l' Hv Hw']; subst.
  - constructor.
  - unfold field_encs in He. cbn [combine] in He. inversion He as [|? e ? es' Hfe He']; subst. cbn [fst snd] in Hfe. unfold shown. cbn [map combine].
    apply ch_indexed with e.
    + rewrite <- (Hx 0%nat e eq_refl). f_equal. lia.
    + intros Hi. pose proof (plain_enc d f v e [] Hi Hv Hfe) as (b & Hb & Hwb & Hsb). rewrite !app_nil_r in Hb. subst b.
      apply to_vec_ok in Hsb. destruct Hsb as (ops & Hsb & ->). rewrite <- (app_nil_r (out ops)). exact (round_trip E d _ v ops [] W Hh Hm Hwb Hsb).
    + intros _. exists d. exact Hfe.
    + apply IH with es'; [|exact Hw'|exact He']. intros j e' Hj. rewrite <- (Hx (S j) e' Hj). f_equal. lia.
Qed.
Lemma borrow_app : forall n (x y : bytes) o, n = len x -> sm_op (sr_borrow n) (mkSR (x ++ y) o) = Ok (x, mkSR y o).
Proof.
  intros n x y o ->. unfold sm_op, sr_borrow, sr_peek, sr_advance, sr_consume. cbn [sr_inner sr_orig]. rewrite !split_at_app. reflexivity.
Qed.

(** ** Enums *)
Lemma class_of_id : forall ds vr x sz, NoDup (map snd ds) -> In (vr, x) ds -> v_size vr = Some sz -> class_at ds x = Some (class_of sz).
Proof.
  intros ds vr x sz Hn Hi Hs. unfold class_at. rewrite (find_some_uniq _ _ ds (vr, x)); [rewrite Hs; reflexivity|exact Hi|apply N.eqb_refl|].
  intros [w y] Hy Hk. cbn [snd] in Hk. apply N.eqb_eq in Hk. eapply NoDup_map_inj; [exact Hn|exact Hy|exact Hi|exact Hk].
Qed.
Lemma enc3_image : forall d fs l es, Forall3_enc E d fs l es -> payload_image E fs l (concat es).
Proof.
  intros d fs l es H. exists d, es. split; [|split; [|reflexivity]]; induction H; cbn [length combine]; [reflexivity|congruence|constructor|].
  constructor; [exact H|exact IHForall3_enc].
Qed.
Lemma variant_pay : forall n s vs vr x d l ops, e_sch E n = Some s -> s_body s = SEnum vs -> In vr vs -> opt_variant_ok (scur s) (scur s) (vr, x) = true ->
  wt_fields E (wt_ref E d) (scur s) (v_fields vr) l -> ser_variant_opt E (ser_ref E d) (scur s) vr x l = Ok ops ->
  exists sz es tl, v_size vr = Some sz /\ out ops = tag_new x (class_of sz) :: tl /\ x < 32
    /\ Forall3_enc E d (filter (falive (scur s)) (v_fields vr)) l es
    /\ match sz with
       | SInline => concat es = [] /\ tl = []
       | SFixed k => len (concat es) = k /\ tl = concat es
       | SVarlen => len (concat es) < 2 ^ 32 /\ tl = le_bytes 4 (len (concat es)) ++ concat es
       end.
Proof.
  intros n s vs vr x d l ops Es Eb Hin Hopt Hw Hs. unfold opt_variant_ok in Hopt. rewrite N.eqb_refl in Hopt. cbn [fst snd negb orb] in Hopt. apply andb_prop in Hopt. destruct Hopt as [Hx Hopt].
  unfold ser_variant_opt in Hs. destruct (v_size vr) as [sz|] eqn:Esz; [|discriminate].
  assert (Htag : tag_new_checked (e_dbg E) x (class_of sz) = Ok (tag_new x (class_of sz))).
  { unfold tag_new_checked. rewrite Hx. rewrite andb_false_r. reflexivity. }
  apply N.ltb_lt in Hx. exists sz. destruct sz as [|k|]; cbn [class_of] in Htag; rewrite Htag in Hs; cbn [rbind] in Hs.
  - destruct (filter (falive (scur s)) (v_fields vr)) eqn:Efl; [|discriminate]. unfold wt_fields in Hw. rewrite Efl in Hw. inversion Hw; subst l.
    apply Ok_inj in Hs. subst ops. exists [], []. split; [reflexivity|]. split; [reflexivity|]. split; [exact Hx|]. split; [constructor|]. split; reflexivity.
  - apply sbind_ok in Hs. destruct Hs as (la & lb & Hla & Hs & ->). apply rbind_ok in Hs. destruct Hs as (es & Hes & Hs).
    destruct (e_dbg E && negb (len (concat es) =? k)) eqn:Edb; [discriminate|]. apply enc3 in Hes.
    assert (Hn : len (concat es) = k).
    { destruct Hh as [Hd|Hd].
      - rewrite Hd in Edb. cbn [andb] in Edb. apply negb_false_iff, N.eqb_eq in Edb. exact Edb.
      - exact (Hd n s vs vr k d l es Es Eb Hin Esz Hw Hes). }
    apply Ok_inj in Hla. apply Ok_inj in Hs. subst la lb. exists es, (concat es). split; [reflexivity|]. split; [|auto].
    unfold out. cbn [flat_map wop_bytes app]. rewrite app_nil_r. reflexivity.
  - apply sbind_ok in Hs. destruct Hs as (la & lb & Hla & Hs & ->). apply rbind_ok in Hs. destruct Hs as (es & Hes & Hs). apply enc3 in Hes.
    unfold ser_payload in Hs. destruct (N.ltb_spec (len (concat es)) (2 ^ 32)) as [Hl|]; [|discriminate].
    apply Ok_inj in Hla. apply Ok_inj in Hs. subst la lb. exists es, (le_bytes 4 (len (concat es)) ++ concat es). split; [reflexivity|]. split; [|auto].
    unfold out. cbn [flat_map wop_bytes app]. rewrite app_nil_r. reflexivity.
Qed.
Lemma one_enc : forall d f v b, wt E d (f_ty f) v -> Forall3_enc E d [f] [v] b -> run (deserialize E d (f_ty f)) (concat b) = Ok (v, []).
Proof.
  intros d f v b Hw H. inversion H as [|? ? ? ? e es He Hn]; subst. inversion Hn; subst. cbn [concat]. rewrite app_nil_r.
  apply to_vec_ok in He. destruct He as (ops & He & ->). rewrite <- (app_nil_r (out ops)). exact (round_trip E d _ v ops [] W Hh Hm Hw He).
Qed.
Lemma borrowed_enum : forall d n s vs vr x ds l es payload rest, e_sch E n = Some s -> s_body s = SEnum vs -> calc_disc (scur s) vs = Some ds -> In (vr, x) ds ->
  wt_fields E (wt_ref E d) (scur s) (v_fields vr) l -> Forall3_enc E d (filter (falive (scur s)) (v_fields vr)) l es -> payload = concat es ->
  rel E D encoded M d rest rest (CEnum (EBorrowed payload x) s vs) (HEnum s vs) (PEnum true s vs (v_name vr) l).
Proof.
  intros d n s vs vr x ds l es payload rest Es Eb Ed Hin Hw He ->. pose proof (we_sch E W n s Es) as Ws.
  assert (Hn : NoDup (map v_name vs)) by (destruct Ws as (_ & _ & Wb); rewrite Eb in Wb; apply Wb).
  assert (Hv : In vr (filter (valive (scur s)) vs)) by (rewrite <- (calc_disc_fst _ _ _ Ed); apply in_map_iff; exists (vr, x); auto).
  apply filter_In in Hv. destruct Hv as [Hv Ha].
  change true with (e_detached (EBorrowed (concat es) x)). apply r_enum with (fs := filter (falive (scur s)) (v_fields vr)).
  - intros k' _. change (is_variant (EBorrowed (concat es) x) s vs k') with (is_variant (EWire (scur s) x) s vs k'). exact (disc_is (scur s) s vs ds vr x k' Ws Eb Ed Hin).
  - apply here_of; assumption.
  - unfold under_enum. cbn [e_detached]. split; [reflexivity|]. exists (concat es). split; [reflexivity|]. split; [apply enc3_image with d; exact He|].
    intros f Hf. unfold wt_fields in Hw. rewrite Hf in *. inversion Hw as [|? v ? l' Hvw Hl']; subst. inversion Hl'; subst. exists v, []. split; [reflexivity|].
    exact (one_enc d f v es Hvw He).
Qed.

(** ** The walker of a value just encoded *)
Definition entered (d : nat) (s : schema) (c : ctx) (k : kind) (v : val) (b rest : bytes) (o : N) (p : view) (m : sm ctx) : Prop :=
  exists bs', m (mkSR (b ++ rest) o) = Ok (c, mkSR bs' o) /\ rel E D encoded M d bs' rest c k p /\ exists hd, b ++ rest = hd ++ bs'.

Lemma struct_enc : forall d n s fs h l ops rest o, e_sch E n = Some s -> s_body s = SStruct fs -> sent s (scur s) = Some h -> plain_now s ->
  wt_fields E (wt_ref E d) (scur s) fs l -> ser_struct E (ser_ref E d) h (scur s) fs (VSeq l) = Ok ops ->
  exists c, entered d s c (HFields (h_opt h && h_idx h) (filter (falive (scur s)) fs)) (VSeq l) (out ops) rest o
    (PFields (h_opt h && h_idx h) (shown (filter (falive (scur s)) fs) l)) (enter_struct E D d s fs (scur s)).
Proof.
  intros d n s fs h l ops rest o Es Eb Eh Hpl Hw Hs. pose proof (we_sch E W n s Es) as (_ & _ & Wb). rewrite Eb in Wb.
  unfold enter_struct. rewrite N.eqb_refl, andb_false_r, Eh. cbn [ser_struct] in Hs. destruct (h_opt h) eqn:Eo; cbn [andb].
  - unfold ser_struct_opt in Hs. apply rbind_ok in Hs. destruct Hs as (es & Hes & Hs). unfold ser_payload in Hs.
    destruct (N.ltb_spec (len ((if h_idx h then struct_offsets (4 * len es) es else []) ++ concat es)) (2 ^ 32)) as [Hl|]; [|discriminate].
    apply Ok_inj in Hs. subst ops. unfold out. cbn [flat_map wop_bytes app]. rewrite app_nil_r.
    destruct (fields_enc E d _ _ _ _ Hes) as (Hfe & Hl1 & Hl2).
    destruct (h_idx h) eqn:Ei.
    + set (p := struct_offsets (4 * len es) es ++ concat es) in *.
      assert (Hn : len (filter (falive (scur s)) fs) = len es) by (unfold len; rewrite Hl2; reflexivity).
      exists (CStruct (SIndexed p (len es)) 0 (filter (falive (scur s)) fs)), rest. split; [|split].
      * rewrite <- app_assoc. rewrite (sm_bind_run _ _ _ _ _ _ _ _ (run_read_varlen_len _ (p ++ rest) Hl)). unfold sm_bind.
        rewrite borrow_app by reflexivity. rewrite Hn. reflexivity.
      * change true with (is_sindexed (SIndexed p (len es))) at 1. change true with (is_detached (SIndexed p (len es))). apply r_struct.
        apply chain_idx with es; [|exact Hw|exact Hfe]. intros j e Hj. rewrite N.add_0_l.
        assert (Hjl : N.of_nat j < len es) by (assert (Hj' : (j < length es)%nat) by (apply nth_error_Some; congruence); unfold len; lia).
        rewrite indexed_is_field by exact Hjl. destruct (struct_view_of es p eq_refl Hl) as [(w & Hopen & _ & Hf) _].
        assert (Hw' : w = mkStructW p (len es)).
        { unfold struct_open in Hopen. destruct (len p <? len es * 4); [discriminate|]. apply Ok_inj in Hopen. subst w. reflexivity. }
        subst w. rewrite Hf, Nnat.Nat2N.id, Hj. reflexivity.
      * exists (le_bytes 4 (len p) ++ p). reflexivity.
    + cbn [app] in *. exists (CStruct (SWire (scur s)) 0 (filter (falive (scur s)) fs)), (concat es ++ rest). split; [|split].
      * rewrite <- app_assoc. rewrite (sm_bind_run _ _ _ _ _ _ _ _ (run_read_varlen_len _ (concat es ++ rest) Hl)). reflexivity.
      * change false with (is_sindexed (SWire (scur s))) at 1. change false with (is_detached (SWire (scur s))). apply r_struct.
        apply chain_opt; [|exact Hw|exact Hfe|exact Hl]. apply Forall_forall. intros f Hf. apply filter_In in Hf. split; [apply Hf|].
        apply (proj1 (forallb_forall _ _) Wb). apply Hf.
      * exists (le_bytes 4 (len (concat es))). rewrite <- app_assoc. reflexivity.
  - exists (CStruct (SWire (scur s)) 0 (filter (falive (scur s)) fs)), (out ops ++ rest). split; [reflexivity|]. split; [|exists []; reflexivity].
    change false with (is_sindexed (SWire (scur s))) at 1. change false with (is_detached (SWire (scur s))). apply r_struct.
    specialize (Hpl h Eh Eo). rewrite Eb in Hpl. apply chain_legacy; [exact Hpl| |exact Hw|exact Hs].
    apply Forall_forall. intros f Hf Hsp. apply (SB n s f Es); [rewrite Eb; exact Hf|exact Hsp].
Qed.
Lemma out_one : forall b, out [WAll b] = b.
Proof. intros b. apply app_nil_r. Qed.
Lemma find_name_is : forall k ds vr x, find_name k ds = Some (vr, x) -> In (vr, x) ds /\ v_name vr = k.
Proof. intros k ds vr x H. unfold find_name in H. apply find_some in H. cbn [fst] in H. destruct H as [H1 H2]. apply N.eqb_eq in H2. auto. Qed.
Lemma one_legacy : forall d f l ops rest rev, falive rev f = true -> f_fixed f = false -> (f_spec f = true -> e_spec E = true) ->
  Forall2 (fun f v => wt E d (f_ty f) v) [f] l -> sconcat (ser_fields E (ser_ref E d) false rev [f] l) = Ok ops ->
  exists v, l = [v] /\ encoded d (f_ty f) v (out ops ++ rest) rest.
Proof.
  intros d f l ops rest rev Ha Hfx Hsp Hw Hs. inversion Hw as [|? v ? l' Hv Hl']; subst. inversion Hl'; subst. exists v. split; [reflexivity|].
  cbn [ser_fields] in Hs. rewrite Ha in Hs. rewrite sconcat_cons in Hs. apply sbind_ok in Hs. destruct Hs as (l1 & l2 & H1 & H2 & ->). inversion H2; subst. rewrite app_nil_r.
  apply enc_ops; [exact Hv|]. unfold mode_of, mode_legacy in H1. rewrite Hfx in H1. destruct (f_spec f); [|exact H1].
  cbn [ser_mode] in H1. destruct (f_ty f) as [| | | | | | | | | | | |t'| | | | | | | | | | | | |]; try discriminate.
  destruct v; try discriminate. cbn [ser_ty]. destruct (bulk_of t') as [k|]; [|discriminate]. rewrite (Hsp eq_refl). exact H1.
Qed.
Lemma fields_alive : forall rec opt rev fs l, ser_fields E rec opt rev fs l = ser_fields E rec opt rev (filter (falive rev) fs) l.
Proof.
  intros rec opt rev fs. induction fs as [|f fs IH]; intros l; [reflexivity|]. cbn [ser_fields filter]. destruct (falive rev f) eqn:Ea; [|apply IH].
  cbn [ser_fields]. rewrite Ea. destruct l; [reflexivity|]. rewrite IH. reflexivity.
Qed.
Lemma enum_enc : forall d n s vs h k l ops rest o, e_sch E n = Some s -> s_body s = SEnum vs -> sent s (scur s) = Some h -> plain_now s ->
  wt_derived E (wt_ref E d) s (VVar k l) -> ser_enum E (ser_ref E d) h (scur s) vs (VVar k l) = Ok ops ->
  exists c, entered d s c (HEnum s vs) (VVar k l) (out ops) rest o (PEnum (h_opt h) s vs k l) (enter_enum E D d s vs (scur s)).
Proof.
  intros d n s vs h k l ops rest o Es Eb Eh Hpl Hw Hs. pose proof (we_sch E W n s Es) as Ws. pose proof Ws as (Hs1 & Hs2 & Wb). rewrite Eb in Wb.
  destruct Wb as (Hnd & Hfok & Hrev). destruct (Hrev _ _ Eh) as (ds & Ed & Hd32 & Hopt).
  unfold enter_enum. rewrite N.eqb_refl, andb_false_r, Eh, Ed. unfold wt_derived in Hw. rewrite Eb in Hw. destruct Hw as (vr & Hvin & Hvn & Hva & Hw).
  cbn [ser_enum] in Hs. rewrite Ed in Hs. destruct (find_name k ds) as [[vr' x]|] eqn:Ef; [|discriminate]. apply find_name_is in Ef. destruct Ef as [Hin Hn'].
  assert (Hv' : In vr' vs). { assert (Hi : In vr' (map fst ds)) by (apply in_map_iff; exists (vr', x); auto). rewrite (calc_disc_fst _ _ _ Ed) in Hi. apply filter_In in Hi. apply Hi. }
  assert (vr' = vr) by (eapply NoDup_map_inj; [exact Hnd|exact Hv'|exact Hvin|congruence]). subst vr' k. clear Hv' Hn'.
  pose proof (calc_disc_nodup _ _ _ Ed) as Hnds.
  destruct (h_opt h) eqn:Eo.
  - pose proof (proj1 (forallb_forall _ _) (Hopt eq_refl) _ Hin) as Hov.
    destruct (variant_pay n s vs vr x d l ops Es Eb Hvin Hov Hw Hs) as (sz & es & tl & Hsz & Hout & Hx & He & Htl).
    exists (CEnum (EBorrowed (concat es) x) s vs), rest. rewrite Hout. split; [|split].
    + cbn [app]. rewrite (sm_bind_run _ _ _ _ _ _ _ _ (run_read_byte_cons _ _) : sm_bind (sr_run read_tag) _ _ = _).
      destruct (tag_round x (class_of sz) Hx) as (T1 & T2 & _). rewrite T1, T2. unfold sm_bind at 1. unfold sm_res. cbn [rmap].
      rewrite (class_of_id ds vr x sz Hnds Hin Hsz), sclass_eqb_refl. unfold sm_bind at 1. destruct sz as [|w|]; cbn [class_of].
      * destruct Htl as [-> ->]. reflexivity.
      * destruct Htl as [Hl ->]. rewrite (size_table_nth ds vr x w Hnds Hin Hsz Hx). rewrite borrow_app by (symmetry; exact Hl). reflexivity.
      * destruct Htl as [Hl ->]. rewrite <- app_assoc. rewrite (sm_bind_run _ _ _ _ _ _ _ _ (run_read_varlen_len _ (concat es ++ rest) Hl)).
        rewrite borrow_app by reflexivity. reflexivity.
    + exact (borrowed_enum d n s vs vr x ds l es (concat es) rest Es Eb Ed Hin Hw He eq_refl).
    + eexists. reflexivity.
  - apply sbind_ok in Hs. destruct Hs as (l1 & l2 & H1 & H2 & ->). apply Ok_inj in H1. subst l1. unfold entered. rewrite out_app, out_one, <- app_assoc.
    pose proof (proj1 (Forall_forall _ _) Hd32 _ Hin) as Hx. cbn [snd] in Hx.
    exists (CEnum (EWire (scur s) x) s vs), (out l2 ++ rest). split; [|split].
    + rewrite (sm_bind_run _ _ _ _ _ _ _ _ (rt_u32 (e_fw E) x _ Hx)). reflexivity.
    + change false with (e_detached (EWire (scur s) x)). apply r_enum with (fs := filter (falive (scur s)) (v_fields vr)).
      * intros k' _. exact (disc_is (scur s) s vs ds vr x k' Ws Eb Ed Hin).
      * apply here_of; assumption.
      * unfold under_enum. cbn [e_detached]. rewrite fields_alive in H2. unfold wt_fields in Hw.
        destruct (filter (falive (scur s)) (v_fields vr)) as [|f [|f2 fs]] eqn:Efl; [| |exact I].
        { inversion Hw; subst. inversion H2; subst. reflexivity. }
        assert (Hf : In f (filter (falive (scur s)) (v_fields vr))) by (rewrite Efl; left; reflexivity). apply filter_In in Hf. destruct Hf as [Hf Ha].
        apply one_legacy with (rev := scur s); [exact Ha| | |exact Hw|exact H2].
        { specialize (Hpl h Eh Eo). rewrite Eb in Hpl. exact (proj1 (Forall_forall _ _) (proj1 (Forall_forall _ _) Hpl vr Hvin) f Hf Ha). }
        { intros Hsp. apply (SB n s f Es); [|exact Hsp]. rewrite Eb. apply in_flat_map. eauto. }
    + exists (ser_u32 (e_fw E) x). reflexivity.
Qed.

Lemma enter_enc : forall t d bs v rest o, encoded d t v bs rest -> opens E plain_now t ->
  if refused E t then enter E D d t (mkSR bs o) = Err (EDeserialize MBulkVec) else open_at E D (opened_enc E) encoded M d t v bs rest o.
Proof.
  assert (Hrefl : forall bs : bytes, exists hd, bs = hd ++ bs) by (intros bs; exists []; reflexivity).
  assert (Hpos : forall t d bs v rest, encoded d t v bs rest -> rel E D encoded M d bs rest (CPos t) (HPos t) (PPos t v)) by (intros; constructor; assumption).
  assert (Hseq : forall d t (l l' : list val) ops rest o, len l = len l' -> len l < M -> Forall (wt E d t) l' ->
    (Ok [WAll (ser_len E (len l))] +++ sconcat (map (ser_ty E (ser_ref E d) t) l')) = Ok ops ->
    exists c bs', sm_bind (sr_run (de_len E)) (fun n => sm_ret (d, CSeq t n)) (mkSR (out ops ++ rest) o) = Ok ((d, c), mkSR bs' o)
      /\ rel E D encoded M d bs' rest c (HSeq t) (PSeq t l') /\ exists hd, out ops ++ rest = hd ++ bs').
  { intros d t l l' ops rest o Hll Hn Hw H. apply sbind_ok in H. destruct H as (l1 & l2 & H1 & H2 & ->). apply Ok_inj in H1. subst l1.
    rewrite out_app, out_one, <- app_assoc. exists (CSeq t (len l)), (out l2 ++ rest).
    rewrite (sm_bind_run _ _ _ _ _ _ _ _ (len_prefix _ (out l2 ++ rest) Hn)). split; [reflexivity|]. split; [constructor; [exact Hll|apply items_enc; assumption]|eauto]. }
  induction t; intros d bs v rest o H Hs; unfold open_at; cbn [refused enter kind_of];
    try (left; exists d; eexists; eexists; exists bs; split; [reflexivity|split; [apply Hpos; exact H|split; [reflexivity|apply Hrefl]]]).
  all: pose proof H as Hall; destruct H as (b & -> & Hw & Hb); apply to_vec_ok in Hb; destruct Hb as (ops & Hb & ->); unfold to_writer in Hb; unfold wt in Hw.
  - (* TVec *) rewrite vec_uses_bulk_iff. destruct (e_spec E && match bulk_of t with Some _ => true | None => false end) eqn:Eb; [reflexivity|].
    destruct v; try contradiction Hw. cbn [wt_ty] in Hw. destruct Hw as (Hn & _ & Hw). cbn [ser_ty] in Hb.
    replace (if e_spec E then bulk_of t else None) with (@None bk) in Hb by (destruct (e_spec E); [destruct (bulk_of t); [discriminate|reflexivity]|reflexivity]).
    destruct (Hseq d t l l ops rest o eq_refl Hn Hw Hb) as (c & bs' & H1 & H2 & H3).
    left. exists d, c, (PSeq t l), bs'. split; [exact H1|]. split; [exact H2|]. split; [cbn; eauto|exact H3].
  - (* TImVec *) destruct v; try contradiction Hw. cbn [wt_ty] in Hw. destruct Hw as (Hn & Hw). cbn [ser_ty] in Hb.
    destruct (Hseq d t l l ops rest o eq_refl Hn Hw Hb) as (c & bs' & H1 & H2 & H3).
    left. exists d, c, (PSeq t l), bs'. split; [exact H1|]. split; [exact H2|]. split; [cbn; eauto|exact H3].
  - (* TOption *) destruct v as [| | | | | |k l]; try contradiction Hw. cbn [wt_ty ser_ty] in Hw, Hb.
    destruct k as [|[]]; try contradiction Hw; [destruct l; [|contradiction Hw]|destruct l as [|x [|]]; try contradiction Hw].
    + apply Ok_inj in Hb. subst ops. cbn [out flat_map wop_bytes app]. rewrite (sm_bind_run _ _ _ _ _ _ _ _ (run_read_byte_cons 0 rest)).
      left. exists d, (COpt t 0), (POpt t None), rest. split; [reflexivity|]. split; [constructor; reflexivity|]. split; [left; auto|]. exists [0]. reflexivity.
    + apply sbind_ok in Hb. destruct Hb as (l1 & l2 & H1 & H2 & ->). apply Ok_inj in H1. subst l1. cbn [out flat_map wop_bytes app].
      rewrite (sm_bind_run _ _ _ _ _ _ _ _ (run_read_byte_cons 1 _)).
      left. exists d, (COpt t 1), (POpt t (Some x)), (out l2 ++ rest). split; [reflexivity|]. split; [constructor; apply enc_ops; assumption|]. split; [right; eauto|]. exists [1]. reflexivity.
  - (* TResult *) destruct v as [| | | | | |k l]; try contradiction Hw. cbn [wt_ty ser_ty] in Hw, Hb.
    destruct k as [|[]]; try contradiction Hw; destruct l as [|x [|]]; try contradiction Hw; apply sbind_ok in Hb; destruct Hb as (l1 & l2 & H1 & H2 & ->);
      apply Ok_inj in H1; subst l1; rewrite out_app, out_one, <- app_assoc.
    + rewrite (sm_bind_run _ _ _ _ _ _ _ _ (rt_u32 (e_fw E) 0 _ ltac:(reflexivity))).
      left. exists d, (CRes t1 t2 0), (PRes t1 t2 (inl x)), (out l2 ++ rest). split; [reflexivity|]. split; [constructor; apply enc_ops; assumption|]. split; [exists x; left; auto|]. eauto.
    + rewrite (sm_bind_run _ _ _ _ _ _ _ _ (rt_u32 (e_fw E) 1 _ ltac:(reflexivity))).
      left. exists d, (CRes t1 t2 1), (PRes t1 t2 (inr x)), (out l2 ++ rest). split; [reflexivity|]. split; [constructor; apply enc_ops; assumption|]. split; [exists x; right; auto|]. eauto.
  - (* TMap *) destruct v; try contradiction Hw. cbn [wt_ty ser_ty] in Hw, Hb. destruct Hw as (Hn & Hw & _).
    apply sbind_ok in Hb. destruct Hb as (l1 & l2 & H1 & H2 & ->). apply Ok_inj in H1. subst l1. rewrite out_app, out_one, <- app_assoc.
    rewrite (sm_bind_run _ _ _ _ _ _ _ _ (len_prefix _ (out l2 ++ rest) Hn)).
    left. exists d, (CMap t1 t2 (len l)), (PMap t1 t2 (citer E k (TMap k t1 t2) l)), (out l2 ++ rest). split; [reflexivity|].
    split; [constructor; [symmetry; apply iter_len|apply entries_enc; [apply iter_Forall'; exact Hw|exact H2]]|]. split; [cbn [opened_enc]; destruct k; eauto|eauto].
  - (* TSet *) destruct v; try contradiction Hw. cbn [wt_ty ser_ty] in Hw, Hb. destruct Hw as (Hn & Hw & _).
    destruct (Hseq d t l (citer E k (TSet k t) l) ops rest o (eq_sym (iter_len _ _ _)) Hn (iter_Forall' _ _ _ _ Hw) Hb) as (c & bs' & H1 & H2 & H3).
    left. exists d, c, (PSeq t (citer E k (TSet k t) l)), bs'. split; [exact H1|]. split; [exact H2|]. split; [cbn [opened_enc]; destruct k; eauto|exact H3].
  - (* THeap *) destruct v; try contradiction Hw. cbn [wt_ty ser_ty] in Hw, Hb. destruct Hw as (Hn & Hw & _).
    destruct (Hseq d t l (citer E KHash (THeap t) l) ops rest o (eq_sym (iter_len KHash _ _)) Hn (iter_Forall' KHash _ _ _ Hw) Hb) as (c & bs' & H1 & H2 & H3).
    left. exists d, c, (PSeq t (citer E KHash (THeap t) l)), bs'. split; [exact H1|]. split; [exact H2|]. split; [cbn [opened_enc]; eauto|exact H3].
  - (* TWrap *) apply (IHt d _ v rest o Hall Hs).
  - (* TExt *) destruct mirror.
    + left. exists d. eexists _, _, _. split; [reflexivity|]. split; [apply Hpos; exact Hall|split; [reflexivity|apply Hrefl]].
    + cbn [wt_ty ser_ty] in Hw, Hb. destruct Hw as [Hw _].
      destruct t; try (left; exists d; eexists; eexists; eexists; split; [reflexivity|split; [apply Hpos; exact Hall|split; [reflexivity|apply Hrefl]]]);
        left; exists d; eexists; eexists; eexists; (split; [reflexivity|split; [apply Hpos; apply enc_ops; eassumption|split; [reflexivity|apply Hrefl]]]).
  - (* TRef *) cbn [wt_ty ser_ty] in Hw, Hb. destruct d as [|d]; [contradiction Hw|]. cbn [wt_ref ser_ref] in Hw, Hb. cbn [opens] in Hs.
    destruct (e_sch E n) as [s|] eqn:En; [|contradiction Hw]. specialize (Hs s eq_refl). unfold ser_derived in Hb. destruct (sent s (scur s)) as [h|] eqn:Eh; [|discriminate].
    pose proof (we_sch E W n s En) as (Hs1 & Hs2 & _).
    apply sbind_ok in Hb. destruct Hb as (l1 & l2 & H1 & H2 & ->). apply Ok_inj in H1. subst l1. rewrite out_app, out_one, <- app_assoc.
    unfold sm_map, enter_derived. unfold sm_bind at 1. rewrite (sm_bind_run _ _ _ _ _ _ _ _ (rt_u16 (e_fw E) _ _ Hs2)).
    replace ((scur s =? 0) || (scur s <? scur s)) with false by (symmetry; apply orb_false_iff; split; [apply N.eqb_neq|apply N.ltb_ge]; lia).
    unfold indexed_now. rewrite Eh. destruct (s_body s) as [fs|vs] eqn:Ebd; cbv iota beta; pose proof Hw as Hw0; unfold wt_derived in Hw; rewrite Ebd in Hw; destruct v as [| | | | |l|k l]; try contradiction Hw.
    + destruct (struct_enc d n s fs h l l2 rest o En Ebd Eh Hs Hw H2) as (c & bs' & X1 & X2 & (hd & X3)). rewrite X1.
      left. exists d, c. eexists _, bs'. split; [reflexivity|]. split; [exact X2|]. split.
      * cbn [opened_enc]. exists s, h. split; [exact En|]. split; [exact Eh|]. rewrite Ebd. exists l. split; reflexivity.
      * rewrite X3. exists (ser_u16 (e_fw E) (scur s) ++ hd). apply app_assoc.
    + destruct (enum_enc d n s vs h k l l2 rest o En Ebd Eh Hs Hw0 H2) as (c & bs' & X1 & X2 & (hd & X3)). rewrite X1.
      left. exists d, c. eexists _, bs'. split; [reflexivity|]. split; [exact X2|]. split.
      * cbn [opened_enc]. exists s, h. split; [exact En|]. split; [exact Eh|]. rewrite Ebd. exists k, l. split; reflexivity.
      * rewrite X3. exists (ser_u16 (e_fw E) (scur s) ++ hd). apply app_assoc.
Qed.

Lemma to_vec_wfb : forall d t v b, wt E d t v -> to_vec E d t v = Ok b -> wfb b.
Proof.
  intros d t v b Hw H. unfold to_vec, ser_bytes in H.
  assert (S : rspec (Forall (fun w => wfb (wop_bytes w))) (fun _ => True) (fun _ => True) (to_writer E d t v)).
  { apply (sspec_writer (fun _ => True) (fun _ => True) (fun _ _ => True)); auto.
    - intros _ _. split; repeat constructor.
    - apply every_true; auto. }
  destruct (to_writer E d t v) as [ops|e'|x]; try discriminate. apply Ok_inj in H. subst b. exact (out_wf (fun w => wfb (wop_bytes w)) (fun w H => H) ops S).
Qed.
(** Any script on what this program encoded. *)
Theorem walk_encoded : forall a t d b v rest o, wt E d t v -> to_vec E d t v = Ok b -> wfb rest -> len (b ++ rest) < M ->
  opens E plain_now t -> covered E plain_now (kind_of E t) a ->
  exists r, (if refused E t then r = Err (EDeserialize MBulkVec) else exists c, opened_enc E t v c /\ expect E D (opened_enc E) c a r)
    /\ sm_bind (enter E D d t) (fun p => act_on E D (fst p) (snd p) a) (mkSR (b ++ rest) o) = fin r rest o.
Proof.
  intros a t d b v rest o Hw Hs Hb Hl Ho Hc.
  assert (He : encoded d t v (b ++ rest) rest) by (exists b; auto).
  assert (Hbb : wfb (b ++ rest)) by (apply wfb_app; split; [exact (to_vec_wfb d t v b Hw Hs)|exact Hb]).
  apply (walked_ok E D (opened_enc E) plain_now encoded M (N.le_refl M) enc_dec (fun t d bs v rest o H _ _ => enter_enc t d bs v rest o H) a d t (b ++ rest) v rest o); try assumption.
  apply (agree_all E D (opened_enc E) plain_now encoded M (N.le_refl M) SB enc_dec (fun t d bs v rest o H _ _ => enter_enc t d bs v rest o H)).
Qed.
End Enc.
