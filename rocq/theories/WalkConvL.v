(** Walkers over data of older revisions of types with convert functions: the data is decoded, converted and
    encoded again.  Proofs. *)

From Verif Require Import Base BaseL Prog ProgL Prim PrimL Utf8 Tag Ty Ser De Typed Mig SortL DiscL RtL RtTy RtDer RtSch RtId Agree SerL PartsL Spec Cross Ex Users Yield PropTotal PropVal SliceReader Skip SkipIdx SkipL PropWire PropIdx PropSkip IdxWalk IdxWalkL IdxEncL PropEnc Walk WalkSpec PropSlice WalkL WalkEncL.
From Coq Require Import List NArith ZArith Bool Lia Permutation.
Import ListNotations.
Open Scope N_scope.

Notation is_idx := Walk.is_idx.

Section C.
Variable E : env.
Variable D : nat.
Hypothesis W : wf_env E.
Hypothesis Hh : sizes_honest E.
Hypothesis Hm : e_mem E = None.
Hypothesis SB : spec_built E.
Variable U : nat.
Hypothesis HU : users_typed E (fun _ _ => True) U.
Hypothesis HX : ext_typed E (fun _ _ => True).
Hypothesis HO : opt_stable E.
Variable M : N.
Hypothesis HM : 16 * M <= 2 ^ e_ub E.
Definition dok (d : nat) : Prop := (d + U <= S D)%nat.

Lemma users_more : forall U', (U <= U')%nat -> users_typed E (fun _ _ => True) U'.
Proof. intros U' H n s d r h Es Eh Hd. apply (HU n s d r h Es Eh). lia. Qed.
Lemma decoded_wt : forall d n s v bs rest, dok (S d) -> e_sch E n = Some s -> wfb bs -> len bs < M -> run (deserialize E (S d) (TRef n)) bs = Ok (v, rest) ->
  wt E (S D) (TRef n) v.
Proof.
  intros d n s v bs rest Hd Es Hb Hl H. unfold dok in Hd.
  pose proof (C10_decoded_is_well_typed E (D - d) (S d) (TRef n) bs v rest W (users_more (D - d) ltac:(lia)) HX HO Hb ltac:(lia) H) as Hw.
  replace (S d + (D - d))%nat with (S D) in Hw by lia. exact Hw.
Qed.

Lemma legacy_plain : forall d f v ops, plain E f -> ser_mode E (ser_ref E d) (mode_of false f) (f_ty f) v = Ok ops -> ser_ty E (ser_ref E d) (f_ty f) v = Ok ops.
Proof.
  intros d f v ops ((Hfx & _) & Hsp) H1. unfold mode_of, mode_legacy in H1. rewrite Hfx in H1. destruct (f_spec f); [|exact H1].
  cbn [ser_mode] in H1. destruct (f_ty f) as [| | | | | | | | | | | |t'| | | | | | | | | | | | |]; try discriminate.
  destruct v; try discriminate. cbn [ser_ty]. destruct (bulk_of t') as [k|]; [|discriminate]. rewrite (Hsp eq_refl). exact H1.
Qed.
Lemma fields_concat : forall d fs l ops rev, Forall (plain E) fs -> Forall (fun f => falive rev f = true) fs ->
  Forall2 (fun f v => wt E d (f_ty f) v) fs l -> sconcat (ser_fields E (ser_ref E d) false rev fs l) = Ok ops ->
  exists es, length fs = length l /\ Forall2 (fun p b => to_vec E d (f_ty (fst p)) (snd p) = Ok b) (combine fs l) es /\ out ops = concat es.
Proof.
  intros d fs. induction fs as [|f fs IH]; intros l ops rev Hp Ha Hw Hs; inversion Hw as [|? v ? l' Hv Hw']; subst; cbn [ser_fields] in Hs.
  - inversion Hs; subst. exists []. split; [reflexivity|]. split; [constructor|reflexivity].
  - inversion Hp as [|? ? Hpf Hp']; subst. inversion Ha as [|? ? Haf Ha']; subst. rewrite Haf in Hs.
    rewrite sconcat_cons in Hs. apply sbind_ok in Hs. destruct Hs as (l1 & l2 & H1 & H2 & ->). apply legacy_plain in H1; [|exact Hpf].
    destruct (IH _ _ _ Hp' Ha' Hw' H2) as (es & Hl & He & Ho). exists (out l1 :: es). split; [cbn [length]; congruence|]. split.
    + cbn [combine]. constructor; [cbn [fst snd]; unfold to_vec, to_writer; rewrite H1; reflexivity|exact He].
    + rewrite out_app, Ho. reflexivity.
Qed.
Lemma dec_of_enc : forall d t v ops rest, wt E d t v -> ser_ty E (ser_ref E d) t v = Ok ops -> run (deserialize E d t) (out ops ++ rest) = Ok (v, rest).
Proof. intros d t v ops rest Hw Hs. exact (round_trip E d t v ops rest W Hh Hm Hw Hs). Qed.

Notation decoded := (decoded E dok).
Lemma chain_owned : forall d rest buf rev fs l ops i x, buf = x ++ out ops -> len buf < 2 ^ e_ub E -> Forall (plain E) fs -> Forall (fun f => falive rev f = true) fs ->
  Forall2 (fun f v => wt E D (f_ty f) v) fs l -> sconcat (ser_fields E (ser_ref E D) false rev fs l) = Ok ops ->
  chain E D decoded M d (SOwned buf (len x)) i fs (shown fs l) rest rest.
Proof.
  intros d rest buf rev fs. induction fs as [|f fs IH]; intros l ops i x Hbuf Hlb Hp Ha Hw Hs; inversion Hw as [|? v ? l' Hv Hw']; subst l; [constructor|].
  inversion Hp as [|? ? Hpf Hp']; subst. inversion Ha as [|? ? Haf Ha']; subst. cbn [ser_fields] in Hs. rewrite Haf in Hs.
  rewrite sconcat_cons in Hs. apply sbind_ok in Hs. destruct Hs as (l1 & l2 & H1 & H2 & ->). apply legacy_plain in H1; [|exact Hpf].
  pose proof (dec_of_enc D (f_ty f) v l1 (out l2) Hv H1) as Hdec. rewrite <- out_app in Hdec.
  unfold shown. cbn [map combine]. apply ch_owned with (x := x) (y := out (l1 ++ l2)) (z := out l2).
  - unfold is_idx. destruct Hpf as ((_ & Hi) & _). rewrite Hi. reflexivity.
  - apply split_at_app.
  - exact Hdec.
  - apply (cov_skip E D (f_ty f) SB _ v); [|exact Hdec]. rewrite len_app in Hlb. lia.
  - replace (len (x ++ out (l1 ++ l2)) - len (out l2)) with (len (x ++ out l1)) by (rewrite out_app, !len_app; lia).
    apply IH with l2; [rewrite out_app; apply app_assoc|exact Hlb|exact Hp'|exact Ha'|exact Hw'|exact H2].
Qed.

Lemma split_len : forall (x y : bytes), split_at (len (x ++ y) - len y) (x ++ y) = Some (x, y).
Proof. intros x y. replace (len (x ++ y) - len y) with (len x) by (rewrite len_app; lia). apply split_at_app. Qed.
Lemma filter_plain : forall fs r, (forall f, In f fs -> plain E f) -> Forall (plain E) (filter (falive r) fs) /\ Forall (fun f => falive r f = true) (filter (falive r) fs).
Proof. intros fs r H. split; apply Forall_forall; intros f Hf; apply filter_In in Hf; [apply H|]; apply Hf. Qed.

Lemma copy_ok : forall n s d rev r bs v rest o, e_sch E n = Some s -> walkable s -> run (de_u16 (e_fw E)) bs = Ok (rev, r) -> 1 <= rev <= scur s ->
  copied s rev = true -> decoded (S d) (TRef n) v bs rest -> wfb bs -> len bs < M ->
  open_at E D (opened E D) decoded M (S d) (TRef n) v bs rest o.
Proof.
  intros n s d rev r bs v rest o Es Hwk Er Hr Hcp [Hd H] Hb Hl.
  pose proof (decoded_wt d n s v bs rest Hd Es Hb Hl H) as Hw. cbn in Hw. rewrite Es in Hw.
  assert (Hsuf : exists hd, bs = hd ++ rest) by (apply run_suffix in H; destruct H as (u & Hu & _); eauto).
  unfold deserialize in H. cbn [de_ty de_ref] in H. rewrite Es in H. unfold de_derived in H. rewrite run_bind, Er in H.
  pose proof (we_sch E W n s Es) as Ws. pose proof Ws as (Hs1 & Hs2 & _). destruct Hwk as (Hall & Hwk).
  assert (Hser : ser_bytes (ser_derived E (ser_ref E D) s v) = to_vec E (S D) (TRef n) v) by (unfold to_vec, to_writer; cbn [ser_ty ser_ref]; rewrite Es; reflexivity).
  assert (Hmat : match to_vec E (S D) (TRef n) v with
                 | Ok b => if len b <? 2 ^ e_ub E then True else forall B (k : bytes * N -> sm B), sm_bind (materialise E D d s rev) k (mkSR r o) = Panic PMem
                 | Err e => forall B (k : bytes * N -> sm B), sm_bind (materialise E D d s rev) k (mkSR r o) = Err e
                 | Panic p => forall B (k : bytes * N -> sm B), sm_bind (materialise E D d s rev) k (mkSR r o) = Panic p
                 end).
  { unfold materialise. destruct (to_vec E (S D) (TRef n) v) as [b|e|p]; [destruct (len b <? 2 ^ e_ub E) eqn:Elb; [exact I|]| |]; intros B k; unfold sm_bind at 1;
      rewrite (sm_bind_run _ _ _ _ _ _ _ _ H), Hser; unfold sm_bind, sm_res; cbn [rmap]; try rewrite Elb; reflexivity. }
  assert (Hent : forall B (w : nat * ctx -> sm B), sm_bind (enter E D (S d) (TRef n)) w (mkSR bs o)
    = sm_bind (match s_body s with SStruct fs => enter_struct E D d s fs rev | SEnum vs => enter_enum E D d s vs rev end) (fun c => w (d, c)) (mkSR r o)).
  { intros B w. cbn [enter]. rewrite Es. unfold sm_map, enter_derived. unfold sm_bind at 1 2. rewrite (sm_bind_run _ _ _ _ _ _ _ _ Er).
    replace ((rev =? 0) || (scur s <? rev)) with false by (symmetry; apply orb_false_iff; split; [apply N.eqb_neq|apply N.ltb_ge]; lia).
    unfold sm_bind. destruct (s_body s); [destruct (enter_struct _ _ _ _ _ _ _) as [[c s']| |]|destruct (enter_enum _ _ _ _ _ _ _) as [[c s']| |]]; reflexivity. }
  unfold copied in Hcp.
  assert (Hfail : forall x, copy_fails E D n v x -> (forall B (k : bytes * N -> sm B), sm_bind (materialise E D d s rev) k (mkSR r o) = match x with Ok _ => Err EIo | Err e => Err e | Panic p => Panic p end) ->
     (exists e, x = Err e) \/ (exists p, x = Panic p) -> open_at E D (opened E D) decoded M (S d) (TRef n) v bs rest o).
  { intros x Hx Hk Hf. right. exists x. split.
    - intros w. rewrite Hent. unfold enter_struct, enter_enum. rewrite Hcp. destruct (s_body s); rewrite <- sm_assoc, Hk; destruct Hf as [[e ->]|[p ->]]; reflexivity.
    - cbn [opened]. exists s, rev. split; [exact Es|]. split; [exact Hr|]. unfold copied. rewrite Hcp. left. eauto. }
  unfold copy_fails in Hfail.
  destruct (to_vec E (S D) (TRef n) v) as [b|e|p] eqn:Et; [|apply (Hfail (Err e)); [reflexivity|exact Hmat|left; eauto]|apply (Hfail (Panic p)); [reflexivity|exact Hmat|right; eauto]].
  destruct (N.ltb_spec (len b) (2 ^ e_ub E)) as [Hlb|Hlb].
  2: { apply (Hfail (Panic PMem)); [auto|exact Hmat|right; eauto]. }
  clear Hfail Hmat. left. destruct (to_vec_ok _ _ _ _ _ Et) as (ops & Ho & Hbo). cbn [ser_ty ser_ref] in Ho. unfold to_writer in Ho. cbn [ser_ty ser_ref] in Ho. rewrite Es in Ho.
  unfold ser_derived in Ho. destruct (sent s (scur s)) as [h|] eqn:Eh; [|discriminate]. pose proof (proj1 (Forall_forall _ _) Hall h (sent_in _ _ _ Eh)) as Hopt.
  apply sbind_ok in Ho. destruct Ho as (l1 & l2 & H1 & H2 & ->). apply Ok_inj in H1. subst l1. rewrite out_app, out_one in Hbo.
  assert (Hmat : materialise E D d s rev (mkSR r o) = Ok ((b, len b - len (out l2)), mkSR rest o)).
  { unfold materialise. rewrite (sm_bind_run _ _ _ _ _ _ _ _ H), Hser. unfold sm_bind at 1, sm_res. cbn [rmap]. replace (len b <? 2 ^ e_ub E) with true by (symmetry; apply N.ltb_lt; exact Hlb).
    unfold sm_bind. subst b. rewrite (on_slice_run _ _ _ _ _ _ _ _ _ (split_at_0 _ _) (rt_u16 (e_fw E) (scur s) (out l2) Hs2)). reflexivity. }
  assert (Hin : indexed_now s = false) by (unfold indexed_now; rewrite Eh, Hopt; reflexivity).
  assert (Hcur : len b - len (out l2) = len (ser_u16 (e_fw E) (scur s))) by (rewrite Hbo, len_app; lia).
  unfold wt_derived in Hw. cbn [kind_of]. rewrite Es. destruct (s_body s) as [fs|vs] eqn:Ebd; destruct v as [| | | | |l|k l]; try contradiction Hw.
  - assert (Hp : forall f, In f fs -> plain E f).
    { intros f Hf. split; [exact (proj1 (Forall_forall _ _) Hwk f Hf)|]. intros Hsp. apply (SB n s f Es); [rewrite Ebd; exact Hf|exact Hsp]. }
    destruct (filter_plain fs (scur s) Hp) as [Hp1 Hp2].
    exists d, (CStruct (SOwned b (len b - len (out l2))) 0 (filter (falive (scur s)) fs)), (PFields true (shown (filter (falive (scur s)) fs) l)), rest.
    split; [|split; [|split; [|exact Hsuf]]].
    + transitivity (sm_bind (enter E D (S d) (TRef n)) (fun p => sm_ret p) (mkSR bs o)). { unfold sm_bind. destruct (enter _ _ _ _ _) as [[c s']| |]; reflexivity. }
      rewrite Hent. unfold enter_struct. rewrite Hcp. unfold sm_bind. rewrite Hmat. reflexivity.
    + rewrite Hin. change false with (is_sindexed (SOwned b (len b - len (out l2)))). change true with (is_detached (SOwned b (len b - len (out l2)))). apply r_struct.
      rewrite Hcur. cbn [ser_struct] in H2. rewrite Hopt, fields_alive in H2.
      apply chain_owned with (rev := scur s) (ops := l2); [exact Hbo|exact Hlb|exact Hp1|exact Hp2|exact Hw|exact H2].
    + cbn [opened]. exists s, rev. split; [exact Es|]. split; [exact Hr|]. unfold copied. rewrite Hcp, Ebd. right. exists l. split; [reflexivity|]. split; [symmetry; exact (Forall2_length Hw)|reflexivity].
  - destruct Hw as (vr & Hvin & Hvn & Hva & Hw). pose proof Ws as (_ & _ & Wb). rewrite Ebd in Wb. destruct Wb as (Hnd & _ & Hrev). destruct (Hrev _ _ Eh) as (ds & Ed & Hd32 & _).
    cbn [ser_enum] in H2. rewrite Ed in H2. destruct (find_name k ds) as [[vr' x]|] eqn:Ef; [|discriminate]. apply find_name_is in Ef. destruct Ef as [Hinx Hn'].
    assert (Hv' : In vr' vs). { assert (Hi : In vr' (map fst ds)) by (apply in_map_iff; exists (vr', x); auto). rewrite (calc_disc_fst _ _ _ Ed) in Hi. apply filter_In in Hi. apply Hi. }
    assert (vr' = vr) by (eapply NoDup_map_inj; [exact Hnd|exact Hv'|exact Hvin|congruence]). subst vr' k. clear Hv' Hn'.
    rewrite Hopt in H2. apply sbind_ok in H2. destruct H2 as (la & lb & Ha & Hlbs & ->). apply Ok_inj in Ha. subst la. rewrite out_app, out_one in Hbo, Hcur, Hmat.
    pose proof (proj1 (Forall_forall _ _) Hd32 _ Hinx) as Hx. cbn [snd] in Hx.
    assert (Hp : forall f, In f (v_fields vr) -> plain E f).
    { intros f Hf. split; [apply (proj1 (Forall_forall _ _) (proj1 (Forall_forall _ _) Hwk vr Hvin) f Hf)|]. intros Hsp. apply (SB n s f Es); [|exact Hsp]. rewrite Ebd. apply in_flat_map. eauto. }
    destruct (filter_plain _ (scur s) Hp) as [Hp1 Hp2]. rewrite fields_alive in Hlbs.
    destruct (fields_concat D _ l lb (scur s) Hp1 Hp2 Hw Hlbs) as (es & Hle & Hes & Hout).
    exists d, (CEnum (EOwned b (len b - len (out lb)) x) s vs), (PEnum true s vs (v_name vr) l), rest.
    split; [|split; [|split; [|exact Hsuf]]].
    + transitivity (sm_bind (enter E D (S d) (TRef n)) (fun p => sm_ret p) (mkSR bs o)). { unfold sm_bind. destruct (enter _ _ _ _ _) as [[c s']| |]; reflexivity. }
      rewrite Hent. unfold enter_enum. rewrite Hcp. unfold sm_bind at 1 2. rewrite Hmat. cbn [fst snd].
      assert (Hsp : split_at (len b - len (ser_u32 (e_fw E) x ++ out lb)) b = Some (ser_u16 (e_fw E) (scur s), ser_u32 (e_fw E) x ++ out lb)) by (rewrite Hcur, Hbo; apply split_at_app).
      unfold sm_bind. rewrite (on_slice_run _ _ _ _ _ _ _ _ _ Hsp (rt_u32 (e_fw E) x (out lb) Hx)). reflexivity.
    + change true with (e_detached (EOwned b (len b - len (out lb)) x)). apply r_enum with (fs := filter (falive (scur s)) (v_fields vr)).
      * intros k' _. change (is_variant (EOwned b (len b - len (out lb)) x) s vs k') with (is_variant (EWire (scur s) x) s vs k'). exact (disc_is (scur s) s vs ds vr x k' Ws Ebd Ed Hinx).
      * apply here_of; assumption.
      * unfold under_enum. cbn [e_detached slice_depth]. split; [reflexivity|]. exists (out lb). split; [|split].
        { intros s0. cbn [variant_slice]. replace (split_at (len b - len (out lb)) b) with (Some (ser_u16 (e_fw E) (scur s) ++ ser_u32 (e_fw E) x, out lb)); [reflexivity|].
          rewrite Hbo, app_assoc. symmetry. apply split_len. }
        { exists D, es. split; [exact Hle|]. split; [exact Hes|exact Hout]. }
        { intros f Hf. unfold wt_fields in Hw. rewrite Hf in *. inversion Hw as [|? w ? l' Hvw Hl']; subst l. inversion Hl'; subst l'. exists w, []. split; [reflexivity|].
          cbn [combine] in Hes. inversion Hes as [|? e ? es' He Hes']; subst. inversion Hes'; subst. cbn [concat] in Hout. rewrite app_nil_r in Hout. rewrite Hout.
          cbn [fst snd] in He. apply to_vec_ok in He. destruct He as (o1 & Ho1 & ->). rewrite <- (app_nil_r (out o1)). exact (dec_of_enc D (f_ty f) w o1 [] Hvw Ho1). }
    + cbn [opened]. exists s, rev. split; [exact Es|]. split; [exact Hr|]. unfold copied. rewrite Hcp, Ebd. right. eauto.
Qed.
(** Any script on whatever decodes, with convert functions. *)
Theorem walk_converted : forall a t d bs v rest o, (d + U <= S D)%nat -> run (deserialize E d t) bs = Ok (v, rest) -> wfb bs -> len bs < M ->
  opens E walkable t -> covered E walkable (kind_of E t) a ->
  exists r, (if refused E t then r = Err (EDeserialize MBulkVec) else exists c, opened E D t v c /\ expect E D (opened E D) c a r)
    /\ sm_bind (enter E D d t) (fun p => act_on E D (fst p) (snd p) a) (mkSR bs o) = fin r rest o.
Proof.
  apply (walk_decoded_gen E D W SB M dok (fun d H => Nat.le_trans _ _ _ (Nat.le_succ_diag_r _) H) walkable (fun s H => H) copy_ok). lia.
Qed.
End C.
