(** C37: walkers over older data that was converted, with [indexed_*] fields among the fields. *)

From Verif Require Import Base BaseL Prog ProgL Prim PrimL Ty Ser De Typed Mig RtL RtTy RtDer RtSch RtId Agree SerL PartsL Spec Cross Ex Users Yield PropTotal PropVal SliceReader Skip SkipIdx SkipL PropWire PropIdx PropSkip IdxWalk IdxWalkL IdxEncL PropEnc Walk WalkSpec PropSlice WalkL WalkEncL WalkConvL WalkRef.
From Coq Require Import List NArith ZArith Bool Lia.
Import ListNotations.
Open Scope N_scope.

(** What a caller does with the next field: [decode_<field>], [skip_<field>], or [walk_<field>] of an
    [indexed_*] field. *)
Inductive look := LDecode | LSkip | LView.
Fixpoint look_script (cs : list look) : act :=
  match cs with
  | [] => Rest
  | LDecode :: cs' => Field Decode (look_script cs')
  | LSkip :: cs' => Field Skip (look_script cs')
  | LView :: cs' => Field View (look_script cs')
  end.
(** What they should see: the value, nothing, and the indexed encoding of the value. *)
Fixpoint looked_at (E : env) (D : nat) (fs : list field) (l : list val) (cs : list look) (o : obs) {struct cs} : Prop :=
  match cs, fs, l with
  | [], _, _ => o = ODone
  | c :: cs', f :: fs', v :: l' =>
      exists x o', o = OCons x o' /\ looked_at E D fs' l' cs' o' /\
      match c with
      | LDecode => x = OVal v
      | LSkip => x = ODone
      | LView => f_idx f <> INone /\ exists b, x = OBytes b /\ encode_field E D (mode_opt f) (f_ty f) v = Ok b
      end
  | _, _, _ => False
  end.

Section O.
Variable E : env.
Variable D : nat.
Hypothesis W : wf_env E.
Hypothesis Hh : sizes_honest E.
Hypothesis Hm : e_mem E = None.
Hypothesis SB : spec_built E.

Definition unfixed (f : field) : Prop := f_fixed f = false /\ (f_spec f = true -> e_spec E = true).
Lemma unfixed_plain : forall f v ops, unfixed f -> ser_mode E (ser_ref E D) (mode_of false f) (f_ty f) v = Ok ops -> ser_ty E (ser_ref E D) (f_ty f) v = Ok ops.
Proof.
  intros f v ops (Hfx & Hsp) H1. unfold mode_of, mode_legacy in H1. rewrite Hfx in H1. destruct (f_spec f); [|exact H1].
  cbn [ser_mode] in H1. destruct (f_ty f) as [| | | | | | | | | | | |t'| | | | | | | | | | | | |]; try discriminate.
  destruct v; try discriminate. cbn [ser_ty]. destruct (bulk_of t') as [k|]; [|discriminate]. rewrite (Hsp eq_refl). exact H1.
Qed.

Lemma rest_owned : forall d buf rev fs l ops x s, buf = x ++ out ops -> len buf < 2 ^ e_ub E -> Forall unfixed fs -> Forall (fun f => falive rev f = true) fs ->
  Forall2 (fun f v => wt E D (f_ty f) v) fs l -> sconcat (ser_fields E (ser_ref E D) false rev fs l) = Ok ops ->
  skip_fields E D d (SOwned buf (len x)) fs s = Ok (tt, s).
Proof.
  intros d buf rev fs. induction fs as [|f fs IH]; intros l ops x s Hbuf Hlb Hp Ha Hw Hs; inversion Hw as [|? v ? l' Hv Hw']; subst l; [reflexivity|].
  inversion Hp as [|? ? Hpf Hp']; subst. inversion Ha as [|? ? Haf Ha']; subst. cbn [ser_fields] in Hs. rewrite Haf in Hs.
  rewrite sconcat_cons in Hs. apply sbind_ok in Hs. destruct Hs as (l1 & l2 & H1 & H2 & ->). apply unfixed_plain in H1; [|exact Hpf].
  pose proof (round_trip E D (f_ty f) v l1 (out l2) W Hh Hm Hv H1) as Hdec. rewrite <- out_app in Hdec.
  assert (Hsk : run (skip E D (f_ty f)) (out (l1 ++ l2)) = Ok (tt, out l2)).
  { apply (cov_skip E D (f_ty f) SB _ v); [|exact Hdec]. rewrite len_app in Hlb. lia. }
  cbn [skip_fields field_skip]. unfold sm_map. unfold sm_bind at 1 2. rewrite (on_slice_run _ _ _ _ _ _ _ _ s (split_at_app _ x (out (l1 ++ l2))) Hsk).
  unfold sm_ret at 1. cbn [fst snd].
  replace (len (x ++ out (l1 ++ l2)) - len (out l2)) with (len (x ++ out l1)) by (rewrite out_app, !len_app; lia).
  apply IH with l' l2; [rewrite out_app; apply app_assoc|exact Hlb|exact Hp'|exact Ha'|exact Hw'|exact H2].
Qed.

Lemma look_owned : forall d cs buf rev fs l ops i x s ob, buf = x ++ out ops -> len buf < 2 ^ e_ub E -> Forall unfixed fs -> Forall (fun f => falive rev f = true) fs ->
  Forall2 (fun f v => wt E D (f_ty f) v) fs l -> sconcat (ser_fields E (ser_ref E D) false rev fs l) = Ok ops ->
  looked_at E D fs l cs ob -> act_on E D d (CStruct (SOwned buf (len x)) i fs) (look_script cs) s = Ok (ob, s).
Proof.
  intros d cs. induction cs as [|c cs IH]; intros buf rev fs l ops i x s ob Hbuf Hlb Hp Ha Hw Hs Hlk.
  - cbn [looked_at] in Hlk. subst ob. cbn [look_script act_on]. destruct fs as [|f fs].
    + reflexivity.
    + unfold sm_map, sm_bind. rewrite (rest_owned d buf rev _ l ops x s Hbuf Hlb Hp Ha Hw Hs). reflexivity.
  - destruct fs as [|f fs]; [contradiction Hlk|]. inversion Hw as [|? v ? l' Hv Hw']; subst l. cbn [looked_at] in Hlk.
    destruct Hlk as (y & ob' & -> & Hlk & Hc). subst buf.
    inversion Hp as [|? ? Hpf Hp']; subst. inversion Ha as [|? ? Haf Ha']; subst. cbn [ser_fields] in Hs. rewrite Haf in Hs.
    rewrite sconcat_cons in Hs. apply sbind_ok in Hs. destruct Hs as (l1 & l2 & H1 & H2 & ->). apply unfixed_plain in H1; [|exact Hpf].
    pose proof (round_trip E D (f_ty f) v l1 (out l2) W Hh Hm Hv H1) as Hdec. rewrite <- out_app in Hdec.
    assert (Hsk : run (skip E D (f_ty f)) (out (l1 ++ l2)) = Ok (tt, out l2)).
    { apply (cov_skip E D (f_ty f) SB _ v); [|exact Hdec]. rewrite len_app in Hlb. lia. }
    assert (Hnext : act_on E D d (CStruct (SOwned (x ++ out (l1 ++ l2)) (len (x ++ out (l1 ++ l2)) - len (out l2))) (i + 1) fs) (look_script cs) s = Ok (ob', s)).
    { replace (len (x ++ out (l1 ++ l2)) - len (out l2)) with (len (x ++ out l1)) by (rewrite out_app, !len_app; lia).
      apply IH with rev l' l2; [rewrite out_app; apply app_assoc|exact Hlb|exact Hp'|exact Ha'|exact Hw'|exact H2|exact Hlk]. }
    destruct c; cbn [look_script act_on].
    + subst y. cbn [field_decode]. unfold sm_map at 1. unfold sm_bind at 1 2.
      rewrite (on_slice_run _ _ _ _ _ _ _ _ s (split_at_app _ x (out (l1 ++ l2))) Hdec). unfold sm_ret at 1. cbn [fst snd].
      unfold sm_map, sm_bind. rewrite Hnext. reflexivity.
    + subst y. cbn [field_skip]. unfold sm_map at 1. unfold sm_bind at 1 2.
      rewrite (on_slice_run _ _ _ _ _ _ _ _ s (split_at_app _ x (out (l1 ++ l2))) Hsk). unfold sm_ret at 1. cbn [fst snd].
      unfold sm_map, sm_bind. rewrite Hnext. reflexivity.
    + destruct Hc as (Hi & b & -> & He). replace (Walk.is_idx f) with true by (unfold Walk.is_idx; destruct (f_idx f); congruence).
      cbn [field_view]. unfold sm_bind at 1 2.
      rewrite (on_slice_run _ _ _ _ _ _ _ _ s (split_at_app _ x (out (l1 ++ l2))) Hdec). cbn [fst snd].
      unfold ser_idx. unfold encode_field in He. rewrite He. unfold sm_map at 1. unfold sm_bind at 1. unfold sm_res. cbn [rmap]. unfold sm_ret at 1. cbn [fst snd].
      unfold sm_map, sm_bind. rewrite Hnext. reflexivity.
Qed.
End O.

(** The walker of a struct over data of an older revision, when the type has convert functions: decode and
    convert the whole, encode the result at the current revision, which here is not optimised, and walk the
    copy.  Decoded fields are those of the decoded value, [walk_<field>] gives their indexed encoding, whatever
    was done with the fields before, and the reader is after the value. *)
Theorem C37_converted : forall E D d n s fs h rev x l b bs rest o cs ob,
  wf_env E -> sizes_honest E -> e_mem E = None -> spec_built E ->
  e_sch E n = Some s -> s_body s = SStruct fs -> has_convert s = true ->
  sent s (scur s) = Some h -> h_opt h = false -> (forall f, In f fs -> f_fixed f = false) ->
  run (de_u16 (e_fw E)) bs = Ok (rev, x) -> 1 <= rev < scur s ->
  run (deserialize E (S d) (TRef n)) bs = Ok (VSeq l, rest) -> wt E (S D) (TRef n) (VSeq l) ->
  to_vec E (S D) (TRef n) (VSeq l) = Ok b -> len b < 2 ^ e_ub E ->
  looked_at E D (filter (falive (scur s)) fs) l cs ob ->
  walk_with E D (S d) (TRef n) (look_script cs) (mkSR bs o) = Ok (ob, mkSR rest o).
Proof.
  intros E D d n s fs h rev x l b bs rest o cs ob W Hh Hm SB Es Eb Hc Eh Ho Hfx Er Hr H Hw Et Hlb Hlk.
  cbn in Hw. rewrite Es in Hw. unfold wt_derived in Hw. rewrite Eb in Hw.
  unfold deserialize in H. cbn [de_ty de_ref] in H. rewrite Es in H. unfold de_derived in H. rewrite run_bind, Er in H.
  pose proof (we_sch E W n s Es) as (Hs1 & Hs2 & _).
  assert (Hser : ser_bytes (ser_derived E (ser_ref E D) s (VSeq l)) = Ok b) by (unfold to_vec, to_writer in Et; cbn [ser_ty ser_ref] in Et; rewrite Es in Et; exact Et).
  assert (Hops : exists ops, ser_derived E (ser_ref E D) s (VSeq l) = Ok ops /\ out ops = b).
  { clear - Hser. destruct (ser_derived E (ser_ref E D) s (VSeq l)) as [ops| |]; try discriminate Hser. exists ops. split; [reflexivity|]. cbn in Hser. apply Ok_inj in Hser. exact Hser. }
  destruct Hops as (ops & Eo & Ho'). unfold ser_derived in Eo. rewrite Eh, Eb in Eo.
  apply sbind_ok in Eo. destruct Eo as (l1 & l2 & H1 & H2 & ->). apply Ok_inj in H1. subst l1. rewrite out_app, out_one in Ho'.
  cbn [ser_struct] in H2. rewrite Ho, fields_alive in H2.
  assert (Hmat : materialise E D d s rev (mkSR x o) = Ok ((b, len b - len (out l2)), mkSR rest o)).
  { unfold materialise. rewrite (sm_bind_run _ _ _ _ _ _ _ _ H), Hser. unfold sm_bind at 1, sm_res. cbn [rmap]. replace (len b <? 2 ^ e_ub E) with true by (symmetry; apply N.ltb_lt; exact Hlb).
    unfold sm_bind. subst b. rewrite (on_slice_run _ _ _ _ _ _ _ _ _ (split_at_0 _ _) (rt_u16 (e_fw E) (scur s) (out l2) Hs2)). reflexivity. }
  unfold walk_with. cbn [enter]. rewrite Es. unfold sm_map. rewrite <- sm_assoc. unfold enter_derived. rewrite <- sm_assoc.
  rewrite (sm_bind_run _ _ _ _ _ _ _ _ Er).
  replace ((rev =? 0) || (scur s <? rev)) with false by (symmetry; apply orb_false_iff; split; [apply N.eqb_neq|apply N.ltb_ge]; lia).
  rewrite Eb. unfold enter_struct. rewrite Hc. replace (rev =? scur s) with false by (symmetry; apply N.eqb_neq; lia). cbn [negb andb].
  unfold sm_bind. rewrite Hmat. unfold sm_ret. cbn [fst snd].
  replace (len b - len (out l2)) with (len (ser_u16 (e_fw E) (scur s))) by (rewrite <- Ho', len_app; lia).
  assert (Hin : forall f, In f (filter (falive (scur s)) fs) -> In f fs /\ falive (scur s) f = true) by (intros f; apply filter_In).
  apply look_owned with (rev := scur s) (l := l) (ops := l2); auto.
  - apply Forall_forall. intros f Hf. destruct (Hin f Hf) as [Hf' _]. split; [exact (Hfx f Hf')|]. intros Hsp. apply (SB n s f Es); [rewrite Eb; exact Hf'|exact Hsp].
  - apply Forall_forall. intros f Hf. apply (Hin f Hf).
Qed.

(** A byte and a list of texts; revision 2 replaced the byte by one after the list. *)
Definition o_sch : schema := mkSchema [leg; leg]
  (SStruct [with_convert (fun this _ v => match this with [y; _] => Ok [y; v] | _ => Ok this end) (fld (TInt U8) 1 (Some 2)); idxd ISeq (fld (TVec TStr) 1 None); with_default (VInt 0) (fld (TInt U8) 2 None)]).
Definition o_val : list val := [VSeq [a_str [97]; a_str [98; 99]]; VInt 7].
Definition o_bytes : bytes := [1; 7; 2; 1; 97; 2; 98; 99; 55].
Definition o_view : bytes := [0; 2; 1; 97; 2; 98; 99].
Example C37_converted_case :
  wf_env (only o_sch) /\ sizes_honest (only o_sch) /\ has_convert o_sch = true
  /\ run (deserialize (only o_sch) 1 (TRef 1)) o_bytes = Ok (VSeq o_val, [55])
  /\ wt (only o_sch) 9 (TRef 1) (VSeq o_val) /\ to_vec (only o_sch) 9 (TRef 1) (VSeq o_val) = Ok [2; 2; 1; 97; 2; 98; 99; 7]
  /\ encode_field (only o_sch) 8 (MIdxSeq) (TVec TStr) (VSeq [a_str [97]; a_str [98; 99]]) = Ok o_view
  /\ walk_with (only o_sch) 8 1 (TRef 1) (look_script [LView; LDecode]) (mkSR o_bytes 9) = Ok (OCons (OBytes o_view) (OCons (OVal (VInt 7)) ODone), mkSR [55] 9).
Proof.
  split; [apply wf_only; vm_compute; reflexivity|].
  split; [left; reflexivity|]. split; [reflexivity|]. split; [vm_compute; reflexivity|]. split; [apply wtb_ok; vm_compute; reflexivity|].
  repeat split; vm_compute; reflexivity.
Qed.

Print Assumptions C37_converted.
