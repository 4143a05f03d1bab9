(** C26, C27, C28, C48: indexed fields and fixed-size variants. *)

From Verif Require Import Base BaseL Prog ProgL Prim PrimL Utf8 Tag Ty Ser De Typed Mig SortL DiscL RtL RtTy RtDer RtSch RtId Parts Agree SerL Spec Cross OrderFree OrdL Ex PropWire PropVal.
From Coq Require Import List NArith ZArith Bool Lia ZifyBool Permutation Sorted.
Import ListNotations.
Open Scope N_scope.

(** A field encoded with one of the field attributes, and its decoder. *)
Definition encode_field (E : env) (d : nat) (m : fmode) (t : ty) (v : val) : res bytes :=
  ser_bytes (ser_mode E (ser_ref E d) m t v).
Definition decode_field (E : env) (d : nat) (m : fmode) (t : ty) : prog val := de_mode E (de_ref E d) m t.

Lemma field_round_trip : forall E d m t v b rest,
  wf_env E -> sizes_honest E -> e_mem E = None -> wt E d t v -> (is_idx m = true -> len b < 2 ^ 32) ->
  encode_field E d m t v = Ok b -> run (decode_field E d m t) (b ++ rest) = Ok (v, rest).
Proof.
  intros E d m t v b rest W Hh Hm Hw Hl H. apply ser_bytes_ok in H. destruct H as (ops & Hs & ->).
  pose proof (mig_mode_id E W (ser_ref E d) (mig_ref E E d) (wt_ref E d) (mig_ref_id E W d) m t v ops Hw Hs) as Hi.
  assert (R : forall n v, wt_ref E d n v -> rt (ser_ref E d n v) (de_ref E d n) (mig_ref E E d n v)).
  { intros n x Hx ops' rest' Hs'.
    pose proof (decode_encoded E E d (TRef n) x ops' rest' W W (compatible_refl E W) Hh Hm) as D.
    assert (Wx : wt E d (TRef n) x) by (unfold wt; destruct x; exact Hx).
    assert (Sx : to_writer E d (TRef n) x = Ok ops') by (unfold to_writer; destruct x; exact Hs').
    specialize (D Wx Sx). unfold deserialize, migrate in D. cbn [de_ty] in D. rewrite D. destruct x; reflexivity. }
  destruct W as [W1 W2 W3 W4 W5 W6 W7].
  unfold decode_field.
  pose proof (rt_mode E E eq_refl eq_refl eq_refl W1 Hm W3 (proj2 W6) (ser_ref E d) (de_ref E d) (mig_ref E E d) (wt_ref E d) R m t v ops Hw Hs Hl rest) as D.
  rewrite Hi in D. exact D.
Qed.

(** C26.  The payloads an encoder can produce have less than 2^32 bytes. *)
Theorem C26_indexed_map_round_trip : forall E d k a b l bs rest,
  wf_env E -> sizes_honest E -> e_mem E = None -> wt E d (TMap k a b) (VSeq l) -> len bs < 2 ^ 32 ->
  encode_field E d MIdxMap (TMap k a b) (VSeq l) = Ok bs ->
  run (decode_field E d MIdxMap (TMap k a b)) (bs ++ rest) = Ok (VSeq l, rest).
Proof. intros. eapply field_round_trip; eauto. Qed.
(** C28 *)
Theorem C28_indexed_seq_round_trip : forall E d t a l bs rest,
  wf_env E -> sizes_honest E -> e_mem E = None -> t = TVec a \/ t = TImVec a -> wt E d t (VSeq l) -> len bs < 2 ^ 32 ->
  encode_field E d MIdxSeq t (VSeq l) = Ok bs ->
  run (decode_field E d MIdxSeq t) (bs ++ rest) = Ok (VSeq l, rest).
Proof. intros. eapply field_round_trip; eauto. Qed.
Theorem C28_indexed_set_round_trip : forall E d k a l bs rest,
  wf_env E -> sizes_honest E -> e_mem E = None -> wt E d (TSet k a) (VSeq l) -> len bs < 2 ^ 32 ->
  encode_field E d MIdxSet (TSet k a) (VSeq l) = Ok bs ->
  run (decode_field E d MIdxSet (TSet k a)) (bs ++ rest) = Ok (VSeq l, rest).
Proof. intros. eapply field_round_trip; eauto. Qed.

(** C27: a map field, and whole values in which every hash table is an indexed field. *)
Theorem C27_indexed_map_order : forall E it d k a b v bs,
  wf_env E -> sizes_honest E -> order_free E -> permutes it ->
  ordered a = true -> ordered b = true -> wt E d (TMap k a b) v ->
  encode_field E d MIdxMap (TMap k a b) v = Ok bs ->
  encode_field (set_iter it E) d MIdxMap (TMap k a b) v = Ok bs.
Proof.
  intros E it d k a b v bs W Hh Ho Hit Ha Hb Hw H.
  refine (keeps_bytes _ _ (ord_field E it W Hh Hit Ho d MIdxMap (TMap k a b) v _ Hw) bs H).
  cbn [field_ordered]. rewrite Ha, Hb. reflexivity.
Qed.
Theorem C27_value_order : forall E it d t v bs,
  wf_env E -> sizes_honest E -> order_free E -> permutes it -> ordered t = true -> wt E d t v ->
  to_vec E d t v = Ok bs -> to_vec (set_iter it E) d t v = Ok bs.
Proof.
  intros E it d t v bs W Hh Ho Hit Ht Hw H.
  exact (keeps_bytes _ _ (ord_to_writer E it W Hh Hit Ho d t v Ht Hw) bs H).
Qed.

(** ** C48 *)

(** The bytes of a [fixed(N)] variant in an optimised revision: revision, tag, and exactly [N]
    bytes. *)
Theorem C48_fixed_length : forall E d n s h vs vr k v b,
  wf_env E -> sizes_true E -> e_sch E n = Some s -> sent s (scur s) = Some h -> h_opt h = true ->
  s_body s = SEnum vs -> In vr vs -> v_size vr = Some (SFixed k) ->
  wt E (S d) (TRef n) (VVar (v_name vr) v) -> to_vec E (S d) (TRef n) (VVar (v_name vr) v) = Ok b ->
  exists tag payload, b = ser_u16 (e_fw E) (scur s) ++ tag :: payload /\ size_class tag = Ok CFixed /\ len payload = k.
Proof.
  intros E d n s h vs vr k v b W Ht Es Eh Ho Eb Hin Hk Hw H.
  apply to_vec_ok in H. destruct H as (ops & H & ->).
  unfold to_writer in H. unfold wt in Hw. cbn [ser_ty ser_ref wt_ty wt_ref] in *. rewrite Es in *.
  unfold ser_derived in H. rewrite Eh, Eb in H. unfold wt_derived in Hw. rewrite Eb in Hw.
  apply sbind_ok in H. destruct H as (l1 & l2 & H1 & H2 & ->). inversion H1; subst l1. clear H1.
  pose proof (we_sch _ W _ _ Es) as (_ & _ & Wb). rewrite Eb in Wb. destruct Wb as (Wn & _ & Wr).
  cbn [ser_enum] in H2. destruct (calc_disc (scur s) vs) as [ds|] eqn:Ed; [|discriminate].
  destruct (find_name (v_name vr) ds) as [[vr' dd]|] eqn:Ef; [|discriminate]. rewrite Ho in H2.
  apply find_name_in in Ef. destruct Ef as [Hi Hn].
  pose proof (calc_disc_fst _ _ _ Ed) as Hfst.
  assert (Hv : In vr' (filter (valive (scur s)) vs)) by (rewrite <- Hfst; apply in_map_iff; exists (vr', dd); auto).
  apply filter_In in Hv. destruct Hv as [Hv _].
  assert (vr' = vr) by (eapply NoDup_map_inj; [exact Wn| | |]; eauto). subst vr'.
  destruct Hw as (vr' & Hin' & Hk' & Ha & Hw).
  assert (vr' = vr) by (eapply NoDup_map_inj; [exact Wn| | |]; eauto). subst vr'.
  unfold ser_variant_opt in H2. rewrite Hk in H2.
  apply sbind_ok in H2. destruct H2 as (l3 & l4 & H3 & H4 & ->).
  apply rbind_ok in H4. destruct H4 as (bs & Hbs & H4).
  assert (Hlen : len (concat bs) = k).
  { apply (Ht n s vs vr k d v bs Es Eb Hin Hk Hw). eapply enc3; exact Hbs. }
  assert (l4 = [WAll (concat bs)]) by (destruct (e_dbg E && negb (len (concat bs) =? k)); [discriminate|inversion H4; reflexivity]). subst l4.
  destruct (Wr _ _ Eh) as (ds' & Ed' & _ & Hopt). rewrite Ed in Ed'. inversion Ed'; subst ds'.
  specialize (Hopt Ho). rewrite forallb_forall in Hopt. specialize (Hopt _ Hi). unfold opt_variant_ok in Hopt. cbn [fst snd] in Hopt.
  rewrite Hk in Hopt. apply andb_prop in Hopt. destruct Hopt as [Hd _]. apply N.ltb_lt in Hd.
  apply rbind_ok in H3. destruct H3 as (tag & Htag & H3).
  assert (tag = tag_new dd CFixed).
  { unfold tag_new_checked in Htag. destruct (e_dbg E && negb (dd <? 32)); inversion Htag; reflexivity. }
  subst tag. exists (tag_new dd CFixed), (concat bs).
  unfold write_tag, sall in H3. apply Ok_inj in H3. subst l3.
  split; [|split; [apply (tag_round dd CFixed Hd)|exact Hlen]].
  unfold out. cbn [flat_map wop_bytes app]. rewrite app_nil_r. reflexivity.
Qed.

(** In a release build a variant whose fields do not encode to the declared number of bytes cannot
    be read back from its own bytes, although its fields could. *)
Theorem C48_wrong_size_undecodable : forall E d n s h vs vr k l b bs l',
  wf_env E -> e_mem E = None -> e_sch E n = Some s -> sent s (scur s) = Some h -> h_opt h = true ->
  s_body s = SEnum vs -> In vr vs -> v_size vr = Some (SFixed k) ->
  to_vec E (S d) (TRef n) (VVar (v_name vr) l) = Ok b ->
  Forall3_enc E d (filter (falive (scur s)) (v_fields vr)) l bs -> len (concat bs) <> k ->
  run (decode_all E d (map f_ty (filter (falive (scur s)) (v_fields vr)))) (concat bs) = Ok (l', []) ->
  exists e, from_slice E (S d) (TRef n) b = Err e.
Proof.
  intros E d n s h vs vr k l b bs l' W Hm Es Eh Ho Eb Hin Hk H Hf Hne Hd.
  pose proof (we_sch _ W _ _ Es) as (Hc0 & Hc & Wb). rewrite Eb in Wb. destruct Wb as (Wn & _ & Wr).
  apply to_vec_ok in H. destruct H as (ops & H & ->).
  unfold to_writer in H. cbn [ser_ty ser_ref] in H. rewrite Es in H.
  unfold ser_derived in H. rewrite Eh, Eb in H.
  apply sbind_ok in H. destruct H as (l1 & l2 & H1 & H2 & ->). inversion H1; subst l1. clear H1.
  cbn [ser_enum] in H2. destruct (calc_disc (scur s) vs) as [ds|] eqn:Ed; [|discriminate].
  destruct (find_name (v_name vr) ds) as [[vr' dd]|] eqn:Ef; [|discriminate]. rewrite Ho in H2.
  apply find_name_in in Ef. destruct Ef as [Hi Hn].
  pose proof (calc_disc_fst _ _ _ Ed) as Hfst.
  assert (Hv : In vr' (filter (valive (scur s)) vs)) by (rewrite <- Hfst; apply in_map_iff; exists (vr', dd); auto).
  apply filter_In in Hv. destruct Hv as [Hv _].
  assert (vr' = vr) by (eapply NoDup_map_inj; [exact Wn| | |]; eauto). subst vr'.
  unfold ser_variant_opt in H2. rewrite Hk in H2.
  apply sbind_ok in H2. destruct H2 as (l3 & l4 & H3 & H4 & ->).
  apply rbind_ok in H4. destruct H4 as (bs' & Hbs & H4).
  assert (bs' = bs).
  { apply enc3 in Hbs. clear - Hf Hbs. revert bs' Hbs. induction Hf as [|f fs v l b bs Hb Hf IH]; intros bs' H; inversion H as [|f' fs' v' l' b' bs'' Hb' Hf']; subst; [reflexivity|].
    rewrite Hb in Hb'. inversion Hb'; subst. f_equal. apply IH. assumption. }
  subst bs'.
  assert (l4 = [WAll (concat bs)]) by (destruct (e_dbg E && negb (len (concat bs) =? k)); [discriminate|inversion H4; reflexivity]). subst l4.
  destruct (Wr _ _ Eh) as (ds' & Ed' & _ & Hopt). rewrite Ed in Ed'. inversion Ed'; subst ds'.
  specialize (Hopt Ho). rewrite forallb_forall in Hopt. specialize (Hopt _ Hi). unfold opt_variant_ok in Hopt. cbn [fst snd] in Hopt.
  rewrite Hk in Hopt. apply andb_prop in Hopt. destruct Hopt as [Hd5 _]. apply N.ltb_lt in Hd5.
  apply rbind_ok in H3. destruct H3 as (tag & Htag & H3).
  assert (tag = tag_new dd CFixed).
  { unfold tag_new_checked in Htag. destruct (e_dbg E && negb (dd <? 32)); inversion Htag; reflexivity. }
  subst tag. unfold write_tag, sall in H3. apply Ok_inj in H3. subst l3.
  unfold from_slice, deserialize. cbn [de_ty de_ref]. rewrite Es.
  unfold out. cbn [flat_map wop_bytes app]. rewrite app_nil_r.
  unfold de_derived. rewrite run_bind, rt_u16 by assumption.
  unfold de_body. rewrite Eh, Eb, Ho. unfold de_enum_opt. rewrite Ed.
  unfold read_optimised_tag, read_tag. destruct (tag_round dd CFixed Hd5) as (Ht1 & Ht2 & _).
  rewrite run_bind, run_bind, run_read_byte_cons, run_bind, run_of_res, Ht2. cbn [rmap run fst snd]. rewrite Ht1.
  assert (Hft : find_tag dd CFixed ds = Some (vr, dd)).
  { unfold find_tag. apply find_some_uniq; [assumption| |].
    - cbn [fst snd]. rewrite N.eqb_refl, Hk. reflexivity.
    - intros y Hy Hyk. apply andb_prop in Hyk. destruct Hyk as [Hyk _]. apply N.eqb_eq in Hyk.
      eapply NoDup_map_inj; [eapply calc_disc_nodup; exact Ed|assumption|assumption|exact Hyk]. }
  rewrite Hft. unfold de_variant_opt. rewrite Hk. cbn [variant_buf]. rewrite run_alloc_none by assumption. cbn [bind].
  rewrite run_bind. destruct (run (read_n k) (concat bs)) as [[buf y]|e|x] eqn:Er.
  - apply run_read_n_ok in Er. destruct Er as [Ebs El]. rewrite run_bind, run_in_buf.
    assert (V : run (de_vfields E (de_ref E d) (scur s) (v_fields vr)) (concat bs) = Ok (l', [])).
    { rewrite <- Hd. clear. induction (v_fields vr) as [|f fs IH] in bs |- *; cbn [de_vfields filter map decode_all]; [reflexivity|].
      destruct (falive (scur s) f); cbn [map decode_all]; [|apply IH].
      rewrite !run_bind. unfold deserialize. destruct (run (de_ty E (de_ref E d) (f_ty f)) (concat bs)) as [[v r]|e|x]; try reflexivity.
      rewrite !run_bind. specialize (IH [r]). cbn [concat] in IH. rewrite app_nil_r in IH. rewrite IH. reflexivity. }
    destruct (run_strict_prefix _ _ _ _ buf y V Ebs) as (e & He).
    { intros ->. rewrite app_nil_r in Ebs. subst buf. congruence. }
    rewrite He. exists e. reflexivity.
  - exists e. reflexivity.
  - exfalso. unfold read_n in Er. cbn [run] in Er. destruct (split_at k (concat bs)) as [[u w]|]; discriminate.
Qed.

(** ** The hypotheses are met *)
Example order_free_new : order_free new.
Proof.
  intros n s h Es Eh. cbn [new ex_env e_sch] in Es. unfold sch3 in Es.
  destruct (n =? 1); [|destruct (n =? 2); [|discriminate]]; inversion Es; subst s; vm_compute in Eh; inversion Eh; subst h; cbn [s_body user3 shape2].
  - intros f Hf. cbn in Hf. repeat (destruct Hf as [<-|Hf]); try (destruct Hf); intros Ha; vm_compute in Ha |- *; congruence.
  - intros vr f Hi Hf. cbn in Hi. destruct Hi as [<-|[<-|[<-|[<-|[]]]]]; cbn in Hf; repeat (destruct Hf as [<-|Hf]); try (destruct Hf); intros Ha; reflexivity.
Qed.
Definition scores : val := VSeq (map score [0;1;2;3;4;5;6;7;8]).
Definition scores_bytes : bytes := match encode_field new 0 MIdxMap (TMap KHash TStr (TInt U64)) scores with Ok b => b | _ => [] end.
Example C26_case : wt new 0 (TMap KHash TStr (TInt U64)) scores
  /\ encode_field new 0 MIdxMap (TMap KHash TStr (TInt U64)) scores = Ok scores_bytes /\ len scores_bytes = 109
  /\ run (decode_field new 0 MIdxMap (TMap KHash TStr (TInt U64))) (scores_bytes ++ [9]) = Ok (scores, [9]).
Proof. split; [apply wtb_ok; vm_compute; reflexivity|]. split; [vm_compute; reflexivity|]. split; vm_compute; reflexivity. Qed.
(** [new] iterates backwards; forwards the bytes are the same, while an ordinary map's differ. *)
Example C27_case : permutes (fun _ l => l) /\ ordered (TRef 1) = true
  /\ to_vec (set_iter (fun _ l => l) new) 2 (TRef 1) u_new = Ok u_new_bytes
  /\ to_vec (set_iter (fun _ l => l) new) 0 (TSet KHash TBool) (VSeq [VBool false; VBool true])
     <> to_vec new 0 (TSet KHash TBool) (VSeq [VBool false; VBool true]).
Proof. split; [intros t l; reflexivity|]. split; [reflexivity|]. split; [vm_compute; reflexivity|vm_compute; discriminate]. Qed.
Definition ports : val := VSeq (map (fun n => VInt (Z.of_N n)) [247;248;249;250;251;252;253;254;255;256]).
Definition ports_bytes : bytes := match encode_field new 0 MIdxSet (TSet KHash (TInt U16)) ports with Ok b => b | _ => [] end.
Example C28_case : wt new 0 (TSet KHash (TInt U16)) ports
  /\ encode_field new 0 MIdxSet (TSet KHash (TInt U16)) ports = Ok ports_bytes /\ len ports_bytes = 64
  /\ run (decode_field new 0 MIdxSet (TSet KHash (TInt U16))) ports_bytes = Ok (ports, []).
Proof. split; [apply wtb_ok; vm_compute; reflexivity|]. split; [vm_compute; reflexivity|]. split; vm_compute; reflexivity. Qed.
Example C48_case : to_vec new 1 (TRef 2) (VVar 0 [VInt 1]) = Ok ([2] ++ 32 :: [1; 0; 0; 0; 0; 0; 0; 0]).
Proof. vm_compute. reflexivity. Qed.

(** A varint declared to take 1 byte: 300 takes three. *)
Definition liar : schema := mkSchema [mkHent true false] (SEnum [var 0 1 None (Some (SFixed 1)) [fld (TInt U32) 1 None]]).
Definition release : env := mkEnv false false false 64 None (fun _ => 8) (fun _ => vcmp) (fun _ l => l) (fun b => b) (fun _ v => Some v) (2 ^ 62)%Z
  (fun n => if n =? 0 then Some liar else None).
Theorem C48_release_refuted : wf_env release /\ wt release 1 (TRef 0) (VVar 0 [VInt 300])
  /\ exists b, to_vec release 1 (TRef 0) (VVar 0 [VInt 300]) = Ok b /\ from_slice release 1 (TRef 0) b = Err EIo.
Proof.
  split; [|split; [apply wtb_ok; vm_compute; reflexivity|exists [1; 32; 251; 44; 1]; split; vm_compute; reflexivity]].
  constructor; cbn [release e_ub e_cmp e_iter e_dec e_ext e_time e_sch].
  - auto.
  - intros; apply vcmp_lawful.
  - intros; apply Permutation_refl.
  - auto.
  - auto.
  - lia.
  - intros n s. destruct (n =? 0); intros H; inversion H; subst. apply wf_schemab_ok. vm_compute. reflexivity.
Qed.

Print Assumptions C26_indexed_map_round_trip.
Print Assumptions C27_indexed_map_order.
Print Assumptions C27_value_order.
Print Assumptions C28_indexed_seq_round_trip.
Print Assumptions C28_indexed_set_round_trip.
Print Assumptions C48_fixed_length.
Print Assumptions C48_wrong_size_undecodable.
Print Assumptions C48_release_refuted.
