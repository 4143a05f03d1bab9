(** C75: encodings are bincode's. *)

From Verif Require Import Base BaseL Prog ProgL Prim PrimL Utf8 Ty Ser De Typed Mig RtL RtId IntL Spec Bincode BincodeL PropWire Ex.
From Coq Require Import List NArith ZArith Bool Lia ZifyBool Permutation.
Import ListNotations.
Open Scope N_scope.

(** C75.  Bincode.v has bincode's format and how serde presents a value; the encoding of the feature
    fixed-width-encoding is to be compared with bincode's [with_fixint_encoding], the other with
    [with_varint_encoding].  [same]: external types that serde presents like their content. *)
Theorem C75_bincode : forall E same d t v b, wf_env E -> bin_types E same -> bin_ty E same t = true -> wt E d t v ->
  (to_vec E d t v = Ok b <-> exists x, serde E d t v = Some x /\ b = bincode (e_fw E) x).
Proof.
  intros E same d t v b W HT HB Hw. pose proof (bz_writer E same W HT d t v HB Hw) as H. unfold to_vec, ser_bytes.
  destruct (to_writer E d t v) as [ops|e|p], (serde E d t v) as [x|]; cbn [bz rmap] in *; try contradiction.
  - split; [intros Hb; apply Ok_inj in Hb; subst b; exists x; auto|]. intros (y & Hy & ->). inversion Hy; subst. rewrite H. reflexivity.
  - split; [discriminate|]. intros (y & Hy & _). discriminate.
  - split; [discriminate|]. intros (y & Hy & _). discriminate.
Qed.
(** And what bincode wrote is read back. *)
Theorem C75_reads_bincode : forall E same d t v x rest, wf_env E -> sizes_honest E -> bin_types E same -> bin_ty E same t = true -> wt E d t v ->
  serde E d t v = Some x -> or_oom E (run (deserialize E d t) (bincode (e_fw E) x ++ rest)) (Ok (v, rest)).
Proof.
  intros E same d t v x rest W Hh HT HB Hw Hx. apply (C02_self_delimiting E d d); auto.
  apply (C75_bincode E same); auto. exists x. auto.
Qed.

Lemma pow256_mod3 : forall k : nat, exists m : Z, (2 ^ Z.of_N (8 * N.of_nat k) = 3 * m + 1)%Z.
Proof.
  intros k. replace (2 ^ Z.of_N (8 * N.of_nat k))%Z with (256 ^ Z.of_nat k)%Z.
  - induction k as [|k [m IH]]; [exists 0%Z; reflexivity|]. rewrite Nat2Z.inj_succ, Z.pow_succ_r, IH by lia. exists (256 * m + 85)%Z. lia.
  - rewrite N2Z.inj_mul, Z.pow_mul_r by lia. rewrite nat_N_Z. reflexivity.
Qed.

(** The excluded cases are not bincode's.  Signed integers with fixed-width-encoding: all but 0. *)
Theorem C75_signed_refuted : forall E d i z, wf_env E -> e_fw E = true -> In i [I16; I32; I64; I128; Isize] -> in_ity (e_ub E) i z -> z <> 0%Z ->
  exists b x, to_vec E d (TInt i) (VInt z) = Ok b /\ serde E d (TInt i) (VInt z) = Some x /\ b <> bincode true x.
Proof.
  intros E d i z W Hfw Hi Hz Hn. exists (ser_int (e_fw E) i z), (serde_int i z).
  split; [unfold to_vec, to_writer, ser_bytes; cbn [ser_ty sall rmap]; unfold out; cbn [flat_map wop_bytes]; rewrite app_nil_r; reflexivity|].
  split; [reflexivity|]. rewrite Hfw.
  assert (K : forall w (k : nat), 0 < w -> w <= 128 -> inS w z -> w = 8 * N.of_nat k -> le_bytes k (zz z) <> bin_fixed w z).
  { clear - Hn. intros w k Hw Hw' Hz -> H. unfold bin_fixed in H. rewrite N.mul_comm, N.div_mul, Nat2N.id in H by discriminate. rewrite (N.mul_comm _ 8) in H.
    set (w := 8 * N.of_nat k) in *.
    assert (P : 256 ^ N.of_nat k = 2 ^ w) by (unfold w; rewrite N.pow_mul_r; reflexivity).
    apply le_bytes_inj in H; [| |].
    - unfold zz in H. unfold inS in Hz. assert (PP : (0 < 2 ^ (Z.of_N w - 1))%Z) by (apply Z.pow_pos_nonneg; lia).
      assert (P2 : (2 ^ Z.of_N w = 2 * 2 ^ (Z.of_N w - 1))%Z) by (rewrite <- Z.pow_succ_r by lia; f_equal; lia).
      destruct (0 <=? z)%Z eqn:E0.
      + rewrite Z.mod_small in H by lia. lia.
      + destruct (pow256_mod3 k) as [m Hm]. fold w in Hm. replace (z mod 2 ^ Z.of_N w)%Z with (z + 2 ^ Z.of_N w)%Z in H; [lia|].
        symmetry. rewrite <- (Z_mod_plus_full z 1). rewrite Z.mul_1_l. apply Z.mod_small. lia.
    - rewrite P. apply zz_bound; assumption.
    - rewrite P. apply wrapZ_bound. }
  assert (Z64 : forall w, 0 < w -> w <= 64 -> inS w z -> zigzag 64 z = zz z).
  { intros w H1 H2 H. apply zigzag_zz; [lia|]. eapply inS_mono; [| |exact H]; lia. }
  unfold in_ity in Hz. cbn [In] in Hi.
  destruct Hi as [<-|[<-|[<-|[<-|[<-|[]]]]]]; cbn [ity_signed ity_bits] in Hz; cbn [ser_int serde_int bincode]; unfold ser_isize, ser_i16, ser_i32, ser_i64, ser_i128, bin_sint; rewrite orb_true_r.
  - rewrite (Z64 16), zz_16 by (lia || exact Hz). apply K; try lia. exact Hz.
  - rewrite (Z64 32), zz_32 by (lia || exact Hz). apply K; try lia. exact Hz.
  - rewrite (Z64 64) by (lia || exact Hz). apply K; try lia. exact Hz.
  - rewrite zigzag_zz by (lia || exact Hz). apply K; try lia. exact Hz.
  - assert (inS 64 z) by (eapply inS_mono; [| |exact Hz]; destruct (we_ub _ W) as [-> | ->]; lia). rewrite (Z64 64) by (lia || assumption). apply K; try lia. assumption.
Qed.
(** Vectors of integers in bulk form (feature specialised-vectors), as soon as they have an element that bincode
    writes in another number of bytes ... *)
Theorem C75_vectors_refuted : forall E d, wf_env E -> e_spec E = true -> e_fw E = false ->
  exists v b x, wt E d (TVec (TInt U16)) v /\ to_vec E d (TVec (TInt U16)) v = Ok b /\ serde E d (TVec (TInt U16)) v = Some x /\ b <> bincode false x.
Proof.
  intros E d W Hs Hf. exists (VSeq [VInt 1]), [1; 1; 0], (DSeq [DUint 16 1]). split; [|split; [|split]].
  - unfold wt. cbn [wt_ty]. unfold fits, vec_fits, fits, in_ity, inU. cbn [bulk_of ity_signed ity_bits].
    assert (2 < 2 ^ e_ub E) by (destruct (we_ub _ W) as [-> | ->]; reflexivity).
    change (len [VInt 1]) with 1. split; [lia|]. split; [lia|]. repeat constructor; lia.
  - unfold to_vec, to_writer. cbn [ser_ty]. rewrite Hs. cbn [bulk_of]. unfold ser_bulk, ser_len, ser_usize, ser_u64. rewrite Hf. reflexivity.
  - reflexivity.
  - discriminate.
Qed.
(** ... packed vectors of bools, and uuids, which bincode writes with a length. *)
Theorem C75_bools_refuted : forall E d, wf_env E -> e_spec E = true -> e_fw E = false ->
  exists v b x, wt E d (TVec TBool) v /\ to_vec E d (TVec TBool) v = Ok b /\ serde E d (TVec TBool) v = Some x /\ b <> bincode false x.
Proof.
  intros E d W Hs Hf. exists (VSeq [VBool true; VBool true]), [2; 3], (DSeq [DBool true; DBool true]). split; [|split; [|split]].
  - unfold wt. cbn [wt_ty]. unfold fits, vec_fits. cbn [bulk_of]. assert (2 < 2 ^ e_ub E) by (destruct (we_ub _ W) as [-> | ->]; reflexivity).
    change (len [VBool true; VBool true]) with 2. split; [lia|]. split; [exact I|]. repeat constructor.
  - unfold to_vec, to_writer. cbn [ser_ty]. rewrite Hs. cbn [bulk_of]. unfold ser_bulk, ser_len, ser_usize, ser_u64. rewrite Hf. reflexivity.
  - reflexivity.
  - discriminate.
Qed.
Theorem C75_uuid_refuted : forall E d v b x fix_int, wt E d TUuid v -> to_vec E d TUuid v = Ok b -> serde E d TUuid v = Some x -> b <> bincode fix_int x.
Proof.
  intros E d v b x fi Hw Hb Hx. destruct v; try contradiction. destruct Hw as [_ Hw].
  unfold to_vec, to_writer, ser_bytes in Hb. cbn [ser_ty sall rmap] in Hb. unfold out in Hb. cbn [flat_map wop_bytes] in Hb. rewrite app_nil_r in Hb. apply Ok_inj in Hb. subst b.
  unfold serde in Hx. cbn [serde_ty] in Hx. inversion Hx; subst x. intros H. apply (f_equal len) in H. cbn [bincode] in H. rewrite len_app, Hw in H.
  assert (0 < len (bin_uint fi 64 16)); [|lia]. destruct fi; reflexivity.
Qed.

(** ** The hypotheses are satisfiable *)
Definition bin_sch (n : N) : option schema :=
  if n =? 0 then Some (mkSchema [mkHent false false; mkHent false false] (SStruct [fld TStr 1 None; fld (TVec (TInt U8)) 2 None; fld (TInt I64) 1 None; fld (TMap KHash TStr (TRef 1)) 1 None]))
  else if n =? 1 then Some (mkSchema [mkHent false false]
    (SEnum [mkVariant 0 1 None (fun _ => None) None [] (fun _ _ => Panic PType); mkVariant 1 1 None (fun _ => None) None [fld (TOption (TInt U32)) 1 None] (fun _ _ => Panic PType)]))
  else None.
Definition bin_env : env := ex_env bin_sch.
Definition bin_val : val :=
  VSeq [VBytes [104; 105]; VSeq [VInt 7; VInt 255]; VInt (-300); VSeq [VPair (VBytes [97]) (VVar 1 [VVar 1 [VInt 70000]]); VPair (VBytes [98]) (VVar 0 [])]].
Example C75_case : wf_env bin_env /\ bin_types bin_env (fun _ => false) /\ bin_ty bin_env (fun _ => false) (TRef 0) = true /\ wt bin_env 2 (TRef 0) bin_val
  /\ exists b x, to_vec bin_env 2 (TRef 0) bin_val = Ok b /\ serde bin_env 2 (TRef 0) bin_val = Some x /\ b = bincode false x /\ len b = 25.
Proof.
  split; [apply wf_ex; intros n s; unfold bin_sch; destruct (n =? 0); [|destruct (n =? 1)]; intros H; inversion H; subst; apply wf_schemab_ok; vm_compute; reflexivity|].
  split.
  { intros n s. cbn [bin_env ex_env e_sch]. unfold bin_sch. destruct (n =? 0); [|destruct (n =? 1); [|discriminate]]; intros H; inversion H; subst; (split; [intros h Hh; vm_compute in Hh; inversion Hh; reflexivity|]).
    - reflexivity.
    - repeat constructor. }
  split; [reflexivity|]. split; [apply wtb_ok; vm_compute; reflexivity|].
  do 2 eexists. split; [vm_compute; reflexivity|]. split; [vm_compute; reflexivity|]. split; vm_compute; reflexivity.
Qed.

Print Assumptions C75_bincode.
Print Assumptions C75_reads_bincode.
Print Assumptions C75_signed_refuted.
Print Assumptions C75_vectors_refuted.
Print Assumptions C75_bools_refuted.
Print Assumptions C75_uuid_refuted.
