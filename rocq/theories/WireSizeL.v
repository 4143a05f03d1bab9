(** The length of an encoding.  Proofs. *)

From Verif Require Import Base BaseL Prog ProgL Prim PrimL Utf8 Utf8L Tag Ty Ser De Typed Mig SortL DiscL RtL RtTy RtDer RtSch RtId IntL Spec WireSize.
From Coq Require Import List NArith ZArith Bool Lia ZifyBool Permutation Sorted.
Import ListNotations.
Open Scope N_scope.

(** [sz]: succeeds exactly if there is a size, which is then the length; [szi]: may also fail if the size is too
    large for 32 bits. *)
Definition sz (s : ser) (o : option N) : Prop :=
  match s, o with Ok ops, Some n => len (out ops) = n | Ok _, None => False | _, Some _ => False | _, None => True end.
Definition rz (r : res bytes) (o : option N) : Prop :=
  match r, o with Ok b, Some n => len b = n | Ok _, None => False | _, Some n => 2 ^ 32 <= n | _, None => True end.
Definition szi (s : ser) (o : option N) : Prop := rz (ser_bytes s) o.

Lemma sz_szi : forall s o, sz s o -> szi s o.
Proof. intros [ops|e|p] [n|] H; cbn in *; auto; contradiction. Qed.
Lemma sz_bind : forall a b m n, sz a m -> sz b n -> sz (a +++ b) (oadd m n).
Proof.
  intros [a|e|p] [b|e'|p'] [m|] [n|] Ha Hb; cbn in *; auto; try contradiction.
  rewrite out_app, len_app. lia.
Qed.
Lemma sz_all : forall b n, len b = n -> sz (sall b) (Some n).
Proof. intros b n H. cbn. rewrite app_nil_r. exact H. Qed.
Lemma sz_nil : sz snil (Some 0).  Proof. reflexivity. Qed.
Lemma sz_map : forall A (f : A -> ser) (g : A -> option N) l, Forall (fun x => sz (f x) (g x)) l -> sz (sconcat (map f l)) (ototal (map g l)).
Proof. intros A f g l H. induction H as [|x l Hx Hl IH]; [apply sz_nil|]. cbn [map]. rewrite sconcat_cons. apply sz_bind; assumption. Qed.

Lemma oadd_comm3 : forall a b c, oadd a (oadd b c) = oadd b (oadd a c).
Proof. intros [a|] [b|] [c|]; cbn; try reflexivity. f_equal. lia. Qed.
Lemma ototal_perm : forall l l', Permutation l l' -> ototal l = ototal l'.
Proof.
  intros l l' H. induction H as [|x l l' H IH|x y l|l l' l'' H1 IH1 H2 IH2]; cbn [ototal fold_right]; [reflexivity| |apply oadd_comm3|congruence].
  fold (ototal l) (ototal l'). rewrite IH. reflexivity.
Qed.
Lemma len_perm : forall A (l l' : list A), Permutation l l' -> len l = len l'.
Proof. intros A l l' H. unfold len. rewrite (Permutation_length H). reflexivity. Qed.
Lemma concat_perm : forall A (l l' : list (list A)), Permutation l l' -> len (concat l) = len (concat l').
Proof.
  intros A l l' H. induction H as [|x l l' H IH|x y l|l l' l'' H1 IH1 H2 IH2]; cbn [concat]; rewrite ?len_app; lia || congruence.
Qed.

(** Pieces written to separate buffers. *)
Definition tz (r : res (list bytes)) (n : N) (o : option N) : Prop :=
  match r with Ok bs => len bs = n /\ o = Some (len (concat bs)) | _ => match o with Some m => 2 ^ 32 <= m | None => True end end.
Lemma tz_map : forall A (f : A -> res bytes) (g : A -> option N) l,
  Forall (fun x => rz (f x) (g x)) l -> tz (rmapM f l) (len l) (ototal (map g l)).
Proof.
  intros A f g l H. induction H as [|x l Hx Hl IH]; [split; reflexivity|]. cbn [map rmapM ototal fold_right]. fold (ototal (map g l)).
  unfold rz in Hx. destruct (f x) as [b|e|p]; cbn [rbind].
  - destruct (g x) as [n|]; [|contradiction]. destruct (rmapM f l) as [bs|e|p]; cbn [rbind tz] in *.
    + destruct IH as [IL ->]. rewrite !len_cons, IL. split; [reflexivity|]. cbn [concat oadd]. rewrite len_app. f_equal. lia.
    + destruct (ototal (map g l)); cbn [oadd]; [lia|exact I].
    + destruct (ototal (map g l)); cbn [oadd]; [lia|exact I].
  - cbn [tz]. destruct (g x); cbn [oadd]; [|exact I]. destruct (ototal (map g l)); [lia|exact I].
  - cbn [tz]. destruct (g x); cbn [oadd]; [|exact I]. destruct (ototal (map g l)); [lia|exact I].
Qed.

Lemma offsets_some : forall l o, o + len (concat l) < 2 ^ 32 -> exists t e, offsets o l = Some (t, e).
Proof.
  induction l as [|b l IH]; intros o H; cbn [offsets]; [eauto|]. cbn [concat] in H. rewrite len_app in H.
  rewrite N.mod_small by (clear - H; lia). replace (o + len b <? 2 ^ 32) with true by (clear - H; lia).
  destruct (IH (o + len b)) as (t & e & ->); [clear - H; lia|]. eauto.
Qed.
Lemma varint_size : forall n, n < 2 ^ 64 -> len (write_varint n) = width n.
Proof. intros n H. apply width_len64, H. Qed.
Lemma seq_size : forall bs, len bs < 2 ^ 64 -> rz (enc_idx_seq bs) (Some (idx_head (len bs) (4 * len bs) + len (concat bs))).
Proof.
  intros bs Hn. unfold enc_idx_seq, idx_head. cbv zeta. change OFFSET_TABLE_MIN_LEN with 8. destruct (len bs <? 8).
  - cbn [rz]. rewrite len_cons, len_app, varint_size by exact Hn. lia.
  - destruct (offsets 0 bs) as [[t e]|] eqn:Eo.
    + cbn [rz]. rewrite len_cons, !len_app, varint_size, le32s_len by exact Hn. apply offsets_len in Eo. unfold len at 2. rewrite Eo. fold (len bs). lia.
    + cbn [rz]. destruct (N.lt_ge_cases (len (concat bs)) (2 ^ 32)) as [H|H]; [|lia].
      destruct (offsets_some bs 0) as (t & e & Hs); [exact H|congruence].
Qed.
Lemma entries_size : forall ps, len (flat_map (fun p => fst p ++ snd p) ps) = len (concat (map fst ps)) + len (@concat N (map snd ps)).
Proof. induction ps as [|[k v] ps IH]; cbn [flat_map map concat fst snd]; rewrite ?len_app; [reflexivity|]. rewrite IH. lia. Qed.
Lemma map_size : forall ps, len ps < 2 ^ 64 ->
  rz (enc_idx_map ps) (Some (idx_head (len ps) (8 * len ps + 8) + len (flat_map (fun p => fst p ++ snd p) ps))).
Proof.
  intros ps Hn. unfold enc_idx_map, idx_head. cbv zeta. change OFFSET_TABLE_MIN_LEN with 8. destruct (len ps <? 8).
  - cbn [rz]. rewrite len_cons, len_app, varint_size by exact Hn. lia.
  - rewrite entries_size. destruct (offsets 0 (map fst ps)) as [[ks ke]|] eqn:Ek.
    + destruct (offsets 0 (map snd ps)) as [[vs ve]|] eqn:Ev.
      * apply offsets_len in Ek. apply offsets_len in Ev. rewrite map_length in Ek, Ev. cbn [rz].
        rewrite len_cons, !len_app, varint_size, pairs_len, !le_bytes_len by (exact Hn || congruence).
        assert (len ks = len ps) by (unfold len; rewrite Ek; reflexivity). unfold bytes in *. lia.
      * cbn [rz]. destruct (N.lt_ge_cases (len (concat (map snd ps))) (2 ^ 32)) as [H|H]; [|unfold bytes in *; lia].
        destruct (offsets_some (map snd ps) 0) as (t & e & Hs); [exact H|congruence].
    + cbn [rz]. destruct (N.lt_ge_cases (len (concat (map fst ps))) (2 ^ 32)) as [H|H]; [|unfold bytes in *; lia].
      destruct (offsets_some (map fst ps) 0) as (t & e & Hs); [exact H|congruence].
Qed.

Section S.
Variable E : env.
Hypothesis W : wf_env E.

Lemma ub64 : forall n, n < 2 ^ e_ub E -> n < 2 ^ 64.
Proof. intros n H. assert (2 ^ e_ub E <= 2 ^ 64) by (apply N.pow_le_mono_r; [discriminate|destruct (we_ub _ W) as [-> | ->]; discriminate]). lia. Qed.
Lemma int_len : forall i z, in_ity (e_ub E) i z -> len (ser_int (e_fw E) i z) = int_size E i z.
Proof.
  intros i z H. unfold int_size. destruct i; try reflexivity; (destruct (e_fw E); [|eapply int_encodes; [reflexivity|exact (we_ub _ W)|exact H]]);
    cbn [ser_int]; unfold ser_isize, ser_usize, ser_u16, ser_u32, ser_u64, ser_u128, ser_i16, ser_i32, ser_i64, ser_i128; rewrite le_bytes_len; reflexivity.
Qed.
Lemma nat_len : forall n, n < 2 ^ e_ub E -> len (ser_len E n) = nat_size E Usize n.
Proof.
  intros n H. unfold nat_size. rewrite <- int_len by (unfold in_ity, inU; cbn [ity_signed ity_bits]; rewrite <- (N2Z.inj_pow 2); lia).
  cbn [ser_int]. rewrite N2Z.id. reflexivity.
Qed.
Lemma u32_len : forall n, n < 2 ^ 32 -> len (ser_u32 (e_fw E) n) = nat_size E U32 n.
Proof.
  intros n H. unfold nat_size. rewrite <- int_len by (unfold in_ity, inU; cbn [ity_signed ity_bits]; lia).
  cbn [ser_int]. rewrite N2Z.id. reflexivity.
Qed.
Lemma u16_len : forall n, n < 2 ^ 16 -> len (ser_u16 (e_fw E) n) = nat_size E U16 n.
Proof.
  intros n H. unfold nat_size. rewrite <- int_len by (unfold in_ity, inU; cbn [ity_signed ity_bits]; lia).
  cbn [ser_int]. rewrite N2Z.id. reflexivity.
Qed.
Lemma char_len : forall z, (0 <= z)%Z -> len (utf8_encode (Z.to_N z)) = char_size z.
Proof.
  intros z H. unfold utf8_encode, char_size. destruct (Z.to_N z <? 128) eqn:E1; [replace (z <? 128)%Z with true by lia; reflexivity|replace (z <? 128)%Z with false by lia].
  destruct (Z.to_N z <? 2048) eqn:E2; [replace (z <? 2048)%Z with true by lia; reflexivity|replace (z <? 2048)%Z with false by lia].
  destruct (Z.to_N z <? 65536) eqn:E3; [replace (z <? 65536)%Z with true by lia; reflexivity|replace (z <? 65536)%Z with false by lia]. reflexivity.
Qed.
Lemma sz_blob : forall b, fits E (len b) -> sz (ser_blob E b) (Some (blob_size E b)).
Proof. intros b H. cbn. rewrite app_nil_r, len_app, nat_len by exact H. reflexivity. Qed.
Lemma sz_len : forall n s o, fits E n -> sz s o -> sz (Ok [WAll (ser_len E n)] +++ s) (oadd (Some (nat_size E Usize n)) o).
Proof. intros n s o H Hs. apply sz_bind; [apply (sz_all (ser_len E n)), nat_len, H|exact Hs]. Qed.
Lemma flat_fixed : forall w zs, len (flat_map (ser_fixed w) zs) = len zs * N.of_nat w.
Proof.
  intros w zs. induction zs as [|z zs IH]; [reflexivity|]. cbn [flat_map]. rewrite len_app, len_cons, IH. unfold ser_fixed. rewrite le_bytes_len. lia.
Qed.
Lemma bulk_list : forall A recW t (f : val -> res A) l, Forall (wt_ty E recW t) l -> (forall v, wt_ty E recW t v -> exists a, f v = Ok a) ->
  exists r, rmapM f l = Ok r /\ len r = len l.
Proof.
  intros A recW t f l H Hf. induction H as [|v l Hv Hl (r & Hr & Hn)]; [exists []; split; reflexivity|].
  destruct (Hf v Hv) as (a & Ha). cbn [rmapM]. rewrite Ha, Hr. exists (a :: r). split; [reflexivity|]. rewrite !len_cons. lia.
Qed.
Lemma sz_bulk : forall recW t k l, bulk_of t = Some k -> fits E (len l) -> vec_fits E t (len l) ->
  Forall (wt_ty E recW t) l -> sz (ser_bulk E k l) (Some (bulk_size E k (len l))).
Proof.
  intros recW t k l Hk Hf Hv Hl. unfold ser_bulk, bulk_size. cbv zeta.
  match goal with |- sz _ (Some (?a + ?b)) => change (Some (a + b)) with (oadd (Some a) (Some b)) end.
  apply sz_len; [exact Hf|]. destruct (len l =? 0) eqn:E0.
  { replace (len l) with 0 by lia. destruct k; apply sz_nil. }
  unfold vec_fits in Hv. rewrite Hk in Hv. destruct k as [|s w|dec].
  - destruct (bulk_list _ recW t as_bool l Hl) as (bs & -> & Hn).
    { intros v Hw. destruct t as [|[]| | | | | | | | | | | | | | | | | | | | | | | |]; try discriminate. destruct v; try contradiction. eexists; reflexivity. }
    cbn [rbind]. apply sz_all. rewrite pack_len, Hn. unfold div_ceil8. reflexivity.
  - destruct (bulk_list _ recW t as_int l Hl) as (zs & -> & Hn).
    { intros v Hw. destruct t as [|[]| | | | | | | | | | | | | | | | | | | | | | | |]; try discriminate; destruct v; try contradiction; eexists; reflexivity. }
    cbn [rbind]. apply sz_all. rewrite flat_fixed, Hn. reflexivity.
  - unfold fits in Hv. replace (len l * 16 <? 2 ^ e_ub E) with true by lia.
    assert (Hr : exists bs, rmapM as_bytes l = Ok bs /\ len (concat bs) = len l * 16).
    { clear - Hl Hk. induction Hl as [|v l Hv Hl (r & Hr & Hn)]; [exists []; split; reflexivity|].
      assert (Hb : exists b, v = VBytes b /\ len b = 16).
      { destruct t as [|[]| | | | | | | | | | | | | | | | | | | | | | | |]; try discriminate; destruct v; try contradiction; eexists; split; try reflexivity; apply Hv. }
      destruct Hb as (b & -> & Hb). cbn [rmapM as_bytes]. rewrite Hr. exists (b :: r). split; [reflexivity|]. cbn [concat]. rewrite len_app, len_cons. lia. }
    destruct Hr as (bs & -> & Hn). cbn [rbind]. apply sz_all, Hn.
Qed.

Section Rec.
Variables (rec : N -> val -> ser) (recW : N -> val -> Prop) (recZ : N -> val -> option N).
Hypothesis Hrec : forall n v, recW n v -> sz (rec n v) (recZ n v).

Lemma iter_total : forall k t (g : val -> option N) l, ototal (map g (citer E k t l)) = ototal (map g l).
Proof. intros k t g l. apply ototal_perm, Permutation_map. destruct k; [apply (we_iter _ W)|apply Permutation_refl]. Qed.
Lemma iter_all : forall k t (R : val -> Prop) l, Forall R l -> Forall R (citer E k t l).
Proof.
  intros k t R l H. rewrite Forall_forall in *. intros x Hx. apply H.
  destruct k; cbn in Hx; [|exact Hx]. eapply Permutation_in; [apply (we_iter _ W)|exact Hx].
Qed.

Notation pair_size a b := (fun p => match p with VPair x y => oadd (size_ty E recZ a x) (size_ty E recZ b y) | _ => None end).
Lemma sz_ty : forall t v, wt_ty E recW t v -> sz (ser_ty E rec t v) (size_ty E recZ t v).
Proof.
  assert (HX : forall t k t0 l, (forall v, wt_ty E recW t v -> sz (ser_ty E rec t v) (size_ty E recZ t v)) -> Forall (wt_ty E recW t) l ->
    sz (sconcat (map (ser_ty E rec t) (citer E k t0 l))) (ototal (map (size_ty E recZ t) l))).
  { intros t k t0 l IH Hl. rewrite <- (iter_total k t0). apply sz_map. eapply Forall_impl; [|apply iter_all, Hl]. exact IH. }
  assert (HD : forall s n, inU 64 s -> (0 <= n < 1000000000)%Z -> sz (sall (ser_int (e_fw E) U64 s) +++ sall (ser_int (e_fw E) U32 n)) (Some (int_size E U64 s + int_size E U32 n))).
  { intros s n H1 H2. change (Some (int_size E U64 s + int_size E U32 n)) with (oadd (Some (int_size E U64 s)) (Some (int_size E U32 n))).
    apply sz_bind; apply sz_all, int_len; unfold in_ity, inU in *; cbn [ity_signed ity_bits]; lia. }
  assert (H0 : forall A (o : option A), (if e_spec E then o else None) = o \/ (if e_spec E then o else None) = None) by (intros; destruct (e_spec E); auto).
  assert (O : forall o, oadd o (Some 0) = o) by (intros [o|]; cbn; [f_equal; lia|reflexivity]).
  induction t as [|i| | | | | | | | | |a IHa b IHb|t IH|t IH|n t IH|t IH|a IHa b IHb|t IH|k a IHa b IHb|k t IH|t IH|t IH| | |c m t IH|n];
    intros v Hw; try (destruct v; cbn [wt_ty] in Hw; try contradiction); cbn [ser_ty size_ty].
  - reflexivity.
  - apply sz_all, int_len, Hw.
  - apply sz_all, le_bytes_len.
  - apply sz_all, le_bytes_len.
  - apply sz_all, char_len, Hw.
  - apply sz_blob, Hw.
  - destruct (utf8_ok b); [apply sz_blob, Hw|exact I].
  - apply sz_blob, Hw.
  - apply sz_all, Hw.
  - apply sz_all, Hw.
  - apply sz_nil.
  - destruct Hw. apply sz_bind; auto.
  - destruct Hw as (Hf & Hv & Hl). destruct (if e_spec E then bulk_of t else None) as [k|] eqn:Ek.
    + eapply sz_bulk; [|exact Hf|exact Hv|exact Hl]. destruct (e_spec E); [exact Ek|discriminate].
    + apply sz_len; [exact Hf|]. apply (HX t KOrd TUnit l IH Hl).
  - destruct Hw as (Hf & Hl). apply sz_len; [exact Hf|]. apply (HX t KOrd TUnit l IH Hl).
  - destruct Hw as (Hf & Hl). apply Nat.eqb_eq in Hf. rewrite Hf. apply (HX t KOrd TUnit l IH Hl).
  - destruct k as [|[p|p|]]; try contradiction; destruct l as [|x [|y l]]; try contradiction; cbn [map ototal fold_right].
    + rewrite O. apply sz_all. reflexivity.
    + rewrite O. apply sz_bind; [apply sz_all; reflexivity|auto].
  - destruct k as [|[p|p|]]; try contradiction; destruct l as [|x [|y l]]; try contradiction; cbn [map ototal fold_right]; rewrite O;
      (apply sz_bind; [apply sz_all, u32_len; reflexivity|]); [apply IHa, Hw|apply IHb, Hw].
  - destruct k as [|[p|[p|p|]|]]; try contradiction; destruct l as [|x [|y l]]; try contradiction; cbn [map ototal fold_right]; rewrite O;
      try (apply sz_bind; [apply sz_all, u32_len; reflexivity|]; apply IH, Hw). apply sz_all, u32_len. reflexivity.
  - destruct Hw as (Hf & Hl & _). apply sz_len; [exact Hf|]. rewrite <- (iter_total k (TMap k a b)). apply sz_map.
    eapply Forall_impl; [|apply iter_all, Hl]. intros p Hp. destruct p; try contradiction. cbn [ser_entry]. apply sz_bind; [apply IHa, Hp|apply IHb, Hp].
  - destruct Hw as (Hf & Hl & _). apply sz_len; [exact Hf|]. apply HX; assumption.
  - destruct Hw as (Hf & Hl & _). apply sz_len; [exact Hf|]. apply (HX t KHash (THeap t)); assumption.
  - apply IH, Hw.
  - apply IH, Hw.
  - apply IH, Hw.
  - apply IH, Hw.
  - apply IH, Hw.
  - apply IH, Hw.
  - apply IH, Hw.
  - destruct v1; try contradiction. destruct v2; try contradiction. destruct Hw as [H1 H2]. apply HD; assumption.
  - destruct v1; try contradiction. destruct v2; try contradiction. destruct Hw as [H1 H2].
    destruct (z <? 0)%Z eqn:Ez; [exact I|]. pose proof (we_time _ W). apply HD; [unfold inU; lia|assumption].
  - apply IH, Hw.
  - apply IH, Hw.
  - apply IH, Hw.
  - apply IH, Hw.
  - apply IH, Hw.
  - apply IH, Hw.
  - apply IH, Hw.
  - apply Hrec, Hw.
  - apply Hrec, Hw.
  - apply Hrec, Hw.
  - apply Hrec, Hw.
  - apply Hrec, Hw.
  - apply Hrec, Hw.
  - apply Hrec, Hw.
Qed.

(** Containers with a table. *)
Lemma rz_ser : forall (r : res bytes) o, rz r o -> szi (rbind r sall) o.
Proof. intros [b|e|p] o H; cbn [rbind]; unfold szi; cbn [ser_bytes sall rmap]; [|exact H|exact H]. unfold out. cbn [flat_map wop_bytes]. rewrite app_nil_r. exact H. Qed.
Lemma szi_seq : forall (r : res (list bytes)) n o (srt : list bytes -> list bytes), (forall l, Permutation (srt l) l) -> n < 2 ^ 64 -> tz r n o ->
  szi (rbind r (fun bs => rbind (enc_idx_seq (srt bs)) sall)) (oadd (Some (idx_head n (4 * n))) o).
Proof.
  intros [bs|e|p] n o srt Hp Hn H; cbn [rbind tz] in *.
  - destruct H as [<- ->]. apply rz_ser. cbn [oadd]. rewrite <- (len_perm _ _ _ (Hp bs)) in Hn |- *. rewrite <- (concat_perm _ _ _ (Hp bs)).
    apply seq_size, Hn.
  - unfold szi. cbn. destruct o; cbn; [lia|exact I].
  - unfold szi. cbn. destruct o; cbn; [lia|exact I].
Qed.
Lemma szi_map : forall a b l, Forall (fun p => match p with VPair x y => wt_ty E recW a x /\ wt_ty E recW b y | _ => False end) l ->
  len l < 2 ^ 64 ->
  szi (rbind (rmapM (pre_entry (ser_ty E rec a) (ser_ty E rec b)) l) (fun ps => rbind (enc_idx_map (ssort key_cmp ps)) sall))
      (oadd (Some (idx_head (len l) (8 * len l + 8))) (ototal (map (pair_size a b) l))).
Proof.
  intros a b l Hl Hn.
  assert (H : match rmapM (pre_entry (ser_ty E rec a) (ser_ty E rec b)) l with
              | Ok ps => len ps = len l /\ ototal (map (pair_size a b) l) = Some (len (flat_map (fun p => fst p ++ snd p) ps))
              | _ => ototal (map (pair_size a b) l) = None
              end).
  { clear Hn. induction Hl as [|p l Hp Hl IH]; [split; reflexivity|]. destruct p; try contradiction. destruct Hp as [H1 H2].
    apply sz_ty in H1. apply sz_ty in H2. cbn [rmapM pre_entry map ototal fold_right]. unfold ser_bytes.
    destruct (ser_ty E rec a p1) as [o1|e|q]; cbn [rbind rmap sz] in *; destruct (size_ty E recZ a p1) as [n1|]; try contradiction; try reflexivity.
    destruct (ser_ty E rec b p2) as [o2|e|q]; cbn [rbind rmap sz] in *; destruct (size_ty E recZ b p2) as [n2|]; try contradiction; try reflexivity.
    destruct (rmapM (pre_entry (ser_ty E rec a) (ser_ty E rec b)) l) as [ps|e|q]; cbn [rbind oadd].
    - destruct IH as [IL IS]. unfold ototal in IS. rewrite IS. cbn [oadd flat_map fst snd]. rewrite !len_cons, !len_app. split; [lia|]. f_equal. lia.
    - unfold ototal in IH. rewrite IH. reflexivity.
    - unfold ototal in IH. rewrite IH. reflexivity. }
  destruct (rmapM (pre_entry (ser_ty E rec a) (ser_ty E rec b)) l) as [ps|e|q]; cbn [rbind].
  - destruct H as [HL ->]. apply rz_ser. cbn [oadd]. rewrite <- HL in *.
    assert (P : Permutation (ssort key_cmp ps) ps) by apply ssort_perm.
    rewrite <- (len_perm _ _ _ P) in Hn |- *.
    replace (len (flat_map (fun p => fst p ++ snd p) ps)) with (len (flat_map (fun p => fst p ++ snd p) (ssort key_cmp ps))).
    { apply map_size, Hn. }
    rewrite !flat_map_concat_map. apply concat_perm, Permutation_map, P.
  - rewrite H. exact I.
  - rewrite H. exact I.
Qed.

Lemma mode_plain : forall t v, ser_mode E rec MPlain t v = ser_ty E rec t v /\ size_mode E recZ MPlain t v = size_ty E recZ t v.
Proof. intros t v. destruct t, v; split; reflexivity. Qed.
Lemma sz_mode : forall m t v, is_idx m = false -> mode_ok m t = true -> wt_ty E recW t v -> sz (ser_mode E rec m t v) (size_mode E recZ m t v).
Proof.
  intros m t v Hi Hm Hw. destruct m; try discriminate.
  - destruct (mode_plain t v) as [-> ->]. apply sz_ty, Hw.
  - cbn [mode_ok] in Hm. assert (Hm' : match fixed_of t with Some _ => true | None => false end = true) by (destruct t; exact Hm).
    destruct (fixed_of t) as [[s w]|] eqn:Ef; [|discriminate].
    destruct (fixed_of_wt _ _ _ _ _ _ Ef Hw) as (z & -> & _).
    replace (ser_mode E rec MFixed t (VInt z)) with (sall (ser_fixed w z)) by (cbn [ser_mode]; rewrite Ef; destruct t; reflexivity).
    replace (size_mode E recZ MFixed t (VInt z)) with (Some (N.of_nat w)) by (cbn [size_mode]; rewrite Ef; destruct t; reflexivity).
    apply sz_all. apply le_bytes_len.
  - destruct t; try discriminate. cbn [mode_ok] in Hm. destruct v; try contradiction. cbn [ser_mode size_mode].
    destruct (bulk_of t) as [k|] eqn:Ek; [|discriminate]. destruct Hw as (Hf & Hv & Hl). eapply sz_bulk; eassumption.
Qed.
Lemma szi_mode : forall m t v, mode_ok m t = true -> wt_ty E recW t v -> szi (ser_mode E rec m t v) (size_mode E recZ m t v).
Proof.
  intros m t v Hm Hw. destruct (is_idx m) eqn:Ei; [|apply sz_szi, sz_mode; assumption].
  assert (HP : forall t' l, Forall (wt_ty E recW t') l -> tz (rmapM (fun x => ser_bytes (ser_ty E rec t' x)) l) (len l) (ototal (map (size_ty E recZ t') l))).
  { intros t' l Hl. apply tz_map. eapply Forall_impl; [|exact Hl]. intros x Hx. apply sz_szi, sz_ty, Hx. }
  destruct m; try discriminate.
  - destruct t; try discriminate. destruct v; try contradiction. destruct Hw as (Hf & Hl & _). cbn [ser_mode size_mode].
    assert (P : Permutation (citer E k (TMap k t1 t2) l) l) by (destruct k; [apply (we_iter _ W)|apply Permutation_refl]).
    rewrite <- (iter_total k (TMap k t1 t2)), <- (len_perm _ _ _ P). apply szi_map; [apply iter_all, Hl|]. rewrite (len_perm _ _ _ P). apply ub64, Hf.
  - destruct t; try discriminate; destruct v; try contradiction; cbn [ser_mode size_mode].
    + destruct Hw as (Hf & _ & Hl). apply (szi_seq _ _ _ (fun l => l)); [intros; apply Permutation_refl|apply ub64, Hf|apply HP, Hl].
    + destruct Hw as (Hf & Hl). apply (szi_seq _ _ _ (fun l => l)); [intros; apply Permutation_refl|apply ub64, Hf|apply HP, Hl].
  - destruct t; try discriminate; destruct v; try contradiction. destruct Hw as (Hf & Hl & _). cbn [ser_mode size_mode].
    assert (P : Permutation (citer E k (TSet k t) l) l) by (destruct k; [apply (we_iter _ W)|apply Permutation_refl]).
    rewrite <- (iter_total k (TSet k t)), <- (len_perm _ _ _ P). apply (szi_seq _ _ _ (ssort bcmp)); [intros; apply ssort_perm|rewrite (len_perm _ _ _ P); apply ub64, Hf|apply HP, iter_all, Hl].
Qed.

Lemma sz_fields : forall r fs vs, forallb field_ok fs = true -> wt_fields E recW r fs vs ->
  sz (sconcat (ser_fields E rec false r fs vs)) (size_fields E recZ mode_legacy (live r fs) vs).
Proof.
  intros r. unfold wt_fields, live. induction fs as [|f fs IH]; intros vs Hf Hw; cbn [ser_fields filter forallb size_fields] in *.
  - inversion Hw; subst. apply sz_nil.
  - apply andb_prop in Hf. destruct Hf as [Hf Hfs]. destruct (falive r f); [|auto].
    inversion Hw; subst. rewrite sconcat_cons. cbn [size_fields]. apply sz_bind; [|auto]. unfold field_ok in Hf. apply andb_prop in Hf.
    apply sz_mode; [|apply Hf|assumption]. unfold mode_of, mode_legacy. destruct (f_fixed f); [reflexivity|destruct (f_spec f); reflexivity].
Qed.
Lemma tz_step : forall s o l n m, szi s o -> tz (rmapM ser_bytes l) n m -> tz (rmapM ser_bytes (s :: l)) (n + 1) (oadd o m).
Proof.
  intros s o l n m Hs Hl. cbn [rmapM]. unfold szi, rz in Hs. destruct (ser_bytes s) as [b|e|p]; cbn [rbind].
  - destruct o as [k|]; [|contradiction]. destruct (rmapM ser_bytes l) as [bs|e|p]; cbn [rbind tz] in *.
    + destruct Hl as [<- ->]. cbn [oadd concat]. rewrite len_cons, len_app. split; [lia|]. f_equal. lia.
    + destruct m; cbn [oadd]; [lia|exact I].
    + destruct m; cbn [oadd]; [lia|exact I].
  - cbn [tz]. destruct o, m; cbn [oadd]; try exact I. lia.
  - cbn [tz]. destruct o, m; cbn [oadd]; try exact I. lia.
Qed.
Lemma tz_fields : forall r fs vs, forallb field_ok fs = true -> wt_fields E recW r fs vs ->
  tz (rmapM ser_bytes (ser_fields E rec true r fs vs)) (len (live r fs)) (size_fields E recZ mode_opt (live r fs) vs).
Proof.
  intros r. unfold wt_fields, live. induction fs as [|f fs IH]; intros vs Hf Hw; cbn [ser_fields filter forallb size_fields] in *.
  - inversion Hw; subst. split; reflexivity.
  - apply andb_prop in Hf. destruct Hf as [Hf Hfs]. destruct (falive r f); [|auto].
    inversion Hw; subst. cbn [size_fields]. rewrite len_cons, N.add_comm. apply tz_step; [|auto]. unfold field_ok in Hf. apply andb_prop in Hf.
    apply szi_mode; [apply Hf|assumption].
Qed.
(** The fields of an optimised variant: no tables. *)
Lemma tz_vfields : forall r fs vs, wt_fields E recW r fs vs ->
  match rmapM ser_bytes (ser_vfields E rec r fs vs) with
  | Ok bs => size_fields E recZ (fun _ => MPlain) (live r fs) vs = Some (len (concat bs))
  | _ => size_fields E recZ (fun _ => MPlain) (live r fs) vs = None
  end.
Proof.
  intros r. unfold wt_fields, live. induction fs as [|f fs IH]; intros vs Hw; cbn [ser_vfields filter size_fields] in *.
  - inversion Hw; subst. reflexivity.
  - destruct (falive r f); [|exact (IH vs Hw)]. inversion Hw as [|? v ? vs' Hv Hvs]; subst. specialize (IH _ Hvs). apply sz_ty in Hv.
    cbn [size_fields rmapM]. destruct (mode_plain (f_ty f) v) as [_ ->]. unfold ser_bytes at 1.
    destruct (ser_ty E rec (f_ty f) v) as [o|e|p]; cbn [rbind rmap sz] in *; destruct (size_ty E recZ (f_ty f) v) as [n|]; try contradiction; try reflexivity.
    destruct (rmapM ser_bytes (ser_vfields E rec r fs vs')) as [bs|e|p]; cbn [rbind]; rewrite IH; cbn [oadd concat]; [|reflexivity|reflexivity].
    rewrite len_app. f_equal. lia.
Qed.
Lemma sz_payload : forall (x : bytes) r n o, tz r n o -> forall c, (forall bs, r = Ok bs -> len (c bs ++ concat bs) = len x + len (concat bs)) ->
  sz (rbind r (fun bs => ser_payload (c bs ++ concat bs))) (oadd (Some 4) (upto32 (oadd (Some (len x)) o))).
Proof.
  intros x r n o H c Hc. destruct r as [bs|e|p]; cbn [rbind tz] in *.
  - destruct H as [<- ->]. specialize (Hc bs eq_refl). unfold ser_payload. rewrite Hc. cbn [oadd upto32].
    destruct (len x + len (concat bs) <? 2 ^ 32); cbn [oadd sz]; [|exact I].
    unfold out. cbn [flat_map wop_bytes]. rewrite app_nil_r, len_app, le_bytes_len, Hc. reflexivity.
  - destruct o as [m|]; [|exact I]. cbn [oadd upto32]. replace (len x + m <? 2 ^ 32) with false by lia. exact I.
  - destruct o as [m|]; [|exact I]. cbn [oadd upto32]. replace (len x + m <? 2 ^ 32) with false by lia. exact I.
Qed.

Lemma sz_derived : forall s v, wf_schema s -> wt_derived E recW s v -> sz (ser_derived E rec s v) (size_derived E recZ s v).
Proof.
  intros s v (H0 & H16 & Hb) Hw. unfold ser_derived, size_derived.
  destruct (sent_cur s H0) as (h & Hh). rewrite Hh. apply sz_bind; [apply sz_all, u16_len, H16|].
  unfold wt_derived in Hw. destruct (s_body s) as [fs|vs].
  - destruct v; try contradiction. cbn [ser_struct]. unfold size_struct. destruct (h_opt h); [|apply sz_fields; assumption].
    unfold ser_struct_opt. pose proof (tz_fields (scur s) fs l Hb Hw) as HT.
    assert (HC : exists x : bytes, len x = (if h_idx h then 4 * len (live (scur s) fs) else 0)).
    { exists (repeat 0 (N.to_nat (if h_idx h then 4 * len (live (scur s) fs) else 0))). unfold len. rewrite repeat_length. apply N2Nat.id. }
    destruct HC as (x & Hx). rewrite <- Hx. eapply (sz_payload x _ _ _ HT (fun bs => if h_idx h then struct_offsets (4 * len bs) bs else [])).
    intros bs Hbs. rewrite Hbs in HT. destruct HT as [HT _]. rewrite len_app. f_equal. rewrite Hx.
    destruct (h_idx h); [rewrite struct_offsets_len, HT; reflexivity|reflexivity].
  - destruct v; try contradiction. destruct Hw as (vr & Hin & Hk & Hal & Hw). destruct Hb as (Hn & Hfo & Hr).
    destruct (Hr _ _ Hh) as (ds & Hds & Hd & Hopt). cbn [ser_enum]. rewrite Hds.
    assert (Hi : In vr (map fst ds)) by (rewrite (calc_disc_fst _ _ _ Hds); apply filter_In; auto).
    apply in_map_iff in Hi. destruct Hi as ([vr0 d] & Hfst & Hi). cbn [fst] in Hfst. subst vr0.
    assert (Ef : find_name k ds = Some (vr, d)).
    { unfold find_name. apply find_some_uniq; [assumption|apply N.eqb_eq; assumption|].
      intros [vr1 d1] Hy Hyk. cbn [fst] in Hyk. apply N.eqb_eq in Hyk.
      assert (vr1 = vr).
      { assert (In vr1 (map fst ds)) by (apply in_map_iff; exists (vr1, d1); auto). rewrite (calc_disc_fst _ _ _ Hds) in H.
        apply filter_In in H. eapply NoDup_map_inj; [exact Hn|apply H|exact Hin|congruence]. }
      subst vr1. f_equal.
      assert (NoDup (map fst ds)).
      { rewrite (calc_disc_fst _ _ _ Hds). apply NoDup_filter. eapply NoDup_map_inv; exact Hn. }
      assert ((vr, d1) = (vr, d)) by (eapply (NoDup_map_inj _ _ fst); eauto). congruence. }
    unfold find_name in *. rewrite Ef. rewrite Forall_forall in Hfo. specialize (Hfo vr Hin). unfold size_enum.
    destruct (h_opt h).
    + specialize (Hopt eq_refl). rewrite forallb_forall in Hopt. specialize (Hopt _ Hi). unfold opt_variant_ok in Hopt. rewrite N.eqb_refl in Hopt. cbn [fst snd negb orb] in Hopt.
      apply andb_prop in Hopt. destruct Hopt as [Hd32 Hopt]. unfold ser_variant_opt, tag_new_checked. rewrite Hd32. cbn [negb]. rewrite andb_false_r.
      pose proof (tz_vfields (scur s) (v_fields vr) l Hw) as HT. cbv zeta.
      destruct (v_size vr) as [[|n|]|] eqn:Esz; [| | |discriminate].
      * cbn [rbind write_tag]. apply sz_all. reflexivity.
      * cbn [rbind write_tag]. destruct (rmapM ser_bytes (ser_vfields E rec (scur s) (v_fields vr) l)) as [bs|e|x]; rewrite HT; cbn [rbind]; [|exact I|exact I].
        destruct (e_dbg E && negb (len (concat bs) =? n)); [exact I|].
        change (Some (1 + len (concat bs))) with (oadd (Some 1) (Some (len (concat bs)))). apply sz_bind; [apply sz_all|apply sz_all]; reflexivity.
      * cbn [rbind write_tag]. unfold ser_payload.
        destruct (rmapM ser_bytes (ser_vfields E rec (scur s) (v_fields vr) l)) as [bs|e|x]; rewrite HT; cbn [rbind upto32]; [|exact I|exact I].
        destruct (len (concat bs) <? 2 ^ 32); [|exact I].
        replace (oadd (Some 5) (Some (len (concat bs)))) with (oadd (Some 1) (Some (4 + len (concat bs)))) by (cbn [oadd]; f_equal; lia).
        apply sz_bind; [apply sz_all; reflexivity|]. cbn [sz]. unfold out. cbn [flat_map wop_bytes]. rewrite app_nil_r, len_app, le_bytes_len. reflexivity.
    + rewrite Forall_forall in Hd. specialize (Hd _ Hi). cbn [snd] in Hd. apply sz_bind; [apply sz_all, u32_len, Hd|apply sz_fields; assumption].
Qed.
End Rec.

Lemma sz_ref : forall d n v, wt_ref E d n v -> sz (ser_ref E d n v) (size_ref E d n v).
Proof.
  induction d as [|d IH]; intros n v Hw; cbn [wt_ref] in Hw; [destruct Hw|]. cbn [ser_ref size_ref].
  destruct (e_sch E n) as [s|] eqn:Es; [|destruct Hw]. apply (sz_derived _ (wt_ref E d)); [exact IH|exact (we_sch _ W n s Es)|exact Hw].
Qed.
Lemma sz_writer : forall d t v, wt E d t v -> sz (to_writer E d t v) (wire_size E d t v).
Proof. intros d t v Hw. apply (sz_ty _ (wt_ref E d)); [apply sz_ref|exact Hw]. Qed.
End S.
