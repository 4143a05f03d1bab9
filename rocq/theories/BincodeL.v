(** Encodings are bincode's.  Proofs. *)

From Verif Require Import Base BaseL Prog ProgL Prim PrimL Utf8 Utf8L Tag Ty Ser De Typed Mig SortL DiscL RtL RtTy RtDer RtSch RtId IntL Spec Bincode.
From Coq Require Import List NArith ZArith Bool Lia ZifyBool Permutation Sorted.
Import ListNotations.
Open Scope N_scope.

Lemma varint64 : forall n, n < 2 ^ 64 -> encode_u64 n = bin_varint n.
Proof.
  intros n H. unfold encode_u64, bin_varint.
  destruct (n <? 251) eqn:E1; [replace (n <=? 250) with true by lia; reflexivity|replace (n <=? 250) with false by lia].
  destruct (n <? 2 ^ 16) eqn:E2; [replace (n <=? 65535) with true by lia; reflexivity|replace (n <=? 65535) with false by lia].
  destruct (n <? 2 ^ 32) eqn:E3; [replace (n <=? 4294967295) with true by lia; reflexivity|replace (n <=? 4294967295) with false by lia].
  replace (n <=? 18446744073709551615) with true by lia. reflexivity.
Qed.
Lemma varint128 : forall n, encode_u128 n = bin_varint n.
Proof.
  intros n. unfold encode_u128, bin_varint.
  destruct (n <? 251) eqn:E1; [replace (n <=? 250) with true by lia; reflexivity|replace (n <=? 250) with false by lia].
  destruct (n <? 2 ^ 16) eqn:E2; [replace (n <=? 65535) with true by lia; reflexivity|replace (n <=? 65535) with false by lia].
  destruct (n <? 2 ^ 32) eqn:E3; [replace (n <=? 4294967295) with true by lia; reflexivity|replace (n <=? 4294967295) with false by lia].
  destruct (n <? 2 ^ 64) eqn:E4; [replace (n <=? 18446744073709551615) with true by lia; reflexivity|replace (n <=? 18446744073709551615) with false by lia]. reflexivity.
Qed.
Lemma zig : forall z, zz z = bin_zigzag z.
Proof. intros z. unfold zz, bin_zigzag. destruct (0 <=? z)%Z; reflexivity. Qed.
Lemma fixed_nat : forall w n, n < 2 ^ w -> bin_fixed w (Z.of_N n) = le_bytes (N.to_nat (w / 8)) n.
Proof. intros w n H. unfold bin_fixed. rewrite Z.mod_small; [rewrite N2Z.id; reflexivity|]. rewrite <- (N2Z.inj_pow 2). lia. Qed.

Section S.
Variable E : env.
Variable same : N -> bool.
Hypothesis W : wf_env E.
Notation bin := (bincode (e_fw E)).

Lemma pow_le64 : forall n, n < 2 ^ e_ub E -> n < 2 ^ 64.
Proof. intros n H. assert (2 ^ e_ub E <= 2 ^ 64) by (apply N.pow_le_mono_r; [discriminate|destruct (we_ub _ W) as [-> | ->]; discriminate]). lia. Qed.

Lemma uint_bin : forall w x, w = 16 \/ w = 32 \/ w = 64 -> x < 2 ^ w -> (if e_fw E then le_bytes (N.to_nat (w / 8)) x else encode_u64 x) = bin_uint (e_fw E) w x.
Proof.
  intros w x Hw H. unfold bin_uint. replace (w =? 8) with false by (destruct Hw as [->|[->| ->]]; reflexivity). cbn [orb].
  destruct (e_fw E); [symmetry; apply fixed_nat, H|]. apply varint64.
  assert (2 ^ w <= 2 ^ 64) by (apply N.pow_le_mono_r; [discriminate|destruct Hw as [->|[->| ->]]; discriminate]). lia.
Qed.
Lemma len_bin : forall n, n < 2 ^ e_ub E -> ser_len E n = bin_uint (e_fw E) 64 n.
Proof. intros n H. unfold ser_len, ser_usize, ser_u64. rewrite <- uint_bin; [reflexivity|auto|apply pow_le64, H]. Qed.
Lemma int_bin : forall i z, bin_int E i = true -> in_ity (e_ub E) i z -> ser_int (e_fw E) i z = bin (serde_int i z).
Proof.
  intros i z Hb Hz. unfold in_ity in Hz.
  assert (SU : forall w, w = 16 \/ w = 32 \/ w = 64 -> inU w z -> (if e_fw E then le_bytes (N.to_nat (w / 8)) (Z.to_N z) else encode_u64 (Z.to_N z)) = bin_uint (e_fw E) w (Z.to_N z)).
  { intros w Hw H. apply uint_bin; [exact Hw|]. apply inU_N in H. apply H. }
  assert (SS : forall w, 16 <= w <= 64 -> e_fw E = false -> inS w z -> encode_u64 (zigzag 64 z) = bin_sint (e_fw E) w z).
  { intros w Hw Hf H. assert (H64 : inS 64 z) by (eapply inS_mono; [| |exact H]; lia).
    unfold bin_sint. rewrite Hf. replace (w =? 8) with false by lia. cbn [orb]. rewrite zigzag_zz by (lia || assumption).
    rewrite <- zig. apply varint64, zz_bound; [lia|assumption]. }
  unfold bin_int in Hb. destruct i; cbn [ity_signed ity_bits] in Hz; cbn [ser_int serde_int bincode].
  - apply inU_N in Hz. destruct Hz as [Hz _]. unfold bin_uint. cbn [orb N.eqb Pos.eqb]. rewrite fixed_nat by exact Hz. unfold ser_u8. cbn [N.div N.to_nat].
    change (N.to_nat (8 / 8)) with 1%nat. cbn [le_bytes]. rewrite N.mod_small by exact Hz. reflexivity.
  - unfold bin_sint. cbn [orb N.eqb Pos.eqb]. unfold bin_fixed, ser_i8. change (N.to_nat (8 / 8)) with 1%nat. cbn [le_bytes].
    fold (wrapZ 8 z). pose proof (wrapZ_bound 8 z) as Hw. rewrite N.mod_small by exact Hw. reflexivity.
  - exact (SU 16 (or_introl eq_refl) Hz).
  - rewrite orb_false_r in Hb. apply negb_true_iff in Hb. unfold ser_i16. rewrite Hb. rewrite <- Hb. apply SS; [lia|exact Hb|exact Hz].
  - exact (SU 32 (or_intror (or_introl eq_refl)) Hz).
  - rewrite orb_false_r in Hb. apply negb_true_iff in Hb. unfold ser_i32. rewrite Hb. rewrite <- Hb. apply SS; [lia|exact Hb|exact Hz].
  - exact (SU 64 (or_intror (or_intror eq_refl)) Hz).
  - rewrite orb_false_r in Hb. apply negb_true_iff in Hb. unfold ser_i64. rewrite Hb. rewrite <- Hb. apply SS; [lia|exact Hb|exact Hz].
  - apply inU_N in Hz. destruct Hz as [Hz _]. unfold ser_u128, bin_uint. cbn [orb N.eqb Pos.eqb]. destruct (e_fw E); [symmetry; apply fixed_nat, Hz|apply varint128].
  - rewrite orb_false_r in Hb. apply negb_true_iff in Hb. unfold ser_i128, bin_sint. rewrite Hb. cbn [orb N.eqb Pos.eqb].
    rewrite zigzag_zz by (lia || assumption). rewrite <- zig. apply varint128.
  - unfold ser_usize. assert (H : inU 64 z).
    { destruct Hz as [H1 H2]. split; [exact H1|]. assert (2 ^ Z.of_N (e_ub E) <= 2 ^ 64)%Z by (apply Z.pow_le_mono_r; [lia|destruct (we_ub _ W) as [-> | ->]; lia]). lia. }
    exact (SU 64 (or_intror (or_intror eq_refl)) H).
  - rewrite orb_false_r in Hb. apply negb_true_iff in Hb. unfold ser_isize, ser_i64. rewrite Hb. rewrite <- Hb. apply SS; [lia|exact Hb|].
    eapply inS_mono; [| |exact Hz]; destruct (we_ub _ W) as [-> | ->]; lia.
Qed.
Lemma u32_bin : forall n, n < 2 ^ 32 -> ser_u32 (e_fw E) n = bin_uint (e_fw E) 32 n.
Proof. intros n H. unfold ser_u32. rewrite <- uint_bin; [reflexivity|auto|exact H]. Qed.
Lemma u16_bin : forall n, n < 2 ^ 16 -> ser_u16 (e_fw E) n = bin_uint (e_fw E) 16 n.
Proof. intros n H. unfold ser_u16. rewrite <- uint_bin; [reflexivity|auto|exact H]. Qed.

(** Writes what bincode writes for the datum, and fails if there is none. *)
Definition bz (s : ser) (o : option data) : Prop :=
  match s, o with Ok ops, Some x => out ops = bin x | Ok _, None => False | _, Some _ => False | _, None => True end.
Definition bzs (s : ser) (o : option (list data)) : Prop :=
  match s, o with Ok ops, Some l => out ops = flat_map bin l | Ok _, None => False | _, Some _ => False | _, None => True end.
Lemma bz_all : forall b x, b = bin x -> bz (sall b) (Some x).
Proof. intros b x H. cbn. rewrite app_nil_r. exact H. Qed.
Lemma bz_list : forall A (f : A -> ser) g l, Forall (fun x => bz (f x) (g x)) l -> bzs (sconcat (map f l)) (oall (map g l)).
Proof.
  intros A f g l H. induction H as [|x l Hx Hl IH]; [reflexivity|]. cbn [map oall]. rewrite sconcat_cons.
  destruct (f x) as [a|e|p], (g x) as [y|]; cbn [bz] in Hx; try contradiction; try exact I;
    destruct (sconcat (map f l)) as [b|e'|p'], (oall (map g l)) as [r|]; cbn [bzs sbind] in *; try contradiction; try exact I.
  rewrite out_app. cbn [flat_map]. rewrite Hx, IH. reflexivity.
Qed.
(** A prefix and the pieces. *)
Lemma bz_pre : forall b s o (f : list data -> data), bzs s o -> (forall l, o = Some l -> bin (f l) = b ++ flat_map bin l) -> bz (sall b +++ s) (omap f o).
Proof.
  intros b [ops|e|p] [l|] f H Hf; cbn in *; try contradiction; auto.
  unfold out. cbn [flat_map wop_bytes]. fold (out ops). rewrite (Hf l eq_refl), H. reflexivity.
Qed.
Lemma bz_pre1 : forall b s o (f : data -> data), bz s o -> (forall x, bin (f x) = b ++ bin x) -> bz (sall b +++ s) (omap f o).
Proof.
  intros b [ops|e|p] [l|] f H Hf; cbn in *; try contradiction; auto.
  unfold out. cbn [flat_map wop_bytes]. fold (out ops). rewrite Hf, H. reflexivity.
Qed.

Lemma oall_len : forall A B (g : A -> option B) l r, oall (map g l) = Some r -> len r = len l.
Proof.
  intros A B g. induction l as [|x l IH]; intros r H; cbn [map oall] in H; [inversion H; reflexivity|].
  destruct (g x); [|discriminate]. destruct (oall (map g l)) as [r'|]; [|discriminate]. inversion H; subst. rewrite !len_cons, (IH r' eq_refl). reflexivity.
Qed.
Lemma bz_counted : forall A (f : A -> ser) g l, len l < 2 ^ e_ub E -> Forall (fun x => bz (f x) (g x)) l ->
  bz (Ok [WAll (ser_len E (len l))] +++ sconcat (map f l)) (omap DSeq (oall (map g l))).
Proof.
  intros A f g l Hn Hl. apply bz_pre; [apply bz_list, Hl|]. intros r Hr. cbn [bincode]. rewrite (oall_len _ _ _ _ _ Hr), len_bin by exact Hn. reflexivity.
Qed.

(** Vectors in bulk form. *)
Lemma bulk_elem : forall recW rec t s w v, bin_bulk E t = true -> bulk_of t = Some (BFix s w) -> wt_ty E recW t v ->
  exists z x, v = VInt z /\ serde_ty E rec t v = Some x /\ bin x = ser_fixed w z.
Proof.
  intros recW rec t s w v Hb Hk Hw.
  assert (F : forall w z, bin_fixed (8 * N.of_nat w) z = ser_fixed w z).
  { intros w' z. unfold bin_fixed, ser_fixed, wrapZ. rewrite N.mul_comm, N.div_mul, Nat2N.id by discriminate. reflexivity. }
  assert (U : forall w z, inU (8 * N.of_nat w) z -> bin_fixed (8 * N.of_nat w) (Z.of_N (Z.to_N z)) = ser_fixed w z).
  { intros w' z H. destruct H as [H _]. rewrite Z2N.id by exact H. apply F. }
  assert (O : forall a, a || true = true) by (intros []; reflexivity).
  destruct t as [|i| | | | | | | | | | | | | | | | | | | | | | | |]; try discriminate; cbn [wt_ty] in Hw; destruct v; try contradiction.
  - exists z, (serde_int i z). split; [reflexivity|]. split; [reflexivity|]. unfold in_ity in Hw.
    destruct i; cbn [bulk_of] in Hk; try discriminate; inversion Hk; subst s w; cbn [bin_bulk] in Hb; cbn [ity_signed ity_bits] in Hw; cbn [serde_int bincode]; unfold bin_uint, bin_sint; rewrite ?Hb, ?O; cbn [orb N.eqb Pos.eqb];
      [exact (U 1%nat z Hw)|exact (F 1%nat z)|exact (U 2%nat z Hw)|exact (F 2%nat z)|exact (U 4%nat z Hw)|exact (F 4%nat z)|exact (U 8%nat z Hw)|exact (F 8%nat z)|exact (U 16%nat z Hw)|exact (F 16%nat z)].
  - exists z, (DFloat 32 (Z.to_N z)). cbn [bulk_of] in Hk. inversion Hk; subst. split; [reflexivity|]. split; [reflexivity|]. exact (U 4%nat z Hw).
  - exists z, (DFloat 64 (Z.to_N z)). cbn [bulk_of] in Hk. inversion Hk; subst. split; [reflexivity|]. split; [reflexivity|]. exact (U 8%nat z Hw).
Qed.
Lemma bz_bulk : forall recW rec t k l, bin_bulk E t = true -> bulk_of t = Some k -> fits E (len l) -> Forall (wt_ty E recW t) l ->
  bz (ser_bulk E k l) (omap DSeq (oall (map (serde_ty E rec t) l))).
Proof.
  intros recW rec t k l Hb Hk Hf Hl. assert (Hk' : exists s w, k = BFix s w).
  { destruct t as [|[]| | | | | | | | | | | | | | | | | | | | | | | |]; cbn in Hb, Hk; try discriminate; inversion Hk; eauto. }
  destruct Hk' as (s & w & ->). unfold ser_bulk. cbv zeta.
  assert (HS : exists zs xs, rmapM as_int l = Ok zs /\ oall (map (serde_ty E rec t) l) = Some xs /\ flat_map bin xs = flat_map (ser_fixed w) zs).
  { clear Hf. induction Hl as [|v l Hv Hl (zs & xs & H1 & H2 & H3)]; [exists [], []; auto|].
    destruct (bulk_elem recW rec t s w v Hb Hk Hv) as (z & x & -> & Hx & Hbx). exists (z :: zs), (x :: xs). cbn [rmapM as_int map oall]. rewrite H1, Hx, H2.
    split; [reflexivity|]. split; [reflexivity|]. cbn [flat_map]. rewrite H3, Hbx. reflexivity. }
  destruct HS as (zs & xs & H1 & H2 & H3). apply bz_pre.
  - rewrite H1, H2. cbn [rbind]. destruct (len l =? 0) eqn:E0.
    + destruct l; [|rewrite len_cons in E0; lia]. cbn in H1, H2. inversion H1; inversion H2; subst. reflexivity.
    + cbn [bzs sall]. unfold out. cbn [flat_map wop_bytes]. rewrite app_nil_r. symmetry. exact H3.
  - intros r Hr. cbn [bincode]. rewrite (oall_len _ _ _ _ _ Hr), len_bin by exact Hf. reflexivity.
Qed.

Section Rec.
Variables (rec : N -> val -> ser) (recW : N -> val -> Prop) (recB : N -> val -> option data).
Hypothesis Hrec : forall n v, recW n v -> bz (rec n v) (recB n v).

Lemma iter_len : forall k t l, len (citer E k t l) = len l.
Proof. intros k t l. unfold len. f_equal. destruct k; [apply Permutation_length, (we_iter _ W)|reflexivity]. Qed.
Lemma iter_wt : forall k t (R : val -> Prop) l, Forall R l -> Forall R (citer E k t l).
Proof.
  intros k t R l H. rewrite Forall_forall in *. intros x Hx. apply H.
  destruct k; cbn in Hx; [|exact Hx]. eapply Permutation_in; [apply (we_iter _ W)|exact Hx].
Qed.
Lemma bz_blob : forall b x, fits E (len b) -> bin x = bin_uint (e_fw E) 64 (len b) ++ b -> bz (ser_blob E b) (Some x).
Proof. intros b x H Hx. cbn. rewrite app_nil_r, len_bin by exact H. symmetry. exact Hx. Qed.

Lemma bz_ty : forall t v, bin_ty E same t = true -> wt_ty E recW t v -> bz (ser_ty E rec t v) (serde_ty E recB t v).
Proof.
  assert (HX : forall t k t0 l, (forall v, wt_ty E recW t v -> bz (ser_ty E rec t v) (serde_ty E recB t v)) -> Forall (wt_ty E recW t) l -> fits E (len l) ->
    bz (Ok [WAll (ser_len E (len l))] +++ sconcat (map (ser_ty E rec t) (citer E k t0 l))) (omap DSeq (oall (map (serde_ty E recB t) (citer E k t0 l))))).
  { intros t k t0 l IH Hl Hf. rewrite <- (iter_len k t0 l) in Hf |- *. apply bz_counted; [exact Hf|]. eapply Forall_impl; [|apply iter_wt, Hl]. exact IH. }
  assert (HD : forall s n, inU 64 s -> (0 <= n < 1000000000)%Z ->
    bz (sall (ser_int (e_fw E) U64 s) +++ sall (ser_int (e_fw E) U32 n)) (Some (DTuple [DUint 64 (Z.to_N s); DUint 32 (Z.to_N n)]))).
  { intros s n H1 H2. cbn. rewrite !app_nil_r. f_equal.
    - apply (int_bin U64); [unfold bin_int; destruct (e_fw E); reflexivity|exact H1].
    - apply (int_bin U32); [unfold bin_int; destruct (e_fw E); reflexivity|unfold in_ity, inU; cbn [ity_signed ity_bits]; lia]. }
  induction t as [|i| | | | | | | | | |a IHa b IHb|t IH|t IH|n t IH|t IH|a IHa b IHb|t IH|k a IHa b IHb|k t IH|t IH|t IH| | |c m t IH|n];
    intros v HB Hw; try discriminate HB; cbn [bin_ty] in HB; try (destruct v; cbn [wt_ty] in Hw; try contradiction); cbn [ser_ty serde_ty].
  - reflexivity.
  - apply bz_all, int_bin; assumption.
  - apply bz_all. cbn [bincode]. apply inU_N in Hw. destruct Hw as [Hw _]. rewrite fixed_nat by exact Hw. reflexivity.
  - apply bz_all. cbn [bincode]. apply inU_N in Hw. destruct Hw as [Hw _]. rewrite fixed_nat by exact Hw. reflexivity.
  - apply bz_all. reflexivity.
  - apply bz_blob; [apply Hw|reflexivity].
  - destruct (utf8_ok b); [apply bz_blob; [apply Hw|reflexivity]|exact I].
  - apply bz_blob; [apply Hw|reflexivity].
  - reflexivity.
  - apply andb_prop in HB. destruct HB as [HB1 HB2], Hw as [H1 H2]. specialize (IHa _ HB1 H1). specialize (IHb _ HB2 H2).
    destruct (ser_ty E rec a v1) as [o1|e|p], (serde_ty E recB a v1) as [x1|]; cbn [bz] in IHa; try contradiction; try exact I;
    destruct (ser_ty E rec b v2) as [o2|e'|p'], (serde_ty E recB b v2) as [x2|]; cbn [bz sbind] in *; try contradiction; try exact I.
    rewrite out_app. cbn [bincode flat_map]. rewrite app_nil_r. congruence.
  - destruct Hw as (Hf & Hv & Hl). destruct (bulk_of t) as [k|] eqn:Ek.
    + destruct (e_spec E).
      * eapply bz_bulk; [exact HB|exact Ek|exact Hf|exact Hl].
      * apply (HX t KOrd TUnit l); auto.
    + replace (if e_spec E then None else None) with (@None bk) by (destruct (e_spec E); reflexivity). apply (HX t KOrd TUnit l); auto.
  - destruct Hw as (Hf & Hl). apply (HX t KOrd TUnit l); auto.
  - destruct Hw as (Hf & Hl). apply Nat.eqb_eq in Hf. rewrite Hf.
    assert (HL : bzs (sconcat (map (ser_ty E rec t) l)) (oall (map (serde_ty E recB t) l))).
    { apply bz_list. eapply Forall_impl; [|exact Hl]. auto. }
    destruct (sconcat (map (ser_ty E rec t) l)), (oall (map (serde_ty E recB t) l)); cbn in *; auto.
  - destruct k as [|[p|p|]]; try contradiction; destruct l as [|x [|y l]]; try contradiction.
    + apply bz_all. reflexivity.
    + apply bz_pre1; [apply IH; assumption|]. reflexivity.
  - apply andb_prop in HB. destruct HB as [HB1 HB2].
    destruct k as [|[p|p|]]; try contradiction; destruct l as [|x [|y l]]; try contradiction;
      (apply bz_pre1; [auto|]; intros d; cbn [bincode flat_map]; rewrite app_nil_r, u32_bin by reflexivity; reflexivity).
  - destruct k as [|[p|[p|p|]|]]; try contradiction; destruct l as [|x [|y l]]; try contradiction;
      try (apply bz_pre1; [auto|]; intros d; cbn [bincode flat_map]; rewrite app_nil_r, u32_bin by reflexivity; reflexivity).
    apply bz_all. cbn [bincode flat_map]. rewrite app_nil_r. apply u32_bin. reflexivity.
  - apply andb_prop in HB. destruct HB as [HB1 HB2]. destruct Hw as (Hf & Hl & _).
    change (serde_order E k (TMap k a b) l) with (citer E k (TMap k a b) l).
    rewrite <- (iter_len k (TMap k a b) l) in Hf |- *. apply (iter_wt k (TMap k a b)) in Hl. revert Hf Hl. generalize (citer E k (TMap k a b) l). clear l. intros l Hf Hl.
    set (g := fun p => match p with VPair x y => _ | _ => None end).
    assert (HL : match sconcat (map (ser_entry (ser_ty E rec a) (ser_ty E rec b)) l), oall (map g l) with
                 | Ok ops, Some r => out ops = flat_map (fun p => match p with (k, v) => bin k ++ bin v end) r | Ok _, None => False | _, Some _ => False | _, None => True end).
    { clear Hf. induction Hl as [|p l Hp Hl IHl]; [reflexivity|]. destruct p; try contradiction. destruct Hp as [H1 H2].
      specialize (IHa _ HB1 H1). specialize (IHb _ HB2 H2). cbn [map oall]. rewrite sconcat_cons. cbn [ser_entry g].
      destruct (ser_ty E rec a p1) as [o1|e|p], (serde_ty E recB a p1) as [x1|]; cbn [bz] in IHa; try contradiction; try exact I;
      destruct (ser_ty E rec b p2) as [o2|e'|p'], (serde_ty E recB b p2) as [x2|]; cbn [bz sbind] in *; try contradiction; try exact I.
      destruct (sconcat (map (ser_entry (ser_ty E rec a) (ser_ty E rec b)) l)) as [o3|e|p], (oall (map g l)) as [r|]; cbn [sbind] in *; try contradiction; try exact I.
      rewrite !out_app. cbn [flat_map]. rewrite IHa, IHb, IHl. reflexivity. }
    pose proof (oall_len _ _ g l) as HN.
    destruct (sconcat (map (ser_entry (ser_ty E rec a) (ser_ty E rec b)) l)) as [o3|e|p], (oall (map g l)) as [r|]; cbn [sbind omap bz] in *; try contradiction; try exact I.
    unfold out. cbn [flat_map wop_bytes app]. fold (out o3). cbn [bincode]. rewrite (HN r eq_refl), HL, len_bin by exact Hf. reflexivity.
  - destruct Hw as (Hf & Hl & _). apply (HX t k (TSet k t) l); auto.
  - destruct Hw as (Hf & Hl & _). apply (HX t KHash (THeap t) l); auto.
  - apply IH; assumption.
  - apply IH; assumption.
  - apply IH; assumption.
  - apply IH; assumption.
  - apply IH; assumption.
  - apply IH; assumption.
  - apply IH; assumption.
  - destruct v1; try contradiction. destruct v2; try contradiction. destruct Hw as [H1 H2]. apply HD; assumption.
  - destruct v1; try contradiction. destruct v2; try contradiction. destruct Hw as [H1 H2].
    destruct (z <? 0)%Z eqn:Ez; [exact I|]. pose proof (we_time _ W). apply HD; [unfold inU; lia|assumption].
  - apply andb_prop in HB. apply IH; [apply HB|apply Hw].
  - apply andb_prop in HB. apply IH; [apply HB|apply Hw].
  - apply andb_prop in HB. apply IH; [apply HB|apply Hw].
  - apply andb_prop in HB. apply IH; [apply HB|apply Hw].
  - apply andb_prop in HB. apply IH; [apply HB|apply Hw].
  - apply andb_prop in HB. apply IH; [apply HB|apply Hw].
  - apply andb_prop in HB. apply IH; [apply HB|apply Hw].
  - apply Hrec, Hw.
  - apply Hrec, Hw.
  - apply Hrec, Hw.
  - apply Hrec, Hw.
  - apply Hrec, Hw.
  - apply Hrec, Hw.
  - apply Hrec, Hw.
Qed.

Lemma bz_fields : forall r fs vs, bin_fields E same r fs = true -> wt_fields E recW r fs vs ->
  bzs (sconcat (ser_fields E rec false r fs vs)) (oall (serde_fields E recB (filter (falive r) fs) vs)).
Proof.
  intros r. unfold wt_fields, bin_fields. induction fs as [|f fs IH]; intros vs Hf Hw; cbn [ser_fields filter] in *.
  - inversion Hw; subst. reflexivity.
  - destruct (falive r f); [|auto]. cbn [forallb] in Hf. apply andb_prop in Hf. destruct Hf as [Hf Hfs].
    apply andb_prop in Hf. destruct Hf as [Hf Hsp]. apply andb_prop in Hf. destruct Hf as [Ht Hfx].
    inversion Hw as [|? v ? vs' Hv Hvs]; subst. specialize (IH _ Hfs Hvs). rewrite sconcat_cons. cbn [serde_fields oall].
    replace (ser_mode E rec (mode_of false f) (f_ty f) v) with (ser_ty E rec (f_ty f) v).
    2: { unfold mode_of, mode_legacy. apply negb_true_iff in Hfx, Hsp. rewrite Hfx, Hsp. destruct (f_ty f), v; reflexivity. }
    pose proof (bz_ty (f_ty f) v Ht Hv) as HT.
    destruct (ser_ty E rec (f_ty f) v) as [o1|e|p], (serde_ty E recB (f_ty f) v) as [x1|]; cbn [bz] in HT; try contradiction; try exact I;
      destruct (sconcat (ser_fields E rec false r fs vs')) as [o2|e'|p'], (oall (serde_fields E recB (filter (falive r) fs) vs')) as [x2|]; cbn [bzs sbind] in *; try contradiction; try exact I.
    rewrite out_app. cbn [flat_map]. congruence.
Qed.

Lemma bz_derived : forall s v, wf_schema s -> (forall h, sent s (scur s) = Some h -> h_opt h = false) ->
  match s_body s with
  | SStruct fs => bin_fields E same (scur s) fs = true
  | SEnum vs => Forall (fun vr => bin_fields E same (scur s) (v_fields vr) = true) vs
  end -> wt_derived E recW s v -> bz (ser_derived E rec s v) (serde_derived E recB s v).
Proof.
  intros s v (H0 & H16 & Hb) HO HB Hw. unfold ser_derived, serde_derived. cbv zeta.
  destruct (sent_cur s H0) as (h & Hh). rewrite Hh. specialize (HO h Hh).
  unfold wt_derived in Hw. destruct (s_body s) as [fs|vs].
  - destruct v; try contradiction. cbn [ser_struct]. rewrite HO. apply bz_pre; [apply bz_fields; assumption|].
    intros x Hx. cbn [bincode flat_map]. rewrite u16_bin by exact H16. reflexivity.
  - destruct v; try contradiction. destruct Hw as (vr & Hin & Hk & Hal & Hw). destruct Hb as (Hn & Hfo & Hr).
    destruct (Hr _ _ Hh) as (ds & Hds & Hd & Hopt). cbn [ser_enum]. rewrite Hds.
    assert (Hi : In vr (map fst ds)) by (rewrite (calc_disc_fst _ _ _ Hds); apply filter_In; auto).
    apply in_map_iff in Hi. destruct Hi as ([vr0 d] & Hfst & Hi). cbn [fst] in Hfst. subst vr0.
    assert (Ef : find_name k ds = Some (vr, d)).
    { unfold find_name. apply find_some_uniq; [assumption|apply N.eqb_eq; assumption|].
      intros [vr1 d1] Hy Hyk. cbn [fst] in Hyk. apply N.eqb_eq in Hyk.
      assert (vr1 = vr).
      { assert (In vr1 (map fst ds)) by (apply in_map_iff; exists (vr1, d1); auto). rewrite (calc_disc_fst _ _ _ Hds) in H.
        apply filter_In in H. eapply NoDup_map_inj; [exact Hn|apply H|exact Hin|congruence]. }
      subst vr1. f_equal.
      assert (NoDup (map fst ds)).
      { rewrite (calc_disc_fst _ _ _ Hds). apply NoDup_filter. eapply NoDup_map_inv; exact Hn. }
      assert ((vr, d1) = (vr, d)) by (eapply (NoDup_map_inj _ _ fst); eauto). congruence. }
    unfold find_name in *. rewrite Ef, HO. rewrite Forall_forall in HB, Hd. specialize (HB vr Hin). specialize (Hd _ Hi). cbn [snd] in Hd.
    pose proof (bz_fields (scur s) (v_fields vr) l HB Hw) as HF.
    destruct (sconcat (ser_fields E rec false (scur s) (v_fields vr) l)) as [o1|e|p], (oall (serde_fields E recB (filter (falive (scur s)) (v_fields vr)) l)) as [x1|]; cbn [bzs] in HF; try contradiction; try exact I.
    cbn [sbind sall omap bz app]. unfold out. cbn [flat_map wop_bytes]. fold (out o1). cbn [bincode flat_map]. rewrite HF, app_nil_r, u16_bin, u32_bin by assumption. reflexivity.
Qed.
End Rec.

Hypothesis HT : bin_types E same.
Lemma bz_ref : forall d n v, wt_ref E d n v -> bz (ser_ref E d n v) (serde_ref E d n v).
Proof.
  induction d as [|d IH]; intros n v Hw; cbn [wt_ref] in Hw; [destruct Hw|]. cbn [ser_ref serde_ref].
  destruct (e_sch E n) as [s|] eqn:Es; [|destruct Hw]. destruct (HT n s Es) as [H1 H2].
  apply (bz_derived _ (wt_ref E d)); [exact IH|exact (we_sch _ W n s Es)|exact H1|exact H2|exact Hw].
Qed.
Lemma bz_writer : forall d t v, bin_ty E same t = true -> wt E d t v -> bz (to_writer E d t v) (serde E d t v).
Proof. intros d t v Hb Hw. apply (bz_ty _ (wt_ref E d)); [apply bz_ref|exact Hb|exact Hw]. Qed.
End S.
