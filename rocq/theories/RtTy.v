(** Decoding what was encoded: built-in types and field modes.  Proofs. *)

From Verif Require Import Base BaseL Prog ProgL Prim PrimL Utf8 Utf8L Tag Ty Ser De Typed Mig SortL RtL.
From Coq Require Import List NArith ZArith Bool Lia ZifyBool Permutation Sorted.
Import ListNotations.
Open Scope N_scope.

Lemma fixed_val_ser : forall (s : bool) w z, (0 < w)%nat ->
  (if s then inS (8 * N.of_nat w) z else inU (8 * N.of_nat w) z) -> fixed_val s w (ser_fixed w z) = z.
Proof.
  intros s w z Hw H. unfold fixed_val, ser_fixed.
  rewrite le_val_bytes.
  2: { replace (256 ^ N.of_nat w) with (2 ^ (8 * N.of_nat w)); [apply wrapZ_bound|].
       change 256 with (2 ^ 8). rewrite <- N.pow_mul_r. reflexivity. }
  destruct s.
  - apply signZ_wrapZ; [lia|assumption].
  - rewrite wrapZ_unsigned by assumption. unfold inU in H. lia.
Qed.

Definition fix_range (s : bool) (w : nat) (z : Z) : Prop :=
  (0 < w)%nat /\ if s then inS (8 * N.of_nat w) z else inU (8 * N.of_nat w) z.

Lemma bulk_fix_wt : forall E recW t s w v, bulk_of t = Some (BFix s w) -> wt_ty E recW t v ->
  exists z, v = VInt z /\ fix_range s w z.
Proof.
  intros E recW t s w v H Hw. unfold fix_range.
  destruct t as [|i| | | | | | | | | | | | | | | | | | | | | | | |]; cbn in H; try discriminate.
  - destruct i; inversion H; subst; destruct v; cbn in Hw; try contradiction; (eexists; split; [reflexivity|]; split; [lia|exact Hw]).
  - inversion H; subst; destruct v; cbn in Hw; try contradiction. eexists; split; [reflexivity|]; split; [lia|exact Hw].
  - inversion H; subst; destruct v; cbn in Hw; try contradiction. eexists; split; [reflexivity|]; split; [lia|exact Hw].
Qed.
Lemma fixed_of_wt : forall E recW t s w v, fixed_of t = Some (s, w) -> wt_ty E recW t v ->
  exists z, v = VInt z /\ fix_range s w z.
Proof.
  intros E recW t s w v H Hw. unfold fix_range.
  destruct t as [|i| | | | | | | | | | | | | | | | | | | | | | | |]; cbn in H; try discriminate.
  destruct i; inversion H; subst; destruct v; cbn in Hw; try contradiction; (eexists; split; [reflexivity|]; split; [lia|exact Hw]).
Qed.

Section Pair.
Variables E E' : env.
Hypothesis Hfw : e_fw E' = e_fw E.
Hypothesis Hspec : e_spec E' = e_spec E.
Hypothesis Hub : e_ub E' = e_ub E.
Hypothesis Hub32 : e_ub E = 32 \/ e_ub E = 64.
Hypothesis Hmem : e_mem E' = None.
Hypothesis Hiter : forall t l, Permutation (e_iter E t l) l.
Hypothesis Htime : (e_time E < 2 ^ 64)%Z.

Lemma ub_pos : 0 < e_ub E.  Proof. clear - Hub32. destruct Hub32 as [-> | ->]; reflexivity. Qed.
Lemma ub_le : e_ub E <= 64.  Proof. clear - Hub32. destruct Hub32 as [-> | ->]; discriminate. Qed.
Lemma ub_32 : 2 ^ 32 <= 2 ^ e_ub E.
Proof. clear - Hub32. destruct Hub32 as [-> | ->]; discriminate. Qed.

Lemma run_len_prefix : forall n rest, n < 2 ^ e_ub E ->
  run (de_len E') (ser_len E n ++ rest) = Ok (n, rest).
Proof.
  intros n rest H. unfold de_len, ser_len. rewrite Hfw, Hub. apply rt_usize; auto using ub_pos, ub_le.
Qed.
Lemma rt_len_prefix : forall n, n < 2 ^ e_ub E -> rt (Ok [WAll (ser_len E n)]) (de_len E') (Ok n).
Proof. intros n H. apply rt_sall. intros rest. apply run_len_prefix; assumption. Qed.

Lemma citer_perm : forall k t l, Permutation (citer E k t l) l.
Proof. intros [] t l; cbn; [apply Hiter|reflexivity]. Qed.
Lemma citer_len : forall k t l, length (citer E k t l) = length l.
Proof. intros. apply Permutation_length, citer_perm. Qed.

(** Length prefixed loops. *)
Lemma rt_seq : forall X A (sf : X -> ser) (p : prog val) (mf : X -> res val) (l : list A) (l' : list X) sz,
  len l < 2 ^ e_ub E -> length l' = length l -> (forall x, In x l' -> rt (sf x) p (mf x)) ->
  rt (Ok [WAll (ser_len E (len l))] +++ sconcat (map sf l')) (de_seq E' sz p) (rmapM mf l').
Proof.
  intros X A sf p mf l l' sz Hl Hlen H. unfold de_seq.
  change (rmapM mf l') with (rbind (Ok (len l)) (fun _ => rmapM mf l')).
  apply rt_bind; [apply rt_len_prefix; assumption|]. intros n Hn. inversion Hn; subst n. clear Hn.
  destruct (len l =? 0) eqn:E0.
  - apply N.eqb_eq, len_0 in E0. subst l. destruct l'; [|discriminate]. apply rt_ret.
  - rewrite run_alloc_none by assumption. cbn [bind]. rewrite len_to_nat, <- Hlen. apply rt_rep. assumption.
Qed.

(** Bulk vectors. *)
Lemma rt_bulk : forall recW recM t k l, bulk_of t = Some k -> len l < 2 ^ e_ub E -> vec_fits E t (len l) ->
  Forall (wt_ty E recW t) l ->
  rt (ser_bulk E k l) (de_bulk E' k) (rmapM (mig_ty E E' recM t) l).
Proof.
  intros recW recM t k l Hk Hl Hfit Hw. unfold ser_bulk, de_bulk.
  change (rmapM (mig_ty E E' recM t) l) with (rbind (Ok (len l)) (fun _ => rmapM (mig_ty E E' recM t) l)).
  cbv zeta.
  apply rt_bind; [apply rt_len_prefix; assumption|]. intros n Hn. inversion Hn; subst n. clear Hn.
  destruct (len l =? 0) eqn:E0.
  { apply N.eqb_eq, len_0 in E0. subst l. apply rt_ret. }
  destruct k as [|s w|d].
  - assert (t = TBool) as -> by (destruct t as [|[]| | | | | | | | | | | | | | | | | | | | | | | |]; cbn in Hk; try discriminate; reflexivity).
    destruct (rmapM as_bool l) as [bs|e|x] eqn:Eb; [|apply rt_err; discriminate|apply rt_err; discriminate].
    cbn [rbind]. apply rt_sall. intros rest.
    assert (El : l = map VBool bs).
    { apply rmapM_ok in Eb. clear - Eb. induction Eb as [|v b l bs H _ IH]; [reflexivity|].
      destruct v; cbn in H; try discriminate. inversion H; subst. reflexivity. }
    subst l. rewrite len_map. rewrite !run_alloc_none by assumption. cbn [bind].
    rewrite run_bind, run_read_n_app by (rewrite pack_len; reflexivity). cbn [run].
    rewrite len_to_nat, unpack_pack. rewrite rmapM_id; [reflexivity|].
    intros x Hx. apply in_map_iff in Hx. destruct Hx as (b & <- & _). reflexivity.
  - destruct (rmapM as_int l) as [zs|e|x] eqn:Eb; [|apply rt_err; discriminate|apply rt_err; discriminate].
    cbn [rbind]. apply rt_sall. intros rest.
    assert (El : l = map VInt zs /\ Forall (fix_range s w) zs).
    { apply rmapM_ok in Eb. clear - Eb Hw Hk. induction Eb as [|v b l bs H _ IH]; [repeat constructor|].
      inversion Hw as [|? ? Hw1 Hw2]; subst. destruct (IH Hw2) as [-> IH2].
      destruct (bulk_fix_wt _ _ _ _ _ _ Hk Hw1) as (z & -> & Hz). cbn in H. inversion H; subst.
      split; [reflexivity|constructor; assumption]. }
    destruct El as [-> Hz]. rewrite !len_map in *.
    unfold vec_fits in Hfit. rewrite Hk in Hfit. unfold fits in Hfit. rewrite Hub.
    apply N.ltb_lt in Hfit. rewrite Hfit. rewrite run_alloc_none by assumption. cbn [bind].
    rewrite flat_map_concat_map.
    assert (Hc : Forall (fun b : bytes => len b = N.of_nat w) (map (ser_fixed w) zs)).
    { apply Forall_forall. intros b Hb. apply in_map_iff in Hb. destruct Hb as (z & <- & _).
      unfold ser_fixed. apply le_bytes_len. }
    rewrite run_bind, run_read_n_app by (rewrite (concat_len (N.of_nat w)) by assumption; rewrite len_map; reflexivity).
    cbn [run].
    replace (N.to_nat (len zs)) with (length (map (ser_fixed w) zs)) by (rewrite map_length; symmetry; apply len_to_nat).
    rewrite chunks_concat by assumption. rewrite map_map.
    rewrite rmapM_id.
    + cbn [rmap]. do 2 f_equal. apply map_ext_in. intros z Hin. rewrite Forall_forall in Hz.
      destruct (Hz z Hin) as [Hw0 Hr]. rewrite fixed_val_ser by assumption. reflexivity.
    + intros x Hx. apply in_map_iff in Hx. destruct Hx as (z & <- & _).
      destruct t as [|[]| | | | | | | | | | | | | | | | | | | | | | | |]; cbn in Hk; try discriminate; reflexivity.
  - assert (Ht : if d then t = TDecimal else t = TUuid).
    { destruct t as [|[]| | | | | | | | | | | | | | | | | | | | | | | |]; cbn in Hk; try discriminate; inversion Hk; reflexivity. }
    assert (Hfit' : len l * 16 < 2 ^ e_ub E).
    { unfold vec_fits in Hfit. rewrite Hk in Hfit. exact Hfit. }
    apply N.ltb_lt in Hfit'. rewrite Hfit'.
    destruct (rmapM as_bytes l) as [bs|e|x] eqn:Eb; [|apply rt_err; discriminate|apply rt_err; discriminate].
    cbn [rbind]. apply rt_sall. intros rest.
    assert (El : l = map VBytes bs /\ Forall (fun b => len b = 16) bs).
    { apply rmapM_ok in Eb. clear - Eb Hw Ht. induction Eb as [|v b l bs H _ IH]; [repeat constructor|].
      inversion Hw as [|? ? Hw1 Hw2]; subst. destruct (IH Hw2) as [-> IH2].
      destruct v; cbn in H; try discriminate. inversion H; subst. split; [reflexivity|].
      constructor; [|assumption]. destruct d; subst t; cbn in Hw1; tauto. }
    destruct El as [-> Hz]. rewrite !len_map in *.
    destruct d; subst t.
    + rewrite run_alloc_none by assumption. cbn [bind]. rewrite len_to_nat, <- (map_length VBytes bs).
      rewrite (run_rep_pieces _ _ _ (fun v => mig_ty E E' recM TDecimal v) (map VBytes bs) bs).
      * reflexivity.
      * clear - Hz. induction Hz as [|b bs H1 H2 IH]; cbn; constructor; [|assumption].
        intros rest. rewrite split_at_app_n by auto. reflexivity.
    + rewrite Hub, Hfit'. rewrite run_alloc_none by assumption. cbn [bind].
      rewrite run_bind, run_read_n_app by (rewrite (concat_len 16) by assumption; reflexivity). cbn [run].
      rewrite len_to_nat, chunks_concat by assumption. rewrite rmapM_id; [reflexivity|].
      intros x Hx. apply in_map_iff in Hx. destruct Hx as (b & <- & _). reflexivity.
Qed.

Lemma bind_ret : forall A B (a : A) (k : A -> prog B), bind (Ret a) k = k a.
Proof. reflexivity. Qed.

Section Rec.
Variables (recS : N -> val -> ser) (recD : N -> prog val) (recM : N -> val -> res val) (recW : N -> val -> Prop).
Hypothesis Hrec : forall n v, recW n v -> rt (recS n v) (recD n) (recM n v).

Lemma rt_blob : forall b, len b < 2 ^ e_ub E -> rt (ser_blob E b) (de_blob E') (Ok b).
Proof.
  intros b H ops rest Ho. unfold ser_blob in Ho. inversion Ho; subst. unfold out. cbn [flat_map wop_bytes].
  rewrite app_nil_r, <- app_assoc. unfold de_blob. rewrite run_bind, run_len_prefix by assumption.
  destruct (len b =? 0) eqn:E0.
  - apply N.eqb_eq, len_0 in E0. subst b. reflexivity.
  - rewrite run_alloc_none by assumption. cbn [bind]. rewrite run_read_n_app by reflexivity. reflexivity.
Qed.
Lemma rt_str : forall b, len b < 2 ^ e_ub E -> utf8_ok b = true -> rt (ser_blob E b) (de_str E') (Ok (VBytes b)).
Proof.
  intros b H Hu ops rest Ho. unfold ser_blob in Ho. inversion Ho; subst. unfold out. cbn [flat_map wop_bytes].
  rewrite app_nil_r, <- app_assoc. unfold de_str. rewrite run_bind, run_len_prefix by assumption.
  destruct (len b =? 0) eqn:E0.
  - apply N.eqb_eq, len_0 in E0. subst b. reflexivity.
  - rewrite run_alloc_none by assumption. cbn [bind]. rewrite run_bind, run_read_n_app by reflexivity. rewrite Hu. reflexivity.
Qed.
Lemma rt_intty : forall i z, in_ity (e_ub E) i z ->
  rt (sall (ser_int (e_fw E) i z)) (de_int (e_fw E') (e_ub E') i) (Ok z).
Proof.
  intros i z H. apply rt_sall. intros rest. rewrite Hfw, Hub. rewrite rt_int; auto using ub_pos, ub_le.
Qed.
Lemma rt_u32d : forall d, d < 2 ^ 32 -> rt (sall (ser_u32 (e_fw E) d)) (de_u32 (e_fw E')) (Ok d).
Proof. intros d H. apply rt_sall. intros rest. rewrite Hfw, rt_u32 by assumption. reflexivity. Qed.

Lemma wrap_rewrap : forall A (m : res A), rmap_err wrap_err m = rewrap m.
Proof. destruct m; reflexivity. Qed.

Lemma rt_dur : forall s n, inU 64 s -> (0 <= n < 1000000000)%Z ->
  rt (sall (ser_int (e_fw E) U64 s) +++ sall (ser_int (e_fw E) U32 n))
     (s <- de_int (e_fw E') (e_ub E') U64 ;; n <- de_int (e_fw E') (e_ub E') U32 ;; of_res (dur_new s n))
     (Ok (VPair (VInt s) (VInt n))).
Proof.
  intros s n Hs Hn.
  change (Ok (VPair (VInt s) (VInt n))) with
    (rbind (Ok s) (fun a => rbind (Ok n) (fun b => Ok (VPair (VInt a) (VInt b))))).
  apply rt_bind; [apply rt_intty; exact Hs|]. intros a Ha. inversion Ha; subst a. clear Ha.
  apply rt_then; [apply rt_intty; unfold in_ity; cbn; unfold inU; lia|].
  intros b Hb bs. inversion Hb; subst b. rewrite run_of_res. unfold dur_new.
  rewrite Z.div_small, Z.mod_small, Z.add_0_r by lia. unfold inU in Hs. change (Z.of_N 64) with 64%Z in Hs.
  replace (s <? 2 ^ 64)%Z with true by lia. reflexivity.
Qed.

Lemma rt_ty : forall t v, wt_ty E recW t v -> rt (ser_ty E recS t v) (de_ty E' recD t) (mig_ty E E' recM t v).
Proof.
  induction t as [|i| | | | | | | | | |a IHa b IHb|t IH|t IH|n t IH|t IH|a IHa b IHb|t IH|k a IHa b IHb|k t IH|t IH|t IH| | |c m t IH|n];
    intros v Hw; cbn [ser_ty de_ty mig_ty].
  - (* bool *) destruct v; cbn in Hw; try contradiction. intros ops rest Ho. inversion Ho; subst. unfold out; cbn [flat_map wop_bytes app]. rewrite run_bind, run_read_byte_cons. destruct b; reflexivity.
  - destruct v; cbn in Hw; try contradiction.
    apply (rt_map _ _ _ _ VInt (Ok z)). apply rt_intty. assumption.
  - destruct v; cbn in Hw; try contradiction. apply rt_sall. intros rest.
    rewrite run_le by reflexivity. cbn [run]. apply inU_N in Hw. destruct Hw as [Hw Hz]. rewrite le_val_bytes by exact Hw.
    rewrite Hz. reflexivity.
  - destruct v; cbn in Hw; try contradiction. apply rt_sall. intros rest.
    rewrite run_le by reflexivity. cbn [run]. apply inU_N in Hw. destruct Hw as [Hw Hz]. rewrite le_val_bytes by exact Hw.
    rewrite Hz. reflexivity.
  - destruct v; cbn in Hw; try contradiction. destruct Hw as [Hz Hs]. apply rt_sall. intros rest.
    rewrite run_bind, rt_char by assumption. cbn [run]. rewrite Z2N.id by assumption. reflexivity.
  - destruct v; cbn in Hw; try contradiction. destruct Hw as (_ & Hu & Hf). apply rt_str; assumption.
  - destruct v; cbn in Hw; try contradiction. destruct Hw as (_ & Hf).
    destruct (utf8_ok b) eqn:Hu; [|apply rt_err; discriminate]. apply rt_str; assumption.
  - destruct v; cbn in Hw; try contradiction. destruct Hw as (_ & Hf).
    apply (rt_map _ _ _ _ VBytes (Ok b)). apply rt_blob. assumption.
  - destruct v; cbn in Hw; try contradiction. destruct Hw as (_ & Hf). apply rt_sall. intros rest.
    rewrite run_bind, run_read_n_app by auto. reflexivity.
  - destruct v; cbn in Hw; try contradiction. destruct Hw as (_ & Hf & _). apply rt_sall. intros rest.
    rewrite run_bind, run_read_n_app by auto. reflexivity.
  - destruct v; cbn in Hw; try contradiction. apply rt_ret.
  - (* pair *) destruct v; cbn in Hw; try contradiction. destruct Hw as [H1 H2].
    apply rt_bind; [auto|]. intros x _. apply rt_map. auto.
  - (* vec *) destruct v; cbn [wt_ty] in Hw; try contradiction. destruct Hw as (H1 & H2 & H3).
    rewrite Hspec. destruct (if e_spec E then bulk_of t else None) as [k|] eqn:Ek.
    + apply rt_map. apply (rt_bulk recW); auto. destruct (e_spec E); [assumption|discriminate].
    + apply rt_map. apply rt_seq; auto. intros x Hx. apply IH. rewrite Forall_forall in H3. auto.
  - destruct v; cbn [wt_ty] in Hw; try contradiction. destruct Hw as (H1 & H3).
    apply rt_map. apply rt_seq; auto. intros x Hx. apply IH. rewrite Forall_forall in H3. auto.
  - (* array *) destruct v; cbn [wt_ty] in Hw; try contradiction. destruct Hw as (H1 & H3). subst n.
    rewrite Nat.eqb_refl. apply rt_map. apply rt_rep. intros x Hx. apply IH. rewrite Forall_forall in H3. auto.
  - (* option *) destruct v as [| | | | | |k l]; cbn [wt_ty] in Hw; try contradiction.
    destruct k as [|[p|p|]]; try contradiction; destruct l as [|x [|y l]]; try contradiction.
    + apply rt_sall. intros rest. cbn [app]. rewrite run_bind, run_read_byte_cons. reflexivity.
    + change (rbind (rmapM (mig_ty E E' recM t) [x]) (fun l' => Ok (VVar 1 l')))
        with (rbind (Ok 1) (fun k => rbind (rmapM (mig_ty E E' recM t) [x]) (fun l' => Ok (VVar k l')))).
      apply rt_bind; [apply rt_sall; intros rest; apply run_read_byte_cons|]. intros k Hk. inversion Hk; subst k.
      change (1 =? 0) with false. change (1 =? 1) with true. cbv iota.
      cbn [rmapM]. specialize (IH x Hw). intros ops rest Ho. rewrite run_bind, (IH ops) by assumption.
      destruct (mig_ty E E' recM t x); reflexivity.
  - (* result *) destruct v as [| | | | | |k l]; cbn [wt_ty] in Hw; try contradiction.
    destruct k as [|[p|p|]]; try contradiction; destruct l as [|x [|y l]]; try contradiction.
    + intros ops rest Ho. apply sbind_ok in Ho. destruct Ho as (la & lb & Ha & Hb & ->).
      rewrite out_app, <- app_assoc, run_bind, (rt_u32d 0 ltac:(reflexivity) la) by assumption.
      cbn [rmap]. change (0 =? 0) with true. cbv iota.
      rewrite run_bind, run_map_err, (IHa x Hw lb) by assumption. cbn [rmapM].
      destruct (mig_ty E E' recM a x); reflexivity.
    + intros ops rest Ho. apply sbind_ok in Ho. destruct Ho as (la & lb & Ha & Hb & ->).
      rewrite out_app, <- app_assoc, run_bind, (rt_u32d 1 ltac:(reflexivity) la) by assumption.
      cbn [rmap]. change (1 =? 0) with false. change (1 =? 1) with true. cbv iota.
      rewrite run_bind, run_map_err, (IHb x Hw lb) by assumption. cbn [rmapM].
      destruct (mig_ty E E' recM b x); reflexivity.
  - (* bound *) destruct v as [| | | | | |k l]; cbn [wt_ty] in Hw; try contradiction.
    destruct k as [|[p|[p|p|]|]]; try contradiction; destruct l as [|x [|y l]]; try contradiction.
    + intros ops rest Ho. rewrite run_bind, (rt_u32d 0 ltac:(reflexivity) ops) by assumption. reflexivity.
    + intros ops rest Ho. apply sbind_ok in Ho. destruct Ho as (la & lb & Ha & Hb & ->).
      rewrite out_app, <- app_assoc, run_bind, (rt_u32d 2 ltac:(reflexivity) la) by assumption.
      cbn [rmap]. change (2 =? 0) with false. change (2 =? 1) with false. change (2 =? 2) with true. cbv iota.
      rewrite run_bind, run_map_err, (IH x Hw lb) by assumption. cbn [rmapM].
      destruct (mig_ty E E' recM t x); reflexivity.
    + intros ops rest Ho. apply sbind_ok in Ho. destruct Ho as (la & lb & Ha & Hb & ->).
      rewrite out_app, <- app_assoc, run_bind, (rt_u32d 1 ltac:(reflexivity) la) by assumption.
      cbn [rmap]. change (1 =? 0) with false. change (1 =? 1) with true. cbv iota.
      rewrite run_bind, run_map_err, (IH x Hw lb) by assumption. cbn [rmapM].
      destruct (mig_ty E E' recM t x); reflexivity.
  - (* map *) destruct v; cbn [wt_ty] in Hw; try contradiction. destruct Hw as (H1 & H2 & _).
    apply rt_map. apply rt_seq; [assumption|apply citer_len|].
    intros p Hp. apply (Permutation_in _ (citer_perm _ _ _)) in Hp. rewrite Forall_forall in H2.
    specialize (H2 p Hp). destruct p; try contradiction. destruct H2 as [Hx Hy]. cbn [ser_entry mig_entry]. unfold de_entry.
    apply rt_bind; [auto|]. intros x _. apply rt_map. auto.
  - (* set *) destruct v; cbn [wt_ty] in Hw; try contradiction. destruct Hw as (H1 & H2 & _).
    apply rt_map. apply rt_seq; [assumption|apply citer_len|].
    intros p Hp. apply (Permutation_in _ (citer_perm _ _ _)) in Hp. rewrite Forall_forall in H2. auto.
  - (* heap *) destruct v; cbn [wt_ty] in Hw; try contradiction. destruct Hw as (H1 & H2 & _).
    apply rt_map. apply rt_seq; [assumption|apply Permutation_length, Hiter|].
    intros p Hp. apply (Permutation_in _ (Hiter _ _)) in Hp. rewrite Forall_forall in H2. auto.
  - destruct v; apply IH; exact Hw.
  - (* duration *) destruct v as [| | | |x y| |]; cbn in Hw; try contradiction. destruct x, y; try contradiction.
    destruct Hw as [H1 H2]. apply rt_dur; assumption.
  - (* system time *) destruct v as [| | | |x y| |]; cbn in Hw; try contradiction. destruct x, y; try contradiction.
    destruct Hw as [H1 H2]. destruct (z <? 0)%Z eqn:Ez; [apply rt_err; discriminate|].
    pose proof (rt_dur z z0 ltac:(unfold inU; lia) H2) as H.
    intros ops rest Ho. specialize (H ops rest Ho).
    rewrite run_bind in *. destruct (run (de_int (e_fw E') (e_ub E') U64) (out ops ++ rest)) as [[s r1]|e|x]; try discriminate.
    rewrite run_bind in *. destruct (run (de_int (e_fw E') (e_ub E') U32) r1) as [[s' r2]|e|x]; try discriminate.
    rewrite run_of_res in H. rewrite run_bind, run_of_res.
    destruct (dur_new s s') as [d|e|x]; cbn [rmap] in *; try discriminate. inversion H; subst.
    unfold time_add. rewrite run_of_res. destruct (z <=? e_time E')%Z; reflexivity.
  - (* ext *)
    assert (G : rt (ser_ty E recS t v)
       (x <- de_ty E' recD t ;; match e_ext E' c x with Some y => Ret y | None => Fail (EDeserialize (MExternal c)) end)
       (rbind (mig_ty E E' recM t v) (fun x => match e_ext E' c x with Some y => Ok y | None => Err (EDeserialize (MExternal c)) end))).
    { apply rt_then.
      - apply IH. destruct v; cbn in Hw; tauto.
      - intros a _ bs. destruct (e_ext E' c a); reflexivity. }
    destruct v; exact G.
  - destruct v; apply Hrec; exact Hw.
Qed.
End Rec.
End Pair.
