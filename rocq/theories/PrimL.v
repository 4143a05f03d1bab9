(** Lemmas about Prim: zig-zag, varints, integer codecs.  Proof part. *)

From Verif Require Import Base BaseL Prog ProgL Prim.
From Coq Require Import List NArith ZArith Bool Lia ZifyBool ZifyN ZifyNat.
Import ListNotations.
Open Scope N_scope.

(** Arithmetic reading of zig-zag. *)
Definition zz (z : Z) : N := Z.to_N (if (0 <=? z)%Z then 2 * z else - 2 * z - 1)%Z.
Definition gz (n : N) : Z := if N.even n then Z.of_N (n / 2) else (- Z.of_N (n / 2) - 1)%Z.

Lemma zigzag_zz : forall bits v, 0 < bits -> inS bits v -> zigzag bits v = zz v.
Proof.
  intros bits v Hb [H1 H2]. unfold zigzag, zz.
  pose proof (zpow2_split bits Hb) as E.
  pose proof (zpow2 bits) as E2.
  set (P := (2 ^ (Z.of_N bits - 1))%Z) in *.
  assert (HP : (0 < P)%Z) by (apply Z.pow_pos_nonneg; lia).
  rewrite Z.shiftr_div_pow2 by lia. fold P.
  rewrite N.shiftl_mul_pow2. change (2 ^ 1) with 2.
  unfold wrapZ. set (Q := (2 ^ Z.of_N bits)%Z) in *.
  destruct (0 <=? v)%Z eqn:Hv.
  - rewrite (Z.div_small v P) by lia. rewrite Z.mod_0_l by lia. cbn [Z.to_N].
    rewrite N.lxor_0_l. rewrite Z.mod_small by lia.
    rewrite N.mod_small by lia. lia.
  - assert (Ed : (v / P = -1)%Z).
    { assert (v / P < 0)%Z by (apply Z.div_lt_upper_bound; lia).
      assert (-1 <= v / P)%Z by (apply Z.div_le_lower_bound; lia). lia. }
    rewrite Ed.
    assert (Em1 : (-1 mod Q = Q - 1)%Z).
    { rewrite <- (Z.mod_small (Q - 1) Q) by lia.
      rewrite <- (Z_mod_plus_full (-1) 1 Q). f_equal; lia. }
    rewrite Em1.
    assert (Emv : (v mod Q = v + Q)%Z).
    { rewrite <- (Z.mod_small (v + Q) Q) by lia.
      rewrite <- (Z_mod_plus_full v 1 Q). f_equal; lia. }
    rewrite Emv.
    assert (HM : Z.of_N (2 ^ bits) = Q) by exact E2.
    assert (Hx : exists x, Z.to_N (v + Q) * 2 mod 2 ^ bits = x /\ Z.of_N x = (2 * v + Q)%Z).
    { exists (Z.to_N (2 * v + Q)). split; [|lia].
      replace (Z.to_N (v + Q) * 2) with (Z.to_N (2 * v + Q) + 1 * 2 ^ bits).
      - rewrite N.mod_add; [apply N.mod_small|]; clear - HM HP E H1 H2 Hv; lia.
      - clear - HM HP E H1 H2 Hv; lia. }
    destruct Hx as (x & -> & Hx).
    assert (Ho : Z.to_N (Q - 1) = N.ones bits).
    { rewrite N.ones_equiv, N.pred_sub. clear - HM HP E. lia. }
    rewrite Ho. rewrite N.lxor_comm. fold (N.lnot x bits).
    assert (Hl : N.lnot x bits = 2 ^ bits - 1 - x).
    { destruct (N.eq_dec x 0) as [E0|E0].
      - rewrite E0. unfold N.lnot. rewrite N.lxor_0_l, N.ones_equiv, N.pred_sub, N.sub_0_r. reflexivity.
      - rewrite N.lnot_sub_low.
        + rewrite N.ones_equiv, N.pred_sub. reflexivity.
        + apply N.log2_lt_pow2; clear - Hx HM E H1 H2 Hv E0; lia. }
    rewrite Hl. clear - Hx HM HP E H1 H2 Hv. lia.
Qed.

Lemma gazgiz_gz : forall bits n, gazgiz bits n = gz n.
Proof.
  intros bits n. unfold gazgiz, gz.
  rewrite N.shiftr_div_pow2. change (2 ^ 1) with 2.
  change 1 with (N.ones 1). rewrite N.land_ones. change (2 ^ 1) with 2.
  rewrite <- N.bit0_mod, N.bit0_odd, <- N.negb_even.
  destruct (N.even n); cbn [negb N.b2n].
  - cbn. apply Z.lxor_0_r.
  - change (- Z.of_N 1)%Z with (-1)%Z. rewrite Z.lxor_m1_r. unfold Z.lnot. lia.
Qed.

Lemma half_even : forall m, 2 * m / 2 = m.
Proof. intros. rewrite N.mul_comm. apply N.div_mul. lia. Qed.
Lemma half_odd : forall m, (2 * m + 1) / 2 = m.
Proof. intros. symmetry. apply (N.div_unique _ _ _ 1); lia. Qed.
Lemma even_even : forall m, N.even (2 * m) = true.
Proof. intros. rewrite N.even_mul. reflexivity. Qed.
Lemma even_odd : forall m, N.even (2 * m + 1) = false.
Proof. intros. rewrite N.even_add, even_even. reflexivity. Qed.

Lemma gz_zz : forall z, gz (zz z) = z.
Proof.
  intros z. unfold gz, zz. destruct (0 <=? z)%Z eqn:E.
  - replace (Z.to_N (2 * z)) with (2 * Z.to_N z) by lia.
    rewrite even_even, half_even. lia.
  - replace (Z.to_N (- 2 * z - 1)) with (2 * Z.to_N (- z - 1) + 1) by lia.
    rewrite even_odd, half_odd. lia.
Qed.

Lemma zz_gz : forall n, zz (gz n) = n.
Proof.
  intros n. unfold gz, zz.
  destruct (N.even n) eqn:E.
  - apply N.even_spec in E. destruct E as [m ->]. rewrite half_even.
    destruct (0 <=? Z.of_N m)%Z eqn:F; lia.
  - assert (O : N.odd n = true) by (rewrite <- N.negb_even, E; reflexivity).
    apply N.odd_spec in O. destruct O as [m ->]. rewrite half_odd.
    destruct (0 <=? - Z.of_N m - 1)%Z eqn:F; lia.
Qed.

Lemma zz_bound : forall bits z, 0 < bits -> inS bits z -> zz z < 2 ^ bits.
Proof.
  intros bits z Hb [H1 H2]. unfold zz.
  pose proof (zpow2_split bits Hb) as E. pose proof (zpow2 bits) as E2.
  destruct (0 <=? z)%Z eqn:F; lia.
Qed.
Lemma gz_range : forall bits n, 0 < bits -> n < 2 ^ bits -> inS bits (gz n).
Proof.
  intros bits n Hb H. unfold gz, inS.
  pose proof (zpow2_split bits Hb) as E. pose proof (zpow2 bits) as E2.
  assert (n / 2 < 2 ^ (bits - 1)).
  { apply N.div_lt_upper_bound; [lia|]. rewrite <- pow2_split; assumption. }
  pose proof (zpow2 (bits - 1)) as E1. rewrite N2Z.inj_sub in E1 by lia. change (Z.of_N 1) with 1%Z in E1.
  destruct (N.even n); lia.
Qed.

(** Ranges of the integer types. *)
Definition in_ity (ub : N) (i : ity) (z : Z) : Prop :=
  if ity_signed i then inS (ity_bits ub i) z else inU (ity_bits ub i) z.

(** varints *)
Lemma run_le : forall k n y (B : Type) (f : bytes -> prog B), n = N.of_nat k ->
  forall v, run (bind (read_n n) f) (le_bytes k v ++ y) = run (f (le_bytes k v)) y.
Proof.
  intros k n y B f -> v. rewrite run_bind, run_read_n_app; [reflexivity|].
  rewrite le_bytes_len; reflexivity.
Qed.

Lemma decode_encode_u64 : forall x y, x < 2 ^ 64 -> run decode_u64 (encode_u64 x ++ y) = Ok (x, y).
Proof.
  intros x y H. unfold encode_u64, decode_u64.
  destruct (x <? 251) eqn:E0.
  - cbn [app]. rewrite run_bind, run_read_byte_cons.
    replace (x =? 251) with false by lia. replace (x =? 252) with false by lia.
    replace (x =? 253) with false by lia. replace (x =? 254) with false by lia.
    replace (x =? 255) with false by lia. reflexivity.
  - destruct (x <? 2 ^ 16) eqn:E1; [|destruct (x <? 2 ^ 32) eqn:E2];
      rewrite <- app_comm_cons, run_bind, run_read_byte_cons; cbn [N.eqb Pos.eqb];
      rewrite run_le by reflexivity; cbn [run]; rewrite le_val_bytes; try reflexivity; cbn; lia.
Qed.

Lemma decode_encode_u128 : forall x y, x < 2 ^ 128 -> run decode_u128 (encode_u128 x ++ y) = Ok (x, y).
Proof.
  intros x y H. unfold encode_u128, decode_u128.
  destruct (x <? 251) eqn:E0.
  - cbn [app]. rewrite run_bind, run_read_byte_cons.
    replace (x =? 251) with false by lia. replace (x =? 252) with false by lia.
    replace (x =? 253) with false by lia. replace (x =? 254) with false by lia.
    replace (x =? 255) with false by lia. reflexivity.
  - destruct (x <? 2 ^ 16) eqn:E1; [|destruct (x <? 2 ^ 32) eqn:E2; [|destruct (x <? 2 ^ 64) eqn:E3]];
      rewrite <- app_comm_cons, run_bind, run_read_byte_cons; cbn [N.eqb Pos.eqb];
      rewrite run_le by reflexivity; cbn [run]; rewrite le_val_bytes; try reflexivity; cbn; lia.
Qed.

(** What the decoders return on arbitrary bytes. *)
Lemma run_read_n_val : forall n bs z, wfb bs -> run (read_n n) bs = Ok z ->
  le_val (fst z) < 256 ^ n /\ bs = fst z ++ snd z /\ wfb (fst z) /\ wfb (snd z).
Proof.
  intros n bs [x y] Hw H. apply run_read_n_ok in H. destruct H as [-> <-]. cbn.
  apply wfb_app in Hw. destruct Hw. split; [apply le_val_bound; assumption|auto].
Qed.

Ltac run_inv H :=
  repeat (rewrite run_bind in H || cbn [run] in H).

Lemma decode_u64_ok : forall bs x y, wfb bs -> run decode_u64 bs = Ok (x, y) -> x < 2 ^ 64.
Proof.
  intros bs x y Hw H. unfold decode_u64 in H. rewrite run_bind in H.
  destruct (run read_byte bs) as [[b r]|e|p] eqn:E; try discriminate.
  apply run_read_byte_ok in E. subst bs. apply wfb_cons in Hw. destruct Hw as [Hb Hw].
  destruct (b =? 251) eqn:E0; [|destruct (b =? 252) eqn:E1; [|destruct (b =? 253) eqn:E2;
    [|destruct (b =? 254) eqn:E3; [|destruct (b =? 255) eqn:E4]]]]; try discriminate;
  rewrite ?run_bind in H.
  1-3: match type of H with context[run (read_n ?n) ?rr] =>
        destruct (run (read_n n) rr) as [[z w]|e|p] eqn:F; try discriminate;
        apply run_read_n_val in F; [|assumption]; cbn in H, F; inversion H; subst;
        destruct F as [F _]; cbn in *; lia end.
  cbn in H. inversion H; subst. cbn. lia.
Qed.

Lemma decode_u128_ok : forall bs x y, wfb bs -> run decode_u128 bs = Ok (x, y) -> x < 2 ^ 128.
Proof.
  intros bs x y Hw H. unfold decode_u128 in H. rewrite run_bind in H.
  destruct (run read_byte bs) as [[b r]|e|p] eqn:E; try discriminate.
  apply run_read_byte_ok in E. subst bs. apply wfb_cons in Hw. destruct Hw as [Hb Hw].
  destruct (b =? 251) eqn:E0; [|destruct (b =? 252) eqn:E1; [|destruct (b =? 253) eqn:E2;
    [|destruct (b =? 254) eqn:E3; [|destruct (b =? 255) eqn:E4]]]]; try discriminate;
  rewrite ?run_bind in H.
  1-4: match type of H with context[run (read_n ?n) ?rr] =>
        destruct (run (read_n n) rr) as [[z w]|e|p] eqn:F; try discriminate;
        apply run_read_n_val in F; [|assumption]; cbn in H, F; inversion H; subst;
        destruct F as [F _]; cbn in *; lia end.
  cbn in H. inversion H; subst. cbn. lia.
Qed.

Lemma encode_u64_wf : forall x, wfb (encode_u64 x).
Proof.
  intros. unfold encode_u64. destruct (x <? 251) eqn:E; [repeat constructor; lia|].
  destruct (x <? 2 ^ 16); [|destruct (x <? 2 ^ 32)];
    (apply wfb_cons; split; [lia|apply le_bytes_wf]).
Qed.
Lemma encode_u128_wf : forall x, wfb (encode_u128 x).
Proof.
  intros. unfold encode_u128. destruct (x <? 251) eqn:E; [repeat constructor; lia|].
  destruct (x <? 2 ^ 16); [|destruct (x <? 2 ^ 32); [|destruct (x <? 2 ^ 64)]];
    (apply wfb_cons; split; [lia|apply le_bytes_wf]).
Qed.

(** narrow *)
Lemma run_narrowU : forall bits x y, x < 2 ^ bits -> run (narrowU bits x) y = Ok (x, y).
Proof. intros. unfold narrowU. replace (x <? 2 ^ bits) with true by lia. reflexivity. Qed.
Lemma run_narrowS : forall bits z y, inS bits z -> run (narrowS bits z) y = Ok (z, y).
Proof.
  intros bits z y [H1 H2]. unfold narrowS.
  replace ((- 2 ^ (Z.of_N bits - 1) <=? z)%Z && (z <? 2 ^ (Z.of_N bits - 1))%Z) with true by lia.
  reflexivity.
Qed.

Lemma inS_mono : forall a b z, 0 < a -> a <= b -> inS a z -> inS b z.
Proof.
  intros a b z H0 Hab [H1 H2]. unfold inS.
  assert (2 ^ (Z.of_N a - 1) <= 2 ^ (Z.of_N b - 1))%Z by (apply Z.pow_le_mono_r; lia). lia.
Qed.

Lemma zz_16 : forall z, inS 16 z -> zz z mod 2 ^ 16 = zz z.
Proof. intros. apply N.mod_small. apply zz_bound; [lia|assumption]. Qed.
Lemma zz_32 : forall z, inS 32 z -> zz z mod 2 ^ 32 = zz z.
Proof. intros. apply N.mod_small. apply zz_bound; [lia|assumption]. Qed.

Lemma castS_id : forall bits z, 0 < bits -> inS bits z -> castS bits z = z.
Proof. intros. apply signZ_wrapZ; assumption. Qed.

Lemma inU_N : forall bits z, inU bits z -> Z.to_N z < 2 ^ bits /\ Z.of_N (Z.to_N z) = z.
Proof. intros bits z [H1 H2]. pose proof (zpow2 bits). lia. Qed.

Section Ints.
Variables (fw : bool).

Lemma rt_u64 : forall x y, x < 2 ^ 64 -> run (de_u64 fw) (ser_u64 fw x ++ y) = Ok (x, y).
Proof.
  intros. unfold de_u64, ser_u64. destruct fw.
  - rewrite run_le by reflexivity. cbn [run]. rewrite le_val_bytes; [reflexivity|exact H].
  - apply decode_encode_u64; assumption.
Qed.
Lemma rt_u32 : forall x y, x < 2 ^ 32 -> run (de_u32 fw) (ser_u32 fw x ++ y) = Ok (x, y).
Proof.
  intros. unfold de_u32, ser_u32. destruct fw.
  - rewrite run_le by reflexivity. cbn [run]. rewrite le_val_bytes; [reflexivity|exact H].
  - rewrite run_bind, decode_encode_u64 by lia. apply run_narrowU; assumption.
Qed.
Lemma rt_u16 : forall x y, x < 2 ^ 16 -> run (de_u16 fw) (ser_u16 fw x ++ y) = Ok (x, y).
Proof.
  intros. unfold de_u16, ser_u16. destruct fw.
  - rewrite run_le by reflexivity. cbn [run]. rewrite le_val_bytes; [reflexivity|exact H].
  - rewrite run_bind, decode_encode_u64 by lia. apply run_narrowU; assumption.
Qed.
Lemma rt_u128 : forall x y, x < 2 ^ 128 -> run (de_u128 fw) (ser_u128 fw x ++ y) = Ok (x, y).
Proof.
  intros. unfold de_u128, ser_u128. destruct fw.
  - rewrite run_le by reflexivity. cbn [run]. rewrite le_val_bytes; [reflexivity|exact H].
  - apply decode_encode_u128; assumption.
Qed.
Lemma rt_i64 : forall z y, inS 64 z -> run (de_i64 fw) (ser_i64 fw z ++ y) = Ok (z, y).
Proof.
  intros. unfold de_i64, ser_i64. rewrite zigzag_zz by (try lia; assumption).
  assert (zz z < 2 ^ 64) by (apply zz_bound; [lia|assumption]).
  destruct fw.
  - rewrite run_le by reflexivity. cbn [run].
    rewrite le_val_bytes by assumption. rewrite gazgiz_gz, gz_zz. reflexivity.
  - rewrite run_bind, decode_encode_u64 by assumption. cbn [run]. rewrite gazgiz_gz, gz_zz. reflexivity.
Qed.
Lemma rt_i128 : forall z y, inS 128 z -> run (de_i128 fw) (ser_i128 fw z ++ y) = Ok (z, y).
Proof.
  intros. unfold de_i128, ser_i128. rewrite zigzag_zz by (try lia; assumption).
  assert (zz z < 2 ^ 128) by (apply zz_bound; [lia|assumption]).
  destruct fw.
  - rewrite run_le by reflexivity. cbn [run].
    rewrite le_val_bytes by assumption. rewrite gazgiz_gz, gz_zz. reflexivity.
  - rewrite run_bind, decode_encode_u128 by assumption. cbn [run]. rewrite gazgiz_gz, gz_zz. reflexivity.
Qed.
Lemma rt_i16 : forall z y, inS 16 z -> run (de_i16 fw) (ser_i16 fw z ++ y) = Ok (z, y).
Proof.
  intros. unfold de_i16, ser_i16.
  rewrite zigzag_zz by (try lia; apply (inS_mono 16); try lia; assumption).
  assert (zz z < 2 ^ 16) by (apply zz_bound; [lia|assumption]).
  destruct fw.
  - rewrite run_le by reflexivity. cbn [run]. rewrite zz_16 by assumption.
    rewrite le_val_bytes by assumption. rewrite gazgiz_gz, gz_zz, castS_id by (try lia; assumption). reflexivity.
  - rewrite run_bind, decode_encode_u64 by lia. rewrite gazgiz_gz, gz_zz. apply run_narrowS; assumption.
Qed.
Lemma rt_i32 : forall z y, inS 32 z -> run (de_i32 fw) (ser_i32 fw z ++ y) = Ok (z, y).
Proof.
  intros. unfold de_i32, ser_i32.
  rewrite zigzag_zz by (try lia; apply (inS_mono 32); try lia; assumption).
  assert (zz z < 2 ^ 32) by (apply zz_bound; [lia|assumption]).
  destruct fw.
  - rewrite run_le by reflexivity. cbn [run]. rewrite zz_32 by assumption.
    rewrite le_val_bytes by assumption. rewrite gazgiz_gz, gz_zz, castS_id by (try lia; assumption). reflexivity.
  - rewrite run_bind, decode_encode_u64 by lia. rewrite gazgiz_gz, gz_zz. apply run_narrowS; assumption.
Qed.
Lemma rt_i8 : forall z y, inS 8 z -> run de_i8 (ser_i8 z ++ y) = Ok (z, y).
Proof.
  intros. unfold de_i8, ser_i8. cbn [app]. rewrite run_bind, run_read_byte_cons. cbn [run].
  rewrite signZ_wrapZ by (try lia; assumption). reflexivity.
Qed.

Variable ub : N.
Hypothesis ub_pos : 0 < ub.
Hypothesis ub_le : ub <= 64.

Lemma pow_ub : 2 ^ ub <= 2 ^ 64.
Proof. apply N.pow_le_mono_r; lia. Qed.
Lemma rt_usize : forall x y, x < 2 ^ ub -> run (de_usize fw ub) (ser_usize fw x ++ y) = Ok (x, y).
Proof.
  intros. unfold de_usize, ser_usize. pose proof pow_ub.
  rewrite run_bind, rt_u64 by lia. cbn [run]. rewrite N.mod_small by assumption. reflexivity.
Qed.
Lemma rt_isize : forall z y, inS ub z -> run (de_isize fw ub) (ser_isize fw z ++ y) = Ok (z, y).
Proof.
  intros. unfold de_isize, ser_isize.
  rewrite run_bind, rt_i64 by (apply (inS_mono ub); try lia; assumption).
  cbn [run]. rewrite castS_id by (try lia; assumption). reflexivity.
Qed.
Lemma rt_int : forall i z y, in_ity ub i z -> run (de_int fw ub i) (ser_int fw i z ++ y) = Ok (z, y).
Proof.
  intros i z y H. unfold in_ity in H.
  destruct i; cbn [ity_signed ity_bits] in H; cbn [de_int ser_int];
    try (apply inU_N in H; destruct H as [H E]; rewrite run_bind).
  - unfold de_u8, ser_u8. cbn [app]. rewrite run_read_byte_cons. cbn [run]. rewrite E. reflexivity.
  - apply rt_i8; assumption.
  - rewrite rt_u16 by assumption. cbn [run]. rewrite E. reflexivity.
  - apply rt_i16; assumption.
  - rewrite rt_u32 by assumption. cbn [run]. rewrite E. reflexivity.
  - apply rt_i32; assumption.
  - rewrite rt_u64 by assumption. cbn [run]. rewrite E. reflexivity.
  - apply rt_i64; assumption.
  - rewrite rt_u128 by assumption. cbn [run]. rewrite E. reflexivity.
  - apply rt_i128; assumption.
  - rewrite rt_usize by assumption. cbn [run]. rewrite E. reflexivity.
  - apply rt_isize; assumption.
Qed.

Lemma ser_int_wf : forall i z, in_ity ub i z -> wfb (ser_int fw i z).
Proof.
  intros i z H. unfold in_ity in H.
  destruct i; cbn [ity_signed ity_bits] in H; cbn [ser_int];
    unfold ser_u8, ser_i8, ser_u16, ser_i16, ser_u32, ser_i32, ser_u64, ser_i64, ser_u128, ser_i128, ser_usize, ser_isize,
      ser_u64, ser_i64;
    try (destruct fw; (apply le_bytes_wf || apply encode_u64_wf || apply encode_u128_wf)).
  - apply inU_N in H. repeat constructor. lia.
  - repeat constructor. pose proof (wrapZ_bound 8 z). cbn in *. lia.
Qed.

End Ints.

Lemma rt_fixed : forall (s : bool) w z y, (0 < w)%nat ->
  (if s then inS (8 * N.of_nat w) z else inU (8 * N.of_nat w) z) ->
  run (de_fixed s w) (ser_fixed w z ++ y) = Ok (z, y).
Proof.
  intros s w z y Hw H. unfold de_fixed, ser_fixed.
  rewrite run_le by reflexivity. cbn [run]. rewrite le_val_bytes.
  - destruct s.
    + rewrite signZ_wrapZ by (try lia; assumption). reflexivity.
    + rewrite wrapZ_unsigned by assumption. apply inU_N in H. destruct H as [_ ->]. reflexivity.
  - pose proof (wrapZ_bound (8 * N.of_nat w) z). rewrite N.pow_mul_r in H0. exact H0.
Qed.
