(** C07-C09, C46: integers. *)

From Verif Require Import Base BaseL Prog ProgL Prim PrimL Ty Ser De Typed RtL Spec IntL Ex.
From Coq Require Import List NArith ZArith Bool Lia ZifyBool.
Import ListNotations.
Open Scope N_scope.

(** C07.  Every integer type except u8/i8, in builds without [fixed-width-encoding]: the bytes are a
    form of the number's code, as long as documented; no form of a number is shorter than that; and
    the decoder returns the number from every form. *)
Theorem C07_canonical : forall E d i z, wf_env E -> e_fw E = false -> wide i = true -> in_ity (e_ub E) i z ->
  exists b, to_vec E d (TInt i) (VInt z) = Ok b /\ denotes (wire_bits i) b (code i z) /\ len b = width (code i z).
Proof.
  intros E d i z W Hfw Hi Hz. destruct (int_encodes (e_ub E) i z Hi (we_ub _ W) Hz) as [H1 H2].
  exists (ser_int false i z). split; [|auto]. unfold to_vec, to_writer, ser_bytes. cbn [ser_ty]. rewrite Hfw. cbn. rewrite app_nil_r. reflexivity.
Qed.
Theorem C07_minimal : forall w form n, wfb form -> denotes w form n -> width n <= len form.
Proof. exact width_min. Qed.
Theorem C07_any_form : forall E d i form n rest, wf_env E -> e_fw E = false -> wide i = true ->
  (i = Usize \/ i = Isize -> e_ub E = 64) -> wfb (form ++ rest) ->
  denotes (wire_bits i) form n -> in_ity (e_ub E) i (number i n) ->
  run (deserialize E d (TInt i)) (form ++ rest) = Ok (VInt (number i n), rest).
Proof.
  intros E d i form n rest W Hfw Hi Hub Hf Hd Hin.
  pose proof (int_decodes (e_ub E) i (form ++ rest) Hi Hub Hf) as H.
  unfold deserialize. cbn [de_ty]. rewrite Hfw, run_bind.
  assert (K : match run (de_int false (e_ub E) i) (form ++ rest) with Ok (a, r) => run (Ret (VInt a)) r | Err e => Err e | Panic x => Panic x end
     = rmap (fun p => (VInt (fst p), snd p)) (run (de_int false (e_ub E) i) (form ++ rest))) by (destruct (run _ _) as [[]| |]; reflexivity).
  rewrite K. clear K.
  (* two forms that start the same input are the same *)
  assert (U : forall f1 r1 n1 f2 r2 n2, denotes (wire_bits i) f1 n1 -> denotes (wire_bits i) f2 n2 -> f1 ++ r1 = f2 ++ r2 -> n1 = n2 /\ r1 = r2).
  { intros f1 r1 n1 f2 r2 n2 D1 D2 He.
    assert (A : forall (x y u v : bytes), x ++ u = y ++ v -> len x = len y -> x = y /\ u = v).
    { clear. induction x as [|a x IH]; intros [|b y] u v He Hl; rewrite ?len_cons in Hl; try (rewrite len_nil in Hl); try (cbn in He; auto; fail); try lia.
      cbn [app] in He. injection He as -> He. destruct (IH _ _ _ He) as [-> ->]; [lia|auto]. }
    destruct D1; inversion D2; subst; cbn [app] in He; inversion He; subst; try lia; auto;
    match goal with H1 : ?x ++ _ = ?y ++ _ |- _ => destruct (A _ _ _ _ H1) as [-> ->]; [lia|auto] end. }
  inversion H as [f' n' r' He Hd' Hin' Hr|f' n' r' He Hd' Hin' Hr|r' He Hw Hr|r' He Hr|Hno H1 H2 Hr].
  - destruct (U _ _ _ _ _ _ Hd Hd' He) as [-> ->]. reflexivity.
  - destruct (U _ _ _ _ _ _ Hd Hd' He) as [-> ->]. contradiction.
  - exfalso. inversion Hd; subst; cbn [app] in He; inversion He; subst; try lia; rewrite Hw in *; discriminate.
  - exfalso. inversion Hd; subst; cbn [app] in He; inversion He; subst; try lia; discriminate.
  - exfalso. eapply Hno; eauto.
Qed.

(** C08.  Complete description of integer decoding ([int_outcome], Spec.v): in range or
    IntegerOverflow, never wrapped.  usize and isize: 64-bit targets (see C46). *)
Theorem C08_decode_int : forall E d i bs, e_fw E = false -> wide i = true ->
  (i = Usize \/ i = Isize -> e_ub E = 64) -> wfb bs ->
  int_outcome (e_ub E) i bs (run (deserialize E d (TInt i)) bs).
Proof.
  intros E d i bs Hfw Hi Hub Hf. pose proof (int_decodes (e_ub E) i bs Hi Hub Hf) as H.
  unfold deserialize. cbn [de_ty]. rewrite Hfw, run_bind. destruct (run (de_int false (e_ub E) i) bs) as [[]| |]; exact H.
Qed.
Theorem C08_decode_byte : forall E d i bs, wide i = false -> wfb bs ->
  run (deserialize E d (TInt i)) bs =
  match bs with
  | [] => Err EIo
  | b :: rest => Ok (VInt (if ity_signed i then if b <? 128 then Z.of_N b else Z.of_N b - 256 else Z.of_N b), rest)
  end.
Proof.
  intros E d i bs Hi Hf. unfold deserialize. cbn [de_ty]. destruct i; try discriminate; cbn [de_int ity_signed]; unfold de_u8, de_i8;
  rewrite !run_bind; (destruct bs as [|b r]; [reflexivity|]); rewrite run_read_byte_cons; cbn [run]; try reflexivity.
Qed.
Theorem C08_decode_fixed_width : forall E d i bs z rest, e_fw E = true -> wide i = true ->
  (i = Usize \/ i = Isize -> e_ub E = 64) -> wfb bs ->
  run (deserialize E d (TInt i)) bs = Ok (VInt z, rest) ->
  exists x, bs = x ++ rest /\ len x = ity_bits (e_ub E) i / 8 /\ z = number i (le_val x) /\ in_ity (e_ub E) i z.
Proof.
  intros E d i bs z rest Hfw Hi Hub Hf Hr. unfold deserialize in Hr. cbn [de_ty] in Hr. rewrite Hfw, run_bind in Hr.
  destruct (run (de_int true (e_ub E) i) bs) as [[z' r']| |] eqn:Er; try discriminate. cbn [run] in Hr. apply Ok_inj in Hr. injection Hr as -> ->.
  eapply int_decodes_fixed; eauto.
Qed.

(** C09.  The bit-level mapping of the code is the mathematical zig-zag, a bijection. *)
Theorem C09_zigzag : forall bits z, bits = 64 \/ bits = 128 -> inS bits z ->
  zigzag bits z = (if (0 <=? z)%Z then Z.to_N (2 * z) else Z.to_N (- 2 * z - 1))
  /\ zigzag bits z < 2 ^ bits /\ gazgiz bits (zigzag bits z) = z.
Proof.
  intros bits z Hb Hz. assert (0 < bits) by lia. rewrite zigzag_zz, gazgiz_gz by assumption.
  split; [unfold zz; destruct (0 <=? z)%Z; reflexivity|]. split; [apply zz_bound; assumption|apply gz_zz].
Qed.
Theorem C09_gazgiz : forall bits n, bits = 64 \/ bits = 128 -> n < 2 ^ bits ->
  gazgiz bits n = unzigzag n /\ inS bits (gazgiz bits n) /\ zigzag bits (gazgiz bits n) = n.
Proof.
  intros bits n Hb Hn. assert (0 < bits) by lia. rewrite gazgiz_gz. split; [reflexivity|].
  pose proof (gz_range bits n H Hn). split; [assumption|]. rewrite zigzag_zz by assumption. apply zz_gz.
Qed.
Theorem C09_small_first : forall bits y z, bits = 64 \/ bits = 128 -> inS bits y -> inS bits z ->
  (Z.abs y < Z.abs z)%Z -> zigzag bits y < zigzag bits z.
Proof.
  intros bits y z Hb Hy Hz Ha. assert (0 < bits) by lia. rewrite !zigzag_zz by assumption. unfold zz.
  destruct (0 <=? y)%Z eqn:E1; destruct (0 <=? z)%Z eqn:E2; lia.
Qed.

(** C46.  Reading usize data written on a target with narrower or equal pointers. *)
Theorem C46_usize_portable : forall E E' d d' z b, wf_env E -> wf_env E' -> e_fw E = e_fw E' ->
  in_ity (e_ub E) Usize z -> in_ity (e_ub E') Usize z ->
  to_vec E d (TInt Usize) (VInt z) = Ok b -> from_slice E' d' (TInt Usize) b = Ok (VInt z).
Proof.
  intros E E' d d' z b W W' Hfw Hz Hz' Hs. unfold to_vec, to_writer, ser_bytes in Hs. cbn in Hs. apply Ok_inj in Hs. subst b.
  unfold from_slice, deserialize. cbn [de_ty]. rewrite run_bind, Hfw. change (ser_usize (e_fw E') (Z.to_N z)) with (ser_int (e_fw E') Usize z).
  rewrite rt_int; [reflexivity| | |exact Hz']; destruct (we_ub _ W') as [->| ->]; lia.
Qed.
(** The full claim (same number or an error) is false: a 32-bit reader truncates. *)
Theorem C46_usize_refuted : exists E E' z b z', wf_env E /\ wf_env E' /\ e_fw E = e_fw E' /\
  e_ub E = 64 /\ e_ub E' = 32 /\ in_ity (e_ub E) Usize z /\
  to_vec E 0 (TInt Usize) (VInt z) = Ok b /\ from_slice E' 0 (TInt Usize) b = Ok (VInt z') /\ z' <> z.
Proof.
  pose (E32 := mkEnv false true true 32 None (fun _ => 8) (e_cmp new) (e_iter new) (e_dec new) (e_ext new) (e_time new) (e_sch new)).
  exists new, E32, 4294967301%Z, [253; 5; 0; 0; 0; 1; 0; 0; 0], 5%Z.
  split; [apply wf_new|]. split; [destruct wf_new; constructor; cbn; auto|].
  repeat split; try reflexivity; try (vm_compute; discriminate).
Qed.
(** What is read for numbers that do not exist on the reading target: never an error, always the number of that
    type which is the same modulo the pointer width.  [Usize] and [Isize]. *)
Theorem C46_exact : forall E E' d d' i z b, wf_env E -> wf_env E' -> e_fw E = e_fw E' -> i = Usize \/ i = Isize ->
  in_ity (e_ub E) i z -> to_vec E d (TInt i) (VInt z) = Ok b ->
  exists z', from_slice E' d' (TInt i) b = Ok (VInt z') /\ in_ity (e_ub E') i z' /\ (z' mod 2 ^ Z.of_N (e_ub E') = z mod 2 ^ Z.of_N (e_ub E'))%Z.
Proof.
  intros E E' d d' i z b W W' Hfw Hi Hz Hs. unfold to_vec, to_writer, ser_bytes in Hs. cbn in Hs. rewrite app_nil_r in Hs. apply Ok_inj in Hs. subst b.
  unfold from_slice, deserialize. cbn [de_ty]. rewrite run_bind, Hfw.
  assert (Hub : 0 < e_ub E' <= 64) by (destruct (we_ub _ W') as [->| ->]; lia).
  assert (R : forall j, in_ity 64 j z -> run (de_int (e_fw E') 64 j) (ser_int (e_fw E') j z) = Ok (z, [])).
  { intros j Hj. pose proof (rt_int (e_fw E') 64 ltac:(lia) ltac:(lia) j z [] Hj) as R. rewrite app_nil_r in R. exact R. }
  assert (Hb : (0 < 2 ^ Z.of_N (e_ub E'))%Z) by (apply Z.pow_pos_nonneg; lia).
  destruct Hi as [-> | ->].
  - exists (z mod 2 ^ Z.of_N (e_ub E'))%Z.
    assert (H64 : in_ity 64 U64 z).
    { unfold in_ity, inU in *. cbn [ity_signed ity_bits] in *. destruct (we_ub _ W) as [H|H]; rewrite H in Hz; cbn in *; lia. }
    specialize (R U64 H64). cbn [de_int ser_int] in *. rewrite run_bind in R. unfold de_usize, ser_usize. rewrite !run_bind.
    destruct (run (de_u64 (e_fw E')) (ser_u64 (e_fw E') (Z.to_N z))) as [[x y]| |]; try discriminate. cbn in R. inversion R; subst. cbn [run].
    split; [|split].
    + cbn [rmap fst]. rewrite N2Z.inj_mod, N2Z.inj_pow. reflexivity.
    + unfold in_ity, inU. cbn [ity_signed ity_bits]. apply Z.mod_pos_bound. exact Hb.
    + apply Z.mod_mod. lia.
  - exists (castS (e_ub E') z).
    assert (H64 : in_ity 64 I64 z).
    { unfold in_ity, inS in *. cbn [ity_signed ity_bits] in *. destruct (we_ub _ W) as [H|H]; rewrite H in Hz; cbn in *; lia. }
    specialize (R I64 H64). cbn [de_int ser_int] in *. unfold de_isize, ser_isize. rewrite run_bind, R. cbn [run].
    split; [reflexivity|]. split.
    + unfold in_ity. cbn [ity_signed ity_bits]. apply signZ_range; [lia|apply wrapZ_bound].
    + unfold castS, signZ, wrapZ. pose proof (Z.mod_pos_bound z _ Hb). destruct (_ <? _); rewrite Z2N.id by lia.
      * apply Z.mod_mod. lia.
      * rewrite Zminus_mod, Z.mod_same, Z.sub_0_r, !Z.mod_mod by lia. reflexivity.
Qed.
(** In particular isize data is portable as usize data is. *)
Theorem C46_isize_portable : forall E E' d d' z b, wf_env E -> wf_env E' -> e_fw E = e_fw E' ->
  in_ity (e_ub E) Isize z -> in_ity (e_ub E') Isize z ->
  to_vec E d (TInt Isize) (VInt z) = Ok b -> from_slice E' d' (TInt Isize) b = Ok (VInt z).
Proof.
  intros E E' d d' z b W W' Hfw Hz Hz' Hs. unfold to_vec, to_writer, ser_bytes in Hs. cbn in Hs. apply Ok_inj in Hs. subst b.
  unfold from_slice, deserialize. cbn [de_ty]. rewrite run_bind, Hfw. change (ser_isize (e_fw E') z) with (ser_int (e_fw E') Isize z).
  rewrite rt_int; [reflexivity| | |exact Hz']; destruct (we_ub _ W') as [->| ->]; lia.
Qed.
Example C46_isize_case : exists E', wf_env E' /\ e_ub E' = 32 /\ e_ub new = 64
  /\ to_vec new 0 (TInt Isize) (VInt (-4294967301)) = Ok [253; 9; 0; 0; 0; 2; 0; 0; 0]
  /\ from_slice E' 0 (TInt Isize) [253; 9; 0; 0; 0; 2; 0; 0; 0] = Ok (VInt (-5)).
Proof.
  exists (mkEnv false true true 32 None (fun _ => 8) (e_cmp new) (e_iter new) (e_dec new) (e_ext new) (e_time new) (e_sch new)).
  split; [destruct wf_new; constructor; cbn; auto|]. repeat split; vm_compute; reflexivity.
Qed.

Example C07_case : to_vec new 0 (TInt I64) (VInt (-126)) = Ok [251; 251; 0] /\ width (code I64 (-126)) = 3.
Proof. split; reflexivity. Qed.
Example C07_case_long : denotes 64 [253; 5; 0; 0; 0; 0; 0; 0; 0] 5 /\ from_slice new 0 (TInt U16) [253; 5; 0; 0; 0; 0; 0; 0; 0] = Ok (VInt 5).
Proof. split; [apply (den_8 64 [5; 0; 0; 0; 0; 0; 0; 0]); reflexivity|reflexivity]. Qed.
Example C08_case : from_slice new 0 (TInt U16) [252; 0; 0; 1; 0] = Err EOverflow /\ from_slice new 0 (TInt I16) [252; 0; 0; 1; 0] = Err EOverflow
  /\ from_slice new 0 (TInt U16) [254] = Err EOverflow /\ from_slice new 0 (TInt U16) [255; 1] = Err EInvalidInt.
Proof. repeat split; reflexivity. Qed.
Example C09_case : inS 64 (- 2 ^ 63) /\ zigzag 64 (- 2 ^ 63) = 2 ^ 64 - 1 /\ gazgiz 64 (2 ^ 64 - 1) = (- 2 ^ 63)%Z /\ zigzag 128 (2 ^ 127 - 1) = 2 ^ 128 - 2.
Proof. repeat split; vm_compute; congruence. Qed.

Print Assumptions C07_canonical.
Print Assumptions C07_minimal.
Print Assumptions C07_any_form.
Print Assumptions C08_decode_int.
Print Assumptions C08_decode_byte.
Print Assumptions C08_decode_fixed_width.
Print Assumptions C09_zigzag.
Print Assumptions C09_gazgiz.
Print Assumptions C09_small_first.
Print Assumptions C46_usize_portable.
Print Assumptions C46_usize_refuted.
Print Assumptions C46_exact.
Print Assumptions C46_isize_portable.
