(** Integer decoding against its specification.  Proofs. *)

From Verif Require Import Base BaseL Prog ProgL Prim PrimL Ty Ser De RtL Spec.
From Coq Require Import List NArith ZArith Bool Lia ZifyBool.
Import ListNotations.
Open Scope N_scope.

Inductive dec_outcome (w : N) (bs : bytes) : res (N * bytes) -> Prop :=
| do_ok : forall form n rest, bs = form ++ rest -> denotes w form n -> n < 2 ^ w -> dec_outcome w bs (Ok (n, rest))
| do_128 : forall rest, bs = 254 :: rest -> w = 64 -> dec_outcome w bs (Err EOverflow)
| do_255 : forall rest, bs = 255 :: rest -> dec_outcome w bs (Err EInvalidInt)
| do_short : (forall form n rest, bs = form ++ rest -> ~ denotes w form n) -> hd 0 bs <> 255 -> (w = 64 -> hd 0 bs <> 254) ->
    dec_outcome w bs (Err EIo).

Lemma den_short : forall w b k (bs : bytes), len bs < k -> (b, k) = (251, 2) \/ (b, k) = (252, 4) \/ (b, k) = (253, 8) \/ (b, k) = (254, 16) ->
  forall form n rest, b :: bs = form ++ rest -> ~ denotes w form n.
Proof.
  intros w b k bs Hl Hb form n rest He Hd.
  inversion Hd; subst; cbn [app] in He; injection He as E1 E2; subst;
    try (rewrite len_app in Hl); destruct Hb as [Hb|[Hb|[Hb|Hb]]]; try discriminate; inversion Hb; subst; lia.
Qed.
Lemma den_lt : forall w form n, w = 64 \/ w = 128 -> wfb form -> denotes w form n -> n < 2 ^ w.
Proof.
  intros w form n Hw Hf Hd.
  assert (P : 2 ^ 64 <= 2 ^ w) by (apply N.pow_le_mono_r; lia).
  assert (B : forall k x, wfb x -> len x = k -> k <= 8 -> le_val x < 2 ^ w).
  { intros k x Hx Hk H8. pose proof (le_val_bound x Hx) as H. assert (256 ^ len x <= 256 ^ 8) by (apply N.pow_le_mono_r; lia).
    change (256 ^ 8) with (2 ^ 64) in *. lia. }
  inversion Hd; subst; try (apply wfb_cons in Hf; destruct Hf as [_ Hf]).
  - assert (250 < 2 ^ 64) by reflexivity. lia.
  - eapply B; eauto; lia.
  - eapply B; eauto; lia.
  - eapply B; eauto; lia.
  - pose proof (le_val_bound x Hf) as H3. match goal with H : len x = 16 |- _ => rewrite H in H3 end. exact H3.
Qed.

Lemma run_fixed_form : forall w k b (bs : bytes), wfb (b :: bs) -> (w = 64 \/ w = 128) ->
  (b, k) = (251, 2) \/ (b, k) = (252, 4) \/ (b, k) = (253, 8) \/ ((b, k) = (254, 16) /\ w = 128) ->
  dec_outcome w (b :: bs) (run (x <- read_n k ;; Ret (le_val x)) bs).
Proof.
  intros w k b bs Hf Hw Hb. rewrite run_bind. unfold read_n. cbn [run].
  destruct (split_at k bs) as [[x y]|] eqn:Es.
  - apply split_at_some in Es. destruct Es as [-> Hx]. cbn [run].
    assert (D : denotes w (b :: x) (le_val x)).
    { destruct Hb as [Hb|[Hb|[Hb|[Hb Hw']]]]; injection Hb as -> ->; constructor; assumption. }
    eapply (do_ok w _ (b :: x)); [reflexivity|exact D|]. eapply den_lt; [exact Hw| |exact D].
    change (b :: x ++ y) with ((b :: x) ++ y) in Hf. apply wfb_app in Hf. apply Hf.
  - apply split_at_none in Es. apply do_short.
    + eapply den_short; [exact Es|]. destruct Hb as [Hb|[Hb|[Hb|[Hb _]]]]; auto.
    + cbn. destruct Hb as [Hb|[Hb|[Hb|[Hb _]]]]; injection Hb as -> ->; discriminate.
    + cbn. intros ->. destruct Hb as [Hb|[Hb|[Hb|[Hb Hc]]]]; injection Hb as -> ->; discriminate.
Qed.

Definition decoder (w : N) : prog N := if w =? 128 then decode_u128 else decode_u64.
Lemma decoder_outcome : forall w bs, w = 64 \/ w = 128 -> wfb bs -> dec_outcome w bs (run (decoder w) bs).
Proof.
  intros w bs Hw Hf.
  assert (K : run (decoder w) bs = match bs with [] => Err EIo | b :: r =>
     run (if b =? 251 then x <- read_n 2 ;; Ret (le_val x) else if b =? 252 then x <- read_n 4 ;; Ret (le_val x)
          else if b =? 253 then x <- read_n 8 ;; Ret (le_val x)
          else if b =? 254 then (if w =? 128 then x <- read_n 16 ;; Ret (le_val x) else Fail EOverflow)
          else if b =? 255 then Fail EInvalidInt else Ret b) r end).
  { unfold decoder, decode_u128, decode_u64. destruct bs as [|b r].
    - destruct (w =? 128); reflexivity.
    - destruct (w =? 128); rewrite run_bind, run_read_byte_cons; reflexivity. }
  rewrite K. clear K. destruct bs as [|b r].
  { apply do_short; [|discriminate|discriminate]. intros form n rest He Hd.
    destruct form as [|c form]; [|discriminate]. inversion Hd. }
  destruct (b =? 251) eqn:E1; [apply run_fixed_form; auto; left; f_equal; lia|].
  destruct (b =? 252) eqn:E2; [apply run_fixed_form; auto; right; left; f_equal; lia|].
  destruct (b =? 253) eqn:E3; [apply run_fixed_form; auto; right; right; left; f_equal; lia|].
  destruct (b =? 254) eqn:E4.
  { destruct (w =? 128) eqn:E5; [apply run_fixed_form; auto; right; right; right; split; [f_equal|]; lia|].
    eapply do_128; [f_equal; lia|lia]. }
  destruct (b =? 255) eqn:E5; [eapply do_255; f_equal; lia|].
  cbn [run]. apply wfb_cons in Hf. destruct Hf as [Hb _].
  assert (D : denotes w [b] b) by (constructor; lia).
  eapply (do_ok w (b :: r) [b]); [reflexivity|exact D|]. eapply den_lt; [exact Hw| |exact D]. repeat constructor. exact Hb.
Qed.

Lemma unzigzag_gz : forall n, unzigzag n = gz n.
Proof. reflexivity. Qed.
Lemma code_zz : forall i z, ity_signed i = true -> code i z = zz z.
Proof. intros i z H. unfold code, zz. rewrite H. destruct (0 <=? z)%Z; reflexivity. Qed.

(** The variable-length decoders. *)
Lemma int_decodes : forall ub i bs, wide i = true -> (i = Usize \/ i = Isize -> ub = 64) -> wfb bs ->
  int_outcome ub i bs (rmap (fun p => (VInt (fst p), snd p)) (run (de_int false ub i) bs)).
Proof.
  intros ub i bs Hi Hub Hf.
  assert (Hw : wire_bits i = 64 \/ wire_bits i = 128) by (destruct i; cbn; auto).
  pose proof (decoder_outcome (wire_bits i) bs Hw Hf) as D.
  (* every wide decoder is the basic decoder followed by a range check *)
  assert (K : run (de_int false ub i) bs =
    match run (decoder (wire_bits i)) bs with
    | Ok (n, r) => run (if (if ity_signed i then ((- 2 ^ (Z.of_N (ity_bits ub i) - 1) <=? number i n) && (number i n <? 2 ^ (Z.of_N (ity_bits ub i) - 1)))%Z
                     else n <? 2 ^ ity_bits ub i) then Ret (number i n) else Fail EOverflow) r
    | Err e => Err e | Panic x => Panic x end).
  { destruct i; try discriminate; cbn [de_int]; unfold de_u16, de_u32, de_u64, de_u128, de_usize, de_i16, de_i32, de_i64, de_i128, de_isize, de_u64, de_i64;
      rewrite ?run_bind; cbn [wire_bits]; change (decoder 64) with decode_u64; change (decoder 128) with decode_u128;
      match goal with |- context [run ?p bs] => destruct (run p bs) as [[n r]|e|x] eqn:Er end; try reflexivity;
      cbn [ity_signed ity_bits]; unfold number; cbn [ity_signed]; rewrite ?unzigzag_gz, ?gazgiz_gz.
    - unfold narrowU. destruct (n <? 2 ^ 16); reflexivity.
    - unfold narrowS. reflexivity.
    - unfold narrowU. destruct (n <? 2 ^ 32); reflexivity.
    - unfold narrowS. reflexivity.
    - apply decode_u64_ok in Er; [|exact Hf]. cbn [run]. replace (n <? 2 ^ 64) with true by lia. reflexivity.
    - apply decode_u64_ok in Er; [|exact Hf]. destruct (gz_range 64 n eq_refl Er) as [G1 G2]. cbn [run].
      replace ((- 2 ^ (Z.of_N 64 - 1) <=? gz n) && (gz n <? 2 ^ (Z.of_N 64 - 1)))%Z with true by lia. reflexivity.
    - apply decode_u128_ok in Er; [|exact Hf]. cbn [run]. replace (n <? 2 ^ 128) with true by lia. reflexivity.
    - apply decode_u128_ok in Er; [|exact Hf]. destruct (gz_range 128 n eq_refl Er) as [G1 G2]. cbn [run].
      replace ((- 2 ^ (Z.of_N 128 - 1) <=? gz n) && (gz n <? 2 ^ (Z.of_N 128 - 1)))%Z with true by lia. reflexivity.
    - rewrite (Hub (or_introl eq_refl)). apply decode_u64_ok in Er; [|exact Hf]. cbn [run]. replace (n <? 2 ^ 64) with true by lia.
      rewrite N.mod_small by lia. reflexivity.
    - rewrite (Hub (or_intror eq_refl)). apply decode_u64_ok in Er; [|exact Hf]. destruct (gz_range 64 n eq_refl Er) as [G1 G2]. cbn [run].
      replace ((- 2 ^ (Z.of_N 64 - 1) <=? gz n) && (gz n <? 2 ^ (Z.of_N 64 - 1)))%Z with true by lia.
      rewrite castS_id by (try lia; split; assumption). reflexivity. }
  rewrite K. clear K. inversion D as [form n rest He Hd Hn Hr|rest He Hw' Hr|rest He Hr|Hno H1 H2 Hr].
  - assert (Hin : (if ity_signed i then ((- 2 ^ (Z.of_N (ity_bits ub i) - 1) <=? number i n) && (number i n <? 2 ^ (Z.of_N (ity_bits ub i) - 1)))%Z
                     else n <? 2 ^ ity_bits ub i) = true <-> in_ity ub i (number i n)).
    { unfold in_ity, inS, inU, number. destruct (ity_signed i); [lia|]. pose proof (zpow2 (ity_bits ub i)). lia. }
    destruct (if ity_signed i then _ else _); cbn [run rmap fst snd].
    + eapply io_ok; eauto. apply Hin. reflexivity.
    + eapply io_over; eauto. intros Hx. apply Hin in Hx. discriminate.
  - eapply io_128; eauto.
  - eapply io_255; eauto.
  - apply io_short; auto.
Qed.

Lemma width_len64 : forall x, x < 2 ^ 64 -> len (encode_u64 x) = width x.
Proof.
  intros x H. unfold encode_u64, width.
  destruct (x <? 251) eqn:E1; [replace (x <=? 250) with true by lia; reflexivity|]. replace (x <=? 250) with false by lia.
  destruct (x <? 2 ^ 16) eqn:E2; [replace (x <=? 65535) with true by lia; reflexivity|]. replace (x <=? 65535) with false by lia.
  destruct (x <? 2 ^ 32) eqn:E3; [replace (x <=? 4294967295) with true by lia; reflexivity|]. replace (x <=? 4294967295) with false by lia.
  replace (x <=? 18446744073709551615) with true by lia. reflexivity.
Qed.
Lemma width_len128 : forall x, x < 2 ^ 128 -> len (encode_u128 x) = width x.
Proof.
  intros x H. unfold encode_u128, width.
  destruct (x <? 251) eqn:E1; [replace (x <=? 250) with true by lia; reflexivity|]. replace (x <=? 250) with false by lia.
  destruct (x <? 2 ^ 16) eqn:E2; [replace (x <=? 65535) with true by lia; reflexivity|]. replace (x <=? 65535) with false by lia.
  destruct (x <? 2 ^ 32) eqn:E3; [replace (x <=? 4294967295) with true by lia; reflexivity|]. replace (x <=? 4294967295) with false by lia.
  destruct (x <? 2 ^ 64) eqn:E4; [replace (x <=? 18446744073709551615) with true by lia; reflexivity|].
  replace (x <=? 18446744073709551615) with false by lia. reflexivity.
Qed.
Lemma denotes_enc64 : forall w x, x < 2 ^ 64 -> denotes w (encode_u64 x) x.
Proof.
  intros w x H. unfold encode_u64.
  destruct (x <? 251) eqn:E1; [constructor; lia|].
  destruct (x <? 2 ^ 16) eqn:E2; [rewrite <- (le_val_bytes 2 x) at 2 by (change (256 ^ N.of_nat 2) with (2 ^ 16); lia); constructor; reflexivity|].
  destruct (x <? 2 ^ 32) eqn:E3; [rewrite <- (le_val_bytes 4 x) at 2 by (change (256 ^ N.of_nat 4) with (2 ^ 32); lia); constructor; reflexivity|].
  rewrite <- (le_val_bytes 8 x) at 2 by (change (256 ^ N.of_nat 8) with (2 ^ 64); lia). constructor; reflexivity.
Qed.
Lemma denotes_enc128 : forall x, x < 2 ^ 128 -> denotes 128 (encode_u128 x) x.
Proof.
  intros x H. destruct (x <? 2 ^ 64) eqn:E.
  - replace (encode_u128 x) with (encode_u64 x); [apply denotes_enc64; lia|]. unfold encode_u64, encode_u128. rewrite E. reflexivity.
  - unfold encode_u128. replace (x <? 251) with false by lia. replace (x <? 2 ^ 16) with false by lia. replace (x <? 2 ^ 32) with false by lia. rewrite E.
    rewrite <- (le_val_bytes 16 x) at 2 by (change (256 ^ N.of_nat 16) with (2 ^ 128); lia). constructor; reflexivity.
Qed.

Lemma int_encodes : forall ub i z, wide i = true -> (ub = 32 \/ ub = 64) -> in_ity ub i z ->
  denotes (wire_bits i) (ser_int false i z) (code i z) /\ len (ser_int false i z) = width (code i z).
Proof.
  intros ub i z Hi Hub Hz. unfold in_ity in Hz.
  assert (P : 2 ^ ub <= 2 ^ 64) by (apply N.pow_le_mono_r; lia).
  assert (S : forall b, 0 < b -> b <= 64 -> inS b z -> zigzag 64 z = zz z /\ zz z < 2 ^ 64).
  { intros b H0 H1 H2. assert (inS 64 z) by (eapply inS_mono; [| |exact H2]; lia). split; [apply zigzag_zz; [lia|assumption]|apply zz_bound; [lia|assumption]]. }
  destruct i; try discriminate; cbn [ity_signed ity_bits] in Hz; rewrite ?code_zz by reflexivity; cbn [ser_int wire_bits];
    unfold ser_isize, ser_usize, ser_u16, ser_u32, ser_u64, ser_u128, ser_i16, ser_i32, ser_i64, ser_i128; unfold code; cbn [ity_signed];
    try (apply inU_N in Hz; destruct Hz as [Hz _]; split; [apply denotes_enc64|apply width_len64]; lia).
  - destruct (S 16) as [-> ?]; try lia; auto. split; [apply denotes_enc64|apply width_len64]; assumption.
  - destruct (S 32) as [-> ?]; try lia; auto. split; [apply denotes_enc64|apply width_len64]; assumption.
  - destruct (S 64) as [-> ?]; try lia; auto. split; [apply denotes_enc64|apply width_len64]; assumption.
  - apply inU_N in Hz. destruct Hz as [Hz _]. split; [apply denotes_enc128|apply width_len128]; assumption.
  - rewrite zigzag_zz by (try lia; assumption). pose proof (zz_bound 128 z ltac:(lia) Hz). split; [apply denotes_enc128|apply width_len128]; assumption.
  - destruct (S ub) as [-> ?]; try lia; auto. split; [apply denotes_enc64|apply width_len64]; assumption.
Qed.

Lemma width_min : forall w form n, wfb form -> denotes w form n -> width n <= len form.
Proof.
  intros w form n Hf Hd. unfold width.
  assert (B : forall x k, wfb x -> len x = k -> le_val x < 256 ^ k) by (intros x k H <-; apply le_val_bound, H).
  inversion Hd; subst; try (apply wfb_cons in Hf; destruct Hf as [_ Hf]); rewrite ?len_cons.
  - replace (n <=? 250) with true by lia. reflexivity.
  - specialize (B x 2 Hf H). change (256 ^ 2) with 65536 in B. destruct (le_val x <=? 250); [lia|]. replace (le_val x <=? 65535) with true by lia. lia.
  - specialize (B x 4 Hf H). change (256 ^ 4) with 4294967296 in B. destruct (le_val x <=? 250); [lia|]. destruct (le_val x <=? 65535); [lia|]. replace (le_val x <=? 4294967295) with true by lia. lia.
  - specialize (B x 8 Hf H). change (256 ^ 8) with 18446744073709551616 in B. destruct (le_val x <=? 250); [lia|]. destruct (le_val x <=? 65535); [lia|].
    destruct (le_val x <=? 4294967295); [lia|]. replace (le_val x <=? 18446744073709551615) with true by lia. lia.
  - destruct (le_val x <=? 250); [lia|]. destruct (le_val x <=? 65535); [lia|].
    destruct (le_val x <=? 4294967295); [lia|]. destruct (le_val x <=? 18446744073709551615); lia.
Qed.

(** Fixed-width builds: exactly the bytes of the type, no wrap-around. *)
Lemma int_decodes_fixed : forall ub i bs z rest, (i = Usize \/ i = Isize -> ub = 64) -> wfb bs ->
  run (de_int true ub i) bs = Ok (z, rest) -> wide i = true ->
  exists x, bs = x ++ rest /\ len x = ity_bits ub i / 8 /\ z = number i (le_val x) /\ in_ity ub i z.
Proof.
  intros ub i bs z rest Hub Hf Hr Hi.
  assert (B : forall k x y, bs = x ++ y -> len x = k -> le_val x < 256 ^ k) by (intros k x y -> <-; apply le_val_bound; apply wfb_app in Hf; apply Hf).
  destruct i; try discriminate; cbn [de_int] in Hr;
    unfold de_u16, de_u32, de_u64, de_u128, de_usize, de_i16, de_i32, de_i64, de_i128, de_isize, de_u64, de_i64 in Hr; rewrite ?run_bind in Hr;
    match type of Hr with context [run (read_n ?k) bs] => destruct (run (read_n k) bs) as [[x y]|e|p] eqn:Er end; try discriminate;
    apply run_read_n_ok in Er; destruct Er as [He Hx]; specialize (B _ _ _ He Hx); cbn [run] in Hr; apply Ok_inj in Hr; injection Hr as <- <-; exists x;
    rewrite ?(Hub (or_introl eq_refl)) in *; rewrite ?(Hub (or_intror eq_refl)) in *; rewrite Hx; rewrite ?gazgiz_gz;
    (split; [exact He|]); (split; [reflexivity|]); unfold number, in_ity; cbn [ity_signed ity_bits]; rewrite ?unzigzag_gz.
  1,3,5,7: (split; [reflexivity|]; split; [lia|]; pose proof (zpow2 16); pose proof (zpow2 32); pose proof (zpow2 64); pose proof (zpow2 128);
       change (256 ^ 2) with (2 ^ 16) in B; change (256 ^ 4) with (2 ^ 32) in B; change (256 ^ 8) with (2 ^ 64) in B; change (256 ^ 16) with (2 ^ 128) in B; lia).
  - pose proof (gz_range 16 (le_val x) ltac:(lia) B). rewrite castS_id by (try lia; assumption). auto.
  - pose proof (gz_range 32 (le_val x) ltac:(lia) B). rewrite castS_id by (try lia; assumption). auto.
  - pose proof (gz_range 64 (le_val x) ltac:(lia) B). auto.
  - pose proof (gz_range 128 (le_val x) ltac:(lia) B). auto.
  - change (256 ^ 8) with (2 ^ 64) in B. rewrite N.mod_small by lia. pose proof (zpow2 64). unfold inU. split; [reflexivity|lia].
  - pose proof (gz_range 64 (le_val x) ltac:(lia) B). rewrite castS_id by (try lia; assumption). auto.
Qed.
