(** Lemmas about Utf8.  Proof part. *)

From Verif Require Import Base BaseL Prog ProgL Utf8.
From Coq Require Import List NArith ZArith Bool Lia ZifyBool ZifyN ZifyNat.
Import ListNotations.
Open Scope N_scope.

Definition all256 : list N := map N.of_nat (seq 0 256).
Lemma byte_forall : forall P : N -> bool, forallb P all256 = true -> forall b, b < 256 -> P b = true.
Proof.
  intros P H b Hb. rewrite forallb_forall in H. apply H.
  unfold all256. apply in_map_iff. exists (N.to_nat b). split; [lia|]. apply in_seq. lia.
Qed.

Lemma char_length_spec : forall b, b < 256 ->
  char_length b = if b <? 128 then 1 else if b <? 192 then 0 else if b <? 224 then 2
                  else if b <? 240 then 3 else if b <? 248 then 4 else 0.
Proof.
  intros b Hb. apply N.eqb_eq. revert b Hb. apply byte_forall. vm_compute. reflexivity.
Qed.

(** The four shapes of valid sequences. *)
Definition ok2 (b0 b1 : N) : bool := inrng 194 223 b0 && cont b1.
Definition ok3 (b0 b1 b2 : N) : bool :=
  ((b0 =? 224) && inrng 160 191 b1 || inrng 225 236 b0 && cont b1
   || (b0 =? 237) && inrng 128 159 b1 || inrng 238 239 b0 && cont b1) && cont b2.
Definition ok4 (b0 b1 b2 b3 : N) : bool :=
  ((b0 =? 240) && inrng 144 191 b1 || inrng 241 243 b0 && cont b1
   || (b0 =? 244) && inrng 128 143 b1) && cont b2 && cont b3.

Lemma utf8_ok_1 : forall b0 r, b0 < 128 -> utf8_ok (b0 :: r) = utf8_ok r.
Proof. intros. cbn [utf8_ok]. replace (b0 <? 128) with true by lia. reflexivity. Qed.
Lemma utf8_ok_2 : forall b0 b1 r, ok2 b0 b1 = true -> utf8_ok (b0 :: b1 :: r) = utf8_ok r.
Proof.
  intros b0 b1 r H. cbn [utf8_ok]. unfold ok2 in H. rewrite H.
  unfold inrng, cont, inrng in H. replace (b0 <? 128) with false by lia. reflexivity.
Qed.
Lemma utf8_ok_3 : forall b0 b1 b2 r, ok3 b0 b1 b2 = true -> utf8_ok (b0 :: b1 :: b2 :: r) = utf8_ok r.
Proof.
  intros b0 b1 b2 r H. cbn [utf8_ok]. unfold ok3 in H. rewrite H.
  unfold inrng, cont, inrng in *. replace (b0 <? 128) with false by lia.
  replace ((194 <=? b0) && (b0 <=? 223) && ((128 <=? b1) && (b1 <=? 191))) with false by lia.
  reflexivity.
Qed.
Lemma utf8_ok_4 : forall b0 b1 b2 b3 r, ok4 b0 b1 b2 b3 = true ->
  utf8_ok (b0 :: b1 :: b2 :: b3 :: r) = utf8_ok r.
Proof.
  intros b0 b1 b2 b3 r H. cbn [utf8_ok]. unfold ok4 in H. rewrite H.
  unfold inrng, cont, inrng in *. replace (b0 <? 128) with false by lia.
  replace ((194 <=? b0) && (b0 <=? 223) && ((128 <=? b1) && (b1 <=? 191))) with false by lia.
  match goal with |- (if ?c then _ else _) = _ => replace c with false by lia end.
  reflexivity.
Qed.

Lemma utf8_ok_inv : forall b0 l, utf8_ok (b0 :: l) = true ->
  (b0 < 128 /\ utf8_ok l = true) \/
  (exists b1 r, l = b1 :: r /\ ok2 b0 b1 = true /\ utf8_ok r = true) \/
  (exists b1 b2 r, l = b1 :: b2 :: r /\ ok3 b0 b1 b2 = true /\ utf8_ok r = true) \/
  (exists b1 b2 b3 r, l = b1 :: b2 :: b3 :: r /\ ok4 b0 b1 b2 b3 = true /\ utf8_ok r = true).
Proof.
  intros b0 l H. cbn [utf8_ok] in H.
  destruct (b0 <? 128) eqn:E0; [left; split; [lia|assumption]|].
  destruct l as [|b1 l]; [discriminate|]. fold (ok2 b0 b1) in H.
  destruct (ok2 b0 b1) eqn:E1; [right; left; eauto|].
  destruct l as [|b2 l]; [discriminate|]. fold (ok3 b0 b1 b2) in H.
  destruct (ok3 b0 b1 b2) eqn:E2; [right; right; left; eauto 10|].
  destruct l as [|b3 l]; [discriminate|]. fold (ok4 b0 b1 b2 b3) in H.
  destruct (ok4 b0 b1 b2 b3) eqn:E3; [right; right; right; eauto 10|discriminate].
Qed.

(** Encoding a scalar value: valid UTF-8 of the announced length, from which the value is read. *)
Ltac dm := Z.div_mod_to_equations; lia.

Lemma utf8_encode_props : forall c, scalar c ->
  exists b0 r, utf8_encode c = b0 :: r /\ b0 < 256 /\ char_length b0 = 1 + len r
    /\ utf8_ok (b0 :: r) = true /\ utf8_first (b0 :: r) = c /\ wfb r.
Proof.
  intros c Hc. unfold utf8_encode.
  destruct (c <? 128) eqn:E0.
  { exists c, []. repeat split; auto; try lia.
    - rewrite char_length_spec by lia. rewrite E0. reflexivity.
    - rewrite utf8_ok_1 by lia. reflexivity.
    - cbn [utf8_first]. rewrite E0. reflexivity.
    - constructor. }
  destruct (c <? 2048) eqn:E1.
  { assert (H : exists q s, c = 64 * q + s /\ s < 64 /\ c / 64 = q /\ c mod 64 = s).
    { exists (c / 64), (c mod 64). pose proof (N.mod_lt c 64 ltac:(lia)).
      pose proof (N.div_mod c 64 ltac:(lia)). auto. }
    destruct H as (q & s & -> & Hs & -> & ->).
    exists (192 + q), [128 + s]. split; [reflexivity|]. split; [lia|].
    split; [|split; [|split]].
    - rewrite char_length_spec by lia.
      replace (192 + q <? 128) with false by lia. replace (192 + q <? 192) with false by lia.
      replace (192 + q <? 224) with true by lia. reflexivity.
    - rewrite utf8_ok_2; [reflexivity|]. unfold ok2, inrng, cont, inrng. lia.
    - cbn [utf8_first nth]. replace (192 + q <? 128) with false by lia.
      replace (192 + q <? 224) with true by lia.
      replace ((192 + q) mod 32) with q by (apply (N.mod_unique _ _ 6); lia).
      replace ((128 + s) mod 64) with s by (apply (N.mod_unique _ _ 2); lia). lia.
    - repeat constructor. lia. }
  destruct (c <? 65536) eqn:E2.
  { assert (H : exists q t s, c = 4096 * q + 64 * t + s /\ s < 64 /\ t < 64 /\
                  c / 4096 = q /\ (c / 64) mod 64 = t /\ c mod 64 = s).
    { exists (c / 4096), ((c / 64) mod 64), (c mod 64).
      pose proof (N.mod_lt c 64 ltac:(lia)). pose proof (N.div_mod c 64 ltac:(lia)).
      pose proof (N.mod_lt (c / 64) 64 ltac:(lia)). pose proof (N.div_mod (c / 64) 64 ltac:(lia)).
      assert (c / 4096 = c / 64 / 64) by (rewrite N.div_div by lia; reflexivity).
      repeat split; try lia. }
    destruct H as (q & t & s & -> & Hs & Ht & -> & -> & ->).
    exists (224 + q), [128 + t; 128 + s]. split; [reflexivity|].
    assert (q < 16) by lia. split; [lia|].
    split; [|split; [|split]].
    - rewrite char_length_spec by lia.
      replace (224 + q <? 128) with false by lia. replace (224 + q <? 192) with false by lia.
      replace (224 + q <? 224) with false by lia. replace (224 + q <? 240) with true by lia. reflexivity.
    - rewrite utf8_ok_3; [reflexivity|]. unfold ok3, inrng, cont, inrng. unfold scalar in Hc. lia.
    - cbn [utf8_first nth]. replace (224 + q <? 128) with false by lia.
      replace (224 + q <? 224) with false by lia. replace (224 + q <? 240) with true by lia.
      replace ((224 + q) mod 16) with q by (apply (N.mod_unique _ _ 14); lia).
      replace ((128 + t) mod 64) with t by (apply (N.mod_unique _ _ 2); lia).
      replace ((128 + s) mod 64) with s by (apply (N.mod_unique _ _ 2); lia). lia.
    - repeat constructor; lia. }
  { assert (H : exists q u t s, c = 262144 * q + 4096 * u + 64 * t + s /\ s < 64 /\ t < 64 /\ u < 64 /\
                  c / 262144 = q /\ (c / 4096) mod 64 = u /\ (c / 64) mod 64 = t /\ c mod 64 = s).
    { exists (c / 262144), ((c / 4096) mod 64), ((c / 64) mod 64), (c mod 64).
      pose proof (N.mod_lt c 64 ltac:(lia)). pose proof (N.div_mod c 64 ltac:(lia)).
      pose proof (N.mod_lt (c / 64) 64 ltac:(lia)). pose proof (N.div_mod (c / 64) 64 ltac:(lia)).
      assert (Ea : c / 4096 = c / 64 / 64) by (rewrite N.div_div by lia; reflexivity).
      assert (Eb : c / 262144 = c / 64 / 64 / 64) by (rewrite !N.div_div by lia; reflexivity).
      rewrite <- Ea in *.
      pose proof (N.mod_lt (c / 4096) 64 ltac:(lia)). pose proof (N.div_mod (c / 4096) 64 ltac:(lia)).
      repeat split; try lia. }
    destruct H as (q & u & t & s & -> & Hs & Ht & Hu & -> & -> & -> & ->).
    exists (240 + q), [128 + u; 128 + t; 128 + s]. split; [reflexivity|].
    assert (q < 5) by (unfold scalar in Hc; lia). split; [lia|].
    split; [|split; [|split]].
    - rewrite char_length_spec by lia.
      replace (240 + q <? 128) with false by lia. replace (240 + q <? 192) with false by lia.
      replace (240 + q <? 224) with false by lia. replace (240 + q <? 240) with false by lia.
      replace (240 + q <? 248) with true by lia. reflexivity.
    - rewrite utf8_ok_4; [reflexivity|]. unfold ok4, inrng, cont, inrng. unfold scalar in Hc. lia.
    - cbn [utf8_first nth]. replace (240 + q <? 128) with false by lia.
      replace (240 + q <? 224) with false by lia. replace (240 + q <? 240) with false by lia.
      replace ((240 + q) mod 8) with q by (apply (N.mod_unique _ _ 30); lia).
      replace ((128 + u) mod 64) with u by (apply (N.mod_unique _ _ 2); lia).
      replace ((128 + t) mod 64) with t by (apply (N.mod_unique _ _ 2); lia).
      replace ((128 + s) mod 64) with s by (apply (N.mod_unique _ _ 2); lia). lia.
    - repeat constructor; lia. }
Qed.

Lemma rt_char : forall c y, scalar c -> run de_char (utf8_encode c ++ y) = Ok (c, y).
Proof.
  intros c y Hc. destruct (utf8_encode_props c Hc) as (b0 & r & -> & Hb & Hl & Hok & Hf & Hw).
  unfold de_char. rewrite <- app_comm_cons, run_bind, run_read_byte_cons. cbv zeta.
  replace (char_length b0 =? 0) with false by lia.
  rewrite run_bind, run_read_n_app by lia. rewrite Hok, Hf. reflexivity.
Qed.

(** Everything the char decoder returns is a scalar value and was written canonically. *)
Lemma de_char_ok : forall bs c y, wfb bs -> run de_char bs = Ok (c, y) ->
  scalar c /\ bs = utf8_encode c ++ y.
Proof.
  intros bs c y Hw H. unfold de_char in H. rewrite run_bind in H.
  destruct (run read_byte bs) as [[b0 l]|e|p] eqn:E; try discriminate.
  apply run_read_byte_ok in E. subst bs. apply wfb_cons in Hw. destruct Hw as [Hb Hw].
  cbv zeta in H. destruct (char_length b0 =? 0) eqn:E0; [discriminate|].
  rewrite run_bind in H.
  destruct (run (read_n (char_length b0 - 1)) l) as [[r z]|e|p] eqn:E1; try discriminate.
  apply run_read_n_ok in E1. destruct E1 as [-> El].
  destruct (utf8_ok (b0 :: r)) eqn:Eok; [|discriminate].
  cbn [run] in H. inversion H; subst z c. clear H.
  rewrite char_length_spec in El by assumption. rewrite char_length_spec in E0 by assumption.
  apply wfb_app in Hw. destruct Hw as [Hr _].
  assert (S : scalar (utf8_first (b0 :: r)) /\ b0 :: r = utf8_encode (utf8_first (b0 :: r))).
  { apply utf8_ok_inv in Eok.
    destruct Eok as [[K _]|[(b1 & r' & -> & K & _)|[(b1 & b2 & r' & -> & K & _)|(b1 & b2 & b3 & r' & -> & K & _)]]].
    - replace (b0 <? 128) with true in * by lia.
      change (1 - 1) with 0 in El. apply len_0 in El. subst r.
      cbn [utf8_first]. replace (b0 <? 128) with true by lia.
      split; [left; lia|]. unfold utf8_encode. replace (b0 <? 128) with true by lia. reflexivity.
    - unfold ok2, cont, inrng in K.
      replace (b0 <? 128) with false in * by lia. replace (b0 <? 192) with false in * by lia.
      replace (b0 <? 224) with true in * by lia.
      rewrite len_cons in El. assert (r' = []) by (apply len_0; lia). subst r'.
      cbn [utf8_first nth]. replace (b0 <? 128) with false by lia. replace (b0 <? 224) with true by lia.
      replace (b0 mod 32) with (b0 - 192) by (apply (N.mod_unique _ _ 6); lia).
      replace (b1 mod 64) with (b1 - 128) by (apply (N.mod_unique _ _ 2); lia).
      set (c := (b0 - 192) * 64 + (b1 - 128)).
      split; [left; lia|]. unfold utf8_encode.
      replace (c <? 128) with false by lia. replace (c <? 2048) with true by lia.
      replace (c / 64) with (b0 - 192) by (apply (N.div_unique _ _ _ (b1 - 128)); lia).
      replace (c mod 64) with (b1 - 128) by (apply (N.mod_unique _ _ (b0 - 192)); lia).
      repeat f_equal; lia.
    - unfold ok3, cont, inrng in K.
      replace (b0 <? 128) with false in * by lia. replace (b0 <? 192) with false in * by lia.
      replace (b0 <? 224) with false in * by lia. replace (b0 <? 240) with true in * by lia.
      rewrite !len_cons in El. assert (r' = []) by (apply len_0; lia). subst r'.
      cbn [utf8_first nth]. replace (b0 <? 128) with false by lia. replace (b0 <? 224) with false by lia.
      replace (b0 <? 240) with true by lia.
      replace (b0 mod 16) with (b0 - 224) by (apply (N.mod_unique _ _ 14); lia).
      replace (b1 mod 64) with (b1 - 128) by (apply (N.mod_unique _ _ 2); lia).
      replace (b2 mod 64) with (b2 - 128) by (apply (N.mod_unique _ _ 2); lia).
      set (c := (b0 - 224) * 4096 + (b1 - 128) * 64 + (b2 - 128)).
      split; [unfold scalar; lia|]. unfold utf8_encode.
      replace (c <? 128) with false by lia. replace (c <? 2048) with false by lia.
      replace (c <? 65536) with true by lia.
      replace (c / 4096) with (b0 - 224) by (apply (N.div_unique _ _ _ ((b1 - 128) * 64 + (b2 - 128))); lia).
      replace (c / 64) with ((b0 - 224) * 64 + (b1 - 128)) by (apply (N.div_unique _ _ _ (b2 - 128)); lia).
      replace (((b0 - 224) * 64 + (b1 - 128)) mod 64) with (b1 - 128) by (apply (N.mod_unique _ _ (b0 - 224)); lia).
      replace (c mod 64) with (b2 - 128) by (apply (N.mod_unique _ _ ((b0 - 224) * 64 + (b1 - 128))); lia).
      repeat f_equal; lia.
    - unfold ok4, cont, inrng in K.
      replace (b0 <? 128) with false in * by lia. replace (b0 <? 192) with false in * by lia.
      replace (b0 <? 224) with false in * by lia. replace (b0 <? 240) with false in * by lia.
      replace (b0 <? 248) with true in * by lia.
      rewrite !len_cons in El. assert (r' = []) by (apply len_0; lia). subst r'.
      cbn [utf8_first nth]. replace (b0 <? 128) with false by lia. replace (b0 <? 224) with false by lia.
      replace (b0 <? 240) with false by lia.
      replace (b0 mod 8) with (b0 - 240) by (apply (N.mod_unique _ _ 30); lia).
      replace (b1 mod 64) with (b1 - 128) by (apply (N.mod_unique _ _ 2); lia).
      replace (b2 mod 64) with (b2 - 128) by (apply (N.mod_unique _ _ 2); lia).
      replace (b3 mod 64) with (b3 - 128) by (apply (N.mod_unique _ _ 2); lia).
      set (c := (b0 - 240) * 262144 + (b1 - 128) * 4096 + (b2 - 128) * 64 + (b3 - 128)).
      split; [unfold scalar; lia|]. unfold utf8_encode.
      replace (c <? 128) with false by lia. replace (c <? 2048) with false by lia.
      replace (c <? 65536) with false by lia.
      replace (c / 262144) with (b0 - 240)
        by (apply (N.div_unique _ _ _ ((b1 - 128) * 4096 + (b2 - 128) * 64 + (b3 - 128))); lia).
      replace (c / 4096) with ((b0 - 240) * 64 + (b1 - 128))
        by (apply (N.div_unique _ _ _ ((b2 - 128) * 64 + (b3 - 128))); lia).
      replace (c / 64) with ((b0 - 240) * 4096 + (b1 - 128) * 64 + (b2 - 128))
        by (apply (N.div_unique _ _ _ (b3 - 128)); lia).
      replace (((b0 - 240) * 64 + (b1 - 128)) mod 64) with (b1 - 128) by (apply (N.mod_unique _ _ (b0 - 240)); lia).
      replace (((b0 - 240) * 4096 + (b1 - 128) * 64 + (b2 - 128)) mod 64) with (b2 - 128)
        by (apply (N.mod_unique _ _ ((b0 - 240) * 64 + (b1 - 128))); lia).
      replace (c mod 64) with (b3 - 128)
        by (apply (N.mod_unique _ _ ((b0 - 240) * 4096 + (b1 - 128) * 64 + (b2 - 128))); lia).
      repeat f_equal; lia. }
  destruct S as [S1 S2]. split; [exact S1|]. rewrite app_comm_cons. f_equal. exact S2.
Qed.

Lemma utf8_encode_wf : forall c, scalar c -> wfb (utf8_encode c).
Proof.
  intros c Hc. destruct (utf8_encode_props c Hc) as (b0 & r & -> & Hb & _ & _ & _ & Hw).
  apply wfb_cons; auto.
Qed.
