(** C65: values of other crates (chrono, ordered-float, geo). *)

From Verif Require Import Base BaseL Prog ProgL Prim PrimL Utf8 Tag Ty Ser De Typed Parts RtL Agree TranspL Spec Format FormatL Mig Cross Ex PropWire PropFormat Ext.
From Coq Require Import List NArith ZArith Bool Lia ZifyBool.
Import ListNotations.
Open Scope N_scope.

Lemma de_int_rt : forall E i z y, wf_env E -> in_ity (e_ub E) i z -> run (de_int (e_fw E) (e_ub E) i) (ser_int (e_fw E) i z ++ y) = Ok (z, y).
Proof. intros E i z y W H. pose proof (we_ub E W). apply rt_int; [lia|lia|exact H]. Qed.
Lemma wire_cat : forall x a b, ser_bytes a = Ok b -> ser_bytes (sall x +++ a) = Ok (x ++ b).
Proof. intros x a b H. destruct a as [o|e|q]; try discriminate H. cbn in H |- *. apply Ok_inj in H. rewrite <- H. reflexivity. Qed.
Lemma wire_one : forall x, ser_bytes (sall x) = Ok x.
Proof. intros x. cbn. unfold out. cbn. rewrite app_nil_r. reflexivity. Qed.
Ltac wire := repeat (apply wire_cat || apply wire_one).
Ltac read_ints := repeat (rewrite run_bind, de_int_rt; [|assumption|assumption]).

(** ** chrono *)
(** chrono's durations, years and times fit the integers they are written as. *)
Definition sane (C : chrono) : Prop :=
  (- 2 ^ 63 * giga <= c_dur_min C /\ c_dur_max C < 2 ^ 63 * giga /\ - 2 ^ 31 <= c_year_min C /\ c_year_max C < 2 ^ 31
   /\ - 2 ^ 63 <= c_time_min C /\ c_time_max C < 2 ^ 63)%Z.
(** Whole seconds and nanoseconds, both rounded down: negative durations too. *)
Theorem C65_duration_wire : forall E C n, sane C -> (c_dur_min C <= n <= c_dur_max C)%Z ->
  ser_bytes (ser_duration E n) = Ok (ser_int (e_fw E) I64 (n / 1000000000) ++ ser_int (e_fw E) I32 (n mod 1000000000)).
Proof.
  intros E C n (S1 & S2 & _) H. unfold ser_duration, num_seconds, subsec_nanos, giga in *.
  pose proof (Z.quot_rem' n 1000000000) as D. pose proof (Z.div_mod n 1000000000 ltac:(discriminate)) as F. pose proof (Z.mod_pos_bound n 1000000000 ltac:(reflexivity)) as B.
  assert (Q : ((Z.rem n 1000000000 < 0 -> Z.quot n 1000000000 = n / 1000000000 + 1 /\ Z.rem n 1000000000 = n mod 1000000000 - 1000000000)
    /\ (0 <= Z.rem n 1000000000 -> Z.quot n 1000000000 = n / 1000000000 /\ Z.rem n 1000000000 = n mod 1000000000))%Z).
  { pose proof (Z.rem_bound_abs n 1000000000 ltac:(discriminate)) as R. rewrite (Z.abs_eq 1000000000) in R by discriminate. clear - D F B R. lia. }
  destruct Q as [Q1 Q2]. destruct (Z.ltb_spec (Z.rem n 1000000000) 0) as [L|L].
  - destruct (Q1 L) as [-> ->]. replace (n / 1000000000 + 1 - 1)%Z with (n / 1000000000)%Z by (clear; lia). replace (n mod 1000000000 - 1000000000 + 1000000000)%Z with (n mod 1000000000)%Z by (clear; lia).
    unfold checked_i. change (2 ^ (Z.of_N 64 - 1))%Z with (2 ^ 63)%Z. change (2 ^ (Z.of_N 32 - 1))%Z with 2147483648%Z. change (2 ^ 63)%Z with 9223372036854775808%Z in *.
    replace ((- (9223372036854775808) <=? n / 1000000000) && (n / 1000000000 <? 9223372036854775808))%Z with true by (clear - S1 S2 H F B; symmetry; apply andb_true_intro; split; lia).
    replace ((- (2147483648) <=? n mod 1000000000) && (n mod 1000000000 <? 2147483648))%Z with true by (clear - B; symmetry; apply andb_true_intro; split; lia).
    cbn. unfold out. cbn. rewrite app_nil_r. reflexivity.
  - destruct (Q2 L) as [-> ->]. cbn. unfold out. cbn. rewrite app_nil_r. reflexivity.
Qed.
(** Every duration is read back, whatever follows it. *)
Theorem C65_duration_kept : forall E C n b rest, wf_env E -> sane C -> (c_dur_min C <= n <= c_dur_max C)%Z ->
  ser_bytes (ser_duration E n) = Ok b -> run (de_duration E C) (b ++ rest) = Ok (n, rest).
Proof.
  intros E C n b rest W S H Hb. rewrite (C65_duration_wire E C n S H) in Hb. apply Ok_inj in Hb. subst b. rewrite <- app_assoc.
  pose proof (Z.div_mod n 1000000000 ltac:(discriminate)) as F. pose proof (Z.mod_pos_bound n 1000000000 ltac:(reflexivity)) as B. unfold sane, giga in S.
  assert (I1 : in_ity (e_ub E) I64 (n / 1000000000)) by (unfold in_ity, inS; cbn; lia). assert (I2 : in_ity (e_ub E) I32 (n mod 1000000000)) by (unfold in_ity, inS; cbn; lia).
  unfold de_duration. read_ints. unfold duration_new, giga. replace (n mod 1000000000 <? 0)%Z with false by lia.
  replace (n / 1000000000 * 1000000000 + n mod 1000000000)%Z with n by lia.
  replace ((n mod 1000000000 <? 1000000000) && (c_dur_min C <=? n) && (n <=? c_dur_max C))%Z with true by lia. reflexivity.
Qed.
(** What is read: seconds and less than a second of nanoseconds, within what chrono represents; all else is an error. *)
Theorem C65_duration_read : forall E C bs n rest, wf_env E -> wfb bs ->
  (run (de_duration E C) bs = Ok (n, rest) <->
   exists x y s ns, bs = x ++ y ++ rest /\ int_form E I64 s x /\ int_form E I32 ns y
     /\ (0 <= ns < 1000000000 /\ n = s * 1000000000 + ns /\ c_dur_min C <= n <= c_dur_max C)%Z).
Proof.
  intros E C bs n rest W Hb. unfold de_duration.
  assert (M : means (de_duration E C) (fun n x => exists s y z, x = y ++ z /\ int_form E I64 s y /\ exists ns z1 z2, z = z1 ++ z2 /\ int_form E I32 ns z1
    /\ (0 <= ns < 1000000000 /\ n = s * 1000000000 + ns /\ c_dur_min C <= n <= c_dur_max C)%Z /\ z2 = [])).
  { unfold de_duration. eapply means_bind; [apply (means_int E)|]. intros s y _ _. eapply means_bind; [apply (means_int E)|]. intros ns z _ _. intros a x Hx. unfold duration_new, giga.
    destruct (Z.ltb_spec ns 0); [cbn [run]; split; [discriminate|lia]|].
    destruct ((ns <? 1000000000) && (c_dur_min C <=? s * 1000000000 + ns) && (s * 1000000000 + ns <=? c_dur_max C))%Z eqn:K; cbn [run].
    - split; [intros Q; apply Ok_inj in Q; inversion Q; subst; split; [lia|reflexivity]|intros [(A & -> & _) ->]; reflexivity].
    - split; [discriminate|]. intros [(A & -> & B) _]. lia. }
  rewrite (means_run _ _ _ M bs n rest Hb). split.
  - intros (x & -> & s & y & z & -> & A & ns & z1 & z2 & -> & B & D & ->). exists y, z1, s, ns. rewrite app_nil_r, <- app_assoc. auto.
  - intros (x & y & s & ns & -> & A & B & D). exists (x ++ y). rewrite <- app_assoc. split; [reflexivity|]. exists s, x, y. split; [reflexivity|]. split; [exact A|]. exists ns, y, []. rewrite app_nil_r. auto.
Qed.

(** The calendar: which days a month has. *)
Definition leap_year (y : Z) : Prop := (4 | y)%Z /\ ((100 | y)%Z -> (400 | y)%Z).
Definition month_has (y m k : Z) : Prop :=
  (In m [1; 3; 5; 7; 8; 10; 12] /\ k = 31 \/ In m [4; 6; 9; 11] /\ k = 30 \/ m = 2 /\ (leap_year y /\ k = 29 \/ ~ leap_year y /\ k = 28))%Z.
Definition a_date (C : chrono) (y m d : Z) : Prop := (c_year_min C <= y <= c_year_max C /\ exists k, month_has y m k /\ 1 <= d <= k)%Z.
Lemma leap_iff : forall y, leap y = true <-> leap_year y.
Proof.
  intros y. unfold leap, leap_year. rewrite andb_true_iff, orb_true_iff, negb_true_iff, !Z.eqb_eq, Z.eqb_neq, !Z.mod_divide by discriminate. split; [tauto|]. intros [H1 H2]. split; [exact H1|].
  destruct (Znumtheory.Zdivide_dec 100 y); tauto.
Qed.
Lemma from_ymd_iff : forall C y m d x, from_ymd C y m d = Some x <-> x = (y, m, d) /\ a_date C y m d.
Proof.
  intros C y m d x. unfold from_ymd, a_date, month_has. pose proof (leap_iff y) as HL. unfold month_days. cbn [In].
  assert (G : ((c_year_min C <=? y) && (y <=? c_year_max C) && (1 <=? m) && (m <=? 12) && (1 <=? d) && (d <=? (if m =? 2 then if leap y then 29 else 28 else if (m =? 4) || (m =? 6) || (m =? 9) || (m =? 11) then 30 else 31)))%Z = true
    <-> a_date C y m d).
  { unfold a_date, month_has. cbn [In]. destruct (leap y) eqn:L; [assert (K : leap_year y) by (apply HL; reflexivity)|assert (K : ~ leap_year y) by (rewrite <- HL; discriminate)].
    - rewrite !andb_true_iff. split.
      + intros H. split; [lia|]. destruct (Z.eqb_spec m 2); [exists 29%Z; split; [right; right; split; [assumption|left; split; [exact K|reflexivity]]|lia]|]. destruct ((m =? 4) || (m =? 6) || (m =? 9) || (m =? 11))%Z eqn:Q; [exists 30%Z|exists 31%Z]; (split; [|lia]); [right; left|left]; (split; [lia|reflexivity]).
      + intros (H1 & k & [[H2 ->]|[[H2 ->]|[-> [[_ ->]|[H2 _]]]]] & H3); [| |cbn; lia|tauto]; repeat (destruct H2 as [<-|H2]; [cbn; lia|]); destruct H2.
    - rewrite !andb_true_iff. split.
      + intros H. split; [lia|]. destruct (Z.eqb_spec m 2); [exists 28%Z; split; [right; right; split; [assumption|right; split; [exact K|reflexivity]]|lia]|]. destruct ((m =? 4) || (m =? 6) || (m =? 9) || (m =? 11))%Z eqn:Q; [exists 30%Z|exists 31%Z]; (split; [|lia]); [right; left|left]; (split; [lia|reflexivity]).
      + intros (H1 & k & [[H2 ->]|[[H2 ->]|[-> [[H2 _]|[_ ->]]]]] & H3); [| |tauto|cbn; lia]; repeat (destruct H2 as [<-|H2]; [cbn; lia|]); destruct H2. }
  unfold a_date, month_has in G. cbn [In] in G. rewrite <- G. destruct (_ && _)%Z.
  - split; [intros Q; inversion Q; auto|intros [-> _]; reflexivity].
  - split; [discriminate|intros [_ Q]; discriminate].
Qed.
Lemma means_opt : forall A (o : option A) e, means (match o with Some x => Ret x | None => Fail e end) (fun b x => o = Some b /\ x = []).
Proof.
  intros A [a|] e b x Hx; cbn [run].
  - split; [intros Q; apply Ok_inj in Q; inversion Q; auto|intros [Q ->]; inversion Q; reflexivity].
  - split; [discriminate|intros [Q _]; discriminate].
Qed.
(** Every date is read back. *)
Theorem C65_date_kept : forall E C y m d rest, wf_env E -> sane C -> a_date C y m d ->
  exists b, ser_bytes (ser_date E (y, m, d)) = Ok b /\ run (de_date E C) (b ++ rest) = Ok ((y, m, d), rest).
Proof.
  intros E C y m d rest W S H. eexists. split; [wire|]. cbn [fst snd]. rewrite <- !app_assoc.
  assert (I : in_ity (e_ub E) I32 y /\ in_ity (e_ub E) U32 m /\ in_ity (e_ub E) U32 d).
  { destruct H as (H1 & k & H2 & H3). assert (1 <= m <= 12 /\ k <= 31)%Z by (clear - H2; unfold month_has in H2; cbn [In] in H2; lia). unfold sane in S. unfold in_ity, inS, inU. cbn. lia. }
  destruct I as (I1 & I2 & I3). unfold de_date. read_ints. rewrite (proj2 (from_ymd_iff C y m d (y, m, d)) (conj eq_refl H)). reflexivity.
Qed.
(** What is read: a year, a month and a day that make a date; all else is an error. *)
Theorem C65_date_read : forall E C bs y m d rest, wfb bs ->
  (run (de_date E C) bs = Ok ((y, m, d), rest) <->
   exists a b c, bs = a ++ b ++ c ++ rest /\ int_form E I32 y a /\ int_form E U32 m b /\ int_form E U32 d c /\ a_date C y m d).
Proof.
  intros E C bs y m d rest Hb.
  assert (M : means (de_date E C) (fun v x => exists y a x', x = a ++ x' /\ int_form E I32 y a /\ exists m b x'', x' = b ++ x'' /\ int_form E U32 m b /\ exists d c n, x'' = c ++ n /\ int_form E U32 d c /\ from_ymd C y m d = Some v /\ n = [])).
  { unfold de_date. eapply means_bind; [apply (means_int E)|]. intros y' a _ _. eapply means_bind; [apply (means_int E)|]. intros m' b _ _. eapply means_bind; [apply (means_int E)|]. intros d' c _ _. apply means_opt. }
  rewrite (means_run _ _ _ M bs _ rest Hb). split.
  - intros (x & -> & y' & a & x' & -> & A & m' & b & x'' & -> & B & d' & c & n & -> & D & F & ->). apply from_ymd_iff in F. destruct F as [Q F]. inversion Q; subst. exists a, b, c. rewrite app_nil_r, <- !app_assoc. auto.
  - intros (a & b & c & -> & A & B & D & F). exists (a ++ b ++ c). rewrite <- !app_assoc. split; [reflexivity|]. exists y, a, (b ++ c). split; [reflexivity|]. split; [exact A|]. exists m, b, c. split; [reflexivity|]. split; [exact B|]. exists d, c, [].
    rewrite app_nil_r. split; [reflexivity|]. split; [exact D|]. split; [|reflexivity]. apply from_ymd_iff. auto.
Qed.

(** A time of day is read back exactly unless it is a leap second that is not at the end of a minute. *)
Theorem C65_time_kept : forall E s n rest, wf_env E -> (0 <= s < 86400)%Z -> (0 <= n < 2000000000)%Z ->
  exists b, ser_bytes (ser_time E (s, n)) = Ok b
  /\ run (de_time E) (b ++ rest) = if ((n <? 1000000000) || (s mod 60 =? 59))%Z then Ok ((s, n), rest) else Err (EDeserialize (MExternal 3)).
Proof.
  intros E s n rest W Hs Hn. eexists. split; [wire|]. cbn [fst snd]. rewrite <- !app_assoc.
  pose proof (Z.div_mod s 3600 ltac:(discriminate)) as A1. pose proof (Z.mod_pos_bound s 3600 ltac:(reflexivity)) as A2. pose proof (Z.div_mod s 60 ltac:(discriminate)) as A3. pose proof (Z.mod_pos_bound s 60 ltac:(reflexivity)) as A4.
  pose proof (Z.div_mod (s / 60) 60 ltac:(discriminate)) as A5. pose proof (Z.mod_pos_bound (s / 60) 60 ltac:(reflexivity)) as A6. pose proof (Z.div_div s 60 60 ltac:(discriminate) ltac:(reflexivity)) as A7. change (60 * 60)%Z with 3600%Z in A7.
  assert (I1 : in_ity (e_ub E) U32 (s / 3600)) by (unfold in_ity, inU; cbn; lia). assert (I2 : in_ity (e_ub E) U32 (s / 60 mod 60)) by (unfold in_ity, inU; cbn; lia).
  assert (I3 : in_ity (e_ub E) U32 (s mod 60)) by (unfold in_ity, inU; cbn; lia). assert (I4 : in_ity (e_ub E) U32 n) by (unfold in_ity, inU; cbn; lia).
  unfold de_time. read_ints. unfold from_hms_nano, giga. change (2 * 1000000000)%Z with 2000000000%Z.
  replace (s / 3600 <? 24)%Z with true by lia. replace (s / 60 mod 60 <? 60)%Z with true by lia. replace (s mod 60 <? 60)%Z with true by lia. replace (n <? 2000000000)%Z with true by lia. cbn [andb]. rewrite andb_true_r.
  destruct ((n <? 1000000000) || (s mod 60 =? 59))%Z; [|reflexivity]. cbn [run]. do 3 f_equal. lia.
Qed.
Theorem C65_datetime_kept : forall E C s n rest, wf_env E -> sane C -> (c_time_min C <= s <= c_time_max C)%Z -> (0 <= n < 2000000000)%Z ->
  exists b, ser_bytes (ser_datetime E (s, n)) = Ok b
  /\ run (de_datetime E C) (b ++ rest) = if ((n <? 1000000000) || (s mod 60 =? 59))%Z then Ok ((s, n), rest) else Err (EDeserialize (MExternal 4)).
Proof.
  intros E C s n rest W S Hs Hn. eexists. split; [wire|]. cbn [fst snd]. rewrite <- !app_assoc. unfold sane in S.
  assert (I1 : in_ity (e_ub E) I64 s) by (unfold in_ity, inS; cbn; lia). assert (I4 : in_ity (e_ub E) U32 n) by (unfold in_ity, inU; cbn; lia).
  unfold de_datetime. read_ints. unfold timestamp_opt, giga. change (2 * 1000000000)%Z with 2000000000%Z.
  replace (c_time_min C <=? s)%Z with true by lia. replace (s <=? c_time_max C)%Z with true by lia. replace (n <? 2000000000)%Z with true by lia. cbn [andb]. rewrite andb_true_r.
  destruct ((n <? 1000000000) || (s mod 60 =? 59))%Z; reflexivity.
Qed.
(** What is read as a time of day: an hour, a minute, a second, and less than a second of nanoseconds, or less than two at the end of a minute. *)
Theorem C65_time_read : forall E bs s n rest, wfb bs ->
  (run (de_time E) bs = Ok ((s, n), rest) <->
   exists a b c x h m k, bs = a ++ b ++ c ++ x ++ rest /\ int_form E U32 h a /\ int_form E U32 m b /\ int_form E U32 k c /\ int_form E U32 n x
     /\ (h < 24 /\ m < 60 /\ k < 60 /\ s = h * 3600 + m * 60 + k /\ (n < 1000000000 \/ k = 59 /\ n < 2000000000))%Z).
Proof.
  intros E bs s n rest Hb.
  assert (M : means (de_time E) (fun v x => exists h a x', x = a ++ x' /\ int_form E U32 h a /\ exists m b x'', x' = b ++ x'' /\ int_form E U32 m b /\ exists k c x3, x'' = c ++ x3 /\ int_form E U32 k c
     /\ exists n g e, x3 = g ++ e /\ int_form E U32 n g /\ from_hms_nano h m k n = Some v /\ e = [])).
  { unfold de_time. eapply means_bind; [apply (means_int E)|]. intros h a _ _. eapply means_bind; [apply (means_int E)|]. intros m b _ _. eapply means_bind; [apply (means_int E)|]. intros k c _ _. eapply means_bind; [apply (means_int E)|]. intros n' g _ _. apply means_opt. }
  assert (F : forall h m k n v, from_hms_nano h m k n = Some v <-> v = (h * 3600 + m * 60 + k, n)%Z /\ (h < 24 /\ m < 60 /\ k < 60 /\ (n < 1000000000 \/ k = 59 /\ n < 2000000000))%Z).
  { clear. intros h m k n v. unfold from_hms_nano, giga. change (2 * 1000000000)%Z with 2000000000%Z. destruct (_ && _)%Z eqn:K.
    - split; [intros Q; inversion Q; split; [reflexivity|lia]|intros [-> _]; reflexivity].
    - split; [discriminate|]. intros [_ Q]. exfalso. lia. }
  rewrite (means_run _ _ _ M bs _ rest Hb). split.
  - intros (x & -> & h & a & x' & -> & A & m & b & x'' & -> & B & k & c & x3 & -> & D & n' & g & e & -> & G & H & ->). apply F in H. destruct H as [Q H]. inversion Q; subst. exists a, b, c, g, h, m, k. rewrite app_nil_r, <- !app_assoc. tauto.
  - intros (a & b & c & g & h & m & k & -> & A & B & D & G & H). exists (a ++ b ++ c ++ g). rewrite <- !app_assoc. split; [reflexivity|]. exists h, a, (b ++ c ++ g). split; [reflexivity|]. split; [exact A|]. exists m, b, (c ++ g). split; [reflexivity|]. split; [exact B|].
    exists k, c, g. split; [reflexivity|]. split; [exact D|]. exists n, g, []. rewrite app_nil_r. split; [reflexivity|]. split; [exact G|]. split; [|reflexivity]. apply F. destruct H as (H1 & H2 & H3 & -> & H4). auto.
Qed.
Theorem C65_datetime_read : forall E C bs s n rest, wfb bs ->
  (run (de_datetime E C) bs = Ok ((s, n), rest) <->
   exists a b, bs = a ++ b ++ rest /\ int_form E I64 s a /\ int_form E U32 n b
     /\ (c_time_min C <= s <= c_time_max C /\ (n < 1000000000 \/ s mod 60 = 59 /\ n < 2000000000))%Z).
Proof.
  intros E C bs s n rest Hb.
  assert (M : means (de_datetime E C) (fun v x => exists s a x', x = a ++ x' /\ int_form E I64 s a /\ exists n b e, x' = b ++ e /\ int_form E U32 n b /\ timestamp_opt C s n = Some v /\ e = [])).
  { unfold de_datetime. eapply means_bind; [apply (means_int E)|]. intros h a _ _. eapply means_bind; [apply (means_int E)|]. intros n' g _ _. apply means_opt. }
  assert (F : forall s n v, timestamp_opt C s n = Some v <-> v = (s, n) /\ (c_time_min C <= s <= c_time_max C /\ (n < 1000000000 \/ s mod 60 = 59 /\ n < 2000000000))%Z).
  { clear. intros s n v. unfold timestamp_opt, giga. change (2 * 1000000000)%Z with 2000000000%Z. destruct (_ && _)%Z eqn:K.
    - split; [intros Q; inversion Q; split; [reflexivity|lia]|intros [-> _]; reflexivity].
    - split; [discriminate|]. intros [_ Q]. exfalso. lia. }
  rewrite (means_run _ _ _ M bs _ rest Hb). split.
  - intros (x & -> & s' & a & x' & -> & A & n' & b & e & -> & B & H & ->). apply F in H. destruct H as [Q H]. inversion Q; subst. exists a, b. rewrite app_nil_r, <- !app_assoc. auto.
  - intros (a & b & -> & A & B & H). exists (a ++ b). rewrite <- !app_assoc. split; [reflexivity|]. exists s, a, b. split; [reflexivity|]. split; [exact A|]. exists n, b, []. rewrite app_nil_r. split; [reflexivity|]. split; [exact B|]. split; [|reflexivity]. apply F. auto.
Qed.
(** So not every time is read back. *)
Theorem C65_leap_second_refuted : exists E s n b, wf_env E /\ (0 <= s < 86400 /\ 0 <= n < 2000000000)%Z
  /\ ser_bytes (ser_time E (s, n)) = Ok b /\ run (de_time E) b = Err (EDeserialize (MExternal 3)).
Proof.
  exists (ex_env (fun _ => None)), 10%Z, 1500000000%Z. eexists. split; [apply wf_ex; discriminate|]. split; [split; split; (discriminate || reflexivity)|]. split; [reflexivity|vm_compute; reflexivity].
Qed.

(** ** ordered-float *)
(** The bits of a float: a sign, an exponent of [e] bits and a mantissa of [m] bits. *)
Definition float_bits (e m z s x f : Z) : Prop := (z = s * 2 ^ (e + m) + x * 2 ^ m + f /\ 0 <= s <= 1 /\ 0 <= x < 2 ^ e /\ 0 <= f < 2 ^ m)%Z.
(** Not a number: all bits of the exponent set and some bit of the mantissa, in an [f32] of 4 bytes or an [f64] of 8. *)
Definition not_a_number (k : nat) (z : Z) : Prop :=
  exists s f, (match k with 4%nat => float_bits 8 23 z s 255 f | _ => float_bits 11 52 z s 2047 f end /\ f <> 0)%Z.
Lemma nan_gen : forall A B z s x f, (z = s * (A * B) + x * B + f -> 0 <= x < A -> 0 <= f < B -> ((A - 1) * B < z mod (A * B) <-> x = A - 1 /\ f <> 0))%Z.
Proof.
  intros A B z s x f Hz Hx Hf. assert (Hm : (z mod (A * B) = x * B + f)%Z) by (symmetry; apply (Z.mod_unique _ _ s); [left; nia|lia]). rewrite Hm. split; [intros H|intros [-> H]; nia].
  assert (x = A - 1)%Z by nia. subst x. split; [reflexivity|]. nia.
Qed.
Lemma float_exists : forall e m z, (0 <= e -> 0 <= m -> 0 <= z < 2 * 2 ^ (e + m) -> exists s x f, float_bits e m z s x f)%Z.
Proof.
  intros e m z He Hm Hz. exists (z / 2 ^ (e + m))%Z, (z mod 2 ^ (e + m) / 2 ^ m)%Z, (z mod 2 ^ (e + m) mod 2 ^ m)%Z. unfold float_bits.
  rewrite Z.pow_add_r in * by assumption. assert (HA : (0 < 2 ^ e)%Z) by (apply Z.pow_pos_nonneg; lia). assert (HB : (0 < 2 ^ m)%Z) by (apply Z.pow_pos_nonneg; lia).
  remember (2 ^ e)%Z as A. remember (2 ^ m)%Z as B. assert (HAB : (0 < A * B)%Z) by nia.
  pose proof (Z.div_mod z (A * B) ltac:(lia)). pose proof (Z.div_mod (z mod (A * B)) B ltac:(lia)). pose proof (Z.mod_pos_bound z (A * B) HAB). pose proof (Z.mod_pos_bound (z mod (A * B)) B HB).
  split; [nia|]. split.
  - split; [apply Z.div_pos; lia|]. assert (z / (A * B) < 2)%Z by (apply Z.div_lt_upper_bound; lia). lia.
  - split; [|assumption]. split; [apply Z.div_pos; lia|]. apply Z.div_lt_upper_bound; nia.
Qed.
Lemma nan_iff : forall k z, k = 4%nat \/ k = 8%nat -> (0 <= z < 256 ^ Z.of_nat k)%Z -> (nan k z = true <-> not_a_number k z).
Proof.
  assert (G : forall e m c z, (0 <= z < 2 * 2 ^ (Z.of_N e + Z.of_N m))%Z -> c = (2 ^ Z.of_N e - 1)%Z -> (nan_bits e m z = true <-> exists s f, float_bits (Z.of_N e) (Z.of_N m) z s c f /\ f <> 0%Z)).
  { intros e m c z Hz ->. destruct (float_exists (Z.of_N e) (Z.of_N m) z ltac:(lia) ltac:(lia) Hz) as (s & x & f & Hf). unfold nan_bits. rewrite Z.ltb_lt, N2Z.inj_add.
    assert (Hgen : forall s x f, float_bits (Z.of_N e) (Z.of_N m) z s x f -> ((2 ^ Z.of_N e - 1) * 2 ^ Z.of_N m < z mod 2 ^ (Z.of_N e + Z.of_N m) <-> x = 2 ^ Z.of_N e - 1 /\ f <> 0)%Z).
    { intros s0 x0 f0 (H1 & H2 & H3 & H4). rewrite Z.pow_add_r in * by lia. eapply nan_gen; eassumption. }
    rewrite (Hgen s x f Hf). split; [intros [-> Hn]; eauto|]. intros (s' & f' & Hf' & Hn). rewrite <- (Hgen s x f Hf). rewrite (Hgen s' _ f' Hf'). auto. }
  intros k z [->| ->] Hz; unfold nan, not_a_number; cbn [Nat.eqb]; [apply (G 8 23 255%Z)|apply (G 11 52 2047%Z)]; try reflexivity; exact Hz.
Qed.
Lemma nan_false : forall k z, k = 4%nat \/ k = 8%nat -> (0 <= z < 256 ^ Z.of_nat k)%Z -> (nan k z = false <-> ~ not_a_number k z).
Proof. intros k z Hk Hz. rewrite <- (nan_iff k z Hk Hz). destruct (nan k z); intuition congruence. Qed.
Lemma le_val_range : forall k x, wfb x -> len x = N.of_nat k -> (0 <= Z.of_N (le_val x) < 256 ^ Z.of_nat k)%Z.
Proof.
  intros k x Hb Hx. pose proof (le_val_bound x Hb) as H. rewrite <- nat_N_Z, <- Hx. change 256%Z with (Z.of_N 256). rewrite <- N2Z.inj_pow. lia.
Qed.
Theorem C65_notnan : forall k bs z rest, k = 4%nat \/ k = 8%nat -> wfb bs ->
  (run (de_notnan k) bs = Ok (z, rest) <-> exists x, bs = x ++ rest /\ len x = N.of_nat k /\ z = Z.of_N (le_val x) /\ ~ not_a_number k z)
  /\ ((0 <= z < 256 ^ Z.of_nat k)%Z -> ~ not_a_number k z -> exists b, ser_bytes (ser_notnan k z) = Ok b /\ run (de_notnan k) (b ++ rest) = Ok (z, rest)).
Proof.
  intros k bs z rest Hk Hwf. split.
  - unfold de_notnan. rewrite run_bind. split.
    + destruct (run (read_n (N.of_nat k)) bs) as [[x r]|e|q] eqn:K; [|discriminate..]. apply run_read_n_ok in K. destruct K as [-> L]. destruct (nan k _) eqn:K; cbn [run]; [discriminate|]. intros H. apply Ok_inj in H. inversion H; subst.
      apply wfb_app in Hwf. apply nan_false in K; [eauto|exact Hk|apply le_val_range; [apply Hwf|exact L]].
    + intros (x & -> & L & -> & K). apply wfb_app in Hwf. rewrite run_read_n_app by auto. apply nan_false in K; [|exact Hk|apply le_val_range; [apply Hwf|exact L]]. rewrite K. reflexivity.
  - intros Hz K. apply nan_false in K; [|exact Hk|exact Hz]. eexists. split; [unfold ser_notnan; wire|]. unfold de_notnan. rewrite run_bind. rewrite run_read_n_app by (destruct Hk as [->| ->]; reflexivity).
    rewrite le_val_bytes. 2: { destruct Hk as [->| ->]; [change (256 ^ N.of_nat 4) with 4294967296; change (256 ^ Z.of_nat 4)%Z with 4294967296%Z in Hz|change (256 ^ N.of_nat 8) with 18446744073709551616; change (256 ^ Z.of_nat 8)%Z with 18446744073709551616%Z in Hz]; lia. }
    rewrite Z2N.id by apply Hz. rewrite K. reflexivity.
Qed.
(** [f64::NAN], infinity, the largest number. *)
Example nans : map nan64 [0x7ff8000000000000; 0xfff0000000000001; 0x7ff0000000000000; 0xfff0000000000000; 0x7fefffffffffffff; 0]%Z = [true; true; false; false; false; false]
  /\ map nan32 [0x7fc00000; 0xff800001; 0x7f800000; 0xff800000; 0x7f7fffff; 0]%Z = [true; true; false; false; false; false].
Proof. split; reflexivity. Qed.
Example notnan_case : not_a_number 4 0xff800001 /\ not_a_number 8 0x7ff8000000000000 /\ ~ not_a_number 8 0x7ff0000000000000 /\ ~ not_a_number 4 0.
Proof.
  split; [apply nan_iff; [auto|split; (discriminate || reflexivity)|reflexivity]|]. split; [apply nan_iff; [auto|split; (discriminate || reflexivity)|reflexivity]|].
  split; (apply nan_false; [auto|split; (discriminate || reflexivity)|reflexivity]).
Qed.

(** ** geo *)
(** A polygon as the plain value written for it. *)
Lemma ser_polygon_ty : forall E e is, ser_polygon E (e, is) = ser_ty E (fun _ _ => snil) (TPair line_t (TVec line_t)) (VPair e (VSeq is)).
Proof. intros E e is. unfold ser_polygon, line_t, coord_t. cbn [ser_ty fst snd]. destruct (e_spec E); reflexivity. Qed.
Lemma ser_polygon_vec : forall E e is, ser_bytes (ser_polygon E (e, is)) = to_vec E 0 (TPair line_t (TVec line_t)) (VPair e (VSeq is)).
Proof. intros E e is. rewrite ser_polygon_ty. reflexivity. Qed.
Lemma de_polygon_run : forall E bs, run (de_polygon E) bs =
  rbind (run (deserialize E 0 (TPair line_t (TVec line_t))) bs) (fun p => match fst p with VPair e (VSeq l) => Ok (polygon_new e l, snd p) | VPair e _ => Panic PType | _ => Panic PType end).
Proof.
  intros E bs. unfold de_polygon, deserialize.
  change (de_ty E (de_ref E 0) (TPair line_t (TVec line_t))) with (e <- de_ty E (de_ref E 0) line_t ;; i <- de_ty E (de_ref E 0) (TVec line_t) ;; Ret (VPair e i)).
  change (de_ty E (fun _ : N => Crash PType) line_t) with (de_ty E (de_ref E 0) line_t). change (de_ty E (fun _ : N => Crash PType) (TVec line_t)) with (de_ty E (de_ref E 0) (TVec line_t)).
  rewrite !run_bind. destruct (run (de_ty E (de_ref E 0) line_t) bs) as [[e r]|x|q]; [|reflexivity..]. rewrite !run_bind.
  destruct (run (de_ty E (de_ref E 0) (TVec line_t)) r) as [[i r']|x|q]; [|reflexivity..]. destruct i; reflexivity.
Qed.
(** What is read back: the polygon that the constructor makes of the rings written. *)
Theorem C65_polygon_read_back : forall E e is b rest, wf_env E -> sizes_honest E -> wt E 0 (TPair line_t (TVec line_t)) (VPair e (VSeq is)) ->
  ser_bytes (ser_polygon E (e, is)) = Ok b -> or_oom E (run (de_polygon E) (b ++ rest)) (Ok (polygon_new e is, rest)).
Proof.
  intros E e is b rest W Hh Hw Hb. rewrite ser_polygon_vec in Hb. rewrite de_polygon_run.
  destruct (same E 0 0 _ _ b rest W Hh Hw (le_n _) Hb) as [->|[Hm ->]]; [left; reflexivity|right; auto].
Qed.

Definition v_ring (v : val) : Prop := exists l, v = VSeq l /\ (l = [] \/ exists a z, hd_error l = Some a /\ hd_error (rev l) = Some z /\ ceq a z = true).
Lemma last_rev : forall (l : list val) d, last l d = hd d (rev l).
Proof.
  intros l d. induction l as [|x l IH] using rev_ind; [reflexivity|]. rewrite last_last, rev_app_distr. reflexivity.
Qed.
Lemma is_closed_v_ring : forall l, is_closed l = true <-> v_ring (VSeq l).
Proof.
  intros [|a l].
  - split; [|reflexivity]. intros _. exists []. auto.
  - unfold is_closed. rewrite last_rev. split.
    + intros H. exists (a :: l). split; [reflexivity|]. right. exists a, (hd a (rev (a :: l))). split; [reflexivity|]. split; [|exact H].
      destruct (rev (a :: l)) eqn:R; [|reflexivity]. apply (f_equal (@length val)) in R. rewrite rev_length in R. discriminate.
    + intros (l' & Q & H). inversion Q; subst l'. destruct H as [|(a' & z & A & Z & K)]; [discriminate|]. inversion A; subst a'. destruct (rev (a :: l)); inversion Z; subst. exact K.
Qed.
Lemma close_id : forall l, close (VSeq l) = VSeq l <-> v_ring (VSeq l).
Proof.
  intros l. rewrite <- is_closed_v_ring. destruct l as [|a l]; [cbn; tauto|]. unfold close. destruct (is_closed (a :: l)) eqn:K; [tauto|]. split; [|discriminate]. intros H. inversion H as [Q].
  apply (f_equal (@length val)) in Q. rewrite app_length in Q. cbn in Q. lia.
Qed.
Lemma v_kept : forall e is, polygon_new (VSeq e) (map VSeq is) = (VSeq e, map VSeq is) <-> v_ring (VSeq e) /\ forall i, In i is -> v_ring (VSeq i).
Proof.
  intros e is. unfold polygon_new. split.
  - intros H. pose proof (f_equal fst H) as H1. pose proof (f_equal snd H) as H2. cbn [fst snd] in H1, H2. clear H. split; [apply close_id; exact H1|]. intros i Hi. apply close_id.
    induction is as [|j is IH]; [destruct Hi|]. cbn [map] in H2. pose proof (f_equal (hd VUnit) H2) as K1. pose proof (f_equal (@tl val) H2) as K2. cbn [hd tl] in K1, K2. destruct Hi as [->|Hi]; auto.
  - intros [H1 H2]. f_equal; [apply close_id; exact H1|]. induction is as [|j is IH]; [reflexivity|]. cbn [map]. f_equal; [apply close_id, H2; left; reflexivity|apply IH; intros; apply H2; right; assumption].
Qed.
Definition a_number (v : val) : Prop := exists x y, v = VPair (VInt x) (VInt y) /\ nan64 x = false /\ nan64 y = false.
Lemma feq_refl : forall x, nan64 x = false -> feq x x = true.
Proof. intros x H. unfold feq. rewrite H, Z.eqb_refl. reflexivity. Qed.
Lemma v_rings : forall l x y, hd_error l = Some (VPair (VInt x) (VInt y)) ->
  (v_ring (close (VSeq l)) <-> nan64 x = false /\ nan64 y = false).
Proof.
  intros [|a l] x y H; [discriminate|]. inversion H; subst a. clear H.
  assert (N : forall z, ceq (VPair (VInt x) (VInt y)) z = true -> nan64 x = false /\ nan64 y = false).
  { intros z Hz. cbn in Hz. destruct z as [| | | |[] []| |]; try discriminate. apply andb_prop in Hz. destruct Hz as [A B]. unfold feq in A, B. destruct (nan64 x); [discriminate|]. destruct (nan64 y); [discriminate|]. auto. }
  split.
  - unfold close. destruct (is_closed _) eqn:K; intros R; apply is_closed_v_ring in R; unfold is_closed in R; cbn [app] in R; apply N in R; exact R.
  - intros [Hx Hy]. unfold close. destruct (is_closed _) eqn:K; [apply is_closed_v_ring, K|]. apply is_closed_v_ring. unfold is_closed. cbn [app].
    change (VPair (VInt x) (VInt y) :: l ++ [VPair (VInt x) (VInt y)]) with ((VPair (VInt x) (VInt y) :: l) ++ [VPair (VInt x) (VInt y)]). rewrite last_last. cbn [ceq]. rewrite !feq_refl by assumption. reflexivity.
Qed.
Fixpoint times {A} (k : nat) (f : A -> A) (a : A) : A := match k with O => a | S k => f (times k f a) end.
Lemma v_grows : forall l x y k, hd_error l = Some (VPair (VInt x) (VInt y)) -> nan64 x = true \/ nan64 y = true ->
  times k close (VSeq l) = VSeq (l ++ repeat (VPair (VInt x) (VInt y)) k).
Proof.
  intros l x y k Hl Hn. induction k as [|k IH]; [cbn; rewrite app_nil_r; reflexivity|]. cbn [times]. rewrite IH. destruct l as [|a l]; [discriminate|]. inversion Hl; subst a.
  assert (NC : forall m, is_closed (VPair (VInt x) (VInt y) :: m) = false).
  { intros m. unfold is_closed. destruct (last _ _) as [| | | |[] []| |]; try reflexivity. cbn [ceq]. unfold feq. destruct Hn as [->| ->]; [reflexivity|]. cbn [negb andb]. apply andb_false_r. }
  unfold close. cbn [app]. rewrite NC. f_equal. cbn [app]. rewrite <- app_assoc. do 2 f_equal. clear. induction k as [|k IH]; [reflexivity|]. cbn [repeat app]. rewrite IH. reflexivity.
Qed.
Lemma v_stable : forall l, (forall a, hd_error l = Some a -> a_number a) -> close (close (VSeq l)) = close (VSeq l).
Proof.
  intros l H. destruct l as [|a l]; [reflexivity|]. destruct (H a eq_refl) as (x & y & -> & Hx & Hy).
  destruct (proj2 (v_rings (VPair (VInt x) (VInt y) :: l) x y eq_refl) (conj Hx Hy)) as (m & Hm & Hr). rewrite Hm. apply close_id. exists m. auto.
Qed.
(** Numbers that compare equal: neither is a NaN, and they have the same bits or are both zero, of either sign. *)
Definition zero64 (z : Z) : Prop := (z = 0 \/ z = 2 ^ 63)%Z.
Definition equal_numbers (a b : Z) : Prop := ~ not_a_number 8 a /\ ~ not_a_number 8 b /\ (a = b \/ zero64 a /\ zero64 b).
(** Points, and lines of points: the bits of their coordinates. *)
Definition point : Type := (Z * Z)%type.
Definition is_point (p : point) : Prop := (0 <= fst p < 2 ^ 64 /\ 0 <= snd p < 2 ^ 64)%Z.
Definition point_v (p : point) : val := VPair (VInt (fst p)) (VInt (snd p)).
Definition line (l : list point) : val := VSeq (map point_v l).
Definition numbers (p : point) : Prop := ~ not_a_number 8 (fst p) /\ ~ not_a_number 8 (snd p).
Definition same_point (a b : point) : Prop := equal_numbers (fst a) (fst b) /\ equal_numbers (snd a) (snd b).
(** Rings: a sequence of points whose first and last compare equal, or an empty one. *)
Definition ring (l : list point) : Prop := l = [] \/ exists a z, hd_error l = Some a /\ hd_error (rev l) = Some z /\ same_point a z.
Lemma nan64_iff : forall z, (0 <= z < 2 ^ 64)%Z -> (nan64 z = false <-> ~ not_a_number 8 z).
Proof. intros z H. apply (nan_false 8 z); [auto|exact H]. Qed.
Lemma mod_zero : forall z, (0 <= z < 2 ^ 64)%Z -> ((z mod 2 ^ 63 =? 0)%Z = true <-> zero64 z).
Proof.
  intros z Hz. unfold zero64. rewrite Z.eqb_eq. change (2 ^ 64)%Z with (2 * 2 ^ 63)%Z in Hz. assert (0 < 2 ^ 63)%Z by reflexivity. remember (2 ^ 63)%Z as M. split.
  - intros H0. pose proof (Z.div_mod z M ltac:(lia)). assert (0 <= z / M)%Z by (apply Z.div_pos; lia). assert (z / M < 2)%Z by (apply Z.div_lt_upper_bound; lia). assert (z / M = 0 \/ z / M = 1)%Z by lia. nia.
  - intros [->| ->]; [apply Z.mod_0_l|apply Z.mod_same]; lia.
Qed.
Lemma feq_iff : forall a b, (0 <= a < 2 ^ 64)%Z -> (0 <= b < 2 ^ 64)%Z -> (feq a b = true <-> equal_numbers a b).
Proof.
  intros a b Ha Hb. unfold feq, equal_numbers. rewrite !andb_true_iff, orb_true_iff, andb_true_iff, !negb_true_iff, Z.eqb_eq, !nan64_iff, !mod_zero by assumption. tauto.
Qed.
Lemma ceq_iff : forall a b, is_point a -> is_point b -> (ceq (point_v a) (point_v b) = true <-> same_point a b).
Proof. intros [a a'] [b b'] [Ha Ha'] [Hb Hb']. unfold same_point. cbn [ceq point_v fst snd] in *. rewrite andb_true_iff, !feq_iff by assumption. tauto. Qed.
Lemma v_ring_iff : forall l, Forall is_point l -> (v_ring (line l) <-> ring l).
Proof.
  intros l Hl. unfold v_ring, ring, line. assert (Hd : forall m : list point, hd_error (map point_v m) = option_map point_v (hd_error m)) by (intros [|? ?]; reflexivity).
  assert (Hin : forall (m : list point) a, hd_error m = Some a -> In a m) by (intros [|? ?] a Q; inversion Q; left; reflexivity). rewrite Forall_forall in Hl. split.
  - intros (l' & Q & H). inversion Q; subst l'. clear Q. destruct H as [H|(a & z & H1 & H2 & H3)]; [left; destruct l; [reflexivity|discriminate]|right].
    rewrite Hd in H1. rewrite <- map_rev, Hd in H2. destruct (hd_error l) as [a'|] eqn:E1; [|discriminate]. destruct (hd_error (rev l)) as [z'|] eqn:E2; [|discriminate]. cbn [option_map] in H1, H2. inversion H1; subst a. inversion H2; subst z.
    exists a', z'. split; [reflexivity|]. split; [reflexivity|]. apply ceq_iff; [apply Hl, Hin, E1|apply Hl; apply in_rev; apply Hin, E2|exact H3].
  - intros H. exists (map point_v l). split; [reflexivity|]. destruct H as [->|(a & z & H1 & H2 & H3)]; [left; reflexivity|right]. exists (point_v a), (point_v z). rewrite Hd, <- map_rev, Hd, H1, H2. split; [reflexivity|]. split; [reflexivity|].
    apply ceq_iff; [apply Hl, Hin, H1|apply Hl; apply in_rev; apply Hin, H2|exact H3].
Qed.
(** A polygon is read back as it is exactly if all its rings are closed. *)
Theorem C65_polygon_kept : forall e is, Forall is_point e -> Forall (Forall is_point) is ->
  (polygon_new (line e) (map line is) = (line e, map line is) <-> ring e /\ forall i, In i is -> ring i).
Proof.
  intros e is He Hi. unfold line at 1 3. replace (map line is) with (map VSeq (map (map point_v) is)) by (rewrite map_map; reflexivity). rewrite v_kept.
  rewrite Forall_forall in Hi. split; intros [H1 H2]; (split; [apply (v_ring_iff e He); exact H1|]).
  - intros i K. apply (v_ring_iff i (Hi i K)). apply H2. apply in_map, K.
  - intros i K. apply in_map_iff in K. destruct K as (j & <- & K). apply (v_ring_iff j (Hi j K)), H2, K.
Qed.
Lemma line_hd : forall l p, hd_error l = Some p -> hd_error (map point_v l) = Some (VPair (VInt (fst p)) (VInt (snd p))).
Proof. intros [|q l] p H; inversion H; subst. reflexivity. Qed.
(** The constructor makes closed rings, by adding the first point at the end where it is missing;
    if the first point has a coordinate that is not a number it always adds it, and the result is no ring. *)
Theorem C65_polygon_rings : forall l p, Forall is_point l -> hd_error l = Some p ->
  (ring l -> close (line l) = line l) /\ (~ ring l -> close (line l) = line (l ++ [p])) /\ (numbers p <-> ring l \/ ring (l ++ [p])).
Proof.
  intros l p Hl Hp. assert (Hpp : is_point p) by (destruct l; inversion Hp; subst; inversion Hl; assumption).
  assert (Hl' : Forall is_point (l ++ [p])) by (apply Forall_app; split; [assumption|constructor; [assumption|constructor]]).
  assert (H1 : ring l -> close (line l) = line l) by (intros H; apply close_id, v_ring_iff; assumption).
  assert (H2 : ~ ring l -> close (line l) = line (l ++ [p])).
  { intros H. rewrite <- (v_ring_iff l Hl) in H. unfold line in *. rewrite <- is_closed_v_ring in H. destruct l as [|q l]; inversion Hp; subst q. cbn [map] in *. unfold close.
    destruct (is_closed _); [exfalso; auto|]. f_equal. cbn [map app]. rewrite map_app. reflexivity. }
  split; [exact H1|]. split; [exact H2|]. pose proof (v_rings (map point_v l) (fst p) (snd p) (line_hd l p Hp)) as H3. change (VSeq (map point_v l)) with (line l) in H3.
  unfold numbers. rewrite <- (nan64_iff (fst p)), <- (nan64_iff (snd p)) by apply Hpp. rewrite <- H3. clear H3.
  assert (Hdec : ring l \/ ~ ring l). { rewrite <- (v_ring_iff l Hl). unfold line. rewrite <- is_closed_v_ring. destruct (is_closed _); [left; reflexivity|right; discriminate]. }
  destruct Hdec as [K|K].
  - rewrite (H1 K). rewrite (v_ring_iff l Hl). tauto.
  - rewrite (H2 K). rewrite (v_ring_iff _ Hl'). tauto.
Qed.
(** So polygons made of numbers survive any number of round trips; a v_ring that starts with a NaN grows by a point at each of them. *)
Theorem C65_polygon_grows : forall l p k, Forall is_point l -> hd_error l = Some p -> ~ numbers p -> times k close (line l) = line (l ++ repeat p k).
Proof.
  intros l p k Hl Hp Hn. assert (Hpp : is_point p) by (destruct l; inversion Hp; subst; inversion Hl; assumption).
  unfold line. rewrite (v_grows _ _ _ k (line_hd l p Hp)). { rewrite map_app. do 2 f_equal. clear. induction k as [|k IH]; [reflexivity|]. cbn [repeat map]. rewrite <- IH. reflexivity. }
  unfold numbers in Hn. rewrite <- (nan64_iff (fst p)), <- (nan64_iff (snd p)) in Hn by apply Hpp. destruct (nan64 (fst p)); [left; reflexivity|]. destruct (nan64 (snd p)); [right; reflexivity|]. tauto.
Qed.
Theorem C65_polygon_stable : forall l, Forall is_point l -> (forall p, hd_error l = Some p -> numbers p) -> exists m, close (line l) = line m /\ ring m /\ close (line m) = line m.
Proof.
  intros l Hl H. destruct l as [|p l]; [exists []; split; [reflexivity|]; split; [left; reflexivity|reflexivity]|].
  destruct (C65_polygon_rings (p :: l) p Hl eq_refl) as (H1 & H2 & H3). assert (Hl' : Forall is_point ((p :: l) ++ [p])) by (apply Forall_app; split; [assumption|inversion Hl; constructor; [assumption|constructor]]).
  assert (Hdec : ring (p :: l) \/ ~ ring (p :: l)). { rewrite <- (v_ring_iff _ Hl). unfold line. rewrite <- is_closed_v_ring. destruct (is_closed _); [left; reflexivity|right; discriminate]. }
  destruct Hdec as [K|K]; [exists (p :: l); auto|]. exists ((p :: l) ++ [p]). split; [auto|]. destruct (proj1 H3 (H p eq_refl)) as [R|R]; [tauto|]. split; [exact R|]. apply close_id, v_ring_iff; assumption.
Qed.
(** Minus zero ends a ring that starts at zero; a line between two points is closed by a third. *)
Example C65_ring_case : ring [(0, 0); (0x3ff0000000000000, 0); (2 ^ 63, 0)]%Z /\ ~ ring [(0, 0); (0x3ff0000000000000, 0)]%Z
  /\ close (line [(0, 0); (0x3ff0000000000000, 0)]%Z) = line [(0, 0); (0x3ff0000000000000, 0); (0, 0)]%Z /\ ~ numbers (0x7ff8000000000000, 0)%Z.
Proof.
  assert (P : forall l, forallb (fun p => (0 <=? fst p) && (fst p <? 2 ^ 64) && (0 <=? snd p) && (snd p <? 2 ^ 64))%Z l = true -> Forall is_point l).
  { intros l H. apply Forall_forall. intros p K. rewrite forallb_forall in H. apply H in K. unfold is_point. rewrite !andb_true_iff, !Z.leb_le, !Z.ltb_lt in K. tauto. }
  split; [apply v_ring_iff; [apply P; reflexivity|apply is_closed_v_ring; reflexivity]|].
  split; [rewrite <- v_ring_iff by (apply P; reflexivity); unfold line; rewrite <- is_closed_v_ring; discriminate|].
  split; [reflexivity|]. intros [H _]. apply (nan_false 8) in H; [discriminate|auto|split; (discriminate || reflexivity)].
Qed.
(** A polygon that is not read back as it was. *)
Definition nan_point : val := VPair (VInt 9221120237041090560) (VInt 0).
Theorem C65_polygon_grows_refuted : exists E e is b, wf_env E /\ wt E 0 (TPair line_t (TVec line_t)) (VPair e (VSeq is))
  /\ (e, is) = polygon_new (VSeq [nan_point]) [] /\ ser_bytes (ser_polygon E (e, is)) = Ok b
  /\ run (de_polygon E) b = Ok ((VSeq [nan_point; nan_point; nan_point], []), []) /\ e = VSeq [nan_point; nan_point].
Proof.
  exists (ex_env (fun _ => None)), (VSeq [nan_point; nan_point]), []. eexists. split; [apply wf_ex; discriminate|]. split; [apply wtb_ok; vm_compute; reflexivity|].
  split; [reflexivity|]. split; [vm_compute; reflexivity|]. split; [vm_compute; reflexivity|reflexivity].
Qed.

(** ** These types as [TExt] *)
(** The constructors of the crates on the plain values that are written. *)
Definition std_ext (C : chrono) (c : N) (v : val) : option val :=
  match c, v with
  | 1, VPair (VInt s) (VInt n) => if (n <? 0)%Z then None else if duration_new C s n then Some v else None
  | 2, VPair (VInt y) (VPair (VInt m) (VInt d)) => if from_ymd C y m d then Some v else None
  | 3, VPair (VInt h) (VPair (VInt m) (VPair (VInt s) (VInt n))) => if from_hms_nano h m s n then Some v else None
  | 4, VPair (VInt s) (VInt n) => if timestamp_opt C s n then Some v else None
  | 5, VPair e (VSeq l) => Some (VPair (close e) (VSeq (map close l)))
  | 6, VInt z => if nan 4 z then None else Some v
  | 7, VInt z => if nan 8 z then None else Some v
  | _, _ => None
  end.
Definition duration_t : ty := TExt 1 false (TPair (TInt I64) (TInt I32)).
Definition date_t : ty := TExt 2 false (TPair (TInt I32) (TPair (TInt U32) (TInt U32))).
Definition time_t : ty := TExt 3 false (TPair (TInt U32) (TPair (TInt U32) (TPair (TInt U32) (TInt U32)))).
Definition datetime_t : ty := TExt 4 false (TPair (TInt I64) (TInt U32)).
Definition polygon_t : ty := TExt 5 false (TPair line_t (TVec line_t)).
Definition notnan32_t : ty := TExt 6 false TF32.
Definition notnan64_t : ty := TExt 7 false TF64.
Definition duration_v (n : Z) : val := VPair (VInt (n / 1000000000)) (VInt (n mod 1000000000)).
Definition date_v (d : Z * Z * Z) : val := VPair (VInt (fst (fst d))) (VPair (VInt (snd (fst d))) (VInt (snd d))).
Definition time_v (t : Z * Z) : val := VPair (VInt (fst t / 3600)) (VPair (VInt (fst t / 60 mod 60)) (VPair (VInt (fst t mod 60)) (VInt (snd t)))).
Definition datetime_v (t : Z * Z) : val := VPair (VInt (fst t)) (VInt (snd t)).
Definition polygon_v (p : polygon) : val := VPair (fst p) (VSeq (snd p)).
Definition as_val {A} (f : A -> val) (r : res (A * bytes)) : res (val * bytes) := rmap (fun p => (f (fst p), snd p)) r.

(** Decoding such a type of the model is decoding it as above. *)
Section As.
Variables (E : env) (C : chrono).
Hypothesis W : wf_env E.
Hypothesis HE : e_ext E = std_ext C.
Lemma int_in : forall i bs z r, In i [I32; U32; I64] -> wfb bs -> run (de_int (e_fw E) (e_ub E) i) bs = Ok (z, r) -> in_ity (e_ub E) i z /\ wfb r.
Proof.
  intros i bs z r Hi Hb H. apply (means_run _ _ _ (means_int E i) bs z r Hb) in H. destruct H as (x & -> & F). apply wfb_app in Hb. split; [|apply Hb].
  destruct Hi as [<-|[<-|[<-|[]]]]; destruct F as (n & _ & _ & F); exact F.
Qed.
Lemma ext_run : forall c t bs, run (deserialize E 0 (TExt c false t)) bs =
  rbind (run (deserialize E 0 t) bs) (fun p => match std_ext C c (fst p) with Some y => Ok (y, snd p) | None => Err (EDeserialize (MExternal c)) end).
Proof.
  intros c t bs. unfold deserialize. cbn [de_ty]. rewrite run_bind, HE. destruct (run _ bs) as [[v r]|e|q]; [|reflexivity..]. cbn [rbind fst snd]. destruct (std_ext C c v); reflexivity.
Qed.
Lemma pair_run : forall a b bs, run (deserialize E 0 (TPair a b)) bs = rbind (run (deserialize E 0 a) bs) (fun p => rbind (run (deserialize E 0 b) (snd p)) (fun q => Ok (VPair (fst p) (fst q), snd q))).
Proof.
  intros a b bs. unfold deserialize. cbn [de_ty]. rewrite run_bind. destruct (run _ bs) as [[v r]|e|q]; [|reflexivity..]. cbn [rbind fst snd]. rewrite run_bind. destruct (run _ r) as [[v' r']|e|q]; reflexivity.
Qed.
Lemma int_run : forall i bs, run (deserialize E 0 (TInt i)) bs = rbind (run (de_int (e_fw E) (e_ub E) i) bs) (fun p => Ok (VInt (fst p), snd p)).
Proof. intros i bs. unfold deserialize. cbn [de_ty]. rewrite run_bind. destruct (run _ bs) as [[v r]|e|q]; reflexivity. Qed.
Ltac one i Hb B := match goal with |- context [run (de_int _ _ i) ?x] => let z := fresh "z" in let r := fresh "r" in let K := fresh "K" in
  destruct (run (de_int (e_fw E) (e_ub E) i) x) as [[z r]|?|?] eqn:K; [|reflexivity..]; destruct (int_in i x z r ltac:(cbn; tauto) Hb K) as [B ?]; cbn [rbind fst snd] end.

Theorem C65_duration_as : forall bs, wfb bs -> run (deserialize E 0 duration_t) bs = as_val duration_v (run (de_duration E C) bs).
Proof.
  intros bs Hb. unfold duration_t, de_duration. rewrite ext_run, pair_run, int_run, run_bind. one I64 Hb B. rewrite run_bind, int_run. one I32 H B2. cbn [std_ext]. unfold duration_new, giga.
  destruct (Z.ltb_spec z0 0); [reflexivity|]. destruct (_ && _)%Z eqn:Q; [|reflexivity]. cbn. unfold duration_v. do 3 f_equal; f_equal; clear - H1 Q.
  - apply (Z.div_unique _ _ _ z0); lia.
  - apply (Z.mod_unique _ _ z); lia.
Qed.
Theorem C65_date_as : forall bs, wfb bs -> run (deserialize E 0 date_t) bs = as_val date_v (run (de_date E C) bs).
Proof.
  intros bs Hb. unfold date_t, de_date. rewrite ext_run, !pair_run, int_run, run_bind. one I32 Hb B. rewrite run_bind, pair_run, int_run. one U32 H B2. rewrite run_bind, int_run. one U32 H0 B3. cbn [std_ext]. unfold from_ymd.
  destruct (_ && _)%Z eqn:Q; reflexivity.
Qed.
Theorem C65_time_as : forall bs, wfb bs -> run (deserialize E 0 time_t) bs = as_val time_v (run (de_time E) bs).
Proof.
  intros bs Hb. unfold time_t, de_time. rewrite ext_run, !pair_run, int_run, run_bind. one U32 Hb B. rewrite run_bind, pair_run, int_run. one U32 H B2. rewrite run_bind, pair_run, int_run. one U32 H0 B3. rewrite run_bind, int_run. one U32 H1 B4.
  cbn [std_ext]. unfold from_hms_nano. destruct (_ && _)%Z eqn:Q; [|reflexivity]. cbn [run as_val rmap fst snd]. unfold time_v. cbn [fst snd]. unfold in_ity, inU in *. cbn [ity_signed ity_bits] in *.
  assert (A1 : ((z * 3600 + z0 * 60 + z1) / 3600 = z)%Z) by (symmetry; apply (Z.div_unique _ _ _ (z0 * 60 + z1)); lia).
  assert (A2 : ((z * 3600 + z0 * 60 + z1) / 60 = z * 60 + z0)%Z) by (symmetry; apply (Z.div_unique _ _ _ z1); lia).
  assert (A3 : ((z * 3600 + z0 * 60 + z1) mod 60 = z1)%Z) by (symmetry; apply (Z.mod_unique _ _ (z * 60 + z0)); lia).
  assert (A4 : ((z * 60 + z0) mod 60 = z0)%Z) by (symmetry; apply (Z.mod_unique _ _ z); lia). rewrite A1, A2, A3, A4. reflexivity.
Qed.
Theorem C65_datetime_as : forall bs, wfb bs -> run (deserialize E 0 datetime_t) bs = as_val datetime_v (run (de_datetime E C) bs).
Proof.
  intros bs Hb. unfold datetime_t, de_datetime. rewrite ext_run, pair_run, int_run, run_bind. one I64 Hb B. rewrite run_bind, int_run. one U32 H B2. cbn [std_ext]. unfold timestamp_opt. destruct (_ && _)%Z eqn:Q; reflexivity.
Qed.
Theorem C65_notnan_as : forall bs, run (deserialize E 0 notnan32_t) bs = as_val VInt (run (de_notnan 4) bs)
  /\ run (deserialize E 0 notnan64_t) bs = as_val VInt (run (de_notnan 8) bs).
Proof.
  intros bs. unfold notnan32_t, notnan64_t, de_notnan. rewrite !ext_run. unfold deserialize. cbn [de_ty]. rewrite !run_bind. change (N.of_nat 4) with 4. change (N.of_nat 8) with 8. split.
  - destruct (run (read_n 4) bs) as [[x r]|e|q]; [|reflexivity..]. cbn [run rbind fst snd std_ext]. destruct (nan 4 _); reflexivity.
  - destruct (run (read_n 8) bs) as [[x r]|e|q]; [|reflexivity..]. cbn [run rbind fst snd std_ext]. destruct (nan 8 _); reflexivity.
Qed.
Lemma vec_shape : forall t bs v r, run (deserialize E 0 (TVec t)) bs = Ok (v, r) -> exists l, v = VSeq l.
Proof.
  intros t bs v r. unfold deserialize. cbn [de_ty]. destruct (if e_spec E then bulk_of t else None).
  - rewrite run_bind. destruct (run _ bs) as [[l r']|e|q]; [|discriminate..]. cbn [run]. intros H. apply Ok_inj in H. inversion H. eauto.
  - rewrite run_bind. destruct (run _ bs) as [[l r']|e|q]; [|discriminate..]. cbn [run]. intros H. apply Ok_inj in H. inversion H. eauto.
Qed.
Theorem C65_polygon_as : forall bs, run (deserialize E 0 polygon_t) bs = as_val polygon_v (run (de_polygon E) bs).
Proof.
  intros bs. unfold polygon_t. rewrite ext_run, de_polygon_run, pair_run. destruct (run (deserialize E 0 line_t) bs) as [[v r]|e|q] eqn:K; [|reflexivity..]. cbn [rbind fst snd].
  destruct (run (deserialize E 0 (TVec line_t)) r) as [[v' r']|e|q] eqn:K'; [|reflexivity..]. cbn [rbind fst snd]. destruct (vec_shape _ _ _ _ K') as [l ->]. reflexivity.
Qed.
(** And so is encoding. *)
Theorem C65_encode_as : 
  (forall n, sane C -> (c_dur_min C <= n <= c_dur_max C)%Z -> to_vec E 0 duration_t (duration_v n) = ser_bytes (ser_duration E n))
  /\ (forall d, to_vec E 0 date_t (date_v d) = ser_bytes (ser_date E d)) /\ (forall t, to_vec E 0 time_t (time_v t) = ser_bytes (ser_time E t))
  /\ (forall t, to_vec E 0 datetime_t (datetime_v t) = ser_bytes (ser_datetime E t)) /\ (forall z, to_vec E 0 notnan32_t (VInt z) = ser_bytes (ser_notnan 4 z) /\ to_vec E 0 notnan64_t (VInt z) = ser_bytes (ser_notnan 8 z))
  /\ (forall p, to_vec E 0 polygon_t (polygon_v p) = ser_bytes (ser_polygon E p)).
Proof.
  split; [|split; [|split; [|split; [|split]]]]; try (intros; (reflexivity || (split; reflexivity))).
  - intros n S H. rewrite (C65_duration_wire E C n S H). unfold to_vec, to_writer, duration_t, duration_v. cbn [ser_ty]. wire.
  - intros [e is]. rewrite ser_polygon_vec. reflexivity.
Qed.
End As.
(** The law that the other theorems ask of external constructors: it holds of all but polygons, and of these but for rings that start with a NaN. *)
Theorem C65_law : forall C c v w, std_ext C c v = Some w -> 
  (c <> 5 -> w = v) /\ (c = 5 -> exists e l, v = VPair e (VSeq l) /\ w = polygon_v (polygon_new e l)).
Proof.
  intros C c v w H. unfold std_ext in H. split.
  - intros Hc. destruct c as [|[[[]|[]|]|[[]|[]|]|]]; try discriminate; try (exfalso; apply Hc; reflexivity);
    repeat match type of H with match ?x with _ => _ end = _ => destruct x; try discriminate end; congruence.
  - intros ->. destruct v as [| | | |e []| |]; try discriminate. inversion H. eauto.
Qed.

(** ** Cases *)
Definition chrono04 : chrono := mkChrono (- 9223372036854775807000000) 9223372036854775807000000 (-8334601228800) 8210266876799 (-262143) 262142.
Example chrono04_sane : sane chrono04.
Proof. unfold sane, giga. cbn. lia. Qed.
(** One and a half seconds before: two seconds back, half a second on. *)
Example minus_1500ms : ser_bytes (ser_duration (ex_env (fun _ => None)) (-1500000000)) = Ok [3; 252; 0; 202; 154; 59]
  /\ run (de_duration (ex_env (fun _ => None)) chrono04) [3; 252; 0; 202; 154; 59] = Ok ((-1500000000)%Z, []).
Proof. split; vm_compute; reflexivity. Qed.
Example leap_day : a_date chrono04 2000 2 29 /\ ~ a_date chrono04 1900 2 29.
Proof. split; [apply (proj1 (from_ymd_iff chrono04 2000 2 29 (2000, 2, 29)%Z)); reflexivity|]. intros H. pose proof (proj2 (from_ymd_iff chrono04 1900 2 29 (1900, 2, 29)%Z) (conj eq_refl H)) as Q. discriminate Q. Qed.
Example square : polygon_new (VSeq [VPair (VInt 0) (VInt 0); VPair (VInt 1) (VInt 0); VPair (VInt 1) (VInt 1)]) [] =
  (VSeq [VPair (VInt 0) (VInt 0); VPair (VInt 1) (VInt 0); VPair (VInt 1) (VInt 1); VPair (VInt 0) (VInt 0)], []).
Proof. reflexivity. Qed.
Example square_wt : wt (ex_env (fun _ => None)) 0 (TPair line_t (TVec line_t)) (VPair (VSeq [VPair (VInt 0) (VInt 0); VPair (VInt 1) (VInt 0); VPair (VInt 1) (VInt 1); VPair (VInt 0) (VInt 0)]) (VSeq [])).
Proof. apply wtb_ok. vm_compute. reflexivity. Qed.

Print Assumptions C65_duration_wire.
Print Assumptions C65_duration_kept.
Print Assumptions C65_duration_read.
Print Assumptions C65_date_kept.
Print Assumptions C65_date_read.
Print Assumptions C65_time_kept.
Print Assumptions C65_datetime_kept.
Print Assumptions C65_leap_second_refuted.
Print Assumptions C65_notnan.
Print Assumptions C65_polygon_read_back.
Print Assumptions C65_polygon_kept.
Print Assumptions C65_polygon_rings.
Print Assumptions C65_polygon_grows.
Print Assumptions C65_polygon_stable.
Print Assumptions C65_polygon_grows_refuted.
Print Assumptions C65_duration_as.
Print Assumptions C65_date_as.
Print Assumptions C65_time_as.
Print Assumptions C65_datetime_as.
Print Assumptions C65_time_read.
Print Assumptions C65_datetime_read.
Print Assumptions C65_notnan_as.
Print Assumptions C65_polygon_as.
Print Assumptions C65_encode_as.
Print Assumptions C65_law.
