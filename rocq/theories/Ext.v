(** The impls for types of other crates that do more than write another type: chrono.rs, geo.rs, notnan.rs.  Model part.
    Ser.v and De.v treat these types as [TExt]: a plain value and a validating function.  Here the values are those of the
    crates, and their accessors and constructors are written out as those crates document them (the crates are not in /repo). *)

From Verif Require Import Base Prog Prim Ty Ser De.
From Coq Require Import List NArith ZArith Bool.
Import ListNotations.
Open Scope N_scope.

(** ** chrono *)
(** What chrono can represent: [TimeDelta::MIN], [MAX] in nanoseconds; the seconds since 1970 of [DateTime::MIN_UTC], [MAX_UTC];
    the years of [NaiveDate::MIN], [MAX]. *)
Record chrono := mkChrono { c_dur_min : Z; c_dur_max : Z; c_time_min : Z; c_time_max : Z; c_year_min : Z; c_year_max : Z }.
Definition giga : Z := 1000000000.

(** [i64::checked_sub], [i32::checked_add] (std). *)
Definition checked_i (bits : N) (z : Z) : option Z :=
  if ((- 2 ^ (Z.of_N bits - 1) <=? z) && (z <? 2 ^ (Z.of_N bits - 1)))%Z then Some z else None.

Section Ext.
Variable E : env.
Variable C : chrono.

(** A [Duration] is a number of nanoseconds.  [num_seconds]: whole seconds, towards zero; [subsec_nanos]: what is left. *)
Definition num_seconds (n : Z) : Z := Z.quot n giga.
Definition subsec_nanos (n : Z) : Z := Z.rem n giga.
(** [Duration::new]: none if there are more nanoseconds than a second has, or out of range. *)
Definition duration_new (s ns : Z) : option Z :=
  if ((ns <? giga) && (c_dur_min C <=? s * giga + ns) && (s * giga + ns <=? c_dur_max C))%Z then Some (s * giga + ns)%Z else None.
(** Error::Serialize("invalid duration"). *)
Definition bad_duration : ser := Err (ESerialize (MOther 2)).
(** chrono.rs:92-112. *)
Definition ser_duration (n : Z) : ser :=
  let secs := num_seconds n in
  let nano := subsec_nanos n in
  if (nano <? 0)%Z then
    match checked_i 64 (secs - 1) with
    | None => bad_duration
    | Some secs =>
        match checked_i 32 (nano + 1000000000) with
        | None => bad_duration
        | Some nano => sall (ser_int (e_fw E) I64 secs) +++ sall (ser_int (e_fw E) I32 nano)
        end
    end
  else sall (ser_int (e_fw E) I64 secs) +++ sall (ser_int (e_fw E) I32 nano).
(** chrono.rs:114-124; [u32::try_from] of an [i32] fails when it is negative. *)
Definition de_duration : prog Z :=
  s <- de_int (e_fw E) (e_ub E) I64 ;; ns <- de_int (e_fw E) (e_ub E) I32 ;;
  if (ns <? 0)%Z then Fail (EDeserialize (MExternal 1))
  else match duration_new s ns with Some n => Ret n | None => Fail (EDeserialize (MExternal 1)) end.

(** A [NaiveDate] is a year, a month and a day.  [from_ymd_opt]. *)
Definition leap (y : Z) : bool := ((y mod 4 =? 0) && (negb (y mod 100 =? 0) || (y mod 400 =? 0)))%Z.
Definition month_days (y m : Z) : Z :=
  (if m =? 2 then if leap y then 29 else 28
   else if (m =? 4) || (m =? 6) || (m =? 9) || (m =? 11) then 30 else 31)%Z.
Definition from_ymd (y m d : Z) : option (Z * Z * Z) :=
  if ((c_year_min C <=? y) && (y <=? c_year_max C) && (1 <=? m) && (m <=? 12) && (1 <=? d) && (d <=? month_days y m))%Z then Some (y, m, d) else None.
(** chrono.rs:34-53. *)
Definition ser_date (d : Z * Z * Z) : ser :=
  sall (ser_int (e_fw E) I32 (fst (fst d))) +++ sall (ser_int (e_fw E) U32 (snd (fst d))) +++ sall (ser_int (e_fw E) U32 (snd d)).
Definition de_date : prog (Z * Z * Z) :=
  y <- de_int (e_fw E) (e_ub E) I32 ;; m <- de_int (e_fw E) (e_ub E) U32 ;; d <- de_int (e_fw E) (e_ub E) U32 ;;
  match from_ymd y m d with Some x => Ret x | None => Fail (EDeserialize (MExternal 2)) end.

(** A [NaiveTime] is the second of the day and its nanosecond, which exceeds a second during a leap second.
    [from_hms_nano_opt] builds leap seconds only at the end of a minute; [with_second] and [with_nanosecond] also elsewhere. *)
Definition from_hms_nano (h m s n : Z) : option (Z * Z) :=
  if ((h <? 24) && (m <? 60) && (s <? 60) && ((n <? giga) || (s =? 59)) && (n <? 2 * giga))%Z then Some (h * 3600 + m * 60 + s, n)%Z else None.
(** chrono.rs:62-83. *)
Definition ser_time (t : Z * Z) : ser :=
  sall (ser_int (e_fw E) U32 (fst t / 3600)%Z) +++ sall (ser_int (e_fw E) U32 (fst t / 60 mod 60)%Z)
  +++ sall (ser_int (e_fw E) U32 (fst t mod 60)%Z) +++ sall (ser_int (e_fw E) U32 (snd t)).
Definition de_time : prog (Z * Z) :=
  h <- de_int (e_fw E) (e_ub E) U32 ;; m <- de_int (e_fw E) (e_ub E) U32 ;; s <- de_int (e_fw E) (e_ub E) U32 ;; n <- de_int (e_fw E) (e_ub E) U32 ;;
  match from_hms_nano h m s n with Some x => Ret x | None => Fail (EDeserialize (MExternal 3)) end.

(** A [DateTime<Utc>] is the second since 1970 and its nanosecond, as above.  [timestamp_opt]. *)
Definition timestamp_opt (s n : Z) : option (Z * Z) :=
  if ((c_time_min C <=? s) && (s <=? c_time_max C) && ((n <? giga) || (s mod 60 =? 59)) && (n <? 2 * giga))%Z then Some (s, n) else None.
(** chrono.rs:7-25. *)
Definition ser_datetime (t : Z * Z) : ser := sall (ser_int (e_fw E) I64 (fst t)) +++ sall (ser_int (e_fw E) U32 (snd t)).
Definition de_datetime : prog (Z * Z) :=
  s <- de_int (e_fw E) (e_ub E) I64 ;; n <- de_int (e_fw E) (e_ub E) U32 ;;
  match timestamp_opt s n with Some x => Ret x | None => Fail (EDeserialize (MExternal 4)) end.

(** ** ordered-float *)
(** The bits of a NaN ([e], [m]: the number of bits of exponent and mantissa). *)
Definition nan_bits (e m : N) (z : Z) : bool := ((2 ^ Z.of_N e - 1) * 2 ^ Z.of_N m <? z mod 2 ^ Z.of_N (e + m))%Z.
Definition nan32 : Z -> bool := nan_bits 8 23.
Definition nan64 : Z -> bool := nan_bits 11 52.
(** notnan.rs:11-26, for [f32] ([k] = 4) and [f64] ([k] = 8); 6 and 7 stand for the two error texts. *)
Definition nan (k : nat) : Z -> bool := if Nat.eqb k 4 then nan32 else nan64.
Definition ser_notnan (k : nat) (z : Z) : ser := sall (le_bytes k (Z.to_N z)).
Definition de_notnan (k : nat) : prog Z :=
  x <- read_n (N.of_nat k) ;;
  if nan k (Z.of_N (le_val x)) then Fail (EDeserialize (MExternal (if Nat.eqb k 4 then 6 else 7))) else Ret (Z.of_N (le_val x)).

(** ** geo *)
(** A [Coord] is a pair of [f64], a [LineString] a sequence of these, both as plain values: geo.rs:7-25, 55-67. *)
Definition coord_t : ty := TPair TF64 TF64.
Definition line_t : ty := TVec coord_t.
(** [==] on [f64]: no NaN equals anything, the two zeros are equal. *)
Definition feq (a b : Z) : bool := negb (nan64 a) && negb (nan64 b) && ((a =? b) || ((a mod 2 ^ 63 =? 0) && (b mod 2 ^ 63 =? 0)))%Z.
Definition ceq (a b : val) : bool :=
  match a, b with VPair (VInt x) (VInt y), VPair (VInt x') (VInt y') => feq x x' && feq y y' | _, _ => false end.
(** [LineString::is_closed]: the first point equals the last. *)
Definition is_closed (l : list val) : bool := match l with [] => true | a :: _ => ceq a (last l a) end.
(** [LineString::close]: if not, the first point is appended. *)
Definition close (v : val) : val :=
  match v with VSeq (a :: l) => if is_closed (a :: l) then v else VSeq ((a :: l) ++ [a]) | _ => v end.
(** [Polygon::new] closes all rings. *)
Definition polygon := (val * list val)%type.
Definition polygon_new (e : val) (is : list val) : polygon := (close e, map close is).
(** geo.rs:76-96. *)
Definition ser_polygon (p : polygon) : ser :=
  ser_ty E (fun _ _ => snil) line_t (fst p) +++ Ok [WAll (ser_len E (len (snd p)))] +++ sconcat (map (ser_ty E (fun _ _ => snil) line_t) (snd p)).
Definition de_polygon : prog polygon :=
  e <- de_ty E (fun _ => Crash PType) line_t ;; is <- de_ty E (fun _ => Crash PType) (TVec line_t) ;;
  match is with VSeq l => Ret (polygon_new e l) | _ => Crash PType end.
End Ext.
