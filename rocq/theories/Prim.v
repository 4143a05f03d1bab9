(** Integers on the wire: src/implementations/primitives.rs.  Model part. *)

From Verif Require Import Base Prog.
From Coq Require Import List NArith ZArith Bool.
Import ListNotations.
Open Scope N_scope.

(** The twelve Rust integer types. *)
Inductive ity := U8 | I8 | U16 | I16 | U32 | I32 | U64 | I64 | U128 | I128 | Usize | Isize.

Definition ity_signed (i : ity) : bool :=
  match i with I8 | I16 | I32 | I64 | I128 | Isize => true | _ => false end.
(** Width in bits; [usize]/[isize] have the target's pointer width [ub]. *)
Definition ity_bits (ub : N) (i : ity) : N :=
  match i with
  | U8 | I8 => 8 | U16 | I16 => 16 | U32 | I32 => 32 | U64 | I64 => 64 | U128 | I128 => 128
  | Usize | Isize => ub
  end.

(** primitives.rs:13-21: [zigzag_64], [gazgiz_64]; 23-31: the 128-bit versions ([bits]=64/128).
    The shifts, casts and xor are the Rust ones; [v >> (BITS-1)] is arithmetic. *)
Definition zigzag (bits : N) (v : Z) : N :=
  N.lxor (wrapZ bits (Z.shiftr v (Z.of_N bits - 1)))
         (N.shiftl (wrapZ bits v) 1 mod 2 ^ bits).
Definition gazgiz (bits : N) (v : N) : Z :=
  Z.lxor (Z.of_N (N.shiftr v 1)) (- Z.of_N (N.land v 1)).

(** primitives.rs:35-55 [encode_u64]. *)
Definition encode_u64 (i : N) : bytes :=
  if i <? 251 then [i]
  else if i <? 2 ^ 16 then 251 :: le_bytes 2 i
  else if i <? 2 ^ 32 then 252 :: le_bytes 4 i
  else 253 :: le_bytes 8 i.

(** primitives.rs:58-85 [encode_u128]. *)
Definition encode_u128 (i : N) : bytes :=
  if i <? 251 then [i]
  else if i <? 2 ^ 16 then 251 :: le_bytes 2 i
  else if i <? 2 ^ 32 then 252 :: le_bytes 4 i
  else if i <? 2 ^ 64 then 253 :: le_bytes 8 i
  else 254 :: le_bytes 16 i.

(** primitives.rs:88-111 [decode_u64]. *)
Definition decode_u64 : prog N :=
  b <- read_byte ;;
  if b =? 251 then x <- read_n 2 ;; Ret (le_val x)
  else if b =? 252 then x <- read_n 4 ;; Ret (le_val x)
  else if b =? 253 then x <- read_n 8 ;; Ret (le_val x)
  else if b =? 254 then Fail EOverflow
  else if b =? 255 then Fail EInvalidInt
  else Ret b.

(** primitives.rs:114-140 [decode_u128]. *)
Definition decode_u128 : prog N :=
  b <- read_byte ;;
  if b =? 251 then x <- read_n 2 ;; Ret (le_val x)
  else if b =? 252 then x <- read_n 4 ;; Ret (le_val x)
  else if b =? 253 then x <- read_n 8 ;; Ret (le_val x)
  else if b =? 254 then x <- read_n 16 ;; Ret (le_val x)
  else if b =? 255 then Fail EInvalidInt
  else Ret b.

(** [TryFrom] to an unsigned type of the given width, error mapped to [IntegerOverflow]
    (primitives.rs:290, 331). *)
Definition narrowU (bits : N) (x : N) : prog N :=
  if x <? 2 ^ bits then Ret x else Fail EOverflow.
(** The same for signed targets (primitives.rs:414, 456). *)
Definition narrowS (bits : N) (z : Z) : prog Z :=
  if ((- 2 ^ (Z.of_N bits - 1) <=? z) && (z <? 2 ^ (Z.of_N bits - 1)))%Z
  then Ret z else Fail EOverflow.

(** [as] cast of an i64 to a narrower signed type. *)
Definition castS (bits : N) (z : Z) : Z := signZ bits (wrapZ bits z).

Section Ints.
(** [fw]: cargo feature [fixed-width-encoding]; [ub]: pointer width of the target. *)
Variables (fw : bool) (ub : N).

(** [u64::serialize_revisioned] 349-362, [u64::deserialize_revisioned] 364-380. *)
Definition ser_u64 (x : N) : bytes := if fw then le_bytes 8 x else encode_u64 x.
Definition de_u64 : prog N := if fw then x <- read_n 8 ;; Ret (le_val x) else decode_u64.
(** [u32] 308-339, [u16] 267-298. *)
Definition ser_u32 (x : N) : bytes := if fw then le_bytes 4 x else encode_u64 x.
Definition de_u32 : prog N :=
  if fw then x <- read_n 4 ;; Ret (le_val x) else x <- decode_u64 ;; narrowU 32 x.
Definition ser_u16 (x : N) : bytes := if fw then le_bytes 2 x else encode_u64 x.
Definition de_u16 : prog N :=
  if fw then x <- read_n 2 ;; Ret (le_val x) else x <- decode_u64 ;; narrowU 16 x.
(** [u128] 556-587. *)
Definition ser_u128 (x : N) : bytes := if fw then le_bytes 16 x else encode_u128 x.
Definition de_u128 : prog N := if fw then x <- read_n 16 ;; Ret (le_val x) else decode_u128.
(** [u8] 218-233. *)
Definition ser_u8 (x : N) : bytes := [x].
Definition de_u8 : prog N := read_byte.
(** [usize] 170-185: written as u64, read back with [as usize]. *)
Definition ser_usize (x : N) : bytes := ser_u64 x.
Definition de_usize : prog N := x <- de_u64 ;; Ret (x mod 2 ^ ub).

(** [i8] 242-257: [as u8] / [as i8]. *)
Definition ser_i8 (z : Z) : bytes := [wrapZ 8 z].
Definition de_i8 : prog Z := x <- read_byte ;; Ret (signZ 8 x).
(** [i16] 390-422. *)
Definition ser_i16 (z : Z) : bytes :=
  if fw then le_bytes 2 (zigzag 64 z mod 2 ^ 16) else encode_u64 (zigzag 64 z).
Definition de_i16 : prog Z :=
  if fw then x <- read_n 2 ;; Ret (castS 16 (gazgiz 64 (le_val x)))
  else x <- decode_u64 ;; narrowS 16 (gazgiz 64 x).
(** [i32] 432-464. *)
Definition ser_i32 (z : Z) : bytes :=
  if fw then le_bytes 4 (zigzag 64 z mod 2 ^ 32) else encode_u64 (zigzag 64 z).
Definition de_i32 : prog Z :=
  if fw then x <- read_n 4 ;; Ret (castS 32 (gazgiz 64 (le_val x)))
  else x <- decode_u64 ;; narrowS 32 (gazgiz 64 x).
(** [i64] 474-505. *)
Definition ser_i64 (z : Z) : bytes :=
  if fw then le_bytes 8 (zigzag 64 z) else encode_u64 (zigzag 64 z).
Definition de_i64 : prog Z :=
  if fw then x <- read_n 8 ;; Ret (gazgiz 64 (le_val x))
  else x <- decode_u64 ;; Ret (gazgiz 64 x).
(** [i128] 515-546. *)
Definition ser_i128 (z : Z) : bytes :=
  if fw then le_bytes 16 (zigzag 128 z) else encode_u128 (zigzag 128 z).
Definition de_i128 : prog Z :=
  if fw then x <- read_n 16 ;; Ret (gazgiz 128 (le_val x))
  else x <- decode_u128 ;; Ret (gazgiz 128 x).
(** [isize] 194-209: written as i64, read back with [as isize]. *)
Definition ser_isize (z : Z) : bytes := ser_i64 z.
Definition de_isize : prog Z := z <- de_i64 ;; Ret (castS ub z).

(** Dispatch on the static type; the value is always given as [Z]. *)
Definition ser_int (i : ity) (z : Z) : bytes :=
  match i with
  | U8 => ser_u8 (Z.to_N z) | U16 => ser_u16 (Z.to_N z) | U32 => ser_u32 (Z.to_N z)
  | U64 => ser_u64 (Z.to_N z) | U128 => ser_u128 (Z.to_N z) | Usize => ser_usize (Z.to_N z)
  | I8 => ser_i8 z | I16 => ser_i16 z | I32 => ser_i32 z | I64 => ser_i64 z
  | I128 => ser_i128 z | Isize => ser_isize z
  end.
Definition de_int (i : ity) : prog Z :=
  match i with
  | U8 => x <- de_u8 ;; Ret (Z.of_N x) | U16 => x <- de_u16 ;; Ret (Z.of_N x)
  | U32 => x <- de_u32 ;; Ret (Z.of_N x) | U64 => x <- de_u64 ;; Ret (Z.of_N x)
  | U128 => x <- de_u128 ;; Ret (Z.of_N x) | Usize => x <- de_usize ;; Ret (Z.of_N x)
  | I8 => de_i8 | I16 => de_i16 | I32 => de_i32 | I64 => de_i64
  | I128 => de_i128 | Isize => de_isize
  end.
End Ints.

(** primitives.rs:661-690 [fixed_le_helpers!]: plain two's complement little-endian, used by the
    derive macro for [#[revision(fixed)]] fields (also the bulk Vec element format,
    specialised.rs:61-82). *)
Definition ser_fixed (w : nat) (z : Z) : bytes := le_bytes w (wrapZ (8 * N.of_nat w) z).
Definition de_fixed (signed : bool) (w : nat) : prog Z :=
  x <- read_n (N.of_nat w) ;;
  Ret (if signed then signZ (8 * N.of_nat w) (le_val x) else Z.of_N (le_val x)).
