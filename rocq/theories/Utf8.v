(** UTF-8: what [String::from_utf8] / [str::from_utf8] / [char::encode_utf8] of the Rust standard
    library do, and the [char] codec of src/implementations/string.rs.  Model part. *)

From Verif Require Import Base Prog.
From Coq Require Import List NArith Bool.
Import ListNotations.
Open Scope N_scope.

Definition inrng (lo hi b : N) : bool := (lo <=? b) && (b <=? hi).
Definition cont (b : N) : bool := inrng 128 191 b.

(** core::str::run_utf8_validation: the byte classes of RFC 3629. *)
Fixpoint utf8_ok (l : bytes) : bool :=
  match l with
  | [] => true
  | b0 :: r0 =>
    if b0 <? 128 then utf8_ok r0
    else match r0 with
    | [] => false
    | b1 :: r1 =>
      if inrng 194 223 b0 && cont b1 then utf8_ok r1
      else match r1 with
      | [] => false
      | b2 :: r2 =>
        if ((b0 =? 224) && inrng 160 191 b1
            || inrng 225 236 b0 && cont b1
            || (b0 =? 237) && inrng 128 159 b1
            || inrng 238 239 b0 && cont b1) && cont b2
        then utf8_ok r2
        else match r2 with
        | [] => false
        | b3 :: r3 =>
          if ((b0 =? 240) && inrng 144 191 b1
              || inrng 241 243 b0 && cont b1
              || (b0 =? 244) && inrng 128 143 b1) && cont b2 && cont b3
          then utf8_ok r3
          else false
        end
      end
    end
  end.

(** [char::encode_utf8]. *)
Definition utf8_encode (c : N) : bytes :=
  if c <? 128 then [c]
  else if c <? 2048 then [192 + c / 64; 128 + c mod 64]
  else if c <? 65536 then [224 + c / 4096; 128 + (c / 64) mod 64; 128 + c mod 64]
  else [240 + c / 262144; 128 + (c / 4096) mod 64; 128 + (c / 64) mod 64; 128 + c mod 64].

(** First scalar value of a valid string: [str::chars().next()]. *)
Definition utf8_first (l : bytes) : N :=
  match l with
  | b0 :: r =>
    if b0 <? 128 then b0
    else if b0 <? 224 then (b0 mod 32) * 64 + (nth 0 r 0) mod 64
    else if b0 <? 240 then (b0 mod 16) * 4096 + (nth 0 r 0) mod 64 * 64 + (nth 1 r 0) mod 64
    else (b0 mod 8) * 262144 + (nth 0 r 0) mod 64 * 4096 + (nth 1 r 0) mod 64 * 64
         + (nth 2 r 0) mod 64
  | [] => 0
  end.

(** string.rs:93-111 [CHAR_LENGTH]: computed by bit masks, as in the table initialiser. *)
Definition char_length (i : N) : N :=
  if N.land i 128 =? 0 then 1
  else if N.land i 224 =? 192 then 2
  else if N.land i 240 =? 224 then 3
  else if N.land i 248 =? 240 then 4
  else 0.

(** string.rs:58-64. *)
Definition ser_char (c : N) : ser := sall (utf8_encode c).

(** string.rs:66-84. *)
Definition de_char : prog N :=
  b <- read_byte ;;
  let n := char_length b in
  if n =? 0 then Fail EInvalidChar
  else r <- read_n (n - 1) ;;
       if utf8_ok (b :: r) then Ret (utf8_first (b :: r)) else Fail EInvalidChar.

(** Unicode scalar values: the inhabitants of Rust's [char]. *)
Definition scalar (c : N) : Prop := c < 55296 \/ (57343 < c /\ c < 1114112).
