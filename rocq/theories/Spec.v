(** Small definitions used in the statements of the properties: specification part. *)

From Verif Require Import Base BaseL Prog Prim PrimL Ty Ser De.
From Coq Require Import List NArith ZArith Bool.
Import ListNotations.
Open Scope N_scope.

(** [r] is [r'], unless the build has a memory limit and an allocation exceeded it. *)
Definition or_oom (E : env) {A} (r r' : res A) : Prop := r = r' \/ (e_mem E <> None /\ r = Panic PMem).

(** Values of several types read one after the other from one reader. *)
Fixpoint decode_all (E : env) (d : nat) (ts : list ty) : prog (list val) :=
  match ts with
  | [] => Ret []
  | t :: ts' => v <- deserialize E d t ;; l <- decode_all E d ts' ;; Ret (v :: l)
  end.

(** ** Numbers on the wire (README / primitives.rs:33-34 documentation)

    [denotes w form n]: the byte string [form] is a variable-length form of the number [n], in the
    64-bit ([w = 64]) or 128-bit ([w = 128]) format. *)
Inductive denotes (w : N) : bytes -> N -> Prop :=
| den_1 : forall b, b <= 250 -> denotes w [b] b
| den_2 : forall x, len x = 2 -> denotes w (251 :: x) (le_val x)
| den_4 : forall x, len x = 4 -> denotes w (252 :: x) (le_val x)
| den_8 : forall x, len x = 8 -> denotes w (253 :: x) (le_val x)
| den_16 : forall x, w = 128 -> len x = 16 -> denotes w (254 :: x) (le_val x).

(** The documented size of a number. *)
Definition width (n : N) : N :=
  if n <=? 250 then 1 else if n <=? 65535 then 3 else if n <=? 4294967295 then 5
  else if n <=? 18446744073709551615 then 9 else 17.

(** The signed number a zig-zag code stands for: 0, -1, 1, -2, 2, ... *)
Definition unzigzag (n : N) : Z := if N.even n then Z.of_N (n / 2) else (- Z.of_N (n / 2) - 1)%Z.

(** Integer types written in the variable-length format. *)
Definition wide (i : ity) : bool := match i with U8 | I8 => false | _ => true end.
Definition wire_bits (i : ity) : N := match i with U128 | I128 => 128 | _ => 64 end.
(** The unsigned code of an integer, and the integer of a code. *)
Definition code (i : ity) (z : Z) : N :=
  if ity_signed i then (if (0 <=? z)%Z then Z.to_N (2 * z) else Z.to_N (- 2 * z - 1)) else Z.to_N z.
Definition number (i : ity) (n : N) : Z := if ity_signed i then unzigzag n else Z.of_N n.

(** What decoding an integer of type [i] from [bs] should end in. *)
Inductive int_outcome (ub : N) (i : ity) (bs : bytes) : res (val * bytes) -> Prop :=
| io_ok : forall form n rest, bs = form ++ rest -> denotes (wire_bits i) form n ->
    in_ity ub i (number i n) -> int_outcome ub i bs (Ok (VInt (number i n), rest))
| io_over : forall form n rest, bs = form ++ rest -> denotes (wire_bits i) form n ->
    ~ in_ity ub i (number i n) -> int_outcome ub i bs (Err EOverflow)
| io_128 : forall rest, bs = 254 :: rest -> wire_bits i = 64 -> int_outcome ub i bs (Err EOverflow)
| io_255 : forall rest, bs = 255 :: rest -> int_outcome ub i bs (Err EInvalidInt)
| io_short : (forall form n rest, bs = form ++ rest -> ~ denotes (wire_bits i) form n) ->
    hd 0 bs <> 255 -> (wire_bits i = 64 -> hd 0 bs <> 254) -> int_outcome ub i bs (Err EIo).
