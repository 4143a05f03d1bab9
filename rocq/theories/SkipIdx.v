(** Skipping an indexed field: src/optimised/indexed/serialize.rs:804-888.  Model part.  These functions
    take a [BorrowedReader]; the model has [SliceReader] (the [&[u8]] implementation does the same on
    the unread bytes, see C42). *)

From Verif Require Import Base Prog Prim Ty De SliceReader Skip.
From Coq Require Import List NArith Bool.
Import ListNotations.
Open Scope N_scope.

Section SkipIdx.
Variable E : env.
Variable d : nat.

(** serialize.rs:814-845. *)
Definition skip_indexed_map (a b : ty) : sm unit :=
  sm_bind (sr_run read_byte) (fun flags =>
  sm_bind (sr_run (read_varint E)) (fun n =>
  if N.land flags 1 =? 0 then
    sm_rep (N.to_nat n) (sm_bind (sr_run (skip E d a)) (fun _ => sr_run (skip E d b)))
  else if n * 8 <? 2 ^ e_ub E then
    sm_bind (sm_op (sr_advance (n * 8))) (fun _ =>
    sm_bind (sr_run (read_n 8)) (fun lens =>
    let k_region := le_val (firstn 4 lens) in
    let v_region := le_val (skipn 4 lens) in
    if k_region + v_region <? 2 ^ e_ub E then sm_op (sr_advance (k_region + v_region))
    else sm_err ESubReaderOverrun))
  else sm_err ESubReaderOverrun)).

(** serialize.rs:858-888; also the set's, serialize.rs:268-276, 292-294, 310-313. *)
Definition skip_indexed_seq (a : ty) : sm unit :=
  sm_bind (sr_run read_byte) (fun flags =>
  sm_bind (sr_run (read_varint E)) (fun n =>
  if N.land flags 1 =? 0 then sm_rep (N.to_nat n) (sr_run (skip E d a))
  else if n =? 0 then sm_ret tt
  else if n * 4 <? 2 ^ e_ub E then
    sm_bind (fun s => rmap (fun x => (x, s)) (sr_peek (n * 4) s)) (fun table =>
    let last_off := le_val (skipn (N.to_nat ((n - 1) * 4)) table) in
    sm_bind (sm_op (sr_advance (n * 4))) (fun _ =>
    sm_bind (sm_op (sr_advance last_off)) (fun _ =>
    sr_run (skip E d a))))
  else sm_err ESubReaderOverrun)).
End SkipIdx.
