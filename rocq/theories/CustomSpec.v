(** What is asked of an implementation written by hand, in terms of what can be observed of it: bytes written, values read. *)

From Verif Require Import Base Prog Ty Ser De Typed Custom.
From Coq Require Import List NArith.
Open Scope N_scope.

(** Reads back what it wrote and leaves what follows, if the types inside it do. *)
Definition reads_back (c : codec) : Prop := forall ser_in de_in (ok_in : N -> val -> Prop),
  (forall n v ops rest, ok_in n v -> ser_in n v = Ok ops -> run (de_in n) (out ops ++ rest) = Ok (v, rest)) ->
  forall v ops rest, c_ok c ok_in v -> c_ser c ser_in v = Ok ops -> run (c_de c de_in) (out ops ++ rest) = Ok (v, rest).
(** The same across two programs: what [c] wrote, [c'] reads as [m] says. *)
Definition reads_as (c c' : codec) (m : (N -> val -> res val) -> val -> res val) : Prop :=
  forall ser_in de_in mig_in (ok_in : N -> val -> Prop),
  (forall n v ops rest, ok_in n v -> ser_in n v = Ok ops -> run (de_in n) (out ops ++ rest) = rmap (fun w => (w, rest)) (mig_in n v)) ->
  forall v ops rest, c_ok c ok_in v -> c_ser c ser_in v = Ok ops ->
    run (c_de c' de_in) (out ops ++ rest) = rmap (fun w => (w, rest)) (m mig_in v).
(** Skips whatever it reads, if the types inside it do.  [M] bounds the input: it is the size of the address space. *)
Definition skips_alike (M : N) (c : codec) : Prop := forall de_in skip_in,
  (forall n bs v rest, len bs < M -> run (de_in n) bs = Ok (v, rest) -> run (skip_in n) bs = Ok (tt, rest)) ->
  forall bs v rest, len bs < M -> run (c_de c de_in) bs = Ok (v, rest) -> run (c_skip c skip_in de_in) bs = Ok (tt, rest).
