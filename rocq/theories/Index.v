(** A file of values with an index, as a program would build it from [skip_slice] (lib.rs:72-76): where the values start is
    found by skipping, single values are read at their place, and values are copied to a new file as they are, without
    decoding.  Model part: the program; what it calls is modelled in Skip.v and De.v. *)

From Verif Require Import Base Prog Ty Ser De SliceReader Skip.
From Coq Require Import List NArith Bool.
Import ListNotations.
Open Scope N_scope.

Section Index.
Variables (d : nat) (n : N).
Local Notation t := (TRef n).

(** lib.rs:72-76 in a loop: start and length of every value. *)
Fixpoint places (E : env) (fuel : nat) (pos : N) (bs : bytes) : res (list (N * N)) :=
  match fuel, bs with
  | _, [] | O, _ => Ok []
  | S k, _ =>
      rbind (skip_slice E d t bs) (fun m =>
      rbind (places E k (pos + m) (skipn (N.to_nat m) bs)) (fun l => Ok ((pos, m) :: l)))
  end.
Definition index (E : env) (file : bytes) : res (list (N * N)) := places E (length file) 0 file.
(** The bytes of a value, and those from its start on. *)
Definition tail_at (file : bytes) (p : N * N) : bytes := skipn (N.to_nat (fst p)) file.
Definition bytes_at (file : bytes) (p : N * N) : bytes := firstn (N.to_nat (snd p)) (tail_at file p).
(** lib.rs:174-181 [from_slice] at a place. *)
Definition read_at (E : env) (file : bytes) (p : N * N) : res val := from_slice E d t (tail_at file p).
(** A new file with the values at these places, in this order. *)
Definition copied (file : bytes) (ps : list (N * N)) : bytes := concat (map (bytes_at file) ps).
End Index.
