(** Builds of one program for different targets: specification part. *)

From Verif Require Import Base Ty.
From Coq Require Import List NArith.

(** Same cargo features, same type declarations.  Pointer width, allocator, layout of types, debug or
    release build and iteration order of hash tables may differ. *)
Definition same_build (E E' : env) : Prop :=
  e_fw E = e_fw E' /\ e_spec E = e_spec E' /\ forall n, e_sch E n = e_sch E' n.
(** Hash tables and heaps with the same contents iterate in the same order. *)
Definition same_iteration (E E' : env) : Prop := forall t l, e_iter E t l = e_iter E' t l.
