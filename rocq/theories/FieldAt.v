(** Single fields of an indexed struct payload: src/optimised/indexed/struct_walk.rs.  Model part. *)

From Verif Require Import Base Prog Ty De IdxWalk.
From Coq Require Import List NArith Bool.
Import ListNotations.
Open Scope N_scope.

(** struct_walk.rs:183-187 [decode_field]; what the decoder leaves of the slice is dropped with it. *)
Definition decode_at (E : env) (d : nat) (w : structw) (i : N) (t : ty) : res val :=
  rbind (field_bytes w i) (fun b => rmap fst (run (deserialize E d t) b)).
(** struct_walk.rs:189-194 [skip_field]. *)
Definition skip_at (w : structw) (i : N) : res unit := Ok tt.
