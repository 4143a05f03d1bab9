(** [Revisioned::revision()].  Model part. *)

From Verif Require Import Base Ty.
From Coq Require Import List NArith Bool.
Import ListNotations.
Open Scope N_scope.

(** Types that write what their content writes, by name: [TWrap] does not tell them apart. *)
Inductive wrapper := WBox | WArc | WCow | WWrapping | WReverse.
(** Types as they are named in a program.  [NBuiltin] is any type of src/implementations that is no wrapper. *)
Inductive named :=
| NBuiltin (t : ty)
| NDerived (n : N)
| NWrap (w : wrapper) (a : named).
(** boxes.rs:7-25, arc.rs:8-26, cow.rs:5-28, wrapping.rs:8-26, reverse.rs:8-26: wrappers call the implementations of
    their content. *)
Fixpoint as_ty (a : named) : ty :=
  match a with NBuiltin t => t | NDerived n => TRef n | NWrap _ a' => TWrap (as_ty a') end.
(** Derived types: revision-derive/src/expand/mod.rs:284-291, the last revision of the history.  boxes.rs:27-35,
    arc.rs:28-36, wrapping.rs:28-36, reverse.rs:28-36 and all other implementations: 1.  cow.rs:30-39: that of the content. *)
Fixpoint revision (E : env) (a : named) : N :=
  match a with
  | NBuiltin _ => 1
  | NDerived n => match e_sch E n with Some s => scur s | None => 1 end
  | NWrap WCow a' => revision E a'
  | NWrap _ _ => 1
  end.
