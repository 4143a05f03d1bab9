(** Which declarations the data of a type depends on.  Specification part. *)

From Verif Require Import Base Ty Transp.
From Coq Require Import List NArith Bool.
Import ListNotations.
Open Scope N_scope.

(** The derived types named in a type. *)
Fixpoint names (t : ty) : list N :=
  match t with
  | TRef n => [n]
  | TPair a b | TResult a b | TMap _ a b => names a ++ names b
  | TVec a | TImVec a | TArray _ a | TOption a | TBound a | TSet _ a | THeap a | TWrap a | TExt _ _ a => names a
  | _ => []
  end.
Definition has_field (s : schema) (f : field) : Prop :=
  match s_body s with
  | SStruct fs => In f fs
  | SEnum vs => exists v, In v vs /\ In f (v_fields v)
  end.
(** Named in [t], or in the declaration of such a type, and so on. *)
Inductive uses (E : env) (t : ty) : N -> Prop :=
| uses_here : forall n, In n (names t) -> uses E t n
| uses_in : forall m s f n, uses E t m -> e_sch E m = Some s -> has_field s f -> In n (names (f_ty f)) -> uses E t n.
(** [S]: the declarations of another program, which has those that [t] uses. *)
Definition same_used (E : env) (t : ty) (S : N -> option schema) : Prop := forall n, uses E t n -> S n = e_sch E n.
