(** The cargo features that change the wire format.  Specification part. *)

From Verif Require Import Base Prim Ty Parts Local.
From Coq Require Import List NArith Bool.
Import ListNotations.
Open Scope N_scope.

(** The same program built with the feature [specialised-vectors] on or off, or [fixed-width-encoding] on or off. *)
Definition with_specialised (b : bool) (E : env) : env :=
  mkEnv (e_fw E) b (e_dbg E) (e_ub E) (e_mem E) (e_esize E) (e_cmp E) (e_iter E) (e_dec E) (e_ext E) (e_time E) (e_sch E).
Definition with_fixed_width (b : bool) (E : env) : env :=
  mkEnv b (e_spec E) (e_dbg E) (e_ub E) (e_mem E) (e_esize E) (e_cmp E) (e_iter E) (e_dec E) (e_ext E) (e_time E) (e_sch E).

(** Elements whose vectors look the same with and without [specialised-vectors]: not [bool], and not integers of 16 bits
    and more, save unsigned ones under [fixed-width-encoding]. *)
Definition same_either_way (fixed_width : bool) (t : ty) : bool :=
  match t with
  | TBool => false
  | TInt (I16 | I32 | I64 | I128) => false
  | TInt (U16 | U32 | U64 | U128) => fixed_width
  | _ => true
  end.
Definition vectors_same (fixed_width : bool) : ty -> bool :=
  ty_all (fun t => match t with TVec t' => same_either_way fixed_width t' | _ => true end).
(** In the type and in all declarations it uses. *)
Definition specialised_free (E : env) (t : ty) : Prop :=
  vectors_same (e_fw E) t = true
  /\ forall n s f, uses E t n -> e_sch E n = Some s -> has_field s f -> vectors_same (e_fw E) (f_ty f) = true.

(** Types without lengths, revision numbers and integers of more than 8 bits. *)
Definition fixed_width_free : ty -> bool :=
  ty_all (fun t => match t with
                   | TBool | TInt (U8 | I8) | TF32 | TF64 | TChar | TUuid | TDecimal | TUnit
                   | TPair _ _ | TArray _ _ | TOption _ | TWrap _ | TExt _ _ _ => true
                   | _ => false
                   end).
