(** Changing the type of a field in place, without a new revision.  Specification part. *)

From Verif Require Import Base Prog Prim Ty Ser Transp.
From Coq Require Import List NArith ZArith Bool.
Import ListNotations.
Open Scope N_scope.

Section Retype.
Variable E : env.
(** Whether hash tables and heaps must keep their iteration order: not needed to read old data, needed for writing the
    same bytes. *)
Variable same_order : Prop.

(** Integer types that read each other's numbers: with variable-length integers a wider type of the same signedness, and on
    64-bit targets usize/isize and u64/i64.  Not [u8] and [i8], which are always one raw byte. *)
Definition wider_int (i i' : ity) : bool :=
  match i, i' with
  | U16, (U32 | U64 | U128) | U32, (U64 | U128) | U64, U128
  | I16, (I32 | I64 | I128) | I32, (I64 | I128) | I64, I128 => negb (e_fw E)
  | (U16 | U32), Usize | (I16 | I32), Isize => negb (e_fw E) && (ity_bits (e_ub E) i <=? e_ub E)
  | U64, Usize | Usize, U64 | I64, Isize | Isize, I64 => e_ub E =? 64
  | Usize, U128 | Isize, I128 => negb (e_fw E) && (e_ub E =? 64)
  | _, _ => false
  end.
(** No bulk form: vectors of this element are written one element after the other. *)
Definition one_by_one (t : ty) : Prop := e_spec E = true -> bulk_of t = None.
(** Keys that compare equal only if they are the same. *)
Definition strict_keys (t : ty) : Prop := forall x y, e_cmp E t x y = Eq -> x = y.

(** [widens t t']: the type [t] may be changed to [t']. *)
Inductive widens : ty -> ty -> Prop :=
| wd_refl : forall t, widens t t
| wd_int : forall i i', wider_int i i' = true -> widens (TInt i) (TInt i')
| wd_str_path : widens TStr TPath
| wd_path_str : widens TPath TStr
| wd_str_bytes : widens TStr TBytes
| wd_path_bytes : widens TPath TBytes
(* dropping a validation that does not change the value: NotNan, regexes *)
| wd_ext : forall c m t t', widens t t' -> (forall x y, e_ext E c x = Some y -> y = x) -> widens (TExt c m t) t'
| wd_in_ext : forall c m t t', widens t t' -> widens (TExt c m t) (TExt c m t')
| wd_wrap_l : forall t t', widens t t' -> widens (TWrap t) t'
| wd_wrap_r : forall t t', widens t t' -> widens t (TWrap t')
| wd_pair : forall a a' b b', widens a a' -> widens b b' -> widens (TPair a b) (TPair a' b')
| wd_vec : forall t t', widens t t' -> one_by_one t -> one_by_one t' -> widens (TVec t) (TVec t')
| wd_vec_im : forall t t', widens t t' -> one_by_one t -> widens (TVec t) (TImVec t')
| wd_im_vec : forall t t', widens t t' -> one_by_one t' -> widens (TImVec t) (TVec t')
| wd_im : forall t t', widens t t' -> widens (TImVec t) (TImVec t')
| wd_array : forall n t t', widens t t' -> widens (TArray n t) (TArray n t')
| wd_option : forall t t', widens t t' -> widens (TOption t) (TOption t')
| wd_result : forall a a' b b', widens a a' -> widens b b' -> widens (TResult a b) (TResult a' b')
| wd_bound : forall t t', widens t t' -> widens (TBound t) (TBound t')
(* also between hash based and ordered maps and sets *)
| wd_map : forall k k' a a' b b', widens a a' -> widens b b' -> (forall x y, e_cmp E a x y = e_cmp E a' x y) ->
    (k = k' \/ strict_keys a) -> (same_order -> forall l, citer E k (TMap k a b) l = citer E k' (TMap k' a' b') l) -> widens (TMap k a b) (TMap k' a' b')
| wd_set : forall k k' t t', widens t t' -> (forall x y, e_cmp E t x y = e_cmp E t' x y) ->
    (k = k' \/ strict_keys t) -> (same_order -> forall l, citer E k (TSet k t) l = citer E k' (TSet k' t') l) -> widens (TSet k t) (TSet k' t')
| wd_heap : forall t t', widens t t' -> (same_order -> forall l, e_iter E (THeap t) l = e_iter E (THeap t') l) -> widens (THeap t) (THeap t').

(** In the fields of derived types; fields with encoding attributes keep their type.  The user's functions are the same
    functions on the same values. *)
Definition retyped_field (f f' : field) : Prop :=
  f_start f' = f_start f /\ f_end f' = f_end f /\ f_default f' = f_default f /\ f_convert f' = f_convert f
  /\ f_fixed f' = f_fixed f /\ f_spec f' = f_spec f /\ f_idx f' = f_idx f
  /\ (f_ty f' = f_ty f \/ (widens (f_ty f) (f_ty f') /\ f_fixed f = false /\ f_spec f = false /\ f_idx f = INone)).
Definition retyped_variant (v v' : variant) : Prop :=
  v_name v' = v_name v /\ v_start v' = v_start v /\ v_end v' = v_end v /\ v_over v' = v_over v /\ v_size v' = v_size v
  /\ v_convert v' = v_convert v /\ Forall2 retyped_field (v_fields v) (v_fields v').
Definition retyped_schema (s s' : schema) : Prop :=
  s_hist s' = s_hist s /\
  match s_body s, s_body s' with
  | SStruct fs, SStruct fs' => Forall2 retyped_field fs fs'
  | SEnum vs, SEnum vs' => Forall2 retyped_variant vs vs'
  | _, _ => False
  end.
(** The program after the change has the schemas [S]. *)
Definition retyped (S : N -> option schema) : Prop :=
  forall n, match e_sch E n, S n with Some s, Some s' => retyped_schema s s' | None, None => True | _, _ => False end.
End Retype.
