(** Types that differ only in transparent wrappers (Box, Arc, Cow, Wrapping, Reverse).  Specification part. *)

From Verif Require Import Base Prog Prim Ty.
From Coq Require Import List NArith ZArith Bool.
Import ListNotations.
Open Scope N_scope.

Section Same.
Variable E : env.
(** Wrappers may be added or removed anywhere, except that: under specialised-vectors a vector's element must stay
    one with (or without) a bulk form; keys and elements of maps and sets must keep their order, and hash tables
    and heaps their iteration order. *)
Inductive same_wire : ty -> ty -> Prop :=
| sw_refl : forall t, same_wire t t
| sw_wrap_l : forall t t', same_wire t t' -> same_wire (TWrap t) t'
| sw_wrap_r : forall t t', same_wire t t' -> same_wire t (TWrap t')
| sw_pair : forall a a' b b', same_wire a a' -> same_wire b b' -> same_wire (TPair a b) (TPair a' b')
| sw_vec : forall t t', same_wire t t' -> (e_spec E = true -> bulk_of t = bulk_of t') -> same_wire (TVec t) (TVec t')
| sw_imvec : forall t t', same_wire t t' -> same_wire (TImVec t) (TImVec t')
| sw_array : forall n t t', same_wire t t' -> same_wire (TArray n t) (TArray n t')
| sw_option : forall t t', same_wire t t' -> same_wire (TOption t) (TOption t')
| sw_result : forall a a' b b', same_wire a a' -> same_wire b b' -> same_wire (TResult a b) (TResult a' b')
| sw_bound : forall t t', same_wire t t' -> same_wire (TBound t) (TBound t')
| sw_map : forall k a a' b b', same_wire a a' -> same_wire b b' ->
    (forall x y, e_cmp E a x y = e_cmp E a' x y) -> (forall l, e_iter E (TMap k a b) l = e_iter E (TMap k a' b') l) ->
    same_wire (TMap k a b) (TMap k a' b')
| sw_set : forall k t t', same_wire t t' -> (forall x y, e_cmp E t x y = e_cmp E t' x y) ->
    (forall l, e_iter E (TSet k t) l = e_iter E (TSet k t') l) -> same_wire (TSet k t) (TSet k t')
| sw_heap : forall t t', same_wire t t' -> (forall l, e_iter E (THeap t) l = e_iter E (THeap t') l) ->
    same_wire (THeap t) (THeap t')
| sw_ext : forall c m t t', same_wire t t' -> same_wire (TExt c m t) (TExt c m t').

(** The same in the fields of derived types; fields with encoding attributes keep their type. *)
Definition same_field (f f' : field) : Prop :=
  f_start f' = f_start f /\ f_end f' = f_end f /\ f_default f' = f_default f /\ f_convert f' = f_convert f
  /\ f_fixed f' = f_fixed f /\ f_spec f' = f_spec f /\ f_idx f' = f_idx f
  /\ (f_ty f' = f_ty f \/ (same_wire (f_ty f) (f_ty f') /\ f_fixed f = false /\ f_spec f = false /\ f_idx f = INone)).
Definition same_variant (v v' : variant) : Prop :=
  v_name v' = v_name v /\ v_start v' = v_start v /\ v_end v' = v_end v /\ v_over v' = v_over v /\ v_size v' = v_size v
  /\ v_convert v' = v_convert v /\ Forall2 same_field (v_fields v) (v_fields v').
Definition same_schema (s s' : schema) : Prop :=
  s_hist s' = s_hist s /\
  match s_body s, s_body s' with
  | SStruct fs, SStruct fs' => Forall2 same_field fs fs'
  | SEnum vs, SEnum vs' => Forall2 same_variant vs vs'
  | _, _ => False
  end.
(** The program with these schemas instead. *)
Definition set_sch (S : N -> option schema) : env :=
  mkEnv (e_fw E) (e_spec E) (e_dbg E) (e_ub E) (e_mem E) (e_esize E) (e_cmp E) (e_iter E) (e_dec E) (e_ext E) (e_time E) S.
Definition rewrapped (S : N -> option schema) : Prop :=
  forall n, match e_sch E n, S n with Some s, Some s' => same_schema s s' | None, None => True | _, _ => False end.
End Same.
