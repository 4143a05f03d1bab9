(** Types whose bytes do not depend on iteration order: specification part. *)

From Verif Require Import Base Ty Parts.
From Coq Require Import List NArith ZArith Bool Permutation.
Import ListNotations.
Open Scope N_scope.

(** The same program, whose hash tables and heaps happen to iterate in another order. *)
Definition set_iter (it : ty -> list val -> list val) (E : env) : env :=
  mkEnv (e_fw E) (e_spec E) (e_dbg E) (e_ub E) (e_mem E) (e_esize E) (e_cmp E) it (e_dec E)
        (e_ext E) (e_time E) (e_sch E).
Definition permutes (it : ty -> list val -> list val) : Prop := forall t l, Permutation (it t l) l.

(** No hash table or heap inside. *)
Definition ordered (t : ty) : bool :=
  ty_all (fun u => match u with TMap KHash _ _ | TSet KHash _ | THeap _ => false | _ => true end) t.
(** A field: hash tables are allowed where they are encoded with [indexed_map] / [indexed_set]. *)
Definition field_ordered (m : fmode) (t : ty) : bool :=
  match m, t with
  | MIdxMap, TMap _ a b => ordered a && ordered b
  | MIdxSet, TSet _ a => ordered a
  | _, _ => ordered t
  end.
(** Every field the program writes (at the current revision of its type) is such a field; fields of
    optimised enum variants are always written plainly. *)
Definition order_free (E : env) : Prop :=
  forall n s h, e_sch E n = Some s -> sent s (scur s) = Some h ->
  match s_body s with
  | SStruct fs => forall f, In f fs -> falive (scur s) f = true -> field_ordered (mode_of (h_opt h) f) (f_ty f) = true
  | SEnum vs => forall vr f, In vr vs -> In f (v_fields vr) -> falive (scur s) f = true ->
      if h_opt h then ordered (f_ty f) = true else field_ordered (mode_of false f) (f_ty f) = true
  end.
