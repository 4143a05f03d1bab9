(** Which declarations compile.  Specification part; see MacroSpec.v for what is said about histories and
    lifetimes. *)

From Verif Require Import Base Prim Ty Macro MacroSpec.
From Coq Require Import List NArith ZArith Bool Permutation.
Import ListNotations.
Open Scope N_scope.

(** How often an option of some kind is given. *)
Definition given {A} (p : A -> bool) (l : list A) : nat := length (filter p l).
Definition once_each {A} (ps : list (A -> bool)) (l : list A) : Prop := forall p, In p ps -> (given p l <= 1)%nat.

Definition is_start (o : fopt) : bool := match o with FStart _ => true | _ => false end.
Definition is_end (o : fopt) : bool := match o with FEnd _ => true | _ => false end.
Definition is_convert (o : fopt) : bool := match o with FConvert _ => true | _ => false end.
Definition is_default (o : fopt) : bool := match o with FDefault _ => true | _ => false end.
Definition is_indexed (o : fopt) : bool := match o with FIndexed _ => true | _ => false end.
Definition is_fixed (o : fopt) : bool := match o with FFixed => true | _ => false end.
Definition is_specialised (o : fopt) : bool := match o with FSpecialised => true | _ => false end.
(** A field of a type at revision [cur]: no option twice (the three [indexed_*] exclude each other), nothing starts
    or ends after [cur], and what ends has a [convert_fn]. *)
Definition field_legal (cur : N) (m : mfield) : Prop :=
  once_each [is_start; is_end; is_convert; is_default; is_indexed; is_fixed; is_specialised] (mf_opts m)
  /\ (forall n, In (FStart n) (mf_opts m) \/ In (FEnd n) (mf_opts m) -> n <= cur)
  /\ ((exists n, In (FEnd n) (mf_opts m)) -> exists c, In (FConvert c) (mf_opts m)).

Definition is_vstart (o : vopt) : bool := match o with VStart _ => true | _ => false end.
Definition is_vend (o : vopt) : bool := match o with VEnd _ => true | _ => false end.
Definition is_vconvert (o : vopt) : bool := match o with VConvert _ => true | _ => false end.
Definition is_vdefault (o : vopt) : bool := match o with VDefault => true | _ => false end.
Definition is_vfields (o : vopt) : bool := match o with VFieldsName => true | _ => false end.
Definition is_vsize (o : vopt) : bool := match o with VSize _ => true | _ => false end.
Definition is_orevision (o : oopt) : bool := match o with ORevision _ => true | _ => false end.
Definition is_odiscriminant (o : oopt) : bool := match o with ODiscriminant _ => true | _ => false end.
(** [override(revision = .., discriminant = ..)]: one revision (a [usize]), at most one discriminant (a [u32]). *)
Definition override_legal (l : list oopt) : Prop :=
  given is_orevision l = 1%nat /\ (given is_odiscriminant l <= 1)%nat
  /\ (forall n, In (ORevision n) l -> n < 2 ^ 64) /\ (forall n, In (ODiscriminant n) l -> n < 2 ^ 32).
Definition variant_legal (cur : N) (v : mvariant) : Prop :=
  once_each [is_vstart; is_vend; is_vconvert; is_vdefault; is_vfields; is_vsize] (mv_opts v)
  /\ (forall n, In (VStart n) (mv_opts v) \/ In (VEnd n) (mv_opts v) -> n <= cur)
  /\ ((exists n, In (VEnd n) (mv_opts v)) -> exists c, In (VConvert c) (mv_opts v))
  /\ (forall o, In (VOverride o) (mv_opts v) -> override_legal o)
  /\ (forall n, In (VSize (SFixed n)) (mv_opts v) -> n <= 255)
  /\ (forall m, In m (mv_fields v) -> field_legal cur m).

(** [fixed] is for these. *)
Definition fixed_int (t : ty) : Prop :=
  t = TInt U32 \/ t = TInt I32 \/ t = TInt U64 \/ t = TInt I64 \/ t = TInt U128 \/ t = TInt I128.
Definition fixed_legal (r : N) (m : mfield) : Prop := field_lives r m -> In FFixed (mf_opts m) -> fixed_int (mf_ty m).
(** The variants that exist at revision [r]. *)
Definition living (r : N) (vs : list mvariant) : list mvariant :=
  filter (fun v => forallb (fun o => match o with VStart n => n <=? r | VEnd n => r <? n | _ => true end) (mv_opts v)) vs.
(** No discriminant is given to two variants of one revision. *)
Definition no_clash (r : N) (vs : list mvariant) : Prop :=
  forall i j v w d, nth_error (living r vs) i = Some v -> nth_error (living r vs) j = Some w ->
  overrides_to (mv_opts v) r d -> overrides_to (mv_opts w) r d -> i = j.
(** Revision [r], with history entry [e], of a type now at revision [cur]. *)
Definition revision_legal (k : mkind) (cur r : N) (e : hent) : Prop :=
  match k with
  | KStruct fs => h_opt e = false -> forall m, In m fs -> fixed_legal r m
  | KEnum vs =>
      no_clash r vs
      /\ (h_opt e = false -> forall v m, In v (living r vs) -> In m (mv_fields v) -> fixed_legal r m)
      /\ (h_opt e = true ->
            len (living r vs) <= 32
            /\ forall v, In v (living r vs) ->
                 (exists z, In (VSize z) (mv_opts v))
                 /\ (forall d, overrides_to (mv_opts v) r d -> d < 32)
                 /\ (r = cur -> In (VSize SInline) (mv_opts v) -> forall m, In m (mv_fields v) -> ~ field_lives r m))
  end.

Definition is_skip (o : iopt) : bool := match o with ISkip _ => true | _ => false end.
Definition is_walk (o : iopt) : bool := match o with IWalk _ => true | _ => false end.
(** Attributes of the item, in either place. *)
Definition item_legal (l : list iopt) : Prop :=
  once_each [is_skip; is_walk] l /\ forall n o, In (IEntry n o) l -> fine o.
(** Walking a type with a [convert_fn] needs both other traits. *)
Definition flags_legal (i : mitem) : Prop :=
  let ser := or_else (last_flag serialize_flag (mi_args i)) true in
  let de := or_else (last_flag deserialize_flag (mi_args i)) true in
  or_else (last_flag walk_flag (mi_args i)) de = true -> converts_somewhere (mi_kind i) -> ser = true /\ de = true.

Definition legal (i : mitem) : Prop :=
  item_legal (mi_args i) /\ item_legal (mi_attrs i) /\ flags_legal i
  /\ exists h, ((silent (mi_attrs i) /\ declares (mi_args i) h) \/ (silent (mi_args i) /\ declares (mi_attrs i) h))
     /\ len h <= 65535
     /\ match mi_kind i with
        | KStruct fs => forall m, In m fs -> field_legal (len h) m
        | KEnum vs => forall v, In v vs -> variant_legal (len h) v
        end
     /\ forall r e, 1 <= r -> nth_error h (N.to_nat (r - 1)) = Some e -> revision_legal (mi_kind i) (len h) r e.

(** [FIndexed INone] is not something one can write. *)
Definition writable (i : mitem) : Prop := forall fs m, fields_of i fs -> In m fs -> ~ In (FIndexed INone) (mf_opts m).

(** The same declaration but for the order in which the options of fields are written. *)
Definition field_reordered (m m' : mfield) : Prop :=
  mf_ty m' = mf_ty m /\ mf_default m' = mf_default m /\ Permutation (mf_opts m) (mf_opts m').
Definition variant_reordered (v v' : mvariant) : Prop :=
  mv_name v' = mv_name v /\ mv_opts v' = mv_opts v /\ Forall2 field_reordered (mv_fields v) (mv_fields v').
Definition reordered (i i' : mitem) : Prop :=
  mi_args i' = mi_args i /\ mi_attrs i' = mi_attrs i
  /\ match mi_kind i, mi_kind i' with
     | KStruct fs, KStruct fs' => Forall2 field_reordered fs fs'
     | KEnum vs, KEnum vs' => Forall2 variant_reordered vs vs'
     | _, _ => False
     end.
