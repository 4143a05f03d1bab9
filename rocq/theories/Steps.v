(** Upgrading through an intermediate version: specification part. *)

From Verif Require Import Base Prog Ty Typed Mig Parts Evol.
From Coq Require Import List NArith ZArith Bool.
Import ListNotations.
Open Scope N_scope.

(** What one value becomes when the derived types in it are replaced by related ones ([R n]: for the
    derived type [n]): everything around them stays the same. *)
Fixpoint carried (R : N -> val -> val -> Prop) (t : ty) (v v' : val) {struct t} : Prop :=
  match t, v, v' with
  | TPair a b, VPair x y, VPair x' y' => carried R a x x' /\ carried R b y y'
  | TVec t', VSeq l, VSeq l' | TImVec t', VSeq l, VSeq l' | TArray _ t', VSeq l, VSeq l' => Forall2 (carried R t') l l'
  | TOption t', VVar k l, VVar k' l' | TBound t', VVar k l, VVar k' l' => k' = k /\ Forall2 (carried R t') l l'
  | TResult a b, VVar k l, VVar k' l' =>
      k' = k /\ Forall2 (fun x y => if k =? 0 then carried R a x y else carried R b x y) l l'
  | TMap _ _ b, VSeq l, VSeq l' =>
      Forall2 (fun p q => match p, q with VPair k x, VPair k' y => k' = k /\ carried R b x y | _, _ => False end) l l'
  | TWrap t', _, _ => carried R t' v v'
  | TRef n, _, _ => R n v v'
  | _, _, _ => v' = v
  end.

(** Derived types do not occur in the keys of maps, in sets, heaps and external types. *)
Fixpoint plain_keys (t : ty) : bool :=
  match t with
  | TMap _ a b => ty_all built_in a && plain_keys b
  | TSet _ a | THeap a | TExt _ _ a => ty_all built_in a
  | TPair a b | TResult a b => plain_keys a && plain_keys b
  | TVec a | TImVec a | TArray _ a | TOption a | TBound a | TWrap a => plain_keys a
  | _ => true
  end.

(** [E'] declares everything that [E] has at its current revisions as still existing. *)
Definition nothing_removed (E E' : env) : Prop :=
  forall n s s', e_sch E n = Some s -> e_sch E' n = Some s' ->
  match s_body s' with
  | SStruct fs => forall f, In f fs -> falive (scur s) f = true -> falive (scur s') f = true
  | SEnum vs => forall v, In v vs -> valive (scur s) v = true ->
      valive (scur s') v = true /\ forall f, In f (v_fields v) -> falive (scur s) f = true -> falive (scur s') f = true
  end.

(** Three versions of a program with revisions [r1 <= r2] of a type in the first two: the fields
    [fs] declared in the second next to those declared in the third.
    - The default of a field added up to [r2] is, in the third, the migrated default of the second.
    - The default of a field added after [r2] does not depend on whether [r1] or [r2] is read. *)
Inductive settled (mig : ty -> val -> val -> Prop) (r1 r2 : N) : list field -> list field -> Prop :=
| se_nil : settled mig r1 r2 [] []
| se_keep : forall f f' fs fs', edit_field r2 f f' ->
    (falive r1 f = false -> falive r2 f = true ->
     forall x y, f_default f r1 = Ok x -> mig (f_ty f) x y -> f_default f' r1 = Ok y) ->
    (falive r2 f = false -> f_default f' r1 = f_default f' r2) ->
    settled mig r1 r2 fs fs' -> settled mig r1 r2 (f :: fs) (f' :: fs')
| se_add : forall f' fs fs', r2 < f_start f' -> f_default f' r1 = f_default f' r2 ->
    settled mig r1 r2 fs fs' -> settled mig r1 r2 fs (f' :: fs').
Inductive settled_variants (mig : ty -> val -> val -> Prop) (r1 r2 : N) : list variant -> list variant -> Prop :=
| sv_nil : settled_variants mig r1 r2 [] []
| sv_keep : forall v v' vs vs', edit_variant r2 v v' -> settled mig r1 r2 (v_fields v) (v_fields v') ->
    settled_variants mig r1 r2 vs vs' -> settled_variants mig r1 r2 (v :: vs) (v' :: vs')
| sv_add : forall v' vs vs', r2 < v_start v' -> settled_variants mig r1 r2 vs vs' ->
    settled_variants mig r1 r2 vs (v' :: vs').
Definition defaults_settled (E1 E2 E3 : env) : Prop :=
  forall n s1 s2 s3, e_sch E1 n = Some s1 -> e_sch E2 n = Some s2 -> e_sch E3 n = Some s3 ->
  let mig := fun t x y => exists d, migrate E2 E3 d t x = Ok y in
  match s_body s2, s_body s3 with
  | SStruct fs, SStruct fs' => settled mig (scur s1) (scur s2) fs fs'
  | SEnum vs, SEnum vs' => settled_variants mig (scur s1) (scur s2) vs vs'
  | _, _ => False
  end.
